(** * ConnModel: direct and chained discretization connections.

    Models meshmode/discretization/connection/direct.py: InterpolationBatch._global_from_element_indices (151-195),
    DirectDiscretizationConnection._resample_point_pick_indices (423-447, the result is an argument), is_permutation (465-478),
    _per_target_group_pick_info (482-569), __call__ (587-867), make_direct_full_resample_matrix (876-981), and
    connection/same_mesh.py: make_same_mesh_connection (43-87),
    connection/chained.py: ChainedDiscretizationConnection (37-71), flatten_chained_connection (78-264), make_full_resample_matrix (271-311).

    Simplified: values are elements of an arbitrary commutative ring; unit nodes are an opaque type N, kinds of element groups (order,
    shape, unit nodes) an opaque type K; the resampling matrix and the pick list (from find_point_to_point_mapping, modelled in PointModel.v) are functions
    of those.  Array contexts, freezing and memoisation of results are not modelled; loopy kernels are modelled by what they compute.
    NumPy's broadcasting in an assignment a[i] = v of index lists of unequal length is an error here.  No proofs in this file. *)
From Coq Require Import List Arith Bool ZArith.
From Verif Require Import Np Lin.
Import ListNotations.

Section Conn.
  Variable R : cring.
  Context {N K : Type}.

  (** ElementGroupBase: nelements, nunit_dofs, everything else *)
  Record dgroup : Type := mk_dgroup { dg_nel : nat; dg_ndof : nat; dg_kind : K }.
  (** InterpolationBatch (direct.py:79-148) *)
  Record batch : Type := mk_batch {
    bt_fgrp : nat; bt_from : list nat; bt_to : list nat; bt_nodes : N; bt_face : option nat }.
  (** DirectDiscretizationConnection (349-384) *)
  Record conn : Type := mk_conn {
    cn_from : list dgroup; cn_to : list dgroup; cn_groups : list (list batch); cn_surj : bool }.
  (** Contents of a DOFArray: values by group, element, degree of freedom *)
  Definition dofs : Type := list (list (list R)).

  Variable rmat : K -> N -> list (list R).            (* _resample_matrix *)
  Variable rpick : K -> N -> option (list nat).       (* _resample_point_pick_indices *)

  (** np.full(nelements, -1)[to] = from; mask and indices (180-183) *)
  Definition assign_from (full : list Z) (b : batch) : res (list Z) :=
    _ <- guard (length (bt_to b) =? length (bt_from b)) ValueError ;;
    scatter full (combine (bt_to b) (map Z.of_nat (bt_from b))).
  Definition presence (full : list Z) : list (bool * nat) :=
    map (fun z => if Z.eqb z (-1) then (false, 0) else (true, Z.to_nat z)) full.
  Definition global_from (nel : nat) (b : batch) : res (list (bool * nat)) :=
    full <- assign_from (repeat (-1)%Z nel) b ;; Ok (presence full).

  (** is_permutation (465-478) *)
  Definition is_permutation (c : conn) : res bool :=
    ps <- mapM (fun b => g <- get (cn_from c) (bt_fgrp b) ;; Ok (rpick (dg_kind g) (bt_nodes b))) (concat (cn_groups c)) ;;
    Ok (forallb (fun p => match p with Some _ => true | None => false end) ps).

  (** _FromGroupPickData (203-258) *)
  Record pickdata : Type := mk_pickdata {
    pd_fgrp : nat; pd_lists : list (list nat); pd_which : list nat; pd_from : list (bool * nat); pd_surj : bool }.

  Definition list_eqb (a b : list nat) : bool := if list_eq_dec Nat.eq_dec a b then true else false.
  (** pytools.unique: first occurrences *)
  Fixpoint uniq (l : list (list nat)) : list (list nat) :=
    match l with [] => [] | x :: l => x :: filter (fun y => negb (list_eqb x y)) (uniq l) end.
  Definition index_of_list (l : list (list nat)) (x : list nat) : res nat :=
    match find (fun iy => list_eqb (snd iy) x) (enumerate l) with Some iy => Ok (fst iy) | None => Err KeyError end.

  (** One source group (511-566).  None: target elements of the batches are not disjoint *)
  Definition merge_source (nel g : nat) (bps : list (batch * list nat)) : res (option pickdata) :=
    let lists := uniq (map snd bps) in
    (* dof_pick_list_indices has dtype int8 *)
    _ <- guard (length lists - 1 <=? 127) AssertionError ;;
    st <- foldM (fun (st : option (list Z * list nat)) bp =>
            match st with
            | None => Ok None
            | Some (full, which) =>
                cur <- take full (bt_to (fst bp)) ;;
                if existsb (fun z => negb (Z.eqb z (-1))) cur then Ok None
                else
                  full' <- assign_from full (fst bp) ;;
                  w <- index_of_list lists (snd bp) ;;
                  which' <- scatter which (map (fun t => (t, w)) (bt_to (fst bp))) ;;
                  Ok (Some (full', which'))
            end) bps (Some (repeat (-1)%Z nel, repeat 0 nel)) ;;
    match st with
    | None => Ok None
    | Some (full, which) =>
        Ok (Some (mk_pickdata g lists which (presence full) (forallb (fun z => negb (Z.eqb z (-1))) full)))
    end.

  (** all of a list of options *)
  Fixpoint all_some {X} (l : list (option X)) : option (list X) :=
    match l with
    | [] => Some []
    | Some x :: l => match all_some l with Some xs => Some (x :: xs) | None => None end
    | None :: _ => None
    end.

  (** _per_target_group_pick_info (482-569); the loop stops at the first source group with overlapping batches *)
  Definition pick_info (from : list dgroup) (nel : nat) (bs : list batch) : res (option (list pickdata)) :=
    picks <- mapM (fun b => g <- get from (bt_fgrp b) ;; Ok (rpick (dg_kind g) (bt_nodes b))) bs ;;
    match all_some picks with
    | None => Ok None
    | Some picks =>
        match unique (map bt_fgrp bs) with
        | [] => Ok None
        | srcs =>
            foldM (fun (acc : option (list pickdata)) g =>
                     match acc with
                     | None => Ok None
                     | Some pds =>
                         o <- merge_source nel g (filter (fun bp => bt_fgrp (fst bp) =? g) (combine bs picks)) ;;
                         Ok (match o with Some pd => Some (pds ++ [pd]) | None => None end)
                     end) srcs (Some [])
        end
    end.

  Definition zero_rows (nel nd : nat) : list (list R) := repeat (zeros (R := R) nd) nel.
  Definition madd (a b : list (list R)) : list (list R) := map2 vadd a b.

  (** Values of one target element, given where they come from.  eager: the indirect access is evaluated also for elements without source
      (actx.np.where), otherwise only where there is data (loopy) *)
  Definition element_values (eager : bool) (nd : nat) (src : list (list R)) (op : list R -> res (list R)) (pf : bool * nat) : res (list R) :=
    if eager then
      x <- get src (snd pf) ;; v <- op x ;; Ok (if fst pf then v else zeros nd)
    else if fst pf then x <- get src (snd pf) ;; op x else Ok (zeros nd).

  (** Contribution of one source group in the merged evaluation (736-783).  None: skipped because the source array is empty *)
  Definition merged_contribution (eager : bool) (nd : nat) (ary : dofs) (pd : pickdata) : res (option (list (list R))) :=
    src <- get ary (pd_fgrp pd) ;;
    if eager && (length (concat src) =? 0) then Ok None
    else
      rows <- mapM (fun wp => element_values eager nd src (fun x => pl <- get (pd_lists pd) (fst wp) ;; take x pl)
                                 (if pd_surj pd then (true, snd (snd wp)) else snd wp))
                   (combine (pd_which pd) (pd_from pd)) ;;
      Ok (Some rows).

  (** Contribution of one batch (786-851).  None: skipped because the batch is empty *)
  Definition batch_contribution (eager : bool) (from : list dgroup) (nel nd : nat) (ary : dofs) (b : batch) : res (option (list (list R))) :=
    if length (bt_from b) =? 0 then Ok None
    else
      g <- get from (bt_fgrp b) ;;
      pfs <- global_from nel b ;;
      src <- get ary (bt_fgrp b) ;;
      let op x := match rpick (dg_kind g) (bt_nodes b) with
                  | Some pl => take x pl
                  | None => Ok (matvec (rmat (dg_kind g) (bt_nodes b)) x)
                  end in
      rows <- mapM (element_values eager nd src op) pfs ;;
      Ok (Some rows).

  (** sum(contributions), or zeros if there are none (853-863) *)
  Definition total (nel nd : nat) (cs : list (option (list (list R)))) : list (list R) :=
    match flat_map (fun o => match o with Some c => [c] | None => [] end) cs with
    | [] => zero_rows nel nd
    | c :: cs => fold_left madd cs c
    end.

  (** check_dofarray_against_discr *)
  Definition has_shape (gs : list dgroup) (ary : dofs) : bool :=
    (length ary =? length gs) &&
    forallb (fun ga => (length (snd ga) =? dg_nel (fst ga)) && forallb (fun row : list R => length row =? dg_ndof (fst ga)) (snd ga)) (combine gs ary).

  (** __call__ (587-867); eager: actx.permits_advanced_indexing and not _force_use_loopy; nomerge: _force_no_merged_batches *)
  Definition call (eager nomerge : bool) (c : conn) (ary : dofs) : res dofs :=
    _ <- guard (has_shape (cn_from c) ary) InconsistentDOFArray ;;
    (* self._global_point_pick_info(actx) *)
    infos <- mapM (fun ib => tg <- get (cn_to c) (fst ib) ;; pick_info (cn_from c) (dg_nel tg) (snd ib)) (enumerate (cn_groups c)) ;;
    mapM (fun ibi =>
            let '(i, (bs, info)) := ibi in
            tg <- get (cn_to c) i ;;
            cs <- match (if nomerge then None else info) with
                  | Some pds => mapM (merged_contribution eager (dg_ndof tg) ary) pds
                  | None => mapM (batch_contribution eager (cn_from c) (dg_nel tg) (dg_ndof tg) ary) bs
                  end ;;
            Ok (total (dg_nel tg) (dg_ndof tg) cs))
         (enumerate (combine (cn_groups c) infos)).

  (** ** make_direct_full_resample_matrix (876-981) *)
  Definition ndofs (gs : list dgroup) : nat := sum (map (fun g => dg_nel g * dg_ndof g) gs).

  (** The kernel: a matrix in row-major order, first set to zero, then written *)
  Definition batch_matrix (nt ns tb sb ndt nds : nat) (m : list (list R)) (b : batch) : res (list (list R)) :=
    _ <- guard (length (bt_to b) =? length (bt_from b)) ValueError ;;
    writes <- mapM (fun tf =>
        rows <- mapM (fun ij =>
            let '(i, j) := (ij : nat * nat) in
            row <- get m i ;; v <- get row j ;;
            _ <- guard ((tb + fst tf * ndt + i <? nt) && (sb + snd tf * nds + j <? ns)) IndexError ;;
            Ok ((tb + fst tf * ndt + i) * ns + (sb + snd tf * nds + j), v)) (grid ndt nds) ;; Ok rows)
      (combine (bt_to b) (bt_from b)) ;;
    flat <- scatter (repeat (@r0 R) (nt * ns)) (concat writes) ;;
    Ok (map (fun r => slice flat (r * ns) (r * ns + ns)) (seq 0 nt)).

  (** sum(mats); None for the number 0, the sum of no matrices *)
  Definition full_matrix (c : conn) : res (option (list (list R))) :=
    let nt := ndofs (cn_to c) in
    let ns := ndofs (cn_from c) in
    let starts := 0 :: cumsum (map (fun g => dg_nel g * dg_ndof g) (cn_from c)) in
    _ <- guard (length (cn_to c) =? length (cn_groups c)) ValueError ;;
    st <- foldM (fun acc tb =>
            let '(base, mats) := acc in
            let '(tg, bs) := tb in
            ms <- mapM (fun b =>
                    if length (bt_from b) =? 0 then Ok []
                    else
                      fg <- get (cn_from c) (bt_fgrp b) ;;
                      sb <- get starts (bt_fgrp b) ;;
                      m <- batch_matrix nt ns base sb (dg_ndof tg) (dg_ndof fg) (rmat (dg_kind fg) (bt_nodes b)) b ;;
                      Ok [m]) bs ;;
            Ok (base + dg_nel tg * dg_ndof tg, mats ++ concat ms))
          (combine (cn_to c) (cn_groups c)) (0, []) ;;
    match snd st with
    | [] => Ok None
    | m :: ms => Ok (Some (fold_left madd ms m))
    end.

  (** ** Chains (chained.py:37-71) *)
  Inductive cnx : Type :=
  | Direct (c : conn)
  | Identity (d : list dgroup)                     (* IdentityDiscretizationConnection *)
  | Chain (from : option (list dgroup)) (cs : list cnx).

  Fixpoint apply (eager nomerge : bool) (x : cnx) (ary : dofs) : res dofs :=
    match x with
    | Direct c => call eager nomerge c ary
    | Identity _ => Ok ary
    | Chain _ cs => (fix go (cs : list cnx) (ary : dofs) : res dofs :=
                       match cs with [] => Ok ary | c :: cs => a <- apply eager nomerge c ary ;; go cs a end) cs ary
    end.

  (** make_same_mesh_connection (same_mesh.py:43-87); same: from_discr is to_discr *)
  Variable unit_nodes : K -> N.
  Definition make_same_mesh (same_mesh same : bool) (to from : list dgroup) : res cnx :=
    _ <- guard same_mesh ValueError ;;
    if same then Ok (Identity from)
    else
      _ <- guard (length from =? length to) ValueError ;;
      Ok (Direct (mk_conn from to
            (map (fun ift => let '(i, (f, t)) := ift in [mk_batch i (seq 0 (dg_nel f)) (seq 0 (dg_nel f)) (unit_nodes (dg_kind t)) None])
                 (enumerate (combine from to))) true)).

  (** ** Flattening (78-264) *)
  Variable node_compose : K -> N -> K -> N -> N.     (* unit nodes of the second batch in the source element of the first (121-133) *)
  Variable allclose : N -> N -> bool.

  (** _iterbatches (85-88) *)
  Definition iterbatches (groups : list (list batch)) : list (nat * batch) :=
    flat_map (fun ib => map (pair (fst ib)) (snd ib)) (enumerate groups).

  (** _build_element_lookup_table (91-99) *)
  Definition lookup_table (c : conn) : res (list (list Z)) :=
    foldM (fun tbl ib => row <- get tbl (fst ib) ;; row' <- assign_from row (snd ib) ;; put tbl (fst ib) row')
          (iterbatches (cn_groups c)) (map (fun g => repeat (-1)%Z (dg_nel g)) (cn_to c)).

  (** _ConnectionBatchData *)
  Record binfo : Type := mk_binfo { bi_nodes : N; bi_fgrp : nat; bi_face : option nat }.

  (** find_batch (103-108); shapes of nodes that cannot be compared are left to the argument *)
  Definition find_batch (nodes : N) (gtb : list (list binfo)) : option (nat * nat) :=
    option_map fst
      (find (fun gb => allclose nodes (bi_nodes (snd gb)))
            (flat_map (fun gl => map (fun bi => ((fst gl, fst bi), snd bi)) (enumerate (snd gl))) (enumerate gtb))).

  (** _build_new_group_table (102-148): the new group and batch for every pair of batches, in the order of the loops *)
  Definition group_table (c d : conn) : res (list (list binfo) * list (nat * nat)) :=
    let nto := length (cn_groups d) in
    foldM (fun acc fb =>
      foldM (fun acc tb =>
          let '(infos, asg) := acc in
          let '((ig, fbatch), (jg, tbatch)) := (fb, tb) in
          ffg <- get (cn_from c) (bt_fgrp fbatch) ;;
          tfg <- get (cn_from d) (bt_fgrp tbatch) ;;
          let nodes := node_compose (dg_kind ffg) (bt_nodes fbatch) (dg_kind tfg) (bt_nodes tbatch) in
          match find_batch nodes infos with
          | Some gb => Ok (infos, asg ++ [gb])
          | None =>
              old <- get infos (nto * ig + jg) ;;
              infos' <- put infos (nto * ig + jg) (old ++ [mk_binfo nodes (bt_fgrp fbatch) (bt_face tbatch)]) ;;
              Ok (infos', asg ++ [(nto * ig + jg, length old)])
          end) (iterbatches (cn_groups d)) acc)
      (iterbatches (cn_groups c)) (repeat [] (length (cn_groups c) * nto), []).

  (** Appending to the bins from_bins[g][b] and to_bins[g][b] *)
  Definition bin_append (bins : list (list (list (nat * nat)))) (gb : nat * nat) (new : list (nat * nat)) : res (list (list (list (nat * nat)))) :=
    row <- get bins (fst gb) ;; old <- get row (snd gb) ;;
    row' <- put row (snd gb) (old ++ new) ;; put bins (fst gb) row'.

  (** One step of the merging loop (226-262) *)
  Definition flatten_pair (surj : bool) (c d : conn) : res conn :=
    tbl <- lookup_table c ;;
    ia <- group_table c d ;;
    let pairs := flat_map (fun fb => map (fun tb => (fb, tb)) (iterbatches (cn_groups d))) (iterbatches (cn_groups c)) in
    bins <- foldM (fun bins p =>
              let '(((ig, fbatch), (jg, tbatch)), gb) := p in
              row <- get tbl ig ;;
              new <- mapM (fun ft =>
                        z <- get row (fst ft) ;;
                        (* the masked elements have an entry *)
                        _ <- guard (Z.leb 0 z) IndexError ;;
                        Ok (Z.to_nat z, snd ft))
                      (filter (fun ft => memb (fst ft) (bt_to fbatch)) (combine (bt_from tbatch) (bt_to tbatch))) ;;
              bin_append bins gb new)
            (combine pairs (snd ia)) (map (fun l => map (fun _ => []) l) (fst ia)) ;;
    let groups := map (fun lb => map (fun ib => mk_batch (bi_fgrp (fst ib)) (map fst (snd ib)) (map snd (snd ib)) (bi_nodes (fst ib)) (bi_face (fst ib)))
                                     (combine (fst lb) (snd lb)))
                      (combine (fst ia) bins) in
    Ok (mk_conn (cn_from c) (cn_to d) groups surj).

  (** is_surjective (44-60) *)
  Fixpoint surjective (x : cnx) : bool :=
    match x with Direct c => cn_surj c | Identity _ => true | Chain _ cs => forallb surjective cs end.

  (** flatten_chained_connection (166-264); the result is a direct or an identity connection.  An empty chain becomes the identity
      (make_same_mesh_connection of a discretization with itself) *)
  Fixpoint flatten (x : cnx) : res cnx :=
    match x with
    | Chain from [] => match from with Some d => Ok (Identity d) | None => Err ValueError end
    | Chain from cs =>
        fs <- (fix go (cs : list cnx) : res (list cnx) :=
                 match cs with [] => Ok [] | c :: cs => f <- flatten c ;; fs <- go cs ;; Ok (f :: fs) end) cs ;;
        match flat_map (fun f => match f with Direct c => [c] | _ => [] end) fs with
        | [] => Err IndexError
        | c :: ds => r <- foldM (flatten_pair (forallb surjective cs)) ds c ;; Ok (Direct r)
        end
    | _ => Ok x
    end.

  (** from_discr of a connection *)
  Fixpoint source (x : cnx) : list dgroup :=
    match x with
    | Direct c => cn_from c
    | Identity d => d
    | Chain (Some d) [] => d
    | Chain None [] => []
    | Chain _ (c :: _) => source c
    end.

  (** make_full_resample_matrix (271-311); a number instead of a matrix cannot be multiplied *)
  Fixpoint chain_matrix (x : cnx) : res (option (list (list R))) :=
    match x with
    | Direct c => full_matrix c
    | Identity _ => Err TypeError
    | Chain from [] => match from with Some d => Ok (Some (idmat (ndofs d))) | None => Err ValueError end
    | Chain from (c0 :: cs) =>
        m <- chain_matrix c0 ;;
        (fix go (cs : list cnx) (acc : option (list (list R))) : res (option (list (list R))) :=
           match cs with
           | [] => Ok acc
           | c :: cs =>
               m <- chain_matrix c ;;
               match m, acc with
               | Some m, Some a => go cs (Some (matmul (ndofs (source c0)) m a))
               | _, _ => Err ValueError
               end
           end) cs m
    end.
End Conn.
Arguments mk_dgroup {K}. Arguments dg_nel {K}. Arguments dg_ndof {K}. Arguments dg_kind {K}.
Arguments mk_batch {N}. Arguments bt_fgrp {N}. Arguments bt_from {N}. Arguments bt_to {N}. Arguments bt_nodes {N}. Arguments bt_face {N}.
Arguments mk_conn {N K}. Arguments cn_from {N K}. Arguments cn_to {N K}. Arguments cn_groups {N K}. Arguments cn_surj {N K}.
Arguments mk_binfo {N}. Arguments bi_nodes {N}. Arguments bi_fgrp {N}. Arguments bi_face {N}.
Arguments Direct {N K}. Arguments Identity {N K}. Arguments Chain {N K}.
