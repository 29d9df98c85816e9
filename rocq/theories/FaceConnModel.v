(** * FaceConnModel: connections between the faces of a discretization.

    Models meshmode/discretization/connection/face.py: _build_boundary_connection (79-124), _get_face_vertices (131-165),
    make_face_restriction (170-383), make_face_to_all_faces_embedding (390-505), and connection/opposite_face.py:
    _make_cross_face_batches (48-102), _find_src_unit_nodes_by_matching (109-135), _find_src_unit_nodes_batches (319-350),
    _find_ibatch_for_face (353-363), _make_bdry_el_lookup_table (366-384), make_opposite_face_connection (389-528),
    make_partition_connection (536-638), and meshmode/distributed.py: make_remote_group_infos (172-196).

    Simplified: kinds of element groups (K), unit nodes (N), node coordinates of one mesh element (E, E'), points (P) and affine maps (A)
    are opaque; what modepy computes from them is an argument.  _find_src_unit_nodes_via_gauss_newton (142-312) is an argument.
    face_index of the i-th face is i.  The index -1 ("not there") of a lookup table, which NumPy would take for the last element, is an
    IndexError here when used as an index.  The consistency checks of make_mesh on the boundary mesh are left out.  Assigning arrays of
    unequal shape is a ValueError (no broadcasting).  No proofs in this file. *)
From Coq Require Import List Arith Bool ZArith.
From Verif Require Import Np MeshModel ConnModel.
Import ListNotations.

(** boundary_tag: FACE_RESTR_INTERIOR (49-54), FACE_RESTR_ALL (57-62) or a boundary tag *)
Inductive restr : Type := RInterior | RAll | RTag (t : btag).

Section Restriction.
  Context {E E' V A N K : Type}.
  Variable dim : K -> nat.                  (* nunit_dofs of a group of this kind *)
  Variable factory : K -> K.                (* kind of the groups group_factory makes for the faces *)
  Variable fnodes : K -> nat -> K -> N.     (* face.map_to_volume(unit_nodes) *)
  Variable face_coords : K -> nat -> E -> E'.  (* resampling_mat applied to the element's nodes *)
  Variable bfvi : K -> list (list nat).     (* face_vertex_indices of the boundary group *)
  Variable store : nat -> nat.              (* writing a vertex number into an array of the dtype of the vertices *)
  Variable garbage_row : nat -> list nat.   (* np.empty *)
  Variable garbage_node : nat -> E'.

  Definition vol_groups (groups : list (egroup E)) (kinds : list K) : list (@dgroup K) :=
    map (fun gk => mk_dgroup (nelements (fst gk)) (dim (snd gk)) (snd gk)) (combine groups kinds).

  (** _get_face_vertices (131-165) *)
  Definition get_face_vertices (nv : nat) (groups : list (egroup E)) (fags : list (list (fagrp A))) (r : restr) : res (list nat) :=
    match r with
    | RInterior | RAll => Ok (seq 0 nv)
    | RTag t =>
        _ <- guard (mesh_has_boundary fags t) ValueError ;;
        vss <- mapM (fun il : nat * list (fagrp A) =>
                 vs <- mapM (fun b =>
                         grp <- get groups (fst il) ;;
                         match eg_vi grp with
                         | None => Err TypeError
                         | Some vi =>
                             vs <- mapM (fun ref =>
                                     rows <- take vi (map fst (fag_faces b)) ;;
                                     vs <- mapM (fun row => take row ref) rows ;;
                                     Ok (concat vs)) (eg_fvi grp) ;;
                             Ok (concat vs)
                         end) (filter (has_tag t) (snd il)) ;;
                 Ok (concat vs)) (enumerate fags) ;;
        Ok (unique (concat vss))
    end.

  (** vol_to_bdry_vertices (224-233) *)
  Definition vol_to_bdry (nv : nat) (nrs : list nat) : res (list (option nat)) :=
    scatter (repeat None nv) (combine nrs (map (fun i => Some (store i)) (seq 0 (length nrs)))).
  Definition to_bdry (v2b : list (option nat)) (v : nat) : res nat :=
    o <- get v2b v ;; match o with Some i => Ok i | None => Err IndexError end.

  (** group_boundary_faces (252-284) *)
  Definition group_boundary_faces (r : restr) (g : egroup E) (l : list (fagrp A)) : list (nat * nat) :=
    match r with
    | RInterior => flat_map fag_faces (filter (fun b => negb (is_bdry b)) l)
    | RAll => map (fun fe => (snd fe, fst fe)) (grid (nfaces g) (nelements g))
    | RTag t => flat_map fag_faces (filter (has_tag t) l)
    end.

  (** State of the loop over the faces of one group (286-364): batch_base, number of columns, rows and contents of vertex_indices and nodes,
      bdry_mesh_groups, connection_data (by face) *)
  Record rstate : Type := mk_rstate {
    rs_base : nat; rs_width : nat; rs_rows : list (list nat); rs_nodes : list E';
    rs_out : list (egroup E'); rs_data : list (list nat * list nat) }.

  Definition face_step (perface : bool) (g : egroup E) (k : K) (vi : list (list nat)) (gbf : list (nat * nat)) (v2b : list (option nat))
      (st : rstate) (fr : nat * list nat) : res rstate :=
    let '(f, ref) := fr in
    let els := map fst (filter (fun ef => snd ef =? f) gbf) in
    let n := length els in
    let '(width, rows, nodes) :=
      if perface || (f =? 0) then
        let m := if perface then n else length gbf in
        (length ref, map garbage_row (seq 0 m), map garbage_node (seq 0 m))
      else (rs_width st, rs_rows st, rs_nodes st) in
    let new := map (Nat.add (rs_base st)) (seq 0 n) in
    let base := if perface then rs_base st else rs_base st + n in
    erows <- take vi els ;;
    glob <- mapM (fun row => take row ref) erows ;;
    bdry <- mapM (mapM (to_bdry v2b)) glob ;;
    _ <- guard (length ref =? width) ValueError ;;
    rows' <- scatter rows (combine new bdry) ;;
    enodes <- take (eg_nodes g) els ;;
    nodes' <- scatter nodes (combine new (map (face_coords k f) enodes)) ;;
    let out := if perface || (f + 1 =? nfaces g) then rs_out st ++ [mk_egroup (Some rows') nodes' (bfvi (factory k))] else rs_out st in
    Ok (mk_rstate base width rows' nodes' out (rs_data st ++ [(els, new)])).

  Definition restrict_group (perface : bool) (r : restr) (v2b : list (option nat)) (gk : egroup E * K) (l : list (fagrp A))
    : res (list (egroup E') * list (list nat * list nat)) :=
    let gbf := group_boundary_faces r (fst gk) l in
    match eg_vi (fst gk) with
    | None => Err TypeError
    | Some vi =>
        st <- foldM (face_step perface (fst gk) (snd gk) vi gbf v2b) (enumerate (eg_fvi (fst gk))) (mk_rstate 0 0 [] [] [] []) ;;
        Ok (rs_out st, rs_data st)
    end.

  (** _build_boundary_connection (79-124) *)
  Definition build_step (perface : bool) (bdry : list (@dgroup K)) (data : list (list (list nat * list nat))) (igrp : nat) (g : egroup E) (k : K)
      (st : nat * list (@batch N) * list (list (@batch N))) (face_id : nat) : res (nat * list (@batch N) * list (list (@batch N))) :=
    let '(ib, batches, cgroups) := st in
    bg <- get bdry ib ;;
    ds <- get data igrp ;; d <- get ds face_id ;;
    let batches := batches ++ [mk_batch igrp (fst d) (snd d) (fnodes k face_id (dg_kind bg)) (Some face_id)] in
    if perface || (face_id + 1 =? nfaces g) then Ok (ib + 1, [], cgroups ++ [batches]) else Ok (ib, batches, cgroups).

  Definition build_connection (perface : bool) (groups : list (egroup E)) (kinds : list K) (bdry : list (@dgroup K))
      (data : list (list (list nat * list nat))) : res (@conn N K) :=
    '(ib, _, cgroups) <- foldM (fun st igk =>
        let '(igrp, (g, k)) := igk in foldM (build_step perface bdry data igrp g k) (seq 0 (nfaces g)) st)
      (enumerate (combine groups kinds)) (0, [], []) ;;
    _ <- guard (ib =? length bdry) AssertionError ;;
    Ok (mk_conn (vol_groups groups kinds) bdry cgroups true).

  (** make_face_restriction (170-383): the boundary mesh (vertices and groups) and the connection *)
  Definition make_face_restriction (vertices : option (list V)) (groups : list (egroup E)) (kinds : list K) (fags : list (list (fagrp A)))
      (r : restr) (perface : bool) : res (list V * list (egroup E') * @conn N K) :=
    _ <- match r with RTag t => guard (mesh_has_boundary fags t) ValueError | _ => Ok tt end ;;
    match vertices with
    | None => Err AssertionError
    | Some vs =>
        nrs <- get_face_vertices (length vs) groups fags r ;;
        v2b <- vol_to_bdry (length vs) nrs ;;
        bvs <- take vs nrs ;;
        (* zip(discr.groups, facial_adjacency_groups, strict=True) *)
        _ <- guard (length (combine groups kinds) =? length fags) ValueError ;;
        rs <- mapM (fun gl => restrict_group perface r v2b (fst gl) (snd gl)) (combine (combine groups kinds) fags) ;;
        let bgroups := concat (map fst rs) in
        (* discr.copy(mesh=bdry_mesh, group_factory=group_factory) *)
        let bkinds := concat (map (fun kr : K * (list (egroup E') * list (list nat * list nat)) => map (fun _ => factory (fst kr)) (fst (snd kr))) (combine kinds rs)) in
        let bdry := map (fun gk : egroup E' * K => mk_dgroup (nelements (fst gk)) (dim (snd gk)) (snd gk)) (combine bgroups bkinds) in
        c <- build_connection perface groups kinds bdry (map snd rs) ;;
        Ok (bvs, bgroups, c)
    end.
End Restriction.
Arguments rs_base {E'}. Arguments rs_width {E'}. Arguments rs_rows {E'}. Arguments rs_nodes {E'}. Arguments rs_out {E'}. Arguments rs_data {E'}.
Arguments mk_rstate {E'}.

Section Embedding.
  Context {E N K : Type}.
  Variable unit_nodes : K -> N.
  Variable nodes_equal : N -> N -> bool.    (* np.array_equal *)

  (** make_face_to_all_faces_embedding (390-505); [faces] is faces_connection, [groups] the volume mesh groups, [from] is from_discr (None: the
      default), [all] all_faces_discr.  The check that from_discr uses the same mesh is left out. *)
  Definition embed_step (perface : bool) (from : list (@dgroup K)) (faces : @conn N K) (all : list (@dgroup K)) (g : egroup E)
      (st : nat * list (@batch N) * list (list (@batch N))) (iface : nat) : res (nat * list (@batch N) * list (list (@batch N))) :=
    let '(ib, batches, cgroups) := st in
    ag <- get all ib ;;
    src <- get (cn_groups faces) ib ;;
    _ <- guard (length src =? (if perface then 1 else nfaces g)) AssertionError ;;
    fg <- get from ib ;;
    _ <- guard (nodes_equal (unit_nodes (dg_kind fg)) (unit_nodes (dg_kind ag))) AssertionError ;;
    b <- get src (if perface then 0 else iface) ;;
    to <- (if perface then Ok (bt_from b)
           else _ <- guard (dg_nel ag =? nfaces g * nelements g) AssertionError ;;
                Ok (map (Nat.add (nelements g * iface)) (bt_from b))) ;;
    let batches := batches ++ [mk_batch ib (bt_to b) to (unit_nodes (dg_kind ag)) None] in
    if perface || (iface + 1 =? nfaces g) then Ok (ib + 1, [], cgroups ++ [batches]) else Ok (ib, batches, cgroups).

  Definition make_embedding (groups : list (egroup E)) (faces : @conn N K) (all : list (@dgroup K)) (from : option (list (@dgroup K)))
    : res (@conn N K) :=
    let from := match from with None => cn_to faces | Some d => d end in
    let perface := negb (length (cn_from faces) =? length (cn_to faces)) in
    _ <- guard (length (cn_to faces) =? length all) ValueError ;;
    _ <- guard (length (cn_groups faces) =? length all) ValueError ;;
    '(_, _, cgroups) <- foldM (fun st g => foldM (embed_step perface from faces all g) (seq 0 (nfaces g)) (fst (fst st), [], snd st))
      groups (0, [], []) ;;
    Ok (mk_conn from all cgroups false).
End Embedding.

Section CrossFace.
  Context {E A N K P : Type}.
  Variable unit_nodes : K -> N.
  Variable select_nodes : K -> list nat -> N.      (* unit_nodes[:, source_indices] *)
  Variable app : A -> P -> P.
  Variable close : P -> P -> bool.                 (* la.norm(p - q) < tol *)
  Variable gauss_newton : K -> list (list P) -> list (list P) -> res (list N).  (* 142-312 *)
  Variable nodes_close : N -> N -> bool.           (* np.max(np.abs(a - b)) < tol *)

  (** _find_src_unit_nodes_by_matching (109-135); None: some target point has not exactly one close source point *)
  Definition by_matching (k : K) (tgt src : list (list P)) : res (option (list N)) :=
    let closes := map (fun ts => map (fun p => where_ (map (close p) (snd ts))) (fst ts)) (combine tgt src) in
    if forallb (forallb (fun l => length l =? 1)) closes then
      let indices := map (@concat nat) closes in
      matched <- mapM (fun si => take (fst si) (snd si)) (combine src indices) ;;
      _ <- guard (forallb (fun tm => forallb (fun pq => close (fst pq) (snd pq)) (combine (fst tm) (snd tm))) (combine tgt matched)) AssertionError ;;
      Ok (Some (map (select_nodes k) indices))
    else Ok None.

  (** _find_src_unit_nodes_batches (319-350); [todo]: (unit nodes, (source, target)) of the elements that are not done *)
  Fixpoint node_batches (fuel : nat) (i_src : nat) (todo : list (N * (nat * nat))) : res (list (@batch N)) :=
    match todo with
    | [] => Ok []
    | (template, _) :: _ =>
        match fuel with
        | 0 => Err NonTermination
        | S fuel =>
            let near := filter (fun x => nodes_close (fst x) template) todo in
            let rest := filter (fun x => negb (nodes_close (fst x) template)) todo in
            bs <- node_batches fuel i_src rest ;;
            Ok (mk_batch i_src (map (fun x => fst (snd x)) near) (map (fun x => snd (snd x)) near) template None :: bs)
        end
    end.

  Definition app_opt (m : option A) (p : P) : P := match m with Some m => app m p | None => p end.

  (** _make_cross_face_batches (48-102); [dim0]: the boundary is zero-dimensional; [tcoords], [scoords]: nodes of the target and source
      boundary discretizations by group and element *)
  Definition cross_face_batches (dim0 : bool) (sdiscr : list (@dgroup K)) (tcoords scoords : list (list (list P)))
      (i_tgt i_src : nat) (tels sels : list nat) (tmap smap : option A) : res (list (@batch N)) :=
    sg <- get sdiscr i_src ;;
    if dim0 then Ok [mk_batch i_src sels tels (unit_nodes (dg_kind sg)) None]
    else
      tc <- get tcoords i_tgt ;; tn <- take tc tels ;;
      sc <- get scoords i_src ;; sn <- take sc sels ;;
      let tn := map (map (app_opt tmap)) tn in
      let sn := map (map (app_opt smap)) sn in
      o <- by_matching (dg_kind sg) tn sn ;;
      ns <- match o with Some ns => Ok ns | None => gauss_newton (dg_kind sg) tn sn end ;;
      node_batches (length tels) i_src (combine ns (combine sels tels)).

  (** _find_ibatch_for_face (353-363) *)
  Definition batch_for_face (bs : list (@batch N)) (f : nat) : res (@batch N) :=
    match filter (fun b => match bt_face b with Some f' => f' =? f | None => false end) bs with
    | [b] => Ok b
    | _ => Err AssertionError
    end.

  (** _make_bdry_el_lookup_table (366-384) *)
  Definition set2 (tbl : list (list (option nat))) (f : nat) (ev : nat * nat) : res (list (list (option nat))) :=
    row <- get tbl (fst ev) ;; row' <- put row f (Some (snd ev)) ;; put tbl (fst ev) row'.
  Definition el_lookup (c : @conn N K) (g : egroup E) (nel : nat) (igrp : nat) : res (list (list (option nat))) :=
    bs <- get (cn_groups c) igrp ;;
    foldM (fun tbl b =>
             match bt_face b with
             | None => Err TypeError
             | Some f =>
                 _ <- guard (length (bt_from b) =? length (bt_to b)) ValueError ;;
                 foldM (fun tbl ev => set2 tbl f ev) (combine (bt_from b) (bt_to b)) tbl
             end) bs (repeat (repeat None (nfaces g)) nel).
  Definition lookup (tbl : list (list (option nat))) (ef : nat * nat) : res nat :=
    row <- get tbl (fst ef) ;; o <- get row (snd ef) ;; match o with Some t => Ok t | None => Err IndexError end.

  Definition list_nat_eqb (a b : list nat) : bool := if list_eq_dec Nat.eq_dec a b then true else false.

  (** The innermost loop body of make_opposite_face_connection (441-518) *)
  Definition opposite_batches (dim0 : bool) (c : @conn N K) (coords : list (list (list P))) (tbl : list (list (option nat)))
      (i_src i_tgt : nat) (es : list fentry) (aff : A) (f : nat) : res (list (@batch N)) :=
    vbs <- get (cn_groups c) i_tgt ;;
    vb <- batch_for_face vbs f ;;
    let mine := filter (fun en : fentry => snd (fst en) =? f) es in
    let adj_els := map (fun en : fentry => fst (fst en)) mine in
    match mine with
    | [] => Ok []
    | _ =>
        used <- (if length adj_els =? length (bt_from vb) then Ok (seq 0 (length (bt_from vb)))
                 else
                   let order := argsort (bt_from vb) in
                   sorted <- take (bt_from vb) order ;;
                   take order (map (searchsorted sorted) adj_els)) ;;
        vels <- take (bt_from vb) used ;;
        _ <- guard (list_nat_eqb vels adj_els) AssertionError ;;
        tels <- take (bt_to vb) used ;;
        sels <- mapM (fun en : fentry => lookup tbl (snd en)) mine ;;
        cross_face_batches dim0 (cn_to c) coords coords i_tgt i_src tels sels (Some aff) None
    end.

  (** make_opposite_face_connection (389-528); [coords]: the nodes of the boundary discretization *)
  Definition make_opposite (dim0 : bool) (groups : list (egroup E)) (fags : list (list (fagrp A))) (c : @conn N K) (coords : list (list (list P)))
    : res (@conn N K) :=
    _ <- guard (forallb (fun ib : nat * list (@batch N) =>
           forallb (fun b => (bt_fgrp b =? fst ib) && match bt_face b with Some _ => true | None => false end) (snd ib)) (enumerate (cn_groups c))) AssertionError ;;
    let ngrps := length (cn_groups c) in
    _ <- guard (ngrps =? length (cn_from c)) AssertionError ;;
    _ <- guard (ngrps =? length (cn_to c)) AssertionError ;;
    out <- foldM (fun out i_src =>
        sg <- get groups i_src ;;
        sd <- get (cn_from c) i_src ;;
        tbl <- el_lookup c sg (dg_nel sd) i_src ;;
        foldM (fun out i_tgt =>
            l <- get fags i_tgt ;;
            tg <- get groups i_tgt ;;
            foldM (fun out b =>
                match b with
                | Interior _ j es aff =>
                    if j =? i_src then
                      foldM (fun out f =>
                               bs <- opposite_batches dim0 c coords tbl i_src i_tgt es aff f ;;
                               old <- get out i_tgt ;;
                               put out i_tgt (old ++ bs)) (seq 0 (nfaces tg)) out
                    else Ok out
                | _ => Ok out
                end) l out) (seq 0 ngrps) out) (seq 0 ngrps) (repeat [] ngrps) ;;
    Ok (mk_conn (cn_to c) (cn_to c) out true).

  (** RemoteGroupInfo (distributed.py:165-169) *)
  Record rginfo : Type := mk_rginfo {
    ri_adj : list (fagrp A);
    ri_vol : list nat; ri_bdry : list nat; ri_faces : list nat }.

  (** make_remote_group_infos (distributed.py:172-196) for the connection [c] of the remote part, whose adjacency is [fags], with remote_part_id [p] *)
  Definition make_infos (fags : list (list (fagrp A))) (p : nat) (ngroups : nat) (c : @conn N K) : res (list rginfo) :=
    _ <- guard (ngroups =? length (cn_to c)) AssertionError ;;
    mapM (fun igrp =>
            l <- get fags igrp ;;
            bs <- get (cn_groups c) igrp ;;
            _ <- guard (negb (length bs =? 0)) ValueError ;;     (* np.concatenate of an empty list *)
            fs <- mapM (fun b => match bt_face b with Some f => Ok (repeat f (length (bt_from b))) | None => Err TypeError end) bs ;;
            Ok (mk_rginfo (filter (fun b => match b with InterPart _ _ q _ _ => q =? p | _ => false end) l)
                  (flat_map bt_from bs) (flat_map bt_to bs) (concat fs)))
         (seq 0 (length (cn_from c))).

  (** make_partition_connection (536-638); [lconn] is local_bdry_conn, [groups] the local volume groups, [rdiscr] and [rcoords] the remote boundary discretization *)
  Definition remote_table (ri : rginfo) : res (list (list (option nat))) :=
    match ri_vol ri, ri_faces ri with
    | [], _ | _, [] => Err ValueError     (* np.max of an empty array *)
    | _, _ =>
        let nel := list_max0 (ri_vol ri) + 1 in
        let nf := list_max0 (ri_faces ri) + 1 in
        foldM (fun tbl efb => set2 tbl (snd (fst efb)) (fst (fst efb), snd efb))
          (combine (combine (ri_vol ri) (ri_faces ri)) (ri_bdry ri)) (repeat (repeat None nf) nel)
    end.

  Definition lookup_assert (tbl : list (list (option nat))) (ef : nat * nat) : res nat :=
    row <- get tbl (fst ef) ;; o <- get row (snd ef) ;; match o with Some t => Ok t | None => Err AssertionError end.

  Definition partition_batches (dim0 : bool) (groups : list (egroup E)) (lconn : @conn N K) (lcoords : list (list (list P)))
      (rdiscr : list (@dgroup K)) (rcoords : list (list (list P))) (rtbl : list (list (option nat)))
      (rgrp : nat) (es : list fentry) (aff : A) (i_local : nat) : res (list (@batch N)) :=
    let lgrps := find_group_indices (map nelements groups) (map (fun en : fentry => fst (snd en)) es) in
    lg <- get groups i_local ;;
    ld <- get (cn_from lconn) i_local ;;
    ltbl <- el_lookup lconn lg (dg_nel ld) i_local ;;
    b0 <- get (base_element_nrs (map nelements groups)) i_local ;;
    let mine := map snd (filter (fun ge : nat * fentry => fst ge =? i_local) (combine lgrps es)) in
    lels <- mapM (fun en : fentry => lookup_assert ltbl (fst (snd en) - b0, snd (snd en))) mine ;;
    rels <- mapM (fun en : fentry => lookup_assert rtbl (fst en)) mine ;;
    cross_face_batches dim0 rdiscr lcoords rcoords i_local rgrp lels rels None (Some aff).

  Definition make_partition_connection (dim0 : bool) (groups : list (egroup E)) (lconn : @conn N K) (lcoords : list (list (list P)))
      (rdiscr : list (@dgroup K)) (rcoords : list (list (list P))) (infos : list rginfo) : res (@conn N K) :=
    _ <- guard (length groups =? length (cn_to lconn)) AssertionError ;;
    out <- foldM (fun out ri =>
        foldM (fun out b =>
            match b with
            | InterPart rgrp _ _ es aff =>
                rtbl <- remote_table ri ;;
                foldM (fun out i_local =>
                         bs <- partition_batches dim0 groups lconn lcoords rdiscr rcoords rtbl rgrp es aff i_local ;;
                         old <- get out i_local ;;
                         put out i_local (old ++ bs))
                  (unique (find_group_indices (map nelements groups) (map (fun en : fentry => fst (snd en)) es))) out
            | _ => Ok out
            end) (ri_adj ri) out) infos (repeat [] (length groups)) ;;
    Ok (mk_conn rdiscr (cn_to lconn) out true).
End CrossFace.
Arguments ri_adj {A}. Arguments ri_vol {A}. Arguments ri_bdry {A}. Arguments ri_faces {A}. Arguments mk_rginfo {A}.
