(** * RefineModel: refinement without adjacency.

    Models RefinerWithoutAdjacency (meshmode/mesh/refinement/no_adjacency.py:49-272), refine_uniformly
    (refinement/__init__.py:51-68), the tessellation information (refinement/tessellate.py:160-290) and the interpolation
    batches of make_refinement_connection (discretization/connection/refinement.py:38-174).

    Simplified: the tessellation of a group, the coordinates of edge midpoints and the nodes of child elements
    (modepy resampling) are arguments, as are the node tuples and submeshes of modepy.  Points are of an arbitrary type V, the nodes
    of one element of an arbitrary type E.  No proofs in this file. *)
From Coq Require Import List Arith Bool ZArith.
From Verif Require Import Np MeshModel MeshStateModel.
Import ListNotations.

(** ElementTessellationInfo (tessellate.py:53-89) *)
Record tess : Type := mk_tess {
  ts_children : list (list nat);
  ts_nref : nat;                       (* len(ref_vertices) *)
  ts_orig : list nat;                  (* orig_vertex_indices *)
  ts_mid : list nat;                   (* midpoint_indices *)
  ts_pairs : list (nat * nat)          (* midpoint_vertex_pairs *)
}.

(** global_vertex_pair_to_midpoint *)
Definition middict : Type := list ((nat * nat) * nat).
Fixpoint dlookup (k : nat * nat) (d : middict) : option nat :=
  match d with
  | [] => None
  | (k', v) :: d => if pair_eqb k k' then Some v else dlookup k d
  end.

(** Rows of an array filled with a marker, then assigned; the assertion that no marker is left *)
Definition place {X} (n : nat) (ivs : list (nat * X)) : res (list X) :=
  l <- scatter (repeat None n) (map (fun iv => (fst iv, Some (snd iv))) ivs) ;;
  mapM (fun o => match o with Some x => Ok x | None => Err AssertionError end) l.

Section Refine.
  Context {E A V : Type}.
  Variable tessellation : egroup E -> tess.                 (* get_group_tessellation_info *)
  Variable midpoints : egroup E -> nat -> list V.           (* get_group_midpoints(...)[iel] *)
  Variable child_nodes : egroup E -> nat -> list E.         (* get_group_tessellated_nodes(...)[iel] *)

  (** The vertex table, the vertices to be added, and inew_vertex *)
  Record rstate : Type := mk_rstate { rs_dict : middict; rs_added : list V; rs_next : nat }.

  Definition sort_pair (a b : nat) : nat * nat := if b <? a then (b, a) else (a, b).

  (** Loop body for one midpoint (no_adjacency.py:175-197) *)
  Definition midpoint_step (grp : egroup E) (iel : nat) (row : list nat) (acc : rstate * list Z)
      (im : nat * (nat * (nat * nat))) : res (rstate * list Z) :=
    let '(st, refv) := acc in
    let '(imid, (iref, (v1, v2))) := im in
    g1 <- get row v1 ;;
    g2 <- get row v2 ;;
    let key := sort_pair g1 g2 in
    sm <- match dlookup key (rs_dict st) with
           | Some v => Ok (st, v)
           | None =>
               pt <- get (midpoints grp iel) imid ;;
               Ok (mk_rstate (rs_dict st ++ [(key, rs_next st)]) (rs_added st ++ [pt]) (S (rs_next st)), rs_next st)
           end ;;
    refv' <- put refv iref (Z.of_nat (snd sm)) ;;
    Ok (fst sm, refv').

  (** Children of one element (:161-202): the rows of new_vertex_indices *)
  Definition refine_element (grp : egroup E) (vi : list (list nat)) (st : rstate) (iel : nat) : res (rstate * list (list nat)) :=
    let ts := tessellation grp in
    row <- get vi iel ;;
    _ <- guard (length (ts_orig ts) =? length row) ValueError ;;
    refv <- scatter (repeat (-17)%Z (ts_nref ts)) (combine (ts_orig ts) (map Z.of_nat row)) ;;
    (* zip(..., strict=True) *)
    _ <- guard (length (ts_mid ts) =? length (ts_pairs ts)) ValueError ;;
    sr <- foldM (midpoint_step grp iel row) (enumerate (combine (ts_mid ts) (ts_pairs ts))) (st, refv) ;;
    _ <- guard (forallb (fun z => (0 <=? z)%Z) (snd sr)) AssertionError ;;
    rows <- mapM (take (map Z.to_nat (snd sr))) (ts_children ts) ;;
    Ok (fst sr, rows).

  (** One element group (:110-238).  Given: dict and vertices added so far, the number of vertices of the mesh if it has any, and the flags.
      Returned: dict, vertices, new group, element_mapping *)
  Definition refine_group (nv : option nat) (flags : list bool) (grp : egroup E) (d : middict) (added : list V)
    : res ((middict * list V) * (egroup E * list (list nat))) :=
    let ts := tessellation grp in
    let nel := nelements grp in
    let nchildren := length (ts_children ts) in
    let nchild := map (fun b : bool => if b then nchildren else 1) flags in
    let cidx := 0 :: cumsum nchild in
    let unref_new := compress (map negb flags) (firstn nel cidx) in
    let refining := where_ flags in
    new_n <- get cidx nel ;;
    mapping <- mapM (fun i => b <- get cidx i ;; n <- get nchild i ;; Ok (seq b n)) (seq 0 nel) ;;
    '(da, new_vi) <- match nv with
      | None => Ok ((d, added), None)
      | Some nv =>
          match eg_vi grp with
          | None => Err AssertionError
          | Some vi =>
              (* inew_vertex = mesh.nvertices, for every group *)
              sr <- foldM (fun acc iel =>
                        b <- get cidx iel ;;
                        sr <- refine_element grp vi (fst acc) iel ;;
                        Ok (fst sr, snd acc ++ combine (seq b nchildren) (snd sr)))
                      refining (mk_rstate d added nv, combine unref_new (compress (map negb flags) vi)) ;;
              rows <- place new_n (snd sr) ;;
              Ok ((rs_dict (fst sr), rs_added (fst sr)), Some rows)
          end
      end ;;
    node_ivs <- mapM (fun iel =>
                  b <- get cidx iel ;;
                  let cn := child_nodes grp iel in
                  _ <- guard (length cn =? nchildren) ValueError ;;
                  Ok (combine (seq b nchildren) cn)) refining ;;
    nodes <- place new_n (combine unref_new (compress (map negb flags) (eg_nodes grp)) ++ concat node_ivs) ;;
    Ok (da, (mk_egroup new_vi nodes (eg_fvi grp), mapping)).

  (** RefinerWithoutAdjacency: current mesh, previous mesh, group refinement records, midpoint table *)
  Record refiner : Type := mk_refiner {
    rf_current : mesh E A V; rf_previous : option (mesh E A V);
    rf_records : option (list (tess * list (list nat))); rf_dict : middict }.

  Definition new_refiner (m : mesh E A V) : refiner := mk_refiner m None None [].

  (** refine (:84-259); default_dtypes are those of make_mesh *)
  Definition refine (vd ed fd : nat) (r : refiner) (flags : list bool) : res refiner :=
    let m := rf_current r in
    let sizes := map nelements (m_groups m) in
    _ <- guard (length flags =? sum sizes) ValueError ;;
    let nv := option_map (@length V) (m_vertices m) in
    (* zip(mesh.base_element_nrs, mesh.groups, strict=True) *)
    _ <- guard (length (base_element_nrs sizes) =? length (m_groups m)) ValueError ;;
    '(dag, recs) <- foldM (fun acc bg =>
            let '((da, gs), recs) := acc in
            let '(b, grp) := bg in
            '(da', (grp', mapping)) <- refine_group nv (slice flags b (b + nelements grp)) grp (fst da) (snd da) ;;
            Ok ((da', gs ++ [grp']), recs ++ [(tessellation grp, mapping)]))
          (combine (base_element_nrs sizes) (m_groups m)) (((rf_dict r, []), []), []) ;;
    let vertices := option_map (fun vs => vs ++ snd (fst dag)) (m_vertices m) in
    let conforming := match m_conforming m with
                      | Some true => Some (forallb (fun b => b) flags || forallb negb flags)
                      | c => c
                      end in
    m' <- make_mesh vertices (snd dag) Pending Pending conforming vd ed fd ;;
    Ok (mk_refiner m' (Some m) (Some recs) (fst (fst dag))).

  (** RefinerWithoutAdjacency.refine_uniformly (:77-79) *)
  Definition refine_all (vd ed fd : nat) (r : refiner) : res refiner :=
    refine vd ed fd r (repeat true (sum (map nelements (m_groups (rf_current r))))).

  (** refine_uniformly (refinement/__init__.py:51-68) *)
  Definition refine_uniformly (vd ed fd : nat) (m : mesh E A V) (iterations : nat) (with_adjacency : bool) : res (mesh E A V) :=
    _ <- guard (negb with_adjacency || truthy (m_conforming m)) ValueError ;;
    r <- foldM (fun r _ => refine_all vd ed fd r) (repeat tt iterations) (new_refiner m) ;;
    Ok (rf_current r).
End Refine.
Arguments mk_rstate {V}. Arguments rs_dict {V}. Arguments rs_added {V}. Arguments rs_next {V}.
Arguments mk_refiner {E A V}. Arguments rf_current {E A V}. Arguments rf_previous {E A V}.
Arguments rf_records {E A V}. Arguments rf_dict {E A V}.

(** ** Interpolation batches (connection/refinement.py:38-115)

    A batch: which of the unit node sets it uses (0: the unit nodes themselves, i + 1: those mapped to child i), source and target elements *)
Record rbatch : Type := mk_rbatch { rb_nodes : nat; rb_from : list nat; rb_to : list nat }.

Definition refinement_batches (nchildren : nat) (mapping : list (list nat)) : res (list rbatch) :=
  bins <- foldM (fun bins em =>
            let '(iel, targets) := (em : nat * list nat) in
            match targets, bins with
            | [t], b0 :: rest => Ok ((b0 ++ [(iel, t)]) :: rest)
            | _, b0 :: rest =>
                _ <- guard (length targets =? nchildren) AssertionError ;;
                Ok (b0 :: map (fun bt => fst bt ++ [(iel, snd bt)]) (combine rest targets))
            | _, [] => Err IndexError
            end) (enumerate mapping) (repeat [] (S nchildren)) ;;
  Ok (map (fun ib => mk_rbatch (fst ib) (map fst (snd ib)) (map snd (snd ib)))
          (filter (fun ib : nat * list (nat * nat) => negb (length (snd ib) =? 0)) (enumerate bins))).

(** ** Tessellation information (tessellate.py:253-285)

    ref2 are the node tuples of the second-order space, ref1 those of the first-order space *)
Section Tessellation.
  Variable submesh : list (list nat) -> list (list nat).    (* mp.submesh_for_shape *)

  Definition tuple_eqb (a b : list nat) : bool := if list_eq_dec Nat.eq_dec a b then true else false.
  Definition index_of_tuple (l : list (list nat)) (t : list nat) : res nat :=
    match find (fun it => tuple_eqb (snd it) t) (enumerate l) with Some it => Ok (fst it) | None => Err KeyError end.
  (** add_tuples(vt, vt) *)
  Definition double (t : list nat) : list nat := map (fun x => x + x) t.
  (** _midpoint_tuples (:160-168) *)
  Definition midpoint_tuples (a b : list nat) : res (list nat) :=
    _ <- guard (length a =? length b) ValueError ;;
    mapM (fun xy : nat * nat => _ <- guard (Nat.even (fst xy + snd xy)) ValueError ;; Ok ((fst xy + snd xy) / 2)) (combine a b).

  (** _get_group_tessellation_info_modepy; ref_vertices_to_index assumes pairwise different tuples *)
  Definition tessellation_info (ref2 ref1 : list (list nat)) : res tess :=
    let orig := map double ref1 in
    orig_idx <- mapM (index_of_tuple ref2) orig ;;
    let mids := filter (fun rv => negb (existsb (tuple_eqb rv) orig)) ref2 in
    mid_idx <- mapM (index_of_tuple ref2) mids ;;
    all_pairs <- mapM (fun ii => mapM (fun jj =>
                   m <- midpoint_tuples (snd ii) (snd jj) ;; Ok (m, (fst ii, fst jj))) (enumerate orig)) (enumerate orig) ;;
    let cand := filter (fun mij => (fst (snd mij) <? snd (snd mij)) && existsb (tuple_eqb (fst mij)) mids) (concat all_pairs) in
    (* the last pair for a midpoint wins *)
    pairs <- mapM (fun m => match find (fun mij => tuple_eqb (fst mij) m) (rev cand) with
                            | Some mij => Ok (snd mij)
                            | None => Err KeyError
                            end) mids ;;
    Ok (mk_tess (submesh ref2) (length ref2) orig_idx mid_idx pairs).
End Tessellation.

(** make_refinement_connection (connection/refinement.py:121-171): the batches of every group.  meq is Mesh.__eq__ *)
Definition make_refinement_connection {E A V} (meq : mesh E A V -> mesh E A V -> bool) (r : @refiner E A V) (m : mesh E A V)
  : res (list (list rbatch)) :=
  match rf_previous r, rf_records r with
  | Some p, Some recs =>
      _ <- guard (meq m p) ValueError ;;
      mapM (fun tr : tess * list (list nat) => refinement_batches (length (ts_children (fst tr))) (snd tr)) recs
  | _, _ => Err ValueError
  end.
