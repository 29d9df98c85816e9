(** * GlueModel: gluing of mesh boundaries.

    Models _get_boundary_face_ids, _get_face_vertex_indices, _match_boundary_faces and glue_mesh_boundaries
    (meshmode/mesh/processing.py:1056-1315).

    Simplified: coordinates are elements of an ordered commutative ring; numpy.median and numpy.linalg.inv are arguments.
    The facial adjacency is given as the value of mesh.facial_adjacency_groups.  The consistency check of the resulting
    mesh (Mesh.copy) is left out.  No proofs in this file. *)
From Coq Require Import List Arith Bool ZArith.
From Verif Require Import Np MeshModel MeshStateModel Lin Ord ProcModel AffineModel PointModel.
Import ListNotations.

Section Glue.
  Variable R : ocring.
  Variable median : list R -> R.
  Variable inv : list (list R) -> res (list (list R)).
  Variable fuel : nat.
  Variable E : Type.

  (** BoundaryPairMapping together with its tolerance *)
  Record bpm : Type := mk_bpm { bp_from : btag; bp_to : btag; bp_map : amap R; bp_tol : R }.

  (** _get_boundary_face_ids (:1056-1071); np.concatenate needs at least one array *)
  Definition get_boundary_face_ids (fags : list (list (fagrp (amap R)))) (t : btag) : res (list faceid) :=
    let parts := flat_map (fun il : nat * list (fagrp (amap R)) =>
                   map (fun fg => map (fun ef : nat * nat => (fst il, fst ef, snd ef)) (fag_faces fg))
                       (filter (has_tag t) (snd il))) (enumerate fags) in
    _ <- guard (negb (length parts =? 0)) ValueError ;;
    Ok (concat parts).

  (** _get_face_vertex_indices (:1074-1100), flattened; max of nothing and np.stack of arrays of different shape fail *)
  Definition get_face_vertex_indices (groups : list (egroup E)) (fids : list faceid) : res (list Z) :=
    _ <- guard (negb (length (concat (map eg_fvi groups)) =? 0)) ValueError ;;
    let maxfv := list_max0 (map (@length nat) (concat (map eg_fvi groups))) in
    parts <- mapM (fun ig : nat * egroup E =>
               _ <- guard (match eg_vi (snd ig) with Some _ => true | None => false end) AssertionError ;;
               mapM (face_column Z.of_nat groups maxfv) (filter (fun a => fid_group a =? fst ig) fids)) (enumerate groups) ;;
    let sizes := map (@length _) parts in
    _ <- guard (match sizes with [] => false | n :: rest => forallb (Nat.eqb n) rest end) ValueError ;;
    Ok (concat (concat parts)).

  (** np.unique(...), entries >= 0 (:1142-1145) *)
  Definition vertex_numbers (l : list Z) : list nat := map Z.to_nat (filter (fun z => (0 <=? z)%Z) (unique_Z l)).

  (** l[idx] = vals: vals has the length of idx, or length one *)
  Definition assign_array (l idx vals : list nat) : res (list nat) :=
    match vals with
    | [v] => scatter l (map (fun i => (i, v)) idx)
    | _ => _ <- guard (length vals =? length idx) ValueError ;; scatter l (combine idx vals)
    end.

  (** max_vertex_index (:1175-1178); np.max of an empty array fails *)
  Definition max_vertex_index (groups : list (egroup E)) : res nat :=
    foldM (fun mx g =>
             match eg_vi g with
             | None => Err AssertionError
             | Some vi =>
                 _ <- guard (negb (length (concat vi) =? 0)) ValueError ;;
                 Ok (Nat.max mx (list_max0 (concat vi)))
             end) groups 0.

  (** _match_boundary_faces (:1103-1201); d is mesh.ambient_dim *)
  Definition match_boundary_faces (d : nat) (groups : list (egroup E)) (vertices : option (list (list R)))
      (fags : list (list (fagrp (amap R)))) (mp : bpm) : res (list (faceid * faceid)) :=
    match vertices with
    | None => Err ValueError
    | Some vs =>
        mf <- get_boundary_face_ids fags (bp_from mp) ;;
        nf <- get_boundary_face_ids fags (bp_to mp) ;;
        _ <- guard (length mf =? length nf) AssertionError ;;
        mfv <- get_face_vertex_indices groups mf ;;
        nfv <- get_face_vertex_indices groups nf ;;
        let mv := vertex_numbers mfv in
        let nv := vertex_numbers nfv in
        mpts <- take vs mv ;;
        npts <- take vs nv ;;
        images <- mapM (amap_call R (bp_map mp)) mpts ;;
        let src_dim := match am_matrix (bp_map mp) with Some M => length M | None => d end in
        r <- find_point_to_point_mapping R median fuel (bp_tol mp) 256 src_dim d images npts ;;
        _ <- guard (forallb (fun z => (0 <=? z)%Z) r) RuntimeError ;;
        matched <- take nv (map Z.to_nat r) ;;
        let fids := mf ++ nf in
        mx <- max_vertex_index groups ;;
        vmap <- assign_array (seq 0 (S mx)) mv matched ;;
        pairs <- match_faces (fun v => match nth_error vmap v with Some w => Z.of_nat w | None => Z.of_nat v end) groups fids ;;
        _ <- guard (length pairs =? length mf) AssertionError ;;
        mapM (fun ij : nat * nat => a <- get fids (fst ij) ;; b <- get fids (snd ij) ;; Ok (a, b)) pairs
    end.

  (** Multiple mappings for one pair of boundaries, in either order (:1246-1259) *)
  Definition same_pair (p q : bpm) : bool :=
    (btag_eqb (bp_from p) (bp_from q) && btag_eqb (bp_to p) (bp_to q))
    || (btag_eqb (bp_from p) (bp_to q) && btag_eqb (bp_to p) (bp_from q)).
  Fixpoint pairs_unique (l : list bpm) : bool :=
    match l with [] => true | p :: l => negb (existsb (same_pair p) l) && pairs_unique l end.

  (** The new adjacency groups of element group igrp for one mapping (:1275-1308) *)
  Definition glued_groups (ngroups igrp : nat) (mp : bpm) (pairs : list (faceid * faceid)) : res (list (fagrp (amap R))) :=
    parts <- mapM (fun jgrp =>
      let fwd := filter (fun p => (fid_group (fst p) =? igrp) && (fid_group (snd p) =? jgrp)) pairs in
      let bwd := filter (fun p => (fid_group (snd p) =? igrp) && (fid_group (fst p) =? jgrp)) pairs in
      let fwd_groups := match fwd with [] => [] | _ => [Interior igrp jgrp (map interior_entry fwd) (bp_map mp)] end in
      match bwd with
      | [] => Ok fwd_groups
      | _ => g <- amap_inverted R inv (bp_map mp) ;;
             Ok (fwd_groups ++ [Interior igrp jgrp (map (fun p => interior_entry (snd p, fst p)) bwd) g])
      end) (seq 0 ngroups) ;;
    Ok (concat parts).

  (** glue_mesh_boundaries (:1208-1315) *)
  Definition glue_mesh_boundaries (d : nat) (m : mesh E (amap R) (list R)) (fags : list (list (fagrp (amap R)))) (mps : list bpm)
    : res (mesh E (amap R) (list R)) :=
    let groups := m_groups m in
    _ <- guard (forallb (fun g => match eg_vi g with Some _ => true | None => false end) groups) ValueError ;;
    _ <- guard (pairs_unique mps) ValueError ;;
    let glued := flat_map (fun mp => [bp_from mp; bp_to mp]) mps in
    pairss <- mapM (match_boundary_faces d groups (m_vertices m) fags) mps ;;
    fags' <- mapM (fun il : nat * list (fagrp (amap R)) =>
      let kept := filter (fun fg => match bdry_tag fg with None => true | Some t => negb (btag_memb t glued) end) (snd il) in
      news <- mapM (fun mpp => glued_groups (length groups) (fst il) (fst mpp) (snd mpp)) (combine mps pairss) ;;
      Ok (kept ++ concat news)) (enumerate fags) ;;
    Ok (mk_mesh groups (m_vertices m) (m_conforming m) Unavailable (Available fags') (m_vdtype m) (m_edtype m) (m_fdtype m)).
End Glue.
Arguments mk_bpm {R}. Arguments bp_from {R}. Arguments bp_to {R}. Arguments bp_map {R}. Arguments bp_tol {R}.
