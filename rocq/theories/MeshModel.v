(** * MeshModel: element groups, adjacency groups, boundary tags, adjacency computation.

    Models parts of meshmode/mesh/__init__.py and meshmode/mesh/processing.py.
    No proofs in this file. *)
From Coq Require Import List Arith Bool ZArith.
From Verif Require Import Np.
Import ListNotations.

(** ** Boundary tags (meshmode/mesh/__init__.py:103-189)

    The system tags are Python classes; [TPartition p] is an instance
    [BTAG_PARTITION(p)], [TPartitionCls] the bare class.  User tags are hashable
    objects; [TUserNoBdry] are those whose class derives from [BTAG_NO_BOUNDARY]. *)
Inductive btag : Type :=
| TNone | TAll | TReallyAll | TNoBoundary | TPartitionCls | TInduced
| TPartition (p : nat)
| TUser (n : nat)
| TUserNoBdry (n : nat).

Definition btag_eqb (a b : btag) : bool :=
  match a, b with
  | TNone, TNone | TAll, TAll | TReallyAll, TReallyAll | TNoBoundary, TNoBoundary
  | TPartitionCls, TPartitionCls | TInduced, TInduced => true
  | TPartition p, TPartition q => p =? q
  | TUser p, TUser q => p =? q
  | TUserNoBdry p, TUserNoBdry q => p =? q
  | _, _ => false
  end.

(** is_true_boundary (meshmode/mesh/__init__.py:2118-2124) *)
Definition is_true_boundary (t : btag) : bool :=
  match t with
  | TReallyAll => false
  | TNoBoundary | TPartitionCls | TInduced | TPartition _ | TUserNoBdry _ => false
  | TNone | TAll | TUser _ => true
  end.

(** ** Element groups (meshmode/mesh/__init__.py:197-330)

    [eg_vi] is vertex_indices (one row per element) or None; [eg_nodes] holds one
    payload per element (its node coordinates, an arbitrary type [E]);
    [eg_fvi] is face_vertex_indices().  Order, unit nodes and class are not
    modelled here. *)
Record egroup (E : Type) : Type := mk_egroup {
  eg_vi : option (list (list nat));
  eg_nodes : list E;
  eg_fvi : list (list nat)
}.
Arguments mk_egroup {E} _ _ _.
Arguments eg_vi {E} _.
Arguments eg_nodes {E} _.
Arguments eg_fvi {E} _.

(** nelements = nodes.shape[1] (:268-271), nfaces = len(face_vertex_indices()) (:258-261) *)
Definition nelements {E} (g : egroup E) : nat := length (eg_nodes g).
Definition nfaces {E} (g : egroup E) : nat := length (eg_fvi g).

(** Mesh.base_element_nrs (meshmode/mesh/__init__.py:1373-1379):
    np.cumsum([0] + [grp.nelements for grp in groups[:-1]]) *)
Definition base_element_nrs (sizes : list nat) : list nat := cumsum (0 :: removelast sizes).

(** find_group_indices (meshmode/mesh/processing.py:79-96) *)
Definition find_group_indices (sizes : list nat) (elems : list nat) : list nat :=
  snd (fold_left
         (fun (st : nat * list nat) (n : nat) =>
            let bnd := fst st + n in
            (bnd, map (fun ge : nat * nat => fst ge + (if bnd <=? snd ge then 1 else 0))
                      (combine (snd st) elems)))
         sizes (0, map (fun _ => 0) elems)).

(** ** Nodal adjacency (meshmode/mesh/__init__.py:1613-1654) *)

(** Iterating [for base, grp in zip(base_element_nrs, groups)], [for iel_grp in range(nelements)]:
    the list of (mesh-wide element number, vertex row) pairs.  A group without vertex
    indices raises ValueError, a missing row IndexError. *)
Definition group_rows {E} (base : nat) (g : egroup E) : res (list (nat * list nat)) :=
  match eg_vi g with
  | None => Err ValueError
  | Some vi => mapM (fun i => row <- get vi i ;; Ok (base + i, row)) (seq 0 (nelements g))
  end.

Definition mesh_rows {E} (groups : list (egroup E)) : res (list (nat * list nat)) :=
  let bases := base_element_nrs (map nelements groups) in
  (* zip(..., strict=True) *)
  if length bases =? length groups then
    rows <- mapM (fun bg => group_rows (fst bg) (snd bg)) (combine bases groups) ;;
    Ok (concat rows)
  else Err ValueError.

(** [vertex_to_element[ivertex].append(el)] *)
Definition v2e_append (v2e : list (list nat)) (el v : nat) : res (list (list nat)) :=
  l <- get v2e v ;; put v2e v (l ++ [el]).

Definition vertex_to_element (nvertices : nat) (rows : list (nat * list nat))
  : res (list (list nat)) :=
  foldM (fun v2e (er : nat * list nat) =>
           foldM (fun v2e v => v2e_append v2e (fst er) v) (snd er) v2e)
        rows (repeat [] nvertices).

(** A Python set of ints as a duplicate-free list in insertion order. *)
Definition set_add (s : list nat) (x : nat) : list nat := if memb x s then s else s ++ [x].
Definition set_update (s : list nat) (xs : list nat) : list nat := fold_left set_add xs s.
(** set.remove raises KeyError if absent *)
Definition set_remove (s : list nat) (x : nat) : res (list nat) :=
  if memb x s then Ok (filter (fun y => negb (y =? x)) s) else Err KeyError.

Definition element_to_element (nel : nat) (v2e : list (list nat)) (rows : list (nat * list nat))
  : res (list (list nat)) :=
  foldM (fun e2e (er : nat * list nat) =>
           foldM (fun e2e v =>
                    nb <- get v2e v ;;
                    s <- get e2e (fst er) ;;
                    put e2e (fst er) (set_update s nb)) (snd er) e2e)
        rows (repeat [] nel).

(** The order in which Python iterates over a set is left open: [ord]. *)
Definition compute_nodal_adjacency {E} (ord : list nat -> list nat)
    (nvertices : option nat) (groups : list (egroup E)) : res (list nat * list nat) :=
  match nvertices with
  | None => Err ValueError
  | Some nv =>
      rows <- mesh_rows groups ;;
      v2e <- vertex_to_element nv rows ;;
      e2e <- element_to_element (sum (map nelements groups)) v2e rows ;;
      nbs <- mapM (fun ie => set_remove (snd ie) (fst ie)) (enumerate e2e) ;;
      let starts := cumsum (0 :: map (@length nat) nbs) in
      let flat := concat (map ord nbs) in
      (* assert neighbors_starts[-1] == len(neighbors_ary) *)
      last <- get starts (length starts - 1) ;;
      _ <- guard (last =? length flat) AssertionError ;;
      Ok (starts, flat)
  end.

(** ** Facial adjacency groups (meshmode/mesh/__init__.py:456-790)

    The arrays elements, element_faces, neighbors, neighbor_faces of equal length
    are one list of entries ((element, face), (neighbor, neighbor face)). [A] is
    the type of affine maps. *)
Notation fentry := ((nat * nat) * (nat * nat))%type (only parsing).

Inductive fagrp (A : Type) : Type :=
| Interior (igroup ineighbor : nat) (es : list fentry) (aff : A)
| Boundary (igroup : nat) (t : btag) (fs : list (nat * nat))
| InterPart (igroup : nat) (t : btag) (part : nat) (es : list fentry) (aff : A).
Arguments Interior {A} _ _ _ _.
Arguments Boundary {A} _ _ _.
Arguments InterPart {A} _ _ _ _ _.

(** isinstance(grp, BoundaryAdjacencyGroup): InterPartAdjacencyGroup is a subclass. *)
Definition is_bdry {A} (f : fagrp A) : bool :=
  match f with Interior _ _ _ _ => false | _ => true end.
(** boundary_tag of a boundary group *)
Definition bdry_tag {A} (f : fagrp A) : option btag :=
  match f with
  | Interior _ _ _ _ => None
  | Boundary _ t _ => Some t
  | InterPart _ t _ _ _ => Some t
  end.
(** (elements, element_faces) *)
Definition fag_faces {A} (f : fagrp A) : list (nat * nat) :=
  match f with
  | Interior _ _ es _ => map fst es
  | Boundary _ _ fs => fs
  | InterPart _ _ _ es _ => map fst es
  end.
Definition has_tag {A} (t : btag) (f : fagrp A) : bool :=
  match bdry_tag f with Some t' => btag_eqb t' t | None => false end.

(** ** Completion (meshmode/mesh/__init__.py:1908-2000) *)

Definition swap2 (p : nat * nat) : nat * nat := (snd p, fst p).

Definition list_max0 (l : list nat) : nat := fold_right Nat.max 0 l.

(** _merge_boundary_adjacency_groups: the merged faces, as (element, face);
    masks are indexed [face, element]. *)
Definition merge_faces {A} (bdry_grps : list (fagrp A)) : res (list (nat * nat)) :=
  match bdry_grps with
  | [] => Ok []
  | _ =>
      let max_ielem := list_max0 (map (fun g => list_max0 (map fst (fag_faces g))) bdry_grps) in
      let max_iface := list_max0 (map (fun g => list_max0 (map snd (fag_faces g))) bdry_grps) in
      let rows := max_iface + 1 in
      let cols := max_ielem + 1 in
      m <- foldM (fun m g => mset_all rows cols m (map swap2 (fag_faces g))) bdry_grps mfalse ;;
      Ok (map swap2 (where2 rows cols m))
  end.

Definition complete_group {A} (igrp : nat) (fagrps : list (fagrp A)) : res (list (fagrp A)) :=
  let bdry := filter is_bdry fagrps in
  let present t := existsb (has_tag t) bdry in
  let l0 := if present TNone then [] else [Boundary igrp TNone []] in
  l1 <- (if present TAll then Ok []
         else fs <- merge_faces (filter (fun g => match bdry_tag g with
                                                   | Some t => is_true_boundary t
                                                   | None => false end) bdry) ;;
              Ok [Boundary igrp TAll fs]) ;;
  l2 <- (if present TReallyAll then Ok []
         else fs <- merge_faces bdry ;; Ok [Boundary igrp TReallyAll fs]) ;;
  Ok (fagrps ++ l0 ++ l1 ++ l2).

(** _complete_facial_adjacency_groups *)
Definition complete_facial_adjacency {A} (fags : list (list (fagrp A)))
  : res (list (list (fagrp A))) :=
  mapM (fun il => complete_group (fst il) (snd il)) (enumerate fags).

(** ** Face matching (meshmode/mesh/__init__.py:1687-1759) *)

(** (group, element, face) *)
Notation faceid := (nat * nat * nat)%type (only parsing).

Definition sort_Z : list Z -> list Z := isort Z.leb.

(** One column of face_vertex_indices: the (mapped) face vertices in the first
    rows, -1 below.  A face id whose group or face number does not exist leaves the column at -1. *)
Definition face_column {E} (vmap : nat -> Z) (groups : list (egroup E)) (maxfv : nat)
    (fid : faceid) : res (list Z) :=
  let '(g, e, f) := fid in
  match nth_error groups g with
  | None => Ok (repeat (-1)%Z maxfv)
  | Some grp =>
      match nth_error (eg_fvi grp) f with
      | None => Ok (repeat (-1)%Z maxfv)
      | Some ref =>
          match eg_vi grp with
          | None => Err AssertionError
          | Some vi =>
              row <- get vi e ;;
              vs <- take row ref ;;
              Ok (map vmap vs ++ repeat (-1)%Z (maxfv - length ref))
          end
      end
  end.

Fixpoint list_Z_eqb (a b : list Z) : bool :=
  match a, b with
  | [], [] => true
  | x :: a', y :: b' => Z.eqb x y && list_Z_eqb a' b'
  | _, _ => false
  end.

Definition match_faces {E} (vmap : nat -> Z) (groups : list (egroup E)) (fids : list faceid)
  : res (list (nat * nat)) :=
  (* vertex_id_dtype = single_valued(...): every group has vertex indices *)
  _ <- guard (forallb (fun g => match eg_vi g with Some _ => true | None => false end) groups)
             AssertionError ;;
  (* max(...) of an empty sequence *)
  _ <- guard (negb (length (concat (map eg_fvi groups)) =? 0)) ValueError ;;
  let maxfv := list_max0 (map (@length nat) (concat (map eg_fvi groups))) in
  cols <- mapM (face_column vmap groups maxfv) fids ;;
  let incr := map sort_Z cols in
  let order := lexsort_Z incr in
  sorted <- take incr order ;;
  (* match_indices: positions where consecutive columns do not differ *)
  let mi := where_ (map (fun ab => list_Z_eqb (fst ab) (snd ab)) (combine sorted (tl sorted))) in
  a <- take order mi ;;
  b <- take order (map S mi) ;;
  Ok (combine a b).

(** ** Facial adjacency from vertices (meshmode/mesh/__init__.py:1762-1901) *)

(** face ids of one group: np.indices((nfaces, nelements)) flattened, face number slowest *)
Definition group_face_ids {E} (igrp : nat) (g : egroup E) : list faceid :=
  map (fun fe : nat * nat => (igrp, snd fe, fst fe)) (grid (nfaces g) (nelements g)).

Definition all_face_ids {E} (groups : list (egroup E)) : list faceid :=
  concat (map (fun ig => group_face_ids (fst ig) (snd ig)) (enumerate groups)).

Definition pair_leb (a b : nat * nat) : bool :=
  if fst a =? fst b then snd a <=? snd b else fst a <=? fst b.

(** A frozenset of vertex numbers, compared as a set. *)
Definition set_eqb (a b : list nat) : bool :=
  forallb (fun x => memb x b) a && forallb (fun x => memb x a) b.

(** face_vertex_indices_to_tags: a dict keyed by frozensets, as an association list. *)
Definition tagmap : Type := list (list nat * list btag).
Fixpoint tag_lookup (tm : tagmap) (vs : list nat) : option (list btag) :=
  match tm with
  | [] => None
  | (k, ts) :: tm' => if set_eqb k vs then Some ts else tag_lookup tm' vs
  end.

Definition btag_memb (t : btag) (l : list btag) : bool := existsb (btag_eqb t) l.

Section FacialAdjacency.
  Context {E A : Type}.
  Variable aff_id : A.                       (* AffineMap() *)
  Variable tag_order : list btag -> list btag.
  (* iteration order of the set of boundary tags: given all tags occurring in the
     map (with repetitions), a duplicate-free enumeration *)

  Definition fid_group (f : faceid) : nat := fst (fst f).
  Definition fid_elem (f : faceid) : nat := snd (fst f).
  Definition fid_face (f : faceid) : nat := snd f.

  Definition interior_entry (p : faceid * faceid) : fentry :=
    ((fid_elem (fst p), fid_face (fst p)), (fid_elem (snd p), fid_face (snd p))).

  (** Boundary part of the loop body (:1844-1884) for one group *)
  Definition boundary_groups (tm : option tagmap) (igrp : nat) (g : egroup E) (vi : list (list nat))
      (face_has_neighbor : mask2) : res (list (fagrp A)) :=
    (* np.where(~face_has_neighbor): (face, element) *)
    let bdry := filter (fun rc => negb (face_has_neighbor (fst rc) (snd rc)))
                       (grid (nfaces g) (nelements g)) in
    if length bdry =? 0 then Ok []
    else
      let tags := match tm with
                  | None => []
                  | Some m => tag_order (concat (map snd m))
                  end in
      (* tags of each boundary face *)
      face_tags <- mapM (fun fe : nat * nat =>
                           match tm with
                           | None => Ok []
                           | Some m =>
                               ref <- get (eg_fvi g) (fst fe) ;;
                               row <- get vi (snd fe) ;;
                               vs <- take row ref ;;
                               match tag_lookup m vs with
                               | None => Ok []
                               | Some ts => Ok ts
                               end
                           end) bdry ;;
      let belongs t := map (btag_memb t) face_tags in
      let tagged :=
        concat (map (fun t =>
                       let fs := compress (belongs t) bdry in
                       if length fs =? 0 then [] else [Boundary igrp t (map swap2 fs)]) tags) in
      let untagged := map (fun ts => negb (existsb (fun t => btag_memb t ts) tags)) face_tags in
      let rest := if existsb (fun b => b) untagged
                  then [Boundary igrp TAll (map swap2 bdry)] else [] in
      Ok (tagged ++ rest).

  (** Loop body (:1820-1886) for one group *)
  Definition facial_group (tm : option tagmap) (pairs : list (faceid * faceid))
      (igrp : nat) (g : egroup E) : res (list (fagrp A)) :=
    match eg_vi g with
    | None => Err AssertionError
    | Some vi =>
        let mine := filter (fun p => fid_group (fst p) =? igrp) pairs in
        let connected := unique (map (fun p => fid_group (snd p)) mine) in
        let towards n := filter (fun p => fid_group (snd p) =? n) mine in
        let interior := map (fun n => Interior igrp n (map interior_entry (towards n)) aff_id)
                            connected in
        fhn <- foldM (fun m n =>
                        mset_all (nfaces g) (nelements g) m
                          (map (fun p => (fid_face (fst p), fid_elem (fst p))) (towards n)))
                     connected mfalse ;;
        bdry <- boundary_groups tm igrp g vi fhn ;;
        Ok (interior ++ bdry)
    end.

  Definition compute_facial_adjacency (tm : option tagmap) (groups : list (egroup E))
    : res (list (list (fagrp A))) :=
    match groups with
    | [] => Ok []
    | _ =>
        let fids := all_face_ids groups in
        pairs <- match_faces Z.of_nat groups fids ;;
        let both := pairs ++ map swap2 pairs in
        let sorted := isort pair_leb both in
        idpairs <- mapM (fun ij => a <- get fids (fst ij) ;; b <- get fids (snd ij) ;; Ok (a, b))
                        sorted ;;
        fags <- mapM (fun ig => facial_group tm idpairs (fst ig) (snd ig)) (enumerate groups) ;;
        complete_facial_adjacency fags
    end.
End FacialAdjacency.

(** ** Boundary checks (meshmode/mesh/__init__.py:2131-2231) *)

Definition mesh_has_boundary {A} (fags : list (list (fagrp A))) (t : btag) : bool :=
  existsb (fun l => negb (length (filter (has_tag t) l) =? 0)) fags.

(** counts[element_faces, elements] += 1 (buffered: repeated faces count once),
    for an array of shape (nfaces, nelements) *)
Definition bdry_counts {A} (nf ne : nat) (g : fagrp A) : res mask2 :=
  mset_all nf ne mfalse (map swap2 (fag_faces g)).

Definition b2n (b : bool) : nat := if b then 1 else 0.

Definition count_at (ms : list mask2) (r c : nat) : nat := sum (map (fun m : mask2 => b2n (m r c)) ms).

Definition bc_group {E A} (tags : list btag) (incomplete_ok true_only : bool)
    (g : egroup E) (fags : list (fagrp A)) : res unit :=
  let all_tag := if true_only then TAll else TReallyAll in
  match filter (has_tag all_tag) fags with
  | [all_grp] =>
      let matching := filter (fun f => existsb (fun t => has_tag t f) tags) fags in
      all_counts <- bdry_counts (nfaces g) (nelements g) all_grp ;;
      let cells := grid (nfaces g) (nelements g) in
      match matching with
      | [] =>
          if negb incomplete_ok && existsb (fun rc => all_counts (fst rc) (snd rc)) cells
          then Err RuntimeError else Ok tt
      | _ =>
          ms <- mapM (bdry_counts (nfaces g) (nelements g)) matching ;;
          if existsb (fun rc => 1 <? count_at ms (fst rc) (snd rc)) cells then Err RuntimeError
          else if negb incomplete_ok
                  && existsb (fun rc => count_at ms (fst rc) (snd rc)
                                        <? b2n (all_counts (fst rc) (snd rc))) cells
          then Err RuntimeError else Ok tt
      end
  | _ => Err ValueError       (* all_bdry_grp, = ... : wrong number of values *)
  end.

Definition check_bc_coverage {E A} (groups : list (egroup E)) (fags : list (list (fagrp A)))
    (tags : list btag) (incomplete_ok true_only : bool) : res unit :=
  _ <- guard (forallb (mesh_has_boundary fags) tags) ValueError ;;
  _ <- mapM (fun ig : nat * egroup E =>
               l <- get fags (fst ig) ;;
               bc_group tags incomplete_ok true_only (snd ig) l) (enumerate groups) ;;
  Ok tt.

Definition is_boundary_tag_empty {E A} (groups : list (egroup E)) (fags : list (list (fagrp A)))
    (t : btag) : res bool :=
  _ <- guard (mesh_has_boundary fags t) ValueError ;;
  ls <- mapM (fun ig : nat * egroup E => get fags (fst ig)) (enumerate groups) ;;
  Ok (forallb (fun l => sum (map (fun f => length (fag_faces f)) (filter (has_tag t) l)) =? 0) ls).
