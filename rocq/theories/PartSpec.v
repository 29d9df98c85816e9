(** * PartSpec: vocabulary for the statements about partitioned meshes. *)
From Coq Require Import List Arith Sorting.Sorted.
From Verif Require Import Np MeshModel MeshSpec MeshStateModel PartModel.
Import ListNotations.

(** Element [e] is assigned to part [p] and has number [k] in the list of that part. *)
Definition assigned (parts : partdict) (e p k : nat) : Prop :=
  exists els, In (p, els) parts /\ nth_error els k = Some e.

(** The lists are sorted without repetition, and every element is in exactly one of them. *)
Record valid_partition (n : nat) (parts : partdict) : Prop := {
  vp_keys : NoDup (map fst parts);
  vp_sorted : forall p els, In (p, els) parts -> StronglySorted lt els;
  vp_range : forall e p k, assigned parts e p k -> e < n;
  vp_cover : forall e, e < n -> exists p k, assigned parts e p k;
  vp_disjoint : forall e p q k l, assigned parts e p k -> assigned parts e q l -> p = q
}.

(** The parts to be returned; None means all. *)
Definition requested (parts : partdict) (rp : option (list nat)) : list nat :=
  match rp with None => map fst parts | Some l => l end.

(** Element [i] of group [g] of the mesh is element [i'] of group [g] of part [p], whose groups
    are [groups']: its mesh-wide number has the position given by its part-wide number. *)
Definition image {E} (groups groups' : list (egroup E)) (parts : partdict) (p g i i' : nat) : Prop :=
  exists grp grp', nth_error groups g = Some grp /\ i < nelements grp /\
    nth_error groups' g = Some grp' /\ i' < nelements grp' /\
    assigned parts (base (map nelements groups) g + i) p (base (map nelements groups') g + i').

(** An entry of an interior adjacency group of [g] towards [g'] *)
Definition int_entry {A} (fags : list (list (fagrp A))) (g g' : nat) (aff : A) (en : fentry) : Prop :=
  exists l es, nth_error fags g = Some l /\ In (Interior g g' es aff) l /\ In en es.

(** An entry of an inter-part adjacency group of [g] *)
Definition part_entry {A} (fags : list (list (fagrp A))) (g : nat) (t : btag) (q : nat) (aff : A)
    (en : fentry) : Prop :=
  exists l es, nth_error fags g = Some l /\ In (InterPart g t q es aff) l /\ In en es.

Definition igroup_of {A} (b : fagrp A) : nat :=
  match b with Interior g _ _ _ => g | Boundary g _ _ => g | InterPart g _ _ _ _ => g end.

(** What check_mesh_consistency demands of facial adjacency groups: one list per element
    group, the recorded group numbers, elements and neighbors in range. *)
Definition fags_wf {E A} (groups : list (egroup E)) (fags : list (list (fagrp A))) : Prop :=
  length fags = length groups /\
  (forall g l b, nth_error fags g = Some l -> In b l -> igroup_of b = g) /\
  (forall g grp l b e f, nth_error groups g = Some grp -> nth_error fags g = Some l ->
     In b l -> In (e, f) (fag_faces b) -> e < nelements grp) /\
  (forall g l g' es aff, nth_error fags g = Some l -> In (Interior g g' es aff) l ->
     exists grp', nth_error groups g' = Some grp' /\ forall en, In en es -> fst (snd en) < nelements grp').

(** Part [p] consists of exactly the elements assigned to it, in the same groups, in the order of
    their part-wide numbers, with the same nodes and vertex coordinates. *)
Record part_geometry {E A V} (groups : list (egroup E)) (vs : list V) (parts : partdict) (p : nat)
    (m : mesh E A V) : Prop := {
  pg_groups : length (m_groups m) = length groups;
  (* every assigned element is found at the position given by its number *)
  pg_all : forall e k, assigned parts e p k -> exists g i i',
    e = base (map nelements groups) g + i /\ k = base (map nelements (m_groups m)) g + i' /\
    image groups (m_groups m) parts p g i i';
  (* the part has no other elements *)
  pg_only : forall g grp' i', nth_error (m_groups m) g = Some grp' -> i' < nelements grp' ->
    exists i, image groups (m_groups m) parts p g i i';
  pg_fun : forall g i i' j', image groups (m_groups m) parts p g i i' -> image groups (m_groups m) parts p g i j' -> i' = j';
  pg_inj : forall g i j i', image groups (m_groups m) parts p g i i' -> image groups (m_groups m) parts p g j i' -> i = j;
  pg_nodes : forall g i i' grp grp', image groups (m_groups m) parts p g i i' ->
    nth_error groups g = Some grp -> nth_error (m_groups m) g = Some grp' ->
    nth_error (eg_nodes grp') i' = nth_error (eg_nodes grp) i /\ eg_fvi grp' = eg_fvi grp;
  pg_rows : has_rows (m_groups m);
  (* [old] lists the original numbers of the part's vertices *)
  pg_vertices : exists old vs', m_vertices m = Some vs' /\ StronglySorted lt old /\
    Forall2 (fun v x => nth_error vs v = Some x) old vs' /\
    (forall v, In v old <-> exists e k row, assigned parts e p k /\ elem_row groups e row /\ In v row) /\
    (forall g i i', image groups (m_groups m) parts p g i i' ->
       exists row row', local_row groups g i row /\ local_row (m_groups m) g i' row' /\
         Forall2 (fun v v' => nth_error old v' = Some v /\ nth_error vs' v' = nth_error vs v) row row')
}.

(** Interior and inter-part adjacency of part [p] *)
Record part_adjacency {E A V} (groups : list (egroup E)) (fags : list (list (fagrp A))) (parts : partdict)
    (p : nat) (m : mesh E A V) (fags' : list (list (fagrp A))) : Prop := {
  pa_interior : forall g g' aff i f i' f',
    int_entry fags' g g' aff ((i, f), (i', f')) <->
    exists e e', int_entry fags g g' aff ((e, f), (e', f')) /\
      image groups (m_groups m) parts p g e i /\ image groups (m_groups m) parts p g' e' i';
  pa_part : forall g t q aff i f k f',
    part_entry fags' g t q aff ((i, f), (k, f')) <->
    t = TPartition q /\ q <> p /\
    exists g' e e', int_entry fags g g' aff ((e, f), (e', f')) /\
      image groups (m_groups m) parts p g e i /\ assigned parts (base (map nelements groups) g' + e') q k
}.

(** Faces with boundary tag [t] in part [p]: those of the mesh with this tag, and the inter-part
    faces for a partition tag.  For the tags BTAG_NONE, BTAG_ALL, BTAG_REALLY_ALL provided that
    the mesh has them. *)
Definition part_boundaries {E A V} (groups : list (egroup E)) (fags : list (list (fagrp A))) (parts : partdict)
    (p : nat) (m : mesh E A V) (fags' : list (list (fagrp A))) : Prop :=
  forall g t i f, (system_tag t -> exists l, nth_error fags g = Some l /\ carries l t) ->
    (bdry_adj fags' t (g, i, f) <->
     (exists e, bdry_adj fags t (g, e, f) /\ image groups (m_groups m) parts p g e i) \/
     (exists q aff k f', part_entry fags' g t q aff ((i, f), (k, f')))).

(** Facial adjacency groups of part [p]: each has the number of its element group and lists images of faces that the mesh lists for this group;
    inter-part groups are not empty, and do not list a face twice if the interior groups of the mesh do not *)
Definition part_lists {E A V} (groups : list (egroup E)) (fags : list (list (fagrp A))) (parts : partdict)
    (p : nat) (m : mesh E A V) (fags' : list (list (fagrp A))) : Prop :=
  (forall g grp, nth_error groups g = Some grp -> exists grp', nth_error (m_groups m) g = Some grp' /\ eg_fvi grp' = eg_fvi grp) /\
  forall g l, nth_error fags g = Some l -> exists l', nth_error fags' g = Some l' /\
    (forall b, In b l' -> igroup_of b = g) /\
    (forall b i f, In b l' -> In (i, f) (fag_faces b) -> exists b0 e, In b0 l /\ In (e, f) (fag_faces b0) /\ image groups (m_groups m) parts p g e i) /\
    (forall ig t q es aff, In (InterPart ig t q es aff) l' -> es <> []) /\
    (forall q, NoDup (map (fun x => fst (snd x)) (interior_entries l)) -> ~ carries l (TPartition q) -> NoDup (flat_map fag_faces (filter (has_tag (TPartition q)) l'))).
