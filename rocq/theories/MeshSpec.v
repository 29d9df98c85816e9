(** * MeshSpec: vocabulary for the statements about meshes.

    Independent of the algorithms in [MeshModel]; only the data types are shared. *)
From Coq Require Import List Arith ZArith Permutation.
From Verif Require Import Np MeshModel.
Import ListNotations.

(** First mesh-wide element number of group [g]: the number of elements in earlier groups. *)
Definition base (sizes : list nat) (g : nat) : nat := sum (firstn g sizes).

(** Mesh-wide element number [e] belongs to group [g]. *)
Definition owns (sizes : list nat) (g e : nat) : Prop :=
  exists n, nth_error sizes g = Some n /\ base sizes g <= e < base sizes g + n.

(** Group [g] exists, has element [i], and [row] are its vertex numbers. *)
Definition local_row {E} (groups : list (egroup E)) (g i : nat) (row : list nat) : Prop :=
  exists grp vi, nth_error groups g = Some grp /\ eg_vi grp = Some vi /\
    i < nelements grp /\ nth_error vi i = Some row.

(** [row] are the vertex numbers of the element with mesh-wide number [e]. *)
Definition elem_row {E} (groups : list (egroup E)) (e : nat) (row : list nat) : Prop :=
  exists g i, local_row groups g i row /\ e = base (map nelements groups) g + i.

Definition share_vertex {E} (groups : list (egroup E)) (e f : nat) : Prop :=
  exists re rf v, elem_row groups e re /\ elem_row groups f rf /\ In v re /\ In v rf.

(** Every group has vertex indices, one row per element. *)
Definition has_rows {E} (groups : list (egroup E)) : Prop :=
  Forall (fun g => exists vi, eg_vi g = Some vi /\ length vi = nelements g) groups.

(** Every vertex number of every element is in range. *)
Definition rows_in_range {E} (nv : nat) (groups : list (egroup E)) : Prop :=
  forall e row v, elem_row groups e row -> In v row -> v < nv.

(** Neighbors of element [e] according to a CSR adjacency structure. *)
Definition csr_row (starts nbs : list nat) (e : nat) (row : list nat) : Prop :=
  exists a b, nth_error starts e = Some a /\ nth_error starts (S e) = Some b /\
    a <= b <= length nbs /\ row = firstn (b - a) (skipn a nbs).

(** ** Faces *)

(** [vs] are the vertex numbers of face [(g, e, f)], in reference order. *)
Definition face_verts {E} (groups : list (egroup E)) (fid : nat * nat * nat) (vs : list nat) : Prop :=
  let '(g, e, f) := fid in
  exists grp row ref, nth_error groups g = Some grp /\ local_row groups g e row /\
    nth_error (eg_fvi grp) f = Some ref /\ Forall2 (fun k v => nth_error row k = Some v) ref vs.

(** Two faces consist of the same vertices (as multisets). *)
Definition same_verts {E} (groups : list (egroup E)) (a b : nat * nat * nat) : Prop :=
  exists va vb, face_verts groups a va /\ face_verts groups b vb /\ Permutation va vb.

(** Every local face vertex number exists in every element of the group. *)
Definition faces_wf {E} (groups : list (egroup E)) : Prop :=
  forall g grp e row ref k,
    nth_error groups g = Some grp -> local_row groups g e row ->
    In ref (eg_fvi grp) -> In k ref -> k < length row.

Definition valid_face {E} (groups : list (egroup E)) (fid : nat * nat * nat) : Prop :=
  let '(g, e, f) := fid in
  exists grp, nth_error groups g = Some grp /\ e < nelements grp /\ f < nfaces grp.

(** [b] is the neighbor of [a]: another face with the same vertices. *)
Definition partner {E} (groups : list (egroup E)) (a b : nat * nat * nat) : Prop :=
  valid_face groups a /\ valid_face groups b /\ a <> b /\ same_verts groups a b.

(** A face with no partner. *)
Definition boundary_face {E} (groups : list (egroup E)) (a : nat * nat * nat) : Prop :=
  valid_face groups a /\ forall b, ~ partner groups a b.

(** The tag map [m] assigns [t] to the vertex set of face [a]. *)
Definition tag_assigned {E} (groups : list (egroup E)) (m : tagmap) (a : nat * nat * nat) (t : btag) : Prop :=
  exists k ts vs, In (k, ts) m /\ In t ts /\ face_verts groups a vs /\ (forall v, In v k <-> In v vs).

(** The keys of a dict are pairwise different sets. *)
Definition keys_distinct (m : tagmap) : Prop :=
  forall k ts k' ts', In (k, ts) m -> In (k', ts') m -> (forall v, In v k <-> In v k') -> ts = ts'.

(** Mapped vertices of two faces agree. *)
Definition same_mapped {E} (vmap : nat -> Z) (groups : list (egroup E)) (a b : nat * nat * nat) : Prop :=
  exists va vb, face_verts groups a va /\ face_verts groups b vb /\
    Permutation (map vmap va) (map vmap vb).

(** No vertex set belongs to more than two faces. *)
Definition at_most_two {E} (groups : list (egroup E)) : Prop :=
  forall a b c, partner groups a b -> partner groups a c -> b = c.

(** ** Adjacency groups *)

(** [((e, f), (e', f'))] is an interior adjacency entry of group [g] towards group [g']. *)
Definition interior_adj {A} (fags : list (list (fagrp A))) (a b : nat * nat * nat) : Prop :=
  let '(g, e, f) := a in
  let '(g', e', f') := b in
  exists l es aff, nth_error fags g = Some l /\ In (Interior g g' es aff) l /\
    In ((e, f), (e', f')) es.

(** [(e, f)] is a face of a boundary group with tag [t] of group [g]. *)
Definition in_bdry {A} (l : list (fagrp A)) (t : btag) (ef : nat * nat) : Prop :=
  exists b, In b l /\ bdry_tag b = Some t /\ In ef (fag_faces b).

Definition bdry_adj {A} (fags : list (list (fagrp A))) (t : btag) (a : nat * nat * nat) : Prop :=
  let '(g, e, f) := a in
  exists l, nth_error fags g = Some l /\ in_bdry l t (e, f).

(** Group list [l] has a boundary group with tag [t]. *)
Definition carries {A} (l : list (fagrp A)) (t : btag) : Prop :=
  exists b, In b l /\ bdry_tag b = Some t.

(** All faces of the adjacency groups of each element group exist. *)
Definition fags_in_range {E A} (groups : list (egroup E)) (fags : list (list (fagrp A))) : Prop :=
  length fags = length groups /\
  forall g grp l b e f, nth_error groups g = Some grp -> nth_error fags g = Some l ->
    In b l -> In (e, f) (fag_faces b) -> e < nelements grp /\ f < nfaces grp.

(** Faces that are a boundary of nothing ([BTAG_NO_BOUNDARY] and derived tags, and
    [BTAG_REALLY_ALL]) are not true boundaries. *)
Definition not_a_boundary (t : btag) : Prop :=
  t = TNoBoundary \/ t = TPartitionCls \/ t = TInduced \/
  (exists p, t = TPartition p) \/ (exists n, t = TUserNoBdry n).

(** Face [ef] is in two different boundary groups with tags from [tags]. *)
Definition doubly {A} (tags : list btag) (l : list (fagrp A)) (ef : nat * nat) : Prop :=
  exists i j bi bj ti tj, i <> j /\ nth_error l i = Some bi /\ nth_error l j = Some bj /\
    bdry_tag bi = Some ti /\ bdry_tag bj = Some tj /\ In ti tags /\ In tj tags /\
    In ef (fag_faces bi) /\ In ef (fag_faces bj).

(** Face [ef] is in the boundary group of the all-encompassing tag but in no group with a tag from [tags]. *)
Definition uncovered {A} (tags : list btag) (all_tag : btag) (l : list (fagrp A)) (ef : nat * nat) : Prop :=
  in_bdry l all_tag ef /\ forall t, In t tags -> ~ in_bdry l t ef.

(** Tags the code adds itself. *)
Definition system_tag (t : btag) : Prop := t = TNone \/ t = TAll \/ t = TReallyAll.

(** The [(neighbor group, entry)] pairs of all interior groups of one element group, in order. *)
Definition interior_entries {A} (l : list (fagrp A)) : list (nat * ((nat * nat) * (nat * nat))) :=
  flat_map (fun b => match b with Interior _ g' es _ => map (pair g') es | _ => [] end) l.

(** Exactly one boundary group of the list has tag [t]. *)
Definition one_group {A} (l : list (fagrp A)) (t : btag) : Prop :=
  exists l1 b l2, l = l1 ++ b :: l2 /\ bdry_tag b = Some t /\ ~ carries (l1 ++ l2) t.
