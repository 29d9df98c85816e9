(** * GlueSpec: vocabulary for gluing boundaries. *)
From Coq Require Import List Arith ZArith Permutation.
From Verif Require Import Np MeshModel MeshSpec Lin Ord AffineModel PointSpec GlueModel.
Import ListNotations.

Section GlueSpec.
  Context {R : ocring} {E : Type}.
  Implicit Types (groups : list (egroup E)) (fags : list (list (fagrp (amap R)))) (vs : list (list R)) (mp : bpm R).

  (** Vertex [v] belongs to a face with tag [t]. *)
  Definition bdry_vertex groups fags (t : btag) (v : nat) : Prop :=
    exists a va, bdry_adj fags t a /\ face_verts groups a va /\ In v va.

  (** The image of vertex [v] lies within the tolerance of vertex [w]. *)
  Definition lands_on vs mp (v w : nat) : Prop :=
    exists x fx y, nth_error vs v = Some x /\ amap_call R (bp_map mp) x = Ok fx /\ nth_error vs w = Some y /\
      within (bp_tol mp) fx y.

  (** The vertices of [b], in some order, are the images of the vertices of [a]. *)
  Definition face_lands_on groups vs mp (a b : nat * nat * nat) : Prop :=
    exists va vb vb', face_verts groups a va /\ face_verts groups b vb /\ Permutation vb vb' /\
      Forall2 (lands_on vs mp) va vb'.

  (** No face has tag [t] twice, and no two faces with tag [t] have the same vertices. *)
  Definition faces_once fags (t : btag) : Prop :=
    forall g l, nth_error fags g = Some l -> NoDup (flat_map fag_faces (filter (has_tag t) l)).
  Definition faces_differ groups fags (t : btag) : Prop :=
    forall a b, bdry_adj fags t a -> bdry_adj fags t b -> same_verts groups a b -> a = b.

  (** The images of different vertices of the first boundary are at least two tolerances apart. *)
  Definition separated groups fags vs mp : Prop :=
    forall v w x y fx fy, bdry_vertex groups fags (bp_from mp) v -> bdry_vertex groups fags (bp_from mp) w ->
      nth_error vs v = Some x -> nth_error vs w = Some y ->
      amap_call R (bp_map mp) x = Ok fx -> amap_call R (bp_map mp) y = Ok fy ->
      within (rmul (radd r1 r1) (bp_tol mp)) fx fy -> v = w.

  (** A vertex on both boundaries is mapped to nothing but itself. *)
  Definition common_fixed groups fags vs mp : Prop :=
    forall v w, bdry_vertex groups fags (bp_from mp) v -> bdry_vertex groups fags (bp_to mp) v ->
      bdry_vertex groups fags (bp_to mp) w -> lands_on vs mp v w -> w = v.

  (** [pairs] is a one-to-one correspondence between the faces of the two boundaries along the map. *)
  Definition one_to_one groups fags vs mp (pairs : list (faceid * faceid)) : Prop :=
    (forall a b, In (a, b) pairs ->
       bdry_adj fags (bp_from mp) a /\ bdry_adj fags (bp_to mp) b /\ face_lands_on groups vs mp a b) /\
    (forall a, bdry_adj fags (bp_from mp) a -> exists b, In (a, b) pairs /\ forall b', In (a, b') pairs -> b' = b) /\
    (forall b, bdry_adj fags (bp_to mp) b -> exists a, In (a, b) pairs /\ forall a', In (a', b) pairs -> a' = a).

  (** Face [a] is a neighbor of face [b] across the map [f]. *)
  Definition interior_adj_via fags (a b : nat * nat * nat) (f : amap R) : Prop :=
    let '(g, e, i) := a in
    let '(g', e', i') := b in
    exists l es, nth_error fags g = Some l /\ In (Interior g g' es f) l /\ In ((e, i), (e', i')) es.

  (** A mesh whose elements, faces and vertices are in range. *)
  Definition mesh_in_range (d : nat) groups vs fags : Prop :=
    has_rows groups /\ faces_wf groups /\ fags_in_range groups fags /\ rows_in_range (length vs) groups /\
    Forall (fun x => length x = d) vs.

  Definition gluable groups fags vs mp : Prop :=
    ole (@r0 R) (bp_tol mp) = true /\
    (forall x fx, In x vs -> amap_call R (bp_map mp) x = Ok fx -> length fx = length x) /\
    faces_once fags (bp_from mp) /\ faces_once fags (bp_to mp) /\
    faces_differ groups fags (bp_from mp) /\ faces_differ groups fags (bp_to mp) /\
    separated groups fags vs mp /\ common_fixed groups fags vs mp.
End GlueSpec.
