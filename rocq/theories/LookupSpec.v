(** * LookupSpec: points of straight elements, boxes. *)
From Coq Require Import List Arith Bool.
From Verif Require Import Np Lin Ord MeshModel MeshStateModel.
Import ListNotations.

Section LookupSpec.
  Variable R : ocring.
  (** [p] is a convex combination of [pts] *)
  Definition convex_point (dim : nat) (pts : list (list R)) (p : list R) : Prop :=
    length p = dim /\ exists w : list R, length w = length pts /\ Forall (fun x => ole r0 x = true) w /\ rsum w = r1 /\
      forall a c, nth_error p a = Some c -> exists xs, Forall2 (fun q x => nth_error q a = Some x) pts xs /\ c = dot w xs.
  Definition inside (b : list R * list R) (p : list R) : Prop :=
    Forall2 (fun l c => ole l c = true) (fst b) p /\ Forall2 (fun c h => ole c h = true) p (snd b).
  Definition box_inside (b c : list R * list R) : Prop :=
    Forall2 (fun l l' => ole l' l = true) (fst b) (fst c) /\ Forall2 (fun h h' => ole h h' = true) (snd b) (snd c).
End LookupSpec.

Section LookupMesh.
  Variable R : ocring.
  Context {A : Type}.
  (** the corners of element [i] of group [g] *)
  Definition element_points (m : mesh (list (list R)) A (list R)) (g i : nat) (pts : list (list R)) : Prop :=
    exists grp vi row vs, nth_error (m_groups m) g = Some grp /\ eg_vi grp = Some vi /\ nth_error vi i = Some row /\ m_vertices m = Some vs /\
      Forall2 (fun v q => nth_error vs v = Some q) row pts.
  (** every bound is the coordinate of a point, moved by [eps] *)
  Definition tight (eps : R) (b : list R * list R) (pts : list (list R)) : Prop :=
    (forall a l, nth_error (fst b) a = Some l -> exists q c, In q pts /\ nth_error q a = Some c /\ l = rsub c eps) /\
    (forall a h, nth_error (snd b) a = Some h -> exists q c, In q pts /\ nth_error q a = Some c /\ h = radd c eps).
  Definition good_groups (m : mesh (list (list R)) A (list R)) (nvertices : nat) : Prop :=
    Forall (fun g => exists vi, eg_vi g = Some vi /\ length vi = length (eg_nodes g) /\ Forall (fun row => row <> [] /\ Forall (fun v => v < nvertices) row) vi) (m_groups m).
End LookupMesh.
