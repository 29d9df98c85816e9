(** * SurfSpec: vocabulary for the statements about curves and surfaces. *)
From Coq Require Import List Arith Bool.
From Verif Require Import Np MeshModel MeshSpec Lin.
Import ListNotations.

(** The boundary of a reference triangle and of a reference square, traversed counterclockwise.
    Vertices 0, 1, 2, 3 of the square are (0,0), (1,0), (0,1), (1,1). *)
Definition circuit (is_tp : bool) : list (nat * nat) :=
  if is_tp then [(0, 1); (1, 3); (3, 2); (2, 0)] else [(0, 1); (1, 2); (2, 0)].

(** Edge number [k] of element [e] goes from vertex [u] to vertex [v]. *)
Definition edge_at (rows : list (list nat)) (is_tp : bool) (e k u v : nat) : Prop :=
  exists row i j, nth_error rows e = Some row /\ nth_error (circuit is_tp) k = Some (i, j) /\
    nth_error row i = Some u /\ nth_error row j = Some v.

(** A closed surface with consistent orientation: no edge is traversed twice in the same direction, every edge is also traversed
    in the other direction. *)
Definition closed_oriented (rows : list (list nat)) (is_tp : bool) : Prop :=
  forall e k u v, edge_at rows is_tp e k u v ->
    u <> v /\ (forall e' k', edge_at rows is_tp e' k' u v -> e' = e /\ k' = k) /\ exists e' k', edge_at rows is_tp e' k' v u.

(** Neighboring elements traverse their common edge in opposite directions. *)
Definition consistently_oriented (rows : list (list nat)) (is_tp : bool) : Prop :=
  forall e k e' k' u v, edge_at rows is_tp e k u v -> edge_at rows is_tp e' k' u v -> e = e'.

(** Every face has exactly one neighbor. *)
Definition closed_mesh {E} (groups : list (egroup E)) : Prop :=
  forall a, valid_face groups a -> exists b, partner groups a b /\ forall b', partner groups a b' -> b' = b.

Section Geometry.
  Variable R : cring.
  Local Open Scope cring_scope.

  (** Twice the signed area of the triangle of the first three corners of an element in the plane. *)
  Definition cross (c : list (R * R)) : option R :=
    match c with
    | (u0, v0) :: (u1, v1) :: (u2, v2) :: _ => Some ((u1 - u0) * (v2 - v0) - (v1 - v0) * (u2 - u0))
    | _ => None
    end.

  (** The torus with major radius [a] and minor radius [b], by its implicit equation. *)
  Definition on_torus (a b : R) (p : list R) : Prop :=
    exists x y z, p = [x; y; z] /\
      let s := x * x + y * y + z * z + a * a - b * b in s * s = (1 + 1) * (1 + 1) * (a * a) * (x * x + y * y).

  (** The square of the distance from the z axis is [d]. *)
  Definition axis_distance2 (p : list R) (d : R) : Prop := exists x y z, p = [x; y; z] /\ x * x + y * y = d.
End Geometry.
