(** * ShapeSpec: surfaces in space. *)
From Coq Require Import List Reals.
From Verif Require Import ShapeModel.
Import ListNotations.
Local Open Scope R_scope.

(** periodic in both parameters *)
Definition doubly_periodic (S : R -> R -> point) : Prop := forall u v, S (u + 2 * PI) v = S u v /\ S u (v + 2 * PI) = S u v.
(** the surface does not meet itself *)
Definition embedded (S : R -> R -> point) : Prop :=
  forall u v u' v', 0 <= u < 2 * PI -> 0 <= v < 2 * PI -> 0 <= u' < 2 * PI -> 0 <= v' < 2 * PI -> S u v = S u' v' -> u = u' /\ v = v'.
(** derivative of a curve in space *)
Definition tangent (c : R -> point) (t : R) (d : point) : Prop :=
  derivable_pt_lim (fun s => px (c s)) t (px d) /\ derivable_pt_lim (fun s => py (c s)) t (py d) /\ derivable_pt_lim (fun s => pz (c s)) t (pz d).
Definition cross (a b : point) : point := (py a * pz b - pz a * py b, pz a * px b - px a * pz b, px a * py b - py a * px b).
(** the tangents are independent everywhere: there is a normal *)
Definition immersed (S : R -> R -> point) : Prop :=
  forall u v, exists du dv, tangent (fun s => S s v) u du /\ tangent (fun s => S u s) v dv /\ cross du dv <> (0, 0, 0).

(** generate_torus, docstring (988-992) *)
Definition documented_torus (r_major r_minor u v : R) : point :=
  (cos u * (r_major + r_minor * cos v), sin u * (r_major + r_minor * sin v), r_minor * sin v).
