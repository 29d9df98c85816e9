(** * CurveSpec: closed, smooth and regular curves in the plane. *)
From Coq Require Import List Reals.
Import ListNotations.
Local Open Scope R_scope.

Definition periodic (f : R -> R * R) : Prop := forall t, f (t + 1) = f t.
(** [f] has velocity [v] at [t] *)
Definition velocity (f : R -> R * R) (t : R) (v : R * R) : Prop :=
  derivable_pt_lim (fun s => fst (f s)) t (fst v) /\ derivable_pt_lim (fun s => snd (f s)) t (snd v).
(** the square of the length *)
Definition norm2 (v : R * R) : R := fst v * fst v + snd v * snd v.
(** a velocity everywhere, never zero *)
Definition regular (f : R -> R * R) : Prop := forall t, exists v, velocity f t v /\ 0 < norm2 v.
(** the curve does not meet itself *)
Definition simple (f : R -> R * R) : Prop := forall s t, 0 <= s < 1 -> 0 <= t < 1 -> f s = f t -> s = t.
(** a point on the circle *)
Definition on_circle (c : R * R) (r : R) (p : R * R) : Prop := norm2 (fst p - fst c, snd p - snd c) = r * r.

(** the square (cube) with sides from -1/2 to 1/2 *)
Definition in_cube (x : list R) : Prop := Forall (fun c => - (1 / 2) <= c <= 1 / 2) x.
