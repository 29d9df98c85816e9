(** * GNSpec: vocabulary for the Gauss-Newton method. *)
From Coq Require Import List Arith Bool.
From Verif Require Import Np Lin Ord.
Import ListNotations.

Section GNSpec.
  Variable R : ocring.
  Local Open Scope cring_scope.

  (** [M] is the inverse of the transposed Vandermonde matrix *)
  Definition inverse_vandermonde (basis : list (list R -> R)) (un : list (list R)) (M : list (list R)) : Prop :=
    length un = length basis /\ length M = length un /\
    forall y, length y = length basis -> map (fun f => dot (map f un) (matvec M y)) basis = y.
  (** the function [f] with gradient [g] is a combination of basis functions *)
  Definition in_span (d : nat) (basis : list (list R -> R)) (gradients : list (list R -> list R)) (f : list R -> R) (g : list R -> list R) : Prop :=
    exists c, length c = length basis /\
      forall u, length u = d -> f u = dot c (map (fun b => b u) basis) /\
        forall r, (r < d)%nat -> nth r (g u) 0 = dot c (map (fun b => nth r (b u) 0) gradients).
  Definition gradients_ok (d : nat) (basis : list (list R -> R)) (gradients : list (list R -> list R)) : Prop :=
    length gradients = length basis /\ Forall (fun g => forall u, length u = d -> length (g u) = d) gradients.

  (** the map with components [fs] *)
  Definition image (fs : list (list R -> R)) (u : list R) : list R := map (fun f => f u) fs.
  (** an affine function and its gradient *)
  Definition aff (ab : list R * R) (u : list R) : R := dot (fst ab) u + snd ab.
  (** the derivative of an affine map with respect to coordinate [r] *)
  Definition column (abs : list (list R * R)) (r : nat) : list R := map (fun ab => nth r (fst ab) 0) abs.
  (** the Gram determinant of a map in one or two dimensions *)
  Definition gram (cols : list (list R)) : R :=
    match cols with
    | [c] => dot c c
    | [c; d] => dot c c * dot d d - dot c d * dot d c
    | _ => 0
    end.

  (** the combination of the rows of [df] *)
  Definition combination (amb : nat) (df : list (list R)) (delta : list R) : list R := vecmat amb delta df.
  (** [delta] solves the least squares problem: what remains of the residual is orthogonal to all derivatives *)
  Definition least_squares (amb : nat) (df : list (list R)) (resid delta : list R) : Prop :=
    length delta = length df /\ Forall (fun row => dot row (combination amb df delta) = dot row resid) df.
  (** one step of the method from [u] leads to [u'], which is not finite if the derivatives are linearly dependent *)
  Definition newton_step (amb : nat) (df : list (list R)) (resid u : list R) (u' : option (list R)) : Prop :=
    match u' with
    | Some v => exists delta, least_squares amb df resid delta /\ v = vsub u delta
    | None => gram df = 0
    end.

  (** a face with components [fs], their gradients [gs], nodes at [un] *)
  Definition derivatives (d : nat) (gs : list (list R -> list R)) (u : list R) : list (list R) := map (fun r => map (fun g => nth r (g u) 0) gs) (seq 0 d).
  Record face : Type := mk_face { fc_fs : list (list R -> R); fc_gs : list (list R -> list R) }.
  Definition face_ok (d amb : nat) (basis : list (list R -> R)) (gradients : list (list R -> list R)) (fc : face) : Prop :=
    length (fc_fs fc) = amb /\ Forall2 (in_span d basis gradients) (fc_fs fc) (fc_gs fc).
  Definition face_nodes (un : list (list R)) (fc : face) : list (list R) := map (image (fc_fs fc)) un.
  (** within the tolerance, in every coordinate *)
  Definition within (tol : R) (x y : list R) : Prop := Forall (fun e => olt (- tol) e = true /\ olt e tol = true) (vsub x y).
  (** a point found for target [t] on the face *)
  Definition found (d amb : nat) (tol : R) (fc : face) (t : list R) (u' : option (list R)) : Prop :=
    exists u, length u = d /\ within tol (image (fc_fs fc) u) t /\
      newton_step amb (derivatives d (fc_gs fc) u) (vsub (image (fc_fs fc) u) t) u u'.
End GNSpec.

(** A method that goes from state to state until it is [done], for at most [n] further steps *)
Section Runs.
  Variable X : Type.
  Variable next : X -> X -> Prop.
  Variable done : X -> Prop.
  Inductive after : nat -> X -> X -> Prop :=
  | after_0 : forall x, after 0 x x
  | after_S : forall n x y z, next x y -> after n y z -> after (S n) x z.
  (** stopped one step after the first state that is done *)
  Definition stopped (n : nat) (x z : X) : Prop :=
    exists k y, k <= n /\ after k x y /\ done y /\ next y z /\ forall j w, j < k -> after j x w -> ~ done w.
  Definition exhausted (n : nat) (x : X) : Prop := forall k, k <= n -> exists y, after k x y /\ ~ done y.
End Runs.
