(** * QuadSpec: integrals of functions and exact quadrature. *)
From Coq Require Import List Arith.
From Verif Require Import Lin.
Import ListNotations.

Section Spec.
  Context {R : cring}.

  (** I is a linear functional on functions of P, such as an integral over a reference element *)
  Definition linear_functional {P} (I : (P -> R) -> R) : Prop :=
    (forall f g, (forall p, f p = g p) -> I f = I g) /\ (forall f g, I (fun p => radd (f p) (g p)) = radd (I f) (I g)) /\
    (forall a f, I (fun p => rmul a (f p)) = rmul a (I f)).
  (** f is a combination of the functions *)
  Definition spanned {P} (basis : list (P -> R)) (f : P -> R) : Prop :=
    exists c, length c = length basis /\ forall p, f p = dot c (map (fun b => b p) basis).
  Definition orthonormal {P} (I : (P -> R) -> R) (basis : list (P -> R)) : Prop :=
    forall i j f g, nth_error basis i = Some f -> nth_error basis j = Some g -> I (fun p => rmul (f p) (g p)) = if i =? j then r1 else r0.
  (** combinations are determined by their values at the nodes *)
  Definition unisolvent {P} (basis : list (P -> R)) (nodes : list P) : Prop :=
    length nodes = length basis /\
    forall c d, length c = length basis -> length d = length basis ->
      (forall p, In p nodes -> dot c (map (fun b => b p) basis) = dot d (map (fun b => b p) basis)) -> c = d.
  (** the sum of weights times values *)
  Definition quad_sum {P} (nodes : list P) (weights : list R) (f : P -> R) : R := dot weights (map f nodes).
  (** [inv] computes inverses *)
  Definition right_inverse (A B : list (list R)) : Prop := length B = length A /\ forall v, length v = length A -> matvec A (matvec B v) = v.
  Fixpoint rprod (l : list R) : R := match l with [] => r1 | x :: l => rmul x (rprod l) end.
  (** the product of functions of one coordinate each *)
  Fixpoint tensor (fs : list (R -> R)) (p : list R) : R := match fs, p with f :: fs, a :: p => rmul (f a) (tensor fs p) | [], [] => r1 | _, _ => r0 end.
End Spec.
