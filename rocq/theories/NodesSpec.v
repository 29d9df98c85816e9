(** * NodesSpec: what the properties of unit nodes and version numbers say, without the functions of the model. *)
From Coq Require Import String Ascii List Arith Bool.
From Verif Require Import Np Lin Ord NodesModel.
Import ListNotations.

Section Spec.
  Variable R : ocring.
  Local Open Scope cring_scope.

  (** the array of shape (dim, npoints) whose columns are the points *)
  Definition array_of (dim : nat) (pts : list (list R)) : nodes R := mk_nodes (List.length pts) (map (fun d => map (fun p => nth d p 0) pts) (seq 0%nat dim)).

  (** within tol of -1 *)
  Definition near (tol x : R) : bool := (- tol <? x + 1) && (x + 1 <? tol).

  (** the points of the face on which all coordinates from number dim on are -1, without these coordinates *)
  Definition face_points (tol : R) (dim : nat) (pts : list (list R)) : list (list R) :=
    map (firstn dim) (filter (fun p => forallb (near tol) (skipn dim p)) pts).

  (** points numbered by tuples, such that a coordinate is -1 exactly if the entry of the tuple is 0 *)
  Definition placed (tol : R) (ts : list (list nat)) (pts : list (list R)) : Prop :=
    Forall2 (fun t p => Forall2 (fun i x => near tol x = (i =? 0)%nat) t p) ts pts.

  (** the arithmetic mean of points *)
  Definition is_mean (inv : nat -> R) (pts : list (list R)) (d : nat) (x : R) : Prop := x = rsum (map (fun p => nth d p 0) pts) * inv (List.length pts).
End Spec.

(** the exponents of all monomials of degree at most k in n variables, in some order *)
Definition tuples_upto (n k : nat) (ts : list (list nat)) : Prop := NoDup ts /\ forall t, In t ts <-> List.length t = n /\ list_sum t <= k.

(** decimal numbers *)
Definition digit (c : ascii) : option nat := List.find (fun n => Ascii.eqb c (ascii_of_nat (48 + n))) (seq 0 10).
Fixpoint dec (s : list ascii) : nat := match s with [] => 0 | c :: s => match digit c with Some n => n | None => 0 end * 10 ^ List.length s + dec s end.
Definition numeral (s : list ascii) (n : nat) : Prop := s <> [] /\ Forall (fun c => digit c <> None) s /\ dec s = n.

Fixpoint join_dots (ps : list (list ascii)) : list ascii := match ps with [] => [] | [p] => p | p :: ps => p ++ "."%char :: join_dots ps end.

Definition letter (c : ascii) : Prop := exists n, n < 26 /\ c = ascii_of_nat (97 + n).
Definition letter_or_digit (c : ascii) : Prop := letter c \/ digit c <> None.
