(** * TFlipSpec: vocabulary for flips of tensor product elements. *)
From Coq Require Import List Arith Bool.
From Verif Require Import Np MeshModel Lin Ord ProcSpec.
Import ListNotations.

(** the other corner on the edge in the direction of the first axis *)
Definition across (k : nat) : nat := if Nat.even k then S k else pred k.
Definition set_bit (k i : nat) : nat := if Nat.testbit k i then k else k + 2 ^ i.
Definition clear_bit (k i : nat) : nat := if Nat.testbit k i then k - 2 ^ i else k.

Section TensorSpec.
  Variable R : ocring.
  Local Open Scope cring_scope.
  (** the reference cube reflected in the first axis *)
  Definition mirror (u : list R) : list R := match u with [] => [] | x :: u => - x :: u end.
  (** coordinates of corner [k] *)
  Definition corner_coords (d k : nat) : list R := map (fun i => if Nat.testbit k i then 1 else - (1)) (seq 0 d).
  (** the determinant of the edges that meet in corner [k], directed along the axes: the Jacobian there (up to a factor) *)
  Definition jacobian (d : nat) (ps : list (list R)) (k : nat) : R :=
    det R d (map (fun i => vsub (nth (set_bit k i) ps []) (nth (clear_bit k i) ps [])) (seq 0 d)).
  (** [M] is exact for all functions of the space [S] *)
  Definition exact_flip (S : (list R -> R) -> Prop) (un M : list (list R)) : Prop :=
    forall f, S f -> matvec M (map f un) = map (fun u => f (mirror u)) un.
End TensorSpec.
