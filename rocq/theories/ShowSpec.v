(** * ShowSpec: what a picture of a field on one group of elements should show. *)
From Coq Require Import List Arith.
From Verif Require Import Np Lin VisIoModel.
Import ListNotations.

Section Spec.
  Variable R : cring.
  Local Open Scope cring_scope.
  (** coordinates of the nodes: for each axis and element, the coordinates of the nodes of the element *)
  Variable coords : list (list (list R)).

  (** the value at node i of element e *)
  Definition at_node {A} (d : list (list A)) (e i : nat) : option A := match nth_error d e with Some x => nth_error x i | None => None end.

  (** node i of element e as a point in space; missing coordinates are zero *)
  Definition point_at (e i : nat) (p : list R) : Prop :=
    length p = 3%nat /\
    forall ax, (ax < 3)%nat -> nth_error p ax = match nth_error coords ax with Some d => at_node d e i | None => Some 0 end.

  (** as many elements as [nel] with [nunit] nodes each *)
  Definition rectangular {A} (nel nunit : nat) (d : list (list A)) : Prop := length d = nel /\ Forall (fun x => length x = nunit) d.

  (** A field with real values: a number, or a DOF array that has the values [fv] after interpolation to the nodes of the picture *)
  Definition real_field (conn : dofarray R -> res (dofarray R)) (nel nunit : nat) (v : fval R) (fv : list (list R)) : Prop :=
    (exists x, v = VNum (RealNum x) /\ fv = repeat (repeat x nunit) nel) \/
    (exists d, v = VDof d /\ conn d = Ok (RealDof [fv]) /\ rectangular nel nunit fv).
End Spec.
Arguments at_node {A}. Arguments point_at {R}. Arguments rectangular {A}. Arguments real_field {R}.
