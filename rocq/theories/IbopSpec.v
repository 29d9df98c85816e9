(** * IbopSpec: values of DOFArrays. *)
From Coq Require Import List Arith Bool.
From Verif Require Import Np IbopModel.
Import ListNotations.

Section IbopSpec.
  Variable V : Type.
  (** the arrays of [x] have the values [vs] *)
  Definition holds (h : heap V) (x : dofs) (vs : list (list V)) : Prop :=
    Forall2 (fun a v => exists r, nth_error h a = Some r /\ data V r = v) x vs.
  Definition all_inplace (h : heap V) (x : dofs) : Prop := Forall (fun a => exists r, nth_error h a = Some r /\ inplace V r = true) x.
  (** nothing but the arrays of [x] has changed *)
  Definition only (x : dofs) (h h' : heap V) : Prop := forall a, ~ In a x -> nth_error h' a = nth_error h a.
  (** arrays of [y] that are arrays of [x] are so at the same place or a later one *)
  Definition not_behind (x y : dofs) : Prop := forall i j a, nth_error x i = Some a -> nth_error y j = Some a -> j <= i.
  (** values entry by entry *)
  Definition entrywise (f : V -> V -> V) (u v w : list V) : Prop := Forall2 (fun xy z => z = f (fst xy) (snd xy)) (combine u v) w.
End IbopSpec.
