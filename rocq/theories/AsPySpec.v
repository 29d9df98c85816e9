(** * AsPySpec: what reading back the text of a mesh should give. *)
From Coq Require Import List Arith.
From Verif Require Import Np MeshModel Lin AffineModel EqModel.
Import ListNotations.

(** An array has as many entries as its shape says *)
Definition arr_ok {X} (a : arr X) : Prop := length (a_data a) = fold_right Nat.mul 1 (a_shape a).

(** Nested lists show the axes of an array up to the first one of length zero *)
Definition shown_shape (s s' : list nat) : Prop :=
  (~ In 0 s /\ s' = s) \/ exists p q, s = p ++ 0 :: q /\ ~ In 0 p /\ s' = p ++ [0].

Section Spec.
  Variable R : cring.
  Variable literal : R -> bool.
  Variable space_dim : nat -> nat -> nat -> nat.

  (** All numbers are finite *)
  Definition all_literal (l : list R) : Prop := forall x, In x l -> literal x = true.

  (** A group of elements of dimension dim in ambient_dim dimensions, with nel elements and nunit nodes per element *)
  Definition group_shapes (g : egrp R) (dim ambient_dim nel nunit : nat) : Prop :=
    a_shape (e_unit R g) = [dim; nunit] /\ a_shape (e_nodes R g) = [ambient_dim; nel; nunit] /\
    (forall vi, e_vi R g = Some vi -> exists nv, a_shape vi = [nel; nv]).
  Definition group_valid (g : egrp R) : Prop :=
    arr_ok (e_unit R g) /\ arr_ok (e_nodes R g) /\ (forall vi, e_vi R g = Some vi -> arr_ok vi) /\
    all_literal (a_data (e_unit R g)) /\ all_literal (a_data (e_nodes R g)).

  (** A vector of numbers *)
  Definition vector (a : arr nat) : Prop := exists n, a_shape a = [n] /\ length (a_data a) = n.
  Definition map_literal (f : amap R) : Prop :=
    (forall m row, am_matrix f = Some m -> In row m -> all_literal row) /\ (forall o, am_offset f = Some o -> all_literal o).
  (** The tags the module of the snippet imports *)
  Definition imported (t : btag) : Prop := t = TNone \/ t = TAll \/ t = TReallyAll.

  (** Interior, boundary and inter-part groups of exactly these classes, with vectors, finite maps and imported tags *)
  Definition facial_valid (f : fagroup R) : Prop :=
    match f with
    | GFacial _ _ _ _ _ => False
    | GInterior _ c _ _ es fs ns nfs m => c = 0 /\ vector es /\ vector fs /\ vector ns /\ vector nfs /\ map_literal m
    | GBoundary _ c _ t es fs => c = 0 /\ imported t /\ vector es /\ vector fs
    | GInterPart _ c _ t _ es fs ns nfs m => c = 0 /\ imported t /\ vector es /\ vector fs /\ vector ns /\ vector nfs /\ map_literal m
    end.

  (** A mesh of the class Mesh: at least one dimension, every group has elements *)
  Definition mesh_valid (m : emesh R) : Prop :=
    em_class R m = 0 /\
    (forall v, em_vertices R m = Some v -> arr_ok v /\ all_literal (a_data v) /\ exists d nv, a_shape v = [d; nv] /\ 0 < d) /\
    (forall g, In g (em_groups R m) ->
       group_valid g /\ exists dim d nel, 0 < dim /\ 0 < d /\ 0 < nel /\ group_shapes g dim d nel (space_dim (e_class R g) dim (e_order R g))
         /\ 0 < space_dim (e_class R g) dim (e_order R g)) /\
    (forall gs l f, em_facial R m = LSome gs -> In l gs -> In f l -> facial_valid f) /\
    (forall n, em_nodal R m = LSome n -> n_class n = 0 /\ vector (n_starts n) /\ vector (n_neighbors n)).
End Spec.
