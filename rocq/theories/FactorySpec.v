(** * FactorySpec: what users expect of element group factories and discretizations. *)
From Coq Require Import List Arith Bool.
From Verif Require Import Np Lin ModalModel FactoryModel.
Import ListNotations.

Inductive cell := Simplices | Cubes.
(** the reference cell of mesh groups and of element groups (shape properties) *)
Fixpoint mesh_cell (c : mclass) : cell := match c with MSimplex => Simplices | MTensor => Cubes | MSub _ p => mesh_cell p end.
Definition cell_of (c : gclass) : cell :=
  match c with
  | ModalTensorProduct | TensorProductGiven | LegendreTensorProduct | GaussLegendreTP | LegendreGaussLobattoTP | EquidistantTP => Cubes
  | _ => Simplices
  end.
(** a mesh group made by meshmode *)
Definition plain (mg : mgrp) : Prop := mg_class mg = MSimplex \/ mg_class mg = MTensor.

(** a class is derived from itself and from what its base class is derived from *)
Inductive derives : mclass -> mclass -> Prop :=
| derives_refl c : derives c c
| derives_base n p d : derives p d -> derives (MSub n p) d.

Section Spec.
  Context {R : cring} {P : Type}.
  (** an element group of a class with property [ok] on the same elements, cells and of the order *)
  Definition suits (ok : gclass -> bool) (order : nat) (mg : mgrp) (o : obj R P) : Prop :=
    exists g, o = OGroup g /\ eg_mg g = mg /\ kd_dim (eg_kind g) = mg_dim mg /\ kd_order (eg_kind g) = order /\
      cell_of (kd_class (eg_kind g)) = mesh_cell (mg_class mg) /\ ok (kd_class (eg_kind g)) = true.
  (** the groups of a discretization have numbers of elements and degrees of freedom *)
  Definition shaped (rows : list (list R)) (nel n : nat) : Prop := length rows = nel /\ Forall (fun row => length row = n) rows.
End Spec.

(** the factories recommended for all mesh groups of meshmode *)
Inductive recommended := REdgeClustered | RInterpolatoryQuadrature | REquidistant | RQuadrature | RModal.
Definition the_factory {R : cring} {P : Type} (have_rn : bool) (r : recommended) (order : nat) : factory R P :=
  match r with
  | REdgeClustered => edge_clustered have_rn order
  | RInterpolatoryQuadrature => interpolatory_quadrature order
  | REquidistant => equidistant order
  | RQuadrature => quadrature order
  | RModal => modal order
  end.
(** what their documentation promises about the element groups *)
Definition promised (r : recommended) : gclass -> bool := fun c =>
  let modal := match c with ModalSimplex | ModalTensorProduct => true | _ => false end in
  match r with RQuadrature => negb modal | RModal => modal | _ => negb modal && match c with QuadratureSimplex => false | _ => true end end.
(** node sets are available: without recursivenodes there are none for simplices of more than 3 dimensions *)
Definition available (have_rn : bool) (r : recommended) (mesh : list mgrp) : Prop :=
  r = REdgeClustered -> have_rn = false -> Forall (fun mg => mg_class mg = MSimplex -> mg_dim mg <= 3) mesh.
