(** * FactoryModel: element group factories and the construction of discretizations.

    Models meshmode/discretization/poly_element.py: HomogeneousOrderBasedGroupFactory (691-728), TypeMappingGroupFactory (736-782), the factories of
    simplices and tensor products (804-922), _DefaultPolynomialSimplexGroupFactory and the type-based factories (929-1004),
    default_simplex_group_factory (1012-1033); meshmode/discretization/__init__.py: Discretization.__init__, copy (387-452), ndofs (462-464),
    is_nodal, is_modal (466-482), _new_array, zeros, zeros_like (484-503, 521-531, 544-549), quad_weights (551-578); nunit_dofs (236-242, 342-348).

    A factory is a function from mesh element groups to objects. Element groups are described by ModalModel.kind. Objects other than element groups
    occur because isinstance(x, ElementGroupFactory) holds for every callable x (runtime_checkable, __init__.py:203-214), classes included.
    Left out: deprecated classes, tags of axes, the dimension of given nodes, tensor products of dimension 0 (modepy decides), real_dtype and dtype as
    anything but a dtype. The clone of an array context is represented by a constructor. No proofs in this file. *)
From Coq Require Import List Arith Bool.
From Verif Require Import Np Lin ModalModel.
Import ListNotations.

(** Classes of mesh element groups: SimplexElementGroup, TensorProductElementGroup, and classes derived from others *)
Inductive mclass : Type := MSimplex | MTensor | MSub (name : nat) (parent : mclass).
Fixpoint mclass_eqb (a b : mclass) : bool :=
  match a, b with
  | MSimplex, MSimplex | MTensor, MTensor => true
  | MSub i a, MSub j b => (i =? j) && mclass_eqb a b
  | _, _ => false
  end.
(** isinstance(x, d) for an x of class c *)
Fixpoint isinst (c d : mclass) : bool := mclass_eqb c d || match c with MSub _ p => isinst p d | _ => false end.

Record mgrp : Type := mk_mgrp { mg_class : mclass; mg_dim : nat; mg_nel : nat }.

Inductive dtype : Type := F32 | F64 | C64 | C128 | DOther (n : nat).
(** the dtype argument of zeros: None, "c" or a dtype *)
Inductive dtarg : Type := DNone | DComplex | DThe (d : dtype).
(** array contexts *)
Inductive actxt : Type := ARoot (n : nat) | AClone (a : actxt).

Section Factory.
  Context {R : cring} {P : Type}.
  Variable E : numerics R P.
  Variable have_rn : bool.                             (* import recursivenodes succeeds *)
  Notation kind := (kind R P).

  Record egrp : Type := mk_egrp { eg_mg : mgrp; eg_kind : kind }.
  Inductive obj : Type := OGroup (g : egrp) | OOther.
  Definition factory : Type := mgrp -> res obj.

  (** cls(mesh_el_group, order): some classes require further arguments *)
  Definition construct (c : gclass) (mg : mgrp) (order : nat) : res obj :=
    match c with
    | RecursiveNodes | GivenNodes | TensorProductGiven | LegendreTensorProduct => Err TypeError
    | _ => Ok (OGroup (mk_egrp mg (mk_kind R P c (mg_dim mg) order 0 [] [])))
    end.

  (** HomogeneousOrderBasedGroupFactory.__call__ (717-728) *)
  Definition homogeneous (mc : mclass) (gc : gclass) (order : nat) : factory := fun mg =>
    _ <- guard (isinst (mg_class mg) mc) TypeError ;;
    construct gc mg order.
  (** PolynomialRecursiveNodesGroupFactory.__call__ (859-867), PolynomialGivenNodesGroupFactory.__call__ (887-895) *)
  Definition recursive_factory (order family : nat) : factory := fun mg =>
    _ <- guard (isinst (mg_class mg) MSimplex) TypeError ;;
    Ok (OGroup (mk_egrp mg (mk_kind R P RecursiveNodes (mg_dim mg) order family [] []))).
  Definition given_factory (order : nat) (nodes : list P) : factory := fun mg =>
    _ <- guard (isinst (mg_class mg) MSimplex) TypeError ;;
    Ok (OGroup (mk_egrp mg (mk_kind R P GivenNodes (mg_dim mg) order 0 nodes []))).

  (** Values of mesh_group_class_to_factory: a subclass of ElementGroupBase, something callable, something else with or without __name__ *)
  Inductive entry : Type := EGroupClass (c : gclass) | ECallable (f : factory) | EOther (named : bool).
  (** a class that is not a subclass of ElementGroupBase is callable; calling a factory class makes a factory, not a group *)
  Definition factory_class : entry := ECallable (fun _ => Ok OOther).

  (** TypeMappingGroupFactory.__call__ (766-782) *)
  Definition type_mapping (order : nat) (m : list (mclass * entry)) : factory := fun mg =>
    match find (fun e => mclass_eqb (fst e) (mg_class mg)) m with
    | None => Err TypeError
    | Some (_, EGroupClass c) => construct c mg order
    | Some (_, ECallable f) => f mg
    | Some (_, EOther named) => Err (if named then TypeError else AttributeError)
    end.

  (** default_simplex_group_factory (1012-1033); family 0 stands for "lgl" *)
  Definition default_simplex (base_dim order : nat) : res factory :=
    if have_rn then Ok (recursive_factory order 0)
    else if base_dim <=? 2 then Ok (homogeneous MSimplex WarpAndBlend2D order)
    else if base_dim =? 3 then Ok (homogeneous MSimplex WarpAndBlend3D order)
    else Err ValueError.
  (** _DefaultPolynomialSimplexGroupFactory.__call__ (935-938) *)
  Definition default_polynomial (order : nat) : factory := fun mg =>
    f <- default_simplex (mg_dim mg) order ;;
    f mg.

  (** The type-based factories (941-1004) *)
  Definition edge_clustered (order : nat) : factory := type_mapping order [(MSimplex, ECallable (default_polynomial order)); (MTensor, EGroupClass LegendreGaussLobattoTP)].
  Definition interpolatory_quadrature (order : nat) : factory := type_mapping order [(MSimplex, EGroupClass InterpolatoryQuadratureSimplex); (MTensor, EGroupClass GaussLegendreTP)].
  Definition equidistant (order : nat) : factory := type_mapping order [(MSimplex, EGroupClass EquidistantSimplex); (MTensor, EGroupClass EquidistantTP)].
  Definition quadrature (order : nat) : factory := type_mapping order [(MSimplex, EGroupClass QuadratureSimplex); (MTensor, EGroupClass GaussLegendreTP)].
  Definition modal (order : nat) : factory := type_mapping order [(MSimplex, EGroupClass ModalSimplex); (MTensor, EGroupClass ModalTensorProduct)].

  (** ** Discretizations *)
  Record discr : Type := mk_discr { d_mesh : list mgrp; d_groups : list obj; d_real : dtype; d_complex : dtype; d_actx : actxt; d_factory : factory }.

  Definition complex_of (d : dtype) : res dtype := match d with F32 => Ok C64 | F64 => Ok C128 | _ => Err KeyError end.

  (** __init__ (387-432); actx is None if the argument is not an array context *)
  Definition init (actx : option actxt) (mesh : list mgrp) (f : factory) (real : option dtype) (clone : bool) : res discr :=
    let real := match real with None => F64 | Some d => d end in
    match actx with
    | None => Err TypeError
    | Some a =>
        groups <- mapM f mesh ;;
        c <- complex_of real ;;
        Ok (mk_discr mesh groups real c (if clone then AClone a else a) f)
    end.

  (** copy (434-452) *)
  Definition copy (d : discr) (actx : option actxt) (mesh : option (list mgrp)) (f : option factory) (real : option dtype) : res discr :=
    init (Some (match actx with None => d_actx d | Some a => AClone a end)) (match mesh with None => d_mesh d | Some m => m end)
         (match f with None => d_factory d | Some f => f end) (Some (match real with None => d_real d | Some r => r end)) false.

  (** nunit_dofs (236-242, 342-348) with the errors of poly_element.py:320-323, 453-456 *)
  Definition nunit_dofs (k : kind) : res nat :=
    match kd_class k with
    | ModalSimplex | ModalTensorProduct => Ok (length (basis E k))
    | WarpAndBlend2D => _ <- guard ((kd_order k =? 0) || (kd_dim k <? 3)) ValueError ;; Ok (length (unit_nodes E k))
    | GivenNodes => _ <- guard (length (unit_nodes E k) =? length (basis E k)) ValueError ;; Ok (length (unit_nodes E k))
    | _ => Ok (length (unit_nodes E k))
    end.
  Definition group_shape (o : obj) : res (nat * nat) :=
    match o with OGroup g => n <- nunit_dofs (eg_kind g) ;; Ok (mg_nel (eg_mg g), n) | OOther => Err AttributeError end.

  (** ndofs (462-464) *)
  Definition ndofs (d : discr) : res nat := l <- mapM group_shape (d_groups d) ;; Ok (sum (map (fun s => fst s * snd s) l)).
  (** is_nodal, is_modal (466-482) *)
  Definition nodal_obj (o : obj) : bool := match o with OGroup g => is_nodal_class (kd_class (eg_kind g)) | OOther => false end.
  Definition modal_obj (o : obj) : bool := match o with OGroup g => is_modal_class (kd_class (eg_kind g)) | OOther => false end.
  Definition is_nodal (d : discr) : bool := forallb nodal_obj (d_groups d).
  Definition is_modal (d : discr) : bool := forallb modal_obj (d_groups d).

  (** A DOF array: array context (None if frozen), dtype, and for each group the rows by element *)
  Record dofarray : Type := mk_dofarray { da_actx : option actxt; da_dtype : dtype; da_data : list (list (list R)) }.

  (** _new_array (484-503) with actx.np.zeros, zeros (521-531) *)
  Definition zeros (d : discr) (actx : option actxt) (dt : dtarg) : res dofarray :=
    match actx with
    | None => Err TypeError
    | Some a =>
        let dt := match dt with DNone => d_real d | DComplex => d_complex d | DThe t => t end in
        data <- mapM (fun o => s <- group_shape o ;; Ok (repeat (repeat r0 (snd s)) (fst s))) (d_groups d) ;;
        Ok (mk_dofarray (Some a) dt data)
    end.
  (** zeros_like (544-549) *)
  Definition zeros_like (d : discr) (a : dofarray) : res dofarray :=
    match da_actx a with
    | None => Err ValueError
    | Some c => zeros d (Some c) (DThe (da_dtype a))
    end.

  (** quad_weights (551-578); the kernel's range of idof is the number of weights. ElementGroupTypeError is a TypeError *)
  Definition quad_weights (d : discr) : res dofarray :=
    _ <- guard (is_nodal d) TypeError ;;
    data <- mapM (fun o => match o with
                           | OGroup g => _ <- nunit_dofs (eg_kind g) ;; Ok (repeat (weights E (eg_kind g)) (mg_nel (eg_mg g)))
                           | OOther => Err AttributeError
                           end) (d_groups d) ;;
    Ok (mk_dofarray None (d_real d) data).
End Factory.
Arguments egrp : clear implicits. Arguments obj : clear implicits. Arguments entry : clear implicits. Arguments discr : clear implicits. Arguments factory : clear implicits. Arguments dofarray : clear implicits.
