(** * FdFactoryModel: which element group factories and boundary markers build_connection_from_firedrake accepts.

    Models meshmode/interop/firedrake/connection.py:647-718 (build_connection_from_firedrake up to the discretization) with the attribute group_class of the
    factories of meshmode/discretization/poly_element.py (703-704, 804-922; no value in 880-895, 736-782, 929-1004).

    Simplified: function spaces are described by two booleans (the right type, discontinuous Lagrange), the import of the mesh and Firedrake's boundary_nodes are
    arguments, factories are the ones of FactoryModel.v.  The rest of the function is in FdConnModel.v.  No proofs in this file. *)
From Coq Require Import List Arith Bool.
From Verif Require Import Np Lin ModalModel FactoryModel FdValModel.
Import ListNotations.

Section Accept.
  Context {R : cring} {P : Type}.
  Variable have_rn : bool.

  (** Callables given as factories: instances of the homogeneous factories, PolynomialRecursiveNodesGroupFactory, PolynomialGivenNodesGroupFactory,
      TypeMappingGroupFactory and the factories derived from it, _DefaultPolynomialSimplexGroupFactory, a class of homogeneous factories (not an instance),
      and functions *)
  Inductive fdesc : Type :=
  | FHomogeneous (mc : mclass) (gc : gclass) (order : nat)
  | FRecursive (order family : nat)
  | FGiven (order : nat) (nodes : list P)
  | FMapping (order : nat) (m : list (mclass * FactoryModel.entry R P))
  | FDefault (order : nat)
  | FClass (gc : gclass)
  | FFunction (f : factory R P).

  (** the attribute group_class; only the declaration of HomogeneousOrderBasedGroupFactory (704), without a value, applies to PolynomialGivenNodesGroupFactory *)
  Definition group_class_attr (d : fdesc) : option gclass :=
    match d with
    | FHomogeneous _ gc _ => Some gc
    | FRecursive _ _ => Some RecursiveNodes
    | FClass gc => Some gc
    | FGiven _ _ | FMapping _ _ | FDefault _ | FFunction _ => None
    end.
  (** calling it with a mesh element group *)
  Definition call_factory (d : fdesc) : factory R P :=
    match d with
    | FHomogeneous mc gc order => homogeneous mc gc order
    | FRecursive order family => recursive_factory order family
    | FGiven order nodes => given_factory order nodes
    | FMapping order m => type_mapping order m
    | FDefault order => default_polynomial have_rn order
    | FClass _ => fun _ => Ok OOther
    | FFunction f => f
    end.

  (** the argument grp_factory: None, something that cannot be called, something that can *)
  Inductive facarg : Type := FaNone | FaNotCallable | FaCallable (d : fdesc).

  (** (:670-684); the isinstance test of a runtime-checkable protocol holds for all callables *)
  Definition check_factory (dim degree : nat) (f : facarg) : res (factory R P) :=
    match f with
    | FaNone => default_simplex have_rn dim degree
    | FaNotCallable => Err TypeError
    | FaCallable d =>
        match group_class_attr d with
        | None => Err AttributeError
        | Some c => _ <- guard (is_interp c) TypeError ;; Ok (call_factory d)
        end
    end.

  (** build_connection_from_firedrake up to the discretization (:647-718): type and family of the space, cells, import of the mesh, factory, marker.
      The marker is used before it is checked. [import] returns the dimension and the groups of the mesh *)
  Definition start_connection (is_space dg : bool) (degree : nat) (boundary_nodes : bdyarg -> res (list nat)) (cell_node_list : list (list nat))
      (import : option (list nat) -> res (nat * list mgrp)) (f : facarg) (ids : list nat) (bdy : option bdyarg)
    : res (option (list nat) * list (obj R P)) :=
    _ <- guard is_space TypeError ;;
    _ <- guard dg ValueError ;;
    cells <- get_cells_to_use boundary_nodes cell_node_list bdy ;;
    m <- import cells ;;
    fac <- check_factory (fst m) degree f ;;
    _ <- match bdy with None => Ok tt | Some b => validate_bdy ids b end ;;
    groups <- mapM fac (snd m) ;;
    Ok (cells, groups).
End Accept.
Arguments fdesc : clear implicits. Arguments facarg : clear implicits. Arguments FaNone {R P}. Arguments FaNotCallable {R P}.
