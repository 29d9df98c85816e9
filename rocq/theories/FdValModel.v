(** * FdValModel: what a Firedrake connection accepts.

    Models meshmode/interop/firedrake/connection.py: firedrake_fspace (:239-277), _validate_function (:279-320),
    _validate_field (:322-382), from_meshmode with the order of its checks and assignments (:479-575), _get_cells_to_use (:583-609), the validation of
    restrict_to_boundary (:686-715). The rest of build_connection_from_firedrake is in FdFactoryModel.v and FdConnModel.v.

    Simplified: families, meshes, dtypes and array contexts are numbers; the values of a Firedrake function are lists by component, whatever the shape of
    function.dat.data (dropped axes, :544-548, are put back by a view); entries of numpy object arrays are in the order of np.ndindex; error messages are
    not modelled.  The transfer of one component is [resample_and_reorder] of FdConnModel.v.  numpy's own conversion of numbers in assignments is the identity.
    No proofs in this file. *)
From Coq Require Import List Arith Bool ZArith.
From Verif Require Import Np Lin DofModel ConsistModel FdConnModel.
Import ListNotations.

(** A function space: family, degree, mesh, shape of the values *)
Record fspace : Type := mk_space { sp_family : nat; sp_degree : nat; sp_mesh : nat; sp_shape : list nat }.

(** What is given as a Firedrake function: a Function, an ExternalOperator, anything else *)
Inductive pyfun : Type :=
| PFunction (s : fspace) (dtype : nat)
| PExtOp (s : fspace) (dtype : nat)
| PNotFunction.

(** FiredrakeConnection: nelements and nunit_dofs of the groups of the discretization, group_nr, family, degree and mesh of the function space *)
Record fconn : Type := mk_fconn { fc_groups : list (nat * nat); fc_nr : nat; fc_family : nat; fc_degree : nat; fc_mesh : nat }.

(** firedrake_fspace (:239-277); an argument of another type is [ShOther] *)
Inductive sharg : Type := ShNone | ShInt (n : nat) | ShTuple (s : list nat) | ShOther.
Definition firedrake_fspace (c : fconn) (shape : sharg) : res fspace :=
  match shape with
  | ShNone => Ok (mk_space (fc_family c) (fc_degree c) (fc_mesh c) [])
  | ShInt n => Ok (mk_space (fc_family c) (fc_degree c) (fc_mesh c) [n])
  | ShTuple s => Ok (mk_space (fc_family c) (fc_degree c) (fc_mesh c) s)
  | ShOther => Err TypeError
  end.

(** _validate_function (:279-320) *)
Definition validate_function (c : fconn) (f : pyfun) (shape : option (list nat)) (dtype : option nat) : res unit :=
  match f with
  | PNotFunction => Err TypeError
  | PFunction s dt | PExtOp s dt =>
      _ <- guard (sp_family s =? fc_family c) ValueError ;;
      _ <- guard (sp_degree s =? fc_degree c) ValueError ;;
      _ <- guard (sp_mesh s =? fc_mesh c) ValueError ;;
      _ <- guard (match dtype with Some d => dt =? d | None => true end) ValueError ;;
      guard (match shape with Some sh => list_nat_eqb (sp_shape s) sh | None => true end) ValueError
  end.

Section Fields.
  Variable R : cring.

  (** An array of a DOFArray: shape, dtype, values by element *)
  Record garr : Type := mk_garr { ga_shape : list nat; ga_dtype : nat; ga_data : list (list R) }.
  (** A DOFArray: array context, arrays *)
  Record darr : Type := mk_darr { da_actx : option nat; da_groups : list garr }.
  (** An entry of an object array: a DOFArray or anything else *)
  Inductive entry : Type := EDof (d : darr) | EOther.
  (** What is given as a field *)
  Inductive pyfield : Type :=
  | PDof (d : darr)
  | PObj (shape : list nat) (entries : list entry)
  | PArray                                           (* a numpy array of another dtype *)
  | PNotField.

  (** entry_dtype (dof_array.py:172-173) *)
  Definition entry_dtype (d : darr) : res nat := single_valued (map ga_dtype (da_groups d)).

  (** check_dof_array (:333-351) *)
  Definition check_dof_array (c : fconn) (dtype : option nat) (e : entry) : res unit :=
    match e with
    | EOther => Err TypeError
    | EDof d =>
        _ <- guard (match da_actx d with Some _ => true | None => false end) ValueError ;;
        _ <- guard (length (da_groups d) =? length (fc_groups c)) ValueError ;;
        a <- get (da_groups d) (fc_nr c) ;;
        g <- get (fc_groups c) (fc_nr c) ;;
        _ <- guard (list_nat_eqb (ga_shape a) [fst g; snd g]) ValueError ;;
        match dtype with
        | None => Ok tt
        | Some dt => own <- entry_dtype d ;; guard (own =? dt) ValueError
        end
    end.

  (** _validate_field (:322-382) *)
  Definition validate_field (c : fconn) (f : pyfield) (shape : option (list nat)) (dtype : option nat) : res unit :=
    match f with
    | PDof d =>
        _ <- guard (match shape with Some (_ :: _) => false | _ => true end) ValueError ;;
        check_dof_array c dtype (EDof d)
    | PObj s es =>
        _ <- guard (match shape with Some sh => list_nat_eqb s sh | None => true end) ValueError ;;
        foldM (fun _ e => check_dof_array c dtype e) es tt
    | PArray | PNotField => Err TypeError
    end.

  (** shape of the field, and the argument for firedrake_fspace (:517-539) *)
  Definition field_shape (f : pyfield) : list nat := match f with PObj s _ => s | _ => [] end.
  Definition shape_arg (s : list nat) : sharg :=
    match s with [] => ShNone | [n] => ShInt n | _ => ShTuple s end.

  (** resample_and_reorder (:550-560): check, then assignment to one component *)
  Definition store_component (debug : bool) (c : fconn) (mm2fd : list (list R)) (mapping : list (list nat)) (data : list R) (e : entry)
    : res (list R) :=
    _ <- (if debug
          then check_dofarray (fc_groups c) (match e with EDof d => Some (map ga_shape (da_groups d)) | EOther => None end)
          else Ok tt) ;;
    match e with
    | EOther => Err AttributeError
    | EDof d =>
        _ <- guard (match da_actx d with Some _ => true | None => false end) AttributeError ;;
        a <- get (da_groups d) (fc_nr c) ;;
        resample_and_reorder R mm2fd mapping data (ga_data a)
    end.

  (** The loop over the components (:562-573): what is stored in [out] when the loop ends or raises, and the exception *)
  Fixpoint store_all (debug : bool) (c : fconn) (mm2fd : list (list R)) (mapping : list (list nat)) (data : list (list R)) (es : list entry)
    : list (list R) * option exn :=
    match es, data with
    | [], _ => (data, None)
    | _ :: _, [] => ([], Some IndexError)
    | e :: es, d :: data =>
        match store_component debug c mm2fd mapping d e with
        | Err x => (d :: data, Some x)
        | Ok d' => let '(data', x) := store_all debug c mm2fd mapping data es in (d' :: data', x)
        end
    end.

  (** from_meshmode (:479-575).  [out]: a Firedrake function and its data; [zeros]: the data of a new function for one component.  Returns the function, its
      data and an exception.  An object array without axes is treated like a DOFArray (:563-564), which it is not. *)
  Definition from_meshmode (debug : bool) (c : fconn) (mm2fd : list (list R)) (mapping : list (list nat)) (nnodes new_dtype : nat)
      (f : pyfield) (out : option (pyfun * list (list R))) : option pyfun * list (list R) * option exn :=
    let unchanged := match out with Some (_, data) => data | None => [] end in
    match validate_field c f None None with
    | Err x => (None, unchanged, Some x)
    | Ok _ =>
        let shape := field_shape f in
        let ncomp := fold_right Nat.mul 1 shape in
        match (match out with
               | Some (fn, data) => _ <- validate_function c fn (Some shape) None ;; Ok (fn, data)
               | None => s <- firedrake_fspace c (shape_arg shape) ;; Ok (PFunction s new_dtype, repeat (zeros (R := R) nnodes) ncomp)
               end) with
        | Err x => (None, unchanged, Some x)
        | Ok (fn, data) =>
            let es := match f with
                      | PDof d => [EDof d]
                      | PObj [] _ => [EOther]
                      | PObj _ es => es
                      | _ => []
                      end in
            let '(data', x) := store_all debug c mm2fd mapping data es in
            (match x with None => Some fn | Some _ => None end, data', x)
        end
    end.
End Fields.
Arguments mk_garr {R}. Arguments ga_shape {R}. Arguments ga_dtype {R}. Arguments ga_data {R}.
Arguments mk_darr {R}. Arguments da_actx {R}. Arguments da_groups {R}. Arguments EDof {R}. Arguments EOther {R}.
Arguments PDof {R}. Arguments PObj {R}. Arguments PArray {R}. Arguments PNotField {R}.

(** ** Cells at the boundary *)

(** _get_cells_to_use (:583-609); [boundary_nodes]: cfspace.boundary_nodes, [B]: type of boundary markers *)
Definition get_cells_to_use {B} (boundary_nodes : B -> res (list nat)) (cell_node_list : list (list nat)) (bdy : option B)
  : res (option (list nat)) :=
  match bdy with
  | None => Ok None
  | Some b =>
      bn <- boundary_nodes b ;;
      Ok (Some (where_ (map (fun cell => existsb (fun n => memb n bn) cell) cell_node_list)))
  end.

(** restrict_to_boundary: an integer, a tuple of integers and other things, a string ("on_boundary" or another one), anything else *)
Inductive tentry : Type := TInt (n : nat) | TOther.
Inductive bdyarg : Type := BInt (n : nat) | BTuple (l : list tentry) | BString (on_boundary : bool) | BOther.

(** the validation (:686-715); [ids]: exterior_facets.unique_markers *)
Definition validate_bdy (ids : list nat) (b : bdyarg) : res unit :=
  match b with
  | BInt n => guard (memb n ids) ValueError
  | BTuple l => foldM (fun _ t => match t with TInt n => guard (memb n ids) ValueError | TOther => Err TypeError end) l tt
  | BString ok => guard ok ValueError
  | BOther => Err TypeError
  end.
