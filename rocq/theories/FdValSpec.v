(** * FdValSpec: what users expect of the validation by Firedrake connections. *)
From Coq Require Import List Arith Bool.
From Verif Require Import Np Lin ModalModel FactoryModel FdConnSpec FdValModel FdFactoryModel.
Import ListNotations.

Section Fields.
  Context {R : cring}.

  (** a function of the space of the connection with values of the shape, of the dtype (if given) *)
  Definition function_fits (c : fconn) (shape : option (list nat)) (dtype : option nat) (f : pyfun) : Prop :=
    exists s dt, (f = PFunction s dt \/ f = PExtOp s dt) /\
      sp_family s = fc_family c /\ sp_degree s = fc_degree c /\ sp_mesh s = fc_mesh c /\
      (shape = None \/ shape = Some (sp_shape s)) /\ (dtype = None \/ dtype = Some dt).

  (** a thawed DOF array with as many arrays as groups; the one of the connection has its shape; all have the dtype (if given) *)
  Definition array_fits (c : fconn) (dtype : option nat) (d : darr R) : Prop :=
    da_actx d <> None /\ length (da_groups d) = length (fc_groups c) /\
    (exists a nel n, nth_error (da_groups d) (fc_nr c) = Some a /\ nth_error (fc_groups c) (fc_nr c) = Some (nel, n) /\ ga_shape a = [nel; n]) /\
    (forall dt, dtype = Some dt -> Forall (fun a => ga_dtype a = dt) (da_groups d)).
  Definition field_fits (c : fconn) (shape : option (list nat)) (dtype : option nat) (f : pyfield R) : Prop :=
    match f with
    | PDof d => (shape = None \/ shape = Some []) /\ array_fits c dtype d
    | PObj s es => (shape = None \/ shape = Some s) /\ Forall (fun e => exists d, e = EDof d /\ array_fits c dtype d) es
    | PArray | PNotField => False
    end.

  (** arrays have the shapes they claim *)
  Definition array_true (d : darr R) : Prop :=
    Forall (fun a => forall nel n, ga_shape a = [nel; n] -> group_shape nel n (ga_data a)) (da_groups d).
  (** numpy arrays: as many entries as the shape says *)
  Definition field_true (f : pyfield R) : Prop :=
    match f with
    | PDof d => array_true d
    | PObj s es => length es = fold_right Nat.mul 1 s /\ Forall (fun e => match e with EDof d => array_true d | EOther => True end) es
    | _ => True
    end.
  (** the nodes of the connection *)
  Definition conn_true (c : fconn) (mm2fd : list (list R)) (mapping : list (list nat)) (nnodes : nat) : Prop :=
    exists nel n, nth_error (fc_groups c) (fc_nr c) = Some (nel, n) /\ length mapping = nel /\ length mm2fd = n /\ proper_mapping n nnodes mapping.
  (** the data of a function: as many components as the shape of its values says *)
  Definition data_true (nnodes : nat) (f : pyfun) (data : list (list R)) : Prop :=
    match f with
    | PFunction s _ | PExtOp s _ => length data = fold_right Nat.mul 1 (sp_shape s)
    | PNotFunction => True
    end /\ Forall (fun d => length d = nnodes) data.
  (** the components of a field *)
  Definition components (f : pyfield R) : list (entry R) :=
    match f with PDof d => [EDof d] | PObj _ es => es | _ => [] end.
  (** the values of a component of a field at the Firedrake nodes: interpolated to them *)
  Definition has_values (c : fconn) (mm2fd : list (list R)) (mapping : list (list nat)) (e : entry R) (data : list R) : Prop :=
    exists d a, e = EDof d /\ nth_error (da_groups d) (fc_nr c) = Some a /\
      Forall2 (fun row v => take data row = Ok (matvec mm2fd v)) mapping (ga_data a).
End Fields.

(** ** Cells at a part of the boundary *)

(** A mesh of cells with vertices; nodes of the coordinates of each cell, each on the entity with the given vertices; marked facets with their cell *)
Record fdcells : Type := mk_fdcells { fx_vertices : list (list nat); fx_nodes : list (list nat); fx_entity : nat -> list nat; fx_facets : list (nat * list nat) }.
Definition cells_true (x : fdcells) : Prop :=
  (* nodes are on entities of the cell, one on each vertex of it *)
  Forall2 (fun vs ns => Forall (fun n => fx_entity x n <> [] /\ incl (fx_entity x n) vs) ns /\
                        forall v, In v vs -> exists n, In n ns /\ fx_entity x n = [v]) (fx_vertices x) (fx_nodes x) /\
  (* facets are facets of their cells *)
  Forall (fun f => exists vs, nth_error (fx_vertices x) (fst f) = Some vs /\ incl (snd f) vs) (fx_facets x).
(** continuous coordinates: cells share the node on a vertex *)
Definition continuous (x : fdcells) : Prop :=
  forall n m v, In n (concat (fx_nodes x)) -> In m (concat (fx_nodes x)) -> fx_entity x n = [v] -> fx_entity x m = [v] -> n = m.
(** boundary_nodes of Firedrake: the nodes on the closure of marked facets, in their cells *)
Definition facet_nodes (x : fdcells) (bn : list nat) : Prop :=
  forall n, In n bn <-> exists f ns, In f (fx_facets x) /\ nth_error (fx_nodes x) (fst f) = Some ns /\ In n ns /\ incl (fx_entity x n) (snd f).
(** the cells with at least one vertex on a marked facet *)
Definition touches (x : fdcells) (cell : nat) : Prop :=
  exists vs v f, nth_error (fx_vertices x) cell = Some vs /\ In v vs /\ In f (fx_facets x) /\ In v (snd f).

(** ** Arguments of build_connection_from_firedrake *)

(** restrict_to_boundary as documented *)
Definition marker_valid (ids : list nat) (b : bdyarg) : Prop :=
  match b with
  | BInt n => In n ids
  | BTuple l => Forall (fun t => exists n, t = TInt n /\ In n ids) l
  | BString on_boundary => on_boundary = true
  | BOther => False
  end.
(** an interpolatory element group on the mesh group *)
Definition interpolatory_on {R : cring} {P : Type} (mg : mgrp) (o : obj R P) : Prop :=
  exists g, o = OGroup g /\ eg_mg g = mg /\ is_interp (kd_class (eg_kind g)) = true.
(** a factory that makes interpolatory groups of all mesh groups of simplices, of any dimension up to 3 *)
Definition makes_interpolatory {R : cring} {P : Type} (f : factory R P) : Prop :=
  forall mg, mg_class mg = MSimplex -> mg_dim mg <= 3 -> exists o, f mg = Ok o /\ interpolatory_on mg o.
