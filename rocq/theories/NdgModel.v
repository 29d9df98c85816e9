(** * NdgModel: exchange of meshes and fields with the nodal DG codes.

    Models, of meshmode/interop/nodal_dg.py: NodalDGContext.set_mesh (95-121), get_discr (123-170), push_dof_array (172-175), pull_dof_array (177-182);
    of meshmode/mesh/__init__.py: ambient_dim, dim, nvertices (1347-1366) for meshes with one group.

    Simplified: the Octave session is a list of named values, the latest first. Globals<d>D, StartUp<d>D and the functions for unit nodes are arguments. Vectors are kept as
    vectors; what oct2py makes of matrices with one entry and of empty matrices is not modelled. A missing variable raises NameError (Oct2PyError in the code).
    get_discr returns the arguments of make_group and make_mesh; an entry 0 of EToV raises IndexError here and becomes -1 in the code. No proofs in this file. *)
From Coq Require Import String List Arith.
From Verif Require Import Np.
Import ListNotations.

Section Ndg.
  Variable A : Type.                                   (* numbers *)

  Inductive value : Type := VNum (n : nat) | VVec (v : list A) | VMat (rows : list (list A)) | VIdx (rows : list (list nat)).
  Definition session : Type := list (string * value).

  Definition push (name : string) (v : value) (s : session) : session := (name, v) :: s.
  Definition pull (name : string) (s : session) : res value :=
    match find (fun e => String.eqb (fst e) name) s with Some e => Ok (snd e) | None => Err NameError end.

  (** a.T *)
  Definition column (rows : list (list A)) (j : nat) : res (list A) := mapM (fun row => get row j) rows.
  Definition transpose (rows : list (list A)) : res (list (list A)) :=
    match rows with [] => Ok [] | row :: _ => mapM (column rows) (seq 0 (length row)) end.

  (** AXES (93), f"V{self.AXES[ax].upper()}" (114, 150) *)
  Definition axes : list string := ["x"; "y"; "z"]%string.
  Definition vaxes : list string := ["VX"; "VY"; "VZ"]%string.

  (** meshes: groups with dimension, vertex indices and number of elements; the ambient dimension; vertices by axis *)
  Record ngroup : Type := mk_ngroup { ng_dim : nat; ng_vi : option (list (list nat)); ng_nel : nat }.
  Record nmesh : Type := mk_nmesh { nm_groups : list ngroup; nm_ambient : nat; nm_nvertices : nat; nm_vertices : option (list (list A)) }.

  Variable globals startup : nat -> session -> res session.

  (** the loop over the axes (113-114) *)
  Definition push_axes (vertices : list (list A)) (axs : list nat) (s : session) : res session :=
    foldM (fun s ax => name <- get vaxes ax ;; v <- get vertices ax ;; Ok (push name (VVec v) s)) axs s.

  Definition set_mesh (m : nmesh) (order : nat) (s : session) : res session :=
    match nm_groups m with
    | [g] =>
        s <- globals (ng_dim g) s ;;
        vertices <- match nm_vertices m with Some v => Ok v | None => Err DataUnavailableError end ;;
        let s := push "Nv" (VNum (nm_nvertices m)) s in
        let s := push "K" (VNum (ng_nel g)) s in
        s <- push_axes vertices (seq 0 (nm_ambient m)) s ;;
        ax <- match nm_ambient m with 0 => Err UnboundLocalError | S a => Ok a end ;;
        s <- push_axes vertices [ax] s ;;
        vi <- match ng_vi g with Some vi => Ok vi | None => Err TypeError end ;;
        let s := push "EToV" (VIdx (map (map S) vi)) s in
        let s := push "N" (VNum order) s in
        startup (ng_dim g) s
    | _ => Err ValueError
    end.

  (** JacobiGL, or Nodes<d>D and the map to the unit simplex (134-147) *)
  Variable unit_nodes : nat -> nat -> res (list (list A)).

  Record ndiscr : Type := mk_ndiscr { nd_vertices : list (list A); nd_vi : list (list nat); nd_nodes : list (list (list A)); nd_order : nat; nd_unit : list (list A) }.

  Definition pull_idx (s : session) : res (list (list nat)) := v <- pull "EToV" s ;; match v with VIdx rows => Ok rows | _ => Err TypeError end.
  Definition pull_num (name : string) (s : session) : res nat := v <- pull name s ;; match v with VNum n => Ok n | _ => Err TypeError end.

  (** get_discr: the second entry of size(EToV) is the number of columns (131-132); 0 stands for 1 - 1 and for no columns *)
  Definition get_discr (s : session) : res ndiscr :=
    etov <- pull_idx s ;;
    row <- get etov 0 ;;
    let dim := length row - 1 in
    order <- pull_num "N" s ;;
    unit <- unit_nodes dim order ;;
    vertices <- mapM (fun ax => name <- get vaxes ax ;; v <- pull name s ;;
                                match v with VVec v => Ok v | VMat rows => Ok (concat rows) | _ => Err TypeError end) (seq 0 dim) ;;
    nodes <- mapM (fun ax => name <- get axes ax ;; v <- pull name s ;; match v with VMat rows => transpose rows | _ => Err TypeError end) (seq 0 dim) ;;
    vi <- mapM (mapM (fun i => match i with 0 => Err IndexError | S i => Ok i end)) etov ;;
    Ok (mk_ndiscr vertices vi nodes order unit).

  (** DOF arrays: whether there is an array context, and the arrays of the groups *)
  Record ndof : Type := mk_ndof { nf_thawed : bool; nf_groups : list (list (list A)) }.
  Definition push_dof_array (name : string) (a : ndof) (s : session) : res session :=
    match nf_groups a with
    | [g] =>
        _ <- guard (nf_thawed a) AttributeError ;;
        t <- transpose g ;;
        Ok (push name (VMat t) s)
    | _ => Err ValueError
    end.
  Definition pull_dof_array (name : string) (s : session) : res ndof :=
    v <- pull name s ;;
    match v with VMat rows => t <- transpose rows ;; Ok (mk_ndof true [t]) | _ => Err TypeError end.
End Ndg.
Arguments VNum {A}. Arguments VVec {A}. Arguments VMat {A}. Arguments VIdx {A}.
Arguments push {A}. Arguments pull {A}. Arguments transpose {A}. Arguments column {A}. Arguments push_axes {A}.
Arguments set_mesh {A}. Arguments get_discr {A}. Arguments push_dof_array {A}. Arguments pull_dof_array {A}. Arguments pull_idx {A}. Arguments pull_num {A}.
Arguments mk_nmesh {A}. Arguments nm_groups {A}. Arguments nm_ambient {A}. Arguments nm_nvertices {A}. Arguments nm_vertices {A}.
Arguments mk_ndiscr {A}. Arguments nd_vertices {A}. Arguments nd_vi {A}. Arguments nd_nodes {A}. Arguments nd_order {A}. Arguments nd_unit {A}.
Arguments mk_ndof {A}. Arguments nf_thawed {A}. Arguments nf_groups {A}.
