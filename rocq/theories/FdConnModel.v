(** * FdConnModel: exporting meshes to Firedrake, and connections between discretizations and Firedrake function
    spaces (meshmode/interop/firedrake/mesh.py:798-988, connection.py, reference_cell.py, mesh/processing.py:685-743).

    PETSc and Firedrake are arguments: what plex_from_cell_list and fd_mesh.Mesh make of a list of cells is a function
    [plex], matrices of modepy are a function [resampling] of the new and the old nodes.  Nodes of reference elements
    are given by barycentric coordinates (unit_to_barycentric and barycentric_to_unit are inverse to each other).
    The clean-up of matrix entries below 1e-15 is not modelled (arithmetic is exact); loggers and communicators are not
    modelled. *)
From Coq Require Import List Arith Bool ZArith.
From Verif Require Import Np MeshModel MeshStateModel Lin ProcModel ConsistModel.
Import ListNotations.

(** What Firedrake makes of a list of cells *)
Record fdexport : Type := mk_fx {
  fx_cells : list nat;              (* _cell_numbering.getOffset of each dmplex cell, in dmplex order *)
  fx_closure : list (list nat);     (* cell_closure *)
  fx_vrange : nat * nat;            (* topology_dm.getDepthStratum(0) *)
  fx_cell_nodes : list (list nat);  (* cell_node_list of the space of the coordinates *)
  fx_nnodes : nat                   (* number of nodes of that space *)
}.

(** perm (mesh.py:940): np.argsort(mm_order)[np.argsort(np.argsort(fdrake_order))] *)
Definition export_perm (mm_order fdrake_order : list nat) : res (list nat) :=
  take (argsort mm_order) (argsort (argsort fdrake_order)).

(** perm2cells.setdefault(perm, []); perm2cells[perm].append(mm_cell_id) (:941-942) *)
Fixpoint add_cell (d : list (list nat * list nat)) (p : list nat) (c : nat) : list (list nat * list nat) :=
  match d with
  | [] => [(p, [c])]
  | (q, cs) :: d => if list_nat_eqb q p then (q, cs ++ [c]) :: d else (q, cs) :: add_cell d p c
  end.

(** the loop (:923-942) *)
Definition cell_perms (fx : fdexport) (rows : list (list nat)) : res (list (list nat * list nat)) :=
  closures <- take (fx_closure fx) (fx_cells fx) ;;
  foldM (fun d ic =>
           let vert_dmp_ids := filter (fun x => (fst (fx_vrange fx) <=? x) && (x <? snd (fx_vrange fx))) (snd ic) in
           let fdrake_order := map (fun x => x - fst (fx_vrange fx)) vert_dmp_ids in
           mm_order <- get rows (fst ic) ;;
           perm <- export_perm mm_order fdrake_order ;;
           Ok (add_cell d perm (fst ic)))
        (enumerate closures) [].

Section Matrices.
  Variable R : cring.
  Variable resampling : list (list R) -> list (list R) -> list (list R).
  Variables (rint : R -> Z) (inj : Z -> R).

  (** flipped_bary_unit_nodes[permutation_ary, :] = bary_unit_nodes (processing.py:723), for one node *)
  Definition flip_bary (perm : list nat) (p : list R) : res (list R) :=
    _ <- guard (length perm =? length p) ValueError ;;
    scatter p (combine perm p).

  (** get_simplex_element_flip_matrix (processing.py:685-743) with a permutation; that of the default is
      [simplex_flip_permutation].  Its assertion about the default permutation (:738-740) is not modelled. *)
  Definition flip_matrix (nodes : list (list R)) (perm : list nat) : res (list (list R)) :=
    flipped <- mapM (flip_bary perm) nodes ;; Ok (resampling flipped nodes).

  (** np.rint(flip_mat).astype(np.int32) *)
  Definition int_matrix (M : list (list R)) : list (list Z) := map (map rint) M.

  (** ** export_mesh_to_firedrake (mesh.py:798-988) *)

  (** resampled_group_nodes[:, cells, :] = np.matmul(resampled_group_nodes[:, cells, :], flip_mat.T) (:978-979) *)
  Definition flip_cells (M : list (list Z)) (nodes : list (enodes R)) (cells : list nat) : res (list (enodes R)) :=
    old <- take nodes cells ;;
    scatter nodes (combine cells (map (map (matvec (R := R) (map (map inj) M))) old)).
  Definition flip_all (unit_nodes : list (list R)) (perms : list (list nat * list nat)) (nodes : list (enodes R))
      : res (list (enodes R)) :=
    foldM (fun nodes pc => M <- flip_matrix unit_nodes (fst pc) ;; flip_cells (int_matrix M) nodes (snd pc)) perms nodes.

  (** one row of resampled_group_nodes.transpose((1, 2, 0)): the points of an element with [n] nodes *)
  Definition points_of (n : nat) (x : enodes R) : res (list (list R)) :=
    mapM (fun j => mapM (fun axis => get axis j) x) (seq 0 n).

  (** coords.dat.data[reordered_cell_node_list, :] = ... (:984-986), on zeros *)
  Definition store_coords (ambient : nat) (fx : fdexport) (nodes : list (enodes R)) : res (list (list R)) :=
    cnl <- take (fx_cell_nodes fx) (fx_cells fx) ;;
    _ <- guard (length cnl =? length nodes) ValueError ;;
    pts <- mapM (fun nx => points_of (length (fst nx)) (snd nx)) (combine cnl nodes) ;;
    scatter (repeat (zeros (R := R) ambient) (fx_nnodes fx)) (combine (concat cnl) (concat pts)).

  (** The whole function.  [plex] makes a Firedrake mesh of cells and vertices; [simplex] tells groups of class
      SimplexElementGroup; [mat] is the matrix that resamples from the nodes of the group to [unit_nodes], the nodes of
      the Firedrake element.  Returns the data of the coordinates, the numbers of the cells and perm2cell. *)
  Context {A V : Type}.
  Definition export_mesh (simplex : nat -> bool) (plex : list (list nat) -> list V -> fdexport) (ambient : nat)
      (mat unit_nodes : list (list R)) (m : mesh (enodes R) A V) (group_nr : option Z)
      : res (list (list R) * list nat * list (list nat * list nat)) :=
    nr <- match group_nr with
          | None => _ <- guard (length (m_groups m) =? 1) ValueError ;; Ok 0%Z
          | Some z => Ok z
          end ;;
    _ <- guard ((0 <=? nr) && (nr <? Z.of_nat (length (m_groups m))))%Z ValueError ;;
    g <- get (m_groups m) (Z.to_nat nr) ;;
    _ <- guard (simplex (Z.to_nat nr)) TypeError ;;
    vertices <- match m_vertices m with None => Err ValueError | Some vs => Ok vs end ;;
    _ <- guard (match m_conforming m with Some true => true | _ => false end) ValueError ;;
    rows <- match eg_vi g with None => Err AttributeError | Some rows => Ok rows end ;;
    let fd2mm := unique (concat rows) in
    coords <- take vertices fd2mm ;;
    _ <- guard (negb (length (concat rows) =? 0)) ValueError ;;
    cells <- mapM (mapM (fun v => match index_of v fd2mm with Some i => Ok i | None => Err KeyError end)) rows ;;
    let fx := plex cells coords in
    perms <- cell_perms fx rows ;;
    nodes <- flip_all unit_nodes perms (map (map (matvec mat)) (eg_nodes g)) ;;
    data <- store_coords ambient fx nodes ;;
    Ok (data, fx_cells fx, perms).

  (** ** Node mappings *)

  (** a row of node numbers times the transpose of an integer matrix (connection.py:81-83, 819-820).  Negative entries
      would index from the end; here they raise. *)
  Definition apply_nodes (M : list (list Z)) (row : list nat) : res (list nat) :=
    mapM (fun z => if (z <? 0)%Z then Err IndexError else Ok (Z.to_nat z))
         (matvec (R := Zcring) M (map Z.of_nat row)).

  Definition zmat_eqb (a b : list (list Z)) : bool :=
    (length a =? length b) && forallb (fun rs => (length (fst rs) =? length (snd rs)) &&
      forallb (fun xy => Z.eqb (fst xy) (snd xy)) (combine (fst rs) (snd rs))) (combine a b).

  (** _reorder_nodes (connection.py:54-85) with unflip=False; [neg]: orient < 0 *)
  Definition reorder_nodes (neg : list bool) (nodes : list (list nat)) (M : list (list R)) : res (list (list nat)) :=
    let F := int_matrix M in
    _ <- guard (zmat_eqb (matmul (R := Zcring) (length F) F F) (idmat (R := Zcring) (length F))) AssertionError ;;
    _ <- guard (length neg =? length nodes) IndexError ;;
    mapM (fun nb : bool * list nat => if fst nb then apply_nodes F (snd nb) else Ok (snd nb)) (combine neg nodes).

  (** the node mapping of build_connection_from_firedrake (connection.py:731-748); [dim]: dimension of the group *)
  Definition mapping_from_firedrake (dim : nat) (unit_nodes : list (list R)) (neg : list bool) (cells : option (list nat))
      (cell_node_list : list (list nat)) : res (list (list nat)) :=
    perm <- simplex_flip_permutation dim ;;
    M <- flip_matrix unit_nodes perm ;;
    cnl <- match cells with None => Ok cell_node_list | Some cs => take cell_node_list cs end ;;
    flipped <- reorder_nodes neg cnl M ;;
    _ <- guard (length (unique (concat flipped)) =? length (concat flipped)) AssertionError ;;
    Ok flipped.

  (** the node mapping of build_connection_to_firedrake (connection.py:797-825); [junk]: contents of the new array *)
  Definition mapping_to_firedrake (unit_nodes : list (list R)) (junk : list (list nat)) (cell_order : list nat)
      (perms : list (list nat * list nat)) (cell_node_list : list (list nat)) : res (list (list nat)) :=
    mapping <- foldM (fun mapping pc =>
                        M <- flip_matrix unit_nodes (argsort (fst pc)) ;;
                        fd_cells <- take cell_order (snd pc) ;;
                        old <- take cell_node_list fd_cells ;;
                        new <- mapM (apply_nodes (int_matrix M)) old ;;
                        scatter mapping (combine (snd pc) new)) perms junk ;;
    _ <- guard (length (unique (concat mapping)) =? length (concat mapping)) AssertionError ;;
    Ok mapping.

  (** ** FiredrakeConnection (connection.py:90-580) *)

  (** discr.groups[group_nr], then the range check (:180-191) *)
  Definition connection_group (ngroups : nat) (group_nr : option Z) : res nat :=
    nr <- match group_nr with
          | None => _ <- guard (ngroups =? 1) ValueError ;; Ok 0%Z
          | Some z => Ok z
          end ;;
    _ <- guard ((- Z.of_nat ngroups <=? nr) && (nr <? Z.of_nat ngroups))%Z IndexError ;;
    _ <- guard (negb ((nr <? 0) || (Z.of_nat ngroups <=? nr)))%Z ValueError ;;
    Ok (Z.to_nat nr).

  (** The checks of __init__ (:180-212): group number, interpolatory group, family, shape and dtype of the mapping,
      distinct entries *)
  Definition connection_init (groups : list (bool * nat * nat)) (dg : bool) (same_dtype : bool)
      (mapping : list (list nat)) (group_nr : option Z) : res nat :=
    nr <- connection_group (length groups) group_nr ;;
    g <- get groups nr ;;
    let '(interpolatory, nelements, nunit_dofs) := g in
    _ <- guard interpolatory TypeError ;;
    _ <- guard dg TypeError ;;
    _ <- guard ((length mapping =? nelements) && forallb (fun r => length r =? nunit_dofs) mapping) ValueError ;;
    _ <- guard same_dtype ValueError ;;
    _ <- guard (length (unique (concat mapping)) =? length (concat mapping)) ValueError ;;
    Ok nr.

  (** reorder_and_resample (:452-459): the new entry of the group *)
  Definition reorder_and_resample (fd2mm : list (list R)) (mapping : list (list nat)) (data : list R)
      : res (list (list R)) :=
    mapM (fun row => v <- take data row ;; Ok (matvec fd2mm v)) mapping.

  (** resample_and_reorder (:550-560) *)
  Definition resample_and_reorder (mm2fd : list (list R)) (mapping : list (list nat)) (data : list R)
      (field : list (list R)) : res (list R) :=
    let new := map (matvec mm2fd) field in
    _ <- guard ((length new =? length mapping) &&
                forallb (fun p => length (fst p) =? length (snd p)) (combine new mapping)) ValueError ;;
    scatter data (combine (concat mapping) (concat new)).

  (** Fields: a DOFArray (one array per group), or an object array of DOFArrays with the given shape.  Functions: the
      shape of their values and the data of each component. *)
  Inductive mfield : Type :=
  | FDof (groups : list (list (list R)))
  | FObj (shape : list nat) (comps : list (list (list (list R)))).
  Record ffunction : Type := mk_ff { ff_shape : list nat; ff_data : list (list R) }.

  Definition set_group (nr : nat) (arr : list (list (list R))) (x : list (list R)) : res (list (list (list R))) := put arr nr x.

  (** from_firedrake (:384-477).  [empty]: what discr.empty returns; out.array_context of an object array raises
      AttributeError (:435).  Types, dtypes and object arrays without axes are not modelled. *)
  Definition from_firedrake (fd2mm : list (list R)) (mapping : list (list nat)) (nr : nat)
      (empty : list (list (list R))) (f : ffunction) (out : option mfield) : res mfield :=
    out <- match out with
           | None => Ok (match ff_shape f with [] => FDof empty | s => FObj s (map (fun _ => empty) (ff_data f)) end)
           | Some (FDof a) => _ <- guard (length (ff_shape f) =? 0) ValueError ;; Ok (FDof a)
           | Some (FObj s a) => _ <- guard (list_nat_eqb s (ff_shape f)) ValueError ;; Err AttributeError
           end ;;
    match out with
    | FDof a => d <- get (ff_data f) 0 ;; x <- reorder_and_resample fd2mm mapping d ;; a' <- set_group nr a x ;; Ok (FDof a')
    | FObj s cs =>
        cs' <- mapM (fun ad => x <- reorder_and_resample fd2mm mapping (snd ad) ;; set_group nr (fst ad) x)
                    (combine cs (ff_data f)) ;;
        Ok (FObj s cs')
    end.

  (** from_meshmode (:479-575).  [nnodes]: nodes of the function space; Function(...) with out.dat.data[:] = 0 *)
  Definition from_meshmode (mm2fd : list (list R)) (mapping : list (list nat)) (nr : nat) (nnodes : nat)
      (field : mfield) (out : option ffunction) : res ffunction :=
    let shape := match field with FDof _ => [] | FObj s _ => s end in
    let comps := match field with FDof a => [a] | FObj _ cs => cs end in
    out <- match out with
           | None => Ok (mk_ff shape (map (fun _ => zeros (R := R) nnodes) comps))
           | Some f => _ <- guard (list_nat_eqb (ff_shape f) shape) ValueError ;; Ok f
           end ;;
    data <- mapM (fun da => x <- get (snd da) nr ;; resample_and_reorder mm2fd mapping (fst da) x)
                 (combine (ff_data out) comps) ;;
    Ok (mk_ff shape data).

  (** ** get_affine_reference_simplex_mapping (reference_cell.py:38-115); la.solve is an argument.  Vertices of the FIAT
      simplex: 0 and the unit vectors; those of modepy: all -1, and -1 with one entry 1. *)
  Definition fiat_vertices (d : nat) : list (list R) := zeros (R := R) d :: idmat (R := R) d.
  Definition modepy_vertices (d : nat) : list (list R) :=
    map (map (fun x => rsub (radd x x) r1)) (fiat_vertices d).

  (** Points are columns in the code; here a list of points.  [solve a b]: the matrix x with a x = b. *)
  Definition reference_map (solve : list (list R) -> list (list R) -> res (list (list R))) (neg_det : list (list R) -> bool)
      (d : nat) (fd2mm : bool) : res (list R -> list R) :=
    let from := if fd2mm then fiat_vertices d else modepy_vertices d in
    let to := if fd2mm then modepy_vertices d else fiat_vertices d in
    f0 <- get from 0 ;; t0 <- get to 0 ;;
    if length from =? 1 then Ok (fun p => vadd p (vsub t0 f0))
    else
      let columns := fun l b => mapM (fun a => mapM (fun p => get p a) (map (fun v => vsub v b) (skipn 1 l))) (seq 0 d) in
      F <- columns from f0 ;; T <- columns to t0 ;;
      mat <- solve F T ;;
      let shift := vsub t0 (matvec mat f0) in
      (* np.matmul of a pair and a matrix (:107-110) *)
      _ <- guard (negb (neg_det mat)) ValueError ;;
      Ok (fun p => vadd (matvec mat p) shift).
End Matrices.
