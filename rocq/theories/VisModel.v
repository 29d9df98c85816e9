(** * VisModel: connectivity and points of visualization files.

    Models meshmode/discretization/visualization.py: vtk_submesh_for_hypercube (:283-318), _VisConnectivityGroup (:218-249),
    VTKConnectivity (:325-447), VTKLagrangeConnectivity (:450-546), the points with shrunken elements of Visualizer.write_vtk_file (:629-638, 844-861),
    the local connectivity of Visualizer.write_vtkhdf_file (:1030-1046) and the connectivity of a group in Visualizer.write_xdmf_file (:1248-1252).

    Simplified: modepy's node_tuples_for_space and submesh_for_shape, pyvisfile's permutations, cell type numbers and CELL_NODE_COUNT are
    arguments.  Coordinates are elements of a commutative ring, the mean of a list is an argument.
    No proofs in this file. *)
From Coq Require Import List Arith Bool.
From Verif Require Import Np MeshModel Lin.
Import ListNotations.

(** ** Linear subelements of a hypercube *)
Definition tuple := list nat.
Fixpoint tuple_eqb (a b : tuple) : bool :=
  match a, b with
  | [], [] => true
  | x :: a', y :: b' => (x =? y) && tuple_eqb a' b'
  | _, _ => false
  end.

(** node_tuple_to_index: {nt: i for i, nt in enumerate(node_tuples)}: the last one counts *)
Definition tuple_index (node_tuples : list tuple) (t : tuple) : res nat :=
  match find (fun it : nat * tuple => tuple_eqb (snd it) t) (rev (enumerate node_tuples)) with
  | Some (i, _) => Ok i
  | None => Err KeyError
  end.

(** el_offsets (:291-304) *)
Definition el_offsets (dim : nat) : res (list tuple) :=
  match dim with
  | 1 => Ok [[0]; [1]]
  | 2 => Ok [[0; 0]; [1; 0]; [1; 1]; [0; 1]]
  | 3 => Ok [[0; 0; 0]; [1; 0; 0]; [1; 1; 0]; [0; 1; 0]; [0; 0; 1]; [1; 0; 1]; [1; 1; 1]; [0; 1; 1]]
  | _ => Err KeyError
  end.

(** pytools.add_tuples *)
Definition add_tuples (a b : tuple) : tuple := map2 Nat.add a b.

Definition vtk_submesh_for_hypercube (dim : nat) (node_tuples : list tuple) : res (list (list nat)) :=
  offs <- el_offsets dim ;;
  Ok (flat_map (fun origin =>
        match mapM (fun off => tuple_index node_tuples (add_tuples origin off)) offs with
        | Ok el => [el]
        | Err _ => []
        end) node_tuples).

(** ** Connectivity *)
Inductive shape := Simplex (dim : nat) | Hypercube (dim : nat) | OtherShape.
(** an element group of the visualization discretization; modepy: the mesh element group is a ModepyElementGroup *)
Record visgrp : Type := mk_visgrp { vg_modepy : bool; vg_shape : shape; vg_order : nat; vg_nel : nat; vg_nunit : nat }.
Definition vg_ndofs (g : visgrp) : nat := vg_nel g * vg_nunit g.

(** _VisConnectivityGroup *)
Record vcgrp : Type := mk_vcgrp { vc_conn : list (list (list nat)); vc_type : nat; vc_base : nat; vc_nsub : nat }.
Definition nsubelements (c : vcgrp) : nat := length (vc_conn c) * vc_nsub c.

Section Connectivity.
  Variable node_tuples_for : shape -> nat -> list tuple.
  Variable submesh_for_simplex : nat -> list tuple -> list (list nat).
  (** simplex_cell_types, tensor_cell_types; None for a missing key *)
  Variables simplex_type tensor_type : nat -> option nat.

  Definition lookup_type (f : nat -> option nat) (d : nat) : res nat := match f d with Some t => Ok t | None => Err KeyError end.

  (** VTKConnectivity.connectivity_for_element_group *)
  Definition connectivity_for (g : visgrp) : res (list (list nat) * nat) :=
    if vg_modepy g then
      let nts := node_tuples_for (vg_shape g) (vg_order g) in
      conn <- match vg_shape g with
              | Simplex d => Ok (submesh_for_simplex d nts)
              | Hypercube d => vtk_submesh_for_hypercube d nts
              | OtherShape => Err NotImplementedError
              end ;;
      ty <- match vg_shape g with
            | Simplex d => lookup_type simplex_type d
            | Hypercube d => lookup_type tensor_type d
            | OtherShape => Err TypeError
            end ;;
      _ <- guard (length nts =? vg_nunit g) AssertionError ;;
      Ok (conn, ty)
    else Err NotImplementedError.

  (** groups (:401-430), for the connectivity of one element given by [conn_for].
      np.array of an empty list has shape (0,); the sum with the offsets has shape (nelements, 1, 0). *)
  Definition vis_groups (conn_for : visgrp -> res (list (list nat) * nat)) (groups : list visgrp) : res (list vcgrp) :=
    r <- foldM (fun (st : list vcgrp * nat * nat) (g : visgrp) =>
           let '(result, subel_base, node_base) := st in
           '(el_conn, ty) <- conn_for g ;;
           _ <- guard (negb (vg_nunit g =? 0)) ZeroDivisionError ;;
           let el_conn' := match el_conn with [] => [[]] | _ => el_conn end in
           let vc := mk_vcgrp (map (fun e => map (map (fun i => node_base + e * vg_nunit g + i)) el_conn') (seq 0 (vg_nel g))) ty subel_base (length el_conn') in
           Ok (result ++ [vc], subel_base + nsubelements vc, node_base + vg_ndofs g))
         groups ([], 0, 0) ;;
    Ok (fst (fst r)).

  (** cells (:394-397) *)
  Definition flat_conn (vcs : list vcgrp) : list nat := concat (map (fun c => concat (map (@concat nat) (vc_conn c))) vcs).
  (** np.hstack fails for no arrays *)
  Definition vis_cells (vcs : list vcgrp) : res (list nat) := if length vcs =? 0 then Err ValueError else Ok (flat_conn vcs).

  (** cell_types (:434-447) *)
  Definition assign_slice {A} (l : list A) (lo hi : nat) (v : A) : list A :=
    map (fun ix : nat * A => if (lo <=? fst ix) && (fst ix <? hi) then v else snd ix) (enumerate l).
  Definition cell_types (vcs : list vcgrp) : res (list nat) :=
    let n := sum (map nsubelements vcs) in
    let types := fold_left (fun ts c => assign_slice ts (vc_base c) (vc_base c + nsubelements c) (vc_type c)) vcs (repeat 255 n) in
    _ <- guard (forallb (fun t => t <? 255) types) AssertionError ;;
    Ok types.

  (** ** High order Lagrange elements *)
  (** vtk_lagrange_..._node_tuples_to_permutation and the number of node tuples *)
  Variables simplex_perm tensor_perm : nat -> nat -> list nat.
  Variables lagrange_simplex_type lagrange_tensor_type : nat -> option nat.

  (** VTKLagrangeConnectivity.connectivity_for_element_group; the permutation has as many entries as there are node tuples *)
  Definition lagrange_connectivity_for (g : visgrp) : res (list (list nat) * nat) :=
    match vg_shape g with
    | Simplex d =>
        let p := simplex_perm d (vg_order g) in
        ty <- lookup_type lagrange_simplex_type d ;;
        _ <- guard (length p =? vg_nunit g) AssertionError ;; Ok ([p], ty)
    | Hypercube d =>
        let p := tensor_perm d (vg_order g) in
        ty <- lookup_type lagrange_tensor_type d ;;
        _ <- guard (length p =? vg_nunit g) AssertionError ;; Ok ([p], ty)
    | OtherShape => Err NotImplementedError
    end.

  (** cells (:524-546): number of elements, connectivity, offsets *)
  Definition lagrange_cells (groups : list visgrp) (vcs : list vcgrp) : res (nat * list nat * list nat) :=
    _ <- guard (negb (length vcs =? 0)) ValueError ;;
    let grp_offsets := cumsum (0 :: map vg_ndofs groups) in
    offs <- mapM (fun og : nat * visgrp => let (o, g) := og in
              _ <- guard (negb (vg_nunit g =? 0)) ZeroDivisionError ;;
              Ok (map (fun k => o + (k + 1) * vg_nunit g) (seq 0 (vg_nel g)))) (combine (removelast grp_offsets) groups) ;;
    Ok (sum (map vg_nel groups), flat_conn vcs, concat offs).

  (** ** VTK HDF files *)
  (** CELL_NODE_COUNT *)
  Variable cell_node_count : nat -> nat.

  (** (:1030-1046) without high order elements: the number of cells, the connectivity and the offsets.  Three connectivity entries are taken for
      the tuple (number of cells, connectivity, offsets); the connectivity is a scalar then, and taking its first dimension fails (:1020).  Without cells, np.vectorize(CELL_NODE_COUNT.get)
      raises ValueError. *)
  Definition hdf_linear_cells (vcs : list vcgrp) (types : list nat) : res (nat * list nat * list nat) :=
    cells <- vis_cells vcs ;;
    if length cells =? 3 then Err IndexError
    else if length types =? 0 then Err ValueError
    else Ok (length types, cells, cumsum (0 :: map cell_node_count types)).
  (** with high order elements *)
  Definition hdf_lagrange_cells (groups : list visgrp) (vcs : list vcgrp) : res (nat * list nat * list nat) :=
    '(n, cells, offs) <- lagrange_cells groups vcs ;;
    Ok (n, cells, 0 :: offs).

  (** ** XDMF files: connectivity of each group, in the numbering of the group *)
  Definition xdmf_connectivity (groups : list visgrp) (vcs : list vcgrp) : res (list (list (list nat))) :=
    r <- foldM (fun (st : list (list (list nat)) * nat) (gc : visgrp * vcgrp) =>
           let '(result, node_base) := st in let (g, c) := gc in
           Ok (result ++ [map (map (fun i => i - node_base)) (concat (vc_conn c))], node_base + vg_ndofs g))
         (combine groups vcs) ([], 0) ;;
    Ok (fst r).
End Connectivity.

(** ** Points of write_vtk_file *)
Section Shrink.
  Variable R : cring.
  Local Open Scope cring_scope.
  Variable mean : list R -> R.

  Definition shrink_element (s : R) (xs : list R) : list R := let c := mean xs in map (fun x => s * x + (1 - s) * c) xs.
  (** a row of nodes_view: nelements lists of nunit_dofs entries *)
  Fixpoint chunks {A} (nel nunit : nat) (l : list A) : list (list A) :=
    match nel with
    | O => []
    | S nel => firstn nunit l :: chunks nel nunit (skipn nunit l)
    end.
  (** one coordinate axis (:846-859): the slices of the groups are overwritten in place *)
  Fixpoint shrink_axis (s : R) (groups : list visgrp) (xs : list R) : list R :=
    match groups with
    | [] => xs
    | g :: groups => concat (map (shrink_element s) (chunks (vg_nel g) (vg_nunit g) (firstn (vg_ndofs g) xs))) ++ shrink_axis s groups (skipn (vg_ndofs g) xs)
    end.

  (** The state of a Visualizer: the memoized result of _vis_nodes_numpy *)
  Definition vis_state : Type := option (list (list R)).
  (** write_vtk_file: the points in the file and the new state.  [nodes] are the flattened nodes of the discretization, [is_one] the result of the test
      of the factor. *)
  Definition write_vtk_points (nodes : list (list R)) (s : R) (is_one : bool) (groups : list visgrp) (st : vis_state) : list (list R) * vis_state :=
    let cached := match st with Some xs => xs | None => nodes end in
    let pts := if is_one then cached else map (shrink_axis s groups) cached in
    (pts, Some pts).
End Shrink.
