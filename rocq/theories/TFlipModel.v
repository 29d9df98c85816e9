(** * TFlipModel: flips and orientations of tensor product elements.

    Models _get_tensor_product_element_flip_matrix_and_vertex_permutation and the choice of vertices in find_volume_mesh_element_group_orientation
    (meshmode/mesh/processing.py:746-780, 596-614).

    Simplified: coordinates are elements of an ordered commutative ring; the corners of the reference cube are those of modepy, first coordinate fastest;
    mp.resampling_matrix and the test that flipping twice is the identity are arguments; entries of the matrix below 1e-15 are kept.  The tolerance of
    find_point_to_point_mapping is an argument.  No proofs in this file. *)
From Coq Require Import List Arith Bool ZArith.
From Verif Require Import Np MeshModel Lin Ord ProcModel PointModel.
Import ListNotations.

Section TensorFlip.
  Variable R : ocring.
  Variable median : list R -> R.
  Variable tol : R.
  (** resampling_matrix(basis of the space of the order, new nodes, old nodes) *)
  Variable resampling : nat -> list (list R) -> list (list R) -> list (list R).
  (** la.norm(M - eye) < 1e-13 *)
  Variable near_identity : list (list R) -> bool.

  (** grp.vertex_unit_coordinates() *)
  Fixpoint corners (d : nat) : list (list R) :=
    match d with 0 => [[]] | S d => flat_map (fun c => [ropp r1 :: c; r1 :: c]) (corners d) end.
  (** unit_flip_matrix @ u *)
  Definition flip_first (u : list R) : list R := match u with [] => [] | x :: u => ropp x :: u end.
  Definition find_points (d : nat) (src : list (list R)) : res (list Z) :=
    find_point_to_point_mapping R median 1 tol 256 d d src (corners d).

  (** _get_tensor_product_element_flip_matrix_and_vertex_permutation (:746-780) *)
  Definition tensor_flip (d order : nat) (unit_nodes : list (list R)) : res (list (list R) * list nat) :=
    _ <- guard (negb (d =? 0)) IndexError ;;     (* unit_flip_matrix[0, 0] = -1 *)
    perm <- find_points d (map flip_first (corners d)) ;;
    _ <- guard (forallb (fun z => 0 <=? z)%Z perm) RuntimeError ;;
    let M := resampling order (map flip_first unit_nodes) unit_nodes in
    _ <- guard (near_identity (matmul (length unit_nodes) M M)) AssertionError ;;
    Ok (M, map Z.to_nat perm).

  (** base_vertex_index and spanning_vertex_indices (:606-614).  An index -1 is the last vertex. *)
  Definition vertex_index (d : nat) (z : Z) : nat := if (z <? 0)%Z then 2 ^ d - 1 else Z.to_nat z.
  Definition unpack_single (d : nat) (l : list Z) : res nat := match l with [z] => Ok (vertex_index d z) | _ => Err ValueError end.
  (** -1 + 2 e_i *)
  Definition spanning_corner (d i : nat) : list R := map (fun j => if j =? i then radd (ropp r1) (rmul (radd r1 r1) r1) else radd (ropp r1) (rmul (radd r1 r1) r0)) (seq 0 d).
  Definition tensor_span (d : nat) : res (nat * list nat) :=
    b <- find_points d [map (fun _ => ropp r1) (seq 0 d)] ;; b <- unpack_single d b ;;
    s <- mapM (fun i => z <- find_points d [spanning_corner d i] ;; unpack_single d z) (seq 0 d) ;;
    Ok (b, s).
End TensorFlip.
