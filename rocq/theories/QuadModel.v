(** * QuadModel: quadrature rules of nodal element groups.

    Models, of meshmode/discretization/poly_element.py, _MassMatrixQuadratureElementGroup.quadrature_rule (248-255) and of
    TensorProductElementGroupBase quadrature_rule (560-586) and unit_nodes_1d (588-591).

    Simplified: elements of a commutative ring instead of floating-point numbers. A node is the list of its coordinates (a column of unit_nodes).
    Of modepy: mass_matrix(basis, nodes) is the inverse of V V^T for the Vandermonde matrix V; tensor_product_nodes and TensorProductQuadrature let
    the first axis vary fastest (order "F"), as does reshape_array_for_tensor_product_space. The inverse and np.allclose are arguments.
    No proofs in this file. *)
From Coq Require Import List Arith Bool.
From Verif Require Import Np Lin.
Import ListNotations.

Section Quad.
  Context {R : cring}.
  Variable inv : list (list R) -> res (list (list R)).      (* numpy.linalg.inv *)
  Variable allclose : list (list R) -> list (list R) -> bool.

  Definition vandermonde {P} (basis : list (P -> R)) (nodes : list P) : list (list R) := map (fun p => map (fun b => b p) basis) nodes.
  (** V V^T *)
  Definition gram (V : list (list R)) : list (list R) := map (fun r => map (dot r) V) V.
  Definition mass_matrix {P} (basis : list (P -> R)) (nodes : list P) : res (list (list R)) := inv (gram (vandermonde basis nodes)).

  (** the weights (250-254); np.dot requires as many functions as nodes *)
  Definition mass_weights {P} (basis : list (P -> R)) (nodes : list P) : res (list R) :=
    m <- mass_matrix basis nodes ;;
    _ <- guard (length nodes =? length basis) ValueError ;;
    Ok (matvec m (repeat (r1) (length basis))).

  (** _MassMatrixQuadratureElementGroup.quadrature_rule (248-255): nodes and weights *)
  Definition mass_rule {P} (basis : list (P -> R)) (nodes : list P) : res (list P * list R) :=
    w <- mass_weights basis nodes ;;
    Ok (nodes, w).

  (** modepy's tensor_product_nodes and the weights of TensorProductQuadrature *)
  Fixpoint tp_nodes (axes : list (list R)) : list (list R) :=
    match axes with [] => [[]] | x :: axes => flat_map (fun tail => map (fun a => a :: tail) x) (tp_nodes axes) end.
  Fixpoint tp_weights (axes : list (list R)) : list R :=
    match axes with [] => [r1] | w :: axes => flat_map (fun t => map (fun a => rmul a t) w) (tp_weights axes) end.

  (** nodes_tp[idim][iaxis] (574-577): the nodes number k with all other indices 0 have number k n^idim *)
  Definition axis_nodes (n idim : nat) (nodes : list (list R)) : res (list R) :=
    mapM (fun k => p <- get nodes (k * n ^ idim) ;; get p idim) (seq 0 n).

  (** TensorProductElementGroupBase.quadrature_rule (560-586); in one dimension the nodes are not reshaped (566-569) *)
  Definition tp_rule (dim order : nat) (bases : list (list (R -> R))) (nodes : list (list R)) : res (list (list R) * list R) :=
    let n := if dim =? 1 then length nodes else order + 1 in
    _ <- guard (length nodes =? n ^ dim) ValueError ;;
    _ <- guard (length bases =? dim) ValueError ;;
    rules <- mapM (fun ib => x <- axis_nodes n (fst ib) nodes ;; mass_rule (snd ib) x) (enumerate bases) ;;
    let tn := tp_nodes (map fst rules) in
    _ <- guard (allclose tn nodes) AssertionError ;;
    Ok (tn, tp_weights (map snd rules)).

  (** unit_nodes_1d (588-591) *)
  Definition unit_nodes_1d (order : nat) (nodes : list (list R)) : res (list R) :=
    x <- mapM (fun p => get p 0) (firstn (order + 1) nodes) ;;
    _ <- guard (length x =? order + 1) ValueError ;;
    Ok x.
End Quad.
