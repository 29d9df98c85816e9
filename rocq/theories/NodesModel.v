(** * NodesModel: unit nodes of element groups of simplices, from_meshpy, and the version number.

    Models, of meshmode/discretization/poly_element.py, the properties _interp_nodes of the element groups with as many nodes as basis functions (287-299, 313-329, 343-359,
    390-402, 417-425, 443-458), which unit_nodes returns (257-260); of meshmode/mesh/io.py, from_meshpy (514-531); and meshmode/version.py, _parse_version (6-12).

    Coordinates are elements of an ordered commutative ring.  An array of shape (dim, nnodes) is its number of nodes and its rows.  modepy's warp_and_blend_nodes and
    equidistant_nodes, recursivenodes.recursive_nodes and the number of basis functions are arguments.  Orders are natural numbers.  The deprecation warning of
    PolynomialWarpAndBlendElementGroup and memoization are not modelled.  No proofs in this file. *)
From Coq Require Import String Ascii List Arith Bool ZArith.
From Verif Require Import Np MeshModel MeshStateModel Lin Ord ProcModel GenModel.
Import ListNotations.

Section Nodes.
  Variable R : ocring.
  Local Open Scope cring_scope.

  Record nodes : Type := mk_nodes { nd_n : nat; nd_rows : list (list R) }.

  Variable wb : nat -> nat -> res nodes.             (* mp.warp_and_blend_nodes(dim, order) *)
  Variable equidistant : nat -> nat -> res nodes.    (* mp.equidistant_nodes(dim, order) *)
  Variable F : Type.
  Variable recursive : nat -> nat -> F -> res nodes. (* recursive_nodes(dim, order, family, domain="biunit").T *)
  Variable nbasis : nat -> nat -> nat.               (* len(basis_obj().functions), of dimension and order *)
  Variable inv : nat -> R.                           (* 1/n; for n = 0 numpy's mean is nan *)
  Variable tol : R.                                  (* np.finfo(result.dtype).eps * 50 (:352) *)

  (** np.mean(result, axis=1).reshape(-1, 1) (:292, 321, 349) *)
  Definition mean_node (a : nodes) : nodes := mk_nodes 1 (map (fun row => [rsum row * inv (List.length row)]) (nd_rows a)).

  (** one round of the loop (:353-355) *)
  Definition restrict_axis (a : nodes) (d : nat) : res nodes :=
    row <- get (nd_rows a) d ;;
    let wanted := map (fun x => rabs R (x - (- (1))) <? tol) row in
    Ok (mk_nodes (count_occ Bool.bool_dec wanted true) (map (compress wanted) (nd_rows a))).

  (** dim2, _ = result.shape; assert dim2 == dim *)
  Definition check_dim (dim : nat) (a : nodes) : res nodes := _ <- guard (List.length (nd_rows a) =? dim)%nat AssertionError ;; Ok a.

  (** PolynomialWarpAndBlendElementGroup (:287-299) *)
  Definition warp_and_blend_group (dim order : nat) : res nodes :=
    a <- (if (order =? 0)%nat then a <- wb dim 1 ;; Ok (mean_node a) else wb dim order) ;;
    check_dim dim a.

  (** PolynomialWarpAndBlend2DRestrictingElementGroup (:313-329) *)
  Definition restricting_2d (dim order : nat) : res nodes :=
    a <- (if (order =? 0)%nat then a <- wb dim 1 ;; Ok (mean_node a)
          else if (3 <=? dim)%nat then Err ValueError
          else wb dim order) ;;
    check_dim dim a.

  (** PolynomialWarpAndBlend3DRestrictingElementGroup (:343-359); there is no check of the dimension *)
  Definition restricting_3d (dim order : nat) : res nodes :=
    if (order =? 0)%nat then a <- wb dim 1 ;; Ok (mean_node a)
    else
      a <- wb 3 order ;;
      a <- foldM restrict_axis (seq dim (3 - dim)) a ;;
      Ok (mk_nodes (nd_n a) (firstn dim (nd_rows a))).

  (** PolynomialRecursiveNodesElementGroup (:390-402) *)
  Definition recursive_group (dim order : nat) (family : F) : res nodes := a <- recursive dim order family ;; check_dim dim a.

  (** PolynomialEquidistantSimplexElementGroup (:417-425) *)
  Definition equidistant_group (dim order : nat) : res nodes := a <- equidistant dim order ;; check_dim dim a.

  (** PolynomialGivenNodesElementGroup (:443-458) *)
  Definition given_nodes_group (unit_nodes : nodes) (dim order : nat) : res nodes :=
    _ <- guard (List.length (nd_rows unit_nodes) =? dim)%nat ValueError ;;
    _ <- guard (nd_n unit_nodes =? nbasis dim order)%nat ValueError ;;
    Ok unit_nodes.

  Inductive ngroup : Type := GWarp | G2D | G3D | GRecursive (family : F) | GEquidistant | GGiven (unit_nodes : nodes).

  (** unit_nodes (:257-260) *)
  Definition group_unit_nodes (g : ngroup) (dim order : nat) : res nodes :=
    match g with
    | GWarp => warp_and_blend_group dim order
    | G2D => restricting_2d dim order
    | G3D => restricting_3d dim order
    | GRecursive f => recursive_group dim order f
    | GEquidistant => equidistant_group dim order
    | GGiven u => given_nodes_group u dim order
    end.
End Nodes.
Arguments mk_nodes {R} nd_n nd_rows. Arguments nd_n {R}. Arguments nd_rows {R}.

(** ** from_meshpy (io.py:514-531).  The points of the argument are tuples of d coordinates; elements are tuples of nvert numbers of points.  Nodes and markers as for
    from_vertices_and_simplices in GenModel. *)
Section Meshpy.
  Variable R : ocring.
  Context {A : Type}.
  Variables (half : R) (default_nodes : nat -> nat -> list (list R)) (fvi : nat -> list (list nat)).

  (** mesh_info of meshpy; numbers of markers are not looked at *)
  Record mesh_info : Type := mk_mesh_info { mi_points : list (list R); mi_elements : list (list nat); mi_facet_markers : list Z; mi_element_attributes : list Z }.

  Definition from_meshpy (d nvert : nat) (info : mesh_info) (order : nat) : res (mesh (enodes R) A (list R)) :=
    grp <- make_group_from_vertices R half (fun _ _ => Err ValueError) (fun _ => []) (fun _ => default_nodes) (fun _ => fvi)
             (mi_points info) (mi_elements info) nvert order CSimplex None ;;
    nodes <- mapM (axes_of R d) (eg_nodes grp) ;;
    make_mesh (Some (mi_points info)) [mk_egroup (eg_vi grp) nodes (eg_fvi grp)] Pending Pending (Some true) 0 0 0.
End Meshpy.

(** ** _parse_version (version.py:6-12); strings are lists of characters *)
Definition code (c : ascii) : nat := nat_of_ascii c.
(** [0-9], [a-z] *)
Definition is_digit (c : ascii) : bool := (48 <=? code c) && (code c <=? 57).
Definition is_lower (c : ascii) : bool := (97 <=? code c) && (code c <=? 122).
Definition is_dot (c : ascii) : bool := code c =? 46.

(** the longest prefix of characters that satisfy f *)
Fixpoint run_of (f : ascii -> bool) (s : list ascii) : nat :=
  match s with c :: s => if f c then S (run_of f s) else 0 | [] => 0 end.

(** re.match(r"^([0-9.]+)([a-z0-9]*?)$", s) (:9): the first group takes as many characters as possible, but at least one; backtracking tries shorter ones.  The second
    group extends to the end.  ($ also matches before a final line feed; such versions are not considered.) *)
Fixpoint match_groups (s : list ascii) (k : nat) : option (list ascii * list ascii) :=
  match k with
  | O => None
  | S k' => if forallb (fun c => is_lower c || is_digit c) (skipn k s) then Some (firstn k s, skipn k s) else match_groups s k'
  end.
Definition version_match (s : list ascii) : option (list ascii * list ascii) := match_groups s (run_of (fun c => is_digit c || is_dot c) s).

(** s.split(".") *)
Fixpoint split_dots (s : list ascii) : list (list ascii) :=
  match s with
  | [] => [[]]
  | c :: s => match split_dots s with
              | p :: ps => if is_dot c then [] :: p :: ps else (c :: p) :: ps
              | [] => [[c]]
              end
  end.

(** int(s) for a string of digits; int("") raises ValueError *)
Definition int_of (s : list ascii) : res nat :=
  _ <- guard (negb (List.length s =? 0)) ValueError ;;
  foldM (fun n c => _ <- guard (is_digit c) ValueError ;; Ok (10 * n + (code c - 48))) s 0.

(** The function; [version_text]: VERSION_TEXT, the global variable, which the code uses instead of the argument *)
Definition parse_version (version_text version : list ascii) : res (list nat * list ascii) :=
  match version_match version_text with
  | None => Err AssertionError
  | Some (numbers, status) => ns <- mapM int_of (split_dots numbers) ;; Ok (ns, status)
  end.
