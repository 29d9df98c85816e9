(** * MiscModel: boundary tags as keys of dictionaries, node numbers, pictures of curves, unit nodes of FInAT elements, vtk_visualize_mesh.

    Models meshmode/mesh/__init__.py:140-167 (BTAG_PARTITION.__init__, __hash__, __eq__), :275-280 and :1381-1387 (nnodes, base_node_nrs);
    mesh/visualization.py:178-209 and discretization/visualization.py:1426-1446 (draw_curve), mesh/visualization.py:349-370 (vtk_visualize_mesh);
    interop/firedrake/reference_cell.py:122-166 (get_finat_element_unit_nodes).

    Simplified: strings, classes and part identifiers are numbers.  matplotlib's plot of two arrays with two axes draws one line per column; styles,
    colors and labels of lines are left out except for the number of the group.  Point evaluators of FIAT are arguments; arrays are shapes and entries as in
    EqModel.v.  No proofs in this file. *)
From Coq Require Import List Arith Bool ZArith.
From Verif Require Import Np Lin EqModel VisIoModel.
Import ListNotations.

(** ** Boundary tags as keys *)
(** A class used as tag (BTAG_ALL, ...), a string, or an object of the class BTAG_PARTITION (number 0) or a class derived from it *)
Inductive tagobj : Type := TagClass (c : nat) | TagStr (s : nat) | TagPart (cls part_id : nat).
(** ==: classes are compared by identity; BTAG_PARTITION.__eq__ (:161-166) *)
Definition tag_eq (a b : tagobj) : bool :=
  match a, b with
  | TagClass c, TagClass d => c =? d
  | TagStr s, TagStr t => s =? t
  | TagPart _ p, TagPart _ q => p =? q
  | _, _ => false
  end.
Section Hashes.
  (** Python's hash of classes, strings and tuples of a class and a part identifier *)
  Variables (hash_class hash_str : nat -> Z) (hash_pair : nat * nat -> Z).
  (** hash; BTAG_PARTITION.__hash__ (:157-159) *)
  Definition tag_hash (a : tagobj) : Z :=
    match a with TagClass c => hash_class c | TagStr s => hash_str s | TagPart c p => hash_pair (c, p) end.
  (** A dictionary with tags as keys: an entry is found if hash and == agree *)
  Context {X : Type}.
  Definition same_key (a b : tagobj) : bool := Z.eqb (tag_hash a) (tag_hash b) && tag_eq a b.
  Fixpoint tagdict_get (d : list (tagobj * X)) (k : tagobj) : option X :=
    match d with [] => None | (a, x) :: d => if same_key a k then Some x else tagdict_get d k end.
  Fixpoint tagdict_set (d : list (tagobj * X)) (k : tagobj) (x : X) : list (tagobj * X) :=
    match d with [] => [(k, x)] | (a, y) :: d => if same_key a k then (a, x) :: d else (a, y) :: tagdict_set d k x end.
End Hashes.

(** ** Node numbers *)
(** Groups: numbers of elements and of unit nodes; nnodes (:275-280) *)
Definition group_nnodes (g : nat * nat) : nat := fst g * snd g.
(** base_node_nrs (:1381-1387) *)
Definition base_node_nrs (groups : list (nat * nat)) : list nat := cumsum (0 :: map group_nnodes (removelast groups)).

(** ** Curves *)
Section Curves.
  Context {X : Type}.
  (** An array with two axes: number of columns and rows *)
  Record array2 : Type := mk_array2 { ar_ncols : nat; ar_rows : list (list X) }.
  (** a.T *)
  Definition column (a : array2) (j : nat) : res (list X) := mapM (fun row => get row j) (ar_rows a).
  Definition transpose (a : array2) : res array2 := rows <- mapM (column a) (seq 0 (ar_ncols a)) ;; Ok (mk_array2 (length (ar_rows a)) rows).
  (** plt.plot(x, y): one line per column *)
  Definition plot (x y : array2) : res (list (list (X * X))) :=
    _ <- guard ((ar_ncols x =? ar_ncols y) && (length (ar_rows x) =? length (ar_rows y))) ValueError ;;
    mapM (fun j => cx <- column x j ;; cy <- column y j ;; Ok (combine cx cy)) (seq 0 (ar_ncols x)).

  (** A mesh (or discretization): dimensions, rows of vertices, nodes of each group by axis *)
  Record cmesh : Type := mk_cmesh { cm_ambient : nat; cm_dim : nat; cm_vertices : option (list (list X)); cm_nodes : list (list array2) }.
  (** A picture: markers at the vertices, lines of each group *)
  Record picture : Type := mk_picture { pc_markers : list (X * X); pc_lines : list (list (list (X * X))) }.

  (** vertices[0], vertices[1]; None has no entries *)
  Definition vertex_markers (m : cmesh) : res (list (X * X)) :=
    match cm_vertices m with
    | None => Err TypeError
    | Some v => x <- get v 0 ;; y <- get v 1 ;; Ok (combine x y)
    end.
  Definition group_lines (nodes : list array2) : res (list (list (X * X))) :=
    x <- get nodes 0 ;; xt <- transpose x ;; y <- get nodes 1 ;; yt <- transpose y ;; plot xt yt.
  (** draw_curve of a mesh (mesh/visualization.py:178-209) *)
  Definition draw_curve (m : cmesh) : res picture :=
    _ <- guard ((cm_ambient m =? 2) && (cm_dim m =? 1)) ValueError ;;
    ms <- vertex_markers m ;; ls <- mapM group_lines (cm_nodes m) ;; Ok (mk_picture ms ls).
  (** draw_curve of a discretization (discretization/visualization.py:1426-1446) *)
  Definition draw_discr_curve (m : cmesh) : res picture :=
    ms <- vertex_markers m ;; ls <- mapM group_lines (cm_nodes m) ;; Ok (mk_picture ms ls).

  (** ** Unit nodes of FInAT elements *)
  (** Whether the class is one of the five allowed ones, whether the cell is a Simplex, and _element.dual.nodes *)
  Record finat : Type := mk_finat { fi_allowed : bool; fi_simplex : bool; fi_nodes : list ((list X -> list X) -> list X) }.
  (** np.array(unit_nodes) of a list of tuples of coordinates; one axis if there are none *)
  Definition array_of_points (pts : list (list X)) : res (arr X) :=
    match pts with
    | [] => Ok (mk_arr [0] [])
    | p :: _ => _ <- guard (forallb (fun q => length q =? length p) pts) ValueError ;; Ok (mk_arr [length pts; length p] (concat pts))
    end.
  (** .T of an array with one or two axes *)
  Definition arr_transpose (a : arr X) : res (arr X) :=
    match a_shape a with
    | [m; n] =>
        d <- mapM (fun j => mapM (fun i => get (a_data a) (i * n + j)) (seq 0 m)) (seq 0 n) ;;
        Ok (mk_arr [n; m] (concat d))
    | _ => Ok a
    end.
  (** get_finat_element_unit_nodes (:122-166) *)
  Definition finat_unit_nodes (e : finat) : res (arr X) :=
    _ <- guard (fi_allowed e) TypeError ;;
    _ <- guard (fi_simplex e) TypeError ;;
    a <- array_of_points (map (fun p => p (fun x => x)) (fi_nodes e)) ;;
    arr_transpose a.
End Curves.
Arguments array2 : clear implicits. Arguments cmesh : clear implicits. Arguments picture : clear implicits. Arguments finat : clear implicits.

(** ** vtk_visualize_mesh (mesh/visualization.py:349-370) *)
Section VtkMesh.
  Context {key U F S : Type}.
  Variable keqb : key -> key -> bool.
  Variable apply_factory : F -> mgrp -> res (key * U).
  Variables equidistant edge_clustered : nat -> F.
  Variable one : S.
  (** max(mgrp.order for mgrp in mesh.groups) *)
  Definition max_order (orders : list nat) : res nat := match orders with [] => Err ValueError | o :: os => Ok (fold_left Nat.max os o) end.
  (** The connection to the points of the file, and the visualizer afterwards, which has stored the connectivity that was used; [orders]: those of
      the groups of the mesh.  Numbers 0 and 1 are the identities of the new discretizations. *)
  Definition vtk_visualize_mesh (m : vmesh) (orders : list nat) (high : bool) : res (vconn key U F * visualizer key U F S) :=
    order <- max_order orders ;;
    d <- make_discr key U F apply_factory 0 m (edge_clustered order) ;;
    v <- make_visualizer key U F keqb apply_factory equidistant edge_clustered S one 1 d (if high then Some order else None) None high ;;
    let cv := vtk_connectivity key U F S v high in
    c <- fst cv ;; Ok (c, snd cv).
End VtkMesh.
