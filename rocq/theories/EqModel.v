(** * EqModel: comparing meshes.

    Models the comparisons __eq__ of meshmode/mesh/__init__.py: MeshElementGroup (:283-292), NodalAdjacency (:484-491), FacialAdjacencyGroup (:538-543),
    InteriorAdjacencyGroup (:615-627), BoundaryAdjacencyGroup (:675-683), InterPartAdjacencyGroup (:766-775), Mesh (:1496-1523), and optional_array_equal
    (mesh/tools.py:72-80).  AffineMap.__eq__ is [amap_eq] of AffineModel.v.

    Simplified: dtypes and part identifiers are numbers; arrays are their shape and entries, dtypes of arrays are not compared by numpy.array_equal;
    numbers are compared with [reqb] (no NaN); objects are compared as values, so that Python's shortcut for identical entries of tuples is not needed.
    __ne__ of meshes is Python's negation of __eq__.  No proofs in this file. *)
From Coq Require Import List Arith Bool.
From Verif Require Import Np MeshModel Lin ConsistModel AffineModel.
Import ListNotations.

Record arr (X : Type) : Type := mk_arr { a_shape : list nat; a_data : list X }.
Arguments mk_arr {X}. Arguments a_shape {X}. Arguments a_data {X}.

(** numpy.array_equal *)
Definition array_equal {X} (eqb : X -> X -> bool) (a b : arr X) : bool :=
  list_nat_eqb (a_shape a) (a_shape b) && (length (a_data a) =? length (a_data b)) && forallb (fun p => eqb (fst p) (snd p)) (combine (a_data a) (a_data b)).
(** optional_array_equal (tools.py:72-80) *)
Definition optional_array_equal {X} (eqb : X -> X -> bool) (a b : option (arr X)) : bool :=
  match a, b with
  | None, None => true
  | Some a, Some b => array_equal eqb a b
  | _, _ => false
  end.
Definition index_equal : arr nat -> arr nat -> bool := array_equal Nat.eqb.

(** Tuples: lengths, then the entries until two are different; their comparisons must have a truth value *)
Fixpoint entries_eq {X} (f : X -> X -> res bool) (l l' : list X) : res bool :=
  match l, l' with
  | x :: l, y :: l' => b <- f x y ;; if b then entries_eq f l l' else Ok false
  | _, _ => Ok true
  end.
Definition tuple_eq {X} (f : X -> X -> res bool) (l l' : list X) : res bool :=
  if length l =? length l' then entries_eq f l l' else Ok false.

(** None (not computed yet), False (not available), or something *)
Inductive lazy (X : Type) : Type := LNone | LFalse | LSome (x : X).
Arguments LNone {X}. Arguments LFalse {X}. Arguments LSome {X}.
Definition lazy_eq {X} (f : X -> X -> res bool) (a b : lazy X) : res bool :=
  match a, b with
  | LNone, LNone | LFalse, LFalse => Ok true
  | LSome x, LSome y => f x y
  | _, _ => Ok false
  end.

Section Equality.
  Variable R : cring.
  Variable reqb : R -> R -> bool.
  Notation amap := (amap R).

  (** Element groups: class, order, vertex indices, nodes, unit nodes *)
  Record egrp : Type := mk_egrp { e_class : nat; e_order : nat; e_vi : option (arr nat); e_nodes : arr R; e_unit : arr R }.
  (** MeshElementGroup.__eq__ (:283-292) *)
  Definition group_eq (g h : egrp) : bool :=
    (e_class g =? e_class h) &&
    ((e_order g =? e_order h) && optional_array_equal Nat.eqb (e_vi g) (e_vi h) && array_equal reqb (e_nodes g) (e_nodes h) && array_equal reqb (e_unit g) (e_unit h)).

  (** NodalAdjacency.__eq__ (:484-491): class, neighbors_starts, neighbors *)
  Record nadj : Type := mk_nadj { n_class : nat; n_starts : arr nat; n_neighbors : arr nat }.
  Definition nadj_eq (a b : nadj) : bool :=
    (n_class a =? n_class b) && (index_equal (n_starts a) (n_starts b) && index_equal (n_neighbors a) (n_neighbors b)).

  (** Facial adjacency groups of the four classes and of classes derived from them (a number) *)
  Inductive fagroup : Type :=
  | GFacial (cls igroup : nat) (elements element_faces : arr nat)
  | GInterior (cls igroup ineighbor : nat) (elements element_faces neighbors neighbor_faces : arr nat) (aff_map : amap)
  | GBoundary (cls igroup : nat) (tag : btag) (elements element_faces : arr nat)
  | GInterPart (cls igroup : nat) (tag : btag) (part_id : nat) (elements element_faces neighbors neighbor_faces : arr nat) (aff_map : amap).

  (** __eq__ (:538-543, 615-627, 675-683, 766-775): the value of [a and b and ... and self.aff_map == other.aff_map] is the last comparison, which may be an array *)
  Definition fagroup_eq (a b : fagroup) : res (pyval) :=
    match a, b with
    | GFacial c i _ _, GFacial d j _ _ => Ok (VBool ((c =? d) && (i =? j)))
    | GInterior c i i' es fs ns nfs f, GInterior d j j' es' fs' ns' nfs' g =>
        if (c =? d) && (i =? j) && (i' =? j') && index_equal es es' && index_equal fs fs' && index_equal ns ns' && index_equal nfs nfs'
        then amap_eq R reqb f g else Ok (VBool false)
    | GBoundary c i t es fs, GBoundary d j t' es' fs' =>
        Ok (VBool ((c =? d) && (i =? j) && btag_eqb t t' && index_equal es es' && index_equal fs fs'))
    | GInterPart c i t p es fs ns nfs f, GInterPart d j t' p' es' fs' ns' nfs' g =>
        if (c =? d) && (i =? j) && btag_eqb t t' && index_equal es es' && index_equal fs fs' && (p =? p') && index_equal ns ns' && index_equal nfs nfs'
        then amap_eq R reqb f g else Ok (VBool false)
    | _, _ => Ok (VBool false)
    end.
  Definition fagroup_eq_bool (a b : fagroup) : res bool := v <- fagroup_eq a b ;; truth v.

  (** Mesh: class, groups, vertices, is_conforming, cached adjacency, dtypes *)
  Record emesh : Type := mk_emesh {
    em_class : nat; em_vertices : option (arr R); em_groups : list egrp; em_conforming : option bool;
    em_nodal : lazy nadj; em_facial : lazy (list (list fagroup)); em_vdtype : nat; em_edtype : nat; em_fdtype : nat }.

  Definition opt_bool_eqb (a b : option bool) : bool :=
    match a, b with None, None => true | Some a, Some b => Bool.eqb a b | _, _ => false end.

  (** Mesh.__eq__ (:1496-1523) *)
  Definition mesh_equal (m m' : emesh) : res bool :=
    if em_class m =? em_class m' then
      if optional_array_equal reqb (em_vertices m) (em_vertices m') then
        gs <- tuple_eq (fun g h => Ok (group_eq g h)) (em_groups m) (em_groups m') ;;
        if gs && (em_vdtype m =? em_vdtype m') && (em_edtype m =? em_edtype m') then
          na <- lazy_eq (fun a b => Ok (nadj_eq a b)) (em_nodal m) (em_nodal m') ;;
          if na then
            fa <- lazy_eq (tuple_eq (tuple_eq fagroup_eq_bool)) (em_facial m) (em_facial m') ;;
            if fa then Ok (opt_bool_eqb (em_conforming m) (em_conforming m')) else Ok false
          else Ok false
        else Ok false
      else Ok false
    else Ok false.
  Definition mesh_not_equal (m m' : emesh) : res bool := b <- mesh_equal m m' ;; Ok (negb b).
End Equality.
