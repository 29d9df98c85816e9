(** * BoxSpec: vocabulary for the statements about box meshes. *)
From Coq Require Import List Arith Bool Permutation.
From Verif Require Import Np MeshModel MeshSpec Lin Ord BoxModel.
Import ListNotations.

(** The facets of the reference elements: segment, triangle, square, tetrahedron, cube.
    Vertex k of the square and the cube has the binary digits of k as coordinates, lowest digit first. *)
Definition facets_of (dim : nat) (is_tp : bool) : list (list nat) :=
  match dim, is_tp with
  | 1, _ => [[0]; [1]]
  | 2, false => [[0; 1]; [0; 2]; [1; 2]]
  | 2, true => [[0; 2]; [1; 3]; [0; 1]; [2; 3]]
  | 3, false => [[0; 1; 2]; [0; 1; 3]; [0; 2; 3]; [1; 2; 3]]
  | 3, true => [[0; 2; 4; 6]; [1; 3; 5; 7]; [0; 1; 4; 5]; [2; 3; 6; 7]; [0; 1; 2; 3]; [4; 5; 6; 7]]
  | _, _ => []
  end.

(** [fvi] lists the facets in some order, each with its vertices in some order *)
Definition enumerates (fvi facets : list (list nat)) : Prop :=
  exists F1, Permutation facets F1 /\ Forall2 (@Permutation nat) fvi F1.

(** The supported combinations of dimension, element type and mesh type *)
Inductive box_kind : nat -> gcls -> mtype -> Prop :=
  | bk_seg_s : box_kind 1 GSimplex MNone
  | bk_seg_t : box_kind 1 GTensor MNone
  | bk_tri : box_kind 2 GSimplex MNone
  | bk_x : box_kind 2 GSimplex MX
  | bk_quad : box_kind 2 GTensor MNone
  | bk_tet : box_kind 3 GSimplex MNone
  | bk_hex : box_kind 3 GTensor MNone.
(** A dictionary from boundary tags to names of sides of the box *)
Definition valid_dict (dim : nat) (dict : tagdict) : Prop :=
  (forall t fs f, In (t, fs) dict -> In f fs -> exists s : side, f = side_name (fst s) (snd s) /\ snd s < dim) /\
  (forall t fs, In (t, fs) dict -> ~ system_tag t).
Definition is_tensor (cls : gcls) : bool := match cls with GTensor => true | _ => false end.

Section Geometry.
  Variable R : ocring.
  Local Open Scope cring_scope.

  (** strictly increasing *)
  Definition increasing (ax : list R) : Prop :=
    forall i a b, nth_error ax i = Some a -> nth_error ax (S i) = Some b -> a <? b = true.
  Definition good_axes (axes : list (list R)) : Prop := Forall (fun ax => (2 <= length ax)%nat /\ increasing ax) axes.

  (** the end of the axis that belongs to side [s] *)
  Definition side_coord (axes : list (list R)) (s : side) (x : R) : Prop :=
    exists ax, nth_error axes (snd s) = Some ax /\ nth_error ax (if fst s then length ax - 1 else 0)%nat = Some x.
  (** the vertices numbered [vs] all lie in the plane of side [s] *)
  Definition on_box_side (axes : list (list R)) (vertices : list (list R)) (vs : list nat) (s : side) : Prop :=
    exists x, side_coord axes s x /\
      forall v, In v vs -> exists p, nth_error vertices v = Some p /\ nth_error p (snd s) = Some x.

  (** face [a] lies on side [s] *)
  Definition face_on {E} (axes : list (list R)) (vertices : list (list R)) (groups : list (egroup E)) (a : nat * nat * nat) (s : side) : Prop :=
    exists vs, face_verts groups a vs /\ on_box_side axes vertices vs s.

  (** determinants up to three rows *)
  Definition det (M : list (list R)) : R :=
    match M with
    | [[a]] => a
    | [[a; b]; [c; d]] => a * d - b * c
    | [[a; b; c]; [d; e; f]; [g; h; i]] => a * (e * i - f * h) - b * (d * i - f * g) + c * (d * h - e * g)
    | _ => 0
    end.
  Definition edges (pts : list (list R)) : list (list R) :=
    match pts with p0 :: ps => map (fun p => vsub p p0) ps | [] => [] end.
  (** signed measure of a simplex, times (its dimension)! *)
  Definition simplex_measure (pts : list (list R)) : R := det (edges pts).
  (** signed measure of the parallelepiped with a tensor product numbering of the vertices *)
  Definition tensor_measure (pts : list (list R)) : R :=
    match pts with
    | [p; q] => det (edges [p; q])
    | [p; q; r; _] => det (edges [p; q; r])
    | [p; q; r; _; s; _; _; _] => det (edges [p; q; r; s])
    | _ => 0
    end.
  Definition measure (is_tp : bool) (pts : list (list R)) : R := if is_tp then tensor_measure pts else simplex_measure pts.

  (** n copies of x *)
  Definition nmul (n : nat) (x : R) : R := rsum (repeat x n).
  Definition extent (ax : list R) (x : R) : Prop :=
    exists a b, nth_error ax 0 = Some a /\ nth_error ax (length ax - 1) = Some b /\ x = b - a.
  Definition product (l : list R) : R := fold_right rmul 1 l.

  (** an axis-aligned box with corners [lo] and [hi], vertices in tensor product numbering *)
  Definition tensor_box (lo hi : list R) (pts : list (list R)) : Prop :=
    length pts = (2 ^ length lo)%nat /\
    forall k p, nth_error pts k = Some p -> length p = length lo /\
      forall a x, nth_error p a = Some x -> nth_error (if Nat.testbit k a then hi else lo) a = Some x.

  (** [x] is in the closed (open) simplex: replacing any vertex by [x] leaves the measure nonnegative (positive) *)
  Definition replace_at (i : nat) (x : list R) (pts : list (list R)) : list (list R) := firstn i pts ++ x :: skipn (S i) pts.
  Definition in_simplex (pts : list (list R)) (x : list R) : Prop :=
    forall i, (i < length pts)%nat -> (0 <=? simplex_measure (replace_at i x pts)) = true.
  Definition inside_simplex (pts : list (list R)) (x : list R) : Prop :=
    forall i, (i < length pts)%nat -> (0 <? simplex_measure (replace_at i x pts)) = true.
  (** [x] is in the closed (open) box spanned by the first and the last vertex *)
  Definition in_span (rel : R -> R -> Prop) (lo hi x : list R) : Prop :=
    Forall2 rel lo x /\ Forall2 rel x hi.
  Definition ole_p (a b : R) : Prop := (a <=? b) = true.
  Definition olt_p (a b : R) : Prop := (a <? b) = true.
  Definition in_element (is_tp : bool) (pts : list (list R)) (x : list R) : Prop :=
    if is_tp then exists lo hi, hd_error pts = Some lo /\ hd_error (rev pts) = Some hi /\ in_span ole_p lo hi x
    else in_simplex pts x.
  Definition inside_element (is_tp : bool) (pts : list (list R)) (x : list R) : Prop :=
    if is_tp then exists lo hi, hd_error pts = Some lo /\ hd_error (rev pts) = Some hi /\ in_span olt_p lo hi x
    else inside_simplex pts x.
  (** [x] is in the closed box *)
  Definition in_box (axes : list (list R)) (x : list R) : Prop :=
    Forall2 (fun ax u => exists a b, nth_error ax 0 = Some a /\ nth_error ax (length ax - 1) = Some b /\
                                     (a <=? u) = true /\ (u <=? b) = true) axes x.
End Geometry.
