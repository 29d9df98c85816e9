(** * ConsistSpec: vocabulary for the statements about consistency checks. *)
From Coq Require Import List Arith Bool ZArith.
From Verif Require Import Np MeshModel MeshStateModel Lin Ord ProcSpec ConsistModel.
Import ListNotations.

Section Spec.
  Variable R : ocring.
  Local Open Scope cring_scope.

  (** coordinate [a] of vertex [k] of an element with vertex numbers [row] is [c] *)
  Definition vertex_coord (pts : list (list R)) (row : list nat) (k a : nat) (c : R) : Prop :=
    exists v p, nth_error row k = Some v /\ nth_error pts v = Some p /\ nth_error p a = Some c.

  (** the largest absolute value of a coordinate of the vertices of an element is [s] *)
  Definition element_scale (pts : list (list R)) (row : list nat) (s : R) : Prop :=
    (exists k a c, vertex_coord pts row k a c /\ s = rabs c) /\
    (forall k a c, vertex_coord pts row k a c -> (rabs c <=? s) = true).

  (** The polynomial through the nodes [x] (one row per axis) takes the value of every vertex up to
      tol * (1 + scale).  Row [k] of [P] evaluates a polynomial at vertex [k]. *)
  Definition nodes_match (P : list (list R)) (pts : list (list R)) (tol : R) (row : list nat) (x : list (list R)) : Prop :=
    forall s k a w xa c, element_scale pts row s -> nth_error P k = Some w -> nth_error x a = Some xa ->
      vertex_coord pts row k a c -> rabs (dot w xa - c) <? tol + tol * s = true.

  (** The determinant of the edges from the first of the spanning vertices *)
  Definition edge_det (d : nat) (bs : nat * list nat) (pts : list (list R)) (row : list nat) (o : R) : Prop :=
    exists b xs, (exists v, nth_error row (fst bs) = Some v /\ nth_error pts v = Some b) /\
      Forall2 (fun k x => exists v, nth_error row k = Some v /\ nth_error pts v = Some x) (snd bs) xs /\
      o = det R d (map (fun x => vsub x b) xs).

  (** [m] is a volume mesh of dimension [d] without NaN: its vertices are [pts], and each group has
      the vertex numbers and nodes of [els]. *)
  Definition exact_group (d : nat) (g : cgroup R) (e : list (list nat) * list (list (list R))) : Prop :=
    eg_vi (cg_eg g) = Some (fst e) /\ eg_nodes (cg_eg g) = map (lift2 R) (snd e) /\
    length (fst e) = length (snd e) /\ cg_modepy g = true /\ cg_dim g = d /\ cg_ambient g = d.
  Definition exact_mesh (d : nat) (m : cmesh R) (pts : list (list R)) (els : list (list (list nat) * list (list (list R)))) : Prop :=
    cm_vertices m = Some (lift2 R pts) /\ Forall (fun p => length p = d) pts /\ Forall2 (exact_group d) (cm_groups m) els /\
    els <> [].

  (** The arrays of a group fit the reference element: [nuv] vertices, [nu] nodes *)
  Definition fitting (d nuv nu nv : nat) (e : list (list nat) * list (list (list R))) : Prop :=
    Forall (fun row => length row = nuv /\ Forall (fun v => v < nv)%nat row) (fst e) /\
    Forall (fun x => length x = d /\ Forall (fun r => length r = nu) x) (snd e).

  (** What modepy provides for a group fits its elements: [resampling] has a row per vertex, and the
      spanning vertices exist. *)
  Definition reference (resampling : cgroup R -> list (list (fl R))) (span : cgroup R -> nat * list nat) (d nv : nat)
      (g : cgroup R) (e : list (list nat) * list (list (list R))) : Prop :=
    exists P nu, resampling g = lift2 R P /\ P <> [] /\ Forall (fun w => length w = nu) P /\ fitting d (length P) nu nv e /\
      (fst (span g) < length P)%nat /\ length (snd (span g)) = d /\ Forall (fun k => k < length P)%nat (snd (span g)).

  (** element [j] of group [i] *)
  Definition element_of (m : cmesh R) (els : list (list (list nat) * list (list (list R)))) (i j : nat)
      (g : cgroup R) (row : list nat) (x : list (list R)) : Prop :=
    exists e, nth_error (cm_groups m) i = Some g /\ nth_error els i = Some e /\
      nth_error (fst e) j = Some row /\ nth_error (snd e) j = Some x.

  (** shapes and dtypes *)
  Definition nodal_shapes (m : cmesh R) : Prop :=
    forall starts nbs, cm_nodal m = Available (starts, nbs) ->
      ia_shape starts = [(cm_nelements m + 1)%nat] /\ (exists n, ia_shape nbs = [n]) /\
      ia_dtype starts = cm_edtype m /\ ia_dtype nbs = cm_edtype m.
  Definition facial_shape (m : cmesh R) (f : cfagrp) : Prop :=
    exists n, ia_shape (cf_elements f) = [n] /\ ia_shape (cf_element_faces f) = [n] /\
      ia_dtype (cf_element_faces f) = cm_fdtype m /\
      forall i j e ef nb nf, f = CInterior i j e ef nb nf ->
        ia_shape nb = [n] /\ ia_shape nf = [n] /\ ia_dtype nb = cm_edtype m /\ ia_dtype nf = cm_fdtype m.
  Definition facial_shapes (m : cmesh R) : Prop :=
    forall fags, cm_facial m = Available fags ->
      fags = [] \/ (length fags = length (cm_groups m) /\ Forall (Forall (facial_shape m)) fags).

  (** Everything the check looks at *)
  Definition consistent (resampling : cgroup R -> list (list (fl R))) (span : cgroup R -> nat * list nat) (d : nat)
      (tol : R) (m : cmesh R) (pts : list (list R)) (els : list (list (list nat) * list (list (list R)))) : Prop :=
    (forall i j g row x P, element_of m els i j g row x -> resampling g = lift2 R P -> nodes_match P pts tol row x) /\
    (forall i j g row x o, element_of m els i j g row x -> edge_det d (span g) pts row o -> 0 <? o = true) /\
    Forall (fun g => cg_vidtype g = cm_vdtype m) (cm_groups m) /\ nodal_shapes m /\ facial_shapes m.

  (** The polynomial through the nodes takes the values of the vertices exactly. *)
  Definition nodes_exact (P : list (list R)) (pts : list (list R)) (row : list nat) (x : list (list R)) : Prop :=
    forall k a w xa c, nth_error P k = Some w -> nth_error x a = Some xa -> vertex_coord pts row k a c -> dot w xa = c.

  (** The nodes [x] and the vertices of an element are the images of the unit nodes [un] and the unit
      vertices [uv] (points of dimension [dim]) under one affine map with matrix [L] and offset [t]. *)
  Definition affine_element (dim : nat) (un uv : list (list R)) (pts : list (list R)) (row : list nat) (x : list (list R)) : Prop :=
    exists (L : list (list R)) (t : list R), length L = length x /\ length t = length x /\
      forall a l c0, nth_error L a = Some l -> nth_error t a = Some c0 -> length l = dim /\
        (forall xa, nth_error x a = Some xa -> xa = map (fun u => dot l u + c0) un) /\
        (forall k c u, vertex_coord pts row k a c -> nth_error uv k = Some u -> c = dot l u + c0).

  (** Row [k] of [P] evaluates polynomials that include constants and coordinates at unit vertex [k]. *)
  Definition evaluates (dim : nat) (P un uv : list (list R)) : Prop :=
    length P = length uv /\
    forall k w u, nth_error P k = Some w -> nth_error uv k = Some u ->
      dot w (map (fun _ => 1) un) = 1 /\ (forall l : list R, length l = dim -> dot w (map (fun v => dot l v) un) = dot l u).

  (** Second derivatives of the interpolant of [x] in the directions i, j, as modal coefficients *)
  Definition second_coefficients (V : list (list R)) (D : list (list (list R))) (i j : nat) (x : list R) (c : list R) : Prop :=
    exists Di Dj, nth_error D i = Some Di /\ nth_error D j = Some Dj /\ c = matvec V (matvec Di (matvec Dj x)).

  (** [D] differentiates constants and coordinate functions exactly. *)
  Definition differentiates (dim : nat) (D : list (list (list R))) (un : list (list R)) : Prop :=
    forall i Di, nth_error D i = Some Di -> matvec Di (map (fun _ => 1) un) = zeros (length un) /\
      forall l c, length l = dim -> nth_error l i = Some c -> matvec Di (map (fun u => dot l u) un) = map (fun _ => c) un.
End Spec.
Arguments differentiates {R}.
Arguments nodes_exact {R}. Arguments affine_element {R}. Arguments evaluates {R}. Arguments second_coefficients {R}.
Arguments consistent {R}.
Arguments vertex_coord {R}. Arguments element_scale {R}. Arguments nodes_match {R}. Arguments edge_det {R}.
Arguments exact_group {R}. Arguments exact_mesh {R}. Arguments fitting {R}. Arguments reference {R}. Arguments element_of {R}. Arguments nodal_shapes {R}.
Arguments facial_shape {R}. Arguments facial_shapes {R}.

(** ** Transformed meshes *)
Section AffineSpec.
  Variable R : ocring.
  Local Open Scope cring_scope.

  (** The elements of [m] are simplices with [d + 1] vertices and nodes that fit the matrix [P] of the
      group, whose rows evaluate polynomials at the vertices of the reference element. *)
  Definition simplex_group (P : list (list nat) -> list (list R)) (d nv : nat) (g : egroup (list (list R))) : Prop :=
    exists rows nu, eg_vi g = Some rows /\ length rows = length (eg_nodes g) /\
      Forall (fun row => length row = (d + 1)%nat /\ Forall (fun v => v < nv)%nat row) rows /\
      Forall (fun x => length x = nu) (eg_nodes g) /\ is_mat (d + 1) nu (P (eg_fvi g)) /\
      Forall (fun w => dot w (map (fun _ => 1) w) = 1) (P (eg_fvi g)).

  (** Axis [a] of the nodes [x], given as a list of points, is [xa]. *)
  Definition axis (a : nat) (x : list (list R)) (xa : list R) : Prop := Forall2 (fun p c => nth_error p a = Some c) x xa.

  (** The polynomials through the nodes take the values of the vertices exactly. *)
  Definition interpolates (P : list (list R)) (pts : list (list R)) (row : list nat) (x : list (list R)) : Prop :=
    forall k a w xa c, nth_error P k = Some w -> axis a x xa -> vertex_coord pts row k a c -> dot w xa = c.
End AffineSpec.
Arguments simplex_group {R}. Arguments axis {R}. Arguments interpolates {R}.

(** ** Arrays of the same layout *)
Definition same_layout (a b : iarr) : Prop := ia_shape a = ia_shape b /\ ia_dtype a = ia_dtype b.
(** The arrays have the same shape and dtype, as far as the documentation asks for any. *)
Definition same_layout_group (f g : cfagrp) : Prop :=
  match f, g with
  | CInterior _ _ e ef nb nf, CInterior _ _ e' ef' nb' nf' => same_layout e e' /\ same_layout ef ef' /\ same_layout nb nb' /\ same_layout nf nf'
  | CBoundary _ _ e ef, CBoundary _ _ e' ef' => same_layout e e' /\ same_layout ef ef'
  | CInterPart _ _ _ e ef _ _, CInterPart _ _ _ e' ef' _ _ => same_layout e e' /\ same_layout ef ef'
  | _, _ => False
  end.
