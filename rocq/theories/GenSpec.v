(** * GenSpec: specifications for groups made of vertices, polyhedra, spheres, curves and formats.  No proofs in this file. *)
From Coq Require Import List Arith Bool ZArith.
From Verif Require Import Np MeshModel Lin Ord ProcModel ProcSpec FdSpec.
Import ListNotations.

Section Points.
  Variable R : cring.
  Local Open Scope cring_scope.

  (** The point that divides the segment from [u] to [v] in the ratio t : 1-t *)
  Definition between (t : R) (u v : list R) : list R := map2 (fun a b => (1 - t) * a + t * b) u v.

  (** Vertex [k] of the unit simplex of modepy: coordinate k-1 is 1, all others are -1 *)
  Definition unit_vertex (d k : nat) : list R := map (fun j => if S j =? k then 1 else - (1)) (seq 0 d).

  (** Corner of the unit hypercube, given by zeros and ones *)
  Definition unit_corner (t : list nat) : list R := map (fun b => match b with O => - (1) | S _ => 1 end) t.

  (** Coordinate [i] of a point replaced *)
  Definition with_coord (i : nat) (a : R) (u : list R) : list R := map (fun jx => if fst jx =? i then a else snd jx) (combine (seq 0 (length u)) u).

  (** A solver of linear systems is right if what it returns is a solution. *)
  Definition right_solver (solve : list (list R) -> list (list R) -> res (list (list R))) : Prop :=
    forall m n a b x, is_mat (R := R) m m a -> is_mat (R := R) m n b -> solve a b = Ok x -> is_mat (R := R) m n x /\ matmul n a x = b.

  (** Weighted sum of points *)
  Definition weighted (n : nat) (w : list R) (ps : list (list R)) : list R := vecmat n w ps.
End Points.

(** Points that a group of elements uses: rows of vertex numbers and vertices *)
Definition corner_points {P} (vertices : list P) (row : list nat) (ps : list P) : Prop :=
  Forall2 (fun i p => nth_error vertices i = Some p) row ps.

Section Numbers.
  Variable R : ocring.
  Local Open Scope cring_scope.
  (** Products of positive numbers are positive: true of the real and the rational numbers and of the integers *)
  Definition strict_products : Prop := forall a b : R, 0 <? a = true -> 0 <? b = true -> 0 <? a * b = true.
  Definition right_sqrt (sqrt : R -> R) : Prop := forall a, (0 <=? a) = true -> sqrt a * sqrt a = a /\ (0 <=? sqrt a) = true.
  Definition right_inv (inv : R -> R) : Prop := forall a, a <> 0 -> a * inv a = 1.
  (** The golden ratio *)
  Definition golden (phi : R) : Prop := phi * phi = phi + 1 /\ 1 <? phi = true.

  (** On the sphere of radius r around the origin *)
  Definition on_sphere (r : R) (p : list R) : Prop := length p = 3%nat /\ dot p p = r * r.
  Definition dist2 (p q : list R) : R := dot (vsub p q) (vsub p q).
  Definition det3 (a b c : list R) : R :=
    match a, b, c with
    | [a0; a1; a2], [b0; b1; b2], [c0; c1; c2] => a0 * (b1 * c2 - b2 * c1) - a1 * (b0 * c2 - b2 * c0) + a2 * (b0 * c1 - b1 * c0)
    | _, _, _ => 0
    end.

  (** A linear combination with weights that add up to 1 *)
  Definition affine_of (pts : list (list R)) (p : list R) : Prop :=
    exists w, length w = length pts /\ rsum w = 1 /\ p = weighted R 3 w pts.
End Numbers.

(** Directed edges of triangles *)
Definition tri_edges (t : list nat) : list (nat * nat) := match t with [a; b; c] => [(a, b); (b, c); (c, a)] | _ => [] end.
(** Every edge belongs to exactly two triangles, which run through it in opposite directions *)
Definition closed_surface (tris : list (list nat)) : Prop :=
  Forall (fun t => length t = 3) tris /\ NoDup (concat (map tri_edges tris)) /\
  forall a b, In (a, b) (concat (map tri_edges tris)) -> In (b, a) (concat (map tri_edges tris)).

(** The surface of the cube: eight corners with coordinates 1 and -1, and faces on each of which one coordinate is constant *)
Definition cube_faces (R : cring) (corners : list (list R)) (faces : list (list nat)) : Prop :=
  Forall (fun p => length p = 3 /\ Forall (fun x => x = r1 \/ x = ropp r1) p) corners /\
  Forall (fun f => length f = 4 /\ exists a c, (c = r1 \/ c = ropp r1) /\ Forall (fun i => exists p, nth_error corners i = Some p /\ nth_error p a = Some c) f) faces.

(** Midpoints and nodes of children are interpolated: weighted sums of the nodes of the element with weights that add up to 1 *)
Definition affine_refinement (R : ocring) (midpoints : egroup (list (list R)) -> nat -> list (list R)) (child_nodes : egroup (list (list R)) -> nat -> list (list (list R))) : Prop :=
  forall grp iel x, nth_error (eg_nodes grp) iel = Some x -> x <> [] ->
    Forall (affine_of R x) (midpoints grp iel) /\ Forall (fun y => y <> [] /\ Forall (affine_of R x) y) (child_nodes grp iel).

(** Node tuples of the linear space on the square: the four pairs of zeros and ones, in any order *)
Definition square_tuples (ts : list (list nat)) : Prop :=
  length ts = 4 /\ Forall (Forall (fun b => b < 2)) ts /\ forall a b, a < 2 -> b < 2 -> In [a; b] ts.

Section Curves.
  Variable R : ocring.
  Local Open Scope cring_scope.
  (** Sine and cosine as far as used here: the addition theorems, bounded by 1 *)
  Definition trig (sin cos : R -> R) : Prop :=
    (forall a b, sin (a + b) = sin a * cos b + cos a * sin b) /\ (forall a b, cos (a + b) = cos a * cos b - sin a * sin b) /\
    (forall a, cos a * cos a + sin a * sin a = 1) /\ (forall a, (- (1) <=? sin a) = true /\ (sin a <=? 1) = true).
  (** The point rotated about the origin by the angle [a] *)
  Definition rotated (sin cos : R -> R) (a : R) (p : R * R) : R * R := (cos a * fst p - sin a * snd p, sin a * fst p + cos a * snd p).
  Definition abs_le (x b : R) : Prop := (- b <=? x) = true /\ (x <=? b) = true.

  (** Square of the distance from the axis through [center] in direction z *)
  Definition axis_dist2 (center p : list R) : R :=
    match center, p with
    | c0 :: c1 :: _, p0 :: p1 :: _ => (p0 - c0) * (p0 - c0) + (p1 - c1) * (p1 - c1)
    | _, _ => 0
    end.

  (** The estimate of the interpolation error is at most [tol] times the size of the element, for each coordinate *)
  Definition resolved (norm_err norm_map : list R -> R) (tol : R) (x : list (list R)) : Prop :=
    Forall (fun axis => (norm_err axis <=? tol * norm_map axis) = true) x.
End Curves.

Section Flip.
  Variable R : cring.
  Local Open Scope cring_scope.
  (** The affine map of the unit simplex that exchanges vertices 0 and 1 *)
  Definition flip_unit (u : list R) : list R :=
    match u with [] => [] | x :: us => (- (x + rsum us) - fold_right (fun _ s => 1 + s) 0 us) :: us end.
  (** A flip matrix turns the values of an affine function at the unit nodes into its values at their images. *)
  Definition right_flip (d : nat) (un : list (list R)) (M : list (list R)) : Prop :=
    forall a c, length a = d -> matvec M (map (fun u => dot a u + c) un) = map (fun u => dot a (flip_unit u) + c) un.
  (** The determinant of the edge vectors of a simplex *)
  Definition simplex_det (d : nat) (ps : list (list R)) : R := match ps with [] => 0 | b :: xs => det R d (map (fun x => vsub x b) xs) end.
End Flip.
