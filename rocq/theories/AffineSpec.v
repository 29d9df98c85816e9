(** * AffineSpec: vocabulary for the statements about affine maps. *)
From Coq Require Import List Arith.
From Verif Require Import Np MeshModel MeshSpec MeshStateModel Lin AffineModel.
Import ListNotations.
Local Open Scope cring_scope.

(** A map of d-dimensional space to itself. *)
Definition amap_wf {R : cring} (d : nat) (f : amap R) : Prop :=
  (forall M, am_matrix f = Some M -> is_mat d d M) /\ (forall o, am_offset f = Some o -> length o = d).

(** [inv] inverts the matrices for which it returns something. *)
Definition inverts {R : cring} (d : nat) (inv : list (list R) -> res (list (list R))) : Prop :=
  forall M N, is_mat d d M -> inv M = Ok N ->
    is_mat d d N /\ matmul d N M = idmat d /\ matmul d M N = idmat d.

(** Arguments of affine_map: a scalar means a multiple of the identity matrix, respectively a constant vector. *)
Definition times {R : cring} (A : option (sarg R (list (list R)))) (x : list R) : list R :=
  match A with None => x | Some (Scalar c) => vscale c x | Some (Arr M) => matvec M x end.
Definition shift {R : cring} (d : nat) (b : option (sarg R (list R))) : list R :=
  match b with None => zeros d | Some (Scalar c) => repeat c d | Some (Arr v) => v end.
Definition transform {R : cring} (d : nat) A b (x : list R) : list R := vadd (times A x) (shift d b).

Definition args_ok {R : cring} (d : nat) (A : option (sarg R (list (list R)))) (b : option (sarg R (list R))) : Prop :=
  (forall M, A = Some (Arr M) -> is_mat d d M) /\ (forall v, b = Some (Arr v) -> length v = d).

(** The image under [h'] of the image of x is the image of [h x]. *)
Definition carries {R : cring} (d : nat) A b (h h' : amap R) : Prop :=
  forall x y, length x = d -> amap_call R h x = Ok y -> amap_call R h' (transform d A b x) = Ok (transform d A b y).

(** When affine_map gets this right. *)
Definition compatible {R : cring} (d : nat) A b (h : amap R) : Prop :=
  forall G, am_matrix h = Some G ->
    (forall x, length x = d -> times A (matvec G x) = matvec G (times A x)) /\
    (am_offset h = None -> matvec G (shift d b) = shift d b).

(** Same group numbers, tags and faces; the maps are related by P. *)
Definition fagrp_rel {A A'} (P : A -> A' -> Prop) (fg : fagrp A) (fg' : fagrp A') : Prop :=
  match fg, fg' with
  | Interior g h es a, Interior g1 h1 es1 a1 => g1 = g /\ h1 = h /\ es1 = es /\ P a a1
  | InterPart g t p es a, InterPart g1 t1 p1 es1 a1 => g1 = g /\ t1 = t /\ p1 = p /\ es1 = es /\ P a a1
  | Boundary g t es, Boundary g1 t1 es1 => g1 = g /\ t1 = t /\ es1 = es
  | _, _ => False
  end.

Definition fagrp_all {A} (P : A -> Prop) (fg : fagrp A) : Prop :=
  match fg with Interior _ _ _ a => P a | InterPart _ _ _ _ a => P a | Boundary _ _ _ => True end.

(** All points of the mesh have d coordinates. *)
Definition points_in {R : cring} {A} (d : nat) (m : mesh (list (list R)) A (list R)) : Prop :=
  (forall vs, m_vertices m = Some vs -> Forall (fun x => length x = d) vs) /\
  Forall (fun g => Forall (Forall (fun x => length x = d)) (eg_nodes g)) (m_groups m).

(** [m'] has the same elements as [m], with every point mapped by [f]. *)
Record same_up_to {P A A'} (f : P -> P) (m : mesh (list P) A P) (m' : mesh (list P) A' P) : Prop := {
  su_vertices : m_vertices m' = option_map (map f) (m_vertices m);
  su_groups : Forall2 (fun g g' => eg_vi g' = eg_vi g /\ eg_fvi g' = eg_fvi g /\ eg_nodes g' = map (map f) (eg_nodes g))
                      (m_groups m) (m_groups m');
  su_nodal : m_nodal m' = m_nodal m;
  su_conforming : m_conforming m' = m_conforming m
}.

(** Transpose of a 3 x 3 matrix given by rows, as used for rotation matrices. *)
Fixpoint transpose {X} (n : nat) (M : list (list X)) : list (list X) :=
  match M with
  | [] => repeat [] n
  | row :: M => map2 cons row (transpose n M)
  end.

(** The position of an index tuple in a grid of the given shape, last index running fastest. *)
Fixpoint radix (shape index : list nat) : nat :=
  match shape, index with
  | _ :: shape, i :: index => i * fold_right Nat.mul 1 shape + radix shape index
  | _, _ => 0
  end%nat.

(** n times a vector by repeated addition, and sum_k index_k * offset_k. *)
Fixpoint ntimes {R : cring} (d n : nat) (o : list R) : list R :=
  match n with 0%nat => zeros d | S n => vadd o (ntimes d n o) end.
Fixpoint lattice {R : cring} (d : nat) (index : list nat) (offset : list (list R)) : list R :=
  match index, offset with
  | i :: index, o :: offset => vadd (ntimes d i o) (lattice d index offset)
  | _, _ => zeros d
  end.
