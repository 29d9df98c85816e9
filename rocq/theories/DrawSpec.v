(** * DrawSpec: what a picture of a mesh should show. *)
From Coq Require Import List Arith Bool QArith Qabs Permutation.
From Verif Require Import Np DrawModel.
Import ListNotations.
Local Open Scope nat_scope.

(** Points up to equality of rational numbers *)
Definition peq (p q : pt2) : Prop := (fst p == fst q /\ snd p == snd q)%Q.

(** ** What is in a picture *)
Definition paths (ds : list drawn) : list (list (code * pt2)) := flat_map (fun d => match d with DPath p => [p] | _ => [] end) ds.
Definition element_texts (ds : list drawn) : list (pt2 * label) :=
  flat_map (fun d => match d with DText p (LElement i) => [(p, LElement i)] | DText p (LGroupElement g i) => [(p, LGroupElement g i)] | _ => [] end) ds.
Definition vertex_texts (ds : list drawn) : list (nat * pt2) := flat_map (fun d => match d with DText p (LVertex i) => [(i, p)] | _ => [] end) ds.
Definition face_texts (ds : list drawn) : list (nat * pt2) := flat_map (fun d => match d with DText p (LFace i) => [(i, p)] | _ => [] end) ds.
Definition arrows (ds : list drawn) : list (pt2 * pt2) := flat_map (fun d => match d with DArrow s v => [(s, v)] | _ => [] end) ds.
Definition limits (ds : list drawn) : list (pt2 * pt2) := flat_map (fun d => match d with DLimits l u => [(l, u)] | _ => [] end) ds.

(** ** Meshes *)
Definition rows (g : dgroup) : list (list nat) := match d_vi g with Some vi => vi | None => [] end.
(** Elements of all groups in order, with the numbers of their group and in their group *)
Definition elements (groups : list dgroup) : list (dgroup * (nat * nat) * list nat) :=
  flat_map (fun '(igrp, g) => map (fun '(iel, el) => (g, (igrp, iel), el)) (enumerate (rows g))) (enumerate groups).

(** Same faces of a triangle or a square, up to order *)
Definition same_pair (p : nat * nat) (f : list nat) : Prop := f = [fst p; snd p] \/ f = [snd p; fst p].
(** Segments, triangles, squares, with vertices of the mesh *)
Inductive shape_ok : dgroup -> nat -> Prop :=
| segment : forall t vi fvi, Permutation fvi [[0]; [1]] -> shape_ok (mk_dgroup t 1 vi fvi) 2
| triangle : forall vi fvi, Permutation fvi [[0; 1]; [2; 0]; [1; 2]] \/ Permutation fvi [[0; 1]; [0; 2]; [1; 2]] -> shape_ok (mk_dgroup false 2 vi fvi) 3
| square : forall vi fvi, Permutation fvi [[0; 1]; [2; 3]; [0; 2]; [1; 3]] -> shape_ok (mk_dgroup true 2 vi fvi) 4.
Definition group_ok (nv : nat) (g : dgroup) : Prop :=
  d_vi g <> None /\ exists n, shape_ok g n /\ Forall (fun el => length el = n /\ Forall (fun v => v < nv) el) (rows g).

(** ** Outlines *)
Definition cycle {X} (l : list X) : list (X * X) := match l with [] => [] | x :: l' => combine l (l' ++ [x]) end.
(** The path is a closed polygon through the vertices of the element in some order; the sides of plane elements are the faces, each once *)
Definition outline (vertices : list pt2) (g : dgroup) (el : list nat) (path : list (code * pt2)) : Prop :=
  exists order vs first,
    Permutation order (seq 0 (length el)) /\
    Forall2 (fun k v => exists i, nth_error el k = Some i /\ nth_error vertices i = Some v) order vs /\
    nth_error vs 0 = Some first /\
    map snd path = vs ++ [first] /\ map fst path = MOVETO :: repeat LINETO (length el - 1) ++ [CLOSEPOLY] /\
    (d_dim g = 2 -> exists fs, Permutation fs (d_fvi g) /\ Forall2 same_pair (cycle order) fs).

(** ** Positions *)
(** n times the point is the sum of the vertices *)
Definition is_center (l : list pt2) (c : pt2) : Prop :=
  l <> [] /\ let n := inject_Z (Z.of_nat (length l)) in
  (n * fst c == fold_right (fun p s => fst p + s) 0 l /\ n * snd c == fold_right (fun p s => snd p + s) 0 l)%Q.
Definition vertices_of (vertices : list pt2) (el : list nat) (vs : list pt2) : Prop := Forall2 (fun i v => nth_error vertices i = Some v) el vs.
Definition center_of (vertices : list pt2) (el : list nat) (c : pt2) : Prop :=
  exists vs, vertices_of vertices el vs /\ is_center vs c.

Definition element_label (ngroups igrp iel : nat) (t : label) : Prop :=
  (ngroups = 1 /\ t = LElement iel) \/ (ngroups <> 1 /\ t = LGroupElement igrp iel).

(** Faces of all elements in order: vertices of the element, number of the face, its vertices among those of the element *)
Definition faces (groups : list dgroup) : list (list nat * nat * list nat) :=
  flat_map (fun g => flat_map (fun el => map (fun '(i, f) => (el, i, f)) (enumerate (d_fvi g))) (rows g)) groups.
(** The number of a face is between the center of the element and that of the face, nearer to the face *)
Definition face_text (vertices : list pt2) (f : list nat * nat * list nat) (t : nat * pt2) : Prop :=
  let '(el, i, f) := f in
  fst t = i /\
  exists (fv : list nat) (c cf : pt2), Forall2 (fun k v => nth_error el k = Some v) f fv /\ center_of vertices el c /\ center_of vertices fv cf /\
    peq (snd t) (fst c + (7#10) * (fst cf - fst c), snd c + (7#10) * (snd cf - snd c))%Q.

(** ** Arrows *)
Definition unit_interval (u : pt2) : Prop := (0 <= fst u < 1 /\ 0 <= snd u < 1)%Q.
Definition within (r : Q) (p q : pt2) : Prop := (Qabs (fst p - fst q) <= r /\ Qabs (snd p - snd q) <= r)%Q.
(** The arrow goes from near 15 percent of the way to near 85 percent of the way from c to c' *)
Definition arrow_between (c c' : pt2) (a : pt2 * pt2) : Prop :=
  exists mag, (Qabs (fst c' - fst c) <= mag /\ Qabs (snd c' - snd c) <= mag)%Q /\
  ((mag == Qabs (fst c' - fst c))%Q \/ (mag == Qabs (snd c' - snd c))%Q) /\
  within ((25#1000) * mag) (fst a) ((85#100) * fst c + (15#100) * fst c', (85#100) * snd c + (15#100) * snd c')%Q /\
  within ((425#10000) * mag) (fst (fst a) + fst (snd a), snd (fst a) + snd (snd a))%Q ((15#100) * fst c + (85#100) * fst c', (15#100) * snd c + (85#100) * snd c')%Q.

(** The neighbors of the elements, as lists *)
Definition neighbor_lists (nelements : nat) (starts neighbors : list nat) (ls : list (list nat)) : Prop :=
  length ls = nelements /\ forall i l, nth_error ls i = Some l ->
    exists a b, nth_error starts i = Some a /\ nth_error starts (S i) = Some b /\ l = slice neighbors a b.
Definition flat_pairs (ls : list (list nat)) : list (nat * nat) := flat_map (fun '(i, l) => map (fun j => (i, j)) l) (enumerate ls).

(** The arrow of a pair of elements, numbered through all groups *)
Definition arrow_for (vertices : list pt2) (groups : list dgroup) (p : nat * nat) (a : pt2 * pt2) : Prop :=
  exists e e' c c', nth_error (concat (map rows groups)) (fst p) = Some e /\ nth_error (concat (map rows groups)) (snd p) = Some e' /\
    center_of vertices e c /\ center_of vertices e' c' /\ arrow_between c c' a.
