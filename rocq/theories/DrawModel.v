(** * DrawModel: drawing meshes in the plane.

    Models draw_2d_mesh of meshmode/mesh/visualization.py (:51-171) as the list of what is drawn.

    Simplified: coordinates are rational numbers (no rounding), the mesh has ambient dimension 2 where points are pairs; colors, fonts and keyword
    arguments are left out; the numbers of the random generator are an argument ([rnd], one pair for each call); find_bounding_box is an argument.
    No proofs in this file. *)
From Coq Require Import List Arith Bool QArith Qminmax Qabs.
From Verif Require Import Np.
Import ListNotations.
Local Open Scope nat_scope.

Definition pt2 : Type := (Q * Q)%type.
Definition padd (p q : pt2) : pt2 := (fst p + fst q, snd p + snd q)%Q.
Definition psub (p q : pt2) : pt2 := (fst p - fst q, snd p - snd q)%Q.
Definition pscale (c : Q) (p : pt2) : pt2 := (c * fst p, c * snd p)%Q.
(** np.sum(points, axis=1) / n *)
Definition psum (l : list pt2) : pt2 := fold_right padd (0, 0)%Q l.
Definition centroid (l : list pt2) : pt2 := let s := psum l in let n := inject_Z (Z.of_nat (length l)) in (fst s / n, snd s / n)%Q.

(** An element group: is it a TensorProductElementGroup, its dimension, vertex indices, faces *)
Record dgroup : Type := mk_dgroup { d_tensor : bool; d_dim : nat; d_vi : option (list (list nat)); d_fvi : list (list nat) }.

Inductive code : Type := MOVETO | LINETO | CLOSEPOLY.
Inductive label : Type := LElement (iel : nat) | LGroupElement (igrp iel : nat) | LVertex (i : nat) | LFace (i : nat).
Inductive drawn : Type :=
| DPath (path : list (code * pt2))
| DText (at_ : pt2) (text : label)
| DArrow (start delta : pt2)
| DLimits (lower upper : pt2).

(** The path of an element and its number (:77-107) *)
Definition path_order (g : dgroup) (n : nat) : list nat := if d_tensor g && (d_dim g =? 2) then [0; 1; 3; 2] else seq 0 n.
Definition element_path (elverts : list pt2) : res (list (code * pt2)) :=
  first <- get elverts 0 ;;
  Ok ((MOVETO, first) :: map (fun v => (LINETO, v)) (tl elverts) ++ [(CLOSEPOLY, first)]).
Definition draw_element (vertices : list pt2) (numbers : bool) (ngroups igrp iel : nat) (g : dgroup) (el : list nat) : res (list drawn) :=
  vs <- take vertices el ;;
  elverts <- take vs (path_order g (length vs)) ;;
  path <- element_path elverts ;;
  Ok (DPath path :: if numbers then [DText (centroid elverts) (if ngroups =? 1 then LElement iel else LGroupElement igrp iel)] else []).
Definition vertex_indices_of (g : dgroup) : res (list (list nat)) := match d_vi g with Some vi => Ok vi | None => Err TypeError end.
Definition draw_elements (vertices : list pt2) (numbers : bool) (groups : list dgroup) : res (list drawn) :=
  r <- mapM (fun '(igrp, g) =>
    vi <- vertex_indices_of g ;;
    r <- mapM (fun '(iel, el) => draw_element vertices numbers (length groups) igrp iel g el) (enumerate vi) ;; Ok (concat r)) (enumerate groups) ;;
  Ok (concat r).

(** Numbers of vertices (:109-113) *)
Definition draw_vertices (vertices : list pt2) : list drawn := map (fun '(i, v) => DText v (LVertex i)) (enumerate vertices).

(** global_iel_to_group_and_iel (:116-123), with the vertices of the element *)
Fixpoint global_element (groups : list dgroup) (iel : nat) : res (list nat) :=
  match groups with
  | [] => Err ValueError
  | g :: gs => vi <- vertex_indices_of g ;; if iel <? length vi then get vi iel else global_element gs (iel - length vi)
  end.

(** An arrow (:138-150: from 15 percent of the way, 70 percent long, both jittered) with two pairs of random numbers *)
Definition pt_abs_max (p : pt2) : Q := Qmax (Qabs (fst p)) (Qabs (snd p)).
Definition jitter (mag : Q) (u : pt2) : pt2 := (((5#100) * (fst u - (1#2)) * mag), ((5#100) * (snd u - (1#2)) * mag))%Q.
Definition arrow (c c' : pt2) (u v : pt2) : drawn :=
  let dx := psub c' c in
  let start := padd c (pscale (15#100) dx) in
  let mag := pt_abs_max dx in
  let start := padd start (jitter mag u) in
  let dx := padd dx (jitter mag v) in
  DArrow start (pscale (7#10) dx).

(** Pairs of an element and a neighbor (:127-129), numbered *)
Definition neighbor_pairs (nelements : nat) (starts neighbors : list nat) : res (list (nat * nat)) :=
  r <- mapM (fun i => a <- get starts i ;; b <- get starts (S i) ;; Ok (map (fun j => (i, j)) (slice neighbors a b))) (seq 0 nelements) ;;
  Ok (concat r).
Definition draw_adjacency (vertices : list pt2) (groups : list dgroup) (nelements : nat) (starts neighbors : list nat) (rnd : nat -> pt2) : res (list drawn) :=
  pairs <- neighbor_pairs nelements starts neighbors ;;
  mapM (fun '(k, (i, j)) =>
    _ <- guard (negb (i =? j)) AssertionError ;;
    e <- global_element groups i ;; e' <- global_element groups j ;;
    vs <- take vertices e ;; vs' <- take vertices e' ;;
    Ok (arrow (centroid vs) (centroid vs') (rnd (2 * k)) (rnd (2 * k + 1)))) (enumerate pairs).

(** Numbers of faces (:152-164) *)
Definition draw_faces (vertices : list pt2) (groups : list dgroup) : res (list drawn) :=
  r <- mapM (fun g =>
    vi <- vertex_indices_of g ;;
    r <- mapM (fun el =>
      elverts <- take vertices el ;;
      mapM (fun '(iface, fvi) => fv <- take elverts fvi ;;
        Ok (DText (padd (pscale (3#10) (centroid elverts)) (pscale (7#10) (centroid fv))) (LFace iface))) (enumerate (d_fvi g))) vi ;;
    Ok (concat r)) groups ;;
  Ok (concat r).

Record options : Type := mk_options { o_vertices : bool; o_elements : bool; o_adjacency : bool; o_faces : bool; o_bounding_box : bool }.

(** draw_2d_mesh (:51-171) *)
Definition draw_2d_mesh (ambient_dim : nat) (vertices : option (list pt2)) (groups : list dgroup) (nelements : nat) (adjacency : res (list nat * list nat))
    (bounding_box : res (pt2 * pt2)) (rnd : nat -> pt2) (o : options) : res (list drawn) :=
  _ <- guard (ambient_dim =? 2) AssertionError ;;
  vertices <- match vertices with Some v => Ok v | None => Err TypeError end ;;
  d1 <- draw_elements vertices (o_elements o) groups ;;
  d3 <- (if o_adjacency o then '(starts, neighbors) <- adjacency ;; draw_adjacency vertices groups nelements starts neighbors rnd else Ok []) ;;
  d4 <- (if o_faces o then draw_faces vertices groups else Ok []) ;;
  d5 <- (if o_bounding_box o then '(lower, upper) <- bounding_box ;; Ok [DLimits lower upper] else Ok []) ;;
  Ok (d1 ++ (if o_vertices o then draw_vertices vertices else []) ++ d3 ++ d4 ++ d5).
