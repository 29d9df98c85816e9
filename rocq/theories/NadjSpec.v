(** * NadjSpec: elements that touch. *)
From Coq Require Import List Arith QArith.
From Verif Require Import Np NadjModel.
Import ListNotations.
Local Open Scope nat_scope.

Definition coord (k : nat) (p : pt) : Q := match nth_error p k with Some x => x | None => 0%Q end.
Definition qdot (a b : list Q) : Q := fold_right Qplus 0%Q (map (fun xy => fst xy * snd xy)%Q (combine a b)).
(** the combination of points with the given factors is v *)
Definition combines (pts : list pt) (w : list Q) (v : pt) : Prop := forall k, qdot (map (coord k) pts) w == coord k v.
(** the convex hull *)
Definition in_hull (pts : list pt) (v : pt) : Prop :=
  exists w, length w = length pts /\ Forall (fun x => 0 <= x)%Q w /\ fold_right Qplus 0%Q w == 1 /\ combines pts w v.

(** what least squares returns for independent columns of D entries: the solution if there is one, and a residual which vanishes for solutions only *)
Definition solves (lstsq : list pt -> pt -> list Q * option Q) (D : nat) (cols : list pt) : Prop :=
  forall b, length b = D -> let '(x, r) := lstsq cols b in
    length x = length cols /\ (r = None -> combines cols x b) /\ (forall q, r = Some q -> (q == 0 <-> combines cols x b)) /\
    (forall y, length y = length cols -> combines cols y b -> Forall2 Qeq x y).

Section Mesh.
  Variable vertices : list pt.
  Variable groups : list (list (list nat)).
  (** the vertices of an element, in the global numbering *)
  Definition corners (e : nat) (pts : list pt) : Prop := exists row, nth_error (concat groups) e = Some row /\ Forall2 (fun i p => nth_error vertices i = Some p) row pts.
  (** a vertex of element e lies in element e' *)
  Definition vertex_in (e e' : nat) : Prop := exists pts pts' v, corners e pts /\ In v pts /\ corners e' pts' /\ in_hull pts' v.
  (** the neighbors of an element according to the mesh *)
  Definition neighbor (starts neighbors : list nat) (e e' : nat) : Prop :=
    exists a b k, nth_error starts e = Some a /\ nth_error starts (e + 1) = Some b /\ a <= k < b /\ nth_error neighbors k = Some e'.
  (** the number of an element given by group and position *)
  Definition numbered (igrp iel e : nat) : Prop := exists g row, nth_error groups igrp = Some g /\ nth_error g iel = Some row /\ e = length (concat (firstn igrp groups)) + iel.
End Mesh.
