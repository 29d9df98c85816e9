(** * VisSpec: what a visualization file should contain. *)
From Coq Require Import List Arith Bool.
From Verif Require Import Np VisModel.
Import ListNotations.

(** The values of a DOF array: for each group, for each element, the values at the nodes of the element. *)
Definition dofs (A : Type) : Type := list (list (list A)).
(** flatten(): all values one after the other *)
Definition flat {A} (d : dofs A) : list A := concat (map (@concat A) d).
Definition shaped {A} (groups : list visgrp) (d : dofs A) : Prop :=
  Forall2 (fun g dg => length dg = vg_nel g /\ Forall (fun x => length x = vg_nunit g) dg) groups d.

(** Reading a file: cell k has the points connectivity[offsets[k]:offsets[k+1]]. *)
Definition read_cells {A} (vals : list A) (conn offs : list nat) : res (list (list A)) :=
  mapM (fun lh : nat * nat => take vals (slice conn (fst lh) (snd lh))) (combine offs (tl offs)).

(** The values at the points of the subelements [el] of all elements of a group *)
Definition group_cells {A} (el : list (list nat)) (dg : list (list A)) : res (list (list A)) :=
  r <- mapM (fun x => mapM (take x) el) dg ;; Ok (concat r).
(** ... of all groups; [els] has the subelements for each group *)
Definition all_cells {A} (els : list (list (list nat))) (d : dofs A) : res (list (list A)) :=
  r <- mapM (fun ed : list (list nat) * list (list A) => group_cells (fst ed) (snd ed)) (combine els d) ;; Ok (concat r).

(** All node tuples of a grid with k cells in each of d directions, in any order *)
Definition grid_tuples (d k : nat) (nts : list (list nat)) : Prop :=
  NoDup nts /\ forall t, In t nts <-> length t = d /\ Forall (fun x => x <= k) t.
(** The corners of a line, quadrilateral and hexahedron in the order of VTK: a quadrilateral goes around counterclockwise (the second edge
    backwards), a hexahedron is a quadrilateral followed by the one above it. *)
Definition vtk_corners (d : nat) : list (list nat) :=
  let line := [[0]; [1]] in
  let quad := map (fun c => c ++ [0]) line ++ map (fun c => c ++ [1]) (rev line) in
  match d with
  | 1 => line
  | 2 => quad
  | 3 => map (fun c => c ++ [0]) quad ++ map (fun c => c ++ [1]) quad
  | _ => []
  end.
(** [el] are the numbers of the corners of the cell with lowest corner [o] *)
Definition vtk_cell (nts : list (list nat)) (d : nat) (o : list nat) (el : list nat) : Prop :=
  Forall2 (fun i c => exists t, nth_error nts i = Some t /\ length t = d /\
             forall j x y, nth_error o j = Some x -> nth_error c j = Some y -> nth_error t j = Some (x + y)) el (vtk_corners d).
