(** * FdConnSpec: vocabulary for the statements about exports and connections to Firedrake. *)
From Coq Require Import List Arith Bool ZArith Permutation Sorted.
From Verif Require Import Np MeshModel MeshSpec MeshStateModel Lin ProcModel FdConnModel.
Import ListNotations.

(** Point [p] has barycentric coordinate [w] with respect to vertex [v] of the cell with the vertices [row]. *)
Definition weight {R : cring} (row : list nat) (p : list R) (v : nat) (w : R) : Prop :=
  exists i, nth_error row i = Some v /\ nth_error p i = Some w.

(** The same point of the same simplex, with two orders of the vertices *)
Definition same_place {R : cring} (row : list nat) (p : list R) (row' : list nat) (p' : list R) : Prop :=
  forall v w, weight row p v w <-> weight row' p' v w.

(** Reference nodes: distinct, and any rearrangement of the coordinates of a node is a node. *)
Definition symmetric {R : cring} (d : nat) (nodes : list (list R)) : Prop :=
  NoDup nodes /\ (forall p, In p nodes -> length p = d + 1) /\
  (forall p q, In p nodes -> Permutation p q -> In q nodes).

(** The matrices of modepy resample exactly: if a new node is an old one, its row is a unit vector. *)
Definition interpolates {R : cring} (resampling : list (list R) -> list (list R) -> list (list R)) (nodes : list (list R)) : Prop :=
  forall new, length (resampling new nodes) = length new /\
    forall k j p, nth_error new k = Some p -> nth_error nodes j = Some p ->
      nth_error (resampling new nodes) k = Some (unitv (length nodes) j).

(** Rounding to integers and back *)
Definition rounds {R : cring} (rint : R -> Z) (inj : Z -> R) : Prop :=
  rint r0 = 0%Z /\ rint r1 = 1%Z /\ inj 0%Z = r0 /\ inj 1%Z = r1.

(** The numbers of the vertices of Firedrake cell [c], in the order of Firedrake. *)
Definition fx_row (fx : fdexport) (c : nat) (row : list nat) : Prop :=
  exists ids, nth_error (fx_closure fx) c = Some ids /\
    row = map (fun x => x - fst (fx_vrange fx)) (filter (fun x => (fst (fx_vrange fx) <=? x) && (x <? snd (fx_vrange fx))) ids).

(** Firedrake keeps all cells, with their vertices in any order, and numbers [n] nodes per cell. *)
Definition proper_fx (n : nat) (cells : list (list nat)) (fx : fdexport) : Prop :=
  length (fx_cells fx) = length cells /\ NoDup (fx_cells fx) /\
  forall e c row, nth_error (fx_cells fx) e = Some c -> nth_error cells e = Some row ->
    (exists frow, fx_row fx c frow /\ Permutation frow row) /\
    (exists ns, nth_error (fx_cell_nodes fx) c = Some ns /\ length ns = n /\ Forall (fun k => k < fx_nnodes fx) ns).

(** [old]: the vertices in use, in ascending order; the Firedrake vertex [k] is vertex [old[k]] of the mesh. *)
Definition used_vertices (rows : list (list nat)) (old : list nat) : Prop :=
  StronglySorted lt old /\ forall v, In v old <-> In v (concat rows).

(** Point [j] of an element whose nodes are given by axes *)
Definition node_at {R : cring} (x : list (list R)) (j : nat) (pt : list R) : Prop :=
  Forall2 (fun axis c => nth_error axis j = Some c) x pt.

(** Matrices that undo each other on vectors of length [n] *)
Definition undoes {R : cring} (n : nat) (a b : list (list R)) : Prop :=
  length b = n /\ forall v, length v = n -> matvec a (matvec b v) = v.

(** Firedrake node [nd] is a node of the cell made of some element, and [pt] is the point of that element (whose
    resampled nodes are in [xs]) at the same place.  [rows]: vertices of the elements, [nodes]: reference nodes. *)
Definition exported_point {R : cring} (fx : fdexport) (rows : list (list nat)) (old : list nat) (nodes : list (list R))
    (xs : list (list (list R))) (nd : nat) (pt : list R) : Prop :=
  exists e c row frow orow ns k p j q x,
    nth_error (fx_cells fx) e = Some c /\ nth_error rows e = Some row /\ fx_row fx c frow /\ Forall2 (fun v w => nth_error old v = Some w) frow orow /\
    nth_error (fx_cell_nodes fx) c = Some ns /\ nth_error ns k = Some nd /\ nth_error nodes k = Some p /\
    nth_error nodes j = Some q /\ same_place orow p row q /\ nth_error xs e = Some x /\ node_at x j pt.

(** A node mapping: [n] distinct Firedrake nodes below [nnodes] for every element *)
Definition proper_mapping (n nnodes : nat) (mapping : list (list nat)) : Prop :=
  Forall (fun row => length row = n) mapping /\ NoDup (concat mapping) /\ Forall (fun k => k < nnodes) (concat mapping).

(** Values of a group: [ne] elements with [n] values each *)
Definition group_shape {R : cring} (ne n : nat) (x : list (list R)) : Prop := length x = ne /\ Forall (fun v => length v = n) x.

(** The DOFArrays of a field and its shape; fields other than DOFArrays have at least one axis *)
Definition field_comps {R : cring} (u : mfield R) : list (list (list (list R))) := match u with FDof _ a => [a] | FObj _ _ cs => cs end.
Definition field_shape {R : cring} (u : mfield R) : list nat := match u with FDof _ _ => [] | FObj _ s _ => s end.
Definition proper_field {R : cring} (u : mfield R) : Prop := match u with FDof _ _ => True | FObj _ s _ => s <> [] end.
Definition proper_function {R : cring} (f : ffunction R) : Prop := ff_shape R f = [] -> length (ff_data R f) = 1.

(** [solve] is right on [d] by [d] matrices: a solution solves the equation. *)
Definition right_solver {R : cring} (d : nat) (solve : list (list R) -> list (list R) -> res (list (list R))) : Prop :=
  forall a b x, is_mat d d a -> is_mat d d b -> solve a b = Ok x -> is_mat d d x /\ matmul d a x = b.

(** A mesh, the number of a group, the group [g] with vertices [rows], all of whose elements are [d]-simplices; [old]
    are the vertices in use, [cells] and [coords] what is handed to Firedrake. *)
Definition can_export {R : cring} {A V : Type} (simplex : nat -> bool) (d : nat) (m : mesh (enodes R) A V) (group_nr : option Z)
    (g : egroup (enodes R)) (rows : list (list nat)) (old : list nat) (cells : list (list nat)) (coords : list V) : Prop :=
  exists nr vs,
    match group_nr with None => nr = 0 /\ length (m_groups m) = 1 | Some z => z = Z.of_nat nr end /\
    nth_error (m_groups m) nr = Some g /\ simplex nr = true /\ m_vertices m = Some vs /\
    m_conforming m = Some true /\ eg_vi g = Some rows /\ rows <> [] /\
    Forall (fun row => length row = d + 1 /\ NoDup row) rows /\ length (eg_nodes g) = length rows /\
    used_vertices rows old /\ Forall2 (Forall2 (fun v w => nth_error old v = Some w)) cells rows /\
    Forall2 (fun v x => nth_error vs v = Some x) old coords.

(** Element [e] is in the list of permutation [p] of perm2cell. *)
Definition in_list (perms : list (list nat * list nat)) (p : list nat) (e : nat) : Prop := exists cs, In (p, cs) perms /\ In e cs.

(** [orow]: the vertices of Firedrake cell [c] in the order of Firedrake, by their numbers in the mesh *)
Definition fd_vertices (fx : fdexport) (old : list nat) (c : nat) (orow : list nat) : Prop :=
  exists frow, fx_row fx c frow /\ Forall2 (fun v w => nth_error old v = Some w) frow orow.
