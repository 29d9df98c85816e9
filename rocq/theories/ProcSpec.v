(** * ProcSpec: vocabulary for the statements about mesh processing. *)
From Coq Require Import List Arith ZArith Sorting.Sorted.
From Verif Require Import Np MeshModel MeshSpec MeshStateModel Lin.
Import ListNotations.

(** All elements of a mesh in mesh-wide order, as (vertex numbers, nodes); meaningful if every group
    has vertex numbers ([has_rows]). *)
Definition elements {E} (groups : list (egroup E)) : list (list nat * E) :=
  concat (map (fun g => match eg_vi g with Some vi => combine vi (eg_nodes g) | None => [] end) groups).

Definition nelem {E A V} (m : mesh E A V) : nat := sum (map nelements (m_groups m)).
Definition nvert {E A V} (m : mesh E A V) : nat := match m_vertices m with Some vs => length vs | None => 0 end.

(** [m] is the disjoint union of [ms]. *)
Record disjoint_union {E A V} (ms : list (mesh E A V)) (m : mesh E A V) : Prop := {
  du_rows : has_rows (m_groups m);
  du_nelem : nelem m = sum (map nelem ms);
  du_nvert : nvert m = sum (map nvert ms);
  (* element [e] of mesh [k] has number [e] plus the number of elements of earlier meshes *)
  du_elem : forall k mk e row x, nth_error ms k = Some mk ->
    nth_error (elements (m_groups mk)) e = Some (row, x) ->
    nth_error (elements (m_groups m)) (base (map nelem ms) k + e) =
      Some (map (fun v => v + base (map nvert ms) k) row, x);
  (* a vertex number of mesh [k] refers to the same vertex after adding the number of vertices of earlier meshes *)
  du_vert : forall k mk vsk vs v x, nth_error ms k = Some mk -> m_vertices mk = Some vsk -> m_vertices m = Some vs ->
    nth_error vsk v = Some x -> nth_error vs (v + base (map nvert ms) k) = Some x
}.

(** [sub] and [groups'] are a splitting of [groups] according to [flags]. *)
Record splitting {E} (groups : list (egroup E)) (flags : list Z) (groups' : list (egroup E))
    (sub : list ((nat * Z) * nat)) : Prop := {
  (* the new groups are exactly the values of the mapping, each once *)
  sp_values : map snd sub = seq 0 (length groups');
  sp_keys : NoDup (map fst sub);
  (* the new group of (g, flag) has exactly the elements of group g with this flag, in order *)
  sp_group : forall g flag n, In ((g, flag), n) sub ->
    exists grp vi grp' idx, nth_error groups g = Some grp /\ eg_vi grp = Some vi /\
      nth_error groups' n = Some grp' /\ idx <> [] /\ StronglySorted lt idx /\
      (forall i, In i idx <-> i < nelements grp /\ nth_error flags (base (map nelements groups) g + i) = Some flag) /\
      (exists vi', eg_vi grp' = Some vi' /\ Forall2 (fun i row => nth_error vi i = Some row) idx vi') /\
      Forall2 (fun i x => nth_error (eg_nodes grp) i = Some x) idx (eg_nodes grp') /\
      eg_fvi grp' = eg_fvi grp;
  (* every element is in one of them *)
  sp_all : forall g grp i, nth_error groups g = Some grp -> i < nelements grp ->
    exists flag n, nth_error flags (base (map nelements groups) g + i) = Some flag /\ In ((g, flag), n) sub
}.

(** [m'] is [m] without the vertices no element refers to; [old] lists the original numbers. *)
Record without_unused {E A V} (m m' : mesh E A V) (old : list nat) : Prop := {
  wu_sorted : StronglySorted lt old;
  wu_used : forall v, In v old <-> exists e row, elem_row (m_groups m) e row /\ In v row;
  wu_vertices : exists vs vs', m_vertices m = Some vs /\ m_vertices m' = Some vs' /\
    Forall2 (fun v x => nth_error vs v = Some x) old vs';
  wu_groups : Forall2 (fun g g' => eg_nodes g' = eg_nodes g /\ eg_fvi g' = eg_fvi g /\
      exists vi vi', eg_vi g = Some vi /\ eg_vi g' = Some vi' /\
        Forall2 (Forall2 (fun v v' => nth_error old v' = Some v)) vi vi') (m_groups m) (m_groups m');
  wu_rest : m_conforming m' = m_conforming m /\ m_nodal m' = m_nodal m /\ m_facial m' = m_facial m
}.

(** A vertex permutation that is its own inverse. *)
Definition involutive (perm : list nat) : Prop :=
  forall j p, nth_error perm j = Some p -> nth_error perm p = Some j.

(** (row', x') is the element (row, x) with vertex [j] moved to position [perm j] and the nodes
    multiplied by [M]. *)
Definition flipped (R : cring) (M : list (list R)) (perm row : list nat) (x : list (list R))
    (row' : list nat) (x' : list (list R)) : Prop :=
  length row' = length row /\
  (forall j p, nth_error perm j = Some p -> nth_error row' p = nth_error row j) /\
  x' = map (matvec M) x.

(** Data of element [i] of group [g]. *)
Definition elem_at {E} (groups : list (egroup E)) (g i : nat) (row : list nat) (x : E) : Prop :=
  exists grp vi, nth_error groups g = Some grp /\ eg_vi grp = Some vi /\
    nth_error vi i = Some row /\ nth_error (eg_nodes grp) i = Some x.

(** The groups consist of [d]-simplices with vertices among [nv] given ones. *)
Definition simplices {E} (d nv : nat) (groups : list (egroup E)) : Prop :=
  has_rows groups /\
  forall g i row x, elem_at groups g i row x -> length row = d + 1 /\ Forall (fun v => v < nv) row.

(** Determinant by expansion along the first row. *)
Fixpoint drop_col {X} (j : nat) (l : list X) : list X :=
  match j, l with
  | 0, _ :: l => l
  | S j, x :: l => x :: drop_col j l
  | _, [] => []
  end.
Fixpoint det (R : cring) (n : nat) (M : list (list R)) : R :=
  match n, M with
  | S n, row :: M =>
      let fix go (j : nat) (sign : R) (r : list R) : R :=
        match r with
        | [] => r0
        | a :: r => radd (rmul (rmul sign a) (det R n (map (drop_col j) M))) (go (S j) (ropp sign) r)
        end in go 0 r1 row
  | _, _ => r1
  end.

(** [a] is the map of an adjacency group to its neighbors *)
Definition attached {A} (b : fagrp A) (a : A) : Prop :=
  match b with Interior _ _ _ a' => a' = a | InterPart _ _ _ _ a' => a' = a | Boundary _ _ _ => False end.
