(** * LawsSpec: what the laws of C223-C235 speak about. *)
From Coq Require Import List Arith Bool.
From Verif Require Import Np MeshModel MeshSpec MeshStateModel Lin ProcSpec AffineModel AffineSpec RefineModel.
Import ListNotations.

Section Unused.
  Context {E A V : Type}.
  Notation meshT := (mesh E A V).
  (** every vertex belongs to an element *)
  Definition all_used (m : meshT) : Prop :=
    exists vs, m_vertices m = Some vs /\ forall v, v < length vs -> exists e row, elem_row (m_groups m) e row /\ In v row.
  Definition removable (m : meshT) : Prop :=
    exists vs, m_vertices m = Some vs /\ m_groups m <> [] /\ has_rows (m_groups m) /\ rows_in_range (length vs) (m_groups m).
  Definition same_mesh (m m' : meshT) : Prop :=
    m_groups m' = m_groups m /\ m_vertices m' = m_vertices m /\ m_conforming m' = m_conforming m /\ m_nodal m' = m_nodal m /\ m_facial m' = m_facial m.
  (** a group with elements *)
  Definition nonempty (g : egroup E) : bool := negb (nelements g =? 0).
End Unused.

Section Affine.
  Context {R : cring}.
  Notation meshT := (mesh (list (list R)) (amap R) (list R)).
  (** the same vertices, elements and nodes *)
  Definition same_points (m m' : meshT) : Prop := m_groups m' = m_groups m /\ m_vertices m' = m_vertices m.
  (** the facial adjacency can be computed or is there, with affine maps of the ambient dimension *)
  Definition wf_maps (d : nat) (m : meshT) : Prop := m_facial m <> Unavailable /\ forall fags, m_facial m = Available fags -> Forall (Forall (fagrp_all (amap_wf d))) fags.
End Affine.

(** A child of an element has at most one corner of the element among the ends of each of its edges. *)
Definition one_corner (ts : tess) : Prop :=
  forall c a b ra rb, In c (ts_children ts) -> In (a, b) (ts_pairs ts) -> nth_error c a = Some ra -> nth_error c b = Some rb -> ~ (In ra (ts_orig ts) /\ In rb (ts_orig ts)).

(** The adjacency of a group after all elements of the mesh went to the same part: interior groups that list a face, and then the boundary groups *)
Definition one_part {A} (l : list (fagrp A)) : list (fagrp A) :=
  filter (fun b => match b with Interior _ _ (_ :: _) _ => true | _ => false end) l ++
  flat_map (fun b => match b with Interior _ _ _ _ => [] | Boundary g t fs => [Boundary g t fs] | InterPart g t _ es _ => [Boundary g t (map fst es)] end) l.

(** The elements of a mesh with the positions of their vertices and their nodes *)
Definition points {E V : Type} (vs : list V) (groups : list (egroup E)) : list (list (option V) * E) :=
  map (fun rx => (map (nth_error vs) (fst rx), snd rx)) (elements groups).

(** The mesh with [f] applied to the nodes of every element and [h] to every vertex *)
Definition map_group {E E' : Type} (f : E -> E') (g : egroup E) : egroup E' := mk_egroup (eg_vi g) (map f (eg_nodes g)) (eg_fvi g).
Definition map_points {E E' A V V' : Type} (f : E -> E') (h : V -> V') (m : mesh E A V) : mesh E' A V' :=
  mk_mesh (map (map_group f) (m_groups m)) (option_map (map h) (m_vertices m)) (m_conforming m) (m_nodal m) (m_facial m) (m_vdtype m) (m_edtype m) (m_fdtype m).
