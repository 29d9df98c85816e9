(** * MeshStateSpec: what an adjacency query should answer, as a function of the mesh alone. *)
From Coq Require Import List Arith Bool.
From Verif Require Import Np MeshModel MeshStateModel.
Import ListNotations.

(** Supplied adjacency, else computed if the mesh is known to be conforming, else unavailable. *)
Definition lazy_answer {X} (field : lazyf X) (conforming : option bool) (compute : res X) : res X :=
  match field, conforming with
  | Available x, _ => Ok x
  | Pending, Some true => compute
  | _, _ => Err DataUnavailableError
  end.

(** The answer to each query on a mesh nobody has asked anything yet. *)
Definition fresh_answer {E A V} (ord : list nat -> list nat) (aff_id : A) (tag_order : list btag -> list btag)
    (m : mesh E A V) (q : query) : answer (A:=A) :=
  let nodal := lazy_answer (m_nodal m) (m_conforming m) (nodal_from_vertices ord m) in
  let facial := lazy_answer (m_facial m) (m_conforming m) (compute_facial_adjacency aff_id tag_order None (m_groups m)) in
  match q with
  | QNodal => ANodal nodal
  | QFacial => AFacial facial
  | QHasBoundary t => ABool (f <- facial ;; Ok (mesh_has_boundary f t))
  | QTagEmpty t => ABool (f <- facial ;; is_boundary_tag_empty (m_groups m) f t)
  | QCheckBC tags io tr =>
      AUnit (match tags, m_groups m with
             | [], [] => Ok tt
             | _, _ => f <- facial ;; check_bc_coverage (m_groups m) f tags io tr
             end)
  end.
