(** * MeshStateModel: Mesh objects with lazily computed adjacency.

    Models make_mesh (meshmode/mesh/__init__.py:979-1130), the adjacency properties
    of Mesh (:1399-1493), Mesh.copy (:1322-1345), Mesh.__eq__ (:1496-1523) and the
    mesh recreated by running the output of as_python (:2007-2111).

    Simplified: the consistency checks of make_mesh and force_positive_orientation
    are left out (skip_tests=True, force_positive_orientation=False); integer
    dtypes are opaque codes; the order, class and unit nodes of element groups are
    not represented.  No proofs in this file. *)
From Coq Require Import List Arith Bool ZArith.
From Verif Require Import Np MeshModel.
Import ListNotations.

(** A cached attribute: False (unavailable), None (to be computed), or a value. *)
Inductive lazyf (X : Type) : Type :=
| Unavailable
| Pending
| Available (x : X).
Arguments Unavailable {X}.
Arguments Pending {X}.
Arguments Available {X} x.

(** neighbors_starts, neighbors *)
Definition nadj : Type := (list nat * list nat)%type.

Record mesh (E A V : Type) : Type := mk_mesh {
  m_groups : list (egroup E);
  m_vertices : option (list V);
  m_conforming : option bool;              (* is_conforming: True, False or None *)
  m_nodal : lazyf nadj;                    (* _nodal_adjacency *)
  m_facial : lazyf (list (list (fagrp A)));(* _facial_adjacency_groups *)
  m_vdtype : nat; m_edtype : nat; m_fdtype : nat
}.
Arguments mk_mesh {E A V}.
Arguments m_groups {E A V}. Arguments m_vertices {E A V}. Arguments m_conforming {E A V}.
Arguments m_nodal {E A V}. Arguments m_facial {E A V}.
Arguments m_vdtype {E A V}. Arguments m_edtype {E A V}. Arguments m_fdtype {E A V}.

Definition truthy (b : option bool) : bool := match b with Some true => true | _ => false end.

(** if not is_conforming: if adjacency is None: adjacency = False (:1075-1080) *)
Definition none_to_false {X} (conforming : bool) (f : lazyf X) : lazyf X :=
  match f with
  | Pending => if conforming then Pending else Unavailable
  | Unavailable => Unavailable
  | Available x => Available x
  end.

Section MeshState.
  Context {E A V : Type}.
  Variable ord : list nat -> list nat.             (* iteration order of a set of ints *)
  Variable aff_id : A.                             (* AffineMap() *)
  Variable tag_order : list btag -> list btag.

  (** make_mesh (:1034-1100) *)
  Definition make_mesh (vertices : option (list V)) (groups : list (egroup E))
      (nodal : lazyf nadj) (facial : lazyf (list (list (fagrp A)))) (conforming : option bool)
      (vd ed fd : nat) : res (mesh E A V) :=
    let conforming := match vertices with None => None | Some _ => conforming end in
    let nodal := none_to_false (truthy conforming) nodal in
    let facial := none_to_false (truthy conforming) facial in
    facial <- match facial with
              | Available f => f' <- complete_facial_adjacency f ;; Ok (Available f')
              | Unavailable => Ok Unavailable
              | Pending => Ok Pending
              end ;;
    Ok (mk_mesh groups vertices conforming nodal facial vd ed fd).

  (** _compute_nodal_adjacency_from_vertices(self): nvertices from self.vertices *)
  Definition nodal_from_vertices (m : mesh E A V) : res nadj :=
    match m_vertices m with
    | None => Err ValueError
    | Some vs => compute_nodal_adjacency ord (Some (length vs)) (m_groups m)
    end.

  Definition facial_from_vertices (m : mesh E A V) : res (list (list (fagrp A))) :=
    compute_facial_adjacency aff_id tag_order None (m_groups m).

  (** A mesh object together with the number of times each adjacency was computed. *)
  Definition mstate : Type := (mesh E A V * (nat * nat))%type.

  (** Mesh.nodal_adjacency (:1399-1422) *)
  Definition get_nodal (s : mstate) : res nadj * mstate :=
    let '(m, (cn, cf)) := s in
    match m_nodal m with
    | Unavailable => (Err DataUnavailableError, s)
    | Available x => (Ok x, s)
    | Pending =>
        if negb (truthy (m_conforming m)) then (Err DataUnavailableError, s)
        else match nodal_from_vertices m with
             | Err e => (Err e, (m, (S cn, cf)))
             | Ok x => (Ok x, (mk_mesh (m_groups m) (m_vertices m) (m_conforming m) (Available x) (m_facial m)
                                       (m_vdtype m) (m_edtype m) (m_fdtype m), (S cn, cf)))
             end
    end.

  (** Mesh.facial_adjacency_groups (:1425-1493) *)
  Definition get_facial (s : mstate) : res (list (list (fagrp A))) * mstate :=
    let '(m, (cn, cf)) := s in
    match m_facial m with
    | Unavailable => (Err DataUnavailableError, s)
    | Available x => (Ok x, s)
    | Pending =>
        if negb (truthy (m_conforming m)) then (Err DataUnavailableError, s)
        else match facial_from_vertices m with
             | Err e => (Err e, (m, (cn, S cf)))
             | Ok x => (Ok x, (mk_mesh (m_groups m) (m_vertices m) (m_conforming m) (m_nodal m) (Available x)
                                       (m_vdtype m) (m_edtype m) (m_fdtype m), (cn, S cf)))
             end
    end.

  (** Read-only queries; the last three go through Mesh.facial_adjacency_groups. *)
  Inductive query : Type :=
  | QNodal | QFacial
  | QHasBoundary (t : btag) | QTagEmpty (t : btag)
  | QCheckBC (tags : list btag) (incomplete_ok true_only : bool).

  Inductive answer : Type :=
  | ANodal (r : res nadj) | AFacial (r : res (list (list (fagrp A))))
  | ABool (r : res bool) | AUnit (r : res unit).

  Definition ask (q : query) (s : mstate) : answer * mstate :=
    match q with
    | QNodal => let '(r, s') := get_nodal s in (ANodal r, s')
    | QFacial => let '(r, s') := get_facial s in (AFacial r, s')
    | QHasBoundary t =>
        let '(r, s') := get_facial s in (ABool (f <- r ;; Ok (mesh_has_boundary f t)), s')
    | QTagEmpty t =>
        let '(r, s') := get_facial s in
        (ABool (f <- r ;; is_boundary_tag_empty (m_groups (fst s)) f t), s')
    | QCheckBC tags io tr =>
        match tags, m_groups (fst s) with
        | [], [] => (AUnit (Ok tt), s)        (* neither loop runs *)
        | _, _ =>
            let '(r, s') := get_facial s in
            (AUnit (f <- r ;; check_bc_coverage (m_groups (fst s)) f tags io tr), s')
        end
    end.

  Fixpoint ask_all (qs : list query) (s : mstate) : list answer * mstate :=
    match qs with
    | [] => ([], s)
    | q :: qs' =>
        let '(a, s1) := ask q s in
        let '(l, s2) := ask_all qs' s1 in (a :: l, s2)
    end.

  (** Mesh.copy(groups=..., vertices=...) (:1322-1345): dataclasses.replace takes every other
      field, including the cached ones, from self. *)
  Definition copy_with (groups : option (list (egroup E))) (vertices : option (option (list V)))
      (m : mesh E A V) : mesh E A V :=
    mk_mesh (match groups with Some g => g | None => m_groups m end)
            (match vertices with Some v => v | None => m_vertices m end)
            (m_conforming m) (m_nodal m) (m_facial m) (m_vdtype m) (m_edtype m) (m_fdtype m).

  (** Mesh.__eq__ (:1517-1523); groups, arrays and affine maps are compared as values.
      face_id_dtype is not compared. *)
  Definition mesh_eq (m1 m2 : mesh E A V) : Prop :=
    m_vertices m1 = m_vertices m2 /\ m_groups m1 = m_groups m2 /\
    m_vdtype m1 = m_vdtype m2 /\ m_edtype m1 = m_edtype m2 /\
    m_nodal m1 = m_nodal m2 /\ m_facial m1 = m_facial m2 /\ m_conforming m1 = m_conforming m2.

  (** as_python (:2032-2111): the tag names the generated snippet can resolve, since it imports
      just BTAG_NONE, BTAG_ALL and BTAG_REALLY_ALL (:2042-2053).  A string tag is written without quotes
      (:2010-2011), so it is a name too. *)
  Definition importable (t : btag) : bool :=
    match t with TNone | TAll | TReallyAll => true | _ => false end.

  (** The result of calling the function defined by the snippet: make_mesh with the listed
      arguments (:2089-2107); face_id_dtype is not among them, so it is the default. *)
  Definition run_as_python (default_fdtype : nat) (m : mesh E A V) : res (mesh E A V) :=
    _ <- match m_facial m with
         | Available f =>
             guard (forallb (fun l => forallb (fun b => match bdry_tag b with
                                                        | Some t => importable t
                                                        | None => true end) l) f) NameError
         | _ => Ok tt
         end ;;
    make_mesh (m_vertices m) (m_groups m) (m_nodal m) (m_facial m) (m_conforming m)
              (m_vdtype m) (m_edtype m) default_fdtype.
End MeshState.
