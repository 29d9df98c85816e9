(** * ConsistModel: the consistency checks of make_mesh and Mesh.copy, and is_affine.

    Models check_mesh_consistency and is_mesh_consistent
    (meshmode/mesh/__init__.py:805-976), the node-vertex test
    (:1535-1607), find_volume_mesh_element_orientations
    (meshmode/mesh/processing.py:576-678) as the check calls it, and
    is_affine_simplex_group (mesh/__init__.py:2238-2278).

    A floating-point number is [option R]: [None] is NaN, [Some x] a number of an
    ordered ring computed without rounding (infinities do not occur).  An integer
    array is its shape, its dtype (a code) and its entries.

    Simplified: the resampling matrix to the vertices, the indices of the vertices at
    (-1,...,-1) and -1 + 2 e_i and the matrices of is_affine_simplex_group come from
    modepy and are arguments; numpy broadcasting of axes of length 1 is a ValueError
    here; warnings are dropped; the dimension is at most 3; vertex indices are not
    negative.  No proofs in this file. *)
From Coq Require Import List Arith Bool ZArith.
From Verif Require Import Np MeshModel MeshStateModel ProcModel AffineModel Lin Ord.
Import ListNotations.

(** ** Floating-point numbers with NaN *)
Section Float.
  Variable R : ocring.
  Definition fl : Type := option R.
  Definition fl2 (f : R -> R -> R) (a b : fl) : fl :=
    match a, b with Some x, Some y => Some (f x y) | _, _ => None end.
  Definition fladd : fl -> fl -> fl := fl2 (fun x y => radd x y).
  Definition flmul : fl -> fl -> fl := fl2 (fun x y => rmul x y).
  Definition flsub : fl -> fl -> fl := fl2 (fun x y => rsub x y).
  Definition rabs (x : R) : R := if ole r0 x then x else ropp x.
  Definition flabs (a : fl) : fl := match a with Some x => Some (rabs x) | None => None end.
  Definition rmax (x y : R) : R := if ole x y then y else x.
  (** np.maximum propagates NaN *)
  Definition flmax2 : fl -> fl -> fl := fl2 rmax.
  (** np.max over an axis; an empty axis has no maximum *)
  Definition flmax (l : list fl) : res fl :=
    match l with [] => Err ValueError | x :: l' => Ok (fold_left flmax2 l' x) end.
  (** comparisons with NaN are False *)
  Definition fl_ge (a b : fl) : bool := match a, b with Some x, Some y => ole y x | _, _ => false end.
  Definition fl_gt (a b : fl) : bool := match a, b with Some x, Some y => olt y x | _, _ => false end.
  Definition fldot (u v : list fl) : fl := fold_right fladd (Some r0) (map2 flmul u v).
End Float.
Arguments fl R : clear implicits.
Arguments fl2 {R}. Arguments fladd {R}. Arguments flmul {R}. Arguments flsub {R}. Arguments rabs {R}.
Arguments flabs {R}. Arguments rmax {R}. Arguments flmax2 {R}. Arguments flmax {R}. Arguments fl_ge {R}.
Arguments fl_gt {R}. Arguments fldot {R}.

(** ** Integer arrays: shape, dtype and entries in C order *)
Record iarr : Type := mk_iarr { ia_shape : list nat; ia_dtype : nat; ia_data : list Z }.

Definition list_nat_eqb (a b : list nat) : bool := (length a =? length b) && forallb (fun p => fst p =? snd p) (combine a b).
Definition shape_is (a : iarr) (s : list nat) : bool := list_nat_eqb (ia_shape a) s.

(** FacialAdjacencyGroup and its subclasses (mesh/__init__.py:499-790) *)
Inductive cfagrp : Type :=
| CInterior (igroup ineighbor : nat) (elements element_faces neighbors neighbor_faces : iarr)
| CBoundary (igroup : nat) (t : btag) (elements element_faces : iarr)
| CInterPart (igroup : nat) (t : btag) (part : nat) (elements element_faces neighbors neighbor_faces : iarr).
Definition cf_elements (f : cfagrp) : iarr :=
  match f with CInterior _ _ e _ _ _ => e | CBoundary _ _ e _ => e | CInterPart _ _ _ e _ _ _ => e end.
Definition cf_element_faces (f : cfagrp) : iarr :=
  match f with CInterior _ _ _ x _ _ => x | CBoundary _ _ _ x => x | CInterPart _ _ _ _ x _ _ => x end.

(** An element group: [egroup] with the coordinates of the nodes of each element (one row
    per axis), the dtype of vertex_indices and what is needed to tell the classes apart. *)
Record cgroup (R : ocring) : Type := mk_cgroup {
  cg_eg : egroup (list (list (fl R)));
  cg_vidtype : nat;
  cg_modepy : bool;          (* isinstance(grp, ModepyElementGroup) *)
  cg_simplex : bool;         (* isinstance(grp, SimplexElementGroup) *)
  cg_dim : nat;
  cg_ambient : nat           (* nodes.shape[0] *)
}.
Arguments mk_cgroup {R}. Arguments cg_eg {R}. Arguments cg_vidtype {R}. Arguments cg_modepy {R}.
Arguments cg_simplex {R}. Arguments cg_dim {R}. Arguments cg_ambient {R}.

Record cmesh (R : ocring) : Type := mk_cmesh {
  cm_groups : list (cgroup R);
  cm_vertices : option (list (list (fl R)));        (* one point per vertex *)
  cm_nodal : lazyf (iarr * iarr);                   (* neighbors_starts, neighbors *)
  cm_facial : lazyf (list (list cfagrp));
  cm_vdtype : nat; cm_edtype : nat; cm_fdtype : nat
}.
Arguments mk_cmesh {R}. Arguments cm_groups {R}. Arguments cm_vertices {R}. Arguments cm_nodal {R}.
Arguments cm_facial {R}. Arguments cm_vdtype {R}. Arguments cm_edtype {R}. Arguments cm_fdtype {R}.

(** pytools.single_valued: ValueError if empty, AssertionError if not all equal *)
Definition single_valued (l : list nat) : res nat :=
  match l with
  | [] => Err ValueError
  | x :: l' => _ <- guard (forallb (Nat.eqb x) l') AssertionError ;; Ok x
  end.
(** Mesh.ambient_dim, Mesh.dim, Mesh.nelements (:1347-1371) *)
Definition ambient_dim {R} (m : cmesh R) : res nat := single_valued (map cg_ambient (cm_groups m)).
Definition mesh_dim {R} (m : cmesh R) : res nat := single_valued (map cg_dim (cm_groups m)).
Definition cm_nelements {R} (m : cmesh R) : nat := sum (map (fun g => nelements (cg_eg g)) (cm_groups m)).

(** ** Node-vertex test *)
Section NodeVertex.
  Variable R : ocring.
  (** mp.resampling_matrix(basis, mgrp.vertex_unit_coordinates().T, mgrp.unit_nodes): one row per
      vertex of the reference element *)
  Variable resampling : cgroup R -> list (list (fl R)).
  Variable default_tol : R.          (* 1e3 * eps *)

  (** one entry of einsum("ij,dej->dei", resampling_mat, mgrp.nodes) (:1549-1550) *)
  Definition fl_entry (w x : list (fl R)) : res (fl R) :=
    _ <- guard (length w =? length x) ValueError ;; Ok (fldot w x).
  (** map_vertices of one element: per axis, per vertex *)
  Definition map_vertices (P : list (list (fl R))) (nodes : list (list (fl R))) : res (list (list (fl R))) :=
    mapM (fun x => mapM (fun w => fl_entry w x) P) nodes.

  (** mesh.vertices[:, mgrp.vertex_indices] for one element: per axis, per vertex (:1552-1553).
      [d] is vertices.shape[0]. *)
  Definition grp_vertices (d : nat) (vertices : list (list (fl R))) (row : list nat) : res (list (list (fl R))) :=
    pts <- mapM (get vertices) row ;;
    mapM (fun a => mapM (fun p => get p a) pts) (seq 0 d).

  (** map_vertices - grp_vertices (:1555); the shapes have to agree *)
  Definition sub2 (a b : list (list (fl R))) : res (list (list (fl R))) :=
    _ <- guard (length a =? length b) ValueError ;;
    mapM (fun p : list (fl R) * list (fl R) =>
            _ <- guard (length (fst p) =? length (snd p)) ValueError ;; Ok (map2 flsub (fst p) (snd p)))
         (combine a b).

  (** np.max(np.max(np.abs(x), axis=-1), axis=0) for one element (:1571-1572, :1579) *)
  Definition max_abs (x : list (list (fl R))) : res (fl R) :=
    per_axis <- mapM (fun r => flmax (map flabs r)) x ;; flmax per_axis.

  (** per_element_vertex_errors and per_element_tols of one element *)
  Definition element_above_tol (P : list (list (fl R))) (d : nat) (vertices : list (list (fl R))) (tol : R)
      (row : list nat) (nodes : list (list (fl R))) : res bool :=
    mv <- map_vertices P nodes ;;
    gv <- grp_vertices d vertices row ;;
    diff <- sub2 mv gv ;;
    err <- max_abs diff ;;
    scale <- max_abs gv ;;
    Ok (fl_ge err (fladd (Some tol) (flmul (Some tol) scale))).

  (** rows of vertex_indices; vertices[:, None] broadcasts all vertices to every element *)
  Definition vi_rows (nv : nat) (g : cgroup R) : list (list nat) :=
    match eg_vi (cg_eg g) with Some vi => vi | None => map (fun _ => seq 0 nv) (eg_nodes (cg_eg g)) end.

  (** _test_group_node_vertex_consistency_resampling (:1558-1591); [d] = vertices.shape[0] *)
  Definition test_group (d : nat) (vertices : option (list (list (fl R)))) (tol : option R) (g : cgroup R) : res unit :=
    match vertices with
    | None => Ok tt
    | Some vs =>
        if nelements (cg_eg g) =? 0 then Ok tt else
        let rows := vi_rows (length vs) g in
        let tol := match tol with Some t => t | None => default_tol end in
        _ <- guard (length rows =? nelements (cg_eg g)) ValueError ;;
        above <- mapM (fun rn : list nat * list (list (fl R)) =>
                         element_above_tol (resampling g) d vs tol (fst rn) (snd rn))
                      (combine rows (eg_nodes (cg_eg g))) ;;
        if existsb (fun b => b) above then Err InconsistentVerticesError else Ok tt
    end.

  (** _test_node_vertex_consistency (:1594-1607): groups of other classes only cause a warning *)
  Definition test_node_vertex (d : nat) (tol : option R) (m : cmesh R) : res unit :=
    _ <- mapM (fun g => if cg_modepy g then test_group d (cm_vertices m) tol g else Ok tt) (cm_groups m) ;;
    Ok tt.
End NodeVertex.

(** ** Shapes and dtypes *)

(** dtype of vertex_indices (:843-852) *)
Definition check_vi_dtype {R} (m : cmesh R) : res unit :=
  _ <- mapM (fun g : cgroup R =>
               match eg_vi (cg_eg g) with
               | None => Ok tt
               | Some _ => guard (cg_vidtype g =? cm_vdtype m) InconsistentArrayDTypeError
               end) (cm_groups m) ;;
  Ok tt.

(** nodal adjacency (:854-876); None and False are falsy *)
Definition check_nodal {R} (m : cmesh R) : res unit :=
  match cm_nodal m with
  | Available (starts, nbs) =>
      _ <- guard (shape_is starts [cm_nelements m + 1]) InconsistentAdjacencyError ;;
      _ <- guard (length (ia_shape nbs) =? 1) InconsistentAdjacencyError ;;
      _ <- guard (ia_dtype starts =? cm_edtype m) InconsistentArrayDTypeError ;;
      guard (ia_dtype nbs =? cm_edtype m) InconsistentArrayDTypeError
  | _ => Ok tt
  end.

(** one facial adjacency group (:886-935) *)
Definition check_fagrp {R} (m : cmesh R) (f : cfagrp) : res unit :=
  match ia_shape (cf_elements f) with
  | [n] =>
      _ <- guard (shape_is (cf_element_faces f) [n]) InconsistentAdjacencyError ;;
      _ <- guard (ia_dtype (cf_element_faces f) =? cm_fdtype m) InconsistentArrayDTypeError ;;
      match f with
      | CInterior _ _ _ _ neighbors neighbor_faces =>
          _ <- guard (ia_dtype neighbors =? cm_edtype m) InconsistentArrayDTypeError ;;
          _ <- guard (ia_dtype neighbor_faces =? cm_fdtype m) InconsistentArrayDTypeError ;;
          _ <- guard (shape_is neighbors [n]) InconsistentAdjacencyError ;;
          guard (shape_is neighbor_faces [n]) InconsistentAdjacencyError
      | _ => Ok tt
      end
  | _ => Err InconsistentAdjacencyError
  end.

(** facial adjacency (:878-935); None, False and the empty tuple are falsy *)
Definition check_facial {R} (m : cmesh R) : res unit :=
  match cm_facial m with
  | Available ((_ :: _) as fags) =>
      _ <- guard (length fags =? length (cm_groups m)) InconsistentAdjacencyError ;;
      _ <- mapM (mapM (check_fagrp m)) fags ;; Ok tt
  | _ => Ok tt
  end.

(** ** Orientation *)
Section Orient.
  Variable R : ocring.
  (** base_vertex_index and spanning_vertex_indices of a group (processing.py:607-615) *)
  Variable span_indices : cgroup R -> nat * list nat.

  (** the coordinates of a point, if none of them is NaN *)
  Fixpoint numbers (p : list (fl R)) : option (list R) :=
    match p with
    | [] => Some []
    | Some x :: p' => match numbers p' with Some q => Some (x :: q) | None => None end
    | None :: _ => None
    end.
  Fixpoint numbers2 (ps : list (list (fl R))) : option (list (list R)) :=
    match ps with
    | [] => Some []
    | p :: ps' => match numbers p, numbers2 ps' with Some q, Some qs => Some (q :: qs) | _, _ => None end
    end.

  (** signed volume of one element (processing.py:593-643); NaN coordinates give NaN.  The
      empty wedge product of dimension 0 is a TypeError of reduce. *)
  Definition orientation_fl (bs : nat * list nat) (vertices : list (list (fl R))) (row : list nat) : res (fl R) :=
    bv <- get row (fst bs) ;; b <- get vertices bv ;;
    xs <- mapM (fun k => v <- get row k ;; get vertices v) (snd bs) ;;
    _ <- guard (negb (length (snd bs) =? 0)) TypeError ;;
    match numbers b, numbers2 xs with
    | Some b', Some xs' => o <- signed_volume R (map (fun x => vsub x b') xs') ;; Ok (Some o)
    | _, _ => Ok None
    end.

  (** find_volume_mesh_element_group_orientation (:576-645); [d] = vertices.shape[0] *)
  Definition group_orientation (d : nat) (vertices : list (list (fl R))) (g : cgroup R) : res (list (fl R)) :=
    _ <- guard (cg_modepy g) NotImplementedError ;;
    _ <- guard (d =? cg_dim g) ValueError ;;
    mapM (orientation_fl (span_indices g) vertices) (vi_rows R (length vertices) g).

  (** find_volume_mesh_element_orientations(mesh, tolerate_unimplemented_checks=True) (:648-678) *)
  Definition element_orientations (d : nat) (m : cmesh R) : res (list (fl R)) :=
    match cm_vertices m with
    | None => Err ValueError
    | Some vs =>
        per_group <- mapM (fun g =>
            match group_orientation d vs g with
            | Err NotImplementedError => Ok (map (fun _ => None) (eg_nodes (cg_eg g)))
            | Err e => Err e
            | Ok os =>
                _ <- guard (forallb (fun o : fl R => match o with Some _ => true | None => false end) os) AssertionError ;;
                (* result_grp_view[:] = signed_area_elements *)
                _ <- guard (length os =? nelements (cg_eg g)) ValueError ;;
                Ok os
            end) (cm_groups m) ;;
        Ok (concat per_group)
    end.

  (** (mesh/__init__.py:939-955) *)
  Definition check_orientation (d : nat) (m : cmesh R) : res unit :=
    dim <- mesh_dim m ;; amb <- ambient_dim m ;;
    if dim =? amb then
      os <- element_orientations d m ;;
      let valid := filter (fun o : fl R => match o with Some _ => true | None => false end) os in
      guard (forallb (fun o => fl_gt o (Some r0)) valid) InconsistentMeshError
    else Ok tt.
End Orient.

(** ** The check *)
Section Check.
  Variable R : ocring.
  Variable resampling : cgroup R -> list (list (fl R)).
  Variable span_indices : cgroup R -> nat * list nat.
  Variable default_tol : R.

  (** node_vertex_consistency_tolerance: False, None or a number *)
  Inductive tolarg : Type := TolFalse | TolNone | Tol (t : R).

  (** check_mesh_consistency (:805-955); [d] = mesh.vertices.shape[0] *)
  Definition check_mesh_consistency (d : nat) (tol : tolarg) (skip_orientation : bool) (m : cmesh R) : res unit :=
    _ <- match tol with
         | TolFalse => Ok tt
         | TolNone => test_node_vertex R resampling default_tol d None m
         | Tol t => test_node_vertex R resampling default_tol d (Some t) m
         end ;;
    _ <- check_vi_dtype m ;;
    _ <- check_nodal m ;;
    _ <- check_facial m ;;
    if skip_orientation then Ok tt else check_orientation R span_indices d m.

  (** except InconsistentMeshError: the class and its subclasses (meshmode/__init__.py:57-80) *)
  Definition is_inconsistent_error (e : exn) : bool :=
    match e with
    | InconsistentMeshError | InconsistentArrayDTypeError | InconsistentVerticesError | InconsistentAdjacencyError => true
    | _ => false
    end.

  (** is_mesh_consistent (:958-976) *)
  Definition is_mesh_consistent (d : nat) (tol : tolarg) (skip_orientation : bool) (m : cmesh R) : res bool :=
    match check_mesh_consistency d tol skip_orientation m with
    | Ok _ => Ok true
    | Err e => if is_inconsistent_error e then Ok false else Err e
    end.

  (** The end of make_mesh and Mesh.copy: the mesh is returned if the check passes (:1124-1130, :1338-1345) *)
  Definition checked (d : nat) (tol : tolarg) (skip_tests skip_orientation : bool) (m : cmesh R) : res (cmesh R) :=
    if skip_tests then Ok m else _ <- check_mesh_consistency d tol skip_orientation m ;; Ok m.
End Check.
Arguments TolFalse {R}. Arguments TolNone {R}. Arguments Tol {R}.

(** ** is_affine_simplex_group (:2238-2278) *)
Section IsAffine.
  Variable R : ocring.
  (** vinv, and the differentiation matrices of a group, one per axis *)
  Variable vinv : cgroup R -> list (list R).
  Variable diffs : cgroup R -> list (list (list R)).

  (** product(range(dim), repeat=2) without n[0] > n[1] (:2263-2267) *)
  Definition derivative_pairs (dim : nat) : list (nat * nat) :=
    filter (fun p => negb (snd p <? fst p)) (flat_map (fun i => map (pair i) (seq 0 dim)) (seq 0 dim)).

  (** vinv.dot(diff[n[0]].dot(diff[n[1]])) *)
  Definition second_derivative (g : cgroup R) (nu : nat) (p : nat * nat) : res (list (list R)) :=
    d0 <- get (diffs g) (fst p) ;; d1 <- get (diffs g) (snd p) ;;
    Ok (matmul nu (vinv g) (matmul nu d0 d1)).

  (** all entries of ddx_coeffs, in absolute value, of some elements (exact numbers) *)
  Definition ddx_coeffs (mats : list (list (list R))) (els : list (list (list R))) : list R :=
    flat_map (fun M => flat_map (fun x : list (list R) => flat_map (matvec M) x) els) mats.
  (** np.max(np.abs(.)); einsum with an empty list of matrices (dimension 0) is a ValueError *)
  Definition norm_inf (l : list R) : res R :=
    match map rabs l with [] => Err ValueError | x :: l' => Ok (fold_left rmax l' x) end.

  Definition is_affine_simplex_group (abs_tol : R) (nu : nat) (g : cgroup R) (els : list (list (list R))) : res bool :=
    _ <- guard (cg_simplex g) TypeError ;;
    match els with
    | [] => Ok true
    | e0 :: _ =>
        mats <- mapM (second_derivative g nu) (derivative_pairs (cg_dim g)) ;;
        n0 <- norm_inf (ddx_coeffs mats [e0]) ;;
        if olt abs_tol n0 then Ok false
        else n <- norm_inf (ddx_coeffs mats els) ;; Ok (olt n abs_tol)
    end.

  (** is_affine of SimplexElementGroup and TensorProductElementGroup (:432-435, :444-449) *)
  Definition is_affine (abs_tol : R) (nu : nat) (g : cgroup R) (els : list (list (list R))) : res bool :=
    if cg_simplex g then is_affine_simplex_group abs_tol nu g els
    else if cg_modepy g then Ok false else Err NotImplementedError.
End IsAffine.

(** ** make_mesh with its checks (:979-1130) *)
Section MakeMesh.
  Variable R : ocring.
  Context {A : Type}.

  (** Arrays and meshes without NaN as arguments of the check.  [vid] is the dtype of
      vertex_indices; adjacency arrays have the dtypes of the mesh. *)
  Definition lift2 (x : list (list R)) : list (list (fl R)) := map (map (@Some R)) x.
  Definition iarr1 (dt : nat) (l : list nat) : iarr := mk_iarr [length l] dt (map Z.of_nat l).
  Definition cfagrp_of (ed fd : nat) (f : fagrp A) : cfagrp :=
    match f with
    | Interior i j es _ =>
        CInterior i j (iarr1 ed (map (fun e => fst (fst e)) es)) (iarr1 fd (map (fun e => snd (fst e)) es))
                      (iarr1 ed (map (fun e => fst (snd e)) es)) (iarr1 fd (map (fun e => snd (snd e)) es))
    | Boundary i t fs => CBoundary i t (iarr1 ed (map fst fs)) (iarr1 fd (map snd fs))
    | InterPart i t p es _ =>
        CInterPart i t p (iarr1 ed (map (fun e => fst (fst e)) es)) (iarr1 fd (map (fun e => snd (fst e)) es))
                         (iarr1 ed (map (fun e => fst (snd e)) es)) (iarr1 fd (map (fun e => snd (snd e)) es))
    end.
  Definition float_group (vid dim amb : nat) (g : egroup (enodes R)) : cgroup R :=
    mk_cgroup (mk_egroup (eg_vi g) (map lift2 (eg_nodes g)) (eg_fvi g)) vid true true dim amb.
  Definition lazy_map {X Y} (f : X -> Y) (l : lazyf X) : lazyf Y :=
    match l with Unavailable => Unavailable | Pending => Pending | Available x => Available (f x) end.
  Definition float_mesh (vid dim amb : nat) (m : mesh (enodes R) A (list R)) : cmesh R :=
    mk_cmesh (map (float_group vid dim amb) (m_groups m)) (option_map lift2 (m_vertices m))
      (lazy_map (fun n : nadj => (iarr1 (m_edtype m) (fst n), iarr1 (m_edtype m) (snd n))) (m_nodal m))
      (lazy_map (map (map (cfagrp_of (m_edtype m) (m_fdtype m)))) (m_facial m))
      (m_vdtype m) (m_edtype m) (m_fdtype m).

  Variable resampling : cgroup R -> list (list (fl R)).
  Variable span_indices : cgroup R -> nat * list nat.
  Variable default_tol : R.
  Variable flipper : egroup (enodes R) -> res (list (list R) * list nat).

  (** make_mesh for groups of simplices.  With force_positive_orientation the mesh is replaced by
      the result of perform_flips (processing.py:818-847), which calls make_mesh with the default
      dtypes (code 0) and the default options of the check, whatever the caller asked for. *)
  Definition make_mesh_checked (forced skip_tests : bool) (tol : tolarg R) (skip_orientation : bool)
      (vid dim amb : nat) (vertices : option (list (list R))) (groups : list (egroup (enodes R)))
      (nodal : lazyf nadj) (facial : lazyf (list (list (fagrp A)))) (conforming : option bool) (vd ed fd : nat)
    : res (mesh (enodes R) A (list R)) :=
    m <- (if forced then
            if dim =? amb then
              m' <- make_mesh_forced R (fun x => olt x r0) flipper
                      (fun g => span_indices (float_group vid dim amb g))
                      vertices groups nodal facial conforming vd ed fd ;;
              _ <- check_mesh_consistency R resampling span_indices default_tol amb TolNone false (float_mesh vid dim amb m') ;;
              Ok m'
            else
              _ <- make_mesh (A := A) vertices groups nodal facial conforming vd ed fd ;; Err ValueError
          else make_mesh vertices groups nodal facial conforming vd ed fd) ;;
    _ <- (if skip_tests then Ok tt
          else check_mesh_consistency R resampling span_indices default_tol amb tol skip_orientation (float_mesh vid dim amb m)) ;;
    Ok m.
End MakeMesh.

(** ** affine_map with the check at its end (processing.py:1372-1468) *)
Section AffineChecked.
  Variable R : ocring.
  Variable resampling : cgroup R -> list (list (fl R)).
  Variable span_indices : cgroup R -> nat * list nat.
  Variable default_tol : R.

  (** In AffineModel the nodes of an element are a list of points; here one row per axis *)
  Definition by_axis (d : nat) (pts : list (list R)) : res (list (list R)) :=
    mapM (fun a => mapM (fun p => get p a) pts) (seq 0 d).
  Definition by_axis_mesh {A} (d : nat) (m : mesh (list (list R)) A (list R)) : res (mesh (enodes R) A (list R)) :=
    gs <- mapM (fun g => ns <- mapM (by_axis d) (eg_nodes g) ;; Ok (mk_egroup (eg_vi g) (ns : list (enodes R)) (eg_fvi g))) (m_groups m) ;;
    Ok (mk_mesh gs (m_vertices m) (m_conforming m) (m_nodal m) (m_facial m) (m_vdtype m) (m_edtype m) (m_fdtype m)).

  (** return mesh.copy(...) (:1461-1468), which runs the check with its defaults; the mesh is returned
      unchecked if there is nothing to apply (:1384-1385) *)
  Definition affine_map_checked (vid d : nat) (A : option (sarg R (list (list R)))) (b : option (sarg R (list R)))
      (m : mesh (list (list R)) (amap R) (list R)) : res (mesh (list (list R)) (amap R) (list R)) :=
    m' <- affine_map R d A b m ;;
    match A, b with
    | None, None => Ok m'
    | _, _ =>
        fm <- by_axis_mesh d m' ;;
        _ <- check_mesh_consistency R resampling span_indices default_tol d TolNone false (float_mesh R vid d d fm) ;;
        Ok m'
    end.
End AffineChecked.
