(** * AffineModel: affine maps of points and meshes.

    Models AffineMap (meshmode/mesh/tools.py:138-227), affine_map
    (meshmode/mesh/processing.py:1372-1465), the rotation matrices
    (processing.py:1470-1515, tools.py:85-132) and make_mesh_grid (processing.py:1523-1558).

    Simplified: coordinates are elements of a commutative ring; numpy.linalg.inv, sines, cosines and
    square roots are arguments.  Points are lists of coordinates; an array of points is a list of points.
    No proofs in this file. *)
From Coq Require Import List Arith Bool ZArith.
From Verif Require Import Np MeshModel MeshStateModel Lin ProcModel.
Import ListNotations.

Section Affine.
  Variable R : cring.

  (** AffineMap.matrix, AffineMap.offset *)
  Record amap : Type := mk_amap { am_matrix : option (list (list R)); am_offset : option (list R) }.

  (** result += offset.reshape(-1, 1, ...): an offset of length one is broadcast, other lengths must agree *)
  Definition add_offset (r o : list R) : res (list R) :=
    if length o =? length r then Ok (vadd r o)
    else match o with [c] => Ok (vadd r (repeat c (length r))) | _ => Err ValueError end.

  (** matrix @ x; einsum checks the shape *)
  Definition apply_matrix (M : list (list R)) (x : list R) : res (list R) :=
    _ <- guard (forallb (fun row => length row =? length x) M) ValueError ;; Ok (matvec M x).

  (** AffineMap.__call__ (tools.py:197-210) on one point *)
  Definition amap_call (f : amap) (x : list R) : res (list R) :=
    r <- match am_matrix f with Some M => apply_matrix M x | None => Ok x end ;;
    match am_offset f with Some o => add_offset r o | None => Ok r end.

  (** AffineMap.inverted (tools.py:180-195); [inv] is numpy.linalg.inv *)
  Definition amap_inverted (inv : list (list R) -> res (list (list R))) (f : amap) : res amap :=
    match am_matrix f with
    | Some M =>
        N <- inv M ;;
        match am_offset f with
        | Some o => o' <- apply_matrix (map vopp N) o ;; Ok (mk_amap (Some N) (Some o'))
        | None => Ok (mk_amap (Some N) None)
        end
    | None => Ok (mk_amap None (option_map vopp (am_offset f)))
    end.

  (** AffineMap.__eq__ (tools.py:212-224).  Comparing an array with None compares elementwise and gives an
      array of False; [a and b] needs the truth value of a, which fails for arrays with several entries,
      and returns b as it is. *)
  Inductive pyval : Type := VBool (b : bool) | VArray (l : list bool).
  Definition truth (v : pyval) : res bool :=
    match v with
    | VBool b => Ok b
    | VArray [b] => Ok b
    | VArray _ => Err ValueError
    end.
  Definition component_equal {X} (eqb : X -> X -> bool) (size : X -> nat) (a b : option X) : pyval :=
    match a, b with
    | Some x, Some y => VBool (eqb x y)
    | None, None => VBool true
    | Some x, None | None, Some x => VArray (repeat false (size x))
    end.
  Definition amap_eq (reqb : R -> R -> bool) (f g : amap) : res pyval :=
    let veqb := fun u v : list R => (length u =? length v) && forallb (fun p => reqb (fst p) (snd p)) (combine u v) in
    let meqb := fun M N : list (list R) => (length M =? length N) && forallb (fun p => veqb (fst p) (snd p)) (combine M N) in
    let e := component_equal meqb (fun M => sum (map (@length _) M)) (am_matrix f) (am_matrix g) in
    b <- truth e ;;
    if b then Ok (component_equal veqb (@length _) (am_offset f) (am_offset g)) else Ok e.
  (** AffineMap.__ne__: not self.__eq__(other) *)
  Definition amap_ne (reqb : R -> R -> bool) (f g : amap) : res bool :=
    v <- amap_eq reqb f g ;; b <- truth v ;; Ok (negb b).

  (** ** affine_map (processing.py:1372-1465) *)

  (** An argument that is either a scalar or an array *)
  Inductive sarg (X : Type) : Type := Scalar (c : R) | Arr (x : X).
  Arguments Scalar {X}. Arguments Arr {X}.

  Definition diag (d : nat) (c : R) : list (list R) := map (vscale c) (idmat d).

  (** compute_new_map (:1423-1440) *)
  Definition compute_new_map (A : option (list (list R))) (b : option (list R)) (old : amap) : res amap :=
    offset <- match am_offset old with
              | Some o =>
                  o1 <- match A with Some A => apply_matrix A o | None => Ok o end ;;
                  match am_matrix old, b with
                  | Some G, Some b =>
                      Gb <- apply_matrix G b ;;
                      _ <- guard ((length Gb =? length b) && (length o1 =? length b)) ValueError ;;
                      Ok (Some (vadd o1 (vsub b Gb)))
                  | _, _ => Ok (Some o1)
                  end
              | None => Ok None
              end ;;
    Ok (mk_amap (am_matrix old) offset).

  Definition map_fagrp (A : option (list (list R))) (b : option (list R)) (fg : fagrp amap) : res (fagrp amap) :=
    match fg with
    | Interior g g' es a => a' <- compute_new_map A b a ;; Ok (Interior g g' es a')
    | InterPart g t p es a => a' <- compute_new_map A b a ;; Ok (InterPart g t p es a')
    | Boundary g t es => Ok (Boundary g t es)
    end.

  Definition affine_map (d : nat) (A : option (sarg (list (list R)))) (b : option (sarg (list R)))
      (m : mesh (list (list R)) amap (list R)) : res (mesh (list (list R)) amap (list R)) :=
    let A := option_map (fun a => match a with Scalar c => diag d c | Arr M => M end) A in
    let b := option_map (fun b => match b with Scalar c => repeat c d | Arr v => v end) b in
    match A, b with
    | None, None => Ok m
    | _, _ =>
        _ <- guard (match A with Some M => (length M =? d) && forallb (fun r => length r =? d) M | None => true end) ValueError ;;
        _ <- guard (match b with Some v => length v =? d | None => true end) ValueError ;;
        let f := amap_call (mk_amap A b) in
        vertices <- match m_vertices m with None => Ok None | Some vs => vs' <- mapM f vs ;; Ok (Some vs') end ;;
        groups <- mapM (fun g => n <- mapM (mapM f) (eg_nodes g) ;; Ok (mk_egroup (eg_vi g) n (eg_fvi g))) (m_groups m) ;;
        facial <- match m_facial m with
                  | Pending => Ok Pending
                  | Unavailable => Err DataUnavailableError
                  | Available fags => fags' <- mapM (mapM (map_fagrp A b)) fags ;; Ok (Available fags')
                  end ;;
        Ok (mk_mesh groups vertices (m_conforming m) (m_nodal m) facial (m_vdtype m) (m_edtype m) (m_fdtype m))
    end.

  (** ** Rotations *)
  Local Open Scope cring_scope.

  (** _get_rotation_matrix_from_angle_and_axis (processing.py:1470-1491) with c, s the cosine and sine of theta
      and (x, y, z) the normalized axis *)
  Definition axis_rotation (c s x y z : R) : list (list R) :=
    [[c + x * x * (1 - c); x * y * (1 - c) - z * s; x * z * (1 - c) + y * s];
     [y * x * (1 - c) + z * s; c + y * y * (1 - c); y * z * (1 - c) - x * s];
     [z * x * (1 - c) - y * s; z * y * (1 - c) + x * s; c + z * z * (1 - c)]].

  (** rotate_mesh_around_axis (processing.py:1494-1520); [axis] is the normalized axis, if given *)
  Definition rotate_mesh_around_axis (d : nat) (c s : R) (axis : option (R * R * R))
      (m : mesh (list (list R)) amap (list R)) : res (mesh (list (list R)) amap (list R)) :=
    match d with
    | 1%nat => Ok m
    | 2%nat => affine_map 2 (Some (Arr (map (firstn 2) (firstn 2 (axis_rotation c s 0 0 1))))) None m
    | 3%nat =>
        let '(x, y, z) := match axis with Some u => u | None => (0, 0, 1) end in
        affine_map 3 (Some (Arr (axis_rotation c s x y z))) None m
    | _ => Err ValueError
    end.

  (** rand_rotation_matrix (tools.py:85-132) with the values of r = sqrt(z), q = sqrt(2 - z) and the sines and
      cosines of phi and theta: (outer(V, V) - eye(3)).dot(R) *)
  Definition outer (u v : list R) : list (list R) := map (fun a => vscale a v) u.
  Definition rand_rotation_matrix (r q sphi cphi st ct : R) : list (list R) :=
    let V := [sphi * r; cphi * r; q] in
    let Rm := [[ct; st; 0]; [- st; ct; 0]; [0; 0; 1]] in
    matmul 3 (map2 vsub (outer V V) (idmat 3)) Rm.

  (** ** make_mesh_grid (processing.py:1523-1558) *)

  (** itertools.product(range(n_0), range(n_1), ...) *)
  Fixpoint product (shape : list nat) : list (list nat) :=
    match shape with
    | [] => [[]]
    | n :: ns => flat_map (fun i => map (cons i) (product ns)) (seq 0%nat n)
    end.

  (** i * o *)
  Fixpoint rnat (n : nat) : R := match n with O => 0 | S n => 1 + rnat n end.

  (** sum((i * o for ...), offset[0]) *)
  Definition grid_offset (offset : list (list R)) (index : list nat) : res (list R) :=
    o0 <- get offset 0 ;;
    Ok (fold_left vadd (map2 (fun i o => vscale (rnat i) o) index offset) o0).

  Definition make_mesh_grid (leb : R -> R -> bool) (quarter : R) (same_kind : egroup (list (list R)) -> egroup (list (list R)) -> bool)
      (d : nat) (shape : list nat) (offset : option (list (list R)))
      (m : mesh (list (list R)) amap (list R)) : res (mesh (list (list R)) amap (list R)) :=
    _ <- guard (length shape =? d)%nat ValueError ;;
    offset <- match offset with
              | Some o => Ok o
              | None =>
                  '(bmin, bmax) <- find_bounding_box leb d m ;;
                  let size := vsub bmax bmin in
                  Ok (map2 (fun (e : list R) c => map (fun u => u * (c + quarter * c)) e) (idmat d) size)
              end ;;
    _ <- guard (length offset =? d)%nat ValueError ;;
    _ <- guard (forallb (fun o => length o =? d)%nat offset) ValueError ;;
    meshes <- mapM (fun index => b <- grid_offset offset index ;; affine_map d None (Some (Arr b)) m) (product shape) ;;
    merge_disjoint_meshes (fun _ => d) same_kind false meshes.
End Affine.
Arguments mk_amap {R}. Arguments am_matrix {R}. Arguments am_offset {R}.
Arguments Scalar {R X}. Arguments Arr {R X}.
