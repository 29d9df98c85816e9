(** * ProcModel: mesh processing (meshmode/mesh/processing.py).

    Models merge_disjoint_meshes (:874-963), split_mesh_groups (:970-1026),
    remove_unused_vertices (:1565-1591), flip_element_group and perform_flips
    (:773-847), the element orientation (:576-678), make_mesh with
    force_positive_orientation (mesh/__init__.py:1111-1117), find_bounding_box (:854-867)
    and map_mesh (:1322-1365).

    Simplified: coordinates are elements of a ring (or of an ordered type) instead of
    floating-point numbers; memory layout is ignored; consistency checks after the
    construction of a mesh are left out (skip_tests=True).  No proofs in this file. *)
From Coq Require Import List Arith Bool ZArith.
From Verif Require Import Np MeshModel MeshStateModel Lin.
Import ListNotations.

(** ** Merging *)

(** vert_bases (:897-907): current_vert_base before each mesh *)
Fixpoint running (base : nat) (sizes : list nat) : list nat :=
  match sizes with
  | [] => []
  | n :: ns => base :: running (base + n) ns
  end.

Definition is_pending {X} (f : lazyf X) : bool := match f with Pending => true | _ => false end.

Section Merge.
  Context {E A V : Type}.
  Variable ambient_dim : mesh E A V -> nat.
  (** same type, order and unit nodes (:925-931) *)
  Variable same_kind : egroup E -> egroup E -> bool.

  (** group.vertex_indices + vert_base *)
  Definition shifted_vi (b : nat) (g : egroup E) : res (list (list nat)) :=
    match eg_vi g with
    | Some vi => Ok (map (map (fun v => v + b)) vi)
    | None => Err AssertionError
    end.

  Definition merge_disjoint_meshes (single_group : bool) (ms : list (mesh E A V)) : res (mesh E A V) :=
    match ms with
    | [] => Err ValueError
    | m0 :: _ =>
        _ <- guard (forallb (fun m => ambient_dim m =? ambient_dim m0) ms) ValueError ;;
        vss <- mapM (fun m => match m_vertices m with Some vs => Ok vs | None => Err ValueError end) ms ;;
        let vertices := concat vss in
        let vert_bases := running 0 (map (@length V) vss) in
        let nodal := if existsb (fun m => negb (is_pending (m_nodal m))) ms then Unavailable else Pending in
        let facial := if existsb (fun m => negb (is_pending (m_facial m))) ms then Unavailable else Pending in
        let tagged := flat_map (fun mb : mesh E A V * nat => map (fun g => (snd mb, g)) (m_groups (fst mb)))
                               (combine ms vert_bases) in
        new_groups <-
          (if single_group then
             match tagged with
             | [] => Err ValueError
             | (_, ref) :: rest =>
                 _ <- guard (forallb (fun bg => same_kind (snd bg) ref) rest) ValueError ;;
                 vis <- mapM (fun bg => shifted_vi (fst bg) (snd bg)) tagged ;;
                 Ok [mk_egroup (Some (concat vis)) (concat (map (fun bg => eg_nodes (snd bg)) tagged)) (eg_fvi ref)]
             end
           else
             mapM (fun bg => vi <- shifted_vi (fst bg) (snd bg) ;;
                             Ok (mk_egroup (Some vi) (eg_nodes (snd bg)) (eg_fvi (snd bg)))) tagged) ;;
        make_mesh (Some vertices) new_groups nodal facial
                  (Some (forallb (fun m => truthy (m_conforming m)) ms)) 0 0 0
    end.
End Merge.

(** ** Splitting *)

(** np.unique of integer flags *)
Fixpoint dedup_adj_Z (l : list Z) : list Z :=
  match l with
  | [] => []
  | x :: l' => match dedup_adj_Z l' with
               | [] => [x]
               | y :: r => if (x =? y)%Z then y :: r else x :: y :: r
               end
  end.
Definition unique_Z (l : list Z) : list Z := dedup_adj_Z (sort_Z l).

Section Split.
  Context {E A V : Type}.

  (** the subgroups of one group (:1004-1013); the state is (new_groups, subgroup_to_group_map) *)
  Definition split_one (flags : list Z) (st : list (egroup E) * list ((nat * Z) * nat))
      (ibg : nat * (nat * egroup E)) : res (list (egroup E) * list ((nat * Z) * nat)) :=
    let '(igrp, (b, g)) := ibg in
    match eg_vi g with
    | None => Err AssertionError
    | Some vi =>
        let gf := slice flags b (b + nelements g) in
        _ <- guard (length gf =? length vi) IndexError ;;
        Ok (fold_left (fun st flag =>
                         let mask := map (Z.eqb flag) gf in
                         (fst st ++ [mk_egroup (Some (compress mask vi)) (compress mask (eg_nodes g)) (eg_fvi g)],
                          snd st ++ [((igrp, flag), length (fst st))]))
                      (unique_Z gf) st)
    end.

  Definition split_mesh_groups (flags : list Z) (m : mesh E A V)
    : res (mesh E A V * list ((nat * Z) * nat)) :=
    let sizes := map nelements (m_groups m) in
    _ <- guard (length flags =? sum sizes) AssertionError ;;
    '(gs, sub) <- foldM (split_one flags) (enumerate (combine (base_element_nrs sizes) (m_groups m))) ([], []) ;;
    m' <- make_mesh (m_vertices m) gs Pending Pending (m_conforming m) 0 0 0 ;;
    Ok (m', sub).
End Split.

(** ** Removing unused vertices (:1565-1591) *)

(** np.cumsum(used_flags) - 1, with -1 at unused positions *)
Fixpoint renumber (next : Z) (flags : list bool) : list Z :=
  match flags with
  | [] => []
  | true :: fs => next :: renumber (next + 1) fs
  | false :: fs => (-1)%Z :: renumber next fs
  end.

Section RemoveUnused.
  Context {E A V : Type}.

  (** new_vertex_indices[grp.vertex_indices].  Vertex numbers are natural numbers in the model, so
      a -1 cannot be stored; it is reported as a RuntimeError, which the theorem excludes. *)
  Definition renumber_row (nvi : list Z) (row : list nat) : res (list nat) :=
    mapM (fun v => z <- get nvi v ;; if (z <? 0)%Z then Err RuntimeError else Ok (Z.to_nat z)) row.

  Definition remove_unused_vertices (m : mesh E A V) : res (mesh E A V) :=
    match m_vertices m with
    | None => Err ValueError
    | Some vs =>
        vis <- mapM (fun g => match eg_vi g with Some vi => Ok vi | None => Err ValueError end) (m_groups m) ;;
        _ <- guard (negb (length vis =? 0)) ValueError ;;     (* np.concatenate([]) *)
        let used := unique (concat (map (@concat nat) vis)) in
        flags <- scatter (repeat false (length vs)) (map (fun v => (v, true)) used) ;;
        let nvi := renumber 0 flags in
        groups <- mapM (fun gvi : egroup E * list (list nat) =>
                          vi <- mapM (renumber_row nvi) (snd gvi) ;;
                          Ok (mk_egroup (Some vi) (eg_nodes (fst gvi)) (eg_fvi (fst gvi))))
                       (combine (m_groups m) vis) ;;
        Ok (copy_with (Some groups) (Some (Some (compress flags vs))) m)
    end.
End RemoveUnused.

(** ** Flips *)

(** permutation_ary of get_simplex_element_flip_matrix (:711-715); the assignment to entry 1 fails in
    dimension 0 *)
Definition simplex_flip_permutation (dim : nat) : res (list nat) :=
  p <- put (seq 0 (dim + 1)) 1 0 ;; put p 0 1.

(** permuted[:, perm] = rows, on np.empty_like(rows) whose contents are [junk] *)
Definition permute_row (junk perm row : list nat) : res (list nat) :=
  _ <- guard (length perm =? length row) ValueError ;;
  scatter junk (combine perm row).

Section Flip.
  Variable R : cring.
  Context {A V : Type}.
  (** nodes of one element: ambient_dim rows with one entry per unit node *)
  Definition enodes : Type := list (list R).

  (** einsum("ij,dej->dei") for one element *)
  Definition flip_nodes (M : list (list R)) (x : enodes) : enodes := map (matvec M) x.

  (** flip_element_group (:773-815), given the flip matrix and vertex permutation of the group *)
  Definition flip_element_group (M : list (list R)) (perm : list nat) (flags : list bool)
      (g : egroup enodes) : res (egroup enodes) :=
    _ <- guard (length flags =? nelements g) IndexError ;;
    vi <- match eg_vi g with
          | None => Ok None
          | Some vi =>
              _ <- guard (length flags =? length vi) IndexError ;;
              vi' <- mapM (fun fr : bool * list nat =>
                             if fst fr then permute_row (map (fun _ => 0) (snd fr)) perm (snd fr) else Ok (snd fr))
                          (combine flags vi) ;;
              Ok (Some vi')
          end ;;
    Ok (mk_egroup vi
          (map (fun fx : bool * enodes => if fst fx then flip_nodes M (snd fx) else snd fx)
               (combine flags (eg_nodes g)))
          (eg_fvi g)).

  (** perform_flips (:818-847).  [flipper] gives the flip matrix and permutation of a group or the
      NotImplementedError for other element classes. *)
  Definition perform_flips (flipper : egroup enodes -> res (list (list R) * list nat))
      (flags : list bool) (m : mesh enodes A V) : res (mesh enodes A V) :=
    match m_vertices m with
    | None => Err ValueError
    | Some vs =>
        gs <- mapM (fun bg : nat * egroup enodes =>
                      let gf := slice flags (fst bg) (fst bg + nelements (snd bg)) in
                      if existsb (fun b => b) gf
                      then '(M, perm) <- flipper (snd bg) ;; flip_element_group M perm gf (snd bg)
                      else Ok (snd bg))
                   (combine (base_element_nrs (map nelements (m_groups m))) (m_groups m)) ;;
        make_mesh (Some vs) gs Pending Pending (m_conforming m) 0 0 0
    end.
End Flip.

(** ** Orientation (:576-678) *)
Section Orientation.
  Variable R : cring.
  Local Open Scope cring_scope.

  (** The coefficient of v_1 ^ ... ^ v_d in front of the unit pseudoscalar, d = 1, 2, 3 *)
  Definition wedge (vs : list (list R)) : res R :=
    match vs with
    | [[a]] => Ok a
    | [[a; b]; [c; d]] => Ok (a * d - b * c)
    | [[a; b; c]; [d; e; f]; [g; h; i]] =>
        Ok (a * (e * i - f * h) - b * (d * i - f * g) + c * (d * h - e * g))
    | _ => Err NotImplementedError
    end.

  (** I | I in dimension 1, 2, 3 *)
  Definition pseudoscalar_square (d : nat) : R := match d with 1%nat => 1 | _ => - (1) end.

  (** (outer_prod.I | outer_prod).as_scalar() with outer_prod = -(v_1 ^ ... ^ v_d), negated once
      more for d = 1 (:635-643) *)
  Definition signed_volume (vs : list (list R)) : res R :=
    w <- wedge vs ;;
    let outer := - w in
    let outer := match length vs with 1%nat => - outer | _ => outer end in
    Ok (pseudoscalar_square (length vs) * outer).

  (** find_volume_mesh_element_group_orientation for one element: [bix] is the vertex at
      (-1,...,-1) and [six] the vertices at -1 + 2 e_i (:598-620); for simplices 0 and 1, 2, ... *)
  Definition element_orientation (bix : nat) (six : list nat) (vertices : list (list R)) (row : list nat) : res R :=
    bv <- get row bix ;; b <- get vertices bv ;;
    span <- mapM (fun k => v <- get row k ;; x <- get vertices v ;; Ok (vsub x b)) six ;;
    signed_volume span.
End Orientation.

(** make_mesh(..., force_positive_orientation=True) (mesh/__init__.py:1101-1117): the mesh is built and
    then replaced by the result of perform_flips with the flags orientation < 0. *)
Section Forced.
  Variable R : cring.
  Context {A : Type}.
  Definition make_mesh_forced (negative : R -> bool)
      (flipper : egroup (enodes R) -> res (list (list R) * list nat))
      (indices : egroup (enodes R) -> nat * list nat)
      (vertices : option (list (list R))) (groups : list (egroup (enodes R)))
      (nodal : lazyf nadj) (facial : lazyf (list (list (fagrp A)))) (conforming : option bool) (vd ed fd : nat)
    : res (mesh (enodes R) A (list R)) :=
    m <- make_mesh vertices groups nodal facial conforming vd ed fd ;;
    match vertices with
    | None => Err ValueError
    | Some vs =>
        flags <- mapM (fun g : egroup (enodes R) =>
                         match eg_vi g with
                         | None => Err TypeError
                         | Some vi => mapM (fun row => o <- element_orientation R (fst (indices g)) (snd (indices g)) vs row ;;
                                                       Ok (negative o)) vi
                         end) groups ;;
        perform_flips R flipper (concat flags) m
    end.
End Forced.

(** ** Bounding box (:854-867) *)
Section BBox.
  Context {C : Type}.
  Variable leb : C -> C -> bool.

  (** np.min / np.max of a one-dimensional array; ValueError for an empty array *)
  Definition amin (l : list C) : res C :=
    match l with [] => Err ValueError | x :: l => Ok (fold_left (fun a y => if leb a y then a else y) l x) end.
  Definition amax (l : list C) : res C :=
    match l with [] => Err ValueError | x :: l => Ok (fold_left (fun a y => if leb y a then a else y) l x) end.

  (** A vertex is the list of its coordinates; axis [a] of the vertex array *)
  Definition axis_values (vertices : list (list C)) (a : nat) : res (list C) :=
    mapM (fun v => get v a) vertices.

  Definition find_bounding_box {E A} (ambient_dim : nat) (m : mesh E A (list C)) : res (list C * list C) :=
    match m_vertices m with
    | None => Err ValueError
    | Some vs =>
        lo <- mapM (fun a => l <- axis_values vs a ;; amin l) (seq 0 ambient_dim) ;;
        hi <- mapM (fun a => l <- axis_values vs a ;; amax l) (seq 0 ambient_dim) ;;
        Ok (lo, hi)
    end.
End BBox.

(** ** map_mesh (:1322-1365)

    The nodes of an element are a list of points.  [f] acts on an array of points. *)
Section MapMesh.
  Context {P A : Type}.
  Variable trivial : A -> bool.      (* neither matrix nor offset *)

  Definition aff_of (b : fagrp A) : option A :=
    match b with Interior _ _ _ a => Some a | InterPart _ _ _ _ a => Some a | Boundary _ _ _ => None end.

  Definition has_adj_maps (fags : list (list (fagrp A))) : bool :=
    existsb (existsb (fun b => match aff_of b with Some a => negb (trivial a) | None => false end)) fags.

  (** flatten the nodes of all elements, apply f, restore the shape *)
  Definition map_nodes (f : list P -> list P) (nodes : list (list P)) : res (list (list P)) :=
    let flat := f (concat nodes) in
    _ <- guard (length flat =? length (concat nodes)) ValueError ;;
    Ok ((fix cut (shape : list (list P)) (flat : list P) : list (list P) :=
           match shape with
           | [] => []
           | s :: ss => firstn (length s) flat :: cut ss (skipn (length s) flat)
           end) nodes flat).

  Definition map_mesh (f : list P -> list P) (m : mesh (list P) A P) : res (mesh (list P) A P) :=
    _ <- match m_facial m with
         | Pending => Ok tt
         | Unavailable => Err DataUnavailableError     (* mesh.facial_adjacency_groups *)
         | Available fags => guard (negb (has_adj_maps fags)) ValueError
         end ;;
    gs <- mapM (fun g => n <- map_nodes f (eg_nodes g) ;; Ok (mk_egroup (eg_vi g) n (eg_fvi g))) (m_groups m) ;;
    Ok (copy_with (Some gs) (Some (option_map f (m_vertices m))) m).
End MapMesh.
