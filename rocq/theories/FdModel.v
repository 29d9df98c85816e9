(** * FdModel: importing a Firedrake mesh.

    Models meshmode/interop/firedrake/mesh.py:62-777 (topology queries, facial adjacency groups,
    orientations and import_firedrake_mesh).

    A Firedrake mesh is the record of the values that the code reads from it ([fdmesh]).  The flip
    matrix, the reference faces of the simplex and the contents of uninitialised arrays are arguments.
    Left out: type checks of the arguments (:586-596), logging, the dtypes, the dictionary
    facet_to_cells (:122-123,141-147, which is never read), SimplexElementGroup.make_group's shape checks
    and the consistency checks of make_mesh (see ConsistModel).  No proofs in this file. *)
From Coq Require Import List Arith Bool.
From Verif Require Import Np MeshModel MeshStateModel Lin ProcModel Ord ConsistModel.
Import ListNotations.

Record fdmesh (R : Type) : Type := mk_fd {
  fd_tdim : nat;                      (* topological_dimension; simplices have fd_tdim + 1 vertices *)
  fd_gdim : nat;                      (* geometric_dimension *)
  fd_closure : list (list nat);       (* cell_closure: the dmplex ids of each cell *)
  fd_vrange : nat * nat;              (* topology_dm.getDepthStratum(0) *)
  fd_vnum : nat -> nat;               (* _vertex_numbering.getOffset *)
  fd_nverts : nat;                    (* num_vertices() *)
  fd_interior : list ((nat * nat) * (nat * nat));
    (* one pair of sides (cell, local facet) per row of interior_facets.facet_cell and local_facet_dat.data *)
  fd_exterior : list (nat * nat);     (* the same for exterior_facets *)
  fd_unique_markers : option (list nat); (* exterior_facets.unique_markers *)
  fd_markers : option (list (option nat));
    (* label.getValue(f) of each exterior facet (None for the default value -1), if the label exists *)
  fd_cell_nodes : list (list nat);    (* coordinates.function_space().cell_node_list *)
  fd_coords : list (list R);          (* coordinates.dat.data *)
  fd_vertex_dofs : list (list nat);   (* finat_element.entity_dofs()[0], sorted by vertex *)
  fd_orient : list R                  (* cell_orientations().dat.data *)
}.
Arguments mk_fd {R}.
Arguments fd_tdim {R}. Arguments fd_gdim {R}. Arguments fd_closure {R}. Arguments fd_vrange {R}.
Arguments fd_vnum {R}. Arguments fd_nverts {R}. Arguments fd_interior {R}. Arguments fd_exterior {R}.
Arguments fd_unique_markers {R}. Arguments fd_markers {R}. Arguments fd_cell_nodes {R}.
Arguments fd_coords {R}. Arguments fd_vertex_dofs {R}. Arguments fd_orient {R}.

(** a dict with int keys; the latest entry of a key is the first in the list *)
Definition dict_get {X} (d : list (nat * X)) (k : nat) : res X :=
  match find (fun kx => fst kx =? k) d with Some kx => Ok (snd kx) | None => Err KeyError end.
Definition dict_get_default {X} (d : list (nat * X)) (k : nat) (x : X) : X :=
  match find (fun kx => fst kx =? k) d with Some kx => snd kx | None => x end.

(** cells_to_use_inv[c], vert_ndx_old2new[v] (dict(zip(keys, arange(...)))) *)
Definition position (keys : list nat) (k : nat) : res nat :=
  match index_of k keys with Some i => Ok i | None => Err KeyError end.

(** np.vectorize(f)(a), which raises ValueError on arrays of size 0 *)
Definition vectorize {X Y} (f : X -> res Y) (l : list X) : res (list Y) :=
  _ <- guard (negb (length l =? 0)) ValueError ;; mapM f l.

(** ** _get_firedrake_nodal_info (:62-180) *)
Section NodalInfo.
  Context {R : Type}.

  (** dmp_verts (:136-137) *)
  Definition cell_dmp_verts (fd : fdmesh R) (closure : list nat) : list nat :=
    filter (fun x => (fst (fd_vrange fd) <=? x) && (x <? snd (fd_vrange fd))) closure.

  (** vertex_indices[i][:] = np.array(...) into a row of tdim + 1 entries (:138-139); a single value is
      broadcast *)
  Definition fill_row (n : nat) (vals : list nat) : res (list nat) :=
    if length vals =? n then Ok vals
    else match vals with [v] => Ok (repeat v n) | _ => Err ValueError end.

  (** cell_to_nodal_neighbors[a].append(b) *)
  Definition append_at (c2n : list (list nat)) (a b : nat) : res (list (list nat)) :=
    l <- get c2n a ;; put c2n a (l ++ [b]).

  (** the body of the loop over the cells (:134-159): vert_to_cells as a dict, cell_to_nodal_neighbors as a
      list indexed by the cells so far *)
  Definition nodal_vertex (i : nat) (st : list (nat * list nat) * list (list nat)) (v : nat)
      : res (list (nat * list nat) * list (list nat)) :=
    let others := dict_get_default (fst st) v [] in
    c2n <- foldM (fun c2n o => c2n <- append_at c2n i o ;; append_at c2n o i) others (snd st) ;;
    Ok ((v, others ++ [i]) :: fst st, c2n).
  Definition nodal_cell (st : list (nat * list nat) * list (list nat)) (iv : nat * list nat)
      : res (list (nat * list nat) * list (list nat)) :=
    foldM (nodal_vertex (fst iv)) (snd iv) (fst st, snd st ++ [[]]).

  (** cell_closure[cells_to_use, :] (:131-133) *)
  Definition used_rows {X} (cells : option (list nat)) (l : list X) : res (list X) :=
    match cells with None => Ok l | Some cs => take l cs end.

  Definition nodal_info (fd : fdmesh R) (cells : option (list nat)) : res (list (list nat) * nadj) :=
    closures <- used_rows cells (fd_closure fd) ;;
    let dmp := map (cell_dmp_verts fd) closures in
    rows <- mapM (fun vs => fill_row (fd_tdim fd + 1) (map (fd_vnum fd) vs)) dmp ;;
    st <- foldM nodal_cell (enumerate dmp) ([], []) ;;
    Ok (rows, (cumsum (0 :: map (@length nat) (snd st)), concat (snd st))).
End NodalInfo.

(** ** _get_firedrake_facial_adjacency_groups (:228-412) *)
Section Facial.
  Context {R A : Type}.
  Variable aff_id : A.

  (** fd_loc_fac_nr_to_mm (:268-277): the local facet of Firedrake is the vertex missing from the face *)
  Definition face_numbers (nv : nat) (fvi : list (list nat)) : res (list (nat * nat)) :=
    foldM (fun d kf => match filter (fun v => negb (memb v (snd kf))) (seq 0 nv) with
                       | [v] => Ok ((v, fst kf) :: d)
                       | _ => Err AssertionError
                       end) (enumerate fvi) [].

  (** _get_firedrake_boundary_tags (:183-206) *)
  Definition boundary_tags (fd : fdmesh R) (induced : bool) : list btag :=
    (if induced then [TInduced] else []) ++
    match fd_unique_markers fd with Some ms => map TUser ms | None => [] end.

  Definition mapped_side (d : list (nat * nat)) (s : nat * nat) : res (nat * nat) :=
    f <- dict_get d (snd s) ;; Ok (fst s, f).

  (** int_elements, int_element_faces: a.flatten(); int_neighbors, int_neighbor_faces:
      np.concatenate((a[:, 1], a[:, 0])) (:286-302).  With no interior facet, int_fac_loc_nr has shape (0,) and
      [:, 1] raises IndexError. *)
  Definition flat_pairs {X} (l : list (X * X)) : list X := flat_map (fun p => [fst p; snd p]) l.
  Definition ones_zeros {X} (l : list (X * X)) : list X := map snd l ++ map fst l.
  Definition interior_entries (d : list (nat * nat)) (fd : fdmesh R) : res (list fentry) :=
    sides <- mapM (fun ab => a <- mapped_side d (fst ab) ;; b <- mapped_side d (snd ab) ;; Ok (a, b))
                  (fd_interior fd) ;;
    _ <- guard (negb (length sides =? 0)) IndexError ;;
    Ok (combine (flat_pairs sides) (ones_zeros sides)).

  (** Keep the entries of the cells in use; those whose neighbor is not in use become exterior
      (:305-339) *)
  Definition restrict_interior (cells : list nat) (es : list fentry) : res (list fentry * list (nat * nat)) :=
    let kept := filter (fun e => memb (fst (fst e)) cells) es in
    els <- vectorize (position cells) (map (fun e => fst (fst e)) kept) ;;
    let renamed := combine els kept in
    Ok (flat_map (fun ie : nat * fentry =>
                    match index_of (fst (snd (snd ie))) cells with
                    | Some j => [((fst ie, snd (fst (snd ie))), (j, snd (snd (snd ie))))]
                    | None => []
                    end) renamed,
        flat_map (fun ie : nat * fentry =>
                    match index_of (fst (snd (snd ie))) cells with
                    | Some _ => []
                    | None => [(fst ie, snd (fst (snd ie)))]
                    end) renamed).

  (** ext_elements, ext_element_faces and ext_facet_markers (:357-374) *)
  Definition exterior_faces (d : list (nat * nat)) (fd : fdmesh R) (cells : option (list nat))
      : res (list (nat * nat) * option (list (option nat))) :=
    exts <- mapM (mapped_side d) (fd_exterior fd) ;;
    match cells with
    | None => Ok (exts, fd_markers fd)
    | Some cs =>
        let keep := map (fun ef => memb (fst ef) cs) exts in
        let kept := compress keep exts in
        els <- vectorize (position cs) (map fst kept) ;;
        Ok (combine els (map snd kept), option_map (compress keep) (fd_markers fd))
    end.

  (** boundary_tag_to_index[marker] (:282,378-381): the index of the tag in [boundary_tags] *)
  Definition marker_index (fd : fdmesh R) (induced : bool) (m : option nat) : res nat :=
    match m, fd_unique_markers fd with
    | Some n, Some ms => i <- position ms n ;; Ok ((if induced then 1 else 0) + i)
    | _, _ => Err KeyError
    end.

  (** ext_bdry_indices: None for the initial -1 *)
  Definition tag_indices (fd : fdmesh R) (induced : bool) (n : nat) (markers : option (list (option nat)))
      : res (list (option nat)) :=
    match markers with
    | None => Ok (repeat None n)
    | Some ms => mapM (fun m => i <- marker_index fd induced m ;; Ok (Some i)) ms
    end.

  (** the groups of the markers (:383-390) *)
  Definition marker_groups (tags : list btag) (idx : list (option nat)) (exts : list (nat * nat)) : list (fagrp A) :=
    concat (map (fun it : nat * btag =>
                   let fs := compress (map (fun i => match i with Some j => j =? fst it | None => false end) idx) exts in
                   if length fs =? 0 then [] else [Boundary 0 (snd it) fs]) (enumerate tags)).

  Definition facial_groups (fvi : list (list nat)) (fd : fdmesh R) (cells : option (list nat))
      : res (list (fagrp A)) :=
    d <- face_numbers (fd_tdim fd + 1) fvi ;;
    let induced := match cells with Some _ => true | None => false end in
    es <- interior_entries d fd ;;
    ie <- match cells with
          | None => Ok (es, [])
          | Some cs => restrict_interior cs es
          end ;;
    xm <- exterior_faces d fd cells ;;
    idx <- tag_indices fd induced (length (fst xm)) (snd xm) ;;
    Ok (Interior 0 0 (fst ie) aff_id ::
        marker_groups (boundary_tags fd induced) idx (fst xm) ++
        Boundary 0 TAll (fst xm) ::
        (if induced then [Boundary 0 TInduced (snd ie)] else [])).

  (** ** flip_local_face_indices (:728-735) and its use (:738-767) *)

  (** no_zero_face_ndx, no_one_face_ndx (:711-716) *)
  Definition zero_one_faces (fvi : list (list nat)) : option nat * option nat :=
    fold_left (fun zo kf => if negb (memb 0 (snd kf)) then (Some (fst kf), snd zo)
                            else if negb (memb 1 (snd kf)) then (fst zo, Some (fst kf)) else zo)
              (enumerate fvi) (None, None).

  (** Assigning None to entries of an integer array raises TypeError *)
  Definition flip_side (zo : option nat * option nat) (neg : list bool) (s : nat * nat) : res (nat * nat) :=
    match zo with
    | (Some z, Some o) =>
        n <- get neg (fst s) ;;
        Ok (fst s, if n then (if snd s =? z then o else if snd s =? o then z else snd s) else snd s)
    | _ => Err TypeError
    end.

  Definition flip_group (zo : option nat * option nat) (neg : list bool) (b : fagrp A) : res (fagrp A) :=
    match b with
    | Interior g g' es aff =>
        es' <- mapM (fun e => a <- flip_side zo neg (fst e) ;; b <- flip_side zo neg (snd e) ;; Ok (a, b)) es ;;
        Ok (Interior g g' es' aff_id)
    | Boundary g t fs => fs' <- mapM (flip_side zo neg) fs ;; Ok (Boundary g t fs')
    | InterPart g t _ es _ => fs' <- mapM (flip_side zo neg) (map fst es) ;; Ok (Boundary g t fs')
    end.
End Facial.

(** ** Orientations and import *)
Section Import.
  Variable R : ocring.
  Context {A : Type}.
  Variable aff_id : A.
  Local Open Scope cring_scope.

  (** find_volume_mesh_element_group_orientation for simplices of dimension d *)
  Definition volume_orientations (d : nat) (vertices : list (list R)) (rows : list (list nat)) : res (list R) :=
    mapM (element_orientation R 0%nat (seq 1 d) vertices) rows.

  (** the sign of np.cross(normal, edge) (:463-470) *)
  Definition normal_orientation (vertices : list (list R)) (nr : list R * list nat) : res R :=
    v1 <- get (snd nr) 1%nat ;; v0 <- get (snd nr) 0%nat ;;
    x1 <- get vertices v1 ;; x0 <- get vertices v0 ;;
    match fst nr, vsub x1 x0 with
    | [n0; n1], [e0; e1] => Ok (if olt (n0 * e1 - n1 * e0) 0 then - (1) else 1)
    | _, _ => Err ValueError
    end.

  (** _get_firedrake_orientations (:419-497): the orientations and the contents of cell_orientations() after the
      call.  On surfaces, [orient *= 2; orient -= 1] works in place; indexing with cells_to_use copies. *)
  Definition orientations (fd : fdmesh R) (cells : option (list nat)) (normals : option (list (list R)))
      (vertices : list (list R)) (rows : list (list nat)) : res (list R * list R) :=
    if (fd_gdim fd =? fd_tdim fd)%nat then
      os <- volume_orientations (fd_tdim fd) vertices rows ;; Ok (os, fd_orient fd)
    else if ((fd_tdim fd =? 1) && (fd_gdim fd =? 2))%nat then
      os <- match normals with
            | Some (n :: ns) =>
                _ <- guard (length (n :: ns) =? length rows)%nat ValueError ;;
                mapM (normal_orientation vertices) (combine (n :: ns) rows)
            | _ => Ok (repeat 1 (length rows))
            end ;;
      Ok (os, fd_orient fd)
    else if ((fd_tdim fd =? 2) && (fd_gdim fd =? 3))%nat then
      os <- used_rows cells (fd_orient fd) ;;
      let os := map (fun o => (1 + 1) * o - 1) os in
      Ok (os, match cells with None => os | Some _ => fd_orient fd end)
    else Err AssertionError.

  (** ndim of coords.dat.data[cell_node_list]: Firedrake drops the axis of one-dimensional values *)
  Definition nodes_ndim (fd : fdmesh R) : nat :=
    ((if fd_gdim fd =? 1 then 2 else 3) + (if fd_tdim fd =? 1 then 1 else 0))%nat.

  (** vertices (:677-691): the coordinates of the vertex node of the first cell that touches it *)
  Definition record_vertex (x : enodes R) (dofs : list nat) (st : list nat * list (list R)) (lv : nat * nat)
      : res (list nat * list (list R)) :=
    if memb (snd lv) (fst st) then Ok st
    else nr <- get dofs (fst lv) ;;
         p <- mapM (fun axis => get axis nr) x ;;
         vs <- put (snd st) (snd lv) p ;;
         Ok (snd lv :: fst st, vs).
  Definition record_vertices (dofs : list nat) (junk : list (list R)) (rows : list (list nat)) (nodes : list (enodes R))
      : res (list (list R)) :=
    st <- foldM (fun st rx => foldM (record_vertex (snd rx) dofs) (enumerate (fst rx)) st)
                (combine rows nodes) ([], junk) ;;
    Ok (snd st).

  (** import_firedrake_mesh (:504-777): the mesh, firedrake_orient, and cell_orientations() afterwards *)
  Definition import_mesh (M : list (list R)) (fvi : list (list nat)) (junk : nat -> list R)
      (normals : option (list (list R))) (fd : fdmesh R) (cells : option (list nat))
      : res (mesh (enodes R) A (list R) * list R * list R) :=
    _ <- match cells with
         | None => Ok tt
         | Some cs =>
             _ <- guard (length (unique cs) =? length cs)%nat AssertionError ;;
             guard (forallb (fun c => c <? length (fd_closure fd))%nat cs) AssertionError
         end ;;
    _ <- guard ((1 <=? fd_gdim fd) && (fd_gdim fd <=? 3))%nat AssertionError ;;
    _ <- guard ((fd_gdim fd =? fd_tdim fd) || (fd_gdim fd =? fd_tdim fd + 1))%nat AssertionError ;;
    rn <- nodal_info fd cells ;;
    rv <- match cells with
          | None => Ok (fst rn, fd_nverts fd)
          | Some _ =>
              let old := unique (concat (fst rn)) in
              _ <- guard (negb (length (concat (fst rn)) =? 0))%nat ValueError ;;
              rows <- mapM (mapM (position old)) (fst rn) ;;
              Ok (rows, length old)
          end ;;
    cnl <- used_rows cells (fd_cell_nodes fd) ;;
    pts <- mapM (take (fd_coords fd)) cnl ;;
    (* np.transpose(nodes, (2, 0, 1)) (:649) *)
    _ <- guard (nodes_ndim fd =? 3)%nat ValueError ;;
    nodes <- mapM (by_axis R (fd_gdim fd)) pts ;;
    let grp := mk_egroup (Some (fst rv)) (nodes : list (enodes R)) fvi in
    dofs <- mapM (fun l => match l with [dof] => Ok dof | _ => Err AssertionError end) (fd_vertex_dofs fd) ;;
    vertices <- record_vertices dofs (map junk (seq 0 (snd rv))) (fst rv) nodes ;;
    oo <- orientations fd cells normals vertices (fst rv) ;;
    let neg := map (fun o => olt o 0) (fst oo) in
    perm <- simplex_flip_permutation (fd_tdim fd) ;;
    grp' <- flip_element_group R M perm neg grp ;;
    fags <- facial_groups aff_id fvi fd cells ;;
    fags' <- mapM (flip_group aff_id (zero_one_faces fvi) neg) fags ;;
    m <- make_mesh (Some vertices) [grp'] (Available (snd rn)) (Available [fags']) None 0 0 0 ;;
    Ok (m, fst oo, snd oo).
End Import.
