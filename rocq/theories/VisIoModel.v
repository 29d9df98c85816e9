(** * VisIoModel: fields, files and visualizers.

    Models meshmode/discretization/visualization.py: separate_by_real_and_imag (:79-114), _stack_object_array (:117-124), _resample_to_numpy (:127-186),
    preprocess_fields (:189-214), _check_discr_same_connectivity (:252-261), Visualizer.copy_with_same_connectivity (:592-627),
    the files of write_parallel_vtk_file (:721-776) and write_vtk_file (:887-933), the options and datasets of write_vtkhdf_file (:940-1107),
    the checks and fields of write_xdmf_file (:1134-1288), make_visualizer (:1374-1420), write_nodal_adjacency_vtk_file (:1453-1501);
    meshmode/mesh/visualization.py: write_vertex_vtk_file (:216-303), mesh_to_tikz (:310-342), write_stl_file (:377-413).

    Simplified: real numbers are an arbitrary type, a complex number is a pair of them; a DOF array has one dtype for all groups; object arrays have one axis;
    file names are strings or an arbitrary type with equality, the content of a file is opaque; existence tests and writes are one step (nobody else writes);
    numbers are not formatted; attributes, compression and XML are not modelled.
    No proofs in this file. *)
From Coq Require Import String List Arith Bool.
From Verif Require Import Np MeshModel DofModel VisModel.
Import ListNotations.

(** ** Fields *)
Section Fields.
  Variable R : Type.
  Variable zero : R.

  (** a number: float or complex *)
  Inductive number := RealNum (x : R) | ComplexNum (re im : R).
  (** a DOFArray: for each group, for each element, its values *)
  Inductive dofarray := RealDof (d : list (list (list R))) | ComplexDof (d : list (list (list (R * R)))).
  (** what can be given as a field; dataclass instances with the names and values of their attributes *)
  Inductive fval :=
  | VNone
  | VNum (n : number)
  | VDof (d : dofarray)
  | VObj (l : list fval)
  | VData (l : list (string * fval))
  | VOther.
  (** a numpy array with one axis *)
  Inductive narr := RealArr (l : list R) | ComplexArr (l : list (R * R)).
  (** a field after resampling: a numpy array or an object array *)
  Inductive rval := RArr (a : narr) | RObj (l : list rval).

  (** *** preprocess_fields (:189-214) *)
  Definition is_nonempty (v : fval) : bool :=
    match v with
    | VNone => false
    | VObj [] => false
    | _ => true
    end.
  Definition preprocess_fields (nf : list (string * fval)) : list (string * fval) :=
    fold_left (fun result (f : string * fval) => let (name, field) := f in
      match field with
      | VData attrs =>
          fold_left (fun result (a : string * fval) => let (aname, value) := a in
            if is_nonempty value then result ++ [((name ++ "_" ++ aname)%string, value)] else result) attrs result
      | _ => if is_nonempty field then result ++ [(name, field)] else result
      end) nf [].

  (** *** _resample_to_numpy (:127-186) *)
  (** conn(vec) *)
  Variable conn : dofarray -> res dofarray.
  (** (nelements, nunit_dofs) of the groups of vis_discr = conn.to_discr *)
  Variable groups : list (nat * nat).

  Definition rect_shape {A} (rows : list (list A)) (nunit : nat) : list nat :=
    [length rows; match rows with r :: _ => length r | [] => nunit end].
  (** the shapes of the group arrays; an array without elements has the expected number of columns *)
  Definition dof_shapes (d : dofarray) : list (list nat) :=
    match d with
    | RealDof d => map (fun dn : list (list R) * nat => rect_shape (fst dn) (snd dn)) (combine d (map snd groups ++ repeat 0 (length d)))
    | ComplexDof d => map (fun dn : list (list (R * R)) * nat => rect_shape (fst dn) (snd dn)) (combine d (map snd groups ++ repeat 0 (length d)))
    end.
  Definition full (n : nat) (x : number) : narr :=
    match x with RealNum x => RealArr (repeat x n) | ComplexNum re im => ComplexArr (repeat (re, im) n) end.
  Definition flatten_dof (d : dofarray) : narr :=
    match d with
    | RealDof d => RealArr (concat (map (@concat R) d))
    | ComplexDof d => ComplexArr (concat (map (@concat (R * R)) d))
    end.
  Definition ndofs (g : nat * nat) : nat := fst g * snd g.
  Definition check_vis (d : dofarray) : res unit := check_dofarray groups (Some (dof_shapes d)).

  (** stack=False, by_group=False *)
  Fixpoint resample (v : fval) : res rval :=
    match v with
    | VObj l => rs <- (fix go (l : list fval) : res (list rval) :=
                         match l with [] => Ok [] | v :: l => r <- resample v ;; rs <- go l ;; Ok (r :: rs) end) l ;; Ok (RObj rs)
    | VDof d => d' <- conn d ;; _ <- check_vis d' ;; Ok (RArr (flatten_dof d'))
    | VNum n => Ok (RArr (full (sum (map ndofs groups)) n))
    | VNone | VData _ | VOther => Err TypeError
    end.

  (** by_group=True: one array for each group *)
  Definition group_arrays (d : dofarray) : list narr :=
    match d with
    | RealDof d => map (fun g => RealArr (concat g)) d
    | ComplexDof d => map (fun g => ComplexArr (concat g)) d
    end.
  Definition resample_by_group1 (v : fval) : res (list narr) :=
    match v with
    | VDof d => d' <- conn d ;; _ <- check_vis d' ;; Ok (group_arrays d')
    | VNum n => Ok (map (fun g => full (ndofs g) n) groups)
    | VNone | VData _ | VOther | VObj _ => Err TypeError
    end.
  (** np.stack: the common dtype, all arrays of the same length *)
  Definition is_complex (a : narr) : bool := match a with RealArr _ => false | ComplexArr _ => true end.
  Definition to_complex (a : narr) : list (R * R) := match a with RealArr l => map (fun x => (x, zero)) l | ComplexArr l => l end.
  Definition narr_length (a : narr) : nat := match a with RealArr l => length l | ComplexArr l => length l end.
  Inductive narr2 := RealArr2 (l : list (list R)) | ComplexArr2 (l : list (list (R * R))).
  Definition real_rows (rows : list narr) : list (list R) := map (fun a => match a with RealArr l => l | ComplexArr l => map fst l end) rows.
  Definition stack (rows : list narr) : res narr2 :=
    match rows with
    | [] => Err ValueError
    | r :: _ =>
        _ <- guard (forallb (fun a => narr_length a =? narr_length r) rows) ValueError ;;
        Ok (if existsb is_complex rows then ComplexArr2 (map to_complex rows) else RealArr2 (real_rows rows))
    end.
  (** a field in an XDMF file: one array for each group, with one axis or (object arrays) two.
      stack=True, by_group=True; object arrays that contain object arrays are not modelled. *)
  Inductive gval := G1 (a : narr) | G2 (a : narr2).
  Definition resample_by_group (v : fval) : res (list gval) :=
    match v with
    | VObj l =>
        vec <- mapM resample_by_group1 l ;;
        match vec with
        | [] => Err IndexError
        | v0 :: _ =>
            mapM (fun igrp => rows <- mapM (fun ri => get ri igrp) vec ;; a <- stack rows ;; Ok (G2 a)) (seq 0 (length v0))
        end
    | _ => r <- resample_by_group1 v ;; Ok (map G1 r)
    end.

  (** *** separate_by_real_and_imag (:79-114) *)
  Definition real_copy (a : narr) : narr := match a with RealArr l => RealArr l | ComplexArr l => RealArr (map fst l) end.
  Definition imag_copy (a : narr) : narr := match a with RealArr l => RealArr (map (fun _ => zero) l) | ComplexArr l => RealArr (map snd l) end.
  (** obj_array.vectorize(obj_array_real_copy, field) *)
  Fixpoint map_arrays (f : narr -> narr) (v : rval) : rval :=
    match v with RArr a => RArr (f a) | RObj l => RObj (map (map_arrays f) l) end.
  (** dtype.kind == "c"; the kind of an object array is "O" *)
  Definition kind_c (v : rval) : bool := match v with RArr a => is_complex a | RObj _ => false end.
  Definition separate1 (real_only : bool) (name : string) (field : rval) : res (list (string * rval)) :=
    c <- match field with
         | RObj l => v <- get l 0 ;; Ok (kind_c v)
         | RArr a => Ok (is_complex a)
         end ;;
    Ok (if c : bool then
          if real_only then [(name, map_arrays real_copy field)]
          else [((name ++ "_r")%string, map_arrays real_copy field); ((name ++ "_i")%string, map_arrays imag_copy field)]
        else [(name, field)]).
  Definition separate_by_real_and_imag (real_only : bool) (nf : list (string * rval)) : res (list (string * rval)) :=
    r <- mapM (fun f : string * rval => separate1 real_only (fst f) (snd f)) nf ;; Ok (concat r).

  (** The point data of write_vtk_file (:837-842, 880-883) *)
  Definition point_data (real_only : bool) (nf : list (string * fval)) : res (list (string * rval)) :=
    np_fields <- mapM (fun f : string * fval => r <- resample (snd f) ;; Ok (fst f, r)) (preprocess_fields nf) ;;
    separate_by_real_and_imag real_only np_fields.

  (** The fields of write_xdmf_file (:1181-1187, 1272-1276).  The resampled field is an object array with one entry for each group, the first entry
      tells whether it is complex; the result has one entry for each field, which has one for each group. *)
  Definition gkind_c (g : gval) : bool := match g with G1 a => is_complex a | G2 (RealArr2 _) => false | G2 (ComplexArr2 _) => true end.
  Definition greal_copy (g : gval) : gval :=
    match g with G1 a => G1 (real_copy a) | G2 (RealArr2 l) => G2 (RealArr2 l) | G2 (ComplexArr2 l) => G2 (RealArr2 (map (map fst) l)) end.
  Definition gimag_copy (g : gval) : gval :=
    match g with G1 a => G1 (imag_copy a) | G2 (RealArr2 l) => G2 (RealArr2 (map (map (fun _ => zero)) l)) | G2 (ComplexArr2 l) => G2 (RealArr2 (map (map snd) l)) end.
  Definition gseparate1 (real_only : bool) (name : string) (field : list gval) : res (list (string * list gval)) :=
    g0 <- get field 0 ;;
    Ok (if gkind_c g0 then
          if real_only then [(name, map greal_copy field)]
          else [((name ++ "_r")%string, map greal_copy field); ((name ++ "_i")%string, map gimag_copy field)]
        else [(name, field)]).
  Definition xdmf_data (real_only : bool) (nf : list (string * fval)) : res (list (string * list gval)) :=
    np_fields <- mapM (fun f : string * fval => r <- resample_by_group (snd f) ;; Ok (fst f, r)) (preprocess_fields nf) ;;
    r <- mapM (fun f : string * list gval => gseparate1 real_only (fst f) (snd f)) np_fields ;; Ok (concat r).
End Fields.
Arguments RealNum {R}. Arguments ComplexNum {R}. Arguments RealDof {R}. Arguments ComplexDof {R}.
Arguments VNone {R}. Arguments VNum {R}. Arguments VDof {R}. Arguments VObj {R}. Arguments VData {R}. Arguments VOther {R}.
Arguments RealArr {R}. Arguments ComplexArr {R}. Arguments RArr {R}. Arguments RObj {R}.
Arguments RealArr2 {R}. Arguments ComplexArr2 {R}. Arguments G1 {R}. Arguments G2 {R}.

(** ** Files *)
Section Files.
  Variable content : Type.
  (** the files of a directory *)
  Definition fs : Type := string -> option content.
  Definition fs_write (s : fs) (n : string) (c : content) : fs := fun m => if (m =? n)%string then Some c else s m.
  Definition fs_remove (s : fs) (n : string) : fs := fun m => if (m =? n)%string then None else s m.
  Definition exists_ (s : fs) (n : string) : bool := match s n with Some _ => true | None => false end.
  (** what a function did to the files, and whether it raised FileExistsError or ValueError *)
  Inductive outcome := Done | FileExistsError | Raised (e : exn).

  (** the visualization file and the manifest with the names of the other files *)
  Variable vtu : content.
  Variable manifest : list string -> content.
  (** os.path.relpath(pn, start=os.path.dirname(par_manifest_filename)) *)
  Variable relname : string -> string -> string.

  (** write_vtk_file (:887-933) *)
  Definition write_vtk_file (s : fs) (file_name : string) (overwrite : bool) (par_manifest : option string) (par_files : option (list string)) : outcome * fs :=
    let responsible := match par_files with Some (f :: _) => (f =? file_name)%string | _ => false end in
    if exists_ s file_name && negb overwrite then (FileExistsError, s)
    else if match par_manifest with Some m => responsible && exists_ s m && negb overwrite | None => false end then (FileExistsError, s)
    else
      let s1 := fs_write s file_name vtu in
      match par_files with
      | None => (Done, s1)
      | Some fns =>
          match par_manifest with
          | None => (Raised ValueError, s1)
          | Some m => if responsible then (Done, fs_write s1 m (manifest (map (relname m) fns))) else (Done, s1)
          end
      end.

  (** write_parallel_vtk_file (:748-776); [fmt r] is file_name_pattern.format(rank=r), [comm] the rank and the number of ranks *)
  Definition ends_with_vtu (n : string) : bool := ((substring (String.length n - 4) 4 n) =? ".vtu")%string.
  Definition manifest_name (n : string) : string := (substring 0 (String.length n - 4) n ++ ".pvtu")%string.
  Definition write_parallel_vtk_file (s : fs) (comm : option (nat * nat)) (fmt : nat -> string) (overwrite : bool) (par_manifest : option string) : outcome * fs :=
    let '(rank, nranks) := match comm with Some c => c | None => (0, 1) end in
    match match par_manifest with
          | Some m => Ok m
          | None => if ends_with_vtu (fmt 0) then Ok (manifest_name (fmt 0)) else Err ValueError
          end with
    | Err e => (Raised e, s)
    | Ok m => write_vtk_file s (fmt rank) overwrite (Some m) (Some (map fmt (seq 0 nranks)))
    end.

  (** write_vertex_vtk_file, write_stl_file (mesh/visualization.py:295-303, 406-413) and write_nodal_adjacency_vtk_file (:1493-1501) *)
  Definition write_removing (s : fs) (file_name : string) (overwrite : bool) : outcome * fs :=
    if exists_ s file_name then
      if overwrite then (Done, fs_write (fs_remove s file_name) file_name vtu) else (FileExistsError, s)
    else (Done, fs_write s file_name vtu).

  (** write_vtkhdf_file (:983-985, 1024): h5py.File(file_name, "w") *)
  Variable splitext : string -> string * string.
  Definition write_vtkhdf_file (s : fs) (file_name : string) (overwrite : bool) : outcome * fs :=
    if (snd (splitext file_name) =? ".hdf")%string then (Done, fs_write s file_name vtu) else (Raised ValueError, s).
  (** write_xdmf_file (:1176-1177, 1220-1227, 1286-1288); XdmfWriter.write_pretty opens the file for writing *)
  Definition write_xdmf_file (s : fs) (file_name : string) (ambient_dim : nat) (overwrite : bool) : outcome * fs :=
    let h5 := (fst (splitext file_name) ++ ".h5")%string in
    if (ambient_dim =? 2) || (ambient_dim =? 3) then (Done, fs_write (fs_write s h5 vtu) file_name vtu) else (Raised ValueError, s).
End Files.
Arguments fs_write {content}. Arguments exists_ {content}. Arguments fs_remove {content}.

(** ** Options of write_vtkhdf_file (:970-981) and write_xdmf_file (:1164-1174)
    The dictionary of options belongs to the caller; None is returned as the dictionary if the caller did not give one. *)
Section Options.
  Variable V : Type.   (* values in the dictionary *)
  Variable mpio : V.
  Variable veqb : V -> V -> bool.
  Definition dict : Type := list (string * V).
  Definition dict_get (d : dict) (k : string) : option V := match find (fun kv : string * V => (fst kv =? k)%string) d with Some kv => Some (snd kv) | None => None end.
  Fixpoint dict_set (d : dict) (k : string) (v : V) : dict :=
    match d with
    | [] => [(k, v)]
    | (k', v') :: d => if (k' =? k)%string then (k', v) :: d else (k', v') :: dict_set d k v
    end.
  (** the options h5py.File is called with, and the caller's dictionary afterwards *)
  Definition vtkhdf_options (comm : option V) (opts : option dict) : res dict * option dict :=
    let d0 := match opts with Some d => d | None => [] end in
    match comm with
    | None => (Ok d0, opts)
    | Some c =>
        let d1 := dict_set d0 "comm" c in
        let back d := match opts with Some _ => Some d | None => None end in
        match dict_get d1 "driver" with
        | None => let d2 := dict_set d1 "driver" mpio in (Ok d2, back d2)
        | Some v => if veqb v mpio then (Ok d1, back d1) else (Err ValueError, back d1)
        end
    end.
  Definition xdmf_options (opts : option dict) : res dict :=
    let d0 := match opts with Some d => d | None => [] end in
    if match dict_get d0 "comm" with Some _ => true | None => false end || match dict_get d0 "driver" with Some v => veqb v mpio | None => false end
    then Err NotImplementedError else Ok d0.
End Options.

(** ** Datasets of write_vtkhdf_file written by several ranks (:1011-1107) *)
Section Hdf.
  Variable R : Type.
  Variable zero : R.
  (** what a rank has: nodes as rows of coordinates, connectivity, offsets and cell types *)
  Record hdf_local : Type := mk_hdf_local {
    hl_cells : nat; hl_nodes : list (list R); hl_conn : list nat; hl_offsets : list nat; hl_types : list nat }.
  (** dset[offset:offset + data.shape[0]] = data for a dataset of the given length, None where nothing has been written; h5py fails if the
      slice is not inside of the dataset *)
  Definition dset_write {A} (dset : list (option A)) (offset : nat) (data : list A) : res (list (option A)) :=
    if offset + length data <=? length dset
    then Ok (firstn offset dset ++ map Some data ++ skipn (offset + length data) dset) else Err ValueError.
  (** create_dataset pads rows with fewer than three entries; [width] is shape[1] *)
  Definition pad_row (width : nat) (r : list R) : list R := r ++ repeat zero (3 - width).
  Definition pad_rows (width : nat) (rows : list (list R)) : list (list R) := if width <? 3 then map (pad_row width) rows else rows.

  (** comm.scan and comm.allreduce *)
  Definition scan (f : hdf_local -> nat) (ranks : list hdf_local) (r : nat) : nat := sum (map f (firstn (S r) ranks)).
  Definition allreduce (f : hdf_local -> nat) (ranks : list hdf_local) : nat := sum (map f ranks).

  Record hdf_file : Type := mk_hdf_file {
    hf_ncells : list (option nat); hf_npoints : list (option nat); hf_nconn : list (option nat);
    hf_points : list (option (list R)); hf_conn : list (option nat); hf_offsets : list (option nat); hf_types : list (option nat) }.
  Definition empty_file (ranks : list hdf_local) : hdf_file :=
    let p := length ranks in
    mk_hdf_file (repeat None p) (repeat None p) (repeat None p)
      (repeat None (allreduce (fun h => length (hl_nodes h)) ranks)) (repeat None (allreduce (fun h => length (hl_conn h)) ranks))
      (repeat None (allreduce hl_cells ranks + p)) (repeat None (allreduce hl_cells ranks)).
  (** what one rank writes (:1049-1091) *)
  Definition write_rank (width : nat) (ranks : list hdf_local) (f : hdf_file) (r : nat) : res hdf_file :=
    h <- get ranks r ;;
    let node_count := length (hl_nodes h) in
    let conn_count := length (hl_conn h) in
    let cell_offset := scan hl_cells ranks r - hl_cells h in
    let node_offset := scan (fun h => length (hl_nodes h)) ranks r - node_count in
    let conn_offset := scan (fun h => length (hl_conn h)) ranks r - conn_count in
    nc <- dset_write (hf_ncells f) r [hl_cells h] ;;
    np <- dset_write (hf_npoints f) r [node_count] ;;
    ni <- dset_write (hf_nconn f) r [conn_count] ;;
    pts <- dset_write (hf_points f) node_offset (pad_rows width (hl_nodes h)) ;;
    co <- dset_write (hf_conn f) conn_offset (hl_conn h) ;;
    off <- dset_write (hf_offsets f) (cell_offset + r) (hl_offsets h) ;;
    ty <- dset_write (hf_types f) cell_offset (hl_types h) ;;
    Ok (mk_hdf_file nc np ni pts co off ty).
  (** the ranks write in the order [order] *)
  Definition write_ranks (width : nat) (ranks : list hdf_local) (order : list nat) : res hdf_file :=
    foldM (write_rank width ranks) order (empty_file ranks).
  (** point data (:1096-1105) of one name; [width] is None for arrays with one axis *)
  Definition write_field {A} (pad : list A -> list A) (data : list (list A)) (counts : list nat) (order : list nat) : res (list (option A)) :=
    foldM (fun d r => x <- get data r ;; n <- get counts r ;; dset_write d (sum (firstn (S r) counts) - n) (pad x)) order (repeat None (sum counts)).
End Hdf.
Arguments mk_hdf_local {R}. Arguments hl_cells {R}. Arguments hl_nodes {R}. Arguments hl_conn {R}. Arguments hl_offsets {R}. Arguments hl_types {R}.
Arguments hf_ncells {R}. Arguments hf_npoints {R}. Arguments hf_nconn {R}. Arguments hf_points {R}. Arguments hf_conn {R}. Arguments hf_offsets {R}. Arguments hf_types {R}.

(** ** Visualizers *)
Section Visualizers.
  (** discretization keys, unit nodes and factories of element groups *)
  Variables (key U F : Type).
  Variable keqb : key -> key -> bool.
  (** a mesh element group: its class and dimension as a shape, and the number of elements *)
  Record mgrp : Type := mk_mgrp { mg_shape : shape; mg_nel : nat }.
  (** a mesh is an object with an identity *)
  Record vmesh : Type := mk_vmesh { vm_id : nat; vm_groups : list mgrp }.
  Record dgrp : Type := mk_dgrp { dg_mesh : mgrp; dg_key : key; dg_unit : U }.
  Record discr : Type := mk_discr { d_id : nat; d_mesh : vmesh; d_factory : F; d_groups : list dgrp }.
  (** what a factory makes of a mesh element group: a key and unit nodes *)
  Variable apply_factory : F -> mgrp -> res (key * U).
  (** InterpolatoryEquidistantGroupFactory(order), InterpolatoryEdgeClusteredGroupFactory(order) *)
  Variables equidistant edge_clustered : nat -> F.

  (** Discretization(actx, mesh, group_factory); [id] is the identity of the new object *)
  Definition make_discr (id : nat) (m : vmesh) (f : F) : res discr :=
    gs <- mapM (fun mg => ku <- apply_factory f mg ;; Ok (mk_dgrp mg (fst ku) (snd ku))) (vm_groups m) ;;
    Ok (mk_discr id m f gs).

  (** connections: InterpolationBatch with the group, the elements of both sides and the unit nodes *)
  Record vbatch : Type := mk_vbatch { vb_group : nat; vb_from : list nat; vb_to : list nat; vb_unit : U }.
  Inductive vconn := IdentityConn (d : discr) | DirectConn (from to : discr) (groups : list (list vbatch)).
  Definition conn_from (c : vconn) : discr := match c with IdentityConn d => d | DirectConn d _ _ => d end.
  Definition conn_to (c : vconn) : discr := match c with IdentityConn d => d | DirectConn _ d _ => d end.

  (** make_same_mesh_connection (connection/same_mesh.py:41-87) *)
  Definition make_same_mesh_connection (to from : discr) : res vconn :=
    if negb (vm_id (d_mesh from) =? vm_id (d_mesh to)) then Err ValueError
    else if d_id from =? d_id to then Ok (IdentityConn from)
    else
      _ <- guard (length (d_groups from) =? length (d_groups to)) ValueError ;;
      Ok (DirectConn from to
        (map (fun ift : nat * (dgrp * dgrp) =>
           let all := seq 0 (mg_nel (dg_mesh (fst (snd ift)))) in
           [mk_vbatch (fst ift) all all (dg_unit (snd (snd ift)))]) (enumerate (combine (d_groups from) (d_groups to))))).

  (** a Visualizer: connection, element_shrink_factor, is_equidistant, and the connections of the cached connectivities *)
  Record visualizer (S : Type) : Type := mk_visualizer { v_conn : vconn; v_shrink : S; v_equi : bool; v_linear : option vconn; v_lagrange : option vconn }.
  Arguments mk_visualizer {S}. Arguments v_conn {S}. Arguments v_shrink {S}. Arguments v_equi {S}. Arguments v_linear {S}. Arguments v_lagrange {S}.
  Variable S : Type.
  Variable one : S.

  (** make_visualizer (:1374-1420) *)
  Definition make_visualizer (fresh : nat) (d : discr) (vis_order : option nat) (shrink : option S) (force_equidistant : bool) : res (visualizer S) :=
    vis <- (if match shrink with None => true | Some _ => false end && negb force_equidistant && match vis_order with None => true | Some _ => false end
            then Ok d
            else match vis_order with
                 | None => Err AssertionError
                 | Some order =>
                     vis <- make_discr fresh (d_mesh d) (if force_equidistant then equidistant order else edge_clustered order) ;;
                     _ <- guard (length (d_groups d) =? length (d_groups vis)) ValueError ;;
                     Ok (if forallb (fun gv : dgrp * dgrp => keqb (dg_key (fst gv)) (dg_key (snd gv))) (combine (d_groups d) (d_groups vis)) then d else vis)
                 end) ;;
    c <- make_same_mesh_connection vis d ;;
    Ok (mk_visualizer c (match shrink with Some s => s | None => one end) force_equidistant None None).

  (** _check_discr_same_connectivity (:252-261) *)
  Definition check_same_connectivity (a b : discr) : bool :=
    (length (d_groups a) =? length (d_groups b)) &&
    forallb (fun so : dgrp * dgrp => keqb (dg_key (fst so)) (dg_key (snd so)) && (mg_nel (dg_mesh (fst so)) =? mg_nel (dg_mesh (snd so)))) (combine (d_groups a) (d_groups b)).

  (** copy_with_same_connectivity (:592-627) *)
  Definition copy_with_same_connectivity (fresh : nat) (v : visualizer S) (d : discr) (skip_tests : bool) : res (visualizer S) :=
    let old := v_conn v in
    _ <- guard (skip_tests || check_same_connectivity d (conn_from old)) ValueError ;;
    vis <- make_discr fresh (d_mesh d) (d_factory (conn_to old)) ;;
    match old with
    | IdentityConn _ => Err AssertionError
    | DirectConn _ _ groups =>
        Ok (mk_visualizer (DirectConn d vis groups) (v_shrink v) (v_equi v) (v_linear v) (v_lagrange v))
    end.

  (** _vtk_connectivity (:694-719): the connection whose to_discr the connectivity is computed from, and the visualizer afterwards.
      True in the first component: high order elements. *)
  Definition vtk_connectivity (v : visualizer S) (use_high_order : bool) : res vconn * visualizer S :=
    if use_high_order then
      if v_equi v then
        match v_lagrange v with
        | Some c => (Ok c, v)
        | None => (Ok (v_conn v), mk_visualizer (v_conn v) (v_shrink v) (v_equi v) (v_linear v) (Some (v_conn v)))
        end
      else (Err RuntimeError, v)
    else
      match v_linear v with
      | Some c => (Ok c, v)
      | None => (Ok (v_conn v), mk_visualizer (v_conn v) (v_shrink v) (v_equi v) (Some (v_conn v)) (v_lagrange v))
      end.
End Visualizers.
Arguments mk_dgrp {key U}. Arguments dg_mesh {key U}. Arguments dg_key {key U}. Arguments dg_unit {key U}.
Arguments mk_discr {key U F}. Arguments d_id {key U F}. Arguments d_mesh {key U F}. Arguments d_factory {key U F}. Arguments d_groups {key U F}.
Arguments mk_vbatch {U}. Arguments vb_group {U}. Arguments vb_from {U}. Arguments vb_to {U}. Arguments vb_unit {U}.
Arguments IdentityConn {key U F}. Arguments DirectConn {key U F}. Arguments conn_from {key U F}. Arguments conn_to {key U F}.
Arguments mk_visualizer {key U F S}. Arguments v_conn {key U F S}. Arguments v_shrink {key U F S}. Arguments v_equi {key U F S}. Arguments v_linear {key U F S}. Arguments v_lagrange {key U F S}.

(** ** Files made from the vertices of a mesh *)
Inductive mclass := MSimplex | MTensor | MOther.
Record vgroup : Type := mk_vgroup { vgr_class : mclass; vgr_dim : nat; vgr_vi : list (list nat) }.

(** zip(mesh.base_element_nrs, mesh.groups, strict=True); there is one base if there are no groups *)
Definition zip_bases (groups : list vgroup) : res (list (nat * vgroup)) :=
  let bases := base_element_nrs (map (fun g => length (vgr_vi g)) groups) in
  _ <- guard (length bases =? length groups) ValueError ;; Ok (combine bases groups).

Section VertexFiles.
  (** write_vertex_vtk_file: cell types of VTK by dimension *)
  Variables simplex_type tensor_type : nat -> option nat.
  (** (:232-256) *)
  Definition vertex_cell_types (groups : list vgroup) : res (list nat) :=
    zb <- zip_bases groups ;;
    types <- foldM (fun ts (bg : nat * vgroup) => let (base, g) := bg in
               ty <- match vgr_class g with
                     | MSimplex => lookup_type simplex_type (vgr_dim g)
                     | MTensor => lookup_type tensor_type (vgr_dim g)
                     | MOther => Err NotImplementedError
                     end ;;
               Ok (assign_slice ts base (base + length (vgr_vi g)) ty)) zb (repeat 255 (sum (map (fun g => length (vgr_vi g)) groups))) ;;
    _ <- guard (forallb (fun t => negb (t =? 255)) types) AssertionError ;;
    Ok types.
  (** (:267-271) *)
  Definition tensor_order (dim : nat) : res (list nat) :=
    match dim with
    | 1 => Ok [0; 1]
    | 2 => Ok [0; 1; 3; 2]
    | 3 => Ok [0; 1; 3; 2; 4; 5; 7; 6]
    | _ => Err KeyError
    end.
  (** (:262-285); each slice of [cells] is written once, one after the other *)
  Definition vertex_cells (groups : list vgroup) : res (list nat) :=
    foldM (fun cells g =>
      rows <- match vgr_class g with
              | MSimplex => Ok (vgr_vi g)
              | MTensor => ord <- tensor_order (vgr_dim g) ;; mapM (fun row => take row ord) (vgr_vi g)
              | MOther => Err TypeError
              end ;;
      _ <- guard (length (concat rows) =? length (concat (vgr_vi g))) ValueError ;;
      Ok (cells ++ concat rows)) groups [].
  Definition write_vertex_vtk (groups : list vgroup) : res (list nat * list nat) :=
    types <- vertex_cell_types groups ;; cells <- vertex_cells groups ;; Ok (cells, types).

  (** write_stl_file (:385-404): the triangles of the file *)
  Variable P : Type.   (* points *)
  Definition write_stl (ambient_dim : nat) (vertices : list P) (groups : list vgroup) : res (list (list P)) :=
    match groups with
    | [g] =>
        _ <- guard (ambient_dim =? 3) ValueError ;;
        _ <- guard (match vgr_class g with MSimplex => vgr_dim g =? 2 | _ => false end) ValueError ;;
        faces <- mapM (fun row => take vertices row) (vgr_vi g) ;;
        mapM (fun face => mapM (fun iv => get face iv) (seq 0 3)) faces
    | _ => Err NotImplementedError
    end.

  (** mesh_to_tikz (:310-342): coordinates with their names, and the cycles that are drawn *)
  Inductive coord_name := Cent (el : nat) | Vert (el i : nat).
  Variable average : list P -> P.
  Definition mesh_to_tikz (vertices : list P) (groups : list vgroup) : res (list (coord_name * P) * list (list coord_name)) :=
    zb <- zip_bases groups ;;
    foldM (fun (st : list (coord_name * P) * list (list coord_name)) (bg : nat * vgroup) => let (base, g) := bg in
      foldM (fun (st : list (coord_name * P) * list (list coord_name)) (ie : nat * list nat) => let (iel, el) := ie in
        let '(lines, drawel) := st in
        let el_nr := base + iel + 1 in
        elverts <- take vertices el ;;
        Ok (lines ++ (Cent el_nr, average elverts) :: map (fun iv : nat * P => (Vert el_nr (fst iv + 1), snd iv)) (enumerate elverts),
            drawel ++ [map (fun vi => Vert el_nr (vi + 1)) (seq 0 (length elverts))])) (enumerate (vgr_vi g)) st) zb ([], []).

  (** write_nodal_adjacency_vtk_file (:1464-1482): centroids and lines; [garbage]: the contents of np.empty *)
  Variable mean_of : list P -> P.
  Definition adjacency_points (garbage : list P) (vertices : list P) (groups : list vgroup) : res (list P) :=
    zb <- zip_bases groups ;;
    foldM (fun cs (bg : nat * vgroup) => let (base, g) := bg in
      vs <- mapM (fun el => elverts <- take vertices el ;; Ok (mean_of elverts)) (vgr_vi g) ;;
      Ok (fold_left (fun cs (iv : nat * P) => upd cs (base + fst iv) (snd iv)) (enumerate vs) cs)) zb garbage.
  Definition adjacency_lines (garbage : list nat) (nelements : nat) (starts neighbors : list nat) : res (list (nat * nat)) :=
    col0 <- foldM (fun c iel => lo <- get starts iel ;; hi <- get starts (iel + 1) ;; Ok (assign_slice c lo hi iel)) (seq 0 nelements) garbage ;;
    Ok (combine col0 neighbors).
End VertexFiles.
Arguments Cent _ : assert. Arguments Vert _ _ : assert.
