(** * BoxModel: meshes of boxes.

    Models generate_box_mesh (meshmode/mesh/generation.py:1191-1637), generate_regular_rect_mesh (:1644-1720) and the vertices
    that make_group_from_vertices (:489-573) hands to each element.

    Simplified: coordinates are elements of a commutative ring with a number [half] (for 0.5*(left+right)); the nodes of an element are
    an arbitrary function of its vertices; face_vertex_indices() of the group (modepy.faces_for_shape) is an argument; integer types are unbounded.
    Face identifiers such as "+x" are strings.  A strided assignment el_vertices[isub::nsub, ivert] = vert for all isub, ivert is written as the rows in order.
    The facial adjacency is computed at once, not at first use, and the consistency check of make_mesh is left out.
    No proofs in this file. *)
From Coq Require Import String Ascii List Arith Bool ZArith.
From Verif Require Import Np MeshModel MeshStateModel Lin Ord AffineModel PointModel GlueModel.
Import ListNotations.

(** issubclass(group_cls, SimplexElementGroup), issubclass(group_cls, TensorProductElementGroup), neither *)
Inductive gcls : Type := GSimplex | GTensor | GOther.
(** mesh_type: None, "X", anything else *)
Inductive mtype : Type := MNone | MX | MOther.

(** pytools.product of a shape *)
Definition size (shape : list nat) : nat := fold_right Nat.mul 1 shape.

(** np.ndindex(shape): row-major order *)
Fixpoint ndindex (shape : list nat) : list (list nat) :=
  match shape with
  | [] => [[]]
  | n :: s => flat_map (fun i => map (cons i) (ndindex s)) (seq 0 n)
  end.

(** np.arange(size shape).reshape(shape)[itup] *)
Fixpoint ravel (shape itup : list nat) : res nat :=
  match shape, itup with
  | [], [] => Ok 0
  | n :: s, i :: t => _ <- guard (i <? n) IndexError ;; r <- ravel s t ;; Ok (i * size s + r)
  | _, _ => Err IndexError
  end.
(** the same with order="F" *)
Fixpoint ravelF (shape itup : list nat) : res nat :=
  match shape, itup with
  | [], [] => Ok 0
  | n :: s, i :: t => _ <- guard (i <? n) IndexError ;; r <- ravelF s t ;; Ok (i + n * r)
  | _, _ => Err IndexError
  end.
(** np.ndindex in the order of memory for order="F" *)
Fixpoint ndindexF (shape : list nat) : list (list nat) :=
  match shape with
  | [] => [[]]
  | n :: s => flat_map (fun t => map (fun i => i :: t) (seq 0 n)) (ndindexF s)
  end.

Definition tup_add (a b : list nat) : list nat := map2 Nat.add a b.

(** A vertex of a subelement: a corner of the cell (the digits of a00, a01, ...), or the midpoint of the cell *)
Inductive corner : Type := Cn (off : list nat) | Mid.

(** A side of the box, "-0" is (false, 0) and "+2" is (true, 2) *)
Definition side : Type := bool * nat.
Definition side_eqb (a b : side) : bool := Bool.eqb (fst a) (fst b) && (snd a =? snd b).

(** box_faces (:1303-1306) *)
Definition box_faces (dim : nat) : list side :=
  flat_map (fun axis => [(false, axis); (true, axis)]) (seq 0 dim).

(** The decomposition of a cell: the vertices of each subelement, the number of vertices per element, the subelements at each side of the box *)
Record cellplan : Type := mk_plan { cp_table : list (list corner); cp_nv : nat; cp_offsets : side -> list nat }.

(** Two dimensions (:1330-1447) *)
Definition quad_plan : cellplan :=
  mk_plan [[Cn [0;0]; Cn [1;0]; Cn [0;1]; Cn [1;1]]] 4 (fun _ => [0]).
Definition x_plan : cellplan :=
  mk_plan [[Cn [0;0]; Cn [1;0]; Mid]; [Cn [1;0]; Cn [1;1]; Mid]; [Cn [1;1]; Cn [0;1]; Mid]; [Cn [0;1]; Cn [0;0]; Mid]] 3
    (fun s => match s with (false, 0) => [3] | (true, 0) => [1] | (false, _) => [0] | (true, _) => [2] end).
Definition tri_plan : cellplan :=
  mk_plan [[Cn [0;0]; Cn [1;0]; Cn [0;1]]; [Cn [1;1]; Cn [0;1]; Cn [1;0]]] 3
    (fun s => if fst s then [1] else [0]).
(** Three dimensions (:1449-1532) *)
Definition hex_plan : cellplan :=
  mk_plan [[Cn [0;0;0]; Cn [1;0;0]; Cn [0;1;0]; Cn [1;1;0]; Cn [0;0;1]; Cn [1;0;1]; Cn [0;1;1]; Cn [1;1;1]]] 8 (fun _ => [0]).
Definition tet_plan : cellplan :=
  mk_plan [[Cn [0;0;0]; Cn [1;0;0]; Cn [0;1;0]; Cn [0;0;1]];
           [Cn [1;0;1]; Cn [1;0;0]; Cn [0;0;1]; Cn [0;1;0]];
           [Cn [1;0;1]; Cn [0;1;1]; Cn [0;1;0]; Cn [0;0;1]];
           [Cn [1;0;0]; Cn [0;1;0]; Cn [1;0;1]; Cn [1;1;0]];
           [Cn [0;1;1]; Cn [0;1;0]; Cn [1;1;0]; Cn [1;0;1]];
           [Cn [0;1;1]; Cn [1;1;1]; Cn [1;0;1]; Cn [1;1;0]]] 4
    (fun s => match s with
              | (false, 0) => [0; 2] | (true, 0) => [3; 5]
              | (false, 1) => [0; 1] | (true, 1) => [4; 5]
              | (false, _) => [0; 3] | (true, _) => [2; 5]
              end).

(** The choice among them; dimension 1 is computed differently, see below *)
Definition cell_plan (dim : nat) (is_tp : bool) (mt : mtype) : res cellplan :=
  match dim, is_tp, mt with
  | 2, true, MNone => Ok quad_plan
  | 2, false, MX => Ok x_plan
  | 2, false, MNone => Ok tri_plan
  | 3, true, MNone => Ok hex_plan
  | 3, false, MNone => Ok tet_plan
  | 2, _, _ | 3, _, _ => Err ValueError
  | _, _, _ => Err NotImplementedError
  end.

(** vertex number of a corner of the cell at [t]; midpoints are numbered in Fortran order after the grid points (:1339-1342) *)
Definition corner_index (shape shape_m1 : list nat) (t : list nat) (c : corner) : res nat :=
  match c with
  | Cn off => ravel shape (tup_add t off)
  | Mid => r <- ravelF shape_m1 t ;; Ok (size shape + r)
  end.

(** el_vertices (:1369-1381, 1391-1403, 1421-1429, 1467-1486, 1497-1509) *)
Definition cell_rows (shape shape_m1 : list nat) (table : list (list corner)) : res (list (list nat)) :=
  rows <- mapM (fun t => mapM (mapM (corner_index shape shape_m1 t)) table) (ndindex shape_m1) ;; Ok (concat rows).

(** box_face_to_elements: the cells with base_idx_tuples[:, axis] == idx_face, then the subelements (:1383-1389, 1405-1418, 1431-1442, 1488-1494, 1511-1527) *)
Definition face_elements (shape_m1 : list nat) (nsub : nat) (offsets : side -> list nat) (s : side) : res (list nat) :=
  n <- get shape_m1 (snd s) ;;
  let idx_face := if fst s then n - 1 else 0 in
  hits <- mapM (fun t => i <- get t (snd s) ;; Ok (i =? idx_face)) (ndindex shape_m1) ;;
  let cells := where_ hits in
  Ok (concat (map (fun off => map (fun c => nsub * c + off) cells) (offsets s))).

(** The face identifier: "-x" etc. (:1559-1575) *)
Definition axis_index (c : ascii) : option nat :=
  if Ascii.eqb c "x" then Some 0 else if Ascii.eqb c "y" then Some 1
  else if Ascii.eqb c "z" then Some 2 else if Ascii.eqb c "w" then Some 3 else None.
Definition parse_side (dim : nat) (s : string) : res side :=
  match s with
  | String sd (String ax EmptyString) =>
      match axis_index ax with
      | None => Err ValueError
      | Some axis =>
          _ <- guard (axis <? dim) ValueError ;;
          if Ascii.eqb sd "-" then Ok (false, axis)
          else if Ascii.eqb sd "+" then Ok (true, axis) else Err ValueError
      end
  | _ => Err ValueError
  end.

(** dict.setdefault(key, []).append(tag) *)
Fixpoint add_tag (d : list (side * list btag)) (s : side) (t : btag) : list (side * list btag) :=
  match d with
  | [] => [(s, [t])]
  | (s', ts) :: d' => if side_eqb s' s then (s', ts ++ [t]) :: d' else (s', ts) :: add_tag d' s t
  end.
Fixpoint side_tags (d : list (side * list btag)) (s : side) : option (list btag) :=
  match d with
  | [] => None
  | (s', ts) :: d' => if side_eqb s' s then Some ts else side_tags d' s
  end.
(** box_face_to_tags (:1556-1576) *)
Definition tagdict : Type := list (btag * list string).
Definition box_face_to_tags (dim : nat) (dict : tagdict) : res (list (side * list btag)) :=
  foldM (fun d (tf : btag * list string) =>
           foldM (fun d f => s <- parse_side dim f ;; Ok (add_tag d s (fst tf))) (snd tf) d) dict [].

(** dict[frozenset(vs)] = tags *)
Fixpoint set_tags (m : tagmap) (vs : list nat) (ts : list btag) : tagmap :=
  match m with
  | [] => [(vs, ts)]
  | (k, ts') :: m' => if set_eqb k vs then (k, ts) :: m' else (k, ts') :: set_tags m' vs ts
  end.

(** vert_index_to_tuple (:1578-1582); None stands for (-1, ..., -1) *)
Definition vert_tuples (shape : list nat) (nvertices : nat) : res (list (option (list nat))) :=
  asg <- mapM (fun itup => i <- ravel shape itup ;; Ok (i, Some itup)) (ndindex shape) ;;
  scatter (repeat None nvertices) asg.

(** tuple[axis] == vert_face *)
Definition on_side (tuples : list (option (list nat))) (axis vert_face : nat) (v : nat) : res bool :=
  t <- get tuples v ;;
  match t with None => Ok false | Some t => i <- get t axis ;; Ok (i =? vert_face) end.

(** One reference face of one side (:1593-1600) *)
Definition tag_ref_face (vi : list (list nat)) (tuples : list (option (list nat))) (axis vert_face : nat) (tags : list btag)
    (elements : list nat) (m : tagmap) (ref : list nat) : res tagmap :=
  fvis <- mapM (fun e => row <- get vi e ;; take row ref) elements ;;
  flags <- mapM (fun fvi => bs <- mapM (on_side tuples axis vert_face) fvi ;; Ok (forallb (fun b => b) bs)) fvis ;;
  Ok (fold_left (fun m fvi => set_tags m fvi tags) (compress flags fvis) m).

(** face_vertex_indices_to_tags (:1584-1600) *)
Definition face_tags (shape : list nat) (vi : list (list nat)) (fvi : list (list nat)) (tuples : list (option (list nat)))
    (side_elements : list (side * list nat)) (tags : list (side * list btag)) : res tagmap :=
  foldM (fun m (se : side * list nat) =>
           match side_tags tags (fst se) with
           | None => Ok m
           | Some ts =>
               n <- get shape (snd (fst se)) ;;
               let vert_face := if fst (fst se) then n - 1 else 0 in
               foldM (tag_ref_face vi tuples (snd (fst se)) vert_face ts (snd se)) fvi m
           end) side_elements [].

(** boundary_tag_to_face[tag] = faces *)
Fixpoint dict_set (d : tagdict) (t : btag) (fs : list string) : tagdict :=
  match d with
  | [] => [(t, fs)]
  | (t', fs') :: d' => if btag_eqb t' t then (t', fs) :: d' else (t', fs') :: dict_set d' t fs
  end.

Definition axis_name (i : nat) : string :=
  match i with 0 => "x" | 1 => "y" | 2 => "z" | _ => "w" end%string.
Definition side_name (upper : bool) (i : nat) : string := append (if upper then "+" else "-")%string (axis_name i).

(** The tags of periodic sides (:1543-1548); [ptag upper i] is the tag f"periodic_{side_name upper i}" *)
Definition periodic_tags (ptag : bool -> nat -> btag) (dim : nat) (periodic : list bool) (dict : tagdict) : res tagdict :=
  foldM (fun d i =>
           p <- get periodic i ;;
           Ok (if p : bool then dict_set (dict_set d (ptag false i) [side_name false i]) (ptag true i) [side_name true i] else d))
        (seq 0 dim) dict.

Section Box.
  Variable R : cring.
  Variable half : R.
  Context {E A : Type}.
  Variable el_nodes : list (list R) -> E.
  Variable aff_id : A.
  Variable tag_order : list btag -> list btag.
  Variable ptag : bool -> nat -> btag.

  (** vertices (:1283-1288): vertices[idim] is axis_coords[idim] along axis idim and constant along the others *)
  Definition box_point (axes : list (list R)) (itup : list nat) : res (list R) :=
    mapM (fun ai : list R * nat => get (fst ai) (snd ai)) (combine axes itup).
  Definition box_vertices (axes : list (list R)) : res (list (list R)) :=
    mapM (box_point axes) (ndindex (map (@length R) axes)).

  (** midpoints (:1344-1353): 0.5*(axis_coords[idim][:-1] + axis_coords[idim][1:]) *)
  Definition axis_midpoints (ax : list R) : list R := map2 (fun l r => rmul half (radd l r)) (removelast ax) (tl ax).
  Definition midpoints (axes : list (list R)) (shape_m1 : list nat) : res (list (list R)) :=
    mapM (box_point (map axis_midpoints axes)) (ndindexF shape_m1).

  (** The part of generate_box_mesh up to the element group (:1262-1539): vertices, vertex indices, elements at each side *)
  Definition box_elements (axes : list (list R)) (cls : gcls) (mt : mtype)
    : res (list (list R) * list (list nat) * list (side * list nat)) :=
    _ <- guard (forallb (fun ax => negb (length ax =? 1)) axes) ValueError ;;
    let dim := length axes in
    let shape := map (@length R) axes in
    vertices <- box_vertices axes ;;
    is_tp <- match cls with GSimplex => Ok false | GTensor => Ok true | GOther => Err ValueError end ;;
    let shape_m1 := map (fun s => s - 1) shape in
    let no_elements := map (fun s => (s, [])) (box_faces dim) in
    match shape, shape_m1 with
    | [n], [n1] =>
        (* dim == 1 (:1308-1328) *)
        _ <- guard (match mt with MNone => true | _ => false end) ValueError ;;
        let vi := seq 0 n in
        if 0 <? n1
        then Ok (vertices, map2 (fun a b => [a; b]) (slice vi 0 n1) (slice vi 1 n), [((false, 0), [0]); ((true, 0), [n1 - 1])])
        else Ok (vertices, [], no_elements)
    | _, _ =>
        plan <- cell_plan dim is_tp mt ;;
        mids <- match mt with MX => midpoints axes shape_m1 | _ => Ok [] end ;;
        let vertices := vertices ++ mids in
        let nsub := length (cp_table plan) in
        if 0 <? nsub * size shape_m1
        then
          rows <- cell_rows shape shape_m1 (cp_table plan) ;;
          elems <- mapM (fun s => es <- face_elements shape_m1 nsub (cp_offsets plan) s ;; Ok (s, es)) (box_faces dim) ;;
          Ok (vertices, rows, elems)
        else Ok (vertices, [], no_elements)
    end.

  (** The mesh before its sides are glued, and the tag dictionary, which is changed in place when a side is periodic (:1537-1616).
      [dict = None] stands for boundary_tag_to_face=None.  order < 1 is an error for simplices (:503-505). *)
  Definition box_mesh (axes : list (list R)) (order : nat) (periodic : list bool) (cls : gcls) (fvi : list (list nat))
      (dict : option tagdict) (mt : mtype) : res (mesh E A (list R) * tagdict) :=
    let dict := match dict with None => [] | Some d => d end in
    els <- box_elements axes cls mt ;;
    let '(vertices, rows, side_elements) := els in
    let dim := length axes in
    let shape := map (@length R) axes in
    _ <- guard (match cls with GSimplex => 1 <=? order | _ => true end) ValueError ;;
    el_verts <- mapM (take vertices) rows ;;
    let grp := mk_egroup (Some rows) (map el_nodes el_verts) fvi in
    dict <- periodic_tags ptag dim periodic dict ;;
    facial <-
      match dict with
      | [] => compute_facial_adjacency aff_id tag_order None [grp]
      | _ =>
          tags <- box_face_to_tags dim dict ;;
          tuples <- vert_tuples shape (length vertices) ;;
          m <- face_tags shape rows fvi tuples side_elements tags ;;
          compute_facial_adjacency aff_id tag_order (Some m) [grp]
      end ;;
    Ok (mk_mesh [grp] (Some vertices) (Some true) Pending (Available facial) 0 0 0, dict).
End Box.

(** generate_box_mesh as a whole (:1191-1637); [small] is 1e-12, [periodic = None] stands for (False,)*dim *)
Section Periodic.
  Variable R : ocring.
  Variable half small : R.
  Context {E : Type}.
  Variable el_nodes : list (list R) -> E.
  Variable tag_order : list btag -> list btag.
  Variable ptag : bool -> nat -> btag.
  Variable median : list R -> R.
  Variable inv : list (list R) -> res (list (list R)).
  Variable fuel : nat.
  Local Open Scope cring_scope.

  Definition axis_offset (axes : list (list R)) (i : nat) : res (amap R * R) :=
    ax <- get axes i ;;
    first <- get ax 0%nat ;; last <- get ax (length ax - 1)%nat ;;
    let len := last - first in
    Ok (mk_amap None (Some (map (fun j => if Nat.eqb i j then len else 0) (seq 0%nat (length axes)))), small * len).

  Definition generate_box_mesh (axes : list (list R)) (order : nat) (periodic : option (list bool)) (cls : gcls) (fvi : list (list nat))
      (dict : option tagdict) (mt : mtype) : res (mesh E (amap R) (list R) * tagdict) :=
    let periodic := match periodic with None => repeat false (length axes) | Some p => p end in
    md <- box_mesh R half el_nodes (mk_amap None None) tag_order ptag axes order periodic cls fvi dict mt ;;
    let '(m, dict) := md in
    if existsb (fun b => b) periodic
    then
      mps <- mapM (fun i =>
                     p <- get periodic i ;;
                     if p : bool
                     then mo <- axis_offset axes i ;;
                          Ok [mk_bpm (ptag false i) (ptag true i) (fst mo) (snd mo)]
                     else Ok []) (seq 0%nat (length axes)) ;;
      match m_facial m with
      | Available fags => m' <- glue_mesh_boundaries R median inv fuel E (length axes) m fags (concat mps) ;; Ok (m', dict)
      | _ => Err AssertionError
      end
    else Ok (m, dict).
End Periodic.

(** generate_regular_rect_mesh (:1690-1720): the numbers of points per axis *)
Definition points_per_axis (ndim : nat) (n : option nat) (nelements npoints : option (list nat)) : res (list nat) :=
  pts <- match n with
         | Some n => match nelements, npoints with None, None => Ok (repeat n ndim) | _, _ => Err TypeError end
         | None => match npoints, nelements with
                   | Some _, Some _ => Err TypeError
                   | Some p, None => Ok p
                   | None, Some es => Ok (map (fun nel => if 0 <? nel then nel + 1 else 0) es)
                   | None, None => Err TypeError
                   end
         end ;;
  _ <- guard (negb (existsb (fun p => p =? 1) pts)) ValueError ;; Ok pts.
