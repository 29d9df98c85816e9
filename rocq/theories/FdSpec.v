(** * FdSpec: vocabulary for the statements about imported Firedrake meshes. *)
From Coq Require Import List Arith Bool Permutation Sorted.
From Verif Require Import Np MeshModel MeshSpec Lin ProcModel FdModel.
Import ListNotations.

(** The cells that become elements, in order. *)
Definition cells_of {R} (fd : fdmesh R) (cells : option (list nat)) : list nat :=
  match cells with None => seq 0 (length (fd_closure fd)) | Some cs => cs end.

(** A dmplex id of a vertex. *)
Definition vertex_id {R} (fd : fdmesh R) (x : nat) : bool :=
  andb (fst (fd_vrange fd) <=? x) (x <? snd (fd_vrange fd)).

(** [row]: the Firedrake numbers of the vertices of cell [c], in local order. *)
Definition cell_verts {R} (fd : fdmesh R) (c : nat) (row : list nat) : Prop :=
  exists ids, nth_error (fd_closure fd) c = Some ids /\ row = map (fd_vnum fd) (filter (vertex_id fd) ids).

(** Cells are simplices with distinct vertices; vertices are numbered without repetition. *)
Definition proper_cells {R} (fd : fdmesh R) : Prop :=
  (forall ids, In ids (fd_closure fd) -> NoDup ids /\ length (filter (vertex_id fd) ids) = fd_tdim fd + 1) /\
  (forall x y, vertex_id fd x = true -> vertex_id fd y = true -> fd_vnum fd x = fd_vnum fd y -> x = y) /\
  (forall c row v, cell_verts fd c row -> In v row -> v < fd_nverts fd).

(** [old]: the Firedrake number of every vertex of the imported mesh.  All of them if all cells are imported,
    else those of the cells in use, in ascending order. *)
Definition renumbering {R} (fd : fdmesh R) (cells : option (list nat)) (old : list nat) : Prop :=
  match cells with
  | None => old = seq 0 (fd_nverts fd)
  | Some cs => StronglySorted lt old /\
      forall v, In v old <-> exists c row, In c cs /\ cell_verts fd c row /\ In v row
  end.

(** Vertex numbers of the imported mesh that stand for the Firedrake vertices [ws]. *)
Definition stands_for (old vs ws : list nat) : Prop := Forall2 (fun v w => nth_error old v = Some w) vs ws.

Definition swap01 {X} (l : list X) : list X := match l with a :: b :: r => b :: a :: r | _ => l end.
Definition remove_nth {X} (k : nat) (l : list X) : list X := firstn k l ++ skipn (S k) l.

(** The coordinates of vertex [k] of cell [c]: those of the node with the vertex's degree of freedom. *)
Definition corner {R} (fd : fdmesh R) (c k : nat) (x : list R) : Prop :=
  exists ns dof n, nth_error (fd_cell_nodes fd) c = Some ns /\ nth_error (fd_vertex_dofs fd) k = Some [dof] /\
    nth_error ns dof = Some n /\ nth_error (fd_coords fd) n = Some x.

(** Cells that share a vertex agree about its coordinates. *)
Definition continuous {R} (fd : fdmesh R) : Prop :=
  forall c c' row row' k k' v x x', cell_verts fd c row -> cell_verts fd c' row' ->
    nth_error row k = Some v -> nth_error row' k' = Some v -> corner fd c k x -> corner fd c' k' x' -> x = x'.

(** Reference faces of a [d]-simplex: every face has all vertices but one, and all faces are there. *)
Definition misses (d : nat) (face : list nat) (v : nat) : Prop :=
  v <= d /\ NoDup face /\ forall w, In w face <-> w <= d /\ w <> v.
Definition simplex_faces (d : nat) (fvi : list (list nat)) : Prop :=
  length fvi = d + 1 /\
  (forall face, In face fvi -> exists v, misses d face v) /\
  (forall f f' face face' v, nth_error fvi f = Some face -> nth_error fvi f' = Some face' ->
     misses d face v -> misses d face' v -> f = f').

(** Face [f] of element [e] of the imported group [g] is the local facet [k] of Firedrake cell [c]: the facet
    that has all vertices of the cell but the [k]th. *)
Definition is_facet {R E} (fd : fdmesh R) (cells : option (list nat)) (old : list nat) (g : egroup E)
    (e f c k : nat) : Prop :=
  nth_error (cells_of fd cells) e = Some c /\
  exists row vs ws, cell_verts fd c row /\ k < length row /\ face_verts [g] (0, e, f) vs /\
    stands_for old vs ws /\ Permutation ws (remove_nth k row).

(** [row] is the list of the Firedrake vertices of facet [k] of cell [c]. *)
Definition facet_verts {R} (fd : fdmesh R) (s : nat * nat) (vs : list nat) : Prop :=
  exists row, cell_verts fd (fst s) row /\ snd s < length row /\ vs = remove_nth (snd s) row.

(** Different interior facets have different vertices. *)
Definition facets_distinct {R} (fd : fdmesh R) : Prop :=
  forall i j si sj s t vs vt, nth_error (fd_interior fd) i = Some si -> nth_error (fd_interior fd) j = Some sj ->
    (s = fst si \/ s = snd si) -> (t = fst sj \/ t = snd sj) ->
    facet_verts fd s vs -> facet_verts fd t vt -> Permutation vs vt -> i = j.

(** Every facet is a facet of an existing cell; the two sides of an interior facet have the same vertices. *)
Definition proper_side {R} (fd : fdmesh R) (s : nat * nat) : Prop :=
  fst s < length (fd_closure fd) /\ snd s <= fd_tdim fd.
Definition proper_facets {R} (fd : fdmesh R) : Prop :=
  (forall s, In s (fd_exterior fd) -> proper_side fd s) /\
  (forall s t, In (s, t) (fd_interior fd) -> proper_side fd s /\ proper_side fd t /\
     exists vs vt, facet_verts fd s vs /\ facet_verts fd t vt /\ Permutation vs vt).

(** Coordinates: one node list per cell, every node has [gdim] coordinates, every vertex has one node. *)
Definition proper_coords {R} (fd : fdmesh R) : Prop :=
  length (fd_cell_nodes fd) = length (fd_closure fd) /\
  (forall ns n, In ns (fd_cell_nodes fd) -> In n ns -> n < length (fd_coords fd)) /\
  (forall x, In x (fd_coords fd) -> length x = fd_gdim fd) /\
  length (fd_vertex_dofs fd) = fd_tdim fd + 1 /\
  (forall l, In l (fd_vertex_dofs fd) -> exists dof, l = [dof] /\
     forall ns, In ns (fd_cell_nodes fd) -> dof < length ns).

(** The marker of the [i]th exterior facet. *)
Definition marked {R} (fd : fdmesh R) (i n : nat) : Prop :=
  exists ms, fd_markers fd = Some ms /\ nth_error ms i = Some (Some n).

(** Every exterior facet of the cells in use carries one of the known markers (or the mesh has no markers). *)
Definition all_marked {R} (fd : fdmesh R) (cells : option (list nat)) : Prop :=
  forall ms i c k m, fd_markers fd = Some ms -> nth_error (fd_exterior fd) i = Some (c, k) -> In c (cells_of fd cells) ->
    nth_error ms i = Some m -> exists n us, m = Some n /\ fd_unique_markers fd = Some us /\ In n us.

(** [cells] is a set of existing cells. *)
Definition proper_choice {R} (fd : fdmesh R) (cells : option (list nat)) : Prop :=
  NoDup (cells_of fd cells) /\ Forall (fun c => c < length (fd_closure fd)) (cells_of fd cells).

(** What else the import needs. *)
Definition can_import {R} (fd : fdmesh R) (cells : option (list nat)) : Prop :=
  proper_choice fd cells /\
  fd_interior fd <> [] /\                               (* there is an interior facet *)
  (fd_tdim fd = 1 -> fd_gdim fd <> 2) /\                (* not a curve in the plane *)
  all_marked fd cells /\
  (forall cs, cells = Some cs ->                        (* a subset has an interior and an exterior facet *)
     (exists s t, In (s, t) (fd_interior fd) /\ (In (fst s) cs \/ In (fst t) cs)) /\
     (exists s, In s (fd_exterior fd) /\ In (fst s) cs)).

(** The number of vertices that two cells have in common. *)
Definition common (a b : list nat) : nat := length (filter (fun v => memb v b) a).

(** The lists of markers have one entry per exterior facet. *)
Definition proper_markers {R} (fd : fdmesh R) : Prop :=
  forall ms, fd_markers fd = Some ms -> length ms = length (fd_exterior fd).


(** The coordinates of the nodes of cell [c]. *)
Definition cell_points {R} (fd : fdmesh R) (c : nat) (pts : list (list R)) : Prop :=
  exists ns, nth_error (fd_cell_nodes fd) c = Some ns /\
    Forall2 (fun n p => nth_error (fd_coords fd) n = Some p) ns pts.

(** [x] has one row per axis with the coordinates of [pts]. *)
Definition axes_of {R} (d : nat) (pts x : list (list R)) : Prop :=
  length x = d /\
  forall a axis, nth_error x a = Some axis ->
    length axis = length pts /\ forall i p, nth_error pts i = Some p -> nth_error axis i = nth_error p a.

(** The Firedrake mesh with other contents of cell_orientations(). *)
Definition with_orient {R} (fd : fdmesh R) (o : list R) : fdmesh R :=
  mk_fd (fd_tdim fd) (fd_gdim fd) (fd_closure fd) (fd_vrange fd) (fd_vnum fd) (fd_nverts fd) (fd_interior fd) (fd_exterior fd)
    (fd_unique_markers fd) (fd_markers fd) (fd_cell_nodes fd) (fd_coords fd) (fd_vertex_dofs fd) o.
