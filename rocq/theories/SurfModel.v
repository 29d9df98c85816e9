(** * SurfModel: curves, tori and surfaces of revolution.

    Models make_curve_mesh (meshmode/mesh/generation.py:404-483), generate_surface_of_revolution (:735-803) and
    generate_torus_and_cycle_vertices (:810-937).

    Simplified: coordinates are elements of a commutative ring; cos, sin, arctan2, division, the radius functions and the curve are
    arguments; np.linspace(0, 2*pi, n, endpoint=False) is 0, h, 2h, ... with n*h = 2*pi.  The nodes of an element in the
    parameter domain are an arbitrary function of its corners.  face_vertex_indices() is an argument.  The consistency check of make_mesh is left out.
    No proofs in this file. *)
From Coq Require Import List Arith Bool ZArith.
From Verif Require Import Np MeshModel MeshStateModel Lin Ord BoxModel.
Import ListNotations.

Section Surf.
  Variable R : cring.
  Local Open Scope cring_scope.

  Fixpoint nsmul (n : nat) (x : R) : R := match n with O => 0 | S n => nsmul n x + x end.

  (** np.linspace(0, n*h, n + 1), np.linspace(0, n*h, n, endpoint=False) are the first n + 1 and n entries *)
  Definition linspace (h : R) (n : nat) : list R := map (fun i => nsmul i h) (seq 0 n).

  (** np.stack(np.meshgrid(u, v)).reshape(2, -1) *)
  Definition meshgrid (us vs : list R) : list (R * R) := flat_map (fun v => map (fun u => (u, v)) us) vs.

  (** ** Torus *)
  Section Torus.
    Context {E : Type}.
    Variables cos sin : R -> R.
    Variables a b : R.
    (** r_minor_func *)
    Variable f : R -> R -> R.
    (** the nodes of an element in the parameter domain *)
    Variable uv_nodes : list (R * R) -> list (R * R).
    Variable pack : list (list R) -> E.

    (** idx (:851-852) *)
    Definition torus_idx (n_major i j : nat) : nat := i + j * (n_major + 1).

    (** vertex_indices on the grid with end points (:854-882); TypeError for other group classes *)
    Definition torus_grid_rows (n_major n_minor : nat) (cls : gcls) : res (list (list nat)) :=
      let idx := torus_idx n_major in
      match cls with
      | GSimplex =>
          Ok (map (fun ij : nat * nat => let (i, j) := ij in [idx i j; idx (i + 1) j; idx i (j + 1)]%nat) (grid n_major n_minor)
              ++ map (fun ij : nat * nat => let (i, j) := ij in [idx (i + 1) j; idx (i + 1) (j + 1); idx i (j + 1)]%nat) (grid n_major n_minor))
      | GTensor =>
          Ok (map (fun ij : nat * nat => let (i, j) := ij in [idx i j; idx (i + 1) j; idx i (j + 1); idx (i + 1) (j + 1)]%nat) (grid n_major n_minor))
      | GOther => Err TypeError
      end.

    (** wrap the indices around (:908-910) *)
    Definition torus_wrap (n_major n_minor v : nat) : nat :=
      let i := v mod (n_major + 1) in
      let j := v / (n_major + 1) in
      ((i mod n_major) + (j mod n_minor) * n_major)%nat.

    (** (:913-918, 921-927) *)
    Definition torus_point (uv : R * R) : list R :=
      let (u, v) := uv in
      let bhat := b * f u v in
      [cos u * (a + bhat * cos v); sin u * (a + bhat * cos v); bhat * sin v].

    (** generate_torus_and_cycle_vertices; hu = 2*pi/n_major, hv = 2*pi/n_minor *)
    Definition torus_group (n_major n_minor : nat) (hu hv : R) (cls : gcls) (fvi : list (list nat)) : res (egroup E) :=
      rows <- torus_grid_rows n_major n_minor cls ;;
      let uv := meshgrid (linspace hu (n_major + 1)) (linspace hv (n_minor + 1)) in
      corners <- mapM (take uv) rows ;;
      Ok (mk_egroup (Some (map (map (torus_wrap n_major n_minor)) rows))
                    (map (fun c => pack (map torus_point (uv_nodes c))) corners) fvi).
    Definition torus_vertices (n_major n_minor : nat) (hu hv : R) : list (list R) :=
      map torus_point (meshgrid (linspace hu n_major) (linspace hv n_minor)).
    Definition torus_major (n_major : nat) : list nat := map (fun i => torus_idx n_major i 0) (seq 0 n_major).
    Definition torus_minor (n_major n_minor : nat) : list nat := map (fun j => torus_idx n_major 0 j) (seq 0 n_minor).
    Definition generate_torus_and_cycle_vertices (n_major n_minor : nat) (hu hv : R) (cls : gcls) (fvi : list (list nat))
      : res (list (egroup E) * list (list R) * list nat * list nat) :=
      grp <- torus_group n_major n_minor hu hv cls fvi ;;
      Ok ([grp], torus_vertices n_major n_minor hu hv, torus_major n_major, torus_minor n_major n_minor).
  End Torus.

  (** ** Surface of revolution *)
  Section Revolution.
    Context {E : Type}.
    Variables cos sin : R -> R.
    Variable arctan2 : R -> R -> R.
    Variable div : R -> R -> R.
    (** get_radius, for one pair of a height and an angle *)
    Variable get_radius : R -> R -> R.
    (** the nodes of an element with given vertices (make_group_from_vertices) *)
    Variable el_nodes : list (list R) -> list (list R).
    Variable pack : list (list R) -> E.

    (** tris (:768-772) *)
    Definition rev_rows (n m : nat) : list (list nat) :=
      flat_map (fun i => flat_map (fun j =>
        [[i * n + j; (i + 1) * n + j; (i + 1) * n + (j + 1) mod n];
         [i * n + j; i * n + (j + 1) mod n; (i + 1) * n + (j + 1) mod n]]%nat) (seq 0 n)) (seq 0 (m - 1)).

    (** vertices (:758-766) *)
    Definition rev_vertices (angles heights : list R) : list (list R) :=
      map (fun th : R * R => let (t, h) := th in let r := get_radius h t in [cos t * r; sin t * r; h]) (meshgrid angles heights).

    (** ensure_radius (:785-791), one column; rows 0 and 1 are scaled *)
    Definition ensure_radius (p : list R) : res (list R) :=
      match p with
      | [x; y; h] =>
          let r_expected := get_radius h (arctan2 y x) in
          let s := div r_expected (x * x + y * y) in
          Ok [x * s; y * s; h]
      | _ => Err IndexError
      end.

    (** generate_surface_of_revolution: the group and the vertices *)
    Definition generate_surface_of_revolution (angles heights : list R) (fvi : list (list nat)) : res (list (egroup E) * list (list R)) :=
      let vertices := rev_vertices angles heights in
      let rows := rev_rows (length angles) (length heights) in
      el_verts <- mapM (take vertices) rows ;;
      new_vertices <- mapM ensure_radius vertices ;;
      new_nodes <- mapM (fun vs => mapM ensure_radius (el_nodes vs)) el_verts ;;
      Ok ([mk_egroup (Some rows) (map pack new_nodes) fvi], new_vertices).
  End Revolution.

  (** ** Curves *)
  Section Curve.
    Context {E : Type}.
    Variable curve : R -> list R.
    (** la.norm(x - y) < 1e-12 *)
    Variable close : list R -> list R -> bool.
    Variable req : R -> R -> bool.
    Variable pack : list (list R) -> E.

    (** (:449-453) *)
    Definition curve_rows (nelements wrap : nat) : list (list nat) :=
      map (fun k => [k; (k + 1) mod wrap]%nat) (seq 0 nelements).
    (** np.diff *)
    Definition diffs (l : list R) : list R := map2 (fun x y => y - x) (removelast l) (tl l).
    (** t (:463-467): el_starts + el_lengths * nodes_01 *)
    Definition curve_params (bds nodes01 : list R) : list (list R) :=
      map2 (fun s l => map (fun x => s + l * x) nodes01) (removelast bds) (diffs bds).

    (** make_curve_mesh; nodes01 is 0.5*(unit_nodes + 1); returns the groups, the vertices and the parametrization points *)
    Definition make_curve_mesh (bds nodes01 : list R) (closed : bool) (fvi : list (list nat))
      : res (list (egroup E) * list (list R) * list R) :=
      first <- get bds 0%nat ;;
      _ <- guard (req first 0) AssertionError ;;
      last <- get bds (length bds - 1)%nat ;;
      _ <- guard (req last 1) AssertionError ;;
      let nelements := (length bds - 1)%nat in
      let wrap := if closed then nelements else (nelements + 1)%nat in
      let vertices := firstn wrap (map curve bds) in
      let rows := curve_rows nelements wrap in
      (* np.max of an empty array fails *)
      _ <- guard (negb (Nat.eqb (length (concat rows)) 0)) ValueError ;;
      _ <- guard (Nat.eqb (length vertices) (list_max (concat rows) + 1)) AssertionError ;;
      _ <- guard (if closed then close (curve 0) (curve 1) else true) AssertionError ;;
      let t := curve_params bds nodes01 in
      Ok ([mk_egroup (Some rows) (map (fun ts => pack (map curve ts)) t) fvi], vertices, concat t).
  End Curve.
End Surf.
