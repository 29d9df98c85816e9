(** * GenModel: groups made of vertices, polyhedra and spheres, curves, warping, and formats.

    Models make_group_from_vertices, generate_icosahedron, generate_cube_surface, generate_sphere, n_gon, WobblyCircle,
    NArmedStarfish, the map of generate_annular_cylinder_slice_mesh and warp_and_refine_until_resolved
    (meshmode/mesh/generation.py), from_vertices_and_simplices and to_json (meshmode/mesh/io.py).

    Coordinates are elements of a commutative ring, ordered where they are compared.  Square roots, reciprocals, sines,
    cosines, linear solvers and modepy's nodes, bases and matrices are arguments.  Points are lists of coordinates and an
    array of points is a list of points.  The consistency check of make_mesh and dtypes are not modelled.  No proofs in this file. *)
From Coq Require Import List Arith Bool ZArith.
From Verif Require Import Np MeshModel MeshStateModel Lin Ord ProcModel AffineModel RefineModel.
Import ListNotations.

(** ** make_group_from_vertices (generation.py:489-574) *)
Section Group.
  Variable R : cring.
  Variable half : R.
  Local Open Scope cring_scope.

  (** unit_nodes_01 = 0.5 + 0.5*unit_nodes (:521, 541) *)
  Definition to_01 (u : list R) : list R := map (fun x => half + half * x) u.

  (** nodes of one simplex (:507-524); np.einsum raises if the dimensions do not agree *)
  Definition simplex_points (unit_nodes verts : list (list R)) : res (list (list R)) :=
    origin <- get verts 0 ;;
    let span := map (fun v => vsub v origin) (skipn 1 verts) in
    mapM (fun u => _ <- guard (length u =? length span) ValueError ;;
                   Ok (vadd (vecmat (length origin) (to_01 u) span) origin)) unit_nodes.

  (** np.prod(x**tuple) with exponents that are natural numbers (:548-552, 560-563) *)
  Fixpoint rpow (x : R) (n : nat) : R := match n with O => 1 | S n => x * rpow x n end.
  Fixpoint rprod (l : list R) : R := match l with [] => 1 | x :: l => x * rprod l end.
  Definition monomial (f : list nat) (x : list R) : R := rprod (map2 rpow x f).

  (** nodes of one tensor product element (:527-565).  [tuples]: node_tuples_for_space of the linear space.  Axes are
      solved for one by one in the code. *)
  Definition tensor_points (solve : list (list R) -> list (list R) -> res (list (list R))) (tuples : nat -> list (list nat))
      (unit_nodes verts : list (list R)) : res (list (list R)) :=
    let n := length verts in
    let dim := Nat.log2 n in
    _ <- guard (negb (n =? 0) && (2 ^ dim =? n))%nat ValueError ;;
    _ <- guard (length (tuples dim) =? n) AssertionError ;;
    let vdm := map (fun t => map (fun f => monomial f (map (rnat R) t)) (tuples dim)) (tuples dim) in
    coeffs <- solve vdm verts ;;
    mapM (fun u => _ <- guard (length u =? dim) ValueError ;;
                   Ok (vecmat (match verts with v :: _ => length v | [] => 0 end)
                              (map (fun f => monomial f (to_01 u)) (tuples dim)) coeffs)) unit_nodes.

  Inductive gcls : Type := CSimplex | CTensor | COther.

  (** The whole function; [default_nodes dim order]: edge_clustered_nodes_for_space *)
  Definition make_group_from_vertices (solve : list (list R) -> list (list R) -> res (list (list R))) (tuples : nat -> list (list nat))
      (default_nodes : gcls -> nat -> nat -> list (list R)) (fvi : gcls -> nat -> list (list nat))
      (vertices : list (list R)) (rows : list (list nat)) (nvert : nat) (order : nat) (cls : gcls) (unit_nodes : option (list (list R)))
      : res (egroup (list (list R))) :=
    el <- mapM (take vertices) rows ;;
    match cls with
    | CSimplex =>
        _ <- guard (1 <=? order)%nat ValueError ;;
        _ <- guard (1 <=? nvert)%nat IndexError ;;
        let dim := (nvert - 1)%nat in
        let un := match unit_nodes with Some u => u | None => default_nodes CSimplex dim order end in
        nodes <- mapM (simplex_points un) el ;;
        Ok (mk_egroup (Some rows) nodes (fvi CSimplex dim))
    | CTensor =>
        let dim := Nat.log2 nvert in
        _ <- guard (negb (nvert =? 0) && (2 ^ dim =? nvert))%nat ValueError ;;
        let un := match unit_nodes with Some u => u | None => default_nodes CTensor dim order end in
        nodes <- mapM (tensor_points solve tuples un) el ;;
        Ok (mk_egroup (Some rows) nodes (fvi CTensor dim))
    | COther => Err ValueError
    end.
End Group.

(** ** Polyhedra and spheres (generation.py:581-728) *)
Section Sphere.
  Variable R : ocring.
  Context {A : Type}.
  Variables (sqrt inv : R -> R).
  Local Open Scope cring_scope.
  Notation point := (list R).

  (** sorted(...) of tuples: lexicographic order *)
  Fixpoint lex_le (a b : point) : bool :=
    match a, b with
    | [], _ => true
    | _ :: _, [] => false
    | x :: a, y :: b => (x <? y) || ((x <=? y) && (y <=? x) && lex_le a b)
    end.
  Fixpoint insert (p : point) (l : list point) : list point :=
    match l with
    | [] => [p]
    | q :: l => if lex_le p q then p :: q :: l else q :: insert p l
    end.
  Definition sorted (l : list point) : list point := fold_right insert [] l.

  (** the vertices before scaling (:591-596) *)
  Definition ico_points (phi : R) : list point :=
    flat_map (fun pm1 => flat_map (fun pm2 =>
      [[0; pm1 * 1; pm2 * phi]; [pm1 * 1; pm2 * phi; 0]; [pm1 * phi; 0; pm2 * 1]]) [- (1); 1]) [- (1); 1].

  (** the triangles (:598-609) *)
  Definition top_ring : list nat := [11; 7; 1; 2; 8]%nat.
  Definition bottom_ring : list nat := [10; 9; 3; 0; 4]%nat.
  Definition bottom_point : nat := 6.
  Definition top_point : nat := 5.
  Definition ico_tris : res (list (list nat)) :=
    let m := length top_ring in
    ts <- mapM (fun i =>
            t <- get top_ring i ;; t' <- get top_ring ((i + 1) mod m) ;;
            b <- get bottom_ring i ;; b' <- get bottom_ring ((i + 1) mod m) ;;
            Ok [[t; t'; top_point]; [b; bottom_point; b']; [b; b'; t]; [t; b'; t']]) (seq 0 m) ;;
    Ok (concat ts).

  (** x * r / norm(x) *)
  Definition scaled_to (r : R) (p : point) : point := map (fun x => x * r * inv (sqrt (dot p p))) p.

  (** vertices *= r/la.norm(vertices[:, 0]) (:611) *)
  Definition ico_vertices (phi r : R) : res (list point) :=
    let vs := sorted (ico_points phi) in
    v0 <- get vs 0 ;;
    Ok (map (map (fun x => x * (r * inv (sqrt (dot v0 v0))))) vs).

  Variables (half : R) (solve : list point -> list point -> res (list point)) (tuples : nat -> list (list nat)).
  Variables (default_nodes : gcls -> nat -> nat -> list point) (fvi : gcls -> nat -> list (list nat)).
  Notation make_group := (make_group_from_vertices R half solve tuples default_nodes fvi).

  Definition generate_icosahedron (phi r : R) (order : nat) (unit_nodes : option (list point)) : res (mesh (list point) A point) :=
    vs <- ico_vertices phi r ;;
    tris <- ico_tris ;;
    grp <- make_group vs tris 3 order CSimplex unit_nodes ;;
    make_mesh (Some vs) [grp] Pending Pending (Some true) 0 0 0.

  (** (:624-644); [corners], [faces]: unit_vertices_for_shape and faces_for_shape of the cube *)
  Definition generate_cube_surface (corners : list point) (faces : list (list nat)) (r : R) (order : nat) (unit_nodes : option (list point))
      : res (mesh (list point) A point) :=
    let vs := map (scaled_to r) corners in
    grp <- make_group vs faces 4 order CTensor unit_nodes ;;
    make_mesh (Some vs) [grp] Pending Pending (Some true) 0 0 0.

  (** generate_sphere (:671-728) from the polyhedron on; [tess], [midpoints], [child_nodes]: see RefineModel *)
  Definition sphere_from (tess : egroup (list point) -> tess) (midpoints : egroup (list point) -> nat -> list point)
      (child_nodes : egroup (list point) -> nat -> list (list point)) (r : R) (rounds : nat) (poly : mesh (list point) A point)
      : res (mesh (list point) A point) :=
    m <- (if rounds =? 0 then Ok poly else refine_uniformly tess midpoints child_nodes 0 0 0 poly rounds false) ;;
    vs <- match m_vertices m with Some vs => Ok vs | None => Err AssertionError end ;;
    match m_groups m with
    | [g] => make_mesh (Some (map (scaled_to r) vs)) [mk_egroup (eg_vi g) (map (map (scaled_to r)) (eg_nodes g)) (eg_fvi g)]
                       Pending Pending (Some true) 0 0 0
    | _ => Err ValueError
    end.

  Definition generate_sphere tess midpoints child_nodes (phi : R) (corners : list point) (faces : list (list nat))
      (r : R) (order rounds : nat) (unit_nodes : option (list point)) (cls : gcls) : res (mesh (list point) A point) :=
    match cls with
    | CSimplex => m <- generate_icosahedron phi r order unit_nodes ;; sphere_from tess midpoints child_nodes r rounds m
    | CTensor => m <- generate_cube_surface corners faces r order unit_nodes ;; sphere_from tess midpoints child_nodes r rounds m
    | COther => Err TypeError
    end.
End Sphere.

(** ** Curves *)

(** Assignment to an indexed array: a value of shape [value] is broadcast to [target]; axes of length 1 in front are dropped. *)
Fixpoint fits (value target : list nat) : bool :=
  match value, target with
  | [], _ => true
  | v :: value, [] => (v =? 1) && fits value []
  | v :: value, t :: target => ((v =? 1) || (v =? t)) && fits value target
  end.
Definition broadcasts (value target : list nat) : bool := fits (rev value) (rev target).

Section Curves.
  Variable R : ocring.
  Local Open Scope cring_scope.

  (** n_gon (generation.py:159-184).  [corner k]: cos and sin of 2 pi/n k.  The result is None where nothing is stored.
      np.where returns a tuple with one array, so result[:, indices] has the shape (2, 1, k). *)
  Definition n_gon (corner : nat -> R * R) (n : nat) (t : list R) : res (list (option (R * R))) :=
    let t := map (fun x => x * rnat R n) t in
    foldM (fun result side =>
        let indices := where_ (map (fun x => (rnat R side <=? x) && (x <? rnat R (side + 1))) t) in
        tau <- mapM (fun i => x <- get t i ;; Ok (x - rnat R side)) indices ;;
        let a := corner side in
        let b := corner (side + 1)%nat in
        let value := map (fun s => ((1 - s) * fst a + s * fst b, (1 - s) * snd a + s * snd b)) tau in
        _ <- guard (broadcasts [2; length value]%nat [2; 1; length indices]%nat) ValueError ;;
        scatter result (combine indices (map Some value)))
      (seq 0 n) (map (fun _ => None) t).

  (** WobblyCircle.__call__ (:332-348); [sin], [cos] with the angle t 2 pi given as [t] *)
  Variables (sin cos : R -> R).
  Definition wave (coeffs : list R) (phase t : R) : R :=
    fold_left (fun w ic => w + snd ic * sin (rnat R (fst ic + 1) * t + phase)) (enumerate coeffs) 1.
  Definition wobbly (coeffs : list R) (phase t : R) : R * R :=
    let w := wave coeffs phase t in (cos t * w, sin t * w).

  (** WobblyCircle.random (:323-330): 0.95*coeffs/np.sum(np.abs(coeffs)) *)
  Definition rabs (x : R) : R := if 0 <=? x then x else - x.
  Definition random_coeffs (q : R) (inv : R -> R) (coeffs : list R) : list R :=
    map (fun c => q * c * inv (rsum (map rabs coeffs))) coeffs.

  (** NArmedStarfish.__init__ (:356-359) *)
  Definition starfish_coeffs (n_arms : nat) (amplitude : R) : res (list R) :=
    match n_arms with
    | O => Err IndexError
    | S n => put (zeros (R := R) n_arms) n amplitude
    end.

  (** transform and aff_map of generate_annular_cylinder_slice_mesh (:1808-1827); [angle]: cosine and sine of
      -pi/4*(1 - x[1]) + pi/4*x[1] *)
  Definition annular_transform (half : R) (angle : R -> R * R) (center : list R) (inner outer : R) (x : list R) : res (list R) :=
    match x, center with
    | [x0; x1; x2], [c0; c1; c2] =>
        let r := inner * (1 - x0) + outer * x0 in
        let z := - half * (1 - x2) + half * x2 in
        Ok [c0 + r * fst (angle x1); c1 + r * snd (angle x1); c2 + z]
    | _, _ => Err IndexError
    end.
  (** [c], [s]: cosine and sine of pi/2 *)
  Definition annular_map (c s : R) (center : list R) : amap R :=
    let matrix := axis_rotation R c s 0 0 1 in
    mk_amap (Some matrix) (Some (vsub center (matvec matrix center))).

  (** new_rad of map_coords (:1117-1124) with the value [sph] of the spherical harmonic, and lo, hi (:1149-1151) *)
  Definition urchin_radius (inv : R -> R) (min_rad lo hi sph : R) : R := min_rad + (sph - lo) * inv (hi - lo).
  Definition rmin (l : list R) : res R := match l with [] => Err ValueError | x :: l => Ok (fold_left (fun a b => if b <=? a then b else a) l x) end.
  Definition rmax (l : list R) : res R := match l with [] => Err ValueError | x :: l => Ok (fold_left (fun a b => if a <=? b then b else a) l x) end.
  (** radii of the given points, lo and hi from the nodes of the unrefined sphere *)
  Definition urchin_radii (inv : R -> R) (min_rad : R) (coarse points : list R) : res (list R) :=
    lo <- rmin coarse ;; hi <- rmax coarse ;;
    Ok (map (urchin_radius inv min_rad lo hi) points).
End Curves.

(** ** warp_and_refine_until_resolved (generation.py:1842-1930) *)
Section Warp.
  Variable R : ocring.
  Context {A : Type}.
  Variables (sqrt inv : R -> R).
  Notation point := (list R).
  Notation M := (mesh (enodes R) A point).
  Local Open Scope cring_scope.

  (** quotients of numbers that are not negative *)
  Inductive fl : Type := Fin (x : R) | Inf | NaN.
  Definition quotient (e m : R) : fl :=
    if (m <=? 0) && (0 <=? m) then (if (e <=? 0) && (0 <=? e) then NaN else Inf) else Fin (e * inv m).
  (** np.max: NaN is contagious *)
  Definition fmax (a b : fl) : fl :=
    match a, b with
    | NaN, _ | _, NaN => NaN
    | Inf, _ | _, Inf => Inf
    | Fin x, Fin y => Fin (if x <=? y then y else x)
    end.
  Definition max_fl (l : list fl) : res fl :=
    match l with [] => Err ValueError | x :: l => Ok (fold_left fmax l x) end.
  Definition exceeds (x : fl) (tol : R) : bool :=
    match x with NaN => false | Inf => true | Fin x => tol <? x end.

  (** for one element given by axes: sqrt of the sum of squares of the coefficients, per axis (:1906-1914).  [vdm_inv], [est]: the matrices of the group *)
  Definition coeff_norm (mat : list (list R)) (axis : list R) : R :=
    let c := matvec mat axis in sqrt (dot c c).
  Definition rel_error (vdm_inv est : list (list R)) (x : enodes R) : res fl :=
    max_fl (map (fun axis => quotient (coeff_norm est axis) (coeff_norm vdm_inv axis)) x).

  Variables (vdm_inv est : egroup (enodes R) -> list (list R)).
  Variables (tess : egroup (enodes R) -> tess) (midpoints : egroup (enodes R) -> nat -> list point)
    (child_nodes : egroup (enodes R) -> nat -> list (enodes R)).
  Variables (warp : M -> res M) (finite : point -> bool) (finite_nodes : enodes R -> bool) (tol : R).

  (** refine_flags of one iteration (:1875-1917); FloatingPointError is modelled as RuntimeError.  Warped meshes with another number of elements raise here. *)
  Definition refine_flags (m : M) : res (list bool) :=
    w <- warp m ;;
    vs <- match m_vertices w with Some vs => Ok vs | None => Err AssertionError end ;;
    _ <- guard (forallb finite vs) RuntimeError ;;
    _ <- guard (forallb (fun g => forallb finite_nodes (eg_nodes g)) (m_groups w)) RuntimeError ;;
    fs <- mapM (fun g => mapM (fun x => e <- rel_error (vdm_inv g) (est g) x ;; Ok (exceeds e tol)) (eg_nodes g)) (m_groups w) ;;
    _ <- guard (length (concat fs) =? sum (map nelements (m_groups m)))%nat ValueError ;;
    Ok (concat fs).

  (** the loop; the refiner holds the unwarped mesh *)
  Fixpoint warp_loop (fuel : nat) (r : @refiner (enodes R) A point) : res (@refiner (enodes R) A point) :=
    match fuel with
    | O => Err NonTermination
    | S fuel =>
        flags <- refine_flags (rf_current r) ;;
        if existsb (fun b => b) flags
        then r' <- refine tess midpoints child_nodes 0 0 0 r flags ;; warp_loop fuel r'
        else Ok r
    end.
End Warp.

(** ** from_vertices_and_simplices (io.py:538-572) *)
Section Simplices.
  Variable R : ocring.
  Context {A : Type}.
  Variables (half : R) (default_nodes : nat -> nat -> list (list R)) (fvi : nat -> list (list nat)) (flip : nat -> list (list R)).
  Local Open Scope cring_scope.

  (** nodes by points, as an array by axes *)
  Definition axes_of (d : nat) (pts : list (list R)) : res (enodes R) := mapM (fun a => mapM (fun p => get p a) pts) (seq 0 d).

  (** [d]: ambient dimension, [nvert]: vertices per simplex *)
  Definition from_vertices_and_simplices (d : nat) (vertices : list (list R)) (simplices : list (list nat)) (nvert order : nat) (fix_orientation : bool)
      : res (mesh (enodes R) A (list R)) :=
    grp <- make_group_from_vertices R half (fun _ _ => Err ValueError) (fun _ => []) (fun _ => default_nodes) (fun _ => fvi) vertices simplices nvert order CSimplex None ;;
    nodes <- mapM (axes_of d) (eg_nodes grp) ;;
    let grp := mk_egroup (eg_vi grp) nodes (eg_fvi grp) in
    grp <- (if fix_orientation then
              _ <- guard (nvert - 1 =? d)%nat ValueError ;;
              orient <- mapM (element_orientation R 0 (seq 1 d) vertices) simplices ;;
              perm <- simplex_flip_permutation d ;;
              flip_element_group R (flip d) perm (map (fun o => o <? 0) orient) grp
            else Ok grp) ;;
    make_mesh (Some vertices) [grp] Pending Pending (Some true) 0 0 0.
End Simplices.

(** ** to_json (io.py:579-621) *)
Section Json.
  Context {E A V : Type}.
  Record json : Type := mk_json {
    js_version : nat; js_vertices : option (list V); js_groups : list (list (list nat) * list E);
    js_nodal : option nadj; js_conforming : option bool }.
  (** also returns the state of the mesh afterwards: nodal adjacency may be computed and stored *)
  Definition to_json (ord : list nat -> list nat) (s : @mstate E A V) : res json * mstate :=
    match mapM (fun g => match eg_vi g with None => Err AssertionError | Some vi => Ok (vi, eg_nodes g) end) (m_groups (fst s)) with
    | Err e => (Err e, s)
    | Ok gs =>
        let '(na, s') := get_nodal ord s in
        match na with
        | Ok na => (Ok (mk_json 1 (m_vertices (fst s)) gs (Some na) (m_conforming (fst s))), s')
        | Err DataUnavailableError => (Ok (mk_json 1 (m_vertices (fst s)) gs None (m_conforming (fst s))), s')
        | Err e => (Err e, s')
        end
    end.
End Json.
