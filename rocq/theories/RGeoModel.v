(** * RGeoModel: the geometry of refined elements.

    Models map_unit_nodes_to_children (meshmode/mesh/refinement/utils.py:86-132), _get_ref_midpoints, _get_group_midpoints_modepy and
    _get_group_tessellated_nodes_modepy (refinement/tessellate.py:171-250).

    Simplified: coordinates are elements of a commutative ring with a number [half]; mp.resampling_matrix is an argument.  Points are lists of
    coordinates, the nodes of an element one row for each axis.  No proofs in this file. *)
From Coq Require Import List Arith Bool.
From Verif Require Import Np MeshModel Lin ProcModel RefineModel.
Import ListNotations.

Section RefGeo.
  Variable R : cring.
  Variable half : R.
  (** resampling_matrix(basis, new nodes, old nodes) *)
  Variable resampling : list (list R) -> list (list R) -> list (list R).

  Definition of_nat (n : nat) : R := Nat.iter n (radd r1) r0.
  (** np.array(ref_vertices, dtype=np.float64) *)
  Definition ref_point (t : list nat) : list R := map of_nat t.
  Definition minus_one (v : list R) : list R := map (fun x => radd x (ropp r1)) v.

  (** the vertices of the child that span it: child[1:] (:112) or child_arr[2**np.arange(dim)] (:121-126) *)
  Definition span (tensor : bool) (d : nat) (child : list nat) : res (list nat) :=
    if tensor then take child (map (fun i => 2 ^ i) (seq 0 d)) else Ok (tl child).

  (** one child (:110-115, :123-129) *)
  Definition map_child (tensor : bool) (d : nat) (refs : list (list nat)) (un : list (list R)) (child : list nat) : res (list (list R)) :=
    o <- get child 0 ;; o <- get refs o ;;
    is_ <- span tensor d child ;; bs <- take refs is_ ;;
    let origin := ref_point o in
    let basis := map (fun b => vsub (ref_point b) origin) bs in
    mapM (fun u => _ <- guard (length u =? length basis) ValueError ;;
                   Ok (minus_one (vadd (vecmat d (map (fun x => rmul (radd x r1) half) u) basis) origin))) un.
  Definition map_unit_nodes_to_children (tensor : bool) (d : nat) (refs : list (list nat)) (children : list (list nat)) (un : list (list R))
    : res (list (list (list R))) := mapM (map_child tensor d refs un) children.

  (** _get_group_tessellated_nodes_modepy for one element with nodes [x] (tessellate.py:222-250): the nodes of its children *)
  Definition tessellated_nodes (tensor : bool) (d : nat) (refs children : list (list nat)) (un : list (list R)) (x : list (list R))
    : res (list (list (list R))) :=
    cu <- map_unit_nodes_to_children tensor d refs children un ;;
    let M := resampling (concat cu) un in
    let n := length un in
    (* reshape((ambient_dim, -1, nunit_nodes)) *)
    _ <- guard (negb (n =? 0)) ValueError ;;
    Ok (map (fun c => map (fun y => slice (matvec M y) (c * n) (c * n + n)) x) (seq 0 (length children))).

  (** _get_ref_midpoints (:171-193) *)
  Definition ref_midpoints (ref2 ref1 : list (list nat)) : list (list nat) :=
    filter (fun rv => negb (existsb (tuple_eqb rv) (map double ref1))) ref2.
  (** _get_group_midpoints_modepy for one element (:200-219): the points *)
  Definition group_midpoints (ref2 ref1 : list (list nat)) (un : list (list R)) (x : list (list R)) : res (list (list R)) :=
    let mids := ref_midpoints ref2 ref1 in
    let M := resampling (map (fun t => minus_one (ref_point t)) mids) un in
    mapM (fun k => mapM (fun y => get (matvec M y) k) x) (seq 0 (length mids)).

  (** both as the arguments of RefineModel; with an empty list in place of an error, refine fails, too *)
  Definition midpoints_of (ref2 ref1 : list (list nat)) (un : list (list R)) (grp : egroup (enodes R)) (i : nat) : list (list R) :=
    match nth_error (eg_nodes grp) i with
    | Some x => match group_midpoints ref2 ref1 un x with Ok l => l | Err _ => [] end
    | None => []
    end.
  Definition children_of (tensor : bool) (d : nat) (refs children : list (list nat)) (un : list (list R)) (grp : egroup (enodes R)) (i : nat) : list (enodes R) :=
    match nth_error (eg_nodes grp) i with
    | Some x => match tessellated_nodes tensor d refs children un x with Ok l => l | Err _ => [] end
    | None => []
    end.
End RefGeo.
