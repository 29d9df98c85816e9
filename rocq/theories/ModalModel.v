(** * ModalModel: element groups with their memoised matrices; nodal and modal data; L2 projection.

    Models meshmode/discretization/__init__.py: discretization_key (188-200), is_nodal, is_modal (466-482), Discretization.nodes (580-638),
    num_reference_derivative (641-698); discretization/poly_element.py: the element group classes (123-683) as far as they determine unit nodes,
    basis, quadrature weights and discretization_key;
    connection/modal.py: NodalToModalDiscretizationConnection (104-243), ModalToNodalDiscretizationConnection (286-363);
    connection/projection.py: L2ProjectionInverseDiscretizationConnection (61-265).

    Simplified: values are elements of an arbitrary commutative ring.  What modepy, recursivenodes and numpy.linalg compute (node sets, bases, quadrature
    rules, differentiation matrices, determinants, inverses) are arguments.  The memoisation of keyed_memoize_in on an array context is modelled by an
    association list.  Array containers other than DOF arrays, tags and freezing are left out; loopy kernels are modelled by what they compute, their
    loops in sequence.  No proofs in this file. *)
From Coq Require Import List Arith Bool ZArith.
From Verif Require Import Np Lin ConnModel.
Import ListNotations.

(** Concrete subclasses of ElementGroupBase (poly_element.py) *)
Inductive gclass : Type :=
| InterpolatoryQuadratureSimplex                 (* 208-224 *)
| QuadratureSimplex                              (* 227-244 *)
| WarpAndBlend | WarpAndBlend2D | WarpAndBlend3D (* 270-359 *)
| RecursiveNodes                                 (* 362-406 *)
| EquidistantSimplex                             (* 409-425 *)
| GivenNodes                                     (* 428-467 *)
| ModalSimplex                                   (* 167-178 *)
| ModalTensorProduct                             (* 473-482 *)
| TensorProductGiven                             (* TensorProductElementGroupBase, 505-599 *)
| LegendreTensorProduct                          (* 602-611 *)
| GaussLegendreTP | LegendreGaussLobattoTP | EquidistantTP.  (* 614-684 *)

Definition gclass_eq_dec (a b : gclass) : {a = b} + {a <> b}.
Proof. decide equality. Defined.

(** isinstance(grp, InterpolatoryElementGroupBase) *)
Definition is_interp (c : gclass) : bool :=
  match c with QuadratureSimplex | ModalSimplex | ModalTensorProduct => false | _ => true end.
(** isinstance(grp, ModalElementGroupBase), NodalElementGroupBase *)
Definition is_modal_class (c : gclass) : bool := match c with ModalSimplex | ModalTensorProduct => true | _ => false end.
Definition is_nodal_class (c : gclass) : bool := negb (is_modal_class c).

(** Components of a discretization key *)
Inductive atom : Type := AClass (c : gclass) | AInt (z : Z) | AStr (s : nat).
Definition atom_eq_dec (a b : atom) : {a = b} + {a <> b}.
Proof. decide equality; [apply gclass_eq_dec|apply Z.eq_dec|apply Nat.eq_dec]. Defined.
Definition dkey : Type := list atom.

(** The functions wrapped in keyed_memoize_in *)
Inductive fname : Type := FQuadrature | FVandermondeInverse | FModalToNodal | FDerivative | FVandermonde.
Definition fname_eq_dec (a b : fname) : {a = b} + {a <> b}.
Proof. decide equality. Defined.
Definition ckey : Type := (fname * list dkey)%type.
Definition ckey_eq_dec (a b : ckey) : {a = b} + {a <> b}.
Proof. decide equality; [apply list_eq_dec, list_eq_dec, atom_eq_dec|apply fname_eq_dec]. Defined.

(** An element group without its elements.  kd_family: argument of RecursiveNodes; kd_given, kd_gbasis: user-supplied unit nodes and basis *)
Record kind {R : cring} {P : Type} : Type := mk_kind {
  kd_class : gclass; kd_dim : nat; kd_order : nat; kd_family : nat; kd_given : list P; kd_gbasis : list (P -> R) }.
Arguments kind : clear implicits.

(** What other libraries compute *)
Record numerics {R : cring} {P : Type} : Type := mk_numerics {
  nm_nodes : gclass -> nat -> nat -> list P;          (* modepy's node sets by class, dimension and order *)
  nm_rec_nodes : nat -> nat -> nat -> list P;         (* recursive_nodes *)
  nm_simplex_basis : nat -> nat -> list (P -> R);     (* basis_for_space(PN) *)
  nm_simplex_onb : nat -> nat -> list (P -> R);       (* orthonormal_basis_for_space(PN) *)
  nm_hyper_onb : nat -> nat -> list (P -> R);         (* orthonormal_basis_for_space(QN) *)
  nm_weights : gclass -> nat -> nat -> list R;        (* weights of modepy's quadrature rules *)
  nm_mass_weights : list (P -> R) -> list P -> list R;  (* mass_matrix @ ones *)
  nm_exact_to : gclass -> nat -> nat -> nat;          (* Quadrature.exact_to *)
  nm_diffs : list (P -> R) -> list P -> list (list (list R));  (* diff_matrices *)
  nm_inv : list (list R) -> res (list (list R));      (* numpy.linalg.inv *)
  nm_jacdet : list (list (list R)) -> list P -> list R;  (* |det| of the differentiated nodes (projection.py:104-112, 124-125) *)
  nm_orthonormal : kind R P -> bool;                  (* basis_obj().orthonormality_weight() == 1 *)
  nm_near : list P -> list P -> bool }.               (* same shape and difference below the tolerance (__init__.py:617-619) *)
Arguments numerics : clear implicits.

Section Modal.
  Context {R : cring} {P : Type}.                     (* P: points of reference elements *)
  Variable E : numerics R P.
  Local Notation fn := (P -> R).
  Local Notation mat := (list (list R)).
  Notation group := (@dgroup (kind R P)).
  Notation discr := (list group).
  Notation kind := (kind R P).

  (** unit_nodes *)
  Definition unit_nodes (k : kind) : list P :=
    match kd_class k with
    | GivenNodes | TensorProductGiven | LegendreTensorProduct => kd_given k
    | RecursiveNodes => nm_rec_nodes E (kd_dim k) (kd_order k) (kd_family k)
    | c => nm_nodes E c (kd_dim k) (kd_order k)
    end.

  (** basis_obj().functions; QuadratureSimplexElementGroup has none *)
  Definition basis (k : kind) : list fn :=
    match kd_class k with
    | QuadratureSimplex => []
    | ModalSimplex => nm_simplex_onb E (kd_dim k) (kd_order k)
    | TensorProductGiven => kd_gbasis k
    | ModalTensorProduct | LegendreTensorProduct | GaussLegendreTP | LegendreGaussLobattoTP | EquidistantTP => nm_hyper_onb E (kd_dim k) (kd_order k)
    | _ => nm_simplex_basis E (kd_dim k) (kd_order k)
    end.

  (** quadrature_rule().weights *)
  Definition weights (k : kind) : list R :=
    match kd_class k with
    | InterpolatoryQuadratureSimplex | QuadratureSimplex | GaussLegendreTP => nm_weights E (kd_class k) (kd_dim k) (kd_order k)
    | _ => nm_mass_weights E (basis k) (unit_nodes k)
    end.

  (** discretization_key (__init__.py:188-200, poly_element.py:405, 461, 594, 636, 660, 683) *)
  Definition discretization_key (k : kind) : res dkey :=
    match kd_class k with
    | GivenNodes | TensorProductGiven | LegendreTensorProduct => Err NotImplementedError
    | RecursiveNodes => Ok [AClass RecursiveNodes; AInt (Z.of_nat (kd_dim k)); AInt (Z.of_nat (kd_order k)); AStr (kd_family k)]
    | c => Ok [AClass c; AInt (Z.of_nat (kd_dim k)); AInt (Z.of_nat (kd_order k))]
    end.

  (** modepy.vandermonde *)
  Definition vandermonde (fs : list fn) (xs : list P) : mat := map (fun x => map (fun f => f x) fs) xs.
  (** np.dot(vdm.T, np.diag(weights)) *)
  Definition vtw (fs : list fn) (xs : list P) (ws : list R) : res mat :=
    _ <- guard (length xs =? length ws) ValueError ;;
    Ok (map (fun f => map2 (fun x w => rmul (f x) w) xs ws) fs).
  (** einsum("ij,ej->ei", m, rows) *)
  Definition einsum (m : mat) (rows : list (list R)) : res (list (list R)) :=
    _ <- guard (forallb (fun x => forallb (fun row => length row =? length x) m) rows) ValueError ;;
    Ok (map (matvec m) rows).

  (** ** Memoisation on an array context *)
  Definition actx : Type := list (ckey * mat).
  (** Computations that use the array context, and leave it behind also if they fail *)
  Definition sm (X : Type) : Type := actx -> actx * res X.
  Definition sret {X} (r : res X) : sm X := fun s => (s, r).
  Definition sbind {X Y} (m : sm X) (f : X -> sm Y) : sm Y :=
    fun s => match m s with (s, Ok x) => f x s | (s, Err e) => (s, Err e) end.
  Fixpoint smapM {X Y} (f : X -> sm Y) (l : list X) : sm (list Y) :=
    match l with
    | [] => sret (Ok [])
    | x :: l => sbind (f x) (fun y => sbind (smapM f l) (fun ys => sret (Ok (y :: ys))))
    end.

  Definition lookup (s : actx) (k : ckey) : option mat :=
    option_map snd (find (fun e => if ckey_eq_dec (fst e) k then true else false) s).
  (** keyed_memoize_in(actx, f, key)(compute) *)
  Definition memo (f : fname) (key : res (list dkey)) (compute : res mat) : sm mat :=
    fun s => match key with
             | Err e => (s, Err e)
             | Ok k => match lookup s (f, k) with
                       | Some m => (s, Ok m)
                       | None => match compute with Ok m => (((f, k), m) :: s, Ok m) | Err e => (s, Err e) end
                       end
             end.
  Definition key1 (a : kind) : res (list dkey) := ka <- discretization_key a ;; Ok [ka].
  Definition key2 (a b : kind) : res (list dkey) := ka <- discretization_key a ;; kb <- discretization_key b ;; Ok [ka; kb].

  (** is_nodal, is_modal *)
  Definition is_nodal (d : discr) : bool := forallb (fun g => is_nodal_class (kd_class (dg_kind g))) d.
  Definition is_modal (d : discr) : bool := forallb (fun g => is_modal_class (kd_class (dg_kind g))) d.

  (** ** Reference derivatives (__init__.py:641-698) *)
  (** get_mat (670-689) *)
  Definition derivative_matrix (k : kind) (axes : list Z) : res mat :=
    _ <- guard (is_interp (kd_class k)) ValueError ;;
    let mats := nm_diffs E (basis k) (unit_nodes k) in
    let n := length (unit_nodes k) in
    o <- foldM (fun (m : option mat) a =>
                  next <- get mats (Z.to_nat a) ;;
                  Ok (Some (match m with None => next | Some m => matmul n next m end))) axes None ;;
    match o with Some m => Ok m | None => Err AssertionError end.
  Definition derivative_key (k : kind) (axes : list Z) : res (list dkey) :=
    kk <- discretization_key k ;; Ok [kk ++ map AInt axes].

  (** frozen: vec has no array context; axes is a sequence, for an iterator "not ref_axes" is never true *)
  Definition num_reference_derivative (d : discr) (dim : nat) (axes : list Z) (frozen : bool) (vec : dofs R) : sm (dofs R) :=
    if negb (forallb (fun g => is_interp (kd_class (dg_kind g))) d) then sret (Err TypeError)
    else match axes with
         | [] => sret (Ok vec)
         | _ =>
             let axes := isort Z.leb axes in
             if frozen then sret (Err ValueError)
             else if negb (forallb (fun a => Z.leb 0 a && Z.ltb a (Z.of_nat dim)) axes) then sret (Err ValueError)
             else smapM (fun ig => let '(i, g) := (ig : nat * group) in
                    sbind (memo FDerivative (derivative_key (dg_kind g) axes) (derivative_matrix (dg_kind g) axes)) (fun m =>
                    sbind (sret (get vec i)) (fun rows => sret (einsum m rows)))) (enumerate d)
         end.

  (** ** Nodal to modal (modal.py:104-243) *)
  Definition make_connection_check (same_mesh : bool) (nodal modal : discr) : res unit :=
    _ <- guard (is_nodal nodal) ValueError ;; _ <- guard (is_modal modal) ValueError ;; guard same_mesh ValueError.

  Definition nodal_to_modal (allow : bool) (from to : discr) (ary : dofs R) : sm (dofs R) :=
    if negb (length ary =? length from) then sret (Err ValueError)
    else smapM (fun ig => let '(i, g) := (ig : nat * group) in
           sbind (sret (get to i)) (fun mg =>
           let k := dg_kind g in let mk := dg_kind mg in
           match kd_class k with
           | QuadratureSimplex =>
               if (nm_exact_to E (kd_class k) (kd_dim k) (kd_order k) <? 2 * kd_order mk) && negb allow then sret (Err ValueError)
               else sbind (sret (get ary i)) (fun rows =>
                    (* _project_via_quadrature (137-159) *)
                    sbind (memo FQuadrature (key2 k mk) (vtw (basis mk) (unit_nodes k) (weights k))) (fun m => sret (einsum m rows)))
           | c =>
               if is_interp c then
                 sbind (sret (get ary i)) (fun rows =>
                 (* _compute_coeffs_via_inv_vandermonde (161-179) *)
                 sbind (memo FVandermondeInverse (key1 k) (nm_inv E (vandermonde (basis k) (unit_nodes k)))) (fun m => sret (einsum m rows)))
               else sret (Err NotImplementedError)
           end)) (enumerate from).

  (** ** Modal to nodal (286-363) *)
  Definition modal_to_nodal (from to : discr) (ary : dofs R) : sm (dofs R) :=
    if negb (length ary =? length from) then sret (Err ValueError)
    else smapM (fun ig => let '(i, g) := (ig : nat * group) in
           sbind (sret (get from i)) (fun fg =>
           sbind (memo FModalToNodal (key2 (dg_kind g) (dg_kind fg)) (Ok (vandermonde (basis (dg_kind fg)) (unit_nodes (dg_kind g))))) (fun m =>
           sbind (sret (get ary i)) (fun rows => sret (einsum m rows))))) (enumerate to).

  (** ** L2 projection against the direction of a connection (projection.py) *)
  (** The forward connection goes from cn_from c to cn_to c, so self.from_discr is cn_to c and self.to_discr is cn_from c *)
  Notation conn := (@conn (list P) kind).
  Notation cnx := (@cnx (list P) kind).

  (** _batch_weights (89-130), a dictionary *)
  Definition batch_weights (c : conn) : res (list ((nat * nat) * list R)) :=
    ws <- mapM (fun ig => let '(i, g) := (ig : nat * group) in
            _ <- guard (is_interp (kd_class (dg_kind g))) ValueError ;;
            bs <- get (cn_groups c) i ;;
            mapM (fun ib => let '(j, b) := (ib : nat * @batch (list P)) in
              let k := dg_kind g in
              let det := nm_jacdet E (nm_diffs E (basis k) (unit_nodes k)) (bt_nodes b) in
              _ <- guard (length det =? length (weights k)) ValueError ;;
              Ok ((i, j), map2 rmul det (weights k))) (enumerate bs)) (enumerate (cn_from c)) ;;
    Ok (concat ws).
  Definition weights_at (ws : list ((nat * nat) * list R)) (i j : nat) : res (list R) :=
    match find (fun e => (fst (fst e) =? i) && (snd (fst e) =? j)) ws with Some e => Ok (snd e) | None => Err KeyError end.

  (** conn_projection_knl (160-207) *)
  Definition projection_kernel (nel ndof : nat) (ary : list (list R)) (tab : mat) (w : list R) (from_ix to_ix : list nat) : res (list (list R)) :=
    _ <- guard (forallb (fun x : list R => length x =? length w) ary) ValueError ;;
    _ <- guard ((length tab =? ndof) && forallb (fun r : list R => length r =? ndof) tab) ValueError ;;
    _ <- guard (ndof <=? length w) IndexError ;;
    _ <- guard (length from_ix =? length to_ix) ValueError ;;
    foldM (fun out ft =>
             x <- get ary (fst ft) ;; old <- get out (snd ft) ;;
             put out (snd ft) (vadd old (map (fun t => rsum (map2 rmul (map2 rmul x t) w)) tab)))
          (combine from_ix to_ix) (repeat (zeros ndof) nel).

  (** __call__ (132-265) *)
  Definition l2_coefficients (c : conn) (ary : dofs R) : res (dofs R) :=
    _ <- guard (has_shape R (cn_to c) ary) InconsistentDOFArray ;;
    ws <- batch_weights c ;;
    mapM (fun igb => let '(i, bs) := (igb : nat * list (@batch (list P))) in
      cs <- mapM (fun ib => let '(j, b) := (ib : nat * @batch (list P)) in
              sg <- get (cn_to c) (bt_fgrp b) ;;
              let tab := map (fun f => map f (bt_nodes b)) (basis (dg_kind sg)) in
              rows <- get ary (bt_fgrp b) ;;
              w <- weights_at ws i j ;;
              tg <- get (cn_from c) i ;;
              projection_kernel (dg_nel tg) (dg_ndof tg) rows tab w (bt_to b) (bt_from b)) (enumerate bs) ;;
      (* sum() of no arrays is the number 0, which cannot be multiplied by the Vandermonde matrix *)
      match cs with [] => Err TypeError | m :: ms => Ok (fold_left (madd R) ms m) end) (enumerate (cn_groups c)).
  Definition l2_call (c : conn) (ary : dofs R) : sm (dofs R) :=
    sbind (sret (l2_coefficients c ary)) (fun coefs =>
    if negb (length (cn_from c) =? length coefs) then sret (Err ValueError)
    else smapM (fun gc => let '(g, rows) := (gc : group * list (list R)) in
           sbind (memo FVandermonde (key1 (dg_kind g)) (Ok (vandermonde (basis (dg_kind g)) (unit_nodes (dg_kind g))))) (fun m => sret (einsum m rows)))
         (combine (cn_from c) coefs)).

  (** __new__ and __init__ (61-87).  InvDirect c: the inverse of c; InvSame: an empty chain is its own inverse *)
  Inductive inverse : Type := InvDirect (c : conn) | InvSame (x : cnx) | InvChain (l : list inverse).
  (** Discretization.dim is Mesh.dim (__init__.py:455-456, mesh/__init__.py:1354-1357): pytools.single_valued raises ValueError if there are no groups,
      AssertionError if their dimensions differ *)
  Definition discr_dim (d : discr) : res nat :=
    match d with
    | [] => Err ValueError
    | g :: d => _ <- guard (forallb (fun g' => kd_dim (dg_kind g) =? kd_dim (dg_kind g')) d) AssertionError ;; Ok (kd_dim (dg_kind g))
    end.
  Fixpoint all_orthonormal (d : discr) : res bool :=
    match d with
    | [] => Ok true
    | g :: d => match kd_class (dg_kind g) with
                | QuadratureSimplex => Err AttributeError
                | _ => if nm_orthonormal E (dg_kind g) then all_orthonormal d else Ok false
                end
    end.
  Fixpoint l2_inverse (x : cnx) : res inverse :=
    match x with
    | Direct c =>
        df <- discr_dim (cn_from c) ;; dt <- discr_dim (cn_to c) ;;
        _ <- guard (df =? dt) RuntimeError ;;
        o <- all_orthonormal (cn_to c) ;;
        _ <- guard o RuntimeError ;;
        Ok (InvDirect c)
    | Identity _ => Err TypeError                     (* reversed(connections) of a connection *)
    | Chain f [] => Ok (InvSame (Chain f []))
    | Chain f cs =>
        (* for cnx in reversed(connections) *)
        l <- (fix go (cs : list cnx) : res (list inverse) :=
                match cs with [] => Ok [] | c :: cs => l <- go cs ;; i <- l2_inverse c ;; Ok (l ++ [i]) end) cs ;;
        Ok (InvChain l)
    end.
  Fixpoint inverse_call (v : inverse) (ary : dofs R) : sm (dofs R) :=
    match v with
    | InvDirect c => l2_call c ary
    | InvSame _ => sret (Ok ary)
    | InvChain l => (fix go (l : list inverse) (ary : dofs R) : sm (dofs R) :=
                       match l with [] => sret (Ok ary) | v :: l => sbind (inverse_call v ary) (fun a => go l a) end) l ary
    end.

  (** ** Node coordinates (__init__.py:580-638) *)
  (** A mesh element group: nodes by axis and element, unit nodes, basis of its space *)
  Record mgroup : Type := mk_mgroup { mg_nodes : list (list (list R)); mg_unit : list P; mg_basis : list fn }.

  (** resample_mesh_nodes (602-630); from_mesh_interp_matrix (poly_element.py:123-134), resampling_matrix: V_new V_old^-1 *)
  Definition resample_mesh_nodes (g : group) (mg : mgroup) (iaxis : nat) : res (list (list R)) :=
    nodes <- get (mg_nodes mg) iaxis ;;
    if nm_near E (unit_nodes (dg_kind g)) (mg_unit mg) then Ok nodes
    else
      vi <- nm_inv E (vandermonde (mg_basis mg) (mg_unit mg)) ;;
      einsum (matmul (length (mg_unit mg)) (vandermonde (mg_basis mg) (unit_nodes (dg_kind g))) vi) nodes.

  (** nodes(cached) with the state _cached_nodes *)
  Definition nodes (d : discr) (ms : list mgroup) (ambient : nat) (cached : bool) (st : option (list (dofs R))) : option (list (dofs R)) * res (list (dofs R)) :=
    match st with
    | Some r => (st, Ok r)
    | None =>
        if negb (is_nodal d) then (st, Err TypeError)
        else match mapM (fun iaxis => mapM (fun gm => resample_mesh_nodes (fst gm) (snd gm) iaxis) (combine d ms)) (seq 0 ambient) with
             | Ok r => (if cached then Some r else None, Ok r)
             | Err e => (st, Err e)
             end
    end.
End Modal.
Arguments actx : clear implicits. Arguments sm : clear implicits. Arguments inverse : clear implicits. Arguments mgroup : clear implicits.
