(** * ModalSpec: specification vocabulary for nodal and modal data *)
From Coq Require Import List Arith Bool ZArith Permutation.
From Verif Require Import Np Lin ConnModel ConnSpec ModalModel.
Import ListNotations.

Section ModalSpec.
  Context {R : cring} {P : Type}.
  Variable E : numerics R P.
  Notation fn := (P -> R).
  Notation mat := (list (list R)).
  Notation group := (@dgroup (kind R P)).
  Notation discr := (list group).

  (** ** Histories of an array context *)
  (** A call of one of the functions which memoise matrices on an array context *)
  Inductive op : Type :=
  | ODerivative (d : discr) (dim : nat) (axes : list Z) (frozen : bool) (vec : dofs R)
  | ONodalToModal (allow : bool) (from to : discr) (ary : dofs R)
  | OModalToNodal (from to : discr) (ary : dofs R)
  | OProject (v : inverse R P) (ary : dofs R).
  Definition run (o : op) : sm R (dofs R) :=
    match o with
    | ODerivative d dim axes frozen vec => num_reference_derivative E d dim axes frozen vec
    | ONodalToModal allow from to ary => nodal_to_modal E allow from to ary
    | OModalToNodal from to ary => modal_to_nodal E from to ary
    | OProject v ary => inverse_call E v ary
    end.
  (** The array contexts which sequences of such calls (also failing ones) leave behind *)
  Inductive reached : actx R -> Prop :=
  | reached_new : reached []
  | reached_run o s : reached s -> reached (fst (run o s)).

  (** ** Polynomials and their values *)
  (** The function with coefficients [c], evaluated at [xs] *)
  Definition values (fs : list fn) (c : list R) (xs : list P) : list R :=
    map (fun x => rsum (map2 (fun f a => rmul (f x) a) fs c)) xs.

  (** numpy.linalg.inv returns the inverse of the Vandermonde matrix, if there is one *)
  Definition inv_ok (fs : list fn) (xs : list P) : Prop :=
    forall W, is_mat (length xs) (length xs) W -> (forall c, length c = length xs -> matvec W (values fs c xs) = c) ->
      (forall v, length v = length xs -> values fs (matvec W v) xs = v) -> nm_inv E (vandermonde fs xs) = Ok W.
  (** Values at [xs] determine a combination of [fs], and can be prescribed: there is a matrix which takes values to coefficients *)
  Definition unisolvent (fs : list fn) (xs : list P) : Prop :=
    exists W, is_mat (length xs) (length xs) W /\ length fs = length xs /\
      (forall c, length c = length xs -> matvec W (values fs c xs) = c) /\
      (forall v, length v = length xs -> values fs (matvec W v) xs = v).

  (** [ary] on the nodal discretization [from] consists of the values of the functions with coefficients [c] on the modal one [to] *)
  Definition coefficients_of (from to : discr) (ary c : dofs R) : Prop :=
    forall i g m x a, nth_error from i = Some g -> nth_error to i = Some m -> nth_error ary i = Some x -> nth_error c i = Some a ->
      Forall2 (fun v w => v = values (basis E (dg_kind m)) w (unit_nodes E (dg_kind g))) x a.

  (** Every group has as many degrees of freedom as nodes, or basis functions *)
  Definition nodal_ok (d : discr) : Prop := Forall (fun g => is_nodal_class (kd_class (dg_kind g)) = true /\ dg_ndof g = length (unit_nodes E (dg_kind g))) d.
  Definition modal_ok (d : discr) : Prop := Forall (fun g => is_modal_class (kd_class (dg_kind g)) = true /\ dg_ndof g = length (basis E (dg_kind g))) d.
  (** The class has a discretization_key *)
  Definition keyed (k : kind R P) : Prop := exists key, discretization_key k = Ok key.

  (** Group [g] interpolates in the space of the modal group [m], and has the same elements *)
  Definition interpolates (g m : group) : Prop :=
    is_interp (kd_class (dg_kind g)) = true /\ keyed (dg_kind g) /\ dg_nel m = dg_nel g /\
    basis E (dg_kind m) = basis E (dg_kind g) /\ unisolvent (basis E (dg_kind g)) (unit_nodes E (dg_kind g)) /\ inv_ok (basis E (dg_kind g)) (unit_nodes E (dg_kind g)).

  (** [g] has a quadrature rule which is exact for products of functions from the space of the modal group [m], the basis of which is orthonormal.
      [poly n f]: f is a polynomial of degree at most n *)
  Definition exact_for (poly : nat -> fn -> Prop) (integral : fn -> R) (g m : group) : Prop :=
    kd_class (dg_kind g) = QuadratureSimplex /\ dg_nel m = dg_nel g /\
    length (weights E (dg_kind g)) = length (unit_nodes E (dg_kind g)) /\
    (* degree of exactness of the rule *)
    (forall f, poly (nm_exact_to E QuadratureSimplex (kd_dim (dg_kind g)) (kd_order (dg_kind g))) f ->
       rsum (map2 (fun x w => rmul (f x) w) (unit_nodes E (dg_kind g)) (weights E (dg_kind g))) = integral f) /\
    (* the basis *)
    (forall f, In f (basis E (dg_kind m)) -> poly (kd_order (dg_kind m)) f) /\
    (forall i j fi fj, nth_error (basis E (dg_kind m)) i = Some fi -> nth_error (basis E (dg_kind m)) j = Some fj ->
       integral (fun x => rmul (fi x) (fj x)) = if i =? j then r1 else r0).
  (** Degrees of polynomials *)
  Definition degree_ok (poly : nat -> fn -> Prop) : Prop :=
    (forall m n f, m <= n -> poly m f -> poly n f) /\ (forall m n f g, poly m f -> poly n g -> poly (m + n) (fun x => rmul (f x) (g x))).

  (** ** Derivatives *)
  (** Differentiation along [axes], one after the other *)
  Inductive differentiated (mats : list mat) : list Z -> list R -> list R -> Prop :=
  | diff_nil x : differentiated mats [] x x
  | diff_cons a axes m x r : (0 <= a)%Z -> nth_error mats (Z.to_nat a) = Some m -> differentiated mats axes (matvec m x) r -> differentiated mats (a :: axes) x r.
  (** A group with square differentiation matrices for all [dim] axes *)
  Definition differentiable (dim : nat) (g : group) : Prop :=
    is_interp (kd_class (dg_kind g)) = true /\ keyed (dg_kind g) /\ dg_ndof g = length (unit_nodes E (dg_kind g)) /\
    length (nm_diffs E (basis E (dg_kind g)) (unit_nodes E (dg_kind g))) = dim /\
    Forall (is_mat (dg_ndof g) (dg_ndof g)) (nm_diffs E (basis E (dg_kind g)) (unit_nodes E (dg_kind g))).
  Definition commuting (n : nat) (mats : list mat) : Prop :=
    forall A B x, In A mats -> In B mats -> length x = n -> matvec A (matvec B x) = matvec B (matvec A x).

  (** ** Projection *)
  Notation conn := (@conn (list P) (kind R P)).
  (** Weights with which the nodes of batch [b] count in an element of group [g] *)
  Definition child_weights (g : group) (b : @batch (list P)) : list R :=
    map2 rmul (nm_jacdet E (nm_diffs E (basis E (dg_kind g)) (unit_nodes E (dg_kind g))) (bt_nodes b)) (weights E (dg_kind g)).
  (** Integral of [f] over the parts of element [e] (of group [g]) which the batches [bs] cover, by the quadrature rules of the parts *)
  Definition composite (g : group) (bs : list (@batch (list P))) (e : nat) (f : fn) : R :=
    rsum (map (fun b => rsum (map (fun s => if s =? e then rsum (map2 (fun x w => rmul (f x) w) (bt_nodes b) (child_weights g b)) else r0) (bt_from b))) bs).
  (** The composite rule integrates products of basis functions exactly; the basis is orthonormal *)
  Definition composite_orthonormal (g : group) (bs : list (@batch (list P))) : Prop :=
    forall e i j fi fj, e < dg_nel g -> nth_error (basis E (dg_kind g)) i = Some fi -> nth_error (basis E (dg_kind g)) j = Some fj ->
      composite g bs e (fun x => rmul (fi x) (fj x)) = if i =? j then r1 else r0.

  (** Group [f] is connected to the group [t] of the same kind by the batches [bs] alone, which subdivide its elements *)
  Definition subdivides (rmat : kind R P -> list P -> mat) (i : nat) (f t : group) (bs : list (@batch (list P))) : Prop :=
    dg_kind t = dg_kind f /\ is_interp (kd_class (dg_kind f)) = true /\ keyed (dg_kind f) /\
    dg_ndof f = length (unit_nodes E (dg_kind f)) /\ dg_ndof t = dg_ndof f /\
    unisolvent (basis E (dg_kind f)) (unit_nodes E (dg_kind f)) /\
    bs <> [] /\ single_source bs /\ composite_orthonormal f bs /\
    Forall (fun b => bt_fgrp b = i /\ length (bt_nodes b) = dg_ndof f /\ length (child_weights f b) = dg_ndof f /\
                     (* the interpolation matrix of the connection evaluates the interpolant *)
                     (forall a, length a = dg_ndof f -> matvec (rmat (dg_kind f) (bt_nodes b)) (values (basis E (dg_kind f)) a (unit_nodes E (dg_kind f))) = values (basis E (dg_kind f)) a (bt_nodes b)) /\
                     length (nm_jacdet E (nm_diffs E (basis E (dg_kind f)) (unit_nodes E (dg_kind f))) (bt_nodes b)) = length (weights E (dg_kind f))) bs.
  Definition subdivision (rmat : kind R P -> list P -> mat) (c : conn) : Prop :=
    length (cn_from c) = length (cn_to c) /\ length (cn_groups c) = length (cn_to c) /\
    forall i f t bs, nth_error (cn_from c) i = Some f -> nth_error (cn_to c) i = Some t -> nth_error (cn_groups c) i = Some bs -> subdivides rmat i f t bs.

  (** Connections and chains of connections which subdivide elements; no identities *)
  Inductive invertible (rmat : kind R P -> list P -> mat) (rpick : kind R P -> list P -> option (list nat)) : @cnx (list P) (kind R P) -> Prop :=
  | inv_direct c : conn_ok rmat rpick c -> picks_agree rmat rpick c -> subdivision rmat c -> invertible rmat rpick (Direct c)
  | inv_nil f : invertible rmat rpick (Chain f [])
  | inv_cons f f' c cs : invertible rmat rpick c -> invertible rmat rpick (Chain f' cs) -> invertible rmat rpick (Chain f (c :: cs)).

  (** ** Node coordinates *)
  (** Results of nodes() in a sequence of calls with the given values of "cached" *)
  Fixpoint node_calls (d : discr) (ms : list (mgroup R P)) (ambient : nat) (flags : list bool) (st : option (list (dofs R))) : list (res (list (dofs R))) :=
    match flags with
    | [] => []
    | b :: flags => let (st, r) := nodes E d ms ambient b st in r :: node_calls d ms ambient flags st
    end.
  (** The element with nodes [row] in the mesh has nodes [o] in the discretization: both lie on the same curve, in the space of the mesh *)
  Definition same_geometry (mg : mgroup R P) (g : group) (row o : list R) : Prop :=
    exists c, length c = length (mg_basis mg) /\ row = values (mg_basis mg) c (mg_unit mg) /\ o = values (mg_basis mg) c (unit_nodes E (dg_kind g)).
  Definition mgroup_ok (mg : mgroup R P) (ambient : nat) : Prop :=
    unisolvent (mg_basis mg) (mg_unit mg) /\ inv_ok (mg_basis mg) (mg_unit mg) /\ length (mg_nodes mg) = ambient /\
    Forall (Forall (fun row => length row = length (mg_unit mg))) (mg_nodes mg).
End ModalSpec.
