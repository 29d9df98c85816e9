(** * RGeoSpec: vocabulary for the geometry of refined elements. *)
From Coq Require Import List Arith Bool.
From Verif Require Import Np MeshModel MeshStateModel Lin RefineModel RefineSpec.
Import ListNotations.

Section RGeoSpec.
  Variable R : cring.
  Local Open Scope cring_scope.

  (** the number [n] *)
  Fixpoint num (n : nat) : R := match n with 0%nat => 0 | S n => 1 + num n end.
  (** the point with coordinates 0, 1, 2 of the tuple, shifted to the reference element, which is a part of [-1, 1]^d *)
  Definition position (t : list nat) : list R := map (fun n => num n - 1) t.

  Definition affine (d : nat) (T : list R -> list R) : Prop :=
    exists A b, length b = d /\ length A = d /\ Forall (fun r => length r = d) A /\ forall u, length u = d -> T u = vadd (matvec A u) b.

  (** resampling from the nodes [un] is exact for functions of the space [S] *)
  Definition exact (S : (list R -> R) -> Prop) (rs : list (list R) -> list (list R) -> list (list R)) (d : nat) (un : list (list R)) : Prop :=
    forall f pts, S f -> Forall (fun u => length u = d) pts -> matvec (rs pts un) (map f un) = map f pts.

  (** there is a function of the space for all values at the nodes, and the space contains the functions composed with affine maps *)
  Definition interpolates (S : (list R -> R) -> Prop) (interp : list R -> list R -> R) (d : nat) (un : list (list R)) : Prop :=
    (forall y, length y = length un -> S (interp y) /\ map (interp y) un = y) /\
    (forall f T, S f -> affine d T -> S (fun u => f (T u))).

  (** the nodes of the element whose map has the components [fs] *)
  Definition nodes_of (fs : list (list R -> R)) (un : list (list R)) : list (list R) := map (fun f => map f un) fs.
  (** the image of a point *)
  Definition image (fs : list (list R -> R)) (u : list R) : list R := map (fun f => f u) fs.

  (** the child [child] of a tessellation is a cube: corner [k] differs from corner 0 by the bits of [k] *)
  Definition subcube (d : nat) (refs : list (list nat)) (child : list nat) : Prop :=
    length child = (2 ^ d)%nat /\ exists t0, length t0 = d /\
      forall k, (k < 2 ^ d)%nat -> exists r, nth_error child k = Some r /\
        nth_error refs r = Some (map (fun i => nth i t0 0 + if Nat.testbit k i then 1 else 0)%nat (seq 0 d)).
  (** ... or any simplex *)
  Definition subsimplex (d : nat) (refs : list (list nat)) (child : list nat) : Prop :=
    length child = S d /\ forall k r, nth_error child k = Some r -> exists t, nth_error refs r = Some t /\ length t = d.
  (** corners of the reference simplex and of the reference cube, as tuples of 0 and 1 *)
  Definition simplex_corner (d k : nat) : list nat := map (fun i => if (S i =? k)%nat then 1%nat else 0%nat) (seq 0 d).
  Definition cube_corner (d k : nat) : list nat := map (fun i => if Nat.testbit k i then 1%nat else 0%nat) (seq 0 d).
  Definition ref_corner (tensor : bool) (d k : nat) : list nat := if tensor then cube_corner d k else simplex_corner d k.
  Definition good_child (tensor : bool) (d : nat) (refs : list (list nat)) (child : list nat) : Prop :=
    if tensor then subcube d refs child else subsimplex d refs child.
  (** [T] maps the reference element to the child: corner [k] to the position of vertex [k] of the child *)
  Definition onto_child (tensor : bool) (d : nat) (refs : list (list nat)) (child : list nat) (T : list R -> list R) : Prop :=
    affine d T /\ forall k r t, nth_error child k = Some r -> nth_error refs r = Some t -> T (position (double (ref_corner tensor d k))) = position t.
  (** the positions of the corners of an element with nodes [nd], given a way [interp] to interpolate *)
  Definition corners_of (interp : list R -> list R -> R) (ref1 : list (list nat)) (nd : list (list R)) : list (list R) :=
    map (fun t => map (fun y => interp y (position (double t))) nd) ref1.
End RGeoSpec.

(** ** Meshes with curved elements *)
Section Curved.
  Context {E A V : Type}.
  Variable tessellation : egroup E -> tess.
  Variable midpoints : egroup E -> nat -> list V.
  Variable child_nodes : egroup E -> nat -> list E.
  Variable corners : E -> list V.

  (** the position of reference vertex [r] in element [i] *)
  Definition curved_at (grp : egroup E) (i : nat) (cs : list V) (r : nat) (p : V) : Prop :=
    (exists j, nth_error (ts_orig (tessellation grp)) j = Some r /\ nth_error cs j = Some p) \/
    (exists k, nth_error (ts_mid (tessellation grp)) k = Some r /\ nth_error (midpoints grp i) k = Some p).
  (** corners of children are corners of the element or the midpoints that were computed for it, if the nodes have the right shape *)
  Variable shaped : E -> Prop.
  Definition children_fit : Prop :=
    forall grp i nd c child cn, nth_error (eg_nodes grp) i = Some nd -> shaped nd -> length (corners nd) = length (ts_orig (tessellation grp)) ->
      nth_error (ts_children (tessellation grp)) c = Some child -> nth_error (child_nodes grp i) c = Some cn ->
      shaped cn /\ Forall2 (curved_at grp i (corners nd)) child (corners cn).
  Definition all_shaped (m : mesh E A V) : Prop := forall grp, In grp (m_groups m) -> Forall shaped (eg_nodes grp).
  (** flagged elements with the same two vertices agree on the midpoint of the edge *)
  Definition edges_agree (m : mesh E A V) (flags : list bool) (P : nat -> nat -> V) : Prop :=
    (forall a b, P a b = P b a) /\
    forall g grp gf i vi row k a b ga gb, nth_error (m_groups m) g = Some grp -> group_flags m flags g gf -> nth_error gf i = Some true ->
      eg_vi grp = Some vi -> nth_error vi i = Some row -> nth_error (ts_pairs (tessellation grp)) k = Some (a, b) ->
      nth_error row a = Some ga -> nth_error row b = Some gb -> nth_error (midpoints grp i) k = Some (P ga gb).
End Curved.
