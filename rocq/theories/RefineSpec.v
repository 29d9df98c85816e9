(** * RefineSpec: what refinement is supposed to do.  Independent of the model's helper functions. *)
From Coq Require Import List Arith Bool ZArith Permutation.
From Verif Require Import Np MeshModel MeshSpec MeshStateModel RefineModel.
Import ListNotations.

(** A tessellation: every reference vertex is either an old corner or the midpoint of two corners, children have as many
    corners as the element *)
Definition tess_ok (ts : tess) : Prop :=
  Permutation (ts_orig ts ++ ts_mid ts) (seq 0 (ts_nref ts)) /\
  length (ts_mid ts) = length (ts_pairs ts) /\
  Forall (fun p => fst p < length (ts_orig ts) /\ snd p < length (ts_orig ts)) (ts_pairs ts) /\
  Forall (fun c => length c = length (ts_orig ts) /\ Forall (fun r => r < ts_nref ts) c) (ts_children ts).

(** [j] is the number of child [c] of element [i] *)
Definition child_of (mapping : list (list nat)) (i c j : nat) : Prop :=
  exists ch, nth_error mapping i = Some ch /\ nth_error ch c = Some j.

(** The new elements 0, ..., nnew - 1 are distributed among the old ones in order, each exactly once;
    an old element has [n] children if flagged, one otherwise *)
Definition distributes (n : nat) (flags : list bool) (nnew : nat) (mapping : list (list nat)) : Prop :=
  length mapping = length flags /\ concat mapping = seq 0 nnew /\
  forall i f ch, nth_error flags i = Some f -> nth_error mapping i = Some ch -> length ch = if f then n else 1.

Section RefineSpec.
  Context {E A V : Type}.
  Variable tessellation : egroup E -> tess.
  Variable midpoints : egroup E -> nat -> list V.
  Variable child_nodes : egroup E -> nat -> list E.

  (** Nodes of the new group, and rows of unflagged elements *)
  Definition group_children (flags : list bool) (grp grp' : egroup E) (mapping : list (list nat)) : Prop :=
    distributes (length (ts_children (tessellation grp))) flags (nelements grp') mapping /\
    (forall i j, nth_error flags i = Some false -> child_of mapping i 0 j ->
       nth_error (eg_nodes grp') j = nth_error (eg_nodes grp) i /\
       forall vi vi', eg_vi grp = Some vi -> eg_vi grp' = Some vi' -> nth_error vi' j = nth_error vi i) /\
    (forall i c j, nth_error flags i = Some true -> child_of mapping i c j ->
       nth_error (eg_nodes grp') j = nth_error (child_nodes grp i) c) /\
    eg_fvi grp' = eg_fvi grp.

  (** The vertex at reference vertex [r] of an element with corners [row]: an old corner, or the vertex that the table
      [M] assigns to the two ends of the edge *)
  Definition vertex_at (M : nat -> nat -> nat -> Prop) (ts : tess) (row : list nat) (r v : nat) : Prop :=
    (exists j, nth_error (ts_orig ts) j = Some r /\ nth_error row j = Some v) \/
    (exists k a b ga gb, nth_error (ts_mid ts) k = Some r /\ nth_error (ts_pairs ts) k = Some (a, b) /\
       nth_error row a = Some ga /\ nth_error row b = Some gb /\ M ga gb v).

  Definition group_corners (M : nat -> nat -> nat -> Prop) (flags : list bool) (grp grp' : egroup E) (mapping : list (list nat)) : Prop :=
    exists vi vi', eg_vi grp = Some vi /\ eg_vi grp' = Some vi' /\ length vi' = nelements grp' /\
    forall i c j row child, nth_error flags i = Some true -> child_of mapping i c j -> nth_error vi i = Some row ->
      nth_error (ts_children (tessellation grp)) c = Some child ->
      exists row', nth_error vi' j = Some row' /\ Forall2 (vertex_at M (tessellation grp) row) child row'.

  (** The flags of group [g] *)
  Definition flag_of (m : mesh E A V) (flags : list bool) (g i : nat) (f : bool) : Prop :=
    nth_error flags (base (map nelements (m_groups m)) g + i) = Some f.
  Definition group_flags (m : mesh E A V) (flags : list bool) (g : nat) (gf : list bool) : Prop :=
    exists grp, nth_error (m_groups m) g = Some grp /\ length gf = nelements grp /\
      forall i f, nth_error gf i = Some f -> flag_of m flags g i f.

  (** What the functions supplied by modepy must satisfy: tessellations are proper and depend only on the shape, and there are
      as many midpoints and children as announced *)
  Definition tessellation_ok : Prop :=
    (forall grp, tess_ok (tessellation grp)) /\
    (forall grp grp', eg_fvi grp = eg_fvi grp' -> tessellation grp = tessellation grp') /\
    (forall grp i, i < nelements grp -> length (midpoints grp i) = length (ts_mid (tessellation grp)) /\
                          length (child_nodes grp i) = length (ts_children (tessellation grp))).

  (** A mesh that can be refined: if it has vertices, every element has as many as its shape has corners *)
  Definition refinable (m : mesh E A V) : Prop :=
    m_groups m <> [] /\
    forall vs grp, m_vertices m = Some vs -> In grp (m_groups m) ->
      exists vi, eg_vi grp = Some vi /\ length vi = nelements grp /\
        Forall (fun row => length row = length (ts_orig (tessellation grp)) /\ Forall (fun v => v < length vs) row) vi.

  (** At most one group has flagged elements *)
  Definition one_group (m : mesh E A V) (flags : list bool) : Prop :=
    forall g g' i i' gf gf', group_flags m flags g gf -> group_flags m flags g' gf' ->
      nth_error gf i = Some true -> nth_error gf' i' = Some true -> g = g'.

  (** ** Geometry of elements with straight edges

      [corners nd] are the positions of the corners of an element with nodes [nd]; [mid] is the average of two points *)
  Variable corners : E -> list V.
  Variable mid : V -> V -> V.

  (** Element vertices are where the nodes say (what check_mesh_consistency tests) *)
  Definition consistent (m : mesh E A V) : Prop :=
    exists vs, m_vertices m = Some vs /\
    forall grp i nd vi row, In grp (m_groups m) -> nth_error (eg_nodes grp) i = Some nd -> eg_vi grp = Some vi ->
      nth_error vi i = Some row -> Forall2 (fun v p => nth_error vs v = Some p) row (corners nd).

  (** Position of reference vertex [r] in an element with the given corners *)
  Definition point_at (ts : tess) (cs : list V) (r : nat) (p : V) : Prop :=
    (exists j, nth_error (ts_orig ts) j = Some r /\ nth_error cs j = Some p) \/
    (exists k a b P Q, nth_error (ts_mid ts) k = Some r /\ nth_error (ts_pairs ts) k = Some (a, b) /\
       nth_error cs a = Some P /\ nth_error cs b = Some Q /\ p = mid P Q).

  (** Midpoints and children of straight elements *)
  Definition straight : Prop :=
    (forall P Q, mid P Q = mid Q P) /\
    (forall grp i nd k a b P Q, nth_error (eg_nodes grp) i = Some nd ->
       nth_error (ts_pairs (tessellation grp)) k = Some (a, b) -> nth_error (corners nd) a = Some P -> nth_error (corners nd) b = Some Q ->
       nth_error (midpoints grp i) k = Some (mid P Q)) /\
    (forall grp i nd c child cn, nth_error (eg_nodes grp) i = Some nd -> length (corners nd) = length (ts_orig (tessellation grp)) ->
       nth_error (ts_children (tessellation grp)) c = Some child -> nth_error (child_nodes grp i) c = Some cn ->
       Forall2 (point_at (tessellation grp) (corners nd)) child (corners cn)).

  (** A table of edge midpoints: one vertex per edge, whatever the order of its ends, and different ones for different edges *)
  Definition edge_table (M : nat -> nat -> nat -> Prop) : Prop :=
    (forall a b v, M a b v -> M b a v) /\
    (forall a b v v', M a b v -> M a b v' -> v = v') /\
    (forall a b c d v, M a b v -> M c d v -> (a = c /\ b = d) \/ (a = d /\ b = c)).

  (** ... located half way between them *)
  Definition located (M : nat -> nat -> nat -> Prop) (vs : list V) : Prop :=
    forall a b v, M a b v -> exists P Q, nth_error vs a = Some P /\ nth_error vs b = Some Q /\ nth_error vs v = Some (mid P Q).

  (** One refinement step *)
  Definition refined_by (M : nat -> nat -> nat -> Prop) (flags : list bool) (m m' : mesh E A V) : Prop :=
    length (m_groups m') = length (m_groups m) /\
    forall g grp grp' gf, nth_error (m_groups m) g = Some grp -> nth_error (m_groups m') g = Some grp' ->
      group_flags m flags g gf ->
      exists mapping, group_children gf grp grp' mapping /\ group_corners M gf grp grp' mapping.

  (** A sequence of calls on one refiner, with the meshes it returns *)
  Inductive history (vd ed fd : nat) : refiner -> list (list bool) -> list (mesh E A V) -> Prop :=
  | history_nil : forall r, history vd ed fd r [] []
  | history_cons : forall r flags r' fs ms,
      refine tessellation midpoints child_nodes vd ed fd r flags = Ok r' -> history vd ed fd r' fs ms ->
      history vd ed fd r (flags :: fs) (rf_current r' :: ms).

  (** The states of a refiner created for mesh [m0] *)
  Inductive reached (vd ed fd : nat) (m0 : mesh E A V) : refiner -> Prop :=
  | reached_new : reached vd ed fd m0 (new_refiner m0)
  | reached_refine : forall r flags r', reached vd ed fd m0 r ->
      refine tessellation midpoints child_nodes vd ed fd r flags = Ok r' -> reached vd ed fd m0 r'.
End RefineSpec.

(** Batches of one group: every new element is a target exactly once, its source is its parent, and the unit nodes are those
    of its child number (0: the element was not refined) *)
Definition batches_follow (flags : list bool) (nnew : nat) (mapping : list (list nat)) (bs : list rbatch) : Prop :=
  Permutation (concat (map rb_to bs)) (seq 0 nnew) /\
  Forall (fun b => rb_to b <> [] /\
     Forall2 (fun i j => (nth_error flags i = Some false /\ rb_nodes b = 0 /\ child_of mapping i 0 j) \/
                         (nth_error flags i = Some true /\ exists c, rb_nodes b = S c /\ child_of mapping i c j)) (rb_from b) (rb_to b)) bs /\
  NoDup (map rb_nodes bs).

(** Sum of two tuples *)
Inductive tuple_sum : list nat -> list nat -> list nat -> Prop :=
| tuple_sum_nil : tuple_sum [] [] []
| tuple_sum_cons : forall x y a b s, tuple_sum a b s -> tuple_sum (x :: a) (y :: b) (x + y :: s).

(** Node tuples of order 2 that are sums of two of order 1 *)
Definition halves (ref2 ref1 : list (list nat)) : Prop :=
  NoDup ref2 /\ NoDup ref1 /\
  (forall a, In a ref1 -> exists s, tuple_sum a a s /\ In s ref2) /\
  (exists d, forall a, In a ref1 -> length a = d) /\
  (forall m, In m ref2 -> exists i j a b, i <= j /\ nth_error ref1 i = Some a /\ nth_error ref1 j = Some b /\ tuple_sum a b m).

