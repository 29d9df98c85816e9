(** * FaceConnSpec: specification vocabulary for face restrictions and connections between faces *)
From Coq Require Import List Arith Bool.
From Verif Require Import Np Lin MeshModel MeshSpec PartSpec ConnModel FaceConnModel.
Import ListNotations.

(** ** Restrictions *)
Section RestrSpec.
  Context {E E' V A N K : Type}.

  (** Face [a] is asked for by [r] *)
  Definition asked (groups : list (egroup E)) (fags : list (list (fagrp A))) (r : restr) (a : nat * nat * nat) : Prop :=
    match r with
    | RInterior => exists b, interior_adj fags a b
    | RAll => valid_face groups a
    | RTag t => bdry_adj fags t a
    end.

  (** The mesh has the tag asked for *)
  Definition known (fags : list (list (fagrp A))) (r : restr) : Prop :=
    match r with RTag t => exists l, In l fags /\ carries l t | _ => True end.

  (** No face is listed twice *)
  Definition asked_once (fags : list (list (fagrp A))) (r : restr) : Prop :=
    match r with
    | RInterior => Forall (fun l => NoDup (map (fun x => fst (snd x)) (interior_entries l))) fags
    | RAll => True
    | RTag t => Forall (fun l => NoDup (flat_map fag_faces (filter (has_tag t) l))) fags
    end.

  (** Number of the boundary group with the faces [f] of group [g] *)
  Definition bgroup (perface : bool) (groups : list (egroup E)) (g f : nat) : nat :=
    if perface then base (map nfaces groups) g + f else g.

  (** The connection says that element [t] of boundary group [gb] is face [a] *)
  Definition is_face (c : @conn N K) (gb t : nat) (a : nat * nat * nat) : Prop :=
    let '(g, e, f) := a in
    exists bs b, nth_error (cn_groups c) gb = Some bs /\ In b bs /\ bt_fgrp b = g /\ bt_face b = Some f /\ In (t, e) (combine (bt_to b) (bt_from b)).

  Variables (dim : K -> nat) (factory : K -> K) (fnodes : K -> nat -> K -> N) (face_coords : K -> nat -> E -> E').

  (** The boundary discretization and the connection numbered consistently *)
  Record restriction (groups : list (egroup E)) (kinds : list K) (fags : list (list (fagrp A))) (vs : list V) (r : restr) (perface : bool)
      (bvs : list V) (bgs : list (egroup E')) (c : @conn N K) : Prop := {
    rt_from : cn_from c = map (fun gk => mk_dgroup (nelements (fst gk)) (dim (snd gk)) (snd gk)) (combine groups kinds);
    rt_count : length bgs = (if perface then sum (map nfaces groups) else length groups);
    rt_sizes : Forall2 (fun bg d => dg_nel d = nelements bg) bgs (cn_to c) /\ length (cn_groups c) = length bgs;
    rt_to : forall g grp k f, nth_error groups g = Some grp -> nth_error kinds g = Some k -> f < nfaces grp -> exists bg,
      nth_error bgs (bgroup perface groups g f) = Some bg /\ nth_error (cn_to c) (bgroup perface groups g f) = Some (mk_dgroup (nelements bg) (dim (factory k)) (factory k));
    (* every face asked for is a boundary element, only those, and only one *)
    rt_all : forall g e f, asked groups fags r (g, e, f) -> exists t, is_face c (bgroup perface groups g f) t (g, e, f);
    rt_only : forall gb bg t, nth_error bgs gb = Some bg -> t < nelements bg -> exists a, is_face c gb t a;
    rt_asked : forall gb t g e f, is_face c gb t (g, e, f) -> asked groups fags r (g, e, f) /\ gb = bgroup perface groups g f;
    rt_inj : forall gb t a a', is_face c gb t a -> is_face c gb t a' -> a = a';
    rt_fun : asked_once fags r -> forall gb t t' a, is_face c gb t a -> is_face c gb t' a -> t = t';
    (* the boundary element has the shape of the face: kind, nodes and vertices *)
    rt_face : forall gb t g e f, is_face c gb t (g, e, f) -> exists grp k x bg rows row vsf,
      nth_error groups g = Some grp /\ nth_error kinds g = Some k /\ nth_error (eg_nodes grp) e = Some x /\
      nth_error bgs gb = Some bg /\ nth_error (cn_to c) gb = Some (mk_dgroup (nelements bg) (dim (factory k)) (factory k)) /\
      nth_error (eg_nodes bg) t = Some (face_coords k f x) /\ eg_vi bg = Some rows /\ length rows = nelements bg /\
      nth_error rows t = Some row /\ face_verts groups (g, e, f) vsf /\
      Forall2 (fun v' v => nth_error bvs v' = nth_error vs v /\ v < length vs) row vsf;
    rt_nodes : forall gb bs b, nth_error (cn_groups c) gb = Some bs -> In b bs -> exists grp k f, nth_error groups (bt_fgrp b) = Some grp /\ nth_error kinds (bt_fgrp b) = Some k /\
      f < nfaces grp /\ bt_face b = Some f /\ bt_nodes b = fnodes k f (factory k) /\ gb = bgroup perface groups (bt_fgrp b) f;
    rt_batches : forall gb bs, nth_error (cn_groups c) gb = Some bs -> NoDup (map bt_face bs) /\ Forall (fun b => length (bt_from b) = length (bt_to b)) bs
  }.

  (** What make_face_restriction needs to know about a mesh *)
  Record restrictable (groups : list (egroup E)) (kinds : list K) (fags : list (list (fagrp A))) (vs : list V) (perface : bool) : Prop := {
    rb_rows : has_rows groups;
    rb_range : rows_in_range (length vs) groups;
    rb_faces : faces_wf groups;
    rb_fags : fags_in_range groups fags;
    rb_own : forall g l b, nth_error fags g = Some l -> In b l -> igroup_of b = g;
    rb_kinds : length kinds = length groups;
    rb_nfaces : Forall (fun g => nfaces g <> 0) groups;
    (* all faces of an element have the same number of vertices, unless they get groups of their own *)
    rb_widths : perface = false -> Forall (fun g => exists w, Forall (fun ref => length ref = w) (eg_fvi g)) groups
  }.
End RestrSpec.

(** ** Values *)
Section ValueSpec.
  Context {R : cring} {N K : Type}.
  Variable rmat : K -> N -> list (list R).
  Variable rpick : K -> N -> option (list nat).

  (** The values of element [e] of group [g] *)
  Definition value {X} (ary : list (list X)) (g e : nat) : option X :=
    match nth_error ary g with Some rows => nth_error rows e | None => None end.

  (** Element [t] of group [gb] takes its values from element [s] of group [g], interpolated to [n] *)
  Definition feeds (c : @conn N K) (gb t g s : nat) (n : N) : Prop :=
    exists bs b, nth_error (cn_groups c) gb = Some bs /\ In b bs /\ bt_fgrp b = g /\ bt_nodes b = n /\ In (t, s) (combine (bt_to b) (bt_from b)).

  (** [y] is [x] interpolated to [n] *)
  Definition resampled (k : K) (n : N) (x y : list R) : Prop :=
    match rpick k n with
    | Some ix => Forall2 (fun i v => nth_error x i = Some v) ix y
    | None => y = matvec (rmat k n) x
    end.

  (** Interpolation from an element with [d] values to [d'] points *)
  Definition resamples (k : K) (n : N) (d d' : nat) : Prop :=
    match rpick k n with
    | Some ix => length ix = d' /\ Forall (fun i => i < d) ix
    | None => is_mat d' d (rmat k n)
    end.
End ValueSpec.

(** ** Points on faces *)
Section PointSpec.
  Context {A N K P : Type}.
  Variable app : A -> P -> P.
  Variable close : P -> P -> bool.

  (** [ix] gives for each point of [ps] the number of a close point of [qs] *)
  Definition matching (cl : P -> P -> bool) (ps qs : list P) (ix : list nat) : Prop :=
    Forall2 (fun p j => exists q, nth_error qs j = Some q /\ cl p q = true) ps ix.
  (** Each point of [ps] has exactly one close point in [qs] *)
  Definition one_close (cl : P -> P -> bool) (ps qs : list P) : Prop :=
    forall p, In p ps -> exists j q, nth_error qs j = Some q /\ cl p q = true /\ forall j' q', nth_error qs j' = Some q' -> cl p q' = true -> j' = j.

  (** One point per degree of freedom *)
  Definition points_on (discr : list (@dgroup K)) (coords : list (list (list P))) : Prop :=
    Forall2 (fun d rows => length rows = dg_nel d /\ Forall (fun ps => length ps = dg_ndof d) rows) discr coords.

  (** The nodes of neighboring faces coincide, one by one, after applying the map of the adjacency group *)
  Definition matchable (fags : list (list (fagrp A))) (c : @conn N K) (coords : list (list (list P))) : Prop :=
    forall g g' m e f e' f' t s ps qs, int_entry fags g g' m ((e, f), (e', f')) -> is_face c g t (g, e, f) -> is_face c g' s (g', e', f') ->
      value coords g t = Some ps -> value coords g' s = Some qs -> one_close close (map (app m) ps) qs.

  (** Node by node, neighboring faces meet in at most 128 ways *)
  Definition few_matchings (fags : list (list (fagrp A))) (c : @conn N K) (coords : list (list (list P))) : Prop :=
    forall g g', exists L, length L <= 128 /\ forall m e f e' f' t s ps qs ix, int_entry fags g g' m ((e, f), (e', f')) -> is_face c g t (g, e, f) -> is_face c g' s (g', e', f') ->
      value coords g t = Some ps -> value coords g' s = Some qs -> matching close (map (app m) ps) qs ix -> In ix L.

  (** Neighborhood is mutual, with inverse maps *)
  Definition mutual (fags : list (list (fagrp A))) : Prop :=
    forall g g' m ef ef', int_entry fags g g' m (ef, ef') -> exists m', int_entry fags g' g m' (ef', ef) /\ forall p q, close (app m p) q = close (app m' q) p.

  (** [o] takes the values on each interior face from the neighboring face, and no others *)
  Definition swaps (fags : list (list (fagrp A))) (c o : @conn N K) : Prop :=
    forall g t g' s, (exists n, feeds o g t g' s n) <-> exists e f e' f', interior_adj fags (g, e, f) (g', e', f') /\ is_face c g t (g, e, f) /\ is_face c g' s (g', e', f').

  (** [y] has at each node of an interior face the value that [x] has at the coincident node of the neighboring face *)
  Definition neighbor_values {X : Type} (fags : list (list (fagrp A))) (c : @conn N K) (coords : list (list (list P))) (x y : list (list (list X))) : Prop :=
    forall g g' m e f e' f' t s ps qs, int_entry fags g g' m ((e, f), (e', f')) -> is_face c g t (g, e, f) -> is_face c g' s (g', e', f') ->
      value coords g t = Some ps -> value coords g' s = Some qs -> exists v w, value x g' s = Some v /\ value y g t = Some w /\
        forall i j p q, nth_error ps i = Some p -> nth_error qs j = Some q -> close (app m p) q = true -> exists a, nth_error v j = Some a /\ nth_error w i = Some a.

  Variable select_nodes : K -> list nat -> N.
  Variable nodes_close : N -> N -> bool.
  (** The unit nodes of an element are further apart than the tolerance *)
  Definition separated (k : K) (d : nat) : Prop :=
    forall ix ix', length ix = length ix' -> Forall (fun i => i < d) ix -> Forall (fun i => i < d) ix' -> nodes_close (select_nodes k ix) (select_nodes k ix') = true -> ix = ix'.
End PointSpec.
