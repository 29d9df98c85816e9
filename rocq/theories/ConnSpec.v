(** * ConnSpec: specification vocabulary for discretization connections *)
From Coq Require Import List Arith Bool ZArith.
From Verif Require Import Np Lin ConnModel.
Import ListNotations.

Section ConnSpec.
  Context {R : cring} {N K : Type}.
  Variable rmat : K -> N -> list (list R).
  Variable rpick : K -> N -> option (list nat).

  (** Batch [b] assigns source element [s] to target element [t]; if [t] is listed more than once, the last one counts *)
  Definition assigns (b : @batch N) (t s : nat) : Prop :=
    exists j, nth_error (bt_to b) j = Some t /\ nth_error (bt_from b) j = Some s /\
              forall j', j < j' -> nth_error (bt_to b) j' <> Some t.

  (** [c]: what batch [b] contributes to target element [t] *)
  Definition contributes (from : list (@dgroup K)) (ary : list (list (list R))) (nd : nat) (t : nat) (b : @batch N) (c : list R) : Prop :=
    (exists g s src x, nth_error from (bt_fgrp b) = Some g /\ assigns b t s /\ nth_error ary (bt_fgrp b) = Some src /\ nth_error src s = Some x /\
       match rpick (dg_kind g) (bt_nodes b) with
       | Some ix => Forall2 (fun i v => nth_error x i = Some v) ix c
       | None => c = matvec (rmat (dg_kind g) (bt_nodes b)) x
       end)
    \/ (~ In t (bt_to b) /\ c = zeros nd).

  Definition vsum (nd : nat) (cs : list (list R)) : list R := fold_right vadd (zeros nd) cs.

  (** [r] is what the connection makes of [ary]: contributions are added up, zero without any *)
  Definition transports (c : @conn N K) (ary r : list (list (list R))) : Prop :=
    Forall2 (fun (tb : @dgroup K * list (@batch N)) (rows : list (list R)) =>
      length rows = dg_nel (fst tb) /\
      forall t row, nth_error rows t = Some row ->
        exists cs, Forall2 (contributes (cn_from c) ary (dg_ndof (fst tb)) t) (snd tb) cs /\ row = vsum (dg_ndof (fst tb)) cs)
      (combine (cn_to c) (cn_groups c)) r.

  (** An array of values on a discretization *)
  Definition on_discr (gs : list (@dgroup K)) (ary : list (list (list R))) : Prop :=
    Forall2 (fun g rows => length rows = dg_nel g /\ Forall (fun row => length row = dg_ndof g) rows) gs ary.

  (** Batch [b] of a group with target [tg] *)
  Definition batch_ok (from : list (@dgroup K)) (tg : @dgroup K) (b : @batch N) : Prop :=
    length (bt_from b) = length (bt_to b) /\ Forall (fun t => t < dg_nel tg) (bt_to b) /\
    exists g, nth_error from (bt_fgrp b) = Some g /\ Forall (fun s => s < dg_nel g) (bt_from b) /\
      match rpick (dg_kind g) (bt_nodes b) with
      | Some ix => length ix = dg_ndof tg /\ Forall (fun i => i < dg_ndof g) ix
      | None => is_mat (dg_ndof tg) (dg_ndof g) (rmat (dg_kind g) (bt_nodes b))
      end.

  (** The batches of a group with source group [g] need at most 128 different pick lists *)
  Definition few_lists (from : list (@dgroup K)) (bs : list (@batch N)) : Prop :=
    forall g, exists L, length L <= 128 /\
      forall b gr ix, In b bs -> bt_fgrp b = g -> nth_error from g = Some gr -> rpick (dg_kind gr) (bt_nodes b) = Some ix -> In ix L.

  Definition conn_ok (c : @conn N K) : Prop :=
    Forall2 (fun tg bs => Forall (batch_ok (cn_from c) tg) bs /\ few_lists (cn_from c) bs) (cn_to c) (cn_groups c).

  (** The pick lists do what the matrices do *)
  Definition picks_agree (c : @conn N K) : Prop :=
    Forall2 (fun tg bs => Forall (fun b => forall g, nth_error (cn_from c) (bt_fgrp b) = Some g ->
        is_mat (dg_ndof tg) (dg_ndof g) (rmat (dg_kind g) (bt_nodes b)) /\
        forall ix x, rpick (dg_kind g) (bt_nodes b) = Some ix -> length x = dg_ndof g ->
          Forall2 (fun i v => nth_error x i = Some v) ix (matvec (rmat (dg_kind g) (bt_nodes b)) x)) bs) (cn_to c) (cn_groups c).

  (** a u + b v for vectors and for arrays *)
  Definition vlin (a : R) (u : list R) (b : R) (v : list R) : list R := vadd (vscale a u) (vscale b v).
  Definition dlin (a : R) (x : list (list (list R))) (b : R) (y : list (list (list R))) : list (list (list R)) :=
    map2 (map2 (fun u v => vlin a u b v)) x y.

  (** No element is listed twice as a target of one batch *)
  Definition targets_distinct (c : @conn N K) : Prop := Forall (Forall (fun b => NoDup (bt_to b))) (cn_groups c).
End ConnSpec.

(** ** Chains *)
Section ChainSpec.
  Context {R : cring} {N K : Type}.
  Variable rmat : K -> N -> list (list R).
  Variable rpick : K -> N -> option (list nat).
  Notation discr := (list (@dgroup K)).

  (** [x] is a well-formed connection from [d] to [e]: the members of a chain fit together *)
  Inductive cnx_ok : discr -> @cnx N K -> discr -> Prop :=
  | ok_direct c : conn_ok rmat rpick c -> cnx_ok (cn_from c) (Direct c) (cn_to c)
  | ok_identity d : cnx_ok d (Identity d) d
  | ok_nil d : cnx_ok d (Chain (Some d) []) d
  | ok_last d e f c : f = None \/ f = Some d -> cnx_ok d c e -> cnx_ok d (Chain f [c]) e
  | ok_cons d e h f c c' cs : f = None \/ f = Some d -> cnx_ok d c e -> cnx_ok e (Chain None (c' :: cs)) h -> cnx_ok d (Chain f (c :: c' :: cs)) h.

  (** [r] is what [x] makes of [ary] *)
  Inductive carries : @cnx N K -> list (list (list R)) -> list (list (list R)) -> Prop :=
  | carry_direct c a r : transports rmat rpick c a r -> carries (Direct c) a r
  | carry_identity d a : carries (Identity d) a a
  | carry_nil f a : carries (Chain f []) a a
  | carry_cons f f' c cs a b r : carries c a b -> carries (Chain f' cs) b r -> carries (Chain f (c :: cs)) a r.

  (** The direct connections in a chain have matrices: consistent with the pick lists, no duplicate targets, something to transfer; no identities *)
  Inductive has_matrix : @cnx N K -> Prop :=
  | hm_direct c : picks_agree rmat rpick c -> targets_distinct c -> Exists (Exists (fun b => bt_from b <> [])) (cn_groups c) -> has_matrix (Direct c)
  | hm_nil f : has_matrix (Chain f [])
  | hm_cons f f' c cs : has_matrix c -> has_matrix (Chain f' cs) -> has_matrix (Chain f (c :: cs)).

  (** ** Flattening *)

  (** Every target element has at most one source *)
  Definition single_source (bs : list (@batch N)) : Prop :=
    forall k k' b b' t s s', nth_error bs k = Some b -> nth_error bs k' = Some b' ->
      In (t, s) (combine (bt_to b) (bt_from b)) -> In (t, s') (combine (bt_to b') (bt_from b')) -> k = k' /\ s = s'.

  (** dim k: number of degrees of freedom of an element of kind k; card n: number of nodes; placed k n: these are admissible nodes for a target of kind k *)
  Variables (dim : K -> nat) (card : N -> nat) (placed : K -> N -> Prop).

  Definition resampling_ok : Prop :=
    (forall k n, is_mat (card n) (dim k) (rmat k n)) /\
    (forall k n ix, rpick k n = Some ix -> length ix = card n /\ Forall (fun i => i < dim k) ix /\
       forall x, length x = dim k -> Forall2 (fun i v => nth_error x i = Some v) ix (matvec (rmat k n) x)).

  (** A connection with one source group [src] (of number [g]) and one target group [tg] *)
  Definition single_group (g : nat) (src tg : @dgroup K) (c : @conn N K) : Prop :=
    nth_error (cn_from c) g = Some src /\ cn_to c = [tg] /\ dg_ndof src = dim (dg_kind src) /\ dg_ndof tg = dim (dg_kind tg) /\
    exists bs, cn_groups c = [bs] /\ single_source bs /\
      Forall (fun b => bt_fgrp b = g /\ length (bt_from b) = length (bt_to b) /\ Forall (fun t => t < dg_nel tg) (bt_to b) /\
        Forall (fun s => s < dg_nel src) (bt_from b) /\ card (bt_nodes b) = dim (dg_kind tg) /\ placed (dg_kind tg) (bt_nodes b)) bs.

  Variable node_compose : K -> N -> K -> N -> N.
  (** Interpolation by way of an element of kind [km] loses nothing for functions on an element of kind [ks] *)
  Definition lossless (ks km : K) : Prop :=
    forall nf kt nt, card nf = dim km -> placed km nf -> card nt = dim kt -> placed kt nt ->
      card (node_compose ks nf km nt) = card nt /\ placed kt (node_compose ks nf km nt) /\
      rmat ks (node_compose ks nf km nt) = matmul (dim ks) (rmat km nt) (rmat ks nf).
  Variable allclose : N -> N -> bool.
  Definition allclose_ok : Prop := forall a b, allclose a b = true -> forall k, rmat k a = rmat k b.

  (** Direct connections with single groups and identities, one after the other, starting at group [m]; [ks] is the kind of the first source *)
  Inductive links (ks : K) : @dgroup K -> list (@cnx N K) -> @dgroup K -> Prop :=
  | links_nil m : links ks m [] m
  | links_identity m d cs tg : links ks m cs tg -> links ks m (Identity d :: cs) tg
  | links_direct m m' c cs tg : lossless ks (dg_kind m) -> cn_from c = [m] -> single_group 0 m m' c -> links ks m' cs tg -> links ks m (Direct c :: cs) tg.
  Inductive single_chain (from : discr) (g : nat) (src : @dgroup K) : list (@cnx N K) -> @dgroup K -> Prop :=
  | sc_identity d cs tg : single_chain from g src cs tg -> single_chain from g src (Identity d :: cs) tg
  | sc_first c cs m tg : cn_from c = from -> single_group g src m c -> links (dg_kind src) m cs tg -> single_chain from g src (Direct c :: cs) tg.
End ChainSpec.
