(** * ConnProps: properties of discretization connections *)
From Coq Require Import List Arith Bool ZArith Lia.
From Verif Require Import Np NpFacts Lin ConnModel ConnSpec ConnProofs ConnMatProofs ConnFlatProofs ConnMoreProofs.
Import ListNotations.

(** ** A small instance

    Elements on a line with unit nodes 0, 1 (Lin1) or 0, 1, 2 (Quad2), values in the integers.  Unit nodes may be any integers *)
Inductive ek : Type := Lin1 | Quad2.
Definition ex_unit (k : ek) : list Z := match k with Lin1 => [0; 1]%Z | Quad2 => [0; 1; 2]%Z end.
Definition ex_row (k : ek) (x : Z) : list Z :=
  match k with
  | Lin1 => [1 - x; x]%Z
  | Quad2 => [(x - 1) * (x - 2) / 2; x * (2 - x); x * (x - 1) / 2]%Z
  end.
Definition ex_rmat (k : ek) (xs : list Z) : list (list Zcring) := map (ex_row k) xs.
Fixpoint ex_pos (us : list Z) (x : Z) : option nat :=
  match us with [] => None | u :: us => if Z.eqb u x then Some 0 else option_map S (ex_pos us x) end.
Definition ex_rpick (k : ek) (xs : list Z) : option (list nat) := all_some (map (ex_pos (ex_unit k)) xs).
Definition ex_dim (k : ek) : nat := length (ex_unit k).
Definition ex_placed (k : ek) (xs : list Z) : Prop := True.
Definition ex_compose (ks : ek) (nf : list Z) (km : ek) (nt : list Z) : list Z := matvec (R := Zcring) (ex_rmat km nt) (matvec (R := Zcring) (ex_rmat ks nf) (ex_unit ks)).
Definition ex_close (a b : list Z) : bool := if list_eq_dec Z.eq_dec a b then true else false.

Ltac ex_dot := unfold dot, rsum; cbn [map2 ex_row fold_right rsum radd rmul r0 Zcring car];
  repeat match goal with |- context [Z.div ?a ?b] => let v := eval vm_compute in (Z.div a b) in change (Z.div a b) with v end; lia.
Lemma ex_pick_row k x i v : ex_pos (ex_unit k) x = Some i -> length v = ex_dim k -> nth_error v i = Some (dot (R := Zcring) (ex_row k x) v).
Proof.
  intros H Hl. destruct k; cbn [ex_unit ex_pos] in H; cbv [ex_dim ex_unit length] in Hl.
  - destruct v as [|a [|b [|]]]; try discriminate. destruct (Z.eqb_spec 0 x) as [<-|_]; [injection H as <-; cbn [nth_error]; f_equal; ex_dot|].
    destruct (Z.eqb_spec 1 x) as [<-|_]; [injection H as <-; cbn [nth_error]; f_equal; ex_dot|discriminate].
  - destruct v as [|a [|b [|c [|]]]]; try discriminate. destruct (Z.eqb_spec 0 x) as [<-|_]; [injection H as <-; cbn [nth_error]; f_equal; ex_dot|].
    destruct (Z.eqb_spec 1 x) as [<-|_]; [injection H as <-; cbn [nth_error]; f_equal; ex_dot|]. destruct (Z.eqb_spec 2 x) as [<-|_]; [injection H as <-; cbn [nth_error]; f_equal; ex_dot|discriminate].
Qed.
Lemma ex_pos_bound us x i : ex_pos us x = Some i -> i < length us.
Proof.
  revert i. induction us as [|u us IH]; intros i H; [discriminate|]. cbn [ex_pos] in H. destruct (Z.eqb u x); [injection H as <-; cbn; lia|].
  destruct (ex_pos us x) as [j|]; [|discriminate]. injection H as <-. cbn [length]. specialize (IH j eq_refl). lia.
Qed.
Lemma ex_resampling : resampling_ok ex_rmat ex_rpick ex_dim (@length Z).
Proof.
  split.
  - intros k n. split; [apply map_length|]. apply Forall_forall. intros row Hin. apply in_map_iff in Hin. destruct Hin as (x & <- & _). destruct k; reflexivity.
  - intros k n ix H. unfold ex_rpick in H. pose proof (all_some_spec (map (ex_pos (ex_unit k)) n)) as E. rewrite H in E. clear H.
    revert ix E. induction n as [|x n IH]; intros [|i ix] E; try discriminate; [repeat split; constructor|].
    cbn [map] in E. injection E as Ex E. destruct (IH ix E) as (H1 & H2 & H3). split; [cbn; lia|]. split; [constructor; [exact (ex_pos_bound _ _ _ Ex)|exact H2]|].
    intros v Hv. change (matvec (ex_rmat k (x :: n)) v) with (dot (R := Zcring) (ex_row k x) v :: matvec (ex_rmat k n) v). constructor; [now apply ex_pick_row|now apply H3].
Qed.
Lemma ex_close_ok : allclose_ok ex_rmat ex_close.
Proof. intros a b H k. unfold ex_close in H. destruct (list_eq_dec Z.eq_dec a b); [now subst|discriminate]. Qed.
Lemma ex_lossless : lossless ex_rmat ex_dim (@length Z) ex_placed ex_compose Lin1 Lin1.
Proof.
  intros nf kt nt Hf _ Ht _. destruct nf as [|a [|b [|]]]; try discriminate. split; [|split; [exact I|]].
  - unfold ex_compose, matvec, ex_rmat. now rewrite !map_length.
  - unfold ex_compose, ex_rmat, matvec, matmul. rewrite !map_map. apply map_ext. intros x. cbv [ex_row ex_dim ex_unit length vecmat map2 fold_right vadd vscale map zeros repeat dot rsum radd rmul r0 Zcring]. cbn [map2 radd rmul].
    match goal with |- [?a; ?b] = [?c; ?d] => assert (E1 : a = c) by ring; assert (E2 : b = d) by ring; rewrite E1, E2; reflexivity end.
Qed.

Notation zcall := (call Zcring ex_rmat ex_rpick).
Notation zapply := (apply Zcring ex_rmat ex_rpick).

(** ** C29: all ways of evaluating a direct connection agree *)
Theorem C29_paths_agree {R : cring} {N K} (rmat : K -> N -> list (list R)) rpick (c : @conn N K) ary :
  conn_ok rmat rpick c -> on_discr (cn_from c) ary ->
  exists r, transports rmat rpick c ary r /\ on_discr (cn_to c) r /\
    (forall eager nomerge, call R rmat rpick eager nomerge c ary = Ok r) /\ forall r', transports rmat rpick c ary r' -> r' = r.
Proof.
  intros Hc Ha. destruct (call_ok rmat rpick true true c ary Hc Ha) as (r & Hr & Ht). exists r. split; [exact Ht|]. split; [eapply transports_on_discr; eauto|]. split.
  - intros eager nomerge. destruct (call_ok rmat rpick eager nomerge c ary Hc Ha) as (r' & Hr' & Ht'). rewrite Hr'. f_equal. eapply transports_fun; eauto.
  - intros r' Ht'. eapply transports_fun; eauto.
Qed.
Theorem C29_wrong_shape {R : cring} {N K} (rmat : K -> N -> list (list R)) rpick (c : @conn N K) ary eager nomerge :
  ~ on_discr (cn_from c) ary -> call R rmat rpick eager nomerge c ary = Err InconsistentDOFArray.
Proof.
  intros H. unfold call. destruct (has_shape R (cn_from c) ary) eqn:E; [apply has_shape_iff in E; contradiction|reflexivity].
Qed.

(** Two target groups: one with two pick-list batches out of different source groups, leaving an element out; one with a matrix and
    a pick-list batch on the same element *)
Definition ex_conn : @conn (list Z) ek :=
  mk_conn [mk_dgroup 2 2 Lin1; mk_dgroup 1 3 Quad2] [mk_dgroup 3 2 Lin1; mk_dgroup 1 2 Lin1]
    [[mk_batch 0 [1] [0] [1; 0]%Z None; mk_batch 1 [0] [2] [2; 0]%Z None];
     [mk_batch 0 [0] [0] [2; 3]%Z None; mk_batch 0 [1] [0] [0; 1]%Z None]] true.
Definition ex_ary : list (list (list Zcring)) := [[[1; 2]; [3; 5]]; [[10; 20; 40]]]%Z.
Example C29_example : conn_ok ex_rmat ex_rpick ex_conn /\ on_discr (cn_from ex_conn) ex_ary /\
  zcall true false ex_conn ex_ary = Ok [[[5; 3]; [0; 0]; [40; 10]]; [[6; 9]]]%Z /\ zcall false true ex_conn ex_ary = Ok [[[5; 3]; [0; 0]; [40; 10]]; [[6; 9]]]%Z.
Proof.
  assert (H : conn_ok ex_rmat ex_rpick ex_conn).
  { assert (Hfew : forall from bs, length bs <= 128 -> few_lists ex_rpick from bs).
    { intros from bs Hl g. exists (flat_map (fun b => match nth_error from g with Some gr => match ex_rpick (dg_kind gr) (bt_nodes b) with Some ix => [ix] | None => [] end | None => [] end) bs).
      split.
      - assert (L : forall bs : list (@batch (list Z)), length (flat_map (fun b => match nth_error from g with Some gr => match ex_rpick (dg_kind gr) (bt_nodes b) with Some ix => [ix] | None => [] end | None => [] end) bs) <= length bs).
        { clear. induction bs as [|b bs IH]; [cbn; lia|]. cbn [flat_map length]. rewrite app_length. destruct (nth_error from g) as [gr|]; [destruct (ex_rpick (dg_kind gr) (bt_nodes b))|]; cbn [length]; lia. }
        specialize (L bs). lia.
      - intros b gr ix Hb _ Hg Hp. apply in_flat_map. exists b. rewrite Hg, Hp. split; [exact Hb|now left]. }
    unfold conn_ok. cbn [ex_conn cn_from cn_to cn_groups]. constructor; [|constructor; [|constructor]]; (split; [|apply Hfew; cbn; lia]).
    - constructor; [|constructor; [|constructor]]; (split; [reflexivity|]; split; [repeat constructor|]; eexists; split; [reflexivity|]; split; [repeat constructor|]; vm_compute; split; [reflexivity|repeat constructor]).
    - constructor; [|constructor; [|constructor]]; (split; [reflexivity|]; split; [repeat constructor|]; eexists; split; [reflexivity|]; split; [repeat constructor|]; vm_compute; split; [reflexivity|repeat constructor]). }
  split; [exact H|]. split; [repeat constructor|]. split; vm_compute; reflexivity.
Qed.

(** The limit on the number of pick lists: 129 batches with different pick lists.  Values exist, but every way of evaluating fails *)
Definition many_conn : @conn nat unit :=
  mk_conn [mk_dgroup 1 129 tt] [mk_dgroup 129 1 tt] [map (fun i => mk_batch 0 [0] [i] i None) (seq 0 129)] true.
Definition many_rmat (_ : unit) (i : nat) : list (list Zcring) := [map (fun j => if j =? i then 1%Z else 0%Z) (seq 0 129)].
Definition many_rpick (_ : unit) (i : nat) : option (list nat) := Some [i].
Theorem C29_many_lists_refuted : exists (c : @conn nat unit) (ary : list (list (list Zcring))),
  Forall2 (fun tg bs => Forall (batch_ok many_rmat many_rpick (cn_from c) tg) bs /\ single_source bs) (cn_to c) (cn_groups c) /\ on_discr (cn_from c) ary /\
  forall eager nomerge, call Zcring many_rmat many_rpick eager nomerge c ary = Err AssertionError.
Proof.
  exists many_conn, [[repeat 1%Z 129]]. split; [|split].
  - unfold many_conn. cbn [cn_to cn_groups cn_from]. constructor; [|constructor]. split.
    + apply Forall_forall. intros b Hb. apply in_map_iff in Hb. destruct Hb as (i & <- & Hi). apply in_seq in Hi. split; [reflexivity|]. split; [constructor; [cbn; lia|constructor]|].
      eexists. split; [reflexivity|]. split; [repeat constructor|]. cbn [many_rpick dg_ndof]. split; [reflexivity|]. constructor; [cbn [bt_nodes dg_ndof]; lia|constructor].
    + intros k k' b b' t s s' Hk Hk' Hin Hin'. rewrite nth_error_map in Hk, Hk'. destruct (nth_error (seq 0 129) k) as [i|] eqn:E; [|discriminate]. destruct (nth_error (seq 0 129) k') as [i'|] eqn:E'; [|discriminate].
      cbn [option_map] in Hk, Hk'. injection Hk as <-. injection Hk' as <-. cbn [bt_to bt_from combine In] in Hin, Hin'. destruct Hin as [Hin|[]]. destruct Hin' as [Hin'|[]]. injection Hin as <- <-. injection Hin' as -> <-.
      split; [|reflexivity]. apply (NoDup_nth_error (seq 0 129)); [apply seq_NoDup|apply nth_error_Some; congruence|congruence].
  - constructor; [|constructor]. split; [reflexivity|]. constructor; [reflexivity|constructor].
  - intros [] []; vm_compute; reflexivity.
Qed.

(** A connection reported as a permutation, with at most one source per target: all values of the result are values of the input, or zero *)
Theorem C29_permutation {R : cring} {N K} (rmat : K -> N -> list (list R)) rpick (c : @conn N K) ary eager nomerge r :
  conn_ok rmat rpick c -> on_discr (cn_from c) ary -> Forall single_source (cn_groups c) -> is_permutation rpick c = Ok true ->
  call R rmat rpick eager nomerge c ary = Ok r -> forall v, In v (concat (concat r)) -> v = @r0 R \/ In v (concat (concat ary)).
Proof.
  intros Hc Ha Hss Hp Hr. destruct (call_ok rmat rpick eager nomerge c ary Hc Ha) as (r' & Hr' & Ht). assert (r' = r) by congruence. subst r'. now apply permutation_values with (rmat := rmat) (rpick := rpick) (c := c).
Qed.
Example C29_permutation_example : is_permutation ex_rpick ex_conn = Ok false /\
  is_permutation ex_rpick (mk_conn [mk_dgroup 2 2 Lin1] [mk_dgroup 3 2 Lin1] [[mk_batch 0 [1] [0] [1; 0]%Z None; mk_batch 0 [0] [2] [0; 1]%Z None]] true) = Ok true /\
  zcall true false (mk_conn [mk_dgroup 2 2 Lin1] [mk_dgroup 3 2 Lin1] [[mk_batch 0 [1] [0] [1; 0]%Z None; mk_batch 0 [0] [2] [0; 1]%Z None]] true) [[[1; 2]; [3; 4]]]%Z = Ok [[[4; 3]; [0; 0]; [1; 2]]]%Z.
Proof. split; [|split]; vm_compute; reflexivity. Qed.

(** ** C30: the full resampling matrix *)
Theorem C30_full_matrix {R : cring} {N K} (rmat : K -> N -> list (list R)) rpick (c : @conn N K) ary eager nomerge :
  conn_ok rmat rpick c -> picks_agree rmat rpick c -> targets_distinct c -> Exists (Exists (fun b => bt_from b <> [])) (cn_groups c) -> on_discr (cn_from c) ary ->
  exists M r, full_matrix R rmat c = Ok (Some M) /\ is_mat (ndofs (cn_to c)) (ndofs (cn_from c)) M /\ call R rmat rpick eager nomerge c ary = Ok r /\
    matvec M (concat (concat ary)) = concat (concat r).
Proof.
  intros Hc Hp Ht Hne Ha. destruct (full_matrix_ok rmat rpick c ary Hc Hp Ht Ha) as (o & r & Ho & Hr & HM). destruct (call_ok rmat rpick eager nomerge c ary Hc Ha) as (r' & Hr' & Ht').
  assert (r' = r) by (eapply transports_fun; eauto). subst r'. destruct o as [M|]; [destruct HM as (HM & E); exists M, r; auto|]. exfalso.
  apply Exists_exists in Hne. destruct Hne as (bs & Hbs & Hne). apply Exists_exists in Hne. destruct Hne as (b & Hb & Hne). rewrite Forall_forall in HM. specialize (HM bs Hbs). rewrite Forall_forall in HM. now apply Hne, HM.
Qed.

Theorem C30_chain_matrix {R : cring} {N K} (rmat : K -> N -> list (list R)) rpick d (x : @cnx N K) e ary eager nomerge :
  cnx_ok rmat rpick d x e -> has_matrix rmat rpick x -> on_discr d ary ->
  exists M r, chain_matrix R rmat x = Ok (Some M) /\ is_mat (ndofs e) (ndofs d) M /\ apply R rmat rpick eager nomerge x ary = Ok r /\
    matvec M (concat (concat ary)) = concat (concat r).
Proof.
  intros Hx Hm Ha. destruct (chain_matrix_ok rmat rpick d x e Hx Hm) as (H & _). destruct (H ary Ha) as (M & r & HM & Hmat & Hc & _ & E).
  destruct (apply_ok rmat rpick eager nomerge d x e ary Hx Ha) as (r' & Hr' & Hc' & _). exists M, r. assert (r' = r) by (eapply carries_fun; eauto). subst r'. auto.
Qed.

(** A target listed twice in a batch: the last source counts in an application, both in the matrix *)
Theorem C30_duplicate_targets_refuted : exists (c : @conn (list Z) ek) ary M r, conn_ok ex_rmat ex_rpick c /\ picks_agree ex_rmat ex_rpick c /\ on_discr (cn_from c) ary /\
  zcall true false c ary = Ok r /\ full_matrix Zcring ex_rmat c = Ok (Some M) /\ matvec M (concat (concat ary)) <> concat (concat r).
Proof.
  exists (mk_conn [mk_dgroup 2 2 Lin1] [mk_dgroup 1 2 Lin1] [[mk_batch 0 [0; 1] [0; 0] [0; 1]%Z None]] true), [[[1; 2]; [3; 4]]]%Z. eexists. eexists.
  split; [|split; [|split; [|split; [vm_compute; reflexivity|split; [vm_compute; reflexivity|vm_compute; discriminate]]]]].
  - constructor; [|constructor]. split.
    + constructor; [|constructor]. split; [reflexivity|]. split; [repeat constructor|]. eexists. split; [reflexivity|]. split; [repeat constructor|]. vm_compute. split; [reflexivity|repeat constructor].
    + intros g. exists [[0; 1]]. split; [cbn; lia|]. intros b gr ix [<-|[]] <- Hg. injection Hg as <-. vm_compute. intros H. injection H as <-. now left.
  - constructor; [|constructor]. constructor; [|constructor]. intros g Hg. injection Hg as <-. destruct ex_resampling as (H1 & H2). split; [exact (H1 Lin1 [0; 1]%Z)|]. intros ix x Hp Hx. now apply (H2 Lin1 [0; 1]%Z).
  - repeat constructor.
Qed.
(** A connection that transfers nothing: the result is the number 0, not a matrix *)
Theorem C30_empty_refuted : exists (c : @conn (list Z) ek) ary, conn_ok ex_rmat ex_rpick c /\ targets_distinct c /\ on_discr (cn_from c) ary /\
  zcall true false c ary = Ok [[[0; 0]]]%Z /\ full_matrix Zcring ex_rmat c = Ok None.
Proof.
  exists (mk_conn [mk_dgroup 2 2 Lin1] [mk_dgroup 1 2 Lin1] [[]] false), [[[1; 2]; [3; 4]]]%Z. split; [|split; [|split; [|split]]].
  - constructor; [|constructor]. split; [constructor|]. intros g. exists []. split; [cbn; lia|]. intros b gr ix [].
  - repeat constructor.
  - repeat constructor.
  - reflexivity.
  - reflexivity.
Qed.
(** Identities in a chain have no matrix *)
Theorem C30_identity_refuted : exists (x : @cnx (list Z) ek) d ary, cnx_ok ex_rmat ex_rpick d x d /\ on_discr d ary /\ zapply true false x ary = Ok ary /\
  chain_matrix Zcring ex_rmat x = Err TypeError.
Proof.
  exists (Chain None [Identity [mk_dgroup 1 2 Lin1]]), [mk_dgroup 1 2 Lin1], [[[1; 2]]]%Z. split; [|split; [|split]].
  - apply ok_last; [now left|constructor].
  - repeat constructor.
  - reflexivity.
  - reflexivity.
Qed.
Example C30_example : picks_agree ex_rmat ex_rpick ex_conn /\ targets_distinct ex_conn /\
  full_matrix Zcring ex_rmat ex_conn = Ok (Some
   [[0; 0; 0; 1; 0; 0; 0]; [0; 0; 1; 0; 0; 0; 0]; [0; 0; 0; 0; 0; 0; 0]; [0; 0; 0; 0; 0; 0; 0]; [0; 0; 0; 0; 0; 0; 1]; [0; 0; 0; 0; 1; 0; 0];
    [-1; 2; 1; 0; 0; 0; 0]; [-2; 3; 0; 1; 0; 0; 0]]%Z).
Proof.
  destruct ex_resampling as (H1 & H2). split; [|split; [|vm_compute; reflexivity]].
  - constructor; [|constructor; [|constructor]]; (constructor; [|constructor; [|constructor]]); intros g Hg; cbn in Hg; injection Hg as <-; (split; [apply H1|]); intros ix x Hp Hx; exact (proj2 (proj2 (H2 _ _ _ Hp)) x Hx).
  - repeat constructor; cbn; intros []; auto.
Qed.

(** ** C31: chains *)
Theorem C31_composition {R : cring} {N K} (rmat : K -> N -> list (list R)) rpick eager nomerge f f' g (cs ds : list (@cnx N K)) ary :
  apply R rmat rpick eager nomerge (Chain f (cs ++ ds)) ary = (a <- apply R rmat rpick eager nomerge (Chain f cs) ary ;; apply R rmat rpick eager nomerge (Chain f' ds) a) /\
  apply R rmat rpick eager nomerge (Chain f [Chain g cs]) ary = apply R rmat rpick eager nomerge (Chain f cs) ary /\
  apply R rmat rpick eager nomerge (Chain f []) ary = Ok ary.
Proof.
  split; [|split; [|reflexivity]].
  - rewrite !apply_chain, foldM_app. destruct (foldM _ cs ary); cbn [bind]; [|reflexivity]. now rewrite apply_chain.
  - pose proof (chain_nested rmat rpick eager nomerge f g [] cs [] ary) as E. cbn [app] in E. rewrite E, app_nil_r. reflexivity.
Qed.
Theorem C31_nesting {R : cring} {N K} (rmat : K -> N -> list (list R)) rpick eager nomerge f g (cs1 cs2 cs3 : list (@cnx N K)) ary :
  apply R rmat rpick eager nomerge (Chain f (cs1 ++ Chain g cs2 :: cs3)) ary = apply R rmat rpick eager nomerge (Chain f (cs1 ++ cs2 ++ cs3)) ary.
Proof. apply chain_nested. Qed.
(** Chains whose members fit together always deliver values on the final discretization, the same by all ways of evaluating *)
Theorem C31_defined {R : cring} {N K} (rmat : K -> N -> list (list R)) rpick d (x : @cnx N K) e ary :
  cnx_ok rmat rpick d x e -> on_discr d ary ->
  exists r, carries rmat rpick x ary r /\ on_discr e r /\ forall eager nomerge, apply R rmat rpick eager nomerge x ary = Ok r.
Proof.
  intros Hx Ha. destruct (apply_ok rmat rpick true true d x e ary Hx Ha) as (r & _ & Hc & He). exists r. split; [exact Hc|]. split; [exact He|]. intros eager nomerge.
  destruct (apply_ok rmat rpick eager nomerge d x e ary Hx Ha) as (r' & Hr' & Hc' & _). rewrite Hr'. f_equal. eapply carries_fun; eauto.
Qed.

(** ** C32: flattening *)
Theorem C32_flatten {R : cring} {N K} (rmat : K -> N -> list (list R)) rpick dim card placed node_compose allclose f from g src (cs : list (@cnx N K)) tg :
  resampling_ok rmat rpick dim card -> allclose_ok rmat allclose -> single_chain rmat dim card placed node_compose from g src cs tg ->
  exists e, flatten node_compose allclose (Chain f cs) = Ok (Direct e) /\ cn_from e = from /\ cn_to e = [tg] /\ cn_surj e = forallb surjective cs /\
    (forall ary r, on_discr from ary -> carries rmat rpick (Chain f cs) ary r -> transports rmat rpick e ary r) /\
    (Forall (few_lists rpick from) (cn_groups e) -> cnx_ok rmat rpick from (Chain f cs) [tg] ->
     forall ary eager nomerge, on_discr from ary -> call R rmat rpick eager nomerge e ary = apply R rmat rpick eager nomerge (Chain f cs) ary /\
       exists r, call R rmat rpick eager nomerge e ary = Ok r).
Proof.
  intros Hres Hclose Hs. destruct (flatten_single rmat rpick dim card placed node_compose allclose Hres Hclose f from g src cs tg Hs) as (e & He & Hf & Hse & Hsem).
  exists e. split; [exact He|]. split; [exact Hf|]. split; [apply Hse|]. split; [exact (proj2 (flatten_flat _ _ _ _ He))|]. split; [exact Hsem|].
  intros Hfew Hx ary eager nomerge Ha. assert (Hc : conn_ok rmat rpick e) by (eapply single_conn_ok; eauto; now rewrite Hf).
  destruct (apply_ok rmat rpick eager nomerge _ _ _ ary Hx Ha) as (r & Hr & Hcar & _). destruct (call_ok rmat rpick eager nomerge e ary Hc) as (r' & Hr' & Ht'); [now rewrite Hf|].
  assert (r' = r) by (eapply transports_fun; eauto). subst r'. split; [congruence|eauto].
Qed.
(** Nested chains: flattening the members first makes no difference *)
Theorem C32_nested {N K} node_compose allclose f (cs fs : list (@cnx N K)) : cs <> [] -> mapM (flatten node_compose allclose) cs = Ok fs ->
  flatten node_compose allclose (Chain f cs) = flatten node_compose allclose (Chain f fs) /\ Forall (fun x => match x with Chain _ _ => False | _ => True end) fs.
Proof.
  intros Hne H. split; [now apply flatten_nested|]. apply mapM_ok in H. clear Hne. induction H as [|c x cs fs Hx H IH]; constructor; [exact (proj1 (flatten_flat _ _ _ _ Hx))|exact IH].
Qed.
Theorem C32_direct_empty {N K} node_compose allclose : (forall c : @conn N K, flatten node_compose allclose (Direct c) = Ok (Direct c)) /\
  (forall d : list (@dgroup K), flatten (N := N) node_compose allclose (Chain (Some d) []) = Ok (Identity d)).
Proof. split; reflexivity. Qed.

(** Refinement of an element into two, then of one of those *)
Definition ex_c1 : @conn (list Z) ek := mk_conn [mk_dgroup 1 2 Lin1; mk_dgroup 2 2 Lin1] [mk_dgroup 3 2 Lin1] [[mk_batch 1 [0] [0] [0; 2]%Z None; mk_batch 1 [0; 1] [1; 2] [2; 4]%Z None]] true.
Definition ex_c2 : @conn (list Z) ek := mk_conn [mk_dgroup 3 2 Lin1] [mk_dgroup 4 2 Lin1] [[mk_batch 0 [0; 2] [3; 0] [0; 1]%Z None; mk_batch 0 [1] [1] [1; 3]%Z None]] true.
Example C32_example :
  single_chain ex_rmat ex_dim (@length Z) ex_placed ex_compose (cn_from ex_c1) 1 (mk_dgroup 2 2 Lin1) [Identity (cn_from ex_c1); Direct ex_c1; Identity (cn_to ex_c1); Direct ex_c2] (mk_dgroup 4 2 Lin1) /\
  flatten ex_compose ex_close (Chain None [Identity (cn_from ex_c1); Direct ex_c1; Identity (cn_to ex_c1); Direct ex_c2]) =
    Ok (Direct (mk_conn (cn_from ex_c1) (cn_to ex_c2) [[mk_batch 1 [0] [3] [0; 2]%Z None; mk_batch 1 [] [] [2; 6]%Z None; mk_batch 1 [1] [0] [2; 4]%Z None; mk_batch 1 [0] [1] [4; 8]%Z None]] true)) /\
  zapply true false (Chain None [Direct ex_c1; Direct ex_c2]) [[[7; 8]]; [[1; 2]; [10; 30]]]%Z = Ok [[[50; 90]; [5; 9]; [0; 0]; [1; 3]]]%Z /\
  (x <- flatten ex_compose ex_close (Chain None [Direct ex_c1; Direct ex_c2]) ;; zapply true false x [[[7; 8]]; [[1; 2]; [10; 30]]]%Z) = Ok [[[50; 90]; [5; 9]; [0; 0]; [1; 3]]]%Z.
Proof.
  assert (Hsg1 : single_group ex_dim (@length Z) ex_placed 1 (mk_dgroup 2 2 Lin1) (mk_dgroup 3 2 Lin1) ex_c1).
  { split; [reflexivity|]. split; [reflexivity|]. split; [reflexivity|]. split; [reflexivity|]. eexists. split; [reflexivity|]. split.
    - apply single_source_nodup. cbn. repeat (constructor; [cbn; lia|]). constructor.
    - repeat constructor. }
  assert (Hsg2 : single_group ex_dim (@length Z) ex_placed 0 (mk_dgroup 3 2 Lin1) (mk_dgroup 4 2 Lin1) ex_c2).
  { split; [reflexivity|]. split; [reflexivity|]. split; [reflexivity|]. split; [reflexivity|]. eexists. split; [reflexivity|]. split.
    - apply single_source_nodup. cbn. repeat (constructor; [cbn; lia|]). constructor.
    - repeat constructor. }
  split; [|split; [vm_compute; reflexivity|split; vm_compute; reflexivity]].
  constructor. apply sc_first with (m := mk_dgroup 3 2 Lin1); [reflexivity|exact Hsg1|]. constructor. apply links_direct with (m' := mk_dgroup 4 2 Lin1); [exact ex_lossless|reflexivity|exact Hsg2|constructor].
Qed.

(** More than one group: the flattened connection cannot be applied *)
Definition ex_two : list (@dgroup ek) := [mk_dgroup 1 2 Lin1; mk_dgroup 1 2 Lin1].
Definition ex_copy : @conn (list Z) ek := mk_conn ex_two ex_two [[mk_batch 0 [0] [0] [0; 1]%Z None]; [mk_batch 1 [0] [0] [0; 1]%Z None]] true.
Theorem C32_groups_refuted : exists (x : @cnx (list Z) ek) d ary y, cnx_ok ex_rmat ex_rpick d x d /\ on_discr d ary /\ zapply true false x ary = Ok ary /\
  flatten ex_compose ex_close x = Ok (Direct y) /\ length (cn_groups y) <> length (cn_to y) /\ zcall true false y ary = Err IndexError.
Proof.
  assert (Hok : conn_ok ex_rmat ex_rpick ex_copy).
  { unfold conn_ok, ex_copy, ex_two. cbn [cn_from cn_to cn_groups].
    constructor; [|constructor; [|constructor]]; (split; [constructor; [|constructor]; split; [reflexivity|]; split; [repeat constructor|]; eexists; split; [reflexivity|]; split; [repeat constructor|]; vm_compute; split; [reflexivity|repeat constructor]|]);
      intros g; exists [[0; 1]]; (split; [cbn; lia|]); intros b gr ix [<-|[]] <- Hg; injection Hg as <-; vm_compute; intros H; injection H as <-; now left. }
  exists (Chain None [Direct ex_copy; Direct ex_copy]), ex_two, [[[1; 2]]; [[3; 4]]]%Z. eexists.
  split; [|split; [repeat constructor|split; [vm_compute; reflexivity|split; [vm_compute; reflexivity|split; [vm_compute; discriminate|vm_compute; reflexivity]]]]].
  apply ok_cons with (e := ex_two); [now left|exact (ok_direct ex_rmat ex_rpick ex_copy Hok)|]. apply ok_last; [now left|exact (ok_direct ex_rmat ex_rpick ex_copy Hok)].
Qed.
(** Only identities *)
Theorem C32_identities_refuted {N K} node_compose allclose f (ds : list (list (@dgroup K))) : ds <> [] ->
  flatten (N := N) node_compose allclose (Chain f (map Identity ds)) = Err IndexError.
Proof. apply flatten_identities. Qed.
Example C32_identities_example : flatten (N := list Z) (K := ek) ex_compose ex_close (Chain None [Identity ex_two]) = Err IndexError.
Proof. reflexivity. Qed.
(** An intermediate discretization of lower order: the values of x^2 at 0, 1, 2 come out changed only by the chain *)
Theorem C32_lossy_refuted : exists (c d e : @conn (list Z) ek) ary r1 r2,
  single_group ex_dim (@length Z) ex_placed 0 (mk_dgroup 1 3 Quad2) (mk_dgroup 1 2 Lin1) c /\ single_group ex_dim (@length Z) ex_placed 0 (mk_dgroup 1 2 Lin1) (mk_dgroup 1 3 Quad2) d /\
  on_discr (cn_from c) ary /\ flatten ex_compose ex_close (Chain None [Direct c; Direct d]) = Ok (Direct e) /\
  zapply true false (Chain None [Direct c; Direct d]) ary = Ok r1 /\ zcall true false e ary = Ok r2 /\ r1 <> r2.
Proof.
  exists (mk_conn [mk_dgroup 1 3 Quad2] [mk_dgroup 1 2 Lin1] [[mk_batch 0 [0] [0] [0; 1]%Z None]] true), (mk_conn [mk_dgroup 1 2 Lin1] [mk_dgroup 1 3 Quad2] [[mk_batch 0 [0] [0] [0; 1; 2]%Z None]] true).
  eexists. exists [[[0; 1; 4]]]%Z. eexists. eexists.
  assert (Hss : forall b : @batch (list Z), bt_to b = [0] -> bt_from b = [0] -> single_source [b]).
  { intros b Ht Hf k k' b1 b2 t s s' Hk Hk' Hin Hin'. destruct k as [|[|k]]; try discriminate. destruct k' as [|[|k']]; try discriminate. cbn in Hk, Hk'. injection Hk as <-. injection Hk' as <-.
    rewrite Ht, Hf in Hin, Hin'. cbn in Hin, Hin'. destruct Hin as [Hin|[]]. destruct Hin' as [Hin'|[]]. split; congruence. }
  split; [|split; [|split; [repeat constructor|split; [vm_compute; reflexivity|split; [vm_compute; reflexivity|split; [vm_compute; reflexivity|discriminate]]]]]].
  - split; [reflexivity|]. split; [reflexivity|]. split; [reflexivity|]. split; [reflexivity|]. eexists. split; [reflexivity|]. split; [now apply Hss|repeat constructor].
  - split; [reflexivity|]. split; [reflexivity|]. split; [reflexivity|]. split; [reflexivity|]. eexists. split; [reflexivity|]. split; [now apply Hss|repeat constructor].
Qed.

(** ** C71: connections are linear *)
Theorem C71_linear {R : cring} {N K} (rmat : K -> N -> list (list R)) rpick eager nomerge d (x : @cnx N K) e a b u v ru rv :
  cnx_ok rmat rpick d x e -> on_discr d u -> on_discr d v ->
  apply R rmat rpick eager nomerge x u = Ok ru -> apply R rmat rpick eager nomerge x v = Ok rv ->
  apply R rmat rpick eager nomerge x (dlin a u b v) = Ok (dlin a ru b rv).
Proof. apply apply_linear. Qed.
Example C71_example : cnx_ok ex_rmat ex_rpick (cn_from ex_conn) (Chain None [Direct ex_conn]) (cn_to ex_conn) /\
  dlin (R := Zcring) 2%Z ex_ary (-1)%Z [[[1; 1]; [0; 1]]; [[0; 0; 1]]]%Z = [[[1; 3]; [6; 9]]; [[20; 40; 79]]]%Z /\
  zapply true false (Chain None [Direct ex_conn]) [[[1; 3]; [6; 9]]; [[20; 40; 79]]]%Z = Ok [[[9; 6]; [0; 0]; [79; 20]]; [[11; 16]]]%Z.
Proof. split; [apply ok_last; [now left|apply ok_direct, C29_example]|]. split; vm_compute; reflexivity. Qed.

(** ** C72: connections between discretizations of one mesh *)
Theorem C72_same_mesh {R : cring} {N K} (rmat : K -> N -> list (list R)) rpick (unit_nodes : K -> N) eager nomerge (from to : list (@dgroup K)) x :
  Forall2 (fun f t => dg_nel f = dg_nel t /\
    match rpick (dg_kind f) (unit_nodes (dg_kind t)) with
    | Some ix => length ix = dg_ndof t /\ Forall (fun i => i < dg_ndof f) ix
    | None => is_mat (dg_ndof t) (dg_ndof f) (rmat (dg_kind f) (unit_nodes (dg_kind t)))
    end) from to ->
  on_discr from x ->
  exists c r, make_same_mesh unit_nodes true false to from = Ok (Direct c) /\ cn_from c = from /\ cn_to c = to /\ cn_surj c = true /\
    call R rmat rpick eager nomerge c x = Ok r /\ on_discr to r /\
    forall i f t xr rr e u w, nth_error from i = Some f -> nth_error to i = Some t -> nth_error x i = Some xr -> nth_error r i = Some rr -> nth_error xr e = Some u -> nth_error rr e = Some w ->
      match rpick (dg_kind f) (unit_nodes (dg_kind t)) with
      | Some ix => Forall2 (fun i v => nth_error u i = Some v) ix w
      | None => w = matvec (rmat (dg_kind f) (unit_nodes (dg_kind t))) u
      end.
Proof. apply same_mesh_ok. Qed.
Theorem C72_other_cases {N K} (unit_nodes : K -> N) (from to : list (@dgroup K)) same :
  make_same_mesh unit_nodes false same to from = Err ValueError /\ make_same_mesh unit_nodes true true to from = Ok (Identity from) /\
  (length from <> length to -> make_same_mesh unit_nodes true false to from = Err ValueError).
Proof.
  split; [reflexivity|]. split; [reflexivity|]. intros H. unfold make_same_mesh. cbn [guard bind]. now rewrite (proj2 (Nat.eqb_neq _ _) H).
Qed.
Example C72_example : (x <- make_same_mesh ex_unit true false [mk_dgroup 2 3 Quad2] [mk_dgroup 2 2 Lin1] ;; zapply true false x [[[1; 2]; [5; 3]]]%Z) = Ok [[[1; 2; 3]; [5; 3; 1]]]%Z.
Proof. vm_compute. reflexivity. Qed.

Print Assumptions C29_paths_agree. Print Assumptions C29_wrong_shape. Print Assumptions C29_permutation. Print Assumptions C29_many_lists_refuted.
Print Assumptions C30_full_matrix. Print Assumptions C30_chain_matrix. Print Assumptions C30_duplicate_targets_refuted. Print Assumptions C30_empty_refuted. Print Assumptions C30_identity_refuted.
Print Assumptions C31_composition. Print Assumptions C31_nesting. Print Assumptions C31_defined.
Print Assumptions C32_flatten. Print Assumptions C32_nested. Print Assumptions C32_direct_empty. Print Assumptions C32_groups_refuted. Print Assumptions C32_identities_refuted. Print Assumptions C32_lossy_refuted.
Print Assumptions C71_linear. Print Assumptions C72_same_mesh. Print Assumptions C72_other_cases.
