(** * ConnFlatProofs: chains of connections and flattening *)
From Coq Require Import List Arith Bool ZArith Lia.
From Verif Require Import Np NpFacts PointProofs SplitProofs FlipProofs Lin ConnModel ConnSpec ConnProofs ConnMatProofs.
Import ListNotations.

Section Flat.
  Context {R : cring} {N K : Type}.
  Variable rmat : K -> N -> list (list R).
  Variable rpick : K -> N -> option (list nat).
  Notation batch := (@batch N).
  Notation conn := (@conn N K).
  Notation dgroup := (@dgroup K).
  Notation contributes := (contributes rmat rpick).
  Notation sums := (sums rmat rpick).
  Notation transports := (transports rmat rpick).

  Lemma transports_on_discr (c : conn) ary r : conn_ok rmat rpick c -> transports c ary r -> on_discr (cn_to c) r.
  Proof.
    unfold ConnSpec.transports, conn_ok, on_discr. intros Hc. revert r. induction Hc as [|tg bs tgs bss (Hb & _) Hc IH]; intros r H; cbn [combine] in H.
    - inversion H. constructor.
    - inversion H as [|? rows ? r' (Hl & Hs) H']; subst. cbn [fst snd] in *. constructor; [|auto]. split; [exact Hl|].
      apply Forall_forall. intros row Hin. apply In_nth_error in Hin. destruct Hin as (t & Ht). destruct (Hs t row Ht) as (cs & Hcs & ->).
      apply vsum_length. clear -Hb Hcs. induction Hcs as [|b d bs ds Hd Hds IH]; [constructor|]. apply Forall_cons_iff in Hb. destruct Hb as (Hb & Hbs).
      constructor; [eapply contributes_length; eauto|auto].
  Qed.

  (** ** Chains *)
  Lemma apply_chain eager nomerge f cs ary : apply R rmat rpick eager nomerge (Chain f cs) ary = foldM (fun a c => apply R rmat rpick eager nomerge c a) cs ary.
  Proof.
    cbn [apply]. revert ary. induction cs as [|c cs IH]; intros ary; [reflexivity|]. cbn [foldM].
    destruct (apply R rmat rpick eager nomerge c ary); cbn [bind]; [apply IH|reflexivity].
  Qed.

  Lemma apply_ok eager nomerge d x e ary : cnx_ok rmat rpick d x e -> on_discr d ary ->
    exists r, apply R rmat rpick eager nomerge x ary = Ok r /\ carries rmat rpick x ary r /\ on_discr e r.
  Proof.
    intros H. revert ary. induction H as [c Hc|d|d|d e f c Hf Hc IH|d e h f c c' cs Hf Hc IH Hcs IHcs]; intros ary Hary.
    - destruct (call_ok rmat rpick eager nomerge c ary Hc Hary) as (r & Hr & Ht). exists r. split; [exact Hr|]. split; [now constructor|]. eapply transports_on_discr; eauto.
    - exists ary. split; [reflexivity|]. split; [constructor|exact Hary].
    - exists ary. split; [reflexivity|]. split; [constructor|exact Hary].
    - destruct (IH ary Hary) as (r & Hr & Hcar & Hd). exists r. rewrite apply_chain. cbn [foldM]. rewrite Hr. cbn [bind]. split; [reflexivity|]. split; [|exact Hd].
      eapply carry_cons with (f' := None); [exact Hcar|constructor].
    - destruct (IH ary Hary) as (a & Ha & Hcar & Hd). destruct (IHcs a Hd) as (r & Hr & Hcar' & Hd'). exists r. rewrite apply_chain in Hr |- *.
      cbn [foldM] in *. rewrite Ha. cbn [bind]. split; [exact Hr|]. split; [|exact Hd']. eapply carry_cons; eauto.
  Qed.

  Lemma chain_append eager nomerge f cs1 cs2 ary : apply R rmat rpick eager nomerge (Chain f (cs1 ++ cs2)) ary =
    (a <- apply R rmat rpick eager nomerge (Chain f cs1) ary ;; apply R rmat rpick eager nomerge (Chain f cs2) a).
  Proof.
    rewrite !apply_chain, foldM_app. destruct (foldM _ cs1 ary); cbn [bind]; [|reflexivity]. now rewrite apply_chain.
  Qed.

  Lemma chain_nested eager nomerge f g cs1 cs2 cs3 ary :
    apply R rmat rpick eager nomerge (Chain f (cs1 ++ Chain g cs2 :: cs3)) ary = apply R rmat rpick eager nomerge (Chain f (cs1 ++ cs2 ++ cs3)) ary.
  Proof.
    rewrite !apply_chain, !foldM_app. destruct (foldM _ cs1 ary) as [a|]; cbn [bind]; [|reflexivity]. cbn [foldM].
    rewrite apply_chain, foldM_app. reflexivity.
  Qed.

  (** ** Matrix of a chain *)
  Lemma chain_matrix_cons f c0 cs : chain_matrix R rmat (Chain f (c0 :: cs)) =
    (m <- chain_matrix R rmat c0 ;;
     foldM (fun acc c => m <- chain_matrix R rmat c ;;
               match m, acc with Some m, Some a => Ok (Some (matmul (ndofs (source c0)) m a)) | _, _ => Err ValueError end) cs m).
  Proof.
    cbn [chain_matrix]. destruct (chain_matrix R rmat c0) as [m|]; cbn [bind]; [|reflexivity].
    revert m. induction cs as [|c cs IH]; intros m; [reflexivity|]. cbn [foldM]. destruct (chain_matrix R rmat c) as [[mc|]|]; cbn [bind]; [|destruct m; reflexivity|reflexivity].
    destruct m as [a|]; [|reflexivity]. cbn [bind]. apply IH.
  Qed.

  Lemma cnx_ok_source d x e : cnx_ok rmat rpick d x e -> source x = d.
  Proof. induction 1; try reflexivity; cbn [source]; destruct f; assumption. Qed.

  Definition mult_step (n : nat) (acc : option (list (list R))) (c : @cnx N K) : res (option (list (list R))) :=
    m <- chain_matrix R rmat c ;;
    match m, acc with Some m, Some a => Ok (Some (matmul n m a)) | _, _ => Err ValueError end.

  Lemma chain_matrix_ok d x e : cnx_ok rmat rpick d x e -> has_matrix rmat rpick x ->
    (forall ary, on_discr d ary -> exists M r, chain_matrix R rmat x = Ok (Some M) /\ is_mat (ndofs e) (ndofs d) M /\ carries rmat rpick x ary r /\ on_discr e r /\
      matvec M (concat (concat ary)) = concat (concat r)) /\
    (forall f cs n A v ary, x = Chain f cs -> on_discr d ary -> is_mat (ndofs d) n A -> matvec A v = concat (concat ary) ->
      exists M r, foldM (mult_step n) cs (Some A) = Ok (Some M) /\ is_mat (ndofs e) n M /\ carries rmat rpick x ary r /\ on_discr e r /\ matvec M v = concat (concat r)).
  Proof.
    induction 1 as [c Hc|d|d|d e f c Hf Hc IH|d e h f c c' cs Hf Hc IH Hcs IHcs]; intros Hm.
    - split; [|discriminate]. intros ary Hary. inversion Hm as [c' Hp Hd Hex| |]; subst. destruct (full_matrix_ok rmat rpick c ary Hc Hp Hd Hary) as (o & r & Ho & Ht & Hs).
      destruct o as [M|].
      + exists M, r. cbn [chain_matrix]. split; [exact Ho|]. split; [apply Hs|]. split; [now constructor|]. split; [eapply transports_on_discr; eauto|apply Hs].
      + exfalso. apply Exists_exists in Hex. destruct Hex as (bs & Hbs & Hex). apply Exists_exists in Hex. destruct Hex as (b & Hb & Hne).
        rewrite Forall_forall in Hs. specialize (Hs _ Hbs). rewrite Forall_forall in Hs. now apply Hne, Hs.
    - inversion Hm.
    - split.
      + intros ary Hary. exists (idmat (ndofs d)), ary. split; [reflexivity|]. split; [apply is_mat_id|]. split; [constructor|]. split; [exact Hary|]. apply matvec_id. now apply on_discr_length.
      + intros f cs n A v ary E Hary HA Hv. injection E as <- <-. exists A, ary. split; [reflexivity|]. split; [exact HA|]. split; [constructor|]. auto.
    - inversion Hm as [| |? ? ? ? Hm1 Hm2]; subst. destruct (IH Hm1) as (IH1 & _). split.
      + intros ary Hary. destruct (IH1 ary Hary) as (M & r & HM & Hi & Hcar & Hd & Hv). exists M, r. rewrite chain_matrix_cons, HM. split; [reflexivity|]. split; [exact Hi|]. split; [|auto].
        eapply carry_cons with (f' := None); [exact Hcar|constructor].
      + intros f0 cs n A v ary E Hary HA Hv. injection E as <- <-. destruct (IH1 ary Hary) as (M & r & HM & Hi & Hcar & Hd & Hv').
        cbn [foldM]. unfold mult_step at 1. rewrite HM. cbn [bind]. exists (matmul n M A), r. split; [reflexivity|]. split; [eapply is_mat_matmul; eauto|].
        split; [eapply carry_cons with (f' := None); [exact Hcar|constructor]|]. split; [exact Hd|]. rewrite (matvec_matmul R (ndofs e) (ndofs d)) by assumption. now rewrite Hv.
    - inversion Hm as [| |? ? ? ? Hm1 Hm2]; subst. destruct (IH Hm1) as (IH1 & _).
      assert (Hm2' : has_matrix rmat rpick (Chain None (c' :: cs))) by (inversion Hm2; subst; econstructor; eauto).
      destruct (IHcs Hm2') as (_ & IH2). split.
      + intros ary Hary. destruct (IH1 ary Hary) as (M & a & HM & Hi & Hcar & Hd & Hv).
        destruct (IH2 None (c' :: cs) (ndofs d) M (concat (concat ary)) a eq_refl Hd Hi Hv) as (M' & r & HM' & Hi' & Hcar' & Hd' & Hv').
        exists M', r. rewrite chain_matrix_cons, HM. cbn [bind]. rewrite (cnx_ok_source _ _ _ Hc). split; [exact HM'|]. split; [exact Hi'|]. split; [eapply carry_cons; eauto|]. auto.
      + intros f0 cs0 n A v ary E Hary HA Hv. injection E as <- <-. destruct (IH1 ary Hary) as (M & a & HM & Hi & Hcar & Hd & Hv').
        destruct (IH2 None (c' :: cs) n (matmul n M A) v a eq_refl Hd) as (M' & r & HM' & Hi' & Hcar' & Hd' & Hv'').
        { eapply is_mat_matmul; eauto. }
        { rewrite (matvec_matmul R (ndofs e) (ndofs d)) by assumption. now rewrite Hv. }
        exists M', r. split; [|split; [exact Hi'|]; split; [eapply carry_cons; eauto|auto]].
        remember (c' :: cs) as l. cbn [foldM].
        assert (E : mult_step n (Some A) c = Ok (Some (matmul n M A))) by (unfold mult_step; rewrite HM; reflexivity). rewrite E. exact HM'.
  Qed.

  Lemma carries_chain_f f f' (cs : list (@cnx N K)) a r : carries rmat rpick (Chain f cs) a r -> carries rmat rpick (Chain f' cs) a r.
  Proof. intros H. inversion H; subst; [constructor|]. econstructor; eauto. Qed.

  Lemma carries_fun d x e a r1 r2 : cnx_ok rmat rpick d x e -> carries rmat rpick x a r1 -> carries rmat rpick x a r2 -> r1 = r2.
  Proof.
    intros H. revert a r1 r2. induction H as [c Hc|d|d|d e f c Hf Hc IH|d e h f c c' cs Hf Hc IH Hcs IHcs]; intros a r1 r2 H1 H2.
    - inversion H1; inversion H2; subst. eapply transports_fun; eauto.
    - inversion H1; inversion H2; congruence.
    - inversion H1; inversion H2; congruence.
    - inversion H1 as [| | |? ? ? ? ? b1 ? Hb1 Hr1]; subst. inversion H2 as [| | |? ? ? ? ? b2 ? Hb2 Hr2]; subst. inversion Hr1; subst. inversion Hr2; subst. eauto.
    - inversion H1 as [| | |? f1 ? ? ? b1 ? Hb1 Hr1]; subst. inversion H2 as [| | |? f2 ? ? ? b2 ? Hb2 Hr2]; subst. assert (b1 = b2) by eauto. subst b2.
      eapply IHcs; eapply carries_chain_f; eauto.
  Qed.

  (** ** Flattening a pair *)
  Variables (dim : K -> nat) (card : N -> nat) (placed : K -> N -> Prop).
  Variable node_compose : K -> N -> K -> N -> N.
  Variable allclose : N -> N -> bool.

  Lemma foldM_nested {A X Y} (f : A -> X -> Y -> res A) (l : list X) (l' : list Y) a :
    foldM (fun a x => foldM (fun a y => f a x y) l' a) l a = foldM (fun a p => f a (fst p) (snd p)) (flat_map (fun x => map (fun y => (x, y)) l') l) a.
  Proof.
    revert a. induction l as [|x l IH]; intros a; [reflexivity|]. cbn [foldM flat_map]. rewrite foldM_app.
    assert (E : forall a, foldM (fun a y => f a x y) l' a = foldM (fun a p => f a (fst p) (snd p)) (map (fun y => (x, y)) l') a).
    { clear. induction l' as [|y l' IH]; intros a; [reflexivity|]. cbn [foldM map fst snd]. destruct (f a x y); cbn [bind]; [apply IH|reflexivity]. }
    rewrite <- E. destruct (foldM (fun a y => f a x y) l' a); cbn [bind]; [apply IH|reflexivity].
  Qed.

  Lemma nth_error_product {X Y} (l : list X) (l' : list Y) p x y :
    nth_error (flat_map (fun x => map (fun y => (x, y)) l') l) p = Some (x, y) <->
    exists i j, p = i * length l' + j /\ nth_error l i = Some x /\ nth_error l' j = Some y.
  Proof.
    split.
    - revert p. induction l as [|x0 l IH]; intros p H; cbn [flat_map] in H; [destruct p; discriminate|].
      destruct (Nat.lt_ge_cases p (length l')) as [Hp|Hp].
      + rewrite nth_error_app1 in H by now rewrite map_length. rewrite nth_error_map in H. destruct (nth_error l' p) as [y0|] eqn:E; [|discriminate].
        cbn [option_map] in H. injection H as -> ->. exists 0, p. auto.
      + rewrite nth_error_app2 in H by now rewrite map_length. rewrite map_length in H. destruct (IH _ H) as (i & j & E & Hi & Hj).
        exists (S i), j. cbn [Nat.mul nth_error]. split; [lia|]. auto.
    - intros (i & j & -> & Hi & Hj). revert i Hi. induction l as [|x0 l IH]; intros [|i] Hi; try discriminate; cbn [nth_error] in Hi; cbn [flat_map Nat.mul].
      + injection Hi as ->. assert (j < length l') by (apply nth_error_Some; congruence). rewrite nth_error_app1 by (rewrite map_length; cbn; lia). cbn [Nat.add].
        rewrite nth_error_map, Hj. reflexivity.
      + rewrite nth_error_app2 by (rewrite map_length; lia). rewrite map_length. replace (length l' + i * length l' + j - length l') with (i * length l' + j) by lia. now apply IH.
  Qed.

  (** A batch of a single-group connection *)
  Definition sbatch (g : nat) (src tg : dgroup) (b : batch) : Prop :=
    bt_fgrp b = g /\ length (bt_from b) = length (bt_to b) /\ Forall (fun t => t < dg_nel tg) (bt_to b) /\
    Forall (fun s => s < dg_nel src) (bt_from b) /\ card (bt_nodes b) = dim (dg_kind tg) /\ placed (dg_kind tg) (bt_nodes b).

  Hypothesis Hres : resampling_ok rmat rpick dim card.
  Hypothesis Hclose : allclose_ok rmat allclose.

  Lemma sbatch_ok from g src tg b : nth_error from g = Some src -> dg_ndof src = dim (dg_kind src) -> dg_ndof tg = dim (dg_kind tg) -> sbatch g src tg b ->
    batch_ok rmat rpick from tg b.
  Proof.
    intros Hg Hs Ht (Hf & Hl & Hto & Hfrom & Hc & _). destruct Hres as (H1 & H2). split; [exact Hl|]. split; [exact Hto|]. exists src. rewrite Hf. split; [exact Hg|]. split; [exact Hfrom|].
    destruct (rpick (dg_kind src) (bt_nodes b)) as [ix|] eqn:E.
    - destruct (H2 _ _ _ E) as (Hlen & Hr & _). split; [congruence|]. now rewrite Hs.
    - rewrite Ht, Hs, <- Hc. apply H1.
  Qed.

  Lemma contributes_matrix from ary nd g src tg b t s x rows : nth_error from g = Some src -> dg_ndof src = dim (dg_kind src) -> sbatch g src tg b ->
    assigns b t s -> nth_error ary g = Some rows -> nth_error rows s = Some x -> length x = dim (dg_kind src) ->
    contributes from ary nd t b (matvec (rmat (dg_kind src) (bt_nodes b)) x).
  Proof.
    intros Hg Hs (Hf & _) Ha Hrows Hx Hxl. left. exists src, s, rows, x. rewrite Hf. split; [exact Hg|]. split; [exact Ha|]. split; [exact Hrows|]. split; [exact Hx|].
    destruct (rpick (dg_kind src) (bt_nodes b)) as [ix|] eqn:E; [|reflexivity]. destruct Hres as (_ & H2). destruct (H2 _ _ _ E) as (_ & _ & H). now apply H.
  Qed.

  Lemma single_source_nodup (bs : list batch) : NoDup (flat_map bt_to bs) -> single_source bs.
  Proof.
    induction bs as [|b bs IH]; intros H k k' b1 b2 t s s' Hk Hk' Hin Hin'; [destruct k; discriminate|]. cbn [flat_map] in H.
    assert (Happ : NoDup (bt_to b) /\ NoDup (flat_map bt_to bs) /\ forall x, In x (bt_to b) -> ~ In x (flat_map bt_to bs)) by (now apply NoDup_app_inv).
    destruct Happ as (H1 & H2 & H3).
    assert (Hlater : forall j c u, nth_error bs j = Some c -> In (t, u) (combine (bt_to c) (bt_from c)) -> In t (flat_map bt_to bs)).
    { intros j c u Hj Hu. apply in_flat_map. exists c. split; [eapply nth_error_In; eauto|now apply in_combine_l in Hu]. }
    destruct k as [|k], k' as [|k']; cbn [nth_error] in Hk, Hk'.
    - injection Hk as <-. injection Hk' as <-. split; [reflexivity|].
      apply In_nth_error in Hin, Hin'. destruct Hin as (j & Hj), Hin' as (j' & Hj'). apply nth_error_combine_Some in Hj, Hj'. destruct Hj as (Hj & Hs), Hj' as (Hj' & Hs').
      assert (j = j'). { apply (proj1 (NoDup_nth_error (bt_to b)) H1); [apply nth_error_Some; congruence|congruence]. } congruence.
    - injection Hk as <-. exfalso. apply (H3 t); [now apply in_combine_l in Hin|eapply Hlater; eauto].
    - injection Hk' as <-. exfalso. apply (H3 t); [now apply in_combine_l in Hin'|eapply Hlater; eauto].
    - destruct (IH H2 k k' b1 b2 t s s' Hk Hk' Hin Hin') as (-> & ->). auto.
  Qed.

  Lemma single_source_tail (b : batch) bs : single_source (b :: bs) -> single_source bs.
  Proof. intros H k k' c c' t s s' Hk Hk' Hin Hin'. destruct (H (S k) (S k') c c' t s s' Hk Hk' Hin Hin') as (E & E'). split; [lia|exact E']. Qed.

  Lemma combine_targets {A B} (l : list A) (l' : list B) t : length l' = length l -> In t l -> exists s, In (t, s) (combine l l').
  Proof.
    intros Hl Hin. apply In_nth_error in Hin. destruct Hin as (j & Hj). destruct (nth_error l' j) as [s|] eqn:E.
    - exists s. eapply nth_error_In. now apply nth_error_combine'; eauto.
    - apply nth_error_None in E. assert (j < length l) by (apply nth_error_Some; congruence). lia.
  Qed.

  Lemma single_assigns (bs : list batch) k b t s : single_source bs -> nth_error bs k = Some b -> length (bt_from b) = length (bt_to b) -> In (t, s) (combine (bt_to b) (bt_from b)) -> assigns b t s.
  Proof.
    intros Hss Hk Hl Hin. apply assigns_lsrc; [exact Hl|]. destruct (lsrc b t) as [s'|] eqn:E.
    - assert (Hin' : In (t, s') (combine (bt_to b) (bt_from b))).
      { unfold lsrc in E. apply last_assoc_Some in E. destruct E as (j & Hj & _). eapply nth_error_In; eauto. }
      destruct (Hss k k b b t s' s Hk Hk Hin' Hin) as (_ & ->). reflexivity.
    - apply lsrc_None in E; [|exact Hl]. elim E. now apply in_combine_l in Hin.
  Qed.

  (** The only contribution *)
  Lemma sums_only from ary nd (bs : list batch) k b t s c : single_source bs -> Forall (fun b => length (bt_from b) = length (bt_to b)) bs -> nth_error bs k = Some b -> In (t, s) (combine (bt_to b) (bt_from b)) ->
    length c = nd -> contributes from ary nd t b c -> sums from ary nd bs t c.
  Proof.
    intros Hss Hl Hk Hin Hc Hcon. pose proof Hk as Hk'. apply nth_error_split in Hk'. destruct Hk' as (l1 & l2 & E & Hlen). rewrite E. apply sums_single; [exact Hc| |exact Hcon].
    apply Forall_forall. intros b' Hin' Ht.
    assert (Hb' : exists k', k' <> k /\ nth_error bs k' = Some b').
    { apply in_app_or in Hin'. rewrite E. destruct Hin' as [H|H]; apply In_nth_error in H; destruct H as (j & Hj).
      - exists j. assert (j < length l1) by (apply nth_error_Some; congruence). split; [lia|]. now rewrite nth_error_app1.
      - exists (length l1 + S j). split; [lia|]. rewrite nth_error_app2 by lia. replace (length l1 + S j - length l1) with (S j) by lia. exact Hj. }
    destruct Hb' as (k' & Hne & Hk').
    assert (Hl' : length (bt_from b') = length (bt_to b')) by (rewrite Forall_forall in Hl; apply Hl; eapply nth_error_In; eauto).
    destruct (combine_targets _ _ _ Hl' Ht) as (s' & Hs'). destruct (Hss _ _ _ _ _ _ _ Hk' Hk Hs' Hin) as (E' & _). congruence.
  Qed.

  Lemma sums_fun from ary nd (bs : list batch) t r1 r2 : Forall (fun b => length (bt_from b) = length (bt_to b)) bs -> sums from ary nd bs t r1 -> sums from ary nd bs t r2 -> r1 = r2.
  Proof.
    intros Hb (cs1 & H1 & ->) (cs2 & H2 & ->). f_equal. revert cs2 H2. induction H1 as [|b d bs ds Hd Hds IH]; intros cs2 H2; inversion H2; subst; [reflexivity|].
    apply Forall_cons_iff in Hb. destruct Hb as (Hl & Hb). f_equal; [eapply contributes_fun; eauto|auto].
  Qed.

  (** Lookup table of a connection with one target group *)
  Lemma lookup_table_single (c : conn) (tg : dgroup) (bs : list batch) : cn_groups c = [bs] -> cn_to c = [tg] -> single_source bs ->
    Forall (fun b => length (bt_from b) = length (bt_to b) /\ Forall (fun t => t < dg_nel tg) (bt_to b)) bs ->
    exists full, lookup_table c = Ok [full] /\ length full = dg_nel tg /\
      forall b m s, In b bs -> In (m, s) (combine (bt_to b) (bt_from b)) -> nth_error full m = Some (Z.of_nat s).
  Proof.
    intros Hg Ht Hss Hb. unfold lookup_table. rewrite Hg, Ht. cbn [map]. unfold iterbatches, enumerate, enumerate_from. cbn [length seq combine flat_map fst snd].
    rewrite app_nil_r.
    set (step := fun (tbl : list (list Z)) (ib : nat * batch) => row <- get tbl (fst ib) ;; row' <- assign_from row (snd ib) ;; put tbl (fst ib) row').
    assert (Hgen : forall rest pre full, bs = pre ++ rest -> length full = dg_nel tg ->
      (forall b m s, In b pre -> In (m, s) (combine (bt_to b) (bt_from b)) -> nth_error full m = Some (Z.of_nat s)) ->
      exists full', foldM step (map (pair 0) rest) [full] = Ok [full'] /\ length full' = dg_nel tg /\
        forall b m s, In b bs -> In (m, s) (combine (bt_to b) (bt_from b)) -> nth_error full' m = Some (Z.of_nat s)).
    { induction rest as [|b rest IH]; intros pre full E Hl Hinv.
      - exists full. rewrite app_nil_r in E. subst pre. cbn [map foldM]. auto.
      - assert (Hbin : In b bs) by (rewrite E; apply in_or_app; right; now left). pose proof Hb as Hb'. rewrite Forall_forall in Hb'. destruct (Hb' b Hbin) as (Hlb & Htb).
        destruct (assign_from_total full b Hlb) as (full' & Hf'); [now rewrite Hl|]. pose proof Hf' as Hspec. apply assign_from_spec in Hspec. destruct Hspec as (_ & Hl' & Hn).
        cbn [map foldM]. assert (Es : step [full] (0, b) = Ok [full']). { unfold step. cbn [fst snd get nth_error]. unfold get. cbn [nth_error bind]. rewrite Hf'. cbn [bind]. reflexivity. }
        rewrite Es. cbn [bind]. apply (IH (pre ++ [b])); [now rewrite <- app_assoc|congruence|].
        intros b' m s Hin Hms. rewrite Hn. apply in_app_or in Hin.
        destruct (lsrc b m) as [s'|] eqn:Es'.
        + f_equal. f_equal. assert (Hin' : In (m, s') (combine (bt_to b) (bt_from b))).
          { unfold lsrc in Es'. apply last_assoc_Some in Es'. destruct Es' as (j & Hj & _). eapply nth_error_In; eauto. }
          assert (Hb'in : In b' bs). { rewrite E. apply in_or_app. destruct Hin as [H|[->|[]]]; [now left|right; now left]. }
          apply In_nth_error in Hbin, Hb'in. destruct Hbin as (k & Hk), Hb'in as (k' & Hk'). now destruct (Hss _ _ _ _ _ _ _ Hk Hk' Hin' Hms).
        + destruct Hin as [Hin|[->|[]]]; [now apply (Hinv b')|]. exfalso. apply lsrc_None in Es'; [|exact Hlb]. apply Es'. now apply in_combine_l in Hms. }
    apply (Hgen bs []); [reflexivity|apply repeat_length|]. intros b m s [].
  Qed.

  (** Assignment of pairs of batches to new batches *)
  Lemma find_batch_single nodes (info : list (@binfo N)) : match find_batch allclose nodes [info] with
    | Some gb => exists k bi, gb = (0, k) /\ nth_error info k = Some bi /\ allclose nodes (bi_nodes bi) = true
    | None => True end.
  Proof.
    unfold find_batch, enumerate at 2, enumerate_from. cbn [length seq combine flat_map fst snd]. rewrite app_nil_r.
    match goal with |- context [find ?p ?l] => destruct (find p l) as [(gb, bi)|] eqn:E end; cbn [option_map]; [|exact I].
    apply find_some in E. destruct E as (Hin & Hc). apply in_map_iff in Hin. destruct Hin as ((k, bi') & E & Hin). cbn [fst snd] in E, Hc. injection E as <- <-.
    exists k, bi'. split; [reflexivity|]. split; [now apply In_enumerate in Hin|exact Hc].
  Qed.

  Lemma group_table_single (c d : conn) g (src mid tg : dgroup) (bsC bsD : list batch) :
    cn_groups c = [bsC] -> cn_groups d = [bsD] -> nth_error (cn_from c) g = Some src -> nth_error (cn_from d) 0 = Some mid ->
    Forall (sbatch g src mid) bsC -> Forall (sbatch 0 mid tg) bsD ->
    exists info asg, group_table node_compose allclose c d = Ok ([info], asg) /\ length asg = length bsC * length bsD /\ Forall (fun bi => bi_fgrp bi = g /\ exists f' t', In f' bsC /\ In t' bsD /\ bi_nodes bi = node_compose (dg_kind src) (bt_nodes f') (dg_kind mid) (bt_nodes t')) info /\
      forall i j f t, nth_error bsC i = Some f -> nth_error bsD j = Some t ->
        exists k bi, nth_error asg (i * length bsD + j) = Some (0, k) /\ nth_error info k = Some bi /\ bi_fgrp bi = g /\
          (forall k, rmat k (node_compose (dg_kind src) (bt_nodes f) (dg_kind mid) (bt_nodes t)) = rmat k (bi_nodes bi)).
  Proof.
    intros HgC HgD Hsrc Hmid HC HD. unfold group_table. rewrite HgC, HgD. unfold iterbatches, enumerate, enumerate_from. cbn [length seq combine flat_map fst snd].
    rewrite !app_nil_r. cbn [Nat.mul Nat.add repeat].
    match goal with |- context [foldM (fun acc fb => foldM (fun acc0 tb => @?f acc0 fb tb) _ acc) _ _] => set (step := f) end.
    change (exists info asg, foldM (fun acc fb => foldM (fun acc0 tb => step acc0 fb tb) (map (pair 0) bsD) acc) (map (pair 0) bsC) ([[]], []) = Ok ([info], asg) /\
      length asg = length bsC * length bsD /\ Forall (fun bi => bi_fgrp bi = g /\ exists f' t', In f' bsC /\ In t' bsD /\ bi_nodes bi = node_compose (dg_kind src) (bt_nodes f') (dg_kind mid) (bt_nodes t')) info /\
      forall i j f t, nth_error bsC i = Some f -> nth_error bsD j = Some t ->
        exists k bi, nth_error asg (i * length bsD + j) = Some (0, k) /\ nth_error info k = Some bi /\ bi_fgrp bi = g /\
          (forall k, rmat k (node_compose (dg_kind src) (bt_nodes f) (dg_kind mid) (bt_nodes t)) = rmat k (bi_nodes bi))).
    rewrite foldM_nested.
    set (P := flat_map (fun x => map (fun y => (x, y)) (map (pair 0) bsD)) (map (pair 0) bsC)).
    set (comp := fun p : (nat * batch) * (nat * batch) => node_compose (dg_kind src) (bt_nodes (snd (fst p))) (dg_kind mid) (bt_nodes (snd (snd p)))).
    set (good := fun (info : list (@binfo N)) (p : (nat * batch) * (nat * batch)) (gb : nat * nat) =>
       exists k bi, gb = (0, k) /\ nth_error info k = Some bi /\ bi_fgrp bi = g /\ (forall k, rmat k (comp p) = rmat k (bi_nodes bi)) /\ exists q, In q P /\ bi_nodes bi = comp q).
    assert (HP : forall p, In p P -> exists f t, p = ((0, f), (0, t)) /\ In f bsC /\ In t bsD).
    { intros p Hin. unfold P in Hin. apply in_flat_map in Hin. destruct Hin as (x & Hx & Hin). apply in_map_iff in Hin. destruct Hin as (y & <- & Hy).
      apply in_map_iff in Hx, Hy. destruct Hx as (f & <- & Hf), Hy as (t & <- & Ht). exists f, t. auto. }
    assert (Hgen : forall rest pre info asg, P = pre ++ rest -> Forall (fun bi => bi_fgrp bi = g /\ exists q, In q P /\ bi_nodes bi = comp q) info -> Forall2 (good info) pre asg ->
      exists info' asg', foldM (fun a p => step a (fst p) (snd p)) rest ([info], asg) = Ok ([info'], asg') /\ Forall2 (good info') P asg' /\ Forall (fun bi => bi_fgrp bi = g /\ exists q, In q P /\ bi_nodes bi = comp q) info').
    { induction rest as [|p rest IH]; intros pre info asg E Hinfo Hpre.
      - exists info, asg. rewrite app_nil_r in E. rewrite E in Hinfo |- *. split; [reflexivity|]. split; [exact Hpre|exact Hinfo].
      - assert (Hin : In p P) by (rewrite E; apply in_or_app; right; now left). destruct (HP p Hin) as (f & t & -> & Hf & Ht).
        cbn [foldM fst snd].
        rewrite Forall_forall in HC, HD. destruct (HC f Hf) as (Hfg & _). destruct (HD t Ht) as (Htg & _).
        assert (Es : step ([info], asg) (0, f) (0, t) =
          match find_batch allclose (comp ((0, f), (0, t))) [info] with
          | Some gb => Ok ([info], asg ++ [gb])
          | None => Ok ([info ++ [mk_binfo (comp ((0, f), (0, t))) (bt_fgrp f) (bt_face t)]], asg ++ [(0, length info)]) end).
        { unfold step. rewrite Hfg, Htg, (proj2 (get_ok _ _ _) Hsrc). cbn [bind]. rewrite (proj2 (get_ok _ _ _) Hmid). cbn [bind].
          unfold comp. cbn [fst snd]. destruct (find_batch allclose _ [info]); [reflexivity|]. cbn [Nat.mul Nat.add]. reflexivity. }
        rewrite Es. pose proof (find_batch_single (comp ((0, f), (0, t))) info) as Hfb. destruct (find_batch allclose (comp ((0, f), (0, t))) [info]) as [gb|]; cbn [bind].
        + apply (IH (pre ++ [((0, f), (0, t))])); [now rewrite <- app_assoc|exact Hinfo|]. apply Forall2_app; [exact Hpre|]. constructor; [|constructor].
          destruct Hfb as (k & bi & -> & Hk & Hc). exists k, bi. rewrite Forall_forall in Hinfo. destruct (Hinfo bi (nth_error_In _ _ Hk)) as (Hbg & Hq).
          split; [reflexivity|]. split; [exact Hk|]. split; [exact Hbg|]. split; [now apply Hclose|exact Hq].
        + apply (IH (pre ++ [((0, f), (0, t))])); [now rewrite <- app_assoc| |].
          * apply Forall_app. split; [exact Hinfo|]. constructor; [|constructor]. cbn [bi_fgrp bi_nodes]. split; [exact Hfg|]. exists ((0, f), (0, t)). auto.
          * apply Forall2_app.
            -- eapply Forall2_impl; [|exact Hpre]. intros p gb (k & bi & -> & Hk & H). exists k, bi. split; [reflexivity|]. split; [|exact H].
               rewrite nth_error_app1; [exact Hk|]. apply nth_error_Some. congruence.
            -- constructor; [|constructor]. exists (length info). eexists. split; [reflexivity|]. split; [rewrite nth_error_app2, Nat.sub_diag by lia; reflexivity|].
               cbn [bi_fgrp bi_nodes]. split; [exact Hfg|]. split; [reflexivity|]. exists ((0, f), (0, t)). auto. }
    destruct (Hgen P [] [] []) as (info & asg & Hrun & Hgood & Hinfo); [reflexivity|constructor|constructor|].
    exists info, asg. split; [exact Hrun|]. split.
    { apply Forall2_length' in Hgood. rewrite <- Hgood. unfold P. clear. rewrite <- (map_length (pair 0) bsC), <- (map_length (pair 0) bsD).
      generalize (map (pair 0) bsC) as l. generalize (map (pair 0) bsD) as l'. intros l' l. induction l as [|x l IH]; [reflexivity|]. cbn [flat_map length Nat.mul]. rewrite app_length, map_length, IH. reflexivity. }
    split.
    { eapply Forall_impl; [|exact Hinfo]. intros bi (Hg & q & Hq & Hqn). split; [exact Hg|]. destruct (HP q Hq) as (f' & t' & -> & Hf' & Ht'). exists f', t'. auto. }
    intros i j f t Hi Hj.
    assert (Hp : nth_error P (i * length bsD + j) = Some ((0, f), (0, t))).
    { unfold P. apply nth_error_product. exists i, j. rewrite map_length. split; [reflexivity|]. rewrite !nth_error_map, Hi, Hj. auto. }
    destruct (Forall2_nth_error _ _ _ _ _ Hgood Hp) as (gb & Hgb & (k & bi & -> & Hk & Hbg & Hc & q & Hq & Hqn)). exists k, bi.
    split; [exact Hgb|]. split; [exact Hk|]. split; [exact Hbg|exact Hc].
  Qed.

  Lemma bin_append_single row k old new : nth_error row k = Some old ->
    exists row', bin_append [row] (0, k) new = Ok [row'] /\ length row' = length row /\ nth_error row' k = Some (old ++ new) /\ forall k', k' <> k -> nth_error row' k' = nth_error row k'.
  Proof.
    intros Hk. unfold bin_append. cbn [fst snd]. unfold get at 1. cbn [nth_error bind]. rewrite (proj2 (get_ok _ _ _) Hk). cbn [bind].
    assert (Hlt : k < length row) by (apply nth_error_Some; congruence). unfold put at 1. rewrite (proj2 (Nat.ltb_lt _ _) Hlt). cbn [bind]. unfold put. cbn [length]. cbn [Nat.ltb Nat.leb].
    exists (upd row k (old ++ new)). split; [reflexivity|]. split; [apply length_upd|]. split; [now apply nth_error_upd_eq|]. intros k' Hne. apply nth_error_upd_neq. congruence.
  Qed.

  Definition item : Type := (((nat * batch) * (nat * batch)) * (nat * nat))%type.
  Definition masked (f t : batch) : list (nat * nat) := filter (fun ft => memb (fst ft) (bt_to f)) (combine (bt_from t) (bt_to t)).

  Lemma bins_loop (full : list Z) (items : list item) n :
    Forall (fun it : item => exists f t k, it = (((0, f), (0, t)), (0, k)) /\ k < n /\ forall m, In m (bt_to f) -> exists s, nth_error full m = Some (Z.of_nat s)) items ->
    exists row, foldM (fun bins (p : item) =>
              let '(((ig, fbatch), (jg, tbatch)), gb) := p in
              row <- get [full] ig ;;
              new <- mapM (fun ft =>
                        z <- get row (fst ft) ;;
                        _ <- guard (Z.leb 0 z) IndexError ;;
                        Ok (Z.to_nat z, snd ft))
                      (filter (fun ft => memb (fst ft) (bt_to fbatch)) (combine (bt_from tbatch) (bt_to tbatch))) ;;
              bin_append bins gb new) items [repeat [] n] = Ok [row] /\ length row = n /\
      forall k l, nth_error row k = Some l -> forall s t, In (s, t) l <->
        exists f tb m, In (((0, f), (0, tb)), (0, k)) items /\ In (m, t) (combine (bt_from tb) (bt_to tb)) /\ In m (bt_to f) /\ nth_error full m = Some (Z.of_nat s).
  Proof.
    intros Hit. match goal with |- exists row, foldM ?g _ _ = _ /\ _ => set (step := g) end.
    assert (Hgen : forall rest pre row, items = pre ++ rest -> length row = n ->
      (forall k l, nth_error row k = Some l -> forall s t, In (s, t) l <->
        exists f tb m, In (((0, f), (0, tb)), (0, k)) pre /\ In (m, t) (combine (bt_from tb) (bt_to tb)) /\ In m (bt_to f) /\ nth_error full m = Some (Z.of_nat s)) ->
      exists row', foldM step rest [row] = Ok [row'] /\ length row' = n /\
      (forall k l, nth_error row' k = Some l -> forall s t, In (s, t) l <->
        exists f tb m, In (((0, f), (0, tb)), (0, k)) items /\ In (m, t) (combine (bt_from tb) (bt_to tb)) /\ In m (bt_to f) /\ nth_error full m = Some (Z.of_nat s))).
    { induction rest as [|it rest IH]; intros pre row E Hl Hinv.
      - exists row. rewrite app_nil_r in E. subst pre. cbn [foldM]. auto.
      - assert (Hin : In it items) by (rewrite E; apply in_or_app; right; now left). pose proof Hit as Hit'. rewrite Forall_forall in Hit'.
        destruct (Hit' it Hin) as (f & tb & k & -> & Hk & Hfull).
        assert (Hnew : exists new, mapM (fun ft => z <- get full (fst ft) ;; _ <- guard (Z.leb 0 z) IndexError ;; Ok (Z.to_nat z, snd ft)) (masked f tb) = Ok new /\
          forall s t, In (s, t) new <-> exists m, In (m, t) (combine (bt_from tb) (bt_to tb)) /\ In m (bt_to f) /\ nth_error full m = Some (Z.of_nat s)).
        { assert (Hm : forall ft, In ft (masked f tb) -> exists s, (z <- get full (fst ft) ;; _ <- guard (Z.leb 0 z) IndexError ;; Ok (Z.to_nat z, snd ft)) = Ok (s, snd ft) /\ nth_error full (fst ft) = Some (Z.of_nat s)).
          { intros (m, t) Hmt. unfold masked in Hmt. apply filter_In in Hmt. destruct Hmt as (_ & Hm). cbn [fst snd] in *. apply memb_In in Hm. destruct (Hfull m Hm) as (s & Hs). exists s.
            rewrite (proj2 (get_ok _ _ _) Hs). cbn [bind]. rewrite (proj2 (Z.leb_le _ _)) by lia. cbn [guard bind]. rewrite Nat2Z.id. auto. }
          destruct (mapM_total (fun ft => z <- get full (fst ft) ;; _ <- guard (Z.leb 0 z) IndexError ;; Ok (Z.to_nat z, snd ft)) (masked f tb)) as (new & Hnew).
          { intros ft Hft. destruct (Hm ft Hft) as (s & -> & _). eauto. }
          exists new. split; [exact Hnew|]. apply mapM_ok in Hnew. intros s t. split.
          - intros Hst. destruct (Forall2_In_r _ _ _ _ Hnew Hst) as ((m, t') & Hft & Heq). destruct (Hm _ Hft) as (s' & Es & Hs). rewrite Es in Heq. cbn [fst snd] in *. injection Heq as -> ->.
            unfold masked in Hft. apply filter_In in Hft. destruct Hft as (Hft & Hmem). apply memb_In in Hmem. exists m. auto.
          - intros (m & Hmt & Hmf & Hs). assert (Hft : In (m, t) (masked f tb)) by (unfold masked; apply filter_In; split; [exact Hmt|now apply memb_In]).
            destruct (Forall2_In_l _ _ _ _ Hnew Hft) as (y & Hy & Heq). destruct (Hm _ Hft) as (s' & Es & Hs'). rewrite Es in Heq. injection Heq as <-. cbn [fst snd] in *.
            assert (s' = s) by (rewrite Hs in Hs'; injection Hs'; lia). now subst s'. }
        destruct Hnew as (new & Hrun & Hnew).
        destruct (nth_error row k) as [old|] eqn:Eold; [|apply nth_error_None in Eold; lia].
        destruct (bin_append_single _ _ _ new Eold) as (row' & Happ & Hl' & Hk' & Hother).
        assert (Es : step [row] (((0, f), (0, tb)), (0, k)) = Ok [row']).
        { unfold step. unfold get at 1. cbn [nth_error bind]. fold (masked f tb). rewrite Hrun. cbn [bind]. exact Happ. }
        cbn [foldM]. rewrite Es. cbn [bind]. apply (IH (pre ++ [(((0, f), (0, tb)), (0, k))])); [now rewrite <- app_assoc|congruence|].
        intros k0 l Hl0 s t. destruct (Nat.eq_dec k0 k) as [->|Hne].
        + assert (l = old ++ new) by congruence. subst l. rewrite in_app_iff, Hnew, (Hinv k old Eold). split.
          * intros [(f0 & tb0 & m & Hin0 & H)|(m & H)]; [exists f0, tb0, m; split; [apply in_or_app; now left|exact H]|exists f, tb, m; split; [apply in_or_app; right; now left|exact H]].
          * intros (f0 & tb0 & m & Hin0 & H). apply in_app_or in Hin0. destruct Hin0 as [Hin0|[Heq|[]]]; [left; exists f0, tb0, m; auto|]. injection Heq as -> ->. right. exists m. exact H.
        + rewrite (Hother _ Hne) in Hl0. rewrite (Hinv k0 l Hl0). split; intros (f0 & tb0 & m & Hin0 & H); exists f0, tb0, m; (split; [|exact H]).
          * apply in_or_app. now left.
          * apply in_app_or in Hin0. destruct Hin0 as [Hin0|[Heq|[]]]; [exact Hin0|]. injection Heq as _ _ ->. congruence. }
    apply (Hgen items []); [reflexivity|apply repeat_length|]. intros k l Hk s t. apply nth_error_In, repeat_spec in Hk. subst l. split; [intros []|]. intros (f & tb & m & [] & _).
  Qed.

  Notation single_group := (single_group dim card placed).
  Notation lossless := (lossless rmat dim card placed node_compose).

  Lemma single_groupE g src tg (c : conn) : single_group g src tg c <->
    nth_error (cn_from c) g = Some src /\ cn_to c = [tg] /\ dg_ndof src = dim (dg_kind src) /\ dg_ndof tg = dim (dg_kind tg) /\
    exists bs, cn_groups c = [bs] /\ single_source bs /\ Forall (sbatch g src tg) bs.
  Proof. reflexivity. Qed.

  Lemma iterbatches_single (bs : list batch) : iterbatches [bs] = map (pair 0) bs.
  Proof. unfold iterbatches, enumerate, enumerate_from. cbn [length seq combine flat_map fst snd]. apply app_nil_r. Qed.

  Lemma In_combine_snd_fst (l : list (nat * nat)) t s : In (t, s) (combine (map snd l) (map fst l)) <-> In (s, t) l.
  Proof. induction l as [|(a, b) l IH]; [reflexivity|]. cbn [map combine fst snd In]. rewrite IH. split; (intros [H|H]; [left; congruence|now right]). Qed.

  Lemma In_combine_swap {A B} (l : list A) (l' : list B) a b : In (a, b) (combine l l') <-> In (b, a) (combine l' l).
  Proof. revert l'. induction l as [|x l IH]; intros [|y l']; try (cbn [combine In]; tauto). cbn [combine In]. rewrite IH. split; (intros [H|H]; [left; congruence|now right]). Qed.

  Lemma matvec_zeros n (M : list (list R)) : matvec M (zeros n) = zeros (length M).
  Proof. unfold matvec, zeros. induction M as [|r M IH]; [reflexivity|]. cbn [map length repeat]. rewrite IH. f_equal. rewrite dot_comm. apply (dot_zeros R n r). Qed.

  Lemma transports_single (c : conn) tg bs x r : cn_to c = [tg] -> cn_groups c = [bs] ->
    (transports c x r <-> exists rows, r = [rows] /\ length rows = dg_nel tg /\ forall t row, nth_error rows t = Some row -> sums (cn_from c) x (dg_ndof tg) bs t row).
  Proof.
    intros Ht Hg. unfold ConnSpec.transports. rewrite Ht, Hg. cbn [combine]. split.
    - intros H. inversion H as [|? rows ? r' (Hl & Hs) H']; subst. inversion H'; subst. cbn [fst snd] in *. exists rows. split; [reflexivity|]. split; [exact Hl|exact Hs].
    - intros (rows & -> & Hl & Hs). constructor; [|constructor]. cbn [fst snd]. split; [exact Hl|exact Hs].
  Qed.

  Lemma covered (bs : list batch) t : (exists k b s, nth_error bs k = Some b /\ In (t, s) (combine (bt_to b) (bt_from b))) \/ 
    Forall (fun b => length (bt_from b) = length (bt_to b) -> ~ In t (bt_to b)) bs.
  Proof.
    induction bs as [|b bs [(k & b' & s & Hk & Hin)|IH]]; [right; constructor|left; exists (S k), b', s; auto|].
    destruct (Nat.eq_dec (length (bt_from b)) (length (bt_to b))) as [E|E]; [|right; constructor; [congruence|exact IH]].
    destruct (In_dec Nat.eq_dec t (bt_to b)) as [Hin|Hn]; [|right; constructor; auto].
    left. destruct (combine_targets _ _ _ E Hin) as (s & Hs). exists 0, b, s. auto.
  Qed.

  Lemma uncovered_sums from ary nd (bs : list batch) t : Forall (fun b => length (bt_from b) = length (bt_to b)) bs ->
    Forall (fun b => length (bt_from b) = length (bt_to b) -> ~ In t (bt_to b)) bs -> sums from ary nd bs t (zeros nd).
  Proof. intros Hl H. apply sums_absent. rewrite Forall_forall in *. intros b Hb. apply H; [exact Hb|now apply Hl]. Qed.

  Lemma sbatch_lengths g src tg bs : Forall (sbatch g src tg) bs -> Forall (fun b => length (bt_from b) = length (bt_to b)) bs.
  Proof. apply Forall_impl. now intros b (_ & H & _). Qed.

  (** The value at a target element of a connection with single groups *)
  Lemma single_value from g src tg (bs : list batch) ary rows : nth_error from g = Some src -> dg_ndof src = dim (dg_kind src) -> dg_ndof tg = dim (dg_kind tg) ->
    single_source bs -> Forall (sbatch g src tg) bs -> nth_error ary g = Some rows -> Forall (fun x => length x = dg_ndof src) rows ->
    forall k b t s x, nth_error bs k = Some b -> In (t, s) (combine (bt_to b) (bt_from b)) -> nth_error rows s = Some x ->
      sums from ary (dg_ndof tg) bs t (matvec (rmat (dg_kind src) (bt_nodes b)) x).
  Proof.
    intros Hg Hs Ht Hss Hbs Hary Hrows k b t s x Hk Hin Hx. pose proof (sbatch_lengths _ _ _ _ Hbs) as Hl.
    assert (Hb : sbatch g src tg b) by (rewrite Forall_forall in Hbs; apply Hbs; eapply nth_error_In; eauto).
    assert (Hxl : length x = dim (dg_kind src)) by (rewrite <- Hs; rewrite Forall_forall in Hrows; apply Hrows; eapply nth_error_In; eauto).
    eapply sums_only; eauto.
    - rewrite matvec_length. destruct Hb as (_ & _ & _ & _ & Hc & _). destruct Hres as (H1 & _). destruct (H1 (dg_kind src) (bt_nodes b)) as (-> & _). congruence.
    - eapply contributes_matrix; eauto. eapply single_assigns; eauto. now destruct Hb as (_ & H & _).
  Qed.

  Theorem flatten_pair_ok surj g src mid tg (c d : conn) :
    single_group g src mid c -> cn_from d = [mid] -> single_group 0 mid tg d -> lossless (dg_kind src) (dg_kind mid) ->
    exists e, flatten_pair node_compose allclose surj c d = Ok e /\ cn_from e = cn_from c /\ cn_surj e = surj /\ single_group g src tg e /\
      forall x y z, on_discr (cn_from c) x -> transports c x y -> transports d y z -> transports e x z.
  Proof.
    rewrite !single_groupE. intros (Hsrc & HtoC & Hks & Hkm & bsC & HgC & HssC & HC) HfromD (Hmid & HtoD & _ & Hkt & bsD & HgD & HssD & HD) Hless.
    assert (HlC := sbatch_lengths _ _ _ _ HC). assert (HlD := sbatch_lengths _ _ _ _ HD).
    destruct (lookup_table_single c mid bsC HgC HtoC HssC) as (full & Htbl & _ & Hfull).
    { eapply Forall_impl; [|exact HC]. intros b (_ & H1 & H2 & _). auto. }
    destruct (group_table_single c d g src mid tg bsC bsD HgC HgD Hsrc Hmid HC HD) as (info & asg & Hgt & Hasg & Hinfo & Hpair).
    set (P := flat_map (fun fb => map (fun tb => (fb, tb)) (map (pair 0) bsD)) (map (pair 0) bsC)).
    assert (HfullC : forall f m, In f bsC -> In m (bt_to f) -> exists s, nth_error full m = Some (Z.of_nat s) /\ In (m, s) (combine (bt_to f) (bt_from f))).
    { intros f m Hf Hm. destruct (combine_targets (bt_to f) (bt_from f) m) as (s & Hs); [rewrite Forall_forall in HlC; now apply HlC|exact Hm|]. exists s. split; [eapply Hfull; eauto|exact Hs]. }
    assert (HitemP : forall f tb gb, In (((0, f), (0, tb)), gb) (combine P asg) <-> 
       exists i j, nth_error bsC i = Some f /\ nth_error bsD j = Some tb /\ nth_error asg (i * length bsD + j) = Some gb).
    { intros f tb gb. split.
      - intros Hin. apply In_nth_error in Hin. destruct Hin as (q & Hq). apply nth_error_combine_Some in Hq. destruct Hq as (Hq & Ha). unfold P in Hq.
        apply nth_error_product in Hq. destruct Hq as (i & j & -> & Hi & Hj). rewrite map_length in Ha. rewrite nth_error_map in Hi, Hj.
        destruct (nth_error bsC i) as [f0|] eqn:Ei; [|discriminate]. destruct (nth_error bsD j) as [t0|] eqn:Ej; [|discriminate]. cbn [option_map] in Hi, Hj.
        injection Hi as ->. injection Hj as ->. exists i, j. auto.
      - intros (i & j & Hi & Hj & Ha). eapply nth_error_In with (n := i * length bsD + j). apply nth_error_combine'; [|exact Ha].
        unfold P. apply nth_error_product. exists i, j. rewrite map_length, !nth_error_map, Hi, Hj. auto. }
    destruct (bins_loop full (combine P asg) (length info)) as (row & Hbins & Hrow & Hbin).
    { apply Forall_forall. intros ((x, y), gb) Hin. assert (HP := in_combine_l _ _ _ _ Hin). unfold P in HP. apply in_flat_map in HP.
      destruct HP as (x' & Hx & HP). apply in_map_iff in HP. destruct HP as (y' & E & Hy). injection E as -> ->.
      apply in_map_iff in Hx, Hy. destruct Hx as (f & <- & Hf), Hy as (tb & <- & Htb).
      apply HitemP in Hin. destruct Hin as (i & j & Hi & Hj & Ha). destruct (Hpair i j f tb Hi Hj) as (k & bi & Ha' & Hk & _).
      assert (gb = (0, k)) by congruence. subst gb. exists f, tb, k. split; [reflexivity|]. split; [apply nth_error_Some; congruence|].
      intros m Hm. destruct (HfullC f m Hf Hm) as (s & Hs & _). eauto. }
    set (bsE := map (fun ib : @binfo N * list (nat * nat) => mk_batch (bi_fgrp (fst ib)) (map fst (snd ib)) (map snd (snd ib)) (bi_nodes (fst ib)) (bi_face (fst ib))) (combine info row)).
    exists (mk_conn (cn_from c) (cn_to d) [bsE] surj).
    assert (Hrun : flatten_pair node_compose allclose surj c d = Ok (mk_conn (cn_from c) (cn_to d) [bsE] surj)).
    { unfold flatten_pair. rewrite Htbl. cbn [bind]. rewrite Hgt. cbn [bind fst snd]. rewrite HgC, HgD, !iterbatches_single. fold P. cbn [map].
      assert (Er : map (fun _ : @binfo N => @nil (nat * nat)) info = repeat [] (length info)).
      { clear. induction info as [|b info IH]; [reflexivity|]. cbn [map length repeat]. now rewrite IH. }
      rewrite Er. match goal with |- bind ?t _ = _ => replace t with (@Ok (list (list (list (nat * nat)))) [row]) by (symmetry; exact Hbins) end. cbn [bind combine map fst snd]. reflexivity. }
    (* batches of the result *)
    assert (HE : forall k b, nth_error bsE k = Some b -> exists bi l, nth_error info k = Some bi /\ nth_error row k = Some l /\
       b = mk_batch (bi_fgrp bi) (map fst l) (map snd l) (bi_nodes bi) (bi_face bi)).
    { intros k b Hk. unfold bsE in Hk. rewrite nth_error_map in Hk. destruct (nth_error (combine info row) k) as [(bi, l)|] eqn:E; [|discriminate].
      apply nth_error_combine_Some in E. destruct E as (E1 & E2). cbn [option_map fst snd] in Hk. injection Hk as <-. exists bi, l. auto. }
    (* where a pair in a bin comes from *)
    assert (Horigin : forall k l s t, nth_error row k = Some l -> In (s, t) l -> exists i j f tb m, nth_error bsC i = Some f /\ nth_error bsD j = Some tb /\
       nth_error asg (i * length bsD + j) = Some (0, k) /\ In (t, m) (combine (bt_to tb) (bt_from tb)) /\ In (m, s) (combine (bt_to f) (bt_from f))).
    { intros k l s t Hk Hin. apply (proj1 (Hbin k l Hk s t)) in Hin. destruct Hin as (f & tb & m & Hit & Hmt & Hmf & Hs). apply HitemP in Hit. destruct Hit as (i & j & Hi & Hj & Ha).
      destruct (HfullC f m (nth_error_In _ _ Hi) Hmf) as (s' & Hs' & Hms). assert (s' = s) by (rewrite Hs in Hs'; injection Hs'; lia). subst s'.
      exists i, j, f, tb, m. apply In_combine_swap in Hmt. repeat split; assumption. }
    assert (HsE : Forall (sbatch g src tg) bsE).
    { apply Forall_forall. intros b Hb. apply In_nth_error in Hb. destruct Hb as (k & Hb). destruct (HE k b Hb) as (bi & l & Hbi & Hl & ->).
      rewrite Forall_forall in Hinfo. destruct (Hinfo bi (nth_error_In _ _ Hbi)) as (Hfg & f' & t' & Hf' & Ht' & Hn).
      pose proof HC as HC'. pose proof HD as HD'. rewrite Forall_forall in HC', HD'. destruct (HC' f' Hf') as (_ & _ & _ & _ & Hcf & Hpf). destruct (HD' t' Ht') as (_ & _ & _ & _ & Hct & Hpt).
      destruct (Hless (bt_nodes f') (dg_kind tg) (bt_nodes t') Hcf Hpf Hct Hpt) as (Hcard & Hpl & _).
      unfold sbatch. cbn [bt_fgrp bt_from bt_to bt_nodes]. split; [exact Hfg|]. split; [now rewrite !map_length|]. rewrite Hn.
      split; [|split; [|split; [congruence|exact Hpl]]].
      - apply Forall_forall. intros t Hin. apply in_map_iff in Hin. destruct Hin as ((s, t0) & <- & Hin). destruct (Horigin k l s t0 Hl Hin) as (i & j & f & tb & m & _ & Hj & _ & Htm & _).
        destruct (HD' tb (nth_error_In _ _ Hj)) as (_ & _ & Hto & _). rewrite Forall_forall in Hto. apply Hto. now apply in_combine_l in Htm.
      - apply Forall_forall. intros s Hin. apply in_map_iff in Hin. destruct Hin as ((s0, t) & <- & Hin). destruct (Horigin k l s0 t Hl Hin) as (i & j & f & tb & m & Hi & _ & _ & _ & Hms).
        destruct (HC' f (nth_error_In _ _ Hi)) as (_ & _ & _ & Hfr & _). rewrite Forall_forall in Hfr. apply Hfr. now apply in_combine_r in Hms. }
    assert (HssE : single_source bsE).
    { intros k k' b b' t s s' Hk Hk' Hin Hin'. destruct (HE k b Hk) as (bi & l & Hbi & Hl & ->). destruct (HE k' b' Hk') as (bi' & l' & Hbi' & Hl' & ->). cbn [bt_to bt_from] in Hin, Hin'.
      rewrite In_combine_snd_fst in Hin. rewrite In_combine_snd_fst in Hin'.
      destruct (Horigin k l s t Hl Hin) as (i & j & f & tb & m & Hi & Hj & Ha & Htm & Hms). destruct (Horigin k' l' s' t Hl' Hin') as (i' & j' & f' & tb' & m' & Hi' & Hj' & Ha' & Htm' & Hms').
      destruct (HssD _ _ _ _ _ _ _ Hj Hj' Htm Htm') as (-> & ->). destruct (HssC _ _ _ _ _ _ _ Hi Hi' Hms Hms') as (-> & ->). split; [congruence|reflexivity]. }
    assert (HlE := sbatch_lengths _ _ _ _ HsE).
    split; [exact Hrun|]. split; [reflexivity|]. split; [reflexivity|]. split.
    { cbn [cn_from cn_to cn_groups]. split; [exact Hsrc|]. split; [exact HtoD|]. split; [exact Hks|]. split; [exact Hkt|]. exists bsE. auto. }
    intros x y z Hx Hy Hz.
    apply (transports_single c mid bsC) in Hy; [|exact HtoC|exact HgC]. destruct Hy as (yrows & -> & Hyl & Hy).
    apply (transports_single d tg bsD) in Hz; [|exact HtoD|exact HgD]. destruct Hz as (zrows & -> & Hzl & Hz).
    apply (transports_single (mk_conn (cn_from c) (cn_to d) [bsE] surj) tg bsE); [exact HtoD|reflexivity|]. exists zrows. split; [reflexivity|]. split; [exact Hzl|].
    intros t row0 Ht. specialize (Hz t row0 Ht). cbn [cn_from].
    destruct (on_discr_get _ _ _ _ Hx Hsrc) as (xrows & Hxr & Hxl & Hxlen).
    assert (Hylen : Forall (fun r => length r = dg_ndof mid) yrows).
    { apply Forall_forall. intros r Hr. apply In_nth_error in Hr. destruct Hr as (m & Hm). destruct (Hy m r Hm) as (cs & Hcs & ->). apply vsum_length.
      clear -Hcs HC Hsrc Hks Hkm Hres. induction Hcs as [|b v bs vs Hv Hvs IH]; [constructor|]. apply Forall_cons_iff in HC. destruct HC as (Hb & HC).
      constructor; [|auto]. eapply contributes_length; [|exact Hv]. eapply sbatch_ok; eauto. }
    destruct (covered bsD t) as [(j & tb & m & Hj & Htm)|Hun].
    - assert (Hmlt : m < dg_nel mid). { pose proof HD as HD'. rewrite Forall_forall in HD'. destruct (HD' tb (nth_error_In _ _ Hj)) as (_ & _ & _ & Hfr & _). rewrite Forall_forall in Hfr. apply Hfr. now apply in_combine_r in Htm. }
      destruct (nth_error yrows m) as [ym|] eqn:Eym; [|apply nth_error_None in Eym; lia].
      assert (Erow : row0 = matvec (rmat (dg_kind mid) (bt_nodes tb)) ym).
      { eapply sums_fun; [exact HlD|exact Hz|]. eapply (single_value (cn_from d) 0 mid tg bsD [yrows] yrows); eauto. }
      destruct (covered bsC m) as [(i & f & s & Hi & Hms)|Hun].
      + assert (Hslt : s < dg_nel src). { pose proof HC as HC'. rewrite Forall_forall in HC'. destruct (HC' f (nth_error_In _ _ Hi)) as (_ & _ & _ & Hfr & _). rewrite Forall_forall in Hfr. apply Hfr. now apply in_combine_r in Hms. }
        destruct (nth_error xrows s) as [xs|] eqn:Exs; [|apply nth_error_None in Exs; lia].
        assert (Eym' : ym = matvec (rmat (dg_kind src) (bt_nodes f)) xs).
        { eapply sums_fun; [exact HlC|exact (Hy m ym Eym)|]. eapply (single_value (cn_from c) g src mid bsC x xrows); eauto. }
        destruct (Hpair i j f tb Hi Hj) as (k & bi & Ha & Hk & Hfg & Hmat).
        destruct (nth_error row k) as [l|] eqn:El; [|apply nth_error_None in El; assert (k < length info) by (apply nth_error_Some; congruence); lia].
        assert (Hst : In (s, t) l).
        { apply (Hbin k l El s t). exists f, tb, m. split; [apply HitemP; exists i, j; auto|]. split; [now apply In_combine_swap|]. split; [now apply in_combine_l in Hms|].
          eapply Hfull; eauto. eapply nth_error_In; eauto. }
        set (b := mk_batch (bi_fgrp bi) (map fst l) (map snd l) (bi_nodes bi) (bi_face bi)).
        assert (Hb : nth_error bsE k = Some b). { unfold bsE. rewrite nth_error_map, (nth_error_combine' _ _ _ _ _ Hk El). reflexivity. }
        pose proof HC as HC'. pose proof HD as HD'. rewrite Forall_forall in HC', HD'.
        destruct (HC' f (nth_error_In _ _ Hi)) as (_ & _ & _ & _ & Hcf & Hpf). destruct (HD' tb (nth_error_In _ _ Hj)) as (_ & _ & _ & _ & Hct & Hpt).
        destruct (Hless (bt_nodes f) (dg_kind tg) (bt_nodes tb) Hcf Hpf Hct Hpt) as (_ & _ & Hmm).
        assert (Efin : row0 = matvec (rmat (dg_kind src) (bt_nodes b)) xs).
        { unfold b. cbn [bt_nodes]. rewrite <- Hmat, Hmm. destruct Hres as (H1 & _). rewrite (matvec_matmul R (card (bt_nodes tb)) (dim (dg_kind mid))); [congruence|apply H1|]. rewrite <- Hcf. apply H1. }
        rewrite Efin. eapply (single_value (cn_from c) g src tg bsE x xrows); eauto. unfold b. cbn [bt_to bt_from]. now apply In_combine_snd_fst.
      + assert (Eym' : ym = zeros (dg_ndof mid)). { eapply sums_fun; [exact HlC|exact (Hy m ym Eym)|now apply uncovered_sums]. }
        assert (Ez : row0 = zeros (dg_ndof tg)).
        { rewrite Erow, Eym', matvec_zeros. destruct Hres as (H1 & _). destruct (H1 (dg_kind mid) (bt_nodes tb)) as (-> & _).
          pose proof HD as HD'. rewrite Forall_forall in HD'. destruct (HD' tb (nth_error_In _ _ Hj)) as (_ & _ & _ & _ & Hct & _). now rewrite Hct, Hkt. }
        rewrite Ez. apply sums_absent. apply Forall_forall. intros b Hb Hin. apply In_nth_error in Hb. destruct Hb as (k & Hb). destruct (HE k b Hb) as (bi & l & Hbi & Hl & ->).
        cbn [bt_to] in Hin. apply in_map_iff in Hin. destruct Hin as ((s, t0) & E & Hin). cbn [snd] in E. subst t0.
        destruct (Horigin k l s t Hl Hin) as (i & j' & f & tb' & m' & Hi & Hj' & _ & Htm' & Hms). destruct (HssD _ _ _ _ _ _ _ Hj Hj' Htm Htm') as (_ & <-).
        rewrite Forall_forall in Hun. apply (Hun f (nth_error_In _ _ Hi)); [rewrite Forall_forall in HlC; apply HlC; eapply nth_error_In; eauto|]. now apply in_combine_l in Hms.
    - assert (Ez : row0 = zeros (dg_ndof tg)). { eapply sums_fun; [exact HlD|exact Hz|now apply uncovered_sums]. }
      rewrite Ez. apply sums_absent. apply Forall_forall. intros b Hb Hin. apply In_nth_error in Hb. destruct Hb as (k & Hb). destruct (HE k b Hb) as (bi & l & Hbi & Hl & ->).
      cbn [bt_to] in Hin. apply in_map_iff in Hin. destruct Hin as ((s, t0) & E & Hin). cbn [snd] in E. subst t0.
      destruct (Horigin k l s t Hl Hin) as (i & j' & f & tb' & m' & Hi & Hj' & _ & Htm' & Hms).
      rewrite Forall_forall in Hun. apply (Hun tb' (nth_error_In _ _ Hj')); [rewrite Forall_forall in HlD; apply HlD; eapply nth_error_In; eauto|]. now apply in_combine_l in Htm'.
  Qed.

  (** ** Flattening a chain *)
  Notation cnx := (@cnx N K).
  Notation flatten := (flatten node_compose allclose).
  Notation carries := (carries rmat rpick).
  Notation links := (links rmat dim card placed node_compose).
  Notation single_chain := (single_chain rmat dim card placed node_compose).
  Definition directs (fs : list cnx) : list conn := flat_map (fun f => match f with Direct c => [c] | _ => [] end) fs.

  Lemma flatten_chain f cs : cs <> [] ->
    flatten (Chain f cs) = (fs <- mapM flatten cs ;; match directs fs with [] => Err IndexError | c :: ds => r <- foldM (flatten_pair node_compose allclose (forallb surjective cs)) ds c ;; Ok (Direct r) end).
  Proof.
    intros Hne. destruct cs as [|c0 cs0]; [congruence|]. cbn [ConnModel.flatten].
    match goal with |- bind (bind _ (fun x => bind (?go _) _)) _ = _ => assert (E : forall l, go l = mapM flatten l) end.
    { induction l as [|c l IH]; [reflexivity|]. cbn [mapM]. rewrite IH. reflexivity. }
    rewrite E. reflexivity.
  Qed.

  Lemma carries_nil f a r : carries (Chain f []) a r -> r = a.
  Proof. intros H. now inversion H. Qed.
  Lemma carries_cons f c cs a r : carries (Chain f (c :: cs)) a r -> exists b, carries c a b /\ carries (Chain None cs) b r.
  Proof.
    intros H. inversion H as [| | |? f' ? ? ? b ? H1 H2]; subst. exists b. split; [exact H1|]. clear H H1. inversion H2; subst; [constructor|]. econstructor; eauto.
  Qed.

  Lemma links_flat ks m cs tg : links ks m cs tg -> mapM flatten cs = Ok cs.
  Proof. induction 1 as [|m d cs tg H IH|m m' c cs tg _ _ _ H IH]; [reflexivity| |]; cbn [mapM ConnModel.flatten bind]; rewrite IH; reflexivity. Qed.
  Lemma single_chain_flat from g src cs tg : single_chain from g src cs tg -> mapM flatten cs = Ok cs.
  Proof. induction 1 as [d cs tg H IH|c cs m tg _ _ H]; cbn [mapM ConnModel.flatten bind]; [rewrite IH|rewrite (links_flat _ _ _ _ H)]; reflexivity. Qed.

  Lemma links_fold surj g src m cs tg : links (dg_kind src) m cs tg -> forall c, single_group g src m c ->
    exists e, foldM (flatten_pair node_compose allclose surj) (directs cs) c = Ok e /\ cn_from e = cn_from c /\ single_group g src tg e /\
      forall x y z, on_discr (cn_from c) x -> transports c x y -> carries (Chain None cs) y z -> transports e x z.
  Proof.
    induction 1 as [m|m d cs tg H IH|m m' d cs tg Hless Hfrom Hd H IH]; intros c Hc.
    - exists c. cbn [directs flat_map foldM]. split; [reflexivity|]. split; [reflexivity|]. split; [exact Hc|]. intros x y z _ Hy Hz. apply carries_nil in Hz. now subst z.
    - destruct (IH c Hc) as (e & He & Hf & Hs & Hsem). exists e. split; [exact He|]. split; [exact Hf|]. split; [exact Hs|].
      intros x y z Hx Hy Hz. apply carries_cons in Hz. destruct Hz as (b & Hb & Hz). inversion Hb; subst. eauto.
    - destruct (flatten_pair_ok surj g src m m' c d Hc Hfrom Hd Hless) as (e1 & He1 & Hf1 & _ & Hs1 & Hsem1).
      destruct (IH e1 Hs1) as (e & He & Hf & Hs & Hsem). exists e. split; [|split; [congruence|split; [exact Hs|]]].
      + unfold directs. cbn [flat_map app foldM]. rewrite He1. cbn [bind]. exact He.
      + intros x y z Hx Hy Hz. apply carries_cons in Hz. destruct Hz as (b & Hb & Hz). inversion Hb; subst. eapply Hsem; [now rewrite Hf1|eapply Hsem1; eauto|exact Hz].
  Qed.

  Theorem flatten_single f from g src cs tg : single_chain from g src cs tg ->
    exists e, flatten (Chain f cs) = Ok (Direct e) /\ cn_from e = from /\ single_group g src tg e /\
      forall x z, on_discr from x -> carries (Chain f cs) x z -> transports e x z.
  Proof.
    intros H. rewrite flatten_chain by (inversion H; congruence). rewrite (single_chain_flat _ _ _ _ _ H). cbn [bind]. generalize (forallb surjective cs) as surj. intros surj.
    assert (Hind : exists c ds e, directs cs = c :: ds /\ foldM (flatten_pair node_compose allclose surj) ds c = Ok e /\ cn_from e = from /\ single_group g src tg e /\
      forall f x z, on_discr from x -> carries (Chain f cs) x z -> transports e x z).
    { induction H as [d cs tg H IH|c cs m tg Hfrom Hc H].
      - destruct IH as (c & ds & e & E & He & Hf & Hs & Hsem). exists c, ds, e. split; [exact E|]. split; [exact He|]. split; [exact Hf|]. split; [exact Hs|].
        intros f' x z Hx Hz. apply carries_cons in Hz. destruct Hz as (b & Hb & Hz). inversion Hb; subst. eauto.
      - destruct (links_fold surj g src m cs tg H c Hc) as (e & He & Hf & Hs & Hsem). exists c, (directs cs), e. split; [reflexivity|]. split; [exact He|]. split; [congruence|]. split; [exact Hs|].
        intros f' x z Hx Hz. apply carries_cons in Hz. destruct Hz as (b & Hb & Hz). inversion Hb; subst. eapply Hsem; eauto. }
    destruct Hind as (c & ds & e & E & He & Hf & Hs & Hsem). rewrite E, He. cbn [bind]. exists e. split; [reflexivity|]. split; [exact Hf|]. split; [exact Hs|]. apply Hsem.
  Qed.

  Lemma single_conn_ok g src tg (e : conn) : single_group g src tg e -> Forall (few_lists rpick (cn_from e)) (cn_groups e) -> conn_ok rmat rpick e.
  Proof.
    rewrite single_groupE. intros (Hsrc & Hto & Hks & Hkt & bs & Hg & Hss & Hb) Hfew. unfold conn_ok. rewrite Hto, Hg in *. apply Forall_cons_iff in Hfew. destruct Hfew as (Hfew & _).
    constructor; [|constructor]. split; [|exact Hfew]. eapply Forall_impl; [|exact Hb]. intros b H. eapply sbatch_ok; eauto.
  Qed.

  (** A chain of identities *)
  Lemma flatten_identities f (ds : list (list dgroup)) : ds <> [] -> flatten (Chain f (map Identity ds)) = Err IndexError.
  Proof.
    intros Hne. rewrite flatten_chain by (destruct ds; [congruence|discriminate]).
    assert (E : mapM flatten (map Identity ds) = Ok (map Identity ds)) by (clear; induction ds as [|d ds IH]; [reflexivity|]; cbn [map mapM ConnModel.flatten bind]; rewrite IH; reflexivity).
    rewrite E. cbn [bind]. assert (E' : directs (map Identity ds) = []) by (clear; induction ds as [|d ds IH]; [reflexivity|exact IH]). now rewrite E'.
  Qed.

  (** Chains within chains *)
  Lemma cnx_ind' (P : cnx -> Prop) : (forall c, P (Direct c)) -> (forall d, P (Identity d)) -> (forall f cs, Forall P cs -> P (Chain f cs)) -> forall x, P x.
  Proof.
    intros Hd Hi Hc. fix IH 1. intros [c|d|f cs]; [apply Hd|apply Hi|]. apply Hc. induction cs as [|c cs IHcs]; constructor; [apply IH|exact IHcs].
  Qed.

  Lemma fold_surj surj ds c e : foldM (flatten_pair node_compose allclose surj) ds c = Ok e -> ds <> [] -> cn_surj e = surj.
  Proof.
    revert c. induction ds as [|d ds IH]; intros c H Hne; [congruence|]. cbn [foldM] in H. destruct (flatten_pair node_compose allclose surj c d) as [r|] eqn:E; cbn [bind] in H; [|discriminate].
    destruct ds as [|d' ds]; [|apply (IH r); [exact H|discriminate]]. cbn [foldM] in H. injection H as <-. unfold flatten_pair in E.
    destruct (lookup_table c) as [tbl|]; cbn [bind] in E; [|discriminate]. destruct (group_table node_compose allclose c d) as [ia|]; cbn [bind] in E; [|discriminate].
    match type of E with bind ?t _ = _ => destruct t; cbn [bind] in E; [|discriminate] end. injection E as <-. reflexivity.
  Qed.

  Lemma directs_surj (fs : list cnx) c : Forall (fun f => match f with Chain _ _ => False | _ => True end) fs -> directs fs = [c] -> forallb surjective fs = cn_surj c.
  Proof.
    assert (Hnone : forall fs : list cnx, Forall (fun f => match f with Chain _ _ => False | _ => True end) fs -> directs fs = [] -> forallb surjective fs = true).
    { clear. induction fs as [|[c|d|f cs] fs IH]; intros Hf H; [reflexivity|discriminate| |]; apply Forall_cons_iff in Hf; destruct Hf as (Hf & Hfs); [|destruct Hf]. cbn [forallb surjective]. now rewrite IH. }
    induction fs as [|[c'|d|f cs] fs IH]; intros Hf H; [discriminate| | |]; apply Forall_cons_iff in Hf; destruct Hf as (Hf & Hfs); [| |destruct Hf].
    - unfold directs in H. cbn [flat_map app] in H. injection H as -> H. cbn [forallb surjective]. rewrite Hnone by assumption. apply andb_true_r.
    - cbn [forallb surjective]. now rewrite IH.
  Qed.

  Lemma flatten_flat x y : flatten x = Ok y -> match y with Chain _ _ => False | _ => True end /\ surjective y = surjective x.
  Proof.
    revert y. induction x as [c|d|f cs IH] using cnx_ind'; intros y H; [injection H as <-; auto|injection H as <-; auto|].
    destruct cs as [|c0 cs0]; [cbn [ConnModel.flatten] in H; destruct f; [injection H as <-; auto|discriminate]|].
    rewrite flatten_chain in H by discriminate. set (cs := c0 :: cs0) in *. destruct (mapM flatten cs) as [fs|] eqn:E; cbn [bind] in H; [|discriminate].
    apply mapM_ok in E. assert (Hfs : Forall (fun f => match f with Chain _ _ => False | _ => True end) fs /\ forallb surjective fs = forallb surjective cs).
    { clear H. revert fs E. clearbody cs. induction IH as [|c cs Hc _ IHcs]; intros fs E; inversion E as [|? f' ? fs' Hf Hfs]; subst; [split; [constructor|reflexivity]|].
      destruct (Hc _ Hf) as (H1 & H2). destruct (IHcs _ Hfs) as (H3 & H4). split; [now constructor|]. cbn [forallb]. congruence. }
    destruct Hfs as (Hflat & Hsurj). destruct (directs fs) as [|c ds] eqn:Ed; [discriminate|].
    destruct (foldM (flatten_pair node_compose allclose (forallb surjective cs)) ds c) as [r|] eqn:Er; cbn [bind] in H; [|discriminate]. injection H as <-. split; [exact I|].
    cbn [surjective]. destruct ds as [|d ds].
    - cbn [foldM] in Er. injection Er as <-. rewrite <- (directs_surj fs c Hflat Ed), Hsurj. reflexivity.
    - rewrite (fold_surj _ _ _ _ Er) by discriminate. reflexivity.
  Qed.

  Theorem flatten_nested f cs fs : cs <> [] -> mapM flatten cs = Ok fs -> flatten (Chain f cs) = flatten (Chain f fs).
  Proof.
    intros Hne E. assert (Hne' : fs <> []) by (intros ->; apply mapM_ok in E; inversion E; subst; congruence). rewrite !flatten_chain by assumption. rewrite E. cbn [bind].
    apply mapM_ok in E. assert (Hfs : mapM flatten fs = Ok fs /\ forallb surjective fs = forallb surjective cs).
    { clear Hne Hne'. induction E as [|c f' cs fs Hc E IH]; [auto|]. destruct IH as (IH1 & IH2). destruct (flatten_flat _ _ Hc) as (H1 & H2). split; [|cbn [forallb]; congruence].
      cbn [mapM]. rewrite IH1. destruct f'; [reflexivity|reflexivity|destruct H1]. }
    destruct Hfs as (-> & ->). cbn [bind]. reflexivity.
  Qed.
End Flat.
