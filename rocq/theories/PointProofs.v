(** * PointProofs: correctness of point matching. *)
From Coq Require Import List Arith Bool ZArith Lia Ring.
From Verif Require Import Np NpFacts MeshModel MeshStateModel Lin Ord ProcModel PointModel PointSpec.
Import ListNotations.

Lemma scatter_cases {A} (ivs : list (nat * A)) l l' j : scatter l ivs = Ok l' ->
  (~ In j (map fst ivs) /\ nth_error l' j = nth_error l j) \/ (exists v, In (j, v) ivs /\ nth_error l' j = Some v).
Proof.
  intros H. destruct (in_dec Nat.eq_dec j (map fst ivs)) as [Hin|Hn]; [|left; split; auto; eapply scatter_notin; eauto].
  right. unfold scatter in H. revert l H Hin; induction ivs as [|(i, w) ivs IH]; intros l H Hin; [destruct Hin|].
  cbn [foldM fst snd] in H. destruct (put l i w) as [l1|] eqn:E; cbn [bind] in H; [|discriminate].
  destruct (in_dec Nat.eq_dec j (map fst ivs)) as [Hin'|Hn'].
  - destruct (IH _ H Hin') as (v & Hv & Hv'). exists v. split; auto. now right.
  - destruct Hin as [Hij|Hin]; [|contradiction]. cbn in Hij. subst i. exists w. split; [now left|].
    assert (Es : scatter l [(j, w)] = Ok l1) by (cbn; rewrite E; reflexivity).
    rewrite (scatter_notin ivs l1 l' j H Hn').
    apply (scatter_in _ _ _ j w Es); [constructor; [intros []|constructor]|now left].
Qed.

Section PointProofs.
  Variable R : ocring.
  Variable median : list R -> R.
  Add Ring Rp : (rth R).
  Local Open Scope cring_scope.

  Lemma dist2_sqdist (x y : list R) : dist2 R x y = sqdist x y.
  Proof. unfold dist2. revert y; induction x as [|a x IH]; intros [|b y]; cbn [map2 rsum sqdist]; auto. now rewrite IH. Qed.

  Lemma argmin_from_spec l best ibest i : exists m,
    (argmin_from R best ibest i l = ibest /\ m = best \/
     exists k, argmin_from R best ibest i l = (i + k)%nat /\ nth_error l k = Some m) /\
    (m <=? best) = true /\ forall x, In x l -> (m <=? x) = true.
  Proof.
    revert best ibest i; induction l as [|x l IH]; intros best ibest i; cbn [argmin_from].
    - exists best. split; [now left|]. split; [apply ole_refl|intros ? []].
    - destruct (best <=? x) eqn:E.
      + destruct (IH best ibest (S i)) as (m & H1 & H2 & H3). exists m. split; [|split; auto].
        * destruct H1 as [(H1 & ->)|(k & H1 & Hk)]; [left; auto|right; exists (S k)]. split; [|exact Hk]. rewrite H1. lia.
        * intros y [<-|Hy]; auto. eapply ole_trans; eauto.
      + destruct (IH x i (S i)) as (m & H1 & H2 & H3). exists m.
        assert (Hxb : (x <=? best) = true) by (destruct (ole_total R best x); congruence).
        split; [|split].
        * right. destruct H1 as [(H1 & ->)|(k & H1 & Hk)].
          -- exists 0%nat. split; [rewrite H1; lia|reflexivity].
          -- exists (S k). split; [rewrite H1; lia|exact Hk].
        * eapply ole_trans; eauto.
        * intros y [<-|Hy]; auto.
  Qed.

  Lemma argmin_spec l k : argmin R l = Ok k -> exists m, nth_error l k = Some m /\ forall x, In x l -> (m <=? x) = true.
  Proof.
    destruct l as [|x l]; [discriminate|]. cbn [argmin]. intros [= <-].
    destruct (argmin_from_spec l x 0 1) as (m & H1 & H2 & H3). exists m. split.
    - destruct H1 as [(-> & ->)|(k & -> & Hk)]; [reflexivity|exact Hk].
    - intros y [<-|Hy]; auto.
  Qed.

  Lemma within_iff tol s t : within (R := R) tol s t <-> olt (dist2 R s t) (tol * tol) = true.
  Proof. unfold within. now rewrite dist2_sqdist. Qed.

  Lemma leaf_spec tol src tgt r : match_leaf R tol src tgt = Ok r -> matching tol src tgt r.
  Proof.
    unfold match_leaf. destruct (length tgt =? 0)%nat eqn:E; cbn [negb guard bind]; [discriminate|].
    intros H. apply mapM_ok in H. eapply Forall2_impl; [|exact H]. intros s z Hz. cbv beta zeta in Hz.
    destruct (argmin R (map (dist2 R s) tgt)) as [k|] eqn:Ek; cbn [bind] in Hz; [|discriminate].
    destruct (argmin_spec _ _ Ek) as (m & Hm & Hmin).
    rewrite (proj2 (get_ok _ _ _) Hm) in Hz. cbn [bind] in Hz. injection Hz as <-.
    rewrite nth_error_map in Hm. destruct (nth_error tgt k) as [t|] eqn:Et; [|discriminate]. injection Hm as <-.
    destruct (olt (dist2 R s t) (tol * tol)) eqn:Ed.
    - right. exists k, t. repeat split; auto. now apply within_iff.
    - left. split; [reflexivity|]. intros u Hu Hw. apply within_iff in Hw.
      assert (Hle : (dist2 R s t <=? dist2 R s u) = true) by (apply Hmin, in_map; auto).
      rewrite (ole_lt_trans R _ _ _ Hle Hw) in Ed. discriminate.
  Qed.

  Lemma sqdist_axis (s t : list R) axis a b : nth_error s axis = Some a -> nth_error t axis = Some b ->
    ((a - b) * (a - b) <=? sqdist s t) = true.
  Proof.
    intros Ha Hb. rewrite <- dist2_sqdist. unfold dist2. apply rsum_ge_entry.
    - clear. revert t; induction s as [|x s IH]; intros [|y t]; cbn [map2]; constructor; auto. apply square_nonneg.
    - apply (nth_error_In _ axis). now apply (map2_nth (fun a b => (a - b) * (a - b)) s t).
  Qed.

  Lemma axis_close tol (s t : list R) axis a b : (0 <=? tol) = true -> within tol s t ->
    nth_error s axis = Some a -> nth_error t axis = Some b -> (b <=? a + tol) = true /\ (a - tol <=? b) = true.
  Proof.
    intros Ht Hw Ha Hb.
    assert (Hl : (a - b) * (a - b) <? tol * tol = true) by (eapply ole_lt_trans; [eapply sqdist_axis; eauto|exact Hw]).
    apply square_lt_abs in Hl as (H1 & H2); auto. split; apply diff_le.
    - apply olt_nle, le_diff in H2. now replace (a + tol - b) with (a - b - - tol) by ring.
    - apply olt_nle, le_diff in H1. now replace (b - (a - tol)) with (tol - (a - b)) by ring.
  Qed.

  (** Selection of points by a bound on one coordinate *)
  Lemma select_spec (sel : R -> bool) axis (pts : list (list R)) xs idx : axis_values pts axis = Ok xs ->
    idx = where_ (map sel xs) ->
    forall i, In i idx <-> exists p a, nth_error pts i = Some p /\ nth_error p axis = Some a /\ sel a = true.
  Proof.
    intros Hx -> i. rewrite In_where_, nth_error_map. split.
    - destruct (nth_error xs i) as [a|] eqn:Ea; cbn [option_map]; [|discriminate]. intros [= Hs].
      destruct (mapM_nth_r _ _ _ _ _ Hx Ea) as (p & Hp & Hg). apply get_ok in Hg. eauto.
    - intros (p & a & Hp & Ha & Hs). destruct (mapM_nth _ _ _ _ _ Hx Hp) as (b & Hb & Hg). apply get_ok in Hg.
      rewrite Hb. cbn [option_map]. congruence.
  Qed.

  Definition entry_ok tol (src tgt : list (list R)) (i : nat) (z : Z) : Prop :=
    z = (-1)%Z \/ exists k s t, z = Z.of_nat k /\ nth_error src i = Some s /\ nth_error tgt k = Some t /\ within tol s t.

  Lemma store_spec tol src tgt sidx tidx sp tp r full full' :
    take src sidx = Ok sp -> take tgt tidx = Ok tp -> matching tol sp tp r ->
    store_matches sidx tidx r full = Ok full' ->
    length full' = length full /\
    ((forall i z, nth_error full i = Some z -> entry_ok tol src tgt i z) ->
     (forall i z, nth_error full' i = Some z -> entry_ok tol src tgt i z)) /\
    (forall i z, nth_error full i = Some z -> z <> (-1)%Z -> exists z', nth_error full' i = Some z' /\ z' <> (-1)%Z) /\
    (forall i s t k, In i sidx -> In k tidx -> nth_error src i = Some s -> nth_error tgt k = Some t -> within tol s t ->
       exists z', nth_error full' i = Some z' /\ z' <> (-1)%Z).
  Proof.
    intros Hsp Htp HM H. unfold store_matches in H.
    destruct (mapM _ _) as [ivs|] eqn:Eiv in H; cbn [bind] in H; [|discriminate].
    assert (Hivs : forall i v, In (i, v) ivs -> exists j z k, nth_error r j = Some z /\ (0 <= z)%Z /\
              nth_error sidx j = Some i /\ nth_error tidx (Z.to_nat z) = Some k /\ v = Z.of_nat k).
    { intros i v Hin. apply mapM_ok in Eiv. destruct (Forall2_In_r _ _ _ _ Eiv Hin) as ((j & z) & Hj & E).
      apply filter_In in Hj as (Hj & Hz). apply In_enumerate in Hj. cbn [fst snd] in *.
      destruct (get sidx j) as [i'|] eqn:Ei; cbn [bind] in E; [|discriminate].
      destruct (get tidx (Z.to_nat z)) as [k|] eqn:Ek; cbn [bind] in E; [|discriminate].
      injection E as -> <-. apply get_ok in Ei, Ek. apply Z.leb_le in Hz. exists j, z, k. auto. }
    split; [eapply scatter_length; eauto|]. split; [|split].
    - intros Hf i z Hz. destruct (scatter_cases _ _ _ i H) as [(_ & E)|(v & Hv & E)].
      + apply Hf. congruence.
      + assert (v = z) by congruence. subst v. right.
        destruct (Hivs _ _ Hv) as (j & z0 & k & Hj & Hz0 & Hsj & Htk & ->).
        destruct (Forall2_nth_error_r _ _ _ _ _ HM Hj) as (s & Hs & [(-> & _)|(k0 & t & -> & Ht & Hw)]); [lia|].
        rewrite Nat2Z.id in Htk. rewrite (take_nth _ _ _ _ Hsp), Hsj in Hs. rewrite (take_nth _ _ _ _ Htp), Htk in Ht.
        exists k, s, t. auto.
    - intros i z Hz Hne. destruct (scatter_cases _ _ _ i H) as [(_ & E)|(v & Hv & E)].
      + exists z. split; congruence.
      + exists v. split; auto. destruct (Hivs _ _ Hv) as (j & z0 & k & _ & _ & _ & _ & ->). lia.
    - intros i s t k Hi Hk Hs Ht Hw.
      apply In_nth_error in Hi as (j & Hj). apply In_nth_error in Hk as (l & Hl).
      assert (Hsj : nth_error sp j = Some s) by (rewrite (take_nth _ _ _ _ Hsp), Hj; exact Hs).
      assert (Htl : nth_error tp l = Some t) by (rewrite (take_nth _ _ _ _ Htp), Hl; exact Ht).
      destruct (Forall2_nth_error _ _ _ _ _ HM Hsj) as (z & Hz & [(-> & Hno)|(k0 & t0 & -> & Ht0 & Hw0)]).
      + exfalso. eapply Hno; [eapply nth_error_In; exact Htl|exact Hw].
      + assert (Hin : exists v, In (i, v) ivs).
        { apply mapM_ok in Eiv. destruct (Forall2_In_l _ _ _ (j, Z.of_nat k0) Eiv) as ((i' & v) & Hin & E).
          - apply filter_In. split; [now apply In_enumerate|]. apply Z.leb_le. cbn. lia.
          - cbn [fst snd] in E. rewrite (proj2 (get_ok _ _ _) Hj) in E. cbn [bind] in E.
            destruct (get tidx _) as [kk|]; cbn [bind] in E; [|discriminate]. injection E as -> <-. eauto. }
        destruct Hin as (v & Hin). destruct (scatter_cases _ _ _ i H) as [(Hn & _)|(v' & Hv' & E)].
        * exfalso. apply Hn. apply in_map_iff. exists (i, v). auto.
        * exists v'. split; auto. destruct (Hivs _ _ Hv') as (? & ? & ? & _ & _ & _ & _ & ->). lia.
  Qed.

  Lemma find_mapping_spec fuel tol max_leaf dim src tgt r : (0 <=? tol) = true -> (0 < dim)%nat ->
    find_mapping R median fuel tol max_leaf dim src tgt = Ok r -> matching tol src tgt r.
  Proof.
    intros Ht Hd. revert src tgt r; induction fuel as [|fuel IH]; intros src tgt r H; [discriminate|].
    cbn [find_mapping] in H. destruct (Nat.eqb_spec dim 0) as [|_]; [lia|].
    destruct (length src + length tgt <=? max_leaf)%nat; [now apply leaf_spec|].
    cbv zeta in H.
    destruct (largest_axis R dim (tgt ++ src)) as [axis|]; cbn [bind] in H; [|discriminate].
    destruct (axis_values (tgt ++ src) axis) as [coords|]; cbn [bind] in H; [|discriminate].
    set (med := median coords) in H. clearbody med.
    unfold where_le, where_ge in H.
    destruct (axis_values src axis) as [sx|] eqn:Esx; cbn [bind] in H; [|discriminate].
    destruct (axis_values tgt axis) as [tx|] eqn:Etx; cbn [bind] in H; [|discriminate].
    set (lsrc := where_ (map (fun x => x <=? med + tol) sx)) in H.
    set (ltgt := where_ (map (fun x => x <=? med + tol) tx)) in H.
    set (usrc := where_ (map (fun x => med - tol <=? x) sx)) in H.
    set (utgt := where_ (map (fun x => med - tol <=? x) tx)) in H.
    destruct (take src lsrc) as [lsp|] eqn:E1; cbn [bind] in H; [|discriminate].
    destruct (take tgt ltgt) as [ltp|] eqn:E2; cbn [bind] in H; [|discriminate].
    destruct (find_mapping R median fuel tol max_leaf dim lsp ltp) as [lower|] eqn:E3; cbn [bind] in H; [|discriminate].
    destruct (take src usrc) as [usp|] eqn:E4; cbn [bind] in H; [|discriminate].
    destruct (take tgt utgt) as [utp|] eqn:E5; cbn [bind] in H; [|discriminate].
    destruct (find_mapping R median fuel tol max_leaf dim usp utp) as [upper|] eqn:E6; cbn [bind] in H; [|discriminate].
    destruct (store_matches lsrc ltgt lower _) as [r1|] eqn:E7; cbn [bind] in H; [|discriminate].
    apply IH in E3. apply IH in E6.
    destruct (store_spec tol src tgt lsrc ltgt lsp ltp lower _ r1 E1 E2 E3 E7) as (L1 & S1 & K1 & C1).
    destruct (store_spec tol src tgt usrc utgt usp utp upper _ r E4 E5 E6 H) as (L2 & S2 & K2 & C2).
    rewrite repeat_length in L1.
    assert (Hsound : forall i z, nth_error r i = Some z -> entry_ok tol src tgt i z).
    { apply S2, S1. intros i z Hz. left. apply nth_error_In, repeat_spec in Hz. exact Hz. }
    assert (Hcompl : forall i s t k, nth_error src i = Some s -> nth_error tgt k = Some t -> within tol s t ->
       exists z, nth_error r i = Some z /\ z <> (-1)%Z).
    { intros i s t k Hs Htt Hw.
      destruct (mapM_nth _ _ _ _ _ Esx Hs) as (a & Ha & Hga). destruct (mapM_nth _ _ _ _ _ Etx Htt) as (b & Hb & Hgb).
      apply get_ok in Hga, Hgb.
      destruct (axis_close tol s t axis a b Ht Hw Hga Hgb) as (B1 & B2).
      destruct (ole_total R a med) as [Hm|Hm].
      - destruct (C1 i s t k) as (z & Hz & Hne); auto.
        + apply (select_spec _ axis src sx lsrc Esx eq_refl). exists s, a. repeat split; auto.
          eapply ole_trans; [exact Hm|]. apply diff_le. now replace (med + tol - med) with tol by ring.
        + apply (select_spec _ axis tgt tx ltgt Etx eq_refl). exists t, b. repeat split; auto.
          eapply ole_trans; [exact B1|]. now apply ole_add.
        + now apply (K2 i z).
      - apply (C2 i s t k); auto.
        + apply (select_spec _ axis src sx usrc Esx eq_refl). exists s, a. repeat split; auto.
          eapply ole_trans; [|exact Hm]. apply diff_le. now replace (med - (med - tol)) with tol by ring.
        + apply (select_spec _ axis tgt tx utgt Etx eq_refl). exists t, b. repeat split; auto.
          eapply ole_trans; [|exact B2]. apply (ole_add R _ _ (- tol)) in Hm.
          replace (med + - tol) with (med - tol) in Hm by ring. now replace (a + - tol) with (a - tol) in Hm by ring. }
    apply Forall2_intro_nth; [congruence|].
    intros i s z Hs Hz. destruct (Hsound i z Hz) as [->|(k & s' & t & -> & Hs' & Htk & Hw)].
    - left. split; auto. intros t Hin Hw. apply In_nth_error in Hin as (k & Hk).
      destruct (Hcompl i s t k Hs Hk Hw) as (z & Hz' & Hne). congruence.
    - right. exists k, t. assert (s' = s) by congruence. subst. auto.
  Qed.

  (** few points: always a result *)
  Lemma find_mapping_small fuel tol max_leaf dim src tgt : (0 < dim)%nat -> tgt <> [] ->
    (length src + length tgt <= max_leaf)%nat -> exists r, find_mapping R median (S fuel) tol max_leaf dim src tgt = Ok r.
  Proof.
    intros Hd Hne Hl. cbn [find_mapping]. destruct (Nat.eqb_spec dim 0) as [|_]; [lia|].
    apply Nat.leb_le in Hl. rewrite Hl. unfold match_leaf.
    destruct tgt as [|t tgt]; [congruence|]. cbn [length Nat.eqb negb guard bind].
    apply mapM_total. intros s _. cbv zeta.
    destruct (argmin R (map (dist2 R s) (t :: tgt))) as [k|e] eqn:Ek; [|discriminate].
    destruct (argmin_spec _ _ Ek) as (m & Hm & _). cbn [bind]. rewrite (proj2 (get_ok _ _ _) Hm). cbn [bind]. eauto.
  Qed.

  (** Points at least two tolerances apart are matched to different targets *)
  Lemma sqdist_triangle (x y z : list R) : length x = length y -> length z = length y ->
    (sqdist x z <=? (1 + 1) * sqdist x y + (1 + 1) * sqdist z y) = true.
  Proof.
    revert y z; induction x as [|a x IH]; intros [|b y] [|c z] H1 H2; cbn in H1, H2; try lia; cbn [sqdist].
    - apply diff_le. replace ((1 + 1) * 0 + (1 + 1) * 0 - 0) with (@r0 R) by ring. apply ole_refl.
    - assert (Hh : ((a - c) * (a - c) <=? (1 + 1) * ((a - b) * (a - b)) + (1 + 1) * ((c - b) * (c - b))) = true).
      { apply diff_le. replace ((1 + 1) * ((a - b) * (a - b)) + (1 + 1) * ((c - b) * (c - b)) - (a - c) * (a - c))
          with ((a - b + (c - b)) * (a - b + (c - b))) by ring. apply square_nonneg. }
      pose proof (ole_add2 R _ _ _ _ Hh (IH y z ltac:(lia) ltac:(lia))) as Hs.
      match goal with |- (_ <=? ?u) = true => match type of Hs with (_ <=? ?v) = true => replace u with v by ring end end.
      exact Hs.
  Qed.

  Lemma within_both tol (x y z : list R) : length x = length y -> length z = length y ->
    within tol x y -> within tol z y -> within ((1 + 1) * tol) x z.
  Proof.
    intros H1 H2 Hx Hz. unfold within in *.
    eapply ole_lt_trans; [apply (sqdist_triangle x y z); auto|].
    pose proof (olt_add R _ _ _ _ Hx Hz) as H. pose proof (olt_add R _ _ _ _ H H) as H'.
    match goal with |- (?u <? ?v) = true => match type of H' with (?a <? ?b) = true =>
      replace u with a by ring; replace v with b by ring end end. exact H'.
  Qed.

  Lemma matching_injective tol dim (src tgt : list (list R)) r : Forall (fun p => length p = dim) src -> Forall (fun p => length p = dim) tgt ->
    matching tol src tgt r ->
    forall i j s s' z, nth_error src i = Some s -> nth_error src j = Some s' -> z <> (-1)%Z ->
      nth_error r i = Some z -> nth_error r j = Some z -> within (R := R) ((1 + 1) * tol) s s'.
  Proof.
    intros Hs Ht HM i j s s' z Hi Hj Hz Ri Rj.
    destruct (Forall2_nth_error _ _ _ _ _ HM Hi) as (z1 & E1 & H1). destruct (Forall2_nth_error _ _ _ _ _ HM Hj) as (z2 & E2 & H2).
    assert (z1 = z) by congruence. assert (z2 = z) by congruence. subst z1 z2.
    destruct H1 as [(? & _)|(k & t & -> & Hk & Hw)]; [contradiction|].
    destruct H2 as [(? & _)|(k' & t' & E & Hk' & Hw')]; [contradiction|].
    apply Nat2Z.inj in E. subst k'. assert (t' = t) by congruence. subst t'.
    rewrite Forall_forall in Hs, Ht.
    pose proof (Hs _ (nth_error_In _ _ Hi)). pose proof (Hs _ (nth_error_In _ _ Hj)). pose proof (Ht _ (nth_error_In _ _ Hk)).
    apply (within_both tol s t s'); congruence.
  Qed.

  (** few points: the nearest target *)
  Lemma argmin_from_first l best ibest i : (ibest < i)%nat -> exists m,
    (argmin_from R best ibest i l = ibest /\ m = best \/
     exists k, argmin_from R best ibest i l = (i + k)%nat /\ nth_error l k = Some m /\ (m <? best) = true) /\
    (m <=? best) = true /\
    (forall j x, nth_error l j = Some x -> (m <=? x) = true /\ ((i + j < argmin_from R best ibest i l)%nat -> (m <? x) = true)).
  Proof.
    revert best ibest i; induction l as [|x l IH]; intros best ibest i Hi; cbn [argmin_from].
    - exists best. split; [now left|]. split; [apply ole_refl|intros [|]; discriminate].
    - destruct (best <=? x) eqn:E.
      + destruct (IH best ibest (S i) ltac:(lia)) as (m & H1 & H2 & H3). exists m. split; [|split; auto].
        * destruct H1 as [(H1 & ->)|(k & H1 & Hk & Hlt)]; [left; auto|right; exists (S k)]. repeat split; auto. rewrite H1. lia.
        * intros [|j] y Hy; cbn in Hy.
          -- injection Hy as ->. split; [eapply ole_trans; eauto|]. intros Hlt0.
             destruct H1 as [(H1 & ->)|(k & H1 & Hk & Hlt)]; [lia|]. eapply olt_le_trans; eauto.
          -- destruct (H3 _ _ Hy) as (A & B). split; auto. intros; apply B; lia.
      + destruct (IH x i (S i) ltac:(lia)) as (m & H1 & H2 & H3). exists m.
        assert (Hxb : (x <=? best) = true) by (destruct (ole_total R best x); congruence).
        assert (Hlt : (x <? best) = true) by (unfold olt; now rewrite E).
        split; [|split].
        * right. destruct H1 as [(H1 & ->)|(k & H1 & Hk & Hl)].
          -- exists 0%nat. repeat split; auto; try (rewrite H1; lia).
          -- exists (S k). repeat split; auto; try (rewrite H1; lia). eapply olt_le_trans; eauto.
        * eapply ole_trans; eauto.
        * intros [|j] y Hy; cbn in Hy.
          -- injection Hy as ->. split; auto. intros Hlt0.
             destruct H1 as [(H1 & ->)|(k & H1 & Hk & Hl)]; [lia|auto].
          -- destruct (H3 _ _ Hy) as (A & B). split; auto. intros; apply B; lia.
  Qed.

  Lemma argmin_first l k : argmin R l = Ok k -> exists m, nth_error l k = Some m /\
    forall j x, nth_error l j = Some x -> (m <=? x) = true /\ (j < k -> (m <? x) = true).
  Proof.
    destruct l as [|x l]; [discriminate|]. cbn [argmin]. intros [= <-].
    destruct (argmin_from_first l x 0 1 ltac:(lia)) as (m & H1 & H2 & H3). exists m. split.
    - destruct H1 as [(-> & ->)|(k & -> & Hk & _)]; [reflexivity|exact Hk].
    - intros [|j] y Hy; cbn in Hy.
      + injection Hy as ->. split; auto. intros Hlt0.
        destruct H1 as [(H1 & ->)|(k & H1 & Hk & Hl)]; [lia|auto].
      + destruct (H3 _ _ Hy) as (A & B). split; auto.
  Qed.

  Lemma small_nearest fuel tol max_leaf dim src tgt r : (0 < dim)%nat -> (length src + length tgt <= max_leaf)%nat ->
    find_mapping R median fuel tol max_leaf dim src tgt = Ok r ->
    forall i s k, nth_error src i = Some s -> nth_error r i = Some (Z.of_nat k) -> nearest tgt s k.
  Proof.
    intros Hd Hl H i s k Hs Hk. destruct fuel; [discriminate|]. cbn [find_mapping] in H.
    destruct (Nat.eqb_spec dim 0) as [|_]; [lia|]. apply Nat.leb_le in Hl. rewrite Hl in H.
    unfold match_leaf in H. destruct (guard _ _); cbn [bind] in H; [|discriminate].
    destruct (mapM_nth _ _ _ _ _ H Hs) as (z & Hz & E). cbv beta zeta in E. assert (z = Z.of_nat k) by congruence. subst z.
    destruct (argmin R (map (dist2 R s) tgt)) as [k0|] eqn:Ek; cbn [bind] in E; [|discriminate].
    destruct (argmin_first _ _ Ek) as (m & Hm & Hmin).
    rewrite (proj2 (get_ok _ _ _) Hm) in E. cbn [bind] in E. injection E as E.
    destruct (olt m (tol * tol)); [|lia]. apply Nat2Z.inj in E. subst k0.
    rewrite nth_error_map in Hm. destruct (nth_error tgt k) as [t|] eqn:Et; [|discriminate]. injection Hm as <-.
    exists t. split; auto. intros j u Hu. rewrite <- !dist2_sqdist.
    apply (Hmin j). now rewrite nth_error_map, Hu.
  Qed.

  (** Many copies of one point: no result for any recursion depth *)
  Lemma axis_values_repeat (p : list R) a x n : nth_error p a = Some x -> axis_values (repeat p n) a = Ok (repeat x n).
  Proof.
    intros Ha. unfold axis_values. induction n as [|n IH]; [reflexivity|]. cbn [repeat mapM].
    rewrite (proj2 (get_ok _ _ _) Ha). cbn [bind]. rewrite IH. reflexivity.
  Qed.

  Lemma where_all {A} (f : A -> bool) x n : f x = true -> where_ (map f (repeat x n)) = seq 0 n.
  Proof.
    intros Hf. unfold where_.
    assert (H : forall k, map fst (filter snd (enumerate_from k (map f (repeat x n)))) = seq k n).
    { induction n as [|n IH]; intros k; [reflexivity|]. specialize (IH (S k)). unfold enumerate_from in *.
      cbn [repeat map length seq combine filter]. change (snd (k, f x)) with (f x). rewrite Hf. cbn [map]. f_equal. exact IH. }
    apply H.
  Qed.

  Lemma take_seq {A} (l : list A) : take l (seq 0 (length l)) = Ok l.
  Proof.
    apply take_ok. apply Forall2_intro_nth; [apply seq_length|].
    intros i k x Hk Hx. apply nth_error_nth with (d := 0%nat) in Hk as E.
    assert (i < length l)%nat by (apply nth_error_Some; congruence).
    rewrite seq_nth in E by lia. cbn in E. now subst k.
  Qed.

  Lemma fold_same (f : R -> R -> R) x n : f x x = x -> fold_left f (repeat x n) x = x.
  Proof. intros Hf. induction n as [|n IH]; [reflexivity|]. cbn. now rewrite Hf. Qed.

  Lemma coincident_nonterminating fuel tol max_leaf (p : list R) n m :
    (forall x k, (0 < k)%nat -> median (repeat x k) = x) -> (0 <=? tol) = true -> (0 < length p)%nat -> (max_leaf < n + m)%nat ->
    find_mapping R median fuel tol max_leaf (length p) (repeat p n) (repeat p m) = Err NonTermination.
  Proof.
    intros Hmed Ht Hd Hl. induction fuel as [|fuel IH]; [reflexivity|]. cbn [find_mapping].
    destruct (Nat.eqb_spec (length p) 0) as [|_]; [lia|]. rewrite !repeat_length.
    destruct (Nat.leb_spec (n + m) max_leaf); [lia|]. cbv zeta. rewrite <- repeat_app.
    assert (Hax : exists a, largest_axis R (length p) (repeat p (m + n)) = Ok a /\ (a < length p)%nat).
    { unfold largest_axis.
      assert (Hm : exists ext, mapM (fun a => xs <- axis_values (repeat p (m + n)) a ;; hi <- amax ole xs ;; lo <- amin ole xs ;; Ok (rsub hi lo))
                    (seq 0 (length p)) = Ok ext).
      { apply mapM_total. intros a Ha. apply in_seq in Ha.
        destruct (nth_error p a) as [x|] eqn:Ex; [|apply nth_error_None in Ex; lia].
        rewrite (axis_values_repeat p a x _ Ex). cbn [bind].
        destruct (m + n)%nat as [|q] eqn:Eq; [lia|]. cbn [repeat amax amin bind]. eauto. }
      destruct Hm as (ext & Hext). rewrite Hext. cbn [bind].
      apply mapM_length in Hext. rewrite seq_length in Hext.
      destruct ext as [|x ext]; [cbn in Hext; lia|]. cbn [argmax]. eexists. split; [reflexivity|].
      rewrite <- Hext. cbn [length]. clear.
      assert (G : forall l best ib i, (ib < i)%nat -> (argmax_from R best ib i l < i + length l)%nat).
      { induction l as [|y l IH]; intros best ib i Hi; cbn [argmax_from length]; [lia|].
        destruct (ole y best); eapply Nat.lt_le_trans; try (apply IH; lia); lia. }
      specialize (G ext x 0%nat 1%nat ltac:(lia)). lia. }
    destruct Hax as (a & -> & Ha). cbn [bind].
    destruct (nth_error p a) as [x|] eqn:Ex; [|apply nth_error_None in Ex; lia].
    rewrite (axis_values_repeat p a x _ Ex). cbn [bind]. rewrite Hmed by lia.
    unfold where_le, where_ge. rewrite !(axis_values_repeat p a x _ Ex). cbn [bind].
    assert (H1 : (x <=? x + tol) = true) by (apply diff_le; now replace (x + tol - x) with tol by ring).
    assert (H2 : (x - tol <=? x) = true) by (apply diff_le; now replace (x - (x - tol)) with tol by ring).
    rewrite !(where_all (fun y => y <=? x + tol)) by exact H1.
    assert (Tn : take (repeat p n) (seq 0 n) = Ok (repeat p n)) by (rewrite <- (repeat_length p n) at 2; apply take_seq).
    assert (Tm : take (repeat p m) (seq 0 m) = Ok (repeat p m)) by (rewrite <- (repeat_length p m) at 2; apply take_seq).
    rewrite Tn, Tm. cbn [bind]. now rewrite IH.
  Qed.

  Lemma permutation_spec fuel tol d d' targets perms o : (0 <=? tol) = true -> (0 < d)%nat ->
    find_point_permutation R median fuel tol d d' targets perms = Ok o ->
    (o = None <-> exists s, In s targets /\ forall t, In t perms -> ~ within tol s t) /\
    (forall p, o = Some p -> Forall2 (fun s z => exists k t, z = Z.of_nat k /\ nth_error perms k = Some t /\ within tol s t) targets p).
  Proof.
    intros Ht Hd H. unfold find_point_permutation, find_point_to_point_mapping in H.
    destruct (guard _ _); cbn [bind] in H; [|discriminate].
    destruct (find_mapping _ _ _ _ _ _ _ _) as [r|] eqn:E; cbn [bind] in H; [|discriminate].
    apply find_mapping_spec in E; auto. injection H as H.
    destruct (forallb _ r) eqn:Ef.
    - subst o. assert (HF : Forall2 (fun s z => exists k t, z = Z.of_nat k /\ nth_error perms k = Some t /\ within tol s t) targets r).
      { apply Forall2_intro_nth; [now apply Forall2_length' in E|].
        intros i s z Hs Hz. destruct (Forall2_nth_error _ _ _ _ _ E Hs) as (z' & Hz' & [(-> & _)|H']).
        - assert (z = (-1)%Z) by congruence. subst z. rewrite forallb_forall in Ef. apply nth_error_In in Hz. apply Ef in Hz. discriminate.
        - assert (z' = z) by congruence. now subst z'. }
      split; [|now intros p [= <-]]. split; [discriminate|].
      intros (s & Hin & Hno). exfalso. destruct (Forall2_In_l _ _ _ _ HF Hin) as (z & _ & (k & t & _ & Hk & Hw)).
      apply (Hno t); auto. eapply nth_error_In; eauto.
    - subst o. split; [|discriminate]. split; [intros _|reflexivity].
      assert (Hex : exists z, In z r /\ ~ (0 <= z)%Z).
      { clear -Ef. induction r as [|z r IH]; [discriminate|]. cbn [forallb] in Ef. destruct (Z.leb_spec 0 z).
        - destruct (IH Ef) as (z' & ? & ?). exists z'. split; auto. now right.
        - exists z. split; [now left|lia]. }
      destruct Hex as (z & Hz & Hn). destruct (Forall2_In_r _ _ _ _ E Hz) as (s & Hs & [(_ & Hno)|(k & t & -> & _)]); [eauto|lia].
  Qed.
End PointProofs.
