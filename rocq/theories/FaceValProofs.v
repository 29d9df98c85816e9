(** * FaceValProofs: values transported by a connection in which every element has at most one source *)
From Coq Require Import List Arith Bool ZArith Lia.
From Verif Require Import Np NpFacts Lin SplitProofs MeshModel MeshSpec ConnModel ConnSpec ConnProofs ConnFlatProofs FaceConnModel FaceConnSpec.
Import ListNotations.

Section Values.
  Context {R : cring} {N K : Type}.
  Variable rmat : K -> N -> list (list R).
  Variable rpick : K -> N -> option (list nat).

  Lemma value_some {X} (ary : list (list X)) g e rows x : nth_error ary g = Some rows -> nth_error rows e = Some x -> value ary g e = Some x.
  Proof. intros Hg He. unfold value. now rewrite Hg. Qed.
  Lemma value_inv {X} (ary : list (list X)) g e x : value ary g e = Some x -> exists rows, nth_error ary g = Some rows /\ nth_error rows e = Some x.
  Proof. unfold value. destruct (nth_error ary g) as [rows|]; [|discriminate]. eauto. Qed.

  Lemma value_on_discr (gs : list (@dgroup K)) (ary : list (list (list R))) g gr e : on_discr gs ary -> nth_error gs g = Some gr -> e < dg_nel gr ->
    exists x, value ary g e = Some x /\ length x = dg_ndof gr.
  Proof.
    intros Ha Hg He. destruct (Forall2_nth_error _ _ _ _ _ Ha Hg) as (rows & Hr & Hl & Hn). destruct (nth_error rows e) as [x|] eqn:Ex.
    - exists x. split; [eapply value_some; eauto|]. rewrite Forall_forall in Hn. apply Hn. eapply nth_error_In; eauto.
    - apply nth_error_None in Ex. lia.
  Qed.
  Lemma value_length (gs : list (@dgroup K)) (ary : list (list (list R))) g gr e x : on_discr gs ary -> nth_error gs g = Some gr -> value ary g e = Some x -> length x = dg_ndof gr /\ e < dg_nel gr.
  Proof.
    intros Ha Hg Hv. apply value_inv in Hv. destruct Hv as (rows & Hr & Hx). destruct (Forall2_nth_error _ _ _ _ _ Ha Hg) as (rows' & Hr' & Hl & Hn). assert (rows' = rows) by congruence. subst.
    rewrite Forall_forall in Hn. split; [apply Hn; eapply nth_error_In; eauto|]. rewrite <- Hl. apply nth_error_Some. congruence.
  Qed.

  (** Two arrays on a discretization with the same values *)
  Lemma value_ext (gs : list (@dgroup K)) (a b : list (list (list R))) : on_discr gs a -> on_discr gs b ->
    (forall g gr e, nth_error gs g = Some gr -> e < dg_nel gr -> value a g e = value b g e) -> a = b.
  Proof.
    intros Ha Hb H. apply nth_error_ext'. intros g. destruct (nth_error gs g) as [gr|] eqn:Hg.
    - destruct (Forall2_nth_error _ _ _ _ _ Ha Hg) as (ra & Hra & Hla & _). destruct (Forall2_nth_error _ _ _ _ _ Hb Hg) as (rb & Hrb & Hlb & _). rewrite Hra, Hrb. f_equal.
      apply nth_error_ext'. intros e. destruct (Nat.lt_ge_cases e (dg_nel gr)) as [He|He].
      + specialize (H g gr e Hg He). unfold value in H. now rewrite Hra, Hrb in H.
      + rewrite !(proj2 (nth_error_None _ _)) by lia. reflexivity.
    - pose proof (Forall2_length' _ _ _ Ha). pose proof (Forall2_length' _ _ _ Hb). apply nth_error_None in Hg. rewrite !(proj2 (nth_error_None _ _)) by lia. reflexivity.
  Qed.

  Lemma resampled_fun k n (x y y' : list R) : resampled rmat rpick k n x y -> resampled rmat rpick k n x y' -> y = y'.
  Proof.
    unfold resampled. destruct (rpick k n) as [ix|]; [|congruence]. intros H. revert y'. induction H as [|i v ix y Hi H IH]; intros y' H'; inversion H'; subst; [reflexivity|]. f_equal; [congruence|auto].
  Qed.

  Lemma call_values (c : @conn N K) x : conn_ok rmat rpick c -> Forall single_source (cn_groups c) -> on_discr (cn_from c) x ->
    exists y, (forall eager nomerge, call R rmat rpick eager nomerge c x = Ok y) /\ on_discr (cn_to c) y /\
      (forall gb t g s n, feeds c gb t g s n -> exists gr v w, nth_error (cn_from c) g = Some gr /\ value x g s = Some v /\ value y gb t = Some w /\ resampled rmat rpick (dg_kind gr) n v w) /\
      (forall gb tg t, nth_error (cn_to c) gb = Some tg -> t < dg_nel tg -> (forall g s n, ~ feeds c gb t g s n) -> value y gb t = Some (zeros (dg_ndof tg))).
  Proof.
    intros Hc Hss Hx. destruct (call_ok rmat rpick true true c x Hc Hx) as (y & Hy & Ht). exists y. split.
    { intros eager nomerge. destruct (call_ok rmat rpick eager nomerge c x Hc Hx) as (y' & Hy' & Ht'). rewrite Hy'. f_equal. eapply transports_fun; eauto. }
    assert (Hon : on_discr (cn_to c) y) by (eapply transports_on_discr; eauto). split; [exact Hon|]. split.
    - intros gb t g s n (bs & b & Hbs & Hb & Hg & Hn & Hts). destruct (Forall2_nth_error_r _ _ _ _ _ Hc Hbs) as (tg & Htg & Hok & _).
      assert (Hbok : batch_ok rmat rpick (cn_from c) tg b) by (rewrite Forall_forall in Hok; auto).
      assert (Hlt : t < dg_nel tg) by (destruct Hbok as (_ & H & _); rewrite Forall_forall in H; apply H; now apply in_combine_l in Hts).
      destruct (Forall2_nth_error _ _ _ _ _ Ht (nth_error_combine' _ _ _ _ _ Htg Hbs)) as (rows & Hrows & Hl & Hs). cbn [fst snd] in *.
      destruct (nth_error rows t) as [row|] eqn:Erow; [|apply nth_error_None in Erow; lia]. destruct (Hs t row Erow) as (cs & Hcs & Hrow).
      assert (Hls : Forall (fun b => length (bt_from b) = length (bt_to b)) bs) by (eapply Forall_impl; [|exact Hok]; now intros b' (H & _)).
      assert (Hssb : single_source bs) by (rewrite Forall_forall in Hss; apply Hss; eapply nth_error_In; eauto).
      apply In_nth_error in Hb. destruct Hb as (k & Hk). destruct (Forall2_nth_error _ _ _ _ _ Hcs Hk) as (w & _ & Hw).
      assert (Hwl : length w = dg_ndof tg) by (eapply contributes_length; [exact Hbok|exact Hw]).
      assert (Hsum : row = w). { eapply sums_fun; [exact Hls|exists cs; split; [exact Hcs|exact Hrow]|]. eapply sums_only; eauto. }
      subst row. destruct Hw as [(gr & s' & src & v & Hgr & Has & Hsrc & Hv & Hop)|(Hn' & _)]; [|exfalso; apply Hn'; now apply in_combine_l in Hts].
      assert (s' = s).
      { pose proof (single_assigns bs k b t s Hssb Hk (proj1 Hbok) Hts) as Has'. apply (assigns_lsrc b t s (proj1 Hbok)) in Has'. apply (assigns_lsrc b t s' (proj1 Hbok)) in Has. congruence. }
      subst s'. rewrite Hg in *. rewrite Hn in *. exists gr, v, w. split; [exact Hgr|]. split; [eapply value_some; eauto|]. split; [eapply value_some; [exact Hrows|congruence]|]. exact Hop.
    - intros gb tg t Htg Hlt Hno. destruct (Forall2_nth_error _ _ _ _ _ Hc Htg) as (bs & Hbs & Hok & _).
      destruct (Forall2_nth_error _ _ _ _ _ Ht (nth_error_combine' _ _ _ _ _ Htg Hbs)) as (rows & Hrows & Hl & Hs). cbn [fst snd] in *.
      destruct (nth_error rows t) as [row|] eqn:Erow; [|apply nth_error_None in Erow; lia]. destruct (Hs t row Erow) as (cs & Hcs & Hrow).
      assert (Hls : Forall (fun b => length (bt_from b) = length (bt_to b)) bs) by (eapply Forall_impl; [|exact Hok]; now intros b' (H & _)).
      eapply value_some; [exact Hrows|]. rewrite Erow. f_equal. eapply sums_fun; [exact Hls|exists cs; split; [exact Hcs|exact Hrow]|].
      destruct (covered bs t) as [(k & b & s & Hk & Hts)|Hun]; [|now apply uncovered_sums]. exfalso. apply (Hno (bt_fgrp b) s (bt_nodes b)). exists bs, b. split; [exact Hbs|]. split; [eapply nth_error_In; eauto|]. auto.
  Qed.
End Values.

(** ** Values of a restriction *)
Section RestrValues.
  Context {R : cring} {E E' V A N K : Type}.
  Variable rmat : K -> N -> list (list R).
  Variable rpick : K -> N -> option (list nat).
  Variables (dim : K -> nat) (factory : K -> K) (fnodes : K -> nat -> K -> N) (face_coords : K -> nat -> E -> E').
  Variables (groups : list (egroup E)) (kinds : list K) (fags : list (list (fagrp A))) (vs : list V) (r : restr) (perface : bool).
  Variables (bvs : list V) (bgs : list (egroup E')) (c : @conn N K).
  Hypothesis Hr : restriction dim factory fnodes face_coords groups kinds fags vs r perface bvs bgs c.
  Hypothesis Hkl : length kinds = length groups.

  Lemma feeds_iff gb t g s n : feeds c gb t g s n <-> exists k f, nth_error kinds g = Some k /\ is_face c gb t (g, s, f) /\ n = fnodes k f (factory k).
  Proof.
    split.
    - intros (bs & b & Hbs & Hb & Hg & Hn & Hin). destruct (rt_nodes _ _ _ _ _ _ _ _ _ _ _ _ _ Hr gb bs b Hbs Hb) as (grp & k & f & _ & Hk & _ & Hf & Hfn & _).
      exists k, f. rewrite Hg in Hk. split; [exact Hk|]. split; [|congruence]. exists bs, b. auto.
    - intros (k & f & Hk & (bs & b & Hbs & Hb & Hg & Hf & Hin) & Hn). exists bs, b. destruct (rt_nodes _ _ _ _ _ _ _ _ _ _ _ _ _ Hr gb bs b Hbs Hb) as (grp & k' & f' & _ & Hk' & _ & Hf' & Hfn & _).
      rewrite Hg in Hk'. assert (k' = k) by congruence. assert (f' = f) by congruence. subst. auto.
  Qed.

  Lemma restriction_conn_ok : Forall (fun g => nfaces g <= 128) groups ->
    (forall g grp k f, nth_error groups g = Some grp -> nth_error kinds g = Some k -> f < nfaces grp -> resamples rmat rpick k (fnodes k f (factory k)) (dim k) (dim (factory k))) ->
    conn_ok rmat rpick c /\ Forall single_source (cn_groups c).
  Proof.
    intros Hfew Hres.
    assert (Hfrom : forall g grp k, nth_error groups g = Some grp -> nth_error kinds g = Some k -> nth_error (cn_from c) g = Some (mk_dgroup (nelements grp) (dim k) k)).
    { intros g grp k Hg Hk. rewrite (rt_from _ _ _ _ _ _ _ _ _ _ _ _ _ Hr), nth_error_map, (nth_error_combine' _ _ _ _ _ Hg Hk). reflexivity. }
    destruct (rt_sizes _ _ _ _ _ _ _ _ _ _ _ _ _ Hr) as (Hsz & Hlen). pose proof (Forall2_length' _ _ _ Hsz) as Hlsz. split.
    - apply Forall2_intro_nth; [congruence|]. intros gb tg bs Htg Hbs. destruct (rt_batches _ _ _ _ _ _ _ _ _ _ _ _ _ Hr gb bs Hbs) as (_ & Hls). split.
      + apply Forall_forall. intros b Hb. destruct (rt_nodes _ _ _ _ _ _ _ _ _ _ _ _ _ Hr gb bs b Hbs Hb) as (grp & k & f & Hg & Hk & Hf & Hbf & Hbn & Hgb).
        destruct (rt_to _ _ _ _ _ _ _ _ _ _ _ _ _ Hr _ grp k f Hg Hk Hf) as (bg & Hbg & Hto). rewrite <- Hgb in Hbg, Hto. assert (tg = mk_dgroup (nelements bg) (dim (factory k)) (factory k)) by congruence. subst tg.
        assert (Hl : length (bt_from b) = length (bt_to b)) by (rewrite Forall_forall in Hls; auto).
        assert (Hp : forall t s, In (t, s) (combine (bt_to b) (bt_from b)) -> t < nelements bg /\ s < nelements grp).
        { intros t s Hts. destruct (rt_face _ _ _ _ _ _ _ _ _ _ _ _ _ Hr gb t (bt_fgrp b) s f) as (grp' & k' & x & bg' & rows & row & vsf & Hg' & _ & Hx & Hbg' & _ & _ & _ & Hlr & Hrow & _); [exists bs, b; auto|].
          assert (bg' = bg) by congruence. assert (grp' = grp) by congruence. subst. split; [rewrite <- Hlr|unfold nelements]; apply nth_error_Some; congruence. }
        unfold batch_ok. cbn [dg_nel dg_ndof]. split; [exact Hl|]. split.
        * apply Forall_forall. intros t Ht. destruct (combine_targets _ _ _ Hl Ht) as (s & Hs). exact (proj1 (Hp t s Hs)).
        * exists (mk_dgroup (nelements grp) (dim k) k). split; [now apply Hfrom|]. cbn [dg_nel dg_ndof dg_kind]. split; [|rewrite Hbn; exact (Hres _ grp k f Hg Hk Hf)].
          apply Forall_forall. intros s Hs. destruct (combine_targets (bt_from b) (bt_to b) s) as (t & Ht); [congruence|exact Hs|]. apply In_combine_swap in Ht. exact (proj2 (Hp t s Ht)).
      + intros g. destruct (nth_error groups g) as [grp|] eqn:Hg; [destruct (nth_error kinds g) as [k|] eqn:Hk|].
        * exists (flat_map (fun f => match rpick k (fnodes k f (factory k)) with Some ix => [ix] | None => [] end) (seq 0 (nfaces grp))). split.
          { assert (Hn : nfaces grp <= 128) by (rewrite Forall_forall in Hfew; apply Hfew; eapply nth_error_In; eauto). etransitivity; [|exact Hn].
            clear. rewrite <- (seq_length (nfaces grp) 0) at 2. induction (seq 0 (nfaces grp)) as [|f l IH]; [cbn; lia|]. cbn [flat_map length]. rewrite app_length. destruct (rpick k _); cbn [length]; lia. }
          intros b gr ix Hb Hbg Hgr Hp. destruct (rt_nodes _ _ _ _ _ _ _ _ _ _ _ _ _ Hr gb bs b Hbs Hb) as (grp' & k' & f & Hg' & Hk' & Hf & _ & Hbn & _). subst g.
          assert (grp' = grp) by congruence. assert (k' = k) by congruence. subst. rewrite (Hfrom _ _ _ Hg Hk) in Hgr. injection Hgr as <-. cbn [dg_kind] in Hp. rewrite Hbn in Hp.
          apply in_flat_map. exists f. split; [apply in_seq; lia|]. rewrite Hp. now left.
        * exfalso. apply nth_error_None in Hk. assert (g < length groups) by (apply nth_error_Some; congruence). lia.
        * exists []. split; [cbn; lia|]. intros b gr ix Hb Hbg Hgr Hp. destruct (rt_nodes _ _ _ _ _ _ _ _ _ _ _ _ _ Hr gb bs b Hbs Hb) as (grp' & k' & f & Hg' & _). congruence.
    - apply Forall_forall. intros bs Hbs. apply In_nth_error in Hbs. destruct Hbs as (gb & Hbs). destruct (rt_batches _ _ _ _ _ _ _ _ _ _ _ _ _ Hr gb bs Hbs) as (Hnd & _).
      intros i i' b b' t s s' Hi Hi' Hts Hts'.
      destruct (rt_nodes _ _ _ _ _ _ _ _ _ _ _ _ _ Hr gb bs b Hbs (nth_error_In _ _ Hi)) as (grp & k & f & _ & _ & _ & Hf & _).
      destruct (rt_nodes _ _ _ _ _ _ _ _ _ _ _ _ _ Hr gb bs b' Hbs (nth_error_In _ _ Hi')) as (grp' & k' & f' & _ & _ & _ & Hf' & _).
      assert (Heq : (bt_fgrp b, s, f) = (bt_fgrp b', s', f')).
      { apply (rt_inj _ _ _ _ _ _ _ _ _ _ _ _ _ Hr gb t).
        - exists bs, b. split; [exact Hbs|]. split; [eapply nth_error_In; eauto|auto].
        - exists bs, b'. split; [exact Hbs|]. split; [eapply nth_error_In; eauto|auto]. }
      injection Heq as _ <- <-. split; [|reflexivity]. apply (proj1 (NoDup_nth_error _) Hnd); [rewrite map_length; apply nth_error_Some; congruence|].
      rewrite !nth_error_map, Hi, Hi'. cbn [option_map]. congruence.
  Qed.

  (** The values of a boundary element are those of the volume element it is a face of, interpolated to the face *)
  Lemma restriction_values x : Forall (fun g => nfaces g <= 128) groups ->
    (forall g grp k f, nth_error groups g = Some grp -> nth_error kinds g = Some k -> f < nfaces grp -> resamples rmat rpick k (fnodes k f (factory k)) (dim k) (dim (factory k))) ->
    on_discr (cn_from c) x ->
    exists y, (forall eager nomerge, call R rmat rpick eager nomerge c x = Ok y) /\ on_discr (cn_to c) y /\
      forall gb t g e f, is_face c gb t (g, e, f) -> exists k v w, nth_error kinds g = Some k /\ value x g e = Some v /\ value y gb t = Some w /\
        resampled rmat rpick k (fnodes k f (factory k)) v w.
  Proof.
    intros Hfew Hres Hx. destruct (restriction_conn_ok Hfew Hres) as (Hc & Hss). destruct (call_values rmat rpick c x Hc Hss Hx) as (y & Hy & Hon & Hv & _).
    exists y. split; [exact Hy|]. split; [exact Hon|]. intros gb t g e f Hif.
    destruct (rt_face _ _ _ _ _ _ _ _ _ _ _ _ _ Hr gb t g e f Hif) as (grp & k & _ & _ & _ & _ & _ & Hg & Hk & _).
    destruct (Hv gb t g e (fnodes k f (factory k))) as (gr & v & w & Hgr & Hxv & Hyw & Hrs); [apply feeds_iff; exists k, f; auto|].
    rewrite (rt_from _ _ _ _ _ _ _ _ _ _ _ _ _ Hr), nth_error_map, (nth_error_combine' _ _ _ _ _ Hg Hk) in Hgr. injection Hgr as <-. cbn [dg_kind snd] in Hrs. exists k, v, w. auto.
  Qed.
End RestrValues.
