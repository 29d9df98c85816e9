(** * ConnMoreProofs: linearity of connections, connections between discretizations of one mesh *)
From Coq Require Import List Arith Bool ZArith Lia.
From Verif Require Import Np NpFacts PointProofs SplitProofs FlipProofs Lin ConnModel ConnSpec ConnProofs ConnMatProofs ConnFlatProofs.
Import ListNotations.

Section More.
  Context {R : cring} {N K : Type}.
  Variable rmat : K -> N -> list (list R).
  Variable rpick : K -> N -> option (list nat).
  Add Ring Rring : (rth R).
  Notation batch := (@batch N).
  Notation conn := (@conn N K).
  Notation dgroup := (@dgroup K).
  Notation contributes := (contributes rmat rpick).
  Notation transports := (transports rmat rpick).

  Lemma vlin_length (a b : R) u v : length u = length v -> length (vlin a u b v) = length u.
  Proof. intros H. unfold vlin. rewrite vadd_length; unfold vscale; rewrite !map_length; auto. Qed.

  Lemma vlin_nth (a b : R) u v i x y : nth_error u i = Some x -> nth_error v i = Some y -> nth_error (vlin a u b v) i = Some (radd (rmul a x) (rmul b y)).
  Proof. intros Hx Hy. unfold vlin, vadd, vscale. apply map2_nth; rewrite nth_error_map; [rewrite Hx|rewrite Hy]; reflexivity. Qed.

  Lemma dot_vlin (r : list R) a u b v : length u = length v -> dot r (vlin a u b v) = radd (rmul a (dot r u)) (rmul b (dot r v)).
  Proof.
    intros H. unfold vlin. rewrite (dot_vadd_r R) by (unfold vscale; now rewrite !map_length). rewrite (dot_comm R r (vscale a u)), (dot_comm R r (vscale b v)), !(dot_vscale_l R).
    now rewrite (dot_comm R u r), (dot_comm R v r).
  Qed.

  Lemma matvec_vlin (M : list (list R)) a u b v : length u = length v -> matvec M (vlin a u b v) = vlin a (matvec M u) b (matvec M v).
  Proof.
    intros H. unfold matvec. induction M as [|r M IH]; [reflexivity|]. cbn [map]. rewrite IH, dot_vlin by exact H. reflexivity.
  Qed.

  Lemma vlin_zeros (a b : R) n : vlin a (zeros n) b (zeros n) = zeros n.
  Proof.
    unfold vlin, vadd, vscale, zeros. induction n as [|n IH]; [reflexivity|]. cbn [repeat map map2]. rewrite IH. f_equal. ring.
  Qed.

  Lemma vlin_vadd (a b : R) u u' v v' : vlin a (vadd u u') b (vadd v v') = vadd (vlin a u b v) (vlin a u' b v').
  Proof.
    unfold vlin, vadd, vscale. revert u' v v'. induction u as [|x u IH]; intros [|x' u'] [|y v] [|y' v']; cbn [map2 map]; try reflexivity.
    rewrite IH. f_equal. ring.
  Qed.

  Lemma vsum_vlin (a b : R) nd cs ds : length cs = length ds -> vlin a (vsum nd cs) b (vsum nd ds) = vsum nd (map2 (fun u v => vlin a u b v) cs ds).
  Proof.
    revert ds. induction cs as [|c cs IH]; intros [|d ds] H; try discriminate; [apply vlin_zeros|]. cbn [map2]. rewrite !vsum_cons, vlin_vadd, IH by (cbn in H; lia). reflexivity.
  Qed.

  Lemma dlin_nth (a b : R) x y g rx ry : nth_error x g = Some rx -> nth_error y g = Some ry -> nth_error (dlin a x b y) g = Some (map2 (fun u v => vlin a u b v) rx ry).
  Proof. intros Hx Hy. unfold dlin. apply map2_nth; assumption. Qed.

  Lemma contributes_lin from tg t (b : batch) a be x y cx cy : batch_ok rmat rpick from tg b -> on_discr from x -> on_discr from y ->
    contributes from x (dg_ndof tg) t b cx -> contributes from y (dg_ndof tg) t b cy -> contributes from (dlin a x be y) (dg_ndof tg) t b (vlin a cx be cy).
  Proof.
    intros (Hl & _ & _) Hdx Hdy [(g1 & s1 & src1 & x1 & Hg1 & Ha1 & Hs1 & Hx1 & H1)|(Hn1 & ->)] [(g2 & s2 & src2 & x2 & Hg2 & Ha2 & Hs2 & Hx2 & H2)|(Hn2 & ->)].
    - assert (g2 = g1) by congruence. subst g2. assert (s2 = s1). { apply assigns_lsrc in Ha1, Ha2; congruence. } subst s2.
      left. exists g1, s1. eexists. exists (vlin a x1 be x2). split; [exact Hg1|]. split; [exact Ha1|]. split; [apply dlin_nth; eassumption|]. split; [exact (map2_nth _ _ _ _ _ _ Hx1 Hx2)|].
      destruct (rpick (dg_kind g1) (bt_nodes b)) as [ix|].
      + clear -H1 H2. revert cy H2. induction H1 as [|i v ix cx Hv H1 IH]; intros cy H2; inversion H2 as [|? w ? cy' Hw H2']; subst; [constructor|].
        change (vlin a (v :: cx) be (w :: cy')) with (radd (rmul a v) (rmul be w) :: vlin a cx be cy'). constructor; [now apply vlin_nth|auto].
      + subst cx cy. symmetry. apply matvec_vlin.
        destruct (on_discr_get _ _ _ _ Hdx Hg1) as (r1 & Hr1 & _ & HF1). destruct (on_discr_get _ _ _ _ Hdy Hg1) as (r2 & Hr2 & _ & HF2).
        assert (r1 = src1) by congruence. assert (r2 = src2) by congruence. subst r1 r2. rewrite Forall_forall in HF1, HF2.
        rewrite (HF1 x1), (HF2 x2) by (eapply nth_error_In; eassumption). reflexivity.
    - exfalso. apply Hn2. destruct Ha1 as (j & Hj & _). eapply nth_error_In; eauto.
    - exfalso. apply Hn1. destruct Ha2 as (j & Hj & _). eapply nth_error_In; eauto.
    - right. split; [exact Hn1|apply vlin_zeros].
  Qed.

  Lemma map2_nth_inv {X Y W} (f : X -> Y -> W) l l' i w : nth_error (map2 f l l') i = Some w -> exists x y, nth_error l i = Some x /\ nth_error l' i = Some y /\ w = f x y.
  Proof.
    revert l' i. induction l as [|x l IH]; intros [|y l'] [|i] H; cbn [map2 nth_error] in H; try discriminate; [injection H as <-; cbn; eauto|]. cbn [nth_error]. now apply IH.
  Qed.

  Lemma transports_lin (c : conn) a b x y rx ry : conn_ok rmat rpick c -> on_discr (cn_from c) x -> on_discr (cn_from c) y ->
    transports c x rx -> transports c y ry -> transports c (dlin a x b y) (dlin a rx b ry).
  Proof.
    intros Hc Hx Hy. unfold ConnSpec.transports, conn_ok in *. revert rx ry. induction Hc as [|tg bs tgs bss (Hb & _) Hc IH]; intros rx ry Hrx Hry; cbn [combine] in *.
    - inversion Hrx. inversion Hry. constructor.
    - inversion Hrx as [|? rowx ? rx' (Hlx & Hsx) Hrx']; subst. inversion Hry as [|? rowy ? ry' (Hly & Hsy) Hry']; subst. cbn [fst snd] in *.
      change (dlin a (rowx :: rx') b (rowy :: ry')) with (map2 (fun u v => vlin a u b v) rowx rowy :: dlin a rx' b ry'). constructor; [|now apply IH]. cbn [fst snd].
      split; [rewrite (map2_length); congruence|]. intros t row Ht. apply map2_nth_inv in Ht. destruct Ht as (u & v & Hu & Hv & ->).
      destruct (Hsx t u Hu) as (cs & Hcs & ->). destruct (Hsy t v Hv) as (ds & Hds & ->). exists (map2 (fun u v => vlin a u b v) cs ds).
      split; [|apply vsum_vlin; apply Forall2_length' in Hcs, Hds; congruence].
      clear -Hb Hx Hy Hcs Hds. revert ds Hds. induction Hcs as [|b0 u bs us Hu Hus IH]; intros ds Hds; inversion Hds as [|? v ? vs Hv Hvs]; subst; [constructor|].
      apply Forall_cons_iff in Hb. destruct Hb as (Hb & Hbs). cbn [map2]. constructor; [|now apply IH]. eapply contributes_lin; eauto.
  Qed.

  Lemma on_discr_lin (gs : list dgroup) a b (x y : list (list (list R))) : on_discr gs x -> on_discr gs y -> on_discr gs (dlin a x b y).
  Proof.
    intros Hx. revert y. induction Hx as [|g rx gs x (Hl & Hf) Hx IH]; intros y Hy; inversion Hy as [|? ry ? y' (Hl' & Hf') Hy']; subst; [constructor|].
    change (dlin a (rx :: x) b (ry :: y')) with (map2 (fun u v => vlin a u b v) rx ry :: dlin a x b y'). constructor; [|now apply IH].
    split; [rewrite map2_length; congruence|]. apply Forall_forall. intros row Hin. apply In_nth_error in Hin. destruct Hin as (t & Ht). apply map2_nth_inv in Ht. destruct Ht as (u & v & Hu & Hv & ->).
    rewrite Forall_forall in Hf, Hf'. rewrite vlin_length; [apply Hf; eapply nth_error_In; eauto|].
    rewrite (Hf u), (Hf' v) by (eapply nth_error_In; eassumption). reflexivity.
  Qed.

  Theorem apply_linear eager nomerge d x e a b u v ru rv : cnx_ok rmat rpick d x e -> on_discr d u -> on_discr d v ->
    apply R rmat rpick eager nomerge x u = Ok ru -> apply R rmat rpick eager nomerge x v = Ok rv ->
    apply R rmat rpick eager nomerge x (dlin a u b v) = Ok (dlin a ru b rv).
  Proof.
    intros H. revert u v ru rv. induction H as [c Hc|d|d|d e f c Hf Hc IH|d e h f c c' cs Hf Hc IH Hcs IHcs]; intros u v ru rv Hu Hv Eu Ev.
    - cbn [apply] in *. destruct (call_ok rmat rpick eager nomerge c u Hc Hu) as (r1 & E1 & H1). destruct (call_ok rmat rpick eager nomerge c v Hc Hv) as (r2 & E2 & H2).
      destruct (call_ok rmat rpick eager nomerge c _ Hc (on_discr_lin _ a b _ _ Hu Hv)) as (r3 & E3 & H3). rewrite E3. f_equal. assert (r1 = ru) by congruence. assert (r2 = rv) by congruence. subst r1 r2.
      eapply transports_fun; [exact Hc|exact H3|]. now apply transports_lin.
    - cbn [apply] in *. injection Eu as <-. injection Ev as <-. reflexivity.
    - cbn [apply] in *. injection Eu as <-. injection Ev as <-. reflexivity.
    - rewrite apply_chain in *. cbn [foldM] in *. destruct (apply R rmat rpick eager nomerge c u) as [r1|] eqn:E1; cbn [bind] in Eu; [|discriminate]. destruct (apply R rmat rpick eager nomerge c v) as [r2|] eqn:E2; cbn [bind] in Ev; [|discriminate].
      injection Eu as ->. injection Ev as ->. rewrite (IH u v ru rv Hu Hv E1 E2). reflexivity.
    - rewrite apply_chain in *. cbn [foldM] in *.
      destruct (apply R rmat rpick eager nomerge c u) as [r1|] eqn:E1; cbn [bind] in Eu; [|discriminate]. destruct (apply R rmat rpick eager nomerge c v) as [r2|] eqn:E2; cbn [bind] in Ev; [|discriminate].
      rewrite (IH u v r1 r2 Hu Hv E1 E2). cbn [bind].
      destruct (apply_ok rmat rpick eager nomerge _ _ _ u Hc Hu) as (r1' & E1' & _ & Ho1). destruct (apply_ok rmat rpick eager nomerge _ _ _ v Hc Hv) as (r2' & E2' & _ & Ho2).
      assert (r1' = r1) by congruence. assert (r2' = r2) by congruence. subst r1' r2'.
      specialize (IHcs r1 r2 ru rv Ho1 Ho2). rewrite !apply_chain in IHcs. cbn [foldM] in IHcs. now apply IHcs.
  Qed.

  (** ** Permutations *)
  Lemma vsum_all_zeros nd (cs : list (list R)) : Forall (fun c => c = zeros nd) cs -> vsum nd cs = zeros nd.
  Proof. induction 1 as [|c cs -> _ IH]; [reflexivity|]. rewrite vsum_cons, IH. apply vadd_zeros, zeros_length. Qed.

  Lemma permutation_values (c : conn) ary r : conn_ok rmat rpick c -> on_discr (cn_from c) ary -> Forall single_source (cn_groups c) -> is_permutation rpick c = Ok true ->
    transports c ary r -> forall v, In v (concat (concat r)) -> v = @r0 R \/ In v (concat (concat ary)).
  Proof.
    intros Hc Ha Hss Hp Ht v Hv. unfold is_permutation in Hp.
    match type of Hp with bind ?t _ = _ => destruct t as [ps|] eqn:Eps; cbn [bind] in Hp; [|discriminate] end. injection Hp as Hp. apply mapM_ok in Eps.
    assert (Hall : forall b, In b (concat (cn_groups c)) -> exists g ix, nth_error (cn_from c) (bt_fgrp b) = Some g /\ rpick (dg_kind g) (bt_nodes b) = Some ix).
    { intros b Hb. destruct (Forall2_In_l _ _ _ _ Eps Hb) as (p & Hin & Hg). destruct (get (cn_from c) (bt_fgrp b)) as [g|] eqn:Eg; cbn [bind] in Hg; [|discriminate]. injection Hg as Hg.
      rewrite forallb_forall in Hp. specialize (Hp p Hin). destruct p as [ix|]; [|discriminate]. exists g, ix. split; [now apply get_ok|exact Hg]. }
    apply in_concat in Hv. destruct Hv as (row & Hrow & Hv). apply in_concat in Hrow. destruct Hrow as (rows & Hrows & Hrow).
    apply In_nth_error in Hrows. destruct Hrows as (i & Hi). destruct (Forall2_nth_error_r _ _ _ _ _ Ht Hi) as ((tg & bs) & Hb & _ & Hs). cbn [fst snd] in Hs.
    apply nth_error_combine_Some in Hb. destruct Hb as (Htg & Hbs). destruct (Forall2_nth_error _ _ _ _ _ Hc Htg) as (bs' & Hbs' & Hok & _). assert (bs' = bs) by congruence. subst bs'.
    apply In_nth_error in Hrow. destruct Hrow as (t & Ht'). destruct (Hs t row Ht') as (cs & Hcs & ->).
    assert (Hl : Forall (fun b => length (bt_from b) = length (bt_to b)) bs) by (eapply Forall_impl; [|exact Hok]; now intros b (H & _)).
    destruct (covered bs t) as [(k & b & s & Hk & Hts)|Hun].
    - assert (Hbin : In b (concat (cn_groups c))) by (apply in_concat; exists bs; split; eapply nth_error_In; eauto). destruct (Hall b Hbin) as (g & ix & Hg & Hix).
      assert (Hone : exists w, Forall2 (contributes (cn_from c) ary (dg_ndof tg) t) bs cs /\ contributes (cn_from c) ary (dg_ndof tg) t b w) by (destruct (Forall2_nth_error _ _ _ _ _ Hcs Hk) as (w & _ & Hw); eauto).
      destruct Hone as (w & _ & Hw). assert (Hwl : length w = dg_ndof tg). { eapply contributes_length; [|exact Hw]. rewrite Forall_forall in Hok. apply Hok. eapply nth_error_In; eauto. }
      assert (Hsum : vsum (dg_ndof tg) cs = w).
      { rewrite Forall_forall in Hss. eapply sums_fun; [exact Hl|exists cs; split; [exact Hcs|reflexivity]|]. eapply sums_only; eauto. apply Hss. eapply nth_error_In; eauto. }
      rewrite Hsum in Hv. destruct Hw as [(g' & s' & src & x & Hg' & _ & Hsrc & Hx & Hop)|(Hn & _)]; [|exfalso; apply Hn; now apply in_combine_l in Hts].
      assert (g' = g) by congruence. subst g'. rewrite Hix in Hop. destruct (Forall2_In_r _ _ _ _ Hop Hv) as (j & _ & Hj). right. apply in_concat. exists x. split; [|eapply nth_error_In; eauto].
      apply in_concat. exists src. split; eapply nth_error_In; eauto.
    - left. assert (Hz : vsum (dg_ndof tg) cs = zeros (dg_ndof tg)). { eapply sums_fun; [exact Hl|exists cs; split; [exact Hcs|reflexivity]|now apply uncovered_sums]. }
      rewrite Hz in Hv. unfold zeros in Hv. now apply repeat_spec in Hv.
  Qed.

  (** ** Two discretizations of a mesh *)
  Variable unit_nodes : K -> N.

  Lemma same_mesh_groups (from to : list dgroup) i f t : nth_error from i = Some f -> nth_error to i = Some t ->
    nth_error (map (fun ift : nat * (dgroup * dgroup) => let '(i, (f, t)) := ift in [mk_batch i (seq 0 (dg_nel f)) (seq 0 (dg_nel f)) (unit_nodes (dg_kind t)) None]) (enumerate (combine from to))) i =
    Some [mk_batch i (seq 0 (dg_nel f)) (seq 0 (dg_nel f)) (unit_nodes (dg_kind t)) None].
  Proof. intros Hf Ht. rewrite nth_error_map, nth_error_enumerate, (nth_error_combine' _ _ _ _ _ Hf Ht). reflexivity. Qed.

  Theorem same_mesh_ok eager nomerge (from to : list dgroup) x :
    Forall2 (fun f t => dg_nel f = dg_nel t /\
      match rpick (dg_kind f) (unit_nodes (dg_kind t)) with
      | Some ix => length ix = dg_ndof t /\ Forall (fun i => i < dg_ndof f) ix
      | None => is_mat (dg_ndof t) (dg_ndof f) (rmat (dg_kind f) (unit_nodes (dg_kind t)))
      end) from to ->
    on_discr from x ->
    exists c r, make_same_mesh unit_nodes true false to from = Ok (Direct c) /\ cn_from c = from /\ cn_to c = to /\ cn_surj c = true /\
      call R rmat rpick eager nomerge c x = Ok r /\ on_discr to r /\
      forall i f t xr rr e u w, nth_error from i = Some f -> nth_error to i = Some t -> nth_error x i = Some xr -> nth_error r i = Some rr -> nth_error xr e = Some u -> nth_error rr e = Some w ->
        match rpick (dg_kind f) (unit_nodes (dg_kind t)) with
        | Some ix => Forall2 (fun i v => nth_error u i = Some v) ix w
        | None => w = matvec (rmat (dg_kind f) (unit_nodes (dg_kind t))) u
        end.
  Proof.
    intros Hft Hx. unfold make_same_mesh. cbn [guard bind]. rewrite (proj2 (Nat.eqb_eq _ _)) by (now apply Forall2_length' in Hft). cbn [guard bind].
    set (gs := map _ (enumerate (combine from to))). set (c := mk_conn from to gs true).
    assert (Hlen : length from = length to) by (now apply Forall2_length' in Hft).
    assert (Hgs : length gs = length to). { unfold gs. rewrite map_length, length_enumerate, combine_length. lia. }
    assert (Hgrp : forall i f t, nth_error from i = Some f -> nth_error to i = Some t -> nth_error gs i = Some [mk_batch i (seq 0 (dg_nel f)) (seq 0 (dg_nel f)) (unit_nodes (dg_kind t)) None]).
    { intros i f t Hf Ht. now apply same_mesh_groups. }
    assert (Hc : conn_ok rmat rpick c).
    { unfold conn_ok. cbn [cn_to cn_groups cn_from c]. apply Forall2_intro_nth; [congruence|]. intros i t bs Ht Hbs.
      destruct (nth_error from i) as [f|] eqn:Ef; [|apply nth_error_None in Ef; assert (i < length to) by (apply nth_error_Some; congruence); lia].
      rewrite (Hgrp i f t Ef Ht) in Hbs. injection Hbs as <-. destruct (Forall2_nth_error _ _ _ _ _ Hft Ef) as (t' & Ht' & Hnel & Hop). assert (t' = t) by congruence. subst t'. split.
      - constructor; [|constructor]. unfold batch_ok. cbn [bt_from bt_to bt_fgrp bt_nodes]. split; [reflexivity|]. split; [apply Forall_forall; intros j Hj; apply in_seq in Hj; lia|].
        exists f. split; [exact Ef|]. split; [apply Forall_forall; intros j Hj; apply in_seq in Hj; lia|]. exact Hop.
      - intros g. destruct (rpick (dg_kind f) (unit_nodes (dg_kind t))) as [ix|] eqn:E.
        + exists [ix]. split; [cbn; lia|]. intros b gr ix' [<-|[]] Hg Hgr Hp. cbn [bt_fgrp bt_nodes] in *. left. congruence.
        + exists []. split; [cbn; lia|]. intros b gr ix' [<-|[]] Hg Hgr Hp. cbn [bt_fgrp bt_nodes] in *. congruence. }
    destruct (call_ok rmat rpick eager nomerge c x Hc Hx) as (r & Hr & Ht). exists c, r. split; [reflexivity|]. split; [reflexivity|]. split; [reflexivity|]. split; [reflexivity|]. split; [exact Hr|].
    split; [exact (transports_on_discr rmat rpick c x r Hc Ht)|].
    intros i f t xr rr e u w Hf Htt Hxr Hrr Hu Hw. unfold ConnSpec.transports in Ht. cbn [cn_to cn_groups cn_from c] in Ht.
    destruct (Forall2_nth_error _ _ _ _ _ Ht (nth_error_combine' _ _ _ _ _ Htt (Hgrp i f t Hf Htt))) as (rr' & Hrr' & Hl & Hs). assert (rr' = rr) by congruence. subst rr'. cbn [fst snd] in *.
    destruct (Hs e w Hw) as (cs & Hcs & Ew). inversion Hcs as [|? c1 ? cs' Hc1 Hcs']; subst. inversion Hcs'; subst. rewrite vsum_cons. cbn [bt_nodes].
    assert (Hb : batch_ok rmat rpick from t (mk_batch i (seq 0 (dg_nel f)) (seq 0 (dg_nel f)) (unit_nodes (dg_kind t)) None)).
    { unfold conn_ok in Hc. cbn [cn_to cn_groups cn_from c] in Hc. destruct (Forall2_nth_error _ _ _ _ _ Hc Htt) as (bs & Hbs & Hb & _). rewrite (Hgrp i f t Hf Htt) in Hbs. injection Hbs as <-. now inversion Hb. }
    change (vsum (dg_ndof t) []) with (zeros (R := R) (dg_ndof t)). rewrite vadd_zeros by (eapply contributes_length; eauto).
    assert (He : e < dg_nel f). { destruct (on_discr_get _ _ _ _ Hx Hf) as (xr' & Hxr' & Hl' & _). assert (xr' = xr) by congruence. subst xr'. rewrite <- Hl'. apply nth_error_Some. congruence. }
    destruct Hc1 as [(g' & s & src & u' & Hg' & Ha & Hsrc & Hu' & Hop)|(Hn & _)].
    - cbn [bt_fgrp bt_nodes] in *. assert (g' = f) by congruence. assert (src = xr) by congruence. subst g' src.
      destruct Ha as (j & Hj & Hj' & _). cbn [bt_to bt_from] in *. rewrite Hj in Hj'. injection Hj' as <-. assert (u' = u) by congruence. now subst u'.
    - exfalso. apply Hn. cbn [bt_to]. apply in_seq. lia.
  Qed.
End More.
