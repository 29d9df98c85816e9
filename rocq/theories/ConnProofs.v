(** * ConnProofs: direct connections *)
From Coq Require Import List Arith Bool ZArith Lia.
From Verif Require Import Np NpFacts PointProofs SplitProofs FlipProofs Lin ConnModel ConnSpec.
Import ListNotations.

(** ** Last assignments *)
Fixpoint last_assoc {V} (t : nat) (l : list (nat * V)) : option V :=
  match l with
  | [] => None
  | (k, v) :: l => match last_assoc t l with Some s => Some s | None => if k =? t then Some v else None end
  end.

Lemma scatter_last {V} (l l' : list V) ivs t : scatter l ivs = Ok l' ->
  nth_error l' t = match last_assoc t ivs with Some v => Some v | None => nth_error l t end.
Proof.
  unfold scatter. revert l. induction ivs as [|(i, v) ivs IH]; intros l H.
  - cbn [foldM] in H. injection H as <-. reflexivity.
  - cbn [foldM fst snd] in H. destruct (put l i v) as [l1|] eqn:E; [|discriminate].
    cbn [bind] in H. rewrite (IH _ H). cbn [last_assoc]. destruct (last_assoc t ivs); [reflexivity|].
    apply put_ok in E. destruct E as (Hi & ->).
    destruct (Nat.eqb_spec i t) as [->|Hn]; [now rewrite nth_error_upd_eq|now rewrite nth_error_upd_neq].
Qed.

Lemma last_assoc_map {V W} (f : V -> W) t l : last_assoc t (map (fun kv => (fst kv, f (snd kv))) l) = option_map f (last_assoc t l).
Proof.
  induction l as [|(k, v) l IH]; [reflexivity|]. cbn [map last_assoc fst snd]. rewrite IH.
  destruct (last_assoc t l); cbn [option_map]; [reflexivity|]. now destruct (k =? t).
Qed.

Lemma last_assoc_None {V} t (l : list (nat * V)) : last_assoc t l = None <-> ~ In t (map fst l).
Proof.
  induction l as [|(k, v) l IH]; [cbn; tauto|]. cbn [map last_assoc fst In].
  destruct (last_assoc t l) as [s|].
  - split; [discriminate|]. intros H. exfalso. destruct IH as (_ & IH). assert (@Some V s = None) by (apply IH; tauto). discriminate.
  - destruct (Nat.eqb_spec k t) as [->|Hn]; [split; [discriminate|tauto]|]. split; [|reflexivity].
    intros _ [H|H]; [congruence|]. apply IH in H; auto.
Qed.

Lemma last_assoc_Some {V} t (l : list (nat * V)) s : last_assoc t l = Some s <->
  exists j, nth_error l j = Some (t, s) /\ forall j' w, j < j' -> nth_error l j' <> Some (t, w).
Proof.
  induction l as [|(k, v) l IH].
  - cbn [last_assoc]. split; [discriminate|]. intros (j & H & _). destruct j; discriminate.
  - cbn [last_assoc]. destruct (last_assoc t l) as [u|] eqn:E.
    + split.
      * intros H. injection H as ->. destruct (proj1 IH eq_refl) as (j & Hj & Hl). exists (S j). split; [exact Hj|].
        intros [|j'] w Hlt; [lia|]. cbn [nth_error]. apply Hl. lia.
      * intros ([|j] & Hj & Hl).
        -- exfalso. enough (E' : last_assoc t l = None) by congruence. apply last_assoc_None.
           intros Hin. apply in_map_iff in Hin. destruct Hin as ((k', w) & Hk & Hin). cbn [fst] in Hk. subst k'.
           apply In_nth_error in Hin. destruct Hin as (j & Hin). apply (Hl (S j) w); [lia|exact Hin].
        -- apply (proj2 IH). exists j. split; [exact Hj|]. intros j' w Hlt. apply (Hl (S j') w). lia.
    + assert (Hno : forall j w, nth_error l j <> Some (t, w)).
      { intros j w Hj. apply (proj1 (last_assoc_None t l) E). apply nth_error_In in Hj. apply in_map_iff. now exists (t, w). }
      destruct (Nat.eqb_spec k t) as [->|Hn]; split.
      * intros H. injection H as ->. exists 0. split; [reflexivity|]. intros [|j'] w Hlt; [lia|]. apply Hno.
      * intros ([|j] & Hj & _); [now injection Hj as ->|]. now apply Hno in Hj.
      * discriminate.
      * intros ([|j] & Hj & _); [injection Hj as -> ->; congruence|]. now apply Hno in Hj.
Qed.

Lemma nth_error_combine' {A B} (l : list A) (l' : list B) i a b : nth_error l i = Some a -> nth_error l' i = Some b -> nth_error (combine l l') i = Some (a, b).
Proof. revert l' i. induction l as [|x l IH]; intros [|y l'] [|i]; cbn [nth_error combine]; try discriminate; [congruence|apply IH]. Qed.

(** ** Vectors of a fixed length *)
Section Direct.
  Context {R : cring} {N K : Type}.
  Variable rmat : K -> N -> list (list R).
  Variable rpick : K -> N -> option (list nat).
  Notation batch := (@batch N).
  Notation conn := (@conn N K).
  Notation dgroup := (@dgroup K).
  Notation contributes := (contributes rmat rpick).

  Lemma vsum_cons nd c (cs : list (list R)) : vsum nd (c :: cs) = vadd c (vsum nd cs).
  Proof. reflexivity. Qed.
  Lemma vsum_length nd (cs : list (list R)) : Forall (fun c => length c = nd) cs -> length (vsum nd cs) = nd.
  Proof.
    induction 1 as [|c cs Hc H IH]; cbn [vsum fold_right]; [apply zeros_length|].
    fold (vsum nd cs). rewrite vadd_length; congruence.
  Qed.
  Lemma vadd_zeros_l nd (v : list R) : length v = nd -> vadd (zeros nd) v = v.
  Proof. intros H. rewrite vadd_comm. now apply vadd_zeros. Qed.
  Lemma vsum_app nd (a b : list (list R)) : Forall (fun c => length c = nd) a -> Forall (fun c => length c = nd) b ->
    vsum nd (a ++ b) = vadd (vsum nd a) (vsum nd b).
  Proof.
    intros Ha Hb. induction Ha as [|c cs Hc H IH]; cbn [app vsum fold_right].
    - now rewrite vadd_zeros_l by (now apply vsum_length).
    - unfold vsum in IH. rewrite IH. apply vadd_assoc.
  Qed.
  Lemma vsum_fold_left nd (cs : list (list R)) c : length c = nd -> Forall (fun c => length c = nd) cs ->
    fold_left vadd cs c = vadd c (vsum nd cs).
  Proof.
    intros Hc H. revert c Hc. induction H as [|d cs Hd H IH]; intros c Hc; cbn [fold_left vsum fold_right].
    - symmetry. now apply vadd_zeros.
    - rewrite IH; [|rewrite vadd_length; congruence]. symmetry. apply vadd_assoc.
  Qed.

  Lemma madd_length (a b : list (list R)) : length a = length b -> length (madd R a b) = length a.
  Proof. apply map2_length. Qed.

  (** Rows of a sum of arrays *)
  Lemma fold_madd nel (ms : list (list (list R))) m : length m = nel -> Forall (fun c => length c = nel) ms ->
    length (fold_left (madd R) ms m) = nel /\
    forall t r0, nth_error m t = Some r0 -> exists rs, Forall2 (fun c r => nth_error c t = Some r) ms rs /\
      nth_error (fold_left (madd R) ms m) t = Some (fold_left vadd rs r0).
  Proof.
    intros Hm H. revert m Hm. induction H as [|c ms Hc H IH]; intros m Hm; cbn [fold_left].
    - split; [exact Hm|]. intros t r0 Hr. exists []. split; [constructor|exact Hr].
    - destruct (IH (madd R m c)) as (Hl & Hn); [rewrite madd_length; congruence|]. split; [exact Hl|].
      intros t r0 Hr.
      assert (Hr' : exists r1, nth_error c t = Some r1).
      { destruct (nth_error c t) eqn:E; [eauto|]. apply nth_error_None in E. assert (t < length m) by (apply nth_error_Some; congruence). lia. }
      destruct Hr' as (r1 & Hr1).
      destruct (Hn t (vadd r0 r1)) as (rs & Hrs & Ht).
      { unfold madd. now apply map2_nth. }
      exists (r1 :: rs). split; [now constructor|exact Ht].
  Qed.

  (** total adds up whatever the parts stand for *)
  Lemma total_spec {X} nel nd (C : X -> nat -> list R -> Prop) (xs : list X) os :
    Forall2 (fun x o => match o with
       | Some rows => length rows = nel /\ forall t row, nth_error rows t = Some row -> C x t row /\ length row = nd
       | None => forall t, t < nel -> C x t (zeros nd) end) xs os ->
    length (total R nel nd os) = nel /\
    forall t row, nth_error (total R nel nd os) t = Some row ->
      exists cs, Forall2 (fun x c => C x t c /\ length c = nd) xs cs /\ row = vsum nd cs.
  Proof.
    intros H.
    assert (Hgen : forall t, t < nel -> exists rs cs,
      Forall2 (fun (c : list (list R)) r => nth_error c t = Some r) (flat_map (fun o => match o with Some c => [c] | None => [] end) os) rs /\
      Forall (fun r => length r = nd) rs /\
      Forall2 (fun x c => C x t c /\ length c = nd) xs cs /\ vsum nd rs = vsum nd cs).
    { intros t Ht. induction H as [|x o xs os Ho H IH].
      - exists [], []. repeat split; constructor.
      - destruct IH as (rs & cs & H1 & Hl & H2 & H3). destruct o as [rows|]; cbn [flat_map app].
        + destruct Ho as (Hr & Ho). destruct (nth_error rows t) as [row|] eqn:E.
          * exists (row :: rs), (row :: cs). destruct (Ho _ _ E) as (Hc & Hrl).
            split; [now constructor|]. split; [now constructor|]. split; [now constructor|].
            rewrite !vsum_cons. now rewrite H3.
          * apply nth_error_None in E. lia.
        + exists rs, (zeros nd :: cs). split; [exact H1|]. split; [exact Hl|]. split.
          * constructor; [split; [auto|apply zeros_length]|exact H2].
          * rewrite vsum_cons, H3. symmetry. apply vadd_zeros_l.
            apply vsum_length. clear -H2. induction H2 as [|? ? ? ? (_ & ?) ? ?]; constructor; auto. }
    assert (Hlen : Forall (fun c : list (list R) => length c = nel) (flat_map (fun o => match o with Some c => [c] | None => [] end) os)).
    { clear Hgen. induction H as [|x o xs os Ho H IH]; [constructor|]. destruct o; cbn [flat_map app]; [constructor; [apply Ho|exact IH]|exact IH]. }
    unfold total. destruct (flat_map _ os) as [|m ms] eqn:E.
    - unfold zero_rows. split; [apply repeat_length|]. intros t row Hr.
      assert (Ht : t < nel). { rewrite <- (repeat_length (zeros (R:=R) nd) nel). apply nth_error_Some. congruence. }
      destruct (Hgen t Ht) as (rs & cs & H1 & _ & H2 & H3). exists cs. split; [exact H2|]. inversion H1; subst rs.
      rewrite <- H3. cbn [vsum fold_right]. apply nth_error_In, repeat_spec in Hr. exact Hr.
    - apply Forall_cons_iff in Hlen. destruct Hlen as (Hm & Hms).
      destruct (fold_madd nel ms m Hm Hms) as (Hl & Hn). split; [exact Hl|].
      intros t row Hr.
      assert (Ht : t < nel). { rewrite <- Hl. apply nth_error_Some. congruence. }
      destruct (Hgen t Ht) as (rs & cs & H1 & Hrl & H2 & H3). exists cs. split; [exact H2|].
      inversion H1 as [|? r0 ? rs' Hr0 Hrs']; subst rs. destruct (Hn t r0 Hr0) as (rs2 & Hrs2 & Hrow).
      assert (rs2 = rs') as ->.
      { clear -Hrs2 Hrs'. revert rs2 Hrs2. induction Hrs' as [|c r ms rs Hc H IH]; intros rs2 H2; inversion H2; subst; [reflexivity|].
        f_equal; [congruence|auto]. }
      apply Forall_cons_iff in Hrl. destruct Hrl as (Hr0l & Hrsl).
      rewrite (vsum_fold_left nd) in Hrow by assumption. rewrite Hrow in Hr. injection Hr as <-. rewrite <- H3. reflexivity.
  Qed.

  (** ** Contributions of batches *)
  Definition lsrc (b : batch) (t : nat) : option nat := last_assoc t (combine (bt_to b) (bt_from b)).

  Lemma assigns_lsrc b t s : length (bt_from b) = length (bt_to b) -> (assigns b t s <-> lsrc b t = Some s).
  Proof.
    intros Hl. unfold lsrc. rewrite last_assoc_Some. split.
    - intros (j & Ht & Hs & Hlast). exists j. split; [now apply nth_error_combine'|].
      intros j' w Hlt Hj. apply nth_error_combine_Some in Hj. destruct Hj as (Hj & _). now apply (Hlast j').
    - intros (j & Hj & Hlast). apply nth_error_combine_Some in Hj. destruct Hj as (Ht & Hs). exists j. split; [exact Ht|]. split; [exact Hs|].
      intros j' Hlt Hj. destruct (nth_error (bt_from b) j') as [w|] eqn:E.
      + apply (Hlast j' w Hlt). now apply nth_error_combine'.
      + apply nth_error_None in E. assert (j' < length (bt_to b)) by (apply nth_error_Some; congruence). lia.
  Qed.
  Lemma lsrc_None b t : length (bt_from b) = length (bt_to b) -> (lsrc b t = None <-> ~ In t (bt_to b)).
  Proof. intros Hl. unfold lsrc. rewrite last_assoc_None, combine_fst by congruence. reflexivity. Qed.

  Lemma contributes_fun from ary nd t b c1 c2 : length (bt_from b) = length (bt_to b) ->
    contributes from ary nd t b c1 -> contributes from ary nd t b c2 -> c1 = c2.
  Proof.
    intros Hl [(g1 & s1 & src1 & x1 & Hg1 & Ha1 & Hs1 & Hx1 & H1)|(Hn1 & E1)] [(g2 & s2 & src2 & x2 & Hg2 & Ha2 & Hs2 & Hx2 & H2)|(Hn2 & E2)].
    - apply (assigns_lsrc _ _ _ Hl) in Ha1, Ha2. assert (g1 = g2) by congruence. subst g2. assert (s1 = s2) by congruence. subst s2.
      assert (src1 = src2) by congruence. subst src2. assert (x1 = x2) by congruence. subst x2.
      destruct (rpick (dg_kind g1) (bt_nodes b)) as [ix|]; [|congruence].
      clear -H1 H2. revert c2 H2. induction H1 as [|i v ix c Hi H IH]; intros c2 H2; inversion H2; subst; [reflexivity|]. f_equal; [congruence|auto].
    - exfalso. destruct Ha1 as (j & Hj & _). apply Hn2. now apply nth_error_In in Hj.
    - exfalso. destruct Ha2 as (j & Hj & _). apply Hn1. now apply nth_error_In in Hj.
    - congruence.
  Qed.

  Lemma on_discr_get (from : list dgroup) (ary : list (list (list R))) g (gr : dgroup) : on_discr from ary -> nth_error from g = Some gr ->
    exists src, nth_error ary g = Some src /\ length src = dg_nel gr /\ Forall (fun row : list R => length row = dg_ndof gr) src.
  Proof. intros H Hg. eapply Forall2_nth_error in H; eauto. Qed.

  Lemma take_total' {A} (x : list A) ix n : Forall (fun i => i < n) ix -> length x = n -> exists v, take x ix = Ok v.
  Proof. intros H Hl. apply take_total. subst n. exact H. Qed.

  (** What op yields for an element *)
  Lemma op_ok (b : batch) (g tg : dgroup) (x : list R) : length x = dg_ndof g ->
    match rpick (dg_kind g) (bt_nodes b) with
      | Some ix => length ix = dg_ndof tg /\ Forall (fun i => i < dg_ndof g) ix
      | None => is_mat (dg_ndof tg) (dg_ndof g) (rmat (dg_kind g) (bt_nodes b)) end ->
    exists v, match rpick (dg_kind g) (bt_nodes b) with
                  | Some pl => take x pl
                  | None => Ok (matvec (rmat (dg_kind g) (bt_nodes b)) x) end = Ok v /\ length v = dg_ndof tg /\
       match rpick (dg_kind g) (bt_nodes b) with
       | Some ix => Forall2 (fun i v => nth_error x i = Some v) ix v
       | None => v = matvec (rmat (dg_kind g) (bt_nodes b)) x
       end.
  Proof.
    intros Hx H. destruct (rpick (dg_kind g) (bt_nodes b)) as [ix|].
    - destruct H as (Hl & Hf). destruct (take_total' x ix _ Hf Hx) as (v & Hv). exists v. split; [exact Hv|].
      apply take_ok in Hv. split; [|exact Hv]. rewrite <- Hl. symmetry. eapply Forall2_length'; eauto.
    - eexists. split; [reflexivity|]. split; [|reflexivity]. rewrite matvec_length. apply H.
  Qed.

  (** Values written by assign_from *)
  Lemma assign_from_spec (full full' : list Z) (b : batch) : assign_from full b = Ok full' ->
    length (bt_from b) = length (bt_to b) /\ length full' = length full /\    forall t, nth_error full' t = match lsrc b t with Some s => Some (Z.of_nat s) | None => nth_error full t end.
  Proof.
    unfold assign_from. destruct (Nat.eqb_spec (length (bt_to b)) (length (bt_from b))) as [E|E]; cbn [guard bind]; [|discriminate].
    intros H. split; [congruence|]. split; [eapply scatter_length; eauto|]. intros t.
    rewrite (scatter_last _ _ _ t H). unfold lsrc.
    replace (combine (bt_to b) (map Z.of_nat (bt_from b))) with (map (fun kv => (fst kv, Z.of_nat (snd kv))) (combine (bt_to b) (bt_from b))).
    - rewrite last_assoc_map. now destruct (last_assoc t _).
    - clear. generalize (bt_from b). induction (bt_to b) as [|a l IH]; intros [|c l']; cbn [combine map fst snd]; [reflexivity..|now rewrite IH].
  Qed.
  Lemma assign_from_total (full : list Z) (b : batch) : length (bt_from b) = length (bt_to b) ->
    Forall (fun t => t < length full) (bt_to b) -> exists full', assign_from full b = Ok full'.
  Proof.
    intros Hl Hf. unfold assign_from. rewrite (proj2 (Nat.eqb_eq _ _)) by congruence. cbn [guard bind].
    apply scatter_ok_range. apply Forall_forall. intros (i, z) Hin. apply in_combine_l in Hin. rewrite Forall_forall in Hf. now apply Hf.
  Qed.

  Lemma presence_nth full t z : nth_error full t = Some z ->
    nth_error (presence full) t = Some (if Z.eqb z (-1) then (false, 0) else (true, Z.to_nat z)).
  Proof. intros H. unfold presence. rewrite nth_error_map, H. reflexivity. Qed.

  (** Batch by batch *)
  Lemma batch_contribution_ok eager from tg ary b : on_discr from ary -> batch_ok rmat rpick from tg b ->
    exists o, batch_contribution R rmat rpick eager from (dg_nel tg) (dg_ndof tg) ary b = Ok o /\      match o with
      | Some rows => length rows = dg_nel tg /\ forall t row, nth_error rows t = Some row ->
                       contributes from ary (dg_ndof tg) t b row /\ length row = dg_ndof tg
      | None => forall t, t < dg_nel tg -> contributes from ary (dg_ndof tg) t b (zeros (dg_ndof tg)) end.
  Proof.
    intros Hary (Hl & Hto & g & Hg & Hfrom & Hop). unfold batch_contribution.
    destruct (Nat.eqb_spec (length (bt_from b)) 0) as [E|E].
    - eexists. split; [reflexivity|]. intros t _. right. split; [|reflexivity].
      rewrite Hl in E. destruct (bt_to b); [intros []|discriminate].
    - rewrite (proj2 (get_ok _ _ _) Hg). cbn [bind]. unfold global_from.
      destruct (assign_from_total (repeat (-1)%Z (dg_nel tg)) b Hl) as (full & Hfull); [now rewrite repeat_length|].
      rewrite Hfull. cbn [bind]. destruct (on_discr_get _ _ _ _ Hary Hg) as (src & Hsrc & Hsl & Hrows).
      rewrite (proj2 (get_ok _ _ _) Hsrc). cbn [bind].
      apply assign_from_spec in Hfull. destruct Hfull as (_ & Hfl & Hfull). rewrite repeat_length in Hfl.
      set (op := fun x => match rpick (dg_kind g) (bt_nodes b) with Some pl => take x pl | None => Ok (matvec (rmat (dg_kind g) (bt_nodes b)) x) end).
      assert (Hel : forall s, s < dg_nel g -> exists x v, nth_error src s = Some x /\ op x = Ok v /\ length v = dg_ndof tg /\         match rpick (dg_kind g) (bt_nodes b) with
         | Some ix => Forall2 (fun i v => nth_error x i = Some v) ix v
         | None => v = matvec (rmat (dg_kind g) (bt_nodes b)) x end).
      { intros s Hs. destruct (nth_error src s) as [x|] eqn:Ex; [|apply nth_error_None in Ex; lia].
        assert (Hx : length x = dg_ndof g) by (rewrite Forall_forall in Hrows; apply Hrows; eapply nth_error_In; eauto).
        destruct (op_ok b g tg x Hx Hop) as (v & Hv & Hvl & Hvs). exists x, v. auto. }
      assert (H0 : 0 < dg_nel g).
      { destruct (bt_from b) as [|s l]; [now elim E|]. apply Forall_cons_iff in Hfrom. lia. }
      assert (Hrow : forall t pf, nth_error (presence full) t = Some pf -> exists row, element_values R eager (dg_ndof tg) src op pf = Ok row /\         contributes from ary (dg_ndof tg) t b row /\ length row = dg_ndof tg).
      { intros t pf Hpf. unfold presence in Hpf. rewrite nth_error_map in Hpf. destruct (nth_error full t) as [z|] eqn:Hz; [|discriminate].
        cbn [option_map] in Hpf. injection Hpf as <-. pose proof Hz as Hz'. rewrite Hfull in Hz'.
        destruct (lsrc b t) as [s|] eqn:Es.
        - injection Hz' as <-. replace (Z.eqb (Z.of_nat s) (-1)) with false by (symmetry; apply Z.eqb_neq; lia). rewrite Nat2Z.id.
          assert (Hs : s < dg_nel g).
          { unfold lsrc in Es. apply last_assoc_Some in Es. destruct Es as (j & Hj & _). apply nth_error_In, in_combine_r in Hj. rewrite Forall_forall in Hfrom. now apply Hfrom. }
          destruct (Hel s Hs) as (x & v & Hx & Hv & Hvl & Hvs). exists v.
          assert (Hc : contributes from ary (dg_ndof tg) t b v).
          { left. exists g, s, src, x. split; [exact Hg|]. split; [now apply assigns_lsrc|]. auto. }
          unfold element_values. cbn [fst snd]. rewrite (proj2 (get_ok _ _ _) Hx). cbn [bind]. rewrite Hv. cbn [bind].
          destruct eager; auto.
        - assert (z = (-1)%Z). { destruct (nth_error (repeat (-1)%Z (dg_nel tg)) t) eqn:Er; [|discriminate]. apply nth_error_In, repeat_spec in Er. congruence. }
          subst z. rewrite Z.eqb_refl. exists (zeros (dg_ndof tg)).
          assert (Hc : contributes from ary (dg_ndof tg) t b (zeros (dg_ndof tg))).
          { right. split; [|reflexivity]. now apply lsrc_None. }
          unfold element_values. cbn [fst snd]. destruct eager.
          + destruct (Hel 0 H0) as (x & v & Hx & Hv & Hvl & Hvs). rewrite (proj2 (get_ok _ _ _) Hx). cbn [bind]. rewrite Hv. cbn [bind].
            split; [reflexivity|]. split; [exact Hc|]. apply zeros_length.
          + split; [reflexivity|]. split; [exact Hc|]. apply zeros_length. }
      destruct (mapM_total (element_values R eager (dg_ndof tg) src op) (presence full)) as (rows & Hrows').
      { intros pf Hin. apply In_nth_error in Hin. destruct Hin as (t & Ht). destruct (Hrow t pf Ht) as (row & Hr & _). eauto. }
      rewrite Hrows'. cbn [bind]. eexists. split; [reflexivity|].
      apply mapM_ok in Hrows'. split.
      + apply Forall2_length' in Hrows'. unfold presence in Hrows'. rewrite map_length in Hrows'. congruence.
      + intros t row Ht. destruct (Forall2_nth_error_r _ _ _ _ _ Hrows' Ht) as (pf & Hpf & Hv).
        destruct (Hrow t pf Hpf) as (row' & Hr & Hc). assert (row = row') by congruence. now subst.
  Qed.

  Lemma contributes_length from tg ary t b c : batch_ok rmat rpick from tg b -> contributes from ary (dg_ndof tg) t b c -> length c = dg_ndof tg.
  Proof.
    intros (Hl & Hto & g & Hg & Hfrom & Hop) [(g' & s & src & x & Hg' & _ & _ & _ & H)|(_ & ->)]; [|apply zeros_length].
    assert (g' = g) by congruence. subst g'. destruct (rpick (dg_kind g) (bt_nodes b)).
    - apply Forall2_length' in H. destruct Hop. congruence.
    - subst c. rewrite matvec_length. apply Hop.
  Qed.
  Lemma contributes_total from tg ary t b : on_discr from ary -> batch_ok rmat rpick from tg b -> t < dg_nel tg ->
    exists c, contributes from ary (dg_ndof tg) t b c.
  Proof.
    intros Hary Hb Ht. destruct (batch_contribution_ok true _ _ _ _ Hary Hb) as (o & _ & Ho).
    destruct o as [rows|]; [|eauto]. destruct Ho as (Hl & Ho). destruct (nth_error rows t) as [row|] eqn:E; [|apply nth_error_None in E; lia].
    exists row. now apply Ho.
  Qed.
  Lemma contributes_total_list from tg ary t bs : on_discr from ary -> Forall (batch_ok rmat rpick from tg) bs -> t < dg_nel tg ->
    exists cs, Forall2 (contributes from ary (dg_ndof tg) t) bs cs.
  Proof.
    intros Hary Hb Ht. induction Hb as [|b bs Hb _ IH]; [exists []; constructor|].
    destruct IH as (cs & IH). destruct (contributes_total _ _ _ t _ Hary Hb Ht) as (c & Hc). exists (c :: cs). now constructor.
  Qed.

  (** ** Merged batches *)
  Lemma list_eqb_eq a b : list_eqb a b = true <-> a = b.
  Proof. unfold list_eqb. destruct (list_eq_dec Nat.eq_dec a b); split; congruence. Qed.
  Lemma uniq_In x l : In x (uniq l) <-> In x l.
  Proof.
    induction l as [|y l IH]; [reflexivity|]. cbn [uniq In]. rewrite filter_In, IH.
    destruct (list_eqb y x) eqn:E; cbn [negb].
    - apply list_eqb_eq in E. subst. tauto.
    - split; [tauto|]. intros [H|H]; tauto.
  Qed.
  Lemma uniq_NoDup l : NoDup (uniq l).
  Proof.
    induction l as [|x l IH]; [constructor|]. cbn [uniq]. constructor; [|now apply NoDup_filter].
    rewrite filter_In. intros (_ & H). apply negb_true_iff in H. rewrite (proj2 (list_eqb_eq x x) eq_refl) in H. discriminate.
  Qed.
  Lemma index_of_list_ok l x : In x l -> exists w, index_of_list l x = Ok w /\ nth_error l w = Some x.
  Proof.
    intros Hin. unfold index_of_list. destruct (find _ (enumerate l)) as [(i, y)|] eqn:E.
    - apply find_some in E. destruct E as (E & Hy). cbn [snd] in Hy. apply list_eqb_eq in Hy. subst y. exists i. split; [reflexivity|].
      now apply In_enumerate in E.
    - exfalso. apply In_nth_error in Hin. destruct Hin as (i & Hi). assert (Hie : In (i, x) (enumerate l)) by now apply In_enumerate.
      pose proof (find_none _ _ E _ Hie) as Hf. cbn [snd] in Hf. rewrite (proj2 (list_eqb_eq x x) eq_refl) in Hf. discriminate.
  Qed.

  (** State of the merging loop after the batches [pre] *)
  Definition minv (lists : list (list nat)) (nel : nat) (pre : list (batch * list nat)) (full : list Z) (which : list nat) : Prop :=
    length full = nel /\ length which = nel /\ Forall (fun w => w < length lists) which /\
    forall t z w, nth_error full t = Some z -> nth_error which t = Some w ->
      (z = (-1)%Z /\ Forall (fun bp => ~ In t (bt_to (fst bp))) pre) \/
      (exists p1 b pl p2 s, pre = p1 ++ (b, pl) :: p2 /\ Forall (fun bp => ~ In t (bt_to (fst bp))) (p1 ++ p2) /\
         lsrc b t = Some s /\ z = Z.of_nat s /\ nth_error lists w = Some pl).

  Lemma merge_loop (lists : list (list nat)) nel (bps pre : list (batch * list nat)) full which :
    minv lists nel pre full which ->
    Forall (fun bp => length (bt_from (fst bp)) = length (bt_to (fst bp)) /\ Forall (fun t => t < nel) (bt_to (fst bp)) /\ In (snd bp) lists) bps ->
    exists st, foldM (fun (st : option (list Z * list nat)) bp =>
            match st with
            | None => Ok None
            | Some (full, which) =>
                cur <- take full (bt_to (fst bp)) ;;
                if existsb (fun z => negb (Z.eqb z (-1))) cur then Ok None
                else
                  full' <- assign_from full (fst bp) ;;
                  w <- index_of_list lists (snd bp) ;;
                  which' <- scatter which (map (fun t => (t, w)) (bt_to (fst bp))) ;;
                  Ok (Some (full', which'))
            end) bps (Some (full, which)) = Ok st /\
      match st with None => True | Some (full', which') => minv lists nel (pre ++ bps) full' which' end.
  Proof.
    intros Hinv Hb. revert pre full which Hinv. induction Hb as [|(b, pl) bps (Hl & Hto & Hpl) Hb IH]; intros pre full which Hinv.
    - eexists. split; [reflexivity|]. now rewrite app_nil_r.
    - cbn [fst snd] in Hl, Hto, Hpl. cbn [foldM fst snd]. destruct Hinv as (Hfl & Hwl & Hwr & Hinv).
      destruct (take_total' full (bt_to b) nel Hto Hfl) as (cur & Hcur). rewrite Hcur. cbn [bind].
      destruct (existsb (fun z => negb (Z.eqb z (-1))) cur) eqn:Eo.
      + cbn [bind]. assert (Hnone : forall l : list (batch * list nat), foldM (fun (st : option (list Z * list nat)) bp =>
            match st with
            | None => Ok None
            | Some (full, which) =>
                cur <- take full (bt_to (fst bp)) ;;
                if existsb (fun z => negb (Z.eqb z (-1))) cur then Ok None
                else
                  full' <- assign_from full (fst bp) ;;
                  w <- index_of_list lists (snd bp) ;;
                  which' <- scatter which (map (fun t => (t, w)) (bt_to (fst bp))) ;;
                  Ok (Some (full', which'))
            end) l None = Ok None).
        { induction l as [|x l IHl]; [reflexivity|]. cbn [foldM]. cbn [bind]. exact IHl. }
        exists None. split; [apply Hnone|exact I].
      + destruct (assign_from_total full b Hl) as (full' & Hfull'); [now rewrite Hfl|]. rewrite Hfull'. cbn [bind].
        destruct (index_of_list_ok lists pl Hpl) as (w & Hw & Hwn). rewrite Hw. cbn [bind].
        destruct (proj2 (scatter_ok_range (map (fun t => (t, w)) (bt_to b)) which)) as (which' & Hwhich').
        { apply Forall_forall. intros (i, v) Hin. apply in_map_iff in Hin. destruct Hin as (t & Ht & Hin). injection Ht as -> ->. cbn [fst].
          rewrite Hwl. rewrite Forall_forall in Hto. now apply Hto. }
        rewrite Hwhich'. cbn [bind].
        destruct (IH (pre ++ [(b, pl)]) full' which') as (st & Hst & Hres).
        { apply assign_from_spec in Hfull'. destruct Hfull' as (_ & Hfl' & Hf').
          pose proof (scatter_length _ _ _ Hwhich') as Hwl'. split; [congruence|]. split; [congruence|].
          assert (Hwn' : forall t, nth_error which' t = if existsb (Nat.eqb t) (bt_to b) then Some w else nth_error which t).
          { intros t. rewrite (scatter_last _ _ _ t Hwhich').
            replace (last_assoc t (map (fun t => (t, w)) (bt_to b))) with (if existsb (Nat.eqb t) (bt_to b) then Some w else None).
            - now destruct (existsb (Nat.eqb t) (bt_to b)).
            - clear. induction (bt_to b) as [|a l IHl]; [reflexivity|]. cbn [map last_assoc existsb]. rewrite <- IHl.
              rewrite (Nat.eqb_sym a t). destruct (existsb (Nat.eqb t) l); destruct (t =? a); reflexivity. }
          split.
          { apply Forall_forall. intros v Hv. apply In_nth_error in Hv. destruct Hv as (t & Hv). rewrite Hwn' in Hv.
            destruct (existsb (Nat.eqb t) (bt_to b)).
            - injection Hv as <-. apply nth_error_Some. congruence.
            - rewrite Forall_forall in Hwr. apply Hwr. eapply nth_error_In; eauto. }
          intros t z v Hz Hv. rewrite Hf' in Hz. rewrite Hwn' in Hv.
          destruct (lsrc b t) as [s|] eqn:Es.
          - right. injection Hz as <-.
            assert (Hin : In t (bt_to b)).
            { unfold lsrc in Es. apply last_assoc_Some in Es. destruct Es as (j & Hj & _). now apply nth_error_In, in_combine_l in Hj. }
            assert (Ht : existsb (Nat.eqb t) (bt_to b) = true) by (apply existsb_exists; exists t; split; [exact Hin|apply Nat.eqb_refl]).
            rewrite Ht in Hv. injection Hv as <-. exists pre, b, pl, [], s. split; [reflexivity|]. split.
            + rewrite app_nil_r.
              (* the entry was -1 before *)
              apply In_nth_error in Hin. destruct Hin as (j & Hj). apply take_ok in Hcur.
              destruct (Forall2_nth_error _ _ _ _ _ Hcur Hj) as (z0 & Hz0 & Hz0t).
              assert (Hz1 : z0 = (-1)%Z).
              { apply nth_error_In in Hz0. destruct (Z.eqb_spec z0 (-1)) as [E|E]; [exact E|].
                assert (Ht' : existsb (fun z => negb (Z.eqb z (-1))) cur = true) by (apply existsb_exists; exists z0; split; [exact Hz0|now apply negb_true_iff, Z.eqb_neq]).
                congruence. }
              subst z0. destruct (nth_error which t) as [w0|] eqn:Ew0.
              * destruct (Hinv t _ _ Hz0t Ew0) as [(_ & Hn)|(p1 & b1 & pl1 & p2 & s1 & _ & _ & _ & Hs1 & _)]; [exact Hn|lia].
              * apply nth_error_None in Ew0. assert (t < length full) by (apply nth_error_Some; congruence). lia.
            + auto.
          - assert (Hnin : ~ In t (bt_to b)) by now apply lsrc_None.
            assert (Ht : existsb (Nat.eqb t) (bt_to b) = false).
            { destruct (existsb (Nat.eqb t) (bt_to b)) eqn:E; [|reflexivity]. apply existsb_exists in E. destruct E as (a & Ha & Ea). apply Nat.eqb_eq in Ea. congruence. }
            rewrite Ht in Hv. destruct (Hinv t z v Hz Hv) as [(Hz1 & Hn)|(p1 & b1 & pl1 & p2 & s1 & Hp & Hn & Hs1)].
            + left. split; [exact Hz1|]. apply Forall_app. split; [exact Hn|]. constructor; [exact Hnin|constructor].
            + right. exists p1, b1, pl1, (p2 ++ [(b, pl)]), s1. split; [rewrite Hp, <- app_assoc; reflexivity|]. split; [|exact Hs1].
              rewrite app_assoc. apply Forall_app. split; [exact Hn|]. constructor; [exact Hnin|constructor]. }
        exists st. split; [exact Hst|]. destruct st as [(f, wh)|]; [|exact I]. rewrite <- app_assoc in Hres. exact Hres.
  Qed.

  Lemma absent_zeros from ary nd t (l : list batch) : Forall (fun b => ~ In t (bt_to b)) l ->
    Forall2 (contributes from ary nd t) l (map (fun _ => zeros nd) l).
  Proof. induction 1 as [|b l Hb _ IH]; cbn [map]; constructor; [right; auto|exact IH]. Qed.
  Lemma vsum_zeros {X} nd (l : list X) : vsum nd (map (fun _ => zeros (R := R) nd) l) = zeros nd.
  Proof. induction l as [|x l IH]; [reflexivity|]. cbn [map]. rewrite vsum_cons, IH. apply vadd_zeros, zeros_length. Qed.

  (** The sum of the contributions of batches [bs] *)
  Definition sums from ary nd (bs : list batch) (t : nat) (row : list R) : Prop :=
    exists cs, Forall2 (contributes from ary nd t) bs cs /\ row = vsum nd cs.

  Lemma sums_single from ary nd t l1 b l2 c : length c = nd -> Forall (fun b => ~ In t (bt_to b)) (l1 ++ l2) -> contributes from ary nd t b c ->
    sums from ary nd (l1 ++ b :: l2) t c.
  Proof.
    intros Hc Hn Hb. apply Forall_app in Hn. destruct Hn as (H1 & H2).
    exists (map (fun _ => zeros nd) l1 ++ c :: map (fun _ => zeros nd) l2). split.
    - apply Forall2_app; [now apply absent_zeros|]. constructor; [exact Hb|now apply absent_zeros].
    - assert (Hz : forall l : list batch, Forall (fun c => length c = nd) (map (fun _ => zeros (R := R) nd) l)).
      { intros l. apply Forall_forall. intros x Hx. apply in_map_iff in Hx. destruct Hx as (_ & <- & _). apply zeros_length. }
      rewrite vsum_app; [|apply Hz|constructor; [exact Hc|apply Hz]]. rewrite vsum_cons, !vsum_zeros.
      rewrite vadd_zeros by assumption. symmetry. now apply vadd_zeros_l.
  Qed.
  Lemma sums_absent from ary nd t bs : Forall (fun b => ~ In t (bt_to b)) bs -> sums from ary nd bs t (zeros nd).
  Proof. intros H. exists (map (fun _ => zeros nd) bs). split; [now apply absent_zeros|]. symmetry. apply vsum_zeros. Qed.

  Lemma merge_source_ok eager from tg ary g gr (bps : list (batch * list nat)) :
    on_discr from ary -> nth_error from g = Some gr ->
    Forall (fun bp => bt_fgrp (fst bp) = g /\ batch_ok rmat rpick from tg (fst bp) /\ rpick (dg_kind gr) (bt_nodes (fst bp)) = Some (snd bp)) bps ->
    bps <> [] -> length (uniq (map snd bps)) <= 128 ->
    exists o, merge_source (dg_nel tg) g bps = Ok o /\
      match o with
      | None => True
      | Some pd => exists o', merged_contribution R eager (dg_ndof tg) ary pd = Ok o' /\
          match o' with
          | Some rows => length rows = dg_nel tg /\ forall t row, nth_error rows t = Some row ->
                           sums from ary (dg_ndof tg) (map fst bps) t row /\ length row = dg_ndof tg
          | None => forall t, t < dg_nel tg -> sums from ary (dg_ndof tg) (map fst bps) t (zeros (dg_ndof tg)) end end.
  Proof.
    intros Hary Hg Hb Hne H128. unfold merge_source.
    replace (length (uniq (map snd bps)) - 1 <=? 127) with true by (symmetry; apply Nat.leb_le; lia). cbn [guard bind].
    set (lists := uniq (map snd bps)) in *.
    assert (Hlists : 0 < length lists).
    { destruct bps as [|bp bps]; [now elim Hne|]. unfold lists. cbn [map uniq length]. lia. }
    assert (Hlr : forall w pl, nth_error lists w = Some pl -> length pl = dg_ndof tg /\ Forall (fun i => i < dg_ndof gr) pl).
    { intros w pl Hw. apply nth_error_In in Hw. unfold lists in Hw. apply (proj1 (uniq_In _ _)), in_map_iff in Hw. destruct Hw as ((b, pl') & E & Hin).
      cbn [snd] in E. subst pl'. rewrite Forall_forall in Hb. destruct (Hb _ Hin) as (Hf & (_ & _ & g' & Hg' & _ & Hop) & Hp). cbn [fst snd] in *.
      rewrite Hf in Hg'. assert (g' = gr) by congruence. subst g'. rewrite Hp in Hop. exact Hop. }
    destruct (merge_loop lists (dg_nel tg) bps [] (repeat (-1)%Z (dg_nel tg)) (repeat 0 (dg_nel tg))) as (st & Hst & Hres).
    { split; [apply repeat_length|]. split; [apply repeat_length|]. split.
      - apply Forall_forall. intros w Hw. apply repeat_spec in Hw. subst. exact Hlists.
      - intros t z w Hz _. left. split; [|constructor]. apply nth_error_In, repeat_spec in Hz. exact Hz. }
    { apply Forall_forall. intros (b, pl) Hin. rewrite Forall_forall in Hb. destruct (Hb _ Hin) as (_ & (Hl & Hto & _) & _). cbn [fst snd] in *.
      split; [exact Hl|]. split; [exact Hto|]. apply uniq_In, in_map_iff. exists (b, pl). auto. }
    rewrite Hst. cbn [bind]. destruct st as [(full, which)|]; [|eexists; split; [reflexivity|exact I]].
    eexists. split; [reflexivity|]. cbn [app] in Hres. destruct Hres as (Hfl & Hwl & Hwr & Hinv).
    unfold merged_contribution. cbn [pd_fgrp pd_lists pd_which pd_from pd_surj].
    destruct (on_discr_get _ _ _ _ Hary Hg) as (src & Hsrc & Hsl & Hrows). rewrite (proj2 (get_ok _ _ _) Hsrc). cbn [bind].
    assert (Hcontr : forall t p1 b pl p2 s, bps = p1 ++ (b, pl) :: p2 -> lsrc b t = Some s ->
      exists x v, nth_error src s = Some x /\ take x pl = Ok v /\ length v = dg_ndof tg /\ contributes from ary (dg_ndof tg) t b v).
    { intros t p1 b pl p2 s Hbps Hs. assert (Hin : In (b, pl) bps) by (rewrite Hbps; apply in_or_app; right; now left).
      rewrite Forall_forall in Hb. destruct (Hb _ Hin) as (Hf & (Hl & _ & g' & Hg' & Hfrom & Hop) & Hp). cbn [fst snd] in *.
      rewrite Hf in Hg'. assert (g' = gr) by congruence. subst g'. rewrite Hp in Hop. destruct Hop as (Hpl & Hpr).
      assert (Hslt : s < dg_nel gr).
      { unfold lsrc in Hs. apply last_assoc_Some in Hs. destruct Hs as (j & Hj & _). apply nth_error_In, in_combine_r in Hj. rewrite Forall_forall in Hfrom. now apply Hfrom. }
      destruct (nth_error src s) as [x|] eqn:Ex; [|apply nth_error_None in Ex; lia].
      assert (Hx : length x = dg_ndof gr) by (rewrite Forall_forall in Hrows; apply Hrows; eapply nth_error_In; eauto).
      destruct (take_total' x pl _ Hpr Hx) as (v & Hv). exists x, v. split; [reflexivity|]. split; [exact Hv|]. apply take_ok in Hv.
      split; [rewrite <- Hpl; symmetry; eapply Forall2_length'; eauto|].
      left. exists gr, s, src, x. split; [now rewrite Hf|]. split; [now apply assigns_lsrc|]. split; [now rewrite Hf|]. split; [exact Ex|].
      rewrite Hp. exact Hv. }
    destruct (eager && (length (concat src) =? 0)) eqn:Esk.
    - eexists. split; [reflexivity|]. intros t Ht.
      apply andb_true_iff in Esk. destruct Esk as (_ & Esk). apply Nat.eqb_eq in Esk.
      destruct (nth_error full t) as [z|] eqn:Ez; [|apply nth_error_None in Ez; lia].
      destruct (nth_error which t) as [w|] eqn:Ew; [|apply nth_error_None in Ew; lia].
      destruct (Hinv t z w Ez Ew) as [(_ & Hn)|(p1 & b & pl & p2 & s & Hbps & Hn & Hs & _ & Hw)].
      + apply sums_absent. now apply Forall_map.
      + destruct (Hcontr t _ _ _ _ _ Hbps Hs) as (x & v & Hx & Hv & Hvl & Hc).
        assert (v = zeros (dg_ndof tg)).
        { assert (Hx0 : x = []).
          { apply nth_error_In in Hx. apply length_zero_iff_nil in Esk. destruct x as [|a x]; [reflexivity|].
            exfalso. assert (In a (concat src)) by (apply in_concat; exists (a :: x); split; [exact Hx|now left]). rewrite Esk in H. destruct H. }
          subst x. apply take_ok in Hv. destruct Hv as [|i a pl v Hi]; [|destruct i; discriminate].
          cbn [length] in Hvl. rewrite <- Hvl. reflexivity. }
        subst v. rewrite Hbps, map_app. cbn [map fst]. apply sums_single; [apply zeros_length| |exact Hc].
        rewrite <- map_app. now apply Forall_map.
    - match goal with |- context [mapM ?f ?l] => set (f' := f); set (l' := l) end.
      assert (Hrow : forall t wp, nth_error l' t = Some wp -> exists row, f' wp = Ok row /\
         sums from ary (dg_ndof tg) (map fst bps) t row /\ length row = dg_ndof tg).
      { intros t (w, pf) Hwp. unfold l' in Hwp. apply nth_error_combine_Some in Hwp. destruct Hwp as (Hw & Hpf).
        unfold presence in Hpf. rewrite nth_error_map in Hpf. destruct (nth_error full t) as [z|] eqn:Ez; [|discriminate].
        cbn [option_map] in Hpf. injection Hpf as <-. unfold f'. cbn [fst snd].
        destruct (Hinv t z w Ez Hw) as [(Hz & Hn)|(p1 & b & pl & p2 & s & Hbps & Hn & Hs & Hz & Hwn)].
        - subst z. rewrite Z.eqb_refl.
          replace (forallb (fun z => negb (Z.eqb z (-1))) full) with false.
          2:{ symmetry. destruct (forallb _ full) eqn:E; [|reflexivity]. rewrite forallb_forall in E. apply nth_error_In in Ez. apply E in Ez. discriminate. }
          exists (zeros (dg_ndof tg)). unfold element_values. cbn [fst snd]. split.
          + destruct eager; [|reflexivity]. cbn [andb] in Esk. apply Nat.eqb_neq in Esk.
            destruct src as [|x src]; [now elim Esk|].
            assert (Hx0 : get (x :: src) 0 = Ok x) by reflexivity. rewrite Hx0. cbn [bind].
            assert (Hwlt : w < length lists) by (rewrite Forall_forall in Hwr; apply Hwr; eapply nth_error_In; eauto).
            destruct (nth_error lists w) as [pl|] eqn:Epl; [|apply nth_error_None in Epl; lia].
            rewrite (proj2 (get_ok _ _ _) Epl). cbn [bind].
            destruct (Hlr _ _ Epl) as (_ & Hpr). apply Forall_cons_iff in Hrows. destruct Hrows as (Hx & _).
            destruct (take_total' x pl _ Hpr Hx) as (v & Hv). rewrite Hv. reflexivity.
          + split; [|apply zeros_length]. apply sums_absent. now apply Forall_map.
        - subst z. replace (Z.eqb (Z.of_nat s) (-1)) with false by (symmetry; apply Z.eqb_neq; lia). rewrite Nat2Z.id. cbn [snd].
          replace (if forallb (fun z => negb (Z.eqb z (-1))) full then (true, s) else (true, s)) with (true, s) by now destruct (forallb _ full).
          destruct (Hcontr t _ _ _ _ _ Hbps Hs) as (x & v & Hx & Hv & Hvl & Hc). exists v. unfold element_values. cbn [fst snd].
          rewrite (proj2 (get_ok _ _ _) Hx). cbn [bind]. rewrite (proj2 (get_ok _ _ _) Hwn). cbn [bind]. rewrite Hv. cbn [bind].
          split; [now destruct eager|]. split; [|exact Hvl].
          rewrite Hbps, map_app. cbn [map fst]. apply sums_single; [exact Hvl| |exact Hc]. rewrite <- map_app. now apply Forall_map. }
      destruct (mapM_total f' l') as (rows & Hrows').
      { intros wp Hin. apply In_nth_error in Hin. destruct Hin as (t & Ht). destruct (Hrow t wp Ht) as (row & Hr & _). eauto. }
      rewrite Hrows'. cbn [bind]. eexists. split; [reflexivity|]. apply mapM_ok in Hrows'. split.
      + apply Forall2_length' in Hrows'. rewrite <- Hrows'. unfold l', presence. rewrite combine_length, map_length. lia.
      + intros t row Ht. destruct (Forall2_nth_error_r _ _ _ _ _ Hrows' Ht) as (wp & Hwp & Hv).
        destruct (Hrow t wp Hwp) as (row' & Hr & Hc). assert (row = row') by congruence. now subst.
  Qed.

  (** ** Summation by source group *)
  Lemma vsum_nested nd (kvs : list (nat * list R)) srcs : NoDup srcs -> Forall (fun kv => In (fst kv) srcs) kvs -> Forall (fun kv => length (snd kv) = nd) kvs ->
    vsum nd (map (fun g => vsum nd (map snd (filter (fun kv => fst kv =? g) kvs))) srcs) = vsum nd (map snd kvs).
  Proof.
    intros Hnd. induction kvs as [|(k, v) kvs IH]; intros Hin Hlen.
    - cbn [filter map]. change (vsum nd []) with (zeros (R := R) nd). apply vsum_zeros.
    - apply Forall_cons_iff in Hin, Hlen. destruct Hin as (Hk & Hin), Hlen as (Hv & Hlen). cbn [fst snd] in Hk, Hv.
      cbn [map snd]. rewrite vsum_cons, <- (IH Hin Hlen). clear IH.
      assert (Hpart : forall g, length (vsum nd (map snd (filter (fun kv : nat * list R => fst kv =? g) kvs))) = nd).
      { intros g. apply vsum_length. apply Forall_map, Forall_forall. intros kv Hkv. apply filter_In in Hkv. rewrite Forall_forall in Hlen. now apply Hlen. }
      assert (Hall : forall l, length (vsum nd (map (fun g => vsum nd (map snd (filter (fun kv : nat * list R => fst kv =? g) kvs))) l)) = nd).
      { intros l. apply vsum_length, Forall_map, Forall_forall. intros g _. apply Hpart. }
      assert (Hno : forall l, ~ In k l -> vsum nd (map (fun g => vsum nd (map snd (filter (fun kv => fst kv =? g) ((k, v) :: kvs)))) l) =
                                    vsum nd (map (fun g => vsum nd (map snd (filter (fun kv : nat * list R => fst kv =? g) kvs))) l)).
      { induction l as [|g l IHl]; intros Hl; [reflexivity|]. cbn [map]. rewrite !vsum_cons, IHl by (intros H; apply Hl; now right).
        cbn [filter fst]. destruct (Nat.eqb_spec k g) as [->|Hne]; [elim Hl; now left|reflexivity]. }
      clear Hin Hlen. induction Hnd as [|g srcs Hg Hnd IHs]; [destruct Hk|]. cbn [map]. rewrite !vsum_cons.
      cbn [filter fst]. destruct (Nat.eqb_spec k g) as [->|Hne].
      + rewrite Hno by assumption. cbn [map snd]. rewrite vsum_cons. symmetry. apply vadd_assoc.
      + destruct Hk as [Hk|Hk]; [congruence|]. cbn [filter fst] in IHs. rewrite (IHs Hk).
        rewrite !vadd_assoc. f_equal. apply vadd_comm.
  Qed.

  Lemma sums_grouped from ary nd (bs : list batch) srcs t row :
    NoDup srcs -> Forall (fun b => length (bt_from b) = length (bt_to b) /\ In (bt_fgrp b) srcs) bs ->
    (exists cs, Forall2 (contributes from ary nd t) bs cs /\ Forall (fun c => length c = nd) cs) ->
    (exists es, Forall2 (fun g e => sums from ary nd (filter (fun b => bt_fgrp b =? g) bs) t e) srcs es /\ row = vsum nd es) ->
    sums from ary nd bs t row.
  Proof.
    intros Hnd Hb (cs & Hcs & Hcl) (es & Hes & ->). exists cs. split; [exact Hcs|].
    set (kvs := combine (map bt_fgrp bs) cs).
    assert (Hes' : es = map (fun g => vsum nd (map snd (filter (fun kv => fst kv =? g) kvs))) srcs).
    { clear Hnd. assert (Hb' : Forall (fun b => length (bt_from b) = length (bt_to b)) bs) by (eapply Forall_impl; [|exact Hb]; cbn; tauto).
      clear Hb. induction Hes as [|g e srcs es (ds & Hds & ->) Hes IH]; [reflexivity|]. cbn [map]. f_equal; [|exact IH]. f_equal. clear IH Hes.
      unfold kvs. clear kvs. revert Hb' ds Hds Hcl. induction Hcs as [|b c bs cs Hc Hcs IH]; intros Hb' ds Hds Hcl.
      - cbn [filter] in Hds. inversion Hds. reflexivity.
      - apply Forall_cons_iff in Hb', Hcl. destruct Hb' as (Hb & Hb'), Hcl as (_ & Hcl). cbn [filter] in Hds. cbn [map combine filter fst].
        destruct (bt_fgrp b =? g).
        + inversion Hds as [|? d ? ds' Hd Hds']; subst. cbn [map snd]. f_equal; [eapply contributes_fun; eauto|]. now apply IH.
        + now apply IH. }
    rewrite Hes'. unfold kvs. rewrite vsum_nested.
    - f_equal. clear -Hcs. induction Hcs as [|b c bs cs _ _ IH]; [reflexivity|]. cbn [map combine snd]. now rewrite IH.
    - exact Hnd.
    - clear -Hcs Hb. induction Hcs as [|b c bs cs _ _ IH]; cbn [map combine]; constructor; apply Forall_cons_iff in Hb; [apply Hb|apply IH, Hb].
    - clear -Hcs Hcl. induction Hcs as [|b c bs cs _ _ IH]; cbn [map combine]; constructor; apply Forall_cons_iff in Hcl; [apply Hcl|apply IH, Hcl].
  Qed.

  (** ** pick_info *)
  Lemma all_some_spec {X} (l : list (option X)) : match all_some l with Some xs => l = map Some xs | None => True end.
  Proof.
    induction l as [|[x|] l IH]; cbn [all_some]; [reflexivity| |exact I]. destruct (all_some l) as [xs|]; [|exact I]. cbn [map]. now rewrite IH.
  Qed.

  Lemma foldM_opt {X Y} (f : X -> res (option Y)) (l : list X) acc : Forall (fun x => exists o, f x = Ok o) l ->
    exists r, foldM (fun (acc : option (list Y)) x => match acc with
        | None => Ok None
        | Some ys => o <- f x ;; Ok (match o with Some y => Some (ys ++ [y]) | None => None end) end) l (Some acc) = Ok r /\
      match r with None => True | Some r => exists ys, r = acc ++ ys /\ Forall2 (fun x y => f x = Ok (Some y)) l ys end.
  Proof.
    intros H. revert acc. induction H as [|x l (o & Ho) H IH]; intros acc.
    - eexists. split; [reflexivity|]. exists []. split; [now rewrite app_nil_r|constructor].
    - cbn [foldM]. rewrite Ho. cbn [bind]. destruct o as [y|].
      + destruct (IH (acc ++ [y])) as (r & Hr & Hs). exists r. split; [exact Hr|]. destruct r as [r|]; [|exact I].
        destruct Hs as (ys & -> & Hys). exists (y :: ys). split; [now rewrite <- app_assoc|]. now constructor.
      + exists None. split; [|exact I]. clear. induction l as [|z l IHl]; [reflexivity|]. cbn [foldM]. cbn [bind]. exact IHl.
  Qed.

  Lemma filter_combine_fst {A B} (p : A -> bool) (l : list A) (l' : list B) : length l = length l' ->
    map fst (filter (fun ab => p (fst ab)) (combine l l')) = filter p l.
  Proof.
    revert l'. induction l as [|a l IH]; intros [|b l'] H; try discriminate; [reflexivity|]. cbn [combine filter fst].
    injection H as H. destruct (p a); cbn [map fst]; now rewrite IH.
  Qed.

  Lemma group_ok eager nomerge from tg ary (bs : list batch) :
    on_discr from ary -> Forall (batch_ok rmat rpick from tg) bs -> few_lists rpick from bs ->
    exists info, pick_info rpick from (dg_nel tg) bs = Ok info /\
    exists cs, match (if nomerge : bool then None else info) with
               | Some pds => mapM (merged_contribution R eager (dg_ndof tg) ary) pds
               | None => mapM (batch_contribution R rmat rpick eager from (dg_nel tg) (dg_ndof tg) ary) bs
               end = Ok cs /\
      length (total R (dg_nel tg) (dg_ndof tg) cs) = dg_nel tg /\
      forall t row, nth_error (total R (dg_nel tg) (dg_ndof tg) cs) t = Some row -> sums from ary (dg_ndof tg) bs t row.
  Proof.
    intros Hary Hb Hfew.
    assert (Hplain : exists cs, mapM (batch_contribution R rmat rpick eager from (dg_nel tg) (dg_ndof tg) ary) bs = Ok cs /\
      length (total R (dg_nel tg) (dg_ndof tg) cs) = dg_nel tg /\
      forall t row, nth_error (total R (dg_nel tg) (dg_ndof tg) cs) t = Some row -> sums from ary (dg_ndof tg) bs t row).
    { destruct (mapM_total (batch_contribution R rmat rpick eager from (dg_nel tg) (dg_ndof tg) ary) bs) as (cs & Hcs).
      { intros b Hin. rewrite Forall_forall in Hb. destruct (batch_contribution_ok eager _ _ _ _ Hary (Hb _ Hin)) as (o & Ho & _). eauto. }
      exists cs. split; [exact Hcs|]. apply mapM_ok in Hcs.
      destruct (total_spec (dg_nel tg) (dg_ndof tg) (fun b t c => contributes from ary (dg_ndof tg) t b c) bs cs) as (Hl & Hs).
      { clear Hfew. induction Hcs as [|b o bs cs Ho Hcs IH]; [constructor|]. apply Forall_cons_iff in Hb. destruct Hb as (Hb & Hbs). constructor; [|auto].
        destruct (batch_contribution_ok eager _ _ _ _ Hary Hb) as (o' & Ho' & Hspec). assert (o' = o) by congruence. now subst. }
      split; [exact Hl|]. intros t row Hr. destruct (Hs t row Hr) as (ds & Hds & ->). exists ds. split; [|reflexivity].
      eapply Forall2_impl; [|exact Hds]. cbn. tauto. }
    unfold pick_info.
    destruct (mapM_total (fun b => g <- get from (bt_fgrp b) ;; Ok (rpick (dg_kind g) (bt_nodes b))) bs) as (picks & Hpicks).
    { intros b Hin. rewrite Forall_forall in Hb. destruct (Hb _ Hin) as (_ & _ & g & Hg & _). rewrite (proj2 (get_ok _ _ _) Hg). cbn [bind]. eauto. }
    rewrite Hpicks. cbn [bind]. pose proof (all_some_spec picks) as Has. destruct (all_some picks) as [pls|].
    2:{ exists None. split; [reflexivity|]. destruct nomerge; exact Hplain. }
    destruct (unique (map bt_fgrp bs)) as [|s0 srcs'] eqn:Eu.
    { exists None. split; [reflexivity|]. destruct nomerge; exact Hplain. }
    set (srcs := s0 :: srcs') in *.
    apply mapM_ok in Hpicks. subst picks.
    assert (Hbp : Forall (fun bp => exists gr, nth_error from (bt_fgrp (fst bp)) = Some gr /\ batch_ok rmat rpick from tg (fst bp) /\ rpick (dg_kind gr) (bt_nodes (fst bp)) = Some (snd bp)) (combine bs pls)).
    { apply Forall_forall. intros (b, pl) Hin. apply In_nth_error in Hin. destruct Hin as (j & Hj). apply nth_error_combine_Some in Hj. destruct Hj as (Hbj & Hpj).
      cbn [fst snd].
      assert (Hpj' : nth_error (map Some pls) j = Some (Some pl)) by (rewrite nth_error_map, Hpj; reflexivity).
      destruct (Forall2_nth_error _ _ _ _ _ Hpicks Hbj) as (o & Ho & Hrun). rewrite Ho in Hpj'. injection Hpj' as ->.
      destruct (get from (bt_fgrp b)) as [gr|] eqn:Eg; [|discriminate]. cbn [bind] in Hrun. injection Hrun as Hrun. apply get_ok in Eg.
      exists gr. split; [exact Eg|]. split; [|exact Hrun]. rewrite Forall_forall in Hb. apply Hb. eapply nth_error_In; eauto. }
    assert (Hlen : length bs = length pls).
    { apply Forall2_length' in Hpicks. rewrite map_length in Hpicks. exact Hpicks. }
    set (part := fun g => filter (fun bp : batch * list nat => bt_fgrp (fst bp) =? g) (combine bs pls)).
    assert (Hmerge : forall g, In g srcs -> exists o, merge_source (dg_nel tg) g (part g) = Ok o /\
      match o with
      | None => True
      | Some pd => exists o', merged_contribution R eager (dg_ndof tg) ary pd = Ok o' /\
          match o' with
          | Some rows => length rows = dg_nel tg /\ forall t row, nth_error rows t = Some row ->
                           sums from ary (dg_ndof tg) (filter (fun b => bt_fgrp b =? g) bs) t row /\ length row = dg_ndof tg
          | None => forall t, t < dg_nel tg -> sums from ary (dg_ndof tg) (filter (fun b => bt_fgrp b =? g) bs) t (zeros (dg_ndof tg)) end end).
    { intros g Hg. rewrite <- Eu in Hg. apply (proj1 (unique_In _ _)), in_map_iff in Hg. destruct Hg as (b & Hbg & Hinb).
      pose proof Hb as Hb2. rewrite Forall_forall in Hb2. destruct (Hb2 _ Hinb) as (_ & _ & gr & Hgr & _). rewrite Hbg in Hgr.
      assert (Hpart : Forall (fun bp => bt_fgrp (fst bp) = g /\ batch_ok rmat rpick from tg (fst bp) /\ rpick (dg_kind gr) (bt_nodes (fst bp)) = Some (snd bp)) (part g)).
      { apply Forall_forall. intros bp Hin. apply filter_In in Hin. destruct Hin as (Hin & Hf). apply Nat.eqb_eq in Hf.
        rewrite Forall_forall in Hbp. destruct (Hbp _ Hin) as (gr' & Hgr' & Hok & Hp). rewrite Hf in Hgr'. assert (gr' = gr) by congruence. subst gr'. auto. }
      assert (Hfst : map fst (part g) = filter (fun b => bt_fgrp b =? g) bs) by (apply (filter_combine_fst (fun b => bt_fgrp b =? g)); exact Hlen).
      rewrite <- Hfst. apply merge_source_ok with (gr := gr); [exact Hary|exact Hgr|exact Hpart| |].
      - intros E. rewrite E in Hfst. cbn [map] in Hfst. assert (Hin : In b (filter (fun b => bt_fgrp b =? g) bs)) by (apply filter_In; split; [exact Hinb|now apply Nat.eqb_eq]).
        rewrite <- Hfst in Hin. destruct Hin.
      - destruct (Hfew g) as (L & HL & Hincl). etransitivity; [|exact HL]. apply NoDup_incl_length; [apply uniq_NoDup|].
        intros pl Hpl. apply (proj1 (uniq_In _ _)), in_map_iff in Hpl. destruct Hpl as ((b', pl') & E & Hin). cbn [snd] in E. subst pl'.
        rewrite Forall_forall in Hpart. destruct (Hpart _ Hin) as (Hf & _ & Hp). cbn [fst snd] in *.
        apply (Hincl b' gr pl); [|exact Hf|exact Hgr|exact Hp]. apply filter_In in Hin. destruct Hin as (Hin & _). now apply in_combine_l in Hin. }
    destruct (foldM_opt (fun g => merge_source (dg_nel tg) g (part g)) srcs []) as (r & Hr & Hspec).
    { apply Forall_forall. intros g Hg. destruct (Hmerge g Hg) as (o & Ho & _). eauto. }
    exists r. split; [exact Hr|]. destruct nomerge; [exact Hplain|]. destruct r as [pds|]; [|exact Hplain].
    destruct Hspec as (pds' & -> & Hpds). cbn [app].
    assert (Hcs : exists cs, mapM (merged_contribution R eager (dg_ndof tg) ary) pds' = Ok cs /\
      Forall2 (fun g o' => match o' with
          | Some rows => length rows = dg_nel tg /\ forall t row, nth_error rows t = Some row ->
                           sums from ary (dg_ndof tg) (filter (fun b => bt_fgrp b =? g) bs) t row /\ length row = dg_ndof tg
          | None => forall t, t < dg_nel tg -> sums from ary (dg_ndof tg) (filter (fun b => bt_fgrp b =? g) bs) t (zeros (dg_ndof tg)) end) srcs cs).
    { clear Hr Eu. induction Hpds as [|g pd gs pds Hpd Hpds IH]; [exists []; split; [reflexivity|constructor]|].
      destruct IH as (cs & Hcs & Hf); [intros g' Hg'; apply Hmerge; now right|].
      destruct (Hmerge g) as (o & Ho & Hs); [now left|]. assert (o = Some pd) by congruence. subst o. destruct Hs as (o' & Ho' & Hs).
      exists (o' :: cs). split; [cbn [mapM]; rewrite Ho'; cbn [bind]; rewrite Hcs; reflexivity|]. now constructor. }
    destruct Hcs as (cs & Hcs & Hf). exists cs. split; [exact Hcs|].
    destruct (total_spec (dg_nel tg) (dg_ndof tg) (fun g t c => sums from ary (dg_ndof tg) (filter (fun b => bt_fgrp b =? g) bs) t c) srcs cs Hf) as (Hl & Hs).
    split; [exact Hl|]. intros t row Hrow.
    assert (Ht : t < dg_nel tg) by (rewrite <- Hl; apply nth_error_Some; congruence).
    apply sums_grouped with (srcs := srcs).
    - rewrite <- Eu. apply incr_NoDup, unique_incr.
    - apply Forall_forall. intros b Hin. rewrite Forall_forall in Hb. split; [apply Hb; exact Hin|]. rewrite <- Eu. apply unique_In, in_map_iff. eauto.
    - destruct (contributes_total_list _ _ _ t _ Hary Hb Ht) as (ds & Hds). exists ds. split; [exact Hds|].
      clear -Hds Hb. induction Hds as [|b d bs ds Hd Hds IH]; [constructor|]. apply Forall_cons_iff in Hb. destruct Hb as (Hb & Hbs). constructor; [eapply contributes_length; eauto|auto].
    - destruct (Hs t row Hrow) as (es & Hes & ->). exists es. split; [|reflexivity]. eapply Forall2_impl; [|exact Hes]. cbn. tauto.
  Qed.

  (** ** __call__ *)
  Lemma has_shape_iff (gs : list dgroup) (ary : list (list (list R))) : has_shape R gs ary = true <-> on_discr gs ary.
  Proof.
    unfold has_shape, on_discr. rewrite andb_true_iff, Nat.eqb_eq. revert ary. induction gs as [|g gs IH]; intros [|rows ary].
    - split; [constructor|]. split; reflexivity.
    - split; [intros (H & _); discriminate|intros H; inversion H].
    - split; [intros (H & _); discriminate|intros H; inversion H].
    - cbn [length combine forallb fst snd]. specialize (IH ary). split.
      + intros (Hl & H). apply andb_true_iff in H. destruct H as (H & Hr). apply andb_true_iff in H. destruct H as (H1 & H2).
        constructor; [|apply IH; split; [congruence|exact Hr]]. apply Nat.eqb_eq in H1. split; [exact H1|].
        apply Forall_forall. intros row Hin. rewrite forallb_forall in H2. now apply Nat.eqb_eq, H2.
      + intros H. inversion H as [|? ? ? ? (H1 & H2) Hr]; subst. apply IH in Hr. destruct Hr as (Hl & Hr). split; [congruence|].
        apply andb_true_iff. split; [|exact Hr]. apply andb_true_iff. split; [now apply Nat.eqb_eq|].
        apply forallb_forall. intros row Hin. apply Nat.eqb_eq. rewrite Forall_forall in H2. now apply H2.
  Qed.

  Lemma call_ok eager nomerge (c : conn) ary : conn_ok rmat rpick c -> on_discr (cn_from c) ary ->
    exists r, call R rmat rpick eager nomerge c ary = Ok r /\ transports rmat rpick c ary r.
  Proof.
    intros Hc Hary. unfold call. rewrite (proj2 (has_shape_iff _ _) Hary). cbn [guard bind].
    assert (Hgrp : forall i bs, nth_error (cn_groups c) i = Some bs -> exists tg, nth_error (cn_to c) i = Some tg /\
       Forall (batch_ok rmat rpick (cn_from c) tg) bs /\ few_lists rpick (cn_from c) bs).
    { intros i bs Hi. destruct (Forall2_nth_error_r _ _ _ _ _ Hc Hi) as (tg & Htg & H). eauto. }
    match goal with |- context [mapM ?f (enumerate (cn_groups c))] => set (f1 := f) end.
    destruct (mapM_total f1 (enumerate (cn_groups c))) as (infos & Hinfos).
    { intros (i, bs) Hin. apply (proj1 (In_enumerate _ _ _)) in Hin. destruct (Hgrp i bs Hin) as (tg & Htg & Hb & Hf). unfold f1. cbn [fst snd].
      rewrite (proj2 (get_ok _ _ _) Htg). cbn [bind]. destruct (group_ok eager nomerge _ tg ary bs Hary Hb Hf) as (info & Hi & _). eauto. }
    rewrite Hinfos. cbn [bind]. apply mapM_ok in Hinfos.
    match goal with |- context [mapM ?f (enumerate (combine _ _))] => set (f2 := f) end.
    assert (Hstep : forall i bs info, nth_error (cn_groups c) i = Some bs -> nth_error infos i = Some info ->
      exists rows tg, f2 (i, (bs, info)) = Ok rows /\ nth_error (cn_to c) i = Some tg /\ length rows = dg_nel tg /\
        forall t row, nth_error rows t = Some row -> sums (cn_from c) ary (dg_ndof tg) bs t row).
    { intros i bs info Hi Hinfo. destruct (Hgrp i bs Hi) as (tg & Htg & Hb & Hf).
      destruct (group_ok eager nomerge _ tg ary bs Hary Hb Hf) as (info' & Hi' & cs & Hcs & Hl & Hs).
      assert (info' = info).
      { assert (Hie : nth_error (enumerate (cn_groups c)) i = Some (i, bs)) by (rewrite nth_error_enumerate, Hi; reflexivity).
        destruct (Forall2_nth_error _ _ _ _ _ Hinfos Hie) as (info2 & Hinfo2 & Hrun). unfold f1 in Hrun. cbn [fst snd] in Hrun.
        rewrite (proj2 (get_ok _ _ _) Htg) in Hrun. cbn [bind] in Hrun. congruence. }
      subst info'. exists (total R (dg_nel tg) (dg_ndof tg) cs), tg. unfold f2. rewrite (proj2 (get_ok _ _ _) Htg). cbn [bind]. rewrite Hcs. cbn [bind]. auto. }
    destruct (mapM_total f2 (enumerate (combine (cn_groups c) infos))) as (r & Hr).
    { intros (i, (bs, info)) Hin. apply (proj1 (In_enumerate _ _ _)), nth_error_combine_Some in Hin. destruct Hin as (Hi & Hinfo).
      destruct (Hstep i bs info Hi Hinfo) as (rows & tg & H & _). eauto. }
    exists r. split; [exact Hr|]. apply mapM_ok in Hr. unfold transports.
    pose proof (Forall2_length' _ _ _ Hinfos) as Hl1. pose proof (Forall2_length' _ _ _ Hr) as Hl2. pose proof (Forall2_length' _ _ _ Hc) as Hl3.
    rewrite length_enumerate in Hl1. rewrite length_enumerate in Hl2. rewrite combine_length in Hl2.
    apply Forall2_intro_nth; [rewrite combine_length; lia|].
    intros i (tg, bs) rows Hi Hrows. apply nth_error_combine_Some in Hi. destruct Hi as (Htg & Hbs).
    destruct (Forall2_nth_error_r _ _ _ _ _ Hr Hrows) as ((i', (bs', info)) & Hii & Hrun).
    rewrite nth_error_enumerate in Hii. destruct (nth_error (combine (cn_groups c) infos) i) as [(bs2, info2)|] eqn:Ec; [|discriminate].
    cbn [option_map] in Hii. injection Hii as <- <- <-. apply nth_error_combine_Some in Ec. destruct Ec as (Hbs2 & Hinfo2).
    assert (bs2 = bs) by congruence. subst bs2. destruct (Hstep i bs info2 Hbs Hinfo2) as (rows' & tg' & Hrun' & Htg' & Hl & Hs).
    assert (tg' = tg) by congruence. subst tg'. assert (rows' = rows) by congruence. subst rows'. cbn [fst snd]. split; [exact Hl|exact Hs].
  Qed.

  (** There is only one result *)
  Lemma transports_fun (c : conn) ary r1 r2 : conn_ok rmat rpick c -> transports rmat rpick c ary r1 -> transports rmat rpick c ary r2 -> r1 = r2.
  Proof.
    unfold transports, conn_ok. intros Hc. revert r1 r2. induction Hc as [|tg bs tgs bss (Hb & _) Hc IH]; intros r1 r2 H1 H2; cbn [combine] in H1, H2.
    - inversion H1. inversion H2. reflexivity.
    - inversion H1 as [|? rows1 ? r1' (Hl1 & Hs1) H1']; subst. inversion H2 as [|? rows2 ? r2' (Hl2 & Hs2) H2']; subst. cbn [fst snd] in *.
      f_equal; [|now apply IH]. apply nth_error_ext'. intros t.
      destruct (nth_error rows1 t) as [row1|] eqn:E1; destruct (nth_error rows2 t) as [row2|] eqn:E2; [| | |reflexivity].
      + destruct (Hs1 _ _ E1) as (cs1 & Hcs1 & ->), (Hs2 _ _ E2) as (cs2 & Hcs2 & ->). f_equal. f_equal.
        clear -Hb Hcs1 Hcs2. revert cs2 Hcs2. induction Hcs1 as [|b d bs ds Hd Hds IH]; intros cs2 H2; inversion H2; subst; [reflexivity|].
        apply Forall_cons_iff in Hb. destruct Hb as ((Hl & _) & Hb). f_equal; [eapply contributes_fun; eauto|auto].
      + apply nth_error_None in E2. assert (t < length rows1) by (apply nth_error_Some; congruence). lia.
      + apply nth_error_None in E1. assert (t < length rows2) by (apply nth_error_Some; congruence). lia.
  Qed.
End Direct.
