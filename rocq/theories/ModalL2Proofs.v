(** * ModalL2Proofs: projection against the direction of a connection *)
From Coq Require Import List Arith Bool ZArith Lia Ring.
From Verif Require Import Np NpFacts Lin SplitProofs ConnModel ConnSpec ConnProofs ConnFlatProofs ModalModel ModalSpec ModalProofs ModalSumProofs.
Import ListNotations.

Section L2.
  Context {R : cring} {P : Type}.
  Variable E : numerics R P.
  Notation fn := (P -> R).
  Notation mat := (list (list R)).
  Notation group := (@dgroup (kind R P)).
  Notation discr := (list group).
  Notation conn := (@conn (list P) (kind R P)).
  Notation batch := (@batch (list P)).
  Add Ring Rring'' : (rth R).

  (** Rows [0..nel), columns by function *)
  Definition tabulated (nel : nat) (fs : list fn) (k : nat -> fn -> R) : list (list R) := map (fun e => map (k e) fs) (seq 0 nel).
  Lemma tabulated_nth nel fs k e : e < nel -> nth_error (tabulated nel fs k) e = Some (map (k e) fs).
  Proof. intros H. unfold tabulated. rewrite nth_error_map. replace (nth_error (seq 0 nel) e) with (Some e); [reflexivity|]. symmetry. rewrite (nth_error_nth' _ 0) by (rewrite seq_length; lia). now rewrite seq_nth. Qed.
  Lemma tabulated_length nel fs k : length (tabulated nel fs k) = nel.
  Proof. unfold tabulated. now rewrite map_length, seq_length. Qed.
  Lemma tabulated_ext nel fs k k' : (forall e f, e < nel -> In f fs -> k e f = k' e f) -> tabulated nel fs k = tabulated nel fs k'.
  Proof. intros H. unfold tabulated. apply map_ext_in. intros e He. apply in_seq in He. apply map_ext_in. intros f Hf. apply H; [lia|exact Hf]. Qed.
  Lemma tabulated_zeros nel (fs : list fn) : repeat (zeros (R := R) (length fs)) nel = tabulated nel fs (fun _ _ => r0).
  Proof.
    apply nth_error_ext'. intros e. destruct (Nat.lt_ge_cases e nel) as [H|H].
    - rewrite tabulated_nth, (nth_error_nth' _ (zeros (R := R) (length fs))) by (rewrite ?repeat_length; lia). rewrite nth_repeat. f_equal. unfold zeros. clear. induction fs as [|f fs IH]; [reflexivity|]. cbn [length repeat map]. now rewrite <- IH.
    - rewrite (proj2 (nth_error_None _ _)), (proj2 (nth_error_None _ _)); [reflexivity|rewrite tabulated_length; lia|rewrite repeat_length; lia].
  Qed.
  Lemma vadd_map (k k' : fn -> R) fs : vadd (map k fs) (map k' fs) = map (fun f => radd (k f) (k' f)) fs.
  Proof. unfold vadd. induction fs as [|f fs IH]; [reflexivity|]. cbn [map map2]. now rewrite IH. Qed.
  Lemma madd_tabulated nel fs k k' : madd R (tabulated nel fs k) (tabulated nel fs k') = tabulated nel fs (fun e f => radd (k e f) (k' e f)).
  Proof. unfold madd, tabulated. induction (seq 0 nel) as [|e l IH]; [reflexivity|]. cbn [map map2]. now rewrite IH, vadd_map. Qed.
  Lemma fold_madd_tabulated {X} nel fs (K : X -> nat -> fn -> R) l k : fold_left (madd R) (map (fun x => tabulated nel fs (K x)) l) (tabulated nel fs k) =
    tabulated nel fs (fun e f => radd (k e f) (rsum (map (fun x => K x e f) l))).
  Proof.
    revert k. induction l as [|x l IH]; intros k; cbn [map fold_left].
    - apply tabulated_ext. intros e f _ _. cbn [map rsum]. ring.
    - rewrite madd_tabulated, IH. apply tabulated_ext. intros e f _ _. cbn [map rsum]. ring.
  Qed.
  Lemma put_tabulated nel fs k s v : s < nel -> put (tabulated nel fs k) s (map v fs) = Ok (tabulated nel fs (fun e f => if e =? s then v f else k e f)).
  Proof.
    intros Hs. apply put_ok. rewrite tabulated_length. split; [exact Hs|]. apply nth_error_ext'. intros e. destruct (Nat.lt_ge_cases e nel) as [H|H].
    - rewrite tabulated_nth by exact H. destruct (Nat.eqb_spec e s) as [->|Hn].
      + rewrite nth_error_upd_eq by (rewrite tabulated_length; exact H). reflexivity.
      + rewrite nth_error_upd_neq by congruence. rewrite tabulated_nth by exact H. reflexivity.
    - rewrite (proj2 (nth_error_None _ _)), (proj2 (nth_error_None _ _)); [reflexivity|rewrite length_upd, tabulated_length; exact H|rewrite tabulated_length; exact H].
  Qed.

  (** The loop of the kernel *)
  Lemma kernel_loop (ary : list (list R)) (tab : mat) (w : list R) fs nel (h : nat -> fn -> R) pairs k :
    Forall (fun ts => snd ts < nel /\ exists x, nth_error ary (fst ts) = Some x /\ map (fun t => rsum (map2 rmul (map2 rmul x t) w)) tab = map (h (snd ts)) fs) pairs ->
    foldM (fun out ft => x <- get ary (fst ft) ;; old <- get out (snd ft) ;; put out (snd ft) (vadd old (map (fun t => rsum (map2 rmul (map2 rmul x t) w)) tab))) pairs (tabulated nel fs k) =
    Ok (tabulated nel fs (fun e f => radd (k e f) (rsum (map (fun ts => if snd ts =? e then h e f else r0) pairs)))).
  Proof.
    intros H. revert k. induction H as [|[t s] pairs (Hs & x & Hx & Hv) _ IH]; intros k.
    - cbn [foldM]. f_equal. apply tabulated_ext. intros e f _ _. cbn [map rsum]. ring.
    - cbn [fst snd] in *. cbn [foldM]. cbn [fst snd]. unfold get. rewrite Hx. cbn [bind]. rewrite tabulated_nth by exact Hs. cbn [bind]. rewrite Hv, vadd_map.
      rewrite put_tabulated by exact Hs. cbn [bind]. unfold get in IH. rewrite IH. f_equal. apply tabulated_ext. intros e f _ _. cbn [map rsum snd].
      rewrite (Nat.eqb_sym s e). destruct (Nat.eqb_spec e s) as [->|_]; ring.
  Qed.

  (** One element of the target: sums over basis functions *)
  Definition pairing (xs : list P) (w : list R) (phi f : fn) : R := rsum (map2 (fun x w => rmul (rmul (phi x) (f x)) w) xs w).
  Lemma kernel_value (fs : list fn) a (xs : list P) (w : list R) : length xs = length w ->
    map (fun t => rsum (map2 rmul (map2 rmul (values fs a xs) t) w)) (map (fun f => map f xs) fs) =
    map (fun phi => rsum (map2 (fun f a => rmul a (pairing xs w phi f)) fs a)) fs.
  Proof.
    intros Hl. rewrite map_map. apply map_ext. intros phi. unfold pairing. rewrite <- quad_expand. f_equal. unfold values.
    clear Hl. revert w. induction xs as [|x xs IH]; intros [|y w]; cbn [map map2]; try reflexivity. rewrite IH. apply (f_equal2 cons); [ring|reflexivity].
  Qed.

  Lemma rsum_if (b : bool) (G : fn -> R) (fs : list fn) a : (if b then rsum (map2 (fun f a => rmul a (G f)) fs a) else r0) = rsum (map2 (fun f a => rmul a (if b then G f else r0)) fs a).
  Proof. destruct b; [reflexivity|]. transitivity (rsum (R := R) (map2 (fun _ _ => r0) fs a)); [symmetry; apply rsum_map2_zero|]. f_equal. apply map2_ext. intros. ring. Qed.

  (** What all batches together compute *)
  Lemma batches_sum (g : group) (bs : list batch) (a : nat -> list R) nel :
    (forall e, e < nel -> length (a e) = length (basis E (dg_kind g))) -> nel <= dg_nel g -> composite_orthonormal E g bs ->
    tabulated nel (basis E (dg_kind g)) (fun e phi => rsum (map (fun b => rsum (map (fun s => if s =? e then rsum (map2 (fun f a => rmul a (pairing (bt_nodes b) (child_weights E g b) phi f)) (basis E (dg_kind g)) (a e)) else r0) (bt_from b))) bs)) =
    map a (seq 0 nel).
  Proof.
    intros Ha Hn Ho. unfold tabulated. apply map_ext_in. intros e He. apply in_seq in He. apply nth_error_ext'. intros i. rewrite nth_error_map. destruct (nth_error (basis E (dg_kind g)) i) as [phi|] eqn:Ei; cbn [option_map].
    - assert (exists v, nth_error (a e) i = Some v) as (v & Hv). { destruct (nth_error (a e) i) as [v|] eqn:Ev; [exists v; reflexivity|]. apply nth_error_None in Ev. rewrite Ha in Ev by lia. apply nth_error_None in Ev. congruence. }
      rewrite Hv. f_equal. rewrite <- (pick_coefficient (fun f => composite E g bs e (fun x => rmul (phi x) (f x))) (basis E (dg_kind g)) (a e) i v); [|apply Ha; lia|exact Hv|intros j f Hj; apply Ho; [lia|exact Ei|exact Hj]].
      unfold composite. rewrite <- (rsum_swap (fun b f => rsum (map (fun s => if s =? e then rsum (map2 (fun x w => rmul (rmul (phi x) (f x)) w) (bt_nodes b) (child_weights E g b)) else r0) (bt_from b))) (basis E (dg_kind g)) (a e) (fun v => v) bs).
      f_equal. apply map_ext. intros b.
      rewrite <- (rsum_swap (fun s f => if s =? e then rsum (map2 (fun x w => rmul (rmul (phi x) (f x)) w) (bt_nodes b) (child_weights E g b)) else r0) (basis E (dg_kind g)) (a e) (fun v => v) (bt_from b)).
      f_equal. apply map_ext. intros s. apply (rsum_if (s =? e) (fun f => pairing (bt_nodes b) (child_weights E g b) phi f)).
    - symmetry. apply nth_error_None. rewrite Ha by lia. now apply nth_error_None.
  Qed.

  (** ** Weights *)
  Lemma In_enumerate' {X} (l : list X) i x : In (i, x) (enumerate l) <-> nth_error l i = Some x.
  Proof. apply In_enumerate. Qed.
  Lemma batch_weights_ok (c : conn) : length (cn_groups c) = length (cn_from c) ->
    (forall i g bs, nth_error (cn_from c) i = Some g -> nth_error (cn_groups c) i = Some bs -> is_interp (kd_class (dg_kind g)) = true /\
       Forall (fun b => length (nm_jacdet E (nm_diffs E (basis E (dg_kind g)) (unit_nodes E (dg_kind g))) (bt_nodes b)) = length (weights E (dg_kind g))) bs) ->
    exists ws, batch_weights E c = Ok ws /\
      forall i j g bs b, nth_error (cn_from c) i = Some g -> nth_error (cn_groups c) i = Some bs -> nth_error bs j = Some b -> weights_at ws i j = Ok (child_weights E g b).
  Proof.
    intros Hl H. unfold batch_weights. match goal with |- context [mapM ?f (enumerate (cn_from c))] => set (F := f) end.
    assert (Hgrp : forall i g, nth_error (cn_from c) i = Some g -> exists bs, nth_error (cn_groups c) i = Some bs /\ F (i, g) = Ok (map (fun jb => ((i, fst jb), child_weights E g (snd jb))) (enumerate bs))).
    { intros i g Hg. destruct (nth_error (cn_groups c) i) as [bs|] eqn:Eb; [|apply nth_error_None in Eb; assert (i < length (cn_from c)) by (apply nth_error_Some; congruence); lia].
      exists bs. split; [reflexivity|]. destruct (H _ _ _ Hg Eb) as (Hi & Hj). unfold F. rewrite Hi. cbn [guard bind]. unfold get. rewrite Eb. cbn [bind].
      apply mapM_ok. apply Forall2_map_r'. intros [j b] Hin. apply In_enumerate' in Hin. pose proof (proj1 (Forall_forall _ _) Hj b (nth_error_In _ _ Hin)) as Hjb. cbv beta in Hjb. cbv zeta. rewrite Hjb, Nat.eqb_refl. reflexivity. }
    destruct (mapM_total F (enumerate (cn_from c))) as (wss & Hw).
    { intros [i g] Hin. apply In_enumerate' in Hin. destruct (Hgrp _ _ Hin) as (bs & _ & HF). eauto. }
    rewrite Hw. cbn [bind]. eexists. split; [reflexivity|]. intros i j g bs b Hg Hbs Hb. pose proof (proj1 (mapM_ok _ _ _) Hw) as FF.
    assert (Hval : forall e, In e (concat wss) -> fst (fst e) = i -> snd (fst e) = j -> snd e = child_weights E g b).
    { intros e He Hi Hj. apply in_concat in He. destruct He as (l & Hin & He). destruct (Forall2_In_r _ _ _ _ FF Hin) as ([i' g'] & Hin' & HF). apply In_enumerate' in Hin'. destruct (Hgrp _ _ Hin') as (bs' & Hbs' & HF').
      rewrite HF in HF'. injection HF' as ->. apply in_map_iff in He. destruct He as ([j' b'] & <- & He). apply In_enumerate' in He. cbn [fst snd] in *. subst i' j'. congruence. }
    assert (Hex : In ((i, j), child_weights E g b) (concat wss)).
    { assert (Hin : In (i, g) (enumerate (cn_from c))) by now apply In_enumerate'. destruct (Forall2_In_l _ _ _ _ FF Hin) as (l & Hinl & HF). destruct (Hgrp _ _ Hg) as (bs' & Hbs' & HF'). rewrite HF in HF'. injection HF' as ->.
      apply in_concat. eexists. split; [exact Hinl|]. apply in_map_iff. exists (j, b). split; [reflexivity|]. apply In_enumerate'. congruence. }
    unfold weights_at. destruct (find _ (concat wss)) as [e|] eqn:Ef.
    - apply find_some in Ef. destruct Ef as (He & Hk). apply andb_prop in Hk. destruct Hk as (H1 & H2). apply Nat.eqb_eq in H1. apply Nat.eqb_eq in H2. f_equal. now apply Hval.
    - pose proof (find_none _ _ Ef _ Hex) as Hn. cbn [fst snd] in Hn. rewrite !Nat.eqb_refl in Hn. discriminate Hn.
  Qed.

  (** ** One connection *)
  Variable rmat : kind R P -> list P -> mat.
  Variable rpick : kind R P -> list P -> option (list nat).

  Lemma transported_rows (c : conn) (u r : dofs R) i f t bs ui ri : conn_ok rmat rpick c -> picks_agree rmat rpick c -> subdivision E rmat c -> transports rmat rpick c u r -> on_discr (cn_from c) u ->
    nth_error (cn_from c) i = Some f -> nth_error (cn_to c) i = Some t -> nth_error (cn_groups c) i = Some bs -> nth_error u i = Some ui -> nth_error r i = Some ri ->
    forall b tt s x a, In b bs -> In (tt, s) (combine (bt_to b) (bt_from b)) -> nth_error ui s = Some x -> length a = dg_ndof f -> x = values (basis E (dg_kind f)) a (unit_nodes E (dg_kind f)) ->
      nth_error ri tt = Some (values (basis E (dg_kind f)) a (bt_nodes b)).
  Proof.
    intros Hc Hp (_ & _ & Hsub) Htr Hu Hf Ht Hbs Hui Hri b tt s x a Hb Hts Hx Ha Hxv.
    destruct (Hsub _ _ _ _ Hf Ht Hbs) as (_ & _ & _ & Hnf & Hnt & _ & _ & Hss & _ & Hall). pose proof (proj1 (Forall_forall _ _) Hall b Hb) as (Hg & Hnl & Hcw & Hrm & _).
    destruct (Forall2_nth_error _ _ _ _ _ Hc Ht) as (bs' & Hbs' & Hbok & _). assert (bs' = bs) by congruence. subst bs'.
    pose proof (proj1 (Forall_forall _ _) Hbok b Hb) as (Hbl & Hbt & _).
    assert (Hpair : nth_error (combine (cn_to c) (cn_groups c)) i = Some (t, bs)) by (apply nth_error_combine'; assumption).
    destruct (Forall2_nth_error _ _ _ _ _ Htr Hpair) as (ri' & Hri' & Hlen & Hrows). cbn [fst snd] in *. assert (ri' = ri) by congruence. subst ri'.
    assert (Htt : tt < dg_nel t) by (apply (proj1 (Forall_forall _ _) Hbt); eapply in_combine_l; eauto).
    destruct (nth_error ri tt) as [row|] eqn:Er; [|apply nth_error_None in Er; lia]. f_equal.
    apply In_nth_error in Hb. destruct Hb as (k & Hk).
    assert (Hlens : Forall (fun b => length (bt_from b) = length (bt_to b)) bs) by (eapply Forall_impl; [|exact Hbok]; now intros ? (? & _)).
    apply (sums_fun rmat rpick (cn_from c) u (dg_ndof t) bs tt); [exact Hlens|exact (Hrows _ _ Er)|].
    eapply sums_only; [exact Hss|exact Hlens|exact Hk|exact Hts|rewrite values_length; congruence|]. left.
    exists f, s, ui, x. rewrite Hg. split; [exact Hf|]. split; [eapply single_assigns; eauto|]. split; [exact Hui|]. split; [exact Hx|].
    destruct (Forall2_nth_error _ _ _ _ _ Hp Ht) as (bs' & Hbs'' & Hpb). assert (bs' = bs) by congruence. subst bs'.
    pose proof (proj1 (Forall_forall _ _) Hpb b (nth_error_In _ _ Hk)) as Hpb'. cbv beta in Hpb'. rewrite Hg in Hpb'. destruct (Hpb' f Hf) as (Hm & Hpk). rewrite Hxv.
    destruct (rpick (dg_kind f) (bt_nodes b)) as [ix|] eqn:Ep; [|symmetry; apply Hrm; exact Ha]. rewrite <- Hrm by exact Ha. apply (Hpk ix _ eq_refl). rewrite values_length. congruence.
  Qed.

  Lemma l2_group (c : conn) (u r : dofs R) ws i f t bs ui ri (a : nat -> list R) : conn_ok rmat rpick c -> picks_agree rmat rpick c -> subdivision E rmat c -> transports rmat rpick c u r -> on_discr (cn_from c) u ->
    nth_error (cn_from c) i = Some f -> nth_error (cn_to c) i = Some t -> nth_error (cn_groups c) i = Some bs -> nth_error u i = Some ui -> nth_error r i = Some ri ->
    (forall j b, nth_error bs j = Some b -> weights_at ws i j = Ok (child_weights E f b)) ->
    (forall e x, nth_error ui e = Some x -> length (a e) = dg_ndof f /\ x = values (basis E (dg_kind f)) (a e) (unit_nodes E (dg_kind f))) ->
    mapM (fun ib => let '(j, b) := (ib : nat * batch) in
              sg <- get (cn_to c) (bt_fgrp b) ;;
              let tab := map (fun f => map f (bt_nodes b)) (basis E (dg_kind sg)) in
              rows <- get r (bt_fgrp b) ;;
              w <- weights_at ws i j ;;
              tg <- get (cn_from c) i ;;
              projection_kernel (dg_nel tg) (dg_ndof tg) rows tab w (bt_to b) (bt_from b)) (enumerate bs) =
    Ok (map (fun b => tabulated (dg_nel f) (basis E (dg_kind f)) (fun e phi => rsum (map (fun s => if s =? e then rsum (map2 (fun psi v => rmul v (pairing (bt_nodes b) (child_weights E f b) phi psi)) (basis E (dg_kind f)) (a e)) else r0) (bt_from b)))) bs).
  Proof.
    intros Hc Hp Hs Htr Hu Hf Ht Hbs Hui Hri Hw Ha. pose proof Hs as (_ & _ & Hsub). destruct (Hsub _ _ _ _ Hf Ht Hbs) as (Hk & _ & _ & Hnf & Hnt & Hun & _ & Hss & _ & Hall).
    destruct Hun as (_ & _ & Hfl & _ & _). destruct (Forall2_nth_error _ _ _ _ _ Hc Ht) as (bs' & Hbs' & Hbok & _). assert (bs' = bs) by congruence. subst bs'.
    destruct (on_discr_rows _ _ _ _ Hu Hf) as (ui' & Hui' & Lui & _). assert (ui' = ui) by congruence. subst ui'.
    pose proof (transports_on_discr rmat rpick c u r Hc Htr) as Hr. destruct (on_discr_rows _ _ _ _ Hr Ht) as (ri' & Hri' & Lri & Rri). assert (ri' = ri) by congruence. subst ri'.
    apply mapM_ok. apply Forall2_intro_nth; [rewrite length_enumerate, map_length; reflexivity|]. intros j [j' b] m Hj Hm. rewrite nth_error_enumerate in Hj. rewrite nth_error_map in Hm.
    destruct (nth_error bs j) as [b'|] eqn:Eb; [|discriminate Hj]. cbn [option_map] in Hj, Hm. injection Hj as <- <-. injection Hm as <-.
    pose proof (proj1 (Forall_forall _ _) Hall b' (nth_error_In _ _ Eb)) as (Hg & Hnl & Hcw & _). pose proof (proj1 (Forall_forall _ _) Hbok b' (nth_error_In _ _ Eb)) as (Hbl & Hbt & g' & Hg' & Hbf & _).
    rewrite Hg in Hg'. assert (g' = f) by congruence. subst g'.
    unfold get. rewrite Hg, Ht. cbn [bind]. cbv zeta. rewrite Hri. cbn [bind]. rewrite (Hw _ _ Eb). cbn [bind]. rewrite Hf. cbn [bind]. rewrite Hk. unfold projection_kernel.
    assert (G1 : forallb (fun x : list R => length x =? length (child_weights E f b')) ri = true) by (apply forallb_forall; intros x Hx; apply Nat.eqb_eq; rewrite (proj1 (Forall_forall _ _) Rri x Hx); congruence).
    rewrite G1. cbn [guard bind]. rewrite map_length, Hfl, <- Hnf, Nat.eqb_refl. cbn [andb].
    assert (G2 : forallb (fun r : list R => length r =? dg_ndof f) (map (fun g => map g (bt_nodes b')) (basis E (dg_kind f))) = true) by (apply forallb_forall; intros x Hx; apply in_map_iff in Hx; destruct Hx as (? & <- & _); apply Nat.eqb_eq; rewrite map_length; exact Hnl).
    rewrite G2. cbn [guard bind]. rewrite Hcw, Nat.leb_refl. cbn [guard bind]. rewrite Hbl, Nat.eqb_refl. cbn [guard bind].
    assert (Hz : repeat (zeros (R := R) (dg_ndof f)) (dg_nel f) = tabulated (dg_nel f) (basis E (dg_kind f)) (fun _ _ => r0)) by (rewrite Hnf, <- Hfl; apply tabulated_zeros). rewrite Hz.
    rewrite (kernel_loop ri _ _ _ _ (fun e phi => rsum (map2 (fun psi v => rmul v (pairing (bt_nodes b') (child_weights E f b') phi psi)) (basis E (dg_kind f)) (a e)))).
    - f_equal. apply tabulated_ext. intros e phi _ _. clear -Hbl. 
      match goal with |- radd r0 (rsum (map (fun ts => if snd ts =? e then ?K else r0) _)) = _ => generalize K end. intros v.
      revert Hbl. generalize (bt_to b'). induction (bt_from b') as [|s l IH]; intros [|t' l'] Hl; try discriminate Hl; cbn [combine map rsum snd]; [ring|]. injection Hl as Hl. rewrite <- (IH l' Hl). ring.
    - apply Forall_forall. intros [tt s] Hin. cbn [fst snd]. assert (Hsl : s < dg_nel f) by (apply (proj1 (Forall_forall _ _) Hbf); eapply in_combine_r; eauto). split; [exact Hsl|].
      destruct (nth_error ui s) as [x|] eqn:Ex; [|apply nth_error_None in Ex; lia]. destruct (Ha _ _ Ex) as (Hal & Hav).
      exists (values (basis E (dg_kind f)) (a s) (bt_nodes b')). split.
      + eapply transported_rows; eauto. eapply nth_error_In; eauto.
      + apply kernel_value. congruence.
  Qed.

  Theorem l2_roundtrip (c : conn) (u r : dofs R) : conn_ok rmat rpick c -> picks_agree rmat rpick c -> subdivision E rmat c -> transports rmat rpick c u r -> on_discr (cn_from c) u -> l2_pure E c r = Ok u.
  Proof.
    intros Hc Hp Hs Htr Hu. pose proof Hs as (Hl1 & Hl2 & Hsub). pose proof (transports_on_discr rmat rpick c u r Hc Htr) as Hr.
    assert (Hgroup : forall i f, nth_error (cn_from c) i = Some f -> exists t bs ui ri, nth_error (cn_to c) i = Some t /\ nth_error (cn_groups c) i = Some bs /\ nth_error u i = Some ui /\ nth_error r i = Some ri).
    { intros i f Hf. assert (i < length (cn_from c)) by (apply nth_error_Some; congruence).
      destruct (nth_error (cn_to c) i) as [t|] eqn:Et; [|apply nth_error_None in Et; lia]. destruct (nth_error (cn_groups c) i) as [bs|] eqn:Eb; [|apply nth_error_None in Eb; lia].
      destruct (on_discr_rows _ _ _ _ Hu Hf) as (ui & Hui & _). destruct (on_discr_rows _ _ _ _ Hr Et) as (ri & Hri & _). exists t, bs, ui, ri. auto. }
    destruct (batch_weights_ok c) as (ws & Hws & Hwat); [congruence| |].
    { intros i g bs Hg Hbs. destruct (Hgroup _ _ Hg) as (t & bs' & _ & _ & Ht & Hbs' & _). destruct (Hsub _ _ _ _ Hg Ht Hbs) as (_ & Hi & _ & _ & _ & _ & _ & _ & _ & Hall).
      split; [exact Hi|]. eapply Forall_impl; [|exact Hall]. now intros b (_ & _ & _ & _ & H). }
    unfold l2_pure, l2_coefficients. rewrite (proj2 (has_shape_iff _ _) Hr). cbn [guard bind]. rewrite Hws. cbn [bind].
    match goal with |- context [mapM ?f (enumerate (cn_groups c))] => set (F := f) end.
    assert (HF : forall i f bs ui, nth_error (cn_from c) i = Some f -> nth_error (cn_groups c) i = Some bs -> nth_error u i = Some ui ->
      exists rows, F (i, bs) = Ok rows /\ Forall (fun row => length row = length (basis E (dg_kind f))) rows /\ map (fun a => values (basis E (dg_kind f)) a (unit_nodes E (dg_kind f))) rows = ui).
    { intros i f bs ui Hf Hbs Hui. destruct (Hgroup _ _ Hf) as (t & bs' & ui' & ri & Ht & Hbs' & Hui' & Hri). assert (bs' = bs) by congruence. subst bs'.
      destruct (Hsub _ _ _ _ Hf Ht Hbs) as (_ & _ & _ & Hnf & _ & (W & HW & Hfl & HW1 & HW2) & Hne & _ & Hort & _).
      destruct (on_discr_rows _ _ _ _ Hu Hf) as (ui2 & Hui2 & Lui & Rui). assert (ui2 = ui) by congruence. subst ui2.
      set (a := fun e => match nth_error ui e with Some x => matvec W x | None => [] end).
      assert (Hal : forall e, e < dg_nel f -> length (a e) = length (basis E (dg_kind f))).
      { intros e He. unfold a. destruct (nth_error ui e) as [x|] eqn:Ex; [|apply nth_error_None in Ex; lia]. rewrite matvec_length, Hfl. exact (proj1 HW). }
      assert (Hav : forall e x, nth_error ui e = Some x -> length (a e) = dg_ndof f /\ x = values (basis E (dg_kind f)) (a e) (unit_nodes E (dg_kind f))).
      { intros e x Hx. split; [rewrite Hal; [congruence|rewrite <- Lui; apply nth_error_Some; congruence]|]. unfold a. rewrite Hx. symmetry. apply HW2. rewrite <- Hnf. apply (proj1 (Forall_forall _ _) Rui). eapply nth_error_In; eauto. }
      exists (map a (seq 0 (dg_nel f))). split.
      - unfold F. cbv beta iota. pose proof (l2_group c u r ws i f t bs ui ri a Hc Hp Hs Htr Hu Hf Ht Hbs Hui Hri (fun j b Hb => Hwat _ _ _ _ _ Hf Hbs Hb) Hav) as HG.
        match type of HG with mapM ?Y _ = _ => match goal with |- context [mapM ?X (enumerate bs)] => change X with Y end end. rewrite HG. cbn [bind].
        destruct bs as [|b bs]; [now elim Hne|]. cbn [map]. f_equal. rewrite fold_madd_tabulated.
        rewrite <- (batches_sum f (b :: bs) a (dg_nel f) Hal (Nat.le_refl _) Hort). apply tabulated_ext. intros e phi _ _. reflexivity.
      - split.
        + apply Forall_forall. intros row Hrow. apply in_map_iff in Hrow. destruct Hrow as (e & <- & He). apply in_seq in He. apply Hal. lia.
        + rewrite map_map. apply nth_error_ext'. intros e. rewrite nth_error_map. destruct (nth_error ui e) as [x|] eqn:Ex.
          * assert (e < dg_nel f) by (rewrite <- Lui; apply nth_error_Some; congruence). rewrite (nth_error_nth' _ 0) by (rewrite seq_length; lia). rewrite seq_nth by lia. cbn [option_map Nat.add]. f_equal. symmetry. exact (proj2 (Hav _ _ Ex)).
          * rewrite (proj2 (nth_error_None _ _)); [reflexivity|]. rewrite seq_length, <- Lui. now apply nth_error_None. }
    destruct (mapM_total F (enumerate (cn_groups c))) as (coefs & Hcoefs).
    { intros [i bs] Hin. apply In_enumerate' in Hin. destruct (nth_error (cn_from c) i) as [f|] eqn:Ef; [|apply nth_error_None in Ef; assert (i < length (cn_groups c)) by (apply nth_error_Some; congruence); lia].
      destruct (on_discr_rows _ _ _ _ Hu Ef) as (ui & Hui & _). destruct (HF _ _ _ _ Ef Hin Hui) as (rows & HFr & _). eauto. }
    rewrite Hcoefs. cbn [bind]. pose proof (proj1 (mapM_ok _ _ _) Hcoefs) as FF. pose proof (Forall2_length' _ _ _ FF) as Lc. rewrite length_enumerate in Lc.
    assert (Lc' : length (cn_from c) =? length coefs = true) by (apply Nat.eqb_eq; lia). rewrite Lc'. cbn [negb].
    apply mapM_ok. apply Forall2_intro_nth; [rewrite combine_length, <- (Forall2_length' _ _ _ Hu); apply Nat.eqb_eq in Lc'; lia|].
    intros i [f rows] ui Hi Hui. cbn [fst snd]. apply nth_error_combine_Some in Hi. destruct Hi as (Hf & Hrows). destruct (Hgroup _ _ Hf) as (t & bs & _ & _ & Ht & Hbs & _).
    destruct (HF _ _ _ _ Hf Hbs Hui) as (rows' & HFr & Hlen & Hval). assert (He : nth_error (enumerate (cn_groups c)) i = Some (i, bs)) by (rewrite nth_error_enumerate, Hbs; reflexivity).
    destruct (Forall2_nth_error _ _ _ _ _ FF He) as (rows2 & Hrows2 & HFr2). assert (rows2 = rows) by congruence. subst rows2. rewrite HFr in HFr2. injection HFr2 as ->.
    destruct (Hsub _ _ _ _ Hf Ht Hbs) as (_ & _ & Hkey & _). destruct (keyed1 _ Hkey) as (key & Hkk). rewrite Hkk. cbn [bind].
    rewrite (einsum_ok _ _ _ _ (vandermonde_mat _ _) Hlen). f_equal. rewrite <- Hval. apply map_ext. intros v. apply matvec_vandermonde.
  Qed.

  (** ** Chains *)
  Lemma inverse_pure_chain l (u : dofs R) : inverse_pure E (InvChain l) u = foldM (fun a v => inverse_pure E v a) l u.
  Proof. cbn [inverse_pure]. revert u. induction l as [|v l IH]; intros u; [reflexivity|]. cbn [foldM]. destruct (inverse_pure E v u); cbn [bind]; [apply IH|reflexivity]. Qed.
  Definition reversed_inverses (cs : list (@cnx (list P) (kind R P))) : res (list (inverse R P)) :=
    (fix go (cs : list (@cnx (list P) (kind R P))) : res (list (inverse R P)) := match cs with [] => Ok [] | c :: cs => l <- go cs ;; i <- l2_inverse E c ;; Ok (l ++ [i]) end) cs.
  Lemma l2_inverse_chain f c cs : l2_inverse E (Chain f (c :: cs)) = (l <- reversed_inverses (c :: cs) ;; Ok (InvChain l)).
  Proof. reflexivity. Qed.

  Lemma invertible_f f f' (cs : list (@cnx (list P) (kind R P))) : invertible E rmat rpick (Chain f cs) -> invertible E rmat rpick (Chain f' cs).
  Proof. intros H. inversion H; subst; [constructor|]. econstructor; eauto. Qed.

  Theorem l2_chain eager nomerge x : invertible E rmat rpick x -> forall d e v u r, cnx_ok rmat rpick d x e -> on_discr d u -> l2_inverse E x = Ok v ->
    apply R rmat rpick eager nomerge x u = Ok r -> inverse_pure E v r = Ok u.
  Proof.
    induction x as [c|d0|f cs IH] using cnx_ind'; intros Hx d e v u r Hok Hu Hv Hr.
    - inversion Hx; subst. inversion Hok; subst. cbn [l2_inverse] in Hv. apply bind_ok in Hv. destruct Hv as (? & _ & Hv). apply bind_ok in Hv. destruct Hv as (? & _ & Hv). apply bind_ok in Hv. destruct Hv as (? & _ & Hv). apply bind_ok in Hv. destruct Hv as (? & _ & Hv). apply bind_ok in Hv. destruct Hv as (? & _ & Hv). injection Hv as <-.
      cbn [inverse_pure apply] in *. destruct (call_ok rmat rpick eager nomerge c u) as (r' & Hr' & Htr); [assumption|assumption|]. assert (r' = r) by congruence. subst r'. eapply l2_roundtrip; eauto.
    - inversion Hx.
    - destruct cs as [|c cs]; [cbn [l2_inverse] in Hv; injection Hv as <-; cbn [inverse_pure]; rewrite apply_chain in Hr; cbn [foldM] in Hr; symmetry; exact Hr|].
      rewrite l2_inverse_chain in Hv. apply bind_ok in Hv. destruct Hv as (l & Hl & Hv). injection Hv as <-. rewrite inverse_pure_chain. rewrite apply_chain in Hr.
      revert f c IH Hx d Hok u Hu l Hl r Hr. induction cs as [|c' cs IHcs]; intros f c IH Hx d Hok u Hu l Hl r Hr.
      + inversion IH as [|? ? IHc _]; subst. inversion Hx as [| |? ? ? ? Hxc _]; subst. inversion Hok as [| | |? ? ? ? _ Hokc|]; subst. cbn [reversed_inverses] in Hl. apply bind_ok in Hl. destruct Hl as (l0 & Hl0 & Hl). injection Hl0 as <-. apply bind_ok in Hl. destruct Hl as (i & Hi & Hl). injection Hl as <-.
        cbn [foldM] in Hr. apply bind_ok in Hr. destruct Hr as (r' & Hr' & Hr). injection Hr as <-. cbn [app foldM]. rewrite (IHc Hxc d e i u r' Hokc Hu Hi Hr'). reflexivity.
      + inversion IH as [|? ? IHc IH']; subst. inversion Hx as [| |? f'' ? ? Hxc Hxs]; subst. inversion Hok as [| | | |? e1 ? ? ? ? ? _ Hokc Hoks]; subst.
        change (reversed_inverses (c :: c' :: cs)) with (l <- reversed_inverses (c' :: cs) ;; i <- l2_inverse E c ;; Ok (l ++ [i])) in Hl. apply bind_ok in Hl. destruct Hl as (l0 & Hl0 & Hl). apply bind_ok in Hl. destruct Hl as (i & Hi & Hl). injection Hl as <-.
        change (foldM (fun a c => apply R rmat rpick eager nomerge c a) (c :: c' :: cs) u) with (s <- apply R rmat rpick eager nomerge c u ;; foldM (fun a c => apply R rmat rpick eager nomerge c a) (c' :: cs) s) in Hr.
        apply bind_ok in Hr. destruct Hr as (m & Hm & Hr). destruct (apply_ok rmat rpick eager nomerge d c e1 u Hokc Hu) as (m' & Hm' & _ & Hmd). assert (m' = m) by congruence. subst m'.
        rewrite foldM_app. rewrite (IHcs None c' IH' (invertible_f _ _ _ Hxs) e1 Hoks m Hmd l0 Hl0 r Hr). cbn [bind foldM]. rewrite (IHc Hxc d e1 i u m Hokc Hu Hi Hm). reflexivity.
  Qed.
End L2.
