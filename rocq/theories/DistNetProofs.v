(** * DistNetProofs: all schedules of a network of ranks *)
From Coq Require Import List Arith Bool Lia Permutation.
From Verif Require Import Np NpFacts MeshModel DistModel DistSpec DistProofs.
Import ListNotations.

Section Net.
  Context {C M O : Type}.
  Variable pack : nat -> C -> res M.
  Variable link : C -> M -> res O.
  Notation irbi := (irbi C).
  Notation msg := (msg M).
  Variables (old eager : bool) (cfg : list (list irbi)).
  Hypothesis Hcs : consistent pack link old cfg.

  (** What entry [b] of rank [r] is to receive *)
  Definition content (r : nat) (b : irbi) (m : M) : Prop := exists b', matches cfg r b b' /\ pack (ib_remote b') (ib_conn b') = Ok m.
  Definition mid (x : nat * nat * msg) : nat * nat * nat * nat := let '(s, d, (rid, lid, _)) := x in (s, d, rid, lid).
  Definition open (rs : list (rstate M O)) (r i : nat) : Prop :=
    nth_error rs r = Some Start \/ exists p d n, nth_error rs r = Some (Recv p d n) /\ nth_error d i = Some None.
  Definition entered (rs : list (rstate M O)) (r : nat) : Prop := exists x, nth_error rs r = Some x /\ x <> Start.
  Definition is_none {X} (o : option X) : bool := match o with None => true | Some _ => false end.
  Definition rank_ok (r : nat) (l : list irbi) (x : rstate M O) : Prop :=
    match x with
    | Start => True
    | Recv p d n => p = pendings l /\ length d = length l /\ n = length (filter is_none d) /\
        forall i b, nth_error l i = Some b -> nth_error d i = Some None \/ exists m, nth_error d i = Some (Some (ib_rank b, (ib_remote b, ib_local b, m))) /\ content r b m
    | Wait c p | Done c p => p = [] /\ delivered pack link old cfg r c
    | Failed _ => False
    end.
  Record inv (st : gstate M O) : Prop := mk_inv {
    i_len : length (g_ranks st) = length cfg;
    i_nodup : NoDup (map mid (g_net st));
    i_net : forall s d rid lid m, In (s, d, (rid, lid, m)) (g_net st) -> exists l i b, nth_error cfg d = Some l /\ nth_error l i = Some b /\ s = ib_rank b /\ rid = ib_remote b /\ lid = ib_local b /\
      content d b m /\ open (g_ranks st) d i /\ entered (g_ranks st) s;
    i_sent : forall r l i b, nth_error cfg r = Some l -> nth_error l i = Some b -> open (g_ranks st) r i -> entered (g_ranks st) (ib_rank b) -> exists m, In (ib_rank b, r, (ib_remote b, ib_local b, m)) (g_net st);
    i_start : forall r l i b, nth_error cfg r = Some l -> nth_error l i = Some b -> nth_error (g_ranks st) (ib_rank b) = Some Start -> open (g_ranks st) r i;
    i_rank : forall r x l, nth_error (g_ranks st) r = Some x -> nth_error cfg r = Some l -> rank_ok r l x
  }.

  Lemma init_inv : inv (init cfg).
  Proof.
    assert (HS : forall r x, nth_error (map (fun _ : list irbi => @Start M O) cfg) r = Some x -> x = Start) by (intros r x H; rewrite nth_error_map in H; destruct (nth_error cfg r); cbn [option_map] in H; congruence).
    split; cbn [init g_net g_ranks].
    - apply map_length.
    - constructor.
    - intros s d rid lid m [].
    - intros r l i b _ _ _ (x & Hx & Hn). exfalso. apply Hn. eauto.
    - intros r l i b Hr _ _. left. rewrite nth_error_map, Hr. reflexivity.
    - intros r x l Hx _. rewrite (HS r x Hx). exact I.
  Qed.

  Lemma ranks_at st r x : inv st -> nth_error (g_ranks st) r = Some x -> exists l, nth_error cfg r = Some l.
  Proof. intros Hi Hx. assert (H : r < length cfg) by (rewrite <- (i_len _ Hi); apply nth_error_Some; congruence). apply nth_error_Some in H. destruct (nth_error cfg r); [eauto|congruence]. Qed.
  Lemma cfg_at st r l : inv st -> nth_error cfg r = Some l -> exists x, nth_error (g_ranks st) r = Some x.
  Proof. intros Hi Hx. assert (H : r < length (g_ranks st)) by (rewrite (i_len _ Hi); apply nth_error_Some; congruence). apply nth_error_Some in H. destruct (nth_error (g_ranks st) r); [eauto|congruence]. Qed.
  Lemma pair_index (l : list irbi) i j b b' : NoDup (map ib_pair l) -> nth_error l i = Some b -> nth_error l j = Some b' -> ib_pair b = ib_pair b' -> i = j.
  Proof. intros Hn Hi Hj He. apply (proj1 (NoDup_nth_error (map ib_pair l)) Hn i j); [rewrite map_length; apply nth_error_Some; congruence|]. rewrite !nth_error_map, Hi, Hj. cbn [option_map]. congruence. Qed.
  Lemma content_fun r b m m' : content r b m -> content r b m' -> m = m'.
  Proof.
    intros (b1 & (l1 & L1 & I1 & A1 & A2 & _) & E1) (b2 & (l2 & L2 & I2 & B1 & B2 & _) & E2). assert (l1 = l2) by congruence. subst l2. apply In_nth_error in I1, I2. destruct I1 as (i & I1). destruct I2 as (j & I2).
    assert (i = j) by (apply (pair_index l1 i j b1 b2 (cs_once _ _ _ _ Hcs _ _ L1) I1 I2); unfold ib_pair; congruence). subst j. congruence.
  Qed.

  Definition set_rank (st : gstate M O) r (x : rstate M O) net : gstate M O := mk_gstate net (upd (g_ranks st) r x).
  Lemma put_rank (rs : list (rstate M O)) r x y : nth_error rs r = Some y -> put rs r x = Ok (upd rs r x).
  Proof. intros H. unfold put. assert (r < length rs) by (apply nth_error_Some; congruence). destruct (Nat.ltb_spec r (length rs)); [reflexivity|lia]. Qed.
  Lemma at_upd (rs : list (rstate M O)) r r' x : nth_error (upd rs r x) r' = if r =? r' then match nth_error rs r with Some _ => Some x | None => None end else nth_error rs r'.
  Proof.
    destruct (Nat.eqb_spec r r') as [<-|Hn].
    - destruct (nth_error rs r) eqn:E; [apply nth_error_upd_eq, nth_error_Some; congruence|]. apply nth_error_None. rewrite length_upd. now apply nth_error_None.
    - now apply nth_error_upd_neq.
  Qed.

  (** *** entering *)
  Lemma enter_inv st r l st' : inv st -> nth_error (g_ranks st) r = Some Start -> nth_error cfg r = Some l -> step pack link old eager cfg st (Enter r) = Some st' -> inv st'.
  Proof.
    intros Hi Hr Hl Hs. cbn [step] in Hs. rewrite Hr, Hl in Hs. rewrite (pending_of_ok l (cs_once _ _ _ _ Hcs _ _ Hl)) in Hs.
    destruct (send_all_ok pack l (fun b h => cs_pack _ _ _ _ Hcs r l b Hl h)) as (ms & Ems & HF). rewrite Ems in Hs. rewrite (put_rank _ _ _ _ Hr) in Hs. injection Hs as <-.
    set (x := match pendings l with [] => Done [] [] | _ => Recv (pendings l) (repeat None (length (pendings l))) (length (pendings l)) end).
    assert (Hx : x <> Start) by (unfold x; destruct (pendings l); discriminate).
    assert (Hopen : forall i b, nth_error l i = Some b -> open (upd (g_ranks st) r x) r i).
    { intros i b Hb. right. unfold x. pose proof (pendings_nth l i b Hb) as Hp. destruct (pendings l) as [|p0 p] eqn:Ep; [destruct i; discriminate|]. exists (p0 :: p), (repeat None (length (p0 :: p))), (length (p0 :: p)).
      split; [rewrite at_upd, Nat.eqb_refl, Hr; reflexivity|]. apply nth_error_repeat. apply nth_error_Some. congruence. }
    assert (Hopen' : forall r' i b' l', nth_error cfg r' = Some l' -> nth_error l' i = Some b' -> open (g_ranks st) r' i -> open (upd (g_ranks st) r x) r' i).
    { intros r' i b' l' Hl' Hb' Ho. destruct (Nat.eq_dec r r') as [<-|Hne]; [assert (l' = l) by congruence; subst; eauto|]. unfold open in *. rewrite at_upd. destruct (Nat.eqb_spec r r'); [contradiction|]. exact Ho. }
    assert (Hopenb : forall r' i, open (upd (g_ranks st) r x) r' i -> open (g_ranks st) r' i).
    { intros r' i Ho. destruct (Nat.eq_dec r r') as [<-|Hne]; [left; exact Hr|]. unfold open in *. rewrite at_upd in Ho. destruct (Nat.eqb_spec r r'); [contradiction|]. exact Ho. }
    assert (Hent : forall r', entered (g_ranks st) r' -> entered (upd (g_ranks st) r x) r').
    { intros r' (y & Hy & Hn). destruct (Nat.eq_dec r r') as [<-|Hne]; [congruence|]. exists y. rewrite at_upd. destruct (Nat.eqb_spec r r'); [contradiction|]. auto. }
    assert (Hentr : entered (upd (g_ranks st) r x) r) by (exists x; rewrite at_upd, Nat.eqb_refl, Hr; auto).
    assert (Hsent : forall s d m0, In (s, d, m0) (map (fun dm => (r, fst dm, snd dm)) ms) -> s = r /\ exists b m, In b l /\ d = ib_rank b /\ m0 = (ib_local b, ib_remote b, m) /\ pack (ib_remote b) (ib_conn b) = Ok m).
    { intros s d m0 Hin. apply in_map_iff in Hin. destruct Hin as (dm & Heq & Hin). injection Heq as <- <- <-. split; [reflexivity|]. destruct (Forall2_In_r _ _ _ _ HF Hin) as (b & Hb & m & Em & ->). exists b, m. auto. }
    split; cbn [g_net g_ranks].
    - rewrite length_upd. apply (i_len _ Hi).
    - rewrite map_app. apply NoDup_app; [exact (i_nodup _ Hi)| |].
      + assert (E : map mid (map (fun dm : nat * msg => (r, fst dm, snd dm)) ms) = map (fun b => (r, ib_rank b, ib_local b, ib_remote b)) l).
        { clear - HF. induction HF as [|b dm l ms (m & _ & ->) HF IH]; cbn [map]; [reflexivity|]. cbn [mid fst snd]. now rewrite IH. }
        rewrite E. pose proof (cs_once _ _ _ _ Hcs _ _ Hl) as Hn. clear - Hn. induction l as [|b l IH]; cbn [map] in *; [constructor|]. inversion Hn as [|? ? Hni Hn']; subst. constructor; [|auto].
        rewrite in_map_iff in *. intros (b' & Heq & Hin). apply Hni. exists b'. split; [|exact Hin]. unfold ib_pair. injection Heq as _ H1 H2. congruence.
      + intros a Ha Hb. apply in_map_iff in Ha, Hb. destruct Ha as (((s & d) & ((rid & lid) & m)) & <- & Hin). destruct Hb as (((s' & d') & ((rid' & lid') & m')) & Heq & Hin'). cbn [mid] in Heq. injection Heq as -> -> -> ->.
        destruct (i_net _ Hi _ _ _ _ _ Hin) as (_ & _ & _ & _ & _ & _ & _ & _ & _ & _ & (y & Hy & Hny)). destruct (Hsent _ _ _ Hin') as (-> & _). congruence.
    - intros s d rid lid m Hin. apply in_app_iff in Hin. destruct Hin as [Hin|Hin].
      + destruct (i_net _ Hi _ _ _ _ _ Hin) as (l' & i & b & A1 & A2 & A3 & A4 & A5 & A6 & A7 & A8). exists l', i, b. repeat (split; [eassumption|]). split; eauto.
      + destruct (Hsent _ _ _ Hin) as (-> & b & m0 & Hb & -> & Heq & Em). injection Heq as -> -> ->. destruct (cs_match _ _ _ _ Hcs r l b Hl Hb) as (b' & l' & L' & I' & B1 & B2 & B3). apply In_nth_error in I'. destruct I' as (i & I').
        exists l', i, b'. split; [exact L'|]. split; [exact I'|]. split; [congruence|]. split; [congruence|]. split; [congruence|]. split; [exists b; split; [exists l; rewrite B3; repeat split; auto; congruence|exact Em]|]. split; [|exact Hentr].
        apply (Hopen' (ib_rank b) i b' l' L' I'). apply (i_start _ Hi (ib_rank b) l' i b' L' I'). rewrite B3. exact Hr.
    - intros r' l' i b Hl' Hb Ho He. destruct (Nat.eq_dec (ib_rank b) r) as [Heq|Hne].
      + destruct (cs_match _ _ _ _ Hcs r' l' b Hl' (nth_error_In _ _ Hb)) as (b' & l2 & L2 & I2 & B1 & B2 & B3). assert (l2 = l) by congruence. subst l2. destruct (Forall2_In_l _ _ _ _ HF I2) as (dm & Hdm & m & Em & Edm). exists m. apply in_app_iff. right.
        apply in_map_iff. exists dm. split; [|exact Hdm]. rewrite Edm. cbn [fst snd]. now rewrite Heq, B1, B2, B3.
      + destruct (i_sent _ Hi r' l' i b Hl' Hb (Hopenb _ _ Ho)) as (m & Hm); [|exists m; apply in_app_iff; now left]. destruct He as (y & Hy & Hny). rewrite at_upd in Hy. destruct (Nat.eqb_spec r (ib_rank b)); [congruence|]. exists y. auto.
    - intros r' l' i b Hl' Hb Hst. rewrite at_upd in Hst. destruct (Nat.eqb_spec r (ib_rank b)) as [Heq|Hne]; [rewrite Hr in Hst; congruence|]. eapply Hopen'; eauto. eapply (i_start _ Hi); eauto.
    - intros r' y l' Hy Hl'. rewrite at_upd in Hy. destruct (Nat.eqb_spec r r') as [<-|Hne]; [|eapply (i_rank _ Hi); eauto]. rewrite Hr in Hy. injection Hy as <-. assert (l' = l) by congruence. subst l'.
      unfold x. pose proof (pendings_length l) as Hpl. destruct (pendings l) as [|p0 p] eqn:Ep.
      + split; [reflexivity|]. exists l. split; [exact Hl|]. destruct l; [constructor|discriminate].
      + rewrite <- Ep in *. cbn [rank_ok]. split; [reflexivity|]. split; [now rewrite repeat_length|]. split.
        * rewrite Hpl. clear. induction (length l) as [|n IH]; cbn [repeat filter is_none length]; auto.
        * intros i b Hb. left. apply nth_error_repeat. rewrite Hpl. apply nth_error_Some. congruence.
  Qed.

  (** *** receiving *)
  Lemma none_count (d : list (option (nat * msg))) i y : nth_error d i = Some None -> length (filter is_none d) = S (length (filter is_none (upd d i (Some y)))).
  Proof.
    revert i. induction d as [|o d IH]; intros i H; [destruct i; discriminate|]. destruct i as [|i]; cbn [nth_error upd filter] in *.
    - injection H as ->. reflexivity.
    - destruct o; cbn [is_none length]; rewrite (IH i H); reflexivity.
  Qed.
  Lemma remove_at {X} (l : list X) i x : nth_error l i = Some x -> l = firstn i l ++ x :: skipn (S i) l.
  Proof. revert i. induction l as [|y l IH]; intros [|i] H; try discriminate; cbn [nth_error firstn skipn app] in *; [congruence|]. f_equal. now apply IH. Qed.

  Lemma recv_step st r i k s rid lid m p d n : inv st -> nth_error (g_ranks st) r = Some (Recv p d n) -> nth_error (g_net st) k = Some (s, r, (rid, lid, m)) ->
    nth_error d i = Some None -> (exists l b, nth_error cfg r = Some l /\ nth_error l i = Some b /\ s = ib_rank b /\ rid = ib_remote b /\ lid = ib_local b /\ content r b m) ->
    receive p d (s, (rid, lid, m)) = Ok (upd d i (Some (s, (rid, lid, m)))) /\ n = S (pred n).
  Proof.
    intros Hi Hr Hk Hd (l & b & Hl & Hb & -> & -> & -> & Hc). destruct (i_rank _ Hi r _ l Hr Hl) as (-> & Hlen & Hn & _). split; [apply receive_ok; auto; exact (cs_once _ _ _ _ Hcs _ _ Hl)|].
    rewrite Hn. pose proof (none_count d i (0, (0, 0, m)) Hd). lia.
  Qed.

  Lemma receive_inv st r k st' : inv st -> step pack link old eager cfg st (Receive r k) = Some st' -> inv st'.
  Proof.
    intros Hi Hs. cbn [step] in Hs. destruct (nth_error (g_ranks st) r) as [[|p d [|n]| | |]|] eqn:Hr; try discriminate. destruct (nth_error (g_net st) k) as [((s & dst) & ((rid & lid) & m))|] eqn:Hk; [|discriminate].
    destruct (Nat.eqb_spec dst r) as [->|]; [|discriminate]. assert (Hin := nth_error_In _ _ Hk). destruct (i_net _ Hi _ _ _ _ _ Hin) as (l & i & b & Hl & Hb & Es & Er & El & Hc & Ho & He).
    assert (Hd : nth_error d i = Some None) by (destruct Ho as [Ho|(p' & d' & n' & Ho & Hd)]; congruence).
    destruct (recv_step st r i k s rid lid m p d (S n) Hi Hr Hk Hd) as (Erec & _); [exists l, b; repeat (split; [assumption|]); assumption|]. match type of Hs with match ?t with _ => _ end = _ => change t with (receive p d (s, (rid, lid, m))) in Hs; rewrite Erec in Hs end. rewrite (put_rank _ _ _ _ Hr) in Hs. injection Hs as <-.
    set (x := Recv p (upd d i (Some (s, (rid, lid, m)))) n). pose proof (remove_at _ _ _ Hk) as Hnet. set (net' := firstn k (g_net st) ++ skipn (S k) (g_net st)) in *.
    assert (Hdlt : i < length d) by (apply nth_error_Some; congruence).
    assert (Hnd : NoDup (map mid net') /\ ~ In (s, r, rid, lid) (map mid net')).
    { pose proof (i_nodup _ Hi) as Hnd. rewrite Hnet in Hnd. rewrite map_app in Hnd. cbn [map mid] in Hnd. unfold net'. rewrite map_app. split; [eapply NoDup_remove_1; exact Hnd|eapply NoDup_remove_2; exact Hnd]. }
    destruct Hnd as (Hnd & Hno).
    assert (Hsub : forall z, In z net' -> In z (g_net st)) by (intros z Hz; rewrite Hnet; unfold net' in Hz; rewrite in_app_iff in *; cbn [In]; tauto).
    assert (Hsup : forall z, In z (g_net st) -> z = (s, r, (rid, lid, m)) \/ In z net') by (intros z Hz; rewrite Hnet in Hz; unfold net'; rewrite in_app_iff in *; cbn [In] in Hz; intuition).
    assert (Hop : forall r' j, (r', j) <> (r, i) -> open (g_ranks st) r' j -> open (upd (g_ranks st) r x) r' j).
    { intros r' j Hne Ho'. unfold open in *. rewrite at_upd. destruct (Nat.eqb_spec r r') as [<-|]; [|exact Ho']. rewrite Hr in *. right. destruct Ho' as [Ho'|(p' & d' & n' & Ho' & Hd')]; [discriminate|]. injection Ho' as <- <- <-.
      exists p, (upd d i (Some (s, (rid, lid, m)))), n. split; [reflexivity|]. rewrite nth_error_upd_neq; [exact Hd'|congruence]. }
    assert (Hopb : forall r' j, open (upd (g_ranks st) r x) r' j -> open (g_ranks st) r' j /\ (r', j) <> (r, i)).
    { intros r' j Ho'. unfold open in *. rewrite at_upd in Ho'. destruct (Nat.eqb_spec r r') as [<-|]; [|split; [exact Ho'|congruence]]. rewrite Hr in *. destruct Ho' as [Ho'|(p' & d' & n' & Ho' & Hd')]; [discriminate|]. injection Ho' as <- <- <-.
      assert (i <> j) by (intros <-; rewrite nth_error_upd_eq in Hd'; [discriminate|exact Hdlt]). rewrite nth_error_upd_neq in Hd' by assumption. split; [right; exists p, d, (S n); auto|congruence]. }
    assert (Hent : forall r', entered (upd (g_ranks st) r x) r' <-> entered (g_ranks st) r').
    { intros r'. unfold entered. rewrite at_upd. destruct (Nat.eqb_spec r r') as [<-|]; [|tauto]. rewrite Hr. split; intros _; eexists; split; try reflexivity; discriminate. }
    split; cbn [g_net g_ranks].
    - rewrite length_upd. apply (i_len _ Hi).
    - exact Hnd.
    - intros s' d' rid' lid' m' Hin'. destruct (i_net _ Hi _ _ _ _ _ (Hsub _ Hin')) as (l' & j & b' & A1 & A2 & A3 & A4 & A5 & A6 & A7 & A8). exists l', j, b'. repeat (split; [eassumption|]). split; [|now apply Hent].
      apply Hop; [|exact A7]. intros Heq. injection Heq as -> ->. assert (l' = l) by congruence. subst l'. assert (b' = b) by congruence. subst b'. apply Hno. apply in_map_iff. exists (s', r, (rid', lid', m')). split; [cbn [mid]; congruence|exact Hin'].
    - intros r' l' j b' Hl' Hb' Ho' He'. destruct (Hopb _ _ Ho') as (Ho1 & Hne). destruct (i_sent _ Hi r' l' j b' Hl' Hb' Ho1 (proj1 (Hent _) He')) as (m' & Hm'). exists m'. destruct (Hsup _ Hm') as [Heq|Hm2]; [|exact Hm2]. exfalso. injection Heq as E1 E2 E3 E4 _.
      subst r'. assert (l' = l) by congruence. subst l'. apply Hne. f_equal. apply (pair_index l j i b' b (cs_once _ _ _ _ Hcs _ _ Hl) Hb' Hb). unfold ib_pair. congruence.
    - intros r' l' j b' Hl' Hb' Hst. rewrite at_upd in Hst. destruct (Nat.eqb_spec r (ib_rank b')); [rewrite Hr in Hst; discriminate|]. apply Hop; [|eapply (i_start _ Hi); eauto].
      intros Heq. injection Heq as -> ->. assert (l' = l) by congruence. subst l'. assert (b' = b) by congruence. subst b'. destruct He as (y & Hy & Hny). rewrite Es in Hy. congruence.
    - intros r' y l' Hy Hl'. rewrite at_upd in Hy. destruct (Nat.eqb_spec r r') as [<-|Hne]; [|eapply (i_rank _ Hi); eauto]. rewrite Hr in Hy. injection Hy as <-. assert (l' = l) by congruence. subst l'.
      destruct (i_rank _ Hi r _ l Hr Hl) as (Hp & Hlen & Hn & Hall). unfold x. cbn [rank_ok]. split; [exact Hp|]. split; [now rewrite length_upd|]. split.
      + apply eq_add_S. rewrite Hn. exact (none_count d i (s, (rid, lid, m)) Hd).
      + intros j b' Hb'. destruct (Nat.eq_dec i j) as [<-|Hne]; [|rewrite nth_error_upd_neq by assumption; auto]. right. assert (b' = b) by congruence. subst b'. exists m. rewrite nth_error_upd_eq by exact Hdlt. split; [now rewrite Es, Er, El|exact Hc].
  Qed.

  (** *** building *)
  Lemma finish_builds st r p d l : inv st -> nth_error (g_ranks st) r = Some (Recv p d 0) -> nth_error cfg r = Some l -> exists conns, build link old l p d = Ok (conns, []) /\ delivered pack link old cfg r conns.
  Proof.
    intros Hi Hr Hl. destruct (i_rank _ Hi r _ l Hr Hl) as (-> & Hlen & Hn & Hall). assert (Hfull : forall i, nth_error d i <> Some None). { intros i Hd. assert (Hf : In None (filter (@is_none (nat * msg)) d)) by (apply filter_In; split; [eapply nth_error_In; eauto|reflexivity]). destruct (filter is_none d); [destruct Hf|discriminate]. }
    assert (Hat : forall i b, nth_error l i = Some b -> exists m, nth_error d i = Some (Some (ib_rank b, (ib_remote b, ib_local b, m))) /\ content r b m) by (intros i b Hb; destruct (Hall i b Hb) as [H|H]; [now apply Hfull in H|exact H]).
    destruct (build_ok pack link r old l d (cs_once _ _ _ _ Hcs _ _ Hl) (fun h => cs_old _ _ _ _ Hcs h _ _ Hl)) as (conns & Eb & Hcl & Hc).
    { apply Forall2_intro_nth; [symmetry; exact Hlen|]. intros i b x Hb Hx. destruct (Hat i b Hb) as (m & Hm & b' & Hmat & Em). destruct (cs_link _ _ _ _ Hcs r l b b' m Hl (nth_error_In _ _ Hb) Hmat Em) as (o & Eo). exists m, o. split; [pose proof (eq_trans (eq_sym Hx) Hm) as He; injection He as ->; reflexivity|exact Eo]. }
    exists conns. split; [exact Eb|]. exists l. split; [exact Hl|]. apply Forall2_intro_nth; [congruence|]. intros i b kv Hb Hkv. destruct (Hat i b Hb) as (m & Hm & b' & Hmat & Em). destruct (Hc i b _ Hb Hm) as (kv' & Hkv' & Hk & m' & Em' & Eo). assert (kv' = kv) by congruence. subst kv'.
    split; [exact Hk|]. exists b', m'. split; [exact Hmat|]. split; [|exact Eo]. rewrite Em. injection Em' as ->. reflexivity.
  Qed.
  Lemma closed_step st r x y l : inv st -> nth_error (g_ranks st) r = Some y -> nth_error cfg r = Some l -> y <> Start -> x <> Start -> (forall i, ~ open (g_ranks st) r i \/ length l <= i) -> (forall p d n, x <> Recv p d n) -> rank_ok r l x -> inv (set_rank st r x (g_net st)).
  Proof.
    intros Hi Hr Hl Hy Hx Hcl Hx2 Hok. assert (Hop : forall r' j, r' <> r -> open (g_ranks st) r' j <-> open (upd (g_ranks st) r x) r' j) by (intros r' j Hne; unfold open; rewrite at_upd; destruct (Nat.eqb_spec r r'); [congruence|tauto]).
    assert (Hopr : forall j, ~ open (upd (g_ranks st) r x) r j) by (intros j [H|(p & d & n & H & _)]; rewrite at_upd, Nat.eqb_refl, Hr in H; [congruence|injection H as H; now apply Hx2 in H]).
    assert (Hent : forall r', entered (upd (g_ranks st) r x) r' <-> entered (g_ranks st) r').
    { intros r'. unfold entered. rewrite at_upd. destruct (Nat.eqb_spec r r') as [<-|]; [|tauto]. rewrite Hr. split; intros _; eauto. }
    assert (Hno : forall j b, nth_error l j = Some b -> ~ open (g_ranks st) r j) by (intros j b Hb; destruct (Hcl j) as [H|H]; [exact H|apply nth_error_None in H; congruence]).
    split; cbn [set_rank g_net g_ranks].
    - rewrite length_upd. apply (i_len _ Hi).
    - apply (i_nodup _ Hi).
    - intros s d rid lid m Hin. destruct (i_net _ Hi _ _ _ _ _ Hin) as (l' & i & b & A1 & A2 & A3 & A4 & A5 & A6 & A7 & A8). exists l', i, b. repeat (split; [eassumption|]). split; [|now apply Hent]. apply Hop; [|exact A7]. intros ->. assert (l' = l) by congruence. subst l'. now apply (Hno i b A2).
    - intros r' l' i b Hl' Hb Ho He. destruct (Nat.eq_dec r' r) as [->|Hne]; [now apply Hopr in Ho|]. eapply (i_sent _ Hi); eauto; [now apply Hop|now apply Hent].
    - intros r' l' i b Hl' Hb Hst. rewrite at_upd in Hst. assert (Hst' : nth_error (g_ranks st) (ib_rank b) = Some Start) by (destruct (Nat.eqb_spec r (ib_rank b)); [rewrite Hr in Hst; congruence|exact Hst]).
      pose proof (i_start _ Hi r' l' i b Hl' Hb Hst') as Ho. destruct (Nat.eq_dec r' r) as [->|Hne]; [assert (l' = l) by congruence; subst l'; now apply (Hno i b Hb) in Ho|now apply Hop].
    - intros r' z l' Hz Hl'. rewrite at_upd in Hz. destruct (Nat.eqb_spec r r') as [<-|Hne]; [|eapply (i_rank _ Hi); eauto]. rewrite Hr in Hz. injection Hz as <-. assert (l' = l) by congruence. now subst l'.
  Qed.

  Lemma step_inv st ev st' : inv st -> step pack link old eager cfg st ev = Some st' -> inv st'.
  Proof.
    intros Hi Hs. destruct ev as [r|r k|r|r].
    - assert (Hs' := Hs). cbn [step] in Hs'. destruct (nth_error (g_ranks st) r) as [[| | | |]|] eqn:Hr; try discriminate. destruct (nth_error cfg r) as [l|] eqn:Hl; [|discriminate]. eapply enter_inv; eauto.
    - eapply receive_inv; eauto.
    - cbn [step] in Hs. destruct (nth_error (g_ranks st) r) as [[|p d [|n]| | |]|] eqn:Hr; try discriminate. destruct (nth_error cfg r) as [l|] eqn:Hl; [|discriminate].
      destruct (finish_builds st r p d l Hi Hr Hl) as (conns & Eb & Hdel). rewrite Eb in Hs. rewrite (put_rank _ _ _ _ Hr) in Hs. injection Hs as <-. apply (closed_step st r (Wait conns []) (Recv p d 0) l); auto; try discriminate; [|split; auto].
      intros i. destruct (Nat.lt_ge_cases i (length l)) as [Hlt|]; [left|right; assumption]. intros [Ho|(p' & d' & n' & Ho & Hd)]; [congruence|]. assert (d' = d) by congruence. subst d'. destruct (i_rank _ Hi r _ l Hr Hl) as (_ & _ & Hn & _).
      assert (Hf : In None (filter (@is_none (nat * msg)) d)) by (apply filter_In; split; [eapply nth_error_In; eauto|reflexivity]). destruct (filter is_none d); [destruct Hf|discriminate].
    - cbn [step] in Hs. destruct (nth_error (g_ranks st) r) as [[| |c p| |]|] eqn:Hr; try discriminate. destruct (eager || _); [|discriminate]. rewrite (put_rank _ _ _ _ Hr) in Hs. injection Hs as <-. destruct (ranks_at st r _ Hi Hr) as (l & Hl).
      apply (closed_step st r (Done c p) (Wait c p) l); auto; try discriminate.
      + intros i. left. intros [Ho|(p' & d' & n' & Ho & Hd)]; congruence.
      + exact (i_rank _ Hi r _ l Hr Hl).
  Qed.
  Lemma run_inv evs st st' : inv st -> run pack link old eager cfg st evs = Some st' -> inv st'.
  Proof. revert st. induction evs as [|ev evs IH]; intros st Hi Hr; cbn [run] in Hr; [congruence|]. destruct (step pack link old eager cfg st ev) as [st1|] eqn:Hs; [|discriminate]. eapply IH; [eapply step_inv; eauto|exact Hr]. Qed.

  (** ** Progress *)
  Lemma first_index {X} (P : X -> Prop) (Pdec : forall x, P x \/ ~ P x) (l : list X) : (exists x, In x l /\ P x) -> exists i x, nth_error l i = Some x /\ P x /\ forall j y, j < i -> nth_error l j = Some y -> ~ P y.
  Proof.
    induction l as [|a l IH]; intros (x & Hin & Hx); [destruct Hin|]. destruct (Pdec a) as [Ha|Ha]; [exists 0, a; repeat split; auto; lia|]. destruct IH as (i & y & Hi & Hy & Hmin); [destruct Hin as [->|Hin]; [contradiction|eauto]|].
    exists (S i), y. repeat split; auto. intros [|j] z Hj Hz; cbn [nth_error] in Hz; [congruence|]. apply (Hmin j z); [lia|exact Hz].
  Qed.
  Lemma find_rank (P : rstate M O -> bool) (rs : list (rstate M O)) : (exists r x, nth_error rs r = Some x /\ P x = true) \/ forall r x, nth_error rs r = Some x -> P x = false.
  Proof.
    destruct (existsb P rs) eqn:E; [left; apply existsb_exists in E; destruct E as (x & Hin & Hx); apply In_nth_error in Hin; destruct Hin as (r & Hr); eauto|]. right. intros r x Hx. apply not_true_iff_false. intros Hp. apply not_true_iff_false in E. apply E. apply existsb_exists. exists x. split; [eapply nth_error_In; eauto|exact Hp].
  Qed.

  Lemma progress st : inv st -> ~ all_done st -> exists ev st', step pack link old eager cfg st ev = Some st' /\ in_order st ev.
  Proof.
    intros Hi Hnd. destruct (find_rank (fun x => match x with Start => true | _ => false end) (g_ranks st)) as [(r & x & Hr & Hx)|HnoS].
    { destruct x; try discriminate. destruct (ranks_at st r _ Hi Hr) as (l & Hl). exists (Enter r). cbn [step]. rewrite Hr, Hl, (pending_of_ok l (cs_once _ _ _ _ Hcs _ _ Hl)). destruct (send_all_ok pack l (fun b h => cs_pack _ _ _ _ Hcs r l b Hl h)) as (ms & Ems & _). rewrite Ems, (put_rank _ _ _ _ Hr). eexists. split; [reflexivity|exact I]. }
    assert (Hentered : forall r l, nth_error cfg r = Some l -> entered (g_ranks st) r) by (intros r l Hl; destruct (cfg_at st r l Hi Hl) as (x & Hx); exists x; split; [exact Hx|intros ->; specialize (HnoS _ _ Hx); discriminate]).
    destruct (find_rank (fun x => match x with Recv _ _ (S _) => true | _ => false end) (g_ranks st)) as [(r & x & Hr & Hx)|HnoR].
    { destruct x as [|p d [|n]| | |]; try discriminate. destruct (ranks_at st r _ Hi Hr) as (l & Hl). destruct (i_rank _ Hi r _ l Hr Hl) as (Hp & Hlen & Hn & Hall).
      assert (Hex : exists i, nth_error d i = Some None). { destruct (filter is_none d) as [|o0 rest] eqn:Ef; [discriminate|]. assert (Hin : In o0 (filter is_none d)) by (rewrite Ef; now left). apply filter_In in Hin. destruct Hin as (Hin & Ho). destruct o0; [discriminate|]. apply In_nth_error in Hin. exact Hin. }
      destruct Hex as (i & Hd). destruct (nth_error l i) as [b|] eqn:Hb; [|apply nth_error_None in Hb; assert (i < length d) by (apply nth_error_Some; congruence); lia].
      destruct (cs_match _ _ _ _ Hcs r l b Hl (nth_error_In _ _ Hb)) as (b' & l' & L' & _). destruct (i_sent _ Hi r l i b Hl Hb) as (m & Hm); [right; exists p, d, (S n); auto|exact (Hentered _ _ L')|].
      destruct (first_index (fun z : nat * nat * msg => fst (fst z) = ib_rank b /\ snd (fst z) = r)) with (l := g_net st) as (k & ((s & dst) & ((rid & lid) & m2)) & Hk & (E1 & E2) & Hmin).
      - intros ((s & dst) & mm). cbn [fst snd]. destruct (Nat.eq_dec s (ib_rank b)); [destruct (Nat.eq_dec dst r); [left; auto|right; tauto]|right; tauto].
      - exists (ib_rank b, r, (ib_remote b, ib_local b, m)). auto.
      - cbn [fst snd] in E1, E2. subst dst. destruct (i_net _ Hi _ _ _ _ _ (nth_error_In _ _ Hk)) as (l2 & j & b2 & A1 & A2 & A3 & A4 & A5 & A6 & A7 & A8). assert (l2 = l) by congruence. subst l2.
        assert (Hdj : nth_error d j = Some None) by (destruct A7 as [Ho|(p' & d' & n' & Ho & Hd')]; congruence).
        destruct (recv_step st r j k s rid lid m2 p d (S n) Hi Hr Hk Hdj) as (Erec & _); [exists l, b2; repeat (split; [assumption|]); assumption|].
        exists (Receive r k). cbn [step]. rewrite Hr, Hk, Nat.eqb_refl. match goal with |- exists _, match ?t with _ => _ end = _ /\ _ => change t with (receive p d (s, (rid, lid, m2))) end. rewrite Erec, (put_rank _ _ _ _ Hr). eexists. split; [reflexivity|]. cbn [in_order]. intros j' s' m' m'' Hj Hk2 Hj2. rewrite Hk in Hk2. injection Hk2 as <- _. apply (Hmin j' _ Hj Hj2). cbn [fst snd]. split; [congruence|reflexivity]. }
    destruct (find_rank (fun x => match x with Recv _ _ 0 => true | _ => false end) (g_ranks st)) as [(r & x & Hr & Hx)|HnoF].
    { destruct x as [|p d [|n]| | |]; try discriminate. destruct (ranks_at st r _ Hi Hr) as (l & Hl). destruct (finish_builds st r p d l Hi Hr Hl) as (conns & Eb & _). exists (Finish r). cbn [step]. rewrite Hr, Hl, Eb, (put_rank _ _ _ _ Hr). eexists. split; [reflexivity|exact I]. }
    destruct (find_rank (fun x => match x with Wait _ _ => true | _ => false end) (g_ranks st)) as [(r & x & Hr & Hx)|HnoW].
    { destruct x as [| |c p| |]; try discriminate. exists (WaitAll r). cbn [step]. rewrite Hr. assert (Hnet : g_net st = []).
      { destruct (g_net st) as [|((s & dst) & ((rid & lid) & m)) net] eqn:En; [reflexivity|]. destruct (i_net _ Hi s dst rid lid m) as (l & i & b & _ & _ & _ & _ & _ & _ & Ho & _); [rewrite En; now left|]. exfalso. destruct Ho as [Ho|(p' & d' & n' & Ho & _)]; [specialize (HnoS _ _ Ho); discriminate|].
        destruct n'; [specialize (HnoF _ _ Ho)|specialize (HnoR _ _ Ho)]; discriminate. }
      rewrite Hnet. cbn [forallb]. rewrite orb_true_r, (put_rank _ _ _ _ Hr). eexists. split; [reflexivity|exact I]. }
    exfalso. apply Hnd. apply Forall_forall. intros x Hin. apply In_nth_error in Hin. destruct Hin as (r & Hr). destruct (ranks_at st r _ Hi Hr) as (l & Hl). pose proof (i_rank _ Hi r _ l Hr Hl) as Hok.
    destruct x as [|p d [|n]|c p|c p|e]; [specialize (HnoS _ _ Hr)|specialize (HnoF _ _ Hr)|specialize (HnoR _ _ Hr)|specialize (HnoW _ _ Hr)| |destruct Hok]; try discriminate. eauto.
  Qed.

  (** ** Termination *)
  Definition weight (l : list irbi) (x : rstate M O) : nat := match x with Start => 3 + length l | Recv _ _ n => 2 + n | Wait _ _ => 1 | Done _ _ => 0 | Failed _ => 0 end.
  Definition measure (st : gstate M O) : nat := sum (map (fun lx => weight (fst lx) (snd lx)) (combine cfg (g_ranks st))).
  Lemma measure_upd (rs : list (rstate M O)) r x y l (cs : list (list irbi)) : nth_error rs r = Some y -> nth_error cs r = Some l ->
    sum (map (fun lx => weight (fst lx) (snd lx)) (combine cs rs)) + weight l x = sum (map (fun lx => weight (fst lx) (snd lx)) (combine cs (upd rs r x))) + weight l y.
  Proof.
    revert r cs. induction rs as [|z rs IH]; intros r cs Hy Hl; [destruct r; discriminate|]. destruct cs as [|c cs]; [destruct r; discriminate|]. destruct r as [|r]; cbn [nth_error upd combine map sum fst snd] in *.
    - injection Hy as ->. injection Hl as ->. unfold sum. cbn [fold_right]. lia.
    - specialize (IH r cs Hy Hl). unfold sum in *. cbn [fold_right]. lia.
  Qed.
  Lemma step_measure st ev st' : inv st -> step pack link old eager cfg st ev = Some st' -> measure st' < measure st.
  Proof.
    intros Hi Hs. assert (Hkey : exists r x y l net, nth_error (g_ranks st) r = Some y /\ nth_error cfg r = Some l /\ st' = mk_gstate net (upd (g_ranks st) r x) /\ weight l x < weight l y).
    { destruct ev as [r|r k|r|r]; cbn [step] in Hs.
      - destruct (nth_error (g_ranks st) r) as [[| | | |]|] eqn:Hr; try discriminate. destruct (nth_error cfg r) as [l|] eqn:Hl; [|discriminate]. rewrite (pending_of_ok l (cs_once _ _ _ _ Hcs _ _ Hl)) in Hs.
        destruct (send_all pack l) as (ms & [e|]); rewrite (put_rank _ _ _ _ Hr) in Hs; injection Hs as <-; eexists r, _, Start, l, _; (split; [exact Hr|]); (split; [exact Hl|]); (split; [reflexivity|]); cbn [weight]; [lia|].
        pose proof (pendings_length l). destruct (pendings l); cbn [weight]; lia.
      - destruct (nth_error (g_ranks st) r) as [[|p d [|n]| | |]|] eqn:Hr; try discriminate. destruct (nth_error (g_net st) k) as [((s & dst) & m)|]; [|discriminate]. destruct (dst =? r); [|discriminate]. destruct (ranks_at st r _ Hi Hr) as (l & Hl).
        destruct (receive p d (s, m)); rewrite (put_rank _ _ _ _ Hr) in Hs; injection Hs as <-; eexists r, _, _, l, _; (split; [exact Hr|]); (split; [exact Hl|]); (split; [reflexivity|]); cbn [weight]; lia.
      - destruct (nth_error (g_ranks st) r) as [[|p d [|n]| | |]|] eqn:Hr; try discriminate. destruct (nth_error cfg r) as [l|] eqn:Hl; [|discriminate].
        destruct (build link old l p d) as [(c & p')|e]; rewrite (put_rank _ _ _ _ Hr) in Hs; injection Hs as <-; eexists r, _, _, l, _; (split; [exact Hr|]); (split; [exact Hl|]); (split; [reflexivity|]); cbn [weight]; lia.
      - destruct (nth_error (g_ranks st) r) as [[| |c p| |]|] eqn:Hr; try discriminate. destruct (eager || _); [|discriminate]. destruct (ranks_at st r _ Hi Hr) as (l & Hl). rewrite (put_rank _ _ _ _ Hr) in Hs; injection Hs as <-; eexists r, _, _, l, _; (split; [exact Hr|]); (split; [exact Hl|]); (split; [reflexivity|]); cbn [weight]; lia. }
    destruct Hkey as (r & x & y & l & net & Hy & Hl & -> & Hw). unfold measure. cbn [g_ranks]. pose proof (measure_upd (g_ranks st) r x y l cfg Hy Hl). lia.
  Qed.
  Lemma run_measure evs st st' : inv st -> run pack link old eager cfg st evs = Some st' -> length evs + measure st' <= measure st.
  Proof.
    revert st. induction evs as [|ev evs IH]; intros st Hi Hr; cbn [run length] in *; [injection Hr as <-; lia|]. destruct (step pack link old eager cfg st ev) as [st1|] eqn:Hs; [|discriminate]. pose proof (step_measure st ev st1 Hi Hs). specialize (IH st1 (step_inv _ _ _ Hi Hs) Hr). lia.
  Qed.
  Lemma init_measure : measure (init cfg) = 3 * length cfg + sum (map (@length irbi) cfg).
  Proof. unfold measure. cbn [init g_ranks]. clear. induction cfg as [|l c IH]; [reflexivity|]. cbn [map combine length fst snd weight]. unfold sum in *. cbn [fold_right]. rewrite IH. lia. Qed.

  Lemma done_net st : inv st -> all_done st -> g_net st = [].
  Proof.
    intros Hi Hd. destruct (g_net st) as [|((s & dst) & ((rid & lid) & m)) net] eqn:En; [reflexivity|]. destruct (i_net _ Hi s dst rid lid m) as (l & i & b & _ & _ & _ & _ & _ & _ & Ho & _); [rewrite En; now left|]. exfalso. unfold all_done in Hd. rewrite Forall_forall in Hd.
    destruct Ho as [Ho|(p' & d' & n' & Ho & _)]; destruct (Hd _ (nth_error_In _ _ Ho)) as (c & p & Heq); discriminate.
  Qed.
  Lemma delivered_fun r c c' : delivered pack link old cfg r c -> delivered pack link old cfg r c' -> c = c'.
  Proof.
    intros (l & Hl & HF) (l' & Hl' & HF'). assert (l' = l) by congruence. subst l'. clear Hl' Hl. revert c' HF'. induction HF as [|b kv l0 c0 (Hk & b1 & m1 & M1 & P1 & L1) HF IH]; intros c' HF'; inversion HF' as [|? kv' ? c1 (Hk' & b2 & m2 & M2 & P2 & L2) HF2]; subst; [reflexivity|].
    f_equal; [|exact (IH _ HF2)]. assert (m1 = m2) by (apply (content_fun r b); [exists b1|exists b2]; auto). subst m2. destruct kv, kv'. cbn [fst snd] in *. congruence.
  Qed.
End Net.
