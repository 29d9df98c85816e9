(** * DistProofs: the boundary communication helper *)
From Coq Require Import List Arith Bool Lia Permutation.
From Verif Require Import Np NpFacts MeshModel DistModel DistSpec.
Import ListNotations.

(** ** dicts *)
Section Dict.
  Context {K V : Type} (eqb : K -> K -> bool).
  Hypothesis eqb_ok : forall a b, eqb a b = true <-> a = b.

  Lemma eqb_refl' a : eqb a a = true.
  Proof. now apply eqb_ok. Qed.
  Lemma eqb_neq a b : a <> b -> eqb a b = false.
  Proof. intros H. destruct (eqb a b) eqn:E; auto. apply eqb_ok in E. congruence. Qed.
  Lemma dset_new (d : list (K * V)) k v : ~ In k (map fst d) -> dset eqb d k v = d ++ [(k, v)].
  Proof. induction d as [|(k', v') d IH]; cbn [dset map fst In app]; intros H; auto. rewrite eqb_neq by intuition. now rewrite IH by intuition. Qed.
  Lemma dset_all {X} (f : X -> K) (g : X -> V) l d : NoDup (map fst d ++ map f l) -> fold_left (fun d x => dset eqb d (f x) (g x)) l d = d ++ map (fun x => (f x, g x)) l.
  Proof.
    revert d. induction l as [|x l IH]; intros d H; cbn [fold_left map]; [now rewrite app_nil_r|]. cbn [map] in H. rewrite dset_new by (apply NoDup_remove_2 in H; rewrite in_app_iff in H; tauto).
    rewrite IH; [now rewrite <- app_assoc|]. rewrite map_app. cbn [map fst]. now rewrite <- app_assoc.
  Qed.
  Lemma dget_nth (d : list (K * V)) i k v : NoDup (map fst d) -> nth_error d i = Some (k, v) -> dget eqb d k = Ok v.
  Proof.
    revert i. induction d as [|(k', v') d IH]; intros i Hn H; [destruct i; discriminate|]. cbn [map fst] in Hn. inversion Hn as [|? ? Hni Hn']; subst. destruct i as [|i]; cbn [nth_error] in H; cbn [dget].
    - injection H as -> ->. now rewrite eqb_refl'.
    - rewrite eqb_neq; [eauto|]. intros ->. apply Hni. apply nth_error_In in H. apply in_map_iff. now exists (k, v).
  Qed.
  Lemma filter_absent (d : list (K * V)) k : ~ In k (map fst d) -> filter (fun kv => negb (eqb (fst kv) k)) d = d.
  Proof. induction d as [|(k', v') d IH]; cbn [filter map fst In]; intros H; auto. rewrite eqb_neq by intuition. cbn [negb]. now rewrite IH by intuition. Qed.
  Lemma ddel_head (d : list (K * V)) k v : NoDup (map fst ((k, v) :: d)) -> ddel eqb ((k, v) :: d) k = Ok d.
  Proof. intros H. inversion H; subst. unfold ddel. cbn [dget filter fst]. rewrite eqb_refl'. cbn [bind negb]. now rewrite filter_absent. Qed.
  Lemma dget_In (d : list (K * V)) k v : dget eqb d k = Ok v -> In (k, v) d.
  Proof. induction d as [|(k', v') d IH]; cbn [dget]; [discriminate|]. destruct (eqb k' k) eqn:Ek; [intros H; injection H as ->; apply eqb_ok in Ek; subst; now left|right; auto]. Qed.
End Dict.

Lemma ckey_eqb_ok a b : ckey_eqb a b = true <-> a = b.
Proof.
  destruct a, b; cbn [ckey_eqb]; try (split; discriminate); [rewrite Nat.eqb_eq|rewrite andb_true_iff, !Nat.eqb_eq]; split; intros H; try congruence.
  - destruct H; congruence.
  - injection H; auto.
Qed.

Section Helper.
  Context {C M O : Type}.
  Variable pack : nat -> C -> res M.
  Variable link : C -> M -> res O.
  Notation irbi := (irbi C).
  Notation msg := (msg M).

  Definition pendings (l : list irbi) : list ((nat * nat) * nat) := combine (map ib_pair l) (seq 0 (length l)).
  Lemma pendings_keys (l : list irbi) : map fst (pendings l) = map ib_pair l.
  Proof. unfold pendings. generalize 0. induction l as [|b l IH]; intros n; cbn [map combine length seq]; auto. cbn [fst]. now rewrite IH. Qed.
  Lemma pendings_length (l : list irbi) : length (pendings l) = length l.
  Proof. unfold pendings. rewrite combine_length, map_length, seq_length. lia. Qed.
  Lemma pendings_nth (l : list irbi) i b : nth_error l i = Some b -> nth_error (pendings l) i = Some (ib_pair b, i).
  Proof.
    unfold pendings. intros H. assert (Hg : forall n, nth_error (combine (map ib_pair l) (seq n (length l))) i = Some (ib_pair b, n + i)).
    { revert i H. induction l as [|b0 l IH]; intros i H n; [destruct i; discriminate|]. destruct i as [|i]; cbn [map combine length seq nth_error] in *; [injection H as ->; now rewrite Nat.add_0_r|]. rewrite (IH i H (S n)). f_equal. f_equal. lia. }
    exact (Hg 0).
  Qed.
  Lemma pending_of_ok (l : list irbi) : NoDup (map ib_pair l) -> pending_of l = Ok (pendings l).
  Proof.
    intros H. unfold pending_of. rewrite (dset_all pair_eqb pair_eqb_eq (fun ib : nat * irbi => ib_pair (snd ib)) fst).
    - cbn [app]. assert (E : map (fun x : nat * irbi => (ib_pair (snd x), fst x)) (enumerate l) = pendings l).
      { unfold pendings, enumerate, enumerate_from. generalize 0. clear H. induction l as [|b l IH]; intros n; cbn [length seq combine map]; auto. cbn [snd fst]. now rewrite IH. }
      rewrite E, pendings_length, Nat.eqb_refl. reflexivity.
    - cbn [map app]. assert (E : map (fun ib : nat * irbi => ib_pair (snd ib)) (enumerate l) = map ib_pair l).
      { unfold enumerate, enumerate_from. generalize 0. clear H. induction l as [|b l IH]; intros n; cbn [length seq combine map]; auto. cbn [snd]. now rewrite IH. }
      now rewrite E.
  Qed.
  Lemma pending_of_dup (l : list irbi) : ~ NoDup (map ib_pair l) -> pending_of l = Err AssertionError.
  Proof.
    intros H. unfold pending_of. set (f := fun (d : list ((nat * nat) * nat)) (ib : nat * irbi) => dset pair_eqb d (ib_pair (snd ib)) (fst ib)).
    assert (Hk : forall (l0 : list (nat * irbi)) d, NoDup (map fst d) -> NoDup (map fst (fold_left f l0 d)) /\ length (fold_left f l0 d) <= length d + length l0 /\
      (length (fold_left f l0 d) = length d + length l0 -> NoDup (map fst d ++ map (fun ib => ib_pair (snd ib)) l0))).
    { induction l0 as [|x l0 IH]; intros d Hd; cbn [fold_left map length]; [rewrite app_nil_r; split; [exact Hd|split; [lia|auto]]|].
      assert (Hs : forall (d : list ((nat * nat) * nat)) k v, In k (map fst d) -> map fst (dset pair_eqb d k v) = map fst d).
      { induction d0 as [|(k', v') d0 IH0]; intros k v Hin; [destruct Hin|]. cbn [dset]. destruct (pair_eqb k' k) eqn:Ek; [reflexivity|]. cbn [map fst In] in *. rewrite IH0; auto. destruct Hin as [->|]; auto. rewrite (proj2 (pair_eqb_eq k k) eq_refl) in Ek. discriminate. }
      destruct (in_dec (fun a b : nat * nat => ltac:(decide equality; apply Nat.eq_dec)) (ib_pair (snd x)) (map fst d)) as [Hin|Hni].
      - destruct (IH (f d x)) as (I1 & I2 & I3); [unfold f; now rewrite Hs|]. assert (El : length (f d x) = length d) by (rewrite <- (map_length fst), <- (map_length fst d); unfold f; now rewrite Hs).
        split; [exact I1|]. split; [lia|]. intros E. exfalso. lia.
      - assert (Ed : f d x = d ++ [(ib_pair (snd x), fst x)]) by (unfold f; now rewrite (dset_new pair_eqb pair_eqb_eq)).
        destruct (IH (f d x)) as (I1 & I2 & I3).
        { rewrite Ed, map_app. cbn [map fst]. apply NoDup_app; [exact Hd|repeat constructor; intros []|intros a Ha [<-|[]]; auto]. }
        assert (El : length (f d x) = length d + 1) by (rewrite Ed, app_length; reflexivity). split; [exact I1|]. split; [lia|]. intros E. specialize (I3 ltac:(lia)). rewrite Ed, map_app, <- app_assoc in I3. exact I3. }
    destruct (Hk (enumerate l) [] ltac:(constructor)) as (_ & H2 & H3). cbn [length map app Nat.add] in *.
    assert (El : length (enumerate l) = length l) by (unfold enumerate, enumerate_from; rewrite combine_length, seq_length; lia).
    assert (E : map (fun ib : nat * irbi => ib_pair (snd ib)) (enumerate l) = map ib_pair l).
    { unfold enumerate, enumerate_from. clear. generalize 0. induction l as [|b l IH]; intros n; cbn [length seq combine map]; auto. cbn [snd]. now rewrite IH. }
    rewrite El in *. rewrite E in H3. destruct (Nat.eqb_spec (length (fold_left f (enumerate l) [])) (length l)) as [Eq|Eq]; [exfalso; auto|reflexivity].
  Qed.

  Lemma send_all_ok (l : list irbi) : (forall b, In b l -> exists m, pack (ib_remote b) (ib_conn b) = Ok m) ->
    exists ms, send_all pack l = (ms, None) /\ Forall2 (fun b dm => exists m, pack (ib_remote b) (ib_conn b) = Ok m /\ dm = (ib_rank b, (ib_local b, ib_remote b, m))) l ms.
  Proof.
    induction l as [|b l IH]; intros H; cbn [send_all]; [exists []; split; [reflexivity|constructor]|]. destruct (H b (or_introl eq_refl)) as (m & Em). rewrite Em. destruct IH as (ms & Es & HF); [intros; apply H; now right|]. rewrite Es.
    eexists. split; [reflexivity|]. constructor; eauto.
  Qed.

  (** ** receiving *)
  Lemma receive_ok (l : list irbi) (data : list (option (nat * msg))) i b src (m : M) : NoDup (map ib_pair l) -> length data = length l -> nth_error l i = Some b -> nth_error data i = Some None ->
    receive (pendings l) data (src, (ib_remote b, ib_local b, m)) = Ok (upd data i (Some (src, (ib_remote b, ib_local b, m)))).
  Proof.
    intros Hn Hl Hb Hd. unfold receive. rewrite (dget_nth pair_eqb pair_eqb_eq (pendings l) i (ib_local b, ib_remote b) i); [|now rewrite pendings_keys|now apply (pendings_nth l i b)]. cbn [bind].
    unfold get. rewrite Hd. cbn [bind]. unfold put. assert (i < length data) by (apply nth_error_Some; congruence). destruct (Nat.ltb_spec i (length data)); [reflexivity|lia].
  Qed.

  (** ** building the connections *)
  Definition filled (r : nat) (l : list irbi) (data : list (option (nat * msg))) : Prop :=
    Forall2 (fun b x => exists m o, x = Some (ib_rank b, (ib_remote b, ib_local b, m)) /\ link (ib_conn b) m = Ok o) l data.
  Definition linked (old : bool) (b : irbi) (x : option (nat * msg)) (kv : ckey * O) : Prop :=
    fst kv = key_of old (ib_remote b) (ib_local b) /\ exists m, x = Some (ib_rank b, (ib_remote b, ib_local b, m)) /\ link (ib_conn b) m = Ok (snd kv).

  Lemma build_ok r old (l : list irbi) (data : list (option (nat * msg))) : NoDup (map ib_pair l) -> (old = true -> NoDup (map ib_remote l)) -> filled r l data ->
    exists conns, build link old l (pendings l) data = Ok (conns, []) /\ length conns = length l /\ forall i b x, nth_error l i = Some b -> nth_error data i = Some x -> exists kv, nth_error conns i = Some kv /\ linked old b x kv.
  Proof.
    intros Hn Hold Hf. unfold build. rewrite (dset_all pair_eqb pair_eqb_eq ib_pair (fun b => b)) by exact Hn. cbn [app]. rewrite map_length, Nat.leb_refl. cbn [guard bind].
    set (d := map (fun x => (ib_pair x, x)) l). assert (Hdk : NoDup (map fst d)) by (unfold d; rewrite map_map; exact Hn).
    assert (Hkeys : NoDup (map (fun b => key_of old (ib_remote b) (ib_local b)) l)).
    { destruct old; cbn [key_of].
      - rewrite <- (map_map ib_remote KRemote). apply NoDup_map_inj; [congruence|auto].
      - assert (Ek : map (fun b : irbi => KPair (ib_remote b) (ib_local b)) l = map (fun lr : nat * nat => KPair (snd lr) (fst lr)) (map ib_pair l)) by (rewrite map_map; reflexivity). rewrite Ek. apply NoDup_map_inj; [|exact Hn]. intros (a1, a2) (b1, b2) _ _ H. cbn [fst snd] in H. congruence. }
    match goal with |- exists conns, bind (foldM ?f data ([], ?p)) _ = _ /\ _ => set (ff := f) end.
    assert (Hgen : forall l2 data2 l1 conns1 pend2, l = l1 ++ l2 -> Forall2 (fun b x => exists m o, x = Some (ib_rank b, (ib_remote b, ib_local b, m)) /\ link (ib_conn b) m = Ok o) l2 data2 ->
      map fst pend2 = map ib_pair l2 -> map fst conns1 = map (fun b => key_of old (ib_remote b) (ib_local b)) l1 ->
      exists conns2, foldM ff data2 (conns1, pend2) = Ok (conns1 ++ conns2, []) /\ length conns2 = length l2 /\ forall i b x, nth_error l2 i = Some b -> nth_error data2 i = Some x -> exists kv, nth_error conns2 i = Some kv /\ linked old b x kv).
    { induction l2 as [|b l2 IH]; intros data2 l1 conns1 pend2 El HF Hp Hc; inversion HF as [|? x ? data3 (m & o & Ex & Eo) HF']; subst.
      - destruct pend2; [|discriminate]. exists []. rewrite app_nil_r. split; [reflexivity|]. split; [reflexivity|]. intros i b x Hb. destruct i; discriminate.
      - destruct pend2 as [|(k, j) pend3]; [discriminate|]. cbn [map fst] in Hp. injection Hp as Hk Hp. subst k.
        assert (Hstep : ff (conns1, (ib_pair b, j) :: pend3) (Some (ib_rank b, (ib_remote b, ib_local b, m))) = Ok (conns1 ++ [(key_of old (ib_remote b) (ib_local b), o)], pend3)).
        { unfold ff. rewrite (dget_nth pair_eqb pair_eqb_eq d (length l1) (ib_local b, ib_remote b) b Hdk).
          2:{ unfold d. rewrite map_app, nth_error_app2; rewrite map_length; [|lia]. rewrite Nat.sub_diag. reflexivity. }
          cbn [bind]. rewrite Nat.eqb_refl. cbn [guard bind]. rewrite Eo. cbn [bind snd fst]. change (ib_local b, ib_remote b) with (ib_pair b). rewrite (ddel_head pair_eqb pair_eqb_eq).
          - cbn [bind]. rewrite (dset_new ckey_eqb ckey_eqb_ok); [reflexivity|]. rewrite Hc. rewrite map_app in Hkeys. cbn [map] in Hkeys. apply NoDup_remove_2 in Hkeys. rewrite in_app_iff in Hkeys. tauto.
          - cbn [map fst]. rewrite Hp. rewrite map_app in Hn. apply NoDup_app_inv in Hn. cbn [map] in Hn. tauto. }
        cbn [foldM]. rewrite Hstep. cbn [bind]. destruct (IH data3 (l1 ++ [b]) (conns1 ++ [(key_of old (ib_remote b) (ib_local b), o)]) pend3) as (conns2 & E2 & Hl2 & H2).
        + now rewrite <- app_assoc.
        + exact HF'.
        + exact Hp.
        + rewrite !map_app, Hc. reflexivity.
        + exists ((key_of old (ib_remote b) (ib_local b), o) :: conns2). rewrite E2, <- app_assoc. split; [reflexivity|]. split; [cbn [length]; lia|]. intros i b0 x Hb Hx. destruct i as [|i]; cbn [nth_error] in *.
          * injection Hb as <-. injection Hx as <-. eexists. split; [reflexivity|]. split; [reflexivity|]. exists m. auto.
          * eauto. }
    destruct (Hgen l data [] [] (pendings l) eq_refl Hf) as (conns & E & Hl & Hc); [apply pendings_keys|reflexivity|]. rewrite E. cbn [bind snd length guard Nat.eqb app]. exists conns. auto.
  Qed.
End Helper.
