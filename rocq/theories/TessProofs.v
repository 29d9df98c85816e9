(** * TessProofs: refinement batches and tessellation information *)
From Coq Require Import List Arith Bool ZArith Permutation Lia.
From Verif Require Import Np NpFacts MeshModel MeshSpec MeshProofs MeshStateModel MergeProofs SplitProofs FlipProofs PointProofs RefineModel RefineSpec RefineProofs.
Import ListNotations.

(** ** Batches *)
(** The part of bin [b] that comes from element [i] *)
Definition bin_part (b : nat) (em : nat * list nat) : list (nat * nat) :=
  match b, snd em with
  | 0, [t] => [(fst em, t)]
  | 0, _ => []
  | S c, [t] => []
  | S c, ts => match nth_error ts c with Some t => [(fst em, t)] | None => [] end
  end.

Lemma bins_loop n l : forall bins, length bins = S n -> Forall (fun em : nat * list nat => length (snd em) = 1 \/ length (snd em) = n) l ->
  exists bins', foldM (fun bins em =>
            let '(iel, targets) := (em : nat * list nat) in
            match targets, bins with
            | [t], b0 :: rest => Ok ((b0 ++ [(iel, t)]) :: rest)
            | _, b0 :: rest =>
                _ <- guard (length targets =? n) AssertionError ;;
                Ok (b0 :: map (fun bt => fst bt ++ [(iel, snd bt)]) (combine rest targets))
            | _, [] => Err IndexError
            end) l bins = Ok bins' /\ length bins' = S n /\
    forall b, b < S n -> exists b0, nth_error bins b = Some b0 /\ nth_error bins' b = Some (b0 ++ flat_map (bin_part b) l).
Proof.
  induction l as [|(i, ts) l IH]; intros bins Hb Hl.
  - exists bins. split; [reflexivity|]. split; auto. intros b Hbn. destruct (nth_error bins b) as [b0|] eqn:E; [|apply nth_error_None in E; lia].
    exists b0. cbn [flat_map]. now rewrite app_nil_r.
  - apply Forall_cons_iff in Hl as (Hi & Hl). cbn [snd] in Hi.
    assert (Hs : exists bins1, match ts, bins with
            | [t], b0 :: rest => Ok ((b0 ++ [(i, t)]) :: rest)
            | _, b0 :: rest =>
                _ <- guard (length ts =? n) AssertionError ;;
                Ok (b0 :: map (fun bt => fst bt ++ [(i, snd bt)]) (combine rest ts))
            | _, [] => Err IndexError
            end = Ok bins1 /\ length bins1 = S n /\ forall b, b < S n -> exists b0, nth_error bins b = Some b0 /\ nth_error bins1 b = Some (b0 ++ bin_part b (i, ts))).
    { destruct bins as [|b0 rest]; [discriminate|]. cbn [length] in Hb. injection Hb as Hb.
      assert (G : length ts <> 1 -> exists bins1, (_ <- guard (length ts =? n) AssertionError ;;
                Ok (b0 :: map (fun bt => fst bt ++ [(i, snd bt)]) (combine rest ts))) = Ok bins1 /\ length bins1 = S n /\
                forall b, b < S n -> exists b1, nth_error (b0 :: rest) b = Some b1 /\ nth_error bins1 b = Some (b1 ++ bin_part b (i, ts))).
      { intros Hne. destruct Hi as [Hi|Hi]; [lia|]. rewrite (proj2 (Nat.eqb_eq _ _) Hi). cbn [guard bind]. eexists. split; [reflexivity|].
        split; [cbn [length]; rewrite map_length, combine_length; lia|].
        intros [|c] Hc.
        - exists b0. cbn [nth_error]. split; auto. unfold bin_part. cbn [snd fst]. destruct ts as [|t [|t' ts]]; [|cbn in Hne; lia|]; now rewrite app_nil_r.
        - cbn [nth_error]. destruct (nth_error rest c) as [b1|] eqn:E1; [|apply nth_error_None in E1; lia].
          destruct (nth_error ts c) as [t|] eqn:E2; [|apply nth_error_None in E2; lia].
          exists b1. split; auto. rewrite nth_error_map, (proj2 (nth_error_combine_Some _ _ c b1 t) (conj E1 E2)). cbn [option_map fst snd]. f_equal. f_equal.
          unfold bin_part. cbn [snd fst]. destruct ts as [|t0 [|t1 ts]]; [destruct c; discriminate|cbn in Hne; lia|now rewrite E2]. }
      destruct ts as [|t [|t' ts]].
      - apply G. discriminate.
      - eexists. split; [reflexivity|]. split; [cbn [length]; lia|]. intros [|c] Hc; cbn [nth_error].
        + exists b0. auto.
        + destruct (nth_error rest c) as [b1|] eqn:E1; [|apply nth_error_None in E1; lia]. exists b1. cbn [bin_part snd]. now rewrite app_nil_r.
      - apply G. cbn; lia. }
    destruct Hs as (bins1 & Hs & Hl1 & H1). destruct (IH bins1 Hl1 Hl) as (bins' & Hf & Hl' & H').
    exists bins'. split; [cbn [foldM]; rewrite Hs; cbn [bind]; exact Hf|]. split; auto.
    intros b Hbn. destruct (H1 b Hbn) as (b0 & E0 & E1). destruct (H' b Hbn) as (b1 & E1' & E2).
    exists b0. split; auto. rewrite E2. cbn [flat_map]. rewrite app_assoc. congruence.
Qed.

Lemma bin_part_NoDup b em : NoDup (map snd (bin_part b em)).
Proof.
  assert (H : bin_part b em = [] \/ exists x, bin_part b em = [x]).
  { unfold bin_part. destruct b as [|c]; destruct (snd em) as [|t0 [|t1 ch]]; eauto.
    - destruct (nth_error [] c); eauto.
    - destruct (nth_error (t0 :: t1 :: ch) c); eauto. }
  destruct H as [-> |(x & ->)]; [constructor|]. constructor; [intros []|constructor].
Qed.

Lemma In_bin_part b i ts i' t : In (i', t) (bin_part b (i, ts)) <->
  i' = i /\ ((b = 0 /\ length ts = 1 /\ nth_error ts 0 = Some t) \/ (exists c, b = S c /\ length ts <> 1 /\ nth_error ts c = Some t)).
Proof.
  unfold bin_part. cbn [fst snd]. destruct b as [|c].
  - destruct ts as [|t0 [|t1 ts]]; cbn [In length nth_error].
    + split; [intros []|intros (_ & [(_ & H & _)|(c & H & _)]); discriminate].
    + split.
      * intros [[= <- <-]|[]]. split; auto.
      * intros (-> & [(_ & _ & [= ->])|(c & H & _)]); [now left|discriminate].
    + split; [intros []|intros (_ & [(_ & H & _)|(c & H & _)]); discriminate].
  - assert (G : length ts <> 1 -> In (i', t) (match nth_error ts c with Some t => [(i, t)] | None => [] end) <->
                i' = i /\ ((S c = 0 /\ length ts = 1 /\ nth_error ts 0 = Some t) \/ (exists c0, S c = S c0 /\ length ts <> 1 /\ nth_error ts c0 = Some t))).
    { intros Hne. destruct (nth_error ts c) as [t'|] eqn:E; cbn [In].
      - split.
        + intros [[= <- <-]|[]]. split; auto. right. exists c. auto.
        + intros (-> & [(H & _)|(c0 & [= <-] & _ & H)]); [discriminate|]. left. congruence.
      - split; [intros []|]. intros (-> & [(H & _)|(c0 & [= <-] & _ & H)]); [discriminate|congruence]. }
    destruct ts as [|t0 [|t1 ts]].
    + apply G. discriminate.
    + cbn [In length]. split; [intros []|]. intros (_ & [(H & _)|(c0 & _ & H & _)]); [discriminate|lia].
    + apply G. cbn; lia.
Qed.

Lemma child_of_inj flags n nnew mapping i c i' c' j : distributes n flags nnew mapping -> child_of mapping i c j -> child_of mapping i' c' j -> i = i' /\ c = c'.
Proof.
  intros (Hl & Hc & Hn) (ch & Hch & Hj) (ch' & Hch' & Hj').
  assert (HN : NoDup (concat mapping)) by (rewrite Hc; apply seq_NoDup).
  pose proof (concat_nth mapping i ch c j Hch Hj) as H1. pose proof (concat_nth mapping i' ch' c' j Hch' Hj') as H2.
  assert (E : base (map (@length nat) mapping) i + c = base (map (@length nat) mapping) i' + c').
  { apply (proj1 (NoDup_nth_error _) HN); [apply nth_error_Some|]; congruence. }
  assert (O1 : owns (map (@length nat) mapping) i (base (map (@length nat) mapping) i + c)).
  { exists (length ch). split; [rewrite nth_error_map, Hch; reflexivity|]. assert (c < length ch) by (apply nth_error_Some; congruence). lia. }
  assert (O2 : owns (map (@length nat) mapping) i' (base (map (@length nat) mapping) i + c)).
  { rewrite E. exists (length ch'). split; [rewrite nth_error_map, Hch'; reflexivity|]. assert (c' < length ch') by (apply nth_error_Some; congruence). lia. }
  pose proof (owns_unique _ _ _ _ O1 O2) as ->. split; auto. lia.
Qed.

Lemma refinement_batches_ok n flags nnew mapping : n <> 1 -> distributes n flags nnew mapping ->
  exists bs, refinement_batches n mapping = Ok bs /\ batches_follow flags nnew mapping bs.
Proof.
  intros Hn1 Hd. pose proof Hd as (Hl & Hc & Hn). unfold refinement_batches.
  destruct (bins_loop n (enumerate mapping) (repeat [] (S n)) (repeat_length _ _)) as (bins & Hf & Hbl & Hb).
  { apply Forall_forall. intros (i, ch) Hin. apply In_enumerate in Hin. cbn [snd].
    destruct (nth_error flags i) as [f|] eqn:Ef; [|apply nth_error_None in Ef; assert (i < length mapping) by (apply nth_error_Some; congruence); lia].
    specialize (Hn i f ch Ef Hin). destruct f; auto. }
  rewrite Hf. cbn [bind]. eexists. split; [reflexivity|].
  assert (Hbin : forall b bb, nth_error bins b = Some bb -> bb = flat_map (bin_part b) (enumerate mapping)).
  { intros b bb E. assert (b < S n) by (rewrite <- Hbl; apply nth_error_Some; congruence).
    destruct (Hb b H) as (b0 & E0 & E1). apply nth_error_In in E0. apply repeat_spec in E0. subst b0. cbn [app] in E1. congruence. }
  assert (Hmem : forall b bb i j, nth_error bins b = Some bb -> In (i, j) bb ->
            (nth_error flags i = Some false /\ b = 0 /\ child_of mapping i 0 j) \/ (nth_error flags i = Some true /\ exists c, b = S c /\ child_of mapping i c j)).
  { intros b bb i j E Hin. apply Hbin in E. subst bb. apply in_flat_map in Hin as ((i0, ch) & Hch & Hp). apply In_enumerate in Hch.
    apply In_bin_part in Hp as (-> & Hp).
    destruct (nth_error flags i0) as [f|] eqn:Ef; [|apply nth_error_None in Ef; assert (i0 < length mapping) by (apply nth_error_Some; congruence); lia].
    specialize (Hn i0 f ch Ef Hch). destruct f, Hp as [(-> & H1 & H2)|(c & -> & H1 & H2)]; try lia.
    - right. split; auto. exists c. split; auto. exists ch. auto.
    - left. split; auto. split; auto. exists ch. auto. }
  assert (Hex : forall i c j f, child_of mapping i c j -> nth_error flags i = Some f -> exists b bb, nth_error bins b = Some bb /\ In (i, j) bb).
  { intros i c j f (ch & Hch & Hj) Ef. specialize (Hn i f ch Ef Hch). assert (Hcl : c < length ch) by (apply nth_error_Some; congruence).
    assert (G : forall b, b < S n -> In (i, j) (bin_part b (i, ch)) -> exists b bb, nth_error bins b = Some bb /\ In (i, j) bb).
    { intros b Hbn Hin. destruct (nth_error bins b) as [bb|] eqn:E; [|apply nth_error_None in E; lia]. exists b, bb. split; auto.
      rewrite (Hbin _ _ E). apply in_flat_map. exists (i, ch). split; auto. now apply In_enumerate. }
    destruct f.
    - apply (G (S c)); [lia|]. apply In_bin_part. split; auto. right. exists c. split; auto. split; auto. lia.
    - assert (c = 0) by lia. subst c. apply (G 0); [lia|]. apply In_bin_part. split; auto. }
  set (sel := filter (fun ib : nat * list (nat * nat) => negb (length (snd ib) =? 0)) (enumerate bins)).
  assert (Hsel : forall b bb, In (b, bb) sel <-> nth_error bins b = Some bb /\ bb <> []).
  { intros b bb. unfold sel. rewrite filter_In, In_enumerate. cbn [snd]. destruct bb; cbn; split; intros (H1 & H2); split; auto; congruence. }
  assert (HNsel : NoDup (map fst sel)).
  { unfold sel. clear. generalize (fun ib : nat * list (nat * nat) => negb (length (snd ib) =? 0)) as p. intros p. unfold enumerate, enumerate_from. generalize 0 as k. induction bins as [|b bins IH]; intros k; cbn [length seq combine filter]; [constructor|].
    destruct (p _); [|apply IH]. cbn [map]. constructor; [|apply IH].
    intros Hin. apply in_map_iff in Hin as ((q, x) & Eq & Hin). apply filter_In in Hin as (Hin & _). apply in_combine_l in Hin. apply in_seq in Hin. cbn in Eq. lia. }
  assert (HNb : forall b bb, nth_error bins b = Some bb -> NoDup (map snd bb)).
  { intros b bb E. rewrite (Hbin _ _ E). rewrite flat_map_concat_map, concat_map, map_map, <- flat_map_concat_map.
    apply NoDup_flat_map.
    - apply NoDup_map_inv with (f := fst). unfold enumerate, enumerate_from. rewrite combine_fst by now rewrite seq_length. apply seq_NoDup.
    - intros em _. apply bin_part_NoDup.
    - intros (i, ch) (i', ch') j H1 H2 Hj Hj'.
      apply in_map_iff in Hj as ((k, j0) & Ej & Hj). apply in_map_iff in Hj' as ((k', j0') & Ej' & Hj'). cbn [snd] in Ej, Ej'. subst j0 j0'.
      apply In_enumerate in H1, H2. apply In_bin_part in Hj as (-> & Hj). apply In_bin_part in Hj' as (-> & Hj').
      assert (C1 : exists c, child_of mapping i c j) by (destruct Hj as [(_ & _ & H)|(c & _ & _ & H)]; eexists; exists ch; eauto).
      assert (C2 : exists c, child_of mapping i' c j) by (destruct Hj' as [(_ & _ & H)|(c & _ & _ & H)]; eexists; exists ch'; eauto).
      destruct C1 as (c1 & C1), C2 as (c2 & C2). destruct (child_of_inj _ _ _ _ _ _ _ _ _ Hd C1 C2) as (-> & _). congruence. }
  split; [|split].
  - rewrite map_map. cbn [rb_to]. rewrite <- flat_map_concat_map. apply NoDup_Permutation; [|apply seq_NoDup|].
    + apply NoDup_flat_map; [now apply NoDup_map_inv in HNsel| |].
      * intros (b, bb) Hin. apply Hsel in Hin as (E & _). cbn [snd]. eauto.
      * intros (b, bb) (b', bb') j H1 H2 Hj Hj'. cbn [snd] in Hj, Hj'. apply Hsel in H1 as (E1 & _). apply Hsel in H2 as (E2 & _).
        apply in_map_iff in Hj as ((i, j0) & Ej & Hj). apply in_map_iff in Hj' as ((i', j0') & Ej' & Hj'). cbn [snd] in Ej, Ej'. subst j0 j0'.
        destruct (Hmem _ _ _ _ E1 Hj) as [(F1 & -> & C1)|(F1 & c1 & -> & C1)], (Hmem _ _ _ _ E2 Hj') as [(F2 & -> & C2)|(F2 & c2 & -> & C2)];
          destruct (child_of_inj _ _ _ _ _ _ _ _ _ Hd C1 C2) as (-> & Hcc); try congruence.
    + intros j. rewrite in_flat_map, in_seq. split.
      * intros ((b, bb) & Hin & Hj). cbn [snd] in Hj. apply Hsel in Hin as (E1 & _). apply in_map_iff in Hj as ((i, j0) & Ej & Hj). cbn [snd] in Ej. subst j0.
        assert (C : exists c, child_of mapping i c j) by (destruct (Hmem _ _ _ _ E1 Hj) as [(_ & _ & C)|(_ & c & _ & C)]; eauto).
        destruct C as (c & ch & Hch & Hcj). assert (Hin : In j (concat mapping)) by (apply in_concat; exists ch; split; eapply nth_error_In; eauto).
        rewrite Hc in Hin. apply in_seq in Hin. lia.
      * intros Hj. destruct (child_exists n flags nnew mapping j Hd) as (i & c & f & C & Ef & _); [lia|].
        destruct (Hex i c j f C Ef) as (b & bb & E1 & Hin). exists (b, bb). split; [apply Hsel; split; auto; intros ->; destruct Hin|].
        cbn [snd]. apply in_map_iff. exists (i, j). auto.
  - apply Forall_forall. intros rb Hin. apply in_map_iff in Hin as ((b, bb) & <- & Hin). apply Hsel in Hin as (E1 & Hne). cbn [fst snd rb_to rb_from rb_nodes].
    split; [destruct bb; [congruence|discriminate]|]. clear Hne.
    assert (Hm : forall i j, In (i, j) bb -> (nth_error flags i = Some false /\ b = 0 /\ child_of mapping i 0 j) \/
                         (nth_error flags i = Some true /\ exists c, b = S c /\ child_of mapping i c j)) by eauto.
    clear - Hm. induction bb as [|(i, j) bb IH]; cbn [map fst snd]; constructor; [apply Hm; now left|]. apply IH. intros; apply Hm; now right.
  - rewrite map_map. cbn [rb_nodes]. exact HNsel.
Qed.

(** ** Tessellation information *)
Lemma tuple_eqb_eq a b : tuple_eqb a b = true <-> a = b.
Proof. unfold tuple_eqb. destruct (list_eq_dec Nat.eq_dec a b); split; congruence. Qed.

Lemma index_of_tuple_ok l t : In t l -> exists i, index_of_tuple l t = Ok i /\ nth_error l i = Some t.
Proof.
  intros Hin. unfold index_of_tuple. destruct (find _ (enumerate l)) as [(i, t')|] eqn:Ef.
  - apply find_some in Ef as (Hi & Ht). apply In_enumerate in Hi. cbn [snd] in Ht. apply tuple_eqb_eq in Ht. subst t'. exists i. auto.
  - exfalso. apply In_nth_error in Hin as (i & Hi). assert (Hx : In (i, t) (enumerate l)) by now apply In_enumerate.
    apply (find_none _ _ Ef) in Hx. cbn [snd] in Hx. rewrite (proj2 (tuple_eqb_eq t t) eq_refl) in Hx. discriminate.
Qed.

Lemma double_sum a s : tuple_sum a a s <-> s = double a.
Proof.
  split.
  - revert s; induction a as [|x a IH]; intros s H; inversion H; subst; [reflexivity|]. cbn. f_equal. now apply IH.
  - intros ->. induction a; cbn; constructor; auto.
Qed.

Lemma double_inj a b : double a = double b -> a = b.
Proof.
  revert b; induction a as [|x a IH]; intros [|y b] H; cbn in H; try discriminate; auto. injection H as H1 H2. f_equal; [lia|auto].
Qed.

Lemma tuple_sum_fun a b s s' : tuple_sum a b s -> tuple_sum a b s' -> s = s'.
Proof. intros H. revert s'; induction H; intros s' H'; inversion H'; subst; auto. f_equal; auto. Qed.

Lemma midpoint_double a b : length a = length b -> exists m, midpoint_tuples (double a) (double b) = Ok m /\ tuple_sum a b m.
Proof.
  unfold midpoint_tuples, double. rewrite !map_length. intros H. rewrite (proj2 (Nat.eqb_eq _ _) H). cbn [guard bind].
  revert b H; induction a as [|x a IH]; intros [|y b] H; try discriminate.
  - exists []. split; [reflexivity|constructor].
  - cbn [length] in H. destruct (IH b (eq_add_S _ _ H)) as (m & Hm & Hs). exists (x + y :: m). split; [|constructor; auto].
    cbn [map combine mapM fst snd]. replace (x + x + (y + y)) with (2 * (x + y)) by lia.
    rewrite Nat.even_mul. cbn [Nat.even orb guard bind]. rewrite Nat.mul_comm, Nat.div_mul by lia. cbn [bind]. rewrite Hm. reflexivity.
Qed.

Lemma In_mapM_concat {X Y} (f : X -> res (list Y)) l ls y : mapM f l = Ok ls -> (In y (concat ls) <-> exists x r, In x l /\ f x = Ok r /\ In y r).
Proof.
  intros H. apply mapM_ok in H. split.
  - intros Hin. apply in_concat in Hin as (r & Hr & Hy). destruct (Forall2_In_r _ _ _ _ H Hr) as (x & Hx & Hf). eauto.
  - intros (x & r & Hx & Hf & Hy). destruct (Forall2_In_l _ _ _ _ H Hx) as (r' & Hr' & Hf'). assert (r' = r) by congruence. subst r'.
    apply in_concat. eauto.
Qed.

Lemma mapM_exists {X Y} (f : X -> res Y) l : (forall x, In x l -> exists y, f x = Ok y) -> exists ys, mapM f l = Ok ys.
Proof.
  induction l as [|x l IH]; intros H; [exists []; reflexivity|]. destruct (H x (or_introl eq_refl)) as (y & Hy).
  destruct IH as (ys & Hys); [intros; apply H; now right|]. exists (y :: ys). cbn [mapM]. rewrite Hy. cbn [bind]. rewrite Hys. reflexivity.
Qed.

Lemma tessellation_info_ok submesh ref2 ref1 : halves ref2 ref1 ->
  Forall (fun c => length c = length ref1 /\ Forall (fun r => r < length ref2) c) (submesh ref2) ->
  exists ts, tessellation_info submesh ref2 ref1 = Ok ts /\ tess_ok ts /\ ts_nref ts = length ref2 /\ ts_children ts = submesh ref2 /\
    length (ts_orig ts) = length ref1 /\
    (forall j r, nth_error (ts_orig ts) j = Some r -> exists a s, nth_error ref1 j = Some a /\ tuple_sum a a s /\ nth_error ref2 r = Some s) /\
    (forall k r a b, nth_error (ts_mid ts) k = Some r -> nth_error (ts_pairs ts) k = Some (a, b) ->
       a < b /\ exists ta tb m, nth_error ref1 a = Some ta /\ nth_error ref1 b = Some tb /\ nth_error ref2 r = Some m /\ tuple_sum ta tb m).
Proof.
  intros (HN2 & HN1 & Hdbl & (d & Hdim) & Hhalf) Hkids. unfold tessellation_info.
  set (orig := map double ref1).
  assert (Horig : forall t, In t orig -> In t ref2).
  { intros t Ht. apply in_map_iff in Ht as (a & <- & Ha). destruct (Hdbl a Ha) as (s & Hs & Hin). apply double_sum in Hs. now subst s. }
  destruct (mapM_exists (index_of_tuple ref2) orig) as (oi & Hoi).
  { intros t Ht. destruct (index_of_tuple_ok ref2 t (Horig t Ht)) as (i & Hi & _). eauto. }
  rewrite Hoi. cbn [bind].
  set (mids := filter (fun rv => negb (existsb (tuple_eqb rv) orig)) ref2).
  assert (Hmids : forall t, In t mids <-> In t ref2 /\ ~ In t orig).
  { intros t. unfold mids. rewrite filter_In. split; intros (H1 & H2); split; auto.
    - intros Hin. apply negb_true_iff in H2. assert (existsb (tuple_eqb t) orig = true) by (apply existsb_exists; exists t; split; auto; now apply tuple_eqb_eq). congruence.
    - apply negb_true_iff. destruct (existsb (tuple_eqb t) orig) eqn:E; auto. exfalso. apply H2. apply existsb_exists in E as (t' & Ht' & Et). apply tuple_eqb_eq in Et. now subst. }
  destruct (mapM_exists (index_of_tuple ref2) mids) as (mi & Hmi).
  { intros t Ht. apply Hmids in Ht as (Ht & _). destruct (index_of_tuple_ok ref2 t Ht) as (i & Hi & _). eauto. }
  rewrite Hmi. cbn [bind].
  set (inner := fun ii : nat * list nat => mapM (fun jj : nat * list nat => m <- midpoint_tuples (snd ii) (snd jj) ;; Ok (m, (fst ii, fst jj))) (enumerate orig)).
  assert (Hent : forall i t, In (i, t) (enumerate orig) -> exists a, nth_error ref1 i = Some a /\ t = double a /\ length a = d).
  { intros i t Hin. apply In_enumerate in Hin. unfold orig in Hin. rewrite nth_error_map in Hin. destruct (nth_error ref1 i) as [a|] eqn:Ea; [|discriminate].
    cbn in Hin. injection Hin as <-. exists a. split; auto. split; auto. apply Hdim. eapply nth_error_In; eauto. }
  assert (Hin1 : forall ii, In ii (enumerate orig) -> exists r, inner ii = Ok r).
  { intros (i, t) Hi. apply mapM_exists. intros (j, u) Hj. cbn [fst snd]. destruct (Hent _ _ Hi) as (a & _ & -> & La). destruct (Hent _ _ Hj) as (b & _ & -> & Lb).
    destruct (midpoint_double a b) as (m & -> & _); [congruence|]. cbn [bind]. eauto. }
  destruct (mapM_exists inner (enumerate orig) Hin1) as (ap & Hap). fold inner. rewrite Hap. cbn [bind].
  assert (HAP : forall m i j, In (m, (i, j)) (concat ap) <-> exists a b, nth_error ref1 i = Some a /\ nth_error ref1 j = Some b /\ tuple_sum a b m).
  { intros m i j. rewrite (In_mapM_concat _ _ _ _ Hap). split.
    - intros ((i0, t) & r & Hi & Hr & Hin). unfold inner in Hr. apply mapM_ok in Hr. destruct (Forall2_In_r _ _ _ _ Hr Hin) as ((j0, u) & Hj & Hm). cbn [fst snd] in Hm.
      destruct (Hent _ _ Hi) as (a & Ha & -> & La). destruct (Hent _ _ Hj) as (b & Hb & -> & Lb).
      destruct (midpoint_double a b) as (m' & Em & Hs); [congruence|]. rewrite Em in Hm. cbn [bind] in Hm. injection Hm as -> -> ->. eauto.
    - intros (a & b & Ha & Hb & Hs).
      assert (Hi : In (i, double a) (enumerate orig)) by (apply In_enumerate; unfold orig; rewrite nth_error_map, Ha; reflexivity).
      assert (Hj : In (j, double b) (enumerate orig)) by (apply In_enumerate; unfold orig; rewrite nth_error_map, Hb; reflexivity).
      destruct (Hin1 _ Hi) as (r & Hr). exists (i, double a), r. split; auto. split; auto.
      unfold inner in Hr. apply mapM_ok in Hr. destruct (Forall2_In_l _ _ _ _ Hr Hj) as (y & Hy & Ey). cbn [fst snd] in Ey.
      destruct (midpoint_double a b) as (m' & Em & Hs').
      { rewrite (Hdim a (nth_error_In _ _ Ha)), (Hdim b (nth_error_In _ _ Hb)). reflexivity. }
      rewrite Em in Ey. cbn [bind] in Ey. injection Ey as <-. rewrite (tuple_sum_fun _ _ _ _ Hs Hs'). exact Hy. }
  set (cand := filter (fun mij => (fst (snd mij) <? snd (snd mij)) && existsb (tuple_eqb (fst mij)) mids) (concat ap)).
  assert (Hcand : forall m i j, In (m, (i, j)) cand <-> i < j /\ In m mids /\ exists a b, nth_error ref1 i = Some a /\ nth_error ref1 j = Some b /\ tuple_sum a b m).
  { intros m i j. unfold cand. rewrite filter_In, HAP. cbn [fst snd]. rewrite andb_true_iff, Nat.ltb_lt, existsb_exists. split.
    - intros (H1 & H2 & (t & Ht & Et)). apply tuple_eqb_eq in Et. subst t. auto.
    - intros (H1 & H2 & H3). split; auto. split; auto. exists m. split; auto. now apply tuple_eqb_eq. }
  set (pick := fun m => match find (fun mij => tuple_eqb (fst mij) m) (rev cand) with Some mij => Ok (snd mij) | None => Err KeyError end).
  assert (Hpick : forall m p, pick m = Ok p -> In (m, p) cand).
  { intros m p. unfold pick. destruct (find _ (rev cand)) as [(m', p')|] eqn:Ef; [|discriminate]. intros [= <-]. cbn [snd].
    apply find_some in Ef as (Hin & Et). cbn [fst] in Et. apply tuple_eqb_eq in Et. subst m'. now apply in_rev. }
  destruct (mapM_exists pick mids) as (pairs & Hpairs).
  { intros m Hm. unfold pick. destruct (find _ (rev cand)) as [q|] eqn:Ef; [eauto|]. exfalso.
    pose proof (proj1 (Hmids m) Hm) as (Hm2 & Hno). destruct (Hhalf m Hm2) as (i & j & a & b & Hij & Ha & Hb & Hs).
    assert (i <> j).
    { intros ->. assert (a = b) by congruence. subst b. apply double_sum in Hs. apply Hno. subst m. apply in_map. eapply nth_error_In; eauto. }
    assert (Hc : In (m, (i, j)) cand) by (apply Hcand; split; [lia|]; eauto 6).
    apply in_rev in Hc. apply (find_none _ _ Ef) in Hc. cbn [fst] in Hc. assert (tuple_eqb m m = true) by now apply tuple_eqb_eq. congruence. }
  fold pick. rewrite Hpairs. cbn [bind]. eexists. split; [reflexivity|]. cbn [ts_nref ts_children ts_orig ts_mid ts_pairs].
  assert (Hidx : forall l idx, (forall t, In t l -> In t ref2) -> mapM (index_of_tuple ref2) l = Ok idx -> Forall2 (fun t i => nth_error ref2 i = Some t) l idx).
  { intros l idx Hl H. apply mapM_ok in H. apply Forall2_intro_nth; [apply (Forall2_length' _ _ _ H)|].
    intros k t i Ht Hi. destruct (Forall2_nth_error _ _ _ _ _ H Ht) as (i' & Hi' & E). assert (i' = i) by congruence. subst i'.
    destruct (index_of_tuple_ok ref2 t (Hl t (nth_error_In _ _ Ht))) as (i' & E' & Hn). congruence. }
  pose proof (Hidx _ _ Horig Hoi) as HFo. pose proof (Hidx _ _ (fun t Ht => proj1 (proj1 (Hmids t) Ht)) Hmi) as HFm.
  pose proof (proj1 (mapM_ok _ _ _) Hpairs) as HFp.
  assert (Hol : length oi = length ref1) by (rewrite <- (Forall2_length' _ _ _ HFo); unfold orig; apply map_length).
  assert (Hat : forall j r, nth_error oi j = Some r -> exists a s, nth_error ref1 j = Some a /\ tuple_sum a a s /\ nth_error ref2 r = Some s).
  { intros j r Hj. destruct (Forall2_nth_error_r _ _ _ _ _ HFo Hj) as (t & Ht & Hr). unfold orig in Ht. rewrite nth_error_map in Ht.
    destruct (nth_error ref1 j) as [a|] eqn:Ea; [|discriminate]. cbn in Ht. injection Ht as <-. exists a, (double a). split; auto. split; auto. now apply double_sum. }
  assert (Hpr : forall k r a b, nth_error mi k = Some r -> nth_error pairs k = Some (a, b) ->
       a < b /\ exists ta tb m, nth_error ref1 a = Some ta /\ nth_error ref1 b = Some tb /\ nth_error ref2 r = Some m /\ tuple_sum ta tb m).
  { intros k r a b Hk Hp. destruct (Forall2_nth_error_r _ _ _ _ _ HFm Hk) as (m & Hm & Hr).
    destruct (Forall2_nth_error _ _ _ _ _ HFp Hm) as (p & Hp' & Ep). assert (p = (a, b)) by congruence. subst p.
    apply Hpick, Hcand in Ep as (Hlt & _ & ta & tb & Ha & Hb & Hs). split; auto. exists ta, tb, m. auto. }
  split; [|split; [auto|split; [auto|split; [auto|split; auto]]]].
  unfold tess_ok. cbn [ts_nref ts_children ts_orig ts_mid ts_pairs]. split; [|split; [|split]].
  - apply NoDup_Permutation.
    + apply NoDup_app.
      * apply NoDup_nth_error. intros i j Hi E. destruct (nth_error oi i) as [r|] eqn:Er; [|apply nth_error_None in Er; lia].
        destruct (Forall2_nth_error_r _ _ _ _ _ HFo Er) as (t & Ht & Hr). destruct (Forall2_nth_error_r _ _ _ _ _ HFo (eq_sym E)) as (t' & Ht' & Hr').
        assert (t' = t) by congruence. subst t'.
        assert (HNo : NoDup orig) by (unfold orig; apply NoDup_map_inj; auto; intros ? ? _ _; apply double_inj).
        apply (proj1 (NoDup_nth_error _) HNo); [apply nth_error_Some; congruence|congruence].
      * apply NoDup_nth_error. intros i j Hi E. destruct (nth_error mi i) as [r|] eqn:Er; [|apply nth_error_None in Er; lia].
        destruct (Forall2_nth_error_r _ _ _ _ _ HFm Er) as (t & Ht & Hr). destruct (Forall2_nth_error_r _ _ _ _ _ HFm (eq_sym E)) as (t' & Ht' & Hr').
        assert (t' = t) by congruence. subst t'.
        assert (HNm : NoDup mids) by (unfold mids; now apply NoDup_filter).
        apply (proj1 (NoDup_nth_error _) HNm); [apply nth_error_Some; congruence|congruence].
      * intros r Hr Hr'. destruct (Forall2_In_r _ _ _ _ HFo Hr) as (t & Ht & E). destruct (Forall2_In_r _ _ _ _ HFm Hr') as (t' & Ht' & E').
        assert (t' = t) by congruence. subst t'. apply Hmids in Ht' as (_ & Hno). contradiction.
    + apply seq_NoDup.
    + intros r. rewrite in_app_iff, in_seq. split.
      * intros [Hr|Hr].
        -- destruct (Forall2_In_r _ _ _ _ HFo Hr) as (t & Ht & E). split; [lia|]. cbn. apply nth_error_Some. congruence.
        -- destruct (Forall2_In_r _ _ _ _ HFm Hr) as (t & Ht & E). split; [lia|]. cbn. apply nth_error_Some. congruence.
      * intros (_ & Hr). cbn in Hr. destruct (nth_error ref2 r) as [t|] eqn:Et; [|apply nth_error_None in Et; lia].
        assert (HI : forall i, nth_error ref2 i = Some t -> i = r) by (intros i Hi; apply (proj1 (NoDup_nth_error _) HN2); [apply nth_error_Some|]; congruence).
        destruct (in_dec (list_eq_dec Nat.eq_dec) t orig) as [Hin|Hno].
        -- left. destruct (Forall2_In_l _ _ _ _ HFo Hin) as (i & Hi & E). now rewrite <- (HI i E).
        -- right. assert (Hin : In t mids) by (apply Hmids; split; auto; eapply nth_error_In; eauto).
           destruct (Forall2_In_l _ _ _ _ HFm Hin) as (i & Hi & E). now rewrite <- (HI i E).
  - rewrite <- (Forall2_length' _ _ _ HFm). apply (Forall2_length' _ _ _ HFp).
  - apply Forall_forall. intros (a, b) Hin. cbn [fst snd]. apply In_nth_error in Hin as (k & Hk).
    assert (Hkm : k < length mi).
    { rewrite <- (Forall2_length' _ _ _ HFm), (Forall2_length' _ _ _ HFp). apply nth_error_Some. congruence. }
    destruct (nth_error mi k) as [r|] eqn:Er; [|apply nth_error_None in Er; lia].
    destruct (Hpr k r a b Er Hk) as (_ & ta & tb & m & Ha & Hb & _). rewrite Hol. split; apply nth_error_Some; congruence.
  - eapply Forall_impl; [|exact Hkids]. intros c (H1 & H2). split; auto. congruence.
Qed.

(** Node tuples of simplices and cubes of any dimension *)
Lemma tuple_sum_comm a b m : tuple_sum a b m -> tuple_sum b a m.
Proof. induction 1 as [|x y a b s H IH]; [constructor|]. rewrite Nat.add_comm. now constructor. Qed.

Lemma halves_from ref2 ref1 d : NoDup ref2 -> NoDup ref1 -> (forall a, In a ref1 -> length a = d) ->
  (forall a s, In a ref1 -> tuple_sum a a s -> In s ref2) ->
  (forall m, In m ref2 -> exists a b, In a ref1 /\ In b ref1 /\ tuple_sum a b m) -> halves ref2 ref1.
Proof.
  intros H2 H1 Hd Hs Hm. split; auto. split; auto. split; [intros a Ha; exists (double a); split; [now apply double_sum|apply (Hs a); auto; now apply double_sum]|].
  split; [eauto|]. intros m Hin. destruct (Hm m Hin) as (a & b & Ha & Hb & Hsum).
  apply In_nth_error in Ha as (i & Hi). apply In_nth_error in Hb as (j & Hj). destruct (Nat.le_gt_cases i j).
  - exists i, j, a, b. auto.
  - exists j, i, b, a. split; [lia|]. split; auto. split; auto. now apply tuple_sum_comm.
Qed.

Lemma cube_halves d ref2 ref1 : NoDup ref2 -> NoDup ref1 ->
  (forall t, In t ref2 <-> length t = d /\ Forall (fun x => x <= 2) t) -> (forall t, In t ref1 <-> length t = d /\ Forall (fun x => x <= 1) t) ->
  halves ref2 ref1.
Proof.
  intros HN2 HN1 H2 H1. apply halves_from with (d := d); auto.
  - intros a Ha. now apply H1.
  - intros a s Ha Hs. apply H2. apply H1 in Ha as (Hl & Hf). apply double_sum in Hs. subst s. unfold double. rewrite map_length. split; auto.
    rewrite Forall_map. eapply Forall_impl; [|exact Hf]. cbn. intros; lia.
  - intros m Hm. apply H2 in Hm as (Hl & Hf).
    assert (G : exists a b, length a = length m /\ length b = length m /\ Forall (fun x => x <= 1) a /\ Forall (fun x => x <= 1) b /\ tuple_sum a b m).
    { clear - Hf. induction m as [|x m IH]; [exists [], []; repeat split; constructor|]. apply Forall_cons_iff in Hf as (Hx & Hf).
      destruct (IH Hf) as (a & b & L1 & L2 & F1 & F2 & Hs). exists (Nat.min x 1 :: a), (x - Nat.min x 1 :: b).
      cbn [length]. split; [lia|]. split; [lia|]. split; [constructor; auto; lia|]. split; [constructor; auto; lia|].
      replace (x :: m) with (Nat.min x 1 + (x - Nat.min x 1) :: m) by (f_equal; lia). now constructor. }
    destruct G as (a & b & L1 & L2 & F1 & F2 & Hs). exists a, b. split; [apply H1; split; auto; congruence|]. split; [apply H1; split; auto; congruence|auto].
Qed.

Lemma tuple_zero n : tuple_sum (repeat 0 n) (repeat 0 n) (repeat 0 n).
Proof. induction n; cbn; constructor; auto. Qed.

Lemma tuple_sum_zero_l m : tuple_sum (repeat 0 (length m)) m m.
Proof. induction m as [|x m IH]; [constructor|]. cbn [length repeat]. change (tuple_sum (0 :: repeat 0 (length m)) (x :: m) (0 + x :: m)). now constructor. Qed.

Lemma sum_repeat_0 n : sum (repeat 0 n) = 0.
Proof. induction n; cbn; auto. Qed.

Lemma simplex_halves d ref2 ref1 : NoDup ref2 -> NoDup ref1 ->
  (forall t, In t ref2 <-> length t = d /\ sum t <= 2) -> (forall t, In t ref1 <-> length t = d /\ sum t <= 1) ->
  halves ref2 ref1.
Proof.
  intros HN2 HN1 H2 H1. apply halves_from with (d := d); auto.
  - intros a Ha. now apply H1.
  - intros a s Ha Hs. apply H2. apply H1 in Ha as (Hl & Hf). apply double_sum in Hs. subst s. unfold double. rewrite map_length. split; auto.
    assert (E : forall l, sum (map (fun x => x + x) l) = 2 * sum l) by (induction l as [|x l IH]; cbn in *; unfold sum in *; lia). rewrite E. lia.
  - intros m Hm. apply H2 in Hm as (Hl & Hf).
    assert (G : forall k, sum m <= k + 1 -> k <= 1 -> exists a b, length a = length m /\ length b = length m /\ sum a <= 1 /\ sum b <= k /\ tuple_sum a b m).
    { clear - m. induction m as [|x m IH]; intros k Hk Hk1; [exists [], []; cbn; repeat split; try lia; constructor|].
      cbn [sum fold_right] in Hk. fold (sum m) in Hk. destruct x as [|[|x]].
      - destruct (IH k ltac:(lia) Hk1) as (a & b & L1 & L2 & F1 & F2 & Hs). exists (0 :: a), (0 :: b). cbn [length sum fold_right]. fold (sum a) (sum b).
        repeat split; try lia. now constructor.
      - exists (1 :: repeat 0 (length m)), (0 :: m). cbn [length sum fold_right]. fold (sum m). fold (sum (repeat 0 (length m))).
        rewrite repeat_length, sum_repeat_0. repeat split; try lia. change (tuple_sum (1 :: repeat 0 (length m)) (0 :: m) (1 + 0 :: m)). constructor. apply tuple_sum_zero_l.
      - assert (k = 1 /\ x = 0 /\ sum m = 0) as (-> & -> & Hz) by lia.
        exists (1 :: repeat 0 (length m)), (1 :: m). cbn [length sum fold_right]. fold (sum m). fold (sum (repeat 0 (length m))).
        rewrite repeat_length, sum_repeat_0. repeat split; try lia. change (tuple_sum (1 :: repeat 0 (length m)) (1 :: m) (1 + 1 :: m)). constructor. apply tuple_sum_zero_l. }
    destruct (G 1) as (a & b & L1 & L2 & F1 & F2 & Hs); [lia|lia|].
    exists a, b. split; [apply H1; split; auto; congruence|]. split; [apply H1; split; auto; congruence|auto].
Qed.
