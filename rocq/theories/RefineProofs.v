(** * RefineProofs: proofs about refinement *)
From Coq Require Import List Arith Bool ZArith Permutation Lia.
From Verif Require Import Np NpFacts MeshModel MeshSpec MeshProofs MeshStateModel MergeProofs SplitProofs FlipProofs PointProofs RefineModel RefineSpec.
Import ListNotations.

Ltac okstep := match goal with |- context [bind (Ok ?x) ?f] => change (bind (Ok x) f) with (f x); cbv beta end.

(** ** Arrays filled block by block *)
Lemma scatter_app {X} (l : list X) a b : scatter l (a ++ b) = (l' <- scatter l a ;; scatter l' b).
Proof. unfold scatter. apply foldM_app. Qed.

Lemma place_spec {X} (l : list X) ivs :
  (forall i v, In (i, v) ivs -> nth_error l i = Some v) -> (forall i, i < length l -> exists v, In (i, v) ivs) ->
  place (length l) ivs = Ok l.
Proof.
  intros H1 H2. unfold place.
  set (ivs' := map (fun iv : nat * X => (fst iv, Some (snd iv))) ivs).
  assert (Hin : forall i o, In (i, o) ivs' <-> exists v, o = Some v /\ In (i, v) ivs).
  { intros i o. unfold ivs'. rewrite in_map_iff. split.
    - intros ((j, v) & Ej & Hj). cbn [fst snd] in Ej. injection Ej as <- <-. eauto.
    - intros (v & -> & Hv). exists (i, v). auto. }
  destruct (proj2 (scatter_ok_range ivs' (repeat None (length l)))) as (s & Hs).
  { apply Forall_forall. intros (i, o) Ho. cbn [fst]. rewrite repeat_length. apply Hin in Ho as (v & _ & Hv).
    apply H1 in Hv. apply nth_error_Some. congruence. }
  rewrite Hs. cbn [bind]. pose proof (scatter_length _ _ _ Hs) as HL. rewrite repeat_length in HL.
  apply mapM_ok. apply Forall2_intro_nth; [congruence|].
  intros i o x Ho Hx. destruct (H2 i) as (v & Hv); [apply nth_error_Some; congruence|].
  destruct (scatter_cases _ _ _ i Hs) as [(Hn & _)|(o' & Ho' & Eo)].
  - exfalso. apply Hn. apply in_map_iff. exists (i, Some v). split; auto. apply Hin. eauto.
  - apply Hin in Ho' as (v' & -> & Hv'). apply H1 in Hv'.
    assert (o = Some v') by congruence. subst o. congruence.
Qed.

Lemma combine_compress {X Y} (m : list bool) (l1 : list X) (l2 : list Y) a b : length l1 = length m -> length l2 = length m ->
  In (a, b) (combine (compress m l1) (compress m l2)) <->
  exists i, nth_error m i = Some true /\ nth_error l1 i = Some a /\ nth_error l2 i = Some b.
Proof.
  unfold compress. revert l1 l2; induction m as [|f m IH]; intros [|x l1] [|y l2] H1 H2; try discriminate; cbn [combine filter].
  - split; [intros []|intros ([|i] & Hi & _); discriminate].
  - cbn [length] in H1, H2. change (fst (f, x)) with f. change (fst (f, y)) with f.
    specialize (IH l1 l2 (eq_add_S _ _ H1) (eq_add_S _ _ H2)). destruct f.
    + cbn [map combine In]. change (snd (true, x)) with x. change (snd (true, y)) with y. rewrite IH. split.
      * intros [[= -> ->]|(i & Hi)]; [exists 0; cbn; auto|exists (S i); exact Hi].
      * intros ([|i] & Hm & Ha & Hb); cbn [nth_error] in *; [left; congruence|right; eauto].
    + rewrite IH. split.
      * intros (i & Hi). exists (S i). exact Hi.
      * intros ([|i] & Hm & Ha & Hb); cbn [nth_error] in *; [discriminate|eauto].
Qed.

Lemma cidx_nth l i : i <= length l -> nth_error (0 :: cumsum l) i = Some (base l i).
Proof.
  destruct i as [|i]; intros H; [reflexivity|]. cbn [nth_error]. unfold cumsum. rewrite cumsum_from_nth by lia. reflexivity.
Qed.

Section Blocks.
  Context {X : Type}.
  Variables (n : nat) (flags : list bool) (old : list X) (R : nat -> list X).
  Definition nchild : list nat := map (fun b : bool => if b then n else 1) flags.
  Definition blocks : list (list X) :=
    map (fun ifx : nat * (bool * X) => if fst (snd ifx) then R (fst ifx) else [snd (snd ifx)]) (enumerate (combine flags old)).
  Definition mapping_spec : list (list nat) := map (fun i => seq (base nchild i) (match nth_error nchild i with Some k => k | None => 0 end)) (seq 0 (length flags)).
  Hypothesis Hold : length old = length flags.
  Hypothesis HR : forall i, nth_error flags i = Some true -> length (R i) = n.

  Lemma nchild_nth i : nth_error nchild i = option_map (fun b : bool => if b then n else 1) (nth_error flags i).
  Proof. apply nth_error_map. Qed.

  Lemma blocks_nth i f x : nth_error flags i = Some f -> nth_error old i = Some x ->
    nth_error blocks i = Some (if f then R i else [x]).
  Proof.
    intros Hf Hx. unfold blocks. rewrite nth_error_map, nth_error_enumerate.
    assert (E : nth_error (combine flags old) i = Some (f, x)).
    { clear HR. revert old i Hold Hf Hx. induction flags as [|f0 fl IH]; intros [|x0 o] [|i] Ho Hf Hx; try discriminate; cbn in *.
      - congruence.
      - apply IH; auto. }
    rewrite E. reflexivity.
  Qed.

  Lemma blocks_length : length blocks = length flags.
  Proof. unfold blocks. rewrite map_length, length_enumerate, combine_length. lia. Qed.

  Lemma blocks_lengths : map (@length X) blocks = nchild.
  Proof.
    apply nth_error_ext'. intros i. rewrite nth_error_map, nchild_nth.
    destruct (nth_error flags i) as [f|] eqn:Hf.
    - destruct (nth_error old i) as [x|] eqn:Hx.
      + rewrite (blocks_nth i f x) by auto. cbn [option_map]. destruct f; [rewrite HR by auto|]; reflexivity.
      + exfalso. apply nth_error_None in Hx. assert (i < length flags) by (apply nth_error_Some; congruence). lia.
    - replace (nth_error blocks i) with (@None (list X)); [reflexivity|]. symmetry. apply nth_error_None. rewrite blocks_length.
      now apply nth_error_None.
  Qed.

  Lemma concat_blocks_length : length (concat blocks) = sum nchild.
  Proof. rewrite <- blocks_lengths. symmetry. apply sum_map_length_concat. Qed.

  Lemma concat_blocks_nth i f x c : nth_error flags i = Some f -> nth_error old i = Some x ->
    (if f then c < n else c = 0) ->
    nth_error (concat blocks) (base nchild i + c) = if f then nth_error (R i) c else Some x.
  Proof.
    intros Hf Hx Hc. pose proof (blocks_nth i f x Hf Hx) as Hb. rewrite <- blocks_lengths.
    destruct f.
    - destruct (nth_error (R i) c) as [y|] eqn:Hy.
      + apply (concat_nth blocks i (R i) c y Hb Hy).
      + apply nth_error_None in Hy. rewrite HR in Hy by auto. lia.
    - subst c. apply (concat_nth blocks i [x] 0 x Hb eq_refl).
  Qed.

  Lemma mapping_nth i f : nth_error flags i = Some f -> nth_error mapping_spec i = Some (seq (base nchild i) (if f then n else 1)).
  Proof.
    clear Hold HR.
    intros Hf. unfold mapping_spec. rewrite nth_error_map.
    assert (Hi : i < length flags) by (apply nth_error_Some; congruence).
    rewrite (nth_error_nth' (seq 0 (length flags)) 0) by (rewrite seq_length; lia). rewrite seq_nth by lia.
    cbn [option_map plus]. rewrite nchild_nth, Hf. reflexivity.
  Qed.

  Lemma mapping_length : length mapping_spec = length flags.
  Proof. unfold mapping_spec. now rewrite map_length, seq_length. Qed.

  Lemma concat_mapping : concat mapping_spec = seq 0 (sum nchild).
  Proof.
    clear Hold HR.
    assert (G : forall k, k <= length flags ->
      concat (map (fun i => seq (base nchild i) (match nth_error nchild i with Some k => k | None => 0 end)) (seq 0 k)) = seq 0 (base nchild k)).
    { induction k as [|k IH]; intros Hk; [reflexivity|].
      rewrite seq_S, map_app, concat_app, IH by lia. cbn [map concat plus]. rewrite app_nil_r.
      destruct (nth_error nchild k) as [q|] eqn:Hq.
      - rewrite (base_S nchild k q Hq). rewrite seq_app. reflexivity.
      - apply nth_error_None in Hq. unfold nchild in Hq. rewrite map_length in Hq. lia. }
    unfold mapping_spec. rewrite G by lia. f_equal. unfold base. rewrite firstn_all2; auto. unfold nchild. rewrite map_length. lia.
  Qed.

  Lemma mapping_child i c j : child_of mapping_spec i c j ->
    exists f, nth_error flags i = Some f /\ (if f then c < n else c = 0) /\ j = base nchild i + c.
  Proof.
    clear Hold HR.
    intros (ch & Hch & Hj). destruct (nth_error flags i) as [f|] eqn:Hf.
    - rewrite (mapping_nth i f Hf) in Hch. injection Hch as <-. exists f. split; auto.
      assert (Hc : c < length (seq (base nchild i) (if f then n else 1))) by (apply nth_error_Some; congruence).
      rewrite seq_length in Hc. apply nth_error_nth with (d := 0) in Hj. rewrite seq_nth in Hj by lia.
      destruct f; split; lia.
    - apply nth_error_None in Hf. assert (i < length mapping_spec) by (apply nth_error_Some; congruence). rewrite mapping_length in *. lia.
  Qed.

  Lemma place_blocks :
    place (sum nchild) (combine (compress (map negb flags) (firstn (length flags) (0 :: cumsum nchild))) (compress (map negb flags) old)
           ++ concat (map (fun iel => combine (seq (base nchild iel) n) (R iel)) (where_ flags)))
    = Ok (concat blocks).
  Proof.
    rewrite <- concat_blocks_length. apply place_spec.
    - intros i v Hin. apply in_app_or in Hin as [Hin|Hin].
      + apply combine_compress in Hin as (k & Hk & H1 & H2).
        2:{ rewrite firstn_length, map_length. cbn [length]. unfold cumsum. rewrite cumsum_from_length. unfold nchild. rewrite map_length. lia. }
        2:{ now rewrite map_length. }
        rewrite nth_error_map in Hk. destruct (nth_error flags k) as [f|] eqn:Hf; [|discriminate]. cbn [option_map] in Hk.
        injection Hk as Hk. destruct f; [discriminate|].
        assert (Hkl : k < length flags) by (apply nth_error_Some; congruence).
        rewrite nth_error_firstn in H1. rewrite (proj2 (Nat.ltb_lt _ _) Hkl) in H1.
        rewrite cidx_nth in H1 by (unfold nchild; rewrite map_length; lia). injection H1 as <-.
        rewrite <- (Nat.add_0_r (base nchild k)). now rewrite (concat_blocks_nth k false v 0 Hf H2 eq_refl).
      + apply in_concat in Hin as (blk & Hb & Hin). apply in_map_iff in Hb as (k & <- & Hk).
        apply In_where_ in Hk. apply In_nth_error in Hin as (c & Hc). apply (proj1 (nth_error_combine_Some _ _ _ _ _)) in Hc as (Hs & Hv).
        assert (Hcn : c < n) by (rewrite <- (HR k Hk); apply nth_error_Some; congruence).
        apply nth_error_nth with (d := 0) in Hs. rewrite seq_nth in Hs by lia. subst i.
        destruct (nth_error old k) as [x|] eqn:Hx.
        * now rewrite (concat_blocks_nth k true x c Hk Hx Hcn).
        * apply nth_error_None in Hx. assert (k < length flags) by (apply nth_error_Some; congruence). lia.
    - intros j Hj. rewrite concat_blocks_length in Hj.
      destruct (owns_exists nchild j Hj) as (i & q & Hq & Hle & Hlt).
      rewrite nchild_nth in Hq. destruct (nth_error flags i) as [f|] eqn:Hf; [|discriminate]. cbn [option_map] in Hq. injection Hq as <-.
      assert (Hil : i < length flags) by (apply nth_error_Some; congruence).
      destruct f.
      + destruct (nth_error (R i) (j - base nchild i)) as [v|] eqn:Hv; [|apply nth_error_None in Hv; rewrite HR in Hv by auto; lia].
        exists v. apply in_or_app. right. apply in_concat. eexists. split; [apply in_map, In_where_, Hf|].
        apply nth_error_In with (n := j - base nchild i). apply nth_error_combine_Some; split; auto.
        rewrite (nth_error_nth' _ 0) by (rewrite seq_length; lia). rewrite seq_nth by lia. f_equal. lia.
      + destruct (nth_error old i) as [x|] eqn:Hx; [|apply nth_error_None in Hx; lia].
        exists x. apply in_or_app. left. apply combine_compress.
        { rewrite firstn_length, map_length. cbn [length]. unfold cumsum. rewrite cumsum_from_length. unfold nchild. rewrite map_length. lia. }
        { now rewrite map_length. }
        exists i. split; [rewrite nth_error_map, Hf; reflexivity|]. split; auto.
        rewrite nth_error_firstn, (proj2 (Nat.ltb_lt _ _) Hil), cidx_nth by (unfold nchild; rewrite map_length; lia). f_equal. lia.
  Qed.
End Blocks.

(** ** The midpoint table *)
Definition table (d : middict) (a b v : nat) : Prop := dlookup (sort_pair a b) d = Some v.
Definition grows (d d' : middict) : Prop := forall k v, dlookup k d = Some v -> dlookup k d' = Some v.

Lemma grows_refl d : grows d d. Proof. intros k v H; exact H. Qed.
Lemma grows_trans d1 d2 d3 : grows d1 d2 -> grows d2 d3 -> grows d1 d3.
Proof. intros H1 H2 k v H. apply H2, H1, H. Qed.
Lemma grows_table d d' : grows d d' -> forall a b v, table d a b v -> table d' a b v.
Proof. intros H a b v. apply H. Qed.

Lemma dlookup_app k d k' v : dlookup k (d ++ [(k', v)]) = match dlookup k d with Some w => Some w | None => if pair_eqb k k' then Some v else None end.
Proof. induction d as [|(k0, v0) d IH]; [reflexivity|]. cbn [app dlookup]. destruct (pair_eqb k k0); auto. Qed.

Lemma dlookup_In k d v : dlookup k d = Some v -> In (k, v) d.
Proof.
  induction d as [|(k0, v0) d IH]; [discriminate|]. cbn [dlookup]. destruct (pair_eqb k k0) eqn:Ek.
  - apply pair_eqb_eq in Ek. subst. intros [= ->]. now left.
  - intros H. right. auto.
Qed.

Lemma sort_pair_sym a b : sort_pair a b = sort_pair b a.
Proof.
  unfold sort_pair. destruct (Nat.ltb_spec b a), (Nat.ltb_spec a b); auto; try lia. assert (a = b) by lia. now subst.
Qed.

Lemma sort_pair_cases a b : (sort_pair a b = (a, b)) \/ (sort_pair a b = (b, a)).
Proof. unfold sort_pair. destruct (b <? a); auto. Qed.

Lemma table_edge d : NoDup (map snd d) -> edge_table (table d).
Proof.
  intros HN. split; [|split].
  - intros a b v. unfold table. now rewrite sort_pair_sym.
  - intros a b v v' H H'. unfold table in *. congruence.
  - intros a b c e v H H'. apply dlookup_In in H, H'.
    assert (K : forall (k k' : nat * nat), In (k, v) d -> In (k', v) d -> k = k').
    { clear - HN. induction d as [|(k0, v0) d IH]; [intros k k' []|]. cbn [map] in HN. inversion_clear HN as [|? ? Hn HN'].
      cbn [snd] in Hn. assert (Hv : forall k, In (k, v) d -> v0 <> v).
      { intros k Hk ->. apply Hn. apply in_map_iff. exists (k, v). auto. }
      intros k k' [[= -> ->]|H1] [[= E1]|H2]; try congruence; auto.
      - now apply Hv in H2.
      - subst v0. now apply Hv in H1. }
    specialize (K _ _ H H').
    destruct (sort_pair_cases a b) as [E1|E1], (sort_pair_cases c e) as [E2|E2]; rewrite E1, E2 in K; injection K as K1 K2; auto.
Qed.

Section RefineProofs.
  Context {E A V : Type}.
  Variable tessellation : egroup E -> tess.
  Variable midpoints : egroup E -> nat -> list V.
  Variable child_nodes : egroup E -> nat -> list E.
  Implicit Types (grp : egroup E) (st : @rstate V).

  Definition push st (key : nat * nat) (pt : V) : rstate :=
    mk_rstate (rs_dict st ++ [(key, rs_next st)]) (rs_added st ++ [pt]) (S (rs_next st)).

  Lemma push_grows st key pt : dlookup key (rs_dict st) = None -> grows (rs_dict st) (rs_dict (push st key pt)).
  Proof. intros H k v Hk. cbn [push rs_dict]. now rewrite dlookup_app, Hk. Qed.

  (** Loop over the midpoints of an element, for an invariant [P] kept by new vertices *)
  Lemma midpoint_loop (P : rstate -> Prop) grp iel row l :
    (forall st imid iref a b ga gb pt, In (imid, (iref, (a, b))) l -> nth_error row a = Some ga -> nth_error row b = Some gb ->
       nth_error (midpoints grp iel) imid = Some pt -> dlookup (sort_pair ga gb) (rs_dict st) = None -> P st -> P (push st (sort_pair ga gb) pt)) ->
    forall st refv, P st ->
    (forall imid iref a b, In (imid, (iref, (a, b))) l ->
       a < length row /\ b < length row /\ imid < length (midpoints grp iel) /\ iref < length refv) ->
    exists st' vs refv', foldM (midpoint_step midpoints grp iel row) l (st, refv) = Ok (st', refv') /\
      P st' /\ grows (rs_dict st) (rs_dict st') /\
      scatter refv (combine (map (fun im : nat * (nat * (nat * nat)) => fst (snd im)) l) (map Z.of_nat vs)) = Ok refv' /\
      Forall2 (fun (im : nat * (nat * (nat * nat))) v => exists ga gb, nth_error row (fst (snd (snd im))) = Some ga /\
                 nth_error row (snd (snd (snd im))) = Some gb /\ table (rs_dict st') ga gb v) l vs.
  Proof.
    induction l as [|(imid, (iref, (a, b))) l IH]; intros HP st refv Hst Hl.
    - exists st, [], refv. cbn [foldM]. split; auto. split; auto. split; [apply grows_refl|]. split; [reflexivity|constructor].
    - destruct (Hl imid iref a b (or_introl eq_refl)) as (Ha & Hb & Hi & Hr).
      destruct (nth_error row a) as [ga|] eqn:Ga; [|apply nth_error_None in Ga; lia].
      destruct (nth_error row b) as [gb|] eqn:Gb; [|apply nth_error_None in Gb; lia].
      destruct (nth_error (midpoints grp iel) imid) as [pt|] eqn:Gp; [|apply nth_error_None in Gp; lia].
      assert (HP' : forall st imid iref a b ga gb pt, In (imid, (iref, (a, b))) l -> nth_error row a = Some ga -> nth_error row b = Some gb ->
        nth_error (midpoints grp iel) imid = Some pt -> dlookup (sort_pair ga gb) (rs_dict st) = None -> P st -> P (push st (sort_pair ga gb) pt)).
      { intros. eapply HP; eauto. right; eauto. }
      assert (Hstep : exists st1 v, midpoint_step midpoints grp iel row (st, refv) (imid, (iref, (a, b))) = Ok (st1, upd refv iref (Z.of_nat v)) /\
                P st1 /\ grows (rs_dict st) (rs_dict st1) /\ table (rs_dict st1) ga gb v).
      { unfold midpoint_step. rewrite (proj2 (get_ok row a ga) Ga), (proj2 (get_ok row b gb) Gb). cbn [bind].
        destruct (dlookup (sort_pair ga gb) (rs_dict st)) as [v|] eqn:Ek; cbn [bind fst snd].
        - exists st, v. rewrite (proj2 (put_ok refv _ iref (Z.of_nat v)) (conj Hr eq_refl)). cbn [bind]. split; auto. split; auto.
          split; [apply grows_refl|exact Ek].
        - rewrite (proj2 (get_ok _ imid pt) Gp). cbn [bind fst snd].
          rewrite (proj2 (put_ok refv _ iref (Z.of_nat (rs_next st))) (conj Hr eq_refl)). cbn [bind].
          exists (push st (sort_pair ga gb) pt), (rs_next st). split; auto. split.
          { apply (HP st imid iref a b ga gb pt (or_introl eq_refl) Ga Gb Gp Ek Hst). }
          split; [now apply push_grows|]. unfold table. cbn [push rs_dict]. rewrite dlookup_app, Ek.
          now rewrite (proj2 (pair_eqb_eq _ _) eq_refl). }
      destruct Hstep as (st1 & v & Hs & Hp1 & Hg1 & Ht1).
      destruct (IH HP' st1 (upd refv iref (Z.of_nat v)) Hp1) as (st' & vs & refv' & Hf & Hp & Hg & Hsc & HF).
      { intros i r a0 b0 Hin. rewrite length_upd. apply (Hl i r a0 b0). now right. }
      exists st', (v :: vs), refv'. cbn [foldM]. rewrite Hs. cbn [bind]. split; auto. split; auto.
      split; [eapply grows_trans; eauto|]. split.
      + cbn [map combine]. unfold scatter. cbn [foldM fst snd]. rewrite (proj2 (put_ok refv _ iref (Z.of_nat v)) (conj Hr eq_refl)).
        cbn [bind]. exact Hsc.
      + constructor; auto. exists ga, gb. cbn [fst snd]. split; auto. split; auto. eapply grows_table; eauto.
  Qed.

  (** One refined element *)
  Lemma refine_element_ok (P : rstate -> Prop) grp vi iel row st : tess_ok (tessellation grp) ->
    length (midpoints grp iel) = length (ts_mid (tessellation grp)) ->
    nth_error vi iel = Some row -> length row = length (ts_orig (tessellation grp)) ->
    (forall st k a b ga gb pt, nth_error (ts_pairs (tessellation grp)) k = Some (a, b) -> nth_error row a = Some ga -> nth_error row b = Some gb ->
       nth_error (midpoints grp iel) k = Some pt -> dlookup (sort_pair ga gb) (rs_dict st) = None -> P st -> P (push st (sort_pair ga gb) pt)) ->
    P st ->
    exists st' rows, refine_element tessellation midpoints grp vi st iel = Ok (st', rows) /\
      P st' /\ grows (rs_dict st) (rs_dict st') /\
      Forall2 (Forall2 (vertex_at (table (rs_dict st')) (tessellation grp) row)) (ts_children (tessellation grp)) rows.
  Proof.
    intros (Hperm & Hmp & Hpr & Hch) Hml Hrow Hrl HP Hst. unfold refine_element.
    set (ts := tessellation grp) in *.
    assert (HND : NoDup (ts_orig ts ++ ts_mid ts)) by (eapply Permutation_NoDup; [apply Permutation_sym, Hperm|apply seq_NoDup]).
    assert (Hlt : forall r, In r (ts_orig ts ++ ts_mid ts) <-> r < ts_nref ts).
    { intros r. split; intros H.
      - apply (Permutation_in _ Hperm) in H. apply in_seq in H. lia.
      - apply (Permutation_in _ (Permutation_sym Hperm)). apply in_seq. lia. }
    rewrite (proj2 (get_ok vi iel row) Hrow). cbn [bind].
    rewrite (proj2 (Nat.eqb_eq _ _) (eq_sym Hrl)). cbn [guard bind].
    destruct (proj2 (scatter_ok_range (combine (ts_orig ts) (map Z.of_nat row)) (repeat (-17)%Z (ts_nref ts)))) as (refv & Hsc).
    { apply Forall_forall. intros (r, z) Hin. cbn [fst]. rewrite repeat_length. apply Hlt. apply in_or_app. left. eapply in_combine_l; eauto. }
    rewrite Hsc. cbn [bind]. rewrite (proj2 (Nat.eqb_eq _ _) Hmp). cbn [guard bind].
    pose proof (scatter_length _ _ _ Hsc) as Hlen. rewrite repeat_length in Hlen.
    set (l := enumerate (combine (ts_mid ts) (ts_pairs ts))).
    assert (Hl : forall imid iref a b, In (imid, (iref, (a, b))) l <-> nth_error (ts_mid ts) imid = Some iref /\ nth_error (ts_pairs ts) imid = Some (a, b)).
    { intros imid iref a b. unfold l. rewrite In_enumerate. apply nth_error_combine_Some. }
    destruct (midpoint_loop P grp iel row l) with (st := st) (refv := refv) as (st' & vs & refv' & Hf & Hp & Hg & Hsc2 & HF); auto.
    { intros st0 imid iref a b ga gb pt Hin. apply Hl in Hin as (_ & Hin). apply HP; auto. }
    { intros imid iref a b Hin. apply Hl in Hin as (H1 & H2). rewrite Forall_forall in Hpr. pose proof (Hpr _ (nth_error_In _ _ H2)) as (Ha & Hb).
      cbn [fst snd] in Ha, Hb. rewrite Hrl. split; auto. split; auto. split.
      - rewrite Hml. apply nth_error_Some. congruence.
      - rewrite Hlen. apply Hlt. apply in_or_app. right. eapply nth_error_In; eauto. }
    rewrite Hf. cbn [bind fst snd].
    assert (Hmids : map (fun im : nat * (nat * (nat * nat)) => fst (snd im)) l = ts_mid ts).
    { unfold l. apply nth_error_ext'. intros i. rewrite nth_error_map, nth_error_enumerate.
      destruct (nth_error (ts_mid ts) i) as [r|] eqn:Hr.
      - destruct (nth_error (ts_pairs ts) i) as [p|] eqn:Hpi.
        + now rewrite (proj2 (nth_error_combine_Some _ _ i r p) (conj Hr Hpi)).
        + apply nth_error_None in Hpi. assert (i < length (ts_mid ts)) by (apply nth_error_Some; congruence). lia.
      - apply nth_error_None in Hr. replace (nth_error (combine (ts_mid ts) (ts_pairs ts)) i) with (@None (nat * (nat * nat))); auto.
        symmetry. apply nth_error_None. rewrite combine_length. lia. }
    rewrite Hmids in Hsc2.
    pose proof (Forall2_length' _ _ _ HF) as Hvl. unfold l in Hvl. rewrite length_enumerate, combine_length in Hvl.
    set (ivs := combine (ts_orig ts) (map Z.of_nat row) ++ combine (ts_mid ts) (map Z.of_nat vs)).
    assert (Hall : scatter (repeat (-17)%Z (ts_nref ts)) ivs = Ok refv') by (unfold ivs; rewrite scatter_app, Hsc; exact Hsc2).
    assert (Hfst : map fst ivs = ts_orig ts ++ ts_mid ts).
    { unfold ivs. rewrite map_app, !combine_fst by (rewrite map_length; lia). reflexivity. }
    assert (Hat : forall r, r < ts_nref ts -> exists v, nth_error refv' r = Some (Z.of_nat v) /\ vertex_at (table (rs_dict st')) ts row r v).
    { intros r Hr. apply Hlt in Hr. apply in_app_or in Hr as [Hr|Hr]; apply In_nth_error in Hr as (k & Hk).
      - destruct (nth_error row k) as [v|] eqn:Hv; [|apply nth_error_None in Hv; assert (k < length (ts_orig ts)) by (apply nth_error_Some; congruence); lia].
        exists v. split; [|left; eauto]. apply (scatter_in ivs _ _ r (Z.of_nat v) Hall); [now rewrite Hfst|].
        unfold ivs. apply in_or_app. left. apply nth_error_In with (n := k). apply nth_error_combine_Some. split; auto.
        rewrite nth_error_map, Hv. reflexivity.
      - assert (Hkl : k < length (ts_mid ts)) by (apply nth_error_Some; congruence).
        destruct (nth_error vs k) as [v|] eqn:Hv; [|apply nth_error_None in Hv; lia].
        exists v. split.
        + apply (scatter_in ivs _ _ r (Z.of_nat v) Hall); [now rewrite Hfst|].
          unfold ivs. apply in_or_app. right. apply nth_error_In with (n := k). apply nth_error_combine_Some. split; auto.
          rewrite nth_error_map, Hv. reflexivity.
        + right. destruct (Forall2_nth_error_r _ _ _ _ _ HF Hv) as ((i, (r', (a, b))) & Hi & ga & gb & Ha & Hb & Ht).
          unfold l in Hi. rewrite nth_error_enumerate in Hi. destruct (nth_error (combine (ts_mid ts) (ts_pairs ts)) k) as [x|] eqn:Hx; [|discriminate].
          cbn [option_map] in Hi. injection Hi as <- ->. apply nth_error_combine_Some in Hx as (Hx1 & Hx2).
          cbn [fst snd] in Ha, Hb. exists k, a, b, ga, gb. split; auto. }
    pose proof (scatter_length _ _ _ Hall) as Hlen'. rewrite repeat_length in Hlen'.
    assert (Hpos : forallb (fun z => (0 <=? z)%Z) refv' = true).
    { apply forallb_forall. intros z Hz. apply In_nth_error in Hz as (r & Hr).
      destruct (Hat r) as (v & Hv & _); [rewrite <- Hlen'; apply nth_error_Some; congruence|].
      assert (z = Z.of_nat v) by congruence. subst z. apply Z.leb_le. lia. }
    rewrite Hpos. cbn [guard bind].
    assert (Htake : exists rows, mapM (take (map Z.to_nat refv')) (ts_children ts) = Ok rows /\
              Forall2 (Forall2 (vertex_at (table (rs_dict st')) ts row)) (ts_children ts) rows).
    { clear - Hch Hat. induction (ts_children ts) as [|c cs IH]; [exists []; split; [reflexivity|constructor]|].
      apply Forall_cons_iff in Hch as ((_ & Hc) & Hcs). destruct (IH Hcs) as (rows & Hr & HF).
      assert (Hc' : exists row', take (map Z.to_nat refv') c = Ok row' /\ Forall2 (vertex_at (table (rs_dict st')) ts row) c row').
      { clear IH Hcs HF Hr. induction c as [|r c IHc]; [exists []; split; [reflexivity|constructor]|].
        apply Forall_cons_iff in Hc as (Hr & Hc). destruct (IHc Hc) as (row' & Ht & HF). destruct (Hat r Hr) as (v & Hv & Hva).
        exists (v :: row'). split; [|constructor; auto]. unfold take in *. cbn [mapM].
        rewrite (proj2 (get_ok (map Z.to_nat refv') r v)); [cbn [bind]; rewrite Ht; reflexivity|].
        rewrite nth_error_map, Hv. cbn [option_map]. now rewrite Nat2Z.id. }
      destruct Hc' as (row' & Ht & HF'). exists (row' :: rows). split; [|constructor; auto].
      cbn [mapM]. rewrite Ht. cbn [bind]. rewrite Hr. reflexivity. }
    destruct Htake as (rows & Htk & HFF). exists st', rows. rewrite Htk. cbn [bind]. auto.
  Qed.

  Lemma vertex_at_mono (M M' : nat -> nat -> nat -> Prop) ts row r v : (forall a b v, M a b v -> M' a b v) ->
    vertex_at M ts row r v -> vertex_at M' ts row r v.
  Proof.
    intros H [Hj|(k & a & b & ga & gb & H1 & H2 & H3 & H4 & H5)]; [now left|right]. exists k, a, b, ga, gb. auto 6.
  Qed.

  Lemma rows_mono (M M' : nat -> nat -> nat -> Prop) ts row cs rows : (forall a b v, M a b v -> M' a b v) ->
    Forall2 (Forall2 (vertex_at M ts row)) cs rows -> Forall2 (Forall2 (vertex_at M' ts row)) cs rows.
  Proof.
    intros H. apply Forall2_impl. intros c rw. apply Forall2_impl. intros r v. now apply vertex_at_mono.
  Qed.

  (** Loop over the refined elements of a group *)
  Lemma elements_loop (P : rstate -> Prop) grp vi (bs : nat -> nat) cidx l : tess_ok (tessellation grp) -> NoDup l ->
    (forall iel, In iel l -> nth_error cidx iel = Some (bs iel) /\ length (midpoints grp iel) = length (ts_mid (tessellation grp)) /\
       exists row, nth_error vi iel = Some row /\ length row = length (ts_orig (tessellation grp))) ->
    (forall st iel row k a b ga gb pt, In iel l -> nth_error vi iel = Some row ->
       nth_error (ts_pairs (tessellation grp)) k = Some (a, b) -> nth_error row a = Some ga -> nth_error row b = Some gb ->
       nth_error (midpoints grp iel) k = Some pt -> dlookup (sort_pair ga gb) (rs_dict st) = None -> P st -> P (push st (sort_pair ga gb) pt)) ->
    forall st ivs0, P st ->
    exists st' R, foldM (fun acc iel =>
                        b <- get cidx iel ;;
                        sr <- refine_element tessellation midpoints grp vi (fst acc) iel ;;
                        Ok (fst sr, snd acc ++ combine (seq b (length (ts_children (tessellation grp)))) (snd sr))) l (st, ivs0)
      = Ok (st', ivs0 ++ concat (map (fun iel => combine (seq (bs iel) (length (ts_children (tessellation grp)))) (R iel)) l)) /\
      P st' /\ grows (rs_dict st) (rs_dict st') /\
      forall iel row, In iel l -> nth_error vi iel = Some row ->
        Forall2 (Forall2 (vertex_at (table (rs_dict st')) (tessellation grp) row)) (ts_children (tessellation grp)) (R iel).
  Proof.
    intros Hts. induction l as [|i l IH]; intros HN Hl HP st ivs0 Hst.
    - exists st, (fun _ => []). cbn [foldM map concat]. rewrite app_nil_r. split; auto. split; auto. split; [apply grows_refl|intros ? ? []].
    - inversion_clear HN as [|? ? Hni HN'].
      destruct (Hl i (or_introl eq_refl)) as (Hc & Hm & row & Hrow & Hrl).
      destruct (refine_element_ok P grp vi i row st Hts Hm Hrow Hrl) as (st1 & rows & He & Hp1 & Hg1 & HF1); auto.
      { intros st0 k a b ga gb pt. apply (HP st0 i row k a b ga gb pt (or_introl eq_refl) Hrow). }
      destruct (IH HN') with (st := st1) (ivs0 := ivs0 ++ combine (seq (bs i) (length (ts_children (tessellation grp)))) rows) as (st' & R & Hf & Hp & Hg & HR); auto.
      { intros iel Hin. apply Hl. now right. }
      { intros st0 iel row0 k a b ga gb pt Hin. apply (HP st0 iel row0 k a b ga gb pt (or_intror Hin)). }
      exists st', (fun j => if j =? i then rows else R j). split; [|split; [auto|split; [eapply grows_trans; eauto|]]].
      + cbn [foldM]. rewrite (proj2 (get_ok cidx i (bs i)) Hc). do 1 okstep. cbn [fst snd]. rewrite He. do 2 okstep. cbn [fst snd]. rewrite Hf.
        f_equal. f_equal. rewrite <- app_assoc. f_equal. cbn [map concat]. rewrite Nat.eqb_refl. f_equal. f_equal.
        apply map_ext_in. intros j Hj. destruct (Nat.eqb_spec j i) as [->|]; [contradiction|reflexivity].
      + intros iel row0 [<-|Hin] Hr0.
        * rewrite Nat.eqb_refl. assert (row0 = row) by congruence. subst row0. eapply rows_mono; [apply grows_table, Hg|exact HF1].
        * destruct (Nat.eqb_spec iel i) as [->|]; [contradiction|]. auto.
  Qed.

  Lemma negb_lengths (flags : list bool) : length (map negb flags) = length flags.
  Proof. apply map_length. Qed.

  Lemma refine_group_ok (P : rstate -> Prop) nv flags grp d added : tessellation_ok tessellation midpoints child_nodes ->
    length flags = nelements grp ->
    (forall nv0, nv = Some nv0 -> P (mk_rstate d added nv0) /\ exists vi, eg_vi grp = Some vi /\ length vi = nelements grp /\
       Forall (fun row => length row = length (ts_orig (tessellation grp))) vi /\
       forall st iel row k a b ga gb pt, nth_error flags iel = Some true -> nth_error vi iel = Some row ->
         nth_error (ts_pairs (tessellation grp)) k = Some (a, b) -> nth_error row a = Some ga -> nth_error row b = Some gb ->
         nth_error (midpoints grp iel) k = Some pt -> dlookup (sort_pair ga gb) (rs_dict st) = None -> P st -> P (push st (sort_pair ga gb) pt)) ->
    exists da grp' mapping,
      refine_group tessellation midpoints child_nodes nv flags grp d added = Ok (da, (grp', mapping)) /\
      group_children tessellation child_nodes flags grp grp' mapping /\
      match nv with
      | None => da = (d, added) /\ eg_vi grp' = None
      | Some _ => (exists next, P (mk_rstate (fst da) (snd da) next)) /\ grows d (fst da) /\
          group_corners tessellation (table (fst da)) flags grp grp' mapping
      end.
  Proof.
    intros (Hts & _ & Hlens) Hfl Hnv. assert (Hfl' : length (eg_nodes grp) = length flags) by (unfold nelements in Hfl; congruence).
    specialize (Hts grp). specialize (Hlens grp).
    unfold refine_group. set (ts := tessellation grp) in *. set (n := length (ts_children ts)).
    change (map (fun b : bool => if b then n else 1) flags) with (nchild n flags).
    set (cidx := 0 :: cumsum (nchild n flags)).
    assert (Hnl : length (nchild n flags) = nelements grp) by (unfold nchild; now rewrite map_length).
    assert (Hci : forall i, i <= nelements grp -> nth_error cidx i = Some (base (nchild n flags) i)).
    { intros i Hi. unfold cidx. apply cidx_nth. lia. }
    assert (Hnn : base (nchild n flags) (nelements grp) = sum (nchild n flags)).
    { unfold base. rewrite firstn_all2; auto. lia. }
    rewrite (proj2 (get_ok cidx (nelements grp) (sum (nchild n flags)))) by (rewrite Hci by lia; now rewrite Hnn).
    cbn [bind].
    assert (Hmap : mapM (fun i => b <- get cidx i ;; n0 <- get (nchild n flags) i ;; Ok (seq b n0)) (seq 0 (nelements grp)) = Ok (mapping_spec n flags)).
    { unfold mapping_spec. rewrite Hfl. apply mapM_ok. apply Forall2_intro_nth; [now rewrite map_length|].
      intros j i s Hj Hs. assert (Hi : i = j /\ i < nelements grp).
      { assert (j < length (seq 0 (nelements grp))) by (apply nth_error_Some; congruence). rewrite seq_length in *.
        apply nth_error_nth with (d := 0) in Hj. rewrite seq_nth in Hj by lia. cbn in Hj. lia. }
      destruct Hi as (-> & Hi). rewrite nth_error_map, Hj in Hs. cbn [option_map] in Hs.
      rewrite (proj2 (get_ok cidx j (base (nchild n flags) j))) by (apply Hci; lia). cbn [bind].
      destruct (nth_error (nchild n flags) j) as [q|] eqn:Hq; [|apply nth_error_None in Hq; lia].
      rewrite (proj2 (get_ok _ j q) Hq). cbn [bind]. congruence. }
    rewrite Hmap. cbn [bind].
    assert (Hw : forall i, In i (where_ flags) -> nth_error flags i = Some true /\ i < nelements grp).
    { intros i Hi. apply In_where_ in Hi. split; auto. rewrite <- Hfl. apply nth_error_Some. congruence. }
    (* nodes *)
    assert (HRn : forall i, nth_error flags i = Some true -> length (child_nodes grp i) = n).
    { intros i Hi. apply Hlens. rewrite <- Hfl. apply nth_error_Some. congruence. }
    assert (Hivs : mapM (fun iel => b <- get cidx iel ;; _ <- guard (length (child_nodes grp iel) =? n) ValueError ;; Ok (combine (seq b n) (child_nodes grp iel))) (where_ flags)
              = Ok (map (fun iel => combine (seq (base (nchild n flags) iel) n) (child_nodes grp iel)) (where_ flags))).
    { apply mapM_ok. apply Forall2_intro_nth; [now rewrite map_length|]. intros j i s Hj Hs.
      rewrite nth_error_map, Hj in Hs. cbn [option_map] in Hs. destruct (Hw i (nth_error_In _ _ Hj)) as (Hf & Hi).
      rewrite (proj2 (get_ok cidx i (base (nchild n flags) i))) by (apply Hci; lia). cbn [bind].
      rewrite (proj2 (Nat.eqb_eq _ _) (HRn i Hf)). cbn [guard bind]. congruence. }
    assert (Hplace : place (sum (nchild n flags)) (combine (compress (map negb flags) (firstn (nelements grp) cidx)) (compress (map negb flags) (eg_nodes grp)) ++
               concat (map (fun iel => combine (seq (base (nchild n flags) iel) n) (child_nodes grp iel)) (where_ flags)))
             = Ok (concat (blocks flags (eg_nodes grp) (child_nodes grp)))).
    { rewrite <- Hfl. unfold cidx. apply place_blocks; auto. }
    (* children *)
    assert (HGC : forall vi' vio, vio = Some vi' \/ vio = None ->
              (forall vi, eg_vi grp = Some vi -> vio = Some vi' -> forall i j, nth_error flags i = Some false -> child_of (mapping_spec n flags) i 0 j ->
                 nth_error vi' j = nth_error vi i) ->
              group_children tessellation child_nodes flags grp (mk_egroup vio (concat (blocks flags (eg_nodes grp) (child_nodes grp))) (eg_fvi grp)) (mapping_spec n flags)).
    { intros vi' vio Hvio Hvi. split; [|split; [|split]].
      - split; [apply mapping_length|]. split.
        + rewrite concat_mapping. f_equal. unfold nelements. cbn [eg_nodes]. symmetry. apply concat_blocks_length; auto.
        + intros i f ch Hf Hch. rewrite (mapping_nth n flags i f Hf) in Hch. injection Hch as <-. apply seq_length.
      - intros i j Hf Hj. split.
        + apply mapping_child in Hj as (f & Hf' & _ & ->). cbn [eg_nodes].
          destruct (nth_error (eg_nodes grp) i) as [x|] eqn:Hx.
          * rewrite (concat_blocks_nth n flags (eg_nodes grp) (child_nodes grp) Hfl' HRn i false x 0 Hf Hx eq_refl). reflexivity.
          * apply nth_error_None in Hx. assert (i < length flags) by (apply nth_error_Some; congruence). unfold nelements in Hfl. lia.
        + intros vi vi0 Hv Hv0. cbn [eg_vi] in Hv0. destruct Hvio as [->| ->]; [|discriminate]. injection Hv0 as <-. eapply Hvi; eauto.
      - intros i c j Hf Hj. apply mapping_child in Hj as (f & Hf' & Hc & ->). rewrite Hf in Hf'. injection Hf' as <-. cbn [eg_nodes].
        destruct (nth_error (eg_nodes grp) i) as [x|] eqn:Hx.
        * apply (concat_blocks_nth n flags (eg_nodes grp) (child_nodes grp) Hfl' HRn i true x c Hf Hx Hc).
        * apply nth_error_None in Hx. assert (i < length flags) by (apply nth_error_Some; congruence). unfold nelements in Hfl. lia.
      - reflexivity. }
    destruct nv as [nv|].
    - destruct (Hnv nv eq_refl) as (HP0 & vi & Hvi & Hvl & Hrl & HP). rewrite Hvi.
      rewrite Forall_forall in Hrl.
      destruct (elements_loop P grp vi (base (nchild n flags)) cidx (where_ flags) Hts) with (st := mk_rstate d added nv)
        (ivs0 := combine (compress (map negb flags) (firstn (nelements grp) cidx)) (compress (map negb flags) vi)) as (st' & R & Hf & Hp & Hg & HR); auto.
      { apply incr_NoDup, where_incr. }
      { intros iel Hin. destruct (Hw iel Hin) as (Hf & Hi). split; [apply Hci; lia|]. split; [apply Hlens; lia|].
        destruct (nth_error vi iel) as [row|] eqn:Hr; [|apply nth_error_None in Hr; lia]. exists row. split; auto. apply Hrl. eapply nth_error_In; eauto. }
      { intros st iel row k a b ga gb pt Hin. apply Hw in Hin as (Hin & _). apply HP; auto. }
      fold ts in Hf. fold n in Hf. rewrite Hf. cbn [bind fst snd].
      assert (HRl : forall i, nth_error flags i = Some true -> length (R i) = n).
      { intros i Hi. destruct (nth_error vi i) as [row|] eqn:Hr.
        - symmetry. apply (Forall2_length' _ _ _ (HR i row (proj2 (In_where_ _ _) Hi) Hr)).
        - apply nth_error_None in Hr. assert (i < length flags) by (apply nth_error_Some; congruence). lia. }
      assert (Hvl' : length vi = length flags) by lia.
      assert (Hplv : place (sum (nchild n flags)) (combine (compress (map negb flags) (firstn (nelements grp) cidx)) (compress (map negb flags) vi) ++
               concat (map (fun iel => combine (seq (base (nchild n flags) iel) n) (R iel)) (where_ flags)))
             = Ok (concat (blocks flags vi R))).
      { rewrite <- Hfl. unfold cidx. apply place_blocks; auto. }
      rewrite Hplv. cbn [bind]. rewrite Hivs. cbn [bind]. rewrite Hplace. cbn [bind].
      eexists _, _, _. split; [reflexivity|]. split.
      + apply (HGC (concat (blocks flags vi R))); [now left|]. intros vi0 Hv0 _ i j Hf0 Hj.
        assert (vi0 = vi) by congruence. subst vi0. apply mapping_child in Hj as (f & Hf' & _ & ->).
        destruct (nth_error vi i) as [x|] eqn:Hx.
        * rewrite (concat_blocks_nth n flags vi R Hvl' HRl i false x 0 Hf0 Hx eq_refl). reflexivity.
        * apply nth_error_None in Hx. assert (i < length flags) by (apply nth_error_Some; congruence). lia.
      + cbn [fst snd]. split; [exists (rs_next st'); destruct st'; exact Hp|]. split; [exact Hg|].
        exists vi, (concat (blocks flags vi R)). split; auto. split; [reflexivity|]. split.
        { unfold nelements. cbn [eg_nodes]. rewrite !(concat_blocks_length n); auto. }
        intros i c j row child Hi Hj Hrow Hch. apply mapping_child in Hj as (f & Hf' & Hc & ->). rewrite Hi in Hf'. injection Hf' as <-.
        rewrite (concat_blocks_nth n flags vi R Hvl' HRl i true row c Hi Hrow Hc).
        destruct (Forall2_nth_error _ _ _ _ _ (HR i row (proj2 (In_where_ _ _) Hi) Hrow) Hch) as (row' & Hr' & HF). eauto.
    - cbn [bind]. rewrite Hivs. cbn [bind]. rewrite Hplace. cbn [bind].
      eexists _, _, _. split; [reflexivity|]. split; [|split; reflexivity].
      apply (HGC []); [now right|]. intros vi _ [=].
  Qed.

  (** ** All groups *)
  Definition group_step (nv : option nat) (flags : list bool) (acc : (((middict * list V) * list (egroup E)) * list (tess * list (list nat)))) (bg : nat * egroup E) :=
    let '((da, gs), recs) := acc in
    let '(b, grp) := bg in
    '(da', (grp', mapping)) <- refine_group tessellation midpoints child_nodes nv (slice flags b (b + nelements grp)) grp (fst da) (snd da) ;;
    Ok ((da', gs ++ [grp']), recs ++ [(tessellation grp, mapping)]).

  Lemma groups_loop nv flags (Q : nat -> middict -> list V -> Prop) (T : nat -> egroup E -> list (list nat) -> middict -> Prop) l :
    (forall g grp' mapping d d', grows d d' -> T g grp' mapping d -> T g grp' mapping d') ->
    forall g0 da gs recs,
    (forall k b grp d added, nth_error l k = Some (b, grp) -> Q (g0 + k) d added ->
       exists da' grp' mapping, refine_group tessellation midpoints child_nodes nv (slice flags b (b + nelements grp)) grp d added = Ok (da', (grp', mapping)) /\
         Q (S (g0 + k)) (fst da') (snd da') /\ grows d (fst da') /\ T (g0 + k) grp' mapping (fst da')) ->
    Q g0 (fst da) (snd da) ->
    exists da' gs' recs', foldM (group_step nv flags) l ((da, gs), recs) = Ok ((da', gs ++ gs'), recs ++ recs') /\
      Q (g0 + length l) (fst da') (snd da') /\ grows (fst da) (fst da') /\ length gs' = length l /\ length recs' = length l /\
      forall k b grp, nth_error l k = Some (b, grp) -> exists grp' mapping, nth_error gs' k = Some grp' /\
        nth_error recs' k = Some (tessellation grp, mapping) /\ T (g0 + k) grp' mapping (fst da').
  Proof.
    intros HT. induction l as [|(b, grp) l IH]; intros g0 da gs recs Hstep HQ.
    - exists da, [], []. cbn [foldM length]. rewrite !app_nil_r, Nat.add_0_r. split; auto. split; auto. split; [apply grows_refl|].
      split; auto. split; auto. intros [|k] ? ? Hk; discriminate.
    - destruct (Hstep 0 b grp (fst da) (snd da) eq_refl) as (da1 & grp1 & map1 & H1 & HQ1 & Hg1 & HT1); [now rewrite Nat.add_0_r|].
      rewrite Nat.add_0_r in HQ1, HT1.
      destruct (IH (S g0) da1 (gs ++ [grp1]) (recs ++ [(tessellation grp, map1)])) as (da' & gs' & recs' & Hf & HQ' & Hg & HL1 & HL2 & Hall); auto.
      { intros k b' grp' d added Hk HQk. replace (S g0 + k) with (g0 + S k) by lia. apply (Hstep (S k) b' grp' d added); auto.
        now replace (g0 + S k) with (S g0 + k) by lia. }
      exists da', (grp1 :: gs'), ((tessellation grp, map1) :: recs'). split.
      { cbn [foldM]. unfold group_step at 1. rewrite H1. cbn [bind]. rewrite Hf. f_equal. rewrite <- !app_assoc. reflexivity. }
      split; [cbn [length]; now replace (g0 + S (length l)) with (S g0 + length l) by lia|].
      split; [eapply grows_trans; eauto|]. split; [cbn [length]; lia|]. split; [cbn [length]; lia|].
      intros [|k] b' grp' Hk; cbn [nth_error] in Hk.
      + injection Hk as <- <-. exists grp1, map1. split; auto. split; auto. rewrite Nat.add_0_r. eapply HT; eauto.
      + destruct (Hall k b' grp' Hk) as (g' & mp & Hn1 & Hn2 & Ht). exists g', mp. split; auto. split; auto.
        now replace (g0 + S k) with (S g0 + k) by lia.
  Qed.

  (** The flags of a group *)
  Lemma slice_flags (m : mesh E A V) flags g grp : length flags = sum (map nelements (m_groups m)) -> nth_error (m_groups m) g = Some grp ->
    group_flags m flags g (slice flags (base (map nelements (m_groups m)) g) (base (map nelements (m_groups m)) g + nelements grp)).
  Proof.
    intros Hl Hg. exists grp. split; auto. pose proof (base_bound _ _ _ Hg) as Hb. split.
    - rewrite slice_length by lia. lia.
    - intros i f Hi. rewrite nth_error_slice in Hi. unfold flag_of.
      destruct (_ + i <? _); [exact Hi|discriminate].
  Qed.

  Lemma group_flags_unique (m : mesh E A V) flags g gf gf' : group_flags m flags g gf -> group_flags m flags g gf' -> gf = gf'.
  Proof.
    intros (grp & Hg & Hl & Hf) (grp' & Hg' & Hl' & Hf'). assert (grp' = grp) by congruence. subst grp'.
    apply nth_error_ext'. intros i. destruct (nth_error gf i) as [f|] eqn:H1, (nth_error gf' i) as [f'|] eqn:H2; auto.
    - apply Hf in H1. apply Hf' in H2. unfold flag_of in *. congruence.
    - apply nth_error_None in H2. assert (i < length gf) by (apply nth_error_Some; congruence). lia.
    - apply nth_error_None in H1. assert (i < length gf') by (apply nth_error_Some; congruence). lia.
  Qed.

  Lemma corners_mono (M M' : nat -> nat -> nat -> Prop) gf grp grp' mapping : (forall a b v, M a b v -> M' a b v) ->
    group_corners tessellation M gf grp grp' mapping -> group_corners tessellation M' gf grp grp' mapping.
  Proof.
    intros H (vi & vi' & H1 & H2 & H3 & H4). exists vi, vi'. split; auto. split; auto. split; auto.
    intros i c j row child Hi Hj Hr Hc. destruct (H4 i c j row child Hi Hj Hr Hc) as (row' & Hr' & HF). exists row'. split; auto.
    eapply Forall2_impl; [|exact HF]. intros r v. now apply vertex_at_mono.
  Qed.

  (** Every new element is the child of an old one *)
  Lemma child_exists n flags nnew mapping j : distributes n flags nnew mapping -> j < nnew ->
    exists i c f, child_of mapping i c j /\ nth_error flags i = Some f /\ (if f then c < n else c = 0).
  Proof.
    intros (Hl & Hc & Hn) Hj.
    assert (Hin : In j (concat mapping)) by (rewrite Hc; apply in_seq; lia).
    apply in_concat in Hin as (ch & Hch & Hj'). apply In_nth_error in Hch as (i & Hi). apply In_nth_error in Hj' as (c & Hcj).
    destruct (nth_error flags i) as [f|] eqn:Hf.
    - specialize (Hn i f ch Hf Hi). assert (c < length ch) by (apply nth_error_Some; congruence).
      exists i, c, f. split; [exists ch; auto|]. split; auto. destruct f; lia.
    - apply nth_error_None in Hf. assert (i < length mapping) by (apply nth_error_Some; congruence). lia.
  Qed.

  Lemma new_rows (M : nat -> nat -> nat -> Prop) N gf grp grp' mapping vi : tess_ok (tessellation grp) -> length gf = nelements grp ->
    group_children tessellation child_nodes gf grp grp' mapping -> group_corners tessellation M gf grp grp' mapping ->
    (forall a b v, M a b v -> v < N) ->
    eg_vi grp = Some vi -> length vi = nelements grp ->
    Forall (fun row => length row = length (ts_orig (tessellation grp)) /\ Forall (fun v => v < N) row) vi ->
    exists vi', eg_vi grp' = Some vi' /\ length vi' = nelements grp' /\
      Forall (fun row => length row = length (ts_orig (tessellation grp)) /\ Forall (fun v => v < N) row) vi'.
  Proof.
    intros (_ & _ & _ & Hch) Hgl (Hd & Hun & _) (vi0 & vi' & Hv0 & Hv' & Hl' & Hfl) HM Hv Hl Hrows.
    assert (vi0 = vi) by congruence. subst vi0. exists vi'. split; auto. split; auto.
    apply Forall_forall. intros row' Hin. apply In_nth_error in Hin as (j & Hj).
    assert (Hjn : j < nelements grp') by (rewrite <- Hl'; apply nth_error_Some; congruence).
    destruct (child_exists _ _ _ _ _ Hd Hjn) as (i & c & f & Hc & Hf & Hcf).
    assert (Hi : i < length vi) by (rewrite Hl, <- Hgl; apply nth_error_Some; congruence).
    destruct (nth_error vi i) as [row|] eqn:Hrow; [|apply nth_error_None in Hrow; lia].
    rewrite Forall_forall in Hrows, Hch. destruct (Hrows row (nth_error_In _ _ Hrow)) as (Hrl & Hrb).
    destruct f.
    - destruct (nth_error (ts_children (tessellation grp)) c) as [child|] eqn:Hcc; [|apply nth_error_None in Hcc; lia].
      destruct (Hfl i c j row child Hf Hc Hrow Hcc) as (row0 & Hr0 & HF). assert (row0 = row') by congruence. subst row0.
      destruct (Hch child (nth_error_In _ _ Hcc)) as (Hcl & _). pose proof (Forall2_length' _ _ _ HF) as HL. split; [lia|].
      apply Forall_forall. intros v Hv1. destruct (Forall2_In_r _ _ _ _ HF Hv1) as (r & _ & [(k & _ & Hk)|(k & a & b & ga & gb & _ & _ & _ & _ & Hm)]).
      + rewrite Forall_forall in Hrb. apply Hrb. eapply nth_error_In; eauto.
      + eapply HM; eauto.
    - subst c. destruct (Hun i j Hf Hc) as (_ & Hk). specialize (Hk vi vi' Hv Hv'). assert (row' = row) by congruence. now subst row'.
  Qed.

  (** ** One call of refine *)
  Definition refiner_ok (r : @refiner E A V) : Prop :=
    refinable tessellation (rf_current r) /\
    forall vs, m_vertices (rf_current r) = Some vs -> Forall (fun e => snd e < length vs) (rf_dict r).

  Lemma bases_nth (m : mesh E A V) k b grp : m_groups m <> [] ->
    nth_error (combine (base_element_nrs (map nelements (m_groups m))) (m_groups m)) k = Some (b, grp) <->
    b = base (map nelements (m_groups m)) k /\ nth_error (m_groups m) k = Some grp.
  Proof.
    intros Hne. rewrite nth_error_combine_Some. split.
    - intros (Hb & Hg). split; auto. assert (k < length (m_groups m)) by (apply nth_error_Some; congruence).
      rewrite base_element_nrs_nth in Hb by (rewrite map_length; lia). congruence.
    - intros (-> & Hg). split; auto. assert (k < length (m_groups m)) by (apply nth_error_Some; congruence).
      apply base_element_nrs_nth. rewrite map_length; lia.
  Qed.

  Lemma bases_length (m : mesh E A V) : m_groups m <> [] -> length (base_element_nrs (map nelements (m_groups m))) = length (m_groups m).
  Proof. intros H. rewrite base_element_nrs_length; [apply map_length|]. destruct (m_groups m); [congruence|discriminate]. Qed.

  (** refine, for an invariant [Q] of the table and the new vertices *)
  Lemma refine_with (Q : nat -> middict -> list V -> Prop) vd ed fd (r : @refiner E A V) flags :
    tessellation_ok tessellation midpoints child_nodes -> refiner_ok r ->
    length flags = sum (map nelements (m_groups (rf_current r))) ->
    (forall g grp gf d added, nth_error (m_groups (rf_current r)) g = Some grp -> group_flags (rf_current r) flags g gf ->
       Q g d added -> exists da' grp' mapping,
         refine_group tessellation midpoints child_nodes (option_map (@length V) (m_vertices (rf_current r))) gf grp d added = Ok (da', (grp', mapping)) /\
         Q (S g) (fst da') (snd da') /\ grows d (fst da') /\
         group_children tessellation child_nodes gf grp grp' mapping /\
         (m_vertices (rf_current r) <> None -> group_corners tessellation (table (fst da')) gf grp grp' mapping) /\
         (m_vertices (rf_current r) = None -> eg_vi grp' = None)) ->
    Q 0 (rf_dict r) [] ->
    exists r' added recs, refine tessellation midpoints child_nodes vd ed fd r flags = Ok r' /\
      Q (length (m_groups (rf_current r))) (rf_dict r') added /\ grows (rf_dict r) (rf_dict r') /\
      rf_previous r' = Some (rf_current r) /\ rf_records r' = Some recs /\
      m_vertices (rf_current r') = option_map (fun vs => vs ++ added) (m_vertices (rf_current r)) /\
      m_conforming (rf_current r') = match m_vertices (rf_current r) with
                                     | None => None
                                     | Some _ => match m_conforming (rf_current r) with
                                                 | Some true => Some (forallb (fun b => b) flags || forallb negb flags)
                                                 | c => c
                                                 end
                                     end /\
      length (m_groups (rf_current r')) = length (m_groups (rf_current r)) /\ length recs = length (m_groups (rf_current r)) /\
      forall g grp gf, nth_error (m_groups (rf_current r)) g = Some grp -> group_flags (rf_current r) flags g gf ->
        exists grp' mapping, nth_error (m_groups (rf_current r')) g = Some grp' /\ nth_error recs g = Some (tessellation grp, mapping) /\
          group_children tessellation child_nodes gf grp grp' mapping /\
          (m_vertices (rf_current r) <> None -> group_corners tessellation (table (rf_dict r')) gf grp grp' mapping) /\
          (m_vertices (rf_current r) = None -> eg_vi grp' = None).
  Proof.
    intros Hts ((Hne & Hshape) & Hdict) Hfl HQ HQ0. set (m := rf_current r) in *.
    set (T := fun g (grp' : egroup E) mapping d => exists grp gf, nth_error (m_groups m) g = Some grp /\ group_flags m flags g gf /\
                group_children tessellation child_nodes gf grp grp' mapping /\
                (m_vertices m <> None -> group_corners tessellation (table d) gf grp grp' mapping) /\
                (m_vertices m = None -> eg_vi grp' = None)).
    destruct (groups_loop (option_map (@length V) (m_vertices m)) flags Q T (combine (base_element_nrs (map nelements (m_groups m))) (m_groups m)))
      with (g0 := 0) (da := (rf_dict r, @nil V)) (gs := @nil (egroup E)) (recs := @nil (tess * list (list nat)))
      as (da' & gs' & recs' & Hf & HQ' & Hg & HL1 & HL2 & Hall); auto.
    { intros g grp' mapping d d' Hdd (grp & gf & H1 & H2 & H3 & H4 & H5). exists grp, gf. split; auto. split; auto. split; auto. split; auto.
      intros Hn. eapply corners_mono; [apply grows_table, Hdd|auto]. }
    { intros k b grp d added Hk HQk. cbn [plus] in *. apply (bases_nth m k b grp Hne) in Hk as (-> & Hgk).
      pose proof (slice_flags m flags k grp Hfl Hgk) as Hgf.
      destruct (HQ k grp _ d added Hgk Hgf HQk) as (da' & grp' & mapping & H1 & H2 & H3 & H4).
      exists da', grp', mapping. split; auto. split; auto. split; auto. exists grp. eexists. split; [exact Hgk|]. split; [exact Hgf|exact H4]. }
    assert (Hlc : length (combine (base_element_nrs (map nelements (m_groups m))) (m_groups m)) = length (m_groups m)).
    { rewrite combine_length, bases_length by auto. lia. }
    rewrite Hlc in HL1, HL2, HQ'.
    unfold refine. fold m. rewrite (proj2 (Nat.eqb_eq _ _) Hfl). cbn [guard]. okstep.
    rewrite (proj2 (Nat.eqb_eq _ _) (bases_length m Hne)). cbn [guard]. okstep.
    change (foldM _ (combine (base_element_nrs (map nelements (m_groups m))) (m_groups m)) ((rf_dict r, [], []), []))
      with (foldM (group_step (option_map (@length V) (m_vertices m)) flags) (combine (base_element_nrs (map nelements (m_groups m))) (m_groups m)) ((rf_dict r, [], []), [])).
    rewrite Hf. okstep. cbn [fst snd app].
    set (cf := match m_conforming m with Some true => _ | c => c end).
    set (mm := make_mesh _ _ _ _ _ _ _ _).
    assert (Hm : exists m' : mesh E A V, mm = Ok m' /\ m_groups m' = gs' /\ m_vertices m' = option_map (fun vs => vs ++ snd da') (m_vertices m) /\
                   m_conforming m' = match m_vertices m with None => None | Some _ => cf end).
    { unfold mm, make_mesh. clearbody cf. destruct (m_vertices m) as [vs|]; cbn [option_map]; [destruct cf as [[|]|]|]; cbn [truthy none_to_false bind]; eexists; split; try reflexivity; auto. }
    destruct Hm as (m' & -> & Hmg & Hmv & Hmc). okstep.
    eexists _, (snd da'), recs'. split; [reflexivity|]. cbn [rf_current rf_dict rf_previous rf_records].
    split; auto. split; auto. split; auto. split; auto. split; auto. split; [exact Hmc|]. split; [congruence|]. split; auto.
    intros g grp gf Hgrp Hgf.
    destruct (Hall g (base (map nelements (m_groups m)) g) grp) as (grp' & mapping & Hn1 & Hn2 & (grp0 & gf0 & Hg0 & Hgf0 & Hrest)).
    { apply bases_nth; auto. }
    cbn [plus] in *. assert (grp0 = grp) by congruence. subst grp0. assert (gf0 = gf) by (eapply group_flags_unique; eauto). subst gf0.
    exists grp', mapping. rewrite Hmg. auto.
  Qed.

  Lemma table_bound d N : Forall (fun e : (nat * nat) * nat => snd e < N) d -> forall a b v, table d a b v -> v < N.
  Proof. intros H a b v Ht. apply dlookup_In in Ht. rewrite Forall_forall in H. exact (H _ Ht). Qed.

  Lemma new_refiner_ok (r r' : @refiner E A V) flags added : tessellation_ok tessellation midpoints child_nodes -> refiner_ok r ->
    length (m_groups (rf_current r')) = length (m_groups (rf_current r)) ->
    length flags = sum (map nelements (m_groups (rf_current r))) ->
    m_vertices (rf_current r') = option_map (fun vs => vs ++ added) (m_vertices (rf_current r)) ->
    (forall vs, m_vertices (rf_current r) = Some vs -> Forall (fun e => snd e < length (vs ++ added)) (rf_dict r')) ->
    (forall g grp gf, nth_error (m_groups (rf_current r)) g = Some grp -> group_flags (rf_current r) flags g gf ->
        exists grp' mapping, nth_error (m_groups (rf_current r')) g = Some grp' /\
          group_children tessellation child_nodes gf grp grp' mapping /\
          (m_vertices (rf_current r) <> None -> group_corners tessellation (table (rf_dict r')) gf grp grp' mapping)) ->
    refiner_ok r'.
  Proof.
    intros (Hts & Hshape & _) ((Hne & Href) & _) Hlen Hfl Hv Hd Hall. split; [split|].
    - destruct (m_groups (rf_current r')); [destruct (m_groups (rf_current r)); [congruence|discriminate]|discriminate].
    - intros vs' grp' Hvs' Hin. apply In_nth_error in Hin as (g & Hg).
      assert (g < length (m_groups (rf_current r))) by (rewrite <- Hlen; apply nth_error_Some; congruence).
      destruct (nth_error (m_groups (rf_current r)) g) as [grp|] eqn:Hgrp; [|apply nth_error_None in Hgrp; lia].
      pose proof (slice_flags _ _ _ _ Hfl Hgrp) as Hgf.
      destruct (Hall g grp _ Hgrp Hgf) as (grp0 & mapping & Hg0 & Hch & Hco). assert (grp0 = grp') by congruence. subst grp0.
      rewrite Hv in Hvs'. destruct (m_vertices (rf_current r)) as [vs|] eqn:Hvs; [|discriminate]. cbn [option_map] in Hvs'. injection Hvs' as <-.
      destruct (Href vs grp eq_refl (nth_error_In _ _ Hgrp)) as (vi & Hvi & Hvl & Hrows).
      assert (Hft : tessellation grp' = tessellation grp) by (apply Hshape; apply Hch). rewrite Hft.
      destruct Hgf as (grp1 & Hg1 & Hgl & _). assert (grp1 = grp) by congruence. subst grp1.
      eapply new_rows with (M := table (rf_dict r')); eauto.
      + apply Hco. discriminate.
      + apply table_bound. auto.
      + eapply Forall_impl; [|exact Hrows]. intros row (H1 & H2). split; auto.
        eapply Forall_impl; [|exact H2]. cbn beta. intros v Hvv. rewrite app_length. lia.
    - intros vs' Hvs'. rewrite Hv in Hvs'. destruct (m_vertices (rf_current r)) as [vs|] eqn:Hvs; [|discriminate]. cbn [option_map] in Hvs'. injection Hvs' as <-.
      apply Hd. reflexivity.
  Qed.

  Lemma refine_ok vd ed fd (r : @refiner E A V) flags :
    tessellation_ok tessellation midpoints child_nodes -> refiner_ok r ->
    length flags = sum (map nelements (m_groups (rf_current r))) ->
    exists r' added recs, refine tessellation midpoints child_nodes vd ed fd r flags = Ok r' /\
      refiner_ok r' /\ grows (rf_dict r) (rf_dict r') /\
      rf_previous r' = Some (rf_current r) /\ rf_records r' = Some recs /\
      m_vertices (rf_current r') = option_map (fun vs => vs ++ added) (m_vertices (rf_current r)) /\
      m_conforming (rf_current r') = match m_vertices (rf_current r) with
                                     | None => None
                                     | Some _ => match m_conforming (rf_current r) with
                                                 | Some true => Some (forallb (fun b => b) flags || forallb negb flags)
                                                 | c => c
                                                 end
                                     end /\
      length (m_groups (rf_current r')) = length (m_groups (rf_current r)) /\ length recs = length (m_groups (rf_current r)) /\
      forall g grp gf, nth_error (m_groups (rf_current r)) g = Some grp -> group_flags (rf_current r) flags g gf ->
        exists grp' mapping, nth_error (m_groups (rf_current r')) g = Some grp' /\ nth_error recs g = Some (tessellation grp, mapping) /\
          group_children tessellation child_nodes gf grp grp' mapping /\
          (m_vertices (rf_current r) <> None -> group_corners tessellation (table (rf_dict r')) gf grp grp' mapping) /\
          (m_vertices (rf_current r) = None -> eg_vi grp' = None).
  Proof.
    intros Hts Hr Hfl.
    set (Q := fun (_ : nat) (d : middict) (added : list V) => forall vs, m_vertices (rf_current r) = Some vs ->
                Forall (fun e : (nat * nat) * nat => snd e < length vs + length added) d).
    destruct (refine_with Q vd ed fd r flags Hts Hr Hfl) as (r' & added & recs & H1 & HQ & H2 & H3 & H4 & H5 & H6 & H7 & H8 & H9).
    - intros g grp gf d added Hg Hgf HQ.
      set (P := fun st : @rstate V => forall vs, m_vertices (rf_current r) = Some vs ->
                Forall (fun e : (nat * nat) * nat => snd e < length vs + length (rs_added st)) (rs_dict st) /\ rs_next st <= length vs + length (rs_added st)).
      pose proof Hgf as (grp0 & Hg0 & Hgl & _). assert (grp0 = grp) by congruence. subst grp0.
      destruct (refine_group_ok P (option_map (@length V) (m_vertices (rf_current r))) gf grp d added Hts Hgl) as (da & grp' & mapping & G1 & G2 & G3).
      { intros nv0 Hnv. destruct (m_vertices (rf_current r)) as [vs|] eqn:Hvs; [|discriminate]. cbn [option_map] in Hnv. injection Hnv as <-.
        split.
        - intros vs0 E0. assert (vs0 = vs) by congruence. subst vs0. cbn [rs_dict rs_added rs_next]. split; [now apply HQ|lia].
        - destruct Hr as ((_ & Href) & _). destruct (Href vs grp Hvs (nth_error_In _ _ Hg)) as (vi & Hvi & Hvl & Hrows).
          exists vi. split; auto. split; auto. split; [eapply Forall_impl; [|exact Hrows]; now intros row (Hx & _)|].
          intros st iel row k a b ga gb pt _ _ _ _ _ _ _ HP vs0 E0. destruct (HP vs0 E0) as (HF & Hn). cbn [push rs_dict rs_added rs_next].
          rewrite app_length. cbn [length]. split; [|lia]. apply Forall_app. split.
          + eapply Forall_impl; [|exact HF]. cbn beta. intros; lia.
          + constructor; [cbn [snd]; lia|constructor]. }
      exists da, grp', mapping. split; auto.
      destruct (m_vertices (rf_current r)) as [vs|] eqn:Hvs; cbn [option_map] in G3.
      + destruct G3 as ((next & HP) & Hgr & Hco). split; [|split; [auto|split; [auto|split; [auto|discriminate]]]].
        intros vs0 E0. exact (proj1 (HP vs0 E0)).
      + destruct G3 as (-> & Hnone). split; [intros vs0 E0; congruence|]. split; [apply grows_refl|]. split; auto. split; [congruence|auto].
    - intros vs Hvs. cbn [length]. rewrite Nat.add_0_r. now apply Hr.
    - exists r', added, recs. split; auto. split; [|auto 10].
      eapply new_refiner_ok with (flags := flags); eauto.
      + intros vs Hvs. rewrite app_length. now apply HQ.
      + intros g grp gf Hg Hgf. destruct (H9 g grp gf Hg Hgf) as (grp' & mapping & K1 & K2 & K3 & K4 & _). eauto 6.
  Qed.

  (** ** Straight elements, flags in one group *)
  Variable corners : E -> list V.
  Variable mid : V -> V -> V.

  Definition table_at (vs : list V) (d : middict) : Prop :=
    NoDup (map snd d) /\
    forall k v, In (k, v) d -> exists P Q, nth_error vs (fst k) = Some P /\ nth_error vs (snd k) = Some Q /\ nth_error vs v = Some (mid P Q).

  Lemma table_located vs d : (forall P Q, mid P Q = mid Q P) -> table_at vs d -> located mid (table d) vs.
  Proof.
    intros Hs (_ & H) a b v Ht. apply dlookup_In in Ht. destruct (H _ _ Ht) as (P & Q & H1 & H2 & H3).
    destruct (sort_pair_cases a b) as [Es|Es]; rewrite Es in H1, H2; cbn [fst snd] in *.
    - eauto 6.
    - exists Q, P. rewrite Hs. auto.
  Qed.

  Lemma nth_error_app_l {X} (l l' : list X) i x : nth_error l i = Some x -> nth_error (l ++ l') i = Some x.
  Proof. intros H. rewrite nth_error_app1; auto. apply nth_error_Some. congruence. Qed.

  Lemma table_at_app vs l d : table_at vs d -> table_at (vs ++ l) d.
  Proof.
    intros (HN & H). split; auto. intros k v Hk. destruct (H k v Hk) as (P & Q & H1 & H2 & H3).
    exists P, Q. split; [|split]; now apply nth_error_app_l.
  Qed.

  Lemma table_at_push vs d a b P Q : (forall P Q, mid P Q = mid Q P) -> table_at vs d -> nth_error vs a = Some P -> nth_error vs b = Some Q ->
    table_at (vs ++ [mid P Q]) (d ++ [(sort_pair a b, length vs)]).
  Proof.
    intros Hs (HN & H) Ha Hb. split.
    - rewrite map_app. cbn [map snd]. apply NoDup_app; auto; [constructor; [intros []|constructor]|].
      intros x Hin [<-|[]]. apply in_map_iff in Hin as ((k, v) & Ev & Hin). cbn [snd] in Ev. subst v.
      destruct (H _ _ Hin) as (P0 & Q0 & _ & _ & Hl). assert (length vs < length vs) by (apply nth_error_Some; congruence). lia.
    - intros k v Hin. apply in_app_or in Hin as [Hin|[[= <- <-]|[]]].
      + destruct (H k v Hin) as (P0 & Q0 & H1 & H2 & H3). exists P0, Q0. split; [|split]; now apply nth_error_app_l.
      + assert (Hl : nth_error (vs ++ [mid P Q]) (length vs) = Some (mid P Q)) by (rewrite nth_error_app2 by lia; now rewrite Nat.sub_diag).
        destruct (sort_pair_cases a b) as [Es|Es]; rewrite Es; cbn [fst snd].
        * exists P, Q. split; [|split]; auto; now apply nth_error_app_l.
        * exists Q, P. rewrite (Hs Q P). split; [|split]; auto; now apply nth_error_app_l.
  Qed.

  Definition strong_ok (r : @refiner E A V) : Prop :=
    refiner_ok r /\ consistent corners (rf_current r) /\
    forall vs, m_vertices (rf_current r) = Some vs -> table_at vs (rf_dict r).

  Lemma refine_straight vd ed fd (r r' : @refiner E A V) flags :
    tessellation_ok tessellation midpoints child_nodes -> straight tessellation midpoints child_nodes corners mid ->
    strong_ok r -> one_group (rf_current r) flags ->
    refine tessellation midpoints child_nodes vd ed fd r flags = Ok r' ->
    strong_ok r' /\ grows (rf_dict r) (rf_dict r') /\
    refined_by tessellation child_nodes (table (rf_dict r')) flags (rf_current r) (rf_current r') /\
    exists vs added, m_vertices (rf_current r) = Some vs /\ m_vertices (rf_current r') = Some (vs ++ added).
  Proof.
    intros Hts (Hsym & Hmid & Hkids) (Hr & Hcons & Htab) Hone Hok. pose proof Hcons as (vs & Hvs & Hpos).
    specialize (Htab vs Hvs).
    assert (Hfl : length flags = sum (map nelements (m_groups (rf_current r)))).
    { unfold refine in Hok. destruct (Nat.eqb_spec (length flags) (sum (map nelements (m_groups (rf_current r))))); auto. discriminate. }
    set (flagged := fun g => exists gf i, group_flags (rf_current r) flags g gf /\ nth_error gf i = Some true).
    set (Q := fun g (d : middict) (added : list V) => table_at (vs ++ added) d /\ (added = [] \/ exists g', g' < g /\ flagged g')).
    destruct (refine_with Q vd ed fd r flags Hts Hr Hfl) as (r1 & added & recs & H1 & (HQ & _) & H2 & H3 & H4 & H5 & H6 & H7 & H8 & H9).
    - intros g grp gf d added Hg Hgf (Hta & Had).
      pose proof Hgf as (grp0 & Hg0 & Hgl & _). assert (grp0 = grp) by congruence. subst grp0.
      destruct Hr as ((_ & Href) & _). destruct (Href vs grp Hvs (nth_error_In _ _ Hg)) as (vi & Hvi & Hvl & Hrows).
      assert (Hrl : Forall (fun row => length row = length (ts_orig (tessellation grp))) vi) by (eapply Forall_impl; [|exact Hrows]; now intros row (Hx & _)).
      rewrite Hvs. cbn [option_map].
      destruct (existsb (fun b => b) gf) eqn:Hex.
      + assert (Hfg : flagged g).
        { apply existsb_exists in Hex as (f & Hf & ->). apply In_nth_error in Hf as (i & Hi). exists gf, i. auto. }
        destruct Had as [->|(g' & Hlt & (gf' & i' & Hgf' & Hi'))].
        2:{ exfalso. destruct Hfg as (gf0 & i & Hgf0 & Hi). specialize (Hone g g' i i' gf0 gf' Hgf0 Hgf' Hi Hi'). lia. }
        rewrite app_nil_r in Hta.
        destruct (refine_group_ok (fun st => table_at (vs ++ rs_added st) (rs_dict st) /\ rs_next st = length (vs ++ rs_added st)) (Some (length vs)) gf grp d [] Hts Hgl)
          as (da & grp' & mapping & G1 & G2 & ((next & (G3 & _)) & G4 & G5)).
        { intros nv0 [= <-]. cbn [rs_added rs_dict rs_next]. rewrite app_nil_r. split; auto. exists vi. split; auto. split; auto. split; auto.
          intros st iel row k a b ga gb pt Hf Hrow Hp Ha Hb Hpt Hnone (Hst & Hnx). cbn [push rs_added rs_dict rs_next].
          assert (Hiel : iel < nelements grp) by (rewrite <- Hvl; apply nth_error_Some; congruence).
          destruct (nth_error (eg_nodes grp) iel) as [nd|] eqn:Hnd; [|apply nth_error_None in Hnd; unfold nelements in Hiel; lia].
          pose proof (Hpos grp iel nd vi row (nth_error_In _ _ Hg) Hnd Hvi Hrow) as HF.
          destruct (Forall2_nth_error _ _ _ _ _ HF Ha) as (P & HP & HvP). destruct (Forall2_nth_error _ _ _ _ _ HF Hb) as (P' & HP' & HvP').
          rewrite (Hmid grp iel nd k a b P P' Hnd Hp HP HP') in Hpt. injection Hpt as <-.
          rewrite app_assoc, Hnx. split; [|rewrite !app_length; cbn [length]; lia].
          apply table_at_push; auto; now apply nth_error_app_l. }
        exists da, grp', mapping. split; auto. split; [split; [exact G3|right; exists g; split; [lia|exact Hfg]]|].
        split; auto. split; auto. split; auto. discriminate.
      + assert (Hno : forall i, nth_error gf i <> Some true).
        { intros i Hi. assert (existsb (fun b => b) gf = true) by (apply existsb_exists; exists true; split; auto; eapply nth_error_In; eauto). congruence. }
        destruct (refine_group_ok (fun st => st = mk_rstate d added (length vs)) (Some (length vs)) gf grp d added Hts Hgl)
          as (da & grp' & mapping & G1 & G2 & ((next & G3) & G4 & G5)).
        { intros nv0 [= <-]. split; auto. exists vi. split; auto. split; auto. split; auto.
          intros st iel row k a b ga gb pt Hf. now apply Hno in Hf. }
        injection G3 as G3a G3b _. exists da, grp', mapping. rewrite G3a, G3b in *. split; auto.
        split; [split; [auto|destruct Had as [->|(g' & Hlt & Hfg)]; [now left|right; exists g'; split; [lia|auto]]]|].
        split; [apply grows_refl|]. split; auto. split; auto. discriminate.
    - split; [rewrite app_nil_r; auto|now left].
    - assert (r1 = r') by congruence. subst r1. rewrite Hvs in H5. cbn [option_map] in H5.
      assert (Hcor : forall g grp gf, nth_error (m_groups (rf_current r)) g = Some grp -> group_flags (rf_current r) flags g gf ->
        exists grp' mapping, nth_error (m_groups (rf_current r')) g = Some grp' /\
          group_children tessellation child_nodes gf grp grp' mapping /\ group_corners tessellation (table (rf_dict r')) gf grp grp' mapping).
      { intros g grp gf Hg Hgf. destruct (H9 g grp gf Hg Hgf) as (grp' & mapping & K1 & K2 & K3 & K4 & _). exists grp', mapping. split; auto. split; auto.
        apply K4. congruence. }
      split; [|split; [auto|split; [|eauto]]].
      + split; [|split].
        * eapply new_refiner_ok with (flags := flags) (added := added); eauto.
          { rewrite Hvs. exact H5. }
          { intros vs0 E0. assert (vs0 = vs) by congruence. subst vs0. apply Forall_forall. intros (k, v) Hin. destruct HQ as (_ & HQ).
            destruct (HQ k v Hin) as (P & P' & _ & _ & Hv). cbn [snd]. apply nth_error_Some. congruence. }
          { intros g grp gf Hg Hgf. destruct (Hcor g grp gf Hg Hgf) as (grp' & mapping & K1 & K2 & K3). eauto 6. }
        * exists (vs ++ added). split; auto. intros grp' j nd' vi' row' Hin Hnd' Hvi' Hrow'.
          apply In_nth_error in Hin as (g & Hg').
          assert (Hgl : g < length (m_groups (rf_current r))) by (rewrite <- H7; apply nth_error_Some; congruence).
          destruct (nth_error (m_groups (rf_current r)) g) as [grp|] eqn:Hg; [|apply nth_error_None in Hg; lia].
          pose proof (slice_flags _ _ _ _ Hfl Hg) as Hgf. set (gf := slice _ _ _) in Hgf. clearbody gf.
          destruct (Hcor g grp gf Hg Hgf) as (grp0 & mapping & K1 & (Kd & Ku & Kf & _) & (vi & vi0 & Hvi & Hvi0 & Hl0 & Kc)).
          assert (grp0 = grp') by congruence. subst grp0. assert (vi0 = vi') by congruence. subst vi0.
          assert (Hj : j < nelements grp') by (unfold nelements; apply nth_error_Some; congruence).
          destruct (child_exists _ _ _ _ _ Kd Hj) as (i & c & f & Hc & Hf & Hcf).
          destruct Hgf as (grp1 & Hg1 & Hgfl & _). assert (grp1 = grp) by congruence. subst grp1.
          assert (Hi : i < nelements grp) by (rewrite <- Hgfl; apply nth_error_Some; congruence).
          destruct (nth_error (eg_nodes grp) i) as [nd|] eqn:Hnd; [|apply nth_error_None in Hnd; unfold nelements in Hi; lia].
          destruct Hr as ((_ & Href) & _). destruct (Href vs grp Hvs (nth_error_In _ _ Hg)) as (vi2 & Hvi2 & Hvl & Hrows2).
          assert (vi2 = vi) by congruence. subst vi2.
          destruct (nth_error vi i) as [row|] eqn:Hrow; [|apply nth_error_None in Hrow; lia].
          pose proof (Hpos grp i nd vi row (nth_error_In _ _ Hg) Hnd Hvi Hrow) as HF.
          destruct f.
          { destruct (nth_error (ts_children (tessellation grp)) c) as [child|] eqn:Hcc; [|apply nth_error_None in Hcc; lia].
            destruct (Kc i c j row child Hf Hc Hrow Hcc) as (row0 & Hr0 & HFv). assert (row0 = row') by congruence. subst row0.
            assert (Hcn : nth_error (child_nodes grp i) c = Some nd') by (rewrite <- (Kf i c j Hf Hc); auto).
            assert (Hlc : length (corners nd) = length (ts_orig (tessellation grp))).
            { rewrite <- (Forall2_length' _ _ _ HF). rewrite Forall_forall in Hrows2. apply (Hrows2 row). eapply nth_error_In; eauto. }
            pose proof (Hkids grp i nd c child nd' Hnd Hlc Hcc Hcn) as HFp.
            apply Forall2_intro_nth; [rewrite <- (Forall2_length' _ _ _ HFv); apply (Forall2_length' _ _ _ HFp)|].
            intros l v p Hl Hp. destruct (Forall2_nth_error_r _ _ _ _ _ HFv Hl) as (rr & Hrr & Hva).
            destruct (Forall2_nth_error_r _ _ _ _ _ HFp Hp) as (rr' & Hrr' & Hpa). assert (rr' = rr) by congruence. subst rr'.
            (* the reference vertex determines which case applies *)
            destruct Hts as (Hts & _). destruct (Hts grp) as (Hperm & _).
            assert (HND : NoDup (ts_orig (tessellation grp) ++ ts_mid (tessellation grp))) by (eapply Permutation_NoDup; [apply Permutation_sym, Hperm|apply seq_NoDup]).
            apply NoDup_app_inv in HND as (HN1 & HN2 & HN3).
            destruct Hva as [(q & Hq & Hqv)|(k & a & b & ga & gb & Hk & Hkp & Ha & Hb & HM)], Hpa as [(q' & Hq' & Hqp)|(k' & a' & b' & P & P' & Hk' & Hkp' & HP & HP' & ->)].
            - assert (q' = q) by (eapply (proj1 (NoDup_nth_error _) HN1); [apply nth_error_Some; congruence|congruence]). subst q'.
              destruct (Forall2_nth_error _ _ _ _ _ HF Hqv) as (p0 & Hp0 & Hvp). assert (p0 = p) by congruence. subst p0. now apply nth_error_app_l.
            - exfalso. apply (HN3 rr); eapply nth_error_In; eauto.
            - exfalso. apply (HN3 rr); eapply nth_error_In; eauto.
            - assert (k' = k) by (eapply (proj1 (NoDup_nth_error _) HN2); [apply nth_error_Some; congruence|congruence]). subst k'.
              rewrite Hkp in Hkp'. injection Hkp' as <- <-.
              destruct (Forall2_nth_error _ _ _ _ _ HF Ha) as (p1 & Hp1 & Hv1). destruct (Forall2_nth_error _ _ _ _ _ HF Hb) as (p2 & Hp2 & Hv2).
              assert (p1 = P) by congruence. assert (p2 = P') by congruence. subst p1 p2.
              destruct (table_located _ _ Hsym HQ ga gb v HM) as (P1 & P2 & E1 & E2 & E3).
              apply (nth_error_app_l vs added) in Hv1, Hv2. congruence. }
          { subst c. destruct (Ku i j Hf Hc) as (Kn & Kr). specialize (Kr vi vi' Hvi Hvi'). assert (row' = row) by congruence. assert (nd' = nd) by congruence. subst row' nd'.
            eapply Forall2_impl; [|exact HF]. cbn beta. intros v p. apply nth_error_app_l. }
        * intros vs' Hvs'. assert (vs' = vs ++ added) by congruence. now subst vs'.
      + split; [auto|]. intros g grp grp' gf Hg Hg' Hgf. destruct (Hcor g grp gf Hg Hgf) as (grp0 & mapping & K1 & K2 & K3).
        assert (grp0 = grp') by congruence. subst grp0. eauto.
  Qed.

  Lemma reached_ok vd ed fd (m0 : mesh E A V) r : tessellation_ok tessellation midpoints child_nodes -> refinable tessellation m0 ->
    reached tessellation midpoints child_nodes vd ed fd m0 r -> refiner_ok r.
  Proof.
    intros Hts Hm. induction 1 as [|r flags r' Hr IH Hok].
    - split; [exact Hm|]. intros vs _. constructor.
    - assert (Hfl : length flags = sum (map nelements (m_groups (rf_current r)))).
      { unfold refine in Hok. destruct (Nat.eqb_spec (length flags) (sum (map nelements (m_groups (rf_current r))))); auto. discriminate. }
      destruct (refine_ok vd ed fd r flags Hts IH Hfl) as (r1 & _ & _ & H1 & H2 & _). congruence.
  Qed.

  Lemma refined_by_mono (M M' : nat -> nat -> nat -> Prop) flags (m m' : mesh E A V) : (forall a b v, M a b v -> M' a b v) ->
    refined_by tessellation child_nodes M flags m m' -> refined_by tessellation child_nodes M' flags m m'.
  Proof.
    intros HM (Hl & H). split; auto. intros g grp grp' gf H1 H2 H3. destruct (H g grp grp' gf H1 H2 H3) as (mp & H4 & H5).
    exists mp. split; auto. eapply corners_mono; eauto.
  Qed.

  Lemma history_straight vd ed fd (r : @refiner E A V) fs ms :
    tessellation_ok tessellation midpoints child_nodes -> straight tessellation midpoints child_nodes corners mid ->
    strong_ok r -> history tessellation midpoints child_nodes vd ed fd r fs ms ->
    (forall t m flags, nth_error (rf_current r :: ms) t = Some m -> nth_error fs t = Some flags -> one_group m flags) ->
    exists d, grows (rf_dict r) d /\ NoDup (map snd d) /\
      (forall vs, m_vertices (last ms (rf_current r)) = Some vs -> located mid (table d) vs) /\
      forall t m m' flags, nth_error (rf_current r :: ms) t = Some m -> nth_error ms t = Some m' -> nth_error fs t = Some flags ->
        refined_by tessellation child_nodes (table d) flags m m' /\ consistent corners m' /\
        exists vs added, m_vertices m = Some vs /\ m_vertices m' = Some (vs ++ added).
  Proof.
    intros Hts Hst Hr Hh. induction Hh as [r|r flags r' fs ms Hok Hh IH]; intros Hone.
    - exists (rf_dict r). destruct Hr as (Hr & (vs0 & Hvs0 & Hc) & Ht). split; [apply grows_refl|]. split; [apply (Ht vs0 Hvs0)|]. split.
      + cbn [last]. intros vs Hvs. apply table_located; [apply Hst|auto].
      + intros [|t] m m' flags _ Hm'; discriminate.
    - destruct (refine_straight vd ed fd r r' flags Hts Hst Hr (Hone 0 _ _ eq_refl eq_refl) Hok) as (Hr' & Hg & Hrb & Hvv).
      destruct (IH Hr') as (d & Hgd & HN & Hloc & Hall).
      { intros t m fl Hm Hfl. apply (Hone (S t) m fl); auto. }
      exists d. split; [eapply grows_trans; eauto|]. split; auto. split.
      + replace (last (rf_current r' :: ms) (rf_current r)) with (last ms (rf_current r')); auto.
        clear. destruct ms as [|m0 ms]; [reflexivity|]. revert m0; induction ms as [|m1 ms IH]; intros m0; [reflexivity|]. cbn [last] in *. apply IH.
      + intros [|t] m m' fl Hm Hm' Hfl; cbn [nth_error] in Hm, Hm', Hfl.
        * injection Hm as <-. injection Hm' as <-. injection Hfl as <-. split; [|split; auto; apply Hr'].
          eapply refined_by_mono; [apply grows_table, Hgd|auto].
        * apply (Hall t m m' fl); auto.
  Qed.
End RefineProofs.
