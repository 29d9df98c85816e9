(** * Lemmas about partition_mesh *)
From Coq Require Import List Arith Bool ZArith Lia Sorting.Sorted.
From Verif Require Import Np NpFacts MeshModel MeshSpec MeshProofs CompletionProofs MeshStateModel PartModel PartSpec.
Import ListNotations.

(** ** Counting elements *)

Definition nparts_with (e : nat) (ls : list (list nat)) : nat := length (filter (memb e) ls).

Lemma count_step_spec n counts els :
  Forall (fun e => e < n) els ->
  count_step n counts els =
  Ok (map (fun ic => snd ic + (if memb (fst ic) els then 1 else 0)) (enumerate counts)).
Proof.
  intros H. unfold count_step.
  replace (forallb (fun e => e <? n) els) with true; auto.
  symmetry. apply forallb_forall. rewrite Forall_forall in H. intros x Hx. apply Nat.ltb_lt; auto.
Qed.

Lemma element_counts_fold n ls : forall counts,
  Forall (Forall (fun e => e < n)) ls ->
  exists cs, foldM (count_step n) ls counts = Ok cs /\ length cs = length counts /\
    forall e c, nth_error counts e = Some c -> nth_error cs e = Some (c + nparts_with e ls).
Proof.
  induction ls as [|els ls IH]; intros counts H; cbn [foldM].
  - exists counts. split; auto. split; auto. intros e c Hc. unfold nparts_with; cbn. now rewrite Nat.add_0_r.
  - inversion H as [|? ? H1 H2]; subst. rewrite count_step_spec by auto. cbn [bind].
    destruct (IH (map (fun ic => snd ic + (if memb (fst ic) els then 1 else 0)) (enumerate counts)) H2)
      as (cs & Hcs & Hlen & Hn).
    exists cs. split; auto. split; [rewrite Hlen, map_length; apply length_enumerate|].
    intros e c Hc.
    rewrite (Hn e (c + (if memb e els then 1 else 0))).
    + f_equal. unfold nparts_with; cbn [filter]. destruct (memb e els); cbn [length]; lia.
    + rewrite nth_error_map, nth_error_enumerate, Hc. reflexivity.
Qed.

Lemma element_counts_spec n parts :
  (forall p els e, In (p, els) parts -> In e els -> e < n) ->
  exists cs, element_counts n parts = Ok cs /\ length cs = n /\
    forall e, e < n -> nth_error cs e = Some (nparts_with e (map snd parts)).
Proof.
  intros H. unfold element_counts.
  destruct (element_counts_fold n (map snd parts) (repeat 0 n)) as (cs & H1 & H2 & H3).
  - apply Forall_forall. intros els Hin. apply in_map_iff in Hin as ((p, els') & <- & Hin).
    apply Forall_forall. intros e He. eauto.
  - exists cs. split; auto. rewrite repeat_length in H2. split; auto.
    intros e He. apply (H3 e 0). now apply nth_error_repeat.
Qed.

Lemma nparts_with_pos e parts :
  1 <= nparts_with e (map snd parts) <-> exists p k, assigned parts e p k.
Proof.
  unfold nparts_with. split.
  - intros H. destruct (filter (memb e) (map snd parts)) as [|els r] eqn:Hf; [cbn in H; lia|].
    assert (Hin : In els (filter (memb e) (map snd parts))) by (rewrite Hf; now left).
    apply filter_In in Hin as (Hin & Hm). apply memb_In in Hm. apply In_nth_error in Hm as (k & Hk).
    apply in_map_iff in Hin as ((p, els') & <- & Hin). exists p, k, els'. auto.
  - intros (p & k & els & Hin & Hk).
    assert (Hin' : In els (filter (memb e) (map snd parts))).
    { apply filter_In. split; [apply in_map_iff; exists (p, els); auto|].
      apply memb_In. eapply nth_error_In; eauto. }
    destruct (filter (memb e) (map snd parts)); [contradiction|cbn; lia].
Qed.

Lemma nparts_with_two e parts : NoDup (map fst parts) ->
  (2 <= nparts_with e (map snd parts) <-> exists p q k l, p <> q /\ assigned parts e p k /\ assigned parts e q l).
Proof.
  intros HN. induction parts as [|(p, els) parts IH].
  - unfold nparts_with; cbn. split; [lia|]. intros (p & q & k & l & _ & (els & [] & _) & _).
  - inversion HN as [|? ? Hp HN']; subst. specialize (IH HN').
    unfold nparts_with in *. cbn [map snd filter].
    destruct (memb e els) eqn:Hm.
    + cbn [length]. fold (nparts_with e (map snd parts)) in *.
      apply memb_In in Hm. apply In_nth_error in Hm as (k & Hk).
      split.
      * intros H. assert (H1 : 1 <= nparts_with e (map snd parts)) by lia.
        apply nparts_with_pos in H1 as (q & l & els' & Hin & Hl).
        exists p, q, k, l. split; [|split; [exists els; cbn; auto|exists els'; cbn; auto]].
        intros ->. apply Hp. apply in_map_iff. exists (q, els'); auto.
      * intros (p1 & q & k1 & l & Hne & (els1 & Hin1 & Hk1) & (els2 & Hin2 & Hl2)).
        assert (H1 : 1 <= nparts_with e (map snd parts)).
        { apply nparts_with_pos. destruct Hin1 as [E1|Hin1].
          - inversion E1; subst. destruct Hin2 as [E2|Hin2].
            + inversion E2; subst. congruence.
            + exists q, l, els2; auto.
          - exists p1, k1, els1; auto. }
        lia.
    + rewrite IH. split.
      * intros (p1 & q & k1 & l & Hne & (els1 & Hin1 & Hk1) & (els2 & Hin2 & Hl2)).
        exists p1, q, k1, l. split; [auto|]. split; [exists els1|exists els2]; cbn; auto.
      * intros (p1 & q & k1 & l & Hne & (els1 & Hin1 & Hk1) & (els2 & Hin2 & Hl2)).
        assert (Hno : forall q l els2, In (q, els2) ((p, els) :: parts) -> nth_error els2 l = Some e -> In (q, els2) parts).
        { intros q' l' els' [E|Hi] Hl'; auto. inversion E; subst. exfalso.
          apply nth_error_In in Hl'. apply memb_In in Hl'. congruence. }
        exists p1, q, k1, l. split; [auto|]. split; [exists els1|exists els2]; eauto.
Qed.

(** ** global_elem_to_part_elem *)

Lemma combine_seq_In (els : list nat) (pi e : nat) (v : nat * nat) :
  In (e, v) (combine els (map (fun k => (pi, k)) (seq 0 (length els)))) <->
  exists k, nth_error els k = Some e /\ v = (pi, k).
Proof.
  assert (G : forall s, In (e, v) (combine els (map (fun k => (pi, k)) (seq s (length els)))) <->
            exists k, nth_error els k = Some e /\ v = (pi, s + k)).
  { induction els as [|x els IH]; intros s; cbn [length seq map combine].
    - split; [intros []|]. intros ([|k] & H & _); discriminate.
    - cbn [In]. rewrite IH. split.
      + intros [H|(k & Hk & ->)].
        * inversion H; subst. exists 0. rewrite Nat.add_0_r. auto.
        * exists (S k). split; auto. f_equal. lia.
      + intros ([|k] & Hk & ->).
        * left. cbn in Hk. inversion Hk. rewrite Nat.add_0_r. auto.
        * right. exists k. split; auto. f_equal. lia. }
  apply G.
Qed.

Lemma map_fst_combine_same {X Y} (l : list X) (r : list Y) :
  length l = length r -> map fst (combine l r) = l.
Proof. revert r; induction l as [|x l IH]; intros [|y r] H; cbn in *; try discriminate; auto. f_equal; auto. Qed.

Lemma g2p_fold ps : forall s init,
  (forall p els, In (p, els) ps -> NoDup els) ->
  (forall p els e, In (p, els) ps -> In e els -> e < length init) ->
  (forall i j p q els els' e, nth_error ps i = Some (p, els) -> nth_error ps j = Some (q, els') ->
     In e els -> In e els' -> i = j) ->
  exists r,
    foldM (fun g2p (ip : nat * (nat * list nat)) =>
             let els := snd (snd ip) in
             scatter g2p (combine els (map (fun k => (fst ip, k)) (seq 0 (length els)))))
          (enumerate_from s ps) init = Ok r /\ length r = length init /\
    (forall i p els k e, nth_error ps i = Some (p, els) -> nth_error els k = Some e ->
       nth_error r e = Some (s + i, k)) /\
    (forall e, (forall p els, In (p, els) ps -> ~ In e els) -> nth_error r e = nth_error init e).
Proof.
  induction ps as [|(p, els) ps IH]; intros s init HN HR HD.
  - exists init. split; [reflexivity|]. split; auto. split; auto. intros [|i] p els k e H; discriminate.
  - rewrite enumerate_from_cons. cbn [foldM fst snd]. cbv zeta.
    set (ivs := combine els (map (fun k => (s, k)) (seq 0 (length els)))).
    assert (Hfst : map fst ivs = els).
    { apply map_fst_combine_same. now rewrite map_length, seq_length. }
    destruct (proj2 (scatter_ok_range ivs init)) as (init' & Hinit').
    { apply Forall_forall. intros (e, v) Hin. apply (in_map fst) in Hin. rewrite Hfst in Hin. cbn in *.
      eapply HR; [now left|auto]. }
    pose proof (scatter_length _ _ _ Hinit') as HL. rewrite Hinit'. cbn [bind].
    destruct (IH (S s) init') as (r & Hr & Hlen & Hin & Hout).
    + intros q els' H. apply (HN q). now right.
    + intros q els' e H He. rewrite HL. eapply HR; [right; eauto|auto].
    + intros i j q q' els1 els2 e H1 H2 He1 He2.
      assert (S i = S j) by (eapply (HD (S i) (S j)); cbn; eauto). lia.
    + exists r. split; [exact Hr|]. split; [congruence|]. split.
      * intros [|i] q els' k e Hi Hk; cbn in Hi.
        -- injection Hi as Hq Hels. subst q els'. rewrite Nat.add_0_r.
           rewrite Hout.
           ++ eapply scatter_in; eauto.
              ** rewrite Hfst. apply (HN p). now left.
              ** apply combine_seq_In. eauto.
           ++ intros q' els'' Hq' He. apply In_nth_error in Hq' as (j & Hj).
              assert (0 = S j); [|discriminate].
              eapply (HD 0 (S j)); cbn; eauto. eapply nth_error_In; eauto.
        -- replace (s + S i) with (S s + i) by lia. eapply Hin; eauto.
      * intros e He. rewrite Hout by (intros q els' H; apply (He q); now right).
        eapply scatter_notin; eauto. rewrite Hfst. apply (He p). now left.
Qed.

Lemma assigned_nth parts e p k : NoDup (map fst parts) ->
  (assigned parts e p k <-> exists i els, nth_error parts i = Some (p, els) /\ nth_error els k = Some e).
Proof.
  intros _. unfold assigned. split.
  - intros (els & Hin & Hk). apply In_nth_error in Hin as (i & Hi). eauto.
  - intros (i & els & Hi & Hk). exists els. split; auto. eapply nth_error_In; eauto.
Qed.

Lemma NoDup_keys_unique (parts : partdict) i j p els els' :
  NoDup (map fst parts) -> nth_error parts i = Some (p, els) -> nth_error parts j = Some (p, els') -> i = j.
Proof.
  intros HN Hi Hj. eapply (proj1 (NoDup_nth_error (map fst parts)) HN).
  - rewrite map_length. apply nth_error_Some. congruence.
  - rewrite !nth_error_map, Hi, Hj. reflexivity.
Qed.

Lemma g2p_spec garbage n parts :
  valid_partition n parts -> length garbage = n ->
  exists g2p, global_elem_to_part_elem garbage parts = Ok g2p /\ length g2p = n /\
    forall e i k, nth_error g2p e = Some (i, k) <->
      exists p els, nth_error parts i = Some (p, els) /\ nth_error els k = Some e.
Proof.
  intros HV HG. unfold global_elem_to_part_elem, enumerate.
  destruct (g2p_fold parts 0 garbage) as (r & Hr & Hlen & Hin & Hout).
  - intros p els H. apply incr_NoDup. eapply vp_sorted; eauto.
  - intros p els e H He. rewrite HG. apply In_nth_error in He as (k & Hk).
    eapply vp_range; eauto. exists els; eauto.
  - intros i j p q els els' e Hi Hj He He'.
    apply In_nth_error in He as (k & Hk). apply In_nth_error in He' as (l & Hl).
    assert (p = q).
    { eapply (vp_disjoint _ _ HV e p q k l).
      - exists els; split; auto. eapply nth_error_In; eauto.
      - exists els'; split; auto. eapply nth_error_In; eauto. }
    subst q. eapply NoDup_keys_unique; eauto. apply (vp_keys _ _ HV).
  - exists r. split; auto. split; [congruence|].
    intros e i k. split.
    + intros H.
      assert (He : e < n). { rewrite <- HG, <- Hlen. apply nth_error_Some. congruence. }
      destruct (vp_cover _ _ HV e He) as (p & l & Ha).
      apply assigned_nth in Ha as (j & els & Hj & Hl); [|apply (vp_keys _ _ HV)].
      pose proof (Hin _ _ _ _ _ Hj Hl) as H'. rewrite H in H'. cbn in H'. inversion H'; subst. eauto.
    + intros (p & els & Hi & Hk). apply (Hin _ _ _ _ _ Hi Hk).
Qed.

Lemma part_lookup_spec parts p els : NoDup (map fst parts) ->
  (part_lookup parts p = Ok els <-> In (p, els) parts).
Proof.
  induction parts as [|(q, els') parts IH]; intros HN; cbn [part_lookup].
  - split; [discriminate|intros []].
  - inversion HN as [|? ? Hq HN']; subst. destruct (Nat.eqb_spec q p).
    + subst. split.
      * intros E; inversion E; now left.
      * intros [E|Hin]; [inversion E; auto|]. exfalso. apply Hq. apply in_map_iff. exists (p, els); auto.
    + rewrite IH by auto. split; [intros; now right|]. intros [E|Hin]; auto. inversion E; congruence.
Qed.

Lemma part_index_spec parts p i : NoDup (map fst parts) ->
  (part_index parts p = Ok i <-> nth_error (map fst parts) i = Some p).
Proof.
  intros HN. unfold part_index. split.
  - destruct (index_of p (map fst parts)) as [j|] eqn:E; [|discriminate].
    intros H; inversion H; subst. now apply index_of_Some.
  - intros H. now rewrite (index_of_nth _ _ _ HN H).
Qed.
