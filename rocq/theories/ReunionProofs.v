(** * ReunionProofs: merging the parts of a mesh. *)
From Coq Require Import List Arith Bool ZArith Lia Sorting.Sorted Sorting.Permutation.
From Verif Require Import Np NpFacts Lin MeshModel MeshSpec MeshProofs MeshStateModel PartModel PartSpec ProcModel ProcSpec LawsSpec MergeProofs PartProps LawsProofs.
Import ListNotations.

Lemma nth_combine {X Y} (l : list X) (l' : list Y) i x y : nth_error l i = Some x -> nth_error l' i = Some y -> nth_error (combine l l') i = Some (x, y).
Proof. revert l' i. induction l as [|a l IH]; intros [|b l'] [|i] Hx Hy; try discriminate; cbn in *; [congruence|now apply IH]. Qed.
Lemma elements_nth {E} (gs : list (egroup E)) g i grp vi row x : has_rows gs -> nth_error gs g = Some grp -> eg_vi grp = Some vi -> nth_error vi i = Some row ->
  nth_error (eg_nodes grp) i = Some x -> nth_error (elements gs) (base (map nelements gs) g + i) = Some (row, x).
Proof.
  intros H. revert g. induction H as [|g0 gs (vi0 & Hvi0 & Hl) _ IH]; intros g Hg Hvi Hrow Hx; [destruct g; discriminate|].
  unfold elements in *. cbn [map concat]. rewrite Hvi0. destruct g as [|g]; cbn [nth_error] in Hg.
  - injection Hg as ->. assert (vi0 = vi) as -> by congruence. unfold base. cbn [firstn]. change (sum [] + i) with i. rewrite nth_error_app1; [now apply nth_combine|].
    rewrite combine_length. apply Nat.min_glb_lt; apply nth_error_Some; congruence.
  - unfold base. cbn [firstn map]. change (sum (nelements g0 :: firstn g (map nelements gs))) with (nelements g0 + sum (firstn g (map nelements gs))).
    assert (Hc : length (combine vi0 (eg_nodes g0)) = nelements g0) by (rewrite combine_length; unfold nelements in *; lia).
    rewrite nth_error_app2 by lia. rewrite Hc. replace (nelements g0 + _ + i - nelements g0) with (sum (firstn g (map nelements gs)) + i) by lia. now apply IH.
Qed.
Lemma points_length {E V} (vs : list V) (gs : list (egroup E)) : has_rows gs -> length (points vs gs) = sum (map nelements gs).
Proof. intros H. unfold points. now rewrite map_length, elements_length. Qed.

(** the points of a list of selected elements *)
Definition selects {X} (P : list X) (els : list nat) (Q : list X) : Prop := Forall2 (fun e y => nth_error P e = Some y) els Q.
Lemma selects_app {X} (P : list X) l1 l2 q1 q2 : selects P l1 q1 -> selects P l2 q2 -> selects P (l1 ++ l2) (q1 ++ q2).
Proof. apply Forall2_app. Qed.
Lemma selects_all {X} (P : list X) : selects P (seq 0 (length P)) P.
Proof.
  assert (H : forall Q R, P = Q ++ R -> selects P (seq (length Q) (length R)) R).
  { intros Q R. revert Q. induction R as [|r R IH]; intros Q HP; cbn [length seq]; [constructor|]. constructor.
    - rewrite HP, nth_error_app2, Nat.sub_diag by lia. reflexivity.
    - specialize (IH (Q ++ [r])). rewrite app_length in IH. cbn [length] in IH. rewrite Nat.add_1_r in IH. apply IH. now rewrite <- app_assoc. }
  exact (H [] P eq_refl).
Qed.
Lemma selects_perm {X} (P : list X) l l' : Permutation l l' -> forall q, selects P l q -> exists q', selects P l' q' /\ Permutation q q'.
Proof.
  induction 1 as [|e l l' _ IH|e f l|l l' l'' _ IH1 _ IH2]; intros q Hq.
  - exists []. inversion Hq; subst. split; constructor.
  - inversion Hq as [|? y ? q0 Hy Hq0]; subst. destruct (IH _ Hq0) as (q' & H1 & H2). exists (y :: q'). split; constructor; assumption.
  - inversion Hq as [|? y ? q0 Hy Hq0]; subst. inversion Hq0 as [|? z ? q1 Hz Hq1]; subst. exists (z :: y :: q1). split; [constructor; [assumption|constructor; assumption]|constructor].
  - destruct (IH1 _ Hq) as (q' & H1 & H2). destruct (IH2 _ H1) as (q'' & H3 & H4). exists q''. split; [assumption|]. now transitivity q'.
Qed.
Lemma selects_fun {X} (P : list X) l q q' : selects P l q -> selects P l q' -> q = q'.
Proof. intros H. revert q'. induction H as [|e y l q Hy _ IH]; intros q' H'; inversion H'; subst; [reflexivity|]. f_equal; [congruence|now apply IH]. Qed.

(** a partition lists every element once *)
Lemma sorted_nodup l : StronglySorted lt l -> NoDup l.
Proof. induction 1 as [|x l _ IH Hx]; constructor; [|assumption]. intros Hin. rewrite Forall_forall in Hx. specialize (Hx _ Hin). lia. Qed.
Lemma assigned_in parts e p els : In (p, els) parts -> In e els -> exists k, assigned parts e p k.
Proof. intros Hp He. apply In_nth_error in He as (k & Hk). exists k, els. now split. Qed.
Lemma listed_nodup n parts : valid_partition n parts -> NoDup (concat (map snd parts)).
Proof.
  intros [Hk Hs _ _ Hd]. assert (H : forall e p q els els', In (p, els) parts -> In (q, els') parts -> In e els -> In e els' -> p = q).
  { intros e p q els els' Hp Hq He He'. destruct (assigned_in _ _ _ _ Hp He) as (k & H1). destruct (assigned_in _ _ _ _ Hq He') as (l & H2). eapply Hd; eauto. }
  clear Hd. induction parts as [|(p, els) parts IH]; cbn [map concat snd]; [constructor|]. inversion Hk as [|? ? Hp Hk']; subst.
  apply NoDup_app; [apply sorted_nodup; apply (Hs p); now left|apply IH; [assumption|intros q l Hq; apply (Hs q); now right|intros e' q q' l l' H1 H2 H3 H4; apply (H e' q q' l l'); auto; now right]|].
  intros e He Hin. apply in_concat in Hin as (els' & Hin & He'). apply in_map_iff in Hin as ((q, els'') & <- & Hq). cbn [snd] in He'.
  assert (p = q) as -> by (apply (H e p q els els''); [now left|now right|assumption|assumption]). apply Hp. apply in_map_iff. now exists (q, els'').
Qed.
Lemma listed_perm n parts : valid_partition n parts -> Permutation (concat (map snd parts)) (seq 0 n).
Proof.
  intros H. apply NoDup_Permutation; [now apply (listed_nodup n)|apply seq_NoDup|]. intros e. rewrite in_seq, in_concat. split.
  - intros (els & Hin & He). apply in_map_iff in Hin as ((p, els') & <- & Hp). destruct (assigned_in _ _ _ _ Hp He) as (k & Hk). split; [lia|]. now apply (vp_range _ _ H e p k).
  - intros (_ & He). destruct (vp_cover _ _ H e He) as (p & k & els & Hp & Hk). exists els. split; [apply in_map_iff; now exists (p, els)|]. now apply nth_error_In in Hk.
Qed.

(** the points of a part *)
Section Part.
  Context {E A V : Type}.
  Variables (groups : list (egroup E)) (vs : list V) (parts : partdict) (p : nat) (els : list nat) (m : mesh E A V) (vs' : list V).
  Hypothesis Hrows : has_rows groups.
  Hypothesis Hp : In (p, els) parts.
  Hypothesis Hkeys : NoDup (map fst parts).
  Hypothesis Hpg : part_geometry groups vs parts p m.
  Hypothesis Hvs : m_vertices m = Some vs'.

  Lemma part_els e k : assigned parts e p k <-> nth_error els k = Some e.
  Proof using Hp Hkeys.
    split; [|intros H; exists els; now split]. intros (els' & Hp' & Hk). assert (els' = els) as ->; [|exact Hk].
    clear - Hp Hp' Hkeys. revert Hp Hp' Hkeys. induction parts as [|(q, l) ps IH]; intros H1 H2 Hk; [contradiction|]. inversion Hk as [|? ? Hq Hk']; subst. cbn [map fst] in *.
    assert (Hno : forall l0, ~ In (q, l0) ps) by (intros l0 Hin; apply Hq; apply in_map_iff; now exists (q, l0)).
    destruct H1 as [H1|H1], H2 as [H2|H2]; [congruence|injection H1; intros; subst; now apply Hno in H2|injection H2; intros; subst; now apply Hno in H1|now apply IH].
  Qed.
  Lemma part_point k e : nth_error els k = Some e -> exists y, nth_error (points vs groups) e = Some y /\ nth_error (points vs' (m_groups m)) k = Some y.
  Proof using Hp Hkeys Hpg Hrows Hvs.
    intros Hk. apply part_els in Hk. destruct (pg_all _ _ _ _ _ Hpg _ _ Hk) as (g & i & i' & -> & -> & Him).
    destruct (pg_vertices _ _ _ _ _ Hpg) as (old & vs0 & Hv0 & _ & _ & _ & Hr). assert (vs0 = vs') as -> by congruence.
    destruct (Hr _ _ _ Him) as (row & row' & (grp & vi & Hg & Hvi & Hi & Hrow) & (grp' & vi' & Hg' & Hvi' & Hi' & Hrow') & HF).
    destruct (pg_nodes _ _ _ _ _ Hpg _ _ _ _ _ Him Hg Hg') as (Hn & _).
    assert (exists x, nth_error (eg_nodes grp) i = Some x) as (x & Hx) by (destruct (nth_error (eg_nodes grp) i) eqn:Ex; [eauto|]; apply nth_error_None in Ex; unfold nelements in Hi; lia).
    exists (map (nth_error vs) row, x). unfold points.
    rewrite !nth_error_map, (elements_nth groups g i grp vi row x), (elements_nth (m_groups m) g i' grp' vi' row' x); auto; [|apply (pg_rows _ _ _ _ _ Hpg)|congruence].
    cbn [option_map fst snd]. split; [reflexivity|]. do 2 f_equal. clear - HF. induction HF as [|v v' row row' (_ & H) _ IH]; [reflexivity|]. cbn [map]. now rewrite H, IH.
  Qed.
  Lemma part_count : length els = length (points vs' (m_groups m)).
  Proof using Hp Hkeys Hpg.
    rewrite points_length by apply (pg_rows _ _ _ _ _ Hpg). set (n := sum _).
    assert (H1 : forall k, k < length els -> k < n).
    { intros k Hk. destruct (nth_error els k) as [e|] eqn:Ek; [|apply nth_error_None in Ek; lia]. apply part_els in Ek.
      destruct (pg_all _ _ _ _ _ Hpg _ _ Ek) as (g & i & i' & _ & -> & (grp & grp' & _ & _ & Hg' & Hi' & _)). unfold n. 
      pose proof (base_S (map nelements (m_groups m)) g (nelements grp') ltac:(rewrite nth_error_map, Hg'; reflexivity)).
      assert (Hb : base (map nelements (m_groups m)) (S g) <= sum (map nelements (m_groups m))). { unfold base. rewrite <- (firstn_skipn (S g) (map nelements (m_groups m))) at 2. rewrite sum_app. lia. } lia. }
    assert (H2 : forall k, k < n -> k < length els).
    { intros k Hk. destruct (owns_exists (map nelements (m_groups m)) k Hk) as (g & nn & Hg & Hb). rewrite nth_error_map in Hg. destruct (nth_error (m_groups m) g) as [grp'|] eqn:Eg; [|discriminate]. injection Hg as <-.
      destruct (pg_only _ _ _ _ _ Hpg g grp' (k - base (map nelements (m_groups m)) g) Eg) as (i & grp & grp0 & _ & _ & _ & _ & Has); [lia|]. apply part_els in Has.
      replace (base (map nelements (m_groups m)) g + (k - base (map nelements (m_groups m)) g)) with k in Has by lia. apply nth_error_Some. congruence. }
    destruct (lt_eq_lt_dec (length els) n) as [[H|H]|H]; [specialize (H2 _ H); lia|exact H|specialize (H1 _ H); lia].
  Qed.
  Lemma part_selects : selects (points vs groups) els (points vs' (m_groups m)).
  Proof using Hp Hkeys Hpg Hrows Hvs.
    pose proof part_count as Hc. pose proof part_point as Hpt. revert Hc Hpt. generalize (points vs groups), (points vs' (m_groups m)). clear. intros P Q. revert Q.
    induction els as [|e l IH]; intros [|y Q] Hc Hpt; try discriminate; [constructor|]. constructor.
    - destruct (Hpt 0 e eq_refl) as (z & Hz & [= <-]). exact Hz.
    - apply IH; [now injection Hc|]. intros k f Hk. exact (Hpt (S k) f Hk).
  Qed.
End Part.

(** the points of a merged mesh *)
Section Merged.
  Context {E A V : Type}.
  Notation meshT := (mesh E A V).
  Definition in_range (vs : list V) (gs : list (egroup E)) : Prop := forall row x, In (row, x) (elements gs) -> Forall (fun v => v < length vs) row.

  Lemma points_shifted (pre vs post : list V) (gs : list (egroup E)) : in_range vs gs ->
    map (fun rx => (map (nth_error (pre ++ vs ++ post)) (fst rx), snd rx)) (map (shift_elem (length pre)) (elements gs)) = points vs gs.
  Proof.
    intros H. unfold points. rewrite map_map. apply map_ext_in. intros (row, x) Hin. unfold shift_elem. cbn [fst snd]. f_equal. rewrite map_map. apply map_ext_in. intros v Hv.
    specialize (H _ _ Hin). rewrite Forall_forall in H. specialize (H _ Hv). rewrite nth_error_app2 by lia. rewrite nth_error_app1 by lia. f_equal. lia.
  Qed.
  Lemma merged_points_gen (ms : list meshT) vss pre : Forall2 (fun m vs => in_range vs (m_groups m)) ms vss ->
    map (fun rx => (map (nth_error (pre ++ concat vss)) (fst rx), snd rx))
      (concat (map2 (fun m b => map (shift_elem b) (elements (m_groups m))) ms (running (length pre) (map (@length V) vss)))) =
    concat (map2 (fun m vs => points vs (m_groups m)) ms vss).
  Proof.
    intros H. revert pre. induction H as [|m vs ms vss Hr _ IH]; intros pre; [reflexivity|]. cbn [map running map2 concat]. rewrite map_app, points_shifted by exact Hr. f_equal.
    specialize (IH (pre ++ vs)). rewrite app_length, <- app_assoc in IH. exact IH.
  Qed.
  Lemma merged_points (ms : list meshT) vss : Forall2 (fun m vs => in_range vs (m_groups m)) ms vss ->
    points (concat vss) (merged_groups ms (running 0 (map (@length V) vss))) = concat (map2 (fun m vs => points vs (m_groups m)) ms vss).
  Proof.
    intros H. unfold points at 1. rewrite merged_elements. { exact (merged_points_gen ms vss [] H). }
    pose proof (Forall2_length' _ _ _ H) as Hl. rewrite Hl. clear. generalize 0. induction vss as [|vs vss IH]; intros b; [reflexivity|]. cbn [map running length]. now rewrite IH.
  Qed.
End Merged.

Lemma selected_in_range {E V} (vs vs' : list V) (gs gs' : list (egroup E)) els : in_range vs gs -> selects (points vs gs) els (points vs' gs') -> in_range vs' gs'.
Proof.
  intros H HS row x Hin. assert (Hy : In (map (nth_error vs') row, x) (points vs' gs')) by (apply in_map_iff; exists (row, x); now split).
  apply In_nth_error in Hy as (k & Hk). destruct (Forall2_nth_error_r _ _ _ k _ HS Hk) as (e & _ & He). unfold points in He. rewrite nth_error_map in He.
  destruct (nth_error (elements gs) e) as [(row0, x0)|] eqn:Ee; [|discriminate]. cbn [option_map fst snd] in He. injection He as Hm _. apply nth_error_In in Ee. specialize (H _ _ Ee).
  clear - Hm H. revert row Hm. induction row0 as [|v0 row0 IH]; intros [|v row] Hm; try discriminate; [constructor|]. inversion H as [|? ? Hv H']; subst. cbn [map] in Hm. injection Hm as H0 H1. constructor; [|now apply IH].
  apply nth_error_Some. rewrite <- H0. now apply nth_error_Some.
Qed.
Lemma in_range_rows {E V} (vs : list V) (gs : list (egroup E)) : has_rows gs -> rows_in_range (length vs) gs -> in_range vs gs.
Proof.
  intros HR H row x Hin. apply Forall_forall. intros v Hv. apply In_nth_error in Hin as (e & He).
  assert (Hlt : e < sum (map nelements gs)) by (rewrite <- elements_length by exact HR; apply nth_error_Some; congruence).
  destruct (elem_row_ex gs e) as (row' & Hrow'); auto. apply (H e row'); [exact Hrow'|].
  destruct Hrow' as (g & i & (grp & vi & Hg & Hvi & Hi & Hr) & ->). assert (exists x', nth_error (eg_nodes grp) i = Some x') as (x' & Hx') by (destruct (nth_error (eg_nodes grp) i) eqn:Ex; [eauto|]; apply nth_error_None in Ex; unfold nelements in Hi; lia).
  rewrite (elements_nth gs g i grp vi row' x') in He by auto. injection He as -> _. exact Hv.
Qed.

Theorem reunion {E A V} garbage (vs : list V) (groups : list (egroup E)) (fags : list (list (fagrp A))) conforming parts :
  valid_partition (sum (map nelements groups)) parts -> (forall p, length (garbage p) = sum (map nelements groups)) ->
  groups <> [] -> has_rows groups -> rows_in_range (length vs) groups -> fags_wf groups fags -> parts <> [] ->
  exists ms, partition_mesh garbage (Some vs) groups (Ok fags) conforming parts None = Ok ms /\
    forall adim same_kind d, (forall m, In m (map snd ms) -> adim m = d) ->
      exists m vs', merge_disjoint_meshes adim same_kind false (map snd ms) = Ok m /\ m_vertices m = Some vs' /\
        selects (points vs groups) (concat (map snd parts)) (points vs' (m_groups m)) /\ m_facial m = Unavailable.
Proof.
  intros HV HG Hne HR Hin Hwf Hparts.
  destruct (C12_partition_adjacency garbage vs groups fags conforming parts None HV HG Hne HR Hin Hwf (incl_refl _)) as (ms & Hms & _ & Hadj).
  destruct (C10_partition_geometry garbage vs groups fags conforming parts None HV HG Hne HR Hin Hwf (incl_refl _)) as (ms0 & Hms0 & Hkeys & Hgeo).
  assert (ms0 = ms) as -> by congruence. cbn [requested] in Hkeys. exists ms. split; [exact Hms|]. intros adim same_kind d Hd.
  assert (Hpart : exists vss, Forall2 (fun m vs => m_vertices m = Some vs) (map snd ms) vss /\ Forall2 (fun m vs => in_range vs (m_groups m)) (map snd ms) vss /\
    Forall (fun m => has_rows (m_groups m)) (map snd ms) /\ selects (points vs groups) (concat (map snd parts)) (concat (map2 (fun m vs => points vs (m_groups m)) (map snd ms) vss))).
  { assert (Hsub : forall ps ms', map fst ms' = map fst ps -> incl ps parts -> incl ms' ms -> exists vss, Forall2 (fun m vs => m_vertices m = Some vs) (map snd ms') vss /\ Forall2 (fun m vs => in_range vs (m_groups m)) (map snd ms') vss /\
      Forall (fun m => has_rows (m_groups m)) (map snd ms') /\ selects (points vs groups) (concat (map snd ps)) (concat (map2 (fun m vs => points vs (m_groups m)) (map snd ms') vss))).
    { induction ps as [|(p, els) ps IH]; intros [|(q, m) ms'] Hk Hps Hms'; try discriminate Hk; [exists []; repeat split; constructor|]. cbn [map fst] in Hk. injection Hk as -> Hk.
      destruct (IH ms' Hk) as (vss & H1 & H2 & H3 & H4); [intros y Hy; apply Hps; now right|intros y Hy; apply Hms'; now right|].
      destruct (Hgeo p m (Hms' _ (or_introl eq_refl))) as (Hpg & _). destruct (pg_vertices _ _ _ _ _ Hpg) as (old & vs' & Hv & _).
      pose proof (part_selects groups vs parts p els m vs' HR (Hps _ (or_introl eq_refl)) (vp_keys _ _ HV) Hpg Hv) as HS.
      exists (vs' :: vss). cbn [map snd map2 concat]. split; [now constructor|]. split; [constructor; [|exact H2]; eapply selected_in_range; [apply in_range_rows; [exact HR|exact Hin]|exact HS]|].
      split; [constructor; [apply (pg_rows _ _ _ _ _ Hpg)|exact H3]|]. now apply selects_app. }
    exact (Hsub parts ms Hkeys (incl_refl _) (incl_refl _)). }
  destruct Hpart as (vss & H1 & H2 & H3 & H4). exists (merged (map snd ms) vss), (concat vss).
  assert (Hne' : map snd ms <> []) by (destruct ms; [destruct parts; [congruence|discriminate Hkeys]|discriminate]).
  split; [eapply merge_closed; eauto|]. split; [reflexivity|]. split; [cbn [merged m_groups]; now rewrite merged_points|].
  cbn [merged m_facial]. unfold adj_of. destruct ms as [|(p, m) ms']; [contradiction|]. destruct (Hadj p m (or_introl eq_refl)) as (fags' & Hf & _). cbn [map snd forallb]. rewrite Hf. reflexivity.
Qed.
