(** * LookupProofs: lemmas for LookupProps. *)
From Coq Require Import List Arith Bool Lia Ring.
From Verif Require Import Np NpFacts Lin Ord MeshModel MeshStateModel ProcModel BoxMapProofs LookupModel LookupSpec.
Import ListNotations.

Section LookupProofs.
  Variable R : ocring.
  Context {A : Type}.
  Add Ring lookup_ring : (rth R).
  Local Open Scope cring_scope.

  Lemma le_mean (l : R) w xs : length w = length xs -> Forall (fun x => ole 0 x = true) w -> Forall (fun x => ole l x = true) xs -> ole (rsum w * l) (dot w xs) = true.
  Proof using.
    revert xs. induction w as [|v w IH]; intros [|x xs] Hl Hw Hx; try discriminate.
    - unfold dot. cbn [map2 rsum]. replace (0 * l) with (@r0 R) by ring. apply ole_refl.
    - inversion_clear Hw. inversion_clear Hx. change (dot (v :: w) (x :: xs)) with (v * x + dot w xs). cbn [rsum]. replace ((v + rsum w) * l) with (v * l + rsum w * l) by ring.
      apply ole_add2; [|apply IH; [cbn in Hl; lia| |]; assumption]. apply diff_le. replace (v * x - v * l) with (v * (x - l)) by ring. apply ole_mul; [assumption|]. now apply le_diff.
  Qed.
  Lemma mean_le (h : R) w xs : length w = length xs -> Forall (fun x => ole 0 x = true) w -> Forall (fun x => ole x h = true) xs -> ole (dot w xs) (rsum w * h) = true.
  Proof using.
    revert xs. induction w as [|v w IH]; intros [|x xs] Hl Hw Hx; try discriminate.
    - unfold dot. cbn [map2 rsum]. replace (0 * h) with (@r0 R) by ring. apply ole_refl.
    - inversion_clear Hw. inversion_clear Hx. change (dot (v :: w) (x :: xs)) with (v * x + dot w xs). cbn [rsum]. replace ((v + rsum w) * h) with (v * h + rsum w * h) by ring.
      apply ole_add2; [|apply IH; [cbn in Hl; lia| |]; assumption]. apply diff_le. replace (v * h - v * x) with (v * (h - x)) by ring. apply ole_mul; [assumption|]. now apply le_diff.
  Qed.
  Lemma sub_le (l c eps : R) : ole 0 eps = true -> ole l c = true -> ole (l - eps) c = true.
  Proof using. intros He Hl. apply diff_le. replace (c - (l - eps)) with ((c - l) + eps) by ring. apply ole_add_nonneg; [now apply le_diff|exact He]. Qed.
  Lemma le_plus (c h eps : R) : ole 0 eps = true -> ole c h = true -> ole c (h + eps) = true.
  Proof using. intros He Hl. apply diff_le. replace (h + eps - c) with ((h - c) + eps) by ring. apply ole_add_nonneg; [now apply le_diff|exact He]. Qed.

  (** the bounding box of some points *)
  Lemma points_box dim (pts : list (list R)) : pts <> [] -> Forall (fun v => length v = dim) pts ->
    exists lo hi, mapM (fun a => l <- axis_values pts a ;; amin ole l) (seq 0 dim) = Ok lo /\ mapM (fun a => l <- axis_values pts a ;; amax ole l) (seq 0 dim) = Ok hi /\
      length lo = dim /\ length hi = dim /\
      (forall v a l c h, In v pts -> nth_error v a = Some c -> nth_error lo a = Some l -> nth_error hi a = Some h -> ole l c = true /\ ole c h = true) /\
      (forall a l, nth_error lo a = Some l -> exists v, In v pts /\ nth_error v a = Some l) /\
      (forall a h, nth_error hi a = Some h -> exists v, In v pts /\ nth_error v a = Some h).
  Proof using.
    intros Hne HF. destruct (bbox_spec (@ole R) (ole_total R) (ole_trans R) dim (mk_mesh (E := unit) (A := unit) [] (Some pts) None Pending Pending 0 0 0) pts) as (lo & hi & E & H); auto.
    exists lo, hi. unfold find_bounding_box in E. cbn [m_vertices] in E. destruct (mapM (fun a => l <- axis_values pts a ;; amin ole l) (seq 0 dim)) as [lo'|]; cbn [bind] in E; [|discriminate].
    destruct (mapM (fun a => l <- axis_values pts a ;; amax ole l) (seq 0 dim)) as [hi'|]; cbn [bind] in E; [|discriminate]. injection E as <- <-. auto.
  Qed.

  Lemma hull_inside dim eps (pts : list (list R)) lo hi p : ole 0 eps = true -> length lo = dim -> length hi = dim ->
    (forall v a l c h, In v pts -> nth_error v a = Some c -> nth_error lo a = Some l -> nth_error hi a = Some h -> ole l c = true /\ ole c h = true) ->
    convex_point R dim pts p -> inside R (widen R eps (lo, hi)) p.
  Proof using.
    intros He Hl Hh Hb (Hp & w & Hw & Hw0 & Hw1 & Hc).
    assert (Hin : forall a c l h, nth_error p a = Some c -> nth_error lo a = Some l -> nth_error hi a = Some h -> ole l c = true /\ ole c h = true).
    { intros a c l h Hpc Hla Hha. destruct (Hc a c Hpc) as (xs & Hxs & ->). pose proof (Forall2_length' _ _ _ Hxs) as Hxl. split.
      - replace l with (rsum w * l) by (rewrite Hw1; ring). apply le_mean; [congruence|exact Hw0|]. apply Forall_forall. intros x Hx. destruct (Forall2_In_r _ _ _ _ Hxs Hx) as (q & Hq & Hqx). now apply (Hb q a l x h).
      - replace h with (rsum w * h) by (rewrite Hw1; ring). apply mean_le; [congruence|exact Hw0|]. apply Forall_forall. intros x Hx. destruct (Forall2_In_r _ _ _ _ Hxs Hx) as (q & Hq & Hqx). now apply (Hb q a l x h). }
    unfold inside, widen. cbn [fst snd]. split; (apply Forall2_intro_nth; [rewrite map_length; congruence|]).
    - intros a l c Hla Hpc. rewrite nth_error_map in Hla. destruct (nth_error lo a) as [l0|] eqn:El; [|discriminate]. cbn [option_map] in Hla. injection Hla as <-.
      destruct (nth_error hi a) as [h0|] eqn:Eh; [|apply nth_error_None in Eh; assert (a < length p) by (apply nth_error_Some; congruence); lia]. apply sub_le; [exact He|]. now apply (Hin a c l0 h0).
    - intros a c h Hpc Hha. rewrite nth_error_map in Hha. destruct (nth_error hi a) as [h0|] eqn:Eh; [|discriminate]. cbn [option_map] in Hha. injection Hha as <-.
      destruct (nth_error lo a) as [l0|] eqn:El; [|apply nth_error_None in El; assert (a < length p) by (apply nth_error_Some; congruence); lia]. apply le_plus; [exact He|]. now apply (Hin a c l0 h0).
  Qed.
  Lemma tight_widen eps (pts : list (list R)) lo hi : (forall a l, nth_error lo a = Some l -> exists v, In v pts /\ nth_error v a = Some l) -> (forall a h, nth_error hi a = Some h -> exists v, In v pts /\ nth_error v a = Some h) ->
    tight R eps (widen R eps (lo, hi)) pts.
  Proof using.
    intros H1 H2. unfold tight, widen. cbn [fst snd]. split; intros a x Hx; rewrite nth_error_map in Hx.
    - destruct (nth_error lo a) as [l|] eqn:E; [|discriminate]. injection Hx as <-. destruct (H1 a l E) as (v & Hv & Hl). exists v, l. auto.
    - destruct (nth_error hi a) as [h|] eqn:E; [|discriminate]. injection Hx as <-. destruct (H2 a h E) as (v & Hv & Hl). exists v, h. auto.
  Qed.
  Lemma box_inside_widen eps (lo hi lo' hi' : list R) : length lo = length lo' -> length hi = length hi' ->
    (forall a l l', nth_error lo a = Some l -> nth_error lo' a = Some l' -> ole l' l = true) -> (forall a h h', nth_error hi a = Some h -> nth_error hi' a = Some h' -> ole h h' = true) ->
    box_inside R (widen R eps (lo, hi)) (widen R eps (lo', hi')).
  Proof using.
    intros L1 L2 H1 H2. unfold box_inside, widen. cbn [fst snd]. split; (apply Forall2_intro_nth; [now rewrite !map_length|]); intros a x y Hx Hy; rewrite nth_error_map in Hx, Hy.
    - destruct (nth_error lo a) as [l|] eqn:E1; [|discriminate]. destruct (nth_error lo' a) as [l'|] eqn:E2; [|discriminate]. injection Hx as <-. injection Hy as <-.
      apply diff_le. replace (l - eps - (l' - eps)) with (l - l') by ring. apply le_diff. eauto.
    - destruct (nth_error hi a) as [h|] eqn:E1; [|discriminate]. destruct (nth_error hi' a) as [h'|] eqn:E2; [|discriminate]. injection Hx as <-. injection Hy as <-. apply ole_add. eauto.
  Qed.

  (** the entry of one element *)
  Lemma element_box_ok dim eps (vs : list (list R)) row lo' hi' : ole 0 eps = true -> Forall (fun v => length v = dim) vs -> row <> [] -> Forall (fun v => (v < length vs)%nat) row ->
    length lo' = dim -> length hi' = dim ->
    (forall v a l c h, In v vs -> nth_error v a = Some c -> nth_error lo' a = Some l -> nth_error hi' a = Some h -> ole l c = true /\ ole c h = true) ->
    exists pts b, Forall2 (fun v q => nth_error vs v = Some q) row pts /\ element_box R dim eps vs row = Ok b /\ box_inside R b (widen R eps (lo', hi')) /\ tight R eps b pts /\ forall p, convex_point R dim pts p -> inside R b p.
  Proof using.
    intros He HF Hne Hrow Hl' Hh' Hb'. destruct (take_total vs row Hrow) as (pts & Ep). apply take_ok in Ep as Hp.
    assert (Hpin : forall q, In q pts -> In q vs). { intros q Hq. destruct (Forall2_In_r _ _ _ _ Hp Hq) as (v & _ & Hv). now apply nth_error_In in Hv. }
    destruct (points_box dim pts) as (lo & hi & El & Eh & Ll & Lh & Hb & Ha1 & Ha2).
    { intros ->. apply Hne. inversion Hp. reflexivity. }
    { apply Forall_forall. intros q Hq. rewrite Forall_forall in HF. auto. }
    exists pts, (widen R eps (lo, hi)). split; [exact Hp|]. split; [unfold element_box; rewrite Ep; cbn [bind]; rewrite El; cbn [bind]; rewrite Eh; reflexivity|]. split; [|split].
    - apply box_inside_widen; try congruence; intros a x x' Hx Hx'.
      + destruct (Ha1 a x Hx) as (q & Hq & Hqa). destruct (nth_error hi' a) as [h'|] eqn:E; [|apply nth_error_None in E; assert (a < length lo')%nat by (apply nth_error_Some; congruence); lia]. now apply (Hb' q a x' x h'); [apply Hpin| | |].
      + destruct (Ha2 a x Hx) as (q & Hq & Hqa). destruct (nth_error lo' a) as [l'|] eqn:E; [|apply nth_error_None in E; assert (a < length hi')%nat by (apply nth_error_Some; congruence); lia]. now apply (Hb' q a l' x x'); [apply Hpin| | |].
    - now apply tight_widen.
    - intros p Hpt. now apply (hull_inside dim eps pts lo hi p).
  Qed.
End LookupProofs.
