(** * AffineProofs: affine maps, inverses and affine_map. *)
From Coq Require Import List Arith Bool ZArith Lia Ring.
From Verif Require Import Np NpFacts MeshModel MeshSpec MeshStateModel Lin ProcModel AffineModel AffineSpec.
Import ListNotations.

Section AffineProofs.
  Variable R : cring.
  Variable d : nat.
  Add Ring Rr : (rth R).

  Lemma forallb_len (M : list (list R)) n : Forall (fun r => length r = n) M <-> forallb (fun r => length r =? n) M = true.
  Proof. rewrite forallb_forall, Forall_forall. split; intros H x Hx; apply Nat.eqb_eq || apply Nat.eqb_eq; auto; now apply Nat.eqb_eq, H. Qed.

  Lemma apply_matrix_ok m n (M : list (list R)) x : is_mat m n M -> length x = n -> apply_matrix R M x = Ok (matvec M x).
  Proof.
    intros (_ & HM) Hx. unfold apply_matrix. subst n. apply forallb_len in HM. rewrite HM. reflexivity.
  Qed.

  Lemma add_offset_ok (r o : list R) : length o = length r -> add_offset R r o = Ok (vadd r o).
  Proof. intros H. unfold add_offset. rewrite H, Nat.eqb_refl. reflexivity. Qed.

  Definition image (f : amap R) (x : list R) : list R :=
    let r := match am_matrix f with Some M => matvec M x | None => x end in
    match am_offset f with Some o => vadd r o | None => r end.

  Lemma image_length f x : amap_wf d f -> length x = d -> length (image f x) = d.
  Proof.
    intros (HM & Ho) Hx. unfold image.
    assert (Hr : length (match am_matrix f with Some M => matvec M x | None => x end) = d).
    { destruct (am_matrix f) as [M|]; auto. rewrite matvec_length. apply (HM M eq_refl). }
    destruct (am_offset f) as [o|]; auto. rewrite vadd_length; auto. transitivity d; [exact Hr|]. symmetry. apply (Ho o eq_refl).
  Qed.

  Lemma amap_call_ok f x : amap_wf d f -> length x = d -> amap_call R f x = Ok (image f x).
  Proof.
    intros (HM & Ho) Hx. unfold amap_call, image.
    destruct (am_matrix f) as [M|].
    - rewrite (apply_matrix_ok d d) by auto. cbn [bind].
      destruct (am_offset f) as [o|]; auto. apply add_offset_ok.
      rewrite matvec_length. destruct (HM M eq_refl) as (HMl & _). rewrite HMl. auto.
    - cbn [bind]. destruct (am_offset f) as [o|]; auto. apply add_offset_ok. rewrite Hx. auto.
  Qed.

  (** ** Inverses *)
  Lemma is_mat_opp m n (M : list (list R)) : is_mat m n M -> is_mat m n (map vopp M).
  Proof.
    intros (Hm & HM). split; [now rewrite map_length|]. rewrite Forall_forall in *. intros r Hr.
    apply in_map_iff in Hr as (r' & <- & Hr'). rewrite vopp_length. auto.
  Qed.

  Lemma matvec_opp_l (M : list (list R)) v : matvec (map vopp M) v = vopp (matvec M v).
  Proof.
    unfold matvec, vopp at 2. rewrite !map_map. apply map_ext. intros r.
    rewrite dot_comm, dot_vopp_r, dot_comm. reflexivity.
  Qed.

  Lemma inverted_wf inv f g : inverts d inv -> amap_wf d f -> amap_inverted R inv f = Ok g -> amap_wf d g.
  Proof.
    intros Hinv (HM & Ho) H. unfold amap_inverted in H.
    destruct (am_matrix f) as [M|] eqn:EM.
    - destruct (inv M) as [N|e] eqn:EN; cbn [bind] in H; [|discriminate].
      destruct (Hinv M N (HM M eq_refl) EN) as (HN & _).
      destruct (am_offset f) as [o|].
      + rewrite (apply_matrix_ok d d) in H; [|now apply is_mat_opp|auto].
        injection H as <-. split; cbn; intros ? [= <-]; auto.
        rewrite matvec_length, map_length. apply HN.
      + injection H as <-. split; cbn; intros ? [= <-]; auto.
    - injection H as <-. split; cbn; [discriminate|]. intros o Hoo.
      destruct (am_offset f) as [o'|]; cbn in Hoo; [|discriminate]. injection Hoo as <-. rewrite vopp_length; auto.
  Qed.

  Lemma inverted_image inv f g x : inverts d inv -> amap_wf d f -> amap_inverted R inv f = Ok g -> length x = d ->
    image g (image f x) = x /\ image f (image g x) = x.
  Proof.
    intros Hinv (HM & Ho) H Hx. unfold amap_inverted in H. unfold image.
    destruct (am_matrix f) as [M|] eqn:EM.
    - destruct (inv M) as [N|e] eqn:EN; cbn [bind] in H; [|discriminate].
      pose proof (HM M eq_refl) as HMm.
      destruct (Hinv M N HMm EN) as (HN & HNM & HMN).
      assert (I1 : forall v, length v = d -> matvec N (matvec M v) = v).
      { intros v Hv. rewrite <- (matvec_matmul R d d d N M v HN HMm), HNM. now apply matvec_id. }
      assert (I2 : forall v, length v = d -> matvec M (matvec N v) = v).
      { intros v Hv. rewrite <- (matvec_matmul R d d d M N v HMm HN), HMN. now apply matvec_id. }
      assert (LM : forall v, length (matvec M v) = d) by (intros; rewrite matvec_length; apply HMm).
      assert (LN : forall v, length (matvec N v) = d) by (intros; rewrite matvec_length; apply HN).
      destruct (am_offset f) as [o|].
      + pose proof (Ho o eq_refl) as Hoo.
        rewrite (apply_matrix_ok d d) in H; [|now apply is_mat_opp|auto].
        injection H as <-. cbn [am_matrix am_offset]. rewrite matvec_opp_l. split.
        * rewrite (matvec_vadd R d d) by (auto; rewrite LM; auto).
          rewrite I1 by auto. rewrite <- vadd_assoc, vadd_vopp, LN. now apply vadd_zeros.
        * rewrite (matvec_vadd R d d) by (auto; rewrite LN, vopp_length, LN; auto).
          rewrite I2, matvec_vopp, I2 by auto. rewrite <- vadd_assoc, (vadd_comm R (vopp o)), vadd_vopp, Hoo.
          now apply vadd_zeros.
      + injection H as <-. cbn [am_matrix am_offset]. auto.
    - injection H as <-. cbn [am_matrix am_offset]. destruct (am_offset f) as [o|]; cbn [option_map]; auto.
      pose proof (Ho o eq_refl) as Hoo. split.
      + rewrite <- vadd_assoc, vadd_vopp, Hoo. now apply vadd_zeros.
      + rewrite <- vadd_assoc, (vadd_comm R (vopp o)), vadd_vopp, Hoo. now apply vadd_zeros.
  Qed.

  Lemma inverted_main inv f g x : inverts d inv -> amap_wf d f -> amap_inverted R inv f = Ok g -> length x = d ->
    (exists y, amap_call R f x = Ok y /\ amap_call R g y = Ok x) /\
    (exists y, amap_call R g x = Ok y /\ amap_call R f y = Ok x).
  Proof.
    intros Hinv Hf H Hx. pose proof (inverted_wf inv f g Hinv Hf H) as Hg.
    destruct (inverted_image inv f g x Hinv Hf H Hx) as (I1 & I2).
    split.
    - exists (image f x). split; [now apply amap_call_ok|].
      rewrite amap_call_ok by (auto; now apply image_length). now rewrite I1.
    - exists (image g x). split; [now apply amap_call_ok|].
      rewrite amap_call_ok by (auto; now apply image_length). now rewrite I2.
  Qed.

  (** ** affine_map *)
  Definition amat (A : option (sarg R (list (list R)))) : option (list (list R)) :=
    option_map (fun a => match a with Scalar c => diag R d c | Arr M => M end) A.
  Definition avec (b : option (sarg R (list R))) : option (list R) :=
    option_map (fun b => match b with Scalar c => repeat c d | Arr v => v end) b.

  Implicit Types (A : option (sarg R (list (list R)))) (b : option (sarg R (list R))).

  Lemma vscale_length (c : R) v : length (vscale c v) = length v.
  Proof. apply map_length. Qed.

  Lemma is_mat_diag c : is_mat d d (diag R d c).
  Proof.
    destruct (is_mat_id R d) as (H1 & H2). split; [unfold diag; now rewrite map_length|].
    rewrite Forall_forall in *. intros r Hr. apply in_map_iff in Hr as (r' & <- & Hr'). rewrite vscale_length. auto.
  Qed.

  Lemma matvec_diag c x : length x = d -> matvec (diag R d c) x = vscale c x.
  Proof.
    intros Hx. transitivity (vscale c (matvec (idmat d) x)); [|now rewrite matvec_id].
    unfold diag, matvec, vscale at 2. rewrite !map_map. apply map_ext. intros r. apply dot_vscale_l.
  Qed.

  Lemma amat_wf A b M : args_ok d A b -> amat A = Some M -> is_mat d d M.
  Proof.
    intros (HA & _) H. unfold amat in H. destruct A as [[c|M']|]; cbn in H; try discriminate; injection H as <-.
    - apply is_mat_diag.
    - now apply HA.
  Qed.

  Lemma avec_wf A b v : args_ok d A b -> avec b = Some v -> length v = d.
  Proof.
    intros (_ & Hb) H. unfold avec in H. destruct b as [[c|v']|]; cbn in H; try discriminate; injection H as <-.
    - apply repeat_length.
    - now apply Hb.
  Qed.

  Lemma amat_times A b x : args_ok d A b -> length x = d ->
    match amat A with Some M => matvec M x | None => x end = times A x.
  Proof. intros _ Hx. destruct A as [[c|M]|]; cbn; auto. now apply matvec_diag. Qed.

  Lemma times_length A b x : args_ok d A b -> length x = d -> length (times A x) = d.
  Proof.
    intros (HA & _) Hx. destruct A as [[c|M]|]; cbn; auto.
    - now rewrite vscale_length.
    - rewrite matvec_length. apply (HA M eq_refl).
  Qed.

  Lemma shift_length A b : args_ok d A b -> length (shift (R := R) d b) = d.
  Proof. intros (_ & Hb). destruct b as [[c|v]|]; cbn; [apply repeat_length|now apply Hb|apply zeros_length]. Qed.

  Lemma transform_length A b x : args_ok d A b -> length x = d -> length (transform (R := R) d A b x) = d.
  Proof.
    intros H Hx. unfold transform. rewrite vadd_length; rewrite (times_length A b); auto. symmetry. now apply (shift_length A).
  Qed.

  Lemma call_transform A b x : args_ok d A b -> length x = d ->
    amap_call R (mk_amap (amat A) (avec b)) x = Ok (transform d A b x).
  Proof.
    intros H Hx. rewrite amap_call_ok; auto.
    - f_equal. unfold image, transform. cbn [am_matrix am_offset]. rewrite (amat_times A b) by auto.
      destruct b as [[c|v]|]; cbn; auto. symmetry. apply vadd_zeros. now apply (times_length A None).
    - split; cbn [am_matrix am_offset]; intros; [eapply amat_wf|eapply avec_wf]; eauto.
  Qed.

  Lemma mapM_call A b xs : args_ok d A b -> Forall (fun x => length x = d) xs ->
    mapM (amap_call R (mk_amap (amat A) (avec b))) xs = Ok (map (transform d A b) xs).
  Proof.
    intros H HF. induction HF as [|x xs Hx HF IH]; [reflexivity|].
    cbn [mapM map]. rewrite call_transform, IH by auto. reflexivity.
  Qed.

  Lemma mapM_mapM_call A b xss : args_ok d A b -> Forall (Forall (fun x => length x = d)) xss ->
    mapM (mapM (amap_call R (mk_amap (amat A) (avec b)))) xss = Ok (map (map (transform d A b)) xss).
  Proof.
    intros H HF. induction HF as [|x xs Hx HF IH]; [reflexivity|].
    cbn [mapM map]. rewrite mapM_call, IH by auto. reflexivity.
  Qed.

  (** compute_new_map *)
  Definition new_map A b (h : amap R) : amap R :=
    mk_amap (am_matrix h)
      (option_map (fun o =>
         match am_matrix h, avec b with
         | Some G, Some v => vadd (times A o) (vsub v (matvec G v))
         | _, _ => times A o
         end) (am_offset h)).

  Lemma compute_new_map_ok A b h : args_ok d A b -> amap_wf d h ->
    compute_new_map R (amat A) (avec b) h = Ok (new_map A b h).
  Proof.
    intros H (HM & Ho). unfold compute_new_map, new_map.
    destruct (am_offset h) as [o|]; [|reflexivity]. cbn [option_map].
    assert (E : match amat A with Some A => apply_matrix R A o | None => Ok o end = Ok (times A o)).
    { pose proof (amat_times A b o H (Ho o eq_refl)) as E'.
      destruct (amat A) as [M|] eqn:EA.
      - rewrite (apply_matrix_ok d d) by (auto; eapply amat_wf; eauto). now f_equal.
      - now f_equal. }
    rewrite E. cbn [bind].
    destruct (am_matrix h) as [G|]; [|reflexivity].
    destruct (avec b) as [v|] eqn:Eb; [|reflexivity].
    pose proof (avec_wf A b v H Eb) as Hv.
    rewrite (apply_matrix_ok d d) by auto. cbn [bind].
    rewrite matvec_length. destruct (HM G eq_refl) as (HG & _).
    rewrite HG, (times_length A b o), Hv, Nat.eqb_refl by auto. reflexivity.
  Qed.

  Lemma new_map_wf A b h : args_ok d A b -> amap_wf d h -> amap_wf d (new_map A b h).
  Proof.
    intros H (HM & Ho). split; cbn [new_map am_matrix am_offset]; auto.
    intros o' Ho'. destruct (am_offset h) as [o|]; cbn in Ho'; [|discriminate].
    pose proof (times_length A b o H (Ho o eq_refl)) as Ht.
    destruct (am_matrix h) as [G|]; [destruct (avec b) as [v|] eqn:Eb|]; injection Ho' as <-; auto.
    pose proof (avec_wf A b v H Eb) as Hv. destruct (HM G eq_refl) as (HG & _).
    rewrite vadd_length; auto. rewrite vsub_length; rewrite ?matvec_length; lia.
  Qed.

  Lemma map_fagrp_ok A b fg : args_ok d A b -> fagrp_all (amap_wf d) fg ->
    exists fg', map_fagrp R (amat A) (avec b) fg = Ok fg' /\ fagrp_rel (fun h h' => h' = new_map A b h) fg fg'.
  Proof.
    intros H Hw. destruct fg as [g g' es a|g t es|g t p es a]; cbn [map_fagrp fagrp_all] in *.
    - rewrite compute_new_map_ok by auto. eexists; split; [reflexivity|]. cbn; auto.
    - eexists; split; [reflexivity|]. cbn; auto.
    - rewrite compute_new_map_ok by auto. eexists; split; [reflexivity|]. cbn; auto 6.
  Qed.

  (** ** The law *)
  Lemma dot_zeros_r (v : list R) n : dot v (zeros n) = r0.
  Proof. rewrite dot_comm. apply dot_zeros. Qed.

  Lemma matvec_zeros m n (M : list (list R)) : is_mat m n M -> matvec M (zeros n) = zeros m.
  Proof.
    intros (<- & _). unfold matvec. induction M as [|r M IH]; [reflexivity|]. cbn [map length].
    change (zeros (S (length M))) with (r0 :: zeros (R := R) (length M)).
    rewrite dot_zeros_r, IH. reflexivity.
  Qed.

  Lemma vscale_vadd (c : R) u v : vscale c (vadd u v) = vadd (vscale c u) (vscale c v).
  Proof.
    unfold vscale, vadd. revert v; induction u as [|a u IH]; intros [|b v]; cbn [map map2]; auto. f_equal; [ring|apply IH].
  Qed.

  Lemma vscale_zeros (c : R) n : vscale c (zeros n) = zeros n.
  Proof. induction n; [reflexivity|]. cbn [zeros repeat vscale map]. f_equal; [ring|exact IHn]. Qed.

  Lemma times_vadd A b u v : args_ok d A b -> length u = d -> length v = d ->
    times A (vadd u v) = vadd (times A u) (times A v).
  Proof.
    intros (HA & _) Hu Hv. destruct A as [[c|M]|]; cbn [times]; auto.
    - apply vscale_vadd.
    - apply (matvec_vadd R d d); auto. lia.
  Qed.

  Lemma times_zeros A b : args_ok d A b -> times A (zeros (R := R) d) = zeros d.
  Proof.
    intros (HA & _). destruct A as [[c|M]|]; cbn [times]; auto.
    - apply vscale_zeros.
    - apply matvec_zeros; auto.
  Qed.

  Lemma vadd_inj_r (u v w : list R) : length u = length w -> length v = length w -> vadd u w = vadd v w -> u = v.
  Proof.
    intros Hu Hv H. rewrite <- (vadd_cancel_r R u w), <- (vadd_cancel_r R v w) by auto. now rewrite H.
  Qed.

  (** F (h x) and h' (F x) for the computed h' *)
  Lemma both_sides A b h x : args_ok d A b -> amap_wf d h -> length x = d ->
    (image (new_map A b h) (transform d A b x) = transform d A b (image h x) <->
     forall G, am_matrix h = Some G ->
       match am_offset h with
       | Some _ => times A (matvec G x) = matvec G (times A x)
       | None => vadd (times A (matvec G x)) (shift d b) = vadd (matvec G (times A x)) (matvec G (shift d b))
       end).
  Proof.
    intros H Hw Hx. pose proof Hw as (HM & Ho).
    pose proof (times_length A b x H Hx) as Ltx. pose proof (shift_length A b H) as Ls.
    unfold image, new_map, transform. cbn [am_matrix am_offset].
    destruct (am_matrix h) as [G|] eqn:EG.
    - pose proof (HM G eq_refl) as HG.
      assert (LG : forall v, length (matvec G v) = d) by (intros; rewrite matvec_length; apply HG).
      rewrite (matvec_vadd R d d) by (auto; lia).
      assert (LAG : length (times A (matvec G x)) = d) by (apply (times_length A b); auto).
      destruct (am_offset h) as [o|] eqn:Eo; cbn [option_map].
      + pose proof (times_length A b o H (Ho o eq_refl)) as Lo.
        rewrite (times_vadd A b) by (auto; rewrite LG; auto).
        assert (E : vadd (vadd (matvec G (times A x)) (matvec G (shift d b)))
                      match avec b with Some v => vadd (times A o) (vsub v (matvec G v)) | None => times A o end =
                    vadd (vadd (matvec G (times A x)) (times A o)) (shift d b)).
        { destruct (avec b) as [v|] eqn:Eb.
          - assert (Ev : shift d b = v) by (destruct b as [[c|w]|]; cbn in Eb |- *; congruence).
            rewrite Ev. pose proof (avec_wf A b v H Eb) as Lv.
            rewrite vsub_vadd. rewrite <- !vadd_assoc. f_equal.
            rewrite (vadd_comm R (matvec G v)), <- !vadd_assoc. f_equal. transitivity (vadd v (zeros d)); [|now apply vadd_zeros].
            f_equal. rewrite vadd_comm, vadd_vopp, LG. reflexivity.
          - assert (Ev : shift (R := R) d b = zeros d) by (destruct b as [[c|w]|]; cbn in Eb |- *; congruence).
            rewrite Ev, (matvec_zeros d d) by auto.
            rewrite !vadd_zeros; auto. rewrite vadd_length; rewrite LG; auto. }
        rewrite E. split.
        * intros HE G' [= <-].
          apply vadd_inj_r in HE; [|rewrite vadd_length; rewrite ?LG; lia|rewrite vadd_length; lia].
          apply vadd_inj_r in HE; [|rewrite LG; lia|lia]. now symmetry.
        * intros HE. rewrite (HE G eq_refl). reflexivity.
      + split.
        * intros HE G' [= <-]. now symmetry.
        * intros HE. symmetry. now apply HE.
    - split; [intros _ G' [=]|]. intros _.
      destruct (am_offset h) as [o|] eqn:Eo; cbn [option_map]; auto.
      rewrite (times_vadd A b) by auto. rewrite <- !vadd_assoc. f_equal. apply vadd_comm.
  Qed.

  Lemma carries_iff A b h : args_ok d A b -> amap_wf d h ->
    (carries d A b h (new_map A b h) <-> compatible d A b h).
  Proof.
    intros H Hw. pose proof (new_map_wf A b h H Hw) as Hw'.
    assert (E : carries d A b h (new_map A b h) <->
      forall x, length x = d -> image (new_map A b h) (transform d A b x) = transform d A b (image h x)).
    { unfold carries. split.
      - intros HC x Hx. specialize (HC x (image h x) Hx (amap_call_ok h x Hw Hx)).
        rewrite amap_call_ok in HC by (auto; now apply transform_length). now injection HC.
      - intros HC x y Hx Hy. rewrite amap_call_ok in Hy by auto. injection Hy as <-.
        rewrite amap_call_ok by (auto; now apply transform_length). now rewrite HC. }
    rewrite E. clear E. pose proof Hw as (HM & Ho). split.
    - intros HC G HG.
      assert (HC' := fun x Hx => proj1 (both_sides A b h x H Hw Hx) (HC x Hx) G HG). clear HC.
      pose proof (HM G HG) as HGm.
      assert (LG : forall v, length (matvec G v) = d) by (intros; rewrite matvec_length; apply HGm).
      pose proof (shift_length A b H) as Ls.
      destruct (am_offset h) as [o|].
      + split; [exact HC'|discriminate].
      + assert (Eb : matvec G (shift d b) = shift d b).
        { specialize (HC' (zeros d) (zeros_length R d)).
          rewrite (matvec_zeros d d), (times_zeros A b), (matvec_zeros d d) in HC' by auto.
          rewrite !(vadd_comm R (zeros d)), !vadd_zeros in HC' by auto. now symmetry. }
        split; auto. intros x Hx. specialize (HC' x Hx). rewrite Eb in HC'.
        apply vadd_inj_r in HC'; auto; rewrite Ls; auto. apply (times_length A b); auto.
    - intros HC x Hx. apply both_sides; auto. intros G HG. destruct (HC G HG) as (H1 & H2).
      destruct (am_offset h) as [o|]; auto. rewrite H1, H2 by auto. reflexivity.
  Qed.

  Lemma image_nil_new_map b h : args_ok d None b -> avec b = None -> new_map None b h = h.
  Proof.
    intros _ E. destruct h as [M o]. unfold new_map. cbn [am_matrix am_offset]. f_equal. destruct o; cbn; auto.
    destruct M; rewrite ?E; auto.
  Qed.

  Lemma transform_id x : length x = d -> transform (R := R) d None None x = x.
  Proof. intros. unfold transform. cbn. now apply vadd_zeros. Qed.

  Lemma same_up_to_id {X : Type} (f : list R -> list R) (m : mesh (list (list R)) X (list R)) : (forall x, length x = d -> f x = x) ->
    points_in d m -> same_up_to f m m.
  Proof.
    intros Hf (Hv & Hg). constructor; auto.
    - destruct (m_vertices m) as [vs|]; cbn; auto. f_equal. rewrite <- (map_id vs) at 1. apply map_ext_in.
      intros x Hx. symmetry. apply Hf. specialize (Hv vs eq_refl). rewrite Forall_forall in Hv. auto.
    - induction (m_groups m) as [|g gs IH]; constructor.
      + repeat split. inversion Hg as [|? ? Hn Hgs]; subst. rewrite <- (map_id (eg_nodes g)) at 1. apply map_ext_in.
        intros xs Hxs. rewrite <- (map_id xs) at 1. apply map_ext_in. intros x Hx. symmetry. apply Hf.
        rewrite Forall_forall in Hn. specialize (Hn xs Hxs). rewrite Forall_forall in Hn. auto.
      + apply IH. now inversion Hg.
  Qed.

  Definition affine_core (A : option (list (list R))) (b : option (list R)) (m : mesh (list (list R)) (amap R) (list R)) :=
    _ <- guard (match A with Some M => (length M =? d) && forallb (fun r => length r =? d) M | None => true end) ValueError ;;
    _ <- guard (match b with Some v => length v =? d | None => true end) ValueError ;;
    let f := amap_call R (mk_amap A b) in
    vertices <- match m_vertices m with None => Ok None | Some vs => vs' <- mapM f vs ;; Ok (Some vs') end ;;
    groups <- mapM (fun g => n <- mapM (mapM f) (eg_nodes g) ;; Ok (mk_egroup (eg_vi g) n (eg_fvi g))) (m_groups m) ;;
    facial <- match m_facial m with
              | Pending => Ok Pending
              | Unavailable => Err DataUnavailableError
              | Available fags => fags' <- mapM (mapM (map_fagrp R A b)) fags ;; Ok (Available fags')
              end ;;
    Ok (mk_mesh groups vertices (m_conforming m) (m_nodal m) facial (m_vdtype m) (m_edtype m) (m_fdtype m)).

  Lemma mapM_rel {X Y} (f : X -> res Y) (P : X -> Prop) (Q : X -> Y -> Prop) l :
    (forall x, P x -> exists y, f x = Ok y /\ Q x y) -> Forall P l -> exists l', mapM f l = Ok l' /\ Forall2 Q l l'.
  Proof.
    intros Hf HF. induction HF as [|x l Hx HF IH]; [exists []; split; auto; constructor|].
    destruct (Hf x Hx) as (y & E & Hy). destruct IH as (l' & E' & HQ).
    exists (y :: l'). cbn [mapM]. rewrite E, E'. split; [reflexivity|]. now constructor.
  Qed.

  Lemma affine_core_ok A b m : args_ok d A b -> points_in d m -> m_facial m <> Unavailable ->
    (forall fags, m_facial m = Available fags -> Forall (Forall (fagrp_all (amap_wf d))) fags) ->
    exists m', affine_core (amat A) (avec b) m = Ok m' /\ same_up_to (transform d A b) m m' /\
      match m_facial m, m_facial m' with
      | Available fags, Available fags' => Forall2 (Forall2 (fagrp_rel (fun h h' => h' = new_map A b h))) fags fags'
      | Pending, Pending => True
      | _, _ => False
      end.
  Proof.
    intros H HP Hf Hw. pose proof HP as (Hv & Hg). unfold affine_core.
    assert (G1 : match amat A with Some M => (length M =? d) && forallb (fun r => length r =? d) M | None => true end = true).
    { destruct (amat A) as [M|] eqn:E; auto. destruct (amat_wf A b M H E) as (HM & HM').
      apply forallb_len in HM'. apply andb_true_intro. split; [apply Nat.eqb_eq; exact HM|exact HM']. }
    assert (G2 : match avec b with Some v => length v =? d | None => true end = true).
    { destruct (avec b) as [v|] eqn:E; auto. rewrite (avec_wf A b v H E). apply Nat.eqb_refl. }
    rewrite G1, G2. cbn [guard bind]. cbv zeta.
    assert (E1 : match m_vertices m with None => Ok None
              | Some vs => vs' <- mapM (amap_call R (mk_amap (amat A) (avec b))) vs ;; Ok (Some vs') end =
              Ok (option_map (map (transform d A b)) (m_vertices m))).
    { destruct (m_vertices m) as [vs|]; auto. rewrite mapM_call; auto. }
    rewrite E1. cbn [bind].
    assert (E2 : mapM (fun g => n <- mapM (mapM (amap_call R (mk_amap (amat A) (avec b)))) (eg_nodes g) ;;
         Ok (mk_egroup (eg_vi g) n (eg_fvi g))) (m_groups m) =
       Ok (map (fun g => mk_egroup (eg_vi g) (map (map (transform d A b)) (eg_nodes g)) (eg_fvi g)) (m_groups m))).
    { clear E1 Hv HP Hw Hf. induction Hg as [|g gs Hn Hg IH]; [reflexivity|]. cbn [mapM map].
      rewrite mapM_mapM_call, IH by auto. reflexivity. }
    match goal with |- context [bind (mapM ?f (m_groups m)) _] =>
      replace (mapM f (m_groups m)) with
        (Ok (map (fun g => mk_egroup (eg_vi g) (map (map (transform d A b)) (eg_nodes g)) (eg_fvi g)) (m_groups m)))
        by (symmetry; exact E2) end. cbn [bind].
    assert (Su : forall fac : lazyf (list (list (fagrp (amap R)))), same_up_to (transform d A b) m
        (mk_mesh (map (fun g => mk_egroup (eg_vi g) (map (map (transform d A b)) (eg_nodes g)) (eg_fvi g)) (m_groups m))
           (option_map (map (transform d A b)) (m_vertices m)) (m_conforming m) (m_nodal m) fac (m_vdtype m) (m_edtype m) (m_fdtype m))).
    { intros fac. constructor; cbn; auto. clear. induction (m_groups m); constructor; cbn; auto. }
    destruct (m_facial m) as [| |fags]; [tauto| |].
    - eexists; split; [reflexivity|]. split; [apply Su|]. exact I.
    - destruct (mapM_rel (mapM (map_fagrp R (amat A) (avec b))) (Forall (fagrp_all (amap_wf d)))
         (Forall2 (fagrp_rel (fun h h' => h' = new_map A b h))) fags) as (fags' & EF & HF).
      + intros l Hl. apply mapM_rel with (P := fagrp_all (amap_wf d)); auto. intros fg Hfg. now apply map_fagrp_ok.
      + now apply Hw.
      + rewrite EF. eexists; split; [reflexivity|]. split; [apply Su|]. exact HF.
  Qed.

  Lemma affine_map_ok A b m : args_ok d A b -> points_in d m -> m_facial m <> Unavailable ->
    (forall fags, m_facial m = Available fags -> Forall (Forall (fagrp_all (amap_wf d))) fags) ->
    exists m', affine_map R d A b m = Ok m' /\ same_up_to (transform d A b) m m' /\
      match m_facial m, m_facial m' with
      | Available fags, Available fags' => Forall2 (Forall2 (fagrp_rel (fun h h' => h' = new_map A b h))) fags fags'
      | Pending, Pending => True
      | _, _ => False
      end.
  Proof.
    intros H HP Hf Hw. pose proof HP as (Hv & Hg).
    destruct A as [A0|]; [|destruct b as [b0|]].
    3: { exists m. split; [reflexivity|]. split.
      - apply same_up_to_id; auto. apply transform_id.
      - destruct (m_facial m) as [| |fags]; try tauto.
        assert (Hr : forall l, Forall (fagrp_all (amap_wf d)) l ->
           Forall2 (fagrp_rel (fun h h' : amap R => h' = new_map None None h)) l l).
        { intros l _. induction l as [|fg l IHl]; constructor; auto.
          destruct fg as [g g' es a|g t es|g t p es a]; cbn; repeat split; symmetry; now apply image_nil_new_map. }
        specialize (Hw fags eq_refl). clear Hf. induction Hw as [|l fags Hl Hw IH]; constructor; auto. }
    - change (affine_map R d (Some A0) b m) with (affine_core (amat (Some A0)) (avec b) m). now apply affine_core_ok.
    - change (affine_map R d None (Some b0) m) with (affine_core (amat None) (avec (Some b0)) m). now apply affine_core_ok.
  Qed.
End AffineProofs.
