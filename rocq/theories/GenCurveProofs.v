(** * GenCurveProofs: curves, the annular slice, radii of the urchin, warping. *)
From Coq Require Import List Arith Bool Lia ZArith Ring.
From Verif Require Import Np NpFacts MeshModel MeshStateModel MeshProofs Lin Ord ProcModel AffineModel RefineModel GenModel GenSpec GenGroupProofs GenSphereProofs.
Import ListNotations.

Section Curves.
  Variable R : ocring.
  Add Ring Rc : (rth R).
  Local Open Scope cring_scope.

  Lemma n_gon_raises corner n (t : list R) : (1 <= n)%nat -> n_gon R corner n t = Err ValueError.
  Proof.
    intros Hn. destruct n as [|n]; [lia|]. unfold n_gon. cbv zeta. cbn [seq foldM].
    match goal with |- context [mapM ?f ?l] => assert (H : exists tau, mapM f l = Ok tau) end.
    { destruct (mapM_total (fun i => x <- get (map (fun x : R => x * rnat R (S n)) t) i ;; Ok (x - rnat R 0))
        (where_ (map (fun x : R => (rnat R 0 <=? x) && (x <? rnat R (0 + 1))) (map (fun x : R => x * rnat R (S n)) t)))) as (l & Hl); [|eauto].
      intros i Hi. apply In_where_ in Hi. rewrite nth_error_map in Hi. unfold get. destruct (nth_error _ i) as [x|]; [|discriminate]. cbn [bind]. eauto. }
    destruct H as (tau & ->). cbn [bind]. unfold broadcasts. cbn [rev app fits Nat.eqb orb andb]. rewrite andb_false_r. reflexivity.
  Qed.

  (** *** WobblyCircle *)
  Variables (sin cos : R -> R).
  Hypothesis Htrig : trig R sin cos.

  Lemma rabs_bound (c x : R) : abs_le R x 1 -> (- rabs R c <=? c * x) = true /\ (0 <=? rabs R c) = true.
  Proof.
    intros (H1 & H2). unfold rabs. destruct (0 <=? c) eqn:E.
    - split; [|exact E]. apply diff_le. replace (c * x - - c) with (c * (x - - (1))) by ring. apply ole_mul; auto. now apply le_diff.
    - assert (Hc : (0 <=? - c) = true). { destruct (ole_total R 0 c) as [K|K]; [congruence|]. apply le_diff in K. now replace (0 - c) with (- c) in K by ring. }
      split; [|exact Hc]. apply diff_le. replace (c * x - - - c) with (- c * (1 - x)) by ring. apply ole_mul; auto. now apply le_diff.
  Qed.

  Lemma wave_from_bound coeffs phase t k w : (w - rsum (map (rabs R) coeffs) <=? fold_left (fun w ic => w + snd ic * sin (rnat R (fst ic + 1) * t + phase)) (enumerate_from k coeffs) w) = true.
  Proof.
    revert k w; induction coeffs as [|c coeffs IH]; intros k w.
    - cbn [enumerate_from map rsum length seq combine fold_left]. apply diff_le. replace (w - (w - 0)) with (0 : R) by ring. apply ole_refl.
    - rewrite enumerate_from_cons. cbn [fold_left map rsum fst snd]. eapply ole_trans; [|apply IH].
      destruct Htrig as (_ & _ & _ & Hb). destruct (rabs_bound c (sin (rnat R (k + 1) * t + phase))) as (H1 & _); [exact (Hb _)|].
      apply diff_le. apply le_diff in H1. match goal with |- (0 <=? ?e) = true => match type of H1 with (0 <=? ?f) = true => replace e with f by ring end end. exact H1.
  Qed.

  Lemma wave_bound coeffs phase t : (1 - rsum (map (rabs R) coeffs) <=? wave R sin coeffs phase t) = true.
  Proof. apply (wave_from_bound coeffs phase t 0 1). Qed.

  Lemma wobbly_norm coeffs phase t : let p := wobbly R sin cos coeffs phase t in fst p * fst p + snd p * snd p = wave R sin coeffs phase t * wave R sin coeffs phase t.
  Proof.
    cbv zeta. unfold wobbly. cbv zeta. cbn [fst snd]. destruct Htrig as (_ & _ & H & _). specialize (H t). set (w := wave R sin coeffs phase t).
    transitivity ((cos t * cos t + sin t * sin t) * (w * w)); [ring|rewrite H; ring].
  Qed.

  Lemma rabs_scale (a c : R) : (0 <=? a) = true -> rabs R (a * c) = a * rabs R c.
  Proof.
    intros Ha. unfold rabs. destruct (0 <=? c) eqn:Ec.
    - rewrite (ole_mul R a c Ha Ec). reflexivity.
    - assert (Hc : (0 <=? - c) = true). { destruct (ole_total R 0 c) as [K|K]; [congruence|]. apply le_diff in K. now replace (0 - c) with (- c) in K by ring. }
      destruct (0 <=? a * c) eqn:E; [|ring]. assert (K : a * c = 0). { apply (ole_antisym R); auto. apply diff_le. replace (0 - a * c) with (a * - c) by ring. now apply ole_mul. }
      replace (a * - c) with (- (a * c)) by ring. rewrite K. ring.
  Qed.

  Lemma random_sum_scale q i coeffs : (0 <=? q) = true -> (0 <=? i) = true ->
    rsum (map (rabs R) (map (fun c => q * c * i) coeffs)) = q * i * rsum (map (rabs R) coeffs).
  Proof.
    intros Hq Hi. induction coeffs as [|c coeffs IH]; cbn [map rsum]; [ring|].
    rewrite IH. replace (q * c * i) with (q * i * c) by ring. rewrite rabs_scale by (now apply ole_mul). ring.
  Qed.

  Lemma random_sum q inv coeffs : (0 <=? q) = true -> right_inv R inv -> strict_products R -> (0 : R) <? 1 = true -> rsum (map (rabs R) coeffs) <> 0 ->
    rsum (map (rabs R) (random_coeffs R q inv coeffs)) = q.
  Proof.
    intros Hq Hinv Hpos H1 Hs. unfold random_coeffs. set (S := rsum (map (rabs R) coeffs)) in *.
    assert (HS : (0 <=? S) = true).
    { unfold S. apply rsum_nonneg. apply Forall_forall. intros x Hx. apply in_map_iff in Hx as (c & <- & _). apply (rabs_bound c 1). split; [|apply ole_refl].
      apply diff_le. replace (1 - - (1)) with (1 + 1 : R) by ring. apply ole_add_nonneg; now apply olt_nle. }
    assert (Hi : (0 <=? inv S) = true).
    { apply olt_nle. apply (inv_pos R Hpos inv Hinv); auto. destruct (ne_cases R S Hs) as [K|K]; auto. exfalso. apply Hs. apply (ole_antisym R); auto. apply olt_nle in K. apply diff_le. now replace (0 - S) with (- S) by ring. }
    transitivity (q * inv S * S); [exact (random_sum_scale q (inv S) coeffs Hq Hi)|].
    transitivity (q * (S * inv S)); [ring|]. rewrite (Hinv S Hs). ring.
  Qed.

  (** *** NArmedStarfish *)
  Lemma fold_zero phase t k n w : fold_left (fun w ic => w + snd ic * sin (rnat R (fst ic + 1) * t + phase)) (enumerate_from k (zeros (R := R) n)) w = w.
  Proof. revert k w; induction n as [|n IH]; intros k w; [reflexivity|]. change (zeros (R := R) (S n)) with ((0 : R) :: zeros n). rewrite enumerate_from_cons. cbn [fold_left fst snd]. rewrite IH. ring. Qed.

  Lemma starfish_wave n (amp : R) : exists cs, starfish_coeffs R (S n) amp = Ok cs /\ length cs = S n /\ forall phase t, wave R sin cs phase t = 1 + amp * sin (rnat R (S n) * t + phase).
  Proof.
    exists (zeros (R := R) n ++ [amp]). assert (E : upd (zeros (R := R) (S n)) n amp = zeros n ++ [amp]).
    { clear. induction n as [|n IH]; [reflexivity|]. change (zeros (R := R) (S (S n))) with ((0 : R) :: zeros (S n)). cbn [upd]. rewrite IH. reflexivity. }
    split; [|split].
    - unfold starfish_coeffs, put. unfold zeros in *. rewrite repeat_length. destruct (Nat.ltb_spec n (S n)); [|lia]. now rewrite E.
    - rewrite app_length. unfold zeros. rewrite repeat_length. cbn [length]. lia.
    - intros phase t. unfold wave, enumerate. rewrite enumerate_from_app, fold_left_app, fold_zero. unfold zeros. rewrite repeat_length. cbn [Nat.add].
      rewrite enumerate_from_cons. cbn [fold_left fst snd enumerate_from length seq combine]. now replace (n + 1)%nat with (S n) by lia.
  Qed.

  Lemma starfish_symmetric n (amp : R) cs phase t alpha : starfish_coeffs R (S n) amp = Ok cs -> (forall x, sin (x + rnat R (S n) * alpha) = sin x) ->
    wobbly R sin cos cs phase (t + alpha) = rotated R sin cos alpha (wobbly R sin cos cs phase t).
  Proof.
    intros Hc Hp. destruct (starfish_wave n amp) as (cs' & Hc' & _ & Hw). assert (cs' = cs) by congruence. subst cs'. unfold wobbly. cbv zeta. rewrite !Hw.
    replace (rnat R (S n) * (t + alpha) + phase) with (rnat R (S n) * t + phase + rnat R (S n) * alpha) by ring. rewrite Hp. generalize (1 + amp * sin (rnat R (S n) * t + phase)). intros w. unfold rotated. cbn [fst snd].
    destruct Htrig as (Hs & Hc2 & _ & _). rewrite Hs, Hc2. f_equal; ring.
  Qed.
End Curves.

(** *** The slice of an annular cylinder *)
Section Annular.
  Variable R : ocring.
  Add Ring Rc2 : (rth R).
  Local Open Scope cring_scope.
  Variables (half : R) (angle : R -> R * R) (c s : R).
  Hypothesis Hunit : forall a, fst (angle a) * fst (angle a) + snd (angle a) * snd (angle a) = 1.
  Hypothesis Hquarter : fst (angle 1) = c * fst (angle 0) - s * snd (angle 0) /\ snd (angle 1) = s * fst (angle 0) + c * snd (angle 0).

  Lemma annular_periodic center inner outer x0 x2 : length center = 3%nat -> exists p q,
    annular_transform R half angle center inner outer [x0; 0; x2] = Ok p /\ annular_transform R half angle center inner outer [x0; 1; x2] = Ok q /\
    amap_call R (annular_map R c s center) p = Ok q.
  Proof.
    intros Hl. destruct center as [|c0 [|c1 [|c2 [|]]]]; try discriminate. cbn [annular_transform]. eexists _, _. split; [reflexivity|]. split; [reflexivity|].
    destruct Hquarter as (H1 & H2). rewrite H1, H2. unfold annular_map, amap_call. cbv zeta. cbn [am_matrix am_offset]. unfold apply_matrix, axis_rotation. cbn [forallb length Nat.eqb andb guard bind].
    unfold add_offset, matvec, vadd, vsub, dot. cbn [map map2 rsum length Nat.eqb]. repeat (f_equal; try ring).
  Qed.

  Lemma annular_radius center inner outer x0 x1 x2 p : (0 <=? inner) = true -> (inner <=? outer) = true -> (0 <=? x0) = true -> (x0 <=? 1) = true ->
    annular_transform R half angle center inner outer [x0; x1; x2] = Ok p ->
    (inner * inner <=? axis_dist2 R center p) = true /\ (axis_dist2 R center p <=? outer * outer) = true.
  Proof.
    intros Hi Ho H0 H1 H. destruct center as [|c0 [|c1 [|c2 [|]]]]; try discriminate. cbn [annular_transform] in H. injection H as <-. cbn [axis_dist2]. set (r := inner * (1 - x0) + outer * x0).
    assert (E : (c0 + r * fst (angle x1) - c0) * (c0 + r * fst (angle x1) - c0) + (c1 + r * snd (angle x1) - c1) * (c1 + r * snd (angle x1) - c1) = r * r).
    { transitivity (r * r * (fst (angle x1) * fst (angle x1) + snd (angle x1) * snd (angle x1))); [ring|rewrite Hunit; ring]. }
    rewrite E. pose proof (le_diff R _ _ Ho) as Ho'. pose proof (le_diff R _ _ H1) as H1'.
    assert (A1 : (0 <=? r - inner) = true) by (replace (r - inner) with ((outer - inner) * x0) by (unfold r; ring); now apply ole_mul).
    assert (A2 : (0 <=? outer - r) = true) by (replace (outer - r) with ((outer - inner) * (1 - x0)) by (unfold r; ring); now apply ole_mul).
    assert (A3 : (0 <=? r) = true) by (replace r with (r - inner + inner) by ring; now apply ole_add_nonneg).
    assert (A4 : (0 <=? outer) = true) by (replace outer with (outer - r + r) by ring; now apply ole_add_nonneg).
    split; apply diff_le.
    - replace (r * r - inner * inner) with ((r - inner) * (r + inner)) by ring. apply ole_mul; auto. now apply ole_add_nonneg.
    - replace (outer * outer - r * r) with ((outer - r) * (outer + r)) by ring. apply ole_mul; auto. now apply ole_add_nonneg.
  Qed.
End Annular.

(** *** The urchin *)
Section Urchin.
  Variable R : ocring.
  Add Ring Rc3 : (rth R).
  Local Open Scope cring_scope.

  Lemma rmin_le l lo : rmin R l = Ok lo -> forall x, In x l -> (lo <=? x) = true.
  Proof.
    destruct l as [|a l]; [discriminate|]. cbn [rmin]. intros [= <-].
    assert (G : forall (l : list R) (a : R), (fold_left (fun a b => if b <=? a then b else a) l a <=? a) = true /\ forall x, In x l -> (fold_left (fun a b => if b <=? a then b else a) l a <=? x) = true).
    { clear. induction l as [|b l IH]; intros a; cbn [fold_left In]; [split; [apply ole_refl|tauto]|]. destruct (IH (if b <=? a then b else a)) as (K1 & K2).
      assert (L : ((if b <=? a then b else a) <=? a) = true /\ ((if b <=? a then b else a) <=? b) = true) by (destruct (b <=? a) eqn:E; [split; [exact E|apply ole_refl]|split; [apply ole_refl|destruct (ole_total R a b); congruence]]).
      split; [eapply ole_trans; [exact K1|apply L]|]. intros x [<-|Hx]; [eapply ole_trans; [exact K1|apply L]|auto]. }
    intros x [<-|Hx]; [apply (proj1 (G l a))|now apply (proj2 (G l a))].
  Qed.
  Lemma rmax_ge l hi : rmax R l = Ok hi -> forall x, In x l -> (x <=? hi) = true.
  Proof.
    destruct l as [|a l]; [discriminate|]. cbn [rmax]. intros [= <-].
    assert (G : forall (l : list R) (a : R), (a <=? fold_left (fun a b => if a <=? b then b else a) l a) = true /\ forall x, In x l -> (x <=? fold_left (fun a b => if a <=? b then b else a) l a) = true).
    { clear. induction l as [|b l IH]; intros a; cbn [fold_left In]; [split; [apply ole_refl|tauto]|]. destruct (IH (if a <=? b then b else a)) as (K1 & K2).
      assert (L : (a <=? (if a <=? b then b else a)) = true /\ (b <=? (if a <=? b then b else a)) = true) by (destruct (a <=? b) eqn:E; [split; [exact E|apply ole_refl]|split; [apply ole_refl|destruct (ole_total R a b); congruence]]).
      split; [eapply ole_trans; [apply L|exact K1]|]. intros x [<-|Hx]; [eapply ole_trans; [apply L|exact K1]|auto]. }
    intros x [<-|Hx]; [apply (proj1 (G l a))|now apply (proj2 (G l a))].
  Qed.

  Lemma urchin_coarse inv min_rad coarse points radii lo hi : strict_products R -> right_inv R inv -> (0 : R) <? 1 = true ->
    rmin R coarse = Ok lo -> rmax R coarse = Ok hi -> lo <> hi -> incl points coarse -> urchin_radii R inv min_rad coarse points = Ok radii ->
    Forall (fun x => (min_rad <=? x) = true /\ (x <=? min_rad + 1) = true) radii.
  Proof.
    intros Hpos Hinv H1 Hlo Hhi Hne Hin H. unfold urchin_radii in H. rewrite Hlo, Hhi in H. cbn [bind] in H. injection H as <-.
    assert (Hle : (lo <=? hi) = true). { destruct coarse as [|a l]; [discriminate|]. eapply ole_trans; [apply (rmin_le _ _ Hlo a); now left|apply (rmax_ge _ _ Hhi a); now left]. }
    assert (Hd : hi - lo <> 0) by (intros E; apply Hne; transitivity (lo + (hi - lo)); [rewrite E; ring|ring]).
    assert (Hdp : 0 <? hi - lo = true). { destruct (ne_cases R _ Hd) as [K|K]; auto. exfalso. apply Hd. apply le_diff in Hle. apply (ole_antisym R); auto. apply olt_nle in K. apply diff_le. now replace (0 - (hi - lo)) with (- (hi - lo)) by ring. }
    pose proof (olt_nle R _ _ (inv_pos R Hpos inv Hinv _ H1 Hdp)) as Hi.
    apply Forall_forall. intros y Hy. apply in_map_iff in Hy as (x & <- & Hx). apply Hin in Hx. pose proof (rmin_le _ _ Hlo x Hx) as A. pose proof (rmax_ge _ _ Hhi x Hx) as B. unfold urchin_radius. apply le_diff in A, B. split; apply diff_le.
    - replace (min_rad + (x - lo) * inv (hi - lo) - min_rad) with ((x - lo) * inv (hi - lo)) by ring. now apply ole_mul.
    - replace (min_rad + 1 - (min_rad + (x - lo) * inv (hi - lo))) with ((hi - x) * inv (hi - lo)) by (transitivity ((hi - lo) * inv (hi - lo) - (x - lo) * inv (hi - lo)); [ring|rewrite (Hinv _ Hd); ring]). now apply ole_mul.
  Qed.
End Urchin.

(** *** Warping *)
Section Warp.
  Variable R : ocring.
  Context {A : Type}.
  Add Ring Rc4 : (rth R).
  Local Open Scope cring_scope.
  Variables (sqrt inv : R -> R).
  Hypothesis Hpos : strict_products R.
  Hypothesis Hone : (0 : R) <? 1 = true.
  Hypothesis Hsqrt : right_sqrt R sqrt.
  Hypothesis Hinv : right_inv R inv.

  Lemma quotient_ok (e m : R) : (0 <=? m) = true -> m <> 0 -> quotient R inv e m = Fin R (e * inv m) /\ forall tol, (e * inv m <=? tol) = true -> (e <=? tol * m) = true.
  Proof.
    intros Hm Hn. unfold quotient. rewrite Hm. destruct (m <=? 0) eqn:E; [exfalso; apply Hn; now apply (ole_antisym R)|]. cbn [andb]. split; auto. intros tol H.
    apply le_diff in H. apply diff_le. replace (tol * m - e) with (m * (tol - e * inv m)) by (transitivity (tol * m - e * (m * inv m)); [ring|rewrite (Hinv m Hn); ring]). now apply ole_mul.
  Qed.

  Lemma fmax_fins l (x : R) : exists y, fold_left (fmax R) (map (Fin R) l) (Fin R x) = Fin R y /\ (x <=? y) = true /\ Forall (fun z => (z <=? y) = true) l.
  Proof.
    revert x; induction l as [|a l IH]; intros x; cbn [map fold_left].
    - exists x. repeat split; auto. apply ole_refl.
    - cbn [fmax]. destruct (IH (if x <=? a then a else x)) as (y & -> & K1 & K2). exists y.
      assert (L : (x <=? (if x <=? a then a else x)) = true /\ (a <=? (if x <=? a then a else x)) = true) by (destruct (x <=? a) eqn:E; [split; [exact E|apply ole_refl]|split; [apply ole_refl|destruct (ole_total R x a); congruence]]).
      split; auto. split; [eapply ole_trans; [apply L|exact K1]|]. constructor; auto. eapply ole_trans; [apply L|exact K1].
  Qed.

  Lemma coeff_norm_nonneg mat axis : (0 <=? coeff_norm R sqrt mat axis) = true.
  Proof. unfold coeff_norm. cbv zeta. apply Hsqrt. apply sum_squares_nonneg. Qed.

  Lemma rel_error_resolved vdm est (x : enodes R) e tol : rel_error R sqrt inv vdm est x = Ok e -> exceeds R e tol = false ->
    Forall (fun axis => coeff_norm R sqrt vdm axis <> 0) x -> resolved R (coeff_norm R sqrt est) (coeff_norm R sqrt vdm) tol x.
  Proof.
    intros H He Hn. unfold rel_error in H. destruct x as [|a x]; [constructor|]. cbn [map max_fl] in H. injection H as <-.
    assert (E : forall l, Forall (fun axis => coeff_norm R sqrt vdm axis <> 0) l ->
              map (fun axis => quotient R inv (coeff_norm R sqrt est axis) (coeff_norm R sqrt vdm axis)) l = map (Fin R) (map (fun axis => coeff_norm R sqrt est axis * inv (coeff_norm R sqrt vdm axis)) l)).
    { intros l Hl. rewrite map_map. apply map_ext_in. intros ax Hin. rewrite Forall_forall in Hl. apply quotient_ok; auto. apply coeff_norm_nonneg. }
    inversion Hn as [|? ? Ha Hx]; subst. rewrite E in He by exact Hx. rewrite (proj1 (quotient_ok _ _ (coeff_norm_nonneg vdm a) Ha)) in He.
    match type of He with exceeds R (fold_left _ (map _ ?l) (Fin R ?y)) _ = _ => destruct (fmax_fins l y) as (z & Hz & K1 & K2) end. rewrite Hz in He. cbn [exceeds] in He.
    assert (Hzt : (z <=? tol) = true) by (unfold olt in He; now apply negb_false_iff in He).
    constructor.
    - apply (quotient_ok _ _ (coeff_norm_nonneg vdm a) Ha). eapply ole_trans; eauto.
    - apply Forall_forall. intros ax Hin. rewrite Forall_forall in Hx. apply (quotient_ok _ _ (coeff_norm_nonneg vdm ax) (Hx ax Hin)). eapply ole_trans; [|exact Hzt]. rewrite Forall_forall in K2. apply K2. apply (in_map (fun axis => coeff_norm R sqrt est axis * inv (coeff_norm R sqrt vdm axis))). exact Hin.
  Qed.

  Lemma fmax_nan l : fold_left (fmax R) l (NaN R) = NaN R.
  Proof. induction l as [|a l IH]; [reflexivity|]. cbn [fold_left]. exact IH. Qed.
  Lemma fmax_nan_in l x : In (NaN R) l -> fold_left (fmax R) l x = NaN R.
  Proof.
    revert x; induction l as [|a l IH]; intros x Hin; [destruct Hin|]. cbn [fold_left]. destruct Hin as [->|Hin]; [|auto]. replace (fmax R x (NaN R)) with (NaN R) by (destruct x; reflexivity). apply fmax_nan.
  Qed.

  (** an axis on which all coordinates are zero *)
  Lemma zero_axis vdm est (x : enodes R) n tol : In (zeros n) x -> exists e, rel_error R sqrt inv vdm est x = Ok e /\ exceeds R e tol = false.
  Proof.
    intros Hin. exists (NaN R). split; [|reflexivity].
    assert (Z : forall mat, coeff_norm R sqrt mat (zeros n) = 0).
    { intros mat. unfold coeff_norm. cbv zeta.
      assert (E : matvec mat (zeros n) = (zeros (length mat) : list R)). { unfold matvec. clear. induction mat as [|row mat IH]; [reflexivity|]. cbn [map length]. change (zeros (R := R) (S (length mat))) with ((0 : R) :: zeros (length mat)). rewrite IH. f_equal. rewrite dot_comm. apply dot_zeros. }
      rewrite E, dot_zeros. destruct (Hsqrt 0 (ole_refl R 0)) as (K & _).
      destruct (0 <=? sqrt 0) eqn:E1, (sqrt 0 <=? 0) eqn:E2; try (now apply (ole_antisym R)).
      - exfalso. assert (Hb : sqrt 0 <> 0) by (intros Q; rewrite Q, ole_refl in E2; discriminate). apply (lt_ne R _ (square_pos R Hpos _ Hb)). exact K.
      - exfalso. assert (Hb : sqrt 0 <> 0) by (intros Q; rewrite Q, ole_refl in E1; discriminate). apply (lt_ne R _ (square_pos R Hpos _ Hb)). exact K.
      - exfalso. destruct (ole_total R 0 (sqrt 0)); congruence. }
    assert (Q : quotient R inv (coeff_norm R sqrt est (zeros n)) (coeff_norm R sqrt vdm (zeros n)) = NaN R) by (rewrite !Z; unfold quotient; rewrite !ole_refl; reflexivity).
    unfold rel_error. destruct x as [|a x]; [destruct Hin|]. cbn [map max_fl]. f_equal. destruct Hin as [->|Hin].
    - rewrite Q. apply fmax_nan.
    - apply fmax_nan_in. rewrite <- Q. now apply (in_map (fun axis => quotient R inv (coeff_norm R sqrt est axis) (coeff_norm R sqrt vdm axis))).
  Qed.

  Variables (vdm_inv est : egroup (enodes R) -> list (list R)).
  Variables (tess : egroup (enodes R) -> tess) (midpoints : egroup (enodes R) -> nat -> list (list R)) (child_nodes : egroup (enodes R) -> nat -> list (enodes R)).
  Variables (warp : mesh (enodes R) A (list R) -> res (mesh (enodes R) A (list R))) (finite : list R -> bool) (finite_nodes : enodes R -> bool) (tol : R).

  Lemma flags_resolved m flags : refine_flags R sqrt inv vdm_inv est warp finite finite_nodes tol m = Ok flags -> existsb (fun b => b) flags = false ->
    exists w, warp m = Ok w /\ (exists vs, m_vertices w = Some vs /\ Forall (fun v => finite v = true) vs) /\
      Forall (fun g => Forall (fun x => finite_nodes x = true) (eg_nodes g)) (m_groups w) /\
      Forall (fun g => Forall (fun x => Forall (fun axis => coeff_norm R sqrt (vdm_inv g) axis <> 0) x ->
        resolved R (coeff_norm R sqrt (est g)) (coeff_norm R sqrt (vdm_inv g)) tol x) (eg_nodes g)) (m_groups w).
  Proof.
    intros H Hf. unfold refine_flags in H. apply bind_ok in H as (w & Hw & H). apply bind_ok in H as (vs & Hv & H). apply bind_ok in H as (u1 & H1 & H). apply bind_ok in H as (u2 & H2 & H). apply bind_ok in H as (fs & Hfs & H). apply bind_ok in H as (u3 & _ & H). injection H as <-.
    exists w. split; auto. split.
    { destruct (m_vertices w) as [vs'|]; [|discriminate]. injection Hv as ->. exists vs. split; auto. unfold guard in H1. destruct (forallb finite vs) eqn:E; [|discriminate]. apply Forall_forall. now apply forallb_forall. }
    split.
    { unfold guard in H2. destruct (forallb _ (m_groups w)) eqn:E; [|discriminate]. apply Forall_forall. intros g Hg. rewrite forallb_forall in E. specialize (E g Hg). apply Forall_forall. now apply forallb_forall. }
    apply mapM_ok in Hfs. apply Forall_forall. intros g Hg. apply (Forall2_In_l _ _ _ _ Hfs) in Hg as (fl & Hfl & E). apply mapM_ok in E. apply Forall_forall. intros x Hx Hn.
    apply (Forall2_In_l _ _ _ _ E) in Hx as (b & Hb & Eb). apply bind_ok in Eb as (e & He & Eb). injection Eb as Eb. apply (rel_error_resolved _ _ _ e); auto. rewrite Eb.
    destruct b; auto. exfalso. assert (K : existsb (fun b => b) (concat fs) = true); [|congruence]. apply existsb_exists. exists true. split; auto. apply in_concat. eauto.
  Qed.

  Lemma loop_resolved fuel r r' : warp_loop R sqrt inv vdm_inv est tess midpoints child_nodes warp finite finite_nodes tol fuel r = Ok r' ->
    exists flags, refine_flags R sqrt inv vdm_inv est warp finite finite_nodes tol (rf_current r') = Ok flags /\ existsb (fun b => b) flags = false.
  Proof.
    revert r; induction fuel as [|fuel IH]; intros r H; cbn [warp_loop] in H; [discriminate|]. apply bind_ok in H as (flags & Hf & H). destruct (existsb _ flags) eqn:E.
    - apply bind_ok in H as (r1 & _ & H). eauto.
    - injection H as <-. eauto.
  Qed.
End Warp.
