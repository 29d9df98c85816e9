(** * CurveProofs: lemmas for CurveProps. *)
From Coq Require Import List Reals Lra Lia.
From Verif Require Import Np CurveModel CurveSpec.
Import ListNotations.
Local Open Scope R_scope.

(** ** Periods *)
Lemma cos_turn x (k : nat) : cos (x + 2 * INR k * PI) = cos x.
Proof. apply cos_period. Qed.
Lemma sin_turn x (k : nat) : sin (x + 2 * INR k * PI) = sin x.
Proof. apply sin_period. Qed.
Lemma cos_turn' x y (k : nat) : y = x + 2 * INR k * PI -> cos y = cos x.
Proof. intros ->. apply cos_period. Qed.
Lemma sin_turn' x y (k : nat) : y = x + 2 * INR k * PI -> sin y = sin x.
Proof. intros ->. apply sin_period. Qed.

(** ** Derivatives *)
Lemma deriv_ext f g x l : (forall y, f y = g y) -> derivable_pt_lim f x l -> derivable_pt_lim g x l.
Proof. intros E H e He. destruct (H e He) as (d & Hd). exists d. intros h H1 H2. rewrite <- !E. now apply Hd. Qed.
Lemma deriv_val f x l l' : derivable_pt_lim f x l -> l = l' -> derivable_pt_lim f x l'.
Proof. now intros H <-. Qed.
Lemma deriv_affine a b x : derivable_pt_lim (fun t => a + b * t) x b.
Proof.
  eapply deriv_val; [apply (derivable_pt_lim_plus (fun _ => a) (fun t => b * t)); [apply derivable_pt_lim_const|apply derivable_pt_lim_scal, derivable_pt_lim_id]|ring].
Qed.
Lemma deriv_comp f g x d d' : derivable_pt_lim f x d -> derivable_pt_lim g (f x) d' -> derivable_pt_lim (fun t => g (f t)) x (d' * d).
Proof. intros H1 H2. exact (derivable_pt_lim_comp f g x d d' H1 H2). Qed.
Lemma deriv_add f g x d d' : derivable_pt_lim f x d -> derivable_pt_lim g x d' -> derivable_pt_lim (fun t => f t + g t) x (d + d').
Proof. intros H1 H2. exact (derivable_pt_lim_plus f g x d d' H1 H2). Qed.
Lemma deriv_sub f g x d d' : derivable_pt_lim f x d -> derivable_pt_lim g x d' -> derivable_pt_lim (fun t => f t - g t) x (d - d').
Proof. intros H1 H2. exact (derivable_pt_lim_minus f g x d d' H1 H2). Qed.
Lemma deriv_mul f g x d d' : derivable_pt_lim f x d -> derivable_pt_lim g x d' -> derivable_pt_lim (fun t => f t * g t) x (d * g x + f x * d').
Proof. intros H1 H2. exact (derivable_pt_lim_mult f g x d d' H1 H2). Qed.
Lemma deriv_scal a f x d : derivable_pt_lim f x d -> derivable_pt_lim (fun t => a * f t) x (a * d).
Proof. intros H1. exact (derivable_pt_lim_scal f a x d H1). Qed.
Lemma deriv_const a x : derivable_pt_lim (fun _ => a) x 0.
Proof. apply derivable_pt_lim_const. Qed.
Lemma deriv_id x : derivable_pt_lim (fun t => t) x 1.
Proof. apply derivable_pt_lim_id. Qed.
Lemma deriv_cos f x d : derivable_pt_lim f x d -> derivable_pt_lim (fun t => cos (f t)) x (- sin (f x) * d).
Proof. intros H. apply (deriv_comp f cos); [exact H|apply derivable_pt_lim_cos]. Qed.
Lemma deriv_sin f x d : derivable_pt_lim f x d -> derivable_pt_lim (fun t => sin (f t)) x (cos (f x) * d).
Proof. intros H. apply (deriv_comp f sin); [exact H|apply derivable_pt_lim_sin]. Qed.

Ltac deriv := repeat first [apply deriv_add | apply deriv_sub | apply deriv_scal | apply deriv_cos | apply deriv_sin | apply deriv_mul | apply deriv_id | apply deriv_const].

Lemma sin2_cos2' x : sin x * sin x + cos x * cos x = 1.
Proof. pose proof (sin2_cos2 x) as H. unfold Rsqr in H. exact H. Qed.

(** ** Pieces *)

(** two functions that agree in value and derivative at the joint *)
Definition glue {A} (a : R) (g h : R -> A) (t : R) : A := if Rlt_dec t a then g t else h t.
Lemma glue_deriv a g h g' h' : (forall t, derivable_pt_lim g t (g' t)) -> (forall t, derivable_pt_lim h t (h' t)) -> g a = h a -> g' a = h' a ->
  forall t, derivable_pt_lim (glue a g h) t (glue a g' h' t).
Proof.
  intros Hg Hh E E' t e He. destruct (Rtotal_order t a) as [Ht|[Ht|Ht]].
  - destruct (Hg t e He) as (d & Hd). assert (Hm : 0 < Rmin d (a - t)) by (apply Rmin_glb_lt; [apply cond_pos|lra]). exists (mkposreal _ Hm). cbn [pos]. intros k Hk Hk'.
    assert (Hk1 : Rabs k < d) by (eapply Rlt_le_trans; [exact Hk'|apply Rmin_l]). assert (Hk2 : Rabs k < a - t) by (eapply Rlt_le_trans; [exact Hk'|apply Rmin_r]). apply Rabs_def2 in Hk2.
    unfold glue. destruct (Rlt_dec (t + k) a); [|lra]. destruct (Rlt_dec t a); [|lra]. now apply Hd.
  - subst t. destruct (Hg a e He) as (d & Hd). destruct (Hh a e He) as (d' & Hd'). assert (Hm : 0 < Rmin d d') by (apply Rmin_glb_lt; apply cond_pos). exists (mkposreal _ Hm). cbn [pos]. intros k Hk Hk'.
    assert (Hk1 : Rabs k < d) by (eapply Rlt_le_trans; [exact Hk'|apply Rmin_l]). assert (Hk2 : Rabs k < d') by (eapply Rlt_le_trans; [exact Hk'|apply Rmin_r]).
    unfold glue. destruct (Rlt_dec a a); [lra|]. destruct (Rlt_dec (a + k) a); [rewrite <- E, <- E'; now apply Hd|now apply Hd'].
  - destruct (Hh t e He) as (d & Hd). assert (Hm : 0 < Rmin d (t - a)) by (apply Rmin_glb_lt; [apply cond_pos|lra]). exists (mkposreal _ Hm). cbn [pos]. intros k Hk Hk'.
    assert (Hk1 : Rabs k < d) by (eapply Rlt_le_trans; [exact Hk'|apply Rmin_l]). assert (Hk2 : Rabs k < t - a) by (eapply Rlt_le_trans; [exact Hk'|apply Rmin_r]). apply Rabs_def2 in Hk2.
    unfold glue. destruct (Rlt_dec (t + k) a); [lra|]. destruct (Rlt_dec t a); [lra|]. now apply Hd.
Qed.

(** an arc: c + r (cos, sin)(w + u t) *)
Definition arc (c : R * R) (r w u t : R) : R * R := (fst c + r * cos (w + u * t), snd c + r * sin (w + u * t)).
Definition arc' (r w u t : R) : R * R := (- (r * u) * sin (w + u * t), r * u * cos (w + u * t)).
Lemma arc_velocity c r w u t : velocity (arc c r w u) t (arc' r w u t).
Proof.
  unfold velocity, arc, arc'. cbn [fst snd]. split.
  - eapply deriv_val; [apply deriv_add; [apply deriv_const|apply deriv_scal, deriv_cos, deriv_affine]|cbn beta; ring].
  - eapply deriv_val; [apply deriv_add; [apply deriv_const|apply deriv_scal, deriv_sin, deriv_affine]|cbn beta; ring].
Qed.
Lemma arc_speed r w u t : norm2 (arc' r w u t) = (r * u) * (r * u).
Proof.
  unfold norm2, arc'. cbn [fst snd]. set (x := w + u * t). replace (- (r * u) * sin x * (- (r * u) * sin x) + r * u * cos x * (r * u * cos x)) with (r * u * (r * u) * (sin x * sin x + cos x * cos x)) by ring.
  rewrite sin2_cos2'. ring.
Qed.
Lemma arc_on_circle c r w u t : on_circle c r (arc c r w u t).
Proof.
  unfold on_circle, norm2, arc. cbn [fst snd]. set (x := w + u * t).
  transitivity (r * r * (sin x * sin x + cos x * cos x)); [ring|]. rewrite sin2_cos2'. ring.
Qed.
(** ** Functions that do not grow faster than their argument *)
Lemma sin_lipschitz_pos x : 0 <= x -> - x <= sin x <= x.
Proof.
  intros H. destruct (Req_dec x 0) as [->|Hx]; [rewrite sin_0; lra|]. pose proof (sin_lt_x x ltac:(lra)) as H1.
  destruct (Rle_lt_dec x 1) as [H2|H2].
  - assert (0 <= sin x) by (apply sin_ge_0; [lra|]; pose proof PI_RGT_0; pose proof PI2_1; lra). lra.
  - pose proof (SIN_bound x). lra.
Qed.
Lemma sin_abs x : Rabs (sin x) <= Rabs x.
Proof.
  destruct (Rle_lt_dec 0 x) as [H|H].
  - rewrite (Rabs_right x) by lra. apply Rabs_le. pose proof (sin_lipschitz_pos x H). lra.
  - rewrite (Rabs_left x) by lra. replace x with (- - x) at 1 by ring. rewrite sin_neg, Rabs_Ropp. apply Rabs_le. pose proof (sin_lipschitz_pos (- x) ltac:(lra)). lra.
Qed.
Lemma sin_lipschitz x y : Rabs (sin x - sin y) <= Rabs (x - y).
Proof.
  replace (sin x - sin y) with (2 * cos ((x + y) / 2) * sin ((x - y) / 2)) by (rewrite form4; field_simplify; reflexivity).
  rewrite !Rabs_mult, (Rabs_right 2) by lra. pose proof (sin_abs ((x - y) / 2)) as H1. assert (H2 : Rabs (cos ((x + y) / 2)) <= 1) by (apply Rabs_le; pose proof (COS_bound ((x + y) / 2)); lra).
  assert (H3 : Rabs ((x - y) / 2) = Rabs (x - y) / 2) by (unfold Rdiv; rewrite Rabs_mult, (Rabs_right (/ 2)); lra). rewrite H3 in H1.
  pose proof (Rabs_pos (cos ((x + y) / 2))). pose proof (Rabs_pos (sin ((x - y) / 2))). pose proof (Rabs_pos (x - y)). nra.
Qed.
Lemma cos_lipschitz x y : Rabs (cos x - cos y) <= Rabs (x - y).
Proof. rewrite !cos_sin. replace (x - y) with (PI / 2 + x - (PI / 2 + y)) by ring. apply sin_lipschitz. Qed.

(** ** Angles *)
Lemma angle_unique x y : 0 <= x < 2 * PI -> 0 <= y < 2 * PI -> cos x = cos y -> sin x = sin y -> x = y.
Proof.
  intros Hx Hy Hc Hs. assert (H : cos (x - y) = 1) by (rewrite cos_minus, Hc, Hs; pose proof (sin2_cos2' y); lra).
  assert (H' : sin (x - y) = 0) by (rewrite sin_minus, Hc, Hs; ring).
  assert (Hh : sin ((x - y) / 2) = 0).
  { replace (x - y) with (2 * ((x - y) / 2)) in H by field. rewrite cos_2a_sin in H. nra. }
  destruct (Rtotal_order x y) as [Hl|[E|Hl]]; [|exact E|].
  - exfalso. assert (0 < sin ((y - x) / 2)) by (apply sin_gt_0; lra). replace ((x - y) / 2) with (- ((y - x) / 2)) in Hh by field. rewrite sin_neg in Hh. lra.
  - exfalso. assert (0 < sin ((x - y) / 2)) by (apply sin_gt_0; lra). lra.
Qed.
Lemma turn_unique s t : 0 <= s < 1 -> 0 <= t < 1 -> cos (2 * PI * s) = cos (2 * PI * t) -> sin (2 * PI * s) = sin (2 * PI * t) -> s = t.
Proof.
  intros Hs Ht Hc Hi. pose proof PI_RGT_0 as Hp. assert (E : 2 * PI * s = 2 * PI * t) by (apply angle_unique; try assumption; split; nra). nra.
Qed.
Lemma cos_unique x y : 0 <= x <= PI -> 0 <= y <= PI -> cos x = cos y -> x = y.
Proof.
  intros Hx Hy E. destruct (Rtotal_order x y) as [Hl|[?|Hl]]; [|assumption|].
  - pose proof (cos_decreasing_1 x y ltac:(lra) ltac:(lra) ltac:(lra) ltac:(lra) Hl). lra.
  - pose proof (cos_decreasing_1 y x ltac:(lra) ltac:(lra) ltac:(lra) ltac:(lra) Hl). lra.
Qed.
Lemma norm2_pos x y : (x = 0 -> y = 0 -> False) -> 0 < norm2 (x, y).
Proof.
  intros H. unfold norm2. cbn [fst snd]. destruct (Req_dec x 0) as [->|Hx]; [|nra]. destruct (Req_dec y 0) as [->|Hy]; [|nra]. exfalso; auto.
Qed.

Lemma div_inj x y a : a <> 0 -> x / a = y / a -> x = y.
Proof. intros Ha E. apply (Rmult_eq_reg_r (/ a)); [exact E|now apply Rinv_neq_0_compat]. Qed.

(** ** The closed curves *)
Ltac turn k := first [apply (cos_turn' _ _ k) | apply (sin_turn' _ _ k)]; cbn [INR]; ring.

Lemma ellipse_periodic a : periodic (ellipse a).
Proof.
  intros t. unfold ellipse. cbv zeta. replace (cos ((t + 1) * (2 * PI))) with (cos (t * (2 * PI))) by (symmetry; turn 1%nat).
  replace (sin ((t + 1) * (2 * PI))) with (sin (t * (2 * PI))) by (symmetry; turn 1%nat). reflexivity.
Qed.
Lemma ellipse_regular a : a <> 0 -> regular (ellipse a).
Proof.
  intros Ha t. exists (- sin (t * (2 * PI)) * (2 * PI), cos (t * (2 * PI)) / a * (2 * PI)). split.
  - unfold velocity, ellipse. cbn [fst snd]. split.
    + eapply deriv_val; [apply deriv_cos, deriv_mul; [apply deriv_id|apply deriv_const]|cbn beta; ring].
    + eapply deriv_val; [apply deriv_mul; [apply deriv_sin, deriv_mul; [apply deriv_id|apply deriv_const]|apply deriv_const]|cbn beta; field; exact Ha].
  - pose proof PI_RGT_0 as Hp. apply norm2_pos. intros H1 H2. assert (Hs : sin (t * (2 * PI)) = 0) by nra.
    assert (Hc : cos (t * (2 * PI)) = 0) by (apply Rmult_integral in H2 as [H2|H2]; [apply (div_inj _ 0 a Ha); lra|lra]).
    pose proof (sin2_cos2' (t * (2 * PI))). rewrite Hs, Hc in H. lra.
Qed.
Lemma ellipse_simple a : a <> 0 -> simple (ellipse a).
Proof.
  intros Ha s t Hs Ht E. unfold ellipse in E. cbv zeta in E. injection E as E1 E2. apply div_inj in E2; [|exact Ha].
  rewrite !(Rmult_comm _ (2 * PI)) in *. now apply turn_unique.
Qed.
Lemma ellipse_equation a t : a <> 0 -> fst (ellipse a t) * fst (ellipse a t) + (a * snd (ellipse a t)) * (a * snd (ellipse a t)) = 1.
Proof.
  intros Ha. unfold ellipse. cbn [fst snd]. replace (a * (sin (t * (2 * PI)) / a)) with (sin (t * (2 * PI))) by (field; exact Ha). pose proof (sin2_cos2' (t * (2 * PI))). lra.
Qed.

(** the complex number z = cos + i sin: a polynomial of z whose derivative is dominated by the first coefficient is injective *)
Lemma apple_periodic a : periodic (apple a).
Proof.
  intros t. unfold apple. cbv zeta. replace (cos ((t + 1) * (2 * PI))) with (cos (t * (2 * PI))) by (symmetry; turn 1%nat).
  replace (sin ((t + 1) * (2 * PI))) with (sin (t * (2 * PI))) by (symmetry; turn 1%nat).
  replace (cos (2 * ((t + 1) * (2 * PI)))) with (cos (2 * (t * (2 * PI)))) by (symmetry; turn 2%nat).
  replace (sin (2 * ((t + 1) * (2 * PI)))) with (sin (2 * (t * (2 * PI)))) by (symmetry; turn 2%nat). reflexivity.
Qed.
Lemma apple_velocity a t : velocity (apple a) t (- (2 * PI) * (sin (t * (2 * PI)) + 2 * a * sin (2 * (t * (2 * PI)))), 2 * PI * (cos (t * (2 * PI)) + 2 * a * cos (2 * (t * (2 * PI))))).
Proof.
  unfold velocity, apple. cbn [fst snd]. split.
  - eapply deriv_val; [apply deriv_add; [apply deriv_cos, deriv_mul; [apply deriv_id|apply deriv_const]|apply deriv_scal, deriv_cos, deriv_scal, deriv_mul; [apply deriv_id|apply deriv_const]]|cbn beta; ring].
  - eapply deriv_val; [apply deriv_add; [apply deriv_sin, deriv_mul; [apply deriv_id|apply deriv_const]|apply deriv_scal, deriv_sin, deriv_scal, deriv_mul; [apply deriv_id|apply deriv_const]]|cbn beta; ring].
Qed.
Lemma apple_regular a : - (1 / 2) < a < 1 / 2 -> regular (apple a).
Proof.
  intros Ha t. eexists. split; [apply apple_velocity|]. set (x := t * (2 * PI)). pose proof PI_RGT_0 as Hp. apply norm2_pos. intros H1 H2.
  assert (E1 : sin x + 2 * a * sin (2 * x) = 0) by nra. assert (E2 : cos x + 2 * a * cos (2 * x) = 0) by nra.
  pose proof (sin2_cos2' x) as U. pose proof (sin2_cos2' (2 * x)) as V.
  assert (E : sin x * sin x + cos x * cos x = 4 * (a * a) * (sin (2 * x) * sin (2 * x) + cos (2 * x) * cos (2 * x))).
  { replace (sin x) with (- (2 * a * sin (2 * x))) by lra. replace (cos x) with (- (2 * a * cos (2 * x))) by lra. ring. }
  rewrite U, V in E. nra.
Qed.
Lemma unit_bound c s c' s' : s * s + c * c = 1 -> s' * s' + c' * c' = 1 -> c * c' + s * s' <= 1.
Proof. intros. pose proof (Rle_0_sqr (c - c')) as H1. pose proof (Rle_0_sqr (s - s')) as H2. unfold Rsqr in *. lra. Qed.
(** p = - a p g with |a g| < 1 *)
Lemma contraction a p q u v m : p = - a * (p * u - q * v) -> q = - a * (p * v + q * u) -> u * u + v * v <= m -> a * a * m < 1 -> p = 0 /\ q = 0.
Proof.
  intros F1 F2 W A.
  assert (N : p * p + q * q = a * a * (u * u + v * v) * (p * p + q * q)).
  { transitivity ((- a * (p * u - q * v)) * (- a * (p * u - q * v)) + (- a * (p * v + q * u)) * (- a * (p * v + q * u))); [now rewrite <- F1, <- F2|ring]. }
  assert (Z : p * p + q * q = 0).
  { destruct (Rle_lt_dec (p * p + q * q) 0) as [H|H]; [nra|]. exfalso. assert (a * a * (u * u + v * v) <= a * a * m) by nra. nra. }
  split; nra.
Qed.
Lemma unit_sq c s : s * s + c * c = 1 -> (2 * s * c) * (2 * s * c) + (c * c - s * s) * (c * c - s * s) = 1.
Proof. intros H. transitivity ((s * s + c * c) * (s * s + c * c)); [ring|]. rewrite H. ring. Qed.
Lemma unit_mul c s c' s' : s * s + c * c = 1 -> s' * s' + c' * c' = 1 -> (c * s' + s * c') * (c * s' + s * c') + (c * c' - s * s') * (c * c' - s * s') = 1.
Proof. intros H H'. transitivity ((s * s + c * c) * (s' * s' + c' * c')); [ring|]. rewrite H, H'. ring. Qed.
Lemma apple_unit a sx cx sy cy : - (1 / 2) < a < 1 / 2 -> sx * sx + cx * cx = 1 -> sy * sy + cy * cy = 1 ->
  cx + a * (cx * cx - sx * sx) = cy + a * (cy * cy - sy * sy) -> sx + a * (2 * sx * cx) = sy + a * (2 * sy * cy) -> cx = cy /\ sx = sy.
Proof.
  intros Ha U V E1 E2. destruct (contraction a (cx - cy) (sx - sy) (cx + cy) (sx + sy) 4) as (P & Q); [lra|lra|pose proof (unit_bound cx sx cy sy U V); lra|nra|lra].
Qed.
Lemma apple_simple a : - (1 / 2) < a < 1 / 2 -> simple (apple a).
Proof.
  intros Ha s t Hs Ht E. unfold apple in E. cbv zeta in E. injection E as E1 E2. rewrite !(Rmult_comm _ (2 * PI)) in *.
  rewrite !cos_2a, !sin_2a in *. pose proof (sin2_cos2' (2 * PI * s)) as U. pose proof (sin2_cos2' (2 * PI * t)) as V.
  destruct (apple_unit a _ _ _ _ Ha U V E1 E2) as (C & S). now apply turn_unique.
Qed.

Lemma sin_3a x : sin (3 * x) = 3 * (cos x * cos x) * sin x - sin x * sin x * sin x.
Proof. replace (3 * x) with (2 * x + x) by ring. rewrite sin_plus, cos_2a, sin_2a. ring. Qed.
Lemma cos_3a x : cos (3 * x) = cos x * cos x * cos x - 3 * cos x * (sin x * sin x).
Proof. replace (3 * x) with (2 * x + x) by ring. rewrite cos_plus, cos_2a, sin_2a. ring. Qed.
Lemma cloverleaf_periodic : periodic cloverleaf.
Proof.
  intros t. unfold cloverleaf. cbv zeta. replace (cos ((t + 1) * (2 * PI))) with (cos (t * (2 * PI))) by (symmetry; turn 1%nat).
  replace (sin ((t + 1) * (2 * PI))) with (sin (t * (2 * PI))) by (symmetry; turn 1%nat).
  replace (cos (3 * ((t + 1) * (2 * PI)))) with (cos (3 * (t * (2 * PI)))) by (symmetry; turn 3%nat).
  replace (sin (3 * ((t + 1) * (2 * PI)))) with (sin (3 * (t * (2 * PI)))) by (symmetry; turn 3%nat). reflexivity.
Qed.
Lemma cloverleaf_velocity t : velocity cloverleaf t (2 * PI * (- sin (t * (2 * PI)) + 9 / 10 * cos (3 * (t * (2 * PI)))), 2 * PI * (cos (t * (2 * PI)) + 9 / 10 * sin (3 * (t * (2 * PI))))).
Proof.
  unfold velocity, cloverleaf. cbn [fst snd]. split.
  - eapply deriv_val; [apply deriv_add; [apply deriv_cos, deriv_mul; [apply deriv_id|apply deriv_const]|apply deriv_scal, deriv_sin, deriv_scal, deriv_mul; [apply deriv_id|apply deriv_const]]|cbn beta; field].
  - eapply deriv_val; [apply deriv_sub; [apply deriv_sin, deriv_mul; [apply deriv_id|apply deriv_const]|apply deriv_scal, deriv_cos, deriv_scal, deriv_mul; [apply deriv_id|apply deriv_const]]|cbn beta; field].
Qed.
Lemma cloverleaf_regular : regular cloverleaf.
Proof.
  intros t. eexists. split; [apply cloverleaf_velocity|]. set (x := t * (2 * PI)). pose proof PI_RGT_0 as Hp. apply norm2_pos. intros H1 H2.
  assert (E1 : sin x = 9 / 10 * cos (3 * x)) by nra. assert (E2 : cos x = - (9 / 10) * sin (3 * x)) by nra.
  pose proof (sin2_cos2' x) as U. pose proof (sin2_cos2' (3 * x)) as V. rewrite E1, E2 in U. nra.
Qed.
Lemma cloverleaf_unit sx cx sy cy : sx * sx + cx * cx = 1 -> sy * sy + cy * cy = 1 ->
  cx + 3 / 10 * (3 * (cx * cx) * sx - sx * sx * sx) = cy + 3 / 10 * (3 * (cy * cy) * sy - sy * sy * sy) ->
  sx - 3 / 10 * (cx * cx * cx - 3 * cx * (sx * sx)) = sy - 3 / 10 * (cy * cy * cy - 3 * cy * (sy * sy)) -> cx = cy /\ sx = sy.
Proof.
  intros U V E1 E2.
  pose (gx := (cx * cx - sx * sx) + (cx * cy - sx * sy) + (cy * cy - sy * sy)). pose (gy := 2 * sx * cx + (cx * sy + sx * cy) + 2 * sy * cy).
  assert (W : gx * gx + gy * gy <= 9).
  { pose proof (unit_sq _ _ U) as A. pose proof (unit_mul _ _ _ _ U V) as B. pose proof (unit_sq _ _ V) as C.
    pose proof (unit_bound _ _ _ _ A B). pose proof (unit_bound _ _ _ _ A C). pose proof (unit_bound _ _ _ _ B C). unfold gx, gy. lra. }
  destruct (contraction (3 / 10) (cx - cy) (sx - sy) gy (- gx) 9) as (P & Q); [unfold gx, gy; lra|unfold gx, gy; lra|lra|lra|lra].
Qed.
Lemma cloverleaf_simple : simple cloverleaf.
Proof.
  intros s t Hs Ht E. unfold cloverleaf in E. cbv zeta in E. injection E as E1 E2. rewrite !(Rmult_comm _ (2 * PI)) in *.
  rewrite !cos_3a, !sin_3a in *. pose proof (sin2_cos2' (2 * PI * s)) as U. pose proof (sin2_cos2' (2 * PI * t)) as V.
  destruct (cloverleaf_unit _ _ _ _ U V E1 E2) as (C & S). now apply turn_unique.
Qed.

Lemma drop_closed : drop 0 = drop 1.
Proof. unfold drop. cbv zeta. rewrite Rmult_0_l, Rmult_1_l, sin_0, sin_PI. f_equal. ring. Qed.
Lemma drop_regular t : 0 <= t <= 1 -> exists v, velocity drop t v /\ 0 < norm2 v.
Proof.
  intros Ht. eexists (_, _). split; [unfold velocity, drop; cbn [fst snd]; split|].
  - apply deriv_scal, deriv_sub; [apply deriv_sin, deriv_mul; [apply deriv_id|apply deriv_const]|apply deriv_const].
  - apply deriv_scal, deriv_scal, deriv_mul; [apply deriv_mul; [apply deriv_cos, deriv_mul; [apply deriv_id|apply deriv_const]|apply deriv_sub; [apply deriv_mul; [apply deriv_id|apply deriv_const]|apply deriv_const]]|apply deriv_mul; [apply deriv_id|apply deriv_const]].
  - cbn [fst snd]. cbn beta. set (x := t * PI). pose proof PI_RGT_0 as Hp. apply norm2_pos. intros H1 H2.
    assert (C : cos x = 0) by nra. rewrite C in H2. pose proof (sin2_cos2' x) as U. rewrite C in U.
    destruct (Req_dec t 0) as [->|H0]; [unfold x in C; rewrite Rmult_0_l, cos_0 in C; lra|].
    destruct (Req_dec t 1) as [->|H3]; [unfold x in C; rewrite Rmult_1_l, cos_PI in C; lra|].
    assert (S : sin x <> 0) by (intros S; rewrite S in U; lra). assert (X : 0 < x < PI) by (unfold x; split; nra).
    assert (Z : sin x * PI * ((PI - x) * x) = 0) by lra.
    apply Rmult_integral in Z as [Z|Z]; apply Rmult_integral in Z as [Z|Z]; lra.
Qed.

Lemma peanut_periodic : periodic qbx_peanut.
Proof.
  intros t. unfold qbx_peanut. cbv zeta. replace (cos (2 * PI * (t + 1) - PI / 4)) with (cos (2 * PI * t - PI / 4)) by (symmetry; turn 1%nat).
  replace (sin (2 * PI * (t + 1) - PI / 4)) with (sin (2 * PI * t - PI / 4)) by (symmetry; turn 1%nat).
  replace (sin (2 * (2 * PI * (t + 1)))) with (sin (2 * (2 * PI * t))) by (symmetry; turn 2%nat). reflexivity.
Qed.
Lemma peanut_regular : regular qbx_peanut.
Proof.
  intros t. set (x := 2 * PI * t). pose (r := 1 + 3 / 10 * sin (2 * x)). pose (r' := 3 / 10 * (2 * cos (2 * x))). pose (c := cos (x - PI / 4)). pose (s := sin (x - PI / 4)).
  exists (2 * PI * (3 / 4 * (r' * c - r * s)), 2 * PI * (r' * s + r * c)). split.
  - unfold velocity, qbx_peanut. cbn [fst snd]. split.
    + eapply deriv_val; [apply deriv_mul; [apply deriv_scal, deriv_add; [apply deriv_const|apply deriv_scal, deriv_sin, deriv_scal, deriv_scal, deriv_id]|apply deriv_cos, deriv_sub; [apply deriv_scal, deriv_id|apply deriv_const]]|cbn beta; fold x; unfold r, r', c, s; ring].
    + eapply deriv_val; [apply deriv_mul; [apply deriv_add; [apply deriv_const|apply deriv_scal, deriv_sin, deriv_scal, deriv_scal, deriv_id]|apply deriv_sin, deriv_sub; [apply deriv_scal, deriv_id|apply deriv_const]]|cbn beta; fold x; unfold r, r', c, s; ring].
  - pose proof PI_RGT_0 as Hp. apply norm2_pos. intros H1 H2. assert (E1 : r' * c - r * s = 0) by nra. assert (E2 : r' * s + r * c = 0) by nra.
    assert (U : s * s + c * c = 1) by apply sin2_cos2'. assert (R : r = (r' * s + r * c) * c - (r' * c - r * s) * s) by (transitivity (r * (s * s + c * c)); [rewrite U; ring|ring]).
    rewrite E1, E2 in R. pose proof (SIN_bound (2 * x)). unfold r in R. lra.
Qed.
Lemma peanut_simple : simple qbx_peanut.
Proof.
  intros s t Hs Ht E. unfold qbx_peanut in E. cbv zeta in E. injection E as E1 E2.
  set (r := 1 + 3 / 10 * sin (2 * (2 * PI * s))) in *. set (r' := 1 + 3 / 10 * sin (2 * (2 * PI * t))) in *.
  assert (Hr : 0 < r) by (unfold r; pose proof (SIN_bound (2 * (2 * PI * s))); lra). assert (Hr' : 0 < r') by (unfold r'; pose proof (SIN_bound (2 * (2 * PI * t))); lra).
  pose proof (sin2_cos2' (2 * PI * s - PI / 4)) as U. pose proof (sin2_cos2' (2 * PI * t - PI / 4)) as V.
  assert (E1' : r * cos (2 * PI * s - PI / 4) = r' * cos (2 * PI * t - PI / 4)) by lra.
  assert (R : r = r').
  { assert (r * r = r' * r').
    { transitivity ((r * sin (2 * PI * s - PI / 4)) * (r * sin (2 * PI * s - PI / 4)) + (r * cos (2 * PI * s - PI / 4)) * (r * cos (2 * PI * s - PI / 4))).
      - transitivity (r * r * (sin (2 * PI * s - PI / 4) * sin (2 * PI * s - PI / 4) + cos (2 * PI * s - PI / 4) * cos (2 * PI * s - PI / 4))); [rewrite U; ring|ring].
      - rewrite E1', E2. transitivity (r' * r' * (sin (2 * PI * t - PI / 4) * sin (2 * PI * t - PI / 4) + cos (2 * PI * t - PI / 4) * cos (2 * PI * t - PI / 4))); [ring|rewrite V; ring]. }
    nra. }
  rewrite <- R in *. apply Rmult_eq_reg_l in E1'; [|lra]. apply Rmult_eq_reg_l in E2; [|lra].
  apply turn_unique; try assumption.
  - replace (2 * PI * s) with (2 * PI * s - PI / 4 + PI / 4) by ring. replace (2 * PI * t) with (2 * PI * t - PI / 4 + PI / 4) by ring. rewrite !(cos_plus _ (PI / 4)), E1', E2. reflexivity.
  - replace (2 * PI * s) with (2 * PI * s - PI / 4 + PI / 4) by ring. replace (2 * PI * t) with (2 * PI * t - PI / 4 + PI / 4) by ring. rewrite !(sin_plus _ (PI / 4)), E1', E2. reflexivity.
Qed.

(** the radius of the dumbbell *)
Definition db (gamma beta : R) (p w : nat) (x : R) : R := gamma * Rpower (1 + beta / (1 - beta) * (cos x) ^ 2) (1 / INR p) + 2 / 100 * (sin (INR w * x)) ^ 2.
Lemma db_base beta c : 0 <= beta < 1 -> 0 < 1 + beta / (1 - beta) * c ^ 2.
Proof. intros H. assert (0 <= beta / (1 - beta)) by (apply Rmult_le_pos; [lra|apply Rlt_le, Rinv_0_lt_compat; lra]). nra. Qed.
Lemma db_pos gamma beta p w x : 0 < gamma -> 0 < db gamma beta p w x.
Proof. intros Hg. unfold db. assert (0 < Rpower (1 + beta / (1 - beta) * cos x ^ 2) (1 / INR p)) by apply exp_pos. nra. Qed.
Lemma db_deriv gamma beta p w x : 0 <= beta < 1 -> exists d, derivable_pt_lim (db gamma beta p w) x d.
Proof.
  intros Hb. eexists. unfold db. apply deriv_add.
  - apply deriv_scal. apply (deriv_comp (fun x => 1 + beta / (1 - beta) * cos x ^ 2) (fun z => Rpower z (1 / INR p))).
    + apply deriv_add; [apply deriv_const|]. apply deriv_scal. apply (deriv_comp cos (fun z => z ^ 2)); [apply derivable_pt_lim_cos|apply derivable_pt_lim_pow].
    + apply derivable_pt_lim_power. now apply db_base.
  - apply deriv_scal. apply (deriv_comp (fun x => sin (INR w * x)) (fun z => z ^ 2)); [apply deriv_sin, deriv_scal, deriv_id|apply derivable_pt_lim_pow].
Qed.
Lemma dumbbell_periodic gamma beta p w : periodic (wobbly_dumbbell gamma beta p w).
Proof.
  intros t. unfold wobbly_dumbbell. cbv zeta. replace (cos (2 * PI * (t + 1))) with (cos (2 * PI * t)) by (symmetry; turn 1%nat).
  replace (sin (2 * PI * (t + 1))) with (sin (2 * PI * t)) by (symmetry; turn 1%nat).
  replace (sin (INR w * (2 * PI * (t + 1)))) with (sin (INR w * (2 * PI * t))) by (symmetry; apply (sin_turn' _ _ w); ring). reflexivity.
Qed.
Lemma dumbbell_db gamma beta p w t : wobbly_dumbbell gamma beta p w t = (cos (2 * PI * t), db gamma beta p w (2 * PI * t) * sin (2 * PI * t)).
Proof. reflexivity. Qed.
Lemma dumbbell_regular gamma beta p w : 0 < gamma -> 0 <= beta < 1 -> regular (wobbly_dumbbell gamma beta p w).
Proof.
  intros Hg Hb t. destruct (db_deriv gamma beta p w (2 * PI * t) Hb) as (d & D).
  exists (- sin (2 * PI * t) * (2 * PI), d * (2 * PI) * sin (2 * PI * t) + db gamma beta p w (2 * PI * t) * (cos (2 * PI * t) * (2 * PI))). split.
  - unfold velocity. cbn [fst snd]. split.
    + eapply deriv_ext; [intros y; rewrite dumbbell_db; cbn [fst]; reflexivity|]. eapply deriv_val; [apply deriv_cos, deriv_scal, deriv_id|cbn beta; ring].
    + eapply deriv_ext; [intros y; rewrite dumbbell_db; cbn [snd]; reflexivity|]. apply (deriv_mul (fun y => db gamma beta p w (2 * PI * y)) (fun y => sin (2 * PI * y))).
      * apply (deriv_comp (fun y => 2 * PI * y) (db gamma beta p w)); [|exact D]. eapply deriv_val; [apply deriv_scal, deriv_id|ring].
      * eapply deriv_val; [apply deriv_sin, deriv_scal, deriv_id|cbn beta; ring].
  - pose proof PI_RGT_0 as Hp. apply norm2_pos. intros H1 H2. pose proof (db_pos gamma beta p w (2 * PI * t) Hg) as P. assert (S : sin (2 * PI * t) = 0) by nra.
    rewrite S in H2. pose proof (sin2_cos2' (2 * PI * t)) as U. rewrite S in U. assert (cos (2 * PI * t) <> 0) by (intros C; rewrite C in U; lra).
    assert (Z : db gamma beta p w (2 * PI * t) * (cos (2 * PI * t) * (2 * PI)) = 0) by lra.
    apply Rmult_integral in Z as [Z|Z]; [lra|]. apply Rmult_integral in Z as [Z|Z]; [contradiction|lra].
Qed.
Lemma dumbbell_simple gamma beta p w : 0 < gamma -> simple (wobbly_dumbbell gamma beta p w).
Proof.
  intros Hg s t Hs Ht E. rewrite !dumbbell_db in E. injection E as E1 E2. pose proof (db_pos gamma beta p w (2 * PI * s) Hg) as P. pose proof (db_pos gamma beta p w (2 * PI * t) Hg) as P'.
  apply turn_unique; try assumption. pose proof (sin2_cos2' (2 * PI * s)) as U. pose proof (sin2_cos2' (2 * PI * t)) as V. rewrite E1 in U.
  assert (Q : (sin (2 * PI * s) - sin (2 * PI * t)) * (sin (2 * PI * s) + sin (2 * PI * t)) = 0) by lra. apply Rmult_integral in Q as [Q|Q]; [lra|].
  assert (Z : (db gamma beta p w (2 * PI * s) + db gamma beta p w (2 * PI * t)) * sin (2 * PI * s) = 0).
  { rewrite Rmult_plus_distr_r, E2. replace (sin (2 * PI * s)) with (- sin (2 * PI * t)) by lra. ring. }
  apply Rmult_integral in Z as [Z|Z]; lra.
Qed.

(** ** The clamp *)
Lemma glue_fst {A B} a (g h : R -> A * B) t : fst (glue a g h t) = glue a (fun t => fst (g t)) (fun t => fst (h t)) t.
Proof. unfold glue. now destruct (Rlt_dec t a). Qed.
Lemma glue_snd {A B} a (g h : R -> A * B) t : snd (glue a g h t) = glue a (fun t => snd (g t)) (fun t => snd (h t)) t.
Proof. unfold glue. now destruct (Rlt_dec t a). Qed.
Lemma glue_velocity a g h g' h' : (forall t, velocity g t (g' t)) -> (forall t, velocity h t (h' t)) -> g a = h a -> g' a = h' a ->
  forall t, velocity (glue a g h) t (glue a g' h' t).
Proof.
  intros Hg Hh E E' t. split.
  - rewrite glue_fst. eapply deriv_ext; [intros y; symmetry; apply glue_fst|]. apply (glue_deriv a (fun t => fst (g t)) (fun t => fst (h t))); [intros; apply Hg|intros; apply Hh|now rewrite E|now rewrite E'].
  - rewrite glue_snd. eapply deriv_ext; [intros y; symmetry; apply glue_snd|]. apply (glue_deriv a (fun t => snd (g t)) (fun t => snd (h t))); [intros; apply Hg|intros; apply Hh|now rewrite E|now rewrite E'].
Qed.
Lemma glue_lt {A} a (g h : R -> A) t : t < a -> glue a g h t = g t.
Proof. intros H. unfold glue. destruct (Rlt_dec t a); [reflexivity|contradiction]. Qed.
Lemma glue_ge {A} a (g h : R -> A) t : a <= t -> glue a g h t = h t.
Proof. intros H. unfold glue. destruct (Rlt_dec t a); [lra|reflexivity]. Qed.

Section Clamp.
  Variables (rM rm gap : R).
  Hypothesis Hm : 0 < rm.
  Hypothesis HM : rm < rM.
  Hypothesis Hg : 0 < gap < PI.
  Definition cr := (rM - rm) / 2.
  Definition cC := (rM + rm) / 2.
  Definition cinv := 2 * PI - 2 * gap.
  Definition cL := cinv * rM + cinv * rm + 2 * PI * cr.
  Definition c1 := cinv * rM / cL.
  Definition c2 := c1 + PI * cr / cL.
  Definition c3 := c2 + cinv * rm / cL.
  Lemma cr_pos : 0 < cr. Proof. unfold cr. lra. Qed.
  Lemma cinv_pos : 0 < cinv. Proof. unfold cinv. lra. Qed.
  Lemma cL_pos : 0 < cL.
  Proof. unfold cL. pose proof cr_pos. pose proof cinv_pos. pose proof PI_RGT_0. assert (0 < cinv * rM) by nra. assert (0 < cinv * rm) by nra. assert (0 < PI * cr) by nra. lra. Qed.
  Lemma c1_pos : 0 < c1. Proof. unfold c1. pose proof cL_pos. pose proof cinv_pos. apply Rdiv_lt_0_compat; nra. Qed.
  Lemma c12 : c1 < c2. Proof. unfold c2. pose proof cL_pos. pose proof cr_pos. pose proof PI_RGT_0. assert (0 < PI * cr / cL) by (apply Rdiv_lt_0_compat; nra). lra. Qed.
  Lemma c23 : c2 < c3. Proof. unfold c3. pose proof cL_pos. pose proof cinv_pos. assert (0 < cinv * rm / cL) by (apply Rdiv_lt_0_compat; nra). lra. Qed.
  Lemma c4_one : c3 + PI * cr / cL = 1.
  Proof. unfold c3, c2, c1. pose proof cL_pos. apply (Rmult_eq_reg_r cL); [|lra]. field_simplify; [unfold cL; lra|lra]. Qed.

  Definition outer := arc (0, 0) rM gap (cL / rM).
  Definition cap0 := arc (cC * cos gap, - (cC * sin gap)) cr (- gap - cL / cr * c1) (cL / cr).
  Definition inner := arc (0, 0) rm (- gap + cL / rm * c2) (- (cL / rm)).
  Definition cap1 := arc (cC * cos gap, cC * sin gap) cr (gap + PI - cL / cr * c3) (cL / cr).
  Definition clamp_fun := glue c1 outer (glue c2 cap0 (glue c3 inner cap1)).
  Definition clamp_fun' := glue c1 (arc' rM gap (cL / rM)) (glue c2 (arc' cr (- gap - cL / cr * c1) (cL / cr))
    (glue c3 (arc' rm (- gap + cL / rm * c2) (- (cL / rm))) (arc' cr (gap + PI - cL / cr * c3) (cL / cr)))).

  Lemma clamp_ok t : clamp_piecewise rM rm gap t = Ok (clamp_fun t).
  Proof.
    pose proof PI_RGT_0 as Hp. pose proof cr_pos as Hr. pose proof cL_pos as HL. pose proof cinv_pos as Hi. pose proof c12 as H12. pose proof c23 as H23. pose proof c1_pos as H1.
    unfold clamp_piecewise. destruct (Rlt_dec 0 rM); [|lra]. destruct (Rlt_dec 0 rm); [|lra]. destruct (Rlt_dec rm rM); [|lra]. destruct (Rlt_dec 0 gap); [|lra]. destruct (Rlt_dec gap (2 * PI)); [|lra].
    assert (HrM : rM = cC + cr) by (unfold cC, cr; field). cbv zeta. fold cr cinv. fold cL. fold c1. fold c2. fold c3. rewrite c4_one.
    unfold clamp_fun, glue. f_equal. unfold mask.
    assert (D21 : c2 - c1 = PI * cr / cL) by (unfold c2; ring). assert (D32 : c3 - c2 = cinv * rm / cL) by (unfold c3; ring). assert (D43 : 1 - c3 = PI * cr / cL) by (pose proof c4_one; lra).
    destruct (Rlt_dec t c1) as [T1|T1].
    - destruct (Rge_dec t c1); [lra|]. destruct (Rge_dec t c2); [lra|]. destruct (Rge_dec t c3); [lra|].
      unfold outer, arc, plus2, times2. cbn [fst snd].
      replace (1 * (PI + cinv * (t - (c1 + 0) / 2) / (c1 - 0))) with (gap + cL / rM * t); [f_equal; ring|].
      unfold c1. replace PI with (cinv / 2 + gap) at 1 by (unfold cinv; field). field. repeat split; lra.
    - destruct (Rge_dec t c1); [|lra]. destruct (Rlt_dec t c2) as [T2|T2].
      + destruct (Rge_dec t c2); [lra|]. destruct (Rge_dec t c3); [lra|].
        unfold cap0, arc, plus2, times2, rotate. cbn [fst snd].
        replace (1 * 1 * (PI / 2 + PI * (t - (c2 + c1) / 2) / (c2 - c1))) with (cL / cr * (t - c1)).
        2:{ replace ((c2 + c1) / 2) with (c1 + (c2 - c1) / 2) by field. rewrite D21. field. repeat split; lra. }
        replace (- gap - cL / cr * c1 + cL / cr * t) with (- gap + cL / cr * (t - c1)) by ring. generalize (cL / cr * (t - c1)). intros z.
        rewrite (cos_plus (- gap) z), (sin_plus (- gap) z), !cos_neg, !sin_neg, HrM. f_equal; ring.
      + destruct (Rge_dec t c2); [|lra]. destruct (Rlt_dec t c3) as [T3|T3].
        * destruct (Rge_dec t c3); [lra|]. unfold inner, arc, plus2, times2. cbn [fst snd].
          replace (- (1 * 1) * (PI + cinv * (t - (c2 + c3) / 2) / (c3 - c2))) with (- gap + cL / rm * c2 + - (cL / rm) * t); [f_equal; ring|].
          replace ((c2 + c3) / 2) with (c2 + (c3 - c2) / 2) by field. rewrite D32. replace PI with (cinv / 2 + gap) at 1 by (unfold cinv; field). field. repeat split; lra.
        * destruct (Rge_dec t c3); [|lra]. unfold cap1, arc, plus2, times2, rotate. cbn [fst snd].
          replace (1 * (PI / 2 + PI * (t - (c3 + 1) / 2) / (1 - c3))) with (cL / cr * (t - c3)).
          2:{ replace ((c3 + 1) / 2) with (c3 + (1 - c3) / 2) by field. rewrite D43. field. repeat split; lra. }
          replace (gap + PI - cL / cr * c3 + cL / cr * t) with (PI + gap + cL / cr * (t - c3)) by ring. 
          generalize (cL / cr * (t - c3)). intros z. rewrite (cos_plus (PI + gap) z), (sin_plus (PI + gap) z), (Rplus_comm PI gap), !neg_cos, !neg_sin, HrM. f_equal; ring.
  Qed.

  Lemma a1 : cL / rM * c1 = cinv.
  Proof. unfold c1. pose proof cL_pos. field. lra. Qed.
  Lemma a2 : cL / cr * (c2 - c1) = PI.
  Proof. unfold c2. pose proof cL_pos. pose proof cr_pos. field. lra. Qed.
  Lemma a3 : cL / rm * (c3 - c2) = cinv.
  Proof. unfold c3. pose proof cL_pos. field. lra. Qed.
  Lemma a4 : cL / cr * (1 - c3) = PI.
  Proof. pose proof c4_one as E. replace (1 - c3) with (PI * cr / cL) by lra. pose proof cL_pos. pose proof cr_pos. field. lra. Qed.

  Lemma rMu : rM * (cL / rM) = cL. Proof. field. lra. Qed.
  Lemma rmu : rm * - (cL / rm) = - cL. Proof. field. lra. Qed.
  Lemma rcu : cr * (cL / cr) = cL. Proof. pose proof cr_pos. field. lra. Qed.
  Lemma cos_2g : cos (2 * PI - gap) = cos gap.
  Proof. rewrite cos_minus, cos_2PI, sin_2PI. ring. Qed.
  Lemma sin_2g : sin (2 * PI - gap) = - sin gap.
  Proof. rewrite sin_minus, cos_2PI, sin_2PI. ring. Qed.

  (** values and velocities at the joints *)
  Lemma outer_c1 : outer c1 = (rM * cos gap, - (rM * sin gap)) /\ arc' rM gap (cL / rM) c1 = (cL * sin gap, cL * cos gap).
  Proof.
    unfold outer, arc, arc'. cbn [fst snd]. rewrite a1, rMu. replace (gap + cinv) with (2 * PI - gap) by (unfold cinv; ring). rewrite cos_2g, sin_2g. split; f_equal; ring.
  Qed.
  Lemma cap0_c1 : cap0 c1 = (rM * cos gap, - (rM * sin gap)) /\ arc' cr (- gap - cL / cr * c1) (cL / cr) c1 = (cL * sin gap, cL * cos gap).
  Proof.
    unfold cap0, arc, arc'. cbn [fst snd]. rewrite rcu. replace (- gap - cL / cr * c1 + cL / cr * c1) with (- gap) by ring. rewrite cos_neg, sin_neg. split; f_equal; unfold cC, cr; field.
  Qed.
  Lemma cap0_c2 : cap0 c2 = (rm * cos gap, - (rm * sin gap)) /\ arc' cr (- gap - cL / cr * c1) (cL / cr) c2 = (- (cL * sin gap), - (cL * cos gap)).
  Proof.
    unfold cap0, arc, arc'. cbn [fst snd]. rewrite rcu. replace (- gap - cL / cr * c1 + cL / cr * c2) with (- gap + cL / cr * (c2 - c1)) by ring. rewrite a2, neg_cos, neg_sin, cos_neg, sin_neg. split; f_equal; unfold cC, cr; field.
  Qed.
  Lemma inner_c2 : inner c2 = (rm * cos gap, - (rm * sin gap)) /\ arc' rm (- gap + cL / rm * c2) (- (cL / rm)) c2 = (- (cL * sin gap), - (cL * cos gap)).
  Proof.
    unfold inner, arc, arc'. cbn [fst snd]. rewrite rmu. replace (- gap + cL / rm * c2 + - (cL / rm) * c2) with (- gap) by ring. rewrite cos_neg, sin_neg. split; f_equal; ring.
  Qed.
  Lemma inner_c3 : inner c3 = (rm * cos gap, rm * sin gap) /\ arc' rm (- gap + cL / rm * c2) (- (cL / rm)) c3 = (cL * sin gap, - (cL * cos gap)).
  Proof.
    unfold inner, arc, arc'. cbn [fst snd]. rewrite rmu. replace (- gap + cL / rm * c2 + - (cL / rm) * c3) with (- (gap + cL / rm * (c3 - c2))) by ring. rewrite a3.
    replace (gap + cinv) with (2 * PI - gap) by (unfold cinv; ring). rewrite cos_neg, sin_neg, cos_2g, sin_2g. split; f_equal; ring.
  Qed.
  Lemma cap1_c3 : cap1 c3 = (rm * cos gap, rm * sin gap) /\ arc' cr (gap + PI - cL / cr * c3) (cL / cr) c3 = (cL * sin gap, - (cL * cos gap)).
  Proof.
    unfold cap1, arc, arc'. cbn [fst snd]. rewrite rcu. replace (gap + PI - cL / cr * c3 + cL / cr * c3) with (gap + PI) by ring. rewrite neg_cos, neg_sin. split; f_equal; unfold cC, cr; field.
  Qed.
  Lemma cap1_1 : cap1 1 = (rM * cos gap, rM * sin gap) /\ arc' cr (gap + PI - cL / cr * c3) (cL / cr) 1 = (- (cL * sin gap), cL * cos gap).
  Proof.
    unfold cap1, arc, arc'. cbn [fst snd]. rewrite rcu. replace (gap + PI - cL / cr * c3 + cL / cr * 1) with (gap + PI + cL / cr * (1 - c3)) by ring. rewrite a4, !neg_cos, !neg_sin. split; f_equal; unfold cC, cr; field.
  Qed.
  Lemma outer_0 : outer 0 = (rM * cos gap, rM * sin gap) /\ arc' rM gap (cL / rM) 0 = (- (cL * sin gap), cL * cos gap).
  Proof. unfold outer, arc, arc'. cbn [fst snd]. rewrite rMu, Rmult_0_r, Rplus_0_r. split; f_equal; ring. Qed.

  Lemma clamp_velocity t : velocity clamp_fun t (clamp_fun' t).
  Proof.
    pose proof c12 as H12. pose proof c23 as H23. revert t. unfold clamp_fun, clamp_fun'.
    apply glue_velocity; [intros; apply arc_velocity| | |].
    - apply glue_velocity; [intros; apply arc_velocity| | |].
      + apply glue_velocity; [intros; apply arc_velocity|intros; apply arc_velocity| |].
        * now rewrite (proj1 inner_c3), (proj1 cap1_c3).
        * now rewrite (proj2 inner_c3), (proj2 cap1_c3).
      + rewrite glue_lt by exact H23. now rewrite (proj1 cap0_c2), (proj1 inner_c2).
      + rewrite glue_lt by exact H23. now rewrite (proj2 cap0_c2), (proj2 inner_c2).
    - rewrite glue_lt by exact H12. now rewrite (proj1 outer_c1), (proj1 cap0_c1).
    - rewrite glue_lt by exact H12. now rewrite (proj2 outer_c1), (proj2 cap0_c1).
  Qed.
  Lemma clamp_speed t : norm2 (clamp_fun' t) = cL * cL.
  Proof.
    unfold clamp_fun', glue. destruct (Rlt_dec t c1); [rewrite arc_speed, rMu; reflexivity|]. destruct (Rlt_dec t c2); [rewrite arc_speed, rcu; reflexivity|].
    destruct (Rlt_dec t c3); [rewrite arc_speed, rmu; ring|rewrite arc_speed, rcu; reflexivity].
  Qed.
  Lemma c3_lt_1 : c3 < 1.
  Proof. pose proof c4_one. pose proof cL_pos. pose proof cr_pos. pose proof PI_RGT_0. assert (0 < PI * cr / cL) by (apply Rdiv_lt_0_compat; nra). lra. Qed.
  Lemma clamp_closed : clamp_fun 0 = clamp_fun 1 /\ clamp_fun' 0 = clamp_fun' 1.
  Proof.
    pose proof c1_pos. pose proof c12. pose proof c23. pose proof c3_lt_1. unfold clamp_fun, clamp_fun'. split.
    - rewrite (glue_lt c1) by lra. rewrite (glue_ge c1), (glue_ge c2), (glue_ge c3) by lra. now rewrite (proj1 outer_0), (proj1 cap1_1).
    - rewrite (glue_lt c1) by lra. rewrite (glue_ge c1), (glue_ge c2), (glue_ge c3) by lra. now rewrite (proj2 outer_0), (proj2 cap1_1).
  Qed.
  Lemma clamp_circles t : on_circle (0, 0) rM (clamp_fun t) \/ on_circle (0, 0) rm (clamp_fun t) \/ on_circle (cC * cos gap, cC * sin gap) cr (clamp_fun t) \/ on_circle (cC * cos gap, - (cC * sin gap)) cr (clamp_fun t).
  Proof.
    unfold clamp_fun, glue. destruct (Rlt_dec t c1); [left; apply arc_on_circle|]. destruct (Rlt_dec t c2); [right; right; right; apply arc_on_circle|].
    destruct (Rlt_dec t c3); [right; left; apply arc_on_circle|right; right; left; apply arc_on_circle].
  Qed.

  (** the pieces in terms of their angles *)
  Inductive piece (t : R) : Prop :=
  | p_outer a : t < c1 -> gap <= a < 2 * PI - gap -> a = gap + cL / rM * t -> clamp_fun t = (rM * cos a, rM * sin a) -> piece t
  | p_cap0 z : c1 <= t < c2 -> 0 <= z < PI -> z = cL / cr * (t - c1) -> clamp_fun t = (cC * cos gap + cr * cos (z - gap), - (cC * sin gap) + cr * sin (z - gap)) -> piece t
  | p_inner b : c2 <= t < c3 -> gap <= b < 2 * PI - gap -> b = gap + cL / rm * (t - c2) -> clamp_fun t = (rm * cos b, - (rm * sin b)) -> piece t
  | p_cap1 z : c3 <= t -> 0 <= z < PI -> z = cL / cr * (t - c3) -> clamp_fun t = (cC * cos gap - cr * cos (z + gap), cC * sin gap - cr * sin (z + gap)) -> piece t.
  Lemma piece_of t : 0 <= t < 1 -> piece t.
  Proof.
    intros Ht. pose proof cL_pos as HL. pose proof cr_pos as Hr. pose proof c12 as H12. pose proof c23 as H23. pose proof c3_lt_1 as H3. pose proof cinv_pos as Hi.
    assert (KM : 0 < cL / rM) by (apply Rdiv_lt_0_compat; lra). assert (Km : 0 < cL / rm) by (apply Rdiv_lt_0_compat; lra). assert (Kr : 0 < cL / cr) by (apply Rdiv_lt_0_compat; lra).
    destruct (Rlt_dec t c1) as [T1|T1].
    { apply (p_outer t (gap + cL / rM * t)); [exact T1| |reflexivity|].
      - pose proof a1 as A. unfold cinv in A. split; [nra|]. assert (cL / rM * t < cL / rM * c1) by (apply Rmult_lt_compat_l; assumption). lra.
      - unfold clamp_fun. rewrite glue_lt by exact T1. unfold outer, arc. cbn [fst snd]. now rewrite !Rplus_0_l. }
    destruct (Rlt_dec t c2) as [T2|T2].
    { apply (p_cap0 t (cL / cr * (t - c1))); [lra| |reflexivity|].
      - pose proof a2 as A. split; [nra|]. rewrite <- A. apply Rmult_lt_compat_l; [assumption|lra].
      - unfold clamp_fun. rewrite glue_ge, glue_lt by lra. unfold cap0, arc. cbn [fst snd]. replace (- gap - cL / cr * c1 + cL / cr * t) with (cL / cr * (t - c1) - gap) by ring. reflexivity. }
    destruct (Rlt_dec t c3) as [T3|T3].
    { apply (p_inner t (gap + cL / rm * (t - c2))); [lra| |reflexivity|].
      - pose proof a3 as A. unfold cinv in A. split; [nra|]. assert (cL / rm * (t - c2) < cL / rm * (c3 - c2)) by (apply Rmult_lt_compat_l; lra). lra.
      - unfold clamp_fun. rewrite glue_ge, glue_ge, glue_lt by lra. unfold inner, arc. cbn [fst snd]. replace (- gap + cL / rm * c2 + - (cL / rm) * t) with (- (gap + cL / rm * (t - c2))) by ring. rewrite cos_neg, sin_neg. f_equal; ring. }
    apply (p_cap1 t (cL / cr * (t - c3))); [lra| |reflexivity|].
    - pose proof a4 as A. split; [nra|]. rewrite <- A. apply Rmult_lt_compat_l; [assumption|lra].
    - unfold clamp_fun. rewrite !glue_ge by lra. unfold cap1, arc. cbn [fst snd]. replace (gap + PI - cL / cr * c3 + cL / cr * t) with (cL / cr * (t - c3) + gap + PI) by ring. rewrite neg_cos, neg_sin. f_equal; ring.
  Qed.
  Lemma norm_arc r a : norm2 (r * cos a, r * sin a) = r * r.
  Proof. unfold norm2. cbn [fst snd]. transitivity (r * r * (sin a * sin a + cos a * cos a)); [ring|rewrite sin2_cos2'; ring]. Qed.
  Lemma norm_arc' r a : norm2 (r * cos a, - (r * sin a)) = r * r.
  Proof. unfold norm2. cbn [fst snd]. transitivity (r * r * (sin a * sin a + cos a * cos a)); [ring|rewrite sin2_cos2'; ring]. Qed.
  Lemma norm_cap0 z : norm2 (cC * cos gap + cr * cos (z - gap), - (cC * sin gap) + cr * sin (z - gap)) = cC * cC + cr * cr + 2 * cC * cr * cos z.
  Proof.
    replace (cos z) with (cos (z - gap + gap)) by (f_equal; ring). rewrite cos_plus. pose proof (sin2_cos2' gap) as U. pose proof (sin2_cos2' (z - gap)) as V. unfold norm2. cbn [fst snd].
    transitivity (cC * cC * (sin gap * sin gap + cos gap * cos gap) + cr * cr * (sin (z - gap) * sin (z - gap) + cos (z - gap) * cos (z - gap)) + 2 * cC * cr * (cos (z - gap) * cos gap - sin (z - gap) * sin gap)); [ring|rewrite U, V; ring].
  Qed.
  Lemma norm_cap1 z : norm2 (cC * cos gap - cr * cos (z + gap), cC * sin gap - cr * sin (z + gap)) = cC * cC + cr * cr - 2 * cC * cr * cos z.
  Proof.
    replace (cos z) with (cos (z + gap - gap)) by (f_equal; ring). rewrite cos_minus. pose proof (sin2_cos2' gap) as U. pose proof (sin2_cos2' (z + gap)) as V. unfold norm2. cbn [fst snd].
    transitivity (cC * cC * (sin gap * sin gap + cos gap * cos gap) + cr * cr * (sin (z + gap) * sin (z + gap) + cos (z + gap) * cos (z + gap)) - 2 * cC * cr * (cos (z + gap) * cos gap + sin (z + gap) * sin gap)); [ring|rewrite U, V; ring].
  Qed.
  Lemma cos_gt_m1 z : 0 <= z < PI -> -1 < cos z.
  Proof. intros Hz. rewrite <- cos_PI. apply cos_decreasing_1; lra. Qed.
  Lemma HrM : rM = cC + cr. Proof. unfold cC, cr. field. Qed.
  Lemma Hrm : rm = cC - cr. Proof. unfold cC, cr. field. Qed.
  Lemma cC_pos : 0 < cC. Proof. unfold cC. lra. Qed.
  Lemma no_outer a : gap <= a < 2 * PI - gap -> cos a = cos gap -> sin a = - sin gap -> False.
  Proof.
    intros Ha C S. assert (E : a = 2 * PI - gap) by (apply angle_unique; [lra|lra|now rewrite cos_2g|now rewrite sin_2g]). lra.
  Qed.

  Lemma clamp_simple : rM - rm < (rM + rm) * sin gap -> simple clamp_fun.
  Proof.
    intros Hs. assert (HW : forall s t, 0 <= s -> t < 1 -> s < t -> clamp_fun s = clamp_fun t -> False).
    2:{ intros s t H1 H2 E. destruct (Rtotal_order s t) as [H|[H|H]]; [exfalso; eapply (HW s t); eauto; lra|exact H|exfalso; eapply (HW t s); eauto; lra]. }
    intros s t H0 H1 Hst E. pose proof cr_pos as Hr. pose proof cC_pos as HC. pose proof cL_pos as HL. pose proof HrM as EM. pose proof Hrm as Em.
    assert (KM : 0 < cL / rM) by (apply Rdiv_lt_0_compat; lra). assert (Km : 0 < cL / rm) by (apply Rdiv_lt_0_compat; lra). assert (Kr : 0 < cL / cr) by (apply Rdiv_lt_0_compat; lra).
    assert (CR : 0 < 2 * cC * cr) by nra.
    destruct (piece_of s ltac:(lra)) as [a A1 A2 A3 A4|z A1 A2 A3 A4|b A1 A2 A3 A4|z A1 A2 A3 A4]; destruct (piece_of t ltac:(lra)) as [a' B1 B2 B3 B4|z' B1 B2 B3 B4|b' B1 B2 B3 B4|z' B1 B2 B3 B4];
      pose proof c12; pose proof c23; try lra; rewrite A4, B4 in E; pose proof (f_equal norm2 E) as N; rewrite ?norm_arc, ?norm_arc', ?norm_cap0, ?norm_cap1 in N; injection E as E1 E2.
    - (* outer, outer *) apply Rmult_eq_reg_l in E1; [|lra]. apply Rmult_eq_reg_l in E2; [|lra]. assert (a = a') by (apply angle_unique; lra). assert (cL / rM * s < cL / rM * t) by (apply Rmult_lt_compat_l; lra). lra.
    - (* outer, cap0 *) assert (Z : cos z' = 1) by (rewrite EM in N; nra). assert (Z0 : z' = 0) by (apply cos_unique; [lra|lra|rewrite cos_0; lra]).
      rewrite Z0, Rminus_0_l, cos_neg in E1. rewrite Z0, Rminus_0_l, sin_neg in E2. apply (no_outer a A2); apply (Rmult_eq_reg_l rM); [rewrite E1, EM at 1; ring|lra|rewrite E2, EM at 1; ring|lra].
    - (* outer, inner *) nra.
    - (* outer, cap1 *) pose proof (cos_gt_m1 z' B2). rewrite EM in N. nra.
    - (* cap0, cap0 *) assert (cos z = cos z') by nra. assert (z = z') by (apply cos_unique; lra). assert (cL / cr * (s - c1) < cL / cr * (t - c1)) by (apply Rmult_lt_compat_l; lra). lra.
    - (* cap0, inner *) pose proof (cos_gt_m1 z A2). rewrite Em in N. nra.
    - (* cap0, cap1 *) pose proof (SIN_bound (z - gap)). pose proof (SIN_bound (z' + gap)). assert (cr < cC * sin gap) by (unfold cr, cC; lra). nra.
    - (* inner, inner *) apply Rmult_eq_reg_l in E1; [|lra]. assert (E2' : rm * sin b = rm * sin b') by lra. apply Rmult_eq_reg_l in E2'; [|lra]. assert (b = b') by (apply angle_unique; lra).
      assert (cL / rm * (s - c2) < cL / rm * (t - c2)) by (apply Rmult_lt_compat_l; lra). lra.
    - (* inner, cap1 *) assert (Z : cos z' = 1) by (rewrite Em in N; nra). assert (Z0 : z' = 0) by (apply cos_unique; [lra|lra|rewrite cos_0; lra]).
      rewrite Z0, Rplus_0_l in E1. rewrite Z0, Rplus_0_l in E2. apply (no_outer b A2); apply (Rmult_eq_reg_l rm); [rewrite E1, Em at 1; ring|lra|rewrite Em; rewrite Em in E2; lra|lra].
    - (* cap1, cap1 *) assert (cos z = cos z') by nra. assert (z = z') by (apply cos_unique; lra). assert (cL / cr * (s - c3) < cL / cr * (t - c3)) by (apply Rmult_lt_compat_l; lra). lra.
  Qed.
End Clamp.

(** ** The warped square *)
Lemma half_pi_gt_half : 1 / 2 < PI / 2. Proof. pose proof PI2_1. lra. Qed.
Lemma sin_mono x y : - (1 / 2) <= x -> x <= y -> y <= 1 / 2 -> sin x <= sin y.
Proof. intros. pose proof half_pi_gt_half. apply sin_incr_1; lra. Qed.
Lemma warp_first x0 x1 y0 y1 : 15 / 10 * x0 + cos x0 + 1 / 10 * sin (10 * x1) = 15 / 10 * y0 + cos y0 + 1 / 10 * sin (10 * y1) -> 1 / 2 * Rabs (x0 - y0) <= Rabs (x1 - y1).
Proof.
  intros E. pose proof (cos_lipschitz x0 y0) as C. pose proof (sin_lipschitz (10 * x1) (10 * y1)) as S.
  replace (10 * x1 - 10 * y1) with (10 * (x1 - y1)) in S by ring. rewrite Rabs_mult, (Rabs_right 10) in S by lra.
  revert C S. unfold Rabs. repeat destruct Rcase_abs; intros; lra.
Qed.
Lemma warp_second x0 x1 y0 y1 : - (1 / 2) <= x1 <= 1 / 2 -> - (1 / 2) <= y1 <= 1 / 2 ->
  5 / 100 * cos (10 * x0) + 13 / 10 * x1 + sin x1 = 5 / 100 * cos (10 * y0) + 13 / 10 * y1 + sin y1 -> 13 / 10 * Rabs (x1 - y1) <= 1 / 2 * Rabs (x0 - y0).
Proof.
  intros Hx Hy E. pose proof (cos_lipschitz (10 * x0) (10 * y0)) as C. replace (10 * x0 - 10 * y0) with (10 * (x0 - y0)) in C by ring. rewrite Rabs_mult, (Rabs_right 10) in C by lra.
  destruct (Rle_lt_dec x1 y1) as [H|H].
  - pose proof (sin_mono x1 y1 ltac:(lra) H ltac:(lra)). revert C. unfold Rabs. repeat destruct Rcase_abs; intros; lra.
  - pose proof (sin_mono y1 x1 ltac:(lra) ltac:(lra) ltac:(lra)). revert C. unfold Rabs. repeat destruct Rcase_abs; intros; lra.
Qed.
Lemma warp_two x0 x1 y0 y1 : - (1 / 2) <= x1 <= 1 / 2 -> - (1 / 2) <= y1 <= 1 / 2 ->
  15 / 10 * x0 + cos x0 + 1 / 10 * sin (10 * x1) = 15 / 10 * y0 + cos y0 + 1 / 10 * sin (10 * y1) ->
  5 / 100 * cos (10 * x0) + 13 / 10 * x1 + sin x1 = 5 / 100 * cos (10 * y0) + 13 / 10 * y1 + sin y1 -> x0 = y0 /\ x1 = y1.
Proof.
  intros Hx Hy E1 E2. apply warp_first in E1. apply warp_second in E2; [|assumption|assumption].
  pose proof (Rabs_pos (x1 - y1)). pose proof (Rabs_pos (x0 - y0)). assert (Z1 : Rabs (x1 - y1) = 0) by lra. assert (Z0 : Rabs (x0 - y0) = 0) by lra.
  split; [destruct (Req_dec (x0 - y0) 0) as [|N]; [lra|now apply Rabs_no_R0 in N]|destruct (Req_dec (x1 - y1) 0) as [|N]; [lra|now apply Rabs_no_R0 in N]].
Qed.
Lemma warp_inj x y : in_cube x -> in_cube y -> length x = length y -> length x <> 1%nat -> warp x = warp y -> x = y.
Proof.
  intros Hx Hy L D E. destruct x as [|x0 [|x1 x]]; destruct y as [|y0 [|y1 y]]; try discriminate; [reflexivity|now contradict D|].
  apply Forall_inv_tail in Hx. apply Forall_inv_tail in Hy. apply Forall_inv in Hx. apply Forall_inv in Hy.
  assert (E1 := f_equal (hd 0) E). assert (E2 := f_equal (fun l => hd 0 (tl l)) E). cbn [warp hd tl] in E1, E2. destruct (warp_two _ _ _ _ Hx Hy E1 E2) as (-> & ->).
  destruct x as [|x2 x]; destruct y as [|y2 y]; try discriminate; [reflexivity|]. assert (E3 := f_equal (fun l => hd 0 (tl (tl l))) E). cbn [warp hd tl] in E3.
  assert (E4 := f_equal (fun l => tl (tl (tl l))) E). cbn [warp tl] in E4. f_equal. f_equal. f_equal; [lra|exact E4].
Qed.
Lemma warp_jacobian x0 x1 : - (1 / 2) <= x1 <= 1 / 2 ->
  exists a b c d, derivable_pt_lim (fun s => 15 / 10 * s + cos s + 1 / 10 * sin (10 * x1)) x0 a /\ derivable_pt_lim (fun s => 15 / 10 * x0 + cos x0 + 1 / 10 * sin (10 * s)) x1 b /\
    derivable_pt_lim (fun s => 5 / 100 * cos (10 * s) + 13 / 10 * x1 + sin x1) x0 c /\ derivable_pt_lim (fun s => 5 / 100 * cos (10 * x0) + 13 / 10 * s + sin s) x1 d /\ 0 < a * d - b * c.
Proof.
  intros H. exists (15 / 10 - sin x0), (cos (10 * x1)), (- (1 / 2) * sin (10 * x0)), (13 / 10 + cos x1). repeat split.
  - eapply deriv_val; [apply deriv_add; [apply deriv_add; [apply deriv_scal, deriv_id|apply derivable_pt_lim_cos]|apply deriv_const]|lra].
  - eapply deriv_val; [apply deriv_add; [apply deriv_const|apply deriv_scal, deriv_sin, deriv_scal, deriv_id]|cbn beta; lra].
  - eapply deriv_val; [apply deriv_add; [apply deriv_add; [apply deriv_scal, deriv_cos, deriv_scal, deriv_id|apply deriv_const]|apply deriv_const]|cbn beta; lra].
  - eapply deriv_val; [apply deriv_add; [apply deriv_add; [apply deriv_const|apply deriv_scal, deriv_id]|apply derivable_pt_lim_sin]|lra].
  - pose proof half_pi_gt_half. assert (0 <= cos x1) by (apply cos_ge_0; lra). pose proof (SIN_bound x0). pose proof (SIN_bound (10 * x0)). pose proof (COS_bound (10 * x1)).
    assert (P : 1 / 2 * (13 / 10 + cos x1) <= (15 / 10 - sin x0) * (13 / 10 + cos x1)) by (apply Rmult_le_compat_r; lra).
    assert (Q : - 1 <= cos (10 * x1) * sin (10 * x0)) by nra. lra.
Qed.
