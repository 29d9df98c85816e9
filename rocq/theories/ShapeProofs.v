(** * ShapeProofs *)
From Coq Require Import List Arith Reals Lra Psatz.
From Verif Require Import Np NpFacts CurveProofs ShapeModel ShapeSpec.
Import ListNotations.
Local Open Scope R_scope.

Lemma cos_period' x : cos (x + 2 * PI) = cos x.
Proof. pose proof (cos_turn x 1) as H. cbn [INR] in H. now replace (x + 2 * 1 * PI) with (x + 2 * PI) in H by ring. Qed.
Lemma sin_period' x : sin (x + 2 * PI) = sin x.
Proof. pose proof (sin_turn x 1) as H. cbn [INR] in H. now replace (x + 2 * 1 * PI) with (x + 2 * PI) in H by ring. Qed.

Section Torus.
  Variables (a b : R) (f : R -> R -> R).

  Lemma torus_periodic : (forall u v, f (u + 2 * PI) v = f u v /\ f u (v + 2 * PI) = f u v) -> doubly_periodic (torus_surface a b f).
  Proof. intros H u v. destruct (H u v) as (H1 & H2). unfold torus_surface. rewrite H1, H2, !cos_period', !sin_period'. now split. Qed.

  (** points in polar coordinates *)
  Lemma polar r r' x y : 0 < r -> 0 < r' -> 0 <= x < 2 * PI -> 0 <= y < 2 * PI -> r * cos x = r' * cos y -> r * sin x = r' * sin y -> r = r' /\ x = y.
  Proof.
    intros Hr Hr' Hx Hy Hc Hs. pose proof (sin2_cos2' x) as Ex. pose proof (sin2_cos2' y) as Ey.
    assert (E : r * r = r' * r').
    { replace (r * r) with ((r * sin x) * (r * sin x) + (r * cos x) * (r * cos x)) by (transitivity (r * r * (sin x * sin x + cos x * cos x)); [ring|rewrite Ex; ring]).
      rewrite Hc, Hs. transitivity (r' * r' * (sin y * sin y + cos y * cos y)); [ring|rewrite Ey; ring]. }
    assert (r = r') by nra. subst r'. split; [reflexivity|]. apply angle_unique; auto; nra.
  Qed.

  Lemma torus_embedded : (forall u v, 0 < b * f u v < a) -> embedded (torus_surface a b f).
  Proof.
    intros Hb u v u' v' Hu Hv Hu' Hv' E. unfold torus_surface in E. injection E as E1 E2 E3.
    pose proof (Hb u v) as B. pose proof (Hb u' v') as B'. pose proof (COS_bound v) as C. pose proof (COS_bound v') as C'.
    destruct (polar (a + b * f u v * cos v) (a + b * f u' v' * cos v') u u') as (Er & Eu); [nra|nra|auto|auto|lra|lra|].
    split; [exact Eu|]. destruct (polar (b * f u v) (b * f u' v') v v') as (_ & Ev); auto; lra.
  Qed.

  Lemma torus_immersed : (forall u v, 0 < b * f u v < a) ->
    (forall u v, exists du, derivable_pt_lim (fun s => f s v) u du) -> (forall u v, exists dv, derivable_pt_lim (fun s => f u s) v dv) -> immersed (torus_surface a b f).
  Proof.
    intros Hb Hfu Hfv u v. destruct (Hfu u v) as (fu & Du). destruct (Hfv u v) as (fv & Dv). pose proof (Hb u v) as B.
    exists (- sin u * (a + b * f u v * cos v) + cos u * (b * fu * cos v), cos u * (a + b * f u v * cos v) + sin u * (b * fu * cos v), b * fu * sin v),
           (cos u * (b * fv * cos v - b * f u v * sin v), sin u * (b * fv * cos v - b * f u v * sin v), b * fv * sin v + b * f u v * cos v).
    split; [|split].
    - unfold tangent, torus_surface, px, py, pz. cbn [fst snd]. split; [|split].
      + eapply deriv_val; [apply deriv_mul; [apply deriv_cos, deriv_id|apply deriv_add; [apply deriv_const|apply deriv_mul; [apply deriv_scal; exact Du|apply deriv_const]]]|]. cbn beta. ring.
      + eapply deriv_val; [apply deriv_mul; [apply deriv_sin, deriv_id|apply deriv_add; [apply deriv_const|apply deriv_mul; [apply deriv_scal; exact Du|apply deriv_const]]]|]. cbn beta. ring.
      + eapply deriv_val; [apply deriv_mul; [apply deriv_scal; exact Du|apply deriv_const]|]. cbn beta. ring.
    - unfold tangent, torus_surface, px, py, pz. cbn [fst snd]. split; [|split].
      + eapply deriv_val; [apply deriv_scal, deriv_add; [apply deriv_const|apply deriv_mul; [apply deriv_scal; exact Dv|apply deriv_cos, deriv_id]]|]. cbn beta. ring.
      + eapply deriv_val; [apply deriv_scal, deriv_add; [apply deriv_const|apply deriv_mul; [apply deriv_scal; exact Dv|apply deriv_cos, deriv_id]]|]. cbn beta. ring.
      + eapply deriv_val; [apply deriv_mul; [apply deriv_scal; exact Dv|apply deriv_sin, deriv_id]|]. cbn beta. ring.
    - unfold cross, px, py, pz. cbn [fst snd]. intros E. injection E as E1 E2 E3.
      pose proof (sin2_cos2' u) as Tu. pose proof (sin2_cos2' v) as Tv. pose proof (COS_bound v) as C.
      revert E1 E2 E3. set (B0 := b * f u v) in *. set (Bu := b * fu). set (Bv := b * fv). set (P := a + B0 * cos v). assert (HP : 0 < P) by (unfold P; nra).
      set (Q := Bv * cos v - B0 * sin v). set (W := Bv * sin v + B0 * cos v). intros E1 E2 E3.
      assert (HQW : Q * Q + W * W = Bv * Bv + B0 * B0).
      { unfold Q, W. transitivity ((Bv * Bv + B0 * B0) * (sin v * sin v + cos v * cos v)); [ring|rewrite Tv; ring]. }
      assert (EQ : Q = 0).
      { assert (X : - (P * Q) * (sin u * sin u + cos u * cos u) = 0) by (rewrite <- E3; ring). rewrite Tu in X. nra. }
      rewrite EQ in *. assert (X : P * W * (sin u * sin u + cos u * cos u) = 0).
      { transitivity (cos u * ((cos u * P + sin u * (Bu * cos v)) * W - Bu * sin v * (sin u * 0)) + sin u * (Bu * sin v * (cos u * 0) - (- sin u * P + cos u * (Bu * cos v)) * W)); [ring|]. rewrite E1, E2. ring. }
      rewrite Tu in X. assert (W = 0) by nra. nra.
  Qed.
End Torus.

Lemma cruller_bounds u v : 3 / 4 <= cruller_func u v <= 5 / 4.
Proof. unfold cruller_func. pose proof (COS_bound (5 * u + 3 * v)). lra. Qed.
Lemma cruller_func_periodic u v : cruller_func (u + 2 * PI) v = cruller_func u v /\ cruller_func u (v + 2 * PI) = cruller_func u v.
Proof.
  unfold cruller_func. split; do 2 f_equal.
  - apply cos_turn' with (k := 5%nat). cbn [INR]. ring.
  - apply cos_turn' with (k := 3%nat). cbn [INR]. ring.
Qed.

(** ** Urchin *)
Lemma fold_min l x : fold_left Rmin l x <= x /\ (forall y, In y l -> fold_left Rmin l x <= y) /\ (fold_left Rmin l x = x \/ In (fold_left Rmin l x) l).
Proof.
  revert x; induction l as [|z l IH]; intros x; [cbn; split; [lra|split; [tauto|now left]]|]. cbn [fold_left]. destruct (IH (Rmin x z)) as (A & B & C). pose proof (Rmin_l x z). pose proof (Rmin_r x z).
  split; [lra|]. split.
  - intros y [->|Hy]; [lra|now apply B].
  - destruct C as [C|C]; [|right; now right]. rewrite C. unfold Rmin. destruct (Rle_dec x z); [now left|right; now left].
Qed.
Lemma fold_max l x : x <= fold_left Rmax l x /\ (forall y, In y l -> y <= fold_left Rmax l x) /\ (fold_left Rmax l x = x \/ In (fold_left Rmax l x) l).
Proof.
  revert x; induction l as [|z l IH]; intros x; [cbn; split; [lra|split; [tauto|now left]]|]. cbn [fold_left]. destruct (IH (Rmax x z)) as (A & B & C). pose proof (Rmax_l x z). pose proof (Rmax_r x z).
  split; [lra|]. split.
  - intros y [->|Hy]; [lra|now apply B].
  - destruct C as [C|C]; [|right; now right]. rewrite C. unfold Rmax. destruct (Rle_dec x z); [right; now left|now left].
Qed.
Lemma amin_ok l m : amin l = Ok m -> In m l /\ forall y, In y l -> m <= y.
Proof.
  destruct l as [|x l]; [discriminate|]. intros E. injection E as <-. destruct (fold_min l x) as (A & B & C). split; [destruct C as [C|C]; [left; now symmetry|now right]|]. intros y [<-|Hy]; auto.
Qed.
Lemma amax_ok l m : amax l = Ok m -> In m l /\ forall y, In y l -> y <= m.
Proof.
  destruct l as [|x l]; [discriminate|]. intros E. injection E as <-. destruct (fold_max l x) as (A & B & C). split; [destruct C as [C|C]; [left; now symmetry|now right]|]. intros y [<-|Hy]; auto.
Qed.

Lemma radius_scale c p : radius (scale c p) = Rabs c * radius p.
Proof.
  unfold radius, scale, px, py, pz. cbn [fst snd]. rewrite <- sqrt_Rsqr_abs. rewrite <- sqrt_mult_alt; [|apply Rle_0_sqr]. f_equal. unfold Rsqr. ring.
Qed.
Lemma radius_nonneg p : 0 <= radius p. Proof. apply sqrt_pos. Qed.
Lemma scale_scale c d p : scale c (scale d p) = scale (c * d) p.
Proof. unfold scale, px, py, pz. cbn [fst snd]. f_equal; [f_equal|]; ring. Qed.
Lemma scale_1 p : scale 1 p = p.
Proof. destruct p as ((x, y), z). unfold scale, px, py, pz. cbn [fst snd]. now rewrite !Rmult_1_l. Qed.
