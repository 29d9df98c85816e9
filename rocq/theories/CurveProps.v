(** * CurveProps: C173-C176. *)
From Coq Require Import List Reals Lra Lia.
From Verif Require Import Np CurveModel CurveSpec CurveProofs.
Import ListNotations.
Local Open Scope R_scope.

(** ** C173: the smooth curves close with all derivatives (period 1), have a nonzero velocity everywhere and do not meet themselves *)
Theorem C173_ellipse a : a <> 0 -> periodic (ellipse a) /\ regular (ellipse a) /\ simple (ellipse a) /\
  forall t, fst (ellipse a t) * fst (ellipse a t) + (a * snd (ellipse a t)) * (a * snd (ellipse a t)) = 1.
Proof. intros Ha. repeat split; [apply ellipse_periodic|now apply ellipse_regular|now apply ellipse_simple|intros; now apply ellipse_equation]. Qed.
Theorem C173_circle : periodic circle /\ regular circle /\ simple circle /\ forall t, on_circle (0, 0) 1 (circle t).
Proof.
  assert (H1 : 1 <> 0) by lra. repeat split; [apply ellipse_periodic|now apply ellipse_regular|now apply ellipse_simple|]. intros t. pose proof (ellipse_equation 1 t H1) as E.
  unfold on_circle, norm2, circle. cbn [fst snd]. lra.
Qed.
Theorem C173_cloverleaf : periodic cloverleaf /\ regular cloverleaf /\ simple cloverleaf.
Proof. repeat split; [apply cloverleaf_periodic|apply cloverleaf_regular|apply cloverleaf_simple]. Qed.
Theorem C173_apple a : - (1 / 2) < a < 1 / 2 -> periodic (apple a) /\ regular (apple a) /\ simple (apple a).
Proof. intros Ha. repeat split; [apply apple_periodic|now apply apple_regular|now apply apple_simple]. Qed.
Theorem C173_peanut : periodic qbx_peanut /\ regular qbx_peanut /\ simple qbx_peanut.
Proof. repeat split; [apply peanut_periodic|apply peanut_regular|apply peanut_simple]. Qed.
Theorem C173_wobbly_dumbbell gamma beta p w : 0 < gamma -> 0 <= beta < 1 -> (1 <= p)%nat ->
  periodic (wobbly_dumbbell gamma beta p w) /\ regular (wobbly_dumbbell gamma beta p w) /\ simple (wobbly_dumbbell gamma beta p w).
Proof. intros Hg Hb _. repeat split; [apply dumbbell_periodic|now apply dumbbell_regular|now apply dumbbell_simple]. Qed.
Theorem C173_dumbbell gamma beta : 0 < gamma -> 0 <= beta < 1 -> periodic (dumbbell gamma beta) /\ regular (dumbbell gamma beta) /\ simple (dumbbell gamma beta).
Proof. intros Hg Hb. apply (C173_wobbly_dumbbell gamma beta 1 0 Hg Hb). lia. Qed.
(** the drop has a corner at the ends *)
Theorem C173_drop : drop 0 = drop 1 /\ forall t, 0 <= t <= 1 -> exists v, velocity drop t v /\ 0 < norm2 v.
Proof. split; [apply drop_closed|apply drop_regular]. Qed.

(** points of the curves *)
Example C173_example : ellipse 2 0 = (1, 0) /\ cloverleaf 0 = (1, - (3 / 10)) /\ apple (1 / 4) 0 = (5 / 4, 0) /\ drop 0 = (- (17 / 20), 0) /\ dumbbell 1 (1 / 2) 0 = (1, 0) /\ circle (1 / 4) = (0, 1).
Proof.
  unfold circle, ellipse, cloverleaf, apple, drop, dumbbell, wobbly_dumbbell. cbv zeta. rewrite ?Rmult_0_l, ?Rmult_0_r, ?sin_0, ?cos_0.
  replace (1 / 4 * (2 * PI)) with (PI / 2) by field. rewrite cos_PI2, sin_PI2. repeat split; f_equal; field.
Qed.
(** at the end of the documented range of apple the velocity vanishes *)
Example C173_cardioid : velocity (apple (1 / 2)) (1 / 2) (0, 0).
Proof.
  pose proof (apple_velocity (1 / 2) (1 / 2)) as H. replace (1 / 2 * (2 * PI)) with PI in H by field. rewrite sin_PI, cos_PI, sin_2PI, cos_2PI in H.
  replace (- (2 * PI) * (0 + 2 * (1 / 2) * 0)) with 0 in H by field. replace (2 * PI * (- 1 + 2 * (1 / 2) * 1)) with 0 in H by field. exact H.
Qed.

(** ** C174: the clamp closes with its velocity, has constant speed (so the parameter is the arc length), and is made of arcs; it does not meet
    itself if the caps fit into the gap *)
Theorem C174_clamp r_major r_minor gap : 0 < r_minor -> r_minor < r_major -> 0 < gap < PI ->
  exists f f', (forall t, clamp_piecewise r_major r_minor gap t = Ok (f t)) /\
    (forall t, velocity f t (f' t) /\ norm2 (f' t) = Rsqr ((2 * PI - 2 * gap) * (r_major + r_minor) + PI * (r_major - r_minor))) /\
    f 0 = f 1 /\ f' 0 = f' 1 /\
    (forall t, on_circle (0, 0) r_major (f t) \/ on_circle (0, 0) r_minor (f t) \/
       exists e, (e = 1 \/ e = -1) /\ on_circle ((r_major + r_minor) / 2 * cos gap, e * ((r_major + r_minor) / 2 * sin gap)) ((r_major - r_minor) / 2) (f t)) /\
    (r_major - r_minor < (r_major + r_minor) * sin gap -> simple f).
Proof.
  intros Hm HM Hg. exists (clamp_fun r_major r_minor gap), (clamp_fun' r_major r_minor gap). split; [|split; [|split; [|split; [|split]]]].
  - intros t. now apply clamp_ok.
  - intros t. split; [now apply clamp_velocity|]. rewrite clamp_speed by assumption. unfold Rsqr, cL, cinv, cr. field.
  - now apply clamp_closed.
  - now apply clamp_closed.
  - intros t. destruct (clamp_circles r_major r_minor gap t) as [H|[H|[H|H]]]; [now left|right; now left|right; right; exists 1|right; right; exists (-1)]; (split; [lra|]); unfold cC, cr in H.
    + now rewrite Rmult_1_l.
    + now replace (-1 * ((r_major + r_minor) / 2 * sin gap)) with (- ((r_major + r_minor) / 2 * sin gap)) by ring.
  - now apply clamp_simple.
Qed.
Example C174_example : 0 < 1 /\ 1 < 2 /\ 0 < PI / 2 < PI /\ 2 - 1 < (2 + 1) * sin (PI / 2) /\ clamp_piecewise 2 1 (PI / 2) 0 = Ok (0, 2).
Proof.
  pose proof PI_RGT_0 as Hp. rewrite sin_PI2. repeat split; try lra. rewrite clamp_ok by lra. f_equal. unfold clamp_fun. rewrite glue_lt by (apply c1_pos; lra).
  rewrite (proj1 (outer_0 2 1 (PI / 2) ltac:(lra) ltac:(lra))), cos_PI2, sin_PI2. f_equal; ring.
Qed.

(** ** C175 (refuted): for all accepted arguments the clamp is a closed curve that does not meet itself.  For a gap of 3 pi/2 it is not closed;
    for radii 3 and 1 and a gap of pi/6 the caps touch *)
Theorem C175_clamp_closed_refuted : exists r_major r_minor gap p q, clamp_piecewise r_major r_minor gap 0 = Ok p /\ clamp_piecewise r_major r_minor gap 1 = Ok q /\ fst p = 0 /\ fst q < 0.
Proof.
  pose proof PI_RGT_0 as Hp. exists 3, 1, (3 / 2 * PI).
  assert (T1 : (2 * PI - 2 * (3 / 2 * PI)) * 3 / ((2 * PI - 2 * (3 / 2 * PI)) * 3 + (2 * PI - 2 * (3 / 2 * PI)) * 1 + 2 * PI * ((3 - 1) / 2)) = 3 / 2) by (field; lra).
  assert (T2 : PI * ((3 - 1) / 2) / ((2 * PI - 2 * (3 / 2 * PI)) * 3 + (2 * PI - 2 * (3 / 2 * PI)) * 1 + 2 * PI * ((3 - 1) / 2)) = - (1 / 2)) by (field; lra).
  assert (T3 : (2 * PI - 2 * (3 / 2 * PI)) * 1 / ((2 * PI - 2 * (3 / 2 * PI)) * 3 + (2 * PI - 2 * (3 / 2 * PI)) * 1 + 2 * PI * ((3 - 1) / 2)) = 1 / 2) by (field; lra).
  unfold clamp_piecewise. cbv zeta. rewrite T1, T2, T3.
  destruct (Rlt_dec 0 3); [|lra]. destruct (Rlt_dec 0 1); [|lra]. destruct (Rlt_dec 1 3); [|lra]. destruct (Rlt_dec 0 (3 / 2 * PI)); [|lra]. destruct (Rlt_dec (3 / 2 * PI) (2 * PI)); [|lra].
  eexists. eexists. split; [reflexivity|split; [reflexivity|]]. unfold mask, plus2, times2. cbn [fst snd].
  destruct (Rlt_dec 0 (3 / 2)); [|lra]. destruct (Rge_dec 0 (3 / 2)); [lra|]. destruct (Rge_dec 0 (3 / 2 + - (1 / 2))); [lra|]. destruct (Rge_dec 0 (3 / 2 + - (1 / 2) + 1 / 2)); [lra|].
  destruct (Rlt_dec 1 (3 / 2)); [|lra]. destruct (Rge_dec 1 (3 / 2)); [lra|]. destruct (Rge_dec 1 (3 / 2 + - (1 / 2))); [|lra]. destruct (Rlt_dec 1 (3 / 2 + - (1 / 2) + 1 / 2)); [|lra].
  destruct (Rge_dec 1 (3 / 2 + - (1 / 2) + 1 / 2)); [lra|].
  match goal with |- 1 * (3 * cos ?a) + 0 * _ * _ + 0 * _ * _ + 0 * _ = 0 /\ 1 * (3 * cos ?b) + 0 * _ * _ + 1 * 1 * (1 * cos ?c) + 0 * _ < 0 =>
    replace a with (3 * (PI / 2)) by field; replace b with (PI - PI / 6) by field; replace c with (- (3 * (PI / 2))) by field end.
  rewrite (cos_neg (3 * (PI / 2))), cos_3PI2, Rtrigo_facts.cos_pi_minus. split; [ring|]. assert (0 < cos (PI / 6)) by (apply cos_gt_0; lra). lra.
Qed.
Theorem C175_clamp_touches_refuted : exists r_major r_minor gap s t p, 0 < s < t /\ t < 1 /\ clamp_piecewise r_major r_minor gap s = Ok p /\ clamp_piecewise r_major r_minor gap t = Ok p.
Proof.
  pose proof PI_RGT_0 as Hp. exists 3, 1, (PI / 6), (17 / 26), (24 / 26), (2 * cos (PI / 6), 0). assert (Hg : 0 < PI / 6 < PI) by lra.
  assert (EL : cL 3 1 (PI / 6) = 26 / 3 * PI) by (unfold cL, cinv, cr; field). assert (E1 : c1 3 1 (PI / 6) = 15 / 26) by (unfold c1; rewrite EL; unfold cinv; field; lra).
  assert (E2 : c2 3 1 (PI / 6) = 18 / 26) by (unfold c2; rewrite E1, EL; unfold cr; field; lra). assert (E3 : c3 3 1 (PI / 6) = 23 / 26) by (unfold c3; rewrite E2, EL; unfold cinv; field; lra).
  split; [lra|]. split; [lra|]. rewrite !clamp_ok by lra. unfold clamp_fun. split; f_equal.
  - rewrite glue_ge, glue_lt by lra. unfold cap0, arc. rewrite EL, E1. cbn [fst snd].
    replace (- (PI / 6) - 26 / 3 * PI / cr 3 1 * (15 / 26) + 26 / 3 * PI / cr 3 1 * (17 / 26)) with (PI / 2) by (unfold cr; field).
    rewrite cos_PI2, sin_PI2, sin_PI6. unfold cC, cr. f_equal; field.
  - rewrite !glue_ge by lra. unfold cap1, arc. rewrite EL, E3. cbn [fst snd].
    replace (PI / 6 + PI - 26 / 3 * PI / cr 3 1 * (23 / 26) + 26 / 3 * PI / cr 3 1 * (24 / 26)) with (3 * (PI / 2)) by (unfold cr; field).
    rewrite cos_3PI2, sin_3PI2, sin_PI6. unfold cC, cr. f_equal; field.
Qed.

(** ** C176: the warped square and cube: the map is one-to-one and its Jacobian determinant is positive; the number of points is determined by one argument *)
Theorem C176_injective x y : in_cube x -> in_cube y -> length x = length y -> (length x = 2 \/ length x = 3)%nat -> warp x = warp y -> x = y.
Proof. intros Hx Hy L D. apply warp_inj; try assumption. lia. Qed.
Theorem C176_orientation x0 x1 : in_cube [x0; x1] ->
  exists a b c d, derivable_pt_lim (fun s => nth 0 (warp [s; x1]) 0) x0 a /\ derivable_pt_lim (fun s => nth 0 (warp [x0; s]) 0) x1 b /\
    derivable_pt_lim (fun s => nth 1 (warp [s; x1]) 0) x0 c /\ derivable_pt_lim (fun s => nth 1 (warp [x0; s]) 0) x1 d /\ 0 < a * d - b * c.
Proof. intros H. apply Forall_inv_tail, Forall_inv in H. exact (warp_jacobian x0 x1 H). Qed.
(** in the cube the first two coordinates do not depend on the third, and the third one grows with it *)
Theorem C176_third x0 x1 x2 : exists y2, warp [x0; x1; x2] = warp [x0; x1] ++ [y2] /\ derivable_pt_lim (fun s => nth 2 (warp [x0; x1; s]) 0) x2 1.
Proof.
  eexists. split; [reflexivity|]. cbn [warp nth]. eapply deriv_val; [apply deriv_add; [apply deriv_id|apply deriv_const]|ring].
Qed.
Theorem C176_arguments e p n : 
  (forall k, warped_npoints e p n = Ok (Some k) <-> (e = Some (k - 1)%nat /\ (1 <= k)%nat /\ p = None /\ n = None) \/ (e = None /\ p = Some k /\ n = None) \/ (e = None /\ p = None /\ n = Some k)) /\
  (warped_npoints e p n = Ok None <-> e = None /\ p = None /\ n = None) /\
  (warped_npoints e p n = Err TypeError <-> (e <> None /\ p <> None) \/ (e <> None /\ n <> None) \/ (p <> None /\ n <> None)).
Proof.
  split; [intros k|split]; destruct e as [e|], p as [p|], n as [n|]; cbn [warped_npoints]; split; intros H;
    try discriminate; try reflexivity; try tauto;
    try (injection H as <-; auto);
    try (destruct H as [(H & ?)|[(H & ?)|(H & ?)]]; try discriminate; intuition congruence);
    try (intuition congruence).
  all: try (left; repeat split; try lia; f_equal; lia).
  all: try (destruct H as [(H & H1 & ? & ?)|[(H & ? & ?)|(H & ? & ?)]]; try discriminate; injection H as ->; f_equal; f_equal; lia).
Qed.
Example C176_example : in_cube [1 / 4; - (1 / 2)] /\ warp [0; 0] = [1; 1 / 20] /\ warp [0; 0; 1 / 2] = [1; 1 / 20; 1 / 2].
Proof.
  split; [repeat constructor; lra|]. cbn [warp]. rewrite !Rmult_0_r. replace (0 / 2) with 0 by field. rewrite sin_0, cos_0. assert (A : 15 / 10 * 0 + 1 + 1 / 10 * 0 = 1) by field. assert (B : 5 / 100 * 1 + 13 / 10 * 0 + 0 = 1 / 20) by field.
  rewrite ?Rmult_0_r in A, B. rewrite A, B. replace (1 / 2 + 0 / 2) with (1 / 2) by field. split; reflexivity.
Qed.

Print Assumptions C173_ellipse.
Print Assumptions C173_circle.
Print Assumptions C173_cloverleaf.
Print Assumptions C173_apple.
Print Assumptions C173_peanut.
Print Assumptions C173_wobbly_dumbbell.
Print Assumptions C173_dumbbell.
Print Assumptions C173_drop.
Print Assumptions C174_clamp.
Print Assumptions C175_clamp_closed_refuted.
Print Assumptions C175_clamp_touches_refuted.
Print Assumptions C176_injective.
Print Assumptions C176_orientation.
Print Assumptions C176_third.
Print Assumptions C176_arguments.
