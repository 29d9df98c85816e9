(** * ShapeProps: C184-C187. *)
From Coq Require Import List Arith Reals Lra Psatz.
From Verif Require Import Np NpFacts Lin ROrd SurfModel CurveProofs ShapeModel ShapeSpec ShapeProofs.
Import ListNotations.
Local Open Scope R_scope.

(** the map of SurfModel, over the real numbers *)
Theorem C184_model a b f u v : torus_point Rcring cos sin a b f (u, v) = [px (torus_surface a b f u v); py (torus_surface a b f u v); pz (torus_surface a b f u v)].
Proof. reflexivity. Qed.

(** ** C184: the torus, the cruller and all tori with a modulated radius less than the major radius are closed, do not meet themselves and have a normal everywhere *)
Theorem C184_modulated a b f : (forall u v, 0 < b * f u v < a) -> (forall u v, f (u + 2 * PI) v = f u v /\ f u (v + 2 * PI) = f u v) ->
  (forall u v, exists du, derivable_pt_lim (fun s => f s v) u du) -> (forall u v, exists dv, derivable_pt_lim (fun s => f u s) v dv) ->
  doubly_periodic (torus_surface a b f) /\ embedded (torus_surface a b f) /\ immersed (torus_surface a b f).
Proof. intros Hb Hp Hu Hv. split; [now apply torus_periodic|]. split; [now apply torus_embedded|now apply torus_immersed]. Qed.

(** the distance from the circle of radius a *)
Lemma circle_distance a b f u v : 0 < b * f u v < a ->
  let p := torus_surface a b f u v in
  (sqrt (px p * px p + py p * py p) - a) * (sqrt (px p * px p + py p * py p) - a) + pz p * pz p = (b * f u v) * (b * f u v).
Proof.
  intros B. cbv zeta. unfold torus_surface, px, py, pz. cbn [fst snd]. pose proof (COS_bound v) as C. pose proof (sin2_cos2' u) as Tu. pose proof (sin2_cos2' v) as Tv.
  set (B0 := b * f u v) in *. set (P := a + B0 * cos v). assert (HP : 0 < P) by (unfold P; nra).
  replace (cos u * P * (cos u * P) + sin u * P * (sin u * P)) with (P * P) by (transitivity (P * P * (sin u * sin u + cos u * cos u)); [rewrite Tu; ring|ring]).
  rewrite sqrt_square by lra. unfold P. transitivity (B0 * B0 * (sin v * sin v + cos v * cos v)); [ring|rewrite Tv; ring].
Qed.
Theorem C184_torus a b : 0 < b < a -> doubly_periodic (torus a b) /\ embedded (torus a b) /\ immersed (torus a b) /\
  forall u v, let p := torus a b u v in (sqrt (px p * px p + py p * py p) - a) * (sqrt (px p * px p + py p * py p) - a) + pz p * pz p = b * b.
Proof.
  intros H. assert (Hb : forall u v, 0 < b * default_func u v < a) by (intros u v; unfold default_func; lra).
  destruct (C184_modulated a b default_func Hb) as (A & B & C).
  - intros u v. now split.
  - intros u v. exists 0. apply (deriv_const 1).
  - intros u v. exists 0. apply (deriv_const 1).
  - split; [exact A|]. split; [exact B|]. split; [exact C|]. intros u v. pose proof (circle_distance a b default_func u v (Hb u v)) as D. cbv zeta in D |- *. unfold torus. rewrite D. unfold default_func. ring.
Qed.
Theorem C184_cruller a b : 0 < b -> 5 / 4 * b < a -> doubly_periodic (cruller a b) /\ embedded (cruller a b) /\ immersed (cruller a b) /\
  forall u v, let p := cruller a b u v in
    3 / 4 * b <= sqrt ((sqrt (px p * px p + py p * py p) - a) * (sqrt (px p * px p + py p * py p) - a) + pz p * pz p) <= 5 / 4 * b.
Proof.
  intros Hb Ha. assert (HB : forall u v, 0 < b * cruller_func u v < a) by (intros u v; pose proof (cruller_bounds u v); nra).
  destruct (C184_modulated a b cruller_func HB) as (A & B & C).
  - apply cruller_func_periodic.
  - intros u v. eexists. unfold cruller_func. apply deriv_add; [apply deriv_const|]. apply deriv_scal, deriv_cos, deriv_add; [apply deriv_scal, deriv_id|apply deriv_const].
  - intros u v. eexists. unfold cruller_func. apply deriv_add; [apply deriv_const|]. apply deriv_scal, deriv_cos, deriv_add; [apply deriv_const|apply deriv_scal, deriv_id].
  - split; [exact A|]. split; [exact B|]. split; [exact C|]. intros u v. pose proof (circle_distance a b cruller_func u v (HB u v)) as D. cbv zeta in D |- *. unfold cruller. rewrite D.
    rewrite sqrt_square by (destruct (HB u v); lra). pose proof (cruller_bounds u v). nra.
Qed.

(** ** C185: what the documentation says *)
(** the documented formula for y has sin(v) in place of cos(v) *)
Theorem C185_documented_refuted : exists a b u v, 0 < b < a /\ documented_torus a b u v <> torus a b u v /\
  let p := documented_torus a b u v in (sqrt (px p * px p + py p * py p) - a) * (sqrt (px p * px p + py p * py p) - a) + pz p * pz p <> b * b.
Proof.
  exists 2, 1, (PI / 2), 0. split; [lra|]. unfold documented_torus, torus, torus_surface, default_func. rewrite cos_PI2, sin_PI2, cos_0, sin_0. split.
  - intros E. injection E as _ E _. lra.
  - cbv zeta. unfold px, py, pz. cbn [fst snd]. replace (0 * (2 + 1 * 1) * (0 * (2 + 1 * 1)) + 1 * (2 + 1 * 0) * (1 * (2 + 1 * 0))) with (2 * 2) by ring. rewrite sqrt_square by lra. lra.
Qed.
(** equal radii are accepted, but a whole circle of parameters has the same image *)
Theorem C185_equal_radii_refuted : exists a b, 0 < b /\ 0 < a /\ ~ embedded (torus a b) /\ forall u, torus a b u PI = (0, 0, 0).
Proof.
  assert (H : forall u, torus 1 1 u PI = (0, 0, 0)).
  { intros u. unfold torus, torus_surface, default_func. rewrite cos_PI, sin_PI. f_equal; [f_equal|]; ring. }
  exists 1, 1. split; [lra|]. split; [lra|]. split; [|exact H]. intros E. pose proof PI_RGT_0 as HP.
  destruct (E 0 PI 1 PI) as (E0 & _); [lra|lra|pose proof PI2_1; lra|lra|now rewrite !H|lra].
Qed.

(** ** C186: the urchin *)
Section Urchin.
  Variable sph : point -> R.
  Variable m : R.

  (** the nodes of the initial mesh keep their directions and get radii from m to m + 1, and both occur *)
  Theorem C186_range nodes vertices vs ns p0 q0 : urchin_warper sph m nodes vertices nodes = Ok (vs, ns) -> In p0 nodes -> In q0 nodes -> sph p0 <> sph q0 -> 0 <= m ->
    (forall p, In p nodes -> 0 < radius p) ->
    Forall2 (fun p q => exists c, 0 <= c /\ q = scale c p) nodes ns /\ (forall q, In q ns -> m <= radius q <= m + 1) /\
    (exists q, In q ns /\ radius q = m) /\ (exists q, In q ns /\ radius q = m + 1).
  Proof.
    intros E Hp Hq Hne Hm Hr. unfold urchin_warper in E. apply bind_ok in E as (lo & El & E). apply bind_ok in E as (hi & Eh & E). injection E as _ <-.
    destruct (amin_ok _ _ El) as (Il & Hl). destruct (amax_ok _ _ Eh) as (Ih & Hh).
    assert (HL : forall p, In p nodes -> lo <= sph p <= hi) by (intros p I; split; [apply Hl|apply Hh]; now apply in_map).
    assert (Hlt : lo < hi).
    { pose proof (HL p0 Hp). pose proof (HL q0 Hq). destruct (Rtotal_order (sph p0) (sph q0)) as [?|[?|?]]; [lra|contradiction|lra]. }
    assert (HR : forall p, In p nodes -> radius (map_coords sph m lo hi p) = m + (sph p - lo) / (hi - lo) /\ 0 <= (sph p - lo) / (hi - lo) <= 1).
    { intros p I. pose proof (HL p I) as B. pose proof (Hr p I) as P.
      assert (0 <= (sph p - lo) / (hi - lo)) by (apply Rmult_le_pos; [lra|left; apply Rinv_0_lt_compat; lra]).
      assert ((sph p - lo) / (hi - lo) <= 1) by (apply (Rmult_le_reg_r (hi - lo)); [lra|]; unfold Rdiv; rewrite Rmult_assoc, Rinv_l by lra; lra).
      split; [|split; assumption]. unfold map_coords. rewrite radius_scale, Rabs_pos_eq by (apply Rmult_le_pos; [lra|left; now apply Rinv_0_lt_compat]). unfold Rdiv at 1. rewrite Rmult_assoc, Rinv_l by lra. ring. }
    split; [|split; [|split]].
    - assert (G : forall l, (forall p, In p l -> In p nodes) -> Forall2 (fun p q => exists c, 0 <= c /\ q = scale c p) l (map (map_coords sph m lo hi) l)).
      { induction l as [|p l IH]; intros Hs; cbn [map]; constructor; [|apply IH; intros x Hx; apply Hs; now right].
        exists ((m + (sph p - lo) / (hi - lo)) / radius p). split; [|reflexivity]. destruct (HR p (Hs p (or_introl eq_refl))) as (_ & B). apply Rmult_le_pos; [lra|left; apply Rinv_0_lt_compat, Hr, Hs; now left]. }
      apply G. auto.
    - intros q I. apply in_map_iff in I as (p & <- & I). destruct (HR p I) as (-> & B). lra.
    - apply in_map_iff in Il as (p & Ep & I). exists (map_coords sph m lo hi p). split; [now apply in_map|]. destruct (HR p I) as (-> & _). rewrite Ep. unfold Rdiv. rewrite Rminus_diag_eq by reflexivity. ring.
    - apply in_map_iff in Ih as (p & Ep & I). exists (map_coords sph m lo hi p). split; [now apply in_map|]. destruct (HR p I) as (-> & _). rewrite Ep. unfold Rdiv. rewrite Rinv_r by lra. ring.
  Qed.
  (** vertices and nodes at the same place stay at the same place *)
  Theorem C186_vertices unwarped vertices nodes vs ns : urchin_warper sph m unwarped vertices nodes = Ok (vs, ns) -> length vs = length vertices /\ length ns = length nodes /\
    forall i j p, nth_error vertices i = Some p -> nth_error nodes j = Some p -> exists q, nth_error vs i = Some q /\ nth_error ns j = Some q.
  Proof.
    unfold urchin_warper. intros E. apply bind_ok in E as (lo & _ & E). apply bind_ok in E as (hi & _ & E). injection E as <- <-. rewrite !map_length. split; [reflexivity|]. split; [reflexivity|].
    intros i j p Hi Hj. exists (map_coords sph m lo hi p). rewrite !nth_error_map, Hi, Hj. split; reflexivity.
  Qed.
  (** points on different rays have different images, as long as the radii are positive *)
  Theorem C186_rays lo hi p q : lo < hi -> 0 < radius p -> 0 < radius q -> 0 < m + (sph p - lo) / (hi - lo) -> 0 < m + (sph q - lo) / (hi - lo) ->
    map_coords sph m lo hi p = map_coords sph m lo hi q -> exists c, 0 < c /\ q = scale c p.
  Proof.
    intros Hl Hp Hq Kp Kq E. unfold map_coords in E. set (cp := (m + (sph p - lo) / (hi - lo)) / radius p) in *. set (cq := (m + (sph q - lo) / (hi - lo)) / radius q) in *.
    assert (0 < cp) by (apply Rdiv_lt_0_compat; assumption). assert (0 < cq) by (apply Rdiv_lt_0_compat; assumption).
    exists (cp / cq). split; [now apply Rdiv_lt_0_compat|]. transitivity (scale (/ cq) (scale cq q)).
    - rewrite scale_scale, Rinv_l, scale_1 by lra. reflexivity.
    - rewrite <- E, scale_scale. f_equal. unfold Rdiv. ring.
  Qed.
  (** only the direction of a point matters *)
  Theorem C186_directions lo hi p c : (forall c p, 0 < c -> sph (scale c p) = sph p) -> 0 < c -> 0 < radius p -> map_coords sph m lo hi (scale c p) = map_coords sph m lo hi p.
  Proof.
    intros Hs Hc Hp. unfold map_coords. rewrite (Hs c p Hc), radius_scale, Rabs_pos_eq, scale_scale by lra. f_equal. set (t := m + (sph p - lo) / (hi - lo)). field. split; apply Rgt_not_eq; assumption.
  Qed.
  Theorem C186_empty vertices nodes : urchin_warper sph m [] vertices nodes = Err ValueError.
  Proof. reflexivity. Qed.
End Urchin.

(** ** C187: min_rad is not the least radius after refinement.

    The initial mesh of order 1 has the vertices of the icosahedron as nodes, and the harmonic of degree 1 and order 0 is a multiple of z/r.
    The first refinement adds the midpoint of the lowest edge, which is below all of them. *)
Definition phi : R := (1 + sqrt 5) / 2.
Definition ico : list point :=
  let s := [-1; 1] in flat_map (fun a => flat_map (fun b => [(0, a * 1, b * phi); (a * 1, b * phi, 0); (a * phi, 0, b * 1)]) s) s.
Definition ico_nodes : list point := map (scale (/ radius (0, 1, phi))) ico.
Definition midpoint (p q : point) : point := ((px p + px q) / 2, (py p + py q) / 2, (pz p + pz q) / 2).
Definition harmonic (p : point) : R := sqrt (3 / PI) / 2 * (pz p / radius p).

Lemma phi_bounds : 3 / 2 < phi < 17 / 10.
Proof.
  unfold phi. assert (2 < sqrt 5) by (rewrite <- (sqrt_square 2) by lra; apply sqrt_lt_1; lra). assert (sqrt 5 < 24 / 10) by (rewrite <- (sqrt_square (24 / 10)) by lra; apply sqrt_lt_1; lra). lra.
Qed.
Lemma ico_values p : In p ico -> radius p = radius (0, 1, phi) /\ - phi <= pz p <= phi.
Proof.
  pose proof phi_bounds as B. unfold ico. cbn [flat_map app In]. intros H.
  repeat (destruct H as [<-|H]; [split; [unfold radius, px, py, pz; cbn [fst snd]; f_equal; ring|unfold pz; cbn [snd]; lra]|]). contradiction.
Qed.
Theorem C187_min_rad_refuted : exists p q, In p ico_nodes /\ In q ico_nodes /\
  exists vs n, urchin_warper harmonic (1 / 20) ico_nodes [] [midpoint p q] = Ok (vs, [n]) /\ pz (midpoint p q) < 0 /\ 0 < pz n /\
  exists vs' n', urchin_warper harmonic (2 / 10) ico_nodes [] [midpoint p q] = Ok (vs', [n']) /\ radius n' < 2 / 10.
Proof.
  pose proof phi_bounds as B. set (r0 := radius (0, 1, phi)). assert (Hr0 : r0 * r0 = 1 + phi * phi).
  { unfold r0, radius, px, py, pz. cbn [fst snd]. rewrite sqrt_sqrt by nra. ring. }
  assert (Pr : 0 < r0) by (unfold r0, radius; apply sqrt_lt_R0; unfold px, py, pz; cbn [fst snd]; nra).
  assert (Hlow : 11 / 10 * phi < r0) by nra.
  set (k := sqrt (3 / PI) / 2). assert (Pk : 0 < k) by (unfold k; pose proof PI_RGT_0; assert (0 < sqrt (3 / PI)) by (apply sqrt_lt_R0, Rdiv_lt_0_compat; lra); lra).
  assert (Hv : forall p, In p ico_nodes -> radius p = 1 /\ - phi / r0 <= pz p <= phi / r0).
  { intros p Hp. unfold ico_nodes in Hp. fold r0 in Hp. apply in_map_iff in Hp as (x & <- & Hx). destruct (ico_values x Hx) as (E & Z). fold r0 in E.
    assert (Pi : 0 < / r0) by now apply Rinv_0_lt_compat. rewrite radius_scale, E, Rabs_pos_eq by lra. split; [apply Rinv_l; lra|].
    unfold scale, pz at 2. cbn [snd]. unfold Rdiv. unfold pz in Z |- *. cbn [fst snd] in *. nra. }
  assert (I1 : In (scale (/ r0) (0, -1 * 1, -1 * phi)) ico_nodes) by (unfold ico_nodes; fold r0; apply in_map; unfold ico; cbn [flat_map app In]; auto).
  assert (I2 : In (scale (/ r0) (0, 1 * 1, -1 * phi)) ico_nodes) by (unfold ico_nodes; fold r0; apply in_map; unfold ico; cbn [flat_map app In]; auto 10).
  assert (I3 : In (scale (/ r0) (0, -1 * 1, 1 * phi)) ico_nodes) by (unfold ico_nodes; fold r0; apply in_map; unfold ico; cbn [flat_map app In]; auto 10).
  assert (Hh : forall p, In p ico_nodes -> k * (- phi / r0) <= harmonic p <= k * (phi / r0)).
  { intros p Hp. destruct (Hv p Hp) as (E & Z). unfold harmonic. fold k. rewrite E. unfold Rdiv at 2 3. rewrite Rinv_1, Rmult_1_r. split; apply Rmult_le_compat_l; lra. }
  assert (V1 : harmonic (scale (/ r0) (0, -1 * 1, -1 * phi)) = k * (- phi / r0)).
  { destruct (Hv _ I1) as (E & _). unfold harmonic. fold k. rewrite E. unfold scale, pz. cbn [snd]. field. lra. }
  assert (V3 : harmonic (scale (/ r0) (0, -1 * 1, 1 * phi)) = k * (phi / r0)).
  { destruct (Hv _ I3) as (E & _). unfold harmonic. fold k. rewrite E. unfold scale, pz. cbn [snd]. field. lra. }
  assert (exists lo, amin (map harmonic ico_nodes) = Ok lo) as (lo & El) by (unfold ico_nodes, ico; eexists; reflexivity).
  assert (exists hi, amax (map harmonic ico_nodes) = Ok hi) as (hi & Eh) by (unfold ico_nodes, ico; eexists; reflexivity).
  assert (Elo : lo = k * (- phi / r0)).
  { destruct (amin_ok _ _ El) as (I & L). apply in_map_iff in I as (p & <- & Ip). pose proof (Hh p Ip). pose proof (L _ (in_map harmonic _ _ I1)) as L1. rewrite V1 in L1. lra. }
  assert (Ehi : hi = k * (phi / r0)).
  { destruct (amax_ok _ _ Eh) as (I & L). apply in_map_iff in I as (p & <- & Ip). pose proof (Hh p Ip). pose proof (L _ (in_map harmonic _ _ I3)) as L1. rewrite V3 in L1. lra. }
  set (p1 := scale (/ r0) (0, -1 * 1, -1 * phi)). set (p2 := scale (/ r0) (0, 1 * 1, -1 * phi)). exists p1, p2. split; [exact I1|]. split; [exact I2|].
  assert (Em : midpoint p1 p2 = (0, 0, - (phi / r0))).
  { unfold midpoint, p1, p2, scale, px, py, pz. cbn [fst snd]. f_equal; [f_equal|]; field; lra. }
  assert (Pp : 0 < phi / r0) by (apply Rdiv_lt_0_compat; lra).
  assert (Rm : radius (0, 0, - (phi / r0)) = phi / r0).
  { unfold radius, px, py, pz. cbn [fst snd]. replace (0 * 0 + 0 * 0 + - (phi / r0) * - (phi / r0)) with (phi / r0 * (phi / r0)) by ring. apply sqrt_square. lra. }
  assert (Hm : harmonic (0, 0, - (phi / r0)) = - k).
  { unfold harmonic. fold k. rewrite Rm. unfold pz. cbn [snd]. set (w := phi / r0) in *. field. lra. }
  assert (Hs : (- k - lo) / (hi - lo) = (1 - r0 / phi) / 2).
  { rewrite Elo, Ehi. field. split; [lra|]. split; [lra|]. replace (k * phi - k * - phi) with (2 * (k * phi)) by ring. apply Rgt_not_eq. nra. }
  assert (Hq : 11 / 10 < r0 / phi) by (apply (Rmult_lt_reg_r phi); [lra|]; unfold Rdiv at 2; rewrite Rmult_assoc, Rinv_l by lra; lra).
  assert (Hq2 : r0 / phi < 14 / 10).
  { assert (r0 < 14 / 10 * phi) by nra. apply (Rmult_lt_reg_r phi); [lra|]. unfold Rdiv at 1. rewrite Rmult_assoc, Rinv_l by lra. lra. }
  exists [], (map_coords harmonic (1 / 20) lo hi (midpoint p1 p2)). split; [|split; [|split]].
  - unfold urchin_warper. rewrite El. cbn [bind]. rewrite Eh. reflexivity.
  - rewrite Em. unfold pz. cbn [snd]. lra.
  - rewrite Em. unfold map_coords. rewrite Hm, Rm, Hs. unfold scale, pz. cbn [snd]. set (t := 1 / 20 + (1 - r0 / phi) / 2). assert (t < 0) by (unfold t; lra).
    replace (t / (phi / r0) * - (phi / r0)) with (- t); [lra|]. field. lra.
  - exists [], (map_coords harmonic (2 / 10) lo hi (midpoint p1 p2)). split; [unfold urchin_warper; rewrite El; cbn [bind]; rewrite Eh; reflexivity|].
    rewrite Em. unfold map_coords. rewrite Hm, Rm, Hs, radius_scale, Rm. set (t := 2 / 10 + (1 - r0 / phi) / 2). assert (0 <= t < 2 / 10) by (unfold t; lra).
    rewrite Rabs_pos_eq by (apply Rmult_le_pos; [lra|left; now apply Rinv_0_lt_compat]). replace (t / (phi / r0) * (phi / r0)) with t; [lra|]. field. lra.
Qed.

(** concrete tori and an urchin *)
Example C184_example : embedded (torus 3 1) /\ immersed (cruller 3 2) /\ torus 3 1 0 0 = (4, 0, 0).
Proof.
  split; [apply C184_torus; lra|]. split; [apply C184_cruller; lra|]. unfold torus, torus_surface, default_func. rewrite cos_0, sin_0. f_equal; [f_equal|]; ring.
Qed.
Example C186_example : exists vs ns, urchin_warper (fun p => pz p) 1 [(0, 0, 1); (0, 0, -1)] [] [(0, 0, 1); (0, 0, -1)] = Ok (vs, ns) /\ radius (0, 0, 1) = 1 /\ radius (0, 0, -1) = 1.
Proof.
  eexists. eexists. split; [reflexivity|]. unfold radius, px, py, pz. cbn [fst snd]. split; [replace (0 * 0 + 0 * 0 + 1 * 1) with 1 by ring|replace (0 * 0 + 0 * 0 + -1 * -1) with 1 by ring]; exact sqrt_1.
Qed.

Print Assumptions C184_model.
Print Assumptions C184_modulated.
Print Assumptions C184_torus.
Print Assumptions C184_cruller.
Print Assumptions C185_documented_refuted.
Print Assumptions C185_equal_radii_refuted.
Print Assumptions C186_range.
Print Assumptions C186_vertices.
Print Assumptions C186_rays.
Print Assumptions C186_directions.
Print Assumptions C186_empty.
Print Assumptions C187_min_rad_refuted.
