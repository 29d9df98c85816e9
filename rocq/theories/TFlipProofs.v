(** * TFlipProofs: flips and orientations of tensor product elements. *)
From Coq Require Import List Arith Bool ZArith Lia Ring.
From Verif Require Import Np NpFacts MeshModel Lin Ord ProcModel ProcSpec PointModel PointSpec PointProofs PointProps GenSpec ConsistMainProofs TFlipModel TFlipSpec.
Import ListNotations.

Lemma across_lt d k : k < 2 ^ S d -> across k < 2 ^ S d.
Proof.
  intros H. unfold across. destruct (Nat.even k) eqn:E; [|lia]. apply Nat.even_spec in E as (j & ->). cbn [Nat.pow] in *. lia.
Qed.
Lemma across_invol k : across (across k) = k.
Proof.
  unfold across. destruct (Nat.even k) eqn:E.
  - rewrite Nat.even_succ, <- Nat.negb_even, E. reflexivity.
  - destruct k as [|k]; [discriminate|]. cbn [pred]. rewrite Nat.even_succ, <- Nat.negb_even in E. destruct (Nat.even k); [reflexivity|discriminate].
Qed.
Lemma across_half k : Nat.div2 (across k) = Nat.div2 k.
Proof.
  unfold across. destruct (Nat.even k) eqn:E.
  - apply Nat.even_spec in E as (j & ->). rewrite Nat.div2_double. apply Nat.div2_succ_double.
  - assert (O : Nat.odd k = true) by (rewrite <- Nat.negb_even, E; reflexivity). apply Nat.odd_spec in O as (j & ->). replace (pred (2 * j + 1)) with (2 * j) by lia. rewrite Nat.div2_double. replace (2 * j + 1) with (S (2 * j)) by lia. now rewrite Nat.div2_succ_double.
Qed.
Lemma testbit_half k i : Nat.testbit (Nat.div2 k) i = Nat.testbit k (S i).
Proof. reflexivity. Qed.
Lemma nth_pairs {A B} (f g : A -> B) l k : nth_error (flat_map (fun c => [f c; g c]) l) k = match nth_error l (Nat.div2 k) with Some c => Some (if Nat.even k then f c else g c) | None => None end.
Proof.
  revert k. induction l as [|c l IH]; intros k; cbn [flat_map app]; [now destruct k, (Nat.div2 _)|].
  destruct k as [|[|k]]; [reflexivity|reflexivity|]. cbn [nth_error Nat.div2 Nat.even]. apply IH.
Qed.

Section Corners.
  Variable R : ocring.
  Add Ring Rtf : (rth R).
  Local Open Scope cring_scope.
  Local Notation cc := (corner_coords R).

  Lemma cc_cons d k : cc (S d) k = (if Nat.even k then - (1) else 1) :: cc d (Nat.div2 k).
  Proof.
    unfold corner_coords. cbn [seq map]. f_equal.
    - rewrite Nat.bit0_odd, <- Nat.negb_even. now destruct (Nat.even k).
    - rewrite <- seq_shift, map_map. apply map_ext. intros i. now rewrite testbit_half.
  Qed.
  Lemma div2_lt d k : (k < 2 ^ S d -> Nat.div2 k < 2 ^ d)%nat.
  Proof. intros H. rewrite Nat.div2_div. apply Nat.div_lt_upper_bound; [lia|]. cbn [Nat.pow] in H. lia. Qed.
  Lemma corners_nth d : forall k, (k < 2 ^ d)%nat -> nth_error (corners R d) k = Some (cc d k).
  Proof.
    induction d as [|d IH]; intros k Hk; cbn [corners].
    - cbn in Hk. assert (k = 0)%nat as -> by lia. reflexivity.
    - rewrite nth_pairs, IH, cc_cons by now apply div2_lt. now destruct (Nat.even k).
  Qed.
  Lemma corners_length d : length (corners R d) = (2 ^ d)%nat.
  Proof.
    induction d as [|d IH]; [reflexivity|]. cbn [corners Nat.pow]. rewrite <- IH. clear IH. generalize (corners R d). intros l. induction l as [|c l IH]; [reflexivity|]. cbn [flat_map app length]. lia.
  Qed.
  Lemma corners_map d : corners R d = map (cc d) (seq 0 (2 ^ d)).
  Proof.
    apply nth_error_ext'. intros k. destruct (Nat.lt_ge_cases k (2 ^ d)) as [H|H].
    - rewrite corners_nth by exact H. rewrite nth_error_map, (nth_error_nth' _ 0%nat) by (rewrite seq_length; exact H). now rewrite seq_nth.
    - rewrite (proj2 (nth_error_None _ _)) by (rewrite corners_length; lia). rewrite (proj2 (nth_error_None _ _)); [reflexivity|]. rewrite map_length, seq_length. lia.
  Qed.
  Lemma sqdist_nonneg (x y : list R) : (0 <=? sqdist x y) = true.
  Proof. revert y. induction x as [|a x IH]; intros [|b y]; cbn [sqdist]; try apply ole_refl. apply ole_add_nonneg; [apply square_nonneg|apply IH]. Qed.
  Lemma sqdist_self (x : list R) : sqdist x x = 0.
  Proof. induction x as [|a x IH]; [reflexivity|]. cbn [sqdist]. rewrite IH. ring. Qed.
  Lemma cc_apart d : forall j k, (j < 2 ^ d)%nat -> (k < 2 ^ d)%nat -> j <> k -> ((1 + 1) * (1 + 1) <=? sqdist (cc d j) (cc d k)) = true.
  Proof.
    induction d as [|d IH]; intros j k Hj Hk Hne; [cbn in Hj, Hk; lia|]. rewrite !cc_cons. cbn [sqdist].
    destruct (Nat.eq_dec (Nat.div2 j) (Nat.div2 k)) as [E|E].
    - rewrite E, sqdist_self. assert (Ho : Nat.even j <> Nat.even k).
      { intros Ho. apply Hne. rewrite (Nat.div2_odd j), (Nat.div2_odd k), E, <- !Nat.negb_even, Ho. reflexivity. }
      destruct (Nat.even j), (Nat.even k); try congruence.
      + replace ((- (1) - 1) * (- (1) - 1) + 0) with ((1 + 1) * (1 + 1) : R) by ring. apply ole_refl.
      + replace ((1 - - (1)) * (1 - - (1)) + 0) with ((1 + 1) * (1 + 1) : R) by ring. apply ole_refl.
    - eapply ole_trans; [exact (IH _ _ (div2_lt d j Hj) (div2_lt d k Hk) E)|]. apply diff_le.
      match goal with |- (0 <=? ?a * ?a + ?s - ?s) = true => replace (a * a + s - s) with (a * a) by ring end. apply square_nonneg.
  Qed.

  Variable median : list R -> R.
  Variable tol : R.
  Hypothesis tol_nonneg : (0 <=? tol) = true.
  Hypothesis tol_pos : (0 <? tol * tol) = true.
  Hypothesis tol_small : (tol * tol <=? (1 + 1) * (1 + 1)) = true.

  Lemma find_corners d ks : (1 <= d <= 7)%nat -> Forall (fun k => k < 2 ^ d)%nat ks -> (length ks <= 128)%nat ->
    find_points R median tol d (map (cc d) ks) = Ok (map Z.of_nat ks).
  Proof using tol_nonneg tol_pos tol_small.
    intros Hd Hks Hl. unfold find_points.
    assert (Hp : (2 ^ d <= 128)%nat) by (change 128%nat with (2 ^ 7)%nat; apply Nat.pow_le_mono_r; lia).
    destruct (C21_small_sets_have_result R median 0 tol 256 d (map (cc d) ks) (corners R d)) as (r & Hr).
    { lia. } { intros E. pose proof (corners_length d) as K. rewrite E in K. cbn in K. pose proof (Nat.pow_nonzero 2 d). lia. } { rewrite map_length, corners_length. lia. }
    rewrite Hr. apply C21_matching_sound_and_complete in Hr; [|exact tol_nonneg|lia]. f_equal. unfold matching in Hr.
    clear Hl. revert r Hr. induction Hks as [|k ks Hk Hks IH]; intros r Hr; cbn [map] in Hr |- *; inversion Hr as [|? z ? r' Hz Hr']; subst; [reflexivity|]. f_equal; [|now apply IH].
    destruct Hz as [(_ & Hz)|(j & t & -> & Hj & Hw)].
    - exfalso. apply (Hz (cc d k)); [eapply nth_error_In; now apply corners_nth|]. unfold within. now rewrite sqdist_self.
    - f_equal. destruct (Nat.eq_dec j k) as [|Hne]; [assumption|]. exfalso. assert (Hjl : (j < 2 ^ d)%nat) by (rewrite <- corners_length; apply nth_error_Some; congruence).
      rewrite corners_nth in Hj by exact Hjl. injection Hj as <-. unfold within in Hw. pose proof (cc_apart d k j Hk Hjl (fun E => Hne (eq_sym E))) as K.
      pose proof (ole_trans _ _ _ _ tol_small K) as K'. apply olt_iff in Hw. congruence.
  Qed.

  Lemma flip_cc d k : flip_first R (cc (S d) k) = cc (S d) (across k).
  Proof using. rewrite !cc_cons, across_half. cbn [flip_first]. f_equal. unfold across. destruct (Nat.even k) eqn:E.
    - rewrite Nat.even_succ, <- Nat.negb_even, E. cbn [negb]. ring.
    - destruct k as [|k]; [discriminate|]. cbn [pred]. rewrite Nat.even_succ, <- Nat.negb_even in E. destruct (Nat.even k); [reflexivity|discriminate].
  Qed.

  Variable resampling : nat -> list (list R) -> list (list R) -> list (list R).
  Variable near_identity : list (list R) -> bool.
  Lemma tensor_flip_ok d order un : (1 <= d <= 7)%nat ->
    tensor_flip R median tol resampling near_identity d order un =
    let M := resampling order (map (mirror R) un) un in
    if near_identity (matmul (length un) M M) then Ok (M, map across (seq 0 (2 ^ d))) else Err AssertionError.
  Proof using tol_nonneg tol_pos tol_small.
    intros Hd. unfold tensor_flip. destruct d as [|d]; [lia|]. cbn [Nat.eqb negb guard bind].
    assert (E : map (flip_first R) (corners R (S d)) = map (cc (S d)) (map across (seq 0 (2 ^ S d)))). { rewrite corners_map, !map_map. apply map_ext. intros k. apply flip_cc. }
    rewrite E, find_corners; [|lia| |rewrite map_length, seq_length; change 128%nat with (2 ^ 7)%nat; apply Nat.pow_le_mono_r; lia].
    2: { apply Forall_map, Forall_forall. intros k Hk. apply in_seq in Hk. apply across_lt. lia. }
    cbn [bind]. assert (Ef : forallb (fun z => (0 <=? z)%Z) (map Z.of_nat (map across (seq 0 (2 ^ S d)))) = true). { apply forallb_forall. intros z Hz. apply in_map_iff in Hz as (k & <- & _). apply Z.leb_le. lia. }
    rewrite Ef. cbn [guard bind]. rewrite (map_map Z.of_nat), (map_ext (fun x => Z.to_nat (Z.of_nat x)) (fun x => x)) by (intros; lia). rewrite map_id.
    change (flip_first R) with (mirror R). cbv zeta. destruct (near_identity _); reflexivity.
  Qed.

  Lemma testbit_pow i j : Nat.testbit (2 ^ i) j = (j =? i)%nat.
  Proof. rewrite Nat.pow2_bits_eqb. apply Nat.eqb_sym. Qed.
  Lemma tensor_span_ok d : (1 <= d <= 7)%nat -> tensor_span R median tol d = Ok (0%nat, map (fun i => 2 ^ i)%nat (seq 0 d)).
  Proof using tol_nonneg tol_pos tol_small.
    intros Hd. unfold tensor_span.
    assert (E0 : [map (fun _ => - (1)) (seq 0 d)] = map (cc d) [0%nat]). { cbn [map]. f_equal. apply map_ext. intros i. now rewrite Nat.bits_0. }
    rewrite E0, find_corners; [|lia|repeat constructor; pose proof (Nat.pow_nonzero 2 d); lia|cbn; lia]. cbn [bind map unpack_single]. change (vertex_index d (Z.of_nat 0)) with 0%nat.
    assert (E : mapM (fun i => z <- find_points R median tol d [spanning_corner R d i];; unpack_single d z) (seq 0 d) = Ok (map (fun i => 2 ^ i)%nat (seq 0 d))); [|now rewrite E].
    apply mapM_map_ok. intros i Hi. apply in_seq in Hi.
    assert (Es : [spanning_corner R d i] = map (cc d) [2 ^ i]%nat). { cbn [map]. f_equal. unfold spanning_corner, corner_coords. apply map_ext. intros j. rewrite testbit_pow. destruct (j =? i)%nat; ring. }
    rewrite Es, find_corners; [|lia|repeat constructor; apply Nat.pow_lt_mono_r; lia|cbn; lia]. cbn [bind map unpack_single]. unfold vertex_index. destruct (Z.of_nat (2 ^ i) <? 0)%Z eqn:El; [apply Z.ltb_lt in El; lia|]. now rewrite Nat2Z.id.
  Qed.
End Corners.

Lemma across_involutive d : (1 <= d)%nat -> involutive (map across (seq 0 (2 ^ d))).
Proof.
  intros Hd j p H. destruct d as [|d]; [lia|]. rewrite nth_error_map in H. destruct (nth_error (seq 0 (2 ^ S d)) j) as [j'|] eqn:E; [|discriminate]. cbn in H. assert (j < 2 ^ S d) by (rewrite <- (seq_length (2 ^ S d) 0); apply nth_error_Some; congruence).
  rewrite (nth_error_nth' _ 0) in E by (rewrite seq_length; lia). rewrite seq_nth in E by lia. assert (j' = j) as -> by (cbn in E; congruence). assert (p = across j) as -> by congruence.
  rewrite nth_error_map, (nth_error_nth' _ 0) by (rewrite seq_length; now apply across_lt). rewrite seq_nth by now apply across_lt. cbn. f_equal. apply across_invol.
Qed.

Section Orientation.
  Variable R : ocring.
  Add Ring Rto : (rth R).
  Local Open Scope cring_scope.

  Lemma span_ok (vertices : list (list R)) row ps b six : corner_points vertices row ps ->
    (b < length ps)%nat -> Forall (fun k => k < length ps)%nat six ->
    element_orientation R b six vertices row = signed_volume R (map (fun k => vsub (nth k ps []) (nth b ps [])) six).
  Proof.
    intros Hc Hb Hs. unfold element_orientation.
    assert (G : forall k, (k < length ps)%nat -> exists v, get row k = Ok v /\ get vertices v = Ok (nth k ps [])).
    { intros k Hk. destruct (Forall2_nth_error_r _ _ _ _ _ Hc (nth_error_nth' ps [] Hk)) as (v & Hv & Hp). exists v. split; now apply get_ok. }
    destruct (G b Hb) as (v & -> & E). cbn [bind]. rewrite E. cbn [bind].
    assert (E2 : mapM (fun k => v0 <- get row k;; x <- get vertices v0;; Ok (vsub x (nth b ps []))) six = Ok (map (fun k => vsub (nth k ps []) (nth b ps [])) six)); [|now rewrite E2].
    apply mapM_map_ok. intros k Hk. rewrite Forall_forall in Hs. destruct (G k (Hs k Hk)) as (w & -> & E3). cbn [bind]. now rewrite E3.
  Qed.

  Lemma opp_pos (a : R) : a <? 0 = true -> 0 <? - a = true.
  Proof.
    intros H. apply olt_iff. apply olt_iff in H. destruct (- a <=? 0) eqn:E; [|reflexivity]. apply le_diff in E. replace (0 - - a) with a in E by ring. congruence.
  Qed.

  (** the vertices after the flip *)
  Definition flipped_points (ps : list (list R)) : list (list R) := map (fun k => nth (across k) ps []) (seq 0 (length ps)).

  Lemma det_first_row d (u v : list R) us : (1 <= d <= 3)%nat -> length u = d -> length v = d -> length us = pred d -> Forall (fun w => length w = d) us ->
    det R d (vsub u v :: us) = - det R d (vsub v u :: us).
  Proof.
    intros Hd Hu Hv Hl HF. destruct d as [|[|[|[|d]]]]; try lia.
    - destruct us; cbn in Hl; try lia. destruct u as [|a [|]]; cbn in Hu; try lia. destruct v as [|b [|]]; cbn in Hv; try lia. cbn. ring.
    - destruct us as [|w [|]]; cbn in Hl; try lia. apply Forall_cons_iff in HF as (H1 & _). destruct u as [|a [|a' [|]]]; cbn in Hu; try lia. destruct v as [|b [|b' [|]]]; cbn in Hv; try lia. destruct w as [|c [|c' [|]]]; cbn in H1; try lia. cbn. ring.
    - destruct us as [|w [|x [|]]]; cbn in Hl; try lia. apply Forall_cons_iff in HF as (H1 & HF). apply Forall_cons_iff in HF as (H2 & _). destruct u as [|a [|a' [|a'' [|]]]]; cbn in Hu; try lia. destruct v as [|b [|b' [|b'' [|]]]]; cbn in Hv; try lia. destruct w as [|c [|c' [|c'' [|]]]]; cbn in H1; try lia. destruct x as [|e [|e' [|e'' [|]]]]; cbn in H2; try lia. cbn. ring.
  Qed.

  Lemma vsub_length (u v : list R) d : length u = d -> length v = d -> length (vsub u v) = d.
  Proof. intros H1 H2. unfold vsub. revert v d H1 H2. induction u as [|a u IH]; intros [|b v] d H1 H2; cbn in *; try lia. destruct d as [|d]; [lia|]. f_equal. apply IH; lia. Qed.

  Lemma pow_lt d i : (i < d -> 2 ^ i < 2 ^ d)%nat.
  Proof. intros. apply Nat.pow_lt_mono_r; lia. Qed.

  Lemma orientations d (vertices : list (list R)) row row' ps : (1 <= d <= 3)%nat -> length ps = (2 ^ d)%nat -> Forall (fun p => length p = d) ps ->
    corner_points vertices row ps -> length row' = length row -> (forall k, (k < 2 ^ d)%nat -> nth_error row' k = nth_error row (across k)) ->
    element_orientation R 0 (map (fun i => 2 ^ i)%nat (seq 0 d)) vertices row = Ok (jacobian R d ps 0) /\
    element_orientation R 0 (map (fun i => 2 ^ i)%nat (seq 0 d)) vertices row' = Ok (- jacobian R d ps 1).
  Proof.
    intros Hd Hl Hp Hc Hr' Hrow'.
    assert (Hpow : (0 < 2 ^ d)%nat) by (pose proof (Nat.pow_nonzero 2 d); lia).
    assert (Hnth : forall k, (k < 2 ^ d)%nat -> length (nth k ps []) = d). { intros k Hk. rewrite Forall_forall in Hp. apply Hp. apply nth_In. lia. }
    assert (Hsix : Forall (fun k => (k < 2 ^ d)%nat) (map (fun i => 2 ^ i)%nat (seq 0 d))). { apply Forall_map, Forall_forall. intros i Hi. apply in_seq in Hi. apply pow_lt. lia. }
    assert (Hc' : corner_points vertices row' (flipped_points ps)).
    { unfold corner_points, flipped_points. rewrite Hl. apply Forall2_intro_nth; [rewrite map_length, seq_length, Hr', (Forall2_length' _ _ _ Hc); exact Hl|].
      intros k v p Hv Hpk. rewrite nth_error_map in Hpk. assert (Hk : (k < 2 ^ d)%nat). { destruct (nth_error (seq 0 (2 ^ d)) k) eqn:E; [|discriminate]. rewrite <- (seq_length (2 ^ d) 0). apply nth_error_Some. congruence. }
      rewrite (nth_error_nth' _ 0%nat), seq_nth in Hpk by (rewrite ?seq_length; exact Hk). cbn in Hpk. assert (p = nth (across k) ps []) as -> by congruence. rewrite Hrow' in Hv by exact Hk.
      destruct d as [|d]; [lia|]. assert (Ha : (across k < length ps)%nat) by (rewrite Hl; now apply across_lt). destruct (Forall2_nth_error _ _ _ _ _ Hc Hv) as (q & Hq & Hq'). rewrite (nth_error_nth' ps [] Ha) in Hq. congruence. }
    assert (Hl' : length (flipped_points ps) = (2 ^ d)%nat) by (unfold flipped_points; now rewrite map_length, seq_length).
    assert (Hfl : forall k, (k < 2 ^ d)%nat -> nth k (flipped_points ps) [] = nth (across k) ps []). { intros k Hk. unfold flipped_points. rewrite Hl. rewrite (nth_indep _ [] (nth (across 0) ps [])) by (rewrite map_length, seq_length; exact Hk). rewrite (map_nth (fun k => nth (across k) ps [])), seq_nth by exact Hk. reflexivity. }
    split.
    - rewrite (span_ok vertices row ps) by (rewrite ?Hl; auto). rewrite map_map. rewrite (signed_volume_det R d); [|exact Hd|now rewrite map_length, seq_length|].
      + f_equal. unfold jacobian. f_equal. apply map_ext. intros i. unfold set_bit, clear_bit. rewrite Nat.bits_0. reflexivity.
      + apply Forall_map, Forall_forall. intros i Hi. apply in_seq in Hi. apply vsub_length; apply Hnth; [apply pow_lt; lia|lia].
    - rewrite (span_ok vertices row' (flipped_points ps)) by (rewrite ?Hl'; auto). rewrite map_map. rewrite (signed_volume_det R d); [|exact Hd|now rewrite map_length, seq_length|].
      2: { apply Forall_map, Forall_forall. intros i Hi. apply in_seq in Hi. destruct d as [|d]; [lia|]. apply vsub_length; rewrite Hfl; try (apply Hnth, across_lt); try (apply pow_lt); lia. }
      f_equal. unfold jacobian. destruct d as [|d]; [lia|]. cbn [seq map].
      rewrite !Hfl by (try apply pow_lt; lia). change (across (2 ^ 0)) with 0%nat. change (across 0) with 1%nat. change (set_bit 1 0) with 1%nat. change (clear_bit 1 0) with 0%nat.
      rewrite (det_first_row (S d) (nth 0 ps []) (nth 1 ps [])); [|exact Hd|apply Hnth; lia|apply Hnth; cbn [Nat.pow] in Hpow |- *; lia|now rewrite map_length, seq_length|].
      2: { apply Forall_map, Forall_forall. intros i Hi. apply in_seq in Hi. apply vsub_length; rewrite ?Hfl by (apply pow_lt; lia); try (apply Hnth, across_lt, pow_lt; lia). apply Hnth. apply (across_lt d 0). lia. }
      f_equal. f_equal. f_equal. apply map_ext_in. intros i Hi. apply in_seq in Hi. rewrite !Hfl by (try apply pow_lt; lia). change (across 0) with 1%nat.
      assert (Ea : across (2 ^ i) = (1 + 2 ^ i)%nat). { unfold across. assert (Ev : Nat.even (2 ^ i) = true); [|now rewrite Ev]. destruct i as [|i]; [lia|]. apply Nat.even_spec. exists (2 ^ i)%nat. reflexivity. }
      rewrite Ea. unfold set_bit, clear_bit. assert (Et : Nat.testbit 1 i = false). { destruct i as [|i]; [lia|]. rewrite <- testbit_half. apply Nat.bits_0. } rewrite Et. reflexivity.
  Qed.
End Orientation.
