(** * RGeoProofs: the geometry of refined elements. *)
From Coq Require Import List Arith Bool Lia Ring.
From Verif Require Import Np NpFacts MeshModel Lin ProcModel RefineModel RefineSpec RGeoModel RGeoSpec.
Import ListNotations.

Lemma pow2_lt i d : i < d -> 2 ^ i < 2 ^ d.
Proof. intros. apply Nat.pow_lt_mono_r; lia. Qed.

Section Geo.
  Variable R : cring.
  Add Ring Rrg : (rth R).
  Local Open Scope cring_scope.
  Variable half : R.
  Hypothesis half2 : half + half = 1.

  Lemma of_nat_num n : of_nat R n = num R n.
  Proof using. induction n as [|n IH]; [reflexivity|]. unfold of_nat in *. cbn [Nat.iter nat_rect num]. now rewrite <- IH. Qed.
  Lemma num_add m n : num R (m + n) = num R m + num R n.
  Proof using. induction m as [|m IH]; cbn [Nat.add num]; [ring|]. rewrite IH. ring. Qed.
  Lemma position_ref t : minus_one R (ref_point R t) = position R t.
  Proof using. unfold minus_one, ref_point, position. rewrite map_map. apply map_ext. intros n. rewrite of_nat_num. ring. Qed.

  Definition at_ (i : nat) (v : list R) : R := nth i v 0.
  Lemma at_eq d (u v : list R) : length u = d -> length v = d -> (forall i, (i < d)%nat -> at_ i u = at_ i v) -> u = v.
  Proof using. intros Hu Hv H. apply (nth_ext u v 0 0); [congruence|]. intros i Hi. apply H. lia. Qed.
  Lemma at_map2 f (u v : list R) d i : length u = d -> length v = d -> (i < d)%nat -> at_ i (map2 f u v) = f (at_ i u) (at_ i v).
  Proof using. unfold at_. revert v d i. induction u as [|x u IH]; intros [|y v] d i Hu Hv Hi; cbn [length] in *; try lia. destruct i as [|i]; [reflexivity|]. cbn [map2 nth]. apply (IH v (pred d)); lia. Qed.
  Lemma at_map {X} (f : X -> R) l i x : nth_error l i = Some x -> at_ i (map f l) = f x.
  Proof using. intros H. unfold at_. apply nth_error_nth. now rewrite nth_error_map, H. Qed.
  Lemma at_seq (f : nat -> R) d i : (i < d)%nat -> at_ i (map f (seq 0 d)) = f i.
  Proof using. intros H. apply at_map. rewrite (nth_error_nth' _ 0%nat) by (rewrite seq_length; exact H). now rewrite seq_nth. Qed.
  Lemma at_vecmat n (row : list R) N i : length row = length N -> Forall (fun r => length r = n) N -> (i < n)%nat ->
    at_ i (vecmat n row N) = dot row (map (at_ i) N).
  Proof using.
    unfold vecmat. revert row. induction N as [|b N IH]; intros [|c row] Hl HN Hi; cbn [length] in Hl; try lia.
    - cbn [map2 fold_right map]. unfold dot. cbn [map2 rsum]. unfold at_, zeros. now rewrite nth_repeat.
    - apply Forall_cons_iff in HN as (Hb & HN). cbn [map2 fold_right map]. rewrite dot_cons. unfold vadd.
      rewrite (at_map2 _ _ _ n); [|unfold vscale; rewrite map_length; exact Hb|apply (vecmat_length R n row N); [lia|exact HN]|exact Hi].
      rewrite IH by (try exact HN; lia). f_equal. unfold vscale. rewrite (at_map _ b i (at_ i b)); [reflexivity|]. unfold at_. apply nth_error_nth'. lia.
  Qed.

  Definition unit_ (x : R) : R := (x + 1) * half.
  Lemma dot_unit (u w : list R) : length u = length w -> dot (map unit_ u) w = half * (dot u w + rsum w).
  Proof using. unfold dot, unit_. revert w. induction u as [|x u IH]; intros [|y w] Hl; cbn [length] in Hl; try lia; cbn [map map2 rsum]; [ring|]. rewrite IH by lia. ring. Qed.
  Lemma dot_scale a (u v : list R) : dot (map (rmul a) u) v = a * dot u v.
  Proof using. exact (dot_vscale_l R a u v). Qed.

  Definition Tmap (d : nat) (o : list R) (basis : list (list R)) (u : list R) : list R :=
    minus_one R (vadd (vecmat d (map unit_ u) basis) o).
  Section T.
    Variables (d : nat) (o : list R) (basis : list (list R)).
    Hypothesis Ho : length o = d.
    Hypothesis Hb : length basis = d.
    Hypothesis HB : Forall (fun r => length r = d) basis.
    Lemma T_length u : length u = d -> length (Tmap d o basis u) = d.
    Proof using Ho Hb HB. intros Hu. unfold Tmap, minus_one. rewrite map_length, vadd_length; rewrite (vecmat_length R d); rewrite ?map_length; auto; lia. Qed.
    Lemma T_at u i : length u = d -> (i < d)%nat -> at_ i (Tmap d o basis u) = dot (map unit_ u) (map (at_ i) basis) + at_ i o - 1.
    Proof using Ho Hb HB.
      intros Hu Hi. assert (Hv : length (vecmat d (map unit_ u) basis) = d) by (apply (vecmat_length R d); [rewrite map_length; lia|exact HB]).
      unfold Tmap, minus_one. rewrite (at_map _ _ i (at_ i (vadd (vecmat d (map unit_ u) basis) o))).
      2: { unfold at_. apply nth_error_nth'. rewrite vadd_length; lia. }
      unfold vadd. rewrite (at_map2 _ _ _ d) by assumption. rewrite at_vecmat by (try assumption; rewrite map_length; lia). ring.
    Qed.
    Lemma T_affine : affine R d (Tmap d o basis).
    Proof using Ho Hb HB.
      exists (map (fun i => map (rmul half) (map (at_ i) basis)) (seq 0 d)), (map (fun i => half * rsum (map (at_ i) basis) + at_ i o - 1) (seq 0 d)).
      split; [now rewrite map_length, seq_length|]. split; [now rewrite map_length, seq_length|]. split; [apply Forall_map, Forall_forall; intros i _; now rewrite !map_length|].
      intros u Hu. apply (at_eq d); [now apply T_length|unfold vadd; rewrite map2_length; rewrite ?matvec_length, ?map_length, ?seq_length; reflexivity|].
      intros i Hi. rewrite T_at by assumption. unfold vadd. rewrite (at_map2 _ _ _ d) by (rewrite ?matvec_length, ?map_length, ?seq_length; auto).
      rewrite at_seq by exact Hi. unfold matvec. rewrite map_map, at_seq by exact Hi. rewrite dot_scale, dot_unit by (rewrite map_length; lia). rewrite (dot_comm R u). ring.
    Qed.
  End T.

  Lemma unit_corner (b : nat) : (b = 0 \/ b = 1)%nat -> unit_ (num R (b + b) - 1) = num R b.
  Proof using half2. intros [-> | ->]; unfold unit_; cbn [Nat.add num]; [ring|]. replace ((1 + (1 + 0) - 1 + 1) * half) with (half + half) by ring. rewrite half2. ring. Qed.

  Lemma dot_seq (g : nat -> R) w d : length w = d -> dot (map g (seq 0 d)) w = rsum (map (fun i => g i * at_ i w) (seq 0 d)).
  Proof using.
    unfold dot. revert g d. induction w as [|x w IH]; intros g [|d] Hl; cbn [length] in Hl; try lia; [reflexivity|]. cbn [seq map map2 rsum]. rewrite <- seq_shift, !map_map. rewrite (IH (fun i => g (S i)) d) by lia. reflexivity.
  Qed.
  Lemma rsum_zero l : Forall (fun x : R => x = 0) l -> rsum l = 0.
  Proof using. induction 1 as [|x l -> _ IH]; cbn [rsum]; [reflexivity|]. rewrite IH. ring. Qed.
  Lemma rsum_single (h : nat -> R) d j : (j < d)%nat -> (forall i, (i < d)%nat -> i <> j -> h i = 0) -> rsum (map h (seq 0 d)) = h j.
  Proof using.
    intros Hj H. replace d with (j + S (d - j - 1))%nat by lia. rewrite seq_app, map_app. cbn [seq map Nat.add].
    assert (E : forall a b, rsum (a ++ b) = rsum a + rsum b :> R). { clear. induction a as [|x a IH]; intros b; cbn [app rsum]; [ring|]. rewrite IH. ring. }
    rewrite E. cbn [rsum]. rewrite !rsum_zero; [ring| |]; apply Forall_map, Forall_forall; intros i Hi; apply in_seq in Hi; apply H; lia.
  Qed.

  Lemma map_child_gen tensor d refs un child o t0 is_ ts : get child 0 = Ok o -> get refs o = Ok t0 -> length t0 = d ->
    span tensor d child = Ok is_ -> take refs is_ = Ok ts -> length ts = d -> Forall (fun t => length t = d) ts -> Forall (fun u => length u = d) un ->
    map_child R half tensor d refs un child = Ok (map (Tmap d (ref_point R t0) (map (fun b => vsub (ref_point R b) (ref_point R t0)) ts)) un).
  Proof using.
    intros E1 E2 H0 E3 E4 Hts HF Hu. unfold map_child. rewrite E1. cbn [bind]. rewrite E2. cbn [bind]. rewrite E3. cbn [bind]. rewrite E4. cbn [bind].
    apply mapM_map_ok. intros u Hin. rewrite Forall_forall in Hu. rewrite (Hu u Hin), map_length, Hts, Nat.eqb_refl. reflexivity.
  Qed.

  Section Basis.
    Variables (d : nat) (t0 : list nat) (ts : list (list nat)).
    Hypothesis H0 : length t0 = d.
    Hypothesis Hts : length ts = d.
    Hypothesis HF : Forall (fun t => length t = d) ts.
    Let basis := map (fun b => vsub (ref_point R b) (ref_point R t0)) ts.
    Lemma basis_ok : length (ref_point R t0) = d /\ length basis = d /\ Forall (fun r => length r = d) basis.
    Proof using H0 Hts HF.
      unfold basis, ref_point. rewrite !map_length. split; [exact H0|]. split; [exact Hts|]. apply Forall_map. eapply Forall_impl; [|exact HF]. intros t Ht. cbn beta in Ht. rewrite vsub_length; rewrite !map_length; congruence.
    Qed.
    Lemma basis_at j t i : nth_error ts j = Some t -> (i < d)%nat -> at_ j (map (at_ i) basis) = num R (nth i t 0%nat) - num R (nth i t0 0%nat).
    Proof using H0 HF Hts.
      intros Hj Hi. assert (Ht : length t = d) by (rewrite Forall_forall in HF; apply HF; eapply nth_error_In; eauto).
      unfold basis. rewrite map_map. rewrite (at_map _ ts j t Hj). unfold vsub. rewrite (at_map2 _ _ _ d) by (unfold ref_point; rewrite ?map_length; auto).
      unfold ref_point. rewrite (at_map _ t i (nth i t 0%nat)), (at_map _ t0 i (nth i t0 0%nat)) by (apply nth_error_nth'; lia). now rewrite !of_nat_num.
    Qed.
    Lemma T_corner (bits : nat -> nat) t : (forall i, (i < d)%nat -> bits i = 0%nat \/ bits i = 1%nat) -> length t = d ->
      (forall i, (i < d)%nat -> dot (map (fun j => num R (bits j)) (seq 0 d)) (map (at_ i) basis) = num R (nth i t 0%nat) - num R (nth i t0 0%nat)) ->
      Tmap d (ref_point R t0) basis (position R (double (map bits (seq 0 d)))) = position R t.
    Proof using half2 H0 Hts HF.
      intros Hbits Ht H. destruct basis_ok as (K1 & K2 & K3).
      assert (Hl : length (position R (double (map bits (seq 0 d)))) = d) by (unfold position, double; now rewrite !map_length, seq_length).
      apply (at_eq d); [now apply T_length|unfold position; now rewrite map_length|]. intros i Hi. rewrite T_at by assumption.
      assert (E : map unit_ (position R (double (map bits (seq 0 d)))) = map (fun j => num R (bits j)) (seq 0 d)). { unfold position, double. rewrite !map_map. apply map_ext_in. intros j Hj. apply in_seq in Hj. apply unit_corner, Hbits. lia. }
      rewrite E, H by exact Hi. unfold ref_point, position. rewrite (at_map _ t i (nth i t 0%nat)), (at_map _ t0 i (nth i t0 0%nat)) by (apply nth_error_nth'; lia). rewrite (of_nat_num (nth i t0 0%nat)). ring.
    Qed.
  End Basis.

  Lemma child_simplex d refs un child : subsimplex d refs child -> Forall (fun u => length u = d) un ->
    exists T, affine R d T /\ map_child R half false d refs un child = Ok (map T un) /\
      forall k r t, nth_error child k = Some r -> nth_error refs r = Some t -> T (position R (double (simplex_corner d k))) = position R t.
  Proof using half2.
    intros (Hl & Hr) Hu. destruct child as [|o is_]; [discriminate|]. cbn [length] in Hl. apply Nat.succ_inj in Hl.
    destruct (Hr 0%nat o eq_refl) as (t0 & E0 & H0).
    assert (Ets : exists ts, take refs is_ = Ok ts). { apply take_total, Forall_forall. intros i Hi. apply In_nth_error in Hi as (k & Hk). destruct (Hr (S k) i Hk) as (t & Ht & _). apply nth_error_Some. congruence. }
    destruct Ets as (ts & Ets). pose proof (proj1 (take_ok _ _ _) Ets) as HF2.
    assert (Hts : length ts = d) by (rewrite <- (Forall2_length' _ _ _ HF2); exact Hl).
    assert (HF : Forall (fun t => length t = d) ts). { apply Forall_forall. intros t Ht. apply In_nth_error in Ht as (k & Hk). destruct (Forall2_nth_error_r _ _ _ _ _ HF2 Hk) as (i & Hi & Hit). destruct (Hr (S k) i Hi) as (t' & Ht' & Hl'). congruence. }
    exists (Tmap d (ref_point R t0) (map (fun b => vsub (ref_point R b) (ref_point R t0)) ts)).
    destruct (basis_ok d t0 ts H0 Hts HF) as (K1 & K2 & K3). split; [now apply T_affine|]. split.
    - apply (map_child_gen false d refs un (o :: is_) o t0 is_ ts); auto. now apply get_ok.
    - intros k r t Hk Ht. destruct (Hr k r Hk) as (t' & Ht' & Hlt). assert (t' = t) as -> by congruence.
      apply T_corner; auto. { intros i _. destruct (S i =? k)%nat; auto. }
      intros i Hi. rewrite dot_seq by (rewrite !map_length; exact Hts). destruct k as [|k].
      + cbn in Hk. assert (t = t0) as -> by congruence. rewrite rsum_zero; [ring|]. apply Forall_map, Forall_forall. intros j _. cbn. ring.
      + cbn [nth_error] in Hk. assert (Hkd : (k < d)%nat) by (rewrite <- Hl; apply nth_error_Some; congruence).
        destruct (Forall2_nth_error _ _ _ _ _ HF2 Hk) as (t' & Htk & Hrt). assert (t' = t) as -> by congruence.
        rewrite (rsum_single _ d k Hkd); [|intros j _ Hj; cbn [Nat.eqb]; rewrite (proj2 (Nat.eqb_neq j k) Hj); cbn; ring].
        cbn [Nat.eqb]. rewrite Nat.eqb_refl, (basis_at d t0 ts H0 Hts HF k t i Htk Hi). cbn [num]. ring.
  Qed.

  Lemma child_cube d refs un child : (1 <= d)%nat -> subcube d refs child -> Forall (fun u => length u = d) un ->
    exists T, affine R d T /\ map_child R half true d refs un child = Ok (map T un) /\
      forall k r t, nth_error child k = Some r -> nth_error refs r = Some t -> T (position R (double (cube_corner d k))) = position R t.
  Proof using half2.
    intros Hd (Hl & t0 & H0 & Hr) Hu. set (tk := fun k => map (fun i => nth i t0 0 + if Nat.testbit k i then 1 else 0)%nat (seq 0 d)).
    change (forall k, (k < 2 ^ d)%nat -> exists r, nth_error child k = Some r /\ nth_error refs r = Some (tk k)) in Hr.
    assert (Hp : (0 < 2 ^ d)%nat) by (pose proof (Nat.pow_nonzero 2 d); lia).
    assert (Et0 : tk 0%nat = t0). { unfold tk. apply (nth_ext _ _ 0 0)%nat; [now rewrite map_length, seq_length|]. intros i Hi. rewrite map_length, seq_length in Hi. rewrite (nth_indep _ 0 (nth 0 t0 0 + if Nat.testbit 0 0 then 1 else 0))%nat by (now rewrite map_length, seq_length). rewrite (map_nth (fun i => nth i t0 0 + if Nat.testbit 0 i then 1 else 0)%nat), seq_nth by exact Hi. rewrite Nat.bits_0. cbn [Nat.add]. lia. }
    assert (Hnth : forall k i, (i < d)%nat -> nth i (tk k) 0%nat = (nth i t0 0 + if Nat.testbit k i then 1 else 0)%nat). { intros k i Hi. unfold tk. rewrite (nth_indep _ 0 (nth 0 t0 0 + if Nat.testbit k 0 then 1 else 0))%nat by (now rewrite map_length, seq_length). rewrite (map_nth (fun i => nth i t0 0 + if Nat.testbit k i then 1 else 0)%nat), seq_nth by exact Hi. reflexivity. }
    destruct (Hr 0%nat Hp) as (o & Ho & Eo). rewrite Et0 in Eo.
    assert (Eis : exists is_, take child (map (fun i => 2 ^ i)%nat (seq 0 d)) = Ok is_). { apply take_total, Forall_forall. intros i Hi. apply in_map_iff in Hi as (j & <- & Hj). apply in_seq in Hj. rewrite Hl. apply pow2_lt. lia. }
    destruct Eis as (is_ & Eis). pose proof (proj1 (take_ok _ _ _) Eis) as HFi.
    assert (Hil : length is_ = d) by (rewrite <- (Forall2_length' _ _ _ HFi); now rewrite map_length, seq_length).
    assert (Hij : forall j i, nth_error is_ j = Some i -> (j < d)%nat /\ nth_error refs i = Some (tk (2 ^ j)%nat)).
    { intros j i Hj. destruct (Forall2_nth_error_r _ _ _ _ _ HFi Hj) as (p & Hpj & Hci). assert (j < d)%nat by (rewrite <- Hil; apply nth_error_Some; congruence). split; [assumption|].
      rewrite nth_error_map, (nth_error_nth' _ 0%nat), seq_nth in Hpj by (rewrite ?seq_length; assumption). cbn in Hpj. assert (p = 2 ^ j)%nat as -> by congruence.
      destruct (Hr (2 ^ j)%nat) as (i' & Hi' & Ei'); [now apply pow2_lt|]. congruence. }
    assert (Ets : take refs is_ = Ok (map (fun j => tk (2 ^ j)%nat) (seq 0 d))).
    { apply take_ok. apply Forall2_intro_nth; [now rewrite map_length, seq_length|]. intros j i t Hi Ht. destruct (Hij j i Hi) as (Hjd & Ei). rewrite nth_error_map, (nth_error_nth' _ 0%nat), seq_nth in Ht by (rewrite ?seq_length; assumption). cbn in Ht. congruence. }
    set (ts := map (fun j => tk (2 ^ j)%nat) (seq 0 d)) in *.
    assert (Hts : length ts = d) by (unfold ts; now rewrite map_length, seq_length).
    assert (HF : Forall (fun t => length t = d) ts) by (apply Forall_map, Forall_forall; intros j _; unfold tk; now rewrite map_length, seq_length).
    exists (Tmap d (ref_point R t0) (map (fun b => vsub (ref_point R b) (ref_point R t0)) ts)).
    destruct (basis_ok d t0 ts H0 Hts HF) as (K1 & K2 & K3). split; [now apply T_affine|]. split.
    - apply (map_child_gen true d refs un child o t0 is_ ts); auto; now apply get_ok.
    - intros k r t Hk Ht. assert (Hk2 : (k < 2 ^ d)%nat) by (rewrite <- Hl; apply nth_error_Some; congruence).
      destruct (Hr k Hk2) as (r' & Hr' & Er'). assert (t = tk k) as -> by congruence.
      apply T_corner; auto. { intros i _. destruct (Nat.testbit k i); auto. } { unfold tk. now rewrite map_length, seq_length. }
      intros i Hi. rewrite dot_seq by (rewrite !map_length; exact Hts).
      assert (Hb : forall j, (j < d)%nat -> at_ j (map (at_ i) (map (fun b => vsub (ref_point R b) (ref_point R t0)) ts)) = if (i =? j)%nat then 1 else 0).
      { intros j Hj. assert (Hn : nth_error ts j = Some (tk (2 ^ j)%nat)). { unfold ts. rewrite nth_error_map, (nth_error_nth' _ 0%nat), seq_nth by (rewrite ?seq_length; assumption). reflexivity. }
        rewrite (basis_at d t0 ts H0 Hts HF j _ i Hn Hi), Hnth by exact Hi. rewrite num_add, Nat.pow2_bits_eqb, Nat.eqb_sym. destruct (i =? j)%nat; cbn [num]; ring. }
      rewrite (rsum_single _ d i Hi); [|intros j Hj Hne; rewrite Hb, (proj2 (Nat.eqb_neq i j)) by auto; ring].
      rewrite Hb, Nat.eqb_refl, Hnth, num_add by exact Hi. ring.
  Qed.
End Geo.
