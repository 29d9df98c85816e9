(** * QuadProofs: lemmas for QuadProps. *)
From Coq Require Import List Arith Lia Ring.
From Verif Require Import Np NpFacts Lin QuadModel QuadSpec.
Import ListNotations.

Section Proofs.
  Context {R : cring}.
  Add Ring Rq : (rth R).
  Local Open Scope cring_scope.

  Lemma dot_map_l {A} (l : list A) (f g : A -> R) v : dot (map (fun x => f x + g x) l) v = dot (map f l) v + dot (map g l) v.
  Proof. revert v. induction l as [|x l IH]; intros [|a v]; unfold dot in *; cbn [map map2 rsum]; try ring. rewrite IH. ring. Qed.
  Lemma dot_map_r {A} (l : list A) (f g : A -> R) v : dot v (map (fun x => f x + g x) l) = dot v (map f l) + dot v (map g l).
  Proof. rewrite !(dot_comm R v). apply dot_map_l. Qed.
  Lemma dot_map_scale {A} (l : list A) a (f : A -> R) v : dot v (map (fun x => a * f x) l) = a * dot v (map f l).
  Proof. revert v. induction l as [|x l IH]; intros [|b v]; unfold dot in *; cbn [map map2 rsum]; try ring. rewrite IH. ring. Qed.
  Lemma dot_map_zero {A} (l : list A) (v : list R) : dot v (map (fun _ : A => 0) l) = 0.
  Proof. revert v. induction l as [|x l IH]; intros [|b v]; unfold dot in *; cbn [map map2 rsum]; try ring. rewrite IH. ring. Qed.
  (** exchanging sums *)
  Lemma dot_swap {A B} (l : list A) (l' : list B) (f : A -> B -> R) u v :
    dot u (map (fun x => dot v (map (f x) l')) l) = dot v (map (fun y => dot u (map (fun x => f x y) l)) l').
  Proof.
    revert u. induction l as [|x l IH]; intros [|a u].
    - cbn [map]. unfold dot at 1. cbn [map2 rsum]. symmetry. transitivity (dot v (map (fun _ : B => 0) l')); [reflexivity|apply dot_map_zero].
    - cbn [map]. rewrite (dot_nil_r R (a :: u)). symmetry. transitivity (dot v (map (fun _ : B => 0) l')); [reflexivity|apply dot_map_zero].
    - symmetry. transitivity (dot v (map (fun _ : B => 0) l')); [reflexivity|]. rewrite dot_map_zero. reflexivity.
    - cbn [map]. rewrite dot_cons, IH. rewrite <- dot_map_scale, <- dot_map_r. reflexivity.
  Qed.

  Section One.
    Context {P : Type}.
    Variables (basis : list (P -> R)) (I : (P -> R) -> R).
    Hypothesis HI : linear_functional I.

    Lemma I_zero : I (fun _ => 0) = 0.
    Proof using HI.
      destruct HI as (He & Ha & Hs). transitivity (I (fun p => 0 * 0)); [apply He; intros; ring|]. rewrite (Hs 0 (fun _ => 0)). ring.
    Qed.
    Lemma I_dot (fs : list (P -> R)) c : I (fun p => dot c (map (fun b => b p) fs)) = dot c (map I fs).
    Proof using HI.
      destruct HI as (He & Ha & Hs). revert c. induction fs as [|f fs IH]; intros [|a c].
      - unfold dot. cbn [map map2 rsum]. apply I_zero.
      - cbn [map]. rewrite dot_nil_r. transitivity (I (fun _ => 0)); [|apply I_zero]. apply He. reflexivity.
      - unfold dot. cbn [map map2 rsum]. apply I_zero.
      - cbn [map]. rewrite dot_cons, <- IH, <- Hs, <- Ha. apply He. reflexivity.
    Qed.
    (** the integral of a product of combinations *)
    Lemma I_product c d : orthonormal I basis -> length c = length basis -> length d = length basis ->
      I (fun p => dot c (map (fun b => b p) basis) * dot d (map (fun b => b p) basis)) = dot c d.
    Proof using HI.
      intros Ho Lc Ld. destruct HI as (He & Ha & Hs).
      transitivity (I (fun p => dot c (map (fun b => b p) (map (fun f p => f p * dot d (map (fun b => b p) basis)) basis)))).
      { apply He. intros p. rewrite map_map. rewrite <- (map_map (fun f => f p) (fun x => x * dot d (map (fun b => b p) basis))).
        generalize (dot d (map (fun b => b p) basis)) as z. generalize (map (fun f => f p) basis) as l. intros l z. clear. revert c. induction l as [|x l IH]; intros [|a c]; unfold dot in *; cbn [map map2 rsum]; try ring.
        rewrite <- IH. ring. }
      rewrite I_dot. f_equal. rewrite map_map. apply nth_error_ext'. intros i. rewrite nth_error_map.
      destruct (nth_error basis i) as [f|] eqn:Ef; cbn [option_map].
      - assert (Hi : (i < length d)%nat) by (rewrite Ld; apply nth_error_Some; congruence). destruct (nth_error d i) as [x|] eqn:Ex; [|apply nth_error_None in Ex; lia]. f_equal.
        transitivity (I (fun p => dot d (map (fun b => b p) (map (fun g p => f p * g p) basis)))).
        { apply He. intros p. rewrite map_map. symmetry. apply (dot_map_scale basis (f p) (fun g => g p)). }
        rewrite I_dot, map_map.
        assert (E : map (fun g => I (fun p => f p * g p)) basis = unitv (R := R) (length d) i).
        { unfold unitv. rewrite Ld. apply nth_error_ext'. intros j. rewrite !nth_error_map. destruct (nth_error basis j) as [g|] eqn:Eg.
          - assert (Hj : (j < length basis)%nat) by (apply nth_error_Some; congruence). rewrite (nth_error_nth' _ 0%nat) by (now rewrite seq_length). rewrite seq_nth by exact Hj. cbn [option_map Nat.add]. f_equal. apply (Ho i j f g Ef Eg).
          - apply nth_error_None in Eg. destruct (nth_error (seq 0 (length basis)) j) eqn:Es; [|reflexivity]. assert (j < length (seq 0 (length basis)))%nat by (apply nth_error_Some; congruence). rewrite seq_length in H. lia. }
        rewrite E, dot_comm. unfold unitv. rewrite (dot_unitv_from R (length d) 0 i d eq_refl). cbn [Nat.leb]. now rewrite Nat.sub_0_r, Ex.
      - apply nth_error_None in Ef. symmetry. apply nth_error_None. lia.
    Qed.

    (** the rule from the mass matrix *)
    Lemma gram_matvec (V : list (list R)) v n : Forall (fun r => length r = n) V -> length v = length V ->
      matvec (gram V) v = map (fun r => dot (vecmat n v V) r) V.
    Proof.
      intros HV Lv. unfold matvec, gram. rewrite map_map. apply map_ext_in. intros r Hr.
      assert (H : forall u, dot (map (dot u) V) v = dot (vecmat n v V) u).
      { intros u. pose proof (dot_vecmat R n v V u Lv HV) as E. rewrite E. unfold matvec. rewrite dot_comm. f_equal. apply map_ext. intros a. apply dot_comm. }
      apply H.
    Qed.
    Lemma mass_exact inv nodes rule : orthonormal I basis -> unisolvent basis nodes -> spanned basis (fun _ => 1) ->
      (forall B, inv (gram (vandermonde basis nodes)) = Ok B -> right_inverse (gram (vandermonde basis nodes)) B) ->
      mass_rule inv basis nodes = Ok rule ->
      fst rule = nodes /\ length (snd rule) = length nodes /\ forall f, spanned basis f -> quad_sum nodes (snd rule) f = I f.
    Proof using HI.
      intros Ho (Ln & Hu) (e & Le & He) Hinv E. unfold mass_rule, mass_weights, mass_matrix in E. apply bind_ok in E as (w & E & E'). injection E' as <-. cbn [fst snd].
      apply bind_ok in E as (B & EB & E). apply bind_ok in E as (u & _ & E). injection E as <-. destruct (Hinv B EB) as (LB & HB).
      assert (LV : length (gram (vandermonde basis nodes)) = length nodes) by (unfold gram, vandermonde; now rewrite !map_length).
      split; [reflexivity|]. rewrite matvec_length. split; [congruence|]. intros f (c & Lc & Hc). set (w := matvec B (repeat 1 (length basis))).
      assert (Lw : length w = length (vandermonde basis nodes)) by (unfold w, vandermonde; rewrite matvec_length, map_length; congruence).
      assert (HV : Forall (fun r => length r = length basis) (vandermonde basis nodes)).
      { unfold vandermonde. apply Forall_forall. intros r Hr. apply in_map_iff in Hr as (p & <- & _). now rewrite map_length. }
      assert (Hw : vecmat (length basis) w (vandermonde basis nodes) = e).
      { apply Hu; [apply vecmat_length; assumption|exact Le|]. intros p Hp. rewrite <- He. assert (H1 : matvec (gram (vandermonde basis nodes)) w = repeat 1 (length basis)) by (unfold w; apply HB; rewrite repeat_length; congruence).
        rewrite (gram_matvec _ w (length basis) HV Lw) in H1. unfold vandermonde in H1 at 2. rewrite map_map in H1. assert (H2 : In (dot (vecmat (length basis) w (vandermonde basis nodes)) (map (fun b => b p) basis)) (repeat 1 (length basis))).
        { rewrite <- H1. apply in_map_iff. now exists p. }
        now apply repeat_spec in H2. }
      unfold quad_sum. transitivity (dot w (matvec (vandermonde basis nodes) c)).
      { f_equal. unfold matvec, vandermonde. rewrite map_map. apply map_ext. intros p. rewrite Hc. apply dot_comm. }
      rewrite <- (dot_vecmat R (length basis) w _ c Lw HV), Hw, dot_comm, <- (I_product c e Ho Lc Le). destruct HI as (Hx & _ & _). apply Hx. intros p. rewrite <- He, <- Hc. ring.
    Qed.
  End One.

  (** tensor products *)
  Lemma tp_nodes_at (x : list R) rest i j a tail : nth_error x i = Some a -> nth_error (tp_nodes rest) j = Some tail -> nth_error (tp_nodes (x :: rest)) (i + length x * j) = Some (a :: tail).
  Proof.
    intros Ha. cbn [tp_nodes]. generalize (tp_nodes rest) as l. intros l. revert j. induction l as [|t l IH]; intros [|j] Ht; try discriminate; cbn [flat_map].
    - injection Ht as ->. rewrite Nat.mul_0_r, Nat.add_0_r. rewrite nth_error_app1; [now rewrite nth_error_map, Ha|]. rewrite map_length. apply nth_error_Some. congruence.
    - rewrite nth_error_app2 by (rewrite map_length; lia). rewrite map_length. replace (i + length x * S j - length x)%nat with (i + length x * j)%nat by lia. now apply IH.
  Qed.
  Lemma tp_nodes_length (axes : list (list R)) n : Forall (fun x => length x = n) axes -> length (tp_nodes axes) = (n ^ length axes)%nat.
  Proof.
    induction axes as [|x axes IH]; intros H; [reflexivity|]. cbn [tp_nodes length Nat.pow]. rewrite <- IH by now apply Forall_inv_tail in H. apply Forall_inv in H. generalize (tp_nodes axes) as l. clear - H.
    induction l as [|t l IH]; [cbn [flat_map length]; lia|]. cbn [flat_map length]. rewrite app_length, map_length, IH, H. lia.
  Qed.
  Lemma tp_nodes_first (axes : list (list R)) n : Forall (fun x => length x = n) axes -> (1 <= n)%nat -> exists p, nth_error (tp_nodes axes) 0 = Some p.
  Proof.
    intros H Hn. destruct (nth_error (tp_nodes axes) 0) as [p|] eqn:E; [now exists p|]. apply nth_error_None in E. rewrite (tp_nodes_length axes n H) in E.
    assert (n ^ length axes <> 0)%nat by (apply Nat.pow_nonzero; lia). lia.
  Qed.
  Lemma tp_nodes_axis (axes : list (list R)) n idim x k : Forall (fun x => length x = n) axes -> nth_error axes idim = Some x -> (k < n)%nat ->
    exists p, nth_error (tp_nodes axes) (k * n ^ idim) = Some p /\ nth_error p idim = nth_error x k.
  Proof.
    revert axes. induction idim as [|idim IH]; intros [|y axes] H Hx Hk; try discriminate.
    - injection Hx as ->. destruct (tp_nodes_first axes n (Forall_inv_tail H) ltac:(lia)) as (t & Ht). destruct (nth_error x k) as [a|] eqn:Ea; [|apply nth_error_None in Ea; apply Forall_inv in H; lia].
      exists (a :: t). split; [|reflexivity]. replace (k * n ^ 0)%nat with (k + length x * 0)%nat by (cbn [Nat.pow]; lia). now apply tp_nodes_at.
    - destruct (IH axes (Forall_inv_tail H) Hx Hk) as (p & Hp & Hp'). pose proof (Forall_inv H) as Ly. destruct y as [|b y]; [cbn [length] in Ly; lia|].
      exists (b :: p). split; [|exact Hp']. replace (k * n ^ S idim)%nat with (0 + length (b :: y) * (k * n ^ idim))%nat by (rewrite Ly; cbn [Nat.pow]; lia). now apply tp_nodes_at.
  Qed.
  Lemma axis_nodes_tp (axes : list (list R)) n idim x : Forall (fun x => length x = n) axes -> nth_error axes idim = Some x -> axis_nodes n idim (tp_nodes axes) = Ok x.
  Proof.
    intros H Hx. unfold axis_nodes. apply mapM_ok. apply Forall2_intro_nth.
    - rewrite seq_length. symmetry. rewrite Forall_forall in H. apply H. eapply nth_error_In; eauto.
    - intros k k' a Hk Ha. assert (k' = k /\ (k < n)%nat) as (-> & Lk).
      { assert (k < length (seq 0 n))%nat by (apply nth_error_Some; congruence). rewrite seq_length in H0. rewrite (nth_error_nth' _ 0%nat) in Hk by (now rewrite seq_length). rewrite seq_nth in Hk by exact H0. injection Hk as <-. now split. }
      destruct (tp_nodes_axis axes n idim x k H Hx Lk) as (p & Hp & Hp'). rewrite (proj2 (get_ok _ _ _) Hp). cbn [bind]. apply get_ok. congruence.
  Qed.

  Lemma dot_app (a b c d : list R) : length a = length c -> dot (a ++ b) (c ++ d) = dot a c + dot b d.
  Proof. revert c. induction a as [|x a IH]; intros [|y c] L; cbn [length] in L; try lia; cbn [app]; [unfold dot at 2; cbn [map2 rsum]; ring|]. rewrite !dot_cons, IH by lia. ring. Qed.
  Lemma quad_tensor (axes ws : list (list R)) fs : Forall2 (fun x w => length x = length w) axes ws -> length fs = length axes ->
    quad_sum (tp_nodes axes) (tp_weights ws) (tensor fs) = rprod (map (fun xwf => quad_sum (fst (fst xwf)) (snd (fst xwf)) (snd xwf)) (combine (combine axes ws) fs)).
  Proof.
    intros H. revert fs. induction H as [|x w axes ws Hxw H IH]; intros [|f fs] L; cbn [length] in L; try lia.
    - unfold quad_sum. cbn [tp_nodes tp_weights map combine rprod tensor]. unfold dot. cbn [map2 rsum]. ring.
    - cbn [combine map rprod fst snd]. rewrite <- IH by lia. unfold quad_sum. cbn [tp_nodes tp_weights].
      assert (LL : length (tp_nodes axes) = length (tp_weights ws)).
      { clear - H. induction H as [|x w axes ws Hxw H IH]; [reflexivity|]. cbn [tp_nodes tp_weights]. revert IH. generalize (tp_nodes axes) (tp_weights ws). intros l l'. revert l'.
        induction l as [|t l IHl]; intros [|t' l'] L; cbn [length] in L; try lia; [reflexivity|]. cbn [flat_map]. rewrite !app_length, !map_length, Hxw. f_equal. apply IHl. lia. }
      revert LL. generalize (tp_nodes axes) (tp_weights ws). intros l l'. revert l'.
      induction l as [|t l IHl]; intros [|t' l'] LL; cbn [length] in LL; try lia; cbn [flat_map map].
      + unfold dot. cbn [map2 rsum]. ring.
      + rewrite map_app, dot_app by now rewrite !map_length. rewrite dot_cons, IHl by lia.
        assert (E : dot (map (fun a => a * t') w) (map (tensor (f :: fs)) (map (fun a => a :: t) x)) = t' * tensor fs t * dot w (map f x)).
        { clear - Hxw. revert w Hxw. induction x as [|a x IHx]; intros [|b w] L; cbn [length] in L; try lia; cbn [map]; [unfold dot; cbn [map2 rsum]; ring|].
          rewrite !dot_cons, IHx by lia. cbn [tensor]. ring. }
        rewrite E. ring.
  Qed.
End Proofs.
