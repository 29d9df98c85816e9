(** * Ord: ordered commutative rings, used where the code compares floating-point numbers. *)
From Coq Require Import List Arith Bool ZArith Lia Ring Ring_theory.
From Verif Require Import Lin.
Import ListNotations.

Record ocring : Type := mk_ocring {
  oc :> cring;
  ole : oc -> oc -> bool;
  ole_refl : forall a, ole a a = true;
  ole_trans : forall a b c, ole a b = true -> ole b c = true -> ole a c = true;
  ole_antisym : forall a b, ole a b = true -> ole b a = true -> a = b;
  ole_total : forall a b, ole a b = true \/ ole b a = true;
  ole_add : forall a b c, ole a b = true -> ole (radd a c) (radd b c) = true;
  ole_mul : forall a b, ole r0 a = true -> ole r0 b = true -> ole r0 (rmul a b) = true
}.
Arguments ole {o}.
Infix "<=?" := ole : cring_scope.
(** a < b *)
Definition olt {R : ocring} (a b : R) : bool := negb (ole b a).
Infix "<?" := olt : cring_scope.

Definition Zocring : ocring.
Proof.
  refine (mk_ocring Zcring Z.leb _ _ _ _ _ _); cbn; intros.
  - apply Z.leb_refl.
  - apply Z.leb_le in H, H0. apply Z.leb_le. lia.
  - apply Z.leb_le in H, H0. lia.
  - destruct (Z.le_ge_cases a b); [left|right]; now apply Z.leb_le.
  - apply Z.leb_le in H. apply Z.leb_le. lia.
  - apply Z.leb_le in H, H0. apply Z.leb_le. nia.
Defined.

Section Ord.
  Variable R : ocring.
  Add Ring Ro : (rth R).
  Local Open Scope cring_scope.

  Lemma olt_iff (a b : R) : a <? b = true <-> (b <=? a) = false.
  Proof. unfold olt. now rewrite negb_true_iff. Qed.
  Lemma olt_nle (a b : R) : a <? b = true -> (a <=? b) = true.
  Proof. rewrite olt_iff. intros H. destruct (ole_total R a b); congruence. Qed.
  Lemma olt_irrefl (a : R) : a <? a = false.
  Proof. unfold olt. now rewrite ole_refl. Qed.
  Lemma ole_lt_trans (a b c : R) : (a <=? b) = true -> b <? c = true -> a <? c = true.
  Proof.
    rewrite !olt_iff. intros H1 H2. apply not_true_is_false. intros H3.
    rewrite (ole_trans _ _ _ _ H3 H1) in H2. discriminate.
  Qed.
  Lemma olt_le_trans (a b c : R) : a <? b = true -> (b <=? c) = true -> a <? c = true.
  Proof.
    rewrite !olt_iff. intros H1 H2. apply not_true_is_false. intros H3.
    rewrite (ole_trans _ _ _ _ H2 H3) in H1. discriminate.
  Qed.

  Lemma ole_sub (a b : R) : (a <=? b) = true <-> (0 <=? b - a) = true.
  Proof.
    split; intros H.
    - apply (ole_add R _ _ (- a)) in H. replace (a + - a) with (@r0 R) in H by ring.
      now replace (b + - a) with (b - a) in H by ring.
    - apply (ole_add R _ _ a) in H. replace (0 + a) with a in H by ring. now replace (b - a + a) with b in H by ring.
  Qed.

  Lemma le_diff (a b : R) : (a <=? b) = true -> (0 <=? b - a) = true.
  Proof. apply ole_sub. Qed.
  Lemma diff_le (a b : R) : (0 <=? b - a) = true -> (a <=? b) = true.
  Proof. apply ole_sub. Qed.

  Lemma ole_add_nonneg (a b : R) : (0 <=? a) = true -> (0 <=? b) = true -> (0 <=? a + b) = true.
  Proof.
    intros Ha Hb. apply (ole_add R _ _ b) in Ha. replace (0 + b) with b in Ha by ring. eapply ole_trans; eauto.
  Qed.
  Lemma ole_add2 (a b c d : R) : (a <=? b) = true -> (c <=? d) = true -> (a + c <=? b + d) = true.
  Proof.
    intros H1 H2. apply le_diff in H1, H2. apply diff_le. replace (b + d - (a + c)) with ((b - a) + (d - c)) by ring. now apply ole_add_nonneg.
  Qed.
  Lemma olt_add (a b c d : R) : a <? b = true -> c <? d = true -> a + c <? b + d = true.
  Proof.
    intros H1 H2. rewrite olt_iff. apply not_true_is_false. intros H.
    assert (H3 : (d <=? c) = true).
    { apply diff_le. apply olt_nle in H1. apply le_diff in H. apply le_diff in H1.
      replace (c - d) with ((a + c - (b + d)) + (b - a)) by ring. now apply ole_add_nonneg. }
    rewrite olt_iff in H2. congruence.
  Qed.

  Lemma square_nonneg (a : R) : (0 <=? a * a) = true.
  Proof.
    destruct (ole_total R 0 a) as [H|H].
    - now apply ole_mul.
    - assert (Hn : (0 <=? - a) = true).
      { apply le_diff in H. now replace (0 - a) with (- a) in H by ring. }
      replace (a * a) with ((- a) * (- a)) by ring. now apply ole_mul.
  Qed.

  (** a^2 < t^2 and 0 <= t imply -t < a < t *)
  Lemma square_lt_abs (a t : R) : (0 <=? t) = true -> a * a <? t * t = true -> a <? t = true /\ - t <? a = true.
  Proof.
    intros Ht H. rewrite olt_iff in H. split; rewrite olt_iff; apply not_true_is_false; intros Hc.
    - assert (Hp : (0 <=? a * a - t * t) = true).
      { replace (a * a - t * t) with ((a - t) * (a + t)) by ring. apply ole_mul.
        - now apply le_diff.
        - apply ole_add_nonneg; auto. eapply ole_trans; eauto. }
      apply diff_le in Hp. congruence.
    - assert (Hp : (0 <=? a * a - t * t) = true).
      { replace (a * a - t * t) with ((- a - t) * (- a + t)) by ring.
        apply le_diff in Hc. assert (Hq : (0 <=? - a - t) = true) by (now replace (- a - t) with (- t - a) by ring).
        apply ole_mul; auto. replace (- a + t) with ((- a - t) + (t + t)) by ring.
        repeat apply ole_add_nonneg; auto. }
      apply diff_le in Hp. congruence.
  Qed.

  Lemma rsum_nonneg (l : list R) : Forall (fun x => (0 <=? x) = true) l -> (0 <=? rsum l) = true.
  Proof. induction 1; cbn [rsum]; [apply ole_refl|now apply ole_add_nonneg]. Qed.

  Lemma rsum_ge_entry (l : list R) x : Forall (fun x => (0 <=? x) = true) l -> In x l -> (x <=? rsum l) = true.
  Proof.
    induction 1 as [|y l Hy Hl IH]; intros Hin; [destruct Hin|]. cbn [rsum]. apply diff_le. destruct Hin as [->|Hin].
    - replace (x + rsum l - x) with (rsum l) by ring. now apply rsum_nonneg.
    - replace (y + rsum l - x) with (y + (rsum l - x)) by ring. apply ole_add_nonneg; auto. apply le_diff. auto.
  Qed.
End Ord.
