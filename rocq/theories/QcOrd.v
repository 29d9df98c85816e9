(** * QcOrd: the rational numbers as an ordered commutative ring, for examples that need one half *)
From Coq Require Import List Arith Bool ZArith QArith Qcanon.
From Verif Require Import Lin Ord.

Definition Qccring : cring := mk_cring Qc (Q2Qc 0) (Q2Qc 1) Qcplus Qcmult Qcminus Qcopp Qcrt.
Definition Qcleb (a b : Qc) : bool := Qle_bool (this a) (this b).
Lemma Qcleb_iff a b : Qcleb a b = true <-> (a <= b)%Qc.
Proof. unfold Qcleb. rewrite Qle_bool_iff. reflexivity. Qed.

Definition Qcocring : ocring.
Proof.
  refine (mk_ocring Qccring Qcleb _ _ _ _ _ _); intros.
  - apply Qcleb_iff. apply Qcle_refl.
  - apply Qcleb_iff in H, H0. apply Qcleb_iff. eapply Qcle_trans; eassumption.
  - apply Qcleb_iff in H, H0. now apply Qcle_antisym.
  - destruct (Qclt_le_dec a b) as [Hl|Hl]; [left|right]; apply Qcleb_iff; [now apply Qclt_le_weak|exact Hl].
  - apply Qcleb_iff in H. apply Qcleb_iff. apply Qcplus_le_compat; [exact H|apply Qcle_refl].
  - apply Qcleb_iff in H, H0. apply Qcleb_iff. change (Q2Qc 0 <= a * b)%Qc. replace (Q2Qc 0) with (Q2Qc 0 * b)%Qc by ring. now apply Qcmult_le_compat_r.
Defined.

(** The rational number n / 2^k *)
Definition frac (n : Z) (d : positive) : Qc := Q2Qc (n # d).
Lemma Qc_half : radd (c := Qcocring) (frac 1 2) (frac 1 2) = r1.
Proof. apply Qc_is_canon. reflexivity. Qed.
Lemma Qc_pos (a b : Qcocring) : olt r0 a = true -> olt r0 b = true -> olt r0 (rmul a b) = true.
Proof.
  unfold olt. rewrite !negb_true_iff. intros Ha Hb. apply not_true_is_false. intros H. apply Qcleb_iff in H. change (a * b <= Q2Qc 0)%Qc in H.
  assert (Pa : (Q2Qc 0 < a)%Qc). { apply Qcnot_le_lt. intros K. apply Qcleb_iff in K. cbn [ole Qcocring] in Ha. change (Qcleb a (Q2Qc 0) = false) in Ha. congruence. }
  assert (Pb : (Q2Qc 0 < b)%Qc). { apply Qcnot_le_lt. intros K. apply Qcleb_iff in K. change (Qcleb b (Q2Qc 0) = false) in Hb. congruence. }
  apply (Qcmult_lt_compat_r (Q2Qc 0) a b Pb) in Pa. apply (Qcle_not_lt _ _ H). replace (Q2Qc 0) with (Q2Qc 0 * b)%Qc by ring. exact Pa.
Qed.
