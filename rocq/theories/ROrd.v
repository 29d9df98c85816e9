(** * ROrd: the real numbers of the standard library as an ordered commutative ring, for examples that need square roots *)
From Coq Require Import List Arith Bool ZArith Reals Lra.
From Verif Require Import Lin Ord.

Definition Rcring : cring := mk_cring R R0 R1 Rplus Rmult Rminus Ropp RTheory.
Definition Rleb (a b : R) : bool := if Rle_dec a b then true else false.
Lemma Rleb_iff a b : Rleb a b = true <-> (a <= b)%R.
Proof. unfold Rleb. destruct (Rle_dec a b); split; auto; discriminate. Qed.

Definition Rocring : ocring.
Proof.
  refine (mk_ocring Rcring Rleb _ _ _ _ _ _); intros.
  - apply Rleb_iff. apply Rle_refl.
  - apply Rleb_iff in H, H0. apply Rleb_iff. eapply Rle_trans; eassumption.
  - apply Rleb_iff in H, H0. now apply Rle_antisym.
  - destruct (Rle_or_lt a b) as [Hl|Hl]; [left|right]; apply Rleb_iff; [exact Hl|now apply Rlt_le].
  - apply Rleb_iff in H. apply Rleb_iff. now apply Rplus_le_compat_r.
  - apply Rleb_iff in H, H0. apply Rleb_iff. now apply Rmult_le_pos.
Defined.
Lemma Rolt_iff (a b : Rocring) : olt a b = true <-> (a < b)%R.
Proof.
  unfold olt. rewrite negb_true_iff. change (ole b a) with (Rleb b a). split; intros H.
  - apply Rnot_le_lt. intros K. apply Rleb_iff in K. congruence.
  - apply not_true_is_false. intros K. apply Rleb_iff in K. now apply (Rlt_not_le b a).
Qed.
