(** * QcMean: the mean of fractions. *)
From Coq Require Import ZArith Lia QArith Qcanon List.
From Verif Require Import Lin QcOrd.
Import ListNotations.
Local Open Scope Qc_scope.

Definition qc_mean (l : list Qc) : Qc := fold_right Qcplus (Q2Qc 0) l / frac (Z.of_nat (length l)) 1.
Lemma frac_succ n : frac (Z.of_nat (S n)) 1 = frac (Z.of_nat n) 1 + 1.
Proof.
  apply Qc_is_canon. unfold frac, Qcplus. cbn [this Q2Qc]. rewrite !Qred_correct. unfold Qeq, Qplus. cbn [Qnum Qden]. rewrite Nat2Z.inj_succ. lia.
Qed.
Lemma frac_nonzero n : (0 < n)%nat -> frac (Z.of_nat n) 1 <> 0.
Proof.
  intros Hn H. assert (E : Qeq (Qmake (Z.of_nat n) 1) (Qmake 0 1)) by (apply Q2Qc_eq_iff; exact H). unfold Qeq in E. cbn [Qnum Qden] in E. lia.
Qed.
Lemma qc_mean_affine' (s c : Qc) x : x <> [] -> qc_mean (map (fun y => s * y + (1 - s) * c) x) = s * qc_mean x + (1 - s) * c.
Proof.
  intros Hx. unfold qc_mean. rewrite map_length.
  assert (Hs : fold_right Qcplus 0 (map (fun y => s * y + (1 - s) * c) x) = s * fold_right Qcplus 0 x + (1 - s) * c * frac (Z.of_nat (length x)) 1).
  { clear Hx. induction x as [|y x IH]; [cbn [map fold_right length Z.of_nat]; change (frac 0 1) with 0; ring|]. cbn [map fold_right length]. rewrite IH, frac_succ. ring. }
  change (Q2Qc 0) with 0. rewrite Hs. assert (Hn : frac (Z.of_nat (length x)) 1 <> 0) by (apply frac_nonzero; destruct x; [congruence|cbn [length]; lia]). field. exact Hn.
Qed.
Lemma qc_mean_affine : forall (s c : Qccring) x, x <> [] ->
  qc_mean (map (fun y => radd (rmul s y) (rmul (rsub r1 s) c)) x) = radd (rmul s (qc_mean x)) (rmul (rsub r1 s) c).
Proof. exact qc_mean_affine'. Qed.
