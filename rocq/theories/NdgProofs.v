(** * NdgProofs *)
From Coq Require Import String List Arith Lia Bool.
From Verif Require Import Np NpFacts RestrProofs VisIoVertexProofs NdgModel NdgSpec.
Import ListNotations.

Section Proofs.
  Context {A : Type}.
  Notation session := (session A).

  Lemma pull_push name v (s : session) : pull name (push name v s) = Ok v.
  Proof. unfold pull, push. cbn [find fst]. now rewrite String.eqb_refl. Qed.
  Lemma pull_push_other name name' v (s : session) : name <> name' -> pull name (push name' v s) = pull name s.
  Proof. intros H. unfold pull, push. cbn [find fst]. destruct (String.eqb_spec name' name); [congruence|reflexivity]. Qed.

  Lemma transpose_ok n k (rows : list (list A)) : matrix n k rows -> 0 < n -> exists t, transpose rows = Ok t /\ matrix k n t /\ transposed rows t.
  Proof.
    intros (Hl & Hk) Hn. destruct rows as [|r rows]; [cbn [length] in Hl; lia|]. unfold transpose. inversion Hk as [|x l Hr _]; subst x l. rewrite Hr.
    destruct (mapM_total (column (r :: rows)) (seq 0 k)) as (t & Et).
    { intros j Hj. apply in_seq in Hj. unfold column. apply mapM_total. intros row Hrow. rewrite Forall_forall in Hk. apply get_total. rewrite (Hk row Hrow). lia. }
    exists t. split; [exact Et|]. apply mapM_ok in Et. pose proof (Forall2_length' _ _ _ Et) as Lt. rewrite seq_length in Lt.
    assert (Hc : forall j c, nth_error t j = Some c -> mapM (fun row => get row j) (r :: rows) = Ok c).
    { intros j c Hj. destruct (Forall2_nth_error_r _ _ _ j c Et Hj) as (j' & Ej & Ec). assert (j < k) by (rewrite Lt; apply nth_error_Some; congruence).
      rewrite RestrProofs.nth_error_seq in Ej. destruct (j <? k) eqn:L; [|discriminate Ej]. injection Ej as <-. exact Ec. }
    split.
    - split; [now symmetry|]. apply Forall_forall. intros c Hin. apply In_nth_error in Hin as (j & Hj). pose proof (Hc j c Hj) as Ec. apply mapM_ok in Ec. rewrite <- (Forall2_length' _ _ _ Ec). exact Hl.
    - intros i j. unfold entry. destruct (nth_error t j) as [c|] eqn:Hj.
      + pose proof (Hc j c Hj) as Ec. apply mapM_ok in Ec. destruct (nth_error (r :: rows) i) as [row|] eqn:Hi.
        * destruct (Forall2_nth_error _ _ _ i row Ec Hi) as (x & Ex & Gx). apply get_ok in Gx. congruence.
        * symmetry. apply nth_error_None. rewrite <- (Forall2_length' _ _ _ Ec). now apply nth_error_None.
      + destruct (nth_error (r :: rows) i) as [row|] eqn:Hi; [|reflexivity]. apply nth_error_None. apply nth_error_None in Hj. apply nth_error_In in Hi. rewrite Forall_forall in Hk. rewrite (Hk row Hi). lia.
  Qed.
  Lemma transposed_unique n k (a b : list (list A)) : matrix n k a -> matrix n k b -> (forall i j, entry a i j = entry b i j) -> a = b.
  Proof.
    intros (La & Ha) (Lb & Hb) He. apply nth_error_ext'. intros i. destruct (nth_error a i) as [x|] eqn:Ea; destruct (nth_error b i) as [y|] eqn:Eb; [|exfalso|exfalso|reflexivity].
    - f_equal. apply nth_error_ext'. intros j. pose proof (He i j) as H. unfold entry in H. now rewrite Ea, Eb in H.
    - apply nth_error_None in Eb. assert (i < length a) by (apply nth_error_Some; congruence). lia.
    - apply nth_error_None in Ea. assert (i < length b) by (apply nth_error_Some; congruence). lia.
  Qed.
  Lemma transpose_transpose n k (rows : list (list A)) t : matrix n k rows -> 0 < n -> 0 < k -> transpose rows = Ok t -> transpose t = Ok rows.
  Proof.
    intros M Hn Hk E. destruct (transpose_ok n k rows M Hn) as (t' & E' & Mt & T). rewrite E in E'. injection E' as <-.
    destruct (transpose_ok k n t Mt Hk) as (u & Eu & Mu & U). rewrite Eu. f_equal. apply (transposed_unique n k); [exact Mu|exact M|].
    intros i j. rewrite <- (U j i). symmetry. apply T.
  Qed.

  (** the vertices after the loop over the axes *)
  Lemma push_axes_ok (vertices : list (list A)) n (s s' : session) : n <= 3 -> push_axes vertices (seq 0 n) s = Ok s' ->
    (forall ax, ax < n -> exists v, nth_error vertices ax = Some v /\ pull (vertex_axis ax) s' = Ok (VVec v)) /\
    (forall name, (forall ax, ax < n -> name <> vertex_axis ax) -> pull name s' = pull name s).
  Proof.
    intros Hn. unfold push_axes. revert s'. induction n as [|n IH]; intros s' H.
    - cbn [seq foldM] in H. injection H as <-. split; [intros ax L; lia|reflexivity].
    - rewrite seq_S, foldM_app in H. apply bind_ok in H as (s1 & E1 & H). destruct (IH ltac:(lia) s1 E1) as (A1 & B1). rewrite VisIoVertexProofs.foldM_cons in H. apply bind_ok in H as (s2 & E2 & H). cbn [foldM] in H. injection H as <-.
      cbn [Nat.add] in E2. apply bind_ok in E2 as (name & En & E2). apply bind_ok in E2 as (v & Ev & E2). injection E2 as <-. apply get_ok in En. apply get_ok in Ev.
      assert (Hname : name = vertex_axis n) by (destruct n as [|[|[|n]]]; [| | |lia]; cbn in En; now injection En as <-). subst name. split.
      + intros ax L. destruct (Nat.eq_dec ax n) as [->|Hne]; [exists v; split; [exact Ev|apply pull_push]|]. destruct (A1 ax ltac:(lia)) as (w & Ew & Pw). exists w. split; [exact Ew|].
        rewrite pull_push_other; [exact Pw|]. destruct ax as [|[|[|ax]]]; destruct n as [|[|[|n]]]; cbn [vertex_axis]; try lia; discriminate.
      + intros nm Hnm. rewrite pull_push_other by (apply Hnm; lia). apply B1. intros ax L. apply Hnm. lia.
  Qed.
  Lemma push_one_ok (vertices : list (list A)) n (s s' : session) : n < 3 -> push_axes vertices [n] s = Ok s' -> exists v, nth_error vertices n = Some v /\ s' = push (vertex_axis n) (VVec v) s.
  Proof.
    intros Hn H. unfold push_axes in H. rewrite VisIoVertexProofs.foldM_cons in H. apply bind_ok in H as (s2 & E2 & H). cbn [foldM] in H. injection H as <-.
    apply bind_ok in E2 as (name & En & E2). apply bind_ok in E2 as (v & Ev & E2). injection E2 as <-. apply get_ok in En. apply get_ok in Ev. exists v. split; [exact Ev|].
    destruct n as [|[|[|n]]]; [| | |lia]; cbn in En; injection En as <-; reflexivity.
  Qed.
End Proofs.
