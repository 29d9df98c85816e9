(** * Lin: vectors and matrices over an arbitrary commutative ring, as lists.

    Floating-point arrays of the code are modelled by lists over a ring; the record packs
    the operations with the ring laws, so every statement is quantified over them.
    The operations themselves do not check shapes; callers do. *)
From Coq Require Import List Arith ZArith Lia Ring Ring_theory Setoid.
Import ListNotations.

Record cring : Type := mk_cring {
  car :> Type;
  r0 : car; r1 : car;
  radd : car -> car -> car; rmul : car -> car -> car; rsub : car -> car -> car; ropp : car -> car;
  rth : ring_theory r0 r1 radd rmul rsub ropp (@eq car)
}.
Arguments r0 {c}. Arguments r1 {c}. Arguments radd {c}. Arguments rmul {c}.
Arguments rsub {c}. Arguments ropp {c}.
Declare Scope cring_scope.
Delimit Scope cring_scope with cr.
Bind Scope cring_scope with car.
Notation "0" := r0 : cring_scope.
Notation "1" := r1 : cring_scope.
Infix "+" := radd : cring_scope.
Infix "*" := rmul : cring_scope.
Infix "-" := rsub : cring_scope.
Notation "- x" := (ropp x) : cring_scope.

Definition Zcring : cring := mk_cring Z 0%Z 1%Z Z.add Z.mul Z.sub Z.opp Zth.

Section Lin.
  Variable R : cring.
  Add Ring Rring : (rth R).
  Local Open Scope cring_scope.

  Local Notation vec := (list R).
  Local Notation mat := (list (list R)).

  Fixpoint map2 {X Y W} (f : X -> Y -> W) (l : list X) (l' : list Y) : list W :=
    match l, l' with x :: l, y :: l' => f x y :: map2 f l l' | _, _ => [] end.

  Definition vadd (u v : vec) : vec := map2 radd u v.
  Definition vsub (u v : vec) : vec := map2 rsub u v.
  Definition vopp (u : vec) : vec := map ropp u.
  Definition vscale (a : R) (u : vec) : vec := map (rmul a) u.
  Fixpoint rsum (l : list R) : R := match l with [] => 0 | x :: l => x + rsum l end.
  Definition dot (u v : vec) : R := rsum (map2 rmul u v).
  Definition zeros (n : nat) : vec := repeat 0 n.
  (** M @ v *)
  Definition matvec (M : mat) (v : vec) : vec := map (fun row => dot row v) M.
  (** row @ N with n columns *)
  Definition vecmat (n : nat) (row : vec) (N : mat) : vec :=
    fold_right vadd (zeros n) (map2 vscale row N).
  (** M @ N, n the number of columns of N *)
  Definition matmul (n : nat) (M N : mat) : mat := map (fun row => vecmat n row N) M.
  Definition unitv (n i : nat) : vec := map (fun j => if Nat.eqb i j then 1 else 0) (seq 0%nat n).
  Definition idmat (n : nat) : mat := map (unitv n) (seq 0%nat n).
  Definition is_mat (m n : nat) (M : mat) : Prop := length M = m /\ Forall (fun row => length row = n) M.

  Lemma map2_length {X Y W} (f : X -> Y -> W) l l' : length l = length l' -> length (map2 f l l') = length l.
  Proof. revert l'; induction l as [|x l IH]; intros [|y l'] H; cbn in *; try lia. f_equal. apply IH. lia. Qed.

  Lemma map2_nth {X Y W} (f : X -> Y -> W) l l' i x y :
    nth_error l i = Some x -> nth_error l' i = Some y -> nth_error (map2 f l l') i = Some (f x y).
  Proof.
    revert l' i; induction l as [|a l IH]; intros [|b l'] [|i] H1 H2; cbn in *; try discriminate.
    - congruence.
    - auto.
  Qed.

  Lemma vadd_length u v : length u = length v -> length (vadd u v) = length u.
  Proof. apply map2_length. Qed.
  Lemma vsub_length u v : length u = length v -> length (vsub u v) = length u.
  Proof. apply map2_length. Qed.
  Lemma matvec_length M v : length (matvec M v) = length M.
  Proof. apply map_length. Qed.
  Lemma zeros_length n : length (zeros n) = n.
  Proof. apply repeat_length. Qed.

  Lemma vecmat_length n row N : length row = length N -> Forall (fun r => length r = n) N ->
    length (vecmat n row N) = n.
  Proof.
    unfold vecmat. revert row; induction N as [|r N IH]; intros [|a row] Hl HF; cbn [map2 fold_right] in *; try apply zeros_length;
      try (cbn in Hl; lia).
    inversion HF; subst. rewrite vadd_length; unfold vscale; rewrite map_length; auto.
    rewrite IH; auto.
  Qed.

  Lemma is_mat_matmul m k n M N : is_mat m k M -> is_mat k n N -> is_mat m n (matmul n M N).
  Proof.
    intros (Hm & HM) (Hk & HN). split; [unfold matmul; now rewrite map_length|].
    apply Forall_forall. intros row Hrow. apply in_map_iff in Hrow as (r & <- & Hr).
    apply vecmat_length; auto. rewrite Forall_forall in HM. transitivity k; [exact (HM _ Hr)|symmetry; exact Hk].
  Qed.

  Lemma is_mat_id n : is_mat n n (idmat n).
  Proof.
    split; [unfold idmat; now rewrite map_length, seq_length|].
    apply Forall_forall. intros row Hrow. apply in_map_iff in Hrow as (r & <- & Hr).
    unfold unitv. now rewrite map_length, seq_length.
  Qed.

  Lemma dot_nil_r u : dot u [] = 0.
  Proof. destruct u; reflexivity. Qed.

  Lemma dot_cons a u b v : dot (a :: u) (b :: v) = a * b + dot u v.
  Proof. reflexivity. Qed.

  Lemma dot_comm u v : dot u v = dot v u.
  Proof. revert v; induction u as [|a u IH]; intros [|b v]; try reflexivity. rewrite !dot_cons, IH. ring. Qed.

  Lemma dot_zeros n v : dot (zeros n) v = 0.
  Proof.
    revert v; induction n as [|n IH]; intros [|b v]; try reflexivity.
    change (zeros (S n)) with (0 :: zeros n). rewrite dot_cons, IH. ring.
  Qed.

  Lemma dot_vadd_l u v w : length u = length v -> dot (vadd u v) w = dot u w + dot v w.
  Proof.
    revert v w; induction u as [|a u IH]; intros [|b v] [|c w] H; cbn [length] in H; try lia;
      try (unfold vadd, dot; cbn; ring).
    change (vadd (a :: u) (b :: v)) with (a + b :: vadd u v). rewrite !dot_cons, IH by lia. ring.
  Qed.

  Lemma dot_vadd_r u v w : length u = length v -> dot w (vadd u v) = dot w u + dot w v.
  Proof. intros H. rewrite (dot_comm w), dot_vadd_l by auto. now rewrite (dot_comm u), (dot_comm v). Qed.

  Lemma dot_vopp_r u v : dot u (vopp v) = - dot u v.
  Proof.
    revert v; induction u as [|a u IH]; intros [|b v]; try (unfold dot; cbn; ring).
    change (vopp (b :: v)) with (- b :: vopp v). rewrite !dot_cons, IH. ring.
  Qed.

  Lemma dot_vscale_l a u v : dot (vscale a u) v = a * dot u v.
  Proof.
    revert v; induction u as [|x u IH]; intros [|b v]; try (unfold dot; cbn; ring).
    change (vscale a (x :: u)) with (a * x :: vscale a u). rewrite !dot_cons, IH. ring.
  Qed.

  Lemma dot_vecmat n row N v : length row = length N -> Forall (fun r => length r = n) N ->
    dot (vecmat n row N) v = dot row (matvec N v).
  Proof.
    unfold vecmat. revert row; induction N as [|r N IH]; intros [|a row] Hl HF; cbn [length] in Hl; try lia.
    - cbn [map2 fold_right]. now rewrite dot_zeros.
    - inversion HF; subst. cbn [map2 fold_right matvec map].
      rewrite dot_vadd_l.
      + rewrite dot_vscale_l, IH by (auto; lia). reflexivity.
      + unfold vscale. rewrite map_length. symmetry. apply (vecmat_length (length r) row N); auto.
  Qed.

  Lemma matvec_matmul m k n M N v : is_mat m k M -> is_mat k n N -> matvec (matmul n M N) v = matvec M (matvec N v).
  Proof.
    intros (Hm & HM) (Hk & HN). unfold matmul, matvec at 1. rewrite map_map. unfold matvec at 1.
    apply map_ext_in. intros row Hrow. apply dot_vecmat; auto.
    rewrite Forall_forall in HM. transitivity k; [exact (HM _ Hrow)|symmetry; exact Hk].
  Qed.

  Lemma dot_unitv_from n s i v : length v = n ->
    dot (map (fun j => if Nat.eqb i j then 1 else 0) (seq s n)) v =
    match (if Nat.leb s i then nth_error v (i - s) else None) with Some x => x | None => 0 end.
  Proof.
    revert s v; induction n as [|n IH]; intros s [|b v] H; cbn [length] in H; try lia.
    - cbn [seq map]. destruct (Nat.leb s i); [destruct (i - s)%nat|]; reflexivity.
    - cbn [seq map]. rewrite dot_cons, IH by lia.
      destruct (Nat.eqb_spec i s) as [->|Hne].
      + rewrite Nat.leb_refl, Nat.sub_diag. cbn [nth_error].
        destruct (Nat.leb_spec (S s) s); [lia|]. ring.
      + destruct (Nat.leb_spec (S s) i), (Nat.leb_spec s i); try lia.
        * replace (i - s)%nat with (S (i - S s)) by lia. cbn [nth_error]. ring.
        * ring.
  Qed.

  Lemma matvec_id n v : length v = n -> matvec (idmat n) v = v.
  Proof.
    intros H. unfold matvec, idmat. rewrite map_map.
    transitivity (map (fun i => match nth_error v i with Some x => x | None => 0 end) (seq 0%nat n)).
    - apply map_ext. intros i. unfold unitv. rewrite dot_unitv_from by auto. cbn [Nat.leb]. now rewrite Nat.sub_0_r.
    - subst n. clear. induction v as [|x v IH]; [reflexivity|]. cbn [length seq map nth_error]. f_equal.
      rewrite <- seq_shift, map_map. exact IH.
  Qed.

  Lemma matvec_vadd m n M u v : is_mat m n M -> length u = length v -> matvec M (vadd u v) = vadd (matvec M u) (matvec M v).
  Proof.
    intros _ H. unfold matvec. induction M as [|r M IH]; [reflexivity|].
    cbn [map]. change (vadd (dot r u :: map (fun row => dot row u) M) (dot r v :: map (fun row => dot row v) M))
      with (dot r u + dot r v :: vadd (map (fun row => dot row u) M) (map (fun row => dot row v) M)).
    f_equal; [now apply dot_vadd_r|exact IH].
  Qed.

  Lemma matvec_vopp M v : matvec M (vopp v) = vopp (matvec M v).
  Proof. unfold matvec, vopp at 2. rewrite map_map. apply map_ext. intros r. apply dot_vopp_r. Qed.

  Lemma vadd_comm u v : vadd u v = vadd v u.
  Proof. unfold vadd. revert v; induction u as [|a u IH]; intros [|b v]; cbn [map2]; auto. f_equal; [ring|apply IH]. Qed.

  Lemma vadd_assoc u v w : vadd u (vadd v w) = vadd (vadd u v) w.
  Proof.
    unfold vadd. revert v w; induction u as [|a u IH]; intros [|b v] [|c w]; cbn [map2]; auto. f_equal; [ring|apply IH].
  Qed.

  Lemma vadd_zeros n v : length v = n -> vadd v (zeros n) = v.
  Proof.
    intros <-. induction v as [|a v IH]; [reflexivity|]. cbn [length].
    change (vadd (a :: v) (zeros (S (length v)))) with (a + 0 :: vadd v (zeros (length v))). rewrite IH. f_equal. ring.
  Qed.

  Lemma vadd_vopp v : vadd v (vopp v) = zeros (length v).
  Proof.
    induction v as [|a v IH]; [reflexivity|].
    change (vadd (a :: v) (vopp (a :: v))) with (a + - a :: vadd v (vopp v)). rewrite IH.
    change (zeros (length (a :: v))) with (0 :: zeros (length v)). f_equal. ring.
  Qed.

  Lemma vopp_length v : length (vopp v) = length v.
  Proof. apply map_length. Qed.

  Lemma vsub_vadd u v : vsub u v = vadd u (vopp v).
  Proof. unfold vsub, vadd, vopp. revert v; induction u as [|a u IH]; intros [|b v]; cbn [map2 map]; auto. f_equal; [ring|apply IH]. Qed.

  Lemma vopp_vadd u v : vopp (vadd u v) = vadd (vopp u) (vopp v).
  Proof. unfold vadd, vopp. revert v; induction u as [|a u IH]; intros [|b v]; cbn [map2 map]; auto. f_equal; [ring|apply IH]. Qed.

  Lemma vopp_vopp v : vopp (vopp v) = v.
  Proof. unfold vopp. induction v as [|a v IH]; [reflexivity|]. cbn [map]. f_equal; [ring|exact IH]. Qed.

  Lemma vadd_cancel_r u v : length u = length v -> vadd (vadd u v) (vopp v) = u.
  Proof. intros H. rewrite <- vadd_assoc, vadd_vopp. apply vadd_zeros. auto. Qed.
End Lin.

Arguments map2 {X Y W}.
Arguments vadd {R}. Arguments vsub {R}. Arguments vopp {R}. Arguments vscale {R}. Arguments rsum {R}.
Arguments dot {R}. Arguments zeros {R}. Arguments matvec {R}. Arguments vecmat {R}. Arguments matmul {R}.
Arguments unitv {R}. Arguments idmat {R}. Arguments is_mat {R}.
