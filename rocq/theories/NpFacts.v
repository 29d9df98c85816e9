(** * Facts about the NumPy renderings of [Np]. *)
From Coq Require Import List Arith Bool ZArith Lia Permutation Sorted.
From Verif Require Import Np.
Import ListNotations.

(** ** res monad *)
Lemma bind_ok {A B} (x : res A) (f : A -> res B) b :
  bind x f = Ok b <-> exists a, x = Ok a /\ f a = Ok b.
Proof.
  destruct x as [a|e]; cbn; split.
  - intros H; exists a; auto.
  - intros (a' & H & H'); inversion H; subst; auto.
  - discriminate.
  - intros (a' & H & _); discriminate.
Qed.

Lemma bind_err {A B} (x : res A) (f : A -> res B) e :
  bind x f = Err e <-> x = Err e \/ exists a, x = Ok a /\ f a = Err e.
Proof.
  destruct x as [a|e']; cbn; split.
  - intros H; right; exists a; auto.
  - intros [H|(a' & H & H')]; [discriminate|]. inversion H; subst; auto.
  - intros H; left; inversion H; auto.
  - intros [H|(a' & H & _)]; [inversion H; auto|discriminate].
Qed.

Lemma mapM_ok {A B} (f : A -> res B) l r :
  mapM f l = Ok r <-> Forall2 (fun x y => f x = Ok y) l r.
Proof.
  revert r; induction l as [|x l IH]; intros r; cbn [mapM].
  - split; [intros H; inversion H; constructor | intros H; inversion H; auto].
  - rewrite bind_ok. split.
    + intros (y & Hy & H). apply bind_ok in H as (ys & Hys & H). inversion H; subst.
      constructor; auto. now apply IH.
    + intros H; inversion H as [|? y ? ys Hy Hys]; subst. exists y; split; auto.
      apply bind_ok. exists ys; split; auto. now apply IH.
Qed.

Lemma Forall2_impl {A B} (R S : A -> B -> Prop) l r :
  (forall x y, R x y -> S x y) -> Forall2 R l r -> Forall2 S l r.
Proof. intros H; induction 1; constructor; auto. Qed.

Lemma Forall2_length' {A B} (R : A -> B -> Prop) l r : Forall2 R l r -> length l = length r.
Proof. induction 1; cbn; congruence. Qed.

Lemma mapM_length {A B} (f : A -> res B) l r : mapM f l = Ok r -> length r = length l.
Proof. intros H; apply mapM_ok in H; symmetry; eapply Forall2_length'; eauto. Qed.

Lemma Forall2_nth_error {A B} (R : A -> B -> Prop) l r i x :
  Forall2 R l r -> nth_error l i = Some x -> exists y, nth_error r i = Some y /\ R x y.
Proof.
  intros H; revert i; induction H as [|a b l r Hab H IH]; intros [|i]; cbn; try discriminate.
  - intros E; inversion E; subst; eauto.
  - apply IH.
Qed.

Lemma Forall2_nth_error_r {A B} (R : A -> B -> Prop) l r i y :
  Forall2 R l r -> nth_error r i = Some y -> exists x, nth_error l i = Some x /\ R x y.
Proof.
  intros H; revert i; induction H as [|a b l r Hab H IH]; intros [|i]; cbn; try discriminate.
  - intros E; inversion E; subst; eauto.
  - apply IH.
Qed.

Lemma Forall2_intro_nth {A B} (R : A -> B -> Prop) l r :
  length l = length r ->
  (forall i x y, nth_error l i = Some x -> nth_error r i = Some y -> R x y) ->
  Forall2 R l r.
Proof.
  revert r; induction l as [|x l IH]; intros [|y r] HL H; cbn in HL; try discriminate.
  - constructor.
  - constructor.
    + apply (H 0); reflexivity.
    + apply IH; [lia|]. intros i a b Ha Hb. apply (H (S i)); auto.
Qed.

Lemma Forall2_In_l {A B} (R : A -> B -> Prop) l r x :
  Forall2 R l r -> In x l -> exists y, In y r /\ R x y.
Proof.
  intros H Hx. apply In_nth_error in Hx as (i & Hi).
  destruct (Forall2_nth_error _ _ _ _ _ H Hi) as (y & Hy & HR).
  exists y; split; auto. eapply nth_error_In; eauto.
Qed.

Lemma Forall2_In_r {A B} (R : A -> B -> Prop) l r y :
  Forall2 R l r -> In y r -> exists x, In x l /\ R x y.
Proof.
  intros H Hx. apply In_nth_error in Hx as (i & Hi).
  destruct (Forall2_nth_error_r _ _ _ _ _ H Hi) as (x & Hy & HR).
  exists x; split; auto. eapply nth_error_In; eauto.
Qed.

Lemma mapM_nth {A B} (f : A -> res B) l r i x :
  mapM f l = Ok r -> nth_error l i = Some x -> exists y, nth_error r i = Some y /\ f x = Ok y.
Proof. intros H E; apply mapM_ok in H. exact (Forall2_nth_error _ _ _ _ _ H E). Qed.

Lemma mapM_nth_r {A B} (f : A -> res B) l r i y :
  mapM f l = Ok r -> nth_error r i = Some y -> exists x, nth_error l i = Some x /\ f x = Ok y.
Proof. intros H E; apply mapM_ok in H. exact (Forall2_nth_error_r _ _ _ _ _ H E). Qed.

Lemma mapM_total {A B} (f : A -> res B) l :
  (forall x, In x l -> exists y, f x = Ok y) -> exists r, mapM f l = Ok r.
Proof.
  induction l as [|x l IH]; intros H; cbn.
  - eauto.
  - destruct (H x) as (y & Hy); [now left|]. rewrite Hy; cbn.
    destruct IH as (ys & Hys); [intros; apply H; now right|]. rewrite Hys; cbn; eauto.
Qed.

Lemma mapM_ext {A B} (f g : A -> res B) l :
  (forall x, In x l -> f x = g x) -> mapM f l = mapM g l.
Proof.
  induction l as [|x l IH]; intros H; cbn; auto.
  rewrite (H x) by now left. rewrite IH; auto. intros; apply H; now right.
Qed.

Lemma mapM_pure {A B} (f : A -> B) l : mapM (fun x => Ok (f x)) l = Ok (map f l).
Proof. induction l as [|x l IH]; cbn; auto. rewrite IH; auto. Qed.

Lemma mapM_map_ok {A B} (f : A -> res B) (g : A -> B) l :
  (forall x, In x l -> f x = Ok (g x)) -> mapM f l = Ok (map g l).
Proof. intros H. rewrite (mapM_ext f (fun x => Ok (g x))) by auto. apply mapM_pure. Qed.

Lemma mapM_err {A B} (f : A -> res B) l e :
  mapM f l = Err e -> exists x, In x l /\ f x = Err e.
Proof.
  induction l as [|x l IH]; cbn; [discriminate|].
  rewrite bind_err. intros [H|(y & Hy & H)].
  - exists x; auto.
  - apply bind_err in H as [H|(ys & Hys & H)]; [|discriminate].
    destruct (IH H) as (x' & Hx' & E); eauto.
Qed.

Lemma mapM_app {A B} (f : A -> res B) l1 l2 :
  mapM f (l1 ++ l2) = (r1 <- mapM f l1 ;; r2 <- mapM f l2 ;; Ok (r1 ++ r2)).
Proof.
  induction l1 as [|x l1 IH]; cbn.
  - destruct (mapM f l2); auto.
  - destruct (f x) as [y|e]; cbn; auto. rewrite IH.
    destruct (mapM f l1); cbn; auto. destruct (mapM f l2); auto.
Qed.

Lemma foldM_app {A S} (f : S -> A -> res S) l1 l2 s :
  foldM f (l1 ++ l2) s = (s' <- foldM f l1 s ;; foldM f l2 s').
Proof.
  revert s; induction l1 as [|x l1 IH]; intros s; cbn; auto.
  destruct (f s x); cbn; auto.
Qed.

(** ** get / take / upd / put / scatter *)
Lemma get_ok {A} (l : list A) i x : get l i = Ok x <-> nth_error l i = Some x.
Proof.
  unfold get. destruct (nth_error l i); split; intros H; inversion H; auto.
Qed.

Lemma get_err {A} (l : list A) i e : get l i = Err e <-> (e = IndexError /\ length l <= i).
Proof.
  unfold get. destruct (nth_error l i) eqn:E; split; intros H.
  - discriminate.
  - destruct H as (_ & H). apply nth_error_None in H. congruence.
  - inversion H; split; auto. now apply nth_error_None.
  - destruct H; congruence.
Qed.

Lemma get_total {A} (l : list A) i : i < length l -> exists x, get l i = Ok x.
Proof.
  intros H. destruct (nth_error l i) eqn:E.
  - exists a. now apply get_ok.
  - apply nth_error_None in E. lia.
Qed.

Lemma take_ok {A} (l : list A) idx r :
  take l idx = Ok r <-> Forall2 (fun i x => nth_error l i = Some x) idx r.
Proof.
  unfold take. rewrite mapM_ok. split; induction 1; constructor; auto; now apply get_ok.
Qed.

Lemma take_total {A} (l : list A) idx :
  Forall (fun i => i < length l) idx -> exists r, take l idx = Ok r.
Proof.
  intros H. apply mapM_total. intros i Hi. apply get_total.
  rewrite Forall_forall in H. auto.
Qed.

Lemma take_nth {A} (l : list A) idx r k :
  take l idx = Ok r ->
  nth_error r k = match nth_error idx k with Some i => nth_error l i | None => None end.
Proof.
  intros H. apply take_ok in H. destruct (nth_error idx k) as [i|] eqn:E.
  - destruct (Forall2_nth_error _ _ _ _ _ H E) as (y & Hy & Hl). congruence.
  - apply nth_error_None. apply nth_error_None in E. apply Forall2_length' in H. lia.
Qed.

Lemma length_upd {A} (l : list A) i v : length (upd l i v) = length l.
Proof. revert i; induction l as [|x l IH]; intros [|i]; cbn; auto. Qed.

Lemma nth_error_upd_eq {A} (l : list A) i v : i < length l -> nth_error (upd l i v) i = Some v.
Proof.
  revert i; induction l as [|x l IH]; intros [|i]; cbn; try lia; auto. intros; apply IH; lia.
Qed.

Lemma nth_error_upd_neq {A} (l : list A) i j v : i <> j -> nth_error (upd l i v) j = nth_error l j.
Proof.
  revert i j; induction l as [|x l IH]; intros [|i] [|j] H; cbn; auto; try congruence.
Qed.

Lemma put_ok {A} (l l' : list A) i v :
  put l i v = Ok l' <-> i < length l /\ l' = upd l i v.
Proof.
  unfold put. destruct (Nat.ltb_spec i (length l)); split; intros H'.
  - inversion H'; auto.
  - destruct H'; subst; auto.
  - discriminate.
  - lia.
Qed.

Lemma scatter_length {A} (ivs : list (nat * A)) l l' :
  scatter l ivs = Ok l' -> length l' = length l.
Proof.
  unfold scatter. revert l; induction ivs as [|(i,v) ivs IH]; cbn; intros l H.
  - inversion H; auto.
  - apply bind_ok in H as (l1 & H1 & H). apply put_ok in H1 as (_ & ->).
    apply IH in H. now rewrite length_upd in H.
Qed.

Lemma scatter_ok_range {A} (ivs : list (nat * A)) l :
  (exists l', scatter l ivs = Ok l') <-> Forall (fun iv => fst iv < length l) ivs.
Proof.
  unfold scatter. revert l; induction ivs as [|(i,v) ivs IH]; cbn; intros l.
  - split; [constructor|eauto].
  - split.
    + intros (l' & H). apply bind_ok in H as (l1 & H1 & H).
      apply put_ok in H1 as (Hi & ->). constructor; auto.
      assert (E : exists l', foldM (fun a iv => put a (fst iv) (snd iv)) ivs (upd l i v) = Ok l')
        by eauto.
      apply IH in E. now rewrite length_upd in E.
    + intros H; inversion H as [|? ? Hi Hr]; subst; cbn in Hi.
      destruct (proj2 (IH (upd l i v))) as (l' & Hl').
      { now rewrite length_upd. }
      exists l'. apply bind_ok. exists (upd l i v); split; auto. now apply put_ok.
Qed.

Lemma scatter_notin {A} (ivs : list (nat * A)) l l' j :
  scatter l ivs = Ok l' -> ~ In j (map fst ivs) -> nth_error l' j = nth_error l j.
Proof.
  unfold scatter. revert l; induction ivs as [|(i,v) ivs IH]; cbn; intros l H Hn.
  - inversion H; auto.
  - apply bind_ok in H as (l1 & H1 & H). apply put_ok in H1 as (Hi & ->).
    rewrite (IH _ H) by tauto. apply nth_error_upd_neq. intros E; apply Hn; now left.
Qed.

Lemma scatter_in {A} (ivs : list (nat * A)) l l' j v :
  scatter l ivs = Ok l' -> NoDup (map fst ivs) -> In (j, v) ivs -> nth_error l' j = Some v.
Proof.
  unfold scatter. revert l; induction ivs as [|(i,w) ivs IH]; cbn; intros l H Hn Hin.
  - contradiction.
  - apply bind_ok in H as (l1 & H1 & H). apply put_ok in H1 as (Hi & ->).
    inversion Hn as [|? ? Hni Hn']; subst.
    destruct Hin as [E|Hin].
    + inversion E; subst.
      pose proof (scatter_notin ivs (upd l j v) l' j H Hni) as E'. rewrite E'.
      now apply nth_error_upd_eq.
    + eapply IH; eauto.
Qed.

Lemma nth_error_firstn {A} (l : list A) n i :
  nth_error (firstn n l) i = if i <? n then nth_error l i else None.
Proof.
  revert n i; induction l as [|x l IH]; intros [|n] [|i]; cbn [firstn nth_error]; auto.
  - destruct (S i <? S n); auto.
  - rewrite IH. destruct (Nat.ltb_spec i n), (Nat.ltb_spec (S i) (S n)); auto; lia.
Qed.

Lemma nth_error_skipn {A} (l : list A) n i : nth_error (skipn n l) i = nth_error l (n + i).
Proof.
  revert n; induction l as [|x l IH]; intros [|n]; cbn; auto. now destruct i.
Qed.

Lemma nth_error_slice {A} (l : list A) lo hi i :
  nth_error (slice l lo hi) i = if lo + i <? hi then nth_error l (lo + i) else None.
Proof.
  unfold slice. rewrite nth_error_firstn, nth_error_skipn.
  destruct (Nat.ltb_spec i (hi - lo)), (Nat.ltb_spec (lo + i) hi); auto; lia.
Qed.

Lemma slice_length {A} (l : list A) lo hi :
  hi <= length l -> length (slice l lo hi) = hi - lo.
Proof. intros H. unfold slice. rewrite firstn_length, skipn_length. lia. Qed.

(** ** enumerate, where_, compress *)
Lemma length_enumerate_from {A} n (l : list A) : length (enumerate_from n l) = length l.
Proof. unfold enumerate_from. rewrite combine_length, seq_length. lia. Qed.

Lemma length_enumerate {A} (l : list A) : length (enumerate l) = length l.
Proof. apply length_enumerate_from. Qed.

Lemma enumerate_from_cons {A} n x (l : list A) :
  enumerate_from n (x :: l) = (n, x) :: enumerate_from (S n) l.
Proof. reflexivity. Qed.

Lemma enumerate_from_app {A} n (l1 l2 : list A) :
  enumerate_from n (l1 ++ l2) = enumerate_from n l1 ++ enumerate_from (n + length l1) l2.
Proof.
  revert n; induction l1 as [|x l1 IH]; intros n; cbn [app length].
  - now rewrite Nat.add_0_r.
  - rewrite !enumerate_from_cons, IH. cbn. do 3 f_equal. lia.
Qed.

Lemma nth_error_enumerate_from {A} n (l : list A) i :
  nth_error (enumerate_from n l) i = option_map (pair (n + i)) (nth_error l i).
Proof.
  revert n i; induction l as [|x l IH]; intros n [|i]; cbn; auto.
  - now rewrite Nat.add_0_r.
  - fold (enumerate_from (S n) l). rewrite IH. now rewrite Nat.add_succ_r.
Qed.

Lemma nth_error_enumerate {A} (l : list A) i :
  nth_error (enumerate l) i = option_map (pair i) (nth_error l i).
Proof. apply nth_error_enumerate_from. Qed.

Lemma In_enumerate_from {A} n (l : list A) i x :
  In (i, x) (enumerate_from n l) <-> n <= i /\ nth_error l (i - n) = Some x.
Proof.
  split.
  - intros H. apply In_nth_error in H as (k & Hk).
    rewrite nth_error_enumerate_from in Hk. destruct (nth_error l k) eqn:E; cbn in Hk; [|discriminate].
    inversion Hk; subst. split; [lia|]. now replace (n + k - n) with k by lia.
  - intros (Hn & H). apply nth_error_In with (n := i - n).
    rewrite nth_error_enumerate_from, H. cbn. do 3 f_equal. lia.
Qed.

Lemma In_enumerate {A} (l : list A) i x : In (i, x) (enumerate l) <-> nth_error l i = Some x.
Proof.
  unfold enumerate. rewrite In_enumerate_from, Nat.sub_0_r. split; [tauto|].
  intros; split; [lia|auto].
Qed.

Lemma map_fst_enumerate_from {A} n (l : list A) : map fst (enumerate_from n l) = seq n (length l).
Proof.
  revert n; induction l as [|x l IH]; intros n; auto.
  rewrite enumerate_from_cons; cbn [map length seq]. now rewrite IH.
Qed.

Lemma map_fst_enumerate {A} (l : list A) : map fst (enumerate l) = seq 0 (length l).
Proof. apply map_fst_enumerate_from. Qed.

Lemma map_snd_enumerate_from {A} n (l : list A) : map snd (enumerate_from n l) = l.
Proof.
  revert n; induction l as [|x l IH]; intros n; auto.
  rewrite enumerate_from_cons; cbn [map]. now rewrite IH.
Qed.

Lemma map_snd_enumerate {A} (l : list A) : map snd (enumerate l) = l.
Proof. apply map_snd_enumerate_from. Qed.

Lemma NoDup_enumerate {A} (l : list A) : NoDup (enumerate l).
Proof.
  apply NoDup_map_inv with (f := fst). rewrite map_fst_enumerate. apply seq_NoDup.
Qed.

Lemma In_where_ m i : In i (where_ m) <-> nth_error m i = Some true.
Proof.
  unfold where_. rewrite in_map_iff. split.
  - intros ((j, b) & E & H). cbn in E; subst. apply filter_In in H as (H & Hb). cbn in Hb; subst.
    now apply In_enumerate.
  - intros H. exists (i, true); split; auto. apply filter_In; split; auto. now apply In_enumerate.
Qed.

(** Strictly increasing lists of naturals. *)
Definition incr (l : list nat) : Prop := StronglySorted lt l.

Lemma incr_seq n k : incr (seq n k).
Proof.
  revert n; induction k as [|k IH]; intros n; cbn; constructor; auto.
  - apply IH.
  - apply Forall_forall. intros x Hx. apply in_seq in Hx. lia.
Qed.

Lemma StronglySorted_filter {A} (R : A -> A -> Prop) p l :
  StronglySorted R l -> StronglySorted R (filter p l).
Proof.
  induction 1 as [|x l H IH HF]; cbn; [constructor|].
  destruct (p x); auto. constructor; auto.
  rewrite Forall_forall in *. intros y Hy. apply filter_In in Hy. apply HF. tauto.
Qed.

Lemma StronglySorted_map {A B} (R : A -> A -> Prop) (S : B -> B -> Prop) (f : A -> B) l :
  (forall x y, R x y -> S (f x) (f y)) -> StronglySorted R l -> StronglySorted S (map f l).
Proof.
  intros Hf. induction 1 as [|x l H IH HF]; cbn; constructor; auto.
  rewrite Forall_map. eapply Forall_impl; [|exact HF]. auto.
Qed.

Lemma incr_NoDup l : incr l -> NoDup l.
Proof.
  induction 1 as [|x l H IH HF]; constructor; auto.
  intros Hin. rewrite Forall_forall in HF. apply HF in Hin. lia.
Qed.

Lemma StronglySorted_enumerate_from {A} n (l : list A) :
  StronglySorted (fun a b => fst a < fst b) (enumerate_from n l).
Proof.
  revert n; induction l as [|x l IH]; intros n; [constructor|].
  rewrite enumerate_from_cons. constructor; auto.
  apply Forall_forall. intros (j, y) H. apply In_enumerate_from in H. cbn. lia.
Qed.

Lemma where_incr m : incr (where_ m).
Proof.
  unfold where_, incr. eapply StronglySorted_map with (R := fun a b => fst a < fst b); auto.
  apply StronglySorted_filter. apply StronglySorted_enumerate_from.
Qed.

Lemma incr_ext l1 l2 : incr l1 -> incr l2 -> (forall x, In x l1 <-> In x l2) -> l1 = l2.
Proof.
  unfold incr. revert l2; induction l1 as [|x l1 IH]; intros l2 H1 H2 H.
  - destruct l2 as [|y l2]; auto. exfalso. apply (proj2 (H y)). now left.
  - destruct l2 as [|y l2]; [exfalso; apply (proj1 (H x)); now left|].
    inversion H1 as [|? ? H1' F1]; inversion H2 as [|? ? H2' F2]; subst.
    rewrite Forall_forall in F1, F2.
    assert (x = y) as ->.
    { destruct (proj1 (H x) (or_introl eq_refl)) as [E|E]; auto.
      destruct (proj2 (H y) (or_introl eq_refl)) as [E'|E']; auto.
      apply F2 in E. apply F1 in E'. lia. }
    f_equal. apply IH; auto. intros z. split; intros Hz.
    + destruct (proj1 (H z) (or_intror Hz)) as [E|E]; auto. subst.
      apply F1 in Hz. lia.
    + destruct (proj2 (H z) (or_intror Hz)) as [E|E]; auto. subst.
      apply F2 in Hz. lia.
Qed.

Lemma compress_filter {A} (f : A -> bool) l : compress (map f l) l = filter f l.
Proof.
  unfold compress. induction l as [|x l IH]; cbn; auto.
  destruct (f x); cbn; now rewrite IH.
Qed.

Lemma where_take_filter {A} (f : A -> bool) l :
  take l (where_ (map f l)) = Ok (filter f l).
Proof.
  unfold where_. apply take_ok.
  assert (G : forall (pre l : list A),
    Forall2 (fun i x => nth_error (pre ++ l) i = Some x)
      (map fst (filter snd (enumerate_from (length pre) (map f l)))) (filter f l)).
  { clear l. intros pre l; revert pre; induction l as [|x l IH]; intros pre; [constructor|].
    cbn [map]. rewrite enumerate_from_cons. cbn [filter snd].
    specialize (IH (pre ++ [x])). rewrite app_length in IH. cbn [length] in IH.
    rewrite Nat.add_1_r in IH. rewrite <- app_assoc in IH. cbn [app] in IH.
    destruct (f x); cbn [map fst]; auto. constructor; auto.
    rewrite nth_error_app2 by lia. now rewrite Nat.sub_diag. }
  apply (G [] l).
Qed.

(** ** grids and masks *)
Lemma In_grid rows cols r c : In (r, c) (grid rows cols) <-> r < rows /\ c < cols.
Proof.
  unfold grid. rewrite in_flat_map. split.
  - intros (x & Hx & H). apply in_map_iff in H as (y & E & Hy). inversion E; subst.
    apply in_seq in Hx. apply in_seq in Hy. lia.
  - intros (Hr & Hc). exists r. split; [apply in_seq; lia|].
    apply in_map_iff. exists c. split; auto. apply in_seq; lia.
Qed.

Lemma NoDup_app {A} (l1 l2 : list A) :
  NoDup l1 -> NoDup l2 -> (forall x, In x l1 -> ~ In x l2) -> NoDup (l1 ++ l2).
Proof.
  intros H1 H2 Hd. induction H1 as [|x l1 Hx H1 IH]; cbn; auto.
  constructor.
  - rewrite in_app_iff. intros [H|H]; auto. apply (Hd x); auto. now left.
  - apply IH. intros y Hy. apply Hd. now right.
Qed.

Lemma NoDup_app_inv {A} (l1 l2 : list A) :
  NoDup (l1 ++ l2) -> NoDup l1 /\ NoDup l2 /\ (forall x, In x l1 -> ~ In x l2).
Proof.
  induction l1 as [|x l1 IH]; cbn; intros H.
  - repeat split; auto. constructor.
  - inversion H as [|? ? Hx H']; subst. destruct (IH H') as (H1 & H2 & H3).
    rewrite in_app_iff in Hx. repeat split; auto.
    + constructor; auto.
    + intros y [->|Hy]; auto.
Qed.

Lemma NoDup_flat_map {A B} (f : A -> list B) l :
  NoDup l -> (forall x, In x l -> NoDup (f x)) ->
  (forall x y z, In x l -> In y l -> In z (f x) -> In z (f y) -> x = y) ->
  NoDup (flat_map f l).
Proof.
  induction l as [|x l IH]; intros Hl Hf Hd; cbn; [constructor|].
  inversion Hl as [|? ? Hx Hl']; subst. apply NoDup_app.
  - apply Hf; now left.
  - apply IH; auto.
    + intros; apply Hf; now right.
    + intros a b z Ha Hb. apply Hd; now right.
  - intros z Hz H. apply in_flat_map in H as (y & Hy & Hzy).
    assert (x = y) by (eapply Hd; eauto; [now left|now right]). subst; contradiction.
Qed.

Lemma NoDup_map_inj {A B} (f : A -> B) l :
  (forall x y, In x l -> In y l -> f x = f y -> x = y) -> NoDup l -> NoDup (map f l).
Proof.
  intros Hf H. induction H as [|x l Hx H IH]; cbn; constructor.
  - intros E. apply in_map_iff in E as (y & E & Hy). apply Hx.
    rewrite (Hf x y); auto; [now left|now right].
  - apply IH. intros a b Ha Hb. apply Hf; now right.
Qed.

Lemma NoDup_grid rows cols : NoDup (grid rows cols).
Proof.
  unfold grid. apply NoDup_flat_map.
  - apply seq_NoDup.
  - intros r _. apply NoDup_map_inj; [|apply seq_NoDup]. intros x y _ _ E; now inversion E.
  - intros x y z _ _ Hx Hy. apply in_map_iff in Hx as (a & <- & _).
    apply in_map_iff in Hy as (b & E & _). now inversion E.
Qed.

Lemma In_where2 rows cols m r c :
  In (r, c) (where2 rows cols m) <-> r < rows /\ c < cols /\ m r c = true.
Proof. unfold where2. rewrite filter_In, In_grid. cbn. tauto. Qed.

Lemma NoDup_filter' {A} (p : A -> bool) l : NoDup l -> NoDup (filter p l).
Proof.
  induction 1 as [|x l Hx H IH]; cbn; [constructor|].
  destruct (p x); auto. constructor; auto. rewrite filter_In. tauto.
Qed.

Lemma NoDup_where2 rows cols m : NoDup (where2 rows cols m).
Proof. apply NoDup_filter', NoDup_grid. Qed.

Lemma mset_spec m r c r' c' :
  mset m r c r' c' = true <-> (r' = r /\ c' = c) \/ m r' c' = true.
Proof.
  unfold mset. destruct (Nat.eqb_spec r' r), (Nat.eqb_spec c' c); cbn; try tauto;
    split; try tauto; intros [(?&?)|H]; auto; congruence.
Qed.

Lemma mset_all_ok rows cols rcs m :
  (exists m', mset_all rows cols m rcs = Ok m') <->
  Forall (fun rc => fst rc < rows /\ snd rc < cols) rcs.
Proof.
  revert m; induction rcs as [|(r,c) rcs IH]; intros m; cbn [mset_all].
  - split; [constructor|eauto].
  - destruct (Nat.ltb_spec r rows), (Nat.ltb_spec c cols); cbn [andb].
    2-4: split; [intros (m' & E); discriminate|intros F; inversion F; cbn in *; lia].
    rewrite IH. split; [intros; constructor; auto|intros F; inversion F; auto].
Qed.

Lemma mset_all_spec rows cols rcs m m' r c :
  mset_all rows cols m rcs = Ok m' ->
  (m' r c = true <-> m r c = true \/ In (r, c) rcs).
Proof.
  revert m; induction rcs as [|(r0,c0) rcs IH]; intros m; cbn [mset_all].
  - intros E; inversion E; subst. cbn; tauto.
  - destruct (Nat.ltb_spec r0 rows), (Nat.ltb_spec c0 cols); cbn [andb]; try discriminate.
    intros E. rewrite (IH _ E), mset_spec. cbn [In]. split.
    + intros [[(->&->)|?]|?]; auto.
    + intros [?|[E'|?]]; auto. inversion E'; auto.
Qed.

(** ** sums *)
Lemma sum_app l1 l2 : sum (l1 ++ l2) = sum l1 + sum l2.
Proof. unfold sum. induction l1; cbn; auto. rewrite IHl1. lia. Qed.

Lemma cumsum_from_nth acc l i :
  i < length l -> nth_error (cumsum_from acc l) i = Some (acc + sum (firstn (S i) l)).
Proof.
  revert acc i; induction l as [|x l IH]; intros acc i; cbn [length]; [lia|].
  destruct i as [|i]; intros H; cbn [cumsum_from nth_error].
  - cbn. f_equal. lia.
  - rewrite IH by lia. f_equal. cbn [firstn sum fold_right]. fold (sum (firstn (S i) l)).
    cbn [firstn] in *. unfold sum. cbn [fold_right]. lia.
Qed.

Lemma cumsum_from_length acc l : length (cumsum_from acc l) = length l.
Proof. revert acc; induction l; intros; cbn; auto. Qed.

Lemma sum_firstn_le l i : sum (firstn i l) <= sum l.
Proof.
  revert i; induction l as [|x l IH]; intros [|i]; cbn; try lia. fold (sum l).
  fold (sum (firstn i l)). specialize (IH i). lia.
Qed.

Lemma sum_firstn_S l i n : nth_error l i = Some n -> sum (firstn (S i) l) = sum (firstn i l) + n.
Proof.
  revert i; induction l as [|x l IH]; intros [|i] H; cbn in H; try discriminate.
  - inversion H; subst. cbn. lia.
  - apply IH in H. cbn [firstn sum fold_right] in *. fold (sum (firstn (S i) l)).
    fold (sum (firstn i l)). cbn [firstn] in H. unfold sum in *. cbn [fold_right] in *. lia.
Qed.

Lemma sum_firstn_mono l i j : i <= j -> sum (firstn i l) <= sum (firstn j l).
Proof.
  revert i j; induction l as [|x l IH]; intros [|i] [|j] H; cbn; try lia.
  fold (sum (firstn i l)). fold (sum (firstn j l)). specialize (IH i j). lia.
Qed.

(** ** sorting *)
Section SortFacts.
  Context {A : Type} (leb : A -> A -> bool).
  Hypothesis leb_total : forall x y, leb x y = true \/ leb y x = true.
  Hypothesis leb_trans : forall x y z, leb x y = true -> leb y z = true -> leb x z = true.

  Lemma insert_perm x l : Permutation (insert leb x l) (x :: l).
  Proof using.
    induction l as [|y l IH]; cbn; auto.
    destruct (leb x y); auto. rewrite IH. apply perm_swap.
  Qed.

  Lemma isort_perm l : Permutation (isort leb l) l.
  Proof using.
    induction l as [|x l IH]; cbn; auto. rewrite insert_perm. now constructor.
  Qed.

  Lemma insert_sorted x l :
    StronglySorted (fun a b => leb a b = true) l ->
    StronglySorted (fun a b => leb a b = true) (insert leb x l).
  Proof using leb_total leb_trans.
    induction 1 as [|y l H IH HF]; cbn; [repeat constructor|].
    destruct (leb x y) eqn:E.
    - constructor; [constructor; auto|]. constructor; auto.
      eapply Forall_impl; [|exact HF]. intros z Hz. eapply leb_trans; eauto.
    - constructor; auto.
      assert (Hyx : leb y x = true) by (destruct (leb_total x y); congruence).
      rewrite Forall_forall in *. intros z Hz.
      apply (Permutation_in _ (insert_perm x l)) in Hz. destruct Hz as [->|Hz]; auto.
  Qed.

  Lemma isort_sorted l : StronglySorted (fun a b => leb a b = true) (isort leb l).
  Proof using leb_total leb_trans.
    induction l as [|x l IH]; cbn; [constructor|]. now apply insert_sorted.
  Qed.

  (** Stability: restricted to any class of mutually equivalent entries, the order is kept. *)
  Lemma insert_stable (p : A -> bool) x l :
    (forall a b, p a = true -> p b = true -> leb a b = true) ->
    filter p (insert leb x l) = filter p (x :: l).
  Proof using.
    intros Hp. induction l as [|y l IH]; cbn; auto.
    destruct (leb x y) eqn:E; auto. cbn. rewrite IH. cbn.
    destruct (p x) eqn:Px, (p y) eqn:Py; auto.
    rewrite (Hp x y) in E; auto; discriminate.
  Qed.

  Lemma isort_stable (p : A -> bool) l :
    (forall a b, p a = true -> p b = true -> leb a b = true) ->
    filter p (isort leb l) = filter p l.
  Proof using.
    intros Hp. induction l as [|x l IH]; cbn [isort]; auto.
    rewrite insert_stable by auto. cbn. now rewrite IH.
  Qed.
End SortFacts.

Lemma sort_nat_perm l : Permutation (sort_nat l) l.
Proof. apply isort_perm. Qed.

Lemma sort_nat_sorted l : StronglySorted le (sort_nat l).
Proof.
  assert (H : StronglySorted (fun a b => (a <=? b) = true) (sort_nat l)).
  { apply isort_sorted.
    - intros x y. rewrite !Nat.leb_le. lia.
    - intros x y z. rewrite !Nat.leb_le. lia. }
  induction H as [|x l' H IH HF]; constructor; auto.
  eapply Forall_impl; [|exact HF]. cbn. intros a Ha. now apply Nat.leb_le.
Qed.

Lemma StronglySorted_perm_eq l1 l2 :
  StronglySorted le l1 -> StronglySorted le l2 -> Permutation l1 l2 -> l1 = l2.
Proof.
  revert l2; induction l1 as [|x l1 IH]; intros l2 H1 H2 HP.
  - now apply Permutation_nil in HP.
  - destruct l2 as [|y l2]; [symmetry in HP; apply Permutation_nil in HP; discriminate|].
    inversion H1 as [|? ? H1' F1]; inversion H2 as [|? ? H2' F2]; subst.
    rewrite Forall_forall in F1, F2.
    assert (x = y) as ->.
    { assert (Hx : In x (y :: l2)) by (eapply Permutation_in; [exact HP|now left]).
      assert (Hy : In y (x :: l1)) by (eapply Permutation_in; [symmetry; exact HP|now left]).
      destruct Hx as [|Hx]; auto. destruct Hy as [|Hy]; auto.
      apply F2 in Hx. apply F1 in Hy. lia. }
    f_equal. apply IH; auto. eapply Permutation_cons_inv; eauto.
Qed.

Lemma sort_nat_eq_iff l1 l2 : sort_nat l1 = sort_nat l2 <-> Permutation l1 l2.
Proof.
  split; intros H.
  - rewrite <- (sort_nat_perm l1), <- (sort_nat_perm l2), H. reflexivity.
  - apply StronglySorted_perm_eq; try apply sort_nat_sorted.
    now rewrite (sort_nat_perm l1), (sort_nat_perm l2).
Qed.

Lemma dedup_adj_In l x : In x (dedup_adj l) <-> In x l.
Proof.
  induction l as [|a l IH]; cbn; [tauto|].
  destruct (dedup_adj l) as [|y r] eqn:E.
  - rewrite <- IH. cbn. tauto.
  - destruct (Nat.eqb_spec a y); subst; rewrite <- IH; cbn; tauto.
Qed.

Lemma dedup_adj_incr l : StronglySorted le l -> incr (dedup_adj l).
Proof.
  unfold incr. induction 1 as [|x l H IH HF]; cbn; [constructor|].
  assert (HF' : Forall (le x) (dedup_adj l)).
  { rewrite Forall_forall in *. intros z Hz. apply HF. now apply dedup_adj_In. }
  destruct (dedup_adj l) as [|y r] eqn:E.
  - repeat constructor.
  - inversion IH as [|? ? IH' FR]; subst. inversion HF'; subst.
    destruct (Nat.eqb_spec x y); subst; auto.
    constructor; auto. constructor; [lia|].
    eapply Forall_impl; [|exact FR]. cbn; intros; lia.
Qed.

Lemma unique_In l x : In x (unique l) <-> In x l.
Proof.
  unfold unique. rewrite dedup_adj_In. split; apply Permutation_in.
  - apply sort_nat_perm.
  - symmetry; apply sort_nat_perm.
Qed.

Lemma unique_incr l : incr (unique l).
Proof. apply dedup_adj_incr, sort_nat_sorted. Qed.

Lemma index_of_Some v l i : index_of v l = Some i -> nth_error l i = Some v.
Proof.
  revert i; induction l as [|x l IH]; intros i; cbn; [discriminate|].
  destruct (Nat.eqb_spec x v); subst.
  - intros E; inversion E; reflexivity.
  - destruct (index_of v l) eqn:E; cbn; [|discriminate]. intros E'; inversion E'; subst. now apply IH.
Qed.

Lemma index_of_None v l : index_of v l = None <-> ~ In v l.
Proof.
  induction l as [|x l IH]; cbn; [tauto|].
  destruct (Nat.eqb_spec x v); subst.
  - split; [discriminate|]. intros H; exfalso; auto.
  - destruct (index_of v l) eqn:E; cbn.
    + split; [discriminate|]. intros H. exfalso. apply index_of_Some in E. apply H.
      right. eapply nth_error_In; eauto.
    + split; auto. intros _ [H|H]; auto. now apply IH.
Qed.

Lemma index_of_nth v l i : NoDup l -> nth_error l i = Some v -> index_of v l = Some i.
Proof.
  intros HN H. destruct (index_of v l) as [j|] eqn:E.
  - apply index_of_Some in E. f_equal.
    eapply NoDup_nth_error; eauto; [|congruence].
    apply nth_error_Some. congruence.
  - apply index_of_None in E. exfalso. apply E. eapply nth_error_In; eauto.
Qed.

Lemma unique_inverse_ok l :
  exists inv, snd (unique_inverse l) = Ok inv /\
    Forall2 (fun v i => nth_error (unique l) i = Some v) l inv.
Proof.
  unfold unique_inverse; cbn.
  destruct (mapM_total (fun v => match index_of v (unique l) with
                                 | Some i => Ok i | None => Err KeyError end) l) as (inv & H).
  { intros x Hx. destruct (index_of x (unique l)) eqn:E; eauto.
    apply index_of_None in E. exfalso. apply E. now apply unique_In. }
  exists inv; split; auto. apply mapM_ok in H.
  eapply Forall2_impl; [|exact H]. cbn. intros v i Hi.
  destruct (index_of v (unique l)) eqn:E; [|discriminate].
  inversion Hi; subst. now apply index_of_Some.
Qed.

(** ** lexicographic order on Z lists *)
Lemma lex_leb_total a b : lex_leb Z.eqb Z.leb a b = true \/ lex_leb Z.eqb Z.leb b a = true.
Proof.
  revert b; induction a as [|x a IH]; intros [|y b]; cbn; auto.
  destruct (Z.eqb_spec x y); subst.
  - rewrite Z.eqb_refl. auto.
  - destruct (Z.eqb_spec y x); [congruence|]. rewrite !Z.leb_le. lia.
Qed.

Lemma lex_leb_trans a b c :
  lex_leb Z.eqb Z.leb a b = true -> lex_leb Z.eqb Z.leb b c = true -> lex_leb Z.eqb Z.leb a c = true.
Proof.
  revert b c; induction a as [|x a IH]; intros [|y b] [|z c]; cbn; auto; try discriminate.
  destruct (Z.eqb_spec x y), (Z.eqb_spec y z), (Z.eqb_spec x z); subst; try congruence; eauto;
    rewrite ?Z.leb_le; try lia.
Qed.

Lemma lex_leb_antisym a b :
  lex_leb Z.eqb Z.leb a b = true -> lex_leb Z.eqb Z.leb b a = true -> a = b.
Proof.
  revert b; induction a as [|x a IH]; intros [|y b]; cbn; auto; try discriminate.
  destruct (Z.eqb_spec x y), (Z.eqb_spec y x); subst; try congruence.
  - intros; f_equal; auto.
  - rewrite !Z.leb_le. lia.
Qed.

Definition lexcol_leb (a b : nat * list Z) : bool :=
  lex_leb Z.eqb Z.leb (rev (snd a)) (rev (snd b)).

Lemma lexsort_Z_perm cols : Permutation (lexsort_Z cols) (seq 0 (length cols)).
Proof.
  unfold lexsort_Z. rewrite <- map_fst_enumerate. apply Permutation_map, isort_perm.
Qed.

(** ** searchsorted, argsort *)
Lemma searchsorted_le l v : searchsorted l v <= length l.
Proof. induction l as [|x l IH]; cbn [searchsorted length]; [lia|]. destruct (x <? v); lia. Qed.

Lemma searchsorted_lt l v i x :
  StronglySorted le l -> nth_error l i = Some x -> (i < searchsorted l v <-> x < v).
Proof.
  intros H; revert i; induction H as [|y l H IH HF]; intros [|i] E; cbn [searchsorted nth_error] in *; try discriminate.
  - inversion E; subst. destruct (x <? v) eqn:L; [apply Nat.ltb_lt in L|apply Nat.ltb_ge in L]; lia.
  - destruct (y <? v) eqn:L; [apply Nat.ltb_lt in L|apply Nat.ltb_ge in L].
    + rewrite <- (IH i) by auto. lia.
    + rewrite Forall_forall in HF. apply nth_error_In in E. apply HF in E. lia.
Qed.

Lemma incr_StronglySorted_le l : incr l -> StronglySorted le l.
Proof.
  induction 1 as [|x l H IH HF]; constructor; auto.
  eapply Forall_impl; [|exact HF]. cbn; intros; lia.
Qed.

Lemma memb_In x l : memb x l = true <-> In x l.
Proof.
  unfold memb. rewrite existsb_exists. split.
  - intros (y & Hy & E). apply Nat.eqb_eq in E. now subst.
  - intros H. exists x; split; auto. apply Nat.eqb_refl.
Qed.

Lemma pair_eqb_eq a b : pair_eqb a b = true <-> a = b.
Proof.
  destruct a as (a1,a2), b as (b1,b2). unfold pair_eqb; cbn.
  rewrite andb_true_iff, !Nat.eqb_eq. split; [intros (->&->); auto|intros E; now inversion E].
Qed.

Lemma nth_error_ext' {A} (l1 l2 : list A) :
  (forall i, nth_error l1 i = nth_error l2 i) -> l1 = l2.
Proof.
  revert l2; induction l1 as [|x l1 IH]; intros [|y l2] H; auto.
  - specialize (H 0); discriminate.
  - specialize (H 0); discriminate.
  - pose proof (H 0) as H0; cbn in H0; inversion H0; subst. f_equal.
    apply IH. intros i. apply (H (S i)).
Qed.
