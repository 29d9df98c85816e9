(** * BoxIndexProofs: numbering of grid points and cells *)
From Coq Require Import List Arith Bool ZArith Lia Permutation.
From Verif Require Import Np NpFacts MeshModel Lin RestrProofs BoxModel.
Import ListNotations.

Lemma nth_flat_blocks {A B} (f : A -> list B) (l : list A) m a b x : (forall y, In y l -> length (f y) = m) -> nth_error l a = Some x -> b < m ->
  nth_error (flat_map f l) (a * m + b) = nth_error (f x) b.
Proof.
  revert a. induction l as [|y l IH]; intros [|a] Hm Ha Hb; cbn [nth_error] in Ha; try discriminate.
  - injection Ha as ->. cbn [flat_map]. rewrite nth_error_app1; [reflexivity|]. rewrite (Hm x (or_introl eq_refl)). lia.
  - cbn [flat_map]. rewrite nth_error_app2; rewrite (Hm y (or_introl eq_refl)); [|cbn; lia]. replace (S a * m + b - m) with (a * m + b) by (cbn; lia).
    apply IH; auto. intros z Hz. apply Hm. now right.
Qed.
Lemma length_flat_blocks {A B} (f : A -> list B) (l : list A) m : (forall y, In y l -> length (f y) = m) -> length (flat_map f l) = length l * m.
Proof. induction l as [|y l IH]; intros H; [reflexivity|]. cbn [flat_map length]. rewrite app_length, IH, (H y (or_introl eq_refl)); [lia|]. intros; apply H; now right. Qed.
(** every position of such a list is in a block *)
Lemma nth_flat_blocks_inv {A B} (f : A -> list B) (l : list A) m k y : (forall y, In y l -> length (f y) = m) -> nth_error (flat_map f l) k = Some y ->
  exists a b x, k = a * m + b /\ b < m /\ nth_error l a = Some x /\ nth_error (f x) b = Some y.
Proof.
  intros Hm Hk. assert (Hlt : k < length l * m) by (rewrite <- (length_flat_blocks f l m Hm); apply nth_error_Some; congruence).
  assert (Hm0 : m <> 0) by (intros ->; lia). assert (Ha : k / m < length l) by (apply Nat.div_lt_upper_bound; lia).
  destruct (nth_error l (k / m)) as [x|] eqn:Hx; [|apply nth_error_None in Hx; lia]. exists (k / m), (k mod m), x.
  assert (E : k = k / m * m + k mod m) by (rewrite (Nat.div_mod k m Hm0) at 1; lia). pose proof (Nat.mod_upper_bound k m Hm0) as Hb.
  split; [exact E|]. split; [exact Hb|]. split; [exact Hx|]. rewrite <- (nth_flat_blocks f l m (k / m) (k mod m) x Hm Hx Hb). now rewrite <- E.
Qed.

Lemma length_ndindex shape : length (ndindex shape) = size shape.
Proof. induction shape as [|n s IH]; [reflexivity|]. cbn [ndindex]. rewrite (length_flat_blocks _ _ (size s)); [|intros; now rewrite map_length]. rewrite seq_length. reflexivity. Qed.
Lemma length_ndindexF shape : length (ndindexF shape) = size shape.
Proof. induction shape as [|n s IH]; [reflexivity|]. cbn [ndindexF]. rewrite (length_flat_blocks _ _ n); [|intros; now rewrite map_length, seq_length]. rewrite IH. cbn [size fold_right]. fold (size s). lia. Qed.

Lemma In_ndindex shape t : In t (ndindex shape) <-> Forall2 lt t shape.
Proof.
  revert t. induction shape as [|n s IH]; intros t; cbn [ndindex].
  - split; [intros [<-|[]]; constructor|]. inversion 1. now left.
  - rewrite in_flat_map. split.
    + intros (i & Hi & Ht). apply in_seq in Hi. apply in_map_iff in Ht as (t' & <- & Ht'). constructor; [lia|now apply IH].
    + inversion 1 as [|i n' t' s' Hi Ht' ]; subst. exists i. split; [apply in_seq; lia|]. apply in_map, IH, Ht'.
Qed.
Lemma In_ndindexF shape t : In t (ndindexF shape) <-> Forall2 lt t shape.
Proof.
  revert t. induction shape as [|n s IH]; intros t; cbn [ndindexF].
  - split; [intros [<-|[]]; constructor|]. inversion 1. now left.
  - rewrite in_flat_map. split.
    + intros (t' & Ht' & Ht). apply in_map_iff in Ht as (i & <- & Hi). apply in_seq in Hi. constructor; [lia|now apply IH].
    + inversion 1 as [|i n' t' s' Hi Ht' ]; subst. exists t'. split; [apply IH, Ht'|]. apply in_map_iff. exists i. split; [reflexivity|]. apply in_seq; lia.
Qed.

Lemma ravel_nth_fwd shape t i : ravel shape t = Ok i -> nth_error (ndindex shape) i = Some t.
Proof.
  revert t i. induction shape as [|n s IH]; intros [|a t] i H; cbn [ravel] in H; try discriminate; [injection H as <-; reflexivity|].
  apply bind_ok in H as ([] & Hg & H). apply bind_ok in H as (r & Hr & H). injection H as <-.
  assert (Ha : a < n). { unfold guard in Hg. destruct (Nat.ltb_spec a n); [assumption|discriminate]. }
  specialize (IH _ _ Hr). assert (Hrl : r < size s) by (rewrite <- length_ndindex; apply nth_error_Some; congruence).
  cbn [ndindex]. rewrite (nth_flat_blocks _ _ (size s) a r a); [now rewrite nth_error_map, IH| |rewrite nth_error_seq; destruct (Nat.ltb_spec a n); [reflexivity|lia]|assumption].
  intros y _. rewrite map_length. apply length_ndindex.
Qed.
Lemma ravelF_nth_fwd shape t i : ravelF shape t = Ok i -> nth_error (ndindexF shape) i = Some t.
Proof.
  revert t i. induction shape as [|n s IH]; intros [|a t] i H; cbn [ravelF] in H; try discriminate; [injection H as <-; reflexivity|].
  apply bind_ok in H as ([] & Hg & H). apply bind_ok in H as (r & Hr & H). injection H as <-.
  assert (Ha : a < n). { unfold guard in Hg. destruct (Nat.ltb_spec a n); [assumption|discriminate]. }
  specialize (IH _ _ Hr). cbn [ndindexF]. replace (a + n * r) with (r * n + a) by lia.
  rewrite (nth_flat_blocks _ _ n r a t); [|intros; now rewrite map_length, seq_length|assumption|assumption]. rewrite nth_error_map, nth_error_seq.
  destruct (Nat.ltb_spec a n); [reflexivity|lia].
Qed.
Lemma ravel_total shape t : Forall2 lt t shape -> exists i, ravel shape t = Ok i.
Proof. induction 1 as [|a n t s Ha H (i & IH)]; cbn [ravel]; [eauto|]. unfold guard. destruct (Nat.ltb_spec a n); [|lia]. cbn [bind]. rewrite IH. cbn [bind]. eauto. Qed.
Lemma ravelF_total shape t : Forall2 lt t shape -> exists i, ravelF shape t = Ok i.
Proof. induction 1 as [|a n t s Ha H (i & IH)]; cbn [ravelF]; [eauto|]. unfold guard. destruct (Nat.ltb_spec a n); [|lia]. cbn [bind]. rewrite IH. cbn [bind]. eauto. Qed.

Lemma NoDup_ndindex shape : NoDup (ndindex shape).
Proof.
  induction shape as [|n s IH]; cbn [ndindex]; [repeat constructor; auto|]. apply NoDup_flat_map.
  - apply seq_NoDup.
  - intros i _. apply NoDup_map_inj; [intros a b _ _ H; congruence|exact IH].
  - intros a b x _ _ Ha Hb. apply in_map_iff in Ha as (y & Hy & _). apply in_map_iff in Hb as (z & Hz & _). congruence.
Qed.
Lemma NoDup_ndindexF shape : NoDup (ndindexF shape).
Proof.
  induction shape as [|n s IH]; cbn [ndindexF]; [repeat constructor; auto|]. apply NoDup_flat_map.
  - exact IH.
  - intros i _. apply NoDup_map_inj; [intros a b _ _ H; congruence|apply seq_NoDup].
  - intros a b x _ _ Ha Hb. apply in_map_iff in Ha as (y & Hy & _). apply in_map_iff in Hb as (z & Hz & _). congruence.
Qed.
Lemma ravel_nth shape t i : ravel shape t = Ok i <-> nth_error (ndindex shape) i = Some t.
Proof.
  split; [apply ravel_nth_fwd|]. intros H. destruct (ravel_total shape t) as (j & Hj); [apply In_ndindex; eapply nth_error_In; eauto|].
  rewrite Hj. f_equal. pose proof (ravel_nth_fwd _ _ _ Hj) as Hn. refine (proj1 (NoDup_nth_error (ndindex shape)) (NoDup_ndindex shape) j i _ _); [|congruence].
  apply nth_error_Some. congruence.
Qed.

(** ** doubled coordinates of vertices: 2i for grid points, 2i+1 for midpoints *)
Definition dbl (t : list nat) : list nat := map (fun i => 2 * i) t.
Definition dbl1 (t : list nat) : list nat := map (fun i => S (2 * i)) t.
Definition vkeys (mid : bool) (shape shape_m1 : list nat) : list (list nat) :=
  map dbl (ndindex shape) ++ (if mid then map dbl1 (ndindexF shape_m1) else []).
(** local position of a corner in its cell, doubled *)
Definition coff (d : nat) (c : corner) : list nat := match c with Cn off => dbl off | Mid => repeat 1 d end.
Definition place (t off : list nat) : list nat := map2 (fun i o => 2 * i + o) t off.

Lemma dbl_inj a b : dbl a = dbl b -> a = b.
Proof. revert b. induction a as [|x a IH]; intros [|y b] H; cbn in H; try discriminate; [reflexivity|]. injection H as H1 H2. f_equal; [lia|apply IH; exact H2]. Qed.
Lemma dbl1_inj a b : dbl1 a = dbl1 b -> a = b.
Proof. revert b. induction a as [|x a IH]; intros [|y b] H; cbn in H; try discriminate; [reflexivity|]. injection H as H1 H2. f_equal; [lia|apply IH; exact H2]. Qed.

Lemma NoDup_vkeys mid shape shape_m1 : shape <> [] -> NoDup (vkeys mid shape shape_m1).
Proof.
  intros Hs. apply NoDup_app.
  - apply NoDup_map_inj; [intros; now apply dbl_inj|apply NoDup_ndindex].
  - destruct mid; [|constructor]. apply NoDup_map_inj; [intros; now apply dbl1_inj|apply NoDup_ndindexF].
  - intros x Ha Hb. destruct mid; [|destruct Hb]. apply in_map_iff in Ha as (a & <- & Ha). apply in_map_iff in Hb as (b & Hb & _).
    apply In_ndindex in Ha. destruct Ha as [|x n a s Hx Ha]; [congruence|]. destruct b as [|y b]; cbn in Hb; [discriminate|]. injection Hb as Hb _. lia.
Qed.

Definition corner_ok (d : nat) (mid : bool) (c : corner) : bool :=
  match c with Cn off => (length off =? d) && forallb (fun o => o <=? 1) off | Mid => mid end.

Lemma tup_add_lt t off shape : Forall2 lt t (map (fun s => s - 1) shape) -> length off = length shape -> Forall (fun o => o <= 1) off -> Forall2 lt (tup_add t off) shape.
Proof.
  unfold tup_add. revert t off. induction shape as [|n s IH]; intros t off H Hl Ho; cbn [map] in H; inversion H as [|a n' t' s' Ha Ht]; subst; destruct off as [|o off]; cbn in Hl; try lia; cbn [map2]; [constructor|].
  apply Forall_cons_iff in Ho as (Ho & Hos). constructor; [lia|]. apply IH; auto.
Qed.
Lemma dbl_place t off : length t = length off -> dbl (tup_add t off) = place t (dbl off).
Proof. unfold tup_add, place. revert off. induction t as [|a t IH]; intros [|o off] H; cbn in H; try lia; [reflexivity|]. cbn [map2 dbl map]. fold (dbl off) (dbl (map2 Nat.add t off)). f_equal; [lia|]. apply IH. lia. Qed.
Lemma dbl1_place t : dbl1 t = place t (repeat 1 (length t)).
Proof. unfold place. induction t as [|a t IH]; [reflexivity|]. cbn [length repeat map2 dbl1 map]. fold (dbl1 t). f_equal; [lia|exact IH]. Qed.

Lemma corner_index_key mid shape t c : shape <> [] -> In t (ndindex (map (fun s => s - 1) shape)) -> corner_ok (length shape) mid c = true ->
  exists v, corner_index shape (map (fun s => s - 1) shape) t c = Ok v /\ nth_error (vkeys mid shape (map (fun s => s - 1) shape)) v = Some (place t (coff (length shape) c)).
Proof.
  intros Hs Ht Hc. pose proof (proj1 (In_ndindex _ _) Ht) as HF. pose proof (Forall2_length' _ _ _ HF) as Hl. rewrite map_length in Hl. destruct c as [off|]; cbn [corner_ok corner_index coff] in *.
  - apply andb_true_iff in Hc as (Hlo & Hf). apply Nat.eqb_eq in Hlo. destruct (ravel_total shape (tup_add t off)) as (v & Hv).
    + apply tup_add_lt; auto. apply Forall_forall. intros o Ho. apply Nat.leb_le. rewrite forallb_forall in Hf. auto.
    + exists v. split; [exact Hv|]. apply ravel_nth_fwd in Hv. unfold vkeys. rewrite nth_error_app1; [|rewrite map_length; apply nth_error_Some; congruence].
      rewrite nth_error_map, Hv. cbn [option_map]. rewrite dbl_place; [reflexivity|lia].
  - destruct mid; [|discriminate]. destruct (ravelF_total _ _ HF) as (r & Hr). rewrite Hr. cbn [bind]. exists (size shape + r). split; [reflexivity|].
    apply ravelF_nth_fwd in Hr. unfold vkeys. rewrite nth_error_app2; rewrite map_length, length_ndindex; [|lia]. replace (size shape + r - size shape) with r by lia.
    rewrite nth_error_map, Hr. cbn [option_map]. rewrite dbl1_place. now rewrite Hl.
Qed.

(** ** rows of vertex numbers *)
Definition table_ok (d : nat) (mid : bool) (nv : nat) (table : list (list corner)) : bool :=
  forallb (fun cs => (length cs =? nv) && forallb (corner_ok d mid) cs) table.
Notation pred_shape := (map (fun s => s - 1)).

(** [rows] numbers the vertices of the subelements of all cells *)
Record rows_spec (mid : bool) (shape : list nat) (table : list (list corner)) (rows : list (list nat)) : Prop := mk_rows {
  rs_length : length rows = length table * size (pred_shape shape);
  rs_row : forall c t s cs, nth_error (ndindex (pred_shape shape)) c = Some t -> nth_error table s = Some cs ->
    exists row, nth_error rows (length table * c + s) = Some row /\
      Forall2 (fun cn v => nth_error (vkeys mid shape (pred_shape shape)) v = Some (place t (coff (length shape) cn))) cs row }.

Lemma rs_inv mid shape table rows e row : rows_spec mid shape table rows -> nth_error rows e = Some row ->
  exists c t s cs, e = length table * c + s /\ nth_error (ndindex (pred_shape shape)) c = Some t /\ nth_error table s = Some cs /\
    Forall2 (fun cn v => nth_error (vkeys mid shape (pred_shape shape)) v = Some (place t (coff (length shape) cn))) cs row.
Proof.
  intros Hr He. assert (Hlt : e < length table * size (pred_shape shape)) by (rewrite <- (rs_length _ _ _ _ Hr); apply nth_error_Some; congruence).
  assert (Hm0 : length table <> 0) by (intros E; rewrite E in Hlt; lia). assert (Hc : e / length table < size (pred_shape shape)) by (apply Nat.div_lt_upper_bound; lia).
  pose proof (Nat.mod_upper_bound e (length table) Hm0) as Hs. pose proof (Nat.div_mod e (length table) Hm0) as E.
  destruct (nth_exists (ndindex (pred_shape shape)) (e / length table)) as (t & Ht); [now rewrite length_ndindex|].
  destruct (nth_exists table (e mod length table)) as (cs & Hcs); [exact Hs|].
  destruct (rs_row _ _ _ _ Hr _ _ _ _ Ht Hcs) as (row' & Hrow & HF). rewrite <- E in Hrow. assert (row' = row) by congruence. subst row'.
  exists (e / length table), t, (e mod length table), cs. auto.
Qed.

Lemma cell_rows_spec mid nv shape table : shape <> [] -> table_ok (length shape) mid nv table = true ->
  exists rows, cell_rows shape (pred_shape shape) table = Ok rows /\ rows_spec mid shape table rows.
Proof.
  intros Hs Hok. assert (Hcn : forall cs c, In cs table -> In c cs -> corner_ok (length shape) mid c = true).
  { intros cs c Hcs Hc. unfold table_ok in Hok. rewrite forallb_forall in Hok. apply Hok, andb_true_iff in Hcs as (_ & H). rewrite forallb_forall in H. auto. }
  unfold cell_rows. destruct (mapM_total (fun t => mapM (mapM (corner_index shape (pred_shape shape) t)) table) (ndindex (pred_shape shape))) as (R & HR).
  { intros t Ht. apply mapM_total. intros cs Hcs. apply mapM_total. intros c Hc. destruct (corner_index_key mid shape t c Hs Ht (Hcn _ _ Hcs Hc)) as (v & Hv & _). eauto. }
  rewrite HR. cbn [bind]. apply mapM_ok in HR. exists (concat R). split; [reflexivity|].
  assert (Hblk : forall blk, In blk R -> length blk = length table).
  { intros blk Hb. destruct (Forall2_In_r _ _ _ _ HR Hb) as (t & _ & Ht). apply mapM_ok, Forall2_length' in Ht. lia. }
  assert (Hcat : concat R = flat_map (fun x => x) R) by (now rewrite flat_map_concat_map, map_id).
  constructor.
  - rewrite Hcat, (length_flat_blocks _ _ (length table)); [|exact Hblk]. rewrite <- (Forall2_length' _ _ _ HR), length_ndindex. lia.
  - intros c t s cs Ht Hcs. destruct (Forall2_nth_error _ _ _ _ _ HR Ht) as (blk & Hb & Hblkeq). apply mapM_ok in Hblkeq.
    destruct (Forall2_nth_error _ _ _ _ _ Hblkeq Hcs) as (row & Hrow & Hm). apply mapM_ok in Hm. exists row. split.
    + rewrite Hcat. replace (length table * c + s) with (c * length table + s) by lia. rewrite (nth_flat_blocks (fun x => x) R (length table) c s blk Hblk Hb); [exact Hrow|].
      apply nth_error_Some. congruence.
    + assert (Hin : forall cn, In cn cs -> corner_ok (length shape) mid cn = true) by (intros; eapply Hcn; eauto using nth_error_In).
      clear -Hm Hin Hs Ht. induction Hm as [|cn v cs row Hv Hm IH]; constructor.
      * destruct (corner_index_key mid shape t cn Hs (nth_error_In _ _ Ht) (Hin _ (or_introl eq_refl))) as (v' & Hv' & Hk). congruence.
      * apply IH. intros; apply Hin; now right.
Qed.

(** ** one dimension *)
Definition seg_table : list (list corner) := [[Cn [0]; Cn [1]]].
Lemma nth_map2 {A B C} (f : A -> B -> C) l l' i a b : nth_error l i = Some a -> nth_error l' i = Some b -> nth_error (map2 f l l') i = Some (f a b).
Proof. revert l' i. induction l as [|x l IH]; intros [|y l'] [|i] Ha Hb; cbn in *; try discriminate; [congruence|now apply IH]. Qed.
Lemma ndindex1 n : ndindex [n] = map (fun i => [i]) (seq 0 n).
Proof. cbn [ndindex]. induction (seq 0 n); [reflexivity|]. cbn. now f_equal. Qed.

Lemma seg_rows_spec n : rows_spec false [n] seg_table (map2 (fun a b => [a; b]) (slice (seq 0 n) 0 (n - 1)) (slice (seq 0 n) 1 n)).
Proof.
  set (rows := map2 _ _ _). assert (Hnth : forall c, c < n - 1 -> nth_error rows c = Some [c; S c]).
  { intros c Hc. apply (nth_map2 (fun a b => [a; b])).
    - rewrite nth_error_slice. cbn [Nat.add]. repeat (rewrite ?nth_error_seq; match goal with |- context [?a <? ?b] => destruct (Nat.ltb_spec a b); [|lia] end). reflexivity.
    - rewrite nth_error_slice. repeat (rewrite ?nth_error_seq; match goal with |- context [?a <? ?b] => destruct (Nat.ltb_spec a b); [|lia] end). reflexivity. }
  assert (Hlen : length rows = n - 1).
  { unfold rows. rewrite map2_length; unfold slice; rewrite !firstn_length, !skipn_length, !seq_length; lia. }
  constructor.
  - cbn [length seg_table]. rewrite Hlen. cbn [map size fold_right]. lia.
  - intros c t s cs Ht Hcs. cbn [map] in Ht. rewrite ndindex1, nth_error_map, nth_error_seq in Ht. destruct (Nat.ltb_spec c (n - 1)) as [Hc|]; [|discriminate]. cbn in Ht. injection Ht as <-.
    destruct s as [|[|s]]; cbn in Hcs; try discriminate. injection Hcs as <-. exists [c; S c]. split; [cbn [length seg_table]; replace (1 * c + 0) with c by lia; now apply Hnth|].
    assert (Hk : forall v, v < n -> nth_error (vkeys false [n] (pred_shape [n])) v = Some [2 * v]).
    { intros v Hv. unfold vkeys. rewrite app_nil_r, nth_error_map, ndindex1, nth_error_map, nth_error_seq. destruct (Nat.ltb_spec v n); [reflexivity|lia]. }
    repeat constructor; rewrite Hk by lia; cbn; do 2 f_equal; lia.
Qed.
