(** * NodesProofs: lemmas about unit nodes and version numbers. *)
From Coq Require Import String Ascii List Arith Bool Lia Ring Permutation.
From Verif Require Import Np NpFacts Lin Ord GenModel NodesModel NodesSpec.
Import ListNotations.

Lemma compress_map {A B} (f : A -> bool) (g : A -> B) l : compress (map f l) (map g l) = map g (filter f l).
Proof. unfold compress. induction l as [|x l IH]; [reflexivity|]. cbn [map combine filter]. destruct (f x); cbn [fst filter map snd]; now rewrite IH. Qed.
Lemma count_filter {A} (f : A -> bool) l : count_occ Bool.bool_dec (map f l) true = List.length (filter f l).
Proof. induction l as [|x l IH]; [reflexivity|]. cbn [map count_occ filter]. destruct (f x); cbn [List.length]; destruct (Bool.bool_dec _ _); congruence. Qed.
Lemma filter_filter' {A} (f g : A -> bool) l : filter g (filter f l) = filter (fun x => f x && g x) l.
Proof. induction l as [|x l IH]; [reflexivity|]. cbn [filter]. destruct (f x); cbn [andb filter]; rewrite IH; reflexivity. Qed.
Lemma filter_ext_In {A} (f g : A -> bool) l : (forall x, In x l -> f x = g x) -> filter f l = filter g l.
Proof. induction l as [|x l IH]; [reflexivity|]. intros H. cbn [filter]. rewrite (H x (or_introl eq_refl)), IH; [reflexivity|]. intros y Hy. apply H. now right. Qed.
Lemma filter_map {A B} (f : B -> bool) (g : A -> B) l : filter f (map g l) = map g (filter (fun x => f (g x)) l).
Proof. induction l as [|x l IH]; [reflexivity|]. cbn [map filter]. destruct (f (g x)); cbn [map]; now rewrite IH. Qed.
Lemma filter_true {A} (f : A -> bool) l : (forall x, In x l -> f x = true) -> filter f l = l.
Proof. induction l as [|x l IH]; [reflexivity|]. intros H. cbn [filter]. rewrite (H x (or_introl eq_refl)), IH; [reflexivity|]. intros y Hy. apply H. now right. Qed.
Lemma nth_firstn' {A} (d n : nat) (l : list A) x : d < n -> nth d (firstn n l) x = nth d l x.
Proof. revert d l; induction n as [|n IH]; intros d l H; [lia|]. destruct l as [|y l]; [now destruct d|]. destruct d as [|d]; [reflexivity|]. cbn [firstn nth]. apply IH. lia. Qed.

Section Proofs.
  Variable R : ocring.
  Add Ring Rn : (rth R).
  Local Open Scope cring_scope.
  Variable tol : R.

  Lemma near_abs x : (rabs R (x - (- (1))) <? tol) = near R tol x.
  Proof.
    unfold near, rabs. replace (x - - (1)) with (x + 1) by ring. set (y := x + 1).
    destruct (0 <=? y) eqn:E.
    - destruct (y <? tol) eqn:E2; [|now rewrite andb_false_r]. rewrite andb_true_r. symmetry. rewrite olt_iff. apply not_true_is_false. intros H.
      assert (Ht : 0 <? tol = true) by (eapply ole_lt_trans; eauto). assert (Hn : - tol <? 0 = true).
      { rewrite olt_iff. apply not_true_is_false. intros H'. rewrite olt_iff in Ht. apply (ole_add R _ _ tol) in H'. replace (0 + tol) with tol in H' by ring. replace (- tol + tol) with (@r0 R) in H' by ring. congruence. }
      pose proof (olt_le_trans R _ _ _ Hn E) as H1. rewrite olt_iff in H1. congruence.
    - assert (Hy : (y <=? 0) = true) by (destruct (ole_total R 0 y); congruence).
      assert (Eq : (- y <? tol) = (- tol <? y)).
      { unfold olt. f_equal. apply eq_true_iff_eq. split; intros H.
        - apply le_diff in H. apply diff_le. now replace (- tol - y) with (- y - tol) by ring.
        - apply le_diff in H. apply diff_le. now replace (- y - tol) with (- tol - y) by ring. }
      rewrite Eq. destruct (- tol <? y) eqn:E2; [|reflexivity]. cbn [andb]. symmetry.
      assert (Hn : (0 <=? tol) = true).
      { rewrite <- Eq in E2 || idtac. assert (Hn : 0 <? tol = true); [|now apply olt_nle]. apply (ole_lt_trans R _ (- y)).
        - apply le_diff in Hy. now replace (0 - y) with (- y) in Hy by ring.
        - rewrite Eq. reflexivity || exact E2. }
      rewrite olt_iff. apply not_true_is_false. intros H. assert (H0 : (0 <=? y) = true) by (eapply ole_trans; eauto). congruence.
  Qed.

  Lemma get_row d dim (pts : list (list R)) : d < dim -> get (nd_rows (array_of R dim pts)) d = Ok (map (fun p => nth d p 0) pts).
  Proof.
    intros H. unfold get, array_of. cbn [nd_rows]. rewrite nth_error_map. replace (nth_error (seq 0 dim) d) with (Some d); [reflexivity|].
    symmetry. rewrite (nth_error_nth' _ 0%nat) by (now rewrite seq_length). now rewrite seq_nth.
  Qed.

  Lemma restrict_array d dim pts : d < dim -> restrict_axis R tol (array_of R dim pts) d = Ok (array_of R dim (filter (fun p => near R tol (nth d p 0)) pts)).
  Proof.
    intros H. unfold restrict_axis. rewrite (get_row _ _ _ H). cbn [bind]. f_equal. rewrite map_map.
    rewrite (map_ext _ (fun p => near R tol (nth d p 0))) by (intros; apply near_abs). rewrite count_filter. unfold array_of. cbn [nd_rows]. f_equal.
    rewrite map_map. apply map_ext. intros a. now rewrite compress_map.
  Qed.

  Lemma restrict_all ds dim pts : Forall (fun d => d < dim) ds ->
    foldM (restrict_axis R tol) ds (array_of R dim pts) = Ok (array_of R dim (filter (fun p => forallb (fun d => near R tol (nth d p 0)) ds) pts)).
  Proof.
    intros H. revert pts. induction H as [|d ds Hd _ IH]; intros pts; cbn [foldM forallb].
    - now rewrite filter_true.
    - rewrite (restrict_array _ _ _ Hd). cbn [bind]. rewrite IH, filter_filter'. reflexivity.
  Qed.

  Lemma tail_axes dim (p : list R) : List.length p = 3 -> dim <= 3 -> forallb (fun d => near R tol (nth d p 0)) (seq dim (3 - dim)) = forallb (near R tol) (skipn dim p).
  Proof.
    intros Hl Hd. destruct p as [|x [|y [|z [|]]]]; try discriminate.
    destruct dim as [|[|[|[|]]]]; try lia; reflexivity.
  Qed.

  Lemma array_firstn dim n (pts : list (list R)) : dim <= n -> firstn dim (nd_rows (array_of R n pts)) = nd_rows (array_of R dim (map (firstn dim) pts)).
  Proof.
    intros H. unfold array_of. cbn [nd_rows]. rewrite firstn_map. replace (firstn dim (seq 0 n)) with (seq 0 dim).
    - apply map_ext_in. intros d Hd. apply in_seq in Hd. rewrite map_map. apply map_ext. intros p. symmetry. apply nth_firstn'. lia.
    - replace n with (dim + (n - dim))%nat by lia. rewrite seq_app, firstn_app, seq_length, Nat.sub_diag, firstn_O, app_nil_r. symmetry. rewrite <- (seq_length dim 0) at 1. apply firstn_all.
  Qed.

  Lemma face_points_length dim pts : Forall (fun p => dim <= List.length p) pts -> Forall (fun p => List.length p = dim) (face_points R tol dim pts).
  Proof.
    intros H. unfold face_points. apply Forall_forall. intros p Hp. apply in_map_iff in Hp as (q & <- & Hq). apply filter_In in Hq as (Hq & _).
    rewrite firstn_length. rewrite Forall_forall in H. specialize (H q Hq). cbn beta in H. lia.
  Qed.

  Lemma face_face d e pts : d <= e -> Forall (fun p => e <= List.length p) pts ->
    face_points R tol d (face_points R tol e pts) = face_points R tol d pts.
  Proof.
    intros Hde Hl. unfold face_points. rewrite filter_map, map_map, filter_filter'.
    rewrite (map_ext _ (firstn d)) by (intros p; rewrite firstn_firstn; f_equal; lia). f_equal. apply filter_ext_In. intros p Hp.
    rewrite skipn_firstn_comm. replace (skipn e p) with (skipn (e - d) (skipn d p)).
    - rewrite andb_comm, <- forallb_app, firstn_skipn. reflexivity.
    - rewrite <- (firstn_skipn e p) at 1. rewrite Forall_forall in Hl. specialize (Hl p Hp). cbn beta in Hl. rewrite !skipn_app, firstn_length, Nat.min_l by lia.
      replace (d - e)%nat with 0%nat by lia. cbn [skipn]. rewrite skipn_length, firstn_length, Nat.min_l by lia. rewrite Nat.sub_diag. cbn [skipn].
      rewrite skipn_all2 by (rewrite skipn_length, firstn_length; lia). reflexivity.
  Qed.

  (** tuples of the points of a face *)
  Definition face_tuples (dim : nat) (ts : list (list nat)) : list (list nat) := map (firstn dim) (filter (fun t => forallb (fun i => (i =? 0)%nat) (skipn dim t)) ts).

  Lemma placed_tail dim t p : Forall2 (fun i x => near R tol x = (i =? 0)%nat) t p -> forallb (near R tol) (skipn dim p) = forallb (fun i => (i =? 0)%nat) (skipn dim t).
  Proof.
    intros H. revert dim. induction H as [|i x t p H Ht IH]; intros dim; [now rewrite !skipn_nil|]. destruct dim as [|dim]; [|cbn [skipn]; apply IH].
    specialize (IH 0%nat). cbn [skipn] in *. cbn [forallb]. now rewrite H, IH.
  Qed.
  Lemma Forall2_firstn {A B} (P : A -> B -> Prop) n a b : Forall2 P a b -> Forall2 P (firstn n a) (firstn n b).
  Proof. intros H. revert n. induction H; intros [|n]; cbn [firstn]; constructor; auto. Qed.
  Lemma placed_face dim ts pts : placed R tol ts pts -> placed R tol (face_tuples dim ts) (face_points R tol dim pts).
  Proof.
    intros H. induction H as [|t p ts pts H Hs IH]; [constructor|]. unfold face_tuples, face_points in *. cbn [filter]. rewrite (placed_tail dim _ _ H).
    destruct (forallb _ (skipn dim t)); [|exact IH]. cbn [map]. constructor; [now apply Forall2_firstn|exact IH].
  Qed.
End Proofs.

Lemma zeros_sum t : forallb (fun i => (i =? 0)) t = true -> list_sum t = 0.
Proof. induction t as [|i t IH]; [reflexivity|]. cbn [forallb]. intros H. apply andb_true_iff in H as (H1 & H2). apply Nat.eqb_eq in H1. subst. cbn. now apply IH. Qed.
Lemma zeros_repeat t : forallb (fun i => (i =? 0)) t = true -> t = repeat 0 (List.length t).
Proof. induction t as [|i t IH]; [reflexivity|]. cbn [forallb]. intros H. apply andb_true_iff in H as (H1 & H2). apply Nat.eqb_eq in H1. subst. cbn [List.length repeat]. now rewrite <- IH. Qed.
Lemma repeat_zeros n : forallb (fun i => (i =? 0)) (repeat 0 n) = true.
Proof. induction n as [|n IH]; [reflexivity|]. exact IH. Qed.

Lemma face_tuples_upto dim n k ts : dim <= n -> tuples_upto n k ts -> tuples_upto dim k (face_tuples dim ts).
Proof.
  intros Hd (Hnd & Hin). unfold face_tuples. split.
  - set (l := filter _ ts). assert (Hl : forall t, In t l -> t = firstn dim t ++ repeat 0 (n - dim)).
    { intros t Ht. apply filter_In in Ht as (Ht & Hz). apply Hin in Ht as (Ht & _). apply zeros_repeat in Hz. rewrite skipn_length, Ht in Hz. rewrite <- Hz. symmetry. apply firstn_skipn. }
    assert (Hn : NoDup l) by (apply NoDup_filter; exact Hnd). clearbody l. clear -Hl Hn. induction Hn as [|t l Ht Hn IH]; cbn [map]; constructor.
    + intros H. apply in_map_iff in H as (u & Hu & Hin). apply Ht. rewrite (Hl t (or_introl eq_refl)), <- Hu, <- (Hl u (or_intror Hin)). exact Hin.
    + apply IH. intros u Hu. apply Hl. now right.
  - intros t. rewrite in_map_iff. split.
    + intros (u & <- & Hu). apply filter_In in Hu as (Hu & Hz). apply Hin in Hu as (Hl & Hs). split; [rewrite firstn_length; lia|].
      rewrite <- (firstn_skipn dim u), list_sum_app in Hs. lia.
    + intros (Hl & Hs). exists (t ++ repeat 0 (n - dim)). split.
      * rewrite firstn_app, Hl, Nat.sub_diag, firstn_O, app_nil_r, <- Hl. apply firstn_all.
      * apply filter_In. split.
        -- apply Hin. split; [rewrite app_length, repeat_length; lia|]. rewrite list_sum_app, (zeros_sum _ (repeat_zeros _)). lia.
        -- rewrite skipn_app, Hl, Nat.sub_diag, skipn_all2 by lia. apply repeat_zeros.
Qed.

Lemma tuples_upto_count n k ts us : tuples_upto n k ts -> tuples_upto n k us -> List.length ts = List.length us.
Proof. intros (H1 & H2) (H3 & H4). apply Permutation_length, NoDup_Permutation; auto. intros t. rewrite H2, H4. reflexivity. Qed.

(** ** Version numbers *)
Lemma ascii_ind_all (P : ascii -> bool) : forallb P (map ascii_of_nat (seq 0 256)) = true -> forall c, P c = true.
Proof.
  intros H c. rewrite forallb_forall in H. apply H. apply in_map_iff. exists (nat_of_ascii c). split; [apply ascii_nat_embedding|].
  apply in_seq. pose proof (nat_ascii_bounded c). lia.
Qed.

Definition dig_ok (c : ascii) : bool := match digit c with Some n => is_digit c && (code c - 48 =? n) && negb (is_dot c) && negb (is_lower c) | None => negb (is_digit c) end.
Lemma digit_spec c : dig_ok c = true.
Proof. revert c. apply ascii_ind_all. vm_compute. reflexivity. Qed.
Lemma digit_Some c n : digit c = Some n -> is_digit c = true /\ code c - 48 = n /\ is_dot c = false.
Proof.
  intros H. pose proof (digit_spec c) as Hc. unfold dig_ok in Hc. rewrite H in Hc. rewrite !andb_true_iff, !negb_true_iff in Hc. destruct Hc as (((H1 & H2) & H3) & _).
  apply Nat.eqb_eq in H2. auto.
Qed.
Lemma digit_is c : digit c <> None <-> is_digit c = true.
Proof.
  pose proof (digit_spec c) as Hc. unfold dig_ok in Hc. destruct (digit c) eqn:E.
  - rewrite !andb_true_iff in Hc. split; [intros _; tauto|discriminate].
  - apply negb_true_iff in Hc. split; congruence.
Qed.
Lemma digit_not_dot c : digit c <> None -> is_dot c = false.
Proof. destruct (digit c) eqn:E; [|congruence]. intros _. now apply digit_Some in E. Qed.
Lemma letter_is c : letter c -> is_lower c = true /\ is_digit c = false /\ is_dot c = false.
Proof.
  intros (n & Hn & ->). unfold is_lower, is_digit, is_dot, code. rewrite nat_ascii_embedding by lia. split; [|split].
  - apply andb_true_iff. split; apply Nat.leb_le; lia.
  - apply andb_false_iff. right. apply Nat.leb_gt. lia.
  - apply Nat.eqb_neq. lia.
Qed.
Lemma is_letter c : is_lower c = true -> letter c.
Proof.
  intros H. apply andb_true_iff in H as (H1 & H2). apply Nat.leb_le in H1, H2. exists (code c - 97). split; [lia|].
  unfold code in *. replace (97 + (nat_of_ascii c - 97)) with (nat_of_ascii c) by lia. symmetry. apply ascii_nat_embedding.
Qed.

Lemma int_fold s acc : Forall (fun c => digit c <> None) s ->
  foldM (fun n c => _ <- guard (is_digit c) ValueError ;; Ok (10 * n + (code c - 48))) s acc = Ok (acc * 10 ^ List.length s + dec s).
Proof.
  intros H. revert acc. induction H as [|c s Hc _ IH]; intros acc; cbn [foldM].
  { cbn [List.length dec Nat.pow]. f_equal. lia. }
  { rewrite (proj1 (digit_is c) Hc). cbn [guard bind]. rewrite IH. f_equal. cbn [List.length dec]. destruct (digit c) as [n|] eqn:E; [|congruence].
    apply digit_Some in E as (_ & -> & _). rewrite Nat.pow_succ_r'. ring. }
Qed.
Lemma int_of_numeral s n : numeral s n -> int_of s = Ok n.
Proof.
  intros (H1 & H2 & H3). unfold int_of. destruct s as [|c s]; [congruence|]. cbn [List.length Nat.eqb negb guard bind]. rewrite (int_fold _ _ H2). f_equal. lia.
Qed.

Lemma split_plain p : Forall (fun c => digit c <> None) p -> split_dots p = [p].
Proof. induction 1 as [|c p Hc _ IH]; [reflexivity|]. cbn [split_dots]. rewrite IH, (digit_not_dot _ Hc). reflexivity. Qed.
Lemma split_cons p s : Forall (fun c => digit c <> None) p -> split_dots (p ++ "."%char :: s) = p :: split_dots s.
Proof.
  intros H. induction H as [|c p Hc _ IH]; cbn [app split_dots].
  - destruct (split_dots s) as [|q qs] eqn:E; [|reflexivity]. destruct s as [|c s]; cbn [split_dots] in E; [discriminate|]. destruct (split_dots s); [discriminate|]. destruct (is_dot c); discriminate.
  - rewrite IH, (digit_not_dot _ Hc). reflexivity.
Qed.
Lemma split_join ps : ps <> [] -> Forall (Forall (fun c => digit c <> None)) ps -> split_dots (join_dots ps) = ps.
Proof.
  intros Hne H. induction H as [|p ps Hp Hps IH]; [congruence|]. destruct ps as [|q ps].
  - cbn [join_dots]. now apply split_plain.
  - change (join_dots (p :: q :: ps)) with (p ++ "."%char :: join_dots (q :: ps)). rewrite (split_cons _ _ Hp), IH; [reflexivity|discriminate].
Qed.

Lemma run_all f s t : forallb f s = true -> run_of f (s ++ t) = List.length s + run_of f t.
Proof. induction s as [|c s IH]; [reflexivity|]. cbn [forallb app run_of List.length]. intros H. apply andb_true_iff in H as (-> & H). rewrite (IH H). reflexivity. Qed.
Lemma run_le f s : run_of f s <= List.length s.
Proof. induction s as [|c s IH]; cbn [run_of List.length]; [lia|]. destruct (f c); lia. Qed.

Lemma join_chars ps : Forall (Forall (fun c => digit c <> None)) ps -> forallb (fun c => is_digit c || is_dot c) (join_dots ps) = true.
Proof.
  assert (A : forall p, Forall (fun c => digit c <> None) p -> forallb (fun c => is_digit c || is_dot c) p = true).
  { intros p Hp. apply forallb_forall. intros c Hc. rewrite Forall_forall in Hp. rewrite (proj1 (digit_is c) (Hp c Hc)). reflexivity. }
  intros H. induction H as [|p ps Hp Hps IH]; [reflexivity|]. destruct ps as [|q ps]; [now apply A|].
  change (join_dots (p :: q :: ps)) with (p ++ "."%char :: join_dots (q :: ps)). rewrite forallb_app, (A _ Hp). cbn [forallb andb]. rewrite IH. reflexivity.
Qed.

(** the first group is all digits and dots at the start if the rest are letters and digits *)
Lemma match_at g s k : k = List.length g -> g <> [] -> forallb (fun c => is_lower c || is_digit c) s = true -> match_groups (g ++ s) k = Some (g, s).
Proof.
  intros -> Hg Hs. destruct g as [|c g]; [congruence|]. cbn [List.length]. unfold match_groups; fold match_groups.
  change (S (List.length g)) with (List.length (c :: g)). rewrite skipn_app, skipn_all, Nat.sub_diag. cbn [skipn app]. rewrite Hs.
  f_equal. f_equal. change (c :: g ++ s) with ((c :: g) ++ s). rewrite firstn_app, firstn_all, Nat.sub_diag, firstn_O. apply app_nil_r.
Qed.

Lemma run_stop s : (s = [] \/ exists c r, s = c :: r /\ letter c) -> run_of (fun c => is_digit c || is_dot c) s = 0.
Proof. intros [->|(c & r & -> & Hc)]; [reflexivity|]. cbn [run_of]. destruct (letter_is _ Hc) as (_ & -> & ->). reflexivity. Qed.
Lemma status_chars s : Forall letter_or_digit s -> forallb (fun c => is_lower c || is_digit c) s = true.
Proof.
  intros H. apply forallb_forall. intros c Hc. rewrite Forall_forall in H. destruct (H c Hc) as [Hl|Hd].
  - now rewrite (proj1 (letter_is _ Hl)).
  - rewrite (proj1 (digit_is c) Hd). apply orb_true_r.
Qed.

Lemma version_match_of g s : g <> [] -> forallb (fun c => is_digit c || is_dot c) g = true -> Forall letter_or_digit s -> (s = [] \/ exists c r, s = c :: r /\ letter c) ->
  version_match (g ++ s) = Some (g, s).
Proof.
  intros Hg Hc Hs Hst. unfold version_match. rewrite (run_all _ _ _ Hc), (run_stop _ Hst), Nat.add_0_r. apply match_at; auto. now apply status_chars.
Qed.

Lemma match_groups_In s k g r : match_groups s k = Some (g, r) -> s = g ++ r /\ forallb (fun c => is_lower c || is_digit c) r = true /\ List.length g <= k.
Proof.
  induction k as [|k IH]; [discriminate|].
  change (match_groups s (S k)) with (if forallb (fun c => is_lower c || is_digit c) (skipn (S k) s) then Some (firstn (S k) s, skipn (S k) s) else match_groups s k).
  destruct (forallb _ (skipn (S k) s)) eqn:E.
  - intros H. assert (H1 : firstn (S k) s = g) by congruence. assert (H2 : skipn (S k) s = r) by congruence. rewrite <- H1, <- H2. split; [symmetry; apply firstn_skipn|]. split; [exact E|]. rewrite firstn_length. lia.
  - intros H. apply IH in H as (H1 & H2 & H3). split; [exact H1|]. split; [exact H2|]. lia.
Qed.
Lemma run_prefix f s n : n <= run_of f s -> forallb f (firstn n s) = true.
Proof.
  revert n. induction s as [|c s IH]; intros n H; [now rewrite firstn_nil|]. cbn [run_of] in H. destruct n as [|n]; [reflexivity|]. destruct (f c) eqn:E; [|lia].
  cbn [firstn forallb]. rewrite E. cbn [andb]. apply IH. lia.
Qed.
