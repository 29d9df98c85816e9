(** * Faces of simplices, nodal adjacency: lemmas about FdModel *)
From Coq Require Import List Arith Bool Lia Permutation Sorted.
From Verif Require Import Np NpFacts MeshModel MeshSpec MeshProofs MeshStateModel Lin ProcModel ProcSpec MergeProofs SplitProofs FlipProofs FdModel FdSpec.
Import ListNotations.

(** ** Faces *)
Lemma singleton_list {X} (l : list X) v : NoDup l -> (forall x, In x l <-> x = v) -> l = [v].
Proof.
  intros Hn H. destruct l as [|a l]; [exfalso; apply (proj2 (H v) eq_refl)|].
  assert (a = v) by (apply H; now left). subst a. f_equal. destruct l as [|b l]; [reflexivity|].
  assert (b = v) by (apply H; right; now left). subst b. inversion Hn as [|? ? Hni]; subst. exfalso. apply Hni. now left.
Qed.

Lemma missing_vertex d face v : misses d face v -> filter (fun w => negb (memb w face)) (seq 0 (d + 1)) = [v].
Proof.
  intros (Hv & Hn & H). apply singleton_list; [apply NoDup_filter, seq_NoDup|].
  intros x. rewrite filter_In, in_seq, negb_true_iff. split.
  - intros (Hx & Hm). destruct (Nat.eq_dec x v) as [|Hne]; [auto|]. exfalso.
    assert (In x face) by (apply H; lia). apply memb_In in H0. congruence.
  - intros ->. split; [lia|]. apply not_true_iff_false. rewrite memb_In, H. tauto.
Qed.

Lemma misses_fun d face v v' : misses d face v -> misses d face v' -> v = v'.
Proof.
  intros (H1 & _ & H) (H1' & _ & H'). destruct (Nat.eq_dec v v'); [auto|]. exfalso.
  assert (In v face) by (apply H'; auto). apply H in H0. tauto.
Qed.

Lemma missing_list d fvi : (forall face, In face fvi -> exists v, misses d face v) -> exists ms, Forall2 (misses d) fvi ms.
Proof.
  induction fvi as [|f fvi IH]; intros H; [exists []; constructor|].
  destruct (H f (or_introl eq_refl)) as (v & Hv). destruct IH as (ms & Hms); [intros; apply H; now right|].
  exists (v :: ms). now constructor.
Qed.

Definition fac_step (nv : nat) (d : list (nat * nat)) (kf : nat * list nat) : res (list (nat * nat)) :=
  match filter (fun v => negb (memb v (snd kf))) (seq 0 nv) with
  | [v] => Ok ((v, fst kf) :: d)
  | _ => Err AssertionError
  end.

Lemma face_numbers_eq d fvi ms : Forall2 (misses d) fvi ms -> forall n acc,
  foldM (fac_step (d + 1)) (enumerate_from n fvi) acc = Ok (rev (combine ms (seq n (length fvi))) ++ acc).
Proof.
  induction 1 as [|face v fvi ms Hf HF IH]; intros n acc; [reflexivity|].
  unfold enumerate_from. cbn [length seq combine foldM]. unfold fac_step at 1. cbn [fst snd]. rewrite (missing_vertex d face v Hf).
  cbn [bind]. change (combine (seq (S n) (length fvi)) fvi) with (enumerate_from (S n) fvi). rewrite IH.
  cbn [rev]. now rewrite <- app_assoc.
Qed.

Lemma missing_all d fvi ms : simplex_faces d fvi -> Forall2 (misses d) fvi ms -> NoDup ms /\ forall v, In v ms <-> v <= d.
Proof.
  intros (Hl & _ & Hu) HF.
  assert (Hnd : NoDup ms).
  { apply NoDup_nth_error. intros i j Hi Hij. destruct (nth_error ms i) as [v|] eqn:Ev; [|apply nth_error_None in Ev; lia].
    symmetry in Hij. destruct (Forall2_nth_error_r _ _ _ _ _ HF Ev) as (f & Hf & Hm). destruct (Forall2_nth_error_r _ _ _ _ _ HF Hij) as (f' & Hf' & Hm').
    eapply Hu; eauto. }
  assert (Hin : forall v, In v ms -> v <= d).
  { intros v Hv. destruct (Forall2_In_r _ _ _ _ HF Hv) as (f & _ & (Hle & _)). exact Hle. }
  split; [exact Hnd|]. intros v. split; [apply Hin|]. intros Hv.
  assert (Hincl : incl (seq 0 (d + 1)) ms).
  { apply NoDup_length_incl; [exact Hnd|rewrite seq_length, <- Hl, (Forall2_length' _ _ _ HF); lia|].
    intros x Hx. apply in_seq. specialize (Hin x Hx). lia. }
  apply Hincl. apply in_seq. lia.
Qed.

Lemma find_In {X} (p : X -> bool) (l : list X) x : In x l -> p x = true -> exists y, find p l = Some y.
Proof. intros Hin Hp. destruct (find p l) eqn:E; [eauto|]. pose proof (find_none _ _ E _ Hin). congruence. Qed.

(** face_numbers maps the vertex of each facet to the face that misses it *)
Lemma face_numbers_ok d fvi : simplex_faces d fvi -> exists dct, face_numbers (d + 1) fvi = Ok dct /\
  (forall v, v <= d -> exists f face, dict_get dct v = Ok f /\ nth_error fvi f = Some face /\ misses d face v) /\
  (forall v f, dict_get dct v = Ok f -> v <= d).
Proof.
  intros Hs. destruct (missing_list d fvi) as (ms & HF); [apply Hs|].
  destruct (missing_all d fvi ms Hs HF) as (Hnd & Hall).
  exists (rev (combine ms (seq 0 (length fvi))) ++ []). split; [exact (face_numbers_eq d fvi ms HF 0 [])|].
  rewrite app_nil_r. pose proof (Forall2_length' _ _ _ HF) as Hlen. split.
  - intros v Hv. apply Hall in Hv. apply In_nth_error in Hv as (f & Hf).
    assert (Hfl : f < length fvi) by (rewrite Hlen; apply nth_error_Some; congruence).
    assert (Hin : In (v, f) (rev (combine ms (seq 0 (length fvi))))).
    { apply in_rev. rewrite rev_involutive. apply nth_error_In with f. apply nth_error_combine_Some. split; [exact Hf|].
      now rewrite nth_error_nth' with (d := 0), seq_nth by (try rewrite seq_length; lia). }
    unfold dict_get. destruct (find_In (fun kx : nat * nat => fst kx =? v) _ (v, f) Hin (Nat.eqb_refl v)) as ((v', f') & Hy). rewrite Hy. cbn [snd].
    apply find_some in Hy as (Hy & Hk). cbn [fst] in Hk. apply Nat.eqb_eq in Hk. subst v'.
    apply in_rev in Hy. apply In_nth_error in Hy as (i & Hi). apply nth_error_combine_Some in Hi as (Hi1 & Hi2).
    assert (i < length fvi) by (rewrite Hlen; apply nth_error_Some; congruence).
    rewrite nth_error_nth' with (d := 0), seq_nth in Hi2 by (try rewrite seq_length; lia). injection Hi2 as <-.
    destruct (Forall2_nth_error_r _ _ _ _ _ HF Hi1) as (face & Hface & Hm). exists i, face. auto.
  - intros v f Hg. unfold dict_get in Hg. destruct (find _ _) as [(v', f')|] eqn:E; [|discriminate]. apply find_some in E as (E & Hk). cbn [fst] in Hk.
    apply Nat.eqb_eq in Hk. subst v'. apply in_rev in E. apply in_combine_l in E. now apply Hall.
Qed.

(** the faces that miss vertex 0 and vertex 1 *)
Lemma zero_one_faces_ok d fvi : 1 <= d -> simplex_faces d fvi -> exists z o fz fo,
  zero_one_faces fvi = (Some z, Some o) /\ nth_error fvi z = Some fz /\ misses d fz 0 /\ nth_error fvi o = Some fo /\ misses d fo 1.
Proof.
  intros Hd Hs.
  set (step := fun (zo : option nat * option nat) (kf : nat * list nat) =>
    if negb (memb 0 (snd kf)) then (Some (fst kf), snd zo) else if negb (memb 1 (snd kf)) then (fst zo, Some (fst kf)) else zo).
  assert (Hinv : forall l2 l1 zo, fvi = l1 ++ l2 ->
     ((forall f, fst zo = Some f -> exists face, nth_error fvi f = Some face /\ misses d face 0) /\ (fst zo = None -> forall face, In face l1 -> ~ misses d face 0) /\
      (forall f, snd zo = Some f -> exists face, nth_error fvi f = Some face /\ misses d face 1) /\ (snd zo = None -> forall face, In face l1 -> ~ misses d face 1)) ->
     let zo' := fold_left step (enumerate_from (length l1) l2) zo in
     ((forall f, fst zo' = Some f -> exists face, nth_error fvi f = Some face /\ misses d face 0) /\ (fst zo' = None -> forall face, In face fvi -> ~ misses d face 0) /\
      (forall f, snd zo' = Some f -> exists face, nth_error fvi f = Some face /\ misses d face 1) /\ (snd zo' = None -> forall face, In face fvi -> ~ misses d face 1))).
  { induction l2 as [|face l2 IH]; intros l1 zo E HI.
    - cbn. rewrite app_nil_r in E. subst l1. exact HI.
    - unfold enumerate_from. cbn [length seq combine fold_left]. change (combine (seq (S (length l1)) (length l2)) l2) with (enumerate_from (S (length l1)) l2).
      replace (S (length l1)) with (length (l1 ++ [face])) by (rewrite app_length; cbn; lia).
      apply IH; [now rewrite <- app_assoc|]. destruct HI as (I1 & I2 & I3 & I4).
      assert (Hnth : nth_error fvi (length l1) = Some face) by (rewrite E, nth_error_app2, Nat.sub_diag by lia; reflexivity).
      assert (Hm : exists v, misses d face v) by (apply (proj1 (proj2 Hs)); rewrite E; apply in_or_app; right; now left).
      destruct Hm as (v & Hm).
      unfold step. cbn [fst snd]. destruct (memb 0 face) eqn:M0; cbn [negb].
      + assert (Hv0 : v <> 0) by (intros ->; apply memb_In in M0; apply (proj2 (proj2 Hm)) in M0; tauto).
        destruct (memb 1 face) eqn:M1; cbn [negb fst snd].
        * assert (Hv1 : v <> 1) by (intros ->; apply memb_In in M1; apply (proj2 (proj2 Hm)) in M1; tauto).
          split; [exact I1|]. split; [intros Hz g Hg; apply in_app_or in Hg as [Hg|[<-|[]]]; [now apply I2|intros Hx; apply Hv0; exact (misses_fun _ _ _ _ Hm Hx)]|].
          split; [exact I3|intros Hz g Hg; apply in_app_or in Hg as [Hg|[<-|[]]]; [now apply I4|intros Hx; apply Hv1; exact (misses_fun _ _ _ _ Hm Hx)]].
        * assert (Hv1 : v = 1).
          { destruct (Nat.eq_dec v 1); [auto|]. exfalso. assert (In 1 face) by (apply (proj2 (proj2 Hm)); lia). apply memb_In in H. congruence. }
          subst v. split; [exact I1|]. split; [intros Hz g Hg; apply in_app_or in Hg as [Hg|[<-|[]]]; [now apply I2|intros Hx; apply Hv0; exact (misses_fun _ _ _ _ Hm Hx)]|].
          split; [intros f Hf; injection Hf as <-; eauto|discriminate].
      + assert (Hv0 : v = 0).
        { destruct (Nat.eq_dec v 0); [auto|]. exfalso. assert (In 0 face) by (apply (proj2 (proj2 Hm)); lia). apply memb_In in H. congruence. }
        subst v. cbn [fst snd]. split; [intros f Hf; injection Hf as <-; eauto|]. split; [discriminate|].
        split; [exact I3|intros Hz g Hg; apply in_app_or in Hg as [Hg|[<-|[]]]; [now apply I4|intros Hx; discriminate (misses_fun _ _ _ _ Hm Hx)]]. }
  specialize (Hinv fvi [] (None, None) eq_refl). cbn [length] in Hinv. change (fold_left step (enumerate_from 0 fvi) (None, None)) with (zero_one_faces fvi) in Hinv.
  destruct Hinv as (I1 & I2 & I3 & I4).
  { cbn [fst snd]. split; [discriminate|]. split; [intros _ ? []|]. split; [discriminate|intros _ ? []]. }
  destruct (missing_list d fvi) as (ms & HF); [apply Hs|]. destruct (missing_all d fvi ms Hs HF) as (Hnd & Hall).
  assert (Hex : forall v, v <= d -> exists face, In face fvi /\ misses d face v).
  { intros v Hv. apply Hall in Hv. destruct (Forall2_In_r _ _ _ _ HF Hv) as (face & Hf & Hm). eauto. }
  destruct (zero_one_faces fvi) as ([z|], [o|]) eqn:E; cbn [fst snd] in *.
  - destruct (I1 z eq_refl) as (fz & Z1 & Z2). destruct (I3 o eq_refl) as (fo & O1 & O2). exists z, o, fz, fo. auto.
  - exfalso. destruct (Hex 1 Hd) as (face & Hf & Hm). exact (I4 eq_refl _ Hf Hm).
  - exfalso. destruct (Hex 0 ltac:(lia)) as (face & Hf & Hm). exact (I2 eq_refl _ Hf Hm).
  - exfalso. destruct (Hex 0 ltac:(lia)) as (face & Hf & Hm). exact (I2 eq_refl _ Hf Hm).
Qed.

(** ** Lists without their k-th entry *)
Lemma remove_nth_map {X Y} (f : X -> Y) k l : remove_nth k (map f l) = map f (remove_nth k l).
Proof. unfold remove_nth. now rewrite map_app, firstn_map, skipn_map. Qed.

Lemma firstn_seq k n : k <= n -> firstn k (seq 0 n) = seq 0 k.
Proof.
  intros H. replace n with (k + (n - k)) by lia. rewrite seq_app, firstn_app, seq_length, Nat.sub_diag, firstn_O, app_nil_r.
  apply firstn_all2. rewrite seq_length. lia.
Qed.
Lemma skipn_seq k s n : skipn k (seq s n) = seq (s + k) (n - k).
Proof.
  revert s n. induction k as [|k IH]; intros s n; [now rewrite Nat.add_0_r, Nat.sub_0_r|].
  destruct n as [|n]; [reflexivity|]. cbn [seq skipn]. rewrite IH. f_equal; lia.
Qed.

Lemma remove_nth_seq k n : k < n -> NoDup (remove_nth k (seq 0 n)) /\ forall x, In x (remove_nth k (seq 0 n)) <-> x < n /\ x <> k.
Proof.
  intros H. unfold remove_nth. rewrite firstn_seq by lia. rewrite skipn_seq. split.
  - apply NoDup_app; [apply seq_NoDup|apply seq_NoDup|]. intros x Hx Hy. apply in_seq in Hx, Hy. lia.
  - intros x. rewrite in_app_iff, !in_seq. lia.
Qed.

Lemma map_nth_seq' {X} (l : list X) d : l = map (fun k => nth k l d) (seq 0 (length l)).
Proof.
  induction l as [|a l IH]; [reflexivity|]. cbn [length seq map nth]. f_equal. rewrite <- seq_shift, map_map. exact IH.
Qed.

(** the entries of a row at the positions of a face *)
Lemma face_perm {X} d (row : list X) face v vs : length row = d + 1 -> misses d face v ->
  Forall2 (fun k x => nth_error row k = Some x) face vs -> Permutation vs (remove_nth v row).
Proof.
  intros Hl (Hv & Hn & Hf) HF. destruct row as [|x0 row0] eqn:Er; [cbn in Hl; lia|]. rewrite <- Er in *.
  assert (E : vs = map (fun k => nth k row x0) face).
  { clear -HF. induction HF as [|k x face vs Hk HF IH]; [reflexivity|]. cbn [map]. f_equal; [|exact IH]. symmetry. now apply nth_error_nth. }
  assert (E2 : remove_nth v row = map (fun k => nth k row x0) (remove_nth v (seq 0 (d + 1)))).
  { transitivity (remove_nth v (map (fun k => nth k row x0) (seq 0 (length row)))); [f_equal; apply map_nth_seq'|].
    rewrite remove_nth_map, Hl. reflexivity. }
  rewrite E, E2. destruct (remove_nth_seq v (d + 1)) as (N1 & N2); [lia|].
  apply Permutation_map. apply NoDup_Permutation; [exact Hn|exact N1|]. intros x. rewrite Hf, N2. lia.
Qed.

Definition sw01 (v : nat) : nat := match v with 0 => 1 | 1 => 0 | _ => v end.

Lemma remove_swap {X} (row : list X) v : 2 <= length row -> Permutation (remove_nth (sw01 v) (swap01 row)) (remove_nth v row).
Proof.
  intros H. destruct row as [|a [|b r]]; cbn [length] in H; try lia.
  destruct v as [|[|v]]; unfold remove_nth, sw01, swap01; cbn [firstn skipn app]; try reflexivity. apply perm_swap.
Qed.

(** ** Nodal adjacency *)
Definition cnt (c : list (list nat)) (i j : nat) : nat :=
  match nth_error c i with Some l => count_occ Nat.eq_dec l j | None => 0 end.
Definition b2n (b : bool) : nat := if b then 1 else 0.

Lemma append_at_ok c a b : a < length c -> exists c', append_at c a b = Ok c' /\ length c' = length c /\
  forall i j, cnt c' i j = cnt c i j + b2n ((i =? a) && (j =? b)).
Proof.
  intros H. unfold append_at. destruct (get_total c a H) as (l & Hl). rewrite Hl. cbn [bind]. apply get_ok in Hl.
  exists (upd c a (l ++ [b])). split; [apply put_ok; auto|]. split; [apply length_upd|]. intros i j. unfold cnt.
  destruct (Nat.eqb_spec i a) as [->|Hne].
  - rewrite nth_error_upd_eq by exact H. rewrite Hl, count_occ_app. cbn [count_occ andb].
    destruct (Nat.eq_dec b j) as [->|Hb]; [now rewrite Nat.eqb_refl|]. destruct (Nat.eqb_spec j b); [congruence|]. reflexivity.
  - rewrite nth_error_upd_neq by auto. cbn [andb b2n]. lia.
Qed.

Lemma others_loop n l : NoDup l -> (forall o, In o l -> o < n) -> forall c, length c = S n ->
  exists c', foldM (fun c o => c <- append_at c n o ;; append_at c o n) l c = Ok c' /\ length c' = S n /\
    forall i j, cnt c' i j = cnt c i j + b2n ((i =? n) && memb j l) + b2n ((j =? n) && memb i l).
Proof.
  induction l as [|o l IH]; intros Hn Hr c Hc.
  - exists c. split; [reflexivity|]. split; [exact Hc|]. intros i j. cbn [memb existsb]. rewrite !andb_false_r. cbn. lia.
  - inversion Hn as [|? ? Hni Hn']; subst. cbn [foldM].
    destruct (append_at_ok c n o) as (c1 & E1 & L1 & S1); [lia|]. rewrite E1. cbn [bind].
    destruct (append_at_ok c1 o n) as (c2 & E2 & L2 & S2); [rewrite L1, Hc; specialize (Hr o (or_introl eq_refl)); lia|]. rewrite E2. cbn [bind].
    destruct (IH Hn' (fun x Hx => Hr x (or_intror Hx)) c2) as (c3 & E3 & L3 & S3); [lia|]. exists c3. split; [exact E3|]. split; [exact L3|].
    intros i j. rewrite S3, S2, S1. cbn [memb existsb]. fold (memb i l). fold (memb j l).
    assert (Ho : o < n) by (apply Hr; now left).
    assert (Mo : memb o l = false) by (apply not_true_iff_false; rewrite memb_In; exact Hni).
    destruct (Nat.eqb_spec i n) as [Ei|Ei], (Nat.eqb_spec j o) as [Ej|Ej]; cbn [andb orb b2n];
    destruct (Nat.eqb_spec i o) as [Eio|Eio], (Nat.eqb_spec j n) as [Ejn|Ejn]; cbn [andb orb b2n]; subst; try lia; rewrite ?Mo; cbn [b2n]; try lia.
Qed.

Lemma shared_sym a b : NoDup a -> NoDup b -> common a b = common b a.
Proof.
  intros Ha Hb. unfold common. apply Permutation_length. apply NoDup_Permutation; [now apply NoDup_filter|now apply NoDup_filter|].
  intros x. rewrite !filter_In, !memb_In. tauto.
Qed.

Lemma where_app (a b : list bool) : where_ (a ++ b) = where_ a ++ map (Nat.add (length a)) (where_ b).
Proof.
  unfold where_, enumerate, enumerate_from. rewrite app_length, seq_app, combine_app by (now rewrite seq_length).
  rewrite filter_app, map_app. f_equal. cbn [plus].
  assert (G : forall n k (b : list bool), map fst (filter snd (combine (seq (k + n) (length b)) b)) = map (Nat.add k) (map fst (filter snd (combine (seq n (length b)) b)))).
  { clear. intros n k b. revert n. induction b as [|x b IH]; intros n; [reflexivity|]. cbn [length seq combine filter].
    specialize (IH (S n)). rewrite Nat.add_succ_r in IH. destruct x; cbn [snd map fst]; [f_equal|]; exact IH. }
  specialize (G 0 (length a) b). now rewrite Nat.add_0_r in G.
Qed.

Definition touching (D : list (list nat)) (v : nat) : list nat := where_ (map (memb v) D).

Lemma touching_In D v i : In i (touching D v) <-> exists Di, nth_error D i = Some Di /\ In v Di.
Proof.
  unfold touching. rewrite In_where_, nth_error_map. destruct (nth_error D i) as [Di|]; cbn [option_map].
  - split; [intros H; injection H as H; exists Di; split; [reflexivity|now apply memb_In]|].
    intros (D' & E & Hin). injection E as <-. f_equal. now apply memb_In.
  - split; [discriminate|]. intros (? & ? & _). discriminate.
Qed.

Lemma touching_snoc D P v : touching (D ++ [P]) v = touching D v ++ (if memb v P then [length D] else []).
Proof.
  unfold touching. rewrite map_app, where_app, map_length. cbn [map]. destruct (memb v P); cbn; [now rewrite Nat.add_0_r|reflexivity].
Qed.

(** State after the cells [D] and the vertices [P] of the next cell. *)
Definition nodal_inv (D : list (list nat)) (P : list nat) (st : list (nat * list nat) * list (list nat)) : Prop :=
  (forall v, dict_get_default (fst st) v [] = touching (D ++ [P]) v) /\
  length (snd st) = S (length D) /\
  (forall i j, length D < j -> cnt (snd st) i j = 0) /\
  (forall i j Di Dj, nth_error (D ++ [P]) i = Some Di -> nth_error (D ++ [P]) j = Some Dj ->
     cnt (snd st) i j = if i =? j then 0 else common Di Dj).

Lemma shared_snoc P v Q : common (P ++ [v]) Q = common P Q + b2n (memb v Q).
Proof. unfold common. rewrite filter_app, app_length. cbn [filter]. destruct (memb v Q); reflexivity. Qed.

Lemma nodal_vertex_ok D P v st : Forall (@NoDup nat) D -> NoDup (P ++ [v]) -> nodal_inv D P st ->
  exists st', nodal_vertex (length D) st v = Ok st' /\ nodal_inv D (P ++ [v]) st'.
Proof.
  intros HD HP (I1 & I2 & I4 & I3). unfold nodal_vertex.
  assert (Hv : ~ In v P) by (pose proof (NoDup_remove_2 P [] v HP) as Hq; now rewrite app_nil_r in Hq).
  assert (HvP : memb v P = false) by (apply not_true_iff_false; rewrite memb_In; exact Hv).
  assert (HPn : NoDup P) by (apply NoDup_app_inv in HP; tauto).
  assert (Eo : dict_get_default (fst st) v [] = touching D v) by (rewrite I1, touching_snoc, HvP; apply app_nil_r).
  rewrite Eo.
  destruct (others_loop (length D) (touching D v)) with (c := snd st) as (c' & E & L & Sp).
  - apply incr_NoDup, where_incr.
  - intros o Ho. apply touching_In in Ho as (Di & Hi & _). apply nth_error_Some. congruence.
  - exact I2.
  - rewrite E. cbn [bind]. eexists. split; [reflexivity|]. split; [|split; [exact L|split]]; cbn [fst snd].
    + intros w. rewrite touching_snoc. unfold dict_get_default. cbn [find fst]. destruct (Nat.eqb_spec v w) as [<-|Hne].
      * cbn [snd]. assert (memb v (P ++ [v]) = true) as -> by (apply memb_In, in_or_app; right; now left). reflexivity.
      * fold (dict_get_default (fst st) w []). rewrite I1, touching_snoc. f_equal.
        assert (memb w (P ++ [v]) = memb w P) as ->; [|reflexivity].
        apply eq_true_iff_eq. rewrite !memb_In, in_app_iff. cbn. intuition congruence.
    + intros i j Hj. rewrite Sp, I4 by exact Hj. destruct (Nat.eqb_spec j (length D)); [lia|].
      assert (memb j (touching D v) = false) as ->.
      { apply not_true_iff_false. rewrite memb_In, touching_In. intros (D' & E' & _). assert (j < length D) by (apply nth_error_Some; congruence). lia. }
      rewrite !andb_false_r. reflexivity.
    + intros i j Di Dj Hi Hj. rewrite Sp.
      assert (Hlt : forall k Dk, nth_error (D ++ [P ++ [v]]) k = Some Dk -> k < length D \/ k = length D).
      { intros k Dk Hk. assert (k < length (D ++ [P ++ [v]])) by (apply nth_error_Some; congruence). rewrite app_length in H. cbn in H. lia. }
      assert (Hmt : forall k Dk, k < length D -> nth_error (D ++ [P ++ [v]]) k = Some Dk -> memb k (touching D v) = memb v Dk).
      { intros k Dk Hk Hn. rewrite nth_error_app1 in Hn by exact Hk. apply eq_true_iff_eq. rewrite !memb_In, touching_In. split; [intros (D' & E' & H'); congruence|eauto]. }
      assert (Hself : memb (length D) (touching D v) = false).
      { apply not_true_iff_false. rewrite memb_In, touching_In. intros (D' & E' & _). assert (length D < length D) by (apply nth_error_Some; congruence). lia. }
      destruct (Hlt _ _ Hi) as [Li|Li], (Hlt _ _ Hj) as [Lj|Lj].
      * rewrite (I3 i j Di Dj); [|now rewrite nth_error_app1 in * by exact Li|now rewrite nth_error_app1 in * by exact Lj].
        destruct (Nat.eqb_spec i (length D)); [lia|]. destruct (Nat.eqb_spec j (length D)); [lia|]. cbn. lia.
      * subst j. rewrite (nth_error_app2 D [P ++ [v]]), Nat.sub_diag in Hj by lia. cbn in Hj. injection Hj as <-.
        rewrite (I3 i (length D) Di P); [|now rewrite nth_error_app1 in * by exact Li|rewrite nth_error_app2, Nat.sub_diag by lia; reflexivity].
        rewrite Nat.eqb_refl. destruct (Nat.eqb_spec i (length D)); [lia|]. cbn [andb b2n]. rewrite (Hmt i Di Li Hi).
        assert (HDi : NoDup Di) by (rewrite Forall_forall in HD; apply HD; rewrite nth_error_app1 in Hi by exact Li; eapply nth_error_In; eauto).
        rewrite (shared_sym Di (P ++ [v])), (shared_sym Di P) by auto. rewrite shared_snoc. lia.
      * subst i. rewrite (nth_error_app2 D [P ++ [v]]), Nat.sub_diag in Hi by lia. cbn in Hi. injection Hi as <-.
        rewrite (I3 (length D) j P Dj); [|rewrite nth_error_app2, Nat.sub_diag by lia; reflexivity|now rewrite nth_error_app1 in * by exact Lj].
        rewrite Nat.eqb_refl. destruct (Nat.eqb_spec j (length D)); [lia|]. destruct (Nat.eqb_spec (length D) j); [lia|]. cbn [andb b2n].
        rewrite (Hmt j Dj Lj Hj), shared_snoc. lia.
      * subst i j. rewrite Nat.eqb_refl, Hself. rewrite (I3 (length D) (length D) P P) by (rewrite nth_error_app2, Nat.sub_diag by lia; reflexivity).
        rewrite Nat.eqb_refl. reflexivity.
Qed.

Lemma nodal_vertices_ok D Q : Forall (@NoDup nat) D -> forall P st, NoDup (P ++ Q) -> nodal_inv D P st ->
  exists st', foldM (nodal_vertex (length D)) Q st = Ok st' /\ nodal_inv D (P ++ Q) st'.
Proof.
  intros HD. induction Q as [|v Q IH]; intros P st HP HI; [exists st; split; [reflexivity|now rewrite app_nil_r]|].
  cbn [foldM]. change (v :: Q) with ([v] ++ Q) in HP. rewrite app_assoc in HP.
  destruct (nodal_vertex_ok D P v st HD) as (st1 & E1 & I1); [apply NoDup_app_inv in HP; tauto|exact HI|].
  rewrite E1. cbn [bind]. destruct (IH (P ++ [v]) st1 HP I1) as (st2 & E2 & I2). exists st2. split; [exact E2|].
  now rewrite <- app_assoc in I2.
Qed.

Definition nodal_done (D : list (list nat)) (st : list (nat * list nat) * list (list nat)) : Prop :=
  (forall v, dict_get_default (fst st) v [] = touching D v) /\ length (snd st) = length D /\
  (forall i j, length D <= j -> cnt (snd st) i j = 0) /\
  (forall i j Di Dj, nth_error D i = Some Di -> nth_error D j = Some Dj -> cnt (snd st) i j = if i =? j then 0 else common Di Dj).

Lemma nodal_cell_ok D P st : Forall (@NoDup nat) D -> NoDup P -> nodal_done D st ->
  exists st', nodal_cell st (length D, P) = Ok st' /\ nodal_done (D ++ [P]) st'.
Proof.
  intros HD HP (I1 & I2 & I4 & I3). unfold nodal_cell. cbn [fst snd].
  destruct (nodal_vertices_ok D P HD [] (fst st, snd st ++ [[]])) as (st' & E & J1 & J2 & J4 & J3); [exact HP| |].
  - split; [|split; [|split]]; cbn [fst snd].
    + intros v. rewrite touching_snoc. cbn [memb existsb]. rewrite app_nil_r. apply I1.
    + rewrite app_length, I2. cbn. lia.
    + intros i j Hj. unfold cnt. destruct (Nat.lt_ge_cases i (length D)) as [Li|Li].
      * rewrite nth_error_app1 by lia. apply I4. lia.
      * rewrite nth_error_app2 by lia. destruct (i - length (snd st)) as [|k]; [reflexivity|]. now destruct k.
    + intros i j Di Dj Hi Hj. unfold cnt.
      assert (Hlt : forall k Dk, nth_error (D ++ [[]]) k = Some Dk -> k < length D \/ (k = length D /\ Dk = [])).
      { intros k Dk Hk. assert (k < length (D ++ [[] : list nat])) by (apply nth_error_Some; congruence). rewrite app_length in H. cbn in H.
        destruct (Nat.eq_dec k (length D)) as [->|]; [right|left; lia]. split; [reflexivity|]. rewrite nth_error_app2, Nat.sub_diag in Hk by lia. cbn in Hk. congruence. }
      destruct (Hlt _ _ Hi) as [Li|(Li & ->)].
      * rewrite nth_error_app1 by lia. fold (cnt (snd st) i j). rewrite nth_error_app1 in Hi by exact Li.
        destruct (Hlt _ _ Hj) as [Lj|(Lj & ->)]; [rewrite nth_error_app1 in Hj by exact Lj; now apply I3|].
        destruct (Nat.eqb_spec i j); [lia|]. unfold common. cbn [memb existsb].
        replace (filter (fun _ : nat => false) Di) with (@nil nat) by (clear; induction Di; cbn; auto). cbn [length].
        apply I4. lia.
      * subst i. rewrite nth_error_app2, I2, Nat.sub_diag by lia. cbn. destruct (length D =? j); reflexivity.
  - exists st'. split; [exact E|]. cbn [app] in *. split; [exact J1|]. split; [rewrite app_length; cbn; lia|]. split; [|exact J3].
    intros i j Hj. rewrite app_length in Hj. cbn in Hj. apply J4. lia.
Qed.

Lemma nodal_cells_ok l : forall D st, Forall (@NoDup nat) (D ++ l) -> nodal_done D st ->
  exists st', foldM nodal_cell (enumerate_from (length D) l) st = Ok st' /\ nodal_done (D ++ l) st'.
Proof.
  induction l as [|P l IH]; intros D st HD HI; [exists st; split; [reflexivity|now rewrite app_nil_r]|].
  rewrite enumerate_from_cons. cbn [foldM]. destruct (nodal_cell_ok D P st) as (st1 & E1 & I1).
  - apply Forall_app in HD. tauto.
  - apply Forall_app in HD as [_ HD]. now inversion HD.
  - exact HI.
  - rewrite E1. cbn [bind]. destruct (IH (D ++ [P]) st1) as (st2 & E2 & I2); [now rewrite <- app_assoc|exact I1|].
    exists st2. rewrite app_length in E2. cbn [length] in E2. rewrite Nat.add_1_r in E2. split; [exact E2|]. now rewrite <- app_assoc in I2.
Qed.

Lemma nodal_done_nil : nodal_done [] ([], []).
Proof.
  split; [reflexivity|]. split; [reflexivity|]. split; [intros i j _; unfold cnt; now destruct i|].
  intros i j Di Dj H. now destruct i.
Qed.
