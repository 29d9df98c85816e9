(** * Proofs for face matching and facial adjacency from vertices. *)
From Coq Require Import List Arith Bool ZArith Lia Permutation Sorted.
From Verif Require Import Np NpFacts MeshModel MeshSpec MeshProofs CompletionProofs.
Import ListNotations.

(** ** Stable sorting as a strict order *)
Section Strict.
  Context {K : Type} (leb : nat * K -> nat * K -> bool).
  Hypothesis leb_total : forall x y, leb x y = true \/ leb y x = true.
  Hypothesis leb_trans : forall x y z, leb x y = true -> leb y z = true -> leb x z = true.

  Definition strict (a b : nat * K) : Prop := leb a b = true /\ (leb b a = true -> fst a < fst b).

  Lemma isort_strict l :
    StronglySorted (fun a b : nat * K => fst a < fst b) l -> StronglySorted strict (isort leb l).
  Proof using leb_total leb_trans.
    induction 1 as [|x l H IH HF]; cbn [isort]; [constructor|].
    assert (HF' : Forall (fun b => fst x < fst b) (isort leb l)).
    { rewrite Forall_forall in *. intros z Hz. apply HF. eapply Permutation_in; [apply isort_perm|exact Hz]. }
    revert IH HF'. generalize (isort leb l) as s. clear HF H l.
    induction s as [|y s IHs]; intros Hs HF; cbn [insert]; [repeat constructor|].
    inversion Hs as [|? ? Hs' Fy]; subst. inversion HF as [|? ? Hxy HF']; subst.
    destruct (leb x y) eqn:E.
    - constructor; [constructor; auto|]. constructor; [split; auto|].
      rewrite Forall_forall in *. intros z Hz. split; [|intros; auto].
      apply leb_trans with y; auto. apply Fy; auto.
    - constructor; [apply IHs; auto|].
      rewrite Forall_forall in *. intros z Hz.
      apply (Permutation_in _ (insert_perm leb x s)) in Hz. destruct Hz as [<-|Hz]; [|apply Fy; auto].
      split; [destruct (leb_total x y); congruence|congruence].
  Qed.

  Lemma strict_irrefl a : ~ strict a a.
  Proof using leb_total.
    intros (H1 & H2). specialize (H2 H1). lia.
  Qed.

  Lemma strict_trans a b c : strict a b -> strict b c -> strict a c.
  Proof using leb_trans.
    intros (H1 & H2) (H3 & H4). split; [eauto|]. intros H5.
    specialize (H2 (leb_trans _ _ _ H3 H5)). specialize (H4 (leb_trans _ _ _ H5 H1)). lia.
  Qed.
End Strict.

Lemma sorted_consec {X} (R : X -> X -> Prop) (L : list X) a b :
  (forall x, ~ R x x) -> (forall x y z, R x y -> R y z -> R x z) -> StronglySorted R L ->
  (In (a, b) (combine L (tl L)) <->
   In a L /\ In b L /\ R a b /\ ~ exists c, In c L /\ R a c /\ R c b).
Proof.
  intros Hirr Htr. induction 1 as [|x l H IH HF]; cbn [tl combine].
  - cbn. tauto.
  - destruct l as [|y l'].
    + cbn. split; [tauto|]. intros ([->|[]] & [->|[]] & HR & _). exfalso; eapply Hirr; eauto.
    + cbn [tl] in IH. cbn [combine].
      inversion H as [|? ? H' Fy]; subst. rewrite Forall_forall in HF, Fy.
      split.
      * intros [E|Hin].
        -- inversion E; subst. split; [now left|]. split; [right; now left|]. split; [apply HF; now left|].
           intros (c & [<-|[<-|Hc]] & H1 & H2); try (eapply Hirr; now eauto).
        -- apply IH in Hin as (Ha & Hb & HR & Hn). split; [now right|]. split; [now right|]. split; auto.
           intros (c & [<-|Hc] & H1 & H2); [|apply Hn; eauto].
           apply HF in Ha. eapply Hirr. eapply Htr; [exact Ha|exact H1].
      * intros (Ha & Hb & HR & Hn). destruct Ha as [->|Ha].
        -- destruct Hb as [->|Hb]; [exfalso; eapply Hirr; eauto|].
           destruct Hb as [->|Hb]; [now left|]. exfalso. apply Hn. exists y.
           split; [right; now left|]. split; [apply HF; now left|apply Fy; auto].
        -- destruct Hb as [->|Hb].
           ++ exfalso. apply HF in Ha. eapply Hirr. eapply Htr; [exact Ha|exact HR].
           ++ right. apply IH. repeat split; auto. intros (c & Hc & H1 & H2). apply Hn. exists c.
              split; auto. now right.
Qed.

(** ** Canonical sorting of Z lists *)
Lemma SSorted_perm_eq_Z (l1 l2 : list Z) :
  StronglySorted (fun a b => Z.leb a b = true) l1 -> StronglySorted (fun a b => Z.leb a b = true) l2 ->
  Permutation l1 l2 -> l1 = l2.
Proof.
  revert l2; induction l1 as [|x l1 IH]; intros l2 H1 H2 HP.
  - now apply Permutation_nil in HP.
  - destruct l2 as [|y l2]; [symmetry in HP; apply Permutation_nil in HP; discriminate|].
    inversion H1 as [|? ? H1' F1]; inversion H2 as [|? ? H2' F2]; subst.
    rewrite Forall_forall in F1, F2.
    assert (x = y) as ->.
    { assert (Hx : In x (y :: l2)) by (eapply Permutation_in; [exact HP|now left]).
      assert (Hy : In y (x :: l1)) by (eapply Permutation_in; [symmetry; exact HP|now left]).
      destruct Hx as [|Hx]; auto. destruct Hy as [|Hy]; auto.
      apply F2 in Hx. apply F1 in Hy. apply Z.leb_le in Hx. apply Z.leb_le in Hy. lia. }
    f_equal. apply IH; auto. eapply Permutation_cons_inv; eauto.
Qed.

Lemma sort_Z_eq_iff l1 l2 : sort_Z l1 = sort_Z l2 <-> Permutation l1 l2.
Proof.
  unfold sort_Z. split; intros H.
  - rewrite <- (isort_perm Z.leb l1), <- (isort_perm Z.leb l2), H. reflexivity.
  - apply SSorted_perm_eq_Z; try (apply isort_sorted; intros *; rewrite ?Z.leb_le; lia).
    now rewrite !isort_perm.
Qed.

Lemma Permutation_filter {X} (p : X -> bool) l1 l2 :
  Permutation l1 l2 -> Permutation (filter p l1) (filter p l2).
Proof.
  induction 1 as [|x l1 l2 H IH|x y l|l1 l2 l3 H1 IH1 H2 IH2]; cbn; auto.
  - destruct (p x); auto.
  - destruct (p x), (p y); auto. apply perm_swap.
  - etransitivity; eauto.
Qed.

Lemma filter_all {X} (p : X -> bool) l : (forall x, In x l -> p x = true) -> filter p l = l.
Proof.
  induction l as [|x l IH]; intros H; cbn; auto.
  rewrite (H x) by now left. f_equal. apply IH. intros; apply H; now right.
Qed.
Lemma filter_none {X} (p : X -> bool) l : (forall x, In x l -> p x = false) -> filter p l = [].
Proof.
  induction l as [|x l IH]; intros H; cbn; auto.
  rewrite (H x) by now left. apply IH. intros; apply H; now right.
Qed.

Lemma padded_perm (a b : list Z) na nb n :
  (forall x, In x a -> x <> (-1)%Z) -> (forall x, In x b -> x <> (-1)%Z) ->
  length a + na = n -> length b + nb = n ->
  (Permutation (a ++ repeat (-1)%Z na) (b ++ repeat (-1)%Z nb) <-> Permutation a b).
Proof.
  intros Ha Hb Hna Hnb. split; intros H.
  - apply (Permutation_filter (fun x => negb (x =? -1)%Z)) in H.
    rewrite !filter_app in H.
    rewrite (filter_all _ a), (filter_all _ b), !(filter_none _ (repeat _ _)), !app_nil_r in H; auto.
    all: intros x Hx.
    + apply repeat_spec in Hx; subst; reflexivity.
    + apply repeat_spec in Hx; subst; reflexivity.
    + apply Hb in Hx. destruct (Z.eqb_spec x (-1)); auto.
    + apply Ha in Hx. destruct (Z.eqb_spec x (-1)); auto.
  - assert (na = nb) as -> by (apply Permutation_length in H; lia).
    now apply Permutation_app_tail.
Qed.

Lemma list_Z_eqb_eq a b : list_Z_eqb a b = true <-> a = b.
Proof.
  revert b; induction a as [|x a IH]; intros [|y b]; cbn; split; intros H; try discriminate; auto.
  - apply andb_true_iff in H as (H1 & H2). apply Z.eqb_eq in H1. apply IH in H2. congruence.
  - inversion H; subst. rewrite Z.eqb_refl. cbn. now apply IH.
Qed.

(** ** The matching loop *)
Lemma consec_nth {X} (L : list X) i x y :
  nth_error (combine L (tl L)) i = Some (x, y) <-> nth_error L i = Some x /\ nth_error L (S i) = Some y.
Proof.
  revert i; induction L as [|a L IH]; intros i; cbn [combine tl].
  - destruct i; cbn; split; try discriminate; intros (H & _); discriminate.
  - destruct L as [|b L].
    + destruct i as [|[|i]]; cbn; split; try discriminate; intros (H1 & H2); discriminate.
    + cbn [combine tl] in *. destruct i as [|i]; cbn [nth_error].
      * split; [intros H; inversion H; auto|]. intros (H1 & H2). inversion H1; inversion H2; auto.
      * rewrite IH. cbn [nth_error]. tauto.
Qed.

Lemma nth_error_repeat_lt {X} (x : X) n i : i < n -> nth_error (repeat x n) i = Some x.
Proof. revert i; induction n; intros [|i] H; cbn; try lia; auto. apply IHn; lia. Qed.

Definition match_core (incr : list (list Z)) : res (list (nat * nat)) :=
  let order := lexsort_Z incr in
  sorted <- take incr order ;;
  let mi := where_ (map (fun ab => list_Z_eqb (fst ab) (snd ab)) (combine sorted (tl sorted))) in
  a <- take order mi ;;
  b <- take order (map S mi) ;;
  Ok (combine a b).

Lemma match_core_spec incr :
  exists pairs, match_core incr = Ok pairs /\ NoDup pairs /\
    forall i j, In (i, j) pairs <->
      exists k, nth_error incr i = Some k /\ nth_error incr j = Some k /\ i < j /\
        forall m, i < m < j -> nth_error incr m <> Some k.
Proof.
  set (leb := fun a b : nat * list Z => lex_leb Z.eqb Z.leb (rev (snd a)) (rev (snd b))).
  set (L := isort leb (enumerate incr)).
  assert (HT : forall x y, leb x y = true \/ leb y x = true) by (intros; apply lex_leb_total).
  assert (HTr : forall x y z, leb x y = true -> leb y z = true -> leb x z = true)
    by (intros x y z; apply lex_leb_trans).
  assert (HL : StronglySorted (strict leb) L).
  { apply isort_strict; auto. apply StronglySorted_enumerate_from. }
  assert (HLin : forall i k, In (i, k) L <-> nth_error incr i = Some k).
  { intros i k. rewrite <- In_enumerate. split; apply Permutation_in; [|symmetry]; apply isort_perm. }
  assert (Hstrict_eq : forall i j k, strict leb (i, k) (j, k) <-> i < j).
  { intros i j k. unfold strict; cbn [fst]. assert (leb (i, k) (j, k) = true).
    { destruct (HT (i, k) (j, k)) as [H|H]; exact H. }
    assert (leb (j, k) (i, k) = true) by (destruct (HT (i, k) (j, k)) as [H'|H']; exact H').
    split; [intros (_ & H1); auto|auto]. }
  set (f := fun xy : (nat * list Z) * (nat * list Z) => list_Z_eqb (snd (fst xy)) (snd (snd xy))).
  set (C := combine L (tl L)).
  assert (Hsorted : take incr (map fst L) = Ok (map snd L)).
  { apply take_ok. apply Forall2_intro_nth; [now rewrite !map_length|].
    intros q i k H1 H2. rewrite nth_error_map in H1, H2.
    destruct (nth_error L q) as [(i', k')|] eqn:E; [|discriminate]. cbn in *.
    inversion H1; inversion H2; subst. apply HLin. eapply nth_error_In; eauto. }
  assert (Hmi : map (fun ab => list_Z_eqb (fst ab) (snd ab)) (combine (map snd L) (tl (map snd L))) = map f C).
  { unfold C. generalize L. intros l. induction l as [|x l IH]; cbn [map combine tl]; auto.
    destruct l as [|y l]; auto. cbn [map combine tl] in *. f_equal. exact IH. }
  pose proof (where_take_filter f C) as HTF. apply take_ok in HTF.
  assert (Ha : take (map fst L) (where_ (map f C)) = Ok (map (fun xy => fst (fst xy)) (filter f C))).
  { apply take_ok. revert HTF. generalize (where_ (map f C)) (filter f C). intros mi P HF.
    induction HF as [|i (x, y) mi P Hi HF IH]; cbn [map]; constructor; auto.
    apply consec_nth in Hi as (H1 & _). cbn. now apply map_nth_error. }
  assert (Hb : take (map fst L) (map S (where_ (map f C))) = Ok (map (fun xy => fst (snd xy)) (filter f C))).
  { apply take_ok. revert HTF. generalize (where_ (map f C)) (filter f C). intros mi P HF.
    induction HF as [|i (x, y) mi P Hi HF IH]; cbn [map]; constructor; auto.
    apply consec_nth in Hi as (_ & H1). cbn [fst snd]. now apply map_nth_error. }
  set (pairs := combine (map (fun xy => fst (fst xy)) (filter f C)) (map (fun xy => fst (snd xy)) (filter f C))).
  assert (Hpairs : pairs = map (fun xy => (fst (fst xy), fst (snd xy))) (filter f C)).
  { unfold pairs. generalize (filter f C). intros P. induction P; cbn; congruence. }
  exists pairs. split; [|split].
  - unfold match_core. change (lexsort_Z incr) with (map fst L). rewrite Hsorted. cbn [bind].
    rewrite Hmi, Ha, Hb. reflexivity.
  - rewrite Hpairs. apply NoDup_map_inv with (f := fst). rewrite map_map. cbn [fst].
    assert (HNL : NoDup (map fst L)).
    { eapply Permutation_NoDup; [apply Permutation_map; symmetry; apply isort_perm|].
      rewrite map_fst_enumerate. apply seq_NoDup. }
    assert (HNC : NoDup (map (fun x => fst (fst x)) C)).
    { unfold C. clear -HNL. induction L as [|x l IH]; cbn [combine map tl]; [constructor|].
      destruct l as [|y l]; cbn [combine map tl] in *; [constructor|].
      inversion HNL as [|? ? Hx HN]; subst. constructor; [|apply IH; auto].
      cbn [fst]. intros Hin. apply Hx. apply in_map_iff in Hin as ((p, q) & E & Hin). cbn in E.
      change (In (p, q) (combine (y :: l) l)) in Hin. apply in_combine_l in Hin. rewrite <- E. change (In (fst p) (map fst (y :: l))). now apply in_map. }
    clear -HNC. induction C as [|c C IH]; cbn; [constructor|]. inversion HNC as [|? ? Hx HN]; subst.
    destruct (f c); cbn; auto. constructor; auto.
    intros Hin. apply Hx. apply in_map_iff in Hin as (c' & E & Hin). apply filter_In in Hin as (Hin & _).
    apply in_map_iff. eauto.
  - intros i j. rewrite Hpairs, in_map_iff.
    assert (HC : forall a b, In (a, b) C <-> In a L /\ In b L /\ strict leb a b /\
                   ~ exists c, In c L /\ strict leb a c /\ strict leb c b).
    { intros a b. apply sorted_consec; auto.
      - apply strict_irrefl; auto.
      - apply strict_trans; auto. }
    split.
    + intros (((i', ki), (j', kj)) & E & Hin). cbn in E. inversion E; subst.
      apply filter_In in Hin as (Hin & Hf). unfold f in Hf; cbn in Hf. apply list_Z_eqb_eq in Hf. subst kj.
      apply HC in Hin as (H1 & H2 & H3 & H4). exists ki.
      split; [now apply HLin|]. split; [now apply HLin|]. split; [now apply Hstrict_eq in H3|].
      intros m Hm Hk. apply H4. exists (m, ki). split; [now apply HLin|].
      split; apply Hstrict_eq; lia.
    + intros (k & H1 & H2 & H3 & H4). exists ((i, k), (j, k)). split; [reflexivity|].
      apply filter_In. split; [|unfold f; cbn; now apply list_Z_eqb_eq].
      apply HC. split; [now apply HLin|]. split; [now apply HLin|]. split; [now apply Hstrict_eq|].
      intros ((m, k') & Hm & Hs1 & Hs2).
      assert (k' = k).
      { destruct Hs1 as (L1 & _), Hs2 as (L2 & _). unfold leb in L1, L2; cbn in L1, L2.
        assert (E : rev k = rev k') by (apply lex_leb_antisym; auto).
        rewrite <- (rev_involutive k'), <- E. apply rev_involutive. }
      subst k'. apply Hstrict_eq in Hs1. apply Hstrict_eq in Hs2. apply HLin in Hm.
      eapply H4; eauto.
Qed.

(** ** Columns *)
Lemma face_verts_fun {E} (groups : list (egroup E)) a va va' :
  face_verts groups a va -> face_verts groups a va' -> va = va'.
Proof.
  destruct a as ((g, e), f). intros (grp & row & ref & H1 & H2 & H3 & H4) (grp' & row' & ref' & H1' & H2' & H3' & H4').
  assert (grp' = grp) by congruence; subst. assert (ref' = ref) by congruence; subst.
  destruct H2 as (g1 & vi1 & A1 & B1 & _ & C1), H2' as (g2 & vi2 & A2 & B2 & _ & C2).
  assert (g1 = g2) by congruence; subst. assert (vi1 = vi2) by congruence; subst.
  assert (row' = row) by congruence; subst.
  clear -H4 H4'. revert va' H4'. induction H4 as [|k v ref va Hk H IH]; intros va' H'; inversion H'; subst; auto.
  f_equal; [congruence|]. now apply IH.
Qed.

Lemma list_max0_In_le l x : In x l -> x <= list_max0 l.
Proof. apply list_max0_ge. Qed.

Definition maxfv {E} (groups : list (egroup E)) : nat :=
  list_max0 (map (@length nat) (concat (map eg_fvi groups))).

Lemma valid_face_verts {E} (groups : list (egroup E)) a :
  has_rows groups -> faces_wf groups -> valid_face groups a -> exists va, face_verts groups a va.
Proof.
  intros HW HF. destruct a as ((g, e), f). intros (grp & Hg & He & Hf).
  unfold has_rows in HW. rewrite Forall_forall in HW.
  destruct (HW grp) as (vi & Hvi & Hl); [eapply nth_error_In; eauto|].
  destruct (nth_error vi e) as [row|] eqn:Hrow; [|apply nth_error_None in Hrow; lia].
  destruct (nth_error (eg_fvi grp) f) as [ref|] eqn:Href; [|apply nth_error_None in Href; unfold nfaces in Hf; lia].
  assert (HL : local_row groups g e row) by (exists grp, vi; auto).
  destruct (take_total row ref) as (vs & Hvs).
  { apply Forall_forall. intros k Hk. eapply HF; eauto. eapply nth_error_In; eauto. }
  exists vs, grp, row, ref. repeat split; auto. now apply take_ok.
Qed.

Lemma face_column_spec {E} vmap (groups : list (egroup E)) a va :
  face_verts groups a va ->
  length va <= maxfv groups /\
  face_column vmap groups (maxfv groups) a = Ok (map vmap va ++ repeat (-1)%Z (maxfv groups - length va)).
Proof.
  destruct a as ((g, e), f). intros (grp & row & ref & Hg & (grp' & vi & Hg' & Hvi & _ & Hrow) & Href & HV).
  assert (grp' = grp) by congruence; subst. cbn. rewrite Hg, Href, Hvi. unfold get. rewrite Hrow. cbn [bind].
  rewrite (proj2 (take_ok row ref va) HV). cbn [bind]. rewrite (Forall2_length' _ _ _ HV). split; auto.
  rewrite <- (Forall2_length' _ _ _ HV). unfold maxfv. apply list_max0_ge. apply in_map.
  apply in_concat. exists (eg_fvi grp). split; [|eapply nth_error_In; eauto].
  apply in_map. eapply nth_error_In; eauto.
Qed.

Lemma match_faces_core {E} vmap (groups : list (egroup E)) fids :
  has_rows groups -> (exists g, In g groups /\ eg_fvi g <> []) ->
  match_faces vmap groups fids =
  (cols <- mapM (face_column vmap groups (maxfv groups)) fids ;; match_core (map sort_Z cols)).
Proof.
  intros HW (g & Hg & Hne). unfold match_faces.
  replace (forallb _ groups) with true.
  2:{ symmetry. apply forallb_forall. intros x Hx. unfold has_rows in HW. rewrite Forall_forall in HW.
      destruct (HW x Hx) as (vi & -> & _). auto. }
  cbn [guard bind].
  replace (length (concat (map eg_fvi groups)) =? 0) with false.
  2:{ symmetry. apply Nat.eqb_neq. intros H. apply length_zero_iff_nil in H.
      destruct (eg_fvi g) as [|r rs] eqn:Er; [congruence|].
      assert (In r (concat (map eg_fvi groups))).
      { apply in_concat. exists (eg_fvi g). split; [now apply in_map|]. rewrite Er; now left. }
      rewrite H in H0. contradiction. }
  cbn [negb guard bind]. reflexivity.
Qed.

Lemma match_faces_spec {E} vmap (groups : list (egroup E)) fids :
  has_rows groups -> (exists g, In g groups /\ eg_fvi g <> []) ->
  (forall v, vmap v <> (-1)%Z) ->
  (forall a, In a fids -> exists va, face_verts groups a va) ->
  exists pairs, match_faces vmap groups fids = Ok pairs /\ NoDup pairs /\
    forall i j, In (i, j) pairs <->
      i < j /\
      exists a b, nth_error fids i = Some a /\ nth_error fids j = Some b /\ same_mapped vmap groups a b /\
        forall k c, i < k < j -> nth_error fids k = Some c -> ~ same_mapped vmap groups a c.
Proof.
  intros HW HF Hvmap Hval. rewrite match_faces_core by auto.
  destruct (mapM_total (face_column vmap groups (maxfv groups)) fids) as (cols & Hcols).
  { intros a Ha. destruct (Hval a Ha) as (va & Hva). destruct (face_column_spec vmap groups a va Hva); eauto. }
  rewrite Hcols; cbn [bind].
  destruct (match_core_spec (map sort_Z cols)) as (pairs & Hok & Hnd & Hsp).
  exists pairs. split; auto. split; auto.
  assert (Hcol : forall i a, nth_error fids i = Some a -> exists va, face_verts groups a va /\
            length va <= maxfv groups /\
            nth_error (map sort_Z cols) i = Some (sort_Z (map vmap va ++ repeat (-1)%Z (maxfv groups - length va)))).
  { intros i a Hi. destruct (Hval a) as (va & Hva); [eapply nth_error_In; eauto|].
    destruct (face_column_spec vmap groups a va Hva) as (H1 & H2).
    destruct (mapM_nth _ _ _ _ _ Hcols Hi) as (c & Hc & Hc'). exists va. repeat split; auto.
    rewrite nth_error_map, Hc. cbn. congruence. }
  assert (Hidx : forall i k, nth_error (map sort_Z cols) i = Some k -> exists a, nth_error fids i = Some a).
  { intros i k H. rewrite nth_error_map in H. destruct (nth_error cols i) as [c|] eqn:Ec; [|discriminate].
    destruct (mapM_nth_r _ _ _ _ _ Hcols Ec) as (a & Ha & _). eauto. }
  assert (Heq : forall va vb, length va <= maxfv groups -> length vb <= maxfv groups ->
     (sort_Z (map vmap va ++ repeat (-1)%Z (maxfv groups - length va)) =
      sort_Z (map vmap vb ++ repeat (-1)%Z (maxfv groups - length vb)) <->
      Permutation (map vmap va) (map vmap vb))).
  { intros va vb H1 H2. rewrite sort_Z_eq_iff. apply padded_perm with (n := maxfv groups).
    - intros x Hx. apply in_map_iff in Hx as (v & <- & _). auto.
    - intros x Hx. apply in_map_iff in Hx as (v & <- & _). auto.
    - rewrite map_length. lia.
    - rewrite map_length. lia. }
  intros i j. rewrite Hsp. split.
  - intros (k & H1 & H2 & H3 & H4). split; auto.
    destruct (Hidx _ _ H1) as (a & Ha). destruct (Hidx _ _ H2) as (b & Hb).
    destruct (Hcol _ _ Ha) as (va & Fa & La & Ka). destruct (Hcol _ _ Hb) as (vb & Fb & Lb & Kb).
    exists a, b. split; auto. split; auto. split.
    + exists va, vb. split; auto. split; auto. apply Heq; auto. congruence.
    + intros m c Hm Hc (va' & vc & Fa' & Fc & HP). assert (va' = va) by (eapply face_verts_fun; eauto). subst va'.
      destruct (Hcol _ _ Hc) as (vc' & Fc' & Lc & Kc). assert (vc' = vc) by (eapply face_verts_fun; eauto). subst vc'.
      apply (H4 m Hm). rewrite Kc. rewrite <- H1, Ka. f_equal. symmetry. apply Heq; auto.
  - intros (H3 & a & b & Ha & Hb & (va & vb & Fa & Fb & HP) & H4).
    destruct (Hcol _ _ Ha) as (va' & Fa' & La & Ka). assert (va' = va) by (eapply face_verts_fun; eauto). subst va'.
    destruct (Hcol _ _ Hb) as (vb' & Fb' & Lb & Kb). assert (vb' = vb) by (eapply face_verts_fun; eauto). subst vb'.
    eexists. split; [exact Ka|]. split; [rewrite Kb; f_equal; symmetry; apply Heq; auto|]. split; auto.
    intros m Hm Hk. destruct (Hidx _ _ Hk) as (c & Hc).
    destruct (Hcol _ _ Hc) as (vc & Fc & Lc & Kc). apply (H4 m c Hm Hc).
    exists va, vc. split; auto. split; auto. apply Heq; auto. congruence.
Qed.

Lemma same_mapped_of_nat {E} (groups : list (egroup E)) a b :
  same_mapped Z.of_nat groups a b <-> same_verts groups a b.
Proof.
  split; intros (va & vb & H1 & H2 & H3); exists va, vb; repeat split; auto.
  - apply (Permutation_map Z.to_nat) in H3. rewrite !map_map in H3.
    rewrite !(map_ext (fun x => Z.to_nat (Z.of_nat x)) (fun x => x)), !map_id in H3; auto; apply Nat2Z.id.
  - now apply Permutation_map.
Qed.

(** ** All faces of the mesh *)
Lemma In_all_face_ids {E} (groups : list (egroup E)) a : In a (all_face_ids groups) <-> valid_face groups a.
Proof.
  destruct a as ((g, e), f). unfold all_face_ids. rewrite in_concat. split.
  - intros (l & Hl & Hin). apply in_map_iff in Hl as ((i, grp) & <- & Hig). apply In_enumerate in Hig.
    unfold group_face_ids in Hin. apply in_map_iff in Hin as ((f', e') & E' & Hin). cbn in E'. inversion E'; subst.
    apply In_grid in Hin. exists grp. tauto.
  - intros (grp & Hg & He & Hf). exists (group_face_ids g grp). split.
    + apply in_map_iff. exists (g, grp). split; auto. now apply In_enumerate.
    + unfold group_face_ids. apply in_map_iff. exists (f, e). split; auto. apply In_grid. auto.
Qed.

Lemma NoDup_all_face_ids {E} (groups : list (egroup E)) : NoDup (all_face_ids groups).
Proof.
  unfold all_face_ids. rewrite <- flat_map_concat_map. apply NoDup_flat_map.
  - apply NoDup_enumerate.
  - intros (i, g) _. unfold group_face_ids. apply NoDup_map_inj; [|apply NoDup_grid].
    intros (a,b) (c,d) _ _ H. cbn in H. congruence.
  - intros (i, g) (j, h) z Hi Hj Hz1 Hz2. unfold group_face_ids in *.
    apply in_map_iff in Hz1 as (p & <- & _). apply in_map_iff in Hz2 as (q & E' & _). cbn in E'.
    inversion E'; subst. apply In_enumerate in Hi. apply In_enumerate in Hj. congruence.
Qed.

Lemma same_verts_sym {E} (groups : list (egroup E)) a b : same_verts groups a b -> same_verts groups b a.
Proof. intros (va & vb & H1 & H2 & H3). exists vb, va. repeat split; auto. now symmetry. Qed.

Lemma same_verts_trans {E} (groups : list (egroup E)) a b c :
  same_verts groups a b -> same_verts groups b c -> same_verts groups a c.
Proof.
  intros (va & vb & H1 & H2 & H3) (vb' & vc & H4 & H5 & H6).
  assert (vb' = vb) by (eapply face_verts_fun; eauto). subst. exists va, vc. repeat split; auto. etransitivity; eauto.
Qed.

Lemma partner_sym {E} (groups : list (egroup E)) a b : partner groups a b -> partner groups b a.
Proof. intros (H1 & H2 & H3 & H4). repeat split; auto. now apply same_verts_sym. Qed.

Definition idpairs_of {E} (groups : list (egroup E)) (pairs : list (nat * nat)) : res (list (faceid * faceid)) :=
  mapM (fun ij => a <- get (all_face_ids groups) (fst ij) ;; b <- get (all_face_ids groups) (snd ij) ;; Ok (a, b))
       (isort pair_leb (pairs ++ map swap2 pairs)).

Lemma idpairs_spec {E} (groups : list (egroup E)) :
  has_rows groups -> faces_wf groups -> (exists g, In g groups /\ eg_fvi g <> []) -> at_most_two groups ->
  exists pairs idp, match_faces Z.of_nat groups (all_face_ids groups) = Ok pairs /\
    idpairs_of groups pairs = Ok idp /\ NoDup idp /\
    forall a b, In (a, b) idp <-> partner groups a b.
Proof.
  intros HW HF Hne H2.
  destruct (match_faces_spec Z.of_nat groups (all_face_ids groups)) as (pairs & Hok & Hnd & Hsp); auto.
  { lia. }
  { intros a Ha. apply In_all_face_ids in Ha. now apply valid_face_verts. }
  assert (Hlt : forall i j, In (i, j) pairs -> i < j) by (intros i j Hin; apply Hsp in Hin; tauto).
  assert (Hrange : forall ij, In ij (isort pair_leb (pairs ++ map swap2 pairs)) ->
    exists a b, nth_error (all_face_ids groups) (fst ij) = Some a /\ nth_error (all_face_ids groups) (snd ij) = Some b).
  { intros (i, j) Hin. apply (Permutation_in _ (isort_perm _ _)) in Hin.
    apply in_app_or in Hin as [Hin|Hin]; [|rewrite In_map_swap2 in Hin];
      apply Hsp in Hin as (_ & a & b & Ha & Hb & _); cbn; eauto. }
  unfold idpairs_of.
  destruct (mapM_total (fun ij : nat * nat => a <- get (all_face_ids groups) (fst ij) ;;
              b <- get (all_face_ids groups) (snd ij) ;; Ok (a, b))
              (isort pair_leb (pairs ++ map swap2 pairs))) as (idp & Hidp).
  { intros ij Hin. destruct (Hrange ij Hin) as (a & b & Ha & Hb). unfold get. rewrite Ha, Hb. cbn. eauto. }
  exists pairs, idp. split; auto. split; auto.
  apply mapM_ok in Hidp.
  assert (Hidp' : Forall2 (fun ij ab => nth_error (all_face_ids groups) (fst ij) = Some (fst ab) /\
                                        nth_error (all_face_ids groups) (snd ij) = Some (snd ab))
                          (isort pair_leb (pairs ++ map swap2 pairs)) idp).
  { eapply Forall2_impl; [|exact Hidp]. intros (i, j) ab H. cbn [fst snd] in *.
    apply bind_ok in H as (a & Ha & H). apply bind_ok in H as (b & Hb & H). inversion H; subst.
    split; apply get_ok; auto. }
  pose proof (NoDup_all_face_ids groups) as HNF.
  split.
  - assert (HNB : NoDup (isort pair_leb (pairs ++ map swap2 pairs))).
    { eapply Permutation_NoDup; [symmetry; apply isort_perm|]. apply NoDup_app; auto.
      - now apply NoDup_map_swap2.
      - intros (i, j) Hi Hj. rewrite In_map_swap2 in Hj. apply Hlt in Hi. apply Hlt in Hj. lia. }
    clear Hidp. revert HNB Hidp'. generalize (isort pair_leb (pairs ++ map swap2 pairs)). intros l HN HF2.
    induction HF2 as [|ij ab l idp' Hx HF2 IH]; [constructor|]. inversion HN as [|? ? Hni HN']; subst.
    constructor; auto. intros Hin. destruct (Forall2_In_r _ _ _ _ HF2 Hin) as (ij' & Hij' & (E1 & E2)).
    destruct Hx as (E3 & E4). assert (ij = ij'); [|congruence].
    destruct ij as (i, j), ij' as (i', j'). cbn in *. f_equal;
      (eapply (proj1 (NoDup_nth_error _) HNF); [apply nth_error_Some; congruence|congruence]).
  - intros a b. split.
    + intros Hin. destruct (Forall2_In_r _ _ _ _ Hidp' Hin) as ((i, j) & Hij & (E1 & E2)). cbn in E1, E2.
      assert (Va : valid_face groups a) by (apply In_all_face_ids; eapply nth_error_In; eauto).
      assert (Vb : valid_face groups b) by (apply In_all_face_ids; eapply nth_error_In; eauto).
      apply (Permutation_in _ (isort_perm _ _)) in Hij.
      apply in_app_or in Hij as [Hij|Hij]; [|rewrite In_map_swap2 in Hij];
        apply Hsp in Hij as (Hl & a' & b' & Ha & Hb & HS & _); apply same_mapped_of_nat in HS.
      * assert (a' = a) by congruence. assert (b' = b) by congruence. subst.
        repeat split; auto. intros ->. assert (i = j); [|lia].
        eapply (proj1 (NoDup_nth_error _) HNF); [apply nth_error_Some; congruence|congruence].
      * assert (a' = b) by congruence. assert (b' = a) by congruence. subst.
        repeat split; auto; [|now apply same_verts_sym]. intros ->. assert (i = j); [|lia].
        eapply (proj1 (NoDup_nth_error _) HNF); [apply nth_error_Some; congruence|congruence].
    + intros Hp. assert (Hp' := Hp). destruct Hp' as (Va & Vb & Hab & HS).
      apply In_all_face_ids in Va, Vb. apply In_nth_error in Va as (i & Hi). apply In_nth_error in Vb as (j & Hj).
      assert (G : forall i j a b, nth_error (all_face_ids groups) i = Some a ->
                    nth_error (all_face_ids groups) j = Some b -> partner groups a b -> i < j -> In (i, j) pairs).
      { clear - Hsp H2 HNF. intros i j a b Hi Hj Hp Hl. apply Hsp. split; auto. exists a, b.
        split; auto. split; auto. destruct Hp as (Va & Vb & Hab & HS).
        split; [now apply same_mapped_of_nat|]. intros k c Hk Hc HS'. apply same_mapped_of_nat in HS'.
        assert (b = c).
        { apply (H2 a b c); repeat split; auto.
          - apply In_all_face_ids. eapply nth_error_In; eauto.
          - intros ->. assert (i = k); [|lia].
            eapply (proj1 (NoDup_nth_error _) HNF); [apply nth_error_Some; congruence|congruence]. }
        subst. assert (k = j); [|lia].
        eapply (proj1 (NoDup_nth_error _) HNF); [apply nth_error_Some; congruence|congruence]. }
      assert (Hij : In (i, j) (isort pair_leb (pairs ++ map swap2 pairs))).
      { apply (Permutation_in _ (Permutation_sym (isort_perm _ _))). apply in_or_app.
        destruct (Nat.lt_trichotomy i j) as [L|[L|L]].
        - left. eapply G; eauto.
        - subst. congruence.
        - right. apply In_map_swap2. eapply G; eauto. now apply partner_sym. }
      destruct (Forall2_In_l _ _ _ _ Hidp' Hij) as ((a', b') & Hin & (E1 & E2)). cbn in E1, E2. congruence.
Qed.
