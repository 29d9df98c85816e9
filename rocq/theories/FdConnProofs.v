(** * FdConnProofs: permutations, flip matrices. *)
From Coq Require Import List Arith Bool Lia Permutation Sorted ZArith.
From Verif Require Import Np NpFacts MeshModel MeshSpec MeshProofs Lin ProcModel OppMainProofs DistGraphProofs ConsistModel ConsistProofs FdSpec FdConnModel FdConnSpec.
Import ListNotations.

(** ** argsort *)
Lemma argsort_perm l : Permutation (argsort l) (seq 0 (length l)).
Proof.
  change (argsort l) with (map fst (spairs l)). apply (Permutation_trans (Permutation_map fst (isort_perm _ _))). unfold enumerate, enumerate_from.
  generalize 0. induction l as [|x l IH]; intros n; cbn [length seq combine map fst]; [reflexivity|]. constructor. apply IH.
Qed.
Lemma argsort_length l : length (argsort l) = length l.
Proof. rewrite (Permutation_length (argsort_perm l)). apply seq_length. Qed.
Lemma spairs_perm l : Permutation (map snd (spairs l)) l.
Proof.
  apply (Permutation_trans (Permutation_map snd (isort_perm _ _))). unfold enumerate, enumerate_from.
  generalize 0. induction l as [|x l IH]; intros n; cbn [length seq combine map snd]; [reflexivity|]. constructor. apply IH.
Qed.
Lemma argsort_sorted l : exists s, take l (argsort l) = Ok s /\ StronglySorted le s /\ Permutation s l.
Proof. exists (map snd (spairs l)). split; [apply argsort_take|]. split; [apply spairs_sorted|apply spairs_perm]. Qed.

Lemma sorted_perm_eq l l' : StronglySorted le l -> StronglySorted le l' -> Permutation l l' -> l = l'.
Proof. intros. now apply StronglySorted_perm_eq. Qed.

Lemma seq_sorted a n : StronglySorted le (seq a n).
Proof. revert a. induction n as [|n IH]; intros a; cbn [seq]; constructor; auto. apply Forall_forall. intros x Hx. apply in_seq in Hx. lia. Qed.

(** argsort of a permutation is its inverse *)
Lemma argsort_inverse n B i c : Permutation B (seq 0 n) -> nth_error (argsort B) i = Some c -> nth_error B c = Some i.
Proof.
  intros HB Hi. destruct (argsort_sorted B) as (s & Hs & Hss & Hp). assert (s = seq 0 n).
  { apply sorted_perm_eq; [exact Hss|apply seq_sorted|]. now rewrite Hp. }
  subst s. apply take_ok in Hs. destruct (Forall2_nth_error _ _ _ _ _ Hs Hi) as (y & Hy & Hn).
  assert (Hlt : i < n) by (rewrite <- (seq_length n 0); apply nth_error_Some; congruence).
  rewrite (nth_error_nth' _ 0) in Hy by (rewrite seq_length; exact Hlt). rewrite seq_nth in Hy by exact Hlt. injection Hy as <-. exact Hn.
Qed.
Lemma argsort_inverse' n B i c : Permutation B (seq 0 n) -> nth_error B i = Some c -> nth_error (argsort B) c = Some i.
Proof.
  intros HB Hi. assert (Hc : c < n). { assert (In c B) by (eapply nth_error_In; eauto). apply (Permutation_in _ HB), in_seq in H. lia. }
  assert (Hl : length B = n) by (rewrite (Permutation_length HB); apply seq_length).
  destruct (nth_error (argsort B) c) as [i'|] eqn:E; [|apply nth_error_None in E; rewrite argsort_length in E; lia].
  pose proof (argsort_inverse n B c i' HB E) as H. f_equal. assert (Hnd : NoDup B) by (eapply Permutation_NoDup; [symmetry; exact HB|apply seq_NoDup]).
  rewrite NoDup_nth_error in Hnd. apply Hnd; [apply nth_error_Some; congruence|congruence].
Qed.

(** ** The permutation of a cell *)
Lemma export_perm_ok old mm' mm fd : NoDup mm -> StronglySorted lt old -> stands_for old mm' mm -> Permutation fd mm' ->
  exists perm, export_perm mm fd = Ok perm /\ Permutation perm (seq 0 (length mm)) /\
    forall i v, nth_error fd i = Some v <-> exists k, nth_error perm i = Some k /\ nth_error mm' k = Some v.
Proof.
  intros Hnd Hold Hst Hp.
  assert (Hlm : length mm' = length mm) by exact (Forall2_length' _ _ _ Hst).
  assert (Hlf : length fd = length mm) by (rewrite (Permutation_length Hp); exact Hlm).
  set (A := argsort mm). set (B := argsort fd). set (C := argsort B).
  assert (HB : Permutation B (seq 0 (length mm))) by (unfold B; rewrite <- Hlf; apply argsort_perm).
  assert (HC : Permutation C (seq 0 (length mm))). { unfold C. rewrite <- (seq_length (length mm) 0), <- (Permutation_length HB). apply argsort_perm. }
  assert (HA : Permutation A (seq 0 (length mm))) by apply argsort_perm.
  assert (Hinc : forall i j u v, nth_error old i = Some u -> nth_error old j = Some v -> (u <= v)%nat -> (i <= j)%nat).
  { intros i j u v Hi Hj Huv. destruct (Nat.le_gt_cases i j) as [|Hlt]; [assumption|exfalso].
    assert (v < u); [|lia]. clear - Hold Hi Hj Hlt. revert i j Hi Hj Hlt. induction Hold as [|x l H IH HF]; intros i j Hi Hj Hlt; [destruct i; discriminate|].
    destruct i as [|i]; [lia|]. cbn [nth_error] in Hi. destruct j as [|j]; cbn [nth_error] in Hj.
    - injection Hj as ->. rewrite Forall_forall in HF. apply HF. eapply nth_error_In; eauto.
    - apply (IH i j); auto. lia. }
  (* both sorted sequences agree *)
  destruct (argsort_sorted mm) as (s & Hs & Hss & Hsp). destruct (argsort_sorted fd) as (t & Ht & Hts & Htp).
  fold A in Hs. fold B in Ht. apply take_ok in Hs, Ht.
  assert (HAB : forall k a, nth_error A k = Some a -> exists b v, nth_error B k = Some b /\ nth_error mm' a = Some v /\ nth_error fd b = Some v).
  { destruct (take_total mm' A) as (s' & Hs'). { apply Forall_forall. intros x Hx. apply (Permutation_in _ HA), in_seq in Hx. lia. }
    apply take_ok in Hs'. assert (Hst' : stands_for old s' s).
    { apply Forall2_intro_nth; [rewrite <- (Forall2_length' _ _ _ Hs'), <- (Forall2_length' _ _ _ Hs); reflexivity|].
      intros i x y Hx Hy. destruct (Forall2_nth_error_r _ _ _ _ _ Hs' Hx) as (a & Ha & Hxa). destruct (Forall2_nth_error _ _ _ _ _ Hs Ha) as (y' & Hy' & Hya).
      assert (y' = y) by congruence. subst y'. destruct (Forall2_nth_error _ _ _ _ _ Hst Hxa) as (y' & Hy2 & Hyo). congruence. }
    assert (Hs's : StronglySorted le s').
    { clear - Hst' Hss Hinc. induction Hst' as [|x y s' s Hxy H IH]; [constructor|]. inversion Hss as [|? ? Hss' HF]; subst. constructor; [auto|].
      rewrite Forall_forall in HF |- *. intros z Hz. destruct (Forall2_In_l _ _ _ _ H Hz) as (w & Hw & Hzw). eapply Hinc; eauto. }
    assert (Hs'p : Permutation s' mm').
    { refine (take_perm _ _ _ _ (proj2 (take_ok _ _ _) Hs')); rewrite Hlm; exact HA. }
    assert (E : s' = t). { apply sorted_perm_eq; auto. rewrite Hs'p, Htp. now symmetry. }
    subst t. intros k a Ha. destruct (Forall2_nth_error _ _ _ _ _ Hs' Ha) as (v & Hv & Hva).
    destruct (Forall2_nth_error_r _ _ _ _ _ Ht Hv) as (b & Hb & Hbv). exists b, v. auto. }
  destruct (take_total A C) as (perm & Hperm).
  { apply Forall_forall. intros x Hx. apply (Permutation_in _ HC), in_seq in Hx. unfold A. rewrite argsort_length. lia. }
  exists perm. assert (HpA : Permutation perm A). { refine (take_perm _ _ _ _ Hperm). unfold A. now rewrite argsort_length. }
  split; [exact Hperm|]. split; [now rewrite HpA|]. apply take_ok in Hperm.
  intros i v. split.
  - intros Hi. assert (Hlt : i < length mm) by (rewrite <- Hlf; apply nth_error_Some; congruence).
    destruct (nth_error C i) as [c|] eqn:Ec. 2:{ apply nth_error_None in Ec. rewrite (Permutation_length HC), seq_length in Ec. lia. }
    destruct (Forall2_nth_error _ _ _ _ _ Hperm Ec) as (k & Hk & HkA). exists k. split; [exact Hk|].
    destruct (HAB _ _ HkA) as (b & w & Hb & Hw & Hbw). pose proof (argsort_inverse _ _ _ _ HB Ec). congruence.
  - intros (k & Hk & Hv). destruct (Forall2_nth_error_r _ _ _ _ _ Hperm Hk) as (c & Hc & HcA).
    destruct (HAB _ _ HcA) as (b & w & Hb & Hw & Hbw). pose proof (argsort_inverse _ _ _ _ HB Hc). congruence.
Qed.

(** ** Rearrangement of coordinates *)

(** [perm] says where the entries of [row] are in [row']. *)
Definition related (perm row row' : list nat) : Prop :=
  forall i v, nth_error row i = Some v <-> exists k, nth_error perm i = Some k /\ nth_error row' k = Some v.

Lemma perm_lookup n perm k : Permutation perm (seq 0 n) -> k < n -> exists i, nth_error perm i = Some k.
Proof.
  intros Hp Hk. assert (In k perm) by (apply (Permutation_in _ (Permutation_sym Hp)), in_seq; lia).
  now apply In_nth_error in H.
Qed.
Lemma perm_range n perm i k : Permutation perm (seq 0 n) -> nth_error perm i = Some k -> i < n /\ k < n.
Proof.
  intros Hp Hi. split.
  - rewrite <- (seq_length n 0), <- (Permutation_length Hp). apply nth_error_Some. congruence.
  - apply nth_error_In, (Permutation_in _ Hp), in_seq in Hi. lia.
Qed.

Lemma related_inverse perm row row' n : Permutation perm (seq 0 n) -> length row' = n -> related perm row row' -> related (argsort perm) row' row.
Proof.
  intros Hp Hl H i v. split.
  - intros Hi. assert (Hlt : i < n) by (rewrite <- Hl; apply nth_error_Some; congruence).
    destruct (perm_lookup _ _ _ Hp Hlt) as (c & Hc). exists c. split; [now apply (argsort_inverse' n)|]. apply H. eauto.
  - intros (c & Hc & Hv). apply H in Hv as (k & Hk & Hv). pose proof (argsort_inverse n _ _ _ Hp Hc). congruence.
Qed.

Lemma related_old old perm row row' orow orow' : stands_for old row orow -> stands_for old row' orow' -> related perm row row' -> related perm orow orow'.
Proof.
  intros H1 H2 H i u. split.
  - intros Hi. destruct (Forall2_nth_error_r _ _ _ _ _ H1 Hi) as (v & Hv & Hvu). apply H in Hv as (k & Hk & Hv).
    destruct (Forall2_nth_error _ _ _ _ _ H2 Hv) as (u' & Hu & Hvu'). exists k. split; [exact Hk|]. congruence.
  - intros (k & Hk & Hu). destruct (Forall2_nth_error_r _ _ _ _ _ H2 Hu) as (v & Hv & Hvu).
    assert (Hi : nth_error row i = Some v) by (apply H; eauto). destruct (Forall2_nth_error _ _ _ _ _ H1 Hi) as (u' & Hu' & Hvu'). congruence.
Qed.

Section Flips.
  Context {R : cring}.
  Add Ring Rring : (rth R).

  (** [q] has the coordinates of [p] at the positions given by [perm]. *)
  Definition moved (perm : list nat) (p q : list R) : Prop :=
    length q = length p /\ forall i k, nth_error perm i = Some k -> nth_error q k = nth_error p i.

  Lemma moved_same perm row row' p q : Permutation perm (seq 0 (length p)) -> related perm row row' -> moved perm p q -> same_place row p row' q.
  Proof.
    intros Hp Hr (Hl & Hm) v w. split.
    - intros (i & Hi & Hw). apply Hr in Hi as (k & Hk & Hv). exists k. split; [exact Hv|]. now rewrite (Hm _ _ Hk).
    - intros (k & Hk & Hw). assert (Hlt : k < length p) by (rewrite <- Hl; apply nth_error_Some; congruence).
      destruct (perm_lookup _ _ _ Hp Hlt) as (i & Hi). exists i. split; [apply Hr; eauto|]. now rewrite <- (Hm _ _ Hi).
  Qed.

  Lemma flip_bary_ok perm (p : list R) : Permutation perm (seq 0 (length p)) -> exists q, flip_bary R perm p = Ok q /\ moved perm p q /\ Permutation p q.
  Proof.
    intros Hp. unfold flip_bary. assert (Hl : length perm = length p) by (rewrite (Permutation_length Hp); apply seq_length).
    rewrite Hl, Nat.eqb_refl. cbn [guard bind].
    assert (Hfst : map fst (combine perm p) = perm). { clear Hp. revert p Hl. induction perm as [|a l IH]; intros [|b p] Hl; cbn in *; try lia; [reflexivity|]. f_equal. apply IH. lia. }
    destruct (proj2 (scatter_ok_range (combine perm p) p)) as (q & Hq).
    { apply Forall_forall. intros (i, v) Hin. cbn [fst]. apply in_combine_l, (Permutation_in _ Hp), in_seq in Hin. lia. }
    exists q. split; [exact Hq|]. assert (Hm : moved perm p q).
    { split; [now apply scatter_length in Hq|]. intros i k Hik. destruct (nth_error p i) as [w|] eqn:Ew.
      2:{ apply nth_error_None in Ew. assert (i < length perm) by (apply nth_error_Some; congruence). lia. }
      apply (scatter_in _ _ _ _ _ Hq).
      - rewrite Hfst. eapply Permutation_NoDup; [symmetry; exact Hp|apply seq_NoDup].
      - apply (nth_error_In _ i). apply SplitProofs.nth_error_combine_Some. auto. }
    split; [exact Hm|]. destruct Hm as (Hlq & Hm). refine (take_perm q p perm _ _); [now rewrite Hlq|].
    apply take_ok, Forall2_intro_nth; [exact Hl|]. intros i k w Hk Hw. now rewrite (Hm _ _ Hk).
  Qed.

  Variable resampling : list (list R) -> list (list R) -> list (list R).
  Variables (rint : R -> Z) (inj : Z -> R).
  Hypothesis Hround : rounds rint inj.

  (** [sigma]: the node at which node [k] ends up *)
  Definition node_perm (perm : list nat) (nodes : list (list R)) (sigma : list nat) : Prop :=
    Permutation sigma (seq 0 (length nodes)) /\
    forall k j, nth_error sigma k = Some j -> exists p q, nth_error nodes k = Some p /\ nth_error nodes j = Some q /\ moved perm p q.

  Lemma flip_matrix_ok d nodes perm : symmetric d nodes -> interpolates resampling nodes -> Permutation perm (seq 0 (d + 1)) ->
    exists sigma, flip_matrix R resampling nodes perm = Ok (map (unitv (R := R) (length nodes)) sigma) /\ node_perm perm nodes sigma.
  Proof using.
    intros (Hnd & Hlen & Hsym) Hint Hp. unfold flip_matrix.
    destruct (mapM_total (flip_bary R perm) nodes) as (fl & Hfl).
    { intros p Hin. destruct (flip_bary_ok perm p) as (q & Hq & _); [now rewrite (Hlen _ Hin)|]. eauto. }
    rewrite Hfl. cbn [bind]. apply mapM_ok in Hfl.
    assert (Hk : forall k p q, nth_error nodes k = Some p -> nth_error fl k = Some q -> moved perm p q /\ In q nodes).
    { intros k p q Hkp Hkq. destruct (Forall2_nth_error _ _ _ _ _ Hfl Hkp) as (q' & Hq' & E). assert (q' = q) by congruence. subst q'.
      assert (Hin : In p nodes) by (eapply nth_error_In; eauto).
      destruct (flip_bary_ok perm p) as (q' & E' & Hm & Hpq); [now rewrite (Hlen _ Hin)|]. assert (q' = q) by congruence. subst q'.
      split; [exact Hm|]. eapply Hsym; eauto. }
    assert (Hex : exists sigma, Forall2 (fun q j => nth_error nodes j = Some q) fl sigma).
    { assert (Hall : forall q, In q fl -> In q nodes).
      { intros q Hq. apply In_nth_error in Hq as (k & Hq). destruct (Forall2_nth_error_r _ _ _ _ _ Hfl Hq) as (p & Hkp & _). apply (Hk _ _ _ Hkp Hq). }
      clear - Hall. induction fl as [|q fl IH]; [exists []; constructor|]. destruct IH as (s & Hs); [intros; apply Hall; now right|].
      destruct (In_nth_error nodes q) as (j & Hj); [apply Hall; now left|]. exists (j :: s). now constructor. }
    destruct Hex as (sigma & Hsig). pose proof (Forall2_length' _ _ _ Hfl) as HL1. pose proof (Forall2_length' _ _ _ Hsig) as HL2.
    exists sigma. split.
    - f_equal. apply nth_error_ext'. intros k. destruct (Hint fl) as (Hlr & Hrow). rewrite nth_error_map.
      destruct (nth_error fl k) as [q|] eqn:Eq.
      + destruct (Forall2_nth_error _ _ _ _ _ Hsig Eq) as (j & Hj & Hjq). rewrite Hj. cbn [option_map]. now apply (Hrow k j q).
      + assert (length fl <= k) by now apply nth_error_None. rewrite (proj2 (nth_error_None (resampling fl nodes) k)) by (rewrite Hlr; lia).
        rewrite (proj2 (nth_error_None sigma k)) by lia. reflexivity.
    - split.
      + assert (Hnds : NoDup sigma).
        { rewrite NoDup_nth_error. intros k k' Hlt E. destruct (nth_error sigma k) as [j|] eqn:Ek; [|apply nth_error_None in Ek; lia]. symmetry in E.
          destruct (Forall2_nth_error_r _ _ _ _ _ Hsig Ek) as (q & Hq & Hjq). destruct (Forall2_nth_error_r _ _ _ _ _ Hsig E) as (q' & Hq' & Hjq').
          assert (q' = q) by congruence. subst q'.
          destruct (Forall2_nth_error_r _ _ _ _ _ Hfl Hq) as (p & Hp1 & _). destruct (Forall2_nth_error_r _ _ _ _ _ Hfl Hq') as (p' & Hp2 & _).
          destruct (Hk _ _ _ Hp1 Hq) as ((L1 & M1) & _). destruct (Hk _ _ _ Hp2 Hq') as ((L2 & M2) & _).
          assert (p = p').
          { apply nth_error_ext'. intros i. destruct (Nat.lt_ge_cases i (d + 1)) as [Hi|Hi].
            - destruct (nth_error perm i) as [m|] eqn:Em; [|apply nth_error_None in Em; rewrite (Permutation_length Hp), seq_length in Em; lia].
              now rewrite <- (M1 _ _ Em), <- (M2 _ _ Em).
            - rewrite !(proj2 (nth_error_None _ _)); [reflexivity| |]; rewrite (Hlen _ (nth_error_In _ _ Hp1)) || rewrite (Hlen _ (nth_error_In _ _ Hp2)); lia. }
          subst p'. rewrite NoDup_nth_error in Hnd. apply Hnd; [apply nth_error_Some; congruence|congruence]. }
        apply NoDup_Permutation_bis; [exact Hnds|rewrite seq_length; lia|].
        intros j Hj. apply in_seq. apply In_nth_error in Hj as (k & Hj). destruct (Forall2_nth_error_r _ _ _ _ _ Hsig Hj) as (q & _ & Hq).
        assert (j < length nodes) by (apply nth_error_Some; congruence). lia.
      + intros k j Hj. destruct (Forall2_nth_error_r _ _ _ _ _ Hsig Hj) as (q & Hq & Hjq). destruct (Forall2_nth_error_r _ _ _ _ _ Hfl Hq) as (p & Hp1 & _).
        exists p, q. split; [exact Hp1|]. split; [exact Hjq|]. apply (Hk _ _ _ Hp1 Hq).
  Qed.

  Lemma int_unitv n sigma : int_matrix R rint (map (unitv (R := R) n) sigma) = map (unitv (R := Zcring) n) sigma.
  Proof using Hround.
    destruct Hround as (H0 & H1 & _). unfold int_matrix. rewrite map_map. apply map_ext. intros j. unfold unitv. rewrite map_map. apply map_ext.
    intros i. destruct (j =? i); assumption.
  Qed.
  Lemma inj_unitv n sigma : map (map inj) (map (unitv (R := Zcring) n) sigma) = map (unitv (R := R) n) sigma.
  Proof using Hround.
    destruct Hround as (_ & _ & H0 & H1). rewrite map_map. apply map_ext. intros j. unfold unitv. rewrite map_map. apply map_ext.
    intros i. destruct (j =? i); assumption.
  Qed.
End Flips.

Lemma select_take {R : cring} n sigma (x : list R) : Forall (fun j => j < n) sigma -> length x = n ->
  take x sigma = Ok (matvec (map (unitv (R := R) n) sigma) x).
Proof.
  intros Hs Hx. unfold take, matvec. rewrite map_map. apply mapM_map_ok. intros j Hj. rewrite Forall_forall in Hs. specialize (Hs _ Hj).
  unfold unitv. rewrite (dot_unitv_from R n 0 j x Hx). cbn [Nat.leb]. rewrite Nat.sub_0_r.
  destruct (nth_error x j) as [y|] eqn:E; [|apply nth_error_None in E; lia]. now apply get_ok.
Qed.
Lemma apply_take n sigma row : Forall (fun j => j < n) sigma -> length row = n ->
  exists row', apply_nodes (map (unitv (R := Zcring) n) sigma) row = Ok row' /\ Forall2 (fun j x => nth_error row j = Some x) sigma row'.
Proof.
  intros Hs Hx. destruct (take_total row sigma) as (row' & Hr). { eapply Forall_impl; [|exact Hs]. cbn. intros; lia. }
  exists row'. split; [|now apply take_ok]. unfold apply_nodes.
  pose proof (select_take (R := Zcring) n sigma (map Z.of_nat row) Hs) as E. rewrite map_length in E. specialize (E Hx).
  assert (E' : take (map Z.of_nat row) sigma = Ok (map Z.of_nat row')).
  { apply take_ok in Hr. apply take_ok. clear - Hr. induction Hr; cbn [map]; constructor; auto. rewrite nth_error_map, H. reflexivity. }
  change (car Zcring) with Z in *. rewrite E' in E. injection E as E. rewrite <- E. clear. induction row' as [|a r IH]; [reflexivity|].
  cbn [map mapM]. destruct (Z.ltb_spec (Z.of_nat a) 0); [lia|]. cbn [bind]. rewrite IH. cbn [bind]. now rewrite Nat2Z.id.
Qed.
