(** * remove_unused_vertices: lemmas *)
From Coq Require Import List Arith Bool ZArith Lia Permutation Sorting.Sorted.
From Verif Require Import Np NpFacts MeshModel MeshSpec MeshProofs MeshStateModel Lin ProcModel ProcSpec MergeProofs SplitProofs.
Import ListNotations.

Lemma where_cons b m : where_ (b :: m) = (if b then [0] else []) ++ map S (where_ m).
Proof.
  unfold where_, enumerate.
  assert (G : forall m n, map fst (filter snd (enumerate_from (S n) m)) = map S (map fst (filter snd (enumerate_from n m)))).
  { clear. induction m as [|b m IH]; intros n; [reflexivity|]. rewrite !enumerate_from_cons. cbn [filter snd].
    destruct b; cbn [map fst]; rewrite IH; reflexivity. }
  rewrite enumerate_from_cons. cbn [filter snd]. destruct b; cbn [map fst app]; rewrite G; reflexivity.
Qed.

Lemma renumber_spec flags : forall b v, nth_error flags v = Some true ->
  exists r, nth_error (renumber b flags) v = Some (b + Z.of_nat r)%Z /\ nth_error (where_ flags) r = Some v.
Proof.
  induction flags as [|f flags IH]; intros b [|v] H; cbn [nth_error] in H; try discriminate.
  - injection H as ->. exists 0. rewrite where_cons. cbn. split; [f_equal; lia|reflexivity].
  - rewrite where_cons. destruct f; cbn [renumber nth_error].
    + destruct (IH (b + 1)%Z v H) as (r & H1 & H2). exists (S r). split; [rewrite H1; f_equal; lia|].
      cbn [app nth_error]. rewrite nth_error_map, H2. reflexivity.
    + destruct (IH b v H) as (r & H1 & H2). exists r. split; [exact H1|]. cbn [app]. rewrite nth_error_map, H2. reflexivity.
Qed.

Lemma elem_row_iff {E} (groups : list (egroup E)) row : has_rows groups ->
  ((exists e, elem_row groups e row) <-> exists grp vi, In grp groups /\ eg_vi grp = Some vi /\ In row vi).
Proof.
  intros HR. unfold has_rows in HR. rewrite Forall_forall in HR. split.
  - intros (e & g & i & (grp & vi & Hg & Hvi & Hi & Hrow) & _). exists grp, vi. split; [eapply nth_error_In; eauto|].
    split; auto. eapply nth_error_In; eauto.
  - intros (grp & vi & Hin & Hvi & Hrow). destruct (HR _ Hin) as (vi' & Hvi' & Hl). assert (vi' = vi) by congruence. subst.
    apply In_nth_error in Hin as (g & Hg). apply In_nth_error in Hrow as (i & Hi).
    exists (base (map nelements groups) g + i), g, i. split; auto. exists grp, vi. repeat split; auto.
    rewrite <- Hl. apply nth_error_Some. congruence.
Qed.

Section Unused.
  Context {E A V : Type}.

  Lemma remove_unused_spec (m : mesh E A V) vs :
    m_vertices m = Some vs -> m_groups m <> [] -> has_rows (m_groups m) -> rows_in_range (length vs) (m_groups m) ->
    exists m' old, remove_unused_vertices m = Ok m' /\ without_unused m m' old.
  Proof.
    intros Hvs Hne HR Hrange. unfold remove_unused_vertices. rewrite Hvs.
    assert (Hvis : exists vis, Forall2 (fun g vi => eg_vi g = Some vi) (m_groups m) vis).
    { clear -HR. unfold has_rows in HR. induction HR as [|g gs (vi & Hvi & _) _ (vis & IH)]; [exists []; constructor|].
      exists (vi :: vis). constructor; auto. }
    destruct Hvis as (vis & HF).
    assert (Hm : mapM (fun g => match eg_vi g with Some vi => Ok vi | None => Err ValueError end) (m_groups m) = Ok vis).
    { apply mapM_ok. eapply Forall2_impl; [|exact HF]. cbn. intros g vi ->. reflexivity. }
    rewrite Hm. cbn [bind].
    assert (Hvl : length vis = length (m_groups m)) by (symmetry; eapply Forall2_length'; eauto).
    destruct (Nat.eqb_spec (length vis) 0) as [H0|H0].
    { exfalso. destruct (m_groups m) as [|g gs]; [congruence|]. cbn in Hvl. lia. }
    cbn [negb guard bind]. cbv zeta.
    set (all := concat (map (@concat nat) vis)).
    assert (Hall : forall v, In v all <-> exists e row, elem_row (m_groups m) e row /\ In v row).
    { intros v. unfold all. rewrite in_concat. split.
      - intros (l & Hl & Hv). apply in_map_iff in Hl as (vi & <- & Hvi). apply in_concat in Hv as (row & Hrow & Hv).
        destruct (Forall2_In_r _ _ _ _ HF Hvi) as (g & Hg & Hgvi).
        destruct (proj2 (elem_row_iff (m_groups m) row HR)) as (e & He); [exists g, vi; auto|]. eauto.
      - intros (e & row & He & Hv). destruct (proj1 (elem_row_iff (m_groups m) row HR)) as (g & vi & Hg & Hvi & Hrow); [eauto|].
        destruct (Forall2_In_l _ _ _ _ HF Hg) as (vi' & Hvi' & Heq). assert (vi' = vi) by congruence. subst.
        exists (concat vi). split; [apply in_map; auto|]. apply in_concat. eauto. }
    assert (Hlt : forall v, In v all -> v < length vs).
    { intros v Hv. apply Hall in Hv as (e & row & He & Hv). eapply Hrange; eauto. }
    assert (Hsc : exists flags, scatter (repeat false (length vs)) (map (fun v => (v, true)) (unique all)) = Ok flags).
    { apply scatter_ok_range. apply Forall_forall. intros (i, b) Hin. apply in_map_iff in Hin as (v & Heq & Hv). injection Heq as <- <-. cbn [fst].
      rewrite repeat_length. apply Hlt. now apply unique_In. }
    destruct Hsc as (flags & Hsc). rewrite Hsc. cbn [bind].
    assert (Hfl : length flags = length vs) by (rewrite (scatter_length _ _ _ Hsc); apply repeat_length).
    assert (Hflag : forall v, nth_error flags v = Some true <-> In v all).
    { intros v. rewrite <- unique_In. split.
      - intros H. destruct (in_dec Nat.eq_dec v (unique all)) as [Hi|Hn]; [auto|exfalso].
        rewrite (scatter_notin _ _ _ v Hsc) in H.
        + apply nth_error_repeat_some in H. discriminate.
        + rewrite map_map. cbn [fst]. rewrite map_id. exact Hn.
      - intros H. apply (scatter_in _ _ _ v true Hsc).
        + rewrite map_map. cbn [fst]. rewrite map_id. apply incr_NoDup, unique_incr.
        + apply in_map_iff. eauto. }
    set (old := where_ flags).
    assert (Hrow : forall row, (forall v, In v row -> In v all) ->
              exists row', renumber_row (renumber 0 flags) row = Ok row' /\ Forall2 (fun v v' => nth_error old v' = Some v) row row').
    { intros row H. unfold renumber_row. induction row as [|v row IH]; [exists []; split; [reflexivity|constructor]|].
      destruct IH as (row' & IH1 & IH2); [intros; apply H; now right|].
      destruct (renumber_spec flags 0 v) as (r & Hr1 & Hr2). { apply Hflag, H. now left. }
      exists (r :: row'). cbn [mapM]. unfold get. rewrite Hr1. cbn [bind].
      assert (Hneg : (0 + Z.of_nat r <? 0)%Z = false) by (apply Z.ltb_ge; lia). rewrite Hneg.
      unfold get in IH1. rewrite IH1. cbn [bind]. replace (Z.to_nat (0 + Z.of_nat r)) with r by lia.
      split; [reflexivity|]. constructor; auto. }
    assert (Hgs : exists gs', mapM (fun gvi : egroup E * list (list nat) =>
                          vi <- mapM (renumber_row (renumber 0 flags)) (snd gvi) ;;
                          Ok (mk_egroup (Some vi) (eg_nodes (fst gvi)) (eg_fvi (fst gvi))))
                       (combine (m_groups m) vis) = Ok gs' /\
              Forall2 (fun g g' => eg_nodes g' = eg_nodes g /\ eg_fvi g' = eg_fvi g /\
                exists vi vi', eg_vi g = Some vi /\ eg_vi g' = Some vi' /\
                Forall2 (Forall2 (fun v v' => nth_error old v' = Some v)) vi vi') (m_groups m) gs').
    { assert (Hin : forall vi row v, In vi vis -> In row vi -> In v row -> In v all).
      { intros vi row v H1 H2 H3. unfold all. apply in_concat. exists (concat vi). split; [apply in_map; auto|].
        apply in_concat. eauto. }
      clearbody all old. revert HF Hin. clear -Hrow. generalize (m_groups m) as gs. intros gs HF.
      induction HF as [|g vi gs vis Hvi HF IH]; intros Hin; [exists []; split; [reflexivity|constructor]|].
      destruct IH as (gs' & IH1 & IH2). { intros vi' row v H1 H2 H3. eapply Hin; eauto. now right. }
      assert (Hv : exists vi', mapM (renumber_row (renumber 0 flags)) vi = Ok vi' /\
                     Forall2 (Forall2 (fun v v' => nth_error old v' = Some v)) vi vi').
      { assert (Hr : forall row, In row vi -> forall v, In v row -> In v all). { intros row H1 v H2. eapply Hin; eauto. now left. }
        clear -Hr Hrow. induction vi as [|row vi IH]; [exists []; split; [reflexivity|constructor]|].
        destruct IH as (vi' & I1 & I2). { intros r H1. apply Hr. now right. }
        destruct (Hrow row) as (row' & R1 & R2). { apply Hr. now left. }
        exists (row' :: vi'). cbn [mapM]. rewrite R1. cbn [bind]. rewrite I1. split; [reflexivity|constructor; auto]. }
      destruct Hv as (vi' & V1 & V2). eexists. cbn [combine mapM fst snd]. rewrite V1. cbn [bind]. rewrite IH1. split; [reflexivity|].
      constructor; auto. cbn [eg_nodes eg_fvi eg_vi]. repeat split; auto. exists vi, vi'. auto. }
    destruct Hgs as (gs' & Hgs & HF2). rewrite Hgs. cbn [bind].
    eexists. exists old. split; [reflexivity|]. unfold copy_with. split; cbn [m_groups m_vertices m_conforming m_nodal m_facial].
    - apply where_incr.
    - intros v. unfold old. rewrite In_where_, Hflag, Hall. reflexivity.
    - exists vs. eexists. split; [exact Hvs|]. split; [reflexivity|]. unfold old. apply compress_where. exact Hfl.
    - exact HF2.
    - auto.
  Qed.

  Lemma remove_unused_error (m : mesh E A V) :
    m_vertices m = None \/ m_groups m = [] \/ (exists g, In g (m_groups m) /\ eg_vi g = None) ->
    remove_unused_vertices m = Err ValueError.
  Proof.
    intros H. unfold remove_unused_vertices. destruct (m_vertices m) as [vs|]; [|reflexivity].
    destruct H as [H|[H|(g & Hg & Hvi)]]; [discriminate|rewrite H; reflexivity|].
    assert (Hm : mapM (fun g => match eg_vi g with Some vi => Ok vi | None => Err ValueError end) (m_groups m) = Err ValueError).
    { induction (m_groups m) as [|g' gs IH]; [contradiction|]. cbn [mapM]. destruct Hg as [->|Hg].
      - rewrite Hvi. reflexivity.
      - destruct (eg_vi g'); [|reflexivity]. cbn [bind]. rewrite (IH Hg). reflexivity. }
    rewrite Hm. reflexivity.
  Qed.
End Unused.
