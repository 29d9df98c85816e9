(** * Lemmas about _filter_mesh_groups *)
From Coq Require Import List Arith Bool ZArith Lia Sorting.Sorted.
From Verif Require Import Np NpFacts MeshModel MeshSpec MeshProofs PartModel PartSpec PartProofs.
Import ListNotations.

Lemma searchsorted_0 l : searchsorted l 0 = 0.
Proof. destruct l; reflexivity. Qed.

Lemma searchsorted_all l v : (forall x, In x l -> x < v) -> searchsorted l v = length l.
Proof.
  induction l as [|x l IH]; intros H; cbn [searchsorted length]; auto.
  rewrite (proj2 (Nat.ltb_lt x v)) by (apply H; now left). rewrite IH; auto. intros; apply H; now right.
Qed.

Lemma searchsorted_mono l v w : v <= w -> searchsorted l v <= searchsorted l w.
Proof.
  intros H. induction l as [|x l IH]; cbn [searchsorted]; auto.
  destruct (Nat.ltb_spec x v), (Nat.ltb_spec x w); lia.
Qed.

(** ** reshape *)
Lemma Forall2_firstn {X Y} (R : X -> Y -> Prop) n l r : Forall2 R l r -> Forall2 R (firstn n l) (firstn n r).
Proof. intros H; revert n; induction H; intros [|n]; cbn; constructor; auto. Qed.
Lemma Forall2_skipn {X Y} (R : X -> Y -> Prop) n l r : Forall2 R l r -> Forall2 R (skipn n l) (skipn n r).
Proof. intros H; revert n; induction H; intros [|n]; cbn; try constructor; auto. Qed.

Lemma firstn_app_exact {X} (l r : list X) : firstn (length l) (l ++ r) = l.
Proof. rewrite firstn_app, Nat.sub_diag, firstn_all. cbn. apply app_nil_r. Qed.
Lemma skipn_app_exact {X} (l r : list X) : skipn (length l) (l ++ r) = r.
Proof. rewrite skipn_app, Nat.sub_diag, skipn_all. reflexivity. Qed.

Lemma reshape_like_spec {X} (R : X -> X -> Prop) rows : forall flat,
  Forall2 R (concat rows) flat -> Forall2 (Forall2 R) rows (reshape_like rows flat).
Proof.
  induction rows as [|r rows IH]; intros flat H; cbn [reshape_like]; constructor.
  - cbn [concat] in H. rewrite <- (firstn_app_exact r (concat rows)) at 1. now apply Forall2_firstn.
  - apply IH. rewrite <- (skipn_app_exact r (concat rows)). now apply Forall2_skipn.
Qed.

Lemma skipn_skipn' {X} (l : list X) : forall a b, skipn a (skipn b l) = skipn (b + a) l.
Proof.
  induction l as [|x l IH]; intros a b.
  - now rewrite !skipn_nil.
  - destruct b as [|b]; cbn [skipn Nat.add]; auto.
Qed.

Lemma cut_groups_spec {X} (R : X -> X -> Prop) gs flat : forall start,
  Forall2 R (concat (map (@concat X) gs)) (skipn start flat) ->
  Forall2 (Forall2 (Forall2 R)) gs (cut_groups start gs flat).
Proof.
  induction gs as [|rows gs IH]; intros start H; cbn [cut_groups map concat] in *; cbv zeta; constructor.
  - apply reshape_like_spec. unfold slice.
    replace (start + length (concat rows) - start) with (length (concat rows)) by lia.
    rewrite <- (firstn_app_exact (concat rows) (concat (map (@concat X) gs))) at 1. now apply Forall2_firstn.
  - apply IH. rewrite <- skipn_skipn'.
    rewrite <- (skipn_app_exact (concat rows) (concat (map (@concat X) gs))). now apply Forall2_skipn.
Qed.

Lemma nth_error_combine {X Y} (l : list X) (r : list Y) i :
  nth_error (combine l r) i =
  match nth_error l i, nth_error r i with Some x, Some y => Some (x, y) | _, _ => None end.
Proof.
  revert r i; induction l as [|x l IH]; intros [|y r] [|i]; cbn; auto.
  - now destruct (nth_error l i).
Qed.

Lemma nth_error_seq' s n i : i < n -> nth_error (seq s n) i = Some (s + i).
Proof.
  revert s i; induction n as [|n IH]; intros s [|i] H; cbn; try lia.
  - f_equal; lia.
  - rewrite IH by lia. f_equal; lia.
Qed.

Section Filter.
  Context {E : Type}.
  Variables (groups : list (egroup E)) (els : list nat).
  Let sizes := map nelements groups.
  Hypothesis Hsorted : StronglySorted lt els.
  Hypothesis Hrange : forall e, In e els -> e < sum sizes.

  Definition lo (g : nat) : nat := searchsorted els (base sizes g).
  Definition part_elems (g : nat) : list nat := map (fun e => e - base sizes g) (slice els (lo g) (lo (S g))).

  Lemma base_all : base sizes (length groups) = sum sizes.
  Proof.
    unfold base. replace (length groups) with (length sizes) by (unfold sizes; apply map_length).
    now rewrite firstn_all.
  Qed.

  Lemma lo_0 : lo 0 = 0.
  Proof. unfold lo, base; cbn. apply searchsorted_0. Qed.

  Lemma lo_last : lo (length groups) = length els.
  Proof. unfold lo. rewrite base_all. apply searchsorted_all; auto. Qed.

  Lemma lo_mono g : lo g <= lo (S g).
  Proof. unfold lo. apply searchsorted_mono. apply sum_firstn_mono; lia. Qed.

  Lemma lo_len g : lo g <= length els.
  Proof. apply searchsorted_le. Qed.

  Lemma length_part_elems g : length (part_elems g) = lo (S g) - lo g.
  Proof. unfold part_elems. rewrite map_length, slice_length; auto. apply lo_len. Qed.

  Lemma starts_nth g : g <= length groups -> groups <> [] ->
    nth_error (map (searchsorted els) (base_element_nrs sizes) ++ [length els]) g = Some (lo g).
  Proof.
    intros Hg Hne.
    assert (HL : length (base_element_nrs sizes) = length groups).
    { rewrite base_element_nrs_length; unfold sizes; [apply map_length|]. intros HZ. apply map_eq_nil in HZ. auto. }
    destruct (Nat.eq_dec g (length groups)) as [->|Hn].
    - rewrite nth_error_app2 by (rewrite map_length; lia). rewrite map_length, HL, Nat.sub_diag. cbn.
      now rewrite lo_last.
    - rewrite nth_error_app1 by (rewrite map_length; lia).
      rewrite nth_error_map, base_element_nrs_nth by (unfold sizes; rewrite map_length; lia). reflexivity.
  Qed.

  Lemma part_elems_nth g n i i' : nth_error sizes g = Some n ->
    (nth_error (part_elems g) i' = Some i <-> i < n /\ nth_error els (lo g + i') = Some (base sizes g + i)).
  Proof.
    intros Hn. pose proof (base_S _ _ _ Hn) as HS. unfold part_elems.
    rewrite nth_error_map, nth_error_slice.
    pose proof (incr_StronglySorted_le _ Hsorted) as Hle.
    destruct (nth_error els (lo g + i')) as [x|] eqn:Hx.
    - pose proof (searchsorted_lt els (base sizes g) _ _ Hle Hx) as H1.
      pose proof (searchsorted_lt els (base sizes (S g)) _ _ Hle Hx) as H2. fold (lo g) in H1. fold (lo (S g)) in H2.
      destruct (Nat.ltb_spec (lo g + i') (lo (S g))).
      + cbn. split.
        * intros Hi; inversion Hi; subst. split; [lia|]. f_equal. lia.
        * intros (Hi & Hi'). inversion Hi'. f_equal. lia.
      + cbn. split; [discriminate|]. intros (Hi & Hi'). inversion Hi'. lia.
    - destruct (_ <? _); cbn; split; try discriminate; intros (_ & ?); discriminate.
  Qed.

  Lemma part_elems_lt g n i : nth_error sizes g = Some n -> In i (part_elems g) -> i < n.
  Proof.
    intros Hn Hi. apply In_nth_error in Hi as (i' & Hi). eapply part_elems_nth in Hi; eauto. tauto.
  Qed.

  Lemma part_elems_pos g n i k : nth_error sizes g = Some n -> i < n ->
    nth_error els k = Some (base sizes g + i) -> lo g <= k < lo (S g).
  Proof.
    intros Hn Hi Hk. pose proof (base_S _ _ _ Hn) as HS.
    pose proof (incr_StronglySorted_le _ Hsorted) as Hle.
    pose proof (searchsorted_lt els (base sizes g) _ _ Hle Hk).
    pose proof (searchsorted_lt els (base sizes (S g)) _ _ Hle Hk).
    unfold lo. lia.
  Qed.

  Lemma fge_ok : groups <> [] ->
    mapM (fun igrp =>
            lo <- get (map (searchsorted els) (base_element_nrs sizes) ++ [length els]) igrp ;;
            hi <- get (map (searchsorted els) (base_element_nrs sizes) ++ [length els]) (S igrp) ;;
            base <- get (base_element_nrs sizes) igrp ;;
            Ok (map (fun e => e - base) (slice els lo hi))) (seq 0 (length groups))
    = Ok (map part_elems (seq 0 (length groups))).
  Proof.
    intros Hne. apply mapM_map_ok. intros g Hg. apply in_seq in Hg.
    rewrite (proj2 (get_ok _ _ _) (starts_nth g ltac:(lia) Hne)). cbn [bind].
    rewrite (proj2 (get_ok _ _ _) (starts_nth (S g) ltac:(lia) Hne)). cbn [bind].
    rewrite (proj2 (get_ok _ _ _) (base_element_nrs_nth sizes g ltac:(unfold sizes; rewrite map_length; lia))).
    reflexivity.
  Qed.

  Lemma base_new (groups' : list (egroup E)) :
    length groups' = length groups ->
    (forall g grp', nth_error groups' g = Some grp' -> nelements grp' = length (part_elems g)) ->
    forall g, g <= length groups -> base (map nelements groups') g = lo g.
  Proof.
    intros HL HN. induction g as [|g IH]; intros Hg.
    - rewrite lo_0. reflexivity.
    - destruct (nth_error groups' g) as [grp'|] eqn:Hg'; [|apply nth_error_None in Hg'; lia].
      rewrite (base_S _ g (nelements grp')) by (rewrite nth_error_map, Hg'; reflexivity).
      rewrite IH by lia. rewrite (HN _ _ Hg'), length_part_elems. pose proof (lo_mono g). lia.
  Qed.

  Hypothesis Hrows : has_rows groups.

  Lemma has_rows_nth g grp : nth_error groups g = Some grp -> exists vi, eg_vi grp = Some vi /\ length vi = nelements grp.
  Proof. intros Hg. unfold has_rows in Hrows. rewrite Forall_forall in Hrows. apply Hrows. eapply nth_error_In; eauto. Qed.

  Lemma combine_fge_nth g gf : nth_error (combine groups (map part_elems (seq 0 (length groups)))) g = Some gf ->
    nth_error groups g = Some (fst gf) /\ snd gf = part_elems g.
  Proof.
    rewrite nth_error_combine. destruct (nth_error groups g) as [grp|] eqn:Hg; [|discriminate].
    rewrite nth_error_map, nth_error_seq' by (apply nth_error_Some; congruence).
    cbn. intros H; inversion H; subst; auto.
  Qed.

  Lemma combine_fge_len : length (combine groups (map part_elems (seq 0 (length groups)))) = length groups.
  Proof. rewrite combine_length, map_length, seq_length. lia. Qed.

  Lemma filtered_ok :
    exists rowss,
      mapM (fun gf : egroup E * list nat =>
              match eg_vi (fst gf) with
              | Some vi => rows <- take vi (snd gf) ;; Ok [rows]
              | None => Ok []
              end) (combine groups (map part_elems (seq 0 (length groups))))
      = Ok (map (fun r => [r]) rowss) /\
      length rowss = length groups /\
      forall g grp, nth_error groups g = Some grp ->
        exists vi rows, eg_vi grp = Some vi /\ nth_error rowss g = Some rows /\ take vi (part_elems g) = Ok rows.
  Proof.
    destruct (mapM_total (fun gf : egroup E * list nat =>
              match eg_vi (fst gf) with
              | Some vi => take vi (snd gf)
              | None => Ok []
              end) (combine groups (map part_elems (seq 0 (length groups))))) as (rowss & Hr).
    { intros gf Hin. apply In_nth_error in Hin as (g & Hg). apply combine_fge_nth in Hg as (Hg & Hs).
      destruct (has_rows_nth _ _ Hg) as (vi & Hvi & Hl). rewrite Hvi. apply take_total.
      apply Forall_forall. intros i Hi. rewrite Hs in Hi. rewrite Hl.
      eapply part_elems_lt; eauto. unfold sizes. rewrite nth_error_map, Hg. reflexivity. }
    exists rowss. split; [|split].
    - apply mapM_ok. apply mapM_ok in Hr.
      assert (HS : forall gf, In gf (combine groups (map part_elems (seq 0 (length groups)))) -> exists vi, eg_vi (fst gf) = Some vi).
      { intros gf Hin. apply In_nth_error in Hin as (g & Hg). apply combine_fge_nth in Hg as (Hg & Hs).
        destruct (has_rows_nth _ _ Hg) as (vi & Hvi & Hl). eauto. }
      induction Hr as [|gf rows l rs H1 H2 IH]; cbn [map]; constructor.
      + destruct (HS gf ltac:(now left)) as (vi & Hvi). rewrite Hvi in *. now rewrite H1.
      + apply IH. intros; apply HS; now right.
    - rewrite (mapM_length _ _ _ Hr). apply combine_fge_len.
    - intros g grp Hg.
      destruct (nth_error (combine groups (map part_elems (seq 0 (length groups)))) g) as [gf|] eqn:Hc.
      + pose proof (combine_fge_nth _ _ Hc) as (Hg' & Hs).
        destruct (mapM_nth _ _ _ _ _ Hr Hc) as (rows & Hrows' & Ht).
        destruct (has_rows_nth _ _ Hg) as (vi & Hvi & Hl).
        rewrite Hg in Hg'. injection Hg' as Hg''. cbv beta in Ht. rewrite <- Hg'', Hvi, Hs in Ht. exists vi, rows. split; [exact Hvi|]. split; [exact Hrows'|exact Ht].
      + exfalso. apply nth_error_None in Hc. rewrite combine_fge_len in Hc.
        assert (g < length groups) by (apply nth_error_Some; congruence). lia.
  Qed.

  Lemma concat_map_singleton {X} (l : list X) : concat (map (fun r => [r]) l) = l.
  Proof. induction l; cbn; congruence. Qed.

  Lemma filter_mesh_groups_spec : groups <> [] ->
    exists groups' req, filter_mesh_groups groups els = Ok (groups', req) /\
      length groups' = length groups /\ StronglySorted lt req /\
      (forall v, In v req <-> exists g i row, In (base sizes g + i) els /\ local_row groups g i row /\ In v row) /\
      (forall g grp, nth_error groups g = Some grp ->
         exists grp' vi', nth_error groups' g = Some grp' /\ eg_fvi grp' = eg_fvi grp /\
           eg_vi grp' = Some vi' /\ length vi' = nelements grp' /\
           nelements grp' = length (part_elems g) /\ base (map nelements groups') g = lo g /\
           forall i i', nth_error (part_elems g) i' = Some i ->
             nth_error (eg_nodes grp') i' = nth_error (eg_nodes grp) i /\
             exists row row', local_row groups g i row /\ local_row groups' g i' row' /\
               Forall2 (fun v v' => nth_error req v' = Some v) row row').
  Proof.
    intros Hne. unfold filter_mesh_groups. cbv zeta. fold sizes.
    rewrite fge_ok by auto. cbn [bind].
    destruct filtered_ok as (rowss & Hf & Hlen & Hrw). rewrite Hf. cbn [bind].
    rewrite concat_map_singleton.
    assert (Hnz : (length rowss =? 0) = false).
    { apply Nat.eqb_neq. rewrite Hlen. intros HZ. apply length_zero_iff_nil in HZ. auto. }
    rewrite Hnz. cbn [negb guard bind].
    set (flat := concat (map (@concat nat) rowss)).
    destruct (unique_inverse_ok flat) as (inv & Hinv & HF).
    destruct (unique_inverse flat) as (req, rinv) eqn:Hu.
    assert (Hreq : req = unique flat) by (unfold unique_inverse in Hu; inversion Hu; auto).
    cbn [snd] in Hinv. rewrite Hinv. cbn [bind].
    rewrite <- Hreq in HF.
    pose proof (cut_groups_spec (fun v i => nth_error req i = Some v) rowss inv 0 HF) as Hcut.
    set (new_vi := cut_groups 0 rowss inv) in *.
    assert (Hnvlen : length new_vi = length groups) by (rewrite <- Hlen; symmetry; eapply Forall2_length'; eauto).
    destruct (mapM_total (fun igf : nat * (egroup E * list nat) =>
                        let '(igrp, (g, els)) := igf in
                        vi <- get new_vi igrp ;;
                        nodes <- take (eg_nodes g) els ;;
                        Ok (mk_egroup (Some vi) nodes (eg_fvi g)))
                     (enumerate (combine groups (map part_elems (seq 0 (length groups)))))) as (groups' & Hg').
    { intros (g, (grp, l)) Hin. apply In_enumerate in Hin. apply combine_fge_nth in Hin as (Hg & Hs). cbn in Hs, Hg. subst l.
      destruct (get_total new_vi g) as (vi & Hvi).
      { rewrite Hnvlen. apply nth_error_Some. congruence. }
      rewrite Hvi. cbn [bind].
      destruct (take_total (eg_nodes grp) (part_elems g)) as (nodes & Hn).
      { apply Forall_forall. intros i Hi. eapply part_elems_lt; eauto. unfold sizes. rewrite nth_error_map, Hg. reflexivity. }
      rewrite Hn. cbn. eauto. }
    rewrite Hg'. cbn [bind].
    pose proof (mapM_length _ _ _ Hg') as HL'. rewrite length_enumerate, combine_fge_len in HL'.
    assert (Hgrp : forall g grp, nth_error groups g = Some grp ->
         exists vi' nodes', nth_error groups' g = Some (mk_egroup (Some vi') nodes' (eg_fvi grp)) /\
           nth_error new_vi g = Some vi' /\ take (eg_nodes grp) (part_elems g) = Ok nodes').
    { intros g grp Hg.
      destruct (nth_error (combine groups (map part_elems (seq 0 (length groups)))) g) as [gf|] eqn:Hc.
      2:{ exfalso. apply nth_error_None in Hc. rewrite combine_fge_len in Hc.
          assert (g < length groups) by (apply nth_error_Some; congruence). lia. }
      pose proof (combine_fge_nth _ _ Hc) as (Hg'' & Hs). destruct gf as (grp0, l). cbn in Hg'', Hs.
      rewrite Hg in Hg''. inversion Hg''; subst grp0 l.
      assert (He : nth_error (enumerate (combine groups (map part_elems (seq 0 (length groups))))) g = Some (g, (grp, part_elems g))).
      { rewrite nth_error_enumerate, Hc. reflexivity. }
      destruct (mapM_nth _ _ _ _ _ Hg' He) as (grp' & Hn & Hb).
      apply bind_ok in Hb as (vi' & Hvi' & Hb). apply bind_ok in Hb as (nodes' & Hnodes' & Hb).
      inversion Hb; subst. apply get_ok in Hvi'. eauto. }
    assert (Hsz : forall g grp', nth_error groups' g = Some grp' -> nelements grp' = length (part_elems g)).
    { intros g grp' Hn'.
      destruct (nth_error groups g) as [grp|] eqn:Hg.
      - destruct (Hgrp _ _ Hg) as (vi' & nodes' & Hn & Hvi' & Hnd). rewrite Hn in Hn'. inversion Hn'; subst.
        unfold nelements; cbn. now rewrite (mapM_length _ _ _ Hnd).
      - exfalso. apply nth_error_None in Hg. assert (g < length groups') by (apply nth_error_Some; congruence). lia. }
    exists groups', req. split; [reflexivity|]. split; [auto|]. split; [rewrite Hreq; apply unique_incr|]. split.
    - intros v. rewrite Hreq, unique_In. unfold flat. rewrite in_concat. split.
      + intros (fl & Hfl & Hv). apply in_map_iff in Hfl as (rows & <- & Hrows').
        apply in_concat in Hv as (row & Hrow & Hv).
        apply In_nth_error in Hrows' as (g & Hgr).
        destruct (nth_error groups g) as [grp|] eqn:Hg.
        2:{ exfalso. apply nth_error_None in Hg. assert (g < length rowss) by (apply nth_error_Some; congruence). lia. }
        destruct (Hrw _ _ Hg) as (vi & rows' & Hvi & Hr' & Ht). rewrite Hgr in Hr'. inversion Hr'; subst rows'.
        apply In_nth_error in Hrow as (i' & Hrow).
        rewrite (take_nth _ _ _ _ Ht) in Hrow.
        destruct (nth_error (part_elems g) i') as [i|] eqn:Hi; [|discriminate].
        assert (Hs : nth_error sizes g = Some (nelements grp)) by (unfold sizes; rewrite nth_error_map, Hg; reflexivity).
        apply (part_elems_nth g _ i i' Hs) in Hi as (Hi & Hk).
        exists g, i, row. split; [eapply nth_error_In; eauto|]. split; auto.
        exists grp, vi. auto.
      + intros (g & i & row & Hin & (grp & vi & Hg & Hvi & Hi & Hrow) & Hv).
        assert (Hs : nth_error sizes g = Some (nelements grp)) by (unfold sizes; rewrite nth_error_map, Hg; reflexivity).
        apply In_nth_error in Hin as (k & Hk).
        pose proof (part_elems_pos _ _ _ _ Hs Hi Hk) as Hpos.
        destruct (Hrw _ _ Hg) as (vi0 & rows & Hvi0 & Hr' & Ht). rewrite Hvi in Hvi0. inversion Hvi0; subst vi0.
        assert (Hi' : nth_error (part_elems g) (k - lo g) = Some i).
        { apply (part_elems_nth g _ _ _ Hs). split; auto. replace (lo g + (k - lo g)) with k by lia. auto. }
        exists (concat rows). split; [apply in_map_iff; exists rows; split; auto; eapply nth_error_In; eauto|].
        apply in_concat. exists row. split; auto.
        apply nth_error_In with (n := k - lo g). rewrite (take_nth _ _ _ _ Ht), Hi'. auto.
    - intros g grp Hg. destruct (Hgrp _ _ Hg) as (vi' & nodes' & Hn & Hvi' & Hnd).
      exists (mk_egroup (Some vi') nodes' (eg_fvi grp)), vi'. split; [auto|]. split; [reflexivity|]. split; [reflexivity|].
      assert (HgL : g < length groups) by (apply nth_error_Some; congruence).
      destruct (Hrw _ _ Hg) as (vi & rows & Hvi & Hr' & Ht).
      destruct (Forall2_nth_error _ _ _ _ _ Hcut Hr') as (vi'' & Hvi'' & HFF). rewrite Hvi' in Hvi''. inversion Hvi''; subst vi''.
      assert (HLv : length vi' = length (part_elems g)).
      { rewrite <- (Forall2_length' _ _ _ HFF). apply (mapM_length _ _ _ Ht). }
      assert (HLn : length nodes' = length (part_elems g)) by apply (mapM_length _ _ _ Hnd).
      split; [unfold nelements; cbn; congruence|]. split; [unfold nelements; cbn; congruence|].
      split; [apply base_new; auto; lia|].
      intros i i' Hi. split.
      + cbn [eg_nodes]. rewrite (take_nth _ _ _ _ Hnd), Hi. reflexivity.
      + assert (Hs : nth_error sizes g = Some (nelements grp)) by (unfold sizes; rewrite nth_error_map, Hg; reflexivity).
        pose proof (take_nth _ _ _ i' Ht) as Hrow. rewrite Hi in Hrow.
        pose proof Hi as Hi2. apply (part_elems_nth g _ i i' Hs) in Hi2 as (HiL & Hk).
        destruct (has_rows_nth _ _ Hg) as (vi0 & Hvi0 & Hvl). rewrite Hvi in Hvi0. inversion Hvi0; subst vi0.
        destruct (nth_error vi i) as [row|] eqn:Hrow'; [|apply nth_error_None in Hrow'; lia].
        destruct (Forall2_nth_error _ _ _ _ _ HFF Hrow) as (row' & Hrow2 & HF2).
        exists row, row'. split; [exists grp, vi; auto|]. split; auto.
        exists (mk_egroup (Some vi') nodes' (eg_fvi grp)), vi'. split; auto. split; auto. split; auto.
        unfold nelements; cbn. rewrite HLn. apply nth_error_Some. congruence.
  Qed.
End Filter.
