(** * partition_mesh: the main lemmas *)
From Coq Require Import List Arith Bool ZArith Lia Sorting.Sorted.
From Verif Require Import Np NpFacts MeshModel MeshSpec MeshProofs CompletionProofs MeshStateModel
  PartModel PartSpec PartProofs PartFilterProofs PartAdjProofs.
Import ListNotations.

Lemma counts_ok n parts : valid_partition n parts ->
  exists cs, element_counts n parts = Ok cs /\
    existsb (fun c => 1 <? c) cs = false /\ existsb (fun c => c <? 1) cs = false.
Proof.
  intros HV. destruct (element_counts_spec n parts) as (cs & Hcs & Hlen & Hn).
  { intros p els e H He. apply In_nth_error in He as (k & Hk). eapply vp_range; eauto. exists els; eauto. }
  exists cs. split; auto.
  assert (Hone : forall c, In c cs -> c = 1).
  { intros c Hc. apply In_nth_error in Hc as (e & He).
    assert (HeL : e < n) by (rewrite <- Hlen; apply nth_error_Some; congruence).
    rewrite (Hn _ HeL) in He. injection He as <-.
    assert (H1 : 1 <= nparts_with e (map snd parts)) by (apply nparts_with_pos; apply (vp_cover _ _ HV); auto).
    assert (H2 : ~ 2 <= nparts_with e (map snd parts)).
    { rewrite (nparts_with_two e parts (vp_keys _ _ HV)). intros (p & q & k & l & Hne & Ha & Hb).
      apply Hne. eapply vp_disjoint; eauto. }
    lia. }
  split; apply Bool.not_true_iff_false; rewrite existsb_exists; intros (c & Hc & Hb);
    apply Hone in Hc; subst c; discriminate.
Qed.

Section Main.
  Context {E A V : Type}.
  Variables (garbage : list (nat * nat)) (vs : list V) (groups : list (egroup E)) (fags : list (list (fagrp A)))
            (conforming : option bool) (parts : partdict) (p : nat).
  Let sizes := map nelements groups.
  Hypothesis HV : valid_partition (sum sizes) parts.
  Hypothesis HG : length garbage = sum sizes.
  Hypothesis Hne : groups <> [].
  Hypothesis Hrows : has_rows groups.
  Hypothesis Hrange : rows_in_range (length vs) groups.
  Hypothesis Hwf : fags_wf groups fags.
  Hypothesis Hp : In p (map fst parts).

  Lemma assigned_self els e k : In (p, els) parts -> (assigned parts e p k <-> nth_error els k = Some e).
  Proof.
    intros Hin. apply In_nth_error in Hin as (i & Hi). split.
    - intros (els' & Hin' & Hk). apply In_nth_error in Hin' as (j & Hj).
      assert (i = j) by (eapply NoDup_keys_unique; eauto; apply (vp_keys _ _ HV)). subst j.
      rewrite Hi in Hj. injection Hj as <-. auto.
    - intros Hk. exists els. split; auto. eapply nth_error_In; eauto.
  Qed.

  Lemma get_mesh_part_spec :
    exists m fags', get_mesh_part garbage (Some vs) groups (Ok fags) conforming parts p = Ok m /\
      part_geometry groups vs parts p m /\ m_facial m = Available fags' /\
      length fags' = length groups /\
      part_adjacency groups fags parts p m fags' /\
      part_boundaries groups fags parts p m fags' /\
      m_conforming m = conforming /\ part_lists groups fags parts p m fags'.
  Proof.
    unfold get_mesh_part. cbv zeta. fold sizes.
    destruct (counts_ok _ _ HV) as (cs & Hcs & Hc1 & Hc2). rewrite Hcs. cbn [bind].
    rewrite Hc1, Hc2. cbn [negb guard bind].
    destruct (g2p_spec garbage _ _ HV HG) as (g2p & Hg2p & Hg2plen & Hg2ps). rewrite Hg2p. cbn [bind].
    pose proof (vp_keys _ _ HV) as HK.
    apply in_map_iff in Hp as ((p0 & els) & Hp0 & Hin). cbn in Hp0. subst p0.
    rewrite (proj2 (part_lookup_spec parts p els HK) Hin). cbn [bind].
    apply In_nth_error in Hin as Hnth. destruct Hnth as (self & Hself).
    assert (Hsorted : StronglySorted lt els) by (eapply vp_sorted; eauto).
    assert (Hran : forall e, In e els -> e < sum sizes).
    { intros e He. apply In_nth_error in He as (k & Hk). eapply vp_range; eauto. exists els; eauto. }
    destruct (filter_mesh_groups_spec groups els Hsorted Hran Hrows Hne)
      as (groups' & req & Hf & Hlen' & Hreqs & Hreq & Hgrp).
    rewrite Hf. cbn [bind].
    rewrite (proj2 (part_index_spec parts p self HK)) by (rewrite nth_error_map, Hself; reflexivity). cbn [bind].
    destruct (take_total vs req) as (vs' & Hvs').
    { apply Forall_forall. intros v Hv. apply Hreq in Hv as (g & i & row & _ & Hr & Hv).
      eapply Hrange; [|exact Hv]. exists g, i. split; [exact Hr|reflexivity]. }
    rewrite Hvs'. cbn [bind].
    assert (HgL : (length fags =? length groups) = true) by (apply Nat.eqb_eq; apply Hwf).
    rewrite HgL. cbn [guard bind].
    set (sizes' := map nelements groups').
    (* the image facts *)
    assert (Himg : forall g grp e k, nth_error groups g = Some grp -> e < nelements grp ->
       nth_error els k = Some (base sizes g + e) ->
       exists grp' i, nth_error groups' g = Some grp' /\ i < nelements grp' /\ k = base sizes' g + i).
    { intros g grp e k Hg He Hk. destruct (Hgrp _ _ Hg) as (grp' & vi' & Hg' & _ & _ & _ & Hn' & Hb & _).
      assert (Hs : nth_error sizes g = Some (nelements grp)) by (unfold sizes; rewrite nth_error_map, Hg; reflexivity).
      pose proof (part_elems_pos groups els Hsorted _ _ _ _ Hs He Hk) as Hpos.
      exists grp', (k - lo groups els g). split; [auto|]. unfold sizes'. rewrite Hn', Hb, length_part_elems. lia. }
    assert (Hpe : forall g grp i i', nth_error groups g = Some grp -> i < nelements grp ->
       (image groups groups' parts p g i i' <-> nth_error (part_elems groups els g) i' = Some i)).
    { intros g grp i i' Hg Hi.
      assert (Hs : nth_error sizes g = Some (nelements grp)) by (unfold sizes; rewrite nth_error_map, Hg; reflexivity).
      rewrite (part_elems_nth groups els Hsorted g _ i i' Hs).
      destruct (Hgrp _ _ Hg) as (grp' & vi' & Hg' & _ & _ & _ & Hn' & Hb & _).
      split.
      - intros (grp1 & grp1' & H1 & H2 & H3 & H4 & H5). rewrite Hb in H5. split; auto.
        apply (proj1 (assigned_self _ _ _ Hin)) in H5. exact H5.
      - intros (_ & Hk). exists grp, grp'. split; [auto|]. split; [auto|]. split; [auto|].
        destruct (Himg _ _ _ _ Hg Hi Hk) as (grp2 & i2 & Hg2 & Hi2 & Hk2). rewrite Hg' in Hg2. injection Hg2 as <-.
        unfold sizes' in Hk2. rewrite Hb in Hk2. assert (i2 = i') by lia. subst i2.
        split; [auto|]. rewrite Hb. now apply (proj2 (assigned_self _ _ _ Hin)). }
    assert (Hrows' : has_rows groups').
    { unfold has_rows. apply Forall_forall. intros grp' Hg'. apply In_nth_error in Hg' as (g & Hg').
      destruct (nth_error groups g) as [grp|] eqn:Hg.
      - destruct (Hgrp _ _ Hg) as (grp1 & vi' & Hg1 & _ & Hvi' & Hl & _). rewrite Hg' in Hg1. injection Hg1 as <-. eauto.
      - exfalso. apply nth_error_None in Hg. assert (g < length groups') by (apply nth_error_Some; congruence). lia. }
    pose proof (self_to_self_spec groups groups' fags parts p self els g2p HK Hself Hg2ps Hg2plen Hlen' Himg Hwf)
      as (ss & Hss & HssL & Hss').
    pose proof (connected_parts_spec groups groups' fags parts self g2p Hg2plen Hlen' Hwf) as (con & Hcon & Hcon').
    pose proof (self_to_other_spec groups groups' fags parts p self els g2p HK Hself Hg2ps Hg2plen Hlen' Himg Hwf con Hcon')
      as (so & Hso & HsoL & Hso').
    pose proof (part_boundary_spec groups groups' fags parts p self els g2p HK Hself Hg2ps Hg2plen Hlen' Himg Hwf)
      as (bd & Hbd & HbdL & Hbd').
    fold sizes in Hcon, Hss, Hso, Hbd. rewrite Hcon. cbn [bind]. rewrite Hss. cbn [bind]. rewrite Hso. cbn [bind]. rewrite Hbd. cbn [bind].
    assert (HfL : length fags = length groups) by apply Hwf.
    destruct (mapM_total (fun igrp => a <- get ss igrp ;; b <- get so igrp ;; c <- get bd igrp ;; Ok (a ++ b ++ c))
                       (seq 0 (length groups'))) as (gathered & Hga).
    { intros g Hg. apply in_seq in Hg.
      destruct (get_total ss g ltac:(lia)) as (a & ->). destruct (get_total so g ltac:(lia)) as (b & ->).
      destruct (get_total bd g ltac:(lia)) as (c & ->). cbn. eauto. }
    rewrite Hga. cbn [bind].
    assert (HgaL : length gathered = length groups) by (rewrite (mapM_length _ _ _ Hga), seq_length; lia).
    assert (Hgan : forall g a b c, nth_error ss g = Some a -> nth_error so g = Some b -> nth_error bd g = Some c ->
              nth_error gathered g = Some (a ++ b ++ c)).
    { intros g a b c Ha Hb Hc.
      assert (g < length groups') by (rewrite Hlen', <- HfL, <- HssL; apply nth_error_Some; congruence).
      destruct (mapM_nth _ _ _ g g Hga) as (x & Hx & Hbx); [rewrite nth_error_seq'; auto|].
      apply get_ok in Ha, Hb, Hc. rewrite Ha, Hb, Hc in Hbx. cbn in Hbx. congruence. }
    unfold make_mesh. cbn [none_to_false].
    destruct (complete_spec gathered) as (fags' & Hcomp & HcL & _ & Hcomp').
    rewrite Hcomp. cbn [bind].
    eexists; exists fags'. split; [reflexivity|].
    split; [|split; [reflexivity|split; [congruence|split; [|split; [|split; [reflexivity|]]]]]].
    - (* geometry *)
      split; cbn [m_groups m_vertices].
      + auto.
      + intros e k Ha.
        assert (He : e < sum sizes) by (eapply vp_range; eauto).
        destruct (owns_exists _ _ He) as (g & n & Hn & Hb). unfold sizes in Hn.
        rewrite nth_error_map in Hn. destruct (nth_error groups g) as [grp|] eqn:Hg; [|discriminate]. injection Hn as <-.
        apply (proj1 (assigned_self _ _ _ Hin)) in Ha.
        assert (Hi : e - base sizes g < nelements grp) by lia.
        replace e with (base sizes g + (e - base sizes g)) in Ha by lia.
        destruct (Himg _ _ _ _ Hg Hi Ha) as (grp' & i' & Hg' & Hi' & Hk).
        exists g, (e - base sizes g), i'. fold sizes. split; [lia|]. split; [exact Hk|].
        exists grp, grp'. split; [auto|]. split; [auto|]. split; [auto|]. split; [auto|].
        apply (proj2 (assigned_self _ _ _ Hin)). rewrite Hk in Ha. exact Ha.
      + intros g grp' i' Hg' Hi'.
        destruct (nth_error groups g) as [grp|] eqn:Hg.
        2:{ exfalso. apply nth_error_None in Hg. assert (g < length groups') by (apply nth_error_Some; congruence). lia. }
        destruct (Hgrp _ _ Hg) as (grp1 & vi' & Hg1 & _ & _ & _ & Hn' & _). rewrite Hg' in Hg1. injection Hg1 as <-.
        destruct (nth_error (part_elems groups els g) i') as [i|] eqn:Hi.
        2:{ exfalso. apply nth_error_None in Hi. lia. }
        exists i. rewrite (Hpe g grp i i' Hg); auto.
        assert (Hs : nth_error sizes g = Some (nelements grp)) by (unfold sizes; rewrite nth_error_map, Hg; reflexivity).
        apply nth_error_In in Hi. eapply (part_elems_lt groups els Hsorted); eauto.
      + intros g i i' j' (grp & grp' & H1 & H2 & H3 & H4 & H5) (grp1 & grp1' & J1 & J2 & J3 & J4 & J5).
        apply (proj1 (assigned_self _ _ _ Hin)) in H5, J5.
        assert (base (map nelements groups') g + i' = base (map nelements groups') g + j'); [|lia].
        eapply (proj1 (NoDup_nth_error els) (incr_NoDup _ Hsorted)); [|congruence].
        apply nth_error_Some. congruence.
      + intros g i j i' (grp & grp' & H1 & H2 & H3 & H4 & H5) (grp1 & grp1' & J1 & J2 & J3 & J4 & J5).
        apply (proj1 (assigned_self _ _ _ Hin)) in H5, J5. rewrite H5 in J5. injection J5. lia.
      + intros g i i' grp grp' Hi Hg Hg'.
        destruct (Hgrp _ _ Hg) as (grp1 & vi' & Hg1 & Hfvi & _ & _ & _ & _ & Hdata). rewrite Hg' in Hg1. injection Hg1 as <-.
        assert (HiL : i < nelements grp).
        { destruct Hi as (grp1 & _ & H1 & H2 & _). rewrite Hg in H1. injection H1 as <-. auto. }
        apply (Hpe g grp i i' Hg HiL) in Hi. split; auto. apply (Hdata _ _ Hi).
      + auto.
      + exists req, vs'. split; [auto|]. split; [auto|]. apply take_ok in Hvs'. split; [auto|]. split.
        * intros v. rewrite Hreq. split.
          -- intros (g & i & row & Hel & Hr & Hv). apply In_nth_error in Hel as (k & Hk).
             exists (base sizes g + i), k, row. split; [now apply (proj2 (assigned_self _ _ _ Hin))|]. split; auto.
             exists g, i. auto.
          -- intros (e & k & row & Ha & (g & i & Hr & He) & Hv). apply (proj1 (assigned_self _ _ _ Hin)) in Ha.
             exists g, i, row. split; [|auto]. rewrite <- He. eapply nth_error_In; eauto.
        * intros g i i' Hi.
          destruct Hi as (grp & grp' & H1 & H2 & H3 & H4 & H5) eqn:HH. clear HH.
          assert (Hi' : image groups groups' parts p g i i') by (exists grp, grp'; auto).
          destruct (Hgrp _ _ H1) as (grp1 & vi' & Hg1 & Hfvi & _ & _ & _ & _ & Hdata).
          apply (Hpe g grp i i' H1 H2) in Hi'.
          destruct (Hdata _ _ Hi') as (_ & row & row' & Hr & Hr' & HF).
          exists row, row'. split; [auto|]. split; [auto|]. eapply Forall2_impl; [|exact HF].
          intros v v' Hv. split; auto. destruct (Forall2_nth_error _ _ _ _ _ Hvs' Hv) as (x & Hx & Hxv). congruence.
    - (* adjacency *)
      split; cbn [m_groups].
      + intros g g' aff i f i' f'. unfold int_entry. split.
        * intros (l & es & Hl & Hb & Hen).
          destruct (nth_error fags g) as [lf|] eqn:Hlf.
          2:{ exfalso. apply nth_error_None in Hlf. assert (g < length fags') by (apply nth_error_Some; congruence). lia. }
          destruct (Hss' _ _ Hlf) as (a & Ha & _ & Hai). destruct (Hso' _ _ Hlf) as (b & Hb0 & Hbi & _).
          destruct (Hbd' _ _ Hlf) as (c & Hc0 & Hci & _).
          destruct (Hcomp' _ _ (Hgan _ _ _ _ Ha Hb0 Hc0)) as (ex & Hex & _ & _ & Hexb).
          rewrite Hl in Hex. injection Hex as ->.
          rewrite !in_app_iff in Hb. destruct Hb as [[Hb|[Hb|Hb]]|Hb].
          -- destruct (proj1 (Hai g' aff i f i' f') (ex_intro _ es (conj Hb Hen))) as (es0 & e & e' & H1 & H2 & H3 & H4).
             exists e, e'. split; [exists lf, es0; auto|auto].
          -- apply Hbi in Hb as (? & ? & ? & Hb). discriminate.
          -- apply Hci in Hb as (? & ? & Hb). discriminate.
          -- apply Hexb in Hb as (? & ? & Hb & _). discriminate.
        * intros (e & e' & (lf & es0 & Hlf & H1 & H2) & H3 & H4).
          destruct (Hss' _ _ Hlf) as (a & Ha & _ & Hai). destruct (Hso' _ _ Hlf) as (b & Hb0 & Hbi & _).
          destruct (Hbd' _ _ Hlf) as (c & Hc0 & Hci & _).
          destruct (Hcomp' _ _ (Hgan _ _ _ _ Ha Hb0 Hc0)) as (ex & Hex & _ & _ & Hexb).
          destruct (proj2 (Hai g' aff i f i' f')) as (es' & J1 & J2); [exists es0, e, e'; auto|].
          exists ((a ++ b ++ c) ++ ex), es'. split; [auto|]. split; [rewrite !in_app_iff; auto|auto].
      + intros g t q aff i f k f'. unfold part_entry, int_entry. split.
        * intros (l & es & Hl & Hb & Hen).
          destruct (nth_error fags g) as [lf|] eqn:Hlf.
          2:{ exfalso. apply nth_error_None in Hlf. assert (g < length fags') by (apply nth_error_Some; congruence). lia. }
          destruct (Hss' _ _ Hlf) as (a & Ha & Hai & _). destruct (Hso' _ _ Hlf) as (b & Hb0 & Hbi & Hbe).
          destruct (Hbd' _ _ Hlf) as (c & Hc0 & Hci & _).
          destruct (Hcomp' _ _ (Hgan _ _ _ _ Ha Hb0 Hc0)) as (ex & Hex & _ & _ & Hexb).
          rewrite Hl in Hex. injection Hex as ->.
          rewrite !in_app_iff in Hb. destruct Hb as [[Hb|[Hb|Hb]]|Hb].
          -- apply Hai in Hb as (? & ? & ? & Hb). discriminate.
          -- pose proof Hb as Hb1. apply Hbi in Hb1 as (q1 & es1 & aff1 & Heq). inversion Heq; subst t q1 es1 aff1.
             destruct (proj1 (Hbe q aff i f k f') (ex_intro _ es (conj Hb Hen))) as (g' & es0 & e & e' & H1 & H2 & H3 & H4 & H5).
             split; [auto|]. split; [auto|]. exists g', e, e'. split; [exists lf, es0; auto|auto].
          -- apply Hci in Hb as (? & ? & Hb). discriminate.
          -- apply Hexb in Hb as (? & ? & Hb & _). discriminate.
        * intros (-> & Hq & g' & e & e' & (lf & es0 & Hlf & H1 & H2) & H3 & H4).
          destruct (Hss' _ _ Hlf) as (a & Ha & Hai & _). destruct (Hso' _ _ Hlf) as (b & Hb0 & Hbi & Hbe).
          destruct (Hbd' _ _ Hlf) as (c & Hc0 & Hci & _).
          destruct (Hcomp' _ _ (Hgan _ _ _ _ Ha Hb0 Hc0)) as (ex & Hex & _ & _ & Hexb).
          destruct (proj2 (Hbe q aff i f k f')) as (es' & J1 & J2); [exists g', es0, e, e'; auto|].
          exists ((a ++ b ++ c) ++ ex), es'. split; [auto|]. split; [rewrite !in_app_iff; auto|auto].
    - (* boundaries *)
      unfold part_boundaries; cbn [m_groups]. intros g t i f Ht.
      split.
      + intros (l & Hl & b0 & Hb & Hbt & Hif).
        destruct (nth_error fags g) as [lf|] eqn:Hlf.
        2:{ exfalso. apply nth_error_None in Hlf. assert (g < length fags') by (apply nth_error_Some; congruence). lia. }
        destruct (Hss' _ _ Hlf) as (a & Ha & Hai & _). destruct (Hso' _ _ Hlf) as (b & Hb0 & Hbi & Hbe).
        destruct (Hbd' _ _ Hlf) as (c & Hc0 & Hci & Hcc & Hcb).
        destruct (Hcomp' _ _ (Hgan _ _ _ _ Ha Hb0 Hc0)) as (ex & Hex & Hext & _ & Hexb).
        rewrite Hl in Hex. injection Hex as ->.
        rewrite !in_app_iff in Hb. destruct Hb as [[Hb|[Hb|Hb]]|Hb].
        * apply Hai in Hb as (? & ? & ? & ->). discriminate.
        * right. pose proof Hb as Hb1. apply Hbi in Hb1 as (q1 & es1 & aff1 & ->). cbn in Hif.
          apply in_map_iff in Hif as ((x & (k & f')) & Heq & Hen). cbn in Heq. subst x. cbn in Hbt. injection Hbt as <-.
          exists q1, aff1, k, f'. exists ((a ++ b ++ c) ++ ex), es1. split; [auto|]. split; [rewrite !in_app_iff; auto|auto].
        * left. destruct (proj1 (Hcb t i f)) as (e & He & Hi); [exists b0; auto|]. exists e. split; [exists lf; auto|auto].
        * exfalso. assert (Hin' : In (Some t) (map bdry_tag ex)) by (rewrite <- Hbt; now apply in_map).
          apply Hext in Hin' as (Hsys & Hnc). destruct Ht as (lf' & Hlf' & Hcar).
          { unfold system_tag. cbn in Hsys. intuition. }
          injection Hlf' as <-. apply Hnc. apply Hcc in Hcar as (b1 & Hb1 & Hb1t). exists b1. split; auto. rewrite !in_app_iff; auto.
      + intros [(e & (lf & Hlf & He) & Hi)|(q & aff & k & f' & l & es & Hl & Hb & Hen)].
        * destruct (Hss' _ _ Hlf) as (a & Ha & Hai & _). destruct (Hso' _ _ Hlf) as (b & Hb0 & Hbi & Hbe).
          destruct (Hbd' _ _ Hlf) as (c & Hc0 & Hci & Hcc & Hcb).
          destruct (Hcomp' _ _ (Hgan _ _ _ _ Ha Hb0 Hc0)) as (ex & Hex & Hext & _ & Hexb).
          destruct (proj2 (Hcb t i f)) as (b1 & Hb1 & Hb1t & Hb1f); [eauto|].
          exists ((a ++ b ++ c) ++ ex). split; auto. exists b1. split; [rewrite !in_app_iff; auto|auto].
        * exists l. split; auto. exists (InterPart g t q es aff). split; auto. split; auto. cbn.
          apply in_map_iff. exists ((i, f), (k, f')). auto.
    - (* lists *)
      split; cbn [m_groups].
      { intros g grp Hg. destruct (Hgrp _ _ Hg) as (grp' & vi' & Hg' & Hfvi & _). eauto. }
      intros g lf Hlf.
      destruct (Hss' _ _ Hlf) as (a & Ha & Hai & Hae). destruct (Hso' _ _ Hlf) as (b & Hb0 & Hbi & Hbe).
      destruct (Hbd' _ _ Hlf) as (c & Hc0 & Hci & Hcc & Hcb).
      destruct (Hcomp' _ _ (Hgan _ _ _ _ Ha Hb0 Hc0)) as (ex & Hex & Hext & _ & Hexb).
      destruct (self_to_other_once groups groups' fags parts p self els g2p HK Hself Hg2ps Hg2plen Hlen' Himg Hwf con so g lf b Hso (connected_NoDup groups fags parts self g2p HK con Hcon) Hlf Hb0) as (Hone1 & Hone2).
      exists ((a ++ b ++ c) ++ ex). split; [exact Hex|].
      assert (Habc : forall b0 i f, In b0 (a ++ b ++ c) -> In (i, f) (fag_faces b0) -> exists b1 e, In b1 lf /\ In (e, f) (fag_faces b1) /\ image groups groups' parts p g e i).
      { intros b0 i f HBin Hif. rewrite !in_app_iff in HBin. destruct HBin as [HBin|[HBin|HBin]].
        - pose proof HBin as HBin1. apply Hai in HBin1 as (g' & es & aff & ->). cbn [fag_faces] in Hif. apply in_map_iff in Hif as ((x & (i' & f')) & Heq & Hen). cbn [fst] in Heq. subst x.
          destruct (proj1 (Hae g' aff i f i' f')) as (es0 & e & e' & H1 & H2 & H3 & _); [eauto|]. exists (Interior g g' es0 aff), e. split; [exact H1|]. split; [|exact H3]. cbn [fag_faces]. apply in_map_iff. exists ((e, f), (e', f')). auto.
        - pose proof HBin as HBin1. apply Hbi in HBin1 as (q & es & aff & ->). cbn [fag_faces] in Hif. apply in_map_iff in Hif as ((x & (k & f')) & Heq & Hen). cbn [fst] in Heq. subst x.
          destruct (proj1 (Hbe q aff i f k f')) as (g' & es0 & e & e' & H1 & H2 & H3 & _); [eauto|]. exists (Interior g g' es0 aff), e. split; [exact H1|]. split; [|exact H3]. cbn [fag_faces]. apply in_map_iff. exists ((e, f), (e', f')). auto.
        - pose proof HBin as HBin1. apply Hci in HBin1 as (t & fs & ->). destruct (proj1 (Hcb t i f)) as (e & (b1 & Hb1 & _ & He) & Hi); [exists (Boundary g t fs); auto|]. exists b1, e. auto. }
      split; [|split; [|split]].
      + intros b0 HBin. rewrite !in_app_iff in HBin. destruct HBin as [[HBin|[HBin|HBin]]|HBin].
        * apply Hai in HBin as (g' & es & aff & ->). reflexivity.
        * apply Hbi in HBin as (q & es & aff & ->). reflexivity.
        * apply Hci in HBin as (t & fs & ->). reflexivity.
        * apply Hexb in HBin as (t & fs & -> & _). reflexivity.
      + intros b0 i f HBin Hif. apply in_app_iff in HBin as [HBin|HBin]; [exact (Habc b0 i f HBin Hif)|].
        assert (Ht : exists t, bdry_tag b0 = Some t /\ In t [TNone; TAll; TReallyAll]).
        { pose proof HBin as HBin1. apply Hexb in HBin1 as (t & fs & -> & _). exists t. split; [reflexivity|]. apply (proj1 (Hext t)). apply in_map_iff. exists (Boundary g t fs). auto. }
        destruct Ht as (t & Ht & Hsys). apply Hexb in HBin as (t' & fs & -> & _ & E1 & E2 & E3). cbn [bdry_tag] in Ht. injection Ht as ->. cbn [fag_faces] in Hif.
        assert (Hbd0 : exists t', in_bdry (a ++ b ++ c) t' (i, f)).
        { destruct Hsys as [<-|[<-|[<-|[]]]]; [rewrite (E1 eq_refl) in Hif; destruct Hif|apply (E2 eq_refl) in Hif; destruct Hif as (t' & _ & _ & H); eauto|now apply (E3 eq_refl) in Hif]. }
        destruct Hbd0 as (t' & b0 & Hb & _ & Hf0). exact (Habc b0 i f Hb Hf0).
      + intros ig t q es aff HBin. rewrite !in_app_iff in HBin. destruct HBin as [[HBin|[HBin|HBin]]|HBin].
        * apply Hai in HBin as (? & ? & ? & Heq). discriminate.
        * eapply Hone1; eauto.
        * apply Hci in HBin as (? & ? & Heq). discriminate.
        * apply Hexb in HBin as (? & ? & Heq & _). discriminate.
      + intros q Hnd Hnc. rewrite !filter_app.
        assert (Hnil : forall l0, (forall b0, In b0 l0 -> bdry_tag b0 <> Some (TPartition q)) -> filter (has_tag (TPartition q)) l0 = @nil (fagrp A)).
        { intros l0 H0. destruct (filter (has_tag (TPartition q)) l0) as [|b0 r] eqn:Ef; [reflexivity|]. exfalso. assert (Hb : In b0 (filter (has_tag (TPartition q)) l0)) by (rewrite Ef; now left). apply filter_In in Hb as (Hb & Ht). apply has_tag_iff in Ht. exact (H0 b0 Hb Ht). }
        rewrite (Hnil a), (Hnil c), (Hnil ex).
        * rewrite !app_nil_r. exact (Hone2 q Hnd).
        * intros b0 Hb Ht. assert (HBin' : In (Some (TPartition q)) (map bdry_tag ex)) by (rewrite <- Ht; now apply in_map). apply Hext in HBin' as (Hsys & _). destruct Hsys as [H|[H|[H|[]]]]; discriminate.
        * intros b0 Hb Ht. apply Hnc. apply Hcc. exists b0. auto.
        * intros b0 Hb. apply Hai in Hb as (? & ? & ? & ->). discriminate.
  Qed.
End Main.

(** ** All parts *)
Section All.
  Context {E A V : Type}.
  Variables (garbage : nat -> list (nat * nat)) (vs : list V) (groups : list (egroup E)) (fags : list (list (fagrp A)))
            (conforming : option bool) (parts : partdict).
  Let sizes := map nelements groups.

  Definition part_ok (p : nat) (m : mesh E A V) (fags' : list (list (fagrp A))) : Prop :=
    part_geometry groups vs parts p m /\ m_facial m = Available fags' /\ length fags' = length groups /\
    part_adjacency groups fags parts p m fags' /\ part_boundaries groups fags parts p m fags' /\
    m_conforming m = conforming /\ part_lists groups fags parts p m fags'.

  Lemma partition_mesh_spec rp :
    valid_partition (sum sizes) parts -> (forall p, length (garbage p) = sum sizes) ->
    groups <> [] -> has_rows groups -> rows_in_range (length vs) groups -> fags_wf groups fags ->
    incl (requested parts rp) (map fst parts) ->
    exists ms, partition_mesh garbage (Some vs) groups (Ok fags) conforming parts rp = Ok ms /\
      map fst ms = requested parts rp /\
      forall p m, In (p, m) ms -> exists fags', part_ok p m fags'.
  Proof.
    intros HV HG Hne Hrows Hrange Hwf Hincl. unfold partition_mesh.
    set (rl := requested parts rp) in *.
    replace (match rp with None => map fst parts | Some l => l end) with rl by reflexivity.
    assert (Hstep : forall p, In p rl -> exists m fags',
       get_mesh_part (garbage p) (Some vs) groups (Ok fags) conforming parts p = Ok m /\ part_ok p m fags').
    { intros p Hp. apply Hincl in Hp.
      destruct (get_mesh_part_spec (garbage p) vs groups fags conforming parts p HV (HG p) Hne Hrows Hrange Hwf Hp)
        as (m & fags' & H1 & H2). exists m, fags'. split; auto. }
    clearbody rl. clear Hincl. induction rl as [|p rl IH].
    - exists []. split; [reflexivity|]. split; [reflexivity|]. intros p m [].
    - destruct IH as (ms & Hms & Hmf & HIn). { intros q Hq. apply Hstep. now right. }
      destruct (Hstep p (or_introl eq_refl)) as (m & fags' & Hm & Hok).
      exists ((p, m) :: ms). cbn [mapM]. rewrite Hm. cbn [bind]. rewrite Hms. cbn [bind].
      split; [reflexivity|]. split; [cbn; congruence|]. intros q m' [Heq|Hin]; [|eauto].
      injection Heq as <- <-. eauto.
  Qed.

  (** If two parts agree with the specification, their inter-part entries mirror each other. *)
  Lemma mutual (R : A -> A -> Prop) p q mp mq fp fq :
    part_ok p mp fp -> part_ok q mq fq ->
    (forall g g' aff e f e' f', int_entry fags g g' aff ((e, f), (e', f')) ->
       exists aff', R aff aff' /\ int_entry fags g' g aff' ((e', f'), (e, f))) ->
    valid_partition (sum sizes) parts -> fags_wf groups fags ->
    forall g t aff i f k f', part_entry fp g t q aff ((i, f), (k, f')) ->
    exists g' i' aff', k = base (map nelements (m_groups mq)) g' + i' /\ R aff aff' /\
      part_entry fq g' (TPartition p) p aff' ((i', f'), (base (map nelements (m_groups mp)) g + i, f)).
  Proof.
    intros (HGp & _ & _ & HAp & _) (HGq & _ & _ & HAq & _) Hsym HV Hwf g t aff i f k f' Hen.
    apply (pa_part _ _ _ _ _ _ HAp) in Hen as (-> & Hqp & g' & e & e' & Hint & Hi & Ha).
    destruct (Hsym _ _ _ _ _ _ _ Hint) as (aff' & HR & Hint').
    destruct (pg_all _ _ _ _ _ HGq _ _ Ha) as (g1 & j & j' & Heq & Hk & Himg).
    assert (Hown : g1 = g' /\ j = e').
    { destruct Hint as (l & es & Hl & Hb & Hen). destruct Hwf as (_ & _ & _ & Hn).
      destruct (Hn _ _ _ _ _ Hl Hb) as (grp' & Hg' & Hr). specialize (Hr _ Hen). cbn in Hr.
      destruct Himg as (grp1 & grp1' & Hg1 & Hj & _).
      assert (Hs' : nth_error sizes g' = Some (nelements grp')) by (unfold sizes; rewrite nth_error_map, Hg'; reflexivity).
      assert (Hs1 : nth_error sizes g1 = Some (nelements grp1)) by (unfold sizes; rewrite nth_error_map, Hg1; reflexivity).
      fold sizes in Heq.
      assert (g1 = g').
      { apply (owns_unique sizes g1 g' (base sizes g1 + j)); [exists (nelements grp1)|exists (nelements grp')]; split; auto; lia. }
      subst g1. split; auto. lia. }
    destruct Hown as (-> & ->).
    exists g', j', aff'. split; [auto|]. split; [auto|].
    apply (pa_part _ _ _ _ _ _ HAq). split; [auto|]. split; [congruence|]. exists g, e', e. split; [auto|]. split; [auto|].
    destruct Hi as (grp & grp' & _ & _ & _ & _ & Hass). exact Hass.
  Qed.

  Lemma partition_mesh_rejects rp fags0 vertices :
    NoDup (map fst parts) -> (forall e p k, assigned parts e p k -> e < sum sizes) ->
    requested parts rp <> [] ->
    (exists e, e < sum sizes /\ forall p k, ~ assigned parts e p k) \/
    (exists e p q k l, p <> q /\ assigned parts e p k /\ assigned parts e q l) ->
    partition_mesh garbage vertices groups fags0 conforming parts rp = Err ValueError :> res (list (nat * mesh E A V)).
  Proof.
    intros HK Hr Hne Hbad. unfold partition_mesh.
    change (match rp with None => map fst parts | Some l => l end) with (requested parts rp).
    destruct (requested parts rp) as [|p rl]; [congruence|]. cbn [mapM].
    assert (HE : get_mesh_part (garbage p) vertices groups fags0 conforming parts p = Err ValueError :> res (mesh E A V)).
    { unfold get_mesh_part. destruct vertices as [vs0|]; [|reflexivity]. cbv zeta. fold sizes.
      destruct (element_counts_spec (sum sizes) parts) as (cs & Hcs & Hlen & Hn).
      { intros q els e H He. apply In_nth_error in He as (k & Hk). eapply Hr. exists els; eauto. }
      rewrite Hcs. cbn [bind].
      destruct (existsb (fun c => 1 <? c) cs) eqn:H1; [reflexivity|]. cbn [negb guard bind].
      assert (H2 : existsb (fun c => c <? 1) cs = true); [|rewrite H2; reflexivity].
      destruct Hbad as [(e & He & Hna)|(e & q & q' & k & l & Hneq & Ha & Hb)].
      - apply existsb_exists. exists (nparts_with e (map snd parts)). split; [eapply nth_error_In; eauto|].
        apply Nat.ltb_lt. destruct (nparts_with e (map snd parts)) eqn:Hnp; [lia|].
        exfalso. destruct (proj1 (nparts_with_pos e parts) ltac:(lia)) as (q & k & Ha). eapply Hna; eauto.
      - exfalso. apply Bool.not_true_iff_false in H1. apply H1. apply existsb_exists.
        exists (nparts_with e (map snd parts)). split; [eapply nth_error_In; eauto|].
        apply Nat.ltb_lt. apply (nparts_with_two e parts HK). exists q, q', k, l. auto. }
    rewrite HE. reflexivity.
  Qed.
End All.
