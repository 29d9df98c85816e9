(** * Proofs for [compute_facial_adjacency]. *)
From Coq Require Import List Arith Bool ZArith Lia Permutation Sorted.
From Verif Require Import Np NpFacts MeshModel MeshSpec MeshProofs CompletionProofs FaceProofs.
Import ListNotations.

Lemma In_combine_nth {X Y} (l : list X) (r : list Y) x y :
  In (x, y) (combine l r) <-> exists i, nth_error l i = Some x /\ nth_error r i = Some y.
Proof.
  revert r; induction l as [|a l IH]; intros [|b r]; cbn [combine In].
  - split; [tauto|intros (i & H & _); destruct i; discriminate].
  - split; [tauto|intros (i & H & _); destruct i; discriminate].
  - split; [tauto|intros (i & _ & H); destruct i; discriminate].
  - split.
    + intros [E|H]; [inversion E; subst; exists 0; auto|].
      apply IH in H as (i & H1 & H2). exists (S i); auto.
    + intros ([|i] & H1 & H2); cbn in *; [left; congruence|]. right. apply IH. eauto.
Qed.

Lemma In_compress {X} m (l : list X) x :
  In x (compress m l) <-> exists i, nth_error m i = Some true /\ nth_error l i = Some x.
Proof.
  unfold compress. rewrite in_map_iff. split.
  - intros ((b, y) & E & H). cbn in E; subst. apply filter_In in H as (H & Hb). cbn in Hb; subst.
    now apply In_combine_nth.
  - intros H. exists (true, x). split; auto. apply filter_In. split; auto. now apply In_combine_nth.
Qed.

Lemma NoDup_compress {X} m (l : list X) : NoDup l -> NoDup (compress m l).
Proof.
  unfold compress. intros H. revert m. induction H as [|x l Hx H IH]; intros [|b m]; cbn; try constructor.
  destruct b; cbn; auto. constructor; auto. intros Hin. apply Hx.
  apply in_map_iff in Hin as ((b, y) & E & Hin). cbn in E; subst. apply filter_In in Hin as (Hin & _).
  now apply in_combine_r in Hin.
Qed.

(** *** Set comparison of vertex tuples *)
Lemma set_eqb_iff a b : set_eqb a b = true <-> (forall v, In v a <-> In v b).
Proof.
  unfold set_eqb. rewrite andb_true_iff, !forallb_forall. split.
  - intros (H1 & H2) v. split; intros H; apply memb_In; auto.
  - intros H. split; intros x Hx; apply memb_In; apply H; auto.
Qed.

Section Facial.
  Context {E A : Type}.
  Variable aff_id : A.
  Variable tag_order : list btag -> list btag.
  Hypothesis tag_order_In : forall l t, In t (tag_order l) <-> In t l.

  Variable groups : list (egroup E).
  Hypothesis HW : has_rows groups.
  Hypothesis HF : faces_wf groups.

  Variable idp : list (faceid * faceid).
  Hypothesis Hidp : forall a b, In (a, b) idp <-> partner groups a b.
  Hypothesis HidpN : NoDup idp.

  (** the tag map assigns [t] to face [a] *)
  Definition looked_up (tm : option tagmap) (a : faceid) (t : btag) : Prop :=
    exists m vs ts, tm = Some m /\ face_verts groups a vs /\ tag_lookup m vs = Some ts /\ In t ts.

  Definition untagged (tm : option tagmap) (a : faceid) : Prop := boundary_face groups a /\ forall t, ~ looked_up tm a t.

  Lemma boundary_groups_spec tm g grp vi (fhn : mask2) :
    nth_error groups g = Some grp -> eg_vi grp = Some vi ->
    (forall e f, e < nelements grp -> f < nfaces grp -> (fhn f e = true <-> exists b, partner groups (g, e, f) b)) ->
    exists l, boundary_groups (A:=A) tag_order tm g grp vi fhn = Ok l /\
      (forall b, In b l -> exists t fs, b = Boundary g t fs /\ fs <> [] /\ NoDup fs) /\
      forall t e f, in_bdry l t (e, f) <->
        boundary_face groups (g, e, f) /\ (looked_up tm (g, e, f) t \/ (t = TAll /\ exists e' f', untagged tm (g, e', f'))).
  Proof using HW HF tag_order_In.
    intros Hg Hvi Hfhn. unfold boundary_groups.
    set (bdry := filter (fun rc : nat * nat => negb (fhn (fst rc) (snd rc))) (grid (nfaces grp) (nelements grp))).
    assert (Hbdry : forall f e, In (f, e) bdry <-> boundary_face groups (g, e, f)).
    { intros f e. unfold bdry. rewrite filter_In, In_grid. cbn [fst snd]. unfold boundary_face. split.
      - intros ((H1 & H2) & H3). split; [exists grp; auto|]. intros b Hb.
        rewrite (proj2 (Hfhn e f H2 H1)) in H3 by eauto. discriminate.
      - intros ((grp' & Hg' & He & Hf) & Hn). assert (grp' = grp) by congruence; subst.
        split; auto. destruct (fhn f e) eqn:Ef; auto. apply Hfhn in Ef as (b & Hb); auto. exfalso; eapply Hn; eauto. }
    assert (HNb : NoDup bdry) by (apply NoDup_filter', NoDup_grid).
    destruct (Nat.eqb_spec (length bdry) 0) as [H0|H0].
    { exists []. split; auto. split; [intros b []|]. intros t e f. split; [intros (b & [] & _)|].
      intros (H & _). apply Hbdry in H. apply length_zero_iff_nil in H0. rewrite H0 in H. contradiction. }
    set (tagsof := fun fe : nat * nat =>
                     match tm with
                     | None => Ok []
                     | Some m => ref <- get (eg_fvi grp) (fst fe) ;; row <- get vi (snd fe) ;;
                                 vs <- take row ref ;;
                                 match tag_lookup m vs with None => Ok [] | Some ts => Ok ts end
                     end).
    assert (Htags : forall f e, In (f, e) bdry -> exists ts, tagsof (f, e) = Ok ts /\
               forall t, In t ts <-> looked_up tm (g, e, f) t).
    { intros f e Hin. apply Hbdry in Hin as (Hv & _).
      destruct (valid_face_verts groups (g, e, f) HW HF Hv) as (vs & Hvs).
      assert (Hvs' := Hvs). destruct Hvs' as (grp' & row & ref & Hg' & (grp2 & vi2 & Hg2 & Hvi2 & _ & Hrow) & Href & HV).
      assert (grp' = grp) by congruence. assert (grp2 = grp) by congruence. subst.
      assert (vi2 = vi) by congruence. subst.
      unfold tagsof. destruct tm as [m|].
      - cbn [fst snd]. unfold get. rewrite Href, Hrow. cbn [bind]. rewrite (proj2 (take_ok row ref vs) HV). cbn [bind].
        destruct (tag_lookup m vs) as [ts|] eqn:Et.
        + exists ts. split; auto. intros t. split.
          * intros Ht. exists m, vs, ts. auto.
          * intros (m' & vs' & ts' & Em & Hvs' & Et' & Ht). inversion Em; subst.
            assert (vs' = vs) by (eapply face_verts_fun; eauto). subst. congruence.
        + exists []. split; auto. intros t. split; [intros []|].
          intros (m' & vs' & ts' & Em & Hvs' & Et' & Ht). inversion Em; subst.
          assert (vs' = vs) by (eapply face_verts_fun; eauto). subst. congruence.
      - exists []. split; auto. intros t. split; [intros []|]. intros (m & ? & ? & Em & _). discriminate. }
    destruct (mapM_total tagsof bdry) as (fts & Hfts).
    { intros (f, e) Hin. destruct (Htags f e Hin) as (ts & H & _). eauto. }
    fold tagsof. rewrite Hfts. cbn [bind].
    set (tags := match tm with None => [] | Some m => tag_order (concat (map snd m)) end).
    assert (Hfnth : forall i f e, nth_error bdry i = Some (f, e) -> exists ts, nth_error fts i = Some ts /\
               forall t, In t ts <-> looked_up tm (g, e, f) t).
    { intros i f e Hi. destruct (mapM_nth _ _ _ _ _ Hfts Hi) as (ts & Hts & Ho).
      destruct (Htags f e) as (ts' & Ho' & Hs); [eapply nth_error_In; eauto|].
      exists ts. split; auto. assert (ts = ts') by congruence. now subst. }
    assert (Hfnth_r : forall i ts, nth_error fts i = Some ts -> exists f e, nth_error bdry i = Some (f, e) /\
               forall t, In t ts <-> looked_up tm (g, e, f) t).
    { intros i ts Hi. destruct (mapM_nth_r _ _ _ _ _ Hfts Hi) as ((f, e) & Hts & Ho).
      exists f, e. split; auto. destruct (Hfnth i f e Hts) as (ts' & Ho' & Hs).
      assert (ts = ts') by congruence. now subst. }
    assert (Hcomp : forall t f e, In (f, e) (compress (map (btag_memb t) fts) bdry) <->
               boundary_face groups (g, e, f) /\ looked_up tm (g, e, f) t).
    { intros t f e. rewrite In_compress. split.
      - intros (i & H1 & H2). rewrite nth_error_map in H1. destruct (nth_error fts i) as [ts|] eqn:Ei; [|discriminate].
        cbn in H1. inversion H1 as [H1']. apply btag_memb_In in H1'.
        destruct (Hfnth i f e H2) as (ts' & Ei' & Hs). assert (ts' = ts) by congruence. subst.
        split; [apply Hbdry; eapply nth_error_In; eauto|now apply Hs].
      - intros (H1 & H2). apply Hbdry in H1. apply In_nth_error in H1 as (i & Hi).
        destruct (Hfnth i f e Hi) as (ts & Ei & Hs). exists i. split; auto.
        rewrite nth_error_map, Ei. cbn. f_equal. apply btag_memb_In. now apply Hs. }
    assert (Htagsin : forall a t, looked_up tm a t -> In t tags).
    { intros a t (m & vs & ts & -> & _ & Hl & Ht). unfold tags. apply tag_order_In. apply in_concat.
      exists ts. split; auto. clear -Hl. induction m as [|(k, ts') m IH]; cbn in *; [discriminate|].
      destruct (set_eqb k vs); [inversion Hl; now left|right; auto]. }
    set (untg := existsb (fun b => b) (map (fun ts => negb (existsb (fun t => btag_memb t ts) tags)) fts)).
    assert (Huntg : untg = true <-> exists e' f', untagged tm (g, e', f')).
    { unfold untg. rewrite existsb_exists. split.
      - intros (b & Hb & ->). apply in_map_iff in Hb as (ts & Hb & Hin).
        apply In_nth_error in Hin as (i & Hi). destruct (Hfnth_r i ts Hi) as (f & e & Hfe & Hs).
        exists e, f. split; [apply Hbdry; eapply nth_error_In; eauto|].
        intros t Ht. apply negb_true_iff in Hb.
        assert (X : existsb (fun t => btag_memb t ts) tags = true).
        { apply existsb_exists. exists t. split; [eauto|]. apply btag_memb_In. now apply Hs. }
        congruence.
      - intros (e & f & (Hb & Hn)). apply Hbdry in Hb. apply In_nth_error in Hb as (i & Hi).
        destruct (Hfnth i f e Hi) as (ts & Hts & Hs). exists true. split; auto.
        apply in_map_iff. exists ts. split; [|eapply nth_error_In; eauto].
        apply negb_true_iff. destruct (existsb (fun t => btag_memb t ts) tags) eqn:X; auto.
        apply existsb_exists in X as (t & _ & Ht). apply btag_memb_In in Ht. apply Hs in Ht. exfalso; eapply Hn; eauto. }
    eexists. split; [reflexivity|]. fold untg. split.
    - intros b Hb. apply in_app_or in Hb as [Hb|Hb].
      + apply in_concat in Hb as (lb & Hlb & Hb). apply in_map_iff in Hlb as (t & <- & Ht).
        cbn zeta in Hb.
        destruct (Nat.eqb_spec (length (compress (map (btag_memb t) fts) bdry)) 0) as [Hz|Hz]; [contradiction|].
        destruct Hb as [<-|[]]. exists t, (map swap2 (compress (map (btag_memb t) fts) bdry)).
        split; auto. split.
        * intros X. apply map_eq_nil in X. rewrite X in Hz. now apply Hz.
        * apply NoDup_map_swap2, NoDup_compress; auto.
      + destruct untg; [|contradiction]. destruct Hb as [<-|[]]. exists TAll, (map swap2 bdry).
        split; auto. split; [|now apply NoDup_map_swap2].
        intros X. apply map_eq_nil in X. rewrite X in H0. now apply H0.
    - intros t e f. split.
      + intros (b & Hb & Ht & Hin). apply in_app_or in Hb as [Hb|Hb].
        * apply in_concat in Hb as (lb & Hlb & Hb). apply in_map_iff in Hlb as (t' & <- & Ht').
          cbn zeta in Hb.
          destruct (Nat.eqb_spec (length (compress (map (btag_memb t') fts) bdry)) 0) as [Hz|Hz]; [contradiction|].
          destruct Hb as [<-|[]]. cbn in Ht. inversion Ht; subst t'. cbn [fag_faces] in Hin.
          rewrite In_map_swap2 in Hin. apply Hcomp in Hin as (H1 & H2). auto.
        * destruct untg eqn:Eu; [|contradiction]. destruct Hb as [<-|[]]. cbn in Ht. inversion Ht; subst t.
          cbn [fag_faces] in Hin. rewrite In_map_swap2 in Hin. split; [now apply Hbdry|]. right. split; auto. now apply Huntg.
      + intros (HB & [Hl|(-> & Hu)]).
        * set (fs := compress (map (btag_memb t) fts) bdry).
          assert (Hin : In (f, e) fs) by (apply Hcomp; auto).
          exists (Boundary g t (map swap2 fs)). split; [|split; [reflexivity|cbn; now apply In_map_swap2]].
          apply in_or_app. left. apply in_concat. exists [Boundary g t (map swap2 fs)]. split; [|now left].
          apply in_map_iff. exists t. split; [|eauto]. cbn zeta. fold fs.
          destruct (Nat.eqb_spec (length fs) 0) as [Hz|Hz]; auto. apply length_zero_iff_nil in Hz. rewrite Hz in Hin. contradiction.
        * exists (Boundary g TAll (map swap2 bdry)). split; [|split; [reflexivity|cbn; apply In_map_swap2; now apply Hbdry]].
          apply in_or_app. right. rewrite (proj2 Huntg Hu). now left.
  Qed.

  Lemma facial_group_spec tm g grp :
    nth_error groups g = Some grp ->
    exists l, facial_group aff_id tag_order tm idp g grp = Ok l /\
      (forall b, In b l -> (exists g' es, b = Interior g g' es aff_id) \/
                           (exists t fs, b = Boundary g t fs /\ fs <> [] /\ NoDup fs)) /\
      NoDup (interior_entries l) /\
      (forall g' e f e' f', In (g', ((e, f), (e', f'))) (interior_entries l) <->
                            partner groups (g, e, f) (g', e', f')) /\
      forall t e f, in_bdry l t (e, f) <->
        boundary_face groups (g, e, f) /\ (looked_up tm (g, e, f) t \/ (t = TAll /\ exists e' f', untagged tm (g, e', f'))).
  Proof using HW HF tag_order_In Hidp HidpN.
    intros Hg. unfold facial_group.
    unfold has_rows in HW. pose proof HW as HW'. rewrite Forall_forall in HW'.
    destruct (HW' grp) as (vi & Hvi & Hl); [eapply nth_error_In; eauto|]. rewrite Hvi.
    set (mine := filter (fun p : faceid * faceid => fid_group (fst p) =? g) idp).
    set (connected := unique (map (fun p : faceid * faceid => fid_group (snd p)) mine)).
    set (towards := fun n => filter (fun p : faceid * faceid => fid_group (snd p) =? n) mine).
    assert (Hmine : forall g' e f a, In ((g', e, f), a) mine <-> g' = g /\ partner groups (g', e, f) a).
    { intros g' e f a. unfold mine. rewrite filter_In, Hidp. cbn. rewrite Nat.eqb_eq. tauto. }
    assert (Htow : forall n a g2 e2 f2, In (a, (g2, e2, f2)) (towards n) <-> g2 = n /\ In (a, (g2, e2, f2)) mine).
    { intros. unfold towards. rewrite filter_In. cbn. rewrite Nat.eqb_eq. tauto. }
    destruct (foldM_mset_spec (nfaces grp) (nelements grp)
       (fun n => map (fun p : faceid * faceid => (fid_face (fst p), fid_elem (fst p))) (towards n)) connected mfalse)
      as (fhn & Hfhn & Sfhn).
    { intros n r c Hn Hin. apply in_map_iff in Hin as ((((g1, e1), f1), ((g2, e2), f2)) & Eq & Hin).
      cbn in Eq. inversion Eq; subst. apply Htow in Hin as (_ & Hin). apply Hmine in Hin as (-> & Hp).
      destruct Hp as ((grp' & Hg' & H1 & H2) & _). assert (grp' = grp) by congruence. subst. auto. }
    cbv zeta.
    replace (foldM _ connected mfalse) with (Ok fhn) by (symmetry; exact Hfhn). cbn [bind].
    destruct (boundary_groups_spec tm g grp vi fhn Hg Hvi) as (bl & Hbl & Hbl1 & Hbl2).
    { intros e f He Hf. rewrite Sfhn. split.
      - intros [Hfa|(n & Hn & Hin)]; [discriminate|].
        apply in_map_iff in Hin as ((((g1, e1), f1), ((g2, e2), f2)) & Eq & Hin).
        cbn in Eq. inversion Eq; subst. apply Htow in Hin as (_ & Hin). apply Hmine in Hin as (-> & Hp). eauto.
      - intros (((g2, e2), f2) & Hp). right. exists g2.
        assert (Hin : In ((g, e, f), (g2, e2, f2)) mine) by (apply Hmine; auto). split.
        + unfold connected. apply unique_In. apply in_map_iff. eexists; split; [|exact Hin]. reflexivity.
        + apply in_map_iff. exists ((g, e, f), (g2, e2, f2)). split; auto. apply Htow; auto. }
    set (int := map (fun n => Interior g n (map interior_entry (towards n)) aff_id) connected).
    rewrite Hbl. cbn [bind]. exists (int ++ bl). split; [reflexivity|].
    assert (Hbint : interior_entries bl = []).
    { clear -Hbl1. unfold interior_entries. induction bl as [|b bl IH]; auto. cbn.
      destruct (Hbl1 b) as (t & fs & -> & _); [now left|]. cbn. apply IH. intros; apply Hbl1; now right. }
    assert (Hie : interior_entries (int ++ bl) =
                  flat_map (fun n => map (pair n) (map interior_entry (towards n))) connected).
    { unfold interior_entries in *. rewrite flat_map_app, Hbint, app_nil_r. unfold int.
      generalize connected. intros c. induction c; cbn; congruence. }
    split; [|split; [|split]].
    - intros b Hb. apply in_app_or in Hb as [Hb|Hb]; [left|right; auto].
      unfold int in Hb. apply in_map_iff in Hb as (n & <- & _). eauto.
    - rewrite Hie. apply NoDup_flat_map.
      + apply incr_NoDup, unique_incr.
      + intros n _. apply NoDup_map_inj; [intros x y _ _ X; now inversion X|].
        apply NoDup_map_inj.
        * intros (((g1, e1), f1), ((g2, e2), f2)) (((g1', e1'), f1'), ((g2', e2'), f2')) H1 H2 X.
          apply Htow in H1 as (-> & H1). apply Htow in H2 as (-> & H2).
          apply Hmine in H1 as (-> & _). apply Hmine in H2 as (-> & _).
          unfold interior_entry in X. cbn in X. inversion X; subst; auto.
        * unfold towards, mine. now apply NoDup_filter', NoDup_filter'.
      + intros x y z _ _ H1 H2. apply in_map_iff in H1 as (? & <- & _). apply in_map_iff in H2 as (? & X & _). now inversion X.
    - intros g' e f e' f'. rewrite Hie, in_flat_map. split.
      + intros (n & _ & Hin). apply in_map_iff in Hin as (en & Eq & Hin). inversion Eq; subst.
        apply in_map_iff in Hin as ((((g1, e1), f1), ((g2, e2), f2)) & Eq' & Hin).
        apply Htow in Hin as (-> & Hin). apply Hmine in Hin as (-> & Hp).
        unfold interior_entry in Eq'. cbn in Eq'. inversion Eq'; subst. auto.
      + intros Hp. assert (Hin : In ((g, e, f), (g', e', f')) mine) by (apply Hmine; auto).
        exists g'. split.
        * unfold connected. apply unique_In. apply in_map_iff. eexists; split; [|exact Hin]. reflexivity.
        * apply in_map. apply in_map_iff. exists ((g, e, f), (g', e', f')). split; auto. apply Htow; auto.
    - intros t e f. rewrite <- Hbl2. unfold in_bdry. split.
      + intros (b & Hb & Ht & Hin). apply in_app_or in Hb as [Hb|Hb]; [|eauto].
        unfold int in Hb. apply in_map_iff in Hb as (n & <- & _). discriminate.
      + intros (b & Hb & Ht & Hin). exists b. split; auto. apply in_or_app; auto.
  Qed.
End Facial.

Lemma interior_entries_app {A} (l1 l2 : list (fagrp A)) :
  interior_entries (l1 ++ l2) = interior_entries l1 ++ interior_entries l2.
Proof. apply flat_map_app. Qed.

(** After completion *)
Lemma completed_group_spec {A} g (l l' : list (fagrp A)) :
  complete_group g l = Ok l' ->
  (forall b, In b l -> forall t, bdry_tag b = Some t -> fag_faces b <> []) ->
  interior_entries l' = interior_entries l /\
  (forall b, In b l' -> In b l \/ exists t fs, b = Boundary g t fs /\ NoDup fs) /\
  (forall t ef, in_bdry l' t ef <->
     in_bdry l t ef \/
     (t = TAll /\ (forall ef', ~ in_bdry l TAll ef') /\
        exists t', ~ not_a_boundary t' /\ t' <> TReallyAll /\ in_bdry l t' ef) \/
     (t = TReallyAll /\ (forall ef', ~ in_bdry l TReallyAll ef') /\ exists t', in_bdry l t' ef)).
Proof.
  intros H Hne. destruct (complete_group_spec g l) as (ex & Hok & Htags & Hex).
  rewrite H in Hok. inversion Hok; subst l'.
  assert (Hcar : forall t, carries l t <-> exists ef, in_bdry l t ef).
  { intros t. split.
    - intros (b & Hb & Ht). destruct (fag_faces b) as [|ef r] eqn:Ef; [exfalso; eapply Hne; eauto|].
      exists ef, b. rewrite Ef. repeat split; auto. now left.
    - intros (ef & b & Hb & Ht & _). exists b; auto. }
  split; [|split].
  - rewrite interior_entries_app. replace (interior_entries ex) with (@nil (nat * fentry)); [apply app_nil_r|].
    clear -Hex. induction ex as [|b ex IH]; auto. cbn.
    destruct (Hex b) as (t & fs & -> & _); [now left|]. cbn. apply IH. intros; apply Hex; now right.
  - intros b Hb. apply in_app_or in Hb as [Hb|Hb]; auto. right.
    destruct (Hex b Hb) as (t & fs & -> & HN & _). eauto.
  - assert (Hext : forall t, In (Some t) (map bdry_tag ex) <->
              In t [TNone; TAll; TReallyAll] /\ forall ef, ~ in_bdry l t ef).
    { intros t. rewrite Htags, in_map_iff. split.
      - intros (t' & Eq & Hin). inversion Eq; subst t'. apply filter_In in Hin as (H1 & H2). split; auto.
        intros ef Hef. assert (Hc : carries l t) by (apply Hcar; eauto). apply carries_existsb in Hc.
        rewrite Hc in H2. discriminate.
      - intros (H1 & H2). exists t. split; auto. apply filter_In. split; auto.
        destruct (existsb (has_tag t) (filter is_bdry l)) eqn:X; auto.
        apply carries_existsb in X. apply Hcar in X as (ef & Hef). exfalso; eapply H2; eauto. }
    intros t ef. split.
    + intros (b & Hb & Ht & Hin). apply in_app_or in Hb as [Hb|Hb]; [left; exists b; auto|right].
      assert (Hm : In (Some t) (map bdry_tag ex)) by (rewrite <- Ht; now apply in_map).
      apply Hext in Hm as (Hm & Hn).
      destruct (Hex b Hb) as (t' & fs & -> & HN & S1 & S2 & S3). cbn in Ht. inversion Ht; subst t'. cbn in Hin.
      destruct Hm as [<-|[<-|[<-|[]]]].
      * rewrite S1 in Hin by auto. contradiction.
      * left. split; auto. split; auto. now apply S2.
      * right. split; auto. split; auto. now apply S3.
    + intros [(b & Hb & Ht & Hin)|[(-> & Hn & Ht)|(-> & Hn & Ht)]].
      * exists b. repeat split; auto. apply in_or_app; auto.
      * assert (Hm : In (Some TAll) (map bdry_tag ex)) by (apply Hext; cbn; auto).
        apply in_map_iff in Hm as (b & Hbt & Hb). exists b. split; [apply in_or_app; auto|]. split; auto.
        destruct (Hex b Hb) as (t' & fs & -> & HN & S1 & S2 & S3). cbn in Hbt. inversion Hbt; subst t'. cbn. now apply S2.
      * assert (Hm : In (Some TReallyAll) (map bdry_tag ex)) by (apply Hext; cbn; auto).
        apply in_map_iff in Hm as (b & Hbt & Hb). exists b. split; [apply in_or_app; auto|]. split; auto.
        destruct (Hex b Hb) as (t' & fs & -> & HN & S1 & S2 & S3). cbn in Hbt. inversion Hbt; subst t'. cbn. now apply S3.
Qed.

(** what completion leaves of the raw labels *)
Definition raw_label {E} (groups : list (egroup E)) (tm : option tagmap) (t : btag) (a : faceid) : Prop :=
  boundary_face groups a /\
  (looked_up groups tm a t \/ (t = TAll /\ exists e' f', untagged groups tm (fst (fst a), e', f'))).

Lemma compute_facial_adjacency_spec {E A} (aff_id : A) tag_order tm (groups : list (egroup E)) :
  (forall l t, In t (tag_order l) <-> In t l) ->
  has_rows groups -> faces_wf groups -> (exists g, In g groups /\ eg_fvi g <> []) -> at_most_two groups ->
  exists fags, compute_facial_adjacency aff_id tag_order tm groups = Ok fags /\
    length fags = length groups /\
    (forall g l b, nth_error fags g = Some l -> In b l ->
       (exists g' es, b = Interior g g' es aff_id) \/ (exists t fs, b = Boundary g t fs /\ NoDup fs)) /\
    (forall g l, nth_error fags g = Some l -> NoDup (interior_entries l)) /\
    (forall a b, interior_adj fags a b <-> partner groups a b) /\
    (forall t a, bdry_adj fags t a <->
       raw_label groups tm t a \/
       (t = TAll /\ (forall e' f', ~ raw_label groups tm TAll (fst (fst a), e', f')) /\
          exists t', ~ not_a_boundary t' /\ t' <> TReallyAll /\ raw_label groups tm t' a) \/
       (t = TReallyAll /\ (forall e' f', ~ raw_label groups tm TReallyAll (fst (fst a), e', f')) /\
          exists t', raw_label groups tm t' a)).
Proof.
  intros Hto HW HF Hne H2. unfold compute_facial_adjacency.
  destruct groups as [|g0 gs0] eqn:Eg; [destruct Hne as (g & [] & _)|]. rewrite <- Eg in *. clear Eg g0 gs0.
  destruct (idpairs_spec groups HW HF Hne H2) as (pairs & idp & Hp & Hi & HN & Hsp).
  rewrite Hp; cbn [bind]. unfold idpairs_of in Hi. rewrite Hi; cbn [bind].
  destruct (mapM_total (fun ig : nat * egroup E => facial_group aff_id tag_order tm idp (fst ig) (snd ig)) (enumerate groups))
    as (raw & Hraw).
  { intros (g, grp) Hin. apply In_enumerate in Hin.
    destruct (facial_group_spec aff_id tag_order Hto groups HW HF idp Hsp HN tm g grp Hin) as (l & Hl & _). cbn; eauto. }
  rewrite Hraw; cbn [bind].
  destruct (complete_ok raw) as (fags & Hfags & Hlen & Hnth).
  assert (Hrl : length raw = length groups) by (rewrite (mapM_length _ _ _ Hraw), length_enumerate; auto).
  exists fags. split; auto. split; [congruence|].
  assert (Hgrp : forall g l', nth_error fags g = Some l' -> exists grp l, nth_error groups g = Some grp /\
     complete_group g l = Ok l' /\
     (forall b, In b l -> (exists g' es, b = Interior g g' es aff_id) \/
                           (exists t fs, b = Boundary g t fs /\ fs <> [] /\ NoDup fs)) /\
      NoDup (interior_entries l) /\
      (forall g' e f e' f', In (g', ((e, f), (e', f'))) (interior_entries l) <->
                            partner groups (g, e, f) (g', e', f')) /\
      forall t e f, in_bdry l t (e, f) <-> raw_label groups tm t (g, e, f)).
  { intros g l' Hl'. assert (g < length raw) by (rewrite <- Hlen; apply nth_error_Some; congruence).
    destruct (nth_error raw g) as [l|] eqn:El; [|apply nth_error_None in El; lia].
    destruct (Hnth g l El) as (ex & Hn & Hc). rewrite Hl' in Hn. inversion Hn; subst l'.
    destruct (mapM_nth_r _ _ _ _ _ Hraw El) as ((g', grp) & Hg & Ho).
    rewrite nth_error_enumerate in Hg. destruct (nth_error groups g) as [grp'|] eqn:Egg; [|discriminate].
    cbn in Hg. inversion Hg; subst. cbn [fst snd] in Ho.
    destruct (facial_group_spec aff_id tag_order Hto groups HW HF idp Hsp HN tm g' grp Egg) as (l2 & Hl2 & S1 & S2 & S3 & S4).
    assert (l2 = l) by congruence. subst l2. exists grp, l.
    split; [auto|]. split; [auto|]. split; [exact S1|]. split; [exact S2|]. split; [exact S3|]. exact S4. }
  assert (Hcomp : forall g l', nth_error fags g = Some l' ->
     (forall b, In b l' -> (exists g' es, b = Interior g g' es aff_id) \/ (exists t fs, b = Boundary g t fs /\ NoDup fs)) /\
      NoDup (interior_entries l') /\
      (forall g' e f e' f', In (g', ((e, f), (e', f'))) (interior_entries l') <->
                            partner groups (g, e, f) (g', e', f')) /\
      (forall t e f, in_bdry l' t (e, f) <-> 
         raw_label groups tm t (g, e, f) \/
         (t = TAll /\ (forall e' f', ~ raw_label groups tm TAll (g, e', f')) /\
            exists t', ~ not_a_boundary t' /\ t' <> TReallyAll /\ raw_label groups tm t' (g, e, f)) \/
         (t = TReallyAll /\ (forall e' f', ~ raw_label groups tm TReallyAll (g, e', f')) /\
            exists t', raw_label groups tm t' (g, e, f)))).
  { intros g l' Hl'. destruct (Hgrp g l' Hl') as (grp & l & Hg & Hc & S1 & S2 & S3 & S4).
    destruct (completed_group_spec g l l' Hc) as (C1 & C2 & C3).
    { intros b Hb t Ht. destruct (S1 b Hb) as [(g' & es & ->)|(t' & fs & -> & Hfs & _)]; [discriminate|auto]. }
    split; [|split; [|split]].
    - intros b Hb. destruct (C2 b Hb) as [Hb'|Hb']; [|right; auto].
      destruct (S1 b Hb') as [?|(t & fs & -> & _ & HN')]; [left; auto|right; eauto].
    - now rewrite C1.
    - intros. rewrite C1. auto.
    - intros t e f. rewrite C3, S4. split.
      + intros [H|[(-> & H & (t' & A1 & A2 & A3))|(-> & H & (t' & A1))]]; auto.
        * right; left. split; auto. split; [intros e' f' X; apply S4 in X; eapply H; eauto|].
          exists t'. repeat split; auto; apply S4 in A3; apply A3.
        * right; right. split; auto. split; [intros e' f' X; apply S4 in X; eapply H; eauto|].
          exists t'. now apply S4.
      + intros [H|[(-> & H & (t' & A1 & A2 & A3))|(-> & H & (t' & A1))]]; auto.
        * right; left. split; auto. split; [intros (e', f') X; apply S4 in X; eapply H; eauto|].
          exists t'. repeat split; auto. now apply S4.
        * right; right. split; auto. split; [intros (e', f') X; apply S4 in X; eapply H; eauto|].
          exists t'. now apply S4. }
  split; [intros g l b Hl; destruct (Hcomp g l Hl) as (S1 & _); auto|].
  split; [intros g l Hl; destruct (Hcomp g l Hl) as (_ & S2 & _); auto|].
  assert (Hvalid : forall g, g < length groups -> exists l, nth_error fags g = Some l).
  { intros g Hg. destruct (nth_error fags g) eqn:X; eauto. apply nth_error_None in X. lia. }
  split.
  - intros ((g, e), f) ((g', e'), f'). split.
    + intros (l & es & aff & Hl & Hb & Hin). destruct (Hcomp g l Hl) as (_ & _ & S3 & _). apply S3.
      unfold interior_entries. apply in_flat_map. eexists; split; [exact Hb|]. now apply in_map.
    + intros HP. assert (HP' := HP). destruct HP' as ((grp & Hg & _) & _).
      destruct (Hvalid g) as (l & Hl); [apply nth_error_Some; congruence|].
      destruct (Hcomp g l Hl) as (S1 & _ & S3 & _). apply S3 in HP.
      unfold interior_entries in HP. apply in_flat_map in HP as (b & Hb & Hin).
      destruct (S1 b Hb) as [(g2 & es & ->)|(t & fs & -> & _)]; [|contradiction].
      apply in_map_iff in Hin as (en & Eq & Hin). inversion Eq; subst. exists l, es, aff_id. auto.
  - intros t ((g, e), f). cbn [fst]. split.
    + intros (l & Hl & Hb). destruct (Hcomp g l Hl) as (_ & _ & _ & S4). now apply S4.
    + intros H. assert (HV : valid_face groups (g, e, f)).
      { destruct H as [((HV & _) & _)|[(_ & _ & (t' & _ & _ & ((HV & _) & _)))|(_ & _ & (t' & ((HV & _) & _)))]]; auto. }
      destruct HV as (grp & Hg & _). destruct (Hvalid g) as (l & Hl); [apply nth_error_Some; congruence|].
      exists l. split; auto. destruct (Hcomp g l Hl) as (_ & _ & _ & S4). now apply S4.
Qed.

Lemma looked_up_assigned {E} (groups : list (egroup E)) m a t :
  keys_distinct m -> (looked_up groups (Some m) a t <-> tag_assigned groups m a t).
Proof.
  intros HK. split.
  - intros (m' & vs & ts & Em & Hvs & Hl & Ht). inversion Em; subst m'. clear Em HK.
    induction m as [|(k, ts') m IH]; cbn in Hl; [discriminate|].
    destruct (set_eqb k vs) eqn:Es.
    + inversion Hl; subst. exists k, ts, vs. split; [now left|]. split; auto. split; auto. now apply set_eqb_iff.
    + destruct (IH Hl) as (k0 & ts0 & vs0 & H1 & H2). exists k0, ts0, vs0. split; [now right|auto].
  - intros (k & ts & vs & Hin & Ht & Hvs & Hk). exists m, vs, ts. split; auto. split; auto. split; auto.
    assert (HK' : forall k' ts', In (k', ts') m -> set_eqb k' vs = true -> ts' = ts).
    { intros k' ts' H1 H2. rewrite set_eqb_iff in H2. eapply HK; eauto. intros v. now rewrite H2, Hk. }
    clear HK. induction m as [|(k', ts') m IH]; [contradiction|]. cbn.
    destruct (set_eqb k' vs) eqn:Es.
    + f_equal. apply (HK' k'); [now left|auto].
    + destruct Hin as [Eq|Hin].
      * inversion Eq; subst. assert (X : set_eqb k vs = true) by now apply set_eqb_iff. congruence.
      * apply IH; auto. intros; eapply HK'; [right|]; eauto.
Qed.

(** *** Decidability, by search over the finitely many faces *)
Lemma same_verts_dec {E} (groups : list (egroup E)) a b :
  has_rows groups -> faces_wf groups -> valid_face groups a -> valid_face groups b ->
  same_verts groups a b \/ ~ same_verts groups a b.
Proof.
  intros HW HF Ha Hb.
  destruct (valid_face_verts groups a HW HF Ha) as (va & Hva).
  destruct (valid_face_verts groups b HW HF Hb) as (vb & Hvb).
  destruct (list_eq_dec Nat.eq_dec (sort_nat va) (sort_nat vb)) as [He|He].
  - left. exists va, vb. repeat split; auto. now apply sort_nat_eq_iff.
  - right. intros (va' & vb' & H1 & H2 & HP). apply He. apply sort_nat_eq_iff.
    rewrite <- (face_verts_fun _ _ _ _ H1 Hva), <- (face_verts_fun _ _ _ _ H2 Hvb). auto.
Qed.

Lemma search_dec {X} (P : X -> Prop) (l : list X) :
  (forall x, In x l -> P x \/ ~ P x) -> (exists x, In x l /\ P x) \/ (forall x, In x l -> ~ P x).
Proof.
  induction l as [|x l IH]; intros H; [right; intros x []|].
  destruct (H x) as [Hx|Hx]; [now left|left; exists x; split; auto; now left|].
  destruct IH as [(y & Hy & Py)|Hn]; [intros; apply H; now right| |].
  - left. exists y. split; auto. now right.
  - right. intros y [<-|Hy]; auto.
Qed.

Lemma partner_dec {E} (groups : list (egroup E)) a :
  has_rows groups -> faces_wf groups -> valid_face groups a ->
  (exists b, partner groups a b) \/ (forall b, ~ partner groups a b).
Proof.
  intros HW HF Ha.
  destruct (search_dec (fun b => a <> b /\ same_verts groups a b) (all_face_ids groups)) as [(b & Hb & H1 & H2)|Hn].
  - intros b Hb. apply In_all_face_ids in Hb.
    assert (D : {a = b} + {a <> b}) by (repeat decide equality).
    destruct D as [D|D]; [right; tauto|]. destruct (same_verts_dec groups a b HW HF Ha Hb); tauto.
  - left. exists b. apply In_all_face_ids in Hb. repeat split; auto.
  - right. intros b (_ & Hb & H1 & H2). apply (Hn b); [now apply In_all_face_ids|]. split; auto.
Qed.

Lemma untagged_dec {E} (groups : list (egroup E)) m g :
  has_rows groups -> faces_wf groups ->
  (exists e f, untagged groups (Some m) (g, e, f)) \/ ~ (exists e f, untagged groups (Some m) (g, e, f)).
Proof.
  intros HW HF.
  destruct (search_dec (fun a => fst (fst a) = g /\ untagged groups (Some m) a) (all_face_ids groups))
    as [(((g', e), f) & _ & Hg & Hu)|Hn].
  - intros a Ha. apply In_all_face_ids in Ha. destruct (Nat.eq_dec (fst (fst a)) g) as [Hg|Hg]; [|right; tauto].
    destruct (partner_dec groups a HW HF Ha) as [(b & Hb)|Hb].
    + right. intros (_ & (_ & H) & _). eapply H; eauto.
    + destruct (valid_face_verts groups a HW HF Ha) as (vs & Hvs).
      destruct (tag_lookup m vs) as [[|t ts]|] eqn:El.
      * left. split; auto. split; [split; auto|]. intros t (m' & vs' & ts & Em & Hvs' & El' & Ht). inversion Em; subst m'.
        rewrite (face_verts_fun _ _ _ _ Hvs' Hvs) in El'. rewrite El in El'. inversion El'; subst. contradiction.
      * right. intros (_ & _ & H). eapply (H t). exists m, vs, (t :: ts). repeat split; auto. now left.
      * left. split; auto. split; [split; auto|]. intros t (m' & vs' & ts & Em & Hvs' & El' & Ht). inversion Em; subst m'.
        rewrite (face_verts_fun _ _ _ _ Hvs' Hvs) in El'. congruence.
  - left. cbn in Hg; subst. eauto.
  - right. intros (e & f & Hu). eapply Hn; [|split; [|exact Hu]; reflexivity].
    apply In_all_face_ids. apply Hu.
Qed.

(** C04 *)
Lemma facial_partition_spec {E A} (aff_id : A) tag_order tm (groups : list (egroup E)) :
  (forall l t, In t (tag_order l) <-> In t l) ->
  has_rows groups -> faces_wf groups -> (exists g, In g groups /\ eg_fvi g <> []) -> at_most_two groups ->
  exists fags, compute_facial_adjacency aff_id tag_order tm groups = Ok fags /\
    length fags = length groups /\
    (forall a b, interior_adj fags a b <-> partner groups a b) /\
    (forall a b, interior_adj fags a b -> interior_adj fags b a) /\
    (forall g l, nth_error fags g = Some l -> NoDup (interior_entries l)) /\
    (forall g l b, nth_error fags g = Some l -> In b l ->
       (exists g' es, b = Interior g g' es aff_id) \/ (exists t fs, b = Boundary g t fs /\ NoDup fs)) /\
    (forall t a, bdry_adj fags t a -> boundary_face groups a) /\
    (forall a, valid_face groups a ->
       (exists b, interior_adj fags a b) \/ (exists t, bdry_adj fags t a)).
Proof.
  intros Hto HW HF Hne H2.
  destruct (compute_facial_adjacency_spec aff_id tag_order tm groups Hto HW HF Hne H2)
    as (fags & Hok & Hlen & Hsh & HN & Hint & Hb).
  exists fags. split; auto. split; auto. split; auto.
  split; [intros a b H; rewrite Hint in H; rewrite Hint; now apply partner_sym|].
  split; auto. split; auto. split.
  - intros t a H. apply Hb in H as [(H & _)|[(_ & _ & (t' & _ & _ & (H & _)))|(_ & _ & (t' & (H & _)))]]; auto.
  - intros a Ha.
    destruct (partner_dec groups a HW HF Ha) as [(b & Hp)|Hn]; [left; exists b; now apply Hint|right].
    destruct tm as [m|].
    + destruct (valid_face_verts groups a HW HF Ha) as (vs & Hvs).
      destruct (tag_lookup m vs) as [[|t ts]|] eqn:El.
      * exists TAll. apply Hb. left. split; [split; auto|]. right. split; auto.
        destruct a as ((g, e), f). exists e, f. cbn. split; [split; auto|].
        intros t (m' & vs' & ts & Em & Hvs' & El' & Ht). inversion Em; subst m'.
        rewrite (face_verts_fun _ _ _ _ Hvs' Hvs) in El'. rewrite El in El'. inversion El'; subst. contradiction.
      * exists t. apply Hb. left. split; [split; auto|]. left. exists m, vs, (t :: ts). repeat split; auto. now left.
      * exists TAll. apply Hb. left. split; [split; auto|]. right. split; auto.
        destruct a as ((g, e), f). exists e, f. cbn. split; [split; auto|].
        intros t (m' & vs' & ts & Em & Hvs' & El' & Ht). inversion Em; subst m'.
        rewrite (face_verts_fun _ _ _ _ Hvs' Hvs) in El'. congruence.
    + exists TAll. apply Hb. left. split; [split; auto|]. right. split; auto.
      destruct a as ((g, e), f). exists e, f. cbn. split; [split; auto|].
      intros t (m' & ? & ? & Em & _). discriminate.
Qed.

(** C04, without tags: BTAG_ALL and BTAG_REALLY_ALL are both the whole boundary *)
Lemma facial_untagged_spec {E A} (aff_id : A) tag_order (groups : list (egroup E)) :
  (forall l t, In t (tag_order l) <-> In t l) ->
  has_rows groups -> faces_wf groups -> (exists g, In g groups /\ eg_fvi g <> []) -> at_most_two groups ->
  exists fags, compute_facial_adjacency aff_id tag_order None groups = Ok fags /\
    forall t a, bdry_adj fags t a <-> (t = TAll \/ t = TReallyAll) /\ boundary_face groups a.
Proof.
  intros Hto HW HF Hne H2.
  destruct (compute_facial_adjacency_spec aff_id tag_order None groups Hto HW HF Hne H2)
    as (fags & Hok & _ & _ & _ & _ & Hb).
  exists fags. split; auto.
  assert (Hraw : forall t a, raw_label groups None t a <-> t = TAll /\ boundary_face groups a).
  { intros t a. split.
    - intros (HB & [(m & ? & ? & Em & _)|(-> & _)]); [discriminate|auto].
    - intros (-> & HB). split; auto. right. split; auto. destruct a as ((g, e), f). exists e, f. split; auto.
      intros t (m & ? & ? & Em & _). discriminate. }
  intros t a. rewrite Hb. split.
  - intros [H|[(-> & _ & (t' & _ & _ & H))|(-> & _ & (t' & H))]]; apply Hraw in H as (? & ?); auto.
  - intros ([->| ->] & HB).
    + left. now apply Hraw.
    + right; right. split; auto. split; [intros e' f' H; apply Hraw in H as (? & _); discriminate|].
      exists TAll. now apply Hraw.
Qed.

(** C06 *)
Lemma facial_tags_spec {E A} (aff_id : A) tag_order (groups : list (egroup E)) m :
  (forall l t, In t (tag_order l) <-> In t l) ->
  has_rows groups -> faces_wf groups -> (exists g, In g groups /\ eg_fvi g <> []) -> at_most_two groups ->
  keys_distinct m -> (forall k ts t, In (k, ts) m -> In t ts -> ~ system_tag t) ->
  exists fags, compute_facial_adjacency aff_id tag_order (Some m) groups = Ok fags /\
    (forall t a, ~ system_tag t -> (bdry_adj fags t a <-> boundary_face groups a /\ tag_assigned groups m a t)) /\
    (forall a, bdry_adj fags TReallyAll a <-> boundary_face groups a) /\
    (forall a, bdry_adj fags TAll a <->
       boundary_face groups a /\
       ((exists e' f', let a' := (fst (fst a), e', f') in
            boundary_face groups a' /\ forall t, ~ tag_assigned groups m a' t) \/
        exists t, tag_assigned groups m a t /\ ~ not_a_boundary t)) /\
    (forall a, ~ bdry_adj fags TNone a).
Proof.
  intros Hto HW HF Hne H2 HK HS.
  destruct (compute_facial_adjacency_spec aff_id tag_order (Some m) groups Hto HW HF Hne H2)
    as (fags & Hok & _ & _ & _ & _ & Hb).
  exists fags. split; auto.
  assert (Hlu : forall a t, looked_up groups (Some m) a t <-> tag_assigned groups m a t).
  { intros; now apply looked_up_assigned. }
  assert (HnoS : forall a t, looked_up groups (Some m) a t -> ~ system_tag t).
  { intros a t H. apply Hlu in H as (k & ts & vs & H & Ht & _). eauto. }
  assert (Hut : forall g, (exists e' f', untagged groups (Some m) (g, e', f')) <->
     exists e' f', boundary_face groups (g, e', f') /\ forall t, ~ tag_assigned groups m (g, e', f') t).
  { intros g. split; intros (e' & f' & H1 & H3); exists e', f'; split; auto; intros t Ht; apply Hlu in Ht; eapply H3; eauto. }
  assert (HrawN : forall a t, raw_label groups (Some m) t a -> ~ system_tag t \/ t = TAll).
  { intros a t (HB & [H|(-> & _)]); eauto. }
  assert (HrawT : forall a t, ~ system_tag t -> (raw_label groups (Some m) t a <-> boundary_face groups a /\ tag_assigned groups m a t)).
  { intros a t Hs. unfold raw_label. rewrite Hlu. split.
    - intros (HB & [H|(-> & _)]); auto. exfalso. apply Hs. unfold system_tag; auto.
    - intros (HB & H); auto. }
  assert (HrawA : forall a, raw_label groups (Some m) TAll a <-> boundary_face groups a /\
           exists e' f', boundary_face groups (fst (fst a), e', f') /\ forall t, ~ tag_assigned groups m (fst (fst a), e', f') t).
  { intros a. unfold raw_label. rewrite Hut. split.
    - intros (HB & [H|(_ & H)]); auto. exfalso. eapply HnoS; eauto. unfold system_tag; auto.
    - intros (HB & H); auto. }
  assert (HtagX : forall a, boundary_face groups a ->
     (exists t, tag_assigned groups m a t) \/ (forall t, ~ tag_assigned groups m a t)).
  { intros a (Ha & _). destruct (valid_face_verts groups a HW HF Ha) as (vs & Hvs).
    destruct (tag_lookup m vs) as [[|t ts]|] eqn:El.
    - right. intros t Ht. apply Hlu in Ht as (m' & vs' & ts & Em & Hvs' & El' & Ht). inversion Em; subst m'.
      rewrite (face_verts_fun _ _ _ _ Hvs' Hvs) in El'. rewrite El in El'. inversion El'; subst. contradiction.
    - left. exists t. apply Hlu. exists m, vs, (t :: ts). repeat split; auto. now left.
    - right. intros t Ht. apply Hlu in Ht as (m' & vs' & ts & Em & Hvs' & El' & Ht). inversion Em; subst m'.
      rewrite (face_verts_fun _ _ _ _ Hvs' Hvs) in El'. congruence. }
  split; [|split; [|split]].
  - intros t a Hs. rewrite Hb, HrawT by auto. split; auto.
    intros [H|[(-> & _)|(-> & _)]]; auto; exfalso; apply Hs; unfold system_tag; auto.
  - intros a. rewrite Hb. split.
    + intros [(H & _)|[(X & _)|(_ & _ & (t' & (H & _)))]]; auto. discriminate.
    + intros HB. right; right. split; auto. split.
      * intros e' f' H. apply HrawN in H as [H|H]; [apply H; unfold system_tag; auto|discriminate].
      * destruct (HtagX a HB) as [(t & Ht)|Ht].
        -- exists t. apply HrawT; auto. apply Hlu in Ht. eauto.
        -- exists TAll. apply HrawA. split; auto. destruct a as ((g, e), f). exists e, f. split; auto.
  - intros a. rewrite Hb. split.
    + intros [H|[(_ & Hn & (t' & A1 & A2 & A3))|(X & _)]]; [| |discriminate].
      * apply HrawA in H as (HB & H). auto.
      * assert (HB := proj1 A3). split; auto. right. exists t'. split; auto.
        apply HrawN in A3 as H3. destruct H3 as [H3|H3]; [apply HrawT in A3 as (_ & ?); auto|].
        subst t'. exfalso. destruct a as ((g, e), f). eapply Hn; eauto.
    + intros (HB & [H|(t & Ht & Hb')]).
      * left. apply HrawA. auto.
      * assert (Hs : ~ system_tag t) by (apply Hlu in Ht; eauto).
        destruct (untagged_dec groups m (fst (fst a)) HW HF) as [Hu|Hu].
        -- left. apply HrawA. split; auto. now apply Hut.
        -- right; left. split; auto. split.
           ++ intros e' f' H. apply HrawA in H as (_ & H). apply Hu. now apply Hut.
           ++ exists t. split; auto. split; [intros ->; apply Hs; unfold system_tag; auto|]. apply HrawT; auto.
  - intros a H. apply Hb in H as [H|[(X & _)|(X & _)]]; try discriminate.
    apply HrawN in H as [H|H]; [apply H; unfold system_tag; auto|discriminate].
Qed.

(** C03, with no vertex map and at most two faces per vertex set *)
Lemma match_faces_pairs_spec {E} vmap (groups : list (egroup E)) fids :
  has_rows groups -> (exists g, In g groups /\ eg_fvi g <> []) ->
  (forall v, vmap v <> (-1)%Z) ->
  (forall a, In a fids -> exists va, face_verts groups a va) ->
  exists pairs, match_faces vmap groups fids = Ok pairs /\ NoDup pairs /\
    (forall i j, In (i, j) pairs ->
      i < j /\ exists a b, nth_error fids i = Some a /\ nth_error fids j = Some b /\ same_mapped vmap groups a b) /\
    (forall i j a b, i < j -> nth_error fids i = Some a -> nth_error fids j = Some b ->
       same_mapped vmap groups a b ->
       (forall k c, k <> i -> k <> j -> nth_error fids k = Some c -> ~ same_mapped vmap groups a c) ->
       In (i, j) pairs).
Proof.
  intros HW HF Hv Hval. destruct (match_faces_spec vmap groups fids HW HF Hv Hval) as (pairs & Hok & HN & Hsp).
  exists pairs. split; auto. split; auto. split.
  - intros i j H. apply Hsp in H as (Hl & a & b & Ha & Hb & HS & _). eauto 8.
  - intros i j a b Hl Ha Hb HS Hu. apply Hsp. split; auto. exists a, b. repeat split; auto.
    intros k c Hk Hc. apply (Hu k c); auto; lia.
Qed.
