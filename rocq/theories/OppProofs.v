(** * OppProofs: make_opposite_face_connection *)
From Coq Require Import List Arith Bool Lia Permutation.
From Verif Require Import Np NpFacts Lin MeshModel MeshSpec MeshProofs PartSpec PointProofs ConnModel ConnSpec FaceConnModel FaceConnSpec RestrProofs FaceValProofs FaceEmbProofs CrossProofs.
Import ListNotations.

(** ** Lookup tables *)
Section Tables.
  Variables (nel nf : nat) (Fn : nat * nat -> nat -> Prop).
  Hypothesis Hfun : forall ef t t', Fn ef t -> Fn ef t' -> t = t'.
  Definition cell (tbl : list (list (option nat))) (ef : nat * nat) : option (option nat) :=
    match nth_error tbl (fst ef) with Some row => nth_error row (snd ef) | None => None end.
  Definition tinv (W : list (nat * nat * nat)) (tbl : list (list (option nat))) : Prop :=
    length tbl = nel /\ Forall (fun row => length row = nf) tbl /\ (forall ef t, cell tbl ef = Some (Some t) <-> In (ef, t) W).

  Lemma tinv_start : tinv [] (repeat (repeat None nf) nel).
  Proof.
    split; [apply repeat_length|]. split; [apply Forall_forall; intros row H; apply repeat_spec in H; subst; apply repeat_length|].
    intros (e, f) t. split; [|intros []]. unfold cell. cbn [fst snd]. intros H. destruct (nth_error (repeat (repeat None nf) nel) e) as [row|] eqn:Er; [|discriminate].
    apply nth_error_In, repeat_spec in Er. subst. apply nth_error_In, repeat_spec in H. discriminate.
  Qed.

  Lemma tinv_step W tbl e f t : tinv W tbl -> e < nel -> f < nf -> Fn (e, f) t -> Forall (fun w => Fn (fst w) (snd w)) W ->
    exists tbl', set2 tbl f (e, t) = Ok tbl' /\ tinv (W ++ [((e, f), t)]) tbl'.
  Proof.
    intros (Hl & Hr & Hc) He Hf Ht HW. unfold set2. cbn [fst snd]. destruct (nth_exists tbl e) as (row & Erow); [lia|]. rewrite (proj2 (get_ok _ _ _) Erow). cbn [bind].
    assert (Hrow : length row = nf) by (rewrite Forall_forall in Hr; apply Hr; eapply nth_error_In; eauto).
    rewrite (proj2 (put_ok row (upd row f (Some t)) f (Some t))) by (split; [lia|reflexivity]). cbn [bind].
    eexists. split; [apply put_ok; split; [lia|reflexivity]|]. split; [now rewrite length_upd|]. split.
    - apply Forall_forall. intros r Hin. apply In_nth_error in Hin. destruct Hin as (k & Hk). destruct (Nat.eq_dec e k) as [<-|Hne].
      + rewrite nth_error_upd_eq in Hk by lia. injection Hk as <-. now rewrite length_upd.
      + rewrite nth_error_upd_neq in Hk by exact Hne. rewrite Forall_forall in Hr. apply Hr. eapply nth_error_In; eauto.
    - intros (e', f') t'. rewrite in_app_iff. cbn [In]. unfold cell. cbn [fst snd]. destruct (Nat.eq_dec e e') as [<-|Hne].
      + rewrite nth_error_upd_eq by lia. destruct (Nat.eq_dec f f') as [<-|Hnf].
        * rewrite nth_error_upd_eq by lia. split.
          -- intros H. injection H as <-. right. now left.
          -- intros [H|[H|[]]]; [|now injection H as <-]. rewrite Forall_forall in HW. specialize (HW _ H). cbn [fst snd] in HW. f_equal. f_equal. eapply Hfun; eauto.
        * rewrite nth_error_upd_neq by exact Hnf. rewrite <- (Hc (e, f') t'). unfold cell. cbn [fst snd]. rewrite Erow. split; [now left|]. intros [H|[H|[]]]; [exact H|]. congruence.
      + rewrite nth_error_upd_neq by exact Hne. rewrite <- (Hc (e', f') t'). unfold cell. cbn [fst snd]. split; [now left|]. intros [H|[H|[]]]; [exact H|]. congruence.
  Qed.

  Lemma tinv_fold (ws : list (nat * nat * nat)) W tbl : tinv W tbl -> Forall (fun w => Fn (fst w) (snd w)) W -> Forall (fun w => Fn (fst w) (snd w) /\ fst (fst w) < nel /\ snd (fst w) < nf) ws ->
    exists tbl', foldM (fun tbl w => set2 tbl (snd (fst w)) (fst (fst w), snd w)) ws tbl = Ok tbl' /\ tinv (W ++ ws) tbl'.
  Proof.
    intros Ht HW Hws. revert W tbl Ht HW. induction Hws as [|((e, f), t) ws (H1 & H2 & H3) Hws IH]; intros W tbl Ht HW.
    - exists tbl. split; [reflexivity|]. now rewrite app_nil_r.
    - cbn [fst snd] in *. cbn [foldM fst snd]. destruct (tinv_step W tbl e f t Ht H2 H3 H1 HW) as (tbl1 & -> & Ht1). cbn [bind].
      destruct (IH _ _ Ht1) as (tbl' & E' & Ht'); [apply Forall_app; split; [exact HW|constructor; [exact H1|constructor]]|].
      exists tbl'. split; [exact E'|]. now rewrite <- app_assoc in Ht'.
  Qed.
End Tables.

Section Lookup.
  Context {E N K : Type}.
  Definition writes (bs : list (@batch N)) : list (nat * nat * nat) :=
    flat_map (fun b => match bt_face b with Some f => map (fun ev : nat * nat => ((fst ev, f), snd ev)) (combine (bt_from b) (bt_to b)) | None => [] end) bs.
  Lemma In_writes bs e f t : In ((e, f), t) (writes bs) <-> exists b, In b bs /\ bt_face b = Some f /\ In (t, e) (combine (bt_to b) (bt_from b)).
  Proof.
    unfold writes. rewrite in_flat_map. split.
    - intros (b & Hb & H). destruct (bt_face b) as [f'|] eqn:Ef; [|destruct H]. apply in_map_iff in H. destruct H as ((e', t') & Heq & H). injection Heq as <- <- <-. exists b. split; [exact Hb|]. split; [exact Ef|].
      apply In_nth_error in H. destruct H as (i & H). rewrite nth_combine in H. apply (nth_error_In _ i). rewrite nth_combine. destruct (nth_error (bt_from b) i); [|discriminate]. destruct (nth_error (bt_to b) i); [|discriminate]. cbn in *. congruence.
    - intros (b & Hb & Hf & H). exists b. split; [exact Hb|]. rewrite Hf. apply in_map_iff. exists (e, t). split; [reflexivity|].
      apply In_nth_error in H. destruct H as (i & H). rewrite nth_combine in H. apply (nth_error_In _ i). rewrite nth_combine. destruct (nth_error (bt_from b) i); [|now destruct (nth_error (bt_to b) i)]. destruct (nth_error (bt_to b) i); [|discriminate]. cbn in *. congruence.
  Qed.

  Lemma el_lookup_ok (c : @conn N K) (g : egroup E) nel igrp bs : nth_error (cn_groups c) igrp = Some bs ->
    Forall (fun b => exists f, bt_face b = Some f /\ f < nfaces g /\ length (bt_from b) = length (bt_to b) /\ Forall (fun e => e < nel) (bt_from b)) bs ->
    (forall ef t t', In (ef, t) (writes bs) -> In (ef, t') (writes bs) -> t = t') ->
    exists tbl, el_lookup c g nel igrp = Ok tbl /\ tinv nel (nfaces g) (writes bs) tbl.
  Proof.
    intros Hbs Hok Hfun. unfold el_lookup. rewrite (proj2 (get_ok _ _ _) Hbs). cbn [bind].
    assert (G : forall bs1 W tbl, (forall w, In w (writes bs1) -> In w (writes bs)) -> (forall w, In w W -> In w (writes bs)) ->
      Forall (fun b => exists f, bt_face b = Some f /\ f < nfaces g /\ length (bt_from b) = length (bt_to b) /\ Forall (fun e => e < nel) (bt_from b)) bs1 -> tinv nel (nfaces g) W tbl ->
      exists tbl', foldM (fun tbl b => match bt_face b with None => Err TypeError | Some f => _ <- guard (length (bt_from b) =? length (bt_to b)) ValueError ;; foldM (fun tbl ev => set2 tbl f ev) (combine (bt_from b) (bt_to b)) tbl end) bs1 tbl = Ok tbl' /\
        tinv nel (nfaces g) (W ++ writes bs1) tbl').
    { clear Hok. induction bs1 as [|b bs1 IH]; intros W tbl Hsub HW Hok Ht; [exists tbl; split; [reflexivity|]; now rewrite app_nil_r|].
      inversion Hok as [|? ? (f & Hf & Hlt & Hlen & Hel) Hok']; subst. cbn [foldM]. rewrite Hf, Hlen, Nat.eqb_refl. cbn [guard bind].
      set (ws := map (fun ev : nat * nat => ((fst ev, f), snd ev)) (combine (bt_from b) (bt_to b))).
      assert (Hw : writes (b :: bs1) = ws ++ writes bs1) by (unfold ws; cbn [writes flat_map]; now rewrite Hf).
      destruct (tinv_fold nel (nfaces g) (fun ef t => In (ef, t) (writes bs)) Hfun ws W tbl Ht) as (tbl1 & E1 & Ht1).
      - apply Forall_forall. intros ((e0, f0), t0) Hin. exact (HW _ Hin).
      - apply Forall_forall. intros ((e0, f0), t0) Hin. cbn [fst snd]. split; [apply Hsub; rewrite Hw; apply in_app_iff; now left|]. unfold ws in Hin. apply in_map_iff in Hin. destruct Hin as ((e1, t1) & Heq & Hin). injection Heq as <- <- <-.
        apply in_combine_l in Hin. rewrite Forall_forall in Hel. cbn [fst]. auto.
      - assert (E2 : foldM (fun tbl ev => set2 tbl f ev) (combine (bt_from b) (bt_to b)) tbl = Ok tbl1).
        { rewrite <- E1. unfold ws. clear. revert tbl. induction (combine (bt_from b) (bt_to b)) as [|(e, t) l IH]; intros tbl; [reflexivity|]. cbn [map foldM fst snd]. destruct (set2 tbl f (e, t)); [cbn [bind]; apply IH|reflexivity]. }
        rewrite E2. cbn [bind]. destruct (IH (W ++ ws) tbl1) as (tbl' & E' & Ht'); auto.
        + intros w Hin. apply Hsub. rewrite Hw. apply in_app_iff. now right.
        + intros w Hin. apply in_app_iff in Hin. destruct Hin as [Hin|Hin]; [auto|]. apply Hsub. rewrite Hw. apply in_app_iff. now left.
        + exists tbl'. split; [exact E'|]. now rewrite Hw, app_assoc. }
    destruct (G bs [] (repeat (repeat None (nfaces g)) nel)) as (tbl & E' & Ht); auto; [intros w []|apply tinv_start|]. exists tbl. split; [exact E'|exact Ht].
  Qed.

  Lemma lookup_iff nel nf W tbl e f t : tinv nel nf W tbl -> (lookup tbl (e, f) = Ok t <-> In ((e, f), t) W).
  Proof.
    intros (_ & _ & Hc). rewrite <- (Hc (e, f) t). unfold lookup, cell, get. cbn [fst snd]. destruct (nth_error tbl e) as [row|]; [|split; discriminate]. cbn [bind].
    destruct (nth_error row f) as [o|]; [|split; discriminate]. cbn [bind]. destruct o as [t'|]; split; try discriminate; congruence.
  Qed.
  Lemma lookup_assert_iff nel nf W tbl e f t : tinv nel nf W tbl -> (lookup_assert tbl (e, f) = Ok t <-> In ((e, f), t) W).
  Proof.
    intros (_ & _ & Hc). rewrite <- (Hc (e, f) t). unfold lookup_assert, cell, get. cbn [fst snd]. destruct (nth_error tbl e) as [row|]; [|split; discriminate]. cbn [bind].
    destruct (nth_error row f) as [o|]; [|split; discriminate]. cbn [bind]. destruct o as [t'|]; split; try discriminate; congruence.
  Qed.
End Lookup.

Fixpoint pos (l : list nat) (x : nat) : nat := match l with [] => 0 | y :: l => if y =? x then 0 else S (pos l x) end.
Lemma pos_nth l x : In x l -> nth_error l (pos l x) = Some x.
Proof.
  induction l as [|y l IH]; intros H; [destruct H|]. cbn [pos]. destruct (Nat.eqb_spec y x) as [->|Hne]; [reflexivity|]. cbn [nth_error]. apply IH. destruct H; [congruence|auto].
Qed.
Lemma nth_combine_In {X Y} (l : list X) (l' : list Y) x y : In (x, y) (combine l l') <-> exists i, nth_error l i = Some x /\ nth_error l' i = Some y.
Proof.
  split.
  - intros H. apply In_nth_error in H. destruct H as (i & H). rewrite nth_combine in H. exists i. destruct (nth_error l i); [|discriminate]. destruct (nth_error l' i); [|discriminate]. split; congruence.
  - intros (i & H1 & H2). apply (nth_error_In _ i). now rewrite nth_combine, H1, H2.
Qed.

(** ** A restriction with one boundary group per volume group *)
Section Joint.
  Context {E E' V A N K : Type}.
  Variables (dim : K -> nat) (factory : K -> K) (fnodes : K -> nat -> K -> N) (face_coords : K -> nat -> E -> E').
  Variables (groups : list (egroup E)) (kinds : list K) (fags : list (list (fagrp A))) (vs : list V) (r : restr).
  Hypothesis Hm : restrictable groups kinds fags vs false.
  Hypothesis Honce : asked_once fags r.
  Variables (bvs : list V) (bgs : list (egroup E')) (to : list (@dgroup K)).
  Notation c := (mk_conn (vol_groups dim groups kinds) to (all_batches factory fnodes groups kinds fags r false) true).
  Hypothesis Hr : restriction dim factory fnodes face_coords groups kinds fags vs r false bvs bgs c.

  Definition bidx (g e f : nat) : nat :=
    match nth_error groups g, nth_error fags g with
    | Some grp, Some l => let gbf := group_boundary_faces r grp l in start gbf f + pos (els gbf f) e
    | _, _ => 0
    end.

  Lemma is_face_joint gb t g e f : is_face c gb t (g, e, f) <->
    exists grp k l j, nth_error groups g = Some grp /\ nth_error kinds g = Some k /\ nth_error fags g = Some l /\ f < nfaces grp /\ gb = g /\
      nth_error (els (group_boundary_faces r grp l) f) j = Some e /\ t = start (group_boundary_faces r grp l) f + j.
  Proof. exact (is_face_iff factory fnodes groups kinds fags r false (rb_fags _ _ _ _ _ Hm) (rb_kinds _ _ _ _ _ Hm) (rb_widths _ _ _ _ _ Hm) (vol_groups dim groups kinds) to true gb t g e f). Qed.

  Lemma face_fun gb t t' a : is_face c gb t a -> is_face c gb t' a -> t = t'.
  Proof. exact (rt_fun _ _ _ _ _ _ _ _ _ _ _ _ _ Hr Honce gb t t' a). Qed.
  Lemma face_group gb t g e f : is_face c gb t (g, e, f) -> gb = g.
  Proof. intros H. apply is_face_joint in H. destruct H as (grp & k & l & j & _ & _ & _ & _ & H & _). exact H. Qed.
  Lemma bidx_face g e f : asked groups fags r (g, e, f) -> is_face c g (bidx g e f) (g, e, f).
  Proof.
    intros H. destruct (rt_all _ _ _ _ _ _ _ _ _ _ _ _ _ Hr g e f H) as (t & Ht). apply is_face_joint in Ht. destruct Ht as (grp & k & l & j & Hg & Hk & Hl & Hf & _ & He & _).
    apply is_face_joint. exists grp, k, l, (pos (els (group_boundary_faces r grp l) f) e). unfold bidx. rewrite Hg, Hl. do 5 (split; [auto|]). split; [|reflexivity]. apply pos_nth. eapply nth_error_In; eauto.
  Qed.
  Lemma face_bidx gb t g e f : is_face c gb t (g, e, f) -> gb = g /\ t = bidx g e f.
  Proof.
    intros H. pose proof (face_group _ _ _ _ _ H) as ->. split; [reflexivity|]. apply (face_fun g t _ (g, e, f) H). apply bidx_face. exact (proj1 (rt_asked _ _ _ _ _ _ _ _ _ _ _ _ _ Hr g t g e f H)).
  Qed.

  Lemma groups_at g grp k : nth_error groups g = Some grp -> nth_error kinds g = Some k ->
    nth_error (cn_groups c) g = Some (map (rbatch fnodes factory (dt groups fags r false) g k) (seq 0 (nfaces grp))).
  Proof.
    intros Hg Hk. cbn [cn_groups]. unfold all_batches.
    assert (Hc : forall X Y (F : X -> Y) l, concat (map (fun x => [F x]) l) = map F l) by (clear; intros X Y F l; induction l as [|x l IH]; [reflexivity|]; cbn; now rewrite IH).
    unfold rbatches. rewrite Hc, nth_error_map, nth_error_enumerate, nth_combine, Hg, Hk. reflexivity.
  Qed.
  Lemma groups_len : length (cn_groups c) = length groups /\ length to = length groups /\ length (cn_from c) = length groups.
  Proof.
    destruct (rt_sizes _ _ _ _ _ _ _ _ _ _ _ _ _ Hr) as (Hz & Hl). rewrite (rt_count _ _ _ _ _ _ _ _ _ _ _ _ _ Hr) in Hl. split; [exact Hl|]. split.
    - transitivity (length bgs); [symmetry; exact (Forall2_length' _ _ _ Hz)|]. exact (rt_count _ _ _ _ _ _ _ _ _ _ _ _ _ Hr).
    - cbn [cn_from]. unfold vol_groups. rewrite map_length, combine_length, (rb_kinds _ _ _ _ _ Hm). lia.
  Qed.
  Lemma kind_at g grp : nth_error groups g = Some grp -> exists k l, nth_error kinds g = Some k /\ nth_error fags g = Some l.
  Proof.
    intros Hg. assert (g < length groups) by (apply nth_error_Some; congruence). destruct (rb_fags _ _ _ _ _ Hm) as (Hlf & _). pose proof (rb_kinds _ _ _ _ _ Hm).
    destruct (nth_exists kinds g) as (k & Hk); [lia|]. destruct (nth_exists fags g) as (l & Hl); [lia|]. eauto.
  Qed.

  Lemma writes_iff g bs e f t : nth_error (cn_groups c) g = Some bs -> (In ((e, f), t) (writes bs) <-> is_face c g t (g, e, f)).
  Proof.
    intros Hbs. rewrite In_writes. split.
    - intros (b & Hb & Hf & Hin). exists bs, b. split; [exact Hbs|]. split; [exact Hb|]. split; [|auto].
      destruct (rt_nodes _ _ _ _ _ _ _ _ _ _ _ _ _ Hr g bs b Hbs Hb) as (grp & k & f' & _ & _ & _ & _ & _ & H). symmetry. exact H.
    - intros (bs' & b & Hbs' & Hb & _ & Hf & Hin). assert (bs' = bs) by congruence. subst. eauto.
  Qed.

  Lemma face_range gb t g e f grp : is_face c gb t (g, e, f) -> nth_error groups g = Some grp -> e < nelements grp /\ f < nfaces grp.
  Proof.
    intros H Hg. destruct (rt_asked _ _ _ _ _ _ _ _ _ _ _ _ _ Hr _ _ _ _ _ H) as (Ha & _).
    destruct (kind_at g grp Hg) as (k & l & Hk & Hl). destruct (rb_fags _ _ _ _ _ Hm) as (_ & Hfr). pose proof (rb_own _ _ _ _ _ Hm) as Hown. destruct r as [| |tg]; cbn [asked] in Ha.
    - destruct Ha as (((g', e'), f') & l' & es & aff & Hl' & Hb & Hin). assert (l' = l) by congruence. subst. apply (Hfr g grp l (Interior g g' es aff) e f Hg Hl Hb). cbn [fag_faces]. apply in_map_iff. exists ((e, f), (e', f')). auto.
    - destruct Ha as (grp' & Hg' & He & Hf). assert (grp' = grp) by congruence. now subst.
    - destruct Ha as (l' & Hl' & b & Hb & _ & Hin). assert (l' = l) by congruence. subst. exact (Hfr g grp l b e f Hg Hl Hb Hin).
  Qed.

  Lemma table_ok g grp : nth_error groups g = Some grp -> exists tbl, el_lookup c grp (nelements grp) g = Ok tbl /\
    forall e f t, (lookup tbl (e, f) = Ok t <-> is_face c g t (g, e, f)) /\ (lookup_assert tbl (e, f) = Ok t <-> is_face c g t (g, e, f)).
  Proof.
    intros Hg. destruct (kind_at g grp Hg) as (k & l & Hk & Hl). pose proof (groups_at g grp k Hg Hk) as Hbs. destruct (el_lookup_ok c grp (nelements grp) g _ Hbs) as (tbl & E1 & Ht).
    - apply Forall_forall. intros b Hb. destruct (rt_nodes _ _ _ _ _ _ _ _ _ _ _ _ _ Hr g _ b Hbs Hb) as (grp' & k' & f & Hg' & _ & Hf & Hbf & _ & Heq).
      cbn [bgroup] in Heq. rewrite <- Heq in Hg'. assert (grp' = grp) by congruence. subst grp'. exists f. split; [exact Hbf|]. split; [exact Hf|].
      destruct (rt_batches _ _ _ _ _ _ _ _ _ _ _ _ _ Hr g _ Hbs) as (_ & Hlens). rewrite Forall_forall in Hlens. split; [now apply Hlens|]. apply Forall_forall. intros e He.
      apply In_nth_error in He. destruct He as (i & Hi). destruct (nth_exists (bt_to b) i) as (t & Ht); [rewrite <- (Hlens b Hb); apply nth_error_Some; congruence|].
      assert (Hw : In ((e, f), t) (writes (map (rbatch fnodes factory (dt groups fags r false) g k) (seq 0 (nfaces grp))))) by (apply In_writes; exists b; split; [exact Hb|]; split; [exact Hbf|]; apply nth_combine_In; eauto).
      apply (writes_iff g _ e f t Hbs) in Hw. exact (proj1 (face_range _ _ _ _ _ _ Hw Hg)).
    - intros (e, f) t t' H1 H2. apply (writes_iff g _ e f _ Hbs) in H1, H2. eapply face_fun; eauto.
    - exists tbl. split; [exact E1|]. intros e f t. rewrite (lookup_iff _ _ _ _ e f t Ht), (lookup_assert_iff _ _ _ _ e f t Ht). rewrite (writes_iff g _ e f t Hbs). split; reflexivity.
  Qed.
End Joint.
