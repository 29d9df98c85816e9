(** * FaceEmbProofs: embedding a boundary into the discretization of all faces *)
From Coq Require Import List Arith Bool ZArith Lia.
From Verif Require Import Np NpFacts Lin MeshModel MeshSpec MeshProofs PartSpec MergeProofs SplitProofs ConnModel ConnSpec ConnProofs ConnFlatProofs FaceConnModel FaceConnSpec RestrProofs FaceValProofs.
Import ListNotations.

(** ** Loops that collect the batches of a group, or make a group for each batch *)
Lemma loop_group {B} (pf : bool) (step : nat * list B * list (list B) -> nat -> res (nat * list B * list (list B))) (bat : nat -> B) n ib cg : n <> 0 ->
  (forall f batches cg', f < n -> step (ib + slot pf f, batches, cg') f =
     Ok (if pf || (f + 1 =? n) then (ib + slot pf f + 1, [], cg' ++ [batches ++ [bat f]]) else (ib + slot pf f, batches ++ [bat f], cg'))) ->
  foldM step (seq 0 n) (ib, [], cg) = Ok (ib + (if pf then n else 1), [], cg ++ (if pf then map (fun f => [bat f]) (seq 0 n) else [map bat (seq 0 n)])).
Proof.
  intros Hn Hstep.
  pose (I := fun m (st : nat * list B * list (list B)) =>
    st = if pf then (ib + m, [], cg ++ map (fun f => [bat f]) (seq 0 m)) else if m =? n then (ib + 1, [], cg ++ [map bat (seq 0 m)]) else (ib, map bat (seq 0 m), cg)).
  destruct (foldM_inv_nth step I (seq 0 n) (ib, [], cg)) as (st & Hst & HI).
  - unfold I. destruct pf; [now rewrite Nat.add_0_r, app_nil_r|]. destruct (Nat.eqb_spec 0 n); [lia|reflexivity].
  - intros i f st Hi HI. rewrite nth_error_seq in Hi. destruct (Nat.ltb_spec i n) as [Hlt|]; [|discriminate]. cbn [Nat.add] in Hi. injection Hi as <-. unfold I in HI |- *.
    unfold slot in Hstep. destruct pf.
    + subst st. rewrite (Hstep i [] _ Hlt). cbn [orb app]. eexists. split; [reflexivity|]. rewrite seq_snoc, map_app, app_assoc. cbn [map Nat.add]. now replace (ib + i + 1) with (ib + S i) by lia.
    + destruct (Nat.eqb_spec i n); [lia|]. subst st. rewrite Nat.add_0_r in Hstep. rewrite (Hstep i _ _ Hlt). cbn [orb]. replace (i + 1) with (S i) by lia.
      rewrite seq_snoc, map_app. cbn [map Nat.add]. destruct (S i =? n); eexists; (split; reflexivity).
  - rewrite seq_length in HI. unfold I in HI. rewrite Hst, HI. destruct pf; [reflexivity|]. now rewrite Nat.eqb_refl.
Qed.

Lemma firstn_snoc {X} (l : list X) i x : nth_error l i = Some x -> firstn (S i) l = firstn i l ++ [x].
Proof. revert i. induction l as [|y l IH]; intros [|i] H; cbn [nth_error] in H; try discriminate; [injection H as ->; reflexivity|]. cbn [firstn app]. f_equal. now apply IH. Qed.

(** The faces of FACE_RESTR_ALL *)
Lemma els_seq ne f (l : list nat) : els (map (fun fe : nat * nat => (snd fe, fst fe)) (flat_map (fun i => map (pair i) (seq 0 ne)) l)) f = flat_map (fun i => if i =? f then seq 0 ne else []) l.
Proof.
  induction l as [|i l IH]; [reflexivity|]. cbn [flat_map]. rewrite <- IH. unfold els. rewrite map_app, filter_app, map_app. f_equal. clear.
  induction (seq 0 ne) as [|e s IH]; [now destruct (i =? f)|]. cbn [map filter snd fst]. destruct (i =? f); [cbn [map fst]; now f_equal|exact IH].
Qed.
Lemma els_grid nf ne f : f < nf -> els (map (fun fe : nat * nat => (snd fe, fst fe)) (grid nf ne)) f = seq 0 ne.
Proof.
  intros Hf. unfold grid. rewrite els_seq. replace nf with (f + S (nf - f - 1)) by lia. rewrite seq_app, flat_map_app. cbn [seq flat_map Nat.add]. rewrite Nat.eqb_refl.
  assert (Hz : forall l, ~ In f l -> flat_map (fun i => if i =? f then seq 0 ne else []) l = []).
  { induction l as [|i l IH]; intros Hn; [reflexivity|]. cbn [flat_map]. destruct (Nat.eqb_spec i f); [elim Hn; now left|]. apply IH. intros H. apply Hn. now right. }
  rewrite !Hz by (rewrite in_seq; lia). now rewrite app_nil_r.
Qed.
Lemma start_grid nf ne f : f <= nf -> start (map (fun fe : nat * nat => (snd fe, fst fe)) (grid nf ne)) f = ne * f.
Proof. induction f as [|f IH]; intros Hf; [cbn; lia|]. rewrite start_S, IH, els_grid, seq_length by lia. lia. Qed.

Section Emb.
  Context {R : cring} {E E' V A N K : Type}.
  Variable rmat : K -> N -> list (list R).
  Variable rpick : K -> N -> option (list nat).
  Variables (dim : K -> nat) (factory : K -> K) (fnodes : K -> nat -> K -> N) (face_coords : K -> nat -> E -> E') (bfvi : K -> list (list nat)).
  Variables (store : nat -> nat) (garbage_row : nat -> list nat) (garbage_node : nat -> E').
  Variables (unit_nodes : K -> N) (nodes_equal : N -> N -> bool).
  Variables (groups : list (egroup E)) (kinds : list K) (fags : list (list (fagrp A))) (vs : list V) (r : restr) (perface : bool).
  Hypothesis Hm : restrictable groups kinds fags vs perface.
  Hypothesis Hst : forall i, i < length vs -> store i = i.
  Hypothesis Hrefl : forall n, nodes_equal n n = true.
  Hypothesis Honce : asked_once fags r.
  Notation batches q := (all_batches factory fnodes groups kinds fags q perface).
  Variables (bvs bvs' : list V) (bgs bgs' : list (egroup E')) (to to' : list (@dgroup K)).
  Notation c := (mk_conn (vol_groups dim groups kinds) to (batches r) true).
  Notation ca := (mk_conn (vol_groups dim groups kinds) to' (batches RAll) true).
  Hypothesis Hr : restriction dim factory fnodes face_coords groups kinds fags vs r perface bvs bgs c.
  Hypothesis Ha : restriction dim factory fnodes face_coords groups kinds fags vs RAll perface bvs' bgs' ca.

  (** make_face_to_all_faces_embedding's idea of per_face_groups *)
  Definition pf : bool := negb (length groups =? length to).

  Lemma sum_ge_length (l : list nat) : Forall (fun n => n <> 0) l -> length l <= sum l.
  Proof. induction 1 as [|n l Hn H IH]; [cbn; lia|]. cbn [length sum fold_right]. unfold sum in IH. lia. Qed.
  Lemma sum_eq_length (l : list nat) : Forall (fun n => n <> 0) l -> length l = sum l -> Forall (fun n => n = 1) l.
  Proof.
    induction 1 as [|n l Hn H IH]; intros Heq; [constructor|]. cbn [length sum fold_right] in Heq. fold (sum l) in Heq. pose proof (sum_ge_length l H). constructor; [lia|]. apply IH. lia.
  Qed.

  Lemma to_length : length to = (if perface then sum (map nfaces groups) else length groups).
  Proof. rewrite <- (rt_count _ _ _ _ _ _ _ _ _ _ _ _ _ Hr). symmetry. exact (Forall2_length' _ _ _ (proj1 (rt_sizes _ _ _ _ _ _ _ _ _ _ _ _ _ Hr))). Qed.
  Lemma to_length' : length to' = length to.
  Proof. rewrite to_length. rewrite <- (rt_count _ _ _ _ _ _ _ _ _ _ _ _ _ Ha). symmetry. exact (Forall2_length' _ _ _ (proj1 (rt_sizes _ _ _ _ _ _ _ _ _ _ _ _ _ Ha))). Qed.

  Lemma pf_cases : pf = perface \/ (perface = true /\ pf = false /\ Forall (fun g => nfaces g = 1) groups).
  Proof.
    unfold pf. pose proof to_length as Hl. destruct perface.
    - destruct (Nat.eqb_spec (length groups) (length to)) as [Heq|]; [|left; reflexivity]. right. split; [reflexivity|]. split; [reflexivity|].
      pose proof (rb_nfaces _ _ _ _ _ Hm) as Hnf. assert (H : Forall (fun n => n = 1) (map nfaces groups)).
      { apply sum_eq_length; [apply Forall_map; exact Hnf|]. rewrite map_length. lia. }
      apply Forall_map in H. exact H.
    - left. rewrite Hl, Nat.eqb_refl. reflexivity.
  Qed.

  Lemma bgroup_pf g grp f : nth_error groups g = Some grp -> f < nfaces grp -> base (map (cnt pf) groups) g + slot pf f = bgroup perface groups g f.
  Proof.
    intros Hg Hf. assert (Hgl : g <= length groups) by (apply Nat.lt_le_incl, nth_error_Some; congruence). destruct pf_cases as [->|(Hp & -> & H1)]; [now apply slot_bgroup|].
    assert (nfaces grp = 1) by (rewrite Forall_forall in H1; apply H1; eapply nth_error_In; eauto). rewrite <- (slot_bgroup perface groups g f Hgl). rewrite Hp. unfold slot.
    replace (map (cnt true) groups) with (map (@cnt E false) groups); [lia|]. apply map_ext_in. intros g' Hin. unfold cnt. rewrite Forall_forall in H1. now rewrite H1.
  Qed.

  Lemma src_at q g grp k f : nth_error groups g = Some grp -> nth_error kinds g = Some k -> f < nfaces grp ->
    exists src, nth_error (batches q) (bgroup perface groups g f) = Some src /\ length src = (if pf then 1 else nfaces grp) /\
      nth_error src (if pf then 0 else f) = Some (rbatch fnodes factory (dt groups fags q perface) g k f).
  Proof.
    intros Hg Hk Hf. set (lst := map (fun igk : nat * (egroup E * K) => rbatches fnodes perface factory (dt groups fags q perface) (fst igk) (fst (snd igk)) (snd (snd igk))) (enumerate (combine groups kinds))).
    assert (Hlst : nth_error lst g = Some (rbatches fnodes perface factory (dt groups fags q perface) g grp k)).
    { unfold lst. rewrite nth_error_map, nth_error_enumerate, (nth_error_combine' _ _ _ _ _ Hg Hk). reflexivity. }
    assert (Hlen : map (@length (list (@batch N))) lst = map (cnt perface) groups).
    { apply nth_error_ext'. intros i. unfold lst. rewrite !nth_error_map, nth_error_enumerate, nth_combine. destruct (nth_error groups i) as [grp'|] eqn:Hgi; [|reflexivity].
      assert (i < length groups) by (apply nth_error_Some; congruence). pose proof (rb_kinds _ _ _ _ _ Hm). destruct (nth_exists kinds i) as (k' & Hk'); [lia|]. rewrite Hk'. cbn [option_map fst snd]. f_equal.
      unfold rbatches, cnt. destruct perface; [now rewrite map_length, seq_length|reflexivity]. }
    assert (Hsrc : exists src, nth_error (rbatches fnodes perface factory (dt groups fags q perface) g grp k) (slot perface f) = Some src /\ length src = (if pf then 1 else nfaces grp) /\
      nth_error src (if pf then 0 else f) = Some (rbatch fnodes factory (dt groups fags q perface) g k f)).
    { unfold rbatches, slot. destruct pf_cases as [->|(Hp & -> & H1)].
      - destruct perface.
        + rewrite nth_error_map, nth_error_seq. destruct (Nat.ltb_spec f (nfaces grp)); [|lia]. eexists. split; [reflexivity|]. split; reflexivity.
        + eexists. split; [reflexivity|]. split; [now rewrite map_length, seq_length|]. rewrite nth_error_map, nth_error_seq. destruct (Nat.ltb_spec f (nfaces grp)); [reflexivity|lia].
      - rewrite Hp. assert (Hn1 : nfaces grp = 1) by (rewrite Forall_forall in H1; apply H1; eapply nth_error_In; eauto). rewrite Hn1. assert (f = 0) by lia. subst f. eexists. split; [reflexivity|]. split; reflexivity. }
    destruct Hsrc as (src & Hs & Hl & Hn). exists src. split; [|auto]. rewrite <- (slot_bgroup perface groups g f) by (apply Nat.lt_le_incl, nth_error_Some; congruence).
    unfold all_batches. fold lst. rewrite <- Hlen. eapply concat_nth; eauto.
  Qed.

  (** The batch for the faces [f] of group [g] *)
  Definition ebatch (g : nat) (grp : egroup E) (k : K) (l : list (fagrp A)) (f : nat) : @batch N :=
    let gbf := group_boundary_faces r grp l in
    mk_batch (bgroup perface groups g f) (seq (off perface gbf f) (length (els gbf f)))
      (if pf then els gbf f else map (Nat.add (nelements grp * f)) (els gbf f)) (unit_nodes (factory k)) None.
  Definition ebatches (x : nat * (egroup E * K * list (fagrp A))) : list (list (@batch N)) :=
    let '(g, ((grp, k), l)) := x in
    if pf then map (fun f => [ebatch g grp k l f]) (seq 0 (nfaces grp)) else [map (ebatch g grp k l) (seq 0 (nfaces grp))].
  Definition elist : list (nat * (egroup E * K * list (fagrp A))) := enumerate (combine (combine groups kinds) fags).

  Lemma elist_nth g grp : nth_error groups g = Some grp -> exists k l, nth_error kinds g = Some k /\ nth_error fags g = Some l /\ nth_error elist g = Some (g, ((grp, k), l)).
  Proof.
    intros Hg. assert (g < length groups) by (apply nth_error_Some; congruence). pose proof (rb_kinds _ _ _ _ _ Hm). destruct (rb_fags _ _ _ _ _ Hm) as (Hlf & _).
    destruct (nth_exists kinds g) as (k & Hk); [lia|]. destruct (nth_exists fags g) as (l & Hl); [lia|]. exists k, l. split; [exact Hk|]. split; [exact Hl|].
    unfold elist. rewrite nth_error_enumerate, !nth_combine, Hg, Hk, Hl. reflexivity.
  Qed.

  Lemma all_size g grp k l f gr : nth_error groups g = Some grp -> nth_error kinds g = Some k -> nth_error fags g = Some l -> f < nfaces grp ->
    groups_out dim factory face_coords bfvi groups kinds fags vs RAll perface bvs' bgs' to' ->
    nth_error to' (bgroup perface groups g f) = Some gr -> dg_kind gr = factory k /\ dg_ndof gr = dim (factory k) /\ dg_nel gr = (if perface then nelements grp else nfaces grp * nelements grp).
  Proof.
    intros Hg Hk Hl Hf Hout Hgr. destruct (Hout g grp k l f Hg Hk Hl Hf) as (rows & nodes & _ & _ & Hl2 & Hto & _). rewrite Hto in Hgr. injection Hgr as <-. cbn [dg_kind dg_ndof dg_nel].
    split; [reflexivity|]. split; [reflexivity|]. rewrite Hl2. unfold bsize. destruct perface.
    - cbn [group_boundary_faces]. rewrite (els_grid _ _ _ Hf), seq_length. reflexivity.
    - cbn [group_boundary_faces]. rewrite map_length. unfold grid. rewrite <- (seq_length (nfaces grp) 0) at 2. induction (seq 0 (nfaces grp)) as [|f' l' IH]; [reflexivity|]. cbn [flat_map length]. rewrite app_length, map_length, seq_length, IH. lia.
  Qed.

  Hypothesis Hout' : groups_out dim factory face_coords bfvi groups kinds fags vs RAll perface bvs' bgs' to'.

  Lemma embedding_closed : make_embedding unit_nodes nodes_equal groups c to' None = Ok (mk_conn to to' (concat (map ebatches elist)) false).
  Proof.
    unfold make_embedding. cbn [cn_from cn_to cn_groups]. destruct (rt_sizes _ _ _ _ _ _ _ _ _ _ _ _ _ Hr) as (Hsz & Hlen). pose proof (Forall2_length' _ _ _ Hsz) as Hl. cbn [cn_to cn_groups] in Hl, Hlen. rewrite Hlen, <- Hl. rewrite Hl, to_length', Nat.eqb_refl. cbn [guard bind].
    assert (Hvl : length (vol_groups dim groups kinds) = length groups) by (unfold vol_groups; rewrite map_length, combine_length, (rb_kinds _ _ _ _ _ Hm); lia).
    rewrite Hvl. fold pf.
    pose (I := fun m (st : nat * list (@batch N) * list (list (@batch N))) => exists y, st = (base (map (cnt pf) groups) m, y, concat (map ebatches (firstn m elist)))).
    match goal with |- context [foldM ?f groups ?s] => destruct (foldM_inv_nth f I groups s) as (st & Hrun & HI) end.
    - exists []. reflexivity.
    - intros g grp st Hg (y & ->). cbn [fst snd]. destruct (elist_nth g grp Hg) as (k & l & Hk & Hl' & He).
      assert (Hnf : nfaces grp <> 0) by (pose proof (rb_nfaces _ _ _ _ _ Hm) as Hnf; rewrite Forall_forall in Hnf; apply Hnf; eapply nth_error_In; eauto).
      eexists. split.
      + apply (loop_group pf _ (ebatch g grp k l)); [exact Hnf|]. intros f bs cg' Hf. rewrite (bgroup_pf g grp f Hg Hf). unfold embed_step. cbn [cn_groups].
        destruct (rt_to _ _ _ _ _ _ _ _ _ _ _ _ _ Ha g grp k f Hg Hk Hf) as (bg' & _ & Hto'). cbn [cn_to] in Hto'. rewrite (proj2 (get_ok _ _ _) Hto'). cbn [bind].
        destruct (src_at r g grp k f Hg Hk Hf) as (src & Hsrc & Hls & Hb). rewrite (proj2 (get_ok _ _ _) Hsrc). cbn [bind]. rewrite Hls, Nat.eqb_refl. cbn [guard bind].
        destruct (rt_to _ _ _ _ _ _ _ _ _ _ _ _ _ Hr g grp k f Hg Hk Hf) as (bg & _ & Hto). cbn [cn_to] in Hto. rewrite (proj2 (get_ok _ _ _) Hto). cbn [bind dg_kind]. rewrite Hrefl. cbn [guard bind].
        rewrite (proj2 (get_ok _ _ _) Hb). cbn [bind rbatch bt_from bt_to]. cbn [dg_nel].
        assert (Hdt : dt groups fags r perface g f = dat (group_boundary_faces r grp l) (off perface (group_boundary_faces r grp l) f) f) by (unfold dt; rewrite Hg, Hl'; reflexivity).
        rewrite Hdt. cbn [dat fst snd].
        assert (Htoe : (if pf then Ok (els (group_boundary_faces r grp l) f)
            else _ <- guard (nelements bg' =? nfaces grp * nelements grp) AssertionError ;; Ok (map (Nat.add (nelements grp * f)) (els (group_boundary_faces r grp l) f))) =
          Ok (if pf then els (group_boundary_faces r grp l) f else map (Nat.add (nelements grp * f)) (els (group_boundary_faces r grp l) f))).
        { destruct (all_size g grp k l f _ Hg Hk Hl' Hf Hout' Hto') as (_ & _ & Hnel). cbn [dg_nel] in Hnel. destruct pf_cases as [->|(Hp & -> & H1)].
          - destruct perface; [reflexivity|]. rewrite Hnel, Nat.eqb_refl. reflexivity.
          - rewrite Hp in Hnel. rewrite Forall_forall in H1. rewrite Hnel, (H1 grp) by (eapply nth_error_In; eauto). rewrite Nat.mul_1_l, Nat.eqb_refl. reflexivity. }
        rewrite Htoe. cbn [bind]. unfold ebatch. destruct (pf || (f + 1 =? nfaces grp)); reflexivity.
      + exists []. rewrite (base_S _ _ (cnt pf grp)) by (rewrite nth_error_map, Hg; reflexivity). rewrite (firstn_snoc _ _ _ He), map_app, concat_app. cbn [map concat ebatches]. rewrite app_nil_r. reflexivity.
    - rewrite Hrun. destruct HI as (y & ->). cbn [bind]. assert (Hle : length groups = length elist).
      { unfold elist. rewrite length_enumerate, !combine_length, (rb_kinds _ _ _ _ _ Hm). destruct (rb_fags _ _ _ _ _ Hm) as (Hlf & _). lia. }
      rewrite Hle, firstn_all. reflexivity.
  Qed.

  Notation emb := (mk_conn to to' (concat (map ebatches elist)) false).

  Lemma ebatches_length : map (@length (list (@batch N))) (map ebatches elist) = map (cnt pf) groups.
  Proof.
    apply nth_error_ext'. intros g. rewrite !nth_error_map. destruct (nth_error groups g) as [grp|] eqn:Hg.
    - destruct (elist_nth g grp Hg) as (k & l & _ & _ & ->). cbn [option_map ebatches]. f_equal. unfold cnt. destruct pf; [now rewrite map_length, seq_length|reflexivity].
    - unfold elist. rewrite nth_error_enumerate, !nth_combine, Hg. reflexivity.
  Qed.

  Lemma elist_inv g x : nth_error elist g = Some x -> exists grp k l, x = (g, ((grp, k), l)) /\ nth_error groups g = Some grp /\ nth_error kinds g = Some k /\ nth_error fags g = Some l.
  Proof.
    unfold elist. rewrite nth_error_enumerate, !nth_combine. destruct (nth_error groups g) as [grp|]; [|discriminate]. destruct (nth_error kinds g) as [k|]; [|discriminate].
    destruct (nth_error fags g) as [l|]; [|discriminate]. cbn [option_map]. intros H. injection H as <-. exists grp, k, l. auto.
  Qed.

  Lemma emb_inv gb bs : nth_error (cn_groups emb) gb = Some bs -> exists g grp k l, nth_error groups g = Some grp /\ nth_error kinds g = Some k /\ nth_error fags g = Some l /\
    (exists f, f < nfaces grp /\ bgroup perface groups g f = gb) /\
    forall i b, nth_error bs i = Some b -> exists f, f < nfaces grp /\ b = ebatch g grp k l f /\ bgroup perface groups g f = gb /\ i = (if pf then 0 else f).
  Proof.
    cbn [cn_groups]. intros H. destruct (concat_nth_inv _ _ _ H) as (g & rb & s0 & Hrb & Hs0 & Hgb). rewrite nth_error_map in Hrb. destruct (nth_error elist g) as [x|] eqn:Ex; [|discriminate].
    destruct (elist_inv g x Ex) as (grp & k & l & -> & Hg & Hk & Hl). cbn [option_map ebatches] in Hrb. injection Hrb as <-. exists g, grp, k, l. split; [exact Hg|]. split; [exact Hk|]. split; [exact Hl|].
    rewrite ebatches_length in Hgb.
    assert (Hnf : nfaces grp <> 0) by (pose proof (rb_nfaces _ _ _ _ _ Hm) as Hnf; rewrite Forall_forall in Hnf; apply Hnf; eapply nth_error_In; eauto).
    destruct pf eqn:Ep.
    - rewrite nth_error_map, nth_error_seq in Hs0. destruct (Nat.ltb_spec s0 (nfaces grp)) as [Hlt|]; [|discriminate]. cbn [option_map Nat.add] in Hs0. injection Hs0 as <-.
      assert (Hb : bgroup perface groups g s0 = gb) by (rewrite <- (bgroup_pf g grp s0 Hg Hlt), Ep; unfold slot; lia). split; [eauto|].
      intros i b Hi. destruct i as [|i]; [|destruct i; discriminate]. injection Hi as <-. exists s0. auto.
    - destruct s0 as [|s0]; [|destruct s0; discriminate]. injection Hs0 as <-.
      assert (Hb : forall f, f < nfaces grp -> bgroup perface groups g f = gb) by (intros f Hf; rewrite <- (bgroup_pf g grp f Hg Hf), Ep; unfold slot; lia).
      split; [exists 0; split; [lia|apply Hb; lia]|]. intros i b Hi. rewrite nth_error_map, nth_error_seq in Hi. destruct (Nat.ltb_spec i (nfaces grp)) as [Hlt|]; [|discriminate]. cbn [option_map Nat.add] in Hi. injection Hi as <-.
      exists i. auto.
  Qed.

  Lemma emb_at g grp k l f : nth_error groups g = Some grp -> nth_error kinds g = Some k -> nth_error fags g = Some l -> f < nfaces grp ->
    exists bs, nth_error (cn_groups emb) (bgroup perface groups g f) = Some bs /\ In (ebatch g grp k l f) bs.
  Proof.
    intros Hg Hk Hl Hf. destruct (elist_nth g grp Hg) as (k' & l' & Hk' & Hl' & He). assert (k' = k) by congruence. assert (l' = l) by congruence. subst.
    assert (Hn : exists bs, nth_error (ebatches (g, ((grp, k), l))) (slot pf f) = Some bs /\ In (ebatch g grp k l f) bs).
    { cbn [ebatches]. unfold slot. destruct pf.
      - rewrite nth_error_map, nth_error_seq. destruct (Nat.ltb_spec f (nfaces grp)); [|lia]. eexists. split; [reflexivity|]. now left.
      - eexists. split; [reflexivity|]. apply in_map. apply in_seq. lia. }
    destruct Hn as (bs & Hbs & Hin). exists bs. split; [|exact Hin]. cbn [cn_groups]. rewrite <- (bgroup_pf g grp f Hg Hf), <- ebatches_length. eapply concat_nth; [|exact Hbs]. rewrite nth_error_map, He. reflexivity.
  Qed.

  Lemma is_face_all gb t g e f : is_face ca gb t (g, e, f) <-> exists grp k l, nth_error groups g = Some grp /\ nth_error kinds g = Some k /\ nth_error fags g = Some l /\ f < nfaces grp /\
    e < nelements grp /\ gb = bgroup perface groups g f /\ t = (if pf then e else nelements grp * f + e).
  Proof.
    assert (Hoff : forall grp, In grp groups -> f < nfaces grp -> off perface (group_boundary_faces RAll grp (@nil (fagrp A))) f + e = (if pf then e else nelements grp * f + e)).
    { intros grp Hin Hf. unfold off. cbn [group_boundary_faces]. rewrite start_grid by lia. destruct pf_cases as [->|(-> & -> & H1)]; [now destruct perface|]. rewrite Forall_forall in H1. specialize (H1 grp Hin). assert (f = 0) by lia. subst. lia. }
    rewrite (is_face_iff factory fnodes groups kinds fags RAll perface (rb_fags _ _ _ _ _ Hm) (rb_kinds _ _ _ _ _ Hm) (rb_widths _ _ _ _ _ Hm)). cbn [group_boundary_faces] in *. split.
    - intros (grp & k & l & j & Hg & Hk & Hl & Hf & Hgb & Hj & Ht). rewrite els_grid in Hj by exact Hf. rewrite nth_error_seq in Hj. destruct (Nat.ltb_spec j (nelements grp)) as [Hlt|]; [|discriminate]. injection Hj as <-.
      exists grp, k, l. rewrite (Hoff grp (nth_error_In _ _ Hg) Hf) in Ht. auto 10.
    - intros (grp & k & l & Hg & Hk & Hl & Hf & He & Hgb & Ht). exists grp, k, l, e. rewrite (Hoff grp (nth_error_In _ _ Hg) Hf). rewrite els_grid by exact Hf. rewrite nth_error_seq. destruct (Nat.ltb_spec e (nelements grp)); [|lia]. auto 10.
  Qed.

  Lemma emb_feeds gb ta gs ts n : feeds emb gb ta gs ts n <-> exists g e f k, gs = gb /\ nth_error kinds g = Some k /\ n = unit_nodes (factory k) /\ is_face c gb ts (g, e, f) /\ is_face ca gb ta (g, e, f).
  Proof.
    assert (Hrange : forall g grp l e f, nth_error groups g = Some grp -> nth_error fags g = Some l -> In e (els (group_boundary_faces r grp l) f) -> e < nelements grp).
    { intros g grp l e f Hg Hl Hin. apply In_els in Hin. eapply (gbf_range garbage_row garbage_node); [exact (rb_fags _ _ _ _ _ Hm)|exact (rb_own _ _ _ _ _ Hm)|exact Hg|exact Hl|exact Hin]. }
    split.
    - intros (bs & b & Hbs & Hb & Hg & Hn & Hts). destruct (emb_inv gb bs Hbs) as (g & grp & k & l & Hg' & Hk & Hl & _ & Hall). apply In_nth_error in Hb. destruct Hb as (i & Hi).
      destruct (Hall i b Hi) as (f & Hf & -> & Hgb & _). unfold ebatch in Hg, Hn, Hts. cbn [bt_fgrp bt_nodes bt_to bt_from] in Hg, Hn, Hts.
      apply In_nth_error in Hts. destruct Hts as (j & Hj). apply nth_error_combine_Some in Hj. destruct Hj as (Hj1 & Hj2). rewrite nth_error_seq in Hj2.
      destruct (Nat.ltb_spec j (length (els (group_boundary_faces r grp l) f))) as [Hlt|]; [|discriminate]. injection Hj2 as <-. destruct (nth_exists _ _ Hlt) as (e & He).
      assert (Hta : ta = if pf then e else nelements grp * f + e) by (destruct pf; [congruence|]; rewrite nth_error_map, He in Hj1; cbn [option_map] in Hj1; congruence).
      exists g, e, f, k. split; [congruence|]. split; [exact Hk|]. split; [congruence|]. split.
      + apply (is_face_iff factory fnodes groups kinds fags r perface (rb_fags _ _ _ _ _ Hm) (rb_kinds _ _ _ _ _ Hm) (rb_widths _ _ _ _ _ Hm)). exists grp, k, l, j. auto 10.
      + apply is_face_all. exists grp, k, l. assert (e < nelements grp) by (eapply Hrange; eauto; eapply nth_error_In; eauto). auto 10.
    - intros (g & e & f & k & -> & Hk & -> & H1 & H2). apply (is_face_iff factory fnodes groups kinds fags r perface (rb_fags _ _ _ _ _ Hm) (rb_kinds _ _ _ _ _ Hm) (rb_widths _ _ _ _ _ Hm)) in H1.
      destruct H1 as (grp & k1 & l & j & Hg & Hk1 & Hl & Hf & Hgb & Hj & Ht). assert (k1 = k) by congruence. subst k1. apply is_face_all in H2. destruct H2 as (grp' & k' & l' & Hg' & _ & _ & _ & _ & _ & Hta).
      assert (grp' = grp) by congruence. subst grp'. destruct (emb_at g grp k l f Hg Hk Hl Hf) as (bs & Hbs & Hin). rewrite <- Hgb in Hbs. exists bs, (ebatch g grp k l f). split; [exact Hbs|]. split; [exact Hin|].
      unfold ebatch. cbn [bt_fgrp bt_nodes bt_to bt_from]. split; [congruence|]. split; [reflexivity|]. apply (nth_error_In _ j). apply nth_error_combine_Some. split.
      + subst ta. destruct pf; [exact Hj|]. rewrite nth_error_map, Hj. reflexivity.
      + rewrite nth_error_seq. assert (Hjl : j < length (els (group_boundary_faces r grp l) f)) by (apply nth_error_Some; congruence). destruct (Nat.ltb_spec j (length (els (group_boundary_faces r grp l) f))); [congruence|lia].
  Qed.

  Hypothesis Hown : forall k, In k kinds -> resamples rmat rpick (factory k) (unit_nodes (factory k)) (dim (factory k)) (dim (factory k)).

  Lemma to_at g grp k f : nth_error groups g = Some grp -> nth_error kinds g = Some k -> f < nfaces grp -> exists n, nth_error to (bgroup perface groups g f) = Some (mk_dgroup n (dim (factory k)) (factory k)).
  Proof. intros Hg Hk Hf. destruct (rt_to _ _ _ _ _ _ _ _ _ _ _ _ _ Hr g grp k f Hg Hk Hf) as (bg & _ & H). eauto. Qed.

  Lemma emb_conn_ok : conn_ok rmat rpick emb /\ Forall single_source (cn_groups emb).
  Proof.
    assert (Hlen : length (cn_groups emb) = length to').
    { cbn [cn_groups]. rewrite <- sum_map_length_concat, ebatches_length, to_length', to_length. destruct pf_cases as [->|(Hp & -> & H1)].
      - destruct perface; [reflexivity|]. transitivity (base (map (@cnt E false) groups) (length groups)); [|apply base_ones; lia]. unfold base. now rewrite firstn_all2 by (rewrite map_length; lia).
      - rewrite Hp. f_equal. apply map_ext_in. intros g Hin. rewrite Forall_forall in H1. now rewrite H1. }
    split.
    - apply Forall2_intro_nth; [exact (eq_sym Hlen)|]. intros gb tg bs Htg Hbs. cbn [cn_to cn_from] in *. destruct (emb_inv gb bs Hbs) as (g & grp & k & l & Hg & Hk & Hl & (f0 & Hf0 & Hgb0) & Hall).
      rewrite <- Hgb0 in Htg. destruct (all_size g grp k l f0 tg Hg Hk Hl Hf0 Hout' Htg) as (Hkind & Hnd & Hnel).
      assert (Hpick : forall b, In b bs -> exists f, f < nfaces grp /\ b = ebatch g grp k l f /\ bgroup perface groups g f = gb).
      { intros b Hb. apply In_nth_error in Hb. destruct Hb as (i & Hi). destruct (Hall i b Hi) as (f & Hf & Hbf & Hgb & _). eauto. }
      split.
      + apply Forall_forall. intros b Hb. destruct (Hpick b Hb) as (f & Hf & Hbe & Hgb).
        assert (Hl1 : length (bt_from b) = length (bt_to b)).
        { subst b. unfold ebatch. cbn [bt_from bt_to]. rewrite seq_length. destruct pf; [reflexivity|now rewrite map_length]. }
        assert (Hts : forall t s, In (t, s) (combine (bt_to b) (bt_from b)) -> exists n, t < dg_nel tg /\ nth_error to (bt_fgrp b) = Some (mk_dgroup n (dim (factory k)) (factory k)) /\ s < n).
        { intros t s Hin. assert (Hfe : feeds emb gb t (bt_fgrp b) s (bt_nodes b)) by (exists bs, b; auto). apply emb_feeds in Hfe. destruct Hfe as (g' & e & f' & k' & Hgs & Hk' & _ & H1 & H2).
          destruct (rt_face _ _ _ _ _ _ _ _ _ _ _ _ _ Hr gb s g' e f' H1) as (grp1 & k1 & x1 & bg1 & rows1 & row1 & vsf1 & Hg1 & Hk1 & Hx1 & Hbg1 & Hto1 & _ & _ & Hlr1 & Hrow1 & _).
          destruct (rt_face _ _ _ _ _ _ _ _ _ _ _ _ _ Ha gb t g' e f' H2) as (grp2 & k2 & x2 & bg2 & rows2 & row2 & vsf2 & Hg2 & Hk2 & Hx2 & Hbg2 & Hto2 & _ & _ & Hlr2 & Hrow2 & _).
          cbn [cn_to] in Hto1, Hto2. destruct (to_at g grp k f Hg Hk Hf) as (n & Hn). exists n. rewrite Hgs. rewrite Hgb in Hn. split; [|split; [exact Hn|]].
          - rewrite Hgb0 in Htg. rewrite Htg in Hto2. injection Hto2 as ->. cbn [dg_nel]. rewrite <- Hlr2. apply nth_error_Some. congruence.
          - rewrite Hn in Hto1. injection Hto1 as -> _ _. rewrite <- Hlr1. apply nth_error_Some. congruence. }
        unfold batch_ok. split; [exact Hl1|]. split; [apply Forall_forall; intros t Ht; destruct (combine_targets _ _ _ Hl1 Ht) as (s & Hs); destruct (Hts t s Hs) as (n & H & _); exact H|].
        destruct (to_at g grp k f Hg Hk Hf) as (n & Hn). exists (mk_dgroup n (dim (factory k)) (factory k)). split; [subst b; unfold ebatch; cbn [bt_fgrp]; exact Hn|]. cbn [dg_nel dg_ndof dg_kind]. split.
        * apply Forall_forall. intros s Hs. destruct (combine_targets (bt_from b) (bt_to b) s) as (t & Ht); [congruence|exact Hs|]. apply In_combine_swap in Ht. destruct (Hts t s Ht) as (n' & _ & Hn' & Hlt).
          subst b. unfold ebatch in Hn'. cbn [bt_fgrp] in Hn'. rewrite Hn in Hn'. injection Hn' as <-. exact Hlt.
        * rewrite Hnd. subst b. unfold ebatch. cbn [bt_nodes]. apply Hown. eapply nth_error_In; eauto.
      + intros g0. destruct (rpick (factory k) (unit_nodes (factory k))) as [ix|] eqn:Epk.
        * exists [ix]. split; [cbn; lia|]. intros b gr ix' Hb Hbg Hgr Hp. destruct (Hpick b Hb) as (f & Hf & -> & Hgb). unfold ebatch in Hbg, Hp. cbn [bt_fgrp bt_nodes] in Hbg, Hp. destruct (to_at g grp k f Hg Hk Hf) as (n & Hn).
          rewrite Hbg in Hn. rewrite Hn in Hgr. injection Hgr as <-. cbn [dg_kind] in Hp. left. congruence.
        * exists []. split; [cbn; lia|]. intros b gr ix' Hb Hbg Hgr Hp. destruct (Hpick b Hb) as (f & Hf & -> & Hgb). unfold ebatch in Hbg, Hp. cbn [bt_fgrp bt_nodes] in Hbg, Hp. destruct (to_at g grp k f Hg Hk Hf) as (n & Hn).
          rewrite Hbg in Hn. rewrite Hn in Hgr. injection Hgr as <-. cbn [dg_kind] in Hp. congruence.
    - apply Forall_forall. intros bs Hbs. apply In_nth_error in Hbs. destruct Hbs as (gb & Hbs). intros i i' b b' t s s' Hi Hi' Hts Hts'.
      destruct (emb_inv gb bs Hbs) as (g & grp & k & l & Hg & Hk & Hl & _ & Hall). destruct (Hall i b Hi) as (f & Hf & Hb & _ & Hif). destruct (Hall i' b' Hi') as (f' & Hf' & Hb' & _ & Hif').
      assert (H0 : exists e, is_face c gb s (g, e, f) /\ is_face ca gb t (g, e, f)).
      { assert (Hfe : feeds emb gb t (bt_fgrp b) s (bt_nodes b)) by (exists bs, b; split; [exact Hbs|split; [eapply nth_error_In; eauto|auto]]).
        clear Hts'. subst b. unfold ebatch in Hts. cbn [bt_from bt_to] in Hts. apply In_nth_error in Hts. destruct Hts as (j & Hj). apply nth_error_combine_Some in Hj. destruct Hj as (Hj1 & Hj2). rewrite nth_error_seq in Hj2.
        destruct (Nat.ltb_spec j (length (els (group_boundary_faces r grp l) f))) as [Hlt|]; [|discriminate]. injection Hj2 as <-. destruct (nth_exists _ _ Hlt) as (e & He). exists e.
        destruct (Hall i _ Hi) as (f2 & Hf2 & Heq & Hgb & _).
        assert (Hgbf : bgroup perface groups g f = gb) by (apply (f_equal (@bt_fgrp N)) in Heq; unfold ebatch in Heq; cbn [bt_fgrp] in Heq; congruence).
        split.
        - apply (is_face_iff factory fnodes groups kinds fags r perface (rb_fags _ _ _ _ _ Hm) (rb_kinds _ _ _ _ _ Hm) (rb_widths _ _ _ _ _ Hm)). exists grp, k, l, j. auto 10.
        - apply is_face_all. exists grp, k, l. split; [exact Hg|]. split; [exact Hk|]. split; [exact Hl|]. split; [exact Hf|]. split; [|split; [congruence|]].
          + apply nth_error_In, In_els in He. eapply (gbf_range garbage_row garbage_node); [exact (rb_fags _ _ _ _ _ Hm)|exact (rb_own _ _ _ _ _ Hm)|exact Hg|exact Hl|exact He].
          + destruct pf; [congruence|]. rewrite nth_error_map, He in Hj1. cbn [option_map] in Hj1. congruence. }
      assert (H0' : exists e, is_face c gb s' (g, e, f') /\ is_face ca gb t (g, e, f')).
      { clear Hts H0. subst b'. unfold ebatch in Hts'. cbn [bt_from bt_to] in Hts'. apply In_nth_error in Hts'. destruct Hts' as (j & Hj). apply nth_error_combine_Some in Hj. destruct Hj as (Hj1 & Hj2). rewrite nth_error_seq in Hj2.
        destruct (Nat.ltb_spec j (length (els (group_boundary_faces r grp l) f'))) as [Hlt|]; [|discriminate]. injection Hj2 as <-. destruct (nth_exists _ _ Hlt) as (e & He). exists e.
        destruct (Hall i' _ Hi') as (f2 & Hf2 & Heq & Hgb & _).
        assert (Hgbf : bgroup perface groups g f' = gb) by (apply (f_equal (@bt_fgrp N)) in Heq; unfold ebatch in Heq; cbn [bt_fgrp] in Heq; congruence).
        split.
        - apply (is_face_iff factory fnodes groups kinds fags r perface (rb_fags _ _ _ _ _ Hm) (rb_kinds _ _ _ _ _ Hm) (rb_widths _ _ _ _ _ Hm)). exists grp, k, l, j. auto 10.
        - apply is_face_all. exists grp, k, l. split; [exact Hg|]. split; [exact Hk|]. split; [exact Hl|]. split; [exact Hf'|]. split; [|split; [congruence|]].
          + apply nth_error_In, In_els in He. eapply (gbf_range garbage_row garbage_node); [exact (rb_fags _ _ _ _ _ Hm)|exact (rb_own _ _ _ _ _ Hm)|exact Hg|exact Hl|exact He].
          + destruct pf; [congruence|]. rewrite nth_error_map, He in Hj1. cbn [option_map] in Hj1. congruence. }
      destruct H0 as (e & H1 & H2). destruct H0' as (e' & H1' & H2'). pose proof (rt_inj _ _ _ _ _ _ _ _ _ _ _ _ _ Ha gb t _ _ H2 H2') as Heq. injection Heq as <- <-.
      split; [congruence|]. exact (rt_fun _ _ _ _ _ _ _ _ _ _ _ _ _ Hr Honce gb s s' _ H1 H1').
  Qed.

  Hypothesis Hident : forall k x y, In k kinds -> length x = dim (factory k) -> resampled rmat rpick (factory k) (unit_nodes (factory k)) x y -> y = x.

  Lemma embedding_values x : Forall (fun g => nfaces g <= 128) groups ->
    (forall g grp k f, nth_error groups g = Some grp -> nth_error kinds g = Some k -> f < nfaces grp -> resamples rmat rpick k (fnodes k f (factory k)) (dim k) (dim (factory k))) ->
    on_discr (vol_groups dim groups kinds) x ->
    exists y z w, (forall eager nomerge, call R rmat rpick eager nomerge c x = Ok y /\ call R rmat rpick eager nomerge emb y = Ok z /\ call R rmat rpick eager nomerge ca x = Ok w) /\
      on_discr to' z /\ on_discr to' w /\
      forall gb t a, is_face ca gb t a ->
        (asked groups fags r a -> value z gb t = value w gb t) /\
        (~ asked groups fags r a -> exists tg, nth_error to' gb = Some tg /\ value z gb t = Some (zeros (dg_ndof tg))).
  Proof.
    intros Hfew Hres Hx. pose proof (rb_kinds _ _ _ _ _ Hm) as Hkl.
    destruct (restriction_values rmat rpick dim factory fnodes face_coords groups kinds fags vs r perface bvs bgs c Hr Hkl x Hfew Hres Hx) as (y & Hy & Hony & Hvy).
    destruct (restriction_values rmat rpick dim factory fnodes face_coords groups kinds fags vs RAll perface bvs' bgs' ca Ha Hkl x Hfew Hres Hx) as (w & Hw & Honw & Hvw).
    destruct emb_conn_ok as (Hc & Hss). destruct (call_values rmat rpick emb y Hc Hss Hony) as (z & Hz & Honz & Hvz & Hzz).
    exists y, z, w. split; [auto|]. split; [exact Honz|]. split; [exact Honw|]. intros gb t ((g, e), f) Hif. split.
    - intros Has. destruct (rt_all _ _ _ _ _ _ _ _ _ _ _ _ _ Hr g e f Has) as (ts & Hts). destruct (rt_asked _ _ _ _ _ _ _ _ _ _ _ _ _ Ha gb t g e f Hif) as (_ & Hgb). rewrite <- Hgb in Hts.
      destruct (Hvy gb ts g e f Hts) as (k & v & u & Hk & Hxv & Hyu & Hru). destruct (Hvw gb t g e f Hif) as (k' & v' & u' & Hk' & Hxv' & Hwu & Hru').
      assert (k' = k) by congruence. assert (v' = v) by congruence. subst k' v'. assert (u' = u) by (eapply resampled_fun; eauto). subst u'.
      destruct (Hvz gb t gb ts (unit_nodes (factory k))) as (gr & v2 & u2 & Hgr & Hyv2 & Hzu2 & Hr2); [apply emb_feeds; exists g, e, f, k; auto|].
      destruct (rt_face _ _ _ _ _ _ _ _ _ _ _ _ _ Hr gb ts g e f Hts) as (grp1 & k1 & x1 & bg1 & rows1 & row1 & vsf1 & Hg1 & Hk1 & Hx1 & Hbg1 & Hto1 & _).
      cbn [cn_from cn_to] in Hgr, Hto1. rewrite Hto1 in Hgr. assert (k1 = k) by congruence. subst k1. injection Hgr as <-. cbn [dg_kind] in Hr2. assert (v2 = u) by congruence. subst v2.
      rewrite Hzu2, Hwu. f_equal. apply (Hident k); [eapply nth_error_In; eauto| |exact Hr2]. exact (proj1 (value_length _ _ _ _ _ _ Hony Hto1 Hyu)).
    - intros Hna. destruct (rt_face _ _ _ _ _ _ _ _ _ _ _ _ _ Ha gb t g e f Hif) as (grp1 & k1 & x1 & bg1 & rows1 & row1 & vsf1 & Hg1 & Hk1 & Hx1 & Hbg1 & Hto1 & _ & _ & Hlr & Hrow & _).
      cbn [cn_to] in Hto1. eexists. split; [exact Hto1|]. apply Hzz; [exact Hto1|cbn [dg_nel]; rewrite <- Hlr; apply nth_error_Some; congruence|].
      intros gs ts n Hfe. apply emb_feeds in Hfe. destruct Hfe as (g' & e' & f' & k' & _ & _ & _ & H1 & H2). pose proof (rt_inj _ _ _ _ _ _ _ _ _ _ _ _ _ Ha gb t _ _ Hif H2) as Heq. injection Heq as <- <- <-.
      apply Hna. exact (proj1 (rt_asked _ _ _ _ _ _ _ _ _ _ _ _ _ Hr gb ts g e f H1)).
  Qed.
End Emb.
