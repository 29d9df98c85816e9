(** * Proofs for boundary-tag completion, [check_bc_coverage], [is_boundary_tag_empty]. *)
From Coq Require Import List Arith Bool ZArith Lia Permutation Sorted.
From Verif Require Import Np NpFacts MeshModel MeshSpec MeshProofs.
Import ListNotations.

Lemma btag_eqb_eq a b : btag_eqb a b = true <-> a = b.
Proof.
  destruct a, b; cbn; split; intros H; try discriminate; auto;
    try (apply Nat.eqb_eq in H; congruence); inversion H; apply Nat.eqb_refl.
Qed.

Lemma btag_eq_dec (a b : btag) : {a = b} + {a <> b}.
Proof. decide equality; apply Nat.eq_dec. Qed.

Lemma has_tag_iff {A} t (f : fagrp A) : has_tag t f = true <-> bdry_tag f = Some t.
Proof.
  unfold has_tag. destruct (bdry_tag f) as [t'|].
  - rewrite btag_eqb_eq. split; intros H; congruence.
  - split; discriminate.
Qed.

Lemma is_bdry_iff {A} (f : fagrp A) : is_bdry f = true <-> exists t, bdry_tag f = Some t.
Proof. destruct f; cbn; split; intros H; eauto; try discriminate. destruct H; discriminate. Qed.

Lemma btag_memb_In t l : btag_memb t l = true <-> In t l.
Proof.
  unfold btag_memb. rewrite existsb_exists. split.
  - intros (x & Hx & E). apply btag_eqb_eq in E. now subst.
  - intros H. exists t; split; auto. now apply btag_eqb_eq.
Qed.

Lemma is_true_boundary_spec t :
  is_true_boundary t = true <-> ~ not_a_boundary t /\ t <> TReallyAll.
Proof.
  unfold not_a_boundary. destruct t; cbn; split; intros H; auto; try discriminate.
  all: try (split; [intros [?|[?|[?|[(?&?)|(?&?)]]]]; discriminate | discriminate]).
  all: destruct H as (H1 & H2); exfalso; try (now apply H2); apply H1; eauto 8.
Qed.

(** ** merge *)
Lemma list_max0_ge l x : In x l -> x <= list_max0 l.
Proof.
  induction l as [|y l IH]; cbn; [tauto|]. fold (list_max0 l).
  intros [->|H]; [lia|]. apply IH in H. lia.
Qed.

Lemma In_map_swap2 l a b : In (a, b) (map swap2 l) <-> In (b, a) l.
Proof.
  rewrite in_map_iff. split.
  - intros ((x, y) & E & H). unfold swap2 in E; cbn in E. inversion E; subst; auto.
  - intros H. exists (b, a). auto.
Qed.

Lemma NoDup_map_swap2 l : NoDup l -> NoDup (map swap2 l).
Proof.
  apply NoDup_map_inj. intros (a,b) (c,d) _ _ E. unfold swap2 in E; cbn in E. congruence.
Qed.

Lemma foldM_mset_spec {X} rows cols (h : X -> list (nat * nat)) gs : forall m,
  (forall g r c, In g gs -> In (r, c) (h g) -> r < rows /\ c < cols) ->
  exists m', foldM (fun m g => mset_all rows cols m (h g)) gs m = Ok m' /\
    forall r c, m' r c = true <-> m r c = true \/ exists g, In g gs /\ In (r, c) (h g).
Proof.
  induction gs as [|g gs IH]; intros m H; cbn [foldM].
  - exists m. split; auto. intros r c. split; auto. intros [|(g & [] & _)]; auto.
  - destruct (proj2 (mset_all_ok rows cols (h g) m)) as (m1 & H1).
    { apply Forall_forall. intros (r, c) Hin. cbn. eapply H; eauto. now left. }
    rewrite H1; cbn [bind]. destruct (IH m1) as (m' & Hm' & Hs').
    { intros g' r c Hg'. apply H. now right. }
    exists m'. split; auto. intros r c. rewrite Hs', (mset_all_spec _ _ _ _ _ r c H1). cbn [In].
    split.
    + intros [[?|?]|(g' & ? & ?)]; eauto.
    + intros [?|(g' & [->|?] & ?)]; eauto.
Qed.

Lemma merge_faces_spec {A} (gs : list (fagrp A)) :
  exists fs, merge_faces gs = Ok fs /\ NoDup fs /\
    forall ef, In ef fs <-> exists g, In g gs /\ In ef (fag_faces g).
Proof.
  destruct gs as [|g0 gs0].
  - exists []. split; [reflexivity|]. split; [constructor|].
    intros ef. split; [intros []|intros (g & [] & _)].
  - set (gs := g0 :: gs0).
    set (me := list_max0 (map (fun g => list_max0 (map fst (fag_faces g))) gs)).
    set (mf := list_max0 (map (fun g => list_max0 (map snd (fag_faces g))) gs)).
    assert (Hrange : forall g r c, In g gs -> In (r, c) (map swap2 (fag_faces g)) ->
                       r < mf + 1 /\ c < me + 1).
    { intros g r c Hg Hin. rewrite In_map_swap2 in Hin. split.
      - assert (r <= list_max0 (map snd (fag_faces g))).
        { apply list_max0_ge. apply in_map_iff. exists (c, r); auto. }
        assert (list_max0 (map snd (fag_faces g)) <= mf).
        { apply list_max0_ge. apply in_map_iff. exists g; auto. }
        lia.
      - assert (c <= list_max0 (map fst (fag_faces g))).
        { apply list_max0_ge. apply in_map_iff. exists (c, r); auto. }
        assert (list_max0 (map fst (fag_faces g)) <= me).
        { apply list_max0_ge. apply in_map_iff. exists g; auto. }
        lia. }
    destruct (foldM_mset_spec (mf + 1) (me + 1) (fun g => map swap2 (fag_faces g)) gs mfalse Hrange)
      as (m & Hm & Hs).
    exists (map swap2 (where2 (mf + 1) (me + 1) m)). split.
    { change (bind (foldM (fun m g => mset_all (mf + 1) (me + 1) m (map swap2 (fag_faces g))) gs mfalse)
                (fun m => Ok (map swap2 (where2 (mf + 1) (me + 1) m)))
              = Ok (map swap2 (where2 (mf + 1) (me + 1) m))).
      rewrite Hm. reflexivity. }
    split; [apply NoDup_map_swap2, NoDup_where2|].
    intros (e, f). rewrite In_map_swap2, In_where2, Hs. split.
    + intros (_ & _ & [Hf|(g & Hg & Hin)]); [discriminate|]. exists g. split; auto.
      now apply In_map_swap2.
    + intros (g & Hg & Hin). apply In_map_swap2 in Hin. destruct (Hrange _ _ _ Hg Hin). eauto 6.
Qed.

(** ** completion of one group *)
Lemma carries_existsb {A} (l : list (fagrp A)) t :
  existsb (has_tag t) (filter is_bdry l) = true <-> carries l t.
Proof.
  rewrite existsb_exists. unfold carries. split.
  - intros (b & Hb & Ht). apply filter_In in Hb as (Hb & _). apply has_tag_iff in Ht. eauto.
  - intros (b & Hb & Ht). exists b. split; [|now apply has_tag_iff].
    apply filter_In; split; auto. apply is_bdry_iff; eauto.
Qed.

Definition all_faces_of {A} (l : list (fagrp A)) (p : btag -> Prop) (ef : nat * nat) : Prop :=
  exists t, p t /\ in_bdry l t ef.

Lemma complete_group_spec {A} igrp (l : list (fagrp A)) :
  exists ex, complete_group igrp l = Ok (l ++ ex) /\
    map bdry_tag ex =
      map (@Some btag) (filter (fun t => negb (existsb (has_tag t) (filter is_bdry l))) [TNone; TAll; TReallyAll]) /\
    (forall b, In b ex -> exists t fs, b = Boundary igrp t fs /\ NoDup fs /\
       (t = TNone -> fs = []) /\
       (t = TAll -> forall ef, In ef fs <->
            exists t', ~ not_a_boundary t' /\ t' <> TReallyAll /\ in_bdry l t' ef) /\
       (t = TReallyAll -> forall ef, In ef fs <-> exists t', in_bdry l t' ef)).
Proof.
  unfold complete_group.
  set (bdry := filter is_bdry l).
  destruct (merge_faces_spec (filter (fun g => match bdry_tag g with
                              | Some t => is_true_boundary t | None => false end) bdry))
    as (fsA & HA & NA & SA).
  destruct (merge_faces_spec bdry) as (fsR & HR & NR & SR).
  rewrite HA, HR. cbn [bind].
  assert (SA' : forall ef, In ef fsA <->
     exists t', ~ not_a_boundary t' /\ t' <> TReallyAll /\ in_bdry l t' ef).
  { intros ef. rewrite SA. split.
    - intros (g & Hg & Hin). apply filter_In in Hg as (Hg & Ht).
      apply filter_In in Hg as (Hg & _).
      destruct (bdry_tag g) as [t|] eqn:Et; [|discriminate].
      apply is_true_boundary_spec in Ht as (H1 & H2). exists t. repeat split; auto. exists g; auto.
    - intros (t & H1 & H2 & (b & Hb & Ht & Hin)). exists b. split; auto.
      apply filter_In. rewrite Ht. split; [|apply is_true_boundary_spec; auto].
      apply filter_In; split; auto. apply is_bdry_iff; eauto. }
  assert (SR' : forall ef, In ef fsR <-> exists t', in_bdry l t' ef).
  { intros ef. rewrite SR. split.
    - intros (g & Hg & Hin). apply filter_In in Hg as (Hg & Hb).
      apply is_bdry_iff in Hb as (t & Ht). exists t, g; auto.
    - intros (t & (b & Hb & Ht & Hin)). exists b. split; auto.
      apply filter_In; split; auto. apply is_bdry_iff; eauto. }
  assert (PN : exists t fs, Boundary (A:=A) igrp TNone [] = Boundary igrp t fs /\ NoDup fs /\
       (t = TNone -> fs = []) /\
       (t = TAll -> forall ef, In ef fs <->
            exists t', ~ not_a_boundary t' /\ t' <> TReallyAll /\ in_bdry l t' ef) /\
       (t = TReallyAll -> forall ef, In ef fs <-> exists t', in_bdry l t' ef)).
  { exists TNone, []. split; [auto|]. split; [constructor|]. repeat split; auto; discriminate. }
  assert (PA : exists t fs, Boundary (A:=A) igrp TAll fsA = Boundary igrp t fs /\ NoDup fs /\
       (t = TNone -> fs = []) /\
       (t = TAll -> forall ef, In ef fs <->
            exists t', ~ not_a_boundary t' /\ t' <> TReallyAll /\ in_bdry l t' ef) /\
       (t = TReallyAll -> forall ef, In ef fs <-> exists t', in_bdry l t' ef)).
  { exists TAll, fsA. split; [auto|]. split; [auto|]. split; [discriminate|]. split; [auto|discriminate]. }
  assert (PR : exists t fs, Boundary (A:=A) igrp TReallyAll fsR = Boundary igrp t fs /\ NoDup fs /\
       (t = TNone -> fs = []) /\
       (t = TAll -> forall ef, In ef fs <->
            exists t', ~ not_a_boundary t' /\ t' <> TReallyAll /\ in_bdry l t' ef) /\
       (t = TReallyAll -> forall ef, In ef fs <-> exists t', in_bdry l t' ef)).
  { exists TReallyAll, fsR. split; [auto|]. split; [auto|]. split; [discriminate|]. split; [discriminate|auto]. }
  cbn [filter].
  destruct (existsb (has_tag TNone) bdry), (existsb (has_tag TAll) bdry),
    (existsb (has_tag TReallyAll) bdry); cbn [bind negb];
    (eexists; split; [cbn [app]; reflexivity|]; split; [reflexivity|]);
    intros b Hb; cbn [app In] in Hb; repeat destruct Hb as [<-|Hb]; auto; contradiction.
Qed.

Lemma carries_dec {A} (l : list (fagrp A)) t : {carries l t} + {~ carries l t}.
Proof.
  destruct (existsb (has_tag t) (filter is_bdry l)) eqn:E.
  - left. now apply carries_existsb.
  - right. intros H. apply carries_existsb in H. congruence.
Qed.

Lemma carries_after {A} igrp (l l' : list (fagrp A)) t :
  complete_group igrp l = Ok l' -> In t [TNone; TAll; TReallyAll] -> carries l' t.
Proof.
  intros H Ht. destruct (complete_group_spec igrp l) as (ex & Hok & Htags & _).
  rewrite H in Hok. inversion Hok; subst l'.
  destruct (existsb (has_tag t) (filter is_bdry l)) eqn:E.
  - apply carries_existsb in E as (b & Hb & Hbt). exists b. split; auto. apply in_or_app; auto.
  - assert (Hin : In (Some t) (map bdry_tag ex)).
    { rewrite Htags. apply in_map. apply filter_In. split; auto. now rewrite E. }
    apply in_map_iff in Hin as (b & Hb & Hin). exists b. split; auto. apply in_or_app; auto.
Qed.

Lemma complete_group_noop {A} igrp (l : list (fagrp A)) :
  (forall t, In t [TNone; TAll; TReallyAll] -> carries l t) -> complete_group igrp l = Ok l.
Proof.
  intros H. unfold complete_group.
  rewrite !(proj2 (carries_existsb l _)) by (apply H; cbn; auto).
  cbn [bind]. now rewrite !app_nil_r.
Qed.

(** ** completion *)
Lemma complete_ok {A} (fags : list (list (fagrp A))) :
  exists r, complete_facial_adjacency fags = Ok r /\ length r = length fags /\
    forall g l, nth_error fags g = Some l ->
      exists ex, nth_error r g = Some (l ++ ex) /\ complete_group g l = Ok (l ++ ex).
Proof.
  unfold complete_facial_adjacency.
  destruct (mapM_total (fun il : nat * list (fagrp A) => complete_group (fst il) (snd il)) (enumerate fags))
    as (r & Hr).
  { intros (i, l) _. destruct (complete_group_spec i l) as (ex & H & _). cbn; eauto. }
  exists r. split; auto. split; [now rewrite (mapM_length _ _ _ Hr), length_enumerate|].
  intros g l Hg.
  assert (He : nth_error (enumerate fags) g = Some (g, l)) by (rewrite nth_error_enumerate, Hg; auto).
  destruct (mapM_nth _ _ _ _ _ Hr He) as (l' & Hl' & Hok). cbn [fst snd] in Hok.
  destruct (complete_group_spec g l) as (ex & H & _). exists ex. rewrite Hl'.
  split; auto. congruence.
Qed.

Lemma complete_idempotent {A} (fags r : list (list (fagrp A))) :
  complete_facial_adjacency fags = Ok r -> complete_facial_adjacency r = Ok r.
Proof.
  intros H. unfold complete_facial_adjacency.
  transitivity (Ok (map snd (enumerate r))); [|now rewrite map_snd_enumerate].
  apply mapM_map_ok. intros (g, l') Hin. apply In_enumerate in Hin. cbn [fst snd].
  apply complete_group_noop. intros t Ht.
  destruct (mapM_nth_r _ _ _ _ _ H Hin) as ((g', l) & Hl & Hok).
  rewrite nth_error_enumerate in Hl. destruct (nth_error fags g); [|discriminate].
  cbn in Hl; inversion Hl; subst. cbn [fst snd] in Hok.
  eapply carries_after; eauto.
Qed.

Lemma complete_spec {A} (fags : list (list (fagrp A))) :
  exists r, complete_facial_adjacency fags = Ok r /\ length r = length fags /\
    complete_facial_adjacency r = Ok r /\
    forall g l, nth_error fags g = Some l ->
      exists ex, nth_error r g = Some (l ++ ex) /\
        (forall t, In (Some t) (map bdry_tag ex) <-> In t [TNone; TAll; TReallyAll] /\ ~ carries l t) /\
        NoDup (map bdry_tag ex) /\
        (forall b, In b ex -> exists t fs, b = Boundary g t fs /\ NoDup fs /\
          (t = TNone -> fs = []) /\
          (t = TAll -> forall ef, In ef fs <->
              exists t', ~ not_a_boundary t' /\ t' <> TReallyAll /\ in_bdry l t' ef) /\
          (t = TReallyAll -> forall ef, In ef fs <-> exists t', in_bdry l t' ef)).
Proof.
  destruct (complete_ok fags) as (r & Hr & Hlen & Hsp).
  exists r. split; auto. split; auto. split; [eapply complete_idempotent; eauto|].
  intros g l Hg. destruct (Hsp g l Hg) as (ex & Hnth & Hok).
  destruct (complete_group_spec g l) as (ex' & Hok' & Htags & Hb).
  rewrite Hok in Hok'. assert (ex' = ex) by (inversion Hok'; eapply app_inv_head; eauto). subst ex'.
  exists ex. split; auto. rewrite Htags. split; [|split; [|exact Hb]].
  - intros t. rewrite in_map_iff. split.
    + intros (t' & Eq & Hin). inversion Eq; subst t'. apply filter_In in Hin as (H1 & H2). split; auto.
      intros Hc. apply carries_existsb in Hc. rewrite Hc in H2. discriminate.
    + intros (H1 & H2). exists t. split; auto. apply filter_In. split; auto.
      destruct (existsb (has_tag t) (filter is_bdry l)) eqn:X; auto.
      apply carries_existsb in X. contradiction.
  - apply NoDup_map_inj; [intros x y _ _ X; now inversion X|]. apply NoDup_filter'.
    repeat constructor; cbn; intuition discriminate.
Qed.

(** ** is_boundary_tag_empty *)
Lemma mesh_has_boundary_iff {A} (fags : list (list (fagrp A))) t :
  mesh_has_boundary fags t = true <-> exists l, In l fags /\ carries l t.
Proof.
  unfold mesh_has_boundary. rewrite existsb_exists. split.
  - intros (l & Hl & H). exists l. split; auto.
    destruct (filter (has_tag t) l) as [|b r] eqn:E; [discriminate|].
    assert (Hb : In b (filter (has_tag t) l)) by (rewrite E; now left).
    apply filter_In in Hb as (Hb & Ht). apply has_tag_iff in Ht. exists b; auto.
  - intros (l & Hl & (b & Hb & Ht)). exists l. split; auto.
    assert (Hf : In b (filter (has_tag t) l)) by (apply filter_In; split; auto; now apply has_tag_iff).
    destruct (filter (has_tag t) l); [contradiction|reflexivity].
Qed.

Lemma sum_zero l : sum l = 0 <-> forall x, In x l -> x = 0.
Proof.
  unfold sum. induction l as [|y l IH]; cbn [fold_right In]; [tauto|].
  split.
  - intros H x [->|Hx]; [lia|]. apply IH; auto; lia.
  - intros H. rewrite (H y) by auto. apply IH. auto.
Qed.

Lemma is_boundary_tag_empty_spec {E A} (groups : list (egroup E)) (fags : list (list (fagrp A))) t :
  length fags = length groups ->
  ((forall l, In l fags -> ~ carries l t) -> is_boundary_tag_empty groups fags t = Err ValueError) /\
  ((exists l, In l fags /\ carries l t) ->
     exists b, is_boundary_tag_empty groups fags t = Ok b /\
       (b = true <-> forall l ef, In l fags -> ~ in_bdry l t ef)).
Proof.
  intros Hlen. unfold is_boundary_tag_empty. split.
  - intros H. destruct (mesh_has_boundary fags t) eqn:Em; [|reflexivity].
    apply mesh_has_boundary_iff in Em as (l & Hl & Hc). exfalso. eapply H; eauto.
  - intros H. rewrite (proj2 (mesh_has_boundary_iff fags t) H). cbn [guard bind].
    assert (Hm : mapM (fun ig : nat * egroup E => get fags (fst ig)) (enumerate groups) = Ok fags).
    { apply mapM_ok. apply Forall2_intro_nth.
      - now rewrite length_enumerate.
      - intros i (j, g) l Hi Hl. rewrite nth_error_enumerate in Hi.
        destruct (nth_error groups i); [|discriminate]. cbn in Hi; inversion Hi; subst.
        cbn. now apply get_ok. }
    rewrite Hm; cbn [bind]. eexists; split; [reflexivity|].
    rewrite forallb_forall. split.
    + intros Hz l ef Hl (b & Hb & Ht & Hin). specialize (Hz l Hl). apply Nat.eqb_eq in Hz.
      rewrite sum_zero in Hz. specialize (Hz (length (fag_faces b))).
      assert (E0 : length (fag_faces b) = 0).
      { apply Hz. apply in_map_iff. exists b. split; auto. apply filter_In. split; auto. now apply has_tag_iff. }
      apply length_zero_iff_nil in E0. rewrite E0 in Hin. contradiction.
    + intros Hz l Hl. apply Nat.eqb_eq. apply sum_zero. intros x Hx.
      apply in_map_iff in Hx as (b & <- & Hb). apply filter_In in Hb as (Hb & Ht). apply has_tag_iff in Ht.
      destruct (fag_faces b) as [|ef r] eqn:Ef; auto. exfalso.
      apply (Hz l ef Hl). exists b. repeat split; auto. rewrite Ef; now left.
Qed.

(** ** check_bc_coverage *)

(** face [ef] is in two different boundary groups of the list with tags among [tags] *)
Lemma bdry_counts_spec {A} nf ne (g : fagrp A) :
  (forall e f, In (e, f) (fag_faces g) -> e < ne /\ f < nf) ->
  exists m, bdry_counts nf ne g = Ok m /\ forall f e, m f e = true <-> In (e, f) (fag_faces g).
Proof.
  intros H. unfold bdry_counts.
  destruct (proj2 (mset_all_ok nf ne (map swap2 (fag_faces g)) mfalse)) as (m & Hm).
  { apply Forall_forall. intros (f, e) Hin. rewrite In_map_swap2 in Hin. apply H in Hin. cbn. lia. }
  exists m. split; auto. intros f e. rewrite (mset_all_spec _ _ _ _ _ f e Hm), In_map_swap2.
  split; auto. intros [Hf|]; auto. discriminate.
Qed.

Lemma count_at_filter (ms : list mask2) r c :
  count_at ms r c = length (filter (fun m : mask2 => m r c) ms).
Proof.
  unfold count_at. induction ms as [|m ms IH]; cbn; auto. unfold sum in IH.
  destruct (m r c); cbn; rewrite IH; auto.
Qed.

Lemma filter_two {X} (p : X -> bool) (l : list X) :
  1 < length (filter p l) <->
  exists i j x y, i <> j /\ nth_error l i = Some x /\ nth_error l j = Some y /\ p x = true /\ p y = true.
Proof.
  split.
  - induction l as [|a l IH]; cbn [filter length]; [lia|]. destruct (p a) eqn:Pa; cbn [length]; intros H.
    + destruct (filter p l) as [|b r] eqn:F; [cbn in H; lia|].
      assert (Hb : In b (filter p l)) by (rewrite F; now left). apply filter_In in Hb as (Hb & Pb).
      apply In_nth_error in Hb as (j & Hj). exists 0, (S j), a, b. repeat split; auto.
    + destruct (IH H) as (i & j & x & y & H1 & H2 & H3 & H4 & H5). exists (S i), (S j), x, y. repeat split; auto.
  - intros (i & j & x & y & H1 & H2 & H3 & H4 & H5). revert i j H1 H2 H3.
    induction l as [|a l IH]; intros i j H1 H2 H3; [destruct i; discriminate|].
    assert (G : forall k z, nth_error l k = Some z -> p z = true -> 0 < length (filter p l)).
    { intros k z Hk Pz. assert (Hz : In z (filter p l)) by (apply filter_In; split; auto; eapply nth_error_In; eauto).
      destruct (filter p l); [contradiction|cbn; lia]. }
    destruct i as [|i], j as [|j]; cbn [nth_error] in *; try congruence; cbn [filter].
    + inversion H2; subst. rewrite H4. cbn. specialize (G _ _ H3 H5). lia.
    + inversion H3; subst. rewrite H5. cbn. specialize (G _ _ H2 H4). lia.
    + assert (i <> j) by congruence. specialize (IH i j H H2 H3). destruct (p a); cbn; lia.
Qed.

Lemma filter_positions {X} (p : X -> bool) (l : list X) i j x y :
  i <> j -> nth_error (filter p l) i = Some x -> nth_error (filter p l) j = Some y ->
  exists i' j', i' <> j' /\ nth_error l i' = Some x /\ nth_error l j' = Some y.
Proof.
  intros Hij Hi Hj.
  pose proof (where_take_filter p l) as HT.
  assert (Hx : exists i', nth_error (where_ (map p l)) i = Some i' /\ nth_error l i' = Some x).
  { rewrite (take_nth _ _ _ i HT) in Hi. destruct (nth_error (where_ (map p l)) i); [eauto|discriminate]. }
  assert (Hy : exists j', nth_error (where_ (map p l)) j = Some j' /\ nth_error l j' = Some y).
  { rewrite (take_nth _ _ _ j HT) in Hj. destruct (nth_error (where_ (map p l)) j); [eauto|discriminate]. }
  destruct Hx as (i' & Hi1 & Hi2), Hy as (j' & Hj1 & Hj2). exists i', j'. repeat split; auto.
  intros ->. apply Hij. pose proof (incr_NoDup _ (where_incr (map p l))) as ND.
  eapply (proj1 (NoDup_nth_error _) ND); [|congruence]. apply nth_error_Some. congruence.
Qed.

Lemma bc_group_spec {E A} tags (incomplete_ok true_only : bool) (g : egroup E) (l : list (fagrp A)) all_grp :
  let all_tag := if true_only then TAll else TReallyAll in
  filter (has_tag all_tag) l = [all_grp] ->
  (forall b e f, In b l -> In (e, f) (fag_faces b) -> e < nelements g /\ f < nfaces g) ->
  (bc_group tags incomplete_ok true_only g l = Ok tt \/
   bc_group tags incomplete_ok true_only g l = Err RuntimeError) /\
  (bc_group tags incomplete_ok true_only g l = Err RuntimeError <->
     exists ef, doubly tags l ef \/ (incomplete_ok = false /\ uncovered tags all_tag l ef)).
Proof.
  intros all_tag Hall HR. unfold bc_group. fold all_tag. rewrite Hall.
  set (matching := filter (fun f => existsb (fun t => has_tag t f) tags) l).
  assert (Hall_in : In all_grp l /\ bdry_tag all_grp = Some all_tag).
  { assert (H : In all_grp (filter (has_tag all_tag) l)) by (rewrite Hall; now left).
    apply filter_In in H as (H & Ht). apply has_tag_iff in Ht. auto. }
  destruct Hall_in as (Hain & Hat).
  destruct (bdry_counts_spec (nfaces g) (nelements g) all_grp) as (ac & Hac & Sac); [eauto|].
  rewrite Hac; cbn [bind].
  assert (Hall_mem : forall ef, in_bdry l all_tag ef <-> In ef (fag_faces all_grp)).
  { intros ef. split.
    - intros (b & Hb & Ht & Hin).
      assert (H : In b (filter (has_tag all_tag) l)) by (apply filter_In; split; auto; now apply has_tag_iff).
      rewrite Hall in H. destruct H as [<-|[]]; auto.
    - intros H. exists all_grp; auto. }
  assert (Hmatch : forall b, In b matching <-> In b l /\ exists t, In t tags /\ bdry_tag b = Some t).
  { intros b. unfold matching. rewrite filter_In, existsb_exists. split.
    - intros (H & (t & Ht & Hb)). apply has_tag_iff in Hb. eauto.
    - intros (H & (t & Ht & Hb)). split; auto. exists t. split; auto. now apply has_tag_iff. }
  assert (Hcov : forall ef, (exists b, In b matching /\ In ef (fag_faces b)) <-> exists t, In t tags /\ in_bdry l t ef).
  { intros ef. split.
    - intros (b & Hb & Hin). apply Hmatch in Hb as (Hb & t & Ht & Hbt). exists t. split; auto. exists b; auto.
    - intros (t & Ht & (b & Hb & Hbt & Hin)). exists b. split; auto. apply Hmatch. eauto. }
  assert (Hdoub : forall ef, doubly tags l ef <->
     exists i j bi bj, i <> j /\ nth_error matching i = Some bi /\ nth_error matching j = Some bj /\
       In ef (fag_faces bi) /\ In ef (fag_faces bj)).
  { intros ef. split.
    - intros (i & j & bi & bj & ti & tj & Hij & Hi & Hj & Hti & Htj & Ti & Tj & Fi & Fj).
      set (p := fun b : fagrp A => existsb (fun t => has_tag t b) tags
                          && existsb (fun x => pair_eqb x ef) (fag_faces b)).
      assert (P2 : 1 < length (filter p l)).
      { assert (Pb : forall b t, bdry_tag b = Some t -> In t tags -> In ef (fag_faces b) -> p b = true).
        { intros b t H1 H2 H3. unfold p. apply andb_true_iff; split; apply existsb_exists.
          - exists t. split; auto. now apply has_tag_iff.
          - exists ef. split; auto. now apply pair_eqb_eq. }
        apply filter_two. exists i, j, bi, bj. repeat split; eauto. }
      assert (P3 : 1 < length (filter (fun b => existsb (fun x => pair_eqb x ef) (fag_faces b)) matching)).
      { unfold matching. replace (filter (fun b => existsb (fun x => pair_eqb x ef) (fag_faces b))
            (filter (fun f => existsb (fun t => has_tag t f) tags) l)) with (filter p l); auto.
        unfold p. clear. induction l as [|a l IH]; cbn; auto.
        destruct (existsb (fun t => has_tag t a) tags); cbn; auto.
        destruct (existsb (fun x => pair_eqb x ef) (fag_faces a)); cbn; congruence. }
      apply filter_two in P3 as (i' & j' & x & y & H1 & H2 & H3 & H4 & H5).
      apply existsb_exists in H4 as (z & Hz & Ez). apply pair_eqb_eq in Ez; subst z.
      apply existsb_exists in H5 as (z & Hz' & Ez). apply pair_eqb_eq in Ez; subst z.
      exists i', j', x, y. auto.
    - intros (i & j & bi & bj & Hij & Hi & Hj & Fi & Fj).
      assert (Mi : In bi matching) by (eapply nth_error_In; eauto).
      assert (Mj : In bj matching) by (eapply nth_error_In; eauto).
      apply Hmatch in Mi as (_ & ti & Ti & Bi). apply Hmatch in Mj as (_ & tj & Tj & Bj).
      destruct (filter_positions _ _ _ _ _ _ Hij Hi Hj) as (i' & j' & H1 & H2 & H3).
      exists i', j', bi, bj, ti, tj. repeat split; auto. }
  assert (Hcell : forall b e f, In b l -> In (e, f) (fag_faces b) -> In (f, e) (grid (nfaces g) (nelements g))).
  { intros b e f Hb Hin. apply In_grid. destruct (HR b e f Hb Hin). auto. }
  clearbody matching. destruct matching as [|m0 mrest].
  - match goal with |- ((if ?c then _ else _) = _ \/ _) /\ _ => destruct c eqn:C end.
    + split; [now right|]. split; auto. intros _.
      apply andb_true_iff in C as (Ci & Ce). destruct incomplete_ok; [discriminate|].
      apply existsb_exists in Ce as ((f, e) & Hin & Hc). cbn in Hc. apply Sac in Hc.
      exists (e, f). right. split; auto. split; [now apply Hall_mem|].
      intros t Ht Hb. assert (X : exists b, In b (@nil (fagrp A)) /\ In (e, f) (fag_faces b)) by (apply Hcov; eauto).
      destruct X as (b & [] & _).
    + split; [now left|]. split; [discriminate|]. intros ((e, f) & [Hd|(Hi & (Hu & _))]).
      * apply Hdoub in Hd as (i & j & bi & bj & _ & Hi & _). destruct i; discriminate.
      * subst. cbn in C. apply Hall_mem in Hu.
        assert (X : existsb (fun rc : nat * nat => ac (fst rc) (snd rc)) (grid (nfaces g) (nelements g)) = true).
        { apply existsb_exists. exists (f, e). split; [eauto|]. now apply Sac. }
        congruence.
  - set (matching := m0 :: mrest) in *.
    destruct (mapM_total (bdry_counts (nfaces g) (nelements g)) matching) as (ms & Hms).
    { intros b Hb. apply Hmatch in Hb as (Hb & _).
      destruct (bdry_counts_spec (nfaces g) (nelements g) b) as (m & Hm & _); eauto. }
    rewrite Hms; cbn [bind].
    assert (Fms : Forall2 (fun b (m : mask2) => forall f e, m f e = true <-> In (e, f) (fag_faces b)) matching ms).
    { apply mapM_ok in Hms. clear -Hms HR Hmatch.
      assert (HR' : forall b e f, In b matching -> In (e, f) (fag_faces b) -> e < nelements g /\ f < nfaces g).
      { intros b e f Hb. apply Hmatch in Hb as (Hb & _). eauto. }
      clear Hmatch. induction Hms as [|b m bs ms Hbm Hms IH]; constructor.
      - destruct (bdry_counts_spec (nfaces g) (nelements g) b) as (m' & Hm' & Sm').
        + intros e f. apply HR'. now left.
        + assert (m = m') by congruence. now subst.
      - apply IH. intros b' e f Hb'. apply HR'. now right. }
    assert (Hcount1 : forall f e, 1 < count_at ms f e <-> doubly tags l (e, f)).
    { intros f e. rewrite Hdoub, count_at_filter, filter_two. split.
      - intros (i & j & x & y & H1 & H2 & H3 & H4 & H5).
        destruct (Forall2_nth_error_r _ _ _ _ _ Fms H2) as (bi & Hbi & Si).
        destruct (Forall2_nth_error_r _ _ _ _ _ Fms H3) as (bj & Hbj & Sj).
        exists i, j, bi, bj. repeat split; auto; [now apply Si|now apply Sj].
      - intros (i & j & bi & bj & H1 & H2 & H3 & H4 & H5).
        destruct (Forall2_nth_error _ _ _ _ _ Fms H2) as (x & Hx & Si).
        destruct (Forall2_nth_error _ _ _ _ _ Fms H3) as (y & Hy & Sj).
        exists i, j, x, y. repeat split; auto; [now apply Si|now apply Sj]. }
    assert (Hcount0 : forall f e, count_at ms f e = 0 <-> forall t, In t tags -> ~ in_bdry l t (e, f)).
    { intros f e. rewrite count_at_filter. split.
      - intros H t Ht Hb. assert (X : exists b, In b matching /\ In (e, f) (fag_faces b)) by (apply Hcov; eauto).
        destruct X as (b & Hb' & Hin). destruct (Forall2_In_l _ _ _ _ Fms Hb') as (m & Hm & Sm).
        assert (Y : In m (filter (fun m : mask2 => m f e) ms)) by (apply filter_In; split; auto; now apply Sm).
        apply length_zero_iff_nil in H. rewrite H in Y. contradiction.
      - intros H. destruct (filter (fun m : mask2 => m f e) ms) as [|m r] eqn:F; auto. exfalso.
        assert (Y : In m (filter (fun m : mask2 => m f e) ms)) by (rewrite F; now left).
        apply filter_In in Y as (Y & Hm). destruct (Forall2_In_r _ _ _ _ Fms Y) as (b & Hb & Sb).
        apply Sb in Hm. assert (X : exists t, In t tags /\ in_bdry l t (e, f)) by (apply Hcov; eauto).
        destruct X as (t & Ht & Hbt). eapply H; eauto. }
    match goal with |- ((if ?c then _ else _) = _ \/ _) /\ _ => destruct c eqn:C1 end.
    + split; [now right|]. split; auto. intros _.
      apply existsb_exists in C1 as ((f, e) & _ & Hc). apply Nat.ltb_lt in Hc. cbn in Hc.
      exists (e, f). left. now apply Hcount1.
    + match goal with |- ((if ?c then _ else _) = _ \/ _) /\ _ => destruct c eqn:C2 end.
      * split; [now right|]. split; auto. intros _.
        apply andb_true_iff in C2 as (Ci & Ce). destruct incomplete_ok; [discriminate|].
        apply existsb_exists in Ce as ((f, e) & _ & Hc). apply Nat.ltb_lt in Hc. cbn [fst snd] in Hc.
        exists (e, f). right. split; auto.
        destruct (ac f e) eqn:Ea; cbn in Hc; [|lia].
        split; [apply Hall_mem; now apply Sac|]. apply Hcount0. lia.
      * split; [now left|]. split; [discriminate|]. intros ((e, f) & [Hd|(Hi & (Hu & Hn))]).
        -- assert (Hd' := Hd). destruct Hd' as (i & j & bi & bj & ti & tj & _ & Hi & _ & _ & _ & _ & _ & Fi & _).
           assert (Hg : In (f, e) (grid (nfaces g) (nelements g))) by (eapply Hcell; [eapply nth_error_In; eauto|eauto]).
           apply Hcount1 in Hd. apply Nat.ltb_lt in Hd.
           assert (X : existsb (fun rc : nat * nat => 1 <? count_at ms (fst rc) (snd rc)) (grid (nfaces g) (nelements g)) = true).
           { apply existsb_exists. exists (f, e). auto. }
           congruence.
        -- subst. cbn [negb andb] in C2. apply Hall_mem in Hu.
           assert (Hg : In (f, e) (grid (nfaces g) (nelements g))) by eauto.
           assert (X : existsb (fun rc : nat * nat => count_at ms (fst rc) (snd rc) <? b2n (ac (fst rc) (snd rc))) (grid (nfaces g) (nelements g)) = true).
           { apply existsb_exists. exists (f, e). split; auto. cbn [fst snd].
             rewrite (proj2 (Hcount0 f e)) by auto. rewrite (proj2 (Sac f e)) by auto. reflexivity. }
           congruence.
Qed.

Lemma foldres_mapM {X} (f : X -> res unit) l e :
  (forall x, In x l -> f x = Ok tt \/ f x = Err e) ->
  (mapM f l = Ok (map (fun _ => tt) l) /\ (forall x, In x l -> f x = Ok tt)) \/
  (mapM f l = Err e /\ exists x, In x l /\ f x = Err e).
Proof.
  induction l as [|x l IH]; intros H; cbn [mapM].
  - left. split; auto. intros x [].
  - destruct (H x (or_introl eq_refl)) as [Hx|Hx]; rewrite Hx; cbn [bind].
    + destruct IH as [(E1 & E2)|(E1 & x' & E2 & E3)].
      * intros; apply H; now right.
      * rewrite E1. cbn. left. split; auto. intros y [<-|Hy]; auto.
      * rewrite E1. cbn. right. split; auto. exists x'; split; auto; now right.
    + right. split; auto. exists x; split; auto; now left.
Qed.

Lemma one_group_filter {A} (l : list (fagrp A)) t : one_group l t -> exists b, filter (has_tag t) l = [b].
Proof.
  intros (l1 & b & l2 & -> & Ht & Hn). exists b. rewrite filter_app. cbn.
  rewrite (proj2 (has_tag_iff t b) Ht).
  assert (X : forall l', (forall x, In x l' -> In x (l1 ++ l2)) -> filter (has_tag t) l' = []).
  { intros l' Hl. induction l' as [|x l' IH]; auto. cbn. destruct (has_tag t x) eqn:Ex.
    - exfalso. apply Hn. exists x. split; [apply Hl; now left|now apply has_tag_iff].
    - apply IH. intros; apply Hl; now right. }
  rewrite (X l1), (X l2); auto; intros; apply in_or_app; auto.
Qed.

Lemma check_bc_coverage_spec {E A} (groups : list (egroup E)) (fags : list (list (fagrp A)))
    (tags : list btag) (incomplete_ok true_only : bool) :
  let all_tag := if true_only then TAll else TReallyAll in
  let violation l := exists ef, doubly tags l ef \/ (incomplete_ok = false /\ uncovered tags all_tag l ef) in
  fags_in_range groups fags ->
  (forall l, In l fags -> one_group l all_tag) ->
  let r := check_bc_coverage groups fags tags incomplete_ok true_only in
  (r = Ok tt \/ r = Err ValueError \/ r = Err RuntimeError) /\
  (r = Err ValueError <-> exists t, In t tags /\ forall l, In l fags -> ~ carries l t) /\
  (r = Err RuntimeError <->
     (forall t, In t tags -> exists l, In l fags /\ carries l t) /\ exists l, In l fags /\ violation l).
Proof.
  intros all_tag violation (Hlen & HR) Hall0 r.
  assert (Hall : forall l, In l fags -> exists b, filter (has_tag all_tag) l = [b]).
  { intros l Hl. apply one_group_filter. auto. }
  clear Hall0.
  unfold check_bc_coverage in r.
  destruct (forallb (mesh_has_boundary fags) tags) eqn:Ef.
  - assert (Hp : forall t, In t tags -> exists l, In l fags /\ carries l t).
    { intros t Ht. rewrite forallb_forall in Ef. apply mesh_has_boundary_iff. auto. }
    cbn [guard bind] in r.
    assert (Hnv : ~ exists t, In t tags /\ forall l, In l fags -> ~ carries l t).
    { intros (t & Ht & Hn). destruct (Hp t Ht) as (l & Hl & Hc). eapply Hn; eauto. }
    set (f := fun ig : nat * egroup E => l <- get fags (fst ig) ;; bc_group tags incomplete_ok true_only (snd ig) l) in *.
    assert (Hf : forall i g, In (i, g) (enumerate groups) -> exists l, nth_error fags i = Some l /\
               (f (i, g) = Ok tt \/ f (i, g) = Err RuntimeError) /\
               (f (i, g) = Err RuntimeError <-> violation l)).
    { intros i g Hin. apply In_enumerate in Hin.
      destruct (nth_error fags i) as [l|] eqn:Hl.
      2:{ apply nth_error_None in Hl. assert (i < length groups) by (apply nth_error_Some; congruence). lia. }
      exists l. split; auto. unfold f. cbn [fst snd]. unfold get. rewrite Hl. cbn [bind].
      destruct (Hall l) as (b & Hb); [eapply nth_error_In; eauto|].
      apply bc_group_spec with (all_grp := b); auto.
      intros b' e f' Hb' Hin'. eapply HR; eauto. }
    destruct (foldres_mapM f (enumerate groups) RuntimeError) as [(E1 & E2)|(E1 & (i, g) & E2 & E3)].
    + intros (i, g) Hin. destruct (Hf i g Hin) as (l & _ & H & _). auto.
    + unfold r. rewrite E1. cbn [bind]. split; [auto|]. split; [split; [discriminate|tauto]|].
      split; [discriminate|]. intros (_ & (l & Hl & Hv)). exfalso.
      apply In_nth_error in Hl as (i & Hi).
      destruct (nth_error groups i) as [g|] eqn:Hg.
      2:{ apply nth_error_None in Hg. assert (i < length fags) by (apply nth_error_Some; congruence). lia. }
      assert (Hin : In (i, g) (enumerate groups)) by now apply In_enumerate.
      destruct (Hf i g Hin) as (l' & Hl' & _ & Hiff). assert (l' = l) by congruence. subst l'.
      apply Hiff in Hv. rewrite E2 in Hv by auto. discriminate.
    + unfold r. rewrite E1. cbn [bind]. split; [auto|]. split; [split; [discriminate|tauto]|].
      split; auto. intros _. split; auto.
      destruct (Hf i g E2) as (l & Hl & _ & Hiff). exists l. split; [eapply nth_error_In; eauto|]. now apply Hiff.
  - cbn [guard bind] in r. assert (Hv : exists t, In t tags /\ forall l, In l fags -> ~ carries l t).
    { assert (X : ~ forall t, In t tags -> mesh_has_boundary fags t = true).
      { rewrite <- forallb_forall. congruence. }
      clear -X. induction tags as [|t ts IH]; [exfalso; apply X; intros t []|].
      destruct (mesh_has_boundary fags t) eqn:E.
      - destruct IH as (t' & Ht' & H').
        + intros H. apply X. intros u [<-|Hu]; auto.
        + exists t'. split; auto. now right.
      - exists t. split; [now left|]. intros l Hl Hc.
        assert (mesh_has_boundary fags t = true) by (apply mesh_has_boundary_iff; eauto). congruence. }
    unfold r. split; auto. split; [tauto|]. split; [discriminate|].
    intros (Hp & _). destruct Hv as (t & Ht & Hn). destruct (Hp t Ht) as (l & Hl & Hc). exfalso. eapply Hn; eauto.
Qed.
