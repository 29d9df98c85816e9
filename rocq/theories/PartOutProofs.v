(** * PartOutProofs: the parts made by partition_mesh can be restricted and connected *)
From Coq Require Import List Arith Bool Lia Sorting.Sorted.
From Verif Require Import Np NpFacts MeshModel MeshSpec MeshProofs MeshStateModel PartModel PartSpec PartMainProofs FaceConnModel FaceConnSpec PartConnSpec RestrProofs.
Import ListNotations.

Section PartOut.
  Context {E A V K : Type}.
  Variables (groups : list (egroup E)) (kinds : list K) (fags : list (list (fagrp A))) (vs : list V) (parts : partdict).
  Hypothesis Hm : restrictable groups kinds fags vs false.
  Notation sizes := (map nelements groups).

  Section One.
    Variables (p : nat) (m : mesh E A V) (fags' : list (list (fagrp A))) (vs' : list V).
    Hypothesis Hg : part_geometry groups vs parts p m.
    Hypothesis Hl : part_lists groups fags parts p m fags'.
    Hypothesis Hlen : length fags' = length groups.
    Hypothesis Hvs : m_vertices m = Some vs'.
    Hypothesis Hr : forall e p k, assigned parts e p k -> e < sum sizes.

    Lemma part_row g i' row' : local_row (m_groups m) g i' row' -> exists i row, image groups (m_groups m) parts p g i i' /\ local_row groups g i row /\ length row = length row' /\ Forall (fun v => v < length vs') row'.
    Proof.
      intros H. assert (H0 := H). destruct H0 as (grp' & vi & Hgrp' & Hvi & Hi & Hrow). destruct (pg_only _ _ _ _ _ Hg _ _ _ Hgrp' Hi) as (i & Him).
      destruct (pg_vertices _ _ _ _ _ Hg) as (old & vs0 & Hv0 & _ & HF & _ & Hrows). assert (vs0 = vs') by congruence. subst vs0. destruct (Hrows _ _ _ Him) as (row & row2 & L1 & L2 & F2).
      assert (row2 = row') by (destruct L2 as (grp2 & vi2 & A1 & A2 & _ & A3); congruence). subst row2. exists i, row. split; [exact Him|]. split; [exact L1|]. split; [exact (Forall2_length' _ _ _ F2)|].
      apply Forall_forall. intros v Hv. apply In_nth_error in Hv. destruct Hv as (j & Hj). destruct (Forall2_nth_error_r _ _ _ _ _ F2 Hj) as (u & _ & Hu & _). rewrite <- (Forall2_length' _ _ _ HF). apply nth_error_Some. congruence.
    Qed.
    Lemma part_group_of g grp' : nth_error (m_groups m) g = Some grp' -> exists grp, nth_error groups g = Some grp /\ eg_fvi grp' = eg_fvi grp.
    Proof.
      intros H. assert (Hlt : g < length groups) by (rewrite <- (pg_groups _ _ _ _ _ Hg); apply nth_error_Some; congruence). destruct (nth_exists groups g Hlt) as (grp & Hgrp). exists grp. split; [exact Hgrp|].
      destruct Hl as (Hf & _). destruct (Hf g grp Hgrp) as (grp2 & H2 & Hfv). congruence.
    Qed.
    Lemma part_list_of g l' : nth_error fags' g = Some l' -> exists l, nth_error fags g = Some l /\
      (forall b, In b l' -> igroup_of b = g) /\
      (forall b i f, In b l' -> In (i, f) (fag_faces b) -> exists b0 e, In b0 l /\ In (e, f) (fag_faces b0) /\ image groups (m_groups m) parts p g e i) /\
      (forall ig t q es aff, In (InterPart ig t q es aff) l' -> es <> []) /\
      (forall q, NoDup (map (fun x => fst (snd x)) (interior_entries l)) -> ~ carries l (TPartition q) -> NoDup (flat_map fag_faces (filter (has_tag (TPartition q)) l'))).
    Proof.
      intros H. destruct (rb_fags _ _ _ _ _ Hm) as (Hfl & _). assert (Hlt : g < length fags) by (rewrite Hfl, <- Hlen; apply nth_error_Some; congruence). destruct (nth_exists fags g Hlt) as (l & Hfg). exists l. split; [exact Hfg|].
      destruct Hl as (_ & H2). destruct (H2 g l Hfg) as (l2 & Hl2 & Hrest). assert (l2 = l') by congruence. subst l2. exact Hrest.
    Qed.

    Lemma part_restrictable : restrictable (m_groups m) kinds fags' vs' false.
    Proof.
      split.
      - exact (pg_rows _ _ _ _ _ Hg).
      - intros e row v (g & i & Hrow & _) Hv. destruct (part_row g i row Hrow) as (_ & _ & _ & _ & _ & HF). rewrite Forall_forall in HF. auto.
      - intros g grp' e row' ref k Hgrp' Hrow' Href Hk. destruct (part_row g e row' Hrow') as (i & row & _ & Hrow & <- & _). destruct (part_group_of g grp' Hgrp') as (grp & Hgrp & Hf). rewrite Hf in Href. eapply (rb_faces _ _ _ _ _ Hm); eauto.
      - split; [rewrite (pg_groups _ _ _ _ _ Hg); exact Hlen|]. intros g grp' l' b e f Hgrp' Hl' Hb Hef. destruct (part_group_of g grp' Hgrp') as (grp & Hgrp & Hf). destruct (part_list_of g l' Hl') as (l & Hfl & _ & Hfa & _).
        destruct (Hfa b e f Hb Hef) as (b0 & e0 & Hb0 & He0 & (grp1 & grp1' & G1 & _ & G2 & Hlt & _)). assert (grp1' = grp') by congruence. subst grp1'. split; [exact Hlt|].
        destruct (rb_fags _ _ _ _ _ Hm) as (_ & Hfr). destruct (Hfr g grp l b0 e0 f Hgrp Hfl Hb0 He0) as (_ & Hff). unfold nfaces in *. now rewrite Hf.
      - intros g l' b Hl' Hb. destruct (part_list_of g l' Hl') as (l & _ & Ho & _). auto.
      - rewrite (pg_groups _ _ _ _ _ Hg). exact (rb_kinds _ _ _ _ _ Hm).
      - apply Forall_forall. intros grp' Hin. apply In_nth_error in Hin. destruct Hin as (g & Hgrp'). destruct (part_group_of g grp' Hgrp') as (grp & Hgrp & Hf). pose proof (rb_nfaces _ _ _ _ _ Hm) as Hnf. rewrite Forall_forall in Hnf. unfold nfaces in *. rewrite Hf. apply Hnf. eapply nth_error_In; eauto.
      - intros _. apply Forall_forall. intros grp' Hin. apply In_nth_error in Hin. destruct Hin as (g & Hgrp'). destruct (part_group_of g grp' Hgrp') as (grp & Hgrp & Hf). pose proof (rb_widths _ _ _ _ _ Hm eq_refl) as Hw. rewrite Forall_forall in Hw. rewrite Hf. apply Hw. eapply nth_error_In; eauto.
    Qed.
    Lemma part_asked_once q : asked_once fags RInterior -> (forall l, In l fags -> ~ carries l (TPartition q)) -> asked_once fags' (RTag (TPartition q)).
    Proof.
      intros Ho Hc. cbn [asked_once] in *. rewrite Forall_forall in *. intros l' Hl'. apply In_nth_error in Hl'. destruct Hl' as (g & Hl'). destruct (part_list_of g l' Hl') as (l & Hfl & _ & _ & _ & Hn). apply nth_error_In in Hfl. auto.
    Qed.
    Lemma part_nonempty q : nonempty_parts fags' q.
    Proof. intros g l' ig t es mm Hl' Hin. destruct (part_list_of g l' Hl') as (l & _ & _ & _ & Hn & _). eapply Hn; eauto. Qed.
    Lemma part_vertices_le : length vs' <= length vs.
    Proof.
      destruct (pg_vertices _ _ _ _ _ Hg) as (old & vs0 & Hv0 & Hs & HF & _). assert (vs0 = vs') by congruence. subst vs0. rewrite <- (Forall2_length' _ _ _ HF). rewrite <- (seq_length (length vs) 0).
      apply NoDup_incl_length; [now apply incr_NoDup|]. intros v Hv. destruct (Forall2_In_l _ _ _ _ HF Hv) as (x & _ & Hx). apply in_seq. split; [lia|]. cbn [Nat.add]. apply nth_error_Some. congruence.
    Qed.
  End One.

  (** The entries of one part towards another, in terms of the mesh *)
  Lemma part_entry_mesh p q (mp mq : mesh E A V) fp g m e f g' e' f' grp' : part_adjacency groups fags parts p mp fp -> part_geometry groups vs parts q mq -> fags_wf groups fags ->
    nth_error (m_groups mq) g' = Some grp' -> e' < nelements grp' ->
    (part_entry fp g (TPartition q) q m ((e, f), (base (map nelements (m_groups mq)) g' + e', f')) <->
     q <> p /\ exists e0 e0', int_entry fags g g' m ((e0, f), (e0', f')) /\ image groups (m_groups mp) parts p g e0 e /\ image groups (m_groups mq) parts q g' e0' e').
  Proof.
    intros Ha Hgq Hwf Hgrp' He'. rewrite (pa_part _ _ _ _ _ _ Ha). split.
    - intros (_ & Hqp & g2 & e0 & e2 & Hint & Him & Has). split; [exact Hqp|]. destruct (pg_all _ _ _ _ _ Hgq _ _ Has) as (g1 & j & j' & Heq & Hk & Himq).
      assert (Hgg : g1 = g' /\ j' = e').
      { assert (Him2 := Himq). destruct Him2 as (grp1 & grp1' & _ & _ & G2 & Hlt & _). assert (g1 = g').
        { apply (owns_unique (map nelements (m_groups mq)) g1 g' (base (map nelements (m_groups mq)) g1 + j')); [exists (nelements grp1'); split; [rewrite nth_error_map, G2; reflexivity|lia]|exists (nelements grp'); split; [rewrite nth_error_map, Hgrp'; reflexivity|lia]]. }
        subst g1. split; [reflexivity|lia]. }
      destruct Hgg as (-> & ->). assert (Hgg : g2 = g' /\ e2 = j).
      { destruct Hint as (l & es & Hl & Hb & Hen). destruct Hwf as (_ & _ & _ & Hn). destruct (Hn _ _ _ _ _ Hl Hb) as (grp2 & G2 & Hlt). specialize (Hlt _ Hen). cbn [fst snd] in Hlt. destruct Himq as (grp1 & grp1' & G1 & Hj & _).
        assert (g2 = g').
        { apply (owns_unique sizes g2 g' (base sizes g2 + e2)); [exists (nelements grp2); split; [rewrite nth_error_map, G2; reflexivity|lia]|exists (nelements grp1); split; [rewrite nth_error_map, G1; reflexivity|lia]]. }
        subst g2. split; [reflexivity|lia]. }
      destruct Hgg as (-> & ->). exists e0, j. auto.
    - intros (Hqp & e0 & e0' & Hint & Hi1 & Hi2). split; [reflexivity|]. split; [exact Hqp|]. exists g', e0, e0'. split; [exact Hint|]. split; [exact Hi1|]. destruct Hi2 as (? & ? & _ & _ & _ & _ & Has). exact Has.
  Qed.
End PartOut.
