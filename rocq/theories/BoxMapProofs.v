(** * find_bounding_box and map_mesh: lemmas *)
From Coq Require Import List Arith Bool ZArith Lia.
From Verif Require Import Np NpFacts MeshModel MeshStateModel ProcModel ProcSpec PartFilterProofs.
Import ListNotations.

Section BBox.
  Context {C : Type}.
  Variable leb : C -> C -> bool.
  Hypothesis leb_total : forall a b, leb a b = true \/ leb b a = true.
  Hypothesis leb_trans : forall a b c, leb a b = true -> leb b c = true -> leb a c = true.

  Lemma leb_refl' a : leb a a = true.
  Proof. destruct (leb_total a a); auto. Qed.

  Lemma amin_spec l x : amin leb l = Ok x -> In x l /\ forall y, In y l -> leb x y = true.
  Proof.
    unfold amin. destruct l as [|a l]; [discriminate|]. intros H. injection H as <-.
    revert a. induction l as [|b l IH]; intros a; cbn [fold_left].
    - split; [now left|]. intros y [->|[]]. apply leb_refl'.
    - destruct (leb a b) eqn:Hab.
      + destruct (IH a) as (I1 & I2). split; [destruct I1; [now left|now right; right]|].
        intros y [<-|[<-|Hy]]; [apply I2; now left| |apply I2; now right]. eapply leb_trans; [apply I2; now left|exact Hab].
      + assert (Hba : leb b a = true) by (destruct (leb_total a b); congruence).
        destruct (IH b) as (I1 & I2). split; [destruct I1; [now right; left|now right; right]|].
        intros y [<-|[<-|Hy]]; [|apply I2; now left|apply I2; now right]. eapply leb_trans; [apply I2; now left|exact Hba].
  Qed.

  Lemma amax_spec l x : amax leb l = Ok x -> In x l /\ forall y, In y l -> leb y x = true.
  Proof.
    unfold amax. destruct l as [|a l]; [discriminate|]. intros H. injection H as <-.
    revert a. induction l as [|b l IH]; intros a; cbn [fold_left].
    - split; [now left|]. intros y [->|[]]. apply leb_refl'.
    - destruct (leb b a) eqn:Hba.
      + destruct (IH a) as (I1 & I2). split; [destruct I1; [now left|now right; right]|].
        intros y [<-|[<-|Hy]]; [apply I2; now left| |apply I2; now right]. eapply leb_trans; [exact Hba|apply I2; now left].
      + assert (Hab : leb a b = true) by (destruct (leb_total a b); congruence).
        destruct (IH b) as (I1 & I2). split; [destruct I1; [now right; left|now right; right]|].
        intros y [<-|[<-|Hy]]; [|apply I2; now left|apply I2; now right]. eapply leb_trans; [exact Hab|apply I2; now left].
  Qed.

  Lemma axis_values_ok dim vs a : Forall (fun v : list C => length v = dim) vs -> a < dim ->
    exists l, axis_values vs a = Ok l /\ length l = length vs /\ Forall2 (fun v c => nth_error v a = Some c) vs l.
  Proof.
    intros HF Ha. destruct (mapM_total (fun v => get v a) vs) as (l & Hl).
    { intros v Hv. rewrite Forall_forall in HF. apply get_total. rewrite (HF _ Hv). exact Ha. }
    exists l. split; [exact Hl|]. split; [eapply mapM_length; eauto|]. apply mapM_ok in Hl. eapply Forall2_impl; [|exact Hl].
    cbn. intros v c Hc. now apply get_ok.
  Qed.

  Lemma bbox_spec {E A} dim (m : mesh E A (list C)) vs :
    m_vertices m = Some vs -> vs <> [] -> Forall (fun v => length v = dim) vs ->
    exists lo hi, find_bounding_box leb dim m = Ok (lo, hi) /\ length lo = dim /\ length hi = dim /\
      (forall v a l c h, In v vs -> nth_error v a = Some c -> nth_error lo a = Some l -> nth_error hi a = Some h ->
         leb l c = true /\ leb c h = true) /\
      (forall a l, nth_error lo a = Some l -> exists v, In v vs /\ nth_error v a = Some l) /\
      (forall a h, nth_error hi a = Some h -> exists v, In v vs /\ nth_error v a = Some h).
  Proof.
    intros Hvs Hne HF. unfold find_bounding_box. rewrite Hvs.
    assert (Haxis : forall a, In a (seq 0 dim) -> exists l x y, axis_values vs a = Ok l /\ amin leb l = Ok x /\ amax leb l = Ok y /\
              Forall2 (fun v c => nth_error v a = Some c) vs l).
    { intros a Ha. apply in_seq in Ha. destruct (axis_values_ok dim vs a HF ltac:(lia)) as (l & H1 & H2 & H3).
      destruct l as [|c l]; [destruct vs; [congruence|discriminate]|]. exists (c :: l). eexists. eexists. split; [exact H1|]. cbn. auto. }
    destruct (mapM_total (fun a => l <- axis_values vs a ;; amin leb l) (seq 0 dim)) as (lo & Hlo).
    { intros a Ha. destruct (Haxis a Ha) as (l & x & y & H1 & H2 & _). rewrite H1. cbn [bind]. eauto. }
    destruct (mapM_total (fun a => l <- axis_values vs a ;; amax leb l) (seq 0 dim)) as (hi & Hhi).
    { intros a Ha. destruct (Haxis a Ha) as (l & x & y & H1 & _ & H3 & _). rewrite H1. cbn [bind]. eauto. }
    rewrite Hlo. cbn [bind]. rewrite Hhi. cbn [bind]. exists lo, hi. split; [reflexivity|].
    assert (Ll : length lo = dim) by (rewrite (mapM_length _ _ _ Hlo), seq_length; reflexivity).
    assert (Lh : length hi = dim) by (rewrite (mapM_length _ _ _ Hhi), seq_length; reflexivity).
    split; [exact Ll|]. split; [exact Lh|].
    assert (Hseq : forall a, a < dim -> nth_error (seq 0 dim) a = Some a) by (intros a Ha; rewrite nth_error_seq' by exact Ha; reflexivity).
    assert (Hl : forall a x, nth_error lo a = Some x -> exists l, Forall2 (fun v c => nth_error v a = Some c) vs l /\ amin leb l = Ok x).
    { intros a x Hx. assert (Ha : a < dim) by (rewrite <- Ll; apply nth_error_Some; congruence).
      destruct (mapM_nth _ _ _ _ _ Hlo (Hseq a Ha)) as (x' & Hx' & Heq). destruct (Haxis a) as (l & x1 & y1 & H1 & H2 & _ & H4); [apply in_seq; lia|].
      rewrite H1 in Heq. cbn [bind] in Heq. exists l. split; [exact H4|]. congruence. }
    assert (Hh : forall a x, nth_error hi a = Some x -> exists l, Forall2 (fun v c => nth_error v a = Some c) vs l /\ amax leb l = Ok x).
    { intros a x Hx. assert (Ha : a < dim) by (rewrite <- Lh; apply nth_error_Some; congruence).
      destruct (mapM_nth _ _ _ _ _ Hhi (Hseq a Ha)) as (x' & Hx' & Heq). destruct (Haxis a) as (l & x1 & y1 & H1 & _ & H3 & H4); [apply in_seq; lia|].
      rewrite H1 in Heq. cbn [bind] in Heq. exists l. split; [exact H4|]. congruence. }
    split; [|split].
    - intros v a l c h Hv Hc Hla Hha. destruct (Hl _ _ Hla) as (l1 & F1 & M1). destruct (Hh _ _ Hha) as (l2 & F2 & M2).
      apply amin_spec in M1. apply amax_spec in M2. destruct M1 as (_ & M1), M2 as (_ & M2).
      destruct (Forall2_In_l _ _ _ _ F1 Hv) as (c1 & I1 & E1). destruct (Forall2_In_l _ _ _ _ F2 Hv) as (c2 & I2 & E2).
      assert (c1 = c) by congruence. assert (c2 = c) by congruence. subst. auto.
    - intros a l Hla. destruct (Hl _ _ Hla) as (l1 & F1 & M1). apply amin_spec in M1 as (M1 & _).
      destruct (Forall2_In_r _ _ _ _ F1 M1) as (v & Hv & Hva). eauto.
    - intros a l Hla. destruct (Hh _ _ Hla) as (l1 & F1 & M1). apply amax_spec in M1 as (M1 & _).
      destruct (Forall2_In_r _ _ _ _ F1 M1) as (v & Hv & Hva). eauto.
  Qed.
End BBox.

Section MapMesh.
  Context {P A : Type}.
  Variable trivial : A -> bool.

  Lemma map_nodes_pointwise (h : P -> P) nodes : map_nodes (map h) nodes = Ok (map (map h) nodes).
  Proof.
    unfold map_nodes. rewrite map_length, Nat.eqb_refl. cbn [guard bind]. f_equal.
    induction nodes as [|s ss IH]; [reflexivity|]. cbn [concat map]. rewrite map_app.
    rewrite firstn_app, map_length, Nat.sub_diag, firstn_all2 by (rewrite map_length; lia). cbn [firstn]. rewrite app_nil_r. f_equal.
    rewrite skipn_app, map_length, Nat.sub_diag, skipn_all2 by (rewrite map_length; lia). cbn [skipn app]. exact IH.
  Qed.

  Definition maps_free (m : mesh (list P) A P) : Prop :=
    match m_facial m with
    | Pending => True
    | Unavailable => False
    | Available fags => forall l b a, In l fags -> In b l -> attached b a -> trivial a = true
    end.

  Lemma attached_iff (b : fagrp A) a : attached b a <-> aff_of b = Some a.
  Proof. destruct b; cbn [attached aff_of]; split; congruence || contradiction. Qed.
  Lemma has_adj_maps_iff fags : has_adj_maps trivial fags = false <->
    forall l b a, In l fags -> In b l -> attached b a -> trivial a = true.
  Proof.
    unfold has_adj_maps. split.
    - intros H l b a Hl Hb Ha. apply attached_iff in Ha. destruct (trivial a) eqn:Ht; [reflexivity|exfalso].
      assert (existsb (existsb (fun b => match aff_of b with Some a => negb (trivial a) | None => false end)) fags = true); [|congruence].
      apply existsb_exists. exists l. split; auto. apply existsb_exists. exists b. rewrite Ha, Ht. auto.
    - intros H. destruct (existsb _ _) eqn:He; [exfalso|reflexivity]. apply existsb_exists in He as (l & Hl & He).
      apply existsb_exists in He as (b & Hb & He). destruct (aff_of b) as [a|] eqn:Ha; [|discriminate].
      apply attached_iff in Ha. rewrite (H l b a Hl Hb Ha) in He. discriminate.
  Qed.

  Lemma map_mesh_spec (h : P -> P) (m : mesh (list P) A P) : maps_free m ->
    map_mesh trivial (map h) m =
      Ok (mk_mesh (map (fun g => mk_egroup (eg_vi g) (map (map h) (eg_nodes g)) (eg_fvi g)) (m_groups m))
                  (option_map (map h) (m_vertices m)) (m_conforming m) (m_nodal m) (m_facial m)
                  (m_vdtype m) (m_edtype m) (m_fdtype m)).
  Proof.
    intros Hf. unfold map_mesh.
    assert (Hg : (match m_facial m with Pending => Ok tt | Unavailable => Err DataUnavailableError
                  | Available fags => guard (negb (has_adj_maps trivial fags)) ValueError end) = Ok tt).
    { unfold maps_free in Hf. destruct (m_facial m) as [| |fags]; auto; [contradiction|]. apply has_adj_maps_iff in Hf. rewrite Hf. reflexivity. }
    rewrite Hg. cbn [bind].
    rewrite (mapM_map_ok _ (fun g => mk_egroup (eg_vi g) (map (map h) (eg_nodes g)) (eg_fvi g))).
    - reflexivity.
    - intros g _. rewrite map_nodes_pointwise. reflexivity.
  Qed.

  Lemma map_mesh_error f (m : mesh (list P) A P) :
    (m_facial m = Unavailable -> map_mesh trivial f m = Err DataUnavailableError) /\
    (forall fags l b a, m_facial m = Available fags -> In l fags -> In b l -> attached b a -> trivial a = false ->
       map_mesh trivial f m = Err ValueError).
  Proof.
    split.
    - intros H. unfold map_mesh. rewrite H. reflexivity.
    - intros fags l b a H Hl Hb Ha Ht. unfold map_mesh. rewrite H.
      destruct (has_adj_maps trivial fags) eqn:He; [reflexivity|]. rewrite has_adj_maps_iff in He. rewrite (He l b a Hl Hb Ha) in Ht. discriminate.
  Qed.
End MapMesh.
