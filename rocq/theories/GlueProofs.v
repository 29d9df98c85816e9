(** * GlueProofs: gluing of boundaries. *)
From Coq Require Import List Arith Bool ZArith Lia Permutation.
From Verif Require Import Np NpFacts MeshModel MeshSpec MeshProofs CompletionProofs FaceProofs MeshStateModel Lin Ord
  ProcModel SplitProofs FlipProofs AffineModel PointModel PointSpec PointProofs GlueModel GlueSpec.
Import ListNotations.

Section GlueProofs.
  Variable R : ocring.
  Variable median : list R -> R.
  Variable inv : list (list R) -> res (list (list R)).
  Variable fuel : nat.
  Variable E : Type.
  Implicit Types (groups : list (egroup E)) (fags : list (list (fagrp (amap R)))) (vs : list (list R)) (mp : bpm R).

  Definition bparts fags t : list (list faceid) :=
    flat_map (fun il : nat * list (fagrp (amap R)) =>
                   map (fun fg => map (fun ef : nat * nat => (fst il, fst ef, snd ef)) (fag_faces fg))
                       (filter (has_tag t) (snd il))) (enumerate fags).

  Lemma bface_In fags t l a : get_boundary_face_ids R fags t = Ok l -> (In a l <-> bdry_adj fags t a).
  Proof.
    unfold get_boundary_face_ids. fold (bparts fags t). destruct (guard _ _) as [[]|?]; cbn [bind]; [|discriminate]. intros [= <-].
    rewrite in_concat. destruct a as ((g, e), f). cbn [bdry_adj]. split.
    - intros (p & Hp & Ha). apply in_flat_map in Hp as ((g' & l) & Hgl & Hp). apply In_enumerate in Hgl.
      cbn [fst snd] in Hp. apply in_map_iff in Hp as (fg & <- & Hfg). apply filter_In in Hfg as (Hfg & Ht).
      apply in_map_iff in Ha as ((e' & f') & Ea & Hef). cbn [fst snd] in Ea. injection Ea as -> -> ->.
      exists l. split; auto. exists fg. apply has_tag_iff in Ht. auto.
    - intros (l & Hl & fg & Hfg & Ht & Hef). exists (map (fun ef : nat * nat => (g, fst ef, snd ef)) (fag_faces fg)). split.
      + apply in_flat_map. exists (g, l). split; [now apply In_enumerate|]. cbn [fst snd].
        apply in_map_iff. exists fg. split; auto. apply filter_In. split; auto. now apply has_tag_iff.
      + apply in_map_iff. exists (e, f). auto.
  Qed.

  Lemma bface_NoDup fags t l : get_boundary_face_ids R fags t = Ok l -> faces_once fags t -> NoDup l.
  Proof.
    unfold get_boundary_face_ids. fold (bparts fags t). destruct (guard _ _) as [[]|?]; cbn [bind]; [|discriminate]. intros [= <-] Ho.
    assert (Ec : concat (bparts fags t) =
      flat_map (fun il : nat * list (fagrp (amap R)) =>
        map (fun ef : nat * nat => (fst il, fst ef, snd ef)) (flat_map fag_faces (filter (has_tag t) (snd il)))) (enumerate fags)).
    { unfold bparts. induction (enumerate fags) as [|(g & l) L IH]; [reflexivity|]. cbn [flat_map fst snd].
      rewrite concat_app, IH. f_equal. rewrite flat_map_concat_map, concat_map, !map_map. reflexivity. }
    rewrite Ec. apply NoDup_flat_map.
    - apply NoDup_map_inv with (f := fst). unfold enumerate, enumerate_from. rewrite combine_fst; [apply seq_NoDup|now rewrite seq_length].
    - intros (g & l) Hin. apply In_enumerate in Hin. cbn [fst snd]. apply NoDup_map_inj; [|eapply Ho; eauto].
      intros (e & f) (e' & f') _ _ H. cbn in H. congruence.
    - intros (g & l) (g' & l') x H1 H2 Hx Hx'. cbn [fst snd] in *.
      apply in_map_iff in Hx as (? & <- & _). apply in_map_iff in Hx' as (? & Ex & _). injection Ex as -> _ _.
      apply In_enumerate in H1, H2. congruence.
  Qed.

  Lemma in_repeat {A} (x y : A) n : In y (repeat x n) -> y = x.
  Proof. intros H. now apply repeat_spec in H. Qed.

  Lemma face_vertices_In groups fids zs v :
    (forall a, In a fids -> (fid_group a < length groups)%nat /\ exists va, face_verts groups a va) ->
    get_face_vertex_indices E groups fids = Ok zs ->
    In v (vertex_numbers zs) <-> exists a va, In a fids /\ face_verts groups a va /\ In v va.
  Proof.
    intros Hv. unfold get_face_vertex_indices. destruct (guard _ _) as [[]|?]; cbn [bind]; [|discriminate].
    fold (maxfv groups).
    destruct (mapM _ (enumerate groups)) as [parts|] eqn:Ep; cbn [bind]; [|discriminate].
    destruct (guard _ _) as [[]|?]; cbn [bind]; [|discriminate]. intros [= <-].
    unfold vertex_numbers. rewrite in_map_iff.
    assert (Hpart : forall col, In col (concat parts) <-> exists a va, In a fids /\ face_verts groups a va /\
        col = map Z.of_nat va ++ repeat (-1)%Z (maxfv groups - length va)).
    { intros col. rewrite in_concat. split.
      - intros (p & Hp & Hc). apply mapM_ok in Ep. destruct (Forall2_In_r _ _ _ _ Ep Hp) as ((g & grp) & Hg & Eg). cbn [fst snd] in Eg.
        destruct (guard _ _) as [[]|?]; cbn [bind] in Eg; [|discriminate]. apply mapM_ok in Eg.
        destruct (Forall2_In_r _ _ _ _ Eg Hc) as (a & Ha & Ec). apply filter_In in Ha as (Ha & _).
        destruct (Hv a Ha) as (_ & va & Hva). exists a, va. repeat split; auto.
        destruct (face_column_spec Z.of_nat groups a va Hva) as (_ & Ec'). congruence.
      - intros (a & va & Ha & Hva & ->). destruct (Hv a Ha) as (Hg & _).
        destruct (nth_error groups (fid_group a)) as [grp|] eqn:Eg; [|apply nth_error_None in Eg; lia].
        apply mapM_ok in Ep. destruct (Forall2_In_l _ _ _ (fid_group a, grp) Ep) as (p & Hp & Epp); [now apply In_enumerate|].
        cbn [fst snd] in Epp. destruct (guard _ _) as [[]|?]; cbn [bind] in Epp; [|discriminate]. apply mapM_ok in Epp.
        destruct (Forall2_In_l _ _ _ a Epp) as (col & Hcol & Ecol).
        { apply filter_In. split; auto. apply Nat.eqb_refl. }
        destruct (face_column_spec Z.of_nat groups a va Hva) as (_ & Ec'). exists p. split; auto. congruence. }
    split.
    - intros (z & <- & Hz). apply filter_In in Hz as (Hz & Hpos). apply Z.leb_le in Hpos.
      apply (proj1 (unique_Z_In _ _)) in Hz. apply in_concat in Hz as (col & Hc & Hz).
      apply Hpart in Hc as (a & va & Ha & Hva & ->). apply in_app_or in Hz as [Hz|Hz].
      + apply in_map_iff in Hz as (w & <- & Hw). exists a, va. rewrite Nat2Z.id. auto.
      + apply in_repeat in Hz. lia.
    - intros (a & va & Ha & Hva & Hin). exists (Z.of_nat v). rewrite Nat2Z.id. split; auto. apply filter_In. split.
      + apply unique_Z_In, in_concat. eexists. split; [apply Hpart; eauto|]. apply in_or_app. left. now apply in_map.
      + apply Z.leb_le. lia.
  Qed.

  Lemma vertex_numbers_NoDup zs : NoDup (vertex_numbers zs).
  Proof.
    unfold vertex_numbers. apply NoDup_map_inj; [|apply NoDup_filter, unique_Z_NoDup].
    intros x y Hx Hy H. apply filter_In in Hx as (_ & Hx). apply filter_In in Hy as (_ & Hy). apply Z.leb_le in Hx, Hy. lia.
  Qed.

  Lemma max_vertex_spec groups mx : max_vertex_index E groups = Ok mx ->
    forall a va v, face_verts groups a va -> In v va -> v <= mx.
  Proof.
    unfold max_vertex_index.
    assert (G : forall gs m0 mx, foldM (fun mx g => match eg_vi g with None => Err AssertionError | Some vi =>
                 _ <- guard (negb (length (concat vi) =? 0)) ValueError ;; Ok (Nat.max mx (list_max0 (concat vi))) end) gs m0 = Ok mx ->
              m0 <= mx /\ forall (g : egroup E) vi, In g gs -> eg_vi g = Some vi -> list_max0 (concat vi) <= mx).
    { induction gs as [|g gs IH]; intros m0 m H; cbn [foldM] in H.
      - injection H as ->. split; [lia|intros ? ? []].
      - destruct (eg_vi g) as [vi|] eqn:Ev; [|discriminate].
        destruct (guard _ _) as [[]|?]; cbn [bind] in H; [|discriminate]. destruct (IH _ _ H) as (A & B). split; [lia|].
        intros g' vi' [<-|Hin] Hvi; [|eauto]. assert (vi' = vi) by congruence. subst. lia. }
    intros H a va v Hva Hin. destruct (G _ _ _ H) as (_ & HB).
    destruct a as ((g, e), f). destruct Hva as (grp & row & ref & Hg & (grp' & vi & Hg' & Hvi & _ & Hrow) & Href & HF).
    assert (grp' = grp) by congruence. subst. specialize (HB grp vi (nth_error_In _ _ Hg) Hvi).
    destruct (Forall2_In_r _ _ _ _ HF Hin) as (k & _ & Hk).
    eapply Nat.le_trans; [|exact HB]. apply list_max0_ge, in_concat. exists row. split; eapply nth_error_In; eauto.
  Qed.

  (** The vertex map: first-boundary vertices go to their matches, all others stay. *)
  Lemma assign_spec mx idx vals vmap : NoDup idx -> length vals = length idx -> (forall i, In i idx -> i <= mx) ->
    assign_array (seq 0 (S mx)) idx vals = Ok vmap ->
    (forall i v, In (i, v) (combine idx vals) -> nth_error vmap i = Some v) /\
    (forall i, ~ In i idx -> i <= mx -> nth_error vmap i = Some i).
  Proof.
    intros Hnd Hl Hmx H.
    assert (Hs : scatter (seq 0 (S mx)) (combine idx vals) = Ok vmap).
    { unfold assign_array in H. destruct vals as [|v [|w vals]].
      - destruct idx; [|cbn in Hl; lia]. exact H.
      - destruct idx as [|i [|? ?]]; cbn in Hl; try lia. exact H.
      - destruct (guard _ _) as [[]|?]; cbn [bind] in H; [exact H|discriminate]. }
    split.
    - intros i v Hin. eapply scatter_in; eauto. now rewrite combine_fst.
    - intros i Hn Hi. rewrite (scatter_notin _ _ _ i Hs) by now rewrite combine_fst.
      rewrite (nth_error_nth' _ 0) by (rewrite seq_length; lia). now rewrite seq_nth by lia.
  Qed.

  Lemma perm_map_inj_on {A B} (f : A -> B) l l' : (forall x y, In x (l ++ l') -> In y (l ++ l') -> f x = f y -> x = y) ->
    Permutation (map f l) (map f l') -> Permutation l l'.
  Proof.
    intros Hinj HP. apply Permutation_map_inv in HP as (l3 & Hm & HP).
    assert (l = l3) as ->; [|now symmetry].
    assert (Hin3 : forall y, In y l3 -> In y l') by (intros y; apply Permutation_in; now symmetry).
    clear HP. revert l3 Hm Hin3. induction l as [|x l IH]; intros [|y l3] Hm Hin3; try discriminate; auto.
    cbn [map] in Hm. injection Hm as Hf Hm. f_equal.
    - apply Hinj; auto; apply in_or_app; [left; now left|right; apply Hin3; now left].
    - apply IH; auto; [|intros; apply Hin3; now right]. intros u v Hu Hv. apply Hinj; now right.
  Qed.

  Lemma bdry_face_verts d groups vs fags t a : mesh_in_range d groups vs fags -> bdry_adj fags t a ->
    (fid_group a < length groups)%nat /\ exists va, face_verts groups a va.
  Proof.
    intros (HW & HF & (HL & HR) & _) Ha. destruct a as ((g, e), f). cbn [fid_group fst].
    destruct Ha as (l & Hl & b & Hb & Ht & Hef).
    assert (Hg : (g < length groups)%nat) by (rewrite <- HL; apply nth_error_Some; congruence).
    split; auto. apply valid_face_verts; auto.
    destruct (nth_error groups g) as [grp|] eqn:Eg; [|apply nth_error_None in Eg; lia].
    exists grp. split; auto. eapply HR; eauto.
  Qed.

  Lemma mapM_pairs (fids : list faceid) pairs P :
    mapM (fun ij : nat * nat => a <- get fids (fst ij) ;; b <- get fids (snd ij) ;; Ok (a, b)) pairs = Ok P ->
    forall a b, In (a, b) P <-> exists i j, In (i, j) pairs /\ nth_error fids i = Some a /\ nth_error fids j = Some b.
  Proof.
    intros H a b. apply mapM_ok in H. split.
    - intros Hin. destruct (Forall2_In_r _ _ _ _ H Hin) as ((i & j) & Hij & Eq). cbn [fst snd] in Eq.
      destruct (get fids i) as [a'|] eqn:Ea; cbn [bind] in Eq; [|discriminate].
      destruct (get fids j) as [b'|] eqn:Eb; cbn [bind] in Eq; [|discriminate]. injection Eq as -> ->.
      apply get_ok in Ea, Eb. eauto.
    - intros (i & j & Hij & Ha & Hb). destruct (Forall2_In_l _ _ _ _ H Hij) as ((a' & b') & Hin & Eq). cbn [fst snd] in Eq.
      rewrite (proj2 (get_ok _ _ _) Ha), (proj2 (get_ok _ _ _) Hb) in Eq. cbn [bind] in Eq. congruence.
  Qed.

  (** Counting: pairs that use each first and each second number at most once use all of them. *)
  Lemma all_used (ks : list nat) (l : list (nat * nat)) (pr : nat * nat -> nat) :
    NoDup l -> NoDup ks -> length l = length ks -> (forall p, In p l -> In (pr p) ks) ->
    (forall p q, In p l -> In q l -> pr p = pr q -> p = q) -> forall k, In k ks -> exists p, In p l /\ pr p = k.
  Proof.
    intros Hnd Hks Hl Hin Hinj k Hk.
    assert (Hnm : NoDup (map pr l)) by now apply NoDup_map_inj.
    assert (Hincl : incl (map pr l) ks) by (intros x Hx; apply in_map_iff in Hx as (p & <- & Hp); auto).
    pose proof (NoDup_length_incl (l' := ks) Hnm ltac:(rewrite map_length; lia) Hincl k Hk) as H.
    apply in_map_iff in H as (p & ? & ?). eauto.
  Qed.

  Lemma match_boundary_main d groups vs fags mp P :
    (0 < d)%nat -> mesh_in_range d groups vs fags -> gluable groups fags vs mp ->
    match_boundary_faces R median fuel E d groups (Some vs) fags mp = Ok P ->
    one_to_one groups fags vs mp P.
  Proof.
    intros Hd HWF (Htol & Hlen & Ho1 & Ho2 & Hd1 & Hd2 & Hsep & Hcom) H.
    unfold match_boundary_faces in H.
    destruct (get_boundary_face_ids R fags (bp_from mp)) as [mf|] eqn:Emf; cbn [bind] in H; [|discriminate].
    destruct (get_boundary_face_ids R fags (bp_to mp)) as [nf|] eqn:Enf; cbn [bind] in H; [|discriminate].
    destruct (Nat.eqb_spec (length mf) (length nf)) as [Hmn|]; cbn [guard bind] in H; [|discriminate].
    destruct (get_face_vertex_indices E groups mf) as [mfv|] eqn:Emv; cbn [bind] in H; [|discriminate].
    destruct (get_face_vertex_indices E groups nf) as [nfv|] eqn:Env; cbn [bind] in H; [|discriminate].
    cbv zeta in H.
    assert (Hmf : forall a, In a mf <-> bdry_adj fags (bp_from mp) a) by (intros; now apply bface_In).
    assert (Hnf : forall a, In a nf <-> bdry_adj fags (bp_to mp) a) by (intros; now apply bface_In).
    assert (HVm : forall v, In v (vertex_numbers mfv) <-> bdry_vertex groups fags (bp_from mp) v).
    { intros v. rewrite (face_vertices_In groups mf mfv v) by (try (intros a Ha; apply Hmf in Ha; eapply bdry_face_verts; eauto); auto).
      split; intros (a & va & Ha & Hr); exists a, va; (split; [now apply Hmf|exact Hr]). }
    assert (HVn : forall v, In v (vertex_numbers nfv) <-> bdry_vertex groups fags (bp_to mp) v).
    { intros v. rewrite (face_vertices_In groups nf nfv v) by (try (intros a Ha; apply Hnf in Ha; eapply bdry_face_verts; eauto); auto).
      split; intros (a & va & Ha & Hr); exists a, va; (split; [now apply Hnf|exact Hr]). }
    set (mv := vertex_numbers mfv) in *. set (nv := vertex_numbers nfv) in *.
    assert (Hmvnd : NoDup mv) by apply vertex_numbers_NoDup. clearbody mv nv.
    destruct (take vs mv) as [mpts|] eqn:Empts; cbn [bind] in H; [|discriminate].
    destruct (take vs nv) as [npts|] eqn:Enpts; cbn [bind] in H; [|discriminate].
    destruct (mapM _ mpts) as [images|] eqn:Eim in H; cbn [bind] in H; [|discriminate].
    destruct (find_point_to_point_mapping _ _ _ _ _ _ _ _ _) as [r|] eqn:Er in H; cbn [bind] in H; [|discriminate].
    destruct (forallb _ r) eqn:Epos in H; cbn [guard bind] in H; [|discriminate].
    destruct (take nv _) as [matched|] eqn:Ematched in H; cbn [bind] in H; [|discriminate].
    destruct (max_vertex_index E groups) as [mx|] eqn:Emx; cbn [bind] in H; [|discriminate].
    destruct (assign_array _ mv matched) as [vmap|] eqn:Evmap in H; cbn [bind] in H; [|discriminate].
    set (vm := fun v => match nth_error vmap v with Some w => Z.of_nat w | None => Z.of_nat v end) in H.
    destruct (match_faces vm groups (mf ++ nf)) as [pairs|] eqn:Epairs; cbn [bind] in H; [|discriminate].
    destruct (Nat.eqb_spec (length pairs) (length mf)) as [Hnp|]; cbn [guard bind] in H; [|discriminate].
    (* the matching of vertices *)
    assert (HM : matching (bp_tol mp) images npts r).
    { unfold find_point_to_point_mapping in Er. destruct (Nat.eqb_spec d (match am_matrix (bp_map mp) with Some M => length M | None => d end)) as [Ed|];
        cbn [guard bind] in Er; [|discriminate]. eapply find_mapping_spec; [exact Htol| |exact Er]. lia. }
    assert (Hmatch : forall v, In v mv -> exists w, In (v, w) (combine mv matched) /\ In w nv /\ lands_on vs mp v w).
    { intros v Hv. apply In_nth_error in Hv as (i & Hi).
      assert (Hx : exists x, nth_error mpts i = Some x /\ nth_error vs v = Some x).
      { pose proof Empts as Et. apply take_ok in Et. destruct (Forall2_nth_error _ _ _ _ _ Et Hi) as (x & ? & ?). eauto. }
      destruct Hx as (x & Hx & Hvx).
      destruct (mapM_nth _ _ _ _ _ Eim Hx) as (fx & Hfx & Efx).
      destruct (Forall2_nth_error _ _ _ _ _ HM Hfx) as (z & Hz & Hcase).
      rewrite forallb_forall in Epos. pose proof (Epos z (nth_error_In _ _ Hz)) as Hzp. apply Z.leb_le in Hzp.
      destruct Hcase as [(-> & _)|(k & y & -> & Hy & Hw)]; [lia|].
      pose proof Ematched as Etk. apply take_ok in Etk.
      destruct (Forall2_nth_error _ _ _ i k Etk) as (w & Hwm & Hwn); [rewrite nth_error_map, Hz; cbn; now rewrite Nat2Z.id|].
      exists w. split; [|split].
      - apply (nth_error_In _ i). clear -Hi Hwm. revert matched i Hi Hwm. induction mv as [|a mv IH]; intros [|b mt] [|i] Hi Hw; cbn in *; try discriminate; [congruence|auto].
      - eapply nth_error_In; eauto.
      - pose proof Enpts as Et. apply take_ok in Et. destruct (Forall2_nth_error _ _ _ _ _ Et Hwn) as (y' & Hy' & Hvy).
        exists x, fx, y. assert (y' = y) by congruence. subst y'. auto. }
    assert (Hmv_mx : forall v, In v mv -> v <= mx).
    { intros v Hv. apply HVm in Hv as (a & va & _ & Hva & Hin). eapply max_vertex_spec; eauto. }
    assert (Hlm : length matched = length mv).
    { apply take_ok, Forall2_length' in Ematched. rewrite map_length in Ematched.
      apply Forall2_length' in HM. apply mapM_length in Eim. apply take_ok, Forall2_length' in Empts. lia. }
    destruct (assign_spec mx mv matched vmap Hmvnd Hlm Hmv_mx Evmap) as (Hin_v & Hout_v).
    assert (F1 : forall v, bdry_vertex groups fags (bp_from mp) v -> exists w, vm v = Z.of_nat w /\ bdry_vertex groups fags (bp_to mp) w /\ lands_on vs mp v w).
    { intros v Hv. apply HVm in Hv. destruct (Hmatch v Hv) as (w & Hc & Hw & Hl). exists w. split; [|split; [now apply HVn|exact Hl]].
      unfold vm. now rewrite (Hin_v v w Hc). }
    assert (F2 : forall v, bdry_vertex groups fags (bp_to mp) v -> vm v = Z.of_nat v).
    { intros v Hv. destruct (in_dec Nat.eq_dec v mv) as [Hm|Hm].
      - destruct (F1 v ltac:(now apply HVm)) as (w & -> & Hw & Hl). f_equal. apply (Hcom v w); auto. now apply HVm.
      - unfold vm. rewrite Hout_v; auto. destruct Hv as (a & va & _ & Hva & Hin). eapply max_vertex_spec; eauto. }
    assert (F3 : forall v v', bdry_vertex groups fags (bp_from mp) v -> bdry_vertex groups fags (bp_from mp) v' -> vm v = vm v' -> v = v').
    { intros v v' Hv Hv' Heq. destruct (F1 v Hv) as (w & E1 & _ & (x & fx & y & Hx & Hfx & Hy & Hw)).
      destruct (F1 v' Hv') as (w' & E2 & _ & (x' & fx' & y' & Hx' & Hfx' & Hy' & Hw')).
      assert (w' = w) by lia. subst w'. assert (y' = y) by congruence. subst y'.
      apply (Hsep v v' x x' fx fx'); auto. destruct HWF as (_ & _ & _ & _ & HD). rewrite Forall_forall in HD.
      pose proof (HD _ (nth_error_In _ _ Hx)). pose proof (HD _ (nth_error_In _ _ Hx')). pose proof (HD _ (nth_error_In _ _ Hy)).
      pose proof (Hlen _ _ (nth_error_In _ _ Hx) Hfx). pose proof (Hlen _ _ (nth_error_In _ _ Hx') Hfx').
      apply (within_both R (bp_tol mp) fx y fx'); congruence. }
    (* faces *)
    set (nm := length mf) in *.
    assert (Hval : forall a, In a (mf ++ nf) -> exists va, face_verts groups a va).
    { intros a Ha. apply in_app_or in Ha as [Ha|Ha]; [apply Hmf in Ha|apply Hnf in Ha]; eapply bdry_face_verts; eauto. }
    assert (Hgf : exists g, In g groups /\ eg_fvi g <> []).
    { unfold get_face_vertex_indices in Emv. destruct (length (concat (map eg_fvi groups)) =? 0) eqn:El; [discriminate|].
      apply Nat.eqb_neq in El. clear -El. induction groups as [|g gs IH]; [cbn in El; lia|].
      destruct (eg_fvi g) eqn:Eg.
      - cbn [map concat] in El. rewrite Eg in El. destruct (IH El) as (g' & ? & ?). exists g'. split; auto. now right.
      - exists g. split; [now left|]. congruence. }
    destruct (match_faces_spec vm groups (mf ++ nf) ltac:(apply HWF) Hgf) as (pairs' & Ep' & Hndp & Hspec); auto.
    { intros v. unfold vm. destruct (nth_error vmap v); lia. }
    assert (pairs' = pairs) by congruence. subst pairs'. clear Ep' Epairs.
    pose proof (bface_NoDup _ _ _ Emf Ho1) as Hndm. pose proof (bface_NoDup _ _ _ Enf Ho2) as Hndn.
    assert (SMm : forall a b, In a mf -> In b mf -> same_mapped vm groups a b -> a = b).
    { intros a b Ha Hb (va & vb & Hva & Hvb & HP). apply Hmf in Ha, Hb. apply Hd1; auto. exists va, vb. repeat split; auto.
      apply (perm_map_inj_on vm); auto. intros x y Hx Hy. apply F3.
      - apply in_app_or in Hx as [Hx|Hx]; [exists a, va|exists b, vb]; auto.
      - apply in_app_or in Hy as [Hy|Hy]; [exists a, va|exists b, vb]; auto. }
    assert (SMn : forall a b, In a nf -> In b nf -> same_mapped vm groups a b -> a = b).
    { intros a b Ha Hb (va & vb & Hva & Hvb & HP). apply Hnf in Ha, Hb. apply Hd2; auto. exists va, vb. repeat split; auto.
      apply (perm_map_inj_on vm); auto. intros x y Hx Hy.
      rewrite (F2 x), (F2 y); [apply Nat2Z.inj| |].
      - apply in_app_or in Hy as [Hy|Hy]; [exists a, va|exists b, vb]; auto.
      - apply in_app_or in Hx as [Hx|Hx]; [exists a, va|exists b, vb]; auto. }
    assert (SMsym : forall a b, same_mapped vm groups a b -> same_mapped vm groups b a).
    { intros a b (va & vb & ? & ? & HP). exists vb, va. repeat split; auto. now symmetry. }
    assert (SMtr : forall a b c, same_mapped vm groups a b -> same_mapped vm groups b c -> same_mapped vm groups a c).
    { intros a b c (va & vb & Ha & Hb & HP) (vb' & vc & Hb' & Hc & HP').
      rewrite (face_verts_fun groups b vb' vb Hb' Hb) in HP'. exists va, vc. repeat split; auto. now rewrite HP. }
    assert (Nm : forall i a, nth_error (mf ++ nf) i = Some a -> (i < nm /\ nth_error mf i = Some a) \/ (nm <= i < nm + nm /\ nth_error nf (i - nm) = Some a)).
    { intros i a Hi. destruct (Nat.ltb_spec i nm).
      - rewrite nth_error_app1 in Hi by auto. auto.
      - rewrite nth_error_app2 in Hi by auto. right. split; auto. fold nm in Hi. split; auto.
        assert (i - nm < length nf) by (apply nth_error_Some; congruence). lia. }
    assert (Hpair : forall i j, In (i, j) pairs -> exists a b, i < nm /\ nm <= j < nm + nm /\
        nth_error mf i = Some a /\ nth_error nf (j - nm) = Some b /\ same_mapped vm groups a b).
    { intros i j Hin. apply Hspec in Hin as (Hij & a & b & Ha & Hb & HS & _).
      destruct (Nm _ _ Ha) as [(Hi & Ha')|(Hi & Ha')]; destruct (Nm _ _ Hb) as [(Hj & Hb')|(Hj & Hb')]; try lia.
      - exfalso. assert (a = b) by (apply SMm; auto; eapply nth_error_In; eauto). subst b.
        assert (i = j); [|lia]. apply (proj1 (NoDup_nth_error mf) Hndm); [auto|congruence].
      - exists a, b. auto.
      - exfalso. assert (a = b) by (apply SMn; auto; eapply nth_error_In; eauto). subst b.
        assert (i - nm = j - nm); [|lia]. apply (proj1 (NoDup_nth_error nf) Hndn); [lia|congruence]. }
    assert (Inj1 : forall p q, In p pairs -> In q pairs -> fst p = fst q -> p = q).
    { intros (i & j) (i' & j') Hp Hq Heq. cbn in Heq. subst i'. f_equal.
      destruct (Hpair _ _ Hp) as (a & b & _ & Hj & Ha & Hb & HS). destruct (Hpair _ _ Hq) as (a' & b' & _ & Hj' & Ha' & Hb' & HS').
      assert (a' = a) by congruence. subst a'. assert (b = b'). { apply SMn; try (eapply nth_error_In; eauto). eapply SMtr; [apply SMsym; eauto|eauto]. }
      subst b'. assert (j - nm = j' - nm); [|lia]. apply (proj1 (NoDup_nth_error nf) Hndn); [lia|congruence]. }
    assert (Inj2 : forall p q, In p pairs -> In q pairs -> snd p = snd q -> p = q).
    { intros (i & j) (i' & j') Hp Hq Heq. cbn in Heq. subst j'. f_equal.
      destruct (Hpair _ _ Hp) as (a & b & Hi & _ & Ha & Hb & HS). destruct (Hpair _ _ Hq) as (a' & b' & Hi' & _ & Ha' & Hb' & HS').
      assert (b' = b) by congruence. subst b'. assert (a = a'). { apply SMm; try (eapply nth_error_In; eauto). eapply SMtr; [eauto|apply SMsym; eauto]. }
      subst a'. apply (proj1 (NoDup_nth_error mf) Hndm); [auto|congruence]. }
    assert (All1 : forall i, i < nm -> exists j, In (i, j) pairs).
    { intros i Hi. destruct (all_used (seq 0 nm) pairs fst) with (k := i) as ((i' & j) & Hin & Heq); auto using seq_NoDup.
      - rewrite seq_length. exact Hnp.
      - intros (i' & j) Hp. destruct (Hpair _ _ Hp) as (? & ? & ? & _). apply in_seq. cbn. lia.
      - apply in_seq. lia.
      - cbn in Heq. subst i'. eauto. }
    assert (All2 : forall j, nm <= j < nm + nm -> exists i, In (i, j) pairs).
    { intros j Hj. destruct (all_used (seq nm nm) pairs snd) with (k := j) as ((i & j') & Hin & Heq); auto using seq_NoDup.
      - rewrite seq_length. exact Hnp.
      - intros (i & j') Hp. destruct (Hpair _ _ Hp) as (? & ? & ? & ? & _). apply in_seq. cbn. lia.
      - apply in_seq. lia.
      - cbn in Heq. subst j'. eauto. }
    assert (HP : forall a b, In (a, b) P <-> exists i j, In (i, j) pairs /\ i < nm /\ nm <= j < nm + nm /\ nth_error mf i = Some a /\ nth_error nf (j - nm) = Some b).
    { intros a b. rewrite (mapM_pairs _ _ _ H a b). split.
      - intros (i & j & Hin & Ha & Hb). destruct (Hpair _ _ Hin) as (a' & b' & Hi & Hj & _). exists i, j.
        rewrite nth_error_app1 in Ha by auto. rewrite nth_error_app2 in Hb by lia. auto.
      - intros (i & j & Hin & Hi & Hj & Ha & Hb). exists i, j. rewrite nth_error_app1 by auto. rewrite nth_error_app2 by lia. auto. }
    split; [|split].
    - intros a b Hab. apply HP in Hab as (i & j & Hin & Hi & Hj & Ha & Hb).
      destruct (Hpair _ _ Hin) as (a' & b' & _ & _ & Ha' & Hb' & HS). assert (a' = a) by congruence. assert (b' = b) by congruence. subst a' b'.
      assert (Hma : bdry_adj fags (bp_from mp) a) by (apply Hmf; eapply nth_error_In; eauto).
      assert (Hnb : bdry_adj fags (bp_to mp) b) by (apply Hnf; eapply nth_error_In; eauto).
      split; auto. split; auto. destruct HS as (va & vb & Hva & Hvb & HPm).
      assert (Hwa : exists wa, map vm va = map Z.of_nat wa /\ Forall2 (lands_on vs mp) va wa).
      { assert (Hall : forall v, In v va -> exists w, vm v = Z.of_nat w /\ lands_on vs mp v w).
        { intros v Hv. destruct (F1 v) as (w & ? & _ & ?); [exists a, va; auto|eauto]. }
        clear -Hall. induction va as [|v va IH]; [exists []; split; [reflexivity|constructor]|].
        destruct (Hall v (or_introl eq_refl)) as (w & Hw & Hl). destruct IH as (wa & Hm & HF); [intros; apply Hall; now right|].
        exists (w :: wa). cbn [map]. rewrite Hw, Hm. split; auto. }
      destruct Hwa as (wa & Hmap & HF). exists va, vb, wa. repeat split; auto.
      rewrite Hmap in HPm. rewrite (map_ext_in vm Z.of_nat vb) in HPm; [|intros v Hv; apply F2; exists b, vb; auto].
      symmetry. apply (perm_map_inj_on Z.of_nat); auto. intros; now apply Nat2Z.inj.
    - intros a Ha. apply Hmf in Ha. apply In_nth_error in Ha as (i & Hi).
      assert (Hlt : i < nm) by (apply nth_error_Some; congruence).
      destruct (All1 i Hlt) as (j & Hij). destruct (Hpair _ _ Hij) as (a' & b & _ & Hj & Ha' & Hb & _).
      exists b. split; [apply HP; exists i, j; auto|]. intros b' Hb'. apply HP in Hb' as (i2 & j2 & Hin2 & Hi2 & Hj2 & Ha2 & Hb2).
      assert (i2 = i) by (apply (proj1 (NoDup_nth_error mf) Hndm); [auto|congruence]). subst i2.
      assert (E2 : (i, j2) = (i, j)) by (apply Inj1; auto). congruence.
    - intros b Hb. apply Hnf in Hb. apply In_nth_error in Hb as (k & Hk).
      assert (Hlt : k < nm) by (rewrite Hmn; apply nth_error_Some; congruence).
      destruct (All2 (nm + k) ltac:(lia)) as (i & Hij). destruct (Hpair _ _ Hij) as (a & b' & Hi & _ & Ha & _ & _).
      exists a. split; [apply HP; exists i, (nm + k); replace (nm + k - nm) with k by lia; split; auto; split; auto; split; [lia|auto]|].
      intros a' Ha'. apply HP in Ha' as (i2 & j2 & Hin2 & Hi2 & Hj2 & Ha2 & Hb2).
      assert (j2 - nm = k) by (apply (proj1 (NoDup_nth_error nf) Hndn); [lia|congruence]).
      assert (E2 : (i2, j2) = (i, nm + k)) by (apply Inj2; auto; cbn; lia). congruence.
  Qed.

  Lemma entry_In (P : list (faceid * faceid)) g g' e i e' i' :
    In ((e, i), (e', i')) (map interior_entry (filter (fun p => (fid_group (fst p) =? g) && (fid_group (snd p) =? g')) P)) <->
    In ((g, e, i), (g', e', i')) P.
  Proof.
    rewrite in_map_iff. split.
    - intros ((((g1, e1), i1), ((g2, e2), i2)) & Heq & Hin). apply filter_In in Hin as (Hin & Hb).
      apply andb_true_iff in Hb as (H1 & H2). apply Nat.eqb_eq in H1, H2.
      unfold interior_entry, fid_elem, fid_face, fid_group in *. cbn in H1, H2, Heq. injection Heq as -> -> -> ->. now subst.
    - intros Hin. exists ((g, e, i), (g', e', i')). split; [reflexivity|]. apply filter_In. split; auto.
      cbn. now rewrite !Nat.eqb_refl.
  Qed.
  Lemma entry_In_swap (P : list (faceid * faceid)) g g' e i e' i' :
    In ((e, i), (e', i')) (map (fun p => interior_entry (snd p, fst p))
       (filter (fun p => (fid_group (snd p) =? g) && (fid_group (fst p) =? g')) P)) <->
    In ((g', e', i'), (g, e, i)) P.
  Proof.
    rewrite in_map_iff. split.
    - intros ((((g1, e1), i1), ((g2, e2), i2)) & Heq & Hin). apply filter_In in Hin as (Hin & Hb).
      apply andb_true_iff in Hb as (H1 & H2). apply Nat.eqb_eq in H1, H2.
      unfold interior_entry, fid_elem, fid_face, fid_group in *. cbn in H1, H2, Heq. injection Heq as -> -> -> ->. now subst.
    - intros Hin. exists ((g', e', i'), (g, e, i)). split; [reflexivity|]. apply filter_In. split; auto.
      cbn. now rewrite !Nat.eqb_refl.
  Qed.

  Lemma glued_groups_spec n g mp P l : glued_groups R inv n g mp P = Ok l ->
    (forall fg, In fg l -> bdry_tag fg = None) /\
    (forall g1 g' f e i e' i', (exists es, In (Interior g1 g' es f) l /\ In ((e, i), (e', i')) es) <->
       g1 = g /\ g' < n /\ ((In ((g, e, i), (g', e', i')) P /\ f = bp_map mp) \/
                  (In ((g', e', i'), (g, e, i)) P /\ amap_inverted R inv (bp_map mp) = Ok f))).
  Proof.
    unfold glued_groups. destruct (mapM _ (seq 0 n)) as [parts|] eqn:Ep; cbn [bind]; [|discriminate]. intros [= <-].
    apply mapM_ok in Ep.
    set (fwd j := filter (fun p : faceid * faceid => (fid_group (fst p) =? g) && (fid_group (snd p) =? j)) P) in *.
    set (bwd j := filter (fun p : faceid * faceid => (fid_group (snd p) =? g) && (fid_group (fst p) =? j)) P) in *.
    assert (Hpart : forall j q, (match bwd j with
        | [] => Ok (match fwd j with [] => [] | _ => [Interior g j (map interior_entry (fwd j)) (bp_map mp)] end)
        | _ => h <- amap_inverted R inv (bp_map mp) ;;
               Ok (match fwd j with [] => [] | _ => [Interior g j (map interior_entry (fwd j)) (bp_map mp)] end
                   ++ [Interior g j (map (fun p => interior_entry (snd p, fst p)) (bwd j)) h])
        end) = Ok q ->
       forall fg, In fg q <-> (fwd j <> [] /\ fg = Interior g j (map interior_entry (fwd j)) (bp_map mp)) \/
         (bwd j <> [] /\ exists h, amap_inverted R inv (bp_map mp) = Ok h /\
             fg = Interior g j (map (fun p => interior_entry (snd p, fst p)) (bwd j)) h)).
    { intros j q Hq fg. destruct (bwd j) as [|b0 bs].
      - injection Hq as <-. destruct (fwd j) as [|f0 fs]; cbn [In]; intuition congruence.
      - destruct (amap_inverted R inv (bp_map mp)) as [h|] eqn:Eh; cbn [bind] in Hq; [|discriminate]. injection Hq as <-.
        rewrite in_app_iff. cbn [In]. destruct (fwd j) as [|f0 fs]; cbn [In]; split.
        + intros [[]|[<-|[]]]. right. split; [discriminate|]. eauto.
        + intros [(H & _)|(_ & h' & [= <-] & ->)]; [congruence|auto].
        + intros [[<-|[]]|[<-|[]]]; [left; split; [discriminate|auto]|right; split; [discriminate|]; eauto].
        + intros [(_ & ->)|(_ & h' & [= <-] & ->)]; auto. }
    assert (HC : forall fg, In fg (concat parts) <-> exists j, j < n /\
      ((fwd j <> [] /\ fg = Interior g j (map interior_entry (fwd j)) (bp_map mp)) \/
         (bwd j <> [] /\ exists h, amap_inverted R inv (bp_map mp) = Ok h /\
             fg = Interior g j (map (fun p => interior_entry (snd p, fst p)) (bwd j)) h))).
    { intros fg. rewrite in_concat. split.
      - intros (q & Hq & Hfg). destruct (Forall2_In_r _ _ _ _ Ep Hq) as (j & Hj & Ej). apply in_seq in Hj. exists j.
        split; [lia|]. now apply (Hpart j q Ej).
      - intros (j & Hj & H). destruct (Forall2_In_l _ _ _ j Ep) as (q & Hq & Ej); [apply in_seq; lia|].
        exists q. split; auto. now apply (Hpart j q Ej). }
    split.
    - intros fg Hfg. apply HC in Hfg as (j & _ & [(_ & ->)|(_ & h & _ & ->)]); reflexivity.
    - intros g1 g' f e i e' i'. split.
      + intros (es & Hin & He). apply HC in Hin as (j & Hj & [(_ & Heq)|(_ & h & Hh & Heq)]); injection Heq as -> -> -> ->;
          split; auto; split; auto; [left|right]; (split; [|auto]).
        * now apply entry_In in He.
        * now apply entry_In_swap in He.
      + intros (-> & Hlt & [(Hin & ->)|(Hin & Hh)]).
        * exists (map interior_entry (fwd g')). assert (He : In ((e, i), (e', i')) (map interior_entry (fwd g'))) by now apply entry_In.
          split; auto. apply HC. exists g'. split; auto. left. split; auto. destruct (fwd g'); [destruct He|discriminate].
        * exists (map (fun p => interior_entry (snd p, fst p)) (bwd g')).
          assert (He : In ((e, i), (e', i')) (map (fun p => interior_entry (snd p, fst p)) (bwd g'))) by now apply entry_In_swap.
          split; auto. apply HC. exists g'. split; auto. right. split; [destruct (bwd g'); [destruct He|discriminate]|eauto].
  Qed.

  Lemma glue_main d m fags mps m' : glue_mesh_boundaries R median inv fuel E d m fags mps = Ok m' ->
    exists pairss fags',
      m' = mk_mesh (m_groups m) (m_vertices m) (m_conforming m) Unavailable (Available fags') (m_vdtype m) (m_edtype m) (m_fdtype m) /\
      Forall2 (fun mp P => match_boundary_faces R median fuel E d (m_groups m) (m_vertices m) fags mp = Ok P) mps pairss /\
      length fags' = length fags /\
      (forall t a, bdry_adj fags' t a <-> bdry_adj fags t a /\ ~ exists mp, In mp mps /\ (bp_from mp = t \/ bp_to mp = t)) /\
      (forall a b f, interior_adj_via fags' a b f <-> interior_adj_via fags a b f \/
         (fid_group a < length fags /\ fid_group b < length (m_groups m) /\
          exists mp P, In (mp, P) (combine mps pairss) /\
            ((In (a, b) P /\ f = bp_map mp) \/ (In (b, a) P /\ amap_inverted R inv (bp_map mp) = Ok f)))).
  Proof.
    unfold glue_mesh_boundaries. destruct (guard _ _) as [[]|?]; cbn [bind]; [|discriminate].
    destruct (guard _ _) as [[]|?]; cbn [bind]; [|discriminate].
    set (glued := flat_map _ mps). assert (Hglued : forall t, In t glued <-> exists mp, In mp mps /\ (bp_from mp = t \/ bp_to mp = t)).
    { intros t. unfold glued. rewrite in_flat_map. split; intros (mp & Hmp & H); exists mp; split; auto; cbn [In] in *; tauto. }
    clearbody glued.
    destruct (mapM _ mps) as [pairss|] eqn:Eps; cbn [bind]; [|discriminate].
    destruct (mapM _ (enumerate fags)) as [fags'|] eqn:Ef; cbn [bind]; [|discriminate]. intros [= <-].
    exists pairss, fags'. split; [reflexivity|]. split; [now apply mapM_ok in Eps|].
    split; [apply mapM_length in Ef; rewrite Ef; unfold enumerate, enumerate_from; rewrite combine_length, seq_length; lia|].
    set (keep := fun fg : fagrp (amap R) => match bdry_tag fg with None => true | Some t => negb (btag_memb t glued) end) in *.
    assert (Hg : forall g l', nth_error fags' g = Some l' -> exists l news, nth_error fags g = Some l /\ l' = filter keep l ++ concat news /\
        mapM (fun mpp => glued_groups R inv (length (m_groups m)) g (fst mpp) (snd mpp)) (combine mps pairss) = Ok news).
    { intros g l' Hl'. destruct (mapM_nth_r _ _ _ _ _ Ef Hl') as ((g1 & l) & Hg & Eq). rewrite nth_error_enumerate in Hg.
      destruct (nth_error fags g) as [l0|] eqn:El; cbn in Hg; [|discriminate]. injection Hg as <- <-. cbn [fst snd] in Eq.
      destruct (mapM _ (combine mps pairss)) as [news|] eqn:En; cbn [bind] in Eq; [|discriminate]. injection Eq as <-. eauto. }
    assert (Hg' : forall g l, nth_error fags g = Some l -> exists news, nth_error fags' g = Some (filter keep l ++ concat news) /\
        mapM (fun mpp => glued_groups R inv (length (m_groups m)) g (fst mpp) (snd mpp)) (combine mps pairss) = Ok news).
    { intros g l Hl. destruct (mapM_nth _ _ _ g (g, l) Ef) as (l' & Hl' & _).
      - rewrite nth_error_enumerate, Hl. reflexivity.
      - destruct (Hg g l' Hl') as (l0 & news & Hl0 & -> & Hn). assert (l0 = l) by congruence. subst. eauto. }
    assert (Hnews : forall g news, mapM (fun mpp => glued_groups R inv (length (m_groups m)) g (fst mpp) (snd mpp)) (combine mps pairss) = Ok news ->
        (forall fg, In fg (concat news) -> bdry_tag fg = None) /\
        (forall g1 g' f e i e' i', (exists es, In (Interior g1 g' es f) (concat news) /\ In ((e, i), (e', i')) es) <->
           g1 = g /\ g' < length (m_groups m) /\ exists mp P, In (mp, P) (combine mps pairss) /\
             ((In ((g, e, i), (g', e', i')) P /\ f = bp_map mp) \/ (In ((g', e', i'), (g, e, i)) P /\ amap_inverted R inv (bp_map mp) = Ok f)))).
    { intros g news Hn. apply mapM_ok in Hn. split.
      - intros fg Hfg. apply in_concat in Hfg as (q & Hq & Hfg). destruct (Forall2_In_r _ _ _ _ Hn Hq) as ((mp & P) & _ & Eq).
        cbn [fst snd] in Eq. now apply (glued_groups_spec _ _ _ _ _ Eq).
      - intros g1 g' f e i e' i'. split.
        + intros (es & Hin & He). apply in_concat in Hin as (q & Hq & Hin). destruct (Forall2_In_r _ _ _ _ Hn Hq) as ((mp & P) & HmP & Eq).
          cbn [fst snd] in Eq. destruct (proj1 (proj2 (glued_groups_spec _ _ _ _ _ Eq) g1 g' f e i e' i')) as (H1 & H2 & H3); eauto 10.
        + intros (-> & Hlt & mp & P & HmP & Hcase). destruct (Forall2_In_l _ _ _ _ Hn HmP) as (q & Hq & Eq). cbn [fst snd] in Eq.
          destruct (proj2 (proj2 (glued_groups_spec _ _ _ _ _ Eq) g g' f e i e' i')) as (es & Hes & He); auto.
          exists es. split; auto. apply in_concat. eauto. }
    assert (Hkeep : forall fg t, bdry_tag fg = Some t -> (keep fg = true <-> ~ In t glued)).
    { intros fg t Ht. unfold keep. rewrite Ht, negb_true_iff, <- not_true_iff_false, btag_memb_In. tauto. }
    split.
    - intros t a. destruct a as ((g, e), i). cbn [bdry_adj]. rewrite <- Hglued. split.
      + intros (l' & Hl' & b & Hb & Ht & Hei). destruct (Hg g l' Hl') as (l & news & Hl & -> & Hn).
        apply in_app_or in Hb as [Hb|Hb].
        * apply filter_In in Hb as (Hb & Hk). split; [exists l; split; auto; exists b; auto|]. now apply (Hkeep b).
        * apply (Hnews g news Hn) in Hb. congruence.
      + intros ((l & Hl & b & Hb & Ht & Hei) & Hnt). destruct (Hg' g l Hl) as (news & Hl' & Hn).
        eexists. split; [exact Hl'|]. exists b. split; [|auto]. apply in_or_app. left. apply filter_In. split; auto. now apply (Hkeep b t).
    - intros ((g, e), i) ((g', e'), i') f. cbn [interior_adj_via fid_group fst]. split.
      + intros (l' & es & Hl' & Hin & He). destruct (Hg g l' Hl') as (l & news & Hl & -> & Hn).
        apply in_app_or in Hin as [Hin|Hin].
        * apply filter_In in Hin as (Hin & _). left. eauto.
        * right. split; [apply nth_error_Some; congruence|].
          destruct (proj1 (proj2 (Hnews g news Hn) g g' f e i e' i')) as (_ & Hlt & HH); eauto.
      + intros [(l & es & Hl & Hin & He)|(Hlt & Hlt' & HH)].
        * destruct (Hg' g l Hl) as (news & Hl' & Hn). exists (filter keep l ++ concat news), es. split; auto. split; auto.
          apply in_or_app. left. apply filter_In. split; auto.
        * destruct (nth_error fags g) as [l|] eqn:El; [|apply nth_error_None in El; lia].
          destruct (Hg' g l El) as (news & Hl' & Hn).
          destruct (proj2 (proj2 (Hnews g news Hn) g g' f e i e' i')) as (es & Hes & He); [auto|].
          exists (filter keep l ++ concat news), es. split; auto. split; auto. apply in_or_app. now right.
  Qed.
End GlueProofs.
