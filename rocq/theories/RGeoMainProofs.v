(** * RGeoMainProofs: refinement of curved elements. *)
From Coq Require Import List Arith Bool Lia Permutation Ring.
From Verif Require Import Np NpFacts MeshModel MeshSpec MeshStateModel Lin ProcModel RefineModel RefineSpec RefineProofs TessProofs RGeoModel RGeoSpec RGeoProofs.
Import ListNotations.

(** ** One element *)
  Lemma affine_length (R : cring) d T (u : list R) : affine R d T -> length u = d -> length (T u) = d.
  Proof. intros (M & b & Hb & HM & _ & H) Hu. rewrite H by exact Hu. unfold vadd, matvec. rewrite map2_length; rewrite map_length; lia. Qed.
  Lemma slice_concat {X Y} (f : X -> Y) (ls : list (list X)) n c l : Forall (fun l => length l = n) ls -> nth_error ls c = Some l ->
    slice (map f (concat ls)) (c * n) (c * n + n) = map f l.
  Proof.
    intros HF. revert c. unfold slice. induction HF as [|l0 ls Hl _ IH]; intros [|c] Hc; try discriminate; cbn [nth_error] in Hc.
    - assert (l0 = l) as -> by congruence. cbn [concat Nat.mul Nat.add skipn]. rewrite map_app, Nat.sub_0_r, firstn_app, map_length, Hl, Nat.sub_diag. cbn [firstn]. rewrite app_nil_r. apply firstn_all2. rewrite map_length. lia.
    - specialize (IH c Hc). cbn [concat]. rewrite map_app. replace (S c * n) with (length (map f l0) + c * n) by (rewrite map_length; lia).
      rewrite skipn_app, skipn_all2 by lia. cbn [app]. replace (length (map f l0) + c * n - length (map f l0)) with (c * n) by lia. rewrite <- IH. f_equal. lia.
  Qed.
Section Element.
  Variable R : cring.
  Variable half : R.
  Hypothesis half2 : radd half half = r1.
  Variable rs : list (list R) -> list (list R) -> list (list R).
  Variables (tensor : bool) (d : nat).
  Hypothesis Hd : 1 <= d.

  Lemma child_good refs un child : good_child tensor d refs child -> Forall (fun u => length u = d) un ->
    exists T, onto_child R tensor d refs child T /\ map_child R half tensor d refs un child = Ok (map T un).
  Proof using half2 Hd.
    intros H Hu. unfold good_child in H. unfold onto_child, ref_corner. destruct tensor.
    - destruct (child_cube R half half2 d refs un child Hd H Hu) as (T & H1 & H2 & H3). eauto.
    - destruct (child_simplex R half half2 d refs un child H Hu) as (T & H1 & H2 & H3). eauto.
  Qed.
  Lemma children_good refs un children : Forall (good_child tensor d refs) children -> Forall (fun u => length u = d) un ->
    exists Ts, Forall2 (onto_child R tensor d refs) children Ts /\
      map_unit_nodes_to_children R half tensor d refs children un = Ok (map (fun T => map T un) Ts).
  Proof using half2 Hd.
    intros HF Hu. unfold map_unit_nodes_to_children. induction HF as [|child children Hc _ (Ts & H1 & H2)]; [exists []; split; [constructor|reflexivity]|].
    destruct (child_good refs un child Hc Hu) as (T & HT & E). exists (T :: Ts). split; [now constructor|]. cbn [mapM map]. rewrite E. cbn [bind]. rewrite H2. reflexivity.
  Qed.

  Lemma nodes_good refs un children Ts S fs : Forall2 (onto_child R tensor d refs) children Ts ->
    map_unit_nodes_to_children R half tensor d refs children un = Ok (map (fun T => map T un) Ts) ->
    un <> [] -> Forall (fun u => length u = d) un -> exact R S rs d un -> Forall S fs ->
    tessellated_nodes R half rs tensor d refs children un (nodes_of R fs un) = Ok (map (fun T => nodes_of R (map (fun f u => f (T u)) fs) un) Ts).
  Proof using.
    intros HF E Hun Hu Hex HS. unfold tessellated_nodes. rewrite E. cbn [bind].
    assert (Hn : (length un =? 0) = false) by (destruct un; [congruence|reflexivity]). rewrite Hn. cbn [negb guard bind]. f_equal.
    pose proof (Forall2_length' _ _ _ HF) as Hl. rewrite Hl. apply nth_error_ext'. intros c. rewrite !nth_error_map.
    destruct (nth_error Ts c) as [T|] eqn:ET.
    - assert (Hc : c < length Ts) by (apply nth_error_Some; congruence). rewrite (nth_error_nth' _ 0), seq_nth by (rewrite ?seq_length; exact Hc). cbn [option_map Nat.add]. f_equal.
      unfold nodes_of. rewrite !map_map. apply map_ext_in. intros f Hf. rewrite Forall_forall in HS. rewrite (Hex f _ (HS f Hf)); [|].
      2:{ apply Forall_concat, Forall_map, Forall_forall. intros T' HT'. apply Forall_map. eapply Forall_impl; [|exact Hu]. cbn beta. intros u Hlu.
          destruct (Forall2_In_r _ _ _ _ HF HT') as (ch & _ & Ha & _). now apply (affine_length R d). }
      rewrite (slice_concat f (map (fun T => map T un) Ts) (length un) c (map T un)); [now rewrite map_map|apply Forall_map, Forall_forall; intros T' _; apply map_length|now rewrite nth_error_map, ET].
    - assert (Hc : length Ts <= c) by (apply nth_error_None; exact ET). rewrite (proj2 (nth_error_None _ _)); [reflexivity|rewrite seq_length; exact Hc].
  Qed.

  Lemma midpoints_good ref2 ref1 un S fs : Forall (fun t => length t = d) ref2 -> exact R S rs d un -> Forall S fs ->
    group_midpoints R rs ref2 ref1 un (nodes_of R fs un) = Ok (map (fun t => image R fs (position R t)) (ref_midpoints ref2 ref1)).
  Proof using.
    intros Hr Hex HS. unfold group_midpoints. set (mids := ref_midpoints ref2 ref1).
    assert (Hmd : Forall (fun u : list R => length u = d) (map (fun t => minus_one R (ref_point R t)) mids)).
    { apply Forall_map, Forall_forall. intros t Ht. unfold mids, ref_midpoints in Ht. apply filter_In in Ht as (Ht & _). unfold minus_one, ref_point. rewrite !map_length. now apply (proj1 (Forall_forall _ _) Hr). }
    apply mapM_ok. apply Forall2_intro_nth; [now rewrite seq_length, map_length|]. intros k k' p Hk Hp. assert (Hkl : k < length mids) by (rewrite <- (seq_length (length mids) 0); apply nth_error_Some; congruence).
    rewrite (nth_error_nth' _ 0), seq_nth in Hk by (rewrite ?seq_length; exact Hkl). assert (k' = k) as -> by (cbn in Hk; congruence). rewrite nth_error_map in Hp.
    destruct (nth_error mids k) as [t|] eqn:Et; [|discriminate]. cbn in Hp. assert (p = image R fs (position R t)) as -> by congruence.
    unfold nodes_of, image. apply mapM_ok. apply Forall2_intro_nth; [now rewrite !map_length|]. intros a y v Hy Hv. rewrite nth_error_map in Hy, Hv.
    destruct (nth_error fs a) as [f|] eqn:Ef; [|discriminate]. cbn in Hy, Hv. assert (y = map f un) as -> by congruence. assert (v = f (position R t)) as -> by congruence.
    rewrite Forall_forall in HS. rewrite (Hex f _ (HS f (nth_error_In _ _ Ef)) Hmd). apply get_ok. rewrite !nth_error_map, Et. cbn. now rewrite position_ref.
  Qed.

  Lemma index_of_tuple_ok l t i : index_of_tuple l t = Ok i -> nth_error l i = Some t.
  Proof using.
    unfold index_of_tuple. destruct (find _ _) as [it|] eqn:E; [|discriminate]. intros H. assert (fst it = i) by congruence. subst i. apply find_some in E as (Hin & Heq). destruct it as (i, t'). cbn [fst snd] in *.
    unfold tuple_eqb in Heq. destruct (list_eq_dec Nat.eq_dec t' t); [|discriminate]. subst t'. now apply In_enumerate in Hin.
  Qed.
  Lemma info_mids submesh ref2 ref1 ts : tessellation_info submesh ref2 ref1 = Ok ts ->
    Forall2 (fun r t => nth_error ref2 r = Some t) (ts_mid ts) (ref_midpoints ref2 ref1) /\ ts_children ts = submesh ref2.
  Proof using.
    unfold tessellation_info. intros H. apply bind_ok in H as (oi & _ & H). apply bind_ok in H as (mi & Hm & H). apply bind_ok in H as (ap & _ & H). apply bind_ok in H as (ps & _ & H).
    assert (ts = mk_tess (submesh ref2) (length ref2) oi mi ps) as -> by congruence. cbn [ts_mid ts_children]. split; [|reflexivity].
    apply mapM_ok in Hm. fold (ref_midpoints ref2 ref1) in Hm. clear -Hm. induction Hm as [|t i ts is_ H _ IH]; constructor; auto. now apply index_of_tuple_ok.
  Qed.
End Element.

(** ** Meshes *)
Section CurvedMesh.
  Context {E A V : Type}.
  Variable tessellation : egroup E -> tess.
  Variable midpoints : egroup E -> nat -> list V.
  Variable child_nodes : egroup E -> nat -> list E.
  Variable corners : E -> list V.
  Variable P : nat -> nat -> V.
  Variable shaped : E -> Prop.

  Definition table_is (vs : list V) (d : middict) : Prop :=
    NoDup (map snd d) /\ forall k v, In (k, v) d -> nth_error vs v = Some (P (fst k) (snd k)).
  Lemma table_is_push vs d a b : (forall a b, P a b = P b a) -> table_is vs d -> table_is (vs ++ [P a b]) (d ++ [(sort_pair a b, length vs)]).
  Proof using.
    intros Hs (HN & H). split.
    - rewrite map_app. cbn [map snd]. apply NoDup_app; auto; [constructor; [intros []|constructor]|].
      intros x Hin [<-|[]]. apply in_map_iff in Hin as ((k, v) & Ev & Hin). cbn [snd] in Ev. subst v.
      pose proof (H _ _ Hin) as Hl. assert (length vs < length vs) by (apply nth_error_Some; congruence). lia.
    - intros k v Hin. apply in_app_or in Hin as [Hin|[[= <- <-]|[]]]; [apply nth_error_app_l; auto|].
      rewrite nth_error_app2 by lia. rewrite Nat.sub_diag. cbn [nth_error]. destruct (sort_pair_cases a b) as [Es|Es]; rewrite Es; cbn [fst snd]; auto. now rewrite Hs.
  Qed.
  Lemma table_is_lookup vs d a b v : (forall a b, P a b = P b a) -> table_is vs d -> table d a b v -> nth_error vs v = Some (P a b).
  Proof using.
    intros Hs (_ & H) Ht. apply dlookup_In in Ht. rewrite (H _ _ Ht). destruct (sort_pair_cases a b) as [Es|Es]; rewrite Es; cbn [fst snd]; auto. now rewrite Hs.
  Qed.

  Lemma refine_curved vd ed fd (r r' : @refiner E A V) flags vs :
    tessellation_ok tessellation midpoints child_nodes -> children_fit tessellation midpoints child_nodes corners shaped -> all_shaped shaped (rf_current r) ->
    edges_agree tessellation midpoints (rf_current r) flags P ->
    refiner_ok tessellation r -> consistent corners (rf_current r) -> m_vertices (rf_current r) = Some vs -> table_is vs (rf_dict r) ->
    one_group (rf_current r) flags ->
    refine tessellation midpoints child_nodes vd ed fd r flags = Ok r' ->
    refiner_ok tessellation r' /\ all_shaped shaped (rf_current r') /\ consistent corners (rf_current r') /\ exists added, m_vertices (rf_current r') = Some (vs ++ added) /\ table_is (vs ++ added) (rf_dict r').
  Proof using.
    intros Hts Hkids Hsh (Hsym & Hmid) Hr Hcons Hvs Htab Hone Hok. pose proof Hcons as (vs0 & Hvs0 & Hpos). assert (vs0 = vs) by congruence. subst vs0. clear Hvs0.
    assert (Hfl : length flags = sum (map nelements (m_groups (rf_current r)))).
    { unfold refine in Hok. destruct (Nat.eqb_spec (length flags) (sum (map nelements (m_groups (rf_current r))))); auto. discriminate. }
    set (flagged := fun g => exists gf i, group_flags (rf_current r) flags g gf /\ nth_error gf i = Some true).
    set (Q := fun g (d : middict) (added : list V) => table_is (vs ++ added) d /\ (added = [] \/ exists g', g' < g /\ flagged g')).
    destruct (refine_with tessellation midpoints child_nodes Q vd ed fd r flags Hts Hr Hfl) as (r1 & added & recs & H1 & (HQ & _) & H2 & H3 & H4 & H5 & H6 & H7 & H8 & H9).
    - intros g grp gf d added Hg Hgf (Hta & Had).
      pose proof Hgf as (grp0 & Hg0 & Hgl & _). assert (grp0 = grp) by congruence. subst grp0.
      destruct Hr as ((_ & Href) & _). destruct (Href vs grp Hvs (nth_error_In _ _ Hg)) as (vi & Hvi & Hvl & Hrows).
      assert (Hrl : Forall (fun row => length row = length (ts_orig (tessellation grp))) vi) by (eapply Forall_impl; [|exact Hrows]; now intros row (Hx & _)).
      rewrite Hvs. cbn [option_map].
      destruct (existsb (fun b => b) gf) eqn:Hex.
      + assert (Hfg : flagged g).
        { apply existsb_exists in Hex as (f & Hf & ->). apply In_nth_error in Hf as (i & Hi). exists gf, i. auto. }
        destruct Had as [->|(g' & Hlt & (gf' & i' & Hgf' & Hi'))].
        2:{ exfalso. destruct Hfg as (gf0 & i & Hgf0 & Hi). specialize (Hone g g' i i' gf0 gf' Hgf0 Hgf' Hi Hi'). lia. }
        rewrite app_nil_r in Hta.
        destruct (refine_group_ok tessellation midpoints child_nodes (fun st => table_is (vs ++ rs_added st) (rs_dict st) /\ rs_next st = length (vs ++ rs_added st)) (Some (length vs)) gf grp d [] Hts Hgl)
          as (da & grp' & mapping & G1 & G2 & ((next & (G3 & _)) & G4 & G5)).
        { intros nv0 [= <-]. cbn [rs_added rs_dict rs_next]. rewrite app_nil_r. split; auto. exists vi. split; auto. split; auto. split; auto.
          intros st iel row k a b ga gb pt Hf Hrow Hp Ha Hb Hpt Hnone (Hst & Hnx). cbn [push rs_added rs_dict rs_next].
          rewrite (Hmid g grp gf iel vi row k a b ga gb) in Hpt by assumption. assert (pt = P ga gb) as -> by congruence.
          rewrite app_assoc, Hnx. split; [|rewrite !app_length; cbn [length]; lia]. now apply table_is_push. }
        exists da, grp', mapping. split; auto. split; [split; [exact G3|right; exists g; split; [lia|exact Hfg]]|].
        split; auto. split; auto. split; auto. discriminate.
      + assert (Hno : forall i, nth_error gf i <> Some true).
        { intros i Hi. assert (existsb (fun b => b) gf = true) by (apply existsb_exists; exists true; split; auto; eapply nth_error_In; eauto). congruence. }
        destruct (refine_group_ok tessellation midpoints child_nodes (fun st => st = mk_rstate d added (length vs)) (Some (length vs)) gf grp d added Hts Hgl)
          as (da & grp' & mapping & G1 & G2 & ((next & G3) & G4 & G5)).
        { intros nv0 [= <-]. split; auto. exists vi. split; auto. split; auto. split; auto.
          intros st iel row k a b ga gb pt Hf. now apply Hno in Hf. }
        injection G3 as G3a G3b _. exists da, grp', mapping. rewrite G3a, G3b in *. split; auto.
        split; [split; [auto|destruct Had as [->|(g' & Hlt & Hfg)]; [now left|right; exists g'; split; [lia|auto]]]|].
        split; [apply grows_refl|]. split; auto. split; auto. discriminate.
    - split; [rewrite app_nil_r; auto|now left].
    - assert (r1 = r') by congruence. subst r1. rewrite Hvs in H5. cbn [option_map] in H5.
      split; [destruct (refine_ok tessellation midpoints child_nodes vd ed fd r flags Hts Hr Hfl) as (r1 & _ & _ & L1 & L2 & _); assert (r1 = r') by congruence; now subst r1|].
      enough (Hall : forall grp' j nd' vi' row', In grp' (m_groups (rf_current r')) -> nth_error (eg_nodes grp') j = Some nd' -> eg_vi grp' = Some vi' ->
                nth_error vi' j = Some row' -> shaped nd' /\ Forall2 (fun v p => nth_error (vs ++ added) v = Some p) row' (corners nd')).
      { split; [|split; [exists (vs ++ added); split; auto; intros; eapply Hall; eauto|exists added; auto]].
        intros grp' Hin. apply Forall_forall. intros nd' Hnd'. apply In_nth_error in Hnd' as (j & Hj).
        assert (Hv : exists vi' row', eg_vi grp' = Some vi' /\ nth_error vi' j = Some row').
        { destruct (refine_ok tessellation midpoints child_nodes vd ed fd r flags Hts Hr Hfl) as (r1 & _ & _ & L1 & ((_ & L2) & _) & _). assert (r1 = r') by congruence. subst r1.
          destruct (L2 _ grp' H5 Hin) as (vi' & L3 & L4 & _). exists vi'. destruct (nth_error vi' j) as [row'|] eqn:Ej; [eauto|]. apply nth_error_None in Ej. unfold nelements in L4. assert (j < length (eg_nodes grp')) by (apply nth_error_Some; congruence). lia. }
        destruct Hv as (vi' & row' & Hv1 & Hv2). eapply Hall; eauto. }
      intros grp' j nd' vi' row' Hin Hnd' Hvi' Hrow'.
      apply In_nth_error in Hin as (g & Hg').
      assert (Hgl : g < length (m_groups (rf_current r))) by (rewrite <- H7; apply nth_error_Some; congruence).
      destruct (nth_error (m_groups (rf_current r)) g) as [grp|] eqn:Hg; [|apply nth_error_None in Hg; lia].
      pose proof (slice_flags _ _ _ _ Hfl Hg) as Hgf. set (gf := slice _ _ _) in Hgf. clearbody gf.
      destruct (H9 g grp gf Hg Hgf) as (grp0 & mapping & K1 & _ & (Kd & Ku & Kf & _) & K4 & _).
      destruct K4 as (vi & vi0 & Hvi & Hvi0 & Hl0 & Kc); [congruence|].
      assert (grp0 = grp') by congruence. subst grp0. assert (vi0 = vi') by congruence. subst vi0.
      assert (Hj : j < nelements grp') by (unfold nelements; apply nth_error_Some; congruence).
      destruct (child_exists _ _ _ _ _ Kd Hj) as (i & c & f & Hc & Hf & Hcf).
      pose proof Hgf as (grp1 & Hg1 & Hgfl & _). assert (grp1 = grp) by congruence. subst grp1.
      assert (Hi : i < nelements grp) by (rewrite <- Hgfl; apply nth_error_Some; congruence).
      destruct (nth_error (eg_nodes grp) i) as [nd|] eqn:Hnd; [|apply nth_error_None in Hnd; unfold nelements in Hi; lia].
      destruct Hr as ((_ & Href) & _). destruct (Href vs grp Hvs (nth_error_In _ _ Hg)) as (vi2 & Hvi2 & Hvl & Hrows2).
      assert (vi2 = vi) by congruence. subst vi2.
      destruct (nth_error vi i) as [row|] eqn:Hrow; [|apply nth_error_None in Hrow; lia].
      pose proof (Hpos grp i nd vi row (nth_error_In _ _ Hg) Hnd Hvi Hrow) as HF.
      destruct f.
      + destruct (nth_error (ts_children (tessellation grp)) c) as [child|] eqn:Hcc; [|apply nth_error_None in Hcc; lia].
        destruct (Kc i c j row child Hf Hc Hrow Hcc) as (row0 & Hr0 & HFv). assert (row0 = row') by congruence. subst row0.
        assert (Hcn : nth_error (child_nodes grp i) c = Some nd') by (rewrite <- (Kf i c j Hf Hc); auto).
        assert (Hlc : length (corners nd) = length (ts_orig (tessellation grp))).
        { rewrite <- (Forall2_length' _ _ _ HF). rewrite Forall_forall in Hrows2. apply (Hrows2 row). eapply nth_error_In; eauto. }
        assert (Hsn : shaped nd) by (apply (proj1 (Forall_forall _ _) (Hsh grp (nth_error_In _ _ Hg)) nd), (nth_error_In _ _ Hnd)).
        destruct (Hkids grp i nd c child nd' Hnd Hsn Hlc Hcc Hcn) as (Hsn' & HFp). split; [exact Hsn'|].
        apply Forall2_intro_nth; [rewrite <- (Forall2_length' _ _ _ HFv); apply (Forall2_length' _ _ _ HFp)|].
        intros l v p Hl Hp. destruct (Forall2_nth_error_r _ _ _ _ _ HFv Hl) as (rr & Hrr & Hva).
        destruct (Forall2_nth_error_r _ _ _ _ _ HFp Hp) as (rr' & Hrr' & Hpa). assert (rr' = rr) by congruence. subst rr'.
        destruct Hts as (Hts & _). destruct (Hts grp) as (Hperm & _).
        assert (HND : NoDup (ts_orig (tessellation grp) ++ ts_mid (tessellation grp))) by (eapply Permutation_NoDup; [apply Permutation_sym, Hperm|apply seq_NoDup]).
        apply NoDup_app_inv in HND as (HN1 & HN2 & HN3).
        destruct Hva as [(q & Hq & Hqv)|(k & a & b & ga & gb & Hk & Hkp & Ha & Hb & HM)], Hpa as [(q' & Hq' & Hqp)|(k' & Hk' & Hkp')].
        * assert (q' = q) by (eapply (proj1 (NoDup_nth_error _) HN1); [apply nth_error_Some; congruence|congruence]). subst q'.
          destruct (Forall2_nth_error _ _ _ _ _ HF Hqv) as (p0 & Hp0 & Hvp). assert (p0 = p) by congruence. subst p0. now apply nth_error_app_l.
        * exfalso. apply (HN3 rr); eapply nth_error_In; eauto.
        * exfalso. apply (HN3 rr); eapply nth_error_In; eauto.
        * assert (k' = k) by (eapply (proj1 (NoDup_nth_error _) HN2); [apply nth_error_Some; congruence|congruence]). subst k'.
          rewrite (Hmid g grp gf i vi row k a b ga gb) in Hkp' by assumption. assert (p = P ga gb) as -> by congruence.
          exact (table_is_lookup _ _ _ _ _ Hsym HQ HM).
      + subst c. destruct (Ku i j Hf Hc) as (Kn & Kr). specialize (Kr vi vi' Hvi Hvi'). assert (row' = row) by congruence. assert (nd' = nd) by congruence. subst row' nd'.
        split; [apply (proj1 (Forall_forall _ _) (Hsh grp (nth_error_In _ _ Hg)) nd), (nth_error_In _ _ Hnd)|].
        eapply Forall2_impl; [|exact HF]. cbn beta. intros v p. apply nth_error_app_l.
  Qed.

  Lemma history_curved vd ed fd (r : @refiner E A V) fs ms vs :
    tessellation_ok tessellation midpoints child_nodes -> children_fit tessellation midpoints child_nodes corners shaped -> all_shaped shaped (rf_current r) ->
    refiner_ok tessellation r -> consistent corners (rf_current r) -> m_vertices (rf_current r) = Some vs -> table_is vs (rf_dict r) ->
    history tessellation midpoints child_nodes vd ed fd r fs ms ->
    (forall t m flags, nth_error (rf_current r :: ms) t = Some m -> nth_error fs t = Some flags ->
       one_group m flags /\ edges_agree tessellation midpoints m flags P) ->
    forall m, In m ms -> consistent corners m /\ all_shaped shaped m.
  Proof using.
    intros Hts Hfit Hsh Hr Hc Hvs Ht Hh. revert vs Hsh Hr Hc Hvs Ht. induction Hh as [r|r flags r' fs ms Hok Hh IH]; intros vs Hsh Hr Hc Hvs Ht Hall m Hin; [destruct Hin|].
    destruct (Hall 0 _ _ eq_refl eq_refl) as (H1 & H2).
    destruct (refine_curved vd ed fd r r' flags vs Hts Hfit Hsh H2 Hr Hc Hvs Ht H1 Hok) as (K1 & K2 & K3 & added & K4 & K5).
    destruct Hin as [<-|Hin]; [auto|]. apply (IH (vs ++ added)); auto. intros t m' fl Hm Hfl. apply (Hall (S t)); auto.
  Qed.
End CurvedMesh.

(** ** The functions of the model *)
Section Fit.
  Variable R : cring.
  Variable half : R.
  Hypothesis half2 : radd half half = r1.
  Variable rs : list (list R) -> list (list R) -> list (list R).
  Variables (tensor : bool) (d : nat).
  Hypothesis Hd : 1 <= d.
  Variables (ref2 ref1 : list (list nat)) (submesh : list (list nat) -> list (list nat)) (ts : tess) (un : list (list R)).
  Variable S : (list R -> R) -> Prop.
  Variable interp : list R -> list R -> R.
  Hypothesis Hhalf : halves ref2 ref1.
  Hypothesis Hsub : Forall (fun c => length c = length ref1 /\ Forall (fun r => r < length ref2) c) (submesh ref2).
  Hypothesis Hts : tessellation_info submesh ref2 ref1 = Ok ts.
  Hypothesis Href2 : Forall (fun t => length t = d) ref2.
  Hypothesis Href1 : forall k t, nth_error ref1 k = Some t -> t = ref_corner tensor d k.
  Hypothesis Hgood : Forall (good_child tensor d ref2) (submesh ref2).
  Hypothesis Hun : un <> [].
  Hypothesis Hund : Forall (fun u => length u = d) un.
  Hypothesis Hrows : forall pts, length (rs pts un) = length pts.
  Hypothesis Hexact : exact R S rs d un.
  Hypothesis Hint : interpolates R S interp d un.

  Let mids := midpoints_of R rs ref2 ref1 un.
  Let kids := children_of R half rs tensor d ref2 (ts_children ts) un.
  Let shaped (nd : enodes R) : Prop := Forall (fun y => length y = length un) nd.

  Lemma info : tess_ok ts /\ ts_children ts = submesh ref2 /\ length (ts_orig ts) = length ref1 /\
    (forall j r, nth_error (ts_orig ts) j = Some r -> exists a, nth_error ref1 j = Some a /\ nth_error ref2 r = Some (double a)) /\
    Forall2 (fun r t => nth_error ref2 r = Some t) (ts_mid ts) (ref_midpoints ref2 ref1).
  Proof using Hhalf Hsub Hts.
    destruct (tessellation_info_ok submesh ref2 ref1 Hhalf Hsub) as (ts' & E & H1 & _ & H2 & H3 & H4 & _). assert (ts' = ts) by congruence. subst ts'.
    repeat (split; auto); [|now apply (info_mids submesh)].
    intros j r Hj. destruct (H4 j r Hj) as (a & s & Ha & Hs & Hr). exists a. split; auto. rewrite Hr. f_equal. now apply double_sum.
  Qed.

  Lemma the_maps : exists Ts, Forall2 (onto_child R tensor d ref2) (ts_children ts) Ts /\
    map_unit_nodes_to_children R half tensor d ref2 (ts_children ts) un = Ok (map (fun T => map T un) Ts).
  Proof using half2 Hd Hhalf Hsub Hts Hgood Hund. destruct info as (_ & -> & _). now apply children_good. Qed.

  Lemma tess_fits : tessellation_ok (fun _ => ts) mids kids.
  Proof using half2 Hd Hhalf Hsub Hts Hgood Hund Hun Hrows.
    pose proof info as (H1 & H2 & H3 & H4 & H5). split; [auto|]. split; [auto|]. intros grp i Hi. unfold nelements in Hi.
    destruct (nth_error (eg_nodes grp) i) as [x|] eqn:Ex; [|apply nth_error_None in Ex; lia].
    unfold mids, kids, midpoints_of, children_of. rewrite Ex. split.
    - rewrite (Forall2_length' _ _ _ H5). unfold group_midpoints. set (ms := ref_midpoints ref2 ref1).
      destruct (mapM_total (fun k => mapM (fun y => get (matvec (rs (map (fun t => minus_one R (ref_point R t)) ms) un) y) k) x) (seq 0 (length ms))) as (l & El).
      { intros k Hk. apply in_seq in Hk. apply mapM_total. intros y _. apply get_total. unfold matvec. rewrite map_length, Hrows, map_length. lia. }
      rewrite El. apply mapM_length in El. now rewrite El, seq_length.
    - destruct the_maps as (Ts & HT & E). unfold tessellated_nodes. rewrite E. cbn [bind].
      assert (Hn : (length un =? 0) = false) by (apply Nat.eqb_neq; rewrite length_zero_iff_nil; exact Hun). rewrite Hn. cbn [negb guard bind]. now rewrite map_length, seq_length.
  Qed.

  (** the interpolant of the values of a function of the space is that function *)
  Lemma interp_unique f u : S f -> length u = d -> interp (map f un) u = f u.
  Proof using Hexact Hint.
    intros Hf Hu. assert (Hu1 : Forall (fun u => length u = d) [u]) by (repeat constructor; exact Hu). destruct Hint as (Hi & _). destruct (Hi (map f un)) as (H1 & H2); [apply map_length|].
    pose proof (Hexact _ [u] H1 Hu1) as E1. pose proof (Hexact _ [u] Hf Hu1) as E2. rewrite H2 in E1. rewrite E1 in E2. cbn [map] in E2. congruence.
  Qed.
  Lemma nodes_interp nd : shaped nd -> nodes_of R (map interp nd) un = nd /\ Forall S (map interp nd).
  Proof using Hint.
    intros H. unfold shaped in H. destruct Hint as (Hi & _). unfold nodes_of. rewrite map_map. split.
    - transitivity (map (fun y => y) nd); [|apply map_id]. apply map_ext_in. intros y Hy. rewrite Forall_forall in H. now apply Hi, H.
    - apply Forall_map. eapply Forall_impl; [|exact H]. cbn beta. intros y Hy. now apply Hi.
  Qed.

  Lemma fits : children_fit (fun _ => ts) mids kids (corners_of R interp ref1) shaped.
  Proof using half2 Hd Hhalf Hsub Hts Href1 Href2 Hgood Hund Hun Hexact Hint.
    pose proof info as (H1 & H2 & H3 & H4 & H5). destruct the_maps as (Ts & HT & E).
    intros grp i nd c child cn Hnd Hs _ Hc Hcn. unfold kids, children_of in Hcn. rewrite Hnd in Hcn.
    destruct (nodes_interp nd Hs) as (Hni & HS). set (fs := map interp nd) in *. rewrite <- Hni in Hcn.
    rewrite (nodes_good R half rs tensor d ref2 un (ts_children ts) Ts S fs HT E Hun Hund Hexact HS) in Hcn.
    rewrite nth_error_map in Hcn. destruct (nth_error Ts c) as [T|] eqn:ET; [|discriminate]. cbn in Hcn. assert (cn = nodes_of R (map (fun f u => f (T u)) fs) un) as -> by congruence. clear Hcn.
    destruct (Forall2_nth_error _ _ _ _ _ HT Hc) as (T' & ET' & (Haff & Hcor)). assert (T' = T) by congruence. subst T'.
    split; [unfold shaped, nodes_of; apply Forall_map, Forall_forall; intros f _; apply map_length|].
    assert (Hlc : length child = length ref1 /\ Forall (fun r => r < length ref2) child) by (rewrite H2 in Hc; apply (proj1 (Forall_forall _ _) Hsub child), (nth_error_In _ _ Hc)).
    destruct Hlc as (Hlc & Hlt). apply Forall2_intro_nth; [unfold corners_of; now rewrite map_length|]. intros k r p Hr Hp. unfold corners_of in Hp. rewrite nth_error_map in Hp.
    destruct (nth_error ref1 k) as [t|] eqn:Et; [|discriminate]. cbn in Hp.
    assert (Hrl : r < length ref2) by (apply (proj1 (Forall_forall _ _) Hlt r), (nth_error_In _ _ Hr)).
    destruct (nth_error ref2 r) as [s|] eqn:Es; [|apply nth_error_None in Es; lia].
    assert (Hp' : p = image R fs (position R s)).
    { assert (p = map (fun y => interp y (position R (double t))) (nodes_of R (map (fun f u => f (T u)) fs) un)) as -> by congruence.
      unfold nodes_of, image. rewrite !map_map. apply map_ext_in. intros f Hf. rewrite Forall_forall in HS.
      rewrite (interp_unique (fun u => f (T u))); [|apply Hint; [now apply HS|exact Haff]|rewrite (Href1 _ _ Et); unfold position, double, ref_corner, cube_corner, simplex_corner; destruct tensor; rewrite !map_length, seq_length; reflexivity]. f_equal. rewrite (Href1 _ _ Et). now apply (Hcor k r s). }
    rewrite Hp'. clear p Hp Hp'. unfold curved_at.
    destruct H1 as (Hperm & _). assert (Hin : In r (ts_orig ts ++ ts_mid ts)).
    { apply (Permutation_in _ (Permutation_sym Hperm)). apply in_seq. split; [lia|]. cbn. assert (ts_nref ts = length ref2) as ->; [|exact Hrl].
      destruct (tessellation_info_ok submesh ref2 ref1 Hhalf Hsub) as (ts' & E' & _ & G & _). congruence. }
    apply in_app_or in Hin as [Hin|Hin]; apply In_nth_error in Hin as (j & Hj).
    - left. exists j. split; [exact Hj|]. destruct (H4 j r Hj) as (a & Ha & Hra). unfold corners_of. rewrite nth_error_map, Ha. cbn. f_equal.
      assert (s = double a) as -> by congruence. unfold image, fs. now rewrite map_map.
    - right. exists j. split; [exact Hj|]. unfold mids, midpoints_of. rewrite Hnd. rewrite <- Hni at 1. rewrite (midpoints_good R rs d ref2 ref1 un S fs Href2 Hexact HS).
      destruct (Forall2_nth_error _ _ _ _ _ H5 Hj) as (s' & Hs' & Hrs). rewrite nth_error_map, Hs'. cbn. congruence.
  Qed.
End Fit.
