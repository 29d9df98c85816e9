(** * GenRefineProofs: properties of elements and vertices that refinement keeps. *)
From Coq Require Import List Arith Bool Lia ZArith.
From Verif Require Import Np NpFacts MeshModel MeshSpec MeshStateModel MeshProofs RefineModel FlipProofs PointProofs SplitProofs.
Import ListNotations.

Lemma foldM_keep {X S} (f : S -> X -> res S) (P : S -> Prop) l s s' :
  (forall s x s', In x l -> P s -> f s x = Ok s' -> P s') -> P s -> foldM f l s = Ok s' -> P s'.
Proof.
  revert s; induction l as [|x l IH]; intros s Hf Hs H; cbn [foldM] in H; [now injection H as <-|].
  apply bind_ok in H as (s1 & H1 & H2). apply (IH s1); auto; [intros; eapply Hf; eauto; now right|]. eapply Hf; eauto. now left.
Qed.

Lemma scatter_forall {X} (P : X -> Prop) ivs l l' : Forall P l -> Forall (fun iv => P (snd iv)) ivs -> scatter l ivs = Ok l' -> Forall P l'.
Proof.
  intros Hl Hi H. apply Forall_forall. intros x Hx. apply In_nth_error in Hx as (j & Hj). rewrite Forall_forall in Hl, Hi.
  destruct (scatter_cases _ _ _ j H) as [(_ & E)|(v & Hv & E)].
  - apply Hl. eapply nth_error_In. rewrite <- E. exact Hj.
  - assert (x = v) by congruence. subst. exact (Hi _ Hv).
Qed.

Lemma place_forall {X} (P : X -> Prop) n ivs l : Forall (fun iv => P (snd iv)) ivs -> place n ivs = Ok l -> Forall P l.
Proof.
  intros Hi H. unfold place in H. apply bind_ok in H as (o & Ho & H). apply mapM_ok in H.
  assert (Ho' : Forall (fun o => match o with Some x => P x | None => True end) o).
  { eapply scatter_forall; [| |exact Ho].
    - apply Forall_forall. intros x Hx. apply repeat_spec in Hx. now subst.
    - apply Forall_forall. intros iv Hiv. apply in_map_iff in Hiv as (iv' & <- & Hin). cbn [snd]. rewrite Forall_forall in Hi. now apply Hi. }
  clear Ho. induction H as [|y x o l Hy H IH]; [constructor|]. inversion Ho'; subst. constructor; auto. destruct y; [|discriminate]. now injection Hy as <-.
Qed.

Lemma compress_forall {X} (P : X -> Prop) m (l : list X) : Forall P l -> Forall P (compress m l).
Proof.
  intros H. rewrite Forall_forall in *. intros x Hx. apply H. unfold compress in Hx. apply in_map_iff in Hx as ((b & y) & <- & Hin). apply filter_In in Hin as (Hin & _).
  exact (in_combine_r _ _ _ _ Hin).
Qed.
Lemma combine_snd_forall {X Y} (P : Y -> Prop) (a : list X) b : Forall P b -> Forall (fun iv => P (snd iv)) (combine a b).
Proof. intros H. rewrite Forall_forall in *. intros (x & y) Hin. apply H. exact (in_combine_r _ _ _ _ Hin). Qed.

Section Keeps.
  Context {E A V : Type}.
  Variable tessellation : egroup E -> tess.
  Variable midpoints : egroup E -> nat -> list V.
  Variable child_nodes : egroup E -> nat -> list E.
  Variables (PE : E -> Prop) (PV : V -> Prop).
  Hypothesis Hkeep : forall grp iel, Forall PE (eg_nodes grp) -> iel < nelements grp -> Forall PV (midpoints grp iel) /\ Forall PE (child_nodes grp iel).

  Definition good_mesh (m : mesh E A V) : Prop :=
    Forall (fun g => Forall PE (eg_nodes g)) (m_groups m) /\ forall vs, m_vertices m = Some vs -> Forall PV vs.

  Lemma midpoint_step_keeps grp iel row acc im acc' : Forall PV (midpoints grp iel) -> Forall PV (rs_added (fst acc)) ->
    midpoint_step midpoints grp iel row acc im = Ok acc' -> Forall PV (rs_added (fst acc')).
  Proof.
    intros Hm Ha H. destruct acc as (st & refv), im as (imid & iref & v1 & v2). cbn [midpoint_step fst] in *.
    apply bind_ok in H as (g1 & _ & H). apply bind_ok in H as (g2 & _ & H). cbv zeta in H. apply bind_ok in H as (sm & Hs & H). apply bind_ok in H as (refv' & _ & H). injection H as <-.
    cbn [fst]. destruct (dlookup _ _) eqn:Ed; [injection Hs as <-; exact Ha|]. apply bind_ok in Hs as (pt & Hp & Hs). injection Hs as <-. cbn [fst rs_added].
    apply Forall_app. split; auto. repeat constructor. apply get_ok in Hp. rewrite Forall_forall in Hm. apply Hm. eapply nth_error_In; eauto.
  Qed.

  Lemma refine_element_keeps grp vi st iel sr : Forall PV (midpoints grp iel) -> Forall PV (rs_added st) ->
    refine_element tessellation midpoints grp vi st iel = Ok sr -> Forall PV (rs_added (fst sr)).
  Proof.
    intros Hm Ha H. unfold refine_element in H. cbv zeta in H. apply bind_ok in H as (row & _ & H). apply bind_ok in H as (? & _ & H). apply bind_ok in H as (refv & _ & H).
    apply bind_ok in H as (? & _ & H). apply bind_ok in H as (sr' & Hf & H). apply bind_ok in H as (? & _ & H). apply bind_ok in H as (rows & _ & H). injection H as <-. cbn [fst].
    eapply (foldM_keep _ (fun acc => Forall PV (rs_added (fst acc)))); [| |exact Hf]; [|exact Ha]. intros s x2 s' _ Hs Hx. eapply midpoint_step_keeps; eauto.
  Qed.

  Lemma refine_group_keeps nv flags grp d added d' added' grp' mapping : length flags = nelements grp -> Forall PE (eg_nodes grp) -> Forall PV added ->
    refine_group tessellation midpoints child_nodes nv flags grp d added = Ok ((d', added'), (grp', mapping)) ->
    Forall PE (eg_nodes grp') /\ Forall PV added' /\ eg_fvi grp' = eg_fvi grp.
  Proof.
    intros Hl He Ha H. unfold refine_group in H. cbv zeta in H.
    apply bind_ok in H as (new_n & _ & H). apply bind_ok in H as (mp & _ & H). apply bind_ok in H as ((da & new_vi) & Hda & H).
    apply bind_ok in H as (node_ivs & Hni & H). apply bind_ok in H as (nodes & Hn & H). injection H as -> <- _. cbn [eg_nodes eg_fvi].
    assert (Hw : forall iel, In iel (where_ flags) -> iel < nelements grp) by (intros iel Hi; apply In_where_ in Hi; rewrite <- Hl; apply nth_error_Some; congruence).
    split; [|split; [|reflexivity]].
    - eapply place_forall; [|exact Hn]. apply Forall_app. split; [apply combine_snd_forall; now apply compress_forall|].
      apply Forall_concat. apply mapM_ok in Hni. apply Forall_forall. intros ivs Hin. apply (Forall2_In_r _ _ _ _ Hni) in Hin as (iel & Hi & E0).
      apply bind_ok in E0 as (b & _ & E0). apply bind_ok in E0 as (? & _ & E0). injection E0 as <-. apply combine_snd_forall. now apply Hkeep; auto.
    - destruct nv as [nv|]; [|injection Hda as _ <- _; exact Ha]. destruct (eg_vi grp) as [vi|]; [|discriminate].
      apply bind_ok in Hda as (sr & Hf & Hda). apply bind_ok in Hda as (rows & _ & Hda). injection Hda as _ <- _.
      eapply (foldM_keep _ (fun acc => Forall PV (rs_added (fst acc)))); [| |exact Hf]; [|exact Ha].
      intros s iel s' Hin Hs Hx. apply bind_ok in Hx as (b & _ & Hx). apply bind_ok in Hx as (sr' & Hx & E0). injection E0 as <-. cbn [fst].
      eapply refine_element_keeps; [|exact Hs|exact Hx]. apply Hkeep; auto.
  Qed.

  Lemma make_mesh_parts vertices groups conforming vd ed fd (m : mesh E A V) : make_mesh vertices groups Pending Pending conforming vd ed fd = Ok m ->
    m_groups m = groups /\ m_vertices m = vertices.
  Proof. unfold make_mesh. cbv zeta. intros H. apply bind_ok in H as (f & _ & H). injection H as <-. auto. Qed.

  Lemma refine_keeps vd ed fd r flags r' : good_mesh (rf_current r) -> refine tessellation midpoints child_nodes vd ed fd r flags = Ok r' ->
    good_mesh (rf_current r') /\ map eg_fvi (m_groups (rf_current r')) = map eg_fvi (m_groups (rf_current r)).
  Proof.
    intros (Hg & Hv) H. unfold refine in H. cbv zeta in H. apply bind_ok in H as (? & Hgl & H). apply bind_ok in H as (? & Hgb & H). apply bind_ok in H as ((dag & recs) & Hf & H).
    apply bind_ok in H as (m' & Hm & H). injection H as <-. cbn [rf_current]. unfold good_mesh. apply make_mesh_parts in Hm as (-> & ->).
    unfold guard in Hgl, Hgb. destruct (Nat.eqb_spec (length flags) (sum (map nelements (m_groups (rf_current r))))) as [Hlen|]; [|discriminate].
    destruct (Nat.eqb_spec (length (base_element_nrs (map nelements (m_groups (rf_current r))))) (length (m_groups (rf_current r)))) as [Hb|]; [|discriminate].
    match type of Hf with foldM ?f ?l ?s = _ => set (F := f) in *; set (L := l) in * end.
    assert (Hlast : forall b grp, In (b, grp) L -> Forall PE (eg_nodes grp) /\ b + nelements grp <= length flags).
    { intros b grp Hin. apply In_nth_error in Hin as (k & Hk). unfold L in Hk. apply (SplitProofs.nth_error_combine_Some) in Hk as (Hb1 & Hg1). split.
      - rewrite Forall_forall in Hg. apply Hg. eapply nth_error_In; eauto.
      - rewrite Hlen. assert (b = base (map nelements (m_groups (rf_current r))) k); [|subst b; now apply base_bound].
        rewrite base_element_nrs_nth in Hb1; [congruence|]. rewrite map_length. apply nth_error_Some. congruence. }
    assert (G : forall l P s dag recs, L = P ++ l -> Forall PV (snd (fst (fst s))) -> Forall (fun g => Forall PE (eg_nodes g)) (snd (fst s)) -> map eg_fvi (snd (fst s)) = map (fun bg => eg_fvi (snd bg)) P ->
              foldM F l s = Ok (dag, recs) -> Forall PV (snd (fst dag)) /\ Forall (fun g => Forall PE (eg_nodes g)) (snd dag) /\ map eg_fvi (snd dag) = map (fun bg => eg_fvi (snd bg)) L).
    { clear Hf dag recs. induction l as [|(b & grp) l IH]; intros P ((da & gs) & recs0) dag recs EL Ha Hgs Hfv H; cbn [foldM fst snd] in *.
      - injection H as <- <-. cbn [fst snd]. rewrite app_nil_r in EL. rewrite EL. auto.
      - apply bind_ok in H as (s1 & H1 & H2). unfold F in H1. apply bind_ok in H1 as ((da' & grp' & mapping) & Hrg & E1). injection E1 as <-. destruct da as (d0 & ad0), da' as (d1 & ad1). cbn [fst snd] in *.
        destruct (Hlast b grp) as (Hpe & Hbn); [rewrite EL; apply in_or_app; right; now left|].
        apply refine_group_keeps in Hrg as (K1 & K2 & K3); auto.
        2: { rewrite slice_length; lia. }
        apply (IH (P ++ [(b, grp)])) in H2; cbn [fst snd] in *; auto.
        + rewrite <- app_assoc. exact EL.
        + apply Forall_app. split; auto.
        + rewrite !map_app. cbn [map snd]. rewrite K3. now f_equal. }
    destruct (G L [] (rf_dict r, [], [], []) _ _ eq_refl (Forall_nil _) (Forall_nil _) eq_refl Hf) as (K1 & K2 & K3). split; [split; auto|].
    - intros vs E0. destruct (m_vertices (rf_current r)) as [vs0|] eqn:Ev; [|discriminate]. injection E0 as <-. apply Forall_app. split; auto.
    - rewrite K3. rewrite <- (map_map snd eg_fvi). f_equal. unfold L. clear - Hb.
      revert Hb. generalize (base_element_nrs (map nelements (m_groups (rf_current r)))). induction (m_groups (rf_current r)) as [|g gs IH]; intros [|b bs] Hb; cbn [length combine map] in *; try lia; [reflexivity|]. cbn [snd]. f_equal. apply IH. lia.
  Qed.

  Lemma refine_uniformly_keeps vd ed fd m k wa m' : good_mesh m -> refine_uniformly tessellation midpoints child_nodes vd ed fd m k wa = Ok m' ->
    good_mesh m' /\ map eg_fvi (m_groups m') = map eg_fvi (m_groups m).
  Proof.
    intros Hg H. unfold refine_uniformly in H. apply bind_ok in H as (? & _ & H). apply bind_ok in H as (r & Hf & H). injection H as <-.
    eapply (foldM_keep _ (fun r => good_mesh (rf_current r) /\ map eg_fvi (m_groups (rf_current r)) = map eg_fvi (m_groups m))); [| |exact Hf]; [|cbn [new_refiner rf_current]; auto].
    intros s x2 s' _ (Hs1 & Hs2) Hx. unfold refine_all in Hx. apply refine_keeps in Hx as (K1 & K2); auto. split; auto. congruence.
  Qed.
End Keeps.
