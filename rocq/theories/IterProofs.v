(** * IterProofs: refining uniformly several times: lemmas. *)
From Coq Require Import List Arith Bool ZArith Lia Permutation.
From Verif Require Import Np NpFacts MeshModel MeshSpec MeshProofs MeshStateModel RefineModel RefineSpec RefineProofs LawsSpec SplitProofs.
Import ListNotations.

Lemma foldM_sim {X S T} (f : S -> X -> res S) (g : T -> X -> res T) (h : S -> T) l :
  (forall x s s', In x l -> f s x = Ok s' -> g (h s) x = Ok (h s')) -> forall s s', foldM f l s = Ok s' -> foldM g l (h s) = Ok (h s').
Proof.
  induction l as [|x l IH]; intros H s s' Hf; cbn [foldM] in *; [congruence|]. apply bind_ok in Hf as (s1 & H1 & Hf).
  rewrite (H x s s1 (or_introl eq_refl) H1). cbn [bind]. apply IH; auto. intros; apply H; auto. now right.
Qed.

Lemma dlookup_app2 k old d : dlookup k old = None -> dlookup k (old ++ d) = dlookup k d.
Proof. induction old as [|(k', v) old IH]; intros H; [reflexivity|]. cbn [dlookup app] in *. destruct (pair_eqb k k'); [discriminate|auto]. Qed.

Section Iter.
  Context {E A V : Type}.
  Variable tessellation : egroup E -> tess.
  Variable midpoints : egroup E -> nat -> list V.
  Variable child_nodes : egroup E -> nat -> list E.

  (** ** Entries of the table that are never asked for change nothing *)
  Section Old.
    Variable old : middict.
    Definition pre (st : @rstate V) : rstate := mk_rstate (old ++ rs_dict st) (rs_added st) (rs_next st).

    Definition fresh_row (ts : tess) (row : list nat) : Prop :=
      forall a b ga gb, In (a, b) (ts_pairs ts) -> nth_error row a = Some ga -> nth_error row b = Some gb -> dlookup (sort_pair ga gb) old = None.

    Lemma step_sim grp iel row im st refv st' refv' :
      (forall ga gb, nth_error row (fst (snd (snd im))) = Some ga -> nth_error row (snd (snd (snd im))) = Some gb -> dlookup (sort_pair ga gb) old = None) ->
      midpoint_step midpoints grp iel row (st, refv) im = Ok (st', refv') -> midpoint_step midpoints grp iel row (pre st, refv) im = Ok (pre st', refv').
    Proof.
      destruct im as (imid, (iref, (v1, v2))). cbn [fst snd]. intros Hf H. unfold midpoint_step in *.
      apply bind_ok in H as (g1 & G1 & H). apply bind_ok in H as (g2 & G2 & H). rewrite G1. cbn [bind]. rewrite G2. cbn [bind]. cbv zeta in *.
      apply bind_ok in H as (sm & Hsm & H). apply bind_ok in H as (rv & Hp & H). injection H as <- <-.
      cbn [pre rs_dict rs_added rs_next]. rewrite dlookup_app2 by (apply Hf; now apply get_ok).
      destruct (dlookup (sort_pair g1 g2) (rs_dict st)) as [v|].
      - injection Hsm as <-. cbn [bind fst snd] in *. rewrite Hp. reflexivity.
      - apply bind_ok in Hsm as (pt & Hpt & Hsm). injection Hsm as <-. rewrite Hpt. cbn [bind fst snd] in *. rewrite Hp. cbn [bind]. unfold pre. cbn [rs_dict rs_added rs_next].
        now rewrite app_assoc.
    Qed.

    Lemma element_sim grp vi st iel st' rows : (forall row, In row vi -> fresh_row (tessellation grp) row) ->
      refine_element tessellation midpoints grp vi st iel = Ok (st', rows) -> refine_element tessellation midpoints grp vi (pre st) iel = Ok (pre st', rows).
    Proof.
      intros Hf H. unfold refine_element in *. apply bind_ok in H as (row & Hrow & H). rewrite Hrow. cbn [bind].
      apply bind_ok in H as (u1 & G1 & H). rewrite G1. cbn [bind]. apply bind_ok in H as (refv & G2 & H). rewrite G2. cbn [bind].
      apply bind_ok in H as (u2 & G3 & H). rewrite G3. cbn [bind]. apply bind_ok in H as (sr & G4 & H). apply bind_ok in H as (u3 & G5 & H). apply bind_ok in H as (rs & G6 & H). injection H as <- <-.
      rewrite (foldM_sim (midpoint_step midpoints grp iel row) (midpoint_step midpoints grp iel row) (fun s => (pre (fst s), snd s)) _) with (s := (st, refv)) (s' := sr); auto.
      - cbn [bind fst snd]. rewrite G5. cbn [bind]. rewrite G6. reflexivity.
      - intros (imid, (iref, (a, b))) (s, rv) (s', rv') Hin Hs. cbn [fst snd]. apply step_sim; auto. cbn [fst snd]. intros ga gb Ha Hb.
        apply (Hf row) with (a := a) (b := b); auto; [apply get_ok in Hrow; eapply nth_error_In; eauto|].
        apply In_enumerate in Hin. eapply in_combine_r. eapply nth_error_In. exact Hin.
    Qed.

    Lemma group_sim nv flags grp d added d' added' rest :
      (forall vi row, eg_vi grp = Some vi -> In row vi -> fresh_row (tessellation grp) row) ->
      refine_group tessellation midpoints child_nodes nv flags grp d added = Ok ((d', added'), rest) ->
      refine_group tessellation midpoints child_nodes nv flags grp (old ++ d) added = Ok ((old ++ d', added'), rest).
    Proof.
      intros Hf H. unfold refine_group in *. cbv zeta in *. apply bind_ok in H as (nn & G1 & H). rewrite G1. cbn [bind].
      apply bind_ok in H as (mp & G2 & H). rewrite G2. cbn [bind]. apply bind_ok in H as ((da, vi') & G3 & H).
      apply bind_ok in H as (niv & G4 & H). apply bind_ok in H as (nodes & G5 & H). injection H as -> <-.
      destruct nv as [nv|].
      - destruct (eg_vi grp) as [vi|] eqn:Hvi; [|discriminate]. apply bind_ok in G3 as ((s1, iv1) & F1 & G3). apply bind_ok in G3 as (rws & F2 & G3). injection G3 as <- <- <-.
        match type of F1 with foldM ?f ?l ?s = _ => assert (Hsim : foldM f l (pre (fst s), snd s) = Ok (pre s1, iv1)) end.
        { revert F1. apply (foldM_sim _ _ (fun s : @rstate V * list (nat * list nat) => (pre (fst s), snd s))).
          intros iel (s, iv) (s', iv') _ Hs. cbn [fst snd] in *. apply bind_ok in Hs as (b & Hb & Hs). rewrite Hb. cbn [bind]. apply bind_ok in Hs as ((s2, rws2) & He & Hs). injection Hs as <- <-.
          rewrite (element_sim grp vi s iel s2 rws2); auto. intros row Hr. now apply (Hf vi). }
        unfold pre in Hsim at 1. cbn [fst snd rs_dict rs_added rs_next] in Hsim. rewrite Hsim. cbn [bind fst snd] in F2 |- *. rewrite F2. cbn [bind pre rs_dict rs_added]. rewrite G4. cbn [bind]. rewrite G5. reflexivity.
      - injection G3 as <- <- <-. cbn [bind]. rewrite G4. cbn [bind]. rewrite G5. reflexivity.
    Qed.

    Lemma refine_sim vd ed fd (r r0 r1 : @refiner E A V) flags : rf_current r = rf_current r0 -> rf_dict r = old ++ rf_dict r0 ->
      (forall grp vi row, In grp (m_groups (rf_current r0)) -> eg_vi grp = Some vi -> In row vi -> fresh_row (tessellation grp) row) ->
      refine tessellation midpoints child_nodes vd ed fd r0 flags = Ok r1 ->
      refine tessellation midpoints child_nodes vd ed fd r flags = Ok (mk_refiner (rf_current r1) (rf_previous r1) (rf_records r1) (old ++ rf_dict r1)).
    Proof.
      intros Hc Hd Hf H. unfold refine in *. cbv zeta in *. rewrite Hc, Hd. set (m := rf_current r0) in *.
      apply bind_ok in H as (u1 & G1 & H). rewrite G1. cbn [bind]. apply bind_ok in H as (u2 & G2 & H). rewrite G2. cbn [bind].
      apply bind_ok in H as ((((d1, add1), gs1), recs1) & G3 & H). apply bind_ok in H as (m1 & G4 & H). injection H as <-. cbn [fst snd rf_current rf_previous rf_records rf_dict].
      match type of G3 with foldM ?f ?l ?s = _ => assert (Hsim : foldM f l (((old ++ rf_dict r0, []), []), []) = Ok (((old ++ d1, add1), gs1), recs1)) end.
      { revert G3. apply (foldM_sim _ _ (fun acc : (middict * list V * list (egroup E)) * list (tess * list (list nat)) => let '(((d, ad), gs), recs) := acc in (((old ++ d, ad), gs), recs))).
        intros (b, grp) (((d, ad), gs), recs) (((d', ad'), gs'), recs') Hin Hs. cbn [fst snd] in *.
        apply bind_ok in Hs as (((d2, ad2), (grp2, mp2)) & Hg & Hs). injection Hs as <- <- <- <-.
        rewrite (group_sim _ _ _ _ _ d2 ad2 (grp2, mp2)); auto. intros vi row. apply Hf. eapply in_combine_r. exact Hin. }
      match goal with |- bind ?x ?k = _ => replace x with (Ok (((old ++ d1, add1), gs1), recs1)) by (symmetry; exact Hsim) end. cbn [bind fst snd] in G4 |- *. rewrite G4. reflexivity.
    Qed.
  End Old.

  (** ** One uniform refinement *)
  Variables vd ed fd : nat.
  Hypothesis Hts : tessellation_ok tessellation midpoints child_nodes.
  Hypothesis Hone : forall grp, one_corner (tessellation grp).

  Definition all_fresh (d : middict) (m : mesh E A V) : Prop :=
    forall grp vi row, In grp (m_groups m) -> eg_vi grp = Some vi -> In row vi -> fresh_row d (tessellation grp) row.

  (** Keys are pairs of vertices before, values are new vertices *)
  Definition below (N : nat) (d : middict) : Prop := Forall (fun e : (nat * nat) * nat => fst (fst e) < N /\ snd (fst e) < N /\ N <= snd e) d.

  Lemma sort_pair_lt a b N : fst (sort_pair a b) < N -> snd (sort_pair a b) < N -> a < N /\ b < N.
  Proof. destruct (sort_pair_cases a b) as [-> | ->]; cbn [fst snd]; lia. Qed.

  Lemma sort_pair_lt' a b N : a < N -> b < N -> fst (sort_pair a b) < N /\ snd (sort_pair a b) < N.
  Proof. destruct (sort_pair_cases a b) as [-> | ->]; cbn [fst snd]; lia. Qed.

  Lemma fresh_step (m : mesh E A V) vs : refinable tessellation m -> m_vertices m = Some vs ->
    exists r1 added, refine_all tessellation midpoints child_nodes vd ed fd (new_refiner m) = Ok r1 /\ refiner_ok tessellation r1 /\
      m_vertices (rf_current r1) = Some (vs ++ added) /\ below (length vs) (rf_dict r1) /\
      (m_conforming m = Some true -> m_conforming (rf_current r1) = Some true) /\
      forall grp' vi' row', In grp' (m_groups (rf_current r1)) -> eg_vi grp' = Some vi' -> In row' vi' ->
        forall a b ga gb, In (a, b) (ts_pairs (tessellation grp')) -> nth_error row' a = Some ga -> nth_error row' b = Some gb -> ~ (ga < length vs /\ gb < length vs).
  Proof.
    intros Hm Hvs. set (flags := repeat true (sum (map nelements (m_groups m)))).
    assert (Hfl : length flags = sum (map nelements (m_groups m))) by apply repeat_length.
    assert (Hr : refiner_ok tessellation (@new_refiner E A V m)) by (split; [exact Hm|intros; constructor]).
    set (Q := fun (_ : nat) (d : middict) (_ : list V) => below (length vs) d).
    destruct (refine_with tessellation midpoints child_nodes Q vd ed fd (new_refiner m) flags Hts Hr Hfl) as (r' & added & recs & H1 & HQ & H2 & H3 & H4 & H5 & H6 & H7 & H8 & H9).
    - cbn [new_refiner rf_current]. intros g grp gf d added Hg Hgf HQ. rewrite Hvs. cbn [option_map].
      set (P := fun st : @rstate V => below (length vs) (rs_dict st) /\ length vs <= rs_next st).
      pose proof Hgf as (grp0 & Hg0 & Hgl & _). assert (grp0 = grp) by congruence. subst grp0.
      destruct (refine_group_ok tessellation midpoints child_nodes P (Some (length vs)) gf grp d added Hts Hgl) as (da & grp' & mapping & G1 & G2 & ((next & G3) & G4 & G5)).
      { intros nv0 [= <-]. split; [split; [exact HQ|apply le_n]|].
        destruct Hm as (_ & Href). destruct (Href vs grp Hvs (nth_error_In _ _ Hg)) as (vi & Hvi & Hvl & Hrows).
        exists vi. split; auto. split; auto. split; [eapply Forall_impl; [|exact Hrows]; now intros row (Hx & _)|].
        intros st iel row k a b ga gb pt _ Hrow _ Ha Hb _ _ (HP1 & HP2). unfold P. cbn [push rs_dict rs_next]. split; [|lia].
        apply Forall_app. split; [exact HP1|]. constructor; [|constructor]. cbn [fst snd].
        rewrite Forall_forall in Hrows. destruct (Hrows row (nth_error_In _ _ Hrow)) as (_ & Hb'). rewrite Forall_forall in Hb'.
        destruct (sort_pair_lt' ga gb (length vs)); [apply Hb'; eapply nth_error_In; eauto|apply Hb'; eapply nth_error_In; eauto|]. auto. }
      exists da, grp', mapping. split; [exact G1|]. split; [exact (proj1 G3)|]. split; [exact G4|]. split; [exact G2|]. split; [auto|discriminate].
    - constructor.
    - cbn [new_refiner rf_current rf_dict] in *. rewrite Hvs in *. cbn [option_map] in *.
      destruct (refine_ok tessellation midpoints child_nodes vd ed fd (new_refiner m) flags Hts Hr Hfl) as (r2 & a2 & rc2 & K1 & K2 & _).
      assert (r2 = r') by congruence. subst r2. exists r', added. split; [exact H1|]. split; [exact K2|]. split; [exact H5|]. split; [exact HQ|]. split.
      { intros Hc. rewrite H6, Hc. f_equal. unfold flags. clear. generalize (sum (map nelements (m_groups m))) as n.
        intros n. replace (forallb (fun b : bool => b) (repeat true n)) with true; [reflexivity|]. induction n; cbn [repeat forallb]; auto. }
      intros grp' vi' row' Hin' Hvi' Hrow' a b ga gb Hab Ha Hb (La & Lb).
      apply In_nth_error in Hin' as (g & Hg'). assert (g < length (m_groups m)) by (rewrite <- H7; apply nth_error_Some; congruence).
      destruct (nth_error (m_groups m) g) as [grp|] eqn:Hg; [|apply nth_error_None in Hg; lia].
      pose proof (slice_flags m flags g grp Hfl Hg) as Hgf. destruct (H9 g grp _ Hg Hgf) as (grp0 & mapping & N1 & N2 & N3 & N4 & _).
      assert (grp0 = grp') by congruence. subst grp0. specialize (N4 ltac:(discriminate)). destruct N4 as (vi & vi0 & Hvi & Hvi0 & Hl' & Hch).
      assert (vi0 = vi') by congruence. subst vi0. pose proof N3 as (Hd & _ & _ & Hfvi).
      assert (Hft : tessellation grp' = tessellation grp) by (apply (proj1 (proj2 Hts)); exact Hfvi). rewrite Hft in Hab.
      apply In_nth_error in Hrow' as (j & Hj). assert (Hjn : j < nelements grp') by (rewrite <- Hl'; apply nth_error_Some; congruence).
      destruct (child_exists _ _ _ _ _ Hd Hjn) as (i & c & f & Hc & Hf & Hcf).
      assert (f = true). { destruct Hgf as (grp1 & Hg1 & Hgl & Hfo). specialize (Hfo i f Hf). unfold flag_of in Hfo. apply nth_error_In in Hfo. now apply repeat_spec in Hfo. }
      subst f. destruct Hm as (_ & Href). destruct (Href vs grp Hvs (nth_error_In _ _ Hg)) as (vi0 & Hvi1 & Hvl & Hrows). assert (vi0 = vi) by congruence. subst vi0.
      destruct Hgf as (grp1 & Hg1 & Hgl & _). assert (grp1 = grp) by congruence. subst grp1.
      assert (Hi : i < length vi) by (rewrite Hvl, <- Hgl; apply nth_error_Some; congruence).
      destruct (nth_error vi i) as [row|] eqn:Hrow; [|apply nth_error_None in Hrow; lia].
      destruct (nth_error (ts_children (tessellation grp)) c) as [child|] eqn:Hcc; [|apply nth_error_None in Hcc; lia].
      destruct (Hch i c j row child Hf Hc Hrow Hcc) as (row0 & Hr0 & HF). assert (row0 = row') by congruence. subst row0.
      assert (Hold : forall k v, nth_error row' k = Some v -> v < length vs -> exists rk, nth_error child k = Some rk /\ In rk (ts_orig (tessellation grp))).
      { intros k v Hk Lk. assert (k < length child) by (rewrite (Forall2_length' _ _ _ HF); apply nth_error_Some; congruence).
        destruct (nth_error child k) as [rk|] eqn:Hrk; [|apply nth_error_None in Hrk; lia]. exists rk. split; auto.
        destruct (Forall2_nth_error _ _ _ _ _ HF Hrk) as (v0 & Hv0 & [(q & Hq & _)|(q & x & y & gx & gy & _ & _ & _ & _ & Ht)]).
        - eapply nth_error_In; eauto.
        - exfalso. apply dlookup_In in Ht. unfold Q, below in HQ. rewrite Forall_forall in HQ. specialize (HQ _ Ht). cbn [snd] in HQ. assert (v0 = v) by congruence. lia. }
      destruct (Hold a ga Ha La) as (ra & Hra & Ora). destruct (Hold b gb Hb Lb) as (rb & Hrb & Orb).
      exact (Hone grp child a b ra rb (nth_error_In _ _ Hcc) Hab Hra Hrb (conj Ora Orb)).
  Qed.

  Definition good (r : @refiner E A V) : Prop :=
    refinable tessellation (rf_current r) /\ all_fresh (rf_dict r) (rf_current r) /\
    exists vs, m_vertices (rf_current r) = Some vs /\ Forall (fun e : (nat * nat) * nat => fst (fst e) < length vs /\ snd (fst e) < length vs) (rf_dict r).

  Lemma good_new m vs : refinable tessellation m -> m_vertices m = Some vs -> good (new_refiner m).
  Proof. intros Hm Hvs. split; [exact Hm|]. split; [intros grp vi row _ _ _ a b ga gb _ _ _; reflexivity|]. exists vs. split; [exact Hvs|constructor]. Qed.

  Lemma good_step r : good r -> exists r1 r', refine_all tessellation midpoints child_nodes vd ed fd (new_refiner (rf_current r)) = Ok r1 /\
    refine_all tessellation midpoints child_nodes vd ed fd r = Ok r' /\ rf_current r' = rf_current r1 /\ good r' /\
    (m_conforming (rf_current r) = Some true -> m_conforming (rf_current r') = Some true).
  Proof.
    intros (Hm & Hfr & vs & Hvs & Hk). destruct (fresh_step _ _ Hm Hvs) as (r1 & added & H1 & H2 & H3 & H4 & Hcf & H5).
    exists r1. eexists. split; [exact H1|]. split.
    { unfold refine_all in *. apply (refine_sim (rf_dict r)) with (r0 := new_refiner (rf_current r)); [reflexivity|cbn [new_refiner rf_dict]; now rewrite app_nil_r|exact Hfr|exact H1]. }
    cbn [rf_current]. split; [reflexivity|]. split; [|exact Hcf]. split; [apply H2|]. cbn [rf_current rf_dict].
    assert (Hkeys : Forall (fun e : (nat * nat) * nat => fst (fst e) < length vs /\ snd (fst e) < length vs) (rf_dict r ++ rf_dict r1)).
    { apply Forall_app. split; [exact Hk|]. eapply Forall_impl; [|exact H4]. cbn beta. intros e (? & ? & _). auto. }
    split.
    - intros grp' vi' row' Hin Hvi Hrow a b ga gb Hab Ha Hb. destruct (dlookup (sort_pair ga gb) (rf_dict r ++ rf_dict r1)) as [v|] eqn:Ed; [|reflexivity].
      exfalso. apply dlookup_In in Ed. rewrite Forall_forall in Hkeys. specialize (Hkeys _ Ed). cbn [fst snd] in Hkeys.
      apply (H5 grp' vi' row' Hin Hvi Hrow a b ga gb Hab Ha Hb). now apply sort_pair_lt.
    - exists (vs ++ added). split; [exact H3|]. eapply Forall_impl; [|exact Hkeys]. cbn beta. intros e (? & ?). rewrite app_length. lia.
  Qed.

  Lemma good_iter n : forall r r0, good r -> good r0 -> rf_current r = rf_current r0 ->
    exists s s0, foldM (fun r _ => refine_all tessellation midpoints child_nodes vd ed fd r) (repeat tt n) r = Ok s /\
      foldM (fun r _ => refine_all tessellation midpoints child_nodes vd ed fd r) (repeat tt n) r0 = Ok s0 /\ good s /\ good s0 /\ rf_current s = rf_current s0 /\
      (m_conforming (rf_current r) = Some true -> m_conforming (rf_current s) = Some true).
  Proof.
    induction n as [|n IH]; intros r r0 G G0 E0; cbn [repeat foldM].
    - exists r, r0. auto 8.
    - destruct (good_step r G) as (r1 & r' & A1 & A2 & A3 & A4 & A5). destruct (good_step r0 G0) as (r1' & r0' & B1 & B2 & B3 & B4 & _).
      rewrite A2, B2. cbn [bind]. assert (r1 = r1') by (rewrite E0 in A1; congruence). subst r1'.
      destruct (IH r' r0' A4 B4) as (s & s0 & F1 & F2 & F3 & F4 & F5 & F6); [congruence|]. exists s, s0. auto 10.
  Qed.

  Theorem uniformly_add (m : mesh E A V) vs a b wa : refinable tessellation m -> m_vertices m = Some vs ->
    refine_uniformly tessellation midpoints child_nodes vd ed fd m (a + b) wa =
    (m' <- refine_uniformly tessellation midpoints child_nodes vd ed fd m a wa ;; refine_uniformly tessellation midpoints child_nodes vd ed fd m' b wa).
  Proof.
    intros Hm Hvs. unfold refine_uniformly. destruct (negb wa || truthy (m_conforming m)) eqn:Hg; [|reflexivity]. cbn [guard bind].
    rewrite repeat_app, foldM_app. pose proof (good_new m vs Hm Hvs) as G.
    destruct (good_iter a _ _ G G eq_refl) as (s & s' & F1 & _ & F3 & _ & _ & F6). rewrite F1. cbn [bind].
    assert (Hg' : negb wa || truthy (m_conforming (rf_current s)) = true).
    { destruct wa; [|reflexivity]. cbn [negb orb] in *. cbn [new_refiner rf_current] in F6. rewrite F6; [reflexivity|]. destruct (m_conforming m) as [[|]|]; cbn in Hg; congruence. }
    rewrite Hg'. cbn [guard bind]. pose proof F3 as (Hm' & _ & vs' & Hvs' & _).
    destruct (good_iter b s (new_refiner (rf_current s)) F3 (good_new _ _ Hm' Hvs') eq_refl) as (t & t0 & K1 & K2 & _ & _ & K5 & _). rewrite K1, K2. cbn [bind]. now rewrite K5.
  Qed.

  (** And it never fails. *)
  Theorem uniformly_ok (m : mesh E A V) vs n : refinable tessellation m -> m_vertices m = Some vs ->
    exists m', refine_uniformly tessellation midpoints child_nodes vd ed fd m n false = Ok m' /\ refinable tessellation m'.
  Proof.
    intros Hm Hvs. pose proof (good_new m vs Hm Hvs) as G. destruct (good_iter n _ _ G G eq_refl) as (s & _ & F1 & _ & F3 & _).
    exists (rf_current s). unfold refine_uniformly. cbn [negb orb guard bind]. rewrite F1. split; [reflexivity|apply F3].
  Qed.
End Iter.
