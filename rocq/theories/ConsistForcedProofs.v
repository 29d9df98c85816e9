(** * ConsistForcedProofs: meshes built with force_positive_orientation pass the check. *)
From Coq Require Import List Arith Bool ZArith Lia Ring.
From Verif Require Import Np NpFacts MeshModel MeshSpec MeshStateModel Lin Ord ProcModel ProcSpec FlipProofs OrientProofs ConsistModel ConsistSpec ConsistProofs ConsistMainProofs.
Import ListNotations.

Section Flip.
  Variable R : ocring.
  Add Ring Rcf : (rth R).
  Local Open Scope cring_scope.

  Lemma nodes_match_flipped (P M : list (list R)) perm pts tol row x row' x' n d :
    involutive perm -> length perm = length row -> is_mat n n M -> Forall (fun r => length r = n) x -> length x = d ->
    (forall j p wj wp (y : list R), nth_error perm j = Some p -> nth_error P j = Some wj -> nth_error P p = Some wp -> length y = n ->
       dot wp (matvec M y) = dot wj y) -> length P = length row ->
    flipped R M perm row x row' x' -> nodes_match P pts tol row x -> nodes_match P pts tol row' x'.
  Proof.
    intros Hinv Hpl HM Hx Hxl Hdot HPl (Hl & Hrow & ->) H.
    assert (Hback : forall k v, nth_error row' k = Some v -> exists j, nth_error perm j = Some k /\ nth_error perm k = Some j /\ nth_error row j = Some v).
    { intros k v Hk. assert (Hkl : (k < length perm)%nat) by (rewrite Hpl, <- Hl; apply nth_error_Some; congruence).
      destruct (nth_error perm k) as [j|] eqn:Ej; [|apply nth_error_None in Ej; lia]. exists j. split; [now apply Hinv|]. split; [reflexivity|].
      rewrite <- Hk. symmetry. apply Hrow. now apply Hinv. }
    assert (Hfwd : forall j v, nth_error row j = Some v -> exists k, nth_error perm j = Some k /\ nth_error row' k = Some v).
    { intros j v Hj. assert (Hjl : (j < length perm)%nat) by (rewrite Hpl; apply nth_error_Some; congruence).
      destruct (nth_error perm j) as [k|] eqn:Ek; [|apply nth_error_None in Ek; lia]. exists k. split; [reflexivity|]. now rewrite (Hrow _ _ Ek). }
    assert (Hsc : forall s, element_scale pts row' s -> element_scale pts row s).
    { intros s ((k & a & c & (v & p & H1 & H2 & H3) & Hs) & Hb). split.
      - destruct (Hback _ _ H1) as (j & _ & _ & Hj). exists j, a, c. split; [|exact Hs]. exists v, p. auto.
      - intros j a' c' (v' & p' & H1' & H2' & H3'). destruct (Hfwd _ _ H1') as (k' & _ & Hk'). apply (Hb k' a'). exists v', p'. auto. }
    intros s k a w xa c Hs Hw Hxa (v & p & H1 & H2 & H3).
    destruct (Hback _ _ H1) as (j & Hjk & _ & Hj). rewrite nth_error_map in Hxa. destruct (nth_error x a) as [y|] eqn:Ey; [|discriminate Hxa].
    cbn [option_map] in Hxa. injection Hxa as <-.
    destruct (nth_error P j) as [wj|] eqn:Ew. 2:{ apply nth_error_None in Ew. assert (j < length row)%nat by (apply nth_error_Some; congruence). lia. }
    rewrite (Hdot j k wj w y Hjk Ew Hw). 2:{ apply (proj1 (Forall_forall _ _) Hx). eapply nth_error_In; eauto. }
    apply (H s j a wj y c (Hsc s Hs) Ew Ey). exists v, p. auto.
  Qed.

  Lemma Forall2_seq_shift {X} (Q : nat -> X -> Prop) (l : list X) s :
    (forall k x, nth_error l k = Some x -> Q (s + k)%nat x) -> Forall2 Q (seq s (length l)) l.
  Proof.
    revert s. induction l as [|x l IH]; intros s H; cbn [length seq]; constructor.
    - specialize (H 0%nat x eq_refl). now rewrite Nat.add_0_r in H.
    - apply IH. intros k y Hk. replace (S s + k)%nat with (s + S k)%nat by lia. now apply H.
  Qed.

  (** the orientation reported for a simplex is the determinant of its edges *)
  Lemma orientation_edge_det d (pts : list (list R)) row : (1 <= d <= 3)%nat -> Forall (fun p => length p = d) pts ->
    length row = (d + 1)%nat -> Forall (fun v => (v < length pts)%nat) row ->
    exists o, element_orientation R 0 (seq 1 d) pts row = Ok o /\ edge_det d (0%nat, seq 1 d) pts row o.
  Proof.
    intros Hd Hp Hl Hr.
    assert (Hxs : exists xs, Forall2 (fun v x => nth_error pts v = Some x) row xs).
    { clear Hl. induction Hr as [|v row Hv _ (xs & IH)]; [exists []; constructor|].
      destruct (nth_error pts v) as [q|] eqn:E; [|apply nth_error_None in E; lia]. exists (q :: xs). now constructor. }
    destruct Hxs as (xs & HF). pose proof (Forall2_length' _ _ _ HF) as HL.
    assert (Hlen : Forall (fun x => length x = d) xs).
    { apply Forall_forall. intros x Hx. apply In_nth_error in Hx as (i & Hi). destruct (Forall2_nth_error_r _ _ _ _ _ HF Hi) as (v & _ & Hv).
      apply (proj1 (Forall_forall _ _) Hp). eapply nth_error_In; eauto. }
    destruct xs as [|b xs]; [cbn in HL; lia|]. apply Forall_cons_iff in Hlen as (Lb & Lx). cbn [length] in HL.
    exists (det R d (map (fun x => vsub x b) xs)). split.
    - apply orientation_det; auto. lia.
    - exists b, xs. cbn [fst snd]. destruct (Forall2_nth_error_r _ _ _ 0 b HF eq_refl) as (v & Hv & Hb). split; [eauto|]. split; [|reflexivity].
      replace d with (length xs) by lia. apply Forall2_seq_shift. intros k x Hk. exact (Forall2_nth_error_r _ _ _ (S k) x HF Hk).
  Qed.
End Flip.

Section Forced.
  Variable R : ocring.
  Context {A : Type}.
  Add Ring Rcg : (rth R).
  Local Open Scope cring_scope.
  Local Notation lift2 := (lift2 R).

  Lemma make_mesh_pending (vs : list (list R)) (gs : list (egroup (enodes R))) conforming vd ed fd (m : mesh (enodes R) A (list R)) :
    make_mesh (Some vs) gs Pending Pending conforming vd ed fd = Ok m ->
    m_vdtype m = vd /\ m_edtype m = ed /\ m_fdtype m = fd /\ (forall x, m_nodal m <> Available x) /\ (forall x, m_facial m <> Available x).
  Proof.
    unfold make_mesh. destruct (truthy conforming) eqn:E; cbn [none_to_false bind]; intros [= <-]; cbn; repeat (split; [reflexivity|]); split; intros x H; discriminate H.
  Qed.

  Lemma perform_flips_fields flipper flags (m m' : mesh (enodes R) A (list R)) : perform_flips R flipper flags m = Ok m' ->
    m_vdtype m' = 0%nat /\ m_edtype m' = 0%nat /\ m_fdtype m' = 0%nat /\ (forall x, m_nodal m' <> Available x) /\ (forall x, m_facial m' <> Available x).
  Proof.
    unfold perform_flips. destruct (m_vertices m) as [vs|]; [|intros H; discriminate H]. intros H. apply bind_ok in H as (gs & _ & H). eapply make_mesh_pending; eauto.
  Qed.

  Lemma forced_fields negative flipper indices vertices groups nodal facial conforming vd ed fd (m : mesh (enodes R) A (list R)) :
    make_mesh_forced R negative flipper indices vertices groups nodal facial conforming vd ed fd = Ok m ->
    m_vdtype m = 0%nat /\ m_edtype m = 0%nat /\ m_fdtype m = 0%nat /\ (forall x, m_nodal m <> Available x) /\ (forall x, m_facial m <> Available x).
  Proof.
    unfold make_mesh_forced. intros H. apply bind_ok in H as (m0 & _ & H). destruct vertices as [vs|]; [|discriminate H].
    apply bind_ok in H as (fs & _ & H). eapply perform_flips_fields; eauto.
  Qed.

  Definition els_of (groups : list (egroup (enodes R))) : list (list (list nat) * list (list (list R))) :=
    map (fun g => (match eg_vi g with Some vi => vi | None => [] end, eg_nodes g)) groups.

  Lemma exact_float vid d (m : mesh (enodes R) A (list R)) vs : m_vertices m = Some vs -> Forall (fun v => length v = d) vs ->
    has_rows (m_groups m) -> m_groups m <> [] -> exact_mesh d (float_mesh R vid d d m) vs (els_of (m_groups m)).
  Proof.
    intros Hv Hl HR Hne. unfold exact_mesh, float_mesh, els_of. cbn [cm_vertices cm_groups]. rewrite Hv. split; [reflexivity|]. split; [exact Hl|]. split.
    - unfold has_rows in HR. clear Hne. induction HR as [|g gs (vi & Hvi & Hln) _ IH]; cbn [map]; constructor; [|exact IH].
      unfold exact_group, float_group. cbn [cg_eg eg_vi eg_nodes cg_modepy cg_dim cg_ambient fst snd]. rewrite Hvi. repeat (split; [reflexivity|]).
      split; [exact Hln|]. auto.
    - destruct (m_groups m); [congruence|discriminate].
  Qed.

  Lemma element_of_float vid d (m : mesh (enodes R) A (list R)) i j g row x : has_rows (m_groups m) ->
    element_of (float_mesh R vid d d m) (els_of (m_groups m)) i j g row x ->
    exists grp, nth_error (m_groups m) i = Some grp /\ g = float_group R vid d d grp /\ elem_at (m_groups m) i j row x.
  Proof.
    intros HR (e & Hg & He & Hrow & Hx). unfold float_mesh, els_of in *. cbn [cm_groups] in Hg. rewrite nth_error_map in Hg, He.
    destruct (nth_error (m_groups m) i) as [grp|] eqn:Eg; [|discriminate Hg]. cbn [option_map] in Hg, He. injection Hg as <-. injection He as <-.
    exists grp. split; [reflexivity|]. split; [reflexivity|]. cbn [fst snd] in *.
    destruct (proj1 (Forall_forall _ _) HR grp (nth_error_In _ _ Eg)) as (vi & Hvi & _). rewrite Hvi in Hrow. exists grp, vi. auto.
  Qed.

  Variable resampling : cgroup R -> list (list (fl R)).
  Variable span : cgroup R -> nat * list nat.
  Variable default_tol : R.
  Variable flipper : egroup (enodes R) -> res (list (list R) * list nat).

  Lemma forced_checked d (P : list (list nat) -> list (list R)) skip_tests tol vs (groups : list (egroup (enodes R)))
      (nodal : lazyf nadj) (facial : lazyf (list (list (fagrp A)))) conforming vd ed fd m0 :
    (1 <= d <= 3)%nat -> make_mesh (Some vs) groups nodal facial conforming vd ed fd = Ok m0 ->
    Forall (fun v => length v = d) vs -> simplices d (length vs) groups -> groups <> [] ->
    (forall g, In g groups -> exists M perm n, flipper g = Ok (M, perm) /\ simplex_flip_permutation d = Ok perm /\
       is_mat n n M /\ matmul n M M = idmat n /\ Forall (fun x => length x = d /\ Forall (fun r => length r = n) x) (eg_nodes g) /\
       is_mat (d + 1) n (P (eg_fvi g)) /\
       (forall j p wj wp y, nth_error perm j = Some p -> nth_error (P (eg_fvi g)) j = Some wj -> nth_error (P (eg_fvi g)) p = Some wp ->
          length y = n -> dot wp (matvec M y) = dot wj y)) ->
    (forall g g', In g groups -> eg_fvi g' = eg_fvi g -> flipper g' = flipper g /\
       resampling (float_group R 0 d d g') = lift2 (P (eg_fvi g)) /\ span (float_group R 0 d d g') = (0%nat, seq 1 d)) ->
    (forall i j g row x, nth_error groups i = Some g -> elem_at groups i j row x ->
       nodes_match (P (eg_fvi g)) vs default_tol row x /\ nodes_match (P (eg_fvi g)) vs tol row x) ->
    (forall i j row x o, elem_at groups i j row x -> edge_det d (0%nat, seq 1 d) vs row o -> o <> 0) ->
    exists m, make_mesh_checked R resampling span default_tol flipper true skip_tests (Tol tol) false 0 d d (Some vs) groups
                nodal facial conforming vd ed fd = Ok m /\
      make_mesh_forced R (fun x => x <? 0) flipper (fun _ => (0%nat, seq 1 d)) (Some vs) groups nodal facial conforming vd ed fd = Ok m.
  Proof.
    intros Hd Hm0 Hvs HS Hne Hfl Hsame Hnm Hnz.
    destruct (forced_spec R d (fun x => x <? 0) flipper (fun g => span (float_group R 0 d d g)) vs groups nodal facial conforming vd ed fd m0) as (m & Hm & Hnel & Hmv & Hfvi & HR & Hold & Hnew);
      [exact Hd| |exact Hm0|exact Hvs|exact HS| | | |].
    { intros x Hx. rewrite olt_iff in Hx. unfold olt. rewrite negb_false_iff. destruct (ole_total R 0 x) as [H|H]; [congruence|].
      apply (ole_add R _ _ (- x)) in H. replace (x + - x) with (@r0 R) in H by ring. now replace (0 + - x) with (- x) in H by ring. }
    { intros g Hg. now destruct (Hsame g g Hg eq_refl) as (_ & _ & H). }
    { intros g Hg. destruct (Hfl g Hg) as (M & perm & n & H1 & H2 & H3 & H4 & H5 & _). exists M, perm, n. repeat (split; [assumption|]).
      apply Forall_forall. intros x Hx. apply (proj2 (proj1 (Forall_forall _ _) H5 x Hx)). }
    { intros g g' Hg E. now destruct (Hsame g g' Hg E). }
    assert (Hforced : make_mesh_forced R (fun x => x <? 0) flipper (fun _ => (0%nat, seq 1 d)) (Some vs) groups nodal facial conforming vd ed fd = Ok m).
    { rewrite <- Hm. unfold make_mesh_forced. rewrite Hm0. cbn [bind].
      match goal with |- bind ?a _ = bind ?b _ => assert (E : a = b); [|now rewrite E] end.
      apply mapM_ext. intros g Hg. destruct (Hsame g g Hg eq_refl) as (_ & _ & Hsp). now rewrite Hsp. }
    assert (Hgrp : forall i grp', nth_error (m_groups m) i = Some grp' -> exists grp, nth_error groups i = Some grp /\ eg_fvi grp' = eg_fvi grp).
    { intros i grp' Hi. assert (E : nth_error (map eg_fvi groups) i = Some (eg_fvi grp')) by (rewrite <- Hfvi, nth_error_map, Hi; reflexivity).
      rewrite nth_error_map in E. destruct (nth_error groups i) as [grp|]; [|discriminate E]. injection E as E. eauto. }
    assert (Hback : forall i j row' x', elem_at (m_groups m) i j row' x' -> exists row x, elem_at groups i j row x).
    { intros i j row' x' (grp' & vi' & Hg' & _ & _ & Hx'). assert (Hn : nth_error (map nelements groups) i = Some (nelements grp')) by (rewrite <- Hnel, nth_error_map, Hg'; reflexivity).
      rewrite nth_error_map in Hn. destruct (nth_error groups i) as [grp|] eqn:Hg; [|discriminate]. cbn in Hn. injection Hn as Hn.
      destruct HS as (HRo & _). eapply elem_at_ex; eauto. rewrite Hn. unfold nelements. apply nth_error_Some. congruence. }
    destruct (forced_fields _ _ _ _ _ _ _ _ _ _ _ _ Hm) as (Hvd & Hed & Hfd & Hno & Hfa).
    assert (Hmne : m_groups m <> []). { intros E. rewrite E in Hnel. destruct groups; [congruence|discriminate Hnel]. }
    (* what is known about the elements of the new mesh *)
    assert (Hel : forall i j row' x', elem_at (m_groups m) i j row' x' -> exists g M perm n row x, nth_error groups i = Some g /\
        flipper g = Ok (M, perm) /\ simplex_flip_permutation d = Ok perm /\ is_mat n n M /\ is_mat (d + 1) n (P (eg_fvi g)) /\
        elem_at groups i j row x /\ length row = (d + 1)%nat /\ length x = d /\ Forall (fun r => length r = n) x /\
        length row' = (d + 1)%nat /\ Forall (fun v => (v < length vs)%nat) row' /\ length x' = d /\ Forall (fun r => length r = n) x' /\
        ((row' = row /\ x' = x) \/ flipped R M perm row x row' x')).
    { intros i j row' x' He'. destruct (Hback _ _ _ _ He') as (row & x & He). pose proof He as (g & vi & Hg & Hvi & Hrow & Hx).
      destruct (Hfl g (nth_error_In _ _ Hg)) as (M & perm & n & F1 & F2 & F3 & F4 & F5 & F6 & F7).
      destruct (proj2 HS _ _ _ _ He) as (Hrl & Hrv). destruct (proj1 (Forall_forall _ _) F5 x (nth_error_In _ _ Hx)) as (Hxl & Hxr).
      destruct (Hold _ _ _ _ He) as (o & row1 & x1 & _ & He1 & Hneg0 & Hneg1). destruct (elem_at_fun _ _ _ _ _ _ _ He1 He') as (-> & ->).
      exists g, M, perm, n, row, x. split; [exact Hg|]. split; [exact F1|]. split; [exact F2|]. split; [exact F3|]. split; [exact F6|].
      split; [exact He|]. split; [exact Hrl|]. split; [exact Hxl|]. split; [exact Hxr|].
      destruct (o <? 0) eqn:Eo.
      - destruct (Hneg1 eq_refl) as ((v0 & v1 & rest & E1 & E2) & (grp & M1 & perm1 & G1 & G2 & G3)).
        assert (grp = g) by congruence. subst grp. assert (M1 = M) by congruence. assert (perm1 = perm) by congruence. subst M1 perm1 row row' x'.
        split; [exact Hrl|]. split.
        + inversion Hrv as [|? ? Hv0 Hr1]; subst. inversion Hr1; subst. constructor; [assumption|]. constructor; assumption.
        + split; [now rewrite map_length|]. split.
          * apply Forall_forall. intros r Hr. apply in_map_iff in Hr as (y & <- & _). rewrite matvec_length. apply F3.
          * right. destruct d as [|d0]; [lia|]. rewrite simplex_perm_ok in F2. injection F2 as <-. split; [reflexivity|]. split; [|reflexivity].
            intros [|[|k]] p Hk; cbn in Hk; [injection Hk as <-; reflexivity..|]. cbn [nth_error].
            assert (Hkl : (k < d0)%nat) by (rewrite <- (seq_length d0 2); apply nth_error_Some; congruence).
            rewrite nth_error_nth' with (d := 0%nat) in Hk by (now rewrite seq_length). injection Hk as <-. now rewrite seq_nth.
      - destruct (Hneg0 eq_refl) as (-> & ->). auto 10. }
    assert (Href : Forall2 (reference resampling span d (length vs)) (cm_groups (float_mesh R 0 d d m)) (els_of (m_groups m))).
    { unfold float_mesh, els_of. cbn [cm_groups]. apply Forall2_intro_nth; [now rewrite !map_length|]. intros i fg e Hfg He.
      rewrite nth_error_map in Hfg, He. destruct (nth_error (m_groups m) i) as [grp'|] eqn:Eg; [|discriminate Hfg]. injection Hfg as <-. injection He as <-.
      destruct (Hgrp _ _ Eg) as (grp & Hg & E). destruct (Hsame grp grp' (nth_error_In _ _ Hg) E) as (_ & Hres & Hsp).
      destruct (Hfl grp (nth_error_In _ _ Hg)) as (M & perm & n & F1 & F2 & F3 & F4 & F5 & (F6l & F6r) & F7).
      destruct (proj1 (Forall_forall _ _) HR grp' (nth_error_In _ _ Eg)) as (vi' & Hvi' & Hlen'). rewrite Hvi'.
      assert (Hin : forall j row', nth_error vi' j = Some row' -> exists x', elem_at (m_groups m) i j row' x').
      { intros j row' Hj. assert (j < length vi')%nat by (apply nth_error_Some; congruence).
        destruct (nth_error (eg_nodes grp') j) as [x'|] eqn:Ex; [|apply nth_error_None in Ex; unfold nelements in Hlen'; lia]. exists x', grp', vi'. auto. }
      assert (Hsame2 : forall j row' x' g2 M2 perm2, elem_at (m_groups m) i j row' x' -> nth_error groups i = Some g2 -> flipper g2 = Ok (M2, perm2) -> M2 = M).
      { intros j row' x' g2 M2 perm2 _ G1 G2. assert (g2 = grp) by congruence. subst g2. pose proof (eq_trans (eq_sym G2) F1) as E2. now injection E2. }
      exists (P (eg_fvi grp)), n. split; [exact Hres|]. split; [intros E0; rewrite E0 in F6l; cbn in F6l; lia|]. split; [exact F6r|]. split.
      - split; cbn [fst snd].
        + apply Forall_forall. intros row' Hr. apply In_nth_error in Hr as (j & Hj). destruct (Hin _ _ Hj) as (x' & He').
          destruct (Hel _ _ _ _ He') as (g2 & M2 & perm2 & n2 & row & x & _ & _ & _ & _ & _ & _ & _ & _ & _ & L1 & L2 & _). rewrite F6l. auto.
        + apply Forall_forall. intros x' Hx. apply In_nth_error in Hx as (j & Hj).
          destruct (nth_error vi' j) as [row'|] eqn:Er. 2:{ apply nth_error_None in Er. assert (Hjn : (j < length (eg_nodes grp'))%nat) by (apply nth_error_Some; intros E0; pose proof (eq_trans (eq_sym Hj) E0) as E1; discriminate E1). unfold nelements in Hlen'. lia. }
          assert (He' : elem_at (m_groups m) i j row' x') by (exists grp', vi'; auto).
          destruct (Hel _ _ _ _ He') as (g2 & M2 & perm2 & n2 & row & x & G1 & G2 & _ & (GM & _) & _ & _ & _ & _ & _ & _ & _ & L3 & L4 & _).
          rewrite (Hsame2 _ _ _ _ _ _ He' G1 G2) in GM. assert (En : n2 = n) by (exact (eq_trans (eq_sym GM) (proj1 F3))). rewrite En in L4. split; [exact L3|exact L4].
      - rewrite Hsp. cbn [fst snd]. rewrite F6l. split; [lia|]. split; [apply seq_length|]. apply Forall_forall. intros k Hk. apply in_seq in Hk. lia. }
    assert (Hpass : forall t, (forall i j g row x, nth_error groups i = Some g -> elem_at groups i j row x -> nodes_match (P (eg_fvi g)) vs t row x) ->
      check_mesh_consistency R resampling span default_tol d (Tol t) false (float_mesh R 0 d d m) = Ok tt).
    { intros t Ht. apply (check_iff R resampling span default_tol d _ vs (els_of (m_groups m)) Hd (exact_float 0 d m vs Hmv Hvs HR Hmne) Href t).
      split; [|split; [|split; [|split]]].
      - intros i j g row' x' P' Hof HP'. destruct (element_of_float 0 d m i j g row' x' HR Hof) as (grp' & Hg' & -> & He').
        destruct (Hgrp _ _ Hg') as (grp & Hg & E). destruct (Hsame grp grp' (nth_error_In _ _ Hg) E) as (_ & Hres & _). rewrite Hres in HP'.
        assert (P' = P (eg_fvi grp)) as ->.
        { clear -HP'. unfold ConsistModel.lift2 in HP'. revert P' HP'. generalize (P (eg_fvi grp)) as Q. induction Q as [|w Q IH]; intros [|w' P'] E; cbn in E; try discriminate E; [reflexivity|].
          injection E as E1 E2. f_equal; [|auto]. clear -E1. revert w' E1. induction w as [|a w IH]; intros [|a' w'] E; cbn in E; try discriminate E; [reflexivity|].
          injection E as -> E. f_equal. auto. }
        destruct (Hel _ _ _ _ He') as (g2 & M & perm & n & row & x & G1 & G2 & G3 & G4 & G5 & He & L1 & L2 & L3 & L4 & L5 & L6 & L7 & Hor).
        assert (g2 = grp) by congruence. subst g2. destruct (Hfl grp (nth_error_In _ _ Hg)) as (M' & perm' & n' & F1 & _ & F3 & _ & _ & _ & F7).
        rewrite G2 in F1. injection F1 as <- <-. assert (n' = n) by (exact (eq_trans (eq_sym (proj1 F3)) (proj1 G4))). subst n'.
        pose proof (Ht i j grp row x Hg He) as Hm'. destruct Hor as [(-> & ->)|Hor]; [exact Hm'|].
        apply (nodes_match_flipped R (P (eg_fvi grp)) M perm vs t row x row' x' n d); auto.
        + destruct d as [|d0]; [lia|]. rewrite simplex_perm_ok in G3. injection G3 as <-. apply simplex_perm_involutive.
        + destruct d as [|d0]; [lia|]. rewrite simplex_perm_ok in G3. injection G3 as <-. cbn [length]. rewrite seq_length. lia.
        + destruct G5. congruence.
      - intros i j g row' x' o Hof Ho. destruct (element_of_float 0 d m i j g row' x' HR Hof) as (grp' & Hg' & -> & He').
        destruct (Hgrp _ _ Hg') as (grp & Hg & E). destruct (Hsame grp grp' (nth_error_In _ _ Hg) E) as (_ & _ & Hsp). rewrite Hsp in Ho.
        destruct (Hnew _ _ _ _ He') as (o' & Ho' & Hn').
        destruct (Hel _ _ _ _ He') as (g2 & M & perm & n & row & x & G1 & G2 & G3 & G4 & G5 & He & L1 & L2 & L3 & L4 & L5 & L6 & L7 & Hor).
        destruct (orientation_edge_det R d vs row' Hd Hvs L4 L5) as (o1 & O1 & D1). assert (o1 = o') by congruence. subst o1.
        pose proof (edge_det_fun R _ _ _ _ _ _ Ho D1) as ->.
        assert (Hne0 : o' <> 0).
        { destruct Hor as [(-> & ->)|Hor]; [eapply Hnz; eauto|].
          destruct (orientation_edge_det R d vs row Hd Hvs L1) as (o0 & O0 & D0); [apply (proj2 HS _ _ _ _ He)|].
          destruct row as [|v0 [|v1 rest]]; cbn [length] in L1; try lia.
          destruct (orientation_swap R d vs v0 v1 rest Hd) as (o2 & O2 & O3); [lia|exact Hvs|apply (proj2 HS _ _ _ _ He)|].
          assert (row' = v1 :: v0 :: rest) as ->.
          { destruct Hor as (Hl & Hrow & _). destruct d as [|d0]; [lia|]. rewrite simplex_perm_ok in G3. injection G3 as <-.
            apply (simplex_flipped_row d0 v0 v1 rest row'); auto; cbn [length] in *; lia. }
          assert (o2 = o0) by congruence. subst o2. assert (o' = - o0) by congruence. subst o'. intros Hz.
          apply (Hnz _ _ _ _ _ He D0). replace o0 with (- - o0) by ring. rewrite Hz. ring. }
        unfold olt in Hn' |- *. rewrite negb_false_iff in Hn'. rewrite negb_true_iff. apply not_true_is_false. intros Hle. apply Hne0. now apply ole_antisym.
      - unfold float_mesh. cbn [cm_groups cm_vdtype]. rewrite Hvd. apply Forall_forall. intros g Hg. apply in_map_iff in Hg as (g0 & <- & _). reflexivity.
      - intros starts nbs H. unfold float_mesh in H. cbn [cm_nodal] in H. destruct (m_nodal m) eqn:En; cbn [lazy_map] in H; try discriminate H. exfalso. eapply Hno; reflexivity.
      - intros fags H. unfold float_mesh in H. cbn [cm_facial] in H. destruct (m_facial m) eqn:En; cbn [lazy_map] in H; try discriminate H. exfalso. eapply Hfa; reflexivity. }
    exists m. split; [|exact Hforced]. unfold make_mesh_checked. rewrite Nat.eqb_refl, Hm. cbn [bind].
    rewrite check_default, (Hpass default_tol) by (intros i j g row x Hg He; exact (proj1 (Hnm i j g row x Hg He))). cbn [bind].
    destruct skip_tests; [reflexivity|]. rewrite (Hpass tol) by (intros i j g row x Hg He; exact (proj2 (Hnm i j g row x Hg He))). reflexivity.
  Qed.
End Forced.
