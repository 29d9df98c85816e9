(** * make_mesh(force_positive_orientation=True): lemmas *)
From Coq Require Import List Arith Bool ZArith Lia.
From Verif Require Import Np NpFacts MeshModel MeshSpec MeshProofs MeshStateModel Lin ProcModel ProcSpec MergeProofs SplitProofs FlipProofs.
Import ListNotations.

Lemma elem_at_fun {E} (groups : list (egroup E)) g i row x row' x' :
  elem_at groups g i row x -> elem_at groups g i row' x' -> row = row' /\ x = x'.
Proof.
  intros (grp & vi & H1 & H2 & H3 & H4) (grp' & vi' & H1' & H2' & H3' & H4').
  assert (grp = grp') by congruence. subst. assert (vi = vi') by congruence. subst. split; congruence.
Qed.

Lemma elem_at_ex {E} (groups : list (egroup E)) g grp i : has_rows groups -> nth_error groups g = Some grp -> i < nelements grp ->
  exists row x, elem_at groups g i row x.
Proof.
  intros HR Hg Hi. unfold has_rows in HR. rewrite Forall_forall in HR. destruct (HR _ (nth_error_In _ _ Hg)) as (vi & Hvi & Hl).
  destruct (nth_error vi i) as [row|] eqn:Hr; [|apply nth_error_None in Hr; lia].
  destruct (nth_error (eg_nodes grp) i) as [x|] eqn:Hx; [|apply nth_error_None in Hx; unfold nelements in Hi; lia].
  exists row, x, grp, vi. auto.
Qed.

Section Forced.
  Variable R : cring.
  Context {A : Type}.
  Notation en := (enodes R).

  Lemma forced_spec d (negative : R -> bool) flipper indices vs (groups : list (egroup en))
      (nodal : lazyf nadj) (facial : lazyf (list (list (fagrp A)))) conforming vd ed fd m0 :
    1 <= d <= 3 -> (forall x : R, negative x = true -> negative (ropp x) = false) ->
    make_mesh (Some vs) groups nodal facial conforming vd ed fd = Ok m0 ->
    Forall (fun v => length v = d) vs -> simplices d (length vs) groups ->
    (forall g, In g groups -> indices g = (0, seq 1 d)) ->
    (forall g, In g groups -> exists M perm n, flipper g = Ok (M, perm) /\ simplex_flip_permutation d = Ok perm /\
       is_mat n n M /\ matmul n M M = idmat (R := R) n /\ Forall (Forall (fun r => length r = n)) (eg_nodes g)) ->
    (forall g g', In g groups -> eg_fvi g' = eg_fvi g -> flipper g' = flipper g) ->
    exists m, make_mesh_forced R negative flipper indices (Some vs) groups nodal facial conforming vd ed fd = Ok m /\
      map nelements (m_groups m) = map nelements groups /\ m_vertices m = Some vs /\
      map eg_fvi (m_groups m) = map eg_fvi groups /\ has_rows (m_groups m) /\
      (forall g i row x, elem_at groups g i row x ->
         exists o row' x', element_orientation R 0 (seq 1 d) vs row = Ok o /\ elem_at (m_groups m) g i row' x' /\
           (negative o = false -> row' = row /\ x' = x) /\
           (negative o = true -> (exists v0 v1 rest, row = v0 :: v1 :: rest /\ row' = v1 :: v0 :: rest) /\
             exists grp M perm, nth_error groups g = Some grp /\ flipper grp = Ok (M, perm) /\ x' = map (matvec M) x)) /\
      (forall g i row x, elem_at (m_groups m) g i row x ->
         exists o, element_orientation R 0 (seq 1 d) vs row = Ok o /\ negative o = false).
  Proof.
    intros Hd Hneg Hm0 HV (HR & HS) Hind Hfl Hcong. unfold make_mesh_forced. rewrite Hm0. cbn [bind].
    destruct d as [|d0]; [lia|]. set (d := S d0) in *.
    assert (Hgroups : m_groups m0 = groups /\ m_vertices m0 = Some vs).
    { unfold make_mesh in Hm0. apply bind_ok in Hm0 as (f & _ & Hm0). injection Hm0 as <-. auto. }
    destruct Hgroups as (Hg0 & Hv0).
    assert (Hrows : forall g grp, nth_error groups g = Some grp -> exists vi, eg_vi grp = Some vi /\ length vi = nelements grp /\
              forall i row, nth_error vi i = Some row -> exists x, elem_at groups g i row x).
    { intros g grp Hg. unfold has_rows in HR. rewrite Forall_forall in HR. destruct (HR _ (nth_error_In _ _ Hg)) as (vi & Hvi & Hl).
      exists vi. split; auto. split; auto. intros i row Hrow.
      assert (Hi : i < nelements grp) by (rewrite <- Hl; apply nth_error_Some; congruence).
      destruct (nth_error (eg_nodes grp) i) as [x|] eqn:Hx; [|apply nth_error_None in Hx; unfold nelements in Hi; lia].
      exists x, grp, vi. auto. }
    assert (Hor : forall g i row x, elem_at groups g i row x -> exists v0 v1 rest o, row = v0 :: v1 :: rest /\ length rest = d0 /\
              element_orientation R 0 (seq 1 d) vs row = Ok o /\ element_orientation R 0 (seq 1 d) vs (v1 :: v0 :: rest) = Ok (ropp o)).
    { intros g i row x He. destruct (HS _ _ _ _ He) as (Hl & Hr). destruct row as [|v0 [|v1 rest]]; cbn [length] in Hl; try (unfold d in Hl; lia).
      destruct (orientation_swap R d vs v0 v1 rest Hd) as (o & O1 & O2); [unfold d in *; lia|exact HV|exact Hr|].
      exists v0, v1, rest, o. split; [reflexivity|]. split; [unfold d in *; lia|]. auto. }
    set (fl := fun g : egroup en => match eg_vi g with None => Err TypeError
        | Some vi => mapM (fun row => o <- element_orientation R (fst (indices g)) (snd (indices g)) vs row ;; Ok (negative o)) vi end).
    assert (Hflags : exists fs, mapM fl groups = Ok fs).
    { apply mapM_total. intros g Hin. apply In_nth_error in Hin as (k & Hk). destruct (Hrows _ _ Hk) as (vi & Hvi & _ & Hrow).
      unfold fl. rewrite Hvi, (Hind g (nth_error_In _ _ Hk)). cbn [fst snd]. apply mapM_total. intros row Hin. apply In_nth_error in Hin as (i & Hi).
      destruct (Hrow _ _ Hi) as (x & He). destruct (Hor _ _ _ _ He) as (v0 & v1 & rest & o & _ & _ & O1 & _). rewrite O1. cbn [bind]. eauto. }
    destruct Hflags as (fs & Hfs). rewrite Hfs. cbn [bind].
    assert (Hsizes : map (@length bool) fs = map nelements groups).
    { apply nth_error_ext'. intros k. rewrite !nth_error_map. destruct (nth_error groups k) as [g|] eqn:Hk.
      - destruct (mapM_nth _ _ _ _ _ Hfs Hk) as (f & Hf & Heq). rewrite Hf. cbn. f_equal.
        destruct (Hrows _ _ Hk) as (vi & Hvi & Hl & _). unfold fl in Heq. rewrite Hvi in Heq. rewrite (mapM_length _ _ _ Heq). exact Hl.
      - apply nth_error_None in Hk. assert (Hn : nth_error fs k = None) by (apply nth_error_None; rewrite (mapM_length _ _ _ Hfs); lia).
        rewrite Hn. reflexivity. }
    assert (Hflag : forall g i row x o, elem_at groups g i row x -> element_orientation R 0 (seq 1 d) vs row = Ok o ->
              nth_error (concat fs) (base (map nelements groups) g + i) = Some (negative o)).
    { intros g i row x o (grp & vi & Hg & Hvi & Hrow & Hx) Ho. rewrite <- Hsizes.
      destruct (mapM_nth _ _ _ _ _ Hfs Hg) as (f & Hf & Heq). apply concat_nth with (l := f); auto.
      unfold fl in Heq. rewrite Hvi, (Hind grp (nth_error_In _ _ Hg)) in Heq. cbn [fst snd] in Heq.
      destruct (mapM_nth _ _ _ _ _ Heq Hrow) as (b & Hb & Hbe). rewrite Ho in Hbe. cbn [bind] in Hbe. congruence. }
    destruct (perform_flips_spec R flipper (concat fs) m0 vs) as (m & P1 & P2 & P3 & P4 & P5 & P6 & P7 & _).
    { exact Hv0. }
    { rewrite Hg0, <- Hsizes. symmetry. apply sum_map_length_concat. }
    { rewrite Hg0. apply Forall_forall. intros g Hin. destruct (Hfl g Hin) as (M & perm & n & F1 & F2 & F3 & F4 & F5).
      exists M, perm, n. unfold d in F2. rewrite simplex_perm_ok in F2. injection F2 as <-.
      split; [exact F1|]. split; [apply simplex_perm_involutive|]. split; [|auto].
      apply In_nth_error in Hin as (k & Hk). destruct (Hrows _ _ Hk) as (vi & Hvi & Hl & Hrow). exists vi. split; auto. split; auto.
      apply Forall_forall. intros row Hin. apply In_nth_error in Hin as (i & Hi). destruct (Hrow _ _ Hi) as (x & He).
      destruct (HS _ _ _ _ He) as (Hlr & _). rewrite Hlr. unfold d. cbn [length]. rewrite seq_length. lia. }
    { intros g g'. rewrite Hg0. apply Hcong. }
    rewrite Hg0 in *. exists m. split; [exact P1|]. split; [exact P4|]. split; [exact P2|]. split; [exact P5|]. split; [exact P6|].
    assert (Hmain : forall g i row x, elem_at groups g i row x ->
         exists o row' x', element_orientation R 0 (seq 1 d) vs row = Ok o /\ elem_at (m_groups m) g i row' x' /\
           (negative o = false -> row' = row /\ x' = x) /\
           (negative o = true -> (exists v0 v1 rest, row = v0 :: v1 :: rest /\ row' = v1 :: v0 :: rest) /\
             exists grp M perm, nth_error groups g = Some grp /\ flipper grp = Ok (M, perm) /\ x' = map (matvec M) x)).
    { intros g i row x He. destruct (Hor _ _ _ _ He) as (v0 & v1 & rest & o & Hrow & Hl & O1 & O2).
      destruct (P7 g i (negative o) row x He (Hflag _ _ _ _ _ He O1)) as (row' & x' & E1 & E2 & E3).
      exists o, row', x'. split; [exact O1|]. split; [exact E1|]. split; [exact E3|].
      intros Ht. destruct (E2 Ht) as (grp & M & perm & F1 & F2 & (F3 & F4 & F5)).
      destruct (Hfl grp (nth_error_In _ _ F1)) as (M' & perm' & n & G1 & G2 & _). pose proof F2 as F2'. rewrite G1 in F2. injection F2 as <- <-.
      unfold d in G2. rewrite simplex_perm_ok in G2. injection G2 as <-. split; [|exists grp; eexists; eexists; split; [exact F1|]; split; [exact F2'|exact F5]].
      exists v0, v1, rest. split; [exact Hrow|].
      subst row. cbn [length] in F3. apply (simplex_flipped_row d0 v0 v1 rest row'); auto. lia. }
    split; [exact Hmain|].
    intros g i row' x' He'.
    assert (Hex : exists row x, elem_at groups g i row x).
    { destruct He' as (grp' & vi' & Hg' & _ & _ & Hx'). assert (Hn : nth_error (map nelements groups) g = Some (nelements grp')) by (rewrite <- P4, nth_error_map, Hg'; reflexivity).
      rewrite nth_error_map in Hn. destruct (nth_error groups g) as [grp|] eqn:Hg; [|discriminate]. cbn in Hn. injection Hn as Hn.
      eapply elem_at_ex; eauto. rewrite Hn. unfold nelements. apply nth_error_Some. congruence. }
    destruct Hex as (row & x & He). destruct (Hor _ _ _ _ He) as (v0 & v1 & rest & o & Hrow & Hl & O1 & O2).
    destruct (Hmain _ _ _ _ He) as (o1 & row1 & x1 & M1 & M2 & M3 & M4). assert (o1 = o) by congruence. subst o1.
    destruct (elem_at_fun _ _ _ _ _ _ _ M2 He') as (-> & ->).
    destruct (negative o) eqn:Hn.
    - destruct (M4 eq_refl) as ((w0 & w1 & r & W1 & W2) & _). rewrite Hrow in W1. injection W1 as <- <- <-. subst row'.
      exists (ropp o). split; [exact O2|]. apply Hneg. exact Hn.
    - destruct (M3 eq_refl) as (-> & ->). exists o. auto.
  Qed.
End Forced.
