(** * merge_disjoint_meshes: lemmas *)
From Coq Require Import List Arith Bool ZArith Lia Permutation.
From Verif Require Import Np NpFacts MeshModel MeshSpec MeshProofs MeshStateModel Lin ProcModel ProcSpec.
Import ListNotations.

Lemma running_length b sizes : length (running b sizes) = length sizes.
Proof. revert b; induction sizes as [|n ns IH]; intros b; cbn; auto. Qed.

Lemma running_nth b sizes k : k < length sizes -> nth_error (running b sizes) k = Some (b + base sizes k).
Proof.
  revert b k; induction sizes as [|n ns IH]; intros b [|k] H; cbn [length] in H; try lia.
  - cbn. f_equal. lia.
  - cbn [running nth_error]. rewrite IH by lia. f_equal. unfold base. cbn [firstn sum fold_right]. unfold sum. lia.
Qed.

Lemma concat_nth {X} (ls : list (list X)) k l i x :
  nth_error ls k = Some l -> nth_error l i = Some x ->
  nth_error (concat ls) (base (map (@length X) ls) k + i) = Some x.
Proof.
  revert k; induction ls as [|l0 ls IH]; intros [|k] Hk Hi; cbn [nth_error] in Hk; try discriminate.
  - injection Hk as ->. cbn. rewrite nth_error_app1; auto. apply nth_error_Some. congruence.
  - cbn [map concat]. unfold base. cbn [firstn sum fold_right].
    rewrite nth_error_app2 by lia. specialize (IH _ Hk Hi). unfold base, sum in IH.
    match goal with |- nth_error _ ?n = _ => replace n with (fold_right Nat.add 0 (firstn k (map (@length X) ls)) + i) by lia end.
    exact IH.
Qed.

Lemma elements_length {E} (groups : list (egroup E)) : has_rows groups ->
  length (elements groups) = sum (map nelements groups).
Proof.
  unfold elements, has_rows. induction groups as [|g gs IH]; intros H; [reflexivity|].
  inversion H as [|? ? (vi & Hvi & Hl) H']; subst. cbn [map concat sum fold_right]. rewrite app_length, IH; auto.
  rewrite Hvi, combine_length, Hl. unfold nelements at 1 2. unfold sum. unfold nelements. lia.
Qed.

Lemma elements_app {E} (g1 g2 : list (egroup E)) : elements (g1 ++ g2) = elements g1 ++ elements g2.
Proof. unfold elements. now rewrite map_app, concat_app. Qed.

Definition shift_elem {E} (b : nat) (rx : list nat * E) : list nat * E := (map (fun v => v + b) (fst rx), snd rx).

Lemma combine_map_l {X Y W} (f : X -> W) (l : list X) (l' : list Y) :
  combine (map f l) l' = map (fun p => (f (fst p), snd p)) (combine l l').
Proof. revert l'; induction l as [|x l IH]; intros [|y l']; cbn; auto. now rewrite IH. Qed.

Lemma combine_app {X Y} (l1 l2 : list X) (r1 r2 : list Y) : length l1 = length r1 ->
  combine (l1 ++ l2) (r1 ++ r2) = combine l1 r1 ++ combine l2 r2.
Proof. revert r1; induction l1 as [|x l1 IH]; intros [|y r1] H; cbn in *; try lia; auto. f_equal. apply IH. lia. Qed.

Section Merge.
  Context {E A V : Type}.
  Notation meshT := (mesh E A V).

  (** the shifted groups of one mesh *)
  Definition shift_group (b : nat) (g : egroup E) : egroup E :=
    mk_egroup (option_map (map (map (fun v => v + b))) (eg_vi g)) (eg_nodes g) (eg_fvi g).

  Lemma shifted_ok b (g : egroup E) vi : eg_vi g = Some vi -> shifted_vi b g = Ok (map (map (fun v => v + b)) vi).
  Proof. unfold shifted_vi. now intros ->. Qed.

  Lemma has_rows_shift b gs : has_rows gs -> has_rows (map (shift_group b) gs).
  Proof.
    unfold has_rows. intros H. apply Forall_map. eapply Forall_impl; [|exact H].
    intros g (vi & Hvi & Hl). exists (map (map (fun v => v + b)) vi). cbn. rewrite Hvi, map_length. auto.
  Qed.

  Lemma elements_shift b gs : elements (map (shift_group b) gs) = map (shift_elem b) (elements gs).
  Proof.
    unfold elements. rewrite map_map, concat_map, map_map. f_equal. apply map_ext. intros g.
    cbn [shift_group eg_vi eg_nodes]. destruct (eg_vi g) as [vi|]; [|reflexivity]. cbn [option_map]. apply combine_map_l.
  Qed.

  (** all groups of the meshes with their vertex base *)
  Definition tagged_groups (ms : list meshT) (bases : list nat) : list (nat * egroup E) :=
    flat_map (fun mb : meshT * nat => map (fun g => (snd mb, g)) (m_groups (fst mb))) (combine ms bases).

  Definition merged_groups (ms : list meshT) (bases : list nat) : list (egroup E) :=
    map (fun bg => shift_group (fst bg) (snd bg)) (tagged_groups ms bases).

  Lemma tagged_rows ms bases : Forall (fun m => has_rows (m_groups m)) ms ->
    Forall (fun bg => exists vi, eg_vi (snd bg) = Some vi /\ length vi = nelements (snd bg)) (tagged_groups ms bases).
  Proof.
    intros H. apply Forall_forall. intros (b, g) Hin. unfold tagged_groups in Hin. apply in_flat_map in Hin as ((m, b') & Hm & Hg).
    apply in_map_iff in Hg as (g' & Heq & Hg). injection Heq as -> ->. apply in_combine_l in Hm.
    rewrite Forall_forall in H. specialize (H _ Hm). unfold has_rows in H. rewrite Forall_forall in H. apply H. exact Hg.
  Qed.

  Lemma merged_has_rows ms bases : Forall (fun m => has_rows (m_groups m)) ms -> has_rows (merged_groups ms bases).
  Proof.
    intros H. pose proof (tagged_rows ms bases H) as HT. unfold has_rows, merged_groups. apply Forall_map.
    eapply Forall_impl; [|exact HT]. intros (b, g) (vi & Hvi & Hl). cbn [snd fst] in *.
    exists (map (map (fun v => v + b)) vi). cbn. rewrite Hvi, map_length. auto.
  Qed.

  Lemma merged_elements ms bases : length bases = length ms ->
    elements (merged_groups ms bases) = concat (map2 (fun m b => map (shift_elem b) (elements (m_groups m))) ms bases).
  Proof.
    revert bases; induction ms as [|m ms IH]; intros [|b bases] H; cbn [length] in H; try lia; [reflexivity|].
    unfold merged_groups, tagged_groups in *. cbn [combine flat_map map2 concat].
    rewrite map_app, elements_app, IH by lia. f_equal.
    cbn [fst snd]. rewrite map_map. cbn [fst snd]. apply elements_shift.
  Qed.

  Lemma merged_nelements ms bases : length bases = length ms ->
    map nelements (merged_groups ms bases) = concat (map (fun m => map nelements (m_groups m)) ms) /\
    map eg_fvi (merged_groups ms bases) = concat (map (fun m => map eg_fvi (m_groups m)) ms) /\
    map eg_nodes (merged_groups ms bases) = concat (map (fun m => map eg_nodes (m_groups m)) ms).
  Proof.
    revert bases; induction ms as [|m ms IH]; intros [|b bases] H; cbn [length] in H; try lia; [auto|].
    unfold merged_groups, tagged_groups in *. cbn [combine flat_map map concat].
    destruct (IH bases ltac:(lia)) as (I1 & I2 & I3).
    rewrite !map_app, I1, I2, I3. cbn [fst snd]. rewrite !map_map. auto.
  Qed.

  Lemma sum_concat (ls : list (list nat)) : sum (concat ls) = sum (map sum ls).
  Proof. induction ls as [|l ls IH]; [reflexivity|]. cbn [concat map]. rewrite sum_app, IH. reflexivity. Qed.

  (** the loop building separate groups *)
  Lemma separate_ok ms bases : Forall (fun m => has_rows (m_groups m)) ms ->
    mapM (fun bg => vi <- shifted_vi (fst bg) (snd bg) ;; Ok (mk_egroup (Some vi) (eg_nodes (snd bg)) (eg_fvi (snd bg))))
         (tagged_groups ms bases) = Ok (merged_groups ms bases).
  Proof.
    intros H. pose proof (tagged_rows ms bases H) as HT. unfold merged_groups. revert HT.
    generalize (tagged_groups ms bases) as T. clear.
    induction T as [|(b, g) T IH]; intros HT; [reflexivity|]. inversion HT as [|? ? (vi & Hvi & _) HT']; subst. cbn [fst snd] in *.
    cbn [mapM fst snd map]. rewrite (shifted_ok _ _ _ Hvi). cbn [bind]. rewrite IH by auto. cbn [bind].
    unfold shift_group. rewrite Hvi. reflexivity.
  Qed.

  Lemma single_ok (T : list (nat * egroup E)) fvi :
    Forall (fun bg => exists vi, eg_vi (snd bg) = Some vi /\ length vi = nelements (snd bg)) T ->
    exists vis, mapM (fun bg => shifted_vi (fst bg) (snd bg)) T = Ok vis /\
      let g := mk_egroup (Some (concat vis)) (concat (map (fun bg => eg_nodes (snd bg)) T)) fvi in
      elements [g] = elements (map (fun bg => shift_group (fst bg) (snd bg)) T) /\
      length (concat vis) = nelements g.
  Proof.
    induction T as [|(b, g) T IH]; intros HT.
    - exists []. auto.
    - inversion HT as [|? ? (vi & Hvi & Hl) HT']; subst. cbn [fst snd] in *.
      destruct (IH HT') as (vis & Hvis & He & Hle).
      exists (map (map (fun v => v + b)) vi :: vis). cbn [mapM fst snd]. rewrite (shifted_ok _ _ _ Hvi). cbn [bind].
      rewrite Hvis. cbn [bind]. split; [reflexivity|]. unfold elements in *. cbn [map concat eg_vi eg_nodes fst snd shift_group] in *.
      rewrite app_nil_r in *. cbv zeta in *. rewrite Hvi. cbn [option_map]. split.
      + rewrite combine_app by (rewrite map_length; exact Hl). f_equal. exact He.
      + unfold nelements in *. cbn [eg_nodes] in *. rewrite !app_length, map_length. lia.
  Qed.

  Lemma vertices_ok (ms : list meshT) vss :
    Forall2 (fun m vs => m_vertices m = Some vs) ms vss ->
    mapM (fun m => match m_vertices m with Some vs => Ok vs | None => Err ValueError end) ms = Ok vss /\
    map nvert ms = map (@length V) vss.
  Proof.
    induction 1 as [|m vs ms vss H HF (IH1 & IH2)]; [auto|]. cbn [mapM map]. rewrite H. cbn [bind]. rewrite IH1. cbn [bind].
    unfold nvert at 1. rewrite H, IH2. auto.
  Qed.

  Lemma merge_spec (adim : meshT -> nat) same_kind (single : bool) (ms : list meshT) :
    ms <> [] -> (forall m m', In m ms -> In m' ms -> adim m = adim m') ->
    (forall m, In m ms -> m_vertices m <> None /\ has_rows (m_groups m)) ->
    (single = true -> (exists m, In m ms /\ m_groups m <> []) /\
       forall m m' g g', In m ms -> In m' ms -> In g (m_groups m) -> In g' (m_groups m') -> same_kind g g' = true) ->
    exists m, merge_disjoint_meshes adim same_kind single ms = Ok m /\
      disjoint_union ms m /\
      (single = false -> map nelements (m_groups m) = concat (map (fun mk => map nelements (m_groups mk)) ms) /\
         map eg_fvi (m_groups m) = concat (map (fun mk => map eg_fvi (m_groups mk)) ms)) /\
      (single = true -> exists g, m_groups m = [g]) /\
      m_conforming m = Some (forallb (fun mk => truthy (m_conforming mk)) ms) /\
      m_nodal m = (if forallb (fun mk => is_pending (m_nodal mk)) ms && forallb (fun mk => truthy (m_conforming mk)) ms
                   then Pending else Unavailable) /\
      m_facial m = (if forallb (fun mk => is_pending (m_facial mk)) ms && forallb (fun mk => truthy (m_conforming mk)) ms
                   then Pending else Unavailable).
  Proof.
    intros Hne Hdim Hms Hsing.
    assert (Hvss : exists vss, Forall2 (fun m vs => m_vertices m = Some vs) ms vss).
    { clear -Hms. induction ms as [|m ms IH]; [exists []; constructor|].
      destruct IH as (vss & Hvss). { intros m' Hm'. apply Hms. now right. }
      destruct (Hms m (or_introl eq_refl)) as (Hv & _). destruct (m_vertices m) as [vs|] eqn:Hm; [|congruence].
      exists (vs :: vss). constructor; auto. }
    destruct Hvss as (vss & HF). destruct (vertices_ok _ _ HF) as (Hvert & Hnv).
    assert (HR : Forall (fun m => has_rows (m_groups m)) ms) by (apply Forall_forall; intros m Hm; apply Hms; auto).
    unfold merge_disjoint_meshes. destruct ms as [|m0 ms0] eqn:Ems; [congruence|]. rewrite <- Ems in *.
    assert (Hg : forallb (fun m => adim m =? adim m0) ms = true).
    { apply forallb_forall. intros m Hm. apply Nat.eqb_eq. apply Hdim; auto. rewrite Ems. now left. }
    rewrite Hg. cbn [guard bind]. rewrite Hvert. cbn [bind]. cbv zeta.
    set (bases := running 0 (map (@length V) vss)).
    assert (Hbl : length bases = length ms).
    { unfold bases. rewrite running_length, map_length. symmetry. eapply Forall2_length'; eauto. }
    assert (Hb : forall k mk, nth_error ms k = Some mk -> nth_error bases k = Some (base (map nvert ms) k)).
    { intros k mk Hk. unfold bases. rewrite <- Hnv, running_nth; [reflexivity|]. rewrite map_length. apply nth_error_Some. congruence. }
    fold (tagged_groups ms bases).
    set (elems := concat (map2 (fun m b => map (shift_elem b) (elements (m_groups m))) ms bases)).
    assert (Helems : length elems = sum (map nelem ms) /\
              forall k mk e row x, nth_error ms k = Some mk -> nth_error (elements (m_groups mk)) e = Some (row, x) ->
                nth_error elems (base (map nelem ms) k + e) = Some (map (fun v => v + base (map nvert ms) k) row, x)).
    { assert (Hlens : map (@length _) (map2 (fun m b => map (shift_elem b) (elements (m_groups m))) ms bases) = map nelem ms).
      { clearbody bases. clear -Hbl HR. revert bases Hbl. induction ms as [|m ms IH]; intros [|b bases] H; cbn [length] in H; try lia; [reflexivity|].
        inversion HR; subst. cbn [map2 map]. rewrite IH by (auto; lia). f_equal.
        rewrite map_length. apply elements_length. auto. }
      split.
      - unfold elems. rewrite <- Hlens. symmetry. apply sum_map_length_concat.
      - intros k mk e row x Hk He. unfold elems. rewrite <- Hlens.
        apply concat_nth with (l := map (shift_elem (base (map nvert ms) k)) (elements (m_groups mk))).
        + apply (map2_nth (fun m b => map (shift_elem b) (elements (m_groups m)))); auto. eapply Hb; eauto.
        + rewrite nth_error_map, He. reflexivity. }
    destruct Helems as (Hel & Hat).
    assert (Hgroups : exists gs,
      (if single then
             match tagged_groups ms bases with
             | [] => Err ValueError
             | (_, ref) :: rest =>
                 _ <- guard (forallb (fun bg => same_kind (snd bg) ref) rest) ValueError ;;
                 vis <- mapM (fun bg => shifted_vi (fst bg) (snd bg)) (tagged_groups ms bases) ;;
                 Ok [mk_egroup (Some (concat vis)) (concat (map (fun bg => eg_nodes (snd bg)) (tagged_groups ms bases))) (eg_fvi ref)]
             end
           else
             mapM (fun bg => vi <- shifted_vi (fst bg) (snd bg) ;;
                             Ok (mk_egroup (Some vi) (eg_nodes (snd bg)) (eg_fvi (snd bg)))) (tagged_groups ms bases)) = Ok gs /\
      elements gs = elems /\ has_rows gs /\
      (single = false -> gs = merged_groups ms bases) /\ (single = true -> exists g, gs = [g])).
    { destruct single.
      - destruct Hsing as ((mm & Hmm & Hmg) & Hsame); [reflexivity|].
        pose proof (tagged_rows ms bases HR) as HT.
        assert (Hsub : forall b g, In (b, g) (tagged_groups ms bases) -> exists m, In m ms /\ In g (m_groups m)).
        { intros b g Hin. unfold tagged_groups in Hin. apply in_flat_map in Hin as ((m, b') & Hm & Hg').
          apply in_map_iff in Hg' as (g' & Heq & Hg'). injection Heq as _ ->. apply in_combine_l in Hm. eauto. }
        assert (HTne : tagged_groups ms bases <> []).
        { apply In_nth_error in Hmm as (k & Hk). pose proof (Hb _ _ Hk) as Hbk.
          destruct (m_groups mm) as [|g gs] eqn:Hgs; [congruence|].
          intros HT0. assert (In (base (map nvert ms) k, g) []); [|contradiction]. rewrite <- HT0.
          unfold tagged_groups. apply in_flat_map. exists (mm, base (map nvert ms) k). split.
          - clearbody bases. clear -Hk Hbk Hbl. revert Hbk. generalize (base (map nvert ms) k) as q. intros q Hbk. revert bases k Hk Hbk Hbl. induction ms as [|m ms IH]; intros [|b bases] [|k] H1 H2 H3; cbn in *; try discriminate.
            + injection H1 as ->. injection H2 as ->. now left.
            + right. eapply IH; eauto; lia.
          - cbn [fst snd]. rewrite Hgs. now left. }
        destruct (tagged_groups ms bases) as [|(b0, ref) rest] eqn:HTe; [congruence|].
        assert (Hk : forallb (fun bg => same_kind (snd bg) ref) rest = true).
        { apply forallb_forall. intros (b, g) Hin. cbn.
          destruct (Hsub b g) as (m1 & Hm1 & Hg1); [now right|]. destruct (Hsub b0 ref) as (m2 & Hm2 & Hg2); [now left|].
          eapply Hsame; [exact Hm1|exact Hm2|exact Hg1|exact Hg2]. }
        rewrite Hk. cbn [guard bind]. rewrite <- HTe in *.
        destruct (single_ok (tagged_groups ms bases) (eg_fvi ref) HT) as (vis & Hvis & He & Hle).
        rewrite Hvis. cbn [bind]. eexists. split; [reflexivity|]. split.
        + etransitivity; [exact He|]. apply merged_elements; auto.
        + split; [|split; [discriminate|intros _; eauto]].
          repeat constructor. eexists. split; [reflexivity|]. exact Hle.
      - exists (merged_groups ms bases). split; [apply separate_ok; auto|]. split; [apply merged_elements; auto|].
        split; [apply merged_has_rows; auto|]. split; [auto|discriminate]. }
    destruct Hgroups as (gs & Hgs & Hge & Hgr & Hgf & Hgt). rewrite Hgs. cbn [bind].
    unfold make_mesh. cbn [truthy].
    set (conf := forallb (fun m => truthy (m_conforming m)) ms).
    assert (Hneg : forall X (f : meshT -> lazyf X), existsb (fun m => negb (is_pending (f m))) ms = negb (forallb (fun m => is_pending (f m)) ms)).
    { intros X f. clear. induction ms as [|m ms IH]; [reflexivity|]. cbn [existsb forallb]. rewrite IH. now destruct (is_pending (f m)). }
    rewrite (Hneg _ m_nodal), (Hneg _ m_facial).
    assert (Hfac : none_to_false match conf with true => true | false => false end
        (if negb (forallb (fun m => is_pending (m_facial m)) ms) then Unavailable else Pending : lazyf (list (list (fagrp A))))
        = (if forallb (fun m => is_pending (m_facial m)) ms && conf then Pending else Unavailable)).
    { destruct (forallb (fun m => is_pending (m_facial m)) ms), conf; reflexivity. }
    rewrite Hfac.
    assert (Hnod : none_to_false match conf with true => true | false => false end
        (if negb (forallb (fun m => is_pending (m_nodal m)) ms) then Unavailable else Pending : lazyf nadj)
        = (if forallb (fun m => is_pending (m_nodal m)) ms && conf then Pending else Unavailable)).
    { destruct (forallb (fun m => is_pending (m_nodal m)) ms), conf; reflexivity. }
    rewrite Hnod.
    exists (mk_mesh gs (Some (concat vss)) (Some conf)
      (if forallb (fun m => is_pending (m_nodal m)) ms && conf then Pending else Unavailable)
      (if forallb (fun m => is_pending (m_facial m)) ms && conf then Pending else Unavailable) 0 0 0).
    split. { destruct (forallb (fun m => is_pending (m_facial m)) ms && conf); reflexivity. }
    cbn [m_groups m_vertices m_conforming m_nodal m_facial].
    split; [|split; [|split; [|auto]]].
    - split; unfold nelem, nvert; cbn [m_groups m_vertices].
      + auto.
      + rewrite <- elements_length by auto. rewrite Hge. exact Hel.
      + fold (@nvert E A V). change (map (fun m => match m_vertices m with Some vs => length vs | None => 0 end) ms) with (map nvert ms).
        rewrite Hnv. symmetry. apply sum_map_length_concat.
      + intros k mk e row x Hk He. rewrite Hge. exact (Hat k mk e row x Hk He).
      + intros k mk vsk vs v x Hk Hvk Hv Hx. injection Hv as <-.
        change (map (fun m => match m_vertices m with Some vs => length vs | None => 0 end) ms) with (map nvert ms).
        rewrite Hnv, Nat.add_comm. apply concat_nth with (l := vsk); auto.
        destruct (Forall2_nth_error _ _ _ _ _ HF Hk) as (vs' & Hvs' & Heq). congruence.
    - intros Hs. rewrite (Hgf Hs). destruct (merged_nelements ms bases Hbl) as (H1 & H2 & _). auto.
    - auto.
  Qed.
End Merge.
