(** * ConsistMainProofs: what check_mesh_consistency accepts. *)
From Coq Require Import List Arith Bool ZArith Lia Ring.
From Verif Require Import Np NpFacts MeshModel MeshStateModel Lin Ord ProcModel ProcSpec ConsistModel ConsistSpec ConsistProofs.
Import ListNotations.

Lemma combine_nth_iff {X Y} (l : list X) (l' : list Y) j x y :
  nth_error (combine l l') j = Some (x, y) <-> nth_error l j = Some x /\ nth_error l' j = Some y.
Proof.
  revert l' j. induction l as [|a l IH]; intros [|b l'] [|j]; cbn; try (split; [intros H; discriminate H|intros (H1 & H2); congruence]).
  - split; [intros [= <- <-]; auto|intros ([= <-] & [= <-]); reflexivity].
  - apply IH.
Qed.

(** a check that returns or raises an InconsistentMeshError *)
Definition decides (r : res unit) : Prop := r = Ok tt \/ exists e, r = Err e /\ is_inconsistent_error e = true.

Lemma decides_bind r k : decides r -> decides k -> decides (_ <- r ;; k).
Proof. intros [->|(e & -> & He)] Hk; cbn [bind]; [exact Hk|right; eauto]. Qed.
Lemma decides_guard b e : is_inconsistent_error e = true -> decides (guard b e).
Proof. intros He. destruct b; [now left|right; cbn; eauto]. Qed.
Lemma decides_mapM {X} (f : X -> res unit) l : (forall x, In x l -> decides (f x)) -> decides (_ <- mapM f l ;; Ok tt).
Proof.
  induction l as [|x l IH]; intros H; [now left|]. cbn [mapM]. destruct (H x (or_introl eq_refl)) as [->|(e & -> & He)]; cbn [bind].
  - destruct IH as [E|(e & E & He)]; [intros; apply H; now right| |]; destruct (mapM f l); cbn [bind] in *; try discriminate E; [now left|].
    right. exists e0. injection E as ->. auto.
  - right. eauto.
Qed.

Section Main.
  Variable R : ocring.
  Add Ring Rcm : (rth R).
  Local Open Scope cring_scope.
  Local Notation lift2 := (lift2 R).

  Lemma numbers_lift (p : list R) : numbers R (map Some p) = Some p.
  Proof. induction p as [|x p IH]; [reflexivity|]. cbn [map numbers]. now rewrite IH. Qed.
  Lemma numbers2_lift (ps : list (list R)) : numbers2 R (lift2 ps) = Some ps.
  Proof. unfold ConsistModel.lift2. induction ps as [|p ps IH]; [reflexivity|]. cbn [map numbers2]. now rewrite numbers_lift, IH. Qed.

  Lemma signed_volume_det d (us : list (list R)) : (1 <= d <= 3)%nat -> length us = d -> Forall (fun u => length u = d) us ->
    signed_volume R us = Ok (det R d us).
  Proof.
    intros Hd Hl HF. destruct d as [|[|[|[|d]]]]; try lia.
    - destruct us as [|u [|]]; cbn in Hl; try lia. apply Forall_cons_iff in HF as (H1 & _).
      destruct u as [|a [|]]; cbn in H1; try lia. cbn. f_equal. ring.
    - destruct us as [|u [|v [|]]]; cbn in Hl; try lia. apply Forall_cons_iff in HF as (H1 & HF). apply Forall_cons_iff in HF as (H2 & _).
      destruct u as [|a [|b [|]]]; cbn in H1; try lia. destruct v as [|c [|e [|]]]; cbn in H2; try lia. cbn. f_equal. ring.
    - destruct us as [|u [|v [|w [|]]]]; cbn in Hl; try lia. apply Forall_cons_iff in HF as (H1 & HF). apply Forall_cons_iff in HF as (H2 & HF).
      apply Forall_cons_iff in HF as (H3 & _).
      destruct u as [|a [|b [|c [|]]]]; cbn in H1; try lia. destruct v as [|e [|f [|g [|]]]]; cbn in H2; try lia.
      destruct w as [|h [|i [|j [|]]]]; cbn in H3; try lia. cbn. f_equal. ring.
  Qed.

  Lemma edge_det_fun d bs (pts : list (list R)) row o o' : edge_det d bs pts row o -> edge_det d bs pts row o' -> o = o'.
  Proof.
    intros (b & xs & (v & Hv & Hb) & HF & ->) (b' & xs' & (v' & Hv' & Hb') & HF' & ->).
    assert (b = b') as <- by congruence. assert (xs = xs') as <-; [|reflexivity].
    clear - HF HF'. revert xs' HF'. induction HF as [|k x ks xs (v & H1 & H2) _ IH]; intros xs' HF'; inversion HF' as [|? y ? ys (w & H3 & H4) HF'']; subst; [reflexivity|].
    f_equal; [congruence|auto].
  Qed.

  Lemma orientation_lift d bs (pts : list (list R)) row : (1 <= d <= 3)%nat -> Forall (fun p => length p = d) pts ->
    Forall (fun v => (v < length pts)%nat) row -> (fst bs < length row)%nat -> length (snd bs) = d -> Forall (fun k => (k < length row)%nat) (snd bs) ->
    exists o, orientation_fl R bs (lift2 pts) row = Ok (Some o) /\ edge_det d bs pts row o.
  Proof.
    intros Hd Hp Hr Hb Hl Hs.
    assert (Hget : forall k, (k < length row)%nat -> exists v p, nth_error row k = Some v /\ nth_error pts v = Some p /\ length p = d /\ get (lift2 pts) v = Ok (map Some p)).
    { intros k Hk. destruct (nth_error row k) as [v|] eqn:Ev; [|apply nth_error_None in Ev; lia].
      pose proof (proj1 (Forall_forall _ _) Hr v (nth_error_In _ _ Ev)) as Hv. cbv beta in Hv.
      destruct (nth_error pts v) as [p|] eqn:Ep; [|apply nth_error_None in Ep; lia].
      exists v, p. split; [reflexivity|]. split; [exact Ep|]. split; [apply (proj1 (Forall_forall _ _) Hp); eapply nth_error_In; eauto|].
      unfold get, ConsistModel.lift2. now rewrite nth_error_map, Ep. }
    destruct (Hget _ Hb) as (v & b & Hv & Hpb & Hlb & Egb).
    assert (Hxs : exists xs, mapM (fun k => v <- get row k ;; get (lift2 pts) v) (snd bs) = Ok (lift2 xs) /\
        Forall2 (fun k x => exists v, nth_error row k = Some v /\ nth_error pts v = Some x) (snd bs) xs /\ Forall (fun x => length x = d) xs).
    { clear Hl. induction Hs as [|k ks Hk _ (xs & E & F & L)]; [exists []; split; [reflexivity|split; constructor]|].
      destruct (Hget _ Hk) as (w & p & Hw & Hwp & Hlp & Eg). exists (p :: xs). split; [|split; constructor; eauto].
      cbn [mapM]. unfold get at 1. rewrite Hw. cbn [bind]. rewrite Eg. cbn [bind]. rewrite E. reflexivity. }
    destruct Hxs as (xs & E & F & L). unfold orientation_fl. unfold get at 1. rewrite Hv. cbn [bind]. rewrite Egb. cbn [bind]. rewrite E. cbn [bind].
    rewrite Hl. destruct (Nat.eqb_spec d 0) as [?|_]; [lia|]. cbn [negb guard bind]. rewrite numbers_lift, numbers2_lift.
    rewrite (signed_volume_det d); [|exact Hd|rewrite map_length, <- (Forall2_length' _ _ _ F); exact Hl|].
    - cbn [bind]. eexists. split; [reflexivity|]. exists b, xs. split; [eauto|]. split; [exact F|reflexivity].
    - apply Forall_forall. intros u Hu. apply in_map_iff in Hu as (x & <- & Hx). rewrite vsub_length; [apply (proj1 (Forall_forall _ _) L x Hx)|].
      pose proof (proj1 (Forall_forall _ _) L x Hx) as Hlx. cbv beta in Hlx. congruence.
  Qed.

  Section Mesh.
    Variable resampling : cgroup R -> list (list (fl R)).
    Variable span : cgroup R -> nat * list nat.
    Variable default_tol : R.
    Variable d : nat.
    Variable m : cmesh R.
    Variable pts : list (list R).
    Variable els : list (list (list nat) * list (list (list R))).
    Hypothesis Hd : (1 <= d <= 3)%nat.
    Hypothesis Hex : exact_mesh d m pts els.
    Hypothesis Href : Forall2 (reference resampling span d (length pts)) (cm_groups m) els.

    Lemma group_at i g : nth_error (cm_groups m) i = Some g -> exists e, nth_error els i = Some e /\ exact_group d g e /\ reference resampling span d (length pts) g e.
    Proof using Hex Href.
      intros Hg. destruct Hex as (_ & _ & HF & _). destruct (Forall2_nth_error _ _ _ _ _ HF Hg) as (e & He & H1).
      destruct (Forall2_nth_error _ _ _ _ _ Href Hg) as (e' & He' & H2). rewrite He in He'. injection He' as <-. eauto.
    Qed.

    Lemma test_group_iff tol i g e : nth_error (cm_groups m) i = Some g -> nth_error els i = Some e ->
      decides (test_group R resampling default_tol d (cm_vertices m) (Some tol) g) /\
      (test_group R resampling default_tol d (cm_vertices m) (Some tol) g = Ok tt <->
       forall j row x P, nth_error (fst e) j = Some row -> nth_error (snd e) j = Some x -> resampling g = lift2 P -> nodes_match P pts tol row x).
    Proof using Hex Href Hd.
      intros Hg He. destruct (group_at i g Hg) as (e' & He' & (Hvi & Hn & Hlen & Hmp & Hdim & Hamb) & (P & nu & HP & HPn & HPl & (Hf1 & Hf2) & _)).
      rewrite He in He'. injection He' as <-. destruct Hex as (Hv & Hpl & _). unfold test_group. rewrite Hv. unfold nelements. rewrite Hn, map_length.
      destruct (Nat.eqb_spec (length (snd e)) 0) as [H0|H0].
      - split; [now left|]. split; [|reflexivity]. intros _ j row x P' _ Hx. destruct (snd e); [|cbn in H0; lia]. destruct j; discriminate Hx.
      - unfold vi_rows. rewrite Hvi, Hlen, Nat.eqb_refl. cbn [guard bind].
        assert (HPinj : forall P', resampling g = lift2 P' -> P' = P).
        { intros P' E. rewrite HP in E. clear -E. unfold ConsistModel.lift2 in E. revert P' E. induction P as [|w P IH]; intros [|w' P'] E; cbn in E; try discriminate E; [reflexivity|].
          injection E as E1 E2. f_equal; [|auto]. clear -E1. revert w' E1. induction w as [|a w IH]; intros [|a' w'] E; cbn in E; try discriminate E; [reflexivity|].
          injection E as -> E. f_equal. auto. }
        assert (Hel : forall j row x, nth_error (fst e) j = Some row -> nth_error (snd e) j = Some x ->
           exists b, element_above_tol R (resampling g) d (lift2 pts) tol row (lift2 x) = Ok b /\ (b = false <-> nodes_match P pts tol row x)).
        { intros j row x Hrow Hx. rewrite HP.
          destruct (proj1 (Forall_forall _ _) Hf1 row (nth_error_In _ _ Hrow)) as (H1 & H2).
          destruct (proj1 (Forall_forall _ _) Hf2 x (nth_error_In _ _ Hx)) as (H3 & H4).
          apply (element_above R P d nu pts tol row x); auto. lia. }
        assert (HM : exists bs, mapM (fun rn : list nat * list (list (fl R)) => element_above_tol R (resampling g) d (lift2 pts) tol (fst rn) (snd rn))
                        (combine (fst e) (map lift2 (snd e))) = Ok bs).
        { apply mapM_total. intros (row & fx) Hin. apply In_nth_error in Hin as (j & Hj). apply combine_nth_iff in Hj as (Hrow & Hx).
          rewrite nth_error_map in Hx. destruct (nth_error (snd e) j) as [x|] eqn:Ex; [|discriminate Hx]. injection Hx as <-.
          destruct (Hel j row x Hrow Ex) as (b & Hb & _). exists b. exact Hb. }
        destruct HM as (bs & HM). unfold ConsistModel.lift2 in HM |- *. rewrite HM. cbn [bind]. apply mapM_ok in HM.
        split; [destruct (existsb (fun b => b) bs); [right; eexists; split; reflexivity|now left]|].
        split.
        + destruct (existsb (fun b => b) bs) eqn:Eb; [intros H; discriminate H|]. intros _ j row x P' Hrow Hx HP'.
          rewrite (HPinj P' HP'). destruct (Hel j row x Hrow Hx) as (b & Hb & Hiff). apply Hiff.
          assert (Hc : nth_error (combine (fst e) (map (map (map Some)) (snd e))) j = Some (row, lift2 x)).
          { apply combine_nth_iff. split; [exact Hrow|]. now rewrite nth_error_map, Hx. }
          destruct (Forall2_nth_error _ _ _ _ _ HM Hc) as (b' & Hb' & Hb''). cbn [fst snd] in Hb''.
          unfold ConsistModel.lift2 in Hb, Hb''. rewrite Hb in Hb''. injection Hb'' as <-.
          destruct b; [|reflexivity]. assert (existsb (fun b : bool => b) bs = true) by (apply existsb_exists; exists true; split; [eapply nth_error_In; eauto|reflexivity]). congruence.
        + intros H. destruct (existsb (fun b => b) bs) eqn:Eb; [|reflexivity]. exfalso. apply existsb_exists in Eb as (b & Hin & Hb). subst b.
          apply In_nth_error in Hin as (j & Hj). destruct (Forall2_nth_error_r _ _ _ _ _ HM Hj) as ((row & fx) & Hc & Hf). cbn [fst snd] in Hf.
          apply combine_nth_iff in Hc as (Hrow & Hx). rewrite nth_error_map in Hx. destruct (nth_error (snd e) j) as [x|] eqn:Ex; [|discriminate Hx].
          injection Hx as <-. destruct (Hel j row x Hrow Ex) as (b & Hb & Hiff). unfold ConsistModel.lift2 in Hb. rewrite Hb in Hf. injection Hf as ->.
          assert (true = false) by (apply Hiff; eapply H; eauto). discriminate.
    Qed.

    Lemma test_node_vertex_iff tol :
      decides (test_node_vertex R resampling default_tol d (Some tol) m) /\
      (test_node_vertex R resampling default_tol d (Some tol) m = Ok tt <->
       forall i j g row x P, element_of m els i j g row x -> resampling g = lift2 P -> nodes_match P pts tol row x).
    Proof using Hex Href Hd.
      unfold test_node_vertex. split.
      - apply decides_mapM. intros g Hg. apply In_nth_error in Hg as (i & Hi). destruct (group_at i g Hi) as (e & He & (_ & _ & _ & Hmp & _) & _).
        rewrite Hmp. apply (test_group_iff tol i g e Hi He).
      - rewrite bind_tt, mapM_unit_ok. split.
        + intros H i j g row x P (e & Hg & He & Hrow & Hx) HP. destruct (group_at i g Hg) as (e' & He' & (_ & _ & _ & Hmp & _) & _).
          pose proof (proj1 (Forall_forall _ _) H g (nth_error_In _ _ Hg)) as Hc. cbv beta in Hc. rewrite Hmp in Hc.
          destruct (test_group_iff tol i g e Hg He) as (_ & Hi). exact (proj1 Hi Hc j row x P Hrow Hx HP).
        + intros H. apply Forall_forall. intros g Hg. apply In_nth_error in Hg as (i & Hi). destruct (group_at i g Hi) as (e & He & (_ & _ & _ & Hmp & _) & _).
          rewrite Hmp. destruct (test_group_iff tol i g e Hi He) as (_ & Hiff). apply Hiff. intros j row x P Hrow Hx HP. apply (H i j g row x P); [|exact HP]. exists e. auto.
    Qed.

    Lemma single_valued_const (l : list nat) n : l <> [] -> (forall x, In x l -> x = n) -> single_valued l = Ok n.
    Proof using Type.
      intros Hl H. destruct l as [|x l]; [congruence|]. assert (x = n) as -> by (apply H; now left). cbn [single_valued].
      replace (forallb (Nat.eqb n) l) with true; [reflexivity|]. symmetry. apply forallb_forall. intros y Hy. apply Nat.eqb_eq. symmetry. apply H. now right.
    Qed.

    Lemma groups_nonempty : cm_groups m <> [].
    Proof using Hex. destruct Hex as (_ & _ & HF & Hne). intros E. rewrite E in HF. inversion HF. congruence. Qed.

    Lemma check_orientation_iff :
      decides (check_orientation R span d m) /\
      (check_orientation R span d m = Ok tt <->
       forall i j g row x o, element_of m els i j g row x -> edge_det d (span g) pts row o -> 0 <? o = true).
    Proof using Hex Href Hd.
      assert (Hall : forall g, In g (cm_groups m) -> cg_dim g = d /\ cg_ambient g = d).
      { intros g Hg. apply In_nth_error in Hg as (i & Hi). destruct (group_at i g Hi) as (e & _ & H & _). destruct H as (_ & _ & _ & _ & H1 & H2). auto. }
      unfold check_orientation, mesh_dim, ambient_dim.
      rewrite (single_valued_const _ d). 2:{ pose proof groups_nonempty. destruct (cm_groups m); [congruence|discriminate]. }
      2:{ intros x Hx. apply in_map_iff in Hx as (g & <- & Hg). now apply Hall. }
      rewrite (single_valued_const _ d). 2:{ pose proof groups_nonempty. destruct (cm_groups m); [congruence|discriminate]. }
      2:{ intros x Hx. apply in_map_iff in Hx as (g & <- & Hg). now apply Hall. }
      cbn [bind]. rewrite Nat.eqb_refl.
      destruct Hex as (Hv & Hpl & _). unfold element_orientations. rewrite Hv.
      assert (Hor : forall i g e, nth_error (cm_groups m) i = Some g -> nth_error els i = Some e ->
        exists os, group_orientation R span d (lift2 pts) g = Ok (map Some os) /\ length os = nelements (cg_eg g) /\
          Forall2 (fun row o => edge_det d (span g) pts row o) (fst e) os).
      { intros i g e Hg He. destruct (group_at i g Hg) as (e' & He' & (Hvi & Hn & Hlen & Hmp & Hdim & Hamb) & (P & nu & HP & HPn & HPl & (Hf1 & Hf2) & Hs1 & Hs2 & Hs3)).
        rewrite He in He'. injection He' as <-. unfold group_orientation. rewrite Hmp. cbn [guard bind]. rewrite Hdim, Nat.eqb_refl. cbn [guard bind].
        unfold vi_rows. rewrite Hvi. unfold nelements. rewrite Hn, map_length, <- Hlen. clear -Hf1 Hs1 Hs2 Hs3 Hd Hpl.
        induction Hf1 as [|row rows (Hrl & Hrv) _ (os & E & L & F)]; [exists []; split; [reflexivity|split; [reflexivity|constructor]]|].
        destruct (orientation_lift d (span g) pts row Hd Hpl Hrv) as (o & Eo & Ho); [now rewrite Hrl|exact Hs2|now rewrite Hrl|].
        exists (o :: os). split; [|split; [cbn [length]; now rewrite L|now constructor]]. cbn [mapM]. rewrite Eo. cbn [bind]. rewrite E. reflexivity. }
      assert (HM : exists oss, mapM (fun g => match group_orientation R span d (lift2 pts) g with
            | Err NotImplementedError => Ok (map (fun _ => None) (eg_nodes (cg_eg g)))
            | Err e => Err e
            | Ok os => _ <- guard (forallb (fun o : fl R => match o with Some _ => true | None => false end) os) AssertionError ;;
                _ <- guard (length os =? nelements (cg_eg g))%nat ValueError ;; Ok os end) (cm_groups m) = Ok (map (map Some) oss) /\
          Forall2 (fun ge os => Forall2 (fun row o => edge_det d (span (fst ge)) pts row o) (fst (snd ge)) os) (combine (cm_groups m) els) oss).
      { assert (Hor' : forall g e, In (g, e) (combine (cm_groups m) els) ->  exists os, group_orientation R span d (lift2 pts) g = Ok (map Some os) /\ length os = nelements (cg_eg g) /\
          Forall2 (fun row o => edge_det d (span g) pts row o) (fst e) os).
        { intros g e Hin. apply In_nth_error in Hin as (i & Hi). apply combine_nth_iff in Hi as (H1 & H2). eauto. }
        pose proof (Forall2_length' _ _ _ Href) as HL. clear -Hor' HL.
        generalize dependent els. clear els. generalize (cm_groups m) as gs. clear m. intros gs. induction gs as [|g gs IH]; intros [|e es] Hor' HL; try discriminate HL; [exists []; split; [reflexivity|constructor]|].
        destruct (Hor' g e (or_introl eq_refl)) as (os & Eo & Lo & Fo). destruct (IH es) as (oss & E & F); [intros; apply Hor'; now right|cbn in HL; lia|].
        exists (os :: oss). split; [|constructor; auto]. cbn [mapM]. rewrite Eo.
        replace (forallb _ (map Some os)) with true. 2:{ symmetry. apply forallb_forall. intros o Ho. apply in_map_iff in Ho as (o' & <- & _). reflexivity. }
        cbn [guard bind]. rewrite map_length, Lo, Nat.eqb_refl. cbn [guard bind]. rewrite E. reflexivity. }
      destruct HM as (oss & EM & FM). unfold ConsistModel.lift2 in *. rewrite EM. cbn [bind].
      replace (filter _ (concat (map (map Some) oss))) with (map Some (concat oss)).
      2:{ clear. rewrite <- concat_map. induction (concat oss) as [|o l IH]; [reflexivity|]. cbn [map filter]. now rewrite <- IH. }
      split; [now apply decides_guard|]. rewrite guard_tt, forallb_forall. split.
      - intros H i j g row x o (e & Hg & He & Hrow & Hx) Ho.
        assert (Hc : nth_error (combine (cm_groups m) els) i = Some (g, e)) by (apply combine_nth_iff; auto).
        destruct (Forall2_nth_error _ _ _ _ _ FM Hc) as (os & Hos & HF). cbn [fst snd] in HF.
        destruct (Forall2_nth_error _ _ _ _ _ HF Hrow) as (o' & Ho' & Hd'). rewrite (edge_det_fun _ _ _ _ _ _ Ho Hd').
        apply (H (Some o')). apply in_map. apply in_concat. exists os. split; eapply nth_error_In; eauto.
      - intros H fo Hin. apply in_map_iff in Hin as (o & <- & Hin). apply in_concat in Hin as (os & Hos & Ho).
        apply In_nth_error in Hos as (i & Hi). apply In_nth_error in Ho as (j & Hj).
        destruct (Forall2_nth_error_r _ _ _ _ _ FM Hi) as ((g & e) & Hc & HF). cbn [fst snd] in HF. apply combine_nth_iff in Hc as (Hg & He).
        destruct (Forall2_nth_error_r _ _ _ _ _ HF Hj) as (row & Hrow & Hdet).
        destruct (group_at i g Hg) as (e' & He' & (_ & _ & Hlen & _) & _). rewrite He in He'. injection He' as <-.
        destruct (nth_error (snd e) j) as [x|] eqn:Ex. 2:{ apply nth_error_None in Ex. assert (j < length (fst e))%nat by (apply nth_error_Some; congruence). lia. }
        change (0 <? o = true). apply (H i j g row x o); [|exact Hdet]. exists e. auto.
    Qed.

    Lemma shapes_decide : decides (check_vi_dtype m) /\ decides (check_nodal m) /\ decides (check_facial m).
    Proof using Type.
      split; [|split].
      - apply decides_mapM. intros g _. destruct (eg_vi (cg_eg g)); [now apply decides_guard|now left].
      - unfold check_nodal. destruct (cm_nodal m) as [| |(s & n)]; [now left..|]. repeat (apply decides_bind; [now apply decides_guard|]). now apply decides_guard.
      - unfold check_facial. destruct (cm_facial m) as [| |[|fs fags]]; [now left..|]. apply decides_bind; [now apply decides_guard|].
        generalize (fs :: fags) as l. intros l.
        assert (Hf : forall f, decides (check_fagrp m f)).
        { intros f. unfold check_fagrp. destruct (ia_shape (cf_elements f)) as [|n [|]]; [right; eexists; split; reflexivity| |right; eexists; split; reflexivity].
          apply decides_bind; [now apply decides_guard|]. apply decides_bind; [now apply decides_guard|]. destruct f; [|now left..].
          repeat (apply decides_bind; [now apply decides_guard|]). now apply decides_guard. }
        induction l as [|fl l IH]; [now left|]. cbn [mapM].
        pose proof (decides_mapM (check_fagrp m) fl (fun f _ => Hf f)) as H1. destruct (mapM (check_fagrp m) fl) as [us|e]; cbn [bind] in *.
        + destruct IH as [E|(e & E & He)]; destruct (mapM (mapM (check_fagrp m)) l); cbn [bind] in *; try discriminate E; [now left|]. right. eauto.
        + destruct H1 as [H1|(e' & [= <-] & He)]; [discriminate H1|]. right. eauto.
    Qed.

    Lemma vi_dtypes : Forall (fun g : cgroup R => eg_vi (cg_eg g) <> None -> cg_vidtype g = cm_vdtype m) (cm_groups m) <->
      Forall (fun g => cg_vidtype g = cm_vdtype m) (cm_groups m).
    Proof using Hex Href.
      split; intros H; apply Forall_forall; intros g Hg; pose proof (proj1 (Forall_forall _ _) H g Hg) as Hc; cbv beta in Hc.
      - apply Hc. apply In_nth_error in Hg as (i & Hi). destruct (group_at i g Hi) as (e & _ & (Hvi & _) & _). congruence.
      - intros _. exact Hc.
    Qed.

    Lemma check_iff tol :
      decides (check_mesh_consistency R resampling span default_tol d (Tol tol) false m) /\
      (check_mesh_consistency R resampling span default_tol d (Tol tol) false m = Ok tt <-> consistent resampling span d tol m pts els).
    Proof using Hex Href Hd.
      unfold check_mesh_consistency. destruct (test_node_vertex_iff tol) as (D1 & I1). destruct check_orientation_iff as (D2 & I2).
      destruct shapes_decide as (D3 & D4 & D5). split; [repeat (apply decides_bind; [assumption|]); assumption|].
      rewrite !bind_unit, I1, I2, check_vi_iff, check_nodal_iff, check_facial_iff, vi_dtypes. unfold consistent. tauto.
    Qed.

    Lemma check_default : check_mesh_consistency R resampling span default_tol d TolNone false m =
      check_mesh_consistency R resampling span default_tol d (Tol default_tol) false m.
    Proof using Type. reflexivity. Qed.

    Lemma is_consistent_iff tol : exists b, is_mesh_consistent R resampling span default_tol d (Tol tol) false m = Ok b /\
      (b = true <-> consistent resampling span d tol m pts els).
    Proof using Hex Href Hd.
      destruct (check_iff tol) as (D & I). unfold is_mesh_consistent.
      destruct D as [E|(e & E & He)]; rewrite E in *.
      - exists true. split; [reflexivity|]. tauto.
      - rewrite He. exists false. split; [reflexivity|]. split; [discriminate|]. intros H. apply I in H. discriminate H.
    Qed.
  End Mesh.
End Main.
