(** * ConsistAffProofs: straight elements, affine maps of meshes, is_affine. *)
From Coq Require Import List Arith Bool ZArith Lia Ring.
From Verif Require Import Np NpFacts MeshModel MeshSpec MeshStateModel Lin Ord ProcModel ProcSpec AffineModel AffineSpec AffineProofs ConsistModel ConsistSpec ConsistProofs ConsistMainProofs.
Import ListNotations.

Section Exact.
  Variable R : ocring.
  Add Ring Rca : (rth R).
  Local Open Scope cring_scope.

  Lemma rabs_nonneg (x : R) : (0 <=? rabs x) = true.
  Proof.
    unfold rabs. destruct (ole 0 x) eqn:E; [exact E|]. destruct (ole_total R 0 x) as [H|H]; [congruence|].
    apply le_diff in H. now replace (0 - x) with (- x) in H by ring.
  Qed.
  Lemma rabs_0 : rabs (R := R) 0 = 0.
  Proof. unfold rabs. now rewrite ole_refl. Qed.

  Lemma tol_positive (t s : R) : 0 <? t = true -> (0 <=? s) = true -> 0 <? t + t * s = true.
  Proof.
    intros Ht Hs. eapply olt_le_trans; [exact Ht|]. apply diff_le. replace (t + t * s - t) with (t * s) by ring. apply ole_mul; [now apply olt_nle|exact Hs].
  Qed.

  Lemma exact_match (P pts : list (list R)) row x (t : R) : 0 <? t = true -> nodes_exact P pts row x -> nodes_match P pts t row x.
  Proof.
    intros Ht He s k a w xa c Hs Hw Hx Hc. rewrite (He k a w xa c Hw Hx Hc). replace (c - c) with (@r0 R) by ring. rewrite rabs_0.
    apply tol_positive; [exact Ht|]. destruct Hs as ((k' & a' & c' & _ & ->) & _). apply rabs_nonneg.
  Qed.

  Lemma zero_match (P pts : list (list R)) row x s k a w xa c : element_scale pts row s -> nth_error P k = Some w -> nth_error x a = Some xa ->
    vertex_coord pts row k a c -> ~ nodes_match P pts 0 row x.
  Proof.
    intros Hs Hw Hx Hc H. specialize (H s k a w xa c Hs Hw Hx Hc). replace (0 + 0 * s) with (@r0 R) in H by ring.
    rewrite olt_iff in H. rewrite rabs_nonneg in H. discriminate H.
  Qed.

  Lemma dot_map_add (w : list R) (un : list (list R)) (f g : list R -> R) :
    dot w (map (fun u => f u + g u) un) = dot w (map f un) + dot w (map g un).
  Proof.
    unfold dot. revert un. induction w as [|a w IH]; intros [|u un]; cbn [map map2 rsum]; [ring..|]. rewrite IH. ring.
  Qed.
  Lemma dot_map_const (w : list R) (un : list (list R)) (c : R) : dot w (map (fun _ => c) un) = c * dot w (map (fun _ => 1) un).
  Proof.
    unfold dot. revert un. induction w as [|a w IH]; intros [|u un]; cbn [map map2 rsum]; [ring..|]. rewrite IH. ring.
  Qed.

  Lemma affine_exact dim (P un uv pts : list (list R)) row x : evaluates dim P un uv -> affine_element dim un uv pts row x -> nodes_exact P pts row x.
  Proof.
    intros (HPl & Hev) (L & t & HL & Ht & Hlt) k a w xa c Hw Hxa Hc.
    assert (Hal : (a < length x)%nat) by (apply nth_error_Some; congruence).
    destruct (nth_error L a) as [l|] eqn:El; [|apply nth_error_None in El; lia].
    destruct (nth_error t a) as [c0|] eqn:Et; [|apply nth_error_None in Et; lia].
    destruct (Hlt a l c0 El Et) as (Hdim & Hx & Hv). rewrite (Hx xa Hxa).
    destruct (nth_error uv k) as [u|] eqn:Eu. 2:{ apply nth_error_None in Eu. assert (k < length P)%nat by (apply nth_error_Some; congruence). lia. }
    rewrite (Hv k c u Hc Eu). destruct (Hev k w u Hw Eu) as (H1 & H2). 
    transitivity (dot w (map (fun v => dot l v) un) + dot w (map (fun _ => c0) un)); [apply (dot_map_add w un (fun v => dot l v) (fun _ => c0))|].
    rewrite (dot_map_const w un c0), H1, (H2 l Hdim). ring.
  Qed.

  (** ** determinant of a transformed element *)
  Lemma det_matvec d (M : list (list R)) us : (1 <= d <= 3)%nat -> is_mat d d M -> length us = d -> Forall (fun u => length u = d) us ->
    det R d (map (matvec M) us) = det R d M * det R d us.
  Proof.
    intros Hd (HM & HMr) Hl HF. destruct d as [|[|[|[|d]]]]; try lia.
    - destruct us as [|u [|]]; cbn in Hl; try lia. apply Forall_cons_iff in HF as (H1 & _).
      destruct u as [|a [|]]; cbn in H1; try lia.
      destruct M as [|m0 [|]]; cbn in HM; try lia. apply Forall_cons_iff in HMr as (K1 & _). destruct m0 as [|m00 [|]]; cbn in K1; try lia.
      cbn. ring.
    - destruct us as [|u [|v [|]]]; cbn in Hl; try lia. apply Forall_cons_iff in HF as (H1 & HF). apply Forall_cons_iff in HF as (H2 & _).
      destruct u as [|a [|b [|]]]; cbn in H1; try lia. destruct v as [|c [|e [|]]]; cbn in H2; try lia.
      destruct M as [|m0 [|m1 [|]]]; cbn in HM; try lia. apply Forall_cons_iff in HMr as (K1 & HMr). apply Forall_cons_iff in HMr as (K2 & _).
      destruct m0 as [|m00 [|m01 [|]]]; cbn in K1; try lia. destruct m1 as [|m10 [|m11 [|]]]; cbn in K2; try lia.
      cbn. ring.
    - destruct us as [|u [|v [|w [|]]]]; cbn in Hl; try lia. apply Forall_cons_iff in HF as (H1 & HF). apply Forall_cons_iff in HF as (H2 & HF).
      apply Forall_cons_iff in HF as (H3 & _).
      destruct u as [|a [|b [|c [|]]]]; cbn in H1; try lia. destruct v as [|e [|f [|g [|]]]]; cbn in H2; try lia.
      destruct w as [|h [|i [|j [|]]]]; cbn in H3; try lia.
      destruct M as [|m0 [|m1 [|m2 [|]]]]; cbn in HM; try lia. apply Forall_cons_iff in HMr as (K1 & HMr). apply Forall_cons_iff in HMr as (K2 & HMr).
      apply Forall_cons_iff in HMr as (K3 & _).
      destruct m0 as [|m00 [|m01 [|m02 [|]]]]; cbn in K1; try lia. destruct m1 as [|m10 [|m11 [|m12 [|]]]]; cbn in K2; try lia.
      destruct m2 as [|m20 [|m21 [|m22 [|]]]]; cbn in K3; try lia.
      cbn. ring.
  Qed.
End Exact.

Section IsAffine.
  Variable R : ocring.
  Add Ring Rcb : (rth R).
  Local Open Scope cring_scope.
  Variable vinv : cgroup R -> list (list R).
  Variable diffs : cgroup R -> list (list (list R)).

  Lemma In_derivative_pairs dim i j : In (i, j) (derivative_pairs dim) <-> (i <= j)%nat /\ (j < dim)%nat.
  Proof.
    unfold derivative_pairs. rewrite filter_In, in_flat_map. cbn [fst snd]. rewrite negb_true_iff, Nat.ltb_ge. split.
    - intros ((k & Hk & Hin) & Hle). apply in_map_iff in Hin as (l & [= <- <-] & Hl). apply in_seq in Hl. lia.
    - intros (H1 & H2). split; [|exact H1]. exists i. split; [apply in_seq; lia|]. apply in_map. apply in_seq. lia.
  Qed.

  Lemma norm_inf_spec (l : list R) : l <> [] -> exists n, norm_inf R l = Ok n /\ forall t, (n <? t = true <-> forall c, In c l -> rabs c <? t = true).
  Proof.
    intros Hl. unfold norm_inf. destruct l as [|x l]; [congruence|]. cbn [map]. eexists. split; [reflexivity|]. intros t.
    destruct (fold_rmax_spec R (map rabs l) (rabs x)) as (H1 & H2). split.
    - intros H c Hc. eapply ole_lt_trans; [|exact H]. apply H2. destruct Hc as [<-|Hc]; [now left|right; now apply in_map].
    - intros H. destruct H1 as [<-|H1]; [apply H; now left|]. apply in_map_iff in H1 as (c & <- & Hc). apply H. now right.
  Qed.

  Lemma is_affine_iff tol nu g (els : list (list (list R))) :
    cg_simplex g = true -> (1 <= cg_dim g)%nat -> els <> [] -> (0 < nu)%nat ->
    is_mat nu nu (vinv g) -> length (diffs g) = cg_dim g -> Forall (is_mat nu nu) (diffs g) ->
    Forall (fun e => e <> [] /\ Forall (fun x => length x = nu) e) els ->
    exists b, is_affine_simplex_group R vinv diffs tol nu g els = Ok b /\
      (b = true <-> forall e x i j cs c, In e els -> In x e -> (i <= j < cg_dim g)%nat ->
         second_coefficients (vinv g) (diffs g) i j x cs -> In c cs -> rabs c <? tol = true).
  Proof.
    intros Hs Hdim Hne Hnu HV HDl HD Hels. unfold is_affine_simplex_group. rewrite Hs. cbn [guard bind].
    destruct els as [|e0 els]; [congruence|].
    assert (HM : exists mats, mapM (second_derivative R vinv diffs g nu) (derivative_pairs (cg_dim g)) = Ok mats).
    { apply mapM_total. intros (i & j) Hij. apply In_derivative_pairs in Hij as (H1 & H2). unfold second_derivative. cbn [fst snd]. unfold get.
      destruct (nth_error (diffs g) i) eqn:Ei; [|apply nth_error_None in Ei; lia]. destruct (nth_error (diffs g) j) eqn:Ej; [|apply nth_error_None in Ej; lia].
      cbn [bind]. eauto. }
    destruct HM as (mats & HM). rewrite HM. cbn [bind]. apply mapM_ok in HM.
    assert (Hmat : forall M i j, nth_error (derivative_pairs (cg_dim g)) i = Some j -> nth_error mats i = Some M ->
        exists Di Dj, nth_error (diffs g) (fst j) = Some Di /\ nth_error (diffs g) (snd j) = Some Dj /\ length M = nu /\
          forall x : list R, length x = nu -> matvec M x = matvec (vinv g) (matvec Di (matvec Dj x))).
    { intros M i j Hj Hi. destruct (Forall2_nth_error _ _ _ _ _ HM Hj) as (M' & HM' & E). rewrite Hi in HM'. injection HM' as <-.
      unfold second_derivative, get in E. destruct (nth_error (diffs g) (fst j)) as [Di|] eqn:Ei; [|discriminate E].
      destruct (nth_error (diffs g) (snd j)) as [Dj|] eqn:Ej; [|discriminate E]. cbn [bind] in E. injection E as <-.
      pose proof (proj1 (Forall_forall _ _) HD Di (nth_error_In _ _ Ei)) as HDi. pose proof (proj1 (Forall_forall _ _) HD Dj (nth_error_In _ _ Ej)) as HDj.
      exists Di, Dj. split; [reflexivity|]. split; [reflexivity|].
      pose proof (is_mat_matmul R nu nu nu Di Dj HDi HDj) as Hm. split; [apply (is_mat_matmul R nu nu nu _ _ HV Hm)|].
      intros x Hx. rewrite (matvec_matmul R nu nu nu _ _ x HV Hm), (matvec_matmul R nu nu nu _ _ x HDi HDj). reflexivity. }
    assert (Hin : forall es c, incl es (e0 :: els) -> In c (ddx_coeffs R mats es) <-> exists e x i j cs, In e es /\ In x e /\ (i <= j < cg_dim g)%nat /\
        second_coefficients (vinv g) (diffs g) i j x cs /\ In c cs).
    { intros es c Hincl. unfold ddx_coeffs. rewrite in_flat_map. split.
      - intros (M & HMin & Hc). apply in_flat_map in Hc as (e & He & Hc). apply in_flat_map in Hc as (x & Hx & Hc).
        apply In_nth_error in HMin as (k & Hk). destruct (Forall2_nth_error_r _ _ _ _ _ HM Hk) as ((i & j) & Hij & _).
        destruct (Hmat M k (i, j) Hij Hk) as (Di & Dj & H1 & H2 & _ & H3). cbn [fst snd] in *.
        assert (Hxl : length x = nu). { destruct (proj1 (Forall_forall _ _) Hels e (Hincl e He)) as (_ & Hf). apply (proj1 (Forall_forall _ _) Hf x Hx). }
        rewrite (H3 x Hxl) in Hc. exists e, x, i, j. eexists. split; [exact He|]. split; [exact Hx|].
        split; [apply nth_error_In in Hij; apply In_derivative_pairs in Hij; lia|]. split; [exists Di, Dj; eauto|exact Hc].
      - intros (e & x & i & j & cs & He & Hx & Hij & (Di & Dj & H1 & H2 & ->) & Hc).
        assert (Hp : In (i, j) (derivative_pairs (cg_dim g))) by (apply In_derivative_pairs; lia). apply In_nth_error in Hp as (k & Hk).
        destruct (Forall2_nth_error _ _ _ _ _ HM Hk) as (M & HMk & _). destruct (Hmat M k (i, j) Hk HMk) as (Di' & Dj' & H1' & H2' & _ & H3). cbn [fst snd] in *.
        assert (Hxl : length x = nu). { destruct (proj1 (Forall_forall _ _) Hels e (Hincl e He)) as (_ & Hf). apply (proj1 (Forall_forall _ _) Hf x Hx). }
        exists M. split; [eapply nth_error_In; eauto|]. apply in_flat_map. exists e. split; [exact He|]. apply in_flat_map. exists x. split; [exact Hx|].
        rewrite (H3 x Hxl). assert (Di' = Di) by congruence. assert (Dj' = Dj) by congruence. subst. exact Hc. }
    assert (Hnonempty : forall es, incl es (e0 :: els) -> es <> [] -> ddx_coeffs R mats es <> []).
    { intros es Hincl Hes E. destruct es as [|e es]; [congruence|].
      destruct (proj1 (Forall_forall _ _) Hels e (Hincl e (or_introl eq_refl))) as (Hen & Hf). destruct e as [|x e]; [congruence|].
      assert (Hp : In (0, 0)%nat (derivative_pairs (cg_dim g))) by (apply In_derivative_pairs; lia). apply In_nth_error in Hp as (k & Hk).
      destruct (Forall2_nth_error _ _ _ _ _ HM Hk) as (M & HMk & _). destruct (Hmat M k _ Hk HMk) as (_ & _ & _ & _ & HMl & _).
      destruct M as [|r M]; [cbn in HMl; lia|].
      assert (Hc : In (dot r x) (ddx_coeffs R mats ((x :: e) :: es))).
      { unfold ddx_coeffs. apply in_flat_map. exists (r :: M). split; [eapply nth_error_In; eauto|]. apply in_flat_map. exists (x :: e). split; [now left|].
        apply in_flat_map. exists x. split; [now left|]. now left. }
      rewrite E in Hc. destruct Hc. }
    assert (I0 : incl [e0] (e0 :: els)) by (intros y [<-|[]]; now left).
    destruct (norm_inf_spec (ddx_coeffs R mats [e0])) as (n0 & En0 & Hn0); [apply Hnonempty; [exact I0|discriminate]|].
    destruct (norm_inf_spec (ddx_coeffs R mats (e0 :: els))) as (n & En & Hn); [apply Hnonempty; [apply incl_refl|discriminate]|].
    rewrite En0. cbn [bind].
    assert (Hall : (n <? tol = true) <-> forall e x i j cs c, In e (e0 :: els) -> In x e -> (i <= j < cg_dim g)%nat ->
         second_coefficients (vinv g) (diffs g) i j x cs -> In c cs -> rabs c <? tol = true).
    { rewrite Hn. split.
      - intros H e x i j cs c He Hx Hij Hsc Hc. apply H. apply Hin; [apply incl_refl|]. exists e, x, i, j, cs. auto.
      - intros H c Hc. apply Hin in Hc; [|apply incl_refl]. destruct Hc as (e & x & i & j & cs & He & Hx & Hij & Hsc & Hc). eapply H; eauto. }
    destruct (tol <? n0) eqn:Et.
    - exists false. split; [reflexivity|]. split; [discriminate|]. intros H. exfalso. apply Hall in H.
      assert (Hlt : n0 <? tol = true).
      { apply Hn0. intros c Hc. apply (proj1 (Hn tol) H). apply Hin; [apply incl_refl|]. apply Hin in Hc; [|exact I0].
        destruct Hc as (e & x & i & j & cs & He & Hx & Hr). exists e, x, i, j, cs. split; [apply I0; exact He|auto]. }
      apply olt_nle in Hlt. rewrite olt_iff in Et. congruence.
    - rewrite En. cbn [bind]. eexists. split; [reflexivity|exact Hall].
  Qed.

  (** Interpolants of affine functions have no second derivatives. *)
  Lemma affine_coefficients dim nu (V : list (list R)) D (un : list (list R)) l c0 i j cs :
    length D = dim -> Forall (is_mat nu nu) D -> length un = nu -> length l = dim -> Forall (fun u => length u = dim) un ->
    differentiates dim D un ->
    second_coefficients V D i j (map (fun u => dot l u + c0) un) cs -> Forall (fun c => c = 0) cs.
  Proof.
    intros HDl HD Hun Hl Hu Hdiff (Di & Dj & Hi & Hj & ->). 
    destruct (Hdiff j Dj Hj) as (J1 & J2'). destruct (Hdiff i Di Hi) as (I1 & _). rewrite Hun in J1, I1.
    assert (Hjd : (j < dim)%nat) by (rewrite <- HDl; apply nth_error_Some; congruence).
    assert (J2 : forall l, length l = dim -> matvec Dj (map (fun u => dot l u) un) = map (fun _ => nth j l 0) un).
    { intros l' Hl'. apply J2'; [exact Hl'|]. apply nth_error_nth'. lia. }
    assert (E : matvec Dj (map (fun u => dot l u + c0) un) = map (fun _ => nth j l 0) un).
    { unfold matvec. transitivity (map2 (fun a b => a + c0 * b) (matvec Dj (map (fun u => dot l u) un)) (matvec Dj (map (fun _ => 1) un))).
      - unfold matvec. clear. induction Dj as [|r Dj IH]; [reflexivity|]. cbn [map map2]. rewrite IH. f_equal. rewrite dot_map_add, dot_map_const. reflexivity.
      - rewrite (J2 l Hl), J1, <- Hun. clear. unfold zeros. induction un as [|u un IH]; [reflexivity|]. cbn [map length repeat map2]. rewrite IH. f_equal. ring. }
    rewrite E.
    assert (E2 : matvec Di (map (fun _ => nth j l 0) un) = zeros nu).
    { unfold matvec. transitivity (map (fun b => nth j l 0 * b) (matvec Di (map (fun _ => 1) un))).
      - unfold matvec. rewrite map_map. apply map_ext. intros r. apply dot_map_const.
      - rewrite I1. unfold zeros. clear. induction nu as [|n IH]; [reflexivity|]. cbn [repeat map]. rewrite IH. f_equal. ring. }
    rewrite E2. apply Forall_forall. intros c Hc. unfold matvec in Hc. apply in_map_iff in Hc as (r & <- & _). rewrite dot_comm. apply dot_zeros.
  Qed.

  Lemma affine_is_true tol nu g (els : list (list (list R))) un :
    0 <? tol = true -> cg_simplex g = true -> (1 <= cg_dim g)%nat -> (0 < nu)%nat ->
    is_mat nu nu (vinv g) -> length (diffs g) = cg_dim g -> Forall (is_mat nu nu) (diffs g) ->
    length un = nu -> Forall (fun u => length u = cg_dim g) un -> differentiates (cg_dim g) (diffs g) un ->
    Forall (fun e => e <> [] /\ Forall (fun x => exists l c0, length l = cg_dim g /\ x = map (fun u => dot l u + c0) un) e) els ->
    is_affine_simplex_group R vinv diffs tol nu g els = Ok true.
  Proof.
    intros Ht Hs Hdim Hnu HV HDl HD Hun Hud Hdiff Hels. destruct els as [|e0 els0] eqn:Ee.
    { unfold is_affine_simplex_group. rewrite Hs. reflexivity. }
    rewrite <- Ee in *. assert (Hne : els <> []) by (rewrite Ee; discriminate). clear Ee e0 els0.
    destruct (is_affine_iff tol nu g els Hs Hdim Hne Hnu HV HDl HD) as (b & Hb & Hi).
    { eapply Forall_impl; [|exact Hels]. intros e (H1 & H2). split; [exact H1|]. eapply Forall_impl; [|exact H2]. intros x (l & c0 & _ & ->). now rewrite map_length. }
    rewrite Hb. f_equal. apply Hi. intros e x i j cs c He Hx Hij Hsc Hc.
    destruct (proj1 (Forall_forall _ _) Hels e He) as (_ & H2). destruct (proj1 (Forall_forall _ _) H2 x Hx) as (l & c0 & Hl & ->).
    pose proof (affine_coefficients (cg_dim g) nu (vinv g) (diffs g) un l c0 i j cs HDl HD Hun Hl Hud Hdiff Hsc) as H0.
    rewrite (proj1 (Forall_forall _ _) H0 c Hc). rewrite rabs_0. exact Ht.
  Qed.
End IsAffine.

Section Layout.
  Variable R : ocring.
  Lemma check_fagrp_layout (m m' : cmesh R) f f' : cm_edtype m' = cm_edtype m -> cm_fdtype m' = cm_fdtype m -> same_layout_group f f' -> check_fagrp m' f' = check_fagrp m f.
  Proof.
    intros E1 E2 H. unfold same_layout_group, same_layout in H. unfold check_fagrp, shape_is. rewrite E1, E2.
    destruct f, f'; try tauto; cbn [cf_elements cf_element_faces].
    - destruct H as ((-> & _) & (-> & ->) & (-> & ->) & -> & ->). reflexivity.
    - destruct H as ((-> & _) & -> & ->). reflexivity.
    - destruct H as ((-> & _) & -> & ->). reflexivity.
  Qed.

  Lemma check_layout resampling span default_tol d tol skip groups vs st nb st' nb' fags fags' vd ed fd :
    same_layout st st' -> same_layout nb nb' -> Forall2 (Forall2 same_layout_group) fags fags' ->
    check_mesh_consistency R resampling span default_tol d tol skip (mk_cmesh groups vs (Available (st, nb)) (Available fags) vd ed fd) =
    check_mesh_consistency R resampling span default_tol d tol skip (mk_cmesh groups vs (Available (st', nb')) (Available fags') vd ed fd).
  Proof.
    intros (H1 & H2) (H3 & H4) HF. unfold check_mesh_consistency.
    set (m := mk_cmesh groups vs (Available (st, nb)) (Available fags) vd ed fd). set (m' := mk_cmesh groups vs (Available (st', nb')) (Available fags') vd ed fd).
    assert (E1 : check_nodal m = check_nodal m').
    { unfold check_nodal, shape_is. subst m m'. cbn [cm_nodal cm_edtype]. unfold cm_nelements. cbn [cm_groups]. now rewrite H1, H2, H3, H4. }
    assert (E2 : check_facial m = check_facial m').
    { unfold check_facial. subst m m'. cbn [cm_facial cm_groups]. rewrite (Forall2_length' _ _ _ HF).
      assert (E : forall m1 m2 : cmesh R, cm_edtype m2 = cm_edtype m1 -> cm_fdtype m2 = cm_fdtype m1 -> mapM (mapM (check_fagrp m1)) fags = mapM (mapM (check_fagrp m2)) fags').
      { clear E1. intros m1 m2 Ha Hb. induction HF as [|l l' fags fags' Hl HF IH]; [reflexivity|]. cbn [mapM]. rewrite IH.
        replace (mapM (check_fagrp m2) l') with (mapM (check_fagrp m1) l); [reflexivity|].
        clear -Hl Ha Hb. induction Hl as [|f f' l l' Hf Hl IH]; [reflexivity|]. cbn [mapM]. rewrite IH. rewrite <- (check_fagrp_layout m1 m2 f f' Ha Hb Hf). reflexivity. }
      
      pose proof (E (mk_cmesh groups vs (Available (st, nb)) (Available fags) vd ed fd) (mk_cmesh groups vs (Available (st', nb')) (Available fags') vd ed fd) eq_refl eq_refl) as E'.
      clear E. destruct HF; [reflexivity|]. rewrite E'. reflexivity. }
    rewrite E1, E2. reflexivity.
  Qed.
End Layout.

Section AffineMap.
  Variable R : ocring.
  Add Ring Rcc : (rth R).
  Local Open Scope cring_scope.

  Definition column (a : nat) (x : list (list R)) : list R := map (fun p => nth a p 0) x.
  Definition axes (d : nat) (x : list (list R)) : list (list R) := map (fun a => column a x) (seq 0 d).

  Lemma mapM_pure' {X Y} (f : X -> res Y) (g : X -> Y) l : (forall x, In x l -> f x = Ok (g x)) -> mapM f l = Ok (map g l).
  Proof. intros H. rewrite <- (mapM_pure g l). apply mapM_ext. exact H. Qed.

  Lemma Forall2_maps {X Y W} (Q : Y -> W -> Prop) (f : X -> Y) (g : X -> W) l : Forall2 (fun x y => Q (f x) (g y)) l l -> Forall2 Q (map f l) (map g l).
  Proof. generalize l at 2 4. intros l' H. induction H; cbn [map]; constructor; auto. Qed.
  Lemma lift2_inj (a b : list (list R)) : lift2 R a = lift2 R b -> a = b.
  Proof.
    unfold lift2. revert b. induction a as [|x a IH]; intros [|y b] H; cbn [map] in H; try discriminate H; [reflexivity|]. injection H as H1 H2.
    f_equal; [|now apply IH]. clear -H1. revert y H1. induction x as [|p x IH]; intros [|q y] H; cbn [map] in H; try discriminate H; [reflexivity|].
    injection H as H1 H2. f_equal; auto.
  Qed.

  Lemma by_axis_ok d (x : list (list R)) : Forall (fun p => length p = d) x -> by_axis R d x = Ok (axes d x).
  Proof.
    intros Hx. unfold by_axis, axes. apply mapM_pure'. intros a Ha. apply in_seq in Ha. unfold column. apply mapM_pure'. intros p Hp.
    pose proof (proj1 (Forall_forall _ _) Hx p Hp) as Hl. cbv beta in Hl. unfold get. rewrite (nth_error_nth' p 0) by lia. reflexivity.
  Qed.

  Lemma column_axis d a (x : list (list R)) : (a < d)%nat -> Forall (fun p => length p = d) x -> axis a x (column a x).
  Proof.
    intros Ha Hx. unfold axis, column. induction Hx as [|p x Hp Hx IH]; cbn [map]; constructor; [|exact IH]. apply nth_error_nth'. lia.
  Qed.
  Lemma axis_column d a (x : list (list R)) xa : Forall (fun p => length p = d) x -> axis a x xa -> xa = column a x.
  Proof.
    intros Hx H. unfold axis in H. induction H as [|p c x xa Hpc H IH]; [reflexivity|]. apply Forall_cons_iff in Hx as (_ & Hx).
    unfold column in *. cbn [map]. rewrite <- (IH Hx). f_equal. symmetry. now apply nth_error_nth.
  Qed.
  Lemma nth_axes d (x : list (list R)) a xa : nth_error (axes d x) a = Some xa <-> (a < d)%nat /\ xa = column a x.
  Proof.
    unfold axes. rewrite nth_error_map. destruct (Nat.lt_ge_cases a d) as [H|H].
    - rewrite (nth_error_nth' (seq 0 d) 0%nat) by (now rewrite seq_length). rewrite seq_nth by exact H. cbn [option_map]. rewrite Nat.add_0_l. split.
      + intros [= <-]. auto.
      + intros (_ & ->). reflexivity.
    - rewrite (proj2 (nth_error_None _ _)) by (rewrite seq_length; lia). cbn [option_map]. split; [discriminate|]. lia.
  Qed.

  Lemma dot_seq (l p : list R) : length p = length l -> dot l p = dot l (map (fun a => nth a p 0) (seq 0 (length l))).
  Proof. intros H. rewrite <- H. f_equal. clear. induction p as [|x p IH]; [reflexivity|]. cbn [length seq map nth]. f_equal. rewrite <- seq_shift, map_map. exact IH. Qed.

  Lemma dot_lin {X} (l : list R) (b : R) (f g : X -> R) s : b * dot l (map f s) + dot l (map g s) = dot l (map (fun a => b * f a + g a) s).
  Proof.
    revert l. induction s as [|k s IH]; intros [|c l]; cbn [map]; try (unfold dot; cbn [map2 rsum]; ring). rewrite !dot_cons, <- IH. ring.
  Qed.

  Lemma dot_points (l w : list R) (x : list (list R)) : Forall (fun p => length p = length l) x ->
    dot w (map (fun p => dot l p) x) = dot l (map (fun a => dot w (column a x)) (seq 0 (length l))).
  Proof.
    intros Hx. revert w. induction Hx as [|p x Hp Hx IH]; intros w.
    - cbn [map column]. transitivity (@r0 R); [destruct w; reflexivity|]. symmetry.
      transitivity (dot l (zeros (length l))); [|rewrite dot_comm; apply dot_zeros]. f_equal. unfold zeros, column. cbn [map].
      generalize 0%nat as s. clear. induction l as [|c l IH]; intros s; cbn [length seq map repeat]; [reflexivity|]. f_equal; [destruct w; reflexivity|apply IH].
    - destruct w as [|b w].
      + transitivity (@r0 R); [reflexivity|]. symmetry. transitivity (dot l (zeros (length l))); [|rewrite dot_comm; apply dot_zeros]. f_equal.
        unfold zeros. generalize 0%nat as s. clear. induction l as [|c l IH]; intros s; cbn [length seq map repeat]; [reflexivity|]. f_equal. apply IH.
      + cbn [map]. rewrite dot_cons, (IH w), (dot_seq l p Hp).
        transitivity (dot l (map (fun a => b * nth a p 0 + dot w (column a x)) (seq 0 (length l)))).
        * apply dot_lin.
        * reflexivity.
  Qed.

  Lemma nth_transform d M A b (x : list R) a r : is_mat d d M -> (forall y, length y = d -> times A y = matvec M y) -> args_ok d A b ->
    length x = d -> nth_error M a = Some r -> exists c, nth_error (shift d b) a = Some c /\ nth_error (transform d A b x) a = Some (dot r x + c).
  Proof.
    intros (HM & HMr) HA (_ & Hb) Hx Hr. unfold transform. rewrite (HA x Hx).
    assert (Ha : (a < d)%nat) by (rewrite <- HM; apply nth_error_Some; congruence).
    assert (Hs : length (shift d b) = d). { destruct b as [[c|v]|]; cbn [shift]; [apply repeat_length|now apply Hb|apply repeat_length]. }
    destruct (nth_error (shift d b) a) as [c|] eqn:Ec; [|apply nth_error_None in Ec; lia]. exists c. split; [reflexivity|].
    unfold vadd. apply map2_nth; [|exact Ec]. unfold matvec. rewrite nth_error_map, Hr. reflexivity.
  Qed.

  Lemma transform_length d M A b (x : list R) : is_mat d d M -> (forall y, length y = d -> times A y = matvec M y) -> args_ok d A b ->
    length x = d -> length (transform d A b x) = d.
  Proof.
    intros (HM & HMr) HA (_ & Hb) Hx. unfold transform. rewrite (HA x Hx).
    assert (Hs : length (shift d b) = d). { destruct b as [[c|v]|]; cbn [shift]; [apply repeat_length|now apply Hb|apply repeat_length]. }
    rewrite vadd_length by (rewrite matvec_length; lia). rewrite matvec_length. exact HM.
  Qed.

  (** nodes of the image interpolate the images of the vertices *)
  Lemma interpolates_transform d M A b (P : list (list R)) nu pts row x :
    is_mat d d M -> (forall y, length y = d -> times A y = matvec M y) -> args_ok d A b ->
    is_mat (d + 1) nu P -> Forall (fun w => dot w (map (fun _ => 1) w) = 1) P -> Forall (fun p => length p = d) pts ->
    length x = nu -> Forall (fun p => length p = d) x -> interpolates P pts row x ->
    interpolates P (map (transform d A b) pts) row (map (transform d A b) x).
  Proof.
    intros HM HA Hargs (HP & HPr) Hone Hpts Hxn Hx Hint k a w xa c Hw Hax (v & p & Hv & Hp & Hc).
    rewrite nth_error_map in Hp. destruct (nth_error pts v) as [q|] eqn:Eq; [|discriminate Hp]. injection Hp as <-.
    pose proof (proj1 (Forall_forall _ _) Hpts q (nth_error_In _ _ Eq)) as Hq. cbv beta in Hq.
    assert (Ha : (a < d)%nat). { rewrite <- (transform_length d M A b q HM HA Hargs Hq). apply nth_error_Some. congruence. }
    pose proof HM as (HMl & HMr). destruct (nth_error M a) as [r|] eqn:Er; [|apply nth_error_None in Er; lia].
    pose proof (proj1 (Forall_forall _ _) HMr r (nth_error_In _ _ Er)) as Hr. cbv beta in Hr.
    destruct (nth_transform d M A b q a r HM HA Hargs Hq Er) as (c0 & Hc0 & Ht). rewrite Ht in Hc. injection Hc as <-.
    assert (E : xa = map (fun p => dot r p + c0) x).
    { unfold axis in Hax. clear -Hax HM HA Hargs Er Hc0 Hx. revert xa Hax. induction Hx as [|p x Hp Hx IH]; intros xa Hax; destruct xa as [|y ys]; [reflexivity|now inversion Hax|now inversion Hax|].
      assert (H1 : nth_error (transform d A b p) a = Some y) by (now inversion Hax). assert (H2 : Forall2 (fun p c => nth_error p a = Some c) (map (transform d A b) x) ys) by (now inversion Hax).
      cbn [map]. rewrite (IH _ H2). f_equal. destruct (nth_transform d M A b p a r HM HA Hargs Hp Er) as (c1 & Hc1 & Ht). rewrite Ht in H1. injection H1 as <-. congruence. }
    rewrite E.
    transitivity (dot w (map (fun p => dot r p) x) + dot w (map (fun _ => c0) x)); [apply (dot_map_add R w x (fun p => dot r p) (fun _ => c0))|].
    rewrite (dot_map_const R w x c0).
    pose proof (proj1 (Forall_forall _ _) Hone w (nth_error_In _ _ Hw)) as H1. cbv beta in H1.
    pose proof (proj1 (Forall_forall _ _) HPr w (nth_error_In _ _ Hw)) as Hwl. cbv beta in Hwl.
    assert (E1 : map (fun _ : list R => @r1 R) x = map (fun _ => 1) w).
    { rewrite <- Hwl in Hxn. clear -Hxn. revert w Hxn. induction x as [|p x IH]; intros [|y w] Hl; cbn in *; try discriminate; [reflexivity|]. f_equal. apply IH. lia. }
    rewrite E1, H1. rewrite dot_points by (now rewrite Hr). rewrite Hr.
    assert (E2 : map (fun a => dot w (column a x)) (seq 0 d) = q).
    { apply nth_error_ext'. intros i. rewrite nth_error_map. destruct (Nat.lt_ge_cases i d) as [Hi|Hi].
      - rewrite (nth_error_nth' (seq 0 d) 0%nat) by (now rewrite seq_length). rewrite seq_nth by exact Hi. cbn [option_map]. rewrite Nat.add_0_l.
        destruct (nth_error q i) as [y|] eqn:Ey; [|apply nth_error_None in Ey; lia]. f_equal.
        apply (Hint k i w); [exact Hw|apply (column_axis d); assumption|]. exists v, q. auto.
      - rewrite (proj2 (nth_error_None (seq 0 d) i)) by (rewrite seq_length; lia). symmetry. apply nth_error_None. lia. }
    rewrite E2. ring.
  Qed.

  Lemma interpolates_exact d (P : list (list R)) pts row x : Forall (fun p => length p = d) x -> interpolates P pts row x -> nodes_exact P pts row (axes d x).
  Proof.
    intros Hx H k a w xa c Hw Hxa Hc. apply nth_axes in Hxa as (Ha & ->). eapply H; eauto. now apply (column_axis d).
  Qed.

  (** determinants of the image *)
  Lemma vsub_transform d M A b (x y : list R) : is_mat d d M -> (forall y, length y = d -> times A y = matvec M y) -> args_ok d A b ->
    length x = d -> length y = d -> vsub (transform d A b x) (transform d A b y) = matvec M (vsub x y).
  Proof.
    intros HM HA Hargs Hx Hy. pose proof HM as (HMl & HMr). apply nth_error_ext'. intros a.
    destruct (nth_error M a) as [r|] eqn:Er.
    - destruct (nth_transform d M A b x a r HM HA Hargs Hx Er) as (c & Hc & H1). destruct (nth_transform d M A b y a r HM HA Hargs Hy Er) as (c' & Hc' & H2).
      rewrite Hc in Hc'. injection Hc' as <-. transitivity (Some ((dot r x + c) - (dot r y + c))); [unfold vsub; apply map2_nth; assumption|]. unfold matvec. rewrite nth_error_map, Er. cbn [option_map]. f_equal.
      rewrite vsub_vadd, dot_vadd_r by (unfold vopp; rewrite map_length; congruence). rewrite dot_vopp_r. ring.
    - transitivity (@None R); [|symmetry]; apply nth_error_None; apply nth_error_None in Er.
      + rewrite vsub_length; rewrite !(transform_length d M A b) by assumption; lia.
      + rewrite matvec_length. lia.
  Qed.

  Lemma edge_det_transform d M A b bs pts row o : (1 <= d <= 3)%nat -> is_mat d d M ->
    (forall y, length y = d -> times A y = matvec M y) -> args_ok d A b -> length (snd bs) = d -> Forall (fun p => length p = d) pts ->
    edge_det d bs pts row o -> edge_det d bs (map (transform d A b) pts) row (det R d M * o).
  Proof.
    intros Hd HM HA Hargs Hbs Hpts (p & xs & (v & Hv & Hp) & HF & ->).
    assert (Hlen : forall q v, nth_error pts v = Some q -> length q = d) by (intros q v' Hq; apply (proj1 (Forall_forall _ _) Hpts q (nth_error_In _ _ Hq))).
    exists (transform d A b p), (map (transform d A b) xs). split; [|split].
    - exists v. split; [exact Hv|]. rewrite nth_error_map, Hp. reflexivity.
    - clear Hbs. induction HF as [|k x ks xs (v' & H1 & H2) HF IH]; cbn [map]; constructor; [|exact IH]. exists v'. split; [exact H1|]. now rewrite nth_error_map, H2.
    - assert (Hxs : Forall (fun x => length x = d) xs).
      { clear -HF Hlen. induction HF as [|k x ks xs (v' & H1 & H2) HF IH]; constructor; [eapply Hlen; eauto|exact IH]. }
      assert (Hxl : length xs = d) by (rewrite <- Hbs; symmetry; exact (Forall2_length' _ _ _ HF)).
      rewrite <- det_matvec; [|exact Hd|exact HM|now rewrite map_length|].
      + f_equal. rewrite !map_map. apply map_ext_in. intros x Hx. symmetry. rewrite <- (vsub_transform d M A b); auto; [exact (proj1 (Forall_forall _ _) Hxs x Hx)|eapply Hlen; eauto].
      + apply Forall_forall. intros u Hu. apply in_map_iff in Hu as (x & <- & Hx). pose proof (proj1 (Forall_forall _ _) Hxs x Hx) as Hxd. cbv beta in Hxd.
        rewrite vsub_length; [exact Hxd|]. rewrite Hxd. symmetry. eapply Hlen; eauto.
  Qed.

  Variable resampling : cgroup R -> list (list (fl R)).
  Variable span : cgroup R -> nat * list nat.
  Variable default_tol : R.

  (** nodes by axis, groups as the check sees them *)
  Definition axes_group (d : nat) (g : egroup (list (list R))) : egroup (enodes R) := mk_egroup (eg_vi g) (map (axes d) (eg_nodes g) : list (enodes R)) (eg_fvi g).

  Lemma by_axis_mesh_ok {X} d (m : mesh (list (list R)) X (list R)) : Forall (fun g => Forall (Forall (fun x => length x = d)) (eg_nodes g)) (m_groups m) ->
    by_axis_mesh R d m = Ok (mk_mesh (map (axes_group d) (m_groups m)) (m_vertices m) (m_conforming m) (m_nodal m) (m_facial m) (m_vdtype m) (m_edtype m) (m_fdtype m)).
  Proof.
    intros H. unfold by_axis_mesh. rewrite (mapM_pure' _ (axes_group d)); [reflexivity|]. intros g Hg.
    rewrite (mapM_pure' _ (axes d)); [reflexivity|]. intros x Hx. apply by_axis_ok.
    exact (proj1 (Forall_forall _ _) (proj1 (Forall_forall _ _) H g Hg) x Hx).
  Qed.

  Definition els_pts (d : nat) (groups : list (egroup (list (list R)))) : list (list (list nat) * list (list (list R))) :=
    map (fun g => (match eg_vi g with Some rows => rows | None => [] end, map (axes d) (eg_nodes g))) groups.

  Section Checked.
    Variables (P : list (list nat) -> list (list R)) (vid d : nat) (pts : list (list R)).
    Hypothesis Hd : (1 <= d <= 3)%nat.
    Hypothesis Hres : forall g, resampling (float_group R vid d d g) = lift2 R (P (eg_fvi g)).
    Hypothesis Hspan : forall g, span (float_group R vid d d g) = (0%nat, seq 1 d).

    (** the check on a mesh whose nodes interpolate its vertices *)
    Lemma check_points {X} (m : mesh (list (list R)) X (list R)) tol : 0 <? tol = true ->
      m_vertices m = Some pts -> points_in d m -> m_groups m <> [] -> Forall (simplex_group P d (length pts)) (m_groups m) ->
      m_facial m = Pending -> m_nodal m = Pending -> m_vdtype m = vid ->
      (forall i j row x g, nth_error (m_groups m) i = Some g -> elem_at (m_groups m) i j row x -> interpolates (P (eg_fvi g)) pts row x) ->
      exists fm, by_axis_mesh R d m = Ok fm /\
        ((exists e, check_mesh_consistency R resampling span default_tol d (Tol tol) false (float_mesh R vid d d fm) = Err e /\ is_inconsistent_error e = true) \/
         check_mesh_consistency R resampling span default_tol d (Tol tol) false (float_mesh R vid d d fm) = Ok tt) /\
        (check_mesh_consistency R resampling span default_tol d (Tol tol) false (float_mesh R vid d d fm) = Ok tt <->
         forall i j row x o, elem_at (m_groups m) i j row x -> edge_det d (0%nat, seq 1 d) pts row o -> 0 <? o = true).
    Proof using Hd Hres Hspan.
      intros Htol Hv (Hpv & Hpn) Hne HS Hf Hn Hvd Hint. rewrite (by_axis_mesh_ok d m Hpn). eexists. split; [reflexivity|].
      set (fm := float_mesh R vid d d _).
      assert (Hex : exact_mesh d fm pts (els_pts d (m_groups m))).
      { subst fm. unfold exact_mesh, float_mesh. cbn. split; [now rewrite Hv|]. split; [exact (Hpv pts Hv)|]. split.
        - unfold els_pts. rewrite map_map. apply Forall2_maps.
          clear Hne Hint Hpn. induction HS as [|g gs (rows & nu & Hvi & Hl & _) HS IH]; [constructor|constructor; [|exact IH]]. unfold exact_group. cbn.
          rewrite Hvi. rewrite !map_map, map_length. cbn. repeat split; auto.
        - unfold els_pts. destruct (m_groups m); [congruence|discriminate]. }
      assert (Href : Forall2 (reference resampling span d (length pts)) (cm_groups fm) (els_pts d (m_groups m))).
      { subst fm. unfold float_mesh, els_pts. cbn [cm_groups m_groups]. rewrite map_map. apply Forall2_maps.
        clear Hne Hint Hex. induction HS as [|g gs (rows & nu & Hvi & Hl & Hrows & Hnodes & (HPl & HPr) & _) HS IH]; [constructor|].
        apply Forall_cons_iff in Hpn as (Hp1 & Hp2). constructor; [|exact (IH Hp2)]. exists (P (eg_fvi g)), nu. rewrite Hres, Hspan. cbn [fst snd axes_group eg_fvi]. rewrite Hvi. split; [reflexivity|]. split; [intros E; rewrite E in HPl; cbn in HPl; lia|]. split; [exact HPr|]. split; [|split; [lia|split; [apply seq_length|]]].
        - split; cbn [fst snd]; [now rewrite HPl|]. apply Forall_forall. intros y Hy. apply in_map_iff in Hy as (x & <- & Hx). unfold axes. rewrite map_length, seq_length. split; [reflexivity|].
          apply Forall_forall. intros r Hr. apply in_map_iff in Hr as (a & <- & _). unfold column. rewrite map_length. exact (proj1 (Forall_forall _ _) Hnodes x Hx).
        - apply Forall_forall. intros k Hk. apply in_seq in Hk. lia. }
      destruct (check_iff R resampling span default_tol d fm pts _ Hd Hex Href tol) as (D & I). split.
      { destruct D as [E|(e & E & He)]; [now right|left; eauto]. }
      rewrite I. clear D I.
      assert (Hel : forall i j g row x', element_of fm (els_pts d (m_groups m)) i j g row x' <-> exists g0 x, nth_error (m_groups m) i = Some g0 /\ elem_at (m_groups m) i j row x /\ x' = axes d x /\ g = float_group R vid d d (axes_group d g0)).
      { intros i j g row x'. unfold element_of, els_pts, elem_at. subst fm. unfold float_mesh. cbn [cm_groups m_groups]. rewrite map_map, !nth_error_map. split.
        - intros (e & H1 & H2 & H3 & H4). destruct (nth_error (m_groups m) i) as [g0|] eqn:Eg; [|discriminate H1]. cbn [option_map] in *. injection H1 as <-. injection H2 as <-. cbn [fst snd] in *.
          destruct (proj1 (Forall_forall _ _) HS g0 (nth_error_In _ _ Eg)) as (rows & nu & Hvi & _). rewrite Hvi in H3.
          rewrite nth_error_map in H4. destruct (nth_error (eg_nodes g0) j) as [x|] eqn:Ex; [|discriminate H4]. injection H4 as <-.
          exists g0, x. split; [reflexivity|]. split; [|auto]. exists g0, rows. auto.
        - intros (g0 & x & Hg & (g1 & rows & Hg1 & Hvi & Hrow & Hx) & -> & ->). rewrite Hg in Hg1. injection Hg1 as <-. rewrite Hg. cbn [option_map].
          eexists. split; [reflexivity|]. split; [reflexivity|]. cbn [fst snd]. rewrite Hvi, nth_error_map, Hx. auto. }
      assert (Hnode : forall i j row x g, nth_error (m_groups m) i = Some g -> elem_at (m_groups m) i j row x -> Forall (fun p => length p = d) x).
      { intros i j row x g Hg (g1 & rows & Hg1 & _ & _ & Hx). exact (proj1 (Forall_forall _ _) (proj1 (Forall_forall _ _) Hpn g1 (nth_error_In _ _ Hg1)) x (nth_error_In _ _ Hx)). }
      unfold consistent. split.
      - intros (_ & H & _) i j row x o He Ho. pose proof He as (g0 & rows & Hg & _).
        apply (H i j (float_group R vid d d (axes_group d g0)) row (axes d x) o); [apply Hel; eauto 10|]. now rewrite Hspan.
      - intros H. split; [|split; [|split; [|split]]].
        + intros i j g row x' P' He HP'. apply Hel in He as (g0 & x & Hg & He & -> & ->). rewrite Hres in HP'. cbn [axes_group eg_fvi] in HP'.
          apply lift2_inj in HP'. subst P'. apply exact_match; [exact Htol|]. apply interpolates_exact; [eapply Hnode; eauto|]. eapply Hint; eauto.
        + intros i j g row x' o He Ho. apply Hel in He as (g0 & x & Hg & He & -> & ->). rewrite Hspan in Ho. eapply H; eauto.
        + subst fm. unfold float_mesh. cbn [cm_groups cm_vdtype m_groups m_vdtype]. apply Forall_forall. intros g Hg. apply in_map_iff in Hg as (g0 & <- & _). cbn. now rewrite Hvd.
        + intros st nb E. subst fm. cbn in E. rewrite Hn in E. discriminate E.
        + intros fags E. subst fm. cbn in E. rewrite Hf in E. discriminate E.
    Qed.
  End Checked.
End AffineMap.

Section AffineChecked.
  Variable R : ocring.
  Add Ring Rcd : (rth R).
  Local Open Scope cring_scope.

  Lemma affine_map_vdtype d A b (m m' : mesh (list (list R)) (amap R) (list R)) : affine_map R d A b m = Ok m' -> m_vdtype m' = m_vdtype m.
  Proof.
    unfold affine_map. destruct (option_map _ A) as [A'|], (option_map _ b) as [b'|]; intros H.
    4: now injection H as <-.
    all: apply bind_ok in H as (? & _ & H); apply bind_ok in H as (? & _ & H); apply bind_ok in H as (? & _ & H);
      apply bind_ok in H as (? & _ & H); apply bind_ok in H as (? & _ & H); injection H as <-; reflexivity.
  Qed.

  Lemma affine_checked resampling span default_tol P vid d M A b (m : mesh (list (list R)) (amap R) (list R)) pts :
    (forall x y : R, 0 <? x = true -> 0 <? y = true -> 0 <? x * y = true) ->
    (1 <= d <= 3)%nat -> 0 <? default_tol = true ->
    (forall g, resampling (float_group R vid d d g) = lift2 R (P (eg_fvi g))) ->
    (forall g, span (float_group R vid d d g) = (0%nat, seq 1 d)) ->
    is_mat d d M -> (forall x, length x = d -> times A x = matvec M x) -> args_ok d A b -> (A <> None \/ b <> None) ->
    m_vertices m = Some pts -> points_in d m -> Forall (simplex_group P d (length pts)) (m_groups m) ->
    m_facial m = Pending -> m_nodal m = Pending -> m_vdtype m = vid ->
    (forall i j row x g, nth_error (m_groups m) i = Some g -> elem_at (m_groups m) i j row x -> interpolates (P (eg_fvi g)) pts row x) ->
    (forall i j row x, elem_at (m_groups m) i j row x -> exists o, edge_det d (0%nat, seq 1 d) pts row o /\ 0 <? o = true) ->
    (exists i j row x, elem_at (m_groups m) i j row x) ->
    (0 <? det R d M = true -> exists m', affine_map_checked R resampling span default_tol vid d A b m = Ok m' /\ affine_map R d A b m = Ok m') /\
    (0 <? det R d M = false -> exists e, affine_map_checked R resampling span default_tol vid d A b m = Err e /\ is_inconsistent_error e = true).
  Proof.
    intros Hpos Hd Htol Hres Hspan HM HA Hargs Hsome Hv Hpts HS Hf Hn Hvd Hint Hdet (i0 & j0 & row0 & x0 & He0).
    destruct (affine_map_ok R d A b m Hargs Hpts) as (m' & Hm' & [Su1 Su2 Su3 Su4] & Hfac); [congruence|intros ? E; congruence|].
    pose proof Hpts as (Hp1 & Hp2). pose proof (Hp1 pts Hv) as Hptsd.
    assert (Hf' : m_facial m' = Pending). { rewrite Hf in Hfac. destruct (m_facial m'); tauto. }
    rewrite Hv in Su1. cbn [option_map] in Su1.
    assert (Hp' : points_in d m').
    { split.
      - intros vs E. rewrite Su1 in E. injection E as <-. apply Forall_forall. intros y Hy. apply in_map_iff in Hy as (x & <- & Hx).
        apply (transform_length R d M A b x HM HA Hargs). exact (proj1 (Forall_forall _ _) Hptsd x Hx).
      - apply Forall_forall. intros g' Hg'. apply In_nth_error in Hg' as (i & Hi). destruct (Forall2_nth_error_r _ _ _ _ _ Su2 Hi) as (g & Hg & _ & _ & E). rewrite E.
        apply Forall_forall. intros y Hy. apply in_map_iff in Hy as (x & <- & Hx). apply Forall_forall. intros q Hq. apply in_map_iff in Hq as (p & <- & Hp).
        apply (transform_length R d M A b p HM HA Hargs). exact (proj1 (Forall_forall _ _) (proj1 (Forall_forall _ _) (proj1 (Forall_forall _ _) Hp2 g (nth_error_In _ _ Hg)) x Hx) p Hp). }
    assert (Hel : forall i j row x', elem_at (m_groups m') i j row x' -> exists x, elem_at (m_groups m) i j row x /\ x' = map (transform d A b) x).
    { intros i j row x' (g' & rows & Hg' & Hvi & Hr & Hx). destruct (Forall2_nth_error_r _ _ _ _ _ Su2 Hg') as (g & Hg & E1 & _ & E3). rewrite E3, nth_error_map in Hx.
      destruct (nth_error (eg_nodes g) j) as [x|] eqn:Ex; [|discriminate Hx]. injection Hx as <-. exists x. split; [|reflexivity]. exists g, rows. rewrite <- E1. auto. }
    assert (Hel' : forall i j row x, elem_at (m_groups m) i j row x -> elem_at (m_groups m') i j row (map (transform d A b) x)).
    { intros i j row x (g & rows & Hg & Hvi & Hr & Hx). destruct (Forall2_nth_error _ _ _ _ _ Su2 Hg) as (g' & Hg' & E1 & _ & E3). exists g', rows.
      rewrite E1, E3, nth_error_map, Hx. auto. }
    assert (HS' : Forall (simplex_group P d (length (map (transform d A b) pts))) (m_groups m')).
    { apply Forall_forall. intros g' Hg'. apply In_nth_error in Hg' as (i & Hi). destruct (Forall2_nth_error_r _ _ _ _ _ Su2 Hi) as (g & Hg & E1 & E2 & E3).
      destruct (proj1 (Forall_forall _ _) HS g (nth_error_In _ _ Hg)) as (rows & nu & H1 & H2 & H3 & H4 & H5 & H6). exists rows, nu. rewrite E1, E2, E3, !map_length.
      do 3 (split; [assumption|]). split; [|auto]. apply Forall_forall. intros y Hy. apply in_map_iff in Hy as (x & <- & Hx). rewrite map_length. exact (proj1 (Forall_forall _ _) H4 x Hx). }
    destruct (check_points R resampling span default_tol P vid d (map (transform d A b) pts) Hd Hres Hspan m' default_tol Htol Su1 Hp') as (fm & Hfm & D & I).
    - destruct He0 as (g & rows & Hg & _). destruct (m_groups m') eqn:E; [|discriminate]. inversion Su2 as [E'|]. rewrite <- E' in Hg. destruct i0; discriminate Hg.
    - exact HS'.
    - exact Hf'.
    - congruence.
    - rewrite (affine_map_vdtype d A b m m' Hm'). exact Hvd.
    - intros i j row x' g' Hg' He'. destruct (Forall2_nth_error_r _ _ _ _ _ Su2 Hg') as (g & Hg & _ & E2 & _). rewrite E2.
      destruct (Hel i j row x' He') as (x & He & ->).
      destruct (proj1 (Forall_forall _ _) HS g (nth_error_In _ _ Hg)) as (rows & nu & H1 & H2 & H3 & H4 & H5 & H6).
      pose proof He as (g1 & vi & Hg1 & Hvi & Hrow & Hx). rewrite Hg in Hg1. injection Hg1 as <-.
      apply (interpolates_transform R d M A b (P (eg_fvi g)) nu); auto.
      + exact (proj1 (Forall_forall _ _) H4 x (nth_error_In _ _ Hx)).
      + exact (proj1 (Forall_forall _ _) (proj1 (Forall_forall _ _) Hp2 g (nth_error_In _ _ Hg)) x (nth_error_In _ _ Hx)).
      + eapply Hint; eauto.
    - assert (Hred : affine_map_checked R resampling span default_tol vid d A b m =
        (_ <- check_mesh_consistency R resampling span default_tol d (Tol default_tol) false (float_mesh R vid d d fm) ;; Ok m')).
      { unfold affine_map_checked. rewrite Hm'. cbn [bind]. destruct A, b; [| | |destruct Hsome; congruence]; rewrite Hfm; reflexivity. }
      assert (Htr : forall row o, edge_det d (0%nat, seq 1 d) pts row o -> edge_det d (0%nat, seq 1 d) (map (transform d A b) pts) row (det R d M * o)).
      { intros row o Ho. apply edge_det_transform; auto. apply seq_length. }
      rewrite Hred. split.
      + intros HdM. exists m'. split; [|exact Hm']. rewrite (proj2 I); [reflexivity|]. intros i j row x' o He' Ho. destruct (Hel i j row x' He') as (x & He & ->).
        destruct (Hdet i j row x He) as (o0 & Ho0 & Hp0). rewrite (edge_det_fun R _ _ _ _ _ _ Ho (Htr row o0 Ho0)). now apply Hpos.
      + intros HdM. destruct D as [(e & E & He)|E]; [rewrite E; cbn [bind]; eauto|]. exfalso.
        destruct (Hdet i0 j0 row0 x0 He0) as (o0 & Ho0 & Hp0). pose proof (proj1 I E i0 j0 row0 _ _ (Hel' _ _ _ _ He0) (Htr _ _ Ho0)) as H.
        assert (Hle : (det R d M <=? 0) = true) by (unfold olt in HdM; now apply negb_false_iff in HdM).
        apply le_diff in Hle. pose proof (ole_mul R _ _ Hle (olt_nle _ _ _ Hp0)) as Hm. rewrite olt_iff in H.
        assert (E0 : (det R d M * o0 <=? 0) = true). { apply diff_le. now replace (0 - det R d M * o0) with ((0 - det R d M) * o0) by ring. }
        congruence.
  Qed.
End AffineChecked.
