(** * VisIoXdmfProofs: proofs about the fields of XDMF files and the names of fields. *)
From Coq Require Import String List Arith Bool Lia.
From Verif Require Import Np NpFacts MeshModel DofModel DofProofs VisModel VisIoModel VisIoSpec VisIoFieldProofs.
Import ListNotations.

Section X.
  Variable R : Type.
  Variable zero : R.
  Variable conn : dofarray R -> res (dofarray R).
  Variable groups : list (nat * nat).
  Local Notation scalar := (scalar R zero conn groups).
  Local Notation by_group1 := (resample_by_group1 R conn groups).
  Definition garr (c : bool) (g : list (R * R)) : narr R := if c then ComplexArr g else RealArr (map fst g).

  Lemma scalar_by_group v c vals : scalar v c vals -> by_group1 v = Ok (map (garr c) vals).
  Proof using.
    intros [x|x y|d d' Hd Hs|d d' Hd Hs]; cbn [resample_by_group1].
    - rewrite map_map. f_equal. apply map_ext. intros g. unfold garr, full, ndofs. f_equal. induction (fst g * snd g) as [|n IH]; [reflexivity|]. cbn [repeat map fst]. now rewrite <- IH.
    - rewrite map_map. reflexivity.
    - rewrite Hd. cbn [bind]. unfold check_vis, dof_shapes. rewrite (proj2 (check_iff _ _) (shapes_rect groups d' _ Hs)). cbn [bind group_arrays]. f_equal. rewrite map_map. apply map_ext. intros dg. unfold garr. rewrite map_map. cbn [fst]. now rewrite map_id.
    - rewrite Hd. cbn [bind]. unfold check_vis, dof_shapes. rewrite (proj2 (check_iff _ _) (shapes_rect groups d' _ Hs)). cbn [bind group_arrays]. f_equal. rewrite map_map. reflexivity.
  Qed.

  Lemma rect_concat {A} (g : nat * nat) (dg : list (list A)) : rect g dg -> length (concat dg) = fst g * snd g.
  Proof using. intros (<- & H). induction H as [|x dg Hx _ IH]; [reflexivity|]. cbn [concat length]. rewrite app_length, IH, Hx. lia. Qed.
  Lemma scalar_lengths v c vals : scalar v c vals -> Forall2 (fun g vs => length vs = fst g * snd g) groups vals.
  Proof using.
    intros [x|x y|d d' Hd Hs|d d' Hd Hs].
    - induction groups as [|g gs IH]; cbn [map]; constructor; [now rewrite repeat_length|exact IH].
    - induction groups as [|g gs IH]; cbn [map]; constructor; [now rewrite repeat_length|exact IH].
    - clear Hd. induction Hs as [|g dg gs d' Hg _ IH]; [constructor|]. cbn [map]. constructor; [rewrite map_length; now apply rect_concat|exact IH].
    - clear Hd. induction Hs as [|g dg gs d' Hg _ IH]; [constructor|]. cbn [map]. constructor; [now apply rect_concat|exact IH].
  Qed.
  Lemma scalar_im_zero v vals igrp g : scalar v false vals -> nth_error vals igrp = Some g -> Forall (fun z => snd z = zero) g.
  Proof using.
    intros Hv Hg. apply nth_error_In in Hg. inversion Hv; subst.
    - apply in_map_iff in Hg. destruct Hg as (g' & <- & _). apply Forall_forall. intros z Hz. apply repeat_spec in Hz. now subst.
    - apply in_map_iff in Hg. destruct Hg as (dg & <- & _). apply Forall_forall. intros z Hz. apply in_map_iff in Hz. destruct Hz as (x & <- & _). reflexivity.
  Qed.
  Lemma snd_zero l : Forall (fun z : R * R => snd z = zero) l -> map (fun x => (x, zero)) (map fst l) = l.
  Proof using. induction 1 as [|(a, b) l Hz _ IH]; [reflexivity|]. cbn [map fst snd] in *. now rewrite IH, Hz. Qed.

  (** components with their kinds and values *)
  Definition good (v : fval R) (cv : bool * list (list (R * R))) : Prop := scalar v (fst cv) (snd cv).
  Definition any (cvs : list (bool * list (list (R * R)))) : bool := existsb fst cvs.

  Lemma vec_by_group vs cvs : Forall2 good vs cvs -> mapM by_group1 vs = Ok (map (fun cv => map (garr (fst cv)) (snd cv)) cvs).
  Proof using. induction 1 as [|v cv vs cvs Hv _ IH]; [reflexivity|]. cbn [mapM]. rewrite (scalar_by_group _ _ _ Hv). cbn [bind]. rewrite IH. reflexivity. Qed.

  Lemma vec_lengths vs cvs : Forall2 good vs cvs -> Forall (fun cv => Forall2 (fun g x => length x = fst g * snd g) groups (snd cv)) cvs.
  Proof using. induction 1 as [|v cv vs cvs Hv _ IH]; constructor; [exact (scalar_lengths _ _ _ Hv)|exact IH]. Qed.

  Lemma rows_ok cvs igrp g : nth_error groups igrp = Some g -> Forall (fun cv : bool * list (list (R * R)) => Forall2 (fun g x => length x = fst g * snd g) groups (snd cv)) cvs ->
    exists rows, mapM (fun ri : list (narr R) => get ri igrp) (map (fun cv => map (garr (fst cv)) (snd cv)) cvs) = Ok rows /\ Forall (fun a => narr_length R a = fst g * snd g) rows /\
      Forall2 (fun cv a => exists x, nth_error (snd cv) igrp = Some x /\ a = garr (fst cv) x) cvs rows.
  Proof using.
    intros Hg. induction 1 as [|cv cvs Hcv _ (rows & H1 & H2 & H3)]; [exists []; repeat split; constructor|]. destruct (Forall2_nth_error _ _ _ _ _ Hcv Hg) as (x & Hx & Hl).
    exists (garr (fst cv) x :: rows). cbn [map mapM]. unfold get at 1. rewrite (map_nth_error _ _ _ Hx). cbn [bind]. rewrite H1. split; [reflexivity|]. split; constructor; eauto. unfold garr. destruct (fst cv); cbn [narr_length]; [exact Hl|now rewrite map_length].
  Qed.

  Lemma stack_ok vs cvs igrp g : vs <> [] -> nth_error groups igrp = Some g -> Forall2 good vs cvs ->
    exists rows, mapM (fun ri : list (narr R) => get ri igrp) (map (fun cv => map (garr (fst cv)) (snd cv)) cvs) = Ok rows /\
      stack R zero rows = Ok (if any cvs then ComplexArr2 (map (fun cv : bool * list (list (R * R)) => match nth_error (snd cv) igrp with Some x => x | None => [] end) cvs)
                              else RealArr2 (group_rows_of R fst (map snd cvs) igrp)).
  Proof using.
    intros Hne Hg HF. destruct (rows_ok cvs igrp g Hg (vec_lengths _ _ HF)) as (rows & H1 & H2 & H3). exists rows. split; [exact H1|].
    unfold stack. destruct rows as [|r rows']; [inversion H3; subst; inversion HF; subst; congruence|].
    assert (Hlen : forallb (fun a => narr_length R a =? narr_length R r) (r :: rows') = true).
    { apply forallb_forall. intros a Ha. apply Nat.eqb_eq. rewrite (proj1 (Forall_forall _ _) H2 a Ha). symmetry. exact (Forall_inv H2). }
    rewrite Hlen. cbn [guard bind]. assert (Hex : existsb (is_complex R) (r :: rows') = any cvs).
    { unfold any. clear -H3. induction H3 as [|cv a cvs rows (x & _ & ->) _ IH]; [reflexivity|]. cbn [existsb]. rewrite IH. f_equal. unfold garr. destruct (fst cv); reflexivity. }
    rewrite Hex. f_equal. destruct (any cvs) eqn:Ea; f_equal.
    - clear -H3 HF. revert vs HF. induction H3 as [|cv a cvs rows (x & Hx & ->) _ IH]; intros vs HF; inversion HF as [|v ? vs' ? Hv HF']; subst; [reflexivity|]. cbn [map]. rewrite (IH _ HF'). f_equal. rewrite Hx. destruct cv as ([|], vals); cbn [fst snd garr to_complex] in *; [reflexivity|].
      apply snd_zero. exact (scalar_im_zero _ _ _ _ Hv Hx).
    - unfold group_rows_of, real_rows. rewrite map_map. unfold any in Ea. clear -H3 Ea. induction H3 as [|cv a cvs rows (x & Hx & ->) _ IH]; [reflexivity|]. cbn [existsb map] in *. apply orb_false_iff in Ea. destruct Ea as (E1 & E2). rewrite (IH E2), Hx, E1. reflexivity.
  Qed.

  Definition gvals (cvs : list (bool * list (list (R * R)))) (igrp : nat) : gval R :=
    G2 (if any cvs then ComplexArr2 (map (fun cv : bool * list (list (R * R)) => match nth_error (snd cv) igrp with Some x => x | None => [] end) cvs)
        else RealArr2 (group_rows_of R fst (map snd cvs) igrp)).

  Lemma vec_resample vs cvs : vs <> [] -> Forall2 good vs cvs -> resample_by_group R zero conn groups (VObj vs) = Ok (map (gvals cvs) (seq 0 (length groups))).
  Proof using.
    intros Hne HF. cbn [resample_by_group]. rewrite (vec_by_group _ _ HF). cbn [bind]. destruct cvs as [|cv0 cvs]; [inversion HF; subst; congruence|].
    cbn [map]. rewrite map_length. assert (Hl : length (snd cv0) = length groups). { symmetry. exact (Forall2_length' _ _ _ (Forall_inv (vec_lengths _ _ HF))). }
    rewrite Hl. assert (H : forall vec, vec = map (fun cv : bool * list (list (R * R)) => map (garr (fst cv)) (snd cv)) (cv0 :: cvs) -> forall l, (forall i, In i l -> i < length groups) ->
       mapM (fun igrp => rows <- mapM (fun ri => get ri igrp) vec ;; a <- stack R zero rows ;; Ok (G2 a)) l = Ok (map (gvals (cv0 :: cvs)) l)).
    { intros vec Hvec. induction l as [|i l IH]; intros Hi; [reflexivity|]. cbn [mapM map]. assert (exists g, nth_error groups i = Some g) as (g & Hg). { destruct (nth_error groups i) eqn:E; eauto. apply nth_error_None in E. specialize (Hi i (or_introl eq_refl)). lia. }
      destruct (stack_ok vs (cv0 :: cvs) i g Hne Hg HF) as (rows & E1 & E2). rewrite <- Hvec in E1.
      rewrite E1. cbn [bind]. rewrite E2. cbn [bind]. rewrite IH by (intros j Hj; apply Hi; now right). reflexivity. }
    apply H; [reflexivity|]. intros i Hi. apply in_seq in Hi. lia.
  Qed.

  Hypothesis Hgroups : groups <> [].

  Lemma get_good vs : Forall (fun v => exists c vals, scalar v c vals) vs -> exists cvs, Forall2 good vs cvs.
  Proof using. induction 1 as [|v vs (c & vals & Hv) _ (cvs & H)]; [exists []; constructor|]. exists ((c, vals) :: cvs). now constructor. Qed.

  Lemma xentry_ok real_only n v : plottable R zero conn groups v -> v <> VObj [] ->
    exists r out, resample_by_group R zero conn groups v = Ok r /\ gseparate1 R zero real_only n r = Ok out /\ xdmf_entry R zero conn groups real_only (n, v) out.
  Proof using Hgroups.
    intros [(c & vals & Hv)|(vs & -> & Hvs)] Hne.
    - assert (E : resample_by_group R zero conn groups v = Ok (map G1 (map (garr c) vals))). { assert (E1 := scalar_by_group _ _ _ Hv). unfold resample_by_group. inversion Hv; subst; rewrite E1; reflexivity. }
      pose proof (Forall2_length' _ _ _ (scalar_lengths _ _ _ Hv)) as Hl. destruct vals as [|x vals]; [destruct groups; [congruence|discriminate]|].
      rewrite E. eexists _, _. split; [reflexivity|]. unfold gseparate1. cbn [map get nth_error bind gkind_c]. split; [reflexivity|]. destruct c; cbn [garr is_complex].
      + match goal with |- xdmf_entry _ _ _ _ _ _ (if _ then [(_, ?a)] else [_; (_, ?b)]) => replace a with (gre R (x :: vals)); [replace b with (gim R (x :: vals))|] end.
        * apply xentry_complex. exact Hv.
        * unfold gim. cbn [map greal_copy gimag_copy imag_copy]. f_equal. rewrite !map_map. reflexivity.
        * unfold gre. cbn [map greal_copy real_copy]. f_equal. rewrite !map_map. reflexivity.
      + match goal with |- xdmf_entry _ _ _ _ _ _ [(_, ?a)] => replace a with (gre R (x :: vals)) end; [apply xentry_real; exact Hv|]. unfold gre. cbn [map]. f_equal. rewrite map_map. reflexivity.
    - assert (Hvs' : vs <> []) by congruence. destruct (get_good vs Hvs) as (cvs & HF). rewrite (vec_resample vs cvs Hvs' HF).
      assert (Hg0 : get (map (gvals cvs) (seq 0 (length groups))) 0 = Ok (gvals cvs 0)) by (destruct groups; [congruence|reflexivity]).
      eexists _, _. split; [reflexivity|]. unfold gseparate1. rewrite Hg0. cbn [bind]. split; [reflexivity|].
      assert (HF2 : Forall2 (fun v vals => exists c, scalar v c vals) vs (map snd cvs)). { clear -HF. induction HF as [|v cv vs cvs Hv _ IH]; constructor; [exists (fst cv); exact Hv|exact IH]. }
      assert (Hk0 : gkind_c R (gvals cvs 0) = any cvs) by (unfold gvals; destruct (any cvs); reflexivity). rewrite Hk0. destruct (any cvs) eqn:Ea.
      + assert (Hre : map (greal_copy R) (map (gvals cvs) (seq 0 (length groups))) = gvec R groups fst (map snd cvs)).
        { unfold gvec. rewrite map_map. apply map_ext. intros i. unfold gvals. rewrite Ea. cbn [greal_copy]. do 2 f_equal. unfold group_rows_of. rewrite !map_map. apply map_ext. intros cv. destruct (nth_error (snd cv) i); reflexivity. }
        assert (Him : map (gimag_copy R zero) (map (gvals cvs) (seq 0 (length groups))) = gvec R groups snd (map snd cvs)).
        { unfold gvec. rewrite map_map. apply map_ext. intros i. unfold gvals. rewrite Ea. cbn [gimag_copy]. do 2 f_equal. unfold group_rows_of. rewrite !map_map. apply map_ext. intros cv. destruct (nth_error (snd cv) i); reflexivity. }
        rewrite Hre, Him. apply xentry_vector_complex; [exact HF2|]. unfold any in Ea. apply existsb_exists in Ea. destruct Ea as (cv & Hin & Hc). destruct (Forall2_In_r _ _ _ _ HF Hin) as (v & Hv & Hs). exists v, (snd cv). split; [exact Hv|]. unfold good in Hs. now rewrite Hc in Hs.
      + assert (Hre : map (gvals cvs) (seq 0 (length groups)) = gvec R groups fst (map snd cvs)). { unfold gvec. apply map_ext. intros i. unfold gvals. now rewrite Ea. }
        rewrite Hre. apply xentry_vector_real; [exact Hvs'|]. unfold any in Ea. clear -HF Ea. induction HF as [|v cv vs cvs Hv _ IH]; [constructor|]. cbn [existsb map] in *. apply orb_false_iff in Ea. destruct Ea as (E1 & E2). constructor; [unfold good in Hv; now rewrite E1 in Hv|exact (IH E2)].
  Qed.

  Lemma wanted_nonempty nf f : In f (wanted R nf) -> snd f <> VObj [].
  Proof using. unfold wanted. intros H. apply filter_In in H. destruct H as (_ & H). unfold present in H. intros E. now rewrite E in H. Qed.

  Lemma xdmf_data_ok real_only nf : Forall (fun f => plottable R zero conn groups (snd f)) (wanted R nf) ->
    exists parts, xdmf_data R zero conn groups real_only nf = Ok (concat parts) /\ Forall2 (xdmf_entry R zero conn groups real_only) (wanted R nf) parts.
  Proof using Hgroups.
    intros H. unfold xdmf_data. rewrite preprocess_wanted. pose proof (wanted_nonempty nf) as Hne. revert H Hne. generalize (wanted R nf) as w. intros w H Hne.
    assert (exists rs outs, mapM (fun f : string * fval R => r <- resample_by_group R zero conn groups (snd f) ;; Ok (fst f, r)) w = Ok rs /\
      mapM (fun f : string * list (gval R) => gseparate1 R zero real_only (fst f) (snd f)) rs = Ok outs /\ Forall2 (xdmf_entry R zero conn groups real_only) w outs) as (rs & outs & H1 & H2 & H3).
    { induction H as [|(n, v) l Hv _ IH]; [exists [], []; repeat split; constructor|]. destruct IH as (rs & outs & H1 & H2 & H3); [intros f Hf; apply Hne; now right|].
      destruct (xentry_ok real_only n v Hv (Hne (n, v) (or_introl eq_refl))) as (r & out & E1 & E2 & E3). exists ((n, r) :: rs), (out :: outs).
      cbn [mapM fst snd] in *. rewrite E1. cbn [bind]. rewrite H1. cbn [bind mapM fst snd]. rewrite E2. cbn [bind]. rewrite H2. cbn [bind]. repeat split; constructor; assumption. }
    rewrite H1. cbn [bind]. rewrite H2. cbn [bind]. eauto.
  Qed.
End X.

(** ** Names *)
Section Names.
  Variable R : Type.
  Variable zero : R.
  Variable conn : dofarray R -> res (dofarray R).
  Variable groups : list (nat * nat).

  (** the names of the arrays of a field *)
  Lemma entry_names real_only f out : file_entry R zero conn groups real_only f out ->
    map fst out = [fst f] \/ (real_only = false /\ map fst out = [(fst f ++ "_r")%string; (fst f ++ "_i")%string]).
  Proof using. intros [n v vals _|n v vals _|n vs valss _ _|n vs valss _ _]; cbn [fst]; auto; destruct real_only; cbn [map fst]; auto. Qed.

  Lemma append_inj a b s : (a ++ s)%string = (b ++ s)%string -> a = b.
  Proof using.
    assert (Hl : forall a b, String.length (a ++ b) = String.length a + String.length b). { clear. induction a as [|c a IH]; intros b; [reflexivity|]. cbn [String.append String.length Nat.add]. now rewrite IH. }
    revert b. induction a as [|c a IH]; intros b H; destruct b as [|c' b]; [reflexivity| | |].
    - exfalso. apply (f_equal String.length) in H. rewrite !Hl in H. cbn in H. lia.
    - exfalso. apply (f_equal String.length) in H. rewrite !Hl in H. cbn in H. lia.
    - cbn [String.append] in H. injection H as -> H. f_equal. now apply IH.
  Qed.
  Lemma append_last_neq a b : (a ++ "_r")%string <> (b ++ "_i")%string.
  Proof using.
    revert b. induction a as [|c a IH]; intros b H.
    - destruct b as [|c1 b]; cbn [String.append] in H; [discriminate H|]. injection H as _ H. destruct b as [|c2 b]; cbn [String.append] in H; [discriminate H|]. injection H as _ H. destruct b as [|c3 b]; discriminate H.
    - destruct b as [|c' b]; cbn [String.append] in H.
      + injection H as _ H. destruct a as [|c2 a]; cbn [String.append] in H; [discriminate H|]. injection H as _ H. destruct a as [|c3 a]; discriminate H.
      + injection H as _ H. exact (IH _ H).
  Qed.

  Lemma names_distinct real_only w parts : Forall2 (file_entry R zero conn groups real_only) w parts -> NoDup (map fst w) ->
    (forall a b s, In a (map fst w) -> In b (map fst w) -> In s ["_r"; "_i"]%string -> a <> (b ++ s)%string) -> NoDup (map fst (concat parts)).
  Proof using.
    intros HF Hnd Hs. induction HF as [|f out w parts Hf HF IH]; [constructor|]. cbn [map] in Hnd. inversion Hnd as [|? ? Hn Hnd']; subst. cbn [concat]. rewrite map_app.
    assert (Hin : forall m, In m (map fst (concat parts)) -> exists b, In b (map fst w) /\ (m = b \/ m = (b ++ "_r")%string \/ m = (b ++ "_i")%string)).
    { clear -HF. intros m Hm. induction HF as [|f out w parts Hf _ IH]; [destruct Hm|]. cbn [concat] in Hm. rewrite map_app in Hm. apply in_app_or in Hm. destruct Hm as [Hm|Hm].
      - exists (fst f). split; [now left|]. destruct (entry_names _ _ _ Hf) as [E|(_ & E)]; rewrite E in Hm; cbn [In] in Hm; intuition auto.
      - destruct (IH Hm) as (b & Hb & H). exists b. split; [now right|exact H]. }
    apply NoDup_app.
    - destruct (entry_names _ _ _ Hf) as [E|(_ & E)]; rewrite E; [constructor; [intros []|constructor]|]. constructor; [intros [H|[]]; symmetry in H; exact (append_last_neq _ _ H)|constructor; [intros []|constructor]].
    - apply IH; [exact Hnd'|]. intros a b s Ha Hb. apply Hs; now right.
    - intros m Hm Hm'. destruct (Hin m Hm') as (b & Hb & Hmb).
      assert (Hfm : m = fst f \/ m = (fst f ++ "_r")%string \/ m = (fst f ++ "_i")%string). { destruct (entry_names _ _ _ Hf) as [E|(_ & E)]; rewrite E in Hm; cbn [In] in Hm; intuition auto. }
      assert (Hfw : In (fst f) (map fst (f :: w))) by now left. assert (Hbw : In b (map fst (f :: w))) by now right.
      assert (Hr : In "_r"%string ["_r"; "_i"]%string) by now left. assert (Hi : In "_i"%string ["_r"; "_i"]%string) by (right; now left).
      destruct Hfm as [->|[->| ->]], Hmb as [E|[E|E]].
      + subst b. contradiction.
      + exact (Hs _ _ _ Hfw Hbw Hr E).
      + exact (Hs _ _ _ Hfw Hbw Hi E).
      + symmetry in E. exact (Hs _ _ _ Hbw Hfw Hr E).
      + apply append_inj in E. subst b. contradiction.
      + exact (append_last_neq _ _ E).
      + symmetry in E. exact (Hs _ _ _ Hbw Hfw Hi E).
      + symmetry in E. exact (append_last_neq _ _ E).
      + apply append_inj in E. subst b. contradiction.
  Qed.
End Names.
