(** * VisIoFieldProofs: proofs about the fields of visualization files. *)
From Coq Require Import String List Arith Bool Lia.
From Verif Require Import Np NpFacts MeshModel DofModel DofProofs VisModel VisIoModel VisIoSpec.
Import ListNotations.

Section F.
  Variable R : Type.
  Variable zero : R.
  Variable conn : dofarray R -> res (dofarray R).
  Variable groups : list (nat * nat).
  Local Notation scalar := (scalar R zero conn groups).
  Local Notation resample := (resample R conn groups).

  Lemma attrs_fold name attrs : forall acc : list (string * fval R),
    fold_left (fun result (a : string * fval R) => let (aname, value) := a in
            if is_nonempty R value then result ++ [((name ++ "_" ++ aname)%string, value)] else result) attrs acc
    = acc ++ filter (present R) (map (fun a => ((name ++ "_" ++ fst a)%string, snd a)) attrs).
  Proof using.
    induction attrs as [|(a, v) attrs IH]; intros acc; cbn [fold_left map filter]; [now rewrite app_nil_r|]. rewrite IH. unfold present at 2, is_nonempty. cbn [fst snd].
    destruct v as [| | |[|]| |]; cbn [app]; rewrite <- ?app_assoc; reflexivity.
  Qed.

  Lemma preprocess_wanted nf : preprocess_fields R nf = wanted R nf.
  Proof using.
    unfold preprocess_fields, wanted.
    assert (H : forall nf acc, fold_left (fun result (f : string * fval R) => let (name, field) := f in
      match field with
      | VData attrs =>
          fold_left (fun result (a : string * fval R) => let (aname, value) := a in
            if is_nonempty R value then result ++ [((name ++ "_" ++ aname)%string, value)] else result) attrs result
      | _ => if is_nonempty R field then result ++ [(name, field)] else result
      end) nf acc = acc ++ filter (present R) (flat_map (attributes R) nf)).
    { clear nf. induction nf as [|(n, v) nf IH]; intros acc; cbn [fold_left flat_map filter]; [now rewrite app_nil_r|]. rewrite IH. clear IH. rewrite filter_app, app_assoc. f_equal.
      unfold attributes. cbn [fst snd]. destruct v as [| | |[|]| |]; cbn [filter present snd is_nonempty]; rewrite ?app_nil_r; try reflexivity. apply attrs_fold. }
    rewrite H. reflexivity.
  Qed.

  Lemma resample_obj l : resample (VObj l) = (rs <- mapM resample l ;; Ok (RObj rs)).
  Proof using.
    cbn [VisIoModel.resample]. f_equal. induction l as [|v l IH]; [reflexivity|]. cbn [mapM]. now rewrite IH.
  Qed.

  Lemma sum_repeat {A} (x : A) : concat (map (fun g : nat * nat => repeat x (fst g * snd g)) groups) = repeat x (sum (map (ndofs) groups)).
  Proof using. induction groups as [|g gs IH]; [reflexivity|]. cbn [map concat]. rewrite IH, <- repeat_app. reflexivity. Qed.

  Lemma shapes_rect {A} (gs : list (nat * nat)) (d : list (list (list A))) k : Forall2 (fun g dg => rect g dg) gs d ->
    Forall2 (fun g s => s = [fst g; snd g]) gs (map (fun dn : list (list A) * nat => rect_shape (fst dn) (snd dn)) (combine d (map snd gs ++ k))).
  Proof using.
    induction 1 as [|g dg gs d (H1 & H2) _ IH]; [constructor|]. cbn [map app combine]. constructor; [|exact IH]. cbn [fst snd]. unfold rect_shape. rewrite H1. destruct H2 as [|r dg Hr _]; [reflexivity|]. now rewrite Hr.
  Qed.

  Lemma scalar_resample v c vals : scalar v c vals -> resample v = Ok (RArr (if c then ComplexArr (concat vals) else RealArr (map fst (concat vals)))).
  Proof using.
    intros [x|x y|d d' Hd Hs|d d' Hd Hs]; cbn [VisIoModel.resample].
    - unfold full. rewrite sum_repeat. do 3 f_equal. induction (sum (map ndofs groups)) as [|n IH]; [reflexivity|]. cbn [repeat map fst]. now rewrite <- IH.
    - unfold full. rewrite sum_repeat. reflexivity.
    - rewrite Hd. cbn [bind]. unfold check_vis, dof_shapes. rewrite (proj2 (check_iff _ _) (shapes_rect groups d' _ Hs)). cbn [bind flatten_dof]. do 3 f_equal.
      clear. induction d' as [|dg d IH]; [reflexivity|]. cbn [map concat]. rewrite map_app, <- IH, map_map. cbn [fst]. now rewrite map_id.
    - rewrite Hd. cbn [bind]. unfold check_vis, dof_shapes. rewrite (proj2 (check_iff _ _) (shapes_rect groups d' _ Hs)). cbn [bind flatten_dof]. reflexivity.
  Qed.

  Lemma scalar_fun v c vals c' vals' : scalar v c vals -> scalar v c' vals' -> c = c' /\ vals = vals'.
  Proof using.
    intros H H'. destruct H as [x|x y|d d' Hd Hs|d d' Hd Hs]; inversion H'; subst; auto; try congruence.
    - replace d'0 with d' by congruence. auto.
    - replace d'0 with d' by congruence. auto.
  Qed.

  Lemma scalars_resample vs valss : Forall2 (fun v vals => exists c, scalar v c vals) vs valss -> forall cs, Forall2 (fun v c => exists vals, scalar v c vals) vs cs ->
    mapM resample vs = Ok (map (fun cv : bool * list (list (R * R)) => RArr (if fst cv then ComplexArr (concat (snd cv)) else RealArr (map fst (concat (snd cv))))) (combine cs valss)).
  Proof using.
    induction 1 as [|v vals vs valss (c & Hv) _ IH]; intros cs Hcs; inversion Hcs as [|? c' ? cs' (vals' & Hc) Hcs']; subst; [reflexivity|]. cbn [mapM combine map fst snd].
    destruct (scalar_fun _ _ _ _ _ Hv Hc) as (<- & <-). rewrite (scalar_resample _ _ _ Hv). cbn [bind]. rewrite (IH _ Hcs'). reflexivity.
  Qed.

  Lemma get_scalars {P : fval R -> Prop} vs : (forall v, P v -> exists c vals, scalar v c vals) -> Forall P vs -> exists cs valss,
    Forall2 (fun v vals => exists c, scalar v c vals) vs valss /\ Forall2 (fun v c => exists vals, scalar v c vals) vs cs.
  Proof using.
    intros HP. induction 1 as [|v vs Hv _ (cs & valss & H1 & H2)]; [exists [], []; split; constructor|]. destruct (HP _ Hv) as (c & vals & H). exists (c :: cs), (vals :: valss). split; constructor; eauto.
  Qed.

  Definition real_of (cv : bool * list (list (R * R))) : rval R := RArr (real_copy R (if fst cv then ComplexArr (concat (snd cv)) else RealArr (map fst (concat (snd cv))))).
  Lemma real_of_re cv : real_of cv = re R (snd cv).
  Proof using. destruct cv as ([|], v); reflexivity. Qed.
  Lemma scalar_real_im v vals : scalar v false vals -> map (fun _ : R => zero) (map fst (concat vals)) = map snd (concat vals).
  Proof using.
    assert (H : forall l : list (R * R), Forall (fun z => snd z = zero) l -> map (fun _ : R => zero) (map fst l) = map snd l).
    { induction 1 as [|z l Hz _ IH]; [reflexivity|]. cbn [map]. now rewrite IH, Hz. }
    intros Hv. apply H. inversion Hv; subst.
    - rewrite sum_repeat. apply Forall_forall. intros z Hz. apply repeat_spec in Hz. now subst.
    - apply Forall_forall. intros z Hz. apply in_concat in Hz. destruct Hz as (l & Hl & Hz). apply in_map_iff in Hl. destruct Hl as (dg & <- & _). apply in_map_iff in Hz. destruct Hz as (x & <- & _). reflexivity.
  Qed.

  Lemma entry_ok real_only n v : separable R zero conn groups v -> exists r out, resample v = Ok r /\ separate1 R zero real_only n r = Ok out /\ file_entry R zero conn groups real_only (n, v) out.
  Proof using.
    intros [(c & vals & Hv)|(v0 & vs & -> & Hvs & Hk)].
    - rewrite (scalar_resample _ _ _ Hv). unfold separate1. destruct c; (eexists _, _; split; [reflexivity|]); cbn [bind is_complex map_arrays real_copy imag_copy].
      + split; [reflexivity|]. apply (entry_complex R zero conn groups real_only n v vals Hv).
      + split; [reflexivity|]. apply (entry_real R zero conn groups real_only n v vals Hv).
    - assert (Hall : Forall (fun v => exists c vals, scalar v c vals) (v0 :: vs)). { constructor; [|exact Hvs]. destruct Hk as [(vals & H)|((vals & H) & _)]; eauto. }
      destruct (get_scalars (v0 :: vs) (fun v H => H) Hall) as (cs & valss & H1 & H2). rewrite resample_obj, (scalars_resample _ _ H1 _ H2). cbn [bind].
      destruct cs as [|c0 cs]; [inversion H2|]. destruct valss as [|vals0 valss]; [inversion H1|].
      destruct Hk as [(vals & H0)|((vals & H0) & Hr)].
      + assert (c0 = true) as ->. { inversion H2 as [|? ? ? ? (vals' & Hc) _]; subst. exact (proj1 (scalar_fun _ _ _ _ _ Hc H0)). }
        eexists _, _. split; [reflexivity|]. cbn [combine map separate1 get nth_error bind kind_c fst snd is_complex]. split; [reflexivity|].
        assert (Hre : map_arrays R (real_copy R) (RObj (RArr (ComplexArr (concat vals0)) :: map (fun cv : bool * list (list (R * R)) => RArr (if fst cv then ComplexArr (concat (snd cv)) else RealArr (map fst (concat (snd cv))))) (combine cs valss))) = RObj (map (re R) (vals0 :: valss))).
        { cbn [map_arrays map]. f_equal. f_equal. clear -H1 H2. inversion H1; inversion H2; subst. clear H1 H2. rewrite map_map.
          match goal with H : Forall2 _ vs valss, H' : Forall2 _ vs cs |- _ => revert cs H'; induction H as [|v vals vs' valss' _ _ IH]; intros cs H'; inversion H'; subst; [reflexivity|] end. cbn [combine map]. rewrite IH by assumption. f_equal.
          cbn [map_arrays fst snd]. match goal with |- context [if ?c then _ else _] => destruct c end; reflexivity. }
        assert (Him : map_arrays R (imag_copy R zero) (RObj (RArr (ComplexArr (concat vals0)) :: map (fun cv : bool * list (list (R * R)) => RArr (if fst cv then ComplexArr (concat (snd cv)) else RealArr (map fst (concat (snd cv))))) (combine cs valss))) = RObj (map (im R) (vals0 :: valss))).
        { cbn [map_arrays map]. f_equal. f_equal. clear -H1 H2. inversion H1; inversion H2; subst. clear H1 H2. rewrite map_map.
          match goal with H : Forall2 _ vs valss, H' : Forall2 _ vs cs |- _ => revert cs H'; induction H as [|v vals vs' valss' Hv _ IH]; intros cs H'; inversion H' as [|? c ? cs' (vals' & Hc) Hcs]; subst; [reflexivity|] end. cbn [combine map]. rewrite IH by assumption. f_equal.
          cbn [map_arrays fst snd]. destruct Hv as (c' & Hv). destruct (scalar_fun _ _ _ _ _ Hv Hc) as (-> & <-). destruct c; [reflexivity|]. cbn [imag_copy]. unfold im. now rewrite (scalar_real_im _ _ Hv). }
        rewrite Hre, Him. apply (entry_vector_complex R zero conn groups real_only n (v0 :: vs) (vals0 :: valss) H1). exists v0, vals. split; [now left|exact H0].
      + assert (Hf : Forall (fun c => c = false) (c0 :: cs)).
        { apply Forall_forall. intros c Hc. destruct (Forall2_In_r _ _ _ _ H2 Hc) as (v & Hv & (vals' & Hs)). assert (exists vals'', scalar v false vals'') as (vals'' & Hs'). { destruct Hv as [<-|Hv]; [eauto|]. exact (proj1 (Forall_forall _ _) Hr v Hv). } exact (proj1 (scalar_fun _ _ _ _ _ Hs Hs')). }
        pose proof (Forall_inv Hf) as E0. cbn beta in E0. subst c0. eexists _, _. split; [reflexivity|]. cbn [combine map separate1 get nth_error bind kind_c fst snd is_complex]. split; [reflexivity|].
        assert (HF : Forall2 (fun v vals => scalar v false vals) (v0 :: vs) (vals0 :: valss)).
        { apply Forall2_intro_nth; [exact (Forall2_length' _ _ _ H1)|]. intros i v vals' Hv Hvals. destruct (Forall2_nth_error _ _ _ _ _ H1 Hv) as (vals'' & E & (c & Hs)). assert (vals'' = vals') as -> by congruence.
          destruct (Forall2_nth_error _ _ _ _ _ H2 Hv) as (c' & E' & (vals'' & Hs')). destruct (scalar_fun _ _ _ _ _ Hs Hs') as (-> & _). rewrite (proj1 (Forall_forall _ _) Hf c' (nth_error_In _ _ E')) in Hs. exact Hs. }
        assert (Hre : RObj (RArr (RealArr (map fst (concat vals0))) :: map (fun cv : bool * list (list (R * R)) => RArr (if fst cv then ComplexArr (concat (snd cv)) else RealArr (map fst (concat (snd cv))))) (combine cs valss)) = RObj (map (re R) (vals0 :: valss))).
        { cbn [map]. f_equal. f_equal. clear -H1 H2 Hf. inversion H1; inversion H2; subst. clear H1 H2. apply Forall_inv_tail in Hf.
          match goal with H : Forall2 _ vs valss, H' : Forall2 _ vs cs |- _ => revert cs H' Hf; induction H as [|v vals vs' valss' _ _ IH]; intros cs H' Hf; inversion H'; subst; [reflexivity|] end. cbn [combine map]. rewrite IH by (try assumption; exact (Forall_inv_tail Hf)). f_equal.
          pose proof (Forall_inv Hf) as E. cbn beta in E. subst. reflexivity. }
        rewrite Hre. apply (entry_vector_real R zero conn groups real_only n (v0 :: vs) (vals0 :: valss)); [discriminate|exact HF].
  Qed.

  Lemma point_data_ok real_only nf : Forall (fun f => separable R zero conn groups (snd f)) (wanted R nf) ->
    exists parts, point_data R zero conn groups real_only nf = Ok (concat parts) /\ Forall2 (file_entry R zero conn groups real_only) (wanted R nf) parts.
  Proof using.
    intros H. unfold point_data. rewrite preprocess_wanted. unfold separate_by_real_and_imag.
    assert (exists rs outs, mapM (fun f : string * fval R => r <- resample (snd f) ;; Ok (fst f, r)) (wanted R nf) = Ok rs /\
      mapM (fun f : string * rval R => separate1 R zero real_only (fst f) (snd f)) rs = Ok outs /\ Forall2 (file_entry R zero conn groups real_only) (wanted R nf) outs) as (rs & outs & H1 & H2 & H3).
    { induction H as [|(n, v) l Hv _ (rs & outs & H1 & H2 & H3)]; [exists [], []; repeat split; constructor|]. destruct (entry_ok real_only n v Hv) as (r & out & E1 & E2 & E3). exists ((n, r) :: rs), (out :: outs).
      cbn [mapM fst snd] in *. rewrite E1. cbn [bind]. rewrite H1. cbn [bind mapM fst snd]. rewrite E2. cbn [bind]. rewrite H2. cbn [bind]. repeat split; constructor; assumption. }
    rewrite H1. cbn [bind]. rewrite H2. cbn [bind]. eauto.
  Qed.
End F.
