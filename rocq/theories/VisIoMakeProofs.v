(** * VisIoMakeProofs: making and copying visualizers. *)
From Coq Require Import String List Arith Bool Lia Permutation.
From Verif Require Import Np NpFacts MeshModel VisModel VisIoModel VisIoSpec.
Import ListNotations.

Section Make.
  Variables (key U F S : Type).
  Variable keqb : key -> key -> bool.
  Variable apply_factory : F -> mgrp -> res (key * U).
  Variables equidistant edge_clustered : nat -> F.
  Variable one : S.
  Variable key_order : key -> nat.
  Variable nunit_of : U -> nat.
  Let wf := discr_wf key U F apply_factory.
  Let cells := same_cells key U F key_order nunit_of.
  Let good := good_visualizer key U F apply_factory key_order nunit_of (S := S).

  Lemma make_discr_wf id m f d : make_discr key U F apply_factory id m f = Ok d -> wf d /\ d_id d = id /\ d_mesh d = m /\ d_factory d = f.
  Proof using.
    unfold make_discr. intros H. apply bind_ok in H as (gs & H1 & H). assert (d = mk_discr id m f gs) as -> by congruence. split; [|auto]. unfold wf, discr_wf. cbn [d_mesh d_groups d_factory]. apply mapM_ok in H1. eapply Forall2_impl; [|exact H1]. cbn. intros mg g E. apply bind_ok in E as ((k, u) & E1 & E). assert (g = mk_dgrp mg k u) as -> by (cbn in E; congruence). auto.
  Qed.

  Lemma same_mesh_wf to from c : wf from -> wf to -> d_mesh to = d_mesh from -> make_same_mesh_connection key U F to from = Ok c ->
    conn_from c = from /\ (c = IdentityConn from \/ exists gs, c = DirectConn from to gs /\ elementwise key U F from to gs).
  Proof using.
    intros Hf Ht Hm. unfold make_same_mesh_connection. rewrite Hm, Nat.eqb_refl. cbn [negb]. destruct (d_id from =? d_id to) eqn:E; [intros H; assert (c = IdentityConn from) as -> by congruence; auto|].
    intros H. apply bind_ok in H as (? & _ & H). match type of H with Ok ?x = _ => assert (c = x) as -> by congruence end. split; [reflexivity|]. right. eexists. split; [reflexivity|]. unfold elementwise.
    unfold wf, discr_wf in Hf, Ht. rewrite Hm in Ht. clear -Hf Ht. revert Hf Ht. generalize (vm_groups (d_mesh from)) as ms. generalize (d_factory from) as f1, (d_factory to) as f2. generalize (d_groups to) as tg. generalize (d_groups from) as fg. intros fg tg f1 f2 ms Hf Ht.
    assert (G : forall k fg tg ms pre, length pre = k -> Forall2 (fun mg g => dg_mesh g = mg /\ apply_factory f1 mg = Ok (dg_key g, dg_unit g)) ms fg -> Forall2 (fun mg g => dg_mesh g = mg /\ apply_factory f2 mg = Ok (dg_key g, dg_unit g)) ms tg ->
      Forall2 (element_batch key U (pre ++ fg)) (enumerate_from k tg)
        (map (fun ift : nat * (dgrp key U * dgrp key U) => let all := seq 0 (mg_nel (dg_mesh (fst (snd ift)))) in [mk_vbatch (fst ift) all all (dg_unit (snd (snd ift)))]) (enumerate_from k (combine fg tg)))).
    { clear. intros k fg. revert k. induction fg as [|g fg IH]; intros k tg ms pre Hp Hf Ht; inversion Hf as [|mg ? ms' ? (Hg & _) Hf']; subst; inversion Ht as [|? t ? tg' (Hg' & _) Ht']; subst; [constructor|].
      cbn [combine]. rewrite !enumerate_from_cons. cbn [map fst snd]. constructor.
      - unfold element_batch. cbn [fst snd]. exists g. rewrite nth_error_app2, Nat.sub_diag by lia. split; [reflexivity|]. split; [now rewrite Hg'|reflexivity].
      - specialize (IH (Datatypes.S (length pre)) tg' ms' (pre ++ [g])). rewrite <- app_assoc in IH. cbn [app] in IH. apply IH; [rewrite app_length; cbn [length]; lia|exact Hf'|exact Ht']. }
    apply (G 0 fg tg ms [] eq_refl Hf Ht).
  Qed.

  Lemma make_good fresh d ord shrink force v : wf d -> fresh <> d_id d -> make_visualizer key U F keqb apply_factory equidistant edge_clustered S one fresh d ord shrink force = Ok v ->
    good v /\ conn_from (v_conn v) = d /\ v_equi v = force /\ v_shrink v = match shrink with Some s => s | None => one end /\
    (force = true -> exists o, ord = Some o /\ (d_factory (conn_to (v_conn v)) = equidistant o \/ conn_to (v_conn v) = d)).
  Proof using.
    intros Hd Hfresh H. unfold make_visualizer in H. apply bind_ok in H as (vis & Hvis & H). apply bind_ok in H as (c & Hc & H). match type of H with Ok ?x = _ => assert (v = x) as -> by congruence end. cbn [v_conn v_equi v_shrink].
    assert (Hv : wf vis /\ d_mesh vis = d_mesh d /\ (force = true -> exists o, ord = Some o /\ (d_factory vis = equidistant o \/ vis = d))).
    { destruct (match shrink with None => true | Some _ => false end && negb force && match ord with None => true | Some _ => false end) eqn:E.
      - assert (vis = d) as -> by congruence. split; [exact Hd|]. split; [reflexivity|]. intros ->. apply andb_prop in E as (E & _). apply andb_prop in E as (_ & E). discriminate.
      - destruct ord as [o|]; [|discriminate]. apply bind_ok in Hvis as (vis' & H1 & Hvis). apply bind_ok in Hvis as (? & _ & Hvis). apply make_discr_wf in H1 as (H1 & _ & H2 & H3).
        destruct (forallb _ _); [assert (vis = d) as -> by congruence; split; [exact Hd|]; split; [reflexivity|]; eauto|]. assert (vis = vis') as -> by congruence. split; [exact H1|]. split; [exact H2|]. intros ->. eauto. }
    destruct Hv as (Hw & Hm & Hforce). destruct (same_mesh_wf vis d c Hd Hw Hm Hc) as (E & [-> |(gs & -> & Hel)]); cbn [conn_from conn_to] in *.
    - split; [|split; [reflexivity|split; [reflexivity|split; [reflexivity|]]]]; [|intros Hf; destruct (Hforce Hf) as (o & -> & _); eauto]. unfold good, good_visualizer. cbn. split; [exact Hd|]. split; [exact Hd|]. split; [reflexivity|]. split; [exact I|]. intros c [H'|H']; discriminate.
    - split; [|split; [reflexivity|split; [reflexivity|split; [reflexivity|exact Hforce]]]]. unfold good, good_visualizer. cbn. split; [exact Hd|]. split; [exact Hw|]. split; [exact Hm|]. split; [exact Hel|]. intros c [H'|H']; discriminate.
  Qed.

  Lemma connectivity_good v h : good v -> good (snd (vtk_connectivity key U F S v h)) /\ v_conn (snd (vtk_connectivity key U F S v h)) = v_conn v /\
    match fst (vtk_connectivity key U F S v h) with Ok c => cells (conn_to c) (conn_to (v_conn v)) | Err e => e = RuntimeError /\ h = true /\ v_equi v = false end.
  Proof using.
    intros Hg. pose proof Hg as (H1 & H2 & H3 & H4 & H5). unfold vtk_connectivity. destruct h.
    - destruct (v_equi v) eqn:E; [|cbn [fst snd]; auto]. destruct (v_lagrange v) as [c|] eqn:El; cbn [fst snd v_conn].
      + split; [exact Hg|]. split; [reflexivity|]. apply H5. now right.
      + split; [|split; reflexivity]. unfold good, good_visualizer. cbn [v_conn v_linear v_lagrange]. split; [exact H1|]. split; [exact H2|]. split; [exact H3|]. split; [exact H4|]. intros c [Hc|Hc]; [apply H5; now left|]. injection Hc as <-. reflexivity.
    - destruct (v_linear v) as [c|] eqn:El; cbn [fst snd v_conn].
      + split; [exact Hg|]. split; [reflexivity|]. apply H5. now left.
      + split; [|split; reflexivity]. unfold good, good_visualizer. cbn [v_conn v_linear v_lagrange]. split; [exact H1|]. split; [exact H2|]. split; [exact H3|]. split; [exact H4|]. intros c [Hc|Hc]; [|apply H5; now right]. injection Hc as <-. reflexivity.
  Qed.

  Hypothesis keqb_sound : forall a b, keqb a b = true -> a = b.
  (** what a factory makes depends only on the shape of the elements *)
  Hypothesis factory_shape : forall f a b, mg_shape a = mg_shape b -> apply_factory f a = apply_factory f b.

  Lemma check_same d d' : check_same_connectivity key U F keqb d' d = true -> Forall2 (fun g g' => dg_key g' = dg_key g /\ mg_nel (dg_mesh g') = mg_nel (dg_mesh g)) (d_groups d) (d_groups d').
  Proof using keqb_sound.
    unfold check_same_connectivity. intros H. apply andb_prop in H as (H1 & H2). apply Nat.eqb_eq in H1. revert H1 H2. generalize (d_groups d) as l, (d_groups d') as l'. clear -keqb_sound. induction l as [|g l IH]; intros [|g' l'] H1 H2; try discriminate; [constructor|]. cbn [combine forallb fst snd] in H2. apply andb_prop in H2 as (H2 & H3). apply andb_prop in H2 as (H2 & H4). constructor; [split; [now apply keqb_sound|now apply Nat.eqb_eq]|apply IH; [now injection H1|exact H3]].
  Qed.

  Lemma copy_good fresh v d' from to gs : good v -> v_conn v = DirectConn from to gs -> wf d' -> check_same_connectivity key U F keqb d' from = true ->
    (forall g g', In g (d_groups from) -> In g' (d_groups d') -> dg_key g = dg_key g' -> mg_shape (dg_mesh g) = mg_shape (dg_mesh g')) ->
    exists v' to', copy_with_same_connectivity key U F keqb apply_factory S fresh v d' false = Ok v' /\ good v' /\ v_conn v' = DirectConn d' to' gs /\ d_mesh to' = d_mesh d' /\ d_factory to' = d_factory to /\
      cells to' to /\ v_shrink v' = v_shrink v /\ v_equi v' = v_equi v.
  Proof using keqb_sound factory_shape.
    intros Hg Hc Hd' Hchk Hshape. pose proof Hg as (G1 & G2 & G3 & G4 & G5). rewrite Hc in G1, G2, G3, G4, G5. cbn [conn_from conn_to] in *. pose proof (check_same _ _ Hchk) as Hsame.
    (* the mesh groups have the same shapes and numbers of elements *)
    assert (Hms : Forall2 (fun m m' => mg_shape m = mg_shape m' /\ mg_nel m = mg_nel m') (vm_groups (d_mesh from)) (vm_groups (d_mesh d'))).
    { clear -G1 Hd' Hsame Hshape. unfold discr_wf in G1. unfold wf, discr_wf in Hd'. revert G1 Hd' Hsame Hshape. generalize (d_factory from) as f1, (d_factory d') as f2. generalize (d_groups from) as l, (d_groups d') as l'. generalize (vm_groups (d_mesh from)) as ms, (vm_groups (d_mesh d')) as ms'. intros ms ms' l l' f1 f2 G1 Hd' Hsame Hshape. revert ms' l' Hd' Hsame Hshape. induction G1 as [|m g ms l (Hm & _) G1 IH]; intros ms' l' Hd' Hsame Hshape; inversion Hsame as [|? g' ? l'' (Hk & Hn) Hsame']; subst; inversion Hd' as [|m' ? ms'' ? (Hm' & _) Hd'']; subst; constructor.
      - split; [apply Hshape; [now left|now left|now symmetry]|now symmetry].
      - eapply IH; [exact Hd''|exact Hsame'|]. intros a b Ha Hb. apply Hshape; now right. }
    (* the new visualization discretization *)
    assert (Hto : exists ts', mapM (fun mg => ku <- apply_factory (d_factory to) mg ;; Ok (mk_dgrp mg (fst ku) (snd ku))) (vm_groups (d_mesh d')) = Ok ts' /\
      Forall2 (fun t t' => dg_key t' = dg_key t /\ dg_unit t' = dg_unit t /\ mg_shape (dg_mesh t') = mg_shape (dg_mesh t) /\ mg_nel (dg_mesh t') = mg_nel (dg_mesh t)) (d_groups to) ts').
    { unfold discr_wf in G2. rewrite G3 in G2. clear -G2 Hms factory_shape. revert G2 Hms. generalize (d_factory to) as f. generalize (d_groups to) as l. generalize (vm_groups (d_mesh from)) as ms, (vm_groups (d_mesh d')) as ms'. intros ms ms' l f G2. revert ms'. induction G2 as [|m t ms l (Hm & Hf) G2 IH]; intros ms' Hms; inversion Hms as [|? m' ? ms'' (Hs & Hn) Hms']; subst; [exists []; split; [reflexivity|constructor]|].
      destruct (IH _ Hms') as (ts' & I1 & I2). exists (mk_dgrp m' (dg_key t) (dg_unit t) :: ts'). split.
      - cbn [mapM]. rewrite <- (factory_shape f _ _ Hs), Hf. cbn [bind fst snd]. rewrite I1. reflexivity.
      - constructor; [cbn; auto|exact I2]. }
    destruct Hto as (ts' & Hmk & Hts). set (to' := mk_discr fresh (d_mesh d') (d_factory to) ts').
    assert (Hmk' : make_discr key U F apply_factory fresh (d_mesh d') (d_factory to) = Ok to'). { unfold make_discr. rewrite Hmk. reflexivity. }
    assert (Hcells : cells to' to). { unfold cells, same_cells. unfold to'. cbn [d_groups]. clear -Hts. induction Hts as [|t t' l ts' (E1 & E2 & E3 & E4) _ IH]; [reflexivity|]. cbn [map]. rewrite IH. f_equal. unfold seen. now rewrite E1, E2, E3, E4. }
    exists (mk_visualizer (DirectConn d' to' gs) (v_shrink v) (v_equi v) (v_linear v) (v_lagrange v)), to'.
    split; [unfold copy_with_same_connectivity; rewrite Hc; cbn [conn_from conn_to orb]; rewrite Hchk; cbn [guard bind]; rewrite Hmk'; reflexivity|]. split; [|unfold to'; cbn; auto 6].
    unfold good, good_visualizer. cbn [v_conn v_linear v_lagrange conn_from conn_to]. apply make_discr_wf in Hmk' as (Hw & _). split; [exact Hd'|]. split; [exact Hw|]. split; [reflexivity|]. split.
    - unfold elementwise in *. unfold to'. cbn [d_groups]. unfold enumerate in *.
      assert (G : forall n gs, Forall2 (element_batch key U (d_groups from)) (enumerate_from n (d_groups to)) gs -> Forall2 (element_batch key U (d_groups d')) (enumerate_from n ts') gs); [|apply G; exact G4].
      clear -Hsame Hts. revert Hsame. generalize (d_groups from) as fg, (d_groups d') as fg'. intros fg fg' Hsame. induction Hts as [|t t' l ts' (E1 & E2 & E3 & E4) _ IH]; intros n gs G4; [inversion G4; constructor|].
      rewrite enumerate_from_cons in G4 |- *. inversion G4 as [|? bs ? gs' (f & Hf & Hn & Eb) G4']; subst. constructor; [|apply IH; exact G4']. cbn [fst snd] in *. destruct (Forall2_nth_error _ _ _ _ _ Hsame Hf) as (f' & Hf' & _ & Hn'). exists f'. cbn [fst snd]. rewrite E2, E4, Hn'. auto.
    - intros c Hcc. unfold same_cells in *. rewrite (G5 c Hcc). symmetry. exact Hcells.
  Qed.
End Make.
