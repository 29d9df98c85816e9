(** * FactoryProps: C179-C183. *)
From Coq Require Import List Arith Bool ZArith Lia.
From Verif Require Import Np NpFacts Lin ConnModel ModalModel FactoryModel FactorySpec FactoryProofs.
Import ListNotations.

Section Props.
  Context {R : cring} {P : Type}.
  Variable E : numerics R P.

  Lemma recommended_suits have_rn r order mesh mg : available have_rn r mesh -> In mg mesh -> plain mg ->
    exists o : obj R P, the_factory have_rn r order mg = Ok o /\ suits (promised r) order mg o /\ exists s, group_shape E o = Ok s /\ fst s = mg_nel mg.
  Proof.
    intros Ha Hin Hp.
    assert (HC : forall c, simple c = true -> negb (if gclass_eq_dec c WarpAndBlend2D then true else false) = true -> promised r c = true -> cell_of c = mesh_cell (mg_class mg) ->
      exists o : obj R P, construct c mg order = Ok o /\ suits (promised r) order mg o /\ exists s, group_shape E o = Ok s /\ fst s = mg_nel mg).
    { intros c H1 H2 H3 H4. destruct (construct_suits (R := R) (P := P) (promised r) c mg order H1 H3 H4) as (o & Eo & Ho). exists o. split; [exact Eo|]. split; [exact Ho|].
      destruct c; try discriminate H1; try (now destruct (gclass_eq_dec WarpAndBlend2D WarpAndBlend2D)); injection Eo as <-; eexists; split; reflexivity. }
    destruct Hp as [Hp|Hp]; destruct r; unfold the_factory, edge_clustered, interpolatory_quadrature, equidistant, quadrature, modal, type_mapping; rewrite Hp; cbn [find mclass_eqb fst];
      try (apply HC; [reflexivity|now destruct gclass_eq_dec|reflexivity|now rewrite Hp]).
    assert (Hd : have_rn = true \/ mg_dim mg <= 3).
    { destruct have_rn; [now left|right]. pose proof (Ha eq_refl eq_refl) as F. rewrite Forall_forall in F. now apply F. }
    destruct (default_suits (R := R) (P := P) have_rn order mg Hp Hd) as (o & Eo & Ho). exists o. split; [exact Eo|]. split; [destruct Ho as (g & H1 & H2 & H3 & H4 & H5 & H6); exists g; repeat (split; [assumption|]); now destruct (kd_class (eg_kind g))|].
    unfold default_polynomial, default_simplex in Eo. destruct have_rn.
    - cbn [bind] in Eo. unfold recursive_factory in Eo. rewrite Hp in Eo. cbn [isinst mclass_eqb orb guard bind] in Eo. injection Eo as <-. eexists. split; reflexivity.
    - destruct (mg_dim mg <=? 2) eqn:L.
      + cbn [bind] in Eo. unfold homogeneous in Eo. rewrite Hp in Eo. cbn [isinst mclass_eqb orb guard bind construct] in Eo. injection Eo as <-.
        apply Nat.leb_le in L. assert (L3 : (mg_dim mg <? 3) = true) by (apply Nat.ltb_lt; lia). unfold group_shape, nunit_dofs. cbn [eg_kind kd_class kd_order kd_dim eg_mg]. rewrite L3, orb_true_r. cbn [guard bind]. eexists. split; reflexivity.
      + destruct (mg_dim mg =? 3); [|discriminate]. cbn [bind] in Eo. unfold homogeneous in Eo. rewrite Hp in Eo. cbn [isinst mclass_eqb orb guard bind construct] in Eo. injection Eo as <-. eexists. split; reflexivity.
  Qed.

  (** ** C179: the recommended factories discretize every mesh of simplices and tensor products; there is one element group per mesh group, on the
      same elements and reference cells, of the given order and of the promised kind *)
  Theorem C179_recommended have_rn r order mesh a : Forall plain mesh -> available have_rn r mesh ->
    exists d, init (Some a) mesh (the_factory (R := R) (P := P) have_rn r order) None true = Ok d /\
      Forall2 (suits (promised r) order) mesh (d_groups d) /\ d_mesh d = mesh /\ d_real d = F64 /\ d_complex d = C128 /\ d_actx d = AClone a.
  Proof.
    intros Hp Ha. rewrite Forall_forall in Hp. destruct (mapM_suits (R := R) (P := P) (promised r) order (the_factory have_rn r order) mesh) as (gs & Eg & Hg).
    { intros mg Hin. destruct (recommended_suits have_rn r order mesh mg Ha Hin (Hp mg Hin)) as (o & A & B & _). now exists o. }
    unfold init. rewrite Eg. cbn [bind complex_of]. eexists. split; [reflexivity|]. cbn [d_groups d_mesh d_real d_complex d_actx]. auto 10.
  Qed.
  (** other mesh groups are rejected *)
  Theorem C179_unsupported have_rn r order mesh a real clone mg : In mg mesh -> ~ plain mg -> available have_rn r mesh ->
    init (Some a) mesh (the_factory (R := R) (P := P) have_rn r order) real clone = Err TypeError.
  Proof.
    intros Hin Hn Ha. unfold init. assert (H : mapM (the_factory (R := R) (P := P) have_rn r order) mesh = Err TypeError); [|rewrite H; reflexivity].
    assert (HT : forall mg', In mg' mesh -> ~ plain mg' -> the_factory (R := R) (P := P) have_rn r order mg' = Err TypeError).
    { intros mg' _ H'. assert (mclass_eqb MSimplex (mg_class mg') = false /\ mclass_eqb MTensor (mg_class mg') = false) as (A & B).
      { split; [destruct (mclass_eqb MSimplex (mg_class mg')) eqn:X|destruct (mclass_eqb MTensor (mg_class mg')) eqn:X]; auto; apply mclass_eqb_eq in X; exfalso; apply H'; [left|right]; now symmetry. }
      destruct r; unfold the_factory, edge_clustered, interpolatory_quadrature, equidistant, quadrature, modal, type_mapping; cbn [find fst]; now rewrite A, B. }
    assert (HO : forall mg', In mg' mesh -> plain mg' -> exists o, the_factory (R := R) (P := P) have_rn r order mg' = Ok o).
    { intros mg' Hin' Hp. destruct (recommended_suits have_rn r order mesh mg' Ha Hin' Hp) as (o & Eo & _). now exists o. }
    clear Ha. revert Hin. induction mesh as [|m mesh IH]; intros Hin; [destruct Hin|]. cbn [mapM].
    assert (D : plain m \/ ~ plain m) by (unfold plain; destruct (mg_class m); [left; now left|left; now right|right; intros [X|X]; discriminate]).
    destruct D as [D|D].
    - destruct (HO m (or_introl eq_refl) D) as (o & Eo). rewrite Eo. cbn [bind]. destruct Hin as [->|Hin]; [contradiction|]. rewrite IH; [reflexivity| | |exact Hin]; intros; [apply HT|apply HO]; auto; now right.
    - rewrite (HT m (or_introl eq_refl) D). reflexivity.
  Qed.
  Lemma homogeneous_inst mc gc order mesh a : simple gc = true ->
    (Forall (fun mg => isinst (mg_class mg) mc = true) mesh -> exists d, init (Some a) mesh (homogeneous (R := R) (P := P) mc gc order) None true = Ok d /\
       Forall2 (fun mg o => exists g, o = OGroup g /\ eg_mg g = mg /\ kd_class (eg_kind g) = gc /\ kd_dim (eg_kind g) = mg_dim mg /\ kd_order (eg_kind g) = order) mesh (d_groups d)) /\
    (~ Forall (fun mg => isinst (mg_class mg) mc = true) mesh -> init (Some a) mesh (homogeneous (R := R) (P := P) mc gc order) None true = Err TypeError).
  Proof.
    intros Hs. set (Q := fun mg (o : obj R P) => exists g, o = OGroup g /\ eg_mg g = mg /\ kd_class (eg_kind g) = gc /\ kd_dim (eg_kind g) = mg_dim mg /\ kd_order (eg_kind g) = order).
    assert (HO : forall mg, isinst (mg_class mg) mc = true -> exists o, homogeneous (R := R) (P := P) mc gc order mg = Ok o /\ Q mg o).
    { intros mg H. unfold homogeneous. rewrite H. cbn [guard bind]. exists (OGroup (mk_egrp mg (mk_kind R P gc (mg_dim mg) order 0 [] []))). split; [now destruct gc|]. eexists. split; [reflexivity|]. cbn [eg_mg eg_kind kd_class kd_dim kd_order]. auto. }
    assert (HM : (Forall (fun mg => isinst (mg_class mg) mc = true) mesh -> exists gs, mapM (homogeneous (R := R) (P := P) mc gc order) mesh = Ok gs /\ Forall2 Q mesh gs) /\
                 (~ Forall (fun mg => isinst (mg_class mg) mc = true) mesh -> mapM (homogeneous (R := R) (P := P) mc gc order) mesh = Err TypeError)).
    { induction mesh as [|mg mesh (IH1 & IH2)]; [split; [exists []; split; [reflexivity|constructor]|intros H; exfalso; apply H; constructor]|]. split.
      - intros H. inversion H as [|x l H1 H2]; subst. destruct (HO mg H1) as (o & Eo & Ho). destruct (IH1 H2) as (gs & Eg & Hg). exists (o :: gs). split; [cbn [mapM]; rewrite Eo; cbn [bind]; rewrite Eg; reflexivity|now constructor].
      - intros H. cbn [mapM]. destruct (isinst (mg_class mg) mc) eqn:I.
        + destruct (HO mg I) as (o & Eo & _). rewrite Eo. cbn [bind]. rewrite IH2; [reflexivity|]. intros F. apply H. now constructor.
        + unfold homogeneous at 1. rewrite I. reflexivity. }
    destruct HM as (H1 & H2). split; intros H; unfold init.
    - destruct (H1 H) as (gs & Eg & Hg). rewrite Eg. cbn [bind complex_of]. eexists. split; [reflexivity|exact Hg].
    - rewrite (H2 H). reflexivity.
  Qed.
  (** a factory for one class accepts exactly the meshes all of whose groups are instances of it; on the groups of meshmode the recommended factories agree with such factories *)
  Theorem C179_homogeneous mc gc order mesh a : simple gc = true ->
    (Forall (fun mg => derives (mg_class mg) mc) mesh -> exists d, init (Some a) mesh (homogeneous (R := R) (P := P) mc gc order) None true = Ok d /\
       Forall2 (fun mg o => exists g, o = OGroup g /\ eg_mg g = mg /\ kd_class (eg_kind g) = gc /\ kd_dim (eg_kind g) = mg_dim mg /\ kd_order (eg_kind g) = order) mesh (d_groups d)) /\
    (~ Forall (fun mg => derives (mg_class mg) mc) mesh -> init (Some a) mesh (homogeneous (R := R) (P := P) mc gc order) None true = Err TypeError).
  Proof.
    intros Hs. destruct (homogeneous_inst mc gc order mesh a Hs) as (A & B).
    assert (HF : Forall (fun mg => isinst (mg_class mg) mc = true) mesh <-> Forall (fun mg => derives (mg_class mg) mc) mesh).
    { split; intros H; (eapply Forall_impl; [|exact H]); intros mg; apply isinst_iff. }
    split; intros H; [apply A|apply B]; now rewrite HF.
  Qed.
  (** the factories with a node family or given nodes keep all their arguments *)
  Theorem C179_specific order family nodes mg :
    (derives (mg_class mg) MSimplex ->
       recursive_factory (R := R) (P := P) order family mg = Ok (OGroup (mk_egrp mg (mk_kind R P RecursiveNodes (mg_dim mg) order family [] []))) /\
       given_factory (R := R) (P := P) order nodes mg = Ok (OGroup (mk_egrp mg (mk_kind R P GivenNodes (mg_dim mg) order 0 nodes [])))) /\
    (~ derives (mg_class mg) MSimplex -> recursive_factory (R := R) (P := P) order family mg = Err TypeError /\ given_factory (R := R) (P := P) order nodes mg = Err TypeError).
  Proof.
    split; intros H; rewrite <- isinst_iff in H; unfold recursive_factory, given_factory; [rewrite H; split; reflexivity|].
    apply Bool.not_true_is_false in H. rewrite H. split; reflexivity.
  Qed.
  Theorem C179_agree order mg :
    (mg_class mg = MSimplex -> interpolatory_quadrature (R := R) (P := P) order mg = homogeneous MSimplex InterpolatoryQuadratureSimplex order mg /\ equidistant (R := R) (P := P) order mg = homogeneous MSimplex EquidistantSimplex order mg /\
       quadrature (R := R) (P := P) order mg = homogeneous MSimplex QuadratureSimplex order mg /\ modal (R := R) (P := P) order mg = homogeneous MSimplex ModalSimplex order mg /\ edge_clustered (R := R) (P := P) true order mg = recursive_factory order 0 mg) /\
    (mg_class mg = MTensor -> interpolatory_quadrature (R := R) (P := P) order mg = homogeneous MTensor GaussLegendreTP order mg /\ equidistant (R := R) (P := P) order mg = homogeneous MTensor EquidistantTP order mg /\
       quadrature (R := R) (P := P) order mg = homogeneous MTensor GaussLegendreTP order mg /\ modal (R := R) (P := P) order mg = homogeneous MTensor ModalTensorProduct order mg /\
       forall have_rn, edge_clustered (R := R) (P := P) have_rn order mg = homogeneous MTensor LegendreGaussLobattoTP order mg).
  Proof.
    split; intros Hc; unfold edge_clustered, interpolatory_quadrature, equidistant, quadrature, modal, type_mapping, homogeneous; rewrite Hc; repeat split.
  Qed.
  (** only two real types are supported *)
  Theorem C179_dtype mesh (f : factory R P) a gs real clone : mapM f mesh = Ok gs ->
    (real = F32 \/ real = F64 -> exists d, init (Some a) mesh f (Some real) clone = Ok d /\ d_real d = real /\ d_complex d = (match real with F32 => C64 | _ => C128 end)) /\
    (real <> F32 -> real <> F64 -> init (Some a) mesh f (Some real) clone = Err KeyError).
  Proof.
    intros Eg. unfold init. rewrite Eg. cbn [bind]. split.
    - intros [->| ->]; cbn [complex_of bind]; eexists; split; try reflexivity; split; reflexivity.
    - intros H1 H2. destruct real; try reflexivity; contradiction.
  Qed.

  (** ** C180: new arrays fit the discretization *)
  Theorem C180_zeros (d : discr R P) a dt z : zeros E d (Some a) dt = Ok z ->
    exists ss, mapM (group_shape E) (d_groups d) = Ok ss /\
      Forall2 (fun s rows => shaped rows (fst s) (snd s) /\ forall row x, In row rows -> In x row -> x = r0) ss (da_data z) /\
      ndofs E d = Ok (length (concat (concat (da_data z)))) /\
      da_actx z = Some a /\ da_dtype z = match dt with DNone => d_real d | DComplex => d_complex d | DThe t => t end.
  Proof.
    unfold zeros. intros H. apply bind_ok in H as (data & Ed & H). injection H as <-. cbn [da_data da_actx da_dtype].
    assert (exists ss, mapM (group_shape E) (d_groups d) = Ok ss) as (ss & Es).
    { apply mapM_total. intros o Ho. apply mapM_ok in Ed. destruct (Forall2_In_l _ _ _ o Ed Ho) as (rows & _ & Er). destruct (group_shape E o) as [s|e]; [now exists s|discriminate]. }
    rewrite (mapM_shape (R := R) _ _ _ Es) in Ed. injection Ed as <-. exists ss. split; [exact Es|].
    assert (HF : Forall2 (fun s rows => shaped rows (fst s) (snd s) /\ forall row x, In row rows -> In x row -> x = r0) ss (map (fun s => repeat (repeat (@r0 R) (snd s)) (fst s)) ss)).
    { clear. induction ss as [|s ss IH]; cbn [map]; constructor; [|exact IH]. split.
      - split; [apply repeat_length|]. apply Forall_forall. intros row Hr. apply repeat_spec in Hr. subst row. apply repeat_length.
      - intros row x Hr Hx. apply repeat_spec in Hr. subst row. now apply repeat_spec in Hx. }
    split; [exact HF|split; [|split; reflexivity]].
    unfold ndofs. rewrite Es. cbn [bind]. f_equal. clear. induction ss as [|s ss IH]; [reflexivity|]. cbn [map concat]. rewrite concat_app, app_length, <- IH. unfold sum. cbn [fold_right map]. f_equal.
      induction (fst s) as [|n IHn]; [reflexivity|]. cbn [repeat concat Nat.mul]. rewrite app_length, repeat_length. lia.
  Qed.
  (** the numbers of degrees of freedom: basis functions for modal groups, nodes for the others *)
  Theorem C180_counts (g : egrp R P) s : group_shape E (OGroup g) = Ok s ->
    s = (mg_nel (eg_mg g), if is_modal_class (kd_class (eg_kind g)) then length (basis E (eg_kind g)) else length (unit_nodes E (eg_kind g))).
  Proof.
    unfold group_shape. intros H. apply bind_ok in H as (n & En & H). injection H as <-. f_equal. unfold nunit_dofs in En. destruct (kd_class (eg_kind g)); cbn [is_modal_class]; try (now injection En as <-).
    - apply bind_ok in En as (t & _ & En). now injection En as <-.
    - apply bind_ok in En as (t & _ & En). now injection En as <-.
  Qed.
  (** for the recommended factories zeros always succeeds *)
  Theorem C180_recommended have_rn r order mesh a d b dt : Forall plain mesh -> available have_rn r mesh ->
    init (Some a) mesh (the_factory (R := R) (P := P) have_rn r order) None true = Ok d -> exists z, zeros E d (Some b) dt = Ok z /\ length (da_data z) = length mesh.
  Proof.
    intros Hp Ha H. unfold init in H. apply bind_ok in H as (gs & Eg & H). cbn [complex_of bind] in H. injection H as <-. unfold zeros. cbn [d_groups d_real d_complex].
    assert (exists ss, mapM (group_shape E) gs = Ok ss) as (ss & Es).
    { apply mapM_total. intros o Ho. apply mapM_ok in Eg. destruct (Forall2_In_r _ _ _ o Eg Ho) as (mg & Hin & Em). rewrite Forall_forall in Hp.
      destruct (recommended_suits have_rn r order mesh mg Ha Hin (Hp mg Hin)) as (o' & Eo & _ & s & Es & _). exists s. congruence. }
    rewrite (mapM_shape (R := R) _ _ _ Es). cbn [bind]. eexists. split; [reflexivity|]. cbn [da_data]. rewrite map_length.
    apply mapM_ok in Es. apply mapM_ok in Eg. now rewrite <- (Forall2_length' _ _ _ Es), <- (Forall2_length' _ _ _ Eg).
  Qed.
  Theorem C180_zeros_like (d : discr R P) z :
    (da_actx z = None -> zeros_like E d z = Err ValueError) /\
    (forall y, zeros_like E d z = Ok y -> da_actx y = da_actx z /\ da_dtype y = da_dtype z /\
       exists ss, mapM (group_shape E) (d_groups d) = Ok ss /\ Forall2 (fun s rows => shaped rows (fst s) (snd s) /\ forall row x, In row rows -> In x row -> x = r0) ss (da_data y)).
  Proof.
    unfold zeros_like. split; [intros ->; reflexivity|]. intros y H. destruct (da_actx z) as [a|]; [|discriminate].
    destruct (C180_zeros d a (DThe (da_dtype z)) y H) as (ss & Es & F & _ & Ea & Ed). split; [exact Ea|]. split; [exact Ed|]. now exists ss.
  Qed.
  (** every element has the weights of the rule of its group; modal discretizations have no weights *)
  Theorem C180_weights (d : discr R P) :
    (forall w, quad_weights E d = Ok w -> da_actx w = None /\ is_nodal d = true /\
       Forall2 (fun o rows => exists g, o = OGroup g /\ length rows = mg_nel (eg_mg g) /\ forall row, In row rows -> row = weights E (eg_kind g)) (d_groups d) (da_data w)) /\
    (is_nodal d = false -> quad_weights E d = Err TypeError) /\
    (d_groups d <> [] -> is_modal d = true -> quad_weights E d = Err TypeError).
  Proof.
    split; [|split].
    - intros w H. unfold quad_weights in H. apply bind_ok in H as (u & Eu & H). apply bind_ok in H as (data & Ed & H). injection H as <-. cbn [da_actx da_data].
      split; [reflexivity|]. split; [unfold guard in Eu; now destruct (is_nodal d)|]. apply mapM_ok in Ed. revert Ed. apply Forall2_impl. intros [g|] rows Er; [|discriminate].
      apply bind_ok in Er as (n & _ & Er). injection Er as <-. exists g. split; [reflexivity|]. split; [apply repeat_length|]. intros row Hr. now apply repeat_spec in Hr.
    - intros H. unfold quad_weights. now rewrite H.
    - intros Hne Hm. unfold quad_weights. assert (H : is_nodal d = false); [|now rewrite H]. unfold is_nodal, is_modal in *. destruct (d_groups d) as [|o l]; [contradiction|]. cbn [forallb] in *. apply andb_true_iff in Hm as (Hm & _).
      destruct o as [g|]; [|discriminate]. cbn [nodal_obj modal_obj] in *. unfold is_nodal_class. now rewrite Hm.
  Qed.

  (** a discretization is nodal if every group is a group with nodes, modal if every group has modes; with another object it is neither *)
  Theorem C180_kinds (d : discr R P) :
    (is_nodal d = true <-> forall o, In o (d_groups d) -> exists g, o = OGroup g /\ kd_class (eg_kind g) <> ModalSimplex /\ kd_class (eg_kind g) <> ModalTensorProduct) /\
    (is_modal d = true <-> forall o, In o (d_groups d) -> exists g, o = OGroup g /\ (kd_class (eg_kind g) = ModalSimplex \/ kd_class (eg_kind g) = ModalTensorProduct)).
  Proof.
    unfold is_nodal, is_modal. rewrite !forallb_forall. split; split; intros H o Ho; specialize (H o Ho).
    - destruct o as [g|]; [|discriminate]. exists g. split; [reflexivity|]. cbn [nodal_obj] in H. split; intros E0; rewrite E0 in H; discriminate.
    - destruct H as (g & -> & H1 & H2). cbn [nodal_obj]. destruct (kd_class (eg_kind g)); try reflexivity; contradiction.
    - destruct o as [g|]; [|discriminate]. exists g. split; [reflexivity|]. cbn [modal_obj] in H. destruct (kd_class (eg_kind g)); try discriminate; auto.
    - destruct H as (g & -> & [H1|H1]); cbn [modal_obj]; rewrite H1; reflexivity.
  Qed.

  (** ** C181: copies *)
  Theorem C181_same a mesh (f : factory R P) real clone d : init (Some a) mesh f real clone = Ok d -> copy d None None None None = Ok d.
  Proof.
    unfold init, copy. intros H. apply bind_ok in H as (gs & Eg & H). apply bind_ok in H as (c & Ec & H). injection H as <-. cbn [d_actx d_mesh d_factory d_real]. unfold init. rewrite Eg. cbn [bind]. rewrite Ec. reflexivity.
  Qed.
  (** what is not replaced stays; a new array context is cloned once, like in the constructor *)
  Theorem C181_replace a mesh (f : factory R P) real clone d a' mesh' f' real' : init (Some a) mesh f real clone = Ok d ->
    (copy d (Some a') (Some mesh') (Some f') (Some real') = init (Some a') mesh' f' (Some real') true) /\
    (copy d (Some a') None None None = init (Some a') mesh f real true) /\
    (copy d None (Some mesh') None None = init (Some (d_actx d)) mesh' f real false) /\
    (copy d None None (Some f') None = init (Some (d_actx d)) mesh f' real false) /\
    (copy d None None None (Some real') = init (Some (d_actx d)) mesh f (Some real') false).
  Proof.
    unfold init. intros H. apply bind_ok in H as (gs & Eg & H). apply bind_ok in H as (c & Ec & H). injection H as <-. unfold copy, init. cbn [d_actx d_mesh d_factory d_real]. repeat split; destruct real; reflexivity.
  Qed.
  Theorem C181_setup_context a mesh (f : factory R P) real d : init (Some a) mesh f real true = Ok d -> d_actx d <> a.
  Proof.
    unfold init. intros H. apply bind_ok in H as (gs & Eg & H). apply bind_ok in H as (c & Ec & H). injection H as <-. cbn [d_actx]. clear. induction a as [n|a IH]; [discriminate|]. intros E0. injection E0 as E0. contradiction.
  Qed.
End Props.

(** ** C182: a mesh group of a class derived from SimplexElementGroup is accepted by the factories for simplices, but not by the recommended ones *)
Theorem C182_derived_refuted : exists mg : mgrp, isinst (mg_class mg) MSimplex = true /\
  (exists o, homogeneous (R := Zcring) (P := unit) MSimplex InterpolatoryQuadratureSimplex 2 mg = Ok o) /\
  (forall have_rn r, the_factory (R := Zcring) (P := unit) have_rn r 2 mg = Err TypeError).
Proof. exists (mk_mgrp (MSub 0 MSimplex) 2 1). split; [reflexivity|]. split; [eexists; reflexivity|]. intros have_rn r. destruct r; reflexivity. Qed.
(** without recursivenodes faces of tetrahedra get other node sets than from the factory for the volume *)
Theorem C182_faces_refuted : exists face vol : factory Zcring unit, exists mg, mg_dim mg = 2 /\ default_simplex false 3 1 = Ok vol /\ face = edge_clustered false 1 /\ face mg <> vol mg.
Proof. eexists. eexists. exists (mk_mgrp MSimplex 2 1). split; [reflexivity|]. split; [reflexivity|]. split; [reflexivity|]. discriminate. Qed.

(** ** C183: a value that is neither an element group class nor a factory should raise TypeError when the factory is called *)
Theorem C183_factory_class_refuted : exists m : list (mclass * entry Zcring unit), exists mesh d,
  In (MSimplex, factory_class) m /\ init (Some (ARoot 0)) mesh (type_mapping 2 m) None true = Ok d /\ In OOther (d_groups d) /\
  forall E dt, zeros E d (Some (ARoot 0)) dt = Err AttributeError.
Proof. exists [(MSimplex, factory_class)], [mk_mgrp MSimplex 2 1]. eexists. split; [now left|]. split; [reflexivity|]. split; [now left|]. reflexivity. Qed.
Theorem C183_unnamed_refuted : exists m : list (mclass * entry Zcring unit), exists mg, type_mapping 2 m mg = Err AttributeError.
Proof. exists [(MSimplex, EOther false)], (mk_mgrp MSimplex 2 1). reflexivity. Qed.

(** A mesh of two triangles and a square; every reference element has as many nodes as the order says *)
Definition ex_E : numerics Zcring nat := mk_numerics Zcring nat (fun _ d n => seq 0 (d + n)) (fun d n _ => seq 0 (d * n)) (fun _ n => repeat (fun _ => 1%Z) n) (fun _ n => repeat (fun _ => 1%Z) n) (fun _ n => repeat (fun _ => 1%Z) (n * n))
  (fun _ d n => map Z.of_nat (seq 1 (d + n))) (fun _ xs => map Z.of_nat xs) (fun _ _ n => n) (fun _ _ => []) (fun m => Ok m) (fun _ _ => []) (fun _ => true) (fun _ _ => true).
Definition ex_mesh : list mgrp := [mk_mgrp MSimplex 2 2; mk_mgrp MTensor 2 1].
Example C179_example : Forall plain ex_mesh /\ available false REdgeClustered ex_mesh /\ exists d, init (Some (ARoot 0)) ex_mesh (the_factory (R := Zcring) (P := nat) true RInterpolatoryQuadrature 1) None true = Ok d /\
  ndofs ex_E d = Ok 9 /\ is_nodal d = true /\ is_modal d = false /\
  (exists z, zeros ex_E d (Some (ARoot 0)) DComplex = Ok z /\ da_data z = [[[0; 0; 0]; [0; 0; 0]]; [[0; 0; 0]]]%Z /\ da_dtype z = C128) /\
  (exists w, quad_weights ex_E d = Ok w /\ da_data w = [[[1; 2; 3]; [1; 2; 3]]; [[1; 2; 3]]]%Z) /\ copy d None None None None = Ok d.
Proof.
  split; [constructor; [left; reflexivity|constructor; [right; reflexivity|constructor]]|]. split; [intros _ _; apply Forall_forall; intros mg [<-|[<-|[]]] _; cbn [mg_dim]; lia|]. eexists. split; [reflexivity|]. split; [reflexivity|]. split; [reflexivity|]. split; [reflexivity|].
  split; [eexists; split; [reflexivity|split; reflexivity]|]. split; [eexists; split; reflexivity|reflexivity].
Qed.

Print Assumptions C179_recommended.
Print Assumptions C179_unsupported.
Print Assumptions C179_homogeneous.
Print Assumptions C179_specific.
Print Assumptions C179_agree.
Print Assumptions C179_dtype.
Print Assumptions C180_zeros.
Print Assumptions C180_counts.
Print Assumptions C180_recommended.
Print Assumptions C180_zeros_like.
Print Assumptions C180_weights.
Print Assumptions C180_kinds.
Print Assumptions C181_same.
Print Assumptions C181_replace.
Print Assumptions C181_setup_context.
Print Assumptions C182_derived_refuted.
Print Assumptions C182_faces_refuted.
Print Assumptions C183_factory_class_refuted.
Print Assumptions C183_unnamed_refuted.
