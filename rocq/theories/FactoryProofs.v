(** * FactoryProofs *)
From Coq Require Import List Arith Bool Lia.
From Verif Require Import Np NpFacts Lin ModalModel FactoryModel FactorySpec.
Import ListNotations.

Lemma mclass_eqb_eq a b : mclass_eqb a b = true <-> a = b.
Proof.
  revert b; induction a as [| |i a IH]; destruct b as [| |j b]; cbn [mclass_eqb]; try (split; congruence).
  rewrite andb_true_iff, Nat.eqb_eq, IH. split; [intros [-> ->]; reflexivity|intros E; injection E as -> ->; auto].
Qed.
Lemma isinst_iff c d : isinst c d = true <-> derives c d.
Proof.
  induction c as [| |n p IH]; cbn [isinst]; rewrite orb_true_iff, mclass_eqb_eq; (split; [intros [->|H]; try (constructor; fail)|intros H; inversion H; subst]); try (now left); try discriminate H.
  - apply derives_base. now apply IH.
  - right. now apply IH.
Qed.

Section Proofs.
  Context {R : cring} {P : Type}.
  Variable E : numerics R P.

  Lemma mapM_suits ok order (f : factory R P) mesh : (forall mg, In mg mesh -> exists o, f mg = Ok o /\ suits ok order mg o) ->
    exists groups, mapM f mesh = Ok groups /\ Forall2 (suits ok order) mesh groups.
  Proof.
    induction mesh as [|mg mesh IH]; intros H; [exists []; split; [reflexivity|constructor]|].
    destruct (H mg (or_introl eq_refl)) as (o & Eo & Ho). destruct IH as (gs & Eg & Hg); [intros x Hx; apply H; now right|].
    exists (o :: gs). split; [cbn [mapM]; rewrite Eo; cbn [bind]; rewrite Eg; reflexivity|now constructor].
  Qed.

  (** a mapping of the two plain classes to classes that need no further arguments *)
  Definition simple (c : gclass) : bool := match c with RecursiveNodes | GivenNodes | TensorProductGiven | LegendreTensorProduct => false | _ => true end.
  Lemma construct_suits ok c mg order : simple c = true -> ok c = true -> cell_of c = mesh_cell (mg_class mg) -> exists o : obj R P, construct c mg order = Ok o /\ suits ok order mg o.
  Proof.
    intros Hs Ho Hc. exists (OGroup (mk_egrp mg (mk_kind R P c (mg_dim mg) order 0 [] []))). split; [now destruct c|].
    exists (mk_egrp mg (mk_kind R P c (mg_dim mg) order 0 [] [])). cbn [eg_mg eg_kind kd_dim kd_order kd_class]. auto 10.
  Qed.
  Lemma isinst_refl c : isinst c c = true.
  Proof. destruct c; cbn [isinst]; rewrite (proj2 (mclass_eqb_eq _ _) eq_refl); reflexivity. Qed.

  Lemma default_suits have_rn order mg : mg_class mg = MSimplex -> have_rn = true \/ mg_dim mg <= 3 ->
    exists o : obj R P, default_polynomial have_rn order mg = Ok o /\ suits is_interp order mg o.
  Proof.
    intros Hc Hd. unfold default_polynomial, default_simplex. destruct have_rn.
    - cbn [bind]. unfold recursive_factory. rewrite Hc. cbn [isinst mclass_eqb orb guard bind]. eexists. split; [reflexivity|].
      eexists. split; [reflexivity|]. cbn [eg_mg eg_kind kd_dim kd_order kd_class]. rewrite Hc. repeat split.
    - destruct Hd as [Hd|Hd]; [discriminate|]. destruct (mg_dim mg <=? 2) eqn:L.
      + cbn [bind]. unfold homogeneous. rewrite Hc. cbn [isinst mclass_eqb orb guard bind]. apply construct_suits; [reflexivity|reflexivity|now rewrite Hc].
      + apply Nat.leb_gt in L. assert (E3 : (mg_dim mg =? 3) = true) by (apply Nat.eqb_eq; lia). rewrite E3. cbn [bind]. unfold homogeneous. rewrite Hc. cbn [isinst mclass_eqb orb guard bind]. apply construct_suits; [reflexivity|reflexivity|now rewrite Hc].
  Qed.

  Lemma mapM_shape {A} (f : A -> res (nat * nat)) (l : list A) ss : mapM f l = Ok ss ->
    mapM (fun o => s <- f o ;; Ok (repeat (repeat (@r0 R) (snd s)) (fst s))) l = Ok (map (fun s => repeat (repeat r0 (snd s)) (fst s)) ss).
  Proof.
    revert ss. induction l as [|o l IH]; intros ss H; [injection H as <-; reflexivity|].
    cbn [mapM] in H. apply bind_ok in H as (s & Es & H). apply bind_ok in H as (ss' & Ess & H). injection H as <-.
    cbn [mapM map]. rewrite Es. cbn [bind]. rewrite (IH _ Ess). reflexivity.
  Qed.
End Proofs.
