(** * EqProofs: lemmas about comparing meshes. *)
From Coq Require Import List Arith Bool Lia.
From Verif Require Import Np NpFacts Lin MeshModel ConsistModel ConsistProofs CompletionProofs AffineModel AffineProps EqModel EqSpec.
Import ListNotations.

Lemma list_eqb_iff : forall (X : Type) (e : X -> X -> bool), (forall a b, e a b = true <-> a = b) -> forall u v : list X,
  (length u =? length v) && forallb (fun p => e (fst p) (snd p)) (combine u v) = true <-> u = v.
Proof.
  intros X e He u. induction u as [|a u IH]; intros [|b v]; cbn; try (split; [discriminate|discriminate || auto]); auto.
  - split; auto.
  - rewrite !andb_true_iff. specialize (IH v). rewrite andb_true_iff in IH. rewrite He. split.
    + intros (H1 & -> & H2). f_equal. now apply IH.
    + intros [= -> ->]. pose proof (proj2 IH eq_refl). tauto.
Qed.

Lemma list_eqb_sym : forall (X : Type) (e : X -> X -> bool), (forall a b, e a b = e b a) -> forall u v : list X,
  (length u =? length v) && forallb (fun p => e (fst p) (snd p)) (combine u v) =
  (length v =? length u) && forallb (fun p => e (fst p) (snd p)) (combine v u).
Proof.
  intros X e He u. induction u as [|a u IH]; intros [|b v]; cbn; auto.
  specialize (IH v). rewrite (He a b). destruct (e b a); cbn; auto. now rewrite !andb_false_r.
Qed.

Lemma array_equal_iff : forall (X : Type) (e : X -> X -> bool), (forall a b, e a b = true <-> a = b) ->
  forall u v : arr X, array_equal e u v = true <-> u = v.
Proof.
  intros X e He [s d] [s' d']. unfold array_equal. cbn [a_shape a_data]. rewrite <- andb_assoc, andb_true_iff, list_nat_eqb_iff, list_eqb_iff by auto.
  split; [intros (-> & ->); auto|intros [= -> ->]; auto].
Qed.

Lemma index_equal_iff : forall u v, index_equal u v = true <-> u = v.
Proof. apply array_equal_iff, Nat.eqb_eq. Qed.

Lemma optional_array_equal_iff : forall (X : Type) (e : X -> X -> bool), (forall a b, e a b = true <-> a = b) ->
  forall u v : option (arr X), optional_array_equal e u v = true <-> u = v.
Proof.
  intros X e He [u|] [v|]; cbn; try (split; congruence). rewrite array_equal_iff by auto. split; congruence.
Qed.

(** Boolean tests that decide equality are symmetric *)
Lemma decides_sym : forall (X : Type) (e : X -> X -> bool), (forall a b, e a b = true <-> a = b) -> forall a b, e a b = e b a.
Proof.
  intros X e He a b. destruct (e a b) eqn:E1, (e b a) eqn:E2; auto.
  - apply He in E1 as ->. rewrite E1 in E2 || (rewrite (proj2 (He b b) eq_refl) in E2; discriminate).
  - apply He in E2 as ->. rewrite (proj2 (He a a) eq_refl) in E1. discriminate.
Qed.

Lemma entries_iff : forall (X : Type) (f : X -> X -> res bool) (P : X -> Prop),
  (forall a b, P a -> (f a b = Ok true <-> a = b)) ->
  forall l l', Forall P l -> length l = length l' -> (entries_eq f l l' = Ok true <-> l = l').
Proof.
  intros X f P Hf l. induction l as [|x l IH]; intros [|y l'] HP HL; cbn [length] in HL; try lia.
  - cbn. split; auto.
  - inversion_clear HP as [|? ? Hx Hl]. cbn [entries_eq]. specialize (Hf x y Hx). split.
    + intros H. apply bind_ok in H as (b & Hb & H). destruct b; [|discriminate]. apply Hf in Hb as ->. f_equal. apply IH; auto.
    + intros [= -> ->]. rewrite (proj2 Hf eq_refl). cbn [bind]. now apply IH.
Qed.

Lemma tuple_iff : forall (X : Type) (f : X -> X -> res bool) (P : X -> Prop),
  (forall a b, P a -> (f a b = Ok true <-> a = b)) ->
  forall l l', Forall P l -> (tuple_eq f l l' = Ok true <-> l = l').
Proof.
  intros X f P Hf l l' HP. unfold tuple_eq. destruct (Nat.eqb_spec (length l) (length l')) as [E|E].
  - eapply entries_iff; eauto.
  - split; [discriminate|congruence].
Qed.

Lemma tuple_sym : forall (X : Type) (f : X -> X -> res bool), (forall a b, f a b = f b a) -> forall l l', tuple_eq f l l' = tuple_eq f l' l.
Proof.
  intros X f Hf l l'. unfold tuple_eq. rewrite (Nat.eqb_sym (length l')). destruct (length l =? length l') eqn:E; auto. clear E.
  revert l'; induction l as [|x l IH]; intros [|y l']; cbn [entries_eq]; auto. rewrite Hf. destruct (f y x) as [[|]|]; cbn [bind]; auto.
Qed.

Lemma tuple_total : forall (X : Type) (f : X -> X -> res bool) l l',
  (forall i a b, nth_error l i = Some a -> nth_error l' i = Some b -> exists c, f a b = Ok c) -> exists c, tuple_eq f l l' = Ok c.
Proof.
  intros X f l l' H. unfold tuple_eq. destruct (length l =? length l'); [|eauto].
  revert l' H; induction l as [|x l IH]; intros [|y l'] H; cbn [entries_eq]; eauto.
  destruct (H 0 x y eq_refl eq_refl) as (c & ->). cbn [bind]. destruct c; eauto. apply IH. intros i a b Ha Hb. apply (H (S i)); auto.
Qed.

Lemma lazy_iff : forall (X : Type) (f : X -> X -> res bool) (P : X -> Prop),
  (forall a b, P a -> (f a b = Ok true <-> a = b)) ->
  forall a b, match a with LSome x => P x | _ => True end -> (lazy_eq f a b = Ok true <-> a = b).
Proof.
  intros X f P Hf [| |x] [| |y] HP; cbn [lazy_eq]; try (split; congruence). rewrite Hf by auto. split; congruence.
Qed.

Lemma lazy_sym : forall (X : Type) (f : X -> X -> res bool), (forall a b, f a b = f b a) -> forall a b, lazy_eq f a b = lazy_eq f b a.
Proof. intros X f Hf [| |x] [| |y]; cbn [lazy_eq]; auto. Qed.

Lemma opt_bool_eqb_iff : forall a b, opt_bool_eqb a b = true <-> a = b.
Proof. intros [[|]|] [[|]|]; cbn; split; congruence. Qed.

Section Maps.
  Context {R : cring} (reqb : R -> R -> bool) (Hr : forall a b, reqb a b = true <-> a = b).

  Definition amap_truth (f g : amap R) : res bool := v <- amap_eq R reqb f g ;; truth v.

  Definition veqb (u v : list R) : bool := (length u =? length v) && forallb (fun p => reqb (fst p) (snd p)) (combine u v).
  Definition meqb (M N : list (list R)) : bool := (length M =? length N) && forallb (fun p => veqb (fst p) (snd p)) (combine M N).
  Lemma veqb_iff : forall u v, veqb u v = true <-> u = v.
  Proof using Hr. apply list_eqb_iff, Hr. Qed.
  Lemma meqb_iff : forall u v, meqb u v = true <-> u = v.
  Proof using Hr. apply list_eqb_iff, veqb_iff. Qed.

  Lemma amap_eq_eq : forall f g, amap_eq R reqb f g =
    (b <- truth (component_equal meqb (fun M => sum (map (@length _) M)) (am_matrix f) (am_matrix g)) ;;
     if b then Ok (component_equal veqb (@length _) (am_offset f) (am_offset g))
     else Ok (component_equal meqb (fun M => sum (map (@length _) M)) (am_matrix f) (am_matrix g))).
  Proof using. reflexivity. Qed.

  Lemma truth_repeat : forall n, truth (VArray (repeat false n)) <> Ok true.
  Proof using. intros [|[|n]]; cbn; discriminate. Qed.

  Lemma component_iff : forall (X : Type) (e : X -> X -> bool) size, (forall a b, e a b = true <-> a = b) ->
    forall a b, truth (component_equal e size a b) = Ok true <-> a = b.
  Proof using.
    intros X e size He [a|] [b|]; cbn [component_equal truth].
    - split; [intros [= H]; apply He in H; congruence|intros [= ->]; f_equal; now apply He].
    - split; [intros H; now apply truth_repeat in H|discriminate].
    - split; [intros H; now apply truth_repeat in H|discriminate].
    - split; auto.
  Qed.

  Lemma component_sym : forall (X : Type) (e : X -> X -> bool) size, (forall a b, e a b = true <-> a = b) ->
    forall a b, component_equal e size a b = component_equal e size b a.
  Proof using. intros X e size He [a|] [b|]; cbn [component_equal]; auto. f_equal. now apply decides_sym. Qed.

  Lemma amap_truth_iff : forall f g, amap_truth f g = Ok true <-> f = g.
  Proof using Hr.
    intros [M o] [M' o']. unfold amap_truth. rewrite amap_eq_eq. cbn [am_matrix am_offset].
    pose proof (component_iff _ meqb (fun M => sum (map (@length _) M)) meqb_iff M M') as HM.
    pose proof (component_iff _ veqb (@length _) veqb_iff o o') as Ho.
    destruct (truth (component_equal meqb _ M M')) as [[|]|] eqn:EM; cbn [bind].
    - rewrite Ho. split; [intros ->; now rewrite (proj1 HM eq_refl)|congruence].
    - rewrite EM. split; [discriminate|]. intros [= E _]. apply HM in E. discriminate.
    - split; [discriminate|]. intros [= E _]. apply HM in E. discriminate.
  Qed.

  Lemma amap_eq_sym : forall f g, amap_eq R reqb f g = amap_eq R reqb g f.
  Proof using Hr.
    intros f g. rewrite !amap_eq_eq.
    rewrite (component_sym _ meqb _ meqb_iff (am_matrix f)), (component_sym _ veqb _ veqb_iff (am_offset f)). reflexivity.
  Qed.

  Lemma index_equal_sym : forall u v, index_equal u v = index_equal v u.
  Proof using. apply decides_sym, index_equal_iff. Qed.

  Lemma fagroup_iff : forall a b, concrete a -> (fagroup_eq_bool R reqb a b = Ok true <-> a = b).
  Proof using Hr.
    assert (If : forall (c : bool) f g, (v <- (if c then amap_eq R reqb f g else Ok (VBool false)) ;; truth v) = Ok true <-> c = true /\ f = g).
    { intros c f g. destruct c.
      - fold (amap_truth f g). rewrite amap_truth_iff. tauto.
      - cbn. split; [discriminate|intros (? & _); discriminate]. }
    intros a b Ha. destruct a, b; cbn in Ha; try contradiction; unfold fagroup_eq_bool; cbn [fagroup_eq]; try (cbn [bind truth]; split; discriminate).
    - rewrite If, !andb_true_iff, !Nat.eqb_eq, !index_equal_iff. split; [intros (((((((-> & ->) & ->) & ->) & ->) & ->) & ->) & ->); auto|].
      intros [= -> -> -> -> -> -> -> ->]. tauto.
    - cbn [bind truth]. split.
      + intros [= H]. rewrite !andb_true_iff, !Nat.eqb_eq, !index_equal_iff, btag_eqb_eq in H. destruct H as ((((-> & ->) & ->) & ->) & ->). auto.
      + intros [= -> -> -> -> ->]. f_equal. rewrite !andb_true_iff, !Nat.eqb_eq, !index_equal_iff, btag_eqb_eq. tauto.
    - rewrite If, !andb_true_iff, !Nat.eqb_eq, !index_equal_iff, btag_eqb_eq. split; [intros ((((((((-> & ->) & ->) & ->) & ->) & ->) & ->) & ->) & ->); auto|].
      intros [= -> -> -> -> -> -> -> -> ->]. tauto.
  Qed.

  Lemma fagroup_sym : forall a b, fagroup_eq_bool R reqb a b = fagroup_eq_bool R reqb b a.
  Proof using Hr.
    intros a b. unfold fagroup_eq_bool. f_equal.
    assert (Hb : forall t t', btag_eqb t t' = btag_eqb t' t) by (apply decides_sym, btag_eqb_eq).
    destruct a as [c i es fs|c i i' es fs ns nfs f|c i t es fs|c i t p es fs ns nfs f], b as [d j es' fs'|d j j' es' fs' ns' nfs' g|d j t' es' fs'|d j t' p' es' fs' ns' nfs' g];
      cbn [fagroup_eq]; auto.
    - now rewrite (Nat.eqb_sym d), (Nat.eqb_sym j).
    - rewrite (Nat.eqb_sym d), (Nat.eqb_sym j), (Nat.eqb_sym j'), (index_equal_sym es'), (index_equal_sym fs'), (index_equal_sym ns'), (index_equal_sym nfs'), (amap_eq_sym g).
      reflexivity.
    - now rewrite (Nat.eqb_sym d), (Nat.eqb_sym j), (Hb t'), (index_equal_sym es'), (index_equal_sym fs').
    - rewrite (Nat.eqb_sym d), (Nat.eqb_sym j), (Hb t'), (Nat.eqb_sym p'), (index_equal_sym es'), (index_equal_sym fs'), (index_equal_sym ns'), (index_equal_sym nfs'), (amap_eq_sym g).
      reflexivity.
  Qed.

  Lemma fagroup_total : forall a b, comparable a b -> exists c, fagroup_eq_bool R reqb a b = Ok c.
  Proof using Hr.
    assert (If : forall (c : bool) f g, same_components f g -> exists d, (v <- (if c then amap_eq R reqb f g else Ok (VBool false)) ;; truth v) = Ok d).
    { intros c f g (HM & Ho). destruct c; [|cbn; eauto].
      destruct (C60_equality_same_shape_partial R reqb Hr f g HM Ho) as (b & -> & _). cbn. eauto. }
    intros a b H. destruct a, b; unfold fagroup_eq_bool; cbn [fagroup_eq]; try (cbn [bind truth]; eauto; fail); apply If, H; reflexivity.
  Qed.

  Lemma group_eq_iff : forall g h, group_eq R reqb g h = true <-> g = h.
  Proof using Hr.
    intros [] []. unfold group_eq. cbn [EqModel.e_class EqModel.e_order EqModel.e_vi EqModel.e_nodes EqModel.e_unit].
    rewrite !andb_true_iff, !Nat.eqb_eq, optional_array_equal_iff, !array_equal_iff by (auto || apply Nat.eqb_eq).
    split; [intros (-> & ((-> & ->) & ->) & ->); auto|intros [= -> -> -> -> ->]; tauto].
  Qed.

  Lemma nadj_eq_iff : forall a b, nadj_eq a b = true <-> a = b.
  Proof using.
    intros [] []. unfold nadj_eq. cbn [EqModel.n_class EqModel.n_starts EqModel.n_neighbors]. rewrite !andb_true_iff, !Nat.eqb_eq, !index_equal_iff.
    split; [intros (-> & -> & ->); auto|intros [= -> -> ->]; tauto].
  Qed.
End Maps.

Lemma ok_iff : forall (X : Type) (f : X -> X -> bool), (forall a b, f a b = true <-> a = b) -> forall a b, True -> (Ok (f a b) = Ok true <-> a = b).
Proof. intros X f Hf a b _. rewrite <- Hf. split; congruence. Qed.

Section Meshes.
  Context {R : cring} (reqb : R -> R -> bool) (Hr : forall a b, reqb a b = true <-> a = b).

  Lemma mesh_equal_iff : forall m m', concrete_mesh m -> (mesh_equal R reqb m m' = Ok true <-> same_data m m').
  Proof using Hr.
    intros m m' Hc. unfold mesh_equal, same_data.
    destruct (Nat.eqb_spec (em_class R m) (em_class R m')) as [E1|E1]; [|split; [discriminate|tauto]].
    destruct (optional_array_equal reqb (em_vertices R m) (em_vertices R m')) eqn:E2;
      [apply optional_array_equal_iff in E2; auto|split; [discriminate|]; intros (_ & E & _); apply (optional_array_equal_iff _ reqb Hr) in E; congruence].
    pose proof (tuple_iff _ (fun g h => Ok (group_eq R reqb g h)) (fun _ => True) (ok_iff _ _ (group_eq_iff reqb Hr)) (em_groups R m) (em_groups R m')) as E3.
    assert (HT : forall l : list (egrp R), Forall (fun _ => True) l) by (induction l; auto). specialize (E3 (HT _)).
    pose proof (lazy_iff _ (fun a b => Ok (nadj_eq a b)) (fun _ => True) (ok_iff _ _ nadj_eq_iff) (em_nodal R m) (em_nodal R m')) as E4.
    assert (HT4 : match em_nodal R m with LSome _ => True | _ => True end) by now destruct (em_nodal R m). specialize (E4 HT4).
    pose proof (lazy_iff _ (tuple_eq (tuple_eq (fagroup_eq_bool R reqb))) (Forall (Forall concrete))) as E5.
    specialize (E5 (fun a b Ha => tuple_iff _ _ _ (fun a b Hp => tuple_iff _ _ _ (fagroup_iff reqb Hr) a b Hp) a b Ha) (em_facial R m) (em_facial R m') Hc).
    destruct (tuple_eq _ (em_groups R m) (em_groups R m')) as [[|]|] eqn:F3; cbn [bind andb].
    2: { split; [discriminate|]. intros (_ & _ & E & _). apply E3 in E. discriminate. }
    2: { split; [discriminate|]. intros (_ & _ & E & _). apply E3 in E. discriminate. }
    destruct (Nat.eqb_spec (em_vdtype R m) (em_vdtype R m')) as [E6|E6]; [|split; [discriminate|tauto]].
    destruct (Nat.eqb_spec (em_edtype R m) (em_edtype R m')) as [E7|E7]; [|split; [discriminate|tauto]]. cbn [andb].
    destruct (lazy_eq _ (em_nodal R m) (em_nodal R m')) as [[|]|] eqn:F4; cbn [bind].
    2: { split; [discriminate|]. intros (_ & _ & _ & _ & E & _). apply E4 in E. discriminate. }
    2: { split; [discriminate|]. intros (_ & _ & _ & _ & E & _). apply E4 in E. discriminate. }
    destruct (lazy_eq _ (em_facial R m) (em_facial R m')) as [[|]|] eqn:F5; cbn [bind].
    2: { split; [discriminate|]. intros (_ & _ & _ & _ & _ & E & _). apply E5 in E. discriminate. }
    2: { split; [discriminate|]. intros (_ & _ & _ & _ & _ & E & _). apply E5 in E. discriminate. }
    pose proof (opt_bool_eqb_iff (em_conforming R m) (em_conforming R m')) as E8. split.
    - intros [= H]. apply E8 in H. tauto.
    - intros (_ & _ & _ & H & _). f_equal. now apply E8.
  Qed.

  Lemma mesh_equal_sym : forall m m', mesh_equal R reqb m m' = mesh_equal R reqb m' m.
  Proof using Hr.
    intros m m'. unfold mesh_equal.
    rewrite (Nat.eqb_sym (em_class R m')), (Nat.eqb_sym (em_vdtype R m')), (Nat.eqb_sym (em_edtype R m')).
    rewrite (decides_sym _ _ (optional_array_equal_iff _ reqb Hr) (em_vertices R m')), (decides_sym _ _ opt_bool_eqb_iff (em_conforming R m')).
    rewrite (tuple_sym _ (fun g h => Ok (group_eq R reqb g h)) (fun a b => f_equal Ok (decides_sym _ _ (group_eq_iff reqb Hr) a b)) (em_groups R m')).
    rewrite (lazy_sym _ (fun a b => Ok (nadj_eq a b)) (fun a b => f_equal Ok (decides_sym _ _ nadj_eq_iff a b)) (em_nodal R m')).
    rewrite (lazy_sym _ _ (tuple_sym _ _ (tuple_sym _ _ (fagroup_sym reqb Hr))) (em_facial R m')). reflexivity.
  Qed.

  Lemma mesh_equal_total : forall m m', comparable_meshes m m' -> exists b, mesh_equal R reqb m m' = Ok b.
  Proof using Hr.
    intros m m' H. unfold mesh_equal. destruct (em_class R m =? em_class R m'); [|eauto]. destruct (optional_array_equal _ _ _); [|eauto].
    destruct (tuple_total _ (fun g h => Ok (group_eq R reqb g h)) (em_groups R m) (em_groups R m')) as (c & ->); [eauto|]. cbn [bind].
    destruct (c && _ && _); [|eauto].
    assert (exists c, lazy_eq (fun a b => Ok (nadj_eq a b)) (em_nodal R m) (em_nodal R m') = Ok c) as (c' & ->)
      by (destruct (em_nodal R m), (em_nodal R m'); cbn [lazy_eq]; eauto).
    cbn [bind]. destruct c'; [|eauto].
    assert (exists c, lazy_eq (tuple_eq (tuple_eq (fagroup_eq_bool R reqb))) (em_facial R m) (em_facial R m') = Ok c) as (d & ->).
    { unfold comparable_meshes in H. destruct (em_facial R m) as [| |gs], (em_facial R m') as [| |hs]; cbn [lazy_eq]; eauto.
      apply tuple_total. intros i l l' Hl Hl'. apply tuple_total. intros j a b Ha Hb. apply fagroup_total; auto. eapply H; eauto. }
    cbn [bind]. destruct d; eauto.
  Qed.
End Meshes.
