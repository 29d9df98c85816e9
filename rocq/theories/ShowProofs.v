(** * ShowProofs: lemmas for ShowProps. *)
From Coq Require Import String List Arith Bool Lia Ring.
From Verif Require Import Np NpFacts MeshModel Lin RestrProofs SplitProofs VisModel VisSpec VisProofs VisIoModel VisIoSpec VisIoFieldProofs ShowModel ShowSpec.
Import ListNotations.

Lemma reshape_concat k (l : list (list nat)) : 0 < k -> Forall (fun x => length x = k) l -> reshape k (concat l) = Ok l.
Proof.
  intros Hk Hl. unfold reshape. rewrite (concat_const_length l k Hl), Nat.mod_mul by lia. cbn [Nat.eqb]. rewrite Nat.div_mul by lia.
  pose proof (chunks_concat k l Hl []) as H. rewrite app_nil_r in H. now rewrite H.
Qed.

Lemma map_repeat' {A B} (f : A -> B) x n : map f (repeat x n) = repeat (f x) n.
Proof. induction n as [|n IH]; [reflexivity|]. cbn. now rewrite IH. Qed.

(** the subelements of all elements, as numbers of nodes *)
Definition tris (g : visgrp) (el : list (list nat)) : list (list nat) := concat (gcells 0 g el).
Lemma tris_len g el k : Forall (fun x => length x = k) el -> Forall (fun x => length x = k) (tris g el).
Proof.
  intros H. unfold tris. apply Forall_concat. unfold gcells. apply Forall_map. apply Forall_forall. intros e _. apply Forall_map. apply (Forall_impl _ (fun a Ha => eq_trans (map_length _ a) Ha) H).
Qed.
Lemma tris_length g el : length (tris g el) = vg_nel g * length el.
Proof.
  unfold tris. rewrite (concat_const_length _ (length el)); [now rewrite gcells_length|]. unfold gcells. apply Forall_map. apply Forall_forall. intros e _. apply map_length.
Qed.
Lemma tris_nth g el e j els : e < vg_nel g -> nth_error el j = Some els -> nth_error (tris g el) (e * length el + j) = Some (map (fun i => e * vg_nunit g + i) els).
Proof.
  intros He Hj. unfold tris. rewrite <- (app_nil_r (concat _)).
  rewrite (concat_const_nth (gcells 0 g el) (length el) e j (map (map (fun i => 0 + e * vg_nunit g + i)) el) []).
  - rewrite nth_error_map, Hj. reflexivity.
  - unfold gcells. apply Forall_map. apply Forall_forall. intros ? _. apply map_length.
  - unfold gcells. rewrite nth_error_map, nth_error_seq, (proj2 (Nat.ltb_lt _ _) He). reflexivity.
  - apply nth_error_Some. congruence.
Qed.
Lemma tris_in g el t : In t (tris g el) -> exists e j els, e < vg_nel g /\ nth_error el j = Some els /\ t = map (fun i => e * vg_nunit g + i) els.
Proof.
  unfold tris. intros H. apply in_concat in H as (l & Hl & Ht). unfold gcells in Hl. apply in_map_iff in Hl as (e & <- & He). apply in_seq in He. apply in_map_iff in Ht as (els & <- & Hels).
  apply In_nth_error in Hels as (j & Hj). exists e, j, els. split; [lia|]. split; [exact Hj|reflexivity].
Qed.

(** a flattened array *)
Lemma flat_nth {A} nel nunit (d : list (list A)) e i : rectangular nel nunit d -> e < nel -> i < nunit -> nth_error (concat d) (e * nunit + i) = at_node d e i /\ exists v, at_node d e i = Some v.
Proof.
  intros (Hl & Hd) He Hi. destruct (nth_error d e) as [x|] eqn:E; [|apply nth_error_None in E; lia]. unfold at_node. rewrite E. rewrite <- (app_nil_r (concat d)). rewrite (concat_const_nth d nunit e i x [] Hd E Hi).
  split; [reflexivity|]. pose proof (proj1 (Forall_forall _ _) Hd x (nth_error_In _ _ E)) as Hx. cbn beta in Hx. destruct (nth_error x i) eqn:E2; [eauto|]. apply nth_error_None in E2. lia.
Qed.
Lemma flat_len {A} nel nunit (d : list (list A)) : rectangular nel nunit d -> length (concat d) = nel * nunit.
Proof. intros (Hl & Hd). now rewrite (concat_const_length d nunit Hd), Hl. Qed.

Section S.
  Variable R : cring.
  Add Ring Rr : (rth R).
  Variable mean : list R -> R.
  Variable V : Type.
  Variable truthy : V -> bool.
  Variable conn_for : visgrp -> res (list (list nat) * nat).
  Variable conn : dofarray R -> res (dofarray R).

  Lemma real_resample g v fv : real_field conn (vg_nel g) (vg_nunit g) v fv ->
    resample R conn (sizes [g]) v = Ok (RArr (RealArr (concat fv))) /\ rectangular (vg_nel g) (vg_nunit g) fv.
  Proof.
    intros [(x & -> & ->)|(d & -> & Hc & Hr)].
    - split.
      + pose proof (scalar_resample R 0%cr conn (sizes [g]) _ _ _ (scalar_num R 0%cr conn (sizes [g]) x)) as H. rewrite H. do 3 f_equal. cbn [sizes map concat fst snd]. rewrite app_nil_r.
        generalize (vg_nel g) (vg_nunit g). intros n m. induction n as [|n IH]; [reflexivity|]. cbn [Nat.mul repeat concat]. rewrite repeat_app, map_app, IH. f_equal. clear. induction m as [|m IH]; [reflexivity|]. cbn. now rewrite IH.
      + split; [apply repeat_length|]. apply Forall_forall. intros y Hy. apply repeat_spec in Hy as ->. apply repeat_length.
    - split; [|exact Hr]. assert (Hs : scalar R 0%cr conn (sizes [g]) (VDof d) false (map (fun dg => map (fun x => (x, 0%cr)) (concat dg)) [fv])).
      { apply (scalar_dof R 0%cr conn (sizes [g]) d [fv] Hc). constructor; [|constructor]. exact Hr. }
      rewrite (scalar_resample R 0%cr conn (sizes [g]) _ _ _ Hs). do 3 f_equal. cbn [map concat]. rewrite app_nil_r, map_map. cbn [fst]. apply map_id.
  Qed.
End S.

(** the values of a flattened array at the corners of all subelements *)
Lemma take_tris {A} g el (d : list (list A)) : rectangular (vg_nel g) (vg_nunit g) d -> Forall (Forall (fun i => i < vg_nunit g)) el ->
  exists r, mapM (take (concat d)) (tris g el) = Ok r /\ length r = vg_nel g * length el /\
    forall e j els, e < vg_nel g -> nth_error el j = Some els ->
      exists row, nth_error r (e * length el + j) = Some row /\ Forall2 (fun i v => at_node d e i = Some v) els row.
Proof.
  intros Hd Hel. destruct (mapM_total (take (concat d)) (tris g el)) as (r & Hr).
  { intros t Ht. apply tris_in in Ht as (e & j & els & He & Hj & ->). apply take_total. apply Forall_map. apply Forall_forall. intros i Hi.
    pose proof (proj1 (Forall_forall _ _) (proj1 (Forall_forall _ _) Hel els (nth_error_In _ _ Hj)) i Hi) as Hlt. cbn beta in Hlt. rewrite (flat_len _ _ _ Hd). nia. }
  exists r. split; [exact Hr|]. apply mapM_ok in Hr. split; [rewrite <- (Forall2_length' _ _ _ Hr); apply tris_length|].
  intros e j els He Hj. pose proof (tris_nth g el e j els He Hj) as Ht. destruct (Forall2_nth_error _ _ _ _ _ Hr Ht) as (row & Hrow & Htake). exists row. split; [exact Hrow|].
  apply take_ok in Htake. apply Forall2_intro_nth; [rewrite <- (map_length (fun i => e * vg_nunit g + i) els); exact (Forall2_length' _ _ _ Htake)|].
  intros k i v Hk Hv. assert (Hk' : nth_error (map (fun i => e * vg_nunit g + i) els) k = Some (e * vg_nunit g + i)) by (now rewrite nth_error_map, Hk).
  destruct (Forall2_nth_error _ _ _ _ _ Htake Hk') as (v' & Hv' & Hn). rewrite Hv in Hv'. injection Hv' as <-.
  pose proof (proj1 (Forall_forall _ _) (proj1 (Forall_forall _ _) Hel els (nth_error_In _ _ Hj)) i (nth_error_In _ _ Hk)) as Hlt. cbn beta in Hlt.
  destruct (flat_nth _ _ d e i Hd He Hlt) as (E & _). rewrite <- E. exact Hn.
Qed.

Section P.
  Variable R : cring.
  Add Ring Rr2 : (rth R).

  (** the coordinates with additional axes that are zero *)
  Definition padded (coords : list (list (list R))) : list (list (list R)) :=
    match coords with
    | [] => []
    | d :: _ => coords ++ repeat (map (map (fun _ => 0%cr)) d) (3 - length coords)
    end.
  Lemma pad_ok coords : coords <> [] -> pad R (map (@concat R) coords) = Ok (map (@concat R) (padded coords)).
  Proof using.
    destruct coords as [|d coords]; [congruence|]. intros _. unfold pad, padded. cbn [map]. f_equal. rewrite map_app. cbn [length map]. rewrite map_length. cbn [app]. f_equal. f_equal. rewrite map_repeat'. f_equal.
    rewrite <- concat_map. apply map_ext. intros a. ring.
  Qed.
  Lemma padded_rect nel nunit coords : Forall (rectangular nel nunit) coords -> Forall (rectangular nel nunit) (padded coords).
  Proof using.
    intros H. destruct coords as [|d coords]; [constructor|]. unfold padded. apply Forall_app. split; [exact H|]. apply Forall_forall. intros y Hy. apply repeat_spec in Hy as ->. pose proof (Forall_inv H) as (H1 & H2).
    split; [now rewrite map_length|]. apply Forall_map. apply (Forall_impl _ (fun a Ha => eq_trans (map_length _ a) Ha) H2).
  Qed.
  Lemma padded_length coords : coords <> [] -> length coords <= 3 -> length (padded coords) = 3.
  Proof using. intros H H3. destruct coords as [|d coords]; [congruence|]. unfold padded. rewrite app_length, repeat_length. lia. Qed.
  Lemma padded_at nel nunit coords ax d e i : Forall (rectangular nel nunit) coords -> coords <> [] -> e < nel -> i < nunit -> nth_error (padded coords) ax = Some d ->
    at_node d e i = match nth_error coords ax with Some d => at_node d e i | None => Some 0%cr end.
  Proof using.
    intros H Hne He Hi Hd. destruct coords as [|d0 coords]; [congruence|]. unfold padded in Hd. destruct (nth_error (d0 :: coords) ax) as [d'|] eqn:E.
    - rewrite nth_error_app1 in Hd by (apply nth_error_Some; congruence). rewrite E in Hd. injection Hd as ->. reflexivity.
    - apply nth_error_None in E. rewrite nth_error_app2 in Hd by lia. apply nth_error_In, repeat_spec in Hd as ->. destruct (flat_nth _ _ d0 e i (Forall_inv H) He Hi) as (_ & v & Hv).
      unfold at_node in *. rewrite nth_error_map. destruct (nth_error d0 e) as [x|]; [|discriminate]. cbn [option_map]. now rewrite nth_error_map, Hv.
  Qed.

  (** stack3 *)
  Lemma stack3_nth (xt yt zt : list (list R)) k x y z : nth_error xt k = Some x -> nth_error yt k = Some y -> nth_error zt k = Some z ->
    nth_error (stack3 R xt yt zt) k = Some (map (fun p : R * (R * R) => [fst p; fst (snd p); snd (snd p)]) (combine x (combine y z))).
  Proof using.
    intros Hx Hy Hz. unfold stack3. rewrite nth_error_map, (proj2 (nth_error_combine_Some _ _ k x (y, z))); [reflexivity|]. split; [exact Hx|]. now apply nth_error_combine_Some.
  Qed.
  Lemma stack3_length (xt yt zt : list (list R)) n : length xt = n -> length yt = n -> length zt = n -> length (stack3 R xt yt zt) = n.
  Proof using. intros H1 H2 H3. unfold stack3. rewrite map_length, !combine_length. lia. Qed.

  Lemma points_ok coords d0 d1 d2 nel nunit e els : Forall (rectangular nel nunit) coords -> coords <> [] -> e < nel -> Forall (fun i => i < nunit) els ->
    padded coords = [d0; d1; d2] -> forall x y z,
    Forall2 (fun i v => at_node d0 e i = Some v) els x -> Forall2 (fun i v => at_node d1 e i = Some v) els y -> Forall2 (fun i v => at_node d2 e i = Some v) els z ->
    Forall2 (fun i p => point_at coords e i p) els (map (fun p : R * (R * R) => [fst p; fst (snd p); snd (snd p)]) (combine x (combine y z))).
  Proof using.
    intros Hc Hne He Hels Hp. induction els as [|i els IH]; intros x y z Hx Hy Hz; inversion Hx; subst; [constructor|]. inversion Hy; subst. inversion Hz; subst. cbn [combine map fst snd]. constructor; [|apply IH; auto; exact (Forall_inv_tail Hels)].
    pose proof (Forall_inv Hels) as Hi. split; [reflexivity|]. intros ax Hax.
    assert (Hn : exists d, nth_error (padded coords) ax = Some d) by (destruct (nth_error (padded coords) ax) eqn:E; [eauto|]; apply nth_error_None in E; rewrite Hp in E; cbn in E; lia).
    destruct Hn as (d & Hd). rewrite <- (padded_at nel nunit coords ax d e i Hc Hne He Hi Hd). rewrite Hp in Hd.
    destruct ax as [|[|[|ax]]]; [| | |lia]; cbn [nth_error] in Hd |- *; injection Hd as <-; symmetry; assumption.
  Qed.
End P.
