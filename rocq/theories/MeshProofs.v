(** * Proofs for [MeshModel], part 1: group lookup and nodal adjacency. *)
From Coq Require Import List Arith Bool ZArith Lia Permutation Sorted.
From Verif Require Import Np NpFacts MeshModel MeshSpec.
Import ListNotations.

Lemma foldM_inv {X S} (f : S -> X -> res S) (I : list X -> S -> Prop) (l : list X) (s : S) :
  I [] s ->
  (forall P x s, I P s -> In x l -> exists s', f s x = Ok s' /\ I (P ++ [x]) s') ->
  exists s', foldM f l s = Ok s' /\ I l s'.
Proof.
  intros H0 Hs.
  assert (G : forall rest P s, l = P ++ rest -> I P s -> exists s', foldM f rest s = Ok s' /\ I l s').
  { induction rest as [|x rest IH]; intros P s' El HI; cbn [foldM].
    - rewrite app_nil_r in El; subst. eauto.
    - destruct (Hs P x s' HI) as (s1 & E1 & I1).
      { rewrite El. apply in_or_app; right; now left. }
      rewrite E1; cbn [bind]. apply (IH (P ++ [x])); auto. now rewrite <- app_assoc. }
  apply (G l []); auto.
Qed.

Lemma foldM_nested {X Y S} (h : X -> list Y) (g : X -> S -> Y -> res S) (l : list X) (s : S) :
  foldM (fun s x => foldM (g x) (h x) s) l s =
  foldM (fun s p => g (fst p) s (snd p)) (flat_map (fun x => map (pair x) (h x)) l) s.
Proof.
  revert s; induction l as [|x l IH]; intros s; cbn [foldM flat_map]; auto.
  rewrite foldM_app.
  assert (E : foldM (fun s p => g (fst p) s (snd p)) (map (pair x) (h x)) s = foldM (g x) (h x) s).
  { generalize (h x) as ys. intros ys; revert s; induction ys as [|y ys IHy]; intros s; cbn; auto.
    destruct (g x s y); cbn; auto. }
  rewrite E. destruct (foldM (g x) (h x) s); cbn; auto.
Qed.

(** ** Bases *)
Lemma removelast_length {X} (l : list X) : length (removelast l) = pred (length l).
Proof.
  induction l as [|x l IH]; auto. destruct l; auto.
  change (removelast (x :: x0 :: l)) with (x :: removelast (x0 :: l)).
  cbn [length] in *. now rewrite IH.
Qed.

Lemma firstn_removelast {X} (l : list X) n : n < length l -> firstn n (removelast l) = firstn n l.
Proof.
  revert n; induction l as [|x l IH]; intros n H; auto.
  destruct l as [|y l].
  - cbn in H. assert (n = 0) by lia. subst; auto.
  - change (removelast (x :: y :: l)) with (x :: removelast (y :: l)).
    destruct n; auto. cbn [firstn]. f_equal. apply IH. cbn in *; lia.
Qed.

Lemma base_element_nrs_nth sizes g :
  g < length sizes -> nth_error (base_element_nrs sizes) g = Some (base sizes g).
Proof.
  intros H. unfold base_element_nrs, cumsum, base.
  rewrite cumsum_from_nth.
  - cbn [firstn]. f_equal. cbn. f_equal. rewrite firstn_removelast; auto.
  - cbn [length]. rewrite removelast_length. lia.
Qed.

Lemma base_element_nrs_length sizes : sizes <> [] -> length (base_element_nrs sizes) = length sizes.
Proof.
  intros H. unfold base_element_nrs, cumsum. rewrite cumsum_from_length. cbn [length].
  rewrite removelast_length. destruct sizes; [congruence|cbn; lia].
Qed.

Lemma base_S sizes g n : nth_error sizes g = Some n -> base sizes (S g) = base sizes g + n.
Proof. apply sum_firstn_S. Qed.

Lemma owns_unique sizes g g' e : owns sizes g e -> owns sizes g' e -> g = g'.
Proof.
  intros (n & Hn & H) (n' & Hn' & H').
  pose proof (base_S _ _ _ Hn). pose proof (base_S _ _ _ Hn').
  destruct (Nat.lt_trichotomy g g') as [L|[L|L]]; auto.
  - pose proof (sum_firstn_mono sizes (S g) g' L). unfold base in *. lia.
  - pose proof (sum_firstn_mono sizes (S g') g L). unfold base in *. lia.
Qed.

Lemma owns_exists sizes e : e < sum sizes -> exists g, owns sizes g e.
Proof.
  revert e; induction sizes as [|n sizes IH]; intros e H.
  - cbn in H; lia.
  - destruct (Nat.lt_ge_cases e n).
    + exists 0, n. split; [reflexivity|]. cbn. lia.
    + destruct (IH (e - n)) as (g & m & Hm & Hb).
      { unfold sum in *. cbn [fold_right] in H. lia. }
      exists (S g), m. split; auto. unfold base in *. cbn [firstn]. unfold sum in *. cbn [fold_right]. lia.
Qed.

(** ** find_group_indices *)

(** number of group boundaries at or below [e], starting from boundary [b] *)
Fixpoint nbounds (b : nat) (sizes : list nat) (e : nat) : nat :=
  match sizes with
  | [] => 0
  | n :: sizes' => (if b + n <=? e then 1 else 0) + nbounds (b + n) sizes' e
  end.

Lemma combine_map_self {X Y} (f : Y -> X) (l : list Y) :
  combine (map f l) l = map (fun y => (f y, y)) l.
Proof. induction l; cbn; congruence. Qed.

Lemma find_group_indices_nbounds sizes elems :
  find_group_indices sizes elems = map (nbounds 0 sizes) elems.
Proof.
  unfold find_group_indices.
  assert (G : forall b (c : nat -> nat),
    snd (fold_left
      (fun (st : nat * list nat) (n : nat) =>
         (fst st + n,
          map (fun ge : nat * nat => fst ge + (if fst st + n <=? snd ge then 1 else 0))
              (combine (snd st) elems))) sizes (b, map c elems))
    = map (fun e => c e + nbounds b sizes e) elems).
  { induction sizes as [|n sizes IH]; intros b c; cbn [fold_left fst snd].
    - apply map_ext. intros; cbn; lia.
    - rewrite combine_map_self, map_map. cbn [fst snd].
      rewrite (IH (b + n) (fun e => c e + (if b + n <=? e then 1 else 0))).
      apply map_ext. intros e. cbn [nbounds]. lia. }
  cbn zeta. rewrite (G 0 (fun _ => 0)). apply map_ext. intros; cbn; lia.
Qed.

Lemma nbounds_past sizes b e : b + sum sizes <= e -> nbounds b sizes e = length sizes.
Proof.
  revert b; induction sizes as [|n sizes IH]; intros b H; auto.
  unfold sum in *. cbn [fold_right nbounds length] in *.
  destruct (Nat.leb_spec (b + n) e); [|lia]. rewrite IH; lia.
Qed.

Lemma nbounds_zero sizes b e : e < b -> nbounds b sizes e = 0.
Proof.
  revert b; induction sizes as [|n sizes IH]; intros b H; auto.
  cbn [nbounds]. destruct (Nat.leb_spec (b + n) e); [lia|]. rewrite IH; lia.
Qed.

Lemma nbounds_owns sizes b e :
  b <= e < b + sum sizes -> owns sizes (nbounds b sizes e) (e - b).
Proof.
  revert b; induction sizes as [|n sizes IH]; intros b H.
  - cbn in H; lia.
  - unfold sum in *. cbn [fold_right nbounds] in *.
    destruct (Nat.leb_spec (b + n) e).
    + destruct (IH (b + n)) as (m & Hm & Hb); [lia|].
      exists m. split; auto. unfold base, sum in *. cbn [Nat.add firstn fold_right] in *. lia.
    + rewrite nbounds_zero by lia. exists n. cbn. split; auto. lia.
Qed.

Lemma find_group_indices_spec sizes elems k e :
  nth_error elems k = Some e ->
  exists g, nth_error (find_group_indices sizes elems) k = Some g /\
    (e < sum sizes -> owns sizes g e /\ forall g', owns sizes g' e -> g' = g) /\
    (sum sizes <= e -> g = length sizes).
Proof.
  intros H. exists (nbounds 0 sizes e). rewrite find_group_indices_nbounds.
  split; [now apply map_nth_error|]. split.
  - intros He. assert (O : owns sizes (nbounds 0 sizes e) e).
    { pose proof (nbounds_owns sizes 0 e) as O. rewrite Nat.sub_0_r in O. apply O. lia. }
    split; auto. intros g' Hg'. eapply owns_unique; eauto.
  - intros He. apply nbounds_past. lia.
Qed.

Lemma find_group_indices_length sizes elems :
  length (find_group_indices sizes elems) = length elems.
Proof. rewrite find_group_indices_nbounds. apply map_length. Qed.

(** ** mesh_rows *)

Lemma mesh_rows_spec {E} (groups : list (egroup E)) :
  groups <> [] -> has_rows groups ->
  exists rows, mesh_rows groups = Ok rows /\
    (forall e row, In (e, row) rows <-> elem_row groups e row).
Proof.
  intros Hne HW. unfold mesh_rows.
  rewrite base_element_nrs_length, map_length, Nat.eqb_refl
    by (destruct groups; cbn; congruence).
  set (sizes := map nelements groups).
  destruct (mapM_total (fun bg => group_rows (fst bg) (snd bg)) (combine (base_element_nrs sizes) groups))
    as (rows & Hrows).
  { intros (b, g) Hin. apply in_combine_r in Hin. unfold has_rows in HW. rewrite Forall_forall in HW.
    destruct (HW g Hin) as (vi & Hvi & Hlen). cbn [fst snd]. unfold group_rows. rewrite Hvi.
    apply mapM_total. intros i Hi. apply in_seq in Hi.
    destruct (get_total vi i) as (r & Hr); [lia|]. rewrite Hr; cbn; eauto. }
  rewrite Hrows; cbn [bind]. exists (concat rows). split; auto.
  assert (Hcomb : forall g grp, nth_error groups g = Some grp ->
            nth_error (combine (base_element_nrs sizes) groups) g = Some (base sizes g, grp)).
  { intros g grp Hg. assert (Hlt : g < length sizes).
    { unfold sizes; rewrite map_length. apply nth_error_Some. congruence. }
    pose proof (base_element_nrs_nth sizes g Hlt) as Hb.
    revert Hb Hg. generalize (base_element_nrs sizes) (base sizes g). clear.
    revert g; induction groups as [|x l IH]; intros [|g] [|b bs] bb; cbn; try discriminate.
    - intros H1 H2; inversion H1; inversion H2; auto.
    - apply IH. }
  intros e row. rewrite in_concat. split.
  - intros (gr & Hgr & Hin). apply In_nth_error in Hgr as (g & Hg).
    destruct (mapM_nth_r _ _ _ _ _ Hrows Hg) as ((b, grp) & Hbg & Hok). cbn [fst snd] in Hok.
    assert (Hgrp : nth_error groups g = Some grp).
    { clear -Hbg. revert g Hbg. generalize (base_element_nrs sizes). 
      induction groups as [|x l IH]; intros [|b' bs] [|g]; cbn; try discriminate.
      - intros H; inversion H; auto.
      - apply IH. }
    rewrite (Hcomb _ _ Hgrp) in Hbg. inversion Hbg; subst b.
    unfold group_rows in Hok. destruct (eg_vi grp) as [vi|] eqn:Evi; [|discriminate].
    apply mapM_ok in Hok. destruct (Forall2_In_r _ _ _ _ Hok Hin) as (i & Hi & Hr).
    apply in_seq in Hi. apply bind_ok in Hr as (r & Hr & Heq). inversion Heq; subst.
    apply get_ok in Hr. exists g, i. split; auto.
    exists grp, vi. repeat split; auto. lia.
  - intros (g & i & (grp & vi & Hg & Hvi & Hi & Hrow) & He).
    destruct (mapM_nth _ _ _ _ _ Hrows (Hcomb _ _ Hg)) as (gr & Hgr & Hok).
    exists gr. split; [eapply nth_error_In; eauto|].
    cbn [fst snd] in Hok. unfold group_rows in Hok. rewrite Hvi in Hok. apply mapM_ok in Hok.
    destruct (Forall2_In_l _ _ _ i Hok) as ((e', r') & Hin & Hr).
    { apply in_seq. lia. }
    apply bind_ok in Hr as (r & Hr & Heq). apply get_ok in Hr. inversion Heq; subst.
    replace row with r' by congruence. exact Hin.
Qed.

Lemma elem_row_lt {E} (groups : list (egroup E)) e row :
  elem_row groups e row -> e < sum (map nelements groups).
Proof.
  intros (g & i & (grp & vi & Hg & Hvi & Hi & Hrow) & He).
  assert (Hs : nth_error (map nelements groups) g = Some (nelements grp)) by now apply map_nth_error.
  pose proof (base_S _ _ _ Hs) as HS.
  pose proof (sum_firstn_le (map nelements groups) (S g)). unfold base in *. lia.
Qed.

Lemma elem_row_ex {E} (groups : list (egroup E)) e :
  has_rows groups -> e < sum (map nelements groups) -> exists row, elem_row groups e row.
Proof.
  intros HW He. destruct (owns_exists _ _ He) as (g & n & Hn & Hb).
  rewrite nth_error_map in Hn. destruct (nth_error groups g) as [grp|] eqn:Hg; [|discriminate].
  cbn in Hn. inversion Hn; subst n.
  unfold has_rows in HW. rewrite Forall_forall in HW.
  destruct (HW grp) as (vi & Hvi & Hl); [eapply nth_error_In; eauto|].
  set (i := e - base (map nelements groups) g).
  destruct (nth_error vi i) as [row|] eqn:Hrow.
  - exists row, g, i. split; [|unfold i; lia]. exists grp, vi. repeat split; auto. unfold i; lia.
  - apply nth_error_None in Hrow. unfold i in Hrow. lia.
Qed.

(** ** vertex_to_element *)

Definition incidences (rows : list (nat * list nat)) : list ((nat * list nat) * nat) :=
  flat_map (fun er => map (pair er) (snd er)) rows.

Lemma In_incidences rows er v : In (er, v) (incidences rows) <-> In er rows /\ In v (snd er).
Proof.
  unfold incidences. rewrite in_flat_map. split.
  - intros (x & Hx & H). apply in_map_iff in H as (y & Heq & Hy). inversion Heq; subst. auto.
  - intros (H1 & H2). exists er. split; auto. apply in_map_iff. eauto.
Qed.

Lemma nth_error_repeat_some {X} (x : X) n i y : nth_error (repeat x n) i = Some y -> y = x.
Proof. intros H. apply nth_error_In in H. now apply repeat_spec in H. Qed.

Lemma vertex_to_element_spec nv rows :
  (forall e row v, In (e, row) rows -> In v row -> v < nv) ->
  exists v2e, vertex_to_element nv rows = Ok v2e /\ length v2e = nv /\
    forall v l e, nth_error v2e v = Some l -> (In e l <-> exists row, In (e, row) rows /\ In v row).
Proof.
  intros HR. unfold vertex_to_element.
  rewrite (foldM_nested (fun er : nat * list nat => snd er)
             (fun er v2e v => v2e_append v2e (fst er) v)).
  fold (incidences rows).
  destruct (foldM_inv (fun s p => v2e_append s (fst (fst p)) (snd p))
    (fun P v2e => length v2e = nv /\
       forall v l e, nth_error v2e v = Some l -> (In e l <-> exists row, In ((e, row), v) P))
    (incidences rows) (repeat [] nv)) as (v2e & Hok & Hlen & Hsp).
  - split; [apply repeat_length|]. intros v l e H. apply nth_error_repeat_some in H. subst.
    cbn. split; [tauto|]. intros (r & []).
  - intros P ((e, row), v) s (Hl & Hs) Hin. cbn [fst snd].
    apply In_incidences in Hin as (Hin & Hv). cbn in Hv.
    assert (Hvn : v < nv) by eauto.
    destruct (get_total s v) as (l & Hgl); [lia|]. unfold v2e_append. rewrite Hgl; cbn [bind].
    eexists. split; [apply put_ok; split; [lia|reflexivity]|].
    rewrite length_upd. split; auto. intros w l' x Hw. apply get_ok in Hgl.
    destruct (Nat.eq_dec v w) as [<-|Hne].
    + rewrite nth_error_upd_eq in Hw by lia. inversion Hw; subst l'. rewrite in_app_iff, (Hs _ _ x Hgl).
      split.
      * intros [(r & Hr)|[->|[]]]; [exists r|exists row]; apply in_or_app; [now left|right; now left].
      * intros (r & Hr). apply in_app_or in Hr as [Hr|[Hr|[]]]; [left; eauto|].
        inversion Hr; subst. right; now left.
    + rewrite nth_error_upd_neq in Hw by auto. rewrite (Hs _ _ x Hw). split.
      * intros (r & Hr). exists r. apply in_or_app; now left.
      * intros (r & Hr). apply in_app_or in Hr as [Hr|[Hr|[]]]; eauto. inversion Hr; congruence.
  - exists v2e. repeat split; auto.
    + intros Hin. apply (proj1 (Hsp _ _ _ H)) in Hin as (row & Hr).
      apply In_incidences in Hr. cbn in Hr. eauto.
    + intros (row & Hr & Hv). apply (Hsp _ _ _ H). exists row. apply In_incidences. auto.
Qed.

(** ** sets *)
Lemma set_add_spec s x : NoDup s -> NoDup (set_add s x) /\ (forall y, In y (set_add s x) <-> In y s \/ y = x).
Proof.
  intros H. unfold set_add. destruct (memb x s) eqn:E.
  - apply memb_In in E. split; auto. intros y; split; auto. intros [?| ->]; auto.
  - assert (Hn : ~ In x s) by (rewrite <- memb_In; congruence). split.
    + apply NoDup_app; auto.
      * repeat constructor; auto.
      * intros y Hy [->|[]]; auto.
    + intros y. rewrite in_app_iff. cbn. intuition.
Qed.

Lemma set_update_spec xs : forall s, NoDup s ->
  NoDup (set_update s xs) /\ (forall y, In y (set_update s xs) <-> In y s \/ In y xs).
Proof.
  unfold set_update. induction xs as [|x xs IH]; intros s H; cbn [fold_left].
  - split; auto. intros; cbn; tauto.
  - destruct (set_add_spec s x H) as (Hn & Hs). destruct (IH _ Hn) as (Hn' & Hs').
    split; auto. intros y. rewrite Hs', Hs. cbn [In]. intuition.
Qed.

Lemma set_remove_spec s x : NoDup s -> In x s ->
  exists s', set_remove s x = Ok s' /\ NoDup s' /\ (forall y, In y s' <-> In y s /\ y <> x).
Proof.
  intros H Hx. unfold set_remove. rewrite (proj2 (memb_In x s) Hx).
  eexists; split; [reflexivity|]. split; [now apply NoDup_filter'|].
  intros y. rewrite filter_In. destruct (Nat.eqb_spec y x); cbn; split; intros (A & B); try discriminate; auto; congruence.
Qed.

(** ** element_to_element *)
Lemma element_to_element_spec nel nv v2e rows :
  length v2e = nv ->
  (forall e row v, In (e, row) rows -> In v row -> v < nv) ->
  (forall e row, In (e, row) rows -> e < nel) ->
  exists e2e, element_to_element nel v2e rows = Ok e2e /\ length e2e = nel /\
    forall e s, nth_error e2e e = Some s -> NoDup s /\
      (forall x, In x s <-> exists row v l, In (e, row) rows /\ In v row /\ nth_error v2e v = Some l /\ In x l).
Proof.
  intros Hv2e HR HE. unfold element_to_element.
  rewrite (foldM_nested (fun er : nat * list nat => snd er)
             (fun er e2e v => nb <- get v2e v ;; s <- get e2e (fst er) ;; put e2e (fst er) (set_update s nb))).
  fold (incidences rows).
  destruct (foldM_inv
    (fun e2e p => nb <- get v2e (snd p) ;; s <- get e2e (fst (fst p)) ;; put e2e (fst (fst p)) (set_update s nb))
    (fun P e2e => length e2e = nel /\
       forall e s, nth_error e2e e = Some s -> NoDup s /\
        (forall x, In x s <-> exists row v l, In ((e, row), v) P /\ nth_error v2e v = Some l /\ In x l))
    (incidences rows) (repeat [] nel)) as (e2e & Hok & Hlen & Hsp).
  - split; [apply repeat_length|]. intros e s H. apply nth_error_repeat_some in H. subst.
    split; [constructor|]. intros x. split; [intros []|]. intros (? & ? & ? & [] & _).
  - intros P ((e, row), v) s (Hl & Hs) Hin. cbn [fst snd].
    apply In_incidences in Hin as (Hin & Hv). cbn in Hv.
    assert (Hvn : v < nv) by eauto. assert (Hen : e < nel) by eauto.
    destruct (get_total v2e v) as (nb & Hnb); [lia|]. rewrite Hnb; cbn [bind].
    destruct (get_total s e) as (se & Hse); [lia|]. rewrite Hse; cbn [bind].
    apply get_ok in Hnb. apply get_ok in Hse. destruct (Hs _ _ Hse) as (Hnd & Hmem).
    destruct (set_update_spec nb se Hnd) as (Hnd' & Hmem').
    eexists. split; [apply put_ok; split; [lia|reflexivity]|].
    rewrite length_upd. split; auto. intros e' s' He'.
    destruct (Nat.eq_dec e e') as [<-|Hne].
    + rewrite nth_error_upd_eq in He' by lia. inversion He'; subst s'. split; auto.
      intros x. rewrite Hmem', Hmem. split.
      * intros [(r & w & l & H1 & H2 & H3)|Hx].
        -- exists r, w, l. repeat split; auto. apply in_or_app; now left.
        -- exists row, v, nb. repeat split; auto. apply in_or_app; right; now left.
      * intros (r & w & l & H1 & H2 & H3). apply in_app_or in H1 as [H1|[H1|[]]].
        -- left. eauto 6.
        -- inversion H1; subst. right. congruence.
    + rewrite nth_error_upd_neq in He' by auto. destruct (Hs _ _ He') as (Hnd1 & Hmem1).
      split; auto. intros x. rewrite Hmem1. split.
      * intros (r & w & l & H1 & H2 & H3). exists r, w, l. repeat split; auto. apply in_or_app; now left.
      * intros (r & w & l & H1 & H2 & H3). apply in_app_or in H1 as [H1|[H1|[]]]; eauto 6.
        inversion H1; congruence.
  - exists e2e. repeat split; auto.
    + apply (Hsp _ _ H).
    + intros Hin. destruct (Hsp _ _ H) as (_ & Hm). apply Hm in Hin as (row & v & l & H1 & H2 & H3).
      apply In_incidences in H1. cbn in H1. exists row, v, l. tauto.
    + intros (row & v & l & H1 & H2 & H3 & H4). destruct (Hsp _ _ H) as (_ & Hm). apply Hm.
      exists row, v, l. repeat split; auto. apply In_incidences. auto.
Qed.

(** ** CSR *)
Lemma concat_at {X} (ls : list (list X)) e row :
  nth_error ls e = Some row ->
  let a := sum (firstn e (map (@length X) ls)) in
  a + length row <= length (concat ls) /\ row = firstn (length row) (skipn a (concat ls)).
Proof.
  revert e; induction ls as [|l ls IH]; intros [|e] H; cbn [nth_error] in H; try discriminate.
  - inversion H; subst. cbn. rewrite app_length.
    split; [lia|]. now rewrite firstn_app, firstn_all, Nat.sub_diag, firstn_O, app_nil_r.
  - specialize (IH _ H). cbn zeta in *. destruct IH as (IH1 & IH2).
    cbn [map firstn concat sum fold_right]. fold (sum (firstn e (map (@length X) ls))).
    rewrite app_length. split; [unfold sum in *; cbn [fold_right]; lia|].
    replace (sum (length l :: firstn e (map (@length X) ls)))
      with (length l + sum (firstn e (map (@length X) ls))) by reflexivity.
    rewrite skipn_app. rewrite skipn_all2 by lia. cbn [app].
    now rewrite Nat.add_comm, Nat.add_sub.
Qed.

Lemma concat_csr (ls : list (list nat)) e row :
  nth_error ls e = Some row ->
  let a := sum (firstn e (map (@length nat) ls)) in
  let b := sum (firstn (S e) (map (@length nat) ls)) in
  a <= b <= length (concat ls) /\ row = firstn (b - a) (skipn a (concat ls)).
Proof.
  intros H. destruct (concat_at _ _ _ H) as (H1 & H2). cbn zeta.
  rewrite (sum_firstn_S (map (@length nat) ls) e (length row)) by now apply map_nth_error.
  split; [lia|].
  match goal with |- _ = firstn ?n _ => replace n with (length row) by lia end. exact H2.
Qed.

Lemma sum_map_length_concat {X} (ls : list (list X)) : sum (map (@length X) ls) = length (concat ls).
Proof. induction ls; cbn; auto. rewrite app_length. unfold sum in IHls. lia. Qed.

Lemma compute_nodal_adjacency_spec {E} ord nv (groups : list (egroup E)) :
  (forall l, Permutation (ord l) l) ->
  groups <> [] -> has_rows groups -> rows_in_range nv groups ->
  (forall e row, elem_row groups e row -> row <> []) ->
  exists starts nbs,
    compute_nodal_adjacency ord (Some nv) groups = Ok (starts, nbs) /\
    length starts = S (sum (map nelements groups)) /\
    nth_error starts 0 = Some 0 /\
    nth_error starts (sum (map nelements groups)) = Some (length nbs) /\
    forall e, e < sum (map nelements groups) ->
      exists row, csr_row starts nbs e row /\ NoDup row /\
        forall f, In f row <-> (f <> e /\ share_vertex groups e f).
Proof.
  intros Hord Hne HW HR Hnonempty. unfold compute_nodal_adjacency.
  destruct (mesh_rows_spec groups Hne HW) as (rows & Hrows & Hmem). rewrite Hrows; cbn [bind].
  assert (HR' : forall e row v, In (e, row) rows -> In v row -> v < nv).
  { intros e row v H. apply Hmem in H. eauto. }
  destruct (vertex_to_element_spec nv rows HR') as (v2e & Hv2e & Hv2el & Hv2es). rewrite Hv2e; cbn [bind].
  set (nel := sum (map nelements groups)).
  assert (HE : forall e row, In (e, row) rows -> e < nel).
  { intros e row H. apply Hmem in H. eapply elem_row_lt; eauto. }
  destruct (element_to_element_spec nel nv v2e rows Hv2el HR' HE) as (e2e & He2e & He2el & He2es).
  rewrite He2e; cbn [bind].
  assert (Hshare : forall e s, nth_error e2e e = Some s -> forall x, In x s <-> share_vertex groups e x).
  { intros e s Hs x. destruct (He2es _ _ Hs) as (_ & Hm). rewrite Hm. split.
    - intros (row & v & l & H1 & H2 & H3 & H4).
      apply (Hv2es _ _ _ H3) in H4 as (row' & H5 & H6).
      exists row, row', v. rewrite <- !Hmem. auto.
    - intros (re & rf & v & H1 & H2 & H3 & H4). rewrite <- Hmem in H1, H2.
      destruct (nth_error v2e v) as [l|] eqn:Hl.
      + exists re, v, l. repeat split; auto. apply (Hv2es _ _ _ Hl). eauto.
      + apply nth_error_None in Hl. assert (v < nv) by eauto. lia. }
  destruct (mapM_total (fun ie : nat * list nat => set_remove (snd ie) (fst ie)) (enumerate e2e)) as (nbs & Hnbs).
  { intros (e, s) Hin. apply In_enumerate in Hin. cbn [fst snd].
    destruct (He2es _ _ Hin) as (Hnd & _).
    assert (Hes : In e s).
    { apply (Hshare _ _ Hin).
      assert (Hel : e < nel) by (rewrite <- He2el; apply nth_error_Some; congruence).
      destruct (elem_row_ex groups e HW Hel) as (row & Hrow).
      destruct row as [|v row]; [exfalso; eapply Hnonempty; eauto|].
      exists (v :: row), (v :: row), v. repeat split; auto; now left. }
    destruct (set_remove_spec s e Hnd Hes) as (s' & Hs' & _). eauto. }
  rewrite Hnbs; cbn [bind].
  assert (Hnbl : length nbs = nel) by (rewrite (mapM_length _ _ _ Hnbs), length_enumerate; auto).
  set (lens := map (length (A:=nat)) nbs).
  set (flat := concat (map ord nbs)).
  assert (Hlens : map (length (A:=nat)) (map ord nbs) = lens).
  { rewrite map_map. apply map_ext. intros l. apply Permutation_length, Hord. }
  assert (Hflat : length flat = sum lens).
  { unfold flat. now rewrite <- sum_map_length_concat, Hlens. }
  assert (Hslen : length (cumsum (0 :: lens)) = S nel).
  { unfold cumsum. rewrite cumsum_from_length. cbn. unfold lens. now rewrite map_length, Hnbl. }
  assert (Hsn : forall i, i <= nel -> nth_error (cumsum (0 :: lens)) i = Some (sum (firstn i lens))).
  { intros i Hi. unfold cumsum in *. rewrite cumsum_from_length in Hslen.
    rewrite cumsum_from_nth by lia. reflexivity. }
  rewrite Hslen. replace (S nel - 1) with nel by lia.
  assert (Hall : firstn nel lens = lens).
  { apply firstn_all2. unfold lens. rewrite map_length. lia. }
  unfold get at 1. rewrite (Hsn nel) by lia. cbn [bind]. rewrite Hall, Hflat, Nat.eqb_refl. cbn [guard bind].
  eexists _, _. split; [reflexivity|]. split; [auto|]. split; [apply (Hsn 0); lia|].
  split; [rewrite Hsn, Hall by lia; congruence|].
  intros e He.
  destruct (nth_error nbs e) as [s'|] eqn:Hs'; [|apply nth_error_None in Hs'; fold nel in He; lia].
  destruct (mapM_nth_r _ _ _ _ _ Hnbs Hs') as ((e0, s) & Hes & Hrm).
  rewrite nth_error_enumerate in Hes. destruct (nth_error e2e e) as [s0|] eqn:Hse; [|discriminate].
  cbn in Hes. inversion Hes; subst e0 s0. cbn [fst snd] in Hrm.
  destruct (He2es _ _ Hse) as (Hnd & _).
  assert (Hine : In e s).
  { unfold set_remove in Hrm. destruct (memb e s) eqn:Em; [now apply memb_In|discriminate]. }
  destruct (set_remove_spec s e Hnd Hine) as (s1 & Hs1 & Hnd1 & Hm1).
  rewrite Hrm in Hs1. inversion Hs1; subst s1.
  exists (ord s'). split; [|split].
  - assert (Hco : nth_error (map ord nbs) e = Some (ord s')) by now apply map_nth_error.
    pose proof (concat_csr _ _ _ Hco) as (C1 & C2). rewrite Hlens in C1, C2.
    exists (sum (firstn e lens)), (sum (firstn (S e) lens)).
    fold nel in He. rewrite !Hsn by lia. repeat split; try apply C1. exact C2.
  - eapply Permutation_NoDup; [symmetry; apply Hord|auto].
  - intros f. rewrite <- (Hshare _ _ Hse f). rewrite <- (and_comm (In f s)), <- Hm1.
    split; apply Permutation_in; [|symmetry]; apply Hord.
Qed.
