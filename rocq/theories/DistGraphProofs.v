(** * DistGraphProofs: membership lists, connected parts, the graph of element adjacency *)
From Coq Require Import List Arith Bool Lia Permutation Sorting.Sorted.
From Verif Require Import Np NpFacts MeshModel MeshSpec MeshProofs PartModel PartSpec RestrProofs DistModel DistSpec DistProofs.
Import ListNotations.

(** ** pytools.unique *)
Lemma first_occ_In l x : In x (first_occ l) <-> In x l.
Proof.
  induction l as [|a l IH]; cbn [first_occ In]; [tauto|]. rewrite filter_In, IH. destruct (Nat.eqb_spec a x) as [->|Hn]; cbn [negb]; intuition congruence.
Qed.
Lemma first_occ_NoDup l : NoDup (first_occ l).
Proof. induction l as [|a l IH]; cbn [first_occ]; constructor; [|now apply NoDup_filter']. rewrite filter_In, Nat.eqb_refl. cbn [negb]. intros (_ & H). discriminate. Qed.

(** ** membership_list_to_map *)
Lemma sorted_le_lt l : StronglySorted le l -> NoDup l -> StronglySorted lt l.
Proof.
  induction 1 as [|x l Hs IH HF]; intros Hn; [constructor|]. inversion Hn as [|? ? Hni Hn']; subst. constructor; [auto|]. rewrite Forall_forall in *. intros y Hy. specialize (HF y Hy). assert (x <> y) by (intros ->; contradiction). lia.
Qed.
Lemma membership_eq l : membership_list_to_map l = map (fun x => (x, where_ (map (Nat.eqb x) l))) (sort_nat (first_occ l)).
Proof.
  unfold membership_list_to_map. rewrite (dset_all Nat.eqb Nat.eqb_eq (fun x => x) (fun x => where_ (map (Nat.eqb x) l))); cbn [app]; [reflexivity|].
  rewrite map_id. eapply Permutation_NoDup; [symmetry; apply sort_nat_perm|apply first_occ_NoDup].
Qed.
Lemma membership_keys l : StronglySorted lt (map fst (membership_list_to_map l)) /\ forall x, In x (map fst (membership_list_to_map l)) <-> In x l.
Proof.
  rewrite membership_eq, map_map. cbn [fst]. rewrite map_id. split.
  - apply sorted_le_lt; [apply sort_nat_sorted|]. eapply Permutation_NoDup; [symmetry; apply sort_nat_perm|apply first_occ_NoDup].
  - intros x. rewrite <- (first_occ_In l x). split; apply Permutation_in; [apply sort_nat_perm|symmetry; apply sort_nat_perm].
Qed.
Lemma membership_positions l x els : In (x, els) (membership_list_to_map l) -> StronglySorted lt els /\ forall i, In i els <-> nth_error l i = Some x.
Proof.
  rewrite membership_eq, in_map_iff. intros (y & Heq & _). injection Heq as -> <-. split.
  - apply where_incr.
  - intros i. rewrite In_where_, nth_error_map. destruct (nth_error l i) as [z|]; cbn [option_map]; [|split; discriminate]. destruct (Nat.eqb_spec x z) as [->|Hn]; split; congruence.
Qed.
Lemma membership_valid l : valid_partition (length l) (membership_list_to_map l).
Proof.
  assert (Ha : forall e p k, assigned (membership_list_to_map l) e p k -> nth_error l e = Some p) by (intros e p k (els & Hin & Hk); apply (membership_positions l p els Hin), (nth_error_In _ _ Hk)).
  split.
  - apply incr_NoDup. apply membership_keys.
  - intros p els Hin. apply (membership_positions l p els Hin).
  - intros e p k H. apply Ha in H. apply nth_error_Some. congruence.
  - intros e He. apply nth_error_Some in He. destruct (nth_error l e) as [p|] eqn:Hp; [|congruence]. assert (Hk : In p (map fst (membership_list_to_map l))) by (apply membership_keys; eapply nth_error_In; eauto).
    apply in_map_iff in Hk. destruct Hk as ((p', els) & Heq & Hin). cbn [fst] in Heq. subst p'. assert (Hi : In e els) by (apply (membership_positions l p els Hin); exact Hp). apply In_nth_error in Hi. destruct Hi as (k & Hk). exists p, k, els. auto.
  - intros e p q k k' H1 H2. apply Ha in H1, H2. congruence.
Qed.

(** ** get_connected_parts *)
Lemma connected_In {A} (fags : list (list (fagrp A))) q : In q (get_connected_parts fags) <-> exists l ig t es aff, In l fags /\ In (InterPart ig t q es aff) l.
Proof.
  unfold get_connected_parts. rewrite first_occ_In, in_flat_map. split.
  - intros (l & Hl & Hq). apply in_flat_map in Hq. destruct Hq as (b & Hb & Hq). destruct b as [| |ig t q0 es aff]; [destruct Hq|destruct Hq|]. destruct Hq as [<-|[]]. eauto 7.
  - intros (l & ig & t & es & aff & Hl & Hb). exists l. split; [exact Hl|]. apply in_flat_map. exists (InterPart ig t q es aff). split; [exact Hb|now left].
Qed.

(** ** The graph of element adjacency *)
Lemma take_perm {X} (l r : list X) idx : Permutation idx (seq 0 (length l)) -> take l idx = Ok r -> Permutation r l.
Proof.
  intros Hp Ht. apply take_ok in Ht. destruct (Permutation_Forall2 Hp Ht) as (l' & Hl & HF). assert (l' = l); [|now subst].
  apply nth_error_ext'. intros i. destruct (Nat.lt_ge_cases i (length l)) as [Hlt|Hge].
  - assert (Hs : nth_error (seq 0 (length l)) i = Some i) by (rewrite RestrProofs.nth_error_seq; destruct (Nat.ltb_spec i (length l)); [reflexivity|lia]). destruct (Forall2_nth_error _ _ _ _ _ HF Hs) as (x & Hx & Hx'). congruence.
  - pose proof (Forall2_length' _ _ _ HF) as HL. rewrite seq_length in HL. rewrite (proj2 (nth_error_None l i)) by lia. apply nth_error_None. lia.
Qed.
Lemma row_slice (s : list (nat * nat)) e : StronglySorted le (map fst s) -> slice s (searchsorted (map fst s) e) (searchsorted (map fst s) (S e)) = filter (fun x => fst x =? e) s.
Proof.
  induction s as [|(x, y) s IH]; intros Hs; cbn [map fst] in *; [reflexivity|]. inversion Hs as [|? ? Hs' HF]; subst. specialize (IH Hs'). cbn [searchsorted filter fst]. unfold slice in *. rewrite Forall_forall in HF.
  destruct (Nat.ltb_spec x e) as [H1|H1]; destruct (Nat.ltb_spec x (S e)) as [H2|H2]; destruct (Nat.eqb_spec x e) as [H3|H3]; try lia.
  - cbn [skipn]. rewrite Nat.sub_succ. exact IH.
  - subst x. assert (Hz : searchsorted (map fst s) e = 0). { destruct (map fst s) as [|z zs] eqn:Ez; [reflexivity|]. cbn [searchsorted]. specialize (HF z (or_introl eq_refl)). destruct (Nat.ltb_spec z e); [lia|reflexivity]. }
    rewrite Hz in IH. rewrite Nat.sub_0_r in *. cbn [skipn firstn] in *. now rewrite IH.
  - cbn [Nat.sub firstn]. assert (Hnil : forall z, In z s -> (fst z =? e) = false) by (intros z Hz; apply Nat.eqb_neq; specialize (HF _ (in_map fst _ _ Hz)); lia).
    clear - Hnil. induction s as [|z s IHs]; cbn [filter]; [reflexivity|]. rewrite (Hnil z (or_introl eq_refl)). apply IHs. intros; apply Hnil; now right.
Qed.
Lemma slice_map {X Y} (f : X -> Y) l a b : slice (map f l) a b = map f (slice l a b).
Proof. unfold slice. now rewrite skipn_map, firstn_map. Qed.
Lemma searchsorted_mono l a b : a <= b -> searchsorted l a <= searchsorted l b.
Proof. intros H. induction l as [|x l IH]; cbn [searchsorted]; [lia|]. destruct (Nat.ltb_spec x a), (Nat.ltb_spec x b); lia. Qed.
Lemma filter_perm {X} (f : X -> bool) l r : Permutation l r -> Permutation (filter f l) (filter f r).
Proof. induction 1; cbn [filter]; [constructor| | |eauto using Permutation_trans]; repeat match goal with |- context [f ?x] => destruct (f x) end; try constructor; try reflexivity; try assumption. Qed.

Lemma facial_pairs_ok {A} (sizes : list nat) (fags : list (list (fagrp A))) :
  (forall g l b, nth_error fags g = Some l -> In b l -> igroup_of b = g) -> length fags = length sizes ->
  (forall l ig j es aff, In l fags -> In (Interior ig j es aff) l -> j < length sizes) ->
  (exists l ig j es aff, In l fags /\ In (Interior ig j es aff) l) -> facial_pairs sizes fags = Ok (el_pairs sizes fags).
Proof.
  intros Hig Hlen Hj Hex. unfold facial_pairs.
  set (h := fun gb : nat * fagrp A => match snd gb with Interior _ j es _ => map (fun en : fentry => (base sizes (fst gb) + fst (fst en), base sizes j + fst (snd en))) es | _ => [] end).
  set (tagged := flat_map (fun gl : nat * list (fagrp A) => map (fun b => (fst gl, b)) (filter (fun b => match b with Interior _ _ _ _ => true | _ => false end) (snd gl))) (enumerate fags)).
  assert (E1 : flat_map (filter (fun b => match b with Interior _ _ _ _ => true | _ => false end)) fags = map snd tagged).
  { unfold tagged, enumerate, enumerate_from. clear. generalize 0. induction fags as [|l fags IH]; intros n; cbn [length seq combine flat_map map]; [reflexivity|]. rewrite map_app, IH with (n := S n). f_equal. cbn [fst snd]. rewrite map_map. cbn [snd]. now rewrite map_id. }
  assert (E2 : el_pairs sizes fags = concat (map h tagged)).
  { unfold el_pairs, tagged, enumerate, enumerate_from. clear. generalize 0. induction fags as [|l fags IH]; intros n; cbn [length seq combine flat_map map concat]; [reflexivity|]. rewrite map_app, concat_app, IH with (n := S n). f_equal. cbn [fst snd].
    induction l as [|b l IHl]; cbn [flat_map filter map concat]; [reflexivity|]. rewrite IHl. destruct b; cbn [map concat]; reflexivity. }
  assert (Htag : forall gb, In gb tagged -> exists g l ig j es aff, gb = (g, Interior ig j es aff) /\ nth_error fags g = Some l /\ In (Interior ig j es aff) l).
  { intros (g, b) Hin. apply in_flat_map in Hin. destruct Hin as ((g', l) & Hgl & Hin). apply in_map_iff in Hin. destruct Hin as (b' & Heq & Hb). cbn [fst snd] in *. injection Heq as -> ->. apply filter_In in Hb. destruct Hb as (Hb & Ht). apply In_enumerate in Hgl. destruct b; try discriminate. eauto 10. }
  rewrite E1, E2. assert (EM : forall L, incl L tagged -> mapM (fun b => match b with
                       | Interior ig j es _ => b0 <- get (base_element_nrs sizes) ig ;; b1 <- get (base_element_nrs sizes) j ;; Ok (map (fun en : fentry => (fst (fst en) + b0, fst (snd en) + b1)) es)
                       | _ => Ok []
                       end) (map snd L) = Ok (map h L)).
  { induction L as [|gb L IH]; intros Hi; [reflexivity|]. cbn [map mapM]. destruct (Htag gb (Hi _ (or_introl eq_refl))) as (g & l & ig & j & es & aff & -> & Hg & Hb). cbn [snd]. pose proof (Hig _ _ _ Hg Hb) as Hgg. cbn [igroup_of] in Hgg. subst ig.
    assert (Hlt : g < length sizes) by (rewrite <- Hlen; apply nth_error_Some; congruence). rewrite (proj2 (get_ok _ _ _) (base_element_nrs_nth sizes g Hlt)), (proj2 (get_ok _ _ _) (base_element_nrs_nth sizes j (Hj _ _ _ _ _ (nth_error_In _ _ Hg) Hb))). cbn [bind].
    rewrite IH by (intros z Hz; apply Hi; now right). cbn [bind]. do 2 f_equal. unfold h. cbn [fst snd]. apply map_ext. intros en. now rewrite (Nat.add_comm (fst (fst en))), (Nat.add_comm (fst (snd en))). }
  rewrite (EM tagged (incl_refl _)). cbn [bind]. rewrite map_length. destruct tagged as [|t0 tagged'] eqn:Et; [|reflexivity]. exfalso. destruct Hex as (l & ig & j & es & aff & Hl & Hb).
  assert (Hin : In (Interior ig j es aff) (flat_map (filter (fun b : fagrp A => match b with Interior _ _ _ _ => true | _ => false end)) fags)) by (apply in_flat_map; exists l; split; [exact Hl|apply filter_In; auto]). rewrite E1 in Hin. destruct Hin.
Qed.

Lemma facial_csr_ok {A} order (sizes : list nat) (fags : list (list (fagrp A))) : sorts order ->
  (forall g l b, nth_error fags g = Some l -> In b l -> igroup_of b = g) -> length fags = length sizes ->
  (forall l ig j es aff, In l fags -> In (Interior ig j es aff) l -> j < length sizes) ->
  (exists l ig j es aff, In l fags /\ In (Interior ig j es aff) l) ->
  (forall x, In x (el_pairs sizes fags) -> fst x < sum sizes) ->
  exists starts adj, facial_csr order sizes fags = Ok (starts, adj) /\ csr (sum sizes) starts adj (fun e => map snd (filter (fun x => fst x =? e) (el_pairs sizes fags))).
Proof.
  intros Hs Hig Hlen Hj Hex Hr. unfold facial_csr. rewrite (facial_pairs_ok sizes fags Hig Hlen Hj Hex). cbn [bind]. set (ps := el_pairs sizes fags) in *. destruct (Hs (map fst ps)) as (Hp & s0 & Es & Hss). rewrite map_length in Hp.
  destruct (take_total ps (order (map fst ps))) as (s & Et). { apply Forall_forall. intros i Hi. apply (Permutation_in i Hp) in Hi. apply in_seq in Hi. lia. }
  rewrite Et. cbn [bind]. pose proof (take_perm ps s _ Hp Et) as Hperm. assert (Ef : map fst s = s0).
  { apply take_ok in Es, Et. clear - Es Et. revert s0 Es. induction Et as [|i x idx s Hx Et IH]; intros s0 Es; inversion Es as [|? y ? s1 Hy Es']; subst; [reflexivity|]. cbn [map]. rewrite nth_error_map, Hx in Hy. cbn [option_map] in Hy. injection Hy as <-. f_equal. auto. }
  subst s0. exists (map (searchsorted (map fst s)) (seq 0 (sum sizes + 1))), (map snd s). split; [reflexivity|].
  assert (Hat : forall e, e <= sum sizes -> nth_error (map (searchsorted (map fst s)) (seq 0 (sum sizes + 1))) e = Some (searchsorted (map fst s) e)).
  { intros e He. rewrite nth_error_map, RestrProofs.nth_error_seq. destruct (Nat.ltb_spec e (sum sizes + 1)); [reflexivity|lia]. }
  split; [now rewrite map_length, seq_length|]. split; [rewrite Hat by lia; f_equal; destruct (map fst s); [reflexivity|]; cbn [searchsorted]; reflexivity|]. split.
  - rewrite Hat by lia. f_equal. rewrite map_length. rewrite <- (map_length fst s). assert (Hall : Forall (fun x => x < sum sizes) (map fst s)) by (apply Forall_map, Forall_forall; intros x Hx; apply Hr; eapply Permutation_in; eauto).
    clear - Hall. induction Hall as [|x l Hx Hall IH]; [reflexivity|]. cbn [searchsorted length]. destruct (Nat.ltb_spec x (sum sizes)); [lia|lia].
  - intros e He. exists (searchsorted (map fst s) e), (searchsorted (map fst s) (S e)). split; [apply Hat; lia|]. split; [apply Hat; lia|]. split; [apply searchsorted_mono; lia|]. split; [rewrite map_length, <- (map_length fst s); apply searchsorted_le|].
    rewrite slice_map, (row_slice s e Hss). apply Permutation_map, filter_perm, Hperm.
Qed.
Lemma el_pairs_In {A} (sizes : list nat) (fags : list (list (fagrp A))) x : (forall g l b, nth_error fags g = Some l -> In b l -> igroup_of b = g) ->
  In x (el_pairs sizes fags) <-> exists g g' aff e f e' f', int_entry fags g g' aff ((e, f), (e', f')) /\ x = (base sizes g + e, base sizes g' + e').
Proof.
  intros Hig. unfold el_pairs. rewrite in_flat_map. split.
  - intros ((g, l) & Hgl & Hx). apply In_enumerate in Hgl. cbn [fst snd] in *. apply in_flat_map in Hx. destruct Hx as (b & Hb & Hx). destruct b as [ig j es aff| |]; [|destruct Hx|destruct Hx]. apply in_map_iff in Hx. destruct Hx as (((e, f), (e', f')) & <- & Hen). pose proof (Hig _ _ _ Hgl Hb) as Hgg. cbn [igroup_of] in Hgg. subst ig.
    exists g, j, aff, e, f, e', f'. split; [exists l, es; auto|reflexivity].
  - intros (g & g' & aff & e & f & e' & f' & (l & es & Hl & Hb & Hen) & ->). exists (g, l). split; [now apply In_enumerate|]. cbn [fst snd]. apply in_flat_map. exists (Interior g g' es aff). split; [exact Hb|]. apply in_map_iff. exists ((e, f), (e', f')). auto.
Qed.
