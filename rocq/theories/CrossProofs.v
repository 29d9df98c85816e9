(** * CrossProofs: _make_cross_face_batches, lookup tables, and loops that append to lists *)
From Coq Require Import List Arith Bool Lia Permutation.
From Verif Require Import Np NpFacts Lin MeshModel MeshSpec MeshProofs PointProofs ConnModel ConnSpec FaceConnModel FaceConnSpec RestrProofs.
Import ListNotations.

Lemma filter_length_le' {X} (p : X -> bool) l : length (filter p l) <= length l.
Proof. induction l as [|x l IH]; [reflexivity|]. cbn [filter length]. destruct (p x); cbn [length]; lia. Qed.

(** ** Grouping by a key *)
Lemma perm_group {X} (key : X -> nat) n (L : list X) : Forall (fun x => key x < n) L ->
  Permutation (flat_map (fun k => filter (fun x => key x =? k) L) (seq 0 n)) L.
Proof.
  induction 1 as [|x L Hx H IH].
  - assert (E0 : forall l : list nat, flat_map (fun k => filter (fun x : X => key x =? k) []) l = []) by (induction l; auto). now rewrite E0.
  - assert (G : forall s, ~ In (key x) s -> flat_map (fun k => filter (fun y => key y =? k) (x :: L)) s = flat_map (fun k => filter (fun y => key y =? k) L) s).
    { induction s as [|k s IHs]; intros Hn; [reflexivity|]. cbn [flat_map filter]. destruct (Nat.eqb_spec (key x) k); [elim Hn; now left|]. f_equal. apply IHs. intros H0. apply Hn. now right. }
    replace n with (key x + S (n - key x - 1)) in * by lia. rewrite seq_app in *. cbn [seq Nat.add] in *. rewrite flat_map_app in *. cbn [flat_map] in *.
    rewrite G by (rewrite in_seq; lia). rewrite (G (seq (S (key x)) _)) by (rewrite in_seq; lia). cbn [filter]. rewrite Nat.eqb_refl. 
    etransitivity; [|apply perm_skip, IH]. cbn [app]. symmetry. apply Permutation_middle.
Qed.
Lemma flat_map_filter {X Y} (p : X -> bool) (F : X -> list Y) l : flat_map F (filter p l) = flat_map (fun x => if p x then F x else []) l.
Proof. induction l as [|x l IH]; [reflexivity|]. cbn [filter flat_map]. destruct (p x); [cbn [flat_map]; now f_equal|exact IH]. Qed.
Lemma flat_map_single {X Y} (F : X -> list Y) (l : list X) a : (forall x, In x l -> x <> a -> F x = []) -> NoDup l -> In a l -> flat_map F l = F a.
Proof.
  induction l as [|x l IH]; intros H Hnd Hin; [destruct Hin|]. inversion Hnd as [|? ? Hx Hnd']; subst. cbn [flat_map]. destruct Hin as [->|Hin].
  - assert (E0 : flat_map F l = []). { clear - H Hx. induction l as [|y l IH]; [reflexivity|]. cbn [flat_map]. rewrite (H y) by (cbn; auto; intros ->; apply Hx; now left). apply IH; [|intros H0; apply Hx; now right]. intros z [->|Hz]; apply H; cbn; auto. }
    now rewrite E0, app_nil_r.
  - rewrite (H x) by (cbn; auto; intros ->; contradiction). apply IH; auto. intros y Hy. apply H. now right.
Qed.
Lemma Permutation_flat_map' {X Y} (F : X -> list Y) l l' : Permutation l l' -> Permutation (flat_map F l) (flat_map F l').
Proof. intros H. induction H; cbn [flat_map]; auto; [now apply Permutation_app_head|rewrite !app_assoc; apply Permutation_app_tail, Permutation_app_comm|etransitivity; eauto]. Qed.
Lemma Permutation_concat {X} (ls ls' : list (list X)) : Forall2 (@Permutation X) ls ls' -> Permutation (concat ls) (concat ls').
Proof. induction 1; cbn [concat]; auto using Permutation_app. Qed.

(** ** Appending to the lists of a list *)
Section Adds.
  Context {B : Type}.
  Definition padds (n : nat) (F : list (list B) -> res (list (list B))) (R : (nat -> list B) -> Prop) : Prop :=
    forall out out', length out = n -> F out = Ok out' -> exists G, R G /\ length out' = n /\
      forall i, nth_error out' i = option_map (fun o => o ++ G i) (nth_error out i).

  Lemma padds_weaken n F (R R' : (nat -> list B) -> Prop) : padds n F R -> (forall G, R G -> R' G) -> padds n F R'.
  Proof. intros H HR out out' Hl E. destruct (H out out' Hl E) as (G & HG & H'). exists G. auto. Qed.

  Lemma padds_foldM {X} n (F : X -> list (list B) -> res (list (list B))) (R : X -> (nat -> list B) -> Prop) L : (forall x, In x L -> padds n (F x) (R x)) ->
    padds n (fun out => foldM (fun out x => F x out) L out) (fun G => exists Gs, Forall2 R L Gs /\ forall i, G i = flat_map (fun g => g i) Gs).
  Proof.
    induction L as [|x L IH]; intros H out out' Hl E; cbn [foldM] in E.
    - injection E as <-. exists (fun _ => []). split; [exists []; split; [constructor|reflexivity]|]. split; [exact Hl|]. intros i. destruct (nth_error out i); [cbn; now rewrite app_nil_r|reflexivity].
    - destruct (F x out) as [out1|] eqn:E1; [|discriminate]. cbn [bind] in E. destruct (H x (or_introl eq_refl) out out1 Hl E1) as (G1 & HG1 & Hl1 & Hn1).
      destruct (IH (fun y Hy => H y (or_intror Hy)) out1 out' Hl1 E) as (G2 & (Gs & HGs & Heq) & Hl2 & Hn2).
      exists (fun i => G1 i ++ G2 i). split; [exists (G1 :: Gs); split; [constructor; auto|intros i; cbn [flat_map]; now rewrite Heq]|]. split; [exact Hl2|].
      intros i. rewrite Hn2, Hn1. destruct (nth_error out i); [cbn; now rewrite app_assoc|reflexivity].
  Qed.

  Lemma padds_none n : padds n Ok (fun G => forall i, G i = []).
  Proof. intros out out' Hl E. injection E as <-. exists (fun _ => []). split; [reflexivity|]. split; [exact Hl|]. intros i. destruct (nth_error out i); [cbn; now rewrite app_nil_r|reflexivity]. Qed.

  Lemma padds_put n i (r : res (list B)) : padds n (fun out => bs <- r ;; old <- get out i ;; put out i (old ++ bs)) (fun G => exists bs, r = Ok bs /\ forall k, G k = if k =? i then bs else []).
  Proof.
    intros out out' Hl E. destruct r as [bs|] eqn:Er; [|discriminate]. cbn [bind] in E. destruct (get out i) as [old|] eqn:Eg; [|discriminate]. cbn [bind] in E. apply get_ok in Eg.
    exists (fun k => if k =? i then bs else []). split; [exists bs; auto|]. apply put_ok in E. destruct E as (Hi & ->). split; [now rewrite length_upd|].
    intros k. destruct (Nat.eqb_spec k i) as [->|Hk].
    - rewrite nth_error_upd_eq, Eg by exact Hi. reflexivity.
    - rewrite nth_error_upd_neq by congruence. destruct (nth_error out k); [cbn; now rewrite app_nil_r|reflexivity].
  Qed.

  Lemma padds_bind {Y} n (r : res Y) (F : Y -> list (list B) -> res (list (list B))) (R : (nat -> list B) -> Prop) : (forall y, r = Ok y -> padds n (F y) R) -> padds n (fun out => y <- r ;; F y out) R.
  Proof. intros H out out' Hl E. destruct r as [y|] eqn:Er; [|discriminate]. exact (H y eq_refl out out' Hl E). Qed.

  (** ** The same, without failure *)
  Definition tadds (n : nat) (F : list (list B) -> res (list (list B))) : Prop := forall out, length out = n -> exists out', F out = Ok out' /\ length out' = n.
  Lemma tadds_foldM {X} n (F : X -> list (list B) -> res (list (list B))) L : (forall x, In x L -> tadds n (F x)) -> tadds n (fun out => foldM (fun out x => F x out) L out).
  Proof.
    induction L as [|x L IH]; intros H out Hl; cbn [foldM]; [eauto|]. destruct (H x (or_introl eq_refl) out Hl) as (out1 & -> & Hl1). cbn [bind]. apply IH; auto. intros y Hy. apply H. now right.
  Qed.
  Lemma tadds_put n i (r : res (list B)) : i < n -> (exists bs, r = Ok bs) -> tadds n (fun out => bs <- r ;; old <- get out i ;; put out i (old ++ bs)).
  Proof.
    intros Hi (bs & ->) out Hl. cbn [bind]. destruct (get_total out i) as (old & ->); [lia|]. cbn [bind]. eexists. split; [apply put_ok; split; [lia|reflexivity]|]. now rewrite length_upd.
  Qed.
  Lemma tadds_bind {Y} n (r : res Y) (F : Y -> list (list B) -> res (list (list B))) : (exists y, r = Ok y /\ tadds n (F y)) -> tadds n (fun out => y <- r ;; F y out).
  Proof. intros (y & -> & H) out Hl. exact (H out Hl). Qed.
End Adds.

(** ** Which element is taken from where *)
Section Links.
  Context {N K : Type}.
  Definition links (bs : list (@batch N)) : list (nat * (nat * nat)) :=
    flat_map (fun b => map (fun ts => (fst ts, (bt_fgrp b, snd ts))) (combine (bt_to b) (bt_from b))) bs.

  Lemma links_app bs bs' : links (bs ++ bs') = links bs ++ links bs'.
  Proof. apply flat_map_app. Qed.
  Lemma In_links bs t g s : In (t, (g, s)) (links bs) <-> exists b, In b bs /\ bt_fgrp b = g /\ In (t, s) (combine (bt_to b) (bt_from b)).
  Proof.
    unfold links. rewrite in_flat_map. split.
    - intros (b & Hb & H). apply in_map_iff in H. destruct H as ((t', s') & Heq & H). injection Heq as <- <- <-. eauto.
    - intros (b & Hb & <- & H). exists b. split; [exact Hb|]. apply in_map_iff. exists (t, s). auto.
  Qed.
  Lemma feeds_links (c : @conn N K) gb bs t g s : nth_error (cn_groups c) gb = Some bs -> ((exists n, feeds c gb t g s n) <-> In (t, (g, s)) (links bs)).
  Proof.
    intros Hbs. rewrite In_links. split.
    - intros (n & bs' & b & Hbs' & Hb & Hg & _ & Hin). assert (bs' = bs) by congruence. subst. eauto.
    - intros (b & Hb & Hg & Hin). exists (bt_nodes b), bs, b. auto.
  Qed.
  Lemma links_single bs : NoDup (map fst (links bs)) -> single_source bs.
  Proof.
    induction bs as [|b bs IH]; intros Hnd k k' b1 b2 t s s' H1 H2 Hin1 Hin2; [destruct k; discriminate|].
    cbn [links flat_map] in Hnd. fold (links bs) in Hnd. rewrite map_app in Hnd. apply NoDup_app_inv in Hnd. destruct Hnd as (Hnd1 & Hnd2 & Hdis).
    assert (Hhd : forall s, In (t, s) (combine (bt_to b) (bt_from b)) -> In t (map fst (map (fun ts => (fst ts, (bt_fgrp b, snd ts))) (combine (bt_to b) (bt_from b))))).
    { intros s0 H0. rewrite map_map. cbn [fst]. apply in_map_iff. exists (t, s0). auto. }
    assert (Htl : forall k b s, nth_error bs k = Some b -> In (t, s) (combine (bt_to b) (bt_from b)) -> In t (map fst (links bs))).
    { intros k0 b0 s0 H0 Hin0. apply in_map_iff. exists (t, (bt_fgrp b0, s0)). split; [reflexivity|]. apply In_links. exists b0. split; [eapply nth_error_In; eauto|auto]. }
    destruct k as [|k], k' as [|k']; cbn [nth_error] in H1, H2.
    - injection H1 as <-. injection H2 as <-. split; [reflexivity|]. rewrite map_map in Hnd1. cbn [fst] in Hnd1. clear - Hnd1 Hin1 Hin2. induction (combine (bt_to b) (bt_from b)) as [|(t0, s0) l IH]; [destruct Hin1|].
      cbn [map fst] in Hnd1. inversion Hnd1 as [|? ? Hx Hnd]; subst. destruct Hin1 as [E1|Hin1], Hin2 as [E2|Hin2]; [congruence| | |auto].
      + injection E1 as -> ->. elim Hx. apply in_map_iff. exists (t, s'). auto.
      + injection E2 as -> ->. elim Hx. apply in_map_iff. exists (t, s). auto.
    - injection H1 as <-. exfalso. eapply Hdis; eauto.
    - injection H2 as <-. exfalso. eapply Hdis; eauto.
    - destruct (IH Hnd2 k k' b1 b2 t s s' H1 H2 Hin1 Hin2) as (-> & ->). auto.
  Qed.
End Links.

Section Cross.
  Context {A N K P : Type}.
  Variable unit_nodes : K -> N.
  Variable select_nodes : K -> list nat -> N.
  Variable app : A -> P -> P.
  Variable close : P -> P -> bool.
  Variable gauss_newton : K -> list (list P) -> list (list P) -> res (list N).
  Variable nodes_close : N -> N -> bool.

  Lemma node_batches_part fuel i todo bs : node_batches nodes_close fuel i todo = Ok bs ->
    Permutation (links bs) (map (fun x : N * (nat * nat) => (snd (snd x), (i, fst (snd x)))) todo) /\
    Forall (fun b => bt_fgrp b = i /\ length (bt_from b) = length (bt_to b)) bs /\
    forall b t s, In b bs -> In (t, s) (combine (bt_to b) (bt_from b)) -> exists n p, In (n, (s, t)) todo /\ nodes_close n (bt_nodes b) = true /\ In (bt_nodes b, p) todo.
  Proof.
    revert todo bs. induction fuel as [|fuel IH]; intros [|(tm, p) todo] bs E; try discriminate; try (injection E as <-; cbn; repeat split; auto; intros b t s []).
    set (all := (tm, p) :: todo) in *.
    assert (E' : node_batches nodes_close (S fuel) i all = (bs <- node_batches nodes_close fuel i (filter (fun x => negb (nodes_close (fst x) tm)) all) ;;
      Ok (mk_batch i (map (fun x => fst (snd x)) (filter (fun x => nodes_close (fst x) tm) all)) (map (fun x => snd (snd x)) (filter (fun x => nodes_close (fst x) tm) all)) tm None :: bs))) by reflexivity.
    rewrite E' in E. clear E'. assert (Hin0 : In (tm, p) all) by (left; reflexivity). clearbody all. destruct (node_batches nodes_close fuel i (filter (fun x => negb (nodes_close (fst x) tm)) all)) as [rest|] eqn:Er; [|discriminate].
    cbn [bind] in E. injection E as <-. destruct (IH _ _ Er) as (Hp & Hf & Hn). clear IH Er.
    assert (Hc : forall l : list (N * (nat * nat)), combine (map (fun x => snd (snd x)) l) (map (fun x => fst (snd x)) l) = map (fun x => (snd (snd x), fst (snd x))) l) by (induction l; cbn; congruence).
    split; [|split].
    - cbn [links flat_map bt_to bt_from bt_fgrp]. fold (links rest). rewrite Hp. rewrite Hc, map_map. cbn [fst snd].
      generalize all. clear. intros all. induction all as [|x l IH]; [reflexivity|]. cbn [filter]. destruct (nodes_close (fst x) tm); cbn [negb map]; [cbn [List.app]; now apply perm_skip|].
      rewrite <- Permutation_middle. now apply perm_skip.
    - constructor; [cbn [bt_fgrp bt_from bt_to]; now rewrite !map_length|exact Hf].
    - intros b t s [<-|Hb] Hin.
      + cbn [bt_to bt_from bt_nodes] in *. rewrite Hc in Hin. apply in_map_iff in Hin. destruct Hin as ((n, (s', t')) & Heq & Hin). cbn [fst snd] in Heq. injection Heq as -> ->.
        apply filter_In in Hin. destruct Hin as (Hin & Hcl). exists n, p. split; [exact Hin|]. split; [exact Hcl|]. exact Hin0.
      + destruct (Hn b t s Hb Hin) as (n & p' & H1 & H2 & H3). apply filter_In in H1, H3. exists n, p'. tauto.
  Qed.
  Lemma node_batches_total fuel i todo : (forall n, nodes_close n n = true) -> length todo <= fuel -> exists bs, node_batches nodes_close fuel i todo = Ok bs.
  Proof.
    intros Hrefl. revert todo. induction fuel as [|fuel IH]; intros [|(tm, p) todo] Hl; cbn [node_batches length] in *; try lia; eauto.
    set (all := (tm, p) :: todo). destruct (IH (filter (fun x => negb (nodes_close (fst x) tm)) all)) as (bs & ->).
    - unfold all. cbn [filter fst]. rewrite Hrefl. cbn [negb]. pose proof (filter_length_le' (fun x : N * (nat * nat) => negb (nodes_close (fst x) tm)) todo). lia.
    - cbn [bind]. eauto.
  Qed.

  Lemma where_close p qs j : In j (where_ (map (close p) qs)) <-> exists q, nth_error qs j = Some q /\ close p q = true.
  Proof.
    rewrite In_where_, nth_error_map. split.
    - intros H. destruct (nth_error qs j) as [q|]; [|discriminate]. injection H as H. eauto.
    - intros (q & -> & H). cbn. now rewrite H.
  Qed.

  Lemma by_matching_spec k (tgt src : list (list P)) : length tgt = length src -> by_matching select_nodes close k tgt src = Ok None /\ ~ Forall2 (one_close close) tgt src \/
    exists ixs, by_matching select_nodes close k tgt src = Ok (Some (map (select_nodes k) ixs)) /\ length ixs = length tgt /\
      forall e ps qs ix, nth_error tgt e = Some ps -> nth_error src e = Some qs -> nth_error ixs e = Some ix -> matching close ps qs ix.
  Proof.
    intros Hl. unfold by_matching. set (closes := map _ (combine tgt src)). destruct (forallb (forallb (fun l => length l =? 1)) closes) eqn:Ef.
    - right. rewrite forallb_forall in Ef.
      assert (Hm : forall e ps qs ix, nth_error tgt e = Some ps -> nth_error src e = Some qs -> nth_error (map (@concat nat) closes) e = Some ix -> matching close ps qs ix).
      { intros e ps qs ix Hp Hq Hix. rewrite nth_error_map in Hix. unfold closes in Hix. rewrite nth_error_map, nth_combine, Hp, Hq in Hix. cbn [option_map fst snd] in Hix. injection Hix as <-.
        assert (Hin : In (map (fun p => where_ (map (close p) qs)) ps) closes).
        { unfold closes. apply in_map_iff. exists (ps, qs). split; [reflexivity|]. apply (nth_error_In _ e). now rewrite nth_combine, Hp, Hq. }
        specialize (Ef _ Hin). rewrite forallb_forall in Ef. clear - Ef. induction ps as [|p ps IH]; [constructor|]. cbn [map concat] in *.
        pose proof (Ef _ (or_introl eq_refl)) as H1. apply Nat.eqb_eq in H1. destruct (where_ (map (close p) qs)) as [|j [|]] eqn:Ew; try discriminate. cbn [List.app]. constructor.
        - apply where_close. rewrite Ew. now left.
        - apply IH. intros l Hin. apply Ef. now right. }
      assert (Hlc : length closes = length tgt) by (unfold closes; rewrite map_length, combine_length; lia).
      exists (map (@concat nat) closes). split; [|split; [now rewrite map_length|exact Hm]].
      assert (Ht : exists matched, mapM (fun si : list P * list nat => take (fst si) (snd si)) (combine src (map (@concat nat) closes)) = Ok matched).
      { apply mapM_total. intros (qs, ix) Hin. apply In_nth_error in Hin. destruct Hin as (e & He). rewrite nth_combine in He. destruct (nth_error src e) as [qs'|] eqn:Eq; [|discriminate].
        destruct (nth_error (map (@concat nat) closes) e) as [ix'|] eqn:Ei; [|discriminate]. injection He as -> ->. destruct (nth_exists tgt e) as (ps & Ep); [rewrite Hl; apply nth_error_Some; congruence|].
        pose proof (Hm e ps qs ix Ep Eq Ei) as HM. cbn [fst snd]. apply take_total. clear - HM. induction HM as [|p j ps ix (q & Hq & _) H IH]; constructor; auto. apply nth_error_Some. congruence. }
      destruct Ht as (matched & Em). rewrite Em. cbn [bind]. apply mapM_ok in Em.
      match goal with |- bind (guard ?b _) _ = _ => assert (Hg : b = true) end.
      { apply forallb_forall. intros (ps, ms) Hin. apply In_nth_error in Hin. destruct Hin as (e & He). rewrite nth_combine in He. destruct (nth_error tgt e) as [ps'|] eqn:Ep; [|discriminate].
        destruct (nth_error matched e) as [ms'|] eqn:Ems; [|discriminate]. injection He as -> ->. destruct (Forall2_nth_error_r _ _ _ _ _ Em Ems) as ((qs, ix) & Hqi & Htk).
        rewrite nth_combine in Hqi. destruct (nth_error src e) as [qs'|] eqn:Eq; [|discriminate]. destruct (nth_error (map (@concat nat) closes) e) as [ix'|] eqn:Ei; [|discriminate]. injection Hqi as -> ->.
        pose proof (Hm e ps qs ix Ep Eq Ei) as HM. cbn [fst snd] in *. apply forallb_forall. intros (p, q) Hin. apply In_nth_error in Hin. destruct Hin as (i & Hi). rewrite nth_combine in Hi.
        destruct (nth_error ps i) as [p'|] eqn:Epi; [|discriminate]. destruct (nth_error ms i) as [q'|] eqn:Eqi; [|discriminate]. injection Hi as -> ->. cbn [fst snd].
        destruct (Forall2_nth_error _ _ _ _ _ HM Epi) as (j & Hj & q0 & Hq0 & Hcl). apply take_ok in Htk. destruct (Forall2_nth_error _ _ _ _ _ Htk Hj) as (q1 & Hq1 & Hq1'). congruence. }
      rewrite Hg. reflexivity.
    - left. split; [reflexivity|]. intros H. assert (Ht : forallb (forallb (fun l => length l =? 1)) closes = true); [|congruence]. clear Ef Hl. unfold closes. clear closes. induction H as [|ps qs tgt src Ho H IH]; [reflexivity|].
      cbn [combine map forallb fst snd]. rewrite IH, andb_true_r. apply forallb_forall. intros l Hin. apply in_map_iff in Hin. destruct Hin as (p & <- & Hp). apply Nat.eqb_eq.
      destruct (Ho p Hp) as (j & q & Hq & Hcl & Hu).
      assert (Hw : forall j', In j' (where_ (map (close p) qs)) -> j' = j) by (intros j' Hj'; apply where_close in Hj'; destruct Hj' as (q' & H1 & H2); eauto).
      assert (Hj : In j (where_ (map (close p) qs))) by (apply where_close; eauto).
      pose proof (where_incr (map (close p) qs)) as Hinc. destruct (where_ (map (close p) qs)) as [|a [|b w]]; [destruct Hj|reflexivity|].
      assert (a = j) by (apply Hw; cbn; auto). assert (b = j) by (apply Hw; cbn; auto). subst. inversion Hinc as [|? ? ? Hx]; subst. rewrite Forall_forall in Hx. specialize (Hx j (or_introl eq_refl)). lia.
  Qed.

  Definition gn_lengths : Prop := forall k tn sn ns, gauss_newton k tn sn = Ok ns -> length ns = length tn.
  Notation cfb := (cross_face_batches unit_nodes select_nodes app close gauss_newton nodes_close).

  Lemma combine_swap_map (i : nat) (tels sels : list nat) : map (fun x : nat * nat => (snd x, (i, fst x))) (combine sels tels) = map (fun ts : nat * nat => (fst ts, (i, snd ts))) (combine tels sels).
  Proof. revert sels. induction tels as [|t tels IH]; intros [|s sels]; try reflexivity. cbn [combine map fst snd]. f_equal. apply IH. Qed.
  Lemma map_snd_combine {X Y} (ns : list X) (l : list Y) : length l <= length ns -> map snd (combine ns l) = l.
  Proof. revert l. induction ns as [|n ns IH]; intros [|x l] H; cbn [length] in H; try reflexivity; try lia. cbn [combine map snd]. f_equal. apply IH. lia. Qed.

  Lemma cross_part dim0 (sdiscr : list (@dgroup K)) tcoords scoords i_tgt i_src tels sels tmap smap bs : gn_lengths -> length tels = length sels ->
    cfb dim0 sdiscr tcoords scoords i_tgt i_src tels sels tmap smap = Ok bs ->
    Permutation (links bs) (map (fun ts : nat * nat => (fst ts, (i_src, snd ts))) (combine tels sels)) /\
    Forall (fun b => bt_fgrp b = i_src /\ length (bt_from b) = length (bt_to b)) bs /\
    exists sg, nth_error sdiscr i_src = Some sg /\
      (dim0 = true -> Forall (fun b => bt_nodes b = unit_nodes (dg_kind sg)) bs) /\
      (dim0 = false -> exists tc sc, nth_error tcoords i_tgt = Some tc /\ nth_error scoords i_src = Some sc /\
        ((forall t s, In (t, s) (combine tels sels) -> exists ps qs, nth_error tc t = Some ps /\ nth_error sc s = Some qs /\ one_close close (map (app_opt app tmap) ps) (map (app_opt app smap) qs)) ->
         forall b t s, In b bs -> In (t, s) (combine (bt_to b) (bt_from b)) ->
           exists ps qs ix t' s' ps' qs' ix', nth_error tc t = Some ps /\ nth_error sc s = Some qs /\ matching close (map (app_opt app tmap) ps) (map (app_opt app smap) qs) ix /\
             In (t', s') (combine tels sels) /\ nth_error tc t' = Some ps' /\ nth_error sc s' = Some qs' /\ matching close (map (app_opt app tmap) ps') (map (app_opt app smap) qs') ix' /\
             bt_nodes b = select_nodes (dg_kind sg) ix' /\ nodes_close (select_nodes (dg_kind sg) ix) (select_nodes (dg_kind sg) ix') = true)).
  Proof.
    intros Hgn Hl E. unfold cross_face_batches in E. destruct (get sdiscr i_src) as [sg|] eqn:Esg; [|discriminate]. cbn [bind] in E. apply get_ok in Esg. destruct dim0.
    - injection E as <-. split; [cbn [links flat_map bt_fgrp bt_to bt_from]; now rewrite app_nil_r|]. split; [constructor; [cbn; auto|constructor]|].
      exists sg. split; [exact Esg|]. split; [intros _; constructor; [reflexivity|constructor]|discriminate].
    - destruct (get tcoords i_tgt) as [tc|] eqn:Etc; [|discriminate]. cbn [bind] in E. destruct (take tc tels) as [tn|] eqn:Etn; [|discriminate]. cbn [bind] in E.
      destruct (get scoords i_src) as [sc|] eqn:Esc; [|discriminate]. cbn [bind] in E. destruct (take sc sels) as [sn|] eqn:Esn; [|discriminate]. cbn [bind] in E. apply get_ok in Etc, Esc. apply take_ok in Etn, Esn.
      assert (Htn : length tn = length tels) by (symmetry; exact (Forall2_length' _ _ _ Etn)). assert (Hsn : length sn = length sels) by (symmetry; exact (Forall2_length' _ _ _ Esn)).
      set (tn' := map (map (app_opt app tmap)) tn) in *. set (sn' := map (map (app_opt app smap)) sn) in *.
      assert (Hl' : length tn' = length sn') by (unfold tn', sn'; rewrite !map_length; lia).
      destruct (by_matching_spec (dg_kind sg) tn' sn' Hl') as [(Eb & Hno)|(ixs & Eb & Hix & Hm)]; rewrite Eb in E; cbn [bind] in E.
      + destruct (gauss_newton (dg_kind sg) tn' sn') as [ns|] eqn:Eg; [|discriminate]. cbn [bind] in E. destruct (node_batches_part _ _ _ _ E) as (Hp & Hf & _).
        assert (Hlen : length ns = length tels) by (rewrite (Hgn _ _ _ _ Eg); unfold tn'; rewrite map_length; lia).
        split; [|split; [exact Hf|]].
        { rewrite Hp. rewrite <- combine_swap_map. rewrite <- (map_snd_combine ns (combine sels tels)) at 2 by (rewrite combine_length; lia). rewrite map_map. apply Permutation_refl. }
        exists sg. split; [exact Esg|]. split; [discriminate|]. intros _. exists tc, sc. split; [exact Etc|]. split; [exact Esc|]. intros Hone. exfalso. apply Hno. clear - Hone Etn Esn Hl.
        unfold tn', sn'. clear tn' sn'. revert sels sn Hl Esn Hone. induction Etn as [|t ps tels tn Ht Etn IH]; intros [|s sels] sn Hl Esn Hone; try discriminate; inversion Esn as [|? qs ? sn1 Hs Esn1]; subst; [constructor|].
        cbn [map]. constructor.
        * destruct (Hone t s) as (ps' & qs' & H1 & H2 & H3); [left; reflexivity|]. assert (ps' = ps) by congruence. assert (qs' = qs) by congruence. now subst.
        * apply (IH sels sn1); [cbn [length] in Hl; lia|exact Esn1|]. intros t' s' Hin. apply Hone. now right.
      + destruct (node_batches_part _ _ _ _ E) as (Hp & Hf & Hn).
        assert (Hlen : length (map (select_nodes (dg_kind sg)) ixs) = length tels) by (rewrite map_length, Hix; unfold tn'; rewrite map_length; lia).
        split; [|split; [exact Hf|]].
        { rewrite Hp. rewrite <- combine_swap_map. rewrite <- (map_snd_combine (map (select_nodes (dg_kind sg)) ixs) (combine sels tels)) at 2 by (rewrite combine_length; lia). rewrite map_map. apply Permutation_refl. }
        exists sg. split; [exact Esg|]. split; [discriminate|]. intros _. exists tc, sc. split; [exact Etc|]. split; [exact Esc|]. intros _ b t s Hb Hin. destruct (Hn b t s Hb Hin) as (n & (s', t') & H1 & H2 & H3).
        assert (Hpair : forall n s t, In (n, (s, t)) (combine (map (select_nodes (dg_kind sg)) ixs) (combine sels tels)) -> exists ix ps qs,
          n = select_nodes (dg_kind sg) ix /\ nth_error tc t = Some ps /\ nth_error sc s = Some qs /\ matching close (map (app_opt app tmap) ps) (map (app_opt app smap) qs) ix /\ In (t, s) (combine tels sels)).
        { clear - Hm Etn Esn. intros n s t Hin. apply In_nth_error in Hin. destruct Hin as (e & He). rewrite !nth_combine, nth_error_map in He. destruct (nth_error ixs e) as [ix|] eqn:Ei; [|discriminate]. cbn [option_map] in He.
          destruct (nth_error sels e) as [s0|] eqn:Es; [|discriminate]. destruct (nth_error tels e) as [t0|] eqn:Et; [|discriminate]. injection He as <- -> ->.
          destruct (Forall2_nth_error _ _ _ _ _ Etn Et) as (ps & Hps & Hps'). destruct (Forall2_nth_error _ _ _ _ _ Esn Es) as (qs & Hqs & Hqs').
          exists ix, ps, qs. split; [reflexivity|]. split; [exact Hps'|]. split; [exact Hqs'|]. split; [|apply (nth_error_In _ e); now rewrite nth_combine, Et, Es].
          apply (Hm e); auto; unfold tn', sn'; rewrite nth_error_map; [now rewrite Hps|now rewrite Hqs]. }
        destruct (Hpair _ _ _ H1) as (ix & ps & qs & -> & Ep & Eq & HM & _). destruct (Hpair _ _ _ H3) as (ix' & ps' & qs' & En' & Ep' & Eq' & HM' & Hin').
        exists ps, qs, ix, t', s', ps', qs', ix'. rewrite En' in H2 |- *. auto 10.
  Qed.

  Lemma node_batches_nonempty fuel i todo bs : (forall n, nodes_close n n = true) -> node_batches nodes_close fuel i todo = Ok bs -> Forall (fun b => bt_to b <> []) bs.
  Proof.
    intros Hrefl. revert todo bs. induction fuel as [|fuel IH]; intros [|(tm, p) todo] bs E; try discriminate; try (injection E as <-; constructor). cbn [node_batches] in E. 
    match type of E with bind ?u _ = _ => destruct u as [rest|] eqn:Er; [|discriminate] end. cbn [bind] in E. injection E as <-. constructor; [|eapply IH; eauto]. cbn [bt_to filter fst]. rewrite Hrefl. cbn [map]. discriminate.
  Qed.
  Lemma cross_nonempty dim0 (sdiscr : list (@dgroup K)) tcoords scoords i_tgt i_src tels sels tmap smap bs : (forall n, nodes_close n n = true) -> tels <> [] ->
    cfb dim0 sdiscr tcoords scoords i_tgt i_src tels sels tmap smap = Ok bs -> Forall (fun b => bt_to b <> []) bs.
  Proof.
    intros Hrefl Hne E. unfold cross_face_batches in E. destruct (get sdiscr i_src) as [sg|]; [|discriminate]. cbn [bind] in E. destruct dim0; [injection E as <-; constructor; [exact Hne|constructor]|].
    destruct (get tcoords i_tgt) as [tc|]; [|discriminate]. cbn [bind] in E. destruct (take tc tels) as [tn|]; [|discriminate]. cbn [bind] in E. destruct (get scoords i_src) as [sc|]; [|discriminate]. cbn [bind] in E. destruct (take sc sels) as [sn|]; [|discriminate]. cbn [bind] in E.
    match type of E with bind ?u _ = _ => destruct u as [o|]; [|discriminate] end. cbn [bind] in E. match type of E with bind ?u _ = _ => destruct u as [ns|]; [|discriminate] end. cbn [bind] in E. eapply node_batches_nonempty; eauto.
  Qed.

  Lemma cross_total dim0 (sdiscr : list (@dgroup K)) tcoords scoords i_tgt i_src tels sels tmap smap tc sc sg : (forall n, nodes_close n n = true) -> length tels = length sels ->
    nth_error sdiscr i_src = Some sg -> nth_error tcoords i_tgt = Some tc -> nth_error scoords i_src = Some sc -> Forall (fun t => t < length tc) tels -> Forall (fun s => s < length sc) sels ->
    (dim0 = false -> (forall t s, In (t, s) (combine tels sels) -> exists ps qs, nth_error tc t = Some ps /\ nth_error sc s = Some qs /\ one_close close (map (app_opt app tmap) ps) (map (app_opt app smap) qs)) \/
      (forall tn sn, length tn = length sn -> exists ns, gauss_newton (dg_kind sg) tn sn = Ok ns /\ length ns = length tn)) ->
    exists bs, cfb dim0 sdiscr tcoords scoords i_tgt i_src tels sels tmap smap = Ok bs.
  Proof.
    intros Hrefl Hl Hsg Htc Hsc Ht Hs Hgn. unfold cross_face_batches. rewrite (proj2 (get_ok _ _ _) Hsg). cbn [bind]. destruct dim0; [eauto|]. specialize (Hgn eq_refl).
    rewrite (proj2 (get_ok _ _ _) Htc), (proj2 (get_ok _ _ _) Hsc). cbn [bind]. destruct (take_total tc tels Ht) as (tn & Etn). destruct (take_total sc sels Hs) as (sn & Esn). rewrite Etn, Esn. cbn [bind].
    apply take_ok in Etn, Esn. assert (Htn : length tn = length tels) by (symmetry; exact (Forall2_length' _ _ _ Etn)). assert (Hsn : length sn = length sels) by (symmetry; exact (Forall2_length' _ _ _ Esn)).
    set (tn' := map (map (app_opt app tmap)) tn) in *. set (sn' := map (map (app_opt app smap)) sn) in *.
    assert (Hl' : length tn' = length sn') by (unfold tn', sn'; rewrite !map_length; lia).
    assert (Hnb : forall ns, length ns = length tels -> exists bs, node_batches nodes_close (length tels) i_src (combine ns (combine sels tels)) = Ok bs).
    { intros ns Hns. apply node_batches_total; [exact Hrefl|]. rewrite !combine_length. lia. }
    destruct (by_matching_spec (dg_kind sg) tn' sn' Hl') as [(Eb & Hno)|(ixs & Eb & Hix & Hm)]; rewrite Eb; cbn [bind].
    - destruct Hgn as [Hone|Hgn].
      + exfalso. apply Hno. clear - Hone Etn Esn Hl.
        unfold tn', sn'. clear tn' sn'. revert sels sn Hl Esn Hone. induction Etn as [|t ps tels tn Ht Etn IH]; intros [|s sels] sn Hl Esn Hone; try discriminate; inversion Esn as [|? qs ? sn1 Hs Esn1]; subst; [constructor|].
        cbn [map]. constructor.
        * destruct (Hone t s) as (ps' & qs' & H1 & H2 & H3); [left; reflexivity|]. assert (ps' = ps) by congruence. assert (qs' = qs) by congruence. now subst.
        * apply (IH sels sn1); [cbn [length] in Hl; lia|exact Esn1|]. intros t' s' Hin. apply Hone. now right.
      + destruct (Hgn tn' sn' Hl') as (ns & -> & Hns). cbn [bind]. apply Hnb. rewrite Hns. unfold tn'. rewrite map_length. exact Htn.
    - apply Hnb. rewrite map_length, Hix. unfold tn'. rewrite map_length. exact Htn.
  Qed.
End Cross.
