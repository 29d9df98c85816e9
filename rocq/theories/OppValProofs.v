(** * OppValProofs: what the opposite-face connection does to values *)
From Coq Require Import List Arith Bool Lia Permutation.
From Verif Require Import Np NpFacts Lin MeshModel MeshSpec MeshProofs PartSpec PointProofs ConnModel ConnSpec ConnProofs FaceConnModel FaceConnSpec RestrProofs FaceValProofs FaceEmbProofs CrossProofs OppProofs OppMainProofs.
Import ListNotations.

(** ** The order of the faces *)
Lemma els_app a b f : els (a ++ b) f = els a f ++ els b f.
Proof. unfold els. now rewrite filter_app, map_app. Qed.
Lemma els_fag {A} g g' es (m : A) f : els (fag_faces (Interior g g' es m)) f = map (fun en : fentry => fst (fst en)) (filter (fun en : fentry => snd (fst en) =? f) es).
Proof. unfold els. cbn [fag_faces]. induction es as [|en es IH]; [reflexivity|]. cbn [map filter]. destruct (snd (fst en) =? f); cbn [map]; [f_equal|]; exact IH. Qed.
Lemma interior_order {E A} (grp : egroup E) (l : list (fagrp A)) g g' es m f : In (Interior g g' es m) l ->
  let mine := filter (fun en : fentry => snd (fst en) =? f) es in
  length mine = length (els (group_boundary_faces RInterior grp l) f) -> map (fun en : fentry => fst (fst en)) mine = els (group_boundary_faces RInterior grp l) f.
Proof.
  intros Hin mine. apply in_split in Hin. destruct Hin as (l1 & l2 & ->). cbn [group_boundary_faces]. rewrite filter_app. cbn [filter is_bdry negb]. rewrite flat_map_app. cbn [flat_map]. rewrite !els_app, els_fag. fold mine.
  rewrite !app_length, map_length. intros Hl.
  match goal with |- _ = ?a ++ _ ++ ?b => assert (Ha : a = []) by (apply length_zero_iff_nil; lia); assert (Hb : b = []) by (apply length_zero_iff_nil; lia); rewrite Ha, Hb end. cbn [List.app]. now rewrite app_nil_r.
Qed.
Lemma incr_full l n : incr l -> Forall (fun x => x < n) l -> length l = n -> l = seq 0 n.
Proof.
  intros Hi Hr Hl. apply incr_ext; [exact Hi|apply incr_seq|]. intros x. split.
  - intros H. apply in_seq. rewrite Forall_forall in Hr. specialize (Hr x H). lia.
  - intros H. apply (NoDup_length_incl (incr_NoDup _ Hi) (l' := seq 0 n)); [rewrite seq_length; lia| |exact H]. intros y Hy. apply in_seq. rewrite Forall_forall in Hr. specialize (Hr y Hy). lia.
Qed.

Section OppVal.
  Context {R : cring} {E E' V A N K P : Type}.
  Variable rmat : K -> N -> list (list R).
  Variable rpick : K -> N -> option (list nat).
  Variables (dim : K -> nat) (factory : K -> K) (fnodes : K -> nat -> K -> N) (face_coords : K -> nat -> E -> E').
  Variables (groups : list (egroup E)) (kinds : list K) (fags : list (list (fagrp A))) (vs : list V) (r : restr).
  Hypothesis Hm : restrictable groups kinds fags vs false.
  Hypothesis Honce : asked_once fags r.
  Variables (bvs : list V) (bgs : list (egroup E')) (to : list (@dgroup K)).
  Notation c := (mk_conn (vol_groups dim groups kinds) to (all_batches factory fnodes groups kinds fags r false) true).
  Hypothesis Hr : restriction dim factory fnodes face_coords groups kinds fags vs r false bvs bgs c.
  Variable unit_nodes : K -> N.
  Variable select_nodes : K -> list nat -> N.
  Variable app : A -> P -> P.
  Variable close : P -> P -> bool.
  Variable gauss_newton : K -> list (list P) -> list (list P) -> res (list N).
  Variable nodes_close : N -> N -> bool.
  Variables (dim0 : bool) (coords : list (list (list P))).
  Hypothesis Hgn : gn_lengths gauss_newton.
  Notation bidx := (bidx groups fags r).
  Notation opposite := (make_opposite unit_nodes select_nodes app close gauss_newton nodes_close dim0 groups fags c coords).
  Hypothesis Hask : forall a b, interior_adj fags a b -> asked groups fags r a /\ asked groups fags r b.
  Hypothesis Hone : asked_once fags RInterior.
  Variable o : @conn N K.
  Hypothesis Ho : opposite = Ok o.

  Lemma neighbors : neighbors_exist groups fags.
  Proof.
    intros g g' m ((e, f), (e', f')) (l & es & Hl & Hb & Hen).
    destruct (Hask (g, e, f) (g', e', f')) as (_ & Ha); [exists l, es, m; auto|]. pose proof (bidx_face dim factory fnodes face_coords groups kinds fags vs r Hm bvs bgs to Hr _ _ _ Ha) as Hf.
    destruct (rt_face _ _ _ _ _ _ _ _ _ _ _ _ _ Hr _ _ _ _ _ Hf) as (grp & k & x & bg & rows & row & vsf & H & _). apply nth_error_Some. congruence.
  Qed.
  Lemma opp : cn_from o = to /\ cn_to o = to /\ length (cn_groups o) = length groups /\
    forall i bs l, nth_error (cn_groups o) i = Some bs -> nth_error fags i = Some l -> good dim factory fnodes groups kinds fags r to unit_nodes select_nodes app close nodes_close dim0 coords i (interior_entries l) bs.
  Proof. exact (opposite_ok dim factory fnodes face_coords groups kinds fags vs r Hm Honce bvs bgs to Hr unit_nodes select_nodes app close gauss_newton nodes_close dim0 coords Hgn o neighbors Ho). Qed.
  Lemma opp_group i bs : nth_error (cn_groups o) i = Some bs -> exists l grp d, nth_error fags i = Some l /\ nth_error groups i = Some grp /\ nth_error to i = Some d.
  Proof.
    intros H. destruct opp as (_ & _ & Hlen & _). assert (Hi : i < length groups) by (rewrite <- Hlen; apply nth_error_Some; congruence). destruct (nth_exists groups i Hi) as (grp & Hg).
    destruct (kind_at groups kinds fags vs Hm i grp Hg) as (k & l & _ & Hl). destruct (groups_len dim factory fnodes face_coords groups kinds fags vs r Hm bvs bgs to Hr) as (_ & Hlt & _).
    destruct (nth_exists to i) as (d & Hd); [lia|]. exists l, grp, d. auto.
  Qed.

  Lemma opp_swaps : swaps fags c o.
  Proof.
    intros g t g' s. destruct opp as (_ & _ & Hlen & Hgood). split.
    - intros (n & bs & b & Hbs & Hb & Hbg & Hbn & Hts). destruct (opp_group g bs Hbs) as (l & grp & d & Hl & _ & _). destruct (Hgood g bs l Hbs Hl) as (_ & _ & H).
      destruct (H b t s Hb Hts) as (m & e & f & e' & f' & (l' & es & Hl' & Hin & Hen) & H1 & H2 & _). rewrite Hbg in *. exists e, f, e', f'. split; [exists l', es, m; auto|auto].
    - intros (e & f & e' & f' & Hadj & H1 & H2). assert (Hadj' := Hadj). destruct Hadj' as (l & es & m & Hl & Hin & Hen).
      assert (Hg : g < length groups) by (destruct (rt_face _ _ _ _ _ _ _ _ _ _ _ _ _ Hr _ _ _ _ _ H1) as (grp & k & x & bg & rows & row & vsf & H & _); apply nth_error_Some; congruence).
      destruct (nth_exists (cn_groups o) g) as (bs & Hbs); [lia|]. destruct (Hgood g bs l Hbs Hl) as (Hp & _).
      apply (feeds_links o g bs t g' s Hbs). apply (Permutation_in _ (Permutation_sym Hp)). apply in_map_iff. exists (g', ((e, f), (e', f'))). split.
      + unfold img. cbn [fst snd]. destruct (face_bidx dim factory fnodes face_coords groups kinds fags vs r Hm Honce bvs bgs to Hr _ _ _ _ _ H1) as (_ & ->).
        destruct (face_bidx dim factory fnodes face_coords groups kinds fags vs r Hm Honce bvs bgs to Hr _ _ _ _ _ H2) as (_ & ->). reflexivity.
      + unfold interior_entries. apply in_flat_map. exists (Interior g g' es m). split; [exact Hin|]. apply in_map_iff. eauto.
  Qed.

  Lemma opp_single : Forall single_source (cn_groups o).
  Proof.
    apply Forall_forall. intros bs Hbs. apply In_nth_error in Hbs. destruct Hbs as (g & Hbs). destruct (opp_group g bs Hbs) as (l & grp & d & Hl & _ & _).
    destruct opp as (_ & _ & _ & Hgood). destruct (Hgood g bs l Hbs Hl) as (Hp & _). apply links_single. apply (Permutation_NoDup (Permutation_map fst (Permutation_sym Hp))). rewrite map_map.
    cbn [asked_once] in Hone. rewrite Forall_forall in Hone. pose proof (Hone l (nth_error_In _ _ Hl)) as Hnd.
    assert (Hask' : forall g' e f e' f', In (g', ((e, f), (e', f'))) (interior_entries l) -> is_face c g (bidx g e f) (g, e, f)).
    { intros g' e f e' f' Hin. apply (bidx_face dim factory fnodes face_coords groups kinds fags vs r Hm bvs bgs to Hr). unfold interior_entries in Hin. apply in_flat_map in Hin. destruct Hin as (b & Hb & Hin).
      destruct b as [ig j es m| |]; try (destruct Hin; fail). apply in_map_iff in Hin. destruct Hin as (en & Heq & Hen). injection Heq as -> ->. assert (ig = g) by exact (rb_own _ _ _ _ _ Hm g l _ Hl Hb). subst ig.
      apply (Hask (g, e, f) (g', e', f')). exists l, es, m. auto. }
    clear Hp Hgood. induction (interior_entries l) as [|(g', ((e, f), (e', f'))) L IH]; [constructor|]. cbn [map fst snd] in Hnd |- *. inversion Hnd as [|? ? Hni Hnd']; subst. constructor; [|apply IH; [exact Hnd'|intros; eapply Hask'; right; eauto]].
    intros Hin. apply Hni. apply in_map_iff in Hin. destruct Hin as ((g2, ((e2, f2), (e2', f2'))) & Heq & Hin2). unfold img in Heq. cbn [fst snd] in Heq.
    pose proof (Hask' g' e f e' f' (or_introl eq_refl)) as F1. pose proof (Hask' g2 e2 f2 e2' f2' (or_intror Hin2)) as F2. rewrite Heq in F2.
    pose proof (rt_inj _ _ _ _ _ _ _ _ _ _ _ _ _ Hr _ _ _ _ F1 F2) as Heq2. injection Heq2 as <- <-. apply in_map_iff. exists (g2, ((e, f), (e2', f2'))). auto.
  Qed.

  Hypothesis Hrefl : forall n, nodes_close n n = true.
  Hypothesis Hpo : points_on to coords.

  (** Every batch has a pair of elements *)
  Lemma opp_batch g bs b : nth_error (cn_groups o) g = Some bs -> In b bs -> length (bt_from b) = length (bt_to b) /\ (exists t s, In (t, s) (combine (bt_to b) (bt_from b))) /\
    forall t s, In (t, s) (combine (bt_to b) (bt_from b)) -> exists m e f e' f', int_entry fags g (bt_fgrp b) m ((e, f), (e', f')) /\
      is_face c g t (g, e, f) /\ is_face c (bt_fgrp b) s (bt_fgrp b, e', f') /\ nodesok dim factory fnodes groups kinds fags r to unit_nodes select_nodes app close nodes_close dim0 coords g (bt_fgrp b) m t s (bt_nodes b).
  Proof.
    intros Hbs Hb. destruct (opp_group g bs Hbs) as (l & grp & d & Hl & _ & _). destruct opp as (_ & _ & _ & Hgood). destruct (Hgood g bs l Hbs Hl) as (_ & Hf & H). rewrite Forall_forall in Hf. destruct (Hf b Hb) as (Hlen & Hne).
    split; [exact Hlen|]. split; [|intros t s Hts; apply (H b t s Hb Hts)]. specialize (Hne Hrefl). destruct (bt_to b) as [|t tels]; [congruence|]. destruct (bt_from b) as [|s sels]; [discriminate|]. exists t, s. now left.
  Qed.
  Lemma opp_ranges g bs b tg : nth_error (cn_groups o) g = Some bs -> In b bs -> nth_error to g = Some tg -> length (bt_from b) = length (bt_to b) /\ Forall (fun t => t < dg_nel tg) (bt_to b) /\
    exists sg, nth_error to (bt_fgrp b) = Some sg /\ Forall (fun s => s < dg_nel sg) (bt_from b).
  Proof.
    intros Hbs Hb Htg. destruct (opp_batch g bs b Hbs Hb) as (Hlen & (t0 & s0 & Hts0) & H). split; [exact Hlen|]. split.
    - apply Forall_forall. intros t Ht. apply In_nth_error in Ht. destruct Ht as (i & Hi). destruct (nth_exists (bt_from b) i) as (s & Hs); [rewrite Hlen; apply nth_error_Some; congruence|].
      destruct (H t s) as (m & e & f & e' & f' & _ & H1 & _); [apply nth_combine_In; eauto|]. destruct (face_point dim factory fnodes face_coords groups kinds fags vs r bvs bgs to Hr coords _ _ _ _ _ Hpo H1) as (d & ps & Hd & Hlt & _). assert (d = tg) by congruence. now subst.
    - destruct (H t0 s0 Hts0) as (m0 & e0 & f0 & e0' & f0' & _ & _ & H2 & _). destruct (face_point dim factory fnodes face_coords groups kinds fags vs r bvs bgs to Hr coords _ _ _ _ _ Hpo H2) as (sg & ps & Hsg & _). exists sg. split; [exact Hsg|].
      apply Forall_forall. intros s Hs. apply In_nth_error in Hs. destruct Hs as (i & Hi). destruct (nth_exists (bt_to b) i) as (t & Ht); [rewrite <- Hlen; apply nth_error_Some; congruence|].
      destruct (H t s) as (m & e & f & e' & f' & _ & _ & H3 & _); [apply nth_combine_In; eauto|]. destruct (face_point dim factory fnodes face_coords groups kinds fags vs r bvs bgs to Hr coords _ _ _ _ _ Hpo H3) as (d & ps' & Hd & Hlt & _). assert (d = sg) by congruence. now subst.
  Qed.

  Lemma points_length g d t ps : nth_error to g = Some d -> value coords g t = Some ps -> length ps = dg_ndof d.
  Proof.
    intros Hd Hv. destruct (Forall2_nth_error _ _ _ _ _ Hpo Hd) as (rows & Hrows & _ & Hall). unfold value in Hv. rewrite Hrows in Hv. rewrite Forall_forall in Hall. apply Hall. eapply nth_error_In; eauto.
  Qed.
  Lemma matching_pick ps qs ix m (d : nat) : matching close (map (app m) ps) qs ix -> length ps = d -> length ix = d /\ Forall (fun i => i < length qs) ix.
  Proof.
    intros H Hd. unfold matching in H. split; [rewrite <- (Forall2_length' _ _ _ H), map_length; exact Hd|]. clear Hd. induction H as [|p j l ix (q & Hq & _) H IH]; constructor; auto. apply nth_error_Some. congruence.
  Qed.

  Section Match.
    Hypothesis Hd0 : dim0 = false.
    Hypothesis Hma : matchable app close fags c coords.
    Hypothesis Hsep : forall d, In d to -> separated select_nodes nodes_close (dg_kind d) (dg_ndof d).
    Hypothesis Hpick : forall d ix, In d to -> Forall (fun i => i < dg_ndof d) ix -> rpick (dg_kind d) (select_nodes (dg_kind d) ix) = Some ix.
    Hypothesis Hfew : few_matchings app close fags c coords.

    Lemma opp_match g bs b t s : nth_error (cn_groups o) g = Some bs -> In b bs -> In (t, s) (combine (bt_to b) (bt_from b)) -> exists m e f e' f' sg ps qs ix,
      int_entry fags g (bt_fgrp b) m ((e, f), (e', f')) /\ is_face c g t (g, e, f) /\ is_face c (bt_fgrp b) s (bt_fgrp b, e', f') /\ nth_error to (bt_fgrp b) = Some sg /\
      value coords g t = Some ps /\ value coords (bt_fgrp b) s = Some qs /\ matching close (map (app m) ps) qs ix /\ rpick (dg_kind sg) (bt_nodes b) = Some ix.
    Proof.
      intros Hbs Hb Hts. destruct (opp_batch g bs b Hbs Hb) as (_ & _ & H). destruct (H t s Hts) as (m & e & f & e' & f' & He & H1 & H2 & sg & Hsg & Hn). rewrite Hd0 in Hn.
      destruct (Hn Hpo Hma Hsep) as (ps & qs & ix & Hps & Hqs & HM & Hnb). exists m, e, f, e', f', sg, ps, qs, ix. do 7 (split; [auto|]). rewrite Hnb. apply Hpick; [eapply nth_error_In; eauto|].
      pose proof (points_length _ _ _ _ Hsg Hqs) as Hq. destruct (matching_pick ps qs ix m _ HM eq_refl) as (_ & HF). rewrite Hq in HF. exact HF.
    Qed.

    Lemma opp_conn_ok : conn_ok rmat rpick o.
    Proof.
      destruct opp as (Hfr & Hto & Hlen & _). destruct (groups_len dim factory fnodes face_coords groups kinds fags vs r Hm bvs bgs to Hr) as (_ & Hlt & _).
      unfold conn_ok. rewrite Hfr, Hto. apply Forall2_intro_nth; [lia|]. intros g tg bs Htg Hbs. split.
      - apply Forall_forall. intros b Hb. destruct (opp_ranges g bs b tg Hbs Hb Htg) as (R1 & R2 & sg & Hsg & R3). split; [exact R1|]. split; [exact R2|]. exists sg. split; [exact Hsg|]. split; [exact R3|].
        destruct (opp_batch g bs b Hbs Hb) as (_ & (t & s & Hts) & _). destruct (opp_match g bs b t s Hbs Hb Hts) as (m & e & f & e' & f' & sg' & ps & qs & ix & _ & _ & _ & Hsg' & Hps & Hqs & HM & Hp).
        assert (sg' = sg) by congruence. subst sg'. rewrite Hp. destruct (matching_pick ps qs ix m _ HM (points_length _ _ _ _ Htg Hps)) as (Hl1 & Hl2). split; [exact Hl1|]. rewrite (points_length _ _ _ _ Hsg Hqs) in Hl2. exact Hl2.
      - intros g'. destruct (Hfew g g') as (L & HL & H). exists L. split; [exact HL|]. intros b gr ix Hb Hbg Hgr Hp.
        destruct (opp_batch g bs b Hbs Hb) as (_ & (t & s & Hts) & _). destruct (opp_match g bs b t s Hbs Hb Hts) as (m & e & f & e' & f' & sg' & ps & qs & ix' & He & F1 & F2 & Hsg' & Hps & Hqs & HM & Hp'). rewrite Hbg in *.
        assert (sg' = gr) by congruence. subst sg'. assert (ix' = ix) by congruence. subst ix'. eapply H; eauto.
    Qed.

    Lemma opp_values (x : list (list (list R))) : on_discr to x -> exists y, (forall eager nomerge, call R rmat rpick eager nomerge o x = Ok y) /\ on_discr to y /\ neighbor_values app close fags c coords x y /\
      forall g t d, nth_error to g = Some d -> t < dg_nel d -> (forall e f, is_face c g t (g, e, f) -> forall b, ~ interior_adj fags (g, e, f) b) -> value y g t = Some (zeros (dg_ndof d)).
    Proof.
      intros Hx. destruct opp as (Hfr & Hto & _). assert (Hx' : on_discr (cn_from o) x) by (rewrite Hfr; exact Hx).
      destruct (call_values rmat rpick o x opp_conn_ok opp_single Hx') as (y & Hy & Hyon & Hyf & Hy0). exists y. rewrite Hto in Hyon. split; [exact Hy|]. split; [exact Hyon|]. split.
      - intros g g' m e f e' f' t s ps qs He F1 F2 Hps Hqs. assert (He' := He). destruct He' as (l & es & Hl & Hin & Hen).
        destruct (proj2 (opp_swaps g t g' s)) as (n & Hfd); [exists e, f, e', f'; split; [exists l, es, m; auto|auto]|].
        destruct (Hyf g t g' s n Hfd) as (gr & v & w & Hgr & Hv & Hw & Hrs). exists v, w. split; [exact Hv|]. split; [exact Hw|]. destruct Hfd as (bs & b & Hbs & Hb & Hbg & Hbn & Hts).
        destruct (opp_match g bs b t s Hbs Hb Hts) as (m2 & e2 & f2 & e2' & f2' & sg & ps2 & qs2 & ix & He2 & F1' & F2' & Hsg & Hps2 & Hqs2 & HM & Hp). rewrite Hbg, Hbn in *.
        assert (ps2 = ps) by congruence. assert (qs2 = qs) by congruence. subst ps2 qs2. rewrite Hfr in Hgr. assert (sg = gr) by congruence. subst sg. unfold resampled in Hrs. rewrite Hp in Hrs.
        pose proof (rt_inj _ _ _ _ _ _ _ _ _ _ _ _ _ Hr _ _ _ _ F1 F1') as Heq. injection Heq as <- <-. pose proof (rt_inj _ _ _ _ _ _ _ _ _ _ _ _ _ Hr _ _ _ _ F2 F2') as Heq. injection Heq as <- <-.
        assert (m2 = m) as ->.
        { destruct He2 as (l2 & es2 & Hl2 & Hin2 & Hen2). assert (l2 = l) by congruence. subst l2. cbn [asked_once] in Hone. rewrite Forall_forall in Hone. pose proof (Hone l (nth_error_In _ _ Hl)) as Hnd.
          apply In_nth_error in Hin, Hin2. destruct Hin as (i & Hi), Hin2 as (i2 & Hi2). destruct (Nat.eq_dec i i2) as [->|Hne]; [congruence|]. exfalso.
          clear - Hnd Hi Hi2 Hne Hen Hen2. revert i i2 Hi Hi2 Hne Hnd. unfold interior_entries. induction l as [|b l IH]; intros i i2 Hi Hi2 Hne Hnd; [destruct i; discriminate|]. cbn [flat_map] in Hnd. rewrite map_app in Hnd. apply NoDup_app_inv in Hnd. destruct Hnd as (_ & Hnd & Hdis).
          assert (Hx : forall k es' mm, nth_error l k = Some (Interior g g' es' mm) -> In (e, f, (e', f')) es' -> In (e, f) (map (fun x : nat * (nat * nat * (nat * nat)) => fst (snd x)) (flat_map (fun b => match b with Interior _ g' es _ => map (pair g') es | _ => [] end) l))).
          { intros k es' mm Hk He'. apply in_map_iff. exists (g', (e, f, (e', f'))). split; [reflexivity|]. apply in_flat_map. exists (Interior g g' es' mm). split; [eapply nth_error_In; eauto|]. now apply in_map. }
          assert (Hy : forall es', In (e, f, (e', f')) es' -> In (e, f) (map (fun x : nat * (nat * nat * (nat * nat)) => fst (snd x)) (map (pair g') es'))).
          { intros es' He'. rewrite map_map. apply in_map_iff. exists (e, f, (e', f')). auto. }
          destruct i as [|i], i2 as [|i2]; cbn [nth_error] in Hi, Hi2; [congruence|injection Hi as ->|injection Hi2 as ->|apply (IH i i2); auto].
          - apply (Hdis (e, f)); [now apply Hy|]. eapply Hx; eauto.
          - apply (Hdis (e, f)); [now apply Hy|]. eapply Hx; eauto. }
        intros i j p q Hi Hj Hcl. destruct (Forall2_nth_error _ _ _ _ _ HM (map_nth_error (app m) _ _ Hi)) as (j' & Hj' & q' & Hq' & Hcl').
        destruct (Hma g g' m e f e' f' t s ps qs He F1 F2 Hps Hqs (app m p)) as (j0 & q0 & _ & _ & Huni); [apply in_map; eapply nth_error_In; eauto|].
        assert (j' = j) by (rewrite (Huni j' q' Hq' Hcl'), (Huni j q Hj Hcl); reflexivity). subst j'.
        destruct (Forall2_nth_error _ _ _ _ _ Hrs Hj') as (a & Ha & Ha'). exists a. auto.
      - intros g t d Hd Ht Hno. apply (Hy0 g d t); [rewrite Hto; exact Hd|exact Ht|]. intros g' s n Hfd. destruct (proj1 (opp_swaps g t g' s)) as (e & f & e' & f' & Hadj & F1 & F2); [eauto|]. exact (Hno e f F1 _ Hadj).
    Qed.

    Lemma opp_twice (x y z : list (list (list R))) : mutual app close fags -> on_discr to x -> on_discr to y -> on_discr to z -> neighbor_values app close fags c coords x y -> neighbor_values app close fags c coords y z ->
      forall g t e f b, is_face c g t (g, e, f) -> interior_adj fags (g, e, f) b -> value z g t = value x g t.
    Proof.
      intros Hmu Hx Hy Hz H1 H2 g t e f ((g', e'), f') F1 Hadj. destruct (Hask _ _ Hadj) as (_ & Ha). pose proof (bidx_face dim factory fnodes face_coords groups kinds fags vs r Hm bvs bgs to Hr _ _ _ Ha) as F2. set (s := bidx g' e' f') in *. clearbody s.
      destruct Hadj as (l & es & m & Hl & Hin & Hen). assert (He : int_entry fags g g' m ((e, f), (e', f'))) by (exists l, es; auto). destruct (Hmu g g' m _ _ He) as (m' & He' & Hcl).
      destruct (face_point dim factory fnodes face_coords groups kinds fags vs r bvs bgs to Hr coords _ _ _ _ _ Hpo F1) as (d & ps & Hd & Ht & Hps & Hlps). destruct (face_point dim factory fnodes face_coords groups kinds fags vs r bvs bgs to Hr coords _ _ _ _ _ Hpo F2) as (d' & qs & Hd' & Hs & Hqs & Hlqs).
      destruct (H2 g g' m e f e' f' t s ps qs He F1 F2 Hps Hqs) as (v & w & Hv & Hw & HV). destruct (H1 g' g m' e' f' e f s t qs ps He' F2 F1 Hqs Hps) as (v' & w' & Hv' & Hw' & HV').
      assert (w' = v) by congruence. subst w'. rewrite Hw, Hv'. f_equal. apply nth_error_ext'. intros i.
      pose proof (proj1 (value_length _ _ _ _ _ _ Hz Hd Hw)) as Lw. pose proof (proj1 (value_length _ _ _ _ _ _ Hx Hd Hv')) as Lv.
      destruct (nth_error ps i) as [p|] eqn:Ei.
      - destruct (Hma g g' m e f e' f' t s ps qs He F1 F2 Hps Hqs (app m p)) as (j & q & Hj & Hpq & _); [apply in_map; eapply nth_error_In; eauto|].
        destruct (HV i j p q Ei Hj Hpq) as (a & Ha1 & Ha2). destruct (HV' j i q p Hj Ei) as (a' & Ha1' & Ha2'); [rewrite <- Hcl; exact Hpq|]. congruence.
      - apply nth_error_None in Ei. rewrite (proj2 (nth_error_None w i)) by lia. symmetry. apply nth_error_None. lia.
    Qed.
  End Match.

  Section Points0.
    Hypothesis Hd0 : dim0 = true.
    Hypothesis Hunit : forall d, In d to -> resamples rmat rpick (dg_kind d) (unit_nodes (dg_kind d)) (dg_ndof d) (dg_ndof d) /\
      forall v w : list R, length v = dg_ndof d -> resampled rmat rpick (dg_kind d) (unit_nodes (dg_kind d)) v w -> w = v.
    Hypothesis Hsame : forall d d', In d to -> In d' to -> dg_ndof d = dg_ndof d'.

    Lemma opp_conn_ok0 : conn_ok rmat rpick o.
    Proof.
      destruct opp as (Hfr & Hto & Hlen & _). destruct (groups_len dim factory fnodes face_coords groups kinds fags vs r Hm bvs bgs to Hr) as (_ & Hlt & _).
      assert (Hnodes : forall g bs b sg, nth_error (cn_groups o) g = Some bs -> In b bs -> nth_error to (bt_fgrp b) = Some sg -> bt_nodes b = unit_nodes (dg_kind sg)).
      { intros g bs b sg Hbs Hb Hsg. destruct (opp_batch g bs b Hbs Hb) as (_ & (t & s & Hts) & H). destruct (H t s Hts) as (m & e & f & e' & f' & _ & _ & _ & sg' & Hsg' & Hn). rewrite Hd0 in Hn. assert (sg' = sg) by congruence. now subst. }
      unfold conn_ok. rewrite Hfr, Hto. apply Forall2_intro_nth; [lia|]. intros g tg bs Htg Hbs. split.
      - apply Forall_forall. intros b Hb. destruct (opp_ranges g bs b tg Hbs Hb Htg) as (R1 & R2 & sg & Hsg & R3). split; [exact R1|]. split; [exact R2|]. exists sg. split; [exact Hsg|]. split; [exact R3|].
        rewrite (Hnodes g bs b sg Hbs Hb Hsg). destruct (Hunit sg (nth_error_In _ _ Hsg)) as (H & _). unfold resamples in H. rewrite (Hsame tg sg (nth_error_In _ _ Htg) (nth_error_In _ _ Hsg)). exact H.
      - intros g'. destruct (nth_error to g') as [gr|] eqn:Egr; [|exists []; split; [cbn; lia|]; intros b gr ix _ _ H; congruence].
        exists (match rpick (dg_kind gr) (unit_nodes (dg_kind gr)) with Some ix => [ix] | None => [] end). split; [destruct (rpick (dg_kind gr) (unit_nodes (dg_kind gr))); cbn; lia|].
        intros b gr' ix Hb Hbg Hgr Hp. assert (gr' = gr) by congruence. subst gr'. subst g'.  rewrite (Hnodes g bs b gr Hbs Hb Egr) in Hp. rewrite Hp. now left.
    Qed.
    Lemma opp_values0 (x : list (list (list R))) : on_discr to x -> exists y, (forall eager nomerge, call R rmat rpick eager nomerge o x = Ok y) /\ on_discr to y /\
      (forall g e f g' e' f' t s, interior_adj fags (g, e, f) (g', e', f') -> is_face c g t (g, e, f) -> is_face c g' s (g', e', f') -> value y g t = value x g' s) /\
      forall g t d, nth_error to g = Some d -> t < dg_nel d -> (forall e f, is_face c g t (g, e, f) -> forall b, ~ interior_adj fags (g, e, f) b) -> value y g t = Some (zeros (dg_ndof d)).
    Proof.
      intros Hx. destruct opp as (Hfr & Hto & _). assert (Hx' : on_discr (cn_from o) x) by (rewrite Hfr; exact Hx).
      destruct (call_values rmat rpick o x opp_conn_ok0 opp_single Hx') as (y & Hy & Hyon & Hyf & Hy0). exists y. rewrite Hto in Hyon. split; [exact Hy|]. split; [exact Hyon|]. split.
      - intros g e f g' e' f' t s Hadj F1 F2. destruct (proj2 (opp_swaps g t g' s)) as (n & Hfd); [exists e, f, e', f'; auto|].
        destruct (Hyf g t g' s n Hfd) as (gr & v & w & Hgr & Hv & Hw & Hrs). rewrite Hv, Hw. f_equal. destruct Hfd as (bs & b & Hbs & Hb & Hbg & Hbn & Hts).
        destruct (opp_batch g bs b Hbs Hb) as (_ & _ & H). destruct (H t s Hts) as (m2 & e2 & f2 & e2' & f2' & _ & _ & _ & sg & Hsg & Hn). rewrite Hd0 in Hn. rewrite Hbg in Hsg. rewrite Hfr in Hgr. assert (sg = gr) by congruence. subst sg. rewrite Hbn in Hn. subst n.
        apply (proj2 (Hunit gr (nth_error_In _ _ Hgr))); [exact (proj1 (value_length _ _ _ _ _ _ Hx Hgr Hv))|]. now rewrite <- Hn.
      - intros g t d Hd Ht Hno. apply (Hy0 g d t); [rewrite Hto; exact Hd|exact Ht|]. intros g' s n Hfd. destruct (proj1 (opp_swaps g t g' s)) as (e & f & e' & f' & Hadj & F1 & F2); [eauto|]. exact (Hno e f F1 _ Hadj).
    Qed.
  End Points0.
End OppVal.
