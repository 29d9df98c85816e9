(** * PartValProofs: what the connection between two parts does to values *)
From Coq Require Import List Arith Bool Lia Permutation.
From Verif Require Import Np NpFacts Lin MeshModel MeshSpec MeshProofs CompletionProofs PartSpec PointProofs ConnModel ConnSpec ConnProofs FaceConnModel FaceConnSpec PartConnSpec RestrProofs FaceValProofs CrossProofs OppProofs OppMainProofs OppValProofs PartConnProofs.
Import ListNotations.

Section PartVal.
  Context {R : cring} {E E' V A N K P : Type}.
  Variable rmat : K -> N -> list (list R).
  Variable rpick : K -> N -> option (list nat).
  Variables (dim : K -> nat) (factory : K -> K) (fnodes : K -> nat -> K -> N) (face_coords : K -> nat -> E -> E').
  Variables (groups : list (egroup E)) (kinds : list K) (fags : list (list (fagrp A))) (vs : list V) (q : nat).
  Hypothesis Hm : restrictable groups kinds fags vs false.
  Hypothesis Honce : asked_once fags (RTag (TPartition q)).
  Variables (bvs : list V) (bgs : list (egroup E')) (to : list (@dgroup K)).
  Notation c := (mk_conn (vol_groups dim groups kinds) to (all_batches factory fnodes groups kinds fags (RTag (TPartition q)) false) true).
  Hypothesis Hr : restriction dim factory fnodes face_coords groups kinds fags vs (RTag (TPartition q)) false bvs bgs c.
  Variables (rgroups : list (egroup E)) (rkinds : list K) (rfags : list (list (fagrp A))) (rvs : list V) (p : nat).
  Hypothesis Hm' : restrictable rgroups rkinds rfags rvs false.
  Hypothesis Honce' : asked_once rfags (RTag (TPartition p)).
  Variables (rbvs : list V) (rbgs : list (egroup E')) (rto : list (@dgroup K)).
  Notation rc := (mk_conn (vol_groups dim rgroups rkinds) rto (all_batches factory fnodes rgroups rkinds rfags (RTag (TPartition p)) false) true).
  Hypothesis Hr' : restriction dim factory fnodes face_coords rgroups rkinds rfags rvs (RTag (TPartition p)) false rbvs rbgs rc.
  Hypothesis Hadj : adjoins rgroups groups rfags fags q p.
  Hypothesis Hadj' : adjoins groups rgroups fags rfags p q.
  Variable unit_nodes : K -> N.
  Variable select_nodes : K -> list nat -> N.
  Variable app : A -> P -> P.
  Variable close : P -> P -> bool.
  Variable gauss_newton : K -> list (list P) -> list (list P) -> res (list N).
  Variable nodes_close : N -> N -> bool.
  Variables (dim0 : bool) (coords rcoords : list (list (list P))).
  Hypothesis Hgn : gn_lengths gauss_newton.
  Variable infos : list (@rginfo A).
  Hypothesis Hinf : make_infos rfags p (length rgroups) rc = Ok infos.
  Notation sizes := (map nelements groups).
  Notation rsizes := (map nelements rgroups).
  Notation lbidx := (bidx groups fags (RTag (TPartition q))).
  Notation rbidx := (bidx rgroups rfags (RTag (TPartition p))).
  Notation gof := (nbounds 0 sizes).
  Variable o : @conn N K.
  Hypothesis Ho : make_partition_connection unit_nodes select_nodes app close gauss_newton nodes_close dim0 groups c coords rto rcoords infos = Ok o.

  Notation entry_faces := (entry_faces dim factory fnodes face_coords groups kinds fags vs q Hm Honce bvs bgs to Hr rgroups rkinds rfags rvs p Hm' rbvs rbgs rto Hr' Hadj).
  Notation pimg := (pimg groups fags q rgroups rfags p).
  Notation all_mine := (all_mine groups rgroups rfags p).
  Notation good2 := (good2 dim factory fnodes groups kinds fags q to rgroups rkinds rfags p rto unit_nodes select_nodes app close nodes_close dim0 coords rcoords).
  Notation nodesok2 := (nodesok2 dim factory fnodes groups kinds fags q to rgroups rkinds rfags p rto unit_nodes select_nodes app close nodes_close dim0 coords rcoords).

  Lemma part : cn_from o = rto /\ cn_to o = to /\ length (cn_groups o) = length groups /\ forall i bs, nth_error (cn_groups o) i = Some bs -> good2 i (all_mine i) bs.
  Proof. exact (partition_ok dim factory fnodes face_coords groups kinds fags vs q Hm Honce bvs bgs to Hr rgroups rkinds rfags rvs p Hm' Honce' rbvs rbgs rto Hr' Hadj unit_nodes select_nodes app close gauss_newton nodes_close dim0 coords rcoords Hgn infos Hinf o Ho). Qed.

  Lemma local_in g e f t : is_face c g t (g, e, f) -> owns sizes g (base sizes g + e).
  Proof.
    intros F. destruct (rt_face _ _ _ _ _ _ _ _ _ _ _ _ _ Hr _ _ _ _ _ F) as (grp & kd & x & bg & rows & row & vsf & Hg & _).
    destruct (face_range dim factory fnodes face_coords groups kinds fags vs _ Hm Honce bvs bgs to Hr _ _ _ _ _ grp F Hg) as (Hlt & _). exists (nelements grp). split; [rewrite nth_error_map, Hg; reflexivity|lia].
  Qed.
  Lemma remote_in g e f t : is_face rc g t (g, e, f) -> owns rsizes g (base rsizes g + e).
  Proof.
    intros F. destruct (rt_face _ _ _ _ _ _ _ _ _ _ _ _ _ Hr' _ _ _ _ _ F) as (grp & kd & x & bg & rows & row & vsf & Hg & _).
    destruct (face_range dim factory fnodes face_coords rgroups rkinds rfags rvs _ Hm' Honce' rbvs rbgs rto Hr' _ _ _ _ _ grp F Hg) as (Hlt & _). exists (nelements grp). split; [rewrite nth_error_map, Hg; reflexivity|lia].
  Qed.

  (** The two sides list the same pairs of faces *)
  Lemma mirror g e f m g' e' f' s : part_entry fags g (TPartition q) q m ((e, f), (base rsizes g' + e', f')) -> is_face rc g' s (g', e', f') -> exists m', between groups rfags p m' (g, e, f) (g', e', f').
  Proof.
    intros He F2. destruct (Hadj' _ _ _ _ _ _ _ He) as (_ & g2 & e2 & m2 & Heq & He2).
    destruct (entry_faces _ _ _ _ _ _ _ He2) as (g3 & e3 & m3 & _ & _ & _ & _ & _ & _ & F3). pose proof (remote_in _ _ _ _ F2) as O1. pose proof (remote_in _ _ _ _ F3) as O2. rewrite <- Heq in O2.
    pose proof (owns_unique _ _ _ _ O1 O2) as <-. assert (e2 = e') by lia. subst e2. exists m2. exact He2.
  Qed.
  Lemma mirror' g e f m g' e' f' t : between groups rfags p m (g, e, f) (g', e', f') -> is_face c g t (g, e, f) ->
    (exists m', part_entry fags g (TPartition q) q m' ((e, f), (base rsizes g' + e', f'))) /\ gof (base sizes g + e) = g /\ t = lbidx g e f /\ is_face rc g' (rbidx g' e' f') (g', e', f').
  Proof.
    intros Hb F1. destruct (entry_faces _ _ _ _ _ _ _ Hb) as (g1 & e1 & m1 & Heq & Hg1 & _ & _ & He1 & F1' & F2). pose proof (local_in _ _ _ _ F1) as O1. pose proof (local_in _ _ _ _ F1') as O2. rewrite <- Heq in O2.
    pose proof (owns_unique _ _ _ _ O1 O2) as <-. assert (e1 = e) by lia. subst e1. split; [eauto|]. split; [exact Hg1|]. split; [|exact F2].
    destruct (face_bidx dim factory fnodes face_coords groups kinds fags vs _ Hm Honce bvs bgs to Hr _ _ _ _ _ F1) as (_ & ->). reflexivity.
  Qed.

  Lemma part_group i bs : nth_error (cn_groups o) i = Some bs -> exists d, nth_error to i = Some d.
  Proof.
    intros H. destruct part as (_ & _ & Hlen & _). assert (Hi : i < length groups) by (rewrite <- Hlen; apply nth_error_Some; congruence).
    destruct (groups_len dim factory fnodes face_coords groups kinds fags vs _ Hm bvs bgs to Hr) as (_ & Hlt & _). apply nth_exists. lia.
  Qed.

  Lemma part_receives : receives rgroups fags q c rc o.
  Proof.
    intros g t g' s. destruct part as (_ & _ & Hlen & Hgood). split.
    - intros (n & bs & b & Hbs & Hb & Hbg & Hbn & Hts). destruct (Hgood g bs Hbs) as (_ & _ & H). destruct (H b t s Hb Hts) as (m & e & f & e' & f' & Hbt & H1 & H2 & _). rewrite Hbg in *.
      destruct (mirror' _ _ _ _ _ _ _ _ Hbt H1) as ((m' & Hm2) & _). exists e, f, e', f', m'. auto.
    - intros (e & f & e' & f' & m & He & H1 & H2). destruct (mirror _ _ _ _ _ _ _ _ He H2) as (m' & Hbt). destruct (mirror' _ _ _ _ _ _ _ _ Hbt H1) as (_ & Hg & -> & _).
      assert (Hgl : g < length groups) by (destruct (rt_face _ _ _ _ _ _ _ _ _ _ _ _ _ Hr _ _ _ _ _ H1) as (grp & k & x & bg & rows & row & vsf & H & _); apply nth_error_Some; congruence).
      destruct (nth_exists (cn_groups o) g) as (bs & Hbs); [lia|]. destruct (Hgood g bs Hbs) as (Hp & _).
      apply (feeds_links o g bs _ g' s Hbs). apply (Permutation_in _ (Permutation_sym Hp)). apply in_map_iff. exists (g', ((e', f'), (base sizes g + e, f))). split.
      + cbn [PartConnProofs.pimg]. replace (base sizes g + e - base sizes g) with e by lia. destruct (face_bidx dim factory fnodes face_coords rgroups rkinds rfags rvs _ Hm' Honce' rbvs rbgs rto Hr' _ _ _ _ _ H2) as (_ & ->). reflexivity.
      + apply (In_all_mine groups rgroups rkinds rfags rvs p Hm'). exists (TPartition p), m'. split; [exact Hbt|]. exact Hg.
  Qed.

  Lemma all_mine_NoDup i : NoDup (map (fun x : nat * fentry => (fst x, fst (snd x))) (all_mine i)).
  Proof.
    unfold PartConnProofs.all_mine. rewrite flat_map_concat_map, concat_map, map_map, <- flat_map_concat_map. apply (NoDup_flat_map_key _ fst); [apply seq_NoDup| |].
    - intros g' _. destruct (nth_error rfags g') as [l|] eqn:El; [|constructor].
      assert (Ht : forall ig t es m, In (InterPart ig t p es m) l -> es <> [] -> t = TPartition p).
      { intros ig t es m Hin Hne. assert (ig = g') by exact (rb_own _ _ _ _ _ Hm' g' l _ El Hin). subst ig. destruct es as [|((e, f), (k, f')) es]; [congruence|]. apply (Hadj g' t m e f k f'). exists l, (((e, f), (k, f')) :: es). split; [exact El|]. split; [exact Hin|now left]. }
      pose proof Honce' as Ho2. cbn [asked_once] in Ho2. rewrite Forall_forall in Ho2. specialize (Ho2 l (nth_error_In _ _ El)). clear El. set (t0 := TPartition p) in *. clearbody t0. induction l as [|b l IH]; [constructor|].
      assert (IHs : forall ig t es m, In (InterPart ig t p es m) l -> es <> [] -> t = t0) by (intros; eapply Ht; [right|]; eauto).
      assert (Hsub : forall x, In x (flat_map (fun b => match b with InterPart _ _ _ es _ => map (pair g') (mine groups i es) | _ => [] end) (filter (sel p) l)) -> In (fst (snd x)) (flat_map fag_faces (filter (has_tag t0) l))).
      { intros x Hx. apply in_flat_map in Hx. destruct Hx as (b' & Hb' & Hx). apply filter_In in Hb'. destruct Hb' as (Hb' & Hs). destruct b' as [| |ig t q' es m]; try discriminate. cbn [sel] in Hs. apply Nat.eqb_eq in Hs. subst q'.
        apply in_map_iff in Hx. destruct Hx as (en & <- & Hen). apply filter_In in Hen. destruct Hen as (Hen & _). apply in_flat_map. exists (InterPart ig t p es m). cbn [snd fag_faces]. split; [|now apply in_map].
        apply filter_In. split; [exact Hb'|]. unfold has_tag. cbn [bdry_tag]. apply btag_eqb_eq. rewrite (IHs _ _ _ _ Hb'); [reflexivity|]. intros ->. destruct Hen. }
      cbn [filter] in Ho2. assert (Ho3 : NoDup (flat_map fag_faces (filter (has_tag t0) l))) by (destruct (has_tag t0 b); [cbn [flat_map] in Ho2; apply NoDup_app_inv in Ho2; tauto|exact Ho2]).
      specialize (IH IHs Ho3). cbn [filter]. destruct (sel p b) eqn:Es; [|exact IH]. destruct b as [| |ig t q' es m]; try discriminate. cbn [sel] in Es. apply Nat.eqb_eq in Es. subst q'. cbn [flat_map]. rewrite map_app.
      destruct es as [|en0 es0]; [exact IH|]. assert (t = t0) by (eapply Ht; [now left|discriminate]). subst t. remember (en0 :: es0) as es eqn:Ees. clear Ees.
      assert (Hht : has_tag t0 (InterPart ig t0 p es m) = true) by (unfold has_tag; cbn [bdry_tag]; now apply btag_eqb_eq). rewrite Hht in Ho2. cbn [flat_map fag_faces] in Ho2. apply NoDup_app_inv in Ho2. destruct Ho2 as (Hn1 & _ & Hdis).
      apply NoDup_app; [|exact IH|].
      + rewrite map_map. cbn [fst snd]. rewrite <- (map_map fst (pair g')). apply NoDup_map_inj; [intros; congruence|]. unfold mine. clear - Hn1. induction es as [|en es IH]; [constructor|]. cbn [map] in Hn1. inversion Hn1 as [|? ? Hx Hn]; subst. cbn [filter]. destruct (_ =? i); [|auto]. cbn [map]. constructor; [|auto].
        intros H. apply Hx. apply in_map_iff in H. destruct H as (en' & <- & H). apply filter_In in H. apply in_map. tauto.
      + intros (g1, a) H1 H2. rewrite map_map in H1. apply in_map_iff in H1, H2. destruct H1 as (en & Heq & Hen). destruct H2 as (x & Heq2 & Hx). cbn [fst snd] in Heq. injection Heq as <- <-. apply (Hdis (fst en)).
        * apply filter_In in Hen. apply in_map. tauto.
        * injection Heq2 as _ <-. apply Hsub. exact Hx.
    - intros g' (g1, a) _ Hin. apply in_map_iff in Hin. destruct Hin as (x & Heq & Hx). destruct (nth_error rfags g') as [l|]; [|destruct Hx]. apply in_flat_map in Hx. destruct Hx as (b & _ & Hx). destruct b as [| |ig t q' es m]; try (destruct Hx; fail).
      apply in_map_iff in Hx. destruct Hx as (en & <- & _). cbn [fst snd] in *. congruence.
  Qed.

  Lemma part_single : Forall single_source (cn_groups o).
  Proof.
    apply Forall_forall. intros bs Hbs. apply In_nth_error in Hbs. destruct Hbs as (g & Hbs). destruct part as (_ & _ & _ & Hgood). destruct (Hgood g bs Hbs) as (Hp & _).
    apply links_single. apply (Permutation_NoDup (Permutation_map fst (Permutation_sym Hp))). rewrite map_map. apply (NoDup_map_via _ _ _ (all_mine_NoDup g)).
    intros (g1, ((e1, f1), (k1, h1))) (g2, ((e2, f2), (k2, h2))) H1 H2 Heq. cbn [PartConnProofs.pimg fst snd] in *. apply (In_all_mine groups rgroups rkinds rfags rvs p Hm') in H1, H2.
    destruct H1 as (t1 & m1 & He1 & Hg1), H2 as (t2 & m2 & He2 & Hg2). cbn [fst snd] in Hg1, Hg2.
    destruct (entry_faces _ _ _ _ _ _ _ He1) as (ga & ea & ma & -> & Hga & _ & _ & Hla & Fa & Ra). destruct (entry_faces _ _ _ _ _ _ _ He2) as (gb & eb & mb & -> & Hgb & _ & _ & Hlb & Fb & Rb).
    assert (ga = g) by congruence. assert (gb = g) by congruence. subst ga gb. replace (base sizes g + ea - base sizes g) with ea in Heq by lia. replace (base sizes g + eb - base sizes g) with eb in Heq by lia. rewrite Heq in Fa.
    pose proof (rt_inj _ _ _ _ _ _ _ _ _ _ _ _ _ Hr _ _ _ _ Fa Fb) as Hi. injection Hi as -> ->. destruct (part_fun fags _ _ _ _ _ _ _ _ _ Honce Hla Hlb) as (Hk & _). injection Hk as Hk ->.
    pose proof (remote_in _ _ _ _ Ra) as O1. pose proof (remote_in _ _ _ _ Rb) as O2. rewrite <- Hk in O2. pose proof (owns_unique _ _ _ _ O1 O2) as <-. assert (e1 = e2) by lia. subst. reflexivity.
  Qed.

  Hypothesis Hrefl : forall n, nodes_close n n = true.
  Hypothesis Hpo : points_on to coords.
  Hypothesis Hpo' : points_on rto rcoords.

  Lemma part_batch g bs b : nth_error (cn_groups o) g = Some bs -> In b bs -> length (bt_from b) = length (bt_to b) /\ (exists t s, In (t, s) (combine (bt_to b) (bt_from b))) /\
    forall t s, In (t, s) (combine (bt_to b) (bt_from b)) -> exists m e f e' f', between groups rfags p m (g, e, f) (bt_fgrp b, e', f') /\
      is_face c g t (g, e, f) /\ is_face rc (bt_fgrp b) s (bt_fgrp b, e', f') /\ nodesok2 g (bt_fgrp b) m t s (bt_nodes b).
  Proof.
    intros Hbs Hb. destruct part as (_ & _ & _ & Hgood). destruct (Hgood g bs Hbs) as (_ & Hf & H). rewrite Forall_forall in Hf. destruct (Hf b Hb) as (Hlen & Hne).
    split; [exact Hlen|]. split; [|intros t s Hts; apply (H b t s Hb Hts)]. specialize (Hne Hrefl). destruct (bt_to b) as [|t tels]; [congruence|]. destruct (bt_from b) as [|s sels]; [discriminate|]. exists t, s. now left.
  Qed.
  Notation lpoint := (face_point dim factory fnodes face_coords groups kinds fags vs _ bvs bgs to Hr coords).
  Notation rpoint := (face_point dim factory fnodes face_coords rgroups rkinds rfags rvs _ rbvs rbgs rto Hr' rcoords).
  Lemma part_ranges g bs b tg : nth_error (cn_groups o) g = Some bs -> In b bs -> nth_error to g = Some tg -> length (bt_from b) = length (bt_to b) /\ Forall (fun t => t < dg_nel tg) (bt_to b) /\
    exists sg, nth_error rto (bt_fgrp b) = Some sg /\ Forall (fun s => s < dg_nel sg) (bt_from b).
  Proof.
    intros Hbs Hb Htg. destruct (part_batch g bs b Hbs Hb) as (Hlen & (t0 & s0 & Hts0) & H). split; [exact Hlen|]. split.
    - apply Forall_forall. intros t Ht. apply In_nth_error in Ht. destruct Ht as (i & Hi). destruct (nth_exists (bt_from b) i) as (s & Hs); [rewrite Hlen; apply nth_error_Some; congruence|].
      destruct (H t s) as (m & e & f & e' & f' & _ & H1 & _); [apply nth_combine_In; eauto|]. destruct (lpoint _ _ _ _ _ Hpo H1) as (d & ps & Hd & Hlt & _). assert (d = tg) by congruence. now subst.
    - destruct (H t0 s0 Hts0) as (m0 & e0 & f0 & e0' & f0' & _ & _ & H2 & _). destruct (rpoint _ _ _ _ _ Hpo' H2) as (sg & ps & Hsg & _). exists sg. split; [exact Hsg|].
      apply Forall_forall. intros s Hs. apply In_nth_error in Hs. destruct Hs as (i & Hi). destruct (nth_exists (bt_to b) i) as (t & Ht); [rewrite <- Hlen; apply nth_error_Some; congruence|].
      destruct (H t s) as (m & e & f & e' & f' & _ & _ & H3 & _); [apply nth_combine_In; eauto|]. destruct (rpoint _ _ _ _ _ Hpo' H3) as (d & ps' & Hd & Hlt & _). assert (d = sg) by congruence. now subst.
  Qed.

  Lemma plength (dc : list (@dgroup K)) (cs : list (list (list P))) g d t ps : points_on dc cs -> nth_error dc g = Some d -> value cs g t = Some ps -> length ps = dg_ndof d.
  Proof.
    intros Hp Hd Hv. destruct (Forall2_nth_error _ _ _ _ _ Hp Hd) as (rows & Hrows & _ & Hall). unfold value in Hv. rewrite Hrows in Hv. rewrite Forall_forall in Hall. apply Hall. eapply nth_error_In; eauto.
  Qed.
  Lemma matching_pick2 ps qs ix m : matching close ps (map (app m) qs) ix -> length ix = length ps /\ Forall (fun i => i < length qs) ix.
  Proof.
    intros H. unfold matching in H. split; [now rewrite <- (Forall2_length' _ _ _ H)|]. rewrite <- (map_length (app m) qs). induction H as [|x j l ix (y & Hq & _) H IH]; constructor; auto. apply nth_error_Some. congruence.
  Qed.

  Section Match2.
    Hypothesis Hd0 : dim0 = false.
    Hypothesis Hma : matchable2 app close groups rfags p c rc coords rcoords.
    Hypothesis Hsep : forall d, In d rto -> separated select_nodes nodes_close (dg_kind d) (dg_ndof d).
    Hypothesis Hpick : forall d ix, In d rto -> Forall (fun i => i < dg_ndof d) ix -> rpick (dg_kind d) (select_nodes (dg_kind d) ix) = Some ix.
    Hypothesis Hfew : few_matchings2 app close groups rfags p c rc coords rcoords.

    Lemma part_match g bs b t s : nth_error (cn_groups o) g = Some bs -> In b bs -> In (t, s) (combine (bt_to b) (bt_from b)) -> exists m e f e' f' sg ps qs ix,
      between groups rfags p m (g, e, f) (bt_fgrp b, e', f') /\ is_face c g t (g, e, f) /\ is_face rc (bt_fgrp b) s (bt_fgrp b, e', f') /\ nth_error rto (bt_fgrp b) = Some sg /\
      value coords g t = Some ps /\ value rcoords (bt_fgrp b) s = Some qs /\ matching close ps (map (app m) qs) ix /\ rpick (dg_kind sg) (bt_nodes b) = Some ix.
    Proof.
      intros Hbs Hb Hts. destruct (part_batch g bs b Hbs Hb) as (_ & _ & H). destruct (H t s Hts) as (m & e & f & e' & f' & He & H1 & H2 & sg & Hsg & Hn). rewrite Hd0 in Hn.
      destruct (Hn Hpo Hpo' Hma Hsep) as (ps & qs & ix & Hps & Hqs & HM & Hnb). exists m, e, f, e', f', sg, ps, qs, ix. do 7 (split; [assumption|]). rewrite Hnb. apply Hpick; [eapply nth_error_In; eauto|].
      pose proof (plength _ _ _ _ _ _ Hpo' Hsg Hqs) as Hq. destruct (matching_pick2 ps qs ix m HM) as (_ & HF). rewrite Hq in HF. exact HF.
    Qed.

    Lemma part_conn_ok : conn_ok rmat rpick o.
    Proof.
      destruct part as (Hfr & Hto & Hlen & _). destruct (groups_len dim factory fnodes face_coords groups kinds fags vs _ Hm bvs bgs to Hr) as (_ & Hlt & _).
      unfold conn_ok. rewrite Hfr, Hto. apply Forall2_intro_nth; [lia|]. intros g tg bs Htg Hbs. split.
      - apply Forall_forall. intros b Hb. destruct (part_ranges g bs b tg Hbs Hb Htg) as (R1 & R2 & sg & Hsg & R3). split; [exact R1|]. split; [exact R2|]. exists sg. split; [exact Hsg|]. split; [exact R3|].
        destruct (part_batch g bs b Hbs Hb) as (_ & (t & s & Hts) & _). destruct (part_match g bs b t s Hbs Hb Hts) as (m & e & f & e' & f' & sg' & ps & qs & ix & _ & _ & _ & Hsg' & Hps & Hqs & HM & Hp).
        assert (sg' = sg) by congruence. subst sg'. rewrite Hp. destruct (matching_pick2 ps qs ix m HM) as (Hl1 & Hl2). rewrite (plength _ _ _ _ _ _ Hpo Htg Hps) in Hl1. rewrite (plength _ _ _ _ _ _ Hpo' Hsg Hqs) in Hl2. auto.
      - intros g'. destruct (Hfew g g') as (L & HL & H). exists L. split; [exact HL|]. intros b gr ix Hb Hbg Hgr Hp.
        destruct (part_batch g bs b Hbs Hb) as (_ & (t & s & Hts) & _). destruct (part_match g bs b t s Hbs Hb Hts) as (m & e & f & e' & f' & sg' & ps & qs & ix' & He & F1 & F2 & Hsg' & Hps & Hqs & HM & Hp'). rewrite Hbg in *.
        assert (sg' = gr) by congruence. subst sg'. assert (ix' = ix) by congruence. subst ix'. eapply H; eauto.
    Qed.

    Lemma part_values (x : list (list (list R))) : on_discr rto x -> exists y, (forall eager nomerge, call R rmat rpick eager nomerge o x = Ok y) /\ on_discr to y /\ remote_values app close groups rfags p c rc coords rcoords x y /\
      forall g t d, nth_error to g = Some d -> t < dg_nel d -> (forall e f, is_face c g t (g, e, f) -> forall m b, ~ part_entry fags g (TPartition q) q m ((e, f), b)) -> value y g t = Some (zeros (dg_ndof d)).
    Proof.
      intros Hx. destruct part as (Hfr & Hto & _). assert (Hx' : on_discr (cn_from o) x) by (rewrite Hfr; exact Hx).
      destruct (call_values rmat rpick o x part_conn_ok part_single Hx') as (y & Hy & Hyon & Hyf & Hy0). exists y. rewrite Hto in Hyon. split; [exact Hy|]. split; [exact Hyon|]. split.
      - intros g e f g' e' f' m t s ps qs He F1 F2 Hps Hqs. destruct (mirror' _ _ _ _ _ _ _ _ He F1) as ((m' & He') & _).
        destruct (proj2 (part_receives g t g' s)) as (n & Hfd); [exists e, f, e', f', m'; auto|].
        destruct (Hyf g t g' s n Hfd) as (gr & v & w & Hgr & Hv & Hw & Hrs). exists v, w. split; [exact Hv|]. split; [exact Hw|]. destruct Hfd as (bs & b & Hbs & Hb & Hbg & Hbn & Hts).
        destruct (part_match g bs b t s Hbs Hb Hts) as (m2 & e2 & f2 & e2' & f2' & sg & ps2 & qs2 & ix & He2 & F1' & F2' & Hsg & Hps2 & Hqs2 & HM & Hp). rewrite Hbg, Hbn in *.
        assert (ps2 = ps) by congruence. assert (qs2 = qs) by congruence. subst ps2 qs2. rewrite Hfr in Hgr. assert (sg = gr) by congruence. subst sg. unfold resampled in Hrs. rewrite Hp in Hrs.
        pose proof (rt_inj _ _ _ _ _ _ _ _ _ _ _ _ _ Hr _ _ _ _ F1 F1') as Heq. injection Heq as <- <-. pose proof (rt_inj _ _ _ _ _ _ _ _ _ _ _ _ _ Hr' _ _ _ _ F2 F2') as Heq. injection Heq as <- <-.
        destruct (part_fun rfags _ _ _ _ _ _ _ _ _ Honce' He He2) as (_ & <- & _).
        intros i j a b' Hi Hj Hcl. destruct (Forall2_nth_error _ _ _ _ _ HM Hi) as (j' & Hj' & q' & Hq' & Hcl').
        destruct (Hma g e f g' e' f' m t s ps qs He F1 F2 Hps Hqs a) as (j0 & q0 & _ & _ & Huni); [eapply nth_error_In; eauto|].
        assert (j' = j) by (rewrite (Huni j' q' Hq' Hcl'), (Huni j _ (map_nth_error (app m) _ _ Hj) Hcl); reflexivity). subst j'.
        destruct (Forall2_nth_error _ _ _ _ _ Hrs Hj') as (z & Hz & Hz'). exists z. auto.
      - intros g t d Hd Ht Hno. apply (Hy0 g d t); [rewrite Hto; exact Hd|exact Ht|]. intros g' s n Hfd. destruct (proj1 (part_receives g t g' s)) as (e & f & e' & f' & m & He & F1 & F2); [eauto|]. exact (Hno e f F1 _ _ He).
    Qed.
  End Match2.

  Section Points02.
    Hypothesis Hd0 : dim0 = true.
    Hypothesis Hunit : forall d, In d rto -> resamples rmat rpick (dg_kind d) (unit_nodes (dg_kind d)) (dg_ndof d) (dg_ndof d) /\
      forall v w : list R, length v = dg_ndof d -> resampled rmat rpick (dg_kind d) (unit_nodes (dg_kind d)) v w -> w = v.
    Hypothesis Hsame : forall d d', In d to -> In d' rto -> dg_ndof d = dg_ndof d'.

    Lemma part_conn_ok0 : conn_ok rmat rpick o.
    Proof.
      destruct part as (Hfr & Hto & Hlen & _). destruct (groups_len dim factory fnodes face_coords groups kinds fags vs _ Hm bvs bgs to Hr) as (_ & Hlt & _).
      assert (Hnodes : forall g bs b sg, nth_error (cn_groups o) g = Some bs -> In b bs -> nth_error rto (bt_fgrp b) = Some sg -> bt_nodes b = unit_nodes (dg_kind sg)).
      { intros g bs b sg Hbs Hb Hsg. destruct (part_batch g bs b Hbs Hb) as (_ & (t & s & Hts) & H). destruct (H t s Hts) as (m & e & f & e' & f' & _ & _ & _ & sg' & Hsg' & Hn). rewrite Hd0 in Hn. assert (sg' = sg) by congruence. now subst. }
      unfold conn_ok. rewrite Hfr, Hto. apply Forall2_intro_nth; [lia|]. intros g tg bs Htg Hbs. split.
      - apply Forall_forall. intros b Hb. destruct (part_ranges g bs b tg Hbs Hb Htg) as (R1 & R2 & sg & Hsg & R3). split; [exact R1|]. split; [exact R2|]. exists sg. split; [exact Hsg|]. split; [exact R3|].
        rewrite (Hnodes g bs b sg Hbs Hb Hsg). destruct (Hunit sg (nth_error_In _ _ Hsg)) as (H & _). unfold resamples in H. rewrite (Hsame tg sg (nth_error_In _ _ Htg) (nth_error_In _ _ Hsg)). exact H.
      - intros g'. destruct (nth_error rto g') as [gr|] eqn:Egr; [|exists []; split; [cbn; lia|]; intros b gr ix _ _ H; congruence].
        exists (match rpick (dg_kind gr) (unit_nodes (dg_kind gr)) with Some ix => [ix] | None => [] end). split; [destruct (rpick (dg_kind gr) (unit_nodes (dg_kind gr))); cbn; lia|].
        intros b gr' ix Hb Hbg Hgr Hp. assert (gr' = gr) by congruence. subst gr'. subst g'.  rewrite (Hnodes g bs b gr Hbs Hb Egr) in Hp. rewrite Hp. now left.
    Qed.
    Lemma part_values0 (x : list (list (list R))) : on_discr rto x -> exists y, (forall eager nomerge, call R rmat rpick eager nomerge o x = Ok y) /\ on_discr to y /\
      (forall g e f g' e' f' m t s, between groups rfags p m (g, e, f) (g', e', f') -> is_face c g t (g, e, f) -> is_face rc g' s (g', e', f') -> value y g t = value x g' s) /\
      forall g t d, nth_error to g = Some d -> t < dg_nel d -> (forall e f, is_face c g t (g, e, f) -> forall m b, ~ part_entry fags g (TPartition q) q m ((e, f), b)) -> value y g t = Some (zeros (dg_ndof d)).
    Proof.
      intros Hx. destruct part as (Hfr & Hto & _). assert (Hx' : on_discr (cn_from o) x) by (rewrite Hfr; exact Hx).
      destruct (call_values rmat rpick o x part_conn_ok0 part_single Hx') as (y & Hy & Hyon & Hyf & Hy0). exists y. rewrite Hto in Hyon. split; [exact Hy|]. split; [exact Hyon|]. split.
      - intros g e f g' e' f' m t s He F1 F2. destruct (mirror' _ _ _ _ _ _ _ _ He F1) as ((m' & He') & _). destruct (proj2 (part_receives g t g' s)) as (n & Hfd); [exists e, f, e', f', m'; auto|].
        destruct (Hyf g t g' s n Hfd) as (gr & v & w & Hgr & Hv & Hw & Hrs). rewrite Hv, Hw. f_equal. destruct Hfd as (bs & b & Hbs & Hb & Hbg & Hbn & Hts).
        destruct (part_batch g bs b Hbs Hb) as (_ & _ & H). destruct (H t s Hts) as (m2 & e2 & f2 & e2' & f2' & _ & _ & _ & sg & Hsg & Hn). rewrite Hd0 in Hn. rewrite Hbg in Hsg. rewrite Hfr in Hgr. assert (sg = gr) by congruence. subst sg. rewrite Hbn in Hn. subst n.
        apply (proj2 (Hunit gr (nth_error_In _ _ Hgr))); [exact (proj1 (value_length _ _ _ _ _ _ Hx Hgr Hv))|]. now rewrite <- Hn.
      - intros g t d Hd Ht Hno. apply (Hy0 g d t); [rewrite Hto; exact Hd|exact Ht|]. intros g' s n Hfd. destruct (proj1 (part_receives g t g' s)) as (e & f & e' & f' & m & He & F1 & F2); [eauto|]. exact (Hno e f F1 _ _ He).
    Qed.
  End Points02.
End PartVal.
