(** * OppMainProofs: make_opposite_face_connection, continued *)
From Coq Require Import List Arith Bool Lia Permutation.
From Verif Require Import Np NpFacts Lin MeshModel MeshSpec MeshProofs PartSpec PointProofs ConnModel ConnSpec FaceConnModel FaceConnSpec RestrProofs FaceValProofs FaceEmbProofs CrossProofs OppProofs.
Import ListNotations.

Lemma perm_flat_map_app {X Y} (F G : X -> list Y) l : Permutation (flat_map (fun x => F x ++ G x) l) (flat_map F l ++ flat_map G l).
Proof.
  induction l as [|x l IH]; [reflexivity|]. cbn [flat_map]. rewrite IH. rewrite <- !app_assoc. apply Permutation_app_head. rewrite !app_assoc. apply Permutation_app_tail. apply Permutation_app_comm.
Qed.
Lemma Permutation_flat_map_ext {X Y} (F G : X -> list Y) l : (forall x, In x l -> Permutation (F x) (G x)) -> Permutation (flat_map F l) (flat_map G l).
Proof. induction l as [|x l IH]; intros H; [reflexivity|]. cbn [flat_map]. apply Permutation_app; [apply H; now left|apply IH; intros y Hy; apply H; now right]. Qed.
Lemma flat_map_nil {X Y} (F : X -> list Y) l : (forall x, In x l -> F x = []) -> flat_map F l = [].
Proof. induction l as [|x l IH]; intros H; [reflexivity|]. cbn [flat_map]. rewrite (H x) by now left. apply IH. intros y Hy. apply H. now right. Qed.
Lemma flat_map_map_pair {X Y Z} (F : X -> list Y) (G : Y -> Z) l : flat_map (fun x => map G (F x)) l = map G (flat_map F l).
Proof. induction l as [|x l IH]; [reflexivity|]. cbn [flat_map]. now rewrite map_app, IH. Qed.

(** ** Finding numbers by sorting *)
Definition spairs (l : list nat) : list (nat * nat) := isort (fun a b => snd a <=? snd b) (enumerate l).
Lemma spairs_In l i x : In (i, x) (spairs l) <-> nth_error l i = Some x.
Proof.
  unfold spairs. split; intros H.
  - apply (Permutation_in _ (isort_perm _ _)) in H. now apply In_enumerate in H.
  - apply (Permutation_in _ (Permutation_sym (isort_perm _ _))). now apply In_enumerate.
Qed.
Lemma spairs_sorted l : Sorted.StronglySorted le (map snd (spairs l)).
Proof.
  assert (H : Sorted.StronglySorted (fun a b : nat * nat => (snd a <=? snd b) = true) (spairs l)).
  { apply isort_sorted; [intros x y; rewrite !Nat.leb_le; lia|intros x y z; rewrite !Nat.leb_le; lia]. }
  induction H as [|x l' H IH HF]; cbn [map]; constructor; auto. apply Forall_forall. intros y Hy. apply in_map_iff in Hy. destruct Hy as (z & <- & Hz). rewrite Forall_forall in HF. apply Nat.leb_le. auto.
Qed.
Lemma argsort_take l : take l (argsort l) = Ok (map snd (spairs l)).
Proof.
  apply take_ok. change (argsort l) with (map fst (spairs l)). assert (H : forall i x, In (i, x) (spairs l) -> nth_error l i = Some x) by (intros i x; apply spairs_In).
  induction (spairs l) as [|(i, x) ps IH]; cbn [map fst snd]; constructor; [apply H; now left|apply IH; intros j y Hj; apply H; now right].
Qed.
Lemma searchsorted_first l v : Sorted.StronglySorted le l -> In v l -> nth_error l (searchsorted l v) = Some v.
Proof.
  intros Hs Hin. apply In_nth_error in Hin. destruct Hin as (j & Hj). assert (H1 : ~ j < searchsorted l v) by (rewrite (searchsorted_lt l v j v Hs Hj); lia).
  destruct (nth_error l (searchsorted l v)) as [x|] eqn:Ex; [|apply nth_error_None in Ex; assert (j < length l) by (apply nth_error_Some; congruence); lia].
  assert (H2 : ~ x < v) by (rewrite <- (searchsorted_lt l v _ x Hs Ex); lia). f_equal. assert (x <= v); [|lia].
  destruct (Nat.eq_dec (searchsorted l v) j) as [He|He]; [rewrite He in Ex; assert (x = v) by congruence; lia|].
  assert (Hlt : searchsorted l v < j) by lia. clear - Hs Ex Hj Hlt. revert Hlt Ex Hj. generalize (searchsorted l v) as i. revert j. induction Hs as [|y l Hs IH HF]; intros j i Hlt Ex Hj; [destruct i; discriminate|].
  destruct j as [|j]; [lia|]. destruct i as [|i]; cbn [nth_error] in Ex, Hj; [|apply (IH j i); auto; lia]. injection Ex as ->. rewrite Forall_forall in HF. apply HF. eapply nth_error_In; eauto.
Qed.
Lemma sort_find l adj : (forall e, In e adj -> In e l) -> exists used, take (argsort l) (map (searchsorted (map snd (spairs l))) adj) = Ok used /\ take l used = Ok adj.
Proof.
  intros H. change (argsort l) with (map fst (spairs l)). induction adj as [|e adj IH]; [exists []; auto|]. destruct IH as (used & E1 & E2); [intros x Hx; apply H; now right|].
  assert (He : In e (map snd (spairs l))). { destruct (In_nth_error _ _ (H e (or_introl eq_refl))) as (i & Hi). apply in_map_iff. exists (i, e). split; [reflexivity|]. now apply spairs_In. }
  pose proof (searchsorted_first _ _ (spairs_sorted l) He) as Hn. rewrite nth_error_map in Hn. destruct (nth_error (spairs l) (searchsorted (map snd (spairs l)) e)) as [(i, x)|] eqn:Ei; [|discriminate]. injection Hn as ->.
  exists (i :: used). apply take_ok in E1, E2. split; apply take_ok; cbn [map]; constructor; auto.
  - rewrite nth_error_map, Ei. reflexivity.
  - apply spairs_In. eapply nth_error_In; eauto.
Qed.

Section Opp.
  Context {E E' V A N K P : Type}.
  Variables (dim : K -> nat) (factory : K -> K) (fnodes : K -> nat -> K -> N) (face_coords : K -> nat -> E -> E').
  Variables (groups : list (egroup E)) (kinds : list K) (fags : list (list (fagrp A))) (vs : list V) (r : restr).
  Hypothesis Hm : restrictable groups kinds fags vs false.
  Hypothesis Honce : asked_once fags r.
  Variables (bvs : list V) (bgs : list (egroup E')) (to : list (@dgroup K)).
  Notation c := (mk_conn (vol_groups dim groups kinds) to (all_batches factory fnodes groups kinds fags r false) true).
  Hypothesis Hr : restriction dim factory fnodes face_coords groups kinds fags vs r false bvs bgs c.
  Variable unit_nodes : K -> N.
  Variable select_nodes : K -> list nat -> N.
  Variable app : A -> P -> P.
  Variable close : P -> P -> bool.
  Variable gauss_newton : K -> list (list P) -> list (list P) -> res (list N).
  Variable nodes_close : N -> N -> bool.
  Variables (dim0 : bool) (coords : list (list (list P))).
  Hypothesis Hgn : gn_lengths gauss_newton.
  Notation bidx := (bidx groups fags r).

  Lemma face_point gb t g e f : points_on to coords -> is_face c gb t (g, e, f) -> exists d ps, nth_error to gb = Some d /\ t < dg_nel d /\ value coords gb t = Some ps /\ length ps = dg_ndof d.
  Proof.
    intros Hp H. destruct (rt_face _ _ _ _ _ _ _ _ _ _ _ _ _ Hr gb t g e f H) as (grp & k & x & bg & rows & row & vsf & _ & _ & _ & Hbg & Hd & Hn & _).
    cbn [cn_to] in Hd. eexists _. destruct (Forall2_nth_error _ _ _ _ _ Hp Hd) as (rws & Hrws & Hl & Hf). cbn [dg_nel dg_ndof] in *.
    assert (Ht : t < nelements bg) by (apply nth_error_Some; unfold nelements in *; congruence). destruct (nth_exists rws t) as (ps & Hps); [lia|]. exists ps. split; [exact Hd|]. cbn [dg_nel dg_ndof]. split; [exact Ht|]. split; [unfold value; now rewrite Hrws|].
    rewrite Forall_forall in Hf. apply Hf. eapply nth_error_In; eauto.
  Qed.

  Definition nodesok (g g' : nat) (m : A) (t s : nat) (n : N) : Prop :=
    exists sg, nth_error to g' = Some sg /\
      if dim0 then n = unit_nodes (dg_kind sg)
      else points_on to coords -> matchable app close fags c coords -> (forall d, In d to -> separated select_nodes nodes_close (dg_kind d) (dg_ndof d)) ->
        exists ps qs ix, value coords g t = Some ps /\ value coords g' s = Some qs /\ matching close (map (app m) ps) qs ix /\ n = select_nodes (dg_kind sg) ix.

  Definition img (i j : nat) (en : fentry) : nat * (nat * nat) := (bidx i (fst (fst en)) (snd (fst en)), (j, bidx j (fst (snd en)) (snd (snd en)))).

  Lemma map_app_none (qs : list P) : map (app_opt app None) qs = qs.
  Proof. induction qs as [|q qs IH]; [reflexivity|]. cbn [map]. now rewrite IH. Qed.

  Lemma opposite_part i_src i_tgt l es m f tbl bs : nth_error fags i_tgt = Some l -> In (Interior i_tgt i_src es m) l ->
    (forall e f t, lookup tbl (e, f) = Ok t -> is_face c i_src t (i_src, e, f)) ->
    opposite_batches unit_nodes select_nodes app close gauss_newton nodes_close dim0 c coords tbl i_src i_tgt es m f = Ok bs ->
    Permutation (links bs) (map (img i_tgt i_src) (filter (fun en : fentry => snd (fst en) =? f) es)) /\
    Forall (fun b => length (bt_from b) = length (bt_to b) /\ ((forall n, nodes_close n n = true) -> bt_to b <> [])) bs /\
    forall b t s, In b bs -> In (t, s) (combine (bt_to b) (bt_from b)) -> exists e f e' f', bt_fgrp b = i_src /\ In ((e, f), (e', f')) es /\
      is_face c i_tgt t (i_tgt, e, f) /\ is_face c i_src s (i_src, e', f') /\ nodesok i_tgt i_src m t s (bt_nodes b).
  Proof.
    intros Hl Hin Htbl Eo. unfold opposite_batches in Eo. destruct (get (cn_groups c) i_tgt) as [vbs|] eqn:Evbs; [|discriminate]. cbn [bind] in Eo. apply get_ok in Evbs.
    destruct (batch_for_face vbs f) as [vb|] eqn:Evb; [|discriminate]. cbn [bind] in Eo.
    assert (Hvb : In vb vbs /\ bt_face vb = Some f).
    { unfold batch_for_face in Evb. destruct (filter (fun b => match bt_face b with Some f' => f' =? f | None => false end) vbs) as [|b0 [|]] eqn:Ef; try discriminate. injection Evb as <-.
      assert (Hb0 : In b0 (filter (fun b => match bt_face b with Some f' => f' =? f | None => false end) vbs)) by (rewrite Ef; now left). apply filter_In in Hb0. destruct Hb0 as (H1 & H2). split; [exact H1|].
      destruct (bt_face b0) as [f'|]; [|discriminate]. apply Nat.eqb_eq in H2. now subst. }
    destruct Hvb as (Hvb & Hvf). set (mine := filter (fun en : fentry => snd (fst en) =? f) es) in *. cbv zeta in Eo.
    assert (Hfgrp : bt_fgrp vb = i_tgt) by (destruct (rt_nodes _ _ _ _ _ _ _ _ _ _ _ _ _ Hr i_tgt vbs vb Evbs Hvb) as (grp & k & f' & _ & _ & _ & _ & _ & H); symmetry; exact H).
    assert (Hmf : Forall (fun en : fentry => In en es /\ snd (fst en) = f) mine).
    { apply Forall_forall. intros en Hen. unfold mine in Hen. apply filter_In in Hen. destruct Hen as (H1 & H2). apply Nat.eqb_eq in H2. auto. }
    clearbody mine. destruct mine as [|en0 mine0]; [injection Eo as <-; split; [reflexivity|]; split; [constructor|]; intros b t s []|]. set (mine := en0 :: mine0) in *. assert (Hne : mine <> []) by discriminate. clearbody mine.
    match type of Eo with bind ?u _ = _ => destruct u as [used|] eqn:Eu; [|discriminate] end. cbn [bind] in Eo. clear Eu.
    destruct (take (bt_from vb) used) as [vels|] eqn:Ev; [|discriminate]. cbn [bind] in Eo.
    destruct (list_nat_eqb vels (map (fun en : fentry => fst (fst en)) mine)) eqn:Ele; [|discriminate]. cbn [guard bind] in Eo. unfold list_nat_eqb in Ele. destruct (list_eq_dec Nat.eq_dec vels (map (fun en : fentry => fst (fst en)) mine)) as [->|]; [|discriminate]. clear Ele.
    destruct (take (bt_to vb) used) as [tels|] eqn:Et; [|discriminate]. cbn [bind] in Eo.
    destruct (mapM (fun en : fentry => lookup tbl (snd en)) mine) as [sels|] eqn:Es; [|discriminate]. cbn [bind] in Eo.
    apply take_ok in Ev, Et. apply mapM_ok in Es.
    (* the pairs *)
    assert (Hpairs : Forall2 (fun en t => is_face c i_tgt t (i_tgt, fst (fst en), snd (fst en))) mine tels).
    { clear - Ev Et Hmf Hvb Hvf Hfgrp Evbs. assert (Hl1 : length tels = length mine) by (rewrite <- (Forall2_length' _ _ _ Et), (Forall2_length' _ _ _ Ev); apply map_length).
      apply Forall2_intro_nth; [now symmetry|]. intros i en t Hen Ht.
      destruct (Forall2_nth_error_r _ _ _ _ _ Et Ht) as (u & Hu & Htu). destruct (Forall2_nth_error _ _ _ _ _ Ev Hu) as (e & He & Heu). rewrite nth_error_map, Hen in He. injection He as <-.
      rewrite Forall_forall in Hmf. destruct (Hmf en (nth_error_In _ _ Hen)) as (_ & ->). exists vbs, vb. split; [exact Evbs|]. split; [exact Hvb|]. split; [exact Hfgrp|]. split; [exact Hvf|]. apply nth_combine_In. eauto. }
    assert (Hsrc : Forall2 (fun en s => is_face c i_src s (i_src, fst (snd en), snd (snd en))) mine sels).
    { clear - Es Htbl. induction Es as [|en s mine sels H Es IH]; constructor; [|exact IH]. destruct en as (ef & (e', f')). apply Htbl. exact H. }
    assert (Hlen : length tels = length sels) by (rewrite <- (Forall2_length' _ _ _ Hpairs); exact (Forall2_length' _ _ _ Hsrc)).
    assert (Hcmb : forall t s, In (t, s) (combine tels sels) -> exists e f e' f', In ((e, f), (e', f')) es /\ is_face c i_tgt t (i_tgt, e, f) /\ is_face c i_src s (i_src, e', f')).
    { intros t s Hts. apply nth_combine_In in Hts. destruct Hts as (i & Ht & Hs). destruct (Forall2_nth_error_r _ _ _ _ _ Hpairs Ht) as (((e, f0), (e', f0')) & Hen & H1). destruct (Forall2_nth_error_r _ _ _ _ _ Hsrc Hs) as (en' & Hen' & H2).
      rewrite Hen in Hen'. injection Hen' as <-. cbn [fst snd] in *. exists e, f0, e', f0'. rewrite Forall_forall in Hmf. split; [exact (proj1 (Hmf _ (nth_error_In _ _ Hen)))|auto]. }
    destruct (cross_part unit_nodes select_nodes app close gauss_newton nodes_close dim0 _ _ _ _ _ _ _ _ _ _ Hgn Hlen Eo) as (Hp & Hf & sg & Hsg & Hn0 & Hn1).
    split; [|split].
    - rewrite Hp. replace (map (fun ts : nat * nat => (fst ts, (i_src, snd ts))) (combine tels sels)) with (map (img i_tgt i_src) mine); [apply Permutation_refl|].
      clear - Hpairs Hsrc Hr Hm Honce. revert sels Hsrc. induction Hpairs as [|en t mine tels H1 Hpairs IH]; intros sels Hsrc; inversion Hsrc as [|? s ? sels1 H2 Hsrc1]; subst; [reflexivity|].
      cbn [map combine fst snd]. rewrite <- (IH _ Hsrc1). f_equal. unfold img. destruct (face_bidx dim factory fnodes face_coords groups kinds fags vs r Hm Honce bvs bgs to Hr _ _ _ _ _ H1) as (_ & ->).
      destruct (face_bidx dim factory fnodes face_coords groups kinds fags vs r Hm Honce bvs bgs to Hr _ _ _ _ _ H2) as (_ & ->). reflexivity.
    - apply Forall_forall. intros b Hb. rewrite Forall_forall in Hf. split; [exact (proj2 (Hf b Hb))|]. intros Hrefl.
      assert (Hne' : tels <> []) by (intros ->; inversion Hpairs; subst; congruence). pose proof (cross_nonempty unit_nodes select_nodes app close gauss_newton nodes_close dim0 _ _ _ _ _ _ _ _ _ _ Hrefl Hne' Eo) as Hne2. rewrite Forall_forall in Hne2. auto.
    - intros b t s Hb Hts. rewrite Forall_forall in Hf. destruct (Hf b Hb) as (Hbg & _).
      assert (Hlk : In (t, (i_src, s)) (links bs)) by (apply In_links; exists b; auto).
      assert (Hts' : In (t, s) (combine tels sels)).
      { apply (Permutation_in _ Hp) in Hlk. apply in_map_iff in Hlk. destruct Hlk as ((t', s') & Heq & H). cbn [fst snd] in Heq. injection Heq as -> ->. exact H. }
      destruct (Hcmb t s Hts') as (e & f0 & e' & f0' & Hen & H1 & H2). exists e, f0, e', f0'. split; [exact Hbg|]. split; [exact Hen|]. split; [exact H1|]. split; [exact H2|].
      exists sg. split; [exact Hsg|]. destruct dim0.
      + specialize (Hn0 eq_refl). rewrite Forall_forall in Hn0. exact (Hn0 b Hb).
      + intros Hpo Hma Hsep. destruct (Hn1 eq_refl) as (tc & sc & Htc & Hsc & Hn). clear Hn0 Hn1.
        assert (Hval : forall g t ps tc, nth_error coords g = Some tc -> value coords g t = Some ps -> nth_error tc t = Some ps) by (intros g0 t0 ps0 tc0 H H'; unfold value in H'; now rewrite H in H').
        assert (Hone : forall t s, In (t, s) (combine tels sels) -> exists ps qs, nth_error tc t = Some ps /\ nth_error sc s = Some qs /\ one_close close (map (app_opt app (Some m)) ps) (map (app_opt app None) qs)).
        { intros t0 s0 Hts0. destruct (Hcmb t0 s0 Hts0) as (e0 & f1 & e0' & f1' & Hen0 & H10 & H20). destruct (face_point _ _ _ _ _ Hpo H10) as (d & ps & Hd & _ & Hps & _). destruct (face_point _ _ _ _ _ Hpo H20) as (d' & qs & Hd' & _ & Hqs & _).
          exists ps, qs. split; [eapply Hval; eauto|]. split; [eapply Hval; eauto|]. rewrite map_app_none. apply (Hma i_tgt i_src m e0 f1 e0' f1' t0 s0 ps qs); auto. exists l, es. auto. }
        destruct (Hn Hone b t s Hb Hts) as (ps & qs & ix & t' & s' & ps' & qs' & ix' & Hps & Hqs & HM & Hts2 & Hps' & Hqs' & HM' & Hnb & Hcl).
        rewrite map_app_none in HM, HM'. change (app_opt app (Some m)) with (app m) in *.
        exists ps, qs, ix. split; [unfold value; now rewrite Htc|]. split; [unfold value; now rewrite Hsc|]. split; [exact HM|].
        assert (Hto : forall g rows t ps d, nth_error coords g = Some rows -> nth_error rows t = Some ps -> nth_error to g = Some d -> length ps = dg_ndof d).
        { intros g0 rows t0 ps0 d Hrows Ht0 Hd. destruct (Forall2_nth_error _ _ _ _ _ Hpo Hd) as (rows' & Hrows' & _ & Hall). assert (rows' = rows) by congruence. subst. rewrite Forall_forall in Hall. apply Hall. eapply nth_error_In; eauto. }
        assert (Hmlt : forall ps qs ix, matching close (map (app m) ps) qs ix -> length qs = dg_ndof sg -> Forall (fun i => i < dg_ndof sg) ix /\ length ix = length ps).
        { intros ps0 qs0 ix0 H Hq. split; [|rewrite <- (Forall2_length' _ _ _ H); apply map_length]. rewrite <- Hq. clear - H. unfold matching in H. induction H as [|p j ps ix (q & Hq & _) H IH]; constructor; auto. apply nth_error_Some. congruence. }
        cbn [cn_to] in Hsg. destruct (Hmlt ps qs ix HM (Hto _ _ _ _ _ Hsc Hqs Hsg)) as (Hi1 & Hi2). destruct (Hmlt ps' qs' ix' HM' (Hto _ _ _ _ _ Hsc Hqs' Hsg)) as (Hi1' & Hi2').
        destruct (face_point _ _ _ _ _ Hpo H1) as (d & ps0 & Hd & _).
        assert (Hll : length ix = length ix') by (rewrite Hi2, Hi2', (Hto _ _ _ _ _ Htc Hps Hd), (Hto _ _ _ _ _ Htc Hps' Hd); reflexivity).
        rewrite (Hsep sg (nth_error_In _ _ Hsg) ix ix' Hll Hi1 Hi1' Hcl). exact Hnb.
  Qed.

  (** What the batches of target group [i] have to be, for the list [L] of neighbors *)
  Definition good (i : nat) (L : list (nat * fentry)) (bs : list (@batch N)) : Prop :=
    Permutation (links bs) (map (fun x => img i (fst x) (snd x)) L) /\ Forall (fun b => length (bt_from b) = length (bt_to b) /\ ((forall n, nodes_close n n = true) -> bt_to b <> [])) bs /\
    forall b t s, In b bs -> In (t, s) (combine (bt_to b) (bt_from b)) -> exists m e f e' f', int_entry fags i (bt_fgrp b) m ((e, f), (e', f')) /\
      is_face c i t (i, e, f) /\ is_face c (bt_fgrp b) s (bt_fgrp b, e', f') /\ nodesok i (bt_fgrp b) m t s (bt_nodes b).
  Lemma good_nil i : good i [] [].
  Proof. split; [reflexivity|]. split; [constructor|]. intros b t s []. Qed.
  Lemma good_app i L bs L' bs' : good i L bs -> good i L' bs' -> good i (L ++ L') (bs ++ bs').
  Proof.
    intros (H1 & H2 & H3) (H1' & H2' & H3'). split; [rewrite links_app, map_app; now apply Permutation_app|]. split; [apply Forall_app; auto|].
    intros b t s Hb. apply in_app_iff in Hb. destruct Hb as [Hb|Hb]; eauto.
  Qed.
  Lemma good_perm i L L' bs : Permutation L L' -> good i L bs -> good i L' bs.
  Proof. intros Hp (H1 & H2 & H3). split; [rewrite H1; now apply Permutation_map|auto]. Qed.
  Lemma padds_good {X} n (F : X -> list (list (@batch N)) -> res (list (list (@batch N)))) (Lx : X -> nat -> list (nat * fentry)) L :
    (forall x, In x L -> padds n (F x) (fun G => forall i, good i (Lx x i) (G i))) ->
    padds n (fun out => foldM (fun out x => F x out) L out) (fun G => forall i, good i (flat_map (fun x => Lx x i) L) (G i)).
  Proof.
    intros H. eapply padds_weaken; [exact (padds_foldM n F _ L H)|]. intros G (Gs & HGs & Heq) i. rewrite Heq. clear - HGs. induction HGs as [|x g L Gs Hg HGs IH]; cbn [flat_map]; [apply good_nil|]. apply good_app; auto.
  Qed.

  Definition lvl_f (i_src i_tgt : nat) (es : list fentry) (f i : nat) : list (nat * fentry) := if i =? i_tgt then map (pair i_src) (filter (fun en : fentry => snd (fst en) =? f) es) else [].
  Definition lvl_b (i_src i_tgt nf : nat) (b : fagrp A) (i : nat) : list (nat * fentry) :=
    match b with Interior _ j es _ => if j =? i_src then flat_map (fun f => lvl_f i_src i_tgt es f i) (seq 0 nf) else [] | _ => [] end.
  Definition lvl_t (i_src i_tgt i : nat) : list (nat * fentry) :=
    match nth_error fags i_tgt, nth_error groups i_tgt with Some l, Some tg => flat_map (fun b => lvl_b i_src i_tgt (nfaces tg) b i) l | _, _ => [] end.

  Definition neighbors_exist : Prop := forall g g' m en, int_entry fags g g' m en -> g' < length groups.

  Lemma levels i l : neighbors_exist -> nth_error fags i = Some l -> i < length groups ->
    Permutation (flat_map (fun i_src => flat_map (fun i_tgt => lvl_t i_src i_tgt i) (seq 0 (length groups))) (seq 0 (length groups))) (interior_entries l).
  Proof.
    intros Hnb Hl Hi. destruct (nth_exists groups i Hi) as (tg & Htg).
    assert (Hb : forall i_src b, In b l -> Permutation (lvl_b i_src i (nfaces tg) b i) (match b with Interior _ j es _ => if j =? i_src then map (pair j) es else [] | _ => [] end)).
    { intros i_src b Hb. destruct b as [ig j es m| |]; try reflexivity. cbn [lvl_b]. destruct (j =? i_src) eqn:Ej; [|reflexivity]. apply Nat.eqb_eq in Ej. subst i_src.
      unfold lvl_f. rewrite Nat.eqb_refl. rewrite (flat_map_map_pair (fun f => filter (fun en : fentry => snd (fst en) =? f) es) (pair j)).
      apply Permutation_map. apply (perm_group (fun en : fentry => snd (fst en))). apply Forall_forall. intros ((e, f), (e', f')) Hen. cbn [fst snd].
      pose proof (rb_fags _ _ _ _ _ Hm) as (_ & Hfr). apply (Hfr i tg l (Interior ig j es m) e f Htg Hl Hb). cbn [fag_faces]. apply in_map_iff. exists ((e, f), (e', f')). auto. }
    assert (Ht : forall i_src, In i_src (seq 0 (length groups)) -> Permutation (flat_map (fun i_tgt => lvl_t i_src i_tgt i) (seq 0 (length groups)))
      (flat_map (fun b : fagrp A => match b with Interior _ j es _ => if j =? i_src then map (pair j) es else [] | _ => [] end) l)).
    { intros i_src _. rewrite (flat_map_single _ _ i); [| |apply seq_NoDup|apply in_seq; lia].
      - unfold lvl_t. rewrite Hl, Htg. apply Permutation_flat_map_ext. auto.
      - intros x _ Hx. unfold lvl_t. destruct (nth_error fags x) as [l'|]; [|reflexivity]. destruct (nth_error groups x) as [g'|]; [|reflexivity]. apply flat_map_nil. intros b _. destruct b as [ig j es m| |]; try reflexivity. cbn [lvl_b].
        destruct (j =? i_src); [|reflexivity]. apply flat_map_nil. intros f _. unfold lvl_f. destruct (Nat.eqb_spec i x); [congruence|reflexivity]. }
    rewrite (Permutation_flat_map_ext _ _ _ Ht). clear Ht Hb.
    assert (Hj : forall ig j es m, In (Interior ig j es m) l -> es = [] \/ j < length groups).
    { intros ig j es m Hin. destruct es as [|en es]; [now left|right]. assert (ig = i) by exact (rb_own _ _ _ _ _ Hm i l _ Hl Hin). subst ig. apply (Hnb i j m en). exists l, (en :: es). split; [exact Hl|]. split; [exact Hin|now left]. }
    clear Hl. unfold interior_entries. induction l as [|b l IH]; [cbn [flat_map]; rewrite flat_map_nil; [reflexivity|auto]|]. cbn [flat_map].
    rewrite perm_flat_map_app. apply Permutation_app; [|apply IH; intros ig j es m H; apply (Hj ig j es m); now right].
    destruct b as [ig j es m| |]; try (rewrite flat_map_nil; [reflexivity|auto]).
    destruct (Hj ig j es m (or_introl eq_refl)) as [->|Hlt].
    - cbn [map]. rewrite flat_map_nil; [reflexivity|]. intros x _. now destruct (j =? x).
    - rewrite (flat_map_single _ _ j); [rewrite Nat.eqb_refl; reflexivity| |apply seq_NoDup|apply in_seq; lia]. intros x _ Hx. destruct (Nat.eqb_spec j x); [congruence|reflexivity].
  Qed.

  Notation opposite := (make_opposite unit_nodes select_nodes app close gauss_newton nodes_close dim0 groups fags c coords).

  Lemma opposite_ok o : neighbors_exist -> opposite = Ok o -> cn_from o = to /\ cn_to o = to /\ length (cn_groups o) = length groups /\
    forall i bs l, nth_error (cn_groups o) i = Some bs -> nth_error fags i = Some l -> good i (interior_entries l) bs.
  Proof.
    intros Hnb Eo. unfold make_opposite in Eo. match type of Eo with bind (guard ?u _) _ = _ => destruct u; [|discriminate] end. cbn [guard bind] in Eo.
    match type of Eo with bind (guard ?u _) _ = _ => destruct u; [|discriminate] end. cbn [guard bind] in Eo. match type of Eo with bind (guard ?u _) _ = _ => destruct u; [|discriminate] end. cbn [guard bind] in Eo.
    destruct (groups_len dim factory fnodes face_coords groups kinds fags vs r Hm bvs bgs to Hr) as (Hlen & _). rewrite Hlen in Eo.
    match type of Eo with bind ?u _ = _ => destruct u as [out|] eqn:Ef; [|discriminate] end. cbn [bind] in Eo. injection Eo as <-. cbn [cn_from cn_to cn_groups].
    assert (HP : padds (length groups) (fun out => foldM (fun out i_src =>
        sg <- get groups i_src ;; sd <- get (cn_from c) i_src ;; tbl <- el_lookup c sg (dg_nel sd) i_src ;;
        foldM (fun out i_tgt => l <- get fags i_tgt ;; tg <- get groups i_tgt ;;
            foldM (fun out b => match b with
                | Interior _ j es aff => if j =? i_src then
                      foldM (fun out f => bs <- opposite_batches unit_nodes select_nodes app close gauss_newton nodes_close dim0 c coords tbl i_src i_tgt es aff f ;; old <- get out i_tgt ;; put out i_tgt (old ++ bs)) (seq 0 (nfaces tg)) out
                    else Ok out
                | _ => Ok out end) l out) (seq 0 (length groups)) out) (seq 0 (length groups)) out)
      (fun G => forall i, good i (flat_map (fun i_src => flat_map (fun i_tgt => lvl_t i_src i_tgt i) (seq 0 (length groups))) (seq 0 (length groups))) (G i))).
    { apply padds_good. intros i_src _. apply padds_bind. intros sg Esg. apply get_ok in Esg. apply padds_bind. intros sd Esd. apply get_ok in Esd.
      assert (dg_nel sd = nelements sg) as ->.
      { cbn [cn_from] in Esd. unfold vol_groups in Esd. rewrite nth_error_map in Esd. rewrite nth_combine, Esg in Esd. destruct (nth_error kinds i_src) as [k0|]; [|discriminate]. injection Esd as <-. reflexivity. }
      apply padds_bind. intros tbl Etbl. destruct (table_ok dim factory fnodes face_coords groups kinds fags vs r Hm Honce bvs bgs to Hr i_src sg Esg) as (tbl' & Etbl' & Htbl). assert (tbl' = tbl) by congruence. subst tbl'.
      apply padds_good. intros i_tgt _. apply padds_bind. intros l El. apply padds_bind. intros tg Etg. apply get_ok in El, Etg.
      unfold lvl_t. rewrite El, Etg. apply padds_good. intros b Hb. destruct b as [ig j es m| |].
      2-3: eapply padds_weaken; [apply padds_none|]; intros G HG i; rewrite HG; cbn [lvl_b]; apply good_nil.
      cbn [lvl_b]. destruct (j =? i_src) eqn:Ej; [|eapply padds_weaken; [apply padds_none|]; intros G HG i; rewrite HG; apply good_nil].
      apply Nat.eqb_eq in Ej. subst j. assert (ig = i_tgt) by exact (rb_own _ _ _ _ _ Hm i_tgt l _ El Hb). subst ig.
      apply padds_good. intros f _. eapply padds_weaken; [apply padds_put|]. intros G (bs & Ebs & HG) i. rewrite HG. unfold lvl_f. destruct (Nat.eqb_spec i i_tgt) as [->|_]; [|apply good_nil].
      destruct (opposite_part i_src i_tgt l es m f tbl bs El Hb (fun e f t H => proj1 (proj1 (Htbl e f t)) H) Ebs) as (H1 & H2 & H3). split; [|split; [exact H2|]].
      - rewrite H1, map_map. reflexivity.
      - intros b t s Hb' Hts. destruct (H3 b t s Hb' Hts) as (e & f0 & e' & f0' & Hbg & Hen & Hf1 & Hf2 & Hn). exists m, e, f0, e', f0'. rewrite Hbg. split; [exists l, es; auto|auto]. }
    split; [reflexivity|]. split; [reflexivity|]. destruct (HP (repeat [] (length groups)) out) as (G & HG & Hlo & Hn); [apply repeat_length|exact Ef|]. split; [exact Hlo|].
    intros i bs l Hbs Hl. assert (Hi : i < length groups) by (rewrite <- Hlo; apply nth_error_Some; congruence). rewrite Hn in Hbs. rewrite (nth_error_repeat [] Hi) in Hbs. cbn [option_map List.app] in Hbs. injection Hbs as <-.
    eapply good_perm; [|apply HG]. apply levels; auto.
  Qed.

  (** ** Success *)
  Hypothesis Hask : forall a b, interior_adj fags a b -> asked groups fags r a /\ asked groups fags r b.
  Hypothesis Hrefl : forall n, nodes_close n n = true.
  (** The elements of the faces [f] of an interior group with as many faces [f] as the boundary come in the order of the boundary *)
  Hypothesis Hord : forall g grp l g' es m f, nth_error groups g = Some grp -> nth_error fags g = Some l -> In (Interior g g' es m) l ->
    let mine := filter (fun en : fentry => snd (fst en) =? f) es in
    length mine = length (els (group_boundary_faces r grp l) f) -> map (fun en : fentry => fst (fst en)) mine = els (group_boundary_faces r grp l) f.
  Hypothesis Hpo : points_on to coords.
  Hypothesis Hcover : dim0 = false -> matchable app close fags c coords \/ (forall d, In d to -> forall tn sn, length tn = length sn -> exists ns, gauss_newton (dg_kind d) tn sn = Ok ns /\ length ns = length tn).

  Lemma batch_found g grp k f : nth_error groups g = Some grp -> nth_error kinds g = Some k -> f < nfaces grp ->
    batch_for_face (map (rbatch fnodes factory (dt groups fags r false) g k) (seq 0 (nfaces grp))) f = Ok (rbatch fnodes factory (dt groups fags r false) g k f).
  Proof.
    intros _ _ Hf. unfold batch_for_face.
    assert (H : forall n s, filter (fun b : @batch N => match bt_face b with Some f' => f' =? f | None => false end) (map (rbatch fnodes factory (dt groups fags r false) g k) (seq s n)) =
      if (s <=? f) && (f <? s + n) then [rbatch fnodes factory (dt groups fags r false) g k f] else []).
    { induction n as [|n IH]; intros s; cbn [seq map filter]; [destruct (Nat.leb_spec s f), (Nat.ltb_spec f (s + 0)); cbn [andb]; auto; lia|].
      cbn [bt_face rbatch]. rewrite IH. destruct (Nat.eqb_spec s f) as [->|Hn].
      - rewrite (proj2 (Nat.leb_gt (S f) f)) by lia. rewrite (proj2 (Nat.leb_le f f)) by lia. rewrite (proj2 (Nat.ltb_lt f (f + S n))) by lia. reflexivity.
      - destruct (Nat.leb_spec s f), (Nat.leb_spec (S s) f), (Nat.ltb_spec f (s + S n)), (Nat.ltb_spec f (S s + n)); cbn [andb]; auto; lia. }
    rewrite H. rewrite (proj2 (Nat.leb_le 0 f)) by lia. rewrite (proj2 (Nat.ltb_lt f (0 + nfaces grp))) by lia. reflexivity.
  Qed.

  Lemma opposite_total i_src i_tgt sgrp tgrp l es m f tbl : nth_error groups i_src = Some sgrp -> nth_error groups i_tgt = Some tgrp -> nth_error fags i_tgt = Some l -> In (Interior i_tgt i_src es m) l -> f < nfaces tgrp ->
    (forall e f t, lookup tbl (e, f) = Ok t <-> is_face c i_src t (i_src, e, f)) ->
    exists bs, opposite_batches unit_nodes select_nodes app close gauss_newton nodes_close dim0 c coords tbl i_src i_tgt es m f = Ok bs.
  Proof.
    intros Hsg Htg Hl Hin Hf Htbl. unfold opposite_batches.
    destruct (kind_at groups kinds fags vs Hm i_tgt tgrp Htg) as (k & l' & Hk & Hl'). assert (l' = l) by congruence. subst l'.
    pose proof (groups_at dim factory fnodes groups kinds fags r to i_tgt tgrp k Htg Hk) as Hbs. rewrite (proj2 (get_ok _ _ _) Hbs). cbn [bind]. rewrite (batch_found i_tgt tgrp k f Htg Hk Hf). cbn [bind].
    destruct (rt_batches _ _ _ _ _ _ _ _ _ _ _ _ _ Hr i_tgt _ Hbs) as (_ & Hlens). set (vb := rbatch fnodes factory (dt groups fags r false) i_tgt k f) in *.
    assert (Hvbin : In vb (map (rbatch fnodes factory (dt groups fags r false) i_tgt k) (seq 0 (nfaces tgrp)))) by (apply in_map_iff; exists f; split; [reflexivity|apply in_seq; lia]).
    assert (Hlv : length (bt_from vb) = length (bt_to vb)) by (rewrite Forall_forall in Hlens; exact (Hlens vb Hvbin)).
    assert (Hvf : bt_from vb = els (group_boundary_faces r tgrp l) f) by (unfold vb; cbn [bt_from rbatch]; unfold dt; rewrite Htg, Hl; reflexivity).
    assert (Hface : forall e t, In (t, e) (combine (bt_to vb) (bt_from vb)) -> is_face c i_tgt t (i_tgt, e, f)).
    { intros e t Hte. exists (map (rbatch fnodes factory (dt groups fags r false) i_tgt k) (seq 0 (nfaces tgrp))), vb. split; [exact Hbs|]. split; [exact Hvbin|]. split; [reflexivity|]. split; [reflexivity|exact Hte]. }
    pose proof (Hord i_tgt tgrp l i_src es m f Htg Hl Hin) as Ho. cbv zeta in Ho. cbv zeta.
    set (mine := filter (fun en : fentry => snd (fst en) =? f) es) in *.
    assert (Hmine : forall e f0 e' f', In ((e, f0), (e', f')) mine -> f0 = f /\ In ((e, f0), (e', f')) es).
    { intros e f0 e' f' H. unfold mine in H. apply filter_In in H. destruct H as (H1 & H2). apply Nat.eqb_eq in H2. auto. }
    assert (Hadj : forall e f0 e' f', In ((e, f0), (e', f')) mine -> interior_adj fags (i_tgt, e, f) (i_src, e', f')).
    { intros e f0 e' f' H. destruct (Hmine _ _ _ _ H) as (-> & H'). exists l, es, m. auto. }
    clearbody mine vb. destruct mine as [|en0 mine0]; [eauto|]. set (mine := en0 :: mine0) in *. clearbody mine. clear en0 mine0.
    set (adj := map (fun en : fentry => fst (fst en)) mine) in *.
    assert (Hused : exists used, (if length adj =? length (bt_from vb) then Ok (seq 0 (length (bt_from vb)))
                 else sorted <- take (bt_from vb) (argsort (bt_from vb)) ;; take (argsort (bt_from vb)) (map (searchsorted sorted) adj)) = Ok used /\ take (bt_from vb) used = Ok adj).
    { destruct (Nat.eqb_spec (length adj) (length (bt_from vb))) as [Heq|Hne].
      - eexists. split; [reflexivity|]. rewrite take_seq. f_equal. rewrite Hvf. symmetry. apply Ho. rewrite <- Hvf. unfold adj in Heq. now rewrite map_length in Heq.
      - rewrite argsort_take. cbn [bind]. apply sort_find. intros e He. unfold adj in He. apply in_map_iff in He. destruct He as (((e1, f1), (e', f')) & Heq & He). cbn [fst] in Heq. subst e1.
        pose proof (proj1 (Hask _ _ (Hadj _ _ _ _ He))) as Ha. rewrite Hvf. apply In_els. destruct (Hmine _ _ _ _ He) as (-> & _).
        apply (gbf_asked (fun _ => []) (fun _ => tt) groups fags r (rb_own _ _ _ _ _ Hm) i_tgt tgrp l e f Htg Hl). exact Ha. }
    destruct Hused as (used & E1 & E2). rewrite E1. cbn [bind]. rewrite E2. cbn [bind]. unfold list_nat_eqb. destruct (list_eq_dec Nat.eq_dec adj adj) as [_|]; [|congruence]. cbn [guard bind].
    apply take_ok in E2. destruct (take_total (bt_to vb) used) as (tels & E3).
    { apply Forall_forall. intros u Hu. destruct (Forall2_In_l _ _ _ u E2 Hu) as (x & _ & Hx). rewrite <- Hlv. apply nth_error_Some. congruence. }
    rewrite E3. cbn [bind]. apply take_ok in E3.
    destruct (mapM_total (fun en : fentry => lookup tbl (snd en)) mine) as (sels & E4).
    { intros ((e, f0), (e', f')) Hen. exists (bidx i_src e' f'). apply Htbl. apply (bidx_face dim factory fnodes face_coords groups kinds fags vs r Hm bvs bgs to Hr). exact (proj2 (Hask _ _ (Hadj _ _ _ _ Hen))). }
    rewrite E4. cbn [bind]. apply mapM_ok in E4.
    assert (Ht : forall i t, nth_error tels i = Some t -> exists e f0 e' f', nth_error mine i = Some ((e, f0), (e', f')) /\ is_face c i_tgt t (i_tgt, e, f)).
    { intros i t Hi. destruct (Forall2_nth_error_r _ _ _ _ _ E3 Hi) as (u & Hu & Htu). destruct (Forall2_nth_error _ _ _ _ _ E2 Hu) as (e & He & Heu). unfold adj in He. rewrite nth_error_map in He.
      destruct (nth_error mine i) as [((e1, f1), (e', f'))|] eqn:Em; [|discriminate]. cbn [option_map fst] in He. injection He as ->. exists e, f1, e', f'. split; [reflexivity|]. apply Hface. apply nth_combine_In. eauto. }
    assert (Hs : forall i s, nth_error sels i = Some s -> exists e f0 e' f', nth_error mine i = Some ((e, f0), (e', f')) /\ is_face c i_src s (i_src, e', f')).
    { intros i s Hi. destruct (Forall2_nth_error_r _ _ _ _ _ E4 Hi) as (((e1, f1), (e', f')) & Hen & He). exists e1, f1, e', f'. split; [exact Hen|]. apply Htbl. exact He. }
    assert (Htls : length tels = length sels).
    { rewrite <- (Forall2_length' _ _ _ E3), (Forall2_length' _ _ _ E2). unfold adj. rewrite map_length. exact (Forall2_length' _ _ _ E4). }
    assert (Hcrd : forall g grp, nth_error groups g = Some grp -> exists d rows, nth_error to g = Some d /\ nth_error coords g = Some rows /\ length rows = dg_nel d).
    { intros g grp Hg. destruct (groups_len dim factory fnodes face_coords groups kinds fags vs r Hm bvs bgs to Hr) as (_ & Hlt & _). destruct (nth_exists to g) as (d & Hd); [rewrite Hlt; apply nth_error_Some; congruence|].
      destruct (Forall2_nth_error _ _ _ _ _ Hpo Hd) as (rows & Hrows & H & _). eauto. }
    destruct (Hcrd i_tgt tgrp Htg) as (td & tc & Htd & Htc & Hltc). destruct (Hcrd i_src sgrp Hsg) as (sd & sc & Hsd & Hsc & Hlsc).
    apply (cross_total unit_nodes select_nodes app close gauss_newton nodes_close dim0 _ _ _ _ _ _ _ _ _ tc sc sd Hrefl Htls Hsd Htc Hsc).
    - apply Forall_forall. intros t Hin'. apply In_nth_error in Hin'. destruct Hin' as (i & Hi). destruct (Ht i t Hi) as (e & f0 & e' & f' & _ & H). destruct (face_point _ _ _ _ _ Hpo H) as (d & ps & Hd & Hlt & _). assert (d = td) by congruence. subst d. lia.
    - apply Forall_forall. intros s Hin'. apply In_nth_error in Hin'. destruct Hin' as (i & Hi). destruct (Hs i s Hi) as (e & f0 & e' & f' & _ & H). destruct (face_point _ _ _ _ _ Hpo H) as (d & ps & Hd & Hlt & _). assert (d = sd) by congruence. subst d. lia.
    - intros Hd0. destruct (Hcover Hd0) as [Hma|Hgt]; [left|right; intros tn sn; apply Hgt; eapply nth_error_In; eauto].
      intros t s Hts. apply nth_combine_In in Hts. destruct Hts as (i & Hti & Hsi). destruct (Ht i t Hti) as (e & f0 & e' & f' & Hen & H1). destruct (Hs i s Hsi) as (e1 & f1 & e1' & f1' & Hen' & H2). rewrite Hen in Hen'. injection Hen' as <- <- <- <-.
      destruct (face_point _ _ _ _ _ Hpo H1) as (d & ps & _ & _ & Hps & _). destruct (face_point _ _ _ _ _ Hpo H2) as (d' & qs & _ & _ & Hqs & _).
      assert (Hval : forall g t ps tc, nth_error coords g = Some tc -> value coords g t = Some ps -> nth_error tc t = Some ps) by (intros g0 t0 ps0 tc0 H H'; unfold value in H'; now rewrite H in H').
      exists ps, qs. split; [eapply Hval; eauto|]. split; [eapply Hval; eauto|]. rewrite map_app_none. destruct (Hmine _ _ _ _ (nth_error_In _ _ Hen)) as (-> & Hen2).
      apply (Hma i_tgt i_src m e f e' f' t s ps qs); auto. exists l, es. auto.
  Qed.

  Lemma opposite_succeeds : exists o, opposite = Ok o.
  Proof.
    destruct (groups_len dim factory fnodes face_coords groups kinds fags vs r Hm bvs bgs to Hr) as (Hlen & Hlt & Hlf). unfold make_opposite.
    match goal with |- exists o, bind (guard ?u _) _ = _ => assert (Eg : u = true) end.
    { apply forallb_forall. intros (g, bs) Hgb. apply In_enumerate in Hgb. cbn [fst snd]. apply forallb_forall. intros b Hb.
      destruct (rt_nodes _ _ _ _ _ _ _ _ _ _ _ _ _ Hr g bs b Hgb Hb) as (grp & k & f & _ & _ & _ & Hbf & _ & H). cbn [bgroup] in H. rewrite <- H, Nat.eqb_refl, Hbf. reflexivity. }
    rewrite Eg. cbn [guard bind]. clear Eg. rewrite Hlen, Hlf. cbn [cn_to]. rewrite Hlt, Nat.eqb_refl. cbn [guard bind].
    match goal with |- exists o, bind ?u _ = _ => assert (Hf : exists out, u = Ok out) end; [|destruct Hf as (out & ->); cbn [bind]; eauto].
    assert (HT : tadds (length groups) (fun out => foldM (fun out i_src =>
        sg <- get groups i_src ;; sd <- get (cn_from c) i_src ;; tbl <- el_lookup c sg (dg_nel sd) i_src ;;
        foldM (fun out i_tgt => l <- get fags i_tgt ;; tg <- get groups i_tgt ;;
            foldM (fun out b => match b with
                | Interior _ j es aff => if j =? i_src then
                      foldM (fun out f => bs <- opposite_batches unit_nodes select_nodes app close gauss_newton nodes_close dim0 c coords tbl i_src i_tgt es aff f ;; old <- get out i_tgt ;; put out i_tgt (old ++ bs)) (seq 0 (nfaces tg)) out
                    else Ok out
                | _ => Ok out end) l out) (seq 0 (length groups)) out) (seq 0 (length groups)) out)).
    { apply tadds_foldM. intros i_src Hs. apply in_seq in Hs. destruct (nth_exists groups i_src) as (sg & Hsg); [lia|]. apply tadds_bind. exists sg. split; [now apply get_ok|].
      destruct (kind_at groups kinds fags vs Hm i_src sg Hsg) as (sk & sl & Hsk & _). apply tadds_bind. exists (mk_dgroup (nelements sg) (dim sk) sk). split.
      { apply get_ok. cbn [cn_from]. unfold vol_groups. rewrite nth_error_map, nth_combine, Hsg, Hsk. reflexivity. }
      cbn [dg_nel]. destruct (table_ok dim factory fnodes face_coords groups kinds fags vs r Hm Honce bvs bgs to Hr i_src sg Hsg) as (tbl & Etbl & Htbl). apply tadds_bind. exists tbl. split; [exact Etbl|].
      apply tadds_foldM. intros i_tgt Ht. apply in_seq in Ht. destruct (nth_exists groups i_tgt) as (tg & Htg); [lia|]. destruct (kind_at groups kinds fags vs Hm i_tgt tg Htg) as (_ & tl & _ & Htl).
      apply tadds_bind. exists tl. split; [now apply get_ok|]. apply tadds_bind. exists tg. split; [now apply get_ok|]. apply tadds_foldM. intros b Hb.
      destruct b as [ig j es m| |]; try (intros out Hl; eauto). destruct (j =? i_src) eqn:Ej; [|eauto]. apply Nat.eqb_eq in Ej. subst j.
      assert (ig = i_tgt) by exact (rb_own _ _ _ _ _ Hm i_tgt tl _ Htl Hb). subst ig. revert out Hl. change (tadds (length groups) (fun out => foldM (fun out f => bs <- opposite_batches unit_nodes select_nodes app close gauss_newton nodes_close dim0 c coords tbl i_src i_tgt es m f ;; old <- get out i_tgt ;; put out i_tgt (old ++ bs)) (seq 0 (nfaces tg)) out)).
      apply tadds_foldM. intros f Hf. apply in_seq in Hf. apply tadds_put; [lia|].
      apply (opposite_total i_src i_tgt sg tg tl es m f tbl Hsg Htg Htl Hb); [lia|]. intros e f0 t. exact (proj1 (Htbl e f0 t)). }
    destruct (HT (repeat [] (length groups)) (repeat_length _ _)) as (out & E1 & _). exists out. exact E1.
  Qed.
End Opp.
