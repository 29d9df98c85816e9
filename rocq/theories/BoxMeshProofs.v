(** * BoxMeshProofs: faces and tags of box meshes, by coordinates *)
From Coq Require Import String Ascii List Arith Bool ZArith Lia Permutation Ring.
From Verif Require Import Np NpFacts MeshModel MeshSpec MeshProofs FacialProofs MeshStateModel MeshProps Lin Ord RestrProofs BoxModel BoxSpec BoxIndexProofs BoxConfProofs BoxTagProofs BoxProofs.
Import ListNotations.

Section Mono.
  Variable R : ocring.
  Variable half : R.
  Add Ring Rboxm : (rth R).
  Local Open Scope cring_scope.
  Hypothesis Hhalf : half + half = 1.

  Lemma olt_trans' (a b c : R) : a <? b = true -> b <? c = true -> a <? c = true.
  Proof. intros H1 H2. eapply olt_le_trans; [exact H1|]. now apply olt_nle. Qed.
  Lemma olt_diff (a b : R) : a <? b = true <-> 0 <? b - a = true.
  Proof.
    rewrite !olt_iff. rewrite <- !not_true_iff_false. rewrite (ole_sub R b a), (ole_sub R (b - a) 0). replace (0 - (b - a)) with (a - b) by ring. reflexivity.
  Qed.
  Lemma olt_double (y : R) : 0 <? y + y = true -> 0 <? y = true.
  Proof.
    rewrite !olt_iff, <- !not_true_iff_false. intros H Hy. apply H. pose proof (ole_add2 R _ _ _ _ Hy Hy) as H2. replace (0 + 0) with (@r0 R) in H2 by ring. exact H2.
  Qed.
  Lemma half_between (a b : R) : a <? b = true -> a <? half * (a + b) = true /\ half * (a + b) <? b = true.
  Proof.
    intros H. assert (Hy : 0 <? half * (b - a) = true). { apply olt_double. replace (half * (b - a) + half * (b - a)) with ((half + half) * (b - a)) by ring. rewrite Hhalf. replace (1 * (b - a)) with (b - a) by ring. now apply (proj1 (olt_diff a b)). }
    split; apply (proj2 (olt_diff _ _)).
    - replace (half * (a + b) - a) with (half * (b - a) + ((half + half) * a - a)) by ring. rewrite Hhalf. replace (half * (b - a) + (1 * a - a)) with (half * (b - a)) by ring. exact Hy.
    - replace (b - half * (a + b)) with (half * (b - a) + (b - (half + half) * b)) by ring. rewrite Hhalf. replace (half * (b - a) + (b - 1 * b)) with (half * (b - a)) by ring. exact Hy.
  Qed.

  Notation coord := (coord R half).
  Lemma coord_step ax j x y : increasing R ax -> coord ax j = Some x -> coord ax (S j) = Some y -> x <? y = true.
  Proof.
    intros Hinc. destruct (Nat.Even_or_Odd j) as [(i & ->)|(i & ->)].
    - rewrite coord_even. intros Hx. unfold BoxProofs.coord. rewrite even_dbl1, Nat.div2_succ_double, Hx. destruct (nth_error ax (S i)) as [b|] eqn:Hb; [|discriminate]. intros H. injection H as <-. apply half_between. eapply Hinc; eauto.
    - replace (2 * i + 1)%nat with (S (2 * i)) by lia. unfold BoxProofs.coord at 1. rewrite even_dbl1, Nat.div2_succ_double. destruct (nth_error ax i) as [a|] eqn:Ha; [|discriminate]. destruct (nth_error ax (S i)) as [b|] eqn:Hb; [|discriminate].
      intros H. injection H as <-. replace (S (S (2 * i))) with (2 * S i)%nat by lia. rewrite coord_even, Hb. intros H. injection H as <-. apply half_between. eapply Hinc; eauto.
  Qed.
  Lemma coord_bound ax j x : coord ax j = Some x -> (ax <> [] /\ j <= 2 * (length ax - 1))%nat.
  Proof.
    destruct (Nat.Even_or_Odd j) as [(i & ->)|(i & ->)].
    - rewrite coord_even. intros H. split; [destruct ax; [destruct i; discriminate|discriminate]|]. assert (i < length ax)%nat by (apply nth_error_Some; congruence). lia.
    - replace (2 * i + 1)%nat with (S (2 * i)) by lia. unfold BoxProofs.coord. rewrite even_dbl1, Nat.div2_succ_double. destruct (nth_error ax i) as [a|] eqn:Ha; [|discriminate]. destruct (nth_error ax (S i)) as [b|] eqn:Hb; [|discriminate].
      intros _. split; [destruct ax; [destruct i; discriminate|discriminate]|]. assert (S i < length ax)%nat by (apply nth_error_Some; congruence). lia.
  Qed.
  Lemma coord_lt ax i j x y : increasing R ax -> (i < j)%nat -> coord ax i = Some x -> coord ax j = Some y -> x <? y = true.
  Proof.
    intros Hinc Hij Hx. revert y. induction Hij as [|j Hij IH]; intros y Hy; [eapply coord_step; eauto|].
    destruct (coord_bound _ _ _ Hy) as (Hne & Hb). destruct (coord_exists R half ax j Hne) as (z & Hz); [lia|]. eapply olt_trans'; [exact (IH _ Hz)|]. eapply coord_step; eauto.
  Qed.
  Lemma coord_inj ax i j x : increasing R ax -> coord ax i = Some x -> coord ax j = Some x -> i = j.
  Proof.
    intros Hinc Hi Hj. destruct (Nat.lt_trichotomy i j) as [H|[H|H]]; [|exact H|]; exfalso.
    - pose proof (coord_lt _ _ _ _ _ Hinc H Hi Hj) as Hl. rewrite olt_irrefl in Hl. discriminate.
    - pose proof (coord_lt _ _ _ _ _ Hinc H Hj Hi) as Hl. rewrite olt_irrefl in Hl. discriminate.
  Qed.

  Lemma at_key_nth axes k p a ax : at_key R half axes k p -> nth_error axes a = Some ax -> exists j x, nth_error k a = Some j /\ nth_error p a = Some x /\ coord ax j = Some x.
  Proof.
    intros (Hl & HF) Ha. destruct (nth_exists k a) as (j & Hj); [rewrite Hl; apply nth_error_Some; congruence|].
    assert (Hc : nth_error (combine axes k) a = Some (ax, j)). { clear -Ha Hj. revert k a Ha Hj. induction axes as [|x axes IH]; intros [|y k] [|a] Ha Hj; cbn in *; try discriminate; [congruence|now apply IH]. }
    destruct (Forall2_nth_error _ _ _ _ _ HF Hc) as (x & Hx & Hco). exists j, x. auto.
  Qed.

  Lemma on_side_iff mid axes verts vs s : good_axes R axes ->
    Forall2 (at_key R half axes) (vkeys mid (map (@length R) axes) (pred_shape (map (@length R) axes))) verts ->
    (forall v, In v vs -> exists k, nth_error (vkeys mid (map (@length R) axes) (pred_shape (map (@length R) axes))) v = Some k) ->
    (on_box_side R axes verts vs s <-> vs_on mid (map (@length R) axes) s vs).
  Proof.
    intros Hax HF Hvs. unfold on_box_side, vs_on, side_coord.
    assert (Hend : forall ax, nth_error axes (snd s) = Some ax -> (2 <= length ax)%nat /\ increasing R ax) by (intros ax Hin; exact (proj1 (Forall_forall _ _) Hax ax (nth_error_In _ _ Hin))).
    assert (Hco : forall ax, coord ax (if fst s then 2 * (length ax - 1) else 0)%nat = nth_error ax (if fst s then length ax - 1 else 0)%nat).
    { intros ax. destruct (fst s); [apply coord_even|exact (coord_even R half ax 0)]. }
    split.
    - intros (x & (ax & Hs & Hx) & H). destruct (Hend ax Hs) as (_ & Hinc). exists (length ax - 1)%nat. split; [rewrite !nth_error_map, Hs; reflexivity|].
      intros v Hv. destruct (H v Hv) as (p & Hp & Hpx). destruct (Forall2_nth_error_r _ _ _ _ _ HF Hp) as (k & Hk & Hat). exists k. split; [exact Hk|].
      destruct (at_key_nth _ _ _ _ _ Hat Hs) as (j & x' & Hj & Hx' & Hc). assert (x' = x) by congruence. subst x'. rewrite Hj. f_equal. eapply coord_inj; [exact Hinc|exact Hc|]. rewrite Hco. exact Hx.
    - intros (m & Hm & H). rewrite !nth_error_map in Hm. destruct (nth_error axes (snd s)) as [ax|] eqn:Hs; [|discriminate]. cbn [option_map] in Hm. injection Hm as <-. destruct (Hend ax eq_refl) as (H2 & _).
      destruct (nth_exists ax (if fst s then length ax - 1 else 0)%nat) as (x & Hx); [destruct (fst s); lia|]. exists x. split; [exists ax; auto|].
      intros v Hv. destruct (H v Hv) as (k & Hk & Hka). destruct (Forall2_nth_error _ _ _ _ _ HF Hk) as (p & Hp & Hat). exists p. split; [exact Hp|].
      destruct (at_key_nth _ _ _ _ _ Hat Hs) as (j & x' & Hj & Hx' & Hc). rewrite Hx'. rewrite Hka in Hj. injection Hj as <-. rewrite Hco in Hc. congruence.
  Qed.
End Mono.

Section BoxMesh.
  Variable R : ocring.
  Variable half : R.
  Hypothesis Hhalf : (half + half = 1)%cr.
  Context {E A : Type}.
  Variable el_nodes : list (list R) -> E.
  Variable aff_id : A.
  Variable tag_order : list btag -> list btag.
  Hypothesis Htag_order : forall l t, In t (tag_order l) <-> In t l.
  Variable ptag : bool -> nat -> btag.

  Lemma in_one {X} (g : X) i x : nth_error [g] i = Some x -> i = 0 /\ x = g.
  Proof. destruct i as [|[|]]; cbn; intros H; [|discriminate|discriminate]. injection H as <-. auto. Qed.

  Lemma box_mesh_ok axes order periodic cls fvi dict0 dict mt :
    box_kind (length axes) cls mt -> good_axes R axes -> enumerates fvi (facets_of (length axes) (is_tensor cls)) -> 1 <= order ->
    periodic_tags ptag (length axes) periodic (match dict0 with None => [] | Some d => d end) = Ok dict ->
    (forall t fs f, In (t, fs) dict -> In f fs -> exists s, f = side_name (fst s) (snd s) /\ snd s < length axes) ->
    (forall t fs, In (t, fs) dict -> ~ system_tag t) ->
    exists verts rows pts fags, let groups := [mk_egroup (Some rows) (map el_nodes pts) fvi] in
      box_mesh R half el_nodes aff_id tag_order ptag axes order periodic cls fvi dict0 mt = Ok (mk_mesh groups (Some verts) (Some true) Pending (Available fags) 0 0 0, dict) /\
      box_elements R half axes cls mt <> Err ValueError /\
      mapM (take verts) rows = Ok pts /\
      rows_spec (mid_of mt) (map (@length R) axes) (table_of (length axes) cls mt) rows /\
      Forall2 (at_key R half axes) (vkeys (mid_of mt) (map (@length R) axes) (pred_shape (map (@length R) axes))) verts /\
      has_rows groups /\ faces_wf groups /\ at_most_two groups /\
      (forall a, boundary_face groups a <-> exists s, face_on R axes verts groups a s) /\
      (dict = [] -> compute_facial_adjacency aff_id tag_order None groups = Ok fags) /\
      (dict <> [] -> exists m, compute_facial_adjacency aff_id tag_order (Some m) groups = Ok fags /\ keys_distinct m /\ (forall k ts t, In (k, ts) m -> In t ts -> ~ system_tag t) /\
        forall a t, tag_assigned groups m a t <-> exists s fs, face_on R axes verts groups a s /\ In (t, fs) dict /\ In (side_name (fst s) (snd s)) fs).
  Proof.
    intros Hk Hax Hfvi Hord Hdict Hnames Hsys. set (shape := map (@length R) axes). pose proof (kind_checks _ _ _ Hk) as (Hconf & Hside & Hok & _ & _).
    destruct (box_elements_ok R half axes cls mt Hk) as (verts & rows & elems & Hbe & Hrs & Hat & Hss). { eapply Forall_impl; [|exact Hax]. intros ax (H & _). exact H. }
    fold shape in Hrs, Hat, Hss. assert (Hlen : length shape = length axes) by (unfold shape; apply map_length). assert (Hsne : shape <> []). { intros Hs. rewrite Hs in Hlen. cbn in Hlen. inversion Hk; lia. }
    assert (Hrange : forall e row v, nth_error rows e = Some row -> In v row -> exists k, nth_error (vkeys (mid_of mt) shape (pred_shape shape)) v = Some k).
    { intros e row v Hr Hv. destruct (rs_inv _ _ _ _ _ _ Hrs Hr) as (c & t & s & cs & _ & _ & _ & HF). destruct (Forall2_In_r _ _ _ _ HF Hv) as (cn & _ & H). eauto. }
    destruct (mapM_total (take verts) rows) as (pts & Hpts). { intros row Hr. apply In_nth_error in Hr as (e & Hr). apply take_total. apply Forall_forall. intros v Hv. destruct (Hrange e row v Hr Hv) as (k & Hkv). rewrite <- (Forall2_length' _ _ _ Hat). apply nth_error_Some. congruence. }
    set (groups := [mk_egroup (Some rows) (map el_nodes pts) fvi]).
    assert (Hnodes : length (map el_nodes pts) = length rows). { rewrite map_length. apply mapM_ok, Forall2_length' in Hpts. lia. }
    assert (Hconf' : conf_check (length shape) (nv_of (length axes) cls) (table_of (length axes) cls mt) (facets_of (length axes) (is_tensor cls)) = true) by (rewrite Hlen; exact Hconf). clear Hconf. rename Hconf' into Hconf.
    assert (Hside' : side_check (table_of (length axes) cls mt) (facets_of (length axes) (is_tensor cls)) (length shape) (offsets_of (length axes) cls mt) = true) by (rewrite Hlen; exact Hside). clear Hside. rename Hside' into Hside.
    assert (Hhas : has_rows groups). { constructor; [|constructor]. exists rows. split; [reflexivity|]. cbn [nelements eg_nodes]. unfold nelements. cbn [eg_nodes]. congruence. }
    assert (Hwf : faces_wf groups). { intros g grp e row ref k Hg (g' & vi & Hg' & Hvi & He & Hrow) Href Hin. apply in_one in Hg as (-> & ->). apply in_one in Hg' as (_ & ->). cbn [eg_vi eg_fvi] in *. injection Hvi as <-.
      apply In_nth_error in Href as (f & Hf). destruct (row_facts (mid_of mt) shape _ _ _ fvi rows (map el_nodes pts) Hrs Hconf Hfvi Hnodes e row f ref Hrow Hf) as (vs & Hvs & _). apply take_ok in Hvs. destruct (Forall2_In_l _ _ _ _ Hvs Hin) as (v & _ & Hv). cbn beta in Hv. apply nth_error_Some. congruence. }
    assert (Hfne : exists g, In g groups /\ eg_fvi g <> []). { eexists. split; [now left|]. cbn [eg_fvi]. intros ->. destruct Hfvi as (F1 & HP & HF). inversion HF; subst. apply Permutation_length in HP. inversion Hk as [H1 H2|H1 H2|H1 H2|H1 H2|H1 H2|H1 H2|H1 H2]; rewrite <- H1, <- ?H2 in HP; subst; cbn in HP; discriminate. }
    pose proof (box_at_most_two (mid_of mt) shape _ _ _ fvi rows (map el_nodes pts) Hsne Hrs Hconf Hfvi Hnodes) as Htwo. fold groups in Htwo.
    assert (Hkeys : forall a vs, face_verts groups a vs -> forall v, In v vs -> exists k, nth_error (vkeys (mid_of mt) shape (pred_shape shape)) v = Some k).
    { intros ((g, e), f) vs (grp & row & ref & Hg & (g' & vi & Hg' & Hvi & He & Hrow) & Href & HF) v Hv. apply in_one in Hg as (-> & ->). apply in_one in Hg' as (_ & ->). cbn [eg_vi] in Hvi. injection Hvi as <-. destruct (Forall2_In_r _ _ _ _ HF Hv) as (k & _ & Hk'). eapply Hrange; [exact Hrow|]. eapply nth_error_In. exact Hk'. }
    assert (Hon : forall a s, face_on R axes verts groups a s <-> exists vs, face_verts groups a vs /\ vs_on (mid_of mt) shape s vs).
    { intros a s. unfold face_on. split; intros (vs & Hfv & H); exists vs; (split; [exact Hfv|]); apply (on_side_iff R half Hhalf (mid_of mt) axes verts vs s Hax Hat (Hkeys a vs Hfv)); exact H. }
    assert (Hbd : forall a, boundary_face groups a <-> exists s, face_on R axes verts groups a s).
    { intros ((g, e), f). split.
      - intros Hb. assert (g = 0) by (destruct Hb as ((grp & Hg & _) & _); now apply in_one in Hg). subst g. pose proof (proj1 Hb) as Hv. apply (is_face_valid (mid_of mt) shape (table_of (length axes) cls mt) _ fvi rows (map el_nodes pts) Hrs Hfvi Hnodes) in Hv. destruct Hv as (t & c & f0 & P & Hf).
        destruct (is_face_verts (mid_of mt) shape _ _ _ fvi rows (map el_nodes pts) Hsne Hrs Hconf Hfvi Hnodes e f t c f0 P Hf) as (vs & Hfv & Hl).
        pose proof (proj1 (box_boundary (mid_of mt) shape _ _ _ fvi rows (map el_nodes pts) Hsne Hrs Hconf Hfvi Hnodes e f t c f0 P Hf) Hb) as (a & m & Hm & Hs).
        destruct Hs as [Hs|Hs]; [exists (false, a)|exists (true, a)]; apply Hon; exists vs; (split; [exact Hfv|]); apply (vs_on_place _ _ _ _ _ _ Hl); exists m; auto.
      - intros (s & Hs). apply Hon in Hs. destruct Hs as (vs & Hfv & Hv). assert (g = 0) by (destruct Hfv as (grp & row & ref & Hg & _); now apply in_one in Hg). subst g.
        destruct (face_verts_lists (mid_of mt) shape _ _ _ fvi rows (map el_nodes pts) Hsne Hrs Hconf Hfvi Hnodes e f vs Hfv) as (t & c & f0 & P & Hf & Hl).
        apply (vs_on_place _ _ _ _ _ _ Hl) in Hv. destruct Hv as (m & Hm & Hv). apply (box_boundary (mid_of mt) shape _ _ _ fvi rows (map el_nodes pts) Hsne Hrs Hconf Hfvi Hnodes e f t c f0 P Hf). exists (snd s), m. split; [exact Hm|]. destruct (fst s); auto. }
    assert (Hpre : forall k, (fags <- match dict with [] => compute_facial_adjacency aff_id tag_order None groups | _ => tags <- box_face_to_tags (length axes) dict ;; tuples <- vert_tuples shape (length verts) ;; m <- face_tags shape rows fvi tuples elems tags ;; compute_facial_adjacency aff_id tag_order (Some m) groups end ;; Ok (mk_mesh groups (Some verts) (Some true) Pending (Available fags) 0 0 0, dict)) = k ->
      box_mesh R half el_nodes aff_id tag_order ptag axes order periodic cls fvi dict0 mt = k).
    { intros k <-. unfold box_mesh. rewrite Hbe. cbn [bind]. assert (Hg : (match cls with GSimplex => 1 <=? order | _ => true end) = true) by (destruct cls; try reflexivity; now apply Nat.leb_le). rewrite Hg. cbn [guard bind]. rewrite Hpts. cbn [bind]. rewrite Hdict. cbn [bind]. reflexivity. }
    destruct dict as [|td dict'] eqn:Ed.
    - destruct (C04_untagged_boundary aff_id tag_order groups Htag_order Hhas Hwf Hfne Htwo) as (fags & Hfags & _). exists verts, rows, pts, fags. cbv zeta. fold groups.
      split; [apply Hpre; rewrite Hfags; reflexivity|]. split; [rewrite Hbe; discriminate|]. split; [exact Hpts|]. split; [exact Hrs|]. split; [exact Hat|]. split; [exact Hhas|]. split; [exact Hwf|]. split; [exact Htwo|]. split; [exact Hbd|]. split; [intros _; exact Hfags|intros H; now exfalso].
    - rewrite <- Ed in *.
      assert (Hparse : forall t fs f, In (t, fs) dict -> In f fs -> exists s, parse_side (length axes) f = Ok s).
      { intros t fs f Hin Hf. destruct (Hnames t fs f Hin Hf) as (s & -> & Hs). exists s. apply parse_side_ok. split; [reflexivity|]. split; [exact Hs|]. inversion Hk; lia. }
      destruct (box_face_to_tags_ok (length axes) dict Hparse) as (tags & Htags & Htagged).
      destruct (vert_tuples_ok (mid_of mt) shape Hsne) as (tuples & Htup & Htupok). rewrite (Forall2_length' _ _ _ Hat) in Htup.
      destruct (face_tags_ok (mid_of mt) shape _ _ _ fvi rows (map el_nodes pts) Hsne Hrs Hconf Hfvi Hnodes _ Hside elems Hss tuples Htupok tags) as (m & Hm & Hdist & Hfrom & Hassign). fold groups in Hassign.
      assert (Hmsys : forall k ts t, In (k, ts) m -> In t ts -> ~ system_tag t). { intros k ts t Hin Ht. destruct (Hfrom _ _ _ Hin Ht) as (s & Hs). apply Htagged in Hs. destruct Hs as (fs & f & Hd & _). eapply Hsys; eauto. }
      assert (Hasg : forall a t, tag_assigned groups m a t <-> exists s fs, face_on R axes verts groups a s /\ In (t, fs) dict /\ In (side_name (fst s) (snd s)) fs).
      { intros a t. rewrite Hassign. split.
        - intros (s & vs & Hfv & Hv & Ht). apply Htagged in Ht. destruct Ht as (fs & f & Hd & Hf & Hp). apply parse_side_ok in Hp. destruct Hp as (-> & _). exists s, fs. split; [apply Hon; eauto|auto].
        - intros (s & fs & Hs & Hd & Hf). apply Hon in Hs. destruct Hs as (vs & Hfv & Hv). exists s, vs. split; [exact Hfv|]. split; [exact Hv|]. apply Htagged. exists fs, (side_name (fst s) (snd s)). split; [exact Hd|]. split; [exact Hf|]. apply parse_side_ok. split; [reflexivity|].
          assert (Hlt : snd s < length axes). { destruct Hv as (mm & Hmm & _). rewrite <- Hlen, <- (map_length (fun n => n - 1) shape). apply nth_error_Some. congruence. } split; [exact Hlt|]. inversion Hk; lia. }
      destruct (C06_boundary_tags aff_id tag_order groups m Htag_order Hhas Hwf Hfne Htwo Hdist Hmsys) as (fags & Hfags & _). exists verts, rows, pts, fags. cbv zeta. fold groups.
      split; [apply Hpre; rewrite Ed; rewrite <- Ed; rewrite Htags; cbn [bind]; rewrite Htup; cbn [bind]; rewrite Hm; cbn [bind]; rewrite Hfags; reflexivity|]. split; [rewrite Hbe; discriminate|]. split; [exact Hpts|]. split; [exact Hrs|]. split; [exact Hat|]. split; [exact Hhas|]. split; [exact Hwf|]. split; [exact Htwo|]. split; [exact Hbd|].
      split; [intros H; rewrite H in Ed; discriminate|]. intros _. exists m. auto.
  Qed.
End BoxMesh.
