(** * BoxTileProofs: the elements of a box mesh tile the box *)
From Coq Require Import List Arith Bool ZArith Lia Permutation Ring.
From Verif Require Import Np NpFacts MeshModel MeshSpec MeshProofs FacialProofs Lin Ord RestrProofs BoxModel BoxSpec BoxIndexProofs BoxConfProofs BoxTagProofs BoxProofs BoxMeshProofs BoxGeomProofs.
Import ListNotations.

Section Tile.
  Variable R : ocring.
  Variable half : R.
  Add Ring Rboxt : (rth R).
  Local Open Scope cring_scope.
  Hypothesis Hhalf : half + half = 1.
  Hypothesis Hpos : forall a b : R, 0 <? a = true -> 0 <? b = true -> 0 <? a * b = true.

  Lemma kind_geom d cls mt : box_kind d cls mt -> cell_geom R half d (is_tensor cls) (table_of d cls mt).
  Proof.
    intros [| | | | | |]; [exact (seg_simplex R half)|exact (seg_tensor R half)|exact (tri_geom R half Hpos)|exact (x_geom R half Hhalf Hpos)|exact (quad_geom R half Hpos)|exact (tet_geom R half Hpos)|exact (hex_geom R half Hpos)].
  Qed.

  (** ** the corners of a cell *)
  Definition at_ (ax : list R) (i : nat) : R := match nth_error ax i with Some x => x | None => 0 end.
  Fixpoint los (axes : list (list R)) (t : list nat) : list R := match axes, t with ax :: axes, i :: t => at_ ax i :: los axes t | _, _ => [] end.
  Fixpoint his (axes : list (list R)) (t : list nat) : list R := match axes, t with ax :: axes, i :: t => at_ ax (S i) :: his axes t | _, _ => [] end.
  Notation cells axes := (ndindex (pred_shape (map (@length R) axes))).

  Lemma at_nth ax i : (i < length ax)%nat -> nth_error ax i = Some (at_ ax i).
  Proof. intros H. unfold at_. destruct (nth_exists ax i H) as (x & ->). reflexivity. Qed.
  Lemma los_length axes t : length t = length axes -> length (los axes t) = length axes.
  Proof. revert t. induction axes as [|ax axes IH]; intros [|i t] H; cbn in *; try lia. f_equal. apply IH. lia. Qed.
  Lemma cell_lt axes t : good_axes R axes -> Forall2 lt t (pred_shape (map (@length R) axes)) -> Forall2 (olt_p R) (los axes t) (his axes t).
  Proof.
    revert t. induction axes as [|ax axes IH]; intros t Hax H; cbn [map] in H; inversion H as [|i n t' s Hi Ht]; subst; cbn [los his]; constructor.
    - apply Forall_inv in Hax as (H2 & Hinc). eapply Hinc; apply at_nth; lia.
    - apply IH; [now apply Forall_inv_tail in Hax|exact Ht].
  Qed.

  Lemma at_key_cpt axes t x p : Forall2 lt t (pred_shape (map (@length R) axes)) -> length x = length axes -> Forall (fun o => (o <= 2)%nat) x -> at_key R half axes (place t x) p -> p = cpt R half (los axes t) (his axes t) x.
  Proof.
    unfold at_key, cpt. intros Ht Hx Ho (_ & HF). revert t x p Ht Hx Ho HF. induction axes as [|ax axes IH]; intros t x p Ht Hx Ho HF; cbn [map] in Ht; inversion Ht as [|i n t' s Hi Ht']; subst; destruct x as [|o x]; cbn in Hx; try discriminate; cbn [place map2 combine] in HF.
    - inversion HF. reflexivity.
    - apply Forall_cons_iff in Ho as (Ho & Hos). unfold place in HF. cbn [map2 combine] in HF. inversion HF as [|aj y l p' Hy HF']; subst. cbn [fst snd] in Hy. cbn [los his combine map2 fst snd]. f_equal; [|apply IH; [exact Ht'|lia|exact Hos|exact HF']].
      destruct o as [|[|[|o]]]; [..|lia].
      + replace (i + (i + 0) + 0)%nat with (2 * i)%nat in Hy by lia. rewrite coord_even, at_nth in Hy by lia. congruence.
      + replace (i + (i + 0) + 1)%nat with (S (2 * i)) in Hy by lia. rewrite (coord_odd R half ax i (at_ ax i) (at_ ax (S i))) in Hy by (apply at_nth; lia). congruence.
      + replace (i + (i + 0) + 2)%nat with (2 * S i)%nat in Hy by lia. rewrite coord_even, at_nth in Hy by lia. congruence.
  Qed.

  (** ** the elements, in order *)
  Lemma coff_ok d mid c : corner_ok d mid c = true -> length (coff d c) = d /\ Forall (fun o => (o <= 2)%nat) (coff d c).
  Proof.
    destruct c as [off|]; cbn [corner_ok coff].
    - intros H. apply andb_true_iff in H as (Hl & Hf). apply Nat.eqb_eq in Hl. unfold dbl. split; [now rewrite map_length|]. apply Forall_forall. intros o Ho. apply in_map_iff in Ho as (b & <- & Hb). rewrite forallb_forall in Hf. specialize (Hf _ Hb). apply Nat.leb_le in Hf. lia.
    - intros _. split; [apply repeat_length|]. apply Forall_forall. intros o Ho. apply repeat_spec in Ho. lia.
  Qed.

  Definition elem_list (axes : list (list R)) (table : list (list corner)) : list (list (list R)) :=
    flat_map (fun t => map (fun cs => cell_pts R half (length axes) (los axes t) (his axes t) cs) table) (cells axes).

  Lemma elem_list_nth axes table c t s cs : nth_error (cells axes) c = Some t -> nth_error table s = Some cs -> nth_error (elem_list axes table) (length table * c + s) = Some (cell_pts R half (length axes) (los axes t) (his axes t) cs).
  Proof.
    intros Ht Hs. unfold elem_list. replace (length table * c + s)%nat with (c * length table + s)%nat by lia.
    rewrite (nth_flat_blocks (fun t => map (fun cs => cell_pts R half (length axes) (los axes t) (his axes t) cs) table) (cells axes) (length table) c s t).
    - now rewrite nth_error_map, Hs.
    - intros x _. apply map_length.
    - exact Ht.
    - apply nth_error_Some. congruence.
  Qed.

  Lemma pts_elem_list axes mid nv table rows verts pts : axes <> [] ->
    table_ok (length axes) mid nv table = true ->
    rows_spec mid (map (@length R) axes) table rows ->
    Forall2 (at_key R half axes) (vkeys mid (map (@length R) axes) (pred_shape (map (@length R) axes))) verts ->
    mapM (take verts) rows = Ok pts -> pts = elem_list axes table.
  Proof.
    intros Hne Hok Hrs Hat Hp. apply mapM_ok in Hp. apply nth_error_ext'. intros e.
    destruct (nth_error rows e) as [row|] eqn:Hr.
    - destruct (Forall2_nth_error _ _ _ _ _ Hp Hr) as (p & Hpe & Htk). rewrite Hpe. destruct (rs_inv _ _ _ _ _ _ Hrs Hr) as (c & t & s & cs & -> & Ht & Hs & HF). rewrite (elem_list_nth axes table c t s cs Ht Hs). f_equal.
      assert (Hcs : forall cn, In cn cs -> corner_ok (length axes) mid cn = true). { intros cn Hcn. unfold table_ok in Hok. rewrite forallb_forall in Hok. specialize (Hok _ (nth_error_In _ _ Hs)). apply andb_true_iff in Hok as (_ & Hok). rewrite forallb_forall in Hok. auto. }
      pose proof (proj1 (In_ndindex _ _) (nth_error_In _ _ Ht)) as Htl. rewrite map_length in HF. apply take_ok in Htk. clear -Htl HF Htk Hat Hcs. revert p Htk. induction HF as [|cn v cs row Hv HF IH]; intros p Htk; inversion Htk as [|v' q row' p' Hq Htk']; subst; [reflexivity|].
      cbn [cell_pts map]. f_equal; [|apply IH; [intros; apply Hcs; now right|exact Htk']].
      destruct (Forall2_nth_error _ _ _ _ _ Hat Hv) as (q' & Hq' & Hk). assert (q' = q) by congruence. subst q'. destruct (coff_ok _ _ _ (Hcs cn (or_introl eq_refl))) as (Hl & Ho). now apply at_key_cpt.
    - assert (Hn : nth_error pts e = None). { apply nth_error_None. rewrite <- (Forall2_length' _ _ _ Hp). now apply nth_error_None. } rewrite Hn. symmetry. apply nth_error_None. apply nth_error_None in Hr. rewrite (rs_length _ _ _ _ Hrs) in Hr. unfold elem_list. rewrite (length_flat_blocks _ _ (length table)) by (intros; apply map_length). rewrite length_ndindex. lia.
  Qed.

  Lemma elem_list_inv axes table e p : nth_error (elem_list axes table) e = Some p ->
    exists c t s cs, e = (length table * c + s)%nat /\ nth_error (cells axes) c = Some t /\ nth_error table s = Some cs /\ p = cell_pts R half (length axes) (los axes t) (his axes t) cs.
  Proof.
    intros H. assert (Hlt : (e < length (cells axes) * length table)%nat). { rewrite <- (length_flat_blocks (fun t => map (fun cs => cell_pts R half (length axes) (los axes t) (his axes t) cs) table) (cells axes) (length table)) by (intros; apply map_length). apply nth_error_Some. fold (elem_list axes table). congruence. }
    assert (Hm : length table <> 0%nat) by (intros E; rewrite E in Hlt; lia). pose proof (Nat.mod_upper_bound e _ Hm) as Hs. pose proof (Nat.div_mod e _ Hm) as Ee.
    destruct (nth_exists (cells axes) (e / length table)) as (t & Ht); [apply Nat.div_lt_upper_bound; lia|]. destruct (nth_exists table (e mod length table)) as (cs & Hcs); [exact Hs|].
    exists (e / length table)%nat, t, (e mod length table)%nat, cs. split; [exact Ee|]. split; [exact Ht|]. split; [exact Hcs|]. rewrite Ee in H. rewrite (elem_list_nth _ _ _ _ _ _ Ht Hcs) in H. congruence.
  Qed.

  (** ** the sum of the measures *)
  Lemma rsum_app (a b : list R) : rsum (a ++ b) = rsum a + rsum b.
  Proof. induction a as [|x a IH]; cbn [app rsum]; [ring|]. rewrite IH. ring. Qed.
  Lemma rsum_flat_map {X} (f : X -> list R) l : rsum (flat_map f l) = rsum (map (fun x => rsum (f x)) l).
  Proof. induction l as [|x l IH]; [reflexivity|]. cbn [flat_map map rsum]. now rewrite rsum_app, IH. Qed.
  Lemma rsum_scale {X} (k : R) (f : X -> R) l : rsum (map (fun x => k * f x) l) = k * rsum (map f l).
  Proof. induction l as [|x l IH]; cbn [map rsum]; [ring|]. rewrite IH. ring. Qed.
  Lemma nmul_as n (x : R) : nmul R n x = nmul R n 1 * x.
  Proof. unfold nmul. induction n as [|n IH]; cbn [repeat rsum]; [ring|]. rewrite IH. ring. Qed.
  Lemma map_flat_map {X Y W} (g : Y -> W) (f : X -> list Y) l : map g (flat_map f l) = flat_map (fun x => map g (f x)) l.
  Proof. induction l as [|x l IH]; [reflexivity|]. cbn [flat_map]. now rewrite map_app, IH. Qed.

  Lemma telescope ax n : rsum (map (fun i => at_ ax (S i) - at_ ax i) (seq 0 n)) = at_ ax n - at_ ax 0.
  Proof. induction n as [|n IH]; [cbn; ring|]. rewrite seq_S, map_app, rsum_app, IH. cbn [map rsum]. cbn [Nat.add]. ring. Qed.

  Lemma product_sum axes : rsum (map (fun t => product R (map2 rsub (his axes t) (los axes t))) (cells axes)) = product R (map (fun ax => at_ ax (length ax - 1) - at_ ax 0) axes).
  Proof.
    induction axes as [|ax axes IH]; [cbn; ring|]. cbn [map ndindex]. rewrite map_flat_map, rsum_flat_map.
    transitivity (rsum (map (fun i => (at_ ax (S i) - at_ ax i) * rsum (map (fun t => product R (map2 rsub (his axes t) (los axes t))) (cells axes))) (seq 0 (length ax - 1)))).
    - f_equal. apply map_ext. intros i. rewrite map_map. rewrite <- rsum_scale. f_equal.
    - rewrite IH. transitivity (rsum (map (fun i => product R (map (fun ax0 => at_ ax0 (length ax0 - 1) - at_ ax0 0) axes) * (at_ ax (S i) - at_ ax i)) (seq 0 (length ax - 1)))).
      + f_equal. apply map_ext. intros i. ring.
      + rewrite rsum_scale, telescope. cbn [product fold_right]. unfold product. ring.
  Qed.

  Lemma measure_sum axes cls mt : box_kind (length axes) cls mt -> good_axes R axes ->
    rsum (map (measure R (is_tensor cls)) (elem_list axes (table_of (length axes) cls mt))) = nmul R (pieces (length axes) (is_tensor cls)) (product R (map (fun ax => at_ ax (length ax - 1) - at_ ax 0) axes)).
  Proof.
    intros Hk Hax. unfold elem_list. rewrite map_flat_map, rsum_flat_map, nmul_as, <- product_sum, <- rsum_scale. f_equal. apply map_ext_in. intros t Ht. apply In_ndindex in Ht. rewrite map_map.
    rewrite (cg_sum _ _ _ _ _ (kind_geom _ _ _ Hk)); [now rewrite nmul_as| |now apply cell_lt]. apply los_length. now rewrite (Forall2_length' _ _ _ Ht), !map_length.
  Qed.

  (** ** every point is in a cell *)
  Lemma find_cell ax u : (2 <= length ax)%nat -> (at_ ax 0 <=? u) = true -> (u <=? at_ ax (length ax - 1)) = true -> exists i, (i < length ax - 1)%nat /\ (at_ ax i <=? u) = true /\ (u <=? at_ ax (S i)) = true.
  Proof.
    intros H2 H0. replace (length ax) with (S (S (length ax - 2))) by lia. cbn [Nat.sub]. assert (Hn : (S (length ax - 2) < length ax)%nat) by lia. revert Hn. generalize (length ax - 2)%nat as n. induction n as [|n IH]; intros Hn Hu.
    - exists 0%nat. repeat split; [lia|exact H0|exact Hu].
    - destruct (ole_total R u (at_ ax (S n))) as [Hl|Hl].
      + destruct IH as (i & Hi & H1 & H3); [lia|exact Hl|]. exists i. repeat split; [lia|exact H1|exact H3].
      + exists (S n). repeat split; [lia|exact Hl|exact Hu].
  Qed.
  Lemma find_cells axes x : good_axes R axes -> in_box R axes x -> exists t, In t (cells axes) /\ in_span R (ole_p R) (los axes t) (his axes t) x.
  Proof.
    intros Hax H. assert (H' : exists t, Forall2 lt t (pred_shape (map (@length R) axes)) /\ in_span R (ole_p R) (los axes t) (his axes t) x); [|destruct H' as (t & Ht & Hs); exists t; split; [now apply In_ndindex|exact Hs]].
    unfold in_span. induction H as [|ax u axes x (a & b & Ha & Hb & Hau & Hub) H IH]; [exists []; repeat constructor|]. apply Forall_cons_iff in Hax as ((H2 & _) & Hax'). destruct (IH Hax') as (t & Ht & Hs1 & Hs2).
    destruct (find_cell ax u H2) as (i & Hi & H1 & H3); [unfold at_; now rewrite Ha|unfold at_; now rewrite Hb|]. exists (i :: t). split; [constructor; assumption|]. cbn [los his]. split; constructor; assumption.
  Qed.

  Lemma at_mono ax i j : increasing R ax -> (i <= j)%nat -> (j < length ax)%nat -> (at_ ax i <=? at_ ax j) = true.
  Proof.
    intros Hinc Hij. induction Hij as [|j Hij IH]; intros Hj; [apply ole_refl|]. eapply ole_trans; [apply IH; lia|]. apply olt_nle. eapply Hinc; apply at_nth; lia.
  Qed.
  Lemma cell_unique axes t t' x : good_axes R axes -> Forall2 lt t (pred_shape (map (@length R) axes)) -> Forall2 lt t' (pred_shape (map (@length R) axes)) ->
    in_span R (olt_p R) (los axes t) (his axes t) x -> in_span R (olt_p R) (los axes t') (his axes t') x -> t = t'.
  Proof.
    intros Hax Ht. revert t' x. remember (pred_shape (map (@length R) axes)) as sh eqn:Es. revert axes Hax Es. induction Ht as [|i n t sh Hi Ht IH]; intros axes Hax Es t' x Ht' (S1 & S2) (S3 & S4); inversion Ht' as [|i' n' t1 sh' Hi' Ht1]; subst; [reflexivity|].
    destruct axes as [|ax axes]; cbn [map] in Es; [discriminate|]. injection Es as En Es. cbn [los his] in S1, S2, S3, S4. inversion S1 as [|? u ? x' A1 B1]; subst. inversion S2 as [|? ? ? ? A2 B2]; subst. inversion S3 as [|? ? ? ? A3 B3]; subst. inversion S4 as [|? ? ? ? A4 B4]; subst.
    apply Forall_cons_iff in Hax as ((H2 & Hinc) & Hax'). f_equal; [|refine (IH axes Hax' eq_refl t1 _ _ (conj B1 B2) (conj B3 B4)); assumption].
    unfold olt_p in *. destruct (Nat.lt_trichotomy i i') as [Hl|[He|Hl]]; [exfalso|exact He|exfalso].
    - pose proof (at_mono ax (S i) i' Hinc ltac:(lia) ltac:(lia)) as Hm. pose proof (olt_trans' R _ _ _ A3 A2) as Hc. apply olt_iff in Hc. congruence.
    - pose proof (at_mono ax (S i') i Hinc ltac:(lia) ltac:(lia)) as Hm. pose proof (olt_trans' R _ _ _ A1 A4) as Hc. apply olt_iff in Hc. congruence.
  Qed.

  Lemma elems_positive axes cls mt p : box_kind (length axes) cls mt -> good_axes R axes -> In p (elem_list axes (table_of (length axes) cls mt)) -> 0 <? measure R (is_tensor cls) p = true.
  Proof.
    intros Hk Hax Hin. apply In_nth_error in Hin as (e & He). destruct (elem_list_inv _ _ _ _ He) as (c & t & s & cs & _ & Ht & Hs & ->). apply nth_error_In, In_ndindex in Ht. apply (cg_meas _ _ _ _ _ (kind_geom _ _ _ Hk)); [|now apply cell_lt|eapply nth_error_In; eauto].
    apply los_length. now rewrite (Forall2_length' _ _ _ Ht), !map_length.
  Qed.
  Lemma elems_cover axes cls mt x : box_kind (length axes) cls mt -> good_axes R axes -> in_box R axes x -> exists p, In p (elem_list axes (table_of (length axes) cls mt)) /\ in_element R (is_tensor cls) p x.
  Proof.
    intros Hk Hax Hx. destruct (find_cells axes x Hax Hx) as (t & Ht & Hsp). pose proof (proj1 (In_ndindex _ _) Ht) as HF. destruct (cg_cover _ _ _ _ _ (kind_geom _ _ _ Hk) (los axes t) (his axes t) x) as (cs & Hcs & Hin).
    - apply los_length. now rewrite (Forall2_length' _ _ _ HF), !map_length.
    - now apply cell_lt.
    - exact Hsp.
    - eexists. split; [|exact Hin]. unfold elem_list. apply in_flat_map. exists t. split; [exact Ht|]. apply in_map_iff. eauto.
  Qed.
  Lemma elems_disjoint axes cls mt x e e' p p' : box_kind (length axes) cls mt -> good_axes R axes -> length x = length axes ->
    nth_error (elem_list axes (table_of (length axes) cls mt)) e = Some p -> nth_error (elem_list axes (table_of (length axes) cls mt)) e' = Some p' ->
    inside_element R (is_tensor cls) p x -> inside_element R (is_tensor cls) p' x -> e = e'.
  Proof.
    intros Hk Hax Hx He He' H H'. pose proof (kind_geom _ _ _ Hk) as G. destruct (elem_list_inv _ _ _ _ He) as (c & t & s & cs & -> & Ht & Hs & ->). destruct (elem_list_inv _ _ _ _ He') as (c' & t' & s' & cs' & -> & Ht' & Hs' & ->).
    pose proof (proj1 (In_ndindex _ _) (nth_error_In _ _ Ht)) as HF. pose proof (proj1 (In_ndindex _ _) (nth_error_In _ _ Ht')) as HF'.
    assert (Hl : length (los axes t) = length axes) by (apply los_length; now rewrite (Forall2_length' _ _ _ HF), !map_length). assert (Hl' : length (los axes t') = length axes) by (apply los_length; now rewrite (Forall2_length' _ _ _ HF'), !map_length).
    assert (t = t'). { eapply (cell_unique axes t t' x Hax HF HF'); [exact (cg_inside _ _ _ _ _ G (los axes t) (his axes t) x cs Hl Hx (cell_lt axes t Hax HF) (nth_error_In _ _ Hs) H)|exact (cg_inside _ _ _ _ _ G (los axes t') (his axes t') x cs' Hl' Hx (cell_lt axes t' Hax HF') (nth_error_In _ _ Hs') H')]. } subst t'.
    assert (c = c'). { refine (proj1 (NoDup_nth_error (cells axes)) (NoDup_ndindex _) c c' _ _); [apply nth_error_Some; congruence|congruence]. } subst c'.
    assert (s = s') by (exact (cg_disjoint _ _ _ _ _ G (los axes t) (his axes t) x s s' cs cs' Hl Hx (cell_lt axes t Hax HF) Hs Hs' H H')). now subst.
  Qed.
  Lemma elems_tensor axes mt p : box_kind (length axes) GTensor mt -> In p (elem_list axes (table_of (length axes) GTensor mt)) ->
    exists t, In t (cells axes) /\ tensor_box R (los axes t) (his axes t) p.
  Proof.
    intros Hk Hin. apply In_nth_error in Hin as (e & He). destruct (elem_list_inv _ _ _ _ He) as (c & t & s & cs & _ & Ht & Hs & ->). exists t. split; [eapply nth_error_In; eauto|]. apply nth_error_In, In_ndindex, Forall2_length' in Ht. rewrite !map_length in Ht.
    destruct axes as [|x1 [|x2 [|x3 [|x4 axes]]]]; cbn [length] in *; inversion Hk; subst mt; destruct s as [|[|s]]; cbn in Hs; try discriminate; try (destruct s; discriminate); injection Hs as <-;
      destruct t as [|t1 [|t2 [|t3 [|]]]]; cbn in Ht; try discriminate; (split; [reflexivity|]); intros k q Hq;
      repeat (destruct k as [|k]; [cbn in Hq; injection Hq as <-; split; [reflexivity|]; intros a y Hy; destruct a as [|[|[|a]]]; cbn in *; try congruence; destruct a; discriminate|]); destruct k; discriminate.
  Qed.
End Tile.
