(** * FdConnExportProofs: exported coordinates. *)
From Coq Require Import List Arith Bool Lia Permutation Sorted ZArith.
From Verif Require Import Np NpFacts MeshModel MeshSpec MeshProofs MeshStateModel Lin ProcModel OppMainProofs DistGraphProofs ConsistModel ConsistProofs SplitProofs MergeProofs PointProofs FdSpec FdImportProofs FdConnModel FdConnSpec FdConnProofs FdConnMainProofs.
Import ListNotations.

Lemma rows_of_concat {X Y} (a : list (list X)) (b : list (list Y)) x y : Forall2 (fun r s => length r = length s) a b ->
  In (x, y) (combine (concat a) (concat b)) -> exists e k r s, nth_error a e = Some r /\ nth_error b e = Some s /\ nth_error r k = Some x /\ nth_error s k = Some y.
Proof.
  intros H. induction H as [|r s a b Hl H IH]; cbn [concat]; [intros []|]. rewrite MergeProofs.combine_app by exact Hl. intros Hin. apply in_app_iff in Hin as [Hin|Hin].
  - apply In_nth_error in Hin as (k & Hk). apply nth_error_combine_Some in Hk as (Hk1 & Hk2). exists 0, k, r, s. auto.
  - destruct (IH Hin) as (e & k & r' & s' & H1 & H2 & H3 & H4). exists (S e), k, r', s'. auto.
Qed.
Lemma concat_pairs {X Y} (a : list (list X)) (b : list (list Y)) e k r s x y : Forall2 (fun r s => length r = length s) a b ->
  nth_error a e = Some r -> nth_error b e = Some s -> nth_error r k = Some x -> nth_error s k = Some y -> In (x, y) (combine (concat a) (concat b)).
Proof.
  intros H. revert e. induction H as [|r0 s0 a b Hl H IH]; intros e Ha Hb Hx Hy; [destruct e; discriminate|]. cbn [concat]. rewrite MergeProofs.combine_app by exact Hl.
  apply in_app_iff. destruct e as [|e]; cbn [nth_error] in *.
  - left. injection Ha as ->. injection Hb as ->. apply (nth_error_In _ k), nth_error_combine_Some. auto.
  - right. eapply IH; eauto.
Qed.

Section Export.
  Context {R : cring}.
  Variable resampling : list (list R) -> list (list R) -> list (list R).
  Variables (rint : R -> Z) (inj : Z -> R).
  Hypothesis Hround : rounds rint inj.
  Variables (d : nat) (nodes : list (list R)).
  Hypothesis Hsym : symmetric d nodes.
  Hypothesis Hint : interpolates resampling nodes.
  Variables (fx : fdexport) (rows : list (list nat)) (old : list nat).
  Hypothesis Hrows : Forall (fun row => length row = d + 1) rows.

  (** [y]: the points of [x], those of node [k] with the vertices [vs] being those of the node at the same place with
      the vertices [vs'] *)
  Definition moved_points (vs vs' : list nat) (x y : enodes R) : Prop :=
    forall k pt, k < length nodes -> node_at y k pt -> exists j p q, node_at x j pt /\ nth_error nodes k = Some p /\ nth_error nodes j = Some q /\ same_place vs p vs' q.

  Lemma node_at_select sigma (x : enodes R) k j pt : Forall (fun j => j < length nodes) sigma -> Forall (fun axis => length axis = length nodes) x -> nth_error sigma k = Some j ->
    node_at (map (matvec (map (unitv (R := R) (length nodes)) sigma)) x) k pt -> node_at x j pt.
  Proof using.
    intros Hs Hx Hk. revert pt. induction x as [|axis x IH]; intros pt H; cbn [map] in H; inversion H as [|? c ? pt' Hc H']; subst; [constructor|].
    inversion Hx as [|? ? Hax Hx']; subst. constructor; [|now apply IH]. pose proof (select_take (length nodes) sigma axis Hs Hax) as E. apply take_ok in E.
    destruct (Forall2_nth_error _ _ _ _ _ E Hk) as (c' & Hc' & Hj). congruence.
  Qed.

  Definition axes_ok (x : enodes R) : Prop := Forall (fun axis => length axis = length nodes) x.

  Lemma flip_all_ok perms xs : partition (length rows) perms -> (forall p e, entry perms p e -> perm_of fx rows old e p) -> length xs = length rows -> Forall axes_ok xs ->
    exists ys, flip_all R resampling rint inj nodes perms xs = Ok ys /\ length ys = length rows /\ Forall axes_ok ys /\
      forall e c row x y, nth_error (fx_cells fx) e = Some c -> nth_error rows e = Some row -> nth_error xs e = Some x -> nth_error ys e = Some y -> length y = length x /\
        exists frow orow, fx_row fx c frow /\ stands_for old frow orow /\ moved_points orow row x y.
  Proof using Hround Hsym Hint Hrows.
    intros Hpart Hent Hlx Hax. unfold flip_all. match goal with |- context [foldM ?f perms xs] => set (step := f) end.
    set (h := fun (p : list nat) (e : nat) (x y : enodes R) => exists sigma, node_perm p nodes sigma /\ y = map (matvec (map (unitv (R := R) (length nodes)) sigma)) x).
    destruct (foldM_blocks step h (length rows) perms xs) as (ys & E & L & _ & I); auto.
    - intros arr (p, cs) Hin Ha Hn Hr. cbn [fst snd] in *.
      assert (Hp : Permutation p (seq 0 (d + 1))).
      { destruct cs as [|e cs]; [exfalso; apply (proj2 (proj2 Hpart) p []); auto|].
        destruct (Hent p e) as (c & row & frow & orow & _ & Hr1 & _ & _ & Hp & _); [exists (e :: cs); split; [auto|now left]|].
        rewrite Forall_forall in Hrows. rewrite (Hrows row) in Hp by (eapply nth_error_In; eauto). exact Hp. }
      destruct (flip_matrix_ok resampling d nodes p Hsym Hint Hp) as (sigma & Ef & Hs).
      unfold step. cbn [fst snd]. rewrite Ef. cbn [bind]. rewrite (int_unitv rint inj Hround). unfold flip_cells. rewrite (inj_unitv rint inj Hround).
      destruct (take_total arr cs) as (olds & Eo). { now rewrite Ha. }
      rewrite Eo. cbn [bind]. apply take_ok in Eo. set (f := map (matvec (map (unitv (R := R) (length nodes)) sigma))).
      destruct (scatter_block arr cs (map f olds) Hn) as (arr' & Es & Ls & Ns & Is); [now rewrite Ha|rewrite map_length; symmetry; exact (Forall2_length' _ _ _ Eo)|].
      exists arr'. split; [exact Es|]. split; [now rewrite Ls|]. split; [exact Ns|].
      intros e He. apply In_nth_error in He as (i & Hi). destruct (Forall2_nth_error _ _ _ _ _ Eo Hi) as (x & Hx & Hex). exists x, (f x).
      split; [exact Hex|]. split; [|exists sigma; auto]. apply (Is i); [exact Hi|]. transitivity (option_map f (Some x)); [|reflexivity]. rewrite <- Hx. apply nth_error_map.
    - apply (Permutation_NoDup (Permutation_sym (proj1 (proj2 Hpart)))), seq_NoDup.
    - apply Forall_forall. intros e He. apply (Permutation_in _ (proj1 (proj2 Hpart))), in_seq in He. lia.
    - exists ys. split; [exact E|]. split; [exact L|].
      assert (Hall : forall e y, nth_error ys e = Some y -> exists x p cs, nth_error xs e = Some x /\ In (p, cs) perms /\ In e cs /\ h p e x y).
      { intros e y Hy. assert (He : e < length rows) by (rewrite <- L; apply nth_error_Some; congruence).
        destruct (partition_entry _ _ _ Hpart He) as (p & cs & Hin & Hie). destruct (I p cs e Hin Hie) as (x & y' & Hx & Hy' & Hh).
        assert (y' = y) by congruence. subst y'. exists x, p, cs. auto. }
      split.
      + apply Forall_forall. intros y Hy. apply In_nth_error in Hy as (e & Hy). destruct (Hall e y Hy) as (x & p & cs & Hx & Hin & Hie & sigma & Hs & ->).
        unfold axes_ok. apply Forall_forall. intros a Ha. apply in_map_iff in Ha as (b & <- & _). rewrite matvec_length, map_length. exact (node_perm_length _ _ _ Hs).
      + intros e c row x y Hc Hrow Hx Hy. destruct (Hall e y Hy) as (x' & p & cs & Hx' & Hin & Hie & sigma & Hs & ->). assert (x' = x) by congruence. subst x'.
        split; [apply map_length|].
        destruct (Hent p e) as (c' & row' & frow & orow & Hc' & Hr' & Hf & Ho & Hp & Hrel); [exists cs; auto|].
        assert (c' = c) by congruence. assert (row' = row) by congruence. subst c' row'.
        exists frow, orow. split; [exact Hf|]. split; [exact Ho|]. intros k pt Hk Hpt.
        assert (Hxa : axes_ok x) by (rewrite Forall_forall in Hax; apply Hax; eapply nth_error_In; eauto).
        destruct (nth_error sigma k) as [j|] eqn:Ej.
        * destruct (proj2 Hs _ _ Ej) as (a & b & Ha & Hb & Hm). exists j, a, b.
          split; [eapply node_at_select; [exact (node_perm_range _ _ _ Hs)|exact Hxa|exact Ej|exact Hpt]|]. split; [exact Ha|]. split; [exact Hb|].
          apply (moved_same p); auto. rewrite (node_len d nodes Hsym _ _ Ha). rewrite Forall_forall in Hrows. rewrite (Hrows row) in Hp by (eapply nth_error_In; eauto). exact Hp.
        * apply nth_error_None in Ej. rewrite (node_perm_length _ _ _ Hs) in Ej. lia.
  Qed.

  Lemma points_ok (y : enodes R) : axes_ok y -> exists pts, points_of R (length nodes) y = Ok pts /\ length pts = length nodes /\ forall k pt, nth_error pts k = Some pt -> node_at y k pt.
  Proof using.
    intros Hy. unfold points_of. destruct (mapM_total (fun j => mapM (fun axis => get axis j) y) (seq 0 (length nodes))) as (pts & E).
    { intros j Hj. apply in_seq in Hj. apply mapM_total. intros a Ha. apply get_total. unfold axes_ok in Hy. rewrite Forall_forall in Hy. rewrite (Hy a Ha). lia. }
    exists pts. split; [exact E|]. apply mapM_ok in E. split; [rewrite <- (Forall2_length' _ _ _ E); apply seq_length|].
    intros k pt Hk. destruct (Forall2_nth_error_r _ _ _ _ _ E Hk) as (j & Hj & Hp). apply FdImportProofs.seq_nth_eq in Hj as (-> & _). cbn [plus] in Hp.
    apply mapM_ok in Hp. unfold node_at. eapply Forall2_impl; [|exact Hp]. cbn. intros a c Hc. now apply get_ok in Hc.
  Qed.

  Lemma store_ok ambient ys : length (fx_cells fx) = length rows -> length ys = length rows -> Forall axes_ok ys ->
    (forall c, In c (fx_cells fx) -> exists ns, nth_error (fx_cell_nodes fx) c = Some ns /\ length ns = length nodes /\ Forall (fun k => k < fx_nnodes fx) ns) ->
    exists data, store_coords R ambient fx ys = Ok data /\ length data = fx_nnodes fx /\
      (forall nd, (exists e c ns, nth_error (fx_cells fx) e = Some c /\ nth_error (fx_cell_nodes fx) c = Some ns /\ In nd ns) ->
         exists e c ns k y pt, nth_error (fx_cells fx) e = Some c /\ nth_error (fx_cell_nodes fx) c = Some ns /\ nth_error ns k = Some nd /\ nth_error ys e = Some y /\
           node_at y k pt /\ nth_error data nd = Some pt) /\
      (forall nd, nd < fx_nnodes fx -> (forall e c ns, nth_error (fx_cells fx) e = Some c -> nth_error (fx_cell_nodes fx) c = Some ns -> ~ In nd ns) -> nth_error data nd = Some (zeros ambient)).
  Proof using.
    intros Hlen Hly Hax Hcn. unfold store_coords.
    destruct (take_total (fx_cell_nodes fx) (fx_cells fx)) as (cnl & Ec).
    { apply Forall_forall. intros c Hc. destruct (Hcn c Hc) as (ns & Hns & _). apply nth_error_Some. congruence. }
    rewrite Ec. cbn [bind]. apply take_ok in Ec. pose proof (Forall2_length' _ _ _ Ec) as HLc.
    replace (length cnl =? length ys) with true by (symmetry; apply Nat.eqb_eq; congruence). cbn [guard bind].
    assert (Hns : forall e ns, nth_error cnl e = Some ns -> length ns = length nodes /\ Forall (fun k => k < fx_nnodes fx) ns).
    { intros e ns He. destruct (Forall2_nth_error_r _ _ _ _ _ Ec He) as (c & Hc & Hcns). destruct (Hcn c (nth_error_In _ _ Hc)) as (ns' & H1 & H2 & H3).
      assert (ns' = ns) by congruence. subst ns'. auto. }
    match goal with |- context [mapM ?f (combine cnl ys)] => set (g := f) end.
    assert (Hg : forall ns y, In (ns, y) (combine cnl ys) -> exists pts, g (ns, y) = Ok pts /\ length pts = length ns /\ forall k pt, nth_error pts k = Some pt -> node_at y k pt).
    { intros ns y Hin. apply In_nth_error in Hin as (e & He). apply nth_error_combine_Some in He as (H1 & H2). destruct (Hns _ _ H1) as (Hl & _).
      destruct (points_ok y) as (pts & E & Hp & Hpt). { rewrite Forall_forall in Hax. apply Hax. eapply nth_error_In; eauto. }
      exists pts. unfold g. cbn [fst snd]. rewrite Hl. auto. }
    destruct (mapM_total g (combine cnl ys)) as (pts & Ep). { intros (ns, y) Hin. destruct (Hg ns y Hin) as (p & Hp & _). eauto. }
    rewrite Ep. cbn [bind]. apply mapM_ok in Ep.
    assert (HF : Forall2 (fun r s => length r = length s) cnl pts).
    { assert (HL : length pts = length cnl). { rewrite <- (Forall2_length' _ _ _ Ep). rewrite combine_length. lia. }
      apply Forall2_intro_nth; [congruence|]. intros e ns s He Hs. destruct (Forall2_nth_error_r _ _ _ _ _ Ep Hs) as ((ns', y) & Hn & Hgn).
      pose proof Hn as Hn'. apply nth_error_combine_Some in Hn' as (H1 & H2). assert (ns' = ns) by congruence. subst ns'.
      destruct (Hg ns y (nth_error_In _ _ Hn)) as (s' & E' & Hl & _). congruence. }
    assert (Hwr : forall nd pt, In (nd, pt) (combine (concat cnl) (concat pts)) -> exists e c ns k y, nth_error (fx_cells fx) e = Some c /\ nth_error (fx_cell_nodes fx) c = Some ns /\ nth_error ns k = Some nd /\ nth_error ys e = Some y /\ node_at y k pt).
    { intros nd pt Hin. apply (rows_of_concat _ _ _ _ HF) in Hin as (e & k & ns & s & H1 & H2 & H3 & H4).
      destruct (Forall2_nth_error_r _ _ _ _ _ Ec H1) as (c & Hc & Hcns). destruct (Forall2_nth_error_r _ _ _ _ _ Ep H2) as ((ns', y) & Hn & Hgn).
      pose proof Hn as Hn'. apply nth_error_combine_Some in Hn' as (H5 & H6). assert (ns' = ns) by congruence. subst ns'.
      destruct (Hg ns y (nth_error_In _ _ Hn)) as (s' & E' & Hl & Hpt). assert (s' = s) by congruence. subst s'. exists e, c, ns, k, y. repeat (split; [assumption|]). auto. }
    destruct (proj2 (scatter_ok_range (combine (concat cnl) (concat pts)) (repeat (zeros (R := R) ambient) (fx_nnodes fx)))) as (data & Ed).
    { apply Forall_forall. intros (nd, pt) Hin. cbn [fst]. rewrite repeat_length. apply in_combine_l in Hin. apply in_concat in Hin as (ns & Hn & Hin).
      apply In_nth_error in Hn as (e & He). destruct (Hns _ _ He) as (_ & Hf). rewrite Forall_forall in Hf. auto. }
    exists data. split; [exact Ed|]. split; [apply scatter_length in Ed; now rewrite repeat_length in Ed|].
    assert (Hfst : map fst (combine (concat cnl) (concat pts)) = concat cnl).
    { assert (HL : length (concat cnl) = length (concat pts)). { clear - HF. induction HF; cbn [concat]; [reflexivity|]. rewrite !app_length. congruence. }
      revert HL. generalize (concat cnl) (concat pts). clear. intros l. induction l as [|a l IH]; intros [|b r] H; cbn in *; try lia; [reflexivity|]. f_equal. apply IH. lia. }
    split.
    - intros nd (e & c & ns & H1 & H2 & H3). destruct (PointProofs.scatter_cases _ _ _ nd Ed) as [(Hn & _)|(pt & Hin & Hpt)].
      + exfalso. apply Hn. rewrite Hfst. apply in_concat. exists ns. split; [|exact H3]. destruct (Forall2_nth_error _ _ _ _ _ Ec H1) as (ns' & Hns' & Hc'). assert (ns' = ns) by congruence. subst. eapply nth_error_In; eauto.
      + destruct (Hwr nd pt Hin) as (e' & c' & ns' & k & y & W1 & W2 & W3 & W4 & W5). exists e', c', ns', k, y, pt. repeat (split; [assumption|]). assumption.
    - intros nd Hnd Hno. rewrite (scatter_notin _ _ _ nd Ed).
      + now apply nth_error_repeat.
      + rewrite Hfst. intros Hin. apply in_concat in Hin as (ns & Hn & Hin). apply In_nth_error in Hn as (e & He).
        destruct (Forall2_nth_error_r _ _ _ _ _ Ec He) as (c & Hc & Hcns). exact (Hno e c ns Hc Hcns Hin).
  Qed.
End Export.

Section ExportMesh.
  Context {R : cring} {A V : Type}.
  Variable resampling : list (list R) -> list (list R) -> list (list R).
  Variables (rint : R -> Z) (inj : Z -> R).
  Variables (simplex : nat -> bool) (plex : list (list nat) -> list V -> fdexport) (ambient : nat) (mat nodes : list (list R)).

  Lemma unique_used rows old : used_vertices rows old -> unique (concat rows) = old.
  Proof using. intros (Hs & Hin). apply incr_ext; [apply unique_incr|exact Hs|]. intros x. rewrite unique_In. symmetry. apply Hin. Qed.

  Lemma renumber_cells rows cells old : NoDup old -> Forall2 (stands_for old) cells rows ->
    mapM (mapM (fun v => match index_of v old with Some i => Ok i | None => Err KeyError end)) rows = Ok cells.
  Proof using.
    intros Hnd H. apply mapM_ok. induction H as [|c r cells rows Hc H IH]; constructor; auto. apply mapM_ok. clear - Hnd Hc.
    induction Hc as [|v w vs ws Hv Hc IH]; constructor; auto. now rewrite (index_of_nth w old v Hnd Hv).
  Qed.

  Theorem export_ok d (m : mesh (enodes R) A V) nr group_nr g rows old cells coords vs :
    rounds rint inj -> symmetric d nodes -> interpolates resampling nodes -> length mat = length nodes ->
    match group_nr with None => nr = 0 /\ length (m_groups m) = 1 | Some z => z = Z.of_nat nr end ->
    nth_error (m_groups m) nr = Some g -> simplex nr = true -> m_vertices m = Some vs -> m_conforming m = Some true -> eg_vi g = Some rows ->
    rows <> [] -> Forall (fun row => length row = d + 1 /\ NoDup row) rows -> length (eg_nodes g) = length rows ->
    used_vertices rows old -> Forall2 (stands_for old) cells rows -> Forall2 (fun v x => nth_error vs v = Some x) old coords ->
    let fx := plex cells coords in proper_fx (length nodes) cells fx ->
    exists data perms, export_mesh R resampling rint inj simplex plex ambient mat nodes m group_nr = Ok (data, fx_cells fx, perms) /\
      partition (length rows) perms /\ (forall p e, entry perms p e -> perm_of fx rows old e p) /\ length data = fx_nnodes fx /\
      (forall nd, (exists e c ns, nth_error (fx_cells fx) e = Some c /\ nth_error (fx_cell_nodes fx) c = Some ns /\ In nd ns) ->
         exists pt, nth_error data nd = Some pt /\ exported_point fx rows old nodes (map (map (matvec mat)) (eg_nodes g)) nd pt) /\
      (forall nd, nd < fx_nnodes fx -> (forall e c ns, nth_error (fx_cells fx) e = Some c -> nth_error (fx_cell_nodes fx) c = Some ns -> ~ In nd ns) -> nth_error data nd = Some (zeros ambient)).
  Proof using.
    intros Hround Hsym Hint Hmat Hnr Hg Hsx Hv Hcf Hvi Hne Hrows Hln Hused Hcells Hco fx Hfx.
    assert (Hlt : nr < length (m_groups m)) by (apply nth_error_Some; congruence).
    assert (Hold : NoDup old) by (apply incr_NoDup, Hused).
    assert (Hrl : Forall (fun row => length row = d + 1) rows) by (eapply Forall_impl; [|exact Hrows]; cbn; tauto).
    assert (Hrn : Forall (fun row : list nat => NoDup row) rows) by (eapply Forall_impl; [|exact Hrows]; cbn; tauto).
    pose proof (Forall2_length' _ _ _ Hcells) as HLc.
    destruct (cell_perms_ok fx rows cells old (length nodes) (proj1 Hused) Hcells Hrn Hfx) as (perms & Ep & Hpart & Hent).
    set (xs := map (map (matvec mat)) (eg_nodes g)).
    assert (Hxs : Forall (axes_ok nodes) xs).
    { apply Forall_forall. intros x Hx. apply in_map_iff in Hx as (x0 & <- & _). unfold axes_ok. apply Forall_forall. intros a Ha. apply in_map_iff in Ha as (a0 & <- & _).
      now rewrite matvec_length. }
    assert (Hlx : length xs = length rows) by (unfold xs; now rewrite map_length).
    destruct (flip_all_ok resampling rint inj Hround d nodes Hsym Hint fx rows old Hrl perms xs Hpart Hent Hlx Hxs) as (ys & Ey & Ly & Hys & Hmoved).
    destruct Hfx as (Hlen & Hndc & Hfx).
    assert (Hcn : forall c, In c (fx_cells fx) -> exists ns, nth_error (fx_cell_nodes fx) c = Some ns /\ length ns = length nodes /\ Forall (fun k => k < fx_nnodes fx) ns).
    { intros c Hc. apply In_nth_error in Hc as (e & Hc). assert (e < length cells) by (rewrite <- Hlen; apply nth_error_Some; congruence).
      destruct (nth_error cells e) as [r|] eqn:Er; [|apply nth_error_None in Er; lia]. destruct (Hfx _ _ _ Hc Er) as (_ & ns & H1 & H2 & H3). eauto. }
    destruct (store_ok nodes fx rows ambient ys) as (data & Ed & Ld & Hw & Hz); auto; [congruence|].
    exists data, perms. split.
    { unfold export_mesh.
      assert (E1 : match group_nr with None => _ <- guard (length (m_groups m) =? 1) ValueError ;; Ok 0%Z | Some z => Ok z end = Ok (Z.of_nat nr)).
      { destruct group_nr as [z|]; [now subst|]. destruct Hnr as (-> & ->). reflexivity. }
      rewrite E1. cbn [bind]. replace ((0 <=? Z.of_nat nr)%Z && (Z.of_nat nr <? Z.of_nat (length (m_groups m)))%Z) with true by (symmetry; apply andb_true_iff; split; [apply Z.leb_le|apply Z.ltb_lt]; lia).
      cbn [guard bind]. rewrite Nat2Z.id, (proj2 (get_ok _ _ _) Hg). cbn [bind]. rewrite Hsx, Hv, Hcf, Hvi. cbn [guard bind].
      rewrite (unique_used _ _ Hused). assert (Et : take vs old = Ok coords) by now apply take_ok. rewrite Et. cbn [bind].
      assert (Hl0 : length (concat rows) =? 0 = false).
      { apply Nat.eqb_neq. destruct rows as [|r rs]; [contradiction|]. inversion Hrl; subst. cbn [concat]. rewrite app_length. lia. }
      rewrite Hl0. cbn [negb guard bind]. rewrite (renumber_cells rows cells old Hold Hcells). cbn [bind]. fold fx. rewrite Ep. cbn [bind]. fold xs. rewrite Ey. cbn [bind]. rewrite Ed. reflexivity. }
    split; [exact Hpart|]. split; [exact Hent|]. split; [exact Ld|]. split; [|exact Hz].
    intros nd Hnd. destruct (Hw nd Hnd) as (e & c & ns & k & y & pt & Hc & Hns & Hk & Hy & Hpt & Hd). exists pt. split; [exact Hd|].
    assert (He : e < length rows) by (rewrite <- Ly; apply nth_error_Some; congruence).
    destruct (nth_error rows e) as [row|] eqn:Er; [|apply nth_error_None in Er; lia].
    destruct (nth_error xs e) as [x|] eqn:Ex; [|apply nth_error_None in Ex; lia].
    destruct (Hmoved e c row x y Hc Er Ex Hy) as (_ & frow & orow & Hf & Ho & Hm).
    destruct (Hcn c (nth_error_In _ _ Hc)) as (ns' & Hns' & Hl & _). assert (ns' = ns) by congruence. subst ns'.
    destruct (Hm k pt) as (j & p & q & Hj & Hkp & Hjq & Hsp); [rewrite <- Hl; apply nth_error_Some; congruence|exact Hpt|].
    exists e, c, row, frow, orow, ns, k, p, j, q, x. repeat (split; [assumption|]). assumption.
  Qed.
End ExportMesh.
