(** * GenIoProofs: meshes from vertices and simplices. *)
From Coq Require Import List Arith Bool Lia ZArith Ring Permutation.
From Verif Require Import Np NpFacts MeshModel MeshSpec MeshStateModel MeshProofs Lin Ord ProcModel ProcSpec FlipProofs AffineModel RefineModel FdSpec FdImportProofs GenModel GenSpec GenGroupProofs GenSphereProofs GenSphereMain.
Import ListNotations.

Section Flip.
  Variable R : cring.
  Variable half : R.
  Add Ring Rf : (rth R).
  Local Open Scope cring_scope.
  Hypothesis Hhalf : half + half = 1.

  Lemma weights_affine (o : R) (cs u : list R) : length u = length cs ->
    dot (weights R half u) (o :: cs) = dot (map (fun c => half * (c - o)) cs) u + (o + rsum (map (fun c => half * (c - o)) cs)).
  Proof.
    unfold weights, to_01. cbv zeta. rewrite dot_cons. revert cs; induction u as [|x u IH]; intros [|c cs] H; cbn [length] in H; try lia.
    - unfold dot. cbn [map map2 rsum]. ring.
    - cbn [map rsum]. rewrite !dot_cons. specialize (IH cs (eq_add_S _ _ H)).
      transitivity ((1 - rsum (map (fun x0 => half + half * x0) u)) * o + dot (map (fun x0 => half + half * x0) u) cs - (half + half * x) * o + (half + half * x) * c); [ring|]. rewrite IH. ring.
  Qed.

  Lemma to_01_sum (us : list R) : rsum (map (fun x => half + half * x) us) = half * fold_right (fun _ s => 1 + s) 0 us + half * rsum us.
  Proof. induction us as [|x us IH]; cbn [map rsum fold_right]; [ring|]. rewrite IH. ring. Qed.

  Lemma weights_flip u : (1 <= length u)%nat -> weights R half (flip_unit R u) = swap01 (weights R half u).
  Proof.
    destruct u as [|x us]; cbn [length]; [lia|]. intros _. unfold weights, to_01, flip_unit. cbv zeta. cbn [map rsum swap01]. rewrite to_01_sum.
    set (n := fold_right (fun _ s => 1 + s) 0 us). set (S := rsum us).
    assert (E : half + half * (- (x + S) - n) = 1 - (half + half * x + (half * n + half * S))) by (transitivity (half + half - half - half * (x + S) - half * n); [ring|rewrite Hhalf; ring]).
    rewrite E. f_equal. ring.
  Qed.

  Lemma dot_swap (w v : list R) : length w = length v -> dot (swap01 w) v = dot w (swap01 v).
  Proof. destruct w as [|a [|b w]], v as [|c [|d v]]; cbn [length swap01]; intros H; try lia; try reflexivity. rewrite !dot_cons. ring. Qed.

  Lemma flip_unit_length u : length (flip_unit R u) = length u.
  Proof. destruct u; reflexivity. Qed.

  (** values of one coordinate *)
  Lemma flip_values d un M col : (1 <= d)%nat -> right_flip R d un M -> Forall (fun u => length u = d) un -> length col = S d ->
    matvec M (map (fun u => dot (weights R half u) col) un) = map (fun u => dot (weights R half u) (swap01 col)) un.
  Proof.
    intros Hd HM Hu Hl. destruct col as [|o cs]; [discriminate|]. cbn [length] in Hl. rewrite Forall_forall in Hu.
    transitivity (matvec M (map (fun u => dot (map (fun c => half * (c - o)) cs) u + (o + rsum (map (fun c => half * (c - o)) cs))) un)).
    { f_equal. apply map_ext_in. intros u Hin. apply weights_affine. specialize (Hu u Hin). lia. }
    rewrite HM by (rewrite map_length; lia). apply map_ext_in. intros u Hin. specialize (Hu u Hin). rewrite <- weights_affine by (rewrite flip_unit_length; lia).
    rewrite weights_flip by lia. apply dot_swap. rewrite weights_length. cbn [length]. lia.
  Qed.

  Definition axes (d : nat) (un ps : list (list R)) : list (list R) :=
    map (fun a => map (fun u => dot (weights R half u) (matvec ps (unitv d a))) un) (seq 0 d).

  Lemma axes_flip d un M ps : (1 <= d)%nat -> right_flip R d un M -> Forall (fun u => length u = d) un -> length ps = S d ->
    map (matvec M) (axes d un ps) = axes d un (swap01 ps).
  Proof.
    intros Hd HM Hu Hl. unfold axes. rewrite map_map. apply map_ext. intros a. rewrite (flip_values d) by (auto; unfold matvec; now rewrite map_length).
    apply map_ext. intros u. f_equal. unfold matvec. apply swap01_map.
  Qed.

  Lemma coord_dot d (p : list R) a : length p = d -> (a < d)%nat -> get p a = Ok (dot p (unitv d a)).
  Proof.
    intros Hp Ha. rewrite dot_comm. unfold unitv. rewrite dot_unitv_from by auto. cbn [Nat.leb]. rewrite Nat.sub_0_r. unfold get. destruct (nth_error p a) eqn:E; [reflexivity|]. apply nth_error_None in E. lia.
  Qed.
End Flip.

Section Io.
  Variable R : ocring.
  Context {A : Type}.
  Add Ring Rf2 : (rth R).
  Local Open Scope cring_scope.
  Variables (half : R) (default_nodes : nat -> nat -> list (list R)) (fvi : nat -> list (list nat)) (flip : nat -> list (list R)).
  Hypothesis Hhalf : half + half = 1.

  Lemma axes_of_ok d un ps : Forall (fun u => length u = d) un -> length ps = S d -> Forall (fun p => length p = d) ps ->
    axes_of R d (map (spoint R half d ps) un) = Ok (axes R half d un ps).
  Proof.
    intros Hu Hl Hp. unfold axes_of, axes. apply mapM_ok.
    assert (G : forall l, (forall a, In a l -> (a < d)%nat) -> Forall2 (fun a y => mapM (fun p => get p a) (map (spoint R half d ps) un) = Ok y) l (map (fun a => map (fun u => dot (weights R half u) (matvec ps (unitv d a))) un) l)).
    { induction l as [|a l IH]; intros Hl'; cbn [map]; constructor; [|apply IH; intros; apply Hl'; now right].
      assert (Ha : (a < d)%nat) by (apply Hl'; now left). apply mapM_ok. clear - Ha Hu Hl Hp. induction Hu as [|u un Hu Hun IH]; cbn [map]; constructor; auto.
      unfold spoint. rewrite (coord_dot R d) by (auto; apply vecmat_length; auto; rewrite weights_length; lia). f_equal. apply dot_vecmat; auto. rewrite weights_length. lia. }
    apply G. intros a Ha. apply in_seq in Ha. lia.
  Qed.

  Lemma swap_corners (vs : list (list R)) b row ps : corner_points vs row ps -> corner_points vs (swapped b row) (swapped b ps).
  Proof. intros H. unfold swapped. destruct b; auto. now apply swap01_F2. Qed.
  Lemma swapped_length {X} b (l : list X) : length (swapped b l) = length l.
  Proof. unfold swapped. destruct b; auto. apply Permutation_length, swap01_perm. Qed.

  (** without reorientation *)
  Lemma from_plain d vertices simplices els order : (1 <= order)%nat -> Forall2 (corner_points vertices) simplices els ->
    Forall (fun ps => length ps = S d /\ Forall (fun p => length p = d) ps) els -> Forall (fun u => length u = d) (default_nodes d order) ->
    from_vertices_and_simplices R (A := A) half default_nodes fvi flip d vertices simplices (S d) order false =
      Ok (mk_mesh [mk_egroup (Some simplices) (map (axes R half d (default_nodes d order)) els) (fvi d)] (Some vertices) (Some true) Pending Pending 0 0 0).
  Proof.
    intros Ho Hc Hn Hu. unfold from_vertices_and_simplices, make_group_from_vertices.
    assert (E : mapM (take vertices) simplices = Ok els) by (apply mapM_ok; eapply Forall2_impl; [|exact Hc]; intros row ps; apply take_corners).
    rewrite E. cbn [bind]. unfold guard at 1. destruct (Nat.leb_spec 1 order); [|lia]. cbn [bind]. unfold guard at 1. destruct (Nat.leb_spec 1 (S d)); [|lia]. cbn [bind]. replace (S d - 1)%nat with d by lia. cbv zeta.
    assert (E2 : mapM (simplex_points R half (default_nodes d order)) els = Ok (map (fun ps => map (spoint R half d ps) (default_nodes d order)) els)).
    { apply mapM_ok. clear E Hc. induction Hn as [|ps els (H1 & H2) Hn IH]; cbn [map]; constructor; auto. now apply (simplex_points_ok R half d d). }
    rewrite E2. cbn [bind eg_nodes eg_vi eg_fvi].
    assert (E3 : mapM (axes_of R d) (map (fun ps => map (spoint R half d ps) (default_nodes d order)) els) = Ok (map (axes R half d (default_nodes d order)) els)).
    { apply mapM_ok. clear E E2 Hc. induction Hn as [|ps els (H1 & H2) Hn IH]; cbn [map]; constructor; auto. now apply axes_of_ok. }
    rewrite E3. cbn [bind]. rewrite make_mesh_pending. reflexivity.
  Qed.

  Lemma orientation_simplex d vertices row ps : (1 <= d <= 3)%nat -> length ps = S d -> Forall (fun p => length p = d) ps -> corner_points vertices row ps ->
    element_orientation R 0 (seq 1 d) vertices row = Ok (simplex_det R d ps).
  Proof.
    intros Hd Hl Hp Hc. destruct ps as [|b xs]; [discriminate|]. cbn [length] in Hl. inversion Hp; subst. cbn [simplex_det]. eapply orientation_det; eauto.
  Qed.

  Lemma det_swap d vertices row ps : (1 <= d <= 3)%nat -> length ps = S d -> Forall (fun p => length p = d) vertices -> corner_points vertices row ps ->
    simplex_det R d (swap01 ps) = - simplex_det R d ps.
  Proof.
    intros Hd Hl Hv Hc. assert (Hp : Forall (fun p => length p = d) ps).
    { apply Forall_forall. intros p Hp. apply (Forall2_In_r _ _ _ _ Hc) in Hp as (i & _ & Hi). rewrite Forall_forall in Hv. apply Hv. eapply nth_error_In; eauto. }
    destruct row as [|v0 [|v1 rest]]; try (apply Forall2_length' in Hc; cbn [length] in Hc; lia).
    destruct (orientation_swap R d vertices v0 v1 rest) as (o & H1 & H2); auto.
    { pose proof (Forall2_length' _ _ _ Hc) as K. cbn [length] in K. lia. }
    { apply Forall_forall. intros i Hi. apply (Forall2_In_l _ _ _ _ Hc) in Hi as (p & _ & Hi). apply nth_error_Some. congruence. }
    rewrite (orientation_simplex d vertices _ ps) in H1 by auto. injection H1 as <-.
    rewrite (orientation_simplex d vertices _ (swap01 ps)) in H2; auto.
    - now injection H2.
    - rewrite (Permutation_length (swap01_perm ps)). exact Hl.
    - apply Forall_forall. intros p Hp'. rewrite Forall_forall in Hp. apply Hp. eapply Permutation_in; [apply swap01_perm|exact Hp'].
    - exact (swap_corners vertices true _ _ Hc).
  Qed.

  Lemma from_oriented d vertices simplices els order : (1 <= order)%nat -> (1 <= d <= 3)%nat -> Forall (fun p => length p = d) vertices ->
    Forall2 (corner_points vertices) simplices els -> Forall (fun row => length row = S d) simplices ->
    Forall (fun u => length u = d) (default_nodes d order) -> right_flip R d (default_nodes d order) (flip d) ->
    let neg := fun ps => simplex_det R d ps <? 0 in
    let simplices' := map (fun rp => swapped (neg (snd rp)) (fst rp)) (combine simplices els) in
    let els' := map (fun ps => swapped (neg ps) ps) els in
    Forall2 (corner_points vertices) simplices' els' /\ Forall (fun ps => (0 <=? simplex_det R d ps) = true) els' /\
    exists m, from_vertices_and_simplices R (A := A) half default_nodes fvi flip d vertices simplices (S d) order true = Ok m /\
      from_vertices_and_simplices R (A := A) half default_nodes fvi flip d vertices simplices' (S d) order false = Ok m.
  Proof.
    intros Ho Hd Hv Hc Hr Hu HM neg simplices' els'.
    assert (Hn : Forall (fun ps => length ps = S d /\ Forall (fun p => length p = d) ps) els).
    { apply Forall_forall. intros ps Hin. apply (Forall2_In_r _ _ _ _ Hc) in Hin as (row & Hrow & Hcp). rewrite Forall_forall in Hr. split; [rewrite <- (Forall2_length' _ _ _ Hcp); auto|].
      apply Forall_forall. intros p Hp. apply (Forall2_In_r _ _ _ _ Hcp) in Hp as (i & _ & Hi). rewrite Forall_forall in Hv. apply Hv. eapply nth_error_In; eauto. }
    assert (Hc' : Forall2 (corner_points vertices) simplices' els').
    { unfold simplices', els'. clear - Hc. induction Hc as [|row ps rows els H Hc IH]; cbn [combine map fst snd]; constructor; auto. now apply swap_corners. }
    assert (Hn' : Forall (fun ps => length ps = S d /\ Forall (fun p => length p = d) ps) els').
    { unfold els'. clear - Hn. induction Hn as [|ps els (H1 & H2) Hn IH]; cbn [map]; constructor; auto. split; [now rewrite swapped_length|]. unfold swapped. destruct (neg ps); auto.
      apply Forall_forall. intros p Hp. rewrite Forall_forall in H2. apply H2. eapply Permutation_in; [apply swap01_perm|exact Hp]. }
    split; auto. split.
    { unfold els'. clear - Hc Hn Hv Hd. induction Hc as [|row ps rows els H Hc IH]; cbn [map]; [constructor|]. inversion Hn as [|? ? (L1 & L2) L3]; subst. constructor; auto. unfold swapped, neg.
      destruct (simplex_det R d ps <? 0) eqn:E; [|unfold olt in E; now apply negb_false_iff in E]. rewrite (det_swap d vertices row ps) by auto. apply olt_nle in E. apply le_diff in E. now replace (- simplex_det R d ps) with (0 - simplex_det R d ps) by ring. }
    eexists. split; [|apply from_plain; eauto].
    pose proof (from_plain d vertices simplices els order Ho Hc Hn Hu) as HP. unfold from_vertices_and_simplices in HP |- *.
    destruct (make_group_from_vertices R half _ _ _ _ vertices simplices (S d) order CSimplex None) as [grp|e] eqn:EG; [|discriminate]. cbn [bind] in HP |- *.
    destruct (mapM (axes_of R d) (eg_nodes grp)) as [nodes|e]; [|discriminate]. cbn [bind] in HP |- *. cbv zeta in HP |- *. rewrite make_mesh_pending in HP. injection HP as Hvi Hnodes Hfv.
    replace (S d - 1)%nat with d by lia. rewrite Nat.eqb_refl. cbn [guard bind].
    assert (EO : mapM (element_orientation R 0 (seq 1 d) vertices) simplices = Ok (map (simplex_det R d) els)).
    { apply mapM_ok. clear - Hc Hn Hd. induction Hc as [|row ps rows els H Hc IH]; cbn [map]; constructor; inversion Hn as [|? ? (L1 & L2) L3]; subst; auto. now apply orientation_simplex. }
    rewrite EO. cbn [bind]. destruct d as [|d']; [lia|]. rewrite simplex_perm_ok. cbn [bind]. rewrite Hvi, Hnodes, Hfv, map_map.
    assert (Hlen : length simplices = length els) by apply (Forall2_length' _ _ _ Hc).
    match goal with |- bind ?x ?k = ?y => enough (EF : x = Ok (mk_egroup (Some simplices') (map (axes R half (S d') (default_nodes (S d') order)) els') (fvi (S d')))) by (rewrite EF; cbn [bind]; rewrite make_mesh_pending; reflexivity) end.
    etransitivity; [apply (flip_group_unfold R (flip (S d')) (1%nat :: 0%nat :: seq 2 d') (map (fun x => simplex_det R (S d') x <? 0) els)) with (vi := simplices); [reflexivity| |]; unfold nelements; cbn [eg_nodes]; rewrite !map_length; auto|].
    destruct (flip_rows (1%nat :: 0%nat :: seq 2 d') (map (fun x => simplex_det R (S d') x <? 0) els) simplices (simplex_perm_involutive d')) as (vi' & EV & HF).
    { eapply Forall_impl; [|exact Hr]. intros row Hrow. cbn [length]. rewrite seq_length. exact Hrow. }
    rewrite EV. cbn [bind eg_nodes eg_fvi].
    assert (E1 : vi' = simplices').
    { unfold simplices'. clear - HF Hr Hlen. revert vi' HF. revert els Hlen. induction Hr as [|row rows Hrow Hr IH]; intros [|ps els] Hlen vi' HF; cbn [length] in Hlen; try lia; cbn [map combine] in HF |- *; inversion HF; subst; [reflexivity|].
      f_equal; [|apply IH; auto]. cbn [fst snd]. eapply (row_swapped d'); eauto. }
    assert (E2 : map (flip_x R (flip (S d'))) (combine (map (fun x => simplex_det R (S d') x <? 0) els) (map (axes R half (S d') (default_nodes (S d') order)) els)) = map (axes R half (S d') (default_nodes (S d') order)) els').
    { unfold els'. clear - Hn HM Hu Hd Hhalf. induction Hn as [|ps els (L1 & L2) Hn IH]; cbn [map combine]; [reflexivity|]. f_equal; auto. unfold flip_x, swapped, neg, flip_nodes. cbn [fst snd].
      destruct (simplex_det R (S d') ps <? 0); [|reflexivity]. apply axes_flip; auto. lia. }
    rewrite E1. do 2 f_equal. exact E2.
  Qed.
End Io.
