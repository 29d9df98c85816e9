(** * Flips and orientation: lemmas *)
From Coq Require Import List Arith Bool ZArith Lia Permutation Ring.
From Verif Require Import Np NpFacts MeshModel MeshSpec MeshProofs MeshStateModel Lin ProcModel ProcSpec MergeProofs SplitProofs.
From Verif Require PartFilterProofs.
Import ListNotations.

Lemma involutive_range perm j p : involutive perm -> nth_error perm j = Some p -> p < length perm.
Proof. intros H Hj. apply nth_error_Some. rewrite (H _ _ Hj). discriminate. Qed.

Lemma involutive_NoDup perm : involutive perm -> NoDup perm.
Proof.
  intros H. apply NoDup_nth_error. intros i j Hi Heq.
  destruct (nth_error perm i) as [p|] eqn:Hp; [|apply nth_error_None in Hp; lia].
  symmetry in Heq. apply H in Hp. apply H in Heq. congruence.
Qed.

Lemma combine_fst {X Y} (l : list X) (l' : list Y) : length l = length l' -> map fst (combine l l') = l.
Proof. revert l'; induction l as [|x l IH]; intros [|y l'] H; cbn in *; try lia; auto. f_equal. apply IH. lia. Qed.

Lemma permute_row_spec junk perm row : involutive perm -> length perm = length row -> length junk = length row ->
  exists row', permute_row junk perm row = Ok row' /\ length row' = length row /\
    forall j p, nth_error perm j = Some p -> nth_error row' p = nth_error row j.
Proof.
  intros Hinv Hl Hj. unfold permute_row. rewrite Hl, Nat.eqb_refl. cbn [guard bind].
  destruct (proj2 (scatter_ok_range (combine perm row) junk)) as (row' & Hs).
  { apply Forall_forall. intros (p, v) Hin. cbn [fst]. apply in_combine_l in Hin. apply In_nth_error in Hin as (j & Hp).
    rewrite Hj, <- Hl. eapply involutive_range; eauto. }
  exists row'. split; [exact Hs|]. split; [rewrite (scatter_length _ _ _ Hs); exact Hj|].
  intros j p Hp. destruct (nth_error row j) as [v|] eqn:Hv.
  - apply (scatter_in _ _ _ p v Hs).
    + rewrite combine_fst by auto. apply involutive_NoDup; auto.
    + apply nth_error_In with (n := j). apply nth_error_combine_Some. auto.
  - apply nth_error_None in Hv. assert (j < length perm) by (apply nth_error_Some; congruence). lia.
Qed.

Lemma permuted_twice perm (row row' row'' : list nat) : involutive perm -> length perm = length row ->
  length row' = length row -> length row'' = length row' ->
  (forall j p, nth_error perm j = Some p -> nth_error row' p = nth_error row j) ->
  (forall j p, nth_error perm j = Some p -> nth_error row'' p = nth_error row' j) -> row'' = row.
Proof.
  intros Hinv Hl H1 H2 HA HB. apply nth_error_ext'. intros p.
  destruct (nth_error perm p) as [j|] eqn:Hp.
  - pose proof (Hinv _ _ Hp) as Hj. rewrite (HB _ _ Hj). apply HA. exact Hp.
  - apply nth_error_None in Hp. assert (nth_error row'' p = None) by (apply nth_error_None; lia).
    assert (nth_error row p = None) by (apply nth_error_None; lia). congruence.
Qed.

Section Flip.
  Variable R : cring.
  Context {A V : Type}.
  Notation en := (enodes R).

  Lemma flip_nodes_twice n (M : list (list R)) (x : en) : is_mat n n M -> matmul n M M = idmat (R := R) n ->
    Forall (fun r => length r = n) x -> flip_nodes R M (flip_nodes R M x) = x.
  Proof.
    intros HM Hid Hx. unfold flip_nodes. rewrite map_map. induction Hx as [|r x Hr Hx IH]; [reflexivity|].
    cbn [map]. f_equal; auto. rewrite <- (matvec_matmul R n n n M M r HM HM). rewrite Hid. apply matvec_id. exact Hr.
  Qed.

  Definition flip_row (perm : list nat) (fr : bool * list nat) : res (list nat) :=
    if fst fr then permute_row (map (fun _ => 0) (snd fr)) perm (snd fr) else Ok (snd fr).

  Definition row_flipped (perm : list nat) (fr : bool * list nat) (row' : list nat) : Prop :=
    if fst fr then length row' = length (snd fr) /\ (forall j p, nth_error perm j = Some p -> nth_error row' p = nth_error (snd fr) j)
    else row' = snd fr.

  Lemma flip_rows perm flags vi : involutive perm -> Forall (fun row => length row = length perm) vi ->
    exists vi', mapM (flip_row perm) (combine flags vi) = Ok vi' /\ Forall2 (row_flipped perm) (combine flags vi) vi'.
  Proof.
    intros Hinv HF.
    assert (Ht : Forall (fun fr : bool * list nat => length (snd fr) = length perm) (combine flags vi)).
    { apply Forall_forall. intros (f, row) Hin. apply in_combine_r in Hin. rewrite Forall_forall in HF. apply HF. exact Hin. }
    revert Ht. generalize (combine flags vi) as l. induction l as [|(f, row) l IH]; intros Ht; [exists []; split; [reflexivity|constructor]|].
    inversion Ht as [|? ? H1 H2]; subst. cbn [snd] in H1. destruct (IH H2) as (vi' & I1 & I2). cbn [mapM]. unfold flip_row at 1. cbn [fst snd].
    destruct f.
    - destruct (permute_row_spec (map (fun _ => 0) row) perm row Hinv (eq_sym H1)) as (row' & R1 & R2 & R3); [apply map_length|].
      rewrite R1. cbn [bind]. rewrite I1. eexists. split; [reflexivity|]. constructor; auto. split; auto.
    - cbn [bind]. rewrite I1. eexists. split; [reflexivity|]. constructor; auto. reflexivity.
  Qed.

  Lemma flip_rows_twice perm flags vi vi' : involutive perm -> Forall (fun row => length row = length perm) vi ->
    length flags = length vi -> mapM (flip_row perm) (combine flags vi) = Ok vi' ->
    mapM (flip_row perm) (combine flags vi') = Ok vi.
  Proof.
    intros Hinv HF. revert flags vi'. induction HF as [|row vi Hr HF IH]; intros [|f flags] vi' Hl H; cbn [length] in Hl; try lia.
    - cbn in H. injection H as <-. reflexivity.
    - cbn [combine mapM] in H. apply bind_ok in H as (row' & H1 & H). apply bind_ok in H as (vi1 & H2 & H). injection H as <-.
      cbn [combine mapM]. rewrite (IH flags vi1 ltac:(lia) H2).
      assert (E1 : flip_row perm (f, row') = Ok row).
      { unfold flip_row in *. cbn [fst snd] in *. destruct f; [|congruence].
        destruct (permute_row_spec (map (fun _ => 0) row) perm row Hinv (eq_sym Hr)) as (r1 & R1 & R2 & R3); [apply map_length|].
        assert (r1 = row') by congruence. subst r1.
        destruct (permute_row_spec (map (fun _ => 0) row') perm row' Hinv) as (r2 & S1 & S2 & S3); [lia|apply map_length|].
        rewrite S1. f_equal. eapply permuted_twice; eauto. }
      rewrite E1. reflexivity.
  Qed.

  Definition flip_x (M : list (list R)) (fx : bool * en) : en := if fst fx then flip_nodes R M (snd fx) else snd fx.

  Lemma flip_xs_twice n M flags (xs : list en) : is_mat n n M -> matmul n M M = idmat (R := R) n ->
    Forall (Forall (fun r => length r = n)) xs -> length flags = length xs ->
    map (flip_x M) (combine flags (map (flip_x M) (combine flags xs))) = xs.
  Proof.
    intros HM Hid HF. revert flags. induction HF as [|x xs Hx HF IH]; intros [|f flags] Hl; cbn [length] in Hl; try lia; [reflexivity|].
    cbn [combine map]. rewrite IH by lia. f_equal. unfold flip_x. cbn [fst snd]. destruct f; [|reflexivity].
    eapply flip_nodes_twice; eauto.
  Qed.

  (** a group on which flips with permutation [perm] make sense *)
  Definition flippable (perm : list nat) (g : egroup en) : Prop :=
    exists vi, eg_vi g = Some vi /\ length vi = nelements g /\ Forall (fun row => length row = length perm) vi.

  Lemma flip_group_unfold M perm flags (g : egroup en) vi : eg_vi g = Some vi -> length vi = nelements g -> length flags = nelements g ->
    flip_element_group R M perm flags g =
    (vi' <- mapM (flip_row perm) (combine flags vi) ;;
     Ok (mk_egroup (Some vi') (map (flip_x M) (combine flags (eg_nodes g))) (eg_fvi g))).
  Proof.
    intros Hvi Hl Hf. unfold flip_element_group. rewrite Hvi, Hl, Hf, Nat.eqb_refl. cbn [guard bind].
    change (fun fr : bool * list nat => if fst fr then permute_row (map (fun _ => 0) (snd fr)) perm (snd fr) else Ok (snd fr)) with (flip_row perm).
    destruct (mapM (flip_row perm) (combine flags vi)); reflexivity.
  Qed.

  Lemma flip_group_spec M perm flags (g : egroup en) : involutive perm -> flippable perm g -> length flags = nelements g ->
    exists g', flip_element_group R M perm flags g = Ok g' /\ eg_fvi g' = eg_fvi g /\ nelements g' = nelements g /\ flippable perm g' /\
      (forall i flag row x, nth_error flags i = Some flag -> elem_at [g] 0 i row x ->
         exists row' x', elem_at [g'] 0 i row' x' /\
           (flag = true -> flipped R M perm row x row' x') /\ (flag = false -> row' = row /\ x' = x)) /\
      (forall n, is_mat n n M -> matmul n M M = idmat (R := R) n -> Forall (Forall (fun r => length r = n)) (eg_nodes g) ->
         flip_element_group R M perm flags g' = Ok g).
  Proof.
    intros Hinv (vi & Hvi & Hl & HF) Hf. rewrite (flip_group_unfold M perm flags g vi Hvi Hl Hf).
    destruct (flip_rows perm flags vi Hinv HF) as (vi' & Hm & H2). rewrite Hm. cbn [bind].
    assert (Hvl : length vi' = nelements g) by (rewrite (mapM_length _ _ _ Hm), combine_length; lia).
    assert (Hnl : length (map (flip_x M) (combine flags (eg_nodes g))) = nelements g)
      by (rewrite map_length, combine_length; unfold nelements in *; lia).
    assert (HF' : Forall (fun row => length row = length perm) vi').
    { apply Forall_forall. intros row' Hin. destruct (Forall2_In_r _ _ _ _ H2 Hin) as ((f, row) & Hfr & Hrf). apply in_combine_r in Hfr.
      rewrite Forall_forall in HF. specialize (HF _ Hfr). unfold row_flipped in Hrf. cbn [fst snd] in Hrf. destruct f; [destruct Hrf; lia|congruence]. }
    eexists. split; [reflexivity|]. split; [reflexivity|]. split; [exact Hnl|]. split; [|split].
    - exists vi'. cbn [eg_vi]. split; auto. split; auto. unfold nelements at 1. cbn [eg_nodes]. lia.
    - intros i flag row x Hi (grp & vi0 & Hg & Hvi0 & Hrow & Hx). cbn [nth_error] in Hg. injection Hg as <-.
      assert (vi0 = vi) by congruence. subst vi0.
      assert (Hc : nth_error (combine flags vi) i = Some (flag, row)) by (apply nth_error_combine_Some; auto).
      destruct (Forall2_nth_error _ _ _ _ _ H2 Hc) as (row' & Hrow' & Hrf).
      assert (Hx' : nth_error (map (flip_x M) (combine flags (eg_nodes g))) i = Some (flip_x M (flag, x))).
      { rewrite nth_error_map. assert (Hcx : nth_error (combine flags (eg_nodes g)) i = Some (flag, x)) by (apply nth_error_combine_Some; auto).
        rewrite Hcx. reflexivity. }
      exists row', (flip_x M (flag, x)). split.
      { eexists. exists vi'. split; [reflexivity|]. cbn [eg_vi eg_nodes]. auto. }
      unfold row_flipped in Hrf. cbn [fst snd] in Hrf. split; intros ->.
      + destruct Hrf as (HA & HB). split; [exact HA|]. split; [exact HB|reflexivity].
      + auto.
    - intros n HM Hid Hn. rewrite (flip_group_unfold M perm flags _ vi'); [|reflexivity|unfold nelements; cbn [eg_nodes]; lia|unfold nelements; cbn [eg_nodes]; lia].
      cbn [eg_nodes eg_fvi]. rewrite (flip_rows_twice perm flags vi vi' Hinv HF ltac:(lia) Hm). cbn [bind].
      rewrite (flip_xs_twice n M flags (eg_nodes g) HM Hid Hn Hf). destruct g as [v nd f]. cbn in *. rewrite Hvi. reflexivity.
  Qed.
End Flip.

(** ** the simplex permutation *)
Lemma simplex_perm_ok d : simplex_flip_permutation (S d) = Ok (1 :: 0 :: seq 2 d).
Proof.
  unfold simplex_flip_permutation. rewrite Nat.add_1_r. cbn [seq]. unfold put. cbn [length Nat.ltb Nat.leb upd bind]. reflexivity.
Qed.

Lemma simplex_perm_involutive d : involutive (1 :: 0 :: seq 2 d).
Proof.
  intros [|[|j]] p H; cbn [nth_error] in H.
  - injection H as <-. reflexivity.
  - injection H as <-. reflexivity.
  - assert (Hj : j < d) by (rewrite <- (seq_length d 2); apply nth_error_Some; congruence).
    rewrite PartFilterProofs.nth_error_seq' in H by exact Hj. injection H as <-. cbn [Nat.add nth_error].
    rewrite PartFilterProofs.nth_error_seq' by exact Hj. reflexivity.
Qed.

Lemma simplex_flipped_row d v0 v1 (rest row' : list nat) : length rest = d -> length row' = S (S d) ->
  (forall j p, nth_error (1 :: 0 :: seq 2 d) j = Some p -> nth_error row' p = nth_error (v0 :: v1 :: rest) j) ->
  row' = v1 :: v0 :: rest.
Proof.
  intros Hl Hl' H. apply nth_error_ext'. intros [|[|p]].
  - apply (H 1 0). reflexivity.
  - apply (H 0 1). reflexivity.
  - destruct (Nat.lt_ge_cases p d) as [Hp|Hp].
    + apply (H (S (S p)) (S (S p))). cbn [nth_error]. rewrite PartFilterProofs.nth_error_seq' by exact Hp. reflexivity.
    + transitivity (@None nat); [|symmetry]; apply nth_error_None; cbn; lia.
Qed.

(** ** perform_flips *)
Section Perform.
  Variable R : cring.
  Context {A V : Type}.
  Notation en := (enodes R).

  Definition flip_mesh_group flipper (flags : list bool) (bg : nat * egroup en) : res (egroup en) :=
    let gf := slice flags (fst bg) (fst bg + nelements (snd bg)) in
    if existsb (fun b => b) gf
    then '(M, perm) <- flipper (snd bg) ;; flip_element_group R M perm gf (snd bg)
    else Ok (snd bg).

  (** what is needed of [flipper] on a group *)
  Definition flipper_ok (flipper : egroup en -> res (list (list R) * list nat)) (g : egroup en) : Prop :=
    exists M perm n, flipper g = Ok (M, perm) /\ involutive perm /\ flippable R perm g /\
      is_mat n n M /\ matmul n M M = idmat (R := R) n /\ Forall (Forall (fun r => length r = n)) (eg_nodes g).

  Lemma flip_one flipper flags b (g : egroup en) : flipper_ok flipper g -> b + nelements g <= length flags ->
    (forall g', eg_fvi g' = eg_fvi g -> flipper g' = flipper g) ->
    exists g', flip_mesh_group flipper flags (b, g) = Ok g' /\ nelements g' = nelements g /\ eg_fvi g' = eg_fvi g /\
      (exists perm, flippable R perm g') /\
      (forall i flag row x, i < nelements g -> nth_error flags (b + i) = Some flag -> elem_at [g] 0 i row x ->
         exists row' x', elem_at [g'] 0 i row' x' /\
           (flag = true -> exists M perm, flipper g = Ok (M, perm) /\ flipped R M perm row x row' x') /\
           (flag = false -> row' = row /\ x' = x)) /\
      flip_mesh_group flipper flags (b, g') = Ok g.
  Proof.
    intros (M & perm & n & Hfl & Hinv & Hok & HM & Hid & Hn) Hb Hcong. unfold flip_mesh_group. cbn [fst snd].
    set (gf := slice flags b (b + nelements g)).
    assert (Hgl : length gf = nelements g) by (unfold gf; rewrite slice_length; lia).
    assert (Hgf : forall i, i < nelements g -> nth_error gf i = nth_error flags (b + i)).
    { intros i Hi. unfold gf. rewrite nth_error_slice. destruct (Nat.ltb_spec (b + i) (b + nelements g)); [reflexivity|lia]. }
    destruct (existsb (fun b => b) gf) eqn:Hex.
    - rewrite Hfl. cbn [bind]. destruct (flip_group_spec R M perm gf g Hinv Hok Hgl) as (g' & H1 & H2 & H3 & H4 & H5 & H6).
      exists g'. split; [exact H1|]. split; [exact H3|]. split; [exact H2|]. split; [eauto|]. split.
      + intros i flag row x Hi Hf He. rewrite <- (Hgf i Hi) in Hf. destruct (H5 i flag row x Hf He) as (row' & x' & E1 & E2 & E3).
        exists row', x'. split; [exact E1|]. split; [|exact E3]. intros Ht. exists M, perm. auto.
      + rewrite H3. fold gf. rewrite Hex. rewrite (Hcong g' H2), Hfl. cbn [bind]. eapply H6; eauto.
    - exists g. split; [reflexivity|]. split; [reflexivity|]. split; [reflexivity|]. split; [eauto|]. split.
      + intros i flag row x Hi Hf He. exists row, x. split; [exact He|]. split; [|auto].
        intros ->. exfalso. assert (existsb (fun b => b) gf = true); [|congruence].
        apply existsb_exists. exists true. split; [|reflexivity]. rewrite <- (Hgf i Hi) in Hf. eapply nth_error_In; eauto.
      + fold gf. rewrite Hex. reflexivity.
  Qed.

  Lemma elem_at_iff {E} (groups : list (egroup E)) g i row x :
    elem_at groups g i row x <-> exists grp, nth_error groups g = Some grp /\ elem_at [grp] 0 i row x.
  Proof.
    split.
    - intros (grp & vi & Hg & H). exists grp. split; auto. exists grp, vi. auto.
    - intros (grp & Hg & grp' & vi & Hg' & H). cbn [nth_error] in Hg'. injection Hg' as <-. exists grp, vi. auto.
  Qed.

  Lemma combine_bases_nth {E} (groups : list (egroup E)) k b g :
    nth_error (combine (base_element_nrs (map nelements groups)) groups) k = Some (b, g) <->
    nth_error groups k = Some g /\ b = base (map nelements groups) k.
  Proof.
    rewrite nth_error_combine_Some. split.
    - intros (H1 & H2). split; auto. rewrite base_element_nrs_nth in H1; [congruence|]. rewrite map_length. apply nth_error_Some. congruence.
    - intros (H1 & ->). split; auto. apply base_element_nrs_nth. rewrite map_length. apply nth_error_Some. congruence.
  Qed.

  Lemma combine_bases_length {E} (groups : list (egroup E)) :
    length (combine (base_element_nrs (map nelements groups)) groups) = length groups.
  Proof.
    destruct groups as [|g gs]; [reflexivity|]. rewrite combine_length, base_element_nrs_length, map_length; [lia|discriminate].
  Qed.

  Lemma base_bound {E} (groups : list (egroup E)) k g : nth_error groups k = Some g ->
    base (map nelements groups) k + nelements g <= sum (map nelements groups).
  Proof.
    intros Hg. rewrite <- (base_S (map nelements groups) k); [apply sum_firstn_le|]. rewrite nth_error_map, Hg. reflexivity.
  Qed.

  Lemma make_mesh_pending {E A' V'} vs gs c : make_mesh (E := E) (A := A') (V := V') (Some vs) gs Pending Pending c 0 0 0 =
    Ok (mk_mesh gs (Some vs) c (if truthy c then Pending else Unavailable) (if truthy c then Pending else Unavailable) 0 0 0).
  Proof. unfold make_mesh. cbn [none_to_false]. destruct (truthy c); reflexivity. Qed.

  Lemma perform_flips_spec flipper flags (m : mesh en A V) vs :
    m_vertices m = Some vs -> length flags = sum (map nelements (m_groups m)) ->
    Forall (flipper_ok flipper) (m_groups m) ->
    (forall g g', In g (m_groups m) -> eg_fvi g' = eg_fvi g -> flipper g' = flipper g) ->
    exists m', perform_flips R flipper flags m = Ok m' /\
      m_vertices m' = Some vs /\ m_conforming m' = m_conforming m /\
      map nelements (m_groups m') = map nelements (m_groups m) /\ map eg_fvi (m_groups m') = map eg_fvi (m_groups m) /\
      has_rows (m_groups m') /\
      (forall g i flag row x, elem_at (m_groups m) g i row x ->
         nth_error flags (base (map nelements (m_groups m)) g + i) = Some flag ->
         exists row' x', elem_at (m_groups m') g i row' x' /\
           (flag = true -> exists grp M perm, nth_error (m_groups m) g = Some grp /\ flipper grp = Ok (M, perm) /\ flipped R M perm row x row' x') /\
           (flag = false -> row' = row /\ x' = x)) /\
      (exists m'', perform_flips R flipper flags m' = Ok m'' /\ m_groups m'' = m_groups m /\ m_vertices m'' = Some vs).
  Proof.
    intros Hvs Hlen HF Hcong. unfold perform_flips at 1. rewrite Hvs.
    fold (flip_mesh_group flipper flags).
    set (l := combine (base_element_nrs (map nelements (m_groups m))) (m_groups m)).
    assert (Hone : forall k b g, nth_error l k = Some (b, g) -> flipper_ok flipper g /\ b + nelements g <= length flags /\
              (forall g', eg_fvi g' = eg_fvi g -> flipper g' = flipper g)).
    { intros k b g Hk. apply combine_bases_nth in Hk as (Hg & ->). rewrite Forall_forall in HF. pose proof (nth_error_In _ _ Hg) as Hin.
      split; [apply HF; auto|]. split; [rewrite Hlen; apply base_bound; auto|]. intros g'. apply Hcong. exact Hin. }
    assert (Hgs : exists gs', mapM (flip_mesh_group flipper flags) l = Ok gs').
    { apply mapM_total. intros (b, g) Hin. apply In_nth_error in Hin as (k & Hk). destruct (Hone _ _ _ Hk) as (H1 & H2 & H3).
      destruct (flip_one flipper flags b g H1 H2 H3) as (g' & Hg' & _). eauto. }
    destruct Hgs as (gs' & Hgs). rewrite Hgs. cbn [bind].
    assert (Hpt : forall k g, nth_error (m_groups m) k = Some g ->
      exists g', nth_error gs' k = Some g' /\ nelements g' = nelements g /\ eg_fvi g' = eg_fvi g /\
      (exists perm, flippable R perm g') /\
      (forall i flag row x, i < nelements g -> nth_error flags (base (map nelements (m_groups m)) k + i) = Some flag -> elem_at [g] 0 i row x ->
         exists row' x', elem_at [g'] 0 i row' x' /\
           (flag = true -> exists M perm, flipper g = Ok (M, perm) /\ flipped R M perm row x row' x') /\
           (flag = false -> row' = row /\ x' = x)) /\
      flip_mesh_group flipper flags (base (map nelements (m_groups m)) k, g') = Ok g).
    { intros k g Hg. assert (Hk : nth_error l k = Some (base (map nelements (m_groups m)) k, g)) by (apply combine_bases_nth; auto).
      destruct (Hone _ _ _ Hk) as (H1 & H2 & H3). destruct (flip_one flipper flags _ g H1 H2 H3) as (g' & Hg' & Hrest).
      exists g'. split; [|exact Hrest]. destruct (mapM_nth _ _ _ _ _ Hgs Hk) as (g'' & Hg'' & Heq). congruence. }
    assert (Hgl : length gs' = length (m_groups m)) by (rewrite (mapM_length _ _ _ Hgs); apply combine_bases_length).
    assert (Hback : forall k g', nth_error gs' k = Some g' -> exists g, nth_error (m_groups m) k = Some g).
    { intros k g' Hk. destruct (nth_error (m_groups m) k) as [g|] eqn:Hg; [eauto|]. apply nth_error_None in Hg.
      assert (k < length gs') by (apply nth_error_Some; congruence). lia. }
    assert (Hmapeq : forall X (f : egroup en -> X), (forall k g g', nth_error (m_groups m) k = Some g -> nth_error gs' k = Some g' -> f g' = f g) ->
              map f gs' = map f (m_groups m)).
    { intros X f H. apply nth_error_ext'. intros k. rewrite !nth_error_map. destruct (nth_error gs' k) as [g'|] eqn:Hk.
      - destruct (Hback _ _ Hk) as (g & Hg). rewrite Hg. cbn. f_equal. eapply H; eauto.
      - apply nth_error_None in Hk. assert (Hn : nth_error (m_groups m) k = None) by (apply nth_error_None; lia). now rewrite Hn. }
    assert (Hne : map nelements gs' = map nelements (m_groups m)).
    { apply Hmapeq. intros k g g' Hg Hg'. destruct (Hpt _ _ Hg) as (g1 & Hg1 & Hn & _). congruence. }
    rewrite make_mesh_pending. eexists. split; [reflexivity|]. cbn [m_vertices m_conforming m_groups].
    split; [reflexivity|]. split; [reflexivity|]. split; [exact Hne|]. split; [|split; [|split]].
    - apply Hmapeq. intros k g g' Hg Hg'. destruct (Hpt _ _ Hg) as (g1 & Hg1 & _ & Hf & _). congruence.
    - unfold has_rows. apply Forall_forall. intros g' Hin. apply In_nth_error in Hin as (k & Hk). destruct (Hback _ _ Hk) as (g & Hg).
      destruct (Hpt _ _ Hg) as (g1 & Hg1 & _ & _ & (perm & vi & Hvi & Hl & _) & _). assert (g1 = g') by congruence. subst. eauto.
    - intros g i flag row x He Hf. apply elem_at_iff in He as (grp & Hg & He).
      destruct (Hpt _ _ Hg) as (g' & Hg' & _ & _ & _ & Hel & _).
      assert (Hi : i < nelements grp).
      { destruct He as (grp0 & vi & Hg0 & _ & _ & Hx). cbn in Hg0. injection Hg0 as <-. unfold nelements. apply nth_error_Some. congruence. }
      destruct (Hel i flag row x Hi Hf He) as (row' & x' & E1 & E2 & E3). exists row', x'.
      split; [apply elem_at_iff; eauto|]. split; [|exact E3]. intros Ht. destruct (E2 Ht) as (M & perm & E4 & E5). exists grp, M, perm. auto.
    - unfold perform_flips. cbn [m_vertices m_groups m_conforming]. fold (flip_mesh_group flipper flags). rewrite Hne.
      assert (Hm2 : mapM (flip_mesh_group flipper flags) (combine (base_element_nrs (map nelements (m_groups m))) gs') = Ok (m_groups m)).
      { apply mapM_ok. apply Forall2_intro_nth.
        - rewrite <- Hne, combine_bases_length. exact Hgl.
        - intros k (b, g') g Hk Hg. rewrite <- Hne in Hk. apply combine_bases_nth in Hk as (Hg' & ->). rewrite Hne.
          destruct (Hpt _ _ Hg) as (g1 & Hg1 & _ & _ & _ & _ & Hfl). congruence. }
      rewrite Hm2. cbn [bind]. rewrite make_mesh_pending. eexists. split; [reflexivity|]. auto.
  Qed.
End Perform.

(** ** orientation of simplices *)
Section Orient.
  Variable R : cring.
  Add Ring Rring2 : (rth R).
  Local Open Scope cring_scope.

  Lemma orientation_swap d (vs : list (list R)) v0 v1 rest : (1 <= d <= 3)%nat -> length rest = (d - 1)%nat ->
    Forall (fun v => length v = d) vs -> Forall (fun v => v < length vs)%nat (v0 :: v1 :: rest) ->
    exists o, element_orientation R 0 (seq 1 d) vs (v0 :: v1 :: rest) = Ok o /\
      element_orientation R 0 (seq 1 d) vs (v1 :: v0 :: rest) = Ok (- o).
  Proof.
    intros Hd Hl HF Hr.
    assert (Hget : forall v, (v < length vs)%nat -> exists x, get vs v = Ok x /\ length x = d).
    { intros v Hv. destruct (get_total vs v Hv) as (x & Hx). exists x. split; auto. apply get_ok in Hx. apply nth_error_In in Hx.
      rewrite Forall_forall in HF. auto. }
    inversion Hr as [|? ? Hv0 Hr1]; subst. inversion Hr1 as [|? ? Hv1 Hr2]; subst.
    destruct (Hget v0 Hv0) as (x0 & G0 & L0), (Hget v1 Hv1) as (x1 & G1 & L1).
    destruct d as [|[|[|[|d]]]]; try lia.
    - destruct rest; cbn in Hl; [|lia].
      destruct x0 as [|a0 [|]]; cbn in L0; try lia. destruct x1 as [|a1 [|]]; cbn in L1; try lia.
      unfold element_orientation. cbn [seq mapM].
      unfold get at 1. cbn [nth_error bind]. rewrite G0. cbn [bind]. unfold get at 1. cbn [nth_error bind]. rewrite G1. cbn [bind].
      unfold get at 1. cbn [nth_error bind]. rewrite G1. cbn [bind]. unfold get at 1. cbn [nth_error bind]. rewrite G0. cbn.
      eexists. split; [reflexivity|]. f_equal. ring.
    - destruct rest as [|v2 [|]]; cbn in Hl; try lia. inversion Hr2 as [|? ? Hv2 _]; subst.
      destruct (Hget v2 Hv2) as (x2 & G2 & L2).
      destruct x0 as [|a0 [|b0 [|]]]; cbn in L0; try lia. destruct x1 as [|a1 [|b1 [|]]]; cbn in L1; try lia.
      destruct x2 as [|a2 [|b2 [|]]]; cbn in L2; try lia.
      unfold element_orientation. cbn [seq mapM].
      unfold get at 1. cbn [nth_error bind]. rewrite G0. cbn [bind]. unfold get at 1. cbn [nth_error bind]. rewrite G1. cbn [bind].
      unfold get at 1. cbn [nth_error bind]. rewrite G2. cbn [bind].
      unfold get at 1. cbn [nth_error bind]. rewrite G1. cbn [bind]. unfold get at 1. cbn [nth_error bind]. rewrite G0. cbn [bind].
      unfold get at 1. cbn [nth_error bind]. rewrite G2. cbn. eexists. split; [reflexivity|]. f_equal. ring.
    - destruct rest as [|v2 [|v3 [|]]]; cbn in Hl; try lia. inversion Hr2 as [|? ? Hv2 Hr3]; subst. inversion Hr3 as [|? ? Hv3 _]; subst.
      destruct (Hget v2 Hv2) as (x2 & G2 & L2), (Hget v3 Hv3) as (x3 & G3 & L3).
      destruct x0 as [|a0 [|b0 [|c0 [|]]]]; cbn in L0; try lia. destruct x1 as [|a1 [|b1 [|c1 [|]]]]; cbn in L1; try lia.
      destruct x2 as [|a2 [|b2 [|c2 [|]]]]; cbn in L2; try lia. destruct x3 as [|a3 [|b3 [|c3 [|]]]]; cbn in L3; try lia.
      unfold element_orientation. cbn [seq mapM].
      unfold get at 1. cbn [nth_error bind]. rewrite G0. cbn [bind]. unfold get at 1. cbn [nth_error bind]. rewrite G1. cbn [bind].
      unfold get at 1. cbn [nth_error bind]. rewrite G2. cbn [bind]. unfold get at 1. cbn [nth_error bind]. rewrite G3. cbn [bind].
      unfold get at 1. cbn [nth_error bind]. rewrite G1. cbn [bind]. unfold get at 1. cbn [nth_error bind]. rewrite G0. cbn [bind].
      unfold get at 1. cbn [nth_error bind]. rewrite G2. cbn [bind]. unfold get at 1. cbn [nth_error bind]. rewrite G3. cbn.
      eexists. split; [reflexivity|]. f_equal. ring.
  Qed.

  (** the orientation is the determinant of the edge vectors at vertex 0 *)
  Lemma orientation_det d (vs : list (list R)) row b xs : (1 <= d <= 3)%nat ->
    length b = d -> length xs = d -> Forall (fun x => length x = d) xs ->
    Forall2 (fun v x => nth_error vs v = Some x) row (b :: xs) ->
    element_orientation R 0 (seq 1 d) vs row = Ok (det R d (map (fun x => vsub x b) xs)).
  Proof.
    intros Hd Lb Lx Fx H.
    assert (Hcons : forall row0 x ys, Forall2 (fun v x => nth_error vs v = Some x) row0 (x :: ys) ->
      exists v row1, row0 = v :: row1 /\ get vs v = Ok x /\ Forall2 (fun v x => nth_error vs v = Some x) row1 ys).
    { intros row0 x ys HF. inversion HF as [|v0 ? row1 ? H0 Hr]; subst. exists v0, row1. split; [reflexivity|]. split; [now apply get_ok|exact Hr]. }
    destruct (Hcons _ _ _ H) as (v0 & row0 & -> & H0 & Hr0). unfold element_orientation.
    unfold get at 1. cbn [nth_error bind]. rewrite H0. cbn [bind].
    destruct xs as [|x1 xs]; [cbn in Lx; lia|]. destruct (Hcons _ _ _ Hr0) as (v1 & row1 & -> & H1 & Hr1).
    apply Forall_cons_iff in Fx as (L1 & Fx).
    destruct d as [|[|[|[|d]]]]; try lia.
    - destruct xs; [|cbn in Lx; lia].
      destruct b as [|b0 [|]]; cbn in Lb; try lia. destruct x1 as [|a0 [|]]; cbn in L1; try lia.
      cbn [seq mapM]. unfold get at 1. cbn [nth_error bind]. rewrite H1. cbn. f_equal. ring.
    - destruct xs as [|x2 [|]]; try (cbn in Lx; lia). destruct (Hcons _ _ _ Hr1) as (v2 & row2 & -> & H2 & _).
      apply Forall_cons_iff in Fx as (L2 & _).
      destruct b as [|b0 [|b1 [|]]]; cbn in Lb; try lia. destruct x1 as [|a0 [|a1 [|]]]; cbn in L1; try lia.
      destruct x2 as [|c0 [|c1 [|]]]; cbn in L2; try lia.
      cbn [seq mapM]. unfold get at 1. cbn [nth_error bind]. rewrite H1. cbn [bind].
      unfold get at 1. cbn [nth_error bind]. rewrite H2. cbn. f_equal. ring.
    - destruct xs as [|x2 [|x3 [|]]]; try (cbn in Lx; lia). destruct (Hcons _ _ _ Hr1) as (v2 & row2 & -> & H2 & Hr2).
      destruct (Hcons _ _ _ Hr2) as (v3 & row3 & -> & H3 & _).
      apply Forall_cons_iff in Fx as (L2 & Fx). apply Forall_cons_iff in Fx as (L3 & _).
      destruct b as [|b0 [|b1 [|b2 [|]]]]; cbn in Lb; try lia. destruct x1 as [|a0 [|a1 [|a2 [|]]]]; cbn in L1; try lia.
      destruct x2 as [|c0 [|c1 [|c2 [|]]]]; cbn in L2; try lia. destruct x3 as [|d0 [|d1 [|d2 [|]]]]; cbn in L3; try lia.
      cbn [seq mapM]. unfold get at 1. cbn [nth_error bind]. rewrite H1. cbn [bind].
      unfold get at 1. cbn [nth_error bind]. rewrite H2. cbn [bind].
      unfold get at 1. cbn [nth_error bind]. rewrite H3. cbn. f_equal. ring.
  Qed.
End Orient.
