(** * FdConnMainProofs: permutations of all cells, exported coordinates, node mappings. *)
From Coq Require Import List Arith Bool Lia Permutation Sorted ZArith.
From Verif Require Import Np NpFacts MeshModel MeshSpec MeshProofs MeshStateModel Lin ProcModel OppMainProofs DistGraphProofs ConsistModel ConsistProofs SplitProofs FdSpec FdConnModel FdConnSpec FdConnProofs.
Import ListNotations.

(** ** perm2cells *)
Definition entry (d : list (list nat * list nat)) (p : list nat) (e : nat) : Prop := exists cs, In (p, cs) d /\ In e cs.

Lemma add_cell_keys d p c : forall q, In q (map fst (add_cell d p c)) <-> q = p \/ In q (map fst d).
Proof.
  induction d as [|(q0, cs) d IH]; intros q; cbn [add_cell map fst In]; [intuition congruence|].
  destruct (list_nat_eqb q0 p) eqn:E.
  - apply list_nat_eqb_iff in E. subst q0. cbn [map fst In]. intuition congruence.
  - cbn [map fst In]. rewrite IH. intuition congruence.
Qed.
Lemma add_cell_nodup d p c : NoDup (map fst d) -> NoDup (map fst (add_cell d p c)).
Proof.
  induction d as [|(q0, cs) d IH]; intros H; cbn [add_cell map fst]; [constructor; [intros []|constructor]|].
  cbn [map fst] in H. inversion H as [|? ? H1 H2]; subst. destruct (list_nat_eqb q0 p) eqn:E; cbn [map fst]; [now constructor|].
  constructor; [|now apply IH]. rewrite add_cell_keys. intros [->|Hin]; [|contradiction]. assert (list_nat_eqb p p = true) by now apply list_nat_eqb_iff. congruence.
Qed.
Lemma add_cell_perm d p c : Permutation (concat (map snd (add_cell d p c))) (c :: concat (map snd d)).
Proof.
  induction d as [|(q0, cs) d IH]; cbn [add_cell map snd concat app]; [reflexivity|].
  destruct (list_nat_eqb q0 p); cbn [map snd concat].
  - rewrite <- app_assoc. symmetry. apply Permutation_middle.
  - rewrite IH. symmetry. apply Permutation_middle.
Qed.
Lemma add_cell_entry d p c q e : entry (add_cell d p c) q e <-> (q = p /\ e = c) \/ entry d q e.
Proof.
  induction d as [|(q0, cs) d IH]; cbn [add_cell].
  - split.
    + intros (cs & [E|[]] & Hin). injection E as <- <-. destruct Hin as [->|[]]. auto.
    + intros [(-> & ->)|(cs & [] & _)]. exists [c]. split; left; reflexivity.
  - destruct (list_nat_eqb q0 p) eqn:E.
    + apply list_nat_eqb_iff in E. subst q0. split.
      * intros (cs' & [E|Hin] & He).
        -- injection E as <- <-. apply in_app_iff in He as [He|[->|[]]]; [right; exists cs; split; [now left|exact He]|left; auto].
        -- right. exists cs'. split; [now right|exact He].
      * intros [(-> & ->)|(cs' & [E|Hin] & He)].
        -- exists (cs ++ [c]). split; [now left|apply in_app_iff; right; now left].
        -- injection E as <- <-. exists (cs ++ [c]). split; [now left|apply in_app_iff; now left].
        -- exists cs'. split; [now right|exact He].
    + split.
      * intros (cs' & [E'|Hin] & He).
        -- injection E' as <- <-. right. exists cs. split; [now left|exact He].
        -- destruct (proj1 IH) as [H|(cs2 & H1 & H2)]; [exists cs'; auto|auto|right; exists cs2; split; [now right|exact H2]].
      * intros [H|(cs' & [E'|Hin] & He)].
        -- destruct (proj2 IH (or_introl H)) as (cs2 & H1 & H2). exists cs2. split; [now right|exact H2].
        -- injection E' as <- <-. exists cs. split; [now left|exact He].
        -- destruct (proj2 IH) as (cs2 & H1 & H2); [right; exists cs'; auto|]. exists cs2. split; [now right|exact H2].
Qed.

Lemma add_cell_nonempty d p c : (forall q cs, In (q, cs) d -> cs <> []) -> forall q cs, In (q, cs) (add_cell d p c) -> cs <> [].
Proof.
  induction d as [|(q0, cs0) d IH]; intros H q cs; cbn [add_cell].
  - intros [E|[]]. injection E as <- <-. discriminate.
  - destruct (list_nat_eqb q0 p); intros [E|Hin].
    + injection E as <- <-. now destruct cs0.
    + eapply H. right. eauto.
    + injection E as <- <-. eapply H. left. reflexivity.
    + eapply IH; eauto. intros. eapply H. right. eauto.
Qed.

(** What perm2cells is: every element below [n] is in exactly one list, that of its permutation *)
Definition partition (n : nat) (perms : list (list nat * list nat)) : Prop :=
  NoDup (map fst perms) /\ Permutation (concat (map snd perms)) (seq 0 n) /\ forall p cs, In (p, cs) perms -> cs <> [].

Section Perms.
  Variables (fx : fdexport) (rows cells : list (list nat)) (old : list nat) (nn : nat).
  Hypothesis Hold : StronglySorted lt old.
  Hypothesis Hcells : Forall2 (stands_for old) cells rows.
  Hypothesis Hnd : Forall (fun row : list nat => NoDup row) rows.
  Hypothesis Hfx : proper_fx nn cells fx.

  (** The permutation of element [e] *)
  Definition perm_of (e : nat) (perm : list nat) : Prop :=
    exists c row frow orow, nth_error (fx_cells fx) e = Some c /\ nth_error rows e = Some row /\ fx_row fx c frow /\
      stands_for old frow orow /\ Permutation perm (seq 0 (length row)) /\ related perm orow row.

  Lemma cell_perm_ok e c row ids : nth_error (fx_cells fx) e = Some c -> nth_error rows e = Some row -> nth_error (fx_closure fx) c = Some ids ->
    exists perm, export_perm row (map (fun x => x - fst (fx_vrange fx)) (filter (fun x => (fst (fx_vrange fx) <=? x) && (x <? snd (fx_vrange fx))) ids)) = Ok perm /\ perm_of e perm.
  Proof using Hold Hcells Hnd Hfx.
    intros Hc Hr Hi. destruct (Forall2_nth_error_r _ _ _ _ _ Hcells Hr) as (mm' & Hm & Hst).
    destruct Hfx as (_ & _ & Hfx'). destruct (Hfx' _ _ _ Hc Hm) as ((frow & (ids' & Hi' & ->) & Hp) & _).
    assert (ids' = ids) by congruence. subst ids'.
    match goal with |- context [export_perm row ?f] => set (frow := f) in * end.
    destruct (export_perm_ok old mm' row frow) as (perm & E & Hperm & Hrel); auto.
    { rewrite Forall_forall in Hnd. apply Hnd. eapply nth_error_In; eauto. }
    exists perm. split; [exact E|].
    assert (Ho : exists orow, stands_for old frow orow).
    { assert (forall v, In v frow -> exists w, nth_error old v = Some w).
      { intros v Hv. apply (Permutation_in _ Hp) in Hv. destruct (Forall2_In_l _ _ _ _ Hst Hv) as (w & _ & Hw). eauto. }
      clear - H. revert H. generalize frow. clear frow. intros frow. induction frow as [|v f IH]; intros H; [exists []; constructor|].
      destruct IH as (o & Ho); [intros; apply H; now right|]. destruct (H v) as (w & Hw); [now left|]. exists (w :: o). now constructor. }
    destruct Ho as (orow & Ho). exists c, row, frow, orow. repeat (split; [first [assumption|exists ids; split; [assumption|reflexivity]]|]).
    eapply related_old; eauto.
  Qed.

  Lemma cell_perms_ok : exists perms, cell_perms fx rows = Ok perms /\ partition (length rows) perms /\ forall p e, entry perms p e -> perm_of e p.
  Proof using Hold Hcells Hnd Hfx.
    unfold cell_perms. pose proof (Forall2_length' _ _ _ Hcells) as HL. destruct Hfx as (Hlen & Hndc & Hfx').
    assert (Hcl : exists closures, take (fx_closure fx) (fx_cells fx) = Ok closures).
    { apply take_total. apply Forall_forall. intros c Hc. apply In_nth_error in Hc as (e & Hc).
      assert (e < length cells) by (rewrite <- Hlen; apply nth_error_Some; congruence).
      destruct (nth_error cells e) as [mm'|] eqn:E; [|apply nth_error_None in E; lia].
      destruct (Hfx' _ _ _ Hc E) as ((frow & (ids & Hi & _) & _) & _). apply nth_error_Some. congruence. }
    destruct Hcl as (closures & Hcl). rewrite Hcl. cbn [bind]. apply take_ok in Hcl. pose proof (Forall2_length' _ _ _ Hcl) as HL2.
    match goal with |- context [foldM ?f _ _] => set (step := f) end.
    assert (Hgen : forall k suffix d, closures = firstn k closures ++ suffix -> length (firstn k closures) = k ->
      NoDup (map fst d) -> Permutation (concat (map snd d)) (seq 0 k) -> (forall p cs, In (p, cs) d -> cs <> []) -> (forall p e, entry d p e -> perm_of e p) ->
      exists perms, foldM step (enumerate_from k suffix) d = Ok perms /\ NoDup (map fst perms) /\
        Permutation (concat (map snd perms)) (seq 0 (k + length suffix)) /\ (forall p cs, In (p, cs) perms -> cs <> []) /\ forall p e, entry perms p e -> perm_of e p).
    { intros k suffix. revert k. induction suffix as [|ids suffix IH]; intros k d Hsuf Hk H1 H2 H4 H3.
      - exists d. rewrite Nat.add_0_r. cbn. auto.
      - rewrite enumerate_from_cons. cbn [foldM]. unfold step at 1. cbn [fst snd].
        assert (Hids : nth_error closures k = Some ids). { rewrite Hsuf, nth_error_app2 by lia. now rewrite Hk, Nat.sub_diag. }
        destruct (Forall2_nth_error_r _ _ _ _ _ Hcl Hids) as (c & Hc & Hci).
        assert (Hkr : k < length rows). { rewrite <- HL, <- Hlen. apply nth_error_Some. congruence. }
        destruct (nth_error rows k) as [row|] eqn:Er; [|apply nth_error_None in Er; lia].
        rewrite (proj2 (get_ok rows k row) Er). cbn [bind].
        destruct (cell_perm_ok k c row ids Hc Er Hci) as (perm & Ep & Hpo). rewrite Ep. cbn [bind].
        replace (k + length (ids :: suffix)) with (S k + length suffix) by (cbn [length]; lia).
        apply IH.
        + assert (Hf : firstn (S k) closures = firstn k closures ++ [ids]).
          { rewrite Hsuf at 1. rewrite firstn_app, Hk, (firstn_all2 (firstn k closures)) by lia.
            replace (S k - k) with 1 by lia. reflexivity. }
          rewrite Hf, <- app_assoc. exact Hsuf.
        + rewrite firstn_length_le; [reflexivity|]. apply nth_error_Some. congruence.
        + now apply add_cell_nodup.
        + rewrite add_cell_perm, H2. rewrite seq_S. cbn [plus]. apply Permutation_cons_append.
        + now apply add_cell_nonempty.
        + intros p e He. apply add_cell_entry in He as [(-> & ->)|He]; auto. }
    destruct (Hgen 0 closures []) as (perms & E & P1 & P2 & P4 & P3); try reflexivity; try constructor.
    { intros p cs []. }
    { intros p e (cs & [] & _). }
    exists perms. unfold enumerate. split; [exact E|]. split; [|exact P3]. split; [exact P1|]. split; [|exact P4].
    cbn [plus] in P2. rewrite P2. rewrite <- HL2, Hlen, HL. reflexivity.
  Qed.
End Perms.

Lemma partition_entry n perms e : partition n perms -> e < n -> exists p, entry perms p e.
Proof.
  intros (_ & Hp & _) He. assert (H : In e (concat (map snd perms))) by (apply (Permutation_in _ (Permutation_sym Hp)), in_seq; lia).
  apply in_concat in H as (cs & Hcs & Hin). apply in_map_iff in Hcs as ((p, cs') & E & Hcs). cbn in E. subst cs'. exists p, cs. auto.
Qed.

(** ** Loops that treat each block of elements once *)
Lemma foldM_blocks {X P} (step : list X -> P * list nat -> res (list X)) (h : P -> nat -> X -> X -> Prop) n : forall perms arr,
  (forall arr pc, In pc perms -> length arr = n -> NoDup (snd pc) -> Forall (fun e => e < n) (snd pc) ->
     exists arr', step arr pc = Ok arr' /\ length arr' = n /\ (forall e, ~ In e (snd pc) -> nth_error arr' e = nth_error arr e) /\
       (forall e, In e (snd pc) -> exists x y, nth_error arr e = Some x /\ nth_error arr' e = Some y /\ h (fst pc) e x y)) ->
  length arr = n -> NoDup (concat (map snd perms)) -> Forall (fun e => e < n) (concat (map snd perms)) ->
  exists arr', foldM step perms arr = Ok arr' /\ length arr' = n /\
    (forall e, ~ In e (concat (map snd perms)) -> nth_error arr' e = nth_error arr e) /\
    (forall p cs e, In (p, cs) perms -> In e cs -> exists x y, nth_error arr e = Some x /\ nth_error arr' e = Some y /\ h p e x y).
Proof.
  induction perms as [|(p, cs) perms IH]; intros arr Hstep Hl Hn Hr.
  - exists arr. cbn. repeat split; auto. intros p cs e [].
  - cbn [map snd concat] in Hn, Hr. apply NoDup_app_inv in Hn as (Hn1 & Hn2 & Hdis). apply Forall_app in Hr as (Hr1 & Hr2).
    destruct (Hstep arr (p, cs)) as (arr1 & E1 & L1 & N1 & I1); auto; [now left|]. cbn [fst snd] in *.
    destruct (IH arr1) as (arr2 & E2 & L2 & N2 & I2); auto. { intros; apply Hstep; auto. now right. }
    exists arr2. cbn [foldM]. rewrite E1. cbn [bind]. split; [exact E2|]. split; [exact L2|]. split.
    + intros e He. cbn [map snd concat] in He. rewrite in_app_iff in He. rewrite N2, N1; tauto.
    + intros q cs' e [E|Hin] He.
      * injection E as <- <-. destruct (I1 e He) as (x & y & Hx & Hy & Hh). exists x, y. split; [exact Hx|]. split; [|exact Hh].
        rewrite N2; [exact Hy|]. intros Hc. now apply (Hdis e).
      * destruct (I2 q cs' e Hin He) as (x & y & Hx & Hy & Hh). exists x, y. split; [|auto]. rewrite <- N1; [exact Hx|].
        intros Hc. apply (Hdis e); auto. apply in_concat. exists cs'. split; auto. apply in_map_iff. exists (q, cs'). auto.
Qed.

Lemma scatter_block {X} (arr : list X) cs new : NoDup cs -> Forall (fun e => e < length arr) cs -> length new = length cs ->
  exists arr', scatter arr (combine cs new) = Ok arr' /\ length arr' = length arr /\ (forall e, ~ In e cs -> nth_error arr' e = nth_error arr e) /\
    (forall i e y, nth_error cs i = Some e -> nth_error new i = Some y -> nth_error arr' e = Some y).
Proof.
  intros Hn Hr Hl. assert (Hf : map fst (combine cs new) = cs).
  { clear - Hl. revert new Hl. induction cs as [|a l IH]; intros [|b p] Hl; cbn in *; try lia; [reflexivity|]. f_equal. apply IH. lia. }
  destruct (proj2 (scatter_ok_range (combine cs new) arr)) as (arr' & E).
  { apply Forall_forall. intros (i, v) Hin. cbn [fst]. apply in_combine_l in Hin. rewrite Forall_forall in Hr. auto. }
  exists arr'. split; [exact E|]. split; [now apply scatter_length in E|]. split.
  - intros e He. apply (scatter_notin _ _ _ _ E). now rewrite Hf.
  - intros i e y He Hy. apply (scatter_in _ _ _ _ _ E); [now rewrite Hf|]. apply (nth_error_In _ i), nth_error_combine_Some. auto.
Qed.

Lemma unique_nodup_length l : NoDup l -> length (unique l) = length l.
Proof.
  intros H. apply Permutation_length. apply NoDup_Permutation; [apply incr_NoDup, unique_incr|exact H|]. intros x. apply unique_In.
Qed.

Lemma perm_nth_row {X} (row row' : list X) sigma n : Permutation sigma (seq 0 n) -> length row = n ->
  Forall2 (fun j x => nth_error row j = Some x) sigma row' -> Permutation row' row.
Proof. intros Hs Hl HF. refine (take_perm row row' sigma _ _); [now rewrite Hl|now apply take_ok]. Qed.

Lemma concat_perm_nodup {X} (rows rows' : list (list X)) : Forall2 (fun a b => Permutation a b) rows rows' -> Permutation (concat rows) (concat rows').
Proof. induction 1; cbn [concat]; [reflexivity|]. now apply Permutation_app. Qed.

Lemma take_concat_nodup {X} (l : list (list X)) idx r : NoDup (concat l) -> NoDup idx -> take l idx = Ok r -> NoDup (concat r).
Proof.
  intros Hc Hi Ht. apply take_ok in Ht.
  assert (Huni : forall i j a b x, nth_error l i = Some a -> nth_error l j = Some b -> In x a -> In x b -> i = j).
  { clear - Hc. induction l as [|y l IH]; intros i j a b x Ha Hb Hxa Hxb; [destruct i; discriminate|]. cbn [concat] in Hc.
    apply NoDup_app_inv in Hc as (H1 & H2 & H3). destruct i as [|i], j as [|j]; cbn [nth_error] in *; auto.
    - injection Ha as ->. exfalso. apply (H3 x Hxa). apply in_concat. exists b. split; [eapply nth_error_In; eauto|auto].
    - injection Hb as ->. exfalso. apply (H3 x Hxb). apply in_concat. exists a. split; [eapply nth_error_In; eauto|auto].
    - f_equal. eapply IH; eauto. }
  assert (Hrow : forall i a, nth_error l i = Some a -> NoDup a).
  { clear - Hc. intros i a Ha. apply nth_error_In in Ha. induction l as [|y l IH]; [destruct Ha|]. cbn [concat] in Hc.
    apply NoDup_app_inv in Hc as (H1 & H2 & H3). destruct Ha as [->|Ha]; auto. }
  clear Hc. induction Ht as [|i a idx r Ha Ht IH]; [constructor|]. inversion Hi; subst. cbn [concat]. apply NoDup_app; auto.
  - eauto.
  - intros x Hxa Hxr. apply in_concat in Hxr as (b & Hb & Hxb). destruct (Forall2_In_r _ _ _ _ Ht Hb) as (j & Hj & Hjb).
    assert (i = j) by (eapply Huni; eauto). congruence.
Qed.

Section Mapping.
  Context {R : cring}.
  Variable resampling : list (list R) -> list (list R) -> list (list R).
  Variables (rint : R -> Z) (inj : Z -> R).
  Hypothesis Hround : rounds rint inj.
  Variables (d : nat) (nodes : list (list R)).
  Hypothesis Hsym : symmetric d nodes.
  Hypothesis Hint : interpolates resampling nodes.

  Lemma node_perm_range perm sigma : node_perm perm nodes sigma -> Forall (fun j => j < length nodes) sigma.
  Proof using. intros (Hp & _). apply Forall_forall. intros j Hj. apply (Permutation_in _ Hp), in_seq in Hj. lia. Qed.
  Lemma node_perm_length perm sigma : node_perm perm nodes sigma -> length sigma = length nodes.
  Proof using. intros (Hp & _). rewrite (Permutation_length Hp). apply seq_length. Qed.

  Lemma node_len p k : nth_error nodes k = Some p -> length p = d + 1.
  Proof using Hsym. intros H. apply (proj1 (proj2 Hsym)). eapply nth_error_In; eauto. Qed.

  (** [row']: node [k] of an element with vertices [vs] is node [j] of one with vertices [vs'] at the same place *)
  Definition renumbered (vs vs' row row' : list nat) : Prop :=
    length row' = length nodes /\
    forall k x, nth_error row' k = Some x -> exists j p q, nth_error row j = Some x /\ nth_error nodes k = Some p /\ nth_error nodes j = Some q /\ same_place vs p vs' q.

  Lemma renumber_ok perm sigma vs vs' row : node_perm perm nodes sigma -> Permutation perm (seq 0 (d + 1)) -> related perm vs vs' -> length row = length nodes ->
    exists row', apply_nodes (map (unitv (R := Zcring) (length nodes)) sigma) row = Ok row' /\ Permutation row' row /\ renumbered vs vs' row row'.
  Proof using Hsym.
    intros Hs Hp Hr Hl. destruct (apply_take (length nodes) sigma row (node_perm_range _ _ Hs) Hl) as (row' & E & HF). exists row'. split; [exact E|].
    split; [exact (perm_nth_row row row' sigma (length nodes) (proj1 Hs) Hl HF)|]. split; [rewrite <- (Forall2_length' _ _ _ HF); eapply node_perm_length; eauto|].
    intros k x Hx. destruct (Forall2_nth_error_r _ _ _ _ _ HF Hx) as (j & Hj & Hjx). destruct Hs as (_ & Hs). destruct (Hs _ _ Hj) as (p & q & Hkp & Hjq & Hm).
    exists j, p, q. repeat (split; [assumption|]). apply (moved_same perm); auto. rewrite (node_len _ _ Hkp). exact Hp.
  Qed.

  Variables (fx : fdexport) (rows : list (list nat)) (old : list nat).
  Hypothesis Hrows : Forall (fun row => length row = d + 1) rows.

  Lemma mapping_to_ok junk perms cnl : partition (length rows) perms -> (forall p e, entry perms p e -> perm_of fx rows old e p) ->
    length (fx_cells fx) = length rows -> NoDup (fx_cells fx) -> length junk = length rows -> NoDup (concat cnl) ->
    (forall c, In c (fx_cells fx) -> exists ns, nth_error cnl c = Some ns /\ length ns = length nodes) ->
    exists mapping, mapping_to_firedrake R resampling rint nodes junk (fx_cells fx) perms cnl = Ok mapping /\ length mapping = length rows /\ NoDup (concat mapping) /\
      forall e c row ns new, nth_error (fx_cells fx) e = Some c -> nth_error rows e = Some row -> nth_error cnl c = Some ns -> nth_error mapping e = Some new ->
        exists frow orow, fx_row fx c frow /\ stands_for old frow orow /\ renumbered row orow ns new.
  Proof using Hround Hsym Hint Hrows.
    intros Hpart Hent Hlen Hndc Hjunk Hndn Hcnl. unfold mapping_to_firedrake.
    match goal with |- context [foldM ?f perms junk] => set (step := f) end.
    set (h := fun (p : list nat) (e : nat) (x y : list nat) => exists c row ns frow orow, nth_error (fx_cells fx) e = Some c /\ nth_error rows e = Some row /\ nth_error cnl c = Some ns /\
      fx_row fx c frow /\ stands_for old frow orow /\ renumbered row orow ns y /\ Permutation y ns).
    destruct (foldM_blocks step h (length rows) perms junk) as (mapping & E & L & _ & I); auto.
    - intros arr (p, cs) Hin Ha Hn Hr. cbn [fst snd] in *.
      assert (Hpo : forall e, In e cs -> perm_of fx rows old e p) by (intros e He; apply Hent; exists cs; auto).
      assert (Hp : Permutation p (seq 0 (d + 1))).
      { destruct cs as [|e cs]; [exfalso; apply (proj2 (proj2 Hpart) p []); auto|].
        destruct (Hpo e) as (c & row & frow & orow & _ & Hr1 & _ & _ & Hp & _); [now left|].
        rewrite Forall_forall in Hrows. rewrite (Hrows row) in Hp by (eapply nth_error_In; eauto). exact Hp. }
      assert (Hp' : Permutation (argsort p) (seq 0 (d + 1))). { pose proof (argsort_perm p) as H. now rewrite (Permutation_length Hp), seq_length in H. }
      destruct (flip_matrix_ok resampling d nodes (argsort p) Hsym Hint Hp') as (sigma & Ef & Hs).
      unfold step. cbn [fst snd]. rewrite Ef. cbn [bind]. rewrite (int_unitv rint inj Hround).
      destruct (take_total (fx_cells fx) cs) as (fdc & Efd). { eapply Forall_impl; [|exact Hr]. cbn. intros; lia. }
      rewrite Efd. cbn [bind]. apply take_ok in Efd.
      destruct (take_total cnl fdc) as (olds & Eo).
      { apply Forall_forall. intros c Hc. destruct (Forall2_In_r _ _ _ _ Efd Hc) as (e & _ & He). apply nth_error_In in He.
        destruct (Hcnl c He) as (ns & Hns & _). apply nth_error_Some. congruence. }
      rewrite Eo. cbn [bind]. apply take_ok in Eo.
      set (N := map (unitv (R := Zcring) (length nodes)) sigma).
      assert (Hcell : forall e, In e cs -> exists c row ns frow orow new, nth_error (fx_cells fx) e = Some c /\ nth_error rows e = Some row /\ nth_error cnl c = Some ns /\
        fx_row fx c frow /\ stands_for old frow orow /\ apply_nodes N ns = Ok new /\ renumbered row orow ns new /\ Permutation new ns).
      { intros e He. destruct (Hpo e He) as (c & row & frow & orow & Hc & Hr1 & Hfr & Hso & Hp1 & Hrel).
        destruct (Hcnl c (nth_error_In _ _ Hc)) as (ns & Hns & Hln).
        assert (Hlr : length row = d + 1) by (rewrite Forall_forall in Hrows; apply Hrows; eapply nth_error_In; eauto).
        destruct (renumber_ok _ sigma row orow ns Hs Hp') as (new & En & Hpn & Hren); [now apply (related_inverse p orow row (d + 1))|exact Hln|].
        exists c, row, ns, frow, orow, new. repeat (split; [assumption|]). assumption. }
      assert (Hnew : exists new, mapM (apply_nodes N) olds = Ok new).
      { apply mapM_total. intros ns Hns. destruct (Forall2_In_r _ _ _ _ Eo Hns) as (c & Hc & Hcn). destruct (Forall2_In_r _ _ _ _ Efd Hc) as (e & He & Hec).
        destruct (Hcell e He) as (c' & row & ns' & frow & orow & new & H1 & H2 & H3 & H4 & H5 & H6 & _). assert (c' = c) by congruence. subst c'.
        assert (ns' = ns) by congruence. subst ns'. eauto. }
      destruct Hnew as (new & En). rewrite En. cbn [bind]. apply mapM_ok in En.
      assert (Hlnew : length new = length cs). { rewrite <- (Forall2_length' _ _ _ En), <- (Forall2_length' _ _ _ Eo), <- (Forall2_length' _ _ _ Efd). reflexivity. }
      destruct (scatter_block arr cs new Hn) as (arr' & Es & Ls & Ns & Is); [now rewrite Ha|exact Hlnew|].
      exists arr'. split; [exact Es|]. split; [now rewrite Ls|]. split; [exact Ns|].
      intros e He. pose proof He as He'. apply In_nth_error in He' as (i & Hi).
      destruct (Forall2_nth_error _ _ _ _ _ Efd Hi) as (c & Hic & Hc). destruct (Forall2_nth_error _ _ _ _ _ Eo Hic) as (ns & Hins & Hns).
      destruct (Forall2_nth_error _ _ _ _ _ En Hins) as (y & Hy & Hyn).
      destruct (nth_error arr e) as [x|] eqn:Ex. 2:{ apply nth_error_None in Ex. rewrite Forall_forall in Hr. specialize (Hr _ He). lia. }
      exists x, y. split; [reflexivity|]. split; [eapply Is; eauto|].
      destruct (Hcell e He) as (c' & row & ns' & frow & orow & new' & H1 & H2 & H3 & H4 & H5 & H6 & H7 & H8).
      assert (c' = c) by congruence. subst c'. assert (ns' = ns) by congruence. subst ns'. assert (new' = y) by congruence. subst new'.
      exists c, row, ns, frow, orow. repeat (split; [assumption|]). assumption.
    - apply (Permutation_NoDup (Permutation_sym (proj1 (proj2 Hpart)))), seq_NoDup.
    - apply Forall_forall. intros e He. apply (Permutation_in _ (proj1 (proj2 Hpart))), in_seq in He. lia.
    - rewrite E. cbn [bind].
      assert (Hall : forall e y, nth_error mapping e = Some y -> exists x p, h p e x y).
      { intros e y Hy. assert (He : e < length rows) by (rewrite <- L; apply nth_error_Some; congruence).
        destruct (partition_entry _ _ _ Hpart He) as (p & cs & Hin & Hie). destruct (I p cs e Hin Hie) as (x & y' & _ & Hy' & Hh).
        assert (y' = y) by congruence. subst y'. eauto. }
      assert (Hnd : NoDup (concat mapping)).
      { destruct (take_total cnl (fx_cells fx)) as (r & Er).
        { apply Forall_forall. intros c Hc. destruct (Hcnl c Hc) as (ns & Hns & _). apply nth_error_Some. congruence. }
        pose proof (take_concat_nodup _ _ _ Hndn Hndc Er) as Hndr. apply take_ok in Er. eapply Permutation_NoDup; [|exact Hndr]. symmetry. apply concat_perm_nodup.
        apply Forall2_intro_nth; [rewrite <- (Forall2_length' _ _ _ Er); congruence|].
        intros e y b Hy Hb. destruct (Hall e y Hy) as (x & p & c & row & ns & frow & orow & H1 & H2 & H3 & H4 & H5 & H6 & H7).
        destruct (Forall2_nth_error_r _ _ _ _ _ Er Hb) as (c' & Hc' & Hcb). assert (c' = c) by congruence. subst c'. assert (b = ns) by congruence. now subst b. }
      rewrite (unique_nodup_length _ Hnd), Nat.eqb_refl. cbn [guard bind]. exists mapping. split; [reflexivity|]. split; [exact L|]. split; [exact Hnd|].
      intros e c row ns new Hc Hrow Hns Hnew. destruct (Hall e new Hnew) as (x & p & c' & row' & ns' & frow & orow & H1 & H2 & H3 & H4 & H5 & H6 & H7).
      assert (c' = c) by congruence. subst c'. assert (row' = row) by congruence. assert (ns' = ns) by congruence. subst row' ns'.
      exists frow, orow. auto.
  Qed.
End Mapping.
