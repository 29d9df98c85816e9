(** * FdConnFromProofs: node mapping of imported meshes, transfer of fields, reference map. *)
From Coq Require Import List Arith Bool Lia Permutation Sorted ZArith Ring.
From Verif Require Import Np NpFacts MeshModel MeshSpec MeshProofs MeshStateModel Lin ProcModel FlipProofs OppMainProofs DistGraphProofs ConsistModel ConsistProofs SplitProofs MergeProofs FdSpec FdImportProofs FdConnModel FdConnSpec FdConnProofs FdConnMainProofs.
Import ListNotations.

(** ** Products of selection matrices *)
Section Select.
  Context {R : cring}.
  Add Ring Rring : (rth R).

  Lemma vscale1 (v : list R) : vscale (R := R) r1 v = v.
  Proof. unfold vscale. induction v as [|a v IH]; cbn [map]; [reflexivity|]. f_equal; [ring|exact IH]. Qed.
  Lemma vscale0 (v : list R) : vscale (R := R) r0 v = zeros (length v).
  Proof. unfold vscale, zeros. induction v as [|a v IH]; cbn [map length repeat]; [reflexivity|]. f_equal; [ring|exact IH]. Qed.
  Lemma zeros_vadd n (v : list R) : length v = n -> vadd (zeros n) v = v.
  Proof. intros H. rewrite vadd_comm. now apply vadd_zeros. Qed.

  Lemma vecmat_zeros n m (N : list (list R)) : length N = m -> Forall (fun r => length r = n) N -> vecmat n (zeros m) N = zeros n.
  Proof.
    unfold vecmat. revert m. induction N as [|r N IH]; intros m Hm HF; cbn [length] in Hm; subst m; [reflexivity|]. inversion HF; subst.
    change (zeros (S (length N))) with ((r0 : R) :: zeros (length N)). cbn [map2 fold_right]. rewrite IH by auto. rewrite vscale0. apply zeros_vadd. apply repeat_length.
  Qed.
  Lemma vecmat_unit n m s j (N : list (list R)) row : length N = m -> Forall (fun r => length r = n) N -> nth_error N j = Some row ->
    vecmat n (map (fun i => if (s + j) =? i then r1 else r0) (seq s m)) N = row.
  Proof.
    revert m s j. induction N as [|r N IH]; intros m s j Hm HF Hj; [destruct j; discriminate|]. cbn [length] in Hm. subst m. inversion HF; subst.
    cbn [seq map]. unfold vecmat. cbn [map2 fold_right]. fold (vecmat (R := R)). destruct j as [|j].
    - cbn [nth_error] in Hj. injection Hj as ->. rewrite Nat.add_0_r, Nat.eqb_refl, vscale1.
      assert (E : map (fun i => if s =? i then r1 else r0) (seq (S s) (length N)) = (zeros (length N) : list R)).
      { unfold zeros. rewrite <- (seq_length (length N) (S s)) at 2. generalize (fun i => in_seq (length N) (S s) i). generalize (seq (S s) (length N)). intros l Hl.
        assert (Hl' : forall i, In i l -> s < i) by (intros i Hi; apply Hl in Hi; lia). clear Hl. induction l as [|a l IHl]; [reflexivity|]. cbn [map length repeat].
        rewrite IHl by (intros; apply Hl'; now right). assert (s < a) by (apply Hl'; now left). destruct (Nat.eqb_spec s a); [lia|reflexivity]. }
      rewrite E. change (fold_right vadd (zeros (length row)) (map2 vscale (zeros (length N)) N)) with (vecmat (length row) (zeros (length N)) N).
      rewrite vecmat_zeros by auto. now apply vadd_zeros.
    - destruct (Nat.eqb_spec (s + S j) s); [lia|]. rewrite vscale0. cbn [nth_error] in Hj.
      match goal with |- vadd _ ?t = _ => assert (E : t = row) end.
      { specialize (IH (length N) (S s) j eq_refl H2 Hj). replace (S s + j) with (s + S j) in IH by lia. exact IH. }
      rewrite E. apply zeros_vadd. rewrite Forall_forall in H2. apply H2. eapply nth_error_In; eauto.
  Qed.
End Select.

Lemma select_square {R : cring} n sigma : length sigma = n -> (forall k j, nth_error sigma k = Some j -> nth_error sigma j = Some k) ->
  matmul (R := R) n (map (unitv n) sigma) (map (unitv n) sigma) = idmat n.
Proof.
  intros Hl Hinv. unfold matmul. rewrite map_map. unfold idmat. apply nth_error_ext'. intros k. rewrite !nth_error_map.
  destruct (nth_error sigma k) as [j|] eqn:Ej.
  - assert (Hk : k < n) by (rewrite <- Hl; apply nth_error_Some; congruence). rewrite seq_nth_ok by exact Hk. cbn [option_map]. f_equal.
    apply (vecmat_unit n n 0 j).
    + now rewrite map_length.
    + apply Forall_forall. intros r Hr. apply in_map_iff in Hr as (i & <- & _). unfold unitv. now rewrite map_length, seq_length.
    + rewrite nth_error_map, (Hinv _ _ Ej). reflexivity.
  - assert (n <= k) by (rewrite <- Hl; now apply nth_error_None). rewrite (proj2 (nth_error_None (seq 0 n) k)) by now rewrite seq_length. reflexivity.
Qed.

Lemma zmat_eqb_refl a : zmat_eqb a a = true.
Proof.
  unfold zmat_eqb. rewrite Nat.eqb_refl. cbn [andb]. apply forallb_forall. intros (r, s) Hin.
  assert (r = s). { clear - Hin. induction a as [|x a IH]; [destruct Hin|]. destruct Hin as [E|Hin]; [congruence|auto]. }
  subst s. cbn [fst snd]. rewrite Nat.eqb_refl. cbn [andb]. apply forallb_forall. intros (x, y) Hxy.
  assert (x = y). { clear - Hxy. induction r as [|z r IH]; [destruct Hxy|]. destruct Hxy as [E|Hin]; [congruence|auto]. }
  subst. cbn [fst snd]. apply Z.eqb_refl.
Qed.

(** ** The node mapping of an imported mesh *)
Definition flip_perm (d : nat) : list nat := 1 :: 0 :: seq 2 d.

Lemma flip_perm_perm d : Permutation (flip_perm d) (seq 0 (S d + 1)).
Proof. unfold flip_perm. rewrite Nat.add_1_r. cbn [seq]. apply perm_swap. Qed.
Lemma flip_perm_inv d i k : nth_error (flip_perm d) i = Some k -> nth_error (flip_perm d) k = Some i.
Proof.
  unfold flip_perm. destruct i as [|[|i]]; cbn [nth_error].
  - intros E; injection E as <-. reflexivity.
  - intros E; injection E as <-. reflexivity.
  - intros E. apply seq_nth_eq in E as (-> & Hi). cbn [nth_error plus]. rewrite seq_nth_ok by exact Hi. reflexivity.
Qed.
Lemma flip_perm_related d row : length row = S d + 1 -> related (flip_perm d) (swap01 row) row.
Proof.
  intros Hl. destruct row as [|a [|b row]]; cbn [length] in Hl; try lia. cbn [swap01]. intros i v. unfold flip_perm.
  destruct i as [|[|i]]; cbn [nth_error].
  - split; [intros E; exists 1; auto|]. intros (k & E & Hv). injection E as <-. exact Hv.
  - split; [intros E; exists 0; auto|]. intros (k & E & Hv). injection E as <-. exact Hv.
  - split.
    + intros E. assert (i < d) by (assert (i < length row) by (apply nth_error_Some; congruence); lia). exists (S (S i)). split; [rewrite seq_nth_ok by auto; reflexivity|exact E].
    + intros (k & E & Hv). apply seq_nth_eq in E as (-> & _). exact Hv.
Qed.

Section From.
  Context {R : cring}.
  Variable resampling : list (list R) -> list (list R) -> list (list R).
  Variables (rint : R -> Z) (inj : Z -> R).
  Hypothesis Hround : rounds rint inj.
  Variables (d : nat) (nodes : list (list R)).
  Hypothesis Hsym : symmetric (S d) nodes.
  Hypothesis Hint : interpolates resampling nodes.

  Lemma node_perm_involution sigma : node_perm (flip_perm d) nodes sigma -> forall k j, nth_error sigma k = Some j -> nth_error sigma j = Some k.
  Proof using Hsym.
    intros (Hp & Hs) k j Hk. destruct (perm_range _ _ _ _ Hp Hk) as (_ & Hj).
    destruct (nth_error sigma j) as [k'|] eqn:Ej. 2:{ apply nth_error_None in Ej. rewrite (Permutation_length Hp), seq_length in Ej. lia. }
    f_equal. destruct (Hs _ _ Hk) as (p & q & Hkp & Hjq & Hl1 & Hm1). destruct (Hs _ _ Ej) as (q' & r & Hjq' & Hkr & Hl2 & Hm2). assert (q' = q) by congruence. subst q'.
    assert (r = p).
    { apply nth_error_ext'. intros i. destruct (nth_error (flip_perm d) i) as [m|] eqn:Em.
      - pose proof (flip_perm_inv _ _ _ Em) as Em'. rewrite (Hm2 _ _ Em'). apply (Hm1 _ _ Em).
      - apply nth_error_None in Em. rewrite (Permutation_length (flip_perm_perm d)), seq_length in Em.
        rewrite !(proj2 (nth_error_None _ _)); [reflexivity| |]; rewrite ?Hl2, ?Hl1, (node_len _ _ Hsym _ _ Hkp); lia. }
    subst r. destruct Hsym as (Hnd & _). rewrite NoDup_nth_error in Hnd. apply Hnd; [apply nth_error_Some; congruence|congruence].
  Qed.

  Lemma identity_renumbered vs ns : length ns = length nodes -> renumbered nodes vs vs ns ns.
  Proof using.
    intros Hl. split; [exact Hl|]. intros k x Hx. destruct (nth_error nodes k) as [p|] eqn:Ep.
    2:{ apply nth_error_None in Ep. assert (k < length ns) by (apply nth_error_Some; congruence). lia. }
    exists k, p, p. repeat (split; [assumption || reflexivity|]). intros v w. reflexivity.
  Qed.

  Theorem mapping_from_ok neg cells cnl used :
    match cells with None => used = cnl | Some cs => NoDup cs /\ Forall2 (fun c ns => nth_error cnl c = Some ns) cs used end ->
    length neg = length used -> NoDup (concat cnl) -> Forall (fun ns => length ns = length nodes) cnl ->
    exists mapping, mapping_from_firedrake R resampling rint (S d) nodes neg cells cnl = Ok mapping /\ length mapping = length used /\ NoDup (concat mapping) /\
      forall e b ns new vs, nth_error neg e = Some b -> nth_error used e = Some ns -> nth_error mapping e = Some new -> length vs = S d + 1 ->
        Permutation new ns /\ renumbered nodes (if b then swap01 vs else vs) vs ns new.
  Proof using Hround Hsym Hint.
    intros Hc Hneg Hnd Hlen. unfold mapping_from_firedrake. rewrite simplex_perm_ok. cbn [bind]. fold (flip_perm d).
    destruct (flip_matrix_ok resampling (S d) nodes (flip_perm d) Hsym Hint (flip_perm_perm d)) as (sigma & Ef & Hs). rewrite Ef. cbn [bind].
    assert (Eu : match cells with None => Ok cnl | Some cs => take cnl cs end = Ok used).
    { destruct cells as [cs|]; [|now subst]. apply take_ok, Hc. }
    rewrite Eu. cbn [bind]. unfold reorder_nodes. rewrite (int_unitv rint inj Hround).
    assert (Hndu : NoDup (concat used)).
    { destruct cells as [cs|]; [|now subst]. destruct Hc as (Hcs & _). exact (take_concat_nodup _ _ _ Hnd Hcs Eu). }
    assert (Hlu : Forall (fun ns => length ns = length nodes) used).
    { destruct cells as [cs|]; [|now subst]. apply Forall_forall. intros ns Hin. destruct Hc as (_ & Hc). destruct (Forall2_In_r _ _ _ _ Hc Hin) as (c & _ & E).
      rewrite Forall_forall in Hlen. apply Hlen. eapply nth_error_In; eauto. }
    pose proof (node_perm_length _ _ _ Hs) as Hls.
    rewrite map_length, Hls. rewrite (select_square (R := Zcring) (length nodes) sigma Hls (node_perm_involution sigma Hs)), zmat_eqb_refl. cbn [guard bind].
    rewrite Hneg, Nat.eqb_refl. cbn [guard bind].
    match goal with |- context [mapM ?f (combine neg used)] => set (g := f) end.
    assert (Hg : forall b ns, length ns = length nodes -> exists new, g (b, ns) = Ok new /\ Permutation new ns /\
      forall vs, length vs = S d + 1 -> renumbered nodes (if b then swap01 vs else vs) vs ns new).
    { intros b ns Hl. unfold g. cbn [fst snd]. destruct b.
      - destruct (apply_take (length nodes) sigma ns (node_perm_range _ _ _ Hs) Hl) as (new & En & _). exists new. split; [exact En|].
        split.
        + destruct (renumber_ok (S d) nodes Hsym (flip_perm d) sigma (swap01 (seq 0 (S d + 1))) (seq 0 (S d + 1)) ns Hs (flip_perm_perm d)) as (new' & En' & Hp & _); [apply flip_perm_related, seq_length|exact Hl|]. congruence.
        + intros vs Hvs. destruct (renumber_ok (S d) nodes Hsym (flip_perm d) sigma (swap01 vs) vs ns Hs (flip_perm_perm d)) as (new' & En' & _ & Hr); [now apply flip_perm_related|exact Hl|].
          assert (new' = new) by congruence. now subst.
      - exists ns. split; [reflexivity|]. split; [reflexivity|]. intros vs Hvs. now apply identity_renumbered. }
    destruct (mapM_total g (combine neg used)) as (mapping & Em).
    { intros (b, ns) Hin. apply in_combine_r in Hin. rewrite Forall_forall in Hlu. destruct (Hg b ns (Hlu _ Hin)) as (new & E & _). eauto. }
    rewrite Em. cbn [bind]. apply mapM_ok in Em.
    assert (HL : length mapping = length used). { rewrite <- (Forall2_length' _ _ _ Em), combine_length. lia. }
    assert (Hall : forall e b ns new, nth_error neg e = Some b -> nth_error used e = Some ns -> nth_error mapping e = Some new -> Permutation new ns /\
      forall vs, length vs = S d + 1 -> renumbered nodes (if b then swap01 vs else vs) vs ns new).
    { intros e b ns new Hb Hns Hnew. destruct (Forall2_nth_error_r _ _ _ _ _ Em Hnew) as ((b', ns') & Hin & Eg). apply nth_error_combine_Some in Hin as (H1 & H2).
      assert (b' = b) by congruence. assert (ns' = ns) by congruence. subst b' ns'. rewrite Forall_forall in Hlu.
      destruct (Hg b ns (Hlu _ (nth_error_In _ _ Hns))) as (new' & E & Hp & Hr). assert (new' = new) by congruence. subst. auto. }
    assert (Hndm : NoDup (concat mapping)).
    { eapply Permutation_NoDup; [|exact Hndu]. symmetry. apply concat_perm_nodup. apply Forall2_intro_nth; [exact HL|]. intros e new ns Hnew Hns.
      assert (e < length neg) by (rewrite Hneg; apply nth_error_Some; congruence). destruct (nth_error neg e) as [b|] eqn:Eb; [|apply nth_error_None in Eb; lia].
      apply (Hall e b ns new Eb Hns Hnew). }
    rewrite (unique_nodup_length _ Hndm), Nat.eqb_refl. cbn [guard bind]. exists mapping. split; [reflexivity|]. split; [exact HL|]. split; [exact Hndm|].
    intros e b ns new vs Hb Hns Hnew Hvs. destruct (Hall e b ns new Hb Hns Hnew) as (H1 & H2). split; [exact H1|now apply H2].
  Qed.
End From.

(** ** Transfer of fields *)
Section Transfer.
  Context {R : cring}.
  Variables (n : nat) (fd2mm mm2fd : list (list R)) (mapping : list (list nat)).

  Lemma nth_eq_concat {X Y} (a : list (list X)) (b : list (list Y)) : Forall2 (fun r s => length r = length s) a b -> length (concat a) = length (concat b).
  Proof using. induction 1; cbn [concat]; [reflexivity|]. rewrite !app_length. congruence. Qed.
  Lemma combine_fst {X Y} (a : list X) (b : list Y) : length a = length b -> map fst (combine a b) = a.
  Proof using. revert b. induction a as [|x a IH]; intros [|y b] H; cbn in *; try lia; [reflexivity|]. f_equal. apply IH. lia. Qed.
  Lemma concat_pair {X Y} (a : list (list X)) (b : list (list Y)) e r s i x y : Forall2 (fun r s => length r = length s) a b -> nth_error a e = Some r -> nth_error b e = Some s ->
    nth_error r i = Some x -> nth_error s i = Some y -> In (x, y) (combine (concat a) (concat b)).
  Proof using.
    intros H. revert e. induction H as [|r0 s0 a b Hl H IH]; intros e Ha Hb Hx Hy; [destruct e; discriminate|]. cbn [concat]. rewrite MergeProofs.combine_app by exact Hl.
    apply in_app_iff. destruct e as [|e]; cbn [nth_error] in *.
    - left. injection Ha as ->. injection Hb as ->. apply (nth_error_In _ i), nth_error_combine_Some. auto.
    - right. eapply IH; eauto.
  Qed.

  (** Values stored with the mapping *)
  Lemma store_group (data : list R) field : proper_mapping n (length data) mapping -> length mm2fd = n -> group_shape (length mapping) n field ->
    exists data', resample_and_reorder R mm2fd mapping data field = Ok data' /\ length data' = length data /\
      (forall k, ~ In k (concat mapping) -> nth_error data' k = nth_error data k) /\
      Forall2 (fun row v => take data' row = Ok (matvec mm2fd v)) mapping field.
  Proof using.
    intros (Hm1 & Hm2 & Hm3) Hl2 (Hf1 & Hf2). unfold resample_and_reorder.
    assert (HF : Forall2 (fun r s => length r = length s) mapping (map (matvec mm2fd) field)).
    { apply Forall2_intro_nth; [now rewrite map_length|]. intros i r s Hr Hs. rewrite nth_error_map in Hs. destruct (nth_error field i); [|discriminate]. cbn in Hs. injection Hs as <-.
      rewrite matvec_length, Hl2. rewrite Forall_forall in Hm1. apply Hm1. eapply nth_error_In; eauto. }
    assert (Hg : (length (map (matvec mm2fd) field) =? length mapping) && forallb (fun p => length (fst p) =? length (snd p)) (combine (map (matvec mm2fd) field) mapping) = true).
    { apply andb_true_iff. split; [apply Nat.eqb_eq; rewrite map_length; exact Hf1|]. apply forallb_forall. intros (a, b) Hin. cbn [fst snd]. apply Nat.eqb_eq.
      apply In_nth_error in Hin as (i & Hi). apply nth_error_combine_Some in Hi as (Ha & Hb). destruct (Forall2_nth_error _ _ _ _ _ HF Hb) as (a' & Ha' & Hl). assert (a' = a) by congruence. subst. auto. }
    change (car R) with (R : Type) in *. rewrite Hg. cbn [guard bind].
    pose proof (combine_fst _ _ (nth_eq_concat _ _ HF)) as Hfst.
    destruct (proj2 (scatter_ok_range (combine (concat mapping) (concat (map (matvec mm2fd) field))) data)) as (data' & Ed).
    { apply Forall_forall. intros (k, x) Hin. cbn [fst]. apply in_combine_l in Hin. rewrite Forall_forall in Hm3. auto. }
    exists data'. split; [exact Ed|]. split; [now apply scatter_length in Ed|]. split.
    - intros k Hk. apply (scatter_notin _ _ _ _ Ed). now rewrite Hfst.
    - apply Forall2_intro_nth; [now symmetry|]. intros e row v Hrow Hv. apply take_ok.
      assert (Hs : nth_error (map (matvec mm2fd) field) e = Some (matvec mm2fd v)) by now rewrite nth_error_map, Hv.
      destruct (Forall2_nth_error _ _ _ _ _ HF Hrow) as (s & Hs' & Hl). assert (s = matvec mm2fd v) by congruence. subst s.
      apply Forall2_intro_nth; [exact Hl|]. intros i k x Hk Hx. apply (scatter_in _ _ _ _ _ Ed); [now rewrite Hfst|]. eapply concat_pair; eauto.
  Qed.

  Lemma there_and_back (data : list R) field : proper_mapping n (length data) mapping -> undoes n fd2mm mm2fd -> group_shape (length mapping) n field ->
    exists data', resample_and_reorder R mm2fd mapping data field = Ok data' /\ length data' = length data /\
      (forall k, ~ In k (concat mapping) -> nth_error data' k = nth_error data k) /\ reorder_and_resample R fd2mm mapping data' = Ok field.
  Proof using.
    intros Hm (Hl & Hu) Hf. destruct (store_group data field Hm Hl Hf) as (data' & E & L & N & S). exists data'. repeat (split; [assumption|]).
    unfold reorder_and_resample. apply mapM_ok. destruct Hf as (_ & Hf). clear - S Hu Hf. induction S as [|row v mapping field Hr S IH]; constructor; [|now apply IH; inversion Hf].
    inversion Hf; subst. rewrite Hr. cbn [bind]. f_equal. auto.
  Qed.

  Lemma load_group (data : list R) : proper_mapping n (length data) mapping -> length fd2mm = n ->
    exists field, reorder_and_resample R fd2mm mapping data = Ok field /\ group_shape (length mapping) n field /\
      Forall2 (fun row v => exists w, take data row = Ok w /\ length w = n /\ v = matvec fd2mm w) mapping field.
  Proof using.
    intros (Hm1 & Hm2 & Hm3) Hl. unfold reorder_and_resample.
    assert (Ht : forall row, In row mapping -> exists w, take data row = Ok w).
    { intros row Hr. apply take_total. apply Forall_forall. intros k Hk. rewrite Forall_forall in Hm3. apply Hm3. apply in_concat. eauto. }
    match goal with |- context [mapM ?f mapping] => set (g := f) end.
    destruct (mapM_total g mapping) as (field & E). { intros row Hr. destruct (Ht row Hr) as (w & Hw). unfold g. rewrite Hw. cbn [bind]. eauto. }
    exists field. split; [exact E|]. apply mapM_ok in E. split.
    - split; [symmetry; exact (Forall2_length' _ _ _ E)|]. apply Forall_forall. intros v Hv. destruct (Forall2_In_r _ _ _ _ E Hv) as (row & _ & Hg). unfold g in Hg.
      apply bind_ok in Hg as (w & _ & Hw). injection Hw as <-. now rewrite matvec_length.
    - clear - E Hm1. induction E as [|row v mapping field Hg E IH]; constructor; [|apply IH; now inversion Hm1]. unfold g in Hg. apply bind_ok in Hg as (w & Hw & Hv).
      injection Hv as <-. exists w. split; [exact Hw|]. split; [|reflexivity]. apply take_ok in Hw. rewrite <- (Forall2_length' _ _ _ Hw). now inversion Hm1.
  Qed.

  Lemma back_and_there (data data0 : list R) : proper_mapping n (length data) mapping -> length data0 = length data -> length fd2mm = n -> undoes n mm2fd fd2mm -> length mm2fd = n ->
    exists field data', reorder_and_resample R fd2mm mapping data = Ok field /\ group_shape (length mapping) n field /\ resample_and_reorder R mm2fd mapping data0 field = Ok data' /\
      length data' = length data0 /\ forall k, nth_error data' k = if in_dec Nat.eq_dec k (concat mapping) then nth_error data k else nth_error data0 k.
  Proof using.
    intros Hm Hd Hl (_ & Hu) Hl2. destruct (load_group data Hm Hl) as (field & E & Hs & HF). exists field.
    assert (Hm' : proper_mapping n (length data0) mapping) by now rewrite Hd.
    destruct (store_group data0 field Hm' Hl2 Hs) as (data' & E' & L & N & S). exists data'. repeat (split; [assumption|]). intros k.
    destruct (in_dec Nat.eq_dec k (concat mapping)) as [Hk|Hk]; [|auto]. apply in_concat in Hk as (row & Hr & Hk). apply In_nth_error in Hr as (e & Hr).
    destruct (Forall2_nth_error _ _ _ _ _ HF Hr) as (v & Hv & w & Hw & Hlw & ->). destruct (Forall2_nth_error _ _ _ _ _ S Hr) as (v' & Hv' & Ht).
    assert (v' = matvec fd2mm w) by congruence. subst v'. rewrite Hu in Ht by exact Hlw. apply take_ok in Hw, Ht. apply In_nth_error in Hk as (i & Hi).
    destruct (Forall2_nth_error _ _ _ _ _ Hw Hi) as (x & Hx & Hd1). destruct (Forall2_nth_error _ _ _ _ _ Ht Hi) as (x' & Hx' & Hd2). congruence.
  Qed.

  (** Whole fields *)
  Lemma mapM_combine_pure {X Y Z} (f : Y -> res Z) (x : X) (l : list Y) : mapM (fun p : X * Y => f (snd p)) (combine (map (fun _ => x) l) l) = mapM f l.
  Proof using. induction l as [|y l IH]; [reflexivity|]. cbn [map combine mapM snd]. now rewrite IH. Qed.
  Lemma mapM_combine_pure' {X Y Z} (f : X -> Y -> res Z) (x : X) (l : list Y) : mapM (fun p : X * Y => f (fst p) (snd p)) (combine (map (fun _ => x) l) l) = mapM (f x) l.
  Proof using. induction l as [|y l IH]; [reflexivity|]. cbn [map combine mapM fst snd]. now rewrite IH. Qed.

  Definition good_comp (nr : nat) (a : list (list (list R))) : Prop := exists x, nth_error a nr = Some x /\ group_shape (length mapping) n x.

  Theorem field_round_trip nr nnodes (u : mfield R) (empty : list (list (list R))) : proper_mapping n nnodes mapping -> undoes n fd2mm mm2fd -> proper_field u ->
    Forall (good_comp nr) (field_comps u) -> nr < length empty ->
    exists f u', from_meshmode R mm2fd mapping nr nnodes u None = Ok f /\ ff_shape R f = field_shape u /\
      Forall (fun d => length d = nnodes /\ forall k, k < nnodes -> ~ In k (concat mapping) -> nth_error d k = Some r0) (ff_data R f) /\
      from_firedrake R fd2mm mapping nr empty f None = Ok u' /\ field_shape u' = field_shape u /\ proper_field u' /\
      Forall2 (fun a' a => nth_error a' nr = nth_error a nr /\ forall i, i <> nr -> nth_error a' i = nth_error empty i) (field_comps u') (field_comps u).
  Proof using.
    intros Hm Hu Hp Hc Hnr. set (z := zeros (R := R) nnodes).
    assert (Hlz : length z = nnodes) by apply repeat_length.
    assert (Hcomp : forall a, good_comp nr a -> exists x d a', get a nr = Ok x /\ resample_and_reorder R mm2fd mapping z x = Ok d /\ length d = nnodes /\
      (forall k, k < nnodes -> ~ In k (concat mapping) -> nth_error d k = Some r0) /\ reorder_and_resample R fd2mm mapping d = Ok x /\ set_group R nr empty x = Ok a' /\
      nth_error a' nr = nth_error a nr /\ forall i, i <> nr -> nth_error a' i = nth_error empty i).
    { intros a (x & Hx & Hs). destruct (there_and_back z x) as (d & E & L & N & B); [now rewrite Hlz|exact Hu|exact Hs|]. exists x, d.
      exists (upd empty nr x). split; [now apply get_ok|]. split; [exact E|]. split; [congruence|]. split.
      { intros k Hk Hn. rewrite (N k Hn). unfold z, zeros. now apply nth_error_repeat. }
      split; [exact B|]. split; [unfold set_group, put; now rewrite (proj2 (Nat.ltb_lt _ _) Hnr)|]. split.
      - rewrite nth_error_upd_eq by exact Hnr. now symmetry.
      - intros i Hi. apply nth_error_upd_neq. congruence. }
    destruct u as [a|s cs]; cbn [field_comps field_shape proper_field] in *.
    - pose proof (Forall_inv Hc) as Ha. destruct (Hcomp a Ha) as (x & d & a' & E1 & E2 & E3 & E4 & E5 & E6 & E7 & E8).
      exists (mk_ff R [] [d]), (FDof R a'). unfold from_meshmode. cbn [map combine mapM bind fst snd ff_data ff_shape]. fold z. rewrite E1. cbn [bind]. rewrite E2. cbn [bind].
      split; [reflexivity|]. split; [reflexivity|]. split; [constructor; auto|]. unfold from_firedrake. cbn [ff_shape ff_data bind]. change (get [d] 0) with (Ok d). cbn [bind]. rewrite E5. cbn [bind].
      rewrite E6. cbn [bind]. split; [reflexivity|]. split; [reflexivity|]. split; [exact I|]. cbn [field_comps]. constructor; [auto|constructor].
    - assert (Hds : exists ds cs', mapM (fun a => x <- get a nr ;; resample_and_reorder R mm2fd mapping z x) cs = Ok ds /\
        Forall (fun d => length d = nnodes /\ forall k, k < nnodes -> ~ In k (concat mapping) -> nth_error d k = Some r0) ds /\
        mapM (fun d => x <- reorder_and_resample R fd2mm mapping d ;; set_group R nr empty x) ds = Ok cs' /\
        Forall2 (fun a' a => nth_error a' nr = nth_error a nr /\ forall i, i <> nr -> nth_error a' i = nth_error empty i) cs' cs).
      { clear Hp. induction Hc as [|a cs Ha Hc IH]; [exists [], []; repeat split; constructor|]. destruct IH as (ds & cs' & I1 & I2 & I3 & I4).
        destruct (Hcomp a Ha) as (x & d & a' & E1 & E2 & E3 & E4 & E5 & E6 & E7 & E8). exists (d :: ds), (a' :: cs'). cbn [mapM]. rewrite E1. cbn [bind]. rewrite E2, I1, E5. cbn [bind].
        rewrite E6, I3. cbn [bind]. split; [reflexivity|]. split; [constructor; auto|]. split; [reflexivity|]. constructor; auto. }
      destruct Hds as (ds & cs' & I1 & I2 & I3 & I4). exists (mk_ff R s ds), (FObj R s cs'). unfold from_meshmode. cbn [bind ff_data ff_shape]. fold z.
      pose proof (mapM_combine_pure' (fun z a => x <- get a nr ;; resample_and_reorder R mm2fd mapping z x) z cs) as E. cbv beta in E. rewrite I1 in E.
      match goal with |- context [mapM ?f ?l] => replace (mapM f l) with (Ok ds : res (list (list R))) by (symmetry; exact E) end. cbn [bind].
      split; [reflexivity|]. split; [reflexivity|]. split; [exact I2|]. unfold from_firedrake. cbn [ff_shape ff_data]. destruct s as [|s0 s]; [contradiction|]. cbn [bind].
      pose proof (mapM_combine_pure' (fun e d => x <- reorder_and_resample R fd2mm mapping d ;; set_group R nr e x) empty ds) as E'. cbv beta in E'. rewrite I3 in E'.
      match goal with |- context [mapM ?f ?l] => replace (mapM f l) with (Ok cs' : res (list (list (list (list R))))) by (symmetry; exact E') end. cbn [bind].
      split; [reflexivity|]. split; [reflexivity|]. split; [discriminate|exact I4].
  Qed.

  (** from_meshmode into a given function *)
  Theorem field_into nr nnodes (u : mfield R) (f0 : ffunction R) : proper_mapping n nnodes mapping -> length mm2fd = n ->
    Forall (good_comp nr) (field_comps u) -> ff_shape R f0 = field_shape u -> length (ff_data R f0) = length (field_comps u) -> Forall (fun d => length d = nnodes) (ff_data R f0) ->
    exists f, from_meshmode R mm2fd mapping nr nnodes u (Some f0) = Ok f /\ ff_shape R f = field_shape u /\
      Forall2 (fun d d0 => length d = nnodes /\ forall k, ~ In k (concat mapping) -> nth_error d k = nth_error d0 k) (ff_data R f) (ff_data R f0) /\
      Forall2 (fun d a => forall x, nth_error a nr = Some x -> Forall2 (fun row v => take d row = Ok (matvec mm2fd v)) mapping x) (ff_data R f) (field_comps u).
  Proof using.
    intros Hm Hl Hc Hs Hlen Hd. unfold from_meshmode.
    change (match u with FDof _ _ => [] | FObj _ s _ => s end) with (field_shape u). change (match u with FDof _ a => [a] | FObj _ _ cs => cs end) with (field_comps u).
    rewrite Hs, (proj2 (list_nat_eqb_iff _ _) eq_refl). cbn [guard bind].
    match goal with |- context [mapM ?f _] => set (g := f) end.
    assert (H : exists ds, mapM g (combine (ff_data R f0) (field_comps u)) = Ok ds /\
      Forall2 (fun d d0 => length d = nnodes /\ forall k, ~ In k (concat mapping) -> nth_error d k = nth_error d0 k) ds (ff_data R f0) /\
      Forall2 (fun d a => forall x, nth_error a nr = Some x -> Forall2 (fun row v => take d row = Ok (matvec mm2fd v)) mapping x) ds (field_comps u)).
    { revert Hlen Hd. generalize (ff_data R f0). induction Hc as [|a cs (x & Hx & Hsh) Hc IH]; intros [|d0 ds0] Hlen Hd; cbn [length] in Hlen; try lia.
      - exists []. repeat split; constructor.
      - inversion Hd as [|? ? Hd0 Hd']; subst. destruct (IH ds0) as (ds & E & F1 & F2); [lia|exact Hd'|].
        destruct (store_group d0 x) as (d & E1 & L1 & N1 & S1); auto. exists (d :: ds). cbn [combine mapM]. unfold g at 1. cbn [fst snd].
        rewrite (proj2 (get_ok _ _ _) Hx). cbn [bind]. rewrite E1. cbn [bind]. rewrite E. cbn [bind]. split; [reflexivity|]. split; constructor; auto.
        intros x' Hx'. assert (x' = x) by congruence. now subst. }
    destruct H as (ds & E & F1 & F2). rewrite E. cbn [bind]. exists (mk_ff R (field_shape u) ds). auto.
  Qed.

  (** Functions survive a round trip at the mapped nodes *)
  Theorem function_round_trip nr nnodes (f : ffunction R) (empty : list (list (list R))) : proper_mapping n nnodes mapping -> length fd2mm = n -> length mm2fd = n -> undoes n mm2fd fd2mm ->
    proper_function f -> Forall (fun d => length d = nnodes) (ff_data R f) -> nr < length empty ->
    exists u f', from_firedrake R fd2mm mapping nr empty f None = Ok u /\ field_shape u = ff_shape R f /\ from_meshmode R mm2fd mapping nr nnodes u None = Ok f' /\ ff_shape R f' = ff_shape R f /\
      Forall2 (fun d' d => length d' = nnodes /\ forall k, k < nnodes -> nth_error d' k = if in_dec Nat.eq_dec k (concat mapping) then nth_error d k else Some r0) (ff_data R f') (ff_data R f).
  Proof using.
    intros Hm Hl1 Hl2 Hu Hp Hd Hnr. set (z := zeros (R := R) nnodes). assert (Hlz : length z = nnodes) by apply repeat_length.
    assert (Hcomp : forall d, length d = nnodes -> exists x d' a, reorder_and_resample R fd2mm mapping d = Ok x /\ set_group R nr empty x = Ok a /\ get a nr = Ok x /\
      resample_and_reorder R mm2fd mapping z x = Ok d' /\ length d' = nnodes /\ forall k, k < nnodes -> nth_error d' k = if in_dec Nat.eq_dec k (concat mapping) then nth_error d k else Some r0).
    { intros d Hld. destruct (back_and_there d z) as (x & d' & E1 & Hs & E2 & L & K); auto; [now rewrite Hld|congruence|]. exists x, d', (upd empty nr x).
      split; [exact E1|]. split; [unfold set_group, put; now rewrite (proj2 (Nat.ltb_lt _ _) Hnr)|]. split; [apply get_ok; now apply nth_error_upd_eq|]. split; [exact E2|]. split; [congruence|].
      intros k Hk. rewrite K. destruct (in_dec Nat.eq_dec k (concat mapping)); [reflexivity|]. unfold z, zeros. now apply nth_error_repeat. }
    destruct f as (s, ds). cbn [ff_shape ff_data proper_function] in *. unfold proper_function in Hp. cbn [ff_shape ff_data] in Hp. destruct s as [|s0 s].
    - specialize (Hp eq_refl). destruct ds as [|d [|d2 ds]]; cbn [length] in Hp; try lia. pose proof (Forall_inv Hd) as Hld. destruct (Hcomp d Hld) as (x & d' & a & E1 & E2 & E3 & E4 & E5 & E6).
      exists (FDof R a), (mk_ff R [] [d']). unfold from_firedrake. cbn [ff_shape ff_data bind]. change (get [d] 0) with (Ok d). cbn [bind]. rewrite E1. cbn [bind]. rewrite E2. cbn [bind].
      split; [reflexivity|]. split; [reflexivity|]. unfold from_meshmode. cbn [map combine mapM bind fst snd ff_data ff_shape]. fold z. rewrite E3. cbn [bind]. rewrite E4. cbn [bind].
      split; [reflexivity|]. split; [reflexivity|]. constructor; [auto|constructor].
    - assert (H : exists cs ds', mapM (fun d => x <- reorder_and_resample R fd2mm mapping d ;; set_group R nr empty x) ds = Ok cs /\
        mapM (fun a => x <- get a nr ;; resample_and_reorder R mm2fd mapping z x) cs = Ok ds' /\
        Forall2 (fun d' d => length d' = nnodes /\ forall k, k < nnodes -> nth_error d' k = if in_dec Nat.eq_dec k (concat mapping) then nth_error d k else Some r0) ds' ds).
      { clear Hp. induction Hd as [|d ds Hld Hd IH]; [exists [], []; repeat split; constructor|]. destruct IH as (cs & ds' & I1 & I2 & I3).
        destruct (Hcomp d Hld) as (x & d' & a & E1 & E2 & E3 & E4 & E5 & E6). exists (a :: cs), (d' :: ds'). cbn [mapM]. rewrite E1. cbn [bind]. rewrite E2, I1, E3. cbn [bind].
        rewrite E4, I2. cbn [bind]. split; [reflexivity|]. split; [reflexivity|]. constructor; auto. }
      destruct H as (cs & ds' & I1 & I2 & I3). exists (FObj R (s0 :: s) cs), (mk_ff R (s0 :: s) ds'). unfold from_firedrake. cbn [ff_shape ff_data bind].
      pose proof (mapM_combine_pure' (fun e d => x <- reorder_and_resample R fd2mm mapping d ;; set_group R nr e x) empty ds) as E'. cbv beta in E'. rewrite I1 in E'.
      match goal with |- context [mapM ?f ?l] => replace (mapM f l) with (Ok cs : res (list (list (list (list R))))) by (symmetry; exact E') end. cbn [bind].
      split; [reflexivity|]. split; [reflexivity|]. unfold from_meshmode. cbn [bind ff_data ff_shape]. fold z.
      pose proof (mapM_combine_pure' (fun z a => x <- get a nr ;; resample_and_reorder R mm2fd mapping z x) z cs) as E. cbv beta in E. rewrite I2 in E.
      match goal with |- context [mapM ?f ?l] => replace (mapM f l) with (Ok ds' : res (list (list R))) by (symmetry; exact E) end. cbn [bind].
      split; [reflexivity|]. split; [reflexivity|exact I3].
  Qed.
End Transfer.
