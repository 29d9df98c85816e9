(** * VisIoFileProofs: proofs about files and the datasets of several ranks. *)
From Coq Require Import String List Arith Bool Lia Permutation.
From Verif Require Import Np NpFacts MeshModel VisModel VisIoModel VisIoSpec.
Import ListNotations.

(** ** Files *)
Section Files.
  Variable content : Type.
  Variable manifest : list string -> content.
  Variable relname : string -> string -> string.

  Lemma write_same (s : fs content) n c : fs_write s n c n = Some c.
  Proof using. unfold fs_write. now rewrite String.eqb_refl. Qed.
  Lemma write_other (s : fs content) n c m : m <> n -> fs_write s n c m = s m.
  Proof using. intros H. unfold fs_write. apply String.eqb_neq in H. now rewrite H. Qed.

  Lemma exists_none (s : fs content) n : exists_ s n = false <-> s n = None.
  Proof using. unfold exists_. destruct (s n); split; congruence. Qed.

  (** the ranks of a parallel run, in some order *)
  Definition parallel_run (s : fs content) (vtu : nat -> content) (nranks : nat) (fmt : nat -> string) (overwrite : bool) (m : option string) (order : list nat) : list outcome * fs content :=
    fold_left (fun (st : list outcome * fs content) r =>
      let (o, s') := write_parallel_vtk_file content (vtu r) manifest relname (snd st) (Some (r, nranks)) fmt overwrite m in (fst st ++ [o], s')) order ([], s).

  Lemma rank_step s vtu nranks fmt overwrite m r :
    0 < nranks -> r < nranks -> (forall i j, i < nranks -> j < nranks -> fmt i = fmt j -> i = j) -> (forall i, i < nranks -> fmt i <> m) ->
    (overwrite = true \/ (s (fmt r) = None /\ (r = 0 -> s m = None))) ->
    write_parallel_vtk_file content (vtu r) manifest relname s (Some (r, nranks)) fmt overwrite (Some m) =
      (Done, let s1 := fs_write s (fmt r) (vtu r) in if r =? 0 then fs_write s1 m (manifest (map (relname m) (map fmt (seq 0 nranks)))) else s1).
  Proof using.
    intros Hn Hr Hinj Hm Hex. unfold write_parallel_vtk_file, write_vtk_file.
    assert (Hseq : map fmt (seq 0 nranks) = fmt 0 :: map fmt (seq 1 (nranks - 1))) by (destruct nranks; [lia|cbn [seq map]; now rewrite Nat.sub_succ, Nat.sub_0_r]).
    assert (Hresp : (fmt 0 =? fmt r)%string = (r =? 0)). { destruct (r =? 0) eqn:E; [apply Nat.eqb_eq in E; subst; apply String.eqb_refl|]. apply String.eqb_neq. intros E'. apply Nat.eqb_neq in E. apply E. symmetry. apply Hinj; [lia|exact Hr|exact E']. }
    set (files := map fmt (seq 0 nranks)) in *. rewrite Hseq. rewrite Hresp. rewrite <- Hseq.
    assert (E1 : exists_ s (fmt r) && negb overwrite = false). { destruct Hex as [->|(H & _)]; [apply andb_false_r|]. apply exists_none in H. now rewrite H. }
    assert (E2 : (r =? 0) && exists_ s m && negb overwrite = false). { destruct Hex as [->|(_ & H)]; [apply andb_false_r|]. destruct (r =? 0) eqn:E; [|reflexivity]. apply Nat.eqb_eq in E. specialize (H E). apply exists_none in H. now rewrite H. }
    rewrite E1, E2. destruct (r =? 0); reflexivity.
  Qed.

  Lemma parallel_files s vtu nranks fmt overwrite m order :
    0 < nranks -> Permutation order (seq 0 nranks) -> (forall i j, i < nranks -> j < nranks -> fmt i = fmt j -> i = j) -> (forall i, i < nranks -> fmt i <> m) ->
    (overwrite = true \/ (s m = None /\ forall i, i < nranks -> s (fmt i) = None)) ->
    exists s', parallel_run s vtu nranks fmt overwrite (Some m) order = (repeat Done nranks, s') /\
      (forall r, r < nranks -> s' (fmt r) = Some (vtu r)) /\ s' m = Some (manifest (map (relname m) (map fmt (seq 0 nranks)))) /\
      (forall n, n <> m -> (forall r, r < nranks -> n <> fmt r) -> s' n = s n).
  Proof using.
    intros Hn Hperm Hinj Hm Hex.
    assert (H : forall order done (st : list outcome * fs content), NoDup (done ++ order) -> (forall r, In r order -> r < nranks) ->
      (forall r, In r done -> snd st (fmt r) = Some (vtu r)) -> (In 0 done -> snd st m = Some (manifest (map (relname m) (map fmt (seq 0 nranks))))) ->
      (forall n, (n = m -> ~ In 0 done) -> (forall r, In r done -> n <> fmt r) -> snd st n = s n) -> (forall r, In r done -> r < nranks) ->
      let st' := fold_left (fun (st : list outcome * fs content) r => let (o, s') := write_parallel_vtk_file content (vtu r) manifest relname (snd st) (Some (r, nranks)) fmt overwrite (Some m) in (fst st ++ [o], s')) order st in
      fst st' = fst st ++ repeat Done (length order) /\ (forall r, In r (done ++ order) -> snd st' (fmt r) = Some (vtu r)) /\ (In 0 (done ++ order) -> snd st' m = Some (manifest (map (relname m) (map fmt (seq 0 nranks))))) /\
      (forall n, (n = m -> ~ In 0 (done ++ order)) -> (forall r, In r (done ++ order) -> n <> fmt r) -> snd st' n = s n)).
    { clear Hperm. clear order. induction order as [|r order IH]; intros done st Hnd Hlt H1 H2 H3 H4; cbn zeta.
      - cbn [fold_left length repeat]. rewrite app_nil_r, app_nil_r. auto.
      - cbn [fold_left]. assert (Hr : r < nranks) by (apply Hlt; now left). assert (Hrd : ~ In r done). { intros Hd. apply NoDup_remove_2 in Hnd. apply Hnd. apply in_or_app. now left. }
        rewrite (rank_step (snd st) vtu nranks fmt overwrite m r Hn Hr Hinj Hm).
        2: { destruct Hex as [Hex|(Hex1 & Hex2)]; [now left|right]. split.
             - rewrite H3; [now apply Hex2| |]. { intros E. exfalso. exact (Hm r Hr E). } { intros r' Hr' E. apply Hrd. rewrite (Hinj r r' Hr (H4 r' Hr') E). exact Hr'. }
             - intros ->. rewrite H3; [exact Hex1| |]. { intros _. exact Hrd. } { intros r' Hr' E. exact (Hm r' (H4 r' Hr') (eq_sym E)). } }
        set (s1 := let s1 := fs_write (snd st) (fmt r) (vtu r) in if r =? 0 then fs_write s1 m (manifest (map (relname m) (map fmt (seq 0 nranks)))) else s1).
        assert (Hs1 : forall n, n <> m -> n <> fmt r -> s1 n = snd st n). { intros n E1 E2. unfold s1. cbn zeta. destruct (r =? 0); rewrite ?write_other by assumption; reflexivity. }
        assert (Hs2 : s1 (fmt r) = Some (vtu r)). { unfold s1. cbn zeta. destruct (r =? 0); [rewrite write_other by (apply Hm; exact Hr)|]; apply write_same. }
        assert (Hs3 : r = 0 -> s1 m = Some (manifest (map (relname m) (map fmt (seq 0 nranks))))). { intros ->. unfold s1. cbn zeta. apply write_same. }
        assert (Hs4 : r <> 0 -> s1 m = snd st m). { intros E. unfold s1. cbn zeta. apply Nat.eqb_neq in E. rewrite E. apply write_other. intros E'. exact (Hm r Hr (eq_sym E')). }
        destruct (IH (done ++ [r]) (fst st ++ [Done], s1)) as (I1 & I2 & I3 & I4).
        + rewrite <- app_assoc. exact Hnd.
        + intros r' Hr'. apply Hlt. now right.
        + cbn [snd]. intros r' Hr'. apply in_app_or in Hr'. destruct Hr' as [Hr'|[<-|[]]]; [|exact Hs2]. rewrite Hs1; [now apply H1|apply Hm; now apply H4|]. intros E. apply Hrd. rewrite (Hinj r r' Hr (H4 r' Hr') (eq_sym E)). exact Hr'.
        + cbn [snd]. intros Hi. destruct (Nat.eq_dec r 0) as [E|E]; [now apply Hs3|]. rewrite (Hs4 E). apply H2. apply in_app_or in Hi. destruct Hi as [Hi|[Hi|[]]]; [exact Hi|congruence].
        + cbn [snd]. intros n Hn1 Hn2. destruct (string_dec n m) as [->|Hnm].
          * assert (E : r <> 0). { intros ->. apply (Hn1 eq_refl). apply in_or_app. right. now left. } rewrite (Hs4 E). apply H3; [intros _ Hi; apply (Hn1 eq_refl); apply in_or_app; now left|]. intros r' Hr'. apply Hn2. apply in_or_app. now left.
          * rewrite Hs1; [apply H3; [congruence|]|exact Hnm|apply Hn2; apply in_or_app; right; now left]. intros r' Hr'. apply Hn2. apply in_or_app. now left.
        + intros r' Hr'. apply in_app_or in Hr'. destruct Hr' as [Hr'|[<-|[]]]; [now apply H4|exact Hr].
        + rewrite <- app_assoc in I2, I3, I4. cbn [app] in I2, I3, I4. split; [|split; [|split]]; [|exact I2|exact I3|exact I4]. etransitivity; [exact I1|]. cbn [fst length repeat]. rewrite <- app_assoc. reflexivity. }
    destruct (H order [] ([], s)) as (I1 & I2 & I3 & I4).
    - cbn [app]. eapply Permutation_NoDup; [apply Permutation_sym; exact Hperm|apply seq_NoDup].
    - intros r Hr. eapply Permutation_in in Hr; [|exact Hperm]. apply in_seq in Hr. lia.
    - intros r [].
    - intros [].
    - reflexivity.
    - intros r [].
    - cbn [app fst] in *. exists (snd (parallel_run s vtu nranks fmt overwrite (Some m) order)). unfold parallel_run. rewrite (surjective_pairing (fold_left _ _ _)). split; [|split; [|split]].
      + f_equal. etransitivity; [exact I1|]. rewrite (Permutation_length Hperm), seq_length. reflexivity.
      + intros r Hr. apply I2. eapply Permutation_in; [apply Permutation_sym; exact Hperm|]. apply in_seq. lia.
      + apply I3. eapply Permutation_in; [apply Permutation_sym; exact Hperm|]. apply in_seq. lia.
      + intros n Hn1 Hn2. apply I4; [congruence|]. intros r Hr. apply Hn2. eapply Permutation_in in Hr; [|exact Hperm]. apply in_seq in Hr. lia.
  Qed.
End Files.

(** ** Datasets *)
Section Datasets.
  Variable A : Type.
  Definition seg (W : list nat) (i : nat) (p : list A) : list (option A) := if memb i W then map Some p else repeat None (length p).
  Fixpoint ds_from (k : nat) (W : list nat) (parts : list (list A)) : list (option A) :=
    match parts with [] => [] | p :: parts => seg W k p ++ ds_from (S k) W parts end.

  Lemma seg_length W i p : length (seg W i p) = length p.
  Proof using. unfold seg. destruct (memb i W); [apply map_length|apply repeat_length]. Qed.
  Lemma memb_cons i x W : memb i (x :: W) = (i =? x) || memb i W.
  Proof using. destruct (memb i (x :: W)) eqn:E.
    - apply memb_In in E. destruct E as [->|E]; [now rewrite Nat.eqb_refl|]. apply memb_In in E. rewrite E. now rewrite orb_true_r.
    - destruct (i =? x) eqn:E1; [apply Nat.eqb_eq in E1; subst; assert (E2 : memb x (x :: W) = true) by (apply memb_In; now left); congruence|]. destruct (memb i W) eqn:E2; [|reflexivity]. assert (memb i (x :: W) = true) by (apply memb_In; right; now apply memb_In). congruence.
  Qed.
  Lemma ds_from_skip k W parts x : x < k -> ds_from k (x :: W) parts = ds_from k W parts.
  Proof using.
    revert k. induction parts as [|p parts IH]; intros k Hk; [reflexivity|]. cbn [ds_from]. rewrite IH by lia. f_equal. unfold seg. rewrite memb_cons. destruct (k =? x) eqn:E; [apply Nat.eqb_eq in E; lia|reflexivity].
  Qed.
  Lemma dset_write_app (a l : list (option A)) o p : dset_write (a ++ l) (length a + o) p = (l' <- dset_write l o p ;; Ok (a ++ l')).
  Proof using.
    unfold dset_write. rewrite app_length. replace (length a + o + length p <=? length a + length l) with (o + length p <=? length l).
    2: { destruct (o + length p <=? length l) eqn:E; symmetry; [apply Nat.leb_le in E; apply Nat.leb_le; lia|apply Nat.leb_gt in E; apply Nat.leb_gt; lia]. }
    destruct (o + length p <=? length l); cbn [bind]; [|reflexivity]. rewrite firstn_app_2, <- app_assoc. do 4 f_equal.
    rewrite skipn_app. rewrite skipn_all2 by lia. cbn [app]. f_equal. lia.
  Qed.
  Lemma ds_write W parts : forall k r p, nth_error parts r = Some p -> dset_write (ds_from k W parts) (sum (map (@length A) (firstn r parts))) p = Ok (ds_from k (k + r :: W) parts).
  Proof using.
    induction parts as [|q parts IH]; intros k r p Hp; [destruct r; discriminate|]. destruct r as [|r]; cbn [nth_error firstn map ds_from] in *.
    - injection Hp as ->. rewrite Nat.add_0_r. rewrite ds_from_skip by lia. unfold dset_write. cbn [map sum fold_right Nat.add]. rewrite app_length, seg_length. replace (length p <=? length p + length (ds_from (S k) W parts)) with true by (symmetry; apply Nat.leb_le; lia).
      cbn [firstn app]. f_equal. f_equal; [unfold seg; rewrite memb_cons, Nat.eqb_refl; reflexivity|]. rewrite skipn_app, seg_length, Nat.sub_diag. rewrite skipn_all2 by (rewrite seg_length; lia). reflexivity.
    - change (sum (length q :: map (@length A) (firstn r parts))) with (length q + sum (map (@length A) (firstn r parts))). rewrite <- (seg_length W k q). rewrite dset_write_app. rewrite (IH (S k) r p Hp). cbn [bind]. replace (S k + r) with (k + S r) by lia. f_equal. f_equal. unfold seg. rewrite memb_cons. destruct (k =? k + S r) eqn:E; [apply Nat.eqb_eq in E; lia|reflexivity].
  Qed.
  Lemma ds_nil k parts : ds_from k [] parts = repeat None (sum (map (@length A) parts)).
  Proof using. revert k. induction parts as [|p parts IH]; intros k; [reflexivity|]. cbn [ds_from map]. rewrite IH. change (sum (length p :: map (@length A) parts)) with (length p + sum (map (@length A) parts)). now rewrite repeat_app. Qed.
  Lemma ds_all W parts k : (forall i, k <= i < k + length parts -> In i W) -> ds_from k W parts = map Some (concat parts).
  Proof using.
    revert k. induction parts as [|p parts IH]; intros k H; [reflexivity|]. cbn [ds_from concat]. rewrite map_app. rewrite IH by (intros i Hi; apply H; cbn [length]; lia). f_equal. unfold seg. assert (E : memb k W = true) by (apply memb_In; apply H; cbn [length]; lia). now rewrite E.
  Qed.
  Lemma sum_firstn_S (l : list nat) r n : nth_error l r = Some n -> sum (firstn (S r) l) - n = sum (firstn r l).
  Proof using.
    revert r. induction l as [|x l IH]; intros r H; [destruct r; discriminate|]. destruct r as [|r]; [injection H as ->; cbn [firstn sum fold_right]; lia|]. cbn [nth_error] in H. specialize (IH r H).
    change (firstn (S (S r)) (x :: l)) with (x :: firstn (S r) l). change (firstn (S r) (x :: l)) with (x :: firstn r l). assert (Hge : n <= sum (firstn (S r) l)).
    { clear -H. revert r H. induction l as [|y l IH]; intros r H; [destruct r; discriminate|]. destruct r as [|r]; [injection H as ->; cbn [firstn sum fold_right]; lia|]. cbn [nth_error] in H. change (firstn (S (S r)) (y :: l)) with (y :: firstn (S r) l). specialize (IH r H). cbn [sum fold_right] in *. unfold sum in *. lia. }
    unfold sum in *. cbn [fold_right]. lia.
  Qed.

  Lemma split_concat (parts : list (list A)) : split_by (map (@length A) parts) (concat parts) = parts.
  Proof using.
    induction parts as [|p parts IH]; [reflexivity|]. cbn [map concat split_by]. rewrite skipn_app, Nat.sub_diag, skipn_all2 by lia. cbn [app skipn]. rewrite IH. f_equal. rewrite firstn_app, Nat.sub_diag, firstn_all2 by lia. cbn [firstn]. apply app_nil_r.
  Qed.

  (** one dataset written by all ranks, with the counts of the ranks *)
  Lemma write_field_ok (pad : list A -> list A) (data : list (list A)) order : (forall x, In x data -> length (pad x) = length x) ->
    Permutation order (seq 0 (length data)) -> write_field pad data (map (@length A) data) order = Ok (map Some (concat (map pad data))).
  Proof using.
    intros Hpad Hperm. unfold write_field.
    assert (Hl : map (@length A) (map pad data) = map (@length A) data) by (rewrite map_map; apply map_ext_in; exact Hpad).
    assert (H : forall order W, (forall r, In r order -> r < length data) -> foldM (fun d r => x <- get data r ;; n <- get (map (@length A) data) r ;; dset_write d (sum (firstn (S r) (map (@length A) data)) - n) (pad x)) order (ds_from 0 W (map pad data)) = Ok (ds_from 0 (rev order ++ W) (map pad data))).
    { clear Hperm order. induction order as [|r order IH]; intros W Hr; [reflexivity|]. cbn [foldM]. assert (exists x, nth_error data r = Some x) as (x & Hx). { destruct (nth_error data r) eqn:E; eauto. apply nth_error_None in E. specialize (Hr r (or_introl eq_refl)). lia. }
      unfold get at 1. rewrite Hx. cbn [bind]. unfold get at 1. rewrite (map_nth_error _ _ _ Hx). cbn [bind]. rewrite (sum_firstn_S _ _ _ (map_nth_error _ _ _ Hx)).
      replace (sum (firstn r (map (@length A) data))) with (sum (map (@length A) (firstn r (map pad data)))) by (rewrite <- firstn_map, Hl; reflexivity). rewrite (ds_write W (map pad data) 0 r (pad x) (map_nth_error _ _ _ Hx)). cbn [bind Nat.add]. rewrite IH by (intros r' Hr'; apply Hr; now right). cbn [rev]. now rewrite <- app_assoc. }
    replace (repeat None (sum (map (@length A) data))) with (ds_from 0 [] (map pad data)) by (rewrite ds_nil, Hl; reflexivity). rewrite H by (intros r Hr; eapply Permutation_in in Hr; [|exact Hperm]; apply in_seq in Hr; lia). f_equal. apply ds_all. intros i Hi. rewrite map_length in Hi. rewrite app_nil_r. rewrite <- in_rev. eapply Permutation_in; [apply Permutation_sym; exact Hperm|]. apply in_seq. lia.
  Qed.
End Datasets.

(** ** What several ranks write *)
Section Ranks.
  Variable R : Type.
  Variable zero : R.
  Variable width : nat.
  Variable ranks : list (hdf_local R).
  Hypothesis consistent : forall h, In h ranks -> length (hl_types h) = hl_cells h /\ length (hl_offsets h) = S (hl_cells h).

  Let cells := map (fun h : hdf_local R => [hl_cells h]) ranks.
  Let npts := map (fun h : hdf_local R => [length (hl_nodes h)]) ranks.
  Let ncon := map (fun h : hdf_local R => [length (hl_conn h)]) ranks.
  Let pts := map (fun h : hdf_local R => pad_rows R zero width (hl_nodes h)) ranks.
  Let con := map (fun h : hdf_local R => hl_conn h) ranks.
  Let off := map (fun h : hdf_local R => hl_offsets h) ranks.
  Let typ := map (fun h : hdf_local R => hl_types h) ranks.
  Definition file_of (W : list nat) : hdf_file R :=
    mk_hdf_file R (ds_from _ 0 W cells) (ds_from _ 0 W npts) (ds_from _ 0 W ncon) (ds_from _ 0 W pts) (ds_from _ 0 W con) (ds_from _ 0 W off) (ds_from _ 0 W typ).

  Lemma sum_ones {B} (l : list B) (f : B -> nat) r : r <= length l -> sum (map (@length nat) (firstn r (map (fun h => [f h]) l))) = r.
  Proof using.
    revert r. induction l as [|x l IH]; intros [|r] H; cbn [length] in H; try reflexivity; try lia. cbn [map firstn length]. change (sum (1 :: map (@length nat) (firstn r (map (fun h => [f h]) l)))) with (1 + sum (map (@length nat) (firstn r (map (fun h => [f h]) l)))). rewrite IH; lia.
  Qed.
  Lemma pad_rows_length rows : length (pad_rows R zero width rows) = length rows.
  Proof using. unfold pad_rows. destruct (width <? 3); [apply map_length|reflexivity]. Qed.
  Lemma sum_lengths {B C} (f : B -> list C) (n : B -> nat) (l : list B) r : (forall h, In h l -> length (f h) = n h) -> sum (map (@length C) (firstn r (map f l))) = sum (firstn r (map n l)).
  Proof using. intros H. rewrite <- firstn_map. rewrite map_map. do 2 f_equal. now apply map_ext_in. Qed.
  Lemma sum_offsets r : r <= length ranks -> sum (map (@length nat) (firstn r off)) = sum (firstn r (map (@hl_cells R) ranks)) + r.
  Proof using consistent zero width.
    unfold off. rewrite <- firstn_map, map_map. revert r consistent. induction ranks as [|h l IH]; intros [|r] Hc H; cbn [length] in H; try reflexivity; try lia. cbn [map firstn]. unfold sum in *. cbn [fold_right]. rewrite IH; [|intros h' Hh'; apply Hc; now right|lia]. destruct (Hc h (or_introl eq_refl)) as (_ & ->). lia.
  Qed.
  Lemma scan_sub (n : hdf_local R -> nat) r h : nth_error ranks r = Some h -> scan R n ranks r - n h = sum (firstn r (map n ranks)).
  Proof using. intros H. unfold scan. rewrite <- firstn_map. apply sum_firstn_S. now apply map_nth_error. Qed.

  Lemma rank_ok W r : r < length ranks -> write_rank R zero width ranks (file_of W) r = Ok (file_of (r :: W)).
  Proof using consistent zero width.
    intros Hr. unfold write_rank. assert (exists h, nth_error ranks r = Some h) as (h & Hh). { destruct (nth_error ranks r) eqn:E; eauto. apply nth_error_None in E. lia. }
    assert (Hin : In h ranks) by (eapply nth_error_In; eauto).
    unfold get. rewrite Hh. cbn [bind]. rewrite (scan_sub (@hl_cells R) r h Hh).
    rewrite (scan_sub (fun h => length (hl_nodes h)) r h Hh), (scan_sub (fun h => length (hl_conn h)) r h Hh).
    unfold file_of at 1. cbn [hf_ncells hf_npoints hf_nconn hf_points hf_conn hf_offsets hf_types].
    pose proof (ds_write _ W cells 0 r _ (map_nth_error _ _ _ Hh)) as E1. unfold cells in E1 at 2. rewrite sum_ones in E1 by lia. unfold file_of at 1. cbn [hf_ncells]. rewrite E1. cbn [bind].
    pose proof (ds_write _ W npts 0 r _ (map_nth_error _ _ _ Hh)) as E2. unfold npts in E2 at 2. rewrite sum_ones in E2 by lia. unfold file_of at 1. cbn [hf_npoints]. rewrite E2. cbn [bind].
    pose proof (ds_write _ W ncon 0 r _ (map_nth_error _ _ _ Hh)) as E3. unfold ncon in E3 at 2. rewrite sum_ones in E3 by lia. unfold file_of at 1. cbn [hf_nconn]. rewrite E3. cbn [bind].
    pose proof (ds_write _ W pts 0 r _ (map_nth_error _ _ _ Hh)) as E4. unfold pts in E4 at 2. rewrite (sum_lengths _ (fun h => length (hl_nodes h))) in E4 by (intros; apply pad_rows_length). unfold file_of at 1. cbn [hf_points]. rewrite E4. cbn [bind].
    pose proof (ds_write _ W con 0 r _ (map_nth_error _ _ _ Hh)) as E5. unfold con in E5 at 2. rewrite (sum_lengths _ (fun h => length (hl_conn h))) in E5 by reflexivity. unfold file_of at 1. cbn [hf_conn]. rewrite E5. cbn [bind].
    pose proof (ds_write _ W off 0 r _ (map_nth_error _ _ _ Hh)) as E6. rewrite sum_offsets in E6 by lia. unfold file_of at 1. cbn [hf_offsets]. rewrite E6. cbn [bind].
    pose proof (ds_write _ W typ 0 r _ (map_nth_error _ _ _ Hh)) as E7. unfold typ in E7 at 2. rewrite (sum_lengths _ (@hl_cells R)) in E7 by (intros h' Hh'; apply consistent; exact Hh'). unfold file_of at 1. cbn [hf_types]. rewrite E7. reflexivity.
  Qed.

  Lemma sum_map_const {B} (f : B -> nat) (l : list B) : sum (map (fun h => length [f h]) l) = length l.
  Proof using. induction l as [|x l IH]; [reflexivity|]. cbn [map]. change (S (sum (map (fun h => length [f h]) l)) = S (length l)). now rewrite IH. Qed.
  Lemma empty_ok : empty_file R ranks = file_of [].
  Proof using consistent zero width.
    unfold empty_file, file_of, cells, npts, ncon, pts, con, off, typ. rewrite !ds_nil, !map_map. rewrite !sum_map_const. unfold allreduce.
    assert (E1 : map (fun x => length (pad_rows R zero width (hl_nodes x))) ranks = map (fun h => length (hl_nodes h)) ranks) by (apply map_ext; intros h; apply pad_rows_length).
    assert (E2 : map (fun x => length (hl_types x)) ranks = map (@hl_cells R) ranks) by (apply map_ext_in; intros h Hh; now apply consistent).
    pose proof (sum_offsets (length ranks) (le_n _)) as E. unfold off in E. rewrite !firstn_all2 in E by (rewrite map_length; lia). rewrite map_map in E.
    rewrite E1, E2, E. reflexivity.
  Qed.
  Lemma ranks_ok order : Permutation order (seq 0 (length ranks)) ->
    write_ranks R zero width ranks order = Ok (mk_hdf_file R (map Some (map (@hl_cells R) ranks)) (map Some (map (fun h => length (hl_nodes h)) ranks)) (map Some (map (fun h => length (hl_conn h)) ranks))
      (map Some (concat pts)) (map Some (concat con)) (map Some (concat off)) (map Some (concat typ))).
  Proof using consistent zero width.
    intros Hperm. unfold write_ranks. rewrite empty_ok.
    assert (H : forall order W, (forall r, In r order -> r < length ranks) -> foldM (write_rank R zero width ranks) order (file_of W) = Ok (file_of (rev order ++ W))).
    { clear Hperm order. induction order as [|r order IH]; intros W Hr; [reflexivity|]. cbn [foldM]. rewrite rank_ok by (apply Hr; now left). cbn [bind]. rewrite IH by (intros r' Hr'; apply Hr; now right). cbn [rev]. now rewrite <- app_assoc. }
    rewrite H by (intros r Hr; eapply Permutation_in in Hr; [|exact Hperm]; apply in_seq in Hr; lia). rewrite app_nil_r. f_equal.
    assert (Hall : forall i, 0 <= i < 0 + length ranks -> In i (rev order)). { intros i Hi. rewrite <- in_rev. eapply Permutation_in; [apply Permutation_sym; exact Hperm|]. apply in_seq. lia. }
    unfold file_of, cells, npts, ncon, pts, con, off, typ. rewrite !ds_all by (rewrite map_length; exact Hall).
    assert (Hc : forall {B} (f : hdf_local R -> B), concat (map (fun h => [f h]) ranks) = map f ranks). { intros B f. clear. induction ranks as [|h l IH]; [reflexivity|]. cbn [map concat app]. now rewrite IH. }
    rewrite !Hc. reflexivity.
  Qed.
End Ranks.

(** ** Options *)
Section Options.
  Variable V : Type.
  Lemma dict_get_set (d : dict V) k v k' : dict_get V (dict_set V d k v) k' = if (k' =? k)%string then Some v else dict_get V d k'.
  Proof.
    unfold dict_get. induction d as [|(a, x) d IH]; cbn [dict_set find fst].
    - rewrite String.eqb_sym. now destruct (k' =? k)%string.
    - destruct (String.eqb_spec a k) as [->|Hn]; cbn [find fst].
      + rewrite (String.eqb_sym k k'). now destruct (k' =? k)%string.
      + destruct (String.eqb_spec a k') as [->|Hn'].
        * destruct (String.eqb_spec k' k); [contradiction|reflexivity].
        * exact IH.
  Qed.
  Lemma dict_set_keys (d : dict V) k v : NoDup (map fst d) -> NoDup (map fst (dict_set V d k v)) /\ (forall x, In x (map fst (dict_set V d k v)) -> x = k \/ In x (map fst d)).
  Proof.
    induction d as [|(a, x) d IH]; intros HN; cbn [dict_set map fst] in *.
    - split; [repeat constructor; auto|]. intros y [<-|[]]; auto.
    - inversion HN as [|? ? Ha Hd]; subst. destruct (String.eqb_spec a k) as [->|Hn]; cbn [map fst].
      + split; [exact HN|]. intros y Hy. now right.
      + destruct (IH Hd) as (I1 & I2). split.
        * constructor; [|exact I1]. intros Hin. apply I2 in Hin as [->|Hin]; auto.
        * intros y [<-|Hy]; [right; now left|]. destruct (I2 y Hy); auto. right. now right.
  Qed.
  Lemma vtkhdf_options_given (mpio : V) veqb c (opts : option (dict V)) : (forall v, veqb v mpio = true <-> v = mpio) ->
    let given : dict V := match opts with Some d => d | None => [] end in
    NoDup (map fst given) ->
    match fst (vtkhdf_options V mpio veqb (Some c) opts) with
    | Ok d => NoDup (map fst d) /\ dict_get V d "comm"%string = Some c /\ dict_get V d "driver"%string = Some mpio /\
              (forall k, k <> "comm"%string -> k <> "driver"%string -> dict_get V d k = dict_get V given k)
    | Err e => e = ValueError /\ exists v, dict_get V given "driver"%string = Some v /\ v <> mpio
    end.
  Proof.
    intros Hv given HN. unfold vtkhdf_options. cbv beta iota zeta. change (match opts with Some d => d | None => ([] : dict V) end) with given. clearbody given. rewrite (dict_get_set given "comm"%string c "driver"%string). cbn [String.eqb Ascii.eqb Bool.eqb].
    assert (Hc : forall d k, k <> "comm"%string -> dict_get V (dict_set V d "comm"%string c) k = dict_get V d k).
    { intros d k Hk. rewrite dict_get_set. destruct (String.eqb_spec k "comm"); [contradiction|reflexivity]. }
    assert (Hdc : ("driver" =? "comm")%string = false) by reflexivity. rewrite ?Hdc.
    pose proof (dict_set_keys given "comm"%string c HN) as (HN1 & _).
    destruct (dict_get V given "driver"%string) as [v|] eqn:Ev.
    - destruct (veqb v mpio) eqn:Eb; cbn [fst].
      + apply Hv in Eb. subst v. split; [exact HN1|]. split; [now rewrite dict_get_set|]. split; [rewrite Hc by discriminate; exact Ev|]. intros k H1 _. now apply Hc.
      + split; [reflexivity|]. exists v. split; [reflexivity|]. intros ->. rewrite (proj2 (Hv mpio) eq_refl) in Eb. discriminate.
    - cbn [fst]. pose proof (dict_set_keys _ "driver"%string mpio HN1) as (HN2 & _). split; [exact HN2|].
      split; [rewrite !dict_get_set; reflexivity|]. split; [now rewrite dict_get_set|]. intros k H1 H2. rewrite dict_get_set. destruct (String.eqb_spec k "driver"); [contradiction|]. now apply Hc.
  Qed.
End Options.
