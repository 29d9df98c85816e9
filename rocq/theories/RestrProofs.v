(** * RestrProofs: proofs about face restrictions *)
From Coq Require Import List Arith Bool ZArith Lia Permutation.
From Verif Require Import Np NpFacts MeshModel MeshSpec MeshProofs CompletionProofs PartSpec MergeProofs SplitProofs PointProofs ConnModel ConnProofs FaceConnModel FaceConnSpec.
Import ListNotations.

Lemma foldM_inv_nth {X S} (f : S -> X -> res S) (I : nat -> S -> Prop) (l : list X) (s : S) :
  I 0 s -> (forall i x s, nth_error l i = Some x -> I i s -> exists s', f s x = Ok s' /\ I (Datatypes.S i) s') ->
  exists s', foldM f l s = Ok s' /\ I (length l) s'.
Proof.
  revert I s. induction l as [|x l IH]; intros I s H0 Hs; cbn [foldM length]; [eauto|].
  destruct (Hs 0 x s eq_refl H0) as (s1 & E1 & I1). rewrite E1. cbn [bind].
  apply (IH (fun n => I (Datatypes.S n))); [exact I1|]. intros i y t Hi. exact (Hs (Datatypes.S i) y t Hi).
Qed.

Lemma map_add_seq b n : map (Nat.add b) (seq 0 n) = seq b n.
Proof.
  apply nth_error_ext'. intros i. rewrite nth_error_map. destruct (Nat.ltb_spec i n) as [H|H].
  - rewrite !(nth_error_nth' _ 0) by (rewrite seq_length; lia). rewrite !seq_nth by lia. reflexivity.
  - rewrite !(proj2 (nth_error_None _ _)) by (rewrite seq_length; lia). reflexivity.
Qed.
Lemma nth_error_seq b n i : nth_error (seq b n) i = if i <? n then Some (b + i) else None.
Proof.
  destruct (Nat.ltb_spec i n) as [H|H].
  - rewrite (nth_error_nth' _ 0) by (rewrite seq_length; lia). now rewrite seq_nth by lia.
  - apply nth_error_None. rewrite seq_length. lia.
Qed.
Lemma seq_snoc b n : seq b (S n) = seq b n ++ [b + n].
Proof. replace (S n) with (n + 1) by lia. now rewrite seq_app. Qed.

(** Writing consecutive positions *)
Lemma map_fst_combine {X Y} (l : list X) (l' : list Y) : length l = length l' -> map fst (combine l l') = l.
Proof. revert l'. induction l as [|x l IH]; intros [|y l'] H; try discriminate; [reflexivity|]. cbn [combine map fst]. f_equal. apply IH. cbn in H. lia. Qed.

Lemma scatter_seq {X} (l : list X) b vs : b + length vs <= length l -> exists l', scatter l (combine (seq b (length vs)) vs) = Ok l' /\ length l' = length l /\
  (forall j v, nth_error vs j = Some v -> nth_error l' (b + j) = Some v) /\ (forall i, i < b \/ b + length vs <= i -> nth_error l' i = nth_error l i).
Proof.
  intros Hb. assert (Hf : map fst (combine (seq b (length vs)) vs) = seq b (length vs)) by (apply map_fst_combine; now rewrite seq_length).
  destruct (proj2 (scatter_ok_range (combine (seq b (length vs)) vs) l)) as (l' & Hl').
  { apply Forall_forall. intros (i, v) Hin. apply in_combine_l in Hin. apply in_seq in Hin. cbn [fst]. lia. }
  exists l'. split; [exact Hl'|]. split; [now apply scatter_length in Hl'|]. split.
  - intros j v Hj. eapply scatter_in; [exact Hl'|rewrite Hf; apply seq_NoDup|]. eapply nth_error_In. apply nth_error_combine'; [|exact Hj].
    rewrite nth_error_seq. assert (j < length vs) by (apply nth_error_Some; congruence). destruct (Nat.ltb_spec j (length vs)); [reflexivity|lia].
  - intros i Hi. eapply scatter_notin; [exact Hl'|]. rewrite Hf, in_seq. lia.
Qed.

(** ** The faces of one group *)
Section Group.
  Context {E E' A K : Type}.
  Variables (garbage_row : nat -> list nat) (garbage_node : nat -> E').
  Variables (face_coords : K -> nat -> E -> E') (factory : K -> K) (bfvi : K -> list (list nat)).

  Definition els (gbf : list (nat * nat)) (f : nat) : list nat := map fst (filter (fun ef => snd ef =? f) gbf).
  Definition start (gbf : list (nat * nat)) (f : nat) : nat := sum (map (fun f' => length (els gbf f')) (seq 0 f)).

  Lemma In_els gbf f e : In e (els gbf f) <-> In (e, f) gbf.
  Proof.
    unfold els. rewrite in_map_iff. split.
    - intros ((e', f') & <- & H). apply filter_In in H. destruct H as (H & Hf). apply Nat.eqb_eq in Hf. cbn [fst snd] in *. now subst.
    - intros H. exists (e, f). split; [reflexivity|]. apply filter_In. split; [exact H|]. apply Nat.eqb_refl.
  Qed.
  Lemma NoDup_els gbf f : NoDup gbf -> NoDup (els gbf f).
  Proof.
    intros H. unfold els. apply NoDup_map_inj; [|now apply NoDup_filter'].
    intros (e, f1) (e', f2) H1 H2 Hee. apply filter_In in H1, H2. destruct H1 as (_ & H1), H2 as (_ & H2). apply Nat.eqb_eq in H1, H2. cbn [fst snd] in *. congruence.
  Qed.
  Lemma start_S gbf f : start gbf (S f) = start gbf f + length (els gbf f).
  Proof. unfold start. rewrite seq_snoc, map_app, sum_app. cbn [map sum fold_right]. rewrite Nat.add_0_l. lia. Qed.
  Lemma start_mono gbf f f' : f <= f' -> start gbf f <= start gbf f'.
  Proof. induction 1 as [|f' _ IH]; [lia|]. rewrite start_S. lia. Qed.
  Lemma start_total gbf n : Forall (fun ef => snd ef < n) gbf -> start gbf n = length gbf.
  Proof.
    intros H. assert (G : forall m, start gbf m = length (filter (fun ef => snd ef <? m) gbf)).
    { clear. induction m as [|m IH].
      - unfold start. cbn. induction gbf as [|x l IH]; [reflexivity|]. cbn. exact IH.
      - rewrite start_S, IH. unfold els. rewrite map_length. clear. induction gbf as [|(e, f) l IH]; [reflexivity|]. cbn [filter snd].
        destruct (Nat.ltb_spec f m), (Nat.ltb_spec f (S m)), (Nat.eqb_spec f m); cbn [length]; lia. }
    rewrite G. clear G. induction H as [|x l Hx H IH]; [reflexivity|]. cbn [filter]. apply Nat.ltb_lt in Hx. rewrite Hx. cbn [length]. now rewrite IH.
  Qed.
  Lemma start_le gbf f : start gbf f <= length gbf.
  Proof.
    set (n := S (f + list_max0 (map snd gbf))).
    assert (Hn : Forall (fun ef => snd ef < n) gbf).
    { unfold n. clear. induction gbf as [|x l IH]; [constructor|]. cbn [map list_max0 fold_right]. constructor; [unfold list_max0; cbn; lia|].
      eapply Forall_impl; [|exact IH]. cbn. unfold list_max0. cbn. intros; lia. }
    rewrite <- (start_total _ _ Hn). apply start_mono. unfold n. lia.
  Qed.
  (** Positions in the numbering face by face *)
  Lemma start_find gbf n t : t < start gbf n -> exists f j, f < n /\ j < length (els gbf f) /\ t = start gbf f + j.
  Proof.
    induction n as [|n IH]; intros H; [cbn in H; lia|]. rewrite start_S in H. destruct (Nat.lt_ge_cases t (start gbf n)) as [Hlt|Hge].
    - destruct (IH Hlt) as (f & j & Hf & Hj & Ht). exists f, j. split; [lia|auto].
    - exists n, (t - start gbf n). lia.
  Qed.
  Lemma start_inj gbf f f' j j' : j < length (els gbf f) -> j' < length (els gbf f') -> start gbf f + j = start gbf f' + j' -> f = f' /\ j = j'.
  Proof.
    intros Hj Hj' H. assert (f = f').
    { destruct (Nat.lt_trichotomy f f') as [Hlt|[->|Hlt]]; [|reflexivity|].
      - pose proof (start_mono gbf (S f) f' Hlt) as Hm. rewrite start_S in Hm. lia.
      - pose proof (start_mono gbf (S f') f Hlt) as Hm. rewrite start_S in Hm. lia. }
    subst f'. split; [reflexivity|lia].
  Qed.

  (** [row'] is what becomes of the vertices of face [ref] of element [e] *)
  Definition bface (v2b : list (option nat)) (vi : list (list nat)) (ref : list nat) (e : nat) (row' : list nat) : Prop :=
    exists row vsf, nth_error vi e = Some row /\ take row ref = Ok vsf /\ mapM (to_bdry v2b) vsf = Ok row'.

  Variables (g : egroup E) (k : K) (vi : list (list nat)) (gbf : list (nat * nat)) (v2b : list (option nat)).
  Hypothesis Hfaces : forall e f ref, In (e, f) gbf -> nth_error (eg_fvi g) f = Some ref -> exists row', bface v2b vi ref e row'.
  Hypothesis Helems : forall e f, In (e, f) gbf -> e < nelements g.
  Hypothesis Hrange : Forall (fun ef => snd ef < nfaces g) gbf.

  Definition goodrow (rows : list (list nat)) (b f : nat) (ref : list nat) : Prop :=
    forall j e, nth_error (els gbf f) j = Some e -> exists row', nth_error rows (b + j) = Some row' /\ bface v2b vi ref e row'.
  Definition goodnode (nodes : list E') (b f : nat) : Prop :=
    forall j e, nth_error (els gbf f) j = Some e -> exists x, nth_error (eg_nodes g) e = Some x /\ nth_error nodes (b + j) = Some (face_coords k f x).

  Lemma write_ok f ref b (rows : list (list nat)) (nodes : list E') : nth_error (eg_fvi g) f = Some ref ->
    b + length (els gbf f) <= length rows -> b + length (els gbf f) <= length nodes ->
    exists erows glob bdry rows' enodes nodes', take vi (els gbf f) = Ok erows /\ mapM (fun row => take row ref) erows = Ok glob /\
      mapM (mapM (to_bdry v2b)) glob = Ok bdry /\
      scatter rows (combine (map (Nat.add b) (seq 0 (length (els gbf f)))) bdry) = Ok rows' /\ take (eg_nodes g) (els gbf f) = Ok enodes /\
      scatter nodes (combine (map (Nat.add b) (seq 0 (length (els gbf f)))) (map (face_coords k f) enodes)) = Ok nodes' /\
      length rows' = length rows /\ length nodes' = length nodes /\ goodrow rows' b f ref /\ goodnode nodes' b f /\
      (forall i, i < b \/ b + length (els gbf f) <= i -> nth_error rows' i = nth_error rows i /\ nth_error nodes' i = nth_error nodes i).
  Proof.
    intros Href Hr Hn. set (es := els gbf f) in *.
    assert (Hes : forall e, In e es -> exists row' row vsf, nth_error vi e = Some row /\ take row ref = Ok vsf /\ mapM (to_bdry v2b) vsf = Ok row').
    { intros e He. apply In_els in He. destruct (Hfaces e f ref He Href) as (row' & row & vsf & H). exists row', row, vsf. exact H. }
    destruct (mapM_total (get vi) es) as (erows & Herows).
    { intros e He. destruct (Hes e He) as (_ & row & _ & Hrow & _). exists row. now apply get_ok. }
    pose proof Herows as Herows'. apply mapM_ok in Herows'.
    destruct (mapM_total (fun row => take row ref) erows) as (glob & Hglob).
    { intros row Hrow. destruct (Forall2_In_r _ _ _ _ Herows' Hrow) as (e & He & Hge). destruct (Hes e He) as (_ & row2 & vsf & Hrow2 & Ht & _).
      apply get_ok in Hge. assert (row2 = row) by congruence. subst. eauto. }
    pose proof Hglob as Hglob'. apply mapM_ok in Hglob'.
    destruct (mapM_total (mapM (to_bdry v2b)) glob) as (bdry & Hbdry).
    { intros vsf Hvsf. destruct (Forall2_In_r _ _ _ _ Hglob' Hvsf) as (row & Hrow & Ht). destruct (Forall2_In_r _ _ _ _ Herows' Hrow) as (e & He & Hge).
      destruct (Hes e He) as (row' & row2 & vsf2 & Hrow2 & Ht2 & Hb). apply get_ok in Hge. assert (row2 = row) by congruence. subst. assert (vsf2 = vsf) by congruence. subst. eauto. }
    pose proof Hbdry as Hbdry'. apply mapM_ok in Hbdry'.
    assert (Hlb : length bdry = length es).
    { rewrite <- (Forall2_length' _ _ _ Hbdry'), <- (Forall2_length' _ _ _ Hglob'), <- (Forall2_length' _ _ _ Herows'). reflexivity. }
    destruct (scatter_seq rows b bdry) as (rows' & Hs1 & Hl1 & Hv1 & Ho1); [lia|].
    destruct (mapM_total (get (eg_nodes g)) es) as (enodes & Henodes).
    { intros e He. apply get_total. apply In_els in He. exact (Helems _ _ He). }
    pose proof Henodes as Henodes'. apply mapM_ok in Henodes'.
    assert (Hle : length (map (face_coords k f) enodes) = length es) by (rewrite map_length; symmetry; apply (Forall2_length' _ _ _ Henodes')).
    destruct (scatter_seq nodes b (map (face_coords k f) enodes)) as (nodes' & Hs2 & Hl2 & Hv2 & Ho2); [lia|].
    exists erows, glob, bdry, rows', enodes, nodes'. rewrite map_add_seq. rewrite Hlb in Hs1. rewrite Hle in Hs2.
    split; [exact Herows|]. split; [exact Hglob|]. split; [exact Hbdry|]. split; [exact Hs1|]. split; [exact Henodes|]. split; [exact Hs2|].
    split; [exact Hl1|]. split; [exact Hl2|]. split; [|split].
    - intros j e Hj. destruct (Forall2_nth_error _ _ _ _ _ Herows' Hj) as (row & Hrow & Hge). apply get_ok in Hge.
      destruct (Forall2_nth_error _ _ _ _ _ Hglob' Hrow) as (vsf & Hvsf & Ht). destruct (Forall2_nth_error _ _ _ _ _ Hbdry' Hvsf) as (row' & Hrow' & Hb).
      exists row'. split; [now apply Hv1|]. exists row, vsf. auto.
    - intros j e Hj. destruct (Forall2_nth_error _ _ _ _ _ Henodes' Hj) as (x & Hx & Hge). apply get_ok in Hge. exists x. split; [exact Hge|].
      apply Hv2. rewrite nth_error_map, Hx. reflexivity.
    - intros i Hi. rewrite Hlb in Ho1. rewrite Hle in Ho2. auto.
  Qed.

  Notation step perface := (face_step factory face_coords bfvi garbage_row garbage_node perface g k vi gbf v2b).
  Definition dat (b f : nat) : list nat * list nat := (els gbf f, seq b (length (els gbf f))).

  (** One group with all faces *)
  Lemma group_joint w : nfaces g <> 0 -> Forall (fun ref => length ref = w) (eg_fvi g) ->
    exists st rows nodes, foldM (step false) (enumerate (eg_fvi g)) (mk_rstate 0 0 [] [] [] []) = Ok st /\
      rs_out st = [mk_egroup (Some rows) nodes (bfvi (factory k))] /\ rs_data st = map (fun f => dat (start gbf f) f) (seq 0 (nfaces g)) /\
      length rows = length gbf /\ length nodes = length gbf /\
      forall f ref, nth_error (eg_fvi g) f = Some ref -> goodrow rows (start gbf f) f ref /\ goodnode nodes (start gbf f) f.
  Proof.
    intros Hnf Hw.
    pose (I := fun m (st : @rstate E') => rs_base st = start gbf m /\ rs_data st = map (fun f => dat (start gbf f) f) (seq 0 m) /\
      (m <> 0 -> rs_width st = w /\ length (rs_rows st) = length gbf /\ length (rs_nodes st) = length gbf) /\
      (forall f ref, f < m -> nth_error (eg_fvi g) f = Some ref -> goodrow (rs_rows st) (start gbf f) f ref /\ goodnode (rs_nodes st) (start gbf f) f) /\
      rs_out st = if m =? nfaces g then [mk_egroup (Some (rs_rows st)) (rs_nodes st) (bfvi (factory k))] else []).
    destruct (foldM_inv_nth (step false) I (enumerate (eg_fvi g)) (mk_rstate 0 0 [] [] [] [])) as (st & Hst & HI).
    - unfold I. cbn [rs_base rs_data rs_rows rs_nodes rs_out]. split; [reflexivity|]. split; [reflexivity|]. split; [congruence|]. split; [lia|].
      destruct (Nat.eqb_spec 0 (nfaces g)); [congruence|reflexivity].
    - intros i (f, ref) s Hi (Hb & Hd & Hws & Hg & Ho). rewrite nth_error_enumerate in Hi. destruct (nth_error (eg_fvi g) i) as [ref'|] eqn:Href; [|discriminate].
      cbn [option_map] in Hi. injection Hi as <- <-. rename ref' into ref.
      assert (Hi : i < nfaces g) by (apply nth_error_Some; congruence).
      assert (Hrw : length ref = w) by (rewrite Forall_forall in Hw; apply Hw; eapply nth_error_In; eauto).
      pose (rows0 := if i =? 0 then map garbage_row (seq 0 (length gbf)) else rs_rows s).
      pose (nodes0 := if i =? 0 then map garbage_node (seq 0 (length gbf)) else rs_nodes s).
      assert (Hlr : length rows0 = length gbf) by (unfold rows0; destruct (Nat.eqb_spec i 0); [now rewrite map_length, seq_length|now apply Hws]).
      assert (Hln : length nodes0 = length gbf) by (unfold nodes0; destruct (Nat.eqb_spec i 0); [now rewrite map_length, seq_length|now apply Hws]).
      pose proof (start_le gbf (S i)) as Hsl. rewrite start_S in Hsl.
      destruct (write_ok i ref (start gbf i) rows0 nodes0 Href) as (erows & glob & bdry & rows' & enodes & nodes' & H1 & H2 & H3 & H4 & H5 & H6 & Hl1 & Hl2 & Hgr & Hgn & Hold); [lia|lia|].
      eexists. split.
      + unfold face_step. cbn [orb]. fold (els gbf i).
        replace (if i =? 0 then (length ref, map garbage_row (seq 0 (length gbf)), map garbage_node (seq 0 (length gbf))) else (rs_width s, rs_rows s, rs_nodes s))
          with (w, rows0, nodes0).
        2:{ unfold rows0, nodes0. destruct (Nat.eqb_spec i 0); [now rewrite Hrw|]. now rewrite (proj1 (Hws ltac:(assumption))). }
        cbn beta iota zeta. rewrite Hb. rewrite H1. cbn [bind]. rewrite H2. cbn [bind]. rewrite H3. cbn [bind]. rewrite Hrw, Nat.eqb_refl. cbn [guard bind].
        rewrite H4. cbn [bind]. rewrite H5. cbn [bind]. rewrite H6. cbn [bind]. reflexivity.
      + unfold I. cbn [rs_base rs_width rs_data rs_rows rs_nodes rs_out]. split; [now rewrite start_S|]. split.
        { rewrite Hd, seq_snoc, map_app. cbn [map]. rewrite Nat.add_0_l. unfold dat at 3. now rewrite map_add_seq. }
        split; [intros _; split; [reflexivity|lia]|]. split.
        { intros f ref' Hf Href'. destruct (Nat.eq_dec f i) as [->|Hne].
          - assert (ref' = ref) by congruence. subst. split; assumption.
          - assert (Hfi : f < i) by lia. assert (Hi0 : i <> 0) by lia. destruct (Hg f ref' Hfi Href') as (Hgr' & Hgn').
            pose proof (start_mono gbf (S f) i Hfi) as Hmono. rewrite start_S in Hmono.
            unfold rows0, nodes0 in Hold. apply Nat.eqb_neq in Hi0. rewrite Hi0 in Hold. split.
            + intros j e Hj. destruct (Hgr' j e Hj) as (row' & Hrow' & Hbf). exists row'. split; [|exact Hbf].
              assert (j < length (els gbf f)) by (apply nth_error_Some; congruence). rewrite (proj1 (Hold (start gbf f + j) ltac:(lia))). exact Hrow'.
            + intros j e Hj. destruct (Hgn' j e Hj) as (x & Hx & Hx'). exists x. split; [exact Hx|].
              assert (j < length (els gbf f)) by (apply nth_error_Some; congruence). rewrite (proj2 (Hold (start gbf f + j) ltac:(lia))). exact Hx'. }
        replace (S i =? nfaces g) with (i + 1 =? nfaces g) by (f_equal; lia). rewrite Ho.
        destruct (Nat.eqb_spec i (nfaces g)); [lia|]. destruct (i + 1 =? nfaces g); reflexivity.
    - rewrite length_enumerate in HI. destruct HI as (Hb & Hd & Hws & Hg & Ho). fold (nfaces g) in *.
      rewrite Nat.eqb_refl in Ho. destruct (Hws Hnf) as (_ & Hl1 & Hl2). exists st, (rs_rows st), (rs_nodes st).
      split; [exact Hst|]. split; [exact Ho|]. split; [exact Hd|]. split; [exact Hl1|]. split; [exact Hl2|].
      intros f ref Href. apply Hg; [|exact Href]. apply nth_error_Some. congruence.
  Qed.

  (** One group per face *)
  Lemma group_split : exists st, foldM (step true) (enumerate (eg_fvi g)) (mk_rstate 0 0 [] [] [] []) = Ok st /\
      rs_data st = map (dat 0) (seq 0 (nfaces g)) /\ length (rs_out st) = nfaces g /\
      forall f ref, nth_error (eg_fvi g) f = Some ref -> exists rows nodes, nth_error (rs_out st) f = Some (mk_egroup (Some rows) nodes (bfvi (factory k))) /\
        length rows = length (els gbf f) /\ length nodes = length (els gbf f) /\ goodrow rows 0 f ref /\ goodnode nodes 0 f.
  Proof.
    pose (I := fun m (st : @rstate E') => rs_base st = 0 /\ rs_data st = map (dat 0) (seq 0 m) /\ length (rs_out st) = m /\
      forall f ref, f < m -> nth_error (eg_fvi g) f = Some ref -> exists rows nodes, nth_error (rs_out st) f = Some (mk_egroup (Some rows) nodes (bfvi (factory k))) /\
        length rows = length (els gbf f) /\ length nodes = length (els gbf f) /\ goodrow rows 0 f ref /\ goodnode nodes 0 f).
    destruct (foldM_inv_nth (step true) I (enumerate (eg_fvi g)) (mk_rstate 0 0 [] [] [] [])) as (st & Hst & HI).
    - unfold I. cbn [rs_base rs_data rs_out length]. split; [reflexivity|]. split; [reflexivity|]. split; [reflexivity|]. lia.
    - intros i (f, ref) s Hi (Hb & Hd & Ho & Hg). rewrite nth_error_enumerate in Hi. destruct (nth_error (eg_fvi g) i) as [ref'|] eqn:Href; [|discriminate].
      cbn [option_map] in Hi. injection Hi as <- <-. rename ref' into ref.
      set (n := length (els gbf i)).
      destruct (write_ok i ref 0 (map garbage_row (seq 0 n)) (map garbage_node (seq 0 n)) Href) as
        (erows & glob & bdry & rows' & enodes & nodes' & H1 & H2 & H3 & H4 & H5 & H6 & Hl1 & Hl2 & Hgr & Hgn & _);
        [rewrite map_length, seq_length; unfold n; lia|rewrite map_length, seq_length; unfold n; lia|].
      eexists. split.
      + unfold face_step. cbn [orb]. fold (els gbf i). fold n. cbn beta iota zeta. rewrite Hb. rewrite H1. cbn [bind]. rewrite H2. cbn [bind]. rewrite H3. cbn [bind].
        rewrite Nat.eqb_refl. cbn [guard bind]. fold n in H4, H6. rewrite H4. cbn [bind]. rewrite H5. cbn [bind]. rewrite H6. cbn [bind]. reflexivity.
      + unfold I. cbn [rs_base rs_data rs_out]. split; [reflexivity|]. split.
        { rewrite Hd, seq_snoc, map_app. cbn [map]. rewrite Nat.add_0_l. unfold dat at 3. now rewrite map_add_seq. }
        split; [rewrite app_length; cbn [length]; lia|].
        intros f ref' Hf Href'. destruct (Nat.eq_dec f i) as [->|Hne].
        * assert (ref' = ref) by congruence. subst. exists rows', nodes'. split; [rewrite nth_error_app2 by lia; now rewrite Nat.sub_diag|].
          rewrite map_length, seq_length in Hl1, Hl2. auto.
        * destruct (Hg f ref' ltac:(lia) Href') as (rows & nodes & Hn & H). exists rows, nodes. split; [rewrite nth_error_app1 by lia; exact Hn|exact H].
    - rewrite length_enumerate in HI. destruct HI as (Hb & Hd & Ho & Hg). fold (nfaces g) in *. exists st. split; [exact Hst|]. split; [exact Hd|]. split; [exact Ho|].
      intros f ref Href. apply Hg; [|exact Href]. apply nth_error_Some. congruence.
  Qed.
End Group.

(** ** Concatenated lists *)
Lemma concat_nth_inv {X} (ls : list (list X)) p x : nth_error (concat ls) p = Some x ->
  exists k l i, nth_error ls k = Some l /\ nth_error l i = Some x /\ p = base (map (@length X) ls) k + i.
Proof.
  revert p. induction ls as [|l ls IH]; intros p H; [destruct p; discriminate|]. cbn [concat] in H.
  destruct (Nat.lt_ge_cases p (length l)) as [Hlt|Hge].
  - rewrite nth_error_app1 in H by lia. exists 0, l, p. split; [reflexivity|]. split; [exact H|]. reflexivity.
  - rewrite nth_error_app2 in H by lia. destruct (IH _ H) as (k & l' & i & Hk & Hi & Hp). exists (S k), l', i. split; [exact Hk|]. split; [exact Hi|].
    unfold base in *. cbn [map firstn sum fold_right]. unfold sum in *. lia.
Qed.

Definition cnt {E} (perface : bool) (g : egroup E) : nat := if perface then nfaces g else 1.
Definition slot (perface : bool) (f : nat) : nat := if perface then f else 0.

Lemma base_ones {E} (groups : list (egroup E)) g : g <= length groups -> base (map (fun _ => 1) groups) g = g.
Proof.
  revert g. induction groups as [|x l IH]; intros [|g] H; cbn [length] in H; try lia; [reflexivity|reflexivity|].
  unfold base in *. cbn [map firstn sum fold_right]. unfold sum in *. rewrite IH by lia. lia.
Qed.
Lemma slot_bgroup {E} perface (groups : list (egroup E)) g f : g <= length groups -> base (map (cnt perface) groups) g + slot perface f = bgroup perface groups g f.
Proof.
  intros H. unfold bgroup, cnt, slot. destruct perface; [reflexivity|]. rewrite (base_ones groups g H). lia.
Qed.

Section Build.
  Context {E N K : Type}.
  Variables (dim : K -> nat) (fnodes : K -> nat -> K -> N).
  Variables (perface : bool) (bk : K -> K) (dt : nat -> nat -> list nat * list nat).

  Definition rbatch (g : nat) (k : K) (f : nat) : @batch N := mk_batch g (fst (dt g f)) (snd (dt g f)) (fnodes k f (bk k)) (Some f).
  Definition rbatches (g : nat) (grp : egroup E) (k : K) : list (list (@batch N)) :=
    if perface then map (fun f => [rbatch g k f]) (seq 0 (nfaces grp)) else [map (rbatch g k) (seq 0 (nfaces grp))].

  Lemma build_group (bdry : list (@dgroup K)) data g grp k ib cg : nfaces grp <> 0 ->
    (forall f, f < nfaces grp -> exists bg, nth_error bdry (ib + slot perface f) = Some bg /\ dg_kind bg = bk k) ->
    (exists ds, nth_error data g = Some ds /\ forall f, f < nfaces grp -> nth_error ds f = Some (dt g f)) ->
    foldM (build_step (E := E) fnodes perface bdry data g grp k) (seq 0 (nfaces grp)) (ib, [], cg) = Ok (ib + cnt perface grp, [], cg ++ rbatches g grp k).
  Proof.
    intros Hnf Hb (ds & Hds & Hd).
    pose (I := fun m (st : nat * list (@batch N) * list (list (@batch N))) =>
      st = if perface then (ib + m, [], cg ++ map (fun f => [rbatch g k f]) (seq 0 m))
           else if m =? nfaces grp then (ib + 1, [], cg ++ [map (rbatch g k) (seq 0 m)]) else (ib, map (rbatch g k) (seq 0 m), cg)).
    destruct (foldM_inv_nth (build_step (E := E) fnodes perface bdry data g grp k) I (seq 0 (nfaces grp)) (ib, [], cg)) as (st & Hst & HI).
    - unfold I. destruct perface; [now rewrite Nat.add_0_r, app_nil_r|]. destruct (Nat.eqb_spec 0 (nfaces grp)); [lia|reflexivity].
    - intros i f st Hi HI. rewrite nth_error_seq in Hi. destruct (Nat.ltb_spec i (nfaces grp)) as [Hlt|]; [|discriminate]. cbn [Nat.add] in Hi. injection Hi as <-.
      destruct (Hb i Hlt) as (bg & Hbg & Hkind). unfold I in HI |- *.
      assert (Hrun : forall batches cg', st = (ib + slot perface i, batches, cg') -> build_step (E := E) fnodes perface bdry data g grp k st i =
        if perface || (i + 1 =? nfaces grp) then Ok (ib + slot perface i + 1, [], cg' ++ [batches ++ [rbatch g k i]]) else Ok (ib + slot perface i, batches ++ [rbatch g k i], cg')).
      { intros batches cg' ->. unfold build_step. rewrite (proj2 (get_ok _ _ _) Hbg). cbn [bind]. rewrite (proj2 (get_ok _ _ _) Hds). cbn [bind].
        rewrite (proj2 (get_ok _ _ _) (Hd i Hlt)). cbn [bind]. rewrite Hkind. reflexivity. }
      unfold slot in Hrun. destruct perface.
      + rewrite (Hrun _ _ HI). cbn [orb app]. eexists. split; [reflexivity|]. rewrite seq_snoc, map_app, app_assoc. cbn [map Nat.add]. now replace (ib + i + 1) with (ib + S i) by lia.
      + destruct (Nat.eqb_spec i (nfaces grp)); [lia|]. rewrite Nat.add_0_r in Hrun. rewrite (Hrun _ _ HI). cbn [orb]. replace (i + 1) with (S i) by lia.
        rewrite seq_snoc, map_app. cbn [map Nat.add]. destruct (S i =? nfaces grp); eexists; (split; reflexivity).
    - rewrite seq_length in HI. unfold I in HI. rewrite Hst, HI. unfold cnt, rbatches. destruct perface; [reflexivity|]. now rewrite Nat.eqb_refl.
  Qed.

  Lemma build_ok (groups : list (egroup E)) kinds (bdry : list (@dgroup K)) data : length kinds = length groups ->
    Forall (fun g => nfaces g <> 0) groups -> length bdry = sum (map (cnt perface) groups) ->
    (forall g grp k f, nth_error groups g = Some grp -> nth_error kinds g = Some k -> f < nfaces grp ->
       exists bg, nth_error bdry (base (map (cnt perface) groups) g + slot perface f) = Some bg /\ dg_kind bg = bk k) ->
    (forall g grp, nth_error groups g = Some grp -> exists ds, nth_error data g = Some ds /\ forall f, f < nfaces grp -> nth_error ds f = Some (dt g f)) ->
    build_connection (E := E) dim fnodes perface groups kinds bdry data =
      Ok (mk_conn (vol_groups dim groups kinds) bdry (concat (map (fun igk => rbatches (fst igk) (fst (snd igk)) (snd (snd igk))) (enumerate (combine groups kinds)))) true).
  Proof.
    intros Hk Hnf Hlb Hb Hd. unfold build_connection.
    set (lst := fun igk : nat * (egroup E * K) => rbatches (fst igk) (fst (snd igk)) (snd (snd igk))).
    set (l := enumerate (combine groups kinds)).
    assert (Hlen : length l = length groups) by (unfold l; rewrite length_enumerate, combine_length; lia).
    pose (I := fun m (st : nat * list (@batch N) * list (list (@batch N))) => st = (base (map (cnt perface) groups) m, [], concat (map lst (firstn m l)))).
    match goal with |- context [foldM ?f l ?s] => destruct (foldM_inv_nth f I l s) as (st & Hst & HI) end.
    - reflexivity.
    - intros i (ig, (grp, k)) st Hi HI. unfold I in HI. subst st. pose proof Hi as Hi'. unfold l in Hi. rewrite nth_error_enumerate in Hi.
      destruct (nth_error (combine groups kinds) i) as [(grp', k')|] eqn:Ec; [|discriminate]. cbn [option_map] in Hi. injection Hi as <- -> ->.
      apply nth_error_combine_Some in Ec. destruct Ec as (Hg & Hkk).
      eexists. split.
      + apply build_group; [rewrite Forall_forall in Hnf; apply Hnf; eapply nth_error_In; eauto|intros f Hf; eapply Hb; eauto|now apply Hd].
      + unfold I. rewrite (base_S _ _ (cnt perface grp)) by (rewrite nth_error_map, Hg; reflexivity). f_equal.
        assert (Hf : firstn (S i) l = firstn i l ++ [(i, (grp, k))]).
        { clear -Hi'. revert i Hi'. generalize (grp, k). intros y. generalize l. clear. intros l i. generalize (i, y). revert i. induction l as [|x l IH]; intros [|i] z H; cbn in H; try discriminate.
          - injection H as ->. reflexivity.
          - cbn [firstn app]. f_equal. now apply IH. }
        rewrite Hf, map_app, concat_app. cbn [map concat]. now rewrite app_nil_r.
    - rewrite Hst. unfold I in HI. rewrite HI. cbn [bind]. rewrite firstn_all.
      assert (Hbase : base (map (cnt perface) groups) (length l) = length bdry).
      { unfold base. rewrite Hlen, Hlb. f_equal. rewrite <- (map_length (cnt perface) groups). apply firstn_all. }
      rewrite Hbase, Nat.eqb_refl. cbn [guard bind]. reflexivity.
  Qed.
End Build.

Lemma nth_combine {X Y} (l : list X) (l' : list Y) i :
  nth_error (combine l l') i = match nth_error l i, nth_error l' i with Some x, Some y => Some (x, y) | _, _ => None end.
Proof. revert l l'. induction i as [|i IH]; intros [|x l] [|y l']; cbn [combine nth_error]; try reflexivity; [now destruct (nth_error l i)|apply IH]. Qed.

Lemma nth_exists {X} (l : list X) i : i < length l -> exists x, nth_error l i = Some x.
Proof. intros H. destruct (nth_error l i) eqn:Ei; [eauto|]. apply nth_error_None in Ei. lia. Qed.


(** ** The whole restriction *)
Section Main.
  Context {E E' V A N K : Type}.
  Variables (dim : K -> nat) (factory : K -> K) (fnodes : K -> nat -> K -> N) (face_coords : K -> nat -> E -> E') (bfvi : K -> list (list nat)).
  Variables (store : nat -> nat) (garbage_row : nat -> list nat) (garbage_node : nat -> E').
  Variables (groups : list (egroup E)) (kinds : list K) (fags : list (list (fagrp A))) (vs : list V) (r : restr) (perface : bool).
  Hypothesis Hrows : has_rows groups.
  Hypothesis Hvrange : rows_in_range (length vs) groups.
  Hypothesis Hwf : faces_wf groups.
  Hypothesis Hfr : fags_in_range groups fags.
  Hypothesis Hig : forall g l b, nth_error fags g = Some l -> In b l -> igroup_of b = g.
  Hypothesis Hkl : length kinds = length groups.
  Hypothesis Hnf : Forall (fun g => nfaces g <> 0) groups.
  Hypothesis Hw : perface = false -> Forall (fun g => exists w, Forall (fun ref => length ref = w) (eg_fvi g)) groups.
  Hypothesis Hst : forall i, i < length vs -> store i = i.

  Lemma gbf_asked g grp l e f : nth_error groups g = Some grp -> nth_error fags g = Some l ->
    (In (e, f) (group_boundary_faces r grp l) <-> asked groups fags r (g, e, f)).
  Proof.
    intros Hg Hl. destruct r as [| |t]; cbn [group_boundary_faces asked].
    - rewrite in_flat_map. split.
      + intros (b & Hb & Hef). apply filter_In in Hb. destruct Hb as (Hb & Hbb). destruct b as [g' j es aff| |]; try discriminate. cbn [fag_faces] in Hef.
        apply in_map_iff in Hef. destruct Hef as ((ef, (e', f')) & Heq & Hin). cbn [fst] in Heq. subst ef.
        assert (g' = g) by exact (Hig g l _ Hl Hb). subst g'. exists (j, e', f'). cbn [interior_adj]. exists l, es, aff. auto.
      + intros (((j, e'), f') & l' & es & aff & Hl' & Hb & Hin). assert (l' = l) by congruence. subst. exists (Interior g j es aff).
        split; [apply filter_In; auto|]. cbn [fag_faces]. apply in_map_iff. exists ((e, f), (e', f')). auto.
    - rewrite in_map_iff. cbn [valid_face]. split.
      + intros ((f', e') & Heq & Hin). cbn [fst snd] in Heq. injection Heq as <- <-. apply (proj1 (In_grid _ _ _ _)) in Hin. exists grp. tauto.
      + intros (grp' & Hg' & He & Hf). assert (grp' = grp) by congruence. subst. exists (f, e). split; [reflexivity|]. apply In_grid. auto.
    - rewrite in_flat_map. cbn [bdry_adj]. unfold in_bdry. split.
      + intros (b & Hb & Hef). apply filter_In in Hb. destruct Hb as (Hb & Ht). exists l. split; [exact Hl|]. exists b. split; [exact Hb|]. split; [|exact Hef].
        unfold has_tag in Ht. destruct (bdry_tag b) as [t'|]; [|discriminate]. f_equal. now apply btag_eqb_eq.
      + intros (l' & Hl' & b & Hb & Ht & Hef). assert (l' = l) by congruence. subst. exists b. split; [|exact Hef]. apply filter_In. split; [exact Hb|].
        unfold has_tag. rewrite Ht. now apply btag_eqb_eq.
  Qed.

  Lemma gbf_range g grp l e f : nth_error groups g = Some grp -> nth_error fags g = Some l -> In (e, f) (group_boundary_faces r grp l) ->
    e < nelements grp /\ f < nfaces grp.
  Proof.
    intros Hg Hl Hin. apply (gbf_asked g grp l e f Hg Hl) in Hin. destruct Hfr as (_ & Hfr'). destruct r as [| |t]; cbn [asked] in Hin.
    - destruct Hin as (((j, e'), f') & l' & es & aff & Hl' & Hb & Hin). assert (l' = l) by congruence. subst.
      eapply (Hfr' g grp l _ e f Hg Hl Hb). cbn [fag_faces]. apply in_map_iff. exists ((e, f), (e', f')). auto.
    - destruct Hin as (grp' & Hg' & H). assert (grp' = grp) by congruence. subst. exact H.
    - destruct Hin as (l' & Hl' & b & Hb & Ht & Hef). assert (l' = l) by congruence. subst. eapply Hfr'; eauto.
  Qed.

  Lemma gbf_NoDup g grp l : nth_error groups g = Some grp -> nth_error fags g = Some l -> asked_once fags r -> NoDup (group_boundary_faces r grp l).
  Proof.
    intros Hg Hl H. destruct r as [| |t]; cbn [group_boundary_faces asked_once] in *.
    - rewrite Forall_forall in H. specialize (H l (nth_error_In _ _ Hl)). unfold interior_entries in H. revert H. clear. 
      assert (Heq : flat_map fag_faces (filter (fun b : fagrp A => negb (is_bdry b)) l) = map (fun x : nat * fentry => fst (snd x))
        (flat_map (fun b => match b with Interior _ g' es _ => map (pair g') es | _ => [] end) l)).
      { induction l as [|b l IH]; [reflexivity|]. destruct b as [g j es aff| |]; cbn [filter is_bdry negb flat_map fag_faces]; [|exact IH|exact IH].
        rewrite map_app, map_map. cbn [snd]. f_equal. exact IH. }
      rewrite Heq. auto.
    - apply NoDup_map_inj; [|apply NoDup_grid]. intros (a, b) (c, d) _ _ Heq. cbn [fst snd] in Heq. congruence.
    - rewrite Forall_forall in H. exact (H l (nth_error_In _ _ Hl)).
  Qed.

  (** Vertices of a face *)
  Lemma face_vertices g grp e f ref : nth_error groups g = Some grp -> e < nelements grp -> nth_error (eg_fvi grp) f = Some ref ->
    exists vi row vsf, eg_vi grp = Some vi /\ nth_error vi e = Some row /\ take row ref = Ok vsf /\ face_verts groups (g, e, f) vsf /\ Forall (fun v => v < length vs) vsf.
  Proof.
    intros Hg He Href. pose proof (proj1 (Forall_forall _ _) Hrows) as Hrows'. destruct (Hrows' grp (nth_error_In _ _ Hg)) as (vi & Hvi & Hlen).
    destruct (nth_error vi e) as [row|] eqn:Hrow; [|apply nth_error_None in Hrow; lia].
    assert (Hlr : local_row groups g e row) by (exists grp, vi; auto).
    destruct (take_total row ref) as (vsf & Hvsf).
    { apply Forall_forall. intros k Hk. eapply (Hwf g grp e row ref k); eauto. eapply nth_error_In; eauto. }
    exists vi, row, vsf. split; [exact Hvi|]. split; [exact Hrow|]. split; [exact Hvsf|]. apply take_ok in Hvsf. split.
    - exists grp, row, ref. auto.
    - apply Forall_forall. intros v Hv. destruct (Forall2_In_r _ _ _ _ Hvsf Hv) as (k & _ & Hkv). apply (Hvrange (base (map nelements groups) g + e) row v).
      + exists g, e. auto.
      + eapply nth_error_In; eauto.
  Qed.

  Definition has_all_vertices (nrs : list nat) : Prop := forall g grp l e f ref vi row vsf v, nth_error groups g = Some grp -> nth_error fags g = Some l ->
    In (e, f) (group_boundary_faces r grp l) -> nth_error (eg_fvi grp) f = Some ref -> eg_vi grp = Some vi -> nth_error vi e = Some row -> take row ref = Ok vsf -> In v vsf -> In v nrs.

  Lemma get_face_vertices_ok : known fags r ->
    exists nrs, get_face_vertices (length vs) groups fags r = Ok nrs /\ NoDup nrs /\ Forall (fun v => v < length vs) nrs /\ has_all_vertices nrs.
  Proof.
    intros Hknown.
    assert (Hall : forall r0, r0 = RInterior \/ r0 = RAll -> r = r0 -> exists nrs, Ok (seq 0 (length vs)) = Ok nrs /\ NoDup nrs /\ Forall (fun v => v < length vs) nrs /\ has_all_vertices nrs).
    { intros r0 _ _. exists (seq 0 (length vs)). split; [reflexivity|]. split; [apply seq_NoDup|]. split; [apply Forall_forall; intros v Hv; apply in_seq in Hv; lia|].
      intros g grp l e f ref vi row vsf v Hg Hl Hin Href Hvi Hrow Ht Hv. destruct (gbf_range _ _ _ _ _ Hg Hl Hin) as (He & _).
      destruct (face_vertices g grp e f ref Hg He Href) as (vi' & row' & vsf' & Hvi' & Hrow' & Ht' & _ & Hlt). assert (vi' = vi) by congruence. subst. assert (row' = row) by congruence. subst.
      assert (vsf' = vsf) by congruence. subst. rewrite Forall_forall in Hlt. apply in_seq. specialize (Hlt v Hv). lia. }
    destruct r as [| |t] eqn:Er; [apply (Hall RInterior); auto|apply (Hall RAll); auto|]. clear Hall. unfold get_face_vertices.
    cbn [known] in Hknown. destruct Hknown as (l0 & Hl0 & b0 & Hb0 & Ht0). 
    assert (Hmhb : mesh_has_boundary fags t = true).
    { unfold mesh_has_boundary. apply existsb_exists. exists l0. split; [exact Hl0|]. apply negb_true_iff, Nat.eqb_neq. intros H0. apply length_zero_iff_nil in H0.
      assert (Hin : In b0 (filter (has_tag t) l0)) by (apply filter_In; split; [exact Hb0|]; unfold has_tag; rewrite Ht0; now apply btag_eqb_eq). rewrite H0 in Hin. contradiction. }
    rewrite Hmhb. cbn [guard bind].
    assert (Hb : forall g l b, nth_error fags g = Some l -> In b l -> exists grp vi, nth_error groups g = Some grp /\ eg_vi grp = Some vi /\
       forall ref, In ref (eg_fvi grp) -> exists rows vss, take vi (map fst (fag_faces b)) = Ok rows /\ mapM (fun row => take row ref) rows = Ok vss /\
         Forall (fun v => v < length vs) (concat vss) /\
         (forall e f row vsf, In (e, f) (fag_faces b) -> nth_error vi e = Some row -> take row ref = Ok vsf -> In vsf vss)).
    { intros g l b Hl Hb. destruct Hfr as (Hlen & Hfr'). destruct (nth_error groups g) as [grp|] eqn:Hg; [|apply nth_error_None in Hg; assert (g < length fags) by (apply nth_error_Some; congruence); lia].
      pose proof (proj1 (Forall_forall _ _) Hrows) as Hrows'. destruct (Hrows' grp (nth_error_In _ _ Hg)) as (vi & Hvi & Hlv). exists grp, vi. split; [reflexivity|]. split; [exact Hvi|].
      intros ref Href. apply In_nth_error in Href. destruct Href as (f0 & Href). 
      assert (Hel : forall e, In e (map fst (fag_faces b)) -> e < nelements grp).
      { intros e He. apply in_map_iff in He. destruct He as ((e', f') & <- & Hin). eapply Hfr'; eauto. }
      destruct (take_total vi (map fst (fag_faces b))) as (rows & Hrw); [apply Forall_forall; intros e He; rewrite Hlv; auto|].
      pose proof Hrw as Hrw'. apply take_ok in Hrw'.
      assert (Hrow : forall row, In row rows -> exists vsf, take row ref = Ok vsf /\ Forall (fun v => v < length vs) vsf).
      { intros row Hin. destruct (Forall2_In_r _ _ _ _ Hrw' Hin) as (e & He & Hn).
        destruct (face_vertices g grp e f0 ref Hg (Hel e He) Href) as (vi' & row' & vsf & Hvi' & Hrow' & Ht' & _ & Hlt). assert (vi' = vi) by congruence. subst. assert (row' = row) by congruence. subst. eauto. }
      destruct (mapM_total (fun row => take row ref) rows) as (vss & Hvss); [intros row Hin; destruct (Hrow row Hin) as (vsf & H & _); eauto|].
      exists rows, vss. split; [exact Hrw|]. split; [exact Hvss|]. apply mapM_ok in Hvss. split.
      - apply Forall_concat. apply Forall_forall. intros vsf Hin. destruct (Forall2_In_r _ _ _ _ Hvss Hin) as (row & Hr & Ht). destruct (Hrow row Hr) as (vsf' & Ht' & Hlt). congruence.
      - intros e f row vsf Hef Hn Ht. assert (He : In e (map fst (fag_faces b))) by (apply in_map_iff; exists (e, f); auto).
        destruct (Forall2_In_l _ _ _ _ Hrw' He) as (row' & Hr & Hn'). assert (row' = row) by congruence. subst. destruct (Forall2_In_l _ _ _ _ Hvss Hr) as (vsf' & Hin & Ht'). congruence. }
    match goal with |- context [mapM ?f (enumerate fags)] => set (F := f) end.
    assert (HF : forall g l, nth_error fags g = Some l -> exists ws, F (g, l) = Ok ws /\ Forall (fun v => v < length vs) ws /\
       (forall b grp vi ref e f row vsf v, In b (filter (has_tag t) l) -> nth_error groups g = Some grp -> eg_vi grp = Some vi -> In ref (eg_fvi grp) -> In (e, f) (fag_faces b) -> nth_error vi e = Some row ->
          take row ref = Ok vsf -> In v vsf -> In v ws)).
    { intros g l Hl. unfold F. cbn [fst snd].
      match goal with |- context [mapM ?f (filter (has_tag t) l)] => set (F2 := f) end.
      assert (HF2 : forall b, In b (filter (has_tag t) l) -> exists ws, F2 b = Ok ws /\ Forall (fun v => v < length vs) ws /\
        (forall grp vi ref e f row vsf v, nth_error groups g = Some grp -> eg_vi grp = Some vi -> In ref (eg_fvi grp) -> In (e, f) (fag_faces b) -> nth_error vi e = Some row ->
          take row ref = Ok vsf -> In v vsf -> In v ws)).
      { intros b Hbin. apply filter_In in Hbin. destruct Hbin as (Hbin & _). destruct (Hb g l b Hl Hbin) as (grp & vi & Hg & Hvi & Href). unfold F2.
        rewrite (proj2 (get_ok _ _ _) Hg). cbn [bind]. rewrite Hvi.
        match goal with |- context [mapM ?f (eg_fvi grp)] => set (F3 := f) end.
        assert (HF3 : forall ref, In ref (eg_fvi grp) -> exists vss, F3 ref = Ok (concat vss) /\ Forall (fun v => v < length vs) (concat vss) /\
          (forall e f row vsf, In (e, f) (fag_faces b) -> nth_error vi e = Some row -> take row ref = Ok vsf -> In vsf vss)).
        { intros ref Hr. destruct (Href ref Hr) as (rows & vss & H1 & H2 & H3 & H4). exists vss. unfold F3. rewrite H1. cbn [bind]. rewrite H2. cbn [bind]. auto. }
        destruct (mapM_total F3 (eg_fvi grp)) as (wss & Hwss); [intros ref Hr; destruct (HF3 ref Hr) as (vss & H & _); eauto|].
        rewrite Hwss. cbn [bind]. exists (concat wss). split; [reflexivity|]. apply mapM_ok in Hwss. split.
        - apply Forall_concat. apply Forall_forall. intros ws Hws. destruct (Forall2_In_r _ _ _ _ Hwss Hws) as (ref & Hr & Hrun). destruct (HF3 ref Hr) as (vss & Hrun' & Hlt & _). congruence.
        - intros grp' vi' ref e f row vsf v Hg' Hvi' Hr Hef Hn Ht Hv. assert (grp' = grp) by congruence. subst. assert (vi' = vi) by congruence. subst.
          destruct (Forall2_In_l _ _ _ _ Hwss Hr) as (ws & Hws & Hrun). destruct (HF3 ref Hr) as (vss & Hrun' & _ & Hcov). assert (ws = concat vss) by congruence. subst.
          apply in_concat. exists (concat vss). split; [exact Hws|]. apply in_concat. exists vsf. split; [eapply Hcov; eauto|exact Hv]. }
      destruct (mapM_total F2 (filter (has_tag t) l)) as (wss & Hwss); [intros b Hbin; destruct (HF2 b Hbin) as (ws & H & _); eauto|].
      rewrite Hwss. cbn [bind]. exists (concat wss). split; [reflexivity|]. apply mapM_ok in Hwss. split.
      - apply Forall_concat. apply Forall_forall. intros ws Hws. destruct (Forall2_In_r _ _ _ _ Hwss Hws) as (b & Hbin & Hrun). destruct (HF2 b Hbin) as (ws' & Hrun' & Hlt & _). congruence.
      - intros b grp vi ref e f row vsf v Hbin Hg Hvi Hr Hef Hn Ht Hv. destruct (Forall2_In_l _ _ _ _ Hwss Hbin) as (ws & Hws & Hrun).
        destruct (HF2 b Hbin) as (ws' & Hrun' & _ & Hcov). assert (ws' = ws) by congruence. subst. apply in_concat. exists ws. split; [exact Hws|]. eapply Hcov; eauto. }
    destruct (mapM_total F (enumerate fags)) as (wss & Hwss); [intros (g, l) Hin; apply (proj1 (In_enumerate _ _ _)) in Hin; destruct (HF g l Hin) as (ws & H & _); eauto|].
    rewrite Hwss. cbn [bind]. exists (unique (concat wss)). split; [reflexivity|]. split; [apply incr_NoDup, unique_incr|]. apply mapM_ok in Hwss. split.
    - apply Forall_forall. intros v Hv. apply (proj1 (unique_In _ _)) in Hv. apply in_concat in Hv. destruct Hv as (ws & Hws & Hv). destruct (Forall2_In_r _ _ _ _ Hwss Hws) as ((g, l) & Hin & Hrun).
      apply (proj1 (In_enumerate _ _ _)) in Hin. destruct (HF g l Hin) as (ws' & Hrun' & Hlt & _). assert (ws' = ws) by congruence. subst. rewrite Forall_forall in Hlt. auto.
    - intros g grp l e f ref vi row vsf v Hg Hl Hin Href Hvi Hrow Ht Hv. apply unique_In. try rewrite Er in Hin. cbn [group_boundary_faces] in Hin. apply in_flat_map in Hin. destruct Hin as (b & Hbin & Hef).
      assert (Hgl : In (g, l) (enumerate fags)) by now apply (proj2 (In_enumerate _ _ _)). destruct (Forall2_In_l _ _ _ _ Hwss Hgl) as (ws & Hws & Hrun).
      destruct (HF g l Hl) as (ws' & Hrun' & _ & Hcov). assert (ws' = ws) by congruence. subst. apply in_concat. exists ws. split; [exact Hws|]. eapply Hcov; eauto. eapply nth_error_In; eauto.
  Qed.

  (** Numbers of the boundary vertices *)
  Lemma vol_to_bdry_ok nrs : NoDup nrs -> Forall (fun v => v < length vs) nrs ->
    exists v2b bvs, vol_to_bdry store (length vs) nrs = Ok v2b /\ take vs nrs = Ok bvs /\
      forall v, In v nrs -> exists i, to_bdry v2b v = Ok i /\ nth_error bvs i = nth_error vs v.
  Proof.
    intros Hnd Hlt. unfold vol_to_bdry. set (ivs := combine nrs (map (fun i => Some (store i)) (seq 0 (length nrs)))).
    assert (Hfst : map fst ivs = nrs) by (unfold ivs; apply map_fst_combine; now rewrite map_length, seq_length).
    destruct (proj2 (scatter_ok_range ivs (repeat None (length vs)))) as (v2b & Hs).
    { apply Forall_forall. intros iv Hiv. rewrite repeat_length. rewrite Forall_forall in Hlt. apply Hlt. rewrite <- Hfst. now apply in_map. }
    destruct (take_total vs nrs Hlt) as (bvs & Hb). exists v2b, bvs. split; [exact Hs|]. split; [exact Hb|].
    intros v Hv. apply In_nth_error in Hv. destruct Hv as (i & Hi). exists i.
    assert (Hin : In (v, Some (store i)) ivs).
    { unfold ivs. apply (nth_error_In _ i). apply nth_error_combine_Some. split; [exact Hi|]. assert (i < length nrs) by (apply nth_error_Some; congruence).
      rewrite nth_error_map, nth_error_seq. destruct (Nat.ltb_spec i (length nrs)); [reflexivity|lia]. }
    assert (Hn : nth_error v2b v = Some (Some (store i))) by (eapply scatter_in; eauto; now rewrite Hfst).
    assert (Hlen : length nrs <= length vs).
    { rewrite <- (seq_length (length vs) 0). apply NoDup_incl_length; [exact Hnd|]. intros x Hx. apply in_seq. rewrite Forall_forall in Hlt. specialize (Hlt x Hx). lia. }
    assert (i < length nrs) by (apply nth_error_Some; congruence).
    split.
    - unfold to_bdry. rewrite (proj2 (get_ok _ _ _) Hn). cbn [bind]. f_equal. apply Hst. lia.
    - rewrite (take_nth _ _ _ i Hb), Hi. reflexivity.
  Qed.

  (** Number of the first boundary element with face [f] of a group *)
  Definition off (gbf : list (nat * nat)) (f : nat) : nat := if perface then 0 else start gbf f.
  Definition bsize (gbf : list (nat * nat)) (f : nat) : nat := if perface then length (els gbf f) else length gbf.

  Lemma off_le gbf f : off gbf f + length (els gbf f) <= bsize gbf f.
  Proof. unfold off, bsize. destruct perface; [lia|]. rewrite <- start_S. apply start_le. Qed.

  Definition face_row (bvs : list V) (row : list nat) (a : nat * nat * nat) : Prop :=
    exists vsf, face_verts groups a vsf /\ Forall2 (fun v' v => nth_error bvs v' = nth_error vs v /\ v < length vs) row vsf.

  (** What becomes of group [g] *)
  Definition group_out (bvs : list V) (g : nat) (grp : egroup E) (k : K) (gbf : list (nat * nat)) (outs : list (egroup E')) : Prop :=
    length outs = cnt perface grp /\
    forall f, f < nfaces grp -> exists rows nodes, nth_error outs (slot perface f) = Some (mk_egroup (Some rows) nodes (bfvi (factory k))) /\
      length rows = bsize gbf f /\ length nodes = bsize gbf f /\
      forall j e, nth_error (els gbf f) j = Some e ->
        (exists row, nth_error rows (off gbf f + j) = Some row /\ face_row bvs row (g, e, f)) /\
        exists x, nth_error (eg_nodes grp) e = Some x /\ nth_error nodes (off gbf f + j) = Some (face_coords k f x).

  Lemma restrict_group_ok nrs v2b bvs g grp k l :
    (forall v, In v nrs -> exists i, to_bdry v2b v = Ok i /\ nth_error bvs i = nth_error vs v) -> has_all_vertices nrs ->
    nth_error groups g = Some grp -> nth_error kinds g = Some k -> nth_error fags g = Some l ->
    let gbf := group_boundary_faces r grp l in
    exists outs, restrict_group factory face_coords bfvi garbage_row garbage_node perface r v2b (grp, k) l =
        Ok (outs, map (fun f => dat gbf (off gbf f) f) (seq 0 (nfaces grp))) /\
      group_out bvs g grp k gbf outs.
  Proof.
    intros Hv Hall Hg Hk Hl gbf.
    pose proof (proj1 (Forall_forall _ _) Hrows grp (nth_error_In _ _ Hg)) as (vi & Hvi & Hlen).
    assert (Helems : forall e f, In (e, f) gbf -> e < nelements grp) by (intros e f Hin; exact (proj1 (gbf_range _ _ _ _ _ Hg Hl Hin))).
    assert (Hrange : Forall (fun ef : nat * nat => snd ef < nfaces grp) gbf) by (apply Forall_forall; intros (e, f) Hin; exact (proj2 (gbf_range _ _ _ _ _ Hg Hl Hin))).
    assert (Hbf : forall e f ref, In (e, f) gbf -> nth_error (eg_fvi grp) f = Some ref -> exists row', bface v2b vi ref e row' /\ face_row bvs row' (g, e, f)).
    { intros e f ref Hin Href. destruct (face_vertices g grp e f ref Hg (Helems e f Hin) Href) as (vi' & row & vsf & Hvi' & Hrow & Ht & Hfv & Hlt). assert (vi' = vi) by congruence. subst vi'.
      destruct (mapM_total (to_bdry v2b) vsf) as (row' & Hrow').
      { intros v Hvin. destruct (Hv v) as (i & Hi & _); [eapply Hall; eauto|]. eauto. }
      exists row'. split; [exists row, vsf; auto|]. exists vsf. split; [exact Hfv|]. apply mapM_ok in Hrow'. apply Forall2_intro_nth.
      - symmetry. apply (Forall2_length' _ _ _ Hrow').
      - intros i v' v Hi' Hi. destruct (Forall2_nth_error _ _ _ _ _ Hrow' Hi) as (v'' & Hv'' & Hto). assert (v'' = v') by congruence. subst v''.
        assert (Hvin : In v vsf) by (eapply nth_error_In; eauto). destruct (Hv v) as (i' & Hi'' & Hn); [eapply Hall; eauto|]. assert (i' = v') by congruence. subst i'.
        split; [exact Hn|]. rewrite Forall_forall in Hlt. auto. }
    assert (Hbfu : forall e f ref row', In (e, f) gbf -> nth_error (eg_fvi grp) f = Some ref -> bface v2b vi ref e row' -> face_row bvs row' (g, e, f)).
    { intros e f ref row' Hin Href (row & vsf & H1 & H2 & H3). destruct (Hbf e f ref Hin Href) as (row2 & (row3 & vsf3 & H4 & H5 & H6) & Hfr2). assert (row3 = row) by congruence. subst row3.
      assert (vsf3 = vsf) by congruence. subst vsf3. assert (row2 = row') by congruence. now subst. }
    assert (Hfaces : forall e f ref, In (e, f) gbf -> nth_error (eg_fvi grp) f = Some ref -> exists row', bface v2b vi ref e row').
    { intros e f ref Hin Href. destruct (Hbf e f ref Hin Href) as (row' & H & _). eauto. }
    assert (Href : forall f, f < nfaces grp -> exists ref, nth_error (eg_fvi grp) f = Some ref).
    { intros f Hf. destruct (nth_error (eg_fvi grp) f) eqn:Ef; [eauto|]. apply nth_error_None in Ef. unfold nfaces in Hf. lia. }
    assert (Hdone : forall b f ref rows nodes, nth_error (eg_fvi grp) f = Some ref -> goodrow vi gbf v2b rows b f ref -> goodnode face_coords grp k gbf nodes b f ->
      forall j e, nth_error (els gbf f) j = Some e -> (exists row, nth_error rows (b + j) = Some row /\ face_row bvs row (g, e, f)) /\
        exists x, nth_error (eg_nodes grp) e = Some x /\ nth_error nodes (b + j) = Some (face_coords k f x)).
    { intros b f ref rows nodes Hr Hgr Hgn j e Hj. split; [|exact (Hgn j e Hj)]. destruct (Hgr j e Hj) as (row' & Hn & Hb). exists row'. split; [exact Hn|].
      eapply Hbfu; eauto. apply In_els. eapply nth_error_In; eauto. }
    unfold restrict_group. cbn [fst snd]. rewrite Hvi. fold gbf. destruct perface eqn:Epf.
    - destruct (group_split garbage_row garbage_node face_coords factory bfvi grp k vi gbf v2b Hfaces Helems) as (st & Hs & Hd & Ho & Hf).
      rewrite Hs. cbn [bind]. exists (rs_out st). split; [rewrite Hd; unfold off; rewrite Epf; reflexivity|]. unfold group_out, cnt, slot, bsize, off. rewrite Epf. split; [exact Ho|].
      intros f Hlf. destruct (Href f Hlf) as (ref & Hr). destruct (Hf f ref Hr) as (rows & nodes & Hn & Hl1 & Hl2 & Hgr & Hgn). exists rows, nodes. split; [exact Hn|]. split; [exact Hl1|]. split; [exact Hl2|].
      eapply Hdone; eauto.
    - pose proof (proj1 (Forall_forall _ _) (Hw eq_refl) grp (nth_error_In _ _ Hg)) as (w & Hww).
      pose proof (proj1 (Forall_forall _ _) Hnf grp (nth_error_In _ _ Hg)) as Hnfg. cbn beta in Hnfg.
      destruct (group_joint garbage_row garbage_node face_coords factory bfvi grp k vi gbf v2b Hfaces Helems w Hnfg Hww) as (st & rows & nodes & Hs & Ho & Hd & Hl1 & Hl2 & Hf).
      rewrite Hs. cbn [bind]. exists (rs_out st). split; [rewrite Hd; unfold off; rewrite Epf; reflexivity|]. unfold group_out, cnt, slot, bsize, off. rewrite Epf. rewrite Ho. split; [reflexivity|].
      intros f Hlf. destruct (Href f Hlf) as (ref & Hr). destruct (Hf f ref Hr) as (Hgr & Hgn). exists rows, nodes. split; [reflexivity|]. split; [exact Hl1|]. split; [exact Hl2|].
      eapply Hdone; eauto.
  Qed.

  Definition dt (g f : nat) : list nat * list nat :=
    match nth_error groups g, nth_error fags g with
    | Some grp, Some l => let gbf := group_boundary_faces r grp l in dat gbf (off gbf f) f
    | _, _ => ([], [])
    end.
  (** The batches of the connection *)
  Definition all_batches : list (list (@batch N)) :=
    concat (map (fun igk : nat * (egroup E * K) => rbatches fnodes perface factory dt (fst igk) (fst (snd igk)) (snd (snd igk))) (enumerate (combine groups kinds))).

  (** The boundary groups *)
  Definition groups_out (bvs : list V) (bgs : list (egroup E')) (to : list (@dgroup K)) : Prop :=
    forall g grp k l f, nth_error groups g = Some grp -> nth_error kinds g = Some k -> nth_error fags g = Some l -> f < nfaces grp ->
    let gbf := group_boundary_faces r grp l in
    exists rows nodes, nth_error bgs (bgroup perface groups g f) = Some (mk_egroup (Some rows) nodes (bfvi (factory k))) /\
      length rows = bsize gbf f /\ length nodes = bsize gbf f /\
      nth_error to (bgroup perface groups g f) = Some (mk_dgroup (length nodes) (dim (factory k)) (factory k)) /\
      forall j e, nth_error (els gbf f) j = Some e ->
        (exists row, nth_error rows (off gbf f + j) = Some row /\ face_row bvs row (g, e, f)) /\
        exists x, nth_error (eg_nodes grp) e = Some x /\ nth_error nodes (off gbf f + j) = Some (face_coords k f x).

  Notation restr_run := (make_face_restriction dim factory fnodes face_coords bfvi store garbage_row garbage_node (Some vs) groups kinds fags r perface).

  Lemma sum_map_le f : sum (firstn f (map (cnt perface) groups)) = base (map (cnt perface) groups) f.
  Proof. reflexivity. Qed.

  Lemma restriction_closed : known fags r -> exists bvs bgs to, restr_run = Ok (bvs, bgs, mk_conn (vol_groups dim groups kinds) to all_batches true) /\
    length bgs = sum (map (cnt perface) groups) /\ Forall2 (fun bg d => dg_nel d = nelements bg) bgs to /\ groups_out bvs bgs to.
  Proof.
    intros Hknown. destruct (get_face_vertices_ok Hknown) as (nrs & Hnrs & Hnd & Hlt & Hall). destruct (vol_to_bdry_ok nrs Hnd Hlt) as (v2b & bvs & Hv2b & Hbvs & Hv).
    unfold make_face_restriction.
    assert (Hchk : match r with RTag t => guard (mesh_has_boundary fags t) ValueError | _ => Ok tt end = Ok tt).
    { revert Hnrs. unfold get_face_vertices. destruct r as [| |t]; [reflexivity|reflexivity|]. destruct (mesh_has_boundary fags t); [reflexivity|discriminate]. }
    rewrite Hchk. cbn [bind]. rewrite Hnrs. cbn [bind]. rewrite Hv2b. cbn [bind]. rewrite Hbvs. cbn [bind].
    destruct Hfr as (Hlf & _). rewrite combine_length, Hkl, Nat.min_id, <- Hlf, Nat.eqb_refl. cbn [guard bind].
    set (gkl := combine (combine groups kinds) fags).
    assert (Hgkl : forall g grp k l, nth_error gkl g = Some (grp, k, l) <-> nth_error groups g = Some grp /\ nth_error kinds g = Some k /\ nth_error fags g = Some l).
    { intros g grp k l. unfold gkl. rewrite nth_error_combine_Some, nth_error_combine_Some. tauto. }
    assert (Hlgkl : length gkl = length groups) by (unfold gkl; rewrite !combine_length; lia).
    set (F := fun gl : egroup E * K * list (fagrp A) => restrict_group factory face_coords bfvi garbage_row garbage_node perface r v2b (fst gl) (snd gl)).
    destruct (mapM_total F gkl) as (rs & Hrs).
    { intros ((grp, k), l) Hin. apply In_nth_error in Hin. destruct Hin as (g & Hg). apply Hgkl in Hg. destruct Hg as (Hg & Hk & Hl).
      destruct (restrict_group_ok nrs v2b bvs g grp k l Hv Hall Hg Hk Hl) as (outs & Hrun & _). unfold F. cbn [fst snd]. rewrite Hrun. eauto. }
    rewrite Hrs. cbn [bind].
    assert (Hlrs : length rs = length groups) by (rewrite <- Hlgkl; symmetry; apply mapM_ok in Hrs; apply (Forall2_length' _ _ _ Hrs)).
    assert (Hr : forall g grp k l, nth_error groups g = Some grp -> nth_error kinds g = Some k -> nth_error fags g = Some l ->
      exists outs, nth_error rs g = Some (outs, map (fun f => dat (group_boundary_faces r grp l) (off (group_boundary_faces r grp l) f) f) (seq 0 (nfaces grp))) /\
        group_out bvs g grp k (group_boundary_faces r grp l) outs).
    { intros g grp k l Hg Hk Hl. destruct (restrict_group_ok nrs v2b bvs g grp k l Hv Hall Hg Hk Hl) as (outs & Hrun & Hgo).
      destruct (mapM_nth _ _ _ g (grp, k, l) Hrs) as (y & Hy & HF); [now apply Hgkl|]. unfold F in HF. cbn [fst snd] in HF. exists outs. split; [congruence|exact Hgo]. }
    assert (Hex : forall g grp, nth_error groups g = Some grp -> exists k l, nth_error kinds g = Some k /\ nth_error fags g = Some l).
    { intros g grp Hg. assert (g < length groups) by (apply nth_error_Some; congruence). destruct (nth_exists kinds g) as (k & Hk); [lia|]. destruct (nth_exists fags g) as (l & Hl); [lia|]. eauto. }
    assert (Hcnt : map (@length (egroup E')) (map fst rs) = map (cnt perface) groups).
    { apply nth_error_ext'. intros g. rewrite !nth_error_map. destruct (nth_error groups g) as [grp|] eqn:Hg.
      - destruct (Hex g grp Hg) as (k & l & Hk & Hl). destruct (Hr g grp k l Hg Hk Hl) as (outs & Hn & Hlo & _). rewrite Hn. cbn [option_map fst]. now rewrite Hlo.
      - replace (nth_error rs g) with (@None (list (egroup E') * list (list nat * list nat))); [reflexivity|]. symmetry. apply nth_error_None. apply nth_error_None in Hg. lia. }
    set (bgs := concat (map fst rs)).
    set (bkl := map (fun kr : K * (list (egroup E') * list (list nat * list nat)) => map (fun _ => factory (fst kr)) (fst (snd kr))) (combine kinds rs)).
    assert (Hbkl : map (@length K) bkl = map (cnt perface) groups).
    { rewrite <- Hcnt. unfold bkl. rewrite !map_map. apply nth_error_ext'. intros g. rewrite !nth_error_map. destruct (nth_error rs g) as [x|] eqn:Hx.
      - assert (Hgl : g < length kinds) by (rewrite Hkl, <- Hlrs; apply nth_error_Some; congruence). destruct (nth_exists kinds g Hgl) as (k & Hk).
        rewrite (proj2 (nth_error_combine_Some _ _ _ _ _) (conj Hk Hx)). cbn [option_map fst snd]. now rewrite map_length.
      - replace (nth_error (combine kinds rs) g) with (@None (K * (list (egroup E') * list (list nat * list nat)))); [reflexivity|]. symmetry. apply nth_error_None. rewrite combine_length. apply nth_error_None in Hx. lia. }
    set (bdry := map (fun gk : egroup E' * K => mk_dgroup (nelements (fst gk)) (dim (snd gk)) (snd gk)) (combine bgs (concat bkl))).
    assert (Hlb : length bgs = sum (map (cnt perface) groups)) by (unfold bgs; rewrite <- sum_map_length_concat, Hcnt; reflexivity).
    assert (Hlk : length (concat bkl) = sum (map (cnt perface) groups)) by (rewrite <- sum_map_length_concat, Hbkl; reflexivity).
    assert (Hlbd : length bdry = sum (map (cnt perface) groups)) by (unfold bdry; rewrite map_length, combine_length; lia).
    assert (Hout : groups_out bvs bgs bdry).
    { intros g grp k l f Hg Hk Hl Hf gbf. destruct (Hr g grp k l Hg Hk Hl) as (outs & Hn & Hlo & Hgo). destruct (Hgo f Hf) as (rows & nodes & Hno & Hl1 & Hl2 & Hd). fold gbf in Hl1, Hl2, Hd.
      assert (Hgl : g <= length groups) by (apply Nat.lt_le_incl, nth_error_Some; congruence).
      assert (Hnb : nth_error bgs (bgroup perface groups g f) = Some (mk_egroup (Some rows) nodes (bfvi (factory k)))).
      { rewrite <- (slot_bgroup perface groups g f Hgl), <- Hcnt. unfold bgs. eapply concat_nth; [rewrite nth_error_map, Hn; reflexivity|exact Hno]. }
      exists rows, nodes. split; [exact Hnb|]. split; [exact Hl1|]. split; [exact Hl2|]. split; [|exact Hd].
      assert (Hnk : nth_error (concat bkl) (bgroup perface groups g f) = Some (factory k)).
      { rewrite <- (slot_bgroup perface groups g f Hgl), <- Hbkl. eapply concat_nth.
        - unfold bkl. rewrite nth_error_map, (proj2 (nth_error_combine_Some _ _ _ _ _) (conj Hk Hn)). reflexivity.
        - cbn [fst snd]. rewrite nth_error_map, Hno. reflexivity. }
      unfold bdry. rewrite nth_error_map, (proj2 (nth_error_combine_Some _ _ _ _ _) (conj Hnb Hnk)). reflexivity. }
    exists bvs, bgs, bdry. split; [|split; [exact Hlb|split; [|exact Hout]]].
    - fold bgs. rewrite (build_ok dim fnodes perface factory dt); [reflexivity|exact Hkl|exact Hnf|exact Hlbd| |].
      + intros g grp k f Hg Hk Hf. destruct (Hex g grp Hg) as (_ & l & _ & Hl). destruct (Hout g grp k l f Hg Hk Hl Hf) as (rows & nodes & _ & _ & _ & Hn & _).
        rewrite slot_bgroup by (apply Nat.lt_le_incl, nth_error_Some; congruence). rewrite Hn. eexists. split; reflexivity.
      + intros g grp Hg. destruct (Hex g grp Hg) as (k & l & Hk & Hl). destruct (Hr g grp k l Hg Hk Hl) as (outs & Hn & _). eexists. rewrite nth_error_map, Hn. cbn [option_map snd]. split; [reflexivity|].
        intros f Hf. rewrite nth_error_map, nth_error_seq. destruct (Nat.ltb_spec f (nfaces grp)); [|lia]. cbn [option_map Nat.add]. unfold dt. rewrite Hg, Hl. reflexivity.
    - apply Forall2_intro_nth; [lia|]. intros i bg d Hi Hd. unfold bdry in Hd. rewrite nth_error_map in Hd. destruct (nth_error (combine bgs (concat bkl)) i) as [(bg', k)|] eqn:Ec; [|discriminate].
      apply nth_error_combine_Some in Ec. destruct Ec as (Ec & _). cbn [option_map fst snd] in Hd. injection Hd as <-. cbn [dg_nel]. congruence.
  Qed.

  (** Which face the elements of the boundary are *)
  Lemma is_face_iff (from to : list (@dgroup K)) s gb t g e f : is_face (mk_conn from to all_batches s) gb t (g, e, f) <->
    exists grp k l j, nth_error groups g = Some grp /\ nth_error kinds g = Some k /\ nth_error fags g = Some l /\ f < nfaces grp /\ gb = bgroup perface groups g f /\
      nth_error (els (group_boundary_faces r grp l) f) j = Some e /\ t = off (group_boundary_faces r grp l) f + j.
  Proof.
    destruct Hfr as (Hlf & _).
    set (lst := map (fun igk : nat * (egroup E * K) => rbatches fnodes perface factory dt (fst igk) (fst (snd igk)) (snd (snd igk))) (enumerate (combine groups kinds))).
    assert (Hlst : forall i, nth_error lst i = match nth_error groups i, nth_error kinds i with Some grp, Some k => Some (rbatches fnodes perface factory dt i grp k) | _, _ => None end).
    { intros i. unfold lst. rewrite nth_error_map, nth_error_enumerate. rewrite nth_combine. destruct (nth_error groups i), (nth_error kinds i); reflexivity. }
    assert (Hlen : map (@length (list (@batch N))) lst = map (cnt perface) groups).
    { apply nth_error_ext'. intros i. rewrite !nth_error_map, Hlst. destruct (nth_error groups i) as [grp|] eqn:Hg; [|reflexivity].
      assert (i < length groups) by (apply nth_error_Some; congruence). destruct (nth_exists kinds i) as (k & Hk); [lia|]. rewrite Hk. cbn [option_map]. f_equal.
      unfold rbatches, cnt. destruct perface; [now rewrite map_length, seq_length|reflexivity]. }
    unfold is_face. cbn [cn_groups]. unfold all_batches. fold lst. split.
    - intros (bs & b & Hbs & Hb & Hfg & Hbf & Hin). destruct (concat_nth_inv _ _ _ Hbs) as (i & rb & s0 & Hrb & Hs0 & Hgb). rewrite Hlst in Hrb.
      destruct (nth_error groups i) as [grp|] eqn:Hg; [|discriminate]. destruct (nth_error kinds i) as [k|] eqn:Hk; [|discriminate]. injection Hrb as <-.
      assert (Hil : i < length groups) by (apply nth_error_Some; congruence). destruct (nth_exists fags i) as (l & Hl); [lia|].
      assert (Hx : exists f0, f0 < nfaces grp /\ b = rbatch fnodes factory dt i k f0 /\ s0 = slot perface f0).
      { unfold rbatches in Hs0. destruct perface eqn:Ep.
        - rewrite nth_error_map, nth_error_seq in Hs0. destruct (Nat.ltb_spec s0 (nfaces grp)); [|discriminate]. cbn [option_map Nat.add] in Hs0. injection Hs0 as <-. destruct Hb as [<-|[]]. exists s0. auto.
        - destruct s0 as [|s0]; [|destruct s0; discriminate]. injection Hs0 as <-. apply in_map_iff in Hb. destruct Hb as (f0 & <- & Hf0). apply in_seq in Hf0. exists f0. split; [lia|auto]. }
      destruct Hx as (f0 & Hf0 & -> & ->). cbn [rbatch bt_fgrp bt_face] in Hfg, Hbf. injection Hbf as ->. subst i.
      cbn [rbatch bt_from bt_to] in Hin. unfold dt in Hin. rewrite Hg, Hl in Hin. cbn [dat fst snd] in Hin. apply In_nth_error in Hin. destruct Hin as (j & Hj).
      apply nth_error_combine_Some in Hj. destruct Hj as (Hj1 & Hj2). exists grp, k, l, j. split; [exact Hg|]. split; [exact Hk|]. split; [exact Hl|]. split; [exact Hf0|]. split.
      + rewrite Hgb, Hlen. apply slot_bgroup. lia.
      + split; [exact Hj2|]. rewrite nth_error_seq in Hj1. destruct (j <? _); [|discriminate]. now injection Hj1.
    - intros (grp & k & l & j & Hg & Hk & Hl & Hf & -> & Hj & ->). assert (Hgl : g <= length groups) by (apply Nat.lt_le_incl, nth_error_Some; congruence).
      assert (Hj' : In (off (group_boundary_faces r grp l) f + j, e) (combine (bt_to (rbatch fnodes factory dt g k f)) (bt_from (rbatch fnodes factory dt g k f)))).
      { cbn [rbatch bt_from bt_to]. unfold dt. rewrite Hg, Hl. cbn [dat fst snd]. apply (nth_error_In _ j). apply nth_error_combine_Some. split; [|exact Hj].
        rewrite nth_error_seq. assert (j < length (els (group_boundary_faces r grp l) f)) by (apply nth_error_Some; congruence). destruct (Nat.ltb_spec j (length (els (group_boundary_faces r grp l) f))); [reflexivity|lia]. }
      assert (Hn : exists bs, nth_error (rbatches fnodes perface factory dt g grp k) (slot perface f) = Some bs /\ In (rbatch fnodes factory dt g k f) bs).
      { unfold rbatches, slot. destruct perface.
        - rewrite nth_error_map, nth_error_seq. destruct (Nat.ltb_spec f (nfaces grp)); [|lia]. eexists. split; [reflexivity|]. now left.
        - eexists. split; [reflexivity|]. apply in_map. apply in_seq. lia. }
      destruct Hn as (bs & Hbs & Hbin). exists bs, (rbatch fnodes factory dt g k f). split; [|split; [exact Hbin|split; [reflexivity|split; [reflexivity|exact Hj']]]].
      rewrite <- (slot_bgroup perface groups g f Hgl), <- Hlen. eapply concat_nth; [|exact Hbs]. rewrite Hlst, Hg, Hk. reflexivity.
  Qed.

  Lemma bgroup_inj g grp f g' grp' f' : nth_error groups g = Some grp -> nth_error groups g' = Some grp' -> f < nfaces grp -> f' < nfaces grp' ->
    bgroup perface groups g f = bgroup perface groups g' f' -> g = g' /\ (perface = true -> f = f').
  Proof.
    unfold bgroup. destruct perface; intros Hg Hg' Hf Hf' Heq; [|split; [exact Heq|discriminate]].
    assert (g = g').
    { apply (owns_unique (map nfaces groups) _ _ (base (map nfaces groups) g + f)).
      - exists (nfaces grp). split; [rewrite nth_error_map, Hg; reflexivity|lia].
      - exists (nfaces grp'). split; [rewrite nth_error_map, Hg'; reflexivity|lia]. }
    subst g'. split; [reflexivity|lia].
  Qed.

  Theorem restriction_ok : known fags r -> exists bvs bgs to, let c := mk_conn (vol_groups dim groups kinds) to all_batches true in
    restr_run = Ok (bvs, bgs, c) /\ groups_out bvs bgs to /\ restriction dim factory fnodes face_coords groups kinds fags vs r perface bvs bgs c.
  Proof.
    intros Hknown. destruct (restriction_closed Hknown) as (bvs & bgs & to & Hrun & Hlb & Hsz & Hout). exists bvs, bgs, to.
    cbv zeta. split; [exact Hrun|]. split; [exact Hout|]. destruct Hfr as (Hlf & _).
    assert (Hsum : sum (map (cnt perface) groups) = (if perface then sum (map nfaces groups) else length groups)).
    { unfold cnt. destruct perface; [reflexivity|]. transitivity (base (map (fun _ => 1) groups) (length groups)); [|apply base_ones; lia]. unfold base. now rewrite firstn_all2 by (rewrite map_length; lia). }
    assert (Hasked : forall g e f, asked groups fags r (g, e, f) -> exists grp k l, nth_error groups g = Some grp /\ nth_error kinds g = Some k /\ nth_error fags g = Some l /\
       In (e, f) (group_boundary_faces r grp l) /\ f < nfaces grp).
    { intros g e f Ha. assert (Hgl : g < length groups).
      { destruct r as [| |t] eqn:Er; cbn [asked] in Ha.
        - destruct Ha as (((j, e'), f') & l & es & aff & Hl & _). rewrite <- Hlf. apply nth_error_Some. congruence.
        - destruct Ha as (grp & Hg & _). apply nth_error_Some. congruence.
        - destruct Ha as (l & Hl & _). rewrite <- Hlf. apply nth_error_Some. congruence. }
      destruct (nth_exists groups g Hgl) as (grp & Hg). destruct (nth_exists kinds g) as (k & Hk); [lia|]. destruct (nth_exists fags g) as (l & Hl); [lia|].
      assert (Hin : In (e, f) (group_boundary_faces r grp l)) by (apply (gbf_asked g grp l e f Hg Hl); exact Ha).
      exists grp, k, l. split; [exact Hg|]. split; [exact Hk|]. split; [exact Hl|]. split; [exact Hin|]. exact (proj2 (gbf_range _ _ _ _ _ Hg Hl Hin)). }
    assert (Hfind : forall gb bg, nth_error bgs gb = Some bg -> exists g grp k l f, nth_error groups g = Some grp /\ nth_error kinds g = Some k /\ nth_error fags g = Some l /\
       f < nfaces grp /\ gb = bgroup perface groups g f /\ (perface = false -> f = 0)).
    { intros gb bg Hgb. assert (Hl : gb < sum (map (cnt perface) groups)) by (rewrite <- Hlb; apply nth_error_Some; congruence).
      destruct (owns_exists (map (cnt perface) groups) gb Hl) as (g & n & Hn & Hb). set (f := gb - base (map (cnt perface) groups) g).
      assert (Hf : f < n) by (unfold f; lia). assert (Hbase : gb = base (map (cnt perface) groups) g + f) by (unfold f; lia). clearbody f. rewrite nth_error_map in Hn. destruct (nth_error groups g) as [grp|] eqn:Hg; [|discriminate].
      cbn [option_map] in Hn. injection Hn as <-. assert (Hgl : g < length groups) by (apply nth_error_Some; congruence).
      destruct (nth_exists kinds g) as (k & Hk); [lia|]. destruct (nth_exists fags g) as (l & Hl'); [lia|].
      pose proof (proj1 (Forall_forall _ _) Hnf grp (nth_error_In _ _ Hg)) as Hnfg. cbn beta in Hnfg.
      assert (Hsf : f < nfaces grp /\ slot perface f = f /\ (perface = false -> f = 0)) by (unfold cnt in Hf; unfold slot; destruct perface; (split; [lia|]; split; [lia|]); [discriminate|lia]).
      exists g, grp, k, l, f. split; [exact Hg|]. split; [exact Hk|]. split; [exact Hl'|]. split; [tauto|]. split; [|tauto].
      rewrite <- (slot_bgroup perface groups g f) by lia. rewrite (proj1 (proj2 Hsf)). exact Hbase. }
    constructor; cbn [cn_from cn_to cn_groups].
    - reflexivity.
    - rewrite Hlb. exact Hsum.
    - split; [exact Hsz|]. rewrite Hlb. unfold all_batches. rewrite <- sum_map_length_concat. f_equal. apply nth_error_ext'. intros i. rewrite !nth_error_map, nth_error_enumerate, nth_combine.
      destruct (nth_error groups i) as [grp|] eqn:Hg; [|reflexivity]. assert (i < length groups) by (apply nth_error_Some; congruence). destruct (nth_exists kinds i) as (k & Hk); [lia|]. rewrite Hk.
      cbn [option_map fst snd]. f_equal. unfold rbatches, cnt. destruct perface; [now rewrite map_length, seq_length|reflexivity].
    - intros g grp k f Hg Hk Hf. assert (g < length groups) by (apply nth_error_Some; congruence). destruct (nth_exists fags g) as (l & Hl); [lia|].
      destruct (Hout g grp k l f Hg Hk Hl Hf) as (rows & nodes & Hn & _ & _ & Hnt & _). eexists. split; [exact Hn|exact Hnt].
    - intros g e f Ha. destruct (Hasked g e f Ha) as (grp & k & l & Hg & Hk & Hl & Hin & Hf). apply In_els in Hin. apply In_nth_error in Hin. destruct Hin as (j & Hj).
      exists (off (group_boundary_faces r grp l) f + j). apply is_face_iff. exists grp, k, l, j. auto 10.
    - intros gb bg t Hbg Ht. destruct (Hfind gb bg Hbg) as (g & grp & k & l & f0 & Hg & Hk & Hl & Hf0 & Hgb & Hz). set (gbf := group_boundary_faces r grp l).
      destruct (Hout g grp k l f0 Hg Hk Hl Hf0) as (rows & nodes & Hn & Hl1 & Hl2 & _). fold gbf in Hl1, Hl2. rewrite <- Hgb in Hn. assert (Hbgn : nelements bg = bsize gbf f0) by (replace bg with (mk_egroup (Some rows) nodes (bfvi (factory k))) by congruence; exact Hl2).
      assert (Hfj : exists f j, f < nfaces grp /\ j < length (els gbf f) /\ t = off gbf f + j /\ bgroup perface groups g f = gb).
      { rewrite Hbgn in Ht. unfold bsize in Ht. unfold off, bgroup. unfold bgroup in Hgb. destruct perface.
        - exists f0, t. auto.
        - rewrite <- (start_total gbf (nfaces grp)) in Ht. 
          + destruct (start_find gbf _ _ Ht) as (f & j & Hf & Hj & Htt). exists f, j. auto.
          + apply Forall_forall. intros (e, f) Hin. exact (proj2 (gbf_range _ _ _ _ _ Hg Hl Hin)). }
      destruct Hfj as (f & j & Hf & Hj & Htt & Hgb'). destruct (nth_exists _ _ Hj) as (e & He). exists (g, e, f). apply is_face_iff. exists grp, k, l, j. auto 10.
    - intros gb t g e f Hif. apply is_face_iff in Hif. destruct Hif as (grp & k & l & j & Hg & Hk & Hl & Hf & Hgb & Hj & Ht). split; [|exact Hgb].
      apply (gbf_asked g grp l e f Hg Hl). apply In_els. eapply nth_error_In; eauto.
    - intros gb t ((g, e), f) ((g', e'), f') H1 H2. apply is_face_iff in H1, H2. destruct H1 as (grp & k & l & j & Hg & Hk & Hl & Hf & Hgb & Hj & Ht).
      destruct H2 as (grp' & k' & l' & j' & Hg' & Hk' & Hl' & Hf' & Hgb' & Hj' & Ht'). rewrite Hgb in Hgb'. destruct (bgroup_inj _ _ _ _ _ _ Hg Hg' Hf Hf' Hgb') as (<- & Hff).
      assert (grp' = grp) by congruence. subst grp'. assert (l' = l) by congruence. subst l'. set (gbf := group_boundary_faces r grp l) in *.
      assert (f = f' /\ j = j').
      { unfold off in Ht, Ht'. destruct perface.
        - split; [now apply Hff|lia].
        - apply (start_inj gbf); [apply nth_error_Some; congruence|apply nth_error_Some; congruence|lia]. }
      destruct H as (<- & <-). congruence.
    - intros Honce gb t t' ((g, e), f) H1 H2. apply is_face_iff in H1, H2. destruct H1 as (grp & k & l & j & Hg & Hk & Hl & Hf & Hgb & Hj & Ht).
      destruct H2 as (grp' & k' & l' & j' & Hg' & Hk' & Hl' & Hf' & Hgb' & Hj' & Ht'). assert (grp' = grp) by congruence. subst grp'. assert (l' = l) by congruence. subst l'.
      assert (j = j'); [|lia]. pose proof (NoDup_els _ f (gbf_NoDup g grp l Hg Hl Honce)) as Hnd. rewrite NoDup_nth_error in Hnd. apply Hnd; [apply nth_error_Some; congruence|congruence].
    - intros gb t g e f Hif. apply is_face_iff in Hif. destruct Hif as (grp & k & l & j & Hg & Hk & Hl & Hf & Hgb & Hj & Ht).
      destruct (Hout g grp k l f Hg Hk Hl Hf) as (rows & nodes & Hn & Hl1 & Hl2 & Hnt & Hd). destruct (Hd j e Hj) as ((row & Hrow & vsf & Hfv & Hrv) & x & Hx & Hxn). rewrite <- Ht in Hrow, Hxn. rewrite <- Hgb in Hn, Hnt.
      exists grp, k, x, (mk_egroup (Some rows) nodes (bfvi (factory k))), rows, row, vsf. cbn [nelements eg_nodes eg_vi].
      split; [exact Hg|]. split; [exact Hk|]. split; [exact Hx|]. split; [exact Hn|]. split; [exact Hnt|]. split; [exact Hxn|]. split; [reflexivity|]. split; [unfold nelements; cbn [eg_nodes]; congruence|]. auto.
    - intros gb bs b Hbs Hb.
      set (lst := map (fun igk : nat * (egroup E * K) => rbatches fnodes perface factory dt (fst igk) (fst (snd igk)) (snd (snd igk))) (enumerate (combine groups kinds))).
      assert (Hlen : map (@length (list (@batch N))) lst = map (cnt perface) groups).
      { apply nth_error_ext'. intros i. unfold lst. rewrite !nth_error_map, nth_error_enumerate, nth_combine. destruct (nth_error groups i) as [grp|] eqn:Hg; [|reflexivity].
        assert (i < length groups) by (apply nth_error_Some; congruence). destruct (nth_exists kinds i) as (k & Hk); [lia|]. rewrite Hk. cbn [option_map fst snd]. f_equal.
        unfold rbatches, cnt. destruct perface; [now rewrite map_length, seq_length|reflexivity]. }
      unfold all_batches in Hbs. fold lst in Hbs. destruct (concat_nth_inv _ _ _ Hbs) as (i & rb & s0 & Hrb & Hs0 & Hgb). unfold lst in Hrb. rewrite nth_error_map, nth_error_enumerate, nth_combine in Hrb.
      destruct (nth_error groups i) as [grp|] eqn:Hg; [|discriminate]. destruct (nth_error kinds i) as [k|] eqn:Hk; [|discriminate]. cbn [option_map fst snd] in Hrb. injection Hrb as <-.
      assert (Hx : exists f0, f0 < nfaces grp /\ b = rbatch fnodes factory dt i k f0 /\ s0 = slot perface f0).
      { unfold rbatches in Hs0. destruct perface eqn:Ep.
        - rewrite nth_error_map, nth_error_seq in Hs0. destruct (Nat.ltb_spec s0 (nfaces grp)); [|discriminate]. cbn [option_map Nat.add] in Hs0. injection Hs0 as <-. destruct Hb as [<-|[]]. exists s0. auto.
        - destruct s0 as [|s0]; [|destruct s0; discriminate]. injection Hs0 as <-. apply in_map_iff in Hb. destruct Hb as (f0 & <- & Hf0). apply in_seq in Hf0. exists f0. split; [lia|auto]. }
      destruct Hx as (f0 & Hf0 & -> & ->). exists grp, k, f0. cbn [rbatch bt_fgrp bt_face bt_nodes]. split; [exact Hg|]. split; [exact Hk|]. split; [exact Hf0|]. split; [reflexivity|]. split; [reflexivity|].
      rewrite Hgb, Hlen. apply slot_bgroup. apply Nat.lt_le_incl, nth_error_Some. congruence.
    - intros gb bs Hbs. unfold all_batches in Hbs. destruct (concat_nth_inv _ _ _ Hbs) as (i & rb & s0 & Hrb & Hs0 & _). rewrite nth_error_map, nth_error_enumerate, nth_combine in Hrb.
      destruct (nth_error groups i) as [grp|] eqn:Hg; [|discriminate]. destruct (nth_error kinds i) as [k|] eqn:Hk; [|discriminate]. cbn [option_map fst snd] in Hrb. injection Hrb as <-.
      assert (Hlb' : forall f, length (bt_from (rbatch fnodes factory dt i k f)) = length (bt_to (rbatch fnodes factory dt i k f))).
      { intros f. cbn [rbatch bt_from bt_to]. unfold dt. destruct (nth_error groups i), (nth_error fags i); try reflexivity. cbn [dat fst snd]. now rewrite seq_length. }
      unfold rbatches in Hs0. destruct perface.
      + rewrite nth_error_map, nth_error_seq in Hs0. destruct (Nat.ltb_spec s0 (nfaces grp)); [|discriminate]. cbn [option_map Nat.add] in Hs0. injection Hs0 as <-. cbn [map]. split; [constructor; [tauto|constructor]|].
        constructor; [apply Hlb'|constructor].
      + destruct s0 as [|s0]; [|destruct s0; discriminate]. injection Hs0 as <-. rewrite map_map. cbn [rbatch bt_face]. split.
        * apply NoDup_map_inj; [intros a b _ _ Hab; congruence|apply seq_NoDup].
        * apply Forall_forall. intros b Hb. apply in_map_iff in Hb. destruct Hb as (f & <- & _). apply Hlb'.
  Qed.
End Main.
