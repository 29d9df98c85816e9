(** * FdFacialProofs: the facial adjacency of imported Firedrake meshes. *)
From Coq Require Import List Arith Bool Lia Permutation Sorted.
From Verif Require Import Np NpFacts MeshModel MeshSpec MeshProofs FacialProofs MeshStateModel CompletionProofs Lin ProcModel ProcSpec SplitProofs FlipProofs Ord ConsistModel FdModel FdSpec FdProofs FdImportProofs.
Import ListNotations.

(** ** Face numbers *)

(** Face [f] misses the vertex that was number [k] before the flip. *)
Definition face_of (d : nat) (fvi : list (list nat)) (neg : bool) (k f : nat) : Prop :=
  exists face, nth_error fvi f = Some face /\ misses d face (if neg then sw01 k else k).

Lemma sw01_invol k : sw01 (sw01 k) = k.
Proof. destruct k as [|[|k]]; reflexivity. Qed.
Lemma sw01_le d k : 1 <= d -> k <= d -> sw01 k <= d.
Proof. destruct k as [|[|k]]; cbn; lia. Qed.

Section Sides.
  Variables (d : nat) (fvi : list (list nat)).
  Hypothesis Hd : 1 <= d.
  Hypothesis Hs : simplex_faces d fvi.

  Lemma face_of_fun neg k f f' : face_of d fvi neg k f -> face_of d fvi neg k f' -> f = f'.
  Proof using Hs. intros (a & A1 & A2) (b & B1 & B2). eapply (proj2 (proj2 Hs)); eauto. Qed.

  Lemma face_of_inj neg k k' f : face_of d fvi neg k f -> face_of d fvi neg k' f -> k = k'.
  Proof.
    intros (a & A1 & A2) (b & B1 & B2). assert (a = b) by congruence. subst b. pose proof (misses_fun _ _ _ _ A2 B2) as E.
    destruct neg; [|exact E]. rewrite <- (sw01_invol k), E. apply sw01_invol.
  Qed.

  Lemma face_of_some neg f : f < length fvi -> exists k, k <= d /\ face_of d fvi neg k f.
  Proof using Hd Hs.
    intros Hf. destruct (nth_error fvi f) as [face|] eqn:E; [|apply nth_error_None in E; lia].
    destruct (proj1 (proj2 Hs) face (nth_error_In _ _ E)) as (v & Hv). pose proof (proj1 Hv) as Hle.
    exists (if neg then sw01 v else v). destruct neg; (split; [auto using sw01_le|]); exists face; split; auto. now rewrite sw01_invol.
  Qed.

  (** a facet of Firedrake as a face of meshmode, after the flips *)
  Definition side_to (negs : list bool) (e k : nat) (s : nat * nat) : Prop :=
    exists neg f, nth_error negs e = Some neg /\ s = (e, f) /\ face_of d fvi neg k f.

  Lemma flip_side_ok dct negs e k f0 : face_numbers (d + 1) fvi = Ok dct -> k <= d -> dict_get dct k = Ok f0 ->
    forall r, flip_side (zero_one_faces fvi) negs (e, f0) = Ok r <-> side_to negs e k r.
  Proof using Hd Hs.
    intros Hf Hk Hg. destruct (face_numbers_ok d fvi Hs) as (dct' & Hf' & D1 & D2). assert (dct' = dct) by congruence. subst dct'.
    destruct (D1 k Hk) as (f1 & face & G1 & G2 & G3). assert (f1 = f0) by congruence. subst f1.
    destruct (zero_one_faces_ok d fvi Hd Hs) as (z & o & fz & fo & Z1 & Z2 & Z3 & Z4 & Z5). rewrite Z1. unfold flip_side. cbn [fst snd].
    assert (Hkf : forall neg, face_of d fvi neg k (if neg then (if f0 =? z then o else if f0 =? o then z else f0) else f0)).
    { intros neg. destruct neg; [|exists face; auto]. unfold face_of.
      destruct (Nat.eqb_spec f0 z) as [->|Hz].
      - assert (face = fz) by congruence. subst face. assert (k = 0) by (eapply misses_fun; eauto). subst k. exists fo. auto.
      - destruct (Nat.eqb_spec f0 o) as [->|Ho].
        + assert (face = fo) by congruence. subst face. assert (k = 1) by (eapply misses_fun; eauto). subst k. exists fz. auto.
        + exists face. split; [exact G2|]. destruct k as [|[|k]]; [| |exact G3].
          * exfalso. apply Hz. eapply (proj2 (proj2 Hs)); eauto.
          * exfalso. apply Ho. eapply (proj2 (proj2 Hs)); eauto. }
    intros r. unfold get. destruct (nth_error negs e) as [neg|] eqn:En; cbn [bind].
    - split.
      + intros H. injection H as <-. exists neg. eexists. split; [exact En|]. split; [reflexivity|]. apply Hkf.
      + intros (neg' & f & En' & -> & Hfo). assert (neg' = neg) by congruence. subst neg'. do 2 f_equal. eapply face_of_fun; eauto.
    - split; [discriminate|]. intros (neg' & f & En' & _). congruence.
  Qed.

  Lemma side_to_total negs e k : k <= d -> e < length negs -> exists s, side_to negs e k s.
  Proof using Hd Hs.
    intros Hk He. destruct (nth_error negs e) as [neg|] eqn:En; [|apply nth_error_None in En; lia].
    destruct (face_numbers_ok d fvi Hs) as (dct & Hf & D1 & _).
    destruct (D1 (if neg then sw01 k else k)) as (f & face & _ & G2 & G3); [destruct neg; auto using sw01_le|].
    exists (e, f), neg, f. split; [exact En|]. split; [reflexivity|]. exists face. auto.
  Qed.
End Sides.

(** ** Exterior facets *)
Section Exterior.
  Context {R : Type}.
  Implicit Types fd : fdmesh R.

  Lemma mapped_side_eq dct s r : mapped_side dct s = Ok r <-> exists f, dict_get dct (snd s) = Ok f /\ r = (fst s, f).
  Proof.
    unfold mapped_side. destruct (dict_get dct (snd s)) as [f|]; cbn [bind]; split.
    - intros H. injection H as <-. eauto.
    - intros (f' & E & ->). congruence.
    - discriminate.
    - intros (f' & E & _). discriminate.
  Qed.

  Lemma exterior_faces_ok dct fd cells exts mks : proper_choice fd cells -> (forall s, In s (fd_exterior fd) -> fst s < length (fd_closure fd)) ->
    proper_markers fd -> exterior_faces dct fd cells = Ok (exts, mks) ->
    exists ix, length ix = length exts /\
      (forall j i, nth_error ix j = Some i -> exists c k e f, nth_error (fd_exterior fd) i = Some (c, k) /\ nth_error (cells_of fd cells) e = Some c /\
         nth_error exts j = Some (e, f) /\ dict_get dct k = Ok f) /\
      (forall i c k e, nth_error (fd_exterior fd) i = Some (c, k) -> nth_error (cells_of fd cells) e = Some c -> In i ix) /\
      match fd_markers fd with
      | None => mks = None
      | Some ms => exists ms', mks = Some ms' /\ Forall2 (fun i m => nth_error ms i = Some m) ix ms'
      end.
  Proof.
    intros (Hnd & Hin) Hcl Hmk H. unfold exterior_faces in H. apply bind_ok in H as (xs & Hxs & H).
    pose proof (mapM_length _ _ _ Hxs) as Hxl. pose proof (proj1 (mapM_ok _ _ _) Hxs) as HF.
    destruct cells as [cs|]; cbn [cells_of] in *.
    - cbn zeta in H. set (keep := map (fun ef => memb (fst ef) cs) xs) in H. apply bind_ok in H as (els & Hels & H). injection H as <- <-.
      exists (where_ keep).
      assert (Hkl : length keep = length xs) by (unfold keep; apply map_length).
      pose proof (compress_where keep xs Hkl) as Hcw.
      unfold vectorize in Hels. apply bind_ok in Hels as (u & _ & Hels). pose proof (mapM_length _ _ _ Hels) as Hel. rewrite map_length in Hel.
      pose proof (proj1 (mapM_ok _ _ _) Hels) as HFe. rewrite Forall2_map_l in HFe.
      split; [rewrite combine_length, map_length, (Forall2_length' _ _ _ Hcw); lia|]. split; [|split].
      + intros j i Hj. destruct (Forall2_nth_error _ _ _ _ _ Hcw Hj) as ((c, f) & Hx & Hxi).
        destruct (Forall2_nth_error_r _ _ _ _ _ HF Hxi) as ((c', k) & Hs & Hm). apply mapped_side_eq in Hm as (f' & Hf' & E). cbn [fst snd] in *. injection E as <- <-.
        destruct (Forall2_nth_error _ _ _ _ _ HFe Hx) as (e & He & Hp). cbn [fst] in Hp. unfold position in Hp.
        destruct (index_of c cs) as [e'|] eqn:Ei; [|discriminate]. injection Hp as ->. apply index_of_Some in Ei.
        exists c, k, e, f. split; [exact Hs|]. split; [exact Ei|]. split; [|exact Hf']. apply nth_error_combine_Some. split; [exact He|]. now rewrite nth_error_map, Hx.
      + intros i c k e Hi He. apply In_where_. unfold keep. rewrite nth_error_map.
        destruct (Forall2_nth_error _ _ _ _ _ HF Hi) as (r & Hr & Hm). apply mapped_side_eq in Hm as (f & Hf & ->). cbn [fst snd] in *. rewrite Hr. cbn [option_map fst].
        f_equal. apply memb_In. eapply nth_error_In; eauto.
      + destruct (fd_markers fd) as [ms|] eqn:Em; [|reflexivity]. cbn [option_map]. eexists. split; [reflexivity|].
        apply compress_where. rewrite Hkl, Hxl, (Hmk ms Em). reflexivity.
    - injection H as <- <-. exists (seq 0 (length xs)). split; [apply seq_length|]. split; [|split].
      + intros j i Hj. apply seq_nth_eq in Hj as (-> & Hlt). cbn [plus].
        destruct (nth_error xs j) as [r|] eqn:Er; [|apply nth_error_None in Er; lia].
        destruct (Forall2_nth_error_r _ _ _ _ _ HF Er) as ((c, k) & Hs & Hm). apply mapped_side_eq in Hm as (f & Hf & ->). cbn [fst snd] in *.
        exists c, k, c, f. split; [exact Hs|]. split; [rewrite seq_nth_ok; [reflexivity|apply (Hcl (c, k)); eapply nth_error_In; eauto]|]. split; [reflexivity|exact Hf].
      + intros i c k e Hi _. apply in_seq. rewrite Hxl. split; [lia|]. cbn. apply nth_error_Some. congruence.
      + destruct (fd_markers fd) as [ms|] eqn:Em; [|reflexivity]. exists ms. split; [reflexivity|]. rewrite Hxl, <- (Hmk ms Em).
        apply Forall2_intro_nth; [apply seq_length|]. intros i x y Hx Hy. apply seq_nth_eq in Hx as (-> & _). exact Hy.
  Qed.

  Lemma marker_index_eq fd ind m q : marker_index fd ind m = Ok q <->
    exists n us i, m = Some n /\ fd_unique_markers fd = Some us /\ index_of n us = Some i /\ q = (if ind then 1 else 0) + i.
  Proof.
    unfold marker_index, position. destruct m as [n|]; [|split; [discriminate|intros (? & ? & ? & E & _); discriminate]].
    destruct (fd_unique_markers fd) as [us|]; [|split; [discriminate|intros (? & ? & ? & _ & E & _); discriminate]].
    destruct (index_of n us) as [i|] eqn:Ei; cbn [bind]; split.
    - intros H. injection H as <-. exists n, us, i. auto.
    - intros (n' & us' & i' & E1 & E2 & E3 & ->). injection E1 as <-. injection E2 as <-. congruence.
    - discriminate.
    - intros (n' & us' & i' & E1 & E2 & E3 & _). injection E1 as <-. injection E2 as <-. congruence.
  Qed.

  Lemma tag_of_index fd (ind : bool) us i n : fd_unique_markers fd = Some us -> index_of n us = Some i ->
    nth_error (boundary_tags fd ind) ((if ind then 1 else 0) + i) = Some (TUser n).
  Proof.
    intros E Hi. apply index_of_Some in Hi. unfold boundary_tags. rewrite E. destruct ind; cbn [app Nat.add nth_error]; now rewrite nth_error_map, Hi.
  Qed.

  Context {A : Type}.

  Lemma In_marker_groups tags idx exts (b : fagrp A) : In b (marker_groups tags idx exts) <->
    exists q t fs, nth_error tags q = Some t /\ b = Boundary 0 t fs /\ fs <> [] /\
      fs = compress (map (fun i => match i with Some j => j =? q | None => false end) idx) exts.
  Proof.
    unfold marker_groups. rewrite in_concat. split.
    - intros (l & Hl & Hb). apply in_map_iff in Hl as ((q, t) & El & Hq). apply In_enumerate in Hq. cbn [fst snd] in *. cbn zeta in El.
      set (fs := compress _ _) in El. destruct (Nat.eqb_spec (length fs) 0) as [E|E]; subst l; [destruct Hb|]. destruct Hb as [<-|[]].
      exists q, t, fs. split; [exact Hq|]. split; [reflexivity|]. split; [intros E'; rewrite E' in E; apply E; reflexivity|reflexivity].
    - intros (q & t & fs & Hq & -> & Hne & Efs). exists [Boundary 0 t fs]. split; [|now left]. apply in_map_iff. exists (q, t). cbn [fst snd]. cbn zeta.
      rewrite <- Efs. split; [|now apply In_enumerate]. destruct (Nat.eqb_spec (length fs) 0) as [E|E]; [|reflexivity]. destruct fs; [congruence|discriminate].
  Qed.
End Exterior.

(** ** Facets *)
Section Facets.
  Context {R E A : Type}.
  Implicit Types fd : fdmesh R.

  Definition rows_of fd cells old (g : egroup E) (negs : list bool) : Prop :=
    length negs = length (cells_of fd cells) /\
    forall e c, nth_error (cells_of fd cells) e = Some c ->
      exists row neg vs, cell_verts fd c row /\ nth_error negs e = Some neg /\ local_row [g] 0 e (swapped neg vs) /\ stands_for old vs row.

  Lemma local_row_fun (g : egroup E) e r r' : local_row [g] 0 e r -> local_row [g] 0 e r' -> r = r'.
  Proof. intros (g1 & v1 & A1 & A2 & A3 & A4) (g2 & v2 & B1 & B2 & B3 & B4). congruence. Qed.

  Lemma stands_fun old vs ws ws' : stands_for old vs ws -> stands_for old vs ws' -> ws = ws'.
  Proof.
    intros H. revert ws'. induction H as [|v w vs ws H1 H2 IH]; intros ws' H'; inversion H'; subst; [reflexivity|]. f_equal; [congruence|auto].
  Qed.

  Lemma remove_nth_F2 {X Y} (P : X -> Y -> Prop) k l r : Forall2 P l r -> Forall2 P (remove_nth k l) (remove_nth k r).
  Proof.
    intros H. unfold remove_nth. apply Forall2_app; revert k; induction H as [|x y l r H1 H2 IH]; intros [|k]; cbn [firstn skipn]; auto.
    cbn [skipn] in IH. apply (IH k).
  Qed.

  Lemma remove_nth_inj (row : list nat) k k' : NoDup row -> k < length row -> k' < length row -> Permutation (remove_nth k row) (remove_nth k' row) -> k = k'.
  Proof.
    intros Hn Hk Hk' Hp. destruct (Nat.eq_dec k k') as [|Hne]; [assumption|]. exfalso.
    assert (Hin : forall j i v, nth_error row i = Some v -> j < length row -> (In v (remove_nth j row) <-> i <> j)).
    { intros j i v Hi Hj. unfold remove_nth. rewrite in_app_iff. split.
      - intros [H|H] ->.
        + apply In_nth_error in H as (a & Ha). rewrite nth_error_firstn in Ha. destruct (Nat.ltb_spec a j); [|discriminate].
          assert (a = j); [|lia]. apply (proj1 (NoDup_nth_error row) Hn); [lia|congruence].
        + apply In_nth_error in H as (a & Ha). rewrite nth_error_skipn in Ha.
          assert (Hlt : S j + a < length row) by (apply nth_error_Some; congruence).
          assert (S j + a = j); [|lia]. apply (proj1 (NoDup_nth_error row) Hn); [lia|congruence].
      - intros Hij. destruct (Nat.lt_ge_cases i j).
        + left. apply (nth_error_In _ i). rewrite nth_error_firstn. destruct (Nat.ltb_spec i j); [exact Hi|lia].
        + right. apply (nth_error_In _ (i - S j)). rewrite nth_error_skipn. rewrite <- Hi. f_equal. lia. }
    destruct (nth_error row k) as [v|] eqn:Ev; [|apply nth_error_None in Ev; lia].
    assert (In v (remove_nth k' row)) by (apply (Hin k' k v Ev Hk'); auto).
    apply (Permutation_in v (Permutation_sym Hp)) in H. apply (Hin k k v Ev Hk) in H. congruence.
  Qed.

  Lemma facet_iff fd cells old (g : egroup E) negs fvi e c neg k f : proper_cells fd -> simplex_faces (fd_tdim fd) fvi -> 1 <= fd_tdim fd ->
    eg_fvi g = fvi -> rows_of fd cells old g negs ->
    nth_error (cells_of fd cells) e = Some c -> nth_error negs e = Some neg -> k <= fd_tdim fd ->
    (face_of (fd_tdim fd) fvi neg k f <-> is_facet fd cells old g e f c k).
  Proof.
    intros Hp Hs Hd Hfvi (_ & Hr) He Hneg Hk. destruct (Hr e c He) as (row & neg' & vs & Hcv & Hneg' & Hlr & Hst).
    assert (neg' = neg) by congruence. subst neg'. clear Hneg'. destruct (proper_rows fd c row Hp Hcv) as (Hnd & Hlen & _).
    pose proof (stands_length _ _ _ Hst) as Hvl.
    assert (Hsl : length (swapped neg vs) = length vs) by (unfold swapped; destruct neg; [apply Permutation_length, swap01_perm|reflexivity]).
    assert (Hrm : forall j, Permutation (remove_nth (if neg then sw01 j else j) (swapped neg vs)) (remove_nth j vs)).
    { intros j. unfold swapped. destruct neg; [apply remove_swap; lia|reflexivity]. }
    assert (Fwd : forall j f', j <= fd_tdim fd -> face_of (fd_tdim fd) fvi neg j f' -> exists fs ws, face_verts [g] (0, e, f') fs /\ stands_for old fs ws /\ Permutation ws (remove_nth j row)).
    { intros j f' Hj (face & Hf & Hm). pose proof (proj2 (proj2 Hm)) as Hin.
      assert (Hall : exists fs, Forall2 (fun i v => nth_error (swapped neg vs) i = Some v) face fs).
      { assert (Hlt : Forall (fun i => i < length (swapped neg vs)) face) by (apply Forall_forall; intros i Hi; apply Hin in Hi; lia).
        destruct (take_total (swapped neg vs) face Hlt) as (fs & Ht). exists fs. now apply take_ok. }
      destruct Hall as (fs & Hfs). pose proof (face_perm (fd_tdim fd) (swapped neg vs) face _ fs ltac:(lia) Hm Hfs) as Hpm.
      assert (Hpm' : Permutation (remove_nth j vs) fs) by (symmetry; eapply perm_trans; [exact Hpm|apply Hrm]).
      destruct (Permutation_Forall2 Hpm' (remove_nth_F2 _ j _ _ Hst)) as (ws & Hw1 & Hw2).
      exists fs, ws. split; [|split; [exact Hw2|now symmetry]]. exists g, (swapped neg vs), face. rewrite Hfvi. auto. }
    split.
    - intros Hf. split; [exact He|]. destruct (Fwd k f Hk Hf) as (fs & ws & H1 & H2 & H3). exists row, fs, ws. split; [exact Hcv|]. split; [lia|]. auto.
    - intros (_ & row' & fs & ws & Hcv' & Hk' & Hfv & Hsw & Hpm). rewrite (cell_verts_fun fd c row' row Hcv' Hcv) in *.
      pose proof Hfv as (g1 & rw & ref & Hg1 & _ & Hf & _). cbn [nth_error] in Hg1. injection Hg1 as <-. rewrite Hfvi in Hf.
      destruct (face_of_some (fd_tdim fd) fvi Hd Hs neg f) as (j & Hj & Hfj); [apply nth_error_Some; congruence|].
      destruct (Fwd j f Hj Hfj) as (fs' & ws' & H1 & H2 & H3).
      assert (fs' = fs).
      { destruct Hfv as (ga & ra & fa & A1 & A2 & A3 & A4), H1 as (gb & rb & fb & B1 & B2 & B3 & B4).
        assert (ra = rb) by (eapply local_row_fun; eauto). assert (ga = gb) by congruence. subst. assert (fa = fb) by congruence. subst.
        clear -A4 B4. revert fs' B4. induction A4 as [|x y l r H1 H2 IH]; intros fs' B4; inversion B4; subst; [reflexivity|]. f_equal; [congruence|auto]. }
      subst fs'. rewrite (stands_fun _ _ _ _ Hsw H2) in Hpm.
      assert (k = j); [|congruence]. apply (remove_nth_inj row); [exact Hnd|lia|lia|]. eapply perm_trans; [symmetry; exact Hpm|exact H3].
  Qed.
End Facets.

(** ** Boundary groups of the imported mesh *)
Section Boundary.
  Context {R A : Type}.
  Variable aff_id : A.
  Implicit Types fd : fdmesh R.

  Lemma facial_parts fvi fd cells fags : facial_groups aff_id fvi fd cells = Ok fags ->
    exists dct es ie xm idx, face_numbers (fd_tdim fd + 1) fvi = Ok dct /\ interior_entries dct fd = Ok es /\
      match cells with None => ie = (es, []) | Some cs => restrict_interior cs es = Ok ie end /\
      exterior_faces dct fd cells = Ok xm /\
      tag_indices fd (match cells with Some _ => true | None => false end) (length (fst xm)) (snd xm) = Ok idx /\
      fags = Interior 0 0 (fst ie) aff_id :: marker_groups (boundary_tags fd (match cells with Some _ => true | None => false end)) idx (fst xm) ++
             Boundary 0 TAll (fst xm) :: match cells with Some _ => [Boundary 0 TInduced (snd ie)] | None => [] end.
  Proof.
    unfold facial_groups. intros H. apply bind_ok in H as (dct & H1 & H). cbn zeta in H. apply bind_ok in H as (es & H2 & H).
    apply bind_ok in H as (ie & H3 & H). apply bind_ok in H as (xm & H4 & H). apply bind_ok in H as (idx & H5 & H). injection H as <-.
    exists dct, es, ie, xm, idx. split; [exact H1|]. split; [exact H2|]. split; [destruct cells; [exact H3|congruence]|]. split; [exact H4|]. split; [exact H5|].
    destruct cells; reflexivity.
  Qed.

  (** the flipped groups have the tags of the groups and the flipped faces *)
  Definition is_interpart (b : fagrp A) : Prop := match b with InterPart _ _ _ _ _ => True | _ => False end.

  Lemma in_bdry_flip zo negs (fags fags' : list (fagrp A)) t r : (forall b, In b fags -> ~ is_interpart b) ->
    mapM (flip_group aff_id zo negs) fags = Ok fags' ->
    (in_bdry fags' t r <-> exists s, in_bdry fags t s /\ flip_side zo negs s = Ok r).
  Proof.
    intros Hni H. apply mapM_ok in H.
    assert (Hone : forall b b', ~ is_interpart b -> flip_group aff_id zo negs b = Ok b' -> bdry_tag b = bdry_tag b' /\
      (bdry_tag b = Some t -> Forall2 (fun s r => flip_side zo negs s = Ok r) (fag_faces b) (fag_faces b'))).
    { intros b b' Hi Hb. destruct b; cbn [flip_group is_interpart] in *; [| |tauto].
      - apply bind_ok in Hb as (fs' & Hf & Hb). injection Hb as <-. split; [reflexivity|discriminate].
      - apply bind_ok in Hb as (fs' & Hf & Hb). injection Hb as <-. cbn [bdry_tag fag_faces]. split; [reflexivity|]. intros _. now apply mapM_ok. }
    unfold in_bdry. split.
    - intros (b' & Hin & Ht & Hr). destruct (Forall2_In_r _ _ _ _ H Hin) as (b & Hb & Hf).
      destruct (Hone b b' (Hni b Hb) Hf) as (Et & HF). rewrite Et in HF. destruct (Forall2_In_r _ _ _ _ (HF Ht) Hr) as (s & Hs & Hfs).
      exists s. split; [|exact Hfs]. exists b. rewrite Et. auto.
    - intros (s & (b & Hin & Ht & Hs) & Hfs). destruct (Forall2_In_l _ _ _ _ H Hin) as (b' & Hb' & Hf). destruct (Hone b b' (Hni b Hin) Hf) as (Et & HF).
      destruct (Forall2_In_l _ _ _ _ (HF Ht) Hs) as (r' & Hr' & Hfr). assert (r' = r) by congruence. subst r'. exists b'. rewrite <- Et. auto.
  Qed.

  (** completion adds no faces to the tags that are there *)
  Lemma in_bdry_complete (fags' l : list (fagrp A)) t r : complete_facial_adjacency [fags'] = Ok [l] ->
    (~ In t [TNone; TAll; TReallyAll] \/ carries fags' t) -> (in_bdry l t r <-> in_bdry fags' t r).
  Proof.
    intros Hc Ht. destruct (complete_spec [fags']) as (r' & Hr & _ & _ & Hsp). pose proof (eq_trans (eq_sym Hc) Hr) as E. injection E as <-.
    destruct (Hsp 0 fags' eq_refl) as (ex & Hl & Hex & _). cbn [nth_error] in Hl. injection Hl as ->. unfold in_bdry. split.
    - intros (b & Hb & Htb & Hin). apply in_app_iff in Hb as [Hb|Hb]; [eauto|]. exfalso.
      assert (In (Some t) (map bdry_tag ex)) by (rewrite <- Htb; now apply in_map). apply Hex in H. tauto.
    - intros (b & Hb & Htb & Hin). exists b. split; [apply in_or_app; auto|auto].
  Qed.

  Lemma in_bdry_cons b (l : list (fagrp A)) t r : in_bdry (b :: l) t r <-> (bdry_tag b = Some t /\ In r (fag_faces b)) \/ in_bdry l t r.
  Proof.
    unfold in_bdry. split.
    - intros (b' & [<-|Hb] & H1 & H2); [left; auto|right; eauto].
    - intros [(H1 & H2)|(b' & Hb & H1 & H2)]; [exists b; cbn; auto|exists b'; cbn; auto].
  Qed.
  Lemma in_bdry_app (l l' : list (fagrp A)) t r : in_bdry (l ++ l') t r <-> in_bdry l t r \/ in_bdry l' t r.
  Proof.
    unfold in_bdry. split.
    - intros (b' & Hb & H1 & H2). apply in_app_iff in Hb as [Hb|Hb]; [left|right]; eauto.
    - intros [(b' & Hb & H1 & H2)|(b' & Hb & H1 & H2)]; exists b'; rewrite in_app_iff; auto.
  Qed.
  Lemma in_bdry_nil t r : ~ in_bdry (A := A) [] t r.
  Proof. intros (b & [] & _). Qed.

  Lemma facial_tags fvi fd cells fags dct : simplex_faces (fd_tdim fd) fvi -> proper_choice fd cells -> proper_facets fd -> proper_markers fd ->
    facial_groups aff_id fvi fd cells = Ok fags -> face_numbers (fd_tdim fd + 1) fvi = Ok dct ->
    (forall b, In b fags -> ~ is_interpart b) /\ carries fags TAll /\
    (forall r, in_bdry fags TAll r <-> exists c k e f, In (c, k) (fd_exterior fd) /\ nth_error (cells_of fd cells) e = Some c /\
       dict_get dct k = Ok f /\ r = (e, f)) /\
    (forall n r, in_bdry fags (TUser n) r <-> exists i c k e f, nth_error (fd_exterior fd) i = Some (c, k) /\ marked fd i n /\
       nth_error (cells_of fd cells) e = Some c /\ dict_get dct k = Ok f /\ r = (e, f)).
  Proof.
    intros Hs Hch (P1 & _) Hmk H Hdct. destruct (facial_parts fvi fd cells fags H) as (dct' & es & ie & xm & idx & E1 & E2 & E3 & E4 & E5 & ->).
    assert (dct' = dct) by congruence. subst dct'. set (ind := match cells with Some _ => true | None => false end) in *.
    destruct xm as (exts, mks). cbn [fst snd] in *.
    destruct (exterior_faces_ok dct fd cells exts mks Hch (fun s Hin => proj1 (P1 s Hin)) Hmk E4) as (ix & Hil & X1 & X2 & X3).
    assert (Hexts : forall j e f, nth_error exts j = Some (e, f) <-> exists i c k, nth_error ix j = Some i /\ nth_error (fd_exterior fd) i = Some (c, k) /\ nth_error (cells_of fd cells) e = Some c /\ dict_get dct k = Ok f).
    { intros j e f. split.
      - intros Hj. destruct (nth_error ix j) as [i|] eqn:Ei; [|apply nth_error_None in Ei; assert (j < length exts) by (apply nth_error_Some; congruence); lia].
        destruct (X1 j i Ei) as (c & k & e' & f' & A1 & A2 & A3 & A4). assert (e' = e /\ f' = f) as (-> & ->) by (split; congruence). exists i, c, k. auto.
      - intros (i & c & k & B1 & B2 & B3 & B4). destruct (X1 j i B1) as (c' & k' & e' & f' & A1 & A2 & A3 & A4).
        assert (c' = c /\ k' = k) as (-> & ->) by (split; congruence). rewrite A3. f_equal. f_equal; [|congruence].
        apply (proj1 (NoDup_nth_error _) (proj1 Hch)); [apply nth_error_Some; congruence|congruence]. }
    assert (Hext : forall e f, In (e, f) exts <-> exists c k, In (c, k) (fd_exterior fd) /\ nth_error (cells_of fd cells) e = Some c /\ dict_get dct k = Ok f).
    { intros e f. split.
      - intros Hin. apply In_nth_error in Hin as (j & Hj). apply Hexts in Hj as (i & c & k & B1 & B2 & B3 & B4). exists c, k. split; [eapply nth_error_In; eauto|auto].
      - intros (c & k & B1 & B2 & B3). apply In_nth_error in B1 as (i & Hi). pose proof (X2 i c k e Hi B2) as Hix. apply In_nth_error in Hix as (j & Hj).
        apply (nth_error_In _ j). apply Hexts. exists i, c, k. auto. }
    assert (Htags : forall t, In t (boundary_tags fd ind) -> t = TInduced \/ exists n, t = TUser n).
    { intros t Hin. unfold boundary_tags in Hin. apply in_app_iff in Hin as [Hin|Hin].
      - destruct ind; [destruct Hin as [<-|[]]; now left|destruct Hin].
      - destruct (fd_unique_markers fd) as [us|]; [|destruct Hin]. apply in_map_iff in Hin as (n & <- & _). right. eauto. }
    assert (Hmg : forall t r, in_bdry (marker_groups (A := A) (boundary_tags fd ind) idx exts) t r <->
      exists q j, nth_error (boundary_tags fd ind) q = Some t /\ nth_error idx j = Some (Some q) /\ nth_error exts j = Some r).
    { intros t r. unfold in_bdry. split.
      - intros (b & Hb & Ht & Hr). apply In_marker_groups in Hb as (q & t' & fs & Hq & -> & _ & Efs). cbn [bdry_tag fag_faces] in *. injection Ht as ->.
        rewrite Efs in Hr. apply In_compress in Hr as (j & Hj & Hr). rewrite nth_error_map in Hj. destruct (nth_error idx j) as [[q'|]|] eqn:Eq; cbn [option_map] in Hj; try discriminate.
        injection Hj as Hj. apply Nat.eqb_eq in Hj. subst q'. eauto.
      - intros (q & j & Hq & Hj & Hr).
        assert (Hin : In r (compress (map (fun i => match i with Some j => j =? q | None => false end) idx) exts)).
        { apply In_compress. exists j. split; [|exact Hr]. rewrite nth_error_map, Hj. cbn [option_map]. now rewrite Nat.eqb_refl. }
        eexists (Boundary 0 t _). split; [|split; [reflexivity|exact Hin]]. apply In_marker_groups. exists q, t. eexists. split; [exact Hq|]. split; [reflexivity|].
        split; [|reflexivity]. intros E. rewrite E in Hin. destruct Hin. }
    split; [|split; [|split]].
    - intros b [<-|Hb]; [intros []|]. apply in_app_iff in Hb as [Hb|[<-|Hb]].
      + apply In_marker_groups in Hb as (q & t & fs & _ & -> & _). intros [].
      + intros [].
      + destruct cells; [destruct Hb as [<-|[]]; intros []|destruct Hb].
    - exists (Boundary 0 TAll exts). split; [|reflexivity]. right. apply in_or_app. right. now left.
    - intros (e, f). rewrite in_bdry_cons, in_bdry_app, in_bdry_cons. cbn [bdry_tag fag_faces]. rewrite Hmg.
      transitivity (In (e, f) exts).
      + split; [|auto]. intros [(H1 & _)|[(q & j & Hq & _)|[(_ & H1)|H1]]]; [discriminate| |exact H1|].
        * apply nth_error_In in Hq. destruct (Htags _ Hq) as [E|(n & E)]; discriminate.
        * destruct cells; [apply in_bdry_cons in H1 as [(H1 & _)|H1]; [discriminate|]|]; now apply in_bdry_nil in H1.
      + rewrite Hext. split.
        * intros (c & k & B1 & B2 & B3). exists c, k, e, f. auto.
        * intros (c & k & e' & f' & B1 & B2 & B3 & E). injection E as <- <-. exists c, k. auto.
    - intros n r. rewrite in_bdry_cons, in_bdry_app, in_bdry_cons. cbn [bdry_tag fag_faces]. rewrite Hmg.
      transitivity (exists q j, nth_error (boundary_tags fd ind) q = Some (TUser n) /\ nth_error idx j = Some (Some q) /\ nth_error exts j = Some r).
      { split; [|auto]. intros [(H1 & _)|[H1|[(H1 & _)|H1]]]; [discriminate|exact H1|discriminate|].
        destruct cells; [apply in_bdry_cons in H1 as [(H1 & _)|H1]; [discriminate|]|]; now apply in_bdry_nil in H1. }
      unfold tag_indices in E5. destruct (fd_markers fd) as [ms|] eqn:Em.
      + destruct X3 as (ms' & -> & HFm). apply mapM_ok in E5. split.
        * intros (q & j & Hq & Hj & Hr). destruct (Forall2_nth_error_r _ _ _ _ _ E5 Hj) as (mk & Hmj & Hb). apply bind_ok in Hb as (q' & Hmi & Hb). injection Hb as ->.
          apply marker_index_eq in Hmi as (n' & us & i' & -> & Eu & Ei & ->). rewrite (tag_of_index fd ind us i' n' Eu Ei) in Hq. injection Hq as ->.
          destruct r as (e, f). apply Hexts in Hr as (i & c & k & B1 & B2 & B3 & B4). exists i, c, k, e, f. split; [exact B2|]. split; [|auto].
          exists ms. split; [exact Em|]. destruct (Forall2_nth_error _ _ _ _ _ HFm B1) as (mk' & Hm1 & Hm2). congruence.
        * intros (i & c & k & e & f & B1 & (ms1 & Ems1 & Hmi) & B2 & B3 & ->). assert (ms1 = ms) by congruence. subst ms1.
          pose proof (X2 i c k e B1 B2) as Hix. apply In_nth_error in Hix as (j & Hj). destruct (Forall2_nth_error _ _ _ _ _ HFm Hj) as (mk & Hm1 & Hm2).
          assert (mk = Some n) by congruence. subst mk. destruct (Forall2_nth_error _ _ _ _ _ E5 Hm1) as (oq & Hoq & Hb). apply bind_ok in Hb as (q & Hmq & Hb). injection Hb as <-.
          pose proof Hmq as Hmq'. apply marker_index_eq in Hmq' as (n' & us & i' & E & Eu & Ei & ->). injection E as <-.
          eexists _, j. split; [eapply tag_of_index; eauto|]. split; [exact Hoq|]. apply Hexts. exists i, c, k. auto.
      + subst mks. injection E5 as <-. split.
        * intros (q & j & _ & Hj & _). apply nth_error_In, repeat_spec in Hj. discriminate.
        * intros (i & c & k & e & f & _ & (ms1 & Ems1 & _) & _). congruence.
  Qed.
End Boundary.
