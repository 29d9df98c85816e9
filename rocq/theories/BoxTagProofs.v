(** * BoxTagProofs: the tags of the sides of a box *)
From Coq Require Import String Ascii List Arith Bool ZArith Lia Permutation.
From Verif Require Import Np NpFacts MeshModel MeshSpec MeshProofs FacialProofs Lin RestrProofs BoxModel BoxSpec BoxIndexProofs BoxConfProofs.
Import ListNotations.

(** ** dictionaries *)
Definition same_set (a b : list nat) : Prop := forall v, In v a <-> In v b.
Definition st_all (asgs : list (list nat * list btag)) (m : tagmap) : tagmap := fold_left (fun m a => set_tags m (fst a) (snd a)) asgs m.

Lemma set_tags_In m vs ts k ts' : In (k, ts') (set_tags m vs ts) -> In (k, ts') m \/ (ts' = ts /\ same_set k vs).
Proof.
  induction m as [|(k0, ts0) m IH]; cbn [set_tags].
  - intros [H|[]]. injection H as <- <-. right. split; [reflexivity|]. intros v. reflexivity.
  - destruct (set_eqb k0 vs) eqn:Es; intros [H|H].
    + injection H as <- <-. right. split; [reflexivity|]. exact (proj1 (set_eqb_iff _ _) Es).
    + left. now right.
    + left. now left.
    + destruct (IH H) as [H'|H']; [left; now right|now right].
Qed.
Lemma set_tags_has m vs ts : exists k ts', In (k, ts') (set_tags m vs ts) /\ same_set k vs.
Proof.
  induction m as [|(k0, ts0) m (k & ts' & H & Hk)]; cbn [set_tags]; [exists vs, ts; split; [now left|intros v; reflexivity]|].
  destruct (set_eqb k0 vs) eqn:Es; [exists k0, ts; split; [now left|exact (proj1 (set_eqb_iff _ _) Es)]|exists k, ts'; split; [now right|exact Hk]].
Qed.
Lemma set_tags_keeps m vs ts k ts' : In (k, ts') m -> exists k2 ts2, In (k2, ts2) (set_tags m vs ts) /\ same_set k2 k.
Proof.
  induction m as [|(k0, ts0) m IH]; [intros []|]. cbn [set_tags]. intros [H|H].
  - injection H as -> ->. destruct (set_eqb k vs); [exists k, ts|exists k, ts']; (split; [now left|intros v; reflexivity]).
  - destruct (set_eqb k0 vs); [exists k, ts'; split; [now right|intros v; reflexivity]|]. destruct (IH H) as (k2 & ts2 & H2 & Hk). exists k2, ts2. split; [now right|exact Hk].
Qed.
Lemma same_set_trans a b c : same_set a b -> same_set b c -> same_set a c.
Proof. unfold same_set. intros H1 H2 v. now rewrite H1. Qed.
Lemma same_set_sym a b : same_set a b -> same_set b a.
Proof. unfold same_set. intros H v. now rewrite H. Qed.
Lemma st_all_In asgs m k ts : In (k, ts) (st_all asgs m) -> In (k, ts) m \/ exists vs, In (vs, ts) asgs /\ same_set k vs.
Proof.
  unfold st_all. revert m. induction asgs as [|(vs, ts0) asgs IH]; intros m H; cbn [fold_left] in H; [now left|]. apply IH in H as [H|(vs' & H & Hk)].
  - apply set_tags_In in H as [H|(-> & Hk)]; [now left|]. right. exists vs. split; [now left|exact Hk].
  - right. exists vs'. split; [now right|exact Hk].
Qed.
Lemma st_all_keeps asgs m k ts' : In (k, ts') m -> exists k2 ts2, In (k2, ts2) (st_all asgs m) /\ same_set k2 k.
Proof.
  unfold st_all. revert m k ts'. induction asgs as [|(vs, ts0) asgs IH]; intros m k ts' H; cbn [fold_left]; [exists k, ts'; split; [exact H|intros v; reflexivity]|].
  destruct (set_tags_keeps m vs ts0 k ts' H) as (k2 & ts2 & H2 & Hk2). destruct (IH _ _ _ H2) as (k3 & ts3 & H3 & Hk3). exists k3, ts3. split; [exact H3|]. eapply same_set_trans; eauto.
Qed.
Lemma st_all_has asgs m vs ts : In (vs, ts) asgs -> exists k ts', In (k, ts') (st_all asgs m) /\ same_set k vs.
Proof.
  unfold st_all. revert m. induction asgs as [|(vs0, ts0) asgs IH]; intros m; [intros []|]. intros [H|H]; cbn [fold_left fst snd].
  - injection H as -> ->. destruct (set_tags_has m vs ts) as (k & ts' & Hk & Hs). destruct (st_all_keeps asgs _ k ts' Hk) as (k2 & ts2 & H2 & Hs2). exists k2, ts2. split; [exact H2|]. eapply same_set_trans; eauto.
  - now apply IH.
Qed.

(** a fold of folds *)
Lemma foldM_st {X} (f : tagmap -> X -> res tagmap) (G : X -> list (list nat * list btag) -> Prop) l :
  (forall x, In x l -> exists lx, G x lx /\ forall m, f m x = Ok (st_all lx m)) ->
  exists ls, Forall2 G l ls /\ forall m, foldM f l m = Ok (st_all (concat ls) m).
Proof.
  induction l as [|x l IH]; intros H.
  - exists []. split; [constructor|reflexivity].
  - destruct (H x (or_introl eq_refl)) as (lx & Hg & Hf). destruct IH as (ls & HF & Hl); [intros; apply H; now right|].
    exists (lx :: ls). split; [now constructor|]. intros m. cbn [foldM]. rewrite Hf. cbn [bind]. rewrite Hl. cbn [concat]. unfold st_all. now rewrite fold_left_app.
Qed.

(** ** tags of sides *)
Lemma side_eqb_eq a b : side_eqb a b = true <-> a = b.
Proof.
  destruct a as (u, i), b as (v, j). unfold side_eqb. cbn [fst snd]. rewrite andb_true_iff, Bool.eqb_true_iff, Nat.eqb_eq. split; [intros (-> & ->); reflexivity|intros H; injection H; auto].
Qed.
Definition tagged (d : list (side * list btag)) (s : side) (t : btag) : Prop := exists ts, side_tags d s = Some ts /\ In t ts.
Lemma add_tag_spec d s t s' t' : tagged (add_tag d s t) s' t' <-> tagged d s' t' \/ (s' = s /\ t' = t).
Proof.
  unfold tagged. induction d as [|(s0, ts0) d IH]; cbn [add_tag side_tags].
  - destruct (side_eqb s s') eqn:Es.
    + apply side_eqb_eq in Es. subst. split; [intros (ts & H & Hin); injection H as <-; destruct Hin as [<-|[]]; auto|]. intros [(ts & H & _)|(_ & ->)]; [discriminate|]. exists [t]. split; [reflexivity|now left].
    + split; [intros (ts & H & _); discriminate|]. intros [(ts & H & _)|(-> & _)]; [discriminate|]. rewrite (proj2 (side_eqb_eq s s) eq_refl) in Es. discriminate.
  - destruct (side_eqb s0 s) eqn:Es; cbn [side_tags].
    + apply side_eqb_eq in Es. subst s0. destruct (side_eqb s s') eqn:Es'.
      * apply side_eqb_eq in Es'. subst s'. split.
        -- intros (ts & H & Hin). injection H as <-. apply in_app_or in Hin as [Hin|[<-|[]]]; [left; eauto|now right].
        -- intros [(ts & H & Hin)|(_ & ->)]; [injection H as <-|]; (eexists; split; [reflexivity|apply in_or_app]); [now left|right; now left].
      * split; [now left|]. intros [H|(-> & _)]; [exact H|]. rewrite (proj2 (side_eqb_eq s s) eq_refl) in Es'. discriminate.
    + destruct (side_eqb s0 s') eqn:Es'.
      * split; [now left|]. intros [H|(-> & _)]; [exact H|]. apply side_eqb_eq in Es'. subst. rewrite (proj2 (side_eqb_eq s s) eq_refl) in Es. discriminate.
      * exact IH.
Qed.

(** names of sides *)
Lemma parse_side_ok dim f s : parse_side dim f = Ok s <-> f = side_name (fst s) (snd s) /\ snd s < dim /\ snd s < 4.
Proof.
  split.
  - unfold parse_side. destruct f as [|sd [|ax [|]]]; try discriminate. unfold axis_index. intros H.
    repeat (match type of H with context [Ascii.eqb ax ?c] => destruct (Ascii.eqb_spec ax c); [subst ax|] end; try discriminate);
    (match type of H with context [?a <? ?b] => destruct (Nat.ltb_spec a b); [|discriminate] end; cbn [guard bind] in H;
     destruct (Ascii.eqb_spec sd "-"); [subst|destruct (Ascii.eqb_spec sd "+"); [subst|discriminate]]; injection H as <-; cbn; repeat split; lia).
  - destruct s as (u, i). cbn [fst snd]. intros (-> & Hi & H4). apply Nat.ltb_lt in Hi. destruct i as [|[|[|[|i]]]]; try lia; destruct u; cbn -[Nat.ltb]; rewrite Hi; reflexivity.
Qed.

Lemma box_face_to_tags_ok dim (dict : tagdict) : (forall t fs f, In (t, fs) dict -> In f fs -> exists s, parse_side dim f = Ok s) ->
  exists d, box_face_to_tags dim dict = Ok d /\ forall s t, tagged d s t <-> exists fs f, In (t, fs) dict /\ In f fs /\ parse_side dim f = Ok s.
Proof.
  intros H. unfold box_face_to_tags.
  destruct (foldM_inv (fun d (tf : btag * list string) => foldM (fun d f => s <- parse_side dim f ;; Ok (add_tag d s (fst tf))) (snd tf) d)
    (fun seen d => forall s t, tagged d s t <-> exists fs f, In (t, fs) seen /\ In f fs /\ parse_side dim f = Ok s) dict []) as (d & Hd & HI).
  - intros s t. split; [intros (ts & Hs & _); discriminate|intros (fs & f & [] & _)].
  - intros seen (t0, fs0) d0 HI Hin.
    destruct (foldM_inv (fun d f => s <- parse_side dim f ;; Ok (add_tag d s t0))
      (fun seen' d => forall s t, tagged d s t <-> tagged d0 s t \/ (t = t0 /\ exists f, In f seen' /\ parse_side dim f = Ok s)) fs0 d0) as (d1 & Hd1 & HI1).
    + intros s t. split; [now left|intros [Hx|(_ & f & [] & _)]; exact Hx].
    + intros seen' f d1 HI1 Hf. destruct (H _ _ _ Hin Hf) as (s0 & Hs0). rewrite Hs0. cbn [bind]. eexists. split; [reflexivity|]. intros s t. rewrite add_tag_spec, HI1. split.
      * intros [[Hx|(-> & g & Hg & Hp)]|(-> & ->)]; [now left| |]; right; (split; [reflexivity|]); [exists g; split; [apply in_or_app; now left|exact Hp]|exists f; split; [apply in_or_app; right; now left|exact Hs0]].
      * intros [Hx|(-> & g & Hg & Hp)]; [left; now left|]. apply in_app_or in Hg as [Hg|[<-|[]]]; [left; right; split; [reflexivity|eauto]|]. right. split; [congruence|reflexivity].
    + exists d1. split; [exact Hd1|]. intros s t. rewrite HI1, HI. split.
      * intros [(fs & f & Hfs & Hf & Hp)|(-> & f & Hf & Hp)]; [exists fs, f; split; [apply in_or_app; now left|auto]|]. exists fs0, f. split; [apply in_or_app; right; now left|auto].
      * intros (fs & f & Hfs & Hf & Hp). apply in_app_or in Hfs as [Hfs|[Heq|[]]]; [left; eauto|]. injection Heq as <- <-. right. split; [reflexivity|eauto].
  - exists d. split; [exact Hd|exact HI].
Qed.

(** ** tuples of vertices *)
Lemma vert_tuples_ok mid shape : shape <> [] -> exists tuples, vert_tuples shape (length (vkeys mid shape (pred_shape shape))) = Ok tuples /\
  forall v k a vf, nth_error (vkeys mid shape (pred_shape shape)) v = Some k -> a < length shape -> exists b, on_side tuples a vf v = Ok b /\ (b = true <-> nth_error k a = Some (2 * vf)).
Proof.
  intros Hs. unfold vert_tuples. destruct (mapM_total (fun itup => i <- ravel shape itup ;; Ok (i, Some itup)) (ndindex shape)) as (asg & Hasg).
  { intros t Ht. destruct (ravel_total shape t) as (i & Hi); [now apply In_ndindex|]. rewrite Hi. cbn [bind]. eauto. }
  rewrite Hasg. cbn [bind]. apply mapM_ok in Hasg.
  assert (Hel : forall i t, In (i, t) asg -> exists itup, t = Some itup /\ nth_error (ndindex shape) i = Some itup).
  { intros i t Hin. destruct (Forall2_In_r _ _ _ _ Hasg Hin) as (itup & _ & Hb). apply bind_ok in Hb as (j & Hj & Heq). injection Heq as <- <-. exists itup. split; [reflexivity|now apply ravel_nth]. }
  assert (Hhas : forall i itup, nth_error (ndindex shape) i = Some itup -> In (i, Some itup) asg).
  { intros i itup Hi. destruct (Forall2_In_l _ _ _ _ Hasg (nth_error_In _ _ Hi)) as ((j, t) & Hin & Hb). apply bind_ok in Hb as (j' & Hj & Heq). injection Heq as <- <-. apply ravel_nth in Hi. assert (j' = i) by congruence. subst. exact Hin. }
  assert (Hnd : NoDup (map fst asg)).
  { apply NoDup_nth_error. intros i j Hi Hij. rewrite map_length in Hi. rewrite !nth_error_map in Hij. destruct (nth_exists asg i Hi) as ((x, t) & Hx). rewrite Hx in Hij. cbn in Hij. destruct (nth_error asg j) as [(y, u)|] eqn:Hy; [|discriminate]. cbn in Hij. injection Hij as <-.
    destruct (Forall2_nth_error_r _ _ _ _ _ Hasg Hx) as (t1 & Ht1 & Hb1). destruct (Forall2_nth_error_r _ _ _ _ _ Hasg Hy) as (t2 & Ht2 & Hb2). apply bind_ok in Hb1 as (i1 & Hr1 & E1). apply bind_ok in Hb2 as (i2 & Hr2 & E2).
    injection E1 as -> _. injection E2 as -> _. apply ravel_nth in Hr1, Hr2. refine (proj1 (NoDup_nth_error (ndindex shape)) (NoDup_ndindex shape) i j _ _); [apply nth_error_Some; congruence|congruence]. }
  assert (Hlen : size shape <= length (vkeys mid shape (pred_shape shape))) by (unfold vkeys; rewrite app_length, map_length, length_ndindex; lia).
  destruct (proj2 (scatter_ok_range asg (repeat None (length (vkeys mid shape (pred_shape shape)))))) as (tuples & Htup).
  { apply Forall_forall. intros (i, t) Hin. cbn [fst]. rewrite repeat_length. destruct (Hel _ _ Hin) as (itup & _ & Hi). assert (i < length (ndindex shape)) by (apply nth_error_Some; congruence). rewrite length_ndindex in H. lia. }
  exists tuples. split; [exact Htup|]. intros v k a vf Hk Ha. unfold on_side, vkeys in *. destruct (Nat.lt_ge_cases v (size shape)) as [Hv|Hv].
  - rewrite nth_error_app1 in Hk by (rewrite map_length, length_ndindex; exact Hv). rewrite nth_error_map in Hk. destruct (nth_error (ndindex shape) v) as [itup|] eqn:Hi; [|discriminate]. cbn in Hk. injection Hk as <-.
    rewrite (proj2 (get_ok _ _ _) (scatter_in _ _ _ _ _ Htup Hnd (Hhas _ _ Hi))). cbn [bind]. pose proof (nth_error_In _ _ Hi) as Hin. apply In_ndindex, Forall2_length' in Hin.
    destruct (nth_exists itup a) as (x & Hx); [lia|]. rewrite (proj2 (get_ok _ _ _) Hx). cbn [bind]. eexists. split; [reflexivity|]. unfold dbl. rewrite nth_error_map, Hx. cbn [option_map]. rewrite Nat.eqb_eq. split; [intros ->; reflexivity|intros H; injection H; lia].
  - assert (Hlt : v < length (repeat (@None (list nat)) (length (vkeys mid shape (pred_shape shape))))) by (rewrite repeat_length; apply nth_error_Some; unfold vkeys; congruence).
    assert (Hnone : nth_error tuples v = Some None).
    { rewrite (scatter_notin _ _ _ v Htup); [rewrite repeat_length in Hlt; now apply nth_error_repeat|]. intros Hin. apply in_map_iff in Hin as ((i, t) & Heq & Hin). cbn in Heq. subst i. destruct (Hel _ _ Hin) as (itup & _ & Hi). assert (v < length (ndindex shape)) by (apply nth_error_Some; congruence). rewrite length_ndindex in H. lia. }
    rewrite (proj2 (get_ok _ _ _) Hnone). cbn [bind]. exists false. split; [reflexivity|]. split; [discriminate|]. intros H. exfalso.
    rewrite nth_error_app2 in Hk by (rewrite map_length, length_ndindex; exact Hv). destruct mid; [|rewrite map_length in Hk; destruct (v - length (ndindex shape)); discriminate].
    rewrite nth_error_map in Hk. destruct (nth_error (ndindexF (pred_shape shape)) _) as [t|]; [|discriminate]. cbn in Hk. injection Hk as <-. unfold dbl1 in H. rewrite nth_error_map in H. destruct (nth_error t a); [|discriminate]. cbn in H. injection H as H. lia.
Qed.

(** ** elements at the sides *)
(** the subelements listed for a side contain all that have a face there; a face is on at most one side of its cell *)
Definition side_check (table : list (list corner)) (facets : list (list nat)) (d : nat) (offsets : side -> list nat) : bool :=
  forallb (fun p : nat * nat * list (list nat) =>
    forallb (fun s : side => implb (all_at (snd s) (if fst s then 2 else 0) (snd p)) (memb (fst (fst p)) (offsets s))) (box_faces d) &&
    forallb (fun s : side => forallb (fun s' : side =>
      implb (all_at (snd s) (if fst s then 2 else 0) (snd p) && all_at (snd s') (if fst s' then 2 else 0) (snd p)) (side_eqb s s')) (box_faces d)) (box_faces d))
    (lfaces d table facets).

Lemma In_box_faces d s : In s (box_faces d) <-> snd s < d.
Proof.
  unfold box_faces. rewrite in_flat_map. split.
  - intros (a & Ha & Hs). apply in_seq in Ha. destruct Hs as [<-|[<-|[]]]; cbn; lia.
  - intros H. exists (snd s). split; [apply in_seq; lia|]. destruct s as ([], a); cbn; auto.
Qed.

Record sides_spec (shape : list nat) (table : list (list corner)) (offsets : side -> list nat) (nrows : nat) (elems : list (side * list nat)) : Prop := mk_sides {
  ss_sides : map fst elems = box_faces (length shape);
  ss_range : forall s es e, In (s, es) elems -> In e es -> e < nrows;
  ss_all : forall s es c t m off, In (s, es) elems -> nth_error (ndindex (pred_shape shape)) c = Some t -> nth_error (pred_shape shape) (snd s) = Some m ->
    nth_error t (snd s) = Some (if fst s then m - 1 else 0) -> In off (offsets s) -> In (length table * c + off) es }.

Section Tags.
  Context {E : Type}.
  Variables (mid : bool) (shape : list nat) (nv : nat) (table : list (list corner)) (facets fvi : list (list nat)) (rows : list (list nat)) (nodes : list E).
  Hypothesis Hshape : shape <> [].
  Hypothesis Hrows : rows_spec mid shape table rows.
  Hypothesis Hcheck : conf_check (length shape) nv table facets = true.
  Hypothesis Hfvi : enumerates fvi facets.
  Hypothesis Hnodes : length nodes = length rows.
  Variable offsets : side -> list nat.
  Hypothesis Hside : side_check table facets (length shape) offsets = true.
  Variable elems : list (side * list nat).
  Hypothesis Helems : sides_spec shape table offsets (length rows) elems.
  Variable tuples : list (option (list nat)).
  Hypothesis Htuples : forall v k a vf, nth_error (vkeys mid shape (pred_shape shape)) v = Some k -> a < length shape -> exists b, on_side tuples a vf v = Ok b /\ (b = true <-> nth_error k a = Some (2 * vf)).
  Variable tags : list (side * list btag).
  Notation keys := (vkeys mid shape (pred_shape shape)).
  Notation groups := [mk_egroup (Some rows) nodes fvi].

  (** all vertices of [vs] are on side [s] of the grid *)
  Definition vs_on (s : side) (vs : list nat) : Prop :=
    exists m, nth_error (pred_shape shape) (snd s) = Some m /\ forall v, In v vs -> exists k, nth_error keys v = Some k /\ nth_error k (snd s) = Some (if fst s then 2 * m else 0).

  Lemma row_facts e row f ref : nth_error rows e = Some row -> nth_error fvi f = Some ref -> exists vs, take row ref = Ok vs /\ face_verts groups (0, e, f) vs /\ forall v, In v vs -> exists k, nth_error keys v = Some k.
  Proof.
    intros Hr Hf. destruct (rs_inv _ _ _ _ _ _ Hrows Hr) as (c & t & s & cs & -> & Ht & Hs & HF).
    destruct (facet_of facets fvi Hfvi f ref Hf) as (f0 & ref0 & H0 & HP). assert (Hlen : length row = nv). { rewrite <- (Forall2_length' _ _ _ HF). eapply chk_len; eauto using nth_error_In. }
    destruct (take_total row ref) as (vs & Hvs). { rewrite Hlen. eapply ref_lt; eauto using nth_error_In. }
    exists vs. split; [exact Hvs|]. split.
    - eexists. exists row, ref. split; [reflexivity|]. split; [|split; [exact Hf|now apply take_ok]]. eexists. exists rows. split; [reflexivity|]. split; [reflexivity|]. split; [|exact Hr]. unfold nelements. cbn [eg_nodes]. rewrite Hnodes. apply nth_error_Some. congruence.
    - intros v Hv. apply take_ok in Hvs. destruct (Forall2_In_r _ _ _ _ Hvs Hv) as (k & _ & Hk). cbn beta in Hk. destruct (Forall2_nth_error_r _ _ _ _ _ HF Hk) as (cn & _ & Hkey). eauto.
  Qed.

  Lemma tag_ref_face_ok s m ts es f ref : snd s < length shape -> nth_error (pred_shape shape) (snd s) = Some m -> (forall e, In e es -> e < length rows) -> nth_error fvi f = Some ref ->
    exists lx, (forall vs ts', In (vs, ts') lx <-> ts' = ts /\ exists e, In e es /\ face_verts groups (0, e, f) vs /\ vs_on s vs) /\
      forall m0, tag_ref_face rows tuples (snd s) (if fst s then m else 0) ts es m0 ref = Ok (st_all lx m0).
  Proof.
    intros Hsd Hm Hes Hf. unfold tag_ref_face.
    destruct (mapM_total (fun e => row <- get rows e ;; take row ref) es) as (fvis & Hfvis).
    { intros e He. destruct (nth_exists rows e (Hes e He)) as (row & Hr). rewrite (proj2 (get_ok _ _ _) Hr). cbn [bind]. destruct (row_facts e row f ref Hr Hf) as (vs & Hvs & _). eauto. }
    rewrite Hfvis. cbn [bind]. apply mapM_ok in Hfvis.
    assert (Hel : forall i vs, nth_error fvis i = Some vs -> exists e, nth_error es i = Some e /\ face_verts groups (0, e, f) vs /\ forall v, In v vs -> exists k, nth_error keys v = Some k).
    { intros i vs Hi. destruct (Forall2_nth_error_r _ _ _ _ _ Hfvis Hi) as (e & He & Hb). exists e. split; [exact He|]. apply bind_ok in Hb as (row & Hr & Hvs). apply get_ok in Hr. destruct (row_facts e row f ref Hr Hf) as (vs' & Hvs' & Hfv & Hk). assert (vs' = vs) by congruence. subst. auto. }
    assert (Hflag : forall vs, (forall v, In v vs -> exists k, nth_error keys v = Some k) -> exists b, (bs <- mapM (on_side tuples (snd s) (if fst s then m else 0)) vs ;; Ok (forallb (fun b => b) bs)) = Ok b /\ (b = true <-> vs_on s vs)).
    { intros vs Hk. destruct (mapM_total (on_side tuples (snd s) (if fst s then m else 0)) vs) as (bs & Hbs). { intros v Hv. destruct (Hk v Hv) as (k & Hkv). destruct (Htuples v k (snd s) (if fst s then m else 0) Hkv Hsd) as (b & Hb & _). eauto. }
      rewrite Hbs. cbn [bind]. apply mapM_ok in Hbs. eexists. split; [reflexivity|]. rewrite forallb_forall. split.
      - intros H. exists m. split; [exact Hm|]. intros v Hv. destruct (Hk v Hv) as (k & Hkv). exists k. split; [exact Hkv|]. destruct (Forall2_In_l _ _ _ _ Hbs Hv) as (b & Hbin & Hb). destruct (Htuples v k (snd s) (if fst s then m else 0) Hkv Hsd) as (b' & Hb' & Hiff). assert (b' = b) by congruence. subst b'.
        rewrite (H b Hbin) in Hiff. rewrite (proj1 Hiff eq_refl). f_equal. destruct (fst s); lia.
      - intros (m' & Hm' & Hall) b Hb. assert (m' = m) by congruence. subst m'. destruct (Forall2_In_r _ _ _ _ Hbs Hb) as (v & Hv & Hbv). destruct (Hall v Hv) as (k & Hkv & Hka). destruct (Htuples v k (snd s) (if fst s then m else 0) Hkv Hsd) as (b' & Hb' & Hiff). assert (b' = b) by congruence. subst b'.
        apply Hiff. rewrite Hka. f_equal. destruct (fst s); lia. }
    destruct (mapM_total (fun fvi0 => bs <- mapM (on_side tuples (snd s) (if fst s then m else 0)) fvi0 ;; Ok (forallb (fun b => b) bs)) fvis) as (flags & Hflags).
    { intros vs Hvs. apply In_nth_error in Hvs as (i & Hi). destruct (Hel i vs Hi) as (e & _ & _ & Hk). destruct (Hflag vs Hk) as (b & Hb & _). eauto. }
    rewrite Hflags. cbn [bind]. apply mapM_ok in Hflags. exists (map (fun vs => (vs, ts)) (compress flags fvis)). split.
    - intros vs ts'. rewrite in_map_iff. split.
      + intros (vs' & Heq & Hin). injection Heq as -> <-. split; [reflexivity|]. apply In_compress in Hin as (i & Hfl & Hi). destruct (Hel i vs Hi) as (e & He & Hfv & Hk). exists e. split; [eapply nth_error_In; eauto|]. split; [exact Hfv|].
        destruct (Forall2_nth_error _ _ _ _ _ Hflags Hi) as (b & Hb & Heqb). destruct (Hflag vs Hk) as (b' & Hb' & Hiff). assert (b' = b) by congruence. subst b'. apply Hiff. congruence.
      + intros (-> & e & He & Hfv & Hon). exists vs. split; [reflexivity|]. apply In_nth_error in He as (i & Hi). destruct (Forall2_nth_error _ _ _ _ _ Hfvis Hi) as (vs' & Hvs' & _). destruct (Hel i vs' Hvs') as (e' & He' & Hfv' & Hk). assert (e' = e) by congruence. subst e'.
        assert (vs' = vs). { destruct Hfv as (g1 & r1 & f1 & A1 & (g1' & v1 & A2 & A3 & _ & A4) & A5 & A6), Hfv' as (g2 & r2 & f2 & B1 & (g2' & v2 & B2 & B3 & _ & B4) & B5 & B6). cbn in A1, A2, B1, B2. injection A1 as <-. injection A2 as <-. injection B1 as <-. injection B2 as <-. cbn in A3, A5, B3, B5. injection A3 as <-. injection B3 as <-.
          assert (r1 = r2) by congruence. assert (f1 = f2) by congruence. subst. eapply Forall2_fun; [|exact B6|exact A6]. intros ? ? ? X Y. cbn beta in *. congruence. }
        subst vs'. apply In_compress. exists i. split; [|exact Hvs']. destruct (Forall2_nth_error _ _ _ _ _ Hflags Hvs') as (b & Hb & Heqb). destruct (Hflag vs Hk) as (b' & Hb' & Hiff). assert (b' = b) by congruence. subst b'. rewrite Hb. f_equal. now apply Hiff.
    - intros m0. f_equal. unfold st_all. generalize (compress flags fvis). intros l. revert m0. induction l as [|x l IH]; intros m0; [reflexivity|]. cbn [fold_left map fst snd]. apply IH.
  Qed.

  Lemma nth_shape_pred a n : nth_error shape a = Some n -> nth_error (pred_shape shape) a = Some (n - 1).
  Proof. intros H. now rewrite nth_error_map, H. Qed.

  Lemma face_tags_asgs : exists m asgs, face_tags shape rows fvi tuples elems tags = Ok m /\ m = st_all asgs [] /\
    forall vs ts, In (vs, ts) asgs <-> exists s es e f, In (s, es) elems /\ side_tags tags s = Some ts /\ In e es /\ face_verts groups (0, e, f) vs /\ vs_on s vs.
  Proof.
    unfold face_tags.
    destruct (foldM_st (fun m (se : side * list nat) => match side_tags tags (fst se) with | None => Ok m | Some ts => n <- get shape (snd (fst se)) ;; let vert_face := if fst (fst se) then n - 1 else 0 in foldM (tag_ref_face rows tuples (snd (fst se)) vert_face ts (snd se)) fvi m end)
      (fun se lx => forall vs ts, In (vs, ts) lx <-> side_tags tags (fst se) = Some ts /\ exists e f, In e (snd se) /\ face_verts groups (0, e, f) vs /\ vs_on (fst se) vs) elems) as (ls & HF & Hls).
    - intros (s, es) Hin. cbn [fst snd]. destruct (side_tags tags s) as [ts|] eqn:Hts; [|exists []; split; [intros vs ts; split; [intros []|intros (H & _); discriminate]|reflexivity]].
      assert (Hsd : snd s < length shape). { apply In_box_faces. rewrite <- (ss_sides _ _ _ _ _ Helems). apply in_map_iff. exists (s, es). auto. }
      destruct (nth_exists shape (snd s) Hsd) as (n & Hn). pose proof (nth_shape_pred _ _ Hn) as Hm.
      destruct (foldM_st (tag_ref_face rows tuples (snd s) (if fst s then n - 1 else 0) ts es) (fun ref lx => forall vs ts', In (vs, ts') lx <-> ts' = ts /\ exists e f, nth_error fvi f = Some ref /\ In e es /\ face_verts groups (0, e, f) vs /\ vs_on s vs) fvi) as (lr & HFr & Hlr).
      + intros ref Href. apply In_nth_error in Href as (f & Hf). destruct (tag_ref_face_ok s (n - 1) ts es f ref Hsd Hm (fun e He => ss_range _ _ _ _ _ Helems s es e Hin He) Hf) as (lx & Hlx & Heq). exists lx. split; [|exact Heq].
        intros vs ts'. rewrite Hlx. split; intros (-> & H); (split; [reflexivity|]).
        * destruct H as (e & He & Hfv & Hon). exists e, f. auto.
        * destruct H as (e & f' & Hf' & He & Hfv & Hon). exists e. split; [exact He|]. split; [|exact Hon].
          destruct Hfv as (g1 & r1 & f1 & A1 & A2 & A5 & A6). exists g1, r1, f1. split; [exact A1|]. split; [exact A2|]. split; [|exact A6]. cbn in A1. injection A1 as <-. cbn [eg_fvi] in *. congruence.
      + exists (concat lr). split.
        * intros vs ts'. rewrite in_concat. split.
          -- intros (lx & Hlx & Hin'). destruct (Forall2_In_r _ _ _ _ HFr Hlx) as (ref & _ & Hg). pose proof (proj1 (Hg _ _) Hin') as (-> & e & f & _ & H). split; [reflexivity|eauto].
          -- intros (Heq & e & f & He & Hfv & Hon). injection Heq as <-. pose proof Hfv as (g1 & r1 & ref & A1 & _ & A5 & _). cbn in A1. injection A1 as <-. cbn [eg_fvi] in A5.
             destruct (Forall2_In_l _ _ _ _ HFr (nth_error_In _ _ A5)) as (lx & Hlx & Hg). exists lx. split; [exact Hlx|]. apply Hg. split; [reflexivity|]. exists e, f. auto.
        * intros m. rewrite (proj2 (get_ok _ _ _) Hn). cbn [bind]. apply Hlr.
    - exists (st_all (concat ls) []), (concat ls). split; [exact (Hls [])|]. split; [reflexivity|]. intros vs ts. rewrite in_concat. split.
      + intros (lx & Hlx & Hin). destruct (Forall2_In_r _ _ _ _ HF Hlx) as ((s, es) & Hse & Hg). pose proof (proj1 (Hg _ _) Hin) as (Hts & e & f & He & Hfv & Hon). cbn [fst snd] in *. exists s, es, e, f. auto.
      + intros (s & es & e & f & Hse & Hts & He & Hfv & Hon). destruct (Forall2_In_l _ _ _ _ HF Hse) as (lx & Hlx & Hg). exists lx. split; [exact Hlx|]. apply Hg. cbn [fst snd]. split; [exact Hts|]. exists e, f. auto.
  Qed.
  (** a face is on a side of the grid iff its cell is, and it is on that side of its cell *)
  Lemma vs_on_same s vs vs' : same_set vs vs' -> vs_on s vs -> vs_on s vs'.
  Proof. intros Hs (m & Hm & H). exists m. split; [exact Hm|]. intros v Hv. apply H. now apply Hs. Qed.

  Lemma vs_on_place t P vs s : lists mid shape t P vs -> (vs_on s vs <-> exists m, nth_error (pred_shape shape) (snd s) = Some m /\ forall x, In x P -> nth_error (place t x) (snd s) = Some (if fst s then 2 * m else 0)).
  Proof.
    intros (ks & HF & HP). split; intros (m & Hm & H); exists m; (split; [exact Hm|]).
    - intros x Hx. assert (Hin : In (place t x) ks) by (eapply Permutation_in; [apply Permutation_sym, HP|now apply in_map]).
      destruct (Forall2_In_r _ _ _ _ HF Hin) as (v & Hv & Hk). destruct (H v Hv) as (k & Hk' & Hka). cbn beta in Hk. congruence.
    - intros v Hv. destruct (Forall2_In_l _ _ _ _ HF Hv) as (k & Hk & Hkv). exists k. split; [exact Hkv|]. apply (Permutation_in _ HP) in Hk. apply in_map_iff in Hk as (x & <- & Hx). auto.
  Qed.

  Lemma vs_on_local e f vs t c f0 P (s : side) : is_face shape table facets fvi e f t c f0 P -> lists mid shape t P vs -> vs_on s vs ->
    exists m, snd s < length shape /\ nth_error (pred_shape shape) (snd s) = Some m /\ nth_error t (snd s) = Some (if fst s then m - 1 else 0) /\ all_at (snd s) (if fst s then 2 else 0) P = true.
  Proof.
    intros Hf Hl Hon. apply (vs_on_place _ _ _ _ Hl) in Hon. destruct Hon as (m & Hm & H). destruct (is_face_lface _ _ _ _ _ _ _ _ _ _ Hf) as (Hlf & Ht & Hlen).
    assert (Hlt : snd s < length shape). { rewrite <- (map_length (fun n => n - 1) shape). apply nth_error_Some. congruence. }
    destruct (nth_exists t (snd s)) as (x & Hx); [rewrite Hlen; exact Hlt|].
    destruct (side_local shape nv table facets rows nodes Hcheck Hnodes t c f0 P (snd s) x m Hlf Ht Hx Hm) as (Hlo & Hhi).
    exists m. split; [exact Hlt|]. split; [exact Hm|]. destruct (fst s).
    - destruct (proj1 Hhi H) as (Hx' & Ha). split; [rewrite Hx; f_equal; lia|exact Ha].
    - destruct (proj1 Hlo H) as (Hx' & Ha). split; [rewrite Hx; f_equal; lia|exact Ha].
  Qed.

  Lemma side_facts c f0 P (s : side) : In (c, f0, P) (lfaces (length shape) table facets) -> snd s < length shape -> all_at (snd s) (if fst s then 2 else 0) P = true ->
    In c (offsets s) /\ forall s' : side, snd s' < length shape -> all_at (snd s') (if fst s' then 2 else 0) P = true -> s = s'.
  Proof.
    intros Hl Hs Ha. unfold side_check in Hside. rewrite forallb_forall in Hside. specialize (Hside _ Hl). cbn [fst snd] in Hside. apply andb_true_iff in Hside as (H1 & H2). rewrite forallb_forall in H1, H2.
    assert (Hin : In s (box_faces (length shape))) by now apply In_box_faces. split.
    - specialize (H1 s Hin). rewrite Ha in H1. cbn [implb] in H1. now apply memb_In.
    - intros s' Hs' Ha'. specialize (H2 s Hin). rewrite forallb_forall in H2. specialize (H2 s' (proj2 (In_box_faces _ _) Hs')). rewrite Ha, Ha' in H2. cbn [implb andb] in H2. now apply side_eqb_eq.
  Qed.

  Lemma side_unique a vs s s' : face_verts groups a vs -> vs_on s vs -> vs_on s' vs -> s = s'.
  Proof.
    intros Hfv H H'. destruct a as ((i, e), f). assert (i = 0). { destruct Hfv as (g & r & ref & Hg & _). cbn in Hg. destruct i as [|[|]]; [reflexivity|discriminate|discriminate]. } subst i.
    destruct (face_verts_lists mid shape nv table facets fvi rows nodes Hshape Hrows Hcheck Hfvi Hnodes e f vs Hfv) as (t & c & f0 & P & Hf & Hl).
    destruct (vs_on_local _ _ _ _ _ _ _ _ Hf Hl H) as (m & Hlt & _ & _ & Ha). destruct (vs_on_local _ _ _ _ _ _ _ _ Hf Hl H') as (m' & Hlt' & _ & _ & Ha').
    destruct (is_face_lface _ _ _ _ _ _ _ _ _ _ Hf) as (Hlf & _). destruct (side_facts c f0 P s Hlf Hlt Ha) as (_ & Hu). now apply Hu.
  Qed.

  Lemma face_tags_ok : exists m, face_tags shape rows fvi tuples elems tags = Ok m /\ keys_distinct m /\
    (forall k ts t, In (k, ts) m -> In t ts -> exists s, tagged tags s t) /\
    forall a t, tag_assigned groups m a t <-> exists s vs, face_verts groups a vs /\ vs_on s vs /\ tagged tags s t.
  Proof.
    destruct face_tags_asgs as (m & asgs & Hm & Heq & Hasg). exists m. split; [exact Hm|].
    assert (Hback : forall k ts, In (k, ts) m -> exists vs s es e f, same_set k vs /\ In (s, es) elems /\ side_tags tags s = Some ts /\ face_verts groups (0, e, f) vs /\ vs_on s vs).
    { intros k ts Hin. rewrite Heq in Hin. apply st_all_In in Hin as [[]|(vs & Hin & Hs)]. destruct (proj1 (Hasg _ _) Hin) as (s & es & e & f & H1 & H2 & _ & H3 & H4). exists vs, s, es, e, f. auto. }
    assert (Huniq : forall k ts k' ts', In (k, ts) m -> In (k', ts') m -> same_set k k' -> ts = ts').
    { intros k ts k' ts' Hk Hk' Hs. destruct (Hback _ _ Hk) as (vs & s & es & e & f & Hs1 & _ & Ht1 & Hf1 & Ho1). destruct (Hback _ _ Hk') as (vs' & s' & es' & e' & f' & Hs2 & _ & Ht2 & Hf2 & Ho2).
      assert (s = s'). { eapply side_unique; [exact Hf1|exact Ho1|]. eapply vs_on_same; [|exact Ho2]. intros v. rewrite <- (Hs2 v), <- (Hs v), (Hs1 v). reflexivity. } subst s'. congruence. }
    split; [exact Huniq|]. split.
    - intros k ts t Hin Ht. destruct (Hback _ _ Hin) as (vs & s & es & e & f & _ & _ & Hts & _). exists s, ts. auto.
    - intros a t. split.
      + intros (k & ts & vs & Hin & Ht & Hfv & Hs). destruct (Hback _ _ Hin) as (vs' & s & es & e & f & Hs' & _ & Hts & _ & Hon). exists s, vs. split; [exact Hfv|]. split; [|exists ts; auto].
        eapply vs_on_same; [|exact Hon]. intros v. rewrite <- (Hs' v), (Hs v). reflexivity.
      + intros (s & vs & Hfv & Hon & ts & Hts & Ht). destruct a as ((i, e), f). assert (i = 0). { destruct Hfv as (g & r & ref & Hg & _). cbn in Hg. destruct i as [|[|]]; [reflexivity|discriminate|discriminate]. } subst i.
        destruct (face_verts_lists mid shape nv table facets fvi rows nodes Hshape Hrows Hcheck Hfvi Hnodes e f vs Hfv) as (tt & c & f0 & P & Hf & Hl).
        destruct (vs_on_local _ _ _ _ _ _ _ _ Hf Hl Hon) as (mm & Hlt & Hmm & Htx & Ha). destruct (is_face_lface _ _ _ _ _ _ _ _ _ _ Hf) as (Hlf & _). destruct (side_facts c f0 P s Hlf Hlt Ha) as (Hoff & _).
        assert (Hse : In s (map fst elems)) by (rewrite (ss_sides _ _ _ _ _ Helems); now apply In_box_faces). apply in_map_iff in Hse as ((s', es) & Heqs & Hse). cbn [fst] in Heqs. subst s'.
        destruct Hf as (ci & cs & ref & ref0 & -> & Hci & _).
        assert (Hin : In (vs, ts) asgs). { apply Hasg. exists s, es, (length table * ci + c), f. split; [exact Hse|]. split; [exact Hts|]. split; [|auto]. exact (ss_all _ _ _ _ _ Helems s es ci tt mm c Hse Hci Hmm Htx Hoff). }
        destruct (st_all_has asgs [] vs ts Hin) as (k & ts' & Hk & Hs). rewrite <- Heq in Hk. destruct (Hback _ _ Hk) as (vs' & s' & es' & e' & f' & Hs' & _ & Hts' & Hfv' & Hon').
        assert (s = s'). { eapply side_unique; [exact Hfv|exact Hon|]. eapply vs_on_same; [|exact Hon']. intros v. rewrite <- (Hs' v), (Hs v). reflexivity. } subst s'.
        exists k, ts', vs. split; [exact Hk|]. split; [congruence|]. split; [exact Hfv|exact Hs].
  Qed.
End Tags.

(** ** the tables of the code *)
Lemma side_checks : (forallb (fun p : nat * bool * cellplan => side_check (cp_table (snd p)) (facets_of (fst (fst p)) (snd (fst p))) (fst (fst p)) (cp_offsets (snd p)))
   [(2, true, quad_plan); (2, false, tri_plan); (2, false, x_plan); (3, true, hex_plan); (3, false, tet_plan)]) = true.
Proof. vm_compute. reflexivity. Qed.
Lemma seg_side_check b : side_check seg_table (facets_of 1 b) 1 (fun _ => [0]) = true.
Proof. destruct b; vm_compute; reflexivity. Qed.

Lemma face_elements_sides shape (table : list (list corner)) offsets : (forall s off, In off (offsets s) -> off < length table) ->
  exists elems, mapM (fun s => es <- face_elements (pred_shape shape) (length table) offsets s ;; Ok (s, es)) (box_faces (length shape)) = Ok elems /\
    sides_spec shape table offsets (length table * size (pred_shape shape)) elems.
Proof.
  intros Hoff. set (sm := pred_shape shape).
  assert (Hfe : forall s, In s (box_faces (length shape)) -> exists es, face_elements sm (length table) offsets s = Ok es /\
    (forall e, In e es -> e < length table * size sm) /\
    (forall c t m off, nth_error (ndindex sm) c = Some t -> nth_error sm (snd s) = Some m -> nth_error t (snd s) = Some (if fst s then m - 1 else 0) -> In off (offsets s) -> In (length table * c + off) es)).
  { intros s Hs. apply In_box_faces in Hs. unfold face_elements. destruct (nth_exists sm (snd s)) as (m & Hm); [unfold sm; now rewrite map_length|]. rewrite (proj2 (get_ok _ _ _) Hm). cbn [bind].
    destruct (mapM_total (fun t => i <- get t (snd s) ;; Ok (i =? (if fst s then m - 1 else 0))) (ndindex sm)) as (hits & Hhits).
    { intros t Ht. apply In_ndindex, Forall2_length' in Ht. destruct (nth_exists t (snd s)) as (i & Hi); [rewrite Ht; unfold sm; now rewrite map_length|]. rewrite (proj2 (get_ok _ _ _) Hi). cbn [bind]. eauto. }
    rewrite Hhits. cbn [bind]. eexists. split; [reflexivity|]. apply mapM_ok in Hhits. split.
    - intros e He. apply in_concat in He as (l & Hl & He). apply in_map_iff in Hl as (off & <- & Ho). apply in_map_iff in He as (c & <- & Hc). apply In_where_ in Hc. cbn beta in Hc.
      destruct (Forall2_nth_error_r _ _ _ _ _ Hhits Hc) as (t & Ht & _). specialize (Hoff s off Ho). assert (c < size sm). { rewrite <- (length_ndindex sm). apply nth_error_Some. congruence. } nia.
    - intros c t m' off Ht Hm' Htx Ho. assert (m' = m) by congruence. subst m'. apply in_concat. eexists. split; [apply in_map; exact Ho|]. apply in_map_iff. exists c. split; [reflexivity|]. apply In_where_.
      destruct (Forall2_nth_error _ _ _ _ _ Hhits Ht) as (b & Hb & Heq). rewrite (proj2 (get_ok _ _ _) Htx) in Heq. cbn [bind] in Heq. injection Heq as <-. rewrite Hb. now rewrite Nat.eqb_refl. }
  destruct (mapM_total (fun s => es <- face_elements sm (length table) offsets s ;; Ok (s, es)) (box_faces (length shape))) as (elems & He).
  { intros s Hs. destruct (Hfe s Hs) as (es & Hes & _). rewrite Hes. cbn [bind]. eauto. }
  exists elems. split; [exact He|]. apply mapM_ok in He.
  assert (Hin : forall s es, In (s, es) elems -> In s (box_faces (length shape)) /\ face_elements sm (length table) offsets s = Ok es).
  { intros s es H. destruct (Forall2_In_r _ _ _ _ He H) as (s0 & Hs0 & Hb). apply bind_ok in Hb as (es0 & Hes0 & Heq). injection Heq as <- <-. auto. }
  constructor.
  - clear Hin. induction He as [|s se l l' Hb _ IH]; [reflexivity|]. apply bind_ok in Hb as (es0 & _ & Heq). injection Heq as <-. cbn [map fst]. f_equal. apply IH. intros x Hx. apply Hfe. now right.
  - intros s es e H Hes. destruct (Hin s es H) as (Hs & Heq). destruct (Hfe s Hs) as (es' & Heq' & Hr & _). assert (es' = es) by congruence. subst. now apply Hr.
  - intros s es c t m off H. destruct (Hin s es H) as (Hs & Heq). destruct (Hfe s Hs) as (es' & Heq' & _ & Hr). assert (es' = es) by congruence. subst. apply Hr.
Qed.

Lemma seg_sides n : 2 <= n -> sides_spec [n] seg_table (fun _ => [0]) (n - 1) [((false, 0), [0]); ((true, 0), [n - 1 - 1])].
Proof.
  intros Hn. constructor.
  - reflexivity.
  - intros s es e [H|[H|[]]]; injection H as <- <-; intros [<-|[]]; lia.
  - intros s es c t m off Hin Ht Hm Htx Ho. cbn [map] in *. rewrite ndindex1, nth_error_map, nth_error_seq in Ht. destruct (Nat.ltb_spec c (n - 1)) as [Hc|]; [|discriminate]. cbn in Ht. injection Ht as <-.
    destruct Ho as [<-|[]]. destruct Hin as [H|[H|[]]]; injection H as <- <-; cbn in Hm, Htx |- *; injection Hm as <-; injection Htx as ->; left; lia.
Qed.
