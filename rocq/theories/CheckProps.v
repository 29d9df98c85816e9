(** * CheckProps: C171 and C172, what check_connection tells. *)
From Coq Require Import List Arith Bool Lia ZArith.
From Verif Require Import Np NpFacts Lin SplitProofs MeshModel ConnModel ConnSpec ConnProofs ConnFlatProofs ConnProps FaceConnModel FaceConnSpec FaceValProofs FaceConnProps CheckModel.
Import ListNotations.

Section Facts.
  Context {N K : Type}.
  Variable knfaces : K -> nat.

  (** the numbers of batch [b] are numbers of elements and faces *)
  Definition in_range (from : list (@dgroup K)) (tg : @dgroup K) (b : @batch N) : Prop :=
    exists g, nth_error from (bt_fgrp b) = Some g /\ (forall s, In s (bt_from b) -> s < dg_nel g) /\ (forall t, In t (bt_to b) -> t < dg_nel tg) /\
      forall f, bt_face b = Some f -> f < knfaces (dg_kind g).

  Lemma forallb_lt n l : forallb (fun i => i <? n) l = true <-> forall i, In i l -> i < n.
  Proof. rewrite forallb_forall. split; intros H i Hi; specialize (H i Hi); now apply Nat.ltb_lt. Qed.
  Lemma guard_ok b e : guard b e = Ok tt <-> b = true.
  Proof. destruct b; cbn; split; intros; congruence. Qed.

  Lemma check_batch_iff from tg b : check_batch knfaces from tg b = Ok tt <-> in_range from tg b.
  Proof.
    unfold check_batch, in_range. unfold get. destruct (nth_error from (bt_fgrp b)) as [g|]; cbn [bind]; [|split; [discriminate|intros (g & H & _); discriminate]]. split.
    - intros H. destruct (forallb _ (bt_from b)) eqn:E1; cbn [guard bind] in H; [|discriminate]. destruct (forallb _ (bt_to b)) eqn:E2; cbn [guard bind] in H; [|discriminate].
      exists g. split; [reflexivity|]. split; [now apply forallb_lt|]. split; [now apply forallb_lt|]. intros f Ef. rewrite Ef in H. apply guard_ok in H. now apply Nat.ltb_lt.
    - intros (g' & E & H1 & H2 & H3). injection E as <-. apply forallb_lt in H1, H2. rewrite H1, H2. cbn [guard bind]. destruct (bt_face b) as [f|]; [|reflexivity]. apply guard_ok, Nat.ltb_lt. auto.
  Qed.

  Lemma check_iff (c : @conn N K) : check_connection knfaces c = Ok tt <-> Forall2 (fun tg bs => Forall (in_range (cn_from c) tg) bs) (cn_to c) (cn_groups c).
  Proof.
    unfold check_connection. split.
    - intros H. destruct (Nat.eqb_spec (length (cn_groups c)) (length (cn_to c))) as [El|]; cbn [guard bind] in H; [|discriminate].
      destruct (mapM _ (combine (cn_groups c) (cn_to c))) as [us|] eqn:E; cbn [bind] in H; [|discriminate]. apply mapM_ok in E. apply Forall2_intro_nth; [congruence|].
      intros i tg bs Ht Hb. assert (Hc : nth_error (combine (cn_groups c) (cn_to c)) i = Some (bs, tg)) by now apply nth_error_combine'.
      destruct (Forall2_nth_error _ _ _ _ _ E Hc) as (u & _ & Eu). cbn [fst snd] in Eu. apply mapM_ok in Eu. apply Forall_forall. intros b Hin. destruct (Forall2_In_l _ _ _ _ Eu Hin) as ([] & _ & Hb'). now apply check_batch_iff.
    - intros H. pose proof (Forall2_length' _ _ _ H) as El. rewrite (proj2 (Nat.eqb_eq _ _)) by congruence. cbn [guard bind].
      destruct (mapM_total (fun cg => mapM (check_batch knfaces (cn_from c) (snd cg)) (fst cg)) (combine (cn_groups c) (cn_to c))) as (us & ->); [|reflexivity].
      intros [bs tg] Hin. cbn [fst snd]. apply mapM_total. intros b Hb. exists tt. apply check_batch_iff. apply In_nth_error in Hin as (i & Hi). apply nth_error_combine_Some in Hi as (H1 & H2).
      destruct (Forall2_nth_error _ _ _ _ _ H H2) as (bs' & Hb' & HF). assert (bs' = bs) by congruence. subst. rewrite Forall_forall in HF. auto.
  Qed.
End Facts.

(** C171: a connection that passes the test, whose batches list as many sources as targets and whose interpolation fits the discretizations, can be
    applied to every array on its source; and the connections made by make_face_restriction and make_same_mesh_connection pass. *)
Theorem C171_checked {R : cring} {N K} knfaces (rmat : K -> N -> list (list R)) rpick (c : @conn N K) ary :
  check_connection knfaces c = Ok tt ->
  (forall bs b, In bs (cn_groups c) -> In b bs -> length (bt_from b) = length (bt_to b)) ->
  Forall2 (fun tg bs => forall b g, In b bs -> nth_error (cn_from c) (bt_fgrp b) = Some g -> resamples rmat rpick (dg_kind g) (bt_nodes b) (dg_ndof g) (dg_ndof tg)) (cn_to c) (cn_groups c) ->
  Forall (few_lists rpick (cn_from c)) (cn_groups c) -> on_discr (cn_from c) ary ->
  exists r, on_discr (cn_to c) r /\ transports rmat rpick c ary r /\ forall eager nomerge, call R rmat rpick eager nomerge c ary = Ok r.
Proof.
  intros H Hl Hr Hf Ha. apply check_iff in H. destruct (C29_paths_agree rmat rpick c ary) as (r & H1 & H2 & H3 & _); [|exact Ha|exists r; auto].
  unfold conn_ok. apply Forall2_intro_nth; [exact (Forall2_length' _ _ _ H)|]. intros i tg bs Ht Hb. destruct (Forall2_nth_error _ _ _ _ _ H Ht) as (bs' & Hb' & HF). assert (bs' = bs) by congruence. subst.
  destruct (Forall2_nth_error _ _ _ _ _ Hr Ht) as (bs' & Hb'' & HR). assert (bs' = bs) by congruence. subst. split; [|rewrite Forall_forall in Hf; eapply Hf, nth_error_In; eauto].
  rewrite Forall_forall in *. intros b Hin. destruct (HF b Hin) as (g & Hg & Hs & Ht' & _). split; [eapply Hl; eauto using nth_error_In|]. split; [apply Forall_forall; exact Ht'|]. exists g. split; [exact Hg|]. split; [apply Forall_forall; exact Hs|]. exact (HR b g Hin Hg).
Qed.
Print Assumptions C171_checked.

Section Restriction.
  Context {E E' V A N K : Type}.
  Variables (dim : K -> nat) (factory : K -> K) (fnodes : K -> nat -> K -> N) (face_coords : K -> nat -> E -> E') (bfvi : K -> list (list nat))
    (store : nat -> nat) (garbage_row : nat -> list nat) (garbage_node : nat -> E').
  Theorem C171_restriction knfaces (groups : list (egroup E)) kinds (fags : list (list (fagrp A))) (vs : list V) r perface bvs bgs c :
    restrictable groups kinds fags vs perface -> known fags r -> (forall i, i < length vs -> store i = i) ->
    (forall g grp k, nth_error groups g = Some grp -> nth_error kinds g = Some k -> knfaces k = nfaces grp) ->
    make_face_restriction dim factory fnodes face_coords bfvi store garbage_row garbage_node (Some vs) groups kinds fags r perface = Ok (bvs, bgs, c) ->
    check_connection knfaces c = Ok tt.
  Proof using.
    intros Hb Hk Hs Hn Ec. destruct (C33_restriction dim factory fnodes face_coords bfvi store garbage_row garbage_node groups kinds fags vs r perface Hb Hk Hs) as (bvs' & bgs' & c' & Ec' & Hr).
    rewrite Ec in Ec'. injection Ec' as <- <- <-. apply check_iff.
    destruct (rt_sizes _ _ _ _ _ _ _ _ _ _ _ _ _ Hr) as (Hsz & Hlen). pose proof (Forall2_length' _ _ _ Hsz) as Hlsz.
    apply Forall2_intro_nth; [congruence|]. intros gb tg bs Htg Hbs. destruct (rt_batches _ _ _ _ _ _ _ _ _ _ _ _ _ Hr gb bs Hbs) as (_ & Hls).
    apply Forall_forall. intros b Hb'. destruct (rt_nodes _ _ _ _ _ _ _ _ _ _ _ _ _ Hr gb bs b Hbs Hb') as (grp & k & f & Hg & Hkk & Hf & Hbf & Hbn & Hgb).
    destruct (rt_to _ _ _ _ _ _ _ _ _ _ _ _ _ Hr _ grp k f Hg Hkk Hf) as (bg & Hbg & Hto). rewrite <- Hgb in Hbg, Hto. assert (tg = mk_dgroup (nelements bg) (dim (factory k)) (factory k)) by congruence. subst tg.
    assert (Hl : length (bt_from b) = length (bt_to b)) by (rewrite Forall_forall in Hls; auto).
    assert (Hp : forall t s, In (t, s) (combine (bt_to b) (bt_from b)) -> t < nelements bg /\ s < nelements grp).
    { intros t s Hts. destruct (rt_face _ _ _ _ _ _ _ _ _ _ _ _ _ Hr gb t (bt_fgrp b) s f) as (grp' & k' & x & bg' & rows & row & vsf & Hg' & _ & Hx & Hbg' & _ & _ & _ & Hlr & Hrow & _); [exists bs, b; auto|].
      assert (bg' = bg) by congruence. assert (grp' = grp) by congruence. subst. split; [rewrite <- Hlr|unfold nelements]; apply nth_error_Some; congruence. }
    exists (mk_dgroup (nelements grp) (dim k) k). split; [rewrite (rt_from _ _ _ _ _ _ _ _ _ _ _ _ _ Hr), nth_error_map, (nth_error_combine' _ _ _ _ _ Hg Hkk); reflexivity|]. cbn [dg_nel dg_kind]. split; [|split].
    - intros s Hs'. destruct (combine_targets (bt_from b) (bt_to b) s) as (t & Ht); [congruence|exact Hs'|]. apply In_combine_swap in Ht. exact (proj2 (Hp t s Ht)).
    - intros t Ht. destruct (combine_targets _ _ _ Hl Ht) as (s & Hs'). exact (proj1 (Hp t s Hs')).
    - intros f' Hf'. rewrite Hbf in Hf'. injection Hf' as <-. now rewrite (Hn _ _ _ Hg Hkk).
  Qed.
End Restriction.
Print Assumptions C171_restriction.

Theorem C171_same_mesh {N K} knfaces (unit_nodes : K -> N) (from to : list (@dgroup K)) c :
  Forall2 (fun f t => dg_nel f = dg_nel t) from to -> make_same_mesh unit_nodes true false to from = Ok (Direct c) -> check_connection knfaces c = Ok tt.
Proof.
  intros HF E. unfold make_same_mesh in E. cbn [guard bind] in E. rewrite (proj2 (Nat.eqb_eq _ _) (Forall2_length' _ _ _ HF)) in E. cbn [guard bind] in E. injection E as <-.
  apply check_iff. cbn [cn_from cn_to cn_groups]. apply Forall2_intro_nth; [rewrite map_length, length_enumerate, combine_length, (Forall2_length' _ _ _ HF); lia|].
  intros i tg bs Ht Hb. rewrite nth_error_map, nth_error_enumerate in Hb. destruct (nth_error (combine from to) i) as [[f t]|] eqn:Ec; [|discriminate]. cbn [option_map] in Hb. injection Hb as <-.
  apply nth_error_combine_Some in Ec as (H1 & H2). assert (t = tg) by congruence. subst. constructor; [|constructor]. exists f. cbn [bt_fgrp bt_from bt_to bt_face]. split; [exact H1|].
  destruct (Forall2_nth_error _ _ _ _ _ HF H1) as (t & H2' & Hn). assert (t = tg) by congruence. subst. split; [|split]; [..|discriminate]; intros s Hs; apply in_seq in Hs; lia.
Qed.
Print Assumptions C171_same_mesh.

Example C171_example : check_connection (fun _ => 2) ex_conn = Ok tt /\
  check_connection (fun _ => 2) (mk_conn [mk_dgroup 2 2 Lin1] [mk_dgroup 2 2 Lin1] [[mk_batch 0 [0; 2] [0; 1] [0; 5]%Z None]] true) = Err AssertionError /\
  check_connection (fun _ => 2) (mk_conn [mk_dgroup 2 2 Lin1] [mk_dgroup 2 2 Lin1] [[mk_batch 0 [0; 1] [0; 2] [0; 5]%Z None]] true) = Err AssertionError /\
  check_connection (fun _ => 2) (mk_conn [mk_dgroup 2 2 Lin1] [mk_dgroup 2 2 Lin1] [[mk_batch 0 [0; 1] [0; 1] [0; 5]%Z (Some 2)]] true) = Err AssertionError /\
  check_connection (N := list Z) (fun _ => 2) (mk_conn [mk_dgroup 2 2 Lin1] [mk_dgroup 2 2 Lin1] [] true) = Err AssertionError.
Proof. repeat split; vm_compute; reflexivity. Qed.

(** C172 is false: "a connection that passes the test can be applied". The lists of sources and targets of a batch may have different lengths. *)
Theorem C172_unequal_lists_refuted : exists (c : @conn (list Z) ek) ary,
  check_connection (fun _ => 2) c = Ok tt /\ on_discr (cn_from c) ary /\ (forall eager nomerge, zcall eager nomerge c ary = Err ValueError).
Proof.
  exists (mk_conn [mk_dgroup 3 2 Lin1] [mk_dgroup 3 2 Lin1] [[mk_batch 0 [0; 1] [0; 1; 2] [0; 5]%Z None]] true), [[[1; 2]; [3; 4]; [5; 6]]]%Z.
  split; [vm_compute; reflexivity|]. split; [repeat constructor|]. intros [] []; vm_compute; reflexivity.
Qed.
Print Assumptions C172_unequal_lists_refuted.
