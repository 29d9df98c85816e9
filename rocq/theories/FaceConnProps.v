(** * FaceConnProps: properties of face restrictions and of connections between faces *)
From Coq Require Import List Arith Bool ZArith Lia.
From Verif Require Import Np NpFacts Lin MeshModel MeshSpec MeshExamples CompletionProofs PartModel PartSpec PartProps ConnModel ConnSpec FaceConnModel FaceConnSpec
  RestrProofs FaceValProofs FaceEmbProofs.
Import ListNotations.

(** ** A small instance

    Triangles and quadrilaterals with their vertices as nodes; unit nodes are vertex numbers, so that all interpolation picks values *)
Inductive fk : Type := Tri | Quad | Edge.
Definition fdim (k : fk) : nat := match k with Tri => 3 | Quad => 4 | Edge => 2 end.
Definition fface (k : fk) (f : nat) (_ : fk) : list nat := nth f (match k with Tri => tri_faces | Quad => quad_faces | Edge => [] end) [].
Definition funit (k : fk) : list nat := seq 0 (fdim k).
Definition frmat (_ : fk) (_ : list nat) : list (list Zcring) := [].
Definition frpick (_ : fk) (n : list nat) : option (list nat) := Some n.
Definition fcoords (_ : fk) (f : nat) (x : nat) : nat * nat := (x, f).
Definition fkinds : list fk := [Tri; Quad].
Definition fgarbage (_ : nat) : list nat := [99].
Definition fgarbage_node (_ : nat) : nat * nat := (99, 99).
Definition fnodes_equal (a b : list nat) : bool := list_nat_eqb a b.
Notation frestrict := (make_face_restriction (V := nat) (A := unit) fdim (fun _ => Edge) fface fcoords (fun _ => [[0]; [1]]) (fun i => i) fgarbage fgarbage_node).
Notation fcall := (call Zcring frmat frpick).

Lemma ex_restrictable perface : restrictable ex_groups fkinds ex_fags ex_vs perface.
Proof.
  split.
  - exact ex_has_rows.
  - exact ex_rows_in_range.
  - exact ex_faces_wf.
  - split; [reflexivity|]. intros g grp l b e f Hg Hl Hb Hef. destruct g as [|[|g]]; cbn in Hl, Hg; [| |destruct g; discriminate];
      injection Hl as <-; injection Hg as <-; cbn in Hb;
      repeat (destruct Hb as [<-|Hb]; [cbn in Hef; repeat (destruct Hef as [Hef|Hef]; [injection Hef as <- <-; cbn; lia|]); destruct Hef|]); destruct Hb.
  - apply ex_fags_wf.
  - reflexivity.
  - repeat constructor; discriminate.
  - intros _. constructor; [|constructor; [|constructor]]; exists 2; repeat constructor.
Qed.
Lemma ex_asked_once r : asked_once ex_fags r.
Proof.
  destruct r as [| |t]; [|exact I|].
  - constructor; [|constructor; [|constructor]]; cbn; repeat constructor; cbn; intuition congruence.
  - constructor; [|constructor; [|constructor]]; destruct t; cbn; repeat constructor; cbn; intuition congruence.
Qed.
Lemma ex_resamples g grp k f : nth_error ex_groups g = Some grp -> nth_error fkinds g = Some k -> f < nfaces grp ->
  resamples frmat frpick k (fface k f Edge) (fdim k) (fdim Edge).
Proof.
  intros Hg Hk Hf. destruct g as [|[|g]]; cbn in Hg, Hk; [| |destruct g; discriminate]; injection Hg as <-; injection Hk as <-; cbn in Hf;
    do 4 (destruct f as [|f]; [vm_compute; repeat constructor|]); exfalso; lia.
Qed.

(** ** C33: restricting to faces *)
Section C33.
  Context {E E' V A N K : Type}.
  Variables (dim : K -> nat) (factory : K -> K) (fnodes : K -> nat -> K -> N) (face_coords : K -> nat -> E -> E') (bfvi : K -> list (list nat))
    (store : nat -> nat) (garbage_row : nat -> list nat) (garbage_node : nat -> E').

  Theorem C33_restriction (groups : list (egroup E)) kinds (fags : list (list (fagrp A))) (vs : list V) r perface :
    restrictable groups kinds fags vs perface -> known fags r -> (forall i, i < length vs -> store i = i) ->
    exists bvs bgs c, make_face_restriction dim factory fnodes face_coords bfvi store garbage_row garbage_node (Some vs) groups kinds fags r perface = Ok (bvs, bgs, c) /\
      restriction dim factory fnodes face_coords groups kinds fags vs r perface bvs bgs c.
  Proof.
    intros [H1 H2 H3 H4 H5 H6 H7 H8] Hk Hs.
    destruct (restriction_ok dim factory fnodes face_coords bfvi store garbage_row garbage_node groups kinds fags vs r perface H1 H2 H3 H4 H5 H6 H7 H8 Hs Hk)
      as (bvs & bgs & to & E1 & _ & E2).
    eexists bvs, bgs, _. split; [exact E1|exact E2].
  Qed.

  Theorem C33_unknown_tag vertices (groups : list (egroup E)) kinds (fags : list (list (fagrp A))) t perface :
    ~ known fags (RTag t) ->
    make_face_restriction (V := V) dim factory fnodes face_coords bfvi store garbage_row garbage_node vertices groups kinds fags (RTag t) perface = Err ValueError.
  Proof.
    intros H. unfold make_face_restriction. destruct (mesh_has_boundary fags t) eqn:Eb; [|reflexivity]. exfalso. apply H. now apply mesh_has_boundary_iff.
  Qed.
  Theorem C33_no_vertices (groups : list (egroup E)) kinds (fags : list (list (fagrp A))) r perface :
    known fags r ->
    make_face_restriction (V := V) dim factory fnodes face_coords bfvi store garbage_row garbage_node None groups kinds fags r perface = Err AssertionError.
  Proof.
    intros H. unfold make_face_restriction. destruct r as [| |t]; try reflexivity. apply mesh_has_boundary_iff in H. now rewrite H.
  Qed.
End C33.

(** The interior faces of two triangles and a quadrilateral: faces 1 and 0 of triangle 1 and face 2 of triangle 0; face 2 of the quadrilateral *)
Example ex_restrict_interior : frestrict (Some ex_vs) ex_groups fkinds ex_fags RInterior false =
  Ok (ex_vs,
      [mk_egroup (Some [[1; 3]; [2; 1]; [1; 2]]) [(101, 0); (101, 1); (100, 2)] [[0]; [1]]; mk_egroup (Some [[1; 3]]) [(102, 2)] [[0]; [1]]],
      mk_conn [mk_dgroup 2 3 Tri; mk_dgroup 1 4 Quad] [mk_dgroup 3 2 Edge; mk_dgroup 1 2 Edge]
        [[mk_batch 0 [1] [0] [0; 1] (Some 0); mk_batch 0 [1] [1] [2; 0] (Some 1); mk_batch 0 [0] [2] [1; 2] (Some 2)];
         [mk_batch 1 [] [] [0; 1] (Some 0); mk_batch 1 [] [] [2; 3] (Some 1); mk_batch 1 [0] [0] [0; 2] (Some 2); mk_batch 1 [] [] [1; 3] (Some 3)]] true).
Proof. vm_compute. reflexivity. Qed.
Example ex_restrict_perface : exists bvs bgs c, frestrict (Some ex_vs) ex_groups fkinds ex_fags (RTag TAll) true = Ok (bvs, bgs, c) /\
  length bgs = 7 /\ nth_error bgs 0 = Some (mk_egroup (Some [[0; 1]]) [(100, 0)] [[0]; [1]]) /\
  nth_error bgs 5 = Some (mk_egroup (Some []) [] [[0]; [1]]) /\ nth_error bgs 6 = Some (mk_egroup (Some [[4; 5]]) [(102, 3)] [[0]; [1]]).
Proof. vm_compute. eexists _, _, _. repeat split. Qed.
Example ex_C33 r perface : known ex_fags r -> exists bvs bgs c, frestrict (Some ex_vs) ex_groups fkinds ex_fags r perface = Ok (bvs, bgs, c) /\
  restriction fdim (fun _ => Edge) fface fcoords ex_groups fkinds ex_fags ex_vs r perface bvs bgs c.
Proof. intros Hk. exact (C33_restriction _ _ _ _ _ _ _ _ _ _ _ _ _ _ (ex_restrictable perface) Hk (fun i _ => eq_refl)). Qed.
Example ex_unknown_tag : ~ known ex_fags (RTag (TUser 5)).
Proof. intros (l & [<-|[<-|[]]] & H); destruct H as (b & H & Hb); cbn in H; intuition (subst; discriminate). Qed.

(** What the restriction does to values *)
Theorem C33_values {R : cring} {E E' V A N K : Type} (rmat : K -> N -> list (list R)) (rpick : K -> N -> option (list nat))
    (dim : K -> nat) (factory : K -> K) (fnodes : K -> nat -> K -> N) (face_coords : K -> nat -> E -> E') (bfvi : K -> list (list nat))
    (store : nat -> nat) (garbage_row : nat -> list nat) (garbage_node : nat -> E')
    (groups : list (egroup E)) kinds (fags : list (list (fagrp A))) (vs : list V) r perface (x : list (list (list R))) :
  restrictable groups kinds fags vs perface -> known fags r -> (forall i, i < length vs -> store i = i) ->
  Forall (fun g => nfaces g <= 128) groups ->
  (forall g grp k f, nth_error groups g = Some grp -> nth_error kinds g = Some k -> f < nfaces grp ->
     resamples rmat rpick k (fnodes k f (factory k)) (dim k) (dim (factory k))) ->
  on_discr (vol_groups dim groups kinds) x ->
  exists bvs bgs c y, make_face_restriction dim factory fnodes face_coords bfvi store garbage_row garbage_node (Some vs) groups kinds fags r perface = Ok (bvs, bgs, c) /\
    (forall eager nomerge, call R rmat rpick eager nomerge c x = Ok y) /\
    on_discr (cn_to c) y /\ Forall2 (fun bg v => length v = nelements bg) bgs y /\
    forall gb t g e f, is_face c gb t (g, e, f) -> exists k v w,
      nth_error kinds g = Some k /\ value x g e = Some v /\ value y gb t = Some w /\ length w = dim (factory k) /\
      resampled rmat rpick k (fnodes k f (factory k)) v w.
Proof.
  intros Hb Hk Hs Hf Hr Hx.
  destruct (C33_restriction dim factory fnodes face_coords bfvi store garbage_row garbage_node groups kinds fags vs r perface Hb Hk Hs) as (bvs & bgs & c & Ec & Hc).
  assert (Hx' : on_discr (cn_from c) x) by (rewrite (rt_from _ _ _ _ _ _ _ _ _ _ _ _ _ Hc); exact Hx).
  destruct (restriction_values rmat rpick dim factory fnodes face_coords groups kinds fags vs r perface bvs bgs c Hc (rb_kinds _ _ _ _ _ Hb) x Hf Hr Hx')
    as (y & Hy & Hy2 & Hy3).
  exists bvs, bgs, c, y. split; [exact Ec|]. split; [exact Hy|]. split; [exact Hy2|]. split; [|intros gb t g e f Hi; destruct (Hy3 gb t g e f Hi) as (k & v & w & Ek & Ev & Ew & Erw)].
  - destruct (rt_sizes _ _ _ _ _ _ _ _ _ _ _ _ _ Hc) as (Hz & _). clear - Hz Hy2. revert y Hy2. induction Hz as [|bg d bgs ds Hd Hz IH]; intros y Hy; inversion Hy; subst; constructor; [|auto].
    destruct H1 as (-> & _). exact Hd.
  - exists k, v, w. split; [exact Ek|]. split; [exact Ev|]. split; [exact Ew|]. split; [|exact Erw].
    destruct (rt_face _ _ _ _ _ _ _ _ _ _ _ _ _ Hc gb t g e f Hi) as (grp & k' & x' & bg & rows & row & vsf & _ & Ek' & _ & _ & Et & _).
    assert (k' = k) by congruence. subst k'. exact (proj1 (value_length _ _ _ _ _ _ Hy2 Et Ew)).
Qed.

(** Values at vertices, restricted to the interior faces *)
Definition ex_vol : list (list (list Z)) := [[[10; 11; 12]; [20; 21; 22]]; [[30; 31; 32; 33]]]%Z.
Lemma ex_vol_on : on_discr (R := Zcring) (vol_groups fdim ex_groups fkinds) ex_vol.
Proof. repeat constructor. Qed.
Example ex_C33_values r perface : known ex_fags r -> exists bvs bgs c y, frestrict (Some ex_vs) ex_groups fkinds ex_fags r perface = Ok (bvs, bgs, c) /\
  forall eager nomerge, fcall eager nomerge c ex_vol = Ok y.
Proof.
  intros Hk. destruct (C33_values frmat frpick fdim (fun _ => Edge) fface fcoords (fun _ => [[0]; [1]]) (fun i => i) fgarbage fgarbage_node
    ex_groups fkinds ex_fags ex_vs r perface ex_vol (ex_restrictable perface) Hk (fun i _ => eq_refl)) as (bvs & bgs & c & y & E1 & E2 & _); [|exact ex_resamples|exact ex_vol_on|].
  - constructor; [|constructor; [|constructor]]; cbn; lia.
  - exists bvs, bgs, c, y. auto.
Qed.
Example ex_values_interior : (match frestrict (Some ex_vs) ex_groups fkinds ex_fags RInterior false with Ok (_, _, c) => fcall true false c ex_vol | Err e => Err e end) =
  Ok [[[20; 21]; [22; 20]; [11; 12]]; [[30; 32]]]%Z.
Proof. vm_compute. reflexivity. Qed.

(** ** C34: embedding faces into all faces *)
Theorem C34_embedding {R : cring} {E E' V A N K : Type} (rmat : K -> N -> list (list R)) (rpick : K -> N -> option (list nat))
    (dim : K -> nat) (factory : K -> K) (fnodes : K -> nat -> K -> N) (face_coords : K -> nat -> E -> E') (bfvi : K -> list (list nat))
    (store : nat -> nat) (garbage_row : nat -> list nat) (garbage_node : nat -> E') (unit_nodes : K -> N) (nodes_equal : N -> N -> bool)
    (groups : list (egroup E)) kinds (fags : list (list (fagrp A))) (vs : list V) r perface (x : list (list (list R))) :
  restrictable groups kinds fags vs perface -> known fags r -> asked_once fags r -> (forall i, i < length vs -> store i = i) ->
  Forall (fun g => nfaces g <= 128) groups ->
  (forall g grp k f, nth_error groups g = Some grp -> nth_error kinds g = Some k -> f < nfaces grp ->
     resamples rmat rpick k (fnodes k f (factory k)) (dim k) (dim (factory k))) ->
  (* interpolating from the nodes of a group to its own nodes changes nothing *)
  (forall n, nodes_equal n n = true) ->
  (forall k, In k kinds -> resamples rmat rpick (factory k) (unit_nodes (factory k)) (dim (factory k)) (dim (factory k))) ->
  (forall k v w, In k kinds -> length v = dim (factory k) -> resampled rmat rpick (factory k) (unit_nodes (factory k)) v w -> w = v) ->
  on_discr (vol_groups dim groups kinds) x ->
  let restrict := make_face_restriction dim factory fnodes face_coords bfvi store garbage_row garbage_node (Some vs) groups kinds fags in
  exists bvs bgs faces bvs' bgs' all emb y z w,
    restrict r perface = Ok (bvs, bgs, faces) /\ restrict RAll perface = Ok (bvs', bgs', all) /\
    make_embedding unit_nodes nodes_equal groups faces (cn_to all) None = Ok emb /\
    cn_from emb = cn_to faces /\ cn_to emb = cn_to all /\
    (forall eager nomerge, call R rmat rpick eager nomerge faces x = Ok y /\ call R rmat rpick eager nomerge emb y = Ok z /\ call R rmat rpick eager nomerge all x = Ok w) /\
    on_discr (cn_to all) z /\
    (forall gb tg t, nth_error (cn_to all) gb = Some tg -> t < dg_nel tg -> exists a, is_face all gb t a /\ valid_face groups a) /\
    forall gb t a, is_face all gb t a ->
      (asked groups fags r a -> value z gb t = value w gb t) /\
      (~ asked groups fags r a -> exists tg, nth_error (cn_to all) gb = Some tg /\ value z gb t = Some (zeros (dg_ndof tg))).
Proof.
  intros Hb Hk Ho Hs Hfew Hres Hne Hown Hid Hx restrict. pose proof Hb as [H1 H2 H3 H4 H5 H6 H7 H8].
  destruct (restriction_ok dim factory fnodes face_coords bfvi store garbage_row garbage_node groups kinds fags vs r perface H1 H2 H3 H4 H5 H6 H7 H8 Hs Hk)
    as (bvs & bgs & to & E1 & _ & R1).
  destruct (restriction_ok dim factory fnodes face_coords bfvi store garbage_row garbage_node groups kinds fags vs RAll perface H1 H2 H3 H4 H5 H6 H7 H8 Hs I)
    as (bvs' & bgs' & to' & E2 & G2 & R2).
  pose proof (embedding_closed dim factory fnodes face_coords bfvi unit_nodes nodes_equal groups kinds fags vs r perface Hb Hne bvs bvs' bgs bgs' to to' R1 R2 G2) as E3.
  destruct (embedding_values rmat rpick dim factory fnodes face_coords bfvi garbage_row garbage_node unit_nodes groups kinds fags vs r perface Hb Ho bvs bvs' bgs bgs' to to' R1 R2 G2 Hown Hid x Hfew Hres Hx)
    as (y & z & w & Hc & Hz & _ & Hv).
  eexists bvs, bgs, _, bvs', bgs', _, _, y, z, w. split; [exact E1|]. split; [exact E2|]. split; [exact E3|]. split; [reflexivity|]. split; [reflexivity|].
  split; [exact Hc|]. split; [exact Hz|]. split; [|exact Hv].
  intros gb tg t Hgb Ht. destruct (rt_sizes _ _ _ _ _ _ _ _ _ _ _ _ _ R2) as (Hz2 & _). destruct (Forall2_nth_error_r _ _ _ _ _ Hz2 Hgb) as (bg & Hbg & En).
  rewrite En in Ht. destruct (rt_only _ _ _ _ _ _ _ _ _ _ _ _ _ R2 gb bg t Hbg Ht) as (a & Ha). exists a. split; [exact Ha|]. destruct a as ((g & e) & f).
  exact (proj1 (rt_asked _ _ _ _ _ _ _ _ _ _ _ _ _ R2 gb t g e f Ha)).
Qed.

Example ex_C34 r perface : known ex_fags r -> exists bvs bgs faces bvs' bgs' all emb y z w,
    frestrict (Some ex_vs) ex_groups fkinds ex_fags r perface = Ok (bvs, bgs, faces) /\
    frestrict (Some ex_vs) ex_groups fkinds ex_fags RAll perface = Ok (bvs', bgs', all) /\
    make_embedding funit fnodes_equal ex_groups faces (cn_to all) None = Ok emb /\
    forall eager nomerge, fcall eager nomerge faces ex_vol = Ok y /\ fcall eager nomerge emb y = Ok z /\ fcall eager nomerge all ex_vol = Ok w.
Proof.
  intros Hk. destruct (C34_embedding frmat frpick fdim (fun _ => Edge) fface fcoords (fun _ => [[0]; [1]]) (fun i => i) fgarbage fgarbage_node funit fnodes_equal
    ex_groups fkinds ex_fags ex_vs r perface ex_vol (ex_restrictable perface) Hk (ex_asked_once r) (fun i _ => eq_refl))
    as (bvs & bgs & faces & bvs' & bgs' & all & emb & y & z & w & E1 & E2 & E3 & _ & _ & E4 & _).
  - constructor; [|constructor; [|constructor]]; cbn; lia.
  - exact ex_resamples.
  - intros n. unfold fnodes_equal, list_nat_eqb. destruct (list_eq_dec Nat.eq_dec n n); congruence.
  - intros k _. vm_compute. repeat constructor.
  - intros k v w _ Hl H. destruct v as [|a [|b [|]]]; try discriminate. unfold resampled in H. cbn in H. inversion H as [|? ? ? ? Ha H']; subst. inversion H' as [|? ? ? ? Hb H'']; subst. inversion H''; subst.
    cbn in Ha, Hb. injection Ha as <-. injection Hb as <-. reflexivity.
  - exact ex_vol_on.
  - exists bvs, bgs, faces, bvs', bgs', all, emb, y, z, w. auto.
Qed.
(** Boundary faces embedded into all faces, groups by volume group and by face *)
Definition ex_embedded perface : res (list (list (list Z))) :=
  '(_, _, faces) <- frestrict (Some ex_vs) ex_groups fkinds ex_fags (RTag TAll) perface ;;
  '(_, _, all) <- frestrict (Some ex_vs) ex_groups fkinds ex_fags RAll perface ;;
  emb <- make_embedding funit fnodes_equal ex_groups faces (cn_to all) None ;;
  y <- fcall true false faces ex_vol ;; fcall false true emb y.
Example ex_embedded_false : ex_embedded false =
  Ok [[[10; 11]; [0; 0]; [12; 10]; [0; 0]; [0; 0]; [21; 22]]; [[30; 31]; [32; 33]; [0; 0]; [31; 33]]]%Z.
Proof. vm_compute. reflexivity. Qed.
Example ex_embedded_true : ex_embedded true =
  Ok [[[10; 11]; [0; 0]]; [[12; 10]; [0; 0]]; [[0; 0]; [21; 22]]; [[30; 31]]; [[32; 33]]; [[0; 0]]; [[31; 33]]]%Z.
Proof. vm_compute. reflexivity. Qed.


(** ** C76: the boundary mesh may have vertices that no boundary element uses *)
Definition ex_bottom : tagmap := [([0; 1], [TUser 1])].
Theorem C76_unused_vertices_refuted :
  exists (groups : list (egroup nat)) (vs : list nat) m fags bvs bgs c v,
    compute_facial_adjacency tt (fun l => l) (Some m) groups = Ok fags /\ restrictable groups fkinds fags vs false /\
    frestrict (Some vs) groups fkinds fags (RTag (TUser 1)) false = Ok (bvs, bgs, c) /\
    (exists gb t a, is_face c gb t a) /\
    v < length bvs /\ forall bg rows row, In bg bgs -> eg_vi bg = Some rows -> In row rows -> ~ In v row.
Proof.
  exists ex_groups, ex_vs, ex_bottom. eexists _, _, _, _, 2. split; [vm_compute; reflexivity|]. split; [|split; [vm_compute; reflexivity|]].
  - pose proof (ex_restrictable false) as [H1 H2 H3 _ _ H6 H7 H8]. split; try assumption.
    + split; [reflexivity|]. intros g grp l b e f Hg Hl Hb Hef. destruct g as [|[|g]]; cbn in Hl, Hg; [| |destruct g; discriminate];
      injection Hl as <-; injection Hg as <-; cbn in Hb;
      repeat (destruct Hb as [<-|Hb]; [cbn in Hef; repeat (destruct Hef as [Hef|Hef]; [injection Hef as <- <-; cbn; lia|]); destruct Hef|]); destruct Hb.
    + intros g l b Hl Hb. destruct g as [|[|g]]; cbn in Hl; [| |destruct g; discriminate]; injection Hl as <-; cbn in Hb; intuition (subst; reflexivity).
  - split; [|split; [cbn; lia|]].
    + exists 0, 0, (0, 0, 0). eexists _, _. split; [reflexivity|]. split; [left; reflexivity|]. split; [reflexivity|]. split; [reflexivity|]. left. reflexivity.
    + intros bg rows row [<-|[<-|[]]] Hr Hrow; injection Hr as <-; cbn in Hrow; intuition (subst; cbn in *; lia).
Qed.

(** ** C77: with per_face_groups, the elements need not be in the order of the volume group *)
Definition ex_groups2 : list (egroup nat) :=
  [mk_egroup (Some [[0; 1; 2]; [1; 2; 3]]) [100; 101] tri_faces; mk_egroup (Some [[0; 1; 4; 5]]) [102] quad_faces].
Theorem C77_face_order_refuted :
  exists (groups : list (egroup nat)) (vs : list nat) fags bvs bgs c gb t t' g e e' f,
    compute_facial_adjacency tt (fun l => l) None groups = Ok fags /\ restrictable groups fkinds fags vs true /\
    frestrict (Some vs) groups fkinds fags RInterior true = Ok (bvs, bgs, c) /\
    is_face c gb t (g, e, f) /\ is_face c gb t' (g, e', f) /\ t < t' /\ e' < e.
Proof.
  exists ex_groups2, ex_vs. eexists _, _, _, _, 0, 0, 1, 0, 1, 0, 0. split; [vm_compute; reflexivity|]. split; [|split; [vm_compute; reflexivity|]].
  - split.
    + repeat constructor; eexists; split; reflexivity.
    + intros e row v (g & i & (grp & vi & Hg & Hv & Hl & Hr) & _) Hin. destruct g as [|[|g]]; cbn in Hg; [| |destruct g; discriminate]; injection Hg as <-; injection Hv as <-.
      * destruct i as [|[|i]]; cbn in Hr, Hl; [| |lia]; injection Hr as <-; cbn in Hin; cbn; lia.
      * destruct i as [|i]; cbn in Hr, Hl; [|lia]; injection Hr as <-; cbn in Hin; cbn; lia.
    + intros g grp e row ref k Hg (grp' & vi & Hg' & Hv & Hl & Hr) Href Hk. assert (grp' = grp) by congruence. subst grp'.
      destruct g as [|[|g]]; cbn in Hg; [| |destruct g; discriminate]; injection Hg as <-; injection Hv as <-.
      * destruct e as [|[|e]]; cbn in Hr, Hl; [| |lia]; injection Hr as <-; cbn in Href; cbn; intuition (subst; cbn in Hk; lia).
      * destruct e as [|e]; cbn in Hr, Hl; [|lia]; injection Hr as <-; cbn in Href; cbn; intuition (subst; cbn in Hk; lia).
    + split; [reflexivity|]. intros g grp l b e f Hg Hl Hb Hef. destruct g as [|[|g]]; cbn in Hl, Hg; [| |destruct g; discriminate];
      injection Hl as <-; injection Hg as <-; cbn in Hb;
      repeat (destruct Hb as [<-|Hb]; [cbn in Hef; repeat (destruct Hef as [Hef|Hef]; [injection Hef as <- <-; cbn; lia|]); destruct Hef|]); destruct Hb.
    + intros g l b Hl Hb. destruct g as [|[|g]]; cbn in Hl; [| |destruct g; discriminate]; injection Hl as <-; cbn in Hb; intuition (subst; reflexivity).
    + reflexivity.
    + repeat constructor; discriminate.
    + discriminate.
  - split; [|split; [|lia]].
    + eexists _, _. split; [reflexivity|]. split; [left; reflexivity|]. split; [reflexivity|]. split; [reflexivity|]. left. reflexivity.
    + eexists _, _. split; [reflexivity|]. split; [left; reflexivity|]. split; [reflexivity|]. split; [reflexivity|]. right. left. reflexivity.
Qed.

Print Assumptions C33_restriction.
Print Assumptions C33_unknown_tag.
Print Assumptions C33_no_vertices.
Print Assumptions C33_values.
Print Assumptions C34_embedding.
Print Assumptions C76_unused_vertices_refuted.
Print Assumptions C77_face_order_refuted.
