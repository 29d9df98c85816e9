(** * ConsistProofs: the node-vertex test and the checks of shapes. *)
From Coq Require Import List Arith Bool ZArith Lia Ring.
From Verif Require Import Np NpFacts MeshModel MeshStateModel Lin Ord ProcModel ProcSpec ConsistModel ConsistSpec.
Import ListNotations.

Lemma mapM_lift {X Y Z} (f : Y -> res Z) (g : X -> Y) (h : X -> Z) l :
  (forall x, In x l -> f (g x) = Ok (h x)) -> mapM f (map g l) = Ok (map h l).
Proof.
  induction l as [|x l IH]; intros H; [reflexivity|]. cbn [map mapM]. rewrite (H x (or_introl eq_refl)). cbn [bind].
  rewrite IH by (intros; apply H; now right). reflexivity.
Qed.

Lemma mapM_unit_ok {X} (f : X -> res unit) l : (exists us, mapM f l = Ok us) <-> Forall (fun x => f x = Ok tt) l.
Proof.
  split.
  - intros (us & H). apply mapM_ok in H. apply Forall_forall. intros x Hx.
    apply In_nth_error in Hx as (i & Hi). destruct (Forall2_nth_error _ _ _ _ _ H Hi) as ([] & _ & Hf). exact Hf.
  - intros H. exists (map (fun _ => tt) l). induction H as [|x l Hx _ IH]; [reflexivity|]. cbn [mapM map]. rewrite Hx, IH. reflexivity.
Qed.

Lemma guard_tt b e : guard b e = Ok tt <-> b = true.
Proof. destruct b; cbn; split; congruence. Qed.

Section Float.
  Variable R : ocring.
  Add Ring Rcp : (rth R).
  Local Open Scope cring_scope.
  Local Notation lift2 := (lift2 R).

  Lemma fldot_lift (u v : list R) : fldot (map Some u) (map Some v) = Some (dot u v).
  Proof.
    unfold fldot, dot. revert v. induction u as [|a u IH]; intros [|b v]; [reflexivity..|].
    cbn [map map2 fold_right rsum]. rewrite IH. reflexivity.
  Qed.

  Lemma rmax_spec (x y : R) : (x <=? rmax x y) = true /\ (y <=? rmax x y) = true /\ (rmax x y = x \/ rmax x y = y).
  Proof.
    unfold rmax. destruct (ole x y) eqn:E.
    - split; [exact E|]. split; [apply ole_refl|now right].
    - split; [apply ole_refl|]. split; [|now left]. destruct (ole_total R x y); congruence.
  Qed.

  Lemma fold_rmax_spec (l : list R) x :
    let s := fold_left rmax l x in
    In s (x :: l) /\ forall y, In y (x :: l) -> (y <=? s) = true.
  Proof.
    revert x. induction l as [|z l IH]; intros x; cbn [fold_left].
    - split; [now left|]. intros y [<-|[]]. apply ole_refl.
    - destruct (IH (rmax x z)) as (H1 & H2). destruct (rmax_spec x z) as (Hx & Hz & Hor). split.
      + destruct H1 as [H1|H1]; [|now right; right]. rewrite <- H1. destruct Hor as [->| ->]; [now left|right; now left].
      + intros y Hy. assert (Hm : (rmax x z <=? fold_left rmax l (rmax x z)) = true) by (apply H2; now left).
        destruct Hy as [<-|[<-|Hy]]; [eapply ole_trans; eauto..|]. apply H2. now right.
  Qed.

  Lemma fold_flmax_lift (l : list R) x : fold_left flmax2 (map Some l) (Some x) = Some (fold_left rmax l x).
  Proof. revert x. induction l as [|z l IH]; intros x; [reflexivity|]. cbn [map fold_left]. apply (IH (rmax x z)). Qed.

  Lemma flmax_lift (l : list R) : l <> [] ->
    exists s, flmax (map Some l) = Ok (Some s) /\ In s l /\ forall y, In y l -> (y <=? s) = true.
  Proof.
    intros Hl. destruct l as [|x l]; [congruence|]. cbn [map]. unfold flmax. rewrite fold_flmax_lift. eexists. split; [reflexivity|].
    apply fold_rmax_spec.
  Qed.

  Lemma flabs_lift (l : list R) : map flabs (map Some l) = map Some (map rabs l).
  Proof. rewrite !map_map. reflexivity. Qed.

  Lemma max_abs_lift (X : list (list R)) : X <> [] -> Forall (fun r => r <> []) X ->
    exists s, max_abs R (lift2 X) = Ok (Some s) /\ (exists r v, In r X /\ In v r /\ s = rabs v) /\
      (forall r v, In r X -> In v r -> (rabs v <=? s) = true).
  Proof.
    intros HX HF.
    assert (H : exists ms, mapM (fun r => flmax (map flabs r)) (lift2 X) = Ok (map Some ms) /\
              Forall2 (fun r s => In s (map rabs r) /\ forall y, In y (map rabs r) -> (y <=? s) = true) X ms).
    { clear HX. induction HF as [|r X Hr _ (ms & E & F)]; [exists []; split; [reflexivity|constructor]|].
      destruct (flmax_lift (map rabs r)) as (s & Es & Hs); [destruct r; [congruence|discriminate]|].
      exists (s :: ms). split; [|constructor; auto].
      unfold ConsistModel.lift2 in *. cbn [map mapM]. rewrite flabs_lift, Es. cbn [bind]. rewrite E. reflexivity. }
    destruct H as (ms & E & F). unfold max_abs. rewrite E. cbn [bind].
    destruct (flmax_lift ms) as (s & Es & Hin & Hle). { intros ->. inversion F. subst. congruence. }
    exists s. split; [exact Es|]. split.
    - apply In_nth_error in Hin as (i & Hi). destruct (Forall2_nth_error_r _ _ _ _ _ F Hi) as (r & Hr & Hs & _).
      apply in_map_iff in Hs as (v & <- & Hv). exists r, v. split; [eapply nth_error_In; eauto|auto].
    - intros r v Hr Hv. apply In_nth_error in Hr as (i & Hr). destruct (Forall2_nth_error _ _ _ _ _ F Hr) as (t & Ht & _ & Hb).
      eapply ole_trans; [apply Hb; apply in_map; exact Hv|]. apply Hle. eapply nth_error_In; eauto.
  Qed.

  Lemma sub2_lift (X Y : list (list R)) : Forall2 (fun a b => length a = length b) X Y ->
    sub2 R (lift2 X) (lift2 Y) = Ok (lift2 (map2 (map2 rsub) X Y)).
  Proof.
    intros H. unfold sub2, ConsistModel.lift2. rewrite !map_length, (Forall2_length' _ _ _ H), Nat.eqb_refl. cbn [guard bind].
    induction H as [|a b X Y Hab _ IH]; [reflexivity|]. cbn [map map2 combine mapM fst snd]. rewrite !map_length, Hab, Nat.eqb_refl.
    cbn [guard bind]. rewrite IH. cbn [bind]. f_equal. apply (f_equal2 cons); [|reflexivity].
    clear. revert b. induction a as [|u a IH]; intros [|v b]; cbn [map map2]; [reflexivity..|]. now rewrite IH.
  Qed.

  Lemma map_vertices_lift P (x : list (list R)) nu : Forall (fun w => length w = nu) P -> Forall (fun r => length r = nu) x ->
    map_vertices R (lift2 P) (lift2 x) = Ok (lift2 (map (matvec P) x)).
  Proof.
    intros HP Hx. unfold map_vertices, ConsistModel.lift2. rewrite (map_map (matvec P)). apply mapM_lift. intros xa Hxa.
    unfold matvec. rewrite map_map. apply mapM_lift. intros w Hw. unfold fl_entry. rewrite !map_length.
    rewrite (proj1 (Forall_forall _ _) HP w Hw), (proj1 (Forall_forall _ _) Hx xa Hxa), Nat.eqb_refl. cbn [guard bind].
    now rewrite fldot_lift.
  Qed.

  (** the coordinates of the vertices of an element, per axis *)
  Definition columns (d : nat) (qs : list (list R)) : list (list R) := map (fun a => map (fun q => nth a q r0) qs) (seq 0 d).

  Lemma grp_vertices_lift d (pts qs : list (list R)) row : Forall (fun p => length p = d) pts ->
    Forall2 (fun v q => nth_error pts v = Some q) row qs ->
    grp_vertices R d (lift2 pts) row = Ok (lift2 (columns d qs)).
  Proof.
    intros Hp Hr. unfold grp_vertices.
    assert (Hq : Forall (fun q => length q = d) qs).
    { apply Forall_forall. intros q Hq. apply In_nth_error in Hq as (i & Hi). destruct (Forall2_nth_error_r _ _ _ _ _ Hr Hi) as (v & _ & Hv).
      apply (proj1 (Forall_forall _ _) Hp). eapply nth_error_In; eauto. }
    assert (E : mapM (get (lift2 pts)) row = Ok (lift2 qs)).
    { clear Hq. induction Hr as [|v q row qs Hv _ IH]; [reflexivity|]. cbn [mapM]. unfold get at 1, ConsistModel.lift2 at 1.
      rewrite nth_error_map, Hv. cbn [option_map bind]. rewrite IH. reflexivity. }
    rewrite E. cbn [bind]. unfold columns, ConsistModel.lift2. rewrite (map_map _ (map Some)).
    rewrite <- (map_id (seq 0 d)) at 1. apply mapM_lift. intros a Ha. apply in_seq in Ha.
    rewrite (map_map _ Some). apply mapM_lift. intros q Hin. unfold get. rewrite nth_error_map.
    pose proof (proj1 (Forall_forall _ _) Hq q Hin) as Hl. cbv beta in Hl.
    rewrite (nth_error_nth' q r0) by lia. reflexivity.
  Qed.

  Lemma nth_columns d qs k a q c : nth_error qs k = Some q -> nth_error q a = Some c -> (a < d)%nat ->
    exists col, nth_error (columns d qs) a = Some col /\ nth_error col k = Some c.
  Proof.
    intros Hq Hc Ha. exists (map (fun q => nth a q r0) qs). unfold columns. split.
    - rewrite nth_error_map. rewrite (nth_error_nth' (seq 0 d) 0%nat) by (now rewrite seq_length). cbn [option_map]. now rewrite seq_nth.
    - rewrite nth_error_map, Hq. cbn [option_map]. f_equal. now apply nth_error_nth.
  Qed.

  Lemma nth_map2 {X Y W} (f : X -> Y -> W) l l' i w : nth_error (map2 f l l') i = Some w ->
    exists x y, nth_error l i = Some x /\ nth_error l' i = Some y /\ w = f x y.
  Proof.
    revert l' i. induction l as [|x l IH]; intros [|y l'] [|i] H; cbn in H; try discriminate.
    - injection H as <-. now exists x, y.
    - cbn. now apply IH.
  Qed.

  Lemma element_above P d nu (pts : list (list R)) tol row x :
    (0 < d)%nat -> P <> [] -> Forall (fun w => length w = nu) P -> Forall (fun p => length p = d) pts ->
    length row = length P -> Forall (fun v => (v < length pts)%nat) row -> length x = d -> Forall (fun r => length r = nu) x ->
    exists b, element_above_tol R (lift2 P) d (lift2 pts) tol row (lift2 x) = Ok b /\
      (b = false <-> nodes_match P pts tol row x).
  Proof.
    intros Hd HP HPl Hpts Hrl Hrow Hxl Hx.
    assert (Hqs : exists qs, Forall2 (fun v q => nth_error pts v = Some q) row qs).
    { clear Hrl. induction Hrow as [|v row Hv _ (qs & IH)]; [exists []; constructor|].
      destruct (nth_error pts v) as [q|] eqn:E; [|apply nth_error_None in E; lia]. exists (q :: qs). now constructor. }
    destruct Hqs as (qs & Hqs). pose proof (Forall2_length' _ _ _ Hqs) as Hql.
    assert (Hqd : forall k q, nth_error qs k = Some q -> length q = d).
    { intros k q Hk. destruct (Forall2_nth_error_r _ _ _ _ _ Hqs Hk) as (v & _ & Hv).
      apply (proj1 (Forall_forall _ _) Hpts). eapply nth_error_In; eauto. }
    assert (Hcl : forall a col, nth_error (columns d qs) a = Some col -> (a < d)%nat /\ col = map (fun q => nth a q r0) qs).
    { unfold columns. intros a col H. rewrite nth_error_map in H. destruct (nth_error (seq 0 d) a) as [a'|] eqn:E; [|discriminate].
      injection H as <-. assert (a < length (seq 0 d))%nat by (apply nth_error_Some; congruence). rewrite seq_length in H.
      split; [exact H|]. rewrite (nth_error_nth' _ 0%nat) in E by (now rewrite seq_length). rewrite seq_nth in E by exact H. now injection E as <-. }
    assert (Hvc : forall k a c, vertex_coord pts row k a c <-> exists col, nth_error (columns d qs) a = Some col /\ nth_error col k = Some c).
    { intros k a c. split.
      - intros (v & p & Hv & Hp & Hc). destruct (Forall2_nth_error _ _ _ _ _ Hqs Hv) as (q & Hq & Hq'). rewrite Hp in Hq'. injection Hq' as <-.
        apply (nth_columns d qs k a p c Hq Hc). rewrite <- (Hqd _ _ Hq). apply nth_error_Some. congruence.
      - intros (col & Hcol & Hc). destruct (Hcl _ _ Hcol) as (Ha & ->). rewrite nth_error_map in Hc.
        destruct (nth_error qs k) as [q|] eqn:Eq; [|discriminate]. cbn [option_map] in Hc. injection Hc as <-.
        destruct (Forall2_nth_error_r _ _ _ _ _ Hqs Eq) as (v & Hv & Hp). exists v, q. split; [exact Hv|]. split; [exact Hp|].
        apply nth_error_nth'. rewrite (Hqd _ _ Eq). exact Ha. }
    assert (Hcn : columns d qs <> []). { unfold columns. destruct d; [lia|]. cbn [seq map]. discriminate. }
    assert (Hqn : qs <> []). { intros ->. destruct P; [congruence|]. cbn in *. lia. }
    assert (Hcr : Forall (fun r => r <> []) (columns d qs)).
    { apply Forall_forall. intros r Hr. apply in_map_iff in Hr as (a & <- & _). destruct qs; [congruence|discriminate]. }
    unfold element_above_tol. rewrite (map_vertices_lift P x nu HPl Hx). cbn [bind].
    rewrite (grp_vertices_lift d pts qs row Hpts Hqs). cbn [bind].
    assert (Hcm : length (columns d qs) = d) by (unfold columns; now rewrite map_length, seq_length).
    rewrite sub2_lift. 2:{ apply Forall2_intro_nth; [now rewrite map_length, Hcm|]. intros a u v Hu Hv.
      rewrite nth_error_map in Hu. destruct (nth_error x a); [|discriminate]. injection Hu as <-. destruct (Hcl _ _ Hv) as (_ & ->).
      rewrite matvec_length, map_length. congruence. }
    cbn [bind].
    set (D := map2 (map2 rsub) (map (matvec P) x) (columns d qs)).
    assert (HDn : forall a r, nth_error D a = Some r -> exists xa col, nth_error x a = Some xa /\ nth_error (columns d qs) a = Some col /\ r = map2 rsub (matvec P xa) col).
    { intros a r H. apply nth_map2 in H as (u & v & Hu & Hv & ->). rewrite nth_error_map in Hu. destruct (nth_error x a) as [xa|]; [|discriminate].
      injection Hu as <-. eauto. }
    destruct (max_abs_lift D) as (e & Ee & (re & ve & Hre & Hve & Hev) & Hub).
    { unfold D. destruct x; [cbn in Hxl; lia|]. destruct (columns d qs); [congruence|discriminate]. }
    { apply Forall_forall. intros r Hr. apply In_nth_error in Hr as (a & Hr). destruct (HDn _ _ Hr) as (xa & col & _ & Hcol & ->).
      destruct P; [congruence|]. destruct (Hcl _ _ Hcol) as (_ & ->). destruct qs; [congruence|discriminate]. }
    rewrite Ee. cbn [bind].
    destruct (max_abs_lift (columns d qs) Hcn Hcr) as (s & Es & (rs & vs & Hrs & Hvs & Hsv) & Hsb).
    rewrite Es. cbn [bind]. eexists. split; [reflexivity|].
    assert (Hscale : element_scale pts row s).
    { split.
      - apply In_nth_error in Hrs as (a & Hrs). apply In_nth_error in Hvs as (k & Hvs). exists k, a, vs. split; [|exact Hsv]. apply Hvc. eauto.
      - intros k a c H. apply Hvc in H as (col & H1 & H2). apply (Hsb col); eapply nth_error_In; eauto. }
    change (fl_ge (Some e) (fladd (Some tol) (flmul (Some tol) (Some s)))) with (ole (tol + tol * s) e).
    rewrite <- olt_iff. split.
    - intros H s' k a w xa c Hs' Hw Hxa Hc.
      assert (s' = s) as ->.
      { destruct Hs' as ((k1 & a1 & c1 & H1 & E1) & H2). destruct Hscale as ((k2 & a2 & c2 & H3 & E2) & H4). apply ole_antisym.
        - rewrite E1. eapply H4; eauto.
        - rewrite E2. eapply H2; eauto. }
      eapply ole_lt_trans; [|exact H]. apply Hvc in Hc as (col & Hcol & Hck).
      assert (Hr : nth_error D a = Some (map2 rsub (matvec P xa) col)).
      { unfold D. erewrite map2_nth; [reflexivity| |exact Hcol]. now rewrite nth_error_map, Hxa. }
      eapply Hub; [eapply nth_error_In; exact Hr|]. eapply (nth_error_In _ k). apply map2_nth; [|exact Hck].
      unfold matvec. now rewrite nth_error_map, Hw.
    - intros H. rewrite Hev. apply In_nth_error in Hre as (a & Hre). apply In_nth_error in Hve as (k & Hve).
      destruct (HDn _ _ Hre) as (xa & col & Hxa & Hcol & ->). apply nth_map2 in Hve as (u & c & Hu & Hc & ->).
      unfold matvec in Hu. rewrite nth_error_map in Hu. destruct (nth_error P k) as [w|] eqn:Ew; [|discriminate]. injection Hu as <-.
      eapply H; eauto. apply Hvc. eauto.
  Qed.
End Float.

Section Shapes.
  Variable R : ocring.

  Lemma list_nat_eqb_iff a b : list_nat_eqb a b = true <-> a = b.
  Proof.
    unfold list_nat_eqb. rewrite andb_true_iff, Nat.eqb_eq. split.
    - intros (Hl & H). revert b Hl H. induction a as [|x a IH]; intros [|y b] Hl H; cbn in *; try lia; [reflexivity|].
      apply andb_true_iff in H as (H1 & H2). apply Nat.eqb_eq in H1. f_equal; [exact H1|]. apply IH; [lia|exact H2].
    - intros <-. split; [reflexivity|]. induction a as [|x a IH]; [reflexivity|]. cbn [combine forallb fst snd]. now rewrite Nat.eqb_refl.
  Qed.

  Lemma guard_bind {X} b e (k : res X) y : (_ <- guard b e ;; k) = Ok y <-> b = true /\ k = Ok y.
  Proof. destruct b; cbn; split; try tauto; try congruence; try (intros (H & _); discriminate H). Qed.

  Lemma check_nodal_iff (m : cmesh R) : check_nodal m = Ok tt <-> nodal_shapes m.
  Proof.
    unfold check_nodal, nodal_shapes. destruct (cm_nodal m) as [| |(starts & nbs)].
    - split; [intros _ ? ? H; discriminate H|reflexivity].
    - split; [intros _ ? ? H; discriminate H|reflexivity].
    - rewrite !guard_bind, guard_tt. unfold shape_is. rewrite list_nat_eqb_iff, !Nat.eqb_eq. split.
      + intros (H1 & H2 & H3 & H4) s n [= <- <-]. split; [exact H1|]. split; [|auto].
        destruct (ia_shape nbs) as [|k [|]]; cbn in H2; try discriminate. now exists k.
      + intros H. destruct (H _ _ eq_refl) as (H1 & (n & H2) & H3 & H4). rewrite H2. auto.
  Qed.

  Lemma check_fagrp_iff (m : cmesh R) f : check_fagrp m f = Ok tt <-> facial_shape m f.
  Proof.
    unfold check_fagrp, facial_shape. destruct (ia_shape (cf_elements f)) as [|n [|]].
    - split; [intros H; discriminate H|]. intros (n & H & _). discriminate H.
    - rewrite !guard_bind. unfold shape_is. rewrite list_nat_eqb_iff, Nat.eqb_eq. split.
      + intros (H1 & H2 & H3). exists n. split; [reflexivity|]. split; [exact H1|]. split; [exact H2|]. intros i j e ef nb nf ->.
        rewrite !guard_bind, guard_tt in H3. rewrite !list_nat_eqb_iff, !Nat.eqb_eq in H3. tauto.
      + intros (n' & [= <-] & H1 & H2 & H3). split; [exact H1|]. split; [exact H2|]. destruct f; try reflexivity.
        destruct (H3 _ _ _ _ _ _ eq_refl) as (H4 & H5 & H6 & H7). rewrite !guard_bind, guard_tt. rewrite !list_nat_eqb_iff, !Nat.eqb_eq. tauto.
    - split; [intros H; discriminate H|]. intros (n' & H & _). discriminate H.
  Qed.

  Lemma mapM2_unit_ok {X} (f : X -> res unit) ll : (exists us, mapM (mapM f) ll = Ok us) <-> Forall (Forall (fun x => f x = Ok tt)) ll.
  Proof.
    split.
    - intros (us & H). apply mapM_ok in H. apply Forall_forall. intros l Hl. apply In_nth_error in Hl as (i & Hi).
      destruct (Forall2_nth_error _ _ _ _ _ H Hi) as (u & _ & Hu). apply mapM_unit_ok. eauto.
    - intros H. apply mapM_total. intros l Hl. apply mapM_unit_ok. apply (proj1 (Forall_forall _ _) H l Hl).
  Qed.

  Lemma Forall_iff' {X} (P Q : X -> Prop) l : (forall x, P x <-> Q x) -> Forall P l <-> Forall Q l.
  Proof. intros H. split; apply Forall_impl; intros a; apply H. Qed.

  Lemma bind_tt {X} (r : res X) : (_ <- r ;; Ok tt) = Ok tt <-> exists x, r = Ok x.
  Proof. destruct r; cbn; split; eauto; try congruence; intros (x & H); discriminate H. Qed.

  Lemma bind_unit (r k : res unit) : (_ <- r ;; k) = Ok tt <-> r = Ok tt /\ k = Ok tt.
  Proof.
    destruct r as [[]|e]; cbn; split; [auto|intros (_ & H); exact H|intros H; discriminate H|intros (H & _); discriminate H].
  Qed.

  Lemma check_facial_iff (m : cmesh R) : check_facial m = Ok tt <-> facial_shapes m.
  Proof.
    unfold check_facial, facial_shapes. destruct (cm_facial m) as [| |[|fs fags]].
    - split; [intros _ ? H; discriminate H|reflexivity].
    - split; [intros _ ? H; discriminate H|reflexivity].
    - split; [intros _ f [= <-]; now left|reflexivity].
    - rewrite guard_bind, Nat.eqb_eq, bind_tt, mapM2_unit_ok. rewrite (Forall_iff' _ (Forall (facial_shape m))).
      2:{ intros l. apply Forall_iff'. intros f. apply check_fagrp_iff. }
      split.
      + intros H f [= <-]. now right.
      + intros H. destruct (H _ eq_refl) as [H'|H']; [discriminate H'|exact H'].
  Qed.

  Lemma check_vi_iff (m : cmesh R) :
    check_vi_dtype m = Ok tt <-> Forall (fun g : cgroup R => eg_vi (cg_eg g) <> None -> cg_vidtype g = cm_vdtype m) (cm_groups m).
  Proof.
    unfold check_vi_dtype. rewrite bind_tt, mapM_unit_ok. apply Forall_iff'. intros g. destruct (eg_vi (cg_eg g)).
    - rewrite guard_tt, Nat.eqb_eq. split; [auto|]. intros H. apply H. discriminate.
    - split; [congruence|reflexivity].
  Qed.
End Shapes.
