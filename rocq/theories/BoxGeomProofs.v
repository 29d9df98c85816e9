(** * BoxGeomProofs: the elements of one cell fill it *)
From Coq Require Import List Arith Bool ZArith Lia Permutation Ring.
From Verif Require Import Np NpFacts MeshModel MeshSpec MeshProofs FacialProofs Lin Ord RestrProofs BoxModel BoxSpec BoxIndexProofs BoxConfProofs BoxTagProofs BoxProofs BoxMeshProofs.
Import ListNotations.

Section Geom.
  Variable R : ocring.
  Variable half : R.
  Add Ring Rboxg : (rth R).
  Local Open Scope cring_scope.
  Hypothesis Hhalf : half + half = 1.
  Hypothesis Hpos : forall a b : R, 0 <? a = true -> 0 <? b = true -> 0 <? a * b = true.

  (** the point at local position x (0, 1, 2 per axis) of the cell [lo, hi] *)
  Definition cpt (lo hi : list R) (x : list nat) : list R :=
    map2 (fun (lh : R * R) o => match o with 0%nat => fst lh | 1%nat => half * (fst lh + snd lh) | _ => snd lh end) (combine lo hi) x.
  Definition cell_pts (d : nat) (lo hi : list R) (cs : list corner) : list (list R) := map (fun cn => cpt lo hi (coff d cn)) cs.

  Definition pieces (d : nat) (is_tp : bool) : nat := if is_tp then 1 else fact d.

  Record cell_geom (d : nat) (is_tp : bool) (table : list (list corner)) : Prop := mk_cg {
    cg_meas : forall lo hi cs, length lo = d -> Forall2 (olt_p R) lo hi -> In cs table -> 0 <? measure R is_tp (cell_pts d lo hi cs) = true;
    cg_sum : forall lo hi, length lo = d -> Forall2 (olt_p R) lo hi -> rsum (map (fun cs => measure R is_tp (cell_pts d lo hi cs)) table) = nmul R (pieces d is_tp) (product R (map2 rsub hi lo));
    cg_cover : forall lo hi x, length lo = d -> Forall2 (olt_p R) lo hi -> in_span R (ole_p R) lo hi x -> exists cs, In cs table /\ in_element R is_tp (cell_pts d lo hi cs) x;
    cg_inside : forall lo hi x cs, length lo = d -> length x = d -> Forall2 (olt_p R) lo hi -> In cs table -> inside_element R is_tp (cell_pts d lo hi cs) x -> in_span R (olt_p R) lo hi x;
    cg_disjoint : forall lo hi x s s' cs cs', length lo = d -> length x = d -> Forall2 (olt_p R) lo hi -> nth_error table s = Some cs -> nth_error table s' = Some cs' ->
      inside_element R is_tp (cell_pts d lo hi cs) x -> inside_element R is_tp (cell_pts d lo hi cs') x -> s = s' }.

  (** ** ordered ring facts *)
  Lemma lt_pos (a b : R) : a <? b = true -> 0 <? b - a = true.
  Proof. apply olt_diff. Qed.
  Lemma pos_lt (a b : R) : 0 <? b - a = true -> a <? b = true.
  Proof. apply olt_diff. Qed.
  Lemma pos_mul_inv (a b : R) : 0 <? b = true -> 0 <? a * b = true -> 0 <? a = true.
  Proof.
    rewrite (olt_iff R 0 (a * b)), (olt_iff R 0 a), <- !not_true_iff_false. intros Hb H Ha. apply H. apply (proj2 (ole_sub R _ _)). apply (proj1 (ole_sub R _ _)) in Ha. replace (0 - a * b) with ((0 - a) * b) by ring. apply ole_mul; [exact Ha|now apply olt_nle].
  Qed.
  Lemma pos_nneg (a : R) : 0 <? a = true -> 0 <? - a = true -> False.
  Proof. intros H1 H2. pose proof (olt_add R _ _ _ _ H1 H2) as H. replace (a + - a) with (@r0 R) in H by ring. replace (0 + 0) with (@r0 R) in H by ring. rewrite olt_irrefl in H. discriminate. Qed.
  Lemma pos_add (a b : R) : 0 <? a = true -> 0 <? b = true -> 0 <? a + b = true.
  Proof. intros H1 H2. pose proof (olt_add R _ _ _ _ H1 H2) as H. now replace (0 + 0) with (@r0 R) in H by ring. Qed.
  Lemma nonneg_or (a : R) : (0 <=? a) = true \/ (0 <=? - a) = true.
  Proof. destruct (ole_total R 0 a) as [H|H]; [now left|right]. apply le_diff in H. now replace (0 - a) with (- a) in H by ring. Qed.
  Lemma mul_nonneg (a b : R) : (0 <=? a) = true -> 0 <? b = true -> (0 <=? a * b) = true.
  Proof. intros Ha Hb. apply ole_mul; [exact Ha|now apply olt_nle]. Qed.

  Ltac ge_ring := match goal with H : (0 <=? ?f) = true |- (0 <=? ?e) = true => replace e with f by ring; exact H end.
  Ltac gt_ring := match goal with H : (0 <? ?f) = true |- (0 <? ?e) = true => replace e with f by ring; exact H end.

  (** a cell of width k + k is the interval [l, l + (k + k)] with the midpoint l + k *)
  Lemma half_width (l h : R) : l <? h = true -> exists k, 0 <? k = true /\ h = l + (k + k) /\ half * (l + h) = l + k.
  Proof.
    intros H. exists (half * (h - l)). split; [|split].
    - apply olt_double. replace (half * (h - l) + half * (h - l)) with ((half + half) * (h - l)) by ring. rewrite Hhalf. replace (1 * (h - l)) with (h - l) by ring. now apply lt_pos.
    - replace (half * (h - l) + half * (h - l)) with ((half + half) * (h - l)) by ring. rewrite Hhalf. ring.
    - replace (half * (l + h)) with ((half + half) * l + half * (h - l)) by ring. rewrite Hhalf. ring.
  Qed.
  Lemma width (l h : R) : l <? h = true -> exists k, 0 <? k = true /\ h = l + k.
  Proof. intros H. exists (h - l). split; [now apply lt_pos|ring]. Qed.

  Ltac inv2 := repeat match goal with
    | H : Forall2 _ (_ :: _) _ |- _ => inversion H; clear H; subst
    | H : Forall2 _ [] _ |- _ => inversion H; clear H; subst
    | H : length _ = _ |- _ => cbn in H; discriminate H
    end.
  Ltac dest_list l := destruct l as [|? [|? [|? [|? ?]]]]; cbn [length] in *; try discriminate.
  Ltac olt_unfold := unfold olt_p, ole_p in *.

  Lemma seg_simplex : cell_geom 1 false seg_table.
  Proof.
    constructor.
    - intros lo hi cs Hl HF [<-|[]]. dest_list lo. inv2. olt_unfold. cbn. apply lt_pos. assumption.
    - intros lo hi Hl HF. dest_list lo. inv2. cbn. ring.
    - intros lo hi x Hl HF (H1 & H2). dest_list lo. inv2. exists [Cn [0%nat]; Cn [1%nat]]. split; [now left|]. intros i Hi. olt_unfold. cbn in Hi. destruct i as [|[|]]; [cbn|cbn|lia]; now apply le_diff.
    - intros lo hi x cs Hl Hx HF [<-|[]] Hin. dest_list lo. inv2. dest_list x. pose proof (Hin 0%nat ltac:(cbn; lia)) as Q0. pose proof (Hin 1%nat ltac:(cbn; lia)) as Q1. cbn in Q0, Q1. split; repeat constructor; now apply pos_lt.
    - intros lo hi x s s' cs cs' _ _ _ Hs Hs' _ _. destruct s as [|[|]], s' as [|[|]]; cbn in *; congruence.
  Qed.
  Ltac tensor_geom :=
    constructor;
    [ intros lo hi cs Hl HF [<-|[]]; dest_list lo; inv2; olt_unfold; cbn
    | intros lo hi Hl HF; dest_list lo; inv2; cbn; ring
    | intros lo hi x Hl HF Hsp; eexists; split; [left; reflexivity|]; dest_list lo; inv2; unfold in_element; do 2 eexists; split; [cbn; reflexivity|]; split; [cbn; reflexivity|]; exact Hsp
    | intros lo hi x cs Hl Hx HF [<-|[]] (lo' & hi' & Q1 & Q2 & Q3); dest_list lo; inv2; cbn in Q1, Q2; injection Q1 as <-; injection Q2 as <-; exact Q3
    | intros lo hi x s s' cs cs' _ _ _ Hs Hs' _ _; destruct s as [|[|]], s' as [|[|]]; cbn in *; congruence ].
  Lemma seg_tensor : cell_geom 1 true seg_table.
  Proof. tensor_geom. apply lt_pos. assumption. Qed.
  Lemma quad_geom : cell_geom 2 true (cp_table quad_plan).
  Proof.
    tensor_geom. match goal with |- (0 <? ?e) = true => match goal with H : (?a <? ?b) = true, H' : (?c <? ?d) = true |- _ => replace e with ((b - a) * (d - c)) by ring; apply Hpos; now apply lt_pos end end.
  Qed.
  Lemma hex_geom : cell_geom 3 true (cp_table hex_plan).
  Proof.
    tensor_geom. match goal with |- (0 <? ?e) = true => match goal with H : (?a <? ?b) = true, H' : (?c <? ?d) = true, H'' : (?f <? ?g) = true |- _ => replace e with ((b - a) * (d - c) * (g - f)) by ring; apply Hpos; [apply Hpos|]; now apply lt_pos end end.
  Qed.


  (** ** explicit coordinates *)
  Lemma cell2 lo hi : length lo = 2%nat -> Forall2 (olt_p R) lo hi -> exists lx ly kx ky, lo = [lx; ly] /\ hi = [lx + kx; ly + ky] /\ 0 <? kx = true /\ 0 <? ky = true.
  Proof.
    intros Hl HF. dest_list lo. inv2. olt_unfold. repeat match goal with H : (?l <? ?h) = true |- _ => is_var l; is_var h; apply width in H; destruct H as (? & ? & ->) end. do 4 eexists. split; [reflexivity|]. split; [reflexivity|]. auto.
  Qed.
  Lemma cell2h lo hi : length lo = 2%nat -> Forall2 (olt_p R) lo hi -> exists lx ly kx ky, lo = [lx; ly] /\ hi = [lx + (kx + kx); ly + (ky + ky)] /\ half * (lx + (lx + (kx + kx))) = lx + kx /\ half * (ly + (ly + (ky + ky))) = ly + ky /\ 0 <? kx = true /\ 0 <? ky = true.
  Proof.
    intros Hl HF. dest_list lo. inv2. olt_unfold. repeat match goal with H : (?l <? ?h) = true |- _ => is_var l; is_var h; apply half_width in H; destruct H as (? & ? & -> & ?) end. do 4 eexists. split; [reflexivity|]. split; [reflexivity|]. auto.
  Qed.
  Lemma cell3 lo hi : length lo = 3%nat -> Forall2 (olt_p R) lo hi -> exists lx ly lz kx ky kz, lo = [lx; ly; lz] /\ hi = [lx + kx; ly + ky; lz + kz] /\ 0 <? kx = true /\ 0 <? ky = true /\ 0 <? kz = true.
  Proof.
    intros Hl HF. dest_list lo. inv2. olt_unfold. repeat match goal with H : (?l <? ?h) = true |- _ => is_var l; is_var h; apply width in H; destruct H as (? & ? & ->) end. do 6 eexists. split; [reflexivity|]. split; [reflexivity|]. auto.
  Qed.
  Lemma pt2 (lx ly : R) x : length x = 2%nat -> exists u v, x = [lx + u; ly + v].
  Proof. intros H. dest_list x. exists (c - lx), (c0 - ly). repeat f_equal; ring. Qed.
  Lemma pt3 (lx ly lz : R) x : length x = 3%nat -> exists u v w, x = [lx + u; ly + v; lz + w].
  Proof. intros H. dest_list x. exists (c - lx), (c0 - ly), (c1 - lz). repeat f_equal; ring. Qed.
  Lemma ge1 (l k u : R) : ole_p R l (l + u) -> ole_p R (l + u) (l + k) -> (0 <=? u) = true /\ (0 <=? k - u) = true.
  Proof. unfold ole_p. intros H1 H2. apply le_diff in H1, H2. split; [replace u with (l + u - l) by ring; exact H1|replace (k - u) with (l + k - (l + u)) by ring; exact H2]. Qed.
  Lemma gt1 (l k u : R) : 0 <? u = true -> 0 <? k - u = true -> olt_p R l (l + u) /\ olt_p R (l + u) (l + k).
  Proof. unfold olt_p. intros H1 H2. split; apply pos_lt; [replace (l + u - l) with u by ring; exact H1|replace (l + k - (l + u)) with (k - u) by ring; exact H2]. Qed.
  Lemma span2 lx ly kx ky x : in_span R (ole_p R) [lx; ly] [lx + kx; ly + ky] x -> exists u v, x = [lx + u; ly + v] /\ (0 <=? u) = true /\ (0 <=? kx - u) = true /\ (0 <=? v) = true /\ (0 <=? ky - v) = true.
  Proof.
    intros (H1 & H2). destruct (pt2 lx ly x) as (u & v & ->); [now rewrite <- (Forall2_length' _ _ _ H1)|]. exists u, v. split; [reflexivity|]. inv2.
    destruct (ge1 lx kx u) as (A1 & A2); [assumption|assumption|]. destruct (ge1 ly ky v) as (A3 & A4); [assumption|assumption|]. auto.
  Qed.
  Lemma span3 lx ly lz kx ky kz x : in_span R (ole_p R) [lx; ly; lz] [lx + kx; ly + ky; lz + kz] x -> exists u v w, x = [lx + u; ly + v; lz + w] /\ (0 <=? u) = true /\ (0 <=? kx - u) = true /\ (0 <=? v) = true /\ (0 <=? ky - v) = true /\ (0 <=? w) = true /\ (0 <=? kz - w) = true.
  Proof.
    intros (H1 & H2). destruct (pt3 lx ly lz x) as (u & v & w & ->); [now rewrite <- (Forall2_length' _ _ _ H1)|]. exists u, v, w. split; [reflexivity|]. inv2.
    destruct (ge1 lx kx u) as (A1 & A2); [assumption|assumption|]. destruct (ge1 ly ky v) as (A3 & A4); [assumption|assumption|]. destruct (ge1 lz kz w) as (A5 & A6); [assumption|assumption|]. repeat split; assumption.
  Qed.
  Lemma span2_lt lx ly kx ky u v : 0 <? u = true -> 0 <? kx - u = true -> 0 <? v = true -> 0 <? ky - v = true -> in_span R (olt_p R) [lx; ly] [lx + kx; ly + ky] [lx + u; ly + v].
  Proof. intros. destruct (gt1 lx kx u) as (A1 & A2); [assumption|assumption|]. destruct (gt1 ly ky v) as (A3 & A4); [assumption|assumption|]. split; repeat constructor; assumption. Qed.
  Lemma span3_lt lx ly lz kx ky kz u v w : 0 <? u = true -> 0 <? kx - u = true -> 0 <? v = true -> 0 <? ky - v = true -> 0 <? w = true -> 0 <? kz - w = true -> in_span R (olt_p R) [lx; ly; lz] [lx + kx; ly + ky; lz + kz] [lx + u; ly + v; lz + w].
  Proof. intros. destruct (gt1 lx kx u) as (A1 & A2); [assumption|assumption|]. destruct (gt1 ly ky v) as (A3 & A4); [assumption|assumption|]. destruct (gt1 lz kz w) as (A5 & A6); [assumption|assumption|]. split; repeat constructor; assumption. Qed.

  (** ** triangles *)
  Ltac in_simpl := intros i Hi; cbn in Hi; destruct i as [|[|[|[|i]]]]; try lia; cbn; ge_ring.
  (** the replaced measures of an inside point *)
  Ltac baries H n := match n with 0%nat => idtac | S ?m => let Q := fresh "Q" in pose proof (H m ltac:(cbn; lia)) as Q; cbn in Q; baries H m end.

  Lemma tri_geom : cell_geom 2 false (cp_table tri_plan).
  Proof.
    constructor.
    - intros lo hi cs Hl HF Hin. destruct (cell2 lo hi Hl HF) as (lx & ly & kx & ky & -> & -> & Hx & Hy). pose proof (Hpos _ _ Hx Hy). destruct Hin as [<-|[<-|[]]]; cbn; gt_ring.
    - intros lo hi Hl HF. destruct (cell2 lo hi Hl HF) as (lx & ly & kx & ky & -> & -> & Hx & Hy). cbn. ring.
    - intros lo hi x Hl HF Hsp. destruct (cell2 lo hi Hl HF) as (lx & ly & kx & ky & -> & -> & Hx & Hy). destruct (span2 _ _ _ _ _ Hsp) as (u & v & -> & U1 & U2 & V1 & V2).
      pose proof (mul_nonneg _ _ U1 Hy). pose proof (mul_nonneg _ _ U2 Hy). pose proof (mul_nonneg _ _ V1 Hx). pose proof (mul_nonneg _ _ V2 Hx).
      destruct (nonneg_or (kx * ky - u * ky - v * kx)) as [P|P]; [exists [Cn [0;0]; Cn [1;0]; Cn [0;1]]%nat; split; [now left|]|exists [Cn [1;1]; Cn [0;1]; Cn [1;0]]%nat; split; [right; now left|]]; in_simpl.
    - intros lo hi x cs Hl Hlx HF Hin H. destruct (cell2 lo hi Hl HF) as (lx & ly & kx & ky & -> & -> & Hx & Hy). destruct (pt2 lx ly x Hlx) as (u & v & ->).
      destruct Hin as [<-|[<-|[]]]; baries H 3%nat.
      + apply span2_lt.
        * apply (pos_mul_inv u ky Hy). gt_ring.
        * apply (pos_mul_inv (kx - u) ky Hy). replace ((kx - u) * ky) with ((kx * ky - u * ky - v * kx) + v * kx) by ring. apply pos_add; gt_ring.
        * apply (pos_mul_inv v kx Hx). gt_ring.
        * apply (pos_mul_inv (ky - v) kx Hx). replace ((ky - v) * kx) with ((kx * ky - u * ky - v * kx) + u * ky) by ring. apply pos_add; gt_ring.
      + apply span2_lt.
        * apply (pos_mul_inv u ky Hy). replace (u * ky) with ((u * ky + v * kx - kx * ky) + (kx * ky - v * kx)) by ring. apply pos_add; gt_ring.
        * apply (pos_mul_inv (kx - u) ky Hy). gt_ring.
        * apply (pos_mul_inv v kx Hx). replace (v * kx) with ((u * ky + v * kx - kx * ky) + (kx * ky - u * ky)) by ring. apply pos_add; gt_ring.
        * apply (pos_mul_inv (ky - v) kx Hx). gt_ring.
    - intros lo hi x s s' cs cs' Hl Hlx HF Hs Hs' H H'. destruct (cell2 lo hi Hl HF) as (lx & ly & kx & ky & -> & -> & Hx & Hy). destruct (pt2 lx ly x Hlx) as (u & v & ->).
      destruct s as [|[|[|s]]], s' as [|[|[|s']]]; cbn in Hs, Hs'; try discriminate; try reflexivity; try (destruct s; discriminate); try (destruct s'; discriminate); injection Hs as <-; injection Hs' as <-; exfalso; baries H 3%nat; baries H' 3%nat;
        apply (pos_nneg (kx * ky - u * ky - v * kx)); gt_ring.
  Qed.

  Ltac try_comb H := match type of H with (0 <? ?f) = true => match goal with |- (0 <? ?e) = true => replace e with f by ring; exact H end end.
  Ltac comb := match goal with
    | H1 : (0 <? ?a) = true |- _ => try_comb H1
    | H1 : (0 <? ?a) = true, H2 : (0 <? ?b) = true |- _ => first [try_comb (pos_add _ _ H1 H2) | try_comb (pos_add _ _ (pos_add _ _ H1 H1) H2)]
    | H1 : (0 <? ?a) = true, H2 : (0 <? ?b) = true, H3 : (0 <? ?c) = true |- _ =>
        first [try_comb (pos_add _ _ (pos_add _ _ H1 H2) H3) | try_comb (pos_add _ _ (pos_add _ _ (pos_add _ _ H1 H1) (pos_add _ _ H2 H2)) H3)]
    end.
  Ltac two_subs Hs Hs' := cbn in Hs, Hs'; try discriminate; try reflexivity; try (match type of Hs with nth_error [] ?n = _ => destruct n; discriminate end); try (match type of Hs' with nth_error [] ?n = _ => destruct n; discriminate end); injection Hs as <-; injection Hs' as <-; exfalso.

  Lemma x_geom : cell_geom 2 false (cp_table x_plan).
  Proof.
    constructor.
    - intros lo hi cs Hl HF Hin. destruct (cell2h lo hi Hl HF) as (lx & ly & kx & ky & -> & -> & Mx & My & Hx & Hy). pose proof (Hpos _ _ Hx Hy) as HH. pose proof (pos_add _ _ HH HH). destruct Hin as [<-|[<-|[<-|[<-|[]]]]]; cbn; rewrite ?Mx, ?My; gt_ring.
    - intros lo hi Hl HF. destruct (cell2h lo hi Hl HF) as (lx & ly & kx & ky & -> & -> & Mx & My & Hx & Hy). cbn. rewrite ?Mx, ?My. ring.
    - intros lo hi x Hl HF Hsp. destruct (cell2h lo hi Hl HF) as (lx & ly & kx & ky & -> & -> & Mx & My & Hx & Hy). destruct (span2 _ _ _ _ _ Hsp) as (u & v & -> & U1 & U2 & V1 & V2).
      pose proof (mul_nonneg _ _ U1 (pos_add _ _ Hy Hy)). pose proof (mul_nonneg _ _ U2 (pos_add _ _ Hy Hy)). pose proof (mul_nonneg _ _ V1 (pos_add _ _ Hx Hx)). pose proof (mul_nonneg _ _ V2 (pos_add _ _ Hx Hx)).
      destruct (nonneg_or (kx * ky + kx * ky - u * ky - v * kx)) as [P|P], (nonneg_or (u * ky - v * kx)) as [Q|Q];
        [exists [Cn [0;0]; Cn [1;0]; Mid]%nat; split; [now left|]|exists [Cn [0;1]; Cn [0;0]; Mid]%nat; split; [right; right; right; now left|]|exists [Cn [1;0]; Cn [1;1]; Mid]%nat; split; [right; now left|]|exists [Cn [1;1]; Cn [0;1]; Mid]%nat; split; [right; right; now left|]];
        (intros i Hi; cbn in Hi; destruct i as [|[|[|i]]]; try lia; cbn; rewrite ?Mx, ?My; ge_ring).
    - intros lo hi x cs Hl Hlx HF Hin H. destruct (cell2h lo hi Hl HF) as (lx & ly & kx & ky & -> & -> & Mx & My & Hx & Hy). destruct (pt2 lx ly x Hlx) as (u & v & ->).
      assert (Hgoal : 0 <? u * ky + u * ky = true -> 0 <? (kx + kx - u) * ky + (kx + kx - u) * ky = true -> 0 <? v * kx + v * kx = true -> 0 <? (ky + ky - v) * kx + (ky + ky - v) * kx = true -> in_span R (olt_p R) [lx; ly] [lx + (kx + kx); ly + (ky + ky)] [lx + u; ly + v]).
      { intros G1 G2 G3 G4. apply span2_lt; [apply (pos_mul_inv _ ky Hy)|apply (pos_mul_inv _ ky Hy)|apply (pos_mul_inv _ kx Hx)|apply (pos_mul_inv _ kx Hx)]; apply olt_double; assumption. }
      destruct Hin as [<-|[<-|[<-|[<-|[]]]]]; baries H 3%nat; rewrite ?Mx, ?My in *; apply Hgoal; clear Hgoal Hx Hy; comb.
    - intros lo hi x s s' cs cs' Hl Hlx HF Hs Hs' H H'. destruct (cell2h lo hi Hl HF) as (lx & ly & kx & ky & -> & -> & Mx & My & Hx & Hy). destruct (pt2 lx ly x Hlx) as (u & v & ->).
      destruct s as [|[|[|[|s]]]], s' as [|[|[|[|s']]]]; two_subs Hs Hs'; baries H 3%nat; baries H' 3%nat; rewrite ?Mx, ?My in *;
        first [apply (pos_nneg (kx * ky + kx * ky - u * ky - v * kx)); gt_ring | apply (pos_nneg (u * ky - v * kx)); gt_ring].
  Qed.

  (** ** tetrahedra *)
  Lemma tet_forms lx ly lz kx ky kz u v w s cs : nth_error (cp_table tet_plan) s = Some cs ->
    inside_element R false (cell_pts 3 [lx; ly; lz] [lx + kx; ly + ky; lz + kz] cs) [lx + u; ly + v; lz + w] ->
    exists H a b c, H = kx * ky * kz /\ a = u * ky * kz /\ b = kx * v * kz /\ c = kx * ky * w /\
      match s with
      | 0%nat => 0 <? H - a - b - c = true /\ 0 <? a = true /\ 0 <? b = true /\ 0 <? c = true
      | 1%nat => 0 <? a + b + c - H = true /\ 0 <? H - b - c = true /\ 0 <? H - a - b = true /\ 0 <? b = true
      | 2%nat => 0 <? a = true /\ 0 <? b + c - H = true /\ 0 <? H - c = true /\ 0 <? H - a - b = true
      | 3%nat => 0 <? H - b - c = true /\ 0 <? H - a = true /\ 0 <? c = true /\ 0 <? a + b - H = true
      | 4%nat => 0 <? b + c - H = true /\ 0 <? H + H - a - b - c = true /\ 0 <? a + b - H = true /\ 0 <? H - b = true
      | 5%nat => 0 <? H - a = true /\ 0 <? a + b + c - H - H = true /\ 0 <? H - b = true /\ 0 <? H - c = true
      | _ => False
      end.
  Proof.
    clear. intros Hs H. do 4 eexists. do 4 (split; [reflexivity|]). destruct s as [|[|[|[|[|[|s]]]]]]; cbn in Hs; try discriminate; [..|destruct s; discriminate]; injection Hs as <-; baries H 4%nat; repeat split; gt_ring.
  Qed.

  Lemma tet_geom : cell_geom 3 false (cp_table tet_plan).
  Proof.
    constructor.
    - intros lo hi cs Hl HF Hin. destruct (cell3 lo hi Hl HF) as (lx & ly & lz & kx & ky & kz & -> & -> & Hx & Hy & Hz). pose proof (Hpos _ _ (Hpos _ _ Hx Hy) Hz). destruct Hin as [<-|[<-|[<-|[<-|[<-|[<-|[]]]]]]]; cbn; gt_ring.
    - intros lo hi Hl HF. destruct (cell3 lo hi Hl HF) as (lx & ly & lz & kx & ky & kz & -> & -> & Hx & Hy & Hz). cbn. ring.
    - intros lo hi x Hl HF Hsp. destruct (cell3 lo hi Hl HF) as (lx & ly & lz & kx & ky & kz & -> & -> & Hx & Hy & Hz). destruct (span3 _ _ _ _ _ _ _ Hsp) as (u & v & w & -> & U1 & U2 & V1 & V2 & W1 & W2).
      pose proof (mul_nonneg _ _ U1 (Hpos _ _ Hy Hz)) as A1. pose proof (mul_nonneg _ _ U2 (Hpos _ _ Hy Hz)) as A2. pose proof (mul_nonneg _ _ V1 (Hpos _ _ Hx Hz)) as A3. pose proof (mul_nonneg _ _ V2 (Hpos _ _ Hx Hz)) as A4. pose proof (mul_nonneg _ _ W1 (Hpos _ _ Hx Hy)) as A5. pose proof (mul_nonneg _ _ W2 (Hpos _ _ Hx Hy)) as A6. clear U1 U2 V1 V2 W1 W2.
      destruct (nonneg_or (kx * ky * kz - u * ky * kz - kx * v * kz - kx * ky * w)) as [P1|P1]; [eexists; split; [left; reflexivity|]; in_simpl|].
      destruct (nonneg_or (kx * ky * kz - kx * v * kz - kx * ky * w)) as [P2|P2], (nonneg_or (kx * ky * kz - u * ky * kz - kx * v * kz)) as [P3|P3].
      + eexists; split; [right; left; reflexivity|]; in_simpl.
      + eexists; split; [right; right; right; left; reflexivity|]; in_simpl.
      + eexists; split; [right; right; left; reflexivity|]; in_simpl.
      + destruct (nonneg_or (kx * ky * kz + kx * ky * kz - u * ky * kz - kx * v * kz - kx * ky * w)) as [P4|P4].
        * eexists; split; [right; right; right; right; left; reflexivity|]; in_simpl.
        * eexists; split; [right; right; right; right; right; left; reflexivity|]; in_simpl.
    - intros lo hi x cs Hl Hlx HF Hin H. destruct (cell3 lo hi Hl HF) as (lx & ly & lz & kx & ky & kz & -> & -> & Hx & Hy & Hz). destruct (pt3 lx ly lz x Hlx) as (u & v & w & ->).
      assert (Hgoal : 0 <? u * (ky * kz) = true -> 0 <? (kx - u) * (ky * kz) = true -> 0 <? v * (kx * kz) = true -> 0 <? (ky - v) * (kx * kz) = true -> 0 <? w * (kx * ky) = true -> 0 <? (kz - w) * (kx * ky) = true -> in_span R (olt_p R) [lx; ly; lz] [lx + kx; ly + ky; lz + kz] [lx + u; ly + v; lz + w]).
      { intros G1 G2 G3 G4 G5 G6. apply span3_lt; [apply (pos_mul_inv _ _ (Hpos _ _ Hy Hz))|apply (pos_mul_inv _ _ (Hpos _ _ Hy Hz))|apply (pos_mul_inv _ _ (Hpos _ _ Hx Hz))|apply (pos_mul_inv _ _ (Hpos _ _ Hx Hz))|apply (pos_mul_inv _ _ (Hpos _ _ Hx Hy))|apply (pos_mul_inv _ _ (Hpos _ _ Hx Hy))]; assumption. }
      apply In_nth_error in Hin as (s & Hs). destruct (tet_forms _ _ _ _ _ _ _ _ _ _ _ Hs H) as (h & a & b & c & Eh & Ea & Eb & Ec & Hf). clear Hs H Hx Hy Hz HF.
      replace (u * (ky * kz)) with a in Hgoal by (rewrite Ea; ring). replace ((kx - u) * (ky * kz)) with (h - a) in Hgoal by (rewrite Ea, Eh; ring). replace (v * (kx * kz)) with b in Hgoal by (rewrite Eb; ring). replace ((ky - v) * (kx * kz)) with (h - b) in Hgoal by (rewrite Eb, Eh; ring). replace (w * (kx * ky)) with c in Hgoal by (rewrite Ec; ring). replace ((kz - w) * (kx * ky)) with (h - c) in Hgoal by (rewrite Ec, Eh; ring).
      clear Eh Ea Eb Ec. destruct s as [|[|[|[|[|[|s]]]]]]; [destruct Hf as (Q & Q0 & Q1 & Q2); apply Hgoal; clear Hgoal; comb..|destruct Hf].
    - intros lo hi x s s' cs cs' Hl Hlx HF Hs Hs' H H'. destruct (cell3 lo hi Hl HF) as (lx & ly & lz & kx & ky & kz & -> & -> & Hx & Hy & Hz). destruct (pt3 lx ly lz x Hlx) as (u & v & w & ->).
      destruct (tet_forms _ _ _ _ _ _ _ _ _ _ _ Hs H) as (h & a & b & c & -> & -> & -> & -> & F). destruct (tet_forms _ _ _ _ _ _ _ _ _ _ _ Hs' H') as (h & a & b & c & -> & -> & -> & -> & F'). clear Hs Hs' H H' Hx Hy Hz HF.
      set (h := kx * ky * kz) in *. set (a := u * ky * kz) in *. set (b := kx * v * kz) in *. set (c := kx * ky * w) in *. clearbody h a b c.
      assert (Hsign : forall s, match s with
          | 0%nat => 0 <? h - a - b - c = true /\ 0 <? a = true /\ 0 <? b = true /\ 0 <? c = true
          | 1%nat => 0 <? a + b + c - h = true /\ 0 <? h - b - c = true /\ 0 <? h - a - b = true /\ 0 <? b = true
          | 2%nat => 0 <? a = true /\ 0 <? b + c - h = true /\ 0 <? h - c = true /\ 0 <? h - a - b = true
          | 3%nat => 0 <? h - b - c = true /\ 0 <? h - a = true /\ 0 <? c = true /\ 0 <? a + b - h = true
          | 4%nat => 0 <? b + c - h = true /\ 0 <? h + h - a - b - c = true /\ 0 <? a + b - h = true /\ 0 <? h - b = true
          | 5%nat => 0 <? h - a = true /\ 0 <? a + b + c - h - h = true /\ 0 <? h - b = true /\ 0 <? h - c = true
          | _ => False
          end -> match s with
          | 0%nat => 0 <? h - a - b - c = true /\ 0 <? h - b - c = true /\ 0 <? h - a - b = true
          | 1%nat => 0 <? - (h - a - b - c) = true /\ 0 <? h - b - c = true /\ 0 <? h - a - b = true
          | 2%nat => 0 <? - (h - b - c) = true /\ 0 <? h - a - b = true /\ 0 <? h - a - b = true
          | 3%nat => 0 <? h - b - c = true /\ 0 <? - (h - a - b) = true /\ 0 <? - (h - a - b) = true
          | 4%nat => 0 <? - (h - b - c) = true /\ 0 <? - (h - a - b) = true /\ 0 <? h + h - a - b - c = true
          | 5%nat => 0 <? - (h - b - c) = true /\ 0 <? - (h - a - b) = true /\ 0 <? - (h + h - a - b - c) = true
          | _ => False
          end).
      { clear. intros [|[|[|[|[|[|s]]]]]]; [intros (Q & Q0 & Q1 & Q2); repeat split; comb..|intros []]. }
      pose proof (Hsign _ F) as S1. pose proof (Hsign _ F') as S2. clear Hsign F F'. generalize dependent (h - a - b - c). generalize dependent (h + h - a - b - c). generalize dependent (h - b - c). generalize dependent (h - a - b). intros p3 p2 p4 p1 S1 S2.
      destruct s as [|[|[|[|[|[|s]]]]]], s' as [|[|[|[|[|[|s']]]]]]; try reflexivity; try contradiction; exfalso; destruct S1 as (? & ? & ?), S2 as (? & ? & ?);
        first [apply (pos_nneg p1); assumption | apply (pos_nneg p2); assumption | apply (pos_nneg p3); assumption | apply (pos_nneg p4); assumption].
  Qed.
End Geom.
