(** * PartConnProofs: make_partition_connection *)
From Coq Require Import List Arith Bool Lia Permutation.
From Verif Require Import Np NpFacts Lin MeshModel MeshSpec MeshProofs CompletionProofs PartSpec PointProofs ConnModel ConnSpec FaceConnModel FaceConnSpec PartConnSpec RestrProofs FaceValProofs FaceEmbProofs CrossProofs OppProofs OppMainProofs.
Import ListNotations.

Lemma combine_app' {X Y} (a b : list X) (c d : list Y) : length a = length c -> combine (a ++ b) (c ++ d) = combine a c ++ combine b d.
Proof. revert c. induction a as [|x a IH]; intros [|y c] H; cbn [length] in H; try discriminate; [reflexivity|]. cbn. f_equal. apply IH. lia. Qed.
Lemma filter_combine_map {X} (h : X -> nat) (i : nat) (l : list X) : map snd (filter (fun ge : nat * X => fst ge =? i) (combine (map h l) l)) = filter (fun x => h x =? i) l.
Proof. induction l as [|x l IH]; [reflexivity|]. cbn [map combine filter fst]. destruct (h x =? i); cbn [map snd]; now rewrite IH. Qed.
Lemma NoDup_flat_map_key {X Y} (F : X -> list Y) (key : Y -> X) l : NoDup l -> (forall x, In x l -> NoDup (F x)) -> (forall x y, In x l -> In y (F x) -> key y = x) -> NoDup (flat_map F l).
Proof.
  intros Hnd Hd Hk. induction Hnd as [|x l Hx Hnd IH]; [constructor|]. cbn [flat_map]. apply NoDup_app; [apply Hd; now left|apply IH; intros; [apply Hd|apply Hk]; auto; now right|].
  intros y Hy Hin. apply in_flat_map in Hin. destruct Hin as (x' & Hx' & Hy'). pose proof (Hk x y (or_introl eq_refl) Hy) as E1. pose proof (Hk x' y (or_intror Hx') Hy') as E2. assert (x' = x) by congruence. apply Hx. congruence.
Qed.

Section Infos.
  Context {E E' V A N K : Type}.
  Variables (dim : K -> nat) (factory : K -> K) (fnodes : K -> nat -> K -> N) (face_coords : K -> nat -> E -> E').
  Variables (groups : list (egroup E)) (kinds : list K) (fags : list (list (fagrp A))) (vs : list V) (r : restr).
  Hypothesis Hm : restrictable groups kinds fags vs false.
  Hypothesis Honce : asked_once fags r.
  Variables (bvs : list V) (bgs : list (egroup E')) (to : list (@dgroup K)).
  Notation c := (mk_conn (vol_groups dim groups kinds) to (all_batches factory fnodes groups kinds fags r false) true).
  Hypothesis Hr : restriction dim factory fnodes face_coords groups kinds fags vs r false bvs bgs c.
  Variable p : nat.

  Definition sel (b : fagrp A) : bool := match b with InterPart _ _ q _ _ => q =? p | _ => false end.

  Lemma writes_cols (bs : list (@batch N)) fs : Forall (fun b => length (bt_from b) = length (bt_to b)) bs ->
    mapM (fun b => match bt_face b with Some f => Ok (repeat f (length (bt_from b))) | None => Err TypeError end) bs = Ok fs ->
    combine (combine (flat_map bt_from bs) (concat fs)) (flat_map bt_to bs) = writes bs.
  Proof.
    intros Hl E1. apply mapM_ok in E1. induction E1 as [|b f bs fs H E1 IH]; [reflexivity|]. inversion Hl as [|? ? Hb Hl']; subst. cbn [flat_map concat writes]. fold (writes bs).
    destruct (bt_face b) as [f0|]; [|discriminate]. injection H as <-. rewrite combine_app' by now rewrite repeat_length. rewrite combine_app' by (rewrite combine_length, repeat_length; lia). rewrite IH by exact Hl'. f_equal.
    clear. revert b. intros b. generalize (bt_to b). induction (bt_from b) as [|e l IH]; intros [|t ts]; cbn; try reflexivity. f_equal. apply IH.
  Qed.

  Lemma infos_at infos : make_infos fags p (length groups) c = Ok infos -> length infos = length groups /\
    forall g ri, nth_error infos g = Some ri -> exists l bs, nth_error fags g = Some l /\ nth_error (cn_groups c) g = Some bs /\ ri_adj ri = filter sel l /\
      combine (combine (ri_vol ri) (ri_faces ri)) (ri_bdry ri) = writes bs /\ length (ri_vol ri) = length (ri_faces ri) /\ length (ri_vol ri) = length (ri_bdry ri).
  Proof.
    destruct (groups_len dim factory fnodes face_coords groups kinds fags vs r Hm bvs bgs to Hr) as (Hlen & Hlt & Hlf).
    intros Ei. unfold make_infos in Ei. match type of Ei with bind (guard ?u _) _ = _ => destruct u; [|discriminate] end. cbn [guard bind] in Ei. rewrite Hlf in Ei. apply mapM_ok in Ei.
    split; [rewrite <- (Forall2_length' _ _ _ Ei); apply seq_length|]. intros g ri Hri. destruct (Forall2_nth_error_r _ _ _ _ _ Ei Hri) as (g0 & Hg0 & E1). rewrite nth_error_seq in Hg0. destruct (Nat.ltb_spec g (length groups)); [|discriminate]. injection Hg0 as <-. cbn [Nat.add] in E1.
    destruct (get fags g) as [l|] eqn:El; [|discriminate]. cbn [bind] in E1. destruct (get (cn_groups c) g) as [bs|] eqn:Eb; [|discriminate]. cbn [bind] in E1. apply get_ok in El, Eb.
    match type of E1 with bind (guard ?u _) _ = _ => destruct u; [|discriminate] end. cbn [guard bind] in E1. match type of E1 with bind ?u _ = _ => destruct u as [fs|] eqn:Ef; [|discriminate] end. cbn [bind] in E1. injection E1 as <-. cbn [ri_adj ri_vol ri_bdry ri_faces].
    exists l, bs. split; [exact El|]. split; [exact Eb|]. split; [reflexivity|]. destruct (rt_batches _ _ _ _ _ _ _ _ _ _ _ _ _ Hr g bs Eb) as (_ & Hls).
    split; [apply writes_cols; auto|]. apply mapM_ok in Ef. clear - Hls Ef. induction Ef as [|b f bs fs H Ef IH]; [cbn; auto|]. inversion Hls as [|? ? Hb Hls']; subst. destruct (IH Hls') as (H1 & H2). cbn [flat_map concat]. rewrite !app_length. destruct (bt_face b); [|discriminate]. injection H as <-. rewrite repeat_length. lia.
  Qed.

  Lemma infos_exist : exists infos, make_infos fags p (length groups) c = Ok infos.
  Proof.
    destruct (groups_len dim factory fnodes face_coords groups kinds fags vs r Hm bvs bgs to Hr) as (Hlen & Hlt & Hlf). unfold make_infos. cbn [cn_to]. rewrite Hlt, Nat.eqb_refl. cbn [guard bind].
    apply mapM_total. intros g Hg. rewrite Hlf in Hg. apply in_seq in Hg. destruct (nth_exists groups g) as (grp & Hgrp); [lia|]. destruct (kind_at groups kinds fags vs Hm g grp Hgrp) as (k & l & Hk & Hl).
    rewrite (proj2 (get_ok _ _ _) Hl). cbn [bind]. pose proof (groups_at dim factory fnodes groups kinds fags r to g grp k Hgrp Hk) as Hbs. rewrite (proj2 (get_ok _ _ _) Hbs). cbn [bind]. rewrite map_length, seq_length.
    pose proof (rb_nfaces _ _ _ _ _ Hm) as Hnf. rewrite Forall_forall in Hnf. specialize (Hnf grp (nth_error_In _ _ Hgrp)). rewrite (proj2 (Nat.eqb_neq _ _) Hnf). cbn [negb guard bind].
    match goal with |- exists y, bind ?u _ = _ => assert (Hu : exists fs, u = Ok fs) end; [|destruct Hu as (fs & ->); cbn [bind]; eauto]. apply mapM_total. intros b Hb.
    destruct (rt_nodes _ _ _ _ _ _ _ _ _ _ _ _ _ Hr g _ b Hbs Hb) as (grp' & k' & f & _ & _ & _ & -> & _). eauto.
  Qed.

  Lemma remote_table_ok infos g ri : make_infos fags p (length groups) c = Ok infos -> nth_error infos g = Some ri ->
    (forall e f s, is_face c g s (g, e, f) -> exists tbl, remote_table ri = Ok tbl) /\
    forall tbl, remote_table ri = Ok tbl -> forall e f s, lookup_assert tbl (e, f) = Ok s <-> is_face c g s (g, e, f).
  Proof.
    intros Ei Hri. destruct (infos_at infos Ei) as (_ & H). destruct (H g ri Hri) as (l & bs & Hl & Hbs & _ & Hw & L1 & L2).
    set (nel := list_max0 (ri_vol ri) + 1). set (nf := list_max0 (ri_faces ri) + 1).
    destruct (tinv_fold nel nf (fun ef t => In (ef, t) (writes bs))) with (ws := writes bs) (W := @nil (nat * nat * nat)) (tbl := repeat (repeat (@None nat) nf) nel) as (tbl & Et & Ht).
    - intros (e, f) t t' H1 H2. apply (writes_iff dim factory fnodes face_coords groups kinds fags vs r bvs bgs to Hr g bs e f _ Hbs) in H1, H2. eapply (face_fun dim factory fnodes face_coords groups kinds fags vs r Honce bvs bgs to Hr); eauto.
    - apply tinv_start.
    - constructor.
    - apply Forall_forall. intros ((e, f), t) Hin. cbn [fst snd]. split; [exact Hin|]. rewrite <- Hw in Hin. apply in_combine_l in Hin. pose proof (in_combine_l _ _ _ _ Hin) as H1. pose proof (in_combine_r _ _ _ _ Hin) as H2.
      apply list_max0_ge in H1, H2. unfold nel, nf. lia.
    - assert (Hform : forall X, remote_table ri = X -> ri_vol ri = [] /\ X = Err ValueError \/ ri_vol ri <> [] /\ X = Ok tbl).
      { intros X <-. unfold remote_table. destruct (ri_vol ri) as [|x vol] eqn:Ev; [left; auto|right]. split; [discriminate|]. destruct (ri_faces ri) as [|y fs] eqn:Ef; [discriminate|]. rewrite <- Ev, <- Ef. fold nel nf. rewrite <- Et. rewrite <- Hw, Ev, Ef. reflexivity. }
      split.
      + intros e f s Hf. apply (writes_iff dim factory fnodes face_coords groups kinds fags vs r bvs bgs to Hr g bs e f s Hbs) in Hf. destruct (Hform _ eq_refl) as [(Hv & _)|(_ & H2)]; [|eauto]. rewrite <- Hw, Hv in Hf. destruct Hf.
      + intros tbl' E1 e f s. destruct (Hform _ E1) as [(_ & H2)|(_ & H2)]; [discriminate|]. injection H2 as ->. rewrite (lookup_assert_iff _ _ _ _ e f s Ht). cbn [List.app]. apply (writes_iff dim factory fnodes face_coords groups kinds fags vs r bvs bgs to Hr g bs e f s Hbs).
  Qed.
End Infos.

Lemma NoDup_flat_map_same {X Y} (F : X -> list Y) l b1 b2 x : NoDup (flat_map F l) -> In b1 l -> In b2 l -> In x (F b1) -> In x (F b2) -> b1 = b2 /\ NoDup (F b1).
Proof.
  induction l as [|b l IH]; intros Hnd H1 H2 X1 X2; [destruct H1|]. cbn [flat_map] in Hnd. apply NoDup_app_inv in Hnd. destruct Hnd as (Hb & Hl & Hd).
  assert (Hx : forall b', In b' l -> In x (F b') -> In x (flat_map F l)) by (intros b' Hb' Hx'; apply in_flat_map; eauto).
  destruct H1 as [->|H1], H2 as [<-|H2]; auto; exfalso; eapply Hd; eauto.
Qed.
Lemma NoDup_map_via {X Y Z} (F : X -> Y) (key : X -> Z) l : NoDup (map key l) -> (forall x y, In x l -> In y l -> F x = F y -> key x = key y) -> NoDup (map F l).
Proof.
  induction l as [|x l IH]; intros Hnd H; [constructor|]. cbn [map] in *. inversion Hnd as [|? ? Hx Hnd']; subst. constructor; [|apply IH; [exact Hnd'|intros y z Hy Hz; apply H; now right]].
  intros Hin. apply in_map_iff in Hin. destruct Hin as (y & Heq & Hy). apply Hx. rewrite (H x y (or_introl eq_refl) (or_intror Hy)) by congruence. now apply in_map.
Qed.
Lemma flat_map_seq {X Y} (F : X -> list Y) l : flat_map F l = flat_map (fun i => match nth_error l i with Some x => F x | None => [] end) (seq 0 (length l)).
Proof.
  assert (G : forall l2 l1, flat_map F l2 = flat_map (fun i => match nth_error (l1 ++ l2) i with Some x => F x | None => [] end) (seq (length l1) (length l2))); [|exact (G l [])].
  induction l2 as [|x l2 IH]; intros l1; [reflexivity|]. cbn [flat_map length seq]. rewrite nth_error_app2, Nat.sub_diag by lia. cbn [nth_error]. f_equal.
  specialize (IH (l1 ++ [x])). rewrite app_length in IH. cbn [length] in IH. rewrite Nat.add_1_r in IH. rewrite IH. now rewrite <- app_assoc.
Qed.

(** An inter-part face is listed once *)
Lemma part_fun {A} (fags : list (list (fagrp A))) t g q q' m m' a b b' : asked_once fags (RTag t) -> part_entry fags g t q m (a, b) -> part_entry fags g t q' m' (a, b') -> b = b' /\ m = m' /\ q = q'.
Proof.
  intros Ho (l & es & Hl & Hin & Hen) (l' & es' & Hl' & Hin' & Hen'). assert (l' = l) by congruence. subst l'. cbn [asked_once] in Ho. rewrite Forall_forall in Ho. specialize (Ho l (nth_error_In _ _ Hl)).
  assert (Ht : forall q es m, In (InterPart g t q es m) l -> In (InterPart g t q es m) (filter (has_tag t) l)).
  { intros q0 es0 m0 H. apply filter_In. split; [exact H|]. unfold has_tag. cbn [bdry_tag]. now apply btag_eqb_eq. }
  assert (Hf : forall es b q (m : A), In (a, b) es -> In a (fag_faces (InterPart g t q es m))) by (intros es0 b0 q0 m0 H; cbn [fag_faces]; apply in_map_iff; exists (a, b0); auto).
  destruct (NoDup_flat_map_same fag_faces _ _ _ a Ho (Ht _ _ _ Hin) (Ht _ _ _ Hin') (Hf _ _ _ _ Hen) (Hf _ _ _ _ Hen')) as (Heq & Hnd). injection Heq as <- <- <-. split; [|auto]. cbn [fag_faces] in Hnd.
  clear - Hnd Hen Hen'. induction es as [|(a0, b0) es IH]; [destruct Hen|]. cbn [map fst] in Hnd. inversion Hnd as [|? ? Hx Hnd']; subst.
  destruct Hen as [E1|Hen], Hen' as [E2|Hen']; [congruence| | |auto]; exfalso; apply Hx; [injection E1 as -> ->|injection E2 as -> ->]; apply in_map_iff; eexists; split; eauto; reflexivity.
Qed.

Section Part.
  Context {E E' V A N K P : Type}.
  Variables (dim : K -> nat) (factory : K -> K) (fnodes : K -> nat -> K -> N) (face_coords : K -> nat -> E -> E').
  (* this part, and its faces towards part q *)
  Variables (groups : list (egroup E)) (kinds : list K) (fags : list (list (fagrp A))) (vs : list V) (q : nat).
  Hypothesis Hm : restrictable groups kinds fags vs false.
  Hypothesis Honce : asked_once fags (RTag (TPartition q)).
  Variables (bvs : list V) (bgs : list (egroup E')) (to : list (@dgroup K)).
  Notation c := (mk_conn (vol_groups dim groups kinds) to (all_batches factory fnodes groups kinds fags (RTag (TPartition q)) false) true).
  Hypothesis Hr : restriction dim factory fnodes face_coords groups kinds fags vs (RTag (TPartition q)) false bvs bgs c.
  (* part q, and its faces towards this part p *)
  Variables (rgroups : list (egroup E)) (rkinds : list K) (rfags : list (list (fagrp A))) (rvs : list V) (p : nat).
  Hypothesis Hm' : restrictable rgroups rkinds rfags rvs false.
  Hypothesis Honce' : asked_once rfags (RTag (TPartition p)).
  Variables (rbvs : list V) (rbgs : list (egroup E')) (rto : list (@dgroup K)).
  Notation rc := (mk_conn (vol_groups dim rgroups rkinds) rto (all_batches factory fnodes rgroups rkinds rfags (RTag (TPartition p)) false) true).
  Hypothesis Hr' : restriction dim factory fnodes face_coords rgroups rkinds rfags rvs (RTag (TPartition p)) false rbvs rbgs rc.
  Hypothesis Hadj : adjoins rgroups groups rfags fags q p.

  Variable unit_nodes : K -> N.
  Variable select_nodes : K -> list nat -> N.
  Variable app : A -> P -> P.
  Variable close : P -> P -> bool.
  Variable gauss_newton : K -> list (list P) -> list (list P) -> res (list N).
  Variable nodes_close : N -> N -> bool.
  Variables (dim0 : bool) (coords rcoords : list (list (list P))).
  Hypothesis Hgn : gn_lengths gauss_newton.
  Variable infos : list (@rginfo A).
  Hypothesis Hinf : make_infos rfags p (length rgroups) rc = Ok infos.

  Notation sizes := (map nelements groups).
  Notation lbidx := (bidx groups fags (RTag (TPartition q))).
  Notation rbidx := (bidx rgroups rfags (RTag (TPartition p))).
  Notation gof := (nbounds 0 sizes).
  Definition pimg (i : nat) (x : nat * fentry) : nat * (nat * nat) :=
    let '(g', ((e', f'), (k, f))) := x in (lbidx i (k - base sizes i) f, (g', rbidx g' e' f')).

  Lemma in_group g grp e : nth_error groups g = Some grp -> e < nelements grp -> gof (base sizes g + e) = g.
  Proof.
    intros Hg He. assert (O : owns sizes g (base sizes g + e)) by (exists (nelements grp); split; [rewrite nth_error_map, Hg; reflexivity|lia]).
    destruct (find_group_indices_spec sizes [base sizes g + e] 0 _ eq_refl) as (g0 & Hg0 & Hin & _). rewrite find_group_indices_nbounds in Hg0. cbn [map nth_error] in Hg0. injection Hg0 as ->. destruct O as (n & Hn & Hb).
    symmetry. apply Hin; [|exists n; auto]. pose proof (base_S _ _ _ Hn). pose proof (sum_firstn_mono sizes (S g) (length sizes)) as Hmo. unfold base in *. rewrite firstn_all in Hmo. assert (S g <= length sizes) by (apply nth_error_Some; congruence). lia.
  Qed.

  Lemma asked_part {X} (gs : list (egroup X)) (fs : list (list (fagrp A))) g t n m e f b : part_entry fs g t n m ((e, f), b) -> asked gs fs (RTag t) (g, e, f).
  Proof.
    intros (l & es & Hl & Hin & Hen). cbn [asked bdry_adj]. exists l. split; [exact Hl|]. exists (InterPart g t n es m). split; [exact Hin|]. split; [reflexivity|]. cbn [fag_faces]. apply in_map_iff. exists ((e, f), b). auto.
  Qed.

  Lemma entry_faces g' t m e' f' k f : part_entry rfags g' t p m ((e', f'), (k, f)) -> exists g e m',
    k = base sizes g + e /\ gof k = g /\ g < length groups /\ between groups rfags p m (g, e, f) (g', e', f') /\ part_entry fags g (TPartition q) q m' ((e, f), (base (map nelements rgroups) g' + e', f')) /\
    is_face c g (lbidx g e f) (g, e, f) /\ is_face rc g' (rbidx g' e' f') (g', e', f').
  Proof.
    intros He. destruct (Hadj _ _ _ _ _ _ _ He) as (-> & g & e & m' & -> & He'). exists g, e, m'. split; [reflexivity|].
    pose proof (bidx_face dim factory fnodes face_coords groups kinds fags vs _ Hm bvs bgs to Hr _ _ _ (asked_part groups fags _ _ _ _ _ _ _ He')) as F1.
    pose proof (bidx_face dim factory fnodes face_coords rgroups rkinds rfags rvs _ Hm' rbvs rbgs rto Hr' _ _ _ (asked_part rgroups rfags _ _ _ _ _ _ _ He)) as F2.
    destruct (rt_face _ _ _ _ _ _ _ _ _ _ _ _ _ Hr _ _ _ _ _ F1) as (grp & kd & x & bg & rows & row & vsf & Hg & _).
    destruct (face_range dim factory fnodes face_coords groups kinds fags vs _ Hm Honce bvs bgs to Hr _ _ _ _ _ grp F1 Hg) as (Hlt & _).
    split; [eapply in_group; eauto|]. split; [apply nth_error_Some; congruence|]. split; [exact He|]. auto.
  Qed.

  Definition nodesok2 (g g' : nat) (m : A) (t s : nat) (n : N) : Prop :=
    exists sg, nth_error rto g' = Some sg /\
      if dim0 then n = unit_nodes (dg_kind sg)
      else points_on to coords -> points_on rto rcoords -> matchable2 app close groups rfags p c rc coords rcoords -> (forall d, In d rto -> separated select_nodes nodes_close (dg_kind d) (dg_ndof d)) ->
        exists ps qs ix, value coords g t = Some ps /\ value rcoords g' s = Some qs /\ matching close ps (map (app m) qs) ix /\ n = select_nodes (dg_kind sg) ix.
  Definition good2 (i : nat) (L : list (nat * fentry)) (bs : list (@batch N)) : Prop :=
    Permutation (links bs) (map (pimg i) L) /\ Forall (fun b => length (bt_from b) = length (bt_to b) /\ ((forall n, nodes_close n n = true) -> bt_to b <> [])) bs /\
    forall b t s, In b bs -> In (t, s) (combine (bt_to b) (bt_from b)) -> exists m e f e' f', between groups rfags p m (i, e, f) (bt_fgrp b, e', f') /\
      is_face c i t (i, e, f) /\ is_face rc (bt_fgrp b) s (bt_fgrp b, e', f') /\ nodesok2 i (bt_fgrp b) m t s (bt_nodes b).
  Lemma good2_nil i : good2 i [] [].
  Proof. split; [reflexivity|]. split; [constructor|]. intros b t s []. Qed.
  Lemma good2_app i L bs L' bs' : good2 i L bs -> good2 i L' bs' -> good2 i (L ++ L') (bs ++ bs').
  Proof.
    intros (H1 & H2 & H3) (H1' & H2' & H3'). split; [rewrite links_app, map_app; now apply Permutation_app|]. split; [apply Forall_app; auto|].
    intros b t s Hb. apply in_app_iff in Hb. destruct Hb as [Hb|Hb]; eauto.
  Qed.
  Lemma padds_good2 {X} n (F : X -> list (list (@batch N)) -> res (list (list (@batch N)))) (Lx : X -> nat -> list (nat * fentry)) L :
    (forall x, In x L -> padds n (F x) (fun G => forall i, good2 i (Lx x i) (G i))) ->
    padds n (fun out => foldM (fun out x => F x out) L out) (fun G => forall i, good2 i (flat_map (fun x => Lx x i) L) (G i)).
  Proof.
    intros H. eapply padds_weaken; [exact (padds_foldM n F _ L H)|]. intros G (Gs & HGs & Heq) i. rewrite Heq. clear - HGs. induction HGs as [|x g L Gs Hg HGs IH]; cbn [flat_map]; [apply good2_nil|]. apply good2_app; auto.
  Qed.

  Definition mine (i : nat) (es : list fentry) : list fentry := filter (fun en : fentry => gof (fst (snd en)) =? i) es.

  (** Elements paired by the lookup tables *)
  Lemma found rgrp rl t es m i ltbl rtbl lels rels b0 :
    nth_error rfags rgrp = Some rl -> In (InterPart rgrp t p es m) rl -> b0 = base sizes i ->
    (forall e f t, lookup_assert ltbl (e, f) = Ok t -> is_face c i t (i, e, f)) -> (forall e f t, lookup_assert rtbl (e, f) = Ok t -> is_face rc rgrp t (rgrp, e, f)) ->
    mapM (fun en : fentry => lookup_assert ltbl (fst (snd en) - b0, snd (snd en))) (mine i es) = Ok lels -> mapM (fun en : fentry => lookup_assert rtbl (fst en)) (mine i es) = Ok rels ->
    length lels = length rels /\ map (fun ts : nat * nat => (fst ts, (rgrp, snd ts))) (combine lels rels) = map (pimg i) (map (pair rgrp) (mine i es)) /\
    forall t s, In (t, s) (combine lels rels) -> exists e f e' f', between groups rfags p m (i, e, f) (rgrp, e', f') /\ is_face c i t (i, e, f) /\ is_face rc rgrp s (rgrp, e', f').
  Proof.
    intros Hl Hin -> Hlt Hrt El Er. apply mapM_ok in El, Er. split; [rewrite <- (Forall2_length' _ _ _ El); exact (Forall2_length' _ _ _ Er)|].
    assert (Hmine : forall en, In en (mine i es) -> part_entry rfags rgrp t p m en /\ gof (fst (snd en)) = i).
    { intros en Hen. unfold mine in Hen. apply filter_In in Hen. destruct Hen as (H1 & H2). apply Nat.eqb_eq in H2. split; [|exact H2]. exists rl, es. auto. }
    assert (Hent : forall en tt s, In en (mine i es) -> lookup_assert ltbl (fst (snd en) - base sizes i, snd (snd en)) = Ok tt -> lookup_assert rtbl (fst en) = Ok s ->
      (tt, (rgrp, s)) = pimg i (rgrp, en) /\ exists e f e' f', between groups rfags p m (i, e, f) (rgrp, e', f') /\ is_face c i tt (i, e, f) /\ is_face rc rgrp s (rgrp, e', f')).
    { intros ((e', f'), (k, f)) tt s Hen H1 H2. cbn [fst snd] in *. destruct (Hmine _ Hen) as (He & Hi). cbn [fst snd] in Hi. destruct (entry_faces _ _ _ _ _ _ _ He) as (g & e & m' & -> & Hg & _ & Hb & _ & F1 & F2).
      assert (g = i) by congruence. subst g. apply Hlt in H1. apply Hrt in H2. replace (base sizes i + e - base sizes i) with e in * by lia.
      destruct (face_bidx dim factory fnodes face_coords groups kinds fags vs _ Hm Honce bvs bgs to Hr _ _ _ _ _ H1) as (_ & ->). destruct (face_bidx dim factory fnodes face_coords rgroups rkinds rfags rvs _ Hm' Honce' rbvs rbgs rto Hr' _ _ _ _ _ H2) as (_ & ->).
      split; [cbn [pimg]; now replace (base sizes i + e - base sizes i) with e by lia|]. exists e, f, e', f'. auto. }
    split.
    - clear Hmine Hin. revert rels Er. induction El as [|en l es' lels H1 El IH]; intros rels Er; inversion Er as [|? s ? rels1 H2 Er1]; subst; [reflexivity|]. cbn [combine map fst snd]. f_equal; [apply (Hent en); auto; now left|].
      apply IH; [|exact Er1]. intros en0 t0 s0 Hen0. apply Hent. now right.
    - intros t0 s0 Hts. apply nth_combine_In in Hts. destruct Hts as (j & Ht & Hs). destruct (Forall2_nth_error_r _ _ _ _ _ El Ht) as (en & Hen & H1). destruct (Forall2_nth_error_r _ _ _ _ _ Er Hs) as (en' & Hen' & H2).
      assert (en' = en) by congruence. subst en'. apply (Hent en t0 s0); auto. eapply nth_error_In; eauto.
  Qed.

  Lemma map_app_none2 (ps : list P) : map (app_opt app None) ps = ps.
  Proof. induction ps as [|x ps IH]; [reflexivity|]. cbn [map]. now rewrite IH. Qed.

  Lemma local_nel g grp d : nth_error groups g = Some grp -> nth_error (cn_from c) g = Some d -> dg_nel d = nelements grp.
  Proof. intros Hg Hd. cbn [cn_from] in Hd. unfold vol_groups in Hd. rewrite nth_error_map, nth_combine, Hg in Hd. destruct (nth_error kinds g); [|discriminate]. injection Hd as <-. reflexivity. Qed.

  Notation pbatches := (partition_batches unit_nodes select_nodes app close gauss_newton nodes_close dim0 groups c coords rto rcoords).
  Lemma partition_part rgrp rl t es m i rtbl bs : nth_error rfags rgrp = Some rl -> In (InterPart rgrp t p es m) rl -> In i (map (fun en : fentry => gof (fst (snd en))) es) ->
    (forall e f t, lookup_assert rtbl (e, f) = Ok t -> is_face rc rgrp t (rgrp, e, f)) ->
    pbatches rtbl rgrp es m i = Ok bs -> good2 i (map (pair rgrp) (mine i es)) bs.
  Proof.
    intros Hl Hin Hi Hrt Eb. unfold partition_batches in Eb. cbv zeta in Eb. rewrite find_group_indices_nbounds, map_map in Eb.
    rewrite (filter_combine_map (fun en : fentry => gof (fst (snd en)))) in Eb. fold (mine i es) in Eb.
    destruct (get groups i) as [lg|] eqn:Elg; [|discriminate]. cbn [bind] in Eb. apply get_ok in Elg. destruct (get (cn_from c) i) as [ld|] eqn:Eld; [|discriminate]. cbn [bind] in Eb. apply get_ok in Eld.
    rewrite (local_nel i lg ld Elg Eld) in Eb. destruct (table_ok dim factory fnodes face_coords groups kinds fags vs _ Hm Honce bvs bgs to Hr i lg Elg) as (ltbl & Elt & Hlt). rewrite Elt in Eb. cbn [bind] in Eb.
    assert (Hi' : i < length sizes) by (rewrite map_length; apply nth_error_Some; congruence). rewrite (proj2 (get_ok _ _ _) (base_element_nrs_nth sizes i Hi')) in Eb. cbn [bind] in Eb.
    match type of Eb with bind ?u _ = _ => destruct u as [lels|] eqn:El; [|discriminate] end. cbn [bind] in Eb. match type of Eb with bind ?u _ = _ => destruct u as [rels|] eqn:Er; [|discriminate] end. cbn [bind] in Eb.
    destruct (found rgrp rl t es m i ltbl rtbl lels rels _ Hl Hin eq_refl (fun e f t H => proj1 (proj2 (Hlt e f t)) H) Hrt El Er) as (Hlen & Hmap & Hcmb).
    destruct (cross_part unit_nodes select_nodes app close gauss_newton nodes_close dim0 _ _ _ _ _ _ _ _ _ _ Hgn Hlen Eb) as (Hp & Hf & sg & Hsg & Hn0 & Hn1).
    split; [rewrite Hp, Hmap; apply Permutation_refl|]. split.
    - apply Forall_forall. intros b Hb. rewrite Forall_forall in Hf. split; [exact (proj2 (Hf b Hb))|]. intros Hrefl.
      assert (Hne : lels <> []).
      { apply in_map_iff in Hi. destruct Hi as (en & Hgi & Hen). assert (Hme : In en (mine i es)) by (apply filter_In; split; [exact Hen|now apply Nat.eqb_eq]). apply mapM_ok in El. destruct (Forall2_In_l _ _ _ en El Hme) as (x & Hx & _). intros ->. destruct Hx. }
      pose proof (cross_nonempty unit_nodes select_nodes app close gauss_newton nodes_close dim0 _ _ _ _ _ _ _ _ _ _ Hrefl Hne Eb) as Hne2. rewrite Forall_forall in Hne2. auto.
    - intros b tt s Hb Hts. rewrite Forall_forall in Hf. destruct (Hf b Hb) as (Hbg & _). rewrite Hbg.
      assert (Hlk : In (tt, (rgrp, s)) (links bs)) by (apply In_links; exists b; auto).
      assert (Hts' : In (tt, s) (combine lels rels)).
      { apply (Permutation_in _ Hp) in Hlk. apply in_map_iff in Hlk. destruct Hlk as ((t', s') & Heq & H). cbn [fst snd] in Heq. injection Heq as -> ->. exact H. }
      destruct (Hcmb tt s Hts') as (e & f & e' & f' & Hbt & F1 & F2). exists m, e, f, e', f'. split; [exact Hbt|]. split; [exact F1|]. split; [exact F2|].
      exists sg. split; [exact Hsg|]. destruct dim0.
      + specialize (Hn0 eq_refl). rewrite Forall_forall in Hn0. exact (Hn0 b Hb).
      + intros Hpo Hpo' Hma Hsep. destruct (Hn1 eq_refl) as (tc & sc & Htc & Hsc & Hn). clear Hn0 Hn1.
        assert (Hval : forall (cs : list (list (list P))) g t ps tc, nth_error cs g = Some tc -> value cs g t = Some ps -> nth_error tc t = Some ps) by (intros cs g0 t0 ps0 tc0 H H'; unfold value in H'; now rewrite H in H').
        assert (Hone : forall t s, In (t, s) (combine lels rels) -> exists ps qs, nth_error tc t = Some ps /\ nth_error sc s = Some qs /\ one_close close (map (app_opt app None) ps) (map (app_opt app (Some m)) qs)).
        { intros t0 s0 Hts0. destruct (Hcmb t0 s0 Hts0) as (e0 & f1 & e0' & f1' & Hb0 & H10 & H20).
          destruct (face_point dim factory fnodes face_coords groups kinds fags vs _ bvs bgs to Hr coords _ _ _ _ _ Hpo H10) as (d & ps & Hd & _ & Hps & _). destruct (face_point dim factory fnodes face_coords rgroups rkinds rfags rvs _ rbvs rbgs rto Hr' rcoords _ _ _ _ _ Hpo' H20) as (d' & qs & Hd' & _ & Hqs & _).
          exists ps, qs. split; [eapply Hval; eauto|]. split; [eapply Hval; eauto|]. rewrite map_app_none2. apply (Hma i e0 f1 rgrp e0' f1' m t0 s0 ps qs); auto. }
        destruct (Hn Hone b tt s Hb Hts) as (ps & qs & ix & t' & s' & ps' & qs' & ix' & Hps & Hqs & HM & Hts2 & Hps' & Hqs' & HM' & Hnb & Hcl).
        rewrite map_app_none2 in HM, HM'. change (app_opt app (Some m)) with (app m) in *.
        exists ps, qs, ix. split; [unfold value; now rewrite Htc|]. split; [unfold value; now rewrite Hsc|]. split; [exact HM|].
        assert (Hto : forall (dc : list (@dgroup K)) (cs : list (list (list P))) g rows t ps d, points_on dc cs -> nth_error cs g = Some rows -> nth_error rows t = Some ps -> nth_error dc g = Some d -> length ps = dg_ndof d).
        { intros dc cs g0 rows t0 ps0 d Hpc Hrows Ht0 Hd. destruct (Forall2_nth_error _ _ _ _ _ Hpc Hd) as (rows' & Hrows' & _ & Hall). assert (rows' = rows) by congruence. subst. rewrite Forall_forall in Hall. apply Hall. eapply nth_error_In; eauto. }
        assert (Hmlt : forall ps qs ix, matching close ps (map (app m) qs) ix -> length qs = dg_ndof sg -> Forall (fun i => i < dg_ndof sg) ix /\ length ix = length ps).
        { intros ps0 qs0 ix0 H Hq. split; [|symmetry; exact (Forall2_length' _ _ _ H)]. rewrite <- Hq. rewrite <- (map_length (app m) qs0). clear - H. unfold matching in H. induction H as [|x j ps ix (y & Hq & _) H IH]; constructor; auto. apply nth_error_Some. congruence. }
        destruct (Hmlt ps qs ix HM (Hto _ _ _ _ _ _ _ Hpo' Hsc Hqs Hsg)) as (Hi1 & Hi2). destruct (Hmlt ps' qs' ix' HM' (Hto _ _ _ _ _ _ _ Hpo' Hsc Hqs' Hsg)) as (Hi1' & Hi2').
        destruct (face_point dim factory fnodes face_coords groups kinds fags vs _ bvs bgs to Hr coords _ _ _ _ _ Hpo F1) as (d & ps0 & Hd & _).
        assert (Hll : length ix = length ix') by (rewrite Hi2, Hi2', (Hto _ _ _ _ _ _ _ Hpo Htc Hps Hd), (Hto _ _ _ _ _ _ _ Hpo Htc Hps' Hd); reflexivity).
        rewrite (Hsep sg (nth_error_In _ _ Hsg) ix ix' Hll Hi1 Hi1' Hcl). exact Hnb.
  Qed.

  Notation partition := (make_partition_connection unit_nodes select_nodes app close gauss_newton nodes_close dim0 groups c coords rto rcoords infos).
  Definition all_mine (i : nat) : list (nat * fentry) :=
    flat_map (fun g' => match nth_error rfags g' with
      | Some l => flat_map (fun b => match b with InterPart _ _ _ es _ => map (pair g') (mine i es) | _ => [] end) (filter (sel p) l)
      | None => [] end) (seq 0 (length rgroups)).

  Lemma In_all_mine i g' en : In (g', en) (all_mine i) <-> exists t m, part_entry rfags g' t p m en /\ gof (fst (snd en)) = i.
  Proof.
    unfold all_mine. rewrite in_flat_map. split.
    - intros (g0 & Hg0 & Hin). destruct (nth_error rfags g0) as [l|] eqn:El; [|destruct Hin]. apply in_flat_map in Hin. destruct Hin as (b & Hb & Hin). destruct b as [| |ig t q' es m]; try (destruct Hin; fail).
      apply in_map_iff in Hin. destruct Hin as (en0 & Heq & Hen). injection Heq as -> ->. apply filter_In in Hb. destruct Hb as (Hb & Hs). cbn [sel] in Hs. apply Nat.eqb_eq in Hs. subst q'.
      assert (ig = g') by exact (rb_own _ _ _ _ _ Hm' g' l _ El Hb). subst ig. apply filter_In in Hen. destruct Hen as (Hen & Hi). apply Nat.eqb_eq in Hi. exists t, m. split; [exists l, es; auto|exact Hi].
    - intros (t & m & (l & es & Hl & Hb & Hen) & Hi). exists g'. destruct (rb_fags _ _ _ _ _ Hm') as (Hlf & _). split; [apply in_seq; split; [lia|]; cbn [Nat.add]; rewrite <- Hlf; apply nth_error_Some; congruence|].
      rewrite Hl. apply in_flat_map. exists (InterPart g' t p es m). split; [apply filter_In; split; [exact Hb|]; cbn [sel]; apply Nat.eqb_refl|]. apply in_map. apply filter_In. split; [exact Hen|]. now apply Nat.eqb_eq.
  Qed.

  Lemma partition_ok o : partition = Ok o -> cn_from o = rto /\ cn_to o = to /\ length (cn_groups o) = length groups /\
    forall i bs, nth_error (cn_groups o) i = Some bs -> good2 i (all_mine i) bs.
  Proof.
    intros Eo. unfold make_partition_connection in Eo. match type of Eo with bind (guard ?u _) _ = _ => destruct u; [|discriminate] end. cbn [guard bind] in Eo.
    match type of Eo with bind ?u _ = _ => destruct u as [out|] eqn:Ef; [|discriminate] end. cbn [bind] in Eo. injection Eo as <-. cbn [cn_from cn_to cn_groups]. split; [reflexivity|]. split; [reflexivity|].
    destruct (infos_at dim factory fnodes face_coords rgroups rkinds rfags rvs _ Hm' rbvs rbgs rto Hr' p infos Hinf) as (Hli & Hat).
    assert (HP : padds (length groups) (fun out => foldM (fun out ri =>
        foldM (fun out b =>
            match b with
            | InterPart rgrp _ _ es aff =>
                rtbl <- remote_table ri ;;
                foldM (fun out i_local =>
                         bs <- pbatches rtbl rgrp es aff i_local ;;
                         old <- get out i_local ;;
                         put out i_local (old ++ bs))
                  (unique (find_group_indices (map nelements groups) (map (fun en : fentry => fst (snd en)) es))) out
            | _ => Ok out
            end) (ri_adj ri) out) infos out)
      (fun G => forall i, good2 i (flat_map (fun ri => flat_map (fun b => match b with InterPart rgrp _ _ es _ => map (pair rgrp) (mine i es) | _ => [] end) (ri_adj ri)) infos) (G i))).
    { apply padds_good2. intros ri Hri. apply In_nth_error in Hri. destruct Hri as (g' & Hri). destruct (Hat g' ri Hri) as (l & bs0 & Hl & Hbs0 & Hra & _).
      destruct (remote_table_ok dim factory fnodes face_coords rgroups rkinds rfags rvs _ Hm' Honce' rbvs rbgs rto Hr' p infos g' ri Hinf Hri) as (_ & Htbl).
      apply padds_good2. intros b Hb. rewrite Hra in Hb. apply filter_In in Hb. destruct Hb as (Hb & Hs). destruct b as [| |ig t q' es m]; try discriminate. cbn [sel] in Hs. apply Nat.eqb_eq in Hs. subst q'.
      assert (ig = g') by exact (rb_own _ _ _ _ _ Hm' g' l _ Hl Hb). subst ig. apply padds_bind. intros rtbl Ert. specialize (Htbl rtbl Ert).
      rewrite find_group_indices_nbounds, map_map. set (u := unique (map (fun en : fentry => gof (fst (snd en))) es)).
      assert (Hu : forall x, In x u <-> In x (map (fun en : fentry => gof (fst (snd en))) es)) by (intros x; apply unique_In). assert (Hun : NoDup u) by (apply incr_NoDup, unique_incr). clearbody u.
      eapply padds_weaken; [apply padds_good2 with (Lx := fun i_local i => if i =? i_local then map (pair g') (mine i_local es) else [])|].
      - intros i_local Hil. eapply padds_weaken; [apply padds_put|]. intros G (bs & Ebs & HG) i. rewrite HG. destruct (Nat.eqb_spec i i_local) as [->|_]; [|apply good2_nil].
        apply (partition_part g' l t es m i_local rtbl bs Hl Hb); [now apply Hu| |exact Ebs]. intros e f s. apply Htbl.
      - intros G HG i. specialize (HG i). cbv beta in HG. destruct (in_dec Nat.eq_dec i u) as [Hin|Hni].
        + rewrite (flat_map_single _ _ i) in HG; [now rewrite Nat.eqb_refl in HG| |exact Hun|exact Hin]. intros x _ Hx. destruct (Nat.eqb_spec i x); [congruence|reflexivity].
        + rewrite flat_map_nil in HG; [|intros x Hx; destruct (Nat.eqb_spec i x) as [->|]; [contradiction|reflexivity]].
          assert (Hem : mine i es = []). { destruct (mine i es) as [|en rest] eqn:Em; [reflexivity|]. exfalso. apply Hni. apply Hu. assert (Hen : In en (mine i es)) by (rewrite Em; now left). apply filter_In in Hen. destruct Hen as (Hen & Hi). apply Nat.eqb_eq in Hi. apply in_map_iff. eauto. }
          rewrite Hem. exact HG. }
    destruct (HP (repeat [] (length groups)) out) as (G & HG & Hlo & Hn); [apply repeat_length|exact Ef|]. split; [exact Hlo|].
    intros i bs Hbs. assert (Hi : i < length groups) by (rewrite <- Hlo; apply nth_error_Some; congruence). rewrite Hn in Hbs. rewrite (nth_error_repeat [] Hi) in Hbs. cbn [option_map List.app] in Hbs. injection Hbs as <-.
    specialize (HG i). replace (all_mine i) with (flat_map (fun ri => flat_map (fun b => match b with InterPart rgrp _ _ es _ => map (pair rgrp) (mine i es) | _ => [] end) (ri_adj ri)) infos); [exact HG|].
    rewrite flat_map_seq, Hli. unfold all_mine. assert (Hex : forall F F' : nat -> list (nat * fentry), (forall x, In x (seq 0 (length rgroups)) -> F x = F' x) -> flat_map F (seq 0 (length rgroups)) = flat_map F' (seq 0 (length rgroups))).
    { intros F F' H. induction (seq 0 (length rgroups)) as [|x s IH]; [reflexivity|]. cbn [flat_map]. rewrite (H x (or_introl eq_refl)). f_equal. apply IH. intros y Hy. apply H. now right. }
    apply Hex. intros g' Hg'. apply in_seq in Hg'. destruct (nth_exists infos g') as (ri & Hri); [lia|]. rewrite Hri. destruct (Hat g' ri Hri) as (l & bs0 & Hl & _ & Hra & _). rewrite Hl, Hra.
    assert (Hown : forall b, In b (filter (sel p) l) -> igroup_of b = g') by (intros b Hb; apply filter_In in Hb; exact (rb_own _ _ _ _ _ Hm' g' l b Hl (proj1 Hb))).
    clear - Hown. induction (filter (sel p) l) as [|b l' IH]; [reflexivity|]. cbn [flat_map]. f_equal; [|apply IH; intros b' Hb'; apply Hown; now right]. destruct b as [| |ig t q' es m]; try reflexivity. specialize (Hown _ (or_introl eq_refl)). cbn [igroup_of] in Hown. now subst.
  Qed.

  (** ** Success *)
  Hypothesis Hrefl : forall n, nodes_close n n = true.
  Hypothesis Hne : nonempty_parts rfags p.
  Hypothesis Hpo : points_on to coords.
  Hypothesis Hpo' : points_on rto rcoords.
  Hypothesis Hcover : dim0 = false -> matchable2 app close groups rfags p c rc coords rcoords \/ (forall d, In d rto -> forall tn sn, length tn = length sn -> exists ns, gauss_newton (dg_kind d) tn sn = Ok ns /\ length ns = length tn).

  Lemma partition_total rgrp rl t es m i rtbl : nth_error rfags rgrp = Some rl -> In (InterPart rgrp t p es m) rl -> i < length groups ->
    (forall e f t, lookup_assert rtbl (e, f) = Ok t <-> is_face rc rgrp t (rgrp, e, f)) -> exists bs, pbatches rtbl rgrp es m i = Ok bs.
  Proof.
    intros Hl Hin Hi Hrt. unfold partition_batches. cbv zeta. rewrite find_group_indices_nbounds, map_map.
    rewrite (filter_combine_map (fun en : fentry => gof (fst (snd en)))). fold (mine i es).
    destruct (nth_exists groups i Hi) as (lg & Hlg). destruct (kind_at groups kinds fags vs Hm i lg Hlg) as (lk & ll & Hlk & _). rewrite (proj2 (get_ok _ _ _) Hlg). cbn [bind].
    assert (Hld : nth_error (cn_from c) i = Some (mk_dgroup (nelements lg) (dim lk) lk)) by (cbn [cn_from]; unfold vol_groups; rewrite nth_error_map, nth_combine, Hlg, Hlk; reflexivity). rewrite (proj2 (get_ok _ _ _) Hld). cbn [bind dg_nel].
    destruct (table_ok dim factory fnodes face_coords groups kinds fags vs _ Hm Honce bvs bgs to Hr i lg Hlg) as (ltbl & Elt & Hlt). rewrite Elt. cbn [bind].
    assert (Hi' : i < length sizes) by (rewrite map_length; exact Hi). rewrite (proj2 (get_ok _ _ _) (base_element_nrs_nth sizes i Hi')). cbn [bind].
    assert (Hent : forall en, In en (mine i es) -> exists e, is_face c i (lbidx i e (snd (snd en))) (i, e, snd (snd en)) /\ fst (snd en) - base sizes i = e /\ is_face rc rgrp (rbidx rgrp (fst (fst en)) (snd (fst en))) (rgrp, fst (fst en), snd (fst en))).
    { intros ((e', f'), (k, f)) Hen. apply filter_In in Hen. destruct Hen as (Hen & Hgi). apply Nat.eqb_eq in Hgi. cbn [fst snd] in *. assert (He : part_entry rfags rgrp t p m ((e', f'), (k, f))) by (exists rl, es; auto).
      destruct (entry_faces _ _ _ _ _ _ _ He) as (g & e & m' & -> & Hg & _ & Hb & _ & F1 & F2). assert (g = i) by congruence. subst g. exists e. split; [exact F1|]. split; [lia|exact F2]. }
    destruct (mapM_total (fun en : fentry => lookup_assert ltbl (fst (snd en) - base sizes i, snd (snd en))) (mine i es)) as (lels & El).
    { intros en Hen. destruct (Hent en Hen) as (e & F1 & -> & _). eexists. apply Hlt. exact F1. }
    destruct (mapM_total (fun en : fentry => lookup_assert rtbl (fst en)) (mine i es)) as (rels & Er).
    { intros en Hen. destruct (Hent en Hen) as (e & _ & _ & F2). eexists. destruct en as ((e', f'), kf). apply Hrt. exact F2. }
    rewrite El, Er. cbn [bind].
    destruct (found rgrp rl t es m i ltbl rtbl lels rels _ Hl Hin eq_refl (fun e f t H => proj1 (proj2 (Hlt e f t)) H) (fun e f t H => proj1 (Hrt e f t) H) El Er) as (Hlen & _ & Hcmb).
    destruct (groups_len dim factory fnodes face_coords groups kinds fags vs _ Hm bvs bgs to Hr) as (_ & Hltl & _). destruct (nth_exists to i) as (td & Htd); [lia|]. destruct (Forall2_nth_error _ _ _ _ _ Hpo Htd) as (tc & Htc & Hltc & _).
    destruct (groups_len dim factory fnodes face_coords rgroups rkinds rfags rvs _ Hm' rbvs rbgs rto Hr') as (_ & Hltr & _). destruct (rb_fags _ _ _ _ _ Hm') as (Hlf & _). destruct (nth_exists rto rgrp) as (sd & Hsd); [rewrite Hltr, <- Hlf; apply nth_error_Some; congruence|].
    destruct (Forall2_nth_error _ _ _ _ _ Hpo' Hsd) as (sc & Hsc & Hlsc & _).
    apply (cross_total unit_nodes select_nodes app close gauss_newton nodes_close dim0 _ _ _ _ _ _ _ _ _ tc sc sd Hrefl Hlen Hsd Htc Hsc).
    - apply Forall_forall. intros t0 Hin'. apply In_nth_error in Hin'. destruct Hin' as (j & Hj). destruct (nth_exists rels j) as (s & Hs); [rewrite <- Hlen; apply nth_error_Some; congruence|].
      destruct (Hcmb t0 s) as (e & f & e' & f' & _ & F1 & _); [apply nth_combine_In; eauto|]. destruct (face_point dim factory fnodes face_coords groups kinds fags vs _ bvs bgs to Hr coords _ _ _ _ _ Hpo F1) as (d & ps & Hd & Hlt0 & _). assert (d = td) by congruence. subst d. lia.
    - apply Forall_forall. intros s Hin'. apply In_nth_error in Hin'. destruct Hin' as (j & Hj). destruct (nth_exists lels j) as (t0 & Ht); [rewrite Hlen; apply nth_error_Some; congruence|].
      destruct (Hcmb t0 s) as (e & f & e' & f' & _ & _ & F2); [apply nth_combine_In; eauto|]. destruct (face_point dim factory fnodes face_coords rgroups rkinds rfags rvs _ rbvs rbgs rto Hr' rcoords _ _ _ _ _ Hpo' F2) as (d & ps & Hd & Hlt0 & _). assert (d = sd) by congruence. subst d. lia.
    - intros Hd0. destruct (Hcover Hd0) as [Hma|Hgt]; [left|right; intros tn sn; apply Hgt; eapply nth_error_In; eauto].
      intros t0 s Hts. destruct (Hcmb t0 s Hts) as (e & f & e' & f' & Hb & F1 & F2). destruct (face_point dim factory fnodes face_coords groups kinds fags vs _ bvs bgs to Hr coords _ _ _ _ _ Hpo F1) as (d & ps & _ & _ & Hps & _).
      destruct (face_point dim factory fnodes face_coords rgroups rkinds rfags rvs _ rbvs rbgs rto Hr' rcoords _ _ _ _ _ Hpo' F2) as (d' & qs & _ & _ & Hqs & _).
      assert (Hval : forall (cs : list (list (list P))) g t ps tc, nth_error cs g = Some tc -> value cs g t = Some ps -> nth_error tc t = Some ps) by (intros cs g0 t1 ps0 tc0 H H'; unfold value in H'; now rewrite H in H').
      exists ps, qs. split; [eapply Hval; eauto|]. split; [eapply Hval; eauto|]. rewrite map_app_none2. apply (Hma i e f rgrp e' f' m t0 s ps qs); auto.
  Qed.

  Lemma partition_succeeds : exists o, partition = Ok o.
  Proof.
    destruct (groups_len dim factory fnodes face_coords groups kinds fags vs _ Hm bvs bgs to Hr) as (_ & Hltl & _). unfold make_partition_connection. cbn [cn_to]. rewrite Hltl, Nat.eqb_refl. cbn [guard bind].
    match goal with |- exists o, bind ?u _ = _ => assert (Hf : exists out, u = Ok out) end; [|destruct Hf as (out & ->); cbn [bind]; eauto].
    destruct (infos_at dim factory fnodes face_coords rgroups rkinds rfags rvs _ Hm' rbvs rbgs rto Hr' p infos Hinf) as (Hli & Hat).
    assert (HT : tadds (length groups) (fun out => foldM (fun out ri =>
        foldM (fun out b =>
            match b with
            | InterPart rgrp _ _ es aff =>
                rtbl <- remote_table ri ;;
                foldM (fun out i_local =>
                         bs <- pbatches rtbl rgrp es aff i_local ;;
                         old <- get out i_local ;;
                         put out i_local (old ++ bs))
                  (unique (find_group_indices (map nelements groups) (map (fun en : fentry => fst (snd en)) es))) out
            | _ => Ok out
            end) (ri_adj ri) out) infos out)).
    { apply tadds_foldM. intros ri Hri. apply In_nth_error in Hri. destruct Hri as (g' & Hri). destruct (Hat g' ri Hri) as (l & bs0 & Hl & Hbs0 & Hra & _).
      destruct (remote_table_ok dim factory fnodes face_coords rgroups rkinds rfags rvs _ Hm' Honce' rbvs rbgs rto Hr' p infos g' ri Hinf Hri) as (Hex & Htbl).
      apply tadds_foldM. intros b Hb. rewrite Hra in Hb. apply filter_In in Hb. destruct Hb as (Hb & Hs). destruct b as [| |ig t q' es m]; try discriminate. cbn [sel] in Hs. apply Nat.eqb_eq in Hs. subst q'.
      assert (ig = g') by exact (rb_own _ _ _ _ _ Hm' g' l _ Hl Hb). subst ig. apply tadds_bind.
      assert (Hn0 : es <> []) by exact (Hne g' l g' t es m Hl Hb). destruct es as [|((e0, f0), (k0, f0')) es0] eqn:Ees; [congruence|]. rewrite <- Ees in *.
      assert (He0 : part_entry rfags g' t p m ((e0, f0), (k0, f0'))) by (exists l, es; split; [exact Hl|]; split; [exact Hb|]; rewrite Ees; now left). destruct (entry_faces _ _ _ _ _ _ _ He0) as (g1 & e1 & m1 & _ & _ & _ & _ & _ & _ & F2).
      destruct (Hex _ _ _ F2) as (rtbl & Ert). exists rtbl. split; [exact Ert|]. apply tadds_foldM. intros i Hi. rewrite unique_In, find_group_indices_nbounds, map_map in Hi. apply in_map_iff in Hi. destruct Hi as (((e', f'), (k, f)) & Hgi & Hen).
      assert (He : part_entry rfags g' t p m ((e', f'), (k, f))) by (exists l, es; auto). destruct (entry_faces _ _ _ _ _ _ _ He) as (g & e & m' & -> & Hg & Hgl & _). cbn [fst snd] in Hgi. assert (g = i) by congruence. subst g.
      apply tadds_put; [exact Hgl|]. apply (partition_total g' l t es m i rtbl Hl Hb Hgl). apply Htbl. exact Ert. }
    destruct (HT (repeat [] (length groups)) (repeat_length _ _)) as (out & E1 & _). exists out. exact E1.
  Qed.
End Part.
