(** * OnePartProofs: partitioning into a single part: lemmas. *)
From Coq Require Import List Arith Bool ZArith Lia Sorting.Sorted.
From Verif Require Import Np NpFacts MeshModel MeshSpec MeshProofs MeshStateModel PartModel PartSpec PartProofs PartFilterProofs PartAdjProofs PartMainProofs SplitProofs UnusedProofs LawsSpec.
Import ListNotations.

Lemma take_all {X} (l : list X) : take l (seq 0 (length l)) = Ok l.
Proof.
  apply take_ok. apply Forall2_intro_nth; [now rewrite seq_length|]. intros k i x Hi Hx.
  assert (k < length l) by (apply nth_error_Some; congruence). rewrite nth_error_seq' in Hi by lia. injection Hi as <-. exact Hx.
Qed.

Lemma reshape_concat {X} (rows : list (list X)) : reshape_like rows (concat rows) = rows.
Proof. induction rows as [|r rows IH]; [reflexivity|]. cbn [reshape_like concat]. now rewrite firstn_app_exact, skipn_app_exact, IH. Qed.

Lemma cut_concat {X} (gs : list (list (list X))) : forall (pre : list X), cut_groups (length pre) gs (pre ++ concat (map (@concat X) gs)) = gs.
Proof.
  induction gs as [|rows gs IH]; intros pre; [reflexivity|]. cbn [cut_groups map concat]. f_equal.
  - unfold slice. rewrite skipn_app_exact. replace (length pre + length (concat rows) - length pre) with (length (concat rows)) by lia. rewrite firstn_app_exact. apply reshape_concat.
  - replace (length pre + length (concat rows)) with (length (pre ++ concat rows)) by apply app_length. rewrite app_assoc. apply IH.
Qed.

Lemma one_valid n p : valid_partition n [(p, seq 0 n)].
Proof.
  assert (Ha : forall e q k, assigned [(p, seq 0 n)] e q k <-> q = p /\ k = e /\ e < n).
  { intros e q k. split.
    - intros (els & [[= <- <-]|[]] & Hk). assert (k < n) by (rewrite <- (seq_length n 0); apply nth_error_Some; congruence). rewrite nth_error_seq' in Hk by lia. injection Hk as <-. auto.
    - intros (-> & -> & H). exists (seq 0 n). split; [now left|]. now rewrite nth_error_seq'. }
  constructor.
  - repeat constructor. intros [].
  - intros q els [[= <- <-]|[]]. apply incr_seq.
  - intros e q k H. now apply Ha in H.
  - intros e H. exists p, e. now apply Ha.
  - intros e q q' k l H H'. apply Ha in H, H'. destruct H as (-> & _), H' as (-> & _). reflexivity.
Qed.

Lemma rows_exist {E} (groups : list (egroup E)) : has_rows groups -> exists vis, Forall2 (fun g vi => eg_vi g = Some vi /\ length vi = nelements g) groups vis.
Proof.
  intros H. induction H as [|g gs (vi & Hvi & Hl) _ (vis & IH)]; [exists []; constructor|]. exists (vi :: vis). constructor; auto.
Qed.

Section One.
  Context {E A V : Type}.
  Variables (vs : list V) (groups : list (egroup E)) (fags : list (list (fagrp A))) (p : nat).
  Let sizes := map nelements groups.
  Let n := sum sizes.
  Hypothesis Hne : groups <> [].
  Hypothesis Hrows : has_rows groups.
  Hypothesis Hrange : rows_in_range (length vs) groups.
  Hypothesis Hused : forall v, v < length vs -> exists e row, elem_row groups e row /\ In v row.
  Hypothesis Hwf : fags_wf groups fags.

  Lemma base_le g : base sizes g <= n.
  Proof. unfold base, n. transitivity (sum (firstn g sizes) + sum (skipn g sizes)); [lia|]. rewrite <- sum_app, firstn_skipn. apply le_n. Qed.

  Lemma lo_one g : lo groups (seq 0 n) g = base sizes g.
  Proof.
    unfold lo. fold sizes. pose proof (base_le g) as Hb. pose proof (searchsorted_le (seq 0 n) (base sizes g)) as Hl. rewrite seq_length in Hl.
    set (s := searchsorted (seq 0 n) (base sizes g)) in *.
    assert (K : forall i, i < n -> (i < s <-> i < base sizes g)).
    { intros i Hi. apply (searchsorted_lt (seq 0 n) (base sizes g) i i); [apply incr_StronglySorted_le, incr_seq|]. now rewrite nth_error_seq'. }
    destruct (Nat.lt_trichotomy s (base sizes g)) as [H|[H|H]]; auto.
    - specialize (K s ltac:(lia)). lia.
    - specialize (K (base sizes g) ltac:(lia)). lia.
  Qed.

  Lemma elems_one g grp : nth_error groups g = Some grp -> part_elems groups (seq 0 n) g = seq 0 (nelements grp).
  Proof.
    intros Hg. assert (Hs : nth_error sizes g = Some (nelements grp)) by (unfold sizes; now rewrite nth_error_map, Hg).
    pose proof (base_S _ _ _ Hs) as HS. unfold part_elems. rewrite !lo_one. fold sizes. rewrite HS.
    apply nth_error_ext'. intros i. rewrite nth_error_map, nth_error_slice.
    pose proof (base_le (S g)) as HB. rewrite HS in HB.
    destruct (Nat.ltb_spec (base sizes g + i) (base sizes g + nelements grp)).
    - rewrite !nth_error_seq' by lia. cbn [option_map]. f_equal. lia.
    - cbn [option_map]. symmetry. apply nth_error_None. rewrite seq_length. lia.
  Qed.

  Lemma filter_one : filter_mesh_groups groups (seq 0 n) = Ok (groups, seq 0 (length vs)).
  Proof.
    unfold filter_mesh_groups.
    rewrite (fge_ok groups (seq 0 n)); auto; [|intros e He; apply in_seq in He; fold sizes; fold n; lia]. cbn [bind].
    assert (Hfge : map (part_elems groups (seq 0 n)) (seq 0 (length groups)) = map (fun g => seq 0 (nelements g)) groups).
    { apply nth_error_ext'. intros g. rewrite !nth_error_map. destruct (nth_error groups g) as [grp|] eqn:Hg; cbn [option_map].
      - assert (g < length groups) by (apply nth_error_Some; congruence). rewrite nth_error_seq' by lia. cbn [option_map]. f_equal. now apply elems_one.
      - apply nth_error_None in Hg. replace (nth_error (seq 0 (length groups)) g) with (@None nat); [reflexivity|]. symmetry. apply nth_error_None. now rewrite seq_length. }
    rewrite Hfge.
    assert (Hvis : exists vis, Forall2 (fun g vi => eg_vi g = Some vi /\ length vi = nelements g) groups vis).
    { now apply rows_exist. }
    destruct Hvis as (vis & HF).
    assert (H1 : mapM (fun gf : egroup E * list nat => match eg_vi (fst gf) with Some vi => rows <- take vi (snd gf) ;; Ok [rows] | None => Ok [] end)
                   (combine groups (map (fun g => seq 0 (nelements g)) groups)) = Ok (map (fun vi => [vi]) vis)).
    { clear -HF. induction HF as [|g vi gs vis (Hvi & Hl) _ IH]; [reflexivity|]. cbn [map combine mapM fst snd]. rewrite Hvi, <- Hl, take_all. cbn [bind]. rewrite IH. reflexivity. }
    rewrite H1. cbn [bind]. rewrite concat_map_singleton.
    assert (Hlen : length vis = length groups) by (symmetry; eapply Forall2_length'; eauto).
    replace (negb (length vis =? 0)) with true by (destruct groups; [congruence|]; now rewrite Hlen). cbn [guard bind].
    set (all := concat (map (@concat nat) vis)).
    assert (Hall : forall v, In v all <-> v < length vs).
    { intros v. unfold all. rewrite in_concat. split.
      - intros (l & Hl & Hv). apply in_map_iff in Hl as (vi & <- & Hvi). apply in_concat in Hv as (row & Hrow & Hv).
        destruct (Forall2_In_r _ _ _ _ HF Hvi) as (g & Hg & Hgvi & _).
        destruct (proj2 (elem_row_iff groups row Hrows)) as (e & He); [exists g, vi; auto|]. eapply Hrange; eauto.
      - intros H. destruct (Hused v H) as (e & row & He & Hv). destruct (proj1 (elem_row_iff groups row Hrows)) as (g & vi & Hg & Hvi & Hrow); [eauto|].
        destruct (Forall2_In_l _ _ _ _ HF Hg) as (vi' & Hvi' & Heq & _). assert (vi' = vi) by congruence. subst.
        exists (concat vi). split; [apply in_map; auto|]. apply in_concat. eauto. }
    assert (Hu : unique all = seq 0 (length vs)).
    { apply incr_ext; [apply unique_incr|apply incr_seq|]. intros v. rewrite unique_In, Hall, in_seq. lia. }
    unfold unique_inverse. rewrite Hu.
    assert (Hinv : mapM (fun v => match index_of v (seq 0 (length vs)) with Some i => Ok i | None => Err KeyError end) all = Ok all).
    { rewrite (mapM_map_ok _ (fun v => v)); [now rewrite map_id|]. intros v Hv. apply Hall in Hv. rewrite (index_of_nth v _ v); [reflexivity|apply seq_NoDup|now apply nth_error_seq']. }
    rewrite Hinv. cbn [bind]. replace (cut_groups 0 vis all) with vis by (symmetry; exact (cut_concat vis [])).
    assert (H2 : mapM (fun igf : nat * (egroup E * list nat) => let '(igrp, (g, els)) := igf in vi <- get vis igrp ;; nodes <- take (eg_nodes g) els ;; Ok (mk_egroup (Some vi) nodes (eg_fvi g)))
                   (enumerate (combine groups (map (fun g => seq 0 (nelements g)) groups))) = Ok groups).
    { apply mapM_ok. apply Forall2_intro_nth.
      - rewrite length_enumerate, combine_length, map_length. lia.
      - intros k (i, (g, els)) g' Hk Hg'. rewrite nth_error_enumerate in Hk. destruct (nth_error (combine groups (map (fun g0 => seq 0 (nelements g0)) groups)) k) as [gf|] eqn:Ek; [|discriminate]. injection Hk as <- ->. rename Ek into Hk. apply nth_error_combine_Some in Hk as (Hg & He). rewrite nth_error_map, Hg in He. injection He as <-.
        assert (g' = g) by congruence. subst g'. destruct (Forall2_nth_error _ _ _ _ _ HF Hg) as (vi & Hvi & Hgvi & _).
        rewrite (proj2 (get_ok _ _ _) Hvi). cbn [bind]. unfold nelements. rewrite take_all. cbn [bind]. rewrite <- Hgvi. now destruct g. }
    rewrite H2. reflexivity.
  Qed.

  (** ** Adjacency *)
  Variable g2p : list (nat * nat).
  Hypothesis Hg2p : forall e, e < n -> nth_error g2p e = Some (0, e).

  Lemma in_mesh g grp e : nth_error groups g = Some grp -> e < nelements grp -> e + base sizes g < n.
  Proof.
    intros Hg He. assert (Hs : nth_error sizes g = Some (nelements grp)) by (unfold sizes; now rewrite nth_error_map, Hg).
    pose proof (base_S _ _ _ Hs). pose proof (base_le (S g)). lia.
  Qed.

  Lemma bases_one g grp : nth_error groups g = Some grp -> get (base_element_nrs sizes) g = Ok (base sizes g).
  Proof. intros Hg. apply get_ok, base_element_nrs_nth. unfold sizes. rewrite map_length. apply nth_error_Some. congruence. Qed.
  Lemma sbases_one g grp : nth_error groups g = Some grp -> get (elem_bases groups) g = Ok (base sizes g).
  Proof. intros Hg. apply get_ok, elem_bases_nth. apply nth_error_Some. congruence. Qed.

  Lemma fags_group g l : nth_error fags g = Some l -> exists grp, nth_error groups g = Some grp.
  Proof.
    intros Hl. destruct Hwf as (HL & _). assert (g < length groups) by (rewrite <- HL; apply nth_error_Some; congruence).
    destruct (nth_error groups g) eqn:Hg; eauto. apply nth_error_None in Hg. lia.
  Qed.

  Definition here (bi bj : nat) (en : fentry) : fentry * ((nat * nat) * (nat * nat)) := (en, ((0, fst (fst en) + bi), (0, fst (snd en) + bj))).

  Lemma locate_one g l g' es aff : nth_error fags g = Some l -> In (Interior g g' es aff) l ->
    mapM (locate g2p (base sizes g) (base sizes g')) es = Ok (map (here (base sizes g) (base sizes g')) es).
  Proof.
    intros Hl Hin. destruct Hwf as (_ & _ & W3 & W4). destruct (fags_group g l Hl) as (grp & Hg). destruct (W4 g l g' es aff Hl Hin) as (grp' & Hg' & Hr).
    apply mapM_map_ok. intros en Hen. unfold locate.
    rewrite (proj2 (get_ok _ _ _) (Hg2p _ (in_mesh g grp (fst (fst en)) Hg ltac:(destruct en as ((e, f), (e', f')); apply (W3 g grp l (Interior g g' es aff) e f Hg Hl Hin); cbn [fag_faces]; now apply (in_map fst) in Hen)))). cbn [bind].
    rewrite (proj2 (get_ok _ _ _) (Hg2p _ (in_mesh g' grp' (fst (snd en)) Hg' (Hr en Hen)))). reflexivity.
  Qed.

  Lemma interior_one {R} (f : nat -> nat -> A -> list (fentry * ((nat * nat) * (nat * nat))) -> res (list R)) (F : fagrp A -> list R) :
    (forall g l g' es aff grp grp', nth_error fags g = Some l -> In (Interior g g' es aff) l -> nth_error groups g = Some grp -> nth_error groups g' = Some grp' ->
       f g g' aff (map (here (base sizes g) (base sizes g')) es) = Ok (F (Interior g g' es aff))) ->
    (forall b, match b with Interior _ _ _ _ => True | _ => F b = [] end) ->
    for_interior (base_element_nrs sizes) g2p fags f = Ok (map (fun l => flat_map F l) fags).
  Proof.
    intros Hf HF. unfold for_interior. apply mapM_ok. apply Forall2_intro_nth; [now rewrite length_enumerate, map_length|].
    intros g (g0, l) r Hg Hr. rewrite nth_error_enumerate in Hg. destruct (nth_error fags g) as [l0|] eqn:Hl; [|discriminate]. injection Hg as <- ->.
    rewrite nth_error_map, Hl in Hr. injection Hr as <-. cbn [fst snd]. rewrite (mapM_map_ok _ F); [cbn [bind]; now rewrite flat_map_concat_map|].
    intros b Hb. pose proof (HF b) as HFb. destruct b as [ig jg es aff|ig t fs|ig t q es aff]; [|now rewrite HFb|now rewrite HFb].
    pose proof Hwf as (_ & W2 & _ & W4). pose proof (W2 g l _ Hl Hb) as Hig. cbn [igroup_of] in Hig. subst ig.
    destruct (fags_group g l Hl) as (grp & Hgrp). destruct (W4 g l jg es aff Hl Hb) as (grp' & Hg' & _).
    rewrite (bases_one g grp Hgrp). cbn [bind]. rewrite (bases_one jg grp' Hg'). cbn [bind]. rewrite (locate_one g l jg es aff Hl Hb). cbn [bind]. eapply Hf; eauto.
  Qed.

  Lemma filter_none {X} (q : X -> bool) l : (forall x, In x l -> q x = false) -> filter q l = [].
  Proof. induction l as [|x l IH]; intros H; [reflexivity|]. cbn [filter]. rewrite (H x (or_introl eq_refl)). apply IH. intros; apply H; now right. Qed.
  Lemma filter_everything {X} (q : X -> bool) l : (forall x, In x l -> q x = true) -> filter q l = l.
  Proof. induction l as [|x l IH]; intros H; [reflexivity|]. cbn [filter]. rewrite (H x (or_introl eq_refl)). f_equal. apply IH. intros; apply H; now right. Qed.

  Lemma connected_one : connected_parts (base_element_nrs sizes) g2p [(p, seq 0 n)] 0 fags = Ok [].
  Proof.
    unfold connected_parts. rewrite (interior_one _ (fun _ => [])).
    - cbn [bind map fst enumerate]. replace (concat (map (fun l => flat_map (fun _ : fagrp A => @nil nat) l) fags)) with (@nil nat); [reflexivity|].
      symmetry. clear. induction fags as [|l r IH]; [reflexivity|]. cbn [map concat]. rewrite IH, app_nil_r. induction l; auto.
    - intros g l g' es aff grp grp' _ _ _ _. rewrite filter_none; [reflexivity|]. intros x Hx. apply in_map_iff in Hx as (en & <- & _). reflexivity.
    - intros [ | | ]; auto.
  Qed.

  Lemma self_one : self_to_self (base_element_nrs sizes) g2p 0 (elem_bases groups) fags =
    Ok (map (filter (fun b => match b with Interior _ _ (_ :: _) _ => true | _ => false end)) fags).
  Proof.
    unfold self_to_self. rewrite (interior_one _ (fun b => match b with Interior _ _ (_ :: _) _ => [b] | _ => [] end)).
    - f_equal. apply map_ext. intros l. induction l as [|b l IH]; [reflexivity|]. cbn [flat_map filter]. rewrite IH. destruct b as [? ? [|? ?] ?| |]; reflexivity.
    - intros g l g' es aff grp grp' Hl Hin Hg Hg'. rewrite filter_everything; [|intros x Hx; apply in_map_iff in Hx as (en & <- & _); reflexivity].
      destruct es as [|en es]; [reflexivity|]. set (ens := en :: es). change (match map (here (base sizes g) (base sizes g')) ens with [] => Ok [] | _ :: _ => ?x end) with x.
      rewrite (sbases_one g grp Hg). cbn [bind]. rewrite (sbases_one g' grp' Hg'). cbn [bind]. do 3 f_equal. rewrite map_map. rewrite <- (map_id ens) at 2. apply map_ext.
      intros ((e, f), (e', f')). cbn [here fst snd]. do 2 f_equal; f_equal; lia.
    - intros [ | | ]; auto.
  Qed.

  Lemma other_one : self_to_other (base_element_nrs sizes) g2p [(p, seq 0 n)] 0 (elem_bases groups) [] fags = Ok (map (fun _ => []) fags).
  Proof.
    unfold self_to_other. rewrite (interior_one _ (fun _ => [])).
    - f_equal. apply map_ext. intros l. induction l; auto.
    - reflexivity.
    - intros [ | | ]; auto.
  Qed.

  Lemma boundary_one : part_boundary (base_element_nrs sizes) g2p 0 (elem_bases groups) fags =
    Ok (map (flat_map (fun b => match b with Interior _ _ _ _ => [] | Boundary g t fs => [Boundary g t fs] | InterPart g t _ es _ => [Boundary g t (map fst es)] end)) fags).
  Proof.
    unfold part_boundary. apply mapM_ok. apply Forall2_intro_nth; [now rewrite length_enumerate, map_length|].
    intros g (g0, l) r Hg Hr. rewrite nth_error_enumerate in Hg. destruct (nth_error fags g) as [l0|] eqn:Hl; [|discriminate]. injection Hg as <- ->.
    rewrite nth_error_map, Hl in Hr. injection Hr as <-. cbn [fst snd]. rewrite flat_map_concat_map. erewrite mapM_map_ok; [cbn [bind]; reflexivity|].
    intros b Hb. pose proof Hwf as (_ & W2 & W3 & _). pose proof (W2 g l _ Hl Hb) as Hig. destruct (fags_group g l Hl) as (grp & Hgrp).
    assert (K : mapM (fun ef : nat * nat => a <- get g2p (fst ef + base sizes g) ;; Ok (ef, a)) (fag_faces b) = Ok (map (fun ef : nat * nat => (ef, (0, fst ef + base sizes g))) (fag_faces b))).
    { apply mapM_map_ok. intros (e, f) He. cbn [fst]. rewrite (proj2 (get_ok _ _ _) (Hg2p _ (in_mesh g grp e Hgrp (W3 g grp l b e f Hgrp Hl Hb He)))). reflexivity. }
    assert (L : forall t, (les <- mapM (fun ef : nat * nat => a <- get g2p (fst ef + base sizes g) ;; Ok (ef, a)) (fag_faces b) ;;
                 match filter (fun x : (nat * nat) * (nat * nat) => fst (snd x) =? 0) les with
                 | [] => Ok [Boundary (A := A) g t []]
                 | _ => si <- get (elem_bases groups) g ;; Ok [Boundary g t (map (fun x : (nat * nat) * (nat * nat) => (snd (snd x) - si, snd (fst x))) (filter (fun x : (nat * nat) * (nat * nat) => fst (snd x) =? 0) les))]
                 end) = Ok [Boundary g t (fag_faces b)]).
    { intros t. rewrite K. cbn [bind]. rewrite filter_everything; [|intros x Hx; apply in_map_iff in Hx as (ef & <- & _); reflexivity].
      assert (Hmm : map (fun x : (nat * nat) * (nat * nat) => (snd (snd x) - base sizes g, snd (fst x))) (map (fun ef : nat * nat => (ef, (0, fst ef + base sizes g))) (fag_faces b)) = fag_faces b).
      { rewrite map_map. transitivity (map (fun x : nat * nat => x) (fag_faces b)); [|apply map_id]. apply map_ext. intros (e, f). cbn [fst snd]. f_equal. lia. }
      rewrite (sbases_one g grp Hgrp). cbn [bind]. rewrite Hmm. destruct (fag_faces b); reflexivity. }
    destruct b as [ig jg es aff|ig t fs|ig t q es aff]; cbn [bdry_tag]; [reflexivity| |]; rewrite (bases_one g grp Hgrp); cbn [bind]; cbn [igroup_of] in Hig; subst ig; apply L.
  Qed.
End One.

Lemma one_g2p garbage n p : length garbage = n -> exists g2p, global_elem_to_part_elem garbage [(p, seq 0 n)] = Ok g2p /\ forall e, e < n -> nth_error g2p e = Some (0, e).
Proof.
  intros HG. destruct (g2p_spec garbage n _ (one_valid n p) HG) as (g2p & H1 & _ & H2). exists g2p. split; [exact H1|]. intros e He. apply H2. exists p, (seq 0 n).
  split; [reflexivity|]. now rewrite nth_error_seq'.
Qed.

Lemma get_one_part {E A V} garbage (vs : list V) (groups : list (egroup E)) (fags : list (list (fagrp A))) conforming p :
  length garbage = sum (map nelements groups) -> groups <> [] -> has_rows groups -> rows_in_range (length vs) groups ->
  (forall v, v < length vs -> exists e row, elem_row groups e row /\ In v row) -> fags_wf groups fags ->
  get_mesh_part garbage (Some vs) groups (Ok fags) conforming [(p, seq 0 (sum (map nelements groups)))] p =
  make_mesh (Some vs) groups Pending (Available (map one_part fags)) conforming 0 0 0.
Proof.
  intros HG Hne Hrows Hrange Hused Hwf. unfold get_mesh_part. cbv zeta. set (n := sum (map nelements groups)) in *.
  destruct (counts_ok n _ (one_valid n p)) as (cs & Hcs & C1 & C2). rewrite Hcs. cbn [bind]. rewrite C1, C2. cbn [negb guard bind].
  destruct (one_g2p garbage n p HG) as (g2p & H1 & H2). rewrite H1. cbn [bind].
  rewrite (proj2 (part_lookup_spec [(p, seq 0 n)] p (seq 0 n) (vp_keys _ _ (one_valid n p)))) by now left. cbn [bind].
  unfold n. rewrite (filter_one vs groups fags Hne Hrows Hrange Hused Hwf). fold n. cbn [bind].
  rewrite (proj2 (part_index_spec [(p, seq 0 n)] p 0 (vp_keys _ _ (one_valid n p)))) by reflexivity. cbn [bind]. rewrite take_all. cbn [bind].
  rewrite (proj2 (Nat.eqb_eq _ _) (proj1 Hwf)). cbn [guard bind].
  unfold n. rewrite (connected_one groups fags p Hwf g2p H2). cbn [bind]. rewrite (self_one groups fags Hwf g2p H2). cbn [bind].
  rewrite (other_one groups fags p Hwf g2p H2). cbn [bind]. rewrite (boundary_one groups fags Hwf g2p H2). cbn [bind].
  match goal with |- bind (mapM ?f ?l) _ = _ => assert (Hm : mapM f l = Ok (map one_part fags)) end; [|rewrite Hm; reflexivity].
  destruct Hwf as (HL & _). rewrite <- HL. apply mapM_ok. apply Forall2_intro_nth; [now rewrite seq_length, map_length|].
  intros k i r Hk Hr. assert (k < length fags) by (rewrite <- (map_length one_part); apply nth_error_Some; congruence). rewrite nth_error_seq' in Hk by lia. injection Hk as <-.
  cbn [plus]. rewrite nth_error_map in Hr. destruct (nth_error fags k) as [l|] eqn:Hl; [|discriminate]. injection Hr as <-.
  rewrite (proj2 (get_ok _ k (filter _ l))) by (rewrite nth_error_map, Hl; reflexivity). cbn [bind].
  rewrite (proj2 (get_ok _ k [])) by (rewrite nth_error_map, Hl; reflexivity). cbn [bind].
  rewrite (proj2 (get_ok _ k (flat_map _ l))) by (rewrite nth_error_map, Hl; reflexivity). reflexivity.
Qed.
