(** * Lemmas about the facial adjacency of mesh parts *)
From Coq Require Import List Arith Bool ZArith Lia Sorting.Sorted.
From Verif Require Import Np NpFacts MeshModel MeshSpec MeshProofs CompletionProofs MeshStateModel
  PartModel PartSpec PartProofs PartFilterProofs.
Import ListNotations.

Lemma elem_bases_fold {E} (groups : list (egroup E)) : forall s acc,
  snd (fold_left (fun st g => (fst st + nelements g, snd st ++ [fst st])) groups (s, acc)) =
  acc ++ map (fun g => s + base (map nelements groups) g) (seq 0 (length groups)).
Proof.
  induction groups as [|grp groups IH]; intros s acc; cbn [fold_left length seq map fst snd].
  - now rewrite app_nil_r.
  - rewrite IH, <- app_assoc. f_equal. cbn [app]. f_equal; [unfold base; cbn; lia|].
    rewrite <- seq_shift, map_map. apply map_ext. intros g. unfold base. cbn [firstn]. unfold sum. cbn [fold_right]. lia.
Qed.

Lemma elem_bases_nth {E} (groups : list (egroup E)) g :
  g < length groups -> nth_error (elem_bases groups) g = Some (base (map nelements groups) g).
Proof.
  intros H. unfold elem_bases. rewrite elem_bases_fold. cbn [app].
  rewrite nth_error_map, nth_error_seq' by auto. reflexivity.
Qed.

Section Adj.
  Context {E A : Type}.
  Variables (groups groups' : list (egroup E)) (fags : list (list (fagrp A)))
            (parts : partdict) (p self : nat) (els : list nat) (g2p : list (nat * nat)).
  Let sizes := map nelements groups.
  Let sizes' := map nelements groups'.
  Hypothesis Hkeys : NoDup (map fst parts).
  Hypothesis Hself : nth_error parts self = Some (p, els).
  Hypothesis Hg2p : forall e i k, nth_error g2p e = Some (i, k) <->
      exists q l, nth_error parts i = Some (q, l) /\ nth_error l k = Some e.
  Hypothesis Hg2plen : length g2p = sum sizes.
  Hypothesis Hlen' : length groups' = length groups.
  Hypothesis Himg : forall g grp e k, nth_error groups g = Some grp -> e < nelements grp ->
    nth_error els k = Some (base sizes g + e) ->
    exists grp' i, nth_error groups' g = Some grp' /\ i < nelements grp' /\ k = base sizes' g + i.
  Hypothesis Hwf : fags_wf groups fags.

  Lemma assigned_iff q qi l e k : nth_error parts qi = Some (q, l) ->
    (assigned parts e q k <-> nth_error g2p e = Some (qi, k)).
  Proof.
    intros Hq. rewrite Hg2p. split.
    - intros (l' & Hin & Hk). apply In_nth_error in Hin as (j & Hj).
      assert (j = qi) by (eapply NoDup_keys_unique; eauto). subst j. eauto.
    - intros (q' & l' & Hq' & Hk). rewrite Hq in Hq'. inversion Hq'; subst. exists l'. split; auto. eapply nth_error_In; eauto.
  Qed.

  Lemma image_iff g grp e i : nth_error groups g = Some grp -> e < nelements grp ->
    (image groups groups' parts p g e i <-> nth_error g2p (base sizes g + e) = Some (self, base sizes' g + i)).
  Proof.
    intros Hg He. rewrite <- (assigned_iff p self els) by auto. split.
    - intros (grp1 & grp1' & H1 & H2 & H3 & H4 & H5). exact H5.
    - intros (l & Hin & Hk). apply In_nth_error in Hin as (j & Hj).
      assert (j = self) by (eapply NoDup_keys_unique; eauto). subst j. rewrite Hself in Hj. inversion Hj; subst l.
      destruct (Himg _ _ _ _ Hg He Hk) as (grp' & i0 & Hg' & Hi0 & Hi).
      assert (i0 = i) by lia. subst i0.
      exists grp, grp'. split; [auto|]. split; [auto|]. split; [auto|]. split; [auto|].
      exists els. split; auto. eapply nth_error_In; eauto.
  Qed.

  Lemma image_ex g grp e k : nth_error groups g = Some grp -> e < nelements grp ->
    nth_error g2p (base sizes g + e) = Some (self, k) -> exists i, k = base sizes' g + i /\ image groups groups' parts p g e i.
  Proof.
    intros Hg He H. pose proof H as H'. apply Hg2p in H' as (q & l & Hq & Hk).
    rewrite Hself in Hq. injection Hq as Hq1 Hq2. rewrite <- Hq2 in Hk.
    destruct (Himg _ _ _ _ Hg He Hk) as (grp' & i & Hg' & Hi & Hi').
    exists i. split; auto. rewrite (image_iff _ _ _ _ Hg He). rewrite <- Hi'. auto.
  Qed.

  Lemma elem_in_range g grp e : nth_error groups g = Some grp -> e < nelements grp -> e + base sizes g < length g2p.
  Proof.
    intros Hg He. rewrite Hg2plen.
    assert (Hs : nth_error sizes g = Some (nelements grp)) by (unfold sizes; rewrite nth_error_map, Hg; reflexivity).
    pose proof (base_S _ _ _ Hs). pose proof (sum_firstn_le sizes (S g)). unfold base in *. lia.
  Qed.

  Lemma group_of_fags g l : nth_error fags g = Some l -> exists grp, nth_error groups g = Some grp.
  Proof.
    intros H. destruct (nth_error groups g) eqn:Hg; eauto.
    exfalso. apply nth_error_None in Hg. destruct Hwf as (HL & _).
    assert (g < length fags) by (apply nth_error_Some; congruence). lia.
  Qed.

  Lemma bases_get g grp : nth_error groups g = Some grp ->
    get (base_element_nrs sizes) g = Ok (base sizes g).
  Proof.
    intros Hg. apply get_ok. apply base_element_nrs_nth. unfold sizes. rewrite map_length. apply nth_error_Some. congruence.
  Qed.

  Lemma sbases_get g grp : nth_error groups g = Some grp -> get (elem_bases groups') g = Ok (base sizes' g).
  Proof.
    intros Hg. apply get_ok. apply elem_bases_nth. rewrite Hlen'. apply nth_error_Some. congruence.
  Qed.

  Lemma interior_range g l g' es aff : nth_error fags g = Some l -> In (Interior g g' es aff) l ->
    exists grp grp', nth_error groups g = Some grp /\ nth_error groups g' = Some grp' /\
      forall en, In en es -> fst (fst en) < nelements grp /\ fst (snd en) < nelements grp'.
  Proof.
    intros Hl Hin. destruct (group_of_fags _ _ Hl) as (grp & Hg). destruct Hwf as (_ & _ & Hr & Hn).
    destruct (Hn _ _ _ _ _ Hl Hin) as (grp' & Hg' & Hn').
    exists grp, grp'. split; auto. split; auto. intros ((e, f), (e', f')) Hen. split.
    - eapply (Hr g grp l _ e f); eauto. cbn. apply in_map_iff. exists ((e, f), (e', f')). auto.
    - apply Hn'; auto.
  Qed.

  Lemma locate_spec g l g' es aff : nth_error fags g = Some l -> In (Interior g g' es aff) l ->
    exists les, mapM (locate g2p (base sizes g) (base sizes g')) es = Ok les /\
      forall en a b, In (en, (a, b)) les <-> In en es /\
        nth_error g2p (base sizes g + fst (fst en)) = Some a /\ nth_error g2p (base sizes g' + fst (snd en)) = Some b.
  Proof.
    intros Hl Hin. destruct (interior_range _ _ _ _ _ Hl Hin) as (grp & grp' & Hg & Hg' & Hr).
    destruct (mapM_total (locate g2p (base sizes g) (base sizes g')) es) as (les & Hles).
    { intros en Hen. destruct (Hr _ Hen) as (H1 & H2). unfold locate.
      destruct (get_total g2p _ (elem_in_range _ _ _ Hg H1)) as (a & ->).
      destruct (get_total g2p _ (elem_in_range _ _ _ Hg' H2)) as (b & ->). cbn. eauto. }
    exists les. split; auto. intros en a b. apply mapM_ok in Hles.
    assert (HL : forall en x, locate g2p (base sizes g) (base sizes g') en = Ok x <->
              exists a b, x = (en, (a, b)) /\ nth_error g2p (base sizes g + fst (fst en)) = Some a /\
                 nth_error g2p (base sizes g' + fst (snd en)) = Some b).
    { intros en' x. unfold locate. rewrite bind_ok. split.
      - intros (a' & Ha & H). apply bind_ok in H as (b' & Hb & H). inversion H; subst.
        apply get_ok in Ha, Hb. rewrite Nat.add_comm in Ha. rewrite Nat.add_comm in Hb. eauto.
      - intros (a' & b' & -> & Ha & Hb). rewrite Nat.add_comm in Ha. rewrite Nat.add_comm in Hb.
        apply get_ok in Ha. apply get_ok in Hb. exists a'. split; auto. rewrite Hb. reflexivity. }
    split.
    - intros H. destruct (Forall2_In_r _ _ _ _ Hles H) as (en' & Hen' & HR).
      apply HL in HR as (a' & b' & Heq & Ha & Hb). inversion Heq; subst. auto.
    - intros (Hen & Ha & Hb). destruct (Forall2_In_l _ _ _ _ Hles Hen) as (x & Hx & HR).
      apply HL in HR as (a' & b' & -> & Ha' & Hb'). rewrite Ha in Ha'. rewrite Hb in Hb'.
      inversion Ha'; inversion Hb'; subst; auto.
  Qed.

  Definition located (g g' : nat) (es : list fentry) (les : list (fentry * ((nat * nat) * (nat * nat)))) : Prop :=
    mapM (locate g2p (base sizes g) (base sizes g')) es = Ok les.

  Lemma located_In g l g' es aff les : nth_error fags g = Some l -> In (Interior g g' es aff) l ->
    located g g' es les -> forall en a b, In (en, (a, b)) les <-> In en es /\
        nth_error g2p (base sizes g + fst (fst en)) = Some a /\ nth_error g2p (base sizes g' + fst (snd en)) = Some b.
  Proof.
    intros Hl Hin Hloc. destruct (locate_spec _ _ _ _ _ Hl Hin) as (les' & H1 & H2).
    unfold located in Hloc. rewrite Hloc in H1. inversion H1; subst. exact H2.
  Qed.

  Lemma for_interior_spec {R} (f : nat -> nat -> A -> list (fentry * ((nat * nat) * (nat * nat))) -> res (list R)) :
    (forall g l g' es aff les, nth_error fags g = Some l -> In (Interior g g' es aff) l ->
       located g g' es les -> exists rl, f g g' aff les = Ok rl) ->
    exists r, for_interior (base_element_nrs sizes) g2p fags f = Ok r /\ length r = length fags /\
      forall g l, nth_error fags g = Some l -> exists rg, nth_error r g = Some rg /\
        forall x, In x rg <-> exists g' es aff les rl, In (Interior g g' es aff) l /\ located g g' es les /\
           f g g' aff les = Ok rl /\ In x rl.
  Proof.
    intros Hf. unfold for_interior.
    set (body := fun (g : nat) (fa : fagrp A) =>
                   match fa with
                   | Interior _ jgrp es aff =>
                       bi <- get (base_element_nrs sizes) g ;;
                       bj <- get (base_element_nrs sizes) jgrp ;;
                       les <- mapM (locate g2p bi bj) es ;;
                       f g jgrp aff les
                   | _ => Ok []
                   end).
    assert (Hbody : forall g l fa, nth_error fags g = Some l -> In fa l ->
              exists rl, body g fa = Ok rl /\
                forall x, In x rl <-> exists g' es aff les rl, fa = Interior g g' es aff /\ located g g' es les /\
           f g g' aff les = Ok rl /\ In x rl).
    { intros g l fa Hl Hfa. destruct fa as [ig g' es aff| |]; cbn [body].
      2,3: exists []; split; [reflexivity|]; intros x; split; [intros []|intros (? & ? & ? & ? & ? & ? & _); discriminate].
      assert (ig = g) by (destruct Hwf as (_ & Hi & _); apply (Hi _ _ _ Hl Hfa)). subst ig.
      destruct (interior_range _ _ _ _ _ Hl Hfa) as (grp & grp' & Hg & Hg' & _).
      rewrite (bases_get _ _ Hg), (bases_get _ _ Hg'). cbn [bind].
      destruct (locate_spec _ _ _ _ _ Hl Hfa) as (les & Hles & Hloc). rewrite Hles. cbn [bind].
      destruct (Hf _ _ _ _ _ _ Hl Hfa Hles) as (rl & Hrl). exists rl. split; auto.
      intros x. split.
      - intros H. exists g', es, aff, les, rl. auto.
      - intros (g1 & es1 & aff1 & les1 & rl1 & Heq & H1 & H2 & H3). inversion Heq; subst.
        unfold located in H1. rewrite Hles in H1. inversion H1; subst. rewrite Hrl in H2. inversion H2; subst. auto. }
    destruct (mapM_total (fun il : nat * list (fagrp A) =>
            ls <- mapM (body (fst il)) (snd il) ;; Ok (concat ls)) (enumerate fags)) as (r & Hr).
    { intros (g, l) Hin. apply In_enumerate in Hin. cbn [fst snd].
      destruct (mapM_total (body g) l) as (ls & Hls).
      - intros fa Hfa. destruct (Hbody _ _ _ Hin Hfa) as (rl & Hrl & _). eauto.
      - rewrite Hls. cbn. eauto. }
    exists r. split; [exact Hr|]. split; [rewrite (mapM_length _ _ _ Hr); apply length_enumerate|].
    intros g l Hl.
    assert (He : nth_error (enumerate fags) g = Some (g, l)) by (rewrite nth_error_enumerate, Hl; reflexivity).
    destruct (mapM_nth _ _ _ _ _ Hr He) as (rg & Hrg & Hb). cbn [fst snd] in Hb.
    apply bind_ok in Hb as (ls & Hls & Hb). inversion Hb; subst rg. exists (concat ls). split; auto.
    apply mapM_ok in Hls.
    intros x. rewrite in_concat. split.
    - intros (rl & Hrl & Hx). destruct (Forall2_In_r _ _ _ _ Hls Hrl) as (fa & Hfa & Hb').
      destruct (Hbody _ _ _ Hl Hfa) as (rl' & Hrl' & HQ). rewrite Hb' in Hrl'. inversion Hrl'; subst rl'.
      destruct (proj1 (HQ x) Hx) as (g' & es & aff & les & rl1 & Hfa' & HQ'); subst fa. exists g', es, aff, les, rl1. tauto.
    - intros (g' & es & aff & les & rl & Hfa & HQ). destruct (Forall2_In_l _ _ _ _ Hls Hfa) as (rl1 & Hrl & Hb').
      exists rl1. split; auto. destruct (Hbody _ _ _ Hl Hfa) as (rl' & Hrl' & HQ'). rewrite Hb' in Hrl'. inversion Hrl'; subst rl'.
      apply HQ'. exists g', es, aff, les, rl. tauto.
  Qed.

  (** ** connected parts *)
  Lemma connected_parts_spec :
    exists con, connected_parts (base_element_nrs sizes) g2p parts self fags = Ok con /\
      forall q, In q con <-> exists qi g g' es aff l en k k',
        nth_error (map fst parts) qi = Some q /\ qi <> self /\
        nth_error fags g = Some l /\ In (Interior g g' es aff) l /\ In en es /\
        nth_error g2p (base sizes g + fst (fst en)) = Some (self, k) /\
        nth_error g2p (base sizes g' + fst (snd en)) = Some (qi, k').
  Proof.
    unfold connected_parts.
    destruct (for_interior_spec (fun (_ _ : nat) (_ : A) les =>
                Ok (map (fun x : fentry * ((nat * nat) * (nat * nat)) => fst (snd (snd x)))
                        (filter (fun x => (fst (fst (snd x)) =? self) && negb (fst (snd (snd x)) =? self)) les))))
      as (idx & Hidx & HL & Hx).
    { eauto. }
    fold sizes. rewrite Hidx. cbn [bind]. eexists. split; [reflexivity|].
    intros q. rewrite in_map_iff. split.
    - intros ((qi, q') & Heq & Hf). cbn in Heq. subst q'. apply filter_In in Hf as (Hf & Hm). cbn in Hm.
      apply In_enumerate in Hf. apply memb_In in Hm. apply in_concat in Hm as (rg & Hrg & Hm).
      apply In_nth_error in Hrg as (g & Hrg).
      destruct (nth_error fags g) as [l|] eqn:Hl.
      2:{ exfalso. apply nth_error_None in Hl. assert (g < length idx) by (apply nth_error_Some; congruence). lia. }
      destruct (Hx _ _ Hl) as (rg' & Hrg' & HQ). rewrite Hrg in Hrg'. inversion Hrg'; subst rg'.
      apply (proj1 (HQ _)) in Hm; destruct Hm as (g' & es & aff & les & rl & Hin & Hloc & Hrl & Hm). injection Hrl as <-.
      apply in_map_iff in Hm as ((en, ((a, k), (b, k'))) & Heq & Hm). cbn in Heq. subst b.
      apply filter_In in Hm as (Hm & Hb). cbn in Hb. apply andb_true_iff in Hb as (Ha & Hb).
      apply Nat.eqb_eq in Ha. apply negb_true_iff, Nat.eqb_neq in Hb. subst a.
      apply (located_In _ _ _ _ _ _ Hl Hin Hloc) in Hm as (Hen & H1 & H2).
      exists qi, g, g', es, aff, l, en, k, k'. auto 10.
    - intros (qi & g & g' & es & aff & l & en & k & k' & Hq & Hne & Hl & Hin & Hen & H1 & H2).
      exists (qi, q). split; auto. apply filter_In. split; [now apply In_enumerate|]. cbn.
      apply memb_In, in_concat. destruct (Hx _ _ Hl) as (rg & Hrg & HQ).
      exists rg. split; [eapply nth_error_In; eauto|]. apply HQ.
      destruct (locate_spec _ _ _ _ _ Hl Hin) as (les & Hles & Hloc).
      exists g', es, aff, les. eexists. split; [auto|]. split; [exact Hles|]. split; [reflexivity|].
      apply in_map_iff. exists (en, ((self, k), (qi, k'))). split; auto.
      apply filter_In. split; [apply Hloc; auto|]. cbn. rewrite Nat.eqb_refl.
      cbn. apply negb_true_iff, Nat.eqb_neq. auto.
  Qed.

  (** ** self to self *)
  Lemma self_to_self_spec :
    exists ss, self_to_self (base_element_nrs sizes) g2p self (elem_bases groups') fags = Ok ss /\
      length ss = length fags /\
      forall g l, nth_error fags g = Some l -> exists rg, nth_error ss g = Some rg /\
        (forall b, In b rg -> exists g' es' aff, b = Interior g g' es' aff) /\
        forall g' aff i f i' f',
          (exists es', In (Interior g g' es' aff) rg /\ In ((i, f), (i', f')) es') <->
          (exists es e e', In (Interior g g' es aff) l /\ In ((e, f), (e', f')) es /\
             image groups groups' parts p g e i /\ image groups groups' parts p g' e' i').
  Proof.
    unfold self_to_self.
    set (sel := fun les : list (fentry * ((nat * nat) * (nat * nat))) =>
             filter (fun x => (fst (fst (snd x)) =? self) && (fst (snd (snd x)) =? self)) les).
    set (body := fun igrp jgrp (aff : A) les =>
         match sel les with
         | [] => Ok []
         | _ =>
             si <- get (elem_bases groups') igrp ;;
             sj <- get (elem_bases groups') jgrp ;;
             Ok [Interior igrp jgrp
                   (map (fun x : fentry * ((nat * nat) * (nat * nat)) =>
                           ((snd (fst (snd x)) - si, snd (fst (fst x))),
                            (snd (snd (snd x)) - sj, snd (snd (fst x))))) (sel les)) aff]
         end).
    assert (Hbody : forall g l g' es aff les, nth_error fags g = Some l -> In (Interior g g' es aff) l ->
       located g g' es les -> 
       body g g' aff les = Ok (match sel les with [] => [] | _ =>
             [Interior g g'
                   (map (fun x : fentry * ((nat * nat) * (nat * nat)) =>
                           ((snd (fst (snd x)) - base sizes' g, snd (fst (fst x))),
                            (snd (snd (snd x)) - base sizes' g', snd (snd (fst x))))) (sel les)) aff] end)).
    { intros g l g' es aff les Hl Hin Hloc. unfold body.
      destruct (interior_range _ _ _ _ _ Hl Hin) as (grp & grp' & Hg & Hg' & _).
      destruct (sel les); auto. rewrite (sbases_get _ _ Hg), (sbases_get _ _ Hg'). reflexivity. }
    assert (Hsel : forall g l g' es aff les, nth_error fags g = Some l -> In (Interior g g' es aff) l ->
       located g g' es les -> forall en a b, In (en, (a, b)) (sel les) <->
         exists i i', In en es /\ image groups groups' parts p g (fst (fst en)) i /\ image groups groups' parts p g' (fst (snd en)) i' /\
           a = (self, base sizes' g + i) /\ b = (self, base sizes' g' + i')).
    { intros g l g' es aff les Hl Hin Hloc en a b. unfold sel. rewrite filter_In, (located_In _ _ _ _ _ _ Hl Hin Hloc).
      destruct (interior_range _ _ _ _ _ Hl Hin) as (grp & grp' & Hg & Hg' & Hr).
      split.
      - intros ((Hen & H1 & H2) & Hb). destruct a as (a, k), b as (b, k'). cbn in Hb. apply andb_true_iff in Hb as (Ha & Hb).
        apply Nat.eqb_eq in Ha, Hb. subst a b. destruct (Hr _ Hen) as (R1 & R2).
        destruct (image_ex _ _ _ _ Hg R1 H1) as (i & -> & Hi). destruct (image_ex _ _ _ _ Hg' R2 H2) as (i' & -> & Hi').
        exists i, i'. auto.
      - intros (i & i' & Hen & Hi & Hi' & -> & ->). destruct (Hr _ Hen) as (R1 & R2).
        rewrite (image_iff _ _ _ _ Hg R1) in Hi. rewrite (image_iff _ _ _ _ Hg' R2) in Hi'. cbn.
        rewrite Nat.eqb_refl. auto. }
    destruct (for_interior_spec body) as (ss & Hss & HL & Hx).
    { intros g l g' es aff les Hl Hin Hloc. rewrite (Hbody _ _ _ _ _ _ Hl Hin Hloc). eauto. }
    exists ss. split; [exact Hss|]. split; [auto|]. intros g l Hl. destruct (Hx _ _ Hl) as (rg & Hrg & HQ).
    exists rg. split; auto. split.
    - intros b Hb. apply (proj1 (HQ _)) in Hb; destruct Hb as (g' & es & aff & les & rl & Hin & Hloc & Hrl & Hb).
      rewrite (Hbody _ _ _ _ _ _ Hl Hin Hloc) in Hrl. injection Hrl as <-.
      destruct (sel les); [contradiction|]. destruct Hb as [<-|[]]. eauto.
    - intros g' aff i f i' f'. split.
      + intros (es' & Hb & Hen). apply (proj1 (HQ _)) in Hb; destruct Hb as (g1 & es & aff1 & les & rl & Hin & Hloc & Hrl & Hb).
        rewrite (Hbody _ _ _ _ _ _ Hl Hin Hloc) in Hrl. injection Hrl as <-.
        pose proof (Hsel _ _ _ _ _ _ Hl Hin Hloc) as HS.
        destruct (sel les) as [|x0 r0] eqn:Hs0; [contradiction|]. rewrite <- Hs0 in *. destruct Hb as [Hb|[]].
        inversion Hb; subst g1 aff1 es'.
        apply in_map_iff in Hen as ((en, (a, b)) & Heq & Hen).
        apply HS in Hen as (j & j' & Hen & Hj & Hj' & -> & ->). destruct en as ((e, f0), (e', f0')). cbn in *.
        inversion Heq; subst f0 f0'.
        replace (base sizes' g + j - base sizes' g) with j by lia.
        replace (base sizes' g' + j' - base sizes' g') with j' by lia.
        exists es, e, e'. auto.
      + intros (es & e & e' & Hin & Hen & Hi & Hi').
        destruct (locate_spec _ _ _ _ _ Hl Hin) as (les & Hloc & _). fold (located g g' es les) in Hloc.
        pose proof (Hsel _ _ _ _ _ _ Hl Hin Hloc) as HS.
        assert (Hse : In (((e, f), (e', f')), ((self, base sizes' g + i), (self, base sizes' g' + i'))) (sel les)).
        { apply HS. exists i, i'. cbn. auto. }
        eexists. split.
        * apply HQ. exists g', es, aff, les. eexists. split; [exact Hin|]. split; [exact Hloc|].
          split; [apply (Hbody _ _ _ _ _ _ Hl Hin Hloc)|].
          destruct (sel les) as [|x0 r0] eqn:Hs0; [contradiction|]. rewrite <- Hs0. left. reflexivity.
        * apply in_map_iff. eexists. split; [|exact Hse]. cbn.
          f_equal; f_equal; lia.
  Qed.

  (** ** self to other *)
  Lemma part_index_ok q qi : nth_error (map fst parts) qi = Some q -> part_index parts q = Ok qi.
  Proof. apply part_index_spec; auto. Qed.

  Lemma key_nth q qi : nth_error (map fst parts) qi = Some q -> exists l, nth_error parts qi = Some (q, l).
  Proof.
    rewrite nth_error_map. destruct (nth_error parts qi) as [(q', l)|]; [|discriminate].
    cbn. intros H; inversion H; subst. eauto.
  Qed.

  Lemma self_to_other_spec con :
    (forall q, In q con <-> exists qi g g' es aff l en k k',
        nth_error (map fst parts) qi = Some q /\ qi <> self /\
        nth_error fags g = Some l /\ In (Interior g g' es aff) l /\ In en es /\
        nth_error g2p (base sizes g + fst (fst en)) = Some (self, k) /\
        nth_error g2p (base sizes g' + fst (snd en)) = Some (qi, k')) ->
    exists so, self_to_other (base_element_nrs sizes) g2p parts self (elem_bases groups') con fags = Ok so /\
      length so = length fags /\
      forall g l, nth_error fags g = Some l -> exists rg, nth_error so g = Some rg /\
        (forall b, In b rg -> exists q es' aff, b = InterPart g (TPartition q) q es' aff) /\
        forall q aff i f k f',
          (exists es', In (InterPart g (TPartition q) q es' aff) rg /\ In ((i, f), (k, f')) es') <->
          (exists g' es e e', In (Interior g g' es aff) l /\ In ((e, f), (e', f')) es /\
             image groups groups' parts p g e i /\ assigned parts (base sizes g' + e') q k /\ q <> p).
  Proof.
    intros Hcon. unfold self_to_other.
    set (sel := fun (qi : nat) (les : list (fentry * ((nat * nat) * (nat * nat)))) =>
             filter (fun x => (fst (fst (snd x)) =? self) && (fst (snd (snd x)) =? qi)) les).
    set (item := fun igrp (aff : A) les q =>
                       qi <- part_index parts q ;;
                       match sel qi les with
                       | [] => Ok []
                       | _ =>
                           si <- get (elem_bases groups') igrp ;;
                           Ok [InterPart igrp (TPartition q) q
                                 (map (fun x : fentry * ((nat * nat) * (nat * nat)) =>
                                         ((snd (fst (snd x)) - si, snd (fst (fst x))),
                                          (snd (snd (snd x)), snd (snd (fst x))))) (sel qi les)) aff]
                       end).
    set (body := fun igrp (jgrp : nat) (aff : A) les => ls <- mapM (item igrp aff les) con ;; Ok (concat ls)).
    assert (Hqi : forall q, In q con -> exists qi l, nth_error parts qi = Some (q, l) /\ qi <> self /\ part_index parts q = Ok qi).
    { intros q Hq. apply Hcon in Hq as (qi & _ & _ & _ & _ & _ & _ & _ & _ & Hq & Hne & _).
      destruct (key_nth _ _ Hq) as (l & Hl). exists qi, l. split; auto. split; auto. now apply part_index_ok. }
    assert (Hitem : forall g grp aff les q qi, nth_error groups g = Some grp -> part_index parts q = Ok qi ->
       item g aff les q = Ok (match sel qi les with [] => [] | _ =>
             [InterPart g (TPartition q) q
                   (map (fun x : fentry * ((nat * nat) * (nat * nat)) =>
                           ((snd (fst (snd x)) - base sizes' g, snd (fst (fst x))),
                            (snd (snd (snd x)), snd (snd (fst x))))) (sel qi les)) aff] end)).
    { intros g grp aff les q qi Hg Hq. unfold item. rewrite Hq. cbn [bind].
      destruct (sel qi les); auto. rewrite (sbases_get _ _ Hg). reflexivity. }
    assert (Hsel : forall g l g' es aff les q qi ql, nth_error fags g = Some l -> In (Interior g g' es aff) l ->
       located g g' es les -> nth_error parts qi = Some (q, ql) -> forall en a b, In (en, (a, b)) (sel qi les) <->
         exists i k, In en es /\ image groups groups' parts p g (fst (fst en)) i /\
           assigned parts (base sizes g' + fst (snd en)) q k /\
           a = (self, base sizes' g + i) /\ b = (qi, k)).
    { intros g l g' es aff les q qi ql Hl Hin Hloc Hq en a b. unfold sel. rewrite filter_In, (located_In _ _ _ _ _ _ Hl Hin Hloc).
      destruct (interior_range _ _ _ _ _ Hl Hin) as (grp & grp' & Hg & Hg' & Hr).
      split.
      - intros ((Hen & H1 & H2) & Hb). destruct a as (a, k), b as (b, k'). cbn in Hb. apply andb_true_iff in Hb as (Ha & Hb).
        apply Nat.eqb_eq in Ha, Hb. subst a b. destruct (Hr _ Hen) as (R1 & R2).
        destruct (image_ex _ _ _ _ Hg R1 H1) as (i & -> & Hi).
        exists i, k'. rewrite (assigned_iff _ _ _ _ _ Hq). auto.
      - intros (i & k & Hen & Hi & Hk & -> & ->). destruct (Hr _ Hen) as (R1 & R2).
        rewrite (image_iff _ _ _ _ Hg R1) in Hi. rewrite (assigned_iff _ _ _ _ _ Hq) in Hk. cbn.
        rewrite !Nat.eqb_refl. auto. }
    destruct (for_interior_spec body) as (so & Hso & HL & Hx).
    { intros g l g' es aff les Hl Hin Hloc. unfold body.
      destruct (interior_range _ _ _ _ _ Hl Hin) as (grp & grp' & Hg & Hg' & Hr).
      destruct (mapM_total (item g aff les) con) as (ls & Hls).
      - intros q Hq. destruct (Hqi _ Hq) as (qi & ql & _ & _ & Hpi). rewrite (Hitem _ _ _ _ _ _ Hg Hpi). eauto.
      - rewrite Hls. cbn. eauto. }
    exists so. split; [exact Hso|]. split; [auto|]. intros g l Hl. destruct (Hx _ _ Hl) as (rg & Hrg & HQ0).
    destruct (group_of_fags _ _ Hl) as (grp & Hg).
    assert (HQ : forall x, In x rg <-> exists g' es aff les q qi ql, In (Interior g g' es aff) l /\ located g g' es les /\
              In q con /\ nth_error parts qi = Some (q, ql) /\ qi <> self /\
              In x (match sel qi les with [] => [] | _ =>
             [InterPart g (TPartition q) q
                   (map (fun x : fentry * ((nat * nat) * (nat * nat)) =>
                           ((snd (fst (snd x)) - base sizes' g, snd (fst (fst x))),
                            (snd (snd (snd x)), snd (snd (fst x))))) (sel qi les)) aff] end)).
    { intros x. rewrite HQ0. split.
      - intros (g' & es & aff & les & rl & Hin & Hloc & Hb & Hxin). unfold body in Hb.
        apply bind_ok in Hb as (ls & Hls & Hb). injection Hb as <-. apply in_concat in Hxin as (xl & Hxl & Hxin).
        apply mapM_ok in Hls. destruct (Forall2_In_r _ _ _ _ Hls Hxl) as (q & Hq & Hit).
        destruct (Hqi _ Hq) as (qi & ql & Hqi1 & Hqi2 & Hpi). rewrite (Hitem _ _ _ _ _ _ Hg Hpi) in Hit. injection Hit as <-.
        exists g', es, aff, les, q, qi, ql. auto 10.
      - intros (g' & es & aff & les & q & qi & ql & Hin & Hloc & Hq & Hqi1 & Hqi2 & Hxin).
        assert (Hpi : part_index parts q = Ok qi) by (apply part_index_ok; rewrite nth_error_map, Hqi1; reflexivity).
        destruct (mapM_total (item g aff les) con) as (ls & Hls).
        { intros q' Hq'. destruct (Hqi _ Hq') as (qi' & ql' & _ & _ & Hpi'). rewrite (Hitem _ _ _ _ _ _ Hg Hpi'). eauto. }
        exists g', es, aff, les, (concat ls). split; auto. split; auto. split; [unfold body; rewrite Hls; reflexivity|].
        apply mapM_ok in Hls. destruct (Forall2_In_l _ _ _ _ Hls Hq) as (xl & Hxl & Hit).
        rewrite (Hitem _ _ _ _ _ _ Hg Hpi) in Hit. injection Hit as Hit. apply in_concat. exists xl. split; auto.
        rewrite <- Hit. exact Hxin. }
    exists rg. split; auto. split.
    - intros b Hb. apply (proj1 (HQ _)) in Hb. destruct Hb as (g' & es & aff & les & q & qi & ql & _ & _ & _ & _ & _ & Hb).
      destruct (sel qi les); [contradiction|]. destruct Hb as [<-|[]]. eauto.
    - intros q aff i f k f'. split.
      + intros (es' & Hb & Hen). apply (proj1 (HQ _)) in Hb.
        destruct Hb as (g1 & es & aff1 & les & q1 & qi & ql & Hin & Hloc & Hq & Hqi1 & Hqi2 & Hb).
        pose proof (Hsel _ _ _ _ _ _ _ _ _ Hl Hin Hloc Hqi1) as HS.
        destruct (sel qi les) as [|x0 r0] eqn:Hs0; [contradiction|]. rewrite <- Hs0 in *. destruct Hb as [Hb|[]].
        inversion Hb; subst q1 aff1 es'.
        apply in_map_iff in Hen as ((en, (a, b)) & Heq & Hen).
        apply HS in Hen as (j & k1 & Hen & Hj & Hj' & -> & ->). destruct en as ((e, f0), (e', f0')). cbn in *.
        inversion Heq; subst f0 f0' k1.
        replace (base sizes' g + j - base sizes' g) with j by lia.
        exists g1, es, e, e'. split; auto. split; auto. split; auto. split; auto.
        intros Hqp. apply Hqi2. rewrite Hqp in Hqi1. eapply NoDup_keys_unique; eauto.
      + intros (g' & es & e & e' & Hin & Hen & Hi & Hk & Hne).
        destruct (locate_spec _ _ _ _ _ Hl Hin) as (les & Hloc & _). fold (located g g' es les) in Hloc.
        pose proof Hk as Hk'. apply assigned_nth in Hk' as (qi & ql & Hqi1 & _); auto.
        assert (Hqi2 : qi <> self).
        { intros Heq. rewrite Heq, Hself in Hqi1. apply Hne. inversion Hqi1. reflexivity. }
        pose proof (Hsel _ _ _ _ _ _ _ _ _ Hl Hin Hloc Hqi1) as HS.
        assert (Hse : In (((e, f), (e', f')), ((self, base sizes' g + i), (qi, k))) (sel qi les)).
        { apply HS. exists i, k. cbn. auto. }
        eexists. split.
        * apply HQ. exists g', es, aff, les, q, qi, ql. split; [exact Hin|]. split; [exact Hloc|].
          split.
          { destruct (interior_range _ _ _ _ _ Hl Hin) as (grp0 & grp' & Hg0 & Hg' & Hr). destruct (Hr _ Hen) as (R1 & R2).
            apply Hcon. exists qi, g, g', es, aff, l, ((e, f), (e', f')), (base sizes' g + i), k.
            split; [rewrite nth_error_map, Hqi1; reflexivity|]. split; auto. split; auto. split; auto. split; auto. cbn.
            split; [apply (image_iff _ _ _ _ Hg0 R1); auto|apply (assigned_iff _ _ _ _ _ Hqi1); auto]. }
          split; [auto|]. split; [auto|].
          destruct (sel qi les) as [|x0 r0] eqn:Hs0; [contradiction|]. rewrite <- Hs0. left. reflexivity.
        * apply in_map_iff. eexists. split; [|exact Hse]. cbn.
          f_equal; f_equal; lia.
  Qed.

  (** ** boundary groups *)
  Lemma part_boundary_spec :
    exists bd, part_boundary (base_element_nrs sizes) g2p self (elem_bases groups') fags = Ok bd /\
      length bd = length fags /\
      forall g l, nth_error fags g = Some l -> exists rg, nth_error bd g = Some rg /\
        (forall b, In b rg -> exists t fs, b = Boundary g t fs) /\
        (forall t, carries rg t <-> carries l t) /\
        (forall t i f, in_bdry rg t (i, f) <->
           exists e, in_bdry l t (e, f) /\ image groups groups' parts p g e i).
  Proof.
    unfold part_boundary. fold sizes.
    set (item := fun g (fa : fagrp A) =>
                          match bdry_tag fa return res (list (fagrp A)) with
                          | None => Ok []
                          | Some t =>
                              bi <- get (base_element_nrs sizes) g ;;
                              les <- mapM (fun ef : nat * nat => a <- get g2p (fst ef + bi) ;; Ok (ef, a)) (fag_faces fa) ;;
                              let sel := filter (fun x => fst (snd x) =? self) les in
                              match sel with
                              | [] => Ok [Boundary g t []]
                              | _ =>
                                  si <- get (elem_bases groups') g ;;
                                  Ok [Boundary g t
                                        (map (fun x : (nat * nat) * (nat * nat) =>
                                                (snd (snd x) - si, snd (fst x))) sel)]
                              end
                          end).
    assert (Hitem : forall g l fa, nth_error fags g = Some l -> In fa l ->
        (bdry_tag fa = None /\ item g fa = Ok []) \/
        exists t fs, bdry_tag fa = Some t /\ item g fa = Ok [Boundary g t fs] /\
          forall i f, In (i, f) fs <-> exists e, In (e, f) (fag_faces fa) /\ image groups groups' parts p g e i).
    { intros g l fa Hl Hfa. unfold item. destruct (bdry_tag fa) as [t|]; [right|left; auto].
      destruct (group_of_fags _ _ Hl) as (grp & Hg).
      assert (Hr : forall e f, In (e, f) (fag_faces fa) -> e < nelements grp).
      { intros e f H. destruct Hwf as (_ & _ & Hr & _). eapply Hr; eauto. }
      rewrite (bases_get _ _ Hg). cbn [bind].
      destruct (mapM_total (fun ef : nat * nat => a <- get g2p (fst ef + base sizes g) ;; Ok (ef, a)) (fag_faces fa)) as (les & Hles).
      { intros (e, f) Hef. cbn [fst]. destruct (get_total g2p _ (elem_in_range _ _ _ Hg (Hr _ _ Hef))) as (a & ->). cbn. eauto. }
      rewrite Hles. cbn [bind]. cbv zeta. apply mapM_ok in Hles.
      assert (Hsel : forall e f a, In ((e, f), a) (filter (fun x => fst (snd x) =? self) les) <->
                exists i, In (e, f) (fag_faces fa) /\ a = (self, base sizes' g + i) /\ image groups groups' parts p g e i).
      { intros e f a. rewrite filter_In. split.
        - intros (Hin & Hb). destruct a as (a, k). cbn in Hb. apply Nat.eqb_eq in Hb. subst a.
          destruct (Forall2_In_r _ _ _ _ Hles Hin) as (ef & Hef & Hb). apply bind_ok in Hb as (a' & Ha' & Hb).
          inversion Hb; subst ef a'. cbn in Ha'. apply get_ok in Ha'. rewrite Nat.add_comm in Ha'.
          destruct (image_ex _ _ _ _ Hg (Hr _ _ Hef) Ha') as (i & -> & Hi). eauto.
        - intros (i & Hef & -> & Hi). cbn. rewrite Nat.eqb_refl. split; auto.
          destruct (Forall2_In_l _ _ _ _ Hles Hef) as (x & Hx & Hb). apply bind_ok in Hb as (a' & Ha' & Hb).
          inversion Hb; subst x. cbn in Ha'. apply get_ok in Ha'. rewrite Nat.add_comm in Ha'.
          rewrite (image_iff _ _ _ _ Hg (Hr _ _ Hef)) in Hi. rewrite Hi in Ha'. inversion Ha'; subst. auto. }
      destruct (filter (fun x => fst (snd x) =? self) les) as [|x0 r0] eqn:Hs0.
      - exists t, []. split; auto. split; auto. intros i f. split; [intros []|].
        intros (e & He & Hi). apply (proj2 (Hsel e f (self, base sizes' g + i))). eauto.
      - rewrite <- Hs0 in *. rewrite (sbases_get _ _ Hg). cbn [bind]. eexists t, _. split; auto. split; [reflexivity|].
        intros i f. rewrite in_map_iff. split.
        + intros (((e, f'), a) & Heq & Hin). apply Hsel in Hin as (j & Hef & -> & Hj). cbn in Heq. inversion Heq; subst f'.
          replace (base sizes' g + j - base sizes' g) with j by lia. eauto.
        + intros (e & Hef & Hi). exists ((e, f), (self, base sizes' g + i)). split; [cbn; f_equal; lia|].
          apply Hsel. eauto. }
    destruct (mapM_total (fun il : nat * list (fagrp A) =>
            ls <- mapM (item (fst il)) (snd il) ;; Ok (concat ls)) (enumerate fags)) as (bd & Hbd).
    { intros (g, l) Hin. apply In_enumerate in Hin. cbn [fst snd].
      destruct (mapM_total (item g) l) as (ls & Hls).
      - intros fa Hfa. destruct (Hitem _ _ _ Hin Hfa) as [(_ & H)|(t & fs & _ & H & _)]; eauto.
      - rewrite Hls. cbn. eauto. }
    exists bd. split; [exact Hbd|]. split; [rewrite (mapM_length _ _ _ Hbd); apply length_enumerate|].
    intros g l Hl.
    assert (He : nth_error (enumerate fags) g = Some (g, l)) by (rewrite nth_error_enumerate, Hl; reflexivity).
    destruct (mapM_nth _ _ _ _ _ Hbd He) as (rg & Hrg & Hb). cbn [fst snd] in Hb.
    apply bind_ok in Hb as (ls & Hls & Hb). injection Hb as Hb. exists rg. split; auto.
    apply mapM_ok in Hls.
    assert (HIn : forall b, In b rg <-> exists fa t fs, In fa l /\ bdry_tag fa = Some t /\ item g fa = Ok [Boundary g t fs] /\ b = Boundary g t fs).
    { intros b. rewrite <- Hb, in_concat. split.
      - intros (xl & Hxl & Hx). destruct (Forall2_In_r _ _ _ _ Hls Hxl) as (fa & Hfa & Hi).
        destruct (Hitem _ _ _ Hl Hfa) as [(Ht & H)|(t & fs & Ht & H & _)]; rewrite Hi in H; injection H as H; subst xl.
        + destruct Hx.
        + destruct Hx as [<-|[]]. exists fa, t, fs. auto.
      - intros (fa & t & fs & Hfa & Ht & Hi & ->). destruct (Forall2_In_l _ _ _ _ Hls Hfa) as (xl & Hxl & Hi').
        rewrite Hi in Hi'. injection Hi' as <-. exists [Boundary g t fs]. split; auto. now left. }
    split.
    { intros b Hb'. apply HIn in Hb' as (fa & t & fs & _ & _ & _ & ->). eauto. }
    split.
    - intros t. unfold carries. split.
      + intros (b & Hb' & Ht). apply HIn in Hb' as (fa & t' & fs & Hfa & Ht' & _ & ->). cbn in Ht. inversion Ht; subst. eauto.
      + intros (fa & Hfa & Ht). destruct (Hitem _ _ _ Hl Hfa) as [(Ht' & H)|(t' & fs & Ht' & H & _)]; [congruence|].
        exists (Boundary g t' fs). split; [apply HIn; exists fa, t', fs; auto|]. cbn. congruence.
    - intros t i f. unfold in_bdry. split.
      + intros (b & Hb' & Ht & Hif). apply HIn in Hb' as (fa & t' & fs & Hfa & Ht' & Hi & ->). cbn in Ht, Hif. inversion Ht; subst t'.
        destruct (Hitem _ _ _ Hl Hfa) as [(Ht2 & H)|(t2 & fs2 & Ht2 & H & Hfs)]; [congruence|].
        rewrite Hi in H. inversion H; subst t2 fs2. apply Hfs in Hif as (e & Hef & Him). eauto 8.
      + intros (e & (fa & Hfa & Ht & Hef) & Him).
        destruct (Hitem _ _ _ Hl Hfa) as [(Ht2 & H)|(t2 & fs2 & Ht2 & H & Hfs)]; [congruence|].
        exists (Boundary g t2 fs2). split; [apply HIn; exists fa, t2, fs2; auto|]. cbn. split; [congruence|].
        apply Hfs. eauto.
  Qed.

  (** ** no face is listed twice *)
  Lemma self_to_other_once con so g l rg : self_to_other (base_element_nrs sizes) g2p parts self (elem_bases groups') con fags = Ok so -> NoDup con ->
    nth_error fags g = Some l -> nth_error so g = Some rg ->
    (forall ig t q es aff, In (InterPart ig t q es aff) rg -> es <> []) /\
    forall q, NoDup (map (fun x => fst (snd x)) (interior_entries l)) -> NoDup (flat_map fag_faces (filter (has_tag (TPartition q)) rg)).
  Proof.
    intros Hso Hcon Hl Hrg. unfold self_to_other, for_interior in Hso.
    assert (He : nth_error (enumerate fags) g = Some (g, l)) by (rewrite nth_error_enumerate, Hl; reflexivity).
    destruct (mapM_nth _ _ _ _ _ Hso He) as (rg' & Hrg' & Hb). cbn [fst snd] in Hb. assert (rg' = rg) by congruence. subst rg'. clear Hrg Hrg' Hso He.
    apply bind_ok in Hb as (ls & Hls & Hb). injection Hb as <-. apply mapM_ok in Hls.
    destruct (group_of_fags _ _ Hl) as (grp & Hg). set (F := fun x : fentry * ((nat * nat) * (nat * nat)) => (snd (fst (snd x)) - base sizes' g, snd (fst (fst x)))).
    set (key := fun x : fentry * ((nat * nat) * (nat * nat)) => fst (fst x)).
    (* the groups made from one interior group *)
    assert (Hcons : forall con0 aff (les : list (fentry * ((nat * nat) * (nat * nat)))) xs, NoDup con0 ->
      Forall2 (fun q ys => (qi <- part_index parts q ;;
                       match filter (fun x => (fst (fst (snd x)) =? self) && (fst (snd (snd x)) =? qi)) les with
                       | [] => Ok []
                       | _ =>
                           si <- get (elem_bases groups') g ;;
                           Ok [InterPart g (TPartition q) q
                                 (map (fun x : fentry * ((nat * nat) * (nat * nat)) =>
                                         ((snd (fst (snd x)) - si, snd (fst (fst x))),
                                          (snd (snd (snd x)), snd (snd (fst x)))))
                                    (filter (fun x => (fst (fst (snd x)) =? self) && (fst (snd (snd x)) =? qi)) les)) (aff : A)]
                       end) = Ok ys) con0 xs ->
      (forall b, In b (concat xs) -> exists q es, In q con0 /\ b = InterPart g (TPartition q) q es aff /\ es <> []) /\
      forall q, exists X, flat_map fag_faces (filter (has_tag (TPartition q)) (concat xs)) = map F X /\ (X = [] \/ exists qi, X = filter (fun x => (fst (fst (snd x)) =? self) && (fst (snd (snd x)) =? qi)) les)).
    { intros con0 aff les xs Hnd HF. induction HF as [|q0 ys con0 xs Hys HF IH]; [split; [intros b []|intros q; exists []; split; [reflexivity|now left]]|].
      inversion Hnd as [|? ? Hni Hnd']; subst. specialize (IH Hnd') as (IH1 & IH2). apply bind_ok in Hys as (qi & Hqi & Hys).
      set (sel := filter (fun x => (fst (fst (snd x)) =? self) && (fst (snd (snd x)) =? qi)) les) in *.
      assert (Hy : ys = [] \/ sel <> [] /\ ys = [InterPart g (TPartition q0) q0 (map (fun x : fentry * ((nat * nat) * (nat * nat)) => ((snd (fst (snd x)) - base sizes' g, snd (fst (fst x))), (snd (snd (snd x)), snd (snd (fst x))))) sel) aff]).
      { destruct sel as [|x0 r0]; [left; congruence|right]. split; [discriminate|]. rewrite (sbases_get _ _ Hg) in Hys. cbn [bind] in Hys. congruence. }
      clear Hys. split.
      - intros b Hb. cbn [concat] in Hb. apply in_app_iff in Hb as [Hb|Hb].
        + destruct Hy as [->|(Hne & ->)]; [destruct Hb|]. destruct Hb as [<-|[]]. eexists q0, _. split; [now left|]. split; [reflexivity|]. intros Hm. apply map_eq_nil in Hm. contradiction.
        + destruct (IH1 b Hb) as (q & es & Hq & Hbe & Hne). exists q, es. split; [now right|auto].
      - intros q. cbn [concat]. destruct Hy as [->|(Hne & ->)]; [exact (IH2 q)|]. cbn [app filter]. unfold has_tag at 1. cbn [bdry_tag]. destruct (btag_eqb (TPartition q0) (TPartition q)) eqn:Et; [|exact (IH2 q)].
        apply btag_eqb_eq in Et. injection Et as ->. exists sel. split; [|right; exists qi; reflexivity]. cbn [flat_map fag_faces]. rewrite map_map. cbn [fst].
        assert (Hno : filter (has_tag (TPartition q)) (concat xs) = []).
        { destruct (filter (has_tag (TPartition q)) (concat xs)) as [|b r] eqn:Ef; [reflexivity|]. exfalso. assert (Hb : In b (filter (has_tag (TPartition q)) (concat xs))) by (rewrite Ef; now left). apply filter_In in Hb as (Hb & Ht).
          destruct (IH1 b Hb) as (q' & es & Hq' & -> & _). apply has_tag_iff in Ht. cbn [bdry_tag] in Ht. injection Ht as ->. contradiction. }
        rewrite Hno. cbn [flat_map]. now rewrite app_nil_r. }
    assert (HX : (forall ig t q es aff, In (InterPart ig t q es aff) (concat ls) -> es <> []) /\
      forall q, exists X, flat_map fag_faces (filter (has_tag (TPartition q)) (concat ls)) = map F X /\
      (NoDup (map (fun x => fst (snd x)) (interior_entries l)) -> NoDup (map key X)) /\
      forall x, In x X -> In (key x) (map (fun x => fst (snd x)) (interior_entries l)) /\ fst (key x) < nelements grp /\ nth_error g2p (fst (key x) + base sizes g) = Some (self, snd (fst (snd x)))).
    { assert (Hr : forall b e f, In b l -> In (e, f) (fag_faces b) -> e < nelements grp) by (destruct Hwf as (_ & _ & Hr & _); intros b e f; eapply Hr; eauto).
      clear Hl. induction Hls as [|fa xs l ls Hfa Hls IH]; [split; [intros ? ? ? ? ? []|intros q; exists []; split; [reflexivity|]; split; [intros; constructor|intros x []]]|].
      destruct IH as (IH1 & IH2); [intros; eapply Hr; [right|]; eauto|]. destruct fa as [ig g' es aff|ig t fs|ig t q0 es aff].
      2,3: injection Hfa as <-; split; [exact IH1|exact IH2].
      apply bind_ok in Hfa as (bi & Hbi & Hfa). apply bind_ok in Hfa as (bj & Hbj & Hfa). apply bind_ok in Hfa as (les & Hles & Hfa). apply bind_ok in Hfa as (ls' & Hls' & Hfa). injection Hfa as <-. apply mapM_ok in Hls'.
      rewrite (bases_get _ _ Hg) in Hbi. injection Hbi as <-. destruct (Hcons con aff les ls' Hcon Hls') as (C1 & C2). split.
      - intros ig0 t q es0 aff0 Hin. cbn [concat] in Hin. apply in_app_iff in Hin as [Hin|Hin]; [|eauto]. destruct (C1 _ Hin) as (q1 & es1 & _ & Heq & Hne). congruence.
      - intros q. destruct (C2 q) as (X0 & E0 & HX0). destruct (IH2 q) as (X & E1 & Hnd & HX). exists (X0 ++ X). cbn [concat]. rewrite filter_app, flat_map_app, map_app, E0, E1. split; [reflexivity|].
        apply mapM_ok in Hles.
        assert (Hloc : map (fun x => fst (fst x)) les = map fst es /\ forall x, In x les -> In (fst x) es /\ nth_error g2p (fst (fst (fst x)) + base sizes g) = Some (fst (snd x))).
        { clear - Hles. induction Hles as [|en x es les Hx Hles IH]; [split; [reflexivity|intros x []]|]. destruct IH as (I1 & I2). unfold locate in Hx. apply bind_ok in Hx as (a & Ha & Hx). apply bind_ok in Hx as (b & Hb & Hx). injection Hx as <-. apply get_ok in Ha.
          split; [cbn [map fst]; now f_equal|]. intros x [<-|Hin]; [cbn [fst snd]; split; [now left|exact Ha]|]. destruct (I2 x Hin) as (J1 & J2). split; [now right|exact J2]. }
        destruct Hloc as (Hk & Hloc). assert (H0 : forall x, In x X0 -> In (key x) (map fst es) /\ fst (key x) < nelements grp /\ nth_error g2p (fst (key x) + base sizes g) = Some (self, snd (fst (snd x)))).
        { intros x Hx. destruct HX0 as [->|(qi & ->)]; [destruct Hx|]. apply filter_In in Hx as (Hx & Hs). apply andb_true_iff in Hs as (Hs & _). apply Nat.eqb_eq in Hs. destruct (Hloc x Hx) as (J1 & J2). unfold key.
          split; [now apply in_map|]. split; [|rewrite J2; f_equal; destruct (fst (snd x)); cbn [fst snd] in *; congruence].
          destruct x as ((a, b) & y). cbn [fst] in *. destruct a as (e, f). cbn [fst]. apply (Hr (Interior ig g' es aff) e f); [now left|]. cbn [fag_faces]. apply in_map_iff. exists ((e, f), b). auto. }
        assert (Hk0 : NoDup (map fst es) -> NoDup (map key X0)).
        { intros Hn. destruct HX0 as [->|(qi & ->)]; [constructor|]. rewrite <- Hk in Hn. fold key in Hn. clear - Hn. induction les as [|x les IH]; [constructor|]. cbn [map] in Hn. inversion Hn as [|? ? Hx Hn']; subst. cbn [filter]. destruct (_ && _); [|auto].
          cbn [map]. constructor; [|auto]. intros Hin. apply Hx. apply in_map_iff in Hin as (y & <- & Hy). apply filter_In in Hy. apply in_map. tauto. }
        assert (Hent : map (fun x => fst (snd x)) (interior_entries (Interior ig g' es aff :: l)) = map fst es ++ map (fun x => fst (snd x)) (interior_entries l)).
        { unfold interior_entries. cbn [flat_map]. rewrite map_app, map_map. reflexivity. }
        rewrite Hent. split.
        + intros Hn. apply NoDup_app_inv in Hn as (Hn1 & Hn2 & Hd). rewrite map_app. apply NoDup_app; [auto|auto|]. intros k H1 H2. apply in_map_iff in H1 as (x & <- & Hx). apply in_map_iff in H2 as (y & Hy1 & Hy).
          apply (Hd (key x)); [apply (H0 x Hx)|]. rewrite <- Hy1. apply (HX y Hy).
        + intros x Hx. apply in_app_iff in Hx as [Hx|Hx]; [destruct (H0 x Hx) as (J1 & J2)|destruct (HX x Hx) as (J1 & J2)]; (split; [apply in_app_iff; auto|exact J2]). }
    destruct HX as (HX1 & HX2). split; [exact HX1|]. intros q Hnd. destruct (HX2 q) as (X & -> & Hk & HX). specialize (Hk Hnd). clear HX1 HX2 Hcons.
    assert (Hinj : forall x y, In x X -> In y X -> F x = F y -> key x = key y).
    { intros x y Hx Hy HF. destruct (HX x Hx) as (_ & X1 & X2). destruct (HX y Hy) as (_ & Y1 & Y2). unfold F in HF. injection HF as HF1 HF2. rewrite (Nat.add_comm (fst (key x))) in X2. rewrite (Nat.add_comm (fst (key y))) in Y2.
      destruct (image_ex _ _ _ _ Hg X1 X2) as (i & Hi & _). destruct (image_ex _ _ _ _ Hg Y1 Y2) as (j & Hj & _).
      assert (Hij : snd (fst (snd x)) = snd (fst (snd y))) by lia. rewrite <- Hij in Y2. apply Hg2p in X2 as (q1 & l1 & Hp1 & Hn1). apply Hg2p in Y2 as (q2 & l2 & Hp2 & Hn2).
      assert (l2 = l1) by congruence. subst l2. assert (base sizes g + fst (key x) = base sizes g + fst (key y)) by congruence. unfold key in *. destruct x as (((e, f), b) & z), y as (((e', f'), b') & z'). cbn [fst snd] in *. f_equal; lia. }
    clear HX. induction X as [|x X IH]; [constructor|]. cbn [map] in *. inversion Hk as [|? ? Hni Hk']; subst. constructor; [|apply IH; [exact Hk'|intros a b Ha Hb; apply Hinj; now right]].
    intros Hin. apply in_map_iff in Hin as (y & Hy1 & Hy). apply Hni. rewrite (Hinj x y (or_introl eq_refl) (or_intror Hy)) by congruence. now apply in_map.
  Qed.

  Lemma connected_NoDup con : connected_parts (base_element_nrs sizes) g2p parts self fags = Ok con -> NoDup con.
  Proof.
    unfold connected_parts. intros H. apply bind_ok in H as (idx & _ & H). injection H as <-. generalize (concat idx) as set. intros set. unfold enumerate. generalize 0 as k. revert Hkeys. clear. intros Hkeys. induction (map fst parts) as [|x l IH]; intros k; [constructor|].
    inversion Hkeys as [|? ? Hni Hnd]; subst. unfold enumerate_from. cbn [length seq combine filter fst]. assert (Hs : forall k y, In y (map snd (filter (fun ip => memb (fst ip) set) (enumerate_from k l))) -> In y l).
    { clear. intros k y Hy. revert k Hy. induction l as [|z l IH]; intros k Hy; [destruct Hy|]. unfold enumerate_from in Hy. cbn [length seq combine filter fst] in Hy. destruct (memb k set); [destruct Hy as [<-|Hy]; [now left|]|]; right; eapply IH; eauto. }
    destruct (memb k set); [|exact (IH Hnd (S k))]. cbn [map snd]. constructor; [|exact (IH Hnd (S k))]. intros Hin. apply Hni. exact (Hs (S k) _ Hin).
  Qed.
End Adj.
