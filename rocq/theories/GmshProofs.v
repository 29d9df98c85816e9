(** * GmshProofs: receiving a file. *)
From Coq Require Import List Arith Bool Lia Permutation Sorted.
From Verif Require Import Np NpFacts MeshModel MeshSpec MeshStateModel Lin RestrProofs ProcModel ProcSpec FacialProofs GmshModel GmshSpec.
Import ListNotations.

Lemma foldM_ext {A S} (f f' : S -> A -> res S) l s : (forall s x, f s x = f' s x) -> foldM f l s = foldM f' l s.
Proof. intros H. revert s. induction l as [|x l IH]; intros s; [reflexivity|]. cbn [foldM]. rewrite H. destruct (f' s x); [apply IH|reflexivity]. Qed.
Lemma foldM_map {A B S} (f : S -> B -> res S) (h : A -> B) l s : foldM f (map h l) s = foldM (fun s x => f s (h x)) l s.
Proof. revert s. induction l as [|x l IH]; intros s; [reflexivity|]. cbn [map foldM]. destruct (f s (h x)); [apply IH|reflexivity]. Qed.

Lemma scatter_perm {A} (l : list A) ivs ivs' : Permutation ivs ivs' -> NoDup (map fst ivs) -> Forall (fun iv => fst iv < length l) ivs -> scatter l ivs = scatter l ivs'.
Proof.
  intros Hp Hn Hr. destruct (proj2 (scatter_ok_range ivs l) Hr) as (r & Er).
  assert (Hr' : Forall (fun iv => fst iv < length l) ivs') by (apply (Permutation_Forall Hp); exact Hr). destruct (proj2 (scatter_ok_range ivs' l) Hr') as (r' & Er'). rewrite Er, Er'. f_equal.
  assert (Hn' : NoDup (map fst ivs')) by (apply (Permutation_NoDup (Permutation_map fst Hp)); exact Hn).
  apply nth_error_ext'. intros j. destruct (in_dec Nat.eq_dec j (map fst ivs)) as [Hin|Hin].
  - apply in_map_iff in Hin. destruct Hin as ((j', v) & E & Hin). cbn in E. subst j'. rewrite (scatter_in _ _ _ _ _ Er Hn Hin). symmetry. apply (scatter_in _ _ _ _ _ Er' Hn'). exact (Permutation_in _ Hp Hin).
  - rewrite (scatter_notin _ _ _ _ Er Hin). symmetry. apply (scatter_notin _ _ _ _ Er'). intros H. apply Hin. exact (Permutation_in _ (Permutation_sym (Permutation_map fst Hp)) H).
Qed.
Lemma perm_seq_range l n : Permutation l (seq 0 n) -> NoDup l /\ (forall i, In i l <-> i < n).
Proof.
  intros H. split; [exact (Permutation_NoDup (Permutation_sym H) (seq_NoDup _ _))|]. intros i. split.
  - intros Hi. apply (Permutation_in _ H) in Hi. apply in_seq in Hi. lia.
  - intros Hi. apply (Permutation_in _ (Permutation_sym H)). apply in_seq. lia.
Qed.
(** a list filled completely *)
Lemma scatter_full {A} (ivs : list (nat * A)) n : Permutation (map fst ivs) (seq 0 n) ->
  exists vs, scatter (repeat None n) (map (fun iv => (fst iv, Some (snd iv))) ivs) = Ok (map Some vs) /\ length vs = n /\ forall i v, In (i, v) ivs <-> nth_error vs i = Some v.
Proof.
  intros Hp. destruct (perm_seq_range _ _ Hp) as (Hn & Hr).
  assert (Hf : map fst (map (fun iv : nat * A => (fst iv, Some (snd iv))) ivs) = map fst ivs) by (rewrite map_map; reflexivity).
  destruct (proj2 (scatter_ok_range (map (fun iv : nat * A => (fst iv, Some (snd iv))) ivs) (repeat None n))) as (r & Er).
  { apply Forall_forall. intros (i, v) Hin. cbn [fst]. rewrite repeat_length. apply Hr. rewrite <- Hf. apply (in_map fst) in Hin. exact Hin. }
  pose proof (scatter_length _ _ _ Er) as Hl. rewrite repeat_length in Hl.
  assert (Hall : forall i, i < n -> exists v, In (i, v) ivs /\ nth_error r i = Some (Some v)).
  { intros i Hi. apply Hr in Hi. apply in_map_iff in Hi. destruct Hi as ((i', v) & E & Hin). cbn in E. subst i'. exists v. split; [exact Hin|]. apply (scatter_in _ _ _ _ _ Er); [rewrite Hf; exact Hn|]. apply in_map_iff. exists (i, v). auto. }
  assert (Hs : exists vs, r = map Some vs).
  { assert (HF : Forall (fun o => exists v, o = Some v) r). { apply Forall_forall. intros o Ho. apply In_nth_error in Ho. destruct Ho as (i & Hi). destruct (Hall i) as (v & _ & Hv); [rewrite <- Hl; apply nth_error_Some; congruence|]. exists v. congruence. }
    clear -HF. induction HF as [|o r (v & ->) _ (vs & ->)]; [exists []; reflexivity|]. exists (v :: vs). reflexivity. }
  destruct Hs as (vs & ->). exists vs. rewrite map_length in Hl. split; [exact Er|]. split; [exact Hl|]. intros i v. split.
  - intros Hin. assert (Hi : i < n) by (apply Hr; apply (in_map fst) in Hin; exact Hin). assert (E : nth_error (map Some vs) i = Some (Some v)). { apply (scatter_in _ _ _ _ _ Er); [rewrite Hf; exact Hn|]. apply in_map_iff. exists (i, v). auto. }
    rewrite nth_error_map in E. destruct (nth_error vs i); cbn in E; congruence.
  - intros Hv. assert (Hi : i < n) by (rewrite <- Hl; apply nth_error_Some; congruence). destruct (Hall i Hi) as (w & Hin & Hw). rewrite nth_error_map, Hv in Hw. cbn in Hw. injection Hw as ->. exact Hin.
Qed.

Section Receive.
  Variable R : cring.
  Local Notation receive := (receive R). Local Notation step := (GmshModel.step R). Local Notation step_node := (step_node R).

  (** the three parts are independent *)
  Lemma receive_parts evs : forall s n e t,
    foldM step_node (node_events R evs) (rc_nodes R s) = Ok n -> foldM step_elem (elem_events R evs) (rc_elems R s) = Ok e -> foldM step_tag (tag_events R evs) (rc_tags R s) = Ok t ->
    foldM step evs s = Ok (mk_recv R n e t).
  Proof.
    induction evs as [|ev evs IH]; intros s n e t Hn He Ht.
    - cbn in Hn, He, Ht. injection Hn as <-. injection He as <-. injection Ht as <-. destruct s; reflexivity.
    - cbn [foldM]. destruct ev as [ev|ev|ev]; cbn [node_events elem_events tag_events flat_map app GmshModel.step] in *.
      + cbn [foldM] in Hn. apply bind_ok in Hn. destruct Hn as (n1 & H1 & Hn). rewrite H1. cbn [bind]. apply IH; assumption.
      + cbn [foldM] in He. apply bind_ok in He. destruct He as (e1 & H1 & He). rewrite H1. cbn [bind]. apply IH; assumption.
      + cbn [foldM] in Ht. apply bind_ok in Ht. destruct Ht as (t1 & H1 & Ht). rewrite H1. cbn [bind]. apply IH; assumption.
  Qed.

  Lemma nodes_received (nodes : list (nat * point R)) n s : Permutation (map fst nodes) (seq 0 n) -> (forall i p j q, In (i, p) nodes -> In (j, q) nodes -> length p = length q) ->
    exists pts, foldM step_node (SetUpNodes R n :: map (fun ip : nat * point R => AddNode R (fst ip) (snd ip)) nodes ++ [FinalizeNodes R]) s = Ok (NArray R pts) /\
      length pts = n /\ forall i p, In (i, p) nodes <-> nth_error pts i = Some p.
  Proof.
    intros Hp Hlen. destruct (scatter_full nodes n Hp) as (pts & Hs & Hl & Hin). exists pts. split; [|split; assumption].
    cbn [foldM GmshModel.step_node]. assert (E : (match s with NList _ _ | _ => Ok (NList R (repeat None n)) end) = Ok (NList R (repeat None n))) by (destruct s; reflexivity). try rewrite E. cbn [bind].
    rewrite foldM_app. assert (Hf : foldM step_node (map (fun ip : nat * point R => AddNode R (fst ip) (snd ip)) nodes) (NList R (repeat None n)) = Ok (NList R (map Some pts))).
    { revert Hs. generalize (repeat (@None (point R)) n) as l0. generalize (map Some pts) as l1. clear. induction nodes as [|(i, p) nodes IH]; intros l1 l0 Hs; cbn [map foldM fst snd] in *.
      - unfold scatter in Hs. cbn in Hs. congruence.
      - unfold scatter in Hs. cbn [foldM fst snd] in Hs. apply bind_ok in Hs. destruct Hs as (l & H1 & H2). cbn [GmshModel.step_node]. rewrite H1. cbn [bind]. apply IH. exact H2. }
    rewrite Hf. cbn [bind foldM GmshModel.step_node].
    assert (Hm : mapM (fun o : option (point R) => match o with Some p => Ok p | None => Err ValueError end) (map Some pts) = Ok pts).
    { clear. induction pts as [|p pts IH]; [reflexivity|]. cbn [map mapM bind]. rewrite IH. reflexivity. }
    rewrite Hm. cbn [bind]. destruct pts as [|p pts]; [reflexivity|].
    assert (Hg : forallb (fun q => length q =? length p) (p :: pts) = true).
    { apply forallb_forall. intros q Hq. apply Nat.eqb_eq. apply In_nth_error in Hq. destruct Hq as (j & Hj). apply (Hlen j q 0 p); apply Hin; [exact Hj|reflexivity]. }
    rewrite Hg. reflexivity.
  Qed.

  Lemma elems_received (elems : list (nat * (gelem * list nat))) n s : Permutation (map fst elems) (seq 0 n) ->
    exists els, foldM step_elem (SetUpElements n :: map (fun ie : nat * (gelem * list nat) => AddElement (fst ie) (fst (snd ie)) (snd (snd ie))) elems) s =
        Ok (mk_epart (map (fun et : gelem * list nat => Some (fst et)) els) (map (fun et : gelem * list nat => match snd et with [] => None | ts => Some ts end) els)) /\
      length els = n /\ forall nr et, In (nr, et) elems <-> nth_error els nr = Some et.
  Proof.
    intros Hp. destruct (scatter_full elems n Hp) as (els & Hs & Hl & Hin). exists els. split; [|split; assumption]. cbn [foldM step_elem bind].
    set (mk := fun et : gelem * list nat => match snd et with [] => None | ts => Some ts end).
    assert (Hf : forall elems l1 l0, scatter l0 (map (fun iv : nat * (gelem * list nat) => (fst iv, Some (snd iv))) elems) = Ok l1 -> forall m0, length m0 = length l0 ->
       (forall i, In i (map fst elems) -> nth_error m0 i = Some None) -> NoDup (map fst elems) ->
       exists m1, foldM step_elem (map (fun ie : nat * (gelem * list nat) => AddElement (fst ie) (fst (snd ie)) (snd (snd ie))) elems) (mk_epart (map (option_map fst) l0) m0) = Ok (mk_epart (map (option_map fst) l1) m1) /\
         length m1 = length l0 /\ (forall i, ~ In i (map fst elems) -> nth_error m1 i = nth_error m0 i) /\ forall i et, In (i, et) elems -> nth_error m1 i = Some (mk et)).
    { clear. induction elems as [|(i, (e, ts)) elems IH]; intros l1 l0 Hs m0 Hm Hnone Hnd; unfold scatter in Hs; cbn [map foldM fst snd] in *.
      - injection Hs as <-. exists m0. split; [reflexivity|]. split; [exact Hm|]. split; [auto|]. intros i et [].
      - apply bind_ok in Hs. destruct Hs as (l & H1 & H2). apply put_ok in H1. destruct H1 as (Hi & ->). cbn [step_elem ep_elems ep_markers].
        inversion Hnd as [|i' l' Hni Hnd']; subst.
        assert (Hput : put (map (option_map fst) l0) i (Some e) = Ok (map (option_map fst) (upd l0 i (Some (e, ts))))).
        { apply put_ok. rewrite map_length. split; [exact Hi|]. apply nth_error_ext'. intros j. rewrite nth_error_map. destruct (Nat.eq_dec i j) as [<-|Hij]; [rewrite !nth_error_upd_eq by (rewrite ?map_length; exact Hi); reflexivity|]. rewrite !nth_error_upd_neq by exact Hij. now rewrite nth_error_map. }
        rewrite Hput. cbn [bind].
        assert (Hmm : exists m', match ts with [] => Ok m0 | _ :: _ => put m0 i (Some ts) end = Ok m' /\ length m' = length l0 /\ nth_error m' i = Some (mk (e, ts)) /\ forall j, j <> i -> nth_error m' j = nth_error m0 j).
        { destruct ts as [|t ts].
          - exists m0. split; [reflexivity|]. split; [exact Hm|]. split; [apply Hnone; now left|auto].
          - exists (upd m0 i (Some (t :: ts))). split; [apply put_ok; split; [lia|reflexivity]|]. split; [now rewrite length_upd|]. split; [apply nth_error_upd_eq; lia|]. intros j Hj. apply nth_error_upd_neq. auto. }
        destruct Hmm as (m' & Hm' & Hml & Hmi & Hmj). rewrite Hm'. cbn [bind].
        destruct (IH l1 _ H2 m') as (m1 & Hf & Hm1 & Hno & Hyes).
        { now rewrite length_upd. }
        { intros j Hj. rewrite Hmj; [apply Hnone; now right|]. intros ->. exact (Hni Hj). }
        { exact Hnd'. }
        exists m1. split; [exact Hf|]. split; [now rewrite Hm1, length_upd|]. split.
        + intros j Hj. rewrite Hno by (intros Hj1; apply Hj; now right). apply Hmj. intros ->. apply Hj. now left.
        + intros j et [E|Hj]; [|now apply Hyes]. injection E as <- <-. rewrite Hno by exact Hni. exact Hmi. }
    destruct (perm_seq_range _ _ Hp) as (Hnd & Hr).
    destruct (Hf elems (map Some els) (repeat None n) Hs (repeat None n)) as (m1 & Hf1 & Hm1 & _ & Hyes); [now rewrite !repeat_length| |exact Hnd|].
    { intros i Hi. apply nth_error_repeat. now apply Hr. }
    replace (map (option_map fst) (repeat None n)) with (repeat (@None gelem) n) in Hf1 by (clear; induction n as [|n IH]; cbn [repeat map option_map]; congruence).
    rewrite Hf1. f_equal. rewrite map_map. f_equal. apply nth_error_ext'. intros i. rewrite repeat_length in Hm1. destruct (Nat.lt_ge_cases i n) as [Hi|Hi].
    - destruct (nth_exists els i ltac:(lia)) as (et & Het). rewrite nth_error_map, Het. apply Hyes. now apply Hin.
    - rewrite (proj2 (nth_error_None m1 i)) by lia. symmetry. apply nth_error_None. rewrite map_length. lia.
  Qed.

  (** what the receiver knows of a tag number *)
  Definition lookup_tag (l : list tevent) (t : nat) : option (nat * nat) :=
    match find (fun a => tg_index a =? t) l with Some a => Some (tg_name a, tg_dim a) | None => None end.
  Lemma assoc_app {B} k (l l' : list (nat * B)) : assoc k (l ++ l') = match assoc k l with Some v => Some v | None => assoc k l' end.
  Proof. induction l as [|(k', v) l IH]; [reflexivity|]. cbn [app assoc]. destruct (k =? k'); [reflexivity|exact IH]. Qed.
  Lemma find_app' {A} (p : A -> bool) l l' : find p (l ++ l') = match find p l with Some v => Some v | None => find p l' end.
  Proof. induction l as [|x l IH]; [reflexivity|]. cbn [app find]. destruct (p x); [reflexivity|exact IH]. Qed.

  Lemma tags_received l : consistent_tags l -> exists tp, foldM step_tag l (mk_tpart [] []) = Ok tp /\ (forall t, tag_of tp t = Ok (lookup_tag l t)) /\ (tp_tags tp = [] <-> l = []).
  Proof.
    intros Hc.
    assert (H : forall post pre tp, consistent_tags (pre ++ post) ->
       (forall t, match lookup_tag pre t with None => assoc t (tp_index tp) = None | Some nd => exists i, assoc t (tp_index tp) = Some i /\ nth_error (tp_tags tp) i = Some nd end) ->
       (tp_tags tp = [] <-> pre = []) ->
       exists tp', foldM step_tag post tp = Ok tp' /\ (forall t, match lookup_tag (pre ++ post) t with None => assoc t (tp_index tp') = None | Some nd => exists i, assoc t (tp_index tp') = Some i /\ nth_error (tp_tags tp') i = Some nd end) /\
         (tp_tags tp' = [] <-> pre ++ post = [])).
    { clear. induction post as [|a post IH]; intros pre tp Hc Hi He.
      - exists tp. rewrite app_nil_r. auto.
      - cbn [foldM]. replace (pre ++ a :: post) with ((pre ++ [a]) ++ post) in * by (rewrite <- app_assoc; reflexivity).
        assert (Hs : exists tp1, step_tag tp a = Ok tp1 /\ (forall t, match lookup_tag (pre ++ [a]) t with None => assoc t (tp_index tp1) = None | Some nd => exists i, assoc t (tp_index tp1) = Some i /\ nth_error (tp_tags tp1) i = Some nd end) /\ tp_tags tp1 <> []).
        { unfold step_tag. pose proof (Hi (tg_index a)) as Ha. unfold lookup_tag in Ha. destruct (find (fun b => tg_index b =? tg_index a) pre) as [b|] eqn:Ef.
          - destruct Ha as (i & Ha1 & Ha2). rewrite Ha1. assert (Hg : get (tp_tags tp) i = Ok (tg_name b, tg_dim b)) by (now apply get_ok). rewrite Hg. cbn [bind].
            destruct (find_some _ _ Ef) as (Hb & Eb). apply Nat.eqb_eq in Eb. assert (b = a) by (apply Hc; [apply in_or_app; left; apply in_or_app; now left|apply in_or_app; left; apply in_or_app; right; now left|exact Eb]). subst b.
            rewrite !Nat.eqb_refl. cbn [negb orb]. exists tp. split; [reflexivity|]. split.
            + intros t. unfold lookup_tag. rewrite find_app'. specialize (Hi t). unfold lookup_tag in Hi. destruct (find (fun a0 => tg_index a0 =? t) pre) as [c|] eqn:Ec; [exact Hi|]. cbn [find]. destruct (tg_index a =? t) eqn:Et; [|exact Hi]. apply Nat.eqb_eq in Et. subst t. congruence.
            + intros E. rewrite E in Ha2. destruct i; discriminate.
          - rewrite Ha. eexists. split; [reflexivity|]. cbn [tp_index tp_tags]. split.
            + intros t. unfold lookup_tag. rewrite find_app'. specialize (Hi t). unfold lookup_tag in Hi. destruct (find (fun a0 => tg_index a0 =? t) pre) as [c|] eqn:Ec.
              * destruct Hi as (i & H1 & H2). exists i. rewrite assoc_app, H1. split; [reflexivity|]. rewrite nth_error_app1; [exact H2|apply nth_error_Some; congruence].
              * cbn [find]. rewrite assoc_app, Hi. cbn [assoc]. rewrite (Nat.eqb_sym t). destruct (tg_index a =? t) eqn:Et; [|reflexivity]. exists (length (tp_tags tp)). split; [reflexivity|]. rewrite nth_error_app2, Nat.sub_diag by lia. reflexivity.
            + intros E. destruct (tp_tags tp); discriminate. }
        destruct Hs as (tp1 & Hs1 & Hs2 & Hs3). rewrite Hs1. cbn [bind]. apply IH; [exact Hc|exact Hs2|]. split; [intros E; congruence|]. intros E. destruct pre; discriminate. }
    destruct (H l [] (mk_tpart [] []) Hc) as (tp & H1 & H2 & H3); [intros t; reflexivity|tauto|]. exists tp. split; [exact H1|]. split; [|exact H3].
    intros t. unfold tag_of. specialize (H2 t). cbn [app] in H2. destruct (lookup_tag l t) as [nd|]; [|now rewrite H2]. destruct H2 as (i & Ha & Hn). rewrite Ha. assert (Hg : get (tp_tags tp) i = Ok nd) by (now apply get_ok). rewrite Hg. reflexivity.
  Qed.
  Lemma lookup_tag_iff l t n d : consistent_tags l -> (lookup_tag l t = Some (n, d) <-> In (AddTag n t d) l).
  Proof.
    intros Hc. unfold lookup_tag. split.
    - destruct (find _ l) as [a|] eqn:Ef; [|discriminate]. intros E. injection E as <- <-. destruct (find_some _ _ Ef) as (Ha & Ea). apply Nat.eqb_eq in Ea. subst t. destruct a; exact Ha.
    - intros Hin. destruct (find _ l) as [a|] eqn:Ef.
      + destruct (find_some _ _ Ef) as (Ha & Ea). apply Nat.eqb_eq in Ea. assert (a = AddTag n t d) by (apply Hc; auto). subst a. reflexivity.
      + pose proof (find_none _ _ Ef _ Hin) as E. cbn [tg_index] in E. rewrite Nat.eqb_refl in E. discriminate.
  Qed.
  Lemma lookup_tag_perm l l' : Permutation l l' -> consistent_tags l -> forall t, lookup_tag l t = lookup_tag l' t.
  Proof.
    intros Hp Hc t. assert (Hc' : consistent_tags l') by (intros a b Ha Hb; apply Hc; eapply Permutation_in; try exact (Permutation_sym Hp); assumption).
    destruct (lookup_tag l t) as [(n, d)|] eqn:E.
    - apply (lookup_tag_iff l t n d Hc) in E. symmetry. apply (lookup_tag_iff l' t n d Hc'). exact (Permutation_in _ Hp E).
    - destruct (lookup_tag l' t) as [(n, d)|] eqn:E'; [|reflexivity]. apply (lookup_tag_iff l' t n d Hc') in E'. assert (E2 : lookup_tag l t = Some (n, d)) by (apply lookup_tag_iff; [exact Hc|exact (Permutation_in _ (Permutation_sym Hp) E')]). congruence.
  Qed.

  (** conflicting tags are found *)
  Lemma tags_conflict l a b : In a l -> In b l -> tg_index a = tg_index b -> a <> b -> foldM step_tag l (mk_tpart [] []) = Err ValueError.
  Proof.
    intros Ha Hb Hi Hab.
    assert (H : forall post pre tp, consistent_tags pre -> ~ consistent_tags (pre ++ post) ->
       (forall t, match lookup_tag pre t with None => assoc t (tp_index tp) = None | Some nd => exists i, assoc t (tp_index tp) = Some i /\ nth_error (tp_tags tp) i = Some nd end) -> foldM step_tag post tp = Err ValueError).
    { clear. induction post as [|a post IH]; intros pre tp Hc Hn Hi; [exfalso; apply Hn; now rewrite app_nil_r|].
      cbn [foldM]. unfold step_tag at 1. pose proof (Hi (tg_index a)) as Ha. destruct (lookup_tag pre (tg_index a)) as [(n, d)|] eqn:El.
      - destruct Ha as (i & Ha1 & Ha2). rewrite Ha1. assert (Hg : get (tp_tags tp) i = Ok (n, d)) by (now apply get_ok). rewrite Hg. cbn [bind]. apply (lookup_tag_iff pre _ _ _ Hc) in El.
        destruct (negb (n =? tg_name a) || negb (d =? tg_dim a)) eqn:E; [reflexivity|]. apply orb_false_elim in E. destruct E as (E1 & E2). apply negb_false_iff in E1, E2. apply Nat.eqb_eq in E1, E2. subst n d. cbn [bind].
        assert (Ein : In a pre) by (destruct a; exact El). apply (IH pre); [exact Hc| |exact Hi]. intros Hc2. apply Hn. intros x y Hx Hy. apply Hc2; apply in_app_or in Hx; apply in_app_or in Hy; apply in_or_app; cbn [In] in *; intuition (subst; auto).
      - rewrite Ha. cbn [bind]. replace (pre ++ a :: post) with ((pre ++ [a]) ++ post) in Hn by (rewrite <- app_assoc; reflexivity).
        assert (Hnot : forall b, In b pre -> tg_index b <> tg_index a). { intros b Hb E. destruct b as [bn bi bd]. cbn in E. subst bi. assert (lookup_tag pre (tg_index a) = Some (bn, bd)) by (now apply lookup_tag_iff). congruence. }
        apply (IH (pre ++ [a])); [|exact Hn|].
        + intros x y Hx Hy E. apply in_app_or in Hx. apply in_app_or in Hy. destruct Hx as [Hx|[<-|[]]]; destruct Hy as [Hy|[<-|[]]]; auto; exfalso; [exact (Hnot x Hx E)|exact (Hnot y Hy (eq_sym E))].
        + cbn [tp_index tp_tags]. intros t. unfold lookup_tag. rewrite find_app'. specialize (Hi t). unfold lookup_tag in Hi. destruct (find (fun a0 => tg_index a0 =? t) pre) as [c|] eqn:Ec.
          * destruct Hi as (i & H1 & H2). exists i. rewrite assoc_app, H1. split; [reflexivity|]. rewrite nth_error_app1; [exact H2|apply nth_error_Some; congruence].
          * cbn [find]. rewrite assoc_app, Hi. cbn [assoc]. rewrite (Nat.eqb_sym t). destruct (tg_index a =? t) eqn:Et; [|reflexivity]. exists (length (tp_tags tp)). split; [reflexivity|]. rewrite nth_error_app2, Nat.sub_diag by lia. reflexivity. }
    apply (H l [] (mk_tpart [] [])); [intros x y []| |intros t; reflexivity]. cbn [app]. intros Hc. exact (Hab (Hc a b Ha Hb Hi)).
  Qed.

  (** the state after receiving a file *)
  Definition received (f : gfile R) (s : recv R) : Prop :=
    (exists pts, rc_nodes R s = NArray R pts /\ length pts = length (gf_nodes f) /\ forall i p, In (i, p) (gf_nodes f) <-> nth_error pts i = Some p) /\
    (exists els, rc_elems R s = mk_epart (map (fun et : gelem * list nat => Some (fst et)) els) (map (fun et : gelem * list nat => match snd et with [] => None | ts => Some ts end) els) /\
       length els = length (gf_elems f) /\ forall nr et, In (nr, et) (gf_elems f) <-> nth_error els nr = Some et) /\
    (forall t, tag_of (rc_tags R s) t = Ok (lookup_tag (gf_tags f) t)) /\ (tp_tags (rc_tags R s) = [] <-> gf_tags f = []).
  Lemma receive_received f evs : numbered R f -> consistent_tags (gf_tags f) -> delivers R f evs -> exists s, receive evs = Ok s /\ received f s.
  Proof.
    intros (Hn & He & Hl) Hc ((nodes & Hnp & Hne) & (elems & Hep & Hee) & Htp).
    destruct (nodes_received nodes (length (gf_nodes f)) (NList R [])) as (pts & P1 & P2 & P3).
    { eapply Permutation_trans; [apply Permutation_map; exact Hnp|exact Hn]. }
    { intros i p j q Hi Hj. apply (Hl i p j q); eapply Permutation_in; try exact Hnp; assumption. }
    destruct (elems_received elems (length (gf_elems f)) (mk_epart [] [])) as (els & E1 & E2 & E3).
    { eapply Permutation_trans; [apply Permutation_map; exact Hep|exact He]. }
    assert (Hc' : consistent_tags (tag_events R evs)) by (intros a b Ha Hb; apply Hc; eapply Permutation_in; try exact Htp; assumption).
    destruct (tags_received (tag_events R evs) Hc') as (tp & T1 & T2 & T3).
    rewrite <- Hne in P1. rewrite <- Hee in E1.
    exists (mk_recv R (NArray R pts) (mk_epart (map (fun et : gelem * list nat => Some (fst et)) els) (map (fun et : gelem * list nat => match snd et with [] => None | ts => Some ts end) els)) tp).
    split; [unfold GmshModel.receive; apply receive_parts; assumption|]. split; [|split; [|split]].
    - exists pts. split; [reflexivity|]. split; [exact P2|]. intros i p. rewrite <- P3. split; intros H; eapply Permutation_in; try exact H; [exact (Permutation_sym Hnp)|exact Hnp].
    - exists els. split; [reflexivity|]. split; [exact E2|]. intros nr et. rewrite <- E3. split; intros H; eapply Permutation_in; try exact H; [exact (Permutation_sym Hep)|exact Hep].
    - intros t. cbn [rc_tags]. rewrite T2. f_equal. now apply lookup_tag_perm.
    - cbn [rc_tags]. rewrite T3. split; intros E; rewrite E in Htp; [exact (Permutation_nil Htp)|exact (Permutation_nil (Permutation_sym Htp))].
  Qed.
End Receive.
