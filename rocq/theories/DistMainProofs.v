(** * DistMainProofs: one rank receiving in any order; ranks holding the parts of a mesh *)
From Coq Require Import List Arith Bool Lia Permutation.
From Verif Require Import Np NpFacts MeshModel MeshSpec MeshStateModel PartModel PartSpec PartMainProofs ConnModel ConnSpec FaceConnModel FaceConnSpec PartConnSpec PartConnProps DistModel DistSpec DistProofs DistGraphProofs.
Import ListNotations.

Section Local.
  Context {C M O : Type}.
  Variable pack : nat -> C -> res M.
  Variable link : C -> M -> res O.
  Notation irbi := (irbi C).
  Notation msg := (msg M).

  Lemma fill (l : list irbi) (pairs : list (nat * (nat * msg))) (data : list (option (nat * msg))) : NoDup (map ib_pair l) -> length data = length l -> NoDup (map fst pairs) ->
    (forall i sm, In (i, sm) pairs -> nth_error data i = Some None /\ exists b m, nth_error l i = Some b /\ sm = (ib_rank b, (ib_remote b, ib_local b, m))) ->
    exists data', foldM (receive (pendings l)) (map snd pairs) data = Ok data' /\ length data' = length data /\
      (forall i sm, In (i, sm) pairs -> nth_error data' i = Some (Some sm)) /\ (forall i, ~ In i (map fst pairs) -> nth_error data' i = nth_error data i).
  Proof.
    intros Hn. revert data. induction pairs as [|(i, sm) pairs IH]; intros data Hlen Hnd Hall; cbn [map foldM snd fst] in *; [exists data; repeat split; auto; intros ? ? []|].
    inversion Hnd as [|? ? Hni Hnd']; subst. destruct (Hall i sm (or_introl eq_refl)) as (Hd & b & m & Hb & ->). rewrite (receive_ok l data i b (ib_rank b) m Hn Hlen Hb Hd). cbn [bind].
    assert (Hilt : i < length data) by (apply nth_error_Some; congruence).
    destruct (IH (upd data i (Some (ib_rank b, (ib_remote b, ib_local b, m))))) as (data' & E & HL & H1 & H2); [now rewrite length_upd|exact Hnd'| |].
    { intros j sm Hj. destruct (Hall j sm (or_intror Hj)) as (Hdj & Hb'). split; [|exact Hb']. rewrite nth_error_upd_neq; [exact Hdj|]. intros ->. apply Hni. apply in_map_iff. exists (j, sm). auto. }
    exists data'. split; [exact E|]. split; [rewrite HL; apply length_upd|]. split.
    - intros j sm [Heq|Hj]; [|exact (H1 j sm Hj)]. injection Heq as <- <-. rewrite (H2 i Hni). apply nth_error_upd_eq, Hilt.
    - intros j Hj. rewrite H2 by (intros Hh; apply Hj; now right). apply nth_error_upd_neq. intros Hh. apply Hj. now left.
  Qed.

  (** The messages for entries [l] with contents [ms] *)
  Definition messages (l : list irbi) (ms : list M) : list (nat * msg) := map (fun bm => (ib_rank (fst bm), (ib_remote (fst bm), ib_local (fst bm), snd bm))) (combine l ms).
  Lemma messages_nth l ms i b m : nth_error l i = Some b -> nth_error ms i = Some m -> nth_error (messages l ms) i = Some (ib_rank b, (ib_remote b, ib_local b, m)).
  Proof.
    unfold messages. rewrite nth_error_map. revert ms i. induction l as [|b0 l IH]; intros [|m0 ms] [|i] H1 H2; cbn [nth_error combine] in *; try discriminate; [|eauto]. injection H1 as ->. injection H2 as ->. reflexivity.
  Qed.
  Lemma messages_inv l ms i sm : nth_error (messages l ms) i = Some sm -> exists b m, nth_error l i = Some b /\ nth_error ms i = Some m /\ sm = (ib_rank b, (ib_remote b, ib_local b, m)).
  Proof.
    unfold messages. rewrite nth_error_map. revert ms i. induction l as [|b0 l IH]; intros [|m0 ms] [|i] H; cbn [nth_error combine option_map] in *; try discriminate; [|eauto]. injection H as <-. exists b0, m0. auto.
  Qed.
  Lemma messages_length (l : list irbi) (ms : list M) : length ms = length l -> length (messages l ms) = length l.
  Proof. intros H. unfold messages. rewrite map_length, combine_length. lia. Qed.

  (** [part] messages of [arr], which are all messages in some order, have arrived *)
  Lemma arrived (l : list irbi) ms arr n : NoDup (map ib_pair l) -> length ms = length l -> Permutation arr (messages l ms) -> exists data, foldM (receive (pendings l)) (firstn n arr) (repeat None (length l)) = Ok data /\
    (length arr <= n -> length data = length l /\ forall i sm, nth_error (messages l ms) i = Some sm -> nth_error data i = Some (Some sm)).
  Proof.
    intros Hn Hlen Hp. set (F := messages l ms) in *. assert (HF : length F = length l) by (apply messages_length; exact Hlen).
    assert (EF : F = map snd (combine (seq 0 (length F)) F)). { clear. generalize 0. induction F as [|x F IH]; intros k; cbn [length seq combine map snd]; [reflexivity|]. f_equal. apply IH. }
    rewrite EF in Hp. apply Permutation_map_inv in Hp. destruct Hp as (pairs & -> & Hp).
    assert (Hfst : map fst (combine (seq 0 (length F)) F) = seq 0 (length F)). { clear. generalize 0. induction F as [|x F IH]; intros k; cbn [length seq combine map fst]; [reflexivity|]. f_equal. apply IH. }
    assert (Hnd : NoDup (map fst pairs)) by (apply (Permutation_NoDup (Permutation_map fst Hp)); rewrite Hfst; apply seq_NoDup).
    assert (Hat : forall i sm, In (i, sm) pairs <-> nth_error F i = Some sm).
    { intros i sm. split; [intros Hi; apply (Permutation_in _ (Permutation_sym Hp)) in Hi|intros Hi; apply (Permutation_in _ Hp)]; change (combine (seq 0 (length F)) F) with (enumerate F) in *; now apply In_enumerate. }
    rewrite firstn_map. assert (Hfn : forall x, In x (firstn n pairs) -> In x pairs) by (intros x Hx; rewrite <- (firstn_skipn n pairs); apply in_app_iff; now left).
    destruct (fill l (firstn n pairs) (repeat None (length l)) Hn) as (data & E & HL & H1 & H2).
    - apply repeat_length.
    - rewrite <- firstn_map. rewrite <- (firstn_skipn n (map fst pairs)) in Hnd. now apply NoDup_app_inv in Hnd.
    - intros i sm Hi. apply Hfn, Hat in Hi. split; [apply nth_error_repeat; rewrite <- HF; apply nth_error_Some; congruence|]. unfold F in Hi. apply messages_inv in Hi. destruct Hi as (b & m & Hb & _ & ->). eauto.
    - exists data. split; [exact E|]. intros Hge. rewrite map_length in Hge. rewrite firstn_all2 in H1 by exact Hge. split; [rewrite HL; apply repeat_length|]. intros i sm Hi. apply H1, Hat, Hi.
  Qed.

  Lemma complete_ok (old : bool) (l : list irbi) (ms : list M) : NoDup (map ib_pair l) -> (old = true -> NoDup (map ib_remote l)) -> length ms = length l -> Forall2 (fun b m => exists o, link (ib_conn b) m = Ok o) l ms ->
    exists conns, Forall2 (fun bm kv => fst kv = key_of old (ib_remote (fst bm)) (ib_local (fst bm)) /\ link (ib_conn (fst bm)) (snd bm) = Ok (snd kv)) (combine l ms) conns /\
      forall arr extra, Permutation arr (messages l ms) -> complete_some link old l (pendings l) (arr ++ extra) = Some (Ok (conns, [], extra)).
  Proof.
    intros Hn Hold Hlen HL. set (data := map Some (messages l ms)).
    assert (Hfill : filled link 0 l data).
    { apply Forall2_intro_nth; [unfold data; rewrite map_length, messages_length; auto|]. intros i b x Hb Hx. unfold data in Hx. rewrite nth_error_map in Hx. destruct (nth_error (messages l ms) i) as [sm|] eqn:Es; [|discriminate]. injection Hx as <-.
      apply messages_inv in Es. destruct Es as (b' & m & Hb' & Hm & ->). assert (b' = b) by congruence. subst b'. destruct (Forall2_nth_error _ _ _ _ _ HL Hb) as (m' & Hm' & o & Eo). assert (m' = m) by congruence. subst m'. exists m, o. auto. }
    destruct (build_ok pack link 0 old l data Hn Hold Hfill) as (conns & Eb & Hcl & Hc). exists conns. split.
    - apply Forall2_intro_nth; [rewrite combine_length; lia|]. intros i (b, m) kv Hbm Hkv. cbn [fst snd].
      assert (Hb : nth_error l i = Some b /\ nth_error ms i = Some m). { clear - Hbm. revert ms i Hbm. induction l as [|b0 l IH]; intros [|m0 ms] [|i] H; cbn [nth_error combine] in *; try discriminate; [injection H as -> ->; auto|eauto]. }
      destruct Hb as (Hb & Hm). destruct (Hc i b (Some (ib_rank b, (ib_remote b, ib_local b, m))) Hb) as (kv' & Hkv' & Hk & m' & Em & Eo); [unfold data; rewrite nth_error_map, (messages_nth l ms i b m Hb Hm); reflexivity|].
      assert (kv' = kv) by congruence. subst kv'. split; [exact Hk|]. injection Em as <-. exact Eo.
    - intros arr extra Hp. pose proof (Permutation_length Hp) as Hal. rewrite messages_length in Hal by exact Hlen. unfold complete_some. pose proof (pendings_length l) as Hpl. destruct (pendings l) as [|p0 pl] eqn:Ep.
      + assert (l = []) by (destruct l; [reflexivity|discriminate]). subst l. destruct arr; [|discriminate]. destruct conns; [|discriminate]. reflexivity.
      + rewrite <- Ep in *. rewrite Hpl. rewrite firstn_app, <- Hal, Nat.sub_diag, firstn_O, app_nil_r, Hal.
        destruct (arrived l ms arr (length arr) Hn Hlen Hp) as (data' & E & Hfull). rewrite Hal in E. rewrite <- Hal in E at 1. rewrite <- Hal at 1. rewrite E. destruct (Hfull (Nat.le_refl _)) as (HL' & Hd).
        assert (Edata : data' = data).
        { apply nth_error_ext'. intros i. unfold data. rewrite nth_error_map. destruct (nth_error (messages l ms) i) as [sm|] eqn:Es; cbn [option_map]; [now apply Hd|]. apply nth_error_None in Es. rewrite messages_length in Es by exact Hlen. apply nth_error_None. lia. }
        subst data'. rewrite app_length, Hal. destruct (Nat.ltb_spec (length l + length extra) (length l)); [lia|]. rewrite Eb. cbn [bind fst snd]. do 3 f_equal. rewrite <- Hal, skipn_app, skipn_all, Nat.sub_diag. reflexivity.
  Qed.
  Lemma complete_blocks (old : bool) (l : list irbi) (ms : list M) arr rest : NoDup (map ib_pair l) -> length ms = length l -> Permutation (arr ++ rest) (messages l ms) -> rest <> [] -> complete_some link old l (pendings l) arr = None.
  Proof.
    intros Hn Hlen Hp Hr. pose proof (Permutation_length Hp) as Hal. rewrite messages_length in Hal by exact Hlen. rewrite app_length in Hal. assert (0 < length rest) by (destruct rest; [congruence|cbn [length]; lia]).
    unfold complete_some. pose proof (pendings_length l) as Hpl. destruct (pendings l) as [|p0 pl] eqn:Ep; [cbn [length] in Hpl; lia|]. rewrite <- Ep in *. rewrite Hpl. rewrite firstn_all2 by lia.
    destruct (arrived l ms (arr ++ rest) (length arr) Hn Hlen Hp) as (data & E & _). rewrite firstn_app, firstn_all, Nat.sub_diag, firstn_O, app_nil_r in E. rewrite E. destruct (Nat.ltb_spec (length arr) (length l)); [reflexivity|lia].
  Qed.
End Local.

(** ** Connected parts *)
Section Connected.
  Context {E A V : Type}.
  Variables (groups : list (egroup E)) (fags : list (list (fagrp A))) (vs : list V) (conforming : option bool) (parts : partdict).
  Lemma connected_crosses p q (mp : mesh E A V) fp : fags_wf groups fags -> part_ok vs groups fags conforming parts p mp fp -> In q (get_connected_parts fp) <-> q <> p /\ crosses groups fags parts p q.
  Proof.
    intros Hwf (Hgeo & Hfac & Hlen & Hadj & _ & _ & Hlists). rewrite connected_In. split.
    - intros (l & ig & t & es & aff & Hl & Hb). apply In_nth_error in Hl. destruct Hl as (g & Hl). destruct (nth_error fags g) as [l0|] eqn:Hl0; [|apply nth_error_None in Hl0; destruct Hwf as (HL & _); assert (g < length fp) by (apply nth_error_Some; congruence); lia].
      destruct (proj2 Hlists g l0 Hl0) as (l' & Hl' & Hig & _ & Hes & _). assert (l' = l) by congruence. subst l'. pose proof (Hig _ Hb) as Hgg. cbn [igroup_of] in Hgg. subst ig. pose proof (Hes _ _ _ _ _ Hb) as Hne. destruct es as [|((i, f), (k, f')) es]; [congruence|].
      assert (Hpe : part_entry fp g t q aff ((i, f), (k, f'))) by (exists l, (((i, f), (k, f')) :: es); split; [exact Hl|]; split; [exact Hb|now left]). apply (pa_part _ _ _ _ _ _ Hadj) in Hpe. destruct Hpe as (_ & Hq & g' & e & e' & Hint & Him & Has). split; [exact Hq|].
      destruct Him as (? & ? & _ & _ & _ & _ & Has1). exists g, g', aff, e, f, e', f'. eexists. eexists. split; [exact Hint|]. split; eassumption.
    - intros (Hq & g & g' & aff & e & f & e' & f' & k & k' & Hint & Ha & Ha'). destruct (pg_all _ _ _ _ _ Hgeo _ _ Ha) as (g1 & i & i' & Heq & _ & Him).
      assert (Hge : g1 = g /\ i = e).
      { destruct Hint as (l & es & Hl & Hb & Hen). assert (Him2 := Him). destruct Him2 as (grp & _ & Hgrp & Hi & _). destruct Hwf as (HL & _ & Hr & _). destruct (nth_error groups g) as [grp0|] eqn:Hg0; [|apply nth_error_None in Hg0; assert (g < length fags) by (apply nth_error_Some; congruence); lia].
        assert (He : e < nelements grp0) by (apply (Hr g grp0 l _ e f Hg0 Hl Hb); cbn [fag_faces]; apply in_map_iff; exists ((e, f), (e', f')); auto).
        assert (g1 = g); [|subst g1; split; [reflexivity|lia]]. apply (MeshProofs.owns_unique (map nelements groups) g1 g (base (map nelements groups) g1 + i)); [exists (nelements grp); rewrite nth_error_map, Hgrp; split; [reflexivity|lia]|exists (nelements grp0); rewrite nth_error_map, Hg0; split; [reflexivity|lia]]. }
      destruct Hge as (-> & ->). assert (Hpe : part_entry fp g (TPartition q) q aff ((i', f), (k', f'))) by (apply (pa_part _ _ _ _ _ _ Hadj); split; [reflexivity|]; split; [exact Hq|]; exists g', e, e'; auto).
      destruct Hpe as (l & es & Hl & Hb & _). exists l, g, (TPartition q), es, aff. split; [eapply nth_error_In; eauto|exact Hb].
  Qed.
End Connected.

(** ** Ranks holding the parts of a mesh *)
Section Ranks.
  Context {E E' V A N K P : Type}.
  Variables (dim : K -> nat) (factory : K -> K) (fnodes : K -> nat -> K -> N) (face_coords : K -> nat -> E -> E') (bfvi : K -> list (list nat))
    (store : nat -> nat) (garbage_row : nat -> list nat) (garbage_node : nat -> E').
  Variables (unit_nodes : K -> N) (select_nodes : K -> list nat -> N) (app : A -> P -> P) (close : P -> P -> bool)
    (gauss_newton : K -> list (list P) -> list (list P) -> res (list N)) (nodes_close : N -> N -> bool).
  Notation restrict := (make_face_restriction (V := V) dim factory fnodes face_coords bfvi store garbage_row garbage_node).
  Variables (garbage : nat -> list (nat * nat)) (groups : list (egroup E)) (kinds : list K) (fags : list (list (fagrp A))) (vs : list V) (conforming : option bool) (parts : partdict) (ms : list (nat * mesh E A V)).
  Hypothesis Hv : valid_partition (sum (map nelements groups)) parts.
  Hypothesis Hgar : forall p, length (garbage p) = sum (map nelements groups).
  Hypothesis Hne : groups <> [].
  Hypothesis Hb : restrictable groups kinds fags vs false.
  Hypothesis Hwf : fags_wf groups fags.
  Hypothesis Hone : asked_once fags RInterior.
  Hypothesis Htag : forall l n, In l fags -> ~ MeshSpec.carries l (TPartition n).
  Hypothesis Hsym : forall g g' aff e f e' f', int_entry fags g g' aff ((e, f), (e', f')) -> exists aff', int_entry fags g' g aff' ((e', f'), (e, f)).
  Hypothesis Hs : forall i, i < length vs -> store i = i.
  Hypothesis Hrefl : forall n, nodes_close n n = true.
  Hypothesis Hgn : CrossProofs.gn_lengths gauss_newton.
  Hypothesis Ems : partition_mesh garbage (Some vs) groups (Ok fags) conforming parts None = Ok ms.
  Variables (dim0 : bool) (rank_of : nat -> nat) (nranks : nat) (side : nat -> nat -> bend E A N K P).
  Hypothesis Hrank : forall p, In p (map fst parts) -> rank_of p < nranks.
  Hypothesis Hside : forall p mp q, In (p, mp) ms -> p <> q -> crosses groups fags parts p q -> side_of restrict kinds mp q (side p q).
  Hypothesis Hmatch : dim0 = false -> forall p mp q, In (p, mp) ms -> p <> q -> crosses groups fags parts p q ->
    matchable2 app close (m_groups mp) (be_fags (side q p)) p (be_conn (side p q)) (be_conn (side q p)) (be_coords (side p q)) (be_coords (side q p)) \/
    (forall d, In d (cn_to (be_conn (side q p))) -> forall tn sn, length tn = length sn -> exists ns, gauss_newton (dg_kind d) tn sn = Ok ns /\ length ns = length tn).
  Definition rank_cfg : list (list (irbi (bend E A N K P))) := map (part_irbis rank_of side ms) (seq 0 nranks).
  Notation pack := bend_pack.
  Notation link := (bend_link unit_nodes select_nodes app close gauss_newton nodes_close dim0).

  Lemma ms_spec : map fst ms = map fst parts /\ forall p m, In (p, m) ms -> exists fp, part_ok vs groups fags conforming parts p m fp.
  Proof.
    destruct (partition_mesh_spec garbage vs groups fags conforming parts None Hv Hgar Hne (rb_rows _ _ _ _ _ Hb) (rb_range _ _ _ _ _ Hb) Hwf (incl_refl _)) as (ms' & Ems' & Hk & Hok). assert (ms' = ms) by congruence. subst ms'. auto.
  Qed.
  Lemma ms_fun p m m' : In (p, m) ms -> In (p, m') ms -> m = m'.
  Proof.
    assert (Hn : NoDup (map fst ms)) by (rewrite (proj1 ms_spec); apply (vp_keys _ _ Hv)). clear - Hn. induction ms as [|(p0, m0) l IH]; intros H1 H2; [destruct H1|]. cbn [map fst] in Hn. inversion Hn as [|? ? Hni Hn']; subst.
    destruct H1 as [H1|H1], H2 as [H2|H2]; [congruence| | |eauto]; exfalso; apply Hni; apply in_map_iff; eexists; (split; [|eassumption]); cbn [fst]; congruence.
  Qed.
  Lemma crosses_sym p q : crosses groups fags parts p q -> crosses groups fags parts q p.
  Proof. intros (g & g' & aff & e & f & e' & f' & k & k' & Hi & Ha & Ha'). destruct (Hsym _ _ _ _ _ _ _ Hi) as (aff' & Hi'). exists g', g, aff', e', f', e, f, k', k. auto. Qed.
  Lemma crosses_part p q : crosses groups fags parts p q -> exists mp, In (p, mp) ms.
  Proof.
    intros (g & g' & aff & e & f & e' & f' & k & k' & Hi & (els & Hin & _) & Ha'). assert (Hk : In p (map fst ms)) by (rewrite (proj1 ms_spec); apply in_map_iff; exists (p, els); auto). apply in_map_iff in Hk. destruct Hk as ((p', mp) & Heq & Hin'). cbn [fst] in Heq. subst p'. eauto.
  Qed.

  Lemma irbis_In r b : In b (part_irbis rank_of side ms r) <-> exists p mp q, b = mk_irbi p q (rank_of q) (side p q) /\ In (p, mp) ms /\ rank_of p = r /\ p <> q /\ crosses groups fags parts p q.
  Proof.
    unfold part_irbis. rewrite in_flat_map. split.
    - intros ((p, mp) & Hin & Hin'). cbn [fst snd] in Hin'. destruct (Nat.eqb_spec (rank_of p) r) as [Hr|]; [|destruct Hin']. destruct (proj2 ms_spec _ _ Hin) as (fp & Hok). assert (Hf : m_facial mp = Available fp) by apply Hok. rewrite Hf in Hin'. apply in_map_iff in Hin'. destruct Hin' as (q & <- & Hq).
      apply (connected_crosses groups fags vs conforming parts p q mp fp Hwf Hok) in Hq. exists p, mp, q. split; [reflexivity|]. split; [exact Hin|]. split; [exact Hr|]. split; [intros ->; now apply (proj1 Hq)|apply Hq].
    - intros (p & mp & q & -> & Hin & Hr & Hpq & Hc). exists (p, mp). split; [exact Hin|]. cbn [fst snd]. rewrite Hr, Nat.eqb_refl. destruct (proj2 ms_spec _ _ Hin) as (fp & Hok). assert (Hf : m_facial mp = Available fp) by apply Hok. rewrite Hf. apply in_map_iff. exists q. split; [reflexivity|].
      apply (connected_crosses groups fags vs conforming parts p q mp fp Hwf Hok). auto.
  Qed.
  Lemma irbis_once r : NoDup (map ib_pair (part_irbis rank_of side ms r)).
  Proof.
    assert (Heq : map ib_pair (part_irbis rank_of side ms r) = flat_map (fun pm : nat * mesh E A V => if rank_of (fst pm) =? r then match m_facial (snd pm) with Available fags => map (fun q => (fst pm, q)) (get_connected_parts fags) | _ => [] end else []) ms).
    { unfold part_irbis. clear. induction ms as [|(p, mp) l IH]; cbn [flat_map map]; [reflexivity|]. rewrite map_app, IH. f_equal. cbn [fst snd]. destruct (rank_of p =? r); [|reflexivity]. destruct (m_facial mp); try reflexivity. rewrite map_map. reflexivity. }
    rewrite Heq. apply NoDup_flat_map.
    - assert (Hn : NoDup (map fst ms)) by (rewrite (proj1 ms_spec); apply (vp_keys _ _ Hv)). now apply NoDup_map_inv in Hn.
    - intros (p, mp) _. cbn [fst snd]. destruct (rank_of p =? r); [|constructor]. destruct (m_facial mp) as [| |f]; try constructor. apply NoDup_map_inj; [intros a b _ _ H; congruence|apply first_occ_NoDup].
    - intros (p, mp) (p', mp') z Hin Hin' Hz Hz'. cbn [fst snd] in *. destruct (rank_of p =? r); [|destruct Hz]. destruct (rank_of p' =? r); [|destruct Hz']. destruct (m_facial mp) as [| |f]; try destruct Hz as []. destruct (m_facial mp') as [| |f']; try destruct Hz' as [].
      apply in_map_iff in Hz, Hz'. destruct Hz as (q & <- & _). destruct Hz' as (q' & Hqq & _). injection Hqq as -> _. f_equal. eapply ms_fun; eauto.
  Qed.

  (** Two connected parts: both restrictions and the connection *)
  Lemma edge p q mp mq : In (p, mp) ms -> In (q, mq) ms -> p <> q -> crosses groups fags parts p q ->
    exists m, pack p (side q p) = Ok m /\ exists o, link (side p q) m = Ok o /\ joins groups fags parts p q mp mq (side p q) (side q p) o.
  Proof.
    intros Hp Hq Hpq Hc. assert (Hqp : q <> p) by congruence. destruct (Hside p mp q Hp Hpq Hc) as (vp & bvs & bgs & Vp & Fp & Gp & Ep & Pp). destruct (Hside q mq p Hq Hqp (crosses_sym _ _ Hc)) as (vq & rbvs & rbgs & Vq & Fq & Gq & Eq & Pq).
    destruct (C36_partitioned dim factory fnodes face_coords bfvi store garbage_row garbage_node unit_nodes select_nodes app close gauss_newton nodes_close garbage groups kinds fags vs conforming parts None ms Hv Hgar Hne Hb Hwf (incl_refl _) Hone Htag Hsym Hs Hrefl Hgn Ems p q mp mq Hp Hq Hpq Hc)
      as (fp & fq & vp' & vq' & bvs' & bgs' & c & rbvs' & rbgs' & rc & infos & Fp' & Fq' & Vp' & Vq' & Ep' & Eq' & Ei & Hco).
    assert (vp' = vp) by congruence. assert (vq' = vq) by congruence. assert (fp = be_fags (side p q)) by congruence. assert (fq = be_fags (side q p)) by congruence. subst vp' vq' fp fq. rewrite Ep in Ep'. injection Ep' as <- <- <-. rewrite Eq in Eq'. injection Eq' as <- <- <-.
    destruct (Hco dim0 (be_coords (side p q)) (be_coords (side q p)) Pp Pq (fun h => Hmatch h p mp q Hp Hpq Hc)) as (o & Eo & A1 & A2 & A3 & A4).
    exists (cn_to (be_conn (side q p)), be_coords (side q p), infos). split; [unfold bend_pack; rewrite Gq, Ei; reflexivity|]. exists o. split; [unfold bend_link; cbn [fst snd]; rewrite Gp; exact Eo|]. split; [exact A1|]. split; [exact A2|]. split; [exact A3|]. exact A4.
  Qed.

  Lemma cfg_nth r l : nth_error rank_cfg r = Some l -> l = part_irbis rank_of side ms r.
  Proof. unfold rank_cfg. rewrite nth_error_map, RestrProofs.nth_error_seq. destruct (r <? nranks); cbn [option_map Nat.add]; congruence. Qed.
  Lemma cfg_some r : r < nranks -> nth_error rank_cfg r = Some (part_irbis rank_of side ms r).
  Proof. intros H. unfold rank_cfg. rewrite nth_error_map, RestrProofs.nth_error_seq. destruct (Nat.ltb_spec r nranks); [reflexivity|lia]. Qed.
  Lemma part_rank p q : crosses groups fags parts p q -> rank_of p < nranks.
  Proof. intros Hc. destruct (crosses_part p q Hc) as (mp & Hp). apply Hrank. rewrite <- (proj1 ms_spec). apply in_map_iff. exists (p, mp). auto. Qed.
  (** The other side of a boundary *)
  Lemma matches_side p q b' r : matches rank_cfg r (mk_irbi p q (rank_of q) (side p q)) b' -> b' = mk_irbi q p (rank_of p) (side q p).
  Proof.
    intros (l' & Hl & Hin & H1 & H2 & H3). apply cfg_nth in Hl. subst l'. apply irbis_In in Hin. destruct Hin as (p' & mp' & q' & -> & _ & _ & _ & _). cbn [ib_local ib_remote ib_rank] in *. congruence.
  Qed.
  Lemma ranks_consistent : consistent pack link false rank_cfg.
  Proof.
    split.
    - intros r l Hl. rewrite (cfg_nth r l Hl). apply irbis_once.
    - discriminate.
    - intros r l b Hl Hin. rewrite (cfg_nth r l Hl) in Hin. apply irbis_In in Hin. destruct Hin as (p & mp & q & -> & Hp & Hr & Hpq & Hc). pose proof (crosses_sym _ _ Hc) as Hc'. destruct (crosses_part q p Hc') as (mq & Hq).
      exists (mk_irbi q p (rank_of p) (side q p)). exists (part_irbis rank_of side ms (rank_of q)). split; [apply cfg_some, (part_rank q p Hc')|]. split; [apply irbis_In; exists q, mq, p; repeat split; auto|]. cbn [ib_local ib_remote ib_rank]. auto.
    - intros r l b Hl Hin. rewrite (cfg_nth r l Hl) in Hin. apply irbis_In in Hin. destruct Hin as (p & mp & q & -> & Hp & Hr & Hpq & Hc). pose proof (crosses_sym _ _ Hc) as Hc'. destruct (crosses_part q p Hc') as (mq & Hq). cbn [ib_remote ib_conn].
      destruct (edge q p mq mp Hq Hp (fun h => Hpq (eq_sym h)) Hc') as (m & Em & _). eauto.
    - intros r l b b' m Hl Hin Hm Em. rewrite (cfg_nth r l Hl) in Hin. apply irbis_In in Hin. destruct Hin as (p & mp & q & -> & Hp & Hr & Hpq & Hc). destruct (crosses_part q p (crosses_sym _ _ Hc)) as (mq & Hq). rewrite (matches_side p q b' r Hm) in Em. cbn [ib_remote ib_conn] in *.
      destruct (edge p q mp mq Hp Hq Hpq Hc) as (m' & Em' & o & Eo & _). assert (m' = m) by congruence. subst m'. eauto.
  Qed.
  Lemma delivered_joins r conns : delivered pack link false rank_cfg r conns ->
    NoDup (map fst conns) /\ (forall key o, In (key, o) conns -> exists p mp q mq, key = KPair q p /\ In (p, mp) ms /\ In (q, mq) ms /\ rank_of p = r /\ p <> q /\ crosses groups fags parts p q /\ joins groups fags parts p q mp mq (side p q) (side q p) o) /\
    (forall p mp q, In (p, mp) ms -> rank_of p = r -> p <> q -> crosses groups fags parts p q -> exists o, In (KPair q p, o) conns).
  Proof.
    intros (l & Hl & HF). apply cfg_nth in Hl. subst l. split; [|split].
    - assert (E1 : map fst conns = map (fun b => key_of false (ib_remote b) (ib_local b)) (part_irbis rank_of side ms r)). { clear - HF. induction HF as [|b kv l c (Hk & _) HF IH]; cbn [map]; congruence. }
      rewrite E1. pose proof (irbis_once r) as Hn. assert (E2 : map (fun b : irbi (bend E A N K P) => key_of false (ib_remote b) (ib_local b)) (part_irbis rank_of side ms r) = map (fun pq : nat * nat => KPair (snd pq) (fst pq)) (map ib_pair (part_irbis rank_of side ms r))) by (rewrite map_map; reflexivity).
      rewrite E2. apply NoDup_map_inj; [intros (a, b) (a', b') _ _ H; cbn [fst snd] in H; congruence|exact Hn].
    - intros key o Hin. destruct (Forall2_In_r _ _ _ _ HF Hin) as (b & Hbin & Hk & b' & m & Hm & Em & Eo). cbn [fst snd] in *. apply irbis_In in Hbin. destruct Hbin as (p & mp & q & -> & Hp & Hr & Hpq & Hc). destruct (crosses_part q p (crosses_sym _ _ Hc)) as (mq & Hq). rewrite (matches_side p q b' r Hm) in Em. cbn [ib_remote ib_conn ib_local] in *.
      destruct (edge p q mp mq Hp Hq Hpq Hc) as (m' & Em' & o' & Eo' & Hj). assert (m' = m) by congruence. subst m'. assert (o' = o) by congruence. subst o'. exists p, mp, q, mq. repeat (split; [assumption|]). exact Hj.
    - intros p mp q Hp Hr Hpq Hc. assert (Hin : In (mk_irbi p q (rank_of q) (side p q)) (part_irbis rank_of side ms r)) by (apply irbis_In; exists p, mp, q; repeat split; auto). destruct (Forall2_In_l _ _ _ _ HF Hin) as ((key, o) & Ho & Hk & _). cbn [fst ib_remote ib_local key_of] in Hk. subst key. eauto.
  Qed.
End Ranks.
