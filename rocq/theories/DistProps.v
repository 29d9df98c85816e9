(** * DistProps: properties of the distribution over ranks *)
From Coq Require Import List Arith Bool ZArith Lia Permutation Sorting.Sorted.
From Verif Require Import Np NpFacts Lin MeshModel MeshSpec MeshProofs MeshExamples MeshStateModel PartModel PartSpec PartMainProofs PartProps ConnModel ConnSpec FaceConnModel FaceConnSpec
  RestrProofs CrossProofs FaceConnProps OppProps PartConnSpec PartConnProps DistModel DistSpec DistProofs DistNetProofs DistGraphProofs DistMainProofs.
Import ListNotations.

(** ** C37 *)
Section C37.
  Context {C M O : Type}.
  Variable pack : nat -> C -> res M.
  Variable link : C -> M -> res O.
  Notation irbi := (irbi C).

  (** After any schedule of events no rank has failed; a rank whose complete_some has returned has been given for each pair the connection made
      from what the other side sent, exactly once; further calls return nothing. *)
  Theorem C37_safety old eager (cfg : list (list irbi)) evs st r x : consistent pack link old cfg ->
    run pack link old eager cfg (init cfg) evs = Some st -> nth_error (g_ranks st) r = Some x ->
    (forall e, x <> Failed e) /\
    forall conns pending, x = Done conns pending -> delivered pack link old cfg r conns /\ NoDup (map fst conns) /\ forall l arr, complete_some link old l pending arr = Some (Ok ([], [], arr)).
  Proof.
    intros Hcs Hr Hx. pose proof (run_inv pack link old eager cfg Hcs evs (init cfg) st (init_inv pack link old cfg) Hr) as Hi. destruct (ranks_at pack link old cfg st r x Hi Hx) as (l & Hl). pose proof (i_rank pack link old cfg st Hi r x l Hx Hl) as Hok. split; [intros e ->; exact Hok|].
    intros conns pending ->. destruct Hok as (-> & Hd). split; [exact Hd|]. split; [|reflexivity]. destruct Hd as (l' & Hl' & HF). assert (l' = l) by congruence. subst l'.
    assert (E1 : map fst conns = map (fun b => key_of old (ib_remote b) (ib_local b)) l). { clear - HF. induction HF as [|b kv l c (Hk & _) HF IH]; cbn [map]; congruence. }
    rewrite E1. destruct old; cbn [key_of].
    - pose proof (cs_old _ _ _ _ Hcs eq_refl _ _ Hl) as Hn. assert (E2 : map (fun b : irbi => KRemote (ib_remote b)) l = map KRemote (map ib_remote l)) by (rewrite map_map; reflexivity). rewrite E2. apply NoDup_map_inj; [intros a b _ _ H; congruence|exact Hn].
    - pose proof (cs_once _ _ _ _ Hcs _ _ Hl) as Hn. assert (E2 : map (fun b : irbi => KPair (ib_remote b) (ib_local b)) l = map (fun pq : nat * nat => KPair (snd pq) (fst pq)) (map ib_pair l)) by (rewrite map_map; reflexivity).
      rewrite E2. apply NoDup_map_inj; [intros (a, b) (a', b') _ _ H; cbn [fst snd] in H; congruence|exact Hn].
  Qed.

  (** No deadlock: unless all ranks are done some event is possible, even if messages of one source arrive in order and sends wait for their receipt *)
  Theorem C37_progress old eager (cfg : list (list irbi)) evs st : consistent pack link old cfg ->
    run pack link old eager cfg (init cfg) evs = Some st -> ~ all_done st -> exists ev st', step pack link old eager cfg st ev = Some st' /\ in_order st ev.
  Proof. intros Hcs Hr Hnd. exact (progress pack link old eager cfg Hcs st (run_inv pack link old eager cfg Hcs evs _ st (init_inv pack link old cfg) Hr) Hnd). Qed.

  (** Every schedule ends *)
  Theorem C37_bounded old eager (cfg : list (list irbi)) evs st : consistent pack link old cfg ->
    run pack link old eager cfg (init cfg) evs = Some st -> length evs <= 3 * length cfg + sum (map (@length irbi) cfg).
  Proof. intros Hcs Hr. pose proof (run_measure pack link old eager cfg Hcs evs _ st (init_inv pack link old cfg) Hr). rewrite init_measure in H. lia. Qed.

  (** All complete schedules give the same connections on all ranks and leave no message *)
  Theorem C37_same old eager eager' (cfg : list (list irbi)) evs evs' st st' : consistent pack link old cfg ->
    run pack link old eager cfg (init cfg) evs = Some st -> run pack link old eager' cfg (init cfg) evs' = Some st' -> all_done st -> all_done st' -> st = st' /\ g_net st = [].
  Proof.
    intros Hcs Hr Hr' Hd Hd'. pose proof (run_inv pack link old eager cfg Hcs evs (init cfg) st (init_inv pack link old cfg) Hr) as Hi. pose proof (run_inv pack link old eager' cfg Hcs evs' (init cfg) st' (init_inv pack link old cfg) Hr') as Hi'.
    pose proof (done_net pack link old cfg st Hi Hd) as Hn. pose proof (done_net pack link old cfg st' Hi' Hd') as Hn'. split; [|exact Hn]. assert (Hranks : g_ranks st = g_ranks st').
    { apply nth_error_ext'. intros r. destruct (nth_error (g_ranks st) r) as [x|] eqn:Hx.
      - destruct (ranks_at pack link old cfg st r x Hi Hx) as (l & Hl). destruct (cfg_at pack link old cfg st' r l Hi' Hl) as (x' & Hx'). rewrite Hx'. f_equal. unfold all_done in Hd, Hd'. rewrite Forall_forall in Hd, Hd'. destruct (Hd x (nth_error_In _ _ Hx)) as (c & p & ->). destruct (Hd' x' (nth_error_In _ _ Hx')) as (c' & p' & ->).
        destruct (i_rank pack link old cfg st Hi r _ l Hx Hl) as (-> & D). destruct (i_rank pack link old cfg st' Hi' r _ l Hx' Hl) as (-> & D'). f_equal. exact (delivered_fun pack link old cfg Hcs r c c' D D').
      - symmetry. apply nth_error_None. apply nth_error_None in Hx. rewrite (i_len pack link old cfg st' Hi'), <- (i_len pack link old cfg st Hi). exact Hx. }
    destruct st as [n l], st' as [n' l']. cbn [g_net g_ranks] in *. congruence.
  Qed.

  (** A second message for a pair is noticed *)
  Theorem C37_duplicate_message (l : list irbi) data data' b src src' (m m' : M) : NoDup (map ib_pair l) -> length data = length l -> In b l ->
    exists pending, pending_of l = Ok pending /\
      (receive pending data (src, (ib_remote b, ib_local b, m)) = Ok data' -> receive pending data' (src', (ib_remote b, ib_local b, m')) = Err AssertionError).
  Proof.
    intros Hn Hl Hb. exists (pendings l). split; [now apply pending_of_ok|]. apply In_nth_error in Hb as (i & Hi). unfold receive.
    rewrite (dget_nth pair_eqb pair_eqb_eq (pendings l) i (ib_local b, ib_remote b) i); [|now rewrite pendings_keys|now apply (pendings_nth l i b)]. cbn [bind].
    intros H. apply bind_ok in H as ([x|] & Hg & H); [discriminate|]. apply put_ok in H as (Hlt & ->). rewrite (proj2 (get_ok _ _ _) (nth_error_upd_eq _ _ _ Hlt)). reflexivity.
  Qed.

  (** One call of complete_some: the result does not depend on the order in which the messages arrive; later messages are left; the call does not return before all have arrived. *)
  Theorem C37_orders old (l : list irbi) (ms : list M) : NoDup (map ib_pair l) -> (old = true -> NoDup (map ib_remote l)) -> length ms = length l -> Forall2 (fun b m => exists o, link (ib_conn b) m = Ok o) l ms ->
    exists pending conns, pending_of l = Ok pending /\
      Forall2 (fun bm kv => fst kv = key_of old (ib_remote (fst bm)) (ib_local (fst bm)) /\ link (ib_conn (fst bm)) (snd bm) = Ok (snd kv)) (combine l ms) conns /\
      forall arr extra, Permutation arr (map (fun bm => (ib_rank (fst bm), (ib_remote (fst bm), ib_local (fst bm), snd bm))) (combine l ms)) ->
        complete_some link old l pending (arr ++ extra) = Some (Ok (conns, [], extra)) /\ forall first rest, arr = first ++ rest -> rest <> [] -> complete_some link old l pending first = None.
  Proof.
    intros Hn Hold Hlen HL. destruct (complete_ok pack link old l ms Hn Hold Hlen HL) as (conns & HF & Hc). exists (pendings l), conns. split; [now apply pending_of_ok|]. split; [exact HF|]. intros arr extra Hp. split; [now apply Hc|].
    intros first rest -> Hr. exact (complete_blocks link old l ms first rest Hn Hlen Hp Hr).
  Qed.
  (** The assertion in __enter__: a pair listed twice *)
  Theorem C37_duplicate_pair (l : list irbi) : ~ NoDup (map ib_pair l) -> pending_of l = Err AssertionError.
  Proof. apply pending_of_dup. Qed.
End C37.
Print Assumptions C37_safety.
Print Assumptions C37_duplicate_message.
Print Assumptions C37_progress.
Print Assumptions C37_bounded.
Print Assumptions C37_same.
Print Assumptions C37_orders.
Print Assumptions C37_duplicate_pair.

(** Three ranks; rank 0 has parts 0 and 1, rank 1 has part 2, rank 2 has part 3; parts 0-2, 1-2, 2-3 are connected, also 0-1 (on one rank) *)
Definition d_pack (q : nat) (c : nat) : res (nat * nat) := Ok (q, c).
Definition d_link (c : nat) (m : nat * nat) : res (nat * nat * nat) := Ok (c, fst m, snd m).
Definition d_cfg : list (list (irbi nat)) :=
  [[mk_irbi 0 2 1 2; mk_irbi 1 2 1 12; mk_irbi 0 1 0 1; mk_irbi 1 0 0 10]; [mk_irbi 2 0 0 20; mk_irbi 2 1 0 21; mk_irbi 2 3 2 23]; [mk_irbi 3 2 1 32]].
Lemma d_at r l b : nth_error d_cfg r = Some l -> In b l -> In (r, b) (flat_map (fun rl => map (pair (fst rl)) (snd rl)) (enumerate d_cfg)).
Proof. intros H Hb. apply in_flat_map. exists (r, l). split; [now apply In_enumerate|]. cbn [fst snd]. now apply in_map. Qed.
Example ex_consistent : consistent d_pack d_link false d_cfg.
Proof.
  split.
  - intros r l H. destruct r as [|[|[|r]]]; cbn in H; [| | |destruct r; discriminate]; injection H as <-; cbn; repeat constructor; cbn; intuition discriminate.
  - discriminate.
  - intros r l b H Hb. pose proof (d_at r l b H Hb) as Hin. cbn in Hin. unfold matches.
    repeat (destruct Hin as [Hin|Hin]; [injection Hin as <- <-; cbn [ib_rank ib_local ib_remote];
      match goal with |- exists b', exists l', nth_error d_cfg ?k = Some l' /\ In b' l' /\ ib_local b' = ?p /\ ib_remote b' = ?q /\ ib_rank b' = ?s =>
        exists (mk_irbi p q s (10 * p + q)); eexists; split; [reflexivity|]; split; [cbn; tauto|]; auto end|]). destruct Hin.
  - intros. eexists. reflexivity.
  - intros. eexists. reflexivity.
Qed.
(** The messages of rank 1 reach rank 0 before its own; rank 2 enters last *)
Example ex_schedule : run d_pack d_link false false d_cfg (init d_cfg)
    [Enter 0; Enter 1; Receive 1 0; Receive 0 4; Receive 0 1; Enter 2; Receive 0 1; Receive 2 2; Finish 2; Receive 1 0; Receive 0 0; Finish 0; Receive 1 0; Finish 1; WaitAll 2; WaitAll 1; WaitAll 0] =
  Some (mk_gstate [] [Done [(KPair 2 0, (2, 0, 20)); (KPair 2 1, (12, 1, 21)); (KPair 1 0, (1, 0, 10)); (KPair 0 1, (10, 1, 1))] [];
                      Done [(KPair 0 2, (20, 2, 2)); (KPair 1 2, (21, 2, 12)); (KPair 3 2, (23, 2, 32))] []; Done [(KPair 2 3, (32, 3, 23))] []]).
Proof. vm_compute. reflexivity. Qed.
(** Without eager sends rank 0 cannot return before rank 1 has received its messages *)
Example ex_waits : run d_pack d_link false false d_cfg (init d_cfg) [Enter 0; Enter 1; Receive 0 4; Receive 0 4; Receive 0 2; Receive 0 2; Finish 0; WaitAll 0] = None /\
  exists st, run d_pack d_link false true d_cfg (init d_cfg) [Enter 0; Enter 1; Receive 0 4; Receive 0 4; Receive 0 2; Receive 0 2; Finish 0; WaitAll 0] = Some st.
Proof. split; [vm_compute; reflexivity|eexists; vm_compute; reflexivity]. Qed.

(** ** C38 *)
(** The keys are the values that occur, in increasing order; the list of a key has its positions in increasing order. *)
Theorem C38_map l : StronglySorted lt (map fst (membership_list_to_map l)) /\ (forall x, In x (map fst (membership_list_to_map l)) <-> In x l) /\
  forall x els, In (x, els) (membership_list_to_map l) -> StronglySorted lt els /\ forall i, In i els <-> nth_error l i = Some x.
Proof. destruct (membership_keys l). split; [assumption|]. split; [assumption|]. intros x els H1. exact (membership_positions l x els H1). Qed.
Theorem C38_partition l : valid_partition (length l) (membership_list_to_map l).
Proof. apply membership_valid. Qed.
Print Assumptions C38_map.
Print Assumptions C38_partition.
Example ex_membership : membership_list_to_map [7; 3; 7; 0; 3; 7] = [(0, [3]); (3, [1; 4]); (7, [0; 2; 5])].
Proof. vm_compute. reflexivity. Qed.

(** ** C39 *)
Section C39.
  Context {E A : Type}.
  (** The row of each element lists its neighbors across interior faces, once for each such face, in some order. *)
  Theorem C39_graph order (groups : list (egroup E)) (fags : list (list (fagrp A))) : sorts order -> fags_wf groups fags ->
    (exists l ig j es aff, In l fags /\ In (Interior ig j es aff) l) ->
    exists starts adj, facial_csr order (map nelements groups) fags = Ok (starts, adj) /\
      csr (sum (map nelements groups)) starts adj (fun e => map snd (filter (fun x => fst x =? e) (el_pairs (map nelements groups) fags))).
  Proof.
    intros Hs (Hlen & Hig & Hr & Hn) Hex. apply facial_csr_ok; auto; [now rewrite map_length| |].
    - intros l ig j es aff Hl Hb. apply In_nth_error in Hl. destruct Hl as (g & Hl). pose proof (Hig _ _ _ Hl Hb) as Hgg. cbn [igroup_of] in Hgg. subst ig. destruct (Hn _ _ _ _ _ Hl Hb) as (grp' & Hg' & _). rewrite map_length. apply nth_error_Some. congruence.
    - intros x Hx. apply (el_pairs_In _ _ _ Hig) in Hx. destruct Hx as (g & g' & aff & e & f & e' & f' & (l & es & Hl & Hb & Hen) & ->). cbn [fst]. destruct (nth_error groups g) as [grp|] eqn:Hg; [|apply nth_error_None in Hg; assert (g < length fags) by (apply nth_error_Some; congruence); lia].
      assert (He : e < nelements grp) by (apply (Hr g grp l _ e f Hg Hl Hb); cbn [fag_faces]; apply in_map_iff; exists ((e, f), (e', f')); auto).
      pose proof (base_S (map nelements groups) g (nelements grp)) as HS. rewrite nth_error_map, Hg in HS. specialize (HS eq_refl). assert (Hle : base (map nelements groups) (S g) <= sum (map nelements groups)); [|lia].
      unfold base. rewrite <- (firstn_skipn (S g) (map nelements groups)) at 2. rewrite sum_app. lia.
  Qed.
  (** [a] and [b] are neighbors in the graph exactly if an interior face of [a] lies at [b] *)
  Theorem C39_neighbors order (groups : list (egroup E)) (fags : list (list (fagrp A))) starts adj : sorts order -> fags_wf groups fags ->
    facial_csr order (map nelements groups) fags = Ok (starts, adj) ->
    forall a s t b, a < sum (map nelements groups) -> nth_error starts a = Some s -> nth_error starts (S a) = Some t ->
      (In b (slice adj s t) <-> exists g g' aff e f e' f', int_entry fags g g' aff ((e, f), (e', f')) /\ a = base (map nelements groups) g + e /\ b = base (map nelements groups) g' + e').
  Proof.
    intros Hs Hwf Ecsr a s t b Ha Hst Htt. assert (Hex : exists l ig j es aff, In l fags /\ In (Interior ig j es aff) l).
    { unfold facial_csr, facial_pairs in Ecsr. destruct (flat_map (filter (fun b : fagrp A => match b with Interior _ _ _ _ => true | _ => false end)) fags) as [|b0 bs] eqn:Ef; [discriminate|].
      assert (Hin : In b0 (flat_map (filter (fun b : fagrp A => match b with Interior _ _ _ _ => true | _ => false end)) fags)) by (rewrite Ef; now left). apply in_flat_map in Hin. destruct Hin as (l & Hl & Hin). apply filter_In in Hin. destruct Hin as (Hin & Hb0). destruct b0; try discriminate. eauto 7. }
    destruct (C39_graph order groups fags Hs Hwf Hex) as (starts' & adj' & E' & _ & _ & _ & Hrow). assert (starts' = starts) by congruence. assert (adj' = adj) by congruence. subst starts' adj'. destruct (Hrow a Ha) as (s' & t' & Hs' & Ht' & _ & _ & Hp). assert (s' = s) by congruence. assert (t' = t) by congruence. subst s' t'.
    destruct Hwf as (_ & Hig & _). assert (Hiff : In b (slice adj s t) <-> In (a, b) (el_pairs (map nelements groups) fags)).
    { split; [intros Hin; apply (Permutation_in _ Hp) in Hin; apply in_map_iff in Hin; destruct Hin as ((x, y) & Heq & Hin); cbn [snd] in Heq; subst y; apply filter_In in Hin; destruct Hin as (Hin & Heq); cbn [fst] in Heq; apply Nat.eqb_eq in Heq; now subst x|].
      intros Hin. apply (Permutation_in _ (Permutation_sym Hp)). apply in_map_iff. exists (a, b). split; [reflexivity|]. apply filter_In. cbn [fst]. now rewrite Nat.eqb_refl. }
    rewrite Hiff, (el_pairs_In _ _ _ Hig). split.
    - intros (g & g' & aff & e & f & e' & f' & Hi & Heq). injection Heq as -> ->. exists g, g', aff, e, f, e', f'. auto.
    - intros (g & g' & aff & e & f & e' & f' & Hi & -> & ->). exists g, g', aff, e, f, e', f'. auto.
  Qed.
End C39.
Print Assumptions C39_graph.
Print Assumptions C39_neighbors.
Example ex_graph : facial_csr argsort (map nelements ex_groups) ex_fags = Ok ([0; 1; 3; 4], [1; 0; 2; 1]).
Proof. vm_compute. reflexivity. Qed.
(** np.argsort of the model is such an order *)
Example argsort_sorts : sorts argsort.
Proof.
  intros l. split.
  - change (argsort l) with (map fst (OppMainProofs.spairs l)). apply (Permutation_trans (Permutation_map fst (isort_perm _ _))). unfold enumerate, enumerate_from. generalize 0. induction l as [|x l IH]; intros n; cbn [length seq combine map fst]; [reflexivity|]. constructor. apply IH.
  - exists (map snd (OppMainProofs.spairs l)). split; [apply OppMainProofs.argsort_take|apply OppMainProofs.spairs_sorted].
Qed.
Example ex_C39 : csr 3 [0; 1; 3; 4] [1; 0; 2; 1] (fun e => map snd (filter (fun x => fst x =? e) (el_pairs (map nelements ex_groups) ex_fags))).
Proof.
  destruct (C39_graph argsort ex_groups ex_fags argsort_sorts ex_fags_wf) as (s & a & E & H); [eexists _, _, _, _, _; split; [left; reflexivity|left; reflexivity]|]. rewrite ex_graph in E. injection E as <- <-. exact H.
Qed.

(** ** C81: get_partition_by_pymetis works for every mesh. Refuted: a mesh with one element has no interior adjacency group, np.hstack of an empty list fails. *)
Definition one_groups : list (egroup nat) := [mk_egroup (Some [[0; 1; 2]]) [100] tri_faces].
Theorem C81_refuted : exists (fags : list (list (fagrp unit))), compute_facial_adjacency tt (fun l => l) None one_groups = Ok fags /\ fags_wf one_groups fags /\
  forall order, facial_csr order (map nelements one_groups) fags = Err ValueError.
Proof.
  eexists. split; [vm_compute; reflexivity|]. split; [|reflexivity]. split; [reflexivity|]. split; [|split].
  - intros g l b Hl Hb. destruct g as [|g]; [|destruct g; discriminate]. injection Hl as <-. cbn [In] in Hb. repeat (destruct Hb as [<-|Hb]; [reflexivity|]). destruct Hb.
  - intros g grp l b e f Hg Hl Hb Hf. destruct g as [|g]; [|destruct g; discriminate]. injection Hl as <-. injection Hg as <-. cbn [In] in Hb.
    repeat (destruct Hb as [<-|Hb]; [cbn [fag_faces In] in Hf; repeat (destruct Hf as [Hf|Hf]; [injection Hf as <- <-; cbn; lia|]); destruct Hf|]). destruct Hb.
  - intros g l g' es aff Hl Hb. destruct g as [|g]; [|destruct g; discriminate]. injection Hl as <-. cbn [In] in Hb. repeat (destruct Hb as [Hb|Hb]; [discriminate|]). destruct Hb.
Qed.
Print Assumptions C81_refuted.

(** ** C79 *)
Section C79.
  Context {E A V : Type}.
  (** get_connected_parts of a part made by partition_mesh: the other parts with an interior face of the mesh in between, each once *)
  Theorem C79_connected garbage (groups : list (egroup E)) (fags : list (list (fagrp A))) (vs : list V) conforming parts rp (ms : list (nat * mesh E A V)) :
    valid_partition (sum (map nelements groups)) parts -> (forall p, length (garbage p) = sum (map nelements groups)) -> groups <> [] -> has_rows groups -> rows_in_range (length vs) groups -> fags_wf groups fags ->
    incl (requested parts rp) (map fst parts) -> partition_mesh garbage (Some vs) groups (Ok fags) conforming parts rp = Ok ms ->
    forall p m, In (p, m) ms -> exists fp, m_facial m = Available fp /\ NoDup (get_connected_parts fp) /\ forall q, In q (get_connected_parts fp) <-> q <> p /\ crosses groups fags parts p q.
  Proof.
    intros Hv Hg Hne Hr Hi Hwf Hreq Ems p m Hin. destruct (partition_mesh_spec garbage vs groups fags conforming parts rp Hv Hg Hne Hr Hi Hwf Hreq) as (ms' & Ems' & _ & Hok). assert (ms' = ms) by congruence. subst ms'.
    destruct (Hok p m Hin) as (fp & Hp). exists fp. split; [apply Hp|]. split; [apply first_occ_NoDup|]. intros q. exact (connected_crosses groups fags vs conforming parts p q m fp Hwf Hp).
  Qed.
  (** So each of two parts is connected to the other, or neither is *)
  Theorem C79_symmetric garbage (groups : list (egroup E)) (fags : list (list (fagrp A))) (vs : list V) conforming parts rp (ms : list (nat * mesh E A V)) :
    valid_partition (sum (map nelements groups)) parts -> (forall p, length (garbage p) = sum (map nelements groups)) -> groups <> [] -> has_rows groups -> rows_in_range (length vs) groups -> fags_wf groups fags ->
    incl (requested parts rp) (map fst parts) -> partition_mesh garbage (Some vs) groups (Ok fags) conforming parts rp = Ok ms ->
    (forall g g' aff e f e' f', int_entry fags g g' aff ((e, f), (e', f')) -> exists aff', int_entry fags g' g aff' ((e', f'), (e, f))) ->
    forall p q mp mq fp fq, In (p, mp) ms -> In (q, mq) ms -> m_facial mp = Available fp -> m_facial mq = Available fq -> (In q (get_connected_parts fp) <-> In p (get_connected_parts fq)).
  Proof.
    intros Hv Hg Hne Hr Hi Hwf Hreq Ems Hsym p q mp mq fp fq Hp Hq Fp Fq. destruct (C79_connected garbage groups fags vs conforming parts rp ms Hv Hg Hne Hr Hi Hwf Hreq Ems p mp Hp) as (fp' & Fp' & _ & H1). destruct (C79_connected garbage groups fags vs conforming parts rp ms Hv Hg Hne Hr Hi Hwf Hreq Ems q mq Hq) as (fq' & Fq' & _ & H2).
    assert (fp' = fp) by congruence. assert (fq' = fq) by congruence. subst fp' fq'. rewrite H1, H2. split; intros (Hn & Hc); (split; [congruence|]); eapply crosses_sym; eauto.
  Qed.
End C79.
Print Assumptions C79_connected.
Print Assumptions C79_symmetric.
Example ex_connected : get_connected_parts p_fags = [7] /\ get_connected_parts q_fags = [3].
Proof. split; reflexivity. Qed.
Example ex_C79 : exists fp, m_facial p_mesh = Available fp /\ NoDup (get_connected_parts fp) /\ forall q, In q (get_connected_parts fp) <-> q <> 3 /\ crosses ex_groups ex_fags ex_parts 3 q.
Proof.
  exact (C79_connected ex_garbage ex_groups ex_fags ex_vs (Some true) ex_parts None _ ex_valid_partition (fun _ => eq_refl) ltac:(discriminate) (rb_rows _ _ _ _ _ (ex_restrictable false)) (rb_range _ _ _ _ _ (ex_restrictable false)) ex_fags_wf (incl_refl _) ex_ms_is 3 p_mesh (or_intror (or_introl eq_refl))).
Qed.

(** ** C80: the parts of a mesh on the ranks of a communicator *)
Section C80.
  Context {E E' V A N K P : Type}.
  Variables (dim : K -> nat) (factory : K -> K) (fnodes : K -> nat -> K -> N) (face_coords : K -> nat -> E -> E') (bfvi : K -> list (list nat))
    (store : nat -> nat) (garbage_row : nat -> list nat) (garbage_node : nat -> E').
  Variables (unit_nodes : K -> N) (select_nodes : K -> list nat -> N) (app : A -> P -> P) (close : P -> P -> bool)
    (gauss_newton : K -> list (list P) -> list (list P) -> res (list N)) (nodes_close : N -> N -> bool).
  Notation restrict := (make_face_restriction (V := V) dim factory fnodes face_coords bfvi store garbage_row garbage_node).
  Notation link := (bend_link unit_nodes select_nodes app close gauss_newton nodes_close).
  (** A mesh is partitioned and each part assigned to a rank. Each rank restricts its parts to the boundaries towards the parts reported by get_connected_parts and passes these boundaries to the helper.
      Then whatever the schedule, no rank fails or blocks for ever, and in the end each rank has for each of its parts and each part connected to it
      one connection; it joins the faces of the mesh between the two parts. *)
  Theorem C80_distributed garbage (groups : list (egroup E)) (kinds : list K) (fags : list (list (fagrp A))) (vs : list V) conforming parts (ms : list (nat * mesh E A V)) dim0 rank_of nranks (side : nat -> nat -> bend E A N K P) :
    valid_partition (sum (map nelements groups)) parts -> (forall p, length (garbage p) = sum (map nelements groups)) -> groups <> [] ->
    restrictable groups kinds fags vs false -> fags_wf groups fags ->
    asked_once fags RInterior -> (forall l n, In l fags -> ~ MeshSpec.carries l (TPartition n)) ->
    (forall g g' aff e f e' f', int_entry fags g g' aff ((e, f), (e', f')) -> exists aff', int_entry fags g' g aff' ((e', f'), (e, f))) ->
    (forall i, i < length vs -> store i = i) -> (forall n, nodes_close n n = true) -> gn_lengths gauss_newton ->
    partition_mesh garbage (Some vs) groups (Ok fags) conforming parts None = Ok ms ->
    (forall p, In p (map fst parts) -> rank_of p < nranks) ->
    (forall p mp q, In (p, mp) ms -> p <> q -> crosses groups fags parts p q -> side_of restrict kinds mp q (side p q)) ->
    (dim0 = false -> forall p mp q, In (p, mp) ms -> p <> q -> crosses groups fags parts p q ->
      matchable2 app close (m_groups mp) (be_fags (side q p)) p (be_conn (side p q)) (be_conn (side q p)) (be_coords (side p q)) (be_coords (side q p)) \/
      (forall d, In d (cn_to (be_conn (side q p))) -> forall tn sn, length tn = length sn -> exists ns, gauss_newton (dg_kind d) tn sn = Ok ns /\ length ns = length tn)) ->
    let cfg := map (part_irbis rank_of side ms) (seq 0 nranks) in
    forall eager evs st, run bend_pack (link dim0) false eager cfg (init cfg) evs = Some st ->
      length evs <= 3 * nranks + sum (map (@length _) cfg) /\
      (all_done st \/ exists ev st', step bend_pack (link dim0) false eager cfg st ev = Some st' /\ in_order st ev) /\
      forall r x, nth_error (g_ranks st) r = Some x -> (forall e, x <> Failed e) /\ forall conns pending, x = Done conns pending -> NoDup (map fst conns) /\
        (forall key o, In (key, o) conns -> exists p mp q mq, key = KPair q p /\ In (p, mp) ms /\ In (q, mq) ms /\ rank_of p = r /\ p <> q /\ crosses groups fags parts p q /\ joins groups fags parts p q mp mq (side p q) (side q p) o) /\
        (forall p mp q, In (p, mp) ms -> rank_of p = r -> p <> q -> crosses groups fags parts p q -> exists o, In (KPair q p, o) conns).
  Proof.
    intros H1 H2 H3 H4 H5 H6 H7 H8 H9 H10 H11 H12 H13 H14 H15 cfg eager evs st Hrun.
    pose proof (ranks_consistent dim factory fnodes face_coords bfvi store garbage_row garbage_node unit_nodes select_nodes app close gauss_newton nodes_close garbage groups kinds fags vs conforming parts ms H1 H2 H3 H4 H5 H6 H7 H8 H9 H10 H11 H12 dim0 rank_of nranks side H13 H14 H15) as Hcs.
    change (rank_cfg ms rank_of nranks side) with cfg in Hcs. split; [|split].
    - pose proof (C37_bounded bend_pack (link dim0) false eager cfg evs st Hcs Hrun) as Hb. unfold cfg in Hb at 1. now rewrite map_length, seq_length in Hb.
    - assert (Hdec : all_done st \/ ~ all_done st). { unfold all_done. clear. induction (g_ranks st) as [|x l IH]; [left; constructor|]. destruct x; try (right; intros H; inversion H as [|? ? (c & p & Hx) _]; discriminate). destruct IH as [IH|IH]; [left; constructor; eauto|right; intros H; inversion H; contradiction]. }
      destruct Hdec as [Hd|Hd]; [now left|right; exact (C37_progress bend_pack (link dim0) false eager cfg evs st Hcs Hrun Hd)].
    - intros r x Hx. destruct (C37_safety bend_pack (link dim0) false eager cfg evs st r x Hcs Hrun Hx) as (Hf & Hd). split; [exact Hf|]. intros conns pending Heq. destruct (Hd conns pending Heq) as (Hdel & _).
      exact (delivered_joins dim factory fnodes face_coords bfvi store garbage_row garbage_node unit_nodes select_nodes app close gauss_newton nodes_close garbage groups kinds fags vs conforming parts ms H1 H2 H3 H4 H5 H6 H7 H8 H9 H10 H11 H12 dim0 rank_of nranks side H14 H15 r conns Hdel).
  Qed.
End C80.
Print Assumptions C80_distributed.
(** Part 7 on rank 0, part 3 on rank 1 *)
Definition ex_rank_of (p : nat) : nat := if p =? 7 then 0 else 1.
Definition ex_side (p q : nat) : bend nat unit (list nat) fk nat := if p =? 7 then mk_bend q_groups q_fags q_c q_points else mk_bend p_groups p_fags p_c p_points.
Definition ex_gn (_ : fk) (tn _ : list (list nat)) : res (list (list nat)) := Ok (map (fun _ => []) tn).
Notation ex_link := (bend_link (A := unit) funit (fun _ ix => ix) (fun _ p => p) Nat.eqb ex_gn fnodes_equal false).
Definition ex_cfg : list (list (irbi (bend nat unit (list nat) fk nat))) := map (part_irbis ex_rank_of ex_side [(7, q_mesh); (3, p_mesh)]) (seq 0 2).
Lemma ex_crosses_parts p q : crosses ex_groups ex_fags ex_parts p q -> (p = 7 \/ p = 3) /\ (q = 7 \/ q = 3).
Proof. intros (g & g' & aff & e & f & e' & f' & k & k' & _ & (els & Hin & _) & (els' & Hin' & _)). cbn in Hin, Hin'. intuition congruence. Qed.
Example ex_C80 : forall evs st conns pending, run bend_pack ex_link false false ex_cfg (init ex_cfg) evs = Some st -> nth_error (g_ranks st) 1 = Some (Done conns pending) ->
  exists o, In (KPair 7 3, o) conns /\ joins ex_groups ex_fags ex_parts 3 7 p_mesh q_mesh (ex_side 3 7) (ex_side 7 3) o.
Proof.
  intros evs st conns pending Hrun Hx.
  destruct (C80_distributed fdim (fun _ => Edge) fface fcoords (fun _ => [[0]; [1]]) (fun i => i) fgarbage fgarbage_node funit (fun _ ix => ix) (fun _ p => p) Nat.eqb ex_gn fnodes_equal
    ex_garbage ex_groups fkinds ex_fags ex_vs (Some true) ex_parts [(7, q_mesh); (3, p_mesh)] false ex_rank_of 2 ex_side ex_valid_partition (fun _ => eq_refl) ltac:(discriminate) (ex_restrictable false) ex_fags_wf (ex_asked_once RInterior) ex_no_partition
    (fun g g' aff e f e' f' h => match ex_symmetric g g' aff e f e' f' h with ex_intro _ a' (conj _ h') => ex_intro _ a' h' end) (fun i _ => eq_refl) ex_close_refl) with (eager := false) (evs := evs) (st := st) as (_ & _ & H).
  - intros k tn sn ns Hg. injection Hg as <-. apply map_length.
  - exact ex_ms_is.
  - intros p Hp. unfold ex_rank_of. destruct (p =? 7); lia.
  - intros p mp q Hp Hpq Hc. destruct (ex_crosses_parts p q Hc) as (P1 & P2). destruct p_c_is as (bgs & Ec & _). destruct q_c_is as (rbgs & Erc & _).
    cbn [In] in Hp. destruct Hp as [Hp|[Hp|[]]]; injection Hp as <- <-; destruct P2 as [->| ->]; try congruence; unfold side_of, ex_side; cbn [Nat.eqb be_fags be_groups be_conn be_coords].
    + exists ex_vs, ex_vs, rbgs. repeat split; auto. repeat constructor.
    + exists p_vs, p_vs, bgs. repeat split; auto. repeat constructor.
  - intros _ p mp q Hp Hpq Hc. right. intros d _ tn sn _. eexists. split; [reflexivity|apply map_length].
  - exact Hrun.
  - destruct (H 1 _ Hx) as (_ & Hd). destruct (Hd conns pending eq_refl) as (_ & Hj & He). destruct (He 3 p_mesh 7 (or_intror (or_introl eq_refl)) eq_refl ltac:(discriminate) ex_some) as (o & Ho). exists o. split; [exact Ho|].
    destruct (Hj _ _ Ho) as (p & mp & q & mq & Heq & Hp & Hq & _ & _ & _ & Hjo). injection Heq as <- <-. cbn [In] in Hp, Hq. assert (mp = p_mesh) by intuition congruence. assert (mq = q_mesh) by intuition congruence. subst mp mq. exact Hjo.
Qed.
Example ex_C80_run : exists conns0, run bend_pack ex_link false false ex_cfg (init ex_cfg) [Enter 1; Enter 0; Receive 0 0; Finish 0; Receive 1 0; WaitAll 0; Finish 1; WaitAll 1] =
  Some (mk_gstate [] [Done conns0 []; Done [(KPair 7 3, p_conn)] []]).
Proof. eexists. vm_compute. reflexivity. Qed.

(** ** C82 *)
(** MPIMeshDistributor: each part is kept by the manager or sent, once, to the rank with its number *)
Theorem C82_sends {X} size manager num_parts (l : list nat) (parts : list (nat * X)) : num_parts <= size -> Forall (fun p => p < num_parts) l -> map fst parts = map fst (membership_list_to_map l) ->
  exists kept sent, send_mesh_parts size manager num_parts parts = Ok (kept, sent) /\ NoDup (map fst sent) /\
    (forall r x, In (r, x) sent <-> In (r, x) parts /\ r <> manager) /\ (forall x, kept = Some x <-> In (manager, x) parts) /\
    (forall r, r <> manager -> ((exists x, In (r, x) sent) <-> In r l)) /\ ((exists x, kept = Some x) <-> In manager l).
Proof.
  intros Hsz Hl Hk. destruct (C38_map l) as (Hs & Hkeys & _). rewrite <- Hk in Hs, Hkeys. assert (Hnd : NoDup (map fst parts)) by (apply incr_NoDup; exact Hs).
  assert (Hlt : forall r x, In (r, x) parts -> r < size). { intros r x Hin. assert (Hr : In r l) by (apply Hkeys; apply in_map_iff; exists (r, x); auto). rewrite Forall_forall in Hl. specialize (Hl r Hr). lia. }
  unfold send_mesh_parts. destruct (Nat.leb_spec num_parts size); [|lia]. cbn [guard bind]. set (others := filter (fun rp : nat * X => negb (fst rp =? manager)) parts).
  assert (Ho : forall r x, In (r, x) others <-> In (r, x) parts /\ r <> manager) by (intros r x; unfold others; rewrite filter_In; cbn [fst]; rewrite negb_true_iff, Nat.eqb_neq; tauto).
  replace (forallb (fun rp : nat * X => fst rp <? size) others) with true by (symmetry; apply forallb_forall; intros (r, x) Hin; apply Ho in Hin; destruct Hin as (Hin & _); apply Nat.ltb_lt; eauto). cbn [guard bind].
  set (kept := fold_left (fun _ rp => Some (snd rp)) (filter (fun rp : nat * X => fst rp =? manager) parts) None).
  assert (Hkept : forall x, kept = Some x <-> In (manager, x) parts).
  { unfold kept. clear - Hnd. assert (Hf : forall x, In (manager, x) parts <-> In (manager, x) (filter (fun rp : nat * X => fst rp =? manager) parts)) by (intros x; rewrite filter_In; cbn [fst]; rewrite Nat.eqb_refl; tauto).
    assert (Hone : length (filter (fun rp : nat * X => fst rp =? manager) parts) <= 1).
    { clear Hf. induction parts as [|(r, x) parts IH]; [cbn; lia|]. cbn [map fst filter] in *. inversion Hnd as [|? ? Hni Hnd']; subst. specialize (IH Hnd'). destruct (Nat.eqb_spec r manager) as [->|]; [|exact IH]. cbn [length].
      destruct (filter (fun rp : nat * X => fst rp =? manager) parts) as [|(r', x') ps] eqn:Ef; [cbn; lia|]. exfalso. assert (Hin : In (r', x') (filter (fun rp : nat * X => fst rp =? manager) parts)) by (rewrite Ef; now left). apply filter_In in Hin. destruct Hin as (Hin & Heq). cbn [fst] in Heq. apply Nat.eqb_eq in Heq. subst r'. apply Hni. apply in_map_iff. exists (manager, x'). auto. }
    assert (Hall : forall rp, In rp (filter (fun rp : nat * X => fst rp =? manager) parts) -> fst rp = manager) by (intros rp Hin; apply filter_In in Hin; now apply Nat.eqb_eq).
    intros x. rewrite Hf. destruct (filter (fun rp : nat * X => fst rp =? manager) parts) as [|(r, y) [|? ?]]; cbn [length] in Hone; [|cbn [fold_left snd In]|lia]; [cbn; split; [discriminate|tauto]|]. pose proof (Hall (r, y) (or_introl eq_refl)) as Hr. cbn [fst] in Hr. subst r. split; [intros H; left; congruence|intros [H|[]]; congruence]. }
  assert (Hin : forall r, In r l <-> exists x, In (r, x) parts) by (intros r; rewrite <- Hkeys, in_map_iff; split; [intros ((r', x) & Heq & Hin); cbn [fst] in Heq; subst r'; eauto|intros (x & Hin); exists (r, x); auto]).
  exists kept, others. split; [reflexivity|]. split; [|split; [exact Ho|split; [exact Hkept|split]]].
  - unfold others. clear - Hnd. induction parts as [|(r, x) parts IH]; [constructor|]. cbn [map fst filter] in *. inversion Hnd as [|? ? Hni Hnd']; subst. destruct (negb (r =? manager)); [|auto]. cbn [map fst]. constructor; [|auto]. intros Hin. apply Hni. apply in_map_iff in Hin. destruct Hin as (y & <- & Hy). apply filter_In in Hy. now apply in_map.
  - intros r Hr. rewrite Hin. split; intros (x & Hx); exists x; [now apply Ho in Hx|apply Ho; auto].
  - rewrite Hin. split; intros (x & Hx); exists x; now apply Hkept.
Qed.
(** Every rank below num_parts is sent a part, so that receive_mesh_part returns there. Refuted: ranks whose part has no element are sent nothing, and the manager may be left with None. *)
Theorem C82_refuted : exists (l : list nat) size num_parts (ms : list (nat * mesh nat unit nat)) sent,
  num_parts <= size /\ Forall (fun p => p < num_parts) l /\ length l = sum (map nelements ex_groups) /\
  partition_mesh ex_garbage (Some ex_vs) ex_groups (Ok ex_fags) (Some true) (membership_list_to_map l) None = Ok ms /\
  send_mesh_parts size 0 num_parts ms = Ok (None, sent) /\ exists r, 0 < r < num_parts /\ ~ In r (map fst sent).
Proof.
  exists [3; 1; 3], 4, 4. eexists. eexists. split; [lia|]. split; [repeat constructor|]. split; [reflexivity|]. split; [vm_compute; reflexivity|]. split; [vm_compute; reflexivity|]. exists 2. split; [lia|]. cbn. intuition discriminate.
Qed.
Print Assumptions C82_sends.
Print Assumptions C82_refuted.
Example ex_send : send_mesh_parts 4 3 4 [(1, 10); (3, 30)] = Ok (Some 30, [(1, 10)]).
Proof. reflexivity. Qed.
