(** * FdValProofs: proofs about the validation by Firedrake connections. *)
From Coq Require Import List Arith Bool Lia Sorted.
From Verif Require Import Np NpFacts Lin ModalModel FactoryModel ConsistModel ConsistProofs DofModel DofProofs FdConnModel FdConnSpec FdConnFromProofs FdValModel FdFactoryModel FdValSpec.
Import ListNotations.

Lemma foldM_unit {A} (f : A -> res unit) l : foldM (fun _ e => f e) l tt = Ok tt <-> Forall (fun e => f e = Ok tt) l.
Proof.
  induction l as [|a l IH]; [split; [constructor|reflexivity]|]. cbn [foldM]. destruct (f a) as [[]|e] eqn:E; cbn [bind].
  - rewrite IH. split; [intros H; constructor; auto|intros H; now inversion H].
  - split; [discriminate|]. intros H. inversion H. congruence.
Qed.
Lemma foldM_unit_err {A} (f : A -> res unit) l e : foldM (fun _ x => f x) l tt = Err e -> exists x, In x l /\ f x = Err e.
Proof.
  induction l as [|a l IH]; [discriminate|]. cbn [foldM]. destruct (f a) as [[]|e'] eqn:E; cbn [bind].
  - intros H. destruct (IH H) as (x & Hx & Hf). exists x. split; [now right|exact Hf].
  - intros H. injection H as ->. exists a. split; [now left|exact E].
Qed.
Lemma single_valued_iff l x : single_valued l = Ok x <-> l <> [] /\ Forall (fun y => y = x) l.
Proof.
  destruct l as [|y l]; cbn [single_valued]; [split; [discriminate|now intros ([] & _)]|].
  destruct (forallb (Nat.eqb y) l) eqn:E; cbn [guard bind].
  - rewrite forallb_forall in E. split.
    + intros H. injection H as ->. split; [discriminate|]. constructor; [reflexivity|]. apply Forall_forall. intros z Hz. apply E, Nat.eqb_eq in Hz. auto.
    + intros (_ & H). inversion H. congruence.
  - split; [discriminate|]. intros (_ & H). inversion H as [|? ? Hy Hl]; subst. assert (forallb (Nat.eqb x) l = true); [|congruence].
    apply forallb_forall. intros z Hz. apply Nat.eqb_eq. rewrite Forall_forall in Hl. symmetry. auto.
Qed.

Lemma validate_function_iff c f shape dtype : validate_function c f shape dtype = Ok tt <-> function_fits c shape dtype f.
Proof.
  unfold function_fits. assert (H : forall s dt,
    (_ <- guard (sp_family s =? fc_family c) ValueError ;; _ <- guard (sp_degree s =? fc_degree c) ValueError ;;
     _ <- guard (sp_mesh s =? fc_mesh c) ValueError ;; _ <- guard (match dtype with Some d => dt =? d | None => true end) ValueError ;;
     guard (match shape with Some sh => list_nat_eqb (sp_shape s) sh | None => true end) ValueError) = Ok tt <->
    (sp_family s = fc_family c /\ sp_degree s = fc_degree c /\ sp_mesh s = fc_mesh c /\ (shape = None \/ shape = Some (sp_shape s)) /\ (dtype = None \/ dtype = Some dt))).
  { intros s dt. rewrite !guard_bind, guard_tt, !Nat.eqb_eq.
    assert (E1 : (match dtype with Some d => dt =? d | None => true end) = true <-> (dtype = None \/ dtype = Some dt)).
    { destruct dtype as [d|]; [rewrite Nat.eqb_eq|tauto]. split; [intros ->; auto|intros [?|H]; congruence]. }
    assert (E2 : (match shape with Some sh => list_nat_eqb (sp_shape s) sh | None => true end) = true <-> (shape = None \/ shape = Some (sp_shape s))).
    { destruct shape as [sh|]; [rewrite list_nat_eqb_iff|tauto]. split; [intros <-; auto|intros [?|E]; congruence]. }
    rewrite E1, E2. tauto. }
  destruct f as [s dt|s dt|]; cbn [validate_function].
  - rewrite H. split; [intros K; exists s, dt; tauto|]. intros (s' & dt' & [E|E] & K); [injection E as <- <-; exact K|discriminate].
  - rewrite H. split; [intros K; exists s, dt; tauto|]. intros (s' & dt' & [E|E] & K); [discriminate|injection E as <- <-; exact K].
  - split; [discriminate|]. intros (s' & dt' & [E|E] & K); discriminate.
Qed.

Section Fields.
  Variable R : cring.

  Lemma check_dof_array_iff c dtype (d : darr R) : check_dof_array R c dtype (EDof d) = Ok tt <-> array_fits c dtype d.
  Proof.
    unfold array_fits. cbn [check_dof_array]. rewrite !guard_bind, Nat.eqb_eq.
    assert (E0 : (match da_actx d with Some _ => true | None => false end) = true <-> da_actx d <> None).
    { destruct (da_actx d); split; congruence. }
    rewrite E0. split.
    - intros (H1 & H2 & H3). split; [exact H1|]. split; [exact H2|].
      apply bind_ok in H3 as (a & Ha & H3). apply bind_ok in H3 as ((nel, n) & Hg & H3). cbn [fst snd] in H3. apply guard_bind in H3 as (Hs & H3).
      apply list_nat_eqb_iff in Hs. apply get_ok in Ha. apply get_ok in Hg. split; [exists a, nel, n; auto|].
      intros dt ->. apply bind_ok in H3 as (own & Ho & H3). apply guard_tt, Nat.eqb_eq in H3. subst own. unfold entry_dtype in Ho. apply single_valued_iff in Ho as (_ & Ho).
      now apply Forall_map in Ho.
    - intros (H1 & H2 & (a & nel & n & Ha & Hg & Hs) & H4). split; [exact H1|]. split; [exact H2|].
      pose proof (proj2 (get_ok _ _ _) Ha) as Ha'. pose proof (proj2 (get_ok _ _ _) Hg) as Hg'. rewrite Ha', Hg'. cbn [bind fst snd].
      rewrite guard_bind, list_nat_eqb_iff. split; [exact Hs|]. destruct dtype as [dt|]; [|reflexivity].
      assert (Ho : entry_dtype R d = Ok dt).
      { unfold entry_dtype. apply single_valued_iff. split; [destruct (da_groups d); [now destruct (fc_nr c)|discriminate]|]. apply Forall_map, H4. reflexivity. }
      rewrite Ho. cbn [bind]. apply guard_tt, Nat.eqb_refl.
  Qed.

  Lemma validate_field_iff c (f : pyfield R) shape dtype : validate_field R c f shape dtype = Ok tt <-> field_fits c shape dtype f.
  Proof.
    destruct f as [d|s es| |]; cbn [validate_field field_fits]; try (split; [discriminate|tauto]).
    - rewrite guard_bind, check_dof_array_iff. destruct shape as [[|? ?]|]; split; intros (H1 & H2); (split; [|exact H2]); auto; try discriminate. destruct H1; discriminate.
    - rewrite guard_bind, foldM_unit.
      assert (E2 : (match shape with Some sh => list_nat_eqb s sh | None => true end) = true <-> (shape = None \/ shape = Some s)).
      { destruct shape as [sh|]; [rewrite list_nat_eqb_iff|tauto]. split; [intros <-; auto|intros [?|E]; congruence]. }
      rewrite E2. assert (E3 : Forall (fun e => check_dof_array R c dtype e = Ok tt) es <-> Forall (fun e => exists d, e = EDof d /\ array_fits c dtype d) es).
      { split; apply Forall_impl; intros e.
        - destruct e as [d|]; [|discriminate]. intros H. exists d. split; [reflexivity|]. now apply check_dof_array_iff.
        - intros (d & -> & H). now apply check_dof_array_iff. }
      rewrite E3. tauto.
  Qed.

  (** *** Errors *)
  Lemma check_dof_array_err c dtype (e : entry R) x : fc_nr c < length (fc_groups c) -> check_dof_array R c dtype e = Err x ->
    (x = TypeError /\ e = EOther) \/ (x = ValueError /\ e <> EOther) \/
    (x = AssertionError /\ dtype <> None /\ exists d, e = EDof d /\ array_fits c None d /\ forall dt, ~ Forall (fun a => ga_dtype a = dt) (da_groups d)).
  Proof.
    intros Hnr. destruct e as [d|]; cbn [check_dof_array]; [|intros H; injection H as <-; auto]. intros H. right.
    destruct (da_actx d) as [a0|] eqn:Ea; cbn [guard bind] in H; [|injection H as <-; left; split; congruence].
    destruct (length (da_groups d) =? length (fc_groups c)) eqn:El; cbn [guard bind] in H; [|injection H as <-; left; split; congruence].
    apply Nat.eqb_eq in El. destruct (get_total (da_groups d) (fc_nr c)) as (a & Ha); [lia|]. destruct (get_total (fc_groups c) (fc_nr c) Hnr) as ((nel, n) & Hg).
    rewrite Ha, Hg in H. cbn [bind fst snd] in H. destruct (list_nat_eqb (ga_shape a) [nel; n]) eqn:Es; cbn [guard bind] in H; [|injection H as <-; left; split; congruence].
    destruct dtype as [dt|]; [|discriminate]. destruct (entry_dtype R d) as [own|x'] eqn:Eo; cbn [bind] in H.
    - left. unfold guard in H. destruct (own =? dt); [discriminate|]. injection H as <-. split; congruence.
    - right. injection H as ->. unfold entry_dtype in Eo. assert (x = AssertionError).
      { destruct (da_groups d) as [|g gs]; [cbn in El; lia|]. cbn [map single_valued] in Eo. unfold guard in Eo. destruct (forallb _ _); cbn [bind] in Eo; congruence. }
      split; [assumption|]. split; [discriminate|]. exists d. split; [reflexivity|]. split.
      + split; [congruence|]. split; [exact El|]. split; [|intros ? ?; discriminate]. exists a, nel, n. split; [now apply get_ok|]. split; [now apply get_ok|]. now apply list_nat_eqb_iff.
      + intros dt' HF. assert (K : single_valued (map ga_dtype (da_groups d)) = Ok dt'); [|congruence].
        apply single_valued_iff. split; [destruct (da_groups d); [cbn in El; lia|discriminate]|]. now apply Forall_map.
  Qed.

  (** *** Functions made by the connection *)
  Lemma fspace_made c s : firedrake_fspace c (shape_arg s) = Ok (mk_space (fc_family c) (fc_degree c) (fc_mesh c) s).
  Proof. destruct s as [|n [|? ?]]; reflexivity. Qed.

  Lemma made_fits c s dt : function_fits c (Some s) None (PFunction (mk_space (fc_family c) (fc_degree c) (fc_mesh c) s) dt).
  Proof. exists (mk_space (fc_family c) (fc_degree c) (fc_mesh c) s), dt. cbn. auto 10. Qed.

  (** *** Storing *)
  Lemma store_all_exn debug c mm2fd mapping data (es : list (entry R)) data' x : store_all R debug c mm2fd mapping data es = (data', Some x) ->
    length es = length data -> exists d e, In e es /\ In d data /\ store_component R debug c mm2fd mapping d e = Err x.
  Proof.
    revert data data'. induction es as [|e es IH]; intros [|d data] data' H Hl; cbn [store_all length] in *; try discriminate; try lia.
    destruct (store_component R debug c mm2fd mapping d e) as [d'|x'] eqn:E.
    - destruct (store_all R debug c mm2fd mapping data es) as (data'', x'') eqn:E2. injection H as <- ->. destruct (IH _ _ E2) as (d0 & e0 & H1 & H2 & H3); [lia|].
      exists d0, e0. split; [now right|]. split; [now right|exact H3].
    - injection H as <- <-. exists d, e. split; [now left|]. split; [now left|exact E].
  Qed.

  Lemma store_component_ok (debug : bool) c mm2fd mapping nnodes d (arr : darr R) :
    conn_true c mm2fd mapping nnodes -> length d = nnodes -> array_fits c None arr -> array_true arr ->
    (debug = true -> Forall2 (fun g a => ga_shape a = [fst g; snd g]) (fc_groups c) (da_groups arr)) ->
    exists d', store_component R debug c mm2fd mapping d (EDof arr) = Ok d' /\ length d' = nnodes /\
      has_values c mm2fd mapping (EDof arr) d' /\ forall k, ~ In k (concat mapping) -> nth_error d' k = nth_error d k.
  Proof.
    intros (nel & n & Hg & Hm & Hl & Hp) Hd (Ha & Hlen & (a & nel' & n' & Haa & Hg' & Hs) & _) Ht Hdb. assert (nel' = nel /\ n' = n) as (-> & ->) by (rewrite Hg in Hg'; now injection Hg').
    unfold store_component.
    assert (Hchk : (if debug then check_dofarray (fc_groups c) (Some (map ga_shape (da_groups arr))) else Ok tt) = Ok tt).
    { destruct debug; [|reflexivity]. apply check_iff. specialize (Hdb eq_refl). clear - Hdb. induction Hdb; cbn [map]; constructor; auto. }
    rewrite Hchk. cbn [bind]. destruct (da_actx arr) as [ac|]; [|congruence]. cbn [guard bind]. rewrite (proj2 (get_ok _ _ _) Haa). cbn [bind].
    unfold array_true in Ht. rewrite Forall_forall in Ht. specialize (Ht a (nth_error_In _ _ Haa) nel n Hs).
    subst nnodes. destruct (store_group n mm2fd mapping d (ga_data a)) as (d' & E & L & N & S); [exact Hp|exact Hl|now rewrite Hm|].
    exists d'. split; [exact E|]. split; [exact L|]. split; [|exact N]. exists arr, a. auto.
  Qed.

  Lemma store_all_ok (debug : bool) c mm2fd mapping nnodes data (es : list (entry R)) :
    conn_true c mm2fd mapping nnodes -> length es = length data -> Forall (fun d => length d = nnodes) data ->
    Forall (fun e => exists d, e = EDof d /\ array_fits c None d /\ array_true d /\
      (debug = true -> Forall2 (fun g a => ga_shape a = [fst g; snd g]) (fc_groups c) (da_groups d))) es ->
    exists data', store_all R debug c mm2fd mapping data es = (data', None) /\ length data' = length data /\ Forall (fun d => length d = nnodes) data' /\
      Forall2 (has_values c mm2fd mapping) es data' /\ Forall2 (fun d d' => forall k, ~ In k (concat mapping) -> nth_error d' k = nth_error d k) data data'.
  Proof.
    intros Hc. revert data. induction es as [|e es IH]; intros [|d data] Hl Hd He; cbn [length] in Hl; try lia; cbn [store_all].
    - exists []. repeat split; constructor.
    - inversion Hd as [|? ? Hd1 Hd2]; subst. inversion He as [|? ? (arr & -> & H1 & H2 & H3) He']; subst.
      destruct (store_component_ok debug c mm2fd mapping _ d arr Hc eq_refl H1 H2 H3) as (d' & E & L & V & N). rewrite E.
      destruct (IH data ltac:(lia) Hd2 He') as (data' & E' & L' & F' & V' & N'). rewrite E'. exists (d' :: data'). cbn [length]. rewrite L'.
      split; [reflexivity|]. split; [reflexivity|]. split; [now constructor|]. split; now constructor.
  Qed.

  Lemma one_group_matches c (d : darr R) : length (fc_groups c) = 1 -> array_fits c None d -> Forall2 (fun g a => ga_shape a = [fst g; snd g]) (fc_groups c) (da_groups d).
  Proof.
    intros H1 (_ & Hl & (a & nel & n & Ha & Hg & Hs) & _). destruct (fc_groups c) as [|g [|? ?]]; cbn [length] in H1; try lia. cbn [length] in Hl.
    destruct (da_groups d) as [|a' [|? ?]]; cbn [length] in Hl; try lia. destruct (fc_nr c) as [|[|k]]; cbn in Ha, Hg; try discriminate.
    injection Ha as <-. injection Hg as ->. constructor; [exact Hs|constructor].
  Qed.

  Theorem stored (debug : bool) c mm2fd mapping nnodes new_dtype (f : pyfield R) out :
    conn_true c mm2fd mapping nnodes -> field_true f -> (forall fn data, out = Some (fn, data) -> data_true nnodes fn data) ->
    (forall s es, f = PObj s es -> s <> []) ->
    (debug = true -> Forall (fun e => forall d, e = EDof d -> array_fits c None d -> Forall2 (fun g a => ga_shape a = [fst g; snd g]) (fc_groups c) (da_groups d)) (components f)) ->
    field_fits c None None f -> (forall fn data, out = Some (fn, data) -> function_fits c (Some (field_shape R f)) None fn) ->
    exists fn data', from_meshmode R debug c mm2fd mapping nnodes new_dtype f out = (Some fn, data', None) /\
      (forall fn0 data, out = Some (fn0, data) -> fn = fn0 /\ Forall2 (fun d d' => forall k, ~ In k (concat mapping) -> nth_error d' k = nth_error d k) data data') /\
      (out = None -> fn = PFunction (mk_space (fc_family c) (fc_degree c) (fc_mesh c) (field_shape R f)) new_dtype /\
         Forall (fun d' => forall k, k < nnodes -> ~ In k (concat mapping) -> nth_error d' k = Some r0) data') /\
      function_fits c (Some (field_shape R f)) None fn /\ data_true nnodes fn data' /\ Forall2 (has_values c mm2fd mapping) (components f) data'.
  Proof.
    intros Hc Hf Ho Hs Hdb Hfit Hout. unfold from_meshmode. rewrite (proj2 (validate_field_iff c f None None) Hfit).
    set (ncomp := fold_right Nat.mul 1 (field_shape R f)).
    set (es := match f with PDof d => [EDof d] | PObj [] _ => [EOther] | PObj _ es => es | _ => [] end).
    assert (Ees : es = components f). { unfold es. destruct f as [d|[|? ?] es0| |]; try reflexivity. exfalso. exact (Hs _ _ eq_refl eq_refl). }
    assert (Hes : Forall (fun e => exists d, e = EDof d /\ array_fits c None d /\ array_true d /\
      (debug = true -> Forall2 (fun g a => ga_shape a = [fst g; snd g]) (fc_groups c) (da_groups d))) es).
    { rewrite Ees. destruct f as [d|s es0| |]; cbn [components field_fits field_true] in *; try tauto.
      - constructor; [|constructor]. exists d. destruct Hfit as (_ & Hfit). repeat split; try apply Hfit; auto.
        intros H. specialize (Hdb H). inversion Hdb; auto.
      - destruct Hfit as (_ & Hfit). destruct Hf as (_ & Hf). rewrite Forall_forall in Hfit, Hf. apply Forall_forall. intros e He. destruct (Hfit e He) as (d & -> & Hd). exists d. repeat split; try apply Hd.
        + exact (Hf _ He).
        + intros H. specialize (Hdb H). rewrite Forall_forall in Hdb. exact (Hdb _ He d eq_refl Hd). }
    assert (Hlen : length es = ncomp).
    { rewrite Ees. unfold ncomp. destruct f as [d|s es0| |]; cbn [components field_shape field_true field_fits fold_right length] in *; try tauto; reflexivity. }
    destruct out as [(fn, data)|].
    - rewrite (proj2 (validate_function_iff c fn (Some (field_shape R f)) None) (Hout _ _ eq_refl)). cbn [bind].
      destruct (Ho _ _ eq_refl) as (HL & HD).
      assert (Hld : length data = ncomp).
      { destruct (Hout _ _ eq_refl) as (s & dt & [->| ->] & _ & _ & _ & [H|H] & _); try discriminate; injection H as H; unfold ncomp; rewrite H; exact HL. }
      destruct (store_all_ok debug c mm2fd mapping nnodes data es Hc ltac:(lia) HD Hes) as (data' & E & L & F & V & N). fold es. rewrite E.
      exists fn, data'. split; [reflexivity|]. split; [intros fn0 data0 H; injection H as <- <-; auto|]. split; [discriminate|]. split; [now apply (Hout fn data)|].
      split; [|now rewrite <- Ees]. split; [|exact F]. destruct fn as [s dt|s dt|]; [now rewrite L|now rewrite L|exact I].
    - rewrite fspace_made. cbn [bind]. fold ncomp.
      assert (HD : Forall (fun d => length d = nnodes) (repeat (Lin.zeros (R := R) nnodes) ncomp)).
      { apply Forall_forall. intros d Hd. apply repeat_spec in Hd. subst d. apply repeat_length. }
      destruct (store_all_ok debug c mm2fd mapping nnodes _ es Hc ltac:(rewrite repeat_length; exact Hlen) HD Hes) as (data' & E & L & F & V & N). fold es. rewrite E.
      eexists _, data'. split; [reflexivity|]. split; [discriminate|]. split.
      { intros _. split; [reflexivity|]. apply Forall_forall. intros d' Hd' k Hk Hn. destruct (Forall2_In_r _ _ _ _ N Hd') as (d & Hd & HH). apply repeat_spec in Hd. subst d.
        rewrite (HH k Hn). unfold Lin.zeros. now apply nth_error_repeat. }
      split; [apply made_fits|]. split; [|now rewrite <- Ees]. split; [|exact F]. cbn [sp_shape]. rewrite L, repeat_length. reflexivity.
  Qed.

  Theorem unchanged (debug : bool) c mm2fd mapping nnodes new_dtype (f : pyfield R) fn data fn' data' x :
    conn_true c mm2fd mapping nnodes -> field_true f -> data_true nnodes fn data -> (forall s es, f = PObj s es -> s <> []) ->
    debug = false \/ length (fc_groups c) = 1 ->
    from_meshmode R debug c mm2fd mapping nnodes new_dtype f (Some (fn, data)) = (fn', data', Some x) -> data' = data /\ fn' = None.
  Proof.
    intros Hc Hf Hd Hs Hdb H. destruct (validate_field R c f None None) as [[]|x0] eqn:Ev.
    - destruct (validate_function c fn (Some (field_shape R f)) None) as [[]|x1] eqn:Ew.
      + exfalso. apply validate_field_iff in Ev. apply validate_function_iff in Ew.
        destruct (stored debug c mm2fd mapping nnodes new_dtype f (Some (fn, data))) as (fn1 & data1 & E & _); auto.
        * intros fn0 data0 E. injection E as <- <-. exact Hd.
        * intros Hdeb. apply Forall_forall. intros e _ d -> Hfit. apply one_group_matches; [|exact Hfit]. destruct Hdb; [congruence|assumption].
        * intros fn0 data0 E. injection E as <- <-. exact Ew.
        * rewrite E in H. discriminate.
      + unfold from_meshmode in H. rewrite Ev, Ew in H. cbn [bind] in H. injection H as <- <- _. auto.
    - unfold from_meshmode in H. rewrite Ev in H. injection H as <- <- _. auto.
  Qed.
End Fields.

(** ** Cells *)
Lemma cells_exact (bn : list nat) nodes i : In i (where_ (map (fun cell => existsb (fun n => memb n bn) cell) nodes)) <-> exists ns n, nth_error nodes i = Some ns /\ In n ns /\ In n bn.
Proof.
  rewrite In_where_, nth_error_map. destruct (nth_error nodes i) as [ns|]; cbn [option_map].
  - split.
    + intros H. injection H as H. apply existsb_exists in H as (n & Hn & Hb). apply memb_In in Hb. eauto.
    + intros (ns' & n & E & Hn & Hb). injection E as <-. f_equal. apply existsb_exists. exists n. split; [exact Hn|now apply memb_In].
  - split; [discriminate|]. intros (? & ? & ? & _). discriminate.
Qed.

Lemma cells_touch x bn i : cells_true x -> continuous x -> facet_nodes x bn ->
  (exists ns n, nth_error (fx_nodes x) i = Some ns /\ In n ns /\ In n bn) <-> touches x i.
Proof.
  intros (H1 & H2) Hc Hb. split.
  - intros (ns & n & Hns & Hn & Hin). apply Hb in Hin as (f & ns' & Hf & _ & _ & Hincl).
    destruct (Forall2_nth_error_r _ _ _ _ _ H1 Hns) as (vs & Hvs & Hok & _). rewrite Forall_forall in Hok. destruct (Hok n Hn) as (Hne & Hin).
    destruct (fx_entity x n) as [|v l] eqn:E; [congruence|]. exists vs, v, f. split; [exact Hvs|]. split; [apply Hin; now left|]. split; [exact Hf|apply Hincl; now left].
  - intros (vs & v & f & Hvs & Hv & Hf & Hvf). destruct (Forall2_nth_error _ _ _ _ _ H1 Hvs) as (ns & Hns & _ & Hver). destruct (Hver v Hv) as (n & Hn & En).
    rewrite Forall_forall in H2. destruct (H2 f Hf) as (vs' & Hvs' & Hincl). destruct (Forall2_nth_error _ _ _ _ _ H1 Hvs') as (ns' & Hns' & _ & Hver').
    destruct (Hver' v (Hincl v Hvf)) as (n' & Hn' & En').
    assert (n = n'). { apply (Hc n n' v); auto; apply in_concat; eauto using nth_error_In. } subst n'.
    exists ns, n. split; [exact Hns|]. split; [exact Hn|]. apply Hb. exists f, ns'. split; [exact Hf|]. split; [exact Hns'|]. split; [exact Hn'|]. rewrite En. intros w [<-|[]]. exact Hvf.
Qed.

(** ** Markers and factories *)
Lemma validate_bdy_iff ids b : validate_bdy ids b = Ok tt <-> marker_valid ids b.
Proof.
  destruct b as [n|l|ok|]; cbn [validate_bdy marker_valid].
  - rewrite guard_tt. apply memb_In.
  - rewrite (foldM_unit (fun t => match t with TInt n => guard (memb n ids) ValueError | TOther => Err TypeError end)). split; apply Forall_impl; intros t.
    + destruct t as [n|]; [|discriminate]. intros H. apply guard_tt, memb_In in H. eauto.
    + intros (n & -> & H). now apply guard_tt, memb_In.
  - apply guard_tt.
  - split; [discriminate|tauto].
Qed.

Section Accept.
  Context {R : cring} {P : Type}.
  Variable have_rn : bool.

  Lemma accepted_factory dim degree (f : facarg R P) fac mg o : check_factory have_rn dim degree f = Ok fac -> (forall gc, f <> FaCallable (FClass gc)) ->
    fac mg = Ok o -> interpolatory_on mg o.
  Proof.
    intros H Hc Ho. destruct f as [| |d]; cbn [check_factory] in H; try discriminate.
    - unfold default_simplex in H. unfold recursive_factory, homogeneous in H.
      destruct have_rn; [|destruct (dim <=? 2); [|destruct (dim =? 3); [|discriminate]]]; injection H as <-; apply guard_bind in Ho as (_ & Ho);
        cbn [construct] in Ho; injection Ho as <-; eexists; repeat split.
    - destruct (group_class_attr d) as [gc|] eqn:Eg; [|discriminate]. apply guard_bind in H as (Hi & H). injection H as <-.
      destruct d; cbn [group_class_attr] in Eg; try discriminate; injection Eg as <-; cbn [call_factory] in Ho.
      + unfold homogeneous in Ho. apply guard_bind in Ho as (_ & Ho). destruct gc0; cbn in Ho, Hi; try discriminate; injection Ho as <-; eexists; repeat split.
      + unfold recursive_factory in Ho. apply guard_bind in Ho as (_ & Ho). injection Ho as <-. eexists; repeat split.
      + exfalso. exact (Hc _ eq_refl).
  Qed.
End Accept.
