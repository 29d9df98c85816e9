(** * FdValProps: theorems about the validation by Firedrake connections (C192-C199). *)
From Coq Require Import List Arith Bool ZArith Lia Sorted.
From Verif Require Import Np NpFacts Lin ModalModel FactoryModel FactorySpec FdConnModel FdConnSpec FdValModel FdFactoryModel FdValSpec FdValProofs.
Import ListNotations.

(** ** C192: the validation accepts exactly what fits *)
Theorem C192_function c f shape dtype : validate_function c f shape dtype = Ok tt <-> function_fits c shape dtype f.
Proof. apply validate_function_iff. Qed.
Theorem C192_field (R : cring) c (f : pyfield R) shape dtype : validate_field R c f shape dtype = Ok tt <-> field_fits c shape dtype f.
Proof. apply validate_field_iff. Qed.
Theorem C192_function_errors c f shape dtype x : validate_function c f shape dtype = Err x -> (x = TypeError <-> f = PNotFunction) /\ (x = TypeError \/ x = ValueError).
Proof.
  destruct f as [s dt|s dt|]; cbn [validate_function]; unfold guard;
    [destruct (_ =? _); cbn [bind]; [destruct (_ =? _); cbn [bind]; [destruct (_ =? _); cbn [bind]; [destruct (match dtype with Some d => _ | None => _ end); cbn [bind]; [destruct (match shape with Some d => _ | None => _ end)|]|]|]|]..|];
    intros H; inversion H; subst; (split; [split; congruence|auto]).
Qed.
(** errors are TypeErrors and ValueErrors, except for DOF arrays with different dtypes *)
Theorem C192_field_errors (R : cring) c (f : pyfield R) shape dtype x : fc_nr c < length (fc_groups c) -> validate_field R c f shape dtype = Err x ->
  (x = TypeError /\ (f = PArray \/ f = PNotField \/ exists s es, f = PObj s es /\ In EOther es)) \/
  (x = ValueError /\ exists d s es, f = PDof d \/ f = PObj s es) \/
  (x = AssertionError /\ dtype <> None /\ exists d, In (EDof d) (components f) /\ forall dt, ~ Forall (fun a => ga_dtype a = dt) (da_groups d)).
Proof.
  intros Hnr. destruct f as [d|s es| |]; cbn [validate_field components].
  - destruct (match shape with Some (_ :: _) => false | _ => true end); cbn [guard bind]; intros H.
    + destruct (check_dof_array_err R c dtype (EDof d) x Hnr H) as [(_ & E)|[(-> & _)|(-> & Hd & d' & E & _ & Hn)]]; [discriminate| |].
      * right; left. split; [reflexivity|]. exists d, [], []. auto.
      * right; right. split; [reflexivity|]. split; [exact Hd|]. exists d'. split; [left; congruence|exact Hn].
    + injection H as <-. right; left. split; [reflexivity|]. exists d, [], []. auto.
  - destruct (match shape with Some sh => _ | None => true end); cbn [guard bind]; intros H.
    + apply foldM_unit_err in H as (e & He & H). destruct (check_dof_array_err R c dtype e x Hnr H) as [(-> & ->)|[(-> & _)|(-> & Hd & d' & -> & _ & Hn)]].
      * left. split; [reflexivity|]. right; right. eauto.
      * right; left. split; [reflexivity|]. exists (mk_darr None []), s, es. auto.
      * right; right. split; [reflexivity|]. split; [exact Hd|]. exists d'. auto.
    + injection H as <-. right; left. split; [reflexivity|]. exists (mk_darr None []), s, es. auto.
  - intros H. injection H as <-. left. auto.
  - intros H. injection H as <-. left. auto.
Qed.
Print Assumptions C192_function. Print Assumptions C192_field. Print Assumptions C192_function_errors. Print Assumptions C192_field_errors.

(** two elements with three nodes, degree 2, one group *)
Definition ex_conn : fconn := mk_fconn [(2, 3)] 0 7 2 4.
Definition ex_arr (rows : list (list Z)) : garr Zcring := mk_garr [2; 3] 1 (rows : list (list Zcring)).
Definition ex_dof (rows : list (list Z)) : darr Zcring := mk_darr (Some 0) [ex_arr rows].
Definition ex_rows : list (list Z) := [[1; 2; 3]; [4; 5; 6]]%Z.
Definition ex_field : pyfield Zcring := PObj [2] [EDof (ex_dof ex_rows); EDof (ex_dof [[7; 8; 9]; [10; 11; 12]]%Z)].
Definition ex_mapping : list (list nat) := [[0; 1; 2]; [5; 4; 3]].
Definition ex_mat : list (list Zcring) := [[1; 0; 0]; [0; 1; 0]; [0; 0; 1]]%Z.
Example C192_example : field_fits ex_conn None (Some 1) ex_field /\ validate_field Zcring ex_conn ex_field (Some [2]) (Some 1) = Ok tt /\
  validate_field Zcring ex_conn ex_field (Some [3]) None = Err ValueError /\
  validate_field Zcring ex_conn (PDof (mk_darr (Some 0) [mk_garr [3; 2] 1 []])) None None = Err ValueError /\
  validate_field Zcring (mk_fconn [(2, 3); (0, 1)] 0 7 2 4) (PDof (mk_darr (Some 0) [ex_arr ex_rows; mk_garr [0; 1] 2 []])) None (Some 1) = Err AssertionError.
Proof. split; [apply validate_field_iff; vm_compute; reflexivity|]. vm_compute. auto. Qed.

(** ** C193: from_meshmode without [out] makes a function of the space of the connection, with the values of the field; it can be given as [out] *)
Theorem C193_new (R : cring) (debug : bool) c mm2fd mapping nnodes new_dtype (f : pyfield R) :
  conn_true c mm2fd mapping nnodes -> field_true f -> field_fits c None None f -> (forall s es, f = PObj s es -> s <> []) ->
  (debug = true -> Forall (fun e => forall d, e = EDof d -> Forall2 (fun g a => ga_shape a = [fst g; snd g]) (fc_groups c) (da_groups d)) (components f)) ->
  exists s data, from_meshmode R debug c mm2fd mapping nnodes new_dtype f None = (Some (PFunction s new_dtype), data, None) /\
    sp_family s = fc_family c /\ sp_degree s = fc_degree c /\ sp_mesh s = fc_mesh c /\ sp_shape s = field_shape R f /\
    Forall2 (has_values c mm2fd mapping) (components f) data /\
    Forall (fun d => length d = nnodes /\ forall k, k < nnodes -> ~ In k (concat mapping) -> nth_error d k = Some r0) data /\
    validate_function c (PFunction s new_dtype) (Some (field_shape R f)) None = Ok tt /\
    exists data', from_meshmode R debug c mm2fd mapping nnodes new_dtype f (Some (PFunction s new_dtype, data)) = (Some (PFunction s new_dtype), data', None) /\
      Forall2 (has_values c mm2fd mapping) (components f) data'.
Proof.
  intros Hc Hf Hfit Hs Hdb.
  assert (Hdb' : debug = true -> Forall (fun e => forall d, e = EDof d -> array_fits c None d -> Forall2 (fun g a => ga_shape a = [fst g; snd g]) (fc_groups c) (da_groups d)) (components f)).
  { intros E. eapply Forall_impl; [|exact (Hdb E)]. cbn beta. auto. }
  destruct (stored R debug c mm2fd mapping nnodes new_dtype f None) as (fn & data & E & _ & H1 & H2 & H3 & H4); auto; try discriminate.
  destruct (H1 eq_refl) as (-> & H5). eexists _, data. split; [exact E|]. do 4 (split; [reflexivity|]). split; [exact H4|]. split.
  { destruct H3 as (_ & H3). rewrite Forall_forall in *. auto. }
  split; [now apply validate_function_iff|].
  destruct (stored R debug c mm2fd mapping nnodes new_dtype f (Some (PFunction (mk_space (fc_family c) (fc_degree c) (fc_mesh c) (field_shape R f)) new_dtype, data)))
    as (fn' & data' & E' & H6 & _ & _ & _ & H9); auto.
  - intros fn0 data0 E0. injection E0 as <- <-. exact H3.
  - intros fn0 data0 E0. injection E0 as <- <-. exact H2.
  - destruct (H6 _ _ eq_refl) as (-> & _). exists data'. auto.
Qed.
Print Assumptions C193_new.
Lemma ex_conn_true : conn_true ex_conn ex_mat ex_mapping 7.
Proof.
  exists 2, 3. split; [reflexivity|]. split; [reflexivity|]. split; [reflexivity|]. unfold proper_mapping, ex_mapping. cbn [concat app].
  split; [repeat constructor|]. split; [repeat (constructor; [cbn; lia|]); constructor|]. repeat (constructor; [lia|]). constructor.
Qed.
Ltac true_array := unfold array_true; cbn [da_groups ex_dof]; repeat (constructor; [cbn [ga_shape ga_data ex_arr]; intros ? ? H; injection H as <- <-; (split; [reflexivity|repeat constructor])|]); constructor.
Lemma ex_field_true : field_true ex_field.
Proof.
  split; [reflexivity|]. repeat (constructor; [true_array|]). constructor.
Qed.
Example C193_example : field_fits ex_conn None None ex_field /\
  from_meshmode Zcring true ex_conn ex_mat ex_mapping 7 1 ex_field None =
    (Some (PFunction (mk_space 7 2 4 [2]) 1), [[1; 2; 3; 6; 5; 4; 0]; [7; 8; 9; 12; 11; 10; 0]]%Z, None).
Proof. split; [apply validate_field_iff; vm_compute; reflexivity|vm_compute; reflexivity]. Qed.

(** ** C194: if from_meshmode raises, [out] is unchanged, for discretizations with one group (or without assertions) *)
Theorem C194_unchanged (R : cring) (debug : bool) c mm2fd mapping nnodes new_dtype (f : pyfield R) fn data fn' data' x :
  conn_true c mm2fd mapping nnodes -> field_true f -> data_true nnodes fn data -> (forall s es, f = PObj s es -> s <> []) ->
  debug = false \/ length (fc_groups c) = 1 ->
  from_meshmode R debug c mm2fd mapping nnodes new_dtype f (Some (fn, data)) = (fn', data', Some x) -> data' = data /\ fn' = None.
Proof. apply unchanged. Qed.
Theorem C194_stored (R : cring) (debug : bool) c mm2fd mapping nnodes new_dtype (f : pyfield R) fn data :
  conn_true c mm2fd mapping nnodes -> field_true f -> data_true nnodes fn data -> (forall s es, f = PObj s es -> s <> []) ->
  debug = false \/ length (fc_groups c) = 1 -> field_fits c None None f -> function_fits c (Some (field_shape R f)) None fn ->
  exists data', from_meshmode R debug c mm2fd mapping nnodes new_dtype f (Some (fn, data)) = (Some fn, data', None) /\
    Forall2 (has_values c mm2fd mapping) (components f) data' /\
    Forall2 (fun d d' => forall k, ~ In k (concat mapping) -> nth_error d' k = nth_error d k) data data'.
Proof.
  intros Hc Hf Hd Hs Hdb Hfit Hfun. destruct (stored R debug c mm2fd mapping nnodes new_dtype f (Some (fn, data))) as (fn' & data' & E & H1 & _ & _ & _ & H4); auto.
  - intros fn0 data0 E. injection E as <- <-. exact Hd.
  - intros E. apply Forall_forall. intros e _ d -> H. apply one_group_matches; [|exact H]. destruct Hdb; [congruence|assumption].
  - intros fn0 data0 E. injection E as <- <-. exact Hfun.
  - destruct (H1 _ _ eq_refl) as (-> & H). exists data'. auto.
Qed.
Print Assumptions C194_unchanged. Print Assumptions C194_stored.
Definition ex_fun : pyfun := PFunction (mk_space 7 2 4 [2]) 1.
Definition ex_data : list (list Zcring) := [repeat 100%Z 7; repeat 200%Z 7].
Example C194_example : conn_true ex_conn ex_mat ex_mapping 7 /\ field_true ex_field /\ data_true 7 ex_fun ex_data /\ field_fits ex_conn None None ex_field /\
  function_fits ex_conn (Some [2]) None ex_fun /\
  from_meshmode Zcring true ex_conn ex_mat ex_mapping 7 1 ex_field (Some (ex_fun, ex_data)) = (Some ex_fun, [[1; 2; 3; 6; 5; 4; 100]; [7; 8; 9; 12; 11; 10; 200]]%Z, None) /\
  from_meshmode Zcring true ex_conn ex_mat ex_mapping 7 1 (PObj [2] [EDof (ex_dof ex_rows); EOther]) (Some (ex_fun, ex_data)) = (None, ex_data, Some TypeError).
Proof.
  split; [exact ex_conn_true|]. split; [exact ex_field_true|]. split; [split; [reflexivity|repeat constructor]|].
  split; [apply validate_field_iff; vm_compute; reflexivity|]. split; [apply validate_function_iff; vm_compute; reflexivity|]. split; vm_compute; reflexivity.
Qed.

(** ** C195 (refuted): a raising from_meshmode leaves [out] unchanged; valid fields are stored.  Only the array of the group of the connection is validated, the
    others are checked while components are stored.  Object arrays without axes pass the validation *)
Definition ex_conn2 : fconn := mk_fconn [(2, 3); (1, 1)] 0 7 2 4.
Definition ex_good : darr Zcring := mk_darr (Some 0) [ex_arr ex_rows; mk_garr [1; 1] 1 ([[5%Z]] : list (list Zcring))].
Definition ex_bad : darr Zcring := mk_darr (Some 0) [ex_arr ex_rows; mk_garr [1; 2] 1 ([[5%Z; 6%Z]] : list (list Zcring))].
Theorem C195_refuted : exists c mm2fd mapping nnodes (f : pyfield Zcring) fn data data',
  conn_true c mm2fd mapping nnodes /\ field_true f /\ data_true nnodes fn data /\ validate_field Zcring c f None None = Ok tt /\
  from_meshmode Zcring true c mm2fd mapping nnodes 1 f (Some (fn, data)) = (None, data', Some InconsistentDOFArray) /\ data' <> data.
Proof.
  exists ex_conn2, ex_mat, ex_mapping, 7, (PObj [2] [EDof ex_good; EDof ex_bad]), ex_fun, ex_data, [[1; 2; 3; 6; 5; 4; 100]; repeat 200 7]%Z.
  split. { destruct ex_conn_true as (nel & n & H1 & H). exists nel, n. auto. }
  split. { split; [reflexivity|]. repeat (constructor; [true_array|]). constructor. }
  split; [split; [reflexivity|repeat constructor]|]. split; [vm_compute; reflexivity|]. split; [vm_compute; reflexivity|]. vm_compute. discriminate.
Qed.
Theorem C195_no_axes_refuted : exists c mm2fd mapping nnodes (f : pyfield Zcring),
  conn_true c mm2fd mapping nnodes /\ length (fc_groups c) = 1 /\ field_true f /\ validate_field Zcring c f None None = Ok tt /\
  from_meshmode Zcring true c mm2fd mapping nnodes 1 f None = (None, [Lin.zeros (R := Zcring) nnodes], Some TypeError).
Proof.
  exists ex_conn, ex_mat, ex_mapping, 7, (PObj [] [EDof (ex_dof ex_rows)]). split; [exact ex_conn_true|]. split; [reflexivity|].
  split. { split; [reflexivity|]. repeat (constructor; [true_array|]). constructor. }
  split; vm_compute; reflexivity.
Qed.
Print Assumptions C195_refuted. Print Assumptions C195_no_axes_refuted.

(** ** C196: for continuous coordinates, the cells in use are those with a vertex on a marked facet *)
Theorem C196_cells x (boundary_nodes : bdyarg -> res (list nat)) b bn : cells_true x -> continuous x -> boundary_nodes b = Ok bn -> facet_nodes x bn ->
  exists cells, get_cells_to_use boundary_nodes (fx_nodes x) (Some b) = Ok (Some cells) /\ StronglySorted lt cells /\ forall i, In i cells <-> touches x i.
Proof.
  intros Hx Hc Hb Hf. cbn [get_cells_to_use]. rewrite Hb. cbn [bind]. eexists. split; [reflexivity|]. split; [apply where_incr|].
  intros i. rewrite cells_exact. now apply cells_touch.
Qed.
Theorem C196_all (boundary_nodes : bdyarg -> res (list nat)) nodes : get_cells_to_use boundary_nodes nodes None = Ok None.
Proof. reflexivity. Qed.
Print Assumptions C196_cells. Print Assumptions C196_all.
(** a strip of three triangles; the facet with vertices 0, 1 is marked; nodes at vertices and at the midpoints of the edges *)
Definition ex_entity (n : nat) : list nat :=
  match n with 5 => [0; 1] | 6 => [1; 2] | 7 => [0; 2] | 8 => [2; 3] | 9 => [1; 3] | 10 => [3; 4] | 11 => [2; 4] | n => [n] end.
Definition ex_cells : fdcells := mk_fdcells [[0; 1; 2]; [1; 2; 3]; [2; 3; 4]] [[0; 1; 2; 5; 6; 7]; [1; 2; 3; 6; 8; 9]; [2; 3; 4; 8; 10; 11]] ex_entity [(0, [0; 1])].
Definition ex_bn : list nat := [0; 1; 5].
Ltac node_goal := split; [cbn; discriminate|intros ? H; cbn in *; tauto].
Example C196_example : cells_true ex_cells /\ continuous ex_cells /\ facet_nodes ex_cells ex_bn /\
  get_cells_to_use (fun _ => Ok ex_bn) (fx_nodes ex_cells) (Some (BInt 1)) = Ok (Some [0; 1]).
Proof.
  split; [|split; [|split; [|vm_compute; reflexivity]]].
  - split.
    + repeat (constructor; [split; [repeat (constructor; [node_goal|]); constructor|intros v Hv; exists v; cbn in Hv |- *; intuition (subst; cbn; auto)]|]). constructor.
    + constructor; [|constructor]. exists [0; 1; 2]. split; [reflexivity|]. intros ? H; cbn in *; tauto.
  - intros n m v Hn Hm. cbn in Hn, Hm.
    repeat (destruct Hn as [<-|Hn]; [cbn [fx_entity ex_cells ex_entity]; intros E1; try discriminate; injection E1 as <-;
      repeat (destruct Hm as [<-|Hm]; [cbn [fx_entity ex_cells ex_entity]; intros E2; try discriminate; try reflexivity; try (injection E2; discriminate)|]); contradiction|]). contradiction.
  - intros n. split.
    + intros H. exists (0, [0; 1]), [0; 1; 2; 5; 6; 7]. cbn in H. split; [now left|]. split; [reflexivity|].
      destruct H as [<-|[<-|[<-|[]]]]; (split; [cbn; tauto|intros ? H; cbn in *; tauto]).
    + intros (f & ns & [<-|[]] & Hns & Hn & Hin). cbn in Hns. injection Hns as <-. cbn in Hn.
      repeat (destruct Hn as [<-|Hn]; [cbn; try tauto; exfalso; specialize (Hin 2); cbn in Hin; intuition discriminate|]). contradiction.
Qed.

(** ** C197 (refuted): the same for discontinuous coordinates (periodic meshes, for example): only cells of marked facets are found *)
Definition ex_dentity (n : nat) : list nat := match n with 3 => [1] | 4 => [2] | 5 => [3] | n => [n] end.
Definition ex_dcells : fdcells := mk_fdcells [[0; 1; 2]; [1; 2; 3]] [[0; 1; 2]; [3; 4; 5]] ex_dentity [(0, [0; 1])].
Theorem C197_refuted : exists x bn cells, cells_true x /\ facet_nodes x bn /\
  get_cells_to_use (fun _ : bdyarg => Ok bn) (fx_nodes x) (Some (BInt 1)) = Ok (Some cells) /\ exists i, touches x i /\ ~ In i cells.
Proof.
  exists ex_dcells, [0; 1], [0]. split; [|split; [|split; [vm_compute; reflexivity|]]].
  - split.
    + constructor; [|constructor; [|constructor]]; (split; [repeat (constructor; [node_goal|]); constructor|]).
      * intros v Hv. exists v. cbn in Hv |- *. intuition (subst; cbn; auto).
      * intros v Hv. exists (v + 2). cbn in Hv |- *. intuition (subst; cbn; auto).
    + constructor; [|constructor]. exists [0; 1; 2]. split; [reflexivity|]. intros ? H; cbn in *; tauto.
  - intros n. split.
    + intros H. exists (0, [0; 1]), [0; 1; 2]. cbn in H. split; [now left|]. split; [reflexivity|].
      destruct H as [<-|[<-|[]]]; (split; [cbn; tauto|intros ? H; cbn in *; tauto]).
    + intros (f & ns & [<-|[]] & Hns & Hn & Hin). cbn in Hns. injection Hns as <-. cbn in Hn.
      repeat (destruct Hn as [<-|Hn]; [cbn; try tauto; exfalso; specialize (Hin 2); cbn in Hin; intuition discriminate|]). contradiction.
  - exists 1. split; [|cbn; intuition discriminate]. exists [1; 2; 3], 1, (0, [0; 1]). cbn. intuition.
Qed.
Print Assumptions C197_refuted.

(** ** C198: a connection is made only for valid markers and with interpolatory element groups *)
Theorem C198_marker ids b : validate_bdy ids b = Ok tt <-> marker_valid ids b.
Proof. apply validate_bdy_iff. Qed.
Theorem C198_accepted (R : cring) (P : Type) have_rn is_space dg degree boundary_nodes nodes import (f : facarg R P) ids bdy cells groups :
  start_connection have_rn is_space dg degree boundary_nodes nodes import f ids bdy = Ok (cells, groups) -> (forall gc, f <> FaCallable (FClass gc)) ->
  is_space = true /\ dg = true /\ (forall b, bdy = Some b -> marker_valid ids b) /\
  exists dim mgs, import cells = Ok (dim, mgs) /\ Forall2 interpolatory_on mgs groups.
Proof.
  unfold start_connection. intros H Hc. apply ConsistProofs.guard_bind in H as (H1 & H). apply ConsistProofs.guard_bind in H as (H2 & H).
  apply bind_ok in H as (cells' & Hcells & H). apply bind_ok in H as ((dim, mgs) & Hm & H). apply bind_ok in H as (fac & Hfac & H).
  apply bind_ok in H as ([] & Hv & H). apply bind_ok in H as (groups' & Hg & H). injection H as <- <-. cbn [fst snd] in *.
  split; [exact H1|]. split; [exact H2|]. split.
  - intros b ->. now apply validate_bdy_iff.
  - exists dim, mgs. split; [exact Hm|]. apply mapM_ok in Hg. eapply Forall2_impl; [|exact Hg]. intros mg o Ho. cbn beta in Ho. eapply accepted_factory; eauto.
Qed.
Print Assumptions C198_marker. Print Assumptions C198_accepted.
Example C198_example : start_connection (R := Zcring) (P := nat) false true true 2 (fun _ => Ok ex_bn) (fx_nodes ex_cells)
    (fun cells => Ok (2, [mk_mgrp MSimplex 2 (match cells with Some l => length l | None => 3 end)])) (FaCallable (FRecursive 2 5)) [1; 2] (Some (BTuple [TInt 2; TInt 1])) =
  Ok (Some [0; 1], [OGroup (mk_egrp (mk_mgrp MSimplex 2 2) (mk_kind Zcring nat RecursiveNodes 2 2 5 [] []))]) /\
  marker_valid [1; 2] (BTuple [TInt 2; TInt 1]) /\ ~ marker_valid [1; 2] (BTuple [TInt 2; TOther]).
Proof.
  split; [vm_compute; reflexivity|]. split.
  - repeat (constructor; [eexists; split; [reflexivity|cbn; tauto]|]). constructor.
  - intros H. inversion H as [|? ? _ H']; subst. inversion H' as [|? ? (n & E & _) _]; subst. discriminate.
Qed.

(** ** C199 (refuted): factories of interpolatory groups are accepted, and what is accepted makes element groups *)
Theorem C199_refuted (R : cring) (P : Type) have_rn order degree dim (nodes : list P) :
  exists ds : list (fdesc R P),
    map (call_factory have_rn) ds = [edge_clustered have_rn order; interpolatory_quadrature order; equidistant order; given_factory order nodes] /\
    Forall (fun d => makes_interpolatory (call_factory have_rn d) /\ check_factory have_rn dim degree (FaCallable d) = Err AttributeError) ds.
Proof.
  exists [FMapping order [(MSimplex, ECallable (default_polynomial have_rn order)); (MTensor, EGroupClass LegendreGaussLobattoTP)];
          FMapping order [(MSimplex, EGroupClass InterpolatoryQuadratureSimplex); (MTensor, EGroupClass GaussLegendreTP)];
          FMapping order [(MSimplex, EGroupClass EquidistantSimplex); (MTensor, EGroupClass EquidistantTP)];
          FGiven order nodes].
  split; [reflexivity|]. repeat (constructor; [split; [|reflexivity]; intros (mc, d, n) Hm Hd; cbn [mg_class mg_dim] in Hm, Hd; subst mc|]); try constructor.
  - cbn [call_factory type_mapping find fst mclass_eqb mg_class]. unfold default_polynomial, default_simplex. cbn [mg_dim].
    destruct have_rn; [cbn; eexists; split; [reflexivity|eexists; repeat split]|].
    destruct (d <=? 2) eqn:E2; [cbn; eexists; split; [reflexivity|eexists; repeat split]|]. apply Nat.leb_gt in E2. assert (d = 3) by lia. subst d.
    cbn. eexists; split; [reflexivity|eexists; repeat split].
  - cbn. eexists; split; [reflexivity|eexists; repeat split].
  - cbn. eexists; split; [reflexivity|eexists; repeat split].
  - cbn. eexists; split; [reflexivity|eexists; repeat split].
Qed.
Theorem C199_class_refuted (R : cring) (P : Type) have_rn degree dim : exists (d : fdesc R P) fac, check_factory have_rn dim degree (FaCallable d) = Ok fac /\
  forall mg o, fac mg = Ok o -> ~ interpolatory_on mg o.
Proof. exists (FClass EquidistantSimplex), (fun _ => Ok OOther). split; [reflexivity|]. intros mg o H. injection H as <-. intros (g & E & _). discriminate. Qed.
Print Assumptions C199_refuted. Print Assumptions C199_class_refuted.
