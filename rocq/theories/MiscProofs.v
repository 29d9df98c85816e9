(** * MiscProofs: proofs for MiscProps. *)
From Coq Require Import List Arith Bool ZArith Lia.
From Verif Require Import Np NpFacts EqModel VisIoModel MiscModel MiscSpec.
Import ListNotations.

(** ** Keys *)
Section Keys.
  Variables (hc hs : nat -> Z) (hp : nat * nat -> Z).
  Context {X : Type}.
  Notation key := (same_key hc hs hp).

  Lemma tag_eq_plain a b : plain_tag a -> plain_tag b -> (tag_eq a b = true <-> a = b).
  Proof.
    destruct a, b; cbn; intros; subst; try (split; [discriminate|congruence]); rewrite Nat.eqb_eq; split; congruence.
  Qed.
  Lemma key_refl a : key a a = true.
  Proof. unfold same_key. rewrite Z.eqb_refl. destruct a; cbn; apply Nat.eqb_refl. Qed.
  Lemma key_eq_r a b c : key a b = true -> key b c = key a c.
  Proof.
    unfold same_key. intros H. apply andb_true_iff in H as (H1 & H2). apply Z.eqb_eq in H1. rewrite H1. f_equal.
    destruct a, b, c; cbn in *; try discriminate; try reflexivity; apply Nat.eqb_eq in H2; now subst.
  Qed.
  Lemma key_plain a b : plain_tag a -> plain_tag b -> key a b = tag_eq a b.
  Proof.
    intros Ha Hb. unfold same_key. destruct (tag_eq a b) eqn:E; [|apply andb_false_r]. apply tag_eq_plain in E; auto. subst. now rewrite Z.eqb_refl.
  Qed.
  Lemma key_sym a b : key a b = key b a.
  Proof. unfold same_key. rewrite Z.eqb_sym. f_equal. destruct a, b; cbn; auto; apply Nat.eqb_sym. Qed.

  Lemma get_set (d : list (tagobj * X)) k x j : tagdict_get hc hs hp (tagdict_set hc hs hp d k x) j = if key k j then Some x else tagdict_get hc hs hp d j.
  Proof.
    induction d as [|[a y] d IH]; cbn [tagdict_set tagdict_get]; [reflexivity|]. destruct (key a k) eqn:E; cbn [tagdict_get].
    - rewrite (key_eq_r a k j E). now destruct (key a j).
    - rewrite IH. destruct (key a j) eqn:Ej; [|reflexivity]. destruct (key k j) eqn:Ek; [|reflexivity].
      rewrite key_sym in Ek. rewrite (key_eq_r a j k Ej) in Ek. congruence.
  Qed.
End Keys.

(** ** Node numbers *)
Lemma total_app a b : total_nodes (a ++ b) = total_nodes a + total_nodes b.
Proof. unfold total_nodes. induction a as [|g a IH]; cbn [app fold_right]; [reflexivity|]. rewrite IH. lia. Qed.
Lemma sum_nnodes l : sum (map group_nnodes l) = total_nodes l.
Proof. unfold sum, total_nodes in *. induction l as [|g l IH]; cbn [map fold_right]; [reflexivity|]. now rewrite IH. Qed.
Lemma firstn_removelast {A} i (l : list A) : i < length l -> firstn i (removelast l) = firstn i l.
Proof.
  revert l. induction i as [|i IH]; intros [|x l] H; cbn [firstn length] in *; try reflexivity; try lia.
  destruct l as [|y l]; [cbn in H; lia|]. change (removelast (x :: y :: l)) with (x :: removelast (y :: l)). cbn [firstn]. f_equal. apply IH. cbn [length] in *. lia.
Qed.
Lemma removelast_length {A} (l : list A) : length (removelast l) = length l - 1.
Proof. induction l as [|x [|y l] IH]; [reflexivity|reflexivity|]. change (removelast (x :: y :: l)) with (x :: removelast (y :: l)). cbn [length] in *. lia. Qed.

Lemma base_node_nth groups i : i < length groups -> nth_error (base_node_nrs groups) i = Some (total_nodes (firstn i groups)).
Proof.
  intros H. unfold base_node_nrs, cumsum. rewrite cumsum_from_nth.
  - f_equal. change (firstn (S i) (0 :: ?l)) with (0 :: firstn i l). change (0 + sum (0 :: ?l)) with (sum l).
    rewrite firstn_map, sum_nnodes, firstn_removelast by exact H. reflexivity.
  - cbn [length]. rewrite map_length, removelast_length. lia.
Qed.
Lemma base_node_length groups : length (base_node_nrs groups) = Nat.max 1 (length groups).
Proof. unfold base_node_nrs, cumsum. rewrite cumsum_from_length. cbn [length]. rewrite map_length, removelast_length. lia. Qed.

Lemma node_number_exists groups : forall n, n < total_nodes groups -> exists i e j, node_number groups i e j n.
Proof.
  induction groups as [|(nel & nunit) groups IH]; intros n H; [cbn in H; lia|]. cbn [total_nodes fold_right fst snd] in H. fold (total_nodes groups) in H.
  destruct (Nat.lt_ge_cases n (nel * nunit)) as [Hn|Hn].
  - exists 0, (n / nunit), (n mod nunit). assert (nunit <> 0) by (intros ->; lia). exists nel, nunit. split; [reflexivity|].
    split; [apply Nat.div_lt_upper_bound; [assumption|lia]|]. split; [now apply Nat.mod_upper_bound|]. cbn. rewrite (Nat.div_mod n nunit) at 1 by assumption. lia.
  - destruct (IH (n - nel * nunit)) as (i & e & j & a & b & E & He & Hj & En); [lia|]. exists (S i), e, j, a, b. split; [exact E|]. split; [exact He|]. split; [exact Hj|].
    cbn [firstn fold_right fst snd]. lia.
Qed.
Lemma node_number_bound groups i e j n : node_number groups i e j n -> n < total_nodes groups.
Proof.
  revert i n. induction groups as [|(nel & nunit) groups IH]; intros i n (a & b & E & He & Hj & En); [now destruct i|].
  cbn [total_nodes fold_right fst snd]. fold (total_nodes groups). destruct i as [|i].
  - injection E as <- <-. cbn in En. subst n. assert (e * nunit + nunit <= nel * nunit); [|lia]. replace (e * nunit + nunit) with (S e * nunit) by lia. apply Nat.mul_le_mono_r. lia.
  - cbn [firstn fold_right fst snd] in En. assert (n - nel * nunit < total_nodes groups); [|lia]. apply (IH i). exists a, b. split; [exact E|]. split; [exact He|]. split; [exact Hj|]. lia.
Qed.
Lemma node_number_unique groups : forall i e j i' e' j' n, node_number groups i e j n -> node_number groups i' e' j' n -> (i, e, j) = (i', e', j').
Proof.
  assert (B : forall nel nunit e j, e < nel -> j < nunit -> e * nunit + j < nel * nunit).
  { intros. assert (e * nunit + nunit <= nel * nunit); [|lia]. replace (e * nunit + nunit) with (S e * nunit) by lia. apply Nat.mul_le_mono_r. lia. }
  induction groups as [|(nel & nunit) groups IH]; intros i e j i' e' j' n (a & b & E & He & Hj & En) (a' & b' & E' & He' & Hj' & En'); [now destruct i|].
  destruct i as [|i], i' as [|i']; cbn [nth_error firstn fold_right fst snd] in *.
  - injection E as <- <-. injection E' as <- <-. assert (Q : e * nunit + j = e' * nunit + j') by lia.
    assert (e = e').
    { rewrite (Nat.div_unique (e * nunit + j) nunit e j) by lia. symmetry. apply (Nat.div_unique _ nunit e' j'); lia. }
    subst. f_equal. lia.
  - injection E as <- <-. specialize (B _ _ _ _ He Hj). lia.
  - injection E' as <- <-. specialize (B _ _ _ _ He' Hj'). lia.
  - assert (Q : (i, e, j) = (i', e', j')); [|congruence]. apply (IH _ _ _ _ _ _ (n - nel * nunit)).
    + exists a, b. repeat split; auto. lia.
    + exists a', b'. repeat split; auto. lia.
Qed.

(** ** Pictures *)
Section Curves.
  Context {X : Type}.

  Lemma transpose_spec ncols (rows : list (list X)) : Forall (fun r => length r = ncols) rows ->
    exists cols, transpose (mk_array2 ncols rows) = Ok (mk_array2 (length rows) cols) /\ length cols = ncols /\
      forall i row, nth_error rows i = Some row -> column (mk_array2 (length rows) cols) i = Ok row.
  Proof.
    intros H. rewrite Forall_forall in H.
    destruct (mapM_total (column (mk_array2 ncols rows)) (seq 0 ncols)) as (cols & E).
    { intros j Hj. apply in_seq in Hj. apply mapM_total. intros row Hr. apply get_total. cbn in Hr. rewrite (H row Hr). lia. }
    exists cols. unfold transpose. cbn [ar_ncols ar_rows]. rewrite E. split; [reflexivity|]. apply mapM_ok in E.
    assert (L : length cols = ncols) by (rewrite <- (Forall2_length' _ _ _ E); apply seq_length). split; [exact L|].
    intros i row Hi. unfold column. cbn [ar_rows]. apply mapM_ok. apply Forall2_intro_nth.
    - rewrite L. symmetry. apply H. eapply nth_error_In, Hi.
    - intros j c x Hc Hx. destruct (Forall2_nth_error_r _ _ _ j c E Hc) as (j' & Hj & Ec).
      assert (j' = j).
      { assert (j < ncols) by (rewrite <- L; apply nth_error_Some; congruence). rewrite (nth_error_nth' _ 0) in Hj by (rewrite seq_length; lia).
        rewrite seq_nth in Hj by lia. injection Hj as <-. lia. }
      subst j'. unfold column in Ec. cbn [ar_rows] in Ec. apply mapM_ok in Ec. destruct (Forall2_nth_error _ _ _ i row Ec Hi) as (y & Hy & Gy).
      apply get_ok. apply get_ok in Gy. congruence.
  Qed.

  Lemma group_lines_spec (nodes : list (array2 X)) : group_ok nodes -> exists lines, group_lines nodes = Ok lines /\ lines_of nodes lines.
  Proof.
    intros (x & y & rest & nunit & rx & ry & -> & -> & -> & L & Hx & Hy). unfold group_lines. cbn [get nth_error bind].
    destruct (transpose_spec nunit rx Hx) as (cx & Ex & Lx & Cx). destruct (transpose_spec nunit ry Hy) as (cy & Ey & Ly & Cy).
    rewrite Ex, Ey. cbn [bind]. unfold plot. cbn [ar_ncols ar_rows]. rewrite L, Lx, Ly, !Nat.eqb_refl. cbn [andb guard bind].
    rewrite L in Cx.
    destruct (mapM_total (fun j => cx0 <- column (mk_array2 (length ry) cx) j ;; cy0 <- column (mk_array2 (length ry) cy) j ;; Ok (combine cx0 cy0)) (seq 0 (length ry))) as (lines & E).
    { intros j Hj. apply in_seq in Hj. destruct (nth_error rx j) as [a|] eqn:Ea; [|apply nth_error_None in Ea; lia].
      destruct (nth_error ry j) as [b|] eqn:Eb; [|apply nth_error_None in Eb; lia]. rewrite (Cx _ _ Ea), (Cy _ _ Eb). cbn [bind]. eauto. }
    rewrite E. exists lines. split; [reflexivity|]. apply mapM_ok in E. exists (mk_array2 nunit rx), (mk_array2 nunit ry), rest. split; [reflexivity|]. cbn [ar_rows]. split.
    - rewrite <- (Forall2_length' _ _ _ E), seq_length. auto.
    - intros e xs ys line Ha Hb Hl. destruct (Forall2_nth_error_r _ _ _ e line E Hl) as (e' & He & El).
      assert (e' = e).
      { assert (e < length ry) by (apply nth_error_Some; congruence). rewrite (nth_error_nth' _ 0) in He by (rewrite seq_length; lia).
        rewrite seq_nth in He by lia. injection He as <-. lia. }
      subst e'. rewrite (Cx _ _ Ha), (Cy _ _ Hb) in El. cbn [bind] in El. now injection El as <-.
  Qed.

  (** ** Unit nodes *)
  Lemma transpose_arr m n (pts : list (list X)) : length pts = m -> Forall (fun p => length p = n) pts ->
    exists data, arr_transpose (mk_arr [m; n] (concat pts)) = Ok (mk_arr [n; m] data) /\
      length data = n * m /\ forall i j p x, nth_error pts j = Some p -> nth_error p i = Some x -> nth_error data (i * m + j) = Some x.
  Proof.
    intros Lm Hp.
    assert (G : forall i j p x, nth_error pts j = Some p -> nth_error p i = Some x -> get (concat pts) (j * n + i) = Ok x).
    { intros i j p x Hj Hx. apply get_ok. revert j Hj. clear Lm. induction Hp as [|q pts Hq Hp IH]; intros j Hj; [now destruct j|]. cbn [concat].
      destruct j as [|j]; cbn [nth_error] in Hj.
      - injection Hj as ->. cbn [Nat.mul Nat.add]. rewrite nth_error_app1; [assumption|]. apply nth_error_Some. congruence.
      - rewrite nth_error_app2 by lia. rewrite <- (IH j Hj). f_equal. lia. }
    assert (T : exists d, mapM (fun i => mapM (fun j => get (concat pts) (j * n + i)) (seq 0 m)) (seq 0 n) = Ok d /\
                Forall2 (fun i r => Forall2 (fun j x => get (concat pts) (j * n + i) = Ok x) (seq 0 m) r) (seq 0 n) d).
    { destruct (mapM_total (fun i => mapM (fun j => get (concat pts) (j * n + i)) (seq 0 m)) (seq 0 n)) as (d & E).
      - intros i Hi. apply in_seq in Hi. apply mapM_total. intros j Hj. apply in_seq in Hj.
        destruct (nth_error pts j) as [p|] eqn:Ep; [|apply nth_error_None in Ep; lia].
        assert (Lp : length p = n) by (rewrite Forall_forall in Hp; apply Hp; eapply nth_error_In, Ep).
        destruct (nth_error p i) as [x|] eqn:Ex; [|apply nth_error_None in Ex; lia]. exists x. eapply G; eauto.
      - exists d. split; [exact E|]. apply mapM_ok in E. eapply Forall2_impl; [|exact E]. cbn beta. intros i r Hr. now apply mapM_ok. }
    destruct T as (d & Ed & Fd). unfold arr_transpose. cbn [a_shape a_data]. rewrite Ed. cbn [bind]. exists (concat d). split; [reflexivity|].
    assert (Hd : Forall (fun r => length r = m) d).
    { apply Forall_forall. intros r Hr. apply In_nth_error in Hr as (i & Hi). destruct (Forall2_nth_error_r _ _ _ i r Fd Hi) as (k & _ & Fk).
      now rewrite <- (Forall2_length' _ _ _ Fk), seq_length. }
    assert (Ld : length d = n) by (rewrite <- (Forall2_length' _ _ _ Fd); apply seq_length).
    split.
    - rewrite <- Ld. clear - Hd. induction Hd as [|r d Hr Hd IH]; [reflexivity|]. cbn [concat length]. rewrite app_length, IH, Hr. lia.
    - intros i j p x Hj Hx.
      assert (Lp : length p = n) by (rewrite Forall_forall in Hp; apply Hp; eapply nth_error_In, Hj).
      assert (Hi : i < n) by (rewrite <- Lp; apply nth_error_Some; congruence).
      assert (Hjm : j < m) by (rewrite <- Lm; apply nth_error_Some; congruence).
      assert (S1 : nth_error (seq 0 n) i = Some i) by (rewrite (nth_error_nth' _ 0) by (rewrite seq_length; lia); rewrite seq_nth by lia; reflexivity).
      assert (S2 : nth_error (seq 0 m) j = Some j) by (rewrite (nth_error_nth' _ 0) by (rewrite seq_length; lia); rewrite seq_nth by lia; reflexivity).
      destruct (Forall2_nth_error _ _ _ i i Fd S1) as (r & Hr & Fr). destruct (Forall2_nth_error _ _ _ j j Fr S2) as (z & Hz & Gz).
      rewrite (G _ _ _ _ Hj Hx) in Gz. injection Gz as <-.
      clear - Hd Hr Hz Hjm. revert i Hr. induction Hd as [|q d Hq Hd IH]; intros i Hr; [now destruct i|]. cbn [concat].
      destruct i as [|i]; cbn [nth_error] in Hr.
      + injection Hr as ->. cbn [Nat.mul Nat.add]. rewrite nth_error_app1; [assumption|]. lia.
      + rewrite nth_error_app2 by lia. rewrite <- (IH i Hr). f_equal. lia.
  Qed.
End Curves.

(** ** vtk_visualize_mesh *)
Lemma max_order_spec orders o : max_order orders = Ok o -> In o orders /\ forall p, In p orders -> p <= o.
Proof.
  destruct orders as [|x l]; [discriminate|]. cbn [max_order]. intros [= <-].
  assert (G : forall l x, (In (fold_left Nat.max l x) (x :: l)) /\ forall p, In p (x :: l) -> p <= fold_left Nat.max l x).
  { clear. induction l as [|y l IH]; intros x; cbn [fold_left].
    - split; [now left|]. intros p [->|[]]. lia.
    - destruct (IH (Nat.max x y)) as (A & B). split.
      + destruct A as [A|A]; [|now right; right]. rewrite <- A. destruct (Nat.max_spec x y) as [(_ & ->)|(_ & ->)]; [right; now left|now left].
      + intros p [->|[->|Hp]]; [specialize (B (Nat.max p y) (or_introl eq_refl)); lia|specialize (B (Nat.max x p) (or_introl eq_refl)); lia|]. apply B. now right. }
  apply G.
Qed.

Section VtkMesh.
  Context {key U F S : Type}.
  Variable keqb : key -> key -> bool.
  Variable apply_factory : F -> mgrp -> res (key * U).
  Variables equidistant edge_clustered : nat -> F.
  Variable one : S.

  Lemma make_discr_ok id m f : (forall g, In g (vm_groups m) -> exists ku, apply_factory f g = Ok ku) ->
    exists d, make_discr key U F apply_factory id m f = Ok d /\ d_id d = id /\ d_mesh d = m /\ d_factory d = f /\ length (d_groups d) = length (vm_groups m).
  Proof.
    intros H. unfold make_discr. destruct (mapM_total (fun mg => ku <- apply_factory f mg ;; Ok (mk_dgrp mg (fst ku) (snd ku))) (vm_groups m)) as (gs & E).
    - intros g Hg. destruct (H g Hg) as (ku & ->). cbn. eauto.
    - rewrite E. cbn [bind]. eexists. split; [reflexivity|]. cbn. apply mapM_ok in E. now rewrite (Forall2_length' _ _ _ E).
  Qed.

  Lemma vtk_mesh_spec m orders high : orders <> [] ->
    (forall o g, In o orders -> In g (vm_groups m) -> (exists ku, apply_factory (edge_clustered o) g = Ok ku) /\ (high = true -> exists ku, apply_factory (equidistant o) g = Ok ku)) ->
    exists o c v, In o orders /\ (forall p, In p orders -> p <= o) /\
      vtk_visualize_mesh (S := S) keqb apply_factory equidistant edge_clustered one m orders high = Ok (c, v) /\ (if high then v_lagrange v else v_linear v) = Some c /\ (if high then v_linear v else v_lagrange v) = None /\
      d_mesh (conn_from c) = m /\ d_mesh (conn_to c) = m /\ d_factory (conn_from c) = edge_clustered o /\
      (high = false -> conn_to c = conn_from c) /\
      (high = true -> d_factory (conn_to c) = equidistant o \/
         conn_to c = conn_from c /\ exists e, make_discr key U F apply_factory 1 m (equidistant o) = Ok e /\
           forall a b, In (a, b) (combine (d_groups (conn_from c)) (d_groups e)) -> keqb (dg_key a) (dg_key b) = true).
  Proof.
    intros Hne Hf. destruct (max_order orders) as [o|e] eqn:Eo; [|destruct orders; [contradiction|discriminate]].
    destruct (max_order_spec orders o Eo) as (Ho & Hmax). unfold vtk_visualize_mesh. rewrite Eo. cbn [bind].
    destruct (make_discr_ok 0 m (edge_clustered o)) as (d & Ed & Id & Md & Fd & Ld); [intros g Hg; now apply (Hf o g)|]. rewrite Ed. cbn [bind].
    unfold make_visualizer. destruct high; cbn [negb andb].
    - destruct (make_discr_ok 1 m (equidistant o)) as (e & Ee & Ie & Me & Fe & Le); [intros g Hg; now apply (Hf o g)|].
      rewrite Md, Ee. cbn [bind]. rewrite Ld, Le, Nat.eqb_refl. cbn [guard bind].
      destruct (forallb _ _) eqn:K.
      + unfold make_same_mesh_connection. rewrite !Nat.eqb_refl. cbn [negb bind vtk_connectivity v_equi v_lagrange v_conn fst snd].
        exists o, (IdentityConn d). eexists. split; [exact Ho|]. split; [exact Hmax|]. split; [reflexivity|]. split; [reflexivity|]. split; [reflexivity|]. cbn [conn_from conn_to]. repeat (split; [assumption || discriminate|]).
        intros _. right. split; [reflexivity|]. exists e. split; [exact Ee|]. intros a b Hab. rewrite forallb_forall in K. now apply K in Hab.
      + unfold make_same_mesh_connection. rewrite Md, Me, Nat.eqb_refl, Id, Ie, Ld, Le, Nat.eqb_refl. cbn [negb Nat.eqb guard bind vtk_connectivity v_equi v_lagrange v_conn fst snd].
        eexists o, _. eexists. split; [exact Ho|]. split; [exact Hmax|]. split; [reflexivity|]. split; [reflexivity|]. split; [reflexivity|]. cbn [conn_from conn_to]. repeat (split; [assumption || discriminate|]).
        intros _. now left.
    - cbn [bind]. unfold make_same_mesh_connection. rewrite !Nat.eqb_refl. cbn [negb bind vtk_connectivity v_linear v_conn fst snd].
      exists o, (IdentityConn d). eexists. split; [exact Ho|]. split; [exact Hmax|]. split; [reflexivity|]. split; [reflexivity|]. split; [reflexivity|]. cbn [conn_from conn_to]. repeat (split; [assumption || reflexivity|]). discriminate.
  Qed.
End VtkMesh.
