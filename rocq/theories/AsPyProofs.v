(** * AsPyProofs: proofs about array literals. *)
From Coq Require Import List Arith Bool Lia.
From Verif Require Import Np NpFacts MeshModel Lin ConsistModel ConsistProofs AffineModel EqModel EqSpec EqProofs AsPyModel AsPySpec.
Import ListNotations.

Section Literals.
  Context {X : Type}.
  Implicit Types (data : list X) (t : tree X).

  Lemma leaves_Lst l : leaves (Lst l) = concat (map (@leaves X) l).
  Proof. cbn [leaves]. induction l as [|t l IH]; [reflexivity|]. cbn [map concat]. now rewrite IH. Qed.
  Lemma list_shape_Lst l :
    list_shape (Lst l) =
      (ss <- mapM (@list_shape X) l ;;
       match ss with [] => Ok [0] | s :: ss => if forallb (list_nat_eqb s) ss then Ok (S (length ss) :: s) else Err ValueError end).
  Proof.
    cbn [list_shape]. f_equal. induction l as [|t l IH]; [reflexivity|]. cbn [mapM]. now rewrite IH.
  Qed.

  Lemma blocks_concat n k : forall data, length data = n * k -> concat (blocks n k data) = data.
  Proof.
    induction n as [|n IH]; intros data H; cbn [blocks concat].
    - destruct data; [reflexivity|discriminate].
    - rewrite IH; [apply firstn_skipn|]. rewrite skipn_length. cbn in H. lia.
  Qed.
  Lemma blocks_length n k : forall data, length (blocks n k data) = n.
  Proof. induction n as [|n IH]; intros data; cbn [blocks length]; auto. Qed.
  Lemma blocks_each n k : forall data, length data = n * k -> Forall (fun b => length b = k) (blocks n k data).
  Proof.
    induction n as [|n IH]; intros data H; cbn [blocks]; constructor.
    - rewrite firstn_length. cbn in H. lia.
    - apply IH. rewrite skipn_length. cbn in H. lia.
  Qed.

  (** The shape nested lists show *)
  Fixpoint trunc (s : list nat) : list nat :=
    match s with [] => [] | O :: _ => [0] | n :: s => n :: trunc s end.

  Lemma list_nat_eqb_refl s : list_nat_eqb s s = true.
  Proof. now apply list_nat_eqb_iff. Qed.

  Lemma tolist_spec : forall shape data, length data = size_of shape ->
    exists t, tolist shape data = Ok t /\ leaves t = data /\ list_shape t = Ok (trunc shape).
  Proof.
    induction shape as [|n shape IH]; intros data H.
    - destruct data as [|x [|y data]]; try discriminate. exists (Num x). auto.
    - cbn [size_of fold_right] in H. fold (size_of shape) in H.
      pose proof (blocks_each n (size_of shape) data H) as Hb.
      pose proof (blocks_concat n (size_of shape) data H) as Hc.
      pose proof (blocks_length n (size_of shape) data) as Hl.
      assert (G : forall bs, Forall (fun b => length b = size_of shape) bs ->
        exists l, mapM (tolist shape) bs = Ok l /\ map (@leaves X) l = bs /\ mapM (@list_shape X) l = Ok (repeat (trunc shape) (length bs))).
      { induction 1 as [|b bs Hx _ (l & El & Ll & Sl)]; [exists []; auto|].
        destruct (IH b Hx) as (t & Et & Lt & St). exists (t :: l). cbn [mapM map length repeat]. rewrite Et, El, St, Sl. cbn [bind].
        now rewrite Lt, Ll. }
      destruct (G _ Hb) as (l & El & Ll & Sl). exists (Lst l). cbn [tolist]. rewrite El. cbn [bind]. split; [reflexivity|]. split.
      + now rewrite leaves_Lst, Ll.
      + rewrite list_shape_Lst, Sl, Hl. cbn [bind]. destruct n as [|n]; [reflexivity|]. cbn [repeat trunc].
        rewrite repeat_length. replace (forallb _ _) with true; [reflexivity|]. symmetry. apply forallb_forall.
        intros s Hs. apply repeat_spec in Hs. subst. apply list_nat_eqb_refl.
  Qed.

  Lemma trunc_shown s : shown_shape s (trunc s).
  Proof.
    induction s as [|n s IH]; [left; auto|]. destruct n as [|n]; cbn [trunc].
    - right. exists [], s. auto.
    - destruct IH as [(H & E)|(p & q & E & H & E')].
      + left. rewrite E. split; [|reflexivity]. intros [|]; [discriminate|auto].
      + right. exists (S n :: p), q. rewrite E' . subst s. repeat split. intros [|]; [discriminate|auto].
  Qed.
  Lemma trunc_id s : trunc s = s <-> ~ In 0 (removelast s).
  Proof.
    induction s as [|n s IH]; [cbn; tauto|]. destruct s as [|m s].
    - destruct n; cbn; tauto.
    - change (removelast (n :: m :: s)) with (n :: removelast (m :: s)). destruct n as [|n].
      + cbn [trunc]. split; [discriminate|]. intros H. exfalso. apply H. now left.
      + change (trunc (S n :: m :: s)) with (S n :: trunc (m :: s)). split.
        * intros [= H]. intros [H'|H']; [discriminate|]. now apply IH in H.
        * intros H. f_equal. apply IH. intros H'. apply H. now right.
  Qed.

  Lemma reread_spec literal (a : arr X) : arr_ok a ->
    reread literal a = if forallb literal (a_data a) then Ok (mk_arr (trunc (a_shape a)) (a_data a)) else Err NameError.
  Proof.
    intros H. unfold reread. destruct (tolist_spec (a_shape a) (a_data a) H) as (t & -> & Lt & St). cbn [bind].
    rewrite Lt. destruct (forallb literal (a_data a)); [|reflexivity]. unfold np_array. cbn [guard bind]. now rewrite St, <- Lt.
  Qed.
  Lemma reread_same literal (a : arr X) : arr_ok a -> forallb literal (a_data a) = true -> ~ In 0 (removelast (a_shape a)) -> reread literal a = Ok a.
  Proof. intros H L Z. rewrite reread_spec, L by auto. apply trunc_id in Z. rewrite Z. now destruct a. Qed.
End Literals.

Lemma int_literals l : forallb int_literal l = true.
Proof. now apply forallb_forall. Qed.
Lemma vector_reread a : vector a -> reread_ints a = Ok a.
Proof.
  intros (n & E & L). apply reread_same.
  - unfold arr_ok. rewrite E. cbn. lia.
  - apply int_literals.
  - rewrite E. cbn. tauto.
Qed.

Section Groups.
  Variable R : cring.
  Variable literal : R -> bool.
  Variable space_dim : nat -> nat -> nat -> nat.
  Variable edge_clustered : nat -> nat -> nat -> arr R.

  Lemma all_literal_iff l : all_literal R literal l <-> forallb literal l = true.
  Proof. unfold all_literal. now rewrite forallb_forall. Qed.

  Lemma reread_group_shapes g dim d nel nunit :
    group_valid R literal g -> group_shapes R g dim d nel nunit ->
    reread_group R literal space_dim edge_clustered g =
      match dim with
      | O => Err IndexError
      | S _ =>
          if nunit =? space_dim (e_class R g) dim (e_order R g)
          then Ok (mk_egrp R (e_class R g) (e_order R g)
                     (match e_vi R g with Some vi => Some (mk_arr (trunc (a_shape vi)) (a_data vi)) | None => None end)
                     (mk_arr (trunc (a_shape (e_nodes R g))) (a_data (e_nodes R g))) (e_unit R g))
          else Err ValueError
      end.
  Proof.
    intros (Hu & Hn & Hv & Lu & Ln) (Su & Sn & Sv). apply all_literal_iff in Lu, Ln. unfold reread_group.
    assert (E : reread_opt int_literal (e_vi R g) = Ok (match e_vi R g with Some vi => Some (mk_arr (trunc (a_shape vi)) (a_data vi)) | None => None end)).
    { destruct (e_vi R g) as [vi|]; [|reflexivity]. cbn [reread_opt]. rewrite reread_spec by auto. now rewrite int_literals. }
    rewrite E. cbn [bind]. rewrite reread_spec, Ln by auto. cbn [bind]. rewrite reread_spec, Lu by auto. cbn [bind]. rewrite Su.
    unfold make_group, axis. cbn [a_shape]. destruct dim as [|dim]; [reflexivity|].
    assert (Et : trunc [S dim; nunit] = [S dim; nunit]) by (cbn; now destruct nunit). rewrite Et. cbn [get nth_error bind].
    rewrite Nat.eqb_refl. cbn [bind get nth_error]. destruct (_ =? _); [|reflexivity].
    do 3 f_equal. rewrite <- Su. now destruct (e_unit R g).
  Qed.

  Lemma reread_group_same g dim d nel :
    group_valid R literal g -> 0 < dim -> 0 < d -> 0 < nel -> group_shapes R g dim d nel (space_dim (e_class R g) dim (e_order R g)) ->
    reread_group R literal space_dim edge_clustered g = Ok g.
  Proof.
    intros Hg Hdim Hd Hnel S. rewrite (reread_group_shapes g dim d nel _ Hg S). destruct dim as [|dim]; [lia|]. rewrite Nat.eqb_refl.
    destruct S as (Su & Sn & Sv). destruct d as [|d]; [lia|]. destruct nel as [|nel]; [lia|]. destruct g as [c o vi ns us]. cbn [e_class e_order e_vi e_nodes e_unit] in *.
    f_equal. f_equal.
    - destruct vi as [vi|]; [|reflexivity]. destruct (Sv vi eq_refl) as (nv & E). rewrite E. destruct vi as [s dd]. cbn [a_shape a_data] in *. subst s. now destruct nv.
    - rewrite Sn. destruct ns as [s dd]. cbn [a_shape a_data] in *. subst s. cbn [trunc]. now destruct (space_dim c _ o).
  Qed.

  Lemma reread_map_same f : map_literal R literal f -> reread_map R literal f = Ok f.
  Proof.
    intros (Hm & Ho). unfold reread_map.
    assert (A : match am_matrix f with Some m => guard (forallb (forallb literal) m) NameError | None => Ok tt end = Ok tt).
    { destruct (am_matrix f) as [m|] eqn:E; [|reflexivity]. replace (forallb (forallb literal) m) with true; [reflexivity|]. symmetry. apply forallb_forall.
      intros row Hr. apply all_literal_iff. eauto. }
    rewrite A. cbn [bind]. destruct (am_offset f) as [o|] eqn:E; [|reflexivity]. assert (L : forallb literal o = true) by (apply all_literal_iff; auto).
    now rewrite L.
  Qed.

  Lemma reread_tag_same t : imported t -> reread_tag t = Ok t.
  Proof. intros [-> |[-> | ->]]; reflexivity. Qed.

  Lemma reread_facial_same f : facial_valid R literal f -> reread_facial R literal f = Ok f /\ check_class R f = Ok tt.
  Proof.
    destruct f as [c i es fs|c i i' es fs ns nfs m|c i t es fs|c i t p es fs ns nfs m]; cbn [facial_valid reread_facial]; [easy| | |].
    - intros (-> & A & B & C & D & M). split; [|reflexivity]. rewrite !vector_reread, reread_map_same by auto. reflexivity.
    - intros (-> & T & A & B). split; [|reflexivity]. rewrite reread_tag_same, !vector_reread by auto. reflexivity.
    - intros (-> & T & A & B & C & D & M). split; [|reflexivity]. rewrite reread_tag_same by auto. rewrite !vector_reread, reread_map_same by auto. reflexivity.
  Qed.

  Lemma mapM_same {Y} (f : Y -> res Y) l : (forall x, In x l -> f x = Ok x) -> mapM f l = Ok l.
  Proof.
    induction l as [|x l IH]; intros H; [reflexivity|]. cbn [mapM]. rewrite H by now left. rewrite IH by (intros; apply H; now right). reflexivity.
  Qed.
  Lemma mapM_const {Y Z} (f : Y -> res Z) z l : (forall x, In x l -> f x = Ok z) -> mapM f l = Ok (map (fun _ => z) l).
  Proof.
    induction l as [|x l IH]; intros H; [reflexivity|]. cbn [mapM map]. rewrite H by now left. rewrite IH by (intros; apply H; now right). reflexivity.
  Qed.

  Lemma recreate_same fd m : mesh_valid R literal space_dim m ->
    recreate R literal space_dim edge_clustered fd m =
      Ok (mk_emesh R 0 (em_vertices R m) (em_groups R m) (em_conforming R m) (em_nodal R m) (em_facial R m) (em_vdtype R m) (em_edtype R m) fd).
  Proof.
    intros (Hc & Hv & Hg & Hf & Hn). unfold recreate, write_mesh, eval_mesh.
    assert (W : match em_facial R m with LSome gs => _ <- mapM (mapM (check_class R)) gs ;; Ok tt | _ => Ok tt end = Ok tt).
    { destruct (em_facial R m) as [| |gs]; try reflexivity.
      assert (T : forall l : list (list (fagroup R)), (forall x f, In x l -> In f x -> facial_valid R literal f) -> exists u, mapM (mapM (check_class R)) l = Ok u).
      { induction l as [|x l IH]; intros H; [cbn; eauto|]. destruct IH as (u & E); [intros y f Hy Hfy; apply (H y f); [now right|exact Hfy]|]. cbn [mapM].
        rewrite (mapM_const (check_class R) tt); [|intros f Hfx; apply reread_facial_same; apply (H x f); [now left|exact Hfx]]. rewrite E. cbn. eauto. }
      destruct (T gs) as (u & E); [intros; eauto|]. now rewrite E. }
    rewrite W. cbn [bind].
    assert (V : reread_opt literal (em_vertices R m) = Ok (em_vertices R m)).
    { destruct (em_vertices R m) as [v|]; [|reflexivity]. destruct (Hv v eq_refl) as (O & L & d & nv & S & Hd). cbn [reread_opt].
      rewrite reread_same; auto; [now apply all_literal_iff|]. rewrite S. cbn. lia. }
    rewrite V. cbn [bind]. rewrite (mapM_same _ (em_groups R m)).
    2:{ intros g Hi. destruct (Hg g Hi) as (Gv & dim & d & nel & H1 & H2 & H3 & H4 & _). exact (reread_group_same g dim d nel Gv H1 H2 H3 H4). }
    cbn [bind].
    assert (F : lazyM (mapM (mapM (reread_facial R literal))) (em_facial R m) = Ok (em_facial R m)).
    { destruct (em_facial R m) as [| |gs]; try reflexivity. cbn [lazyM]. rewrite mapM_same; [reflexivity|].
      intros l Hl. apply mapM_same. intros f Hfl. apply reread_facial_same. eauto. }
    rewrite F. cbn [bind].
    destruct (em_nodal R m) as [| |n]; try reflexivity. destruct (Hn n eq_refl) as (N0 & N1 & N2). cbn [lazyM]. rewrite !vector_reread by auto. cbn [bind].
    destruct n as [nc ns nn]. cbn in *. now subst nc.
  Qed.

  (** ** Meshes with groups without elements, and of dimension zero *)
  Lemma reread_data {X} (lit : X -> bool) a b : arr_ok a -> reread lit a = Ok b -> a_shape b = trunc (a_shape a).
  Proof. intros H E. rewrite reread_spec in E by auto. destruct (forallb _ _); [|discriminate]. now injection E as <-. Qed.

  Lemma make_group_nodes cls order vi nodes u dim g : make_group R space_dim edge_clustered cls order vi nodes u dim = Ok g -> e_nodes R g = nodes.
  Proof.
    unfold make_group. intros H. apply bind_ok in H as (d & _ & H). apply bind_ok in H as (u1 & _ & H). destruct (_ =? _); [|discriminate]. now injection H as <-.
  Qed.
  Lemma reread_group_nodes g h : arr_ok (e_nodes R g) -> reread_group R literal space_dim edge_clustered g = Ok h ->
    a_shape (e_nodes R h) = trunc (a_shape (e_nodes R g)).
  Proof.
    intros O H. unfold reread_group in H. apply bind_ok in H as (vi & _ & H). apply bind_ok in H as (ns & En & H). apply bind_ok in H as (u & _ & H).
    apply make_group_nodes in H. rewrite H. now apply reread_data in En.
  Qed.

  Lemma recreate_groups fd m m' : recreate R literal space_dim edge_clustered fd m = Ok m' ->
    Forall2 (fun g h => reread_group R literal space_dim edge_clustered g = Ok h) (em_groups R m) (em_groups R m').
  Proof.
    unfold recreate. intros H. apply bind_ok in H as ([] & _ & H). unfold eval_mesh in H.
    apply bind_ok in H as (v & _ & H). apply bind_ok in H as (gs & Eg & H). apply bind_ok in H as (fa & _ & H). apply bind_ok in H as (na & _ & H).
    injection H as <-. cbn [em_groups]. now apply mapM_ok.
  Qed.

  (** make_group, given unit nodes *)
  Lemma make_group_iff cls order vi nodes u dim g :
    make_group R space_dim edge_clustered cls order vi nodes (Some u) dim = Ok g <->
    (exists d rest, a_shape u = d :: space_dim cls d order :: rest /\ (dim = None \/ dim = Some d)) /\ g = mk_egrp R cls order vi nodes u.
  Proof.
    unfold make_group, axis. destruct u as [[|d [|n rest]] data]; cbn [a_shape].
    - split; [destruct dim; discriminate|]. intros ((d & r & E & _) & _). discriminate.
    - split.
      + destruct dim as [dim|]; cbn [get nth_error bind]; destruct (_ =? _); discriminate.
      + intros ((d' & r & E & _) & _). discriminate.
    - split.
      + intros H. destruct dim as [dim|]; cbn [get nth_error bind] in H.
        * destruct (Nat.eqb_spec d dim) as [->|]; [|discriminate]. cbn [bind get nth_error] in H. destruct (Nat.eqb_spec n (space_dim cls dim order)) as [->|]; [|discriminate].
          injection H as <-. split; [|reflexivity]. exists dim, rest. auto.
        * rewrite Nat.eqb_refl in H. cbn [bind get nth_error] in H. destruct (Nat.eqb_spec n (space_dim cls d order)) as [->|]; [|discriminate].
          injection H as <-. split; [|reflexivity]. exists d, rest. auto.
      + intros ((d' & r & [= <- -> ->] & Hd) & ->). destruct Hd as [-> | ->]; cbn [get nth_error bind]; rewrite Nat.eqb_refl; cbn [bind get nth_error]; now rewrite Nat.eqb_refl.
  Qed.
End Groups.
