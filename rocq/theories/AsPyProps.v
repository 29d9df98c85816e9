(** * AsPyProps: array literals of as_python and make_group (C214-C217). *)
From Coq Require Import List Arith Bool ZArith Lia.
From Verif Require Import Np NpFacts MeshModel Lin ConsistModel AffineModel EqModel EqSpec EqProofs AsPyModel AsPySpec AsPyProofs.
Import ListNotations.

(** ** C214: array literals *)

(** The text of an array of finite numbers gives an array with the same entries, but only the axes up to the first one of length zero. *)
Theorem C214_literal :
  forall (X : Type) (literal : X -> bool) (a : arr X), arr_ok a -> (forall x, In x (a_data a) -> literal x = true) ->
    exists b, reread literal a = Ok b /\ a_data b = a_data a /\ shown_shape (a_shape a) (a_shape b).
Proof.
  intros X literal a H L. rewrite reread_spec by auto. apply forallb_forall in L. rewrite L. eexists. split; [reflexivity|]. split; [reflexivity|]. apply trunc_shown.
Qed.
Print Assumptions C214_literal.

(** It gives the array back exactly if all its numbers are finite and no axis but the last one has length zero. *)
Theorem C214_literal_iff :
  forall (X : Type) (literal : X -> bool) (a : arr X), arr_ok a ->
    (reread literal a = Ok a <-> (forall x, In x (a_data a) -> literal x = true) /\ ~ In 0 (removelast (a_shape a))).
Proof.
  intros X literal a H. rewrite reread_spec by auto. rewrite <- forallb_forall, <- trunc_id. destruct (forallb literal (a_data a)).
  - split; [|intros (_ & ->); now destruct a]. intros [= E]. split; [reflexivity|]. now rewrite <- E at 2.
  - split; [discriminate|]. now intros ([=] & _).
Qed.
Print Assumptions C214_literal_iff.

(** A number that is not finite makes the snippet fail. *)
Theorem C214_not_finite :
  forall (X : Type) (literal : X -> bool) (a : arr X) x, arr_ok a -> In x (a_data a) -> literal x = false -> reread literal a = Err NameError.
Proof.
  intros X literal a x H Hx L. rewrite reread_spec by auto. destruct (forallb literal (a_data a)) eqn:E; [|reflexivity].
  rewrite forallb_forall in E. rewrite (E x Hx) in L. discriminate.
Qed.
Print Assumptions C214_not_finite.

Example C214_example :
  reread Z.even (mk_arr [2; 2; 1] [4; 2; 0; 8]%Z) = Ok (mk_arr [2; 2; 1] [4; 2; 0; 8]%Z) /\
  reread Z.even (mk_arr [2; 0; 3] ([] : list Z)) = Ok (mk_arr [2; 0] []) /\ arr_ok (mk_arr [2; 0; 3] ([] : list Z)) /\
  reread Z.even (mk_arr [] [4]%Z) = Ok (mk_arr [] [4]%Z) /\
  reread Z.even (mk_arr [1; 2] [4; 1]%Z) = Err NameError /\ arr_ok (mk_arr [1; 2] [4; 1]%Z).
Proof. repeat split. Qed.

(** ** C215: make_group *)

(** Given unit nodes, make_group makes a group of its arguments exactly if the unit nodes have the number of rows dim, if given, and as many columns as the
    space has dimensions. *)
Theorem C215_make_group_iff :
  forall (R : cring) space_dim edge_clustered cls order vi (nodes u : arr R) dim g,
    make_group R space_dim edge_clustered cls order vi nodes (Some u) dim = Ok g <->
    (exists d rest, a_shape u = d :: space_dim cls d order :: rest /\ (dim = None \/ dim = Some d)) /\ g = mk_egrp R cls order vi nodes u.
Proof. intros. apply make_group_iff. Qed.
Print Assumptions C215_make_group_iff.

(** Otherwise, the error is a ValueError if the unit nodes have at least two axes. *)
Theorem C215_make_group_error :
  forall (R : cring) space_dim edge_clustered cls order vi (nodes u : arr R) dim e,
    2 <= length (a_shape u) -> make_group R space_dim edge_clustered cls order vi nodes (Some u) dim = Err e -> e = ValueError.
Proof.
  intros R space_dim ec cls order vi nodes [[|d [|n rest]] data] dim e; cbn [a_shape length]; try lia. intros _. unfold make_group, axis. cbn [a_shape].
  destruct dim as [dim|]; cbn [get nth_error bind].
  - destruct (d =? dim); cbn [bind get nth_error]; [|congruence]. destruct (_ =? _); congruence.
  - rewrite Nat.eqb_refl. cbn [bind get nth_error]. destruct (_ =? _); congruence.
Qed.
Print Assumptions C215_make_group_error.

(** Without unit nodes, the edge-clustered nodes are used; the dimension must be given. *)
Theorem C215_default_nodes :
  forall (R : cring) space_dim (edge_clustered : nat -> nat -> nat -> arr R) cls order vi nodes d,
    a_shape (edge_clustered cls d order) = [d; space_dim cls d order] ->
    make_group R space_dim edge_clustered cls order vi nodes None (Some d) = Ok (mk_egrp R cls order vi nodes (edge_clustered cls d order)) /\
    make_group R space_dim edge_clustered cls order vi nodes None None = Err TypeError.
Proof.
  intros R sd ec cls order vi nodes d S. split; [|reflexivity]. unfold make_group, axis. cbn [bind]. rewrite S. cbn [get nth_error bind]. now rewrite Nat.eqb_refl.
Qed.
Print Assumptions C215_default_nodes.

(** Segments: the space of order n has dimension n + 1 *)
Definition ex_space (cls dim order : nat) : nat := order * dim + 1.
Definition ex_edge (cls dim order : nat) : arr Zcring := mk_arr (X := Zcring) [1; 2] [-1; 1]%Z.
Definition ex_unit : arr Zcring := mk_arr (X := Zcring) [1; 2] [-1; 1]%Z.
Definition ex_nodes (nel : nat) (l : list Z) : arr Zcring := mk_arr (X := Zcring) [2; nel; 2] l.
Definition ex_grp (nel : nat) (vi : list nat) (l : list Z) : egrp Zcring := mk_egrp Zcring 3 1 (Some (mk_arr [nel; 2] vi)) (ex_nodes nel l) ex_unit.

Example C215_example :
  make_group Zcring ex_space ex_edge 3 1 (Some (mk_arr [1; 2] [0; 1])) (ex_nodes 1 [0; 2; 0; 4]%Z) (Some ex_unit) None = Ok (ex_grp 1 [0; 1] [0; 2; 0; 4]%Z) /\
  make_group Zcring ex_space ex_edge 3 1 None (ex_nodes 1 [0; 2; 0; 4]%Z) (Some ex_unit) (Some 2) = Err ValueError /\
  make_group Zcring ex_space ex_edge 3 2 None (ex_nodes 1 [0; 2; 0; 4]%Z) (Some ex_unit) (Some 1) = Err ValueError /\
  make_group Zcring ex_space ex_edge 3 1 (Some (mk_arr [1; 2] [0; 1])) (ex_nodes 1 [0; 2; 0; 4]%Z) None (Some 1) = Ok (ex_grp 1 [0; 1] [0; 2; 0; 4]%Z).
Proof. repeat split. Qed.

(** ** C216: recreating a mesh from its text *)

(** The function of the snippet passes all data of the mesh except face_id_dtype to make_mesh: for meshes of the class Mesh with finite coordinates, of at
    least one dimension, with elements in every group, and imported boundary tags. *)
Theorem C216_recreate :
  forall (R : cring) literal space_dim edge_clustered fd (m : emesh R), mesh_valid R literal space_dim m ->
    exists m', recreate R literal space_dim edge_clustered fd m = Ok m' /\ same_data m m' /\ em_fdtype R m' = fd.
Proof.
  intros R literal sd ec fd m H. rewrite recreate_same by auto. eexists. split; [reflexivity|]. destruct H as (Hc & _). unfold same_data. cbn.
  repeat match goal with |- _ /\ _ => split end; auto.
Qed.
Print Assumptions C216_recreate.

Definition ex_msh (gs : list (egrp Zcring)) (fa : list (fagroup Zcring)) : emesh Zcring :=
  mk_emesh Zcring 0 (Some (mk_arr (X := Zcring) [2; 2] [0; 2; 0; 4]%Z)) gs (Some true)
    (LSome (mk_nadj 0 (mk_arr [2] [0; 0]) (mk_arr [0] []))) (LSome [fa]) 32 32 8.
Definition ex_bdry (t : btag) : fagroup Zcring := GBoundary Zcring 0 0 t (mk_arr [2] [0; 0]) (mk_arr [2] [0; 1]).
Definition ex_lit (x : Z) : bool := (x <? 100)%Z.

Ltac all_data := let x := fresh in let H := fresh in intros x H; cbn in H; repeat (destruct H as [<-|H]; [reflexivity|]); destruct H.
Example C216_example :
  mesh_valid Zcring ex_lit ex_space (ex_msh [ex_grp 1 [0; 1] [0; 2; 0; 4]%Z] [ex_bdry TAll]) /\
  recreate Zcring ex_lit ex_space ex_edge 8 (ex_msh [ex_grp 1 [0; 1] [0; 2; 0; 4]%Z] [ex_bdry TAll]) =
    Ok (ex_msh [ex_grp 1 [0; 1] [0; 2; 0; 4]%Z] [ex_bdry TAll]).
Proof.
  split; [|reflexivity]. split; [reflexivity|]. split; [|split; [|split]].
  - intros v [= <-]. split; [reflexivity|]. split; [all_data|]. exists 2, 2. split; [reflexivity|lia].
  - intros g [<-|[]]. split.
    + split; [reflexivity|]. split; [reflexivity|]. split; [now intros vi [= <-]|]. split; all_data.
    + exists 1, 2, 1. split; [lia|]. split; [lia|]. split; [lia|]. split; [|cbn; lia].
      split; [reflexivity|]. split; [reflexivity|]. intros vi [= <-]. now exists 2.
  - intros gs l f [= <-] [<-|[]] [<-|[]]. cbn. split; [reflexivity|]. split; [right; now left|]. split; now exists 2.
  - intros n [= <-]. split; [reflexivity|]. split; [now exists 2|now exists 0].
Qed.

(** ** C217 (refuted): every mesh of the class Mesh with imported tags is recreated *)

(** A group without elements is never recreated: if the function returns at all, its mesh is not equal to the given one. *)
Theorem C217_empty_group :
  forall (R : cring) (reqb : R -> R -> bool) literal space_dim edge_clustered fd (m m' : emesh R) g d nunit,
    (forall a b, reqb a b = true <-> a = b) -> concrete_mesh m ->
    In g (em_groups R m) -> arr_ok (e_nodes R g) -> a_shape (e_nodes R g) = [d; 0; nunit] ->
    recreate R literal space_dim edge_clustered fd m = Ok m' -> mesh_equal R reqb m m' <> Ok true.
Proof.
  intros R reqb literal sd ec fd m m' g d nunit Hr Hc Hg Ho Sg Hm E. apply (mesh_equal_iff reqb Hr m m' Hc) in E.
  destruct E as (_ & _ & Eg & _). apply recreate_groups in Hm. rewrite <- Eg in Hm. apply In_nth_error in Hg as (i & Hi).
  destruct (Forall2_nth_error _ _ _ i g Hm Hi) as (h & Hh & Hgh). rewrite Hi in Hh. injection Hh as <-.
  apply reread_group_nodes in Hgh; [|assumption]. rewrite Sg in Hgh. destruct d; discriminate.
Qed.
Print Assumptions C217_empty_group.

(** The function of the snippet fails for points: groups of dimension zero. *)
Theorem C217_points :
  forall (R : cring) literal space_dim edge_clustered (g : egrp R) d nel nunit,
    group_valid R literal g -> group_shapes R g 0 d nel nunit -> reread_group R literal space_dim edge_clustered g = Err IndexError.
Proof. intros R literal sd ec g d nel nunit H S. now rewrite (reread_group_shapes R literal sd ec g 0 d nel nunit H S). Qed.
Print Assumptions C217_points.

(** A mesh with a boundary tag whose name the snippet does not import is never recreated. *)
Theorem C217_other_tag :
  forall (R : cring) literal space_dim edge_clustered fd (m m' : emesh R) gs l c i t es fs,
    em_facial R m = LSome gs -> In l gs -> In (GBoundary R c i t es fs) l -> t <> TNone -> t <> TAll -> t <> TReallyAll ->
    recreate R literal space_dim edge_clustered fd m <> Ok m'.
Proof.
  intros R literal sd ec fd m m' gs l c i t es fs Hf Hl Hg H1 H2 H3 H. unfold recreate, eval_mesh in H. apply bind_ok in H as (u & _ & H).
  apply bind_ok in H as (v & _ & H). apply bind_ok in H as (g & _ & H). apply bind_ok in H as (fa & Hfa & _). rewrite Hf in Hfa. cbn [lazyM] in Hfa.
  apply bind_ok in Hfa as (y & Hy & _). apply mapM_ok in Hy. destruct (Forall2_In_l _ _ _ _ Hy Hl) as (l' & _ & Hl'). apply mapM_ok in Hl'.
  destruct (Forall2_In_l _ _ _ _ Hl' Hg) as (g' & _ & Hg'). cbn [reread_facial] in Hg'. apply bind_ok in Hg' as (t' & Ht & _). unfold reread_tag in Ht.
  destruct t; cbn in Ht; congruence.
Qed.
Print Assumptions C217_other_tag.
Example C217_other_tag_example : recreate Zcring ex_lit ex_space ex_edge 8 (ex_msh [ex_grp 1 [0; 1] [0; 2; 0; 4]%Z] [ex_bdry (TUser 5)]) = Err NameError.
Proof. reflexivity. Qed.

(** Witnesses: a group without elements beside one with an element; points; a coordinate that is not finite; a FacialAdjacencyGroup; a derived class, for
    which as_python itself fails. *)
Definition ex_point : egrp Zcring := mk_egrp Zcring 3 1 None (mk_arr (X := Zcring) [1; 1; 1] [5]%Z) (mk_arr (X := Zcring) [0; 1] []).
Theorem C217_as_python_refuted :
  exists m1 m2 m3 m4 m5 : emesh Zcring,
    (exists m', recreate Zcring ex_lit ex_space ex_edge 8 m1 = Ok m' /\ mesh_equal Zcring Z.eqb m1 m' = Ok false) /\
    recreate Zcring ex_lit ex_space ex_edge 8 m2 = Err IndexError /\
    recreate Zcring ex_lit ex_space ex_edge 8 m3 = Err NameError /\
    (write_mesh Zcring m4 = Ok tt /\ recreate Zcring ex_lit ex_space ex_edge 8 m4 = Err TypeError) /\
    write_mesh Zcring m5 = Err NotImplementedError /\
    (forall m, In m [m1; m2; m3; m4; m5] -> em_class Zcring m = 0).
Proof.
  exists (ex_msh [ex_grp 1 [0; 1] [0; 2; 0; 4]%Z; ex_grp 0 [] []] [ex_bdry TAll]), (ex_msh [ex_point] []),
    (ex_msh [ex_grp 1 [0; 1] [0; 2; 0; 100]%Z] []), (ex_msh [ex_grp 1 [0; 1] [0; 2; 0; 4]%Z] [GFacial Zcring 0 0 (mk_arr [0] []) (mk_arr [0] [])]),
    (ex_msh [ex_grp 1 [0; 1] [0; 2; 0; 4]%Z] [GBoundary Zcring 1 0 TAll (mk_arr [0] []) (mk_arr [0] [])]).
  split; [eexists; split; vm_compute; reflexivity|]. split; [reflexivity|]. split; [reflexivity|]. split; [split; reflexivity|]. split; [reflexivity|].
  intros m H. cbn in H. repeat (destruct H as [<-|H]; [reflexivity|]). destruct H.
Qed.
Print Assumptions C217_as_python_refuted.

Example C217_example :
  concrete_mesh (ex_msh [ex_grp 1 [0; 1] [0; 2; 0; 4]%Z; ex_grp 0 [] []] [ex_bdry TAll]) /\ arr_ok (e_nodes Zcring (ex_grp 0 [] [])) /\
  group_valid Zcring ex_lit ex_point /\ group_shapes Zcring ex_point 0 1 1 1.
Proof.
  split; [repeat constructor|]. split; [reflexivity|]. split.
  - split; [reflexivity|]. split; [reflexivity|]. split; [discriminate|]. split; all_data.
  - split; [reflexivity|]. split; [reflexivity|]. discriminate.
Qed.
