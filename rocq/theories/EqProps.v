(** * EqProps: comparing meshes (C200, C201). *)
From Coq Require Import List Arith Bool ZArith.
From Verif Require Import Np NpFacts Lin MeshModel AffineModel EqModel EqSpec EqProofs.
Import ListNotations.

(** ** C200: equality of meshes *)

(** Two meshes are equal exactly if all their data except face_id_dtype are. *)
Theorem C200_equal_iff :
  forall (R : cring) (reqb : R -> R -> bool), (forall a b, reqb a b = true <-> a = b) ->
  forall m m' : emesh R, concrete_mesh m -> (mesh_equal R reqb m m' = Ok true <-> same_data m m').
Proof. intros. now apply mesh_equal_iff. Qed.
Print Assumptions C200_equal_iff.

(** The order of the meshes does not matter, not even for errors. *)
Theorem C200_symmetric :
  forall (R : cring) (reqb : R -> R -> bool), (forall a b, reqb a b = true <-> a = b) ->
  forall m m' : emesh R, mesh_equal R reqb m m' = mesh_equal R reqb m' m /\ mesh_not_equal R reqb m m' = mesh_not_equal R reqb m' m.
Proof. intros R reqb Hr m m'. unfold mesh_not_equal. now rewrite (mesh_equal_sym reqb Hr m m'). Qed.
Print Assumptions C200_symmetric.

(** A mesh is equal to itself, and meshes equal to the same mesh are equal. *)
Theorem C200_reflexive_transitive :
  forall (R : cring) (reqb : R -> R -> bool), (forall a b, reqb a b = true <-> a = b) ->
  forall m m' m'' : emesh R, concrete_mesh m -> concrete_mesh m' ->
    mesh_equal R reqb m m = Ok true /\
    (mesh_equal R reqb m m' = Ok true -> mesh_equal R reqb m' m'' = Ok true -> mesh_equal R reqb m m'' = Ok true).
Proof.
  intros R reqb Hr m m' m'' Hm Hm'. rewrite !(mesh_equal_iff reqb Hr) by auto. unfold same_data. split; [tauto|].
  intros (? & ? & ? & ? & ? & ? & ? & ?) (? & ? & ? & ? & ? & ? & ? & ?). repeat split; congruence.
Qed.
Print Assumptions C200_reflexive_transitive.

(** == and != have a truth value, and opposite ones, if the maps of groups at the same place have the same components. *)
Theorem C200_total :
  forall (R : cring) (reqb : R -> R -> bool), (forall a b, reqb a b = true <-> a = b) ->
  forall m m' : emesh R, comparable_meshes m m' ->
    exists b, mesh_equal R reqb m m' = Ok b /\ mesh_not_equal R reqb m m' = Ok (negb b).
Proof.
  intros R reqb Hr m m' H. unfold mesh_not_equal. destruct (mesh_equal_total reqb Hr m m' H) as (b & ->). cbn. eauto.
Qed.
Print Assumptions C200_total.

(** Two segments in the plane, glued by a translation *)
Definition ex_eg (x : Z) : egrp Zcring :=
  mk_egrp Zcring 0 1 (Some (mk_arr [2; 2] [0; 1; 2; 3])) (mk_arr (X := Zcring) [2; 2; 2] [0; 1; 0; 1; 0; 0; x; x]%Z) (mk_arr (X := Zcring) [1; 2] [0; 1]%Z).
Definition ex_fa (f : amap Zcring) : fagroup Zcring :=
  GInterior Zcring 0 0 0 (mk_arr [2] [0; 1]) (mk_arr [2] [0; 1]) (mk_arr [2] [1; 0]) (mk_arr [2] [1; 0]) f.
Definition ex_bd : fagroup Zcring := GBoundary Zcring 0 0 TAll (mk_arr [2] [0; 1]) (mk_arr [2] [1; 0]).
Definition ex_em (x : Z) (fd : nat) (fa : list (list (fagroup Zcring))) : emesh Zcring :=
  mk_emesh Zcring 0 (Some (mk_arr (X := Zcring) [2; 4] [0; 1; 0; 1; 0; 0; x; x]%Z)) [ex_eg x] (Some true) LFalse (LSome fa) 32 32 fd.
Definition ex_shift (o : list Z) : amap Zcring := mk_amap (R := Zcring) None (Some o).

Example C200_example :
  mesh_equal Zcring Z.eqb (ex_em 1 8 [[ex_fa (ex_shift [0; 1]%Z); ex_bd]]) (ex_em 1 8 [[ex_fa (ex_shift [0; 1]%Z); ex_bd]]) = Ok true /\
  mesh_equal Zcring Z.eqb (ex_em 1 8 [[ex_fa (ex_shift [0; 1]%Z); ex_bd]]) (ex_em 1 8 [[ex_fa (ex_shift [0; 2]%Z); ex_bd]]) = Ok false /\
  mesh_equal Zcring Z.eqb (ex_em 1 8 [[ex_fa (ex_shift [0; 1]%Z); ex_bd]]) (ex_em 2 8 [[ex_fa (ex_shift [0; 1]%Z); ex_bd]]) = Ok false /\
  mesh_equal Zcring Z.eqb (ex_em 1 8 [[ex_fa (ex_shift [0; 1]%Z); ex_bd]]) (ex_em 1 8 [[ex_fa (ex_shift [0; 1]%Z)]]) = Ok false /\
  mesh_not_equal Zcring Z.eqb (ex_em 1 8 [[ex_fa (ex_shift [0; 1]%Z); ex_bd]]) (ex_em 1 8 [[ex_fa (ex_shift [0; 1]%Z)]]) = Ok true /\
  concrete_mesh (ex_em 1 8 [[ex_fa (ex_shift [0; 1]%Z); ex_bd]]) /\
  comparable_meshes (ex_em 1 8 [[ex_fa (ex_shift [0; 1]%Z); ex_bd]]) (ex_em 2 8 [[ex_fa (ex_shift [0; 2]%Z); ex_bd]]).
Proof.
  repeat match goal with |- _ /\ _ => split end; try (vm_compute; reflexivity).
  - cbn. repeat constructor.
  - intros gs hs [= <-] [= <-] i j l l' a b Hl Hl' Ha Hb f g Hf Hg.
    destruct i as [|[|i]]; cbn in Hl, Hl'; try discriminate; injection Hl as <-; injection Hl' as <-;
      destruct j as [|[|[|j]]]; cbn in Ha, Hb; try discriminate; injection Ha as <-; injection Hb as <-; cbn in Hf, Hg; try discriminate;
      injection Hf as <-; injection Hg as <-; cbn; split; split; discriminate || auto.
Qed.

(** ** C201 (refuted): comparing meshes always has a truth value, and only meshes with the same data are equal *)
Theorem C201_mesh_comparison_refuted :
  exists m1 m2 m3 m4 m5 m6 : emesh Zcring,
    (* the same mesh glued by a translation and without a map: both == and != raise *)
    mesh_equal Zcring Z.eqb m1 m2 = Err ValueError /\ mesh_not_equal Zcring Z.eqb m1 m2 = Err ValueError /\ concrete_mesh m1 /\ concrete_mesh m2 /\
    (* meshes with different face_id_dtype are equal *)
    mesh_equal Zcring Z.eqb m3 m4 = Ok true /\ em_fdtype Zcring m3 <> em_fdtype Zcring m4 /\ concrete_mesh m3 /\
    (* meshes with groups of the class FacialAdjacencyGroup that have different faces are equal *)
    mesh_equal Zcring Z.eqb m5 m6 = Ok true /\ em_facial Zcring m5 <> em_facial Zcring m6.
Proof.
  exists (ex_em 1 8 [[ex_fa (ex_shift [0; 1]%Z); ex_bd]]), (ex_em 1 8 [[ex_fa (mk_amap (R := Zcring) None None); ex_bd]]),
    (ex_em 1 8 [[ex_bd]]), (ex_em 1 16 [[ex_bd]]),
    (ex_em 1 8 [[GFacial Zcring 0 0 (mk_arr [2] [0; 1]) (mk_arr [2] [0; 1])]]), (ex_em 1 8 [[GFacial Zcring 0 0 (mk_arr [1] [0]) (mk_arr [1] [0])]]).
  repeat match goal with |- _ /\ _ => split end; try (vm_compute; reflexivity); try (cbn; repeat constructor); cbn; discriminate.
Qed.
Print Assumptions C201_mesh_comparison_refuted.
