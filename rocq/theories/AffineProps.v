(** * Properties C19, C20, C58-C61: affine maps, rotations, grids of meshes. *)
From Coq Require Import List Arith Bool ZArith Lia.
From Verif Require Import Np NpFacts MeshModel MeshSpec MeshStateModel Lin ProcModel ProcSpec AffineModel AffineSpec
  AffineProofs GridProofs.
Import ListNotations.

(** ** C19: inverted() is inverse on both sides. *)
Theorem C19_inverted_is_inverse :
  forall (R : cring) (d : nat) inv (f g : amap R) (x : list R),
    inverts d inv -> amap_wf d f -> amap_inverted R inv f = Ok g -> length x = d ->
    (exists y, amap_call R f x = Ok y /\ amap_call R g y = Ok x) /\
    (exists y, amap_call R g x = Ok y /\ amap_call R f y = Ok x).
Proof. exact inverted_main. Qed.
Print Assumptions C19_inverted_is_inverse.

(** The inverse exists whenever the matrix, if any, can be inverted; the trivial map is the identity. *)
Theorem C19_inverted_exists :
  forall (R : cring) (d : nat) inv (f : amap R), inverts d inv -> amap_wf d f ->
    ((exists g, amap_inverted R inv f = Ok g) <-> (forall M, am_matrix f = Some M -> exists N, inv M = Ok N)).
Proof.
  intros R d inv f Hinv (HM & Ho). unfold amap_inverted. destruct (am_matrix f) as [M|].
  - split.
    + intros (g & H) M' [= <-]. destruct (inv M) as [N|]; [eauto|discriminate].
    + intros H. destruct (H M eq_refl) as (N & EN). rewrite EN. cbn [bind].
      destruct (am_offset f) as [o|]; [|eauto].
      rewrite (apply_matrix_ok R d d); [cbn [bind]; eauto| |auto].
      apply is_mat_opp. now apply (Hinv M N (HM M eq_refl)).
  - split; [discriminate|eauto].
Qed.
Print Assumptions C19_inverted_exists.
Theorem C19_trivial_map_is_identity :
  forall (R : cring) (x : list R), amap_call R (mk_amap None None) x = Ok x.
Proof. reflexivity. Qed.
Print Assumptions C19_trivial_map_is_identity.

Definition ex_inv (M : list (list Z)) : res (list (list Z)) :=
  match M with
  | [[a; b]; [c; e]] =>
      let D := (a * e - b * c)%Z in
      if (D * D =? 1)%Z then Ok [[D * e; - D * b]; [- D * c; D * a]]%Z else Err ValueError
  | _ => Err ValueError
  end.
Example C19_example :
  inverts (R := Zcring) 2 ex_inv /\
  amap_inverted Zcring ex_inv (mk_amap (R := Zcring) (Some [[2; 1]; [3; 2]]%Z) (Some [5; -7]%Z)) =
    Ok (mk_amap (R := Zcring) (Some [[2; -1]; [-3; 2]]%Z) (Some [-17; 29]%Z)) /\
  amap_call Zcring (mk_amap (R := Zcring) (Some [[2; 1]; [3; 2]]%Z) (Some [5; -7]%Z)) [10; 20]%Z = Ok [45; 63]%Z /\
  amap_call Zcring (mk_amap (R := Zcring) (Some [[2; -1]; [-3; 2]]%Z) (Some [-17; 29]%Z)) [45; 63]%Z = Ok [10; 20]%Z.
Proof.
  split; [|vm_compute; auto].
  intros M N (HM1 & HM2) HI. unfold ex_inv in HI.
  destruct M as [|[|a [|b [|? ?]]] [|[|c [|e [|? ?]]] [|? ?]]]; try discriminate.
  destruct (Z.eqb_spec ((a * e - b * c) * (a * e - b * c)) 1) as [HD|]; [|discriminate].
  injection HI as <-. set (D := (a * e - b * c)%Z) in *.
  split; [split; [reflexivity|repeat constructor]|].
  assert (HDD : (D * (a * e - b * c) = 1)%Z) by exact HD. clearbody D.
  split; cbn; repeat f_equal; lia.
Qed.

(** ** C20: affine_map transforms all points and keeps the elements; an adjacency map h becomes a map h' with
    h'(A x + b) = A h(x) + b exactly when [compatible] holds: the matrix of h commutes with A, and if h has
    a matrix but no offset, that matrix fixes b.  Missing for the full property: the other maps, for which it is false
    (below). *)
Theorem C20_affine_map_partial :
  forall (R : cring) (d : nat) A b (m : mesh (list (list R)) (amap R) (list R)),
    args_ok d A b -> points_in d m -> m_facial m <> Unavailable ->
    (forall fags, m_facial m = Available fags -> Forall (Forall (fagrp_all (amap_wf d))) fags) ->
    exists m', affine_map R d A b m = Ok m' /\ same_up_to (transform d A b) m m' /\
      match m_facial m, m_facial m' with
      | Available fags, Available fags' =>
          Forall2 (Forall2 (fagrp_rel (fun h h' => carries d A b h h' <-> compatible d A b h))) fags fags'
      | Pending, Pending => True
      | _, _ => False
      end.
Proof.
  intros R d A b m H HP Hf Hw. destruct (affine_map_ok R d A b m H HP Hf Hw) as (m' & E & HS & HF).
  exists m'. split; [exact E|]. split; [exact HS|].
  destruct (m_facial m) as [| |fags]; destruct (m_facial m') as [| |fags']; auto.
  specialize (Hw fags eq_refl). clear -H HF Hw.
  induction HF as [|l l' fags fags' Hl HF IH]; constructor.
  - apply Forall_cons_iff in Hw as (Hw & _). clear -H Hl Hw.
    induction Hl as [|fg fg' l l' Hfg Hl IH]; constructor.
    + apply Forall_cons_iff in Hw as (Hw & _).
      destruct fg, fg'; cbn in *; try tauto.
      * destruct Hfg as (-> & -> & -> & ->). do 3 (split; [reflexivity|]). now apply carries_iff.
      * destruct Hfg as (-> & -> & -> & -> & ->). do 4 (split; [reflexivity|]). now apply carries_iff.
    + apply IH. now apply Forall_cons_iff in Hw.
  - apply IH. now apply Forall_cons_iff in Hw.
Qed.
Print Assumptions C20_affine_map_partial.

(** In particular translations of periodic meshes, and any map if the adjacency maps are translations, are fine. *)
Theorem C20_translations_carried :
  forall (R : cring) (d : nat) A b (h : amap R), am_matrix h = None -> compatible d A b h.
Proof. intros R d A b h H G HG. congruence. Qed.
Print Assumptions C20_translations_carried.

(** wrong shapes are rejected; a mesh without facial adjacency cannot be mapped *)
Theorem C20_errors :
  forall (R : cring) (d : nat) (m : mesh (list (list R)) (amap R) (list R)),
    (forall M b, ~ is_mat d d M -> affine_map R d (Some (Arr M)) b m = Err ValueError) /\
    (forall A v, (forall M, A = Some (Arr M) -> is_mat d d M) -> length v <> d -> affine_map R d A (Some (Arr v)) m = Err ValueError) /\
    (forall A b, (A <> None \/ b <> None) -> args_ok d A b -> points_in d m -> m_facial m = Unavailable ->
       affine_map R d A b m = Err DataUnavailableError).
Proof.
  intros R d m. split; [|split].
  - intros M b HM. unfold affine_map. cbn [option_map].
    assert (E : (length M =? d) && forallb (fun r => length r =? d) M = false).
    { apply not_true_is_false. intros E. apply andb_true_iff in E as (E1 & E2). apply HM. split.
      - now apply Nat.eqb_eq.
      - now apply forallb_len. }
    rewrite E. reflexivity.
  - intros A v HA Hv. apply Nat.eqb_neq in Hv. unfold affine_map. cbn [option_map].
    assert (E : match option_map (fun a => match a with Scalar c => diag R d c | Arr M => M end) A with
        | Some M => (length M =? d) && forallb (fun r => length r =? d) M | None => true end = true).
    { destruct A as [[c|M]|]; cbn [option_map]; auto;
        [pose proof (is_mat_diag R d c) as (H1 & H2)|pose proof (HA M eq_refl) as (H1 & H2)];
        apply forallb_len in H2; rewrite H1, H2, Nat.eqb_refl; reflexivity. }
    destruct (option_map _ A); rewrite ?E, Hv; reflexivity.
  - intros A b Hne H (Hv & Hg) Hf.
    assert (E : affine_map R d A b m = affine_core R d (amat R d A) (avec R d b) m).
    { destruct A, b; try reflexivity. destruct Hne; congruence. }
    rewrite E. unfold affine_core.
    assert (G1 : match amat R d A with Some M => (length M =? d) && forallb (fun r => length r =? d) M | None => true end = true).
    { destruct (amat R d A) as [M|] eqn:EM; auto. destruct (amat_wf R d A b M H EM) as (HM & HM').
      apply forallb_len in HM'. rewrite HM, HM', Nat.eqb_refl. reflexivity. }
    assert (G2 : match avec R d b with Some v => length v =? d | None => true end = true).
    { destruct (avec R d b) as [v|] eqn:Ev; auto. rewrite (avec_wf R d A b v H Ev). apply Nat.eqb_refl. }
    rewrite G1, G2, Hf. cbn [guard bind]. cbv zeta.
    assert (E1 : exists r, match m_vertices m with None => Ok None
              | Some vs => vs' <- mapM (amap_call R (mk_amap (amat R d A) (avec R d b))) vs ;; Ok (Some vs') end = Ok r).
    { destruct (m_vertices m) as [vs|]; [|eauto]. rewrite mapM_call; cbn [bind]; eauto. }
    destruct E1 as (r & ->). cbn [bind].
    match goal with |- context [bind (mapM ?f (m_groups m)) _] => assert (E2 : exists r, mapM f (m_groups m) = Ok r) end.
    { apply mapM_total. intros g Hin. rewrite Forall_forall in Hg. rewrite mapM_mapM_call by auto. cbn [bind]. eauto. }
    destruct E2 as (gs & ->). reflexivity.
Qed.
Print Assumptions C20_errors.

(** A one-element mesh with one adjacency map h *)
Definition ex_pm (h : amap Zcring) : mesh (list (list Z)) (amap Zcring) (list Z) :=
  mk_mesh [mk_egroup (Some [[0; 1; 2]]) [[[0; 0]; [1; 0]; [0; 1]]%Z] [[0; 1]; [1; 2]; [2; 0]]]
    (Some [[0; 0]; [1; 0]; [0; 1]]%Z) (Some true) Pending (Available [[Interior 0 0 [] h]]) 0 0 0.

Lemma ex_pm_ok h : amap_wf 2 h -> points_in (R := Zcring) 2 (ex_pm h) /\ m_facial (ex_pm h) <> Unavailable /\
  (forall fags, m_facial (ex_pm h) = Available fags -> Forall (Forall (fagrp_all (amap_wf 2))) fags).
Proof.
  intros H. split; [split; cbn|split].
  - intros vs [= <-]. repeat constructor.
  - repeat constructor.
  - cbn. discriminate.
  - cbn. intros fags [= <-]. constructor; [|constructor]. constructor; [exact H|constructor].
Qed.

(** Scaling by 2 and a quarter turn commute; the offset is carried along. *)
Definition ex_turn : amap Zcring := mk_amap (R := Zcring) (Some [[0; -1]; [1; 0]]%Z) (Some [3; 4]%Z).
Example C20_example :
  amap_wf 2 ex_turn /\ compatible (R := Zcring) 2 (Some (Scalar (R := Zcring) 2%Z)) (Some (Arr (R := Zcring) [10; 20]%Z)) ex_turn /\
  exists m', affine_map Zcring 2 (Some (Scalar (R := Zcring) 2%Z)) (Some (Arr (R := Zcring) [10; 20]%Z)) (ex_pm ex_turn) = Ok m' /\
    m_vertices m' = Some [[10; 20]; [12; 20]; [10; 22]]%Z /\
    m_facial m' = Available [[Interior 0 0 [] (mk_amap (R := Zcring) (Some [[0; -1]; [1; 0]]%Z) (Some [36; 18]%Z))]].
Proof.
  split; [|split].
  - split; cbn; intros ? [= <-]; [split; [reflexivity|repeat constructor]|reflexivity].
  - intros G [= <-]. split; [|discriminate]. intros x Hx.
    destruct x as [|x0 [|x1 [|? ?]]]; try discriminate.
    cbv [times vscale matvec map dot map2 rsum radd rmul r0 Zcring]. f_equal; [lia|f_equal; lia].
  - eexists. split; [vm_compute; reflexivity|]. split; reflexivity.
Qed.

(** Refuted: a rotation A that does not commute with the matrix of h (a reflection) *)
Theorem C20_noncommuting_refuted :
  exists (A : list (list Z)) (h : amap Zcring) (m' : mesh (list (list Z)) (amap Zcring) (list Z)) (h' : amap Zcring) x y,
    amap_wf 2 h /\ is_mat (R := Zcring) 2 2 A /\
    affine_map Zcring 2 (Some (Arr A)) None (ex_pm h) = Ok m' /\ m_facial m' = Available [[Interior 0 0 [] h']] /\
    amap_call Zcring h x = Ok y /\
    amap_call Zcring h' (matvec (R := Zcring) A x) <> Ok (matvec (R := Zcring) A y).
Proof.
  exists [[0; -1]; [1; 0]]%Z, (mk_amap (R := Zcring) (Some [[-1; 0]; [0; 1]]%Z) (Some [1; 0]%Z)).
  eexists. eexists. exists [5; 7]%Z. eexists.
  split; [split; cbn; intros ? [= <-]; [split; [reflexivity|repeat constructor]|reflexivity]|].
  split; [split; [reflexivity|repeat constructor]|].
  split; [vm_compute; reflexivity|]. split; [vm_compute; reflexivity|].
  split; [vm_compute; reflexivity|]. vm_compute. discriminate.
Qed.
Print Assumptions C20_noncommuting_refuted.

(** Refuted: a pure translation by b of a mesh whose adjacency map is a rotation without offset *)
Theorem C20_missing_offset_refuted :
  exists (b : list Z) (h : amap Zcring) (m' : mesh (list (list Z)) (amap Zcring) (list Z)) (h' : amap Zcring) x y,
    amap_wf 2 h /\ length b = 2 /\
    affine_map Zcring 2 None (Some (Arr b)) (ex_pm h) = Ok m' /\ m_facial m' = Available [[Interior 0 0 [] h']] /\
    amap_call Zcring h x = Ok y /\
    amap_call Zcring h' (vadd (R := Zcring) x b) <> Ok (vadd (R := Zcring) y b).
Proof.
  exists [1; 0]%Z, (mk_amap (R := Zcring) (Some [[0; -1]; [1; 0]]%Z) None).
  eexists. eexists. exists [5; 7]%Z. eexists.
  split; [split; cbn; intros ? [= <-]; split; [reflexivity|repeat constructor]|].
  split; [reflexivity|].
  split; [vm_compute; reflexivity|]. split; [vm_compute; reflexivity|].
  split; [vm_compute; reflexivity|]. vm_compute. discriminate.
Qed.
Print Assumptions C20_missing_offset_refuted.

(** ** C58: make_mesh_grid is the disjoint union of translated copies, the copy with index (i_1, ..., i_d) being
    displaced by offset[0] + i_1 offset[0] + ... + i_d offset[d-1]. *)
Theorem C58_mesh_grid :
  forall (R : cring) (d : nat) leb quarter same_kind shape offset (m : mesh (list (list R)) (amap R) (list R)),
    0 < d -> length shape = d -> Forall (lt 0) shape -> length offset = d -> Forall (fun o => length o = d) offset ->
    points_in d m -> m_vertices m <> None -> has_rows (m_groups m) -> m_facial m <> Unavailable ->
    (forall fags, m_facial m = Available fags -> Forall (Forall (fagrp_all (amap_wf d))) fags) ->
    exists copies m', make_mesh_grid R leb quarter same_kind d shape (Some offset) m = Ok m' /\
      disjoint_union copies m' /\ length copies = fold_right Nat.mul 1 shape /\
      forall index, Forall2 lt index shape -> exists c o0,
        nth_error copies (radix shape index) = Some c /\ nth_error offset 0 = Some o0 /\
        same_up_to (fun x => vadd x (vadd o0 (lattice d index offset))) m c.
Proof. exact grid_main. Qed.
Print Assumptions C58_mesh_grid.

Definition ex_gm : mesh (list (list Z)) (amap Zcring) (list Z) :=
  mk_mesh [mk_egroup (Some [[0; 1]]) [[[0]; [1]]%Z] [[0]; [1]]] (Some [[0]; [1]]%Z) (Some true) Pending Pending 0 0 0.
Example C58_example :
  Forall2 lt [1; 0] [2; 3] /\ radix [2; 3] [1; 0] = 3 /\
  lattice (R := Zcring) 2 [1; 2] [[10; 0]; [0; 7]]%Z = [10; 14]%Z /\
  exists m', make_mesh_grid Zcring Z.leb 0%Z (fun _ _ => true) 1 [2] (Some [[10]]%Z) ex_gm = Ok m' /\
    m_vertices m' = Some [[10]; [11]; [20]; [21]]%Z /\
    map eg_vi (m_groups m') = [Some [[0; 1]]; Some [[2; 3]]].
Proof.
  split; [repeat constructor|]. split; [reflexivity|]. split; [reflexivity|].
  eexists. split; [vm_compute; reflexivity|]. split; reflexivity.
Qed.

(** Refuted (C59): the copy with index (0, ..., 0) is the mesh itself *)
Theorem C59_grid_origin_refuted :
  exists (m m' : mesh (list (list Z)) (amap Zcring) (list Z)) vs vs' (offset : list (list Z)),
    make_mesh_grid Zcring Z.leb 0%Z (fun _ _ => true) 1 [1] (Some offset) m = Ok m' /\
    m_vertices m = Some vs /\ m_vertices m' = Some vs' /\ vs' <> vs /\ offset = [[10]]%Z.
Proof.
  exists ex_gm. eexists. eexists. eexists. exists [[10]]%Z.
  split; [vm_compute; reflexivity|]. split; [reflexivity|]. split; [reflexivity|]. split; [discriminate|reflexivity].
Qed.
Print Assumptions C59_grid_origin_refuted.

(** ** C60 (refuted): comparing affine maps always gives a truth value *)
Theorem C60_affine_map_equality_refuted :
  exists f g h k : amap Zcring,
    (* raises *)
    amap_eq Zcring Z.eqb f g = Err ValueError /\ amap_ne Zcring Z.eqb f g = Err ValueError /\
    (* gives an array with several entries, and != raises *)
    amap_eq Zcring Z.eqb h k = Ok (VArray [false; false]) /\ amap_ne Zcring Z.eqb h k = Err ValueError /\
    (* all of them maps of the plane *)
    amap_wf 2 f /\ amap_wf 2 g /\ amap_wf 2 h /\ amap_wf 2 k.
Proof.
  exists (mk_amap (R := Zcring) (Some [[1; 0]; [0; 1]]%Z) None), (mk_amap (R := Zcring) None None),
         (mk_amap (R := Zcring) None (Some [1; 2]%Z)), (mk_amap (R := Zcring) None None).
  split; [reflexivity|]. split; [reflexivity|]. split; [reflexivity|]. split; [reflexivity|].
  repeat split; cbn; intros; try discriminate; try (injection H as <-); try reflexivity; repeat constructor.
Qed.
Print Assumptions C60_affine_map_equality_refuted.

(** When the same components are present, equality is what it should be. *)
Theorem C60_equality_same_shape_partial :
  forall (R : cring) (reqb : R -> R -> bool), (forall a b, reqb a b = true <-> a = b) ->
  forall f g : amap R, (am_matrix f = None <-> am_matrix g = None) -> (am_offset f = None <-> am_offset g = None) ->
    exists b, amap_eq R reqb f g = Ok (VBool b) /\ amap_ne R reqb f g = Ok (negb b) /\ (b = true <-> f = g).
Proof.
  intros R reqb Hr [M o] [M' o'] HM Ho. cbn [am_matrix am_offset] in *.
  set (veqb := fun u v : list R => (length u =? length v) && forallb (fun p => reqb (fst p) (snd p)) (combine u v)).
  set (meqb := fun M N : list (list R) => (length M =? length N) && forallb (fun p => veqb (fst p) (snd p)) (combine M N)).
  assert (gen : forall (X : Type) (e : X -> X -> bool), (forall a b, e a b = true <-> a = b) -> forall u v : list X,
     (length u =? length v) && forallb (fun p => e (fst p) (snd p)) (combine u v) = true <-> u = v).
  { intros X e He u. induction u as [|a u IH]; intros [|b v]; cbn; try (split; [discriminate|discriminate || auto]); auto.
    - split; auto.
    - rewrite !andb_true_iff. specialize (IH v). rewrite andb_true_iff in IH. rewrite He. split.
      + intros (H1 & -> & H2). f_equal. now apply IH.
      + intros [= -> ->]. pose proof (proj2 IH eq_refl). tauto. }
  assert (Hv : forall u v, veqb u v = true <-> u = v) by (intros; apply gen; auto).
  assert (Hm : forall u v, meqb u v = true <-> u = v) by (intros; apply gen; auto).
  assert (Eq : forall f g, amap_eq R reqb f g =
    let e := component_equal meqb (fun M => sum (map (@length _) M)) (am_matrix f) (am_matrix g) in
    b <- truth e ;; if b then Ok (component_equal veqb (@length _) (am_offset f) (am_offset g)) else Ok e) by reflexivity.
  unfold amap_ne. rewrite Eq. cbv zeta. clearbody veqb meqb. clear Eq. cbn [am_matrix am_offset].
  destruct M as [M|], M' as [M'|]; try (exfalso; destruct HM as (H1 & H2); (discriminate (H1 eq_refl) || discriminate (H2 eq_refl)));
  destruct o as [o|], o' as [o'|]; try (exfalso; destruct Ho as (H1 & H2); (discriminate (H1 eq_refl) || discriminate (H2 eq_refl)));
  cbn [component_equal truth bind].
  - destruct (meqb M M') eqn:E1; cbn [truth bind].
    + eexists; split; [reflexivity|]. split; [reflexivity|]. apply Hm in E1 as ->. rewrite Hv. split; congruence.
    + eexists; split; [reflexivity|]. split; [reflexivity|]. split; [discriminate|]. intros [= <- <-].
      rewrite (proj2 (Hm M M) eq_refl) in E1. discriminate.
  - destruct (meqb M M') eqn:E1; cbn [truth bind].
    + eexists; split; [reflexivity|]. split; [reflexivity|]. apply Hm in E1 as ->. split; auto.
    + eexists; split; [reflexivity|]. split; [reflexivity|]. split; [discriminate|]. intros [= <-].
      rewrite (proj2 (Hm M M) eq_refl) in E1. discriminate.
  - eexists; split; [reflexivity|]. split; [reflexivity|]. rewrite Hv. split; congruence.
  - eexists; split; [reflexivity|]. split; [reflexivity|]. split; auto.
Qed.
Print Assumptions C60_equality_same_shape_partial.
Example C60_example :
  amap_eq Zcring Z.eqb (mk_amap (R := Zcring) None (Some [1; 2]%Z)) (mk_amap (R := Zcring) None (Some [1; 2]%Z)) = Ok (VBool true) /\
  amap_eq Zcring Z.eqb (mk_amap (R := Zcring) None (Some [1; 2]%Z)) (mk_amap (R := Zcring) None (Some [1; 3]%Z)) = Ok (VBool false).
Proof. vm_compute; auto. Qed.

(** ** C61: rotations *)
Local Open Scope cring_scope.

(** The rotation matrix is orthogonal with determinant one, fixes the axis, and turns vectors orthogonal to the axis
    by the angle, counterclockwise seen from the tip of the axis. *)
Theorem C61_axis_rotation :
  forall (R : cring) (c s x y z : R), c * c + s * s = 1 -> x * x + y * y + z * z = 1 ->
    let M := axis_rotation R c s x y z in
    matmul 3 (transpose 3 M) M = idmat 3 /\ det R 3 M = 1 /\ matvec M [x; y; z] = [x; y; z] /\
    forall v0 v1 v2, x * v0 + y * v1 + z * v2 = 0 ->
      matvec M [v0; v1; v2] =
      vadd (vscale c [v0; v1; v2]) (vscale s [y * v2 - z * v1; z * v0 - x * v2; x * v1 - y * v0]).
Proof.
  intros R c s x y z Hc Hu M. destruct (axis_rotation_ok R c s Hc x y z Hu) as (H1 & H2 & H3).
  repeat split; auto. intros. now apply axis_rotation_angle.
Qed.
Print Assumptions C61_axis_rotation.

(** rotate_mesh_around_axis maps every vertex and node by that matrix. *)
Theorem C61_rotate_mesh :
  forall (R : cring) (c s : R) axis n (m : mesh (list (list R)) (amap R) (list R)), points_in n m ->
    m_facial m <> Unavailable ->
    (forall fags, m_facial m = Available fags -> Forall (Forall (fagrp_all (amap_wf n))) fags) ->
    (n = 2%nat -> exists m', rotate_mesh_around_axis R n c s axis m = Ok m' /\ same_up_to (matvec [[c; - s]; [s; c]]) m m') /\
    (n = 3%nat -> exists m', rotate_mesh_around_axis R n c s axis m = Ok m' /\
       same_up_to (matvec (let '(x, y, z) := match axis with Some u => u | None => (0, 0, 1) end in axis_rotation R c s x y z)) m m').
Proof. exact rotate_ok. Qed.
Print Assumptions C61_rotate_mesh.

Theorem C61_random_rotation :
  forall (R : cring) (ct st r q sphi cphi : R),
    ct * ct + st * st = 1 -> cphi * cphi + sphi * sphi = 1 -> r * r + q * q = 1 + 1 ->
    let M := rand_rotation_matrix R r q sphi cphi st ct in
    matmul 3 (transpose 3 M) M = idmat 3 /\ det R 3 M = 1.
Proof. intros R ct st r q sphi cphi H1 H2 H3 M. now apply rand_rotation_ok. Qed.
Print Assumptions C61_random_rotation.

(** a quarter turn about the z axis takes the x axis to the y axis *)
Example C61_example :
  matvec (axis_rotation Zcring 0%Z 1%Z 0%Z 0%Z 1%Z) [1; 0; 0]%Z = [0; 1; 0]%Z /\
  rand_rotation_matrix Zcring 1%Z 1%Z 0%Z 1%Z 1%Z 0%Z = [[0; -1; 0]; [0; 0; 1]; [-1; 0; 0]]%Z /\
  exists m', rotate_mesh_around_axis Zcring 2 0%Z 1%Z None (ex_pm (mk_amap (R := Zcring) None None)) = Ok m' /\
     m_vertices m' = Some [[0; 0]; [0; 1]; [-1; 0]]%Z.
Proof.
  split; [reflexivity|]. split; [reflexivity|]. eexists. split; [vm_compute; reflexivity|]. reflexivity.
Qed.
