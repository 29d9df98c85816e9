(** * Properties C108-C115: consistency checks. *)
From Coq Require Import List Arith Bool ZArith Lia.
From Verif Require Import Np NpFacts MeshModel MeshSpec MeshExamples MeshStateModel Lin Ord QcOrd ProcModel ProcSpec FlipProofs AffineModel AffineSpec
  ConsistModel ConsistSpec ConsistProofs ConsistMainProofs ConsistForcedProofs ConsistAffProofs.
Import ListNotations.
Local Open Scope cring_scope.

(** Two triangles that fill the unit square, with their nodes at the vertices, over the integers *)
Definition sq_pts : list (list Zocring) := [[0; 0]; [1; 0]; [0; 1]; [1; 1]]%Z.
Definition sq_rows : list (list nat) := [[0; 1; 2]; [1; 3; 2]]%nat.
Definition sq_nodes : list (list (list Zocring)) := [[[0; 1; 0]; [0; 0; 1]]; [[1; 1; 0]; [0; 1; 1]]]%Z.
Definition sq_P : list (list Zocring) := [[1; 0; 0]; [0; 1; 0]; [0; 0; 1]]%Z.
Definition sq_res (g : cgroup Zocring) : list (list (fl Zocring)) := lift2 Zocring sq_P.
Definition sq_span (g : cgroup Zocring) : nat * list nat := (0, [1; 2])%nat.
Definition sq_group (rows : list (list nat)) (nodes : list (list (list (fl Zocring)))) (vid : nat) : cgroup Zocring :=
  mk_cgroup (mk_egroup (Some rows) nodes tri_faces) vid true true 2 2.
Definition sq_mesh : cmesh Zocring :=
  mk_cmesh [sq_group sq_rows (map (lift2 Zocring) sq_nodes) 0] (Some (lift2 Zocring sq_pts))
    (Available (mk_iarr [3%nat] 0 [0; 1; 2]%Z, mk_iarr [2%nat] 0 [1; 0]%Z))
    (Available [[CInterior 0 0 (mk_iarr [2%nat] 0 [0; 1]%Z) (mk_iarr [2%nat] 0 [1; 2]%Z) (mk_iarr [2%nat] 0 [1; 0]%Z) (mk_iarr [2%nat] 0 [2; 1]%Z)]]) 0 0 0.
Definition tolZ (t : Z) : tolarg Zocring := Tol (t : Zocring).
Definition sq_els : list (list (list nat) * list (list (list Zocring))) := [(sq_rows, sq_nodes)].

(** ** C108: the check passes exactly if nodes and vertices agree, all elements are positively oriented and the arrays have the documented shapes and dtypes. *)
Theorem C108_check_decides_consistency :
  forall (R : ocring) resampling span default_tol d (m : cmesh R) pts els tol,
    (1 <= d <= 3)%nat -> exact_mesh d m pts els -> Forall2 (reference resampling span d (length pts)) (cm_groups m) els ->
    (check_mesh_consistency R resampling span default_tol d (Tol tol) false m = Ok tt <-> consistent resampling span d tol m pts els) /\
    (check_mesh_consistency R resampling span default_tol d TolNone false m = Ok tt <-> consistent resampling span d default_tol m pts els).
Proof.
  intros R resampling span default_tol d m pts els tol Hd Hex Href.
  split; [exact (proj2 (check_iff R resampling span default_tol d m pts els Hd Hex Href tol))|].
  rewrite check_default. exact (proj2 (check_iff R resampling span default_tol d m pts els Hd Hex Href default_tol)).
Qed.
Print Assumptions C108_check_decides_consistency.

Lemma sq_exact : exact_mesh 2 sq_mesh sq_pts sq_els.
Proof.
  split; [reflexivity|]. split; [repeat constructor|]. split; [|discriminate]. repeat constructor.
Qed.
Lemma sq_reference : Forall2 (reference sq_res sq_span 2 (length sq_pts)) (cm_groups sq_mesh) sq_els.
Proof.
  constructor; [|constructor]. exists sq_P, 3%nat. split; [reflexivity|]. split; [discriminate|]. split; [repeat constructor|]. split.
  - split; repeat constructor.
  - split; [cbn; lia|]. split; [reflexivity|repeat constructor].
Qed.
Example C108_example : exact_mesh 2 sq_mesh sq_pts sq_els /\ Forall2 (reference sq_res sq_span 2 (length sq_pts)) (cm_groups sq_mesh) sq_els /\
  check_mesh_consistency Zocring sq_res sq_span 1%Z 2 (tolZ 1) false sq_mesh = Ok tt.
Proof. split; [exact sq_exact|]. split; [exact sq_reference|]. vm_compute. reflexivity. Qed.
(** exchanging two vertices makes an element negative; moving a node too far is noticed *)
Example C108_example_bad :
  check_mesh_consistency Zocring sq_res sq_span 1%Z 2 (tolZ 1) false
    (mk_cmesh [sq_group [[0; 2; 1]]%nat [lift2 Zocring [[0; 0; 1]; [0; 1; 0]]%Z] 0] (Some (lift2 Zocring sq_pts)) Pending Pending 0 0 0) = Err InconsistentMeshError /\
  check_mesh_consistency Zocring sq_res sq_span 1%Z 2 (tolZ 1) false
    (mk_cmesh [sq_group [[0; 1; 2]]%nat [lift2 Zocring [[0; 3; 0]; [0; 0; 1]]%Z] 0] (Some (lift2 Zocring sq_pts)) Pending Pending 0 0 0) = Err InconsistentVerticesError.
Proof. split; vm_compute; reflexivity. Qed.

(** ** C109: is_mesh_consistent is a boolean version of the check *)
Theorem C109_boolean_version :
  forall (R : ocring) resampling span default_tol d (m : cmesh R) pts els tol,
    (1 <= d <= 3)%nat -> exact_mesh d m pts els -> Forall2 (reference resampling span d (length pts)) (cm_groups m) els ->
    exists b, is_mesh_consistent R resampling span default_tol d (Tol tol) false m = Ok b /\ (b = true <-> consistent resampling span d tol m pts els).
Proof. intros R resampling span default_tol d m pts els tol Hd Hex Href. exact (is_consistent_iff R resampling span default_tol d m pts els Hd Hex Href tol). Qed.
Print Assumptions C109_boolean_version.
Example C109_example : is_mesh_consistent Zocring sq_res sq_span 1%Z 2 (tolZ 1) false sq_mesh = Ok true /\
  is_mesh_consistent Zocring sq_res sq_span 1%Z 2 (tolZ 1) false
    (mk_cmesh [sq_group [[0; 2; 1]]%nat [lift2 Zocring [[0; 0; 1]; [0; 1; 0]]%Z] 0] (Some (lift2 Zocring sq_pts)) Pending Pending 0 0 0) = Ok false.
Proof. split; vm_compute; reflexivity. Qed.

(** Refuted for volume meshes without vertices: for these, check and boolean version raise ValueError, and make_mesh does so as well,
    unless the orientation is not to be tested. *)
Theorem C109_no_vertices_refuted :
  exists m : cmesh Zocring, (forall skip tol, cm_vertices m = None /\
    check_mesh_consistency Zocring sq_res sq_span 1%Z 2 (Tol tol) skip m = (if skip then Ok tt else Err ValueError) /\
    is_mesh_consistent Zocring sq_res sq_span 1%Z 2 (Tol tol) skip m = (if skip then Ok true else Err ValueError)) /\
  exists groups : list (egroup (enodes Zocring)),
    make_mesh_checked Zocring (A := unit) sq_res sq_span 1%Z (fun _ => Err ValueError) false false TolNone false 0 2 2 None groups Pending Pending (Some true) 0 0 0 = Err ValueError /\
    exists m', make_mesh_checked Zocring (A := unit) sq_res sq_span 1%Z (fun _ => Err ValueError) false false TolNone true 0 2 2 None groups Pending Pending (Some true) 0 0 0 = Ok m'.
Proof.
  exists (mk_cmesh [mk_cgroup (mk_egroup None (map (lift2 Zocring) sq_nodes) tri_faces) 0 true true 2 2] None Unavailable Unavailable 0 0 0). split.
  - intros [|] tol; (split; [reflexivity|]); split; vm_compute; reflexivity.
  - exists [mk_egroup None sq_nodes tri_faces]. split; [vm_compute; reflexivity|]. eexists. vm_compute. reflexivity.
Qed.
Print Assumptions C109_no_vertices_refuted.

(** ** C110: the entries of the adjacency arrays are not looked at. *)
Theorem C110_contents_ignored :
  forall (R : ocring) resampling span default_tol d tol skip groups vs st nb st' nb' fags fags' vd ed fd,
    same_layout st st' -> same_layout nb nb' -> Forall2 (Forall2 same_layout_group) fags fags' ->
    check_mesh_consistency R resampling span default_tol d tol skip (mk_cmesh groups vs (Available (st, nb)) (Available fags) vd ed fd) =
    check_mesh_consistency R resampling span default_tol d tol skip (mk_cmesh groups vs (Available (st', nb')) (Available fags') vd ed fd).
Proof. exact check_layout. Qed.
Print Assumptions C110_contents_ignored.

(** Refuted: a mesh that passes has adjacency arrays that refer to existing elements and faces. *)
Definition refers_to_elements (m : cmesh Zocring) : Prop :=
  (forall st nb, cm_nodal m = Available (st, nb) -> Forall (fun s => 0 <= s <= Z.of_nat (length (ia_data nb)))%Z (ia_data st) /\
     Forall (fun n => 0 <= n < Z.of_nat (cm_nelements m))%Z (ia_data nb)) /\
  (forall fags i j e ef nb nf g, cm_facial m = Available fags -> In (CInterior i j e ef nb nf) (concat fags) -> nth_error (cm_groups m) j = Some g ->
     Forall (fun n => 0 <= n < Z.of_nat (nelements (cg_eg g)))%Z (ia_data nb)).
Definition bad_nodal : cmesh Zocring :=
  mk_cmesh (cm_groups sq_mesh) (cm_vertices sq_mesh) (Available (mk_iarr [3%nat] 0 [0; 7; -2]%Z, mk_iarr [2%nat] 0 [99; 0]%Z)) Pending 0 0 0.
Definition bad_facial : cmesh Zocring :=
  mk_cmesh (cm_groups sq_mesh) (cm_vertices sq_mesh) Pending
    (Available [[CInterior 0 0 (mk_iarr [2%nat] 0 [0; 1]%Z) (mk_iarr [2%nat] 0 [1; 2]%Z) (mk_iarr [2%nat] 0 [99; 0]%Z) (mk_iarr [2%nat] 0 [2; 1]%Z)]]) 0 0 0.
Theorem C110_contents_refuted :
  exists m m', check_mesh_consistency Zocring sq_res sq_span 1%Z 2 (tolZ 1) false m = Ok tt /\ cm_facial m = Pending /\ ~ refers_to_elements m /\
    check_mesh_consistency Zocring sq_res sq_span 1%Z 2 (tolZ 1) false m' = Ok tt /\ cm_nodal m' = Pending /\ ~ refers_to_elements m'.
Proof.
  exists bad_nodal, bad_facial. split; [vm_compute; reflexivity|]. split; [reflexivity|]. split.
  - intros (H & _). destruct (H _ _ eq_refl) as (_ & H2). apply Forall_cons_iff in H2 as (H2 & _). cbn in H2. lia.
  - split; [vm_compute; reflexivity|]. split; [reflexivity|]. intros (_ & H). specialize (H _ 0%nat 0%nat _ _ _ _ _ eq_refl (or_introl eq_refl) eq_refl).
    apply Forall_cons_iff in H as (H & _). cbn in H. lia.
Qed.
Print Assumptions C110_contents_refuted.

(** Refuted: every adjacency array has the documented shape and dtype.  The dtype of elements, and the neighbors of another part, are not checked, and an
    empty tuple passes for any number of groups. *)
Definition documented (m : cmesh Zocring) : Prop :=
  forall fags, cm_facial m = Available fags -> length fags = length (cm_groups m) /\
    Forall (fun f => ia_dtype (cf_elements f) = cm_edtype m /\
      forall i t p e ef nb nf, f = CInterPart i t p e ef nb nf -> ia_shape nb = ia_shape e /\ ia_shape nf = ia_shape e) (concat fags).
Theorem C110_shapes_refuted :
  exists m1 m2 m3 : cmesh Zocring, Forall (fun m => check_mesh_consistency Zocring sq_res sq_span 1%Z 2 (tolZ 1) false m = Ok tt /\ ~ documented m) [m1; m2; m3] /\
    (exists e ef, cm_facial m1 = Available [[CBoundary 0 TAll e ef]]) /\
    (exists e ef nb nf, cm_facial m2 = Available [[CInterPart 0 (TPartition 1) 1 e ef nb nf]]) /\ cm_facial m3 = Available [].
Proof.
  pose (M := fun f => mk_cmesh (cm_groups sq_mesh) (cm_vertices sq_mesh) Pending (Available f) 0 0 0).
  exists (M [[CBoundary 0 TAll (mk_iarr [1%nat] 5 [0]%Z) (mk_iarr [1%nat] 0 [0]%Z)]]),
    (M [[CInterPart 0 (TPartition 1) 1 (mk_iarr [1%nat] 0 [0]%Z) (mk_iarr [1%nat] 0 [0]%Z) (mk_iarr [3%nat] 0 [0; 0; 0]%Z) (mk_iarr [4%nat; 2%nat] 7 []%Z)]]), (M []).
  split.
  - apply Forall_cons; [|apply Forall_cons; [|apply Forall_cons; [|constructor]]]; (split; [vm_compute; reflexivity|]); intros H; specialize (H _ eq_refl).
    + destruct H as (_ & H). apply Forall_cons_iff in H as ((H & _) & _). discriminate H.
    + destruct H as (_ & H). apply Forall_cons_iff in H as ((_ & H) & _). destruct (H _ _ _ _ _ _ _ eq_refl) as (H1 & _). discriminate H1.
    + destruct H as (H & _). discriminate H.
  - split; [repeat eexists|]. split; [repeat eexists|reflexivity].
Qed.
Print Assumptions C110_shapes_refuted.

(** ** C111 (refuted): a mesh that passes the check has no NaN among its nodes, and nodes near its vertices. *)
Theorem C111_nan_refuted :
  exists m : cmesh Zocring, check_mesh_consistency Zocring sq_res sq_span 1%Z 2 (tolZ 1) false m = Ok tt /\
    cm_vertices m = Some (lift2 Zocring sq_pts) /\
    exists g, cm_groups m = [g] /\ eg_vi (cg_eg g) = Some [[0; 1; 2]]%nat /\ eg_nodes (cg_eg g) = [[[Some 1000; Some 1000; Some 1000]; [Some 0; None; Some 1]]]%Z.
Proof.
  exists (mk_cmesh [sq_group [[0; 1; 2]]%nat [[[Some 1000; Some 1000; Some 1000]; [Some 0; None; Some 1]]]%Z 0] (Some (lift2 Zocring sq_pts)) Pending Pending 0 0 0).
  split; [vm_compute; reflexivity|]. split; [reflexivity|]. eexists. split; [reflexivity|]. split; reflexivity.
Qed.
Print Assumptions C111_nan_refuted.

(** ** C112: meshes of simplices made with force_positive_orientation pass the check *)
Theorem C112_forced_meshes_pass :
  forall (R : ocring) (A : Type) resampling span default_tol flipper d (P : list (list nat) -> list (list R)) skip_tests tol vs (groups : list (egroup (enodes R)))
      (nodal : lazyf nadj) (facial : lazyf (list (list (fagrp A)))) conforming vd ed fd m0,
    (1 <= d <= 3)%nat -> make_mesh (Some vs) groups nodal facial conforming vd ed fd = Ok m0 ->
    Forall (fun v => length v = d) vs -> simplices d (length vs) groups -> groups <> [] ->
    (forall g, In g groups -> exists M perm n, flipper g = Ok (M, perm) /\ simplex_flip_permutation d = Ok perm /\
       is_mat n n M /\ matmul n M M = idmat n /\ Forall (fun x => length x = d /\ Forall (fun r => length r = n) x) (eg_nodes g) /\
       is_mat (d + 1) n (P (eg_fvi g)) /\
       (forall j p wj wp y, nth_error perm j = Some p -> nth_error (P (eg_fvi g)) j = Some wj -> nth_error (P (eg_fvi g)) p = Some wp ->
          length y = n -> dot wp (matvec M y) = dot wj y)) ->
    (forall g g', In g groups -> eg_fvi g' = eg_fvi g -> flipper g' = flipper g /\
       resampling (float_group R 0 d d g') = lift2 R (P (eg_fvi g)) /\ span (float_group R 0 d d g') = (0%nat, seq 1 d)) ->
    (forall i j g row x, nth_error groups i = Some g -> elem_at groups i j row x ->
       nodes_match (P (eg_fvi g)) vs default_tol row x /\ nodes_match (P (eg_fvi g)) vs tol row x) ->
    (forall i j row x o, elem_at groups i j row x -> edge_det d (0%nat, seq 1 d) vs row o -> o <> 0) ->
    exists m, make_mesh_checked R resampling span default_tol flipper true skip_tests (Tol tol) false 0 d d (Some vs) groups
                nodal facial conforming vd ed fd = Ok m /\
      make_mesh_forced R (fun x => x <? 0) flipper (fun _ => (0%nat, seq 1 d)) (Some vs) groups nodal facial conforming vd ed fd = Ok m.
Proof. exact forced_checked. Qed.
Print Assumptions C112_forced_meshes_pass.

Definition sq_flipper (g : egroup (enodes Zocring)) : res (list (list Zocring) * list nat) := Ok ([[0; 1; 0]; [1; 0; 0]; [0; 0; 1]]%Z, [1; 0; 2]%nat).
(** the second triangle is given with the wrong orientation *)
Definition sq_mixed : list (egroup (enodes Zocring)) := [mk_egroup (Some [[0; 1; 2]; [1; 2; 3]]%nat) [[[0; 1; 0]; [0; 0; 1]]; [[1; 0; 1]; [0; 1; 1]]]%Z tri_faces].
Lemma nodes_match_ex (row : list nat) (x : list (list Zocring)) (t : Z) : (0 < t)%Z -> nodes_exact sq_P sq_pts row x -> nodes_match sq_P sq_pts (t : Zocring) row x.
Proof. intros Ht H. apply exact_match; [|exact H]. cbn. now apply negb_true_iff, Z.leb_gt. Qed.
Lemma sq_mixed_exact j row x : elem_at sq_mixed 0 j row x -> nodes_exact sq_P sq_pts row x.
Proof.
  intros (g & vi & Hg & Hvi & Hrow & Hx). cbn in Hg. injection Hg as <-. cbn in Hvi. injection Hvi as <-. intros k a w xa c Hw Hxa (v & p & H1 & H2 & H3).
  destruct j as [|[|j]]; cbn in Hrow, Hx; [injection Hrow as <-; injection Hx as <-..|destruct j; discriminate Hx];
    (destruct k as [|[|[|k]]]; cbn in Hw, H1; [injection Hw as <-; injection H1 as <-..|destruct k; discriminate Hw]);
    cbn in H2; injection H2 as <-; (destruct a as [|[|a]]; cbn in Hxa, H3; [injection Hxa as <-; injection H3 as <-; reflexivity..|destruct a; discriminate Hxa]).
Qed.
Example C112_example : exists m m0 : mesh (enodes Zocring) unit (list Zocring),
  make_mesh (Some sq_pts) sq_mixed Pending Pending (Some true) 0 0 0 = Ok m0 /\ simplices 2 (length sq_pts) sq_mixed /\
  (forall i j row x, elem_at sq_mixed i j row x -> nodes_match sq_P sq_pts (1%Z : Zocring) row x) /\
  (forall i j row x o, elem_at sq_mixed i j row x -> edge_det 2 (0%nat, seq 1 2) sq_pts row o -> o <> 0) /\
  make_mesh_checked Zocring sq_res sq_span 1%Z sq_flipper true false (tolZ 1) false 0 2 2 (Some sq_pts) sq_mixed Pending Pending (Some true) 0 0 0 = Ok m /\
  map eg_vi (m_groups m) = [Some [[0; 1; 2]; [2; 1; 3]]%nat].
Proof.
  do 2 eexists. split; [vm_compute; reflexivity|]. split; [|split; [|split; [|split; [vm_compute; reflexivity|reflexivity]]]].
  - split; [repeat constructor; eexists; split; reflexivity|].
    intros g i row x (grp & vi & Hg & Hvi & Hrow & _). destruct g as [|[|g]]; cbn in Hg; try discriminate. injection Hg as <-.
    cbn in Hvi. injection Hvi as <-. destruct i as [|[|[|i]]]; cbn in Hrow; try discriminate; injection Hrow as <-;
      (split; [reflexivity|]); repeat constructor.
  - intros i j row x He. assert (i = 0%nat) as ->. { destruct He as (g & vi & Hg & _). destruct i as [|[|]]; [reflexivity|discriminate Hg..]. }
    apply nodes_match_ex; [lia|]. eapply sq_mixed_exact; eauto.
  - intros i j row x o (g & vi & Hg & Hvi & Hrow & _) (b & xs & (v & Hv & Hb) & HF & ->). destruct i as [|[|i]]; cbn in Hg; try discriminate Hg. injection Hg as <-.
    cbn in Hvi. injection Hvi as <-. inversion HF as [|? y1 ? ? (v1 & Hv1 & Hy1) HF1]; subst. inversion HF1 as [|? y2 ? ? (v2 & Hv2 & Hy2) HF2]; subst. inversion HF2; subst.
    destruct j as [|[|[|j]]]; cbn in Hrow; try discriminate Hrow; injection Hrow as <-; cbn in Hv, Hv1, Hv2; injection Hv as <-; injection Hv1 as <-; injection Hv2 as <-;
      cbn in Hb, Hy1, Hy2; injection Hb as <-; injection Hy1 as <-; injection Hy2 as <-; vm_compute; discriminate.
Qed.

Example C112_example_flipper : exists M perm, sq_flipper (mk_egroup None [] tri_faces) = Ok (M, perm) /\ simplex_flip_permutation 2 = Ok perm /\ is_mat 3 3 M /\
  matmul 3 M M = idmat (R := Zocring) 3 /\ is_mat (2 + 1) 3 sq_P /\
  (forall j p wj wp y, nth_error perm j = Some p -> nth_error sq_P j = Some wj -> nth_error sq_P p = Some wp -> length y = 3%nat -> dot wp (matvec M y) = dot wj y).
Proof.
  do 2 eexists. split; [reflexivity|]. split; [reflexivity|]. split; [split; repeat constructor|]. split; [reflexivity|]. split; [split; repeat constructor|].
  intros j p wj wp y Hp Hj Hw Hy. destruct y as [|y0 [|y1 [|y2 [|]]]]; try discriminate Hy.
  destruct j as [|[|[|j]]]; cbn in Hp, Hj; [injection Hp as <-; injection Hj as <-..|destruct j; discriminate Hj]; cbn in Hw; injection Hw as <-; cbv -[Z.add Z.mul Z.sub Z.opp]; lia.
Qed.

(** Refuted: the flags given to make_mesh hold for meshes with forced orientation.  With another dtype for vertex numbers, make_mesh fails although the same
    call without force_positive_orientation succeeds, and no element has to be flipped. *)
Definition sq_right : list (egroup (enodes Zocring)) := [mk_egroup (Some sq_rows) sq_nodes tri_faces].
Theorem C112_dtype_refuted :
  exists m : mesh (enodes Zocring) unit (list Zocring),
    make_mesh_checked Zocring sq_res sq_span 1%Z sq_flipper false false TolNone false 1 2 2 (Some sq_pts) sq_right Pending Pending (Some true) 1 0 0 = Ok m /\
    make_mesh_checked Zocring (A := unit) sq_res sq_span 1%Z sq_flipper true false TolNone false 1 2 2 (Some sq_pts) sq_right Pending Pending (Some true) 1 0 0 = Err InconsistentArrayDTypeError.
Proof. eexists. split; vm_compute; reflexivity. Qed.
Print Assumptions C112_dtype_refuted.

(** ... and skip_tests or a larger tolerance do not help if nodes and vertices differ. *)
Definition sq_moved : list (egroup (enodes Zocring)) := [mk_egroup (Some [[0; 1; 2]]%nat) [[[0; 3; 0]; [0; 0; 1]]]%Z tri_faces].
Theorem C112_flags_refuted :
  exists groups, (exists m, make_mesh_checked Zocring (A := unit) sq_res sq_span 1%Z sq_flipper false true TolNone false 0 2 2 (Some sq_pts) groups Pending Pending (Some true) 0 0 0 = Ok m) /\
    (exists m, make_mesh_checked Zocring (A := unit) sq_res sq_span 1%Z sq_flipper false false (tolZ 5) false 0 2 2 (Some sq_pts) groups Pending Pending (Some true) 0 0 0 = Ok m) /\
    make_mesh_checked Zocring (A := unit) sq_res sq_span 1%Z sq_flipper true true TolNone false 0 2 2 (Some sq_pts) groups Pending Pending (Some true) 0 0 0 = Err InconsistentVerticesError /\
    make_mesh_checked Zocring (A := unit) sq_res sq_span 1%Z sq_flipper true false (tolZ 5) false 0 2 2 (Some sq_pts) groups Pending Pending (Some true) 0 0 0 = Err InconsistentVerticesError /\
    make_mesh_checked Zocring (A := unit) sq_res sq_span 1%Z sq_flipper true false TolFalse false 0 2 2 (Some sq_pts) groups Pending Pending (Some true) 0 0 0 = Err InconsistentVerticesError.
Proof. exists sq_moved. split; [eexists; vm_compute; reflexivity|]. split; [eexists; vm_compute; reflexivity|]. repeat split; vm_compute; reflexivity. Qed.
Print Assumptions C112_flags_refuted.

(** ** C113: straight elements pass the node-vertex test for every positive tolerance *)
Theorem C113_affine_elements_pass :
  forall (R : ocring) (dim : nat) (P un uv pts : list (list R)) row x tol,
    0 <? tol = true -> evaluates dim P un uv -> affine_element dim un uv pts row x -> nodes_match P pts tol row x.
Proof. intros R dim P un uv pts row x tol Ht He Ha. apply exact_match; [exact Ht|]. eapply affine_exact; eauto. Qed.
Print Assumptions C113_affine_elements_pass.

Example C113_example : evaluates (R := Zocring) 2 sq_P [[-1; -1]; [1; -1]; [-1; 1]]%Z [[-1; -1]; [1; -1]; [-1; 1]]%Z /\
  affine_element (R := Zocring) 2 [[-1; -1]; [1; -1]; [-1; 1]]%Z [[-1; -1]; [1; -1]; [-1; 1]]%Z ([[0; 0]; [2; 0]; [0; 4]]%Z : list (list Zocring)) [0; 1; 2]%nat [[0; 2; 0]; [0; 0; 4]]%Z.
Proof.
  split.
  - split; [reflexivity|]. intros k w u Hw Hu. destruct k as [|[|[|k]]]; cbn in Hw, Hu; [injection Hw as <-; injection Hu as <-..|destruct k; discriminate Hw];
      (split; [reflexivity|]); intros l Hl; destruct l as [|l0 [|l1 [|]]]; try discriminate Hl; cbv -[Z.add Z.mul Z.sub Z.opp]; lia.
  - exists [[1; 0]; [0; 2]]%Z, [1; 2]%Z. split; [reflexivity|]. split; [reflexivity|]. intros a l c0 Hl Hc.
    destruct a as [|[|a]]; cbn in Hl, Hc; [injection Hl as <-; injection Hc as <-..|destruct a; discriminate Hl]; (split; [reflexivity|]); split.
    + intros xa Hx. cbn in Hx. injection Hx as <-. reflexivity.
    + intros k c u (v & p & H1 & H2 & H3) Hu. destruct k as [|[|[|k]]]; cbn in H1, Hu; [injection H1 as <-; injection Hu as <-..|destruct k; discriminate Hu]; cbn in H2; injection H2 as <-; cbn in H3; injection H3 as <-; reflexivity.
    + intros xa Hx. cbn in Hx. injection Hx as <-. reflexivity.
    + intros k c u (v & p & H1 & H2 & H3) Hu. destruct k as [|[|[|k]]]; cbn in H1, Hu; [injection H1 as <-; injection Hu as <-..|destruct k; discriminate Hu]; cbn in H2; injection H2 as <-; cbn in H3; injection H3 as <-; reflexivity.
Qed.

(** With tolerance zero no element passes, however exact it is. *)
Theorem C113_zero_tolerance :
  forall (R : ocring) (P pts : list (list R)) row x s k a w xa c, element_scale pts row s -> nth_error P k = Some w -> nth_error x a = Some xa ->
    vertex_coord pts row k a c -> ~ nodes_match P pts 0 row x.
Proof. exact zero_match. Qed.
Print Assumptions C113_zero_tolerance.
Theorem C113_zero_tolerance_refuted :
  check_mesh_consistency Zocring sq_res sq_span 1%Z 2 (tolZ 0) false sq_mesh = Err InconsistentVerticesError /\
  forall j row x, elem_at [mk_egroup (Some sq_rows) sq_nodes tri_faces] 0 j row x -> nodes_exact sq_P sq_pts row x.
Proof.
  split; [vm_compute; reflexivity|]. intros j row x (g & vi & Hg & Hvi & Hrow & Hx). cbn in Hg. injection Hg as <-. cbn in Hvi. injection Hvi as <-. intros k a w xa c Hw Hxa (v & p & H1 & H2 & H3).
  destruct j as [|[|j]]; cbn in Hrow, Hx; [injection Hrow as <-; injection Hx as <-..|destruct j; discriminate Hx];
    (destruct k as [|[|[|k]]]; cbn in Hw, H1; [injection Hw as <-; injection H1 as <-..|destruct k; discriminate Hw]);
    cbn in H2; injection H2 as <-; (destruct a as [|[|a]]; cbn in Hxa, H3; [injection Hxa as <-; injection H3 as <-; reflexivity..|destruct a; discriminate Hxa]).
Qed.
Print Assumptions C113_zero_tolerance_refuted.

(** ** C114: is_affine *)
Theorem C114_is_affine_criterion :
  forall (R : ocring) vinv diffs (tol : R) nu g (els : list (list (list R))),
    cg_simplex g = true -> (1 <= cg_dim g)%nat -> els <> [] -> (0 < nu)%nat ->
    is_mat nu nu (vinv g) -> length (diffs g) = cg_dim g -> Forall (is_mat nu nu) (diffs g) ->
    Forall (fun e => e <> [] /\ Forall (fun x => length x = nu) e) els ->
    exists b, is_affine_simplex_group R vinv diffs tol nu g els = Ok b /\
      (b = true <-> forall e x i j cs c, In e els -> In x e -> (i <= j < cg_dim g)%nat ->
         second_coefficients (vinv g) (diffs g) i j x cs -> In c cs -> rabs c <? tol = true).
Proof. exact is_affine_iff. Qed.
Print Assumptions C114_is_affine_criterion.

Theorem C114_affine_elements :
  forall (R : ocring) vinv diffs (tol : R) nu g (els : list (list (list R))) un,
    0 <? tol = true -> cg_simplex g = true -> (1 <= cg_dim g)%nat -> (0 < nu)%nat ->
    is_mat nu nu (vinv g) -> length (diffs g) = cg_dim g -> Forall (is_mat nu nu) (diffs g) ->
    length un = nu -> Forall (fun u => length u = cg_dim g) un -> differentiates (cg_dim g) (diffs g) un ->
    Forall (fun e => e <> [] /\ Forall (fun x => exists l c0, length l = cg_dim g /\ x = map (fun u => dot l u + c0) un) e) els ->
    is_affine_simplex_group R vinv diffs tol nu g els = Ok true.
Proof. exact affine_is_true. Qed.
Print Assumptions C114_affine_elements.

(** Intervals with nodes at -2, 0, 2, with monomials 1, x, x^2 (values of twice the derivatives, to stay within the integers) *)
Definition lin_diffs (g : cgroup Zocring) : list (list (list Zocring)) := [[[-3; 4; -1]; [-1; 0; 1]; [1; -4; 3]]]%Z.
Definition lin_vinv (g : cgroup Zocring) : list (list Zocring) := [[0; 2; 0]; [-1; 0; 1]; [1; -2; 1]]%Z.
Definition lin_group : cgroup Zocring := mk_cgroup (mk_egroup None [] []) 0 true true 1 2.
Definition lin_un : list (list Zocring) := [[-2]; [0]; [2]]%Z.
Example C114_example : is_mat 3 3 (lin_vinv lin_group) /\ Forall (is_mat 3 3) (lin_diffs lin_group) /\
  is_affine_simplex_group Zocring lin_vinv lin_diffs 1%Z 3 lin_group [[[1; 3; 5]; [0; 1; 2]]; [[7; 7; 7]; [2; 0; -2]]]%Z = Ok true /\
  is_affine_simplex_group Zocring lin_vinv lin_diffs 1%Z 3 lin_group [[[1; 3; 5]; [0; 1; 2]]; [[7; 7; 7]; [2; 0; -1]]]%Z = Ok false.
Proof. split; [repeat constructor|]. split; [repeat constructor|]. split; vm_compute; reflexivity. Qed.

(** Refuted: only straight elements are reported as affine.  The tolerance is absolute, so that small curved elements count as straight; copies of
    them in another size do not. *)
Theorem C114_small_elements_refuted :
  exists (x y : list Zocring) tol, is_affine_simplex_group Zocring lin_vinv lin_diffs tol 3 lin_group [[x; y]] = Ok true /\
    is_affine_simplex_group Zocring lin_vinv lin_diffs tol 3 lin_group [[vscale (1000%Z : Zocring) x; vscale (1000%Z : Zocring) y]] = Ok false /\
    ~ exists l c0, length l = 1%nat /\ y = map (fun u => dot l u + c0) lin_un.
Proof.
  exists [-2; 0; 2]%Z, [1; 0; 1]%Z, 100%Z. split; [vm_compute; reflexivity|]. split; [vm_compute; reflexivity|].
  intros (l & c0 & Hl & H). destruct l as [|a [|]]; try discriminate Hl. cbv -[Z.add Z.mul Z.sub Z.opp] in H. injection H as H1 H2 H3. lia.
Qed.
Print Assumptions C114_small_elements_refuted.

(** Refuted: is_affine of a group of simplices has a value.  Points (dimension 0) raise ValueError. *)
Theorem C114_points_refuted :
  exists (g : cgroup Zocring) (els : list (list (list Zocring))), cg_simplex g = true /\ cg_dim g = 0%nat /\ els <> [] /\
    forall vinv diffs tol nu, is_affine Zocring vinv diffs tol nu g els = Err ValueError.
Proof.
  exists (mk_cgroup (mk_egroup None [] []) 0 true true 0 1), [[[5]]]%Z. repeat split. discriminate.
Qed.
Print Assumptions C114_points_refuted.

(** ** C115: affine images of a mesh are checked; the check passes exactly for maps that keep the orientation *)
Theorem C115_affine_images :
  forall (R : ocring) resampling span default_tol P vid d M A b (m : mesh (list (list R)) (amap R) (list R)) pts,
    (forall x y : R, 0 <? x = true -> 0 <? y = true -> 0 <? x * y = true) ->
    (1 <= d <= 3)%nat -> 0 <? default_tol = true ->
    (forall g, resampling (float_group R vid d d g) = lift2 R (P (eg_fvi g))) ->
    (forall g, span (float_group R vid d d g) = (0%nat, seq 1 d)) ->
    is_mat d d M -> (forall x, length x = d -> times A x = matvec M x) -> args_ok d A b -> (A <> None \/ b <> None) ->
    m_vertices m = Some pts -> points_in d m -> Forall (simplex_group P d (length pts)) (m_groups m) ->
    m_facial m = Pending -> m_nodal m = Pending -> m_vdtype m = vid ->
    (forall i j row x g, nth_error (m_groups m) i = Some g -> elem_at (m_groups m) i j row x -> interpolates (P (eg_fvi g)) pts row x) ->
    (forall i j row x, elem_at (m_groups m) i j row x -> exists o, edge_det d (0%nat, seq 1 d) pts row o /\ 0 <? o = true) ->
    (exists i j row x, elem_at (m_groups m) i j row x) ->
    (0 <? det R d M = true -> exists m', affine_map_checked R resampling span default_tol vid d A b m = Ok m' /\ affine_map R d A b m = Ok m') /\
    (0 <? det R d M = false -> exists e, affine_map_checked R resampling span default_tol vid d A b m = Err e /\ is_inconsistent_error e = true).
Proof. exact affine_checked. Qed.
Print Assumptions C115_affine_images.

(** The square: stretching it works, mirroring it does not, although the mirrored mesh could be given the right orientation. *)
Definition sq_points : mesh (list (list Zocring)) (amap Zocring) (list Zocring) :=
  mk_mesh [mk_egroup (Some sq_rows) [[[0; 0]; [1; 0]; [0; 1]]; [[1; 0]; [1; 1]; [0; 1]]]%Z tri_faces] (Some sq_pts) (Some true) Pending Pending 0 0 0.
Example C115_example : points_in 2 sq_points /\ Forall (simplex_group (fun _ => sq_P) 2 4) (m_groups sq_points) /\
  (forall j row x, elem_at (m_groups sq_points) 0 j row x -> interpolates sq_P sq_pts row x) /\
  (forall j row x, elem_at (m_groups sq_points) 0 j row x -> edge_det 2 (0%nat, seq 1 2) sq_pts row (1%Z : Zocring)) /\
  (exists m', affine_map_checked Zocring sq_res sq_span 1%Z 0 2 (Some (Arr (R := Zocring) [[2; 1]; [0; 3]]%Z)) (Some (Scalar (R := Zocring) 5%Z)) sq_points = Ok m') /\
  affine_map_checked Zocring sq_res sq_span 1%Z 0 2 (Some (Arr (R := Zocring) [[-1; 0]; [0; 1]]%Z)) None sq_points = Err InconsistentMeshError.
Proof.
  split; [|split; [|split; [|split; [|split]]]].
  - split; [intros vs [= <-]; repeat constructor|repeat constructor].
  - constructor; [|constructor]. exists sq_rows, 3%nat. split; [reflexivity|]. split; [reflexivity|]. split; [repeat constructor|]. split; [repeat constructor|]. split; repeat constructor.
  - intros j row x (g & vi & Hg & Hvi & Hrow & Hx). cbn in Hg. injection Hg as <-. cbn in Hvi. injection Hvi as <-. intros k a w xa c Hw Hxa (v & p & H1 & H2 & H3).
    destruct j as [|[|j]]; cbn in Hrow, Hx; [injection Hrow as <-; injection Hx as <-..|destruct j; discriminate Hx];
      inversion Hxa as [|? y1 ? ? K1 HF1]; subst; inversion HF1 as [|? y2 ? ? K2 HF2]; subst; inversion HF2 as [|? y3 ? ? K3 HF3]; subst; inversion HF3; subst;
      (destruct k as [|[|[|k]]]; cbn in Hw, H1; [injection Hw as <-; injection H1 as <-..|destruct k; discriminate Hw]);
      cbn in H2; injection H2 as <-; (destruct a as [|[|a]]; cbn in K1, K2, K3, H3; [injection K1 as <-; injection K2 as <-; injection K3 as <-; injection H3 as <-; reflexivity..|destruct a; discriminate H3]).
  - intros j row x (g & vi & Hg & Hvi & Hrow & Hx). cbn in Hg. injection Hg as <-. cbn in Hvi. injection Hvi as <-.
    destruct j as [|[|j]]; cbn in Hrow, Hx; [injection Hrow as <-..|destruct j; discriminate Hx].
    + exists [0; 0]%Z, [[1; 0]; [0; 1]]%Z. split; [exists 0%nat; split; reflexivity|]. split; [|reflexivity].
      constructor; [exists 1%nat; split; reflexivity|]. constructor; [exists 2%nat; split; reflexivity|constructor].
    + exists [1; 0]%Z, [[1; 1]; [0; 1]]%Z. split; [exists 1%nat; split; reflexivity|]. split; [|reflexivity].
      constructor; [exists 3%nat; split; reflexivity|]. constructor; [exists 2%nat; split; reflexivity|constructor].
  - eexists. vm_compute. reflexivity.
  - vm_compute. reflexivity.
Qed.
(** Z has the property of products that the theorem asks for *)
Example C115_example_products : forall x y : Zocring, 0 <? x = true -> 0 <? y = true -> 0 <? x * y = true.
Proof. intros x y Hx Hy. cbn in *. unfold olt in *. cbn in *. rewrite negb_true_iff, Z.leb_gt in *. lia. Qed.
