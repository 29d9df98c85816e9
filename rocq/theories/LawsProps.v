(** * LawsProps: laws of operations on meshes (C223-C228). *)
From Coq Require Import List Arith Bool ZArith Lia.
From Verif Require Import Np NpFacts MeshModel MeshSpec MeshStateModel Lin ProcModel ProcSpec BoxModel BoxMapProofs AffineModel AffineSpec AffineProofs
  RefineModel RefineSpec LawsSpec LawsProofs MeshExamples ProcProps AffineProps RefineProps.
Import ListNotations.

(** ** C223: merge_disjoint_meshes can be applied step by step; a single mesh is kept *)
Theorem C223_merge_in_steps {E A V} (adim : mesh E A V -> nat) same_kind (ms1 ms2 : list (mesh E A V)) a b d :
  ms1 <> [] -> ms2 <> [] -> (forall m, In m (ms1 ++ ms2) -> adim m = d /\ m_vertices m <> None /\ has_rows (m_groups m)) -> adim a = d -> adim b = d ->
  merge_disjoint_meshes adim same_kind false ms1 = Ok a -> merge_disjoint_meshes adim same_kind false ms2 = Ok b ->
  merge_disjoint_meshes adim same_kind false [a; b] = merge_disjoint_meshes adim same_kind false (ms1 ++ ms2).
Proof. apply merge_in_steps. Qed.
Print Assumptions C223_merge_in_steps.
Theorem C223_merge_one {E A V} (adim : mesh E A V -> nat) same_kind (m : mesh E A V) : m_vertices m <> None -> has_rows (m_groups m) ->
  exists m', merge_disjoint_meshes adim same_kind false [m] = Ok m' /\ m_groups m' = m_groups m /\ m_vertices m' = m_vertices m.
Proof. apply merge_one. Qed.
Print Assumptions C223_merge_one.
Example C223_example : exists a b c,
  merge_disjoint_meshes (fun _ => 2) (fun _ _ => true) false [ex_m; ex_tri] = Ok a /\ merge_disjoint_meshes (fun _ => 2) (fun _ _ => true) false [ex_tri] = Ok b /\
  merge_disjoint_meshes (fun _ => 2) (fun _ _ => true) false [a; b] = Ok c /\ merge_disjoint_meshes (fun _ => 2) (fun _ _ => true) false [ex_m; ex_tri; ex_tri] = Ok c /\
  map eg_vi (m_groups c) = [Some [[0; 1; 2]; [1; 3; 2]]; Some [[1; 4; 3; 5]]; Some [[8; 6; 7]]; Some [[11; 9; 10]]].
Proof. do 3 eexists. repeat (split; [vm_compute; reflexivity|]). reflexivity. Qed.

(** ** C224: remove_unused_vertices applied to its result changes nothing, and leaves meshes alone all vertices of which are used *)
Theorem C224_remove_unused_idempotent {E A V} (m : mesh E A V) : removable m ->
  exists m' m'', remove_unused_vertices m = Ok m' /\ remove_unused_vertices m' = Ok m'' /\ all_used m' /\ same_mesh m' m''.
Proof. apply remove_twice. Qed.
Print Assumptions C224_remove_unused_idempotent.
Theorem C224_all_used_kept {E A V} (m : mesh E A V) : removable m -> all_used m -> exists m', remove_unused_vertices m = Ok m' /\ same_mesh m m'.
Proof. apply all_used_kept. Qed.
Print Assumptions C224_all_used_kept.
Definition ex_holes : mesh nat unit nat := mk_mesh [mk_egroup (Some [[4; 1; 5]]) [7] [[0; 1]; [1; 2]; [2; 0]]] (Some [10; 11; 12; 13; 14; 15; 16]) (Some true) Pending Pending 0 0 0.
Example C224_example : removable ex_holes /\ exists m' m'', remove_unused_vertices ex_holes = Ok m' /\ remove_unused_vertices m' = Ok m'' /\ m'' = m' /\
  m_vertices m' = Some [11; 14; 15] /\ map eg_vi (m_groups m') = [Some [[1; 0; 2]]].
Proof.
  split.
  - exists [10; 11; 12; 13; 14; 15; 16]. split; [reflexivity|]. split; [discriminate|]. split; [repeat constructor; eexists; split; reflexivity|].
    intros e row v (g & i & (grp & vi & Hg & Hvi & Hi & Hrow) & _) Hv. destruct g as [|g]; [|destruct g; discriminate]. cbn in Hg. injection Hg as <-. cbn in Hvi. injection Hvi as <-.
    destruct i as [|i]; [|destruct i; discriminate]. cbn in Hrow. injection Hrow as <-. cbn in Hv |- *. intuition lia.
  - do 2 eexists. repeat (split; [vm_compute; reflexivity|]). reflexivity.
Qed.

(** ** C225: map_mesh with one function after another is map_mesh with the composed function *)
Theorem C225_map_mesh_composes {P A} (trivial : A -> bool) (f g : P -> P) (m : mesh (list P) A P) : maps_free trivial m ->
  (m' <- map_mesh trivial (map f) m ;; map_mesh trivial (map g) m') = map_mesh trivial (map (fun x => g (f x))) m /\
  exists m', map_mesh trivial (map f) m = Ok m'.
Proof. intros H. split; [now apply map_mesh_comp|]. rewrite map_mesh_spec by assumption. eauto. Qed.
Print Assumptions C225_map_mesh_composes.
Theorem C225_map_mesh_identity {P A} (trivial : A -> bool) (f : P -> P) (m : mesh (list P) A P) : (forall x, f x = x) -> maps_free trivial m ->
  map_mesh trivial (map f) m = Ok m.
Proof. apply map_mesh_identity. Qed.
Print Assumptions C225_map_mesh_identity.
Definition ex_nodes : mesh (list nat) bool nat := mk_mesh [mk_egroup (Some [[0; 1]]) [[1; 2; 3]] [[0]; [1]]] (Some [1; 3]) (Some true) Pending Pending 0 0 0.
Example C225_example : maps_free id ex_nodes /\
  (m' <- map_mesh id (map S) ex_nodes ;; map_mesh id (map (Nat.mul 2)) m') =
    Ok (mk_mesh [mk_egroup (Some [[0; 1]]) [[4; 6; 8]] [[0]; [1]]] (Some [4; 8]) (Some true) Pending Pending 0 0 0).
Proof. split; [exact I|vm_compute; reflexivity]. Qed.

(** ** C226: split_mesh_groups with the same flag for all elements keeps the groups that have elements, and forgets the others *)
Theorem C226_split_constant {E A V} z (m : mesh E A V) : has_rows (m_groups m) ->
  let kept := filter (fun ig => nonempty (snd ig)) (enumerate (m_groups m)) in
  exists m', split_mesh_groups (repeat z (sum (map nelements (m_groups m)))) m = Ok (m', combine (map (fun ig => (fst ig, z)) kept) (seq 0 (length kept))) /\
    m_groups m' = map snd kept /\ m_vertices m' = m_vertices m.
Proof. apply split_constant. Qed.
Print Assumptions C226_split_constant.
Theorem C226_split_keeps {E A V} z (m : mesh E A V) : has_rows (m_groups m) -> Forall (fun g => nelements g <> 0) (m_groups m) ->
  exists m', split_mesh_groups (repeat z (sum (map nelements (m_groups m)))) m =
      Ok (m', map (fun i => ((i, z), i)) (seq 0 (length (m_groups m)))) /\ m_groups m' = m_groups m /\ m_vertices m' = m_vertices m.
Proof. apply split_keeps. Qed.
Print Assumptions C226_split_keeps.
Theorem C226_empty_groups_refuted : exists (m m' : mesh nat unit nat) sub, has_rows (m_groups m) /\ length (m_groups m) = 3 /\
  split_mesh_groups (repeat 4%Z (sum (map nelements (m_groups m)))) m = Ok (m', sub) /\ length (m_groups m') = 2 /\ sub = [((0, 4%Z), 0); ((2, 4%Z), 1)].
Proof.
  exists (mk_mesh [mk_egroup (Some [[0; 1]]) [7] [[0]; [1]]; mk_egroup (Some []) [] [[0]; [1]]; mk_egroup (Some [[1; 2]]) [8] [[0]; [1]]] (Some [10; 11; 12]) (Some true) Pending Pending 0 0 0).
  do 2 eexists. split; [repeat constructor; eexists; split; reflexivity|]. split; [reflexivity|]. split; [vm_compute; reflexivity|]. split; reflexivity.
Qed.
Print Assumptions C226_empty_groups_refuted.
Example C226_example : has_rows (m_groups ex_m) /\ exists m', split_mesh_groups [5; 5; 5]%Z ex_m = Ok (m', [((0, 5%Z), 0); ((1, 5%Z), 1)]) /\ m_groups m' = m_groups ex_m.
Proof. split; [apply ex_has_rows|]. eexists. split; vm_compute; reflexivity. Qed.

(** ** C227: affine_map composes as affine maps do, and the inverse map restores the points *)
Theorem C227_affine_composes {R : cring} d (M1 M2 : list (list R)) v1 v2 m :
  is_mat d d M1 -> is_mat d d M2 -> length v1 = d -> length v2 = d -> points_in d m -> wf_maps d m ->
  exists m1 m2 m3, affine_map R d (Some (Arr M1)) (Some (Arr v1)) m = Ok m1 /\ affine_map R d (Some (Arr M2)) (Some (Arr v2)) m1 = Ok m2 /\
    affine_map R d (Some (Arr (matmul d M2 M1))) (Some (Arr (vadd (matvec M2 v1) v2))) m = Ok m3 /\ same_points m2 m3.
Proof. apply affine_composes. Qed.
Print Assumptions C227_affine_composes.
Theorem C227_affine_inverse {R : cring} d (M N : list (list R)) v m :
  is_mat d d M -> is_mat d d N -> matmul d N M = idmat d -> length v = d -> points_in d m -> wf_maps d m ->
  exists m1 m2, affine_map R d (Some (Arr M)) (Some (Arr v)) m = Ok m1 /\ affine_map R d (Some (Arr N)) (Some (Arr (vopp (matvec N v)))) m1 = Ok m2 /\ same_points m m2.
Proof. apply affine_inverse. Qed.
Print Assumptions C227_affine_inverse.
Example C227_example :
  is_mat (R := Zcring) 2 2 [[2; 1]; [3; 2]]%Z /\ is_mat (R := Zcring) 2 2 [[2; -1]; [-3; 2]]%Z /\ matmul (R := Zcring) 2 [[2; -1]; [-3; 2]]%Z [[2; 1]; [3; 2]]%Z = idmat (R := Zcring) 2 /\
  points_in (R := Zcring) 2 (ex_pm ex_turn) /\ wf_maps (R := Zcring) 2 (ex_pm ex_turn) /\
  exists m1 m2, affine_map Zcring 2 (Some (Arr (R := Zcring) [[2; 1]; [3; 2]]%Z)) (Some (Arr (R := Zcring) [5; -7]%Z)) (ex_pm ex_turn) = Ok m1 /\
    affine_map Zcring 2 (Some (Arr (R := Zcring) [[2; -1]; [-3; 2]]%Z)) (Some (Arr (R := Zcring) [-17; 29]%Z)) m1 = Ok m2 /\
    m_groups m2 = m_groups (ex_pm ex_turn) /\ m_vertices m2 = m_vertices (ex_pm ex_turn) /\ m_vertices m1 <> m_vertices m2.
Proof.
  destruct (ex_pm_ok ex_turn) as (H1 & H2 & H3); [apply C20_example|].
  split; [repeat constructor|]. split; [repeat constructor|]. split; [reflexivity|]. split; [exact H1|]. split; [split; assumption|].
  do 2 eexists. split; [vm_compute; reflexivity|]. split; [vm_compute; reflexivity|]. split; [reflexivity|]. split; [reflexivity|discriminate].
Qed.

(** ** C228: refining no element gives the same mesh, and every element is its only child *)
Theorem C228_refine_nothing {E A V} tessellation midpoints child_nodes vd ed fd (r : @refiner E A V) vs :
  m_groups (rf_current r) <> [] -> m_vertices (rf_current r) = Some vs -> has_rows (m_groups (rf_current r)) ->
  exists r', refine tessellation midpoints child_nodes vd ed fd r (repeat false (sum (map nelements (m_groups (rf_current r))))) = Ok r' /\
    m_groups (rf_current r') = m_groups (rf_current r) /\ m_vertices (rf_current r') = Some vs /\ m_conforming (rf_current r') = m_conforming (rf_current r) /\
    rf_previous r' = Some (rf_current r) /\ rf_dict r' = rf_dict r /\
    rf_records r' = Some (map (fun grp => (tessellation grp, map (fun i => [i]) (seq 0 (nelements grp)))) (m_groups (rf_current r))).
Proof. apply refine_nothing. Qed.
Print Assumptions C228_refine_nothing.
Example C228_example : exists r', refine (fun _ => tri) (mids tri) (kids tri) 0 0 0 (new_refiner sq_mesh) [false; false] = Ok r' /\
  m_groups (rf_current r') = m_groups sq_mesh /\ m_vertices (rf_current r') = m_vertices sq_mesh /\ option_map (map snd) (rf_records r') = Some [[[0]; [1]]].
Proof. eexists. split; [vm_compute; reflexivity|]. repeat split; reflexivity. Qed.
