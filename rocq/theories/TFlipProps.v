(** * TFlipProps: flips and orientations of tensor product elements. *)
From Coq Require Import List Arith Bool ZArith Lia Ring.
From Verif Require Import Np NpFacts MeshModel MeshSpec Lin Ord MeshStateModel ProcModel ProcSpec PointModel PointSpec PointProofs PointProps GenSpec TFlipModel TFlipSpec TFlipProofs.
Import ListNotations.

(** ** C158: the flip of a quadrilateral or hexahedron is the reflection in the first axis ... *)
Theorem C158_tensor_flip :
  forall (R : ocring) median (tol : R) resampling near_identity d order unit_nodes,
    1 <= d <= 7 -> ole (@r0 R) tol = true -> olt (@r0 R) (rmul tol tol) = true -> ole (rmul tol tol) (rmul (radd r1 r1) (radd r1 r1)) = true ->
    let M := resampling order (map (mirror R) unit_nodes) unit_nodes in
    (near_identity (matmul (length unit_nodes) M M) = true ->
       exists perm, tensor_flip R median tol resampling near_identity d order unit_nodes = Ok (M, perm) /\
         involutive perm /\ length perm = 2 ^ d /\
         (forall k, k < 2 ^ d -> exists k', nth_error perm k = Some k' /\ mirror R (corner_coords R d k) = corner_coords R d k') /\
         forall row x row' x', flipped R M perm row x row' x' ->
           (forall k, k < 2 ^ d -> nth_error row' k = nth_error row (across k)) /\
           (forall (S : (list R -> R) -> Prop) fs, exact_flip R S unit_nodes M -> Forall S fs ->
              x = map (fun f => map f unit_nodes) fs -> x' = map (fun f => map (fun u => f (mirror R u)) unit_nodes) fs)) /\
    (near_identity (matmul (length unit_nodes) M M) = false ->
       tensor_flip R median tol resampling near_identity d order unit_nodes = Err AssertionError).
Proof.
  intros R median tol rs ni d order un Hd H1 H2 H3 M. rewrite (tensor_flip_ok R median tol H1 H2 H3 rs ni d order un Hd). fold M. cbv zeta. split; intros E; rewrite E; [|reflexivity].
  eexists. split; [reflexivity|]. split; [apply across_involutive; lia|]. split; [now rewrite map_length, seq_length|].
  assert (Hnth : forall k, k < 2 ^ d -> nth_error (map across (seq 0 (2 ^ d))) k = Some (across k)). { intros k Hk. rewrite nth_error_map, (nth_error_nth' _ 0), seq_nth by (rewrite ?seq_length; exact Hk). reflexivity. }
  split.
  - intros k Hk. exists (across k). split; [now apply Hnth|]. destruct d as [|d]; [lia|]. change (mirror R) with (flip_first R). apply flip_cc.
  - intros row x row' x' (_ & Hp & ->). split.
    + intros k Hk. destruct d as [|d]; [lia|]. rewrite <- (across_invol k) at 1. apply Hp. apply Hnth. now apply across_lt.
    + intros S fs HM HS ->. rewrite map_map. apply map_ext_in. intros f Hf. apply HM. rewrite Forall_forall in HS. auto.
Qed.
Print Assumptions C158_tensor_flip.

(** ... the reported orientation is the Jacobian determinant at the first corner, and after the flip it is minus the
    Jacobian determinant at the second one. *)
Theorem C158_tensor_orientation :
  forall (R : ocring) median (tol : R), ole (@r0 R) tol = true -> olt (@r0 R) (rmul tol tol) = true -> ole (rmul tol tol) (rmul (radd r1 r1) (radd r1 r1)) = true ->
    forall d (vertices : list (list R)) row row' ps, 1 <= d <= 3 ->
    length ps = 2 ^ d -> Forall (fun p => length p = d) ps -> corner_points vertices row ps ->
    length row' = length row -> (forall k, k < 2 ^ d -> nth_error row' k = nth_error row (across k)) ->
    exists b six, tensor_span R median tol d = Ok (b, six) /\
      element_orientation R b six vertices row = Ok (jacobian R d ps 0) /\
      element_orientation R b six vertices row' = Ok (ropp (jacobian R d ps 1)) /\
      (* parallelepipeds *)
      ((forall i, 1 <= i < d -> vsub (nth (1 + 2 ^ i) ps []) (nth 1 ps []) = vsub (nth (2 ^ i) ps []) (nth 0 ps [])) ->
         element_orientation R b six vertices row' = Ok (ropp (jacobian R d ps 0))).
Proof.
  intros R median tol H1 H2 H3 d vertices row row' ps Hd Hl Hp Hc Hr Hrow. do 2 eexists. split; [apply tensor_span_ok; auto; lia|].
  destruct (orientations R d vertices row row' ps Hd Hl Hp Hc Hr Hrow) as (E1 & E2). split; [exact E1|]. split; [exact E2|].
  intros Hpar. rewrite E2. f_equal. f_equal. unfold jacobian. f_equal. apply map_ext_in. intros i Hi. apply in_seq in Hi. destruct i as [|i]; [reflexivity|].
  assert (E : Nat.testbit 1 (S i) = false) by (rewrite <- testbit_half; apply Nat.bits_0). unfold set_bit, clear_bit. rewrite E, Nat.bits_0. apply Hpar. lia.
Qed.
Print Assumptions C158_tensor_orientation.

(** Hence an element whose Jacobian has the same sign in both corners is repaired by a flip ... *)
Theorem C158_flip_repairs :
  forall (R : ocring) median (tol : R), ole (@r0 R) tol = true -> olt (@r0 R) (rmul tol tol) = true -> ole (rmul tol tol) (rmul (radd r1 r1) (radd r1 r1)) = true ->
    forall d (vertices : list (list R)) row row' ps, 1 <= d <= 3 ->
    length ps = 2 ^ d -> Forall (fun p => length p = d) ps -> corner_points vertices row ps ->
    length row' = length row -> (forall k, k < 2 ^ d -> nth_error row' k = nth_error row (across k)) ->
    olt (jacobian R d ps 1) (@r0 R) = true ->
    exists b six o, tensor_span R median tol d = Ok (b, six) /\ element_orientation R b six vertices row' = Ok o /\ olt (@r0 R) o = true.
Proof.
  intros R median tol H1 H2 H3 d vertices row row' ps Hd Hl Hp Hc Hr Hrow Hneg.
  destruct (C158_tensor_orientation R median tol H1 H2 H3 d vertices row row' ps Hd Hl Hp Hc Hr Hrow) as (b & six & E & _ & E2 & _).
  exists b, six, (ropp (jacobian R d ps 1)). split; [exact E|]. split; [exact E2|]. now apply opp_pos.
Qed.
Print Assumptions C158_flip_repairs.

(** A quadrilateral with four nodes. *)
Definition quad_faces : list (list nat) := [[0; 2]; [1; 3]; [0; 1]; [2; 3]].
(** the resampling matrix of bilinear functions for nodes in the corners *)
Definition quad_M : list (list Zocring) := [[0; 1; 0; 0]; [1; 0; 0; 0]; [0; 0; 0; 1]; [0; 0; 1; 0]]%Z.
Definition is_eye (m : list (list Z)) : bool := forallb (fun r => r) (map (fun p => forallb (fun r => r) (map (fun q => Z.eqb (fst q) (snd q)) (combine (fst p) (snd p)))) (combine m (idmat (R := Zocring) 4))).
Definition quad_flip : res (list (list Z) * list nat) := tensor_flip Zocring median_Z 1%Z (fun _ _ _ => quad_M) is_eye 2 1 (corners Zocring 2).
Definition bilinear (f : list Zocring -> Zocring) : Prop := exists a b c e : Z, forall x y, f [x; y] = (a + b * x + c * y + e * x * y)%Z.
Definition quad_pts : list (list Zocring) := [[0; 0]; [0; 2]; [2; 0]; [3; 3]]%Z.
Example C158_example :
  exact_flip Zocring bilinear (corners Zocring 2) quad_M /\ quad_flip = Ok (quad_M, [1; 0; 3; 2]) /\
  corner_points quad_pts [0; 1; 2; 3] quad_pts /\ jacobian Zocring 2 quad_pts 0 = (-4)%Z /\ jacobian Zocring 2 quad_pts 1 = (-6)%Z /\
  tensor_span Zocring median_Z 1%Z 3 = Ok (0, [1; 2; 4]).
Proof.
  split. { intros f (a & b & c & e & Hf). cbn [corners flat_map app map mirror]. change (ropp (ropp (@r1 Zocring))) with (@r1 Zocring). rewrite !Hf.
    assert (E : forall p q r s : Z, matvec quad_M [p; q; r; s] = [q; p; s; r]) by (intros p q r s; unfold matvec, quad_M, dot; cbn [map map2 rsum]; repeat apply f_equal2; try reflexivity;
        change (@r0 Zocring) with 0%Z; change (@radd Zocring) with Z.add; change (@rmul Zocring) with Z.mul; lia).
    apply E. }
  split; [vm_compute; reflexivity|]. split; [repeat constructor|]. split; [reflexivity|]. split; [reflexivity|]. vm_compute. reflexivity.
Qed.

(** ... but forcing a positive orientation does not give one when the Jacobian changes sign: a quadrilateral with a reflex
    corner is reported to be negative, and it still is after the flip. *)
Definition dart : list (list Zocring) := [[1; 1]; [0; 4]; [4; 0]; [0; 0]]%Z.
Definition dart_group : egroup (enodes Zocring) := mk_egroup (Some [[0; 1; 2; 3]]) [[[1; 0; 4; 0]; [1; 4; 0; 0]]]%Z quad_faces.
Theorem C158_forced_orientation_refuted :
  exists m (m0 : mesh (enodes Zocring) unit (list Zocring)) row,
    make_mesh (Some dart) [dart_group] Pending Pending (Some true) 0 0 0 = Ok m0 /\
    (match tensor_span Zocring median_Z 1%Z 2 with Ok bs => element_orientation Zocring (fst bs) (snd bs) dart [0; 1; 2; 3] = Ok (-8)%Z | Err _ => False end) /\
    make_mesh_forced Zocring (fun x => (x <? 0)%Z) (fun _ => quad_flip)
      (fun _ => match tensor_span Zocring median_Z 1%Z 2 with Ok bs => bs | Err _ => (0, []) end)
      (Some dart) [dart_group] Pending Pending (Some true) 0 0 0 = Ok m /\
    map eg_vi (m_groups (m : mesh (enodes Zocring) unit (list Zocring))) = [Some [row]] /\
    match tensor_span Zocring median_Z 1%Z 2 with Ok bs => element_orientation Zocring (fst bs) (snd bs) dart row = Ok (-4)%Z | Err _ => False end.
Proof.
  do 2 eexists. exists [1; 0; 3; 2]. split; [vm_compute; reflexivity|]. split; [vm_compute; reflexivity|]. split; [vm_compute; reflexivity|]. split; vm_compute; reflexivity.
Qed.
Print Assumptions C158_forced_orientation_refuted.
