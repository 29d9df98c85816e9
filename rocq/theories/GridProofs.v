(** * GridProofs: grids of copies of a mesh, rotation matrices. *)
From Coq Require Import List Arith Bool ZArith Lia Ring.
From Verif Require Import Np NpFacts MeshModel MeshSpec MeshStateModel Lin ProcModel ProcSpec MergeProofs
  AffineModel AffineSpec AffineProofs.
Import ListNotations.

(** ** Index tuples *)
Lemma product_length shape : length (product shape) = fold_right Nat.mul 1 shape.
Proof.
  induction shape as [|n shape IH]; [reflexivity|]. cbn [product fold_right].
  rewrite <- IH. clear IH. generalize (product shape) as P. intros P. generalize 0 as s. induction n as [|n IH]; intros s; [reflexivity|].
  cbn [seq flat_map Nat.mul]. rewrite app_length, map_length, IH. reflexivity.
Qed.

Lemma flat_seq_nth {X} (f : nat -> list X) k n s j x : (forall i, length (f i) = k) -> j < n ->
  x < k -> nth_error (flat_map f (seq s n)) (j * k + x) = nth_error (f (s + j)) x.
Proof.
  intros Hk. revert s j; induction n as [|n IH]; intros s j Hj Hx; [lia|].
  cbn [seq flat_map]. destruct j as [|j].
  - cbn [Nat.mul Nat.add]. rewrite Nat.add_0_r. apply nth_error_app1. rewrite Hk. lia.
  - rewrite nth_error_app2 by (rewrite Hk; cbn [Nat.mul]; lia). rewrite Hk.
    replace (S j * k + x - k) with (j * k + x) by (cbn [Nat.mul]; lia).
    rewrite IH by lia. f_equal. f_equal. lia.
Qed.

Lemma radix_lt shape index : Forall2 lt index shape -> radix shape index < fold_right Nat.mul 1 shape.
Proof.
  revert index; induction shape as [|n shape IH]; intros index H; inversion H as [|i ? is ? Hi His]; subst; cbn [radix fold_right].
  - lia.
  - specialize (IH _ His). set (P := fold_right Nat.mul 1 shape) in *. nia.
Qed.

Lemma product_nth shape index : Forall2 lt index shape -> nth_error (product shape) (radix shape index) = Some index.
Proof.
  revert index; induction shape as [|n shape IH]; intros index H; inversion H as [|i ? is ? Hi His]; subst; [reflexivity|].
  cbn [radix product]. pose proof (radix_lt _ _ His) as Hr.
  rewrite (flat_seq_nth (fun i => map (cons i) (product shape)) (fold_right Nat.mul 1 shape)).
  - cbn [Nat.add]. rewrite nth_error_map, IH by auto. reflexivity.
  - intros j. rewrite map_length. apply product_length.
  - auto.
  - auto.
Qed.

Lemma product_In shape index : In index (product shape) -> Forall2 lt index shape.
Proof.
  revert index; induction shape as [|n shape IH]; intros index H; cbn [product] in H.
  - destruct H as [<-|[]]. constructor.
  - apply in_flat_map in H as (i & Hi & H). apply in_map_iff in H as (is & <- & H).
    apply in_seq in Hi. constructor; [lia|auto].
Qed.

Section GridProofs.
  Variable R : cring.
  Variable d : nat.
  Add Ring Rr2 : (rth R).

  Lemma vscale_rnat n (o : list R) : length o = d -> vscale (rnat R n) o = ntimes d n o.
  Proof.
    intros Ho. induction n as [|n IH].
    - cbn [rnat ntimes]. subst d. unfold vscale, zeros. clear. induction o as [|a o IH]; [reflexivity|].
      cbn [map length repeat]. f_equal; [ring|exact IH].
    - cbn [ntimes]. rewrite <- IH. cbn [rnat]. unfold vscale, vadd. clear. induction o as [|a o IH]; [reflexivity|].
      cbn [map map2]. f_equal; [ring|exact IH].
  Qed.

  Lemma ntimes_length n (o : list R) : length o = d -> length (ntimes d n o) = d.
  Proof. intros. induction n as [|n IH]; cbn [ntimes]; [apply zeros_length|]. rewrite vadd_length; lia. Qed.

  Lemma lattice_length index (offset : list (list R)) : Forall (fun o => length o = d) offset ->
    length (lattice d index offset) = d.
  Proof.
    intros HF. revert index; induction HF as [|o offset Ho HF IH]; intros [|i index]; cbn [lattice]; try apply zeros_length.
    rewrite vadd_length; rewrite ntimes_length; auto.
  Qed.

  Lemma fold_lattice index (offset : list (list R)) acc : Forall (fun o => length o = d) offset -> length acc = d ->
    fold_left vadd (map2 (fun i o => vscale (rnat R i) o) index offset) acc = vadd acc (lattice d index offset).
  Proof.
    intros HF. revert index acc; induction HF as [|o offset Ho HF IH]; intros [|i index] acc Ha; cbn [map2 fold_left lattice];
      try (now rewrite vadd_zeros).
    rewrite vscale_rnat by auto. pose proof (ntimes_length i o Ho) as Hn.
    rewrite IH by (rewrite vadd_length; lia).
    now rewrite <- vadd_assoc.
  Qed.

  Definition grid_shift (offset : list (list R)) (index : list nat) : list R :=
    match offset with o0 :: _ => vadd o0 (lattice d index offset) | [] => [] end.

  Lemma grid_shift_length offset index : 0 < d -> length offset = d -> Forall (fun o => length o = d) offset ->
    length (grid_shift offset index) = d.
  Proof.
    intros Hd Hl HF. unfold grid_shift. destruct offset as [|o0 offset]; [cbn in Hl; lia|].
    pose proof (lattice_length index _ HF) as HL. apply Forall_cons_iff in HF as (Ho & _).
    rewrite vadd_length; lia.
  Qed.

  Lemma grid_offset_ok offset index : 0 < d -> length offset = d -> Forall (fun o => length o = d) offset ->
    grid_offset R offset index = Ok (grid_shift offset index).
  Proof.
    intros Hd Hl HF. unfold grid_offset, grid_shift. destruct offset as [|o0 offset]; [cbn in Hl; lia|].
    cbn [get nth_error bind]. change (get (o0 :: offset) 0) with (Ok o0). cbn [bind]. f_equal.
    apply fold_lattice; auto. now apply Forall_cons_iff in HF.
  Qed.

  Lemma same_up_to_rows {A A'} f (m : mesh (list (list R)) A (list R)) (m' : mesh (list (list R)) A' (list R)) :
    same_up_to f m m' -> has_rows (m_groups m) -> has_rows (m_groups m').
  Proof.
    intros [_ Hg _ _] H. unfold has_rows in *. clear -Hg H. induction Hg as [|g g' gs gs' (Hvi & Hf & Hn) Hg IH]; [constructor|].
    apply Forall_cons_iff in H as (H1 & H2). constructor; auto.
    destruct H1 as (vi & Hvi' & Hlen). exists vi. rewrite Hvi. split; auto.
    rewrite <- Hlen || rewrite Hlen. unfold nelements. now rewrite Hn, map_length.
  Qed.

  Lemma grid_main leb quarter same_kind shape offset (m : mesh (list (list R)) (amap R) (list R)) :
    0 < d -> length shape = d -> Forall (lt 0) shape -> length offset = d -> Forall (fun o => length o = d) offset ->
    points_in d m -> m_vertices m <> None -> has_rows (m_groups m) -> m_facial m <> Unavailable ->
    (forall fags, m_facial m = Available fags -> Forall (Forall (fagrp_all (amap_wf d))) fags) ->
    exists copies m', make_mesh_grid R leb quarter same_kind d shape (Some offset) m = Ok m' /\
      disjoint_union copies m' /\ length copies = fold_right Nat.mul 1 shape /\
      forall index, Forall2 lt index shape -> exists c o0,
        nth_error copies (radix shape index) = Some c /\ nth_error offset 0 = Some o0 /\
        same_up_to (fun x => vadd x (vadd o0 (lattice d index offset))) m c.
  Proof.
    intros Hd Hs Hpos Hl HF HP Hv Hr Hf Hw. unfold make_mesh_grid.
    rewrite Hs, Nat.eqb_refl. cbn [guard bind]. rewrite Hl, Nat.eqb_refl. cbn [guard bind].
    pose proof (proj1 (forallb_len R offset d) HF) as HF'. rewrite HF'. cbn [guard bind].
    destruct (mapM_rel (fun index => b <- grid_offset R offset index ;; affine_map R d None (Some (Arr b)) m)
      (fun _ => True) (fun index c => same_up_to (fun x => vadd x (grid_shift offset index)) m c) (product shape))
      as (copies & EC & HC).
    - intros index _. rewrite grid_offset_ok by auto. cbn [bind].
      destruct (affine_map_ok R d None (Some (Arr (grid_shift offset index))) m) as (c & E & Hsu & _); auto.
      + split; [discriminate|]. intros v [= <-]. now apply grid_shift_length.
      + exists c. split; [exact E|exact Hsu].
    - apply Forall_forall. auto.
    - rewrite EC. cbn [bind].
      assert (Hlen : length copies = fold_right Nat.mul 1 shape).
      { rewrite <- (Forall2_length' _ _ _ HC). apply product_length. }
      destruct (merge_spec (fun _ : mesh (list (list R)) (amap R) (list R) => d) same_kind false copies) as (m' & E & Hdu & _).
      + intros ->. cbn in Hlen. clear -Hlen Hpos. induction Hpos as [|n shape Hn Hpos IH]; cbn in Hlen; [lia|]. nia.
      + auto.
      + intros c Hc. destruct (Forall2_In_r _ _ _ _ HC Hc) as (index & _ & Hsu). split.
        * rewrite (su_vertices _ _ _ Hsu). destruct (m_vertices m); [discriminate|tauto].
        * eapply same_up_to_rows; eauto.
      + discriminate.
      + exists copies, m'. split; [exact E|]. split; [exact Hdu|]. split; [exact Hlen|].
        intros index Hi. pose proof (product_nth shape index Hi) as Hn.
        destruct (Forall2_nth_error _ _ _ _ _ HC Hn) as (c & Hc & Hsu).
        destruct offset as [|o0 offset]; [cbn in Hl; lia|].
        exists c, o0. auto.
  Qed.

  (** ** Rotations *)
  Local Open Scope cring_scope.
  Variables c s : R.
  Hypothesis Hcs : c * c + s * s = 1.

  Ltac entries := repeat match goal with |- _ :: _ = _ :: _ => f_equal end.

  Lemma axis_rotation_is_mat x y z : is_mat 3 3 (axis_rotation R c s x y z).
  Proof. split; [reflexivity|]. repeat constructor. Qed.

  Lemma axis_rotation_ok x y z : x * x + y * y + z * z = 1 ->
    matmul 3 (transpose 3 (axis_rotation R c s x y z)) (axis_rotation R c s x y z) = idmat 3 /\
    matvec (axis_rotation R c s x y z) [x; y; z] = [x; y; z] /\
    det R 3 (axis_rotation R c s x y z) = 1.
  Proof.
    intros Hu.
    assert (E1 : c * c = 1 - s * s) by (rewrite <- Hcs; ring).
    assert (E2 : z * z = 1 - x * x - y * y) by (rewrite <- Hu; ring).
    clear Hu. clear Hcs.
    split; [|split].
    - cbv [matmul axis_rotation transpose vecmat map map2 fold_right vadd vscale zeros repeat idmat unitv seq Nat.eqb].
      entries; try reflexivity; ring [E1 E2].
    - cbv [matvec axis_rotation dot map map2 rsum].
      entries; try reflexivity; ring [E1 E2].
    - cbn [det axis_rotation drop_col map]. ring [E1 E2].
  Qed.

  (** the angle: for a vector orthogonal to the axis, the rotated vector is c v + s (u x v) *)
  Lemma axis_rotation_angle x y z v0 v1 v2 : x * v0 + y * v1 + z * v2 = 0 ->
    matvec (axis_rotation R c s x y z) [v0; v1; v2] =
    vadd (vscale c [v0; v1; v2]) (vscale s [y * v2 - z * v1; z * v0 - x * v2; x * v1 - y * v0]).
  Proof.
    intros H. cbv [matvec axis_rotation dot map map2 rsum vadd vscale].
    assert (E : forall a, a * (1 - c) * (x * v0 + y * v1 + z * v2) = 0) by (intros; rewrite H; ring).
    entries; try reflexivity.
    - transitivity (c * v0 + s * (y * v2 - z * v1) + x * (1 - c) * (x * v0 + y * v1 + z * v2)); [ring|rewrite E; ring].
    - transitivity (c * v1 + s * (z * v0 - x * v2) + y * (1 - c) * (x * v0 + y * v1 + z * v2)); [ring|rewrite E; ring].
    - transitivity (c * v2 + s * (x * v1 - y * v0) + z * (1 - c) * (x * v0 + y * v1 + z * v2)); [ring|rewrite E; ring].
  Qed.

  Lemma rotation_2d : map (firstn 2) (firstn 2 (axis_rotation R c s 0 0 1)) = [[c; - s]; [s; c]].
  Proof. cbv [axis_rotation firstn map]. entries; try reflexivity; ring. Qed.

  Lemma same_up_to_ext n {A A'} f g (m : mesh (list (list R)) A (list R)) (m' : mesh (list (list R)) A' (list R)) :
    points_in n m -> (forall x, length x = n -> f x = g x) -> same_up_to f m m' -> same_up_to g m m'.
  Proof.
    intros (Hv & Hg) Hfg [S1 S2 S3 S4]. constructor; auto.
    - rewrite S1. destruct (m_vertices m) as [vs|]; cbn; auto. f_equal. apply map_ext_in. intros x Hx. apply Hfg.
      specialize (Hv vs eq_refl). rewrite Forall_forall in Hv. auto.
    - clear -S2 Hg Hfg. induction S2 as [|h h' gs gs' (H1 & H2 & H3) HS IH]; constructor.
      + repeat split; auto. rewrite H3. apply map_ext_in. intros xs Hxs. apply map_ext_in. intros x Hx. apply Hfg.
        apply Forall_cons_iff in Hg as (Hn & _). rewrite Forall_forall in Hn. specialize (Hn xs Hxs). rewrite Forall_forall in Hn. auto.
      + apply IH. now apply Forall_cons_iff in Hg.
  Qed.

  Lemma linear_map_ok n M (m : mesh (list (list R)) (amap R) (list R)) : is_mat n n M -> points_in n m ->
    m_facial m <> Unavailable ->
    (forall fags, m_facial m = Available fags -> Forall (Forall (fagrp_all (amap_wf n))) fags) ->
    exists m', affine_map R n (Some (Arr M)) None m = Ok m' /\ same_up_to (matvec M) m m'.
  Proof.
    intros HM HP Hf Hw. destruct (affine_map_ok R n (Some (Arr M)) None m) as (m' & E & HS & _); auto.
    - split; [|discriminate]. intros ? [= <-]. exact HM.
    - exists m'. split; auto. eapply same_up_to_ext; [exact HP| |exact HS].
      intros x Hx. unfold transform. cbn. apply vadd_zeros. rewrite matvec_length. apply HM.
  Qed.

  Lemma rotate_ok axis n (m : mesh (list (list R)) (amap R) (list R)) : points_in n m ->
    m_facial m <> Unavailable ->
    (forall fags, m_facial m = Available fags -> Forall (Forall (fagrp_all (amap_wf n))) fags) ->
    (n = 2%nat -> exists m', rotate_mesh_around_axis R n c s axis m = Ok m' /\ same_up_to (matvec [[c; - s]; [s; c]]) m m') /\
    (n = 3%nat -> exists m', rotate_mesh_around_axis R n c s axis m = Ok m' /\
       same_up_to (matvec (let '(x, y, z) := match axis with Some u => u | None => (0, 0, 1) end in axis_rotation R c s x y z)) m m').
  Proof.
    intros HP Hf Hw. split; intros ->; cbn [rotate_mesh_around_axis].
    - rewrite rotation_2d. apply linear_map_ok; auto. split; [reflexivity|]. repeat constructor.
    - destruct axis as [((x & y) & z)|]; apply linear_map_ok; auto; apply axis_rotation_is_mat.
  Qed.

  Lemma rand_rotation_ok r q sphi cphi : cphi * cphi + sphi * sphi = 1 -> r * r + q * q = 1 + 1 ->
    matmul 3 (transpose 3 (rand_rotation_matrix R r q sphi cphi s c)) (rand_rotation_matrix R r q sphi cphi s c) = idmat 3 /\
    det R 3 (rand_rotation_matrix R r q sphi cphi s c) = 1.
  Proof.
    intros Hp Hrq.
    assert (E1 : c * c = 1 - s * s) by (rewrite <- Hcs; ring).
    assert (E2 : cphi * cphi = 1 - sphi * sphi) by (rewrite <- Hp; ring).
    assert (E3 : q * q = 1 + 1 - r * r) by (rewrite <- Hrq; ring).
    clear Hp Hrq. clear Hcs.
    split.
    - cbv [rand_rotation_matrix outer matmul transpose vecmat map map2 fold_right vadd vsub vscale zeros repeat idmat unitv seq Nat.eqb].
      entries; try reflexivity; ring [E1 E2 E3].
    - cbv [rand_rotation_matrix outer matmul vecmat map map2 fold_right vadd vsub vscale zeros repeat idmat unitv seq Nat.eqb].
      cbn [det drop_col map]. ring [E1 E2 E3].
  Qed.
End GridProofs.
