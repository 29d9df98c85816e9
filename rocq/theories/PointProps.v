(** * Properties C21, C62-C64: matching of points. *)
From Coq Require Import List Arith Bool ZArith Lia.
From Verif Require Import Np NpFacts MeshModel MeshStateModel Lin Ord ProcModel PointModel PointSpec PointProofs.
Import ListNotations.

(** ** C21: whatever the median function, leaf size and depth of the recursion, a result has one entry per source point:
    -1 if no target is within the tolerance, otherwise the number of a target within the tolerance. *)
Theorem C21_matching_sound_and_complete :
  forall (R : ocring) median fuel (tol : R) max_leaf dim dim' src tgt r,
    ole (@r0 R) tol = true -> 0 < dim ->
    find_point_to_point_mapping R median fuel tol max_leaf dim dim' src tgt = Ok r ->
    matching tol src tgt r.
Proof.
  intros R median fuel tol max_leaf dim dim' src tgt r Ht Hd H. unfold find_point_to_point_mapping in H.
  destruct (guard _ _); cbn [bind] in H; [|discriminate]. eapply find_mapping_spec; eauto.
Qed.
Print Assumptions C21_matching_sound_and_complete.

(** With no more points than fit a leaf there is a result. *)
Theorem C21_small_sets_have_result :
  forall (R : ocring) median fuel (tol : R) max_leaf dim src tgt,
    0 < dim -> tgt <> [] -> length src + length tgt <= max_leaf ->
    exists r, find_point_to_point_mapping R median (S fuel) tol max_leaf dim dim src tgt = Ok r.
Proof.
  intros. unfold find_point_to_point_mapping. rewrite Nat.eqb_refl. cbn [guard bind]. now apply find_mapping_small.
Qed.
Print Assumptions C21_small_sets_have_result.

(** Source points matched to one target are less than two tolerances apart: a matching of separated points is injective. *)
Theorem C21_separated_points_matched_injectively :
  forall (R : ocring) median fuel (tol : R) max_leaf dim src tgt r,
    ole (@r0 R) tol = true -> 0 < dim ->
    Forall (fun p => length p = dim) src -> Forall (fun p => length p = dim) tgt ->
    find_point_to_point_mapping R median fuel tol max_leaf dim dim src tgt = Ok r ->
    (forall i j s s', i <> j -> nth_error src i = Some s -> nth_error src j = Some s' -> ~ within (rmul (radd r1 r1) tol) s s') ->
    forall i j z, nth_error r i = Some z -> nth_error r j = Some z -> z <> (-1)%Z -> i = j.
Proof.
  intros R median fuel tol max_leaf dim src tgt r Ht Hd Hs Htg H Hsep i j z Hi Hj Hz.
  apply C21_matching_sound_and_complete in H; auto.
  destruct (Nat.eq_dec i j) as [|Hne]; auto. exfalso.
  destruct (Forall2_nth_error_r _ _ _ _ _ H Hi) as (s & Hsi & _). destruct (Forall2_nth_error_r _ _ _ _ _ H Hj) as (s' & Hsj & _).
  eapply (Hsep i j); eauto. eapply (matching_injective R tol dim src tgt r); eauto.
Qed.
Print Assumptions C21_separated_points_matched_injectively.

Definition row1 (l : list Z) : list (list Z) := map (fun x => [x]) l.
Definition up_from (a : Z) (step : Z) (n : nat) : list Z := map (fun i => (a + step * Z.of_nat i)%Z) (seq 0 n).

(** Recursion on the longer axis, points near the splitting planes included: leaf size 4, tolerance 2, 8 sources. *)
Example C21_example :
  let src := map (fun x => [x; 0]%Z) (up_from 0 10 8) in
  let tgt := map (fun x => [x; 1]%Z) (rev (up_from 20 10 6)) in
  find_point_to_point_mapping Zocring median_Z 10 2%Z 5 2 2 src tgt = Ok [-1; -1; 5; 4; 3; 2; 1; 0]%Z /\
  find_point_to_point_mapping Zocring median_Z 10 1%Z 5 2 2 src tgt = Ok [-1; -1; -1; -1; -1; -1; -1; -1]%Z /\
  within (R := Zocring) 2%Z [20; 0]%Z [20; 1]%Z /\
  find_point_to_point_mapping Zocring median_Z 10 1%Z 5 2 1 src [] = Err ValueError.
Proof. vm_compute. auto. Qed.

(** ** C62: there is an answer for every two point sets.  False: when the targets of one half are exhausted, an error
    is raised although the answer is "no match" ... *)
Theorem C62_disjoint_sets_refuted :
  exists src tgt : list (list Z), tgt <> [] /\ length src = 200 /\ length tgt = 100 /\
    (forall s t, In s src -> In t tgt -> ~ within (R := Zocring) 1%Z s t) /\
    find_point_to_point_mapping Zocring median_Z 2 1%Z 256 1 1 src tgt = Err ValueError.
Proof.
  exists (row1 (up_from 0 1 200)), (row1 (up_from 1000 1 100)).
  split; [discriminate|]. split; [reflexivity|]. split; [reflexivity|]. split; [|vm_compute; reflexivity].
  intros s t Hs Ht. unfold row1, up_from in Hs, Ht. rewrite map_map in Hs, Ht.
  apply in_map_iff in Hs as (i & <- & Hi). apply in_map_iff in Ht as (j & <- & Hj). apply in_seq in Hi, Hj.
  unfold within, olt. cbn [sqdist ole Zocring]. cbv [rsub rmul r1 r0 radd ropp oc Zocring Zcring].
  intros H. apply negb_true_iff, Z.leb_gt in H. nia.
Qed.
Print Assumptions C62_disjoint_sets_refuted.

(** ... and for more coincident points than fit a leaf the recursion does not end, whatever its depth limit. *)
Theorem C62_coincident_points_never_terminate :
  forall (R : ocring) median (tol : R) max_leaf (p : list R) n m,
    (forall x k, 0 < k -> median (repeat x k) = x) -> ole (@r0 R) tol = true -> 0 < length p -> max_leaf < n + m ->
    forall fuel, find_point_to_point_mapping R median fuel tol max_leaf (length p) (length p) (repeat p n) (repeat p m) = Err NonTermination.
Proof.
  intros. unfold find_point_to_point_mapping. rewrite Nat.eqb_refl. cbn [guard bind]. now apply coincident_nonterminating.
Qed.
Print Assumptions C62_coincident_points_never_terminate.
Theorem C62_coincident_points_refuted :
  exists src tgt : list (list Z), tgt <> [] /\ forall fuel,
    find_point_to_point_mapping Zocring (fun l => match l with x :: _ => x | [] => 0%Z end) fuel 1%Z 256 1 1 src tgt
      = Err NonTermination.
Proof.
  exists (repeat [5]%Z 200), (repeat [5]%Z 100). split; [discriminate|].
  apply (C62_coincident_points_never_terminate Zocring _ 1%Z 256 [5]%Z 200 100); auto; try (cbn; lia).
  intros x [|k]; [lia|reflexivity].
Qed.
Print Assumptions C62_coincident_points_refuted.
(** In dimension 0 there is one entry, whatever the number of source points. *)
Theorem C62_dimension_zero_refuted :
  exists src tgt : list (list Z), length src = 3 /\
    find_point_to_point_mapping Zocring median_Z 1 1%Z 256 0 0 src tgt = Ok [0%Z].
Proof. exists [[]; []; []], [[]]. split; reflexivity. Qed.
Print Assumptions C62_dimension_zero_refuted.

(** ** C63: the match is the nearest target.  True up to the leaf size; beyond it false: the upper half overwrites. *)
Theorem C63_small_sets_nearest :
  forall (R : ocring) median fuel (tol : R) max_leaf dim dim' src tgt r,
    0 < dim -> length src + length tgt <= max_leaf ->
    find_point_to_point_mapping R median fuel tol max_leaf dim dim' src tgt = Ok r ->
    forall i s k, nth_error src i = Some s -> nth_error r i = Some (Z.of_nat k) -> nearest tgt s k.
Proof.
  intros R median fuel tol max_leaf dim dim' src tgt r Hd Hl H. unfold find_point_to_point_mapping in H.
  destruct (guard _ _); cbn [bind] in H; [|discriminate]. eapply small_nearest; eauto.
Qed.
Print Assumptions C63_small_sets_nearest.
Example C63_example :
  find_point_to_point_mapping Zocring median_Z 1 10%Z 256 1 1 (row1 [0]%Z) (row1 [5; -2; 2; 9]%Z) = Ok [1]%Z.
Proof. reflexivity. Qed.
Theorem C63_nearest_refuted :
  exists tgt : list (list Z),
    find_point_to_point_mapping Zocring median_Z 2 10%Z 256 1 1 (row1 [0]%Z) tgt = Ok [1]%Z /\
    nth_error tgt 0 = Some [-2]%Z /\ nth_error tgt 1 = Some [5]%Z /\ ~ nearest (R := Zocring) tgt [0]%Z 1.
Proof.
  exists (row1 ([-2; 5; 9] ++ repeat (-1000) 125 ++ repeat 1000 128)%Z).
  split; [vm_compute; reflexivity|]. split; [reflexivity|]. split; [reflexivity|].
  intros (t & Ht & H). cbn in Ht. injection Ht as <-.
  destruct (H 0 [-2]%Z eq_refl) as (H' & _). vm_compute in H'. discriminate.
Qed.
Print Assumptions C63_nearest_refuted.

(** ** C64: find_point_permutation returns None exactly if some target has no permutee within the tolerance; otherwise
    a permutee within the tolerance for each target; it is one-to-one if the targets are two tolerances apart. *)
Theorem C64_permutation :
  forall (R : ocring) median fuel (tol : R) dim dim' targets permutees o,
    ole (@r0 R) tol = true -> 0 < dim ->
    find_point_permutation R median fuel tol dim dim' targets permutees = Ok o ->
    (o = None <-> exists s, In s targets /\ forall t, In t permutees -> ~ within tol s t) /\
    (forall p, o = Some p ->
       Forall2 (fun s z => exists k t, z = Z.of_nat k /\ nth_error permutees k = Some t /\ within tol s t) targets p).
Proof. exact permutation_spec. Qed.
Print Assumptions C64_permutation.
(** Nothing makes the result a permutation: two targets may get one permutee, and a permutee none. *)
Theorem C64_permutation_refuted :
  exists targets permutees : list (list Z), length targets = length permutees /\
    find_point_permutation Zocring median_Z 1 3%Z 1 1 targets permutees = Ok (Some [0; 0]%Z).
Proof. exists (row1 [0; 1]%Z), (row1 [0; 100]%Z). split; reflexivity. Qed.
Print Assumptions C64_permutation_refuted.
Theorem C64_separated_targets_one_to_one :
  forall (R : ocring) median fuel (tol : R) dim targets permutees p,
    ole (@r0 R) tol = true -> 0 < dim ->
    Forall (fun p => length p = dim) targets -> Forall (fun p => length p = dim) permutees ->
    find_point_permutation R median fuel tol dim dim targets permutees = Ok (Some p) ->
    (forall i j s s', i <> j -> nth_error targets i = Some s -> nth_error targets j = Some s' -> ~ within (rmul (radd r1 r1) tol) s s') ->
    NoDup p.
Proof.
  intros R median fuel tol dim targets permutees p Ht Hd Hs Hp H Hsep.
  pose proof (proj2 (permutation_spec R median fuel tol dim dim targets permutees _ Ht Hd H) p eq_refl) as HF.
  unfold find_point_permutation in H.
  destruct (find_point_to_point_mapping _ _ _ _ _ _ _ _) as [r|] eqn:E; cbn [bind] in H; [|discriminate].
  destruct (forallb _ r); [|discriminate]. injection H as ->.
  apply NoDup_nth_error. intros i j Hi Hij.
  destruct (nth_error p i) as [z|] eqn:Ei; [|apply nth_error_None in Ei; lia].
  eapply (C21_separated_points_matched_injectively R median fuel tol 256 dim targets permutees p); eauto.
  destruct (Forall2_nth_error_r _ _ _ _ _ HF Ei) as (s & _ & k & t & -> & _). lia.
Qed.
Print Assumptions C64_separated_targets_one_to_one.
Example C64_example :
  find_point_permutation Zocring median_Z 1 3%Z 2 2 [[0; 0]; [10; 0]; [0; 10]]%Z [[9; 1]; [1; 9]; [-1; 0]]%Z = Ok (Some [2; 0; 1]%Z) /\
  find_point_permutation Zocring median_Z 1 3%Z 2 2 [[0; 0]; [10; 0]; [5; 5]]%Z [[9; 1]; [1; 9]; [-1; 0]]%Z = Ok None.
Proof. vm_compute. auto. Qed.
