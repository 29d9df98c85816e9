(** * GenExamples: the hypotheses of C134 to C142 can be met, with the real numbers where square roots or sines occur. *)
From Coq Require Import List Arith Bool Lia ZArith Ring Permutation.
From Coq Require QArith Qcanon Reals Lra.
From Verif Require Import Np NpFacts MeshModel MeshSpec MeshStateModel MeshProofs Lin Ord QcOrd ROrd ProcModel ProcSpec FlipProofs AffineModel RefineModel RefineSpec RefineProofs RefineProps FdSpec FdImportProofs FdConnFromProofs GenModel GenSpec GenGroupProofs GenSphereProofs GenRefineProofs GenSphereMain GenCurveProofs GenIoProofs GenProps.
Import ListNotations.

(** ** Real numbers *)
Section Reals.
  Import Reals Lra.
  Local Open Scope R_scope.
  Lemma real_strict : strict_products Rocring.
  Proof. intros a b Ha Hb. apply Rolt_iff in Ha, Hb. apply Rolt_iff. now apply Rmult_lt_0_compat. Qed.
  Lemma real_one : olt (R := Rocring) r0 r1 = true.
  Proof. apply Rolt_iff. exact Rlt_0_1. Qed.
  Lemma real_sqrt : right_sqrt Rocring sqrt.
  Proof. intros a Ha. apply Rleb_iff in Ha. split; [exact (sqrt_sqrt a Ha)|]. apply Rleb_iff. apply sqrt_pos. Qed.
  Lemma real_inv : right_inv Rocring Rinv.
  Proof. intros a Ha. exact (Rinv_r a Ha). Qed.
  Definition real_phi : Rocring := (1 + sqrt 5) / 2.
  Lemma real_golden : golden Rocring real_phi.
  Proof.
    assert (H : sqrt 5 * sqrt 5 = 5) by (apply sqrt_sqrt; lra). split.
    - change (real_phi * real_phi = real_phi + 1). unfold real_phi. nra.
    - apply Rolt_iff. change (1 < real_phi). unfold real_phi. assert (1 < sqrt 5); [|lra]. rewrite <- sqrt_1 at 1. apply sqrt_lt_1; lra.
  Qed.
  Definition real_half : Rocring := / 2.
  Lemma real_halves : radd real_half real_half = r1.
  Proof. change (/ 2 + / 2 = 1). lra. Qed.
  Lemma real_trig : trig Rocring sin cos.
  Proof.
    split; [exact sin_plus|]. split; [exact cos_plus|]. split.
    - intros a. pose proof (sin2_cos2 a) as H. unfold Rsqr in H. change (cos a * cos a + sin a * sin a = 1). lra.
    - intros a. destruct (SIN_bound a). split; apply Rleb_iff; auto.
  Qed.
  (** a third of a full turn *)
  Lemma real_turn x : sin (x + rnat Rocring 3 * (2 * PI / 3)) = sin x.
  Proof.
    change (sin (x + (1 + (1 + (1 + 0))) * (2 * PI / 3)) = sin x). replace ((1 + (1 + (1 + 0))) * (2 * PI / 3)) with (2 * INR 1 * PI) by (cbn [INR]; lra). apply sin_period.
  Qed.
  Lemma real_two : (2 : Rocring) <> r0.
  Proof. change (2 <> 0). lra. Qed.
  Definition real_two_ : Rocring := 2.
  Definition real_angle : Rocring := 2 * PI / 3.
  Definition real_q : Rocring := / 2.
  Lemma real_q_pos : ole (o := Rocring) r0 real_q = true.
  Proof. apply Rleb_iff. change (0 <= / 2). lra. Qed.
  Lemma real_coeffs : rsum (map (rabs Rocring) [1; - (1)]) <> (r0 : Rocring).
  Proof.
    cbn [map rsum]. assert (H : forall x : Rocring, rabs Rocring x = Rabs x).
    { intros x. unfold rabs. change (ole r0 x) with (Rleb 0 x). unfold Rleb. destruct (Rle_dec 0 x); [now rewrite Rabs_pos_eq|]. change (- x = Rabs x). rewrite Rabs_left; lra. }
    rewrite !H. change (Rabs 1 + (Rabs (- (1)) + 0) <> 0). rewrite Rabs_Ropp, !Rabs_R1. lra.
  Qed.
End Reals.

(** ** C134, C142: a triangle, negatively oriented *)
Section Triangle.
  Variable R : ocring.
  Add Ring Rtri : (rth R).
  Local Open Scope cring_scope.
  Definition tri_nodes : list (list R) := [[- (1); - (1)]; [1; - (1)]; [- (1); 1]].
  Definition tri_flip : list (list R) := [[0; 1; 0]; [1; 0; 0]; [0; 0; 1]].
  Lemma tri_flip_right : right_flip R 2 tri_nodes tri_flip.
  Proof.
    intros a c Ha. destruct a as [|a0 [|a1 [|]]]; try discriminate. unfold tri_nodes, tri_flip, flip_unit. cbn [map rsum fold_right]. unfold matvec. cbn [map]. rewrite !dot_cons. unfold dot. cbn [map2 rsum].
    f_equal; [|f_equal; [|f_equal]]; ring.
  Qed.
End Triangle.

Definition q (n : Z) : Qcocring := frac n 1.
Definition tri_vertices : list (list Qcocring) := [[q 0; q 0]; [q 4; q 0]; [q 0; q 6]; [q 4; q 6]].
Example C134_example : match make_group_from_vertices Qcocring (frac 1 2) (fun _ _ => Err ValueError) (fun _ => []) (fun _ _ _ => []) (fun _ _ => []) tri_vertices [[0; 1; 2]; [3; 2; 1]] 3 1 CSimplex
    (Some [[q (-1); q 1]; [q 0; q (-1)]]) with
  | Ok g => map (map (map Qcanon.this)) (eg_nodes g) = map (map (map Qcanon.this)) [[[q 0; q 6]; [q 2; q 0]]; [[q 4; q 0]; [q 2; q 6]]]
  | Err _ => False
  end /\
  Forall2 (corner_points tri_vertices) [[0; 1; 2]; [3; 2; 1]] [[[q 0; q 0]; [q 4; q 0]; [q 0; q 6]]; [[q 4; q 6]; [q 0; q 6]; [q 4; q 0]]].
Proof. split; [vm_compute; reflexivity|]. repeat constructor. Qed.

Example C142_example : right_flip Qcocring 2 (tri_nodes Qcocring) (tri_flip Qcocring) /\
  match from_vertices_and_simplices Qcocring (A := unit) (frac 1 2) (fun _ _ => tri_nodes Qcocring) (fun _ => []) (fun _ => tri_flip Qcocring) 2 tri_vertices [[0; 2; 1]; [3; 2; 1]] 3 1 true with
  | Ok m => map eg_vi (m_groups m) = [Some [[2; 0; 1]; [3; 2; 1]]] /\
      map (fun g => map (map (map Qcanon.this)) (eg_nodes g)) (m_groups m) =
        [map (map (map Qcanon.this)) [[[q 0; q 0; q 4]; [q 6; q 0; q 0]]; [[q 4; q 0; q 4]; [q 6; q 6; q 0]]]]
  | Err _ => False
  end.
Proof. split; [apply tri_flip_right|]. vm_compute. split; reflexivity. Qed.

(** ** C135, C137: a solver for the bilinear system on the square *)
Section Square.
  Variable R : ocring.
  Add Ring Rsq : (rth R).
  Local Open Scope cring_scope.
  Definition sq_tuples : list (list nat) := [[0; 0]; [1; 0]; [0; 1]; [1; 1]]%nat.
  Definition sq_vdm : list (list R) := map (fun t => map (fun f => monomial R f (map (rnat R) t)) sq_tuples) sq_tuples.
  Definition sq_inv : list (list R) := [[1; 0; 0; 0]; [- (1); 1; 0; 0]; [- (1); 0; 1; 0]; [1; - (1); - (1); 1]].
  Definition vec_eqb (u v : list R) : bool := (length u =? length v) && forallb (fun xy => (fst xy <=? snd xy) && (snd xy <=? fst xy)) (combine u v).
  Definition mat_eqb (a b : list (list R)) : bool := (length a =? length b) && forallb (fun xy => vec_eqb (fst xy) (snd xy)) (combine a b).
  Definition sq_solve (a b : list (list R)) : res (list (list R)) :=
    if mat_eqb a sq_vdm then Ok (matmul (match b with r :: _ => length r | [] => 0%nat end) sq_inv b) else Err ValueError.

  Lemma vec_eqb_eq u v : vec_eqb u v = true -> u = v.
  Proof.
    unfold vec_eqb. intros H. apply andb_true_iff in H as (H1 & H2). apply Nat.eqb_eq in H1. revert v H1 H2; induction u as [|a u IH]; intros [|b v] H1 H2; cbn [length] in H1; try lia; [reflexivity|].
    cbn [combine forallb fst snd] in H2. apply andb_true_iff in H2 as (H2 & H3). apply andb_true_iff in H2 as (H2 & H4). f_equal; [now apply (ole_antisym R)|]. apply IH; auto.
  Qed.
  Lemma vec_eqb_refl u : vec_eqb u u = true.
  Proof. unfold vec_eqb. rewrite Nat.eqb_refl. induction u as [|a u IH]; [reflexivity|]. cbn [combine forallb fst snd]. now rewrite (ole_refl R a). Qed.
  Lemma mat_eqb_eq a b : mat_eqb a b = true -> a = b.
  Proof.
    unfold mat_eqb. intros H. apply andb_true_iff in H as (H1 & H2). apply Nat.eqb_eq in H1. revert b H1 H2; induction a as [|u a IH]; intros [|v b] H1 H2; cbn [length] in H1; try lia; [reflexivity|].
    cbn [combine forallb fst snd] in H2. apply andb_true_iff in H2 as (H2 & H3). f_equal; [now apply vec_eqb_eq|]. apply IH; auto.
  Qed.
  Lemma mat_eqb_refl a : mat_eqb a a = true.
  Proof. unfold mat_eqb. rewrite Nat.eqb_refl. induction a as [|u a IH]; [reflexivity|]. cbn [combine forallb fst snd]. now rewrite (vec_eqb_refl u). Qed.

  Lemma vec_ext n (u v : list R) : length u = n -> length v = n -> (forall w, dot u w = dot v w) -> u = v.
  Proof.
    intros Hu Hv H. rewrite <- (matvec_id R n u Hu), <- (matvec_id R n v Hv). unfold matvec. apply map_ext. intros w. rewrite dot_comm, H. apply dot_comm.
  Qed.
  Lemma matmul_assoc m k l n (a b c : list (list R)) : is_mat (R := R) m k a -> is_mat (R := R) k l b -> is_mat (R := R) l n c -> matmul n (matmul l a b) c = matmul n a (matmul n b c).
  Proof.
    intros (Ha1 & Ha2) (Hb1 & Hb2) (Hc1 & Hc2). unfold matmul at 1 2 3. rewrite map_map. apply map_ext_in. intros row Hin. rewrite Forall_forall in Ha2. specialize (Ha2 row Hin).
    assert (Hbc : is_mat (R := R) k n (matmul n b c)) by (apply (is_mat_matmul R k l n); split; auto).
    assert (L1 : length (vecmat l row b) = l) by (apply vecmat_length; auto; congruence).
    apply (vec_ext n).
    - apply vecmat_length; auto. congruence.
    - apply vecmat_length; [destruct Hbc; congruence|apply Hbc].
    - intros w. rewrite dot_vecmat by (auto; congruence). rewrite dot_vecmat by (auto; congruence).
      rewrite dot_vecmat by (first [destruct Hbc; congruence|apply Hbc]). f_equal. symmetry. apply (matvec_matmul R k l n); split; auto.
  Qed.
  Lemma matmul_id n k (b : list (list R)) : is_mat (R := R) n k b -> matmul k (idmat n) b = b.
  Proof.
    intros (H1 & H2). apply nth_error_ext'. intros i. unfold matmul, idmat. rewrite map_map, nth_error_map. destruct (nth_error b i) as [row|] eqn:E.
    - assert (Hi : (i < n)%nat) by (rewrite <- H1; apply nth_error_Some; congruence). destruct (nth_error (seq 0 n) i) as [j|] eqn:Ej; [|apply nth_error_None in Ej; rewrite seq_length in Ej; lia].
      assert (j = i). { rewrite (nth_error_nth' _ 0%nat) in Ej by (now rewrite seq_length). rewrite seq_nth in Ej by auto. cbn [Nat.add] in Ej. congruence. } subst j. cbn [option_map]. f_equal. now apply (vecmat_unit k n 0 i).
    - apply nth_error_None in E. replace (nth_error (seq 0 n) i) with (@None nat); [reflexivity|]. symmetry. apply nth_error_None. rewrite seq_length. lia.
  Qed.
  Lemma sq_vdm_eq : sq_vdm = [[1; 0; 0; 0]; [1; 1; 0; 0]; [1; 0; 1; 0]; [1; 1; 1; 1]].
  Proof. unfold sq_vdm, sq_tuples, monomial. cbn [map map2 rprod rpow rnat]. repeat (f_equal; try ring). Qed.
  Lemma sq_mat : is_mat (R := R) 4 4 sq_vdm.
  Proof. rewrite sq_vdm_eq. split; repeat constructor. Qed.
  Lemma sq_inv_mat : is_mat (R := R) 4 4 sq_inv.
  Proof. split; repeat constructor. Qed.
  Lemma sq_inv_right : matmul 4 sq_vdm sq_inv = idmat 4.
  Proof.
    rewrite sq_vdm_eq. unfold sq_inv, idmat, matmul, vecmat, unitv. cbn [map map2 fold_right seq Nat.eqb]. unfold vadd, vscale, zeros. cbn [map map2 repeat]. repeat (f_equal; try ring).
  Qed.
  Lemma sq_solve_right : right_solver R sq_solve.
  Proof.
    intros m n a b x Ha Hb H. unfold sq_solve in H. destruct (mat_eqb a sq_vdm) eqn:E; [|discriminate]. apply mat_eqb_eq in E. subst a. assert (Ex : x = matmul (match b with r :: _ => length r | [] => 0%nat end) sq_inv b) by congruence. subst x. clear H.
    assert (m = 4%nat) by (destruct Ha as (Ha & _), sq_mat as (Hm & _); congruence). subst m.
    replace (match b with [] => 0%nat | r :: _ => length r end) with n by (destruct Hb as (L & F); destruct b; [discriminate|now inversion F]).
    split; [apply (is_mat_matmul R 4 4 n); [apply sq_inv_mat|exact Hb]|]. rewrite <- (matmul_assoc 4 4 4 n) by (auto using sq_mat, sq_inv_mat). rewrite sq_inv_right. now apply matmul_id.
  Qed.
  Lemma sq_regular b : exists x, sq_solve (map (fun t => map (fun f => monomial R f (map (rnat R) t)) sq_tuples) sq_tuples) b = Ok x.
  Proof. unfold sq_solve. change (map _ sq_tuples) with sq_vdm. rewrite mat_eqb_refl. eauto. Qed.
  Lemma sq_tuples_ok : square_tuples sq_tuples.
  Proof. split; [reflexivity|]. split; [repeat constructor|]. intros [|[|a]] [|[|b]] Ha Hb; try lia; cbn; tauto. Qed.

  (** The cube: corners in the order of modepy *)
  Definition cube_corners : list (list R) := flat_map (fun z => flat_map (fun y => map (fun x => [x; y; z]) [- (1); 1]) [- (1); 1]) [- (1); 1].
  Definition cube_quads : list (list nat) := [[0; 1; 2; 3]; [4; 5; 6; 7]; [0; 2; 4; 6]; [1; 3; 5; 7]; [0; 1; 4; 5]; [2; 3; 6; 7]]%nat.
  Lemma cube_ok' : cube_faces R cube_corners cube_quads.
  Proof.
    split.
    - unfold cube_corners. cbn [flat_map map app]. repeat (apply Forall_cons; [split; [reflexivity|]; repeat (apply Forall_cons; [auto|]); apply Forall_nil|]). apply Forall_nil.
    - unfold cube_quads. repeat (apply Forall_cons; [split; [reflexivity|]|]); [exists 2%nat, (- (1))|exists 2%nat, 1|exists 0%nat, (- (1))|exists 0%nat, 1|exists 1%nat, (- (1))|exists 1%nat, 1|apply Forall_nil];
        (split; [auto|]; repeat (apply Forall_cons; [eexists; split; reflexivity|]); apply Forall_nil).
  Qed.
End Square.

(** A quadrilateral that is no parallelogram; the centre of the square is taken to the average of the vertices. *)
Example C135_example : right_solver Qcocring (sq_solve Qcocring) /\
  match make_group_from_vertices Qcocring (frac 1 2) (sq_solve Qcocring) (fun _ => sq_tuples) (fun _ _ _ => []) (fun _ _ => []) [[q 0; q 0]; [q 4; q 0]; [q 0; q 4]; [q 8; q 8]] [[0; 1; 2; 3]] 4 1 CTensor
    (Some [[q 1; q 1]; [q 1; q (-1)]; [q 0; q 0]]) with
  | Ok g => map (map (map Qcanon.this)) (eg_nodes g) = map (map (map Qcanon.this)) [[[q 8; q 8]; [q 4; q 0]; [q 3; q 3]]]
  | Err _ => False
  end.
Proof. split; [apply sq_solve_right|]. vm_compute. reflexivity. Qed.

(** ** C137: refinement of triangles and squares by averages of nodes *)
Section Averages.
  Variable R : ocring.
  Add Ring Rav : (rth R).
  Local Open Scope cring_scope.
  Variable half : R.
  Hypothesis Hhalf : half + half = 1.
  (** the average of two points of a list, or the first point *)
  Definition avg_w (n i j : nat) : list R := vadd (vscale half (unitv n (if i <? n then i else 0)%nat)) (vscale half (unitv n (if j <? n then j else 0)%nat)).
  Definition avg (x : list (list R)) (ij : nat * nat) : list R := weighted R 3 (avg_w (length x) (fst ij) (snd ij)) x.
  Lemma rsum_vadd (u v : list R) : length u = length v -> rsum (vadd u v) = rsum u + rsum v.
  Proof. revert v; induction u as [|a u IH]; intros [|b v] H; cbn [length] in H; try lia; [unfold vadd; cbn [map2 rsum]; ring|]. change (vadd (a :: u) (b :: v)) with ((a + b) :: vadd u v). cbn [rsum]. rewrite IH by lia. ring. Qed.
  Lemma rsum_vscale c (u : list R) : rsum (vscale c u) = c * rsum u.
  Proof. induction u as [|a u IH]; [unfold vscale; cbn [map rsum]; ring|]. change (vscale c (a :: u)) with (c * a :: vscale c u). cbn [rsum]. rewrite IH. ring. Qed.
  Lemma rsum_unitv n i : (i < n)%nat -> rsum (unitv n i : list R) = 1.
  Proof.
    intros H. unfold unitv. rewrite (rsum_unit R 0 n i). destruct (Nat.leb_spec 0 i), (Nat.ltb_spec i (0 + n)); try lia. reflexivity.
  Qed.
  Lemma avg_affine x ij : x <> [] -> affine_of R x (avg x ij).
  Proof.
    intros Hx. assert (Hn : (0 < length x)%nat) by (destruct x; [contradiction|cbn [length]; lia]).
    assert (L : forall n i, length (unitv n i : list R) = n) by (intros; unfold unitv; now rewrite map_length, seq_length).
    exists (avg_w (length x) (fst ij) (snd ij)). unfold avg_w. split; [|split; [|reflexivity]].
    - rewrite vadd_length; rewrite !vscale_length, !L; reflexivity.
    - rewrite rsum_vadd by (now rewrite !vscale_length, !L). rewrite !rsum_vscale, !rsum_unitv; [transitivity (half + half); [ring|exact Hhalf]| |]; match goal with |- context [(?a <? ?b)%nat] => destruct (Nat.ltb_spec a b); lia end.
  Qed.

  Variable pairs : list (nat * nat).
  Variable kids : list (list (nat * nat)).
  Definition avg_mid (g : egroup (list (list R))) (i : nat) : list (list R) := match nth_error (eg_nodes g) i with Some x => map (avg x) pairs | None => [] end.
  Definition avg_kids (g : egroup (list (list R))) (i : nat) : list (list (list R)) := match nth_error (eg_nodes g) i with Some x => map (map (avg x)) kids | None => [] end.
  Hypothesis Hkids : Forall (fun k => k <> []) kids.
  Lemma avg_refinement : affine_refinement R avg_mid avg_kids.
  Proof.
    intros g i x Hi Hx. unfold avg_mid, avg_kids. rewrite Hi. split.
    - apply Forall_forall. intros p Hp. apply in_map_iff in Hp as (ij & <- & _). now apply avg_affine.
    - apply Forall_forall. intros y Hy. apply in_map_iff in Hy as (k & <- & Hk). rewrite Forall_forall in Hkids. specialize (Hkids k Hk). split; [destruct k; [contradiction|discriminate]|].
      apply Forall_forall. intros p Hp. apply in_map_iff in Hp as (ij & <- & _). now apply avg_affine.
  Qed.
End Averages.

Definition tri_refs : list (nat * nat) := [(0, 0); (0, 1); (1, 1); (0, 2); (1, 2); (2, 2)].
Definition tri_kids : list (list (nat * nat)) := map (map (fun r => nth r tri_refs (0, 0))) tri_children.
Lemma tri_tess_ok : tess_ok tri.
Proof.
  split; [|split; [reflexivity|split; [|]]].
  - cbn. apply NoDup_Permutation; [repeat constructor; cbn; intuition discriminate|repeat constructor; cbn; intuition discriminate|]. intros v. cbn. intuition.
  - repeat constructor.
  - repeat constructor; cbn; lia.
Qed.
Lemma avg_tessellation (R : ocring) half pairs kids t : tess_ok t -> length pairs = length (ts_mid t) -> length kids = length (ts_children t) ->
  tessellation_ok (fun _ => t) (avg_mid R half pairs) (avg_kids R half kids).
Proof.
  intros Ht Hp Hk. split; [auto|]. split; [auto|]. intros g i Hi. unfold avg_mid, avg_kids, nelements in *. destruct (nth_error (eg_nodes g) i) as [x|] eqn:E; [|apply nth_error_None in E; lia]. now rewrite !map_length.
Qed.

(** The hypotheses of C136 and C137 hold for the real numbers, the golden ratio and radius 2. *)
Example C136_example : strict_products Rocring /\ right_sqrt Rocring R_sqrt.sqrt /\ right_inv Rocring Rdefinitions.Rinv /\ radd real_half real_half = r1 /\ golden Rocring real_phi /\ real_two_ <> r0.
Proof. split; [exact real_strict|]. split; [exact real_sqrt|]. split; [exact real_inv|]. split; [exact real_halves|]. split; [exact real_golden|exact real_two]. Qed.
Example C137_example : exists m vs g,
  generate_sphere Rocring (A := unit) R_sqrt.sqrt Rdefinitions.Rinv real_half (fun _ _ => Err ValueError) (fun _ => []) (fun _ _ _ => []) (fun _ _ => [[0]]) (fun _ => tri)
    (avg_mid Rocring real_half (ts_pairs tri)) (avg_kids Rocring real_half tri_kids) real_phi [] [] real_two_ 1 3 (Some (tri_nodes Rocring)) CSimplex = Ok m /\
  m_vertices m = Some vs /\ m_groups m = [g] /\ Forall (on_sphere Rocring real_two_) vs /\ Forall (Forall (on_sphere Rocring real_two_)) (eg_nodes g) /\ nelements g = 1280.
Proof.
  destruct (C137_sphere_simplices Rocring (A := unit) R_sqrt.sqrt Rdefinitions.Rinv real_half real_strict real_sqrt real_inv (fun _ _ => Err ValueError) (fun _ => []) (fun _ _ _ => []) (fun _ _ => [[0]]) (fun _ => tri)
    (avg_mid Rocring real_half (ts_pairs tri)) (avg_kids Rocring real_half tri_kids)) with (phi := real_phi) (r := real_two_) (corners := @nil (list Rocring)) (faces := @nil (list nat)) (order := 1) (rounds := 3) (un := tri_nodes Rocring)
    as (m & vs & g & K1 & K2 & K3 & K4 & K5 & K6 & K7).
  - apply avg_tessellation; [exact tri_tess_ok|reflexivity|reflexivity].
  - apply avg_refinement; [exact real_halves|]. repeat constructor; discriminate.
  - exact real_golden.
  - exact real_two.
  - lia.
  - discriminate.
  - repeat constructor.
  - intros g _. split; reflexivity.
  - exists m, vs, g. split; [exact K1|]. auto 10.
Qed.

(** the cube: four children of each square *)
Definition quad_tess : tess := mk_tess [[0; 1; 3; 4]; [1; 2; 4; 5]; [3; 4; 6; 7]; [4; 5; 7; 8]] 9 [0; 2; 6; 8] [1; 3; 4; 5; 7] [(0, 1); (0, 2); (0, 3); (1, 3); (2, 3)].
Definition quad_refs : list (nat * nat) := [(0, 0); (0, 1); (1, 1); (0, 2); (0, 3); (1, 3); (2, 2); (2, 3); (3, 3)].
Definition quad_kids : list (list (nat * nat)) := map (map (fun r => nth r quad_refs (0, 0))) (ts_children quad_tess).
Lemma quad_tess_ok : tess_ok quad_tess.
Proof.
  split; [|split; [reflexivity|split; [|]]].
  - cbn. apply NoDup_Permutation; [repeat constructor; cbn; intuition discriminate|repeat constructor; cbn; intuition discriminate|]. intros v. cbn. intuition.
  - repeat constructor.
  - repeat constructor; cbn; lia.
Qed.
Definition quad_nodes : list (list Rocring) := [[ropp r1; ropp r1]; [r1; ropp r1]; [ropp r1; r1]; [r1; r1]].
Example C137_cube_example : exists m vs g,
  generate_sphere Rocring (A := unit) R_sqrt.sqrt Rdefinitions.Rinv real_half (sq_solve Rocring) (fun _ => sq_tuples) (fun _ _ _ => []) (fun _ _ => [[0]]) (fun _ => quad_tess)
    (avg_mid Rocring real_half (ts_pairs quad_tess)) (avg_kids Rocring real_half quad_kids) real_phi (cube_corners Rocring) cube_quads real_two_ 1 2 (Some quad_nodes) CTensor = Ok m /\
  m_vertices m = Some vs /\ m_groups m = [g] /\ Forall (on_sphere Rocring real_two_) vs /\ Forall (Forall (on_sphere Rocring real_two_)) (eg_nodes g) /\ nelements g = 96.
Proof.
  destruct (C137_sphere_cubes Rocring (A := unit) R_sqrt.sqrt Rdefinitions.Rinv real_half real_strict real_sqrt real_inv real_halves (sq_solve Rocring) (fun _ => sq_tuples) (fun _ _ _ => []) (fun _ _ => [[0]]) (fun _ => quad_tess)
    (avg_mid Rocring real_half (ts_pairs quad_tess)) (avg_kids Rocring real_half quad_kids)) with (phi := real_phi) (r := real_two_) (corners := cube_corners Rocring) (faces := cube_quads) (order := 1) (rounds := 2) (un := quad_nodes)
    as (m & vs & g & K1 & K2 & K3 & K4 & K5 & K6 & K7).
  - apply avg_tessellation; [exact quad_tess_ok|reflexivity|reflexivity].
  - apply avg_refinement; [exact real_halves|]. repeat constructor; discriminate.
  - apply sq_solve_right.
  - exact sq_tuples_ok.
  - intros b _. apply sq_regular.
  - apply cube_ok'.
  - exact real_one.
  - exact real_two.
  - discriminate.
  - repeat constructor.
  - intros g _. split; reflexivity.
  - exists m, vs, g. split; [exact K1|]. auto 10.
Qed.
Print Assumptions C137_example.
Print Assumptions C137_cube_example.

(** ** C138: a triangle, at one parameter *)
Example C138_example : n_gon Zocring (fun _ => (1, 0)%Z) 3 [0%Z] = Err ValueError.
Proof. reflexivity. Qed.
(** ** C139 *)
Example C139_example : trig Rocring Rtrigo_def.sin Rtrigo_def.cos /\ (forall x : Rocring, Rtrigo_def.sin (radd x (rmul (rnat Rocring 3) real_angle)) = Rtrigo_def.sin x) /\
  ole (o := Rocring) r0 real_q = true /\ rsum (map (rabs Rocring) [r1; ropp r1]) <> (r0 : Rocring).
Proof. split; [exact real_trig|]. split; [exact real_turn|]. split; [exact real_q_pos|exact real_coeffs]. Qed.
Print Assumptions C139_example.

(** ** C140: angles with rational sines and cosines at the ends *)
Definition slice_angle (a : Qcocring) : Qcocring * Qcocring := if ole a (frac 1 2) then (frac 4 5, frac (-3) 5) else (frac 3 5, frac 4 5).
Example C140_example : (forall a, radd (rmul (fst (slice_angle a)) (fst (slice_angle a))) (rmul (snd (slice_angle a)) (snd (slice_angle a))) = r1) /\
  fst (slice_angle r1) = rsub (rmul r0 (fst (slice_angle r0))) (rmul r1 (snd (slice_angle r0))) /\
  snd (slice_angle r1) = radd (rmul r1 (fst (slice_angle r0))) (rmul r0 (snd (slice_angle r0))).
Proof.
  split; [|split; apply Qcanon.Qc_is_canon; vm_compute; reflexivity].
  intros a. unfold slice_angle. destruct (ole a (frac 1 2)); apply Qcanon.Qc_is_canon; vm_compute; reflexivity.
Qed.

(** ** C141: for tolerance 1 an element is accepted at once; the hypotheses hold for the real numbers by C136_example *)
Definition flat_mesh : mesh (enodes Zocring) unit (list Z) := mk_mesh [mk_egroup (Some [[0; 1]]) [[[0; 4]]]%Z []] (Some [[0]; [4]]%Z) (Some true) Pending Pending 0 0 0.
Example C141_example : warp_loop Zocring Z.sqrt (fun _ => 1%Z) (fun _ => [[1; 0]; [0; 1]]%Z) (fun _ => [[0; 0]]%Z) (fun _ => tri) (fun _ _ => []) (fun _ _ => []) (fun m => Ok m) (fun _ => true) (fun _ => true) 1%Z 1 (new_refiner flat_mesh)
  = Ok (new_refiner flat_mesh).
Proof. vm_compute. reflexivity. Qed.
