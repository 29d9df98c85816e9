(** * GenProps: theorems about generated groups, polyhedra, spheres, curves, warped meshes and formats (C134 to C144). *)
From Coq Require Import List Arith Bool Lia ZArith Ring Permutation.
From Coq Require QArith Qcanon.
From Verif Require Import Np NpFacts MeshModel MeshSpec MeshStateModel MeshProofs Lin Ord QcOrd ProcModel ProcSpec FlipProofs AffineModel RefineModel RefineSpec RefineProofs RefineProps FdSpec FdImportProofs GenModel GenSpec GenGroupProofs GenSphereProofs GenRefineProofs GenSphereMain GenCurveProofs GenIoProofs.
Import ListNotations.

Section Groups.
  Variable R : cring.
  Add Ring Rg : (rth R).
  Local Open Scope cring_scope.
  Notation point := (list R).
  Variables (half : R) (solve : list point -> list point -> res (list point)) (tuples : nat -> list (list nat)).
  Variables (default_nodes : gcls -> nat -> nat -> list point) (fvi : gcls -> nat -> list (list nat)).
  Hypothesis Hhalf : half + half = 1.
  Notation make_group := (make_group_from_vertices R half solve tuples default_nodes fvi).

  (** ** C134: nodes of simplices are images of the unit nodes under the affine map that takes unit vertices to vertices *)
  Theorem C134_simplices (vs : list point) rows els d n order un :
    (1 <= order)%nat -> Forall2 (corner_points vs) rows els -> Forall (fun ps => length ps = S d /\ Forall (fun p => length p = n) ps) els ->
    Forall (fun u => length u = d) un ->
    exists g, make_group vs rows (S d) order CSimplex (Some un) = Ok g /\ eg_vi g = Some rows /\ eg_fvi g = fvi CSimplex d /\
      Forall2 (fun ps x => exists f, x = map f un /\
        (forall k p, nth_error ps k = Some p -> f (unit_vertex R d k) = p) /\
        (forall t u v, length u = d -> length v = d -> f (between R t u v) = between R t (f u) (f v))) els (eg_nodes g).
  Proof.
    intros Ho Hc Hn Hu. eexists. split.
    { unfold make_group_from_vertices.
      assert (E : mapM (take vs) rows = Ok els). { apply mapM_ok. eapply Forall2_impl; [|exact Hc]. intros row ps K. unfold take. apply mapM_ok. eapply Forall2_impl; [|exact K]. intros i p Hp. unfold get. now rewrite Hp. }
      rewrite E. cbn [bind]. unfold guard at 1. destruct (Nat.leb_spec 1 order); [|lia]. cbn [bind]. unfold guard at 1. destruct (Nat.leb_spec 1 (S d)); [|lia]. cbn [bind]. replace (S d - 1)%nat with d by lia. cbv zeta.
      assert (E2 : mapM (simplex_points R half un) els = Ok (map (fun ps => map (spoint R half n ps) un) els)).
      { apply mapM_ok. clear E Hc. induction Hn as [|ps els (H1 & H2) Hn IH]; cbn [map]; constructor; auto. now apply (simplex_points_ok R half n d). }
      rewrite E2. cbn [bind]. reflexivity. }
    cbn [eg_vi eg_fvi eg_nodes]. split; [reflexivity|]. split; [reflexivity|].
    clear Hc Ho rows. induction Hn as [|ps els (H1 & H2) Hn IH]; cbn [map]; constructor; auto.
    exists (spoint R half n ps). split; [reflexivity|]. split.
    - intros k p Hk. now apply (spoint_vertex R half Hhalf n d).
    - intros t u v Ku Kv. now apply (spoint_between R half n d).
  Qed.

  (** ** C135: nodes of tensor product elements: corners are taken to vertices, and the map is affine in each coordinate *)
  Theorem C135_tensor_product (vs : list point) rows els dim n order un :
    right_solver R solve -> length (tuples dim) = (2 ^ dim)%nat -> Forall (Forall (fun b => b < 2)%nat) (tuples dim) ->
    Forall2 (corner_points vs) rows els -> Forall (fun ps => length ps = (2 ^ dim)%nat /\ Forall (fun p => length p = n) ps) els ->
    Forall (fun u => length u = dim) un ->
    forall g, make_group vs rows (2 ^ dim) order CTensor (Some un) = Ok g -> eg_vi g = Some rows /\ eg_fvi g = fvi CTensor dim /\
      Forall2 (fun ps x => exists f, x = map f un /\
        (forall k t p, nth_error (tuples dim) k = Some t -> nth_error ps k = Some p -> f (unit_corner R t) = p) /\
        (forall i t a b u, f (with_coord R i ((1 - t) * a + t * b) u) = between R t (f (with_coord R i a u)) (f (with_coord R i b u)))) els (eg_nodes g).
  Proof.
    intros Hs Ht Hb Hc Hn Hu g H. unfold make_group_from_vertices in H.
    assert (E : mapM (take vs) rows = Ok els). { apply mapM_ok. eapply Forall2_impl; [|exact Hc]. intros row ps K. unfold take. apply mapM_ok. eapply Forall2_impl; [|exact K]. intros i p Hp. unfold get. now rewrite Hp. }
    rewrite E in H. cbn [bind] in H. rewrite Nat.log2_pow2 in H by lia. cbv zeta in H. apply bind_ok in H as (o0 & _ & H). clear o0. apply bind_ok in H as (nodes & Hx & H). injection H as <-. cbn [eg_vi eg_fvi eg_nodes]. split; [reflexivity|]. split; [reflexivity|].
    apply mapM_ok in Hx. clear Hc E. induction Hx as [|ps x els nodes Hx Hxs IH]; [constructor|]. inversion Hn as [|? ? (L1 & L2) L3]; subst. constructor; auto.
    destruct (solve (map (fun t => map (fun f => monomial R f (map (rnat R) t)) (tuples dim)) (tuples dim)) ps) as [coeffs|e] eqn:Es.
    - destruct (tensor_points_ok R half solve tuples un ps n dim Hs L1 L2 Ht Hu coeffs Es) as (P1 & (P2 & P2') & P3). assert (x = map (tpoint R half (tuples dim) n coeffs) un) by congruence. subst x.
      exists (tpoint R half (tuples dim) n coeffs). split; [reflexivity|]. split.
      + intros k t p Hk Hp. apply (tpoint_corner R half Hhalf (tuples dim) n coeffs ps k); auto. rewrite Forall_forall in Hb. apply Hb. eapply nth_error_In; eauto.
      + intros. apply tpoint_multi; auto. congruence.
    - exfalso. unfold tensor_points in Hx. cbv zeta in Hx. rewrite L1, Nat.log2_pow2 in Hx by lia. apply bind_ok in Hx as (? & _ & Hx). apply bind_ok in Hx as (? & _ & Hx). rewrite Es in Hx. discriminate.
  Qed.

  (** A singular system (as with repeated node tuples) and a number of vertices that is no power of two raise. *)
  Theorem C135_errors (vs : list point) rows nvert order un : (2 ^ Nat.log2 nvert <> nvert)%nat -> Forall (fun row => Forall (fun i => i < length vs)%nat row) rows ->
    make_group vs rows nvert order CTensor un = Err ValueError.
  Proof.
    intros Hp Hr. unfold make_group_from_vertices. destruct (mapM_total (take vs) rows) as (els & E).
    { intros row Hin. rewrite Forall_forall in Hr. apply take_total. auto. }
    rewrite E. cbn [bind]. apply Nat.eqb_neq in Hp. cbv zeta. rewrite Hp, andb_false_r. reflexivity.
  Qed.
End Groups.
Print Assumptions C134_simplices.
Print Assumptions C135_tensor_product.
Print Assumptions C135_errors.

Section Spheres.
  Variable R : ocring.
  Context {A : Type}.
  Add Ring Rsp : (rth R).
  Local Open Scope cring_scope.
  Notation point := (list R).
  Variables (sqrt inv : R -> R) (half : R).
  Hypothesis Hpos : strict_products R.
  Hypothesis Hsqrt : right_sqrt R sqrt.
  Hypothesis Hinv : right_inv R inv.
  Hypothesis Hhalf : half + half = 1.
  Variables (solve : list point -> list point -> res (list point)) (tuples : nat -> list (list nat)).
  Variables (default_nodes : gcls -> nat -> nat -> list point) (fvi : gcls -> nat -> list (list nat)).

  (** ** C136: the icosahedron *)
  Theorem C136_icosahedron (phi r : R) order un : golden R phi -> r <> 0 -> (1 <= order)%nat -> Forall (fun u => length u = 2%nat) un ->
    exists m vs tris g s, generate_icosahedron R (A := A) sqrt inv half solve tuples default_nodes fvi phi r order (Some un) = Ok m /\
      m_vertices m = Some vs /\ m_groups m = [g] /\ eg_vi g = Some tris /\ m_conforming m = Some true /\
      length vs = 12%nat /\ length tris = 20%nat /\ Forall (on_sphere R r) vs /\ closed_surface tris /\
      (phi + (1 + 1)) * (s * s) = r * r /\ (0 <? r = true -> 0 <? s = true) /\
      Forall (fun t => exists p q w, corner_points vs t [p; q; w] /\
        dist2 R p q = s * s * (1 + 1 + 1 + 1) /\ dist2 R q w = s * s * (1 + 1 + 1 + 1) /\ dist2 R w p = s * s * (1 + 1 + 1 + 1) /\
        det3 R p q w = s * (s * s) * (1 + 1 + phi + phi)) tris.
  Proof.
    intros Hg Hr Ho Hu. destruct (icosahedron_ok R (A := A) sqrt inv half Hpos Hsqrt Hinv solve tuples default_nodes fvi phi r Hg Hr order un Ho Hu) as (els & H1 & H2 & _).
    do 3 eexists. eexists _, (ico_scale R phi r sqrt inv). split; [exact H2|]. cbn [m_vertices m_groups m_conforming eg_vi].
    split; [reflexivity|]. split; [reflexivity|]. cbn [eg_vi]. split; [reflexivity|]. split; [reflexivity|]. split; [reflexivity|]. split; [reflexivity|].
    split; [exact (ico_norms R phi r sqrt inv Hg Hsqrt Hinv)|]. split; [exact ico_closed|]. split; [exact (ico_scale_square R phi r sqrt inv Hg Hsqrt Hinv)|]. split.
    - intros Hr0. unfold ico_scale. apply Hpos; auto.
      assert (HN : 0 <? phi + (1 + 1) = true).
      { assert (Hp := phi_pos R phi Hg). assert (H1' := one_pos R phi Hg). replace (0 : R) with (0 + (0 + 0) : R) by ring. repeat apply olt_add; auto. }
      destruct (inv_sqrt R sqrt inv Hsqrt Hinv (phi + (1 + 1))) as (K & K2); [now apply olt_nle|now apply lt_ne|]. apply (inv_pos R Hpos inv Hinv); [exact (one_pos R phi Hg)|]. destruct (Hsqrt (phi + (1 + 1)) (olt_nle R _ _ HN)) as (_ & K3). rewrite olt_iff. apply not_true_is_false. intros K4. apply K2. now apply (ole_antisym R).
    - eapply Forall_impl; [|exact (ico_triangles R phi r sqrt inv Hg)]. intros t (p & q & w & K1 & K2 & K3 & K4 & K5 & _). exists p, q, w. auto 10.
  Qed.

  Variables (tess : egroup (list point) -> tess) (midpoints : egroup (list point) -> nat -> list point) (child_nodes : egroup (list point) -> nat -> list (list point)).
  Hypothesis Htess : tessellation_ok tess midpoints child_nodes.
  Hypothesis Haff : affine_refinement R midpoints child_nodes.

  (** ** C137: all vertices and nodes of a generated sphere have the distance r from the origin *)
  Theorem C137_sphere_simplices (phi r : R) corners faces order rounds un : golden R phi -> r <> 0 -> (1 <= order)%nat -> un <> [] -> Forall (fun u => length u = 2%nat) un ->
    (forall g, eg_fvi g = fvi CSimplex 2 -> length (ts_orig (tess g)) = 3%nat /\ length (ts_children (tess g)) = 4%nat) ->
    exists m vs g, generate_sphere R (A := A) sqrt inv half solve tuples default_nodes fvi tess midpoints child_nodes phi corners faces r order rounds (Some un) CSimplex = Ok m /\
      m_vertices m = Some vs /\ m_groups m = [g] /\ m_conforming m = Some true /\
      Forall (on_sphere R r) vs /\ Forall (Forall (on_sphere R r)) (eg_nodes g) /\ nelements g = (20 * 4 ^ rounds)%nat.
  Proof.
    intros Hg Hr Ho Hne Hu Hc3. destruct (icosahedron_ok R (A := A) sqrt inv half Hpos Hsqrt Hinv solve tuples default_nodes fvi phi r Hg Hr order un Ho Hu) as (els & H1 & H2 & H3 & H4).
    set (g0 := mk_egroup (Some ico_tri_list) (map (fun ps => map (spoint R half 3 ps) un) els) (fvi CSimplex 2)) in *. destruct (Hc3 g0 eq_refl) as (Hc3' & Hc4).
    unfold generate_sphere. rewrite H2. cbn [bind].
    destruct (sphere_from_ok R (A := A) sqrt inv Hpos Hsqrt Hinv tess midpoints child_nodes Haff r rounds
      (mk_mesh [g0] (Some (ico_list R phi r sqrt inv)) (Some true) Pending Pending 0 0 0) (ico_list R phi r sqrt inv) g0) as (m & vs & g & K1 & K2 & K3 & K4 & K5 & K6 & K7 & _); auto.
    - split; [discriminate|]. cbn [m_vertices m_groups In]. intros vs grp Evs [<-|[]]. injection Evs as <-. exists ico_tri_list. split; [reflexivity|].
      split; [unfold nelements, g0; cbn [eg_nodes]; rewrite map_length, H4; reflexivity|]. apply Forall_forall. intros row Hin. apply (Forall2_In_l _ _ _ _ H1) in Hin as Hps. destruct Hps as (ps & _ & Hcp).
      split; [rewrite Hc3'; destruct ico_closed as (L & _); rewrite Forall_forall in L; auto|]. apply Forall_forall. intros v Hv. apply (Forall2_In_l _ _ _ _ Hcp) in Hv as (p & _ & Hp). apply nth_error_Some. congruence.
    - exact (ico_off R sqrt inv Hpos Hsqrt Hinv phi r Hg Hr).
    - unfold g0. cbn [eg_nodes]. apply Forall_forall. intros x Hx. split; [|rewrite Forall_forall in H3; auto]. apply in_map_iff in Hx as (ps & <- & _). destruct un; [contradiction|]. discriminate.
    - exists m, vs, g. split; auto. split; auto. split; auto. split; auto. split; auto. split; auto. rewrite K7, Hc4. unfold nelements, g0. cbn [eg_nodes]. now rewrite map_length, H4.
  Qed.

  Theorem C137_sphere_cubes (phi r : R) corners faces order rounds un :
    right_solver R solve -> square_tuples (tuples 2) ->
    (forall b, is_mat (R := R) 4 3 b -> exists x, solve (map (fun t => map (fun f => monomial R f (map (rnat R) t)) (tuples 2)) (tuples 2)) b = Ok x) ->
    cube_faces R corners faces -> (0 : R) <? 1 = true -> r <> 0 -> un <> [] -> Forall (fun u => length u = 2%nat) un ->
    (forall g, eg_fvi g = fvi CTensor 2 -> length (ts_orig (tess g)) = 4%nat /\ length (ts_children (tess g)) = 4%nat) ->
    exists m vs g, generate_sphere R (A := A) sqrt inv half solve tuples default_nodes fvi tess midpoints child_nodes phi corners faces r order rounds (Some un) CTensor = Ok m /\
      m_vertices m = Some vs /\ m_groups m = [g] /\ m_conforming m = Some true /\
      Forall (on_sphere R r) vs /\ Forall (Forall (on_sphere R r)) (eg_nodes g) /\ nelements g = (length faces * 4 ^ rounds)%nat.
  Proof.
    intros Hs Ht Hreg Hcube H1 Hr Hne Hu Hc4.
    destruct (cube_ok R (A := A) sqrt inv half Hpos Hsqrt Hinv Hhalf solve tuples default_nodes fvi Hs Ht Hreg r Hr H1 corners faces Hcube order un Hu) as (nodes & H2 & H3 & H4).
    assert (H5 : Forall (fun x => length x = length un) nodes).
    { unfold generate_cube_surface in H2. cbv zeta in H2. apply bind_ok in H2 as (grp & H2 & H5). rewrite make_mesh_pending in H5. injection H5 as ->.
      unfold make_group_from_vertices in H2. apply bind_ok in H2 as (els & _ & H2). cbv zeta in H2. apply bind_ok in H2 as (? & _ & H2). apply bind_ok in H2 as (nodes' & H2 & H6). injection H6 as <-.
      apply mapM_ok in H2. apply Forall_forall. intros x1 Hx. apply (Forall2_In_r _ _ _ _ H2) in Hx as (ps & _ & Hp). unfold tensor_points in Hp. cbv zeta in Hp.
      apply bind_ok in Hp as (? & _ & Hp). apply bind_ok in Hp as (? & _ & Hp). apply bind_ok in Hp as (? & _ & Hp). now apply mapM_length in Hp. }
    set (g0 := mk_egroup (Some faces) nodes (fvi CTensor 2)) in *. destruct (Hc4 g0 eq_refl) as (Hc4' & Hc5).
    unfold generate_sphere. rewrite H2. cbn [bind].
    destruct (sphere_from_ok R (A := A) sqrt inv Hpos Hsqrt Hinv tess midpoints child_nodes Haff r rounds
      (mk_mesh [g0] (Some (map (scaled_to R sqrt inv r) corners)) (Some true) Pending Pending 0 0 0) (map (scaled_to R sqrt inv r) corners) g0) as (m & vs & g & K1 & K2 & K3 & K4 & K5 & K6 & K7 & _); auto.
    - split; [discriminate|]. cbn [m_vertices m_groups In]. intros vs grp Evs [<-|[]]. injection Evs as <-. exists faces. split; [reflexivity|].
      split; [unfold nelements, g0; cbn [eg_nodes]; now rewrite H4|]. destruct Hcube as (_ & Hf). eapply Forall_impl; [|exact Hf]. intros row (L1 & a & c & _ & L2).
      split; [congruence|]. eapply Forall_impl; [|exact L2]. intros i (p & Hp & _). rewrite map_length. apply nth_error_Some. congruence.
    - exact (cube_off R sqrt inv Hpos Hsqrt Hinv r Hr H1 corners faces Hcube).
    - unfold g0. cbn [eg_nodes]. apply Forall_forall. intros x Hx. rewrite Forall_forall in H3, H5. split; auto. intros ->. specialize (H5 [] Hx). destruct un; [contradiction|discriminate].
    - exists m, vs, g. split; auto. split; auto. split; auto. split; auto. split; auto. split; auto. rewrite K7, Hc5. unfold nelements, g0. cbn [eg_nodes]. now rewrite H4.
  Qed.

  Theorem C137_other_classes phi r corners faces order rounds un :
    generate_sphere R (A := A) sqrt inv half solve tuples default_nodes fvi tess midpoints child_nodes phi corners faces r order rounds un COther = Err TypeError.
  Proof using. reflexivity. Qed.
End Spheres.
Print Assumptions C136_icosahedron.
Print Assumptions C137_sphere_simplices.
Print Assumptions C137_sphere_cubes.
Print Assumptions C137_other_classes.

Section Curves.
  Variable R : ocring.
  Add Ring Rcu : (rth R).
  Local Open Scope cring_scope.

  (** ** C138: n_gon is meant to return a point for every parameter; it raises for every number of corners *)
  Theorem C138_n_gon_refuted corner n (t : list R) : (1 <= n)%nat -> n_gon R corner n t = Err ValueError.
  Proof. apply n_gon_raises. Qed.

  Variables (sin cos : R -> R).
  Hypothesis Htrig : trig R sin cos.

  (** ** C139: a wobbly circle stays away from the origin, and a starfish has the symmetry of its arms *)
  Theorem C139_wobbly_circle coeffs phase t : let p := wobbly R sin cos coeffs phase t in
    exists w, fst p * fst p + snd p * snd p = w * w /\ (1 - rsum (map (rabs R) coeffs) <=? w) = true.
  Proof. cbv zeta. exists (wave R sin coeffs phase t). split; [now apply wobbly_norm|now apply wave_bound with (cos := cos)]. Qed.

  Theorem C139_random q inv coeffs phase t : (0 <=? q) = true -> right_inv R inv -> strict_products R -> (0 : R) <? 1 = true -> rsum (map (rabs R) coeffs) <> 0 ->
    let p := wobbly R sin cos (random_coeffs R q inv coeffs) phase t in
    exists w, fst p * fst p + snd p * snd p = w * w /\ (1 - q <=? w) = true.
  Proof.
    intros Hq Hi Hp H1 Hs. cbv zeta. destruct (C139_wobbly_circle (random_coeffs R q inv coeffs) phase t) as (w & K1 & K2). exists w. split; auto.
    rewrite (random_sum R q inv coeffs) in K2 by auto. exact K2.
  Qed.

  Theorem C139_starfish n (amp : R) : exists cs, starfish_coeffs R (S n) amp = Ok cs /\ length cs = S n /\
    (forall phase t, wobbly R sin cos cs phase t = (cos t * (1 + amp * sin (rnat R (S n) * t + phase)), sin t * (1 + amp * sin (rnat R (S n) * t + phase)))) /\
    forall phase t alpha, (forall x, sin (x + rnat R (S n) * alpha) = sin x) ->
      wobbly R sin cos cs phase (t + alpha) = rotated R sin cos alpha (wobbly R sin cos cs phase t).
  Proof.
    destruct (starfish_wave R sin n amp) as (cs & H1 & H2 & H3). exists cs. split; auto. split; auto. split.
    - intros. unfold wobbly. cbv zeta. now rewrite H3.
    - intros. now apply (starfish_symmetric R sin cos Htrig n amp).
  Qed.
  Theorem C139_no_arms (amp : R) : starfish_coeffs R 0 amp = Err IndexError.
  Proof. reflexivity. Qed.
End Curves.
Print Assumptions C138_n_gon_refuted.
Print Assumptions C139_wobbly_circle.
Print Assumptions C139_random.
Print Assumptions C139_starfish.
Print Assumptions C139_no_arms.

Section Slices.
  Variable R : ocring.
  Local Open Scope cring_scope.
  Variables (half : R) (angle : R -> R * R) (c s : R).
  Hypothesis Hunit : forall a, fst (angle a) * fst (angle a) + snd (angle a) * snd (angle a) = 1.
  (** the angle at 1 is the angle at 0 plus a right angle *)
  Hypothesis Hquarter : fst (angle 1) = c * fst (angle 0) - s * snd (angle 0) /\ snd (angle 1) = s * fst (angle 0) + c * snd (angle 0).

  (** ** C140: the slice of an annular cylinder is periodic under the map used to glue it, and lies between the radii *)
  Theorem C140_annular_slice center inner outer x0 x2 : length center = 3%nat ->
    (exists p q, annular_transform R half angle center inner outer [x0; 0; x2] = Ok p /\ annular_transform R half angle center inner outer [x0; 1; x2] = Ok q /\
       amap_call R (annular_map R c s center) p = Ok q) /\
    (forall x1, (0 <=? inner) = true -> (inner <=? outer) = true -> (0 <=? x0) = true -> (x0 <=? 1) = true ->
       exists p, annular_transform R half angle center inner outer [x0; x1; x2] = Ok p /\
         (inner * inner <=? axis_dist2 R center p) = true /\ (axis_dist2 R center p <=? outer * outer) = true).
  Proof.
    intros Hl. split; [now apply annular_periodic|]. intros x1 H1 H2 H3 H4. destruct center as [|c0 [|c1 [|c2 [|]]]]; try discriminate. eexists. split; [reflexivity|].
    eapply (annular_radius R half angle Hunit); eauto. reflexivity.
  Qed.
End Slices.
Print Assumptions C140_annular_slice.

Section Warp.
  Variable R : ocring.
  Context {A : Type}.
  Add Ring Rwa : (rth R).
  Local Open Scope cring_scope.
  Variables (sqrt inv : R -> R).
  Hypothesis Hpos : strict_products R.
  Hypothesis Hone : (0 : R) <? 1 = true.
  Hypothesis Hsqrt : right_sqrt R sqrt.
  Hypothesis Hinv : right_inv R inv.
  Notation E := (enodes R).
  Variables (vdm_inv est : egroup E -> list (list R)).
  Variables (tess : egroup E -> tess) (midpoints : egroup E -> nat -> list (list R)) (child_nodes : egroup E -> nat -> list E).
  Variables (warp : mesh E A (list R) -> res (mesh E A (list R))) (finite : list R -> bool) (finite_nodes : E -> bool) (tol : R).

  (** ** C141: when the refinement of a warped mesh stops, the warped elements are resolved *)
  Theorem C141_warped_mesh_resolved fuel r r' :
    warp_loop R sqrt inv vdm_inv est tess midpoints child_nodes warp finite finite_nodes tol fuel r = Ok r' ->
    exists w vs, warp (rf_current r') = Ok w /\ m_vertices w = Some vs /\ Forall (fun v => finite v = true) vs /\
      Forall (fun g => Forall (fun x => finite_nodes x = true) (eg_nodes g)) (m_groups w) /\
      Forall (fun g => Forall (fun x => Forall (fun axis => coeff_norm R sqrt (vdm_inv g) axis <> 0) x ->
        resolved R (coeff_norm R sqrt (est g)) (coeff_norm R sqrt (vdm_inv g)) tol x) (eg_nodes g)) (m_groups w).
  Proof.
    intros H. apply loop_resolved in H as (flags & H1 & H2). eapply flags_resolved in H1 as (w & K1 & (vs & K2 & K3) & K4 & K5); eauto. exists w, vs. auto 10.
  Qed.

  (** An element on which one coordinate is zero throughout counts as resolved, whatever the others are. *)
  Theorem C141_zero_axis vdm e (x : E) n t : In (zeros n) x -> exists q, rel_error R sqrt inv vdm e x = Ok q /\ exceeds R q t = false.
  Proof. now apply zero_axis. Qed.
End Warp.
Print Assumptions C141_warped_mesh_resolved.
Print Assumptions C141_zero_axis.

Section Flat.
  Variable R : ocring.
  Add Ring Rf3 : (rth R).
(** In every ordered field with square roots the loop stops with an element that is not resolved: tolerance 0, error 1 *)
Theorem C141_flat_refuted (sqrt inv : R -> R) tess midpoints child_nodes : strict_products R -> olt (R := R) r0 r1 = true -> right_sqrt R sqrt -> right_inv R inv ->
  exists (m : mesh (enodes R) unit (list R)) g x,
    warp_loop R sqrt inv (fun _ => [[r1]]) (fun _ => [[r1]]) tess midpoints child_nodes (fun m => Ok m) (fun _ => true) (fun _ => true) r0 1 (new_refiner m) = Ok (new_refiner m) /\
    m_groups m = [g] /\ eg_nodes g = [x] /\ ~ resolved R (coeff_norm R sqrt [[r1]]) (coeff_norm R sqrt [[r1]]) r0 x.
Proof.
  intros Hpos Hone Hsqrt Hinv. set (x := [[r1]; [r0]] : enodes R). set (g := mk_egroup (Some [[0]]) [x] [] : egroup (enodes R)). exists (mk_mesh [g] (Some [[r1; r0]]) (Some true) Pending Pending 0 0 0), g, x.
  split; [|split; [reflexivity|split; [reflexivity|]]].
  - cbn [warp_loop new_refiner rf_current]. unfold refine_flags. cbn [m_vertices m_groups bind forallb guard andb g eg_nodes mapM].
    destruct (zero_axis R sqrt inv Hpos Hsqrt [[r1]] [[r1]] x 1 r0) as (q & Hq & He); [right; left; reflexivity|]. rewrite Hq. cbn [bind]. rewrite He. reflexivity.
  - intros H. inversion H as [|? ? H1 _]; subst. clear H. unfold coeff_norm in H1. cbv zeta in H1. cbn [matvec map dot map2 rsum] in H1.
    replace (radd (rmul r1 r1) r0) with (r1 : R) in H1 by ring. replace (radd (rmul r1 r1) r0) with (r1 : R) in H1 by ring. replace (rmul r0 (sqrt r1)) with (r0 : R) in H1 by ring.
    destruct (Hsqrt r1 (olt_nle R _ _ Hone)) as (K1 & K2). assert (E0 : sqrt r1 = r0) by (now apply (ole_antisym R)). rewrite E0 in K1. apply (lt_ne R r1 Hone). rewrite <- K1. ring.
Qed.
End Flat.
Print Assumptions C141_flat_refuted.

Section Io.
  Variable R : ocring.
  Context {A : Type}.
  Local Open Scope cring_scope.
  Variables (half : R) (default_nodes : nat -> nat -> list (list R)) (fvi : nat -> list (list nat)) (flip : nat -> list (list R)).
  Hypothesis Hhalf : half + half = 1.
  Notation from := (from_vertices_and_simplices R (A := A) half default_nodes fvi flip).

  (** ** C142: fixing the orientation is the same as exchanging the first two vertices of the negatively oriented simplices *)
  Theorem C142_fix_orientation d vertices simplices order : (1 <= order)%nat -> (1 <= d <= 3)%nat -> Forall (fun p => length p = d) vertices ->
    Forall (fun row => length row = S d /\ Forall (fun i => i < length vertices)%nat row) simplices ->
    Forall (fun u => length u = d) (default_nodes d order) -> right_flip R d (default_nodes d order) (flip d) ->
    exists simplices' m,
      from d vertices simplices (S d) order true = Ok m /\ from d vertices simplices' (S d) order false = Ok m /\
      (exists g, m_groups m = [g] /\ eg_vi g = Some simplices') /\
      Forall2 (fun row row' => exists ps, corner_points vertices row ps /\ row' = if simplex_det R d ps <? 0 then swap01 row else row) simplices simplices' /\
      Forall (fun row' => exists ps, corner_points vertices row' ps /\ (0 <=? simplex_det R d ps) = true) simplices'.
  Proof.
    intros Ho Hd Hv Hr Hu HM.
    assert (HE : exists els, Forall2 (corner_points vertices) simplices els).
    { clear - Hr. induction Hr as [|row rows (_ & Hrow) Hr (els & IH)]; [exists []; constructor|].
      assert (G : exists ps, corner_points vertices row ps). { induction Hrow as [|i row Hi Hrow (ps & G)]; [exists []; constructor|]. destruct (nth_error vertices i) as [p|] eqn:E; [|apply nth_error_None in E; lia]. exists (p :: ps). now constructor. }
      destruct G as (ps & G). exists (ps :: els). now constructor. }
    destruct HE as (els & Hc). assert (Hr' : Forall (fun row => length row = S d) simplices) by (eapply Forall_impl; [|exact Hr]; now intros row (? & _)).
    destruct (from_oriented R (A := A) half default_nodes fvi flip Hhalf d vertices simplices els order Ho Hd Hv Hc Hr' Hu HM) as (K1 & K2 & m & K3 & K4).
    eexists _, m. split; [exact K3|]. split; [exact K4|]. split; [|split].
    - unfold from_vertices_and_simplices in K4. apply bind_ok in K4 as (g & Kg & K4). apply bind_ok in K4 as (nodes & _ & K4). cbv zeta in K4. cbn [bind] in K4. rewrite make_mesh_pending in K4. injection K4 as <-. cbn [m_groups]. eexists. split; [reflexivity|]. cbn [eg_vi].
      unfold make_group_from_vertices in Kg. apply bind_ok in Kg as (? & _ & Kg). apply bind_ok in Kg as (? & _ & Kg). apply bind_ok in Kg as (? & _ & Kg). cbv zeta in Kg. apply bind_ok in Kg as (? & _ & Kg). injection Kg as <-. reflexivity.
    - clear - Hc. induction Hc as [|row ps rows els H Hc IH]; cbn [combine map fst snd]; constructor; auto. exists ps. split; auto.
    - apply Forall_forall. intros row' Hin. apply (Forall2_In_l _ _ _ _ K1) in Hin as (ps & Hps & Hcp). exists ps. split; auto. rewrite Forall_forall in K2. auto.
  Qed.

  (** On surfaces and curves orientations cannot be fixed. *)
  Theorem C142_codimension d vertices simplices nvert order : (nvert <> S d)%nat -> (1 <= nvert)%nat -> (1 <= order)%nat ->
    forall m, from d vertices simplices nvert order true <> Ok m.
  Proof.
    intros Hd Hn Ho m H. unfold from_vertices_and_simplices in H. apply bind_ok in H as (g & _ & H). apply bind_ok in H as (nodes & _ & H). cbv zeta in H.
    destruct (Nat.eqb_spec (nvert - 1) d); [lia|]. cbn [guard bind] in H. discriminate.
  Qed.
End Io.
Print Assumptions C142_fix_orientation.
Print Assumptions C142_codimension.

Section Json.
  Context {E A V : Type}.
  Variable ord : list nat -> list nat.
  Notation st := (@mstate E A V).

  (** ** C143: the exported structure reflects the mesh; exporting again gives the same *)
  Theorem C143_to_json (s s' : st) j : to_json ord s = (Ok j, s') ->
    js_vertices j = m_vertices (fst s) /\ js_conforming j = m_conforming (fst s) /\
    Forall2 (fun g x => eg_vi g = Some (fst x) /\ eg_nodes g = snd x) (m_groups (fst s)) (js_groups j) /\
    js_nodal j = match fst (get_nodal ord s) with Ok na => Some na | Err _ => None end /\
    m_groups (fst s') = m_groups (fst s) /\ m_vertices (fst s') = m_vertices (fst s) /\ m_conforming (fst s') = m_conforming (fst s) /\ m_facial (fst s') = m_facial (fst s) /\
    exists s2, to_json ord s' = (Ok j, s2) /\ fst s2 = fst s'.
  Proof.
    intros H. unfold to_json in H. destruct (mapM _ (m_groups (fst s))) as [gs|e] eqn:Eg; [|discriminate].
    assert (F : Forall2 (fun g x => eg_vi g = Some (fst x) /\ eg_nodes g = snd x) (m_groups (fst s)) gs).
    { apply mapM_ok in Eg. eapply Forall2_impl; [|exact Eg]. intros g x Hx. cbv beta in Hx. destruct (eg_vi g); [|discriminate]. injection Hx as <-. auto. }
    destruct s as (m & (cn & cf)). destruct m as [gr vs c n f vd ed fd]. cbn [fst m_groups m_vertices m_conforming m_facial] in *.
    unfold get_nodal in *. cbn [m_nodal m_conforming m_groups m_vertices m_facial m_vdtype m_edtype m_fdtype] in *.
    destruct n as [| |x].
    - injection H as <- <-. cbn [js_vertices js_conforming js_groups js_nodal fst m_groups m_vertices m_conforming m_facial]. split; [reflexivity|]. split; [reflexivity|]. split; [exact F|]. split; [reflexivity|]. do 4 (split; [reflexivity|]).
      unfold to_json. cbn [fst m_groups]. rewrite Eg. unfold get_nodal. cbn [m_nodal]. eexists. split; reflexivity.
    - destruct (negb (truthy c)) eqn:Ec.
      + injection H as <- <-. cbn [js_vertices js_conforming js_groups js_nodal fst m_groups m_vertices m_conforming m_facial]. split; [reflexivity|]. split; [reflexivity|]. split; [exact F|]. split; [reflexivity|]. do 4 (split; [reflexivity|]).
        unfold to_json. cbn [fst m_groups]. rewrite Eg. unfold get_nodal. cbn [m_nodal m_conforming]. rewrite Ec. eexists. split; reflexivity.
      + destruct (nodal_from_vertices ord _) as [x|e] eqn:En.
        * injection H as <- <-. cbn [js_vertices js_conforming js_groups js_nodal fst m_groups m_vertices m_conforming m_facial]. split; [reflexivity|]. split; [reflexivity|]. split; [exact F|]. split; [reflexivity|]. do 4 (split; [reflexivity|]).
          unfold to_json. cbn [fst m_groups]. rewrite Eg. unfold get_nodal. cbn [m_nodal]. eexists. split; reflexivity.
        * destruct e; try discriminate. injection H as <- <-. cbn [js_vertices js_conforming js_groups js_nodal fst m_groups m_vertices m_conforming m_facial]. split; [reflexivity|]. split; [reflexivity|]. split; [exact F|]. split; [reflexivity|]. do 4 (split; [reflexivity|]).
          unfold to_json. cbn [fst m_groups]. rewrite Eg. unfold get_nodal. cbn [m_nodal m_conforming]. rewrite Ec, En. eexists. split; reflexivity.
    - injection H as <- <-. cbn [js_vertices js_conforming js_groups js_nodal fst m_groups m_vertices m_conforming m_facial]. split; [reflexivity|]. split; [reflexivity|]. split; [exact F|]. split; [reflexivity|]. do 4 (split; [reflexivity|]).
      unfold to_json. cbn [fst m_groups]. rewrite Eg. unfold get_nodal. cbn [m_nodal]. eexists. split; reflexivity.
  Qed.

  (** It fails just if a group has no vertices, or computing the adjacency fails. *)
  Theorem C143_defined (s : st) : (forall g, In g (m_groups (fst s)) -> eg_vi g <> None) ->
    (forall e, fst (get_nodal ord s) = Err e -> e = DataUnavailableError) -> exists j s', to_json ord s = (Ok j, s').
  Proof.
    intros Hg Hn. unfold to_json. match goal with |- context [mapM ?f ?l] => destruct (mapM_total f l) as (gs & Eg) end.
    { intros g Hin. specialize (Hg g Hin). destruct (eg_vi g); [eauto|contradiction]. }
    rewrite Eg. destruct (get_nodal ord s) as ([na|e] & s'); cbn [fst] in Hn; [eauto|]. rewrite (Hn e eq_refl). eauto.
  Qed.

  (** Meshes with the same structure have the same vertices, elements, nodes and conformity. *)
  Theorem C143_faithful (s1 s2 s1' s2' : st) j : to_json ord s1 = (Ok j, s1') -> to_json ord s2 = (Ok j, s2') ->
    m_vertices (fst s1) = m_vertices (fst s2) /\ m_conforming (fst s1) = m_conforming (fst s2) /\
    map eg_vi (m_groups (fst s1)) = map eg_vi (m_groups (fst s2)) /\ map eg_nodes (m_groups (fst s1)) = map eg_nodes (m_groups (fst s2)).
  Proof.
    intros H1 H2. apply C143_to_json in H1 as (A1 & A2 & A3 & _), H2 as (B1 & B2 & B3 & _).
    assert (G : forall gs : list (egroup E), Forall2 (fun g x => eg_vi g = Some (fst x) /\ eg_nodes g = snd x) gs (js_groups j) ->
              map eg_vi gs = map (fun x => Some (fst x)) (js_groups j) /\ map eg_nodes gs = map snd (js_groups j)).
    { clear. intros gs F. induction F as [|g x gs xs (F1 & F2) F (IH1 & IH2)]; [auto|]. cbn [map]. rewrite F1, F2, IH1, IH2. auto. }
    destruct (G _ A3) as (C1 & C2), (G _ B3) as (D1 & D2). rewrite C1, C2, D1, D2, <- A1, <- A2. auto.
  Qed.
End Json.
Print Assumptions C143_to_json.
Print Assumptions C143_defined.
Print Assumptions C143_faithful.

(** Exporting stores the nodal adjacency, so the mesh does not equal a copy made before. *)
Definition seg_mesh : mesh (list (list Z)) unit (list Z) := mk_mesh [mk_egroup (Some [[0; 1]; [1; 2]]) [[[0]; [1]]; [[1]; [2]]]%Z [[0]; [1]]] (Some [[0]; [1]; [2]]%Z) (Some true) Pending Pending 0 0 0.
Theorem C143_unchanged_refuted : exists (m : mesh (list (list Z)) unit (list Z)) j s', to_json (fun l => l) (m, (0, 0)) = (Ok j, s') /\ ~ mesh_eq m (fst s').
Proof.
  exists seg_mesh. do 2 eexists. split; [vm_compute; reflexivity|]. unfold mesh_eq. cbn [fst]. intros (_ & _ & _ & _ & H & _). discriminate.
Qed.
Print Assumptions C143_unchanged_refuted.
Example C143_example : exists s', to_json (fun l => l) (seg_mesh, (0, 0)) =
  (Ok (mk_json 1 (Some [[0]; [1]; [2]]%Z) [([[0; 1]; [1; 2]], [[[0]; [1]]; [[1]; [2]]]%Z)] (Some ([0; 1; 2], [1; 0])) (Some true)), s').
Proof. eexists. vm_compute. reflexivity. Qed.

(** ** C144: radii of the urchin *)
Theorem C144_unrefined (R : ocring) inv (min_rad : R) coarse points radii lo hi : strict_products R -> right_inv R inv -> olt (R := R) r0 r1 = true ->
  rmin R coarse = Ok lo -> rmax R coarse = Ok hi -> lo <> hi -> incl points coarse -> urchin_radii R inv min_rad coarse points = Ok radii ->
  Forall (fun x => ole min_rad x = true /\ ole x (radd min_rad r1) = true) radii.
Proof. apply urchin_coarse. Qed.
Print Assumptions C144_unrefined.

Local Notation Qc := Qcanon.Qc.
Definition qinv (x : Qcocring) : Qcocring := Qcanon.Qcinv x.
Lemma qinv_right : right_inv Qcocring qinv.
Proof. intros a Ha. exact (Qcanon.Qcmult_inv_r a Ha). Qed.
(** On the nodes of a refined mesh the radius may fall below min_rad: the extrema are those of the coarse nodes. *)
Theorem C144_refined_refuted : exists (min_rad : Qcocring) coarse points radii x, urchin_radii Qcocring qinv min_rad coarse points = Ok radii /\ In x radii /\ olt x min_rad = true /\ olt r0 min_rad = true.
Proof.
  exists (frac 1 4), [frac 1 1; frac 2 1], [frac 0 1]. do 2 eexists. split; [reflexivity|]. split; [left; reflexivity|]. split; vm_compute; reflexivity.
Qed.
Print Assumptions C144_refined_refuted.
(** For the spherical harmonic of degree zero all values are equal and the quotient is undefined. *)
Theorem C144_constant_refuted (R : ocring) (c : R) n : rmin R (repeat c (S n)) = Ok c /\ rmax R (repeat c (S n)) = Ok c.
Proof.
  cbn [repeat rmin rmax]. assert (G : fold_left (fun a b => if ole b a then b else a) (repeat c n) c = c /\ fold_left (fun a b => if ole a b then b else a) (repeat c n) c = c).
  { induction n as [|n (IH1 & IH2)]; [auto|]. cbn [repeat fold_left]. rewrite (ole_refl R c). auto. }
  destruct G as (-> & ->). auto.
Qed.
Print Assumptions C144_constant_refuted.
