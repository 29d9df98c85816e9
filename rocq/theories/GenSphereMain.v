(** * GenSphereMain: spheres from polyhedra. *)
From Coq Require Import List Arith Bool Lia ZArith Ring.
From Verif Require Import Np NpFacts MeshModel MeshStateModel MeshProofs Lin Ord ProcModel AffineModel RefineModel RefineSpec RefineProofs RefineProps FlipProofs FdConnFromProofs GenModel GenSpec GenGroupProofs GenSphereProofs GenRefineProofs.
Import ListNotations.

Section Sphere.
  Variable R : ocring.
  Context {A : Type}.
  Add Ring Rs : (rth R).
  Local Open Scope cring_scope.
  Notation point := (list R).
  Variables (sqrt inv : R -> R).
  Hypothesis Hpos : strict_products R.
  Hypothesis Hsqrt : right_sqrt R sqrt.
  Hypothesis Hinv : right_inv R inv.

  (** all nodes lie in one plane that does not contain the origin *)
  Definition in_plane (x : list point) : Prop := Forall (fun p => length p = 3%nat) x /\ exists n D, D <> 0 /\ Forall (fun p => dot n p = D) x.
  Definition off_origin (p : point) : Prop := length p = 3%nat /\ dot p p <> 0.

  Lemma plane_off n (p : point) : length p = 3%nat -> dot n p <> 0 -> off_origin p.
  Proof. intros Hl Hn. split; auto. intros E. apply Hn. now apply (dot_zero R Hpos). Qed.

  Lemma dot_const w (D : R) : dot w (map (fun _ => D) w) = D * rsum w.
  Proof. induction w as [|a w IH]; [unfold dot; cbn [map map2 rsum]; ring|]. cbn [map rsum]. rewrite dot_cons, IH. ring. Qed.

  Lemma affine_plane x p n D : Forall (fun p => length p = 3%nat) x -> Forall (fun p => dot n p = D) x -> affine_of R x p -> length p = 3%nat /\ dot n p = D.
  Proof.
    intros Hl Hd (w & Hw & Hs & ->). unfold weighted. split; [now apply vecmat_length|]. rewrite dot_comm, dot_vecmat by auto.
    transitivity (dot w (map (fun _ => D) w)).
    - f_equal. unfold matvec. clear Hl Hs. revert w Hw; induction Hd as [|q x Hq Hd IH]; intros [|a w] Hw; cbn [length] in Hw; try lia; [reflexivity|]. cbn [map]. f_equal; [rewrite dot_comm; exact Hq|]. apply IH. lia.
    - rewrite dot_const, Hs. ring.
  Qed.

  Variable tess : egroup (list point) -> tess.
  Variable midpoints : egroup (list point) -> nat -> list point.
  Variable child_nodes : egroup (list point) -> nat -> list (list point).
  Hypothesis Haff : affine_refinement R midpoints child_nodes.

  Definition real_plane (x : list point) : Prop := x <> [] /\ in_plane x.
  Lemma plane_kept grp iel : Forall real_plane (eg_nodes grp) -> (iel < nelements grp)%nat -> Forall off_origin (midpoints grp iel) /\ Forall real_plane (child_nodes grp iel).
  Proof.
    intros Hp Hi. destruct (nth_error (eg_nodes grp) iel) as [x|] eqn:Ex; [|apply nth_error_None in Ex; unfold nelements in Hi; lia].
    rewrite Forall_forall in Hp. destruct (Hp x (nth_error_In _ _ Ex)) as (Hne & Hl & n & D & HD & Hd). destruct (Haff grp iel x Ex Hne) as (Hm & Hc). split.
    - eapply Forall_impl; [|exact Hm]. intros p K. destruct (affine_plane x p n D Hl Hd K) as (K1 & K2). apply (plane_off n); congruence.
    - eapply Forall_impl; [|exact Hc]. intros y (K0 & K). split; auto. split; [|exists n, D; split; auto]; (eapply Forall_impl; [|exact K]; intros p Kp; now apply (affine_plane x p n D)).
  Qed.

  Lemma sphere_from_ok (r : R) rounds (poly : mesh (list point) A point) vs g : tessellation_ok tess midpoints child_nodes -> refinable tess poly ->
    m_vertices poly = Some vs -> m_groups poly = [g] -> m_conforming poly = Some true -> Forall off_origin vs -> Forall real_plane (eg_nodes g) ->
    exists m vs' g', sphere_from R sqrt inv tess midpoints child_nodes r rounds poly = Ok m /\
      m_vertices m = Some vs' /\ m_groups m = [g'] /\ m_conforming m = Some true /\
      Forall (on_sphere R r) vs' /\ Forall (Forall (on_sphere R r)) (eg_nodes g') /\
      nelements g' = (nelements g * length (ts_children (tess g)) ^ rounds)%nat /\ eg_fvi g' = eg_fvi g.
  Proof.
    intros Hts Href Hv Hg Hc Hvs Hns.
    assert (K : exists m0 vs0 g0, (if rounds =? 0 then Ok poly else refine_uniformly tess midpoints child_nodes 0 0 0 poly rounds false) = Ok m0 /\ m_vertices m0 = Some vs0 /\ m_groups m0 = [g0] /\
              Forall off_origin vs0 /\ Forall real_plane (eg_nodes g0) /\ nelements g0 = (nelements g * length (ts_children (tess g)) ^ rounds)%nat /\ eg_fvi g0 = eg_fvi g).
    { destruct (Nat.eqb_spec rounds 0) as [->|Hr0].
      - exists poly, vs, g. cbn [Nat.pow]. rewrite Nat.mul_1_r. auto 10.
      - destruct (C67_uniform tess midpoints child_nodes 0 0 0 poly rounds false Hts Href) as (m0 & Hm0 & Hl & Hn & Hcf); [discriminate|].
        destruct (refine_uniformly_keeps tess midpoints child_nodes real_plane off_origin plane_kept 0 0 0 poly rounds false m0) as ((G1 & G2) & G3); auto.
        { split; [rewrite Hg; repeat constructor; auto|]. intros vs1 E. assert (vs1 = vs) by congruence. now subst. }
        rewrite Hg in G3. destruct (Hn 0%nat g) as (g0 & Hg0 & Hn0); [now rewrite Hg|].
        destruct (m_groups m0) as [|g1 [|g2 gs]] eqn:Eg; try discriminate. cbn [nth_error] in Hg0. injection Hg0 as ->. cbn [map] in G3. injection G3 as G3.
        assert (Hv0 : exists vs0, m_vertices m0 = Some vs0).
        { unfold refine_uniformly in Hm0. cbn [negb orb guard bind] in Hm0. apply bind_ok in Hm0 as (r' & Hf & E). injection E as <-.
          eapply (foldM_keep _ (fun r => exists vs0, m_vertices (rf_current r) = Some vs0)); [| |exact Hf]; [|exists vs; exact Hv].
          intros s ? s' _ (w & Hw) Hx. unfold refine_all, refine in Hx. cbv zeta in Hx. apply bind_ok in Hx as (? & _ & Hx). apply bind_ok in Hx as (? & _ & Hx).
          apply bind_ok in Hx as ((dag & recs) & _ & Hx). apply bind_ok in Hx as (m' & Hm & Hx). injection Hx as <-. apply make_mesh_parts in Hm as (_ & Hm). cbn [rf_current]. rewrite Hm, Hw. cbn [option_map]. eauto. }
        destruct Hv0 as (vs0 & Hv0). exists m0, vs0, g0. split; auto. split; auto. split; auto. split; [auto|]. split; [now inversion G1|]. auto. }
    destruct K as (m0 & vs0 & g0 & K1 & K2 & K3 & K4 & K5 & K6 & K7). unfold sphere_from. rewrite K1. cbn [bind]. rewrite K2. cbn [bind]. rewrite K3. rewrite make_mesh_pending.
    eexists _, _, _. split; [reflexivity|]. cbn [m_vertices m_groups m_conforming eg_nodes eg_fvi]. split; [reflexivity|]. split; [reflexivity|]. split; [reflexivity|].
    assert (Hp : forall p, off_origin p -> on_sphere R r (scaled_to R sqrt inv r p)) by (intros p (H1 & H2); now apply scaled_on_sphere).
    split; [|split; [|split; [unfold nelements in *; cbn [eg_nodes]; rewrite map_length; exact K6|exact K7]]].
    - apply Forall_forall. intros q Hq. apply in_map_iff in Hq as (p & <- & Hin). apply Hp. rewrite Forall_forall in K4. auto.
    - apply Forall_forall. intros y Hy. apply in_map_iff in Hy as (x & <- & Hin). rewrite Forall_forall in K5. destruct (K5 x Hin) as (_ & Hl & n & D & HD & Hd).
      apply Forall_forall. intros q Hq. apply in_map_iff in Hq as (p & <- & Hin'). apply Hp. rewrite Forall_forall in Hl, Hd. apply (plane_off n); auto. rewrite (Hd p Hin'). exact HD.
  Qed.
End Sphere.

(** ** Polyhedra *)
Section Poly.
  Variable R : ocring.
  Context {A : Type}.
  Add Ring Rs2 : (rth R).
  Local Open Scope cring_scope.
  Notation point := (list R).
  Variables (sqrt inv : R -> R) (half : R).
  Hypothesis Hpos : strict_products R.
  Hypothesis Hsqrt : right_sqrt R sqrt.
  Hypothesis Hinv : right_inv R inv.
  Hypothesis Hhalf : half + half = 1.
  Variables (solve : list point -> list point -> res (list point)) (tuples : nat -> list (list nat)).
  Variables (default_nodes : gcls -> nat -> nat -> list point) (fvi : gcls -> nat -> list (list nat)).

  Lemma take_corners (vs : list point) row ps : corner_points vs row ps -> take vs row = Ok ps.
  Proof.
    intros H. unfold take. apply mapM_ok. eapply Forall2_impl; [|exact H]. intros i p Hp. unfold get. now rewrite Hp.
  Qed.

  Lemma weights_sum (u : list R) : rsum (weights R half u) = 1.
  Proof. unfold weights. cbn [rsum]. ring. Qed.

  (** nodes of a group of simplices *)
  Lemma make_group_simplices (vs : list point) rows els d n order un :
    (1 <= order)%nat -> Forall2 (corner_points vs) rows els -> Forall (fun ps => length ps = S d /\ Forall (fun p => length p = n) ps) els ->
    Forall (fun u => length u = d) un ->
    make_group_from_vertices R half solve tuples default_nodes fvi vs rows (S d) order CSimplex (Some un) =
      Ok (mk_egroup (Some rows) (map (fun ps => map (spoint R half n ps) un) els) (fvi CSimplex d)).
  Proof.
    intros Ho Hc Hn Hu. unfold make_group_from_vertices.
    assert (E : mapM (take vs) rows = Ok els) by (apply mapM_ok; eapply Forall2_impl; [|exact Hc]; intros row ps; apply take_corners).
    rewrite E. cbn [bind]. unfold guard. destruct (Nat.leb_spec 1 order); [|lia]. destruct (Nat.leb_spec 1 (S d)); [|lia]. cbn [bind]. replace (S d - 1)%nat with d by lia. cbv zeta.
    assert (E2 : mapM (simplex_points R half un) els = Ok (map (fun ps => map (spoint R half n ps) un) els)).
    { apply mapM_ok. clear E Hc. induction Hn as [|ps els (H1 & H2) Hn IH]; cbn [map]; constructor; auto. now apply (simplex_points_ok R half n d). }
    rewrite E2. reflexivity.
  Qed.

  Lemma spoint_affine n ps u : length ps = S (length u) -> n = 3%nat -> affine_of R ps (spoint R half n ps u).
  Proof. intros Hl ->. exists (weights R half u). rewrite weights_length, weights_sum. auto. Qed.

  Variables (phi r : R).
  Hypothesis Hgold : golden R phi.
  Hypothesis Hr : r <> 0.

  Lemma ico_els : exists els, Forall2 (corner_points (ico_list R phi r sqrt inv)) ico_tri_list els /\
    Forall (fun ps => length ps = 3%nat /\ Forall (fun p => length p = 3%nat) ps) els /\ Forall (in_plane R) els /\ length els = 20%nat.
  Proof.
    pose proof (ico_triangles R phi r sqrt inv Hgold) as H.
    assert (Hl : Forall (fun p => length p = 3%nat) (ico_list R phi r sqrt inv)).
    { eapply Forall_impl; [|exact (ico_norms R phi r sqrt inv Hgold Hsqrt Hinv)]. now intros p (Hp & _). }
    assert (HD : ico_scale R phi r sqrt inv * ico_scale R phi r sqrt inv * (1 + 1 + phi + phi + phi) <> 0).
    { pose proof (ico_scale_square R phi r sqrt inv Hgold Hsqrt Hinv) as Hs. assert (Hp := phi_pos R phi Hgold). assert (H1 := one_pos R phi Hgold).
      apply lt_ne. apply Hpos.
      - apply square_pos; auto. intros E. rewrite E in Hs. apply (lt_ne R _ (square_pos R Hpos r Hr)). rewrite <- Hs. ring.
      - replace (0 : R) with (0 + 0 + 0 + 0 + 0 : R) by ring. repeat apply olt_add; auto. }
    assert (G : forall ts, Forall (fun t => exists p q w, corner_points (ico_list R phi r sqrt inv) t [p; q; w] /\
      Forall (fun x => dot (vadd p (vadd q w)) x = ico_scale R phi r sqrt inv * ico_scale R phi r sqrt inv * (1 + 1 + phi + phi + phi)) [p; q; w]) ts ->
      exists els, Forall2 (corner_points (ico_list R phi r sqrt inv)) ts els /\
        Forall (fun ps => length ps = 3%nat /\ Forall (fun p => length p = 3%nat) ps) els /\ Forall (in_plane R) els).
    { induction 1 as [|t ts (p & q & w & Hc & Hd) Hts (els & K1 & K2 & K3)]; [exists []; auto|].
      assert (Hlen : Forall (fun p => length p = 3%nat) [p; q; w]).
      { apply Forall_forall. intros x Hx. apply (Forall2_In_r _ _ _ _ Hc) in Hx as (i & _ & Hi). rewrite Forall_forall in Hl. apply Hl. eapply nth_error_In; eauto. }
      exists ([p; q; w] :: els). split; [now constructor|]. split; [constructor; auto|]. constructor; auto. split; auto. eexists _, _. split; [exact HD|exact Hd]. }
    destruct (G ico_tri_list) as (els & K1 & K2 & K3).
    { eapply Forall_impl; [|exact H]. intros t (p & q & w & Hc & _ & _ & _ & _ & Hd). eauto 6. }
    exists els. split; auto. split; auto. split; auto. rewrite <- (Forall2_length' _ _ _ K1). reflexivity.
  Qed.

  Lemma ico_off : Forall (off_origin R) (ico_list R phi r sqrt inv).
  Proof.
    eapply Forall_impl; [|exact (ico_norms R phi r sqrt inv Hgold Hsqrt Hinv)]. intros p (Hl & Hd). split; auto. rewrite Hd. apply lt_ne. now apply square_pos.
  Qed.

  Lemma icosahedron_ok order un : (1 <= order)%nat -> Forall (fun u => length u = 2%nat) un ->
    exists els, Forall2 (corner_points (ico_list R phi r sqrt inv)) ico_tri_list els /\
    generate_icosahedron R (A := A) sqrt inv half solve tuples default_nodes fvi phi r order (Some un) =
      Ok (mk_mesh [mk_egroup (Some ico_tri_list) (map (fun ps => map (spoint R half 3 ps) un) els) (fvi CSimplex 2)] (Some (ico_list R phi r sqrt inv)) (Some true) Pending Pending 0 0 0) /\
    Forall (in_plane R) (map (fun ps => map (spoint R half 3 ps) un) els) /\ length els = 20%nat.
  Proof.
    intros Ho Hu. destruct ico_els as (els & H1 & H2 & H3 & H4). exists els. split; auto. split; [|split; auto].
    - unfold generate_icosahedron. rewrite (ico_vertices_ok R phi r sqrt inv Hgold). cbn [bind]. rewrite ico_tris_ok. cbn [bind].
      rewrite (make_group_simplices _ _ els 2 3 order un) by auto. cbn [bind]. rewrite make_mesh_pending. reflexivity.
    - clear H1 H4. induction H2 as [|ps els (L1 & L2) H2 IH]; cbn [map]; [constructor|]. inversion H3 as [|? ? (Q1 & n & D & Q2 & Q3) Q4]; subst. constructor; auto.
      assert (Q : Forall (fun p => length p = 3%nat /\ dot n p = D) (map (spoint R half 3 ps) un)).
      { apply Forall_forall. intros p Hp. apply in_map_iff in Hp as (u & <- & Hin). rewrite Forall_forall in Hu. apply (affine_plane R ps); auto. apply spoint_affine; auto. rewrite (Hu u Hin). exact L1. }
      split; [eapply Forall_impl; [|exact Q]; intros ? (? & ?); assumption|]. exists n, D. split; auto. eapply Forall_impl; [|exact Q]; intros ? (? & ?); assumption.
  Qed.
End Poly.

(** ** The surface of the cube *)
Section Cube.
  Variable R : ocring.
  Context {A : Type}.
  Add Ring Rs3 : (rth R).
  Local Open Scope cring_scope.
  Notation point := (list R).
  Variables (sqrt inv : R -> R) (half : R).
  Hypothesis Hpos : strict_products R.
  Hypothesis Hsqrt : right_sqrt R sqrt.
  Hypothesis Hinv : right_inv R inv.
  Hypothesis Hhalf : half + half = 1.
  Variables (solve : list point -> list point -> res (list point)) (tuples : nat -> list (list nat)).
  Variables (default_nodes : gcls -> nat -> nat -> list point) (fvi : gcls -> nat -> list (list nat)).
  Hypothesis Hsolve : right_solver R solve.
  Hypothesis Htup : square_tuples (tuples 2).
  Notation vdm := (map (fun t => map (fun f => monomial R f (map (rnat R) t)) (tuples 2)) (tuples 2)).
  Hypothesis Hreg : forall b, is_mat (R := R) 4 3 b -> exists x, solve vdm b = Ok x.

  Lemma dot_between n t (u v : list R) : length u = length v -> dot n (between R t u v) = (1 - t) * dot n u + t * dot n v.
  Proof.
    revert u v; induction n as [|a n IH]; intros [|b u] [|c v] H; cbn [length] in H; try lia; try (unfold dot, between; cbn [map2 rsum]; ring).
    rewrite between_cons, !dot_cons, IH by lia. ring.
  Qed.

  Lemma split_coord (x : R) : x = (1 - (half + half * x)) * - (1) + (half + half * x) * 1.
  Proof. transitivity (half + half - 1 + (half + half) * x); [rewrite Hhalf; ring|ring]. Qed.

  (** nodes of a face lie in the plane of its corners *)
  Lemma face_plane coeffs verts n D : is_mat (R := R) 4 3 coeffs -> matmul 3 vdm coeffs = verts -> Forall (fun p => dot n p = D) verts ->
    forall u, length u = 2%nat -> length (tpoint R half (tuples 2) 3 coeffs u) = 3%nat /\ dot n (tpoint R half (tuples 2) 3 coeffs u) = D.
  Proof.
    intros (Hc1 & Hc2) Hm Hd. destruct Htup as (T1 & T2 & T3).
    assert (HL : forall u, length (tpoint R half (tuples 2) 3 coeffs u) = 3%nat) by (intros u; unfold tpoint; apply vecmat_length; auto; rewrite map_length; congruence).
    intros u Hu. split; [apply HL|]. destruct u as [|x [|y [|]]]; try discriminate. set (f := fun x y : R => dot n (tpoint R half (tuples 2) 3 coeffs [x; y])).
    change (f x y = D).
    assert (C : forall a b, (a < 2)%nat -> (b < 2)%nat -> f (match a with O => - (1) | S _ => 1 end) (match b with O => - (1) | S _ => 1 end) = D).
    { intros a b Ha Hb. destruct (In_nth_error _ _ (T3 a b Ha Hb)) as (k & Hk). unfold f. change [match a with O => - (1) | S _ => 1 end; match b with O => - (1) | S _ => 1 end] with (unit_corner R [a; b]).
      destruct (nth_error verts k) as [v|] eqn:Ev.
      - erewrite tpoint_corner; eauto. rewrite Forall_forall in Hd. apply Hd. eapply nth_error_In; eauto.
      - exfalso. apply nth_error_None in Ev. rewrite <- Hm in Ev. unfold matmul in Ev. rewrite !map_length in Ev. assert (k < length (tuples 2))%nat by (apply nth_error_Some; congruence). lia. }
    assert (F1 : forall t a b y, f ((1 - t) * a + t * b) y = (1 - t) * f a y + t * f b y).
    { intros t a b y0. unfold f. rewrite <- dot_between by (now rewrite !HL). f_equal. exact (tpoint_multi R half (tuples 2) 3 coeffs 0 t a b [a; y0] T2 (eq_trans Hc1 (eq_sym T1)) Hc2). }
    assert (F2 : forall t a b x, f x ((1 - t) * a + t * b) = (1 - t) * f x a + t * f x b).
    { intros t a b x0. unfold f. rewrite <- dot_between by (now rewrite !HL). f_equal. exact (tpoint_multi R half (tuples 2) 3 coeffs 1 t a b [x0; a] T2 (eq_trans Hc1 (eq_sym T1)) Hc2). }
    rewrite (split_coord x), F1, (split_coord y), !F2.
    pose proof (C 0 0 ltac:(lia) ltac:(lia))%nat as C00. pose proof (C 0 1 ltac:(lia) ltac:(lia))%nat as C01. pose proof (C 1 0 ltac:(lia) ltac:(lia))%nat as C10. pose proof (C 1 1 ltac:(lia) ltac:(lia))%nat as C11.
    cbn beta iota in C00, C01, C10, C11. rewrite C00, C01, C10, C11. ring.
  Qed.

  Variable r : R.
  Hypothesis Hr : r <> 0.
  Hypothesis Hone : (0 : R) <? 1 = true.
  Variables (corners : list point) (faces : list (list nat)).
  Hypothesis Hcube : cube_faces R corners faces.

  Lemma corner_norm (p : point) : length p = 3%nat -> Forall (fun x => x = 1 \/ x = - (1)) p -> dot p p = 1 + 1 + 1.
  Proof.
    intros Hl H. destruct p as [|a [|b [|c [|]]]]; try discriminate. inversion H as [|? ? Ha H1]; subst. inversion H1 as [|? ? Hb H2]; subst. inversion H2 as [|? ? Hc _]; subst.
    assert (Q : forall x : R, x = 1 \/ x = - (1) -> x * x = 1) by (intros x [->| ->]; ring). rewrite !dot_cons, !Q by auto. unfold dot. cbn [map2 rsum]. ring.
  Qed.
  Lemma three_pos : (0 : R) <? 1 + 1 + 1 = true.
  Proof. replace (0 : R) with (0 + 0 + 0 : R) by ring. repeat apply olt_add; auto. Qed.

  Lemma dot_unit_coord a (p : point) c : length p = 3%nat -> nth_error p a = Some c -> dot (unitv 3 a) p = c.
  Proof.
    intros Hl Ha. destruct p as [|x [|y [|z [|]]]]; try discriminate. unfold unitv. cbn [seq map]. destruct a as [|[|[|a]]]; cbn [nth_error] in Ha; try (destruct a; discriminate); injection Ha as ->; cbn [Nat.eqb]; rewrite !dot_cons; unfold dot; cbn [map2 rsum]; ring.
  Qed.

  Lemma cube_els un : Forall (fun u => length u = 2%nat) un -> exists els nodes, mapM (take (map (scaled_to R sqrt inv r) corners)) faces = Ok els /\ mapM (tensor_points R half solve tuples un) els = Ok nodes /\ Forall (in_plane R) nodes.
  Proof.
    intros Hu. destruct Hcube as (Hc & Hf).
    set (s := r * inv (sqrt (1 + 1 + 1))).
    destruct (inv_sqrt R sqrt inv Hsqrt Hinv (1 + 1 + 1) (olt_nle R _ _ three_pos) (lt_ne R _ three_pos)) as (Hs3 & _).
    assert (Hs : s <> 0).
    { intros E. assert (K : r * r = 0). { transitivity ((1 + 1 + 1) * (s * s)); [unfold s; transitivity (r * r * ((1 + 1 + 1) * (inv (sqrt (1 + 1 + 1)) * inv (sqrt (1 + 1 + 1))))); [rewrite Hs3; ring|ring]|rewrite E; ring]. }
      apply (lt_ne R _ (square_pos R Hpos r Hr) K). }
    clear Hcube. revert Hf. generalize faces. clear faces. intros faces Hf.
    induction Hf as [|f faces' (Hl & a & c & Hcc & Hfc) Hf' IH]; [exists [], []; auto|].
    destruct IH as (els & nodes & K1 & K2 & K3).
    assert (G : exists ps, take (map (scaled_to R sqrt inv r) corners) f = Ok ps /\ length ps = 4%nat /\ Forall (fun p => length p = 3%nat /\ dot (unitv 3 a) p = c * s) ps).
    { clear - Hl Hfc Hc. assert (G : exists ps, Forall2 (fun i p => get (map (scaled_to R sqrt inv r) corners) i = Ok p) f ps /\ Forall (fun p => length p = 3%nat /\ dot (unitv 3 a) p = c * s) ps).
      { clear Hl. induction Hfc as [|i f (p & Hp & Ha) Hfc (ps & G1 & G2)]; [exists []; auto|]. rewrite Forall_forall in Hc. destruct (Hc p (nth_error_In _ _ Hp)) as (Hpl & Hpe).
        exists (scaled_to R sqrt inv r p :: ps). split; constructor; auto; [unfold get; now rewrite (map_nth_error _ _ _ Hp)|].
        rewrite scaled_to_eq, (corner_norm p Hpl Hpe). split; [now rewrite map_length|]. apply dot_unit_coord; [now rewrite map_length|]. fold s. exact (map_nth_error (fun x => x * s) _ _ Ha). }
      destruct G as (ps & G1 & G2). exists ps. split; [unfold take; now apply mapM_ok|]. split; auto. rewrite <- (Forall2_length' _ _ _ G1). exact Hl. }
    destruct G as (ps & G1 & G2 & G3).
    assert (Hm : is_mat (R := R) 4 3 ps) by (split; auto; eapply Forall_impl; [|exact G3]; now intros p (? & _)).
    destruct (Hreg ps Hm) as (coeffs & Hx). destruct Htup as (T1 & T2 & T3).
    destruct (tensor_points_ok R half solve tuples un ps 3 2 Hsolve G2 (proj2 Hm) T1 Hu coeffs Hx) as (P1 & P2 & P3).
    exists (ps :: els), (map (tpoint R half (tuples 2) 3 coeffs) un :: nodes). cbn [mapM]. rewrite G1. cbn [bind]. rewrite K1. cbn [bind]. split; [reflexivity|]. rewrite P1. cbn [bind]. rewrite K2. cbn [bind]. split; [reflexivity|].
    constructor; auto.
    assert (Q : Forall (fun p => length p = 3%nat /\ dot (unitv 3 a) p = c * s) (map (tpoint R half (tuples 2) 3 coeffs) un)).
    { apply Forall_forall. intros p Hp. apply in_map_iff in Hp as (u & <- & Hin). rewrite Forall_forall in Hu. apply (face_plane coeffs ps (unitv 3 a) (c * s)); auto. eapply Forall_impl; [|exact G3]; now intros q (_ & ?). }
    split; [eapply Forall_impl; [|exact Q]; intros ? (? & ?); assumption|]. exists (unitv 3 a), (c * s). split; [|eapply Forall_impl; [|exact Q]; intros ? (? & ?); assumption].
    intros E. apply Hs. destruct Hcc as [->| ->]; rewrite <- E; [ring|]. transitivity (- (- (1) * s)); [ring|rewrite E; ring].
  Qed.

  Lemma cube_off : Forall (off_origin R) (map (scaled_to R sqrt inv r) corners).
  Proof.
    destruct Hcube as (Hc & _). apply Forall_forall. intros q Hq. apply in_map_iff in Hq as (p & <- & Hin). rewrite Forall_forall in Hc. destruct (Hc p Hin) as (Hl & He).
    destruct (scaled_on_sphere R sqrt inv Hsqrt Hinv r p Hl) as (K1 & K2); [rewrite (corner_norm p Hl He); apply lt_ne; apply three_pos|]. split; auto. rewrite K2. apply lt_ne. now apply square_pos.
  Qed.

  Lemma cube_ok order un : Forall (fun u => length u = 2%nat) un ->
    exists nodes, generate_cube_surface R (A := A) sqrt inv half solve tuples default_nodes fvi corners faces r order (Some un) =
      Ok (mk_mesh [mk_egroup (Some faces) nodes (fvi CTensor 2)] (Some (map (scaled_to R sqrt inv r) corners)) (Some true) Pending Pending 0 0 0) /\
    Forall (in_plane R) nodes /\ length nodes = length faces.
  Proof.
    intros Hu. destruct (cube_els un Hu) as (els & nodes & K1 & K2 & K3). exists nodes. split; [|split; auto].
    - unfold generate_cube_surface. cbv zeta. unfold make_group_from_vertices. rewrite K1. cbn [bind]. change (Nat.log2 4) with 2%nat. cbn [negb Nat.eqb Nat.pow Nat.mul Nat.add andb guard bind]. cbv zeta. rewrite K2. cbn [bind]. rewrite make_mesh_pending. reflexivity.
    - apply mapM_length in K1, K2. congruence.
  Qed.
End Cube.
