(** * RGeoProps: the geometry of refined elements.

    C159 nodes of children and midpoints, C160 curved meshes stay consistent, C161 several curved elements between the same vertices. *)
From Coq Require Import List Arith Bool Lia ZArith QArith Qcanon Ring.
From Verif Require Import Np NpFacts MeshModel MeshSpec MeshStateModel Lin Ord QcOrd ProcModel RefineModel RefineSpec RefineProofs TessProofs RGeoModel RGeoSpec RGeoProofs RGeoMainProofs RefineProps.
Import ListNotations.
Local Open Scope nat_scope.

Section RGeoProps.
  Variable R : cring.
  Variable half : R.
  Hypothesis half2 : radd half half = r1.

  (** ** C159: child elements are the element restricted to parts of the reference element

      The part of a child is given by an affine map that takes the corners of the reference element to the vertices of the child *)
  Theorem C159_child_nodes (tensor : bool) d refs children un : 1 <= d -> un <> [] -> Forall (fun u => length u = d) un ->
    Forall (good_child tensor d refs) children ->
    exists Ts, Forall2 (onto_child R tensor d refs) children Ts /\
      map_unit_nodes_to_children R half tensor d refs children un = Ok (map (fun T => map T un) Ts) /\
      forall rs S fs, exact R S rs d un -> Forall S fs ->
        tessellated_nodes R half rs tensor d refs children un (nodes_of R fs un) = Ok (map (fun T => nodes_of R (map (fun f u => f (T u)) fs) un) Ts).
  Proof using half2.
    intros Hd Hn Hu Hg. destruct (children_good R half half2 tensor d Hd refs un children Hg Hu) as (Ts & H1 & H2). exists Ts. split; [exact H1|]. split; [exact H2|].
    intros rs S fs Hex HS. now apply (nodes_good R half rs tensor d refs un children Ts S fs).
  Qed.

  (** midpoints are the images of the reference vertices that are no corners, in the order of ts_mid *)
  Theorem C159_midpoints submesh ref2 ref1 ts d un rs S fs : tessellation_info submesh ref2 ref1 = Ok ts -> Forall (fun t => length t = d) ref2 ->
    exact R S rs d un -> Forall S fs ->
    exists tups, group_midpoints R rs ref2 ref1 un (nodes_of R fs un) = Ok (map (fun t => image R fs (position R t)) tups) /\
      Forall2 (fun r t => nth_error ref2 r = Some t) (ts_mid ts) tups.
  Proof using.
    intros Ht Hr Hex HS. exists (ref_midpoints ref2 ref1). split; [now apply (midpoints_good R rs d ref2 ref1 un S fs)|]. now apply (info_mids submesh).
  Qed.

  (** ** C160: refining a mesh of curved elements

      Elements may be curved: vertices and nodes of all meshes fit together if flagged elements that share two vertices agree on the point half
      way between them, and every call flags elements of a single group *)
  Theorem C160_curved_refinement {A} (tensor : bool) d ref2 ref1 submesh ts un rs S interp vd ed fd (m0 : mesh (enodes R) A (list R)) fs ms P :
    1 <= d -> halves ref2 ref1 -> Forall (fun c => length c = length ref1 /\ Forall (fun r => r < length ref2) c) (submesh ref2) ->
    tessellation_info submesh ref2 ref1 = Ok ts -> Forall (fun t => length t = d) ref2 ->
    (forall k t, nth_error ref1 k = Some t -> t = ref_corner tensor d k) -> Forall (good_child tensor d ref2) (submesh ref2) ->
    un <> [] -> Forall (fun u => length u = d) un ->
    (forall pts, length (rs pts un) = length pts) -> exact R S rs d un -> interpolates R S interp d un ->
    let mids := midpoints_of R rs ref2 ref1 un in
    let kids := children_of R half rs tensor d ref2 (ts_children ts) un in
    refinable (fun _ => ts) m0 -> all_shaped (fun nd : enodes R => Forall (fun y => length y = length un) nd) m0 ->
    consistent (corners_of R interp ref1) m0 ->
    history (fun _ => ts) mids kids vd ed fd (new_refiner m0) fs ms ->
    (forall t m flags, nth_error (m0 :: ms) t = Some m -> nth_error fs t = Some flags ->
       one_group m flags /\ edges_agree (fun _ => ts) mids m flags P) ->
    forall m, In m ms -> consistent (corners_of R interp ref1) m.
  Proof using half2.
    intros Hd Hh Hsub Hts Hr2 Hr1 Hg Hn Hu Hrows Hex Hint mids kids Href Hsh Hc Hhist Hall m Hin. pose proof Hc as (vs & Hvs & _).
    refine (proj1 (history_curved (fun _ => ts) mids kids (corners_of R interp ref1) P _ vd ed fd (new_refiner m0) fs ms vs _ _ Hsh _ Hc Hvs _ Hhist Hall m Hin)).
    - exact (tess_fits R half half2 rs tensor d Hd ref2 ref1 submesh ts un Hh Hsub Hts Hg Hn Hu Hrows).
    - exact (fits R half half2 rs tensor d Hd ref2 ref1 submesh ts un S interp Hh Hsub Hts Hr2 Hr1 Hg Hn Hu Hex Hint).
    - split; [exact Href|intros vs' _; constructor].
    - split; [constructor|intros k v []].
  Qed.
End RGeoProps.

(** ** Curves with quadratic elements *)
Section Quadratic.
  Variable R : cring.
  Add Ring quad_ring : (rth R).
  Variable half : R.
  Hypothesis half2 : radd half half = r1.
  Local Open Scope cring_scope.

  Definition q_un : list (list R) := [[- (1)]; [0]; [1]].
  Definition q_x (u : list R) : R := match u with x :: _ => x | [] => 0 end.
  Definition q_rs (pts un : list (list R)) : list (list R) :=
    map (fun u => let x := q_x u in [(x * x - x) * half; 1 - x * x; (x * x + x) * half]) pts.
  Definition q_space (f : list R -> R) : Prop := exists a b c, forall u, length u = 1%nat -> f u = a + b * q_x u + c * (q_x u * q_x u).
  Definition q_interp (y u : list R) : R :=
    match y with
    | [y0; y1; y2] => y1 + (y2 - y0) * half * q_x u + ((y0 + y2) * half - y1) * (q_x u * q_x u)
    | _ => 0
    end.

  Lemma double_half (a : R) : (a + a) * half = a.
  Proof using half2. transitivity (a * (half + half)); [ring|]. rewrite half2. ring. Qed.

  Lemma q_exact : exact R q_space q_rs 1 q_un.
  Proof using half2.
    intros f pts (a & b & c & H) Hp. unfold matvec, q_rs. rewrite map_map. apply map_ext_in. intros u Hu. rewrite Forall_forall in Hp. rewrite (H u (Hp u Hu)).
    unfold q_un. cbn [map]. rewrite !H by reflexivity. cbn [q_x]. set (x := q_x u). unfold dot. cbn [map2 rsum fold_right].
    transitivity (((c * (x * x) + c * (x * x)) * half + ((b * x + b * x) * half) + ((a * x * x + a * x * x) * half)) + (1 - x * x) * a); [ring|]. rewrite !double_half. ring.
  Qed.
  Lemma q_interpolates : interpolates R q_space q_interp 1 q_un.
  Proof using half2.
    split.
    - intros y Hy. destruct y as [|y0 [|y1 [|y2 [|? ?]]]]; try discriminate. split; [eexists _, _, _; intros u _; reflexivity|].
      unfold q_un. cbn [map q_interp q_x]. f_equal; [|f_equal; [ring|f_equal]].
      + transitivity ((y0 + y0) * half); [ring|apply double_half].
      + transitivity ((y2 + y2) * half); [ring|apply double_half].
    - intros f T (a & b & c & H) (M & v & Hv & HM & HR & HT). destruct v as [|v [|? ?]]; try discriminate. destruct M as [|row [|? ?]]; try discriminate.
      inversion_clear HR as [|? ? Hr _]. destruct row as [|k [|? ?]]; try discriminate.
      exists (a + b * v + c * (v * v)), (b * k + c * (v * k + v * k)), (c * (k * k)). intros u Hu. destruct u as [|x [|? ?]]; try discriminate.
      rewrite H by (rewrite HT by reflexivity; reflexivity). rewrite HT by reflexivity. unfold vadd, matvec, dot. cbn [map map2 rsum fold_right q_x]. ring.
  Qed.
End Quadratic.

Definition seg_ref2 : list (list nat) := [[0]; [1]; [2]].
Definition seg_ref1 : list (list nat) := [[0]; [1]].
Definition seg_children : list (list nat) := [[0; 1]; [1; 2]].
Example seg_info : tessellation_info (fun _ => seg_children) seg_ref2 seg_ref1 = Ok line.
Proof. vm_compute. reflexivity. Qed.
Lemma seg_halves : halves seg_ref2 seg_ref1.
Proof.
  apply C65_simplex with (d := 1).
  - repeat constructor; cbn [In seg_ref2]; intuition discriminate.
  - repeat constructor; cbn [In seg_ref1]; intuition discriminate.
  - intros t. split.
    + cbn [In seg_ref2]. intros [<-|[<-|[<-|[]]]]; cbn; lia.
    + intros (Hl & Hs). destruct t as [|x [|? ?]]; try discriminate. cbn in Hs. cbn [In seg_ref2]. assert (Hx : x = 0 \/ x = 1 \/ x = 2) by lia. destruct Hx as [->|[->| ->]]; auto.
  - intros t. split.
    + cbn [In seg_ref1]. intros [<-|[<-|[]]]; cbn; lia.
    + intros (Hl & Hs). destruct t as [|x [|? ?]]; try discriminate. cbn in Hs. cbn [In seg_ref1]. assert (Hx : x = 0 \/ x = 1) by lia. destruct Hx as [->| ->]; auto.
Qed.
Lemma seg_good : Forall (good_child false 1 seg_ref2) seg_children.
Proof.
  repeat constructor; intros [|[|k]] r Hk; cbn in Hk; try (destruct k; discriminate); injection Hk as <-; eexists; split; reflexivity.
Qed.

(** The four children of a quadrilateral *)
Definition quad_ref2 : list (list nat) := flat_map (fun y => map (fun x => [x; y]) (seq 0 3)) (seq 0 3).
Example C159_example : Forall (good_child true 2 quad_ref2) [[0; 1; 3; 4]; [1; 2; 4; 5]; [3; 4; 6; 7]; [4; 5; 7; 8]] /\
  exists l, map_unit_nodes_to_children Qccring (frac 1 2) true 2 quad_ref2 [[4; 5; 7; 8]] [[frac (-1) 1; frac 0 1]; [frac 1 1; frac 1 2]] = Ok l /\
    map (map (map this)) l = [[[0#1; 1#2]; [1#1; 3#4]]]%Q.
Proof.
  split.
  - assert (G : forall child t0, length child = 4 -> length t0 = 2 ->
      map (fun r => nth_error quad_ref2 r) child = map (fun k => Some (map (fun i => nth i t0 0 + if Nat.testbit k i then 1 else 0) (seq 0 2))) (seq 0 4) -> good_child true 2 quad_ref2 child).
    { intros child t0 Hc Ht H. split; [exact Hc|]. exists t0. split; [exact Ht|]. intros k Hk.
      destruct (nth_error child k) as [r|] eqn:Er; [|apply nth_error_None in Er; cbn in Hk; lia]. exists r. split; [reflexivity|].
      apply (f_equal (fun l => nth_error l k)) in H. rewrite !nth_error_map, Er in H. rewrite (nth_error_nth' _ 0), seq_nth in H by (rewrite ?seq_length; exact Hk). cbn [option_map Nat.add] in H. congruence. }
    repeat constructor; [apply G with (t0 := [0; 0])|apply G with (t0 := [1; 0])|apply G with (t0 := [0; 1])|apply G with (t0 := [1; 1])]; reflexivity.
  - destruct (map_unit_nodes_to_children _ _ _ _ _ _ _) as [l|e] eqn:E.
    + exists l. split; [reflexivity|]. apply (f_equal (fun x => match x with Ok l => map (map (map this)) l | Err _ => [] end)) in E. rewrite <- E. vm_compute. reflexivity.
    + exfalso. apply (f_equal (fun x => match x with Ok l => true | Err _ => false end)) in E. vm_compute in E. discriminate.
Qed.

(** Curves: vertices, rows, nodes *)
Definition curve_group (rows : list (list nat)) (nodes : list (enodes Qccring)) : egroup (enodes Qccring) := mk_egroup (Some rows) nodes [[0]; [1]].
Definition curve_mesh (vs : list (list Qc)) (rows : list (list nat)) (nodes : list (enodes Qccring)) : mesh (enodes Qccring) unit (list Qccring) :=
  mk_mesh [curve_group rows nodes] (Some vs) (Some true) Pending Pending 0 0 0.
Definition qz (z : Z) : Qc := Q2Qc (inject_Z z).
Definition qpoint_eqb (p q : list Qc) : bool := (length p =? length q) && forallb (fun ab => Qc_eq_bool (fst ab) (snd ab)) (combine p q).
Lemma qpoint_eqb_true p q : qpoint_eqb p q = true -> p = q.
Proof.
  unfold qpoint_eqb. revert q. induction p as [|a p IH]; intros [|b q] H; try discriminate; [reflexivity|].
  cbn [length Nat.eqb combine forallb fst snd] in H. apply andb_true_iff in H as (H1 & H2). apply andb_true_iff in H2 as (H2 & H3).
  f_equal; [now apply Qc_eq_bool_correct|]. apply IH. now rewrite H1, H3.
Qed.
Definition opoint_eqb (p q : option (list Qc)) : bool := match p, q with Some p, Some q => qpoint_eqb p q | _, _ => false end.
Lemma opoint_eqb_true p q : opoint_eqb p (Some q) = true -> p = Some q.
Proof. destruct p as [p|]; [|discriminate]. cbn [opoint_eqb]. intros H. f_equal. now apply qpoint_eqb_true. Qed.

Definition qhalf : Qccring := frac 1 2.
Definition q_mids := midpoints_of Qccring (q_rs Qccring qhalf) seg_ref2 seg_ref1 (q_un Qccring).
Definition q_kids := children_of Qccring qhalf (q_rs Qccring qhalf) false 1 seg_ref2 seg_children (q_un Qccring).
Definition q_corners := corners_of Qccring (q_interp Qccring qhalf) seg_ref1.

(** consistent, decided for one group *)
Definition fits_b (vs : list (list Qc)) (row : list nat) (nd : enodes Qccring) : bool :=
  (length row =? length (q_corners nd)) && forallb (fun vp => opoint_eqb (nth_error vs (fst vp)) (Some (snd vp))) (combine row (q_corners nd)).
Lemma fits_b_iff vs row nd : fits_b vs row nd = true -> Forall2 (fun v p => nth_error vs v = Some p) row (q_corners nd).
Proof.
  unfold fits_b. generalize (q_corners nd). induction row as [|v row IH]; intros [|p cs] H; try discriminate; [constructor|].
  cbn [length Nat.eqb combine forallb fst snd] in H. apply andb_true_iff in H as (H1 & H2). apply andb_true_iff in H2 as (H2 & H3).
  constructor; [now apply opoint_eqb_true|]. apply IH. now rewrite H1, H3.
Qed.
Lemma curve_consistent vs rows nodes : forallb (fun rn => fits_b vs (fst rn) (snd rn)) (combine rows nodes) = true -> consistent q_corners (curve_mesh vs rows nodes).
Proof.
  intros H. exists vs. split; [reflexivity|]. intros grp i nd vi row [<-|[]] Hnd Hvi Hrow. cbn [curve_group eg_nodes eg_vi] in Hnd, Hvi. assert (vi = rows) by congruence. subst vi.
  apply fits_b_iff. rewrite forallb_forall in H. apply (H (row, nd)). eapply nth_error_In with (n := i). clear H Hvi. revert nodes i Hnd Hrow.
  induction rows as [|r rows IH]; intros [|n nodes] [|i] Hnd Hrow; try discriminate; cbn [nth_error combine] in *; [injection Hnd as ->; injection Hrow as ->; reflexivity|]. now apply IH.
Qed.
Lemma curve_refinable vs rows nodes : length rows = length nodes -> Forall (fun row => length row = 2 /\ Forall (fun v => v < length vs) row) rows ->
  refinable (fun _ => line) (curve_mesh vs rows nodes).
Proof.
  intros Hl H. split; [discriminate|]. intros vs0 grp Hvs [<-|[]]. cbn [curve_mesh m_vertices] in Hvs. assert (vs0 = vs) by congruence. subst vs0.
  exists rows. split; [reflexivity|]. split; [exact Hl|exact H].
Qed.
Lemma curve_shaped vs rows nodes : forallb (forallb (fun y => length y =? 3)) nodes = true ->
  all_shaped (fun nd : enodes Qccring => Forall (fun y => length y = length (q_un Qccring)) nd) (curve_mesh vs rows nodes).
Proof.
  intros H grp [<-|[]]. apply Forall_forall. intros nd Hnd. apply Forall_forall. intros y Hy. rewrite forallb_forall in H. specialize (H nd Hnd). rewrite forallb_forall in H.
  now apply Nat.eqb_eq, H.
Qed.
Lemma curve_one_group vs rows nodes flags : one_group (curve_mesh vs rows nodes) flags.
Proof.
  intros g g' i i' gf gf' (grp & Hg & _) (grp' & Hg' & _) _ _. cbn [curve_mesh m_groups] in Hg, Hg'. destruct g as [|[|g]], g' as [|[|g']]; try discriminate; reflexivity.
Qed.

(** A piece of a parabola: two elements of order 2, both refined *)
Definition par_nodes : list (enodes Qccring) := [[[qz 0; qz 1; qz 2]; [qz 0; qz 1; qz 4]]; [[qz 2; qz 3; qz 4]; [qz 4; qz 9; qz 16]]].
Definition par_mesh := curve_mesh [[qz 0; qz 0]; [qz 2; qz 4]; [qz 4; qz 16]] [[0; 1]; [1; 2]] par_nodes.
Definition par_P (a b : nat) : list Qc := if a + b =? 1 then [qz 1; qz 1] else [qz 3; qz 9].

Example C160_example :
  radd qhalf qhalf = r1 /\ halves seg_ref2 seg_ref1 /\ Forall (fun c => length c = length seg_ref1 /\ Forall (fun r => r < length seg_ref2) c) seg_children /\
  tessellation_info (fun _ => seg_children) seg_ref2 seg_ref1 = Ok line /\ (forall k t, nth_error seg_ref1 k = Some t -> t = ref_corner false 1 k) /\
  Forall (good_child false 1 seg_ref2) seg_children /\ exact Qccring (q_space Qccring) (q_rs Qccring qhalf) 1 (q_un Qccring) /\
  interpolates Qccring (q_space Qccring) (q_interp Qccring qhalf) 1 (q_un Qccring) /\
  refinable (fun _ => line) par_mesh /\ all_shaped (fun nd : enodes Qccring => Forall (fun y => length y = length (q_un Qccring)) nd) par_mesh /\
  consistent q_corners par_mesh /\ one_group par_mesh [true; true] /\ edges_agree (fun _ => line) q_mids par_mesh [true; true] par_P /\
  exists r', refine (fun _ => line) q_mids q_kids 0 0 0 (new_refiner par_mesh) [true; true] = Ok r' /\
    map (@eg_vi _) (m_groups (rf_current r')) = [Some [[0; 3]; [3; 1]; [1; 4]; [4; 2]]] /\
    map (fun g : egroup (enodes Qccring) => map (map (map this)) (eg_nodes g)) (m_groups (rf_current r')) =
      [map (map (map (fun z : Z => Qred (z # 4)))) [[[0; 2; 4]; [0; 1; 4]]; [[4; 6; 8]; [4; 9; 16]]; [[8; 10; 12]; [16; 25; 36]]; [[12; 14; 16]; [36; 49; 64]]]%Z].
Proof.
  split; [apply Qc_half|]. split; [exact seg_halves|]. split; [repeat constructor; cbn; lia|]. split; [exact seg_info|].
  split; [intros [|[|k]] t Hk; cbn in Hk; try (destruct k; discriminate); injection Hk as <-; reflexivity|]. split; [exact seg_good|].
  split; [apply (q_exact Qccring qhalf Qc_half)|]. split; [apply (q_interpolates Qccring qhalf Qc_half)|].
  split; [apply curve_refinable; [reflexivity|repeat constructor; cbn; lia]|]. split; [apply curve_shaped; reflexivity|]. split; [apply curve_consistent; vm_compute; reflexivity|].
  split; [apply curve_one_group|]. split.
  - split; [intros a b; unfold par_P; now rewrite Nat.add_comm|].
    intros g grp gf i vi row k a b ga gb Hg _ _ Hvi Hrow Hk Ha Hb. destruct g as [|[|g]]; try discriminate. cbn in Hg. assert (grp = curve_group [[0; 1]; [1; 2]] par_nodes) by congruence. subst grp.
    cbn [curve_group eg_vi] in Hvi. assert (vi = [[0; 1]; [1; 2]]) by congruence. subst vi. destruct k as [|[|k]]; try discriminate. cbn in Hk. assert (a = 0 /\ b = 1) as (-> & ->) by (split; congruence).
    destruct i as [|[|[|i]]]; try discriminate; cbn in Hrow; subst; assert (row = row) by reflexivity; [assert (row = [0; 1]) by congruence|assert (row = [1; 2]) by congruence]; subst row; cbn in Ha, Hb.
    + assert (ga = 0 /\ gb = 1) as (-> & ->) by (split; congruence). apply opoint_eqb_true. vm_compute. reflexivity.
    + assert (ga = 1 /\ gb = 2) as (-> & ->) by (split; congruence). apply opoint_eqb_true. vm_compute. reflexivity.
  - destruct (refine (fun _ => line) q_mids q_kids 0 0 0 (new_refiner par_mesh) [true; true]) as [r'|e] eqn:E.
    + exists r'. split; [reflexivity|].
      assert (E' : match refine (fun _ => line) q_mids q_kids 0 0 0 (new_refiner par_mesh) [true; true] with
                   | Ok r' => (map (@eg_vi _) (m_groups (rf_current r')), map (fun g : egroup (enodes Qccring) => map (map (map this)) (eg_nodes g)) (m_groups (rf_current r')))
                   | Err _ => ([], []) end =
               ([Some [[0; 3]; [3; 1]; [1; 4]; [4; 2]]], [map (map (map (fun z : Z => Qred (z # 4)))) [[[0; 2; 4]; [0; 1; 4]]; [[4; 6; 8]; [4; 9; 16]]; [[8; 10; 12]; [16; 25; 36]]; [[12; 14; 16]; [36; 49; 64]]]%Z]))
        by (vm_compute; reflexivity).
      rewrite E in E'. split; congruence.
    + exfalso. assert (E' : match refine (fun _ => line) q_mids q_kids 0 0 0 (new_refiner par_mesh) [true; true] with Ok _ => true | Err _ => false end = true) by (vm_compute; reflexivity).
      rewrite E in E'. discriminate.
Qed.

(** ** C161: two curved elements with the same two vertices

    The table of midpoints is indexed with the two vertices: a closed curve of two elements gets one midpoint for both, so that vertices and nodes no
    longer fit together *)
Definition loop_nodes : list (enodes Qccring) := [[[qz (-1); qz 0; qz 1]; [qz 0; qz 1; qz 0]]; [[qz 1; qz 0; qz (-1)]; [qz 0; qz (-1); qz 0]]].
Definition loop_mesh := curve_mesh [[qz (-1); qz 0]; [qz 1; qz 0]] [[0; 1]; [1; 0]] loop_nodes.

Definition first_bad (x : res (@refiner (enodes Qccring) unit (list Qccring))) : bool :=
  match x with
  | Ok r' => match m_vertices (rf_current r'), m_groups (rf_current r') with
             | Some vs, g :: _ => match nth_error (eg_nodes g) 2, eg_vi g with
                                  | Some nd, Some vi => match nth_error vi 2 with
                                      | Some [_; v] => match nth_error vs v, nth_error (q_corners nd) 1 with
                                                       | Some p, Some q => negb (qpoint_eqb p q)
                                                       | _, _ => false
                                                       end
                                      | _ => false
                                      end
                                  | _, _ => false
                                  end
             | _, _ => false
             end
  | Err _ => false
  end.
Lemma qpoint_eqb_refl p : qpoint_eqb p p = true.
Proof. unfold qpoint_eqb. rewrite Nat.eqb_refl. cbn [andb]. induction p as [|a p IH]; [reflexivity|]. cbn [combine forallb fst snd]. rewrite IH, andb_true_r. unfold Qc_eq_bool. now destruct (Qc_eq_dec a a). Qed.

Theorem C161_shared_midpoint_refuted : exists (m : mesh (enodes Qccring) unit (list Qccring)) flags r',
  refinable (fun _ => line) m /\ all_shaped (fun nd : enodes Qccring => Forall (fun y => length y = length (q_un Qccring)) nd) m /\ consistent q_corners m /\ one_group m flags /\
  refine (fun _ => line) q_mids q_kids 0 0 0 (new_refiner m) flags = Ok r' /\ ~ consistent q_corners (rf_current r').
Proof.
  assert (E' : first_bad (refine (fun _ => line) q_mids q_kids 0 0 0 (new_refiner loop_mesh) [true; true]) = true) by (vm_compute; reflexivity).
  destruct (refine (fun _ => line) q_mids q_kids 0 0 0 (new_refiner loop_mesh) [true; true]) as [r'|e] eqn:E; [|discriminate].
  exists loop_mesh, [true; true], r'. split; [apply curve_refinable; [reflexivity|repeat constructor; cbn; lia]|]. split; [apply curve_shaped; reflexivity|].
  split; [apply curve_consistent; vm_compute; reflexivity|]. split; [apply curve_one_group|]. split; [exact E|]. clear E.
  intros (vs & Hvs & H). unfold first_bad, enodes in *. rewrite Hvs in E'. destruct (m_groups (rf_current r')) as [|g gs]; [discriminate|].
  destruct (nth_error (eg_nodes g) 2) as [nd|] eqn:End; [|discriminate]. destruct (eg_vi g) as [vi|] eqn:Evi; [|discriminate].
  destruct (nth_error vi 2) as [row|] eqn:Erow; [|discriminate]. specialize (H g 2 nd vi row (or_introl eq_refl) End Evi Erow).
  destruct row as [|v0 [|v [|? ?]]]; try discriminate. destruct (q_corners nd) as [|c0 [|c1 cs]]; [inversion H|inversion H as [|? ? ? ? _ H']; inversion H'|].
  inversion_clear H as [|? ? ? ? _ H']. inversion_clear H' as [|? ? ? ? Hv _]. rewrite Hv in E'. cbn [nth_error] in E'. rewrite qpoint_eqb_refl in E'. discriminate.
Qed.

Print Assumptions C159_child_nodes.
Print Assumptions C159_midpoints.
Print Assumptions C160_curved_refinement.
Print Assumptions C160_example.
Print Assumptions C161_shared_midpoint_refuted.
