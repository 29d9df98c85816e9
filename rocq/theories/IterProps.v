(** * IterProps: refining several times. *)
From Coq Require Import List Arith Bool ZArith Lia.
From Verif Require Import Np NpFacts MeshModel MeshSpec MeshStateModel RefineModel RefineSpec RefineProofs RefineProps LawsSpec IterProofs.
Import ListNotations.

Section IterProps.
  Context {E A V : Type}.
  Variable tessellation : egroup E -> tess.
  Variable midpoints : egroup E -> nat -> list V.
  Variable child_nodes : egroup E -> nat -> list E.

  (** ** C229: refine_uniformly (refinement/__init__.py:51-68) with a + b iterations is refine_uniformly with a iterations and then with b,
      although the second call starts without midpoints *)
  Theorem C229_uniformly_in_steps vd ed fd (m : mesh E A V) vs a b with_adjacency :
    tessellation_ok tessellation midpoints child_nodes -> (forall grp, one_corner (tessellation grp)) ->
    refinable tessellation m -> m_vertices m = Some vs ->
    refine_uniformly tessellation midpoints child_nodes vd ed fd m (a + b) with_adjacency =
    (m' <- refine_uniformly tessellation midpoints child_nodes vd ed fd m a with_adjacency ;;
     refine_uniformly tessellation midpoints child_nodes vd ed fd m' b with_adjacency).
  Proof. intros Hts Hone. now apply uniformly_add. Qed.

  (** It succeeds for every number of iterations, also if adjacency is asked for and the mesh is conforming *)
  Theorem C229_uniformly_succeeds vd ed fd (m : mesh E A V) vs n with_adjacency :
    tessellation_ok tessellation midpoints child_nodes -> (forall grp, one_corner (tessellation grp)) ->
    refinable tessellation m -> m_vertices m = Some vs -> with_adjacency = false \/ m_conforming m = Some true ->
    exists m', refine_uniformly tessellation midpoints child_nodes vd ed fd m n with_adjacency = Ok m' /\ refinable tessellation m'.
  Proof.
    intros Hts Hone Hm Hvs Hw. destruct (uniformly_ok _ _ _ vd ed fd Hts Hone m vs n Hm Hvs) as (m' & H & Hm'). exists m'. split; [|exact Hm'].
    unfold refine_uniformly in *. destruct Hw as [-> | Hc]; [exact H|]. rewrite Hc. destruct with_adjacency; exact H.
  Qed.
End IterProps.
Print Assumptions C229_uniformly_in_steps.
Print Assumptions C229_uniformly_succeeds.

(** The condition on children holds for intervals, triangles and cubes: no child has two corners of the element *)
Lemma one_corner_few ts : forallb (fun c => length (filter (fun r => existsb (Nat.eqb r) (ts_orig ts)) c) <=? 1) (ts_children ts) = true ->
  forallb (fun p => negb (fst p =? snd p)) (ts_pairs ts) = true -> one_corner ts.
Proof.
  intros H Hp c a b ra rb Hc Hab Ha Hb (Hra & Hrb). rewrite forallb_forall in H, Hp. specialize (H c Hc). specialize (Hp _ Hab). cbn [fst snd] in Hp.
  apply Nat.leb_le in H. apply negb_true_iff, Nat.eqb_neq in Hp. set (f := fun r => existsb (Nat.eqb r) (ts_orig ts)) in *.
  assert (Fa : f ra = true) by (apply existsb_exists; exists ra; split; auto; apply Nat.eqb_refl).
  assert (Fb : f rb = true) by (apply existsb_exists; exists rb; split; auto; apply Nat.eqb_refl).
  assert (K : forall l a b, a < b -> forall x y, nth_error l a = Some x -> nth_error l b = Some y -> f x = true -> f y = true -> 2 <= length (filter f l)).
  { clear. intros l a b Hlt x y Hx Hy Fx Fy. apply nth_error_split in Hx as (l1 & l2 & -> & <-).
    rewrite nth_error_app2 in Hy by lia. destruct (b - length l1) as [|k] eqn:Ek; [lia|]. cbn [nth_error] in Hy.
    rewrite filter_app, app_length. cbn [filter]. rewrite Fx. cbn [length].
    assert (In y (filter f l2)) by (apply filter_In; split; auto; eapply nth_error_In; eauto).
    destruct (filter f l2); [contradiction|]. cbn [length]. lia. }
  destruct (Nat.lt_ge_cases a b).
  - specialize (K c a b ltac:(assumption) ra rb Ha Hb Fa Fb). lia.
  - specialize (K c b a ltac:(lia) rb ra Hb Ha Fb Fa). lia.
Qed.

Example C229_one_corner : one_corner tri /\ one_corner hex /\ one_corner line.
Proof. split; [|split]; apply one_corner_few; vm_compute; reflexivity. Qed.

Example C229_example : exists m1 m2,
  tessellation_ok (fun _ => tri) (mids tri) (kids tri) /\ refinable (fun _ => tri) sq_mesh /\
  refine_uniformly (fun _ => tri) (mids tri) (kids tri) 0 0 0 sq_mesh 1 true = Ok m1 /\
  refine_uniformly (fun _ => tri) (mids tri) (kids tri) 0 0 0 m1 1 true = Ok m2 /\
  refine_uniformly (fun _ => tri) (mids tri) (kids tri) 0 0 0 sq_mesh 2 true = Ok m2 /\ option_map (@length pt) (m_vertices m2) = Some 25.
Proof.
  eexists _, _. split; [exact (demo_tessellation_ok tri tri_ok)|]. split.
  { apply demo_refinable; [discriminate|]. repeat constructor; cbn; lia. }
  split; [vm_compute; reflexivity|]. split; [vm_compute; reflexivity|]. split; vm_compute; reflexivity.
Qed.

(** ** C230: refining in two steps with one refiner, or with a new one for the second step.  They differ if only some elements are refined: the new
    refiner does not know the midpoints of the first step and puts a second vertex at the same place *)
Theorem C230_new_refiner_refuted : exists (m : mesh (list pt) unit pt) flags flags' r r1 r2 vs v v' P,
  tessellation_ok (fun _ => tri) (mids tri) (kids tri) /\ refinable (fun _ => tri) m /\ consistent corners m /\
  refine (fun _ => tri) (mids tri) (kids tri) 0 0 0 (new_refiner m) flags = Ok r /\
  refine (fun _ => tri) (mids tri) (kids tri) 0 0 0 r flags' = Ok r1 /\
  refine (fun _ => tri) (mids tri) (kids tri) 0 0 0 (new_refiner (rf_current r)) flags' = Ok r2 /\
  option_map (@length pt) (m_vertices (rf_current r1)) = Some 9 /\
  m_vertices (rf_current r2) = Some vs /\ length vs = 10 /\ v <> v' /\ nth_error vs v = Some P /\ nth_error vs v' = Some P.
Proof.
  exists sq_mesh, [true; false], [false; false; false; false; true]. eexists _, _, _, _, 6, 9, _. split; [exact (demo_tessellation_ok tri tri_ok)|]. split.
  { apply demo_refinable; [discriminate|]. repeat constructor; cbn; lia. }
  split; [apply demo_consistent; repeat constructor; cbn; lia|].
  split; [vm_compute; reflexivity|]. split; [vm_compute; reflexivity|]. split; [vm_compute; reflexivity|].
  split; [reflexivity|]. split; [reflexivity|]. split; [reflexivity|]. split; [discriminate|]. split; vm_compute; reflexivity.
Qed.
Print Assumptions C230_new_refiner_refuted.
