(** * GNProps: reference coordinates on opposite faces by the Gauss-Newton method.

    C162 what is returned, C163 it need not be near the target. *)
From Coq Require Import List Arith Bool Lia ZArith QArith Qcanon Ring.
From Verif Require Import Np NpFacts Lin Ord QcOrd GNModel GNSpec GNProofs.
Import ListNotations.
Local Open Scope nat_scope.

Section GNProps.
  Variable R : ocring.
  Variable inv : R -> option R.
  Hypothesis Hinv : forall x y, inv x = Some y -> rmul x y = r1.
  Variable lstsq : list (list R) -> list R -> list R.
  Variable tol : R.
  Hypothesis Htol : olt r0 tol = true.
  Variables (dim amb : nat).
  Variable basis : list (list R -> R).
  Variable gradients : list (list R -> list R).
  Variable M un : list (list R).
  Hypothesis HM : inverse_vandermonde R basis un M.
  Hypothesis Hun : Forall (fun u => length u = dim) un.
  Hypothesis Hgr : gradients_ok R dim basis gradients.
  Hypothesis Hone : exists g, in_span R dim basis gradients (fun _ => r1) g.

  (** ** C162: one step from a point whose image is within the tolerance

      Every returned point is one step of the Gauss-Newton method away from a point that the source face maps to the target, up to the tolerance *)
  Theorem C162_found : (forall x, inv x = None -> x = r0) ->
    (forall df resid, Forall (fun row => length row = amb) df -> length resid = amb -> least_squares R amb df resid (lstsq df resid)) ->
    forall guess fcs tgts us, length guess = dim -> length tgts = length fcs ->
      Forall (face_ok R dim amb basis gradients) fcs -> Forall (Forall (fun t => length t = amb)) tgts ->
      gauss_newton R inv lstsq tol dim amb basis gradients M guess tgts (map (face_nodes R un) fcs) = Ok us ->
      Forall2 (fun ft u' => found R dim amb tol (fst ft) (snd ft) u') (concat (map (fun ft => map (fun t => (fst ft, t)) (snd ft)) (combine fcs tgts))) us.
  Proof using Hinv Htol HM Hun Hgr Hone.
    intros Hinv0 Hls guess fcs tgts us Hg Hl Hf Ht H. unfold gauss_newton in H.
    set (faces := concat (map (fun ft => map (fun t => (fst ft, t)) (snd ft)) (combine fcs tgts))).
    assert (E : concat (map (fun ts : list (list R) * list (list R) => map (fun t => (snd ts, t)) (fst ts)) (combine tgts (map (face_nodes R un) fcs))) =
                map (fun ft : face R * list R => (face_nodes R un (fst ft), snd ft)) faces).
    { unfold faces. clear -Hl. revert tgts Hl. induction fcs as [|fc fcs IH]; intros [|t tgts] Hl; try discriminate; [reflexivity|]. cbn [map combine concat fst snd]. rewrite map_app, IH by (cbn in Hl; lia).
      f_equal. now rewrite map_map. }
    rewrite E in H. apply (iterate_found R inv Hinv lstsq tol dim amb basis gradients M un HM Hun Hgr Hone Htol Hinv0 Hls _ faces _ us) in H; auto.
    - unfold faces. apply Forall_concat, Forall_map, Forall_forall. intros (fc, ts) Hin. cbn [fst snd]. apply Forall_map, Forall_forall. intros t Htin. cbn [fst snd].
      rewrite Forall_forall in Hf, Ht. split; [apply Hf; now apply in_combine_l in Hin|]. apply in_combine_r in Hin. specialize (Ht ts Hin). rewrite Forall_forall in Ht. auto.
    - now rewrite !map_length.
    - apply Forall_map, Forall_forall. intros p _ v [= <-]. exact Hg.
  Qed.

  (** ... the first such point within the first eleven; otherwise RuntimeError *)
  Theorem C162_iterations guess tgts srcs : 
    let problems := concat (map (fun ts => map (fun t => (snd ts, t)) (fst ts)) (combine tgts srcs)) in
    let start := map (fun _ => Some guess) problems in
    let next := next_points R inv lstsq tol dim amb basis gradients M problems in
    let close := close_points R inv lstsq tol dim amb basis gradients M problems in
    (forall us, gauss_newton R inv lstsq tol dim amb basis gradients M guess tgts srcs = Ok us -> stopped _ next close 10 start us) /\
    (gauss_newton R inv lstsq tol dim amb basis gradients M guess tgts srcs = Err RuntimeError -> exhausted _ next close 10 start).
  Proof using. cbv zeta. 
    unfold gauss_newton. set (problems := concat _). pose proof (iterate_runs R inv lstsq tol dim amb basis gradients M problems) as H. revert H.
    generalize (iterate R inv lstsq tol dim amb basis gradients M). intros it H. apply (H 10).
  Qed.

  (** For straight faces it is the point itself, from any initial guess *)
  Theorem C162_straight_faces guess (faces : list (list (list R * R) * list (list R))) : dim = 1 \/ dim = 2 -> 0 < amb -> length guess = dim ->
    concat (map snd faces) <> [] ->
    Forall (fun av => length (fst av) = amb /\
              Forall (fun ab => length (fst ab) = dim /\ in_span R dim basis gradients (aff R ab) (fun _ => fst ab)) (fst av) /\
              inv (gram R (map (column R (fst av)) (seq 0 dim))) <> None /\ Forall (fun v => length v = dim) (snd av)) faces ->
    gauss_newton R inv lstsq tol dim amb basis gradients M guess
      (map (fun av => map (image R (map (aff R) (fst av))) (snd av)) faces) (map (fun av => map (image R (map (aff R) (fst av))) un) faces) =
      Ok (map Some (concat (map snd faces))).
  Proof using Hinv Htol HM Hun Hgr Hone.
    intros Hd Ha Hg Hne HF. unfold gauss_newton.
    set (flat := concat (map (fun av : list (list R * R) * list (list R) => map (fun v => (fst av, v)) (snd av)) faces)).
    assert (E : concat (map (fun ts : list (list R) * list (list R) => map (fun t => (snd ts, t)) (fst ts))
                  (combine (map (fun av => map (image R (map (aff R) (fst av))) (snd av)) faces) (map (fun av => map (image R (map (aff R) (fst av))) un) faces))) =
                map (fun av : list (list R * R) * list R => (map (image R (map (aff R) (fst av))) un, image R (map (aff R) (fst av)) (snd av))) flat).
    { unfold flat. clear. induction faces as [|av faces IH]; [reflexivity|]. cbn [map combine concat fst snd]. rewrite map_app, IH. f_equal. now rewrite !map_map. }
    assert (Ev : map snd flat = concat (map snd faces)).
    { unfold flat. clear. induction faces as [|av faces IH]; [reflexivity|]. cbn [map concat]. rewrite map_app, IH. f_equal. rewrite map_map. cbn [snd]. apply map_id. }
    assert (Eg : forall l : list (list (list R) * list R), map (fun _ => Some guess) l = map Some (map (fun _ => guess) l)) by (intros l; now rewrite map_map).
    rewrite E, Eg.
    pose proof (fun fuel => iterate_affine R inv Hinv lstsq tol dim amb basis gradients M un HM Hun Hgr Hd Hone Htol fuel flat) as HI. revert HI.
    generalize (iterate R inv lstsq tol dim amb basis gradients M). intros it HI. rewrite (HI _); auto.
    - f_equal. rewrite <- Ev, map_map. reflexivity.
    - intros H0. apply Hne. rewrite <- Ev, H0. reflexivity.
    - unfold flat. apply Forall_concat, Forall_map. eapply Forall_impl; [|exact HF]. intros av (H1 & H2 & H3 & H4). apply Forall_map, Forall_forall. intros v Hv. cbn [fst snd].
      rewrite Forall_forall in H4. split; [split; auto|]. split; auto.
    - now rewrite !map_length.
    - apply Forall_map, Forall_forall. auto.
  Qed.
End GNProps.

(** ** Quadratic curves *)
Section Quadratic.
  Variable R : ocring.
  Add Ring gnq_ring : (rth R).
  Variable half : R.
  Hypothesis half2 : radd half half = r1.
  Local Open Scope cring_scope.
  Definition g_x (u : list R) : R := match u with x :: _ => x | [] => 0 end.
  Definition g_basis : list (list R -> R) := [fun _ => 1; g_x; fun u => g_x u * g_x u].
  Definition g_gradients : list (list R -> list R) := [fun _ => [0]; fun _ => [1]; fun u => [g_x u + g_x u]].
  Definition g_un : list (list R) := [[- (1)]; [0]; [1]].
  Definition g_M : list (list R) := [[0; - half; half]; [1; 0; - (1)]; [0; half; half]].
  Definition quad (a b c : R) (u : list R) : R := a + b * g_x u + c * (g_x u * g_x u).
  Definition dquad (b c : R) (u : list R) : list R := [b + (c * g_x u + c * g_x u)].

  Lemma g_inverse : inverse_vandermonde R g_basis g_un g_M.
  Proof using half2.
    split; [reflexivity|]. split; [reflexivity|]. intros y Hy. destruct y as [|y0 [|y1 [|y2 [|? ?]]]]; try discriminate.
    unfold g_basis, g_un, g_M, matvec, dot. cbn [map map2 rsum g_x].
    f_equal; [|f_equal; [|f_equal]].
    - transitivity (y0 + y2 * (half + half) - y2); [ring|]. rewrite half2. ring.
    - transitivity (y1 * (half + half)); [ring|]. rewrite half2. ring.
    - transitivity (y2 * (half + half)); [ring|]. rewrite half2. ring.
  Qed.
  Lemma g_span a b c : in_span R 1 g_basis g_gradients (quad a b c) (dquad b c).
  Proof using.
    exists [a; b; c]. split; [reflexivity|]. intros u Hu. destruct u as [|x [|? ?]]; try discriminate. split.
    - unfold quad, g_basis, dot. cbn [map map2 rsum g_x]. ring.
    - intros r Hr. destruct r as [|r]; [|lia]. unfold dquad, g_gradients, dot. cbn [map map2 rsum g_x nth]. ring.
  Qed.
  Lemma g_aff a b : in_span R 1 g_basis g_gradients (aff R ([a], b)) (fun _ => [a]).
  Proof using.
    exists [b; a; 0]. split; [reflexivity|]. intros u Hu. destruct u as [|x [|? ?]]; try discriminate. split.
    - unfold aff, g_basis, dot. cbn [fst snd map map2 rsum g_x]. ring.
    - intros r Hr. destruct r as [|r]; [|lia]. unfold g_gradients, dot. cbn [map map2 rsum g_x nth]. ring.
  Qed.
  Lemma g_gradients_ok : gradients_ok R 1 g_basis g_gradients.
  Proof using. split; [reflexivity|]. repeat constructor. Qed.
  Lemma g_nodes : Forall (fun u => length u = 1%nat) g_un.
  Proof using. repeat constructor. Qed.
  Lemma g_one : exists g, in_span R 1 g_basis g_gradients (fun _ => 1) g.
  Proof using.
    exists (dquad 0 0). exists [1; 0; 0]. split; [reflexivity|]. intros u Hu. split.
    - unfold g_basis, dot. cbn [map map2 rsum]. ring.
    - intros r Hr. destruct r as [|r]; [|lia]. unfold dquad, g_gradients, dot. cbn [map map2 rsum nth]. ring.
  Qed.
End Quadratic.

Definition qinv (x : Qcocring) : option Qcocring := if Qc_eq_dec x 0 then None else Some (/ x)%Qc.
Lemma qinv_some (x y : Qcocring) : qinv x = Some y -> rmul x y = r1.
Proof. unfold qinv. destruct (Qc_eq_dec x 0) as [|Hx]; [discriminate|]. intros [= <-]. exact (Qcmult_inv_r x Hx). Qed.
Lemma qinv_none (x : Qcocring) : qinv x = None -> x = r0.
Proof. unfold qinv. destruct (Qc_eq_dec x 0) as [Hx|]; [intros _; exact Hx|discriminate]. Qed.
Definition no_lstsq (df : list (list Qcocring)) (r : list Qcocring) : list Qcocring := [].
Definition gtol : Qcocring := frac 1 1000.
Definition qhalf : Qcocring := frac 1 2.
Notation gn := (gauss_newton Qcocring qinv no_lstsq gtol 1 2 (g_basis Qcocring) (g_gradients Qcocring) (g_M Qcocring qhalf)).

(** A straight face between (0, 1) and (4, 3), and targets one quarter and all of the way along it *)
Definition straight_face : list (list Qcocring * Qcocring) := [([frac 2 1], frac 2 1); ([frac 1 1], frac 2 1)].
Lemma Qc_tol : olt (R := Qcocring) r0 gtol = true. Proof. reflexivity. Qed.
Example C162_example :
  inverse_vandermonde Qcocring (g_basis Qcocring) (g_un Qcocring) (g_M Qcocring qhalf) /\ olt (R := Qcocring) r0 gtol = true /\
  Forall (fun ab => length (fst ab) = 1 /\ in_span Qcocring 1 (g_basis Qcocring) (g_gradients Qcocring) (aff Qcocring ab) (fun _ => fst ab)) straight_face /\
  qinv (gram Qcocring (map (column Qcocring straight_face) (seq 0 1))) <> None /\
  gn [r0] [map (image Qcocring (map (aff Qcocring) straight_face)) [[frac (-1) 2]; [frac 1 1]]] [map (image Qcocring (map (aff Qcocring) straight_face)) (g_un Qcocring)] =
    Ok [Some [frac (-1) 2]; Some [frac 1 1]].
Proof.
  assert (H1 : Forall (fun ab => length (fst ab) = 1 /\ in_span Qcocring 1 (g_basis Qcocring) (g_gradients Qcocring) (aff Qcocring ab) (fun _ => fst ab)) straight_face).
  { repeat constructor; apply g_aff. }
  assert (H2 : qinv (gram Qcocring (map (column Qcocring straight_face) (seq 0 1))) <> None).
  { intros H. apply qinv_none in H. apply (f_equal (fun q => Qeq_bool (this q) 0)) in H. vm_compute in H. discriminate. }
  pose proof (g_inverse Qcocring qhalf Qc_half) as H3. split; [exact H3|]. split; [exact Qc_tol|]. split; [exact H1|]. split; [exact H2|].
  apply (C162_straight_faces Qcocring qinv qinv_some no_lstsq gtol Qc_tol 1 2 _ _ _ _ H3 (g_nodes Qcocring) (g_gradients_ok Qcocring) (g_one Qcocring) [r0] [(straight_face, [[frac (-1) 2]; [frac 1 1]])]);
    [now left|lia|reflexivity|discriminate|]. constructor; [|constructor]. split; [reflexivity|]. split; [exact H1|]. split; [exact H2|]. repeat constructor.
Qed.

(** ** C163: returned points need not be mapped to the target

    The loop ends when the residual before the last step is small; the result of that step is not looked at.
    The faces are u -> (eps u + u^2, 0) for eps = 1 / 2500 and eps = 0, the targets are their points for u = 1 / 50: the residual of the initial guess is below
    the tolerance, the step leads to u = 51 / 50, more than 1 away, and in the second case the returned point is not even finite. *)
Definition bent (eps : Qcocring) : face Qcocring := mk_face Qcocring [quad Qcocring r0 eps r1; quad Qcocring r0 r0 r0] [dquad Qcocring eps r1; dquad Qcocring r0 r0].
Definition bent_target (eps : Qcocring) : list Qcocring := image Qcocring (fc_fs Qcocring (bent eps)) [frac 1 50].
Theorem C163_near_target_refuted : exists fc fc' u v,
  olt (R := Qcocring) r0 gtol = true /\ face_ok Qcocring 1 2 (g_basis Qcocring) (g_gradients Qcocring) fc /\ face_ok Qcocring 1 2 (g_basis Qcocring) (g_gradients Qcocring) fc' /\
  gn [r0] [[image Qcocring (fc_fs Qcocring fc) u]] [face_nodes Qcocring (g_un Qcocring) fc] = Ok [Some v] /\
  ~ within Qcocring r1 (image Qcocring (fc_fs Qcocring fc) v) (image Qcocring (fc_fs Qcocring fc) u) /\
  gn [r0] [[image Qcocring (fc_fs Qcocring fc') u]] [face_nodes Qcocring (g_un Qcocring) fc'] = Ok [None].
Proof.
  assert (Hok : forall eps, face_ok Qcocring 1 2 (g_basis Qcocring) (g_gradients Qcocring) (bent eps)).
  { intros eps. split; [reflexivity|]. constructor; [apply g_span|]. constructor; [apply g_span|constructor]. }
  destruct (gn [r0] [[bent_target (frac 1 2500)]] [face_nodes Qcocring (g_un Qcocring) (bent (frac 1 2500))]) as [l|e] eqn:E.
  2:{ exfalso. apply (f_equal (fun x => match x with Ok _ => true | Err _ => false end)) in E. vm_compute in E. discriminate. }
  destruct l as [|[[|x [|? ?]]|] [|? ?]]; try (exfalso; apply (f_equal (fun x => match x with Ok [Some [_]] => true | _ => false end)) in E; vm_compute in E; discriminate).
  exists (bent (frac 1 2500)), (bent r0), [frac 1 50], [x].
  assert (Hx : x = frac 51 50).
  { apply Qc_is_canon, Qeq_bool_iff. apply (f_equal (fun y => match y with Ok [Some [z]] => Qeq_bool (this z) (51 # 50) | _ => false end)) in E.
    change (Qeq_bool (this x) (51 # 50) = true). rewrite <- E. vm_compute. reflexivity. }
  split; [reflexivity|]. split; [apply Hok|]. split; [apply Hok|]. split; [exact E|]. split; [|vm_compute; reflexivity].
  subst x. intros H. unfold within in H. inversion_clear H as [|? ? (_ & H1) _]. vm_compute in H1. discriminate.
Qed.

Print Assumptions C162_found.
Print Assumptions C162_iterations.
Print Assumptions C162_straight_faces.
Print Assumptions C162_example.
Print Assumptions C163_near_target_refuted.
