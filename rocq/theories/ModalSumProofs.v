(** * ModalSumProofs: quadrature sums, derivatives and node coordinates *)
From Coq Require Import List Arith Bool ZArith Lia Permutation Sorted Ring.
From Verif Require Import Np NpFacts Lin ConnModel ConnSpec ConnProofs ModalModel ModalSpec ModalProofs.
Import ListNotations.

Section Sums.
  Context {R : cring} {P : Type}.
  Add Ring Rring : (rth R).
  Local Open Scope cring_scope.
  Notation fn := (P -> R).

  Lemma rsum_app (l l' : list R) : rsum (l ++ l') = rsum l + rsum l'.
  Proof. induction l as [|x l IH]; cbn [rsum app]; [ring|]. rewrite IH. ring. Qed.
  Lemma rsum_zero {X} (l : list X) : rsum (map (fun _ => 0) l) = (0 : R).
  Proof. induction l as [|x l IH]; cbn [rsum map]; [reflexivity|]. rewrite IH. ring. Qed.
  Lemma rsum_map_add {X} (f g : X -> R) l : rsum (map (fun x => f x + g x) l) = rsum (map f l) + rsum (map g l).
  Proof. induction l as [|x l IH]; cbn [rsum map]; [ring|]. rewrite IH. ring. Qed.
  Lemma rsum_map_scale {X} (a : R) (f : X -> R) l : rsum (map (fun x => a * f x) l) = a * rsum (map f l).
  Proof. induction l as [|x l IH]; cbn [rsum map]; [ring|]. rewrite IH. ring. Qed.
  Lemma rsum_map2_add {X Y} (f g : X -> Y -> R) l l' : rsum (map2 (fun x y => f x y + g x y) l l') = rsum (map2 f l l') + rsum (map2 g l l').
  Proof. revert l'. induction l as [|x l IH]; intros [|y l']; cbn [rsum map2]; try ring. rewrite IH. ring. Qed.
  Lemma rsum_map2_zero {X Y} (l : list X) (l' : list Y) : rsum (map2 (fun _ _ => 0) l l') = (0 : R).
  Proof. revert l'. induction l as [|x l IH]; intros [|y l']; cbn [rsum map2]; try ring. rewrite IH. ring. Qed.
  Lemma rsum_map2_scale {X Y} (a : R) (f : X -> Y -> R) l l' : rsum (map2 (fun x y => a * f x y) l l') = a * rsum (map2 f l l').
  Proof. revert l'. induction l as [|x l IH]; intros [|y l']; cbn [rsum map2]; try ring. rewrite IH. ring. Qed.
  Lemma map2_ext {X Y W} (f g : X -> Y -> W) l l' : (forall x y, f x y = g x y) -> map2 f l l' = map2 g l l'.
  Proof. intros H. revert l'. induction l as [|x l IH]; intros [|y l']; cbn [map2]; [reflexivity..|]. now rewrite H, IH. Qed.

  (** Exchanging a sum over basis functions with a sum over something else *)
  Lemma rsum_swap {X Y Z'} (G : X -> Y -> R) (fs : list Y) (c : list Z') (h : Z' -> R) (bs : list X) :
    rsum (map (fun b => rsum (map2 (fun f a => h a * G b f) fs c)) bs) = rsum (map2 (fun f a => h a * rsum (map (fun b => G b f) bs)) fs c).
  Proof.
    revert c. induction fs as [|f fs IH]; intros [|a c]; cbn [map2 rsum]; [apply rsum_zero..|]. rewrite rsum_map_add, rsum_map_scale, IH. reflexivity.
  Qed.

  (** A weighted sum of phi times a combination of basis functions *)
  Lemma quad_expand (phi : fn) (fs : list fn) c xs (ws : list R) :
    rsum (map2 (fun x w => phi x * w * rsum (map2 (fun f a => f x * a) fs c)) xs ws) =
    rsum (map2 (fun f a => a * rsum (map2 (fun x w => phi x * f x * w) xs ws)) fs c).
  Proof.
    assert (Hz : rsum (map2 (fun x w => phi x * w * 0) xs ws) = 0) by (transitivity (rsum (R := R) (map2 (fun _ _ => 0) xs ws)); [f_equal; apply map2_ext; intros; ring|apply rsum_map2_zero]).
    revert c. induction fs as [|f fs IH]; intros [|a c]; cbn [map2 rsum]; [exact Hz..|].
    rewrite <- IH, <- rsum_map2_scale, <- rsum_map2_add. f_equal. apply map2_ext. intros. ring.
  Qed.

  (** Orthonormality picks out a coefficient *)
  Lemma pick_coefficient (g : fn -> R) (fs : list fn) c i a : length c = length fs -> nth_error c i = Some a ->
    (forall j f, nth_error fs j = Some f -> g f = if (i =? j)%nat then 1 else 0) -> rsum (map2 (fun f a => a * g f) fs c) = a.
  Proof.
    revert c i. induction fs as [|f fs IH]; intros [|b c] i Hl Ha Hg; try discriminate Hl; [destruct i; discriminate Ha|]. injection Hl as Hl. cbn [map2 rsum].
    pose proof (Hg 0%nat f eq_refl) as Hf. destruct i as [|i].
    - cbn [nth_error] in Ha. injection Ha as ->. cbn [Nat.eqb] in Hf. rewrite Hf. replace (rsum (map2 (fun f a => a * g f) fs c)) with (0 : R); [ring|].
      symmetry. clear IH Hf. assert (Hz : forall f, In f fs -> g f = 0). { intros f' Hin. apply In_nth_error in Hin. destruct Hin as (j & Hj). exact (Hg (S j) f' Hj). }
      clear Hg. revert c Hl. induction fs as [|f' fs IH]; intros [|b c] Hl; try discriminate Hl; [reflexivity|]. cbn [map2 rsum]. rewrite (Hz f' (or_introl eq_refl)). rewrite IH; [ring| |now injection Hl]. intros f'' Hin. apply Hz. now right.
    - cbn [Nat.eqb] in Hf. rewrite Hf, (IH c i Hl Ha); [ring|]. intros j f' Hj. exact (Hg (S j) f' Hj).
  Qed.
End Sums.

Section More.
  Context {R : cring} {P : Type}.
  Variable E : numerics R P.
  Notation fn := (P -> R).
  Notation mat := (list (list R)).
  Notation group := (@dgroup (kind R P)).
  Notation discr := (list group).
  Add Ring Rring' : (rth R).

  (** ** Nodal to modal by quadrature *)
  Lemma vtw_values (fs : list fn) xs (ws : list R) M c : vtw fs xs ws = Ok M -> length c = length fs ->
    (forall i j fi fj, nth_error fs i = Some fi -> nth_error fs j = Some fj -> rsum (map2 (fun x w => rmul (rmul (fi x) (fj x)) w) xs ws) = if i =? j then r1 else r0) ->
    matvec M (values fs c xs) = c.
  Proof.
    unfold vtw. destruct (length xs =? length ws) eqn:El; [|discriminate]. cbn [guard bind]. intros H Hc Ho. injection H as <-. apply Nat.eqb_eq in El.
    unfold matvec. rewrite map_map. apply nth_error_ext'. intros i. rewrite nth_error_map. destruct (nth_error fs i) as [phi|] eqn:Ei.
    - cbn [option_map]. assert (exists a, nth_error c i = Some a) as (a & Ha). { destruct (nth_error c i) as [a|] eqn:Ea; [exists a; reflexivity|]. apply nth_error_None in Ea. assert (i < length fs) by (apply nth_error_Some; congruence). lia. }
      rewrite Ha. f_equal. unfold dot, values. rewrite map2_map_r.
      rewrite <- (pick_coefficient (fun f => rsum (map2 (fun x w => rmul (rmul (phi x) (f x)) w) xs ws)) fs c i a Hc Ha); [|intros j f Hj; now apply Ho].
      rewrite <- quad_expand. clear -El. revert ws El. induction xs as [|x xs IH]; intros [|w ws] El; try discriminate El; [reflexivity|]. cbn [map2 rsum]. f_equal. apply IH. now injection El.
    - cbn [option_map]. symmetry. apply nth_error_None. rewrite Hc. now apply nth_error_None.
  Qed.

  Lemma n2m_quad_ok allow (from to : discr) (v c : dofs R) poly integral : degree_ok poly -> modal_ok E to -> nodal_ok E from ->
    Forall2 (fun g m => exact_for E poly integral g m /\ 2 * kd_order (dg_kind m) <= nm_exact_to E QuadratureSimplex (kd_dim (dg_kind g)) (kd_order (dg_kind g))) from to ->
    on_discr from v -> on_discr to c -> coefficients_of E from to v c -> n2m_pure E allow from to v = Ok c.
  Proof.
    intros (Hmono & Hmul) Hm Hn Hk Hv Hc Hco. unfold n2m_pure. rewrite <- (Forall2_length' _ _ _ Hv), Nat.eqb_refl. cbn [negb].
    destruct (mapM_enumerate (n2m_group E allow to v) (fun i g y => nth_error c i = Some y) from) as (c' & Hc' & Lc & Hq).
    - intros i g Hg. destruct (Forall2_nth_error _ _ _ _ _ Hk Hg) as (m & Hgm & (Hcl & Hnel & Hwl & Hex & Hpoly & Hon) & Hdeg).
      destruct (on_discr_rows _ _ _ _ Hv Hg) as (x & Hx & Lx & Hr). destruct (on_discr_rows _ _ _ _ Hc Hgm) as (a & Ha & La & Hra).
      destruct (proj1 (Forall_forall _ _) Hm m (nth_error_In _ _ Hgm)) as (Hmc & Hmd). destruct (proj1 (Forall_forall _ _) Hn g (nth_error_In _ _ Hg)) as (_ & Hng).
      exists a. split; [|exact Ha].
      assert (Hkeyed : keyed (dg_kind g)) by (unfold keyed, discretization_key; rewrite Hcl; eexists; reflexivity).
      destruct (keyed2 _ _ Hkeyed (modal_keyed _ Hmc)) as (key & Hkk).
      unfold n2m_group. cbn [fst snd]. unfold get. rewrite Hgm. cbn [bind]. cbv zeta. rewrite Hx. cbn [bind]. rewrite Hkk. cbn [bind]. rewrite Hcl.
      destruct (Nat.ltb_spec (nm_exact_to E QuadratureSimplex (kd_dim (dg_kind g)) (kd_order (dg_kind g))) (2 * kd_order (dg_kind m))) as [Hlt|_]; [lia|]. cbn [andb].
      destruct (vtw (basis E (dg_kind m)) (unit_nodes E (dg_kind g)) (weights E (dg_kind g))) as [M|e] eqn:EM.
      2: { unfold vtw in EM. rewrite Hwl, Nat.eqb_refl in EM. discriminate EM. }
      cbn [bind]. rewrite (einsum_ok M x (length (basis E (dg_kind m))) (dg_ndof g)).
      + f_equal. pose proof (Hco _ _ _ _ _ Hg Hgm Hx Ha) as F. rewrite Hmd in Hra. clear -F Hra EM Hmono Hmul Hex Hpoly Hon Hdeg. induction F as [|? w ? ? -> _ IH]; [reflexivity|]. inversion Hra; subst.
        cbn [map]. f_equal; [|now apply IH]. apply (vtw_values _ _ _ _ _ EM); [assumption|]. intros i j fi fj Hi Hj. rewrite <- (Hon i j fi fj Hi Hj). apply (Hex (fun x => rmul (fi x) (fj x))).
        apply (Hmono (kd_order (dg_kind m) + kd_order (dg_kind m))); [lia|]. apply Hmul; apply Hpoly; eapply nth_error_In; eauto.
      + unfold vtw in EM. rewrite Hwl, Nat.eqb_refl in EM. cbn [guard bind] in EM. injection EM as <-. split; [apply map_length|]. apply Forall_forall. intros row Hrow. apply in_map_iff in Hrow. destruct Hrow as (f & <- & _).
        rewrite map2_length; [congruence|]. now rewrite Hwl.
      + exact Hr.
    - rewrite Hc'. f_equal. apply nth_error_ext'. intros i. destruct (nth_error from i) as [g|] eqn:Eg.
      + destruct (nth_error c' i) as [y|] eqn:Ey; [symmetry; exact (Hq _ _ _ Eg Ey)|]. apply nth_error_None in Ey. assert (i < length from) by (apply nth_error_Some; congruence). lia.
      + apply nth_error_None in Eg. rewrite (proj2 (nth_error_None c' i)), (proj2 (nth_error_None c i)); [reflexivity| |lia]. rewrite <- (Forall2_length' _ _ _ Hc), <- (Forall2_length' _ _ _ Hk). exact Eg.
  Qed.

  (** Without permission to approximate, a result means that the rules are exact *)
  Lemma n2m_exact (from to : discr) (v c : dofs R) : n2m_pure E false from to v = Ok c ->
    forall i g m, nth_error from i = Some g -> nth_error to i = Some m -> kd_class (dg_kind g) = QuadratureSimplex ->
      2 * kd_order (dg_kind m) <= nm_exact_to E QuadratureSimplex (kd_dim (dg_kind g)) (kd_order (dg_kind g)).
  Proof.
    unfold n2m_pure. destruct (negb _); [discriminate|]. intros H i g m Hg Hm Hcl. pose proof (proj1 (mapM_ok _ _ _) H) as F.
    assert (He : nth_error (enumerate from) i = Some (i, g)) by (rewrite nth_error_enumerate, Hg; reflexivity).
    destruct (Forall2_nth_error _ _ _ _ _ F He) as (y & _ & Hy). unfold n2m_group in Hy. cbn [fst snd] in Hy. unfold get in Hy. rewrite Hm in Hy. cbn [bind] in Hy. cbv zeta in Hy. rewrite Hcl in Hy.
    destruct (Nat.ltb_spec (nm_exact_to E QuadratureSimplex (kd_dim (dg_kind g)) (kd_order (dg_kind g))) (2 * kd_order (dg_kind m))) as [Hlt|Hge]; [cbn [andb negb] in Hy; discriminate Hy|exact Hge].
  Qed.

  (** ** Derivatives *)
  Lemma foldM_matrices (mats : list mat) n axes m0 : Forall (is_mat n n) mats -> Forall (fun a => (0 <= a < Z.of_nat (length mats))%Z) axes -> is_mat n n m0 ->
    exists m, foldM (fun (m : option mat) a => next <- get mats (Z.to_nat a) ;; Ok (Some (match m with None => next | Some m => matmul n next m end))) axes (Some m0) = Ok (Some m) /\
      is_mat n n m /\ forall x, differentiated mats axes (matvec m0 x) (matvec m x).
  Proof.
    intros Hm Ha. revert m0. induction Ha as [|a axes Ha _ IH]; intros m0 H0; [exists m0; split; [reflexivity|]; split; [exact H0|]; intros x; constructor|].
    destruct (nth_error mats (Z.to_nat a)) as [next|] eqn:En; [|apply nth_error_None in En; lia].
    assert (Hn : is_mat n n next) by (apply (proj1 (Forall_forall _ _) Hm); eapply nth_error_In; eauto).
    destruct (IH (matmul n next m0)) as (m & Hf & Hmm & Hd); [eapply is_mat_matmul; eauto|]. exists m. cbn [foldM]. unfold get at 1. rewrite En. cbn [bind]. split; [exact Hf|]. split; [exact Hmm|].
    intros x. econstructor; [lia|exact En|]. rewrite <- (matvec_matmul _ n n n) by assumption. apply Hd.
  Qed.
  Lemma derivative_matrix_ok (k : kind R P) a axes n : is_interp (kd_class k) = true -> length (unit_nodes E k) = n -> Forall (is_mat n n) (nm_diffs E (basis E k) (unit_nodes E k)) ->
    Forall (fun a => (0 <= a < Z.of_nat (length (nm_diffs E (basis E k) (unit_nodes E k))))%Z) (a :: axes) ->
    exists m, derivative_matrix E k (a :: axes) = Ok m /\ is_mat n n m /\ forall x, differentiated (nm_diffs E (basis E k) (unit_nodes E k)) (a :: axes) x (matvec m x).
  Proof.
    intros Hi Hn Hm Ha. unfold derivative_matrix. rewrite Hi. cbn [guard bind]. cbv zeta. set (mats := nm_diffs E (basis E k) (unit_nodes E k)) in *. rewrite Hn. inversion Ha as [|? ? Ha0 Has]; subst.
    destruct (nth_error mats (Z.to_nat a)) as [m0|] eqn:En; [|apply nth_error_None in En; lia].
    assert (H0 : is_mat (length (unit_nodes E k)) (length (unit_nodes E k)) m0) by (apply (proj1 (Forall_forall _ _) Hm); eapply nth_error_In; eauto).
    destruct (foldM_matrices mats _ axes m0 Hm Has H0) as (m & Hf & Hmm & Hd). exists m. cbn [foldM]. unfold get at 1. rewrite En. cbn [bind]. rewrite Hf. cbn [bind]. split; [reflexivity|]. split; [exact Hmm|].
    intros x. econstructor; [lia|exact En|apply Hd].
  Qed.
  Lemma differentiated_fun mats axes x r r' : differentiated (R := R) mats axes x r -> differentiated mats axes x r' -> r = r'.
  Proof.
    intros H. revert r'. induction H as [x|a axes m x r Ha Hm _ IH]; intros r' H'; inversion H'; subst; [reflexivity|]. apply IH. congruence.
  Qed.
  Lemma differentiated_perm mats n axes axes' x r : commuting n mats -> Forall (is_mat n n) mats -> Permutation axes axes' -> length x = n ->
    differentiated (R := R) mats axes x r -> differentiated mats axes' x r.
  Proof.
    intros Hc Hm Hp. revert x r. induction Hp as [|a l l' _ IH|a b l|l l' l'' _ IH1 _ IH2]; intros x r Hx H; [exact H| | |].
    - inversion H; subst. econstructor; eauto. apply IH; [|assumption]. rewrite matvec_length.
      match goal with K : nth_error mats _ = Some ?m |- length ?m = _ => destruct (proj1 (Forall_forall _ _) Hm m (nth_error_In _ _ K)); assumption end.
    - inversion H as [|? ? m ? ? Hb0 Hmb H']; subst. inversion H' as [|? ? m' ? ? Ha0 Hma H'']; subst. econstructor; [exact Ha0|exact Hma|]. econstructor; [exact Hb0|exact Hmb|].
      rewrite (Hc m m') ; [exact H''| | |reflexivity]; eapply nth_error_In; eauto.
    - apply IH2; [exact Hx|]. apply IH1; [exact Hx|exact H].
  Qed.

  Lemma isort_Z_perm (l : list Z) : Permutation (isort Z.leb l) l.
  Proof. apply isort_perm. Qed.
  Lemma isort_Z_unique (l l' : list Z) : Permutation l l' -> isort Z.leb l = isort Z.leb l'.
  Proof.
    intros Hp. assert (HS : forall l, StronglySorted Z.le (isort Z.leb l)).
    { intros l0. assert (S0 : StronglySorted (fun a b => Z.leb a b = true) (isort Z.leb l0)) by (apply isort_sorted; intros; lia).
      induction S0 as [|a m _ IH HF]; constructor; [exact IH|]. eapply Forall_impl; [|exact HF]. intros b Hb. cbv beta in Hb. lia. }
    assert (HP : Permutation (isort Z.leb l) (isort Z.leb l')) by (rewrite !isort_Z_perm; exact Hp).
    pose proof (HS l) as S1. pose proof (HS l') as S2. revert S1 S2 HP. generalize (isort Z.leb l) (isort Z.leb l'). clear. intros u. induction u as [|a u IH]; intros [|b v] S1 S2 HP.
    - reflexivity.
    - apply Permutation_nil in HP. discriminate HP.
    - symmetry in HP. apply Permutation_nil in HP. discriminate HP.
    - inversion S1 as [|? ? S1' F1]; subst. inversion S2 as [|? ? S2' F2]; subst.
      assert (a = b).
      { assert (Ha : In a (b :: v)) by (eapply Permutation_in; [exact HP|now left]). assert (Hb : In b (a :: u)) by (eapply Permutation_in; [symmetry; exact HP|now left]).
        destruct Ha as [->|Ha]; [reflexivity|]. destruct Hb as [->|Hb]; [reflexivity|]. pose proof (proj1 (Forall_forall _ _) F1 _ Hb). pose proof (proj1 (Forall_forall _ _) F2 _ Ha). lia. }
      subst b. f_equal. apply IH; [assumption|assumption|]. eapply Permutation_cons_inv; exact HP.
  Qed.
  Lemma derivative_order d dim axes axes' frozen (vec : dofs R) : Permutation axes axes' -> derivative_pure E d dim axes frozen vec = derivative_pure E d dim axes' frozen vec.
  Proof.
    intros Hp. unfold derivative_pure. destruct (negb _); [reflexivity|]. destruct axes as [|a axes]; [apply Permutation_nil in Hp; subst; reflexivity|].
    destruct axes' as [|a' axes']; [symmetry in Hp; apply Permutation_nil in Hp; discriminate Hp|]. cbv zeta. now rewrite (isort_Z_unique _ _ Hp).
  Qed.

  Lemma derivative_ok d dim axes (vec : dofs R) : Forall (differentiable E dim) d -> Forall (fun a => (0 <= a < Z.of_nat dim)%Z) axes -> on_discr d vec ->
    exists r, derivative_pure E d dim axes false vec = Ok r /\ (axes <> [] -> on_discr d r) /\
      forall i g x y, nth_error d i = Some g -> nth_error vec i = Some x -> nth_error r i = Some y ->
        Forall2 (differentiated (nm_diffs E (basis E (dg_kind g)) (unit_nodes E (dg_kind g))) (isort Z.leb axes)) x y.
  Proof.
    intros Hd Ha Hv. unfold derivative_pure.
    assert (Hi : forallb (fun g : group => is_interp (kd_class (dg_kind g))) d = true).
    { apply forallb_forall. intros g Hg. exact (proj1 (proj1 (Forall_forall _ _) Hd g Hg)). }
    rewrite Hi. cbn [negb]. destruct axes as [|a0 axes0].
    { exists vec. split; [reflexivity|]. split; [intros N; now elim N|]. intros i g x y _ Hx Hy. rewrite Hx in Hy. injection Hy as <-. clear. induction x as [|w x IH]; constructor; [constructor|exact IH]. }
    cbv zeta. set (axes := isort Z.leb (a0 :: axes0)).
    assert (Hax : Forall (fun a => (0 <= a < Z.of_nat dim)%Z) axes) by (eapply Permutation_Forall; [symmetry; apply isort_Z_perm|exact Ha]).
    assert (Hne : exists a l, axes = a :: l). { destruct axes as [|a l] eqn:Ea; [|eauto]. pose proof (Permutation_length (isort_Z_perm (a0 :: axes0))) as L. fold axes in L. rewrite Ea in L. discriminate L. }
    clearbody axes. assert (Hb : forallb (fun a => Z.leb 0 a && Z.ltb a (Z.of_nat dim)) axes = true).
    { apply forallb_forall. intros a Hin. pose proof (proj1 (Forall_forall _ _) Hax a Hin) as Hr. cbv beta in Hr. apply andb_true_intro. split; [apply Z.leb_le; lia|apply Z.ltb_lt; lia]. }
    rewrite Hb. cbn [negb]. destruct Hne as (a & l & ->).
    match goal with |- context [mapM ?f (enumerate d)] => set (F := f) end.
    destruct (mapM_enumerate F (fun i g y => exists x, nth_error vec i = Some x /\ length y = dg_nel g /\ Forall (fun row => length row = dg_ndof g) y /\
       Forall2 (differentiated (nm_diffs E (basis E (dg_kind g)) (unit_nodes E (dg_kind g))) (a :: l)) x y) d) as (r & Hr & Lr & Hq).
    { intros i g Hg. destruct (proj1 (Forall_forall _ _) Hd g (nth_error_In _ _ Hg)) as (H1 & (key & H2) & H3 & H4 & H5).
      destruct (on_discr_rows _ _ _ _ Hv Hg) as (x & Hx & Lx & Hrx).
      rewrite <- H4 in Hax. destruct (derivative_matrix_ok (dg_kind g) a l (dg_ndof g) H1 (eq_sym H3) H5 Hax) as (m & Hm & Hmm & Hdm).
      exists (map (matvec m) x). split.
      - unfold F. cbn [fst snd]. unfold derivative_key. rewrite H2. cbn [bind]. rewrite Hm. cbn [bind]. unfold get. rewrite Hx. cbn [bind]. exact (einsum_ok _ _ _ _ Hmm Hrx).
      - exists x. split; [exact Hx|]. split; [rewrite map_length; exact Lx|]. split.
        + apply Forall_forall. intros row Hrow. apply in_map_iff in Hrow. destruct Hrow as (w & <- & _). rewrite matvec_length. exact (proj1 Hmm).
        + apply Forall2_map_r'. intros w _. apply Hdm. }
    exists r. split; [exact Hr|]. split.
    - intros _. apply on_discr_intro; [exact Lr|]. intros i g y Hg Hy. destruct (Hq _ _ _ Hg Hy) as (x & _ & H1 & H2 & _). auto.
    - intros i g x y Hg Hx Hy. destruct (Hq _ _ _ Hg Hy) as (x' & Hx' & _ & _ & H). rewrite Hx in Hx'. injection Hx' as <-. exact H.
  Qed.

  (** ** Node coordinates *)
  Lemma resample_ok (g : group) (mg : mgroup R P) ambient iaxis rows : (forall a b, nm_near E a b = true -> a = b) -> mgroup_ok E mg ambient -> nth_error (mg_nodes mg) iaxis = Some rows ->
    exists out, resample_mesh_nodes E g mg iaxis = Ok out /\ Forall2 (same_geometry E mg g) rows out.
  Proof.
    intros Hnear (Hu & Hi & _ & Hl) Hrows. apply nth_error_In in Hrows as Hin. pose proof (proj1 (Forall_forall _ _) Hl _ Hin) as Hl'. clear Hl Hin. unfold resample_mesh_nodes. unfold get. rewrite Hrows. cbn [bind].
    pose proof (unisolvent_inv E _ _ Hi Hu) as (W & HW & HWm & H1 & H2). destruct Hu as (_ & _ & Hfl & _ & _). destruct (nm_near E (unit_nodes E (dg_kind g)) (mg_unit mg)) eqn:En.
    - exists rows. split; [reflexivity|]. apply Forall2_intro_nth; [reflexivity|]. intros e row o Hr Ho. rewrite Hr in Ho. injection Ho as <-. apply nth_error_In in Hr. pose proof (proj1 (Forall_forall _ _) Hl' _ Hr) as Hlen. cbv beta in Hlen.
      exists (matvec W row). rewrite matvec_length, (Hnear _ _ En). split; [rewrite Hfl; exact (proj1 HWm)|]. split; symmetry; now apply H2.
    - rewrite HW. cbn [bind]. pose proof (vandermonde_mat (mg_basis mg) (unit_nodes E (dg_kind g))) as HV. rewrite Hfl in HV.
      rewrite (einsum_ok _ _ _ _ (is_mat_matmul _ _ _ _ _ _ HV HWm) Hl'). eexists. split; [reflexivity|]. apply Forall2_map_r'. intros row Hin. pose proof (proj1 (Forall_forall _ _) Hl' _ Hin) as Hlen. cbv beta in Hlen.
      exists (matvec W row). rewrite matvec_length. split; [rewrite Hfl; exact (proj1 HWm)|]. split; [symmetry; now apply H2|]. rewrite (matvec_matmul _ _ _ _ _ _ _ HV HWm). apply matvec_vandermonde.
  Qed.

  Lemma nodes_value (d : discr) (ms : list (mgroup R P)) ambient cached : (forall a b, nm_near E a b = true -> a = b) -> is_nodal d = true -> length d = length ms -> Forall (fun mg => mgroup_ok E mg ambient) ms ->
    exists r, snd (nodes E d ms ambient cached None) = Ok r /\ length r = ambient /\
      forall iaxis i g mg a rows, nth_error d i = Some g -> nth_error ms i = Some mg -> nth_error r iaxis = Some a -> nth_error (mg_nodes mg) iaxis = Some rows ->
        length a = length d /\ exists out, nth_error a i = Some out /\ Forall2 (same_geometry E mg g) rows out.
  Proof.
    intros Hnear Hn Hl Hm. unfold nodes. rewrite Hn. cbn [negb].
    assert (Hax : forall iaxis, iaxis < ambient -> exists a, mapM (fun gm : group * mgroup R P => resample_mesh_nodes E (fst gm) (snd gm) iaxis) (combine d ms) = Ok a /\ length a = length d /\
      forall i g mg rows, nth_error d i = Some g -> nth_error ms i = Some mg -> nth_error (mg_nodes mg) iaxis = Some rows -> exists out, nth_error a i = Some out /\ Forall2 (same_geometry E mg g) rows out).
    { intros iaxis Hi. destruct (mapM_total (fun gm : group * mgroup R P => resample_mesh_nodes E (fst gm) (snd gm) iaxis) (combine d ms)) as (a & Ha).
      - intros [g mg] Hin. cbn [fst snd]. apply in_combine_r in Hin. pose proof (proj1 (Forall_forall _ _) Hm _ Hin) as Hok. pose proof Hok as (_ & _ & Hla & _).
        destruct (nth_error (mg_nodes mg) iaxis) as [rows|] eqn:Er; [|apply nth_error_None in Er; lia]. destruct (resample_ok g mg ambient iaxis rows Hnear Hok Er) as (out & Hout & _). eauto.
      - exists a. split; [exact Ha|]. pose proof (proj1 (mapM_ok _ _ _) Ha) as FF. split; [rewrite <- (Forall2_length' _ _ _ FF), combine_length; lia|].
        intros i g mg rows Hg Hmg Hrows. assert (Hp : nth_error (combine d ms) i = Some (g, mg)) by (apply nth_error_combine'; assumption). destruct (Forall2_nth_error _ _ _ _ _ FF Hp) as (out & Hout & Hr). cbn [fst snd] in Hr.
        exists out. split; [exact Hout|]. pose proof (proj1 (Forall_forall _ _) Hm _ (nth_error_In _ _ Hmg)) as Hok. destruct (resample_ok g mg ambient iaxis rows Hnear Hok Hrows) as (out' & Hout' & H). congruence. }
    match goal with |- context [mapM ?f (seq 0 ambient)] => set (F := f) end.
    destruct (mapM_total F (seq 0 ambient)) as (r & Hr). { intros iaxis Hin. apply in_seq in Hin. destruct (Hax iaxis) as (a & Ha & _); [lia|]. exists a. exact Ha. }
    rewrite Hr. exists r. split; [reflexivity|]. pose proof (proj1 (mapM_ok _ _ _) Hr) as FF. pose proof (Forall2_length' _ _ _ FF) as Lr. rewrite seq_length in Lr. split; [symmetry; exact Lr|].
    intros iaxis i g mg a rows Hg Hmg Ha Hrows. assert (Hi : iaxis < ambient) by (rewrite Lr; apply nth_error_Some; intros N; pose proof (eq_trans (eq_sym Ha) N) as N'; discriminate N').
    assert (Hs : nth_error (seq 0 ambient) iaxis = Some iaxis) by (rewrite (nth_error_nth' _ 0) by (rewrite seq_length; lia); rewrite seq_nth by lia; reflexivity).
    destruct (Forall2_nth_error _ _ _ _ _ FF Hs) as (a' & Ha' & HFa). pose proof (eq_trans (eq_sym Ha) Ha') as Haa. injection Haa as <-. destruct (Hax iaxis Hi) as (a' & Ha2 & La & H). unfold F in HFa. rewrite Ha2 in HFa. injection HFa as ->.
    split; [exact La|]. eapply H; eauto.
  Qed.

  Lemma nodes_history (d : discr) ms ambient : forall flags st, (st = None \/ st = match snd (nodes E d ms ambient true None) with Ok r => Some r | Err _ => None end) ->
    Forall (fun r => r = snd (nodes E d ms ambient true None)) (node_calls E d ms ambient flags st).
  Proof.
    assert (Hflag : forall b, snd (nodes E d ms ambient b None) = snd (nodes E d ms ambient true None)).
    { intros b. unfold nodes. destruct (negb _); [reflexivity|]. destruct (mapM _ _); reflexivity. }
    induction flags as [|b flags IH]; intros st Hst; [constructor|]. cbn [node_calls]. destruct (nodes E d ms ambient b st) as [st' r] eqn:En.
    assert (Hr : r = snd (nodes E d ms ambient true None) /\ (st' = None \/ st' = match snd (nodes E d ms ambient true None) with Ok r => Some r | Err _ => None end)).
    { destruct Hst as [->|Hst].
      - split; [rewrite <- (Hflag b), En; reflexivity|]. unfold nodes in En |- *. destruct (negb _); [injection En as <- <-; now left|]. destruct (mapM _ _) as [x|e]; injection En as <- <-; [destruct b; [right; reflexivity|now left]|now left].
      - destruct (snd (nodes E d ms ambient true None)) as [x|e] eqn:Ex; subst st.
        + cbn [nodes] in En. injection En as <- <-. split; [reflexivity|now right].
        + split; [pose proof (Hflag b) as Hb; rewrite En in Hb; exact Hb|]. unfold nodes in En, Ex. destruct (negb _); [injection En as <- <-; now left|]. destruct (mapM _ _) as [x|e']; [discriminate Ex|]. injection En as <- <-. now left. }
    destruct Hr as (-> & Hst'). constructor; [reflexivity|]. now apply IH.
  Qed.
End More.
