(** * QuadProps: C177, C178. *)
From Coq Require Import List Arith ZArith Lia Ring.
From Verif Require Import SplitProofs Np NpFacts Lin QuadModel QuadSpec QuadProofs.
Import ListNotations.

Section Props.
  Context {R : cring}.
  Add Ring Rqp : (rth R).
  Local Open Scope cring_scope.

  (** ** C177: the rule from the mass matrix has the interpolation nodes, and integrates every combination of basis functions exactly, for every
      functional for which the basis is orthonormal *)
  Theorem C177_mass_rule {P} inv (basis : list (P -> R)) (I : (P -> R) -> R) nodes B :
    linear_functional I -> orthonormal I basis -> unisolvent basis nodes -> spanned basis (fun _ => 1) ->
    inv (gram (vandermonde basis nodes)) = Ok B -> right_inverse (gram (vandermonde basis nodes)) B ->
    exists w, mass_rule inv basis nodes = Ok (nodes, w) /\ length w = length nodes /\ forall f, spanned basis f -> quad_sum nodes w f = I f.
  Proof.
    intros HI Ho Hu H1 EB HB. assert (E : exists rule, mass_rule inv basis nodes = Ok rule).
    { unfold mass_rule, mass_weights, mass_matrix. rewrite EB. cbn [bind]. rewrite (proj2 (Nat.eqb_eq _ _) (proj1 Hu)). cbn [guard bind]. eexists. reflexivity. }
    destruct E as ((x, w) & E). destruct (mass_exact basis I HI inv nodes (x, w) Ho Hu H1) as (A & L & H); [intros B' EB'; congruence|exact E|].
    cbn [fst snd] in *. subst x. now exists w.
  Qed.
  (** the number of functions and nodes must agree *)
  Theorem C177_count {P} inv (basis : list (P -> R)) nodes B : inv (gram (vandermonde basis nodes)) = Ok B -> length nodes <> length basis -> mass_rule inv basis nodes = Err ValueError.
  Proof. intros EB HL. unfold mass_rule, mass_weights, mass_matrix. rewrite EB. cbn [bind]. destruct (Nat.eqb_spec (length nodes) (length basis)); [contradiction|reflexivity]. Qed.

  (** a basis, nodes and a functional that fit together *)
  Definition fits inv (basis : list (R -> R)) (I : (R -> R) -> R) (x : list R) : Prop :=
    linear_functional I /\ orthonormal I basis /\ unisolvent basis x /\ spanned basis (fun _ => 1) /\
    exists B, inv (gram (vandermonde basis x)) = Ok B /\ right_inverse (gram (vandermonde basis x)) B.

  (** ** C178: for nodes that are a tensor product, the rule of a tensor product group has these nodes, and integrates products (and combinations
      of products) of functions of one coordinate exactly; unit_nodes_1d are the nodes on the first axis *)
  Theorem C178_tensor_rule inv allclose order (axes : list (list R)) bases Is :
    axes <> [] -> Forall (fun x => length x = (order + 1)%nat) axes -> length bases = length axes -> length Is = length axes ->
    (forall i b I x, nth_error bases i = Some b -> nth_error Is i = Some I -> nth_error axes i = Some x -> fits inv b I x) ->
    allclose (tp_nodes axes) (tp_nodes axes) = true ->
    exists w, tp_rule inv allclose (length axes) order bases (tp_nodes axes) = Ok (tp_nodes axes, w) /\
      (forall fs, length fs = length axes -> (forall i b f, nth_error bases i = Some b -> nth_error fs i = Some f -> spanned b f) ->
         quad_sum (tp_nodes axes) w (tensor fs) = rprod (map (fun If => fst If (snd If)) (combine Is fs))) /\
      (forall J, linear_functional J ->
         forall fss f, spanned (map tensor fss) f ->
           (forall fs, In fs fss -> length fs = length axes /\ (forall i b f, nth_error bases i = Some b -> nth_error fs i = Some f -> spanned b f) /\
              J (tensor fs) = rprod (map (fun If => fst If (snd If)) (combine Is fs))) ->
           quad_sum (tp_nodes axes) w f = J f).
  Proof.
    intros Hne Hx Lb LI Hf Hc. set (n := (order + 1)%nat) in *.
    assert (En : (if length axes =? 1 then length (tp_nodes axes) else n) = n).
    { destruct (Nat.eqb_spec (length axes) 1) as [E|_]; [|reflexivity]. rewrite (tp_nodes_length axes n Hx), E. apply Nat.pow_1_r. }
    assert (Hr : exists rules, mapM (fun ib => x <- axis_nodes n (fst ib) (tp_nodes axes) ;; mass_rule inv (snd ib) x) (enumerate bases) = Ok rules /\
      map fst rules = axes /\ forall i x w I b, nth_error rules i = Some (x, w) -> nth_error Is i = Some I -> nth_error bases i = Some b -> length w = length x /\ forall f, spanned b f -> quad_sum x w f = I f).
    { assert (HT : exists rules, Forall2 (fun ib r => (x <- axis_nodes n (fst ib) (tp_nodes axes) ;; mass_rule inv (snd ib) x) = Ok r) (enumerate bases) rules).
      { assert (exists rules, mapM (fun ib => x <- axis_nodes n (fst ib) (tp_nodes axes) ;; mass_rule inv (snd ib) x) (enumerate bases) = Ok rules) as (rules & E).
        { apply mapM_total. intros (i, b) Hin. cbn [fst snd]. apply In_enumerate in Hin. assert (Hi : (i < length axes)%nat) by (rewrite <- Lb; apply nth_error_Some; congruence).
          destruct (nth_error axes i) as [x|] eqn:Ex; [|apply nth_error_None in Ex; lia]. destruct (nth_error Is i) as [I|] eqn:EI; [|apply nth_error_None in EI; lia].
          destruct (Hf i b I x Hin EI Ex) as (A1 & A2 & A3 & A4 & B & A5 & A6). destruct (C177_mass_rule inv b I x B A1 A2 A3 A4 A5 A6) as (w & Ew & _). exists (x, w).
          rewrite (axis_nodes_tp axes n i x Hx Ex). exact Ew. }
        exists rules. now apply mapM_ok. }
      destruct HT as (rules & HT). exists rules. split; [now apply mapM_ok|].
      assert (Lr : length rules = length axes) by (rewrite <- (Forall2_length' _ _ _ HT), length_enumerate; exact Lb).
      assert (HN : forall i r, nth_error rules i = Some r -> exists b I x B, nth_error bases i = Some b /\ nth_error Is i = Some I /\ nth_error axes i = Some x /\
         fits inv b I x /\ inv (gram (vandermonde b x)) = Ok B /\ mass_rule inv b x = Ok r).
      { intros i r Er. destruct (Forall2_nth_error_r _ _ _ i r HT Er) as ((i', b) & Eb & E). rewrite nth_error_enumerate in Eb. destruct (nth_error bases i) as [b'|] eqn:Ebb; [|discriminate]. cbn [option_map] in Eb. injection Eb as <- <-.
        cbn [fst snd] in E. assert (Hi : (i < length axes)%nat) by (rewrite <- Lb; apply nth_error_Some; congruence).
        destruct (nth_error axes i) as [x|] eqn:Ex; [|apply nth_error_None in Ex; lia]. destruct (nth_error Is i) as [I|] eqn:EI; [|apply nth_error_None in EI; lia].
        rewrite (axis_nodes_tp axes n i x Hx Ex) in E. cbn [bind] in E. pose proof (Hf i b' I x Ebb EI Ex) as F. destruct F as (A1 & A2 & A3 & A4 & B & A5 & A6).
        exists b', I, x, B. repeat split; auto; try apply A1; try apply A3. exists B. split; auto. }
      split.
      - apply nth_error_ext'. intros i. rewrite nth_error_map. destruct (nth_error rules i) as [r|] eqn:Er; cbn [option_map].
        + destruct (HN i r Er) as (b & I & x & B & Eb & EI & Ex & F & EB & EM). rewrite Ex. destruct F as (A1 & A2 & A3 & A4 & B' & A5 & A6). destruct (C177_mass_rule inv b I x B' A1 A2 A3 A4 A5 A6) as (w & Ew & _).
          assert (r = (x, w)) by congruence. now subst r.
        + apply nth_error_None in Er. symmetry. apply nth_error_None. lia.
      - intros i x w I b Er EI Eb. destruct (HN i _ Er) as (b' & I' & x' & B & Eb' & EI' & Ex & F & EB & EM). assert (b' = b) by congruence. assert (I' = I) by congruence. subst b' I'.
        destruct F as (A1 & A2 & A3 & A4 & B' & A5 & A6). destruct (C177_mass_rule inv b I x' B' A1 A2 A3 A4 A5 A6) as (w' & Ew & Lw & Hw). assert (Exw : (x, w) = (x', w')) by congruence. injection Exw as -> ->. now split. }
    destruct Hr as (rules & Er & Em & Hq). exists (tp_weights (map snd rules)).
    assert (Lr : length rules = length axes) by (rewrite <- Em, map_length; reflexivity).
    assert (Hlen : Forall2 (fun x w => length x = length w) axes (map snd rules)).
    { apply Forall2_intro_nth; [now rewrite map_length|]. intros i x w Ex Ew. rewrite nth_error_map in Ew. destruct (nth_error rules i) as [(x', w')|] eqn:E; [|discriminate]. cbn [option_map snd] in Ew. injection Ew as ->.
      assert (Hi : (i < length axes)%nat) by (apply nth_error_Some; congruence). destruct (nth_error Is i) as [I|] eqn:EI; [|apply nth_error_None in EI; lia]. destruct (nth_error bases i) as [b|] eqn:Eb; [|apply nth_error_None in Eb; lia].
      destruct (Hq i x' w I b E EI Eb) as (L & _). assert (x' = x) by (rewrite <- Em, nth_error_map, E in Ex; cbn [option_map fst] in Ex; congruence). now subst x'. }
    assert (HP : forall fs, length fs = length axes -> (forall i b f, nth_error bases i = Some b -> nth_error fs i = Some f -> spanned b f) ->
         quad_sum (tp_nodes axes) (tp_weights (map snd rules)) (tensor fs) = rprod (map (fun If => fst If (snd If)) (combine Is fs))).
    { intros fs Lf Hs. rewrite (quad_tensor axes (map snd rules) fs Hlen Lf). f_equal. apply nth_error_ext'. intros i. rewrite !nth_error_map.
      destruct (lt_dec i (length axes)) as [Hi|Hi].
      - destruct (nth_error rules i) as [(x, w)|] eqn:E; [|apply nth_error_None in E; lia]. destruct (nth_error Is i) as [I|] eqn:EI; [|apply nth_error_None in EI; lia]. destruct (nth_error bases i) as [b|] eqn:Eb; [|apply nth_error_None in Eb; lia].
        destruct (nth_error fs i) as [f|] eqn:Ef; [|apply nth_error_None in Ef; lia].
        assert (E1 : nth_error (combine (combine axes (map snd rules)) fs) i = Some ((x, w), f)).
        { apply SplitProofs.nth_error_combine_Some. split; [|exact Ef]. apply SplitProofs.nth_error_combine_Some. split; [rewrite <- Em, nth_error_map, E; reflexivity|rewrite nth_error_map, E; reflexivity]. }
        assert (E2 : nth_error (combine Is fs) i = Some (I, f)) by (apply SplitProofs.nth_error_combine_Some; now split).
        rewrite E1, E2. cbn [option_map fst snd]. f_equal. destruct (Hq i x w I b E EI Eb) as (_ & H). apply H. now apply (Hs i).
      - rewrite !(proj2 (nth_error_None _ _)); [reflexivity|rewrite combine_length; lia|rewrite !combine_length; lia]. }
    split; [|split; [exact HP|]].
    - unfold tp_rule. fold n. rewrite En. rewrite (tp_nodes_length axes n Hx), Nat.eqb_refl. cbn [guard bind]. rewrite (proj2 (Nat.eqb_eq _ _) Lb). cbn [guard bind]. rewrite Er. cbn [bind]. rewrite Em, Hc. reflexivity.
    - intros J HJ fss f (c & Lc & Ec) Hfs. assert (HQ : linear_functional (quad_sum (tp_nodes axes) (tp_weights (map snd rules)))).
      { split; [|split]; unfold quad_sum.
        - intros g h E. f_equal. apply map_ext. exact E.
        - intros g h. apply dot_map_r.
        - intros a g. apply dot_map_scale. }
      destruct HQ as (Q1 & Q2 & Q3). rewrite (Q1 f _ Ec). rewrite (I_dot (quad_sum (tp_nodes axes) (tp_weights (map snd rules))) (conj Q1 (conj Q2 Q3))). destruct HJ as (J1 & J2 & J3). rewrite (J1 f _ Ec). rewrite (I_dot J (conj J1 (conj J2 J3))).
      f_equal. rewrite !map_map. apply map_ext_in. intros fs Hin. destruct (Hfs fs Hin) as (L & S & E). rewrite E. now apply HP.
  Qed.
  Theorem C178_unit_nodes_1d order (x : list R) axes : length x = (order + 1)%nat -> Forall (fun y => length y = (order + 1)%nat) axes -> unit_nodes_1d order (tp_nodes (x :: axes)) = Ok x.
  Proof.
    intros Lx Hx. destruct (tp_nodes_first axes (order + 1) Hx ltac:(lia)) as (t & Ht). unfold unit_nodes_1d. cbn [tp_nodes]. destruct (tp_nodes axes) as [|t' l]; [discriminate|]. cbn [flat_map].
    rewrite firstn_app, map_length, Lx, Nat.sub_diag, firstn_O, app_nil_r, firstn_all2 by (rewrite map_length; lia).
    assert (E : mapM (fun p => get p 0) (map (fun a => a :: t') x) = Ok x).
    { clear. induction x as [|a x IH]; [reflexivity|]. cbn [map mapM]. rewrite IH. reflexivity. }
    rewrite E. cbn [bind]. rewrite Lx, Nat.eqb_refl. reflexivity.
  Qed.
  (** nodes that are not a tensor product are rejected *)
  Theorem C178_other_nodes inv allclose dim order bases (nodes : list (list R)) r : tp_rule inv allclose dim order bases nodes = Ok r -> allclose (fst r) nodes = true /\ exists axes, fst r = tp_nodes axes.
  Proof.
    unfold tp_rule. intros E. apply bind_ok in E as (u & _ & E). apply bind_ok in E as (u' & _ & E). apply bind_ok in E as (rules & _ & E). apply bind_ok in E as (u'' & Eg & E). injection E as <-. cbn [fst].
    split; [|now eexists]. unfold guard in Eg. now destruct (allclose (tp_nodes (map fst rules)) nodes).
  Qed.
End Props.

(** the sum of the values at 0 and 1, linear functions, nodes 1 and 2 *)
Definition ex_I (f : Zcring -> Zcring) : Zcring := (f 0 + f 1)%Z.
Definition ex_basis : list (Zcring -> Zcring) := [fun x => (1 - x)%Z; fun x => x].
Definition ex_inv (A : list (list Zcring)) : res (list (list Zcring)) := match A with [[1%Z; 2%Z]; [2%Z; 5%Z]] => Ok [[5; -2]; [-2; 1]]%Z | _ => Err ValueError end.
Lemma ex_fits : fits ex_inv ex_basis ex_I [1; 2]%Z.
Proof.
  unfold fits. split; [|split; [|split; [|split]]].
  - split; [|split]; unfold ex_I; cbn [radd rmul Zcring car]; intros; [rewrite !H; reflexivity|lia|lia].
  - intros [|[|i]] [|[|j]] f g Ef Eg; cbn [nth_error ex_basis] in *; try (now destruct i); try (now destruct j); injection Ef as <-; injection Eg as <-; reflexivity.
  - split; [reflexivity|]. intros [|c0 [|c1 [|? ?]]] [|d0 [|d1 [|? ?]]] Lc Ld H; try discriminate. pose proof (H 1%Z ltac:(cbn; tauto)) as H1. pose proof (H 2%Z ltac:(cbn; tauto)) as H2.
    unfold dot in *. cbn [map map2 rsum ex_basis radd rmul r0 Zcring] in *. assert (c0 = d0) by lia. assert (c1 = d1) by lia. congruence.
  - exists [1; 1]%Z. split; [reflexivity|]. intros p. unfold dot. cbn [map map2 rsum ex_basis radd rmul r0 r1 Zcring]. lia.
  - exists [[5; -2]; [-2; 1]]%Z. split; [reflexivity|]. split; [reflexivity|]. intros [|v0 [|v1 [|? ?]]] L; try discriminate.
    unfold matvec, gram, vandermonde, dot. cbn [map map2 rsum ex_basis radd rmul r0 Zcring]. f_equal; [lia|f_equal; lia].
Qed.
Example C177_example : mass_rule ex_inv ex_basis [1; 2]%Z = Ok ([1; 2], [3; -1])%Z.
Proof. reflexivity. Qed.
Example C178_example : fits ex_inv ex_basis ex_I [1; 2]%Z /\
  tp_rule ex_inv (fun _ _ => true) 2 1 [ex_basis; ex_basis] (tp_nodes (R := Zcring) [[1; 2]; [1; 2]]%Z) = Ok ([[1; 1]; [2; 1]; [1; 2]; [2; 2]], [9; -3; -3; 1])%Z /\
  unit_nodes_1d (R := Zcring) 1 [[1; 1]; [2; 1]; [1; 2]; [2; 2]]%Z = Ok [1; 2]%Z.
Proof. split; [exact ex_fits|]. split; reflexivity. Qed.

Print Assumptions C177_mass_rule.
Print Assumptions C177_count.
Print Assumptions C178_tensor_rule.
Print Assumptions C178_unit_nodes_1d.
Print Assumptions C178_other_nodes.
