(** * ModalProps: derivatives, nodal and modal data, L2 projection, node coordinates *)
From Coq Require Import List Arith Bool ZArith Lia Permutation.
From Verif Require Import Np NpFacts Lin ConnModel ConnSpec ConnProofs ConnFlatProofs ModalModel ModalSpec ModalProofs ModalSumProofs ModalL2Proofs.
Import ListNotations.

(** ** An environment for examples: lines, over the integers *)
(** Functions on the interval, orthonormal for the integral f 0 + f 1 *)
Definition ex_basis (dim order : nat) : list (Z -> Zcring) :=
  match order with
  | 0 => [fun _ => 1%Z]
  | 1 => [fun x => x; fun x => (x - 1)%Z]
  | _ => [fun x => x; fun x => (x - 1)%Z; fun x => (x * x - x)%Z]
  end.
Definition ex_nodes (c : gclass) (dim order : nat) : list Z :=
  match dim, order with 2, _ => [0; 1; 2; 3]%Z | _, 0 => [0]%Z | _, 1 => [0; 1]%Z | _, _ => [0; 1; 2]%Z end.
(** numpy.linalg.inv; knows the matrices of orders 0 and 1 *)
Definition ex_inv (V : list (list Zcring)) : res (list (list Zcring)) :=
  match V with
  | [[1]] => Ok [[1]]
  | [[0; -1]; [1; 0]] => Ok [[0; 1]; [-1; 0]]
  | _ => Err ValueError
  end%Z.
(** Differences on the interval, and on the corners (0,0), (1,0), (0,1), (1,1) of a square *)
Definition ex_diffs (fs : list (Z -> Zcring)) (xs : list Z) : list (list (list Zcring)) :=
  match length xs with
  | 2 => [[[-1; 1]; [-1; 1]]]%Z
  | 4 => [[[-1; 1; 0; 0]; [-1; 1; 0; 0]; [0; 0; -1; 1]; [0; 0; -1; 1]]; [[-1; 0; 1; 0]; [0; -1; 0; 1]; [-1; 0; 1; 0]; [0; -1; 0; 1]]]%Z
  | _ => []
  end.
Definition ex_jacdet (mats : list (list (list Zcring))) (xs : list Z) : list Zcring := match xs with [] => [] | _ :: l => 1%Z :: map (fun _ => 0%Z) l end.
Definition ex_near (a b : list Z) : bool := if list_eq_dec Z.eq_dec a b then true else false.
Definition ex_E : numerics Zcring Z :=
  mk_numerics Zcring Z ex_nodes (fun dim order _ => ex_nodes RecursiveNodes dim order) ex_basis ex_basis (fun _ _ => [])
    (fun c dim order => map (fun _ => 1%Z) (ex_nodes c dim order)) (fun _ xs => map (fun _ => 1%Z) xs) (fun _ _ o => 2 * o) ex_diffs ex_inv ex_jacdet (fun _ => true) ex_near.
Definition ex_kind (c : gclass) (dim order : nat) : kind Zcring Z := mk_kind Zcring Z c dim order 0 [] [].
Definition ex_group (c : gclass) (dim order nel : nat) : @dgroup (kind Zcring Z) :=
  mk_dgroup nel (match c with ModalSimplex => length (basis ex_E (ex_kind c dim order)) | _ => length (unit_nodes ex_E (ex_kind c dim order)) end) (ex_kind c dim order).

(** Equations between lists of integers *)
Ltac zcalc := cbv -[Z.add Z.mul Z.sub Z.opp]; repeat first [reflexivity|apply (f_equal2 cons); [lia|]].

(** The interval of order one *)
Lemma ex_unisolvent : unisolvent (R := Zcring) (ex_basis 1 1) [0; 1]%Z.
Proof.
  exists [[0; 1]; [-1; 0]]%Z. split; [split; [reflexivity|repeat constructor]|]. split; [reflexivity|]. split.
  - intros c Hc. destruct c as [|a [|b [|]]]; try discriminate Hc. zcalc.
  - intros c Hc. destruct c as [|a [|b [|]]]; try discriminate Hc. zcalc.
Qed.
Lemma ex_inv_ok : inv_ok ex_E (ex_basis 1 1) [0; 1]%Z.
Proof.
  intros W (Hl & Hw) H1 _. destruct W as [|r1 [|r2 [|]]]; try discriminate Hl. inversion Hw as [|? ? Hr1 Hw']; subst. inversion Hw' as [|? ? Hr2 _]; subst.
  destruct r1 as [|a [|b [|]]]; try discriminate Hr1. destruct r2 as [|c [|d [|]]]; try discriminate Hr2.
  pose proof (H1 [1; 0]%Z eq_refl) as E1. pose proof (H1 [0; 1]%Z eq_refl) as E2. cbv -[Z.add Z.mul Z.sub Z.opp] in E1, E2. injection E1 as A1 A2. injection E2 as B1 B2. cbn.
  assert (a = 0%Z) by lia. assert (b = 1%Z) by lia. assert (c = (-1)%Z) by lia. assert (d = 0%Z) by lia. subst. reflexivity.
Qed.

(** ** C100: memoisation on an array context cannot be observed *)
Theorem C100_history_independent (R : cring) (P : Type) (E : numerics R P) o s s' : reached E s -> reached E s' -> snd (run E o s) = snd (run E o s').
Proof. intros H H'. now rewrite (run_reached E o s H), (run_reached E o s' H'). Qed.
Print Assumptions C100_history_independent.

(** Matrices for groups of order 1 and for groups of the same order with another class are stored and do not get in each other's way. *)
Definition ex_history : list (op (R := Zcring) (P := Z)) :=
  [ODerivative [ex_group WarpAndBlend 1 1 1] 1 [0%Z] false [[[3; 5]]]%Z;
   ONodalToModal false [ex_group WarpAndBlend 1 1 1] [ex_group ModalSimplex 1 1 1] [[[3; 5]]]%Z;
   OModalToNodal [ex_group ModalSimplex 1 1 1] [ex_group EquidistantSimplex 1 2 1] [[[3; 5]]]%Z].
Definition ex_reached : actx Zcring := fold_left (fun s o => fst (run ex_E o s)) ex_history [].
Example C100_example : reached ex_E ex_reached /\ length ex_reached = 3 /\
  snd (run ex_E (OModalToNodal [ex_group ModalSimplex 1 1 1] [ex_group WarpAndBlend 1 1 1] [[[3; 5]]]%Z) ex_reached) = Ok [[[-5; 3]]]%Z.
Proof.
  split; [|split; reflexivity]. unfold ex_reached, ex_history. cbn [fold_left]. repeat apply reached_run. apply reached_new.
Qed.

(** ** C101: derivatives along several axes *)
(** The order in which axes are given does not matter. *)
Theorem C101_order (R : cring) (P : Type) (E : numerics R P) d dim axes axes' frozen vec s s' : reached E s -> reached E s' -> Permutation axes axes' ->
  snd (run E (ODerivative d dim axes frozen vec) s) = snd (run E (ODerivative d dim axes' frozen vec) s').
Proof. intros H H' Hp. rewrite (run_reached E _ s H), (run_reached E _ s' H'). now apply derivative_order. Qed.
Print Assumptions C101_order.

(** If the differentiation matrices commute, the result is the derivative along all the axes one after the other, in the order in which they are given. *)
Theorem C101_derivative (R : cring) (P : Type) (E : numerics R P) d dim axes vec s : reached E s -> Forall (differentiable E dim) d ->
  Forall (fun g => commuting (dg_ndof g) (nm_diffs E (basis E (dg_kind g)) (unit_nodes E (dg_kind g)))) d ->
  Forall (fun a => (0 <= a < Z.of_nat dim)%Z) axes -> on_discr d vec ->
  exists r, snd (run E (ODerivative d dim axes false vec) s) = Ok r /\ on_discr d r /\
    forall i g x y, nth_error d i = Some g -> nth_error vec i = Some x -> nth_error r i = Some y ->
      Forall2 (differentiated (nm_diffs E (basis E (dg_kind g)) (unit_nodes E (dg_kind g))) axes) x y.
Proof.
  intros Hs Hd Hc Ha Hv. rewrite (run_reached E _ s Hs). destruct (derivative_ok E d dim axes vec Hd Ha Hv) as (r & Hr & Hon & H). exists r. split; [exact Hr|]. split.
  - destruct axes as [|a axes]; [|apply Hon; discriminate]. cbn [run_pure] in Hr. unfold derivative_pure in Hr. destruct (negb _); [discriminate Hr|]. injection Hr as <-. exact Hv.
  - intros i g x y Hg Hx Hy. pose proof (H _ _ _ _ Hg Hx Hy) as F. destruct (on_discr_rows _ _ _ _ Hv Hg) as (x' & Hx' & _ & Hrows). rewrite Hx in Hx'. injection Hx' as <-.
    pose proof (proj1 (Forall_forall _ _) Hd g (nth_error_In _ _ Hg)) as (_ & _ & _ & _ & Hm). pose proof (proj1 (Forall_forall _ _) Hc g (nth_error_In _ _ Hg)) as Hcg. cbv beta in Hcg.
    clear -F Hrows Hm Hcg. induction F as [|u v x y Huv _ IH]; constructor; [|inversion Hrows; now apply IH]. inversion Hrows; subst. eapply differentiated_perm; [exact Hcg|exact Hm|apply isort_Z_perm|assumption|exact Huv].
Qed.
Print Assumptions C101_derivative.

(** Axes which do not exist are rejected. *)
Theorem C101_rejected (R : cring) (P : Type) (E : numerics R P) d dim axes frozen vec s : reached E s -> Exists (fun a => ~ (0 <= a < Z.of_nat dim)%Z) axes ->
  exists e, snd (run E (ODerivative d dim axes frozen vec) s) = Err e.
Proof.
  intros Hs Hx. rewrite (run_reached E _ s Hs). cbn [run_pure]. unfold derivative_pure. destruct (negb _); [eexists; reflexivity|]. destruct axes as [|a axes]; [inversion Hx|]. cbv zeta. destruct frozen; [eexists; reflexivity|].
  assert (Hb : forallb (fun a => Z.leb 0 a && Z.ltb a (Z.of_nat dim)) (isort Z.leb (a :: axes)) = false).
  { apply not_true_is_false. intros Hb. apply Exists_exists in Hx. destruct Hx as (b & Hin & Hb'). apply Hb'. rewrite forallb_forall in Hb.
    assert (Hin' : In b (isort Z.leb (a :: axes))) by (eapply Permutation_in; [symmetry; apply isort_Z_perm|exact Hin]). apply Hb in Hin'. apply andb_prop in Hin'. lia. }
  rewrite Hb. eexists. reflexivity.
Qed.
Print Assumptions C101_rejected.

(** Mixed derivative on a square *)
Example C101_example : Forall (differentiable ex_E 2) [ex_group EquidistantTP 2 1 1] /\
  Forall (fun g => commuting (dg_ndof g) (nm_diffs ex_E (basis ex_E (dg_kind g)) (unit_nodes ex_E (dg_kind g)))) [ex_group EquidistantTP 2 1 1] /\
  snd (run ex_E (ODerivative [ex_group EquidistantTP 2 1 1] 2 [1; 0]%Z false [[[1; 2; 5; 11]]]%Z) []) = Ok [[[5; 5; 5; 5]]]%Z.
Proof.
  split; [|split; [|reflexivity]].
  - repeat constructor. eexists. reflexivity.
  - repeat constructor. cbn. intros A B x HA HB Hx. destruct x as [|a [|b [|c [|e [|]]]]]; try discriminate Hx.
    destruct HA as [<-|[<-|[]]], HB as [<-|[<-|[]]]; try reflexivity; zcalc.
Qed.

(** ** C102: nodal to modal and back *)
Lemma to_from (R : cring) (P : Type) (E : numerics R P) from to : Forall2 (interpolates E) from to -> Forall2 (fun m g : @dgroup (kind R P) => keyed (dg_kind g) /\ dg_nel g = dg_nel m) to from.
Proof. induction 1 as [|g m from to (_ & Hk & Hn & _) _ IH]; constructor; auto. Qed.
(** On groups which interpolate in the space of the modal groups, NodalToModal finds the only coefficients that represent the data, and ModalToNodal recovers the data from them. *)
Theorem C102_nodal_modal_nodal (R : cring) (P : Type) (E : numerics R P) allow from to ary s s' : reached E s -> reached E s' ->
  nodal_ok E from -> modal_ok E to -> Forall2 (interpolates E) from to -> on_discr from ary ->
  exists c, snd (run E (ONodalToModal allow from to ary) s) = Ok c /\ on_discr to c /\ coefficients_of E from to ary c /\
    (forall c', on_discr to c' -> coefficients_of E from to ary c' -> c' = c) /\ snd (run E (OModalToNodal to from c) s') = Ok ary.
Proof.
  intros Hs Hs' Hn Hm Hi Ha. rewrite (run_reached E _ s Hs). destruct (n2m_interp_ok E allow from to ary Hn Hm Hi Ha) as (c & Hc & Hon & Hco & Hu). exists c. split; [exact Hc|]. split; [exact Hon|]. split; [exact Hco|]. split; [exact Hu|].
  rewrite (run_reached E _ s' Hs'). cbn [run_pure]. destruct (m2n_ok E to from c Hm Hn (to_from _ _ _ _ _ Hi) Hon) as (v & Hv & Hvon & Hvco). rewrite Hv. f_equal.
  eapply (coefficients_values E from to); [exact Hvon|exact Ha|exact Hon|exact (Forall2_length' _ _ _ Hi)|exact Hvco|exact Hco].
Qed.
Print Assumptions C102_nodal_modal_nodal.

(** And the other way round. *)
Theorem C102_modal_nodal_modal (R : cring) (P : Type) (E : numerics R P) allow from to c s s' : reached E s -> reached E s' ->
  nodal_ok E from -> modal_ok E to -> Forall2 (interpolates E) from to -> on_discr to c ->
  exists v, snd (run E (OModalToNodal to from c) s) = Ok v /\ on_discr from v /\ coefficients_of E from to v c /\ snd (run E (ONodalToModal allow from to v) s') = Ok c.
Proof.
  intros Hs Hs' Hn Hm Hi Hc. rewrite (run_reached E _ s Hs). destruct (m2n_ok E to from c Hm Hn (to_from _ _ _ _ _ Hi) Hc) as (v & Hv & Hvon & Hvco). exists v. split; [exact Hv|]. split; [exact Hvon|]. split; [exact Hvco|].
  rewrite (run_reached E _ s' Hs'). destruct (n2m_interp_ok E allow from to v Hn Hm Hi Hvon) as (c' & Hc' & _ & _ & Hu). cbn [run_pure]. rewrite Hc'. f_equal. symmetry. now apply Hu.
Qed.
Print Assumptions C102_modal_nodal_modal.

Definition ex_from : list (@dgroup (kind Zcring Z)) := [ex_group WarpAndBlend 1 1 2].
Definition ex_to : list (@dgroup (kind Zcring Z)) := [ex_group ModalSimplex 1 1 2].
Definition ex_ary : dofs Zcring := [[[3; 5]; [7; -2]]]%Z.
Example C102_example : nodal_ok ex_E ex_from /\ modal_ok ex_E ex_to /\ Forall2 (interpolates ex_E) ex_from ex_to /\ on_discr ex_from ex_ary /\
  snd (run ex_E (ONodalToModal false ex_from ex_to ex_ary) []) = Ok [[[5; -3]; [-2; -7]]]%Z.
Proof.
  split; [repeat constructor|]. split; [repeat constructor|]. split; [|split; [repeat constructor|reflexivity]].
  constructor; [|constructor]. split; [reflexivity|]. split; [eexists; reflexivity|]. split; [reflexivity|]. split; [reflexivity|]. split; [exact ex_unisolvent|exact ex_inv_ok].
Qed.

(** ** C103: nodal to modal by quadrature *)
(** Quadrature rules which are exact for products of basis functions recover the coefficients of every function in the space. *)
Theorem C103_quadrature (R : cring) (P : Type) (E : numerics R P) poly integral allow from to c s s' : reached E s -> reached E s' -> degree_ok poly ->
  nodal_ok E from -> modal_ok E to ->
  Forall2 (fun g m => exact_for E poly integral g m /\ 2 * kd_order (dg_kind m) <= nm_exact_to E QuadratureSimplex (kd_dim (dg_kind g)) (kd_order (dg_kind g))) from to ->
  on_discr to c ->
  exists v, snd (run E (OModalToNodal to from c) s) = Ok v /\ on_discr from v /\ coefficients_of E from to v c /\ snd (run E (ONodalToModal allow from to v) s') = Ok c.
Proof.
  intros Hs Hs' Hp Hn Hm Hq Hc. rewrite (run_reached E _ s Hs).
  assert (Hk : Forall2 (fun m g : @dgroup (kind R P) => keyed (dg_kind g) /\ dg_nel g = dg_nel m) to from).
  { clear -Hq. induction Hq as [|g m from to ((Hcl & Hn & _) & _) _ IH]; constructor; [|exact IH]. split; [|now symmetry]. unfold keyed, discretization_key. rewrite Hcl. eexists. reflexivity. }
  destruct (m2n_ok E to from c Hm Hn Hk Hc) as (v & Hv & Hvon & Hvco). exists v. split; [exact Hv|]. split; [exact Hvon|]. split; [exact Hvco|].
  rewrite (run_reached E _ s' Hs'). cbn [run_pure]. exact (n2m_quad_ok E allow from to v c poly integral Hp Hm Hn Hq Hvon Hc Hvco).
Qed.
Print Assumptions C103_quadrature.

(** Without permission to use approximate quadrature, there is no result unless the rules are exact. *)
Theorem C103_exact_only (R : cring) (P : Type) (E : numerics R P) from to v c s : reached E s -> snd (run E (ONodalToModal false from to v) s) = Ok c ->
  forall i g m, nth_error from i = Some g -> nth_error to i = Some m -> kd_class (dg_kind g) = QuadratureSimplex ->
    2 * kd_order (dg_kind m) <= nm_exact_to E QuadratureSimplex (kd_dim (dg_kind g)) (kd_order (dg_kind g)).
Proof. intros Hs H. rewrite (run_reached E _ s Hs) in H. exact (n2m_exact E from to v c H). Qed.
Print Assumptions C103_exact_only.

(** Polynomials *)
Inductive ex_poly : nat -> (Z -> Zcring) -> Prop :=
| ex_poly_const n c : ex_poly n (fun _ => c)
| ex_poly_shift a : ex_poly 1 (fun x => (x - a)%Z)
| ex_poly_id : ex_poly 1 (fun x => x)
| ex_poly_mul m n f g : ex_poly m f -> ex_poly n g -> ex_poly (m + n) (fun x => rmul (f x) (g x))
| ex_poly_le m n f : m <= n -> ex_poly m f -> ex_poly n f.
Definition ex_quad : list (@dgroup (kind Zcring Z)) := [ex_group QuadratureSimplex 1 1 2].
Example C103_example : degree_ok ex_poly /\ nodal_ok ex_E ex_quad /\
  Forall2 (fun g m => exact_for ex_E ex_poly (fun f => (f 0 + f 1)%Z) g m /\ 2 * kd_order (dg_kind m) <= nm_exact_to ex_E QuadratureSimplex (kd_dim (dg_kind g)) (kd_order (dg_kind g))) ex_quad ex_to /\
  snd (run ex_E (ONodalToModal false ex_quad ex_to ex_ary) []) = Ok [[[5; -3]; [-2; -7]]]%Z /\
  snd (run ex_E (ONodalToModal false ex_quad [ex_group ModalSimplex 1 2 2] ex_ary) []) = Err ValueError.
Proof.
  split; [split; [exact ex_poly_le|exact ex_poly_mul]|]. split; [repeat constructor|]. split; [|split; reflexivity].
  constructor; [|constructor]. split; [|cbn; lia]. split; [reflexivity|]. split; [reflexivity|]. split; [reflexivity|]. split; [|split].
  - intros f _. cbn. lia.
  - intros f [<-|[<-|[]]]; cbn; [exact ex_poly_id|exact (ex_poly_shift 1)].
  - intros i j fi fj Hi Hj. destruct i as [|[|i]]; cbn in Hi; [injection Hi as <-|injection Hi as <-|destruct i; discriminate Hi]; (destruct j as [|[|j]]; cbn in Hj; [injection Hj as <-|injection Hj as <-|destruct j; discriminate Hj]); reflexivity.
Qed.

(** ** C104: results of NodalToModal fit the modal discretization *)
Definition C104_fits (R : cring) (P : Type) : Prop :=
  forall (E : numerics R P) from to ary c s, reached E s -> nodal_ok E from -> modal_ok E to -> length from = length to ->
    Forall2 (fun g m => dg_nel m = dg_nel g /\ kd_dim (dg_kind m) = kd_dim (dg_kind g)) from to -> on_discr from ary ->
    snd (run E (ONodalToModal false from to ary) s) = Ok c -> on_discr to c.
(** The basis of the nodal group is used: a modal group of order two gets only two coefficients from a nodal group of order one. *)
Theorem C104_fits_refuted : ~ C104_fits Zcring Z.
Proof.
  intros H. pose proof (H ex_E ex_from [ex_group ModalSimplex 1 2 2] ex_ary [[[5; -3]; [-2; -7]]]%Z [] (reached_new ex_E)) as Hn.
  assert (Hon : on_discr (R := Zcring) [ex_group ModalSimplex 1 2 2] [[[5; -3]; [-2; -7]]]%Z).
  { apply Hn; [repeat constructor|repeat constructor|reflexivity| |repeat constructor|reflexivity]. constructor; [split; reflexivity|constructor]. }
  inversion Hon as [|? ? ? ? (_ & Hr) _]; subst. inversion Hr as [|? ? Hl _]; subst. discriminate Hl.
Qed.
Print Assumptions C104_fits_refuted.

(** ** C105: L2 projection undoes subdivision *)
(** For a connection (or chain of connections) in which target group i subdivides the elements of source group i, by rules which integrate products of
    basis functions exactly, the inverse recovers the data on the coarse elements. *)
Theorem C105_projection (R : cring) (P : Type) (E : numerics R P) rmat rpick eager nomerge x d e v u r s : reached E s -> invertible E rmat rpick x ->
  cnx_ok rmat rpick d x e -> on_discr d u -> l2_inverse E x = Ok v -> apply R rmat rpick eager nomerge x u = Ok r -> snd (run E (OProject v r) s) = Ok u.
Proof. intros Hs Hx Hok Hu Hv Hr. rewrite (run_reached E _ s Hs). cbn [run_pure]. eapply l2_chain; eauto. Qed.
Print Assumptions C105_projection.

(** Two elements of order one are split in two each.  The quadrature weights of the children select the points 0 and 1. *)
Definition ex_rmat (k : kind Zcring Z) (xs : list Z) : list (list Zcring) := map (fun x => [(1 - x)%Z; x]) xs.
Definition ex_rpick (k : kind Zcring Z) (xs : list Z) : option (list nat) := None.
Definition ex_split : @conn (list Z) (kind Zcring Z) :=
  mk_conn [ex_group WarpAndBlend 1 1 2] [ex_group WarpAndBlend 1 1 4] [[mk_batch 0 [0; 1] [0; 2] [0; 5]%Z None; mk_batch 0 [0; 1] [1; 3] [1; 7]%Z None]] true.
Lemma ex_split_ok : conn_ok ex_rmat ex_rpick ex_split.
Proof.
  repeat constructor; try (exists []; split; [cbn; lia|intros; discriminate]); try (eexists; split; [reflexivity|]; split; [repeat constructor|split; [reflexivity|repeat constructor]]).
Qed.
Lemma ex_split_invertible : invertible ex_E ex_rmat ex_rpick (Direct ex_split).
Proof.
  constructor; [exact ex_split_ok| |].
  - apply Forall2_cons; [|apply Forall2_nil]. apply Forall_forall. intros b Hb g Hg.
    destruct Hb as [<-|[<-|[]]]; cbn in Hg; injection Hg as <-; (split; [split; [reflexivity|repeat constructor]|intros ix x Hix; discriminate Hix]).
  - split; [reflexivity|]. split; [reflexivity|]. intros [|[|i]] f t bs Hf Ht Hb; try discriminate Hf. cbn in Hf, Ht, Hb. injection Hf as <-. injection Ht as <-. injection Hb as <-.
    split; [reflexivity|]. split; [reflexivity|]. split; [eexists; reflexivity|]. split; [reflexivity|]. split; [reflexivity|]. split; [exact ex_unisolvent|]. split; [discriminate|]. split; [|split].
    + intros k k' b b' t s s' Hk Hk' Hi Hi'. destruct k as [|[|[|]]], k' as [|[|[|]]]; cbn in Hk, Hk'; try discriminate Hk; try discriminate Hk'; injection Hk as <-; injection Hk' as <-; cbn in Hi, Hi';
        destruct Hi as [Hi|[Hi|[]]], Hi' as [Hi'|[Hi'|[]]]; injection Hi as <- <-; try discriminate Hi'; injection Hi' as <-; auto.
    + intros e i j fi fj He Hi Hj. cbn in He. destruct i as [|[|i]]; cbn in Hi; [injection Hi as <-|injection Hi as <-|destruct i; discriminate Hi]; (destruct j as [|[|j]]; cbn in Hj; [injection Hj as <-|injection Hj as <-|destruct j; discriminate Hj]);
        destruct e as [|[|e]]; try lia; reflexivity.
    + apply Forall_forall. intros b Hb. assert (Hv : forall x a, length a = 2 -> matvec (ex_rmat (ex_kind WarpAndBlend 1 1) x) (values (R := Zcring) (ex_basis 1 1) a [0; 1]%Z) = values (ex_basis 1 1) a x).
      { intros x a Ha. destruct a as [|a0 [|a1 [|]]]; try discriminate Ha. induction x as [|y x IH]; [reflexivity|]. unfold ex_rmat, values, matvec in *. cbn [map]. apply (f_equal2 cons); [|exact IH]. cbv -[Z.add Z.mul Z.sub Z.opp]. lia. }
      destruct Hb as [<-|[<-|[]]]; (split; [reflexivity|split; [reflexivity|split; [reflexivity|split; [intros a Ha; exact (Hv _ a Ha)|reflexivity]]]]).
Qed.
Example C105_example : cnx_ok ex_rmat ex_rpick [ex_group WarpAndBlend 1 1 2] (Direct ex_split) [ex_group WarpAndBlend 1 1 4] /\ l2_inverse ex_E (Direct ex_split) = Ok (InvDirect ex_split) /\
  apply Zcring ex_rmat ex_rpick false false (Direct ex_split) ex_ary = Ok [[[3; 13]; [5; 17]; [7; -38]; [-2; -56]]]%Z /\
  snd (run ex_E (OProject (InvDirect ex_split) [[[3; 13]; [5; 17]; [7; -38]; [-2; -56]]]%Z) []) = Ok ex_ary.
Proof. split; [exact (ok_direct ex_rmat ex_rpick ex_split ex_split_ok)|]. split; [reflexivity|]. split; reflexivity. Qed.

(** ** C106: L2 projection undoes subdivision, however the groups are numbered *)
(** Target group i subdivides source group p(i), for a permutation p *)
Definition C106_regrouped (R : cring) (P : Type) : Prop :=
  forall (E : numerics R P) rmat rpick c p u r v s, reached E s -> conn_ok rmat rpick c -> picks_agree rmat rpick c -> length (cn_from c) = length (cn_to c) -> Permutation p (seq 0 (length (cn_from c))) ->
    (forall i j f t bs, nth_error p i = Some j -> nth_error (cn_from c) j = Some f -> nth_error (cn_to c) i = Some t -> nth_error (cn_groups c) i = Some bs -> subdivides E rmat j f t bs) ->
    on_discr (cn_from c) u -> l2_inverse E (Direct c) = Ok v -> call R rmat rpick false false c u = Ok r -> snd (run E (OProject v r) s) = Ok u.
(** Source groups 0, 1, 2 become target groups 2, 0, 1.  The projection looks up data of target group batch.from_group_index. *)
Definition ex_rmat0 (k : kind Zcring Z) (xs : list Z) : list (list Zcring) := map (fun _ => [1%Z]) xs.
Definition ex_cycle : @conn (list Z) (kind Zcring Z) :=
  let g := ex_group WarpAndBlend 1 0 1 in
  mk_conn [g; g; g] [g; g; g] [[mk_batch 1 [0] [0] [0]%Z None]; [mk_batch 2 [0] [0] [0]%Z None]; [mk_batch 0 [0] [0] [0]%Z None]] true.
Theorem C106_regrouped_refuted : ~ C106_regrouped Zcring Z.
Proof.
  intros H. pose proof (H ex_E ex_rmat0 ex_rpick ex_cycle [1; 2; 0] [[[10]]; [[20]]; [[30]]]%Z [[[20]]; [[30]]; [[10]]]%Z (InvDirect ex_cycle) [] (reached_new ex_E)) as Hn.
  assert (snd (run ex_E (OProject (InvDirect ex_cycle) [[[20]]; [[30]]; [[10]]]%Z) []) = Ok [[[10]]; [[20]]; [[30]]]%Z).
  { apply Hn.
    - repeat constructor; try (exists []; split; [cbn; lia|intros; discriminate]); try (eexists; split; [reflexivity|]; split; [repeat constructor|split; [reflexivity|repeat constructor]]).
    - repeat constructor; cbn in *; repeat match goal with K : Some _ = Some _ |- _ => injection K as <- end; try reflexivity; try (repeat constructor; fail); intros; discriminate.
    - reflexivity.
    - cbn. apply (perm_trans (l' := [1; 0; 2])); [apply perm_skip, perm_swap|apply perm_swap].
    - intros i j f t bs Hi Hj Ht Hb.
      assert (Hg : f = ex_group WarpAndBlend 1 0 1) by (destruct j as [|[|[|j]]]; cbn in Hj; [injection Hj as <-; reflexivity..|destruct j; discriminate Hj]).
      assert (Hg' : t = ex_group WarpAndBlend 1 0 1) by (destruct i as [|[|[|i]]]; cbn in Ht; [injection Ht as <-; reflexivity..|destruct i; discriminate Ht]).
      assert (Hbs : bs = [mk_batch j [0] [0] [0]%Z None]) by (destruct i as [|[|[|i]]]; cbn in Hi, Hb; [injection Hi as <-; injection Hb as <-; reflexivity..|destruct i; discriminate Hi]).
      subst f t bs. split; [reflexivity|]. split; [reflexivity|]. split; [eexists; reflexivity|]. split; [reflexivity|]. split; [reflexivity|]. split; [|split; [discriminate|split; [|split]]].
      + exists [[1]]%Z. split; [repeat constructor|]. split; [reflexivity|]. split; intros c Hc; destruct c as [|a [|]]; try discriminate Hc; zcalc.
      + intros k k' b b' t s s' Hk Hk' Hin Hin'. destruct k as [|[|]], k' as [|[|]]; cbn in Hk, Hk'; try discriminate Hk; try discriminate Hk'. injection Hk as <-. injection Hk' as <-. cbn in Hin, Hin'. destruct Hin as [E1|[]], Hin' as [E2|[]]. injection E1 as <- <-. injection E2 as <-. auto.
      + intros e k l fk fl He Hk Hl. cbn in He. assert (e = 0) by lia. subst e. destruct k as [|[|]], l as [|[|]]; cbn in Hk, Hl; try discriminate Hk; try discriminate Hl. injection Hk as <-. injection Hl as <-. reflexivity.
      + constructor; [|constructor]. split; [reflexivity|]. split; [reflexivity|]. split; [reflexivity|]. split; [|reflexivity]. intros a Ha. destruct a as [|a0 [|]]; try discriminate Ha. zcalc.
    - repeat constructor.
    - reflexivity.
    - reflexivity. }
  vm_compute in H0. discriminate H0.
Qed.
Print Assumptions C106_regrouped_refuted.

(** A chain with an IdentityDiscretizationConnection, as make_same_mesh_connection returns it, has no inverse. *)
Definition C106_identities (R : cring) (P : Type) : Prop :=
  forall (E : numerics R P) rmat rpick c d s, reached E s -> invertible E rmat rpick (Direct c) -> d = cn_from c -> (exists v, l2_inverse E (Direct c) = Ok v) ->
    exists v, l2_inverse E (Chain None [Identity d; Direct c]) = Ok v.
Theorem C106_identities_refuted : ~ C106_identities Zcring Z.
Proof.
  intros H. destruct (H ex_E ex_rmat ex_rpick ex_split [ex_group WarpAndBlend 1 1 2] [] (reached_new ex_E) ex_split_invertible eq_refl (ex_intro _ (InvDirect ex_split) eq_refl)) as (v & Hv). discriminate Hv.
Qed.
Print Assumptions C106_identities_refuted.

(** ** C107: node coordinates *)
(** All calls of nodes() have the same result, whether values are cached or not. *)
Theorem C107_calls (R : cring) (P : Type) (E : numerics R P) d ms ambient flags : Forall (fun r => r = snd (nodes E d ms ambient true None)) (node_calls E d ms ambient flags None).
Proof. apply nodes_history. now left. Qed.
Print Assumptions C107_calls.

(** The nodes of a discretization are on the elements of the mesh: the element map of the mesh, evaluated at the unit nodes of the group. *)
Theorem C107_geometry (R : cring) (P : Type) (E : numerics R P) d ms ambient cached : (forall a b, nm_near E a b = true -> a = b) -> is_nodal d = true -> length d = length ms -> Forall (fun mg => mgroup_ok E mg ambient) ms ->
  exists r, snd (nodes E d ms ambient cached None) = Ok r /\ length r = ambient /\
    forall iaxis i g mg a rows, nth_error d i = Some g -> nth_error ms i = Some mg -> nth_error r iaxis = Some a -> nth_error (mg_nodes mg) iaxis = Some rows ->
      length a = length d /\ exists out, nth_error a i = Some out /\ Forall2 (same_geometry E mg g) rows out.
Proof. apply nodes_value. Qed.
Print Assumptions C107_geometry.

(** Two intervals in the plane, with three nodes each *)
Definition ex_mesh_group : mgroup Zcring Z := @mk_mgroup Zcring Z [[[0; 1]; [1; 3]]; [[5; 5]; [5; 4]]]%Z [0; 1]%Z (ex_basis 1 1).
Example C107_example : (forall a b, nm_near ex_E a b = true -> a = b) /\ mgroup_ok ex_E ex_mesh_group 2 /\
  snd (nodes ex_E [ex_group EquidistantSimplex 1 2 2] [ex_mesh_group] 2 true None) = Ok [[[[0; 1; 2]; [1; 3; 5]]]; [[[5; 5; 5]; [5; 4; 3]]]]%Z.
Proof.
  split; [|split; [|reflexivity]].
  - intros a b. cbn. unfold ex_near. destruct (list_eq_dec Z.eq_dec a b); [auto|discriminate].
  - split; [exact ex_unisolvent|]. split; [exact ex_inv_ok|]. split; [reflexivity|repeat constructor].
Qed.
