(** * ModalMoreProps: conditions under which modal connections exist (C103-C105). *)
From Coq Require Import List Arith Bool ZArith Lia.
From Verif Require Import Np NpFacts Lin ConsistProofs ConnModel ModalModel ModalSpec ModalProps.
Import ListNotations.

(** ** C104: connections are made exactly between nodal and modal discretizations of one mesh *)
Theorem C104_made (R : cring) (P : Type) (same_mesh : bool) (nodal modal : list (@dgroup (kind R P))) : make_connection_check same_mesh nodal modal = Ok tt <->
  Forall (fun g => kd_class (dg_kind g) <> ModalSimplex /\ kd_class (dg_kind g) <> ModalTensorProduct) nodal /\
  Forall (fun g => kd_class (dg_kind g) = ModalSimplex \/ kd_class (dg_kind g) = ModalTensorProduct) modal /\ same_mesh = true.
Proof.
  unfold make_connection_check. rewrite !guard_bind, guard_tt. unfold is_nodal, is_modal. rewrite !forallb_forall, !Forall_forall.
  assert (E : forall c, is_modal_class c = true <-> c = ModalSimplex \/ c = ModalTensorProduct).
  { intros c; destruct c; cbn; split; try discriminate; auto; intros [H|H]; discriminate. }
  assert (E' : forall c, is_nodal_class c = true <-> c <> ModalSimplex /\ c <> ModalTensorProduct).
  { intros c. unfold is_nodal_class. rewrite negb_true_iff. destruct (is_modal_class c) eqn:K.
    - apply E in K. split; [discriminate|]. intros (H1 & H2). destruct K; contradiction.
    - split; [|reflexivity]. intros _. split; intros ->; discriminate K. }
  setoid_rewrite E. setoid_rewrite E'. tauto.
Qed.
Print Assumptions C104_made.

Example C104_made_example : make_connection_check true ex_from [ex_group ModalSimplex 1 2 2] = Ok tt /\
  make_connection_check true ex_from ex_from = Err ValueError /\ make_connection_check true [ex_group ModalSimplex 1 2 2] [ex_group ModalSimplex 1 2 2] = Err ValueError.
Proof. vm_compute. auto. Qed.

(** ** C105: an inverse exists exactly if dimensions agree and all the groups of the target have orthonormal bases *)
Theorem C105_exists (R : cring) (P : Type) (E : numerics R P) (c : conn) v : l2_inverse E (Direct c) = Ok v <->
  v = InvDirect c /\ cn_from c <> [] /\ cn_to c <> [] /\ (exists d, Forall (fun g => kd_dim (dg_kind g) = d) (cn_from c ++ cn_to c)) /\
  Forall (fun g => kd_class (dg_kind g) <> QuadratureSimplex /\ nm_orthonormal E (dg_kind g) = true) (cn_to c).
Proof.
  cbn [l2_inverse].
  assert (Hdim : forall (d : list (@dgroup (kind R P))) n, discr_dim d = Ok n <-> d <> [] /\ Forall (fun g => kd_dim (dg_kind g) = n) d).
  { intros [|g d] n; cbn [discr_dim]; [split; [discriminate|intros (H & _); now contradiction H]|]. rewrite guard_bind, forallb_forall, Forall_cons_iff, Forall_forall. split.
    - intros (H & [= <-]). split; [discriminate|]. split; [reflexivity|]. intros x Hx. symmetry. now apply Nat.eqb_eq, H.
    - intros (_ & <- & H). split; [|reflexivity]. intros x Hx. apply Nat.eqb_eq. symmetry. now apply H. }
  assert (Ho : all_orthonormal E (cn_to c) = Ok true <-> Forall (fun g => kd_class (dg_kind g) <> QuadratureSimplex /\ nm_orthonormal E (dg_kind g) = true) (cn_to c)).
  { induction (cn_to c) as [|g d IH]; cbn [all_orthonormal]; [split; [constructor|reflexivity]|].
    assert (Hd : (if nm_orthonormal E (dg_kind g) then all_orthonormal E d else Ok false) = Ok true <->
      nm_orthonormal E (dg_kind g) = true /\ Forall (fun g => kd_class (dg_kind g) <> QuadratureSimplex /\ nm_orthonormal E (dg_kind g) = true) d).
    { destruct (nm_orthonormal E (dg_kind g)); [rewrite IH; tauto|]. split; [discriminate|intros (H & _); discriminate H]. }
    rewrite Forall_cons_iff. destruct (kd_class (dg_kind g)) eqn:K; try (rewrite Hd; split; [intros (H1 & H2); split; [split; [discriminate|exact H1]|exact H2]|intros ((_ & H1) & H2); auto]).
    split; [discriminate|]. intros ((H & _) & _). now contradiction H. }
  split.
  - intros H. apply bind_ok in H as (df & Hf & H). apply bind_ok in H as (dt & Ht & H). apply guard_bind in H as (Hd & H). apply Nat.eqb_eq in Hd as ->.
    apply bind_ok in H as (o & Eo & H). apply guard_bind in H as (-> & H). injection H as <-. apply Hdim in Hf as (Hf1 & Hf2). apply Hdim in Ht as (Ht1 & Ht2).
    split; [reflexivity|]. split; [exact Hf1|]. split; [exact Ht1|]. split; [|tauto]. exists dt. now apply Forall_app.
  - intros (-> & Hf & Ht & (d & Hd) & H). apply Forall_app in Hd as (Hd1 & Hd2). rewrite (proj2 (Hdim _ d) (conj Hf Hd1)), (proj2 (Hdim _ d) (conj Ht Hd2)). cbn [bind].
    rewrite Nat.eqb_refl. cbn [guard bind]. rewrite (proj2 Ho H). reflexivity.
Qed.
Print Assumptions C105_exists.
Example C105_exists_example : l2_inverse ex_E (Direct ex_split) = Ok (InvDirect ex_split).
Proof. reflexivity. Qed.

(** ** C103: the weights of groups with given nodes and basis integrate this basis if modepy's mass weights do *)
Theorem C103_given (R : cring) (P : Type) (E : numerics R P) (k : kind R P) (integral : (P -> R) -> R) : kd_class k = TensorProductGiven ->
  (forall f, In f (kd_gbasis k) -> dot (nm_mass_weights E (kd_gbasis k) (kd_given k)) (map f (kd_given k)) = integral f) ->
  forall f, In f (kd_gbasis k) -> dot (weights E k) (map f (unit_nodes E k)) = integral f.
Proof. intros Hk H f Hf. unfold weights, basis, unit_nodes. rewrite Hk. now apply H. Qed.
Print Assumptions C103_given.
(** ... the same for all classes with given nodes and the basis of their space *)
Theorem C103_given_nodes (R : cring) (P : Type) (E : numerics R P) (k : kind R P) (integral : (P -> R) -> R) :
  kd_class k = GivenNodes \/ kd_class k = TensorProductGiven \/ kd_class k = LegendreTensorProduct ->
  (forall f, In f (basis E k) -> dot (nm_mass_weights E (basis E k) (kd_given k)) (map f (kd_given k)) = integral f) ->
  unit_nodes E k = kd_given k /\ forall f, In f (basis E k) -> dot (weights E k) (map f (unit_nodes E k)) = integral f.
Proof. intros Hk H. assert (Hn : unit_nodes E k = kd_given k) by (unfold unit_nodes; destruct Hk as [Hk|[Hk|Hk]]; now rewrite Hk). split; [exact Hn|].
  intros f Hf. unfold weights. rewrite Hn. destruct Hk as [Hk|[Hk|Hk]]; rewrite Hk; now apply H. Qed.
Print Assumptions C103_given_nodes.
(** the functions 1 and x with the end points of [-1, 1] *)
Definition ex_given : kind Zcring Z := mk_kind Zcring Z TensorProductGiven 1 1 0 [-1; 1]%Z [(fun _ => 1%Z); (fun x => x)].
Example C103_given_example : map (fun f => dot (weights ex_E ex_given) (map f (unit_nodes ex_E ex_given))) (kd_gbasis ex_given) = [2; 0]%Z /\
  forall f, In f (kd_gbasis ex_given) -> dot (nm_mass_weights ex_E (kd_gbasis ex_given) (kd_given ex_given)) (map f (kd_given ex_given)) = (f (-1) + f 1)%Z.
Proof. split; [vm_compute; reflexivity|]. intros f [<-|[<-|[]]]; vm_compute; reflexivity. Qed.
Definition ex_given_nodes : kind Zcring Z := mk_kind Zcring Z GivenNodes 1 1 0 [-1; 1]%Z [].
Example C103_given_nodes_example : length (basis ex_E ex_given_nodes) = 2 /\ unit_nodes ex_E ex_given_nodes = [-1; 1]%Z /\
  forall f, In f (basis ex_E ex_given_nodes) -> dot (weights ex_E ex_given_nodes) (map f (unit_nodes ex_E ex_given_nodes)) = (f (-1) + f 1)%Z.
Proof. split; [reflexivity|]. split; [reflexivity|]. vm_compute. intros f [<-|[<-|[]]]; reflexivity. Qed.
