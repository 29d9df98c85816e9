(** * DofProps: properties of DOF arrays *)
From Coq Require Import List Arith Bool ZArith Reals Lia Lra.
From Verif Require Import Np NpFacts DofModel DofSpec DofProofs.
Import ListNotations.

(** ** C40: serialisation and pickling *)
Theorem C40_serialize_roundtrip {X} (data : list X) : deserialize_dof true (serialize_dof data) = Ok data.
Proof.
  apply deserialize_iff. unfold serialize_dof. rewrite enumerate_fst, enumerate_snd', enumerate_length'. auto.
Qed.

Theorem C40_deserialize_sequence {X} (it : list (nat * X)) :
  (map fst it = seq 0 (length it) -> deserialize_dof true it = Ok (map snd it)) /\
  (map fst it <> seq 0 (length it) -> deserialize_dof true it = Err ValueError).
Proof. split; [intros H; apply deserialize_iff; auto|apply deserialize_error]. Qed.

Theorem C40_pickle_roundtrip {D Tag} (rethaw : nat -> @leaf D Tag -> @leaf D Tag) taggable has_axes tag_union p q own (x : @dofarray D Tag) :
  (forall t, tag_union [] t = t) -> rethaw_ok has_axes rethaw -> df_actx x = Some own ->
  exists s ls, getstate rethaw (Some p) x = Ok s /\ setstate taggable has_axes tag_union (Some q) s = Ok (mk_dof (Some q) ls) /\
    Forall2 (same_array taggable has_axes q) (map (rethaw p) (df_data x)) ls /\ map lf_data ls = map lf_data (df_data x).
Proof. intros. now apply pickle_roundtrip with (own := own). Qed.

Theorem C40_needs_context {D Tag} (rethaw : nat -> @leaf D Tag -> @leaf D Tag) taggable has_axes tag_union x s :
  getstate rethaw None x = Err RuntimeError /\ setstate (D := D) (Tag := Tag) taggable has_axes tag_union None s = Err RuntimeError.
Proof. split; reflexivity. Qed.

(** Whatever a program does, including exceptions and attempts at nesting, the context is as before afterwards *)
Theorem C40_context_restored {Out} (p : prog Out) tls : fst (fst (exec p tls)) = tls.
Proof. exact (exec_restores p tls). Qed.

(** Programs whose actions report the context they run in *)
Fixpoint reporting {Out} (p : prog (option nat * Out)) : Prop :=
  match p with
  | Act g => forall tls o, g tls = Ok o -> fst o = tls
  | Seq p q | Try p q => reporting p /\ reporting q
  | With _ p => reporting p
  end.
(** Everything inside the context sees the context given, also after refused attempts at nesting *)
Theorem C40_context_seen {Out} (p : prog (option nat * Out)) a : reporting p ->
  Forall (fun o => fst o = Some a) (snd (fst (exec (With (Some a) p) None))).
Proof.
  intros Hp. cbn [exec]. pose proof (exec_sees reporting a (fun p Hp => ltac:(destruct p; exact Hp)) p Hp) as H.
  destruct (exec p (Some a)) as [[tls o] e]. exact H.
Qed.
Theorem C40_no_nesting {Out} (p : prog Out) a b : exec (With (Some a) (With b p)) None = ((None, []), Some RuntimeError).
Proof. reflexivity. Qed.

(** Threads do not influence each other, however they are interleaved *)
Theorem C40_threads t evs s :
  map snd (filter (fun tr => fst tr =? t) (run_threads s evs)) = run_thread (s t) (map snd (filter (fun te => fst te =? t) evs)).
Proof. exact (threads_independent t evs s). Qed.

(** A small instance: contexts 0 (plain arrays) and 1 (arrays with tags and axes) *)
Definition ex_axes (a : nat) : bool := a =? 1.
Definition ex_rethaw (a : nat) (l : @leaf nat nat) : @leaf nat nat :=
  mk_leaf (lf_data l) (lf_ndim l) (if ex_axes a then Some (match lf_tags l with Some t => t | None => [] end) else None)
    (if ex_axes a then Some (match lf_axes l with Some x => if length x =? lf_ndim l then x else repeat [] (lf_ndim l) | None => repeat [] (lf_ndim l) end) else None).
Example C40_example :
  rethaw_ok ex_axes ex_rethaw /\
  (s <- getstate ex_rethaw (Some 1) (mk_dof (Some 1) [mk_leaf 10 2 (Some [5]) (Some [[6]; [7]]); mk_leaf 11 2 (Some []) (Some [[]; [8; 9]])]) ;;
   setstate ex_axes ex_axes (@app nat) (Some 1) s) =
  Ok (mk_dof (Some 1) [mk_leaf 10 2 (Some [5]) (Some [[6]; [7]]); mk_leaf 11 2 (Some []) (Some [[]; [8; 9]])]).
Proof.
  split; [|vm_compute; reflexivity]. intros a l. split; [reflexivity|]. split; [reflexivity|]. unfold ex_rethaw. cbn [lf_axes].
  destruct (ex_axes a); auto. split; auto. destruct (lf_axes l) as [x|]; [|apply repeat_length].
  destruct (length x =? lf_ndim l) eqn:E; [now apply Nat.eqb_eq|apply repeat_length].
Qed.
Example C40_program : exec (With (Some 3) (Seq (Act (fun t => Ok t)) (Seq (Try (With (Some 4) (Act (fun t => Ok t))) (Act (fun t => Ok t))) (Act (fun _ => Err ValueError))))) None =
  ((None, [Some 3; Some 3]), Some ValueError).
Proof. reflexivity. Qed.

(** ** C70: frozen arrays

    Documentation of DOFArray: "If array_context is None, the DOFArray is thawed into the array context given to
    array_context_for_pickling" *)
Theorem C70_frozen_arrays_refuted : exists (p : nat) (x : @dofarray nat nat), df_actx x = None /\
  (forall s, getstate ex_rethaw (Some p) x <> Ok s) /\ getstate ex_rethaw (Some p) x = Err AssertionError.
Proof. exists 1, (mk_dof None [mk_leaf 10 2 None None]). split; [reflexivity|]. split; [intros s H; discriminate|reflexivity]. Qed.

(** ** C41: norms *)
Notation real_norm modulus := (flat_norm 0%R Rplus Rmult Rmax Rmin sqrt rpow rootR positiveb modulus).

Theorem C41_flat_norm {X} (modulus : X -> R) o v r : (forall x, 0 <= modulus x)%R -> (forall p, o = Other p -> (0 < p)%R) ->
  real_norm modulus (Some o) v = Ok r -> is_norm o (map modulus (entries v)) r.
Proof.
  intros Hm Ho H. unfold flat_norm in H. destruct (norm_rec _ _ _ _ _ _ _ _ _ _ o v None) as [[a r']|] eqn:E; [|discriminate].
  cbn [bind snd] in H. injection H as <-. eapply norm_sound; eauto.
Qed.
Theorem C41_default_norm {X} (modulus : X -> R) v : real_norm modulus None v = real_norm modulus (Some Two) v.
Proof. reflexivity. Qed.
Theorem C41_defined {X} (modulus : X -> R) o a v : in_context a v -> supported o v -> exists r, real_norm modulus (Some o) v = Ok r.
Proof.
  intros Hc Hs. destruct (norm_total modulus o a v Hc Hs None (or_introl eq_refl)) as (b & r & H & _).
  exists r. unfold flat_norm. rewrite H. reflexivity.
Qed.
(** The norm is determined by the specification *)
Theorem C41_norm_unique o xs r r' : is_norm o xs r -> is_norm o xs r' -> r = r'.
Proof.
  destruct o as [| | |p]; cbn [is_norm].
  - intros (H1 & H2) (H3 & H4). assert (r * r = r' * r')%R by congruence. nra.
  - intros (H1 & H2) (H3 & H4). rewrite Forall_forall in *. specialize (H2 _ H3). specialize (H4 _ H1). lra.
  - intros (H1 & H2) (H3 & H4). rewrite Forall_forall in *. specialize (H2 _ H3). specialize (H4 _ H1). lra.
  - intros (Hp & H1 & H2) (_ & H3 & H4). assert (E : rpow p r = rpow p r') by congruence. clear H2 H4. unfold rpow in E.
    assert (G : forall a b, Rpower a b <> 0%R) by (intros a b E0; unfold Rpower in E0; pose proof (exp_pos (b * ln a)); lra).
    destruct (Req_EM_T r 0), (Req_EM_T r' 0); subst; auto; try (exfalso; now apply (G r' p)); try (exfalso; now apply (G r p)).
    unfold Rpower in E. apply exp_inv in E. apply Rmult_eq_reg_l in E; [|lra]. apply ln_inv; auto; lra.
Qed.
(** Frozen arrays and arrays of different contexts are rejected *)
Theorem C41_frozen_rejected {X} (modulus : X -> R) o d : real_norm modulus o (VDof None d) = Err ValueError.
Proof. reflexivity. Qed.

Definition ex_value : value Z := VCont [(0, VNum (-7)%Z); (1, VDof (Some 5) [[1; -2]; [4]]%Z); (2, VCont [(0, VDof (Some 5) [[3]]%Z)])].
(** the one-norm and the maximum norm, computed with integers *)
Example C41_example :
  flat_norm 0%Z Z.add Z.mul Z.max Z.min (fun x => x) (fun (_ : unit) x => x) (fun (_ : unit) x => x) (fun _ => true) Z.abs (Some (Other tt)) ex_value = Ok 17%Z /\
  flat_norm 0%Z Z.add Z.mul Z.max Z.min (fun x => x) (fun (_ : unit) x => x) (fun (_ : unit) x => x) (fun _ => true) Z.abs (Some Inf) ex_value = Ok 7%Z /\
  entries ex_value = [-7; 1; -2; 4; 3]%Z /\ in_context 5 ex_value /\ supported Inf ex_value.
Proof.
  split; [reflexivity|]. split; [reflexivity|]. split; [reflexivity|]. split; [cbn; auto|].
  cbn. repeat (split; try discriminate); try (repeat constructor; discriminate).
Qed.
(** An empty part makes the maximum norm fail although there are entries *)
Theorem C41_empty_part_refuted : exists v : value Z, entries v <> [] /\
  flat_norm 0%Z Z.add Z.mul Z.max Z.min (fun x => x) (fun (_ : unit) x => x) (fun (_ : unit) x => x) (fun _ => true) Z.abs (Some Inf) v = Err TypeError.
Proof. exists (VCont [(0, VNum 1%Z); (1, VCont [])]). split; [discriminate|reflexivity]. Qed.

(** ** C42: shapes *)
Theorem C42_check groups shapes :
  (Forall2 (fun g s => s = [fst g; snd g]) groups shapes -> check_dofarray groups (Some shapes) = Ok tt) /\
  (~ Forall2 (fun g s => s = [fst g; snd g]) groups shapes -> check_dofarray groups (Some shapes) = Err InconsistentDOFArray).
Proof. split; [apply check_iff|apply check_error]. Qed.
Theorem C42_not_a_dofarray groups : check_dofarray groups None = Err TypeError.
Proof. reflexivity. Qed.
Example C42_example : check_dofarray [(3, 6); (0, 4)] (Some [[3; 6]; [0; 4]]) = Ok tt /\ check_dofarray [(3, 6); (0, 4)] (Some [[3; 6]; [0]]) = Err InconsistentDOFArray.
Proof. split; reflexivity. Qed.

(** ** C69: mapping over containers *)
Theorem C69_rec_map_structure {X} (f : value X -> value X) v :
  (forall l, (forall kids, l <> VCont kids) -> shape_of (f l) = Leaf) -> shape_of (rec_map f v) = shape_of v.
Proof. exact (rec_map_shape f v). Qed.
Theorem C69_rec_map_leaves {X} (f : value X -> value X) v : leaves (rec_map f v) = flat_map (fun l => leaves (f l)) (leaves v).
Proof. exact (rec_map_leaves f v). Qed.
Theorem C69_rec_map_identity {X} (v : value X) : rec_map (fun l => l) v = v.
Proof. exact (rec_map_id v). Qed.
Theorem C69_rec_map_composition {X} (f g : value X -> value X) v : rec_map g (rec_map f v) = rec_map (fun l => rec_map g (f l)) v.
Proof. exact (rec_map_compose f g v). Qed.
Example C69_example : rec_map (fun l => match l with VDof a d => VDof a (map (map Z.opp) d) | l => l end) ex_value =
  VCont [(0, VNum (-7)%Z); (1, VDof (Some 5) [[-1; 2]; [-4]]%Z); (2, VCont [(0, VDof (Some 5) [[-3]]%Z)])].
Proof. reflexivity. Qed.

Print Assumptions C40_serialize_roundtrip.
Print Assumptions C40_deserialize_sequence.
Print Assumptions C40_pickle_roundtrip.
Print Assumptions C40_needs_context.
Print Assumptions C40_context_restored.
Print Assumptions C40_context_seen.
Print Assumptions C40_no_nesting.
Print Assumptions C40_threads.
Print Assumptions C41_flat_norm.
Print Assumptions C41_default_norm.
Print Assumptions C41_defined.
Print Assumptions C41_norm_unique.
Print Assumptions C41_frozen_rejected.
Print Assumptions C41_empty_part_refuted.
Print Assumptions C42_check.
Print Assumptions C42_not_a_dofarray.
Print Assumptions C69_rec_map_structure.
Print Assumptions C69_rec_map_leaves.
Print Assumptions C69_rec_map_identity.
Print Assumptions C69_rec_map_composition.
Print Assumptions C70_frozen_arrays_refuted.
