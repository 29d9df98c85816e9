(** * LoopyProps: which loops of a kernel run in parallel.

    C164 the loops afterwards and when there is an error, C165 what the result does not depend on, C166 kernels with two outputs. *)
From Coq Require Import List Arith Bool Lia Permutation.
From Verif Require Import Np NpFacts LoopyModel LoopySpec LoopyProofs.
Import ListNotations.

(** ** C164: loops over elements get g.0, loops over degrees of freedom are split

    The documented loops over elements are tagged g.0, those over degrees of freedom are split by 32 with an inner loop tagged l.0, and all others stay as they are.
    ValueError is raised exactly for kernels that are not allowed; kernels without metadata are left to the fallback. *)
Theorem C164_transformed_loops k : NoDup (map i_name (k_inames k)) ->
  match transform_loopy_program true true k with
  | Ok (Some ls) => allowed k /\ metadata k /\ loops_after k ls
  | Ok None => allowed k /\ ~ metadata k
  | Err e => e = ValueError /\ ~ allowed k
  end.
Proof. apply transform_spec. Qed.

Theorem C164_options rd nn k : rd && nn = false -> transform_loopy_program rd nn k = Err ValueError.
Proof. unfold transform_loopy_program. intros ->. reflexivity. Qed.

(** out[e, d] = ...; tmp[d] = ... in which only out is tagged; [e, d, j] are 0, 1, 2 *)
Definition lk : kernel := mk_kernel false false [mk_arg 10 true; mk_arg 11 false] [Assignment (LSub 10 [SVar 0; SVar 1]); MultiAssign [LSub 12 [SVar 1]]] [mk_iname 0 false false; mk_iname 1 false false; mk_iname 2 false false].
Example C164_example : NoDup (map i_name (k_inames lk)) /\ allowed lk /\ metadata lk /\
  transform_loopy_program true true lk = Ok (Some [(Whole 0, Some G0); (Outer 1, None); (Inner 1 32, Some L0); (Whole 2, None)]).
Proof.
  assert (H : NoDup (map i_name (k_inames lk))) by (repeat constructor; cbn; intuition lia). pose proof (C164_transformed_loops lk H) as C.
  assert (E : transform_loopy_program true true lk = Ok (Some [(Whole 0, Some G0); (Outer 1, None); (Inner 1 32, Some L0); (Whole 2, None)])) by reflexivity.
  rewrite E in C. destruct C as (C1 & C2 & _). auto.
Qed.

(** ** C165: the order of statements does not matter, and a tag on a kernel is one on its output *)
Theorem C165_statement_order f e args insns insns' inames : Permutation insns insns' ->
  transform_inner (mk_kernel f e args insns inames) = transform_inner (mk_kernel f e args insns' inames).
Proof. apply transform_perm. Qed.
Theorem C165_kernel_tag e args out ix inames :
  transform_inner (mk_kernel true e args [Assignment (LSub out ix)] inames) =
  transform_inner (mk_kernel false e (map (fun a => mk_arg (a_name a) (a_first a || (a_name a =? out))) args) [Assignment (LSub out ix)] inames).
Proof.
  unfold transform_inner, tag_output. cbn [k_first k_insns k_elwise k_args k_inames bind].
  assert (E : map (fun a => if a_name a =? out then mk_arg (a_name a) true else a) args = map (fun a => mk_arg (a_name a) (a_first a || (a_name a =? out))) args).
  { apply map_ext. intros (n, fst). cbn [a_name a_first]. destruct (n =? out); now rewrite ?orb_true_r, ?orb_false_r. }
  rewrite E. reflexivity.
Qed.
Definition lk_tagged (f : bool) : kernel := mk_kernel f false [mk_arg 10 (negb f)] [Assignment (LSub 10 [SVar 0; SVar 1])] [mk_iname 0 false false; mk_iname 1 false false].
Example C165_example : transform_inner (lk_tagged true) = transform_inner (lk_tagged false) /\
  transform_inner (lk_tagged true) = Ok (Some [(Whole 0, Some G0); (Outer 1, None); (Inner 1 32, Some L0)]).
Proof. split; [|reflexivity]. apply (C165_kernel_tag false [mk_arg 10 false] 10 [SVar 0; SVar 1]). Qed.

(** ** C166: a kernel with two outputs over the same degrees of freedom is rejected

    The second split of the loop fails, since it no longer exists. Each of the two statements alone is accepted, and so are two outputs that are indexed by
    elements only. *)
Definition two (insns : list insn) : kernel := mk_kernel false true [mk_arg 10 false; mk_arg 11 false] insns [mk_iname 0 false false; mk_iname 1 false false].
Theorem C166_two_outputs_refuted : exists s1 s2, well_formed (two [s1; s2]) /\ disjoint_loops (two [s1; s2]) /\
  transform_inner (two [s1; s2]) = Err ValueError /\
  transform_inner (two [s1]) = transform_inner (two [s2]) /\ transform_inner (two [s1]) <> Err ValueError.
Proof.
  exists (Assignment (LSub 10 [SVar 0; SVar 1])), (Assignment (LSub 11 [SVar 0; SVar 1])).
  assert (Ha : forall l, assigns (two [Assignment (LSub 10 [SVar 0; SVar 1]); Assignment (LSub 11 [SVar 0; SVar 1])]) l -> exists a, l = LSub a [SVar 0; SVar 1]).
  { intros l Hl. apply assigns_In in Hl. cbn in Hl. destruct Hl as [<-|[<-|[]]]; eauto. }
  split; [|split; [|split; [reflexivity|split; [reflexivity|discriminate]]]].
  - split; [discriminate|]. intros _ l Hl. apply Ha in Hl as (a & ->). intros _ [|[|axis]] s Hx; cbn [nth_error]; try lia; intros [= <-]; eexists; (split; [reflexivity|]); cbn; auto.
  - assert (Hi : forall axis n, axis < 2 -> indexes (two [Assignment (LSub 10 [SVar 0; SVar 1]); Assignment (LSub 11 [SVar 0; SVar 1])]) axis n -> n = axis).
    { intros axis n Hx (a & ix & Hl & _ & Hn). apply Ha in Hl as (a' & [= -> ->]). destruct axis as [|[|axis]]; cbn [nth_error] in Hn; [congruence|congruence|lia]. }
    assert (Ho : by_output (two [Assignment (LSub 10 [SVar 0; SVar 1]); Assignment (LSub 11 [SVar 0; SVar 1])])) by now left.
    intros n ([(_ & H1)|(H1 & _)] & [(_ & H2)|(H2 & _)]); try contradiction. apply Hi in H1; [|lia]. apply Hi in H2; [|lia]. lia.
Qed.

Print Assumptions C164_transformed_loops.
Print Assumptions C164_options.
Print Assumptions C165_statement_order.
Print Assumptions C165_kernel_tag.
Print Assumptions C166_two_outputs_refuted.
