(** * LoopySpec: loops over elements and over degrees of freedom, as the tags are documented
    (meshmode/transform_metadata.py). *)
From Coq Require Import List Arith Bool.
From Verif Require Import Np LoopyModel.
Import ListNotations.

(** ** What counts as output *)
Definition targets (s : insn) : list lhs :=
  match s with Assignment l => [l] | MultiAssign ls => ls | NoAssign => [] end.
Definition assigns (k : kernel) (l : lhs) : Prop := exists s, In s (k_insns k) /\ In l (targets s).
(** the first axis of [a] is over elements: any output of an elementwise kernel, tagged arguments, the single output argument of a tagged kernel *)
Definition is_marked (k : kernel) (a : nat) : bool :=
  k_elwise k || existsb (fun x => (a_name x =? a) && (a_first x || k_first k)) (k_args k).
Definition marked (k : kernel) (a : nat) : Prop := is_marked k a = true.
Definition by_output (k : kernel) : Prop := k_elwise k = true \/ exists x, In x (k_args k) /\ (a_first x = true \/ (k_first k = true /\ exists ix, assigns k (LSub (a_name x) ix))).

(** [n] is the subscript of an output along [axis] *)
Definition indexes (k : kernel) (axis n : nat) : Prop := exists a ix, assigns k (LSub a ix) /\ marked k a /\ nth_error ix axis = Some (SVar n).
Definition element_loop (k : kernel) (n : nat) : Prop :=
  (by_output k /\ indexes k 0 n) \/ (~ by_output k /\ exists i, In i (k_inames k) /\ i_name i = n /\ i_el i = true).
Definition dof_loop (k : kernel) (n : nat) : Prop :=
  (by_output k /\ indexes k 1 n) \/ (~ by_output k /\ exists i, In i (k_inames k) /\ i_name i = n /\ i_dof i = true).

(** ** The loops afterwards *)
Definition loop_after (k : kernel) (n : nat) (part : loops) : Prop :=
  (dof_loop k n -> part = [(Outer n, None); (Inner n 32, Some L0)]) /\
  (element_loop k n -> part = [(Whole n, Some G0)]) /\
  (~ dof_loop k n -> ~ element_loop k n -> part = [(Whole n, None)]).
Definition loops_after (k : kernel) (ls : loops) : Prop :=
  exists parts, ls = concat parts /\ Forall2 (loop_after k) (map i_name (k_inames k)) parts.

(** ** Kernels that can be transformed *)
Definition known (k : kernel) (ix : list subscript) : Prop :=
  forall axis s, axis < 2 -> nth_error ix axis = Some s -> exists n, s = SVar n /\ In n (map i_name (k_inames k)).
Definition well_formed (k : kernel) : Prop :=
  (k_first k = true -> exists a ix, k_insns k = [Assignment (LSub a ix)]) /\
  (by_output k -> forall l, assigns k l ->
     match l with
     | LSub a ix => marked k a -> known k ix
     | LVar _ => k_elwise k = true
     | LOther => False
     end).
(** subscripts of outputs along the second axis, one for each assignment *)
Definition dof_subscripts (k : kernel) : list subscript :=
  flat_map (fun l => match l with LSub a (_ :: s :: _) => if is_marked k a then [s] else [] | _ => [] end) (flat_map targets (k_insns k)).
Definition different_dof_loops (k : kernel) : Prop := by_output k -> NoDup (dof_subscripts k).
(** no loop is over elements and over degrees of freedom *)
Definition disjoint_loops (k : kernel) : Prop := forall n, ~ (element_loop k n /\ dof_loop k n).
Definition allowed (k : kernel) : Prop := well_formed k /\ disjoint_loops k /\ different_dof_loops k.
Definition metadata (k : kernel) : Prop := by_output k \/ exists i, In i (k_inames k) /\ i_el i = true.
