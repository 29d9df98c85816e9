(** * Np: exceptions as values and list renderings of the NumPy primitives used by meshmode.

    No proofs in this file.  A one-dimensional NumPy array is a [list]; an
    out-of-range index is the value [Err IndexError], never a default element. *)
From Coq Require Import List Arith Bool ZArith.
Import ListNotations.

(** ** Python exceptions as values *)
Inductive exn : Type :=
| IndexError | ValueError | KeyError | AssertionError | RuntimeError | TypeError
| NotImplementedError | DataUnavailableError | NameError | InconsistentMeshError
| AttributeError | InconsistentDOFArray | ZeroDivisionError | UnboundLocalError
| InconsistentArrayDTypeError | InconsistentVerticesError | InconsistentAdjacencyError
| NonTermination.   (* fuel of a while/recursive function exhausted; never a Python value *)

Inductive res (A : Type) : Type :=
| Ok (a : A)
| Err (e : exn).
Arguments Ok {A} a.
Arguments Err {A} e.

Definition bind {A B} (x : res A) (f : A -> res B) : res B :=
  match x with Ok a => f a | Err e => Err e end.

Declare Scope res_scope.
Delimit Scope res_scope with res.
Notation "x <- e ;; k" := (bind e (fun x => k))
  (at level 61, e at next level, right associativity) : res_scope.
Notation "' p <- e ;; k" := (bind e (fun x => let p := x in k))
  (at level 61, p pattern, e at next level, right associativity) : res_scope.
Open Scope res_scope.

Fixpoint mapM {A B} (f : A -> res B) (l : list A) : res (list B) :=
  match l with
  | [] => Ok []
  | x :: l' => y <- f x ;; ys <- mapM f l' ;; Ok (y :: ys)
  end.

Fixpoint foldM {A S} (f : S -> A -> res S) (l : list A) (s : S) : res S :=
  match l with
  | [] => Ok s
  | x :: l' => s' <- f s x ;; foldM f l' s'
  end.

Definition guard (b : bool) (e : exn) : res unit := if b then Ok tt else Err e.

(** ** Indexing *)

(** [a[i]] for a nonnegative index. *)
Definition get {A} (l : list A) (i : nat) : res A :=
  match nth_error l i with Some x => Ok x | None => Err IndexError end.

(** [a[idx]], integer ("fancy") indexing with a list of nonnegative indices. *)
Definition take {A} (l : list A) (idx : list nat) : res (list A) := mapM (get l) idx.

Fixpoint upd {A} (l : list A) (i : nat) (v : A) : list A :=
  match l, i with
  | [], _ => []
  | _ :: l', 0 => v :: l'
  | x :: l', S i' => x :: upd l' i' v
  end.

(** [a[i] = v]. *)
Definition put {A} (l : list A) (i : nat) (v : A) : res (list A) :=
  if i <? length l then Ok (upd l i v) else Err IndexError.

(** [a[idx] = vals], later assignments win (NumPy: last value for repeated indices). *)
Definition scatter {A} (l : list A) (ivs : list (nat * A)) : res (list A) :=
  foldM (fun a iv => put a (fst iv) (snd iv)) ivs l.

(** Python slice [a[lo:hi]] with nonnegative bounds. *)
Definition slice {A} (l : list A) (lo hi : nat) : list A := firstn (hi - lo) (skipn lo l).

(** ** Enumerations, masks *)

(** [list(enumerate(l))] *)
Definition enumerate_from {A} (n : nat) (l : list A) : list (nat * A) :=
  combine (seq n (length l)) l.
Definition enumerate {A} (l : list A) : list (nat * A) := enumerate_from 0 l.

(** [np.where(mask)[0]] / [mask.nonzero()[0]] *)
Definition where_ (m : list bool) : list nat :=
  map fst (filter snd (enumerate m)).

(** [a[mask]] for a boolean mask of the same length. *)
Definition compress {A} (m : list bool) (l : list A) : list A :=
  map snd (filter fst (combine m l)).

(** Two-dimensional boolean arrays of shape [(rows, cols)]: a function plus its shape.
    [np.full((rows, cols), False)] is [mfalse]; the shape is carried by the callers. *)
Definition mask2 := nat -> nat -> bool.
Definition mfalse : mask2 := fun _ _ => false.
Definition mset (m : mask2) (r c : nat) : mask2 :=
  fun r' c' => if (r' =? r) && (c' =? c) then true else m r' c'.
(** [m[rs, cs] = True] for [m] of shape [(rows, cols)]; out of range is an IndexError. *)
Fixpoint mset_all (rows cols : nat) (m : mask2) (rcs : list (nat * nat)) : res mask2 :=
  match rcs with
  | [] => Ok m
  | (r, c) :: rest =>
      if (r <? rows) && (c <? cols) then mset_all rows cols (mset m r c) rest
      else Err IndexError
  end.
(** [np.ndindex((rows, cols))]: all positions, row major. *)
Definition grid (rows cols : nat) : list (nat * nat) :=
  flat_map (fun r => map (fun c => (r, c)) (seq 0 cols)) (seq 0 rows).
(** [np.where(m)]: the positions of the true entries, row major. *)
Definition where2 (rows cols : nat) (m : mask2) : list (nat * nat) :=
  filter (fun rc => m (fst rc) (snd rc)) (grid rows cols).

(** ** Sums *)

Fixpoint cumsum_from (acc : nat) (l : list nat) : list nat :=
  match l with
  | [] => []
  | x :: l' => (acc + x) :: cumsum_from (acc + x) l'
  end.
(** [np.cumsum] *)
Definition cumsum (l : list nat) : list nat := cumsum_from 0 l.

Definition sum (l : list nat) : nat := fold_right Nat.add 0 l.

(** ** Sorting *)
Section Sort.
  Context {A : Type} (leb : A -> A -> bool).
  Fixpoint insert (x : A) (l : list A) : list A :=
    match l with
    | [] => [x]
    | y :: l' => if leb x y then x :: l else y :: insert x l'
    end.
  (** A stable sort by the preorder [leb] (as [np.sort(kind="stable")], [np.lexsort], [sorted]). *)
  Fixpoint isort (l : list A) : list A :=
    match l with
    | [] => []
    | x :: l' => insert x (isort l')
    end.
End Sort.

Definition sort_nat : list nat -> list nat := isort Nat.leb.

(** Lexicographic comparison with the first entry most significant (missing entries first). *)
Fixpoint lex_leb {A} (eqb leb : A -> A -> bool) (a b : list A) : bool :=
  match a, b with
  | [], _ => true
  | _ :: _, [] => false
  | x :: a', y :: b' => if eqb x y then lex_leb eqb leb a' b' else leb x y
  end.

(** [np.lexsort(keys)] for a table given column by column: the *last* row of a
    column is the primary key.  Returns the stable ordering permutation. *)
Definition lexsort_Z (cols : list (list Z)) : list nat :=
  map fst
    (isort (fun a b => lex_leb Z.eqb Z.leb (rev (snd a)) (rev (snd b)))
           (enumerate cols)).

(** [np.argsort(kind="stable")] *)
Definition argsort (l : list nat) : list nat :=
  map fst (isort (fun a b => snd a <=? snd b) (enumerate l)).

(** [np.searchsorted(a, v)] (side="left") for a sorted array. *)
Fixpoint searchsorted (l : list nat) (v : nat) : nat :=
  match l with
  | [] => 0
  | x :: l' => if x <? v then S (searchsorted l' v) else 0
  end.

(** Remove adjacent duplicates. *)
Fixpoint dedup_adj (l : list nat) : list nat :=
  match l with
  | [] => []
  | x :: l' => match dedup_adj l' with
               | [] => [x]
               | y :: r => if x =? y then y :: r else x :: y :: r
               end
  end.
(** [np.unique(a)] *)
Definition unique (l : list nat) : list nat := dedup_adj (sort_nat l).

(** Position of the first occurrence. *)
Fixpoint index_of (v : nat) (l : list nat) : option nat :=
  match l with
  | [] => None
  | x :: l' => if x =? v then Some 0 else option_map S (index_of v l')
  end.
(** [np.unique(a, return_inverse=True)]: the second component gives, for every
    entry of [a], its position in [np.unique(a)]. *)
Definition unique_inverse (l : list nat) : list nat * res (list nat) :=
  let u := unique l in
  (u, mapM (fun v => match index_of v u with Some i => Ok i | None => Err KeyError end) l).

Definition memb (x : nat) (l : list nat) : bool := existsb (Nat.eqb x) l.

Definition pair_eqb (a b : nat * nat) : bool := (fst a =? fst b) && (snd a =? snd b).
