(** * IbopModel: DOFArrays and the arrays they share.

    Models DOFArray.copy, fill and _ibop (meshmode/dof_array.py:233-238 and 261-280) with a heap of arrays, since several DOFArrays may hold the same arrays.

    Simplified: a DOFArray is the tuple of addresses of its arrays; arrays are flat and there is no broadcasting between arrays of different lengths. An array either supports
    in-place operators (numpy, pyopencl) or not (pytato, jax), in which case operator.iadd(a, b) and so on return a new array, as Python prescribes for classes without __iadd__.
    An operation returns the heap together with the exception, if there was one. Deprecation warnings are not modelled. No proofs in this file. *)
From Coq Require Import List Arith Bool.
From Verif Require Import Np.
Import ListNotations.

Section Ibop.
  Variable V : Type.
  Variable f : V -> V -> V.

  Record arr := mk_arr { inplace : bool; data : list V }.
  Definition heap := list arr.
  Definition dofs := list nat.

  Fixpoint zip_with (a b : list V) : list V :=
    match a, b with x :: a, y :: b => f x y :: zip_with a b | _, _ => [] end.

  (** operator.iadd and the like, for the array at [a] and another array or a number; only the effect on the heap *)
  Definition store (h : heap) (a : nat) (x : arr) (new : list V) : heap :=
    if inplace x then upd h a (mk_arr true new) else h.
  Definition iop (h : heap) (a b : nat) : res heap :=
    x <- get h a ;;
    y <- get h b ;;
    _ <- guard (length (data x) =? length (data y)) ValueError ;;
    Ok (store h a x (zip_with (data x) (data y))).
  Definition iop_number (h : heap) (a : nat) (c : V) : res heap :=
    x <- get h a ;;
    Ok (store h a x (map (fun v => f v c) (data x))).

  (** a loop that keeps the heap when there is an exception *)
  Fixpoint loop {A} (body : heap -> A -> res heap) (l : list A) (h : heap) : heap * option exn :=
    match l with
    | [] => (h, None)
    | a :: l => match body h a with Ok h => loop body l h | Err e => (h, Some e) end
    end.

  Inductive operand := ODof (y : dofs) | ONum (c : V) | OOther.

  (** _ibop (:261-280) *)
  Definition ibop (h : heap) (x : dofs) (arg : operand) : heap * option exn :=
    match arg with
    | ODof y =>
        if negb (length x =? length y) then (h, Some ValueError)
        else loop (fun h ia => b <- get y (fst ia) ;; iop h (snd ia) b) (enumerate x) h
    | ONum c => loop (fun h a => iop_number h a c) x h
    | OOther => (h, Some NotImplementedError)
    end.

  (** fill (:236-238) *)
  Definition fill (h : heap) (x : dofs) (c : V) : heap * option exn :=
    loop (fun h a => y <- get h a ;; _ <- guard (inplace y) AttributeError ;; Ok (upd h a (mk_arr true (map (fun _ => c) (data y))))) x h.

  (** copy (:233-234): arrays on top of the heap *)
  Definition copy (h : heap) (x : dofs) : res (heap * dofs) :=
    new <- mapM (get h) x ;;
    Ok (h ++ new, seq (length h) (length x)).
End Ibop.
