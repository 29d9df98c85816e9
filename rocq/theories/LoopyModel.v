(** * LoopyModel: which loops of a kernel run in parallel.

    Models _transform_loopy_inner, _transform_with_element_and_dof_inames and PyOpenCLArrayContext.transform_loopy_program
    (meshmode/array_context.py:62-246).

    Simplified: names are numbers; a kernel is its tags, arguments, instructions (only their assignees) and inames (loop variables). The arrays in assignees are
    named. Of the program that loopy returns only the loops are modelled: the name of each loop and its implementation tag, in no particular order; before the
    transformation no loop has such a tag. lp.split_iname and lp.tag_inames raise ValueError for unknown inames, which is loopy's behaviour.
    The fallback to arraycontext's transformation is None; warnings are not modelled. No proofs in this file. *)
From Coq Require Import List Arith Bool.
From Verif Require Import Np.
Import ListNotations.

(** pymbolic expressions in subscripts: variables, all else *)
Inductive subscript := SVar (n : nat) | SExpr.
(** assignees: variables, subscripted arrays, all else *)
Inductive lhs := LVar (n : nat) | LSub (a : nat) (ix : list subscript) | LOther.
(** lp.Assignment, other subclasses of lp.MultiAssignmentBase, instructions without assignees *)
Inductive insn := Assignment (l : lhs) | MultiAssign (ls : list lhs) | NoAssign.
Record arg := mk_arg { a_name : nat; a_first : bool }.      (* FirstAxisIsElementsTag *)
Record iname := mk_iname { i_name : nat; i_el : bool; i_dof : bool }.      (* ConcurrentElementInameTag, ConcurrentDOFInameTag *)
Record kernel := mk_kernel {
  k_first : bool;      (* FirstAxisIsElementsTag *)
  k_elwise : bool;     (* ElementwiseMapKernelTag *)
  k_args : list arg; k_insns : list insn; k_inames : list iname }.

Definition assignees (s : insn) : list lhs :=
  match s with Assignment l => [l] | MultiAssign ls => ls | NoAssign => [] end.

(** Loops of the transformed kernel *)
Inductive loop := Whole (n : nat) | Outer (n : nat) | Inner (n size : nat).
Inductive ltag := G0 | L0.
Definition loops := list (loop * option ltag).

Definition is_whole (n : nat) (l : loop * option ltag) : bool := match fst l with Whole m => n =? m | _ => false end.

(** lp.split_iname(t_unit, n, 32, inner_tag="l.0") (called in :204) *)
Definition split_iname (ls : loops) (n : nat) : res loops :=
  _ <- guard (existsb (is_whole n) ls) ValueError ;;
  Ok (flat_map (fun l => if is_whole n l then [(Outer n, None); (Inner n 32, Some L0)] else [l]) ls).

(** lp.tag_inames(t_unit, {n: "g.0"}) (called in :206) *)
Definition tag_iname (ls : loops) (n : nat) : res loops :=
  _ <- guard (existsb (is_whole n) ls) ValueError ;;
  Ok (map (fun l => if is_whole n l then (fst l, Some G0) else l) ls).

(** _transform_with_element_and_dof_inames (:192-207) *)
Definition with_element_and_dof_inames (ls : loops) (els dofs : list nat) : res loops :=
  _ <- guard (negb (existsb (fun e => memb e dofs) els)) ValueError ;;
  ls <- foldM split_iname (sort_nat dofs) ls ;;
  foldM tag_iname (sort_nat els) ls.

(** the loops over assignee.index_tuple[:2] (:116-126, :153-165) *)
Definition subscript_inames (k : kernel) (ix : list subscript) : res (list nat * list nat) :=
  names <- mapM (fun s => match s with
                          | SVar n => _ <- guard (memb n (map i_name (k_inames k))) ValueError ;; Ok n
                          | SExpr => Err ValueError
                          end) (firstn 2 ix) ;;
  Ok (firstn 1 names, skipn 1 names).

Definition append (a b : list nat * list nat) : list nat * list nat := (fst a ++ fst b, snd a ++ snd b).

(** the statements of a kernel with ElementwiseMapKernelTag (:101-126) *)
Definition elwise_inames (k : kernel) : res (list nat * list nat) :=
  foldM (fun acc a =>
    match a with
    | LVar _ => Ok acc
    | LOther => Err ValueError
    | LSub _ ix => new <- subscript_inames k ix ;; Ok (append acc new)
    end) (flat_map assignees (k_insns k)) ([], []).

(** the statements of a kernel with tagged arguments (:134-165) *)
Definition first_axis_inames (k : kernel) (tagged : list nat) : res (list nat * list nat) :=
  foldM (fun acc a =>
    match a with
    | LSub a ix => if memb a tagged then new <- subscript_inames k ix ;; Ok (append acc new) else Ok acc
    | _ => Err ValueError
    end) (flat_map assignees (k_insns k)) ([], []).

(** FirstAxisIsElementsTag on the kernel (:74-95) *)
Definition tag_output (k : kernel) : res kernel :=
  if k_first k then
    match k_insns k with
    | [Assignment (LSub out _)] =>
        Ok (mk_kernel (k_first k) (k_elwise k) (map (fun a => if a_name a =? out then mk_arg (a_name a) true else a) (k_args k)) (k_insns k) (k_inames k))
    | _ => Err ValueError
    end
  else Ok k.

(** _transform_loopy_inner (:62-189) *)
Definition transform_inner (k : kernel) : res (option loops) :=
  k <- tag_output k ;;
  let start := map (fun i => (Whole (i_name i), None)) (k_inames k) in
  if k_elwise k then
    ed <- elwise_inames k ;;
    ls <- with_element_and_dof_inames start (fst ed) (snd ed) ;; Ok (Some ls)
  else
    let tagged := map a_name (filter a_first (k_args k)) in
    if negb (length tagged =? 0) then
      ed <- first_axis_inames k tagged ;;
      ls <- with_element_and_dof_inames start (fst ed) (snd ed) ;; Ok (Some ls)
    else
      let els := map i_name (filter i_el (k_inames k)) in
      let dofs := map i_name (filter i_dof (k_inames k)) in
      if negb (length els =? 0) then ls <- with_element_and_dof_inames start els dofs ;; Ok (Some ls)
      else Ok None.

(** transform_loopy_program (:222-246); None is the fallback (:245) *)
Definition transform_loopy_program (return_dict no_numpy : bool) (k : kernel) : res (option loops) :=
  _ <- guard (return_dict && no_numpy) ValueError ;;
  transform_inner k.
