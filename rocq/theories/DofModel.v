(** * DofModel: DOF arrays.

    Models meshmode/dof_array.py: pickling (296-377), array_context_for_pickling (577-601), container serialisation (415-438),
    rec_map_dof_array_container (448-467), flat_norm (499-570), check_dofarray_against_discr (612-635).

    Simplified: array contexts are numbers; an array is its contents (an opaque value of type D), its number of axes and its tags.
    freeze followed by thaw in a context is an argument.  Numbers are of an arbitrary type T with arithmetic as arguments.
    No proofs in this file. *)
From Coq Require Import List Arith Bool.
From Verif Require Import Np.
Import ListNotations.

(** ** Pickling *)
Section Pickle.
  Context {D Tag : Type}.

  (** An array: contents, ndim, tags and tags of the axes, as far as its type has them *)
  Record leaf : Type := mk_leaf { lf_data : D; lf_ndim : nat; lf_tags : option (list Tag); lf_axes : option (list (list Tag)) }.

  (** DOFArray (91-182) *)
  Record dofarray : Type := mk_dof { df_actx : option nat; df_data : list leaf }.

  Variable rethaw : nat -> leaf -> leaf.       (* actx.thaw(actx.freeze(ary)) *)
  Variable taggable : nat -> bool.             (* the arrays of the context have _with_new_tags *)
  Variable has_axes : nat -> bool.             (* and axes *)
  (** set unions *)
  Variable tag_union : list Tag -> list Tag -> list Tag.

  (** The pickled state: a dictionary, or a list of arrays (older versions) *)
  Inductive pstate : Type :=
  | PDict (data : list (D * nat)) (tags : list (list Tag)) (axes_tags : list (list (list Tag)))
  | PList (data : list (D * nat)).

  (** __getstate__ (296-325); tls is the context of array_context_for_pickling *)
  Definition getstate (tls : option nat) (x : dofarray) : res pstate :=
    match tls with
    | None => Err RuntimeError
    | Some actx =>
        match df_actx x with
        | None => Err AssertionError
        | Some own =>
            let ary := map (rethaw own) (df_data x) in
            let ary := if own =? actx then ary else map (rethaw actx) (df_data x) in
            let axes l := match lf_axes l with Some a => Ok a | None => Err AttributeError end in
            axes_tags <- match ary with
                         | l0 :: _ => match lf_axes l0 with
                                      | Some _ => mapM axes ary
                                      | None => Ok (map (fun l => repeat [] (lf_ndim l)) ary)
                                      end
                         | [] => Ok []
                         end ;;
            Ok (PDict (map (fun l => (lf_data l, lf_ndim l)) ary)
                      (map (fun l => match lf_tags l with Some t => t | None => [] end) ary)
                      axes_tags)
        end
    end.

  (** actx.from_numpy *)
  Definition from_numpy (actx : nat) (d : D * nat) : leaf :=
    mk_leaf (fst d) (snd d) (if taggable actx then Some [] else None) (if has_axes actx then Some (repeat [] (snd d)) else None).

  (** d._with_new_tags(tags), or d if there is no such method *)
  Definition with_new_tags (t : list Tag) (l : leaf) : leaf :=
    match lf_tags l with Some _ => mk_leaf (lf_data l) (lf_ndim l) (Some t) (lf_axes l) | None => l end.
  (** actx.tag_axis(ida, ax, d); without effect on arrays without axes *)
  Definition tag_axis (ia : nat) (t : list Tag) (l : leaf) : res leaf :=
    match lf_axes l with
    | None => Ok l
    | Some axes => a <- get axes ia ;; axes' <- put axes ia (tag_union a t) ;; Ok (mk_leaf (lf_data l) (lf_ndim l) (lf_tags l) (Some axes'))
    end.

  (** __setstate__ (327-377) *)
  Definition setstate (tls : option nat) (s : pstate) : res dofarray :=
    match tls with
    | None => Err RuntimeError
    | Some actx =>
        let '(data, tags, axes_tags) :=
          match s with
          | PDict data tags axes_tags => (data, tags, axes_tags)
          | PList data => (data, map (fun _ => []) data, map (fun d => repeat [] (snd d)) data)
          end in
        _ <- guard ((length data =? length tags) && (length tags =? length axes_tags)) AssertionError ;;
        ls <- mapM (fun idx =>
                d <- get data idx ;; ts <- get tags idx ;; ax <- get axes_tags idx ;;
                _ <- guard (length ax =? snd d) AssertionError ;;
                foldM (fun l ia => tag_axis (fst ia) (snd ia) l) (enumerate ax) (with_new_tags ts (from_numpy actx d)))
              (seq 0 (length data)) ;;
        Ok (mk_dof (Some actx) ls)
    end.
End Pickle.
Arguments mk_leaf {D Tag}. Arguments lf_data {D Tag}. Arguments lf_ndim {D Tag}. Arguments lf_tags {D Tag}. Arguments lf_axes {D Tag}.
Arguments mk_dof {D Tag}. Arguments df_actx {D Tag}. Arguments df_data {D Tag}. Arguments PDict {D Tag}. Arguments PList {D Tag}.

(** ** Programs using array_context_for_pickling (577-601)

    act is an action which may read the thread-local context: pickling, unpickling, anything else.
    A program yields a list of results of its actions and possibly an exception *)
Section Programs.
  Context {Out : Type}.

  Inductive prog : Type :=
  | Act (a : option nat -> res Out)
  | Seq (p q : prog)
  | With (actx : option nat) (p : prog)       (* with array_context_for_pickling(actx): p *)
  | Try (p q : prog).                         (* try: p except: q *)

  (** State, results so far, exception *)
  Fixpoint exec (p : prog) (tls : option nat) : (option nat * list Out) * option exn :=
    match p with
    | Act a => match a tls with Ok o => ((tls, [o]), None) | Err e => ((tls, []), Some e) end
    | Seq p q =>
        match exec p tls with
        | ((tls1, o1), Some e) => ((tls1, o1), Some e)
        | ((tls1, o1), None) => let '((tls2, o2), e) := exec q tls1 in ((tls2, o1 ++ o2), e)
        end
    | With actx p =>
        match tls with
        | Some _ => ((tls, []), Some RuntimeError)
        | None => let '((_, o), e) := exec p actx in ((None, o), e)
        end
    | Try p q =>
        match exec p tls with
        | ((tls1, o1), None) => ((tls1, o1), None)
        | ((tls1, o1), Some _) => let '((tls2, o2), e) := exec q tls1 in ((tls2, o1 ++ o2), e)
        end
    end.
End Programs.
Arguments prog : clear implicits.

(** ** Threads: entering and leaving the context manager, actions, interleaved.  One thread-local context per thread *)
Inductive tevent : Type := Enter (actx : nat) | Leave | Query.
(** Result of an event: what the thread sees *)
Inductive tresult : Type := Entered | Refused | Left | Sees (actx : option nat).

Definition tstep (s : option nat) (e : tevent) : option nat * tresult :=
  match e with
  | Enter a => match s with Some _ => (s, Refused) | None => (Some a, Entered) end
  | Leave => (None, Left)
  | Query => (s, Sees s)
  end.

(** threading.local: the table of contexts by thread *)
Definition tls_table : Type := nat -> option nat.
Definition tset (t : nat) (v : option nat) (s : tls_table) : tls_table := fun u => if u =? t then v else s u.

Fixpoint run_threads (s : tls_table) (evs : list (nat * tevent)) : list (nat * tresult) :=
  match evs with
  | [] => []
  | (t, e) :: evs => let '(v, r) := tstep (s t) e in (t, r) :: run_threads (tset t v s) evs
  end.
Fixpoint run_thread (s : option nat) (evs : list tevent) : list tresult :=
  match evs with
  | [] => []
  | e :: evs => let '(v, r) := tstep s e in r :: run_thread v evs
  end.

(** ** Container serialisation (415-438) *)
Definition serialize_dof {X} (data : list X) : list (nat * X) := enumerate data.
Definition deserialize_dof {X} (debug : bool) (iterable : list (nat * X)) : res (list X) :=
  mapM (fun iv => _ <- guard (negb debug || (fst iv =? fst (snd iv))) ValueError ;; Ok (snd (snd iv))) (enumerate iterable).

(** ** Containers *)
Section Containers.
  Context {X : Type}.

  (** A number, a DOFArray, another container (entries with keys), anything else *)
  Inductive value : Type :=
  | VNum (x : X)
  | VDof (actx : option nat) (data : list (list X))      (* the group arrays, ravelled *)
  | VCont (kids : list (nat * value))
  | VOther.

  (** rec_map_dof_array_container (448-467) *)
  Fixpoint rec_map (f : value -> value) (v : value) : value :=
    match v with
    | VCont kids => VCont (map (fun kv => (fst kv, rec_map f (snd kv))) kids)
    | _ => f v
    end.

  (** ord: 2, inf, -inf, another number *)
  Inductive ord (P : Type) : Type := Two | Inf | NegInf | Other (p : P).
  Arguments Two {P}. Arguments Inf {P}. Arguments NegInf {P}. Arguments Other {P}.

  Context {T P : Type}.
  Variables (zero : T) (add mul maxi mini : T -> T -> T) (sqroot : T -> T) (pow root : P -> T -> T) (positive : P -> bool).
  Variable modulus : X -> T.

  (** functools.reduce without initial value *)
  Definition reduce1 (f : T -> T -> T) (l : list T) : res T :=
    match l with [] => Err TypeError | x :: l => Ok (fold_left f l x) end.
  Definition sum0 (l : list T) : T := fold_left add l zero.

  (** _reduce_norm (499-524) *)
  Definition reduce_norm (o : ord P) (arys : list T) : res T :=
    match o with
    | Two => Ok (sqroot (sum0 (map (fun x => mul x x) arys)))
    | Inf => reduce1 maxi arys
    | NegInf => reduce1 mini arys
    | Other p => if positive p then Ok (root p (sum0 (map (pow p) arys))) else Err NotImplementedError
    end.

  (** actx.np.linalg.norm of a vector; numpy reports an empty maximum *)
  Definition leaf_norm (o : ord P) (xs : list X) : res T :=
    let ms := map modulus xs in
    match o with
    | Two => Ok (sqroot (sum0 (map (fun x => mul x x) ms)))
    | Inf => match ms with [] => Err ValueError | _ => reduce1 maxi ms end
    | NegInf => match ms with [] => Err ValueError | _ => reduce1 mini ms end
    | Other p => if positive p then Ok (root p (sum0 (map (pow p) ms))) else Err NotImplementedError
    end.

  (** flat_norm (527-570); actx is the nonlocal variable *)
  Fixpoint norm_rec (o : ord P) (v : value) (actx : option nat) : res (option nat * T) :=
    match v with
    | VNum x => Ok (actx, modulus x)
    | VDof None _ => Err ValueError
    | VDof (Some a) data =>
        _ <- guard (match actx with Some b => a =? b | None => true end) AssertionError ;;
        ns <- mapM (leaf_norm o) data ;;
        r <- reduce_norm o ns ;;
        Ok (Some a, r)
    | VCont kids =>
        p <- (fix go (kids : list (nat * value)) (actx : option nat) : res (option nat * list T) :=
                match kids with
                | [] => Ok (actx, [])
                | kv :: kids => ar <- norm_rec o (snd kv) actx ;; p <- go kids (fst ar) ;; Ok (fst p, snd ar :: snd p)
                end) kids actx ;;
        r <- reduce_norm o (snd p) ;;
        Ok (fst p, r)
    | VOther => Err TypeError
    end.
  Definition flat_norm (o : option (ord P)) (v : value) : res T :=
    ar <- norm_rec (match o with Some o => o | None => Two end) v None ;; Ok (snd ar).
End Containers.
Arguments value : clear implicits.
Arguments Two {P}. Arguments Inf {P}. Arguments NegInf {P}. Arguments Other {P}.

(** ** check_dofarray_against_discr (612-635)

    Groups of the discretization as (nelements, nunit_dofs); shapes of the group arrays, None for something that is not a DOFArray *)
Definition check_dofarray (groups : list (nat * nat)) (shapes : option (list (list nat))) : res unit :=
  match shapes with
  | None => Err TypeError
  | Some shapes =>
      _ <- guard (length shapes =? length groups) InconsistentDOFArray ;;
      _ <- mapM (fun gs => guard (if list_eq_dec Nat.eq_dec (snd gs) [fst (fst gs); snd (fst gs)] then true else false) InconsistentDOFArray)
                (combine groups shapes) ;;
      Ok tt
  end.
