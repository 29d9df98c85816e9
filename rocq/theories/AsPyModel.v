(** * AsPyModel: array literals written by as_python, and make_group.

    Models meshmode/mesh/__init__.py: ModepyElementGroup.make_group (:371-409), FacialAdjacencyGroup.as_python (:551-560) and those of the derived classes
    (:629-640, 686-694, 778-790), _numpy_array_as_python (:2016-2023), _affine_map_as_python (:2026-2029), and as_python (:2032-2111) together with the
    evaluation of the snippet up to the call of make_mesh.  What make_mesh does with these arguments is modelled in MeshStateModel.v ([run_as_python]), where
    arrays are copied as they are.

    Simplified: the text of the snippet is not modelled but its meaning: nested lists, names that are not defined (NameError), constructors.  Dtypes of arrays
    are not modelled.  [literal x] says that the text of the number x is a number again; it is false for NaN and infinities, whose text is a name that is not
    defined.  Affine maps are lists of rows as in AffineModel.v.  Class number 0 is the class itself, other numbers are derived classes.  The module of the
    class of a group can be imported.  [space_dim] and [edge_clustered] stand for modepy.  No proofs in this file. *)
From Coq Require Import List Arith Bool.
From Verif Require Import Np MeshModel Lin ConsistModel AffineModel EqModel.
Import ListNotations.

Section Literals.
  Context {X : Type}.

  (** Nested lists of numbers *)
  Inductive tree : Type := Num (x : X) | Lst (l : list tree).

  Definition size_of (shape : list nat) : nat := fold_right Nat.mul 1 shape.
  (** n blocks of k entries *)
  Fixpoint blocks (n k : nat) (data : list X) : list (list X) :=
    match n with O => [] | S n => firstn k data :: blocks n k (skipn k data) end.

  (** array.tolist() *)
  Fixpoint tolist (shape : list nat) (data : list X) : res tree :=
    match shape with
    | [] => match data with [x] => Ok (Num x) | _ => Err ValueError end
    | n :: shape => l <- mapM (tolist shape) (blocks n (size_of shape) data) ;; Ok (Lst l)
    end.

  (** The numbers of nested lists, in order *)
  Fixpoint leaves (t : tree) : list X :=
    match t with
    | Num x => [x]
    | Lst l => (fix all (l : list tree) : list X := match l with [] => [] | t :: l => leaves t ++ all l end) l
    end.
  (** The shape numpy.array finds for nested lists: that of an empty list is (0,), and lists at the same depth must have the same shape *)
  Fixpoint list_shape (t : tree) : res (list nat) :=
    match t with
    | Num _ => Ok []
    | Lst l =>
        ss <- (fix all (l : list tree) : res (list (list nat)) :=
                 match l with [] => Ok [] | t :: l => s <- list_shape t ;; ss <- all l ;; Ok (s :: ss) end) l ;;
        match ss with
        | [] => Ok [0]
        | s :: ss => if forallb (list_nat_eqb s) ss then Ok (S (length ss) :: s) else Err ValueError
        end
    end.
  (** numpy.array of nested lists *)
  Definition np_array (t : tree) : res (arr X) := s <- list_shape t ;; Ok (mk_arr s (leaves t)).

  (** Evaluating the text of _numpy_array_as_python (:2016-2023) *)
  Definition reread (literal : X -> bool) (a : arr X) : res (arr X) :=
    t <- tolist (a_shape a) (a_data a) ;;
    _ <- guard (forallb literal (leaves t)) NameError ;;
    np_array t.
  Definition reread_opt (literal : X -> bool) (a : option (arr X)) : res (option (arr X)) :=
    match a with Some a => b <- reread literal a ;; Ok (Some b) | None => Ok None end.
End Literals.
Arguments tree : clear implicits.

Definition int_literal (n : nat) : bool := true.
Definition reread_ints : arr nat -> res (arr nat) := reread int_literal.

Section Groups.
  Variable R : cring.
  Variable literal : R -> bool.
  (** modepy: the dimension of space_for_shape(cls.shape_cls(dim), order), and edge_clustered_nodes_for_space *)
  Variable space_dim : nat -> nat -> nat -> nat.
  Variable edge_clustered : nat -> nat -> nat -> arr R.
  Notation amap := (amap R).
  Notation egrp := (egrp R).
  Notation fagroup := (fagroup R).

  (** a.shape[i] *)
  Definition axis {X} (a : arr X) (i : nat) : res nat := get (a_shape a) i.

  (** make_group (:371-409) *)
  Definition make_group (cls order : nat) (vi : option (arr nat)) (nodes : arr R) (unit_nodes : option (arr R)) (dim : option nat) : res egrp :=
    d <- match unit_nodes with
         | None => match dim with None => Err TypeError | Some d => Ok d end
         | Some u =>
             d <- match dim with None => axis u 0 | Some d => Ok d end ;;
             u0 <- axis u 0 ;;
             if u0 =? d then Ok d else Err ValueError
         end ;;
    let u := match unit_nodes with Some u => u | None => edge_clustered cls d order end in
    u1 <- axis u 1 ;;
    if u1 =? space_dim cls d order then Ok (mk_egrp R cls order vi nodes u) else Err ValueError.

  (** groups.append(....make_group(...)) (:2065-2072) *)
  Definition reread_group (g : egrp) : res egrp :=
    vi <- reread_opt int_literal (e_vi R g) ;;
    nodes <- reread literal (e_nodes R g) ;;
    u <- reread literal (e_unit R g) ;;
    make_group (e_class R g) (e_order R g) vi nodes (Some u) None.

  (** AffineMap(matrix, offset) (:2026-2029) *)
  Definition reread_map (f : amap) : res amap :=
    _ <- match am_matrix f with Some m => guard (forallb (forallb literal) m) NameError | None => Ok tt end ;;
    _ <- match am_offset f with Some o => guard (forallb literal o) NameError | None => Ok tt end ;;
    Ok f.

  (** The names of boundary tags the snippet imports (:2051-2053) *)
  Definition tag_known (t : btag) : bool := match t with TNone | TAll | TReallyAll => true | _ => false end.
  Definition reread_tag (t : btag) : res btag := if tag_known t then Ok t else Err NameError.

  (** as_python of a facial adjacency group: only groups of exactly the four classes (:551-560, 629-631, 686-688, 778-780) *)
  Definition group_class (f : fagroup) : nat :=
    match f with GFacial _ c _ _ _ | GInterior _ c _ _ _ _ _ _ _ | GBoundary _ c _ _ _ _ | GInterPart _ c _ _ _ _ _ _ _ _ => c end.
  Definition check_class (f : fagroup) : res unit := guard (group_class f =? 0) NotImplementedError.
  (** Evaluating it; of a FacialAdjacencyGroup only igroup is written (:560), and the constructor wants elements and element_faces as well *)
  Definition reread_facial (f : fagroup) : res fagroup :=
    match f with
    | GFacial _ c i es fs => Err TypeError
    | GInterior _ c i i' es fs ns nfs m =>
        es <- reread_ints es ;; fs <- reread_ints fs ;; ns <- reread_ints ns ;; nfs <- reread_ints nfs ;; m <- reread_map m ;;
        Ok (GInterior R c i i' es fs ns nfs m)
    | GBoundary _ c i t es fs =>
        t <- reread_tag t ;; es <- reread_ints es ;; fs <- reread_ints fs ;; Ok (GBoundary R c i t es fs)
    | GInterPart _ c i t p es fs ns nfs m =>
        t <- reread_tag t ;; es <- reread_ints es ;; fs <- reread_ints fs ;; ns <- reread_ints ns ;; nfs <- reread_ints nfs ;; m <- reread_map m ;;
        Ok (GInterPart R c i t p es fs ns nfs m)
    end.

  Definition lazyM {X Y} (f : X -> res Y) (a : lazy X) : res (lazy Y) :=
    match a with LNone => Ok LNone | LFalse => Ok LFalse | LSome x => y <- f x ;; Ok (LSome y) end.

  (** as_python (:2032-2111): fails only for derived classes of facial adjacency groups *)
  Definition write_mesh (m : emesh R) : res unit :=
    match em_facial R m with
    | LSome gs => _ <- mapM (mapM check_class) gs ;; Ok tt
    | _ => Ok tt
    end.
  (** The arguments of mm_make_mesh when the function of the snippet is called: a mesh of the class Mesh; nodal adjacency is written as a tuple, from which
      make_mesh makes a NodalAdjacency; face_id_dtype is not written *)
  Definition eval_mesh (default_fdtype : nat) (m : emesh R) : res (emesh R) :=
    v <- reread_opt literal (em_vertices R m) ;;
    gs <- mapM reread_group (em_groups R m) ;;
    fa <- lazyM (mapM (mapM reread_facial)) (em_facial R m) ;;
    na <- lazyM (fun n => s <- reread_ints (n_starts n) ;; nb <- reread_ints (n_neighbors n) ;; Ok (mk_nadj 0 s nb)) (em_nodal R m) ;;
    Ok (mk_emesh R 0 v gs (em_conforming R m) na fa (em_vdtype R m) (em_edtype R m) default_fdtype).
  Definition recreate (default_fdtype : nat) (m : emesh R) : res (emesh R) :=
    _ <- write_mesh m ;; eval_mesh default_fdtype m.
End Groups.
