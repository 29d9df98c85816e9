(** * GmshModel: meshes read from Gmsh files.

    Models GmshMeshReceiver (meshmode/mesh/io.py:87-334): the callbacks (:104-158) that gmsh_interop's reader makes while reading a file, and
    get_mesh (:172-334).

    Simplified: names of tags are numbers, element types are numbers with functions for their properties (the reader hands out one object for each type,
    so comparing with "is" and with "==" is the same).  The checks of make_group and make_mesh are left out, mesh_construction_kwargs is empty.  The unit nodes and
    the order of groups are not represented; the matrix for flipping triangles is an argument.  finalize_nodes without any node given yields an array of nan in numpy; here it is
    a ValueError as with some nodes missing.
    No proofs in this file. *)
From Coq Require Import List Arith Bool.
From Verif Require Import Np MeshModel MeshStateModel Lin ProcModel.
Import ListNotations.

Inductive gkind := GSimplex | GTensor | GOther.

(** an element as given to add_element, without its number and its tags *)
Record gelem : Type := mk_gelem { ge_type : nat; ge_verts : list nat; ge_nodes : list nat }.

(** Python dicts *)
Fixpoint assoc {B} (k : nat) (l : list (nat * B)) : option B :=
  match l with
  | [] => None
  | (k', v) :: l => if k =? k' then Some v else assoc k l
  end.

Section Receiver.
  Variable R : cring.
  Definition point : Type := list R.

  (** self.points: a list at first, an array after finalize_nodes *)
  Inductive npart : Type := NList (l : list (option point)) | NArray (l : list point).
  Inductive nevent : Type := SetUpNodes (count : nat) | AddNode (nr : nat) (p : point) | FinalizeNodes.
  Definition step_node (s : npart) (ev : nevent) : res npart :=
    match ev, s with
    | SetUpNodes n, _ => Ok (NList (repeat None n))
    | AddNode i p, NList l => l' <- put l i (Some p) ;; Ok (NList l')
    | AddNode i p, NArray l => l' <- put l i p ;; Ok (NArray l')
    | FinalizeNodes, NList l =>
        ps <- mapM (fun o => match o with Some p => Ok p | None => Err ValueError end) l ;;
        _ <- guard (match ps with [] => true | p :: _ => forallb (fun q => length q =? length p) ps end) ValueError ;;
        Ok (NArray ps)
    | FinalizeNodes, NArray l => Ok (NArray l)
    end.

  (** element_vertices, element_nodes and element_types are set together *)
  Record epart : Type := mk_epart { ep_elems : list (option gelem); ep_markers : list (option (list nat)) }.
  Inductive eevent : Type := SetUpElements (count : nat) | AddElement (nr : nat) (e : gelem) (tag_numbers : list nat).
  Definition step_elem (s : epart) (ev : eevent) : res epart :=
    match ev with
    | SetUpElements n => Ok (mk_epart (repeat None n) (repeat None n))
    | AddElement nr e ts =>
        es <- put (ep_elems s) nr (Some e) ;;
        ms <- match ts with [] => Ok (ep_markers s) | _ => put (ep_markers s) nr (Some ts) end ;;
        Ok (mk_epart es ms)
    end.

  (** tags and gmsh_tag_index_to_mine *)
  Record tpart : Type := mk_tpart { tp_tags : list (nat * nat); tp_index : list (nat * nat) }.
  Record tevent : Type := AddTag { tg_name : nat; tg_index : nat; tg_dim : nat }.
  Definition step_tag (s : tpart) (ev : tevent) : res tpart :=
    match assoc (tg_index ev) (tp_index s) with
    | None => Ok (mk_tpart (tp_tags s ++ [(tg_name ev, tg_dim ev)]) (tp_index s ++ [(tg_index ev, length (tp_tags s))]))
    | Some my_index =>
        '(recorded_name, recorded_dim) <- get (tp_tags s) my_index ;;
        if negb (recorded_name =? tg_name ev) || negb (recorded_dim =? tg_dim ev) then Err ValueError else Ok s
    end.

  Record recv : Type := mk_recv { rc_nodes : npart; rc_elems : epart; rc_tags : tpart }.
  Inductive event : Type := ENode (ev : nevent) | EElem (ev : eevent) | ETag (ev : tevent).
  Definition init_recv : recv := mk_recv (NList []) (mk_epart [] []) (mk_tpart [] []).
  Definition step (s : recv) (ev : event) : res recv :=
    match ev with
    | ENode ev => n <- step_node (rc_nodes s) ev ;; Ok (mk_recv n (rc_elems s) (rc_tags s))
    | EElem ev => e <- step_elem (rc_elems s) ev ;; Ok (mk_recv (rc_nodes s) e (rc_tags s))
    | ETag ev => t <- step_tag (rc_tags s) ev ;; Ok (mk_recv (rc_nodes s) (rc_elems s) t)
    end.
  Definition receive (evs : list event) : res recv := foldM step evs init_recv.

  (** ** get_mesh *)
  Context {A : Type}.
  Variable aff_id : A.
  Variable tag_order : list btag -> list btag.
  (** element types *)
  Variables (kind : nat -> gkind) (dimensions vertex_count node_count : nat -> nat).
  (** face_vertex_indices of groups of the type; get_lexicographic_gmsh_node_indices of the type with order one; flip matrix *)
  Variables (fvi : nat -> list (list nat)) (shuffle : nat -> list nat) (flip_matrix : nat -> list (list R)).

  (** el_type_hist (:173-176) *)
  Fixpoint hist_add (h : list (nat * nat)) (t : nat) : list (nat * nat) :=
    match h with
    | [] => [(t, 1)]
    | (t', n) :: h => if t =? t' then (t', n + 1) :: h else (t', n) :: hist_add h t
    end.
  Definition histogram (es : list (option gelem)) : res (list (nat * nat)) :=
    foldM (fun h e => match e with None => Err AssertionError | Some e => Ok (hist_add h (ge_type e)) end) es [].

  (** the tags (name, dimension) of the markers of an element (:193-197, 256-261) *)
  Definition tag_of (tp : tpart) (t : nat) : res (option (nat * nat)) :=
    match assoc t (tp_index tp) with
    | None => Ok None
    | Some i => nd <- get (tp_tags tp) i ;; Ok (Some nd)
    end.
  Definition marker_tags (tp : tpart) (markers : option (list nat)) : res (list (nat * nat)) :=
    match markers with
    | None => Ok []
    | Some l => os <- mapM (tag_of tp) l ;; Ok (flat_map (fun o : option (nat * nat) => match o with Some nd => [nd] | None => [] end) os)
    end.

  (** face_vertex_indices_to_tags (:188-205) *)
  Fixpoint facetag_add (m : tagmap) (k : list nat) (ts : list btag) : tagmap :=
    match m with
    | [] => [(k, ts)]
    | (k', ts') :: m => if set_eqb k' k then (k', ts' ++ ts) :: m else (k', ts') :: facetag_add m k ts
    end.
  Definition face_tags (bulk : nat) (ep : epart) (tp : tpart) : res tagmap :=
    foldM (fun m (em : option gelem * option (list nat)) =>
             match fst em with
             | None => Err AssertionError
             | Some e =>
                 if length (tp_tags tp) =? 0 then Ok m
                 else nds <- marker_tags tp (snd em) ;;
                      Ok (facetag_add m (ge_verts e) (map (fun nd : nat * nat => TUser (fst nd)) (filter (fun nd : nat * nat => S (snd nd) =? bulk) nds)))
             end) (combine (ep_elems ep) (ep_markers ep)) [].

  (** tag_to_elements[tag].append(el) *)
  Fixpoint add_marked (m : list (nat * list nat)) (tag el : nat) : list (nat * list nat) :=
    match m with
    | [] => [(tag, [el])]
    | (t, els) :: m => if tag =? t then (t, els ++ [el]) :: m else (t, els) :: add_marked m tag el
    end.

  (** points[el_nodes].T *)
  Definition element_nodes (ambient_dim : nat) (points : list point) (nrs : list nat) : res (enodes R) :=
    pts <- take points nrs ;;
    mapM (fun r => mapM (fun p => get p r) pts) (seq 0 ambient_dim).

  (** the loop over elements for one type (:238-268): rows of vertex_indices, nodes, tag_to_elements *)
  Definition group_state : Type := (list (list nat) * list (enodes R) * list (nat * list nat))%type.
  Definition element_step (ambient_dim : nat) (points : list point) (tp : tpart) (base ty : nat) (st : group_state) (em : option gelem * option (list nat)) : res group_state :=
    match fst em with
    | None => Ok st
    | Some e =>
        if ge_type e =? ty then
          let '(rows, xs, tte) := st in
          x <- element_nodes ambient_dim points (ge_nodes e) ;;
          _ <- guard (length (ge_nodes e) =? node_count ty) ValueError ;;
          _ <- guard (length (ge_verts e) =? vertex_count ty) ValueError ;;
          nds <- marker_tags tp (snd em) ;;
          Ok (rows ++ [ge_verts e], xs ++ [x], fold_left (fun m nd => add_marked m (fst nd) (base + length rows)) nds tte)
        else Ok st
    end.

  (** (:270-305) *)
  Definition make_group (ty : nat) (rows : list (list nat)) (xs : list (enodes R)) : res (egroup (enodes R)) :=
    match kind ty with
    | GSimplex =>
        let g := mk_egroup (Some rows) xs (fvi ty) in
        if dimensions ty =? 2
        then perm <- simplex_flip_permutation 2 ;; flip_element_group R (flip_matrix ty) perm (repeat true (length rows)) g
        else Ok g
    | GTensor => rows' <- mapM (fun row => take row (shuffle ty)) rows ;; Ok (mk_egroup (Some rows') xs (fvi ty))
    | GOther => Err NotImplementedError
    end.

  (** the loop over types (:225-309): groups, tag_to_elements *)
  Definition build_groups (ambient_dim bulk : nat) (points : list point) (ep : epart) (tp : tpart) (hist : list (nat * nat))
    : res (list (egroup (enodes R)) * list (nat * list nat)) :=
    r <- foldM (fun (st : list (egroup (enodes R)) * nat * list (nat * list nat)) (tn : nat * nat) =>
           let '(groups, base, tte) := st in
           if dimensions (fst tn) =? bulk then
             '(rows, xs, tte') <- foldM (element_step ambient_dim points tp base (fst tn)) (combine (ep_elems ep) (ep_markers ep)) ([], [], tte) ;;
             g <- make_group (fst tn) rows xs ;;
             Ok (groups ++ [g], base + nelements g, tte')
           else Ok st) hist ([], 0, []) ;;
    Ok (fst (fst r), snd r).

  Definition get_mesh (s : recv) : res (mesh (enodes R) A point * list (nat * list nat)) :=
    hist <- histogram (ep_elems (rc_elems s)) ;;
    _ <- guard (negb (length hist =? 0)) RuntimeError ;;
    match rc_nodes s with
    | NList _ => Err AssertionError
    | NArray points =>
        let ambient_dim := match points with [] => 0 | p :: _ => length p end in
        let bulk := fold_right Nat.max 0 (map (fun tn => dimensions (fst tn)) hist) in
        ft <- face_tags bulk (rc_elems s) (rc_tags s) ;;
        '(groups, tte) <- build_groups ambient_dim bulk points (rc_elems s) (rc_tags s) hist ;;
        let conforming := if length (filter (fun tn : nat * nat => dimensions (fst tn) =? bulk) hist) =? 1 then true else bulk <? 3 in
        facial <- if conforming && negb (length (tp_tags (rc_tags s)) =? 0)
                  then f <- compute_facial_adjacency aff_id tag_order (Some ft) groups ;; Ok (Available f)
                  else Ok Pending ;;
        m <- make_mesh (Some points) groups Pending facial (Some conforming) 0 0 0 ;;
        Ok (m, tte)
    end.
End Receiver.
