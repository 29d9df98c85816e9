(** * GmshSpec: what a mesh read from a Gmsh file should be. *)
From Coq Require Import List Arith Bool Permutation Sorted.
From Verif Require Import Np MeshModel MeshSpec Lin ProcModel ProcSpec GmshModel.
Import ListNotations.

Section Gmsh.
  Variable R : cring.
  (** The contents of a file: numbered nodes, numbered elements with the numbers of their tags, and tags *)
  Record gfile : Type := mk_gfile { gf_nodes : list (nat * point R); gf_elems : list (nat * (gelem * list nat)); gf_tags : list tevent }.

  Definition node_events (evs : list (event R)) : list (nevent R) := flat_map (fun ev => match ev with ENode _ e => [e] | _ => [] end) evs.
  Definition elem_events (evs : list (event R)) : list eevent := flat_map (fun ev => match ev with EElem _ e => [e] | _ => [] end) evs.
  Definition tag_events (evs : list (event R)) : list tevent := flat_map (fun ev => match ev with ETag _ e => [e] | _ => [] end) evs.

  (** The callbacks [evs] deliver the file: nodes, elements and tags in any order, and any interleaving of the three. *)
  Definition delivers (f : gfile) (evs : list (event R)) : Prop :=
    (exists nodes, Permutation nodes (gf_nodes f) /\
       node_events evs = SetUpNodes R (length (gf_nodes f)) :: map (fun ip : nat * point R => AddNode R (fst ip) (snd ip)) nodes ++ [FinalizeNodes R]) /\
    (exists elems, Permutation elems (gf_elems f) /\
       elem_events evs = SetUpElements (length (gf_elems f)) :: map (fun ie : nat * (gelem * list nat) => AddElement (fst ie) (fst (snd ie)) (snd (snd ie))) elems) /\
    Permutation (tag_events evs) (gf_tags f).

  (** Nodes and elements are numbered 0, 1, ... without gaps, all nodes have the same number of coordinates. *)
  Definition numbered (f : gfile) : Prop :=
    Permutation (map fst (gf_nodes f)) (seq 0 (length (gf_nodes f))) /\
    Permutation (map fst (gf_elems f)) (seq 0 (length (gf_elems f))) /\
    (forall i p j q, In (i, p) (gf_nodes f) -> In (j, q) (gf_nodes f) -> length p = length q).
  (** Tags with the same number are the same. *)
  Definition consistent_tags (l : list tevent) : Prop := forall a b, In a l -> In b l -> tg_index a = tg_index b -> a = b.

  Variables (kind : nat -> gkind) (dimensions : nat -> nat) (fvi : nat -> list (list nat)) (shuffle : nat -> list nat) (flip_matrix : nat -> list (list R)).

  (** element number nr of the file *)
  Definition file_elem (f : gfile) (nr : nat) (e : gelem) (ts : list nat) : Prop := In (nr, (e, ts)) (gf_elems f).
  (** d is the dimension of the mesh: the largest of all elements *)
  Definition bulk_dim (f : gfile) (d : nat) : Prop :=
    (exists nr e ts, file_elem f nr e ts /\ dimensions (ge_type e) = d) /\ forall nr e ts, file_elem f nr e ts -> dimensions (ge_type e) <= d.
  (** element e has a tag with the given name and dimension *)
  Definition has_mark (f : gfile) (ts : list nat) (name d : nat) : Prop := exists a, In a (gf_tags f) /\ tg_name a = name /\ tg_dim a = d /\ In (tg_index a) ts.

  (** the coordinates of the nodes of an element, axis by axis *)
  Definition file_nodes (f : gfile) (e : gelem) (x : enodes R) : Prop :=
    (forall i p, In (i, p) (gf_nodes f) -> length x = length p) /\
    forall r xs, nth_error x r = Some xs -> Forall2 (fun n v => exists p, In (n, p) (gf_nodes f) /\ nth_error p r = Some v) (ge_nodes e) xs.
  (** (row, x) is element e in the order of vertices and nodes of meshmode: two vertices of a triangle are exchanged and its nodes resampled,
      vertices of hypercubes are shuffled *)
  Definition arranged (f : gfile) (e : gelem) (row : list nat) (x : enodes R) : Prop :=
    let ty := ge_type e in
    match kind ty with
    | GSimplex => if dimensions ty =? 2 then exists x0, file_nodes f e x0 /\ flipped R (flip_matrix ty) [1; 0; 2] (ge_verts e) x0 row x
                  else row = ge_verts e /\ file_nodes f e x
    | GTensor => Forall2 (fun s v => nth_error (ge_verts e) s = Some v) (shuffle ty) row /\ file_nodes f e x
    | GOther => False
    end.

  (** [nrs] has, for each group of the mesh, the numbers of its elements in the file: one group for each type of elements of the largest dimension, by first
      occurrence in the file, and within a group by number *)
  Definition element_order (f : gfile) (d : nat) (tys : list nat) (nrs : list (list nat)) : Prop :=
    Forall2 (fun ty l => l <> [] /\ StronglySorted lt l /\ forall nr, In nr l <-> exists e ts, file_elem f nr e ts /\ ge_type e = ty) tys nrs /\
    NoDup tys /\
    (forall ty, In ty tys <-> dimensions ty = d /\ exists nr e ts, file_elem f nr e ts /\ ge_type e = ty) /\
    (forall g g' x l x' l', g < g' -> nth_error nrs g = Some (x :: l) -> nth_error nrs g' = Some (x' :: l') -> x < x').

  (** the elements of a group of the mesh are the elements of the file with numbers l *)
  Definition group_of (f : gfile) (ty : nat) (l : list nat) (grp : egroup (enodes R)) : Prop :=
    exists vi, eg_vi grp = Some vi /\ eg_fvi grp = fvi ty /\ length vi = length l /\ length (eg_nodes grp) = length l /\
      forall k nr, nth_error l k = Some nr -> exists e ts row x, file_elem f nr e ts /\ ge_type e = ty /\ nth_error vi k = Some row /\ nth_error (eg_nodes grp) k = Some x /\ arranged f e row x.
  Definition represents (f : gfile) (d : nat) (nrs : list (list nat)) (groups : list (egroup (enodes R))) : Prop :=
    bulk_dim f d /\ exists tys, element_order f d tys nrs /\ length groups = length tys /\
      forall g ty l grp, nth_error tys g = Some ty -> nth_error nrs g = Some l -> nth_error groups g = Some grp -> group_of f ty l grp.

  (** The elements of the largest dimension are of a known type, have as many vertices and nodes as the type says, and refer to nodes of the file;
      tables of the type refer to vertices. *)
  Variables (vertex_count node_count : nat -> nat).
  Definition known_type (ty : nat) : Prop :=
    match kind ty with
    | GSimplex => (dimensions ty = 2 -> vertex_count ty = 3) /\ forall ref k, In ref (fvi ty) -> In k ref -> k < vertex_count ty
    | GTensor => (forall k, In k (shuffle ty) -> k < vertex_count ty) /\ forall ref k, In ref (fvi ty) -> In k ref -> k < length (shuffle ty)
    | GOther => False
    end.
  Definition well_formed (f : gfile) (d : nat) : Prop :=
    bulk_dim f d /\ forall nr e ts, file_elem f nr e ts -> dimensions (ge_type e) = d ->
      known_type (ge_type e) /\ length (ge_verts e) = vertex_count (ge_type e) /\ length (ge_nodes e) = node_count (ge_type e) /\ forall n, In n (ge_nodes e) -> n < length (gf_nodes f).

  (** how often an element with tag numbers ts is marked with the name *)
  Definition marks (f : gfile) (name : nat) (ts : list nat) : nat :=
    length (filter (fun t => existsb (fun a => (tg_index a =? t) && (tg_name a =? name)) (gf_tags f)) ts).
End Gmsh.
Arguments gf_nodes {R}. Arguments gf_elems {R}. Arguments gf_tags {R}.
