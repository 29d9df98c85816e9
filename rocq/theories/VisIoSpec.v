(** * VisIoSpec: what visualization files should contain and how they should be written. *)
From Coq Require Import String List Arith Bool Permutation.
From Verif Require Import Np DofModel VisModel VisSpec VisIoModel.
Import ListNotations.

Section FieldSpec.
  Variable R : Type.
  Variable zero : R.
  Variable conn : dofarray R -> res (dofarray R).
  Variable groups : list (nat * nat).

  (** The fields a user asks for: attributes of data classes are named after the field and the attribute, None and empty object arrays are left out. *)
  Definition present (f : string * fval R) : bool := match snd f with VNone => false | VObj [] => false | _ => true end.
  Definition attributes (f : string * fval R) : list (string * fval R) :=
    match snd f with
    | VData attrs => map (fun a => (String.append (fst f) (String.append "_" (fst a)), snd a)) attrs
    | _ => [f]
    end.
  Definition wanted (nf : list (string * fval R)) : list (string * fval R) := filter present (flat_map attributes nf).

  Definition rect (g : nat * nat) {A} (dg : list (list A)) : Prop := length dg = fst g /\ Forall (fun x => length x = snd g) dg.
  (** A scalar field: whether it is complex, and for each group its values at all nodes of the group, element by element. *)
  Inductive scalar : fval R -> bool -> list (list (R * R)) -> Prop :=
  | scalar_num x : scalar (VNum (RealNum x)) false (map (fun g : nat * nat => repeat (x, zero) (fst g * snd g)) groups)
  | scalar_cnum x y : scalar (VNum (ComplexNum x y)) true (map (fun g : nat * nat => repeat (x, y) (fst g * snd g)) groups)
  | scalar_dof d d' : conn d = Ok (RealDof d') -> Forall2 (fun g dg => rect g dg) groups d' ->
      scalar (VDof d) false (map (fun dg => map (fun x => (x, zero)) (concat dg)) d')
  | scalar_cdof d d' : conn d = Ok (ComplexDof d') -> Forall2 (fun g dg => rect g dg) groups d' ->
      scalar (VDof d) true (map (@concat (R * R)) d').
  Definition re (vals : list (list (R * R))) : rval R := RArr (RealArr (map fst (concat vals))).
  Definition im (vals : list (list (R * R))) : rval R := RArr (RealArr (map snd (concat vals))).

  (** What a field contributes to the point data of a file, with the components of a vector.  All arrays are real; a complex field is split into
      its real and imaginary parts. *)
  Inductive file_entry (real_only : bool) : string * fval R -> list (string * rval R) -> Prop :=
  | entry_real n v vals : scalar v false vals -> file_entry real_only (n, v) [(n, re vals)]
  | entry_complex n v vals : scalar v true vals ->
      file_entry real_only (n, v) (if real_only then [(n, re vals)] else [(String.append n "_r", re vals); (String.append n "_i", im vals)])
  | entry_vector_real n vs valss : vs <> [] -> Forall2 (fun v vals => scalar v false vals) vs valss ->
      file_entry real_only (n, VObj vs) [(n, RObj (map re valss))]
  | entry_vector_complex n vs valss : Forall2 (fun v vals => exists c, scalar v c vals) vs valss -> (exists v vals, In v vs /\ scalar v true vals) ->
      file_entry real_only (n, VObj vs) (if real_only then [(n, RObj (map re valss))] else [(String.append n "_r", RObj (map re valss)); (String.append n "_i", RObj (map im valss))]).
  (** fields for which that happens: scalars, and vectors whose first component is complex or all of whose components are real *)
  Definition separable (v : fval R) : Prop :=
    (exists c vals, scalar v c vals) \/
    exists v0 vs, v = VObj (v0 :: vs) /\ Forall (fun v => exists c vals, scalar v c vals) vs /\
      ((exists vals, scalar v0 true vals) \/ ((exists vals, scalar v0 false vals) /\ Forall (fun v => exists vals, scalar v false vals) vs)).

  (** The same for XDMF files, which have separate arrays for each group *)
  Definition gre (vals : list (list (R * R))) : list (gval R) := map (fun g => G1 (RealArr (map fst g))) vals.
  Definition gim (vals : list (list (R * R))) : list (gval R) := map (fun g => G1 (RealArr (map snd g))) vals.
  (** rows: the components; [valss] has the components, each with its groups *)
  Definition group_rows_of (f : R * R -> R) (valss : list (list (list (R * R)))) (igrp : nat) : list (list R) :=
    map (fun vals => match nth_error vals igrp with Some g => map f g | None => [] end) valss.
  Definition gvec (f : R * R -> R) (valss : list (list (list (R * R)))) : list (gval R) :=
    map (fun igrp => G2 (RealArr2 (group_rows_of f valss igrp))) (seq 0 (length groups)).
  Inductive xdmf_entry (real_only : bool) : string * fval R -> list (string * list (gval R)) -> Prop :=
  | xentry_real n v vals : scalar v false vals -> xdmf_entry real_only (n, v) [(n, gre vals)]
  | xentry_complex n v vals : scalar v true vals ->
      xdmf_entry real_only (n, v) (if real_only then [(n, gre vals)] else [(String.append n "_r", gre vals); (String.append n "_i", gim vals)])
  | xentry_vector_real n vs valss : vs <> [] -> Forall2 (fun v vals => scalar v false vals) vs valss ->
      xdmf_entry real_only (n, VObj vs) [(n, gvec fst valss)]
  | xentry_vector_complex n vs valss : Forall2 (fun v vals => exists c, scalar v c vals) vs valss -> (exists v vals, In v vs /\ scalar v true vals) ->
      xdmf_entry real_only (n, VObj vs) (if real_only then [(n, gvec fst valss)] else [(String.append n "_r", gvec fst valss); (String.append n "_i", gvec snd valss)]).
  (** scalars and vectors of scalars *)
  Definition plottable (v : fval R) : Prop :=
    (exists c vals, scalar v c vals) \/ exists vs, v = VObj vs /\ Forall (fun v => exists c vals, scalar v c vals) vs.
End FieldSpec.

(** arrays without complex numbers *)
Definition all_real {R} (v : rval R) : Prop :=
  match v with
  | RArr (RealArr _) => True
  | RArr (ComplexArr _) => False
  | RObj l => Forall (fun v => exists a, v = RArr (RealArr a)) l
  end.

(** ** Datasets of several ranks
    A reader takes the parts of a dataset one after the other. *)
Fixpoint split_by {A} (counts : list nat) (l : list A) : list (list A) :=
  match counts with
  | [] => []
  | n :: counts => firstn n l :: split_by counts (skipn n l)
  end.

(** ** Files made from the vertices of a mesh *)
(** the elements of all groups, one after the other *)
Definition elements (groups : list vgroup) : list (vgroup * list nat) := concat (map (fun g => map (pair g) (vgr_vi g)) groups).
Definition nvertices_of (g : vgroup) : nat := match vgr_class g with MSimplex => S (vgr_dim g) | _ => 2 ^ vgr_dim g end.
(** groups with cells that VTK has *)
Definition writable (g : vgroup) : Prop := 1 <= vgr_dim g <= 3 /\ vgr_class g <> MOther /\ Forall (fun row => length row = nvertices_of g) (vgr_vi g).
(** the corner with coordinates 0 or 1 has the number whose binary digits they are, the first coordinate being the lowest *)
Fixpoint corner_number (c : list nat) : nat := match c with [] => 0 | x :: c => x + 2 * corner_number c end.
(** the vertices of an element in the order of VTK *)
Definition element_cell (g : vgroup) (row cell : list nat) : Prop :=
  match vgr_class g with
  | MSimplex => cell = row
  | MTensor => Forall2 (fun v c => nth_error row (corner_number c) = Some v) cell (vtk_corners (vgr_dim g))
  | MOther => False
  end.
Definition element_type (simplex_type tensor_type : nat -> option nat) (g : vgroup) : option nat :=
  match vgr_class g with MSimplex => simplex_type (vgr_dim g) | MTensor => tensor_type (vgr_dim g) | MOther => None end.
(** the segments drawn by a cycle *)
Definition segments {A} (cycle : list A) : list (A * A) := match cycle with [] => [] | x :: l => combine cycle (l ++ [x]) end.
(** the edges of an element, as pairs of numbers of its vertices: all pairs for simplices, corners that differ in one coordinate otherwise *)
Definition is_edge (g : vgroup) (i j : nat) : Prop :=
  i < nvertices_of g /\ j < nvertices_of g /\
  match vgr_class g with
  | MSimplex => i <> j
  | _ => exists k, k < vgr_dim g /\ ((Nat.testbit j k = false /\ i = j + 2 ^ k) \/ (Nat.testbit i k = false /\ j = i + 2 ^ k))
  end.

(** ** Visualizers *)
Section VisualizerSpec.
  Variables (key U F : Type).
  Variable apply_factory : F -> mgrp -> res (key * U).
  (** the groups of a discretization are what its factory makes of the groups of its mesh *)
  Definition discr_wf (d : discr key U F) : Prop :=
    Forall2 (fun mg g => dg_mesh g = mg /\ apply_factory (d_factory d) mg = Ok (dg_key g, dg_unit g)) (vm_groups (d_mesh d)) (d_groups d).
  Variable key_order : key -> nat.
  Variable nunit_of : U -> nat.
  (** the connectivity of [a] may be used for [b]: VTKConnectivity sees the same shapes, orders and numbers of elements and nodes *)
  Definition seen (g : dgrp key U) : shape * nat * nat * nat := (mg_shape (dg_mesh g), key_order (dg_key g), mg_nel (dg_mesh g), nunit_of (dg_unit g)).
  Definition same_cells (a b : discr key U F) : Prop := map seen (d_groups a) = map seen (d_groups b).
  (** element i of a group goes to element i of the group with the same number, at the unit nodes of that group *)
  Definition element_batch (from : list (dgrp key U)) (nt : nat * dgrp key U) (bs : list (vbatch U)) : Prop :=
    exists f, nth_error from (fst nt) = Some f /\ mg_nel (dg_mesh f) = mg_nel (dg_mesh (snd nt)) /\
      bs = [mk_vbatch (fst nt) (seq 0 (mg_nel (dg_mesh f))) (seq 0 (mg_nel (dg_mesh f))) (dg_unit (snd nt))].
  Definition elementwise (from to : discr key U F) (groups : list (list (vbatch U))) : Prop :=
    Forall2 (element_batch (d_groups from)) (enumerate (d_groups to)) groups.
  (** what has to hold of a visualizer: both discretizations are on the same mesh, the connection goes element by element, and cached
      connectivities are right *)
  Definition good_visualizer {S} (v : visualizer key U F S) : Prop :=
    let from := conn_from (v_conn v) in let to := conn_to (v_conn v) in
    discr_wf from /\ discr_wf to /\ d_mesh to = d_mesh from /\
    match v_conn v with IdentityConn _ => True | DirectConn _ _ groups => elementwise from to groups end /\
    (forall c, v_linear v = Some c \/ v_lagrange v = Some c -> same_cells (conn_to c) to).
End VisualizerSpec.
