(** * GmshRunModel: options and warnings of generate_gmsh.

    Models generate_gmsh (meshmode/mesh/io.py:421-507): the deprecated arguments, where the output of gmsh is saved, the number of coordinates that are kept, and the
    warning about coordinates that are all zero.

    Simplified: characters are numbers; what gmsh computes is given as the list of vertices (three coordinates each); parse_gmsh of gmsh_interop keeps the first
    force_ambient_dim coordinates of each point; GmshRunner saves its output at os.path.join(save_output_file_in, output_file_name); making the mesh from the points is
    in GmshModel.v.  The functions of os.path are those of posixpath.  No proofs in this file. *)
From Coq Require Import List Arith Bool.
From Verif Require Import Np Lin.
Import ListNotations.

Definition slash : nat := 47.
Definition path : Type := list nat.

(** posixpath.split before rstrip: up to and including the last slash, and the rest *)
Fixpoint split_last (p : path) : path * path :=
  match p with
  | [] => ([], [])
  | c :: p => let '(h, t) := split_last p in
      match h with
      | [] => if c =? slash then ([c], t) else ([], c :: t)
      | _ => (c :: h, t)
      end
  end.
Fixpoint rstrip (p : path) : path :=
  match p with
  | [] => []
  | c :: p => match rstrip p with [] => if c =? slash then [] else [c] | r => c :: r end
  end.
Definition basename (p : path) : path := snd (split_last p).
Definition dirname (p : path) : path :=
  let h := fst (split_last p) in if forallb (fun c => c =? slash) h then h else rstrip h.
(** posixpath.join *)
Definition starts_with_slash (p : path) : bool := match p with c :: _ => c =? slash | [] => false end.
Definition join (a b : path) : path :=
  if starts_with_slash b then b
  else match a with
       | [] => b
       | _ => if slash =? last a 0 then a ++ b else a ++ slash :: b
       end.

Inductive warning : Type := WTargetUnit | WOutputName | WZeroAxis (axis suggested : nat).
Inductive tunit : Type := UM | UMM.

(** Where the output is saved (:469-477) *)
Definition output_place (cwd : path) (output_file_path : option path) : option (path * path) :=
  match output_file_path with
  | Some p => Some (basename p, match dirname p with [] => cwd | d => d end)
  | None => None
  end.

Section Run.
  Context {R : cring}.
  Variable reqb : R -> R -> bool.

  (** (mesh.vertices[idim] == 0).all() *)
  Definition axis_zero (vertices : list (list R)) (idim : nat) : res bool :=
    c <- mapM (fun v => get v idim) vertices ;; Ok (forallb (fun x => reqb x r0) c).
  Fixpoint first_zero_axis (vertices : list (list R)) (axes : list nat) : res (list warning) :=
    match axes with
    | [] => Ok []
    | a :: axes => z <- axis_zero vertices a ;;
        if z then name <- get [120; 121; 122] a ;; Ok [WZeroAxis a a] else first_zero_axis vertices axes
    end.

  Record outcome : Type := mk_outcome { oc_vertices : list (list R); oc_unit : tunit; oc_saved : option path; oc_warnings : list warning }.

  (** generate_gmsh (:421-507); [points] are the vertices that gmsh makes with the given unit, [dim] is mesh.vertices.shape[0] *)
  Definition generate_gmsh (cwd : path) (points : tunit -> list (list R)) (target_unit : option tunit) (output_file_name output_file_path : option path)
      (force_ambient_dim : option nat) : res outcome :=
    let '(unit, w1) := match target_unit with Some u => (u, []) | None => (UMM, [WTargetUnit]) end in
    let '(output_file_path, w2) := match output_file_name with Some n => (Some n, [WOutputName]) | None => (output_file_path, []) end in
    let saved := match output_place cwd output_file_path with Some (f, d) => Some (join d f) | None => None end in
    let vertices := match force_ambient_dim with Some k => map (firstn k) (points unit) | None => points unit end in
    w3 <- match force_ambient_dim with
          | Some _ => Ok []
          | None => first_zero_axis vertices (seq 0 (match vertices with [] => 0 | v :: _ => length v end))
          end ;;
    Ok (mk_outcome vertices unit saved (w1 ++ w2 ++ w3)).
End Run.
