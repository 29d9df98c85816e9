(** * GmshRunSpec: file names and planes. *)
From Coq Require Import List Arith Bool.
From Verif Require Import Np Lin GmshRunModel.
Import ListNotations.

(** The slash, in ASCII *)
Definition separator : nat := 47.
(** The directories and the file that a path goes through, from the root: those of the current directory come first unless the path starts with a slash *)
Fixpoint components_from (acc : path) (p : path) : list path :=
  match p with
  | [] => match acc with [] => [] | _ => [acc] end
  | c :: p => if c =? separator then (match acc with [] => [] | _ => [acc] end) ++ components_from [] p else components_from (acc ++ [c]) p
  end.
Definition components (p : path) : list path := components_from [] p.
Definition resolve (cwd p : path) : list path := if match p with c :: _ => c =? separator | [] => false end then components p else components cwd ++ components p.

Section Axes.
  Context {R : cring}.
  (** Coordinate a of all vertices is zero *)
  Definition zero_axis (vertices : list (list R)) (a : nat) : Prop := forall v, In v vertices -> nth_error v a = Some r0.
  (** All vertices have d coordinates *)
  Definition in_space (d : nat) (vertices : list (list R)) : Prop := forall v, In v vertices -> length v = d.
  (** Coordinates from k on are zero *)
  Definition in_first (k d : nat) (vertices : list (list R)) : Prop := forall a, k <= a < d -> zero_axis vertices a.
End Axes.
