(** * NdgSpec: what the exchange with the nodal DG codes should keep. *)
From Coq Require Import String List Arith.
From Verif Require Import Np NdgModel.
Import ListNotations.

Section Spec.
  Context {A : Type}.
  Definition entry (rows : list (list A)) (i j : nat) : option A := match nth_error rows i with Some row => nth_error row j | None => None end.
  (** a matrix with n rows and k columns *)
  Definition matrix (n k : nat) (rows : list (list A)) : Prop := length rows = n /\ Forall (fun row => length row = k) rows.
  Definition transposed (a b : list (list A)) : Prop := forall i j, entry a i j = entry b j i.

  (** the startup scripts do not change the mesh they are given *)
  Definition keeps_mesh (startup : nat -> session A -> res (session A)) : Prop :=
    forall d s s', startup d s = Ok s' -> forall name, In name ["Nv"; "K"; "VX"; "VY"; "VZ"; "EToV"; "N"]%string -> pull name s' = pull name s.
  (** the names of the coordinates of vertices and of nodes *)
  Definition vertex_axis (ax : nat) : string := match ax with 0 => "VX" | 1 => "VY" | _ => "VZ" end.
  Definition node_axis (ax : nat) : string := match ax with 0 => "x" | 1 => "y" | _ => "z" end.
End Spec.
