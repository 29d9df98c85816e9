(** * MiscSpec: what the functions of MiscModel should do. *)
From Coq Require Import List Arith.
From Verif Require Import Np EqModel MiscModel.
Import ListNotations.

(** Objects of the class BTAG_PARTITION itself, and other tags *)
Definition plain_tag (t : tagobj) : Prop := match t with TagPart c _ => c = 0 | _ => True end.

(** The number of node j of element e of group i when the nodes of all groups are numbered group by group, element by element *)
Definition node_number (groups : list (nat * nat)) (i e j n : nat) : Prop :=
  exists nel nunit, nth_error groups i = Some (nel, nunit) /\ e < nel /\ j < nunit /\
    n = fold_right (fun g acc => fst g * snd g + acc) 0 (firstn i groups) + e * nunit + j.
Definition total_nodes (groups : list (nat * nat)) : nat := fold_right (fun g acc => fst g * snd g + acc) 0 groups.

Section Spec.
  Context {X : Type}.
  (** The nodes of a group: at least two axes, with the same numbers of elements and unit nodes *)
  Definition group_ok (nodes : list (array2 X)) : Prop :=
    exists x y rest nunit rx ry, nodes = x :: y :: rest /\ x = mk_array2 nunit rx /\ y = mk_array2 nunit ry /\ length rx = length ry /\
      Forall (fun r => length r = nunit) rx /\ Forall (fun r => length r = nunit) ry.
  (** The lines of a group: that of element e goes through its nodes in order, in the first two coordinates *)
  Definition lines_of (nodes : list (array2 X)) (lines : list (list (X * X))) : Prop :=
    exists x y rest, nodes = x :: y :: rest /\ length lines = length (ar_rows x) /\
      forall e xs ys line, nth_error (ar_rows x) e = Some xs -> nth_error (ar_rows y) e = Some ys -> nth_error lines e = Some line -> line = combine xs ys.
  (** Markers at the vertices *)
  Definition markers_of (m : cmesh X) (markers : list (X * X)) : Prop :=
    exists xs ys rest, cm_vertices m = Some (xs :: ys :: rest) /\ markers = combine xs ys.
End Spec.
