(** * PointSpec: vocabulary for point matching. *)
From Coq Require Import List Arith ZArith.
From Verif Require Import Np MeshModel Lin Ord.
Import ListNotations.
Local Open Scope cring_scope.

(** Squared Euclidean distance. *)
Fixpoint sqdist {R : cring} (x y : list R) : R :=
  match x, y with
  | a :: x, b :: y => (a - b) * (a - b) + sqdist x y
  | _, _ => 0
  end.

(** |x - y| < tol, for tol >= 0 *)
Definition within {R : ocring} (tol : R) (x y : list R) : Prop := (sqdist x y <? tol * tol) = true.

(** [r] assigns to each source point -1 if no target is within the tolerance, and otherwise the number of such a target. *)
Definition matching {R : ocring} (tol : R) (src tgt : list (list R)) (r : list Z) : Prop :=
  Forall2 (fun s z =>
    (z = (-1)%Z /\ forall t, In t tgt -> ~ within tol s t) \/
    (exists k t, z = Z.of_nat k /\ nth_error tgt k = Some t /\ within tol s t)) src r.

(** Target [k] is the first of the targets nearest to [s]. *)
Definition nearest {R : ocring} (tgt : list (list R)) (s : list R) (k : nat) : Prop :=
  exists t, nth_error tgt k = Some t /\
    forall j u, nth_error tgt j = Some u -> (sqdist s t <=? sqdist s u) = true /\ (j < k -> (sqdist s t <? sqdist s u) = true).

(** The median of integers whenever it is one (numpy.median averages the two middle values of an even number). *)
Definition median_Z (l : list Z) : Z :=
  let s := MeshModel.sort_Z l in
  let n := length s in
  match nth_error s ((n - 1) / 2), nth_error s (n / 2) with
  | Some a, Some b => ((a + b) / 2)%Z
  | _, _ => 0%Z
  end.
