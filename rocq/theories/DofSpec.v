(** * DofSpec: specification vocabulary for DOF arrays *)
From Coq Require Import List Arith Bool Reals.
From Verif Require Import Np DofModel.
Import ListNotations.

(** Freezing and thawing changes neither contents nor shape; whether arrays have axes depends on the context *)
Definition rethaw_ok {D Tag} (has_axes : nat -> bool) (rethaw : nat -> @leaf D Tag -> @leaf D Tag) : Prop :=
  forall a l, lf_data (rethaw a l) = lf_data l /\ lf_ndim (rethaw a l) = lf_ndim l /\
    match lf_axes (rethaw a l) with Some ax => has_axes a = true /\ length ax = lf_ndim l | None => has_axes a = false end.

(** Array [l] of context [q] is the unpickled form of [l0], an array of the context used for pickling *)
Definition same_array {D Tag} (taggable has_axes : nat -> bool) (q : nat) (l0 l : @leaf D Tag) : Prop :=
  lf_data l = lf_data l0 /\ lf_ndim l = lf_ndim l0 /\
  lf_tags l = (if taggable q then Some (match lf_tags l0 with Some t => t | None => [] end) else None) /\
  lf_axes l = (if has_axes q then Some (match lf_axes l0 with Some ax => ax | None => repeat [] (lf_ndim l0) end) else None).

(** Entries of a container, in order *)
Fixpoint entries {X} (v : value X) : list X :=
  match v with
  | VNum x => [x]
  | VDof _ data => concat data
  | VCont kids => flat_map (fun kv => entries (snd kv)) kids
  | VOther => []
  end.

(** What is neither a container of other things nor further divided *)
Fixpoint leaves {X} (v : value X) : list (value X) :=
  match v with
  | VCont kids => flat_map (fun kv => leaves (snd kv)) kids
  | _ => [v]
  end.

(** Keys of the nested containers *)
Inductive keys : Type := Leaf | Node (kids : list (nat * keys)).
Fixpoint shape_of {X} (v : value X) : keys :=
  match v with
  | VCont kids => Node (map (fun kv => (fst kv, shape_of (snd kv))) kids)
  | _ => Leaf
  end.

(** x ** p for x >= 0 *)
Definition rpow (p x : R) : R := if Req_EM_T x 0 then 0%R else Rpower x p.
Definition rsum (l : list R) : R := fold_right Rplus 0%R l.

(** [r] is the norm of the vector with moduli [xs] *)
Definition is_norm (o : ord R) (xs : list R) (r : R) : Prop :=
  match o with
  | Two => (0 <= r /\ r * r = rsum (map (fun x => x * x) xs))%R
  | Inf => In r xs /\ Forall (fun x => (x <= r)%R) xs
  | NegInf => In r xs /\ Forall (fun x => (r <= x)%R) xs
  | Other p => (0 < p)%R /\ (0 <= r)%R /\ rpow p r = rsum (map (rpow p) xs)
  end.

(** All DOF arrays belong to context [a], there is nothing but containers, DOF arrays and numbers *)
Fixpoint in_context {X} (a : nat) (v : value X) : Prop :=
  match v with
  | VNum _ => True
  | VDof b _ => b = Some a
  | VCont kids => (fix go (kids : list (nat * value X)) : Prop := match kids with [] => True | kv :: kids => in_context a (snd kv) /\ go kids end) kids
  | VOther => False
  end.

(** No container or array in it is empty *)
Fixpoint no_empty {X} (v : value X) : Prop :=
  match v with
  | VNum _ | VOther => True
  | VDof _ data => data <> [] /\ Forall (fun xs => xs <> []) data
  | VCont kids => kids <> [] /\ (fix go (kids : list (nat * value X)) : Prop := match kids with [] => True | kv :: kids => no_empty (snd kv) /\ go kids end) kids
  end.

Definition supported {X} (o : ord R) (v : value X) : Prop :=
  match o with Two => True | Inf | NegInf => no_empty v | Other p => (0 < p)%R end.
