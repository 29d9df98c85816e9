(** * PartConnSpec: specification vocabulary for connections between parts *)
From Coq Require Import List Arith Bool.
From Verif Require Import Np Lin MeshModel MeshSpec PartSpec ConnModel FaceConnModel FaceConnSpec.
Import ListNotations.

Section PartConnSpec.
  Context {E A N K P : Type}.

  (** Each face towards part [q] of the mesh with [groups] and [fags], which is part [p], is the other side of a face of the mesh with
      [rgroups] and [rfags]: the conclusion of C13 *)
  Definition adjoins (groups rgroups : list (egroup E)) (fags rfags : list (list (fagrp A))) (p q : nat) : Prop :=
    forall g t m e f k f', part_entry fags g t q m ((e, f), (k, f')) ->
      t = TPartition q /\ exists g' e' m', k = base (map nelements rgroups) g' + e' /\
        part_entry rfags g' (TPartition p) p m' ((e', f'), (base (map nelements groups) g + e, f)).

  (** Inter-part adjacency groups are not empty *)
  Definition nonempty_parts (fags : list (list (fagrp A))) (p : nat) : Prop :=
    forall g l ig t es m, nth_error fags g = Some l -> In (InterPart ig t p es m) l -> es <> [].

  (** Part [p] with [groups] and part [q] with [rgroups] can be connected: both can be restricted to the faces between them, these are
      listed once, there are some, and the two sides agree. Parts made by partition_mesh are such (C36_parts). *)
  Record connectable {V : Type} (p q : nat) (groups : list (egroup E)) (kinds : list K) (fags : list (list (fagrp A))) (vs : list V)
      (rgroups : list (egroup E)) (rkinds : list K) (rfags : list (list (fagrp A))) (rvs : list V) : Prop := mk_connectable {
    cb_mesh : restrictable groups kinds fags vs false;
    cb_rmesh : restrictable rgroups rkinds rfags rvs false;
    cb_known : known fags (RTag (TPartition q));
    cb_rknown : known rfags (RTag (TPartition p));
    cb_once : asked_once fags (RTag (TPartition q));
    cb_ronce : asked_once rfags (RTag (TPartition p));
    cb_adj : adjoins groups rgroups fags rfags p q;
    cb_radj : adjoins rgroups groups rfags fags q p;
    cb_nonempty : nonempty_parts rfags p
  }.

  (** Face [b] of part [q] with adjacency [rfags] lies at face [a] of part [p] with [groups]; [m] maps it there *)
  Definition between (groups : list (egroup E)) (rfags : list (list (fagrp A))) (p : nat) (m : A) (a b : nat * nat * nat) : Prop :=
    let '(g, e, f) := a in let '(g', e', f') := b in
    part_entry rfags g' (TPartition p) p m ((e', f'), (base (map nelements groups) g + e, f)).

  (** [o] takes the values of each face towards part [q] from the other side, and no others *)
  Definition receives (rgroups : list (egroup E)) (fags : list (list (fagrp A))) (q : nat) (c rc o : @conn N K) : Prop :=
    forall g t g' s, (exists n, feeds o g t g' s n) <-> exists e f e' f' m,
      part_entry fags g (TPartition q) q m ((e, f), (base (map nelements rgroups) g' + e', f')) /\ is_face c g t (g, e, f) /\ is_face rc g' s (g', e', f').

  Variable app : A -> P -> P.
  Variable close : P -> P -> bool.

  (** The nodes of the two sides coincide, one by one, after applying the map of the remote adjacency group *)
  Definition matchable2 (groups : list (egroup E)) (rfags : list (list (fagrp A))) (p : nat) (c rc : @conn N K) (coords rcoords : list (list (list P))) : Prop :=
    forall g e f g' e' f' m t s ps qs, between groups rfags p m (g, e, f) (g', e', f') -> is_face c g t (g, e, f) -> is_face rc g' s (g', e', f') ->
      value coords g t = Some ps -> value rcoords g' s = Some qs -> one_close close ps (map (app m) qs).

  Definition few_matchings2 (groups : list (egroup E)) (rfags : list (list (fagrp A))) (p : nat) (c rc : @conn N K) (coords rcoords : list (list (list P))) : Prop :=
    forall g g', exists L, length L <= 128 /\ forall m e f e' f' t s ps qs ix, between groups rfags p m (g, e, f) (g', e', f') -> is_face c g t (g, e, f) -> is_face rc g' s (g', e', f') ->
      value coords g t = Some ps -> value rcoords g' s = Some qs -> matching close ps (map (app m) qs) ix -> In ix L.

  (** [y] has at each node of a face towards the other part the value that [x] has at the coincident node of the other side *)
  Definition remote_values {X : Type} (groups : list (egroup E)) (rfags : list (list (fagrp A))) (p : nat) (c rc : @conn N K) (coords rcoords : list (list (list P))) (x y : list (list (list X))) : Prop :=
    forall g e f g' e' f' m t s ps qs, between groups rfags p m (g, e, f) (g', e', f') -> is_face c g t (g, e, f) -> is_face rc g' s (g', e', f') ->
      value coords g t = Some ps -> value rcoords g' s = Some qs -> exists v w, value x g' s = Some v /\ value y g t = Some w /\
        forall i j a b, nth_error ps i = Some a -> nth_error qs j = Some b -> close a (app m b) = true -> exists z, nth_error v j = Some z /\ nth_error w i = Some z.
End PartConnSpec.
