(** * DistSpec: specification vocabulary for ranks exchanging boundary information *)
From Coq Require Import List Arith Bool Permutation Sorting.Sorted.
From Verif Require Import Np MeshModel MeshSpec MeshStateModel PartModel PartSpec ConnModel ConnSpec FaceConnModel FaceConnSpec DistModel.
Import ListNotations.

Section DistSpec.
  Context {C M O : Type}.
  Variable pack : nat -> C -> res M.
  Variable link : C -> M -> res O.

  (** Entry [b'] of another rank is the other side of entry [b] of rank [r] *)
  Definition matches (cfg : list (list (irbi C))) (r : nat) (b b' : irbi C) : Prop :=
    exists l', nth_error cfg (ib_rank b) = Some l' /\ In b' l' /\ ib_local b' = ib_remote b /\ ib_remote b' = ib_local b /\ ib_rank b' = r.

  (** All ranks list the boundaries between parts once, both sides list them, and the functions called for them succeed *)
  Record consistent (old : bool) (cfg : list (list (irbi C))) : Prop := mk_consistent {
    cs_once : forall r l, nth_error cfg r = Some l -> NoDup (map ib_pair l);
    cs_old : old = true -> forall r l, nth_error cfg r = Some l -> NoDup (map ib_remote l);
    cs_match : forall r l b, nth_error cfg r = Some l -> In b l -> exists b', matches cfg r b b';
    cs_pack : forall r l b, nth_error cfg r = Some l -> In b l -> exists m, pack (ib_remote b) (ib_conn b) = Ok m;
    cs_link : forall r l b b' m, nth_error cfg r = Some l -> In b l -> matches cfg r b b' -> pack (ib_remote b') (ib_conn b') = Ok m -> exists o, link (ib_conn b) m = Ok o
  }.

  (** [conns] has for each entry of rank [r], in order, the connection made from what the other side sent *)
  Definition delivered (old : bool) (cfg : list (list (irbi C))) (r : nat) (conns : list (ckey * O)) : Prop :=
    exists l, nth_error cfg r = Some l /\
      Forall2 (fun b kv => fst kv = key_of old (ib_remote b) (ib_local b) /\
        exists b' m, matches cfg r b b' /\ pack (ib_remote b') (ib_conn b') = Ok m /\ link (ib_conn b) m = Ok (snd kv)) l conns.

  Definition all_done (st : gstate M O) : Prop := Forall (fun x => exists conns pending, x = Done conns pending) (g_ranks st).

  (** The messages of one source arrive in the order in which they were sent *)
  Definition in_order (st : gstate M O) (ev : event) : Prop :=
    match ev with
    | Receive r i => forall j s m m', j < i -> nth_error (g_net st) i = Some (s, r, m) -> nth_error (g_net st) j <> Some (s, r, m')
    | _ => True
    end.
End DistSpec.

(** The interior adjacency entries of a mesh, with mesh-wide element numbers: element, neighbor *)
Definition el_pairs {A} (sizes : list nat) (fags : list (list (fagrp A))) : list (nat * nat) :=
  flat_map (fun gl => flat_map (fun b => match b with
      | Interior _ j es _ => map (fun en : fentry => (base sizes (fst gl) + fst (fst en), base sizes j + fst (snd en))) es
      | _ => []
      end) (snd gl)) (enumerate fags).
(** np.argsort returns the positions of a sorted rearrangement *)
Definition sorts (order : list nat -> list nat) : Prop :=
  forall l, Permutation (order l) (seq 0 (length l)) /\ exists s, take l (order l) = Ok s /\ StronglySorted le s.
(** [starts], [adj] is a graph in compressed row storage with [n] rows; the row of [e] lists [neighbors e] in some order *)
Definition csr (n : nat) (starts adj : list nat) (neighbors : nat -> list nat) : Prop :=
  length starts = n + 1 /\ nth_error starts 0 = Some 0 /\ nth_error starts n = Some (length adj) /\
  forall e, e < n -> exists s t, nth_error starts e = Some s /\ nth_error starts (S e) = Some t /\ s <= t /\ t <= length adj /\ Permutation (slice adj s t) (neighbors e).

(** Some interior face lies between an element of part [p] and an element of part [q] *)
Definition crosses {E A} (groups : list (egroup E)) (fags : list (list (fagrp A))) (parts : partdict) (p q : nat) : Prop :=
  exists g g' aff e f e' f' k k', int_entry fags g g' aff ((e, f), (e', f')) /\ assigned parts (base (map nelements groups) g + e) p k /\ assigned parts (base (map nelements groups) g' + e') q k'.

(** [b] is the side of part [p] (mesh [mp]) of the boundary towards part [q]: its restriction to the faces with the tag of [q] has succeeded, and there is a point for each of its nodes *)
Definition side_of {E E' A V N K P} (restrict : option (list V) -> list (egroup E) -> list K -> list (list (fagrp A)) -> restr -> bool -> res (list V * list (egroup E') * @conn N K))
    (kinds : list K) (mp : mesh E A V) (q : nat) (b : bend E A N K P) : Prop :=
  exists vp bvs bgs, m_vertices mp = Some vp /\ m_facial mp = Available (be_fags b) /\ be_groups b = m_groups mp /\
    restrict (Some vp) (m_groups mp) kinds (be_fags b) (RTag (TPartition q)) false = Ok (bvs, bgs, be_conn b) /\ points_on (cn_to (be_conn b)) (be_coords b).

(** [o] takes to each face of part [p] towards part [q] the values at the other side of this face of the mesh, and no others *)
Definition joins {E A V N K P} (groups : list (egroup E)) (fags : list (list (fagrp A))) (parts : partdict) (p q : nat) (mp mq : mesh E A V) (b rb : bend E A N K P) (o : @conn N K) : Prop :=
  cn_from o = cn_to (be_conn rb) /\ cn_to o = cn_to (be_conn b) /\ Forall single_source (cn_groups o) /\
  forall g t g' s, (exists n, feeds o g t g' s n) <-> exists e0 e f e0' e' f' aff, int_entry fags g g' aff ((e0, f), (e0', f')) /\
    image groups (m_groups mp) parts p g e0 e /\ image groups (m_groups mq) parts q g' e0' e' /\ is_face (be_conn b) g t (g, e, f) /\ is_face (be_conn rb) g' s (g', e', f').
