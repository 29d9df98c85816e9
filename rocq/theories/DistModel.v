(** * DistModel: distributing parts over MPI ranks (meshmode/distributed.py)

    Part identifiers and ranks are [nat]. A network of ranks is a state machine; its events are chosen by an arbitrary schedule.
    Not modelled: pickling, the duplicated communicator (messages of other helpers cannot be received), logging and deprecation warnings. *)
From Coq Require Import List Arith Bool.
From Verif Require Import Np MeshModel MeshStateModel PartModel ConnModel FaceConnModel.
Import ListNotations.

(** Python dicts: association lists in order of insertion *)
Fixpoint dset {K V} (eqb : K -> K -> bool) (d : list (K * V)) (k : K) (v : V) : list (K * V) :=
  match d with [] => [(k, v)] | (k', v') :: d => if eqb k' k then (k', v) :: d else (k', v') :: dset eqb d k v end.
Fixpoint dget {K V} (eqb : K -> K -> bool) (d : list (K * V)) (k : K) : res V :=
  match d with [] => Err KeyError | (k', v) :: d => if eqb k' k then Ok v else dget eqb d k end.
Definition ddel {K V} (eqb : K -> K -> bool) (d : list (K * V)) (k : K) : res (list (K * V)) :=
  _ <- dget eqb d k ;; Ok (filter (fun kv => negb (eqb (fst kv) k)) d).

(** pytools.unique: first occurrences *)
Fixpoint first_occ (l : list nat) : list nat :=
  match l with [] => [] | x :: l => x :: filter (fun y => negb (x =? y)) (first_occ l) end.

(** membership_list_to_map (462-475) *)
Definition membership_list_to_map (l : list nat) : partdict :=
  fold_left (fun d entry => dset Nat.eqb d entry (where_ (map (Nat.eqb entry) l))) (sort_nat (first_occ l)) [].

(** get_connected_parts (479-489) *)
Definition get_connected_parts {A} (fags : list (list (fagrp A))) : list nat :=
  first_occ (flat_map (flat_map (fun b => match b with InterPart _ _ q _ _ => [q] | _ => [] end)) fags).

(** get_partition_by_pymetis, connectivity="facial" (404-459): the CSR graph passed to pymetis.part_graph.
    [order] is what np.argsort (an unstable sort) returns. *)
Definition facial_pairs {A} (sizes : list nat) (fags : list (list (fagrp A))) : res (list (nat * nat)) :=
  let bases := base_element_nrs sizes in
  ps <- mapM (fun b => match b with
                       | Interior ig j es _ => b0 <- get bases ig ;; b1 <- get bases j ;; Ok (map (fun en : fentry => (fst (fst en) + b0, fst (snd en) + b1)) es)
                       | _ => Ok []
                       end)
         (flat_map (filter (fun b => match b with Interior _ _ _ _ => true | _ => false end)) fags) ;;
  _ <- guard (negb (length ps =? 0)) ValueError ;;     (* np.hstack of an empty list *)
  Ok (concat ps).

Definition facial_csr {A} (argsort : list nat -> list nat) (sizes : list nat) (fags : list (list (fagrp A))) : res (list nat * list nat) :=
  ps <- facial_pairs sizes fags ;;
  sorted <- take ps (argsort (map fst ps)) ;;
  Ok (map (fun e => searchsorted (map fst sorted) e) (seq 0 (sum sizes + 1)), map snd sorted).

(** MPIMeshDistributor.send_mesh_parts (101-136): the part kept by the manager rank and the parts sent, with their destinations.
    [parts] is what partition_mesh returns. An invalid destination is an error of isend. *)
Definition send_mesh_parts {X} (size manager num_parts : nat) (parts : list (nat * X)) : res (option X * list (nat * X)) :=
  _ <- guard (num_parts <=? size) AssertionError ;;
  let others := filter (fun rp => negb (fst rp =? manager)) parts in
  _ <- guard (forallb (fun rp => fst rp <? size) others) ValueError ;;
  Ok (fold_left (fun _ rp => Some (snd rp)) (filter (fun rp => fst rp =? manager) parts) None, others).

(** ** MPIBoundaryCommSetupHelper *)
Section Helper.
  (** A boundary connection, what is sent about it (the boundary mesh and its remote group infos), the resulting connection *)
  Context {C M O : Type}.
  Variable pack : nat -> C -> res M.     (* to_discr.mesh, make_remote_group_infos(remote_part_id, connection) *)
  Variable link : C -> M -> res O.       (* make_partition_connection(connection, to_discr.copy(mesh), infos) *)

  (** InterRankBoundaryInfo (203-230) *)
  Record irbi : Type := mk_irbi { ib_local : nat; ib_remote : nat; ib_rank : nat; ib_conn : C }.
  Definition ib_pair (b : irbi) : nat * nat := (ib_local b, ib_remote b).

  (** A message: part of the sender, part of the receiver, content (302-313) *)
  Definition msg : Type := nat * nat * M.
  (** A key of the dict returned by complete_some: old and new interface (372-375) *)
  Inductive ckey : Type := KRemote (r : nat) | KPair (r l : nat).
  Definition ckey_eqb (a b : ckey) : bool :=
    match a, b with KRemote r, KRemote r' => r =? r' | KPair r l, KPair r' l' => (r =? r') && (l =? l') | _, _ => false end.
  Definition key_of (old : bool) (r l : nat) : ckey := if old then KRemote r else KPair r l.

  (** The old interface: one connection for each remote rank (258-267) *)
  Definition old_irbis (rank : nat) (conns : list (nat * C)) : list irbi := map (fun rc => mk_irbi rank (fst rc) (fst rc) (snd rc)) conns.

  (** __enter__ (287-317): the identifiers of pending messages, then the messages sent, with their destinations.
      If a connection cannot be packed, the messages before it have been sent. *)
  Definition pending_of (irbis : list irbi) : res (list ((nat * nat) * nat)) :=
    let d := fold_left (fun d ib => dset pair_eqb d (ib_pair (snd ib)) (fst ib)) (enumerate irbis) [] in
    _ <- guard (length d =? length irbis) AssertionError ;; Ok d.
  Fixpoint send_all (irbis : list irbi) : list (nat * msg) * option exn :=
    match irbis with
    | [] => ([], None)
    | b :: l =>
        match pack (ib_remote b) (ib_conn b) with
        | Err e => ([], Some e)
        | Ok m => let '(ms, e) := send_all l in ((ib_rank b, (ib_local b, ib_remote b, m)) :: ms, e)
        end
    end.

  (** complete_some (322-398), one message received (344-352) *)
  Definition receive (pending : list ((nat * nat) * nat)) (data : list (option (nat * msg))) (sm : nat * msg) : res (list (option (nat * msg))) :=
    let '(s, (rid, lid, m)) := sm in
    loc <- dget pair_eqb pending (lid, rid) ;;
    old <- get data loc ;;
    match old with None => put data loc (Some sm) | Some _ => Err AssertionError end.

  (** complete_some after all messages have been received (354-394) *)
  Definition build (old : bool) (irbis : list irbi) (pending : list ((nat * nat) * nat)) (data : list (option (nat * msg))) : res (list (ckey * O) * list ((nat * nat) * nat)) :=
    let by_pair := fold_left (fun d b => dset pair_eqb d (ib_pair b) b) irbis [] in
    _ <- guard (length irbis <=? length by_pair) ValueError ;;
    st <- foldM (fun (st : list (ckey * O) * list ((nat * nat) * nat)) (x : option (nat * msg)) =>
                   match x with
                   | None => Err TypeError
                   | Some (src, (rid, lid, m)) =>
                       b <- dget pair_eqb by_pair (lid, rid) ;;
                       _ <- guard (src =? ib_rank b) AssertionError ;;
                       o <- link (ib_conn b) m ;;
                       p <- ddel pair_eqb (snd st) (lid, rid) ;;
                       Ok (dset ckey_eqb (fst st) (key_of old rid lid) o, p)
                   end) data ([], pending) ;;
    _ <- guard (length (snd st) =? 0) AssertionError ;;
    Ok st.

  (** complete_some for messages arriving in the order [arr]: blocked, or the result, the identifiers still pending and the messages left *)
  Definition complete_some (old : bool) (irbis : list irbi) (pending : list ((nat * nat) * nat)) (arr : list (nat * msg))
      : option (res (list (ckey * O) * list ((nat * nat) * nat) * list (nat * msg))) :=
    match pending with
    | [] => Some (Ok ([], [], arr))
    | _ =>
        let n := length pending in
        match foldM (receive pending) (firstn n arr) (repeat None n) with
        | Err e => Some (Err e)
        | Ok data =>
            if length arr <? n then None
            else Some (st <- build old irbis pending data ;; Ok (fst st, snd st, skipn n arr))
        end
    end.

  (** A rank: not in the with block yet, receiving, waiting for its sends to complete, done (complete_some returned a result), or failed *)
  Inductive rstate : Type :=
  | Start
  | Recv (pending : list ((nat * nat) * nat)) (data : list (option (nat * msg))) (n : nat)
  | Wait (conns : list (ckey * O)) (pending : list ((nat * nat) * nat))
  | Done (conns : list (ckey * O)) (pending : list ((nat * nat) * nat))
  | Failed (e : exn).

  (** All ranks and the messages under way: source, destination, message *)
  Record gstate : Type := mk_gstate { g_net : list (nat * nat * msg); g_ranks : list rstate }.
  Inductive event : Type := Enter (r : nat) | Receive (r i : nat) | Finish (r : nat) | WaitAll (r : nat).

  (** One event; [None]: not possible now. [eager]: sends may complete before the messages have been received. *)
  Definition step (old : bool) (eager : bool) (cfg : list (list irbi)) (st : gstate) (ev : event) : option gstate :=
    let set_rank r x net := match put (g_ranks st) r x with Ok l => Some (mk_gstate net l) | Err _ => None end in
    match ev with
    | Enter r =>
        match nth_error (g_ranks st) r, nth_error cfg r with
        | Some Start, Some irbis =>
            match pending_of irbis with
            | Err e => set_rank r (Failed e) (g_net st)
            | Ok pending =>
                let '(ms, e) := send_all irbis in
                let net := g_net st ++ map (fun dm => (r, fst dm, snd dm)) ms in
                match e with
                | Some e => set_rank r (Failed e) net
                | None => set_rank r (match pending with [] => Done [] [] | _ => Recv pending (repeat None (length pending)) (length pending) end) net
                end
            end
        | _, _ => None
        end
    | Receive r i =>
        match nth_error (g_ranks st) r, nth_error (g_net st) i with
        | Some (Recv pending data (S n)), Some (src, dst, m) =>
            if dst =? r then
              match receive pending data (src, m) with
              | Err e => set_rank r (Failed e) (firstn i (g_net st) ++ skipn (S i) (g_net st))
              | Ok data => set_rank r (Recv pending data n) (firstn i (g_net st) ++ skipn (S i) (g_net st))
              end
            else None
        | _, _ => None
        end
    | Finish r =>
        match nth_error (g_ranks st) r, nth_error cfg r with
        | Some (Recv pending data 0), Some irbis =>
            match build old irbis pending data with
            | Err e => set_rank r (Failed e) (g_net st)
            | Ok (conns, pending) => set_rank r (Wait conns pending) (g_net st)
            end
        | _, _ => None
        end
    | WaitAll r =>
        match nth_error (g_ranks st) r with
        | Some (Wait conns pending) =>
            if eager || forallb (fun sdm => negb (fst (fst sdm) =? r)) (g_net st) then set_rank r (Done conns pending) (g_net st) else None
        | _ => None
        end
    end.
  Fixpoint run (old eager : bool) (cfg : list (list irbi)) (st : gstate) (evs : list event) : option gstate :=
    match evs with [] => Some st | ev :: evs => match step old eager cfg st ev with Some st => run old eager cfg st evs | None => None end end.
  Definition init (cfg : list (list irbi)) : gstate := mk_gstate [] (map (fun _ => Start) cfg).
End Helper.
Arguments irbi : clear implicits. Arguments msg : clear implicits. Arguments rstate : clear implicits. Arguments gstate : clear implicits.

(** ** What the ranks exchange
    One side of a boundary between parts: the groups and adjacency of the local part, its restriction to the boundary and the nodes there.
    The remote boundary discretization is made from the remote boundary mesh with the group factory of the helper (384-387); here this is the one
    the remote part has used, so that its groups and nodes are those of the remote restriction. *)
Section Exchange.
  Context {E A N K P : Type}.
  Record bend : Type := mk_bend { be_groups : list (egroup E); be_fags : list (list (fagrp A)); be_conn : @conn N K; be_coords : list (list (list P)) }.
  Definition bmsg : Type := list (@dgroup K) * list (list (list P)) * list (@rginfo A).
  (** The content of a message (308-312) *)
  Definition bend_pack (q : nat) (b : bend) : res bmsg :=
    infos <- make_infos (be_fags b) q (length (be_groups b)) (be_conn b) ;; Ok (cn_to (be_conn b), be_coords b, infos).

  Variables (unit_nodes : K -> N) (select_nodes : K -> list nat -> N) (app : A -> P -> P) (close : P -> P -> bool)
    (gauss_newton : K -> list (list P) -> list (list P) -> res (list N)) (nodes_close : N -> N -> bool).
  (** The connection made of it (379-389) *)
  Definition bend_link (dim0 : bool) (b : bend) (m : bmsg) : res (@conn N K) :=
    make_partition_connection unit_nodes select_nodes app close gauss_newton nodes_close dim0 (be_groups b) (be_conn b) (be_coords b) (fst (fst m)) (snd (fst m)) (snd m).

  (** The boundaries listed by rank [r], to which the parts [p] with [rank_of p = r] have been assigned: one for each part of the rank and each part connected to it *)
  Definition part_irbis {V} (rank_of : nat -> nat) (side : nat -> nat -> bend) (ms : list (nat * mesh E A V)) (r : nat) : list (irbi bend) :=
    flat_map (fun pm => if rank_of (fst pm) =? r then
                          match m_facial (snd pm) with
                          | Available fags => map (fun q => mk_irbi (fst pm) q (rank_of q) (side (fst pm) q)) (get_connected_parts fags)
                          | _ => []
                          end
                        else []) ms.
End Exchange.
Arguments bend : clear implicits. Arguments bmsg : clear implicits.
