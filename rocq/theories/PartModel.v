(** * PartModel: partition_mesh (meshmode/mesh/processing.py:99-569).

    Part identifiers are [nat]; the dict part_id_to_elements is an association list in
    insertion order.  Arrays created by np.empty have arbitrary contents: argument [garbage].
    np.where followed by fancy indexing is written as a filter of the adjacency entries.
    The consistency checks done by make_mesh on each part are left out.  No proofs in this file. *)
From Coq Require Import List Arith Bool ZArith.
From Verif Require Import Np MeshModel MeshStateModel.
Import ListNotations.

Definition partdict : Type := list (nat * list nat).

Fixpoint part_lookup (parts : partdict) (p : nat) : res (list nat) :=
  match parts with
  | [] => Err KeyError
  | (q, els) :: r => if q =? p then Ok els else part_lookup r p
  end.

(** part_id_to_part_index[part_id] (:490-492): position among the keys *)
Definition part_index (parts : partdict) (p : nat) : res nat :=
  match index_of p (map fst parts) with Some i => Ok i | None => Err KeyError end.

(** element_counts[elements] += 1 for each part (:482-484); a repeated index counts once. *)
Definition count_step (n : nat) (counts : list nat) (els : list nat) : res (list nat) :=
  _ <- guard (forallb (fun e => e <? n) els) IndexError ;;
  Ok (map (fun ic => snd ic + (if memb (fst ic) els then 1 else 0)) (enumerate counts)).

Definition element_counts (n : nat) (parts : partdict) : res (list nat) :=
  foldM (count_step n) (map snd parts) (repeat 0 n).

(** _compute_global_elem_to_part_elem (:101-128) *)
Definition global_elem_to_part_elem (garbage : list (nat * nat)) (parts : partdict)
  : res (list (nat * nat)) :=
  foldM (fun g2p (ip : nat * (nat * list nat)) =>
           let els := snd (snd ip) in
           scatter g2p (combine els (map (fun k => (fst ip, k)) (seq 0 (length els)))))
        (enumerate parts) garbage.

(** flat[start:end].reshape(rows.shape) *)
Fixpoint reshape_like {X} (rows : list (list X)) (flat : list X) : list (list X) :=
  match rows with
  | [] => []
  | r :: rs => firstn (length r) flat :: reshape_like rs (skipn (length r) flat)
  end.

Fixpoint cut_groups {X} (start : nat) (groups : list (list (list X))) (flat : list X)
  : list (list (list X)) :=
  match groups with
  | [] => []
  | rows :: gs =>
      let stop := start + length (concat rows) in
      reshape_like rows (slice flat start stop) :: cut_groups stop gs flat
  end.

(** _filter_mesh_groups (:131-199) *)
Definition filter_mesh_groups {E} (groups : list (egroup E)) (selected : list nat)
  : res (list (egroup E) * list nat) :=
  let bases := base_element_nrs (map nelements groups) in
  let starts := map (searchsorted selected) bases ++ [length selected] in
  fge <- mapM (fun igrp =>
                 lo <- get starts igrp ;; hi <- get starts (S igrp) ;; base <- get bases igrp ;;
                 Ok (map (fun e => e - base) (slice selected lo hi))) (seq 0 (length groups)) ;;
  filtered <- mapM (fun gf : egroup E * list nat =>
                      match eg_vi (fst gf) with
                      | Some vi => rows <- take vi (snd gf) ;; Ok [rows]
                      | None => Ok []
                      end) (combine groups fge) ;;
  let filtered := concat filtered in
  (* np.concatenate of an empty list *)
  _ <- guard (negb (length filtered =? 0)) ValueError ;;
  let '(required, inv) := unique_inverse (concat (map (@concat nat) filtered)) in
  inv <- inv ;;
  let new_vi := cut_groups 0 filtered inv in
  new_groups <- mapM (fun igf : nat * (egroup E * list nat) =>
                        let '(igrp, (g, els)) := igf in
                        vi <- get new_vi igrp ;;
                        nodes <- take (eg_nodes g) els ;;
                        Ok (mk_egroup (Some vi) nodes (eg_fvi g)))
                     (enumerate (combine groups fge)) ;;
  Ok (new_groups, required).

(** self_mesh_group_elem_base (:509-513) *)
Definition elem_bases {E} (groups : list (egroup E)) : list nat :=
  snd (fold_left (fun st g => (fst st + nelements g, snd st ++ [fst st])) groups (0, [])).

Section Adjacency.
  Context {A : Type}.

  (** An interior adjacency entry with the (part index, part-wide number) of both elements *)
  Definition locate (g2p : list (nat * nat)) (bi bj : nat) (en : fentry)
    : res (fentry * ((nat * nat) * (nat * nat))) :=
    a <- get g2p (fst (fst en) + bi) ;;
    b <- get g2p (fst (snd en) + bj) ;;
    Ok (en, (a, b)).

  (** the loops over the InteriorAdjacencyGroups of all element groups *)
  Definition for_interior {R} (bases : list nat) (g2p : list (nat * nat)) (fags : list (list (fagrp A)))
      (f : nat -> nat -> A -> list (fentry * ((nat * nat) * (nat * nat))) -> res (list R))
    : res (list (list R)) :=
    mapM (fun il : nat * list (fagrp A) =>
            ls <- mapM (fun fa =>
                          match fa with
                          | Interior _ jgrp es aff =>
                              bi <- get bases (fst il) ;;
                              bj <- get bases jgrp ;;
                              les <- mapM (locate g2p bi bj) es ;;
                              f (fst il) jgrp aff les
                          | _ => Ok []
                          end) (snd il) ;;
            Ok (concat ls)) (enumerate fags).

  (** _get_connected_parts (:202-252) *)
  Definition connected_parts (bases : list nat) (g2p : list (nat * nat)) (parts : partdict)
      (self : nat) (fags : list (list (fagrp A))) : res (list nat) :=
    idx <- for_interior bases g2p fags
             (fun _ _ _ les =>
                Ok (map (fun x => fst (snd (snd x)))
                        (filter (fun x => (fst (fst (snd x)) =? self) && negb (fst (snd (snd x)) =? self)) les))) ;;
    let set := concat idx in
    Ok (map snd (filter (fun ip => memb (fst ip) set) (enumerate (map fst parts)))).

  (** _create_self_to_self_adjacency_groups (:255-321) *)
  Definition self_to_self (bases : list nat) (g2p : list (nat * nat)) (self : nat) (sbases : list nat)
      (fags : list (list (fagrp A))) : res (list (list (fagrp A))) :=
    for_interior bases g2p fags
      (fun igrp jgrp aff les =>
         let sel := filter (fun x => (fst (fst (snd x)) =? self) && (fst (snd (snd x)) =? self)) les in
         match sel with
         | [] => Ok []
         | _ =>
             si <- get sbases igrp ;;
             sj <- get sbases jgrp ;;
             Ok [Interior igrp jgrp
                   (map (fun x : fentry * ((nat * nat) * (nat * nat)) =>
                           ((snd (fst (snd x)) - si, snd (fst (fst x))),
                            (snd (snd (snd x)) - sj, snd (snd (fst x))))) sel) aff]
         end).

  (** _create_self_to_other_adjacency_groups (:324-404) *)
  Definition self_to_other (bases : list nat) (g2p : list (nat * nat)) (parts : partdict) (self : nat)
      (sbases : list nat) (connected : list nat) (fags : list (list (fagrp A)))
    : res (list (list (fagrp A))) :=
    for_interior bases g2p fags
      (fun igrp jgrp aff les =>
         ls <- mapM (fun q =>
                       qi <- part_index parts q ;;
                       let sel := filter (fun x => (fst (fst (snd x)) =? self) && (fst (snd (snd x)) =? qi)) les in
                       match sel with
                       | [] => Ok []
                       | _ =>
                           si <- get sbases igrp ;;
                           Ok [InterPart igrp (TPartition q) q
                                 (map (fun x : fentry * ((nat * nat) * (nat * nat)) =>
                                         ((snd (fst (snd x)) - si, snd (fst (fst x))),
                                          (snd (snd (snd x)), snd (snd (fst x))))) sel) aff]
                       end) connected ;;
         Ok (concat ls)).

  (** _create_boundary_groups (:407-462) *)
  Definition part_boundary (bases : list nat) (g2p : list (nat * nat)) (self : nat) (sbases : list nat)
      (fags : list (list (fagrp A))) : res (list (list (fagrp A))) :=
    mapM (fun il : nat * list (fagrp A) =>
            ls <- mapM (fun fa =>
                          match bdry_tag fa with
                          | None => Ok []
                          | Some t =>
                              bi <- get bases (fst il) ;;
                              les <- mapM (fun ef : nat * nat => a <- get g2p (fst ef + bi) ;; Ok (ef, a)) (fag_faces fa) ;;
                              let sel := filter (fun x => fst (snd x) =? self) les in
                              match sel with
                              | [] => Ok [Boundary (fst il) t []]
                              | _ =>
                                  si <- get sbases (fst il) ;;
                                  Ok [Boundary (fst il) t
                                        (map (fun x : (nat * nat) * (nat * nat) =>
                                                (snd (snd x) - si, snd (fst x))) sel)]
                              end
                          end) (snd il) ;;
            Ok (concat ls)) (enumerate fags).
End Adjacency.

(** _get_mesh_part (:465-546).  [fags] is the result of mesh.facial_adjacency_groups; one list
    per element group is required (check_mesh_consistency).  The default integer dtypes are 0. *)
Definition get_mesh_part {E A V} (garbage : list (nat * nat))
    (vertices : option (list V)) (groups : list (egroup E)) (fags : res (list (list (fagrp A))))
    (conforming : option bool) (parts : partdict) (self_id : nat) : res (mesh E A V) :=
  match vertices with
  | None => Err ValueError
  | Some vs =>
      let n := sum (map nelements groups) in
      counts <- element_counts n parts ;;
      _ <- guard (negb (existsb (fun c => 1 <? c) counts)) ValueError ;;
      _ <- guard (negb (existsb (fun c => c <? 1) counts)) ValueError ;;
      g2p <- global_elem_to_part_elem garbage parts ;;
      selected <- part_lookup parts self_id ;;
      '(new_groups, required) <- filter_mesh_groups groups selected ;;
      self <- part_index parts self_id ;;
      new_vertices <- take vs required ;;
      let sbases := elem_bases new_groups in
      let bases := base_element_nrs (map nelements groups) in
      fags <- fags ;;
      _ <- guard (length fags =? length groups) IndexError ;;
      connected <- connected_parts bases g2p parts self fags ;;
      ss <- self_to_self bases g2p self sbases fags ;;
      so <- self_to_other bases g2p parts self sbases connected fags ;;
      bd <- part_boundary bases g2p self sbases fags ;;
      gathered <- mapM (fun igrp => a <- get ss igrp ;; b <- get so igrp ;; c <- get bd igrp ;; Ok (a ++ b ++ c))
                       (seq 0 (length new_groups)) ;;
      make_mesh (Some new_vertices) new_groups Pending (Available gathered) conforming 0 0 0
  end.

(** partition_mesh (:549-569); np.empty gives fresh arbitrary contents for every part *)
Definition partition_mesh {E A V} (garbage : nat -> list (nat * nat))
    (vertices : option (list V)) (groups : list (egroup E)) (fags : res (list (list (fagrp A))))
    (conforming : option bool) (parts : partdict) (return_parts : option (list nat))
  : res (list (nat * mesh E A V)) :=
  let rp := match return_parts with None => map fst parts | Some l => l end in
  mapM (fun p => m <- get_mesh_part (garbage p) vertices groups fags conforming parts p ;; Ok (p, m)) rp.
