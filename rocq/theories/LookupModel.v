(** * LookupModel: the search tree for elements.

    Models make_element_lookup_tree (meshmode/mesh/tools.py:50-67) up to the calls of pytools' SpatialBinaryTreeBucket: the box of the root and the
    boxes that are inserted, in order. Coordinates are elements of an ordered ring. No proofs in this file. *)
From Coq Require Import List Arith Bool.
From Verif Require Import Np Lin Ord MeshModel MeshStateModel ProcModel.
Import ListNotations.

Section Lookup.
  Variable R : ocring.
  Context {E A : Type}.
  Definition box : Type := (list R * list R)%type.

  (** bbox_min - eps, bbox_max + eps (:53-54, :62-63) *)
  Definition widen (eps : R) (b : box) : box := (map (fun x => rsub x eps) (fst b), map (fun x => radd x eps) (snd b)).

  (** np.min and np.max over the points of an element (:60-63) *)
  Definition element_box (dim : nat) (eps : R) (vertices : list (list R)) (row : list nat) : res box :=
    pts <- take vertices row ;;
    lo <- mapM (fun a => l <- axis_values pts a ;; amin ole l) (seq 0 dim) ;;
    hi <- mapM (fun a => l <- axis_values pts a ;; amax ole l) (seq 0 dim) ;;
    Ok (widen eps (lo, hi)).

  Definition make_element_lookup_tree (dim : nat) (eps : R) (m : mesh (list (list R)) A (list R)) : res (box * list ((nat * nat) * box)) :=
    bb <- find_bounding_box ole dim m ;;
    match m_vertices m with
    | None => Err ValueError
    | Some vertices =>
        entries <- mapM (fun ig : nat * egroup (list (list R)) =>
                     mapM (fun iel =>
                       match eg_vi (snd ig) with
                       | None => Err TypeError
                       | Some vi => row <- get vi iel ;; b <- element_box dim eps vertices row ;; Ok ((fst ig, iel), b)
                       end) (seq 0 (length (eg_nodes (snd ig))))) (enumerate (m_groups m)) ;;
        Ok (widen eps bb, concat entries)
    end.
End Lookup.
