(** * NadjModel: the check of nodal adjacency against the geometry.

    Models, of meshmode/mesh/refinement/utils.py: is_symmetric (135-143), check_nodal_adj_against_geometry (146-223).

    Simplified: rational numbers instead of floating-point numbers. The element lookup tree (LookupModel) is the list of matches of a point, np.linalg.lstsq and the contents of
    np.empty are arguments. Sets of numbers are lists of pairs, compared as sets. Logging and printing are left out. No proofs in this file. *)
From Coq Require Import List Arith QArith Bool.
From Verif Require Import Np.
Import ListNotations.
Local Open Scope nat_scope.

Definition pt : Type := list Q.
Definition psub (a b : pt) : pt := map (fun ab => fst ab - snd ab)%Q (combine a b).
Definition qsum (l : list Q) : Q := fold_right Qplus 0%Q l.
Definition normsq (p : pt) : Q := qsum (map (fun x => x * x)%Q p).

(** for each number below n the partners *)
Definition relation_of (n : nat) (pairs : list (nat * nat)) : list (list nat) := map (fun a => map snd (filter (fun p => fst p =? a) pairs)) (seq 0 n).

(** is_symmetric (135-143) *)
Definition is_symmetric (relation : list (list nat)) : res bool :=
  foldM (fun (ok : bool) ab => if ok then others <- get relation (snd ab) ;; Ok (memb (fst ab) others) else Ok false)
        (concat (map (fun al => map (fun b => (fst al, b)) (snd al)) (enumerate relation))) true.

Definition same_set (a b : list nat) : bool := forallb (fun x => memb x b) a && forallb (fun x => memb x a) b.

Section Check.
  Variable lstsq : list pt -> pt -> list Q * option Q.  (* columns, right-hand side; solution, residual or None if its size is 0 *)
  Variable junk : nat -> list pt.                       (* the columns of np.empty *)
  Variable matches : pt -> list (nat * nat).            (* tree.generate_matches *)
  Variable tol : Q.

  (** The ratio of norms (192-196) is compared after squaring; the residual has one entry *)
  Definition is_connected (cols : list pt) (v : pt) : bool :=
    let '(bary, residual) := lstsq cols v in
    let in_span := match residual with
                   | None => true
                   | Some r => Qeq_bool (normsq v) 0 || (Qle_bool 0 tol && Qle_bool (r * r)%Q (tol * tol * normsq v)%Q)
                   end in
    in_span && Qle_bool (qsum bary) (1 + tol)%Q && forallb (Qle_bool (- tol)%Q) bary.

  (** the edges from the first vertex (177-187) *)
  Definition transformation (nv : nat) (vertices : list pt) (row : list nat) : res (pt * list pt) :=
    match row with
    | [] => Err IndexError
    | o :: others =>
        origin <- get vertices o ;;
        cols <- foldM (fun cols ki => v <- get vertices (snd ki) ;; put cols (fst ki) (psub v origin)) (enumerate others) (junk (nv - 1)) ;;
        Ok (origin, cols)
    end.

  Definition base (groups : list (list (list nat))) (igrp : nat) : nat := sum (map (@length _) (firstn igrp groups)).
  Definition elements (groups : list (list (list nat))) : list (nat * nat * list nat) :=
    concat (map (fun gg => map (fun er => (fst gg, fst er, snd er)) (enumerate (snd gg))) (enumerate groups)).

  (** one element: its neighbors, and the pairs found geometrically (163-207) *)
  Definition visit (nv : nat) (vertices : list pt) (groups : list (list (list nat))) (starts neighbors : list nat) (el : nat * nat * list nat)
      : res (list (nat * nat) * list (nat * nat)) :=
    let '(igrp, iel, row) := el in
    let e := base groups igrp + iel in
    a <- get starts e ;;
    b <- get starts (e + 1) ;;
    geo <- mapM (fun i =>
      vertex <- get vertices i ;;
      found <- mapM (fun near =>
        if (fst near =? igrp) && (snd near =? iel) then Ok []
        else
          grp <- get groups (fst near) ;;
          row' <- get grp (snd near) ;;
          oc <- transformation nv vertices row' ;;
          let e' := base groups (fst near) + snd near in
          Ok (if is_connected (snd oc) (psub vertex (fst oc)) then [(e', e); (e, e')] else [])) (matches vertex) ;;
      Ok (concat found)) row ;;
    Ok (map (fun nb => (e, nb)) (slice neighbors a b), concat geo).

  (** check_nodal_adj_against_geometry *)
  Definition check (vertices : list pt) (groups : list (list (list nat))) (starts neighbors : list nat) : res unit :=
    g0 <- get groups 0 ;;
    r0 <- get g0 0 ;;
    found <- mapM (visit (length r0) vertices groups starts neighbors) (elements groups) ;;
    let n := sum (map (@length _) groups) in
    let connectivity := relation_of n (concat (map fst found)) in
    let geometry := relation_of n (concat (map snd found)) in
    sym <- is_symmetric connectivity ;;
    _ <- guard sym AssertionError ;;
    guard (forallb (fun ab => same_set (fst ab) (snd ab)) (combine geometry connectivity)) AssertionError.
End Check.
