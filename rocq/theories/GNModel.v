(** * GNModel: reference coordinates on opposite faces by the Gauss-Newton method.

    Models _find_src_unit_nodes_via_gauss_newton (meshmode/discretization/connection/opposite_face.py:142-312).

    Simplified: numbers are elements of an ordered commutative ring with an argument [inv] for division, None if the result is not finite.
    A reference point is None if one of its coordinates is not finite; basis functions have no finite values there, so that the test of the sum of the
    coefficients fails.  The inverse of the Vandermonde matrix and la.lstsq are arguments.  Points of elements are lists of coordinates.
    No proofs in this file. *)
From Coq Require Import List Arith Bool.
From Verif Require Import Np Lin Ord.
Import ListNotations.

Section GaussNewton.
  Variable R : ocring.
  Variable inv : R -> option R.
  Variable lstsq : list (list R) -> list R -> list R.
  Variable tol : R.
  Variables (dim amb : nat).
  (** basis_obj().functions, .gradients, inv_t_vdm *)
  Variable basis : list (list R -> R).
  Variable gradients : list (list R -> list R).
  Variable M : list (list R).

  (** np.abs(x) < tol *)
  Definition small (x : R) : bool := olt (ropp tol) x && olt x tol.

  (** apply_map (:163-183) for one point of one element with nodes [pts] *)
  Definition apply_map (pts : list (list R)) (u : list R) : res (list R) :=
    let coeffs := matvec M (map (fun f => f u) basis) in
    _ <- guard (small (rsub (rsum coeffs) r1)) AssertionError ;;
    Ok (vecmat amb coeffs pts).

  (** get_map_jacobian (:185-203): one row for each reference axis *)
  Definition jacobian (pts : list (list R)) (u : list R) : res (list (list R)) :=
    mapM (fun r => db <- mapM (fun g => get (g u) r) gradients ;; Ok (vecmat amb (matvec M db) pts)) (seq 0 dim).

  (** df_inv_resid (:243-276) *)
  Definition solve (df : list (list R)) (resid : list R) : option (list R) :=
    match dim, df with
    | 1, [d0] => option_map (fun i => [rmul (dot d0 resid) i]) (inv (dot d0 d0))
    | 2, [d0; d1] =>
        let a00 := dot d0 d0 in let a01 := dot d0 d1 in let a10 := dot d1 d0 in let a11 := dot d1 d1 in
        let b0 := dot d0 resid in let b1 := dot d1 resid in
        let det := rsub (rmul a00 a11) (rmul a01 a10) in
        option_map (fun i => [rmul i (rsub (rmul a11 b0) (rmul a10 b1)); rmul i (radd (ropp (rmul a01 b0)) (rmul a00 b1))]) (inv det)
    | _, _ => Some (lstsq df resid)
    end.

  (** the residual at one point, and the next point; basis functions at a point that is not finite fail the assertion (:176) *)
  Definition newton_point (pts : list (list R)) (u : option (list R)) (tgt : list R) : res (list R * option (list R)) :=
    match u with
    | None => Err AssertionError
    | Some u =>
        y <- apply_map pts u ;;
        let resid := vsub y tgt in
        df <- jacobian pts u ;;
        Ok (resid, option_map (vsub u) (solve df resid))
    end.

  (** The loop (:236-310) over points with the nodes of their elements and their targets; [fuel] more iterations are allowed *)
  Fixpoint iterate (fuel : nat) (problems : list (list (list R) * list R)) (us : list (option (list R))) : res (list (option (list R))) :=
    steps <- mapM (fun pu => newton_point (fst (fst pu)) (snd pu) (snd (fst pu))) (combine problems us) ;;
    let resids := concat (map fst steps) in
    _ <- guard (negb (length resids =? 0)) ValueError ;;      (* np.max *)
    if forallb small resids then Ok (map snd steps)
    else match fuel with
         | 0 => Err RuntimeError
         | S fuel => iterate fuel problems (map snd steps)
         end.

  (** All elements; [guess] is the mean of the corners of the reference element (:149-151) *)
  Definition gauss_newton (guess : list R) (tgt src : list (list (list R))) : res (list (option (list R))) :=
    let problems := concat (map (fun ts => map (fun t => (snd ts, t)) (fst ts)) (combine tgt src)) in
    iterate 10 problems (map (fun _ => Some guess) problems).
End GaussNewton.
