(** * PointModel: matching of points.

    Models find_point_to_point_mapping and find_point_permutation (meshmode/mesh/tools.py:234-379).

    Simplified: coordinates are elements of an ordered commutative ring; numpy.median is an argument (any function).
    A point array of shape (dim, n) is a list of n points together with dim.  The recursion is bounded by fuel; running
    out of it is [Err NonTermination] (in Python a RecursionError).  No proofs in this file. *)
From Coq Require Import List Arith Bool ZArith.
From Verif Require Import Np MeshModel MeshStateModel Lin Ord ProcModel.
Import ListNotations.

Section Points.
  Variable R : ocring.
  Variable median : list R -> R.

  (** np.sum(displacements**2, axis=0) for one pair *)
  Definition dist2 (x y : list R) : R := rsum (map2 (fun a b => rmul (rsub a b) (rsub a b)) x y).

  (** np.argmin: the first smallest entry; ValueError for an empty array *)
  Fixpoint argmin_from (best : R) (ibest i : nat) (l : list R) : nat :=
    match l with
    | [] => ibest
    | x :: l => if ole best x then argmin_from best ibest (S i) l else argmin_from x i (S i) l
    end.
  Definition argmin (l : list R) : res nat :=
    match l with [] => Err ValueError | x :: l => Ok (argmin_from x 0 1 l) end.
  (** np.argmax *)
  Fixpoint argmax_from (best : R) (ibest i : nat) (l : list R) : nat :=
    match l with
    | [] => ibest
    | x :: l => if ole x best then argmax_from best ibest (S i) l else argmax_from x i (S i) l
    end.
  Definition argmax (l : list R) : res nat :=
    match l with [] => Err ValueError | x :: l => Ok (argmax_from x 0 1 l) end.

  (** Few points: all distances (:308-323) *)
  Definition match_leaf (tol : R) (src tgt : list (list R)) : res (list Z) :=
    (* argmin over an axis of length zero *)
    _ <- guard (negb (length tgt =? 0)) ValueError ;;
    mapM (fun s =>
            let ds := map (dist2 s) tgt in
            k <- argmin ds ;;
            m <- get ds k ;;
            Ok (if olt m (rmul tol tol) then Z.of_nat k else (-1)%Z)) src.

  (** np.where(points[axis, :] <= c), np.where(points[axis, :] >= c) *)
  Definition where_le (axis : nat) (c : R) (pts : list (list R)) : res (list nat) :=
    xs <- axis_values pts axis ;; Ok (where_ (map (fun x => ole x c) xs)).
  Definition where_ge (axis : nat) (c : R) (pts : list (list R)) : res (list nat) :=
    xs <- axis_values pts axis ;; Ok (where_ (map (fun x => ole c x) xs)).

  (** idim_largest (:328-330) *)
  Definition largest_axis (dim : nat) (both : list (list R)) : res nat :=
    extents <- mapM (fun a => xs <- axis_values both a ;; hi <- amax ole xs ;; lo <- amin ole xs ;; Ok (rsub hi lo)) (seq 0 dim) ;;
    argmax extents.

  (** src_idx_to_tgt_idx[sidx[matched]] = tidx[r[matched]] (:370-377) *)
  Definition store_matches (sidx tidx : list nat) (r : list Z) (full : list Z) : res (list Z) :=
    ivs <- mapM (fun ir : nat * Z => s <- get sidx (fst ir) ;; t <- get tidx (Z.to_nat (snd ir)) ;; Ok (s, Z.of_nat t))
                (filter (fun ir => (0 <=? snd ir)%Z) (enumerate r)) ;;
    scatter full ivs.

  Fixpoint find_mapping (fuel : nat) (tol : R) (max_leaf dim : nat) (src tgt : list (list R)) : res (list Z) :=
    match fuel with
    | 0 => Err NonTermination
    | S fuel =>
        if dim =? 0 then _ <- guard (length tgt =? 1) AssertionError ;; Ok [0%Z]
        else if length src + length tgt <=? max_leaf then match_leaf tol src tgt
        else
          let both := tgt ++ src in
          axis <- largest_axis dim both ;;
          coords <- axis_values both axis ;;
          let med := median coords in
          lsrc <- where_le axis (radd med tol) src ;;
          ltgt <- where_le axis (radd med tol) tgt ;;
          usrc <- where_ge axis (rsub med tol) src ;;
          utgt <- where_ge axis (rsub med tol) tgt ;;
          lsp <- take src lsrc ;;
          ltp <- take tgt ltgt ;;
          lower <- find_mapping fuel tol max_leaf dim lsp ltp ;;
          usp <- take src usrc ;;
          utp <- take tgt utgt ;;
          upper <- find_mapping fuel tol max_leaf dim usp utp ;;
          r1 <- store_matches lsrc ltgt lower (repeat (-1)%Z (length src)) ;;
          store_matches usrc utgt upper r1
    end.

  (** find_point_to_point_mapping with a given tolerance; the dimensions are those of the two arrays *)
  Definition find_point_to_point_mapping (fuel : nat) (tol : R) (max_leaf src_dim tgt_dim : nat) (src tgt : list (list R)) : res (list Z) :=
    _ <- guard (tgt_dim =? src_dim) ValueError ;;
    find_mapping fuel tol max_leaf src_dim src tgt.

  (** find_point_permutation (:236-259); _max_leaf_points is 256 *)
  Definition find_point_permutation (fuel : nat) (tol : R) (src_dim tgt_dim : nat) (targets permutees : list (list R)) : res (option (list Z)) :=
    r <- find_point_to_point_mapping fuel tol 256 src_dim tgt_dim targets permutees ;;
    Ok (if forallb (fun z => (0 <=? z)%Z) r then Some r else None).
End Points.
