(** * ShowModel: pictures of fields.

    Models meshmode/discretization/visualization.py: Visualizer.show_scalar_in_mayavi (:642-688) and Visualizer.show_scalar_in_matplotlib_3d
    (:1296-1365).  The nodes are the rows of _vis_nodes_numpy (:632-638), the connectivity is the one of [VisModel.vis_groups], the field is resampled
    by [VisIoModel.resample].

    Simplified: coordinates and values are elements of a commutative ring; the mean of a list is an argument.  matplotlib's
    Triangulation.get_from_args_and_kwargs takes the first two axes and the triangles, refuses an empty list of triangles and triangles with points that do
    not exist, and returns the remaining keyword arguments, of which there are none.  What mayavi and matplotlib do with the data handed over is not modelled, a picture is
    the data handed over.  Keyword arguments are a list of names and values without None; the empty axes opened by matplotlib before an error are not modelled.
    No proofs in this file. *)
From Coq Require Import String List Arith Bool.
From Verif Require Import Np MeshModel Lin VisModel VisIoModel.
Import ListNotations.

(** vis_connectivity.reshape(-1, k), for k > 0 *)
Definition reshape (k : nat) (flat : list nat) : res (list (list nat)) :=
  if length flat mod k =? 0 then Ok (chunks (length flat / k) k flat) else Err ValueError.

Section Show.
  Variable R : cring.
  Variable mean : list R -> R.
  Variable V : Type.   (* values of keyword arguments *)
  Variable truthy : V -> bool.
  Variable conn_for : visgrp -> res (list (list nat) * nat).
  Variable conn : dofarray R -> res (dofarray R).
  Variable groups : list visgrp.
  Variable dim : nat.
  Variable nodes : list (list R).
  Local Open Scope cring_scope.

  Definition sizes : list (nat * nat) := map (fun g => (vg_nel g, vg_nunit g)) groups.

  (** kwargs.pop(name, default) *)
  Definition kwargs : Type := list (string * V).
  Definition kw_get (name : string) (kw : kwargs) : option V :=
    match find (fun nv : string * V => String.eqb (fst nv) name) kw with Some nv => Some (snd nv) | None => None end.
  Definition kw_del (name : string) (kw : kwargs) : kwargs := filter (fun nv : string * V => negb (String.eqb (fst nv) name)) kw.
  Definition pop (name : string) (kw : kwargs) : option V * kwargs := (kw_get name kw, kw_del name kw).
  Definition do_show (v : option V) : bool := match v with Some v => truthy v | None => true end.

  (** pad to 3D with zeros (:656-659, 672-675, 1322-1325) *)
  Definition pad : res (list (list R)) :=
    match nodes with
    | [] => Err IndexError
    | x :: _ => Ok (nodes ++ repeat (map (fun a => 0 * a) x) (3 - length nodes)%nat)
    end.

  (** ** show_scalar_in_mayavi: the points, the lines or triangles, the values at the points, the keyword arguments (besides scalars) and whether the window is shown *)
  Record mayavi : Type := mk_mayavi {
    my_axes : list (list R); my_cells : list (list nat); my_values : rval R; my_kwargs : kwargs; my_shown : bool }.

  Definition show_scalar_in_mayavi (field : fval R) (kw : kwargs) : res mayavi :=
    let (show, kw) := pop "do_show" kw in
    vals <- resample R conn sizes field ;;
    vcs <- vis_groups conn_for groups ;;
    c <- get vcs 0 ;;
    let vis_connectivity := concat (map (@concat nat) (vc_conn c)) in
    match dim with
    | 1 =>
        axes <- pad ;;
        _ <- guard (length axes =? 3) AssertionError ;;
        lines <- reshape 2 vis_connectivity ;;
        Ok (mk_mayavi axes lines vals kw (do_show show))
    | 2 =>
        axes <- pad ;;
        triangles <- reshape 3 vis_connectivity ;;
        (* kwargs["scalars"] = field *)
        Ok (mk_mayavi axes triangles vals (kw_del "scalars" kw) (do_show show))
    | _ => Err RuntimeError
    end.

  (** ** show_scalar_in_matplotlib_3d: the corners of the triangles, their values, the keyword arguments of the collection, the arguments of set_clim if called, the norm,
      and whether the figure is shown *)
  Record mplpic : Type := mk_mplpic {
    mp_verts : list (list (list R)); mp_values : list R; mp_kwargs : kwargs; mp_clim : option (option V * option V); mp_norm : option V; mp_shown : bool }.

  (** np.stack((xt, yt, zt), axis=-1) (:1342) *)
  Definition stack3 (xt yt zt : list (list R)) : list (list (list R)) :=
    map (fun t : list R * (list R * list R) =>
           map (fun p : R * (R * R) => [fst p; fst (snd p); snd (snd p)]) (combine (fst t) (combine (fst (snd t)) (snd (snd t)))))
        (combine xt (combine yt zt)).

  (** Triangulation.get_from_args_and_kwargs: the triangles and the remaining keyword arguments *)
  Definition triangulation (npoints : nat) (triangles : list (list nat)) : res (list (list nat) * kwargs) :=
    _ <- guard (negb (length triangles =? 0)%nat) ValueError ;;
    _ <- guard (forallb (forallb (fun i => i <? npoints)%nat) triangles) ValueError ;;
    Ok (triangles, []).

  Definition show_scalar_in_matplotlib_3d (field : fval R) (kw : kwargs) : res mplpic :=
    let (show, kw) := pop "do_show" kw in
    let (vmin, kw) := pop "vmin" kw in
    let (vmax, kw) := pop "vmax" kw in
    let (norm, kw) := pop "norm" kw in
    r <- resample R conn sizes field ;;
    (* np.can_cast(field.dtype, float, "same_kind") (:1309) *)
    vals <- match r with RArr (RealArr l) => Ok l | _ => Err ValueError end ;;
    vcs <- vis_groups conn_for groups ;;
    c <- match vcs with [c] => Ok c | _ => Err ValueError end ;;
    _ <- guard (dim =? 2)%nat RuntimeError ;;
    axes <- pad ;;
    x <- get axes 0 ;; y <- get axes 1 ;; z <- get axes 2 ;;
    reshaped <- reshape 3 (concat (map (@concat nat) (vc_conn c))) ;;
    '(triangles, kw) <- triangulation (length x) reshaped ;;
    xt <- mapM (take x) triangles ;;
    yt <- mapM (take y) triangles ;;
    zt <- mapM (take z) triangles ;;
    fieldt <- mapM (take vals) triangles ;;
    let clim := match vmin, vmax with None, None => None | _, _ => Some (vmin, vmax) end in
    Ok (mk_mplpic (stack3 xt yt zt) (map mean fieldt) kw clim norm (do_show show)).
End Show.
