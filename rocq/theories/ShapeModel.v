(** * ShapeModel: torus, cruller and urchin for real numbers.

    Models, of meshmode/mesh/generation.py, the map of generate_torus_and_cycle_vertices (834-837, 911-916), generate_torus (945-1023),
    generate_cruller (1031-1072); refine_mesh_and_get_urchin_warper: map_coords, warp_mesh, the range of the harmonic (1117-1137, 1147-1149).

    Simplified: real numbers of the standard library instead of floating-point numbers. The real part of the spherical harmonic is an argument. The grid and
    the numbering of the torus are in SurfModel, the refinement loop in GenModel. No proofs in this file. *)
From Coq Require Import List Reals.
From Verif Require Import Np.
Import ListNotations.
Local Open Scope R_scope.

Definition point : Type := (R * R * R)%type.
Definition px (p : point) : R := fst (fst p).
Definition py (p : point) : R := snd (fst p).
Definition pz (p : point) : R := snd p.

(** evaluate on torus (911-916, 920-925) *)
Definition torus_surface (a b : R) (r_minor_func : R -> R -> R) (u v : R) : point :=
  let bhat := b * r_minor_func u v in
  (cos u * (a + bhat * cos v), sin u * (a + bhat * cos v), bhat * sin v).
(** default_func (834-837) *)
Definition default_func (u v : R) : R := 1.
(** r_minor_func of generate_cruller (1067) *)
Definition cruller_func (u v : R) : R := 1 + 1 / 4 * cos (5 * u + 3 * v).
Definition torus (r_major r_minor : R) : R -> R -> point := torus_surface r_major r_minor default_func.
Definition cruller (r_major r_minor : R) : R -> R -> point := torus_surface r_major r_minor cruller_func.

(** ** Urchin *)
Definition radius (p : point) : R := sqrt (px p * px p + py p * py p + pz p * pz p).
Definition scale (c : R) (p : point) : point := (c * px p, c * py p, c * pz p).

Section Urchin.
  Variable sph : point -> R.                           (* sph_harm(m, n, pts).real *)
  Variable min_rad : R.

  (** np.min, np.max: ValueError for no values *)
  Definition amin (l : list R) : res R := match l with [] => Err ValueError | x :: l => Ok (fold_left Rmin l x) end.
  Definition amax (l : list R) : res R := match l with [] => Err ValueError | x :: l => Ok (fold_left Rmax l x) end.

  (** map_coords (1117-1124) *)
  Definition map_coords (lo hi : R) (p : point) : point :=
    let r := radius p in
    let scaled := min_rad + (sph p - lo) / (hi - lo) in
    scale (scaled / r) p.

  (** the range (1147-1149) and the warper: the images of vertices and nodes (1126-1137) *)
  Definition urchin_warper (unwarped : list point) (vertices nodes : list point) : res (list point * list point) :=
    lo <- amin (map sph unwarped) ;;
    hi <- amax (map sph unwarped) ;;
    Ok (map (map_coords lo hi) vertices, map (map_coords lo hi) nodes).
End Urchin.
