(** * CurveModel: parameterized curves and the warped square.

    Models the curves of meshmode/mesh/generation.py: circle (104-109), ellipse (112-123), cloverleaf (126-141), drop (144-156), qbx_peanut (187-198),
    dumbbell (201-207), wobbly_dumbbell (210-225), apple (228-241), clamp_piecewise (244-307); and of generate_warped_rect_mesh the arguments (1732-1753)
    and the map (1759-1773).

    Simplified: coordinates and parameters are real numbers of the standard library instead of floating-point numbers; the functions are applied
    to one parameter (point) instead of an array. x ** y is Rpower, the power of positive numbers. No proofs in this file. *)
From Coq Require Import List Reals.
From Verif Require Import Np.
Import ListNotations.
Local Open Scope R_scope.

(** ellipse (112-123) *)
Definition ellipse (aspect_ratio t : R) : R * R :=
  let ilength := 2 * PI in
  let t := t * ilength in
  (cos t, sin t / aspect_ratio).

(** circle (104-109) *)
Definition circle (t : R) : R * R := ellipse 1 t.

(** cloverleaf (126-141) *)
Definition cloverleaf (t : R) : R * R :=
  let ilength := 2 * PI in
  let t := t * ilength in
  let a := 3 / 10 in
  let b := 3 in
  (cos t + a * sin (b * t), sin t - a * cos (b * t)).

(** drop (144-156) *)
Definition drop (t : R) : R * R :=
  let ilength := PI in
  let t := t * ilength in
  (17 / 10 * (sin t - 1 / 2), 17 / 10 * (1 / 2 * (cos t * (t - PI) * t))).

(** qbx_peanut (187-198) *)
Definition qbx_peanut (t : R) : R * R :=
  let t := 2 * PI * t in
  let r := 1 + 3 / 10 * sin (2 * t) in
  (3 / 4 * r * cos (t - PI / 4), r * sin (t - PI / 4)).

(** wobbly_dumbbell (210-225) *)
Definition wobbly_dumbbell (gamma beta : R) (p wavenumber : nat) (t : R) : R * R :=
  let t := 2 * PI * t in
  let r := gamma * Rpower (1 + beta / (1 - beta) * (cos t) ^ 2) (1 / INR p) + 2 / 100 * (sin (INR wavenumber * t)) ^ 2 in
  (cos t, r * sin t).

(** dumbbell (201-207) *)
Definition dumbbell (gamma beta t : R) : R * R := wobbly_dumbbell gamma beta 1 0 t.

(** apple (228-241) *)
Definition apple (a t : R) : R * R :=
  let ilength := 2 * PI in
  let t := t * ilength in
  (cos t + a * cos (2 * t), sin t + a * sin (2 * t)).

(** clamp_piecewise (244-307) *)
Definition mask {P Q : Prop} (d : {P} + {Q}) : R := if d then 1 else 0.      (* (...).astype(t.dtype) *)
(** rotation_matrix(angle) @ p (254-257) *)
Definition rotate (angle : R) (p : R * R) : R * R := (cos angle * fst p - sin angle * snd p, sin angle * fst p + cos angle * snd p).
Definition plus2 (p q : R * R) : R * R := (fst p + fst q, snd p + snd q).
Definition times2 (a : R) (p : R * R) : R * R := (a * fst p, a * snd p).

Definition clamp_piecewise (r_major r_minor gap t : R) : res (R * R) :=
  if Rlt_dec 0 r_major then if Rlt_dec 0 r_minor then if Rlt_dec r_minor r_major then
  if Rlt_dec 0 gap then if Rlt_dec gap (2 * PI) then
    let r_cap := (r_major - r_minor) / 2 in
    let inv_gap := 2 * PI - 2 * gap in
    let L := inv_gap * r_major + inv_gap * r_minor + 2 * PI * r_cap in
    let t0 := 0 in
    let t1 := inv_gap * r_major / L in
    let t2 := t1 + PI * r_cap / L in
    let t3 := t2 + inv_gap * r_minor / L in
    let t4 := t3 + PI * r_cap / L in
    (* outer shell (277-280) *)
    let m_outer := mask (Rlt_dec t t1) in
    let theta := m_outer * (PI + inv_gap * (t - (t1 + t0) / 2) / (t1 - t0)) in
    let f_outer := (r_major * cos theta, r_major * sin theta) in
    (* first cap (282-288) *)
    let m_caps0 := mask (Rge_dec t t1) * mask (Rlt_dec t t2) in
    let theta := m_caps0 * (PI / 2 + PI * (t - (t2 + t1) / 2) / (t2 - t1)) in
    let f_caps0 := plus2 (times2 r_cap (rotate (- gap) (cos theta - 1, sin theta))) (times2 r_major (cos (- gap), sin (- gap))) in
    (* inner shell (290-293) *)
    let m_inner := mask (Rge_dec t t2) * mask (Rlt_dec t t3) in
    let theta := - m_inner * (PI + inv_gap * (t - (t2 + t3) / 2) / (t3 - t2)) in
    let f_inner := (r_minor * cos theta, r_minor * sin theta) in
    (* second cap (295-301) *)
    let m_caps1 := mask (Rge_dec t t3) in
    let theta := m_caps1 * (PI / 2 + PI * (t - (t3 + t4) / 2) / (t4 - t3)) in
    let f_caps1 := plus2 (times2 r_cap (rotate (PI + gap) (cos theta + 1, sin theta))) (times2 r_major (cos gap, sin gap)) in
    Ok (plus2 (plus2 (plus2 (times2 m_outer f_outer) (times2 m_caps0 f_caps0)) (times2 m_inner f_inner)) (times2 m_caps1 f_caps1))
  else Err AssertionError else Err AssertionError else Err AssertionError else Err AssertionError else Err AssertionError.

(** ** generate_warped_rect_mesh *)

(** the number of points on a side (1732-1749); None: not given *)
Definition warped_npoints (nelements_side npoints_side n : option nat) : res (option nat) :=
  match n, nelements_side, npoints_side with
  | Some _, Some _, _ => Err TypeError
  | Some _, None, Some _ => Err TypeError
  | Some n, None, None => Ok (Some n)
  | None, Some _, Some _ => Err TypeError
  | None, None, Some p => Ok (Some p)
  | None, Some e, None => Ok (Some (e + 1)%nat)
  | None, None, None => Ok None
  end.

(** m (1759-1773); points of other dimensions than 2 and 3 do not occur (1751) *)
Definition warp (x : list R) : list R :=
  match x with
  | x0 :: x1 :: rest =>
      (15 / 10 * x0 + cos x0 + 1 / 10 * sin (10 * x1)) :: (5 / 100 * cos (10 * x0) + 13 / 10 * x1 + sin x1) ::
      match rest with [] => [] | x2 :: rest => x2 + sin (x0 / 2) / 2 :: rest end
  | [x0] => [15 / 10 * x0 + cos x0]
  | [] => []
  end.
