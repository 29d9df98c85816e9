(** * NadjProps: C190, C191. *)
From Coq Require Import List Arith QArith Lqa Lia Bool.
From Verif Require Import Np NpFacts NadjModel NadjSpec NadjProofs.
Import ListNotations.
Local Open Scope nat_scope.

(** ** C190: for meshes of simplices the check accepts exactly the adjacency that holds geometrically *)
Section Props.
  Variable lstsq : list pt -> pt -> list Q * option Q.
  Variable junk : nat -> list pt.
  Variable matches : pt -> list (nat * nat).
  Variable vertices : list pt.
  Variable groups : list (list (list nat)).
  Variable starts neighbors : list nat.
  Variable d : nat.
  Hypothesis Hrows : forall row, In row (concat groups) -> length row = S d /\ Forall (fun i => i < length vertices) row.
  Hypothesis Hjunk : length (junk d) = d.
  Hypothesis Hfirst : exists g0 r0, nth_error groups 0 = Some g0 /\ nth_error g0 0 = Some r0.
  Hypothesis Hstarts : length (concat groups) < length starts.
  Hypothesis Hnb : forall e e', neighbor starts neighbors e e' -> e' < length (concat groups).
  Hypothesis Hmatch : forall v p, In v vertices -> In p (matches v) -> exists e, numbered groups (fst p) (snd p) e.

  (** whatever the tolerance, and however bad the elements, it either accepts or raises AssertionError *)
  Theorem C190_outcome tol : check lstsq junk matches tol vertices groups starts neighbors = Ok tt \/ check lstsq junk matches tol vertices groups starts neighbors = Err AssertionError.
  Proof. now apply (check_ok lstsq junk matches tol vertices groups starts neighbors d). Qed.

  (** elements are proper simplices, and the tree finds all elements which contain a vertex *)
  Hypothesis Hdim : exists D, Forall (fun v => length v = D) vertices.
  Hypothesis Hsolves : forall e o ps, corners vertices groups e (o :: ps) -> solves lstsq (length o) (map (fun p => psub p o) ps).
  Hypothesis Htree : forall v e pts, In v vertices -> corners vertices groups e pts -> in_hull pts v -> exists ig ie, In (ig, ie) (matches v) /\ numbered groups ig ie e.

  Theorem C190_geometry : check lstsq junk matches 0 vertices groups starts neighbors = Ok tt <->
    forall e e', e < length (concat groups) -> (neighbor starts neighbors e e' <-> e <> e' /\ (vertex_in vertices groups e e' \/ vertex_in vertices groups e' e)).
  Proof.
    destruct (check_ok lstsq junk matches 0 vertices groups starts neighbors d Hrows Hjunk Hfirst Hstarts Hnb Hmatch) as (C & _). rewrite C.
    destruct Hdim as (D & FD). rewrite Forall_forall in FD.
    assert (HC : forall e pts p, corners vertices groups e pts -> In p pts -> In p vertices).
    { intros e pts p (row & _ & F) Hp. destruct (Forall2_In_r _ _ _ p F Hp) as (i & _ & E). now apply nth_error_In in E. }
    assert (M : forall e e', meets lstsq matches 0 vertices groups e e' <-> e <> e' /\ vertex_in vertices groups e e').
    { intros e e'. split.
      - intros (Hne & pts & v & Hc & Hv & _ & (o & ps & Hc' & Ht)). split; [exact Hne|]. exists pts, (o :: ps), v. split; [exact Hc|]. split; [exact Hv|]. split; [exact Hc'|].
        apply (connected_iff lstsq o ps v); [exact (Hsolves e' o ps Hc')| | |exact Ht].
        + apply Forall_forall. intros p Hp. rewrite (FD p), (FD o); [reflexivity| |]; apply (HC e' (o :: ps)); auto; [now left|now right].
        + rewrite (FD v), (FD o); [reflexivity|apply (HC e' (o :: ps)); auto; now left|exact (HC e pts v Hc Hv)].
      - intros (Hne & pts & pts' & v & Hc & Hv & Hc' & Hh). split; [exact Hne|]. exists pts, v. split; [exact Hc|]. split; [exact Hv|]. split.
        + destruct (Htree v e' pts' (HC e pts v Hc Hv) Hc' Hh) as (ig & ie & Hin & Hnum). exists (ig, ie). now split.
        + assert (exists o ps, pts' = o :: ps) as (o & ps & ->).
          { destruct pts' as [|o ps]; [|now exists o, ps]. destruct Hc' as (row & Er & F). inversion F; subst. destruct (Hrows [] (nth_error_In _ _ Er)) as (L & _). discriminate. }
          exists o, ps. split; [exact Hc'|]. apply (connected_iff lstsq o ps v); [exact (Hsolves e' o ps Hc')| | |exact Hh].
          * apply Forall_forall. intros p Hp. rewrite (FD p), (FD o); [reflexivity| |]; apply (HC e' (o :: ps)); auto; [now left|now right].
          * rewrite (FD v), (FD o); [reflexivity|apply (HC e' (o :: ps)); auto; now left|exact (HC e pts v Hc Hv)]. }
    split; intros H e e' Le; rewrite (H e e' Le), ?M; intuition congruence.
  Qed.
End Props.

(** the relation of the theorem is symmetric, so an accepted adjacency is *)
Theorem C190_symmetric lstsq junk matches vertices groups starts neighbors d :
  (forall row, In row (concat groups) -> length row = S d /\ Forall (fun i => i < length vertices) row) -> length (junk d) = d -> (exists g0 r0, nth_error groups 0 = Some g0 /\ nth_error g0 0 = Some r0) ->
  length (concat groups) < length starts -> (forall e e', neighbor starts neighbors e e' -> e' < length (concat groups)) -> (forall v p, In v vertices -> In p (matches v) -> exists e, numbered groups (fst p) (snd p) e) ->
  forall tol, check lstsq junk matches tol vertices groups starts neighbors = Ok tt -> forall e e', e < length (concat groups) -> neighbor starts neighbors e e' -> neighbor starts neighbors e' e /\ e <> e'.
Proof.
  intros H1 H2 H3 H4 H5 H6 tol H e e' Le Hn. destruct (check_ok lstsq junk matches tol vertices groups starts neighbors d H1 H2 H3 H4 H5 H6) as (C & _). pose proof (proj1 C H) as R. split.
  - apply R; [exact (H5 e e' Hn)|]. apply R in Hn; [tauto|exact Le].
  - apply R in Hn; [|exact Le]. destruct Hn as [(Hne & _)|(Hne & _)]; auto.
Qed.

(** ** C191: other meshes.

    Two squares with a common vertex, which is the last one of both. Least squares with three columns in the plane returns the solution of least norm, whose sum is 4/3. *)
Definition minimal (lstsq : list pt -> pt -> list Q * option Q) (cols : list pt) : Prop :=
  forall b, length b = 2 -> let '(x, r) := lstsq cols b in r = None /\ length x = length cols /\ combines cols x b /\ forall y, length y = length cols -> combines cols y b -> (normsq x <= normsq y)%Q.
Definition least (cols : list pt) (b : pt) : list Q * option Q :=
  let row k := map (coord k) cols in
  let a00 := qdot (row 0) (row 0) in let a01 := qdot (row 0) (row 1) in let a11 := qdot (row 1) (row 1) in
  let det := (a00 * a11 - a01 * a01)%Q in
  let l0 := ((a11 * coord 0 b - a01 * coord 1 b) / det)%Q in let l1 := ((a00 * coord 1 b - a01 * coord 0 b) / det)%Q in
  (map (fun xy => fst xy * l0 + snd xy * l1)%Q (combine (row 0) (row 1)), None).
Definition q (n : Z) : Q := n # 1.
Definition squares : list pt := map (map q) [[0; 0]; [1; 0]; [0; 1]; [1; 1]; [2; 2]; [1; 2]; [2; 1]]%Z.
Definition between (lo hi : Z) (v : pt) : bool := forallb (fun x => Qle_bool (q lo) x && Qle_bool x (q hi)) v.
Definition boxes (v : pt) : list (nat * nat) := (if between 0 1 v then [(0, 0)] else []) ++ (if between 1 2 v then [(0, 1)] else []).
Definition no_columns (n : nat) : list pt := repeat [] n.

Lemma two (b : pt) : length b = 2 -> exists x y, b = [x; y].
Proof. destruct b as [|x [|y [|z b]]]; intros H; try discriminate H. now exists x, y. Qed.
Lemma three (b : list Q) : length b = 3 -> exists x y z, b = [x; y; z].
Proof. destruct b as [|x [|y [|z [|w b]]]]; intros H; try discriminate H. now exists x, y, z. Qed.

Lemma square_nonneg (t : Q) : (0 <= t * t)%Q.
Proof. nra. Qed.
Lemma least_minimal s : (s == 1 \/ s == - (1))%Q -> minimal least [[s; 0]; [0; s]; [s; s]]%Q.
Proof.
  intros Hs b Lb. destruct (two b Lb) as (b0 & b1 & ->). unfold least. cbv zeta. split; [reflexivity|]. split; [reflexivity|].
  assert (S2 : (s * s == 1)%Q) by (destruct Hs as [-> | ->]; reflexivity).
  unfold combines, coord, qdot, normsq, qsum. cbn [map nth_error combine fold_right fst snd].
  assert (N0 : ~ (s == 0)%Q) by (intros E; rewrite E in S2; discriminate S2).
  set (D := ((s * s + (0 * 0 + (s * s + 0))) * (0 * 0 + (s * s + (s * s + 0))) - (s * 0 + (0 * s + (s * s + 0))) * (s * 0 + (0 * s + (s * s + 0))))%Q).
  assert (ED : (D == 3)%Q) by (unfold D; nra). 
  set (l0 := (((0 * 0 + (s * s + (s * s + 0))) * b0 - (s * 0 + (0 * s + (s * s + 0))) * b1) / D)%Q). set (l1 := (((s * s + (0 * 0 + (s * s + 0))) * b1 - (s * 0 + (0 * s + (s * s + 0))) * b0) / D)%Q).
  assert (E0 : (l0 == (2 * b0 - b1) / 3)%Q) by (unfold l0; rewrite ED; setoid_replace (0 * 0 + (s * s + (s * s + 0)))%Q with 2%Q by nra; setoid_replace (s * 0 + (0 * s + (s * s + 0)))%Q with 1%Q by nra; field).
  assert (E1 : (l1 == (2 * b1 - b0) / 3)%Q) by (unfold l1; rewrite ED; setoid_replace (s * s + (0 * 0 + (s * s + 0)))%Q with 2%Q by nra; setoid_replace (s * 0 + (0 * s + (s * s + 0)))%Q with 1%Q by nra; field).
  split.
  - intros [|[|k]]; cbn [nth_error map combine fold_right fst snd].
    + setoid_replace (s * (s * l0 + 0 * l1) + (0 * (0 * l0 + s * l1) + (s * (s * l0 + s * l1) + 0)))%Q with ((s * s) * (2 * l0 + l1))%Q by ring. rewrite S2, E0, E1. field.
    + setoid_replace (0 * (s * l0 + 0 * l1) + (s * (0 * l0 + s * l1) + (s * (s * l0 + s * l1) + 0)))%Q with ((s * s) * (l0 + 2 * l1))%Q by ring. rewrite S2, E0, E1. field.
    + destruct k; cbn [nth_error]; ring.
  - intros y Ly Hy. destruct (three y Ly) as (y0 & y1 & y2 & ->). pose proof (Hy 0%nat) as Y0. pose proof (Hy 1%nat) as Y1. cbn [nth_error map combine fold_right fst snd] in *.
    setoid_replace ((s * l0 + 0 * l1) * (s * l0 + 0 * l1) + ((0 * l0 + s * l1) * (0 * l0 + s * l1) + ((s * l0 + s * l1) * (s * l0 + s * l1) + 0)))%Q with ((s * s) * (l0 * l0 + l1 * l1 + (l0 + l1) * (l0 + l1)))%Q by ring. rewrite S2.
    assert (B0 : (b0 == s * (y0 + y2))%Q) by lra. assert (B1 : (b1 == s * (y1 + y2))%Q) by lra. rewrite E0, E1, B0, B1.
    setoid_replace (1 * ((2 * (s * (y0 + y2)) - s * (y1 + y2)) / 3 * ((2 * (s * (y0 + y2)) - s * (y1 + y2)) / 3) + (2 * (s * (y1 + y2)) - s * (y0 + y2)) / 3 * ((2 * (s * (y1 + y2)) - s * (y0 + y2)) / 3) +
      ((2 * (s * (y0 + y2)) - s * (y1 + y2)) / 3 + (2 * (s * (y1 + y2)) - s * (y0 + y2)) / 3) * ((2 * (s * (y0 + y2)) - s * (y1 + y2)) / 3 + (2 * (s * (y1 + y2)) - s * (y0 + y2)) / 3)))%Q
      with ((s * s) * (2 / 3 * ((y0 + y2) * (y0 + y2) - (y0 + y2) * (y1 + y2) + (y1 + y2) * (y1 + y2))))%Q by field. rewrite S2.
    pose proof (square_nonneg (y0 + y1 - y2)%Q). setoid_replace (2 / 3)%Q with (2 # 3)%Q by reflexivity. lra.
Qed.

(** the adjacency is right, but rejected *)
Theorem C191_quads_refuted : exists lstsq, minimal lstsq (map (fun p => psub p (map q [0; 0])%Z) (map (map q) [[1; 0]; [0; 1]; [1; 1]]%Z)) /\ minimal lstsq (map (fun p => psub p (map q [2; 2])%Z) (map (map q) [[1; 2]; [2; 1]; [1; 1]]%Z)) /\
  (forall e e', e < 2 -> neighbor [0; 1; 2] [1; 0] e e' -> e <> e' /\ exists v, forall pts pts', corners squares [[[0; 1; 2; 3]; [4; 5; 6; 3]]] e pts -> corners squares [[[0; 1; 2; 3]; [4; 5; 6; 3]]] e' pts' -> In v pts /\ In v pts') /\
  check lstsq no_columns boxes (1 # 1000000000000) squares [[[0; 1; 2; 3]; [4; 5; 6; 3]]] [0; 1; 2] [1; 0] = Err AssertionError.
Proof.
  exists least. split; [apply (least_minimal (1#1)); left; reflexivity|]. split; [apply (least_minimal (-1#1)); right; reflexivity|]. split; [|vm_compute; reflexivity].
  intros e e' Le (a & b & k & Ha & Hb & Hk & Hn). assert (HV : forall e0 pts, e0 < 2 -> corners squares [[[0; 1; 2; 3]; [4; 5; 6; 3]]] e0 pts -> In (map q [1; 1]%Z) pts).
  { intros e0 pts L0 (row & Er & F). assert (In 3 row) as H3 by (destruct e0 as [|[|e0]]; [| |lia]; injection Er as <-; cbn [In]; auto). destruct (Forall2_In_l _ _ _ 3 F H3) as (v & Hv & Ev). now injection Ev as <-. }
  assert (L' : e' < 2) by (destruct k as [|[|k]]; [injection Hn as <-; lia|injection Hn as <-; lia|destruct k; discriminate Hn]).
  split; [|exists (map q [1; 1]%Z); intros pts pts' H H'; split; [now apply (HV e)|now apply (HV e')]].
  intros E. destruct e as [|[|e]]; [| |lia]; cbn in Ha, Hb; injection Ha as <-; injection Hb as <-.
  - assert (k = 0) by lia. subst k. injection Hn as <-. discriminate.
  - assert (k = 1) by lia. subst k. injection Hn as <-. discriminate.
Qed.
(** a triangle beside a square: the number of vertices is that of the first group *)
Definition mixed : list pt := map (map q) [[0; 0]; [1; 0]; [1; 1]; [2; 0]; [2; 1]]%Z.
Definition mixed_boxes (v : pt) : list (nat * nat) := (if between 0 1 v then [(0, 0)] else []) ++ (if between 1 2 [coord 0 v] then [(1, 0)] else []).
Theorem C191_mixed_refuted : forall lstsq junk tol, (forall n, length (junk n) = n) -> check lstsq junk mixed_boxes tol mixed [[[0; 1; 2]]; [[1; 3; 2; 4]]] [0; 1; 2] [1; 0] = Err IndexError.
Proof.
  intros lstsq junk tol Hj. assert (exists a b, junk 2 = [a; b]) as (a & b & E).
  { pose proof (Hj 2) as L. destruct (junk 2) as [|a [|b [|c l]]]; try discriminate L. now exists a, b. }
  unfold check. cbn [get nth_error bind length]. unfold elements. cbn [enumerate enumerate_from length seq combine map concat app fst snd]. cbn [mapM].
  assert (H : visit lstsq junk mixed_boxes tol 3 mixed [[[0; 1; 2]]; [[1; 3; 2; 4]]] [0; 1; 2] [1; 0] (0, 0, [0; 1; 2]) = Err IndexError); [|rewrite H; reflexivity].
  unfold visit. cbn [mapM]. assert (HT : transformation junk 3 mixed [1; 3; 2; 4] = Err IndexError); [unfold transformation; cbn [Nat.sub]; rewrite E; vm_compute; reflexivity|].
  assert (B0 : mixed_boxes (map q [0; 0]%Z) = [(0, 0)]) by reflexivity. assert (B1 : mixed_boxes (map q [1; 0]%Z) = [(0, 0); (1, 0)]) by reflexivity.
  assert (V0 : get mixed 0 = Ok (map q [0; 0]%Z)) by reflexivity. assert (V1 : get mixed 1 = Ok (map q [1; 0]%Z)) by reflexivity.
  rewrite V0, V1. cbn [bind get nth_error Nat.add]. rewrite B0, B1. cbn [mapM fst snd Nat.eqb andb bind get nth_error]. rewrite HT. reflexivity.
Qed.

(** two triangles of a square satisfy the hypotheses *)
Definition square : list pt := map (map q) [[0; 0]; [1; 0]; [0; 1]; [1; 1]]%Z.
Definition cramer (cols : list pt) (b : pt) : list Q * option Q :=
  match cols with
  | [a; c] => let det := (coord 0 a * coord 1 c - coord 1 a * coord 0 c)%Q in ([(coord 0 b * coord 1 c - coord 1 b * coord 0 c) / det; (coord 0 a * coord 1 b - coord 1 a * coord 0 b) / det]%Q, None)
  | _ => ([], None)
  end.
Example C190_example : check cramer no_columns (fun _ => [(0, 0); (0, 1)]) 0 square [[[0; 1; 2]; [3; 2; 1]]] [0; 1; 2] [1; 0] = Ok tt /\ check cramer no_columns (fun _ => [(0, 0); (0, 1)]) 0 square [[[0; 1; 2]; [3; 2; 1]]] [0; 0; 0] [] = Err AssertionError /\
  (forall row, In row (concat [[[0; 1; 2]; [3; 2; 1]]]) -> length row = 3 /\ Forall (fun i => i < length square) row).
Proof.
  split; [vm_compute; reflexivity|]. split; [vm_compute; reflexivity|]. intros row [<-|[<-|[]]]; (split; [reflexivity|]); repeat constructor; vm_compute; lia.
Qed.
Example C190_solves_example : forall s, (s == 1 \/ s == - (1))%Q -> solves cramer 2 [[s; 0]; [0; s]]%Q.
Proof.
  intros s Hs b Lb. destruct (two b Lb) as (b0 & b1 & ->). assert (S2 : (s * s == 1)%Q) by (destruct Hs as [-> | ->]; reflexivity). assert (N0 : ~ (s == 0)%Q) by (intros E; rewrite E in S2; discriminate S2).
  unfold cramer, coord. cbn [nth_error]. cbv zeta. split; [reflexivity|].
  assert (ED : (s * s - 0 * 0 == 1)%Q) by lra. split; [intros _|split; [discriminate|]].
  - intros [|[|k]]; unfold qdot, coord; cbn [map nth_error combine fold_right fst snd].
    + rewrite ED. field_simplify. nra.
    + rewrite ED. field_simplify. nra.
    + destruct k; cbn [nth_error]; ring.
  - intros y Ly Hy. destruct (two y Ly) as (y0 & y1 & ->). pose proof (Hy 0%nat) as Y0. pose proof (Hy 1%nat) as Y1. unfold qdot, coord in Y0, Y1. cbn [map nth_error combine fold_right fst snd] in Y0, Y1.
    constructor; [|constructor; [|constructor]]; rewrite ED; [setoid_replace b0 with (s * y0)%Q by lra|setoid_replace b1 with (s * y1)%Q by lra]; field_simplify; nra.
Qed.

Print Assumptions C190_outcome.
Print Assumptions C190_geometry.
Print Assumptions C190_symmetric.
Print Assumptions C191_quads_refuted.
Print Assumptions C191_mixed_refuted.
