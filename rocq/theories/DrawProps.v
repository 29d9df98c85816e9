(** * DrawProps: pictures of meshes (C202). *)
From Coq Require Import List Arith Bool QArith Permutation.
From Verif Require Import Np NpFacts DrawModel DrawSpec DrawProofs.
Import ListNotations.
Local Open Scope nat_scope.

(** ** C202: pictures show the mesh *)

(** For a mesh of segments, triangles and squares in the plane the picture has: an outline for each element, which is a closed polygon through its vertices whose
    sides are its faces; if wanted, a number for each element at its center, all of them different, each vertex' number at the vertex, each face's number between
    the centers of element and face, one arrow for each element and neighbor, from near the one to near the other; and nothing else. *)
Theorem C202_picture :
  forall vertices groups n adjacency box rnd (o : options) ls lower upper,
    Forall (group_ok (length vertices)) groups ->
    (o_adjacency o = true -> (forall k, unit_interval (rnd k)) /\
      exists starts neighbors, adjacency = Ok (starts, neighbors) /\ neighbor_lists n starts neighbors ls /\
        forall i j, In (i, j) (flat_pairs ls) -> i <> j /\ i < length (concat (map rows groups)) /\ j < length (concat (map rows groups))) ->
    (o_bounding_box o = true -> box = Ok (lower, upper)) ->
    exists ds, draw_2d_mesh 2 (Some vertices) groups n adjacency box rnd o = Ok ds /\
      Forall2 (fun '(g, _, el) p => outline vertices g el p) (elements groups) (paths ds) /\
      (if o_elements o
       then Forall2 (fun '(_, (igrp, iel), el) t => center_of vertices el (fst t) /\ element_label (length groups) igrp iel (snd t)) (elements groups) (element_texts ds)
       else element_texts ds = []) /\
      NoDup (map snd (element_texts ds)) /\
      vertex_texts ds = (if o_vertices o then enumerate vertices else []) /\
      (if o_adjacency o then Forall2 (arrow_for vertices groups) (flat_pairs ls) (arrows ds) else arrows ds = []) /\
      (if o_faces o then Forall2 (face_text vertices) (faces groups) (face_texts ds) else face_texts ds = []) /\
      limits ds = (if o_bounding_box o then [(lower, upper)] else []) /\
      length ds = length (paths ds) + length (element_texts ds) + length (vertex_texts ds) + length (arrows ds) + length (face_texts ds) + length (limits ds).
Proof.
  intros vertices groups n adjacency box rnd o ls lower upper Hg Ha Hb.
  assert (Count : forall ds : list drawn, length ds = length (paths ds) + length (element_texts ds) + length (vertex_texts ds) + length (arrows ds) + length (face_texts ds) + length (limits ds)).
  { induction ds as [|d ds IH]; [reflexivity|]. cbn [length]. rewrite IH. unfold paths, element_texts, vertex_texts, arrows, face_texts, limits.
    destruct d as [p|p [i|g i|i|i]|s v|l u]; cbn [flat_map app length]; Lia.lia. }
  destruct (draw_elements_ok vertices (o_elements o) groups Hg) as (d1 & E1 & Hp & Ht & (Hn1 & Hn2 & Hn3 & Hn4)).
  destruct (draw_vertices_ok vertices) as (V1 & V2 & V3 & V4 & V5 & V6).
  assert (exists d2, (if o_vertices o then draw_vertices vertices else []) = d2 /\ vertex_texts d2 = (if o_vertices o then enumerate vertices else []) /\
    paths d2 = [] /\ element_texts d2 = [] /\ face_texts d2 = [] /\ arrows d2 = [] /\ limits d2 = []) as (d2 & E2 & W1 & W2 & W3 & W4 & W5 & W6)
    by (eexists; split; [reflexivity|]; destruct (o_vertices o); auto 10).
  assert (exists d3, (if o_adjacency o then '(starts, neighbors) <- adjacency ;; draw_adjacency vertices groups n starts neighbors rnd else Ok []) = Ok d3 /\
    (if o_adjacency o then Forall2 (arrow_for vertices groups) (flat_pairs ls) (arrows d3) else arrows d3 = []) /\
    paths d3 = [] /\ element_texts d3 = [] /\ vertex_texts d3 = [] /\ face_texts d3 = [] /\ limits d3 = []) as (d3 & E3 & A1 & A2 & A3 & A4 & A5 & A6).
  { destruct (o_adjacency o); [|exists []; auto 10]. destruct (Ha eq_refl) as (Hr & starts & neighbors & -> & Hl & Hpairs). cbn [bind].
    destruct (draw_adjacency_ok vertices groups n starts neighbors ls rnd Hg Hr Hl Hpairs) as (d3 & H). exists d3. tauto. }
  assert (exists d4, (if o_faces o then draw_faces vertices groups else Ok []) = Ok d4 /\
    (if o_faces o then Forall2 (face_text vertices) (faces groups) (face_texts d4) else face_texts d4 = []) /\
    paths d4 = [] /\ element_texts d4 = [] /\ vertex_texts d4 = [] /\ arrows d4 = [] /\ limits d4 = []) as (d4 & E4 & F1 & F2 & F3 & F4 & F5 & F6).
  { destruct (o_faces o); [|exists []; auto 10]. destruct (draw_faces_ok vertices groups Hg) as (d4 & H). exists d4. tauto. }
  set (d5 := if o_bounding_box o then [DLimits lower upper] else []).
  assert (E5 : (if o_bounding_box o then '(lower, upper) <- box ;; Ok [DLimits lower upper] else Ok []) = Ok d5).
  { unfold d5. destruct (o_bounding_box o); [|reflexivity]. now rewrite (Hb eq_refl). }
  assert (L1 : limits d5 = (if o_bounding_box o then [(lower, upper)] else []) /\ paths d5 = [] /\ element_texts d5 = [] /\ vertex_texts d5 = [] /\ arrows d5 = [] /\ face_texts d5 = [])
    by (unfold d5; destruct (o_bounding_box o); cbn; auto 10).
  clearbody d5. destruct L1 as (L1 & L2 & L3 & L4 & L5 & L6).
  exists (d1 ++ d2 ++ d3 ++ d4 ++ d5). unfold draw_2d_mesh. cbn [Nat.eqb guard bind]. rewrite E1. cbn [bind]. rewrite E3. cbn [bind]. rewrite E4. cbn [bind].
  rewrite E5. cbn [bind]. rewrite E2. split; [reflexivity|].
  assert (P : paths (d1 ++ d2 ++ d3 ++ d4 ++ d5) = paths d1).
  { unfold paths in *. now rewrite !flat_map_app, W2, A2, F2, L2, !app_nil_r. }
  assert (T : element_texts (d1 ++ d2 ++ d3 ++ d4 ++ d5) = element_texts d1).
  { unfold element_texts in *. now rewrite !flat_map_app, W3, A3, F3, L3, !app_nil_r. }
  assert (V : vertex_texts (d1 ++ d2 ++ d3 ++ d4 ++ d5) = vertex_texts d2).
  { unfold vertex_texts in *. now rewrite !flat_map_app, Hn1, A4, F4, L4, !app_nil_r. }
  assert (A : arrows (d1 ++ d2 ++ d3 ++ d4 ++ d5) = arrows d3).
  { unfold arrows in *. now rewrite !flat_map_app, Hn3, W5, F5, L5, !app_nil_r. }
  assert (F : face_texts (d1 ++ d2 ++ d3 ++ d4 ++ d5) = face_texts d4).
  { unfold face_texts in *. now rewrite !flat_map_app, Hn2, W4, A5, L6, !app_nil_r. }
  assert (L : limits (d1 ++ d2 ++ d3 ++ d4 ++ d5) = limits d5).
  { unfold limits in *. now rewrite !flat_map_app, Hn4, W6, A6, F6. }
  split; [now rewrite P|]. split; [now rewrite T|].
  split. { rewrite T. destruct (o_elements o); [|rewrite Ht; constructor]. eapply labels_nodup with (C := center_of vertices). exact Ht. }
  split; [now rewrite V|]. split; [now rewrite A|]. split; [now rewrite F|]. split; [now rewrite L|]. apply Count.
Qed.
Print Assumptions C202_picture.

(** What is rejected: other ambient dimensions, meshes and groups without vertices, elements that are their own neighbors *)
Theorem C202_errors :
  forall ambient_dim vertices groups n adjacency box rnd o,
    (ambient_dim <> 2 -> draw_2d_mesh ambient_dim vertices groups n adjacency box rnd o = Err AssertionError) /\
    draw_2d_mesh 2 None groups n adjacency box rnd o = Err TypeError /\
    (forall vs g, d_vi g = None -> draw_2d_mesh 2 (Some vs) (g :: groups) n adjacency box rnd o = Err TypeError) /\
    (forall vs starts neighbors ls i, Forall (group_ok (length vs)) groups -> o_adjacency o = true -> adjacency = Ok (starts, neighbors) ->
      neighbor_lists n starts neighbors ls -> (forall k l, nth_error ls k = Some l -> forall j, In j l -> k < length (concat (map rows groups)) /\ j < length (concat (map rows groups))) ->
      In (i, i) (flat_pairs ls) -> draw_2d_mesh 2 (Some vs) groups n adjacency box rnd o = Err AssertionError).
Proof.
  intros ambient_dim vertices groups n adjacency box rnd o. split; [|split; [|split]].
  - intros H. unfold draw_2d_mesh. apply Nat.eqb_neq in H as ->. reflexivity.
  - reflexivity.
  - intros vs g Hg. unfold draw_2d_mesh. cbn [Nat.eqb guard bind]. unfold draw_elements. cbn [enumerate enumerate_from mapM]. unfold enumerate. rewrite enumerate_from_cons. cbn [mapM].
    unfold vertex_indices_of. rewrite Hg. reflexivity.
  - intros vs starts neighbors ls i Hg Ho -> Hl Hin Hi. unfold draw_2d_mesh. cbn [Nat.eqb guard bind].
    destruct (draw_elements_ok vs (o_elements o) groups Hg) as (d1 & -> & _). cbn [bind]. rewrite Ho. unfold draw_adjacency. rewrite (neighbor_pairs_ok _ _ _ _ Hl). cbn [bind].
    match goal with |- context [mapM ?F (enumerate (flat_pairs ls))] => assert (E : mapM F (enumerate (flat_pairs ls)) = Err AssertionError); [|now rewrite E] end.
    assert (Hall : forall k p, In (k, p) (enumerate (flat_pairs ls)) -> In p (flat_pairs ls)) by (intros k p Hk; apply In_enumerate in Hk; eapply nth_error_In; eauto).
    assert (Hex : exists k, In (k, (i, i)) (enumerate (flat_pairs ls))) by (apply In_nth_error in Hi as (k & Hk); exists k; now apply In_enumerate).
    revert Hall Hex. generalize (enumerate (flat_pairs ls)) as l. intros l Hall (k & Hk).
    induction l as [|(k' & a & b) l IH]; [destruct Hk|]. cbn [mapM].
    destruct (Nat.eqb_spec a b) as [->|Hab]; [reflexivity|]. cbn [negb guard bind].
    destruct Hk as [[= -> -> ->]|Hk]; [congruence|].
    pose proof (Hall k' (a, b) (or_introl eq_refl)) as Hp. apply In_flat_pairs in Hp as (row & Hrow & Hb). destruct (Hin a row Hrow b Hb) as (Ha & Hb').
    destruct (nth_error (concat (map rows groups)) a) as [e|] eqn:Ea; [|now apply nth_error_None in Ea; Lia.lia].
    destruct (nth_error (concat (map rows groups)) b) as [e'|] eqn:Eb; [|now apply nth_error_None in Eb; Lia.lia].
    assert (Hvi : Forall (fun g => d_vi g <> None) groups) by (eapply Forall_impl; [|exact Hg]; intros g (Hx & _); exact Hx).
    rewrite (global_element_ok groups Hvi a e Ea), (global_element_ok groups Hvi b e' Eb). cbn [bind].
    destruct (rows_ok _ _ e Hg (nth_error_In _ _ Ea)) as (_ & Hv). destruct (rows_ok _ _ e' Hg (nth_error_In _ _ Eb)) as (_ & Hv').
    destruct (take_vertices vs e Hv) as (us & -> & _). destruct (take_vertices vs e' Hv') as (us' & -> & _). cbn [bind].
    rewrite IH; [reflexivity| |exact Hk]. intros j p Hj. apply (Hall j). now right.
Qed.
Print Assumptions C202_errors.

(** A square and two triangles *)
Definition ex_vs : list pt2 := [(0, 0); (1, 0); (0, 1); (1, 1); (2, 0); (2, 1)]%Q.
Definition ex_gs : list dgroup :=
  [mk_dgroup true 2 (Some [[0; 1; 2; 3]]) [[0; 1]; [2; 3]; [0; 2]; [1; 3]]; mk_dgroup false 2 (Some [[1; 4; 3]; [3; 4; 5]]) [[0; 1]; [2; 0]; [1; 2]]].
Definition ex_all : options := mk_options true true true true false.
Example C202_example :
  Forall (group_ok (length ex_vs)) ex_gs /\ neighbor_lists 3 [0; 2; 4; 6] [1; 2; 0; 2; 0; 1] [[1; 2]; [0; 2]; [0; 1]] /\ match draw_2d_mesh 2 (Some ex_vs) ex_gs 3 (Ok ([0; 2; 4; 6], [1; 2; 0; 2; 0; 1])) (Err ValueError) (fun _ => (1#2, 1#2)%Q) ex_all with
  | Ok ds => length (paths ds) = 3 /\ map snd (element_texts ds) = [LGroupElement 0 0; LGroupElement 1 0; LGroupElement 1 1] /\ length (arrows ds) = 6 /\ length (face_texts ds) = 10 /\ nth_error (paths ds) 0 = Some [(MOVETO, (0, 0)); (LINETO, (1, 0)); (LINETO, (1, 1)); (LINETO, (0, 1)); (CLOSEPOLY, (0, 0))]%Q
  | Err _ => False
  end.
Proof.
  split; [|split].
  - repeat apply Forall_cons; try apply Forall_nil; (split; [discriminate|]).
    + exists 4. split; [constructor; reflexivity|]. cbn. repeat constructor.
    + exists 3. split; [constructor; left; reflexivity|]. cbn. repeat constructor.
  - split; [reflexivity|]. intros [|[|[|i]]] l; cbn; intros H; try (now destruct i); injection H as <-; eexists; eexists; repeat split; reflexivity.
  - vm_compute. repeat split; reflexivity.
Qed.
