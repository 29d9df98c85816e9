(** * Properties C22, C23: gluing of boundaries. *)
From Coq Require Import List Arith Bool ZArith Lia Permutation.
From Verif Require Import Np NpFacts MeshModel MeshSpec MeshStateModel Lin Ord ProcModel AffineModel PointModel PointSpec
  GlueModel GlueSpec GlueProofs.
Import ListNotations.

(** ** C22: gluing.  For each mapping there is a one-to-one correspondence between the faces of the two boundaries along the map;
    the new adjacency is the old one together with these correspondences in both directions, with the map and its inverse.
    Partial: needs separated images, boundaries without repeated faces, and common vertices mapped to nothing but themselves;
    the refutations below show what happens without. *)
Theorem C22_gluing_partial :
  forall (R : ocring) median inv fuel (E : Type) d (m m' : mesh E (amap R) (list R)) vs fags mps,
    0 < d -> m_vertices m = Some vs -> mesh_in_range d (m_groups m) vs fags ->
    Forall (gluable (m_groups m) fags vs) mps ->
    glue_mesh_boundaries R median inv fuel E d m fags mps = Ok m' ->
    exists fags' pairss,
      m_facial m' = Available fags' /\ m_nodal m' = Unavailable /\ m_groups m' = m_groups m /\ m_vertices m' = Some vs /\
      Forall2 (one_to_one (m_groups m) fags vs) mps pairss /\
      (forall a b f, interior_adj_via fags' a b f <-> interior_adj_via fags a b f \/
         exists mp P, In (mp, P) (combine mps pairss) /\
            ((In (a, b) P /\ f = bp_map mp) \/ (In (b, a) P /\ amap_inverted R inv (bp_map mp) = Ok f))).
Proof.
  intros R median inv fuel E d m m' vs fags mps Hd Hv HW HG H.
  destruct (glue_main R median inv fuel E d m fags mps m' H) as (pairss & fags' & -> & HP & Hl & _ & Hadj).
  exists fags', pairss. cbn [m_facial m_nodal m_groups m_vertices]. do 3 (split; [reflexivity|]). split; [exact Hv|].
  assert (H1 : Forall2 (one_to_one (m_groups m) fags vs) mps pairss).
  { rewrite Hv in HP. clear -Hd HW HG HP. induction HP as [|mp P mps Ps Hmp HP IH]; constructor.
    - apply Forall_cons_iff in HG as (HG & _). eapply match_boundary_main; eauto.
    - apply Forall_cons_iff in HG as (_ & HG). auto. }
  split; auto. intros a b f. rewrite Hadj. split; [intros [?|(_ & _ & ?)]; auto|].
  intros [?|(mp & P & HmP & Hc)]; auto. right.
  assert (Hone : one_to_one (m_groups m) fags vs mp P).
  { apply In_nth_error in HmP as (i & Hi). clear -H1 Hi. revert i Hi. induction H1 as [|x y l r Hxy H1 IH]; intros [|i] Hi; cbn in Hi; try discriminate; [congruence|eauto]. }
  assert (Hr : forall t c, bdry_adj fags t c -> fid_group c < length fags /\ fid_group c < length (m_groups m)).
  { intros t c Hc'. destruct (bdry_face_verts R E d (m_groups m) vs fags t c HW Hc') as (Hlt & _). split; auto.
    destruct HW as (_ & _ & (HL & _) & _). lia. }
  split; [|split; [|eauto 10]];
    (destruct Hc as [(Hin & _)|(Hin & _)]; apply (proj1 Hone) in Hin as (Ha & Hb & _); eapply Hr; eauto).
Qed.
Print Assumptions C22_gluing_partial.

(** One mapping at most for each pair of boundaries, in either order. *)
Theorem C22_duplicate_mapping_error :
  forall (R : ocring) median inv fuel (E : Type) d (m : mesh E (amap R) (list R)) fags l1 p l2 q l3,
    Forall (fun g => eg_vi g <> None) (m_groups m) ->
    (bp_from p = bp_from q /\ bp_to p = bp_to q) \/ (bp_from p = bp_to q /\ bp_to p = bp_from q) ->
    glue_mesh_boundaries R median inv fuel E d m fags (l1 ++ p :: l2 ++ q :: l3) = Err ValueError.
Proof.
  intros R median inv fuel E d m fags l1 p l2 q l3 Hvi Hpq. unfold glue_mesh_boundaries. rewrite (proj2 (forallb_forall _ _)).
  2: { intros g Hg. rewrite Forall_forall in Hvi. specialize (Hvi g Hg). destruct (eg_vi g); congruence. }
  cbn [guard bind].
  assert (Hu : pairs_unique R (l1 ++ p :: l2 ++ q :: l3) = false).
  { induction l1 as [|x l1 IH]; cbn [app pairs_unique].
    - apply andb_false_iff. left. apply negb_false_iff, existsb_exists. exists q. split; [apply in_or_app; right; now left|].
      assert (Heq : forall t, btag_eqb t t = true) by (intros; now apply CompletionProofs.btag_eqb_eq).
      unfold same_pair. destruct Hpq as [(-> & ->)|(-> & ->)]; rewrite !Heq; [reflexivity|apply orb_true_r].
    - apply andb_false_iff. right. exact IH. }
  rewrite Hu. reflexivity.
Qed.
Print Assumptions C22_duplicate_mapping_error.

(** A 2 x 1 row of quadrilaterals *)
Definition ex_quad_faces : list (list nat) := [[0; 2]; [1; 3]; [0; 1]; [2; 3]].
Definition ex_id : amap Zocring := mk_amap (R := Zocring) None None.
Definition ex_square : mesh nat (amap Zocring) (list Z) :=
  mk_mesh [mk_egroup (Some [[0; 1; 3; 4]; [1; 2; 4; 5]]) [0; 0] ex_quad_faces]
    (Some [[0; 0]; [10; 0]; [20; 0]; [0; 10]; [10; 10]; [20; 10]]%Z) (Some true) Pending Pending 0 0 0.
Definition ex_all : list (nat * nat) := [(0, 0); (0, 2); (0, 3); (1, 1); (1, 2); (1, 3)].
Definition ex_square_fags : list (list (fagrp (amap Zocring))) :=
  [[Interior 0 0 [((0, 1), (1, 0)); ((1, 0), (0, 1))] ex_id;
    Boundary 0 TAll ex_all; Boundary 0 TReallyAll ex_all;
    Boundary 0 (TUser 0) [(0, 0)]; Boundary 0 (TUser 1) [(1, 1)]; Boundary 0 (TUser 2) [(0, 2); (1, 2)]; Boundary 0 (TUser 3) [(1, 3); (0, 3)]]].
Definition ex_shift (l : list Z) : amap Zocring := mk_amap (R := Zocring) None (Some l).
Definition ex_x : bpm Zocring := mk_bpm (R := Zocring) (TUser 0) (TUser 1) (ex_shift [20; 0]%Z) 1%Z.
Definition ex_y : bpm Zocring := mk_bpm (R := Zocring) (TUser 2) (TUser 3) (ex_shift [0; 10]%Z) 1%Z.
Definition ex_noinv (M : list (list Z)) : res (list (list Z)) := Err ValueError.
Definition ex_glued : mesh nat (amap Zocring) (list Z) :=
  mk_mesh (m_groups ex_square) (m_vertices ex_square) (Some true) Unavailable
    (Available [[Interior 0 0 [((0, 1), (1, 0)); ((1, 0), (0, 1))] ex_id;
       Boundary 0 TAll ex_all; Boundary 0 TReallyAll ex_all;
       Interior 0 0 [((0, 0), (1, 1))] (ex_shift [20; 0]%Z); Interior 0 0 [((1, 1), (0, 0))] (ex_shift [-20; 0]%Z);
       Interior 0 0 [((0, 2), (0, 3)); ((1, 2), (1, 3))] (ex_shift [0; 10]%Z);
       Interior 0 0 [((0, 3), (0, 2)); ((1, 3), (1, 2))] (ex_shift [0; -10]%Z)]]) 0 0 0.
Example C22_example :
  glue_mesh_boundaries Zocring median_Z ex_noinv 5 nat 2 ex_square ex_square_fags [ex_x; ex_y] = Ok ex_glued.
Proof. vm_compute. reflexivity. Qed.

Lemma ex_face_verts a va : face_verts (m_groups ex_square) a va ->
  In (a, va) [((0, 0, 0), [0; 3]); ((0, 0, 1), [1; 4]); ((0, 0, 2), [0; 1]); ((0, 0, 3), [3; 4]);
              ((0, 1, 0), [1; 4]); ((0, 1, 1), [2; 5]); ((0, 1, 2), [1; 2]); ((0, 1, 3), [4; 5])].
Proof.
  destruct a as ((g, e), f). intros (grp & row & ref & Hg & (grp' & vi & Hg' & Hvi & He & Hrow) & Href & HF).
  destruct g as [|[|g]]; cbn in Hg, Hg'; try discriminate. injection Hg as <-. injection Hg' as <-. injection Hvi as <-.
  assert (HT : take row ref = Ok va) by now apply take_ok.
  destruct e as [|[|[|e]]]; cbn in Hrow; try discriminate; injection Hrow as <-;
    destruct f as [|[|[|[|[|f]]]]]; cbn in Href; try discriminate; injection Href as <-;
    vm_compute in HT; injection HT as <-; cbn; tauto.
Qed.
Lemma ex_bdry t a : bdry_adj ex_square_fags t a -> match t with
  | TUser 0 => a = (0, 0, 0) | TUser 1 => a = (0, 1, 1)
  | TUser 2 => a = (0, 0, 2) \/ a = (0, 1, 2) | TUser 3 => a = (0, 1, 3) \/ a = (0, 0, 3) | _ => True end.
Proof.
  destruct a as ((g, e), f). intros (l & Hl & b & Hb & Ht & Hef). destruct g as [|[|g]]; cbn in Hl; try discriminate.
  injection Hl as <-. cbn [In] in Hb.
  repeat (destruct Hb as [<-|Hb]; [cbn in Ht; try discriminate; injection Ht as <-; cbn [fag_faces In] in Hef; auto;
     repeat (destruct Hef as [[= <- <-]|Hef]; [auto|]); destruct Hef|]). destruct Hb.
Qed.
(** The hypotheses of the theorem hold for this mesh. *)
Lemma ex_vert t v : bdry_vertex (m_groups ex_square) ex_square_fags (TUser t) v -> v < 6 /\ match t with
  | 0 => v = 0 \/ v = 3 | 1 => v = 2 \/ v = 5 | 2 => v = 0 \/ v = 1 \/ v = 2 | 3 => v = 3 \/ v = 4 \/ v = 5 | _ => True end.
Proof.
  intros (a & va & Ha & Hva & Hin). apply ex_face_verts in Hva. apply ex_bdry in Ha.
  cbn [In] in Hva. destruct t as [|[|[|[|t]]]]; try destruct Ha as [Ha|Ha];
  repeat (destruct Hva as [[= <- <-]|Hva]; [try discriminate; cbn in Hin; lia|]); destruct Hva.
Qed.
Example C22_example_hypotheses :
  mesh_in_range (R := Zocring) 2 (m_groups ex_square) [[0; 0]; [10; 0]; [20; 0]; [0; 10]; [10; 10]; [20; 10]]%Z ex_square_fags /\
  Forall (gluable (R := Zocring) (m_groups ex_square) ex_square_fags [[0; 0]; [10; 0]; [20; 0]; [0; 10]; [10; 10]; [20; 10]]%Z) [ex_x; ex_y].
Proof.
  set (vs := [[0; 0]; [10; 0]; [20; 0]; [0; 10]; [10; 10]; [20; 10]]%Z).
  split.
  - split; [|split; [|split; [|split]]].
    + repeat constructor. exists [[0; 1; 3; 4]; [1; 2; 4; 5]]. auto.
    + intros g grp e row ref k Hg (grp' & vi & Hg' & Hvi & He & Hrow) Href Hk.
      destruct g as [|[|g]]; cbn in Hg, Hg'; try discriminate. injection Hg as <-. injection Hg' as <-. injection Hvi as <-.
      assert (length row = 4) as -> by (destruct e as [|[|[|e]]]; cbn in Hrow; try discriminate; now injection Hrow as <-).
      cbn [eg_fvi ex_quad_faces In] in Href. repeat (destruct Href as [<-|Href]; [cbn in Hk; lia|]). destruct Href.
    + split; [reflexivity|]. intros g grp l b e f Hg Hl Hb Hef. destruct g as [|[|g]]; cbn in Hg, Hl; try discriminate.
      injection Hg as <-. injection Hl as <-. cbn [In] in Hb. unfold nelements, nfaces. cbn [eg_nodes eg_fvi ex_quad_faces length].
      repeat (destruct Hb as [<-|Hb]; [cbn [fag_faces map fst In ex_all] in Hef;
        repeat (destruct Hef as [[= <- <-]|Hef]; [lia|]); destruct Hef|]). destruct Hb.
    + intros e row v (g & i & (grp & vi & Hg & Hvi & Hi & Hrow) & _) Hv.
      destruct g as [|[|g]]; cbn in Hg; try discriminate. injection Hg as <-. injection Hvi as <-.
      destruct i as [|[|[|i]]]; cbn in Hrow; try discriminate; injection Hrow as <-; cbn in Hv; cbn; lia.
    + repeat constructor.
  - assert (Hfd : forall t, t < 4 -> faces_differ (m_groups ex_square) ex_square_fags (TUser t)).
    { intros t Ht a b Ha Hb (va & vb & Hva & Hvb & HP). apply ex_face_verts in Hva, Hvb. apply ex_bdry in Ha, Hb.
      destruct t as [|[|[|[|t]]]]; try lia; try congruence;
        destruct Ha as [->| ->], Hb as [->| ->]; auto; exfalso; cbn [In] in Hva, Hvb;
        repeat (destruct Hva as [Hva|Hva]; [try discriminate; injection Hva as <-|]); try destruct Hva;
        repeat (destruct Hvb as [Hvb|Hvb]; [try discriminate; injection Hvb as <-|]); try destruct Hvb;
        (match type of HP with Permutation ?x ?y => 
          assert (Hi : forall k, In k x -> In k y) by (intros k; apply Permutation_in; exact HP) end;
         pose proof (Hi 0); pose proof (Hi 1); pose proof (Hi 2); pose proof (Hi 3); pose proof (Hi 4); pose proof (Hi 5); cbn in *; lia). }
    assert (Ho : forall t, t < 4 -> faces_once ex_square_fags (TUser t)).
    { intros t Ht g l Hl. destruct g as [|[|g]]; cbn in Hl; try discriminate. injection Hl as <-.
      destruct t as [|[|[|[|t]]]]; try lia; cbn; repeat constructor; cbn; intuition congruence. }
    assert (Hlen : forall o : list Z, length o = 2 -> forall x fx, In x vs -> amap_call Zocring (ex_shift o) x = Ok fx -> length fx = length x).
    { intros o Ho' x fx Hx. assert (Hlx : length x = 2) by (unfold vs in Hx; cbn [In] in Hx; intuition (subst; reflexivity)).
      unfold amap_call, ex_shift. cbn [am_matrix am_offset bind]. unfold add_offset.
      destruct o as [|p [|q [|]]]; try discriminate Ho'. destruct x as [|u [|w [|]]]; try discriminate Hlx. cbn. intros [= <-]. reflexivity. }
    repeat constructor; try apply Ho; try apply Hfd; try (cbn; lia); try (apply Hlen; reflexivity).
    + intros v w x y fx fy Hv Hw Hx Hy Hfx Hfy Hwi. apply ex_vert in Hv as (_ & Hv). apply ex_vert in Hw as (_ & Hw).
      destruct Hv as [->| ->], Hw as [->| ->]; auto; exfalso; cbn in Hx, Hy; injection Hx as <-; injection Hy as <-;
        cbn in Hfx, Hfy; injection Hfx as <-; injection Hfy as <-; vm_compute in Hwi; discriminate.
    + intros v w Hv Hv' _ _. apply ex_vert in Hv as (_ & Hv). apply ex_vert in Hv' as (_ & Hv'). lia.
    + intros v w x y fx fy Hv Hw Hx Hy Hfx Hfy Hwi. apply ex_vert in Hv as (_ & Hv). apply ex_vert in Hw as (_ & Hw).
      destruct Hv as [->|[->| ->]], Hw as [->|[->| ->]]; auto; exfalso; cbn in Hx, Hy; injection Hx as <-; injection Hy as <-;
        cbn in Hfx, Hfy; injection Hfx as <-; injection Hfy as <-; vm_compute in Hwi; discriminate.
    + intros v w Hv Hv' _ _. apply ex_vert in Hv as (_ & Hv). apply ex_vert in Hv' as (_ & Hv'). lia.
Qed.

(** *** What fails *)

(** A boundary glued to itself by an involution: every face becomes its own neighbor. *)
Definition ex_mirror : bpm Zocring :=
  mk_bpm (R := Zocring) (TUser 0) (TUser 0) (mk_amap (R := Zocring) (Some [[-1; 0]; [0; 1]]%Z) (Some [20; 0]%Z)) 1%Z.
Theorem C22_self_gluing_refuted :
  exists (m m' : mesh nat (amap Zocring) (list Z)) fags fags',
    glue_mesh_boundaries Zocring median_Z (fun M => Ok M) 5 nat 2 m fags [ex_mirror] = Ok m' /\ m_facial m' = Available fags' /\
    (forall vs, m_vertices m = Some vs -> face_lands_on (R := Zocring) (m_groups m) vs ex_mirror (0, 0, 0) (0, 1, 1) /\
                                          face_lands_on (R := Zocring) (m_groups m) vs ex_mirror (0, 1, 1) (0, 0, 0)) /\
    interior_adj_via fags' (0, 0, 0) (0, 0, 0) (bp_map ex_mirror) /\
    (forall f, ~ interior_adj_via fags' (0, 0, 0) (0, 1, 1) f).
Proof.
  exists ex_square.
  eexists. exists [[Interior 0 0 [((0, 1), (1, 0)); ((1, 0), (0, 1))] ex_id; Boundary 0 (TUser 0) [(0, 0); (1, 1)]]]. eexists.
  split; [vm_compute; reflexivity|]. split; [reflexivity|]. split; [|split].
  - intros vs [= <-]. split.
    + exists [0; 3], [2; 5], [2; 5]. split; [|split; [|split; [reflexivity|]]].
      * eexists. exists [0; 1; 3; 4], [0; 2]. split; [reflexivity|]. split; [|split; [reflexivity|repeat constructor]].
        eexists. exists [[0; 1; 3; 4]; [1; 2; 4; 5]]. repeat split; cbn; lia.
      * eexists. exists [1; 2; 4; 5], [1; 3]. split; [reflexivity|]. split; [|split; [reflexivity|repeat constructor]].
        eexists. exists [[0; 1; 3; 4]; [1; 2; 4; 5]]. repeat split; cbn; lia.
      * repeat constructor; (eexists; eexists; eexists; split; [reflexivity|split; [reflexivity|split; [reflexivity|reflexivity]]]).
    + exists [2; 5], [0; 3], [0; 3]. split; [|split; [|split; [reflexivity|]]].
      * eexists. exists [1; 2; 4; 5], [1; 3]. split; [reflexivity|]. split; [|split; [reflexivity|repeat constructor]].
        eexists. exists [[0; 1; 3; 4]; [1; 2; 4; 5]]. repeat split; cbn; lia.
      * eexists. exists [0; 1; 3; 4], [0; 2]. split; [reflexivity|]. split; [|split; [reflexivity|repeat constructor]].
        eexists. exists [[0; 1; 3; 4]; [1; 2; 4; 5]]. repeat split; cbn; lia.
      * repeat constructor; (eexists; eexists; eexists; split; [reflexivity|split; [reflexivity|split; [reflexivity|reflexivity]]]).
  - cbn [interior_adj_via]. eexists. eexists. split; [reflexivity|]. split; [right; now left|]. cbn. auto.
  - intros f (l & es & Hl & Hin & He). cbn in Hl. injection Hl as <-. cbn [In] in Hin.
    repeat (destruct Hin as [Hin|Hin]; [injection Hin as <- <-; cbn in He; intuition congruence|]). destruct Hin.
Qed.
Print Assumptions C22_self_gluing_refuted.

(** A tolerance so large that two vertices match one: two faces of the first boundary are glued to each other, and a face
    of the second is left over; no error is raised. *)
Definition ex_bent : mesh nat (amap Zocring) (list Z) :=
  mk_mesh (m_groups ex_square) (Some [[0; 0]; [10; -5]; [0; -10]; [0; 20]; [10; 20]; [20; 20]]%Z) (Some true) Pending Pending 0 0 0.
Theorem C22_multiple_match_refuted :
  exists (m m' : mesh nat (amap Zocring) (list Z)) fags fags' mp,
    glue_mesh_boundaries Zocring median_Z ex_noinv 5 nat 2 m fags [mp] = Ok m' /\ m_facial m' = Available fags' /\
    bdry_adj fags (bp_from mp) (0, 0, 2) /\ bdry_adj fags (bp_from mp) (0, 1, 2) /\
    interior_adj_via fags' (0, 0, 2) (0, 1, 2) (bp_map mp) /\
    bdry_adj fags (bp_to mp) (0, 1, 3) /\ (forall a f, ~ interior_adj_via fags' a (0, 1, 3) f).
Proof.
  exists ex_bent. eexists. exists ex_square_fags. eexists. exists (mk_bpm (R := Zocring) (TUser 2) (TUser 3) (ex_shift [0; 25]%Z) 6%Z).
  split; [vm_compute; reflexivity|]. split; [reflexivity|].
  cbn [bp_from bp_to bp_map]. split; [|split; [|split; [|split]]].
  - eexists. split; [reflexivity|]. exists (Boundary 0 (TUser 2) [(0, 2); (1, 2)]). cbn. tauto.
  - eexists. split; [reflexivity|]. exists (Boundary 0 (TUser 2) [(0, 2); (1, 2)]). cbn. tauto.
  - cbn [interior_adj_via]. eexists. eexists. split; [reflexivity|]. split; [do 5 right; now left|]. cbn. auto.
  - eexists. split; [reflexivity|]. exists (Boundary 0 (TUser 3) [(1, 3); (0, 3)]). cbn. tauto.
  - intros ((g, e), i) f (l & es & Hl & Hin & He). destruct g as [|[|g]]; cbn in Hl; try discriminate. injection Hl as <-. cbn [In] in Hin.
    repeat (destruct Hin as [Hin|Hin]; [try discriminate; injection Hin as <- <-; cbn in He; intuition congruence|]). destruct Hin.
Qed.
Print Assumptions C22_multiple_match_refuted.

(** Two adjacent sides related by a rotation: their common vertex is moved by the map, and matching fails although every vertex
    has its image. *)
Definition ex_turn : bpm Zocring :=
  mk_bpm (R := Zocring) (TUser 0) (TUser 1) (mk_amap (R := Zocring) (Some [[0; -1]; [1; 0]]%Z) (Some [1; 0]%Z)) 1%Z.
Theorem C22_adjacent_sides_refuted :
  exists (m : mesh nat (amap Zocring) (list Z)) fags,
    (forall vs, m_vertices m = Some vs -> face_lands_on (R := Zocring) (m_groups m) vs ex_turn (0, 0, 0) (0, 0, 2)) /\
    (forall a, bdry_adj fags (TUser 0) a -> a = (0, 0, 0)) /\ (forall a, bdry_adj fags (TUser 1) a -> a = (0, 0, 2)) /\
    glue_mesh_boundaries Zocring median_Z (fun M => Ok M) 5 nat 2 m fags [ex_turn] = Err AssertionError.
Proof.
  exists (mk_mesh [mk_egroup (Some [[0; 1; 2; 3]]) [0] ex_quad_faces] (Some [[0; 0]; [1; 0]; [0; 1]; [1; 1]]%Z) (Some true) Pending Pending 0 0 0),
    [[Boundary 0 (TUser 0) [(0, 0)]; Boundary 0 (TUser 1) [(0, 2)]]].
  split; [|split; [|split; [|vm_compute; reflexivity]]].
  - intros vs [= <-]. exists [0; 2], [0; 1], [1; 0]. split; [|split; [|split]].
    + eexists. exists [0; 1; 2; 3], [0; 2]. split; [reflexivity|]. split; [|split; [reflexivity|repeat constructor]].
      eexists. exists [[0; 1; 2; 3]]. repeat split; cbn; lia.
    + eexists. exists [0; 1; 2; 3], [0; 1]. split; [reflexivity|]. split; [|split; [reflexivity|repeat constructor]].
      eexists. exists [[0; 1; 2; 3]]. repeat split; cbn; lia.
    + constructor.
    + repeat constructor; (eexists; eexists; eexists; split; [reflexivity|split; [reflexivity|split; [reflexivity|reflexivity]]]).
  - intros ((g, e), f) (l & Hl & b & Hb & Ht & Hef). destruct g as [|[|g]]; cbn in Hl; try discriminate. injection Hl as <-.
    cbn in Hb. destruct Hb as [<-|[<-|[]]]; cbn in Ht, Hef; try discriminate. intuition congruence.
  - intros ((g, e), f) (l & Hl & b & Hb & Ht & Hef). destruct g as [|[|g]]; cbn in Hl; try discriminate. injection Hl as <-.
    cbn in Hb. destruct Hb as [<-|[<-|[]]]; cbn in Ht, Hef; try discriminate. intuition congruence.
Qed.
Print Assumptions C22_adjacent_sides_refuted.

(** The two elements in groups of their own: left and right boundaries have no face in one of the groups, and stacking fails. *)
Theorem C22_several_groups_refuted :
  exists (m : mesh nat (amap Zocring) (list Z)) fags,
    (forall vs, m_vertices m = Some vs -> face_lands_on (R := Zocring) (m_groups m) vs ex_x (0, 0, 0) (1, 0, 1)) /\
    bdry_adj fags (TUser 0) (0, 0, 0) /\ bdry_adj fags (TUser 1) (1, 0, 1) /\
    glue_mesh_boundaries Zocring median_Z ex_noinv 5 nat 2 m fags [ex_x] = Err ValueError.
Proof.
  exists (mk_mesh [mk_egroup (Some [[0; 1; 3; 4]]) [0] ex_quad_faces; mk_egroup (Some [[1; 2; 4; 5]]) [0] ex_quad_faces]
          (m_vertices ex_square) (Some true) Pending Pending 0 0 0),
    [[Boundary 0 (TUser 0) [(0, 0)]]; [Boundary 1 (TUser 1) [(0, 1)]]].
  split; [|split; [|split; [|vm_compute; reflexivity]]].
  - intros vs [= <-]. exists [0; 3], [2; 5], [2; 5]. split; [|split; [|split; [reflexivity|]]].
    + eexists. exists [0; 1; 3; 4], [0; 2]. split; [reflexivity|]. split; [|split; [reflexivity|repeat constructor]].
      eexists. exists [[0; 1; 3; 4]]. repeat split; cbn; lia.
    + eexists. exists [1; 2; 4; 5], [1; 3]. split; [reflexivity|]. split; [|split; [reflexivity|repeat constructor]].
      eexists. exists [[1; 2; 4; 5]]. repeat split; cbn; lia.
    + repeat constructor; (eexists; eexists; eexists; split; [reflexivity|split; [reflexivity|split; [reflexivity|reflexivity]]]).
  - eexists. split; [reflexivity|]. exists (Boundary 0 (TUser 0) [(0, 0)]). cbn. auto.
  - eexists. split; [reflexivity|]. exists (Boundary 1 (TUser 1) [(0, 1)]). cbn. auto.
Qed.
Print Assumptions C22_several_groups_refuted.

(** ** C23: glued faces leave the boundary.  They lose the tags named in the mappings, and only those ... *)
Theorem C23_glued_tags_removed_partial :
  forall (R : ocring) median inv fuel (E : Type) d (m m' : mesh E (amap R) (list R)) fags mps,
    glue_mesh_boundaries R median inv fuel E d m fags mps = Ok m' ->
    exists fags', m_facial m' = Available fags' /\
      forall t a, bdry_adj fags' t a <-> bdry_adj fags t a /\ ~ exists mp, In mp mps /\ (bp_from mp = t \/ bp_to mp = t).
Proof.
  intros R median inv fuel E d m m' fags mps H.
  destruct (glue_main R median inv fuel E d m fags mps m' H) as (pairss & fags' & -> & _ & _ & HB & _).
  exists fags'. split; [reflexivity|exact HB].
Qed.
Print Assumptions C23_glued_tags_removed_partial.
(** ... so that BTAG_ALL and BTAG_REALLY_ALL still contain the glued faces. *)
Theorem C23_glued_faces_not_boundary_refuted :
  exists (m m' : mesh nat (amap Zocring) (list Z)) fags fags' mps,
    glue_mesh_boundaries Zocring median_Z ex_noinv 5 nat 2 m fags mps = Ok m' /\ m_facial m' = Available fags' /\
    exists a b f, interior_adj_via fags' a b f /\ bdry_adj fags' TAll a /\ bdry_adj fags' TReallyAll a.
Proof.
  exists ex_square, ex_glued, ex_square_fags. eexists. exists [ex_x; ex_y]. split; [exact C22_example|]. split; [reflexivity|].
  exists (0, 0, 0), (0, 1, 1), (ex_shift [20; 0]%Z). split; [|split].
  - cbn [interior_adj_via]. eexists. exists [((0, 0), (1, 1))]. split; [reflexivity|]. split; [do 3 right; now left|now left].
  - eexists. split; [reflexivity|]. exists (Boundary 0 TAll ex_all). split; [right; now left|]. split; [reflexivity|now left].
  - eexists. split; [reflexivity|]. exists (Boundary 0 TReallyAll ex_all). split; [do 2 right; now left|]. split; [reflexivity|now left].
Qed.
Print Assumptions C23_glued_faces_not_boundary_refuted.
