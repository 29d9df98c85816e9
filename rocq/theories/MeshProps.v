(** * Properties C01-C08: element numbering, adjacency, boundary tags. *)
From Coq Require Import List Arith Bool ZArith Lia Permutation.
From Verif Require Import Np NpFacts MeshModel MeshSpec MeshProofs CompletionProofs FaceProofs FacialProofs MeshExamples.
Import ListNotations.

(** ** C01 *)
Theorem C01_find_group_indices sizes elems k e :
  nth_error elems k = Some e ->
  exists g, nth_error (find_group_indices sizes elems) k = Some g /\
    (e < sum sizes -> owns sizes g e /\ forall g', owns sizes g' e -> g' = g) /\
    (sum sizes <= e -> g = length sizes).
Proof. exact (find_group_indices_spec sizes elems k e). Qed.
Print Assumptions C01_find_group_indices.

Theorem C01_base_element_nrs sizes g :
  g < length sizes -> nth_error (base_element_nrs sizes) g = Some (base sizes g).
Proof. exact (base_element_nrs_nth sizes g). Qed.
Print Assumptions C01_base_element_nrs.

Example C01_example : find_group_indices [2; 0; 3; 0] [0; 1; 2; 4; 5; 9] = [0; 0; 2; 2; 4; 4].
Proof. reflexivity. Qed.

(** ** C02 *)
Theorem C02_nodal_adjacency {E} ord nv (groups : list (egroup E)) :
  (forall l, Permutation (ord l) l) ->
  groups <> [] -> has_rows groups -> rows_in_range nv groups ->
  (forall e row, elem_row groups e row -> row <> []) ->
  exists starts nbs,
    compute_nodal_adjacency ord (Some nv) groups = Ok (starts, nbs) /\
    length starts = S (sum (map nelements groups)) /\
    nth_error starts 0 = Some 0 /\
    nth_error starts (sum (map nelements groups)) = Some (length nbs) /\
    forall e, e < sum (map nelements groups) ->
      exists row, csr_row starts nbs e row /\ NoDup row /\
        forall f, In f row <-> (f <> e /\ share_vertex groups e f).
Proof. exact (compute_nodal_adjacency_spec ord nv groups). Qed.
Print Assumptions C02_nodal_adjacency.

Example C02_hypotheses : ex_groups <> [] /\ has_rows ex_groups /\ rows_in_range 6 ex_groups /\
  (forall e row, elem_row ex_groups e row -> row <> []).
Proof.
  split; [discriminate|]. split; [exact ex_has_rows|]. split; [exact ex_rows_in_range|exact ex_rows_nonempty].
Qed.
Example C02_example :
  compute_nodal_adjacency (fun l => l) (Some 6) ex_groups = Ok ([0; 2; 4; 6], [1; 2; 0; 2; 0; 1]).
Proof. reflexivity. Qed.

(** ** C03 *)
Theorem C03_match_faces {E} vmap (groups : list (egroup E)) fids :
  has_rows groups -> (exists g, In g groups /\ eg_fvi g <> []) ->
  (forall v, vmap v <> (-1)%Z) ->
  (forall a, In a fids -> exists va, face_verts groups a va) ->
  exists pairs, match_faces vmap groups fids = Ok pairs /\ NoDup pairs /\
    (forall i j, In (i, j) pairs ->
      i < j /\ exists a b, nth_error fids i = Some a /\ nth_error fids j = Some b /\ same_mapped vmap groups a b) /\
    (forall i j a b, i < j -> nth_error fids i = Some a -> nth_error fids j = Some b ->
       same_mapped vmap groups a b ->
       (forall k c, k <> i -> k <> j -> nth_error fids k = Some c -> ~ same_mapped vmap groups a c) ->
       In (i, j) pairs).
Proof. exact (match_faces_pairs_spec vmap groups fids). Qed.
Print Assumptions C03_match_faces.

(** Exact result also when a vertex set belongs to three or more faces: each face is
    paired with the next one in the list that has the same vertices. *)
Theorem C03_match_faces_exact {E} vmap (groups : list (egroup E)) fids :
  has_rows groups -> (exists g, In g groups /\ eg_fvi g <> []) ->
  (forall v, vmap v <> (-1)%Z) ->
  (forall a, In a fids -> exists va, face_verts groups a va) ->
  exists pairs, match_faces vmap groups fids = Ok pairs /\ NoDup pairs /\
    forall i j, In (i, j) pairs <->
      i < j /\
      exists a b, nth_error fids i = Some a /\ nth_error fids j = Some b /\ same_mapped vmap groups a b /\
        forall k c, i < k < j -> nth_error fids k = Some c -> ~ same_mapped vmap groups a c.
Proof. exact (match_faces_spec vmap groups fids). Qed.
Print Assumptions C03_match_faces_exact.

Example C03_hypotheses : has_rows ex_groups /\ (exists g, In g ex_groups /\ eg_fvi g <> []) /\
  (forall v, Z.of_nat v <> (-1)%Z) /\
  (forall a, In a (all_face_ids ex_groups) -> exists va, face_verts ex_groups a va).
Proof.
  split; [exact ex_has_rows|]. split; [exact ex_has_faces|]. split; [intros; lia|].
  intros a Ha. apply valid_face_verts; [exact ex_has_rows|exact ex_faces_wf|]. now apply In_all_face_ids.
Qed.
Example C03_example :
  all_face_ids ex_groups = [(0,0,0); (0,1,0); (0,0,1); (0,1,1); (0,0,2); (0,1,2); (1,0,0); (1,0,1); (1,0,2); (1,0,3)]
  /\ match_faces Z.of_nat ex_groups (all_face_ids ex_groups) = Ok [(3, 4); (1, 8)].
Proof. split; reflexivity. Qed.

(** ** C04 *)
Theorem C04_facial_adjacency {E A} (aff_id : A) tag_order tm (groups : list (egroup E)) :
  (forall l t, In t (tag_order l) <-> In t l) ->
  has_rows groups -> faces_wf groups -> (exists g, In g groups /\ eg_fvi g <> []) -> at_most_two groups ->
  exists fags, compute_facial_adjacency aff_id tag_order tm groups = Ok fags /\
    length fags = length groups /\
    (forall a b, interior_adj fags a b <-> partner groups a b) /\
    (forall a b, interior_adj fags a b -> interior_adj fags b a) /\
    (forall g l, nth_error fags g = Some l -> NoDup (interior_entries l)) /\
    (forall g l b, nth_error fags g = Some l -> In b l ->
       (exists g' es, b = Interior g g' es aff_id) \/ (exists t fs, b = Boundary g t fs /\ NoDup fs)) /\
    (forall t a, bdry_adj fags t a -> boundary_face groups a) /\
    (forall a, valid_face groups a ->
       (exists b, interior_adj fags a b) \/ (exists t, bdry_adj fags t a)).
Proof. exact (facial_partition_spec aff_id tag_order tm groups). Qed.
Print Assumptions C04_facial_adjacency.

Theorem C04_untagged_boundary {E A} (aff_id : A) tag_order (groups : list (egroup E)) :
  (forall l t, In t (tag_order l) <-> In t l) ->
  has_rows groups -> faces_wf groups -> (exists g, In g groups /\ eg_fvi g <> []) -> at_most_two groups ->
  exists fags, compute_facial_adjacency aff_id tag_order None groups = Ok fags /\
    forall t a, bdry_adj fags t a <-> (t = TAll \/ t = TReallyAll) /\ boundary_face groups a.
Proof. exact (facial_untagged_spec aff_id tag_order groups). Qed.
Print Assumptions C04_untagged_boundary.

Example C04_hypotheses : has_rows ex_groups /\ faces_wf ex_groups /\
  (exists g, In g ex_groups /\ eg_fvi g <> []) /\ at_most_two ex_groups.
Proof.
  split; [exact ex_has_rows|]. split; [exact ex_faces_wf|]. split; [exact ex_has_faces|exact ex_at_most_two].
Qed.
Example C04_example :
  compute_facial_adjacency tt (fun l => l) None ex_groups =
  Ok [[Interior 0 0 [((1, 1), (0, 2)); ((0, 2), (1, 1))] tt;
       Interior 0 1 [((1, 0), (0, 2))] tt;
       Boundary 0 TAll [(0, 0); (0, 1); (1, 2)];
       Boundary 0 TNone []; Boundary 0 TReallyAll [(0, 0); (0, 1); (1, 2)]];
      [Interior 1 0 [((0, 2), (1, 0))] tt;
       Boundary 1 TAll [(0, 0); (0, 1); (0, 3)];
       Boundary 1 TNone []; Boundary 1 TReallyAll [(0, 0); (0, 1); (0, 3)]]].
Proof. reflexivity. Qed.

(** ** C05 *)
Theorem C05_completion {A} (fags : list (list (fagrp A))) :
  exists r, complete_facial_adjacency fags = Ok r /\ length r = length fags /\
    complete_facial_adjacency r = Ok r /\
    forall g l, nth_error fags g = Some l ->
      exists ex, nth_error r g = Some (l ++ ex) /\
        (forall t, In (Some t) (map bdry_tag ex) <-> In t [TNone; TAll; TReallyAll] /\ ~ carries l t) /\
        NoDup (map bdry_tag ex) /\
        (forall b, In b ex -> exists t fs, b = Boundary g t fs /\ NoDup fs /\
          (t = TNone -> fs = []) /\
          (t = TAll -> forall ef, In ef fs <->
              exists t', ~ not_a_boundary t' /\ t' <> TReallyAll /\ in_bdry l t' ef) /\
          (t = TReallyAll -> forall ef, In ef fs <-> exists t', in_bdry l t' ef)).
Proof. exact (complete_spec fags). Qed.
Print Assumptions C05_completion.

Example C05_example :
  complete_facial_adjacency (A:=unit)
    [[Boundary 0 (TUser 1) [(0, 1); (2, 0)]; Boundary 0 (TUser 2) [(0, 1)];
      InterPart 0 (TPartition 3) 3 [((1, 1), (5, 0))] tt]] =
  Ok [[Boundary 0 (TUser 1) [(0, 1); (2, 0)]; Boundary 0 (TUser 2) [(0, 1)];
      InterPart 0 (TPartition 3) 3 [((1, 1), (5, 0))] tt;
      Boundary 0 TNone []; Boundary 0 TAll [(2, 0); (0, 1)]; Boundary 0 TReallyAll [(2, 0); (0, 1); (1, 1)]]].
Proof. reflexivity. Qed.

(** ** C06 *)
Theorem C06_boundary_tags {E A} (aff_id : A) tag_order (groups : list (egroup E)) m :
  (forall l t, In t (tag_order l) <-> In t l) ->
  has_rows groups -> faces_wf groups -> (exists g, In g groups /\ eg_fvi g <> []) -> at_most_two groups ->
  keys_distinct m -> (forall k ts t, In (k, ts) m -> In t ts -> ~ system_tag t) ->
  exists fags, compute_facial_adjacency aff_id tag_order (Some m) groups = Ok fags /\
    (forall t a, ~ system_tag t -> (bdry_adj fags t a <-> boundary_face groups a /\ tag_assigned groups m a t)) /\
    (forall a, bdry_adj fags TReallyAll a <-> boundary_face groups a) /\
    (forall a, bdry_adj fags TAll a <->
       boundary_face groups a /\
       ((exists e' f', let a' := (fst (fst a), e', f') in
            boundary_face groups a' /\ forall t, ~ tag_assigned groups m a' t) \/
        exists t, tag_assigned groups m a t /\ ~ not_a_boundary t)) /\
    (forall a, ~ bdry_adj fags TNone a).
Proof. exact (facial_tags_spec aff_id tag_order groups m). Qed.
Print Assumptions C06_boundary_tags.

Definition ex_tags : tagmap :=
  [([0; 1], [TUser 1]); ([2; 3], [TUserNoBdry 7]); ([1; 2], [TUser 2]); ([5; 4], [TUser 1; TUser 2])].

Example C06_hypotheses : keys_distinct ex_tags /\ (forall k ts t, In (k, ts) ex_tags -> In t ts -> ~ system_tag t).
Proof.
  split.
  - intros k ts k' ts' H1 H2 H.
    apply set_eqb_iff in H. cbn in H1, H2.
    destruct H1 as [E1|[E1|[E1|[E1|[]]]]]; destruct H2 as [E2|[E2|[E2|[E2|[]]]]];
      inversion E1; inversion E2; subst; auto; vm_compute in H; discriminate.
  - intros k ts t H Ht. cbn in H. unfold system_tag.
    destruct H as [E|[E|[E|[E|[]]]]]; inversion E; subst; cbn in Ht; intuition (subst; discriminate).
Qed.

(** Tag [TUser 2] given to the interior face {1,2} has no effect; group 0 has an
    untagged boundary face {0,2}, so its BTAG_ALL is its whole boundary. *)
Example C06_example :
  compute_facial_adjacency tt (fun _ => [TUser 1; TUser 2; TUserNoBdry 7]) (Some ex_tags) ex_groups =
  Ok [[Interior 0 0 [((1, 1), (0, 2)); ((0, 2), (1, 1))] tt;
       Interior 0 1 [((1, 0), (0, 2))] tt;
       Boundary 0 (TUser 1) [(0, 0)]; Boundary 0 (TUserNoBdry 7) [(1, 2)];
       Boundary 0 TAll [(0, 0); (0, 1); (1, 2)];
       Boundary 0 TNone []; Boundary 0 TReallyAll [(0, 0); (0, 1); (1, 2)]];
      [Interior 1 0 [((0, 2), (1, 0))] tt;
       Boundary 1 (TUser 1) [(0, 3)]; Boundary 1 (TUser 2) [(0, 3)];
       Boundary 1 TAll [(0, 0); (0, 1); (0, 3)];
       Boundary 1 TNone []; Boundary 1 TReallyAll [(0, 0); (0, 1); (0, 3)]]].
Proof. reflexivity. Qed.

(** ** C49 (refuted): a face all of whose tags are derived from BTAG_NO_BOUNDARY is not in BTAG_ALL. *)
Theorem C49_no_boundary_not_in_all_refuted :
  exists (groups : list (egroup nat)) (m : tagmap) fags a,
    has_rows groups /\ faces_wf groups /\ at_most_two groups /\ keys_distinct m /\
    compute_facial_adjacency tt (fun l => l) (Some m) groups = Ok fags /\
    (exists t, tag_assigned groups m a t) /\
    (forall t, tag_assigned groups m a t -> not_a_boundary t) /\
    bdry_adj fags TAll a.
Proof. exact no_boundary_not_in_all_refuted. Qed.
Print Assumptions C49_no_boundary_not_in_all_refuted.

(** ** C07 *)
Theorem C07_check_bc_coverage {E A} (groups : list (egroup E)) (fags : list (list (fagrp A))) tags incomplete_ok true_only :
  let all_tag := if (true_only : bool) then TAll else TReallyAll in
  let violation l := exists ef, doubly tags l ef \/ (incomplete_ok = false /\ uncovered tags all_tag l ef) in
  fags_in_range groups fags ->
  (forall l, In l fags -> one_group l all_tag) ->
  let r := check_bc_coverage groups fags tags incomplete_ok true_only in
  (r = Ok tt \/ r = Err ValueError \/ r = Err RuntimeError) /\
  (r = Err ValueError <-> exists t, In t tags /\ forall l, In l fags -> ~ carries l t) /\
  (r = Err RuntimeError <->
     (forall t, In t tags -> exists l, In l fags /\ carries l t) /\ exists l, In l fags /\ violation l).
Proof. exact (check_bc_coverage_spec groups fags tags incomplete_ok true_only). Qed.
Print Assumptions C07_check_bc_coverage.

Definition ex_fags : list (list (fagrp unit)) :=
  [[Boundary 0 (TUser 1) [(0, 0)]; Boundary 0 (TUser 2) [(1, 2); (0, 0)];
    Boundary 0 TAll [(0, 0); (1, 2); (0, 1)]; Boundary 0 TReallyAll [(0, 0); (1, 2); (0, 1)]];
   [Boundary 1 (TUser 1) [(0, 3)]; Boundary 1 TAll [(0, 3)]; Boundary 1 TReallyAll [(0, 3)]]].

Example C07_hypotheses : fags_in_range ex_groups ex_fags /\ (forall l, In l ex_fags -> one_group l TAll).
Proof.
  split; [split; [reflexivity|]|].
  - intros g grp l b e f Hg Hl Hb Hin. unfold nelements, nfaces.
    destruct g as [|[|g]]; cbn in Hg, Hl; [| |destruct g; discriminate]; inversion Hg; inversion Hl; subst; clear Hg Hl.
    + destruct Hb as [<-|[<-|[<-|[<-|[]]]]]; cbn in Hin; cbn [eg_nodes eg_fvi length tri_faces];
        repeat (destruct Hin as [X|Hin]; [inversion X; subst; lia|]); contradiction.
    + destruct Hb as [<-|[<-|[<-|[]]]]; cbn in Hin; cbn [eg_nodes eg_fvi length quad_faces];
        repeat (destruct Hin as [X|Hin]; [inversion X; subst; lia|]); contradiction.
  - intros l [<-|[<-|[]]].
    + eexists [_; _], _, [_]. split; [reflexivity|]. split; [reflexivity|].
      intros (b & Hb & Ht). cbn in Hb. intuition (subst; discriminate).
    + eexists [_], _, [_]. split; [reflexivity|]. split; [reflexivity|].
      intros (b & Hb & Ht). cbn in Hb. intuition (subst; discriminate).
Qed.
Example C07_example :
  check_bc_coverage ex_groups ex_fags [TUser 1] true true = Ok tt /\
  check_bc_coverage ex_groups ex_fags [TUser 1] false true = Err RuntimeError /\
  check_bc_coverage ex_groups ex_fags [TUser 1; TUser 2] true true = Err RuntimeError /\
  check_bc_coverage ex_groups ex_fags [TUser 1; TUser 3] true true = Err ValueError /\
  check_bc_coverage ex_groups ex_fags [TAll] false true = Ok tt.
Proof. repeat split; reflexivity. Qed.

(** ** C08 *)
Theorem C08_is_boundary_tag_empty {E A} (groups : list (egroup E)) (fags : list (list (fagrp A))) t :
  length fags = length groups ->
  ((forall l, In l fags -> ~ carries l t) -> is_boundary_tag_empty groups fags t = Err ValueError) /\
  ((exists l, In l fags /\ carries l t) ->
     exists b, is_boundary_tag_empty groups fags t = Ok b /\
       (b = true <-> forall l ef, In l fags -> ~ in_bdry l t ef)).
Proof. exact (is_boundary_tag_empty_spec groups fags t). Qed.
Print Assumptions C08_is_boundary_tag_empty.

Example C08_example :
  is_boundary_tag_empty ex_groups ex_fags (TUser 1) = Ok false /\
  is_boundary_tag_empty ex_groups ex_fags (TUser 9) = Err ValueError /\
  is_boundary_tag_empty (A:=unit) ex_groups [[Boundary 0 (TUser 1) []]; []] (TUser 1) = Ok true.
Proof. repeat split; reflexivity. Qed.
