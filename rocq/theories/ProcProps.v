(** * Properties C16-C18, C24, C25, C53-C57: mesh processing. *)
From Coq Require Import List Arith Bool ZArith Lia Sorting.Sorted.
From Verif Require Import Np NpFacts MeshModel MeshSpec MeshProofs MeshExamples MeshStateModel Lin ProcModel ProcSpec
  MergeProofs SplitProofs UnusedProofs FlipProofs OrientProofs BoxMapProofs.
Import ListNotations.

(** A mesh built from the example groups with vertices 10, ..., 15 *)
Definition ex_m : mesh nat unit nat :=
  mk_mesh ex_groups (Some [10; 11; 12; 13; 14; 15]) (Some true) Pending Pending 0 0 0.
(** one more triangle (2,0,1) on three vertices *)
Definition ex_tri : mesh nat unit nat :=
  mk_mesh [mk_egroup (Some [[2; 0; 1]]) [200] tri_faces] (Some [20; 21; 22]) (Some true) Pending Pending 0 0 0.

(** ** C16: merge_disjoint_meshes gives the disjoint union, in the order of the arguments. *)
Theorem C16_merge_is_disjoint_union :
  forall (E A V : Type) (ambient_dim : mesh E A V -> nat) same_kind (single_group : bool) (ms : list (mesh E A V)),
    ms <> [] -> (forall m m', In m ms -> In m' ms -> ambient_dim m = ambient_dim m') ->
    (forall m, In m ms -> m_vertices m <> None /\ has_rows (m_groups m)) ->
    (single_group = true -> (exists m, In m ms /\ m_groups m <> []) /\
       forall m m' g g', In m ms -> In m' ms -> In g (m_groups m) -> In g' (m_groups m') -> same_kind g g' = true) ->
    exists m, merge_disjoint_meshes ambient_dim same_kind single_group ms = Ok m /\
      disjoint_union ms m /\
      (single_group = false -> map nelements (m_groups m) = concat (map (fun mk => map nelements (m_groups mk)) ms) /\
         map eg_fvi (m_groups m) = concat (map (fun mk => map eg_fvi (m_groups mk)) ms)) /\
      (single_group = true -> exists g, m_groups m = [g]) /\
      m_conforming m = Some (forallb (fun mk => truthy (m_conforming mk)) ms) /\
      m_nodal m = (if forallb (fun mk => is_pending (m_nodal mk)) ms && forallb (fun mk => truthy (m_conforming mk)) ms
                   then Pending else Unavailable) /\
      m_facial m = (if forallb (fun mk => is_pending (m_facial mk)) ms && forallb (fun mk => truthy (m_conforming mk)) ms
                   then Pending else Unavailable).
Proof. exact @merge_spec. Qed.
Print Assumptions C16_merge_is_disjoint_union.

(** Adjacency is computed from the merged mesh exactly if no input mesh has adjacency that was given, computed or declared unavailable, and all are conforming; otherwise it is unavailable. *)
Theorem C16_merged_adjacency :
  forall (E A V : Type) (ambient_dim : mesh E A V -> nat) same_kind (single_group : bool) (ms : list (mesh E A V)) m,
    ms <> [] -> (forall m m', In m ms -> In m' ms -> ambient_dim m = ambient_dim m') ->
    (forall m, In m ms -> m_vertices m <> None /\ has_rows (m_groups m)) ->
    (single_group = true -> (exists m, In m ms /\ m_groups m <> []) /\
       forall m m' g g', In m ms -> In m' ms -> In g (m_groups m) -> In g' (m_groups m') -> same_kind g g' = true) ->
    merge_disjoint_meshes ambient_dim same_kind single_group ms = Ok m ->
    ((m_conforming m = Some true /\ forall mk, In mk ms -> m_conforming mk = Some true) \/
     (m_conforming m = Some false /\ exists mk, In mk ms /\ m_conforming mk <> Some true)) /\
    ((m_nodal m = Pending /\ forall mk, In mk ms -> m_nodal mk = Pending /\ m_conforming mk = Some true) \/
     (m_nodal m = Unavailable /\ exists mk, In mk ms /\ (m_nodal mk <> Pending \/ m_conforming mk <> Some true))) /\
    ((m_facial m = Pending /\ forall mk, In mk ms -> m_facial mk = Pending /\ m_conforming mk = Some true) \/
     (m_facial m = Unavailable /\ exists mk, In mk ms /\ (m_facial mk <> Pending \/ m_conforming mk <> Some true))).
Proof.
  intros E A V ambient_dim same_kind single_group ms m H1 H2 H3 H4 Hm.
  destruct (C16_merge_is_disjoint_union E A V ambient_dim same_kind single_group ms H1 H2 H3 H4) as (m' & Hm' & _ & _ & _ & Hc & Hn & Hf).
  rewrite Hm in Hm'. injection Hm' as <-. rewrite Hc, Hn, Hf. clear.
  assert (Hp : forall X (f : lazyf X), is_pending f = true <-> f = Pending) by (intros X [| |]; cbn; split; congruence).
  assert (Ht : forall b, truthy b = true <-> b = Some true) by (intros [[|]|]; cbn; split; congruence).
  assert (Hall : forall (p : mesh E A V -> bool), (forallb p ms = true /\ forall mk, In mk ms -> p mk = true) \/ (forallb p ms = false /\ exists mk, In mk ms /\ p mk = false)).
  { intros p. destruct (forallb p ms) eqn:Ef.
    - left. split; [reflexivity|]. now apply forallb_forall.
    - right. split; [reflexivity|]. clear - Ef. induction ms as [|x l IH]; [discriminate|]. cbn in Ef. destruct (p x) eqn:Ex; [|exists x; split; [now left|exact Ex]].
      destruct (IH Ef) as (mk & Hin & Hmk). exists mk. split; [now right|exact Hmk]. }
  assert (Hcase : forall X (f : mesh E A V -> lazyf X),
    ((if forallb (fun mk => is_pending (f mk)) ms && forallb (fun mk => truthy (m_conforming mk)) ms then Pending else Unavailable : lazyf X) = Pending /\
       forall mk, In mk ms -> f mk = Pending /\ m_conforming mk = Some true) \/
    ((if forallb (fun mk => is_pending (f mk)) ms && forallb (fun mk => truthy (m_conforming mk)) ms then Pending else Unavailable : lazyf X) = Unavailable /\
       exists mk, In mk ms /\ (f mk <> Pending \/ m_conforming mk <> Some true))).
  { intros X f. destruct (Hall (fun mk => is_pending (f mk))) as [(-> & Ha)|(-> & mk & Hin & Ha)].
    - destruct (Hall (fun mk => truthy (m_conforming mk))) as [(-> & Hb)|(-> & mk & Hin & Hb)].
      + left. split; [reflexivity|]. intros mk Hin. split; [now apply Hp, Ha|now apply Ht, Hb].
      + right. split; [reflexivity|]. exists mk. split; [exact Hin|]. right. intros Hx. apply Ht in Hx. congruence.
    - right. split; [reflexivity|]. exists mk. split; [exact Hin|]. left. intros Hx. apply Hp in Hx. congruence. }
  split; [|split; apply Hcase].
  destruct (Hall (fun mk => truthy (m_conforming mk))) as [(-> & Hb)|(-> & mk & Hin & Hb)].
  - left. split; [reflexivity|]. intros mk Hin. now apply Ht, Hb.
  - right. split; [reflexivity|]. exists mk. split; [exact Hin|]. intros Hx. apply Ht in Hx. congruence.
Qed.
Print Assumptions C16_merged_adjacency.

(** Elements of different input meshes have no vertex in common. *)
Theorem C16_merged_meshes_share_no_vertex :
  forall (E A V : Type) (ms : list (mesh E A V)) m, disjoint_union ms m ->
    (forall mk e row x v, In mk ms -> nth_error (elements (m_groups mk)) e = Some (row, x) -> In v row -> v < nvert mk) ->
    forall k k' mk mk' e e' row row' x x' v, k <> k' ->
      nth_error ms k = Some mk -> nth_error ms k' = Some mk' ->
      e < length (elements (m_groups mk)) -> e' < length (elements (m_groups mk')) ->
      nth_error (elements (m_groups m)) (base (map nelem ms) k + e) = Some (row, x) ->
      nth_error (elements (m_groups m)) (base (map nelem ms) k' + e') = Some (row', x') ->
      In v row -> In v row' -> False.
Proof.
  intros E A V ms m HD Hr k k' mk mk' e e' row row' x x' v Hkk Hk Hk' He He' Hrow Hrow' Hv Hv'.
  destruct (nth_error (elements (m_groups mk)) e) as [(r & y)|] eqn:H1; [|apply nth_error_None in H1; lia].
  destruct (nth_error (elements (m_groups mk')) e') as [(r' & y')|] eqn:H2; [|apply nth_error_None in H2; lia].
  rewrite (du_elem ms m HD k mk e r y Hk H1) in Hrow. rewrite (du_elem ms m HD k' mk' e' r' y' Hk' H2) in Hrow'.
  injection Hrow as <- _. injection Hrow' as <- _.
  apply in_map_iff in Hv as (w & Hw & Hin). apply in_map_iff in Hv' as (w' & Hw' & Hin').
  apply Hkk. apply (owns_unique (map nvert ms) k k' v).
  - exists (nvert mk). split; [rewrite nth_error_map, Hk; reflexivity|].
    pose proof (Hr _ _ _ _ _ (nth_error_In _ _ Hk) H1 Hin). lia.
  - exists (nvert mk'). split; [rewrite nth_error_map, Hk'; reflexivity|].
    pose proof (Hr _ _ _ _ _ (nth_error_In _ _ Hk') H2 Hin'). lia.
Qed.
Print Assumptions C16_merged_meshes_share_no_vertex.

Example C16_example :
  (forall m, In m [ex_m; ex_tri] -> m_vertices m <> None /\ has_rows (m_groups m)) /\
  exists m, merge_disjoint_meshes (fun _ => 2) (fun _ _ => true) false [ex_m; ex_tri] = Ok m /\
    map eg_vi (m_groups m) = [Some [[0; 1; 2]; [1; 3; 2]]; Some [[1; 4; 3; 5]]; Some [[8; 6; 7]]] /\
    m_vertices m = Some [10; 11; 12; 13; 14; 15; 20; 21; 22] /\ m_nodal m = Pending.
Proof.
  split.
  - intros m [<-|[<-|[]]]; (split; [discriminate|]); [apply ex_has_rows|]. repeat constructor; eexists; split; reflexivity.
  - eexists. split; [vm_compute; reflexivity|]. repeat split.
Qed.

(** ** C55 (refuted): the merged mesh does not depend on earlier queries of the inputs. *)
Theorem C55_merge_history_independent_refuted :
  exists (m m1 r r1 : mesh nat unit nat) (x : nadj) (c : nat * nat),
    make_mesh (m_vertices m) (m_groups m) Pending Pending (Some true) 0 0 0 = Ok m /\
    (exists a, ask (fun l => l) tt (fun l => l) QNodal (m, (0, 0)) = (a, (m1, c))) /\
    merge_disjoint_meshes (fun _ => 2) (fun _ _ => true) false [m; m] = Ok r /\
    merge_disjoint_meshes (fun _ => 2) (fun _ _ => true) false [m1; m] = Ok r1 /\
    fst (get_nodal (fun l => l) (r, (0, 0))) = Ok x /\
    fst (get_nodal (fun l => l) (r1, (0, 0))) = Err DataUnavailableError.
Proof.
  exists ex_m. do 5 eexists. split; [reflexivity|]. split; [eexists; vm_compute; reflexivity|].
  split; [vm_compute; reflexivity|]. split; [vm_compute; reflexivity|]. split; vm_compute; reflexivity.
Qed.
Print Assumptions C55_merge_history_independent_refuted.

(** ** C17: split_mesh_groups splits every group by flag; a flag array of another length is rejected. *)
Theorem C17_split_mesh_groups :
  forall (E A V : Type) (flags : list Z) (m : mesh E A V),
    (has_rows (m_groups m) -> length flags = sum (map nelements (m_groups m)) ->
     exists m' sub, split_mesh_groups flags m = Ok (m', sub) /\
       splitting (m_groups m) flags (m_groups m') sub /\ m_vertices m' = m_vertices m) /\
    (length flags <> sum (map nelements (m_groups m)) -> split_mesh_groups flags m = Err AssertionError).
Proof. intros E A V flags m. split; [exact (split_spec flags m)|exact (split_bad_length flags m)]. Qed.
Print Assumptions C17_split_mesh_groups.

Example C17_example : has_rows (m_groups ex_m) /\ length [5; -1; 5]%Z = sum (map nelements (m_groups ex_m)) /\
  exists m', split_mesh_groups [5; -1; 5]%Z ex_m = Ok (m', [((0, (-1)%Z), 0); ((0, 5%Z), 1); ((1, 5%Z), 2)]) /\
    map eg_nodes (m_groups m') = [[101]; [100]; [102]].
Proof. split; [exact ex_has_rows|]. split; [reflexivity|]. eexists. split; [vm_compute; reflexivity|reflexivity]. Qed.

(** ** C18: flips *)
Theorem C18_flip_element_group :
  forall (R : cring) M perm flags (g : egroup (enodes R)), involutive perm -> flippable R perm g -> length flags = nelements g ->
    exists g', flip_element_group R M perm flags g = Ok g' /\ eg_fvi g' = eg_fvi g /\ nelements g' = nelements g /\ flippable R perm g' /\
      (forall i flag row x, nth_error flags i = Some flag -> elem_at [g] 0 i row x ->
         exists row' x', elem_at [g'] 0 i row' x' /\
           (flag = true -> flipped R M perm row x row' x') /\ (flag = false -> row' = row /\ x' = x)) /\
      (forall n, is_mat n n M -> matmul n M M = idmat n -> Forall (Forall (fun r => length r = n)) (eg_nodes g) ->
         flip_element_group R M perm flags g' = Ok g).
Proof. exact @flip_group_spec. Qed.
Print Assumptions C18_flip_element_group.

Theorem C18_perform_flips :
  forall (R : cring) (A V : Type) flipper flags (m : mesh (enodes R) A V) vs,
    m_vertices m = Some vs -> length flags = sum (map nelements (m_groups m)) ->
    Forall (flipper_ok R flipper) (m_groups m) ->
    (forall g g', In g (m_groups m) -> eg_fvi g' = eg_fvi g -> flipper g' = flipper g) ->
    exists m', perform_flips R flipper flags m = Ok m' /\
      m_vertices m' = Some vs /\ m_conforming m' = m_conforming m /\
      map nelements (m_groups m') = map nelements (m_groups m) /\ map eg_fvi (m_groups m') = map eg_fvi (m_groups m) /\
      has_rows (m_groups m') /\
      (forall g i flag row x, elem_at (m_groups m) g i row x ->
         nth_error flags (base (map nelements (m_groups m)) g + i) = Some flag ->
         exists row' x', elem_at (m_groups m') g i row' x' /\
           (flag = true -> exists grp M perm, nth_error (m_groups m) g = Some grp /\ flipper grp = Ok (M, perm) /\ flipped R M perm row x row' x') /\
           (flag = false -> row' = row /\ x' = x)) /\
      (exists m'', perform_flips R flipper flags m' = Ok m'' /\ m_groups m'' = m_groups m /\ m_vertices m'' = Some vs).
Proof. exact @perform_flips_spec. Qed.
Print Assumptions C18_perform_flips.

(** The default permutation of simplices is its own inverse and exchanges the first two vertices. *)
Theorem C18_simplex_permutation :
  forall d perm, simplex_flip_permutation (S d) = Ok perm ->
    involutive perm /\ length perm = d + 2 /\
    forall v0 v1 rest row' (R : cring) (M x x' : list (list R)), length rest = d ->
      flipped R M perm (v0 :: v1 :: rest) x row' x' -> row' = v1 :: v0 :: rest.
Proof.
  intros d perm H. rewrite simplex_perm_ok in H. injection H as <-. split; [apply simplex_perm_involutive|].
  split; [cbn [length]; rewrite seq_length; lia|].
  intros v0 v1 rest row' R M x x' Hl (H1 & H2 & _). cbn [length] in H1. apply (simplex_flipped_row d v0 v1 rest row'); auto. lia.
Qed.
Print Assumptions C18_simplex_permutation.

(** Two triangles in the plane, the second one clockwise; one node row of three unit nodes per axis.
    The flip matrix exchanges the first two unit nodes. *)
Definition ex_M : list (list Zcring) := [[0; 1; 0]; [1; 0; 0]; [0; 0; 1]]%Z.
Definition ex_flipper (g : egroup (enodes Zcring)) : res (list (list Zcring) * list nat) := Ok (ex_M, [1; 0; 2]).
Definition ex_pts : list (list Zcring) := [[0; 0]; [1; 0]; [0; 1]; [1; 1]]%Z.
Definition ex_plane : list (egroup (enodes Zcring)) :=
  [mk_egroup (Some [[0; 1; 2]; [1; 2; 3]]) [[[0; 1; 0]; [0; 0; 1]]; [[1; 0; 1]; [0; 1; 1]]]%Z tri_faces].
Definition ex_plane_m : mesh (enodes Zcring) unit (list Zcring) := mk_mesh ex_plane (Some ex_pts) (Some true) Pending Pending 0 0 0.

Example C18_example :
  length [false; true] = sum (map nelements (m_groups ex_plane_m)) /\ Forall (flipper_ok Zcring ex_flipper) (m_groups ex_plane_m) /\
  exists m', perform_flips Zcring ex_flipper [false; true] ex_plane_m = Ok m' /\
    m_groups m' = [mk_egroup (Some [[0; 1; 2]; [2; 1; 3]]) [[[0; 1; 0]; [0; 0; 1]]; [[0; 1; 1]; [1; 0; 1]]]%Z tri_faces].
Proof.
  split; [reflexivity|]. split.
  - constructor; [|constructor]. exists ex_M, [1; 0; 2], 3. split; [reflexivity|]. split; [apply (simplex_perm_involutive 1)|].
    split; [eexists; split; [reflexivity|]; split; [reflexivity|]; repeat constructor|].
    split; [split; [reflexivity|repeat constructor]|]. split; [vm_compute; reflexivity|]. repeat constructor.
  - eexists. split; [vm_compute; reflexivity|reflexivity].
Qed.

(** ** C57: with force_positive_orientation every simplex of the new mesh is positively oriented. *)
Theorem C57_forced_orientation_of_simplices :
  forall (R : cring) (A : Type) d (negative : R -> bool) flipper indices vs (groups : list (egroup (enodes R)))
      (nodal : lazyf nadj) (facial : lazyf (list (list (fagrp A)))) conforming vd ed fd m0,
    1 <= d <= 3 -> (forall x : R, negative x = true -> negative (ropp x) = false) ->
    make_mesh (Some vs) groups nodal facial conforming vd ed fd = Ok m0 ->
    Forall (fun v => length v = d) vs -> simplices d (length vs) groups ->
    (forall g, In g groups -> indices g = (0, seq 1 d)) ->
    (forall g, In g groups -> exists M perm n, flipper g = Ok (M, perm) /\ simplex_flip_permutation d = Ok perm /\
       is_mat n n M /\ matmul n M M = idmat (R := R) n /\ Forall (Forall (fun r => length r = n)) (eg_nodes g)) ->
    (forall g g', In g groups -> eg_fvi g' = eg_fvi g -> flipper g' = flipper g) ->
    exists m, make_mesh_forced R negative flipper indices (Some vs) groups nodal facial conforming vd ed fd = Ok m /\
      map nelements (m_groups m) = map nelements groups /\ m_vertices m = Some vs /\
      map eg_fvi (m_groups m) = map eg_fvi groups /\ has_rows (m_groups m) /\
      (forall g i row x, elem_at groups g i row x ->
         exists o row' x', element_orientation R 0 (seq 1 d) vs row = Ok o /\ elem_at (m_groups m) g i row' x' /\
           (negative o = false -> row' = row /\ x' = x) /\
           (negative o = true -> (exists v0 v1 rest, row = v0 :: v1 :: rest /\ row' = v1 :: v0 :: rest) /\
             exists grp M perm, nth_error groups g = Some grp /\ flipper grp = Ok (M, perm) /\ x' = map (matvec M) x)) /\
      (forall g i row x, elem_at (m_groups m) g i row x ->
         exists o, element_orientation R 0 (seq 1 d) vs row = Ok o /\ negative o = false).
Proof. exact @forced_spec. Qed.
Print Assumptions C57_forced_orientation_of_simplices.

(** The reported orientation is the determinant of the edge vectors starting at the first vertex. *)
Theorem C57_orientation_is_determinant :
  forall (R : cring) d (vs : list (list R)) row b xs, 1 <= d <= 3 ->
    length b = d -> length xs = d -> Forall (fun x => length x = d) xs ->
    Forall2 (fun v x => nth_error vs v = Some x) row (b :: xs) ->
    element_orientation R 0 (seq 1 d) vs row = Ok (det R d (map (fun x => vsub x b) xs)).
Proof. exact @orientation_det. Qed.
Print Assumptions C57_orientation_is_determinant.

Lemma ex_plane_simplices : simplices 2 (length ex_pts) ex_plane.
Proof.
  split; [repeat constructor; eexists; split; reflexivity|].
  intros g i row x (grp & vi & Hg & Hvi & Hrow & _). destruct g as [|[|g]]; cbn in Hg; try discriminate. injection Hg as <-.
  cbn in Hvi. injection Hvi as <-. destruct i as [|[|[|i]]]; cbn in Hrow; try discriminate; injection Hrow as <-;
    (split; [reflexivity|]); repeat constructor.
Qed.

Example C57_example : simplices 2 (length ex_pts) ex_plane /\ Forall (fun v => length v = 2) ex_pts /\
  element_orientation Zcring 0 (seq 1 2) ex_pts [1; 2; 3] = Ok (-1)%Z /\
  exists m : mesh (enodes Zcring) unit (list Zcring),
    make_mesh_forced Zcring (fun x => (x <? 0)%Z) ex_flipper (fun _ => (0, [1; 2])) (Some ex_pts) ex_plane Pending Pending (Some true) 0 0 0 = Ok m /\
    map eg_vi (m_groups m) = [Some [[0; 1; 2]; [2; 1; 3]]].
Proof.
  split; [exact ex_plane_simplices|]. split; [repeat constructor|]. split; [vm_compute; reflexivity|].
  eexists. split; [vm_compute; reflexivity|reflexivity].
Qed.

(** ** C54 (refuted): forcing the orientation keeps the boundary tags given to make_mesh. *)
Definition ex_tagged : list (list (fagrp unit)) := [[Boundary 0 (TUser 1) [(0, 0)]; Boundary 0 TAll [(0, 0); (0, 1); (0, 2)]]].
Definition ex_single : list (egroup (enodes Zcring)) := [mk_egroup (Some [[0; 1; 2]]) [[[0; 1; 0]; [0; 0; 1]]]%Z tri_faces].
Theorem C54_forced_orientation_keeps_tags_refuted :
  exists (vs : list (list Zcring)) groups (fags fags' f0 : list (list (fagrp unit))) m0 m s a,
    make_mesh (Some vs) groups Pending (Available fags) (Some true) 0 0 0 = Ok m0 /\ m_facial m0 = Available f0 /\
    bdry_adj f0 (TUser 1) a /\
    make_mesh_forced Zcring (fun x => (x <? 0)%Z) ex_flipper (fun _ => (0, [1; 2])) (Some vs) groups Pending (Available fags) (Some true) 0 0 0 = Ok m /\
    m_groups m = groups /\      (* no element was flipped *)
    get_facial tt (fun l => l) (m, (0, 0)) = (Ok fags', s) /\ ~ bdry_adj fags' (TUser 1) a.
Proof.
  exists ex_pts, ex_single, ex_tagged. do 5 eexists. exists (0, 0, 0).
  split; [vm_compute; reflexivity|]. split; [vm_compute; reflexivity|]. split.
  { eexists. split; [reflexivity|]. eexists. split; [left; reflexivity|]. split; [reflexivity|]. left; reflexivity. }
  split; [vm_compute; reflexivity|]. split; [reflexivity|]. split; [vm_compute; reflexivity|].
  intros (l & Hl & b & Hb & Ht & _). cbn in Hl. injection Hl as <-. cbn in Hb.
  repeat (destruct Hb as [<-|Hb]; [discriminate|]). destruct Hb.
Qed.
Print Assumptions C54_forced_orientation_keeps_tags_refuted.

(** ** C24: remove_unused_vertices *)
Theorem C24_remove_unused_vertices :
  forall (E A V : Type) (m : mesh E A V),
    (forall vs, m_vertices m = Some vs -> m_groups m <> [] -> has_rows (m_groups m) -> rows_in_range (length vs) (m_groups m) ->
       exists m' old, remove_unused_vertices m = Ok m' /\ without_unused m m' old) /\
    (m_vertices m = None \/ m_groups m = [] \/ (exists g, In g (m_groups m) /\ eg_vi g = None) ->
       remove_unused_vertices m = Err ValueError).
Proof. intros E A V m. split; [exact (remove_unused_spec m)|exact (remove_unused_error m)]. Qed.
Print Assumptions C24_remove_unused_vertices.

Definition ex_sparse : mesh nat unit nat :=
  mk_mesh [mk_egroup (Some [[5; 1; 3]]) [7] tri_faces] (Some [50; 51; 52; 53; 54; 55]) (Some true) Pending Pending 0 0 0.
Example C24_example : has_rows (m_groups ex_sparse) /\ rows_in_range 6 (m_groups ex_sparse) /\
  exists m', remove_unused_vertices ex_sparse = Ok m' /\ map eg_vi (m_groups m') = [Some [[2; 0; 1]]] /\ m_vertices m' = Some [51; 53; 55].
Proof.
  split; [repeat constructor; eexists; split; reflexivity|]. split.
  - intros e row v (g & i & (grp & vi & Hg & Hvi & Hi & Hr) & _) Hv. destruct g as [|[|g]]; cbn in Hg; try discriminate. injection Hg as <-.
    cbn in Hvi. injection Hvi as <-. destruct i as [|[|i]]; cbn in Hr; try discriminate. injection Hr as <-. cbn in Hv. lia.
  - eexists. split; [vm_compute; reflexivity|]. split; reflexivity.
Qed.

(** ** C25: the bounding box contains all vertices and every bound is attained. *)
Theorem C25_bounding_box_of_vertices :
  forall (C E A : Type) (leb : C -> C -> bool),
    (forall a b, leb a b = true \/ leb b a = true) ->
    (forall a b c, leb a b = true -> leb b c = true -> leb a c = true) ->
    forall dim (m : mesh E A (list C)) vs,
    m_vertices m = Some vs -> vs <> [] -> Forall (fun v => length v = dim) vs ->
    exists lo hi, find_bounding_box leb dim m = Ok (lo, hi) /\ length lo = dim /\ length hi = dim /\
      (forall v a l c h, In v vs -> nth_error v a = Some c -> nth_error lo a = Some l -> nth_error hi a = Some h ->
         leb l c = true /\ leb c h = true) /\
      (forall a l, nth_error lo a = Some l -> exists v, In v vs /\ nth_error v a = Some l) /\
      (forall a h, nth_error hi a = Some h -> exists v, In v vs /\ nth_error v a = Some h).
Proof. intros C E A leb H1 H2. exact (bbox_spec leb H1 H2). Qed.
Print Assumptions C25_bounding_box_of_vertices.

Example C25_example :
  (forall a b, Z.leb a b = true \/ Z.leb b a = true) /\ Forall (fun v : list Z => length v = 2) ex_pts /\
  find_bounding_box Z.leb 2 ex_plane_m = Ok ([0; 0]%Z, [1; 1]%Z).
Proof.
  split; [intros a b; destruct (Z.leb_spec a b); auto; right; apply Z.leb_le; lia|]. split; [repeat constructor|vm_compute; reflexivity].
Qed.

(** ** C53 (refuted): the bounding box contains all nodes.  A curved segment: vertices (0,0), (2,0), three nodes, the
    middle one at (1,1). *)
Theorem C53_bounding_box_contains_nodes_refuted :
  exists (m : mesh (list (list Z)) unit (list Z)) g x y hi lo,
    In g (m_groups m) /\ In x (eg_nodes g) /\ In y x /\
    find_bounding_box Z.leb 2 m = Ok (lo, hi) /\
    (forall v, m_vertices m = Some v -> incl v x) /\     (* every vertex is a node *)
    exists a c h, nth_error y a = Some c /\ nth_error hi a = Some h /\ (h < c)%Z.
Proof.
  exists (mk_mesh [mk_egroup (Some [[0; 1]]) [[[0; 0]; [1; 1]; [2; 0]]]%Z [[0]; [1]]] (Some [[0; 0]; [2; 0]]%Z) (Some true) Pending Pending 0 0 0).
  eexists; eexists; exists [1; 1]%Z; eexists; eexists. split; [left; reflexivity|]. split; [left; reflexivity|]. split; [right; left; reflexivity|].
  split; [vm_compute; reflexivity|]. split.
  - intros v Hv. injection Hv as <-. intros p [<-|[<-|[]]]; cbn; auto.
  - exists 1. eexists; eexists. split; [reflexivity|]. split; [reflexivity|]. lia.
Qed.
Print Assumptions C53_bounding_box_contains_nodes_refuted.

(** ** C56: map_mesh moves every vertex and every node by the given map and changes nothing else; it refuses meshes
    with affine maps in their adjacency, and meshes whose facial adjacency is declared unavailable. *)
Theorem C56_map_mesh :
  forall (P A : Type) (trivial : A -> bool) (m : mesh (list P) A P),
    (forall h : P -> P, maps_free trivial m ->
       map_mesh trivial (map h) m =
         Ok (mk_mesh (map (fun g => mk_egroup (eg_vi g) (map (map h) (eg_nodes g)) (eg_fvi g)) (m_groups m))
                     (option_map (map h) (m_vertices m)) (m_conforming m) (m_nodal m) (m_facial m)
                     (m_vdtype m) (m_edtype m) (m_fdtype m))) /\
    (forall f, m_facial m = Unavailable -> map_mesh trivial f m = Err DataUnavailableError) /\
    (forall f fags l b a, m_facial m = Available fags -> In l fags -> In b l -> attached b a -> trivial a = false ->
       map_mesh trivial f m = Err ValueError).
Proof.
  intros P A trivial m. split; [exact (fun h => map_mesh_spec trivial h m)|]. split; [intros f; apply (map_mesh_error trivial f m)|].
  intros f. apply (map_mesh_error trivial f m).
Qed.
Print Assumptions C56_map_mesh.

Example C56_example :
  let m := mk_mesh [mk_egroup (Some [[0; 1]]) [[0; 5; 9]] [[0]; [1]]] (Some [0; 9]) (Some true) (@Pending nadj)
             (Available [[Interior 0 0 [] 0; Boundary 0 TAll [(0, 0); (0, 1)]]]) 0 0 0 in
  maps_free (fun a => a =? 0) m /\
  exists m', map_mesh (fun a => a =? 0) (map (fun x => 2 * x + 1)) m = Ok m' /\ m_vertices m' = Some [1; 19] /\
    map eg_nodes (m_groups m') = [[[1; 11; 19]]].
Proof.
  cbv zeta. split.
  - cbn. intros l b a [<-|[]] [<-|[<-|[]]] H; cbn in H; [subst a; reflexivity|contradiction].
  - eexists. split; [vm_compute; reflexivity|]. split; reflexivity.
Qed.
