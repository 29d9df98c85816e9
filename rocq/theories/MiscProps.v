(** * MiscProps: tags as keys, node numbers, pictures of curves, FInAT unit nodes, vtk_visualize_mesh (C218-C222). *)
From Coq Require Import List Arith Bool ZArith Lia.
From Verif Require Import Np NpFacts EqModel VisModel VisIoModel MiscModel MiscSpec MiscProofs.
Import ListNotations.

(** ** C218: boundary tags as keys of dictionaries *)

(** For objects of the class BTAG_PARTITION itself, classes and strings: == is equality and equal tags have equal hashes. *)
Theorem C218_equal_tags :
  forall hc hs hp a b, plain_tag a -> plain_tag b -> (tag_eq a b = true <-> a = b) /\ (tag_eq a b = true -> tag_hash hc hs hp a = tag_hash hc hs hp b).
Proof. intros hc hs hp a b Ha Hb. split; [now apply tag_eq_plain|]. intros E. apply tag_eq_plain in E; auto. now subst. Qed.
Print Assumptions C218_equal_tags.

(** A dictionary with such keys finds what was stored last under an equal key. *)
Theorem C218_lookup :
  forall hc hs hp (X : Type) (d : list (tagobj * X)) k x j, plain_tag k -> plain_tag j ->
    tagdict_get hc hs hp (tagdict_set hc hs hp d k x) j = if tag_eq k j then Some x else tagdict_get hc hs hp d j.
Proof. intros. rewrite get_set. now rewrite key_plain. Qed.
Print Assumptions C218_lookup.

Example C218_example :
  let h := Z.of_nat in let hp := fun cp : nat * nat => Z.of_nat (100 * fst cp + snd cp) in
  plain_tag (TagPart 0 3) /\ tagdict_get h h hp (tagdict_set h h hp [(TagClass 3, 1)] (TagPart 0 3) 2) (TagPart 0 3) = Some 2 /\
  tagdict_get h h hp (tagdict_set h h hp [(TagClass 3, 1)] (TagPart 0 3) 2) (TagClass 3) = Some 1.
Proof. repeat split. Qed.

(** Refuted for classes derived from BTAG_PARTITION: such a tag is equal to the tag of the class itself but has another hash, so that it is not found. *)
Theorem C218_derived_refuted :
  exists a b : tagobj, tag_eq a b = true /\ tag_eq b a = true /\
    forall hc hs hp, (forall p q, hp p = hp q -> p = q) ->
      tag_hash hc hs hp a <> tag_hash hc hs hp b /\
      tagdict_get hc hs hp (tagdict_set hc hs hp [] a 1) b = None /\ length (tagdict_set hc hs hp (tagdict_set hc hs hp [] a 1) b 2) = 2.
Proof.
  exists (TagPart 0 3), (TagPart 1 3). split; [reflexivity|]. split; [reflexivity|]. intros hc hs hp Hi.
  assert (N : hp (0, 3) <> hp (1, 3)) by (intros E; apply Hi in E; discriminate). split; [exact N|].
  assert (K : same_key hc hs hp (TagPart 0 3) (TagPart 1 3) = false) by (unfold same_key; cbn [tag_hash]; now rewrite (proj2 (Z.eqb_neq _ _) N)).
  cbn [tagdict_set tagdict_get]. rewrite K. split; reflexivity.
Qed.
Print Assumptions C218_derived_refuted.

(** ** C219: node numbers *)

(** base_node_nrs has one entry per group, the number of its first node. *)
Theorem C219_base_node_nrs :
  forall groups, groups <> [] -> length (base_node_nrs groups) = length groups /\
    forall i nel nunit, nth_error groups i = Some (nel, nunit) -> 0 < nel -> 0 < nunit ->
      exists b, nth_error (base_node_nrs groups) i = Some b /\ node_number groups i 0 0 b.
Proof.
  intros groups Hne. split; [rewrite base_node_length; destruct groups; [contradiction|cbn; lia]|].
  intros i nel nunit E H1 H2. exists (total_nodes (firstn i groups)). split; [apply base_node_nth; apply nth_error_Some; congruence|].
  exists nel, nunit. split; [exact E|]. split; [exact H1|]. split; [exact H2|]. unfold total_nodes. lia.
Qed.
Print Assumptions C219_base_node_nrs.

(** Every number below the number of nodes is base + element * nunit_nodes + node for exactly one node of one element of one group. *)
Theorem C219_node_numbers :
  forall groups n, n < fold_right (fun g acc => fst g * snd g + acc) 0 groups <->
    exists i e j, (exists b nel nunit, nth_error (base_node_nrs groups) i = Some b /\ nth_error groups i = Some (nel, nunit) /\ e < nel /\ j < nunit /\ n = b + e * nunit + j) /\
      forall i' e' j' b' nel' nunit', nth_error (base_node_nrs groups) i' = Some b' -> nth_error groups i' = Some (nel', nunit') -> e' < nel' -> j' < nunit' ->
        n = b' + e' * nunit' + j' -> (i', e', j') = (i, e, j).
Proof.
  intros groups n.
  assert (B : forall i nel nunit, nth_error groups i = Some (nel, nunit) -> nth_error (base_node_nrs groups) i = Some (total_nodes (firstn i groups)))
    by (intros i nel nunit E; apply base_node_nth; apply nth_error_Some; congruence).
  split.
  - intros H. destruct (node_number_exists groups n H) as (i & e & j & Hn). exists i, e, j. split.
    + destruct Hn as (nel & nunit & E & He & Hj & ->). exists (total_nodes (firstn i groups)), nel, nunit. split; [eauto|]. repeat split; auto.
    + intros i' e' j' b' nel' nunit' Eb E He Hj Hn'. apply (node_number_unique groups i' e' j' i e j n); [|exact Hn]. exists nel', nunit'.
      rewrite (B _ _ _ E) in Eb. injection Eb as <-. repeat split; auto.
  - intros (i & e & j & (b & nel & nunit & Eb & E & He & Hj & Hn) & _). apply (node_number_bound groups i e j). rewrite (B _ _ _ E) in Eb. injection Eb as <-. exists nel, nunit. repeat split; auto.
Qed.
Print Assumptions C219_node_numbers.

Example C219_example : base_node_nrs [(2, 3); (0, 4); (5, 2)] = [0; 6; 6] /\ node_number [(2, 3); (0, 4); (5, 2)] 2 4 1 15.
Proof. split; [reflexivity|]. exists 5, 2. repeat split; lia. Qed.

(** Refuted for meshes without groups: the array has one entry. *)
Theorem C219_no_groups_refuted : exists groups, length (base_node_nrs groups) <> length groups.
Proof. exists []. discriminate. Qed.
Print Assumptions C219_no_groups_refuted.

(** ** C220: pictures of curves *)

(** For curves in the plane with vertices, draw_curve draws a marker at every vertex and one line per element through its nodes; the function for
    discretizations draws the same. *)
Theorem C220_curve :
  forall (X : Type) (m : cmesh X) xs ys, cm_ambient m = 2 -> cm_dim m = 1 -> cm_vertices m = Some [xs; ys] -> Forall group_ok (cm_nodes m) ->
    exists p, draw_curve m = Ok p /\ draw_discr_curve m = Ok p /\ markers_of m (pc_markers p) /\ Forall2 lines_of (cm_nodes m) (pc_lines p).
Proof.
  intros X m xs ys Ha Hd Hv Hg. unfold draw_curve, draw_discr_curve, vertex_markers. rewrite Ha, Hd, Hv. cbn [Nat.eqb andb guard bind get nth_error].
  destruct (mapM_total group_lines (cm_nodes m)) as (ls & E).
  { intros g Hin. rewrite Forall_forall in Hg. destruct (group_lines_spec g (Hg g Hin)) as (l & El & _). eauto. }
  rewrite E. cbn [bind]. eexists. split; [reflexivity|]. split; [reflexivity|]. cbn [pc_markers pc_lines]. split; [exists xs, ys, []; auto|].
  apply mapM_ok in E. clear Ha Hd Hv. revert Hg. induction E as [|g l gs ls Hgl E IH]; intros Hg; constructor.
  - inversion Hg as [|? ? H1 H2]; subst. destruct (group_lines_spec g H1) as (l' & El & S). rewrite Hgl in El. now injection El as ->.
  - apply IH. now inversion Hg.
Qed.
Print Assumptions C220_curve.

(** draw_curve of a mesh raises ValueError for everything but curves in the plane. *)
Theorem C220_other_meshes :
  forall (X : Type) (m : cmesh X), ~ (cm_ambient m = 2 /\ cm_dim m = 1) -> draw_curve m = Err ValueError.
Proof.
  intros X m H. unfold draw_curve. destruct (Nat.eqb_spec (cm_ambient m) 2), (Nat.eqb_spec (cm_dim m) 1); try reflexivity. tauto.
Qed.
Print Assumptions C220_other_meshes.

Definition ex_x : array2 Z := mk_array2 3 [[0; 1; 2]; [2; 3; 4]]%Z.
Definition ex_y : array2 Z := mk_array2 3 [[5; 6; 7]; [7; 8; 9]]%Z.
Definition ex_curve (amb dim : nat) (v : option (list (list Z))) : cmesh Z := mk_cmesh amb dim v [[ex_x; ex_y]].
Example C220_example :
  draw_curve (ex_curve 2 1 (Some [[0; 2; 4]; [5; 7; 9]]%Z)) =
    Ok (mk_picture [(0, 5); (2, 7); (4, 9)]%Z [[[(0, 5); (1, 6); (2, 7)]; [(2, 7); (3, 8); (4, 9)]]]%Z) /\
  Forall group_ok (cm_nodes (ex_curve 2 1 None)).
Proof.
  split; [reflexivity|]. repeat constructor. exists ex_x, ex_y, [], 3, [[0; 1; 2]; [2; 3; 4]]%Z, [[5; 6; 7]; [7; 8; 9]]%Z. repeat split; repeat constructor.
Qed.

(** Refuted: the function for discretizations says so if something else than a curve in the plane is given.  A curve in space is drawn as its projection,
    a surface as lines through its nodes; meshes without vertices raise TypeError in both functions. *)
Theorem C220_discretizations_refuted :
  exists m1 m2 m3 : cmesh Z,
    cm_ambient m1 = 3 /\ (exists p, draw_discr_curve m1 = Ok p) /\ draw_curve m1 = Err ValueError /\
    cm_dim m2 = 2 /\ (exists p, draw_discr_curve m2 = Ok p) /\ draw_curve m2 = Err ValueError /\
    cm_ambient m3 = 2 /\ cm_dim m3 = 1 /\ draw_curve m3 = Err TypeError /\ draw_discr_curve m3 = Err TypeError.
Proof.
  exists (mk_cmesh 3 1 (Some [[0; 2; 4]; [5; 7; 9]; [1; 1; 1]]%Z) [[ex_x; ex_y; ex_x]]), (ex_curve 2 2 (Some [[0; 2; 4]; [5; 7; 9]]%Z)), (ex_curve 2 1 None).
  repeat match goal with |- _ /\ _ => split end; try reflexivity; eexists; reflexivity.
Qed.
Print Assumptions C220_discretizations_refuted.

(** ** C221: unit nodes of FInAT elements *)

(** An array of shape (dim, number of nodes) whose column j is the point at which the j-th functional evaluates the identity. *)
Theorem C221_unit_nodes :
  forall (X : Type) (e : finat X) dim, fi_allowed e = true -> fi_simplex e = true -> fi_nodes e <> [] ->
    (forall p, In p (fi_nodes e) -> length (p (fun x => x)) = dim) ->
    exists data, finat_unit_nodes e = Ok (mk_arr [dim; length (fi_nodes e)] data) /\ length data = dim * length (fi_nodes e) /\
      forall i j p x, nth_error (fi_nodes e) j = Some p -> nth_error (p (fun x => x)) i = Some x -> nth_error data (i * length (fi_nodes e) + j) = Some x.
Proof.
  intros X [al si ps] dim Ha Hs Hne Hl. cbn [fi_allowed fi_simplex fi_nodes] in *. subst. unfold finat_unit_nodes. cbn [fi_allowed fi_simplex fi_nodes guard bind].
  set (pts := map (fun p => p (fun x => x)) ps).
  assert (Hp : Forall (fun q => length q = dim) pts).
  { apply Forall_forall. intros q Hq. apply in_map_iff in Hq as (p & <- & Hq). auto. }
  assert (E : array_of_points pts = Ok (mk_arr [length pts; dim] (concat pts))).
  { destruct pts as [|q qs] eqn:Ep; [destruct ps; [contradiction|discriminate]|]. unfold array_of_points.
    assert (Lq : length q = dim) by now inversion Hp. rewrite Lq.
    replace (forallb _ _) with true; [reflexivity|]. symmetry. apply forallb_forall. intros r Hr. apply Nat.eqb_eq. rewrite Forall_forall in Hp. auto. }
  rewrite E. cbn [bind]. destruct (transpose_arr (length pts) dim pts eq_refl Hp) as (data & Et & Ld & Hd). rewrite Et.
  assert (Lp : length pts = length ps) by apply map_length. rewrite Lp in *. exists data. split; [reflexivity|]. split; [exact Ld|].
  intros i j p x Hj Hx. apply (Hd i j (p (fun x => x)) x); [|exact Hx]. unfold pts. now rewrite nth_error_map, Hj.
Qed.
Print Assumptions C221_unit_nodes.

(** Other elements and cells raise TypeError. *)
Theorem C221_type_errors :
  forall (X : Type) (e : finat X), fi_allowed e = false \/ fi_simplex e = false -> finat_unit_nodes e = Err TypeError.
Proof. intros X [al si ps] [H|H]; cbn [fi_allowed fi_simplex] in H; subst; [reflexivity|]. unfold finat_unit_nodes. cbn. now destruct al. Qed.
Print Assumptions C221_type_errors.

Example C221_example :
  finat_unit_nodes (mk_finat true true [(fun f => f [0; 0]); (fun f => f [1; 0]); (fun f => f [0; 1])]%Z) = Ok (mk_arr [2; 3] [0; 1; 0; 0; 0; 1]%Z).
Proof. reflexivity. Qed.

(** ** C222: vtk_visualize_mesh *)

(** If the groups of the mesh are accepted by the factories, it writes a file: from edge-clustered nodes of the highest order of all groups; if cells of
    high order are wanted, at equidistant nodes of that order (unless modepy's key says that these are the same nodes), so that the visualizer does not
    refuse them; otherwise at the nodes themselves.  Exactly the connectivity of that kind is computed. *)
Theorem C222_vtk_visualize_mesh :
  forall (key U F S : Type) keqb (apply_factory : F -> mgrp -> res (key * U)) equidistant edge_clustered (one : S) m orders high, orders <> [] ->
    (forall o g, In o orders -> In g (vm_groups m) -> (exists ku, apply_factory (edge_clustered o) g = Ok ku) /\ (high = true -> exists ku, apply_factory (equidistant o) g = Ok ku)) ->
    exists o c v, In o orders /\ (forall p, In p orders -> p <= o) /\
      vtk_visualize_mesh keqb apply_factory equidistant edge_clustered one m orders high = Ok (c, v) /\
      (if high then v_lagrange v else v_linear v) = Some c /\ (if high then v_linear v else v_lagrange v) = None /\
      d_mesh (conn_from c) = m /\ d_mesh (conn_to c) = m /\ d_factory (conn_from c) = edge_clustered o /\
      (high = false -> conn_to c = conn_from c) /\
      (high = true -> d_factory (conn_to c) = equidistant o \/
         conn_to c = conn_from c /\ exists e, make_discr key U F apply_factory 1 m (equidistant o) = Ok e /\
           forall a b, In (a, b) (combine (d_groups (conn_from c)) (d_groups e)) -> keqb (dg_key a) (dg_key b) = true).
Proof. intros. now apply vtk_mesh_spec. Qed.
Print Assumptions C222_vtk_visualize_mesh.

(** Factories are pairs: equidistant or not, order; keys are the same with the number of the group's elements left out *)
Definition ex_fac (f : bool * nat) (g : mgrp) : res ((bool * nat) * nat) := match mg_shape g with Simplex d => Ok (f, snd f + d) | _ => Err TypeError end.
Definition ex_keq (a b : bool * nat) : bool := Bool.eqb (fst a) (fst b) && (snd a =? snd b).
Definition ex_vm : vmesh := mk_vmesh 7 [mk_mgrp (Simplex 2) 4; mk_mgrp (Simplex 2) 1].
Example C222_example :
  (exists c v, vtk_visualize_mesh ex_keq ex_fac (fun o => (true, o)) (fun o => (false, o)) 1 ex_vm [2; 5] true = Ok (c, v) /\
     d_factory (conn_to c) = (true, 5) /\ d_factory (conn_from c) = (false, 5)) /\
  vtk_visualize_mesh ex_keq ex_fac (fun o => (true, o)) (fun o => (false, o)) 1 ex_vm [] true = Err ValueError /\
  (forall o g, In o [2; 5] -> In g (vm_groups ex_vm) -> (exists ku, ex_fac (false, o) g = Ok ku) /\ (true = true -> exists ku, ex_fac (true, o) g = Ok ku)).
Proof.
  split; [eexists; eexists; split; [vm_compute; reflexivity|split; reflexivity]|]. split; [reflexivity|].
  intros o g _ [<-|[<-|[]]]; cbn; eauto.
Qed.
