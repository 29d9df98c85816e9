(** * NodesProps: theorems about unit nodes, from_meshpy and version numbers. *)
From Coq Require Import String Ascii ZArith List Arith Bool Lia Ring.
From Verif Require Import Np NpFacts MeshModel MeshStateModel Lin Ord QcOrd ProcModel GenModel GenExamples NodesModel NodesSpec NodesProofs.
Import ListNotations.

Section Props.
  Variable R : ocring.
  Variables (wb equidistant : nat -> nat -> res (nodes R)) (F : Type) (recursive : nat -> nat -> F -> res (nodes R)).
  Variables (nbasis : nat -> nat -> nat) (inv : nat -> R) (tol : R).
  Local Notation nodes_3d := (restricting_3d R wb inv tol).
  Local Notation unit_nodes := (group_unit_nodes R wb equidistant F recursive nbasis inv tol).

  (** ** C209: for orders greater than 0, the nodes of PolynomialWarpAndBlend3DRestrictingElementGroup in dim <= 3 dimensions are those of the 3D warp-and-blend nodes
      that lie on the face where all further coordinates are -1, in the same order *)
  Theorem C209_face_nodes dim order pts : order <> 0 -> dim <= 3 -> wb 3 order = Ok (array_of R 3 pts) -> Forall (fun p => List.length p = 3) pts ->
    nodes_3d dim order = Ok (array_of R dim (face_points R tol dim pts)).
  Proof.
    intros Ho Hd Hw Hl. unfold restricting_3d. rewrite (proj2 (Nat.eqb_neq _ _) Ho), Hw. cbn [bind]. rewrite restrict_all.
    2: { apply Forall_forall. intros d Hin. apply in_seq in Hin. lia. }
    cbn [bind]. rewrite (array_firstn R dim 3) by exact Hd.
    assert (E : filter (fun p => forallb (fun d => near R tol (nth d p r0)) (seq dim (3 - dim))) pts = filter (fun p => forallb (near R tol) (skipn dim p)) pts).
    { apply filter_ext_In. intros p Hp. apply tail_axes; auto. rewrite Forall_forall in Hl. now apply Hl. }
    rewrite E. unfold face_points, array_of. cbn [nd_n nd_rows]. now rewrite map_length.
  Qed.

  (** hence the nodes of a face are the nodes of the group of lower dimension *)
  Theorem C209_nested d e order pts : order <> 0 -> d <= e -> e <= 3 -> wb 3 order = Ok (array_of R 3 pts) -> Forall (fun p => List.length p = 3) pts ->
    exists pe, nodes_3d e order = Ok (array_of R e pe) /\ Forall (fun p => List.length p = e) pe /\ nodes_3d d order = Ok (array_of R d (face_points R tol d pe)).
  Proof.
    intros Ho Hde He Hw Hl. exists (face_points R tol e pts). split; [now apply C209_face_nodes|].
    assert (Hl' : Forall (fun p => e <= List.length p) pts) by (eapply Forall_impl; [|exact Hl]; intros p Hp; cbn beta in Hp; lia).
    split; [now apply face_points_length|]. rewrite face_face by assumption. apply C209_face_nodes; auto. lia.
  Qed.

  (** and if the 3D nodes are numbered by the exponents of P^order, so are those of lower dimension: there are as many nodes as monomials *)
  Theorem C209_unisolvent_count dim order pts ts : order <> 0 -> dim <= 3 -> wb 3 order = Ok (array_of R 3 pts) -> tuples_upto 3 order ts -> placed R tol ts pts ->
    exists ts' pts', nodes_3d dim order = Ok (array_of R dim pts') /\ Forall (fun p => List.length p = dim) pts' /\ tuples_upto dim order ts' /\ placed R tol ts' pts' /\
      forall us, tuples_upto dim order us -> nd_n (array_of R dim pts') = List.length us.
  Proof.
    intros Ho Hd Hw Ht Hp. assert (Hl : Forall (fun p => List.length p = 3) pts).
    { apply Forall_forall. intros p Hin. apply In_nth_error in Hin as (i & Hi). destruct (Forall2_nth_error_r _ _ _ i p Hp Hi) as (t & Hti & Htp).
      rewrite <- (Forall2_length' _ _ _ Htp). apply nth_error_In in Hti. now apply (proj2 Ht) in Hti. }
    exists (face_tuples dim ts), (face_points R tol dim pts). split; [now apply C209_face_nodes|]. split.
    { apply face_points_length. eapply Forall_impl; [|exact Hl]. intros p E. cbn beta in E. lia. }
    pose proof (face_tuples_upto dim 3 order ts Hd Ht) as Hf. pose proof (placed_face R tol dim ts pts Hp) as Hpf. split; [exact Hf|]. split; [exact Hpf|].
    intros us Hu. cbn [array_of nd_n]. rewrite <- (Forall2_length' _ _ _ Hpf). now apply (tuples_upto_count dim order).
  Qed.

  (** ** C210: unit nodes have one row per dimension; in four dimensions, the 3D restricting group has nodes with three *)
  Theorem C210_dimension g dim order a : (forall d k b, wb d k = Ok b -> List.length (nd_rows b) = d) -> (g = G3D R F -> order = 0 \/ dim <= 3) ->
    unit_nodes g dim order = Ok a -> List.length (nd_rows a) = dim.
  Proof.
    intros Hw Hg. assert (C : forall b c, check_dim R dim b = Ok c -> List.length (nd_rows c) = dim).
    { intros b c H. unfold check_dim in H. destruct (Nat.eqb_spec (List.length (nd_rows b)) dim); cbn [guard bind] in H; [|discriminate]. now injection H as <-. }
    destruct g as [| | |f| |u]; cbn [group_unit_nodes]; intros H.
    - apply bind_ok in H as (b & _ & H). eauto.
    - apply bind_ok in H as (b & _ & H). eauto.
    - unfold restricting_3d in H. destruct (Nat.eqb_spec order 0) as [E|E].
      + apply bind_ok in H as (b & Hb & H). injection H as <-. cbn [mean_node nd_rows]. rewrite map_length. eauto.
      + destruct (Hg eq_refl) as [Hc|Hd]; [contradiction|]. apply bind_ok in H as (b & Hb & H). apply bind_ok in H as (c & Hc & H). injection H as <-. cbn [nd_rows].
        rewrite firstn_length. apply Hw in Hb. assert (L : List.length (nd_rows c) = 3); [|lia]. revert Hb Hc. generalize (seq dim (3 - dim)). clear. intros ds. revert b.
        induction ds as [|d ds IH]; intros b Hb Hc; cbn [foldM] in Hc; [now injection Hc as <-|]. apply bind_ok in Hc as (b' & H1 & H2). apply (IH b'); auto.
        unfold restrict_axis in H1. apply bind_ok in H1 as (row & _ & H1). injection H1 as <-. cbn [nd_rows]. now rewrite map_length.
    - apply bind_ok in H as (b & _ & H). eauto.
    - apply bind_ok in H as (b & _ & H). eauto.
    - unfold given_nodes_group in H. destruct (Nat.eqb_spec (List.length (nd_rows u)) dim); cbn [guard bind] in H; [|discriminate].
      destruct (nd_n u =? nbasis dim order); cbn [guard bind] in H; [|discriminate]. now injection H as <-.
  Qed.

  (** nodes given by the user are accepted exactly if there are as many as basis functions, with one row per dimension; they are used as given *)
  Theorem C210_given u dim order a : unit_nodes (GGiven R F u) dim order = Ok a <-> a = u /\ List.length (nd_rows u) = dim /\ nd_n u = nbasis dim order.
  Proof.
    cbn [group_unit_nodes]. unfold given_nodes_group. destruct (Nat.eqb_spec (List.length (nd_rows u)) dim); cbn [guard bind]; [|split; [discriminate|tauto]].
    destruct (Nat.eqb_spec (nd_n u) (nbasis dim order)); cbn [guard bind]; split; try discriminate; try tauto.
    - intros [= <-]. auto.
    - intros (-> & _). reflexivity.
  Qed.
  Theorem C210_given_error u dim order e : unit_nodes (GGiven R F u) dim order = Err e -> e = ValueError.
  Proof.
    cbn [group_unit_nodes]. unfold given_nodes_group. destruct (List.length (nd_rows u) =? dim); cbn [guard bind]; [|congruence].
    destruct (nd_n u =? nbasis dim order); cbn [guard bind]; congruence.
  Qed.

  (** the warp-and-blend groups have a single node in the center of the nodes of order 1, i.e. of the vertices, for order 0 *)
  Theorem C210_order_0 g dim pts : In g [GWarp R F; G2D R F; G3D R F] -> wb dim 1 = Ok (array_of R dim pts) -> exists a, unit_nodes g dim 0 = Ok a /\ nd_n a = 1 /\
    List.length (nd_rows a) = dim /\ forall d, d < dim -> exists x, nth_error (nd_rows a) d = Some [x] /\ is_mean R inv pts d x.
  Proof.
    intros Hg Hw. exists (mean_node R inv (array_of R dim pts)). assert (L : List.length (nd_rows (mean_node R inv (array_of R dim pts))) = dim).
    { cbn [mean_node nd_rows array_of]. now rewrite !map_length, seq_length. }
    assert (C : check_dim R dim (mean_node R inv (array_of R dim pts)) = Ok (mean_node R inv (array_of R dim pts))) by (unfold check_dim; now rewrite L, Nat.eqb_refl).
    split.
    { destruct Hg as [<-|[<-|[<-|[]]]]; cbn [group_unit_nodes]; unfold warp_and_blend_group, restricting_2d, restricting_3d; cbn [Nat.eqb]; rewrite Hw; cbn [bind]; auto. }
    split; [reflexivity|]. split; [exact L|]. intros d Hd. eexists. split.
    - cbn [mean_node nd_rows]. rewrite nth_error_map. pose proof (get_row R d dim pts Hd) as G. unfold get in G.
      destruct (nth_error (nd_rows (array_of R dim pts)) d) as [row|]; [|discriminate]. injection G as ->. reflexivity.
    - unfold is_mean. now rewrite map_length.
  Qed.

  (** otherwise the groups without restriction have modepy's nodes of the dimension, up to two dimensions for the 2D restricting group *)
  Theorem C210_unrestricted g dim order b : order <> 0 -> wb dim order = Ok b -> List.length (nd_rows b) = dim -> g = GWarp R F \/ g = G2D R F /\ dim <= 2 -> unit_nodes g dim order = Ok b.
  Proof.
    intros Ho Hw L [->|(-> & Hd)]; cbn [group_unit_nodes]; unfold warp_and_blend_group, restricting_2d; rewrite (proj2 (Nat.eqb_neq _ _) Ho).
    - rewrite Hw. cbn [bind]. unfold check_dim. now rewrite L, Nat.eqb_refl.
    - destruct (Nat.leb_spec 3 dim); [lia|]. rewrite Hw. cbn [bind]. unfold check_dim. now rewrite L, Nat.eqb_refl.
  Qed.
  (** and the recursive and equidistant groups have the nodes of recursivenodes and modepy of their dimension and order, also for order 0 *)
  Theorem C210_library_nodes dim order b : List.length (nd_rows b) = dim ->
    (equidistant dim order = Ok b -> unit_nodes (GEquidistant R F) dim order = Ok b) /\
    (forall f, recursive dim order f = Ok b -> unit_nodes (GRecursive R F f) dim order = Ok b).
  Proof.
    intros L. split; [intros H|intros f H]; cbn [group_unit_nodes]; unfold equidistant_group, recursive_group; rewrite H; cbn [bind]; unfold check_dim; now rewrite L, Nat.eqb_refl.
  Qed.
  Theorem C211_high_order dim order : order <> 0 -> 3 <= dim -> unit_nodes (G2D R F) dim order = Err ValueError.
  Proof. intros Ho Hd. cbn [group_unit_nodes]. unfold restricting_2d. rewrite (proj2 (Nat.eqb_neq _ _) Ho). destruct (Nat.leb_spec 3 dim); [reflexivity|lia]. Qed.
End Props.

(** Points of order 1 and 2, in the order of modepy, with coordinates in steps of 2: vertices and midpoints (coordinates -1, 0, 1 in Z) *)
Definition ex_tuples (n k : nat) : list (list nat) := filter (fun t => list_sum t <=? k) (fold_right (fun _ acc => flat_map (fun t => map (fun i => i :: t) (seq 0 (S k))) acc) [[]] (seq 0 n)).
Definition ex_pts (n k : nat) : list (list Z) := map (map (fun i => Z.of_nat i * (if Nat.eqb k 1 then 2 else 1) - 1)%Z) (ex_tuples n k).
Definition ex_wb (dim order : nat) : res (nodes Zocring) := Ok (array_of Zocring dim (ex_pts dim order)).
Example C209_example : ex_wb 3 2 = Ok (array_of Zocring 3 (ex_pts 3 2)) /\ List.length (ex_pts 3 2) = 10 /\
  tuples_upto 3 2 (ex_tuples 3 2) /\ placed Zocring 1%Z (ex_tuples 3 2) (ex_pts 3 2) /\
  restricting_3d Zocring ex_wb (fun _ => 0%Z) 1%Z 2 2 = Ok (mk_nodes (R := Zocring) 6 [[-1; 0; 1; -1; 0; -1]; [-1; -1; -1; 0; 0; 1]]%Z) /\
  restricting_3d Zocring ex_wb (fun _ => 0%Z) 1%Z 1 2 = Ok (mk_nodes (R := Zocring) 3 [[-1; 0; 1]]%Z) /\
  restricting_3d Zocring ex_wb (fun _ => 0%Z) 1%Z 0 2 = Ok (mk_nodes (R := Zocring) 1 []).
Proof.
  repeat split; try reflexivity.
  - vm_compute. repeat constructor; cbn; intuition discriminate.
  - vm_compute in H. intuition (subst; reflexivity).
  - vm_compute in H. intuition (subst; cbn; lia).
  - intros (H1 & H2). destruct t as [|a [|b [|c [|]]]]; try discriminate. cbn in H2.
    assert (Ha : a <= 2) by lia. assert (Hb : b <= 2) by lia. assert (Hc : c <= 2) by lia.
    destruct a as [|[|[|]]]; try lia; destruct b as [|[|[|]]]; try lia; destruct c as [|[|[|]]]; try lia; vm_compute; tauto.
  - vm_compute. repeat constructor.
Qed.
Example C210_example : group_unit_nodes Zocring ex_wb ex_wb unit (fun d k _ => ex_wb d k) (fun d k => List.length (ex_tuples d k)) (fun _ => 0%Z) 1%Z (GGiven Zocring unit (array_of Zocring 2 (ex_pts 2 1))) 2 1
    = Ok (mk_nodes (R := Zocring) 3 [[-1; 1; -1]; [-1; -1; 1]]%Z) /\
  group_unit_nodes Zocring ex_wb ex_wb unit (fun d k _ => ex_wb d k) (fun d k => List.length (ex_tuples d k)) (fun _ => 0%Z) 1%Z (GGiven Zocring unit (array_of Zocring 2 (ex_pts 2 1))) 2 2 = Err ValueError /\
  group_unit_nodes Zocring ex_wb ex_wb unit (fun d k _ => ex_wb d k) (fun d k => List.length (ex_tuples d k)) (fun n => Z.of_nat n) 1%Z (G3D Zocring unit) 1 0 = Ok (mk_nodes (R := Zocring) 1 [[0]]%Z).
Proof. repeat split; reflexivity. Qed.

(** modepy's nodes have one row per dimension; those of the 3D restricting group in four dimensions have three *)
Theorem C210_dimension_refuted : exists (wb : nat -> nat -> res (nodes Zocring)) a, (forall d k b, wb d k = Ok b -> List.length (nd_rows b) = d) /\
  group_unit_nodes Zocring wb wb unit (fun d k _ => wb d k) (fun d k => List.length (ex_tuples d k)) (fun _ => 0%Z) 1%Z (G3D Zocring unit) 4 1 = Ok a /\ List.length (nd_rows a) = 3.
Proof.
  exists ex_wb. eexists. split; [|split; [vm_compute; reflexivity|reflexivity]].
  intros d k b H. unfold ex_wb in H. injection H as <-. cbn [array_of nd_rows]. now rewrite map_length, seq_length.
Qed.

(** ** C211: the 2D restricting group does not provide nodes in three dimensions: false for order 0 *)
Theorem C211_order_0_refuted : exists wb a, group_unit_nodes Zocring wb wb unit (fun d k _ => wb d k) (fun d k => List.length (ex_tuples d k)) (fun _ => 0%Z) 1%Z (G2D Zocring unit) 3 0 = Ok a.
Proof. exists ex_wb. eexists. vm_compute. reflexivity. Qed.

(** ** C212: version numbers.  The version is made of decimal numbers separated by dots, and a status that is empty or starts with a letter *)
Theorem C212_release ps ns status v : ps <> [] -> Forall2 numeral ps ns -> Forall letter_or_digit status -> (status = [] \/ exists c r, status = c :: r /\ letter c) ->
  parse_version (join_dots ps ++ status) v = Ok (ns, status).
Proof.
  intros Hne H2 Hs Hst. assert (Hd : Forall (Forall (fun c => digit c <> None)) ps).
  { clear -H2. induction H2 as [|p n ps ns H _ IH]; constructor; auto. apply H. }
  unfold parse_version. rewrite version_match_of; auto.
  - rewrite split_join by assumption. replace (mapM int_of ps) with (Ok (A:=list nat) ns); [reflexivity|]. symmetry. apply mapM_ok.
    clear -H2. induction H2 as [|p n ps ns H _ IH]; constructor; auto. now apply int_of_numeral.
  - destruct ps as [|p ps]; [congruence|]. inversion H2 as [|? n ? ? H]; subst. destruct H as (Hp & _). destruct p as [|c p]; [congruence|]. destruct ps; cbn [join_dots app]; discriminate.
  - now apply join_chars.
Qed.
(** a status after a dot, such as .dev0 or .post1, raises ValueError *)
Theorem C212_dotted_status ps ns status c v : ps <> [] -> Forall2 numeral ps ns -> Forall letter_or_digit status -> letter c ->
  parse_version (join_dots ps ++ "."%char :: c :: status) v = Err ValueError.
Proof.
  intros Hne H2 Hs Hc. assert (Hd : Forall (Forall (fun c => digit c <> None)) ps).
  { clear -H2. induction H2 as [|p n ps ns H _ IH]; constructor; auto. apply H. }
  unfold parse_version. change ("."%char :: c :: status) with (["."%char] ++ c :: status). rewrite app_assoc, version_match_of.
  - assert (E : split_dots (join_dots ps ++ ["."%char]) = ps ++ [[]]).
    { clear -Hne Hd. induction Hd as [|p ps Hp Hps IH]; [congruence|]. destruct ps as [|q ps]; [cbn [join_dots app]; now rewrite split_cons|].
      change (join_dots (p :: q :: ps)) with (p ++ "."%char :: join_dots (q :: ps)). rewrite <- app_assoc. cbn [app]. rewrite (split_cons _ _ Hp). cbn [app] in IH. rewrite IH; [reflexivity|discriminate]. }
    rewrite E. clear -H2. induction H2 as [|p n ps ns H _ IH]; [reflexivity|]. cbn [app mapM]. rewrite (int_of_numeral _ _ H). cbn [bind].
    destruct (mapM int_of (ps ++ [[]])); cbn [bind] in *; congruence.
  - destruct (join_dots ps); discriminate.
  - rewrite forallb_app, join_chars by assumption. reflexivity.
  - constructor; [now left|exact Hs].
  - right. eauto.
Qed.
(** any other character, such as the + of a local version, raises AssertionError *)
Theorem C212_other_characters text v : Exists (fun c => ~ letter_or_digit c /\ c <> "."%char) text -> parse_version text v = Err AssertionError.
Proof.
  intros H. unfold parse_version. destruct (version_match text) as [(g, r)|] eqn:E; [|reflexivity]. exfalso. unfold version_match in E.
  pose proof (match_groups_In _ _ _ _ E) as (Ht & Hr & Hg). assert (Hp : forallb (fun c => is_digit c || is_dot c) g = true).
  { apply run_prefix in Hg. rewrite Ht in Hg at 1. rewrite firstn_app, firstn_all, Nat.sub_diag, firstn_O, app_nil_r in Hg. exact Hg. }
  apply Exists_exists in H as (c & Hin & Hc & Hdot). rewrite Ht in Hin. apply in_app_iff in Hin as [Hin|Hin].
  - rewrite forallb_forall in Hp. specialize (Hp c Hin). apply orb_true_iff in Hp as [Hp|Hp].
    + apply Hc. right. now apply digit_is.
    + apply Hdot. apply Nat.eqb_eq in Hp. rewrite <- (ascii_nat_embedding c). unfold code in Hp. now rewrite Hp.
  - rewrite forallb_forall in Hr. specialize (Hr c Hin). apply orb_true_iff in Hr as [Hr|Hr]; apply Hc; [left; now apply is_letter|right; now apply digit_is].
Qed.
Definition chars (s : string) : list ascii := list_ascii_of_string s.
Example C212_example : parse_version (chars "2024.0") [] = Ok ([2024; 0], []) /\ parse_version (chars "2021.1rc2") [] = Ok ([2021; 1], chars "rc2") /\
  parse_version (chars "2024.0+g12") [] = Err AssertionError /\ Forall2 numeral [chars "2024"; chars "0"] [2024; 0] /\ join_dots [chars "2024"; chars "0"] = chars "2024.0".
Proof.
  split; [vm_compute; reflexivity|]. split; [vm_compute; reflexivity|]. split; [vm_compute; reflexivity|]. split; [|reflexivity].
  repeat constructor; try discriminate; vm_compute; reflexivity.
Qed.
(** the versions of development releases cannot be parsed, and the argument of the function is not used *)
Theorem C212_versions_refuted : exists text, text = chars "2024.0.dev0" /\ parse_version text text = Err ValueError.
Proof. eexists. split; [reflexivity|]. vm_compute. reflexivity. Qed.
Theorem C212_argument_refuted : exists text version, parse_version text version <> parse_version version version /\ exists r, parse_version version version = Ok r.
Proof. exists (chars "2024.0"), (chars "2021.1"). split; [|eexists; vm_compute; reflexivity]. vm_compute. discriminate. Qed.

(** ** C213: from_meshpy makes the mesh that from_vertices_and_simplices makes of the points and elements, without a change of orientation; markers have no effect *)
Section Meshpy.
  Variable R : ocring.
  Context {A : Type}.
  Variables (half : R) (default_nodes : nat -> nat -> list (list R)) (fvi : nat -> list (list nat)).
  Theorem C213_same flip d nvert info order :
    from_meshpy R (A := A) half default_nodes fvi d nvert info order =
    from_vertices_and_simplices R half default_nodes fvi flip d (mi_points R info) (mi_elements R info) nvert order false.
  Proof. reflexivity. Qed.
  Theorem C213_markers d nvert pts els m m' a a' order :
    from_meshpy R (A := A) half default_nodes fvi d nvert (mk_mesh_info R pts els m a) order = from_meshpy R half default_nodes fvi d nvert (mk_mesh_info R pts els m' a') order.
  Proof. reflexivity. Qed.
  Theorem C213_mesh d nvert info order m : from_meshpy R (A := A) half default_nodes fvi d nvert info order = Ok m ->
    m_vertices m = Some (mi_points R info) /\ m_conforming m = Some true /\ exists g, m_groups m = [g] /\ eg_vi g = Some (mi_elements R info).
  Proof.
    unfold from_meshpy. intros H. apply bind_ok in H as (g & Hg & H). apply bind_ok in H as (ns & Hns & H).
    assert (Hvi : eg_vi g = Some (mi_elements R info)).
    { clear -Hg. unfold make_group_from_vertices in Hg. repeat (apply bind_ok in Hg as (? & ? & Hg)). injection Hg as <-. reflexivity. }
    revert H. unfold make_mesh. intros H. repeat (apply bind_ok in H as (? & ? & H)). injection H as <-. cbn [m_vertices m_conforming m_groups]. repeat split. eexists. split; [reflexivity|]. exact Hvi.
  Qed.
End Meshpy.
Example C213_example :
  match from_meshpy Qcocring (A := unit) (frac 1 2) (fun _ _ => tri_nodes Qcocring) (fun _ => []) 2 3 (mk_mesh_info Qcocring tri_vertices [[0; 2; 1]; [3; 2; 1]] [5%Z] []) 1 with
  | Ok m => map eg_vi (m_groups m) = [Some [[0; 2; 1]; [3; 2; 1]]]
  | Err _ => False
  end.
Proof. vm_compute. reflexivity. Qed.

Print Assumptions C209_face_nodes. Print Assumptions C209_nested. Print Assumptions C209_unisolvent_count.
Print Assumptions C210_dimension. Print Assumptions C210_given. Print Assumptions C210_given_error. Print Assumptions C210_order_0. Print Assumptions C210_unrestricted. Print Assumptions C210_library_nodes. Print Assumptions C210_dimension_refuted.
Print Assumptions C211_order_0_refuted. Print Assumptions C211_high_order.
Print Assumptions C212_release. Print Assumptions C212_dotted_status. Print Assumptions C212_other_characters. Print Assumptions C212_versions_refuted. Print Assumptions C212_argument_refuted.
Print Assumptions C213_same. Print Assumptions C213_markers. Print Assumptions C213_mesh.
