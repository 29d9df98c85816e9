(** * VisProps: theorems about visualization files. *)
From Coq Require Import ZArith List Arith Bool Lia Ring.
From Coq Require QArith Qcanon.
From Verif Require Import Np NpFacts MeshModel Lin QcOrd RestrProofs VisModel VisSpec VisProofs QcMean.
Import ListNotations.

(** A group with its connectivity and cell type *)
Local Notation gconn := (visgrp * (list (list nat) * nat))%type.

Lemma all_cells_ok {A} (l : list gconn) (d : dofs A) : Forall in_range l -> shaped (map fst l) d -> exists cs, all_cells (map (fun gc => fst (snd gc)) l) d = Ok cs.
Proof.
  intros Hr Hd. unfold all_cells. destruct (mapM_total (fun ed : list (list nat) * list (list A) => group_cells (fst ed) (snd ed)) (combine (map (fun gc : gconn => fst (snd gc)) l) d)) as (r & Hrr); [|rewrite Hrr; cbn; eauto].
  revert d Hd. induction l as [|(g, (el, ty)) l IH]; intros d Hd ed Hin; [destruct Hin|]. unfold shaped in Hd. cbn [map fst] in Hd. inversion Hd as [|g' dg gs d' (H1 & H2) Hd' E1 E2]; subst. destruct Hin as [<-|Hin]; [|exact (IH (Forall_inv_tail Hr) d' Hd' ed Hin)].
  cbn [fst snd]. unfold group_cells. destruct (mapM_total (fun x => mapM (take x) el) dg) as (q & Hq); [|rewrite Hq; cbn; eauto]. intros x Hx. apply mapM_total. intros els Hels. apply take_total.
  pose proof (proj1 (Forall_forall _ _) (Forall_inv Hr) els Hels) as Ho. cbn [fst] in Ho. rewrite (proj1 (Forall_forall _ _) H2 x Hx). exact Ho.
Qed.

Section VTK.
  Variable node_tuples_for : shape -> nat -> list tuple.
  Variable submesh_for_simplex : nat -> list tuple -> list (list nat).
  Variables simplex_type tensor_type : nat -> option nat.
  Variable cell_node_count : nat -> nat.
  Local Notation conn_for := (connectivity_for node_tuples_for submesh_for_simplex simplex_type tensor_type).

  (** What a group needs to satisfy: it has at least one subelement, all subelements have as many corners as cells of their type and refer to nodes of the
      element *)
  Definition drawable (gc : gconn) : Prop :=
    let '(g, (el, ty)) := gc in
    conn_for g = Ok (el, ty) /\ el <> [] /\ 0 < vg_nunit g /\ ty < 255 /\
    forall els, In els el -> length els = cell_node_count ty /\ forall i, In i els -> i < vg_nunit g.

  Lemma drawable_parts l : Forall drawable l ->
    Forall (good conn_for) l /\ Forall in_range l /\ Forall (fun gc : gconn => snd (snd gc) < 255) l /\ Forall (fun gc : gconn => Forall (fun els => length els = cell_node_count (snd (snd gc))) (fst (snd gc))) l.
  Proof.
    intros H. repeat split; (apply Forall_forall; intros (g, (el, ty)) Hin; pose proof (proj1 (Forall_forall _ _) H _ Hin) as (H1 & H2 & H3 & H4 & H5)).
    - split; [exact H1|split; [exact H2|exact H3]].
    - unfold in_range. cbn [fst snd]. apply Forall_forall. intros els Hels. apply Forall_forall. intros i Hi. exact (proj2 (H5 els Hels) i Hi).
    - exact H4.
    - cbn [fst snd]. apply Forall_forall. intros els Hels. exact (proj1 (H5 els Hels)).
  Qed.

  (** ** C48: the k-th cell of a file, with any field on the nodes, has the values of the field on the k-th subelement, where the subelements go through the
      groups, the elements of a group and the subelements of an element; its type is the one of the group. *)
  Theorem C48_vtk_cells (l : list gconn) : l <> [] -> Forall drawable l ->
    exists vcs cells types, vis_groups conn_for (map fst l) = Ok vcs /\ vis_cells vcs = Ok cells /\ cell_types vcs = Ok types /\
      types = concat (map (fun gc : gconn => let '(g, (el, ty)) := gc in repeat ty (vg_nel g * length el)) l) /\
      forall A (d : dofs A), shaped (map fst l) d -> exists cs, all_cells (map (fun gc => fst (snd gc)) l) d = Ok cs /\
        read_cells (flat d) cells (cumsum (0 :: map cell_node_count types)) = Ok cs.
  Proof.
    intros Hne Hl. destruct (drawable_parts l Hl) as (Hg & Hr & Ht & Hc). exists (vcl 0 0 l), (concat (cells_of (vcl 0 0 l))), (types_of l). split; [now apply vis_groups_ok|]. split.
    { unfold vis_cells. rewrite flat_conn_cells. destruct l as [|(g, (el, ty)) l]; [congruence|reflexivity]. }
    split; [now apply cell_types_ok|]. split; [unfold types_of; f_equal; apply map_ext; intros (g, (el, ty)); reflexivity|].
    intros A d Hd. destruct (all_cells_ok l d Hr Hd) as (cs & Hcs). exists cs. split; [exact Hcs|]. rewrite <- (shaped_sizes_lengths 0 0 l cell_node_count Hc). rewrite read_concat.
    pose proof (all_values l 0 [] d Hd Hr) as Hv. cbn [app length] in Hv. rewrite Hv. exact Hcs.
  Qed.

  (** without groups there are no cells to write *)
  Theorem C48_no_groups (l : list gconn) vcs : vis_groups conn_for (map fst l) = Ok vcs -> (vis_cells vcs = Err ValueError <-> l = []).
  Proof.
    destruct l as [|(g, (el, ty)) l]; intros H.
    - injection H as <-. split; reflexivity.
    - split; [|discriminate]. intros Hc. exfalso. revert H Hc. unfold vis_groups, vis_cells. intros H Hc. apply bind_ok in H as (((r, sb), nb) & Hr & H). injection H as <-.
      cbn [fst] in Hc. destruct r as [|v r]; [|discriminate]. clear Hc. revert Hr. cbn [map foldM fst]. intros Hr. apply bind_ok in Hr as (((r1, sb1), nb1) & H1 & Hr).
      assert (H0 : r1 <> []). { apply bind_ok in H1 as ((el', ty') & _ & H1). apply bind_ok in H1 as (? & _ & H1). injection H1 as <- _ _. discriminate. }
      clear H1. revert r1 sb1 nb1 H0 Hr. clear. induction (map fst l) as [|g0 gs IH]; intros r1 sb1 nb1 H0 Hr; cbn [foldM] in Hr; [injection Hr as -> _ _; contradiction|].
      apply bind_ok in Hr as (((r2, sb2), nb2) & H2 & Hr). apply (IH r2 sb2 nb2); [|exact Hr].
      apply bind_ok in H2 as ((el', ty') & _ & H2). apply bind_ok in H2 as (? & _ & H2). injection H2 as <- _ _. destruct r1; discriminate.
  Qed.

  (** simplices of a dimension without VTK cell, e.g. points *)
  Theorem C48_no_cell_type g gs d : vg_modepy g = true -> vg_shape g = Simplex d -> simplex_type d = None -> vis_groups conn_for (g :: gs) = Err KeyError.
  Proof. intros H1 H2 H3. unfold vis_groups. cbn [foldM]. unfold connectivity_for at 1. rewrite H1, H2. cbn [bind]. unfold lookup_type. rewrite H3. reflexivity. Qed.

  (** ** C93 (what holds): the cells of a VTK HDF file are as in C48, if there are cells and not exactly three connectivity entries *)
  Theorem C93_vtkhdf_cells (l : list gconn) : l <> [] -> Forall drawable l ->
    exists vcs cells types, vis_groups conn_for (map fst l) = Ok vcs /\ vis_cells vcs = Ok cells /\ cell_types vcs = Ok types /\
      if length cells =? 3 then hdf_linear_cells cell_node_count vcs types = Err IndexError
      else if length types =? 0 then hdf_linear_cells cell_node_count vcs types = Err ValueError
      else exists offs, hdf_linear_cells cell_node_count vcs types = Ok (length types, cells, offs) /\ length offs = S (length types) /\
        forall A (d : dofs A), shaped (map fst l) d -> exists cs, all_cells (map (fun gc => fst (snd gc)) l) d = Ok cs /\ read_cells (flat d) cells offs = Ok cs.
  Proof.
    intros Hne Hl. destruct (C48_vtk_cells l Hne Hl) as (vcs & cells & types & H1 & H2 & H3 & H4 & H5). exists vcs, cells, types. split; [exact H1|]. split; [exact H2|]. split; [exact H3|].
    unfold hdf_linear_cells. rewrite H2. cbn [bind]. destruct (length cells =? 3); [reflexivity|]. destruct (length types =? 0); [reflexivity|]. eexists. split; [reflexivity|]. split; [|exact H5]. unfold cumsum. cbn [cumsum_from length]. now rewrite cumsum_from_length, map_length.
  Qed.

  (** ** C95: the connectivity of each group in an XDMF file refers to the nodes of the group *)
  Theorem C95_xdmf_connectivity (l : list gconn) : Forall drawable l ->
    exists vcs conns, vis_groups conn_for (map fst l) = Ok vcs /\ xdmf_connectivity (map fst l) vcs = Ok conns /\
      forall A (d : dofs A), shaped (map fst l) d ->
      Forall2 (fun (gc : gconn) cd => exists cs, group_cells (fst (snd gc)) (snd cd) = Ok cs /\ mapM (take (concat (snd cd))) (fst cd) = Ok cs) l (combine conns d).
  Proof.
    intros Hl. destruct (drawable_parts l Hl) as (Hg & Hr & _). destruct (xdmf_ok l) as (r & Hx & HF). exists (vcl 0 0 l), r. split; [now apply vis_groups_ok|]. split; [exact Hx|].
    intros A d Hd. clear Hx Hl Hg. revert d Hd. induction HF as [|(g, (el, ty)) c l r Hc _ IH]; intros d Hd; unfold shaped in Hd; cbn [map fst] in Hd; inversion Hd as [|g' dg gs d' (H1 & H2) Hd' E1 E2]; subst; [constructor|].
    cbn [combine]. constructor; [|apply IH; [exact (Forall_inv_tail Hr)|exact Hd']]. cbn [fst snd]. pose proof (group_values [] [] g el dg H1 H2 (Forall_inv Hr)) as Hv. rewrite app_nil_r in Hv. cbn [app length] in Hv. rewrite Hv.
    unfold group_cells. destruct (mapM_total (fun x => mapM (take x) el) dg) as (q & Hq); [|rewrite Hq; cbn; eauto]. intros x Hx. apply mapM_total. intros els Hels. apply take_total.
    pose proof (proj1 (Forall_forall _ _) (Forall_inv Hr) els Hels) as Ho. cbn [fst] in Ho. rewrite (proj1 (Forall_forall _ _) H2 x Hx). exact Ho.
  Qed.

  (** ** C90: hypercubes with k cells in each direction are cut into lines, quadrilaterals and hexahedra, each cell of the grid once, with the corners in the order
      of VTK; the group can be drawn if k > 0. *)
  Theorem C90_hypercube_submesh (d k : nat) (nts : list (list nat)) : 1 <= d <= 3 -> grid_tuples d k nts ->
    exists els origins, vtk_submesh_for_hypercube d nts = Ok els /\ NoDup origins /\ (forall o, In o origins <-> length o = d /\ Forall (fun x => x < k) o) /\ Forall2 (vtk_cell nts d) origins els.
  Proof. apply hypercube_submesh. Qed.

  Theorem C90_hypercube_drawable (g : visgrp) (d k ty : nat) : 1 <= d <= 3 -> vg_modepy g = true -> vg_shape g = Hypercube d -> vg_order g = k -> 0 < k ->
    grid_tuples d k (node_tuples_for (Hypercube d) k) -> vg_nunit g = length (node_tuples_for (Hypercube d) k) -> tensor_type d = Some ty -> ty < 255 -> cell_node_count ty = 2 ^ d ->
    exists el, drawable (g, (el, ty)).
  Proof.
    intros Hd Hm Hs Ho Hk Hg Hn Hty Ht Hc. destruct (hypercube_submesh d k _ Hd Hg) as (els & origins & H1 & H2 & H3 & H4). exists els. unfold drawable.
    assert (Hne : In (repeat 0 d) origins) by (apply H3; split; [apply repeat_length|apply Forall_forall; intros x Hx; apply repeat_spec in Hx; lia]).
    split; [unfold connectivity_for; rewrite Hm, Hs, Ho, H1; cbn [bind]; unfold lookup_type; rewrite Hty; cbn [bind]; rewrite <- Hn, Nat.eqb_refl; reflexivity|].
    split; [intros ->; inversion H4; subst; destruct Hne|].
    split.
    { rewrite Hn. assert (Hin : In (repeat 0 d) (node_tuples_for (Hypercube d) k)) by (apply (proj2 Hg); split; [apply repeat_length|apply Forall_forall; intros x Hx; apply repeat_spec in Hx; lia]). destruct (node_tuples_for (Hypercube d) k); [destruct Hin|cbn; lia]. }
    split; [exact Ht|]. intros e He. apply In_nth_error in He. destruct He as (s & Hse). destruct (Forall2_nth_error_r _ _ _ _ _ H4 Hse) as (o & _ & Hcell). unfold vtk_cell in Hcell. split.
    - rewrite (Forall2_length' _ _ _ Hcell), Hc. clear -Hd. destruct d as [|[|[|[|d]]]]; [lia|reflexivity|reflexivity|reflexivity|lia].
    - intros i Hi. apply In_nth_error in Hi. destruct Hi as (j & Hj). destruct (Forall2_nth_error _ _ _ _ _ Hcell Hj) as (c & _ & t & Ht' & _). rewrite Hn. apply nth_error_Some. change tuple with (list nat). rewrite Ht'. discriminate.
  Qed.

  (** ** C92: with high order elements, there is one cell per element, with the values of the element permuted *)
  Variables simplex_perm tensor_perm : nat -> nat -> list nat.
  Variables lagrange_simplex_type lagrange_tensor_type : nat -> option nat.
  Local Notation lconn_for := (lagrange_connectivity_for simplex_perm tensor_perm lagrange_simplex_type lagrange_tensor_type).
  Definition lagrange_drawable (gc : gconn) : Prop :=
    let '(g, (el, ty)) := gc in
    lconn_for g = Ok (el, ty) /\ 0 < vg_nunit g /\ ty < 255 /\ forall els i, In els el -> In i els -> i < vg_nunit g.

  Theorem C92_lagrange_cells (l : list gconn) : l <> [] -> Forall lagrange_drawable l ->
    exists vcs cells offs types, vis_groups lconn_for (map fst l) = Ok vcs /\ hdf_lagrange_cells (map fst l) vcs = Ok (sum (map vg_nel (map fst l)), cells, offs) /\ cell_types vcs = Ok types /\
      types = concat (map (fun gc : gconn => let '(g, (_, ty)) := gc in repeat ty (vg_nel g)) l) /\ length offs = S (length types) /\
      Forall (fun gc : gconn => exists p, fst (snd gc) = [p] /\ length p = vg_nunit (fst gc)) l /\
      forall A (d : dofs A), shaped (map fst l) d -> exists cs, all_cells (map (fun gc => fst (snd gc)) l) d = Ok cs /\ read_cells (flat d) cells offs = Ok cs.
  Proof.
    intros Hne Hl.
    assert (Hp : Forall (fun gc : gconn => exists p, fst (snd gc) = [p] /\ length p = vg_nunit (fst gc)) l).
    { apply Forall_forall. intros (g, (el, ty)) Hin. destruct (proj1 (Forall_forall _ _) Hl _ Hin) as (H1 & H2 & H3 & H4). cbn [fst snd]. unfold lagrange_connectivity_for in H1. destruct (vg_shape g) as [dd|dd|]; [| |discriminate H1].
      - apply bind_ok in H1. destruct H1 as (t & _ & H1). destruct (length (simplex_perm dd (vg_order g)) =? vg_nunit g) eqn:E; [|discriminate H1]. cbn [guard bind] in H1. injection H1 as <- <-. apply Nat.eqb_eq in E. eauto.
      - apply bind_ok in H1. destruct H1 as (t & _ & H1). destruct (length (tensor_perm dd (vg_order g)) =? vg_nunit g) eqn:E; [|discriminate H1]. cbn [guard bind] in H1. injection H1 as <- <-. apply Nat.eqb_eq in E. eauto. }
    assert (Hg : Forall (good lconn_for) l).
    { apply Forall_forall. intros (g, (el, ty)) Hin. destruct (proj1 (Forall_forall _ _) Hl _ Hin) as (H1 & H2 & H3 & H4). destruct (proj1 (Forall_forall _ _) Hp _ Hin) as (p & Hpe & _). split; [exact H1|]. split; [cbn [fst snd] in *; rewrite Hpe; discriminate|exact H2]. }
    assert (Hr : Forall in_range l).
    { apply Forall_forall. intros (g, (el, ty)) Hin. destruct (proj1 (Forall_forall _ _) Hl _ Hin) as (H1 & H2 & H3 & H4). unfold in_range. cbn [fst snd]. apply Forall_forall. intros els Hels. apply Forall_forall. intros i Hi. exact (H4 els i Hels Hi). }
    assert (Ht : Forall (fun gc : gconn => snd (snd gc) < 255) l).
    { apply Forall_forall. intros (g, (el, ty)) Hin. exact (proj1 (proj2 (proj2 (proj1 (Forall_forall _ _) Hl _ Hin)))). }
    destruct (lagrange_offsets (map fst l) 0) as (offs & Ho1 & Ho2).
    { apply Forall_forall. intros g Hin. apply in_map_iff in Hin. destruct Hin as (gc & <- & Hin). exact (proj2 (proj2 (proj1 (Forall_forall _ _) Hg _ Hin))). }
    exists (vcl 0 0 l), (concat (cells_of (vcl 0 0 l))), (cumsum (0 :: map (@length nat) (cells_of (vcl 0 0 l)))), (types_of l).
    split; [now apply vis_groups_ok|]. split.
    { unfold hdf_lagrange_cells, lagrange_cells. assert (H0 : length (vcl 0 0 l) =? 0 = false) by (destruct l as [|(g, (el, ty)) l]; [congruence|reflexivity]). rewrite H0. cbn [negb guard bind]. unfold cumsum at 1. cbn [cumsum_from Nat.add]. rewrite Ho1. cbn [bind]. rewrite flat_conn_cells, Ho2. rewrite (lagrange_lengths 0 0 l Hp). reflexivity. }
    split; [now apply cell_types_ok|]. split.
    { unfold types_of. f_equal. apply map_ext_in. intros (g, (el, ty)) Hin. destruct (proj1 (Forall_forall _ _) Hp _ Hin) as (p & Hpe & _). cbn [fst snd] in *. rewrite Hpe. cbn [length]. now rewrite Nat.mul_1_r. }
    split. { unfold cumsum. cbn [cumsum_from length]. rewrite cumsum_from_length, map_length. f_equal. rewrite (lagrange_count 0 0 l Hp). clear -Hp. unfold types_of. induction Hp as [|(g, (el, ty)) l (p & Hpe & _) _ IH]; [reflexivity|]. cbn [map concat sum fold_right fst snd] in *. rewrite app_length, repeat_length, Hpe. cbn [length]. rewrite Nat.mul_1_r. f_equal. exact IH. }
    split; [exact Hp|].
    intros A d Hd. destruct (all_cells_ok l d Hr Hd) as (cs & Hcs). exists cs. split; [exact Hcs|]. rewrite read_concat. pose proof (all_values l 0 [] d Hd Hr) as Hv. cbn [app length] in Hv. rewrite Hv. exact Hcs.
  Qed.
End VTK.

(** ** C91: points with shrunken elements *)
Section Shrink.
  Variable R : cring.
  Add Ring Rring : (rth R).
  Variable mean : list R -> R.
  Local Open Scope cring_scope.
  (** The mean of the points of an element moves along with them. *)
  Hypothesis Hmean : forall s c x, x <> [] -> mean (map (fun y => s * y + (1 - s) * c) x) = s * mean x + (1 - s) * c.
  Definition shrunk (s : R) (d : dofs R) : dofs R := map (map (fun x => map (fun y => s * y + (1 - s) * mean x) x)) d.

  (** After files have been written with the factors [fs] (each with the result of the test whether it is one), the next file has elements shrunk by the product of all
      factors; in particular the first file of a visualizer is shrunk as asked for. *)
  Theorem C91_points_after (gs : list visgrp) (ds : list (dofs R)) (fs : list (R * bool)) (s : R) (b : bool) :
    Forall (fun g => (0 < vg_nunit g)%nat) gs -> Forall (shaped gs) ds -> Forall (fun f : R * bool => snd f = true -> fst f = 1) ((s, b) :: fs) ->
    let st := fold_left (fun st f => snd (write_vtk_points R mean (map flat ds) (fst f) (snd f) gs st)) fs None in
    fst (write_vtk_points R mean (map flat ds) s b gs st) = map (fun d => flat (shrunk (s * fold_left (fun p f => fst f * p) fs 1) d)) ds.
  Proof.
    intros Hg Hds Hf.
    assert (Hone : forall d, shrunk 1 d = d).
    { intros d. unfold shrunk. rewrite <- (map_id d) at 2. apply map_ext. intros dg. rewrite <- (map_id dg) at 2. apply map_ext. intros x. transitivity (map (fun y => y) x); [apply map_ext; intros y; ring|apply map_id]. }
    assert (Hsh : forall p d, shaped gs d -> shaped gs (shrunk p d)) by (intros p d; exact (shrink_shaped R mean p gs d)).
    assert (Hw : forall t b' p st, (b' = true -> t = 1) -> match st with Some xs => xs | None => map flat ds end = map (fun d => flat (shrunk p d)) ds ->
       fst (write_vtk_points R mean (map flat ds) t b' gs st) = map (fun d => flat (shrunk (t * p) d)) ds).
    { intros t b' p st Hb Hst. unfold write_vtk_points. cbn [fst]. rewrite Hst. destruct b'.
      - rewrite (Hb eq_refl). apply map_ext. intros d. f_equal. f_equal. ring.
      - rewrite map_map. apply map_ext_in. intros d Hd. rewrite shrink_flat by (apply Hsh; exact (proj1 (Forall_forall _ _) Hds d Hd)). f_equal. exact (shrink_dofs_twice R mean Hmean p t gs d Hg (proj1 (Forall_forall _ _) Hds d Hd)). }
    cbn zeta. assert (H : forall fs st p, Forall (fun f : R * bool => snd f = true -> fst f = 1) fs -> match st with Some xs => xs | None => map flat ds end = map (fun d => flat (shrunk p d)) ds ->
       match fold_left (fun st f => snd (write_vtk_points R mean (map flat ds) (fst f) (snd f) gs st)) fs st with Some xs => xs | None => map flat ds end = map (fun d => flat (shrunk (fold_left (fun p f => fst f * p) fs p) d)) ds).
    { clear fs Hf s b. induction fs as [|(t, b') fs IH]; intros st p Hf Hst; [exact Hst|]. cbn [fold_left fst snd]. apply IH; [exact (Forall_inv_tail Hf)|]. pose proof (Hw t b' p st (Forall_inv Hf) Hst) as Hww. unfold write_vtk_points in *. exact Hww. }
    apply Hw; [exact (Forall_inv Hf)|]. apply H; [exact (Forall_inv_tail Hf)|]. apply map_ext. intros d. now rewrite Hone.
  Qed.
End Shrink.

(** ** Examples and refutations *)
Definition ex_tuples (s : shape) (k : nat) : list tuple :=
  match s, k with
  | Hypercube 1, 0 => [[0]]
  | Hypercube 1, 1 => [[0]; [1]]
  | Hypercube 2, 1 => [[0; 0]; [1; 0]; [0; 1]; [1; 1]]
  | Hypercube 2, 2 => [[0; 0]; [1; 0]; [2; 0]; [0; 1]; [1; 1]; [2; 1]; [0; 2]; [1; 2]; [2; 2]]
  | Simplex 2, 1 => [[0; 0]; [1; 0]; [0; 1]]
  | _, _ => []
  end.
Definition ex_submesh (d : nat) (nts : list tuple) : list (list nat) := if length nts =? 3 then [[0; 1; 2]] else [].
Definition ex_simplex_type (d : nat) : option nat := match d with 1 => Some 3 | 2 => Some 5 | 3 => Some 10 | _ => None end.
Definition ex_tensor_type (d : nat) : option nat := match d with 1 => Some 3 | 2 => Some 9 | 3 => Some 12 | _ => None end.
Definition ex_count (t : nat) : nat := match t with 3 => 2 | 5 => 3 | 10 => 4 | 9 => 4 | 12 => 8 | _ => 0 end.

(** two triangles and one quadrilateral of order two *)
Definition ex_gconns : list gconn :=
  [(mk_visgrp true (Simplex 2) 1 2 3, ([[0; 1; 2]], 5)); (mk_visgrp true (Hypercube 2) 2 1 9, ([[0; 1; 4; 3]; [1; 2; 5; 4]; [3; 4; 7; 6]; [4; 5; 8; 7]], 9))].
Example C48_example : ex_gconns <> [] /\ Forall (drawable ex_tuples ex_submesh ex_simplex_type ex_tensor_type ex_count) ex_gconns /\
  vis_groups (connectivity_for ex_tuples ex_submesh ex_simplex_type ex_tensor_type) (map fst ex_gconns) =
    Ok [mk_vcgrp [[[0; 1; 2]]; [[3; 4; 5]]] 5 0 1; mk_vcgrp [[[6; 7; 10; 9]; [7; 8; 11; 10]; [9; 10; 13; 12]; [10; 11; 14; 13]]] 9 2 4].
Proof.
  split; [discriminate|]. split; [|vm_compute; reflexivity].
  apply Forall_cons; [|apply Forall_cons; [|apply Forall_nil]]; (split; [vm_compute; reflexivity|split; [discriminate|split; [cbn; lia|split; [lia|]]]]); intros els H; cbn in H;
  repeat (destruct H as [<-|H]; [split; [reflexivity|cbn; intros i Hi; lia]|]); destruct H.
Qed.
Example C90_example : grid_tuples 2 2 (ex_tuples (Hypercube 2) 2) /\ vtk_submesh_for_hypercube 2 (ex_tuples (Hypercube 2) 2) = Ok [[0; 1; 4; 3]; [1; 2; 5; 4]; [3; 4; 7; 6]; [4; 5; 8; 7]].
Proof.
  split; [|vm_compute; reflexivity]. split.
  - repeat constructor; cbn; intuition discriminate.
  - intros t. split.
    + cbn. intros H. repeat (destruct H as [<-|H]; [split; [reflexivity|repeat constructor]|]). destruct H.
    + intros (Hl & Hf). destruct t as [|x [|y [|z t]]]; try discriminate Hl. pose proof (Forall_inv Hf) as Hx. pose proof (Forall_inv (Forall_inv_tail Hf)) as Hy. cbn beta in Hx, Hy.
      destruct x as [|[|[|x]]]; [| | |lia]; (destruct y as [|[|[|y]]]; [| | |lia]); cbn; tauto.
Qed.
Definition ex_perm (d k : nat) : list nat := match d, k with 2, 1 => [0; 1; 2] | _, _ => [] end.
Definition ex_qperm (d k : nat) : list nat := match d, k with 2, 1 => [0; 1; 3; 2] | _, _ => [] end.
Definition ex_lagrange : list gconn := [(mk_visgrp true (Simplex 2) 1 2 3, ([[0; 1; 2]], 69)); (mk_visgrp true (Hypercube 2) 1 2 4, ([[0; 1; 3; 2]], 70))].
Example C92_example : Forall (lagrange_drawable ex_perm ex_qperm (fun _ => Some 69) (fun _ => Some 70)) ex_lagrange /\
  (vcs <- vis_groups (lagrange_connectivity_for ex_perm ex_qperm (fun _ => Some 69) (fun _ => Some 70)) (map fst ex_lagrange) ;; hdf_lagrange_cells (map fst ex_lagrange) vcs) =
    Ok (4, [0; 1; 2; 3; 4; 5; 6; 7; 9; 8; 10; 11; 13; 12], [0; 3; 6; 10; 14]).
Proof.
  split; [|vm_compute; reflexivity]. apply Forall_cons; [|apply Forall_cons; [|apply Forall_nil]]; (split; [vm_compute; reflexivity|split; [cbn; lia|split; [lia|]]]); intros els i [<-|[]] Hi; cbn in Hi |- *; lia.
Qed.

(** C93: a VTK HDF file cannot be written for a single linear triangle. *)
Theorem C93_vtkhdf_refuted : exists (gc : gconn), drawable ex_tuples ex_submesh ex_simplex_type ex_tensor_type ex_count gc /\
  (vcs <- vis_groups (connectivity_for ex_tuples ex_submesh ex_simplex_type ex_tensor_type) [fst gc] ;; types <- cell_types vcs ;; hdf_linear_cells ex_count vcs types) = Err IndexError.
Proof.
  exists (mk_visgrp true (Simplex 2) 1 1 3, ([[0; 1; 2]], 5)). split; [|vm_compute; reflexivity]. split; [reflexivity|]. split; [discriminate|]. split; [cbn; lia|]. split; [lia|]. intros els [<-|[]]. split; [reflexivity|]. cbn. intros; lia.
Qed.

(** C94: for nodes of order zero, the file has a cell of a line for each element, but no points of cells. *)
Theorem C94_order_zero_refuted : exists g vcs cells types, grid_tuples 1 (vg_order g) (ex_tuples (vg_shape g) (vg_order g)) /\
  vis_groups (connectivity_for ex_tuples ex_submesh ex_simplex_type ex_tensor_type) [g] = Ok vcs /\ vis_cells vcs = Ok cells /\ cell_types vcs = Ok types /\
  length cells <> sum (map ex_count types).
Proof.
  exists (mk_visgrp true (Hypercube 1) 0 2 1). do 3 eexists. split.
  { split; [repeat constructor; intros []|]. intros t. cbn. split; [intros [<-|[]]; split; [reflexivity|repeat constructor]|]. intros (Hl & Hf). destruct t as [|x [|y t]]; try discriminate Hl. pose proof (Forall_inv Hf) as Hx. cbn beta in Hx. replace x with 0 by lia. now left. }
  split; [vm_compute; reflexivity|]. split; [vm_compute; reflexivity|]. split; [vm_compute; reflexivity|]. vm_compute. discriminate.
Qed.

(** C91: the second file is not like the first. *)
Definition ex_line : list visgrp := [mk_visgrp true (Hypercube 1) 1 1 2].
Definition ex_nodes : list (list (Qccring)) := [[frac 0%Z 1%positive; frac 4%Z 1%positive]].
Theorem C91_shrink_refuted : exists (s : Qccring) (st : vis_state Qccring), st = snd (write_vtk_points Qccring qc_mean ex_nodes s false ex_line None) /\
  fst (write_vtk_points Qccring qc_mean ex_nodes s false ex_line st) <> fst (write_vtk_points Qccring qc_mean ex_nodes s false ex_line None).
Proof.
  exists (frac 1%Z 2%positive). eexists. split; [reflexivity|]. intros H. apply (f_equal (map (map Qcanon.this))) in H. revert H. vm_compute. discriminate.
Qed.
Example C91_example : let w := write_vtk_points Qccring qc_mean ex_nodes (frac 1%Z 2%positive) false ex_line in
  map (map Qcanon.this) (fst (w None)) = [[QArith_base.Qmake 1%Z 1%positive; QArith_base.Qmake 3%Z 1%positive]] /\ map (map Qcanon.this) (fst (w (snd (w None)))) = [[QArith_base.Qmake 3%Z 2%positive; QArith_base.Qmake 5%Z 2%positive]].
Proof. split; vm_compute; reflexivity. Qed.

(** The hypothesis of C91_points_after holds for the mean of fractions. *)
Definition C91_mean_example := qc_mean_affine.

Print Assumptions C48_vtk_cells.
Print Assumptions C48_no_groups.
Print Assumptions C48_no_cell_type.
Example C48_no_cell_type_example : vis_groups (connectivity_for ex_tuples ex_submesh ex_simplex_type ex_tensor_type) [mk_visgrp true (Simplex 0) 1 2 1] = Err KeyError.
Proof. reflexivity. Qed.
Print Assumptions C90_hypercube_submesh.
Print Assumptions C90_hypercube_drawable.
Print Assumptions C91_points_after.
Print Assumptions C91_shrink_refuted.
Print Assumptions C92_lagrange_cells.
Print Assumptions C93_vtkhdf_cells.
Print Assumptions C93_vtkhdf_refuted.
Print Assumptions C94_order_zero_refuted.
Print Assumptions C95_xdmf_connectivity.
