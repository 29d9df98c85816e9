(** * OnePartProps: partitioning into a single part. *)
From Coq Require Import List Arith Bool ZArith Lia.
From Verif Require Import Np NpFacts MeshModel MeshSpec MeshProofs CompletionProofs MeshStateModel PartModel PartSpec MeshExamples PartProps LawsSpec OnePartProofs.
Import ListNotations.

(** ** C231: a mesh all of whose elements go to one part, in their order, is made again from the same vertices and groups *)
Theorem C231_one_part {E A V} garbage (vs : list V) (groups : list (egroup E)) (fags : list (list (fagrp A))) conforming p :
  (forall q, length (garbage q) = sum (map nelements groups)) -> groups <> [] -> has_rows groups -> rows_in_range (length vs) groups ->
  (forall v, v < length vs -> exists e row, elem_row groups e row /\ In v row) -> fags_wf groups fags ->
  partition_mesh garbage (Some vs) groups (Ok fags) conforming [(p, seq 0 (sum (map nelements groups)))] None =
  (m <- make_mesh (Some vs) groups Pending (Available (map one_part fags)) conforming 0 0 0 ;; Ok [(p, m)]).
Proof.
  intros HG Hne Hrows Hrange Hused Hwf. unfold partition_mesh. cbn [map fst mapM]. rewrite (get_one_part (garbage p) vs groups fags conforming p); auto.
  destruct (make_mesh _ _ _ _ _ _ _ _); reflexivity.
Qed.
Print Assumptions C231_one_part.

(** If moreover the adjacency lists are as meshmode makes them, the part is the mesh. *)
Theorem C231_one_part_same {E A V} garbage (vs : list V) (groups : list (egroup E)) (given fags : list (list (fagrp A))) conforming p :
  (forall q, length (garbage q) = sum (map nelements groups)) -> groups <> [] -> has_rows groups -> rows_in_range (length vs) groups ->
  (forall v, v < length vs -> exists e row, elem_row groups e row /\ In v row) -> fags_wf groups fags ->
  complete_facial_adjacency given = Ok fags ->
  (forall l, In l fags -> exists li lb, l = li ++ lb /\
     (forall b, In b li -> exists g g' en es aff, b = Interior g g' (en :: es) aff) /\ (forall b, In b lb -> exists g t fs, b = Boundary g t fs)) ->
  exists m, partition_mesh garbage (Some vs) groups (Ok fags) conforming [(p, seq 0 (sum (map nelements groups)))] None = Ok [(p, m)] /\
    m_groups m = groups /\ m_vertices m = Some vs /\ m_conforming m = conforming /\ m_facial m = Available fags.
Proof.
  intros HG Hne Hrows Hrange Hused Hwf Hcomp Hl. rewrite C231_one_part by auto.
  assert (Hsame : map one_part fags = fags).
  { rewrite <- (map_id fags) at 2. apply map_ext_in. intros l Hin. destruct (Hl l Hin) as (li & lb & -> & Hi & Hb). unfold one_part.
    rewrite filter_app, flat_map_app.
    replace (filter _ li) with li; [replace (filter _ lb) with (@nil (fagrp A)); [replace (flat_map _ li) with (@nil (fagrp A)); [replace (flat_map _ lb) with lb; [now rewrite app_nil_r|]|]|]|].
    - clear - Hb. induction lb as [|b lb IH]; [reflexivity|]. destruct (Hb b (or_introl eq_refl)) as (g & t & fs & ->). cbn [flat_map app]. f_equal. apply IH. intros; apply Hb; now right.
    - clear - Hi. induction li as [|b li IH]; [reflexivity|]. destruct (Hi b (or_introl eq_refl)) as (g & g' & en & es & aff & ->). cbn [flat_map app]. apply IH. intros; apply Hi; now right.
    - clear - Hb. induction lb as [|b lb IH]; [reflexivity|]. destruct (Hb b (or_introl eq_refl)) as (g & t & fs & ->). cbn [filter]. apply IH. intros; apply Hb; now right.
    - clear - Hi. induction li as [|b li IH]; [reflexivity|]. destruct (Hi b (or_introl eq_refl)) as (g & g' & en & es & aff & ->). cbn [filter]. f_equal. apply IH. intros; apply Hi; now right. }
  rewrite Hsame. pose proof (complete_idempotent _ _ Hcomp) as Hid.
  unfold make_mesh. destruct (truthy conforming); cbn [none_to_false]; rewrite Hid; cbn [bind]; eexists; (split; [reflexivity|]); auto.
Qed.
Print Assumptions C231_one_part_same.

(** The mesh of the examples of C10: its lists are the result of the completion of their interior groups *)
Example C231_example :
  (forall v, v < length ex_vs -> exists e row, elem_row ex_groups e row /\ In v row) /\
  complete_facial_adjacency ex_fags = Ok ex_fags /\
  (forall l, In l ex_fags -> exists li lb, l = li ++ lb /\
     (forall b, In b li -> exists g g' en es aff, b = Interior g g' (en :: es) aff) /\ (forall b, In b lb -> exists g t fs, b = Boundary g t fs)) /\
  partition_mesh ex_garbage (Some ex_vs) ex_groups (Ok ex_fags) (Some true) [(4, [0; 1; 2])] None =
    Ok [(4, mk_mesh ex_groups (Some ex_vs) (Some true) Pending (Available ex_fags) 0 0 0)].
Proof.
  split; [|split; [vm_compute; reflexivity|split; [|vm_compute; reflexivity]]].
  - assert (H0 : elem_row ex_groups 0 [0; 1; 2]) by (exists 0, 0; split; [eexists _, _; repeat split; cbn; lia|reflexivity]).
    assert (H2 : elem_row ex_groups 2 [1; 4; 3; 5]) by (exists 1, 0; split; [eexists _, _; repeat split; cbn; lia|reflexivity]).
    intros v Hv. cbn in Hv. do 6 (destruct v as [|v]; [eexists _, _; split; [exact H0 + exact H2|cbn; auto 6; fail]|]). lia.
  - intros l [<-|[<-|[]]].
    + exists [Interior 0 0 [((1, 1), (0, 2)); ((0, 2), (1, 1))] tt; Interior 0 1 [((1, 0), (0, 2))] tt]. eexists. split; [reflexivity|]. split; intros b Hb; cbn in Hb; intuition (subst; eauto 8).
    + exists [Interior 1 0 [((0, 2), (1, 0))] tt]. eexists. split; [reflexivity|]. split; intros b Hb; cbn in Hb; intuition (subst; eauto 8).
Qed.

(** ** C232 (refuted): partitioning a part of a mesh again keeps the adjacency to the other parts.  Inter-part groups are taken for boundary groups, so
    that even a single part with all elements has lost them *)
Theorem C232_part_of_part_refuted :
  exists (groups : list (egroup nat)) (fags : list (list (fagrp unit))) (vs : list nat) parts ms p m fags' g t q en garbage' m' fags'',
    valid_partition (sum (map nelements groups)) parts /\
    partition_mesh ex_garbage (Some vs) groups (Ok fags) (Some true) parts None = Ok ms /\ In (p, m) ms /\ m_facial m = Available fags' /\
    part_entry fags' g t q tt en /\
    partition_mesh garbage' (m_vertices m) (m_groups m) (Ok fags') (m_conforming m) [(p, seq 0 (sum (map nelements (m_groups m))))] None = Ok [(p, m')] /\
    m_groups m' = m_groups m /\ m_facial m' = Available fags'' /\ bdry_adj fags'' t (g, fst (fst en), snd (fst en)) /\
    forall g t q aff en, ~ part_entry fags'' g t q aff en.
Proof.
  exists ex_groups, ex_fags, ex_vs, ex_parts. eexists _, 3, _, _, 0, (TPartition 7), 7, ((0, 1), (0, 2)), (fun _ => [(9, 9)]), _, _.
  split; [exact ex_valid_partition|]. split; [vm_compute; reflexivity|]. split; [right; left; reflexivity|]. split; [reflexivity|]. split.
  { eexists _, _. split; [reflexivity|]. split; [left; reflexivity|left; reflexivity]. }
  split; [vm_compute; reflexivity|]. split; [reflexivity|]. split; [reflexivity|]. split.
  { unfold bdry_adj. cbn [fst snd]. eexists. split; [reflexivity|]. eexists. split; [left; reflexivity|]. split; [reflexivity|left; reflexivity]. }
  intros g t q aff en (l & es & Hl & Hin & _). destruct g as [|[|g]]; cbn in Hl; [| |destruct g; discriminate]; injection Hl as <-; cbn in Hin; intuition discriminate.
Qed.
Print Assumptions C232_part_of_part_refuted.
