(** * PartProps: theorems C10-C15, C52 about partition_mesh. *)
From Coq Require Import List Arith Bool ZArith Lia Sorting.Sorted.
From Verif Require Import Np NpFacts MeshModel MeshSpec MeshProofs MeshExamples MeshStateModel
  PartModel PartSpec PartProofs PartMainProofs.
Import ListNotations.

(** ** C10: elements, nodes and vertices of the parts *)
Theorem C10_partition_geometry {E A V} garbage (vs : list V) (groups : list (egroup E)) (fags : list (list (fagrp A)))
    conforming parts rp :
  valid_partition (sum (map nelements groups)) parts ->
  (forall p, length (garbage p) = sum (map nelements groups)) ->
  groups <> [] -> has_rows groups -> rows_in_range (length vs) groups -> fags_wf groups fags ->
  incl (requested parts rp) (map fst parts) ->
  exists ms, partition_mesh garbage (Some vs) groups (Ok fags) conforming parts rp = Ok ms /\
    map fst ms = requested parts rp /\
    forall p m, In (p, m) ms -> part_geometry groups vs parts p m /\ m_conforming m = conforming.
Proof.
  intros H1 H2 H3 H4 H5 H6 H7.
  destruct (partition_mesh_spec garbage vs groups fags conforming parts rp H1 H2 H3 H4 H5 H6 H7) as (ms & Hms & Hk & Hok).
  exists ms. split; auto. split; auto. intros p m Hin. destruct (Hok _ _ Hin) as (f & Hg & _ & _ & _ & _ & Hc & _). auto.
Qed.
Print Assumptions C10_partition_geometry.

(** ** C11: an element without a part, or with two parts, is an error. *)
Theorem C11_rejects_invalid {E A V} garbage vertices (groups : list (egroup E)) (fags : res (list (list (fagrp A))))
    conforming parts rp :
  NoDup (map fst parts) ->
  (forall e p k, assigned parts e p k -> e < sum (map nelements groups)) ->
  requested parts rp <> [] ->
  (exists e, e < sum (map nelements groups) /\ forall p k, ~ assigned parts e p k) \/
  (exists e p q k l, p <> q /\ assigned parts e p k /\ assigned parts e q l) ->
  partition_mesh garbage vertices groups fags conforming parts rp = Err ValueError :> res (list (nat * mesh E A V)).
Proof. exact (partition_mesh_rejects garbage groups conforming parts rp fags vertices). Qed.
Print Assumptions C11_rejects_invalid.

(** ** C12: interior and inter-part adjacency of the parts *)
Theorem C12_partition_adjacency {E A V} garbage (vs : list V) (groups : list (egroup E)) (fags : list (list (fagrp A)))
    conforming parts rp :
  valid_partition (sum (map nelements groups)) parts ->
  (forall p, length (garbage p) = sum (map nelements groups)) ->
  groups <> [] -> has_rows groups -> rows_in_range (length vs) groups -> fags_wf groups fags ->
  incl (requested parts rp) (map fst parts) ->
  exists ms, partition_mesh garbage (Some vs) groups (Ok fags) conforming parts rp = Ok ms /\
    map fst ms = requested parts rp /\
    forall p m, In (p, m) ms -> exists fags', m_facial m = Available fags' /\ length fags' = length groups /\
      part_adjacency groups fags parts p m fags'.
Proof.
  intros H1 H2 H3 H4 H5 H6 H7.
  destruct (partition_mesh_spec garbage vs groups fags conforming parts rp H1 H2 H3 H4 H5 H6 H7) as (ms & Hms & Hk & Hok).
  exists ms. split; auto. split; auto. intros p m Hin. destruct (Hok _ _ Hin) as (f & _ & Hf & Hl & Ha & _). eauto.
Qed.
Print Assumptions C12_partition_adjacency.

(** ** C13: the two sides of a boundary between parts agree. *)
Theorem C13_inter_part_mutual {E A V} (R : A -> A -> Prop) garbage (vs : list V) (groups : list (egroup E))
    (fags : list (list (fagrp A))) conforming parts rp :
  valid_partition (sum (map nelements groups)) parts ->
  (forall p, length (garbage p) = sum (map nelements groups)) ->
  groups <> [] -> has_rows groups -> rows_in_range (length vs) groups -> fags_wf groups fags ->
  incl (requested parts rp) (map fst parts) ->
  (forall g g' aff e f e' f', int_entry fags g g' aff ((e, f), (e', f')) ->
     exists aff', R aff aff' /\ int_entry fags g' g aff' ((e', f'), (e, f))) ->
  exists ms, partition_mesh garbage (Some vs) groups (Ok fags) conforming parts rp = Ok ms /\
    forall p q mp mq, In (p, mp) ms -> In (q, mq) ms ->
      exists fp fq, m_facial mp = Available fp /\ m_facial mq = Available fq /\
      forall g t aff i f k f', part_entry fp g t q aff ((i, f), (k, f')) ->
        exists g' i' aff', k = base (map nelements (m_groups mq)) g' + i' /\ R aff aff' /\
          part_entry fq g' (TPartition p) p aff' ((i', f'), (base (map nelements (m_groups mp)) g + i, f)).
Proof.
  intros H1 H2 H3 H4 H5 H6 H7 Hsym.
  destruct (partition_mesh_spec garbage vs groups fags conforming parts rp H1 H2 H3 H4 H5 H6 H7) as (ms & Hms & Hk & Hok).
  exists ms. split; auto. intros p q mp mq Hp Hq.
  destruct (Hok _ _ Hp) as (fp & Hokp). destruct (Hok _ _ Hq) as (fq & Hokq).
  exists fp, fq. split; [apply Hokp|]. split; [apply Hokq|].
  exact (mutual vs groups fags conforming parts R p q mp mq fp fq Hokp Hokq Hsym H1 H6).
Qed.
Print Assumptions C13_inter_part_mutual.

(** ** C14: boundary tags *)
Theorem C14_partition_boundaries {E A V} garbage (vs : list V) (groups : list (egroup E)) (fags : list (list (fagrp A)))
    conforming parts rp :
  valid_partition (sum (map nelements groups)) parts ->
  (forall p, length (garbage p) = sum (map nelements groups)) ->
  groups <> [] -> has_rows groups -> rows_in_range (length vs) groups -> fags_wf groups fags ->
  incl (requested parts rp) (map fst parts) ->
  exists ms, partition_mesh garbage (Some vs) groups (Ok fags) conforming parts rp = Ok ms /\
    map fst ms = requested parts rp /\
    forall p m, In (p, m) ms -> exists fags', m_facial m = Available fags' /\
      part_boundaries groups fags parts p m fags'.
Proof.
  intros H1 H2 H3 H4 H5 H6 H7.
  destruct (partition_mesh_spec garbage vs groups fags conforming parts rp H1 H2 H3 H4 H5 H6 H7) as (ms & Hms & Hk & Hok).
  exists ms. split; auto. split; auto. intros p m Hin. destruct (Hok _ _ Hin) as (f & _ & Hf & _ & _ & Hb & _). eauto.
Qed.
Print Assumptions C14_partition_boundaries.

(** ** Example: the three-element mesh, elements 0 and 2 in part 7, element 1 in part 3 *)
Definition ex_fags : list (list (fagrp unit)) :=
  [[Interior 0 0 [((1, 1), (0, 2)); ((0, 2), (1, 1))] tt; Interior 0 1 [((1, 0), (0, 2))] tt;
    Boundary 0 TAll [(0, 0); (0, 1); (1, 2)]; Boundary 0 TNone []; Boundary 0 TReallyAll [(0, 0); (0, 1); (1, 2)]];
   [Interior 1 0 [((0, 2), (1, 0))] tt;
    Boundary 1 TAll [(0, 0); (0, 1); (0, 3)]; Boundary 1 TNone []; Boundary 1 TReallyAll [(0, 0); (0, 1); (0, 3)]]].
Definition ex_parts : partdict := [(7, [0; 2]); (3, [1])].

Example ex_fags_computed : compute_facial_adjacency tt (fun l => l) None ex_groups = Ok ex_fags.
Proof. vm_compute. reflexivity. Qed.

Lemma ex_assigned e p k : assigned ex_parts e p k <->
  (e = 0 /\ p = 7 /\ k = 0) \/ (e = 2 /\ p = 7 /\ k = 1) \/ (e = 1 /\ p = 3 /\ k = 0).
Proof.
  split.
  - intros (els & [H|[H|[]]] & Hk); injection H as <- <-.
    + destruct k as [|[|k]]; cbn in Hk; [left|right; left|destruct k; discriminate]; injection Hk as <-; auto.
    + destruct k as [|k]; cbn in Hk; [|destruct k; discriminate]. injection Hk as <-. auto.
  - intros [(-> & -> & ->)|[(-> & -> & ->)|(-> & -> & ->)]]; [exists [0; 2]|exists [0; 2]|exists [1]]; cbn; auto.
Qed.

Example ex_valid_partition : valid_partition (sum (map nelements ex_groups)) ex_parts.
Proof.
  split.
  - repeat constructor; cbn; intuition discriminate.
  - intros p els [H|[H|[]]]; injection H as <- <-; repeat constructor.
  - intros e p k H. apply ex_assigned in H. cbn. lia.
  - cbn. intros e He. destruct e as [|[|[|e]]]; [exists 7, 0|exists 3, 0|exists 7, 1|lia]; apply ex_assigned; auto.
  - intros e p q k l H1 H2. apply ex_assigned in H1, H2. lia.
Qed.

Example ex_fags_wf : fags_wf ex_groups ex_fags.
Proof.
  split; [reflexivity|]. split; [|split].
  - intros g l b Hl Hb. destruct g as [|[|g]]; cbn in Hl; [| |destruct g; discriminate]; injection Hl as <-;
      cbn in Hb; intuition (subst; reflexivity).
  - intros g grp l b e f Hg Hl Hb Hef. destruct g as [|[|g]]; cbn in Hl, Hg; [| |destruct g; discriminate];
      injection Hl as <-; injection Hg as <-; cbn in Hb |- *.
    + destruct Hb as [<-|[<-|[<-|[<-|[<-|[]]]]]]; cbn in Hef; intuition (injection H as <- <- || idtac; try congruence; try lia);
        try (injection H0 as <- <-; lia).
    + destruct Hb as [<-|[<-|[<-|[<-|[]]]]]; cbn in Hef; intuition (try congruence);
        try (injection H as <- <-; lia); try (injection H0 as <- <-; lia).
  - intros g l g' es aff Hl Hin. destruct g as [|[|g]]; cbn in Hl; [| |destruct g; discriminate]; injection Hl as <-.
    + destruct Hin as [H|[H|[H|[H|[H|[]]]]]]; try discriminate; injection H as <- <- <-; eexists; (split; [reflexivity|]);
        intros en Hen; cbn in Hen; intuition (subst en; cbn; lia).
    + destruct Hin as [H|[H|[H|[H|[]]]]]; try discriminate; injection H as <- <- <-; eexists; (split; [reflexivity|]);
        intros en Hen; cbn in Hen; intuition (subst en; cbn; lia).
Qed.

Example ex_symmetric g g' aff e f e' f' : int_entry ex_fags g g' aff ((e, f), (e', f')) ->
  exists aff', aff = aff' /\ int_entry ex_fags g' g aff' ((e', f'), (e, f)).
Proof.
  intros (l & es & Hl & Hin & Hen). exists aff. split; auto. destruct aff.
  destruct g as [|[|g]]; cbn in Hl; [| |destruct g; discriminate]; injection Hl as <-.
  - destruct Hin as [H|[H|[H|[H|[H|[]]]]]]; try discriminate; injection H as <- <-; cbn in Hen.
    + eexists; eexists; split; [reflexivity|]. split; [left; reflexivity|]. cbn. intuition congruence.
    + eexists; eexists; split; [reflexivity|]. split; [left; reflexivity|]. cbn. intuition congruence.
  - destruct Hin as [H|[H|[H|[H|[]]]]]; try discriminate; injection H as <- <-; cbn in Hen.
    eexists; eexists; split; [reflexivity|]. split; [right; left; reflexivity|]. cbn. intuition congruence.
Qed.

(** The hypotheses of C10, C12, C13, C14 are met, and the result is the expected one: part 3 is
    the middle triangle with two inter-part faces towards elements 0 and 1 of part 7. *)
Definition ex_garbage : nat -> list (nat * nat) := fun _ => [(9, 9); (9, 9); (9, 9)].
Definition ex_vs : list nat := [10; 11; 12; 13; 14; 15].
Example C10_example :
  (forall p, length (ex_garbage p) = sum (map nelements ex_groups)) /\ ex_groups <> [] /\ has_rows ex_groups /\
  rows_in_range (length ex_vs) ex_groups /\ incl (requested ex_parts None) (map fst ex_parts) /\
  exists m7, partition_mesh ex_garbage (Some ex_vs) ex_groups (Ok ex_fags) (Some true) ex_parts None =
    Ok [(7, m7);
        (3, mk_mesh [mk_egroup (Some [[0; 2; 1]]) [101] tri_faces; mk_egroup (Some []) [] quad_faces]
              (Some [11; 12; 13]) (Some true) Pending
              (Available [[InterPart 0 (TPartition 7) 7 [((0, 1), (0, 2))] tt;
                           InterPart 0 (TPartition 7) 7 [((0, 0), (1, 2))] tt;
                           Boundary 0 TAll [(0, 2)]; Boundary 0 TNone []; Boundary 0 TReallyAll [(0, 2)]];
                          [Boundary 1 TAll []; Boundary 1 TNone []; Boundary 1 TReallyAll []]]) 0 0 0)].
Proof.
  split; [reflexivity|]. split; [discriminate|]. split; [apply ex_has_rows|].
  split; [apply ex_rows_in_range|]. split; [apply incl_refl|].
  eexists. vm_compute. reflexivity.
Qed.

Example C11_example :
  partition_mesh ex_garbage (Some ex_vs) ex_groups (Ok ex_fags) (Some true) [(7, [0; 2]); (3, [1; 2])] None = Err ValueError /\
  partition_mesh ex_garbage (Some ex_vs) ex_groups (Ok ex_fags) (Some true) [(7, [0]); (3, [1])] None = Err ValueError /\
  (exists e p q k l, p <> q /\ assigned [(7, [0; 2]); (3, [1; 2])] e p k /\ assigned [(7, [0; 2]); (3, [1; 2])] e q l).
Proof.
  split; [vm_compute; reflexivity|]. split; [vm_compute; reflexivity|].
  exists 2, 7, 3, 1, 1. split; [lia|]. split; [exists [0; 2]|exists [1; 2]]; cbn; auto.
Qed.

(** ** C15 (refuted): BTAG_REALLY_ALL of a part contains its inter-part faces. *)
Theorem C15_really_all_of_part_refuted :
  exists (groups : list (egroup nat)) (fags : list (list (fagrp unit))) (vs : list nat) parts ms p m fags' g q aff en,
    compute_facial_adjacency tt (fun l => l) None groups = Ok fags /\
    valid_partition (sum (map nelements groups)) parts /\
    partition_mesh ex_garbage (Some vs) groups (Ok fags) (Some true) parts None = Ok ms /\
    In (p, m) ms /\ m_facial m = Available fags' /\
    part_entry fags' g (TPartition q) q aff en /\
    ~ bdry_adj fags' TReallyAll (g, fst (fst en), snd (fst en)).
Proof.
  exists ex_groups, ex_fags, ex_vs, ex_parts.
  destruct C10_example as (_ & _ & _ & _ & _ & m7 & Hms).
  eexists; exists 3; eexists; eexists; exists 0, 7, tt, ((0, 1), (0, 2)).
  split; [exact ex_fags_computed|]. split; [exact ex_valid_partition|]. split; [exact Hms|].
  split; [right; left; reflexivity|]. split; [reflexivity|]. split.
  - eexists; eexists; split; [reflexivity|]. split; [left; reflexivity|]. left; reflexivity.
  - intros (l & Hl & b & Hb & Ht & Hf). cbn in Hl. injection Hl as <-.
    destruct Hb as [<-|[<-|[<-|[<-|[<-|[]]]]]]; try discriminate. cbn in Hf. intuition congruence.
Qed.
Print Assumptions C15_really_all_of_part_refuted.

(** ** C52 (refuted): an element listed twice in the same part is rejected. *)
Theorem C52_repeated_element_rejected_refuted :
  exists (groups : list (egroup nat)) (fags : list (list (fagrp unit))) (vs : list nat) parts ms p m els e,
    compute_facial_adjacency tt (fun l => l) None groups = Ok fags /\
    partition_mesh ex_garbage (Some vs) groups (Ok fags) (Some true) parts None = Ok ms /\
    In (p, els) parts /\ nth_error els 0 = Some e /\ nth_error els 1 = Some e /\
    In (p, m) ms /\ map eg_nodes (m_groups m) = [[100; 100]; [102]] /\ map eg_nodes groups = [[100; 101]; [102]].
Proof.
  exists ex_groups, ex_fags, ex_vs, [(7, [0; 0; 2]); (3, [1])].
  eexists; exists 7; eexists; exists [0; 0; 2], 0.
  split; [exact ex_fags_computed|]. split; [vm_compute; reflexivity|].
  split; [left; reflexivity|]. split; [reflexivity|]. split; [reflexivity|]. split; [left; reflexivity|].
  split; reflexivity.
Qed.
Print Assumptions C52_repeated_element_rejected_refuted.
