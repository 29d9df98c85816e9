(** * ReunionProps: merging the parts of a mesh. *)
From Coq Require Import List Arith Bool ZArith Lia Sorting.Permutation.
From Verif Require Import Np NpFacts MeshModel MeshSpec MeshProofs MeshStateModel PartModel PartSpec MeshExamples PartProps ProcModel ProcSpec LawsSpec ReunionProofs.
Import ListNotations.

(** ** C233: merging all parts of a mesh gives its elements again, part by part, with the same nodes and the same positions of vertices *)
Theorem C233_reunion {E A V} garbage (vs : list V) (groups : list (egroup E)) (fags : list (list (fagrp A))) conforming parts :
  valid_partition (sum (map nelements groups)) parts -> (forall p, length (garbage p) = sum (map nelements groups)) ->
  groups <> [] -> has_rows groups -> rows_in_range (length vs) groups -> fags_wf groups fags -> parts <> [] ->
  exists ms, partition_mesh garbage (Some vs) groups (Ok fags) conforming parts None = Ok ms /\
    forall adim same_kind d, (forall m, In m (map snd ms) -> adim m = d) ->
      exists m vs', merge_disjoint_meshes adim same_kind false (map snd ms) = Ok m /\ m_vertices m = Some vs' /\
        Permutation (points vs' (m_groups m)) (points vs groups) /\
        Forall2 (fun e y => nth_error (points vs groups) e = Some y) (concat (map snd parts)) (points vs' (m_groups m)) /\
        m_facial m = Unavailable.
Proof.
  intros HV HG Hne HR Hin Hwf Hparts. destruct (reunion garbage vs groups fags conforming parts HV HG Hne HR Hin Hwf Hparts) as (ms & Hms & H). exists ms. split; [exact Hms|].
  intros adim same_kind d Hd. destruct (H adim same_kind d Hd) as (m & vs' & Hm & Hv & HS & Hf). exists m, vs'. repeat (split; [assumption|]). split; [|now split].
  destruct (selects_perm _ _ _ (listed_perm _ _ HV) _ HS) as (q & Hq & Hp). rewrite Hp. rewrite <- (points_length vs groups HR) in Hq. now rewrite (selects_fun _ _ _ _ Hq (selects_all _)).
Qed.
Print Assumptions C233_reunion.

(** The mesh of C10 in two parts *)
Example C233_example : exists ms m, partition_mesh ex_garbage (Some ex_vs) ex_groups (Ok ex_fags) (Some true) ex_parts None = Ok ms /\
  merge_disjoint_meshes (fun _ => 2) (fun _ _ => true) false (map snd ms) = Ok m /\ map snd ex_parts <> [[0; 1; 2]] /\
  (exists vs', m_vertices m = Some vs' /\ length ex_vs < length vs' /\ points vs' (m_groups m) <> points ex_vs ex_groups).
Proof.
  eexists _, _. split; [vm_compute; reflexivity|]. split; [vm_compute; reflexivity|]. split; [discriminate|]. eexists. split; [reflexivity|]. split; [cbn; lia|]. vm_compute. discriminate.
Qed.
