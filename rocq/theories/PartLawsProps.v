(** * PartLawsProps: what the parts of a mesh depend on. *)
From Coq Require Import List Arith Bool ZArith Lia.
From Verif Require Import Np NpFacts MeshModel MeshSpec MeshProofs MeshStateModel PartModel PartSpec PartProofs MeshExamples PartProps ProcModel BoxMapProofs LawsSpec PartLawsProofs.
Import ListNotations.

(** ** C234: the parts depend neither on uninitialised memory nor on which parts are returned *)
Theorem C234_uninitialised {E A V} garbage garbage' vertices (groups : list (egroup E)) (fags : res (list (list (fagrp A)))) conforming parts rp :
  valid_partition (sum (map nelements groups)) parts ->
  (forall p, length (garbage p) = sum (map nelements groups)) -> (forall p, length (garbage' p) = sum (map nelements groups)) ->
  partition_mesh garbage vertices groups fags conforming parts rp = partition_mesh garbage' vertices groups fags conforming parts rp :> res (list (nat * mesh E A V)).
Proof.
  intros HV H1 H2. unfold partition_mesh. cbv zeta. apply mapM_ext'. intros p. unfold get_mesh_part. now rewrite (g2p_garbage (garbage p) (garbage' p) _ _ HV (H1 p) (H2 p)).
Qed.
Print Assumptions C234_uninitialised.
Theorem C234_returned {E A V} garbage vertices (groups : list (egroup E)) (fags : res (list (list (fagrp A)))) conforming parts (ms : list (nat * mesh E A V)) l :
  partition_mesh garbage vertices groups fags conforming parts None = Ok ms -> incl l (map fst parts) ->
  exists ms', partition_mesh garbage vertices groups fags conforming parts (Some l) = Ok ms' /\ map fst ms' = l /\ incl ms' ms.
Proof. intros H Hl. exact (mapM_lookup _ _ _ H l Hl). Qed.
Print Assumptions C234_returned.
Example C234_example : valid_partition (sum (map nelements ex_groups)) ex_parts /\
  (exists ms m, partition_mesh ex_garbage (Some ex_vs) ex_groups (Ok ex_fags) (Some true) ex_parts None = Ok ms /\ length ms = 2 /\
     partition_mesh ex_garbage (Some ex_vs) ex_groups (Ok ex_fags) (Some true) ex_parts (Some [3; 3]) = Ok [(3, m); (3, m)]) /\
  (forall p, length (ex_garbage p) = sum (map nelements ex_groups)) /\ ex_garbage 3 <> [(0, 0); (0, 0); (0, 0)].
Proof.
  split; [exact ex_valid_partition|]. split; [eexists _, _; split; [vm_compute; reflexivity|]; split; [reflexivity|vm_compute; reflexivity]|]. split; [reflexivity|discriminate].
Qed.

(** ** C235: partitioning commutes with mapping nodes and vertices *)
Theorem C235_partition_mapped {E E' A V V'} (f : E -> E') (h : V -> V') garbage vertices (groups : list (egroup E)) (fags : res (list (list (fagrp A)))) conforming parts rp :
  partition_mesh garbage (option_map (map h) vertices) (map (map_group f) groups) fags conforming parts rp =
  (ms <- partition_mesh garbage vertices groups fags conforming parts rp ;; Ok (map (fun pm => (fst pm, map_points f h (snd pm))) ms)).
Proof. apply partition_natural. Qed.
Print Assumptions C235_partition_mapped.
Theorem C235_map_mesh {P A} (trivial : A -> bool) (f : P -> P) garbage (m : mesh (list P) A P) fags parts rp ms :
  (forall a, trivial a = true) -> m_facial m = Available fags ->
  partition_mesh garbage (m_vertices m) (m_groups m) (Ok fags) (m_conforming m) parts rp = Ok ms ->
  exists m' ms', map_mesh trivial (map f) m = Ok m' /\ m_facial m' = Available fags /\
    partition_mesh garbage (m_vertices m') (m_groups m') (Ok fags) (m_conforming m') parts rp = Ok ms' /\
    Forall2 (fun a b => fst b = fst a /\ map_mesh trivial (map f) (snd a) = Ok (snd b)) ms ms'.
Proof.
  intros Ht Hfa Hms. eexists _, (map (fun pm => (fst pm, map_points (map f) f (snd pm))) ms).
  split; [apply map_mesh_spec; unfold maps_free; rewrite Hfa; intros; apply Ht|]. cbn [m_facial m_vertices m_groups m_conforming]. split; [exact Hfa|]. split.
  - pose proof (C235_partition_mapped (map f) f garbage (m_vertices m) (m_groups m) (Ok fags) (m_conforming m) parts rp) as H. rewrite Hms in H. exact H.
  - assert (Hav : forall p mp, In (p, mp) ms -> exists fa, m_facial mp = Available fa).
    { intros p mp Hin. unfold partition_mesh in Hms. cbv zeta in Hms. apply mapM_ok in Hms. apply In_nth_error in Hin as (k & Hk). destruct (Forall2_nth_error_r _ _ _ _ _ Hms Hk) as (q & _ & Hq). apply bind_ok in Hq as (mq & Hq & [= _ <-]). eapply part_facial; eauto. }
    clear - Ht Hav. induction ms as [|(p, mp) ms IH]; cbn [map]; constructor; [|apply IH; intros q mq Hq; apply (Hav q mq); now right].
    cbn [fst snd]. split; [reflexivity|]. destruct (Hav p mp (or_introl eq_refl)) as (fa & Hfa). apply map_mesh_spec. unfold maps_free. rewrite Hfa. intros. apply Ht.
Qed.
Print Assumptions C235_map_mesh.
Example C235_example : exists ms ms', partition_mesh ex_garbage (Some ex_vs) ex_groups (Ok ex_fags) (Some true) ex_parts None = Ok ms /\
  partition_mesh ex_garbage (Some (map (fun v => v * v) ex_vs)) (map (map_group S) ex_groups) (Ok ex_fags) (Some true) ex_parts None = Ok ms' /\
  map (fun pm => m_vertices (snd pm)) ms' <> map (fun pm => m_vertices (snd pm)) ms.
Proof. eexists _, _. split; [vm_compute; reflexivity|]. split; [vm_compute; reflexivity|]. vm_compute. discriminate. Qed.
