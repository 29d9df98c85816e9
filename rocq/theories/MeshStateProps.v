(** * Properties C09, C50, C51: mesh objects over histories of queries. *)
From Coq Require Import List Arith Bool ZArith Lia Permutation.
From Verif Require Import Np NpFacts MeshModel MeshSpec MeshStateModel MeshStateSpec MeshStateProofs MeshExamples.
Import ListNotations.

(** ** C09: after any sequence of queries the answers are those of the untouched mesh, the mesh's own
    data is unchanged, and each adjacency is computed at most once. *)
Theorem C09_history_independent {E A V} ord (aff_id : A) tag_order (m : mesh E A V) qs l s' :
  ask_all ord aff_id tag_order qs (m, (0, 0)) = (l, s') ->
  l = map (fresh_answer ord aff_id tag_order m) qs /\
  (m_groups (fst s') = m_groups m /\ m_vertices (fst s') = m_vertices m /\
   m_conforming (fst s') = m_conforming m /\ m_vdtype (fst s') = m_vdtype m /\
   m_edtype (fst s') = m_edtype m /\ m_fdtype (fst s') = m_fdtype m) /\
  (forall q, fresh_answer ord aff_id tag_order (fst s') q = fresh_answer ord aff_id tag_order m q) /\
  (forall x, nodal_from_vertices ord m = Ok x -> fst (snd s') <= 1) /\
  (forall x, facial_from_vertices aff_id tag_order m = Ok x -> snd (snd s') <= 1) /\
  (m_nodal m <> Pending -> fst (snd s') = 0) /\ (m_facial m <> Pending -> snd (snd s') = 0).
Proof. exact (history_independent ord aff_id tag_order m qs l s'). Qed.
Print Assumptions C09_history_independent.

(** Which answer: for every combination of make_mesh arguments. *)
Theorem C09_make_mesh_answers {E A V} ord (aff_id : A) tag_order vertices (groups : list (egroup E)) nodal facial conf vd ed fd :
  exists m : mesh E A V, make_mesh vertices groups nodal facial conf vd ed fd = Ok m /\
    m_groups m = groups /\ m_vertices m = vertices /\
    (forall f, facial = Available f ->
       exists f', complete_facial_adjacency f = Ok f' /\ fresh_answer ord aff_id tag_order m QFacial = AFacial (Ok f')) /\
    (forall x, nodal = Available x -> fresh_answer ord aff_id tag_order m QNodal = ANodal (Ok x)) /\
    (facial = Pending -> forall vs, vertices = Some vs -> conf = Some true ->
       fresh_answer ord aff_id tag_order m QFacial = AFacial (compute_facial_adjacency aff_id tag_order None groups)) /\
    (nodal = Pending -> forall vs, vertices = Some vs -> conf = Some true ->
       fresh_answer ord aff_id tag_order m QNodal = ANodal (compute_nodal_adjacency ord (Some (length vs)) groups)) /\
    (facial = Unavailable \/ (facial = Pending /\ (vertices = None \/ conf <> Some true)) ->
       fresh_answer ord aff_id tag_order m QFacial = AFacial (Err DataUnavailableError)) /\
    (nodal = Unavailable \/ (nodal = Pending /\ (vertices = None \/ conf <> Some true)) ->
       fresh_answer ord aff_id tag_order m QNodal = ANodal (Err DataUnavailableError)).
Proof. exact (make_mesh_answers ord aff_id tag_order vertices groups nodal facial conf vd ed fd). Qed.
Print Assumptions C09_make_mesh_answers.

Definition ex_mesh : mesh nat unit nat :=
  mk_mesh ex_groups (Some [0; 1; 2; 3; 4; 5]) (Some true) Pending Pending 0 0 0.

Example C09_example :
  make_mesh (Some [0; 1; 2; 3; 4; 5]) ex_groups Pending Pending (Some true) 0 0 0 = Ok ex_mesh /\
  snd (snd (ask_all (fun l => l) tt (fun l => l) [QFacial; QNodal; QHasBoundary TAll; QNodal; QTagEmpty TNone] (ex_mesh, (0, 0)))) = (1, 1) /\
  nth_error (fst (ask_all (fun l => l) tt (fun l => l) [QFacial; QNodal; QHasBoundary TAll; QNodal; QTagEmpty TNone] (ex_mesh, (0, 0)))) 4
    = Some (ABool (Ok true)).
Proof. repeat split; vm_compute; reflexivity. Qed.

(** ** C50 (refuted): copying a mesh with other groups gives a mesh whose adjacency does not depend on whether
    the original's adjacency had been queried before. *)
Theorem C50_copy_history_independent_refuted :
  exists (m : mesh nat unit nat) groups qs s' q,
    ask_all (fun l => l) tt (fun l => l) qs (m, (0, 0)) = ([AFacial (Ok [[Boundary 0 TAll [(0, 0); (0, 1); (0, 2)]; Boundary 0 TNone []; Boundary 0 TReallyAll [(0, 0); (0, 1); (0, 2)]]])], s') /\
    fresh_answer (fun l => l) tt (fun l => l) (copy_with (Some groups) None (fst s')) q <>
    fresh_answer (fun l => l) tt (fun l => l) (copy_with (Some groups) None m) q.
Proof.
  exists (mk_mesh [mk_egroup (Some [[0; 1; 2]]) [7] tri_faces] (Some [0; 1; 2; 3]) (Some true) Pending Pending 0 0 0),
    [mk_egroup (Some [[0; 1; 2]; [1; 3; 2]]) [7; 8] tri_faces], [QFacial].
  eexists. exists QFacial. split; [vm_compute; reflexivity|]. vm_compute. discriminate.
Qed.
Print Assumptions C50_copy_history_independent_refuted.

(** ** C51: the program written by as_python recreates an equal mesh.  Partial: only for meshes whose boundary groups
    carry the tags BTAG_NONE, BTAG_ALL, BTAG_REALLY_ALL; the face id dtype is not compared by ==. *)
Theorem C51_as_python_partial {E A V} ord (aff_id : A) tag_order vertices (groups : list (egroup E)) nodal facial conf vd ed fd
    (m : mesh E A V) qs l s' dfd :
  make_mesh vertices groups nodal facial conf vd ed fd = Ok m ->
  ask_all ord aff_id tag_order qs (m, (0, 0)) = (l, s') ->
  (forall f lst b t, m_facial (fst s') = Available f -> In lst f -> In b lst -> bdry_tag b = Some t ->
     t = TNone \/ t = TAll \/ t = TReallyAll) ->
  exists m', run_as_python dfd (fst s') = Ok m' /\ mesh_eq (fst s') m'.
Proof. exact (as_python_roundtrip' ord aff_id tag_order vertices groups nodal facial conf vd ed fd m qs l s' dfd). Qed.
Print Assumptions C51_as_python_partial.

(** With any other boundary tag the program cannot be run: the tag's name is not imported. *)
Theorem C51_as_python_refuted :
  exists (m : mesh nat unit nat),
    make_mesh (Some [0; 1; 2]) [mk_egroup (Some [[0; 1; 2]]) [7] tri_faces] Pending
      (Available [[Boundary 0 (TPartition 1) [(0, 0)]]]) (Some true) 0 0 0 = Ok m /\
    run_as_python 0 m = Err NameError.
Proof. eexists. split; vm_compute; reflexivity. Qed.
Print Assumptions C51_as_python_refuted.

Example C51_example : exists s' m', 
  ask_all (fun l => l) tt (fun l => l) [QFacial; QNodal] (ex_mesh, (0, 0)) = s' /\
  run_as_python 3 (fst (snd s')) = Ok m' /\
  (exists f, m_facial m' = Available f /\ length f = 2) /\ m_fdtype m' = 3.
Proof.
  eexists. eexists. split; [vm_compute; reflexivity|]. split; [vm_compute; reflexivity|].
  split; [eexists; split; reflexivity|reflexivity].
Qed.
