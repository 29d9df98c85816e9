(** * QueryLawsProps: queries about mapped meshes. *)
From Coq Require Import List Arith Bool ZArith Lia.
From Verif Require Import Np NpFacts MeshModel MeshSpec MeshProofs CompletionProofs MeshExamples MeshStateModel ProcModel ProcSpec BoxMapProofs LawsSpec PartLawsProofs ProcProps LawsProps.
Import ListNotations.

Section Natural.
  Context {E E' A V V' : Type} (f : E -> E') (h : V -> V').
  Notation mp := (@map_points E E' A V V' f h).
  Notation mg := (map_group f).

  Lemma nelements_mg (g : egroup E) : nelements (mg g) = nelements g.
  Proof. unfold nelements. cbn [map_group eg_nodes]. apply map_length. Qed.
  Lemma fvi_mg (gs : list (egroup E)) : map eg_fvi (map mg gs) = map eg_fvi gs.
  Proof. rewrite map_map. reflexivity. Qed.
  Lemma mesh_rows_mg (gs : list (egroup E)) : mesh_rows (map mg gs) = mesh_rows gs.
  Proof.
    unfold mesh_rows. cbv zeta. rewrite nelements_map, map_length. destruct (_ =? _); [|reflexivity]. f_equal. generalize (base_element_nrs (map nelements gs)).
    induction gs as [|g gs IH]; intros [|b bs]; try reflexivity. cbn [map combine mapM fst snd]. rewrite IH. unfold group_rows at 1. rewrite nelements_mg. reflexivity.
  Qed.
  Lemma nodal_mg ord nv (gs : list (egroup E)) : compute_nodal_adjacency ord nv (map mg gs) = compute_nodal_adjacency ord nv gs.
  Proof. unfold compute_nodal_adjacency. now rewrite mesh_rows_mg, nelements_map. Qed.
  Lemma face_column_mg vmap (gs : list (egroup E)) maxfv fid : face_column vmap (map mg gs) maxfv fid = face_column vmap gs maxfv fid.
  Proof. destruct fid as ((g, e), k). unfold face_column. rewrite nth_error_map. destruct (nth_error gs g); reflexivity. Qed.
  Lemma match_faces_mg vmap (gs : list (egroup E)) fids : match_faces vmap (map mg gs) fids = match_faces vmap gs fids.
  Proof.
    unfold match_faces. cbv zeta. rewrite fvi_mg. replace (forallb (fun g => match eg_vi g with Some _ => true | None => false end) (map mg gs)) with (forallb (fun g : egroup E => match eg_vi g with Some _ => true | None => false end) gs)
      by (clear; induction gs as [|g gs IH]; [reflexivity|]; cbn [map forallb]; now rewrite IH).
    now rewrite (mapM_ext' (face_column vmap (map mg gs) _) (face_column vmap gs (list_max0 (map (@length nat) (concat (map eg_fvi gs))))) fids (face_column_mg vmap gs _)).
  Qed.
  Lemma face_ids_mg (gs : list (egroup E)) : all_face_ids (map mg gs) = all_face_ids gs.
  Proof. unfold all_face_ids. rewrite enumerate_map, map_map. f_equal. apply map_ext. intros (i, g). cbn [fst snd]. unfold group_face_ids. now rewrite nelements_mg. Qed.
  Lemma facial_group_mg (aff_id : A) tag_order tm pairs i g : facial_group aff_id tag_order tm pairs i (mg g) = facial_group aff_id tag_order tm pairs i g.
  Proof. unfold facial_group, boundary_groups. rewrite nelements_mg. reflexivity. Qed.
  Lemma facial_mg (aff_id : A) tag_order tm (gs : list (egroup E)) : compute_facial_adjacency aff_id tag_order tm (map mg gs) = compute_facial_adjacency aff_id tag_order tm gs.
  Proof.
    destruct gs as [|g0 gs0]; [reflexivity|]. unfold compute_facial_adjacency. cbn [map]. set (gs := g0 :: gs0). change (mg g0 :: map mg gs0) with (map mg gs). cbv zeta.
    rewrite face_ids_mg, match_faces_mg, enumerate_map. destruct (match_faces _ _ _) as [pairs|e]; [|reflexivity]. cbn [bind]. destruct (mapM _ (isort _ _)) as [ids|e]; [|reflexivity]. cbn [bind].
    rewrite mapM_map. cbn [fst snd]. now rewrite (mapM_ext' _ (fun ig => facial_group aff_id tag_order tm ids (fst ig) (snd ig))) by (intros; apply facial_group_mg).
  Qed.

  Variable ord : list nat -> list nat.
  Variable aff_id : A.
  Variable tag_order : list btag -> list btag.
  Definition msq (s : mesh E A V * (nat * nat)) : mesh E' A V' * (nat * nat) := (mp (fst s), snd s).

  Lemma get_nodal_mp s : get_nodal ord (msq s) = (fst (get_nodal ord s), msq (snd (get_nodal ord s))).
  Proof.
    destruct s as ([gs vs co nd fa vd ed fd], (cn, cf)). unfold msq, map_points, get_nodal, nodal_from_vertices. cbn [fst snd m_groups m_vertices m_conforming m_nodal m_facial m_vdtype m_edtype m_fdtype].
    destruct nd; try reflexivity. destruct (truthy co); [|reflexivity]. cbn [negb].
    destruct vs as [vs|]; cbn [option_map]; [|reflexivity]. rewrite nodal_mg, map_length. destruct (compute_nodal_adjacency _ _ _); reflexivity.
  Qed.
  Lemma get_facial_mp s : get_facial aff_id tag_order (msq s) = (fst (get_facial aff_id tag_order s), msq (snd (get_facial aff_id tag_order s))).
  Proof.
    destruct s as ([gs vs co nd fa vd ed fd], (cn, cf)). unfold msq, map_points, get_facial, facial_from_vertices. cbn [fst snd m_groups m_vertices m_conforming m_nodal m_facial m_vdtype m_edtype m_fdtype].
    destruct fa; try reflexivity. destruct (truthy co); [|reflexivity]. cbn [negb]. rewrite facial_mg. destruct (compute_facial_adjacency _ _ _ _); reflexivity.
  Qed.
  Lemma tag_empty_mg (gs : list (egroup E)) (fags : list (list (fagrp A))) t : is_boundary_tag_empty (map mg gs) fags t = is_boundary_tag_empty gs fags t.
  Proof. unfold is_boundary_tag_empty. rewrite enumerate_map, mapM_map. reflexivity. Qed.
  Lemma check_bc_mg (gs : list (egroup E)) (fags : list (list (fagrp A))) tags io tr : check_bc_coverage (map mg gs) fags tags io tr = check_bc_coverage gs fags tags io tr.
  Proof.
    unfold check_bc_coverage. rewrite enumerate_map, mapM_map. cbn [fst snd].
    now rewrite (mapM_ext' _ (fun ig : nat * egroup E => l <- get fags (fst ig) ;; bc_group tags io tr (snd ig) l)) by (intros (i, g); cbn [fst snd]; unfold bc_group; now rewrite nelements_mg).
  Qed.
  Lemma ask_mp q s : ask ord aff_id tag_order q (msq s) = (fst (ask ord aff_id tag_order q s), msq (snd (ask ord aff_id tag_order q s))).
  Proof.
    destruct q as [| |t|t|tags io tr]; cbn [ask].
    - rewrite get_nodal_mp. destruct (get_nodal ord s). reflexivity.
    - rewrite get_facial_mp. destruct (get_facial aff_id tag_order s). reflexivity.
    - rewrite get_facial_mp. destruct (get_facial aff_id tag_order s). reflexivity.
    - rewrite get_facial_mp. destruct (get_facial aff_id tag_order s) as (r, s'). cbn [fst snd]. do 2 f_equal. destruct r as [x|e]; [|reflexivity]. apply tag_empty_mg.
    - change (m_groups (fst (msq s))) with (map mg (m_groups (fst s))). rewrite get_facial_mp.
      assert (H : forall r : res (list (list (fagrp A))), (x <- r ;; check_bc_coverage (map mg (m_groups (fst s))) x tags io tr) = (x <- r ;; check_bc_coverage (m_groups (fst s)) x tags io tr))
        by (intros [x|e]; [apply check_bc_mg|reflexivity]).
      destruct (get_facial aff_id tag_order s) as (r, s'). cbn [fst snd]. rewrite H. destruct tags as [|t tags]; [|reflexivity]. destruct (m_groups (fst s)); reflexivity.
  Qed.
  Lemma ask_all_mp qs s : ask_all ord aff_id tag_order qs (msq s) = (fst (ask_all ord aff_id tag_order qs s), msq (snd (ask_all ord aff_id tag_order qs s))).
  Proof.
    revert s. induction qs as [|q qs IH]; intros s; [reflexivity|]. cbn [ask_all]. rewrite ask_mp. destruct (ask ord aff_id tag_order q s) as (a, s1). cbn [fst snd]. rewrite IH.
    destruct (ask_all ord aff_id tag_order qs s1) as (l, s2). reflexivity.
  Qed.
End Natural.

(** ** C238: adjacency and boundary queries do not depend on the positions of nodes and vertices *)
Theorem C238_queries {E E' A V V'} (f : E -> E') (h : V -> V') ord (aff_id : A) tag_order qs (m : mesh E A V) c :
  exists answers m' c', ask_all ord aff_id tag_order qs (m, c) = (answers, (m', c')) /\
    ask_all ord aff_id tag_order qs (map_points f h m, c) = (answers, (map_points f h m', c')).
Proof.
  destruct (ask_all ord aff_id tag_order qs (m, c)) as (answers, (m', c')) eqn:H. exists answers, m', c'. split; [reflexivity|].
  pose proof (ask_all_mp f h ord aff_id tag_order qs (m, c)) as H'. rewrite H in H'. exact H'.
Qed.
Print Assumptions C238_queries.
(** Computed adjacency has no maps but the trivial one *)
Lemma computed_attached {E A} (aff_id : A) tag_order tm (gs : list (egroup E)) fags l b a :
  compute_facial_adjacency aff_id tag_order tm gs = Ok fags -> In l fags -> In b l -> attached b a -> a = aff_id.
Proof.
  intros H Hl Hb Ha. destruct gs as [|g0 gs0]; [injection H as <-; contradiction|]. unfold compute_facial_adjacency in H. cbv zeta in H.
  apply bind_ok in H as (pairs & _ & H). apply bind_ok in H as (ids & _ & H). apply bind_ok in H as (fs & Hf & H).
  destruct (complete_ok fs) as (r & Hr & Hlen & Hc). rewrite Hr in H. injection H as ->. apply In_nth_error in Hl as (i & Hi).
  destruct (nth_error fs i) as [l0|] eqn:E0; [|apply nth_error_None in E0; assert (i < length fags) by (apply nth_error_Some; congruence); lia].
  destruct (Hc i l0 E0) as (ex & Hx & Hg). rewrite Hi in Hx. injection Hx as ->. apply in_app_or in Hb as [Hb|Hb].
  - apply mapM_ok in Hf. destruct (Forall2_nth_error_r _ _ _ _ _ Hf E0) as ((k, g) & _ & Hk). cbn [fst snd] in Hk. unfold facial_group in Hk. destruct (eg_vi g) as [vi|]; [|discriminate]. cbv zeta in Hk.
    apply bind_ok in Hk as (fhn & _ & Hk). apply bind_ok in Hk as (bd & Hbd & Hk). injection Hk as <-. apply in_app_or in Hb as [Hb|Hb].
    + apply in_map_iff in Hb as (n & <- & _). cbn [attached] in Ha. now symmetry.
    + exfalso. unfold boundary_groups in Hbd. cbv zeta in Hbd. destruct (_ =? 0); [injection Hbd as <-; contradiction|]. apply bind_ok in Hbd as (ft & _ & Hbd). injection Hbd as <-. apply in_app_or in Hb as [Hb|Hb].
      * apply in_concat in Hb as (x & Hx & Hb). apply in_map_iff in Hx as (t & <- & _). destruct (_ =? 0); [contradiction|]. destruct Hb as [<-|[]]. exact Ha.
      * destruct (existsb _ _); [|contradiction]. destruct Hb as [<-|[]]. exact Ha.
  - exfalso. destruct (complete_group_spec i l0) as (ex' & Hg' & _ & Hb'). rewrite Hg in Hg'. injection Hg' as Hg'. apply app_inv_head in Hg' as <-. destruct (Hb' b Hb) as (t & fs' & -> & _). exact Ha.
Qed.
Section Free.
  Context {P A : Type} (trivial : A -> bool) (ord : list nat -> list nat) (aff_id : A) (tag_order : list btag -> list btag).
  Lemma get_facial_free (s : mesh (list P) A P * (nat * nat)) : trivial aff_id = true -> maps_free trivial (fst s) -> maps_free trivial (fst (snd (get_facial aff_id tag_order s))).
  Proof using Type.
    intros Ht H. destruct s as (m, (cn, cf)). unfold get_facial. destruct (m_facial m) eqn:Ef; try exact H. destruct (negb _); [exact H|].
    destruct (facial_from_vertices aff_id tag_order m) as [x|e] eqn:Ex; [|exact H]. unfold maps_free. cbn [fst snd m_facial]. intros l b a Hl Hb Ha.
    unfold facial_from_vertices in Ex. now rewrite (computed_attached _ _ _ _ _ _ _ _ Ex Hl Hb Ha).
  Qed.
  Lemma ask_free q (s : mesh (list P) A P * (nat * nat)) : trivial aff_id = true -> maps_free trivial (fst s) -> maps_free trivial (fst (snd (ask ord aff_id tag_order q s))).
  Proof using Type.
    intros Ht H. pose proof (get_facial_free s Ht H) as HF. destruct q as [| |t|t|tags io tr]; cbn [ask].
    - destruct s as (m, (cn, cf)). unfold get_nodal. destruct (m_nodal m); try exact H. destruct (negb _); [exact H|]. destruct (nodal_from_vertices ord m); exact H.
    - destruct (get_facial aff_id tag_order s). exact HF.
    - destruct (get_facial aff_id tag_order s). exact HF.
    - destruct (get_facial aff_id tag_order s). exact HF.
    - destruct (get_facial aff_id tag_order s). destruct tags; [|exact HF]. destruct (m_groups (fst s)); [exact H|exact HF].
  Qed.
  Lemma ask_all_free qs (s : mesh (list P) A P * (nat * nat)) : trivial aff_id = true -> maps_free trivial (fst s) -> maps_free trivial (fst (snd (ask_all ord aff_id tag_order qs s))).
  Proof using Type.
    intros Ht. revert s. induction qs as [|q qs IH]; intros s H; [exact H|]. cbn [ask_all]. pose proof (ask_free q s Ht H) as H1. destruct (ask ord aff_id tag_order q s) as (a, s1). cbn [fst snd] in H1.
    pose proof (IH s1 H1) as H2. destruct (ask_all ord aff_id tag_order qs s1). exact H2.
  Qed.
End Free.

(** Queries before map_mesh and after it have the same answers and lead to the same mesh *)
Theorem C238_map_mesh {P A} (trivial : A -> bool) (f : P -> P) ord (aff_id : A) tag_order qs (m : mesh (list P) A P) c :
  trivial aff_id = true -> maps_free trivial m ->
  exists answers m1 m2 m3 c', ask_all ord aff_id tag_order qs (m, c) = (answers, (m1, c')) /\ map_mesh trivial (map f) m1 = Ok m3 /\
    map_mesh trivial (map f) m = Ok m2 /\ ask_all ord aff_id tag_order qs (m2, c) = (answers, (m3, c')).
Proof.
  intros Ht H0. destruct (C238_queries (map f) f ord aff_id tag_order qs m c) as (answers & m1 & c' & Ha & Hb).
  exists answers, m1, (map_points (map f) f m), (map_points (map f) f m1), c'. split; [exact Ha|]. split; [|split; [now apply map_mesh_spec|exact Hb]].
  apply map_mesh_spec. pose proof (ask_all_free trivial ord aff_id tag_order qs (m, c) Ht H0) as H. rewrite Ha in H. exact H.
Qed.
Print Assumptions C238_map_mesh.
Example C238_example : exists a1 a2 m' c', ask_all id tt id [QFacial; QNodal; QTagEmpty TAll] (map_points S (Nat.mul 3) ex_m, (0, 0)) = ([AFacial (Ok a1); ANodal (Ok a2); ABool (Ok false)], (m', c')) /\
  c' = (1, 1) /\ a1 <> [] /\ m_vertices m' = Some [30; 33; 36; 39; 42; 45] /\ m_facial m' = Available a1.
Proof. do 4 eexists. split; [vm_compute; reflexivity|]. split; [reflexivity|]. split; [discriminate|]. split; reflexivity. Qed.
