(** * MergeLawsProps: merging, splitting and cleaning mapped meshes. *)
From Coq Require Import List Arith Bool ZArith Lia.
From Verif Require Import Np NpFacts MeshModel MeshSpec MeshStateModel ProcModel ProcSpec BoxMapProofs LawsSpec PartLawsProofs LawsProps.
Import ListNotations.

Section Natural.
  Context {E E' A V V' : Type} (f : E -> E') (h : V -> V').
  Variable adim : mesh E A V -> nat.
  Variable adim' : mesh E' A V' -> nat.
  Variable same_kind : egroup E -> egroup E -> bool.
  Variable same_kind' : egroup E' -> egroup E' -> bool.
  Notation mp := (@map_points E E' A V V' f h).
  Notation mg := (map_group f).

  Lemma tagged_natural (ms : list (mesh E A V)) bs :
    flat_map (fun mb : mesh E' A V' * nat => map (fun g => (snd mb, g)) (m_groups (fst mb))) (combine (map mp ms) bs) =
    map (fun bg => (fst bg, mg (snd bg))) (flat_map (fun mb : mesh E A V * nat => map (fun g => (snd mb, g)) (m_groups (fst mb))) (combine ms bs)).
  Proof.
    revert bs. induction ms as [|m ms IH]; intros [|b bs]; try reflexivity. cbn [map combine flat_map fst snd]. rewrite IH, map_app. f_equal.
    unfold map_points. cbn [m_groups]. rewrite !map_map. reflexivity.
  Qed.
  Lemma shifted_natural b g : shifted_vi b (mg g) = shifted_vi b g.
  Proof. reflexivity. Qed.
  Lemma forallb_mp (P : mesh E' A V' -> bool) (Q : mesh E A V -> bool) ms : (forall m, In m ms -> P (mp m) = Q m) -> forallb P (map mp ms) = forallb Q ms.
  Proof. induction ms as [|m ms IH]; intros H; [reflexivity|]. cbn [map forallb]. rewrite H, IH; [reflexivity| |now left]. intros x Hx. apply H. now right. Qed.
  Lemma existsb_mp (P : mesh E' A V' -> bool) (Q : mesh E A V -> bool) ms : (forall m, P (mp m) = Q m) -> existsb P (map mp ms) = existsb Q ms.
  Proof. intros H. induction ms as [|m ms IH]; [reflexivity|]. cbn [map existsb]. now rewrite H, IH. Qed.

  Lemma merge_natural single (ms : list (mesh E A V)) : (forall m, In m ms -> adim' (mp m) = adim m) -> (forall a b, same_kind' (mg a) (mg b) = same_kind a b) ->
    merge_disjoint_meshes adim' same_kind' single (map mp ms) = rmap mp (merge_disjoint_meshes adim same_kind single ms).
  Proof using Type.
    intros Hd Hk. destruct ms as [|m0 ms0]; [reflexivity|]. unfold merge_disjoint_meshes. cbn [map]. set (ms := m0 :: ms0) in *. change (mp m0 :: map mp ms0) with (map mp ms).
    rewrite (forallb_mp _ (fun m => adim m =? adim m0)) by (intros m Hm; now rewrite !Hd by (assumption || now left)).
    destruct (guard _ _) as [[]|e]; [|reflexivity]. cbn [bind].
    assert (Hv : mapM (fun m => match m_vertices m with Some vs => Ok vs | None => Err ValueError end) (map mp ms) =
                 rmap (map (map h)) (mapM (fun m => match m_vertices m with Some vs => Ok vs | None => Err ValueError end) ms)).
    { rewrite mapM_map, <- mapM_rmap. apply mapM_ext'. intros m. unfold map_points. cbn [m_vertices]. now destruct (m_vertices m). }
    rewrite Hv. clear Hv. unfold rmap at 1. match goal with |- bind (bind ?y _) _ = _ => destruct y as [vss|e]; [|reflexivity] end. cbn [bind]. cbv zeta.
    assert (Hl : map (@length V') (map (map h) vss) = map (@length V) vss) by (rewrite map_map; apply map_ext; intros; apply map_length).
    rewrite Hl, tagged_natural. rewrite !(existsb_mp _ (fun m => negb (is_pending (m_nodal m)))) by reflexivity. rewrite !(existsb_mp _ (fun m => negb (is_pending (m_facial m)))) by reflexivity.
    rewrite (forallb_mp _ (fun m => truthy (m_conforming m))) by reflexivity.
    set (tagged := flat_map _ (combine ms _)). clearbody tagged.
    match goal with |- bind ?x _ = rmap _ (bind ?y _) => assert (Hg : x = rmap (map mg) y) end.
    { destruct single.
      - destruct tagged as [|(b, ref) rest]; [reflexivity|]. cbn [map fst snd].
        replace (forallb (fun bg => same_kind' (snd bg) (mg ref)) (map (fun bg : nat * egroup E => (fst bg, mg (snd bg))) rest)) with (forallb (fun bg => same_kind (snd bg) ref) rest)
          by (clear - Hk; induction rest as [|x r IH]; [reflexivity|]; cbn [map forallb fst snd]; now rewrite Hk, IH).
        destruct (guard _ _) as [[]|e]; [|reflexivity]. cbn [bind]. change ((b, mg ref) :: map (fun bg : nat * egroup E => (fst bg, mg (snd bg))) rest) with (map (fun bg : nat * egroup E => (fst bg, mg (snd bg))) ((b, ref) :: rest)).
        rewrite mapM_map. cbn [fst snd]. unfold rmap.
        rewrite (mapM_ext' (fun x : nat * egroup E => shifted_vi (fst x) (mg (snd x))) (fun x => shifted_vi (fst x) (snd x))) by (intros; reflexivity).
        match goal with |- bind ?y _ = _ => destruct y as [vis|e]; [|reflexivity] end. cbn [bind map]. unfold map_group. cbn [eg_vi eg_nodes eg_fvi concat].
        do 3 f_equal. rewrite map_app, concat_map, !map_map. reflexivity.
      - rewrite mapM_map, <- mapM_rmap. apply mapM_ext'. intros (b, g). cbn [fst snd]. rewrite shifted_natural. unfold rmap. destruct (shifted_vi b g) as [vi|e]; reflexivity. }
    rewrite Hg. unfold rmap at 1. match goal with |- bind (bind ?y _) _ = _ => destruct y as [gs|e]; [|reflexivity] end. cbn [bind].
    rewrite <- concat_map. change (Some (map h (concat vss))) with (option_map (map h) (Some (concat vss))). apply make_natural.
  Qed.
End Natural.

(** ** C236: merging mapped meshes gives the merged mesh, mapped *)
Theorem C236_merge_mapped {E E' A V V'} (f : E -> E') (h : V -> V') (adim : mesh E A V -> nat) (adim' : mesh E' A V' -> nat) same_kind same_kind' single ms :
  (forall m, In m ms -> adim' (map_points f h m) = adim m) -> (forall a b, same_kind' (map_group f a) (map_group f b) = same_kind a b) ->
  merge_disjoint_meshes adim' same_kind' single (map (map_points f h) ms) =
  (m <- merge_disjoint_meshes adim same_kind single ms ;; Ok (map_points f h m)).
Proof. apply merge_natural. Qed.
Print Assumptions C236_merge_mapped.

(** Meshes the facial adjacency of which has not been computed *)
Theorem C236_map_mesh {P A} (trivial : A -> bool) (f : P -> P) (adim : mesh (list P) A P -> nat) same_kind single ms m :
  (forall x, In x ms -> maps_free trivial x) -> (forall x, adim (map_points (map f) f x) = adim x) ->
  (forall a b, same_kind (map_group (map f) a) (map_group (map f) b) = same_kind a b) ->
  merge_disjoint_meshes adim same_kind single ms = Ok m ->
  exists ms' m', mapM (map_mesh trivial (map f)) ms = Ok ms' /\ merge_disjoint_meshes adim same_kind single ms' = Ok m' /\
    (m_facial m = Pending -> map_mesh trivial (map f) m = Ok m') /\ (m_facial m <> Pending -> map_mesh trivial (map f) m = Err DataUnavailableError) /\
    ((forall x, In x ms -> m_facial x = Pending /\ m_conforming x = Some true) -> m_facial m = Pending).
Proof.
  intros Hf Hd Hk Hm. exists (map (map_points (map f) f) ms), (map_points (map f) f m). split.
  { rewrite <- (map_id ms) at 1. clear - Hf. induction ms as [|x ms IH]; [reflexivity|]. cbn [map mapM]. rewrite map_mesh_spec by (apply Hf; now left). cbn [bind].
    rewrite IH by (intros y Hy; apply Hf; now right). reflexivity. }
  split; [rewrite (C236_merge_mapped (map f) f adim adim same_kind same_kind single ms (fun x _ => Hd x) Hk), Hm; reflexivity|].
  assert (Hc : m_facial m = Pending \/ m_facial m = Unavailable).
  { unfold merge_disjoint_meshes in Hm. destruct ms as [|m0 ms0]; [discriminate|]. cbv zeta in Hm. apply bind_ok in Hm as (? & _ & Hm). apply bind_ok in Hm as (vss & _ & Hm). apply bind_ok in Hm as (gs & _ & Hm).
    unfold make_mesh in Hm. cbv zeta in Hm. destruct (existsb (fun m => negb (is_pending (m_facial m))) _), (truthy _); cbn [none_to_false bind] in Hm; injection Hm as <-; cbn [m_facial]; auto. }
  split; [intros Hp; rewrite map_mesh_spec; [reflexivity|]; unfold maps_free; now rewrite Hp|]. split.
  { intros Hn. destruct Hc as [Hc|Hc]; [contradiction|]. unfold map_mesh. rewrite Hc. reflexivity. }
  intros Hall. unfold merge_disjoint_meshes in Hm. destruct ms as [|m0 ms0]; [discriminate|]. cbv zeta in Hm. apply bind_ok in Hm as (? & _ & Hm). apply bind_ok in Hm as (vss & _ & Hm). apply bind_ok in Hm as (gs & _ & Hm).
  set (ms := m0 :: ms0) in *. clearbody ms. unfold make_mesh in Hm. cbv zeta in Hm.
  assert (E1 : existsb (fun m => negb (is_pending (m_facial m))) ms = false).
  { clear - Hall. induction ms as [|x ms IH]; [reflexivity|]. cbn [existsb]. rewrite (proj1 (Hall x (or_introl eq_refl))). cbn. apply IH. intros y Hy. apply Hall. now right. }
  assert (E2 : forallb (fun m => truthy (m_conforming m)) ms = true).
  { clear - Hall. induction ms as [|x ms IH]; [reflexivity|]. cbn [forallb]. rewrite (proj2 (Hall x (or_introl eq_refl))). cbn. apply IH. intros y Hy. apply Hall. now right. }
  rewrite E1, E2 in Hm. cbn [truthy none_to_false bind] in Hm. injection Hm as <-. reflexivity.
Qed.
Print Assumptions C236_map_mesh.

(** After facial_adjacency_groups was used on one of the meshes, the merged mesh cannot be mapped; the meshes can be, and then merged *)
Theorem C236_map_merged_refuted : exists (ms ms' : list (mesh (list nat) bool nat)) m m',
  (forall x, In x ms -> maps_free id x /\ m_conforming x = Some true) /\
  mapM (map_mesh id (map S)) ms = Ok ms' /\ merge_disjoint_meshes (fun _ => 1) (fun _ _ => true) false ms' = Ok m' /\
  merge_disjoint_meshes (fun _ => 1) (fun _ _ => true) false ms = Ok m /\ map_mesh id (map S) m = Err DataUnavailableError.
Proof.
  exists [ex_nodes; mk_mesh (m_groups ex_nodes) (Some [5; 7]) (Some true) Pending (Available [[Boundary 0 TAll [(0, 0); (0, 1)]]]) 0 0 0]. eexists _, _, _.
  split; [|repeat (split; [vm_compute; reflexivity|]); vm_compute; reflexivity].
  intros x [<-|[<-|[]]]; (split; [|reflexivity]); [exact I|]. unfold maps_free. cbn [m_facial]. intros l b a [<-|[]] [<-|[]] H. inversion H.
Qed.
Print Assumptions C236_map_merged_refuted.
Example C236_example : maps_free id ex_nodes /\ exists ms' m m', mapM (map_mesh id (map S)) [ex_nodes; ex_nodes] = Ok ms' /\
  merge_disjoint_meshes (fun _ => 1) (fun _ _ => true) true ms' = Ok m' /\ merge_disjoint_meshes (fun _ => 1) (fun _ _ => true) true [ex_nodes; ex_nodes] = Ok m /\
  m_facial m = Pending /\ map_mesh id (map S) m = Ok m' /\ m' <> m /\ m_vertices m' = Some [2; 4; 2; 4] /\ map eg_vi (m_groups m') = [Some [[0; 1]; [2; 3]]].
Proof. split; [exact I|]. do 3 eexists. repeat (split; [vm_compute; reflexivity|]). split; [vm_compute; discriminate|]. split; reflexivity. Qed.

(** ** C237: removing unused vertices and splitting groups commute with mapping *)
Section Natural2.
  Context {E E' A V V' : Type} (f : E -> E') (h : V -> V').
  Notation mp := (@map_points E E' A V V' f h).
  Notation mg := (map_group f).

  Lemma compress_map {X Y} (k : X -> Y) flags l : compress flags (map k l) = map k (compress flags l).
  Proof. unfold compress. revert l. induction flags as [|b fs IH]; intros [|x l]; try reflexivity. cbn [map combine filter fst]. destruct b; cbn [map snd]; now rewrite IH. Qed.
  Lemma remove_natural (m : mesh E A V) : remove_unused_vertices (mp m) = rmap mp (remove_unused_vertices m).
  Proof.
    unfold remove_unused_vertices, map_points at 1. cbn [m_vertices]. destruct (m_vertices m) as [vs|] eqn:Ev; [|reflexivity]. cbn [option_map].
    unfold map_points at 1. cbn [m_groups]. rewrite mapM_map. cbn [map_group eg_vi].
    match goal with |- bind ?x _ = rmap _ (bind ?y _) => change x with y; destruct y as [vis|e]; [|reflexivity] end. cbn [bind].
    destruct (guard _ _) as [[]|e]; [|reflexivity]. cbn [bind]. cbv zeta. rewrite map_length. destruct (scatter _ _) as [flags|e]; [|reflexivity]. cbn [bind].
    unfold map_points at 1. cbn [m_groups]. rewrite combine_map_fst, mapM_map.
    match goal with |- bind ?x _ = rmap _ (bind (mapM ?F ?l) _) => assert (Hg : x = rmap (map mg) (mapM F l)) end.
    { rewrite <- mapM_rmap. apply mapM_ext'. intros (g, vi). cbn [fst snd]. unfold rmap. destruct (mapM _ vi); reflexivity. }
    rewrite Hg. unfold rmap at 1. match goal with |- bind (bind ?y _) _ = _ => destruct y as [gs|e]; [|reflexivity] end. cbn [bind]. rewrite compress_map. reflexivity.
  Qed.

  Definition mst (st : list (egroup E) * list ((nat * Z) * nat)) : list (egroup E') * list ((nat * Z) * nat) := (map mg (fst st), snd st).
  Lemma split_one_natural flags st i b g : split_one flags (mst st) (i, (b, mg g)) = rmap mst (split_one flags st (i, (b, g))).
  Proof.
    unfold split_one. cbn [map_group eg_vi]. destruct (eg_vi g) as [vi|]; [|reflexivity]. cbv zeta.
    assert (Hn : nelements (mg g) = nelements g) by (unfold nelements; cbn [map_group eg_nodes]; apply map_length). rewrite Hn.
    destruct (guard _ _) as [[]|e]; [|reflexivity]. cbn [bind]. unfold rmap. cbn [bind]. f_equal.
    generalize (slice flags b (b + nelements g)). intros gf. generalize (unique_Z gf). intros fl. clear Hn. revert st. induction fl as [|z fl IH]; intros st; [reflexivity|].
    cbn [fold_left]. rewrite <- IH. f_equal. unfold mst. cbn [fst snd map_group eg_nodes eg_fvi]. rewrite map_app, map_length, compress_map. reflexivity.
  Qed.
  Lemma split_natural flags (m : mesh E A V) : split_mesh_groups flags (mp m) = rmap (fun r => (mp (fst r), snd r)) (split_mesh_groups flags m).
  Proof.
    unfold split_mesh_groups. cbv zeta. unfold map_points at 1 2 3 4 5. cbn [m_groups m_vertices m_conforming]. rewrite nelements_map.
    destruct (guard _ _) as [[]|e]; [|reflexivity]. cbn [bind].
    assert (Hf : forall l st, foldM (split_one flags) (map (fun ibg => (fst ibg, (fst (snd ibg), mg (snd (snd ibg))))) l) (mst st) = rmap mst (foldM (split_one flags) l st)).
    { induction l as [|(i, (b, g)) l IH]; intros st; [reflexivity|]. cbn [map foldM fst snd]. rewrite split_one_natural. unfold rmap at 1. destruct (split_one flags st (i, (b, g))) as [st'|e]; [|reflexivity]. cbn [bind]. apply IH. }
    replace (enumerate (combine (base_element_nrs (map nelements (m_groups m))) (map mg (m_groups m)))) with
      (map (fun ibg : nat * (nat * egroup E) => (fst ibg, (fst (snd ibg), mg (snd (snd ibg))))) (enumerate (combine (base_element_nrs (map nelements (m_groups m))) (m_groups m)))).
    2: { rewrite <- (enumerate_map (fun bg : nat * egroup E => (fst bg, mg (snd bg)))). f_equal. generalize (base_element_nrs (map nelements (m_groups m))). generalize (m_groups m). clear.
         induction l as [|g l IH]; intros [|b bs]; try reflexivity. cbn [combine map fst snd]. now rewrite IH. }
    change (@nil (egroup E'), @nil (nat * Z * nat)) with (mst ([], [])). rewrite Hf. unfold rmap at 1.
    match goal with |- bind (bind ?y _) _ = _ => destruct y as [(gs, sub)|e]; [|reflexivity] end. cbn [bind mst fst snd]. rewrite make_natural. unfold rmap.
    match goal with |- bind (bind ?y _) _ = _ => destruct y as [m'|e]; reflexivity end.
  Qed.
End Natural2.

Theorem C237_remove_mapped {E E' A V V'} (f : E -> E') (h : V -> V') (m : mesh E A V) :
  remove_unused_vertices (map_points f h m) = (m' <- remove_unused_vertices m ;; Ok (map_points f h m')).
Proof. apply remove_natural. Qed.
Print Assumptions C237_remove_mapped.
Theorem C237_split_mapped {E E' A V V'} (f : E -> E') (h : V -> V') flags (m : mesh E A V) :
  split_mesh_groups flags (map_points f h m) = (r <- split_mesh_groups flags m ;; Ok (map_points f h (fst r), snd r)).
Proof. apply split_natural. Qed.
Print Assumptions C237_split_mapped.
Theorem C237_map_mesh {P A} (trivial : A -> bool) (f : P -> P) (m m1 : mesh (list P) A P) : maps_free trivial m -> remove_unused_vertices m = Ok m1 ->
  exists m2 m3, map_mesh trivial (map f) m = Ok m2 /\ remove_unused_vertices m2 = Ok m3 /\ map_mesh trivial (map f) m1 = Ok m3.
Proof.
  intros Hf H1. exists (map_points (map f) f m), (map_points (map f) f m1). split; [now apply map_mesh_spec|]. split; [rewrite C237_remove_mapped, H1; reflexivity|].
  apply map_mesh_spec. assert (Hfa : m_facial m1 = m_facial m).
  { unfold remove_unused_vertices in H1. destruct (m_vertices m); [|discriminate]. cbv zeta in H1. apply bind_ok in H1 as (? & _ & H1). apply bind_ok in H1 as (? & _ & H1). apply bind_ok in H1 as (? & _ & H1). apply bind_ok in H1 as (? & _ & H1). injection H1 as <-. reflexivity. }
  unfold maps_free in *. now rewrite Hfa.
Qed.
Print Assumptions C237_map_mesh.
Example C237_example : exists m1 m2 sub, remove_unused_vertices (map_points S S ex_holes) = Ok m1 /\ m_vertices m1 = Some [12; 15; 16] /\
  split_mesh_groups [4; 7]%Z (map_points (map S) S (mk_mesh [mk_egroup (Some [[0; 1]; [1; 2]]) [[1]; [2]] [[0]; [1]]] (Some [1; 2; 3]) (Some true) Pending Pending 0 0 0 : mesh (list nat) unit nat)) = Ok (m2, sub) /\
  map eg_nodes (m_groups m2) = [[[2]]; [[3]]] /\ sub = [((0, 4%Z), 0); ((0, 7%Z), 1)].
Proof. do 3 eexists. repeat (split; [vm_compute; reflexivity|]). reflexivity. Qed.
