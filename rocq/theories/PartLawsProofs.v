(** * PartLawsProofs: what the result of partition_mesh does not depend on. *)
From Coq Require Import List Arith Bool ZArith Lia.
From Verif Require Import Np NpFacts MeshModel MeshSpec MeshProofs MeshStateModel PartModel PartSpec PartProofs LawsSpec.
Import ListNotations.

Lemma g2p_garbage g1 g2 n parts : valid_partition n parts -> length g1 = n -> length g2 = n -> global_elem_to_part_elem g1 parts = global_elem_to_part_elem g2 parts.
Proof.
  intros HV H1 H2. destruct (g2p_spec g1 n parts HV H1) as (a & -> & La & Ha). destruct (g2p_spec g2 n parts HV H2) as (b & -> & Lb & Hb). f_equal.
  apply nth_error_ext'. intros e. destruct (nth_error a e) as [(i, k)|] eqn:Ea.
  - apply Ha in Ea. apply Hb in Ea. now symmetry.
  - symmetry. apply nth_error_None. apply nth_error_None in Ea. lia.
Qed.
Lemma mapM_lookup {X} (F : nat -> res X) ps ms : mapM (fun p => m <- F p ;; Ok (p, m)) ps = Ok ms -> forall l, incl l ps ->
  exists ms', mapM (fun p => m <- F p ;; Ok (p, m)) l = Ok ms' /\ map fst ms' = l /\ incl ms' ms.
Proof.
  intros H l. induction l as [|p l IH]; intros Hl; [exists []; repeat split; intros x []|]. destruct IH as (ms' & H1 & H2 & H3); [intros x Hx; apply Hl; now right|].
  assert (Hp : exists m, F p = Ok m /\ In (p, m) ms).
  { assert (Hin : In p ps) by (apply Hl; now left). clear - H Hin. revert ms H. induction ps as [|q ps IH]; intros ms H; [contradiction|]. cbn [mapM] in H.
    apply bind_ok in H as ((q', m) & Hm & H). apply bind_ok in H as (r & Hr & H). injection H as <-. apply bind_ok in Hm as (m0 & Hm0 & [= <- <-]).
    destruct Hin as [->|Hin]; [exists m0; split; [assumption|now left]|]. destruct (IH Hin _ Hr) as (m1 & ? & ?). exists m1. split; [assumption|now right]. }
  destruct Hp as (m & Hm & Hin). exists ((p, m) :: ms'). cbn [mapM]. rewrite Hm. cbn [bind]. rewrite H1. cbn [bind map fst]. split; [reflexivity|]. split; [now rewrite H2|].
  intros x [<-|Hx]; auto.
Qed.

(** ** Naturality *)
Section Natural.
  Context {E E' V V' : Type} (f : E -> E') (h : V -> V').
  Definition rmap {X Y} (k : X -> Y) (r : res X) : res Y := x <- r ;; Ok (k x).

  Lemma nelements_map (gs : list (egroup E)) : map nelements (map (map_group f) gs) = map nelements gs.
  Proof. rewrite map_map. apply map_ext. intros g. unfold map_group, nelements. cbn [eg_nodes]. apply map_length. Qed.
  Lemma get_map {X Y} (k : X -> Y) l i : get (map k l) i = rmap k (get l i).
  Proof. unfold get, rmap. rewrite nth_error_map. now destruct (nth_error l i). Qed.
  Lemma take_map {X Y} (k : X -> Y) l is : take (map k l) is = rmap (map k) (take l is).
  Proof.
    unfold take, rmap. induction is as [|i is IH]; [reflexivity|]. cbn [mapM]. rewrite get_map. unfold rmap. destruct (get l i) as [x|e]; [|reflexivity]. cbn [bind].
    rewrite IH. destruct (mapM (get l) is); reflexivity.
  Qed.
  Lemma mapM_rmap {X Y Z} (F : X -> res Y) (k : Y -> Z) l : mapM (fun x => rmap k (F x)) l = rmap (map k) (mapM F l).
  Proof.
    unfold rmap. induction l as [|x l IH]; [reflexivity|]. cbn [mapM]. destruct (F x) as [y|e]; [|reflexivity]. cbn [bind]. rewrite IH. destruct (mapM F l); reflexivity.
  Qed.
  Lemma mapM_map {X Y Z} (F : Y -> res Z) (k : X -> Y) l : mapM F (map k l) = mapM (fun x => F (k x)) l.
  Proof. induction l as [|x l IH]; [reflexivity|]. cbn [map mapM]. now rewrite IH. Qed.
  Lemma mapM_ext' {X Y} (F G : X -> res Y) l : (forall x, F x = G x) -> mapM F l = mapM G l.
  Proof. intros H. induction l as [|x l IH]; [reflexivity|]. cbn [mapM]. now rewrite H, IH. Qed.
  Lemma combine_map_fst {X Y Z} (k : X -> Y) (l : list X) (r : list Z) : combine (map k l) r = map (fun xz => (k (fst xz), snd xz)) (combine l r).
  Proof. revert r. induction l as [|x l IH]; intros [|z r]; try reflexivity. cbn [map combine fst snd]. now rewrite IH. Qed.
  Lemma enumerate_map {X Y} (k : X -> Y) l : enumerate (map k l) = map (fun ix => (fst ix, k (snd ix))) (enumerate l).
  Proof.
    unfold enumerate, enumerate_from. generalize 0. induction l as [|x l IH]; intros i; [reflexivity|]. cbn. now rewrite IH.
  Qed.

  Lemma filter_natural (groups : list (egroup E)) selected :
    filter_mesh_groups (map (map_group f) groups) selected = rmap (fun gr => (map (map_group f) (fst gr), snd gr)) (filter_mesh_groups groups selected).
  Proof.
    unfold filter_mesh_groups. cbv zeta. rewrite nelements_map, map_length. match goal with |- bind ?x _ = _ => destruct x as [fge|e]; [|reflexivity] end. cbn [bind].
    rewrite combine_map_fst. rewrite mapM_map. cbn [fst snd map_group eg_vi].
    match goal with |- bind ?x _ = rmap _ (bind ?y _) => change x with y; destruct y as [filtered|e]; [|reflexivity] end. cbn [bind].
    destruct (guard _ _) as [[]|e]; [|reflexivity]. cbn [bind]. destruct (unique_inverse _) as (required, inv). destruct inv as [inv|e]; [|reflexivity]. cbn [bind].
    rewrite enumerate_map, mapM_map. cbn [fst snd].
    match goal with |- bind ?x _ = rmap _ (bind (mapM ?F _) _) => replace x with (rmap (map (map_group f)) (mapM F (enumerate (combine groups fge)))) end.
    - unfold rmap. destruct (mapM _ _); reflexivity.
    - symmetry. rewrite <- mapM_rmap. apply mapM_ext'. intros (igrp, (g, els)). cbn [fst snd map_group eg_nodes eg_fvi]. unfold rmap at 1.
      destruct (get _ igrp) as [vi|e]; [|reflexivity]. cbn [bind]. rewrite take_map. unfold rmap. destruct (take (eg_nodes g) els); reflexivity.
  Qed.
  Lemma elem_bases_map (gs : list (egroup E)) : elem_bases (map (map_group f) gs) = elem_bases gs.
  Proof.
    unfold elem_bases. f_equal. generalize (0, @nil nat). induction gs as [|g gs IH]; intros st; [reflexivity|]. cbn [map fold_left]. rewrite IH. f_equal.
    unfold nelements. cbn [map_group eg_nodes]. now rewrite map_length.
  Qed.
  Lemma make_natural {A} vertices groups nodal (facial : lazyf (list (list (fagrp A)))) conforming vd ed fd :
    make_mesh (option_map (map h) vertices) (map (map_group f) groups) nodal facial conforming vd ed fd =
    rmap (map_points f h) (make_mesh vertices groups nodal facial conforming vd ed fd).
  Proof.
    unfold make_mesh, rmap. cbv zeta. replace (match option_map (map h) vertices with None => None | Some _ => conforming end) with (match vertices with None => None | Some _ => conforming end) by now destruct vertices.
    match goal with |- bind ?x _ = bind (bind ?y _) _ => change x with y; destruct y as [ff|e]; reflexivity end.
  Qed.
  Lemma part_natural {A} garbage vertices groups (fags : res (list (list (fagrp A)))) conforming parts self :
    get_mesh_part garbage (option_map (map h) vertices) (map (map_group f) groups) fags conforming parts self =
    rmap (map_points f h) (get_mesh_part garbage vertices groups fags conforming parts self).
  Proof.
    destruct vertices as [vs|]; [|reflexivity]. unfold get_mesh_part. cbn [option_map]. cbv zeta. rewrite !nelements_map, !map_length.
    destruct (element_counts _ _) as [counts|e]; [|reflexivity]. cbn [bind].
    destruct (guard _ _) as [[]|e]; [|reflexivity]. cbn [bind]. destruct (guard _ _) as [[]|e]; [|reflexivity]. cbn [bind].
    destruct (global_elem_to_part_elem _ _) as [g2p|e]; [|reflexivity]. cbn [bind]. destruct (part_lookup _ _) as [selected|e]; [|reflexivity]. cbn [bind].
    rewrite filter_natural. unfold rmap at 1. destruct (filter_mesh_groups groups selected) as [(ng, required)|e]; [|reflexivity]. cbn [bind fst snd].
    destruct (part_index _ _) as [self'|e]; [|reflexivity]. cbn [bind]. rewrite take_map. unfold rmap at 1. destruct (take vs required) as [nvs|e]; [|reflexivity]. cbn [bind].
    destruct fags as [fags|e]; [|reflexivity]. cbn [bind]. destruct (guard _ _) as [[]|e]; [|reflexivity]. cbn [bind]. rewrite elem_bases_map, map_length.
    repeat match goal with |- bind ?x _ = rmap _ (bind ?x _) => destruct x; [|reflexivity]; cbn [bind] end.
    change (Some (map h nvs)) with (option_map (map h) (Some nvs)). apply make_natural.
  Qed.
  Lemma partition_natural {A} garbage vertices groups (fags : res (list (list (fagrp A)))) conforming parts rp :
    partition_mesh garbage (option_map (map h) vertices) (map (map_group f) groups) fags conforming parts rp =
    (ms <- partition_mesh garbage vertices groups fags conforming parts rp ;; Ok (map (fun pm => (fst pm, map_points f h (snd pm))) ms)).
  Proof.
    unfold partition_mesh. cbv zeta. set (l := match rp with None => _ | Some l => l end). clearbody l.
    match goal with |- _ = bind (mapM ?F l) _ => change (mapM (fun p => m <- get_mesh_part (garbage p) (option_map (map h) vertices) (map (map_group f) groups) fags conforming parts p ;; Ok (p, m)) l = rmap (map (fun pm => (fst pm, map_points f h (snd pm)))) (mapM F l)) end.
    rewrite <- mapM_rmap. apply mapM_ext'. intros p. rewrite part_natural. unfold rmap. destruct (get_mesh_part _ _ _ _ _ _ _); reflexivity.
  Qed.
End Natural.

Lemma part_facial {E A V} garbage vertices (groups : list (egroup E)) (fags : res (list (list (fagrp A)))) conforming parts self (m : mesh E A V) :
  get_mesh_part garbage vertices groups fags conforming parts self = Ok m -> exists fa, m_facial m = Available fa.
Proof.
  unfold get_mesh_part. destruct vertices as [vs|]; [|discriminate]. cbv zeta. intros H.
  do 15 (apply bind_ok in H as (? & _ & H); try match type of H with context [let '(_, _) := ?x in _] => destruct x end). unfold make_mesh in H. cbv zeta in H.
  destruct (truthy _); cbn [none_to_false] in H; apply bind_ok in H as (fa & Hfa & H); injection H as <-; cbn [m_facial]; apply bind_ok in Hfa as (f' & _ & [= <-]); eauto.
Qed.
