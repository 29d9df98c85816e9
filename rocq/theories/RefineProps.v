(** * RefineProps: properties of refinement *)
From Coq Require Import List Arith Bool ZArith Permutation Lia.
From Verif Require Import Np NpFacts MeshModel MeshSpec MeshProofs MeshStateModel FlipProofs RefineModel RefineSpec RefineProofs TessProofs.
Import ListNotations.

Section RefineProps.
  Context {E A V : Type}.
  Variable tessellation : egroup E -> tess.
  Variable midpoints : egroup E -> nat -> list V.
  Variable child_nodes : egroup E -> nat -> list E.

  (** ** C26: new elements are distributed among the old ones *)
  Theorem C26_refinement_distributes vd ed fd (m0 : mesh E A V) r flags :
    tessellation_ok tessellation midpoints child_nodes -> refinable tessellation m0 ->
    reached tessellation midpoints child_nodes vd ed fd m0 r ->
    length flags = sum (map nelements (m_groups (rf_current r))) ->
    exists r' recs, refine tessellation midpoints child_nodes vd ed fd r flags = Ok r' /\
      rf_previous r' = Some (rf_current r) /\ rf_records r' = Some recs /\
      length (m_groups (rf_current r')) = length (m_groups (rf_current r)) /\ length recs = length (m_groups (rf_current r)) /\
      forall g grp gf, nth_error (m_groups (rf_current r)) g = Some grp -> group_flags (rf_current r) flags g gf ->
        exists grp' mapping, nth_error (m_groups (rf_current r')) g = Some grp' /\ nth_error recs g = Some (tessellation grp, mapping) /\
          group_children tessellation child_nodes gf grp grp' mapping.
  Proof.
    intros Hts Hm Hr Hfl. pose proof (reached_ok _ _ _ _ _ _ _ _ Hts Hm Hr) as Hok.
    destruct (refine_ok _ _ _ vd ed fd r flags Hts Hok Hfl) as (r' & added & recs & H1 & _ & _ & H3 & H4 & _ & _ & H7 & H8 & H9).
    exists r', recs. split; auto. split; auto. split; auto. split; auto. split; auto.
    intros g grp gf Hg Hgf. destruct (H9 g grp gf Hg Hgf) as (grp' & mapping & K1 & K2 & K3 & _). eauto.
  Qed.

  (** A flag array of the wrong length is rejected *)
  Theorem C26_flag_length vd ed fd (r : @refiner E A V) flags :
    length flags <> sum (map nelements (m_groups (rf_current r))) ->
    refine tessellation midpoints child_nodes vd ed fd r flags = Err ValueError.
  Proof. intros H. unfold refine. now rewrite (proj2 (Nat.eqb_neq _ _) H). Qed.

  (** The refined mesh is declared conforming only if the old one was and everything or nothing was refined *)
  Theorem C26_conforming vd ed fd (m0 : mesh E A V) r flags r' :
    tessellation_ok tessellation midpoints child_nodes -> refinable tessellation m0 ->
    reached tessellation midpoints child_nodes vd ed fd m0 r ->
    refine tessellation midpoints child_nodes vd ed fd r flags = Ok r' ->
    (m_conforming (rf_current r') = Some true <->
     m_vertices (rf_current r) <> None /\ m_conforming (rf_current r) = Some true /\
     ((forall f, In f flags -> f = true) \/ (forall f, In f flags -> f = false))).
  Proof.
    intros Hts Hm Hr Hok. pose proof (reached_ok _ _ _ _ _ _ _ _ Hts Hm Hr) as Hrok.
    destruct (Nat.eq_dec (length flags) (sum (map nelements (m_groups (rf_current r))))) as [Hfl|Hfl]; [|rewrite C26_flag_length in Hok by auto; discriminate].
    destruct (refine_ok _ _ _ vd ed fd r flags Hts Hrok Hfl) as (r1 & added & recs & H1 & _ & _ & _ & _ & _ & H6 & _).
    assert (r1 = r') by congruence. subst r1. rewrite H6.
    destruct (m_vertices (rf_current r)) as [vs|]; [|split; [discriminate|intros (H & _); congruence]].
    destruct (m_conforming (rf_current r)) as [[|]|]; [|split; [discriminate|intros (_ & H & _); discriminate]|split; [discriminate|intros (_ & H & _); discriminate]].
    rewrite <- (forallb_forall (fun f => f) flags).
    assert (En : (forall f, In f flags -> f = false) <-> forallb negb flags = true).
    { rewrite forallb_forall. split; intros H f Hf; specialize (H f Hf); destruct f; auto. }
    rewrite En. split.
    - intros [= H]. apply orb_true_iff in H. split; [discriminate|auto].
    - intros (_ & _ & H). f_equal. now apply orb_true_iff.
  Qed.

  (** ** C27: edge midpoints are shared

      For elements with straight edges and calls that flag elements of one group each: there is a single table of edge midpoints,
      with one vertex per edge located half way, that every call on the refiner follows *)
  Theorem C27_midpoints_shared (corners : E -> list V) (mid : V -> V -> V) vd ed fd (m0 : mesh E A V) fs ms :
    tessellation_ok tessellation midpoints child_nodes -> straight tessellation midpoints child_nodes corners mid ->
    refinable tessellation m0 -> consistent corners m0 ->
    history tessellation midpoints child_nodes vd ed fd (new_refiner m0) fs ms ->
    (forall t m flags, nth_error (m0 :: ms) t = Some m -> nth_error fs t = Some flags -> one_group m flags) ->
    exists M, edge_table M /\
      (forall vs, m_vertices (last ms m0) = Some vs -> located mid M vs) /\
      forall t m m' flags, nth_error (m0 :: ms) t = Some m -> nth_error ms t = Some m' -> nth_error fs t = Some flags ->
        refined_by tessellation child_nodes M flags m m' /\ consistent corners m' /\
        exists vs added, m_vertices m = Some vs /\ m_vertices m' = Some (vs ++ added).
  Proof.
    intros Hts Hst Hm Hc Hh Hone.
    destruct (history_straight tessellation midpoints child_nodes corners mid vd ed fd (new_refiner m0) fs ms Hts Hst) as (d & _ & HN & Hloc & Hall); auto.
    - split; [split; [exact Hm|intros vs _; constructor]|]. split; [exact Hc|]. intros vs _. split; [constructor|intros k v []].
    - exists (table d). split; [now apply table_edge|]. split; [exact Hloc|exact Hall].
  Qed.

  (** ** C28: refinement connection *)
  Theorem C28_connection meq vd ed fd (m0 : mesh E A V) r flags r' m :
    tessellation_ok tessellation midpoints child_nodes -> (forall grp, length (ts_children (tessellation grp)) <> 1) ->
    refinable tessellation m0 -> reached tessellation midpoints child_nodes vd ed fd m0 r ->
    refine tessellation midpoints child_nodes vd ed fd r flags = Ok r' -> meq m (rf_current r) = true ->
    exists conn, make_refinement_connection meq r' m = Ok conn /\ length conn = length (m_groups (rf_current r)) /\
      forall g grp gf, nth_error (m_groups (rf_current r)) g = Some grp -> group_flags (rf_current r) flags g gf ->
        exists grp' mapping bs, nth_error (m_groups (rf_current r')) g = Some grp' /\ nth_error conn g = Some bs /\
          group_children tessellation child_nodes gf grp grp' mapping /\ batches_follow gf (nelements grp') mapping bs.
  Proof.
    intros Hts Hn1 Hm Hr Hok Hq. pose proof (reached_ok _ _ _ _ _ _ _ _ Hts Hm Hr) as Hrok.
    destruct (Nat.eq_dec (length flags) (sum (map nelements (m_groups (rf_current r))))) as [Hfl|Hfl]; [|rewrite C26_flag_length in Hok by auto; discriminate].
    destruct (refine_ok _ _ _ vd ed fd r flags Hts Hrok Hfl) as (r1 & added & recs & H1 & _ & _ & H3 & H4 & _ & _ & H7 & H8 & H9).
    assert (r1 = r') by congruence. subst r1. unfold make_refinement_connection. rewrite H3, H4, Hq. cbn [guard bind].
    assert (Hrec : forall g, g < length recs -> exists grp gf grp' mapping, nth_error (m_groups (rf_current r)) g = Some grp /\ group_flags (rf_current r) flags g gf /\
              nth_error (m_groups (rf_current r')) g = Some grp' /\ nth_error recs g = Some (tessellation grp, mapping) /\ group_children tessellation child_nodes gf grp grp' mapping).
    { intros g Hg. destruct (nth_error (m_groups (rf_current r)) g) as [grp|] eqn:Eg; [|apply nth_error_None in Eg; lia].
      pose proof (slice_flags _ _ _ _ Hfl Eg) as Hgf. destruct (H9 g grp _ Eg Hgf) as (grp' & mapping & K1 & K2 & K3 & _).
      exists grp. eexists. exists grp', mapping. split; auto. split; [exact Hgf|]. auto. }
    destruct (mapM_exists (fun tr : tess * list (list nat) => refinement_batches (length (ts_children (fst tr))) (snd tr)) recs) as (conn & Hconn).
    { intros (ts, mapping) Hin. apply In_nth_error in Hin as (g & Hg).
      destruct (Hrec g) as (grp & gf & grp' & mp & _ & _ & _ & K4 & (K5 & _)); [apply nth_error_Some; congruence|].
      assert (ts = tessellation grp /\ mapping = mp) as (-> & ->) by (split; congruence). cbn [fst snd].
      destruct (refinement_batches_ok _ _ _ _ (Hn1 grp) K5) as (bs & Hbs & _). eauto. }
    rewrite Hconn. exists conn. split; auto. apply mapM_ok in Hconn. split; [rewrite <- (Forall2_length' _ _ _ Hconn); congruence|].
    intros g grp gf Hg Hgf. destruct (H9 g grp gf Hg Hgf) as (grp' & mapping & K1 & K2 & K3 & _).
    destruct (Forall2_nth_error _ _ _ _ _ Hconn K2) as (bs & Hbs & Eb). cbn [fst snd] in Eb.
    destruct (refinement_batches_ok _ _ _ _ (Hn1 grp) (proj1 K3)) as (bs' & Eb' & Hf). assert (bs' = bs) by congruence. subst bs'.
    exists grp', mapping, bs. auto.
  Qed.

  (** The connection is refused for another mesh, and before the first refinement *)
  Theorem C28_wrong_mesh meq (r : @refiner E A V) m :
    (forall p, rf_previous r = Some p -> meq m p = false) -> make_refinement_connection meq r m = Err ValueError.
  Proof.
    intros H. unfold make_refinement_connection. destruct (rf_previous r) as [p|]; auto. destruct (rf_records r); auto. now rewrite (H p eq_refl).
  Qed.

  Theorem C28_new_refiner meq (m m' : mesh E A V) :
    rf_current (new_refiner m) = m /\ rf_previous (new_refiner m) = None /\ make_refinement_connection meq (new_refiner m) m' = Err ValueError.
  Proof. auto. Qed.

  (** ** C67: uniform refinement *)
  Theorem C67_uniform vd ed fd (m : mesh E A V) k wa :
    tessellation_ok tessellation midpoints child_nodes -> refinable tessellation m -> (wa = true -> m_conforming m = Some true) ->
    exists m', refine_uniformly tessellation midpoints child_nodes vd ed fd m k wa = Ok m' /\
      length (m_groups m') = length (m_groups m) /\
      (forall g grp, nth_error (m_groups m) g = Some grp -> exists grp', nth_error (m_groups m') g = Some grp' /\
         nelements grp' = nelements grp * length (ts_children (tessellation grp)) ^ k) /\
      (m_vertices m <> None -> m_conforming m' = m_conforming m).
  Proof.
    intros Hts Hm Hwa. unfold refine_uniformly.
    assert (Hg : negb wa || truthy (m_conforming m) = true) by (destruct wa; auto; cbn [negb orb]; rewrite Hwa by auto; reflexivity).
    rewrite Hg. cbn [guard]. okstep.
    assert (G : forall k (r : @refiner E A V), refiner_ok tessellation r -> exists r',
              foldM (fun r _ => refine_all tessellation midpoints child_nodes vd ed fd r) (repeat tt k) r = Ok r' /\
              length (m_groups (rf_current r')) = length (m_groups (rf_current r)) /\
              (forall g grp, nth_error (m_groups (rf_current r)) g = Some grp -> exists grp', nth_error (m_groups (rf_current r')) g = Some grp' /\
                 nelements grp' = nelements grp * length (ts_children (tessellation grp)) ^ k) /\
              (m_vertices (rf_current r) <> None -> m_conforming (rf_current r') = m_conforming (rf_current r))).
    { clear k Hg Hwa Hm m. induction k as [|k IH]; intros r Hr.
      - exists r. cbn [repeat foldM]. split; auto. split; auto. split; auto. intros g grp Hg. exists grp. split; auto. cbn. lia.
      - set (flags := repeat true (sum (map nelements (m_groups (rf_current r))))).
        destruct (refine_ok _ _ _ vd ed fd r flags Hts Hr) as (r1 & added & recs & H1 & H2 & _ & _ & _ & H5 & H6 & H7 & H8 & H9); [apply repeat_length|].
        destruct (IH r1 H2) as (r' & Hf & Hl & Hn & Hc). exists r'. split; [cbn [repeat foldM]; unfold refine_all at 1; fold flags; rewrite H1; exact Hf|].
        split; [congruence|]. split.
        + intros g grp Eg. destruct (H9 g grp _ Eg (slice_flags _ _ _ _ (repeat_length _ _) Eg)) as (grp1 & mapping & K1 & K2 & (Kd & _ & _ & Kf) & _).
          destruct (Hn g grp1 K1) as (grp' & K3 & K4). exists grp'. split; auto. rewrite K4.
          destruct Hts as (_ & Hshape & _). rewrite (Hshape grp1 grp Kf).
          assert (Hcnt : nelements grp1 = nelements grp * length (ts_children (tessellation grp))).
          { destruct Kd as (D1 & D2 & D3). set (gf := slice _ _ _) in *.
            assert (Hgfl : length gf = nelements grp).
            { unfold gf. rewrite slice_length; [lia|]. unfold flags. rewrite repeat_length. apply base_bound; auto. }
            assert (Hall : forall i f, nth_error gf i = Some f -> f = true).
            { intros i f Hi. unfold gf in Hi. rewrite nth_error_slice in Hi. destruct (_ <? _); [|discriminate]. unfold flags in Hi. apply nth_error_In in Hi.
              now apply repeat_spec in Hi. }
            assert (HL : length (concat mapping) = length mapping * length (ts_children (tessellation grp))).
            { assert (HF : Forall (fun ch => length ch = length (ts_children (tessellation grp))) mapping).
              { apply Forall_forall. intros ch Hin. apply In_nth_error in Hin as (i & Hi).
                destruct (nth_error gf i) as [f|] eqn:Ef; [|apply nth_error_None in Ef; assert (i < length mapping) by (apply nth_error_Some; congruence); lia].
                rewrite (D3 i f ch Ef Hi). now rewrite (Hall i f Ef). }
              clear - HF. induction HF as [|ch mapping Hch HF IH]; [reflexivity|]. cbn [concat length]. rewrite app_length, IH, Hch. lia. }
            rewrite D2, seq_length, D1, Hgfl in HL. exact HL. }
          rewrite Hcnt. cbn [Nat.pow]. lia.
        + intros Hv. rewrite Hc by (rewrite H5; destruct (m_vertices (rf_current r)); [discriminate|congruence]). rewrite H6.
          destruct (m_vertices (rf_current r)); [|congruence]. destruct (m_conforming (rf_current r)) as [[|]|]; auto.
          f_equal. apply orb_true_iff. left. apply forallb_forall. intros f Hf0. unfold flags in Hf0. now apply repeat_spec in Hf0. }
    destruct (G k (new_refiner m)) as (r' & Hf & Hrest); [split; [exact Hm|intros vs _; constructor]|].
    rewrite Hf. okstep. exists (rf_current r'). split; auto.
  Qed.

  Theorem C67_needs_conforming vd ed fd (m : mesh E A V) k : m_conforming m <> Some true ->
    refine_uniformly tessellation midpoints child_nodes vd ed fd m k true = Err ValueError.
  Proof. intros H. unfold refine_uniformly. destruct (m_conforming m) as [[|]|]; try congruence; reflexivity. Qed.
End RefineProps.

(** ** C65: tessellation information *)
Theorem C65_tessellation submesh ref2 ref1 : halves ref2 ref1 ->
  Forall (fun c => length c = length ref1 /\ Forall (fun r => r < length ref2) c) (submesh ref2) ->
  exists ts, tessellation_info submesh ref2 ref1 = Ok ts /\ tess_ok ts /\ ts_nref ts = length ref2 /\ ts_children ts = submesh ref2 /\
    length (ts_orig ts) = length ref1 /\
    (forall j r, nth_error (ts_orig ts) j = Some r -> exists a s, nth_error ref1 j = Some a /\ tuple_sum a a s /\ nth_error ref2 r = Some s) /\
    (forall k r a b, nth_error (ts_mid ts) k = Some r -> nth_error (ts_pairs ts) k = Some (a, b) ->
       a < b /\ exists ta tb m, nth_error ref1 a = Some ta /\ nth_error ref1 b = Some tb /\ nth_error ref2 r = Some m /\ tuple_sum ta tb m).
Proof. exact (tessellation_info_ok submesh ref2 ref1). Qed.

(** Simplices and cubes of every dimension have such node tuples *)
Theorem C65_simplex d ref2 ref1 : NoDup ref2 -> NoDup ref1 ->
  (forall t, In t ref2 <-> length t = d /\ sum t <= 2) -> (forall t, In t ref1 <-> length t = d /\ sum t <= 1) -> halves ref2 ref1.
Proof. exact (simplex_halves d ref2 ref1). Qed.

Theorem C65_cube d ref2 ref1 : NoDup ref2 -> NoDup ref1 ->
  (forall t, In t ref2 <-> length t = d /\ Forall (fun x => x <= 2) t) -> (forall t, In t ref1 <-> length t = d /\ Forall (fun x => x <= 1) t) -> halves ref2 ref1.
Proof. exact (cube_halves d ref2 ref1). Qed.

(** ** Straight elements given by their corners *)
Section Demo.
  Definition pt : Type := list Z.
  Definition mid (P Q : pt) : pt := map (fun xy : Z * Z => ((fst xy + snd xy) / 2)%Z) (combine P Q).
  Lemma mid_sym P Q : mid P Q = mid Q P.
  Proof. unfold mid. revert Q; induction P as [|x P IH]; intros [|y Q]; cbn [combine map fst snd]; auto. f_equal; [f_equal; lia|apply IH]. Qed.

  (** an element is given by its corners *)
  Definition at_ (cs : list pt) (i : nat) : pt := match nth_error cs i with Some P => P | None => [] end.
  Definition point (ts : tess) (cs : list pt) (r : nat) : pt :=
    match find (fun jr => snd jr =? r) (enumerate (ts_orig ts)) with
    | Some (j, _) => at_ cs j
    | None => match find (fun kr => snd kr =? r) (enumerate (ts_mid ts)) with
              | Some (k, _) => match nth_error (ts_pairs ts) k with Some (a, b) => mid (at_ cs a) (at_ cs b) | None => [] end
              | None => []
              end
    end.
  Definition mids (ts : tess) (grp : egroup (list pt)) (i : nat) : list pt :=
    match nth_error (eg_nodes grp) i with Some cs => map (fun p => mid (at_ cs (fst p)) (at_ cs (snd p))) (ts_pairs ts) | None => [] end.
  Definition kids (ts : tess) (grp : egroup (list pt)) (i : nat) : list (list pt) :=
    match nth_error (eg_nodes grp) i with Some cs => map (map (point ts cs)) (ts_children ts) | None => [] end.
  Definition corners (cs : list pt) : list pt := cs.

  Lemma demo_tessellation_ok ts : tess_ok ts -> tessellation_ok (fun _ => ts) (mids ts) (kids ts).
  Proof.
    intros H. split; [auto|]. split; [auto|]. intros grp i Hi. unfold mids, kids.
    destruct (nth_error (eg_nodes grp) i) as [cs|] eqn:Ei; [|apply nth_error_None in Ei; unfold nelements in Hi; lia].
    rewrite !map_length. split; auto. symmetry. apply H.
  Qed.

  Lemma demo_straight ts : tess_ok ts -> straight (fun _ => ts) (mids ts) (kids ts) corners mid.
  Proof.
    intros (Hperm & Hmp & Hpr & Hch). split; [exact mid_sym|]. split.
    - intros grp i cs k a b P Q Hi Hk HP HQ. unfold mids, corners in *. rewrite Hi, nth_error_map, Hk. cbn [option_map fst snd]. unfold at_. now rewrite HP, HQ.
    - intros grp i cs c child cn Hi Hl Hc Hcn. unfold kids, corners in *. rewrite Hi, nth_error_map, Hc in Hcn. cbn [option_map] in Hcn. injection Hcn as <-.
      rewrite Forall_forall in Hch. destruct (Hch child (nth_error_In _ _ Hc)) as (_ & Hlt). clear Hc.
      induction Hlt as [|r child Hr _ IH]; cbn [map]; constructor; auto. clear IH.
      unfold point. destruct (find _ (enumerate (ts_orig ts))) as [(j, r')|] eqn:E1.
      + apply find_some in E1 as (Hj & Ej). apply In_enumerate in Hj. cbn [snd] in Ej. apply Nat.eqb_eq in Ej. subst r'.
        left. exists j. split; auto. unfold at_. destruct (nth_error cs j) as [P|] eqn:EP; auto.
        apply nth_error_None in EP. assert (j < length (ts_orig ts)) by (apply nth_error_Some; congruence). lia.
      + assert (Hno : ~ In r (ts_orig ts)).
        { intros Hin. apply In_nth_error in Hin as (j & Hj). assert (Hx : In (j, r) (enumerate (ts_orig ts))) by now apply In_enumerate.
          apply (find_none _ _ E1) in Hx. cbn [snd] in Hx. now rewrite Nat.eqb_refl in Hx. }
        assert (Hin : In r (ts_mid ts)).
        { assert (Hin : In r (ts_orig ts ++ ts_mid ts)) by (apply (Permutation_in _ (Permutation_sym Hperm)), in_seq; lia).
          apply in_app_or in Hin as [|]; [contradiction|auto]. }
        destruct (find _ (enumerate (ts_mid ts))) as [(k, r')|] eqn:E2.
        * apply find_some in E2 as (Hk & Ek). apply In_enumerate in Hk. cbn [snd] in Ek. apply Nat.eqb_eq in Ek. subst r'.
          destruct (nth_error (ts_pairs ts) k) as [(a, b)|] eqn:Ep; [|apply nth_error_None in Ep; assert (k < length (ts_mid ts)) by (apply nth_error_Some; congruence); lia].
          rewrite Forall_forall in Hpr. destruct (Hpr (a, b) (nth_error_In _ _ Ep)) as (Ha & Hb). cbn [fst snd] in Ha, Hb.
          destruct (nth_error cs a) as [P|] eqn:EP; [|apply nth_error_None in EP; lia]. destruct (nth_error cs b) as [Q|] eqn:EQ; [|apply nth_error_None in EQ; lia].
          right. exists k, a, b, P, Q. split; auto. split; auto. split; auto. split; auto. unfold at_. now rewrite EP, EQ.
        * exfalso. apply In_nth_error in Hin as (j & Hj). assert (Hx : In (j, r) (enumerate (ts_mid ts))) by now apply In_enumerate.
          apply (find_none _ _ E2) in Hx. cbn [snd] in Hx. now rewrite Nat.eqb_refl in Hx.
  Qed.

  (** A mesh with vertices [vs] whose elements have straight edges *)
  Definition demo_group (vs : list pt) (vi : list (list nat)) : egroup (list pt) :=
    mk_egroup (Some vi) (map (map (at_ vs)) vi) [].
  Definition demo_mesh (vs : list pt) (vis : list (list (list nat))) : mesh (list pt) unit pt :=
    mk_mesh (map (demo_group vs) vis) (Some vs) (Some true) Pending Pending 0 0 0.

  Lemma demo_consistent vs vis : Forall (Forall (Forall (fun v => v < length vs))) vis -> consistent corners (demo_mesh vs vis).
  Proof.
    intros H. exists vs. split; [reflexivity|]. intros grp i nd vi row Hin Hnd Hvi Hrow. cbn [demo_mesh m_groups] in Hin.
    apply in_map_iff in Hin as (vi0 & <- & Hin). cbn [demo_group eg_vi eg_nodes] in *. injection Hvi as <-.
    rewrite nth_error_map, Hrow in Hnd. injection Hnd as <-. unfold corners.
    rewrite Forall_forall in H. specialize (H vi0 Hin). rewrite Forall_forall in H. specialize (H row (nth_error_In _ _ Hrow)).
    clear - H. induction H as [|v row Hv H IH]; cbn [map]; constructor; auto. unfold at_.
    destruct (nth_error vs v) eqn:E; auto. apply nth_error_None in E. lia.
  Qed.

  Lemma demo_refinable ts vs vis : vis <> [] -> Forall (Forall (fun row => length row = length (ts_orig ts) /\ Forall (fun v => v < length vs) row)) vis ->
    refinable (fun _ => ts) (demo_mesh vs vis).
  Proof.
    intros Hne H. split; [destruct vis; [congruence|discriminate]|]. intros vs0 grp Hvs Hin. cbn [demo_mesh m_vertices m_groups] in *. injection Hvs as <-.
    apply in_map_iff in Hin as (vi & <- & Hin). exists vi. split; [reflexivity|]. split; [unfold nelements; cbn [demo_group eg_nodes]; now rewrite map_length|].
    rewrite Forall_forall in H. auto.
  Qed.
End Demo.

Ltac decide_tess := 
  split; [|split; [reflexivity|split; [repeat constructor; cbn; lia|repeat constructor; cbn; lia]]];
  apply NoDup_Permutation; [repeat (constructor; [cbn [In]; intros H; repeat (destruct H as [H|H]; [discriminate|]); exact H|]); constructor|apply seq_NoDup|
    intros x; cbn [app In seq ts_orig ts_mid ts_nref]; tauto].

(** Triangles: node tuples of modepy, four children *)
Definition tri_ref2 := [[0; 0]; [1; 0]; [2; 0]; [0; 1]; [1; 1]; [0; 2]].
Definition tri_ref1 := [[0; 0]; [1; 0]; [0; 1]].
Definition tri_children : list (list nat) := [[0; 1; 3]; [1; 2; 4]; [3; 4; 5]; [4; 3; 1]].
Definition tri : tess := mk_tess tri_children 6 [0; 2; 5] [1; 3; 4] [(0, 1); (0, 2); (1, 2)].

Example C65_triangle : tessellation_info (fun _ => tri_children) tri_ref2 tri_ref1 = Ok tri.
Proof. vm_compute. reflexivity. Qed.

Example C65_example : halves tri_ref2 tri_ref1.
Proof.
  apply halves_from with (d := 2).
  - repeat constructor; cbn [In tri_ref2]; intuition discriminate.
  - repeat constructor; cbn [In tri_ref1]; intuition discriminate.
  - cbn [In tri_ref1]. intuition (subst; reflexivity).
  - intros a s Ha Hs. apply double_sum in Hs. subst s. cbn [In tri_ref1] in Ha. intuition (subst a; cbn; auto 10).
  - intros m Hm.
    assert (G : exists a b, In a tri_ref1 /\ In b tri_ref1 /\ m = map (fun xy => fst xy + snd xy) (combine a b) /\ length a = 2 /\ length b = 2).
    { cbn [In tri_ref2] in Hm. destruct Hm as [<-|[<-|[<-|[<-|[<-|[<-|[]]]]]]].
      - exists [0; 0], [0; 0]. cbn; auto 10.
      - exists [0; 0], [1; 0]. cbn; auto 10.
      - exists [1; 0], [1; 0]. cbn; auto 10.
      - exists [0; 0], [0; 1]. cbn; auto 10.
      - exists [1; 0], [0; 1]. cbn; auto 10.
      - exists [0; 1], [0; 1]. cbn; auto 10. }
    destruct G as (a & b & Ha & Hb & -> & La & Lb). exists a, b. split; auto. split; auto.
    destruct a as [|x [|y [|? ?]]]; try discriminate. destruct b as [|x' [|y' [|? ?]]]; try discriminate. cbn. repeat constructor.
Qed.

Lemma tri_ok : tess_ok tri.
Proof. unfold tri, tri_children. decide_tess. Qed.

(** Two triangles of a square sharing the edge 1-2; first one is refined, then everything *)
Definition sq_vertices : list pt := [[0; 0]; [8; 0]; [0; 8]; [8; 8]]%Z.
Definition sq_mesh := demo_mesh sq_vertices [[[0; 1; 2]; [3; 2; 1]]].

Definition rows_of (m : mesh (list pt) unit pt) : list (option (list (list nat))) := map eg_vi (m_groups m).

Example C26_example : exists r r',
  refine (fun _ => tri) (mids tri) (kids tri) 0 0 0 (new_refiner sq_mesh) [true; false] = Ok r /\
  rf_records r = Some [(tri, [[0; 1; 2; 3]; [4]])] /\ rows_of (rf_current r) = [Some [[0; 4; 5]; [4; 1; 6]; [5; 6; 2]; [6; 5; 4]; [3; 2; 1]]] /\
  refine (fun _ => tri) (mids tri) (kids tri) 0 0 0 r [false; false; false; false; true] = Ok r' /\
  rows_of (rf_current r') = [Some [[0; 4; 5]; [4; 1; 6]; [5; 6; 2]; [6; 5; 4]; [3; 7; 8]; [7; 2; 6]; [8; 6; 1]; [6; 8; 7]]] /\
  m_vertices (rf_current r') = Some (sq_vertices ++ [[4; 0]; [0; 4]; [4; 4]; [4; 8]; [8; 4]]%Z) /\
  make_refinement_connection (fun _ _ => true) r sq_mesh =
    Ok [[mk_rbatch 0 [1] [4]; mk_rbatch 1 [0] [0]; mk_rbatch 2 [0] [1]; mk_rbatch 3 [0] [2]; mk_rbatch 4 [0] [3]]].
Proof. eexists _, _. split; [vm_compute; reflexivity|]. split; [reflexivity|]. split; [reflexivity|]. split; [vm_compute; reflexivity|]. split; [reflexivity|]. split; [reflexivity|]. vm_compute. reflexivity. Qed.

Example C27_example :
  tessellation_ok (fun _ => tri) (mids tri) (kids tri) /\ straight (fun _ => tri) (mids tri) (kids tri) corners mid /\
  refinable (fun _ => tri) sq_mesh /\ consistent corners sq_mesh /\
  exists ms, history (fun _ => tri) (mids tri) (kids tri) 0 0 0 (new_refiner sq_mesh) [[true; false]; [false; false; false; false; true]] ms /\ length ms = 2.
Proof.
  split; [exact (demo_tessellation_ok tri tri_ok)|]. split; [exact (demo_straight tri tri_ok)|]. split.
  { apply demo_refinable; [discriminate|]. repeat constructor; cbn; lia. }
  split; [apply demo_consistent; repeat constructor; cbn; lia|].
  eexists. split; [|shelve]. eapply history_cons; [vm_compute; reflexivity|]. eapply history_cons; [vm_compute; reflexivity|]. apply history_nil.
  Unshelve. reflexivity.
Qed.

Example C67_example : exists m', refine_uniformly (fun _ => tri) (mids tri) (kids tri) 0 0 0 sq_mesh 2 true = Ok m' /\
  map nelements (m_groups m') = [32] /\ m_conforming m' = Some true.
Proof. eexists. split; [vm_compute; reflexivity|]. split; reflexivity. Qed.

(** ** C68: several groups in one call *)
Definition line : tess := mk_tess [[0; 1]; [1; 2]] 3 [0; 2] [1] [(0, 1)].
Lemma line_ok : tess_ok line.
Proof. unfold line. decide_tess. Qed.

(** Two groups with one interval each: the new vertices of both get the number 3, so that the mesh is no longer consistent *)
Definition two_groups := demo_mesh [[0]; [4]; [8]]%Z [[[0; 1]]; [[1; 2]]].

Theorem C68_two_groups_refuted : exists (ts : tess) (m : mesh (list pt) unit pt) flags r',
  tess_ok ts /\ refinable (fun _ => ts) m /\ consistent corners m /\ straight (fun _ => ts) (mids ts) (kids ts) corners mid /\
  refine (fun _ => ts) (mids ts) (kids ts) 0 0 0 (new_refiner m) flags = Ok r' /\ ~ consistent corners (rf_current r').
Proof.
  exists line, two_groups, [true; true]. eexists. split; [exact line_ok|]. split.
  { apply demo_refinable; [discriminate|]. repeat constructor; cbn; lia. }
  split; [apply demo_consistent; repeat constructor; cbn; lia|]. split; [exact (demo_straight line line_ok)|].
  split; [vm_compute; reflexivity|]. intros (vs & Hvs & H). cbn [rf_current m_vertices] in Hvs. injection Hvs as <-.
  specialize (H _ 0 _ _ _ (or_intror (or_introl eq_refl)) eq_refl eq_refl eq_refl). cbn in H.
  inversion_clear H as [|? ? ? ? _ H']. inversion_clear H' as [|? ? ? ? H _]. cbn in H. discriminate.
Qed.

(** ** C66: hexahedra *)
Definition hex_ref1 : list (list nat) := [[0;0;0]; [1;0;0]; [0;1;0]; [1;1;0]; [0;0;1]; [1;0;1]; [0;1;1]; [1;1;1]].
Definition hex_ref2 : list (list nat) := flat_map (fun z => flat_map (fun y => map (fun x => [x; y; z]) (seq 0 3)) (seq 0 3)) (seq 0 3).
Definition hex_children : list (list nat) :=
  map (fun o => map (fun q => nth 0 o 0 + nth 0 q 0 + 3 * (nth 1 o 0 + nth 1 q 0) + 9 * (nth 2 o 0 + nth 2 q 0)) hex_ref1) hex_ref1.
Definition hex : tess := Eval vm_compute in match tessellation_info (fun _ => hex_children) hex_ref2 hex_ref1 with Ok t => t | Err _ => mk_tess [] 0 [] [] [] end.

Example hex_info : tessellation_info (fun _ => hex_children) hex_ref2 hex_ref1 = Ok hex.
Proof. vm_compute. reflexivity. Qed.

(** Two cubes on top of each other.  The upper one is numbered so that its bottom face starts at another corner *)
Definition cubes := demo_mesh [[0;0;0]; [8;0;0]; [0;8;0]; [8;8;0]; [0;0;8]; [8;0;8]; [0;8;8]; [8;8;8]; [0;0;16]; [8;0;16]; [0;8;16]; [8;8;16]]%Z
  [[[0;1;2;3;4;5;6;7]; [5;7;4;6;9;11;8;10]]].

Theorem C66_face_centres_refuted : exists (ts : tess) (m m' : mesh (list pt) unit pt) vs v v' P,
  tessellation_info (fun _ => hex_children) hex_ref2 hex_ref1 = Ok ts /\
  tess_ok ts /\ refinable (fun _ => ts) m /\ consistent corners m /\ straight (fun _ => ts) (mids ts) (kids ts) corners mid /\
  (forall vs0, m_vertices m = Some vs0 -> NoDup vs0) /\ m_conforming m = Some true /\
  refine_uniformly (fun _ => ts) (mids ts) (kids ts) 0 0 0 m 1 true = Ok m' /\ m_conforming m' = Some true /\
  m_vertices m' = Some vs /\ v <> v' /\ nth_error vs v = Some P /\ nth_error vs v' = Some P.
Proof.
  assert (Hok : tess_ok hex) by (unfold hex; decide_tess).
  exists hex, cubes. eexists _, _, 28, 31, _. split; [exact hex_info|]. split; [exact Hok|]. split.
  { apply demo_refinable; [discriminate|]. repeat constructor; cbn; lia. }
  split; [apply demo_consistent; repeat constructor; cbn; lia|]. split; [exact (demo_straight hex Hok)|].
  split.
  { intros vs0 H. cbn [cubes demo_mesh m_vertices] in H. injection H as <-. repeat constructor; cbn [In]; intuition discriminate. }
  split; [reflexivity|]. split; [vm_compute; reflexivity|]. split; [reflexivity|]. split; [reflexivity|]. split; [discriminate|]. split; vm_compute; reflexivity.
Qed.

Print Assumptions C26_refinement_distributes.
Print Assumptions C26_flag_length.
Print Assumptions C26_conforming.
Print Assumptions C27_midpoints_shared.
Print Assumptions C28_connection.
Print Assumptions C28_wrong_mesh.
Print Assumptions C28_new_refiner.
Print Assumptions C65_tessellation.
Print Assumptions C65_simplex.
Print Assumptions C65_cube.
Print Assumptions C66_face_centres_refuted.
Print Assumptions C67_uniform.
Print Assumptions C67_needs_conforming.
Print Assumptions C68_two_groups_refuted.
