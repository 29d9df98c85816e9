(** * Proofs about the lazily caching mesh object. *)
From Coq Require Import List Arith Bool ZArith Lia Permutation.
From Verif Require Import Np NpFacts MeshModel MeshSpec MeshProofs CompletionProofs MeshStateModel MeshStateSpec.
Import ListNotations.

Local Opaque compute_nodal_adjacency compute_facial_adjacency complete_facial_adjacency.

Section S.
  Context {E A V : Type}.
  Variables (ord : list nat -> list nat) (aff_id : A) (tag_order : list btag -> list btag).

  (** [m'] is [m] with possibly more adjacency filled in, by what a query on [m] would compute. *)
  Definition filled (m m' : mesh E A V) : Prop :=
    m_groups m' = m_groups m /\ m_vertices m' = m_vertices m /\ m_conforming m' = m_conforming m /\
    m_vdtype m' = m_vdtype m /\ m_edtype m' = m_edtype m /\ m_fdtype m' = m_fdtype m /\
    (m_nodal m' = m_nodal m \/
     (m_nodal m = Pending /\ m_conforming m = Some true /\
      exists x, nodal_from_vertices ord m = Ok x /\ m_nodal m' = Available x)) /\
    (m_facial m' = m_facial m \/
     (m_facial m = Pending /\ m_conforming m = Some true /\
      exists x, facial_from_vertices aff_id tag_order m = Ok x /\ m_facial m' = Available x)).

  Lemma filled_refl m : filled m m.
  Proof. unfold filled; auto 10. Qed.

  (** number of computations so far, as implied by the fields *)
  Definition counted (m m' : mesh E A V) (cn cf : nat) : Prop :=
    (forall x, nodal_from_vertices ord m = Ok x -> cn <= 1 /\ (cn = 1 -> m_nodal m' <> Pending)) /\
    (forall x, facial_from_vertices aff_id tag_order m = Ok x -> cf <= 1 /\ (cf = 1 -> m_facial m' <> Pending)) /\
    (m_nodal m <> Pending -> cn = 0) /\ (m_facial m <> Pending -> cf = 0).

  Lemma get_nodal_spec m m' cn cf r s' :
    filled m m' -> counted m m' cn cf ->
    get_nodal ord (m', (cn, cf)) = (r, s') ->
    r = lazy_answer (m_nodal m) (m_conforming m) (nodal_from_vertices ord m) /\
    filled m (fst s') /\ counted m (fst s') (fst (snd s')) (snd (snd s')).
  Proof.
    destruct m as [g v c n f vd ed fd], m' as [g' v' c' n' f' vd' ed' fd'].
    intros (Hg & Hv & Hc & H1 & H2 & H3 & Hn & Hf) HC H. cbn in Hg, Hv, Hc, H1, H2, H3, Hn, Hf. subst.
    unfold get_nodal in H. cbn [m_nodal m_conforming m_groups m_vertices m_facial m_vdtype m_edtype m_fdtype] in *.
    unfold nodal_from_vertices in *. unfold filled, counted, nodal_from_vertices, facial_from_vertices in *.
    cbn [m_nodal m_conforming m_groups m_vertices m_facial m_vdtype m_edtype m_fdtype] in *.
    destruct HC as (C1 & C2 & C3 & C4).
    destruct Hn as [->|(-> & -> & x & Hx & ->)].
    - destruct n as [| |x].
      + inversion H; subst; cbn. split; auto. split; [auto 12|auto].
      + destruct c as [[|]|]; cbn in H.
        * set (comp := match v return res nadj with Some vs => compute_nodal_adjacency ord (Some (length vs)) g | None => Err ValueError end) in *.
          destruct comp as [x|e] eqn:Ec; inversion H; subst; cbn -[Nat.le].
          -- split; auto. split; [repeat split; auto; right; eauto|].
             split; [|split; [exact C2|split; [congruence|exact C4]]].
             intros y Hy. destruct (C1 y Hy) as (L & N). split.
             ++ destruct cn as [|[|cn]]; [lia| |lia]. exfalso. now apply N.
             ++ discriminate.
          -- split; auto. split; [auto 12|]. split; [intros; discriminate|]. split; [exact C2|]. split; [congruence|exact C4].
        * inversion H; subst; cbn. split; auto. split; [auto 12|auto].
        * inversion H; subst; cbn. split; auto. split; [auto 12|auto].
      + inversion H; subst; cbn. split; auto. split; [auto 12|auto].
    - inversion H; subst; cbn. split; [now symmetry|].
      split; [repeat split; auto; right; eauto|]. split; [|split; [exact C2|split; [exact C3|exact C4]]].
      intros y Hy. destruct (C1 y Hy). split; auto.
  Qed.

  Lemma get_facial_spec m m' cn cf r s' :
    filled m m' -> counted m m' cn cf ->
    get_facial aff_id tag_order (m', (cn, cf)) = (r, s') ->
    r = lazy_answer (m_facial m) (m_conforming m) (facial_from_vertices aff_id tag_order m) /\
    filled m (fst s') /\ counted m (fst s') (fst (snd s')) (snd (snd s')).
  Proof.
    destruct m as [g v c n f vd ed fd], m' as [g' v' c' n' f' vd' ed' fd'].
    intros (Hg & Hv & Hc & H1 & H2 & H3 & Hn & Hf) HC H. cbn in Hg, Hv, Hc, H1, H2, H3, Hn, Hf. subst.
    unfold get_facial in H. cbn [m_nodal m_conforming m_groups m_vertices m_facial m_vdtype m_edtype m_fdtype] in *.
    unfold filled, counted, nodal_from_vertices, facial_from_vertices in *.
    cbn [m_nodal m_conforming m_groups m_vertices m_facial m_vdtype m_edtype m_fdtype] in *.
    destruct HC as (C1 & C2 & C3 & C4).
    destruct Hf as [->|(-> & -> & x & Hx & ->)].
    - destruct f as [| |x].
      + inversion H; subst; cbn. split; auto. split; [auto 12|auto].
      + destruct c as [[|]|]; cbn in H.
        * set (comp := compute_facial_adjacency aff_id tag_order None g) in *.
          destruct comp as [x|e] eqn:Ec; inversion H; subst; cbn -[Nat.le].
          -- split; auto. split; [repeat split; auto; right; eauto|].
             split; [exact C1|split; [|split; [exact C3|congruence]]].
             intros y Hy. destruct (C2 y Hy) as (L & N). split.
             ++ destruct cf as [|[|cf]]; [lia| |lia]. exfalso. now apply N.
             ++ discriminate.
          -- split; auto. split; [auto 12|]. split; [exact C1|]. split; [intros; discriminate|]. split; [exact C3|congruence].
        * inversion H; subst; cbn. split; auto. split; [auto 12|auto].
        * inversion H; subst; cbn. split; auto. split; [auto 12|auto].
      + inversion H; subst; cbn. split; auto. split; [auto 12|auto].
    - inversion H; subst; cbn. split; [now symmetry|].
      split; [repeat split; auto; right; eauto|]. split; [exact C1|split; [|split; [exact C3|exact C4]]].
      intros y Hy. destruct (C2 y Hy). split; auto.
  Qed.

  Lemma ask_spec m m' cn cf q a s' :
    filled m m' -> counted m m' cn cf -> ask ord aff_id tag_order q (m', (cn, cf)) = (a, s') ->
    a = fresh_answer ord aff_id tag_order m q /\
    filled m (fst s') /\ counted m (fst s') (fst (snd s')) (snd (snd s')).
  Proof.
    intros HF HC H. assert (Hg : m_groups m' = m_groups m) by apply HF.
    destruct q as [| |t|t|tags io tr]; unfold ask in H; cbn [fst] in H.
    - destruct (get_nodal ord (m', (cn, cf))) as (r, s1) eqn:Eg. inversion H; subst.
      destruct (get_nodal_spec _ _ _ _ _ _ HF HC Eg) as (-> & X). auto.
    - destruct (get_facial aff_id tag_order (m', (cn, cf))) as (r, s1) eqn:Eg. inversion H; subst.
      destruct (get_facial_spec _ _ _ _ _ _ HF HC Eg) as (-> & X). auto.
    - destruct (get_facial aff_id tag_order (m', (cn, cf))) as (r, s1) eqn:Eg. inversion H; subst.
      destruct (get_facial_spec _ _ _ _ _ _ HF HC Eg) as (-> & X). auto.
    - destruct (get_facial aff_id tag_order (m', (cn, cf))) as (r, s1) eqn:Eg. inversion H; subst.
      destruct (get_facial_spec _ _ _ _ _ _ HF HC Eg) as (-> & X). rewrite Hg. auto.
    - rewrite Hg in H. cbn [fresh_answer].
      destruct (get_facial aff_id tag_order (m', (cn, cf))) as (r, s1) eqn:Eg.
      destruct (get_facial_spec _ _ _ _ _ _ HF HC Eg) as (-> & X).
      unfold fresh_answer. destruct tags, (m_groups m) eqn:Em; inversion H; subst; cbn [fst snd]; (split; [unfold facial_from_vertices; rewrite ?Em; reflexivity|auto]).
  Qed.

  Lemma ask_all_spec (m : mesh E A V) : forall qs m' cn cf l s',
    filled m m' -> counted m m' cn cf -> ask_all ord aff_id tag_order qs (m', (cn, cf)) = (l, s') ->
    l = map (fresh_answer ord aff_id tag_order m) qs /\
    filled m (fst s') /\ counted m (fst s') (fst (snd s')) (snd (snd s')).
  Proof.
    induction qs as [|q qs IH]; intros m' cn cf l s' HF HC H; cbn in H.
    - inversion H; subst. auto.
    - destruct (ask ord aff_id tag_order q (m', (cn, cf))) as (a, s1) eqn:E1.
      destruct (ask_all ord aff_id tag_order qs s1) as (l2, s2) eqn:E2. inversion H; subst.
      destruct (ask_spec _ _ _ _ _ _ _ HF HC E1) as (-> & F1 & C1).
      destruct s1 as (m1, (cn1, cf1)). destruct (IH _ _ _ _ _ F1 C1 E2) as (-> & F2 & C2). auto.
  Qed.

  Lemma history_independent (m : mesh E A V) qs l s' :
    ask_all ord aff_id tag_order qs (m, (0, 0)) = (l, s') ->
    l = map (fresh_answer ord aff_id tag_order m) qs /\
    (m_groups (fst s') = m_groups m /\ m_vertices (fst s') = m_vertices m /\
     m_conforming (fst s') = m_conforming m /\ m_vdtype (fst s') = m_vdtype m /\
     m_edtype (fst s') = m_edtype m /\ m_fdtype (fst s') = m_fdtype m) /\
    (forall q, fresh_answer ord aff_id tag_order (fst s') q = fresh_answer ord aff_id tag_order m q) /\
    (forall x, nodal_from_vertices ord m = Ok x -> fst (snd s') <= 1) /\
    (forall x, facial_from_vertices aff_id tag_order m = Ok x -> snd (snd s') <= 1) /\
    (m_nodal m <> Pending -> fst (snd s') = 0) /\ (m_facial m <> Pending -> snd (snd s') = 0).
  Proof.
    intros H. destruct (ask_all_spec m qs m 0 0 l s' (filled_refl m)) as (Hl & HF & C1 & C2 & C3 & C4); auto.
    { repeat split; intros; try lia. }
    split; auto. assert (HF' := HF). destruct HF as (Hg & Hv & Hc & H1 & H2 & H3 & Hn & Hf).
    split; [auto 10|]. split.
    - assert (HN : lazy_answer (m_nodal (fst s')) (m_conforming (fst s')) (nodal_from_vertices ord (fst s')) =
                   lazy_answer (m_nodal m) (m_conforming m) (nodal_from_vertices ord m)).
      { unfold nodal_from_vertices in *. rewrite Hc, Hg, Hv. destruct Hn as [->|(E1 & E2 & x & E3 & ->)]; auto.
        rewrite E1, E2. cbn. now symmetry. }
      assert (HFc : lazy_answer (m_facial (fst s')) (m_conforming (fst s'))
                      (compute_facial_adjacency aff_id tag_order None (m_groups (fst s'))) =
                   lazy_answer (m_facial m) (m_conforming m) (compute_facial_adjacency aff_id tag_order None (m_groups m))).
      { unfold facial_from_vertices in *. rewrite Hc, Hg. destruct Hf as [->|(E1 & E2 & x & E3 & ->)]; auto.
        rewrite E1, E2. cbn. now symmetry. }
      intros q. unfold fresh_answer. rewrite HN, HFc, Hg. reflexivity.
    - split; [intros x Hx; apply (C1 x Hx)|]. split; [intros x Hx; apply (C2 x Hx)|auto].
  Qed.
End S.

(** What the arguments of make_mesh imply for the first query *)
Lemma make_mesh_answers {E A V} ord (aff_id : A) tag_order vertices (groups : list (egroup E)) nodal facial conf vd ed fd :
  exists m : mesh E A V, make_mesh vertices groups nodal facial conf vd ed fd = Ok m /\
    m_groups m = groups /\ m_vertices m = vertices /\
    (forall f, facial = Available f ->
       exists f', complete_facial_adjacency f = Ok f' /\ fresh_answer ord aff_id tag_order m QFacial = AFacial (Ok f')) /\
    (forall x, nodal = Available x -> fresh_answer ord aff_id tag_order m QNodal = ANodal (Ok x)) /\
    (facial = Pending -> forall vs, vertices = Some vs -> conf = Some true ->
       fresh_answer ord aff_id tag_order m QFacial = AFacial (compute_facial_adjacency aff_id tag_order None groups)) /\
    (nodal = Pending -> forall vs, vertices = Some vs -> conf = Some true ->
       fresh_answer ord aff_id tag_order m QNodal = ANodal (compute_nodal_adjacency ord (Some (length vs)) groups)) /\
    (facial = Unavailable \/ (facial = Pending /\ (vertices = None \/ conf <> Some true)) ->
       fresh_answer ord aff_id tag_order m QFacial = AFacial (Err DataUnavailableError)) /\
    (nodal = Unavailable \/ (nodal = Pending /\ (vertices = None \/ conf <> Some true)) ->
       fresh_answer ord aff_id tag_order m QNodal = ANodal (Err DataUnavailableError)).
Proof.
  unfold make_mesh. cbv zeta.
  set (conf' := match vertices with Some _ => conf | None => None end).
  assert (Hfac : exists fac', (match none_to_false (truthy conf') facial with
              | Available f => f' <- complete_facial_adjacency f ;; Ok (Available f')
              | o => Ok o end) = Ok fac' /\
      (forall f, facial = Available f -> exists f', complete_facial_adjacency f = Ok f' /\ fac' = Available f') /\
      (facial = Unavailable -> fac' = Unavailable) /\
      (facial = Pending -> fac' = if truthy conf' then Pending else Unavailable)).
  { destruct facial as [| |f].
    - exists Unavailable. destruct (truthy conf'); repeat split; auto; intros; discriminate.
    - exists (if truthy conf' then Pending else Unavailable). destruct (truthy conf'); repeat split; auto; intros; discriminate.
    - destruct (complete_spec f) as (f' & Hf' & _). exists (Available f').
      cbn [none_to_false]. rewrite Hf'. cbn. repeat split; try (intros; discriminate). intros f0 Eq. inversion Eq; subst. eauto. }
  destruct Hfac as (fac' & Hfac & F1 & F2 & F3).
  eexists. split; [match goal with |- bind ?x _ = _ => replace x with (Ok fac') by (symmetry; exact Hfac) end; reflexivity|]. unfold fresh_answer.
  cbn [m_groups m_vertices m_facial m_nodal m_conforming]. split; auto. split; auto.
  split; [|split; [|split; [|split; [|split]]]].
  - intros f Hf. destruct (F1 f Hf) as (f' & Hf' & ->). exists f'. split; auto.
  - intros x ->. reflexivity.
  - intros Hf vs Hvs Hc. rewrite (F3 Hf). subst. unfold conf'. reflexivity.
  - intros Hf vs Hvs Hc. subst. unfold conf'. reflexivity.
  - intros [Hf|(Hf & Hc)]; [rewrite (F2 Hf); reflexivity|]. rewrite (F3 Hf). unfold conf'.
    destruct Hc as [->|Hc]; [reflexivity|]. destruct vertices; [|reflexivity].
    destruct conf as [[|]|]; [congruence|reflexivity|reflexivity].
  - intros [->|(-> & Hc)]; unfold conf'; [destruct vertices as [?|], conf as [[|]|]; reflexivity|].
    destruct Hc as [->|Hc]; [reflexivity|]. destruct vertices; [|reflexivity].
    destruct conf as [[|]|]; [congruence|reflexivity|reflexivity].
Qed.

(** make_mesh on its own output, after any queries *)
Lemma as_python_roundtrip {E A V} ord (aff_id : A) tag_order vertices (groups : list (egroup E)) nodal facial conf vd ed fd
    (m : mesh E A V) qs l s' dfd :
  make_mesh vertices groups nodal facial conf vd ed fd = Ok m ->
  ask_all ord aff_id tag_order qs (m, (0, 0)) = (l, s') ->
  (forall f lst b t, m_facial (fst s') = Available f -> In lst f -> In b lst -> bdry_tag b = Some t ->
     t = TNone \/ t = TAll \/ t = TReallyAll) ->
  (forall f, facial_from_vertices aff_id tag_order m = Ok f -> complete_facial_adjacency f = Ok f) ->
  exists m', run_as_python dfd (fst s') = Ok m' /\ mesh_eq (fst s') m'.
Proof.
  intros Hm Hq Ht Hcomp.
  destruct (ask_all_spec ord aff_id tag_order m qs m 0 0 l s' (filled_refl _ _ _ m)) as (_ & HF & _); auto.
  { repeat split; intros; try lia. }
  unfold run_as_python.
  assert (Hg : match m_facial (fst s') with
         | Available f =>
             guard (forallb (fun l => forallb (fun b => match bdry_tag b with
                                                        | Some t => importable t
                                                        | None => true end) l) f) NameError
         | _ => Ok tt
         end = Ok tt).
  { destruct (m_facial (fst s')) as [| |f] eqn:Ef; auto. unfold guard.
    replace (forallb _ f) with true; auto. symmetry. apply forallb_forall. intros lst Hlst. apply forallb_forall.
    intros b Hb. destruct (bdry_tag b) as [t|] eqn:Eb; auto.
    destruct (Ht f lst b t eq_refl Hlst Hb Eb) as [->|[->| ->]]; reflexivity. }
  rewrite Hg. cbn [bind]. clear Hg Ht.
  unfold make_mesh in Hm. cbv zeta in Hm.
  set (conf' := match vertices with Some _ => conf | None => None end) in *.
  apply bind_ok in Hm as (fac' & Hfac & Hm). inversion Hm as [Hm']. clear Hm.
  destruct HF as (H1 & H2 & H3 & H4 & H5 & H6 & Hn & Hf).
  assert (Hconf : match m_vertices (fst s') with Some _ => m_conforming (fst s') | None => None end = m_conforming (fst s')).
  { rewrite H2, H3, <- Hm'. cbn. unfold conf'. destruct vertices; reflexivity. }
  assert (Hc' : m_conforming (fst s') = conf') by (rewrite H3, <- Hm'; reflexivity).
  assert (HN : none_to_false (truthy conf') (m_nodal (fst s')) = m_nodal (fst s')).
  { destruct Hn as [Hn|(_ & _ & x & _ & Hn)]; rewrite Hn; auto. rewrite <- Hm'. cbn.
    destruct nodal, (truthy conf'); reflexivity. }
  assert (HFac : none_to_false (truthy conf') (m_facial (fst s')) = m_facial (fst s') /\
     (forall f, m_facial (fst s') = Available f -> complete_facial_adjacency f = Ok f)).
  { assert (Hfac' : (truthy conf' = false -> fac' <> Pending) /\ forall f, fac' = Available f -> complete_facial_adjacency f = Ok f).
    { destruct facial as [| |f].
      - cbn in Hfac; destruct (truthy conf'); inversion Hfac; split; intros; discriminate.
      - cbn in Hfac; destruct (truthy conf'); inversion Hfac; split; intros; discriminate.
      - cbn [none_to_false] in Hfac. apply bind_ok in Hfac as (f' & Hf' & Hx). inversion Hx; subst. split; [intros; discriminate|].
        intros f0 Eq. inversion Eq; subst. eapply complete_idempotent; eauto. }
    destruct Hfac' as (P1 & P2).
    destruct Hf as [Hf|(_ & _ & x & Hx & Hf)]; rewrite Hf.
    - rewrite <- Hm'. cbn. split; auto. destruct fac'; auto. cbn. destruct (truthy conf'); auto. exfalso; now apply P1.
    - split; [reflexivity|]. intros f Eq. inversion Eq; subst. auto. }
  destruct HFac as (HF1 & HF2).
  unfold make_mesh. cbv zeta. rewrite Hconf, Hc', HN, HF1.
  destruct (m_facial (fst s')) as [| |f] eqn:Ef; cbn [bind].
  - eexists. split; [reflexivity|]. unfold mesh_eq. cbn. rewrite Ef. auto 10.
  - eexists. split; [reflexivity|]. unfold mesh_eq. cbn. rewrite Ef. auto 10.
  - rewrite (HF2 f eq_refl). cbn [bind]. eexists. split; [reflexivity|]. unfold mesh_eq. cbn. rewrite Ef. auto 10.
Qed.

Local Transparent compute_nodal_adjacency compute_facial_adjacency complete_facial_adjacency.

Lemma facial_from_vertices_complete {E A V} (aff_id : A) tag_order (m : mesh E A V) f :
  facial_from_vertices aff_id tag_order m = Ok f -> complete_facial_adjacency f = Ok f.
Proof.
  unfold facial_from_vertices, compute_facial_adjacency. destruct (m_groups m).
  - intros H. inversion H. reflexivity.
  - intros H. apply bind_ok in H as (pairs & _ & H). apply bind_ok in H as (idp & _ & H).
    apply bind_ok in H as (fags & _ & H). eapply complete_idempotent; eauto.
Qed.

(** The full round trip, without the technical hypothesis. *)
Lemma as_python_roundtrip' {E A V} ord (aff_id : A) tag_order vertices (groups : list (egroup E)) nodal facial conf vd ed fd
    (m : mesh E A V) qs l s' dfd :
  make_mesh vertices groups nodal facial conf vd ed fd = Ok m ->
  ask_all ord aff_id tag_order qs (m, (0, 0)) = (l, s') ->
  (forall f lst b t, m_facial (fst s') = Available f -> In lst f -> In b lst -> bdry_tag b = Some t ->
     t = TNone \/ t = TAll \/ t = TReallyAll) ->
  exists m', run_as_python dfd (fst s') = Ok m' /\ mesh_eq (fst s') m'.
Proof.
  intros H1 H2 H3. eapply as_python_roundtrip; eauto. intros f. apply facial_from_vertices_complete.
Qed.
