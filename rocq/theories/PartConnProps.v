(** * PartConnProps: properties of connections between parts *)
From Coq Require Import List Arith Bool ZArith Lia.
From Verif Require Import Np NpFacts Lin MeshModel MeshSpec MeshProofs MeshExamples MeshStateModel CompletionProofs PartModel PartSpec PartMainProofs PartProps ConnModel ConnSpec FaceConnModel FaceConnSpec
  RestrProofs CrossProofs FaceConnProps OppProps PartConnSpec PartConnProofs PartValProofs PartOutProofs.
Import ListNotations.

Section C36.
  Context {R : cring} {E E' V A N K P : Type}.
  Variable rmat : K -> N -> list (list R).
  Variable rpick : K -> N -> option (list nat).
  Variables (dim : K -> nat) (factory : K -> K) (fnodes : K -> nat -> K -> N) (face_coords : K -> nat -> E -> E') (bfvi : K -> list (list nat))
    (store : nat -> nat) (garbage_row : nat -> list nat) (garbage_node : nat -> E').
  Variables (unit_nodes : K -> N) (select_nodes : K -> list nat -> N) (app : A -> P -> P) (close : P -> P -> bool)
    (gauss_newton : K -> list (list P) -> list (list P) -> res (list N)) (nodes_close : N -> N -> bool).
  Notation restrict := (make_face_restriction (V := V) dim factory fnodes face_coords bfvi store garbage_row garbage_node).
  Notation connect := (make_partition_connection unit_nodes select_nodes app close gauss_newton nodes_close).

  (** On success, the connection takes the values of exactly the other side of each face between the parts. *)
  Theorem C36_exchange p q groups kinds fags (vs : list V) rgroups rkinds rfags rvs bvs bgs c rbvs rbgs rc infos dim0 coords rcoords o :
    connectable p q groups kinds fags vs rgroups rkinds rfags rvs -> (forall i, i < length vs \/ i < length rvs -> store i = i) -> gn_lengths gauss_newton ->
    restrict (Some vs) groups kinds fags (RTag (TPartition q)) false = Ok (bvs, bgs, c) ->
    restrict (Some rvs) rgroups rkinds rfags (RTag (TPartition p)) false = Ok (rbvs, rbgs, rc) ->
    make_infos rfags p (length rgroups) rc = Ok infos ->
    connect dim0 groups c coords (cn_to rc) rcoords infos = Ok o ->
    cn_from o = cn_to rc /\ cn_to o = cn_to c /\ receives rgroups fags q c rc o /\ Forall single_source (cn_groups o).
  Proof.
    intros [H1 H2 H3 H4 H5 H6 H7 H8 _] Hs Hgn Ec Erc Ei Eo. destruct (restrict_form dim factory fnodes face_coords bfvi store garbage_row garbage_node groups kinds fags vs _ bvs bgs c H1 H3 (fun i h => Hs i (or_introl h)) Ec) as (to & -> & HR).
    destruct (restrict_form dim factory fnodes face_coords bfvi store garbage_row garbage_node rgroups rkinds rfags rvs _ rbvs rbgs rc H2 H4 (fun i h => Hs i (or_intror h)) Erc) as (rto & -> & HR'). cbn [cn_to] in *.
    destruct (partition_ok dim factory fnodes face_coords groups kinds fags vs q H1 H5 bvs bgs to HR rgroups rkinds rfags rvs p H2 H6 rbvs rbgs rto HR' H8 unit_nodes select_nodes app close gauss_newton nodes_close dim0 coords rcoords Hgn infos Ei o Eo) as (A1 & A2 & _).
    split; [exact A1|]. split; [exact A2|]. split.
    - exact (part_receives dim factory fnodes face_coords groups kinds fags vs q H1 H5 bvs bgs to HR rgroups rkinds rfags rvs p H2 H6 rbvs rbgs rto HR' H8 H7 unit_nodes select_nodes app close gauss_newton nodes_close dim0 coords rcoords Hgn infos Ei o Eo).
    - exact (part_single dim factory fnodes face_coords groups kinds fags vs q H1 H5 bvs bgs to HR rgroups rkinds rfags rvs p H2 H6 rbvs rbgs rto HR' H8 unit_nodes select_nodes app close gauss_newton nodes_close dim0 coords rcoords Hgn infos Ei o Eo).
  Qed.

  (** The restrictions, the remote group information and the connection exist if points of the two sides match, or Newton's method always succeeds. *)
  Theorem C36_succeeds p q groups kinds fags (vs : list V) rgroups rkinds rfags rvs :
    connectable p q groups kinds fags vs rgroups rkinds rfags rvs -> (forall i, i < length vs \/ i < length rvs -> store i = i) -> (forall n, nodes_close n n = true) ->
    exists bvs bgs c rbvs rbgs rc infos, restrict (Some vs) groups kinds fags (RTag (TPartition q)) false = Ok (bvs, bgs, c) /\
      restrict (Some rvs) rgroups rkinds rfags (RTag (TPartition p)) false = Ok (rbvs, rbgs, rc) /\
      make_infos rfags p (length rgroups) rc = Ok infos /\
      forall dim0 coords rcoords, points_on (cn_to c) coords -> points_on (cn_to rc) rcoords ->
        (dim0 = false -> matchable2 app close groups rfags p c rc coords rcoords \/
          (forall d, In d (cn_to rc) -> forall tn sn, length tn = length sn -> exists ns, gauss_newton (dg_kind d) tn sn = Ok ns /\ length ns = length tn)) ->
        exists o, connect dim0 groups c coords (cn_to rc) rcoords infos = Ok o.
  Proof.
    intros [H1 H2 H3 H4 H5 H6 H7 H8 H9] Hs Hrefl.
    destruct (C33_restriction dim factory fnodes face_coords bfvi store garbage_row garbage_node groups kinds fags vs _ false H1 H3 (fun i h => Hs i (or_introl h))) as (bvs & bgs & c & Ec & _).
    destruct (C33_restriction dim factory fnodes face_coords bfvi store garbage_row garbage_node rgroups rkinds rfags rvs _ false H2 H4 (fun i h => Hs i (or_intror h))) as (rbvs & rbgs & rc & Erc & _).
    destruct (restrict_form dim factory fnodes face_coords bfvi store garbage_row garbage_node groups kinds fags vs _ bvs bgs c H1 H3 (fun i h => Hs i (or_introl h)) Ec) as (to & -> & HR).
    destruct (restrict_form dim factory fnodes face_coords bfvi store garbage_row garbage_node rgroups rkinds rfags rvs _ rbvs rbgs rc H2 H4 (fun i h => Hs i (or_intror h)) Erc) as (rto & -> & HR').
    destruct (infos_exist dim factory fnodes face_coords rgroups rkinds rfags rvs _ H2 rbvs rbgs rto HR' p) as (infos & Ei).
    exists bvs, bgs. eexists. exists rbvs, rbgs. eexists. exists infos. split; [exact Ec|]. split; [exact Erc|]. split; [exact Ei|]. intros dim0 coords rcoords Hpo Hpo' Hcov. cbn [cn_to] in *.
    exact (partition_succeeds dim factory fnodes face_coords groups kinds fags vs q H1 H5 bvs bgs to HR rgroups rkinds rfags rvs p H2 H6 rbvs rbgs rto HR' H8 unit_nodes select_nodes app close gauss_newton nodes_close dim0 coords rcoords infos Ei Hrefl H9 Hpo Hpo' Hcov).
  Qed.

  (** Values: at each node of a face between the parts, the value at the coincident node of the other side *)
  Theorem C36_values p q groups kinds fags (vs : list V) rgroups rkinds rfags rvs bvs bgs c rbvs rbgs rc infos coords rcoords o (x : list (list (list R))) :
    connectable p q groups kinds fags vs rgroups rkinds rfags rvs -> (forall i, i < length vs \/ i < length rvs -> store i = i) -> gn_lengths gauss_newton ->
    restrict (Some vs) groups kinds fags (RTag (TPartition q)) false = Ok (bvs, bgs, c) ->
    restrict (Some rvs) rgroups rkinds rfags (RTag (TPartition p)) false = Ok (rbvs, rbgs, rc) ->
    make_infos rfags p (length rgroups) rc = Ok infos ->
    connect false groups c coords (cn_to rc) rcoords infos = Ok o ->
    points_on (cn_to c) coords -> points_on (cn_to rc) rcoords -> matchable2 app close groups rfags p c rc coords rcoords -> few_matchings2 app close groups rfags p c rc coords rcoords -> (forall n, nodes_close n n = true) ->
    (forall d, In d (cn_to rc) -> separated select_nodes nodes_close (dg_kind d) (dg_ndof d)) ->
    (forall d ix, In d (cn_to rc) -> Forall (fun i => i < dg_ndof d) ix -> rpick (dg_kind d) (select_nodes (dg_kind d) ix) = Some ix) ->
    on_discr (cn_to rc) x ->
    exists y, (forall eager nomerge, call R rmat rpick eager nomerge o x = Ok y) /\ on_discr (cn_to c) y /\ remote_values app close groups rfags p c rc coords rcoords x y /\
      forall g t d, nth_error (cn_to c) g = Some d -> t < dg_nel d -> (forall e f, is_face c g t (g, e, f) -> forall m b, ~ part_entry fags g (TPartition q) q m ((e, f), b)) -> value y g t = Some (zeros (dg_ndof d)).
  Proof.
    intros [H1 H2 H3 H4 H5 H6 H7 H8 _] Hs Hgn Ec Erc Ei Eo Hpo Hpo' Hma Hfew Hrefl Hsep Hpick Hx. destruct (restrict_form dim factory fnodes face_coords bfvi store garbage_row garbage_node groups kinds fags vs _ bvs bgs c H1 H3 (fun i h => Hs i (or_introl h)) Ec) as (to & -> & HR).
    destruct (restrict_form dim factory fnodes face_coords bfvi store garbage_row garbage_node rgroups rkinds rfags rvs _ rbvs rbgs rc H2 H4 (fun i h => Hs i (or_intror h)) Erc) as (rto & -> & HR'). cbn [cn_to] in *.
    exact (part_values rmat rpick dim factory fnodes face_coords groups kinds fags vs q H1 H5 bvs bgs to HR rgroups rkinds rfags rvs p H2 H6 rbvs rbgs rto HR' H8 H7 unit_nodes select_nodes app close gauss_newton nodes_close false coords rcoords Hgn infos Ei o Eo Hrefl Hpo Hpo' eq_refl Hma Hsep Hpick Hfew x Hx).
  Qed.

  (** One-dimensional meshes: faces are points, and values move as they are *)
  Theorem C36_values_1d p q groups kinds fags (vs : list V) rgroups rkinds rfags rvs bvs bgs c rbvs rbgs rc infos coords rcoords o (x : list (list (list R))) :
    connectable p q groups kinds fags vs rgroups rkinds rfags rvs -> (forall i, i < length vs \/ i < length rvs -> store i = i) -> gn_lengths gauss_newton ->
    restrict (Some vs) groups kinds fags (RTag (TPartition q)) false = Ok (bvs, bgs, c) ->
    restrict (Some rvs) rgroups rkinds rfags (RTag (TPartition p)) false = Ok (rbvs, rbgs, rc) ->
    make_infos rfags p (length rgroups) rc = Ok infos ->
    connect true groups c coords (cn_to rc) rcoords infos = Ok o ->
    points_on (cn_to c) coords -> points_on (cn_to rc) rcoords -> (forall n, nodes_close n n = true) ->
    (forall d, In d (cn_to rc) -> resamples rmat rpick (dg_kind d) (unit_nodes (dg_kind d)) (dg_ndof d) (dg_ndof d) /\
      forall v w : list R, length v = dg_ndof d -> resampled rmat rpick (dg_kind d) (unit_nodes (dg_kind d)) v w -> w = v) ->
    (forall d d', In d (cn_to c) -> In d' (cn_to rc) -> dg_ndof d = dg_ndof d') ->
    on_discr (cn_to rc) x ->
    exists y, (forall eager nomerge, call R rmat rpick eager nomerge o x = Ok y) /\ on_discr (cn_to c) y /\
      forall g e f g' e' f' m t s, between groups rfags p m (g, e, f) (g', e', f') -> is_face c g t (g, e, f) -> is_face rc g' s (g', e', f') -> value y g t = value x g' s.
  Proof.
    intros [H1 H2 H3 H4 H5 H6 H7 H8 _] Hs Hgn Ec Erc Ei Eo Hpo Hpo' Hrefl Hu Hsame Hx. destruct (restrict_form dim factory fnodes face_coords bfvi store garbage_row garbage_node groups kinds fags vs _ bvs bgs c H1 H3 (fun i h => Hs i (or_introl h)) Ec) as (to & -> & HR).
    destruct (restrict_form dim factory fnodes face_coords bfvi store garbage_row garbage_node rgroups rkinds rfags rvs _ rbvs rbgs rc H2 H4 (fun i h => Hs i (or_intror h)) Erc) as (rto & -> & HR'). cbn [cn_to] in *.
    destruct (part_values0 rmat rpick dim factory fnodes face_coords groups kinds fags vs q H1 H5 bvs bgs to HR rgroups rkinds rfags rvs p H2 H6 rbvs rbgs rto HR' H8 H7 unit_nodes select_nodes app close gauss_newton nodes_close true coords rcoords Hgn infos Ei o Eo Hrefl Hpo Hpo' eq_refl Hu Hsame x Hx) as (y & A1 & A2 & A3 & _).
    exists y. auto.
  Qed.

  (** ** Parts made by partition_mesh *)
  Theorem C36_parts garbage (groups : list (egroup E)) (kinds : list K) (fags : list (list (fagrp A))) (vs : list V) conforming parts rp (ms : list (nat * mesh E A V)) :
    valid_partition (sum (map nelements groups)) parts -> (forall p, length (garbage p) = sum (map nelements groups)) -> groups <> [] ->
    restrictable groups kinds fags vs false -> fags_wf groups fags -> incl (requested parts rp) (map fst parts) ->
    asked_once fags RInterior -> (forall l n, In l fags -> ~ MeshSpec.carries l (TPartition n)) ->
    (forall g g' aff e f e' f', int_entry fags g g' aff ((e, f), (e', f')) -> exists aff', int_entry fags g' g aff' ((e', f'), (e, f))) ->
    partition_mesh garbage (Some vs) groups (Ok fags) conforming parts rp = Ok ms ->
    forall p q mp mq, In (p, mp) ms -> In (q, mq) ms -> p <> q ->
      (exists g g' aff e f e' f' k k', int_entry fags g g' aff ((e, f), (e', f')) /\ assigned parts (base (map nelements groups) g + e) p k /\ assigned parts (base (map nelements groups) g' + e') q k') ->
      exists fp fq vp vq, m_facial mp = Available fp /\ m_facial mq = Available fq /\ m_vertices mp = Some vp /\ m_vertices mq = Some vq /\
        length vp <= length vs /\ length vq <= length vs /\ connectable p q (m_groups mp) kinds fp vp (m_groups mq) kinds fq vq.
  Proof.
    intros Hv Hgar Hne Hb Hwf Hreq Hone Htag Hsym Ems p q mp mq Hp Hq Hpq Hsome.
    destruct (partition_mesh_spec garbage vs groups fags conforming parts rp Hv Hgar Hne (rb_rows _ _ _ _ _ Hb) (rb_range _ _ _ _ _ Hb) Hwf Hreq) as (ms' & Ems' & _ & Hok). assert (ms' = ms) by congruence. subst ms'.
    destruct (Hok _ _ Hp) as (fp & Hokp). destruct (Hok _ _ Hq) as (fq & Hokq).
    pose proof (PartMainProofs.mutual vs groups fags conforming parts (fun _ _ => True) p q mp mq fp fq Hokp Hokq) as Hmut. pose proof (PartMainProofs.mutual vs groups fags conforming parts (fun _ _ => True) q p mq mp fq fp Hokq Hokp) as Hmut'.
    assert (Hsym' : forall g g' aff e f e' f', int_entry fags g g' aff ((e, f), (e', f')) -> exists aff', True /\ int_entry fags g' g aff' ((e', f'), (e, f))) by (intros; edestruct Hsym; eauto).
    specialize (Hmut Hsym' Hv Hwf). specialize (Hmut' Hsym' Hv Hwf).
    destruct Hokp as (Gp & Fp & Lp & Ap & _ & _ & PLp). destruct Hokq as (Gq & Fq & Lq & Aq & _ & _ & PLq).
    destruct (pg_vertices _ _ _ _ _ Gp) as (oldp & vp & Vp & _). destruct (pg_vertices _ _ _ _ _ Gq) as (oldq & vq & Vq & _).
    exists fp, fq, vp, vq. split; [exact Fp|]. split; [exact Fq|]. split; [exact Vp|]. split; [exact Vq|].
    split; [exact (part_vertices_le groups vs parts p mp fp vp Gp Lp Vp)|]. split; [exact (part_vertices_le groups vs parts q mq fq vq Gq Lq Vq)|].
    assert (Hadj : forall a b (ma mb : mesh E A V) fa fb, part_adjacency groups fags parts a ma fa ->
      (forall g t aff i f k f', part_entry fa g t b aff ((i, f), (k, f')) -> exists g' i' aff', k = base (map nelements (m_groups mb)) g' + i' /\ True /\ part_entry fb g' (TPartition a) a aff' ((i', f'), (base (map nelements (m_groups ma)) g + i, f))) ->
      adjoins (m_groups ma) (m_groups mb) fa fb a b).
    { intros a b ma mb fa fb Ha Hab g t m e f k f' Hen. split; [exact (proj1 (proj1 (pa_part _ _ _ _ _ _ Ha g t b m e f k f') Hen))|]. destruct (Hab _ _ _ _ _ _ _ Hen) as (g' & e' & m' & Hk & _ & Hen'). exists g', e', m'. auto. }
    assert (Hkn : forall (fa : list (list (fagrp A))) g n m en, part_entry fa g (TPartition n) n m en -> known fa (RTag (TPartition n))).
    { intros fa g n m en (l & es & Hl & Hin & _). exists l. split; [eapply nth_error_In; eauto|]. eexists. split; [exact Hin|]. reflexivity. }
    destruct Hsome as (g & g' & aff & e & f & e' & f' & k & k' & Hint & Has & Has').
    assert (Hent : forall a b (ma mb : mesh E A V) fa g0 g1 aff0 e0 f0 e1 f1 k0 k1, part_adjacency groups fags parts a ma fa -> part_geometry groups vs parts a ma -> a <> b ->
      int_entry fags g0 g1 aff0 ((e0, f0), (e1, f1)) -> assigned parts (base (map nelements groups) g0 + e0) a k0 -> assigned parts (base (map nelements groups) g1 + e1) b k1 -> exists en, part_entry fa g0 (TPartition b) b aff0 en).
    { intros a b ma mb fa g0 g1 aff0 e0 f0 e1 f1 k0 k1 Ha Hg Hab Hi H0 H1. destruct (pg_all _ _ _ _ _ Hg _ _ H0) as (g2 & i & i' & Heq & _ & Him). assert (Hsame : g2 = g0 /\ i = e0).
      { assert (Hi2 := Hi). destruct Hi2 as (l & es & Hl & Hin & Hen). destruct Him as (grp & grp' & G1 & Hi' & _). destruct (rb_fags _ _ _ _ _ Hb) as (Hlen & Hfr). destruct (nth_exists groups g0) as (grp0 & G0); [rewrite <- Hlen; apply nth_error_Some; congruence|].
        destruct (Hfr g0 grp0 l _ e0 f0 G0 Hl Hin) as (Hlt & _); [cbn [fag_faces]; apply in_map_iff; exists ((e0, f0), (e1, f1)); auto|].
        assert (g2 = g0). { apply (owns_unique (map nelements groups) g2 g0 (base (map nelements groups) g0 + e0)); [exists (nelements grp); split; [rewrite nth_error_map, G1; reflexivity|lia]|exists (nelements grp0); split; [rewrite nth_error_map, G0; reflexivity|lia]]. }
        subst g2. split; [reflexivity|lia]. }
      destruct Hsame as (-> & ->). exists ((i', f0), (k1, f1)). apply (pa_part _ _ _ _ _ _ Ha). split; [reflexivity|]. split; [congruence|]. exists g1, e0, e1. auto. }
    destruct (Hent p q mp mq fp _ _ _ _ _ _ _ _ _ Ap Gp Hpq Hint Has Has') as (en & Hen). destruct (Hsym _ _ _ _ _ _ _ Hint) as (aff' & Hint'). destruct (Hent q p mq mp fq _ _ _ _ _ _ _ _ _ Aq Gq (not_eq_sym Hpq) Hint' Has' Has) as (en' & Hen').
    split.
    - exact (part_restrictable groups kinds fags vs parts Hb p mp fp vp Gp PLp Lp Vp).
    - exact (part_restrictable groups kinds fags vs parts Hb q mq fq vq Gq PLq Lq Vq).
    - exact (Hkn _ _ _ _ _ Hen).
    - exact (Hkn _ _ _ _ _ Hen').
    - exact (part_asked_once groups kinds fags vs parts Hb p mp fp PLp Lp q Hone (fun l h => Htag l q h)).
    - exact (part_asked_once groups kinds fags vs parts Hb q mq fq PLq Lq p Hone (fun l h => Htag l p h)).
    - exact (Hadj p q mp mq fp fq Ap Hmut).
    - exact (Hadj q p mq mp fq fp Aq Hmut').
    - exact (part_nonempty groups kinds fags vs parts Hb q mq fq PLq Lq p).
  Qed.

  (** Two parts of a mesh: all steps succeed, and each face between them receives the data of the face it adjoins in the mesh. *)
  Theorem C36_partitioned garbage (groups : list (egroup E)) (kinds : list K) (fags : list (list (fagrp A))) (vs : list V) conforming parts rp (ms : list (nat * mesh E A V)) :
    valid_partition (sum (map nelements groups)) parts -> (forall p, length (garbage p) = sum (map nelements groups)) -> groups <> [] ->
    restrictable groups kinds fags vs false -> fags_wf groups fags -> incl (requested parts rp) (map fst parts) ->
    asked_once fags RInterior -> (forall l n, In l fags -> ~ MeshSpec.carries l (TPartition n)) ->
    (forall g g' aff e f e' f', int_entry fags g g' aff ((e, f), (e', f')) -> exists aff', int_entry fags g' g aff' ((e', f'), (e, f))) ->
    (forall i, i < length vs -> store i = i) -> (forall n, nodes_close n n = true) -> gn_lengths gauss_newton ->
    partition_mesh garbage (Some vs) groups (Ok fags) conforming parts rp = Ok ms ->
    forall p q mp mq, In (p, mp) ms -> In (q, mq) ms -> p <> q ->
      (exists g g' aff e f e' f' k k', int_entry fags g g' aff ((e, f), (e', f')) /\ assigned parts (base (map nelements groups) g + e) p k /\ assigned parts (base (map nelements groups) g' + e') q k') ->
      exists fp fq vp vq bvs bgs c rbvs rbgs rc infos,
        m_facial mp = Available fp /\ m_facial mq = Available fq /\ m_vertices mp = Some vp /\ m_vertices mq = Some vq /\
        restrict (Some vp) (m_groups mp) kinds fp (RTag (TPartition q)) false = Ok (bvs, bgs, c) /\
        restrict (Some vq) (m_groups mq) kinds fq (RTag (TPartition p)) false = Ok (rbvs, rbgs, rc) /\
        make_infos fq p (length (m_groups mq)) rc = Ok infos /\
        forall dim0 coords rcoords, points_on (cn_to c) coords -> points_on (cn_to rc) rcoords ->
          (dim0 = false -> matchable2 app close (m_groups mp) fq p c rc coords rcoords \/
            (forall d, In d (cn_to rc) -> forall tn sn, length tn = length sn -> exists ns, gauss_newton (dg_kind d) tn sn = Ok ns /\ length ns = length tn)) ->
          exists o, connect dim0 (m_groups mp) c coords (cn_to rc) rcoords infos = Ok o /\ cn_from o = cn_to rc /\ cn_to o = cn_to c /\ Forall single_source (cn_groups o) /\
            forall g t g' s, (exists n, feeds o g t g' s n) <-> exists e0 e f e0' e' f' aff, int_entry fags g g' aff ((e0, f), (e0', f')) /\
              image groups (m_groups mp) parts p g e0 e /\ image groups (m_groups mq) parts q g' e0' e' /\ is_face c g t (g, e, f) /\ is_face rc g' s (g', e', f').
  Proof.
    intros Hv Hgar Hne Hb Hwf Hreq Hone Htag Hsym Hs Hrefl Hgn Ems p q mp mq Hp Hq Hpq Hsome.
    destruct (C36_parts garbage groups kinds fags vs conforming parts rp ms Hv Hgar Hne Hb Hwf Hreq Hone Htag Hsym Ems p q mp mq Hp Hq Hpq Hsome) as (fp & fq & vp & vq & Fp & Fq & Vp & Vq & Lvp & Lvq & Hcb).
    assert (Hs' : forall i, i < length vp \/ i < length vq -> store i = i) by (intros i [?|?]; apply Hs; lia).
    destruct (C36_succeeds p q (m_groups mp) kinds fp vp (m_groups mq) kinds fq vq Hcb Hs' Hrefl) as (bvs & bgs & c & rbvs & rbgs & rc & infos & Ec & Erc & Ei & Hco).
    exists fp, fq, vp, vq, bvs, bgs, c, rbvs, rbgs, rc, infos. split; [exact Fp|]. split; [exact Fq|]. split; [exact Vp|]. split; [exact Vq|]. split; [exact Ec|]. split; [exact Erc|]. split; [exact Ei|].
    intros dim0 coords rcoords Hpo Hpo' Hcov. destruct (Hco dim0 coords rcoords Hpo Hpo' Hcov) as (o & Eo). destruct (C36_exchange p q (m_groups mp) kinds fp vp (m_groups mq) kinds fq vq bvs bgs c rbvs rbgs rc infos dim0 coords rcoords o Hcb Hs' Hgn Ec Erc Ei Eo) as (A1 & A2 & A3 & A4).
    exists o. split; [exact Eo|]. split; [exact A1|]. split; [exact A2|]. split; [exact A4|]. intros g t g' s. rewrite (A3 g t g' s).
    destruct (partition_mesh_spec garbage vs groups fags conforming parts rp Hv Hgar Hne (rb_rows _ _ _ _ _ Hb) (rb_range _ _ _ _ _ Hb) Hwf Hreq) as (ms' & Ems' & _ & Hok). assert (ms' = ms) by congruence. subst ms'.
    destruct (Hok _ _ Hp) as (fp1 & _ & Fp1 & _ & Ap & _). assert (fp1 = fp) by congruence. subst fp1. destruct (Hok _ _ Hq) as (fq1 & Gq & _).
    destruct (restrict_form dim factory fnodes face_coords bfvi store garbage_row garbage_node (m_groups mq) kinds fq vq _ rbvs rbgs rc (cb_rmesh _ _ _ _ _ _ _ _ _ _ Hcb) (cb_rknown _ _ _ _ _ _ _ _ _ _ Hcb) (fun i h => Hs' i (or_intror h)) Erc) as (rto & _ & HR').
    split.
    - intros (e & f & e' & f' & m & Hen & Hf & Hf'). assert (Hrange : exists grp', nth_error (m_groups mq) g' = Some grp' /\ e' < nelements grp').
      { destruct (rt_asked _ _ _ _ _ _ _ _ _ _ _ _ _ HR' _ _ _ _ _ Hf') as (Hask & _). cbn [asked] in Hask. destruct Hask as (l & b & Hl & Hb' & _ & Hin). destruct (rb_fags _ _ _ _ _ (cb_rmesh _ _ _ _ _ _ _ _ _ _ Hcb)) as (Hlen & Hfr). destruct (nth_exists (m_groups mq) g') as (grp' & G'); [rewrite <- Hlen; apply nth_error_Some; congruence|]. exists grp'. split; [exact G'|]. eapply Hfr; eauto. }
      destruct Hrange as (grp' & G' & Hlt). destruct (proj1 (part_entry_mesh groups fags vs parts p q mp mq fp g m e f g' e' f' grp' Ap Gq Hwf G' Hlt) Hen) as (_ & e0 & e0' & H1 & H2 & H3). exists e0, e, f, e0', e', f', m. auto.
    - intros (e0 & e & f & e0' & e' & f' & m & H1 & H2 & H3 & Hf & Hf'). exists e, f, e', f', m. split; [|auto]. assert (H4 := H3). destruct H4 as (grp & grp' & _ & _ & G' & Hlt & _).
      apply (part_entry_mesh groups fags vs parts p q mp mq fp g m e f g' e' f' grp' Ap Gq Hwf G' Hlt). split; [congruence|]. exists e0, e0'. auto.
  Qed.
End C36.
Print Assumptions C36_exchange.
Print Assumptions C36_succeeds.
Print Assumptions C36_values.
Print Assumptions C36_values_1d.
Print Assumptions C36_parts.
Print Assumptions C36_partitioned.

(** ** Two triangles and a quadrilateral, the middle triangle in part 3, the others in part 7; points are vertices of the mesh *)
Notation fconnect := (make_partition_connection (N := list nat) (A := unit) funit (fun _ ix => ix) (fun _ p => p) Nat.eqb (fun _ _ _ => Err ValueError) fnodes_equal).
Definition p_groups : list (egroup nat) := [mk_egroup (Some [[0; 2; 1]]) [101] tri_faces; mk_egroup (Some []) [] quad_faces].
Definition p_vs : list nat := [11; 12; 13].
Definition p_fags : list (list (fagrp unit)) :=
  [[InterPart 0 (TPartition 7) 7 [((0, 1), (0, 2))] tt; InterPart 0 (TPartition 7) 7 [((0, 0), (1, 2))] tt; Boundary 0 TAll [(0, 2)]; Boundary 0 TNone []; Boundary 0 TReallyAll [(0, 2)]];
   [Boundary 1 TAll []; Boundary 1 TNone []; Boundary 1 TReallyAll []]].
Definition q_groups : list (egroup nat) := [mk_egroup (Some [[0; 1; 2]]) [100] tri_faces; mk_egroup (Some [[1; 4; 3; 5]]) [102] quad_faces].
Definition q_fags : list (list (fagrp unit)) :=
  [[InterPart 0 (TPartition 3) 3 [((0, 2), (0, 1))] tt; Boundary 0 TAll [(0, 0); (0, 1)]; Boundary 0 TNone []; Boundary 0 TReallyAll [(0, 0); (0, 1)]];
   [InterPart 1 (TPartition 3) 3 [((0, 2), (0, 0))] tt; Boundary 1 TAll [(0, 0); (0, 1); (0, 3)]; Boundary 1 TNone []; Boundary 1 TReallyAll [(0, 0); (0, 1); (0, 3)]]].
Definition p_mesh : mesh nat unit nat := mk_mesh p_groups (Some p_vs) (Some true) Pending (Available p_fags) 0 0 0.
Definition q_mesh : mesh nat unit nat := mk_mesh q_groups (Some ex_vs) (Some true) Pending (Available q_fags) 0 0 0.
Example ex_ms_is : partition_mesh ex_garbage (Some ex_vs) ex_groups (Ok ex_fags) (Some true) ex_parts None = Ok [(7, q_mesh); (3, p_mesh)].
Proof. vm_compute. reflexivity. Qed.
Definition p_c : @conn (list nat) fk :=
  mk_conn [mk_dgroup 1 3 Tri; mk_dgroup 0 4 Quad] [mk_dgroup 2 2 Edge; mk_dgroup 0 2 Edge]
    [[mk_batch 0 [0] [0] [0; 1] (Some 0); mk_batch 0 [0] [1] [2; 0] (Some 1); mk_batch 0 [] [] [1; 2] (Some 2)];
     [mk_batch 1 [] [] [0; 1] (Some 0); mk_batch 1 [] [] [2; 3] (Some 1); mk_batch 1 [] [] [0; 2] (Some 2); mk_batch 1 [] [] [1; 3] (Some 3)]] true.
Definition q_c : @conn (list nat) fk :=
  mk_conn [mk_dgroup 1 3 Tri; mk_dgroup 1 4 Quad] [mk_dgroup 1 2 Edge; mk_dgroup 1 2 Edge]
    [[mk_batch 0 [] [] [0; 1] (Some 0); mk_batch 0 [] [] [2; 0] (Some 1); mk_batch 0 [0] [0] [1; 2] (Some 2)];
     [mk_batch 1 [] [] [0; 1] (Some 0); mk_batch 1 [] [] [2; 3] (Some 1); mk_batch 1 [0] [0] [0; 2] (Some 2); mk_batch 1 [] [] [1; 3] (Some 3)]] true.
Definition p_points : list (list (list nat)) := [[[11; 13]; [12; 11]]; []].
Definition q_points : list (list (list nat)) := [[[11; 12]]; [[11; 13]]].
Definition part_points (vs : list nat) (bgs : list (egroup (nat * nat))) : list (list (list nat)) :=
  map (fun g => match eg_vi g with Some rows => map (flat_map (fun v => match nth_error vs v with Some x => [x] | None => [] end)) rows | None => [] end) bgs.
Example p_c_is : exists bgs, frestrict (Some p_vs) p_groups fkinds p_fags (RTag (TPartition 7)) false = Ok (p_vs, bgs, p_c) /\ p_points = part_points p_vs bgs.
Proof. eexists. split; vm_compute; reflexivity. Qed.
Example q_c_is : exists bgs, frestrict (Some ex_vs) q_groups fkinds q_fags (RTag (TPartition 3)) false = Ok (ex_vs, bgs, q_c) /\ q_points = part_points ex_vs bgs.
Proof. eexists. split; vm_compute; reflexivity. Qed.
Definition q_infos : list rginfo := match make_infos q_fags 3 2 q_c with Ok i => i | Err _ => [] end.
Example q_infos_is : make_infos q_fags 3 (length q_groups) q_c = Ok q_infos.
Proof. vm_compute. reflexivity. Qed.
Definition p_conn : @conn (list nat) fk :=
  mk_conn [mk_dgroup 1 2 Edge; mk_dgroup 1 2 Edge] [mk_dgroup 2 2 Edge; mk_dgroup 0 2 Edge] [[mk_batch 0 [0] [1] [1; 0] None; mk_batch 1 [0] [0] [0; 1] None]; []] true.
Example p_conn_is : fconnect false p_groups p_c p_points (cn_to q_c) q_points q_infos = Ok p_conn.
Proof. vm_compute. reflexivity. Qed.
Example p_conn_call : fcall true false p_conn [[[1; 2]]; [[3; 4]]]%Z = Ok [[[3; 4]; [2; 1]]; []]%Z.
Proof. vm_compute. reflexivity. Qed.

Lemma ex_no_partition l n : In l ex_fags -> ~ MeshSpec.carries l (TPartition n).
Proof. intros Hl (b & Hb & Ht). cbn [ex_fags In] in Hl. destruct Hl as [<-|[<-|[]]]; cbn [In] in Hb; repeat (destruct Hb as [<-|Hb]; [discriminate Ht|]); destruct Hb. Qed.
Lemma ex_some : exists g g' aff e f e' f' k k', int_entry ex_fags g g' aff ((e, f), (e', f')) /\ assigned ex_parts (base (map nelements ex_groups) g + e) 3 k /\ assigned ex_parts (base (map nelements ex_groups) g' + e') 7 k'.
Proof.
  exists 0, 1, tt, 1, 0, 0, 2, 0, 1. split; [exists [Interior 0 0 [((1, 1), (0, 2)); ((0, 2), (1, 1))] tt; Interior 0 1 [((1, 0), (0, 2))] tt; Boundary 0 TAll [(0, 0); (0, 1); (1, 2)]; Boundary 0 TNone []; Boundary 0 TReallyAll [(0, 0); (0, 1); (1, 2)]]; eexists; split; [reflexivity|]; split; [right; left; reflexivity|left; reflexivity]|].
  split; apply ex_assigned; cbn; auto.
Qed.
(** All hypotheses of the theorems hold here *)
Example ex_connectable : connectable 3 7 p_groups fkinds p_fags p_vs q_groups fkinds q_fags ex_vs.
Proof.
  destruct (C36_parts ex_garbage ex_groups fkinds ex_fags ex_vs (Some true) ex_parts None _ ex_valid_partition (fun _ => eq_refl) ltac:(discriminate) (ex_restrictable false) ex_fags_wf (incl_refl _) (ex_asked_once RInterior) ex_no_partition
    (fun g g' aff e f e' f' h => match ex_symmetric g g' aff e f e' f' h with ex_intro _ a' (conj _ h') => ex_intro _ a' h' end) ex_ms_is 3 7 p_mesh q_mesh (or_intror (or_introl eq_refl)) (or_introl eq_refl) ltac:(discriminate) ex_some)
    as (fp & fq & vp & vq & E1 & E2 & E3 & E4 & _ & _ & H). injection E1 as <-. injection E2 as <-. injection E3 as <-. injection E4 as <-. exact H.
Qed.
Lemma p_faces_at g t a : is_face p_c g t a -> In (g, t, a) [(0, 0, (0, 0, 0)); (0, 1, (0, 0, 1))].
Proof.
  destruct a as ((g0, e), f). intros (bs & b & Hbs & Hb & Hg & Hf & Hin). destruct g as [|[|g]]; cbn in Hbs; [| |destruct g; discriminate]; injection Hbs as <-; cbn [In] in Hb;
    repeat (destruct Hb as [<-|Hb]; [cbn in Hg, Hf, Hin; injection Hf as <-; destruct Hin as [Hin|[]] || destruct Hin; injection Hin as <- <-; subst g0; cbn; tauto|]); destruct Hb.
Qed.
Lemma q_faces_at g t a : is_face q_c g t a -> In (g, t, a) [(0, 0, (0, 0, 2)); (1, 0, (1, 0, 2))].
Proof.
  destruct a as ((g0, e), f). intros (bs & b & Hbs & Hb & Hg & Hf & Hin). destruct g as [|[|g]]; cbn in Hbs; [| |destruct g; discriminate]; injection Hbs as <-; cbn [In] in Hb;
    repeat (destruct Hb as [<-|Hb]; [cbn in Hg, Hf, Hin; injection Hf as <-; destruct Hin as [Hin|[]] || destruct Hin; injection Hin as <- <-; subst g0; cbn; tauto|]); destruct Hb.
Qed.
Lemma q_entries g m en : part_entry q_fags g (TPartition 3) 3 m en -> In (g, en) [(0, ((0, 2), (0, 1))); (1, ((0, 2), (0, 0)))].
Proof.
  intros (l & es & Hl & Hin & Hen). destruct g as [|[|g]]; cbn in Hl; [| |destruct g; discriminate]; injection Hl as <-; cbn [In] in Hin;
    repeat (destruct Hin as [Hin|Hin]; [try discriminate; injection Hin as <- <-; cbn [In] in Hen; cbn [In]; intuition (subst; auto)|]); destruct Hin.
Qed.
Lemma pq_pairs g g' m e f e' f' t s ps qs : between p_groups q_fags 3 m (g, e, f) (g', e', f') -> is_face p_c g t (g, e, f) -> is_face q_c g' s (g', e', f') ->
  value p_points g t = Some ps -> value q_points g' s = Some qs -> In (ps, qs) [([12; 11], [11; 12]); ([11; 13], [11; 13])].
Proof.
  intros He F1 F2 Hp Hq. apply q_entries in He. apply p_faces_at in F1. apply q_faces_at in F2. cbn [In] in F1, F2.
  destruct F1 as [F1|[F1|[]]]; inversion F1; subst; destruct F2 as [F2|[F2|[]]]; inversion F2; subst; cbn in Hp, Hq, He; injection Hp as <-; injection Hq as <-; destruct He as [He|[He|[]]]; try discriminate He; cbn; tauto.
Qed.
Lemma pq_matchable : matchable2 (fun (_ : unit) p => p) Nat.eqb p_groups q_fags 3 p_c q_c p_points q_points.
Proof.
  intros g g' m e f e' f' t s ps qs He F1 F2 Hp Hq. pose proof (pq_pairs _ _ _ _ _ _ _ _ _ _ _ He F1 F2 Hp Hq) as H. cbn [In] in H.
  assert (Hu : forall (p a b : nat) j' q', a <> b -> nth_error [a; b] j' = Some q' -> (p =? q') = true -> p = a /\ j' = 0 \/ p = b /\ j' = 1).
  { intros p a b j' q' Hab Hn Hcl. apply Nat.eqb_eq in Hcl. subst q'. destruct j' as [|[|j']]; cbn in Hn; [injection Hn as ->; auto|injection Hn as ->; auto|destruct j'; discriminate]. }
  destruct H as [H|[H|[]]]; injection H as <- <-; intros p Hin; cbn [map In] in Hin; destruct Hin as [<-|[<-|[]]].
  all: first [exists 0; eexists; split; [reflexivity|]; split; [reflexivity|]|exists 1; eexists; split; [reflexivity|]; split; [reflexivity|]]; intros j' q' Hn Hcl; pose proof (fun h => Hu _ _ _ j' q' h Hn Hcl) as X; destruct X as [(H1 & H2)|(H1 & H2)]; congruence.
Qed.
Lemma pq_few_matchings : few_matchings2 (fun (_ : unit) p => p) Nat.eqb p_groups q_fags 3 p_c q_c p_points q_points.
Proof.
  intros g g'. exists [[0; 0]; [0; 1]; [1; 0]; [1; 1]]. split; [cbn; lia|]. intros m e f e' f' t s ps qs ix He F1 F2 Hp Hq HM. pose proof (pq_pairs _ _ _ _ _ _ _ _ _ _ _ He F1 F2 Hp Hq) as H. cbn [In] in H.
  destruct H as [H|[H|[]]]; injection H as <- <-; unfold matching in HM; cbn [map] in HM; inversion HM as [|? i ? ix1 (q & Hq1 & _) HM1]; subst; inversion HM1 as [|? i' ? ix2 (q' & Hq2 & _) HM2]; subst; inversion HM2; subst;
    destruct i as [|[|i]]; try (destruct i; discriminate); destruct i' as [|[|i']]; try (destruct i'; discriminate); cbn; tauto.
Qed.
Example ex_C36_values (x : list (list (list Z))) : on_discr (R := Zcring) (cn_to q_c) x -> exists y, (forall eager nomerge, fcall eager nomerge p_conn x = Ok y) /\
  remote_values (fun (_ : unit) p => p) Nat.eqb p_groups q_fags 3 p_c q_c p_points q_points x y.
Proof.
  intros Hx. destruct p_c_is as (bgs & Ec & _). destruct q_c_is as (rbgs & Erc & _).
  destruct (C36_values (R := Zcring) (N := list nat) (A := unit) frmat frpick fdim (fun _ => Edge) fface fcoords (fun _ => [[0]; [1]]) (fun i => i) fgarbage fgarbage_node funit (fun _ ix => ix) (fun _ p => p) Nat.eqb (fun _ _ _ => Err ValueError) fnodes_equal
    3 7 p_groups fkinds p_fags p_vs q_groups fkinds q_fags ex_vs p_vs bgs p_c ex_vs rbgs q_c q_infos p_points q_points p_conn x ex_connectable (fun i _ => eq_refl)) as (y & H1 & _ & H2 & _); eauto.
  - intros k tn sn ns H. discriminate.
  - repeat constructor.
  - repeat constructor.
  - exact pq_matchable.
  - exact pq_few_matchings.
  - exact ex_close_refl.
  - intros d _. apply ex_separated.
Qed.
Example ex_C36_exchange : receives q_groups p_fags 7 p_c q_c p_conn /\ exists n, feeds p_conn 0 1 0 0 n.
Proof.
  destruct p_c_is as (bgs & Ec & _). destruct q_c_is as (rbgs & Erc & _).
  destruct (C36_exchange (N := list nat) (A := unit) fdim (fun _ => Edge) fface fcoords (fun _ => [[0]; [1]]) (fun i => i) fgarbage fgarbage_node funit (fun _ ix => ix) (fun _ p => p) Nat.eqb (fun _ _ _ => Err ValueError) fnodes_equal
    3 7 p_groups fkinds p_fags p_vs q_groups fkinds q_fags ex_vs p_vs bgs p_c ex_vs rbgs q_c q_infos false p_points q_points p_conn ex_connectable (fun i _ => eq_refl)) as (_ & _ & H & _); eauto.
  - intros k tn sn ns H. discriminate.
  - split; [exact H|]. exists [1; 0]. exists [mk_batch 0 [0] [1] [1; 0] None; mk_batch 1 [0] [0] [0; 1] None], (mk_batch 0 [0] [1] [1; 0] None). repeat (split; [cbn; auto|]). cbn. auto.
Qed.
(** Segments 0-1 and 1-2, one in each part *)
Example seg_parts : exists mp mq bvs bgs c rbvs rbgs rc infos o,
  partition_mesh (fun _ => [(9, 9); (9, 9)]) (Some [10; 11; 12]) seg_groups (Ok seg_fags) (Some true) [(0, [0]); (1, [1])] None = Ok [(0, mp); (1, mq)] /\
  make_face_restriction (V := nat) (A := unit) seg_dim (fun _ => false) seg_face (fun _ f (x : nat) => (x, f)) (fun _ => [[0]]) (fun i => i) fgarbage fgarbage_node (m_vertices mp) (m_groups mp) [true]
    (match m_facial mp with Available f => f | _ => [] end) (RTag (TPartition 1)) false = Ok (bvs, bgs, c) /\
  make_face_restriction (V := nat) (A := unit) seg_dim (fun _ => false) seg_face (fun _ f (x : nat) => (x, f)) (fun _ => [[0]]) (fun i => i) fgarbage fgarbage_node (m_vertices mq) (m_groups mq) [true]
    (match m_facial mq with Available f => f | _ => [] end) (RTag (TPartition 0)) false = Ok (rbvs, rbgs, rc) /\
  make_infos (match m_facial mq with Available f => f | _ => [] end) 0 1 rc = Ok infos /\
  make_partition_connection (N := list nat) (A := unit) (fun _ => [0]) (fun _ ix => ix) (fun _ (p : nat) => p) Nat.eqb (fun _ _ _ => Err ValueError) fnodes_equal true (m_groups mp) c [[[11]]] (cn_to rc) [[[11]]] infos = Ok o /\
  call Zcring seg_rmat seg_rpick true false o [[[5]]]%Z = Ok [[[5]]]%Z.
Proof. eexists _, _, _, _, _, _, _, _, _, _. split; [vm_compute; reflexivity|]. split; [vm_compute; reflexivity|]. split; [vm_compute; reflexivity|]. split; [vm_compute; reflexivity|]. split; vm_compute; reflexivity. Qed.
