(** * OppProps: properties of the opposite-face connection *)
From Coq Require Import List Arith Bool ZArith Lia.
From Verif Require Import Np NpFacts Lin Ord MeshModel MeshSpec MeshExamples MeshStateModel CompletionProofs AffineModel PointModel PointSpec GlueModel GlueProps PartModel PartSpec PartProps ConnModel ConnSpec FaceConnModel FaceConnSpec
  RestrProofs FaceValProofs FaceEmbProofs CrossProofs OppProofs OppMainProofs OppValProofs FaceConnProps.
Import ListNotations.

Section C35.
  Context {R : cring} {E E' V A N K P : Type}.
  Variable rmat : K -> N -> list (list R).
  Variable rpick : K -> N -> option (list nat).
  Variables (dim : K -> nat) (factory : K -> K) (fnodes : K -> nat -> K -> N) (face_coords : K -> nat -> E -> E') (bfvi : K -> list (list nat))
    (store : nat -> nat) (garbage_row : nat -> list nat) (garbage_node : nat -> E').
  Variables (unit_nodes : K -> N) (select_nodes : K -> list nat -> N) (app : A -> P -> P) (close : P -> P -> bool)
    (gauss_newton : K -> list (list P) -> list (list P) -> res (list N)) (nodes_close : N -> N -> bool).
  Notation restrict := (make_face_restriction (V := V) dim factory fnodes face_coords bfvi store garbage_row garbage_node).
  Notation opposite := (make_opposite unit_nodes select_nodes app close gauss_newton nodes_close).

  Lemma restrict_form groups kinds (fags : list (list (fagrp A))) vs r bvs bgs (c : @conn N K) :
    restrictable groups kinds fags vs false -> known fags r -> (forall i, i < length vs -> store i = i) -> restrict (Some vs) groups kinds fags r false = Ok (bvs, bgs, c) ->
    exists to, c = mk_conn (vol_groups dim groups kinds) to (all_batches factory fnodes groups kinds fags r false) true /\ restriction dim factory fnodes face_coords groups kinds fags vs r false bvs bgs c.
  Proof.
    intros [H1 H2 H3 H4 H5 H6 H7 H8] Hk Hs Ec.
    destruct (restriction_ok dim factory fnodes face_coords bfvi store garbage_row garbage_node groups kinds fags vs r false H1 H2 H3 H4 H5 H6 H7 H8 Hs Hk)
      as (bvs' & bgs' & to & E1 & _ & E2). rewrite E1 in Ec. injection Ec as <- <- <-. exists to. auto.
  Qed.
  Lemma asks (groups : list (egroup E)) (fags : list (list (fagrp A))) (kinds : list K) (vs : list V) r : restrictable groups kinds fags vs false -> r = RInterior \/ r = RAll -> (forall a b, interior_adj fags a b -> asked groups fags r b) ->
    (forall a b, interior_adj fags a b -> asked groups fags r a /\ asked groups fags r b) /\ known fags r /\ (asked_once fags RInterior -> asked_once fags r).
  Proof.
    intros Hb Hr Hn. split; [|destruct Hr as [->| ->]; split; try exact I; auto; intros _; exact I]. intros a b Hab. split; [|eauto]. destruct Hr as [->| ->]; cbn [asked]; [eauto|].
    destruct a as ((g, e), f), b as ((g', e'), f'). destruct Hab as (l & es & m & Hl & Hin & Hen). destruct (rb_fags _ _ _ _ _ Hb) as (Hlen & Hfr).
    destruct (nth_exists groups g) as (grp & Hg); [rewrite <- Hlen; apply nth_error_Some; congruence|]. exists grp. split; [exact Hg|]. apply (Hfr g grp l _ e f Hg Hl Hin). cbn [fag_faces]. apply in_map_iff. exists ((e, f), (e', f')). auto.
  Qed.

  (** On success, exactly the values of the two sides of each interior face are exchanged. *)
  Theorem C35_exchange groups kinds fags (vs : list V) r bvs bgs c dim0 coords o :
    restrictable groups kinds fags vs false -> (forall i, i < length vs -> store i = i) ->
    r = RInterior \/ r = RAll -> asked_once fags RInterior -> (forall a b, interior_adj fags a b -> asked groups fags r b) -> gn_lengths gauss_newton ->
    restrict (Some vs) groups kinds fags r false = Ok (bvs, bgs, c) -> opposite dim0 groups fags c coords = Ok o ->
    cn_from o = cn_to c /\ cn_to o = cn_to c /\ swaps fags c o /\ Forall single_source (cn_groups o).
  Proof.
    intros Hb Hs Hr Hone Hn Hgn Ec Eo. destruct (asks groups fags kinds vs r Hb Hr Hn) as (Ha & Hk & Ho). destruct (restrict_form groups kinds fags vs r bvs bgs c Hb Hk Hs Ec) as (to & -> & HR).
    destruct (opp dim factory fnodes face_coords groups kinds fags vs r Hb (Ho Hone) bvs bgs to HR unit_nodes select_nodes app close gauss_newton nodes_close dim0 coords Hgn Ha o Eo) as (H1 & H2 & _).
    split; [exact H1|]. split; [exact H2|]. split; [exact (opp_swaps dim factory fnodes face_coords groups kinds fags vs r Hb (Ho Hone) bvs bgs to HR unit_nodes select_nodes app close gauss_newton nodes_close dim0 coords Hgn Ha o Eo)|exact (opp_single dim factory fnodes face_coords groups kinds fags vs r Hb (Ho Hone) bvs bgs to HR unit_nodes select_nodes app close gauss_newton nodes_close dim0 coords Hgn Ha Hone o Eo)].
  Qed.

  (** For the interior faces the connection exists: points of neighboring faces match, or Newton's method always succeeds. *)
  Theorem C35_succeeds groups kinds fags (vs : list V) bvs bgs c dim0 coords :
    restrictable groups kinds fags vs false -> (forall i, i < length vs -> store i = i) ->
    asked_once fags RInterior -> (forall a b, interior_adj fags a b -> asked groups fags RInterior b) -> (forall n, nodes_close n n = true) ->
    restrict (Some vs) groups kinds fags RInterior false = Ok (bvs, bgs, c) -> points_on (cn_to c) coords ->
    (dim0 = false -> matchable app close fags c coords \/
       (forall d, In d (cn_to c) -> forall tn sn, length tn = length sn -> exists ns, gauss_newton (dg_kind d) tn sn = Ok ns /\ length ns = length tn)) ->
    exists o, opposite dim0 groups fags c coords = Ok o.
  Proof.
    intros Hb Hs Hone Hn Hrefl Ec Hpo Hcov. destruct (asks groups fags kinds vs RInterior Hb (or_introl eq_refl) Hn) as (Ha & Hk & _). destruct (restrict_form groups kinds fags vs RInterior bvs bgs c Hb Hk Hs Ec) as (to & -> & HR).
    apply (opposite_succeeds dim factory fnodes face_coords groups kinds fags vs RInterior Hb Hone bvs bgs to HR unit_nodes select_nodes app close gauss_newton nodes_close dim0 coords Ha Hrefl); [|exact Hpo|exact Hcov].
    intros g grp l g' es m f _ _ Hin. apply interior_order with (g := g) (g' := g') (m := m). exact Hin.
  Qed.
  (** For all faces it exists if the elements with face number [f] are listed in ascending order. *)
  Theorem C35_succeeds_all groups kinds fags (vs : list V) bvs bgs c dim0 coords :
    restrictable groups kinds fags vs false -> (forall i, i < length vs -> store i = i) ->
    asked_once fags RInterior -> (forall a b, interior_adj fags a b -> asked groups fags RAll b) -> (forall n, nodes_close n n = true) ->
    (forall g l g' es m f, nth_error fags g = Some l -> In (Interior g g' es m) l -> incr (map (fun en : fentry => fst (fst en)) (filter (fun en : fentry => snd (fst en) =? f) es))) ->
    restrict (Some vs) groups kinds fags RAll false = Ok (bvs, bgs, c) -> points_on (cn_to c) coords ->
    (dim0 = false -> matchable app close fags c coords \/
       (forall d, In d (cn_to c) -> forall tn sn, length tn = length sn -> exists ns, gauss_newton (dg_kind d) tn sn = Ok ns /\ length ns = length tn)) ->
    exists o, opposite dim0 groups fags c coords = Ok o.
  Proof.
    intros Hb Hs Hone Hn Hrefl Hasc Ec Hpo Hcov. destruct (asks groups fags kinds vs RAll Hb (or_intror eq_refl) Hn) as (Ha & Hk & Ho). destruct (restrict_form groups kinds fags vs RAll bvs bgs c Hb Hk Hs Ec) as (to & -> & HR).
    apply (opposite_succeeds dim factory fnodes face_coords groups kinds fags vs RAll Hb (Ho Hone) bvs bgs to HR unit_nodes select_nodes app close gauss_newton nodes_close dim0 coords Ha Hrefl); [|exact Hpo|exact Hcov].
    intros g grp l g' es m f Hg Hl Hin mine Hlen. destruct (rb_fags _ _ _ _ _ Hb) as (_ & Hfr).
    assert (Hm : forall en, In en mine -> fst (fst en) < nelements grp /\ snd (fst en) = f /\ f < nfaces grp).
    { intros ((e, f0), (e', f')) Hen. unfold mine in Hen. apply filter_In in Hen. destruct Hen as (Hen & Heq). apply Nat.eqb_eq in Heq. cbn [fst snd] in *. subst f0.
      destruct (Hfr g grp l _ e f Hg Hl Hin) as (H1 & H2); [cbn [fag_faces]; apply in_map_iff; exists ((e, f), (e', f')); auto|auto]. }
    destruct mine as [|en0 mine0] eqn:Em.
    - symmetry. apply length_zero_iff_nil. now rewrite <- Hlen.
    - rewrite <- Em in *. destruct (Hm en0) as (_ & _ & Hf); [rewrite Em; now left|]. cbn [group_boundary_faces] in *. rewrite (els_grid _ _ _ Hf) in *. apply incr_full; [exact (Hasc g l g' es m f Hl Hin)| |rewrite map_length; now rewrite seq_length in Hlen].
      apply Forall_forall. intros e He. apply in_map_iff in He. destruct He as (en & <- & Hen). apply (Hm en Hen).
  Qed.

  (** Values: at each node of an interior face, the value at the coincident node of the neighbor *)
  Theorem C35_values groups kinds fags (vs : list V) r bvs bgs c coords o (x : list (list (list R))) :
    restrictable groups kinds fags vs false -> (forall i, i < length vs -> store i = i) ->
    r = RInterior \/ r = RAll -> asked_once fags RInterior -> (forall a b, interior_adj fags a b -> asked groups fags r b) -> gn_lengths gauss_newton ->
    restrict (Some vs) groups kinds fags r false = Ok (bvs, bgs, c) -> opposite false groups fags c coords = Ok o ->
    points_on (cn_to c) coords -> matchable app close fags c coords -> few_matchings app close fags c coords -> (forall n, nodes_close n n = true) ->
    (forall d, In d (cn_to c) -> separated select_nodes nodes_close (dg_kind d) (dg_ndof d)) ->
    (forall d ix, In d (cn_to c) -> Forall (fun i => i < dg_ndof d) ix -> rpick (dg_kind d) (select_nodes (dg_kind d) ix) = Some ix) ->
    on_discr (cn_to c) x ->
    exists y, (forall eager nomerge, call R rmat rpick eager nomerge o x = Ok y) /\ on_discr (cn_to c) y /\ neighbor_values app close fags c coords x y /\
      forall g t d, nth_error (cn_to c) g = Some d -> t < dg_nel d -> (forall e f, is_face c g t (g, e, f) -> forall b, ~ interior_adj fags (g, e, f) b) -> value y g t = Some (zeros (dg_ndof d)).
  Proof.
    intros Hb Hs Hr Hone Hn Hgn Ec Eo Hpo Hma Hfew Hrefl Hsep Hpick Hx. destruct (asks groups fags kinds vs r Hb Hr Hn) as (Ha & Hk & Ho). destruct (restrict_form groups kinds fags vs r bvs bgs c Hb Hk Hs Ec) as (to & -> & HR). cbn [cn_to] in *.
    exact (opp_values rmat rpick dim factory fnodes face_coords groups kinds fags vs r Hb (Ho Hone) bvs bgs to HR unit_nodes select_nodes app close gauss_newton nodes_close false coords Hgn Ha Hone o Eo Hrefl Hpo eq_refl Hma Hsep Hpick Hfew x Hx).
  Qed.

  (** Exchanging twice gives the values back *)
  Theorem C35_involution groups kinds fags (vs : list V) bvs bgs c coords (x : list (list (list R))) :
    restrictable groups kinds fags vs false -> (forall i, i < length vs -> store i = i) ->
    asked_once fags RInterior -> mutual app close fags -> gn_lengths gauss_newton ->
    restrict (Some vs) groups kinds fags RInterior false = Ok (bvs, bgs, c) ->
    points_on (cn_to c) coords -> matchable app close fags c coords -> few_matchings app close fags c coords -> (forall n, nodes_close n n = true) ->
    (forall d, In d (cn_to c) -> separated select_nodes nodes_close (dg_kind d) (dg_ndof d)) ->
    (forall d ix, In d (cn_to c) -> Forall (fun i => i < dg_ndof d) ix -> rpick (dg_kind d) (select_nodes (dg_kind d) ix) = Some ix) ->
    on_discr (cn_to c) x ->
    exists o y, opposite false groups fags c coords = Ok o /\ (forall eager nomerge, call R rmat rpick eager nomerge o x = Ok y) /\ (forall eager nomerge, call R rmat rpick eager nomerge o y = Ok x).
  Proof.
    intros Hb Hs Hone Hmu Hgn Ec Hpo Hma Hfew Hrefl Hsep Hpick Hx.
    assert (Hn : forall a b, interior_adj fags a b -> asked groups fags RInterior b).
    { intros ((g, e), f) ((g', e'), f') (l & es & m & Hl & Hin & Hen). destruct (Hmu g g' m (e, f) (e', f')) as (m' & (l' & es' & Hl' & Hin' & Hen') & _); [exists l, es; auto|]. exists (g, e, f). exists l', es', m'. auto. }
    destruct (C35_succeeds groups kinds fags vs bvs bgs c false coords Hb Hs Hone Hn Hrefl Ec Hpo (fun _ => or_introl Hma)) as (o & Eo).
    destruct (C35_values groups kinds fags vs RInterior bvs bgs c coords o x Hb Hs (or_introl eq_refl) Hone Hn Hgn Ec Eo Hpo Hma Hfew Hrefl Hsep Hpick Hx) as (y & Ey & Hy & Hxy & _).
    destruct (C35_values groups kinds fags vs RInterior bvs bgs c coords o y Hb Hs (or_introl eq_refl) Hone Hn Hgn Ec Eo Hpo Hma Hfew Hrefl Hsep Hpick Hy) as (z & Ez & Hz & Hyz & _).
    exists o, y. split; [exact Eo|]. split; [exact Ey|]. intros eager nomerge. rewrite Ez. f_equal.
    destruct (asks groups fags kinds vs RInterior Hb (or_introl eq_refl) Hn) as (Ha & Hk & _). destruct (restrict_form groups kinds fags vs RInterior bvs bgs c Hb Hk Hs Ec) as (to & -> & HR). cbn [cn_to] in *.
    apply (value_ext to z x Hz Hx). intros g d t Hd Ht. destruct (rt_sizes _ _ _ _ _ _ _ _ _ _ _ _ _ HR) as (Hz2 & _). cbn [cn_to] in Hz2. destruct (Forall2_nth_error_r _ _ _ _ _ Hz2 Hd) as (bg & Hbg & Hnel).
    destruct (rt_only _ _ _ _ _ _ _ _ _ _ _ _ _ HR g bg t Hbg) as (((g0, e), f) & Hf); [lia|].
    destruct (rt_asked _ _ _ _ _ _ _ _ _ _ _ _ _ HR g t g0 e f Hf) as ((b & Hadj) & Heq). cbn [bgroup] in Heq. subst g0.
    exact (opp_twice dim factory fnodes face_coords groups kinds fags vs RInterior Hb bvs bgs to HR app close coords Ha Hpo Hma x y z Hmu Hx Hy Hz Hxy Hyz g t e f b Hf Hadj).
  Qed.

  (** One-dimensional meshes: faces are points, and values move as they are *)
  Theorem C35_values_1d groups kinds fags (vs : list V) r bvs bgs c coords o (x : list (list (list R))) :
    restrictable groups kinds fags vs false -> (forall i, i < length vs -> store i = i) ->
    r = RInterior \/ r = RAll -> asked_once fags RInterior -> (forall a b, interior_adj fags a b -> asked groups fags r b) -> gn_lengths gauss_newton ->
    restrict (Some vs) groups kinds fags r false = Ok (bvs, bgs, c) -> opposite true groups fags c coords = Ok o ->
    points_on (cn_to c) coords -> (forall n, nodes_close n n = true) ->
    (forall d, In d (cn_to c) -> resamples rmat rpick (dg_kind d) (unit_nodes (dg_kind d)) (dg_ndof d) (dg_ndof d) /\
      forall v w : list R, length v = dg_ndof d -> resampled rmat rpick (dg_kind d) (unit_nodes (dg_kind d)) v w -> w = v) ->
    (forall d d', In d (cn_to c) -> In d' (cn_to c) -> dg_ndof d = dg_ndof d') ->
    on_discr (cn_to c) x ->
    exists y, (forall eager nomerge, call R rmat rpick eager nomerge o x = Ok y) /\ on_discr (cn_to c) y /\
      forall g e f g' e' f' t s, interior_adj fags (g, e, f) (g', e', f') -> is_face c g t (g, e, f) -> is_face c g' s (g', e', f') -> value y g t = value x g' s.
  Proof.
    intros Hb Hs Hr Hone Hn Hgn Ec Eo Hpo Hrefl Hu Hsame Hx. destruct (asks groups fags kinds vs r Hb Hr Hn) as (Ha & Hk & Ho). destruct (restrict_form groups kinds fags vs r bvs bgs c Hb Hk Hs Ec) as (to & -> & HR). cbn [cn_to] in *.
    destruct (opp_values0 rmat rpick dim factory fnodes face_coords groups kinds fags vs r Hb (Ho Hone) bvs bgs to HR unit_nodes select_nodes app close gauss_newton nodes_close true coords Hgn Ha Hone o Eo Hrefl Hpo eq_refl Hu Hsame x Hx) as (y & H1 & H2 & H3 & _).
    exists y. auto.
  Qed.
End C35.
Print Assumptions C35_exchange.
Print Assumptions C35_succeeds.
Print Assumptions C35_succeeds_all.
Print Assumptions C35_values.
Print Assumptions C35_involution.
Print Assumptions C35_values_1d.

(** ** Two triangles and a quadrilateral; points are vertex numbers *)
Notation fopposite := (make_opposite (N := list nat) (A := unit) funit (fun _ ix => ix) (fun _ p => p) Nat.eqb (fun _ _ _ => Err ValueError) fnodes_equal).
Definition ex_c : @conn (list nat) fk :=
  mk_conn [mk_dgroup 2 3 Tri; mk_dgroup 1 4 Quad] [mk_dgroup 3 2 Edge; mk_dgroup 1 2 Edge]
    [[mk_batch 0 [1] [0] [0; 1] (Some 0); mk_batch 0 [1] [1] [2; 0] (Some 1); mk_batch 0 [0] [2] [1; 2] (Some 2)];
     [mk_batch 1 [] [] [0; 1] (Some 0); mk_batch 1 [] [] [2; 3] (Some 1); mk_batch 1 [0] [0] [0; 2] (Some 2); mk_batch 1 [] [] [1; 3] (Some 3)]] true.
Definition ex_points : list (list (list nat)) := [[[1; 3]; [2; 1]; [1; 2]]; [[1; 3]]].
Definition ex_opposite : @conn (list nat) fk :=
  mk_conn [mk_dgroup 3 2 Edge; mk_dgroup 1 2 Edge] [mk_dgroup 3 2 Edge; mk_dgroup 1 2 Edge]
    [[mk_batch 0 [2] [1] [1; 0] None; mk_batch 0 [1] [2] [1; 0] None; mk_batch 1 [0] [0] [0; 1] None]; [mk_batch 0 [0] [0] [0; 1] None]] true.
Example ex_c_is : exists bgs, frestrict (Some ex_vs) ex_groups fkinds ex_fags RInterior false = Ok (ex_vs, bgs, ex_c) /\ ex_points = map (fun g => match eg_vi g with Some rows => rows | None => [] end) bgs.
Proof. eexists. split; [exact ex_restrict_interior|reflexivity]. Qed.
Example ex_opposite_is : fopposite false ex_groups ex_fags ex_c ex_points = Ok ex_opposite.
Proof. vm_compute. reflexivity. Qed.

Lemma ex_entries g g' m en : int_entry ex_fags g g' m en -> In (g, g', en) [(0, 0, ((1, 1), (0, 2))); (0, 0, ((0, 2), (1, 1))); (0, 1, ((1, 0), (0, 2))); (1, 0, ((0, 2), (1, 0)))].
Proof.
  intros (l & es & Hl & Hin & Hen). destruct g as [|[|g]]; cbn in Hl; [| |destruct g; discriminate]; injection Hl as <-; cbn [In] in Hin;
    repeat (destruct Hin as [Hin|Hin]; [try discriminate; injection Hin as <- <- <-; cbn [In] in Hen; cbn [In]; intuition (subst; auto)|]); destruct Hin.
Qed.
Lemma ex_faces_at g t a : is_face ex_c g t a -> In (g, t, a) [(0, 0, (0, 1, 0)); (0, 1, (0, 1, 1)); (0, 2, (0, 0, 2)); (1, 0, (1, 0, 2))].
Proof.
  destruct a as ((g0, e), f). intros (bs & b & Hbs & Hb & Hg & Hf & Hin). destruct g as [|[|g]]; cbn in Hbs; [| |destruct g; discriminate]; injection Hbs as <-; cbn [In] in Hb;
    repeat (destruct Hb as [<-|Hb]; [cbn in Hg, Hf, Hin; injection Hf as <-; destruct Hin as [Hin|[]] || destruct Hin; injection Hin as <- <-; subst g0; cbn; tauto|]); destruct Hb.
Qed.
Lemma ex_pairs g g' m e f e' f' t s ps qs : int_entry ex_fags g g' m ((e, f), (e', f')) -> is_face ex_c g t (g, e, f) -> is_face ex_c g' s (g', e', f') ->
  value ex_points g t = Some ps -> value ex_points g' s = Some qs -> In (ps, qs) [([2; 1], [1; 2]); ([1; 2], [2; 1]); ([1; 3], [1; 3])].
Proof.
  intros He F1 F2 Hp Hq. apply ex_entries in He. apply ex_faces_at in F1, F2. cbn [In] in *.
  repeat (destruct He as [He|He]; [injection He as <- <- <- <- <- <-; repeat (destruct F1 as [F1|F1]; [try discriminate; injection F1 as <-|]);
    repeat (destruct F2 as [F2|F2]; [try discriminate; injection F2 as <-|]); try (destruct F1; fail); try (destruct F2; fail); cbn in Hp, Hq; injection Hp as <-; injection Hq as <-; auto|]). destruct He.
Qed.
Lemma ex_points_on : points_on (cn_to ex_c) ex_points.
Proof. repeat constructor. Qed.
Lemma ex_matchable : matchable (fun (_ : unit) p => p) Nat.eqb ex_fags ex_c ex_points.
Proof.
  intros g g' m e f e' f' t s ps qs He F1 F2 Hp Hq. pose proof (ex_pairs _ _ _ _ _ _ _ _ _ _ _ He F1 F2 Hp Hq) as H. cbn [In] in H.
  assert (Hu : forall (p a b : nat) j' q', a <> b -> nth_error [a; b] j' = Some q' -> (p =? q') = true -> p = a /\ j' = 0 \/ p = b /\ j' = 1).
  { intros p a b j' q' Hab Hn Hcl. apply Nat.eqb_eq in Hcl. subst q'. destruct j' as [|[|j']]; cbn in Hn; [injection Hn as ->; auto|injection Hn as ->; auto|destruct j'; discriminate]. }
  destruct H as [H|[H|[H|[]]]]; injection H as <- <-; intros p Hin; cbn [map In] in Hin; destruct Hin as [<-|[<-|[]]].
  all: first [exists 0; eexists; split; [reflexivity|]; split; [reflexivity|]|exists 1; eexists; split; [reflexivity|]; split; [reflexivity|]]; intros j' q' Hn Hcl; pose proof (fun h => Hu _ _ _ j' q' h Hn Hcl) as X; destruct X as [(H1 & H2)|(H1 & H2)]; congruence.
Qed.
Lemma ex_few_matchings : few_matchings (fun (_ : unit) p => p) Nat.eqb ex_fags ex_c ex_points.
Proof.
  intros g g'. exists [[0; 0]; [0; 1]; [1; 0]; [1; 1]]. split; [cbn; lia|]. intros m e f e' f' t s ps qs ix He F1 F2 Hp Hq HM. pose proof (ex_pairs _ _ _ _ _ _ _ _ _ _ _ He F1 F2 Hp Hq) as H. cbn [In] in H.
  destruct H as [H|[H|[H|[]]]]; injection H as <- <-; unfold matching in HM; cbn [map] in HM; inversion HM as [|? i ? ix1 (q & Hq1 & _) HM1]; subst; inversion HM1 as [|? i' ? ix2 (q' & Hq2 & _) HM2]; subst; inversion HM2; subst;
    destruct i as [|[|i]]; try (destruct i; discriminate); destruct i' as [|[|i']]; try (destruct i'; discriminate); cbn; tauto.
Qed.
Lemma ex_mutual : mutual (fun (_ : unit) p => p) Nat.eqb ex_fags.
Proof.
  intros g g' m (e, f) (e', f') He. destruct (ex_symmetric g g' m e f e' f' He) as (m' & _ & He'). exists m'. split; [exact He'|]. intros p q. apply Nat.eqb_sym.
Qed.
Lemma ex_close_refl n : fnodes_equal n n = true.
Proof. unfold fnodes_equal, list_nat_eqb. destruct (list_eq_dec Nat.eq_dec n n); congruence. Qed.
Lemma ex_separated (d : @dgroup fk) : separated (fun (_ : fk) ix => ix) fnodes_equal (dg_kind d) (dg_ndof d).
Proof. intros ix ix' _ _ _ H. unfold fnodes_equal, list_nat_eqb in H. destruct (list_eq_dec Nat.eq_dec ix ix'); congruence. Qed.
Lemma ex_asked_neighbor a b : interior_adj ex_fags a b -> asked ex_groups ex_fags RInterior b.
Proof.
  destruct a as ((g, e), f), b as ((g', e'), f'). intros (l & es & m & Hl & Hin & Hen). destruct (ex_symmetric g g' m e f e' f') as (m' & _ & l' & es' & Hl' & Hin' & Hen'); [exists l, es; auto|]. exists (g, e, f). exists l', es', m'. auto.
Qed.
(** All hypotheses of the theorems hold here *)
Example ex_C35_involution (x : list (list (list Z))) : on_discr (R := Zcring) (cn_to ex_c) x -> exists y, (forall eager nomerge, fcall eager nomerge ex_opposite x = Ok y) /\ (forall eager nomerge, fcall eager nomerge ex_opposite y = Ok x).
Proof.
  intros Hx. destruct ex_c_is as (bgs & Ec & _).
  destruct (C35_involution (R := Zcring) (N := list nat) (A := unit) frmat frpick fdim (fun _ => Edge) fface fcoords (fun _ => [[0]; [1]]) (fun i => i) fgarbage fgarbage_node funit (fun _ ix => ix) (fun _ p => p) Nat.eqb (fun _ _ _ => Err ValueError) fnodes_equal
    ex_groups fkinds ex_fags ex_vs ex_vs bgs ex_c ex_points x (ex_restrictable false) (fun i _ => eq_refl) (ex_asked_once RInterior) ex_mutual) as (o & y & Eo & H1 & H2); auto.
  - intros k tn sn ns H. discriminate.
  - exact ex_points_on.
  - exact ex_matchable.
  - exact ex_few_matchings.
  - exact ex_close_refl.
  - intros d _. apply ex_separated.
  - rewrite ex_opposite_is in Eo. injection Eo as <-. eauto.
Qed.
Example ex_C35_exchange : swaps ex_fags ex_c ex_opposite.
Proof.
  destruct ex_c_is as (bgs & Ec & _).
  destruct (C35_exchange (N := list nat) (A := unit) fdim (fun _ => Edge) fface fcoords (fun _ => [[0]; [1]]) (fun i => i) fgarbage fgarbage_node funit (fun _ ix => ix) (fun _ p => p) Nat.eqb (fun _ _ _ => Err ValueError) fnodes_equal
    ex_groups fkinds ex_fags ex_vs RInterior ex_vs bgs ex_c false ex_points ex_opposite (ex_restrictable false) (fun i _ => eq_refl) (or_introl eq_refl) (ex_asked_once RInterior) ex_asked_neighbor) as (_ & _ & H & _); auto.
  intros k tn sn ns H. discriminate.
Qed.
Example ex_opposite_call : fcall true false ex_opposite [[[1; 2]; [3; 4]; [5; 6]]; [[7; 8]]]%Z = Ok [[[7; 8]; [6; 5]; [4; 3]]; [[1; 2]]]%Z.
Proof. vm_compute. reflexivity. Qed.
Example ex_ascending : forall g l g' es m f, nth_error ex_fags g = Some l -> In (Interior g g' es m) l -> incr (map (fun en : fentry => fst (fst en)) (filter (fun en : fentry => snd (fst en) =? f) es)).
Proof.
  intros g l g' es m f Hl Hin. destruct g as [|[|g]]; cbn in Hl; [| |destruct g; discriminate]; injection Hl as <-; cbn [In] in Hin;
    repeat (destruct Hin as [Hin|Hin]; [try discriminate; injection Hin as <- <- <-; do 3 (destruct f as [|f]; [repeat constructor|]); constructor|]); destruct Hin.
Qed.

(** Segments 0-1 and 1-2: faces are points *)
Definition seg_groups : list (egroup nat) := [mk_egroup (Some [[0; 1]; [1; 2]]) [100; 101] [[0]; [1]]].
Definition seg_fags : list (list (fagrp unit)) :=
  [[Interior 0 0 [((1, 0), (0, 1)); ((0, 1), (1, 0))] tt; Boundary 0 TAll [(0, 0); (1, 1)]; Boundary 0 TNone []; Boundary 0 TReallyAll [(0, 0); (1, 1)]]].
Example seg_fags_computed : compute_facial_adjacency tt (fun l => l) None seg_groups = Ok seg_fags.
Proof. vm_compute. reflexivity. Qed.
Definition seg_dim (k : bool) : nat := if k then 2 else 1.
Definition seg_face (k : bool) (f : nat) (_ : bool) : list nat := [f].
Definition seg_rmat (_ : bool) (_ : list nat) : list (list Zcring) := [].
Definition seg_rpick (_ : bool) (n : list nat) : option (list nat) := Some n.
Example seg_opposite : exists bvs bgs c o,
  make_face_restriction (V := nat) (A := unit) seg_dim (fun _ => false) seg_face (fun _ f (x : nat) => (x, f)) (fun _ => [[0]]) (fun i => i) fgarbage fgarbage_node (Some [10; 11; 12]) seg_groups [true] seg_fags RAll false = Ok (bvs, bgs, c) /\
  make_opposite (N := list nat) (A := unit) (fun _ => [0]) (fun _ ix => ix) (fun _ (p : nat) => p) Nat.eqb (fun _ _ _ => Err ValueError) fnodes_equal true seg_groups seg_fags c [[[10]; [11]; [11]; [12]]] = Ok o /\
  call Zcring seg_rmat seg_rpick true false o [[[1]; [2]; [3]; [4]]]%Z = Ok [[[0]; [3]; [2]; [0]]]%Z.
Proof. eexists _, _, _, _. split; [vm_compute; reflexivity|]. split; vm_compute; reflexivity. Qed.

(** ** C78: with all faces instead of the interior ones

    A strip of two quadrilaterals, closed to a Moebius band by glue_mesh_boundaries: the top of each is glued to the bottom of the other. *)
Definition mb_groups : list (egroup nat) := [mk_egroup (Some [[0; 1; 3; 4]; [1; 2; 4; 5]]) [100; 101] quad_faces].
Definition mb_vs : list (list Z) := [[0; 0]; [10; 0]; [20; 0]; [0; 10]; [10; 10]; [20; 10]]%Z.
Definition mb_mesh : mesh nat (amap Zocring) (list Z) := mk_mesh mb_groups (Some mb_vs) (Some true) Pending Pending 0 0 0.
Definition mb_fags : list (list (fagrp (amap Zocring))) :=
  [[Interior 0 0 [((1, 2), (0, 3)); ((0, 3), (1, 2))] ex_id; Boundary 0 (TUser 0) [(0, 0); (1, 0)]; Boundary 0 (TUser 1) [(0, 1); (1, 1)]]].
Definition mb_flip : amap Zocring := mk_amap (R := Zocring) (Some [[-1; 0]; [0; 1]]%Z) (Some [20; 10]%Z).
Definition mb_map : bpm Zocring := mk_bpm (R := Zocring) (TUser 0) (TUser 1) mb_flip 1%Z.

Definition mb_app (f : amap Zocring) (p : list Z) : list Z := match amap_call Zocring f p with Ok q => q | Err _ => p end.
Definition mb_close (p q : list Z) : bool := if list_eq_dec Z.eq_dec p q then true else false.
Notation mb_restrict := (make_face_restriction (V := list Z) (A := amap Zocring) fdim (fun _ => Edge) fface fcoords (fun _ => [[0]; [1]]) (fun i => i) fgarbage fgarbage_node (Some mb_vs) mb_groups [Quad]).
Notation mb_opposite := (make_opposite (N := list nat) funit (fun _ ix => ix) mb_app mb_close (fun _ _ _ => Err ValueError) fnodes_equal false mb_groups).
Definition mb_points (bvs : list (list Z)) (bgs : list (egroup (nat * nat))) : list (list (list (list Z))) :=
  map (fun g => match eg_vi g with Some rows => map (map (fun v => nth v bvs [])) rows | None => [] end) bgs.
Theorem C78_all_faces_refuted : exists m' fags,
  glue_mesh_boundaries Zocring median_Z (fun M => Ok M) 5 nat 2 mb_mesh mb_fags [mb_map] = Ok m' /\ m_facial m' = Available fags /\ m_groups m' = mb_groups /\
  (exists bvs bgs c o, mb_restrict fags RInterior false = Ok (bvs, bgs, c) /\ mb_opposite fags c (mb_points bvs bgs) = Ok o) /\
  (exists bvs bgs c, mb_restrict fags RAll false = Ok (bvs, bgs, c) /\ mb_opposite fags c (mb_points bvs bgs) = Err AssertionError).
Proof.
  eexists _, _. split; [vm_compute; reflexivity|]. split; [reflexivity|]. split; [reflexivity|]. split.
  - eexists _, _, _, _. split; [vm_compute; reflexivity|]. vm_compute. reflexivity.
  - eexists _, _, _. split; [vm_compute; reflexivity|]. vm_compute. reflexivity.
Qed.
Print Assumptions C78_all_faces_refuted.
