(** * FdMainProofs: adjacency, orientation and success of the import of Firedrake meshes. *)
From Coq Require Import List Arith Bool Lia Permutation Sorted.
From Verif Require Import Np NpFacts MeshModel MeshSpec MeshProofs FacialProofs MeshStateModel CompletionProofs Lin ProcModel ProcSpec SplitProofs FlipProofs Ord ConsistModel FdModel FdSpec FdProofs FdImportProofs FdFacialProofs.
Import ListNotations.

Section Main.
  Variable R : ocring.
  Context {A : Type}.
  Variable aff_id : A.
  Variables (M : list (list R)) (fvi : list (list nat)) (junk : nat -> list R) (normals : option (list (list R))).
  Add Ring Rring_fd : (rth R).
  Notation imp := (import_mesh R aff_id M fvi junk normals).

  Lemma elem_local {E} (g : egroup E) e row x : elem_at [g] 0 e row x -> local_row [g] 0 e row.
  Proof. intros (grp & vi & A1 & A2 & A3 & A4). exists grp, vi. split; [exact A1|]. split; [exact A2|]. split; [|exact A3]. unfold nelements. apply nth_error_Some. congruence. Qed.

  Section One.
    Variables (fd : fdmesh R) (cells : option (list nat)) (m : mesh (enodes R) A (list R)) (os after : list R).
    Hypothesis Hp : proper_cells fd.
    Hypothesis Hc : proper_coords fd.
    Hypothesis Hj : forall v, length (junk v) = fd_gdim fd.
    Hypothesis Hi : imp fd cells = Ok (m, os, after).

    Lemma import_rows : exists old g vertices, m_groups m = [g] /\ m_vertices m = Some vertices /\ renumbering fd cells old /\ eg_fvi g = fvi /\
      nelements g = length (cells_of fd cells) /\ rows_of fd cells old g (negs R os).
    Proof.
      destruct (import_elements R aff_id M fvi junk normals fd cells m os after Hp Hc Hj Hi) as (old & g & vs & A1 & A2 & A3 & _ & _ & A5 & A6 & A7 & A8 & A9 & _).
      exists old, g, vs. split; [exact A1|]. split; [exact A2|]. split; [exact A3|]. split; [exact A5|]. split; [exact A6|].
      split; [unfold negs; now rewrite map_length|]. intros e c He. destruct (A9 e c He) as (row & o & w & x & pts & B1 & B2 & B3 & B4 & _).
      exists row, (olt o r0), w. split; [exact B1|]. split; [unfold negs; now rewrite nth_error_map, B2|]. split; [|exact B4]. eapply elem_local; eauto.
    Qed.

    Hypothesis Hs : simplex_faces (fd_tdim fd) fvi.
    Hypothesis Hf : proper_facets fd.

    Lemma import_dims : 1 <= fd_tdim fd.
    Proof. destruct (import_inv R aff_id M fvi junk normals fd cells m os after Hi) as (_ & H1 & H2 & H3 & _). apply (dims_ok R fd H1 H2 H3). Qed.

    Lemma import_boundary : proper_markers fd ->
      exists old g l, m_groups m = [g] /\ renumbering fd cells old /\ m_facial m = Available [l] /\
        (forall e f, in_bdry l TAll (e, f) <-> exists c k, In (c, k) (fd_exterior fd) /\ is_facet fd cells old g e f c k) /\
        (forall n e f, in_bdry l (TUser n) (e, f) <->
           exists i c k, nth_error (fd_exterior fd) i = Some (c, k) /\ marked fd i n /\ is_facet fd cells old g e f c k).
    Proof.
      intros Hm. destruct import_rows as (old & g & vs & A1 & A2 & A3 & A4 & A5 & A6). pose proof import_dims as Hd.
      destruct (import_inv R aff_id M fvi junk normals fd cells m os after Hi) as (Hch & _ & _ & _ & rn & rows & nv & cnl & pts & nodes & dofs & vertices & perm & g' & fags & fags' & l & _ & _ & _ & _ & _ & _ & _ & _ & _ & _ & E1 & E2 & E3 & Em).
      exists old, g, l. split; [exact A1|]. split; [exact A3|]. split; [now rewrite Em|].
      destruct (face_numbers_ok (fd_tdim fd) fvi Hs) as (dct & Edct & D1 & D2).
      destruct (facial_tags aff_id fvi fd cells fags dct Hs Hch Hf Hm E1 Edct) as (T1 & T2 & T3 & T4).
      assert (Hcar : carries fags' TAll).
      { destruct T2 as (b & Hb & Ht). apply mapM_ok in E2. destruct (Forall2_In_l _ _ _ _ E2 Hb) as (b' & Hb' & Hfl). exists b'. split; [exact Hb'|].
        destruct b; cbn [flip_group bdry_tag] in *; [discriminate| |exfalso; apply (T1 _ Hb); exact I]. apply bind_ok in Hfl as (fs' & _ & Hfl). injection Hfl as <-. exact Ht. }
      assert (Hside : forall c k e f0 e' f, k <= fd_tdim fd -> nth_error (cells_of fd cells) e = Some c -> dict_get dct k = Ok f0 ->
        (flip_side (zero_one_faces fvi) (negs R os) (e, f0) = Ok (e', f) <-> e' = e /\ is_facet fd cells old g e f c k)).
      { intros c k e f0 e' f Hk He Hg. rewrite (flip_side_ok (fd_tdim fd) fvi Hd Hs dct (negs R os) e k f0 Edct Hk Hg). unfold side_to. split.
        - intros (neg & f' & B1 & B2 & B3). injection B2 as -> ->. split; [reflexivity|].
          exact (proj1 (facet_iff fd cells old g (negs R os) fvi e c neg k f' Hp Hs Hd A4 A6 He B1 Hk) B3).
        - intros (-> & Hfa). assert (He' : e < length (negs R os)) by (rewrite (proj1 A6); apply nth_error_Some; congruence).
          destruct (nth_error (negs R os) e) as [neg|] eqn:En; [|apply nth_error_None in En; lia]. exists neg, f. split; [reflexivity|]. split; [reflexivity|].
          exact (proj2 (facet_iff fd cells old g (negs R os) fvi e c neg k f Hp Hs Hd A4 A6 He En Hk) Hfa). }
      destruct Hf as (P1 & _). split.
      - intros e f. rewrite (in_bdry_complete fags' l TAll (e, f) E3 (or_intror Hcar)), (in_bdry_flip aff_id _ _ _ _ TAll (e, f) T1 E2). split.
        + intros (s & Hs1 & Hs2). apply T3 in Hs1 as (c & k & e0 & f0 & B1 & B2 & B3 & ->). pose proof (proj2 (P1 _ B1)) as Hk. cbn [snd] in Hk.
          apply (Hside c k e0 f0 e f Hk B2 B3) in Hs2 as (-> & Hfa). exists c, k. auto.
        + intros (c & k & B1 & Hfa). pose proof (proj2 (P1 _ B1)) as Hk. cbn [snd] in Hk. pose proof (proj1 Hfa) as He.
          destruct (D1 k Hk) as (f0 & face & B3 & _). exists (e, f0). split; [apply T3; exists c, k, e, f0; auto|]. apply (Hside c k e f0 e f Hk He B3). auto.
      - intros n e f. rewrite (in_bdry_complete fags' l (TUser n) (e, f) E3), (in_bdry_flip aff_id _ _ _ _ (TUser n) (e, f) T1 E2).
        2:{ left. intros [E|[E|[E|[]]]]; discriminate. }
        split.
        + intros (s & Hs1 & Hs2). apply T4 in Hs1 as (i & c & k & e0 & f0 & B1 & Bm & B2 & B3 & ->). pose proof (proj2 (P1 _ (nth_error_In _ _ B1))) as Hk. cbn [snd] in Hk.
          apply (Hside c k e0 f0 e f Hk B2 B3) in Hs2 as (-> & Hfa). exists i, c, k. auto.
        + intros (i & c & k & B1 & Bm & Hfa). pose proof (proj2 (P1 _ (nth_error_In _ _ B1))) as Hk. cbn [snd] in Hk. pose proof (proj1 Hfa) as He.
          destruct (D1 k Hk) as (f0 & face & B3 & _). exists (e, f0). split; [apply T4; exists i, c, k, e, f0; auto 10|]. apply (Hside c k e f0 e f Hk He B3). auto.
    Qed.

    (** ** Nodal adjacency *)
    Lemma import_nodal : exists g starts nbs, m_groups m = [g] /\ m_nodal m = Available (starts, nbs) /\ length starts = S (nelements g) /\
      (forall e, e < nelements g -> exists ns, csr_row starts nbs e ns) /\
      (forall e row ns, local_row [g] 0 e row -> csr_row starts nbs e ns ->
         (forall e', In e' ns -> e' < nelements g) /\
         (forall e' row', local_row [g] 0 e' row' -> count_occ Nat.eq_dec ns e' = if e =? e' then 0 else common row row')).
    Proof using Hp Hc Hj Hi.
      destruct import_rows as (old & g & vs & A1 & A2 & A3 & A4 & A5 & A6).
      destruct (import_inv R aff_id M fvi junk normals fd cells m os after Hi) as (Hch & _ & _ & _ & rn & rows & nv & cnl & pts & nodes & dofs & vertices & perm & g' & fags & fags' & l & E1 & _ & _ & _ & _ & _ & _ & _ & _ & _ & _ & _ & _ & Em).
      destruct (nodal_info_ok fd cells Hp Hch) as (rows0 & starts & nbs & E1' & HF & N1 & N2 & N3). rewrite E1 in E1'. injection E1' as ->.
      pose proof (Forall2_length' _ _ _ HF) as L. exists g, starts, nbs. split; [exact A1|]. split; [now rewrite Em|]. rewrite A5, L. split; [exact N1|]. split; [exact N2|].
      assert (Hloc : forall e row, local_row [g] 0 e row -> exists row0 vs0, nth_error rows0 e = Some row0 /\ stands_for old vs0 row0 /\ Permutation row vs0).
      { intros e row Hr. assert (He : e < length (cells_of fd cells)) by (rewrite <- A5; destruct Hr as (g1 & v1 & B1 & _ & B3 & _); cbn [nth_error] in B1; congruence).
        destruct (nth_error (cells_of fd cells) e) as [c|] eqn:Ec; [|apply nth_error_None in Ec; lia].
        destruct (proj2 A6 e c Ec) as (row0 & neg & v0 & B1 & B2 & B3 & B4). destruct (Forall2_nth_error _ _ _ _ _ HF Ec) as (row1 & Hr1 & Hcv).
        rewrite (cell_verts_fun fd c row1 row0 Hcv B1) in Hr1. exists row0, v0. split; [exact Hr1|]. split; [exact B4|].
        rewrite (local_row_fun g e row (swapped neg v0) Hr B3). unfold swapped. destruct neg; [apply swap01_perm|reflexivity]. }
      intros e row ns Hr Hns. destruct (Hloc e row Hr) as (row0 & v0 & R1 & R2 & R3). destruct (N3 e row0 ns R1 Hns) as (N4 & N5). split; [exact N4|].
      intros e' row' Hr'. destruct (Hloc e' row' Hr') as (row0' & v0' & R1' & R2' & R3'). rewrite (N5 e' row0' R1'). destruct (e =? e'); [reflexivity|].
      rewrite (common_perm row v0 row' v0' R3 R3').
      assert (Hmap : forall v w, stands_for old v w -> w = map (fun i => nth i old 0) v).
      { intros v w H. induction H as [|i x v w H1 H2 IH]; [reflexivity|]. cbn [map]. f_equal; [|exact IH]. symmetry. now apply nth_error_nth. }
      rewrite (Hmap v0 row0 R2), (Hmap v0' row0' R2').
      apply (common_map (fun i => nth i old 0) (fun i => i < length old)); [|eapply stands_range; eauto|eapply stands_range; eauto].
      intros x y Hx Hy E. assert (Hon : NoDup old).
      { destruct cells; cbn [renumbering] in A3; [apply incr_NoDup, A3|subst old; apply seq_NoDup]. }
      apply (proj1 (NoDup_nth old 0) Hon); assumption.
    Qed.

    (** ** Orientation *)
    Lemma import_oriented : fd_gdim fd = fd_tdim fd -> exists g vertices, m_groups m = [g] /\ m_vertices m = Some vertices /\
      nelements g = length (cells_of fd cells) /\
      forall e row x b xs, elem_at [g] 0 e row x -> Forall2 (fun v y => nth_error vertices v = Some y) row (b :: xs) ->
        ole r0 (det R (fd_tdim fd) (map (fun y => vsub y b) xs)) = true.
    Proof using Hp Hc Hj Hi.
      intros Hdim. destruct (import_elements R aff_id M fvi junk normals fd cells m os after Hp Hc Hj Hi) as (old & g & vs & A1 & A2 & A3 & _ & A4' & A5 & A6 & A7 & A8 & A9 & _ & A10).
      exists g, vs. split; [exact A1|]. split; [exact A2|]. split; [exact A6|]. intros e row x b xs He HF.
      destruct (import_inv R aff_id M fvi junk normals fd cells m os after Hi) as (_ & G1 & _).
      assert (Hlt : e < length (cells_of fd cells)) by (rewrite <- A6; destruct (elem_local g e row x He) as (g1 & v1 & B1 & _ & B3 & _); cbn [nth_error] in B1; congruence).
      destruct (nth_error (cells_of fd cells) e) as [c|] eqn:Ec; [|apply nth_error_None in Ec; lia].
      destruct (A9 e c Ec) as (row0 & o & v0 & x0 & pts & B1 & B2 & B3 & B4 & _ & _ & B5). specialize (B5 Hdim).
      assert (Erow : row = swapped (olt o r0) v0) by (eapply local_row_fun; eapply elem_local; eauto).
      destruct (proper_rows fd c row0 Hp B1) as (_ & Hlen & _). pose proof (stands_length _ _ _ B4) as Hvl.
      assert (Hlr : length row = fd_tdim fd + 1) by (rewrite Erow; unfold swapped; destruct (olt o r0); [rewrite (Permutation_length (swap01_perm v0))|]; lia).
      assert (Hxy : forall y, In y (b :: xs) -> length y = fd_tdim fd).
      { intros y Hy. destruct (Forall2_In_r _ _ _ _ HF Hy) as (v & _ & Hv). rewrite <- Hdim. rewrite Forall_forall in A10. apply A10. eapply nth_error_In; eauto. }
      pose proof (Forall2_length' _ _ _ HF) as HlF. cbn [length] in HlF.
      assert (Hdet : element_orientation R 0 (seq 1 (fd_tdim fd)) vs row = Ok (det R (fd_tdim fd) (map (fun y => vsub y b) xs))).
      { apply orientation_det; [lia|apply Hxy; now left|lia|apply Forall_forall; intros y Hy; apply Hxy; now right|exact HF]. }
      destruct (olt o r0) eqn:Eo; cbn [swapped] in Erow.
      - destruct v0 as [|w0 [|w1 rest]]; cbn [length] in Hvl; try lia. cbn [swap01] in Erow.
        destruct (orientation_swap R (fd_tdim fd) vs w0 w1 rest) as (o' & O1 & O2); [lia|lia|rewrite <- Hdim; exact A10|rewrite A4'; eapply stands_range; eauto|].
        assert (o' = o) by congruence. subst o'. rewrite Erow, O2 in Hdet. injection Hdet as <-.
        apply olt_nle in Eo. apply le_diff in Eo. rewrite <- Eo. f_equal. ring.
      - rewrite Erow in Hdet. rewrite B5 in Hdet. injection Hdet as <-. unfold olt in Eo. now apply negb_false_iff in Eo.
    Qed.
  End One.

  (** ** Interior adjacency *)
  Section Interior.
    Variables (fd : fdmesh R) (m : mesh (enodes R) A (list R)) (os after : list R).
    Hypothesis Hp : proper_cells fd.
    Hypothesis Hc : proper_coords fd.
    Hypothesis Hj : forall v, length (junk v) = fd_gdim fd.
    Hypothesis Hi : imp fd None = Ok (m, os, after).
    Hypothesis Hs : simplex_faces (fd_tdim fd) fvi.
    Hypothesis Hf : proper_facets fd.

    Lemma flat_pairs_F2 {X Y} (P : X -> Y -> Prop) l r : Forall2 (fun a b => P (fst a) (fst b) /\ P (snd a) (snd b)) l r -> Forall2 P (flat_pairs l) (flat_pairs r).
    Proof. induction 1 as [|a b l r (H1 & H2) H IH]; cbn [flat_pairs flat_map app]; [constructor|]. constructor; [exact H1|]. constructor; [exact H2|exact IH]. Qed.
    Lemma ones_zeros_F2 {X Y} (P : X -> Y -> Prop) l r : Forall2 (fun a b => P (fst a) (fst b) /\ P (snd a) (snd b)) l r -> Forall2 P (ones_zeros l) (ones_zeros r).
    Proof.
      intros H. unfold ones_zeros. apply Forall2_app; apply Forall2_map_l, Forall2_map_r; (eapply Forall2_impl; [|exact H]); cbn; intros a b H'; apply H'.
    Qed.

    Lemma import_interior : exists g l es, m_groups m = [g] /\ m_facial m = Available [l] /\ fd_interior fd <> [] /\ length es = 2 * length (fd_interior fd) /\
      (forall a b, interior_adj [l] (0, fst a, snd a) (0, fst b, snd b) <-> In (a, b) es) /\
      (forall i ea eb, nth_error es i = Some (ea, eb) <->
         exists sa sb, nth_error (flat_pairs (fd_interior fd)) i = Some sa /\ nth_error (ones_zeros (fd_interior fd)) i = Some sb /\
           is_facet fd None (seq 0 (fd_nverts fd)) g (fst ea) (snd ea) (fst sa) (snd sa) /\
           is_facet fd None (seq 0 (fd_nverts fd)) g (fst eb) (snd eb) (fst sb) (snd sb)).
    Proof.
      destruct (import_rows fd None m os after Hp Hc Hj Hi) as (old & g & vs & A1 & A2 & A3 & A4 & A5 & A6). cbn [renumbering] in A3. subst old.
      pose proof (import_dims fd None m os after Hi) as Hd.
      destruct (import_inv R aff_id M fvi junk normals fd None m os after Hi) as (Hch & _ & _ & _ & rn & rows & nv & cnl & pts & nodes & dofs & vertices & perm & g' & fags & fags' & l & _ & _ & _ & _ & _ & _ & _ & _ & _ & _ & E1 & E2 & E3 & Em).
      destruct (facial_parts aff_id fvi fd None fags E1) as (dct & es0 & ie & xm & idx & F1 & F2 & F3 & F4 & F5 & Efags). subst ie. cbn [fst] in Efags.
      destruct (face_numbers_ok (fd_tdim fd) fvi Hs) as (dct' & Edct & D1 & D2). assert (dct' = dct) by congruence. subst dct'.
      unfold interior_entries in F2. apply bind_ok in F2 as (sides & Hsd & F2). apply bind_ok in F2 as (u & Hu & F2). apply guard_ok' in Hu. injection F2 as <-.
      apply mapM_ok in Hsd.
      set (fsd := fun (s : nat * nat) (ef : nat * nat) => dict_get dct (snd s) = Ok (snd ef) /\ fst ef = fst s).
      assert (Hsides : Forall2 (fun a b => fsd (fst a) (fst b) /\ fsd (snd a) (snd b)) (fd_interior fd) sides).
      { eapply Forall2_impl; [|exact Hsd]. intros (a, b) (a', b') H. cbn [fst snd] in *. apply bind_ok in H as (x & Hx & H). apply bind_ok in H as (y & Hy & H). injection H as <- <-.
        apply mapped_side_eq in Hx as (f & Hf1 & ->), Hy as (f' & Hf2 & ->). split; split; cbn [fst snd]; auto. }
      rewrite Efags in E2. cbn [mapM] in E2. apply bind_ok in E2 as (b1 & Hb1 & E2). apply bind_ok in E2 as (rest & Hrest & E2). injection E2 as <-.
      cbn [flip_group] in Hb1. apply bind_ok in Hb1 as (es & Hes & Hb1). injection Hb1 as <-.
      destruct (complete_spec [Interior 0 0 es aff_id :: rest]) as (r' & Hr & _ & _ & Hsp). pose proof (eq_trans (eq_sym E3) Hr) as E. injection E as <-.
      destruct (Hsp 0 _ eq_refl) as (ex & Hl & _ & _ & Hex). cbn [nth_error] in Hl. injection Hl as ->.
      exists g, ((Interior 0 0 es aff_id :: rest) ++ ex), es. split; [exact A1|]. split; [now rewrite Em|]. split.
      { intros E. rewrite E in Hsd. inversion Hsd; subst sides. discriminate. }
      assert (Hnoint : forall b, In b (rest ++ ex) -> forall g1 g2 es' aff, b <> Interior g1 g2 es' aff).
      { intros b Hb g1 g2 es' aff ->. apply in_app_iff in Hb as [Hb|Hb].
        - apply mapM_ok in Hrest. destruct (Forall2_In_r _ _ _ _ Hrest Hb) as (b0 & Hb0 & Hfl).
          assert (Hbd : exists g0 t fs, b0 = Boundary g0 t fs).
          { apply in_app_iff in Hb0 as [Hb0|[<-|[]]]; [apply In_marker_groups in Hb0 as (q & t & fs & _ & -> & _)|]; eauto. }
          destruct Hbd as (g0 & t & fs & ->). cbn [flip_group] in Hfl. apply bind_ok in Hfl as (? & _ & Hfl). discriminate.
        - destruct (Hex _ Hb) as (t & fs & E & _). discriminate. }
      split.
      { apply mapM_ok in Hes. rewrite <- (Forall2_length' _ _ _ Hes), combine_length, <- (Forall2_length' _ _ _ (flat_pairs_F2 fsd _ _ Hsides)), <- (Forall2_length' _ _ _ (ones_zeros_F2 fsd _ _ Hsides)).
        unfold flat_pairs, ones_zeros. rewrite app_length, !map_length, flat_map_concat_map. assert (Hcc : forall l0 : list ((nat * nat) * (nat * nat)), length (concat (map (fun p => [fst p; snd p]) l0)) = 2 * length l0).
        { induction l0 as [|q l0 IH]; [reflexivity|]. cbn [map concat length app]. rewrite IH. lia. }
        rewrite Hcc. lia. }
      split.
      { intros (e, f) (e', f'). cbn [fst snd]. unfold interior_adj. split.
        - intros (l0 & es' & aff & Hl0 & Hin & Hin'). cbn [nth_error] in Hl0. injection Hl0 as <-. destruct Hin as [E|Hin]; [injection E as <- <-; exact Hin'|].
          exfalso. eapply Hnoint; eauto.
        - intros Hin. eexists _, es, aff_id. split; [reflexivity|]. split; [now left|exact Hin]. }
      apply mapM_ok in Hes.
      (* one side *)
      assert (Hone : forall s ef r, proper_side fd s -> fsd s ef -> (flip_side (zero_one_faces fvi) (negs R os) ef = Ok r <-> is_facet fd None (seq 0 (fd_nverts fd)) g (fst r) (snd r) (fst s) (snd s))).
      { intros (c, k) (e0, f0) (e, f) (Hcl & Hk) (Hg & Hec). cbn [fst snd] in *. subst e0. assert (He : nth_error (cells_of fd None) c = Some c) by (cbn [cells_of]; now rewrite seq_nth_ok).
        rewrite (flip_side_ok (fd_tdim fd) fvi Hd Hs dct (negs R os) c k f0 Edct Hk Hg). unfold side_to. split.
        - intros (neg & f' & B1 & B2 & B3). injection B2 as -> ->. exact (proj1 (facet_iff fd None _ g (negs R os) fvi c c neg k f' Hp Hs Hd A4 A6 He B1 Hk) B3).
        - intros Hfa. pose proof (proj1 Hfa) as He'. cbn [cells_of] in He'. apply seq_nth_eq in He' as (-> & _). cbn [plus] in *.
          assert (He'' : e < length (negs R os)) by (rewrite (proj1 A6); apply nth_error_Some; congruence).
          destruct (nth_error (negs R os) e) as [neg|] eqn:En; [|apply nth_error_None in En; lia]. exists neg, f. split; [reflexivity|]. split; [reflexivity|].
          exact (proj2 (facet_iff fd None _ g (negs R os) fvi e e neg k f Hp Hs Hd A4 A6 He En Hk) Hfa). }
      pose proof (flat_pairs_F2 fsd _ _ Hsides) as HX. pose proof (ones_zeros_F2 fsd _ _ Hsides) as HY.
      assert (HPX : Forall (proper_side fd) (flat_pairs (fd_interior fd))).
      { apply Forall_forall. intros s Hin. unfold flat_pairs in Hin. apply in_flat_map in Hin as ((a, b) & Hab & Hin). destruct (proj2 Hf a b Hab) as (P1 & P2 & _).
        cbn in Hin. destruct Hin as [<-|[<-|[]]]; assumption. }
      assert (HPY : Forall (proper_side fd) (ones_zeros (fd_interior fd))).
      { apply Forall_forall. intros s Hin. unfold ones_zeros in Hin. apply in_app_iff in Hin as [Hin|Hin]; apply in_map_iff in Hin as ((a, b) & <- & Hab); destruct (proj2 Hf a b Hab) as (P1 & P2 & _); assumption. }
      rewrite Forall_forall in HPX, HPY.
      intros i ea eb. split.
      - intros H. destruct (Forall2_nth_error_r _ _ _ _ _ Hes H) as ((xa, xb) & Hx & Hfl). cbn [fst snd] in Hfl. apply bind_ok in Hfl as (ra & Hra & Hfl). apply bind_ok in Hfl as (rb & Hrb & Hfl). injection Hfl as -> ->.
        apply nth_error_combine_Some in Hx as (Hxa & Hxb). destruct (Forall2_nth_error_r _ _ _ _ _ HX Hxa) as (sa & Hsa & Fa). destruct (Forall2_nth_error_r _ _ _ _ _ HY Hxb) as (sb & Hsb & Fb).
        exists sa, sb. split; [exact Hsa|]. split; [exact Hsb|]. split.
        + exact (proj1 (Hone sa xa ea (HPX _ (nth_error_In _ _ Hsa)) Fa) Hra).
        + exact (proj1 (Hone sb xb eb (HPY _ (nth_error_In _ _ Hsb)) Fb) Hrb).
      - intros (sa & sb & Hsa & Hsb & Ia & Ib). destruct (Forall2_nth_error _ _ _ _ _ HX Hsa) as (xa & Hxa & Fa). destruct (Forall2_nth_error _ _ _ _ _ HY Hsb) as (xb & Hxb & Fb).
        assert (Hcb : nth_error (combine (flat_pairs sides) (ones_zeros sides)) i = Some (xa, xb)) by (apply nth_error_combine_Some; auto).
        destruct (Forall2_nth_error _ _ _ _ _ Hes Hcb) as (r & Hr' & Hfl). cbn [fst snd] in Hfl.
        rewrite (proj2 (Hone sa xa ea (HPX _ (nth_error_In _ _ Hsa)) Fa) Ia) in Hfl. cbn [bind] in Hfl. rewrite (proj2 (Hone sb xb eb (HPY _ (nth_error_In _ _ Hsb)) Fb) Ib) in Hfl. cbn [bind] in Hfl.
        congruence.
    Qed.
  End Interior.

  (** ** Which meshes can be imported *)
  Section Success.
    Variables (fd : fdmesh R) (cells : option (list nat)).
    Hypothesis Hp : proper_cells fd.
    Hypothesis Hc : proper_coords fd.
    Hypothesis Hj : forall v, length (junk v) = fd_gdim fd.
    Hypothesis Hs : simplex_faces (fd_tdim fd) fvi.
    Hypothesis Hf : proper_facets fd.
    Hypothesis Hm : proper_markers fd.

    Lemma vectorize_ok {X Y} (f : X -> res Y) l r : vectorize f l = Ok r <-> l <> [] /\ mapM f l = Ok r.
    Proof.
      unfold vectorize, guard. destruct l as [|x l]; cbn [length Nat.eqb negb bind]; [split; [discriminate|intros (H & _); congruence]|].
      split; [intros H; split; [discriminate|exact H]|intros (_ & H); exact H].
    Qed.

    Lemma import_needs m os after : imp fd cells = Ok (m, os, after) -> can_import fd cells.
    Proof.
      intros Hi. destruct (import_inv R aff_id M fvi junk normals fd cells m os after Hi) as (Hch & G1 & G2 & G3 & rn & rows & nv & cnl & pts & nodes & dofs & vertices & perm & g' & fags & fags' & l & _ & _ & _ & _ & _ & _ & _ & _ & _ & _ & E1 & _).
      destruct (facial_parts aff_id fvi fd cells fags E1) as (dct & es0 & ie & (exts, mks) & idx & F1 & F2 & F3 & F4 & F5 & _). cbn [fst snd] in *.
      assert (Hcl : forall s, In s (fd_exterior fd) -> fst s < length (fd_closure fd)) by (intros s Hin; apply (proj1 Hf s Hin)).
      destruct (exterior_faces_ok dct fd cells exts mks Hch Hcl Hm F4) as (ix & Hil & X1 & X2 & X3).
      unfold interior_entries in F2. apply bind_ok in F2 as (sides & Hsd & F2). apply bind_ok in F2 as (u & Hu & F2). apply guard_ok' in Hu. injection F2 as <-.
      pose proof (mapM_length _ _ _ Hsd) as Hsl.
      split; [exact Hch|]. split; [intros E; rewrite E in Hsl; cbn [length] in Hsl; rewrite Hsl in Hu; discriminate|].
      split; [intros E E'; unfold nodes_ndim in G3; rewrite E, E' in G3; discriminate|]. split.
      - intros ms i c k mk Ems Hi' Hin Hmk. rewrite Ems in X3. destruct X3 as (ms' & -> & HFm). unfold tag_indices in F5. apply mapM_ok in F5.
        apply In_nth_error in Hin as (e & He). pose proof (X2 i c k e Hi' He) as Hix. destruct (Forall2_In_l _ _ _ _ HFm Hix) as (mk' & Hmk' & Hnm). assert (mk' = mk) by congruence. subst mk'.
        destruct (Forall2_In_l _ _ _ _ F5 Hmk') as (q & _ & Hb). apply bind_ok in Hb as (q' & Hmi & _). apply marker_index_eq in Hmi as (n & us & j & A1 & A2 & A3 & _).
        exists n, us. split; [exact A1|]. split; [exact A2|]. apply index_of_Some in A3. eapply nth_error_In; eauto.
      - intros cs ->. split.
        + unfold restrict_interior in F3. cbn zeta in F3. apply bind_ok in F3 as (els & Hv & _). apply vectorize_ok in Hv as (Hne & _).
          destruct (filter _ _) as [|x kept] eqn:Ek; [cbn [map] in Hne; congruence|]. clear Hne.
          assert (Hx : In x (x :: kept)) by now left. rewrite <- Ek in Hx. apply filter_In in Hx as (Hx & Hmem). apply memb_In in Hmem. destruct x as (a, b). cbn [fst] in Hmem.
          apply in_combine_l in Hx. unfold flat_pairs in Hx. apply in_flat_map in Hx as ((a1, a2) & Hs12 & Ha). cbn in Ha. apply mapM_ok in Hsd.
          destruct (Forall2_In_r _ _ _ _ Hsd Hs12) as ((s1, s2) & Hin & Hb). cbn [fst snd] in Hb. apply bind_ok in Hb as (y1 & Hy1 & Hb). apply bind_ok in Hb as (y2 & Hy2 & Hb). injection Hb as -> ->.
          apply mapped_side_eq in Hy1 as (f1 & _ & ->), Hy2 as (f2 & _ & ->). exists s1, s2. split; [exact Hin|].
          destruct Ha as [<-|[<-|[]]]; cbn [fst] in Hmem; auto.
        + unfold exterior_faces in F4. apply bind_ok in F4 as (xs & Hxs & F4). cbn zeta in F4. apply bind_ok in F4 as (els & Hv & _). apply vectorize_ok in Hv as (Hne & _).
          destruct (compress _ _) as [|x kept] eqn:Ek; [cbn [map] in Hne; congruence|]. clear Hne.
          assert (Hx : In x (x :: kept)) by now left. rewrite <- Ek in Hx. apply In_compress in Hx as (i & Hi1 & Hi2). rewrite nth_error_map, Hi2 in Hi1. cbn [option_map] in Hi1. injection Hi1 as Hmem. apply memb_In in Hmem.
          apply mapM_ok in Hxs. destruct (Forall2_nth_error_r _ _ _ _ _ Hxs Hi2) as (s & Hs' & Hmp). apply mapped_side_eq in Hmp as (f & _ & ->). exists s. split; [eapply nth_error_In; eauto|exact Hmem].
    Qed.

    Lemma facial_total : can_import fd cells -> 1 <= fd_tdim fd -> forall neg, length neg = length (cells_of fd cells) ->
      exists fags fags', facial_groups aff_id fvi fd cells = Ok fags /\ mapM (flip_group aff_id (zero_one_faces fvi) neg) fags = Ok fags'.
    Proof.
      intros (Hch & Hint & _ & Hmk & Hsub) Hd neg Hneg.
      destruct (face_numbers_ok (fd_tdim fd) fvi Hs) as (dct & Edct & D1 & D2).
      assert (Hmap : forall s, proper_side fd s -> exists f, mapped_side dct s = Ok (fst s, f)).
      { intros s (_ & Hk). destruct (D1 (snd s) Hk) as (f & face & Hg & _). exists f. apply mapped_side_eq. eauto. }
      destruct (mapM_total (fun ab => a <- mapped_side dct (fst ab) ;; b <- mapped_side dct (snd ab) ;; Ok (a, b)) (fd_interior fd)) as (sides & Hsd).
      { intros (a, b) Hab. destruct (proj2 Hf a b Hab) as (P1 & P2 & _). cbn [fst snd]. destruct (Hmap a P1) as (f1 & ->), (Hmap b P2) as (f2 & ->). cbn [bind]. eauto. }
      pose proof (mapM_length _ _ _ Hsd) as Hsl. pose proof (proj1 (mapM_ok _ _ _) Hsd) as HFs.
      assert (Hsides : forall a b, In (a, b) sides -> exists s t, In (s, t) (fd_interior fd) /\ fst a = fst s /\ fst b = fst t).
      { intros a b Hab. destruct (Forall2_In_r _ _ _ _ HFs Hab) as ((s, t) & Hst & Hb). cbn [fst snd] in Hb. apply bind_ok in Hb as (y1 & Hy1 & Hb). apply bind_ok in Hb as (y2 & Hy2 & Hb). injection Hb as -> ->.
        apply mapped_side_eq in Hy1 as (f1 & _ & ->), Hy2 as (f2 & _ & ->). exists s, t. auto. }
      assert (Ees : interior_entries dct fd = Ok (combine (flat_pairs sides) (ones_zeros sides))).
      { unfold interior_entries. rewrite Hsd. cbn [bind]. assert (length sides <> 0) by (rewrite Hsl; destruct (fd_interior fd); [congruence|discriminate]).
        destruct (Nat.eqb_spec (length sides) 0); [congruence|]. reflexivity. }
      assert (Hfl : forall e f, e < length (cells_of fd cells) -> exists r, flip_side (zero_one_faces fvi) neg (e, f) = Ok r).
      { intros e f He. destruct (zero_one_faces_ok (fd_tdim fd) fvi Hd Hs) as (z & o & fz & fo & Z1 & _). rewrite Z1. unfold flip_side. cbn [fst snd].
        destruct (get_total neg e) as (n & ->); [lia|]. cbn [bind]. eauto. }
      (* interior part *)
      assert (Hie : exists ie, match cells with None => Ok (combine (flat_pairs sides) (ones_zeros sides), []) | Some cs => restrict_interior cs (combine (flat_pairs sides) (ones_zeros sides)) end = Ok ie /\
        (forall a b, In (a, b) (fst ie) -> fst a < length (cells_of fd cells) /\ fst b < length (cells_of fd cells)) /\
        (forall a, In a (snd ie) -> fst a < length (cells_of fd cells))).
      { destruct cells as [cs|]; cbn [cells_of] in *.
        - destruct (proj1 (Hsub cs eq_refl)) as (s & t & Hst & Hor). unfold restrict_interior. cbn zeta.
          set (es := combine (flat_pairs sides) (ones_zeros sides)). set (kept := filter (fun e : fentry => memb (fst (fst e)) cs) es).
          assert (Hlen : length (flat_pairs sides) = length (ones_zeros sides)).
          { unfold flat_pairs, ones_zeros. rewrite app_length, !map_length. clear. induction sides as [|x l IH]; [reflexivity|]. cbn [flat_map app length] in *. lia. }
          assert (Hne : map (fun e : fentry => fst (fst e)) kept <> []).
          { destruct (Forall2_In_l _ _ _ _ HFs Hst) as ((a, b) & Hab & Hb). cbn [fst snd] in Hb. apply bind_ok in Hb as (y1 & Hy1 & Hb). apply bind_ok in Hb as (y2 & Hy2 & Hb). injection Hb as -> ->.
            apply mapped_side_eq in Hy1 as (f1 & _ & ->), Hy2 as (f2 & _ & ->).
            assert (Hx : exists x, In x (flat_pairs sides) /\ In (fst x) cs).
            { destruct Hor as [H|H]; [exists (fst s, f1)|exists (fst t, f2)]; (split; [unfold flat_pairs; apply in_flat_map; eexists; split; [exact Hab|cbn; auto]|exact H]). }
            destruct Hx as (x & Hx1 & Hx2). apply In_nth_error in Hx1 as (i & Hi). assert (Hlt : i < length (ones_zeros sides)) by (rewrite <- Hlen; apply nth_error_Some; congruence).
            destruct (nth_error (ones_zeros sides) i) as [y|] eqn:Ey; [|apply nth_error_None in Ey; lia].
            assert (Hk : In (x, y) kept) by (apply filter_In; split; [eapply nth_error_In; apply nth_error_combine_Some; eauto|cbn [fst]; now apply memb_In]).
            intros E. apply (in_map (fun e : fentry => fst (fst e))) in Hk. rewrite E in Hk. destruct Hk. }
          destruct (mapM_total (position cs) (map (fun e : fentry => fst (fst e)) kept)) as (els & Hels).
          { intros c Hcc. apply in_map_iff in Hcc as (x & <- & Hx). apply filter_In in Hx as (_ & Hx). apply memb_In in Hx. unfold position.
            destruct (index_of (fst (fst x)) cs) eqn:Ei; [eauto|]. apply index_of_None in Ei. contradiction. }
          rewrite (proj2 (vectorize_ok _ _ _) (conj Hne Hels)). cbn [bind]. eexists. split; [reflexivity|]. cbn [fst snd].
          assert (Hr : forall ie : nat * fentry, In ie (combine els kept) -> fst ie < length cs).
          { intros (i, x) Hin. apply in_combine_l in Hin. apply mapM_ok in Hels. destruct (Forall2_In_r _ _ _ _ Hels Hin) as (c & _ & Hpos). unfold position in Hpos.
            destruct (index_of c cs) eqn:Ei; [|discriminate]. injection Hpos as ->. apply index_of_Some in Ei. cbn [fst]. apply nth_error_Some. congruence. }
          split.
          + intros a b Hin. apply in_flat_map in Hin as (ie & Hie & Hin). destruct (index_of (fst (snd (snd ie))) cs) as [j|] eqn:Ei; [|destruct Hin].
            destruct Hin as [E|[]]. injection E as <- <-. cbn [fst]. split; [auto|]. apply index_of_Some in Ei. apply nth_error_Some. congruence.
          + intros a Hin. apply in_flat_map in Hin as (ie & Hie & Hin). destruct (index_of (fst (snd (snd ie))) cs) as [j|] eqn:Ei; [destruct Hin|].
            destruct Hin as [<-|[]]. cbn [fst]. auto.
        - eexists. split; [reflexivity|]. cbn [fst snd]. rewrite seq_length.
          assert (Hr : forall x, In x (flat_pairs sides) \/ In x (ones_zeros sides) -> fst x < length (fd_closure fd)).
          { intros x Hx. assert (Hx' : exists a b, In (a, b) sides /\ (x = a \/ x = b)).
            { destruct Hx as [Hx|Hx].
              - unfold flat_pairs in Hx. apply in_flat_map in Hx as ((a, b) & Hab & Hx). cbn in Hx. exists a, b. split; [exact Hab|]. destruct Hx as [<-|[<-|[]]]; auto.
              - unfold ones_zeros in Hx. apply in_app_iff in Hx as [Hx|Hx]; apply in_map_iff in Hx as ((a, b) & <- & Hab); exists a, b; auto. }
            destruct Hx' as (a & b & Hab & Hor). destruct (Hsides a b Hab) as (s & t & Hst & E1 & E2). destruct (proj2 Hf s t Hst) as (P1 & P2 & _).
            destruct Hor as [->| ->]; [rewrite E1; apply P1|rewrite E2; apply P2]. }
          split; [|intros a []]. intros a b Hin. split; apply Hr; [left; eapply in_combine_l; eauto|right; eapply in_combine_r; eauto]. }
      destruct Hie as (ie & Eie & I1 & I2).
      (* exterior part *)
      assert (Hx : exists xm, exterior_faces dct fd cells = Ok xm).
      { unfold exterior_faces. destruct (mapM_total (mapped_side dct) (fd_exterior fd)) as (xs & Hxs).
        { intros s Hin. destruct (Hmap s (proj1 Hf s Hin)) as (f & ->). eauto. }
        rewrite Hxs. cbn [bind]. destruct cells as [cs|]; [|eauto]. cbn zeta. destruct (proj2 (Hsub cs eq_refl)) as (s & Hin & Hcs).
        set (kept := compress (map (fun ef : nat * nat => memb (fst ef) cs) xs) xs).
        assert (Hne : map fst kept <> []).
        { apply mapM_ok in Hxs. apply In_nth_error in Hin as (i & Hi). destruct (Forall2_nth_error _ _ _ _ _ Hxs Hi) as (x & Hx & Hmp). apply mapped_side_eq in Hmp as (f & _ & ->).
          assert (Hk : In (fst s, f) kept) by (apply In_compress; exists i; split; [rewrite nth_error_map, Hx; cbn [option_map fst]; f_equal; now apply memb_In|exact Hx]).
          intros E. apply (in_map fst) in Hk. rewrite E in Hk. destruct Hk. }
        destruct (mapM_total (position cs) (map fst kept)) as (els & Hels).
        { intros c Hcc. apply in_map_iff in Hcc as (x & <- & Hx). apply In_compress in Hx as (i & Hi1 & Hi2). rewrite nth_error_map, Hi2 in Hi1. cbn [option_map] in Hi1. injection Hi1 as Hi1. apply memb_In in Hi1.
          unfold position. destruct (index_of (fst x) cs) eqn:Ei; [eauto|]. apply index_of_None in Ei. contradiction. }
        rewrite (proj2 (vectorize_ok _ _ _) (conj Hne Hels)). cbn [bind]. eauto. }
      destruct Hx as ((exts, mks) & Ex). assert (Hcl : forall s, In s (fd_exterior fd) -> fst s < length (fd_closure fd)) by (intros s Hin; apply (proj1 Hf s Hin)).
      destruct (exterior_faces_ok dct fd cells exts mks Hch Hcl Hm Ex) as (ix & Hil & X1 & X2 & X3).
      set (ind := match cells with Some _ => true | None => false end).
      assert (Hidx : exists idx, tag_indices fd ind (length exts) mks = Ok idx).
      { destruct (fd_markers fd) as [ms|] eqn:Ems; [|subst mks; cbn [tag_indices]; eauto]. destruct X3 as (ms' & -> & HFm). cbn [tag_indices]. apply mapM_total. intros mk Hin.
        apply In_nth_error in Hin as (j & Hj1). destruct (Forall2_nth_error_r _ _ _ _ _ HFm Hj1) as (i & Hi & Hmi). destruct (X1 j i Hi) as (c & k & e & f & A1 & A2 & _).
        destruct (Hmk ms i c k mk Ems A1 (nth_error_In _ _ A2) Hmi) as (n & us & -> & Eu & Hin).
        destruct (index_of n us) as [q|] eqn:Eq; [|apply index_of_None in Eq; contradiction].
        rewrite (proj2 (marker_index_eq fd ind (Some n) ((if ind then 1 else 0) + q))); [cbn [bind]; eauto|]. exists n, us, q. auto. }
      destruct Hidx as (idx & Eidx).
      assert (Hexts : forall e f, In (e, f) exts -> e < length (cells_of fd cells)).
      { intros e f Hin. apply In_nth_error in Hin as (j & Hj1). assert (Hlt : j < length ix) by (rewrite Hil; apply nth_error_Some; congruence).
        destruct (nth_error ix j) as [i|] eqn:Ei; [|apply nth_error_None in Ei; lia]. destruct (X1 j i Ei) as (c & k & e' & f' & _ & A2 & A3 & _). assert (e' = e) by congruence. subst e'. apply nth_error_Some. congruence. }
      unfold facial_groups. rewrite Edct. cbn [bind]. cbn zeta. fold ind. rewrite Ees. cbn [bind].
      assert (Eie' : match cells with None => Ok (combine (flat_pairs sides) (ones_zeros sides), []) | Some cs => restrict_interior cs (combine (flat_pairs sides) (ones_zeros sides)) end = Ok ie) by exact Eie.
      rewrite Eie'. cbn [bind]. rewrite Ex. cbn [bind fst snd]. rewrite Eidx. cbn [bind]. eexists.
      match goal with |- exists fags', Ok ?l = Ok _ /\ _ => destruct (mapM_total (flip_group aff_id (zero_one_faces fvi) neg) l) as (fags' & Hfags') end.
      2:{ exists fags'. split; [reflexivity|exact Hfags']. }
      assert (Hfs : forall fs, (forall e f, In (e, f) fs -> e < length (cells_of fd cells)) -> exists fs', mapM (flip_side (zero_one_faces fvi) neg) fs = Ok fs').
      { intros fs Hfs. apply mapM_total. intros (e, f) Hin. apply Hfl. eauto. }
      intros b [<-|Hb]; [|apply in_app_iff in Hb as [Hb|[<-|Hb]]].
      - cbn [flip_group]. match goal with |- context [mapM ?h (fst ie)] => destruct (mapM_total h (fst ie)) as (es' & Hes') end.
        + intros ((e, f), (e', f')) Hin. destruct (I1 _ _ Hin) as (L1 & L2). cbn [fst snd] in *. destruct (Hfl e f L1) as (r1 & ->), (Hfl e' f' L2) as (r2 & ->). cbn [bind]. eauto.
        + rewrite Hes'. cbn [bind]. eauto.
      - apply In_marker_groups in Hb as (q & t & fs & _ & -> & _ & Efs). cbn [flip_group]. destruct (Hfs fs) as (fs' & ->); [|cbn [bind]; eauto].
        intros e f Hin. rewrite Efs in Hin. apply In_compress in Hin as (j & _ & Hj1). eapply Hexts, nth_error_In, Hj1.
      - cbn [flip_group]. destruct (Hfs exts Hexts) as (fs' & ->). cbn [bind]. eauto.
      - destruct ind; [destruct Hb as [<-|[]]|destruct Hb]. cbn [flip_group]. destruct (Hfs (snd ie)) as (fs' & ->); [|cbn [bind]; eauto]. intros e f Hin. apply (I2 (e, f) Hin).
    Qed.

    Lemma import_total : 1 <= fd_tdim fd -> fd_gdim fd <= 3 -> (fd_gdim fd = fd_tdim fd \/ fd_gdim fd = fd_tdim fd + 1) ->
      length (fd_orient fd) = length (fd_closure fd) -> can_import fd cells -> exists r, imp fd cells = Ok r.
    Proof.
      intros Hd Hg3 Hg Hol Hcan. pose proof Hcan as (Hch & Hint & Hcurve & _ & Hsub). pose proof Hc as (C1 & C2 & C3 & C4 & C5).
      assert (Hne : cells_of fd cells <> []).
      { destruct (fd_interior fd) as [|(s, t) rest] eqn:Ei; [congruence|]. destruct cells as [cs|]; cbn [cells_of].
        - destruct (proj1 (Hsub cs eq_refl)) as (s' & t' & _ & [H|H]) ; intros E; subst cs; destruct H.
        - destruct (proj2 Hf s t) as ((P1 & _) & _); [rewrite Ei; now left|]. intros E. apply (f_equal (@length nat)) in E. rewrite seq_length in E. cbn [length] in E. lia. }
      unfold import_mesh.
      assert (E0 : match cells with None => Ok tt | Some cs => _ <- guard (length (unique cs) =? length cs) AssertionError ;; guard (forallb (fun c => c <? length (fd_closure fd)) cs) AssertionError end = Ok tt).
      { destruct cells as [cs|]; [|reflexivity]. destruct Hch as (H1 & H2). cbn [cells_of] in *. rewrite (NoDup_unique_length cs H1), Nat.eqb_refl. cbn [guard bind].
        assert (forallb (fun c => c <? length (fd_closure fd)) cs = true) as ->; [|reflexivity]. apply forallb_forall. intros c Hcc. apply Nat.ltb_lt. rewrite Forall_forall in H2. auto. }
      rewrite E0. cbn [bind].
      assert ((1 <=? fd_gdim fd) && (fd_gdim fd <=? 3) = true) as -> by (apply andb_true_iff; split; apply Nat.leb_le; lia). cbn [guard bind].
      assert ((fd_gdim fd =? fd_tdim fd) || (fd_gdim fd =? fd_tdim fd + 1) = true) as -> by (apply orb_true_iff; rewrite !Nat.eqb_eq; exact Hg). cbn [guard bind].
      destruct (nodal_info_ok fd cells Hp Hch) as (rows0 & starts & nbs & En & HF & _). rewrite En. cbn [bind fst snd].
      destruct (renumber_total fd cells rows0 HF Hp Hne) as ((rows, nv) & Er). pose proof Er as Er'. unfold renumber in Er'. rewrite Er'. clear Er'. cbn [bind fst snd].
      destruct (renumber_ok fd cells rows0 rows nv Hp HF Er) as (old & Ho & Hon & Holn & Hst).
      destruct (used_rows_total fd cells (fd_cell_nodes fd) C1 Hch) as (cnl & Ec). rewrite Ec. cbn [bind].
      pose proof (used_rows_ok fd cells (fd_cell_nodes fd) C1 cnl Ec) as HFc.
      assert (Hcnl : forall ns, In ns cnl -> In ns (fd_cell_nodes fd)).
      { intros ns Hns. destruct (Forall2_In_r _ _ _ _ HFc Hns) as (c & _ & Hcc). eapply nth_error_In; eauto. }
      destruct (mapM_total (take (fd_coords fd)) cnl) as (pts & Ept).
      { intros ns Hns. apply take_total. apply Forall_forall. intros n Hn. eauto. }
      rewrite Ept. cbn [bind]. pose proof (proj1 (mapM_ok _ _ _) Ept) as HFp.
      assert (nodes_ndim R fd = 3) as ->. { unfold nodes_ndim. destruct (Nat.eqb_spec (fd_gdim fd) 1), (Nat.eqb_spec (fd_tdim fd) 1); lia. }
      cbn [Nat.eqb guard bind].
      assert (Hpts : forall pt, In pt pts -> Forall (fun p => length p = fd_gdim fd) pt).
      { intros pt Hpt. destruct (Forall2_In_r _ _ _ _ HFp Hpt) as (ns & Hns & Htk). apply take_ok in Htk. apply Forall_forall. intros p Hpp.
        destruct (Forall2_In_r _ _ _ _ Htk Hpp) as (n & _ & Hn). apply C3. eapply nth_error_In; eauto. }
      destruct (mapM_total (by_axis R (fd_gdim fd)) pts) as (nodes & Eno).
      { intros pt Hpt. destruct (by_axis_total R (fd_gdim fd) pt (Hpts pt Hpt)) as (x & Hx & _). eauto. }
      rewrite Eno. cbn [bind]. cbn zeta. pose proof (proj1 (mapM_ok _ _ _) Eno) as HFn.
      destruct (mapM_total (fun l : list nat => match l with [dof] => Ok dof | _ => Err AssertionError end) (fd_vertex_dofs fd)) as (dofs & Edo).
      { intros ld Hl. destruct (C5 ld Hl) as (dof & -> & _). eauto. }
      rewrite Edo. cbn [bind]. pose proof (proj1 (mapM_ok _ _ _) Edo) as HFd.
      pose proof (Forall2_length' _ _ _ HF) as L1. pose proof (Forall2_length' _ _ _ Hst) as L2. pose proof (Forall2_length' _ _ _ HFc) as L3.
      pose proof (Forall2_length' _ _ _ HFp) as L4. pose proof (Forall2_length' _ _ _ HFn) as L5. pose proof (Forall2_length' _ _ _ HFd) as L6.
      assert (Lall : @length (enodes R) nodes = length (cells_of fd cells)) by exact (eq_sym (eq_trans L3 (eq_trans L4 L5))).
      assert (Hrowlen : forall vs, In vs rows -> length vs = fd_tdim fd + 1 /\ Forall (fun v => v < nv) vs).
      { intros vs Hvs. destruct (Forall2_In_l _ _ _ _ Hst Hvs) as (row & Hrow & Hsv). destruct (Forall2_In_r _ _ _ _ HF Hrow) as (c & _ & Hcv).
        rewrite (stands_length _ _ _ Hsv). split; [apply (proper_rows fd c row Hp Hcv)|]. rewrite <- Holn. eapply stands_range; eauto. }
      destruct (record_vertices_ok R (fd_gdim fd) dofs (map junk (seq 0 nv)) rows nodes) as (vs & Ev & V1 & V2 & V3).
      { exact (eq_trans L2 (eq_trans (eq_sym L1) (eq_trans L3 (eq_trans L4 L5)))). }
      { apply Forall_forall. intros v Hvs. destruct (Hrowlen v Hvs) as (Hl & Hr). rewrite map_length, seq_length. split; [lia|exact Hr]. }
      { apply Forall_forall. intros x Hx. destruct (Forall2_In_r _ _ _ _ HFn Hx) as (pt & Hpt & Eb). destruct (by_axis_axes R _ _ _ Eb) as (A1 & A2).
        split; [exact A1|]. intros nr Hnr. apply Forall_forall. intros axis Ha. apply In_nth_error in Ha as (a & Ha). destruct (A2 a axis Ha) as (-> & _).
        destruct (Forall2_In_r _ _ _ _ HFp Hpt) as (ns & Hns & Etk). apply take_ok in Etk. rewrite <- (Forall2_length' _ _ _ Etk).
        destruct (Forall2_In_r _ _ _ _ HFd Hnr) as (ld & Hld & Ed). destruct (C5 ld Hld) as (dof' & -> & Hdn). injection Ed as <-. apply Hdn. auto. }
      { apply Forall_forall. intros p Hpp. apply in_map_iff in Hpp as (v & <- & _). apply Hj. }
      rewrite map_length, seq_length in V1. cbn zeta. rewrite Ev. cbn [bind].
      assert (Hor : exists os af, orientations R fd cells normals vs rows = Ok (os, af) /\ length os = length (cells_of fd cells)).
      { unfold orientations. destruct (Nat.eqb_spec (fd_gdim fd) (fd_tdim fd)) as [Heq|Hneq].
        - unfold volume_orientations. destruct (mapM_total (element_orientation R 0 (seq 1 (fd_tdim fd)) vs) rows) as (os & Eos).
          + intros row Hrow. destruct (Hrowlen row Hrow) as (Hl & Hr). rewrite <- V1 in Hr. destruct (take_total vs row Hr) as (ys & Hys). apply take_ok in Hys.
            pose proof (Forall2_length' _ _ _ Hys) as Hyl. destruct ys as [|b xs]; cbn [length] in Hyl; [lia|].
            assert (Hxy : forall y, In y (b :: xs) -> length y = fd_tdim fd).
            { intros y Hy. destruct (Forall2_In_r _ _ _ _ Hys Hy) as (v & _ & Hv). rewrite <- Heq. rewrite Forall_forall in V2. apply V2. eapply nth_error_In; eauto. }
            eexists. apply (orientation_det R _ _ _ b xs); [lia|apply Hxy; now left| |apply Forall_forall; intros y Hy; apply Hxy; now right|exact Hys]. lia.
          + rewrite Eos. cbn [bind]. do 2 eexists. split; [reflexivity|]. rewrite (mapM_length _ _ _ Eos). lia.
        - assert (Hcase : fd_tdim fd = 2 /\ fd_gdim fd = 3) by (destruct (Nat.eq_dec (fd_tdim fd) 1); lia). destruct Hcase as (Et & Eg). rewrite Et, Eg. cbn [Nat.eqb andb].
          destruct (used_rows_total fd cells (fd_orient fd) Hol Hch) as (os & Eos). rewrite Eos. cbn [bind]. do 2 eexists. split; [reflexivity|].
          rewrite map_length. symmetry. apply (Forall2_length' _ _ _ (used_rows_ok fd cells (fd_orient fd) Hol os Eos)). }
      destruct Hor as (os & af & Eor & Hlo). rewrite Eor. cbn [bind fst snd].
      pose proof (facial_total Hcan Hd (negs R os)) as Hft.
      destruct (fd_tdim fd) as [|d] eqn:Ed; [lia|]. rewrite simplex_perm_ok. cbn [bind].
      assert (Hfl : flippable R (1 :: 0 :: seq 2 d) (mk_egroup (Some rows) nodes fvi)).
      { exists rows. cbn [eg_vi]. split; [reflexivity|]. split; [unfold nelements; cbn [eg_nodes]; lia|]. apply Forall_forall. intros v Hvs.
        destruct (Hrowlen v Hvs) as (Hl & _). rewrite Hl. cbn [length]. rewrite seq_length. lia. }
      assert (Hneg : length (negs R os) = nelements (mk_egroup (Some rows) nodes fvi)) by (unfold negs, nelements; cbn [eg_nodes]; rewrite map_length; lia).
      destruct (flip_group_spec R M (1 :: 0 :: seq 2 d) (negs R os) _ (simplex_perm_involutive d) Hfl Hneg) as (g & Eg & _).
      match goal with |- context [flip_element_group ?a ?b ?c ?dd ?e] => assert (Eg' : flip_element_group a b c dd e = Ok g) by exact Eg end.
      rewrite Eg'. cbn [bind].
      destruct Hft as (fags & fags' & Ef & Ef'); [unfold negs; rewrite map_length; lia|].
      rewrite Ef. cbn [bind]. match goal with |- context [mapM ?h fags] => assert (Ef'' : mapM h fags = Ok fags') by exact Ef' end. rewrite Ef''. cbn [bind].
      unfold make_mesh. cbn [none_to_false truthy]. destruct (complete_ok [fags']) as (r & Er2 & _). rewrite Er2. cbn [bind]. eauto.
    Qed.
  End Success.
End Main.
