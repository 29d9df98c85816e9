(** * FdProps: theorems C116-C124 about importing Firedrake meshes. *)
From Coq Require Import List Arith Bool Lia Permutation ZArith.
From Verif Require Import Np NpFacts MeshModel MeshSpec MeshStateModel Lin ProcModel ProcSpec Ord ConsistModel FdModel FdSpec FdProofs FdImportProofs FdFacialProofs FdMainProofs.
Import ListNotations.

Section Props.
  Variable R : ocring.
  Context {A : Type}.
  Variable aff_id : A.
  Variables (M : list (list R)) (fvi : list (list nat)) (junk : nat -> list R) (normals : option (list (list R))).
  Notation imp := (import_mesh R aff_id M fvi junk normals).

  (** ** C116: elements are the cells *)
  Theorem C116_imported_elements fd cells m os after :
    proper_cells fd -> proper_coords fd -> (forall v, length (junk v) = fd_gdim fd) ->
    imp fd cells = Ok (m, os, after) ->
    exists old g vertices, m_groups m = [g] /\ m_vertices m = Some vertices /\ renumbering fd cells old /\
      length vertices = length old /\ nelements g = length (cells_of fd cells) /\ length os = nelements g /\
      (forall e c, nth_error (cells_of fd cells) e = Some c ->
         exists row pts o vs x, cell_verts fd c row /\ cell_points fd c pts /\ nth_error os e = Some o /\
           elem_at [g] 0 e vs x /\
           stands_for old vs (if olt o r0 then swap01 row else row) /\
           exists y, axes_of (fd_gdim fd) pts y /\ x = if olt o r0 then map (matvec M) y else y) /\
      (continuous fd -> forall c row k w x v, In c (cells_of fd cells) -> cell_verts fd c row -> nth_error row k = Some w ->
         corner fd c k x -> nth_error old v = Some w -> nth_error vertices v = Some x).
  Proof.
    intros Hp Hc Hj Hi. destruct (import_elements R aff_id M fvi junk normals fd cells m os after Hp Hc Hj Hi) as (old & g & vs & A1 & A2 & A3 & A3' & A4 & A5 & A6 & A7 & _ & A9 & A10 & _).
    exists old, g, vs. split; [exact A1|]. split; [exact A2|]. split; [exact A3|]. split; [exact A4|]. split; [exact A6|]. split; [congruence|]. split.
    - intros e c He. destruct (A9 e c He) as (row & o & w & x & pts & B1 & B2 & B3 & B4 & B5 & B6 & _).
      exists row, pts, o, (swapped (olt o r0) w), (if olt o r0 then map (matvec M) x else x).
      split; [exact B1|]. split; [exact B5|]. split; [exact B2|]. split; [exact B3|]. split; [|exists x; auto].
      unfold swapped. destruct (olt o r0); [now apply swap01_F2|exact B4].
    - intros Hcont c row k w x v Hin Hcv Hk Hx Hv. destruct (A10 c row w v Hin Hcv (nth_error_In _ _ Hk) Hv) as (c' & row' & k' & x' & D1 & D2 & D3 & D4 & D5).
      rewrite D5. f_equal. exact (Hcont c' c row' row k' k w x' x D2 Hcv D3 Hk D4 Hx).
  Qed.

  (** ** C117: volume meshes come out positively oriented *)
  Theorem C117_positive_orientation fd cells m os after :
    proper_cells fd -> proper_coords fd -> (forall v, length (junk v) = fd_gdim fd) -> fd_gdim fd = fd_tdim fd ->
    imp fd cells = Ok (m, os, after) ->
    exists g vertices, m_groups m = [g] /\ m_vertices m = Some vertices /\ nelements g = length (cells_of fd cells) /\
      forall e row x b xs, elem_at [g] 0 e row x -> Forall2 (fun v y => nth_error vertices v = Some y) row (b :: xs) ->
        ole r0 (det R (fd_tdim fd) (map (fun y => vsub y b) xs)) = true.
  Proof. intros Hp Hc Hj Hd Hi. exact (import_oriented R aff_id M fvi junk normals fd cells m os after Hp Hc Hj Hi Hd). Qed.

  (** On surfaces, the orientation is the flag of Firedrake. *)
  Theorem C117_surface_orientation fd cells m os after :
    fd_tdim fd = 2 -> fd_gdim fd = 3 -> length (fd_orient fd) = length (fd_closure fd) ->
    imp fd cells = Ok (m, os, after) ->
    Forall2 (fun c o => exists flag, nth_error (fd_orient fd) c = Some flag /\ o = (r1 + r1) * flag - r1)%cr (cells_of fd cells) os.
  Proof.
    intros Ht Hg Hl Hi. destruct (import_inv R aff_id M fvi junk normals fd cells m os after Hi) as (_ & _ & _ & _ & rn & rows & nv & cnl & pts & nodes & dofs & vertices & perm & g' & fags & fags' & l & _ & _ & _ & _ & _ & _ & _ & Ho & _).
    unfold orientations in Ho. rewrite Ht, Hg in Ho. cbn [Nat.eqb andb] in Ho. apply bind_ok in Ho as (fl & Hfl & Ho). injection Ho as <- _.
    pose proof (used_rows_ok fd cells (fd_orient fd) Hl fl Hfl) as H. clear -H. induction H as [|c o cs fl Hc _ IH]; cbn [map]; constructor; eauto.
  Qed.

  (** ** C118: nodal adjacency *)
  Theorem C118_nodal_multiplicity fd cells m os after :
    proper_cells fd -> proper_coords fd -> (forall v, length (junk v) = fd_gdim fd) ->
    imp fd cells = Ok (m, os, after) ->
    exists g starts nbs, m_groups m = [g] /\ m_nodal m = Available (starts, nbs) /\ length starts = S (nelements g) /\
      (forall e, e < nelements g -> exists ns, csr_row starts nbs e ns) /\
      (forall e row ns, local_row [g] 0 e row -> csr_row starts nbs e ns ->
         (forall e', In e' ns -> e' < nelements g) /\
         (forall e' row', local_row [g] 0 e' row' -> count_occ Nat.eq_dec ns e' = if e =? e' then 0 else common row row')).
  Proof. intros Hp Hc Hj Hi. exact (import_nodal R aff_id M fvi junk normals fd cells m os after Hp Hc Hj Hi). Qed.

  (** ** C119: neighbors are not listed once *)
  Theorem C119_neighbors_repeated fd cells m os after :
    proper_cells fd -> proper_coords fd -> (forall v, length (junk v) = fd_gdim fd) ->
    imp fd cells = Ok (m, os, after) ->
    exists g starts nbs, m_groups m = [g] /\ m_nodal m = Available (starts, nbs) /\
      forall e e' row row' ns, local_row [g] 0 e row -> local_row [g] 0 e' row' -> e <> e' -> 2 <= common row row' ->
        csr_row starts nbs e ns -> ~ NoDup ns.
  Proof.
    intros Hp Hc Hj Hi. destruct (import_nodal R aff_id M fvi junk normals fd cells m os after Hp Hc Hj Hi) as (g & starts & nbs & A1 & A2 & _ & _ & A5).
    exists g, starts, nbs. split; [exact A1|]. split; [exact A2|]. intros e e' row row' ns Hr Hr' Hne Hsh Hns Hnd.
    destruct (A5 e row ns Hr Hns) as (_ & H). specialize (H e' row' Hr'). destruct (Nat.eqb_spec e e'); [contradiction|].
    pose proof (proj1 (NoDup_count_occ Nat.eq_dec ns) Hnd e'). lia.
  Qed.

  (** ** C120: exterior facets and markers *)
  Theorem C120_boundary fd cells m os after :
    proper_cells fd -> proper_coords fd -> (forall v, length (junk v) = fd_gdim fd) ->
    simplex_faces (fd_tdim fd) fvi -> proper_facets fd -> proper_markers fd ->
    imp fd cells = Ok (m, os, after) ->
    exists old g l, m_groups m = [g] /\ renumbering fd cells old /\ m_facial m = Available [l] /\
      (forall e f, in_bdry l TAll (e, f) <-> exists c k, In (c, k) (fd_exterior fd) /\ is_facet fd cells old g e f c k) /\
      (forall n e f, in_bdry l (TUser n) (e, f) <->
         exists i c k, nth_error (fd_exterior fd) i = Some (c, k) /\ marked fd i n /\ is_facet fd cells old g e f c k).
  Proof. intros Hp Hc Hj Hs Hf Hm Hi. exact (import_boundary R aff_id M fvi junk normals fd cells m os after Hp Hc Hj Hi Hs Hf Hm). Qed.

  (** ** C121: interior adjacency *)
  Lemma facet_face {E} fd (g : egroup E) e f c k vs : is_facet (R := R) fd None (seq 0 (fd_nverts fd)) g e f c k -> face_verts [g] (0, e, f) vs ->
    exists ws, facet_verts fd (c, k) ws /\ Permutation vs ws.
  Proof using.
    intros (_ & row & vs' & ws & B1 & B2 & B3 & B4 & B5) Hv.
    assert (vs' = vs).
    { destruct Hv as (ga & ra & fa & A1 & A2 & A3 & A4), B3 as (gb & rb & fb & C1 & C2 & C3 & C4).
      assert (ra = rb) by (eapply local_row_fun; eauto). assert (ga = gb) by congruence. subst. assert (fa = fb) by congruence. subst.
      clear -A4 C4. revert vs' C4. induction A4 as [|x y l r H1 H2 IH]; intros vs' C4; inversion C4; subst; [reflexivity|]. f_equal; [congruence|auto]. }
    subst vs'. exists (remove_nth k row). split; [exists row; auto|].
    assert (vs = ws) as ->; [|exact B5]. clear -B4. unfold stands_for in B4. induction B4 as [|v w vs ws H1 H2 IH]; [reflexivity|]. f_equal; [|exact IH]. apply seq_nth_eq in H1. lia.
  Qed.

  Lemma facet_exists {E} fd (g : egroup E) old e f c k : is_facet (R := R) fd None old g e f c k -> exists vs, face_verts [g] (0, e, f) vs.
  Proof using. intros (_ & row & vs' & ws & B1 & B2 & B3 & B4 & B5). eauto. Qed.

  Lemma flat_pairs_nth {X} (l : list (X * X)) i : nth_error (flat_pairs l) (2 * i) = option_map fst (nth_error l i) /\ nth_error (flat_pairs l) (2 * i + 1) = option_map snd (nth_error l i).
  Proof using.
    revert i. induction l as [|q l IH]; intros [|i]; [now split..|now split|]. destruct (IH i) as (H1 & H2).
    replace (2 * S i) with (S (S (2 * i))) by lia. replace (S (S (2 * i)) + 1) with (S (S (2 * i + 1))) by lia. split; assumption.
  Qed.
  Lemma In_flat_pairs {X} (l : list (X * X)) s : In s (flat_pairs l) <-> exists p, In p l /\ (s = fst p \/ s = snd p).
  Proof using.
    unfold flat_pairs. rewrite in_flat_map. split; intros (p & H1 & H2); exists p; (split; [exact H1|]).
    - destruct H2 as [<-|[<-|[]]]; auto.
    - destruct H2 as [->| ->]; cbn; auto.
  Qed.

  Lemma length_flat_pairs {X} (l : list (X * X)) : length (flat_pairs l) = 2 * length l.
  Proof using. unfold flat_pairs. induction l as [|q l IH]; [reflexivity|]. cbn [flat_map app length]. rewrite IH. lia. Qed.
  Lemma facet_verts_fun (fd : fdmesh R) s v v' : facet_verts fd s v -> facet_verts fd s v' -> v = v'.
  Proof using. intros (r & (i & H1 & H2) & _ & ->) (r' & (i' & H1' & H2') & _ & ->). congruence. Qed.
  Lemma ok_inj {X} (r : res X) a b : r = Ok a -> r = Ok b -> a = b.
  Proof using. congruence. Qed.

  Theorem C121_sides_of_interior_facets fd m os after :
    proper_cells fd -> proper_coords fd -> (forall v, length (junk v) = fd_gdim fd) ->
    simplex_faces (fd_tdim fd) fvi -> proper_facets fd ->
    imp fd None = Ok (m, os, after) ->
    exists g l, m_groups m = [g] /\ m_facial m = Available [l] /\
      forall e f, (exists e' f', interior_adj [l] (0, e, f) (0, e', f')) <->
        exists p c k, In p (fd_interior fd) /\ ((c, k) = fst p \/ (c, k) = snd p) /\ is_facet fd None (seq 0 (fd_nverts fd)) g e f c k.
  Proof.
    intros Hp Hc Hj Hs Hf Hi. destruct (import_interior R aff_id M fvi junk normals fd m os after Hp Hc Hj Hi Hs Hf) as (g & l & es & A1 & A2 & _ & An & A4 & A5).
    exists g, l. split; [exact A1|]. split; [exact A2|]. intros e f. split.
    - intros (e' & f' & H). apply (A4 (e, f) (e', f')) in H. apply In_nth_error in H as (i & H). apply A5 in H as ((c, k) & sb & B1 & _ & B3 & _).
      apply nth_error_In, In_flat_pairs in B1 as (p & P1 & P2). exists p, c, k. auto.
    - intros (p & c & k & P1 & P2 & P3). assert (Hin : In (c, k) (flat_pairs (fd_interior fd))) by (apply In_flat_pairs; eauto).
      apply In_nth_error in Hin as (i & Hn). destruct (nth_error es i) as [(ea, eb)|] eqn:Ees.
      + destruct (proj1 (A5 i ea eb) Ees) as (sa & sb & B1 & B2 & B3 & B4). assert (sa = (c, k)) by congruence. subst sa.
        assert (H : nth_error es i = Some ((e, f), eb)) by (apply A5; exists (c, k), sb; auto).
        destruct eb as (e', f'). exists e', f'. apply (A4 (e, f) (e', f')). eapply nth_error_In; eauto.
      + exfalso. apply nth_error_None in Ees. assert (Hl : i < length (flat_pairs (fd_interior fd))) by (apply nth_error_Some; congruence). rewrite length_flat_pairs in Hl. lia.
  Qed.

  Theorem C121_single_facet fd m os after p :
    proper_cells fd -> proper_coords fd -> (forall v, length (junk v) = fd_gdim fd) ->
    simplex_faces (fd_tdim fd) fvi -> proper_facets fd -> fd_interior fd = [p] ->
    imp fd None = Ok (m, os, after) ->
    exists g l, m_groups m = [g] /\ m_facial m = Available [l] /\
      (forall e f e' f', interior_adj [l] (0, e, f) (0, e', f') <->
         exists s t, (p = (s, t) \/ p = (t, s)) /\ is_facet fd None (seq 0 (fd_nverts fd)) g e f (fst s) (snd s) /\ is_facet fd None (seq 0 (fd_nverts fd)) g e' f' (fst t) (snd t)) /\
      (forall e f e' f', interior_adj [l] (0, e, f) (0, e', f') -> same_verts [g] (0, e, f) (0, e', f')).
  Proof.
    intros Hp Hc Hj Hs Hf Ep Hi. destruct (import_interior R aff_id M fvi junk normals fd m os after Hp Hc Hj Hi Hs Hf) as (g & l & es & A1 & A2 & _ & An & A4 & A5).
    rewrite Ep in An, A5. destruct p as (s, t). exists g, l. split; [exact A1|]. split; [exact A2|].
    assert (Hiff : forall e f e' f', interior_adj [l] (0, e, f) (0, e', f') <->
         exists s0 t0, ((s, t) = (s0, t0) \/ (s, t) = (t0, s0)) /\ is_facet fd None (seq 0 (fd_nverts fd)) g e f (fst s0) (snd s0) /\ is_facet fd None (seq 0 (fd_nverts fd)) g e' f' (fst t0) (snd t0)).
    { intros e f e' f'. rewrite (A4 (e, f) (e', f')). split.
      - intros H. apply In_nth_error in H as (i & H). apply A5 in H as (sa & sb & B1 & B2 & B3 & B4). exists sa, sb. split; [|auto].
        destruct i as [|[|[|i]]]; cbn in B1, B2; try discriminate; injection B1 as <-; injection B2 as <-; auto.
      - intros (s0 & t0 & [E|E] & B3 & B4); injection E as <- <-.
        + apply (nth_error_In es 0), A5. exists s, t. auto.
        + apply (nth_error_In es 1), A5. exists t, s. auto. }
    split; [exact Hiff|]. intros e f e' f' H. apply Hiff in H as (s0 & t0 & E & B3 & B4).
    destruct (proj2 Hf s t) as (_ & _ & vs & vt & V1 & V2 & V3); [rewrite Ep; now left|].
    assert (exists ws wt, facet_verts fd s0 ws /\ facet_verts fd t0 wt /\ Permutation ws wt) as (ws & wt & W1 & W2 & W3).
    { destruct E as [E|E]; injection E as <- <-; [exists vs, vt|exists vt, vs]; auto using Permutation_sym. }
    destruct (facet_exists _ _ _ _ _ _ _ B3) as (va & Ha), (facet_exists _ _ _ _ _ _ _ B4) as (vb & Hb).
    exists va, vb. split; [exact Ha|]. split; [exact Hb|].
    destruct (facet_face _ _ _ _ _ _ _ B3 Ha) as (wa & Wa & Pa), (facet_face _ _ _ _ _ _ _ B4 Hb) as (wb & Wb & Pb).
    rewrite <- surjective_pairing in Wa, Wb. rewrite (facet_verts_fun _ _ _ _ Wa W1) in Pa. rewrite (facet_verts_fun _ _ _ _ Wb W2) in Pb.
    rewrite Pa, Pb. exact W3.
  Qed.

  Theorem C121_wrong_neighbors fd m os after :
    proper_cells fd -> proper_coords fd -> (forall v, length (junk v) = fd_gdim fd) ->
    simplex_faces (fd_tdim fd) fvi -> proper_facets fd -> facets_distinct fd -> 2 <= length (fd_interior fd) ->
    imp fd None = Ok (m, os, after) ->
    exists g l a b, m_groups m = [g] /\ m_facial m = Available [l] /\ interior_adj [l] a b /\ ~ same_verts [g] a b.
  Proof.
    intros Hp Hc Hj Hs Hf Hd H2 Hi. destruct (import_interior R aff_id M fvi junk normals fd m os after Hp Hc Hj Hi Hs Hf) as (g & l & es & A1 & A2 & _ & An & A4 & A5).
    destruct (fd_interior fd) as [|p0 [|p1 r]] eqn:Ei; [cbn in H2; lia..|].
    destruct (nth_error es 1) as [(ea, eb)|] eqn:E1; [|apply nth_error_None in E1; cbn [length] in An; lia].
    destruct (proj1 (A5 1 ea eb) E1) as (sa & sb & B1 & B2 & B3 & B4). cbn in B1, B2. injection B1 as <-. injection B2 as <-.
    exists g, l, (0, fst ea, snd ea), (0, fst eb, snd eb). split; [exact A1|]. split; [exact A2|]. split; [apply A4; eapply nth_error_In; eauto|].
    intros (va & vb & Ha & Hb & Hsame).
    destruct (facet_face _ _ _ _ _ _ _ B3 Ha) as (wa & Wa & Pa), (facet_face _ _ _ _ _ _ _ B4 Hb) as (wb & Wb & Pb).
    rewrite <- surjective_pairing in Wa, Wb.
    assert (0 = 1); [|discriminate].
    apply (Hd 0 1 p0 p1 (snd p0) (snd p1) wa wb); auto; [now rewrite Ei..|]. now rewrite <- Pa, <- Pb.
  Qed.

  (** ** C123: when the import succeeds *)
  Theorem C123_import_succeeds_iff fd cells :
    proper_cells fd -> proper_coords fd -> (forall v, length (junk v) = fd_gdim fd) ->
    simplex_faces (fd_tdim fd) fvi -> proper_facets fd -> proper_markers fd ->
    1 <= fd_tdim fd -> fd_gdim fd <= 3 -> (fd_gdim fd = fd_tdim fd \/ fd_gdim fd = fd_tdim fd + 1) ->
    length (fd_orient fd) = length (fd_closure fd) ->
    ((exists r, imp fd cells = Ok r) <-> can_import fd cells).
  Proof.
    intros Hp Hc Hj Hs Hf Hm H1 H3 Hd Ho. split.
    - intros (((m, os), after) & Hi). exact (import_needs R aff_id M fvi junk normals fd cells Hf Hm m os after Hi).
    - intros H. exact (import_total R aff_id M fvi junk normals fd cells Hp Hc Hj Hs Hf Hm H1 H3 Hd Ho H).
  Qed.

  (** ** C124: cell_orientations *)
  Add Ring Rfd : (rth R).
  Lemma twice_sign (o : R) : o = r0 \/ o = r1 ->
    olt ((r1 + r1) * ((r1 + r1) * o - r1) - r1)%cr r0 = olt ((r1 + r1) * o - r1)%cr r0.
  Proof using.
    intros [->| ->].
    - unfold olt. f_equal. apply eq_iff_eq_true. pose proof (square_nonneg R r1) as H1.
      set (a := ((r1 + r1) * r0 - r1)%cr : R). set (b := ((r1 + r1) * a - r1)%cr : R). split; intros H.
      + replace a with (radd b (radd (rmul r1 r1) (rmul r1 r1))) by (subst a b; ring).
        apply ole_add_nonneg; [exact H|]. now apply ole_add_nonneg.
      + replace b with (radd a (radd a a)) by (subst a b; ring).
        apply ole_add_nonneg; [exact H|]. now apply ole_add_nonneg.
    - f_equal. ring.
  Qed.

  Theorem C124_unchanged fd cells m os after : imp fd cells = Ok (m, os, after) ->
    cells <> None \/ fd_gdim fd = fd_tdim fd -> after = fd_orient fd.
  Proof.
    intros Hi Hor. destruct (import_inv R aff_id M fvi junk normals fd cells m os after Hi) as (_ & _ & _ & _ & rn & rows & nv & cnl & pts & nodes & dofs & vertices & perm & g' & fags & fags' & l & _ & _ & _ & _ & _ & _ & _ & Ho & _).
    unfold orientations in Ho. destruct (Nat.eqb_spec (fd_gdim fd) (fd_tdim fd)); [apply bind_ok in Ho as (? & _ & Ho); congruence|].
    destruct (((fd_tdim fd =? 1) && (fd_gdim fd =? 2))%bool); [apply bind_ok in Ho as (? & _ & Ho); congruence|].
    destruct (((fd_tdim fd =? 2) && (fd_gdim fd =? 3))%bool); [|discriminate]. apply bind_ok in Ho as (os' & _ & Ho).
    destruct cells; [congruence|]. destruct Hor; [congruence|contradiction].
  Qed.

  Theorem C124_second_import fd cells m os after m' os' after' :
    Forall (fun o => o = r0 \/ o = r1) (fd_orient fd) ->
    imp fd cells = Ok (m, os, after) -> imp (with_orient fd after) cells = Ok (m', os', after') ->
    m' = m /\ Forall2 (fun o o' => olt o' r0 = olt o r0) os os'.
  Proof.
    intros H01 Hi Hi'.
    destruct (import_inv R aff_id M fvi junk normals fd cells m os after Hi) as (_ & _ & _ & _ & rn & rows & nv & cnl & pts & nodes & dofs & vertices & perm & g & fags & fags' & l & A1 & A2 & A3 & A4 & A5 & A6 & A7 & A8 & A9 & A10 & A11 & A12 & A13 & Em).
    destruct (import_inv R aff_id M fvi junk normals _ cells m' os' after' Hi') as (_ & _ & _ & _ & rn' & rows' & nv' & cnl' & pts' & nodes' & dofs' & vertices' & perm' & g' & fags1 & fags1' & l' & B1 & B2 & B3 & B4 & B5 & B6 & B7 & B8 & B9 & B10 & B11 & B12 & B13 & Em').
    cbn [with_orient fd_tdim fd_gdim fd_cell_nodes fd_coords fd_vertex_dofs] in B3, B4, B5, B6, B9.
    assert (rn' = rn) by exact (ok_inj _ _ _ B1 A1). subst rn'.
    assert (E : (rows', nv') = (rows, nv)) by exact (ok_inj _ _ _ B2 A2). injection E as -> ->.
    assert (cnl' = cnl) by congruence. subst cnl'. assert (pts' = pts) by congruence. subst pts'. assert (nodes' = nodes) by congruence. subst nodes'.
    assert (dofs' = dofs) by congruence. subst dofs'. assert (vertices' = vertices) by congruence. subst vertices'. assert (perm' = perm) by congruence. subst perm'.
    assert (fags1 = fags) by exact (ok_inj _ _ _ B11 A11). subst fags1.
    assert (Hneg : Forall2 (fun o o' => olt o' r0 = olt o r0) os os').
    { unfold orientations in A8, B8. cbn [with_orient fd_tdim fd_gdim fd_orient] in B8.
      assert (Hrefl : forall l0 : list R, Forall2 (fun o o' => olt o' r0 = olt o r0) l0 l0) by (induction l0; constructor; auto).
      destruct (fd_gdim fd =? fd_tdim fd)%nat; [apply bind_ok in A8 as (x & X1 & A8); apply bind_ok in B8 as (y & Y1 & B8); assert (x = y) by congruence; replace os' with os by congruence; apply Hrefl|].
      destruct (((fd_tdim fd =? 1) && (fd_gdim fd =? 2))%bool); [apply bind_ok in A8 as (x & X1 & A8); apply bind_ok in B8 as (y & Y1 & B8); assert (x = y) by congruence; replace os' with os by congruence; apply Hrefl|].
      destruct (((fd_tdim fd =? 2) && (fd_gdim fd =? 3))%bool); [|discriminate]. apply bind_ok in A8 as (x & X1 & A8); apply bind_ok in B8 as (y & Y1 & B8). injection A8 as <- <-. injection B8 as <- <-.
      destruct cells as [cs|].
      - assert (x = y) by congruence. subst. apply Hrefl.
      - cbn [used_rows] in X1, Y1. injection X1 as <-. injection Y1 as <-. revert H01. generalize (fd_orient fd). clear. intros ol H01. induction H01 as [|o os Ho _ IH]; cbn [map]; constructor; [|exact IH]. now apply twice_sign. }
    split; [|exact Hneg].
    assert (En : negs R os' = negs R os) by (clear -Hneg; unfold negs; induction Hneg; cbn [map]; congruence). rewrite En in B10, B12.
    assert (g' = g) by congruence. subst g'. assert (fags1' = fags') by congruence. subst fags1'. assert (l' = l) by congruence. congruence.
  Qed.
End Props.

Print Assumptions C116_imported_elements.
Print Assumptions C117_positive_orientation.
Print Assumptions C117_surface_orientation.
Print Assumptions C118_nodal_multiplicity.
Print Assumptions C119_neighbors_repeated.
Print Assumptions C120_boundary.
Print Assumptions C121_sides_of_interior_facets.
Print Assumptions C121_single_facet.
Print Assumptions C121_wrong_neighbors.
Print Assumptions C123_import_succeeds_iff.
Print Assumptions C124_unchanged.
Print Assumptions C124_second_import.

(** ** Concrete meshes *)

(** Three triangles of order 1, a strip over the unit square and one more triangle; the second cell is negatively oriented.  dmplex ids: cells 0-2, vertices 3-7, edges 8-14. *)
Definition strip_ext : list (nat * nat) := [(0, 1); (0, 2); (1, 1); (2, 1); (2, 0)].
Definition fd_strip (d : nat) (coords : list (list Z)) (ori : list Z) : fdmesh Zocring :=
  mk_fd (R := Zocring) 2 d [[8; 3; 4; 5; 0; 9; 10]; [4; 5; 6; 1; 8; 11; 12]; [5; 6; 7; 2; 12; 13; 14]] (3, 8) (fun x => x - 3) 5
    [((0, 0), (1, 2)); ((1, 0), (2, 2))] strip_ext (Some [1; 2; 3]) (Some [Some 1; Some 2; Some 3; Some 3; Some 1])
    [[0; 1; 2]; [1; 2; 3]; [2; 3; 4]] coords [[0]; [1]; [2]] ori.
Definition strip2 : fdmesh Zocring := fd_strip 2 [[0; 0]; [1; 0]; [0; 1]; [1; 1]; [0; 2]]%Z [0; 0; 0]%Z.
Definition strip3 : fdmesh Zocring := fd_strip 3 [[0; 0; 0]; [1; 0; 0]; [0; 1; 0]; [1; 1; 1]; [0; 2; 1]]%Z [1; 0; 1]%Z.
Definition fd_tri : list (list nat) := [[0; 1]; [0; 2]; [1; 2]].
Definition fd_M3 : list (list Zocring) := [[0; 1; 0]; [1; 0; 0]; [0; 0; 1]]%Z.
Definition fd_junk (d v : nat) : list Zocring := repeat 7%Z d.

(** The same without the third cell *)
Definition pair2 : fdmesh Zocring :=
  mk_fd (R := Zocring) 2 2 [[8; 3; 4; 5; 0; 9; 10]; [4; 5; 6; 1; 8; 11; 12]] (3, 7) (fun x => x - 3) 4
    [((0, 0), (1, 2))] [(0, 1); (0, 2); (1, 1); (1, 0)] (Some [1; 3]) (Some [Some 1; Some 1; Some 3; Some 3])
    [[0; 1; 2]; [1; 2; 3]] [[0; 0]; [1; 0]; [0; 1]; [1; 1]]%Z [[0]; [1]; [2]] [0; 0]%Z.


Lemma fd_tri_faces : simplex_faces 2 fd_tri.
Proof.
  split; [reflexivity|]. split.
  - intros face [<-|[<-|[<-|[]]]]; [exists 2|exists 1|exists 0]; (split; [lia|]); (split; [repeat constructor; cbn; lia|]); intros w; cbn; lia.
  - intros f f' face face' v Hf Hf' (Hv & _ & H) (_ & _ & H'). destruct f as [|[|[|f]]]; cbn in Hf; try (injection Hf as <-); try (destruct f; discriminate);
      destruct f' as [|[|[|f']]]; cbn in Hf'; try (injection Hf' as <-); try (destruct f'; discriminate); try reflexivity; exfalso;
      pose proof (H 0); pose proof (H 1); pose proof (H 2); pose proof (H' 0); pose proof (H' 1); pose proof (H' 2); cbn in *; lia.
Qed.

Lemma strip_cells d coords ori c row : cell_verts (fd_strip d coords ori) c row ->
  (c = 0 /\ row = [0; 1; 2]) \/ (c = 1 /\ row = [1; 2; 3]) \/ (c = 2 /\ row = [2; 3; 4]).
Proof.
  intros (ids & H & ->). destruct c as [|[|[|c]]]; cbn in H; [injection H as <-..|destruct c; discriminate]; auto.
Qed.
Lemma pair_cells c row : cell_verts pair2 c row -> (c = 0 /\ row = [0; 1; 2]) \/ (c = 1 /\ row = [1; 2; 3]).
Proof.
  intros (ids & H & ->). destruct c as [|[|c]]; cbn in H; [injection H as <-..|destruct c; discriminate]; auto.
Qed.

Example C121_single_example : proper_cells pair2 /\ proper_facets pair2 /\ exists r, import_mesh Zocring tt fd_M3 fd_tri (fd_junk 2) None pair2 None = Ok r.
Proof.
  split; [|split; [|eexists; vm_compute; reflexivity]].
  - split; [|split].
    + intros ids [<-|[<-|[]]]; (split; [repeat constructor; cbn; lia|reflexivity]).
    + intros x y Hx Hy. unfold vertex_id in Hx, Hy. cbn [pair2 fd_vrange fd_vnum fst snd] in *. apply andb_true_iff in Hx as (Hx & _), Hy as (Hy & _).
      apply Nat.leb_le in Hx, Hy. lia.
    + intros c row v H Hin. apply pair_cells in H as [(-> & ->)|(-> & ->)]; cbn in Hin |- *; lia.
  - split.
    + intros s H. cbn in H. repeat (destruct H as [<-|H]; [split; cbn; lia|]). contradiction.
    + intros s t H. cbn in H. destruct H as [E|[]]; injection E as <- <-.
      split; [split; cbn; lia|]. split; [split; cbn; lia|]. exists [1; 2], [1; 2]. split; [exists [0; 1; 2]|split; [exists [1; 2; 3]|reflexivity]];
        (split; [eexists; split; reflexivity|split; [cbn; lia|reflexivity]]).
Qed.

Lemma strip_proper_cells d coords ori : proper_cells (fd_strip d coords ori).
Proof.
  split; [|split].
  - intros ids [<-|[<-|[<-|[]]]]; (split; [repeat constructor; cbn; lia|reflexivity]).
  - intros x y Hx Hy. unfold vertex_id in Hx, Hy. cbn [fd_strip fd_vrange fd_vnum fst snd] in *. apply andb_true_iff in Hx as (Hx & _), Hy as (Hy & _).
    apply Nat.leb_le in Hx, Hy. lia.
  - intros c row v H Hin. apply strip_cells in H as [(-> & ->)|[(-> & ->)|(-> & ->)]]; cbn in Hin |- *; lia.
Qed.
Lemma strip_proper_facets d coords ori : proper_facets (fd_strip d coords ori).
Proof.
  split.
  - intros s H. cbn in H. repeat (destruct H as [<-|H]; [split; cbn; lia|]). contradiction.
  - intros s t H. cbn in H. destruct H as [E|[E|[]]]; injection E as <- <-.
    + split; [split; cbn; lia|]. split; [split; cbn; lia|]. exists [1; 2], [1; 2]. split; [exists [0; 1; 2]|split; [exists [1; 2; 3]|reflexivity]];
        (split; [eexists; split; reflexivity|split; [cbn; lia|reflexivity]]).
    + split; [split; cbn; lia|]. split; [split; cbn; lia|]. exists [2; 3], [2; 3]. split; [exists [1; 2; 3]|split; [exists [2; 3; 4]|reflexivity]];
        (split; [eexists; split; reflexivity|split; [cbn; lia|reflexivity]]).
Qed.
Lemma strip_distinct d coords ori : facets_distinct (fd_strip d coords ori).
Proof.
  intros i j si sj s t vs vt Hi Hj Hs Ht (rs & Rs & _ & ->) (rt & Rt & _ & ->) Hp.
  apply strip_cells in Rs, Rt.
  destruct i as [|[|i]]; cbn in Hi; try (destruct i; discriminate); injection Hi as <-;
  destruct j as [|[|j]]; cbn in Hj; try (destruct j; discriminate); injection Hj as <-; try reflexivity; exfalso;
  cbn [fst snd] in Hs, Ht; destruct Hs as [->| ->], Ht as [->| ->]; cbn [fst snd] in *;
  destruct Rs as [(E & ->)|[(E & ->)|(E & ->)]]; try discriminate E; destruct Rt as [(E' & ->)|[(E' & ->)|(E' & ->)]]; try discriminate E';
  cbn in Hp; assert (Hin : In 1 [2; 3]) by (first [apply (Permutation_in _ Hp); cbn; auto|apply (Permutation_in _ (Permutation_sym Hp)); cbn; auto]); cbn in Hin; lia.
Qed.
Lemma strip_coords d coords ori : length coords = 5 -> (forall x, In x coords -> length x = d) -> proper_coords (fd_strip d coords ori).
Proof.
  intros H5 Hd. split; [reflexivity|]. split; [|split; [exact Hd|split; [reflexivity|]]].
  - intros ns n Hns Hn. cbn [fd_strip fd_cell_nodes fd_coords] in *. change (@length (list Zocring) coords) with (@length (list Z) coords). rewrite H5. destruct Hns as [<-|[<-|[<-|[]]]]; cbn in Hn; lia.
  - intros l [<-|[<-|[<-|[]]]]; eexists; (split; [reflexivity|]); intros ns [<-|[<-|[<-|[]]]]; cbn; lia.
Qed.
Lemma strip_markers d coords ori : proper_markers (fd_strip d coords ori).
Proof. intros ms E. injection E as <-. reflexivity. Qed.

Lemma strip2_coords : proper_coords strip2.
Proof. apply strip_coords; [reflexivity|]. intros x H. cbn in H. repeat (destruct H as [<-|H]; [reflexivity|]). contradiction. Qed.
Lemma strip3_coords : proper_coords strip3.
Proof. apply strip_coords; [reflexivity|]. intros x H. cbn in H. repeat (destruct H as [<-|H]; [reflexivity|]). contradiction. Qed.
Lemma fd_junk_length d v : length (fd_junk d v) = d.
Proof. apply repeat_length. Qed.

Lemma strip_corner d coords ori c row k v x : cell_verts (fd_strip d coords ori) c row -> nth_error row k = Some v -> corner (fd_strip d coords ori) c k x ->
  nth_error coords v = Some x.
Proof.
  intros Hr Hk (ns & dof & n & X1 & X2 & X3 & X4). assert (Hns : ns = row).
  { apply strip_cells in Hr as [(-> & ->)|[(-> & ->)|(-> & ->)]]; injection X1 as <-; reflexivity. }
  subst ns. assert (dof = k) by (destruct k as [|[|[|k]]]; cbn in X2; [congruence..|destruct k; discriminate]). subst dof.
  assert (n = v) by congruence. subst n. exact X4.
Qed.
Lemma strip2_continuous : continuous strip2.
Proof.
  intros c c' row row' k k' v x x' Hr Hr' Hk Hk' Hx Hx'.
  pose proof (strip_corner _ _ _ _ _ _ _ _ Hr Hk Hx). pose proof (strip_corner _ _ _ _ _ _ _ _ Hr' Hk' Hx'). congruence.
Qed.

Notation imp_strip2 := (import_mesh Zocring tt fd_M3 fd_tri (fd_junk 2) None strip2).

(** What the import makes of the strip *)
Example strip2_import : exists m, imp_strip2 None = Ok (m, [1; -1; 1]%Z, [0; 0; 0]%Z) /\
  m_nodal m = Available ([0; 3; 7; 10], [1; 1; 2; 0; 0; 2; 2; 0; 1; 1]) /\
  (exists g, m_groups m = [g] /\ eg_vi g = Some [[0; 1; 2]; [2; 1; 3]; [2; 3; 4]]) /\
  m_facial m = Available [[Interior 0 0 [((0, 2), (1, 0)); ((1, 0), (2, 0)); ((1, 1), (0, 2)); ((2, 0), (1, 1))] tt;
     Boundary 0 (TUser 1) [(0, 1); (2, 2)]; Boundary 0 (TUser 2) [(0, 0)]; Boundary 0 (TUser 3) [(1, 2); (2, 1)];
     Boundary 0 TAll [(0, 1); (0, 0); (1, 2); (2, 1); (2, 2)]; Boundary 0 TNone [];
     Boundary 0 TReallyAll [(0, 0); (0, 1); (2, 1); (1, 2); (2, 2)]]].
Proof. eexists. split; [vm_compute; reflexivity|]. split; [reflexivity|]. split; [eexists; split; reflexivity|reflexivity]. Qed.

Example C116_example : proper_cells strip2 /\ proper_coords strip2 /\ (forall v, length (fd_junk 2 v) = fd_gdim strip2) /\ continuous strip2 /\
  (exists r, imp_strip2 (Some [2; 1]) = Ok r).
Proof. split; [apply strip_proper_cells|]. split; [exact strip2_coords|]. split; [apply fd_junk_length|]. split; [exact strip2_continuous|]. eexists. vm_compute. reflexivity. Qed.

Example C117_example : fd_gdim strip2 = fd_tdim strip2 /\ exists m, imp_strip2 None = Ok (m, [1; -1; 1]%Z, [0; 0; 0]%Z).
Proof. split; [reflexivity|]. destruct strip2_import as (m & H & _). eauto. Qed.

Example C120_example : simplex_faces (fd_tdim strip2) fd_tri /\ proper_facets strip2 /\ proper_markers strip2 /\ marked strip2 4 1.
Proof. split; [exact fd_tri_faces|]. split; [apply strip_proper_facets|]. split; [apply strip_markers|]. eexists. split; reflexivity. Qed.

(** C119: two triangles with a common edge list each other twice. *)
Theorem C119_refuted : exists (fd : fdmesh Zocring) m os after starts nbs ns,
  proper_cells fd /\ import_mesh Zocring tt fd_M3 fd_tri (fd_junk 2) None fd None = Ok (m, os, after) /\
  m_nodal m = Available (starts, nbs) /\ csr_row starts nbs 0 ns /\ ~ NoDup ns.
Proof.
  destruct strip2_import as (m & H & Hn & _). exists strip2, m, [1; -1; 1]%Z, [0; 0; 0]%Z, [0; 3; 7; 10], [1; 1; 2; 0; 0; 2; 2; 0; 1; 1], [1; 1; 2].
  split; [apply strip_proper_cells|]. split; [exact H|]. split; [exact Hn|]. split; [exists 0, 3; repeat split; cbn; lia|].
  intros Hnd. inversion Hnd as [|a b Hni _]. apply Hni. now left.
Qed.
Print Assumptions C119_refuted.

(** C121 on the strip: the face between the first two triangles is connected to the one between the last two. *)
Theorem C121_interior_adjacency_refuted : exists fd g l a b m os after,
  proper_cells fd /\ proper_coords fd /\ proper_facets fd /\ import_mesh Zocring tt fd_M3 fd_tri (fd_junk 2) None fd None = Ok (m, os, after) /\
  m_groups m = [g] /\ m_facial m = Available [l] /\ interior_adj [l] a b /\ ~ same_verts [g] a b.
Proof.
  destruct strip2_import as (m & H & _).
  destruct (C121_wrong_neighbors Zocring tt fd_M3 fd_tri (fd_junk 2) None strip2 m _ _ (strip_proper_cells _ _ _) strip2_coords (fd_junk_length 2)
              fd_tri_faces (strip_proper_facets _ _ _) (strip_distinct _ _ _) (le_n 2) H) as (g & l & a & b & K).
  exists strip2, g, l, a, b, m, [1; -1; 1]%Z, [0; 0; 0]%Z. split; [apply strip_proper_cells|]. split; [exact strip2_coords|]. split; [apply strip_proper_facets|]. auto.
Qed.
Print Assumptions C121_interior_adjacency_refuted.

(** C122: importing the last two triangles only. *)
Theorem C122_induced_boundary_refuted : exists (fd : fdmesh Zocring) cs m os after g old l e f p c k c' k' p' d d',
  proper_cells fd /\ proper_facets fd /\ proper_choice fd (Some cs) /\
  import_mesh Zocring tt fd_M3 fd_tri (fd_junk 2) None fd (Some cs) = Ok (m, os, after) /\
  m_groups m = [g] /\ renumbering fd (Some cs) old /\ m_facial m = Available [l] /\
  (* this face of the induced boundary is between two cells in use *)
  in_bdry l TInduced (e, f) /\ is_facet fd (Some cs) old g e f c k /\
  In p (fd_interior fd) /\ p = ((c, k), (c', k')) /\ In c cs /\ In c' cs /\
  (* and this facet, with only one cell in use, is not on the induced boundary *)
  In p' (fd_interior fd) /\ p' = (d, d') /\ ~ In (fst d) cs /\ In (fst d') cs /\
  forall e' f', in_bdry l TInduced (e', f') -> ~ is_facet fd (Some cs) old g e' f' (fst d') (snd d').
Proof.
  exists strip2, [2; 1]. do 3 eexists. exists (mk_egroup (Some [[1; 2; 3]; [1; 0; 2]]) [[[0; 1; 0]; [1; 1; 2]]; [[0; 1; 1]; [1; 0; 1]]]%Z fd_tri), [1; 2; 3; 4]. eexists.
  exists 1, 1, ((1, 0), (2, 2)), 1, 0, 2, 2, ((0, 0), (1, 2)), (0, 0), (1, 2).
  split; [apply strip_proper_cells|]. split; [apply strip_proper_facets|].
  split. { split; [repeat constructor; cbn; lia|repeat constructor; cbn; lia]. }
  split; [vm_compute; reflexivity|]. split; [reflexivity|].
  split.
  { split; [repeat constructor; lia|]. intros v. split.
    - intros Hv. assert (v = 1 \/ v = 2 \/ v = 3 \/ v = 4) as [->|[->|[->| ->]]] by (cbn in Hv; lia).
      1, 2, 3: exists 1, [1; 2; 3]; split; [cbn; auto|split; [eexists; split; reflexivity|cbn; auto]].
      exists 2, [2; 3; 4]; split; [cbn; auto|split; [eexists; split; reflexivity|cbn; auto]].
    - intros (c & row & Hc & Hr & Hin). apply strip_cells in Hr as [(-> & ->)|[(-> & ->)|(-> & ->)]]; cbn in Hc, Hin |- *; lia. }
  split; [reflexivity|].
  split. { eexists. split; [right; right; right; right; left; reflexivity|]. split; [reflexivity|now left]. }
  split.
  { split; [reflexivity|]. exists [1; 2; 3], [1; 2], [2; 3]. split; [eexists; split; reflexivity|]. split; [cbn; lia|]. split.
    - eexists _, [1; 0; 2], [0; 2]. split; [reflexivity|]. split; [eexists _, _; split; [reflexivity|]; split; [reflexivity|]; split; [cbn; lia|reflexivity]|]. split; [reflexivity|]. repeat constructor.
    - split; [repeat constructor|reflexivity]. }
  split; [cbn; auto|]. split; [reflexivity|]. split; [cbn; auto|]. split; [cbn; auto|].
  split; [cbn; auto|]. split; [reflexivity|]. split; [cbn; lia|]. split; [cbn; auto|].
  intros e' f' (b & Hb & Ht & Hin) (_ & row & vs & ws & Hr & _ & Hfv & Hst & Hperm). cbn [fst snd] in *.
  apply strip_cells in Hr as [(Hq & ->)|[(Hq & ->)|(Hq & ->)]]; try discriminate Hq. cbn in Hb.
  repeat (destruct Hb as [<-|Hb]; [try discriminate Ht|]); [|contradiction]. destruct Hin as [E|[]]. injection E as <- <-.
  destruct Hfv as (g & r & fc & G1 & G2 & G3 & G4). injection G1 as <-. destruct G2 as (g & rows & G1 & G2 & _ & G5). injection G1 as <-. injection G2 as <-. injection G5 as <-.
  injection G3 as <-. inversion G4 as [|? ? ? ? Q1 Q2]; subst. inversion Q2 as [|? ? ? ? Q3 Q4]; subst. inversion Q4; subst. cbn in Q1, Q3. injection Q1 as <-. injection Q3 as <-.
  inversion Hst as [|? ? ? ? Q1' Q2']; subst. inversion Q2' as [|? ? ? ? Q3' Q4']; subst. inversion Q4'; subst. cbn in Q1', Q3'. injection Q1' as <-. injection Q3' as <-.
  apply Permutation_sym in Hperm. apply (Permutation_in 1) in Hperm; cbn in *; lia.
Qed.
Print Assumptions C122_induced_boundary_refuted.

(** C123: two proper meshes and a choice of cells that cannot be imported: one triangle; two segments in the plane; the middle one of three segments. *)
Definition one_tri : fdmesh Zocring :=
  mk_fd (R := Zocring) 2 2 [[0; 1; 2; 3]] (1, 4) (fun x => x - 1) 3 [] [(0, 0); (0, 1); (0, 2)] None None
    [[0; 1; 2]] [[0; 0]; [1; 0]; [0; 1]]%Z [[0]; [1]; [2]] [0]%Z.
Definition segments (d : nat) (coords : list (list Z)) : fdmesh Zocring :=
  mk_fd (R := Zocring) 1 d [[0; 3; 4]; [1; 4; 5]; [2; 5; 6]] (3, 7) (fun x => x - 3) 4 [((0, 0), (1, 1)); ((1, 0), (2, 1))] [(0, 1); (2, 0)]
    (Some [1]) (Some [Some 1; Some 1]) [[0; 1]; [1; 2]; [2; 3]] coords [[0]; [1]] [0; 0; 0]%Z.

Theorem C123_always_succeeds_refuted : exists fd curve line : fdmesh Zocring,
  (proper_cells fd /\ proper_facets fd /\ proper_coords fd /\
   import_mesh Zocring tt fd_M3 fd_tri (fd_junk 2) None fd None = Err IndexError) /\
  import_mesh Zocring tt [[0; 1]; [1; 0]]%Z [[0]; [1]] (fd_junk 2) None curve None = Err ValueError /\
  (exists r, import_mesh Zocring tt [[0; 1]; [1; 0]]%Z [[0]; [1]] (fd_junk 1) None line None = Ok r) /\
  import_mesh Zocring tt [[0; 1]; [1; 0]]%Z [[0]; [1]] (fd_junk 1) None line (Some [1]) = Err ValueError.
Proof.
  exists one_tri, (segments 2 [[0; 0]; [1; 0]; [2; 1]; [3; 3]]%Z), (segments 1 [[0]; [1]; [2]; [3]]%Z).
  split.
  { split; [|split; [|split; [|vm_compute; reflexivity]]].
    - split; [|split].
      + intros ids [<-|[]]. split; [repeat constructor; cbn; lia|reflexivity].
      + intros x y Hx Hy. unfold vertex_id in Hx, Hy. cbn [one_tri fd_vrange fd_vnum fst snd] in *. apply andb_true_iff in Hx as (Hx & _), Hy as (Hy & _). apply Nat.leb_le in Hx, Hy. lia.
      + intros c row v (ids & H & ->) Hin. destruct c as [|[|c]]; [|discriminate..]. injection H as <-. cbn in Hin |- *. lia.
    - split; [|intros s t []]. intros s H. cbn in H. repeat (destruct H as [<-|H]; [split; cbn; lia|]). contradiction.
    - split; [reflexivity|]. split; [intros ns n [<-|[]] Hn; cbn in Hn |- *; lia|]. split; [intros x H; cbn in H; repeat (destruct H as [<-|H]; [reflexivity|]); contradiction|].
      split; [reflexivity|]. intros l [<-|[<-|[<-|[]]]]; eexists; (split; [reflexivity|]); intros ns [<-|[]]; cbn; lia. }
  split; [vm_compute; reflexivity|]. split; [eexists; vm_compute; reflexivity|vm_compute; reflexivity].
Qed.
Print Assumptions C123_always_succeeds_refuted.

Example C123_example : can_import strip2 None /\ can_import strip2 (Some [2; 1]) /\ ~ can_import one_tri None.
Proof.
  assert (Hm : forall cells, all_marked strip2 cells).
  { intros cells ms i c k m E Hi _ Hn. injection E as <-. do 5 (destruct i as [|i]; [injection Hn as <-; eexists _, _; repeat split; cbn; auto|]). destruct i; discriminate. }
  split; [|split].
  - split; [split; [apply seq_NoDup|repeat constructor; cbn; lia]|]. split; [discriminate|]. split; [discriminate|]. split; [apply Hm|discriminate].
  - split; [split; repeat constructor; cbn; lia|]. split; [discriminate|]. split; [discriminate|]. split; [apply Hm|]. intros cs E. injection E as <-. split.
    + exists (0, 0), (1, 2). cbn. auto.
    + exists (1, 1). cbn. auto.
  - intros (_ & H & _). now apply H.
Qed.

(** C124: the import changes the Firedrake mesh. *)
Theorem C124_mesh_unchanged_refuted : exists (fd : fdmesh Zocring) m os after,
  proper_cells fd /\ proper_facets fd /\ proper_coords fd /\ Forall (fun o => o = 0%Z \/ o = 1%Z) (fd_orient fd) /\
  import_mesh Zocring tt fd_M3 fd_tri (fd_junk 3) None fd None = Ok (m, os, after) /\ after <> fd_orient fd.
Proof.
  exists strip3. do 3 eexists. split; [apply strip_proper_cells|]. split; [apply strip_proper_facets|]. split; [exact strip3_coords|].
  split; [repeat (apply Forall_cons; [auto|]); apply Forall_nil|]. split; [vm_compute; reflexivity|]. discriminate.
Qed.
Print Assumptions C124_mesh_unchanged_refuted.

Example C117_surface_example : fd_tdim strip3 = 2 /\ fd_gdim strip3 = 3 /\ length (fd_orient strip3) = length (fd_closure strip3) /\
  exists m after, import_mesh Zocring tt fd_M3 fd_tri (fd_junk 3) None strip3 (Some [1; 0]) = Ok (m, [-1; 1]%Z, after).
Proof. repeat split. do 2 eexists. vm_compute. reflexivity. Qed.

(** Importing again gives other numbers with the same signs *)
Example C124_example : exists m after, import_mesh Zocring tt fd_M3 fd_tri (fd_junk 3) None strip3 None = Ok (m, [1; -1; 1]%Z, after) /\
  exists after', import_mesh Zocring tt fd_M3 fd_tri (fd_junk 3) None (with_orient strip3 after) None = Ok (m, [1; -3; 1]%Z, after').
Proof. do 2 eexists. split; [vm_compute; reflexivity|]. eexists. vm_compute. reflexivity. Qed.
