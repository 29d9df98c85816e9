(** * FdImportProofs: proofs about importing Firedrake meshes. *)
From Coq Require Import List Arith Bool Lia Permutation Sorted.
From Verif Require Import Np NpFacts MeshModel MeshSpec MeshProofs MeshStateModel CompletionProofs Lin ProcModel ProcSpec SplitProofs FlipProofs Ord ConsistModel FdModel FdSpec FdProofs.
Import ListNotations.

Lemma seq_nth_eq s n i x : nth_error (seq s n) i = Some x -> x = s + i /\ i < n.
Proof.
  revert s i; induction n as [|n IH]; intros s [|i] H; cbn in H; try discriminate.
  - injection H as <-. lia.
  - apply IH in H. lia.
Qed.
Lemma seq_nth_ok s n i : i < n -> nth_error (seq s n) i = Some (s + i).
Proof.
  revert s i; induction n as [|n IH]; intros s [|i] H; try lia; cbn.
  - f_equal. lia.
  - rewrite IH by lia. f_equal. lia.
Qed.

Lemma Forall2_map_r {X Y Z} (P : X -> Z -> Prop) (f : Y -> Z) l r : Forall2 P l (map f r) <-> Forall2 (fun x y => P x (f y)) l r.
Proof.
  revert r; induction l as [|x l IH]; intros [|y r]; cbn [map]; split; intros H; inversion H; subst; constructor; auto; now apply IH.
Qed.
Lemma Forall2_map_l {X Y Z} (P : Z -> X -> Prop) (f : Y -> Z) l r : Forall2 P (map f l) r <-> Forall2 (fun y x => P (f y) x) l r.
Proof.
  revert r; induction l as [|x l IH]; intros [|y r]; cbn [map]; split; intros H; inversion H; subst; constructor; auto; now apply IH.
Qed.

Lemma map_injective_on {X Y} (f : X -> Y) (P : X -> Prop) a b : (forall x y, P x -> P y -> f x = f y -> x = y) ->
  Forall P a -> Forall P b -> map f a = map f b -> a = b.
Proof.
  intros Hi Ha. revert b. induction Ha as [|x a Hx Ha IH]; intros [|y b] Hb E; try discriminate; [reflexivity|].
  inversion Hb; subst. injection E as E1 E2. f_equal; auto.
Qed.

Lemma memb_map f (P : nat -> Prop) v b : (forall x y, P x -> P y -> f x = f y -> x = y) -> P v -> Forall P b ->
  memb (f v) (map f b) = memb v b.
Proof.
  intros Hi Hv Hb. apply eq_true_iff_eq. rewrite !memb_In, in_map_iff. split.
  - intros (w & E & Hw). assert (w = v) by (apply Hi; auto; rewrite Forall_forall in Hb; auto). congruence.
  - eauto.
Qed.

Lemma common_map f (P : nat -> Prop) a b : (forall x y, P x -> P y -> f x = f y -> x = y) -> Forall P a -> Forall P b ->
  common (map f a) (map f b) = common a b.
Proof.
  intros Hi Ha Hb. unfold common. induction Ha as [|x a Hx Ha IH]; [reflexivity|]. cbn [map filter].
  rewrite (memb_map f P x b Hi Hx Hb). destruct (memb x b); cbn [length]; now rewrite IH.
Qed.

Lemma filter_perm {X} (p : X -> bool) a b : Permutation a b -> Permutation (filter p a) (filter p b).
Proof.
  induction 1; cbn [filter]; auto.
  - destruct (p x); auto.
  - destruct (p x), (p y); auto. apply perm_swap.
  - eapply perm_trans; eauto.
Qed.

Lemma common_perm a a' b b' : Permutation a a' -> Permutation b b' -> common a b = common a' b'.
Proof.
  intros Ha Hb. unfold common. transitivity (length (filter (fun v => memb v b') a)).
  - f_equal. apply filter_ext. intros v. apply eq_true_iff_eq. rewrite !memb_In. split; apply Permutation_in; auto using Permutation_sym.
  - apply Permutation_length, filter_perm, Ha.
Qed.

Lemma swap01_perm {X} (l : list X) : Permutation (swap01 l) l.
Proof. destruct l as [|a [|b l]]; cbn; auto. apply perm_swap. Qed.

Lemma swap01_map {X Y} (f : X -> Y) l : swap01 (map f l) = map f (swap01 l).
Proof. destruct l as [|a [|b l]]; reflexivity. Qed.

Lemma swap01_F2 {X Y} (P : X -> Y -> Prop) l r : Forall2 P l r -> Forall2 P (swap01 l) (swap01 r).
Proof. intros H. destruct H as [|a b l0 r0 H1 [|a' b' l1 r1 H2 H3]]; cbn; auto. Qed.

(** ** Rows and nodal adjacency *)
Section Rows.
  Context {R : Type}.
  Implicit Types fd : fdmesh R.

  Lemma used_rows_ok {X} fd cells (l : list X) : length l = length (fd_closure fd) ->
    forall r, used_rows cells l = Ok r -> Forall2 (fun c x => nth_error l c = Some x) (cells_of fd cells) r.
  Proof.
    intros Hl r H. destruct cells as [cs|]; cbn [used_rows cells_of] in *; [now apply take_ok|]. injection H as <-. rewrite <- Hl.
    apply Forall2_intro_nth; [apply seq_length|]. intros i c x Hc Hx. apply seq_nth_eq in Hc as (-> & _). exact Hx.
  Qed.

  Lemma used_rows_total {X} fd cells (l : list X) : length l = length (fd_closure fd) -> proper_choice fd cells ->
    exists r, used_rows cells l = Ok r.
  Proof.
    intros Hl (_ & H). destruct cells as [cs|]; cbn [used_rows cells_of] in *; [|eauto]. apply take_total. now rewrite Hl.
  Qed.

  Lemma cell_verts_ids fd c row ids : nth_error (fd_closure fd) c = Some ids -> cell_verts fd c row ->
    row = map (fd_vnum fd) (filter (vertex_id fd) ids).
  Proof. intros H (ids' & E & ->). congruence. Qed.

  Lemma cell_verts_fun fd c row row' : cell_verts fd c row -> cell_verts fd c row' -> row = row'.
  Proof. intros (ids & E & ->) (ids' & E' & ->). congruence. Qed.

  Lemma proper_rows fd c row : proper_cells fd -> cell_verts fd c row -> NoDup row /\ length row = fd_tdim fd + 1 /\ Forall (fun v => v < fd_nverts fd) row.
  Proof.
    intros (H1 & H2 & H3) Hc. pose proof Hc as (ids & E & Er). destruct (H1 ids (nth_error_In _ _ E)) as (Hn & Hl). split; [|split].
    - subst row. assert (HF : Forall (fun x => vertex_id fd x = true) (filter (vertex_id fd) ids)) by (apply Forall_forall; intros x Hx; now apply filter_In in Hx).
      assert (HN : NoDup (filter (vertex_id fd) ids)) by now apply NoDup_filter. revert HF HN. generalize (filter (vertex_id fd) ids) as l.
      induction l as [|x l IH]; intros HF HN; [constructor|]. cbn [map]. inversion HF; inversion HN; subst. constructor; auto.
      rewrite in_map_iff. intros (y & Ey & Hy). assert (y = x) by (apply H2; auto; rewrite Forall_forall in H5; auto). congruence.
    - subst row. now rewrite map_length.
    - apply Forall_forall. intros v Hv. eauto.
  Qed.

  Lemma cell_dmp_verts_eq fd ids : cell_dmp_verts fd ids = filter (vertex_id fd) ids.
  Proof. reflexivity. Qed.

  Lemma nodal_info_ok fd cells : proper_cells fd -> proper_choice fd cells ->
    exists rows starts nbs, nodal_info fd cells = Ok (rows, (starts, nbs)) /\
      Forall2 (cell_verts fd) (cells_of fd cells) rows /\ length starts = S (length rows) /\
      (forall e, e < length rows -> exists ns, csr_row starts nbs e ns) /\
      (forall e row ns, nth_error rows e = Some row -> csr_row starts nbs e ns ->
         (forall e', In e' ns -> e' < length rows) /\
         (forall e' row', nth_error rows e' = Some row' -> count_occ Nat.eq_dec ns e' = if e =? e' then 0 else common row row')).
  Proof.
    intros Hp Hch. unfold nodal_info. destruct (used_rows_total fd cells (fd_closure fd) eq_refl Hch) as (cl & Ecl). rewrite Ecl. cbn [bind].
    pose proof (used_rows_ok fd cells (fd_closure fd) eq_refl cl Ecl) as HF. cbn zeta.
    set (dmp := map (cell_dmp_verts fd) cl).
    assert (Hcl : forall ids, In ids cl -> In ids (fd_closure fd)).
    { intros ids Hin. destruct (Forall2_In_r _ _ _ _ HF Hin) as (c & _ & Hc). eapply nth_error_In; eauto. }
    pose proof Hp as (P1 & P2 & _).
    assert (Hrows : mapM (fun vs => fill_row (fd_tdim fd + 1) (map (fd_vnum fd) vs)) dmp = Ok (map (map (fd_vnum fd)) dmp)).
    { apply mapM_ok. apply Forall2_map_r. subst dmp. apply Forall2_map_l, Forall2_map_r. apply Forall2_intro_nth; [reflexivity|].
      intros i x y Hx Hy. assert (x = y) by congruence. subst y. unfold fill_row.
      rewrite map_length, cell_dmp_verts_eq, (proj2 (P1 x (Hcl _ (nth_error_In _ _ Hx)))), Nat.eqb_refl. reflexivity. }
    rewrite Hrows. cbn [bind].
    assert (HD : Forall (@NoDup nat) ([] ++ dmp)).
    { apply Forall_forall. intros vs Hin. cbn [app] in Hin. subst dmp. apply in_map_iff in Hin as (ids & <- & Hin). rewrite cell_dmp_verts_eq. apply NoDup_filter, P1, Hcl, Hin. }
    destruct (nodal_cells_ok dmp [] ([], []) HD nodal_done_nil) as (st & E & I1 & I2 & I3 & I4). cbn [app length] in *. unfold enumerate. rewrite E. cbn [bind].
    do 3 eexists. split; [reflexivity|]. split.
    { subst dmp. rewrite map_map. apply Forall2_map_r. eapply Forall2_impl; [|exact HF]. intros c ids Hc. exists ids. split; [exact Hc|reflexivity]. }
    split; [rewrite cumsum_length_cons || (unfold cumsum; rewrite cumsum_from_length); cbn [length]; rewrite !map_length, I2; reflexivity|].
    assert (Hcsr : forall e ns, nth_error (snd st) e = Some ns -> csr_row (cumsum (0 :: map (@length nat) (snd st))) (concat (snd st)) e ns).
    { intros e ns He. pose proof (concat_csr _ _ _ He) as Hc. cbn zeta in Hc. destruct Hc as (Hc1 & Hc2).
      assert (Hlt : e < length (snd st)) by (apply nth_error_Some; congruence).
      exists (sum (firstn e (map (@length nat) (snd st)))), (sum (firstn (S e) (map (@length nat) (snd st)))).
      unfold cumsum. split; [|split; [|split; [exact Hc1|exact Hc2]]].
      - rewrite cumsum_from_nth by (cbn [length]; rewrite map_length; lia). f_equal.
      - rewrite cumsum_from_nth by (cbn [length]; rewrite map_length; lia). f_equal. }
    split.
    - intros e He. rewrite map_length in He. rewrite <- I2 in He. destruct (nth_error (snd st) e) as [ns|] eqn:En; [|apply nth_error_None in En; lia].
      exists ns. auto.
    - intros e row ns He Hns. rewrite nth_error_map in He. destruct (nth_error dmp e) as [De|] eqn:Ee; [|discriminate]. cbn in He. injection He as <-.
      assert (Hlt : e < length (snd st)) by (rewrite I2; apply nth_error_Some; congruence).
      destruct (nth_error (snd st) e) as [ns'|] eqn:En; [|apply nth_error_None in En; lia].
      assert (ns = ns').
      { destruct (Hcsr e ns' En) as (a & b & A1 & A2 & A3 & ->). destruct Hns as (a' & b' & A1' & A2' & A3' & ->). congruence. }
      subst ns'. rewrite map_length. split.
      + intros e' Hin. destruct (Nat.lt_ge_cases e' (length dmp)) as [|Hge]; [assumption|]. exfalso.
        specialize (I3 e e' Hge). unfold cnt in I3. rewrite En in I3. apply (count_occ_not_In Nat.eq_dec) in I3. contradiction.
      + intros e' row' He'. rewrite nth_error_map in He'. destruct (nth_error dmp e') as [De'|] eqn:Ee'; [|discriminate]. cbn in He'. injection He' as <-.
        pose proof (I4 e e' De De' Ee Ee') as Hc. unfold cnt in Hc. rewrite En in Hc. rewrite Hc. destruct (e =? e'); [reflexivity|].
        symmetry. apply (common_map (fd_vnum fd) (fun x => vertex_id fd x = true)); [exact P2| |].
        * apply nth_error_In in Ee. subst dmp. apply in_map_iff in Ee as (ids & <- & _). apply Forall_forall. intros x Hx. now apply filter_In in Hx.
        * apply nth_error_In in Ee'. subst dmp. apply in_map_iff in Ee' as (ids & <- & _). apply Forall_forall. intros x Hx. now apply filter_In in Hx.
  Qed.

  (** the vertex renumbering *)
  Definition renumber fd (cells : option (list nat)) (rows : list (list nat)) : res (list (list nat) * nat) :=
    match cells with
    | None => Ok (rows, fd_nverts fd)
    | Some _ =>
        let old := unique (concat rows) in
        _ <- guard (negb (length (concat rows) =? 0)) ValueError ;;
        rows <- mapM (mapM (position old)) rows ;;
        Ok (rows, length old)
    end.

  Lemma renumber_ok fd cells rows rows' nv : proper_cells fd -> Forall2 (cell_verts fd) (cells_of fd cells) rows ->
    renumber fd cells rows = Ok (rows', nv) ->
    exists old, renumbering fd cells old /\ NoDup old /\ length old = nv /\ Forall2 (stands_for old) rows' rows.
  Proof.
    intros Hp HF H. destruct cells as [cs|]; cbn [renumber] in H.
    - cbn zeta in H. apply bind_ok in H as (_ & _ & H). apply bind_ok in H as (r & Hr & H). injection H as <- <-.
      exists (unique (concat rows)). split; [|split; [apply incr_NoDup, unique_incr|split; [reflexivity|]]].
      + split; [apply unique_incr|]. intros v. rewrite unique_In. cbn [cells_of] in HF. split.
        * intros Hv. apply in_concat in Hv as (row & Hrow & Hv). destruct (Forall2_In_r _ _ _ _ HF Hrow) as (c & Hc & Hcv). exists c, row. auto.
        * intros (c & row & Hc & Hcv & Hv). apply in_concat. destruct (Forall2_In_l _ _ _ _ HF Hc) as (row' & Hr' & Hcv').
          rewrite (cell_verts_fun fd c row row' Hcv Hcv') in Hv. eauto.
      + revert Hr. generalize (unique (concat rows)) as old. intros old Hr. apply mapM_ok in Hr. clear -Hr.
        induction Hr as [|row row' l l' H1 H2 IH]; constructor; [|exact IH].
        apply mapM_ok in H1. clear -H1. unfold stands_for. induction H1 as [|v i r r' H1 H2 IH]; constructor; [|exact IH].
        unfold position in H1. destruct (index_of v old) as [j|] eqn:Ei; [|discriminate]. injection H1 as <-. now apply index_of_Some.
    - injection H as <- <-. exists (seq 0 (fd_nverts fd)). split; [reflexivity|]. split; [apply seq_NoDup|]. split; [apply seq_length|].
      apply Forall2_intro_nth; [reflexivity|]. intros i x y Hx Hy. assert (x = y) by congruence. subst y.
      destruct (Forall2_nth_error_r _ _ _ _ _ HF Hx) as (c & _ & Hcv). destruct (proper_rows fd c x Hp Hcv) as (_ & _ & Hr).
      unfold stands_for. clear -Hr. induction Hr as [|v r Hv Hr IH]; constructor; [|exact IH]. rewrite seq_nth_ok by exact Hv. reflexivity.
  Qed.

  Lemma renumber_total fd cells rows : Forall2 (cell_verts fd) (cells_of fd cells) rows -> proper_cells fd -> cells_of fd cells <> [] ->
    exists r, renumber fd cells rows = Ok r.
  Proof.
    intros HF Hp Hne. destruct cells as [cs|]; cbn [renumber]; [|eauto]. cbn [cells_of] in *. destruct HF as [|c row cs0 rows0 Hc HF]; [congruence|].
    destruct (proper_rows fd c row Hp Hc) as (_ & Hl & _).
    assert (negb (length (concat (row :: rows0)) =? 0) = true) as ->.
    { apply negb_true_iff, Nat.eqb_neq. cbn [concat]. rewrite app_length. lia. }
    cbn [guard bind]. destruct (mapM_total (mapM (position (unique (concat (row :: rows0))))) (row :: rows0)) as (r & Er).
    - intros rw Hrw. apply mapM_total. intros v Hv. unfold position. destruct (index_of v (unique (concat (row :: rows0)))) eqn:Ei; [eauto|].
      apply index_of_None in Ei. exfalso. apply Ei, unique_In. apply in_concat. eauto.
    - rewrite Er. cbn [bind]. eauto.
  Qed.
End Rows.

(** ** Vertex coordinates *)
Lemma Forall_upd {X} (P : X -> Prop) l i x : Forall P l -> P x -> Forall P (upd l i x).
Proof.
  intros H Hx. revert i. induction H as [|y l Hy H IH]; intros [|i]; cbn; auto.
Qed.

Section Vertices.
  Variable R : ocring.

  Variable d : nat.

  Definition recorded (dofs : list nat) (S : list (list nat * enodes R)) (v : nat) (vs : list (list R)) : Prop :=
    exists row x k nr p, In (row, x) S /\ nth_error row k = Some v /\ nth_error dofs k = Some nr /\
      mapM (fun axis => get axis nr) x = Ok p /\ nth_error vs v = Some p.

  Definition rec_inv (dofs : list nat) (S : list (list nat * enodes R)) (nv : nat) (st : list nat * list (list R)) : Prop :=
    length (snd st) = nv /\ Forall (fun p => length p = d) (snd st) /\ forall v, In v (fst st) -> recorded dofs S v (snd st).

  Definition readable (dofs : list nat) (x : enodes R) : Prop :=
    length x = d /\ forall nr, In nr dofs -> Forall (fun axis => nr < length axis) x.

  Lemma record_vertex_ok dofs S nv row x k v st : In (row, x) S -> nth_error row k = Some v -> k < length dofs -> v < nv ->
    readable dofs x -> rec_inv dofs S nv st ->
    exists st', record_vertex R x dofs st (k, v) = Ok st' /\ rec_inv dofs S nv st' /\ incl (fst st) (fst st') /\ In v (fst st').
  Proof.
    intros HS Hk Hkd Hv (Hxl & Hx) (I1 & I3 & I2). unfold record_vertex. cbn [fst snd].
    destruct (memb v (fst st)) eqn:Em.
    - exists st. apply memb_In in Em. split; [reflexivity|]. split; [split; auto|]. split; [apply incl_refl|exact Em].
    - destruct (get_total dofs k Hkd) as (nr & Hnr). rewrite Hnr. cbn [bind].
      apply get_ok in Hnr.
      destruct (mapM_total (fun axis : list R => get axis nr) x) as (p & Ep).
      { intros axis Ha. apply get_total. specialize (Hx nr (nth_error_In _ _ Hnr)). rewrite Forall_forall in Hx. auto. }
      rewrite Ep. cbn [bind]. assert (Hput : put (snd st) v p = Ok (upd (snd st) v p)) by (apply put_ok; split; [lia|reflexivity]).
      rewrite Hput. cbn [bind]. eexists. split; [reflexivity|]. cbn [fst snd]. split; [|split; [now apply incl_tl, incl_refl|now left]].
      split; [cbn [snd]; now rewrite length_upd|]. cbn [fst snd].
      split; [apply Forall_upd; [exact I3|rewrite (mapM_length _ _ _ Ep); exact Hxl]|]. intros w [<-|Hw].
      + exists row, x, k, nr, p. rewrite nth_error_upd_eq by lia. auto.
      + destruct (I2 w Hw) as (row' & x' & k' & nr' & p' & A1 & A2 & A3 & A4 & A5). exists row', x', k', nr', p'.
        rewrite nth_error_upd_neq; [auto|]. intros <-. apply memb_In in Hw. congruence.
  Qed.

  Lemma record_row_ok dofs S nv row x : In (row, x) S -> length row <= length dofs -> Forall (fun v => v < nv) row -> readable dofs x ->
    forall r k, (forall i v, nth_error r i = Some v -> nth_error row (k + i) = Some v) ->
    forall st, rec_inv dofs S nv st ->
    exists st', foldM (record_vertex R x dofs) (enumerate_from k r) st = Ok st' /\ rec_inv dofs S nv st' /\ incl (fst st) (fst st') /\ incl r (fst st').
  Proof.
    intros HS Hl Hr Hx. induction r as [|v r IH]; intros k Hk st HI.
    - exists st. split; [reflexivity|]. split; [exact HI|]. split; [apply incl_refl|intros y []].
    - rewrite enumerate_from_cons. cbn [foldM].
      assert (Hv : nth_error row k = Some v) by (rewrite <- (Nat.add_0_r k); apply Hk; reflexivity).
      destruct (record_vertex_ok dofs S nv row x k v st) as (st1 & E1 & I1 & S1 & V1); auto.
      { assert (k < length row) by (apply nth_error_Some; congruence). lia. }
      { rewrite Forall_forall in Hr. apply Hr. eapply nth_error_In; eauto. }
      rewrite E1. cbn [bind]. destruct (IH (Datatypes.S k)) with (st := st1) as (st2 & E2 & I2 & S2 & V2); [|exact I1|].
      { intros i w Hi. rewrite Nat.add_succ_l, <- Nat.add_succ_r. apply Hk. exact Hi. }
      exists st2. split; [exact E2|]. split; [exact I2|]. split; [eapply incl_tran; eauto|]. intros w [<-|Hw]; auto.
  Qed.

  Lemma record_vertices_ok dofs junk rows nodes : length rows = length nodes ->
    Forall (fun row => length row <= length dofs /\ Forall (fun v => v < length junk) row) rows ->
    Forall (readable dofs) nodes -> Forall (fun p => length p = d) junk ->
    exists vs, record_vertices R dofs junk rows nodes = Ok vs /\ length vs = length junk /\ Forall (fun p => length p = d) vs /\
      forall row v, In row rows -> In v row -> recorded dofs (combine rows nodes) v vs.
  Proof.
    intros Hl Hr Hx Hj. unfold record_vertices. set (S := combine rows nodes).
    set (step := fun st rx => foldM (record_vertex R (snd rx) dofs) (enumerate (fst rx)) st).
    assert (G : forall l st, incl l S -> rec_inv dofs S (length junk) st ->
      exists st', foldM step l st = Ok st' /\ rec_inv dofs S (length junk) st' /\ incl (fst st) (fst st') /\
        forall row x v, In (row, x) l -> In v row -> In v (fst st')).
    { induction l as [|(row, x) l IH]; intros st Hs HI.
      - exists st. split; [reflexivity|]. split; [exact HI|]. split; [apply incl_refl|intros ? ? ? []].
      - cbn [foldM]. unfold step at 1. cbn [fst snd]. assert (Hin : In (row, x) S) by (apply Hs; now left).
        assert (Hrow : In row rows) by (eapply in_combine_l; exact Hin). assert (Hnode : In x nodes) by (eapply in_combine_r; exact Hin).
        rewrite Forall_forall in Hr, Hx. destruct (Hr row Hrow) as (L1 & L2).
        destruct (record_row_ok dofs S (length junk) row x Hin L1 L2 (Hx x Hnode) row 0) with (st := st) as (st1 & E1 & I1 & S1 & V1); auto.
        unfold enumerate. rewrite E1. cbn [bind]. destruct (IH st1) as (st2 & E2 & I2 & S2 & V2); [intros y Hy; apply Hs; now right|exact I1|].
        exists st2. split; [exact E2|]. split; [exact I2|]. split; [eapply incl_tran; eauto|].
        intros row' x' v [H|H] Hv; [injection H as <- <-; auto|eauto]. }
    destruct (G S ([], junk)) as (st & E & I & _ & V); [apply incl_refl|split; [reflexivity|split; [exact Hj|intros v []]]|].
    rewrite E. cbn [bind]. exists (snd st). split; [reflexivity|]. split; [apply I|]. split; [apply I|]. intros row v Hrow Hv. apply I.
    apply In_nth_error in Hrow as (i & Hi). assert (Hil : i < length nodes) by (rewrite <- Hl; apply nth_error_Some; congruence).
    destruct (nth_error nodes i) as [x|] eqn:Ex; [|apply nth_error_None in Ex; lia]. apply (V row x); [|exact Hv].
    eapply nth_error_In. unfold S. apply nth_error_combine_Some. eauto.
  Qed.

  (** one row per axis *)
  Lemma by_axis_point (pts x : list (list R)) nr p q : by_axis R d pts = Ok x -> mapM (fun axis => get axis nr) x = Ok p ->
    nth_error pts nr = Some q -> length q = d -> p = q.
  Proof.
    intros Hb Hm Hq Hd. unfold by_axis in Hb. apply mapM_ok in Hb. apply mapM_ok in Hm.
    assert (Hlen : length p = d) by (rewrite <- (Forall2_length' _ _ _ Hm), <- (Forall2_length' _ _ _ Hb); apply seq_length).
    apply nth_error_ext'. intros a. destruct (Nat.lt_ge_cases a d) as [Ha|Ha].
    - destruct (Forall2_nth_error _ _ _ _ _ Hb (seq_nth_ok 0 d a Ha)) as (axis & H1 & H2). cbn [plus] in H2.
      destruct (Forall2_nth_error _ _ _ _ _ Hm H1) as (y & H3 & H4). rewrite H3. apply mapM_ok in H2. apply get_ok in H4.
      destruct (Forall2_nth_error_r _ _ _ _ _ H2 H4) as (q' & H5 & H6). assert (q' = q) by congruence. subst q'. apply get_ok in H6. auto.
    - transitivity (@None R); [|symmetry]; apply nth_error_None; lia.
  Qed.

  Lemma by_axis_total (pts : list (list R)) : Forall (fun p => length p = d) pts -> exists x, by_axis R d pts = Ok x /\ Forall (fun a => length a = length pts) x /\ length x = d.
  Proof.
    intros H. unfold by_axis. destruct (mapM_total (fun a => mapM (fun p : list R => get p a) pts) (seq 0 d)) as (x & Ex).
    - intros a Ha. apply in_seq in Ha. apply mapM_total. intros p Hp. apply get_total. rewrite Forall_forall in H. rewrite (H p Hp). lia.
    - exists x. split; [exact Ex|]. split; [|now rewrite (mapM_length _ _ _ Ex), seq_length]. apply Forall_forall. intros a Ha. apply mapM_ok in Ex.
      destruct (Forall2_In_r _ _ _ _ Ex Ha) as (i & _ & Hi). apply (mapM_length _ _ _ Hi).
  Qed.
End Vertices.

(** ** The parts of an import *)
Section Parts.
  Variable R : ocring.
  Context {A : Type}.
  Variable aff_id : A.
  Variables (M : list (list R)) (fvi : list (list nat)) (junk : nat -> list R) (normals : option (list (list R))).

  Definition negs (os : list R) : list bool := map (fun o => olt o r0) os.

  Lemma unique_length_NoDup cs : length (unique cs) = length cs -> NoDup cs.
  Proof.
    intros H. apply (NoDup_incl_NoDup (l := unique cs)); [apply incr_NoDup, unique_incr|lia|]. intros x Hx. now apply unique_In.
  Qed.
  Lemma NoDup_unique_length cs : NoDup cs -> length (unique cs) = length cs.
  Proof.
    intros H. apply Permutation_length, NoDup_Permutation; [apply incr_NoDup, unique_incr|exact H|]. intros x. apply unique_In.
  Qed.

  Lemma guard_ok' b e u : guard b e = Ok u -> b = true.
  Proof. unfold guard. destruct b; [reflexivity|discriminate]. Qed.

  Lemma import_inv fd cells m os after : import_mesh R aff_id M fvi junk normals fd cells = Ok (m, os, after) ->
    proper_choice fd cells /\ 1 <= fd_gdim fd <= 3 /\ (fd_gdim fd = fd_tdim fd \/ fd_gdim fd = fd_tdim fd + 1) /\ nodes_ndim R fd = 3 /\
    exists rn rows nv cnl pts nodes dofs vertices perm g fags fags' l,
      nodal_info fd cells = Ok rn /\ renumber fd cells (fst rn) = Ok (rows, nv) /\
      used_rows cells (fd_cell_nodes fd) = Ok cnl /\ mapM (take (fd_coords fd)) cnl = Ok pts /\
      mapM (by_axis R (fd_gdim fd)) pts = Ok nodes /\
      mapM (fun l => match l with [dof] => Ok dof | _ => Err AssertionError end) (fd_vertex_dofs fd) = Ok dofs /\
      record_vertices R dofs (map junk (seq 0 nv)) rows nodes = Ok vertices /\
      orientations R fd cells normals vertices rows = Ok (os, after) /\
      simplex_flip_permutation (fd_tdim fd) = Ok perm /\
      flip_element_group R M perm (negs os) (mk_egroup (Some rows) nodes fvi) = Ok g /\
      facial_groups aff_id fvi fd cells = Ok fags /\
      mapM (flip_group aff_id (zero_one_faces fvi) (negs os)) fags = Ok fags' /\
      complete_facial_adjacency [fags'] = Ok [l] /\
      m = mk_mesh [g] (Some vertices) None (Available (snd rn)) (Available [l]) 0 0 0.
  Proof.
    unfold import_mesh. intros H.
    apply bind_ok in H as (u0 & H0 & H). apply bind_ok in H as (u1 & H1 & H). apply bind_ok in H as (u2 & H2 & H).
    apply bind_ok in H as (rn & Hrn & H). apply bind_ok in H as ((rows, nv) & Hrv & H). cbn [fst snd] in H.
    apply bind_ok in H as (cnl & Hcnl & H). apply bind_ok in H as (pts & Hpts & H). apply bind_ok in H as (u3 & H3 & H).
    apply bind_ok in H as (nodes & Hnodes & H). cbn zeta in H. apply bind_ok in H as (dofs & Hdofs & H).
    apply bind_ok in H as (vertices & Hv & H). apply bind_ok in H as ((os', after') & Ho & H). cbn [fst snd] in H.
    apply bind_ok in H as (perm & Hperm & H). apply bind_ok in H as (g & Hg & H). apply bind_ok in H as (fags & Hf & H).
    apply bind_ok in H as (fags' & Hf' & H). apply bind_ok in H as (m' & Hm & H). injection H as <- <- <-.
    apply guard_ok' in H1, H2, H3.
    split.
    { destruct cells as [cs|].
      - apply bind_ok in H0 as (? & H0 & H0'). apply guard_ok' in H0, H0'. apply Nat.eqb_eq in H0. split; cbn [cells_of].
        + now apply unique_length_NoDup.
        + apply Forall_forall. intros c Hc. apply Nat.ltb_lt. rewrite forallb_forall in H0'. auto.
      - split; cbn [cells_of]; [apply seq_NoDup|]. apply Forall_forall. intros c Hc. apply in_seq in Hc. lia. }
    apply andb_true_iff in H1 as (H1 & H1'). apply Nat.leb_le in H1, H1'.
    apply orb_true_iff in H2. rewrite !Nat.eqb_eq in H2. apply Nat.eqb_eq in H3.
    split; [lia|]. split; [exact H2|]. split; [exact H3|].
    unfold make_mesh in Hm. cbn [none_to_false truthy] in Hm. apply bind_ok in Hm as (fa & Hfa & Hm). apply bind_ok in Hfa as (f' & Hc & Hfa).
    injection Hfa as <-. injection Hm as <-.
    destruct (complete_ok [fags']) as (r & Hr & Hrl & _). pose proof (eq_trans (eq_sym Hc) Hr) as E. injection E as ->.
    destruct r as [|l [|? ?]]; cbn [length] in Hrl; try lia.
    exists rn, rows, nv, cnl, pts, nodes, dofs, vertices, perm, g, fags, fags', l.
    repeat (split; [first [assumption|exact Hrv]|]). reflexivity.
  Qed.

  Lemma by_axis_axes d (pts x : list (list R)) : by_axis R d pts = Ok x -> axes_of d pts x.
  Proof.
    intros H. split; [unfold by_axis in H; now rewrite (mapM_length _ _ _ H), seq_length|]. intros a axis Ha.
    unfold by_axis in H. apply mapM_ok in H. destruct (Forall2_nth_error_r _ _ _ _ _ H Ha) as (a' & Hs & Hm).
    apply seq_nth_eq in Hs as (-> & Hlt). cbn [plus] in Hm. split; [apply (mapM_length _ _ _ Hm)|]. intros i p Hp. apply mapM_ok in Hm.
    destruct (Forall2_nth_error _ _ _ _ _ Hm Hp) as (y & Hy & Hg). apply get_ok in Hg. congruence.
  Qed.

  Lemma dims_ok fd : 1 <= fd_gdim fd <= 3 -> (fd_gdim fd = fd_tdim fd \/ fd_gdim fd = fd_tdim fd + 1) -> nodes_ndim R fd = 3 ->
    1 <= fd_tdim fd /\ (fd_gdim fd = fd_tdim fd \/ (fd_tdim fd = 2 /\ fd_gdim fd = 3)).
  Proof.
    unfold nodes_ndim. intros H1 H2 H3. destruct (Nat.eqb_spec (fd_gdim fd) 1), (Nat.eqb_spec (fd_tdim fd) 1); lia.
  Qed.

  Definition swapped {X} (b : bool) (l : list X) : list X := if b then swap01 l else l.

  Lemma stands_length old vs ws : stands_for old vs ws -> length vs = length ws.
  Proof. intros H. apply (Forall2_length' _ _ _ H). Qed.

  Lemma stands_range old vs ws : stands_for old vs ws -> Forall (fun v => v < length old) vs.
  Proof. intros H. induction H as [|v w vs ws H1 H2 IH]; constructor; auto. apply nth_error_Some. congruence. Qed.

  Lemma row_swapped d flag (vs row' : list nat) : length vs = S (S d) -> row_flipped (1 :: 0 :: seq 2 d) (flag, vs) row' -> row' = swapped flag vs.
  Proof.
    intros Hl H. unfold row_flipped, swapped in *. cbn [fst snd] in H. destruct flag; [|exact H]. destruct H as (H1 & H2).
    destruct vs as [|a [|b vs]]; cbn [length] in Hl; try lia. cbn [swap01]. eapply simplex_flipped_row; [|cbn [length] in H1; rewrite H1; reflexivity|]; [lia|].
    replace (length vs) with d by lia. exact H2.
  Qed.

  Lemma import_elements fd cells m os after : proper_cells fd -> proper_coords fd -> (forall v, length (junk v) = fd_gdim fd) ->
    import_mesh R aff_id M fvi junk normals fd cells = Ok (m, os, after) ->
    exists old g vertices, m_groups m = [g] /\ m_vertices m = Some vertices /\ renumbering fd cells old /\ NoDup old /\
      length vertices = length old /\ eg_fvi g = fvi /\ nelements g = length (cells_of fd cells) /\ length os = length (cells_of fd cells) /\
      (exists vi, eg_vi g = Some vi /\ length vi = nelements g) /\
      (forall e c, nth_error (cells_of fd cells) e = Some c ->
         exists row o vs x pts, cell_verts fd c row /\ nth_error os e = Some o /\
           elem_at [g] 0 e (swapped (olt o r0) vs) (if olt o r0 then map (matvec M) x else x) /\
           stands_for old vs row /\ cell_points fd c pts /\ axes_of (fd_gdim fd) pts x /\
           (fd_gdim fd = fd_tdim fd -> element_orientation R 0 (seq 1 (fd_tdim fd)) vertices vs = Ok o)) /\
      (forall c row w v, In c (cells_of fd cells) -> cell_verts fd c row -> In w row -> nth_error old v = Some w ->
         exists c' row' k' x, In c' (cells_of fd cells) /\ cell_verts fd c' row' /\ nth_error row' k' = Some w /\
           corner fd c' k' x /\ nth_error vertices v = Some x) /\
      Forall (fun x => length x = fd_gdim fd) vertices.
  Proof.
    intros Hp (C1 & C2 & C3 & C4 & C5) Hj H.
    destruct (import_inv fd cells m os after H) as (Hch & Hg1 & Hg2 & Hnd & rn & rows & nv & cnl & pts & nodes & dofs & vertices & perm & g & fags & fags' & l & E1 & E2 & E3 & E4 & E5 & E6 & E7 & E8 & E9 & E10 & _ & _ & _ & ->).
    destruct (dims_ok fd Hg1 Hg2 Hnd) as (Ht & _).
    destruct (nodal_info_ok fd cells Hp Hch) as (rows0 & starts & nbs & E1' & HF & _). rewrite E1 in E1'. injection E1' as ->. cbn [fst snd] in *.
    destruct (renumber_ok fd cells rows0 rows nv Hp HF E2) as (old & Ho & Hon & Hol & Hst).
    pose proof (used_rows_ok fd cells (fd_cell_nodes fd) C1 cnl E3) as HFc.
    pose proof (proj1 (mapM_ok _ _ _) E4) as HFp. pose proof (proj1 (mapM_ok _ _ _) E5) as HFn. pose proof (proj1 (mapM_ok _ _ _) E6) as HFd.
    pose proof (Forall2_length' _ _ _ HF) as L1. pose proof (Forall2_length' _ _ _ Hst) as L2. pose proof (Forall2_length' _ _ _ HFc) as L3.
    pose proof (Forall2_length' _ _ _ HFp) as L4. pose proof (Forall2_length' _ _ _ HFn) as L5. pose proof (Forall2_length' _ _ _ HFd) as L6.
    assert (Lall : @length (enodes R) nodes = length (cells_of fd cells)) by exact (eq_sym (eq_trans L3 (eq_trans L4 L5))).
    assert (Hrowlen : forall vs, In vs rows -> length vs = fd_tdim fd + 1 /\ Forall (fun v => v < nv) vs).
    { intros vs Hvs. destruct (Forall2_In_l _ _ _ _ Hst Hvs) as (row & Hrow & Hs). destruct (Forall2_In_r _ _ _ _ HF Hrow) as (c & _ & Hcv).
      rewrite (stands_length _ _ _ Hs). split; [apply (proper_rows fd c row Hp Hcv)|]. rewrite <- Hol. eapply stands_range; eauto. }
    assert (Hdof : forall dof, In dof dofs -> forall ns, In ns (fd_cell_nodes fd) -> dof < length ns).
    { intros dof Hd. destruct (Forall2_In_r _ _ _ _ HFd Hd) as (ld & Hld & Ed). destruct (C5 ld Hld) as (dof' & -> & Hdn). injection Ed as <-. exact Hdn. }
    destruct (record_vertices_ok R (fd_gdim fd) dofs (map junk (seq 0 nv)) rows nodes) as (vs' & E7' & V1 & V2 & V3).
    { exact (eq_trans L2 (eq_trans (eq_sym L1) (eq_trans L3 (eq_trans L4 L5)))). }
    { apply Forall_forall. intros vs Hvs. destruct (Hrowlen vs Hvs) as (Hl & Hr). rewrite map_length, seq_length. split; [lia|exact Hr]. }
    { apply Forall_forall. intros x Hx. destruct (Forall2_In_r _ _ _ _ HFn Hx) as (pt & Hpt & Eb). destruct (by_axis_axes _ _ _ Eb) as (A1 & A2).
      split; [exact A1|]. intros nr Hnr. apply Forall_forall. intros axis Ha. apply In_nth_error in Ha as (a & Ha). destruct (A2 a axis Ha) as (-> & _).
      destruct (Forall2_In_r _ _ _ _ HFp Hpt) as (ns & Hns & Etk). apply take_ok in Etk. rewrite <- (Forall2_length' _ _ _ Etk).
      apply (Hdof nr Hnr). destruct (Forall2_In_r _ _ _ _ HFc Hns) as (c & _ & Hc). eapply nth_error_In; eauto. }
    { apply Forall_forall. intros p Hpp. apply in_map_iff in Hpp as (v & <- & _). apply Hj. }
    pose proof (eq_trans (eq_sym E7) E7') as Ev. injection Ev as <-.
    destruct (fd_tdim fd) as [|d] eqn:Ed; [lia|]. rewrite simplex_perm_ok in E9. injection E9 as <-.
    assert (Hfl : flippable R (1 :: 0 :: seq 2 d) (mk_egroup (Some rows) nodes fvi)).
    { exists rows. cbn [eg_vi]. split; [reflexivity|]. split; [unfold nelements; cbn [eg_nodes]; lia|]. apply Forall_forall. intros vs Hvs.
      destruct (Hrowlen vs Hvs) as (Hl & _). rewrite Hl. cbn [length]. rewrite seq_length. lia. }
    assert (Hneg : length (negs os) = nelements (mk_egroup (Some rows) nodes fvi)).
    { unfold flip_element_group in E10. apply bind_ok in E10 as (u & Hu & _). apply guard_ok' in Hu. now apply Nat.eqb_eq in Hu. }
    destruct (flip_group_spec R M (1 :: 0 :: seq 2 d) (negs os) _ (simplex_perm_involutive d) Hfl Hneg) as (g' & E10' & F1 & F2 & (vi & Fv & Fl & _) & F4 & _).
    pose proof (eq_trans (eq_sym E10) E10') as Eg. injection Eg as <-.
    unfold nelements in Hneg at 1, F2 at 2. cbn [eg_nodes] in Hneg, F2. unfold negs in Hneg. rewrite map_length in Hneg.
    exists old, g, vertices. split; [reflexivity|]. split; [reflexivity|]. split; [exact Ho|]. split; [exact Hon|].
    split; [rewrite V1, map_length, seq_length; lia|]. split; [exact F1|]. split; [lia|]. split; [lia|]. split; [exists vi; auto|]. split; [|split; [|exact V2]].
    - intros e c He. destruct (Forall2_nth_error _ _ _ _ _ HF He) as (row & Hrow & Hcv).
      destruct (Forall2_nth_error_r _ _ _ _ _ Hst Hrow) as (vs & Hvs & Hs).
      destruct (Forall2_nth_error _ _ _ _ _ HFc He) as (ns & Hns & Hcn).
      destruct (Forall2_nth_error _ _ _ _ _ HFp Hns) as (pt & Hpt & Htk). apply take_ok in Htk.
      destruct (Forall2_nth_error _ _ _ _ _ HFn Hpt) as (x & Hx & Hb).
      destruct (nth_error os e) as [o|] eqn:Eo; [|apply nth_error_None in Eo; assert (e < length (cells_of fd cells)) by (apply nth_error_Some; congruence); lia].
      assert (Hflag : nth_error (negs os) e = Some (olt o r0)) by (unfold negs; now rewrite nth_error_map, Eo).
      destruct (F4 e (olt o r0) vs x Hflag) as (row' & x' & Hat & Ft & Ff).
      { exists (mk_egroup (Some rows) nodes fvi), rows. cbn [nth_error eg_vi eg_nodes]. auto. }
      exists row, o, vs, x, pt. split; [exact Hcv|]. split; [reflexivity|]. split.
      { destruct (Hrowlen vs (nth_error_In _ _ Hvs)) as (Hvl & _).
        destruct (olt o r0).
        - destruct (Ft eq_refl) as (G1 & G2 & ->). rewrite <- (row_swapped d true vs row'); [exact Hat|lia|split; assumption].
        - destruct (Ff eq_refl) as (-> & ->). exact Hat. }
      split; [exact Hs|]. split; [exists ns; split; assumption|]. split; [apply by_axis_axes; exact Hb|].
      intros Heq. unfold orientations in E8. rewrite Ed, Heq, Nat.eqb_refl in E8. apply bind_ok in E8 as (os' & Hos & E8). injection E8 as -> <-.
      unfold volume_orientations in Hos. destruct (mapM_nth _ _ _ _ _ Hos Hvs) as (o' & Ho' & Hoo). congruence.
    - intros c row w v Hc Hcv Hw Hov. destruct (Forall2_In_l _ _ _ _ HF Hc) as (row1 & Hrow1 & Hcv1). rewrite (cell_verts_fun fd c row row1 Hcv Hcv1) in Hw.
      destruct (Forall2_In_r _ _ _ _ Hst Hrow1) as (vs & Hvs & Hs). destruct (Forall2_In_r _ _ _ _ Hs Hw) as (v' & Hv' & Hov').
      assert (v' = v).
      { apply (proj1 (NoDup_nth_error old) Hon); [apply nth_error_Some; congruence|congruence]. }
      subst v'. destruct (V3 vs v Hvs Hv') as (vs2 & x & k & nr & p & B1 & B2 & B3 & B4 & B5).
      apply In_nth_error in B1 as (e & B1). apply nth_error_combine_Some in B1 as (B1a & B1b).
      destruct (Forall2_nth_error _ _ _ _ _ Hst B1a) as (row2 & Hrow2 & Hs2). destruct (Forall2_nth_error_r _ _ _ _ _ HF Hrow2) as (c2 & Hc2 & Hcv2).
      destruct (Forall2_nth_error _ _ _ _ _ Hs2 B2) as (w2 & Hw2 & Ew2). assert (w2 = w) by congruence. subst w2.
      exists c2, row2, k, p. split; [eapply nth_error_In; eauto|]. split; [exact Hcv2|]. split; [exact Hw2|]. split; [|exact B5].
      destruct (Forall2_nth_error_r _ _ _ _ _ HFn B1b) as (pt & Hpt & Hb). destruct (Forall2_nth_error_r _ _ _ _ _ HFp Hpt) as (ns & Hns & Htk). apply take_ok in Htk.
      destruct (Forall2_nth_error _ _ _ _ _ HFc Hc2) as (ns' & Hns' & Hcn). assert (ns' = ns) by congruence. subst ns'.
      destruct (Forall2_nth_error_r _ _ _ _ _ HFd B3) as (ld & Hld & El). destruct (C5 ld (nth_error_In _ _ Hld)) as (dof & -> & Hdn). injection El as ->.
      pose proof (Hdn ns (nth_error_In _ _ Hcn)) as Hlt. destruct (nth_error ns nr) as [n|] eqn:En; [|apply nth_error_None in En; lia].
      destruct (Forall2_nth_error _ _ _ _ _ Htk En) as (q & Hq & Hqc).
      exists ns, nr, n. split; [exact Hcn|]. split; [exact Hld|]. split; [exact En|]. rewrite Hqc. f_equal. symmetry.
      eapply by_axis_point; eauto. apply C3. eapply nth_error_In; eauto.
  Qed.
End Parts.
