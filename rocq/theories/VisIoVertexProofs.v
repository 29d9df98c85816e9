(** * VisIoVertexProofs: files made from the vertices of a mesh. *)
From Coq Require Import String List Arith Bool Lia Permutation.
From Verif Require Import Np NpFacts MeshModel MeshSpec MeshProofs VisModel VisSpec VisProofs VisIoModel VisIoSpec.
Import ListNotations.

Fixpoint bases_from (b : nat) (groups : list vgroup) : list (nat * vgroup) :=
  match groups with [] => [] | g :: groups => (b, g) :: bases_from (b + length (vgr_vi g)) groups end.

Lemma cumsum_bases b g groups : combine (cumsum_from b (0 :: removelast (map (fun g => length (vgr_vi g)) (g :: groups)))) (g :: groups) = bases_from b (g :: groups).
Proof.
  revert b g. induction groups as [|h groups IH]; intros b g; [cbn; now rewrite Nat.add_0_r|].
  change (removelast (map (fun g => length (vgr_vi g)) (g :: h :: groups))) with (length (vgr_vi g) :: removelast (map (fun g => length (vgr_vi g)) (h :: groups))).
  specialize (IH (b + length (vgr_vi g)) h). set (rl := removelast (map (fun g => length (vgr_vi g)) (h :: groups))) in *. cbn [cumsum_from combine bases_from] in *. rewrite Nat.add_0_r in *. f_equal. exact IH.
Qed.
Lemma zip_bases_ok groups : groups <> [] -> zip_bases groups = Ok (bases_from 0 groups).
Proof.
  intros H. unfold zip_bases. rewrite base_element_nrs_length by (destruct groups; [congruence|discriminate]). rewrite map_length, Nat.eqb_refl. cbn [guard bind]. f_equal. destruct groups as [|g groups]; [congruence|]. unfold base_element_nrs, cumsum. apply cumsum_bases.
Qed.

Section Vertex.
  Variables simplex_type tensor_type : nat -> option nat.
  Hypothesis simplex_types : forall d, 1 <= d <= 3 -> exists t, simplex_type d = Some t /\ t <> 255.
  Hypothesis tensor_types : forall d, 1 <= d <= 3 -> exists t, tensor_type d = Some t /\ t <> 255.

  Lemma group_type g : writable g -> exists t, t <> 255 /\ element_type simplex_type tensor_type g = Some t /\
    match vgr_class g with MSimplex => lookup_type simplex_type (vgr_dim g) | MTensor => lookup_type tensor_type (vgr_dim g) | MOther => Err NotImplementedError end = Ok t.
  Proof using simplex_types tensor_types.
    intros (Hd & Hc & _). unfold element_type, lookup_type. destruct (vgr_class g); [destruct (simplex_types _ Hd) as (t & E & Ht)|destruct (tensor_types _ Hd) as (t & E & Ht)|congruence]; exists t; rewrite E; auto.
  Qed.

  Lemma types_ok groups : groups <> [] -> Forall writable groups ->
    exists ts, Forall2 (fun g t => element_type simplex_type tensor_type g = Some t) groups ts /\
      vertex_cell_types simplex_type tensor_type groups = Ok (concat (map (fun gt : vgroup * nat => repeat (snd gt) (length (vgr_vi (fst gt)))) (combine groups ts))).
  Proof using simplex_types tensor_types.
    intros Hne Hw. unfold vertex_cell_types. rewrite zip_bases_ok by exact Hne. cbn [bind].
    assert (H : forall groups pre, Forall writable groups -> exists ts, Forall2 (fun g t => element_type simplex_type tensor_type g = Some t) groups ts /\ Forall (fun t => t <> 255) ts /\
      foldM (fun ts (bg : nat * vgroup) => let (base, g) := bg in
               ty <- match vgr_class g with MSimplex => lookup_type simplex_type (vgr_dim g) | MTensor => lookup_type tensor_type (vgr_dim g) | MOther => Err NotImplementedError end ;;
               Ok (assign_slice ts base (base + length (vgr_vi g)) ty)) (bases_from (length pre) groups) (pre ++ repeat 255 (sum (map (fun g => length (vgr_vi g)) groups))) =
        Ok (pre ++ concat (map (fun gt : vgroup * nat => repeat (snd gt) (length (vgr_vi (fst gt)))) (combine groups ts)))).
    { clear -simplex_types tensor_types. intros groups. induction groups as [|g groups IH]; intros pre Hw.
      - exists []. split; [constructor|]. split; [constructor|]. reflexivity.
      - inversion Hw as [|? ? Hg Hw']; subst. destruct (group_type g Hg) as (t & Ht & Hty & E). destruct (IH (pre ++ repeat t (length (vgr_vi g))) Hw') as (ts & I1 & I2 & I3).
        exists (t :: ts). split; [now constructor|]. split; [now constructor|]. cbn [bases_from foldM map combine concat fst snd]. rewrite E. cbn [bind].
        change (sum (length (vgr_vi g) :: map (fun g => length (vgr_vi g)) groups)) with (length (vgr_vi g) + sum (map (fun g => length (vgr_vi g)) groups)). rewrite repeat_app.
        rewrite assign_slice_mid by (rewrite ?repeat_length; reflexivity). rewrite repeat_length. rewrite (app_assoc pre). rewrite app_length, repeat_length in I3. rewrite I3. now rewrite <- app_assoc. }
    destruct (H groups [] Hw) as (ts & H1 & H2 & H3). cbn [app length] in H3. rewrite H3. cbn [bind]. exists ts. split; [exact H1|].
    replace (forallb _ _) with true; [reflexivity|]. symmetry. apply forallb_forall. intros t Ht. apply in_concat in Ht. destruct Ht as (l & Hl & Ht). apply in_map_iff in Hl. destruct Hl as ((g, t') & <- & Hgt). cbn [snd fst] in Ht. apply repeat_spec in Ht. subst t. apply in_combine_r in Hgt. rewrite Forall_forall in H2. specialize (H2 _ Hgt). apply negb_true_iff, Nat.eqb_neq. exact H2.
  Qed.

  Lemma cell_ok g row : writable g -> In row (vgr_vi g) -> exists cell,
    match vgr_class g with MSimplex => Ok row | MTensor => ord <- tensor_order (vgr_dim g) ;; take row ord | MOther => Err TypeError end = Ok cell /\ element_cell g row cell /\ length cell = length row.
  Proof using.
    intros (Hd & Hc & Hrows) Hin. rewrite Forall_forall in Hrows. specialize (Hrows _ Hin). unfold element_cell, nvertices_of in *. destruct (vgr_class g); [exists row; auto| |congruence].
    assert (Hdd : vgr_dim g = 1 \/ vgr_dim g = 2 \/ vgr_dim g = 3) by lia. destruct Hdd as [E|[E|E]]; rewrite E in *; cbn in Hrows.
    - destruct row as [|a [|b [|? ?]]]; try discriminate. exists [a; b]. split; [reflexivity|]. split; [|reflexivity]. unfold vtk_corners. cbn. repeat constructor.
    - destruct row as [|a [|b [|c [|d [|? ?]]]]]; try discriminate. exists [a; b; d; c]. split; [reflexivity|]. split; [|reflexivity]. unfold vtk_corners. cbn. repeat constructor.
    - destruct row as [|a [|b [|c [|d [|a' [|b' [|c' [|d' [|? ?]]]]]]]]]; try discriminate. exists [a; b; d; c; a'; b'; d'; c']. split; [reflexivity|]. split; [|reflexivity]. unfold vtk_corners. cbn. repeat constructor.
  Qed.

  Lemma group_cells_ok g : writable g -> exists cells, Forall2 (element_cell g) (vgr_vi g) cells /\
    (rows <- match vgr_class g with MSimplex => Ok (vgr_vi g) | MTensor => ord <- tensor_order (vgr_dim g) ;; mapM (fun row => take row ord) (vgr_vi g) | MOther => Err TypeError end ;;
     _ <- guard (length (concat rows) =? length (concat (vgr_vi g))) ValueError ;; Ok rows) = Ok cells.
  Proof using.
    intros Hw. pose proof (fun row => cell_ok g row Hw) as Hcell. destruct Hw as (Hd & Hc & Hrows).
    assert (exists cells, Forall2 (fun row cell => match vgr_class g with MSimplex => Ok row | MTensor => ord <- tensor_order (vgr_dim g) ;; take row ord | MOther => Err TypeError end = Ok cell /\ element_cell g row cell /\ length cell = length row) (vgr_vi g) cells) as (cells & Hcells).
    { clear Hrows. induction (vgr_vi g) as [|row rows IH]; [exists []; constructor|]. destruct (Hcell row (or_introl eq_refl)) as (cell & H). destruct IH as (cells & IH); [intros r Hr; apply Hcell; now right|]. exists (cell :: cells). now constructor. }
    exists cells. split; [eapply Forall2_impl; [|exact Hcells]; cbn; tauto|].
    assert (Hlen : length (concat cells) =? length (concat (vgr_vi g)) = true). { apply Nat.eqb_eq. clear -Hcells. induction Hcells as [|row cell rows cells (_ & _ & H) _ IH]; [reflexivity|]. cbn [concat]. rewrite !app_length, H, IH. reflexivity. }
    destruct (vgr_class g); [| |congruence].
    - cbn [bind]. assert (cells = vgr_vi g) as ->. { clear -Hcells. induction Hcells as [|row cell rows cells (H & _) _ IH]; [reflexivity|]. injection H as ->. now rewrite IH. } rewrite Nat.eqb_refl. reflexivity.
    - assert (exists ord, tensor_order (vgr_dim g) = Ok ord) as (ord & Hord). { assert (Hdd : vgr_dim g = 1 \/ vgr_dim g = 2 \/ vgr_dim g = 3) by lia. destruct Hdd as [-> |[-> | ->]]; cbn; eauto. }
      rewrite Hord in *. cbn [bind] in *. assert (E : mapM (fun row => take row ord) (vgr_vi g) = Ok cells) by (apply mapM_ok; eapply Forall2_impl; [|exact Hcells]; cbn; tauto). rewrite E. cbn [bind]. rewrite Hlen. reflexivity.
  Qed.

  Lemma cells_ok groups : Forall writable groups -> exists cells, Forall2 (fun g cs => Forall2 (element_cell g) (vgr_vi g) cs) groups cells /\ vertex_cells groups = Ok (concat (concat cells)).
  Proof using.
    unfold vertex_cells. intros Hw.
    assert (H : forall groups acc, Forall writable groups -> exists cells, Forall2 (fun g cs => Forall2 (element_cell g) (vgr_vi g) cs) groups cells /\
      foldM (fun cells g => rows <- match vgr_class g with MSimplex => Ok (vgr_vi g) | MTensor => ord <- tensor_order (vgr_dim g) ;; mapM (fun row => take row ord) (vgr_vi g) | MOther => Err TypeError end ;;
        _ <- guard (length (concat rows) =? length (concat (vgr_vi g))) ValueError ;; Ok (cells ++ concat rows)) groups acc = Ok (acc ++ concat (concat cells))).
    { clear. induction groups as [|g groups IH]; intros acc Hw; [exists []; split; [constructor|]; cbn [foldM concat]; now rewrite app_nil_r|].
      inversion Hw as [|? ? Hg Hw']; subst. destruct (group_cells_ok g Hg) as (cs & H1 & H2). destruct (IH (acc ++ concat cs) Hw') as (cells & I1 & I2). exists (cs :: cells). split; [now constructor|]. cbn [foldM].
      apply bind_ok in H2 as (rows & E1 & H2). rewrite E1. cbn [bind]. destruct (length (concat rows) =? length (concat (vgr_vi g))); cbn [guard bind] in *; [|discriminate]. assert (rows = cs) as -> by congruence. rewrite I2. cbn [concat]. now rewrite concat_app, <- app_assoc. }
    destruct (H groups [] Hw) as (cells & H1 & H2). exists cells. now split.
  Qed.

  Lemma elements_split (groups : list vgroup) cells ts : Forall2 (fun g cs => Forall2 (element_cell g) (vgr_vi g) cs) groups cells -> Forall2 (fun g t => element_type simplex_type tensor_type g = Some t) groups ts ->
    length (concat cells) = length (elements groups) /\ length (concat (map (fun gt : vgroup * nat => repeat (snd gt) (length (vgr_vi (fst gt)))) (combine groups ts))) = length (elements groups) /\
    Forall2 (fun (gr : vgroup * list nat) (ct : list nat * nat) => element_cell (fst gr) (snd gr) (fst ct) /\ element_type simplex_type tensor_type (fst gr) = Some (snd ct)) (elements groups)
      (combine (concat cells) (concat (map (fun gt : vgroup * nat => repeat (snd gt) (length (vgr_vi (fst gt)))) (combine groups ts)))).
  Proof using.
    intros Hc. revert ts. induction Hc as [|g cs groups cells Hg Hc IH]; intros ts Ht; inversion Ht as [|? t ? ts' Hgt Ht']; subst; [repeat split; constructor|].
    destruct (IH _ Ht') as (I1 & I2 & I3). unfold elements in *. cbn [map concat combine fst snd]. rewrite !app_length, map_length, repeat_length, I1, I2. rewrite (Forall2_length' _ _ _ Hg). split; [reflexivity|]. split; [reflexivity|].
    rewrite <- (Forall2_length' _ _ _ Hg). rewrite MergeProofs.combine_app by (rewrite repeat_length; symmetry; exact (Forall2_length' _ _ _ Hg)). apply Forall2_app; [|exact I3].
    clear -Hg Hgt. induction Hg as [|row c rows cs H _ IH]; [constructor|]. cbn [map length repeat combine]. constructor; [split; assumption|exact IH].
  Qed.
End Vertex.

Lemma foldM_cons {A S} (f : S -> A -> res S) x l s : foldM f (x :: l) s = (s' <- f s x ;; foldM f l s').
Proof. reflexivity. Qed.

(** ** TikZ *)
Section Tikz.
  Variable P : Type.
  Variable average : list P -> P.
  Variable vertices : list P.

  Definition element_lines (n : nat) (pts : list P) : list (coord_name * P) := (Cent (n + 1), average pts) :: map (fun iv : nat * P => (Vert (n + 1) (fst iv + 1), snd iv)) (enumerate pts).
  Lemma elements_cons g groups : elements (g :: groups) = map (pair g) (vgr_vi g) ++ elements groups.
  Proof using. reflexivity. Qed.

  Definition tikz_el (base : nat) (st : list (coord_name * P) * list (list coord_name)) (ie : nat * list nat) : res (list (coord_name * P) * list (list coord_name)) :=
    let (iel, el) := ie in let '(lines, drawel) := st in let el_nr := base + iel + 1 in elverts <- take vertices el ;;
    Ok (lines ++ (Cent el_nr, average elverts) :: map (fun iv : nat * P => (Vert el_nr (fst iv + 1), snd iv)) (enumerate elverts),
        drawel ++ [map (fun vi => Vert el_nr (vi + 1)) (seq 0 (length elverts))]).
  Definition tikz_grp (st : list (coord_name * P) * list (list coord_name)) (bg : nat * vgroup) : res (list (coord_name * P) * list (list coord_name)) :=
    let (base, g) := bg in foldM (tikz_el base) (enumerate (vgr_vi g)) st.
  Lemma tikz_fold_group rows : forall base k ptss st, Forall2 (fun row pts => take vertices row = Ok pts) rows ptss ->
    foldM (tikz_el base) (enumerate_from k rows) st =
    Ok (fst st ++ concat (map (fun np : nat * list P => element_lines (fst np) (snd np)) (enumerate_from (base + k) ptss)), snd st ++ map (fun np : nat * list P => map (fun vi => Vert (fst np + 1) (vi + 1)) (seq 0 (length (snd np)))) (enumerate_from (base + k) ptss)).
  Proof using.
    induction rows as [|row rows IH]; intros base k ptss st H; inversion H as [|? pts ? ptss' H1 H2]; subst.
    - cbn [enumerate_from seq length combine foldM map concat]. destruct st. cbn [fst snd]. now rewrite !app_nil_r.
    - rewrite !enumerate_from_cons. rewrite foldM_cons. destruct st as (lines, drawel). unfold tikz_el at 1. rewrite H1. cbn [bind]. rewrite (IH base (S k) ptss' _ H2). cbn [map concat fst snd]. rewrite <- !app_assoc. replace (base + S k) with (S (base + k)) by lia. reflexivity.
  Qed.
  Lemma tikz_fold groups : forall b ptss st, Forall2 (fun gr pts => take vertices (snd gr) = Ok pts) (elements groups) ptss ->
    foldM tikz_grp (bases_from b groups) st =
    Ok (fst st ++ concat (map (fun np : nat * list P => element_lines (fst np) (snd np)) (enumerate_from b ptss)), snd st ++ map (fun np : nat * list P => map (fun vi => Vert (fst np + 1) (vi + 1)) (seq 0 (length (snd np)))) (enumerate_from b ptss)).
  Proof using.
    induction groups as [|g groups IH]; intros b ptss st H.
    - inversion H; subst. destruct st. cbn [bases_from foldM enumerate_from seq length combine map concat fst snd]. now rewrite !app_nil_r.
    - rewrite elements_cons in H. apply Forall2_app_inv_l in H as (l1 & l2 & H1 & H2 & ->).
      assert (H1' : Forall2 (fun row pts => take vertices row = Ok pts) (vgr_vi g) l1). { clear -H1. remember (map (pair g) (vgr_vi g)) as m eqn:Em. revert Em. generalize (vgr_vi g). induction H1 as [|gr pts m l1 H _ IH]; intros rows Em; destruct rows as [|row rows]; try discriminate; [constructor|]. injection Em as -> ->. constructor; [exact H|now apply IH]. }
      cbn [bases_from]. rewrite foldM_cons. unfold tikz_grp at 1. pose proof (tikz_fold_group _ b 0 l1 st H1') as E. change (enumerate_from 0 (vgr_vi g)) with (enumerate (vgr_vi g)) in E. rewrite E. clear E. cbn [bind]. rewrite (IH _ l2 _ H2). cbn [fst snd].
      rewrite Nat.add_0_r. rewrite (Forall2_length' _ _ _ H1'). rewrite (enumerate_from_app b l1 l2). rewrite !map_app, concat_app, <- !app_assoc. reflexivity.
  Qed.
  Lemma tikz_ok groups ptss : groups <> [] -> Forall2 (fun gr pts => take vertices (snd gr) = Ok pts) (elements groups) ptss ->
    mesh_to_tikz P average vertices groups = Ok (concat (map (fun np : nat * list P => element_lines (fst np) (snd np)) (enumerate ptss)), map (fun np : nat * list P => map (fun vi => Vert (fst np + 1) (vi + 1)) (seq 0 (length (snd np)))) (enumerate ptss)).
  Proof using. intros Hne H. unfold mesh_to_tikz. rewrite zip_bases_ok by exact Hne. cbn [bind]. exact (tikz_fold groups 0 ptss ([], []) H). Qed.

  Lemma names_nodup k ptss : NoDup (map fst (concat (map (fun np : nat * list P => element_lines (fst np) (snd np)) (enumerate_from k ptss)))).
  Proof using.
    revert k. induction ptss as [|pts ptss IH]; intros k; [constructor|]. rewrite enumerate_from_cons. cbn [map concat fst snd]. rewrite map_app. apply NoDup_app; [|apply IH|].
    - unfold element_lines. cbn [map fst]. rewrite map_map. cbn [fst]. constructor; [intros H; apply in_map_iff in H; destruct H as (? & H & _); discriminate|].
      assert (Hj : forall j, NoDup (map (fun x : nat * P => Vert (k + 1) (fst x + 1)) (enumerate_from j pts))); [|exact (Hj 0)].
      clear. induction pts as [|p pts IHp]; intros j; [constructor|]. rewrite enumerate_from_cons. cbn [map fst]. constructor; [|apply IHp]. intros H. apply in_map_iff in H. destruct H as ((i, x) & H & Hin). cbn [fst] in H. injection H as H. clear -H Hin. unfold enumerate_from in Hin. apply in_combine_l in Hin. apply in_seq in Hin. lia.
    - intros x Hx Hy. apply in_map_iff in Hx. destruct Hx as ((n1, p1) & <- & Hx). apply in_map_iff in Hy. destruct Hy as ((n2, p2) & E & Hy). cbn [fst] in *. subst n2. apply in_concat in Hy. destruct Hy as (l & Hl & Hy). apply in_map_iff in Hl. destruct Hl as ((n, q) & <- & Hl). cbn [fst snd] in *.
      unfold enumerate_from in Hl. apply in_combine_l in Hl. apply in_seq in Hl. unfold element_lines in Hx, Hy. destruct Hx as [Hx|Hx], Hy as [Hy|Hy].
      + assert (Cent (k + 1) = Cent (n + 1)) as E by congruence. injection E as E. lia.
      + apply in_map_iff in Hy. destruct Hy as (? & Hy & _). congruence.
      + apply in_map_iff in Hx. destruct Hx as (? & Hx & _). congruence.
      + apply in_map_iff in Hx. destruct Hx as ((? & ?) & Hx & _). apply in_map_iff in Hy. destruct Hy as ((? & ?) & Hy & _). cbn [fst snd] in *. assert (k + 1 = n + 1) by congruence. lia.
  Qed.
End Tikz.

(** ** Adjacency *)
Section Adjacency.
  Variable P : Type.
  Variable mean_of : list P -> P.
  Variable vertices : list P.

  Lemma upd_mid {A} (pre : list A) x mid v : upd (pre ++ x :: mid) (length pre) v = pre ++ v :: mid.
  Proof using. induction pre as [|y pre IH]; [reflexivity|]. cbn [length app upd]. now rewrite IH. Qed.
  Lemma upd_all (vs : list P) : forall pre mid post k base, length mid = length vs -> base + k = length pre ->
    fold_left (fun cs (iv : nat * P) => upd cs (base + fst iv) (snd iv)) (enumerate_from k vs) (pre ++ mid ++ post) = pre ++ vs ++ post.
  Proof using.
    induction vs as [|v vs IH]; intros pre mid post k base Hm Hk; destruct mid as [|x mid]; try discriminate; [reflexivity|]. rewrite enumerate_from_cons. cbn [fold_left fst snd]. cbn [app]. rewrite Hk, upd_mid.
    specialize (IH (pre ++ [v]) mid post (S k) base). rewrite app_length in IH. cbn [length] in *. rewrite <- !app_assoc in IH. cbn [app] in IH. apply IH; lia.
  Qed.
  Lemma points_ok groups garbage ptss : groups <> [] -> length garbage = length (elements groups) -> Forall2 (fun gr pts => take vertices (snd gr) = Ok pts) (elements groups) ptss ->
    adjacency_points P mean_of garbage vertices groups = Ok (map mean_of ptss).
  Proof using.
    intros Hne Hg H. unfold adjacency_points. rewrite zip_bases_ok by exact Hne. cbn [bind].
    assert (G : forall groups ptss pre garbage, length garbage = length (elements groups) -> Forall2 (fun gr pts => take vertices (snd gr) = Ok pts) (elements groups) ptss ->
      foldM (fun cs (bg : nat * vgroup) => let (base, g) := bg in vs <- mapM (fun el => elverts <- take vertices el ;; Ok (mean_of elverts)) (vgr_vi g) ;;
        Ok (fold_left (fun cs (iv : nat * P) => upd cs (base + fst iv) (snd iv)) (enumerate vs) cs)) (bases_from (length pre) groups) (pre ++ garbage) = Ok (pre ++ map mean_of ptss)).
    { clear. induction groups as [|g groups IH]; intros ptss pre garbage Hg H.
      - inversion H; subst. destruct garbage; [reflexivity|discriminate].
      - rewrite elements_cons in H, Hg. apply Forall2_app_inv_l in H as (l1 & l2 & H1 & H2 & ->).
        assert (H1' : Forall2 (fun row pts => take vertices row = Ok pts) (vgr_vi g) l1). { clear -H1. remember (map (pair g) (vgr_vi g)) as m eqn:Em. revert Em. generalize (vgr_vi g). induction H1 as [|gr pts m l1 H _ IH]; intros rows Em; destruct rows as [|row rows]; try discriminate; [constructor|]. injection Em as -> ->. constructor; [exact H|now apply IH]. }
        cbn [bases_from foldM].
        assert (E : mapM (fun el => elverts <- take vertices el ;; Ok (mean_of elverts)) (vgr_vi g) = Ok (map mean_of l1)). { apply mapM_ok. clear -H1'. induction H1' as [|row pts rows l1 H _ IH]; [constructor|]. cbn [map]. constructor; [rewrite H; reflexivity|exact IH]. }
        rewrite E. cbn [bind]. rewrite app_length, map_length in Hg. rewrite <- (firstn_skipn (length (vgr_vi g)) garbage). unfold enumerate.
        rewrite upd_all by (rewrite ?firstn_length, ?map_length, <- ?(Forall2_length' _ _ _ H1'); lia).
        rewrite app_assoc. specialize (IH l2 (pre ++ map mean_of l1) (skipn (length (vgr_vi g)) garbage)). rewrite app_length, map_length, <- (Forall2_length' _ _ _ H1') in IH. unfold enumerate in IH. rewrite IH; [now rewrite map_app, <- app_assoc|rewrite skipn_length; lia|exact H2]. }
    apply (G groups ptss [] garbage Hg H).
  Qed.

  Lemma lines_ok starts nbs n garbage rows : nth_error starts 0 = Some 0 -> nth_error starts n = Some (length nbs) -> length garbage = length nbs ->
    Forall2 (csr_row starts nbs) (seq 0 n) rows ->
    adjacency_lines garbage n starts nbs = Ok (concat (map (fun er : nat * list nat => map (pair (fst er)) (snd er)) (enumerate rows))).
  Proof using.
    intros H0 Hn Hg Hrows. unfold adjacency_lines.
    assert (G : forall m k rows pre post, k + m = n -> nth_error starts k = Some (length pre) -> length pre + length post = length nbs -> Forall2 (csr_row starts nbs) (seq k m) rows ->
      foldM (fun c iel => lo <- get starts iel ;; hi <- get starts (iel + 1) ;; Ok (assign_slice c lo hi iel)) (seq k m) (pre ++ post) = Ok (pre ++ concat (map (fun er : nat * list nat => repeat (fst er) (length (snd er))) (enumerate_from k rows))) /\
      skipn (length pre) nbs = concat rows).
    { clear rows Hrows. induction m as [|m IH]; intros k rows pre post Hk Hs Hl Hr.
      - inversion Hr; subst. rewrite Nat.add_0_r in *. assert (length pre = length nbs) by congruence. assert (post = []) as -> by (destruct post; [reflexivity|cbn [length] in Hl; lia]). split; [reflexivity|]. rewrite H. apply skipn_all.
      - cbn [seq] in Hr. inversion Hr as [|? row ? rows' (a & b & Ha & Hb & Hab & Erow) Hr']; subst row rows. assert (a = length pre) as -> by congruence. cbn [seq foldM]. unfold get at 1. rewrite Hs. cbn [bind]. unfold get at 1. replace (k + 1) with (S k) by lia. rewrite Hb. cbn [bind].
        set (w := b - length pre) in *. rewrite <- (firstn_skipn w post). rewrite assign_slice_mid by (rewrite ?firstn_length; lia). rewrite firstn_length, Nat.min_l by lia. rewrite app_assoc.
        destruct (IH (S k) rows' (pre ++ repeat k w) (skipn w post)) as (I1 & I2); [lia|rewrite app_length, repeat_length; replace (length pre + w) with b by lia; exact Hb|rewrite app_length, repeat_length, skipn_length; lia|exact Hr'|].
        unfold get in I1. unfold get. rewrite I1. rewrite enumerate_from_cons. cbn [map concat fst snd]. rewrite firstn_length, skipn_length, Nat.min_l by lia. split; [now rewrite <- app_assoc|].
        rewrite app_length, repeat_length in I2. rewrite <- I2. rewrite <- (firstn_skipn w (skipn (length pre) nbs)) at 1. f_equal. clear. clearbody w. rewrite Nat.add_comm. revert nbs. induction (length pre) as [|q IH]; intros nbs; [now rewrite Nat.add_0_r|]. rewrite Nat.add_succ_r. destruct nbs as [|x nbs]; [now rewrite !skipn_nil|]. cbn [skipn]. apply IH. }
    destruct (G n 0 rows [] garbage eq_refl H0 Hg Hrows) as (G1 & G2). cbn [app] in G1. rewrite G1. cbn [bind]. f_equal. cbn [length] in G2. rewrite skipn_O in G2. rewrite G2. clear. unfold enumerate. generalize 0. induction rows as [|row rows IH]; intros k; [reflexivity|]. rewrite enumerate_from_cons. cbn [map concat fst snd]. rewrite MergeProofs.combine_app by (rewrite repeat_length; reflexivity). rewrite IH. f_equal. clear. induction row as [|x row IH]; [reflexivity|]. cbn [length repeat combine map]. now rewrite IH.
  Qed.
End Adjacency.
