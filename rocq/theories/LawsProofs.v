(** * LawsProofs: algebraic laws of operations on meshes: lemmas. *)
From Coq Require Import List Arith Bool ZArith Lia Sorting.Sorted.
From Verif Require Import Np NpFacts MeshModel MeshSpec MeshProofs MeshStateModel Lin ProcModel ProcSpec MergeProofs SplitProofs UnusedProofs BoxMapProofs
  AffineModel AffineSpec AffineProofs RefineModel RefineSpec RefineProofs LawsSpec.
Import ListNotations.

(** ** Merging *)
Section Merge.
  Context {E A V : Type}.
  Notation meshT := (mesh E A V).
  Variable adim : meshT -> nat.
  Variable same_kind : egroup E -> egroup E -> bool.

  Definition adj_of {X} (ms : list meshT) (f : meshT -> lazyf X) : lazyf X :=
    if forallb (fun m => is_pending (f m)) ms && forallb (fun m => truthy (m_conforming m)) ms then Pending else Unavailable.
  Definition merged (ms : list meshT) (vss : list (list V)) : meshT :=
    mk_mesh (merged_groups ms (running 0 (map (@length V) vss))) (Some (concat vss)) (Some (forallb (fun m => truthy (m_conforming m)) ms))
      (adj_of ms (@m_nodal _ _ _)) (adj_of ms (@m_facial _ _ _)) 0 0 0.

  Lemma existsb_negb {X} (p : X -> bool) l : existsb (fun x => negb (p x)) l = negb (forallb p l).
  Proof. induction l as [|x l IH]; [reflexivity|]. cbn. rewrite IH. now destruct (p x). Qed.

  Lemma merge_closed ms vss d : ms <> [] -> (forall m, In m ms -> adim m = d) -> Forall2 (fun m vs => m_vertices m = Some vs) ms vss ->
    Forall (fun m => has_rows (m_groups m)) ms -> merge_disjoint_meshes adim same_kind false ms = Ok (merged ms vss).
  Proof.
    intros Hne Hd HF HR. unfold merge_disjoint_meshes. destruct ms as [|m0 ms0] eqn:Ems; [congruence|]. rewrite <- Ems in *.
    assert (Hg : forallb (fun m => adim m =? adim m0) ms = true).
    { apply forallb_forall. intros m Hm. apply Nat.eqb_eq. rewrite !Hd; auto. rewrite Ems. now left. }
    rewrite Hg. cbn [guard bind]. destruct (vertices_ok _ _ HF) as (Hv & _). rewrite Hv. cbn [bind]. cbv zeta.
    fold (tagged_groups ms (running 0 (map (@length V) vss))). rewrite separate_ok by exact HR. cbn [bind].
    rewrite (existsb_negb (fun m => is_pending (m_nodal m))), (existsb_negb (fun m => is_pending (m_facial m))).
    unfold make_mesh, merged, adj_of. 
    destruct (forallb (fun m => is_pending (m_nodal m)) ms), (forallb (fun m => is_pending (m_facial m)) ms), (forallb (fun m => truthy (m_conforming m)) ms); reflexivity.
  Qed.

  Lemma running_app b s1 s2 : running b (s1 ++ s2) = running b s1 ++ running (b + sum s1) s2.
  Proof. revert b. induction s1 as [|n s1 IH]; intros b; cbn; [now rewrite Nat.add_0_r|]. rewrite IH. now rewrite Nat.add_assoc. Qed.
  Lemma running_shift k b s : running (b + k) s = map (fun x => x + k) (running b s).
  Proof. revert b. induction s as [|n s IH]; intros b; [reflexivity|]. cbn. f_equal. rewrite <- IH. f_equal. lia. Qed.
  Lemma merged_app (ms1 ms2 : list meshT) b1 b2 : length ms1 = length b1 -> merged_groups ms1 b1 ++ merged_groups ms2 b2 = merged_groups (ms1 ++ ms2) (b1 ++ b2).
  Proof. intros H. unfold merged_groups, tagged_groups. rewrite combine_app, flat_map_app, map_app by exact H. reflexivity. Qed.
  Lemma shift_shift k b (g : egroup E) : shift_group k (shift_group b g) = shift_group (b + k) g.
  Proof.
    unfold shift_group. cbn [eg_vi eg_nodes eg_fvi]. f_equal. destruct (eg_vi g) as [vi|]; [|reflexivity]. cbn [option_map]. f_equal. rewrite map_map. apply map_ext. intros row.
    rewrite map_map. apply map_ext. intros v. lia.
  Qed.
  Lemma shift_0 (g : egroup E) : shift_group 0 g = g.
  Proof.
    destruct g as [[vi|] n f]; [|reflexivity]. unfold shift_group. cbn [eg_vi eg_nodes eg_fvi option_map]. do 2 f_equal. rewrite <- (map_id vi) at 2. apply map_ext. intros row.
    rewrite <- (map_id row) at 2. apply map_ext. intros v. lia.
  Qed.
  Lemma shift_merged k (ms : list meshT) bases : map (shift_group k) (merged_groups ms bases) = merged_groups ms (map (fun b => b + k) bases).
  Proof.
    unfold merged_groups. rewrite map_map. revert bases. induction ms as [|m ms IH]; intros [|b bases]; try reflexivity.
    unfold tagged_groups in *. cbn [combine flat_map map fst snd]. rewrite !map_app, IH. f_equal. rewrite !map_map. cbn [fst snd]. apply map_ext. intros g. apply shift_shift.
  Qed.
  Lemma merged_two (a b : meshT) na nb : merged_groups [a; b] (running 0 [na; nb]) = m_groups a ++ map (shift_group na) (m_groups b).
  Proof.
    unfold merged_groups, tagged_groups. cbn [running combine flat_map fst snd Nat.add]. rewrite app_nil_r, map_app, !map_map. cbn [fst snd]. f_equal.
    rewrite <- (map_id (m_groups a)) at 2. apply map_ext. apply shift_0.
  Qed.

  Lemma concat_length_sum (vss : list (list V)) : length (concat vss) = sum (map (@length V) vss).
  Proof. induction vss as [|v vss IH]; [reflexivity|]. cbn. now rewrite app_length, IH. Qed.

  Lemma truthy_some b : truthy (Some b) = b.
  Proof. now destruct b. Qed.
  Lemma pending_adj {X} ms (f : meshT -> lazyf X) : is_pending (adj_of ms f) = forallb (fun m => is_pending (f m)) ms && forallb (fun m => truthy (m_conforming m)) ms.
  Proof. unfold adj_of. now destruct (_ && _). Qed.

  Lemma merge_assoc ms1 ms2 vss1 vss2 d :
    ms1 <> [] -> ms2 <> [] -> (forall m, In m (ms1 ++ ms2) -> adim m = d) ->
    adim (merged ms1 vss1) = d -> adim (merged ms2 vss2) = d ->
    Forall2 (fun m vs => m_vertices m = Some vs) ms1 vss1 -> Forall2 (fun m vs => m_vertices m = Some vs) ms2 vss2 ->
    Forall (fun m => has_rows (m_groups m)) ms1 -> Forall (fun m => has_rows (m_groups m)) ms2 ->
    merge_disjoint_meshes adim same_kind false [merged ms1 vss1; merged ms2 vss2] = merge_disjoint_meshes adim same_kind false (ms1 ++ ms2).
  Proof.
    intros N1 N2 Hd D1 D2 F1 F2 R1 R2.
    rewrite (merge_closed (ms1 ++ ms2) (vss1 ++ vss2) d); [|now destruct ms1|exact Hd|now apply Forall2_app|now apply Forall_app].
    rewrite (merge_closed [merged ms1 vss1; merged ms2 vss2] [concat vss1; concat vss2] d); [|discriminate|now intros m [<-|[<-|[]]]|repeat constructor|repeat constructor; now apply merged_has_rows].
    f_equal. unfold merged at 1 4. cbn [map length]. f_equal.
    - rewrite merged_two. unfold merged at 1 2. cbn [m_groups]. rewrite shift_merged, <- running_shift, merged_app.
      + rewrite (map_app (@length V) vss1 vss2), running_app. cbn [Nat.add]. now rewrite concat_length_sum.
      + rewrite running_length, map_length. exact (Forall2_length' _ _ _ F1).
    - cbn [concat]. now rewrite app_nil_r, concat_app.
    - cbn [forallb merged m_conforming]. rewrite forallb_app, andb_true_r. now rewrite !truthy_some.
    - unfold adj_of at 1 2. cbn [forallb merged m_conforming m_nodal]. rewrite !truthy_some, !pending_adj, !forallb_app, !andb_true_r.
      destruct (forallb (fun m => is_pending (m_nodal m)) ms1), (forallb (fun m => is_pending (m_nodal m)) ms2), (forallb (fun m => truthy (m_conforming m)) ms1), (forallb (fun m => truthy (m_conforming m)) ms2); reflexivity.
    - unfold adj_of at 1 2. cbn [forallb merged m_conforming m_facial]. rewrite !truthy_some, !pending_adj, !forallb_app, !andb_true_r.
      destruct (forallb (fun m => is_pending (m_facial m)) ms1), (forallb (fun m => is_pending (m_facial m)) ms2), (forallb (fun m => truthy (m_conforming m)) ms1), (forallb (fun m => truthy (m_conforming m)) ms2); reflexivity.
  Qed.
End Merge.

(** ** Unused vertices *)
Section Unused.
  Context {E A V : Type}.
  Notation meshT := (mesh E A V).

  Lemma seq_pick {X} (l l' : list X) : Forall2 (fun v x => nth_error l v = Some x) (seq 0 (length l)) l' -> l' = l.
  Proof.
    intros H. assert (G : forall (pre l l' : list X), Forall2 (fun v x => nth_error (pre ++ l) v = Some x) (seq (length pre) (length l)) l' -> l' = l).
    { clear. intros pre l. revert pre. induction l as [|x l IH]; intros pre l' H; cbn [length seq] in H; inversion H as [|? ? ? ? Hx HF]; subst; [reflexivity|].
      rewrite nth_error_app2, Nat.sub_diag in Hx by lia. cbn in Hx. injection Hx as ->. f_equal. apply (IH (pre ++ [y])).
      rewrite app_length. cbn [length]. rewrite Nat.add_1_r. rewrite <- app_assoc. exact HF. }
    apply (G [] l l' H).
  Qed.

  Lemma seq_rename n (l l' : list nat) : Forall2 (fun v v' => nth_error (seq 0 n) v' = Some v) l l' -> l' = l.
  Proof.
    induction 1 as [|v v' l l' H _ IH]; [reflexivity|]. f_equal; auto.
    assert (v' < n) by (rewrite <- (seq_length n 0); apply nth_error_Some; congruence).
    rewrite (nth_error_nth' _ 0) in H by (rewrite seq_length; lia). rewrite seq_nth in H by lia. cbn in H. congruence.
  Qed.

  Lemma all_used_kept (m : meshT) : removable m -> all_used m -> exists m', remove_unused_vertices m = Ok m' /\ same_mesh m m'.
  Proof.
    intros (vs & Hvs & Hne & HR & Hr) (vs0 & Hvs0 & Hu). rewrite Hvs in Hvs0. injection Hvs0 as <-.
    destruct (remove_unused_spec m vs Hvs Hne HR Hr) as (m' & old & Hm & [Hs Hold (vs1 & vs' & H1 & H2 & HF) HG (R1 & R2 & R3)]).
    exists m'. split; [exact Hm|]. rewrite Hvs in H1. injection H1 as <-.
    assert (Ho : old = seq 0 (length vs)).
    { apply incr_ext; [exact Hs|apply incr_seq|]. intros v. rewrite Hold, in_seq. split.
      - intros (e & row & He & Hv). specialize (Hr _ _ _ He Hv). lia.
      - intros Hv. apply Hu. lia. }
    subst old. unfold same_mesh. rewrite R1, R2, R3, H2, Hvs. repeat split; auto.
    2:{ f_equal. apply seq_pick. exact HF. }
    clear -HG. revert HG. generalize (m_groups m) as gs, (m_groups m') as gs'. intros gs gs' HG.
    induction HG as [|g g' gs gs' (Hn & Hf & vi & vi' & Hv & Hv' & HF) _ IH]; [reflexivity|]. f_equal; auto.
    assert (vi' = vi). { clear -HF. induction HF as [|r r' vi vi' Hr _ IH]; [reflexivity|]. f_equal; auto. eapply seq_rename; eauto. }
    subst. destruct g, g'; cbn in *. congruence.
  Qed.

  Lemma removed_all_used (m m' : meshT) old : removable m -> without_unused m m' old -> removable m' /\ all_used m'.
  Proof.
    intros (vs & Hvs & Hne & HR & Hr) [Hs Hold (vs1 & vs' & H1 & H2 & HF) HG _]. rewrite Hvs in H1. injection H1 as <-.
    assert (Hl : length vs' = length old) by (symmetry; eapply Forall2_length'; eauto).
    assert (HR' : has_rows (m_groups m')).
    { unfold has_rows in *. apply Forall_forall. intros g' Hg'. destruct (Forall2_In_r _ _ _ _ HG Hg') as (g & Hg & Hn & _ & vi & vi' & Hv & Hv' & HFv).
      rewrite Forall_forall in HR. destruct (HR g Hg) as (vi0 & E0 & L0). exists vi'. split; [exact Hv'|]. unfold nelements in *. rewrite Hn.
      rewrite <- (Forall2_length' _ _ _ HFv). congruence. }
    split.
    - exists vs'. repeat split; auto.
      + intros H0. rewrite H0 in HG. inversion HG. congruence.
      + intros e row v He Hv. destruct (proj1 (elem_row_iff _ row HR')) as (g' & vi' & Hg' & Hvi' & Hrow); [eauto|].
        destruct (Forall2_In_r _ _ _ _ HG Hg') as (g & Hg & Hn & _ & vi & vi2 & Hvi & Hvi2 & HFv). rewrite Hvi' in Hvi2. injection Hvi2 as <-.
        destruct (Forall2_In_r _ _ _ _ HFv Hrow) as (row0 & _ & HFr). destruct (Forall2_In_r _ _ _ _ HFr Hv) as (v0 & _ & Hv0).
        rewrite Hl. apply nth_error_Some. congruence.
    - exists vs'. split; [exact H2|]. intros v Hv. rewrite Hl in Hv. destruct (nth_error old v) as [v0|] eqn:E0; [|apply nth_error_None in E0; lia].
      destruct (proj1 (Hold v0) (nth_error_In _ _ E0)) as (e & row & He & Hin).
      destruct (proj1 (elem_row_iff _ row HR)) as (g & vi & Hg & Hvi & Hrow); [eauto|].
      destruct (Forall2_In_l _ _ _ _ HG Hg) as (g' & Hg' & Hn & _ & vi0 & vi' & Hvi0 & Hvi' & HFv). rewrite Hvi in Hvi0. injection Hvi0 as <-.
      destruct (Forall2_In_l _ _ _ _ HFv Hrow) as (row' & Hrow' & HFr). destruct (Forall2_In_l _ _ _ _ HFr Hin) as (v' & Hv' & Hnth).
      assert (v' = v). { eapply NoDup_nth_error; [apply incr_NoDup; exact Hs| |congruence]. apply nth_error_Some. congruence. }
      subst v'. destruct (proj2 (elem_row_iff _ row' HR')) as (e' & He'); [exists g', vi'; auto|]. eauto.
  Qed.

  Lemma remove_twice (m : meshT) : removable m -> exists m' m'', remove_unused_vertices m = Ok m' /\ remove_unused_vertices m' = Ok m'' /\ all_used m' /\ same_mesh m' m''.
  Proof.
    intros H. pose proof H as (vs & Hvs & Hne & HR & Hr). destruct (remove_unused_spec m vs Hvs Hne HR Hr) as (m' & old & Hm & Hw).
    destruct (removed_all_used m m' old H Hw) as (H' & Hu). destruct (all_used_kept m' H' Hu) as (m'' & Hm'' & Hs). eauto 10.
  Qed.
End Unused.

(** ** Mapping the points *)
Section Maps.
  Context {P A : Type}.
  Variable trivial : A -> bool.
  Definition mesh_image (h : P -> P) (m : mesh (list P) A P) : mesh (list P) A P :=
    mk_mesh (map (fun g => mk_egroup (eg_vi g) (map (map h) (eg_nodes g)) (eg_fvi g)) (m_groups m))
                  (option_map (map h) (m_vertices m)) (m_conforming m) (m_nodal m) (m_facial m)
                  (m_vdtype m) (m_edtype m) (m_fdtype m).
  Lemma map_mesh_comp (f g : P -> P) (m : mesh (list P) A P) : maps_free trivial m ->
    (m' <- map_mesh trivial (map f) m ;; map_mesh trivial (map g) m') = map_mesh trivial (map (fun x => g (f x))) m.
  Proof.
    intros Hf. rewrite (map_mesh_spec trivial f m Hf). cbn [bind]. rewrite map_mesh_spec by exact Hf. rewrite map_mesh_spec by exact Hf.
    cbn [m_groups m_vertices m_conforming m_nodal m_facial m_vdtype m_edtype m_fdtype]. f_equal. f_equal.
    - rewrite map_map. apply map_ext. intros gr. cbn [eg_vi eg_nodes eg_fvi]. f_equal. rewrite map_map. apply map_ext. intros l. apply map_map.
    - destruct (m_vertices m) as [vs|]; [|reflexivity]. cbn [option_map]. now rewrite map_map.
  Qed.
  Lemma map_mesh_identity (f : P -> P) (m : mesh (list P) A P) : (forall x, f x = x) -> maps_free trivial m -> map_mesh trivial (map f) m = Ok m.
  Proof.
    intros Hid Hf. rewrite map_mesh_spec by exact Hf. f_equal. destruct m as [gs vs c n fa vd ed fd]. cbn [m_groups m_vertices m_conforming m_nodal m_facial m_vdtype m_edtype m_fdtype]. f_equal.
    - rewrite <- (map_id gs) at 2. apply map_ext. intros [vi nd fv]. cbn [eg_vi eg_nodes eg_fvi]. f_equal. rewrite <- (map_id nd) at 2. apply map_ext. intros l.
      rewrite <- (map_id l) at 2. now apply map_ext.
    - destruct vs as [vs|]; [|reflexivity]. cbn [option_map]. f_equal. rewrite <- (map_id vs) at 2. now apply map_ext.
  Qed.
End Maps.

(** ** Splitting by a constant flag *)
Section Constant.
  Context {E A V : Type}.

  Lemma unique_Z_repeat z n : unique_Z (repeat z n) = if n =? 0 then [] else [z].
  Proof.
    destruct n as [|n]; [reflexivity|]. cbn [Nat.eqb].
    assert (H : forall x, In x (unique_Z (repeat z (S n))) <-> x = z).
    { intros x. rewrite unique_Z_In. split; [apply repeat_spec|intros ->; now left]. }
    pose proof (unique_Z_NoDup (repeat z (S n))) as HN. destruct (unique_Z (repeat z (S n))) as [|a [|b l]].
    - exfalso. apply (proj2 (H z) eq_refl).
    - f_equal. apply H. now left.
    - exfalso. assert (a = z) by (apply H; now left). assert (b = z) by (apply H; right; now left). subst. inversion HN as [|? ? Hn _]; subst. apply Hn. now left.
  Qed.

  Lemma slice_repeat {X} (z : X) n a b : a <= b -> b <= n -> slice (repeat z n) a b = repeat z (b - a).
  Proof.
    intros H1 H2. apply nth_error_ext'. intros i. rewrite nth_error_slice.
    assert (R : forall k j, nth_error (repeat z k) j = if j <? k then Some z else None).
    { clear. induction k as [|k IH]; intros [|j]; try reflexivity. cbn [repeat nth_error]. rewrite IH. reflexivity. }
    rewrite !R. destruct (Nat.ltb_spec (a + i) b), (Nat.ltb_spec i (b - a)), (Nat.ltb_spec (a + i) n); try reflexivity; lia.
  Qed.

  Lemma map_snd_combine {X Y} (l : list X) : forall l' : list Y, length l = length l' -> map snd (combine l l') = l'.
  Proof. induction l as [|x l IH]; intros [|y l'] H; try discriminate; [reflexivity|]. cbn. f_equal. apply IH. now injection H. Qed.

  Lemma compress_all {X} z n (l : list X) : length l = n -> compress (map (Z.eqb z) (repeat z n)) l = l.
  Proof. intros <-. induction l as [|x l IH]; [reflexivity|]. cbn [length repeat map]. rewrite Z.eqb_refl. cbn. f_equal. exact IH. Qed.

  Lemma split_constant z (m : mesh E A V) : has_rows (m_groups m) ->
    let kept := filter (fun ig => nonempty (snd ig)) (enumerate (m_groups m)) in
    exists m' , split_mesh_groups (repeat z (sum (map nelements (m_groups m)))) m = Ok (m', combine (map (fun ig => (fst ig, z)) kept) (seq 0 (length kept))) /\
      m_groups m' = map snd kept /\ m_vertices m' = m_vertices m.
  Proof.
    intros HR kept. unfold split_mesh_groups. cbv zeta. set (sizes := map nelements (m_groups m)) in *. set (flags := repeat z (sum sizes)).
    assert (Hlen : length flags = sum sizes) by apply repeat_length.
    rewrite Hlen, Nat.eqb_refl. cbn [guard bind].
    set (l := enumerate (combine (base_element_nrs sizes) (m_groups m))).
    assert (Hl : forall g b grp, In (g, (b, grp)) l -> nth_error (m_groups m) g = Some grp /\ b = base sizes g).
    { intros g b grp. unfold l. rewrite In_enumerate, nth_error_combine_Some.
      intros (H1 & H2). split; auto. rewrite base_element_nrs_nth in H1; [congruence|].
      unfold sizes. rewrite map_length. apply nth_error_Some. congruence. }
    assert (Hbound : forall g grp, nth_error (m_groups m) g = Some grp -> base sizes g + nelements grp <= length flags).
    { intros g grp Hg. rewrite <- (base_S sizes g). { rewrite Hlen. apply sum_firstn_le. }
      unfold sizes. rewrite nth_error_map, Hg. reflexivity. }
    assert (HF : Forall (fun ibg => let '(_, (b, g)) := ibg in exists vi, eg_vi g = Some vi /\ length vi = nelements g /\ b + nelements g <= length flags) l).
    { apply Forall_forall. intros (g, (b, grp)) Hin. apply Hl in Hin as (Hg & ->).
      unfold has_rows in HR. rewrite Forall_forall in HR. destruct (HR _ (nth_error_In _ _ Hg)) as (vi & H1 & H2). exists vi. auto. }
    rewrite (split_all flags l ([], []) HF). cbn [bind fst snd app length].
    assert (Hmake : forall gs c, make_mesh (E := E) (A := A) (m_vertices m) gs Pending Pending c 0 0 0 =
            Ok (mk_mesh gs (m_vertices m) (match m_vertices m with None => None | Some _ => c end)
                  (if truthy (match m_vertices m with None => None | Some _ => c end) then Pending else Unavailable)
                  (if truthy (match m_vertices m with None => None | Some _ => c end) then Pending else Unavailable) 0 0 0)).
    { intros gs c. unfold make_mesh. cbn [none_to_false]. destruct (truthy _); reflexivity. }
    rewrite Hmake. cbn [bind].
    assert (Hit : items flags l = map (fun ibg => (ibg, z)) (filter (fun ibg => nonempty (snd (snd ibg))) l)).
    { assert (G : forall ibg, In ibg l -> gflags flags (fst (snd ibg)) (snd (snd ibg)) = repeat z (nelements (snd (snd ibg)))).
      { intros (g, (b, grp)) Hin. rewrite Forall_forall in HF. specialize (HF _ Hin). cbn in HF. destruct HF as (_ & _ & _ & Hb). cbn [fst snd].
        unfold gflags, flags. rewrite slice_repeat; [f_equal; lia|lia|rewrite <- Hlen; exact Hb]. }
      clear -G. unfold items. induction l as [|ibg l IH]; [reflexivity|]. cbn [flat_map filter]. rewrite G by now left. rewrite unique_Z_repeat.
      unfold nonempty at 1. destruct (nelements (snd (snd ibg)) =? 0); cbn [negb map app]; rewrite IH; auto; intros; apply G; now right. }
    assert (Hk : forall f k, map (fun ibg : nat * (nat * egroup E) => (fst ibg, snd (snd ibg))) (filter (fun ibg => nonempty (snd (snd ibg))) (enumerate_from k (combine f (m_groups m)))) =
              filter (fun ig => nonempty (snd ig)) (enumerate_from k (map snd (combine f (m_groups m))))).
    { intros f. generalize (combine f (m_groups m)) as c. induction c as [|(b, g) c IH]; intros k; [reflexivity|]. cbn [map]. rewrite !enumerate_from_cons. cbn [filter snd].
      destruct (nonempty g); cbn [map fst snd]; rewrite IH; reflexivity. }
    assert (Hsnd : map snd (combine (base_element_nrs sizes) (m_groups m)) = m_groups m).
    { clear. unfold sizes. destruct (m_groups m) as [|g0 gs0]; [now destruct (base_element_nrs _)|]. apply map_snd_combine.
      rewrite base_element_nrs_length, map_length; [reflexivity|discriminate]. }
    set (kl := filter (fun ibg : nat * (nat * egroup E) => nonempty (snd (snd ibg))) l) in *.
    assert (Hkept : map (fun ibg : nat * (nat * egroup E) => (fst ibg, snd (snd ibg))) kl = kept).
    { unfold kl, l, kept, enumerate. rewrite Hk, Hsnd. reflexivity. }
    assert (Hkl : forall ibg, In ibg kl -> mkf flags (ibg, z) = snd (snd ibg)).
    { intros (g, (b, grp)) Hin. apply filter_In in Hin as (Hin & _). rewrite Forall_forall in HF. specialize (HF _ Hin). cbn in HF. destruct HF as (vi & Hvi & Hvl & Hb).
      unfold mkf. assert (Hgf : gflags flags b grp = repeat z (nelements grp)).
      { unfold gflags, flags. rewrite slice_repeat; [f_equal; lia|lia|rewrite <- Hlen; exact Hb]. }
      rewrite Hgf, Hvi. cbn [option_map snd]. rewrite !compress_all by (auto; reflexivity). rewrite <- Hvi. now destruct grp. }
    eexists. rewrite Hit. split; [rewrite <- Hkept, !map_map, !map_length; reflexivity|]. cbn [m_groups m_vertices]. split; [|reflexivity].
    rewrite <- Hkept, !map_map. cbn [snd]. apply map_ext_in. exact Hkl.
  Qed.
End Constant.

(** ** Affine maps *)
Section Affine.
  Variable R : cring.
  Variable d : nat.
  Notation meshT := (mesh (list (list R)) (amap R) (list R)).


  Lemma images_eq (f g : list R -> list R) (m m1 m2 : meshT) : points_in d m -> (forall x, length x = d -> f x = g x) -> same_up_to f m m1 -> same_up_to g m m2 -> same_points m1 m2.
  Proof.
    intros (Hv & Hg) H [V1 G1 _ _] [V2 G2 _ _]. split.
    - clear -Hg H G1 G2. revert Hg G1 G2. generalize (m_groups m) as gs, (m_groups m1) as gs1, (m_groups m2) as gs2. intros gs gs1 gs2 Hg G1. revert gs2.
      induction G1 as [|g0 g1 gs gs1 (A1 & A2 & A3) _ IH]; intros gs2 G2; inversion G2 as [|? g2 ? gs2' (B1 & B2 & B3) G2']; subst; [reflexivity|].
      inversion Hg as [|? ? Hh Ht]; subst. f_equal; [|now apply IH].
      destruct g1 as [a1 n1 f1], g2 as [a2 n2 f2]. cbn in *. subst. f_equal. apply map_ext_in. intros l Hl. apply map_ext_in. intros x Hx.
      rewrite Forall_forall in Hh. specialize (Hh _ Hl). rewrite Forall_forall in Hh. symmetry. apply H. auto.
    - rewrite V1, V2. destruct (m_vertices m) as [vs|]; [|reflexivity]. cbn [option_map]. f_equal. apply map_ext_in. intros x Hx. symmetry. apply H.
      specialize (Hv vs eq_refl). rewrite Forall_forall in Hv. auto.
  Qed.

  Lemma same_up_to_comp (f g : list R -> list R) (m m1 m2 : meshT) : same_up_to f m m1 -> same_up_to g m1 m2 -> same_up_to (fun x => g (f x)) m m2.
  Proof.
    intros [V1 G1 N1 C1] [V2 G2 N2 C2]. split; try congruence.
    - rewrite V2, V1. destruct (m_vertices m); [|reflexivity]. cbn [option_map]. now rewrite map_map.
    - clear -G1 G2. revert G1 G2. generalize (m_groups m) as gs, (m_groups m1) as gs1, (m_groups m2) as gs2. intros gs gs1 gs2 G1. revert gs2.
      induction G1 as [|g0 g1 gs gs1 (A1 & A2 & A3) _ IH]; intros gs2 G2; inversion G2 as [|? g2 ? gs2' (B1 & B2 & B3) G2']; subst; constructor; auto.
      rewrite B1, B2, B3, A1, A2, A3. repeat split. rewrite map_map. apply map_ext. intros l. apply map_map.
  Qed.

  Lemma image_points A b (m m1 : meshT) : args_ok d A b -> points_in d m -> same_up_to (transform d A b) m m1 -> points_in d m1.
  Proof.
    intros Ha (Hv & Hg) [V1 G1 _ _].
    split.
    - intros vs Hvs. rewrite V1 in Hvs. destruct (m_vertices m) as [vs0|]; [|discriminate]. cbn [option_map] in Hvs. injection Hvs as <-.
      specialize (Hv vs0 eq_refl). apply Forall_map. eapply Forall_impl; [|exact Hv]. intros x Hx. now apply transform_length.
    - clear -Ha Hg G1. revert Hg. induction G1 as [|g0 g1 gs gs1 (A1 & A2 & A3) _ IH]; intros Hg; constructor; inversion Hg as [|? ? Hh Ht]; subst; auto.
      rewrite A3. apply Forall_map. eapply Forall_impl; [|exact Hh]. intros l Hl. apply Forall_map. eapply Forall_impl; [|exact Hl]. intros x Hx. now apply transform_length.
  Qed.


  Lemma affine_map_wf A b (m m1 : meshT) : args_ok d A b -> points_in d m -> wf_maps d m -> affine_map R d A b m = Ok m1 ->
    same_up_to (transform d A b) m m1 /\ points_in d m1 /\ wf_maps d m1.
  Proof.
    intros H HP (Hf & Hw) E1. destruct (affine_map_ok R d A b m H HP Hf Hw) as (m1' & E1' & S1 & Hfac). rewrite E1 in E1'. injection E1' as <-.
    split; [exact S1|]. split; [now apply (image_points A b m)|].
    destruct (m_facial m) as [| |fags] eqn:Em; [tauto| |].
    - destruct (m_facial m1) eqn:Em1; try contradiction. unfold wf_maps. rewrite Em1. split; discriminate.
    - destruct (m_facial m1) as [| |fags1] eqn:Em1; try contradiction. unfold wf_maps. rewrite Em1. split; [discriminate|]. intros fags' Ef. injection Ef as <-.
      specialize (Hw fags eq_refl). clear -Hfac Hw H. revert Hw. induction Hfac as [|l l' fags fags1 HF _ IH]; intros Hw; constructor; inversion Hw as [|? ? Hh Ht]; subst; auto.
      clear -HF Hh H. revert Hh. induction HF as [|g g' l l' Hr _ IH]; intros Hh; constructor; inversion Hh as [|? ? H1 H2]; subst; auto.
      destruct g, g'; cbn in Hr, H1 |- *; try contradiction; auto; destruct Hr as (? & Hr); intuition (subst; now apply new_map_wf).
  Qed.

  Lemma affine_total A b (m : meshT) : args_ok d A b -> points_in d m -> wf_maps d m -> exists m1, affine_map R d A b m = Ok m1.
  Proof. intros H HP (Hf & Hw). destruct (affine_map_ok R d A b m H HP Hf Hw) as (m1 & E1 & _). eauto. Qed.

  (** one map after the other is the composed map *)
  Lemma affine_comp A1 b1 A2 b2 A3 b3 (m : meshT) : args_ok d A1 b1 -> args_ok d A2 b2 -> args_ok d A3 b3 -> points_in d m -> wf_maps d m ->
    (forall x, length x = d -> transform d A2 b2 (transform d A1 b1 x) = transform d A3 b3 x) ->
    exists m1 m2 m3, affine_map R d A1 b1 m = Ok m1 /\ affine_map R d A2 b2 m1 = Ok m2 /\ affine_map R d A3 b3 m = Ok m3 /\ same_points m2 m3.
  Proof.
    intros H1 H2 H3 HP HW HT. destruct (affine_total A1 b1 m H1 HP HW) as (m1 & E1). destruct (affine_map_wf A1 b1 m m1 H1 HP HW E1) as (S1 & HP1 & HW1).
    destruct (affine_total A2 b2 m1 H2 HP1 HW1) as (m2 & E2). destruct (affine_map_wf A2 b2 m1 m2 H2 HP1 HW1 E2) as (S2 & _).
    destruct (affine_total A3 b3 m H3 HP HW) as (m3 & E3). destruct (affine_map_wf A3 b3 m m3 H3 HP HW E3) as (S3 & _).
    exists m1, m2, m3. do 3 (split; [assumption|]). apply (images_eq _ _ m m2 m3 HP HT); auto. now apply (same_up_to_comp _ _ m m1 m2).
  Qed.

  (** the composed map for matrices and vectors *)
  Lemma transform_comp (M1 : list (list R)) v1 M2 v2 x : is_mat d d M1 -> is_mat d d M2 -> length v1 = d -> length v2 = d -> length x = d ->
    transform d (Some (Arr M2)) (Some (Arr v2)) (transform d (Some (Arr M1)) (Some (Arr v1)) x) =
    transform d (Some (Arr (matmul d M2 M1))) (Some (Arr (vadd (matvec M2 v1) v2))) x.
  Proof.
    intros H1 H2 L1 L2 Lx. unfold transform. cbn [times shift]. rewrite (matvec_matmul R d d d) by assumption.
    rewrite (matvec_vadd R d d) by (auto; rewrite matvec_length; destruct H1; congruence).
    symmetry. apply vadd_assoc.
  Qed.
  Lemma transform_inverse (M : list (list R)) v N x : is_mat d d M -> is_mat d d N -> matmul d N M = idmat d -> length v = d -> length x = d ->
    transform d (Some (Arr N)) (Some (Arr (vopp (matvec N v)))) (transform d (Some (Arr M)) (Some (Arr v)) x) = x.
  Proof.
    intros HM HN HI Lv Lx. assert (LN : length (matvec N v) = d) by (rewrite matvec_length; apply HN).
    rewrite transform_comp; auto; [|now rewrite vopp_length]. unfold transform. cbn [times shift]. rewrite HI, vadd_vopp, LN.
    rewrite matvec_id by assumption. now apply vadd_zeros.
  Qed.
End Affine.

(** ** Refining no element *)
Section Nothing.
  Context {E A V : Type}.
  Variable tessellation : egroup E -> tess.
  Variable midpoints : egroup E -> nat -> list V.
  Variable child_nodes : egroup E -> nat -> list E.

  Lemma where_false n : where_ (repeat false n) = [].
  Proof. induction n as [|n IH]; [reflexivity|]. cbn [repeat]. rewrite where_cons, IH. reflexivity. Qed.
  Lemma nchild_false n k : nchild k (repeat false n) = repeat 1 n.
  Proof. unfold nchild. induction n as [|n IH]; [reflexivity|]. cbn [repeat map]. now rewrite IH. Qed.
  Lemma sum_ones n : sum (repeat 1 n) = n.
  Proof. induction n as [|n IH]; [reflexivity|]. cbn [repeat]. change (1 + sum (repeat 1 n) = S n). rewrite IH. reflexivity. Qed.
  Lemma base_ones n i : i <= n -> base (repeat 1 n) i = i.
  Proof. intros H. unfold base. replace n with (i + (n - i)) by lia. rewrite repeat_app, firstn_app, repeat_length, Nat.sub_diag. rewrite firstn_all2 by (rewrite repeat_length; lia). cbn [firstn]. rewrite app_nil_r. apply sum_ones. Qed.
  Lemma blocks_false {X} (old : list X) R : concat (blocks (repeat false (length old)) old R) = old.
  Proof.
    unfold blocks, enumerate. generalize 0 as k. induction old as [|x old IH]; intros k; [reflexivity|]. cbn [length repeat combine]. rewrite enumerate_from_cons. cbn [map fst snd concat app].
    f_equal. apply IH.
  Qed.
  Lemma place_false {X} (old : list X) (k : nat) :
    place (length old) (combine (compress (map negb (repeat false (length old))) (firstn (length old) (0 :: cumsum (map (fun b : bool => if b then k else 1) (repeat false (length old))))))
                          (compress (map negb (repeat false (length old))) old)) = Ok old.
  Proof.
    pose proof (place_blocks k (repeat false (length old)) old (fun _ => [])) as H. rewrite where_false in H. cbn [map concat] in H. rewrite app_nil_r in H.
    rewrite nchild_false, sum_ones, repeat_length, blocks_false in H. rewrite <- nchild_false with (k := k) in H. apply H; [reflexivity|].
    intros i Hi. apply nth_error_In, repeat_spec in Hi. discriminate.
  Qed.

  Lemma refine_group_nothing nv (grp : egroup E) d (added : list V) :
    (nv <> None -> exists vi, eg_vi grp = Some vi /\ length vi = nelements grp) ->
    refine_group tessellation midpoints child_nodes nv (repeat false (nelements grp)) grp d added =
      Ok ((d, added), (mk_egroup (match nv with None => None | Some _ => eg_vi grp end) (eg_nodes grp) (eg_fvi grp), map (fun i => [i]) (seq 0 (nelements grp)))).
  Proof.
    intros Hvi. unfold refine_group. cbv zeta. set (k := length (ts_children (tessellation grp))).
    assert (Hn : get (0 :: cumsum (map (fun b : bool => if b then k else 1) (repeat false (nelements grp)))) (nelements grp) = Ok (nelements grp)).
    { apply get_ok. fold (nchild k (repeat false (nelements grp))). rewrite nchild_false, cidx_nth by (rewrite repeat_length; lia). f_equal. now apply base_ones. }
    rewrite Hn. cbn [bind].
    assert (Hm : mapM (fun i => b <- get (0 :: cumsum (map (fun b : bool => if b then k else 1) (repeat false (nelements grp)))) i ;;
                         n <- get (map (fun b : bool => if b then k else 1) (repeat false (nelements grp))) i ;; Ok (seq b n)) (seq 0 (nelements grp)) = Ok (map (fun i => [i]) (seq 0 (nelements grp)))).
    { apply mapM_map_ok. intros i Hi. apply in_seq in Hi. fold (nchild k (repeat false (nelements grp))). rewrite nchild_false.
      rewrite (proj2 (get_ok _ _ _) (cidx_nth (repeat 1 (nelements grp)) i ltac:(rewrite repeat_length; lia))). cbn [bind].
      rewrite (proj2 (get_ok (repeat 1 (nelements grp)) i 1)). { cbn [bind seq]. now rewrite base_ones by lia. }
      rewrite (nth_error_nth' _ 0) by (rewrite repeat_length; lia). f_equal. apply (repeat_spec (nelements grp)). apply nth_In. rewrite repeat_length. lia. }
    rewrite Hm. cbn [bind]. rewrite where_false. cbn [foldM bind mapM concat fst snd].
    pose proof (place_false (eg_nodes grp) k) as Hp. change (length (eg_nodes grp)) with (nelements grp) in Hp.
    destruct nv as [nv|].
    - destruct Hvi as (vi & Hvi & Hl); [discriminate|]. rewrite Hvi. pose proof (place_false vi k) as Hp'. rewrite Hl in Hp'. rewrite Hp'. cbn [bind rs_dict rs_added].
      rewrite app_nil_r, Hp. reflexivity.
    - cbn [bind]. rewrite app_nil_r, Hp. reflexivity.
  Qed.

  Lemma refine_nothing vd ed fd (r : @refiner E A V) vs : m_groups (rf_current r) <> [] -> m_vertices (rf_current r) = Some vs -> has_rows (m_groups (rf_current r)) ->
    exists r', refine tessellation midpoints child_nodes vd ed fd r (repeat false (sum (map nelements (m_groups (rf_current r))))) = Ok r' /\
      m_groups (rf_current r') = m_groups (rf_current r) /\ m_vertices (rf_current r') = Some vs /\ m_conforming (rf_current r') = m_conforming (rf_current r) /\
      rf_previous r' = Some (rf_current r) /\ rf_dict r' = rf_dict r /\
      rf_records r' = Some (map (fun grp => (tessellation grp, map (fun i => [i]) (seq 0 (nelements grp)))) (m_groups (rf_current r))).
  Proof.
    intros Hne Hvs HR. set (m := rf_current r) in *. unfold refine. cbv zeta. fold m. set (sizes := map nelements (m_groups m)).
    rewrite repeat_length, Nat.eqb_refl. cbn [guard bind]. unfold sizes. rewrite bases_length, Nat.eqb_refl by assumption. cbn [guard bind]. fold sizes. rewrite Hvs. cbn [option_map].
    assert (HF : forall k l l' acc recs d, (forall b grp, In (b, grp) l -> In grp (m_groups m) /\ b + nelements grp <= sum sizes) -> k = sum sizes -> map snd l = l' ->
      foldM (fun (acc : (middict * list V * list (egroup E)) * list (tess * list (list nat))) bg =>
            let '((da, gs), recs) := acc in
            let '(b, grp) := bg in
            '(da', (grp', mapping)) <- refine_group tessellation midpoints child_nodes (Some (length vs)) (slice (repeat false k) b (b + nelements grp)) grp (fst da) (snd da) ;;
            Ok ((da', gs ++ [grp']), recs ++ [(tessellation grp, mapping)]))
          l (((d, []), acc), recs) = Ok (((d, []), acc ++ l'), recs ++ map (fun grp => (tessellation grp, map (fun i => [i]) (seq 0 (nelements grp)))) l')).
    { intros k l. induction l as [|(b, grp) l IH]; intros l' acc recs d Hl -> <-.
      - cbn [foldM map]. now rewrite !app_nil_r.
      - cbn [foldM]. destruct (Hl b grp) as (Hin & Hb); [now left|]. rewrite slice_repeat by lia. replace (b + nelements grp - b) with (nelements grp) by lia.
        unfold has_rows in HR. rewrite Forall_forall in HR. destruct (HR grp Hin) as (vi & Hvi & Hlen).
        rewrite refine_group_nothing by (intros _; exists vi; auto). cbn [bind fst snd]. 
        rewrite (IH (map snd l)); auto. 2:{ intros; apply Hl; now right. }
        cbn [map snd]. rewrite <- !app_assoc. cbn [app]. destruct grp; reflexivity. }
    rewrite (HF _ _ (m_groups m)); auto.
    - cbn [bind fst snd app]. rewrite app_nil_r.
      assert (Hc : match m_conforming m with Some true => Some (forallb (fun b => b) (repeat false (sum sizes)) || forallb negb (repeat false (sum sizes))) | c => c end = m_conforming m).
      { destruct (m_conforming m) as [[|]|]; try reflexivity. f_equal. apply orb_true_iff. right. apply forallb_forall. intros x Hx. apply repeat_spec in Hx. now subst. }
      rewrite Hc. unfold make_mesh. cbn [none_to_false]. destruct (truthy (m_conforming m)); cbn [bind]; eexists; (split; [reflexivity|]); cbn [rf_current rf_previous rf_dict rf_records m_groups m_vertices m_conforming]; auto 10.
    - intros b grp Hin. apply In_nth_error in Hin as (i & Hi). apply nth_error_combine_Some in Hi as (Hb & Hg). split; [eapply nth_error_In; eauto|].
      assert (i < length (m_groups m)) by (apply nth_error_Some; congruence). unfold sizes in Hb. rewrite base_element_nrs_nth in Hb by (rewrite map_length; lia). injection Hb as <-.
      rewrite <- (base_S (map nelements (m_groups m)) i) by (rewrite nth_error_map, Hg; reflexivity). apply sum_firstn_le.
    - apply map_snd_combine. apply bases_length. assumption.
  Qed.
End Nothing.

(** ** Statements *)
Lemma merge_in_steps {E A V} (adim : mesh E A V -> nat) same_kind (ms1 ms2 : list (mesh E A V)) a b d :
  ms1 <> [] -> ms2 <> [] -> (forall m, In m (ms1 ++ ms2) -> adim m = d /\ m_vertices m <> None /\ has_rows (m_groups m)) -> adim a = d -> adim b = d ->
  merge_disjoint_meshes adim same_kind false ms1 = Ok a -> merge_disjoint_meshes adim same_kind false ms2 = Ok b ->
  merge_disjoint_meshes adim same_kind false [a; b] = merge_disjoint_meshes adim same_kind false (ms1 ++ ms2).
Proof.
  intros N1 N2 H Da Db Ha Hb.
  assert (HV : forall ms : list (mesh E A V), (forall m, In m ms -> m_vertices m <> None) -> exists vss, Forall2 (fun m vs => m_vertices m = Some vs) ms vss).
  { intros ms. induction ms as [|m ms IH]; intros Hm; [exists []; constructor|]. destruct IH as (vss & IH); [intros; apply Hm; now right|].
    destruct (m_vertices m) as [vs|] eqn:E0; [|exfalso; apply (Hm m); [now left|assumption]]. exists (vs :: vss). constructor; auto. }
  destruct (HV ms1) as (vss1 & F1). { intros m Hm. apply H. apply in_or_app. now left. }
  destruct (HV ms2) as (vss2 & F2). { intros m Hm. apply H. apply in_or_app. now right. }
  assert (R1 : Forall (fun m => has_rows (m_groups m)) ms1). { apply Forall_forall. intros m Hm. apply H. apply in_or_app. now left. }
  assert (R2 : Forall (fun m => has_rows (m_groups m)) ms2). { apply Forall_forall. intros m Hm. apply H. apply in_or_app. now right. }
  rewrite (merge_closed adim same_kind ms1 vss1 d) in Ha; auto. 2:{ intros m Hm. apply H. apply in_or_app. now left. }
  rewrite (merge_closed adim same_kind ms2 vss2 d) in Hb; auto. 2:{ intros m Hm. apply H. apply in_or_app. now right. }
  injection Ha as <-. injection Hb as <-. apply (merge_assoc adim same_kind ms1 ms2 vss1 vss2 d); auto. intros m Hm. now apply H.
Qed.

Lemma merge_one {E A V} (adim : mesh E A V -> nat) same_kind (m : mesh E A V) : m_vertices m <> None -> has_rows (m_groups m) ->
  exists m', merge_disjoint_meshes adim same_kind false [m] = Ok m' /\ m_groups m' = m_groups m /\ m_vertices m' = m_vertices m.
Proof.
  intros Hv HR. destruct (m_vertices m) as [vs|] eqn:E0; [|congruence]. eexists. split.
  - apply (merge_closed adim same_kind [m] [vs] (adim m)); [discriminate|now intros m0 [<-|[]]|repeat constructor; assumption|repeat constructor; assumption].
  - cbn [merged m_groups m_vertices concat]. rewrite app_nil_r. split; [|reflexivity].
    unfold merged_groups, tagged_groups. cbn [map length running combine flat_map fst snd]. rewrite app_nil_r, map_map. cbn [fst snd].
    rewrite <- (map_id (m_groups m)) at 2. apply map_ext. intros g. apply shift_0.
Qed.

Lemma split_keeps {E A V} z (m : mesh E A V) : has_rows (m_groups m) -> Forall (fun g => nelements g <> 0) (m_groups m) ->
  exists m', split_mesh_groups (repeat z (sum (map nelements (m_groups m)))) m =
      Ok (m', map (fun i => ((i, z), i)) (seq 0 (length (m_groups m)))) /\ m_groups m' = m_groups m /\ m_vertices m' = m_vertices m.
Proof.
  intros HR HN. destruct (split_constant z m HR) as (m' & Hs & Hg & Hv). exists m'. 
  assert (Hk : forall k, filter (fun ig : nat * egroup E => nonempty (snd ig)) (enumerate_from k (m_groups m)) = enumerate_from k (m_groups m)).
  { clear -HN. induction (m_groups m) as [|g gs IH]; intros k; [reflexivity|]. rewrite enumerate_from_cons. inversion HN; subst. cbn [filter snd]. unfold nonempty at 1.
    destruct (Nat.eqb_spec (nelements g) 0); [contradiction|]. cbn [negb]. f_equal. now apply IH. }
  unfold enumerate in Hs, Hg. rewrite Hk in Hs, Hg. rewrite Hs. split; [|split; [|exact Hv]].
  - f_equal. f_equal. clear. generalize 0 as k. induction (m_groups m) as [|g gs IH]; intros k; [reflexivity|]. rewrite enumerate_from_cons. cbn [map length seq combine fst]. f_equal. apply IH.
  - rewrite Hg. clear. generalize 0 as k. induction (m_groups m) as [|g gs IH]; intros k; [reflexivity|]. rewrite enumerate_from_cons. cbn [map snd]. f_equal. apply IH.
Qed.

Lemma affine_composes {R : cring} d (M1 M2 : list (list R)) v1 v2 m :
  is_mat d d M1 -> is_mat d d M2 -> length v1 = d -> length v2 = d -> points_in d m -> wf_maps d m ->
  exists m1 m2 m3, affine_map R d (Some (Arr M1)) (Some (Arr v1)) m = Ok m1 /\ affine_map R d (Some (Arr M2)) (Some (Arr v2)) m1 = Ok m2 /\
    affine_map R d (Some (Arr (matmul d M2 M1))) (Some (Arr (vadd (matvec M2 v1) v2))) m = Ok m3 /\ same_points m2 m3.
Proof.
  intros H1 H2 L1 L2 HP HW. assert (L3 : length (matvec M2 v1) = d) by (rewrite matvec_length; apply H2). apply affine_comp; auto.
  - split; intros ? E0; injection E0 as <-; assumption.
  - split; intros ? E0; injection E0 as <-; assumption.
  - split; intros ? E0; injection E0 as <-; [now apply (is_mat_matmul R d d d)|]. rewrite vadd_length; congruence.
  - intros x Hx. now apply transform_comp.
Qed.

Lemma affine_inverse {R : cring} d (M N : list (list R)) v m :
  is_mat d d M -> is_mat d d N -> matmul d N M = idmat d -> length v = d -> points_in d m -> wf_maps d m ->
  exists m1 m2, affine_map R d (Some (Arr M)) (Some (Arr v)) m = Ok m1 /\ affine_map R d (Some (Arr N)) (Some (Arr (vopp (matvec N v)))) m1 = Ok m2 /\ same_points m m2.
Proof.
  intros HM HN HI Lv HP HW. destruct (affine_comp R d (Some (Arr M)) (Some (Arr v)) (Some (Arr N)) (Some (Arr (vopp (matvec N v)))) None None m) as (m1 & m2 & m3 & E1 & E2 & E3 & HS); auto.
  - split; intros ? E0; injection E0 as <-; assumption.
  - split; intros ? E0; injection E0 as <-; [assumption|]. rewrite vopp_length, matvec_length. apply HN.
  - split; discriminate.
  - intros x Hx. rewrite transform_id by assumption. now apply transform_inverse.
  - cbn in E3. injection E3 as <-. exists m1, m2. repeat split; auto; destruct HS; congruence.
Qed.
