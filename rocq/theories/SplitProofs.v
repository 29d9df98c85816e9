(** * split_mesh_groups and remove_unused_vertices: lemmas *)
From Coq Require Import List Arith Bool ZArith Lia Permutation Sorting.Sorted.
From Verif Require Import Np NpFacts MeshModel MeshSpec MeshProofs MeshStateModel Lin ProcModel ProcSpec MergeProofs.
From Verif Require PartFilterProofs.
Import ListNotations.

(** ** masks *)
Lemma compress_where {X} (m : list bool) (l : list X) : length m = length l ->
  Forall2 (fun i x => nth_error l i = Some x) (where_ m) (compress m l).
Proof.
  intros Hl. unfold where_, compress.
  assert (G : forall pre m (l : list X), length m = length l ->
    Forall2 (fun i x => nth_error (pre ++ l) i = Some x)
      (map fst (filter snd (enumerate_from (length pre) m))) (map snd (filter fst (combine m l)))).
  { clear. intros pre m; revert pre; induction m as [|b m IH]; intros pre [|x l] H; cbn [length] in H; try lia; [constructor|].
    rewrite enumerate_from_cons. cbn [filter snd combine fst].
    specialize (IH (pre ++ [x]) l ltac:(lia)). rewrite app_length in IH. cbn [length] in IH.
    rewrite Nat.add_1_r, <- app_assoc in IH. cbn [app] in IH.
    destruct b; cbn [map fst snd]; auto. constructor; auto.
    rewrite nth_error_app2 by lia. now rewrite Nat.sub_diag. }
  apply (G [] m l Hl).
Qed.

(** ** unique_Z *)
Lemma dedup_adj_Z_In l x : In x (dedup_adj_Z l) <-> In x l.
Proof.
  induction l as [|a l IH]; [reflexivity|]. cbn [dedup_adj_Z In]. destruct (dedup_adj_Z l) as [|y r] eqn:Hd.
  - cbn [In]. rewrite <- IH. cbn. tauto.
  - destruct (Z.eqb_spec a y) as [->|Hn]; cbn [In] in *; rewrite <- IH; tauto.
Qed.

Lemma dedup_adj_Z_sorted l : StronglySorted Z.le l -> StronglySorted Z.lt (dedup_adj_Z l).
Proof.
  induction 1 as [|a l Hs IH HF]; cbn [dedup_adj_Z]; [constructor|].
  assert (HF' : Forall (Z.le a) (dedup_adj_Z l)).
  { rewrite Forall_forall in *. intros x Hx. apply HF, dedup_adj_Z_In, Hx. }
  destruct (dedup_adj_Z l) as [|y r] eqn:Hd; [repeat constructor|].
  destruct (Z.eqb_spec a y) as [->|Hn]; [auto|]. constructor; auto.
  inversion HF'; subst. inversion IH; subst. constructor; [lia|].
  eapply Forall_impl; [|eassumption]. cbn. intros z Hz. lia.
Qed.

Lemma sort_Z_sorted l : StronglySorted Z.le (sort_Z l).
Proof.
  assert (H : StronglySorted (fun a b => Z.leb a b = true) (sort_Z l)).
  { unfold sort_Z. apply isort_sorted.
    - intros a b. destruct (Z.leb_spec a b); auto. right. apply Z.leb_le. lia.
    - intros a b c H1 H2. apply Z.leb_le in H1, H2. apply Z.leb_le. lia. }
  induction H as [|a s Hs IH HF]; constructor; auto. eapply Forall_impl; [|exact HF]. cbn. intros b Hb. now apply Z.leb_le.
Qed.

Lemma unique_Z_In l x : In x (unique_Z l) <-> In x l.
Proof.
  unfold unique_Z. rewrite dedup_adj_Z_In. split; apply Permutation_in; [|symmetry]; apply isort_perm.
Qed.

Lemma unique_Z_NoDup l : NoDup (unique_Z l).
Proof.
  pose proof (dedup_adj_Z_sorted _ (sort_Z_sorted l)) as H. fold (unique_Z l) in H.
  induction H as [|a s Hs IH HF]; constructor; auto. intros Hin. rewrite Forall_forall in HF. specialize (HF _ Hin). lia.
Qed.

Section Split.
  Context {E A V : Type}.
  Variable flags : list Z.

  Definition gflags (b : nat) (g : egroup E) : list Z := slice flags b (b + nelements g).
  Definition items (l : list (nat * (nat * egroup E))) : list ((nat * (nat * egroup E)) * Z) :=
    flat_map (fun ibg => map (fun fl => (ibg, fl)) (unique_Z (gflags (fst (snd ibg)) (snd (snd ibg))))) l.
  Definition mkf (it : (nat * (nat * egroup E)) * Z) : egroup E :=
    let '((_, (b, g)), fl) := it in
    let mask := map (Z.eqb fl) (gflags b g) in
    mk_egroup (option_map (compress mask) (eg_vi g)) (compress mask (eg_nodes g)) (eg_fvi g).
  Definition keyf (it : (nat * (nat * egroup E)) * Z) : nat * Z := (fst (fst it), snd it).

  Lemma split_one_fold i b (g : egroup E) vi gf fls : forall st,
    eg_vi g = Some vi -> gf = gflags b g ->
    fold_left (fun st flag =>
                         let mask := map (Z.eqb flag) gf in
                         (fst st ++ [mk_egroup (Some (compress mask vi)) (compress mask (eg_nodes g)) (eg_fvi g)],
                          snd st ++ [((i, flag), length (fst st))])) fls st
    = (fst st ++ map mkf (map (fun fl => ((i, (b, g)), fl)) fls),
       snd st ++ combine (map keyf (map (fun fl => ((i, (b, g)), fl)) fls)) (seq (length (fst st)) (length fls))).
  Proof.
    induction fls as [|fl fls IH]; intros (gs, sub) Hvi Hgf; cbn [fold_left map].
    - cbn. now rewrite !app_nil_r.
    - rewrite IH by auto. cbn [fst snd length seq combine]. rewrite <- !app_assoc. cbn [app].
      rewrite app_length. cbn [length]. rewrite Nat.add_1_r. f_equal.
      f_equal. f_equal. unfold mkf. rewrite Hvi, <- Hgf. reflexivity.
  Qed.

  Lemma split_all (l : list (nat * (nat * egroup E))) : forall st,
    Forall (fun ibg => let '(_, (b, g)) := ibg in exists vi, eg_vi g = Some vi /\ length vi = nelements g /\ b + nelements g <= length flags) l ->
    foldM (split_one flags) l st =
      Ok (fst st ++ map mkf (items l), snd st ++ combine (map keyf (items l)) (seq (length (fst st)) (length (items l)))).
  Proof.
    induction l as [|(i, (b, g)) l IH]; intros st HF.
    - cbn. rewrite !app_nil_r. now destruct st.
    - inversion HF as [|? ? Hx HF']; subst. destruct Hx as (vi & Hvi & Hl & Hr). cbn [foldM split_one]. rewrite Hvi.
      assert (Hgl : length (slice flags b (b + nelements g)) = length vi) by (rewrite slice_length; lia).
      rewrite Hgl, Nat.eqb_refl. cbn [guard bind].
      rewrite (split_one_fold i b g vi (slice flags b (b + nelements g)) _ _ Hvi eq_refl).
      rewrite IH by auto. cbn [fst snd]. 
      assert (Hi : items ((i, (b, g)) :: l) = map (fun fl => ((i, (b, g)), fl)) (unique_Z (gflags b g)) ++ items l) by reflexivity.
      rewrite Hi. fold (gflags b g). set (fls := unique_Z (gflags b g)).
      rewrite !map_app, <- !app_assoc. f_equal. f_equal. f_equal.
      rewrite !app_length, !map_length, seq_app, combine_app by (rewrite !map_length, seq_length; reflexivity).
      reflexivity.
  Qed.
End Split.

Lemma nth_error_combine_Some {X Y} (l : list X) (l' : list Y) i x y :
  nth_error (combine l l') i = Some (x, y) <-> nth_error l i = Some x /\ nth_error l' i = Some y.
Proof.
  revert l' i; induction l as [|a l IH]; intros [|b l'] [|i]; cbn; try (split; [discriminate|intros (H1 & H2); discriminate]).
  - split; [intros H; injection H as -> ->; auto|intros (H1 & H2); congruence].
  - apply IH.
Qed.

Lemma split_spec {E A V} (flags : list Z) (m : mesh E A V) :
  has_rows (m_groups m) -> length flags = sum (map nelements (m_groups m)) ->
  exists m' sub, split_mesh_groups flags m = Ok (m', sub) /\
    splitting (m_groups m) flags (m_groups m') sub /\ m_vertices m' = m_vertices m.
Proof.
  intros HR Hlen. unfold split_mesh_groups. cbv zeta. set (sizes := map nelements (m_groups m)) in *.
  rewrite Hlen, Nat.eqb_refl. cbn [guard bind].
  set (l := enumerate (combine (base_element_nrs sizes) (m_groups m))).
  assert (Hl : forall g b grp, In (g, (b, grp)) l <-> nth_error (m_groups m) g = Some grp /\ b = base sizes g).
  { intros g b grp. unfold l. rewrite In_enumerate, nth_error_combine_Some. split.
    - intros (H1 & H2). split; auto. rewrite base_element_nrs_nth in H1; [congruence|].
      unfold sizes. rewrite map_length. apply nth_error_Some. congruence.
    - intros (H1 & ->). split; auto. apply base_element_nrs_nth. unfold sizes. rewrite map_length. apply nth_error_Some. congruence. }
  assert (Hbound : forall g grp, nth_error (m_groups m) g = Some grp -> base sizes g + nelements grp <= length flags).
  { intros g grp Hg. rewrite <- (base_S sizes g). { rewrite Hlen. apply sum_firstn_le. }
    unfold sizes. rewrite nth_error_map, Hg. reflexivity. }
  assert (Hvi : forall g grp, nth_error (m_groups m) g = Some grp -> exists vi, eg_vi grp = Some vi /\ length vi = nelements grp).
  { intros g grp Hg. unfold has_rows in HR. rewrite Forall_forall in HR. apply HR. eapply nth_error_In; eauto. }
  assert (HF : Forall (fun ibg => let '(_, (b, g)) := ibg in exists vi, eg_vi g = Some vi /\ length vi = nelements g /\ b + nelements g <= length flags) l).
  { apply Forall_forall. intros (g, (b, grp)) Hin. apply Hl in Hin as (Hg & ->).
    destruct (Hvi _ _ Hg) as (vi & Hvi1 & Hvl). exists vi. auto. }
  rewrite (split_all flags l ([], []) HF). cbn [bind fst snd app length].
  set (it := items flags l).
  assert (Hmake : forall gs c, make_mesh (E := E) (A := A) (m_vertices m) gs Pending Pending c 0 0 0 =
            Ok (mk_mesh gs (m_vertices m) (match m_vertices m with None => None | Some _ => c end)
                  (if truthy (match m_vertices m with None => None | Some _ => c end) then Pending else Unavailable)
                  (if truthy (match m_vertices m with None => None | Some _ => c end) then Pending else Unavailable) 0 0 0)).
  { intros gs c. unfold make_mesh. cbn [none_to_false]. destruct (truthy _); reflexivity. }
  rewrite Hmake. cbn [bind]. eexists. eexists. split; [reflexivity|]. cbn [m_groups m_vertices]. split; [|reflexivity].
  assert (Hit : forall ibg fl, In (ibg, fl) it <-> In ibg l /\ In fl (gflags flags (fst (snd ibg)) (snd (snd ibg)))).
  { intros ibg fl. unfold it, items. rewrite in_flat_map. split.
    - intros (ibg' & H1 & H2). apply in_map_iff in H2 as (fl' & Heq & H2). injection Heq as -> ->.
      split; auto. now apply unique_Z_In.
    - intros (H1 & H2). exists ibg. split; auto. apply in_map_iff. exists fl. split; auto. now apply unique_Z_In. }
  assert (Hgf : forall g grp i fl, nth_error (m_groups m) g = Some grp ->
    (nth_error (gflags flags (base sizes g) grp) i = Some fl <-> i < nelements grp /\ nth_error flags (base sizes g + i) = Some fl)).
  { intros g grp i fl Hg. unfold gflags. rewrite nth_error_slice. destruct (Nat.ltb_spec (base sizes g + i) (base sizes g + nelements grp)).
    - split; [intros H1; split; [lia|auto]|intros (_ & H1); auto].
    - split; [discriminate|intros (H1 & _); lia]. }
  assert (Hcl : length (map (@keyf E) it) = length (seq 0 (length it))) by (rewrite map_length, seq_length; reflexivity).
  split.
  - rewrite map_length. clear. generalize (@keyf E) as kf. generalize 0 as n.
    induction it as [|x it' IH]; intros n kf; [reflexivity|]. cbn [map length seq combine snd]. f_equal. apply IH.
  - assert (Hk : map fst (combine (map (@keyf E) it) (seq 0 (length it))) = map (@keyf E) it).
    { clear. generalize (@keyf E) as kf. generalize 0 as n.
      induction it as [|x it' IH]; intros n kf; [reflexivity|]. cbn [map length seq combine fst]. f_equal. apply IH. }
    rewrite Hk. unfold it, items. rewrite flat_map_concat_map, concat_map, map_map, <- flat_map_concat_map.
    apply NoDup_flat_map.
    + apply NoDup_enumerate.
    + intros ibg Hin. rewrite map_map. apply NoDup_map_inj; [|apply unique_Z_NoDup].
      intros x y _ _ Hxy. unfold keyf in Hxy. cbn in Hxy. congruence.
    + intros ibg ibg' k H1 H2 Hk1 Hk2. rewrite map_map in Hk1, Hk2.
      apply in_map_iff in Hk1 as (f1 & E1 & _). apply in_map_iff in Hk2 as (f2 & E2 & _). unfold keyf in E1, E2. cbn [fst snd] in E1, E2.
      destruct ibg as (g, (b, grp)), ibg' as (g', (b', grp')). cbn [fst] in *. apply Hl in H1, H2. destruct H1 as (H1 & ->), H2 as (H2 & ->).
      assert (g = g') by congruence. subst g'. congruence.
  - intros g flag n Hin. apply In_nth_error in Hin as (k & Hk). apply nth_error_combine_Some in Hk as (Hk & Hn).
    assert (k < length it) by (rewrite <- (map_length (@keyf E)); apply nth_error_Some; congruence).
    rewrite PartFilterProofs.nth_error_seq' in Hn by auto. injection Hn as <-. cbn [Nat.add].
    rewrite nth_error_map in Hk. destruct (nth_error it k) as [((g', (b, grp)), fl)|] eqn:Hitk; [|discriminate].
    unfold keyf in Hk. cbn in Hk. injection Hk as -> ->.
    pose proof (nth_error_In _ _ Hitk) as Hin. apply Hit in Hin as (Hin & Hfl). apply Hl in Hin as (Hg & ->). cbn [fst snd] in Hfl.
    destruct (Hvi _ _ Hg) as (vi & Hvi1 & Hvl).
    set (mask := map (Z.eqb flag) (gflags flags (base sizes g) grp)).
    assert (Hml : length mask = nelements grp).
    { unfold mask. rewrite map_length. unfold gflags. rewrite slice_length by (try lia; eapply Hbound; eauto). lia. }
    assert (Hidx : forall i, In i (where_ mask) <-> i < nelements grp /\ nth_error flags (base sizes g + i) = Some flag).
    { intros i. rewrite In_where_. unfold mask. rewrite nth_error_map. rewrite <- (Hgf g grp i flag Hg).
      destruct (nth_error (gflags _ _ _) i) as [z|]; cbn [option_map]; [|split; discriminate].
      split; intros Hz; injection Hz as Hz; [apply Z.eqb_eq in Hz; congruence|]. subst z. now rewrite Z.eqb_refl. }
    exists grp, vi, (mkf flags ((g, (base sizes g, grp)), flag)), (where_ mask).
    split; [exact Hg|]. split; [exact Hvi1|]. split. { rewrite nth_error_map, Hitk. reflexivity. }
    split. { apply In_nth_error in Hfl as (i & Hi). apply (Hgf _ _ _ _ Hg) in Hi. apply Hidx in Hi. intros Hnil. now rewrite Hnil in Hi. }
    split; [apply where_incr|]. split; [exact Hidx|]. unfold mkf. fold mask. cbn [eg_vi eg_nodes eg_fvi]. rewrite Hvi1. cbn [option_map].
    split; [|split; [|reflexivity]].
    + eexists. split; [reflexivity|]. apply compress_where. lia.
    + apply compress_where. exact Hml.
  - intros g grp i Hg Hi. pose proof (Hbound _ _ Hg).
    destruct (nth_error flags (base sizes g + i)) as [flag|] eqn:Hf; [|apply nth_error_None in Hf; lia].
    assert (Hin : In ((g, (base sizes g, grp)), flag) it).
    { apply Hit. split; [apply Hl; auto|]. cbn [fst snd]. eapply nth_error_In. apply (Hgf g grp i flag Hg). auto. }
    apply In_nth_error in Hin as (k & Hk). exists flag, k. split; [exact Hf|].
    apply nth_error_In with (n := k). apply nth_error_combine_Some. rewrite nth_error_map, Hk. split; [reflexivity|].
    assert (k < length it) by (apply nth_error_Some; congruence).
    rewrite PartFilterProofs.nth_error_seq' by auto. reflexivity.
Qed.

Lemma split_bad_length {E A V} flags (m : mesh E A V) :
  length flags <> sum (map nelements (m_groups m)) -> split_mesh_groups flags m = Err AssertionError.
Proof. intros H. unfold split_mesh_groups. apply Nat.eqb_neq in H. rewrite H. reflexivity. Qed.
