(** * LoopyProofs: lemmas for LoopyProps. *)
From Coq Require Import List Arith Bool Lia Permutation.
From Verif Require Import Np NpFacts LoopyModel LoopySpec.
Import ListNotations.

(** ** Splitting and tagging *)
Definition part (D E : list nat) (n : nat) : loops :=
  if memb n D then [(Outer n, None); (Inner n 32, Some L0)] else if memb n E then [(Whole n, Some G0)] else [(Whole n, None)].
Definition state (D E names : list nat) : loops := flat_map (part D E) names.

Lemma memb_false n l : memb n l = false <-> ~ In n l.
Proof. rewrite <- memb_In. destruct (memb n l); split; congruence. Qed.
Lemma memb_ext n l l' : (In n l <-> In n l') -> memb n l = memb n l'.
Proof. intros H. destruct (memb n l) eqn:E; symmetry; [apply memb_In; apply H; now apply memb_In|apply memb_false; rewrite <- H; now apply memb_false]. Qed.

Lemma has_whole D E names n : existsb (is_whole n) (state D E names) = memb n names && negb (memb n D).
Proof.
  unfold state. induction names as [|m names IH]; [reflexivity|]. cbn [flat_map]. rewrite existsb_app, IH. cbn [memb existsb].
  fold (memb n names). unfold part. destruct (memb m D) eqn:Em; [|destruct (memb m E)]; cbn [existsb is_whole fst]; destruct (n =? m) eqn:Enm; cbn [orb andb]; try reflexivity.
  all: apply Nat.eqb_eq in Enm; subst m; rewrite Em; cbn [negb andb]; rewrite ?andb_false_r; reflexivity.
Qed.
Lemma split_state D names d : split_iname (state D [] names) d =
  if memb d names && negb (memb d D) then Ok (state (d :: D) [] names) else Err ValueError.
Proof.
  unfold split_iname. rewrite has_whole. destruct (memb d names && negb (memb d D)) eqn:E; [|reflexivity]. cbn [guard bind]. f_equal. apply andb_true_iff in E as (_ & E). apply negb_true_iff in E.
  unfold state. clear -E. induction names as [|m names IH]; [reflexivity|]. cbn [flat_map]. rewrite flat_map_app, IH. f_equal. unfold part. cbn [memb existsb]. fold (memb m D).
  destruct (memb m D) eqn:Em; [|change (memb m []) with false]; cbn [flat_map is_whole fst]; rewrite (Nat.eqb_sym m d); destruct (d =? m) eqn:Edm; cbn [orb app]; try reflexivity.
  - apply Nat.eqb_eq in Edm. subst m. reflexivity.
Qed.
Lemma tag_state D E names e : ~ In e D -> tag_iname (state D E names) e = if memb e names then Ok (state D (e :: E) names) else Err ValueError.
Proof.
  intros HD. unfold tag_iname. rewrite has_whole. apply memb_false in HD. rewrite HD. cbn [negb]. rewrite andb_true_r.
  destruct (memb e names); [|reflexivity]. cbn [guard bind]. f_equal. unfold state. clear -HD. induction names as [|m names IH]; [reflexivity|]. cbn [flat_map]. rewrite map_app, IH. f_equal. unfold part. cbn [memb existsb]. fold (memb m E).
  rewrite (Nat.eqb_sym m e). destruct (e =? m) eqn:Eem; [apply Nat.eqb_eq in Eem; subst m; rewrite HD|]; cbn [orb].
  - destruct (memb e E); cbn [map is_whole fst]; now rewrite Nat.eqb_refl.
  - destruct (memb m D); [reflexivity|]. destruct (memb m E); cbn [map is_whole fst]; now rewrite Eem.
Qed.

Lemma fold_split names D ds : incl ds names -> (NoDup ds /\ (forall d, In d ds -> ~ In d D) -> foldM split_iname ds (state D [] names) = Ok (state (rev ds ++ D) [] names)) /\
  (~ (NoDup ds /\ (forall d, In d ds -> ~ In d D)) -> foldM split_iname ds (state D [] names) = Err ValueError).
Proof.
  revert D. induction ds as [|d ds IH]; intros D Hi; cbn [foldM rev app].
  - split; [reflexivity|]. intros H. exfalso. apply H. split; [constructor|intros ? []].
  - rewrite split_state. assert (Hd : memb d names = true) by (apply memb_In, Hi; now left). rewrite Hd. cbn [andb]. destruct (memb d D) eqn:Ed; cbn [negb bind].
    + split; [|reflexivity]. intros (_ & H). exfalso. apply memb_In in Ed. now apply (H d); [left|].
    + destruct (IH (d :: D)) as (IH1 & IH2); [intros x Hx; apply Hi; now right|]. apply memb_false in Ed. split.
      * intros (Hn & H). apply NoDup_cons_iff in Hn as (Hn1 & Hn2). rewrite IH1; [rewrite <- app_assoc; reflexivity|]. split; [exact Hn2|]. intros x Hx [->|HxD]; [contradiction|]. now apply (H x); [right|].
      * intros H. apply IH2. intros (Hn & H'). apply H. split; [constructor; [intros Hin; apply (H' d Hin); now left|exact Hn]|]. intros x [<-|Hx]; [exact Ed|]. intros HxD. apply (H' x Hx). now right.
Qed.
Lemma fold_tag names D E es : incl es names -> (forall e, In e es -> ~ In e D) -> foldM tag_iname es (state D E names) = Ok (state D (rev es ++ E) names).
Proof.
  revert E. induction es as [|e es IH]; intros E Hi HD; cbn [foldM rev app]; [reflexivity|]. rewrite tag_state by (apply HD; now left).
  assert (He : memb e names = true) by (apply memb_In, Hi; now left). rewrite He. cbn [bind]. rewrite IH; [now rewrite <- app_assoc| |].
  - intros x Hx. apply Hi. now right.
  - intros x Hx. apply HD. now right.
Qed.

Lemma state_ext D D' E E' names : (forall n, In n D <-> In n D') -> (forall n, In n E <-> In n E') -> state D E names = state D' E' names.
Proof. intros HD HE. unfold state. apply flat_map_ext. intros n. unfold part. now rewrite (memb_ext n D D' (HD n)), (memb_ext n E E' (HE n)). Qed.
Lemma In_sort n l : In n (sort_nat l) <-> In n l.
Proof. split; apply Permutation_in; [|apply Permutation_sym]; apply sort_nat_perm. Qed.

Lemma transformed names els dofs : incl els names -> incl dofs names ->
  (NoDup dofs /\ (forall n, In n els -> ~ In n dofs) -> with_element_and_dof_inames (map (fun n => (Whole n, None)) names) els dofs = Ok (state dofs els names)) /\
  (~ (NoDup dofs /\ (forall n, In n els -> ~ In n dofs)) -> with_element_and_dof_inames (map (fun n => (Whole n, None)) names) els dofs = Err ValueError).
Proof.
  intros He Hd. assert (E0 : map (fun n => (Whole n, None)) names = state [] [] names).
  { unfold state. clear. induction names as [|n names IH]; [reflexivity|]. cbn [map flat_map]. now rewrite IH. }
  rewrite E0. unfold with_element_and_dof_inames.
  assert (Hdis : existsb (fun e => memb e dofs) els = false <-> (forall n, In n els -> ~ In n dofs)).
  { rewrite <- not_true_iff_false, existsb_exists. split.
    - intros H n Hn Hnd. apply H. exists n. split; [exact Hn|now apply memb_In].
    - intros H (n & Hn & Hnd). apply memb_In in Hnd. now apply (H n). }
  destruct (existsb (fun e => memb e dofs) els) eqn:Ex; cbn [negb guard bind].
  - split; [|reflexivity]. intros (_ & H). exfalso. apply Hdis in H. discriminate.
  - apply proj1 in Hdis. specialize (Hdis eq_refl). destruct (fold_split names [] (sort_nat dofs)) as (F1 & F2); [intros n Hn; apply Hd; now apply In_sort|]. split.
    + intros (Hn & _). rewrite F1; [|split; [apply (Permutation_NoDup (Permutation_sym (sort_nat_perm dofs)) Hn)|intros ? _ []]]. cbn [bind]. rewrite fold_tag.
      * f_equal. apply state_ext; intros n; rewrite app_nil_r, <- in_rev; apply In_sort.
      * intros n H. apply He. now apply In_sort.
      * intros n H. rewrite app_nil_r, <- in_rev, In_sort. apply Hdis. now apply In_sort.
    + intros H. rewrite F2; [reflexivity|]. intros (Hn & _). apply H. split; [apply (Permutation_NoDup (sort_nat_perm dofs) Hn)|exact Hdis].
Qed.

(** ** Collecting names *)
Definition name_at (axis : nat) (ix : list subscript) : list nat := match nth_error ix axis with Some (SVar n) => [n] | _ => [] end.
Lemma subscripts_ok k ix : known k ix -> subscript_inames k ix = Ok (name_at 0 ix, name_at 1 ix).
Proof.
  intros H. unfold subscript_inames, name_at. destruct ix as [|s0 [|s1 ix]]; cbn [firstn mapM bind nth_error skipn]; [reflexivity| |].
  - destruct (H 0 s0) as (n & -> & Hn); [lia|reflexivity|]. apply memb_In in Hn. rewrite Hn. reflexivity.
  - destruct (H 0 s0) as (n & -> & Hn); [lia|reflexivity|]. destruct (H 1 s1) as (m & -> & Hm); [lia|reflexivity|]. apply memb_In in Hn, Hm. rewrite Hn, Hm. reflexivity.
Qed.
Lemma subscripts_err k ix : ~ known k ix -> subscript_inames k ix = Err ValueError.
Proof.
  intros H. unfold subscript_inames. destruct (mapM _ (firstn 2 ix)) as [names|e] eqn:E; cbn [bind].
  - exfalso. apply H. apply mapM_ok in E. intros axis s Ha Hs.
    assert (Hf : nth_error (firstn 2 ix) axis = Some s) by (rewrite nth_error_firstn; destruct (Nat.ltb_spec axis 2); [exact Hs|lia]).
    destruct (Forall2_nth_error _ _ _ _ _ E Hf) as (n & _ & Hn). destruct s as [m|]; [|discriminate]. exists m. split; [reflexivity|]. apply memb_In. destruct (memb m _); [reflexivity|discriminate].
  - clear H. revert E. generalize (firstn 2 ix). intros l. induction l as [|s l IH]; cbn [mapM]; [discriminate|]. destruct s as [m|]; [|now intros [= <-]].
    destruct (memb m _); cbn [guard bind]; [|now intros [= <-]]. destruct (mapM _ l); cbn [bind]; [discriminate|]. intros [= <-]. now apply IH.
Qed.

Section Collect.
  Variable k : kernel.
  (** None: error, Some []: skipped, Some [ix]: subscripts *)
  Variable pick : lhs -> option (list (list subscript)).
  Definition collect := foldM (fun acc a => match pick a with
    | None => Err ValueError
    | Some [] => Ok acc
    | Some (ix :: _) => new <- subscript_inames k ix ;; Ok (append acc new)
    end).
  Definition picked (l : lhs) : list (list subscript) := match pick l with Some (ix :: _) => [ix] | _ => [] end.
  Definition fine (l : lhs) : Prop := pick l <> None /\ forall ix, In ix (picked l) -> known k ix.
  Lemma collect_ok L acc : Forall fine L -> collect L acc = Ok (append acc (flat_map (name_at 0) (flat_map picked L), flat_map (name_at 1) (flat_map picked L))).
  Proof using.
    unfold collect. intros H. revert acc. induction H as [|l L (Hl1 & Hl2) HL IH]; intros acc; cbn [foldM flat_map].
    - unfold append. cbn [fst snd]. rewrite !app_nil_r. now destruct acc.
    - unfold picked in *. destruct (pick l) as [[|ix rest]|]; [| |contradiction]; cbn [bind app].
      + apply IH.
      + rewrite subscripts_ok by (apply Hl2; now left). cbn [bind]. rewrite IH. f_equal. unfold append. cbn [fst snd flat_map]. now rewrite !app_assoc.
  Qed.
  Lemma collect_err L acc : ~ Forall fine L -> collect L acc = Err ValueError.
  Proof using.
    unfold collect. revert acc. induction L as [|l L IH]; intros acc H; cbn [foldM]; [exfalso; apply H; constructor|].
    destruct (pick l) as [[|ix rest]|] eqn:El; cbn [bind]; [| |reflexivity].
    - apply IH. intros HL. apply H. constructor; [|exact HL]. split; [congruence|]. unfold picked. rewrite El. intros ? [].
    - destruct (subscript_inames k ix) as [new|e] eqn:Es; cbn [bind].
      + apply IH. intros HL. apply H. constructor; [|exact HL]. split; [congruence|]. unfold picked. rewrite El. intros ix' [<-|[]].
        assert (Hk : known k ix \/ ~ known k ix); [|destruct Hk as [|Hk]; [assumption|apply subscripts_err in Hk; congruence]].
        clear. unfold known. destruct ix as [|s0 ix]; [left; intros [|axis] s; discriminate|].
        assert (D : forall s, (exists n, s = SVar n /\ In n (map i_name (k_inames k))) \/ ~ (exists n, s = SVar n /\ In n (map i_name (k_inames k)))).
        { intros [n|]; [|right; intros (n & H & _); discriminate]. destruct (memb n (map i_name (k_inames k))) eqn:E; [left; exists n; split; [reflexivity|now apply memb_In]|].
          right. intros (m & [= <-] & Hm). apply memb_false in E. contradiction. }
        destruct (D s0) as [D0|D0]; [|right; intros H; apply D0; apply (H 0 s0); [lia|reflexivity]].
        destruct ix as [|s1 ix]; [left; intros [|[|axis]] s Ha; cbn [nth_error]; try discriminate; now intros [= <-]|].
        destruct (D s1) as [D1|D1]; [|right; intros H; apply D1; apply (H 1 s1); [lia|reflexivity]].
        left. intros [|[|axis]] s Ha; cbn [nth_error]; try lia; now intros [= <-].
      + assert (Hn : ~ known k ix) by (intros Hk; apply subscripts_ok in Hk; congruence). apply subscripts_err in Hn. congruence.
  Qed.
  Lemma collect_fine L acc x : collect L acc = Ok x -> Forall fine L.
  Proof using.
    unfold collect. revert acc x. induction L as [|l L IH]; intros acc x E; [constructor|]. cbn [foldM] in E. destruct (pick l) as [[|ix rest]|] eqn:El; cbn [bind] in E; [| |discriminate].
    - constructor; [|eapply IH; exact E]. split; [congruence|]. unfold picked. rewrite El. intros ? [].
    - destruct (subscript_inames k ix) as [new|e] eqn:Es; cbn [bind] in E; [|discriminate]. constructor; [|eapply IH; exact E]. split; [congruence|]. unfold picked. rewrite El. intros ix' [<-|[]].
      unfold subscript_inames in Es. destruct (mapM _ (firstn 2 ix)) as [names|e] eqn:Em; cbn [bind] in Es; [|discriminate]. apply mapM_ok in Em. intros axis s Ha Hs.
      assert (Hf : nth_error (firstn 2 ix) axis = Some s) by (rewrite nth_error_firstn; destruct (Nat.ltb_spec axis 2); [exact Hs|lia]).
      destruct (Forall2_nth_error _ _ _ _ _ Em Hf) as (n & _ & Hn). destruct s as [m|]; [|discriminate]. exists m. split; [reflexivity|]. apply memb_In. destruct (memb m _); [reflexivity|discriminate].
  Qed.
  Lemma collect_perm L L' : Permutation L L' ->
    match collect L ([], []), collect L' ([], []) with
    | Ok a, Ok b => Permutation (fst a) (fst b) /\ Permutation (snd a) (snd b)
    | Err e, Err e' => e = ValueError /\ e' = ValueError
    | _, _ => False
    end.
  Proof using.
    intros HP. assert (HF : Forall fine L <-> Forall fine L').
    { rewrite !Forall_forall. split; intros H l Hl; apply H; [apply (Permutation_in l (Permutation_sym HP) Hl)|apply (Permutation_in l HP Hl)]. }
    destruct (collect L ([], [])) as [a|e] eqn:E.
    - pose proof (collect_fine _ _ _ E) as H. rewrite collect_ok in E by exact H. injection E as <-. rewrite collect_ok by now apply HF. unfold append. cbn [fst snd app].
      split; apply Permutation_flat_map, Permutation_flat_map, HP.
    - assert (H : ~ Forall fine L) by (intros H; rewrite collect_ok in E by exact H; discriminate). rewrite collect_err in E by exact H. injection E as <-. rewrite collect_err; [auto|]. rewrite <- HF. exact H.
  Qed.
End Collect.

Lemma with_inames_perm ls e d e' d' : Permutation e e' -> Permutation d d' -> with_element_and_dof_inames ls e d = with_element_and_dof_inames ls e' d'.
Proof.
  intros He Hd. unfold with_element_and_dof_inames. apply sort_nat_eq_iff in He as Es. apply sort_nat_eq_iff in Hd as Ed. rewrite Es, Ed.
  assert (Ex : existsb (fun x => memb x d) e = existsb (fun x => memb x d') e').
  { apply eq_true_iff_eq. rewrite !existsb_exists. split; intros (x & H1 & H2); exists x; apply memb_In in H2; rewrite memb_In; split.
    - apply (Permutation_in x He H1).
    - apply (Permutation_in x Hd H2).
    - apply (Permutation_in x (Permutation_sym He) H1).
    - apply (Permutation_in x (Permutation_sym Hd) H2). }
  now rewrite Ex.
Qed.

(** ** The whole transformation *)
Definition tagged_args (k : kernel) : list nat := map a_name (filter a_first (k_args k)).
Definition single (k : kernel) : Prop := exists a ix, k_insns k = [Assignment (LSub a ix)].
Definition lhs_list (k : kernel) : list lhs := flat_map assignees (k_insns k).

Lemma assigns_In k l : assigns k l <-> In l (lhs_list k).
Proof. unfold assigns, lhs_list. rewrite in_flat_map. reflexivity. Qed.
Lemma foldM_ext {A S} (f g : S -> A -> res S) l s : (forall s a, f s a = g s a) -> foldM f l s = foldM g l s.
Proof. intros H. revert s. induction l as [|a l IH]; intros s; cbn [foldM]; [reflexivity|]. rewrite H. destruct (g s a); cbn [bind]; auto. Qed.
Lemma names_start k : map (fun i => (Whole (i_name i), @None ltag)) (k_inames k) = map (fun n => (Whole n, None)) (map i_name (k_inames k)).
Proof. now rewrite map_map. Qed.

Lemma tag_output_ok k k1 : tag_output k = Ok k1 -> (k_first k = true -> single k) /\ k_insns k1 = k_insns k /\ k_inames k1 = k_inames k /\ k_elwise k1 = k_elwise k /\
  ((exists x, In x (k_args k) /\ (a_first x = true \/ (k_first k = true /\ exists ix, assigns k (LSub (a_name x) ix)))) <-> tagged_args k1 <> []) /\
  (forall a ix, assigns k (LSub a ix) -> k_elwise k = false -> is_marked k a = memb a (tagged_args k1)).
Proof.
  unfold tag_output. destruct (k_first k) eqn:Ef.
  - destruct (k_insns k) as [|[[| out ix |] | |] [|? ?]] eqn:Ei; try discriminate. intros [= <-]. cbn [k_insns k_inames k_elwise].
    split; [intros _; now exists out, ix|]. split; [reflexivity|]. split; [reflexivity|]. split; [reflexivity|].
    assert (Ha : forall l, assigns k l <-> l = LSub out ix) by (intros l; rewrite assigns_In; unfold lhs_list; rewrite Ei; cbn; intuition).
    assert (Ht : forall n, In n (map a_name (filter a_first (map (fun a => if a_name a =? out then mk_arg (a_name a) true else a) (k_args k)))) <->
                 exists x, In x (k_args k) /\ a_name x = n /\ (a_first x = true \/ n = out)).
    { intros n. rewrite in_map_iff. split.
      - intros (y & <- & Hy). apply filter_In in Hy as (Hy & Hf). apply in_map_iff in Hy as (x & <- & Hx). exists x. split; [exact Hx|]. destruct (Nat.eqb_spec (a_name x) out); cbn [a_name a_first] in *; auto.
      - intros (x & Hx & <- & Hf). exists (if a_name x =? out then mk_arg (a_name x) true else x). split; [now destruct (a_name x =? out)|]. apply filter_In. split; [apply in_map_iff; now exists x|].
        destruct (Nat.eqb_spec (a_name x) out); [reflexivity|]. destruct Hf; [assumption|contradiction]. }
    split.
    + unfold tagged_args. cbn [k_args]. split.
      * intros (x & Hx & Hf) E. apply (in_nil (a := a_name x)). rewrite <- E. apply Ht. exists x. split; [exact Hx|]. split; [reflexivity|]. destruct Hf as [Hf|(_ & ix' & Hi)]; [now left|]. right. apply Ha in Hi. congruence.
      * intros Hne. set (T := map a_name _) in *. assert (Hin : exists n, In n T) by (destruct T as [|n T]; [contradiction|exists n; now left]). destruct Hin as (n & Hin). apply Ht in Hin as (x & Hx & <- & Hf). exists x. split; [exact Hx|]. destruct Hf as [Hf| ->]; [now left|]. right. split; [reflexivity|]. exists ix. now apply Ha.
    + intros a ix' Hi Hel. apply Ha in Hi. injection Hi as -> ->. unfold is_marked, tagged_args. rewrite Hel, Ef. cbn [orb k_args].
      apply eq_true_iff_eq. rewrite memb_In, Ht, existsb_exists. split; intros (x & Hx & H); exists x; (split; [exact Hx|]).
      * apply andb_true_iff in H as (H & _). apply Nat.eqb_eq in H. auto.
      * destruct H as (-> & _). rewrite Nat.eqb_refl. now rewrite orb_true_r.
  - intros [= <-]. split; [discriminate|]. split; [reflexivity|]. split; [reflexivity|]. split; [reflexivity|].
    assert (Ht : forall n, In n (tagged_args k) <-> exists x, In x (k_args k) /\ a_name x = n /\ a_first x = true).
    { intros n. unfold tagged_args. rewrite in_map_iff. split; [intros (x & <- & Hx); apply filter_In in Hx as (? & ?); now exists x|]. intros (x & Hx & <- & Hf). exists x. split; [reflexivity|]. now apply filter_In. }
    split.
    + split.
      * intros (x & Hx & Hf) E. apply (in_nil (a := a_name x)). rewrite <- E. apply Ht. exists x. split; [exact Hx|]. split; [reflexivity|]. destruct Hf as [Hf|(Hf & _)]; [exact Hf|discriminate].
      * intros Hne. destruct (tagged_args k) as [|n ns] eqn:E; [contradiction|]. destruct (proj1 (Ht n)) as (x & Hx & <- & Hf); [now left|]. exists x. auto.
    + intros a ix Hi Hel. unfold is_marked. rewrite Hel, Ef. cbn [orb]. apply eq_true_iff_eq. rewrite memb_In, Ht, existsb_exists. split; intros (x & Hx & H); exists x; (split; [exact Hx|]).
      * apply andb_true_iff in H as (H & H'). apply Nat.eqb_eq in H. rewrite orb_false_r in H'. auto.
      * destruct H as (-> & ->). now rewrite Nat.eqb_refl.
Qed.
Lemma tag_output_err k : tag_output k = Err ValueError \/ exists k1, tag_output k = Ok k1.
Proof. unfold tag_output. destruct (k_first k); [|right; eauto]. destruct (k_insns k) as [|[[| out ix |] | |] [|? ?]]; eauto. Qed.
Lemma tag_output_single k : (k_first k = true -> single k) -> exists k1, tag_output k = Ok k1.
Proof. unfold tag_output, single. destruct (k_first k); [|eauto]. intros H. destruct (H eq_refl) as (a & ix & ->). eauto. Qed.

Lemma state_after k els dofs : (forall n, In n dofs <-> dof_loop k n) -> (forall n, In n els <-> element_loop k n) -> (forall n, In n els -> ~ In n dofs) ->
  loops_after k (state dofs els (map i_name (k_inames k))).
Proof.
  intros Hd He Hdis. exists (map (part dofs els) (map i_name (k_inames k))). split; [apply flat_map_concat_map|].
  generalize (map i_name (k_inames k)). intros names. induction names as [|n names IH]; cbn [map]; constructor; [|exact IH].
  unfold loop_after. rewrite <- Hd, <- He. unfold part. split; [|split].
  - intros H. apply memb_In in H. now rewrite H.
  - intros H. rewrite (proj2 (memb_false n dofs) (Hdis n H)). apply memb_In in H. now rewrite H.
  - intros H1 H2. apply memb_false in H1, H2. now rewrite H1, H2.
Qed.

(** what is required of the assignees *)
Definition lhs_ok (k : kernel) (l : lhs) : Prop :=
  match l with LSub a ix => marked k a -> known k ix | LVar _ => k_elwise k = true | LOther => False end.
Definition out_ix (k : kernel) (l : lhs) : list (list subscript) := match l with LSub a ix => if is_marked k a then [ix] else [] | _ => [] end.

Section ByOutput.
  Variable k : kernel.
  Hypothesis Hout : by_output k.
  Let els := flat_map (name_at 0) (flat_map (out_ix k) (lhs_list k)).
  Let dofs := flat_map (name_at 1) (flat_map (out_ix k) (lhs_list k)).
  Lemma indexes_names axis n : indexes k axis n <-> In n (flat_map (name_at axis) (flat_map (out_ix k) (lhs_list k))).
  Proof using.
    unfold indexes, marked. rewrite in_flat_map. split.
    - intros (a & ix & Ha & Hm & Hn). exists ix. split; [|unfold name_at; rewrite Hn; now left]. apply in_flat_map. exists (LSub a ix). split; [now apply assigns_In|]. unfold out_ix. rewrite Hm. now left.
    - intros (ix & Hix & Hn). apply in_flat_map in Hix as (l & Hl & Hix). unfold out_ix in Hix. destruct l as [|a ix'|]; try contradiction. destruct (is_marked k a) eqn:Em; [|contradiction]. destruct Hix as [->|[]].
      exists a, ix. split; [now apply assigns_In|]. split; [exact Em|]. unfold name_at in Hn. destruct (nth_error ix axis) as [[m|]|]; try contradiction. destruct Hn as [->|[]]. reflexivity.
  Qed.
  Lemma els_loop n : In n els <-> element_loop k n.
  Proof using Hout. unfold els, element_loop. rewrite <- indexes_names. tauto. Qed.
  Lemma dofs_loop n : In n dofs <-> dof_loop k n.
  Proof using Hout. unfold dofs, dof_loop. rewrite <- indexes_names. tauto. Qed.
  Lemma dofs_nodup : Forall (lhs_ok k) (lhs_list k) -> NoDup dofs <-> NoDup (dof_subscripts k).
  Proof using.
    intros H. assert (E : dof_subscripts k = map SVar dofs).
    { unfold dof_subscripts, dofs. change (flat_map targets (k_insns k)) with (lhs_list k). induction H as [|l L Hl HL IH]; [reflexivity|]. cbn [flat_map]. rewrite IH, flat_map_app, map_app. f_equal.
      destruct l as [|a ix|]; try reflexivity. cbn [out_ix lhs_ok] in *. unfold marked in Hl. destruct (is_marked k a); [|now destruct ix as [|? [|? ?]]]. specialize (Hl eq_refl).
      destruct ix as [|s0 [|s1 ix]]; try reflexivity. cbn [flat_map name_at nth_error]. unfold name_at. cbn [nth_error]. destruct (Hl 1 s1) as (n & -> & _); [lia|reflexivity|]. reflexivity. }
    rewrite E. split.
    - intros Hn. apply FinFun.Injective_map_NoDup; [|exact Hn]. intros x y [= ->]. reflexivity.
    - apply NoDup_map_inv.
  Qed.
  Lemma in_names axis : Forall (lhs_ok k) (lhs_list k) -> axis < 2 -> incl (flat_map (name_at axis) (flat_map (out_ix k) (lhs_list k))) (map i_name (k_inames k)).
  Proof using.
    intros H Ha n Hn. apply indexes_names in Hn as (a & ix & Hi & Hm & Hn). rewrite Forall_forall in H. apply assigns_In in Hi. specialize (H _ Hi Hm axis (SVar n) Ha Hn) as (m & [= <-] & Hm'). exact Hm'.
  Qed.

  (** the part of the code from the collected names on *)
  Lemma by_output_core pick : (forall l, In l (lhs_list k) -> picked pick l = out_ix k l /\ (pick l <> None <-> match l with LSub _ _ => True | LVar _ => k_elwise k = true | LOther => False end)) ->
    let r := ed <- collect k pick (lhs_list k) ([], []) ;;
             ls <- with_element_and_dof_inames (map (fun n => (Whole n, None)) (map i_name (k_inames k))) (fst ed) (snd ed) ;; Ok (Some ls) in
    (Forall (lhs_ok k) (lhs_list k) /\ disjoint_loops k /\ NoDup (dof_subscripts k) -> exists ls, r = Ok (Some ls) /\ loops_after k ls) /\
    (~ (Forall (lhs_ok k) (lhs_list k) /\ disjoint_loops k /\ NoDup (dof_subscripts k)) -> r = Err ValueError).
  Proof using Hout.
    intros Hp. cbv zeta. assert (Hf : Forall (fine k pick) (lhs_list k) <-> Forall (lhs_ok k) (lhs_list k)).
    { rewrite !Forall_forall. split; intros H l Hl; specialize (H l Hl); destruct (Hp l Hl) as (Hp1 & Hp2); unfold fine in *; rewrite Hp1, Hp2 in *; destruct l as [n|a ix|]; cbn [lhs_ok out_ix] in *; unfold marked in *.
      - apply H.
      - intros Hm. apply H. rewrite Hm. now left.
      - apply H.
      - split; [exact H|intros ? []].
      - split; [exact I|]. intros ix' Hix. destruct (is_marked k a); [|contradiction]. destruct Hix as [<-|[]]. now apply H.
      - contradiction. }
    assert (Ep : flat_map (picked pick) (lhs_list k) = flat_map (out_ix k) (lhs_list k)).
    { rewrite !flat_map_concat_map. apply (f_equal (@concat _)), map_ext_in. intros l Hl. now apply Hp. }
    assert (Hdis : disjoint_loops k <-> (forall n, In n els -> ~ In n dofs)).
    { unfold disjoint_loops. split; intros H n; specialize (H n); [rewrite els_loop, dofs_loop; tauto|]. rewrite els_loop, dofs_loop in H. tauto. }
    split.
    - intros (H1 & H2 & H3). rewrite collect_ok by now apply Hf. cbn [bind]. rewrite Ep. unfold append. cbn [fst snd app]. fold els dofs.
      destruct (transformed (map i_name (k_inames k)) els dofs) as (T1 & _); [apply in_names; [exact H1|lia]|apply in_names; [exact H1|lia]|]. rewrite T1; [|split; [now apply dofs_nodup|now apply Hdis]]. cbn [bind].
      eexists. split; [reflexivity|]. apply state_after; [apply dofs_loop|apply els_loop|now apply Hdis].
    - intros H. assert (D : Forall (fine k pick) (lhs_list k) \/ ~ Forall (fine k pick) (lhs_list k)).
      { destruct (collect k pick (lhs_list k) ([], [])) as [x|e] eqn:E; [left|right; intros HF; rewrite (collect_ok _ _ _ _ HF) in E; discriminate].
        now apply collect_fine in E. }
      destruct D as [D|D]; [|now rewrite collect_err]. rewrite collect_ok by exact D. cbn [bind]. rewrite Ep. unfold append. cbn [fst snd app]. fold els dofs. apply Hf in D.
      destruct (transformed (map i_name (k_inames k)) els dofs) as (_ & T2); [apply in_names; [exact D|lia]|apply in_names; [exact D|lia]|]. rewrite T2; [reflexivity|].
      intros (H1 & H2). apply H. split; [exact D|]. split; [now apply Hdis|]. now apply dofs_nodup.
  Qed.
End ByOutput.

Lemma elwise_collect k : elwise_inames k = collect k (fun a => match a with LVar _ => Some [] | LOther => None | LSub _ ix => Some [ix] end) (lhs_list k) ([], []).
Proof. unfold elwise_inames, collect. apply foldM_ext. intros s [n|a ix|]; reflexivity. Qed.
Lemma first_axis_collect k tagged : first_axis_inames k tagged = collect k (fun a => match a with LSub a ix => if memb a tagged then Some [ix] else Some [] | _ => None end) (lhs_list k) ([], []).
Proof. unfold first_axis_inames, collect. apply foldM_ext. intros s [n|a ix|]; try reflexivity. now destruct (memb a tagged). Qed.
Lemma kernel_args_irrelevant k k1 : k_insns k1 = k_insns k -> k_inames k1 = k_inames k ->
  elwise_inames k1 = elwise_inames k /\ (forall t, first_axis_inames k1 t = first_axis_inames k t).
Proof. unfold elwise_inames, first_axis_inames, subscript_inames. intros -> ->. auto. Qed.

Lemma by_output_iff k k1 : tag_output k = Ok k1 -> by_output k <-> k_elwise k = true \/ tagged_args k1 <> [].
Proof. intros H. apply tag_output_ok in H as (_ & _ & _ & _ & H & _). unfold by_output. rewrite H. reflexivity. Qed.

Lemma allowed_iff k : by_output k -> allowed k <-> (k_first k = true -> single k) /\ Forall (lhs_ok k) (lhs_list k) /\ disjoint_loops k /\ NoDup (dof_subscripts k).
Proof.
  intros Ho. unfold allowed, well_formed, different_dof_loops. rewrite Forall_forall. split.
  - intros ((H1 & H2) & H3 & H4). split; [exact H1|]. split; [|auto]. intros l Hl. apply H2; [exact Ho|now apply assigns_In].
  - intros (H1 & H2 & H3 & H4). split; [|auto]. split; [exact H1|]. intros _ l Hl. apply H2. now apply assigns_In.
Qed.

Lemma transform_spec k : NoDup (map i_name (k_inames k)) ->
  match transform_inner k with
  | Ok (Some ls) => allowed k /\ metadata k /\ loops_after k ls
  | Ok None => allowed k /\ ~ metadata k
  | Err e => e = ValueError /\ ~ (allowed k)
  end.
Proof.
  intros Hnd. unfold transform_inner. destruct (tag_output_err k) as [E|(k1 & E)].
  { rewrite E. cbn [bind]. split; [reflexivity|]. intros ((H & _) & _). destruct (tag_output_single k H) as (k1 & E1). congruence. }
  rewrite E. cbn [bind]. pose proof (by_output_iff k k1 E) as Hbo. apply tag_output_ok in E as (Hs & Ei & En & Ee & _ & Hmk). destruct (kernel_args_irrelevant k k1 Ei En) as (Ke & Kf).
  rewrite names_start, En, Ke, Ee, elwise_collect. fold (tagged_args k1).
  assert (Hcore : forall r : res (option loops), by_output k ->
    (Forall (lhs_ok k) (lhs_list k) /\ disjoint_loops k /\ NoDup (dof_subscripts k) -> exists ls, r = Ok (Some ls) /\ loops_after k ls) /\
    (~ (Forall (lhs_ok k) (lhs_list k) /\ disjoint_loops k /\ NoDup (dof_subscripts k)) -> r = Err ValueError) ->
    match r with Ok (Some ls) => allowed k /\ metadata k /\ loops_after k ls | Ok None => allowed k /\ ~ metadata k | Err e => e = ValueError /\ ~ allowed k end).
  { clear -Hs. intros r Ho (C1 & C2). pose proof (allowed_iff k Ho) as Ha. destruct r as [[ls|]|e].
    - assert (HP : ~ ~ (Forall (lhs_ok k) (lhs_list k) /\ disjoint_loops k /\ NoDup (dof_subscripts k))) by (intros H; specialize (C2 H); discriminate).
      assert (HF : Forall (lhs_ok k) (lhs_list k)).
      { apply Forall_forall. intros l Hl. destruct l as [n|a ix|]; cbn [lhs_ok].
        - destruct (k_elwise k) eqn:Ek; [reflexivity|]. exfalso. apply HP. intros (H & _). rewrite Forall_forall in H. specialize (H _ Hl). cbn [lhs_ok] in H. congruence.
        - intros Hm axis s Hax Hs'. destruct s as [n|]; [|exfalso; apply HP; intros (H & _); rewrite Forall_forall in H; destruct (H _ Hl Hm axis SExpr Hax Hs') as (n & Hn & _); discriminate].
          exists n. split; [reflexivity|]. destruct (memb n (map i_name (k_inames k))) eqn:Em; [now apply memb_In|]. exfalso. apply HP. intros (H & _). rewrite Forall_forall in H. destruct (H _ Hl Hm axis (SVar n) Hax Hs') as (m & [= <-] & Hm').
          apply memb_false in Em. contradiction.
        - apply HP. intros (H & _). rewrite Forall_forall in H. apply (H _ Hl). }
      assert (HD : disjoint_loops k) by (intros n Hn; apply HP; intros (_ & H & _); now apply (H n)).
      assert (HN : NoDup (dof_subscripts k)).
      { assert (Hdec : forall a b : subscript, {a = b} + {a <> b}) by (repeat decide equality). destruct (ListDec.NoDup_dec Hdec (dof_subscripts k)) as [H|H]; [exact H|]. exfalso. apply HP. tauto. }
      destruct C1 as (ls' & [= <-] & Hl); [auto|]. split; [apply Ha; auto|]. split; [now left|exact Hl].
    - exfalso. assert (HP : ~ ~ (Forall (lhs_ok k) (lhs_list k) /\ disjoint_loops k /\ NoDup (dof_subscripts k))) by (intros H; specialize (C2 H); discriminate). apply HP. intros H. destruct (C1 H) as (ls & H' & _). discriminate.
    - assert (HP : ~ (Forall (lhs_ok k) (lhs_list k) /\ disjoint_loops k /\ NoDup (dof_subscripts k))) by (intros H; destruct (C1 H) as (ls & H' & _); discriminate).
      specialize (C2 HP). split; [congruence|]. intros H. apply Ha in H. tauto. }
  destruct (k_elwise k) eqn:Ek.
  - apply Hcore; [apply Hbo; now left|]. apply by_output_core; [apply Hbo; now left|]. intros l Hl. unfold picked, out_ix, is_marked. rewrite Ek. destruct l; cbn [orb]; (split; [reflexivity|]); split; congruence || auto.
  - destruct (length (tagged_args k1) =? 0) eqn:Et; cbn [negb].
    + assert (Hno : ~ by_output k). { rewrite Hbo. intros [H|H]; [discriminate|]. apply H. apply Nat.eqb_eq in Et. now destruct (tagged_args k1). }
      set (els := map i_name (filter i_el (k_inames k))). set (dofs := map i_name (filter i_dof (k_inames k))).
      assert (He : forall n, In n els <-> element_loop k n).
      { intros n. unfold els, element_loop. rewrite in_map_iff. split.
        - intros (i & <- & Hi). apply filter_In in Hi as (Hi & H). right. split; [exact Hno|]. now exists i.
        - intros [(H & _)|(_ & i & Hi & <- & H)]; [contradiction|]. exists i. split; [reflexivity|]. now apply filter_In. }
      assert (Hd : forall n, In n dofs <-> dof_loop k n).
      { intros n. unfold dofs, dof_loop. rewrite in_map_iff. split.
        - intros (i & <- & Hi). apply filter_In in Hi as (Hi & H). right. split; [exact Hno|]. now exists i.
        - intros [(H & _)|(_ & i & Hi & <- & H)]; [contradiction|]. exists i. split; [reflexivity|]. now apply filter_In. }
      assert (Hi : forall f, incl (map i_name (filter f (k_inames k))) (map i_name (k_inames k))) by (intros f n Hn; apply in_map_iff in Hn as (i & <- & Hi); apply filter_In in Hi as (Hi & _); now apply in_map).
      assert (Hall : (forall n, In n els -> ~ In n dofs) -> allowed k).
      { intros H. split; [split; [exact Hs|contradiction]|]. split; [|intros ?; contradiction]. intros n (H1 & H2). apply He in H1. apply Hd in H2. now apply (H n). }
      assert (Hmeta : metadata k <-> els <> []).
      { unfold metadata, els. split.
        - intros [H|(i & Hi1 & Hi2)] E; [contradiction|]. apply (in_nil (a := i_name i)). rewrite <- E. apply in_map, filter_In. auto.
        - intros H. right. destruct (filter i_el (k_inames k)) as [|i l] eqn:E; [contradiction|]. assert (Hin : In i (filter i_el (k_inames k))) by (rewrite E; now left). apply filter_In in Hin. now exists i. }
      destruct (length els =? 0) eqn:El; cbn [negb].
      * apply Nat.eqb_eq in El. assert (Enil : els = []) by now destruct els. split; [|rewrite Hmeta; auto]. apply Hall. rewrite Enil. intros n [].
      * assert (Hne : els <> []) by (intros H; rewrite H in El; discriminate). destruct (transformed (map i_name (k_inames k)) els dofs (Hi _) (Hi _)) as (T1 & T2).
        assert (Hnd' : NoDup dofs). { unfold dofs. clear -Hnd. induction (k_inames k) as [|i l IH]; cbn [filter map]; [constructor|]. cbn [map] in Hnd. apply NoDup_cons_iff in Hnd as (H1 & H2). destruct (i_dof i); [|auto]. cbn [map]. constructor; [|auto].
          intros Hin. apply H1. apply in_map_iff in Hin as (j & <- & Hj). apply filter_In in Hj as (Hj & _). now apply in_map. }
        destruct (existsb (fun e => memb e dofs) els) eqn:Ex.
        -- apply existsb_exists in Ex as (n & Hn1 & Hn2). apply memb_In in Hn2. rewrite T2 by (intros (_ & H); now apply (H n)). cbn [bind]. split; [reflexivity|]. intros (_ & H & _). apply (H n). split; [now apply He|now apply Hd].
        -- assert (Hdis : forall n, In n els -> ~ In n dofs). { intros n H1 H2. assert (existsb (fun e => memb e dofs) els = true) by (apply existsb_exists; exists n; split; [exact H1|now apply memb_In]). congruence. }
           rewrite T1 by auto. cbn [bind]. split; [now apply Hall|]. split; [now apply Hmeta|]. apply state_after; auto.
    + assert (Hne : tagged_args k1 <> []) by (intros H; rewrite H in Et; discriminate). rewrite Kf, first_axis_collect. apply Hcore; [apply Hbo; now right|]. apply by_output_core; [apply Hbo; now right|].
      intros l Hl. unfold picked, out_ix. destruct l as [n|a ix|].
      * split; [reflexivity|]. split; congruence.
      * rewrite (Hmk a ix) by (try apply assigns_In; auto). destruct (memb a (tagged_args k1)); (split; [reflexivity|]); split; congruence || auto.
      * split; [reflexivity|]. split; [congruence|contradiction].
Qed.

(** ** The order of statements *)
Lemma finish_perm k pick L L' ls : Permutation L L' ->
  (ed <- collect k pick L ([], []) ;; l <- with_element_and_dof_inames ls (fst ed) (snd ed) ;; Ok (Some l)) =
  (ed <- collect k pick L' ([], []) ;; l <- with_element_and_dof_inames ls (fst ed) (snd ed) ;; Ok (Some l)).
Proof.
  intros HP. pose proof (collect_perm k pick L L' HP) as H. destruct (collect k pick L _) as [a|e], (collect k pick L' _) as [b|e']; try contradiction; cbn [bind].
  - destruct H as (H1 & H2). now rewrite (with_inames_perm ls _ _ _ _ H1 H2).
  - destruct H as (-> & ->). reflexivity.
Qed.
Lemma collect_kernel k k' pick L acc : k_inames k = k_inames k' -> collect k pick L acc = collect k' pick L acc.
Proof. intros E. unfold collect, subscript_inames. now rewrite E. Qed.
Lemma transform_perm f e args insns insns' inames : Permutation insns insns' -> transform_inner (mk_kernel f e args insns inames) = transform_inner (mk_kernel f e args insns' inames).
Proof.
  intros HP. assert (HL : forall f args, Permutation (lhs_list (mk_kernel f e args insns inames)) (lhs_list (mk_kernel f e args insns' inames))) by (intros; apply Permutation_flat_map, HP).
  assert (Hrest : forall f args,
    let go k := (let start := map (fun i => (Whole (i_name i), None)) (k_inames k) in
      if k_elwise k then ed <- elwise_inames k ;; ls <- with_element_and_dof_inames start (fst ed) (snd ed) ;; Ok (Some ls)
      else let tagged := map a_name (filter a_first (k_args k)) in
        if negb (length tagged =? 0) then ed <- first_axis_inames k tagged ;; ls <- with_element_and_dof_inames start (fst ed) (snd ed) ;; Ok (Some ls)
        else let els := map i_name (filter i_el (k_inames k)) in let dofs := map i_name (filter i_dof (k_inames k)) in
          if negb (length els =? 0) then ls <- with_element_and_dof_inames start els dofs ;; Ok (Some ls) else Ok None) in
    go (mk_kernel f e args insns inames) = go (mk_kernel f e args insns' inames)).
  { clear f args. intros f args. cbv zeta. cbn [k_inames k_elwise k_args]. rewrite !elwise_collect, !first_axis_collect.
    rewrite !(collect_kernel (mk_kernel f e args insns inames) (mk_kernel f e args insns' inames)) by reflexivity.
    rewrite (finish_perm (mk_kernel f e args insns' inames) _ _ _ _ (HL f args)). destruct e; [reflexivity|]. destruct (negb _); [|reflexivity]. apply finish_perm, HL. }
  unfold transform_inner, tag_output. cbn [k_first k_insns k_elwise k_args k_inames]. destruct f; [|cbn [bind]; apply Hrest].
  pose proof (Permutation_length HP) as Hl. destruct insns as [|i1 [|i2 insns]], insns' as [|i1' [|i2' insns']]; try discriminate; try reflexivity.
  - apply Permutation_length_1 in HP. now subst i1'.
  - destruct i1 as [[| |]| |], i1' as [[| |]| |]; reflexivity.
Qed.
