(** * GmshMeshProofs: get_mesh. *)
From Coq Require Import List Arith Bool Lia Permutation Sorted.
From Verif Require Import Np NpFacts MeshModel MeshSpec MeshStateModel Lin RestrProofs ProcModel ProcSpec FlipProofs MeshProofs FacialProofs CompletionProofs MeshProps GmshModel GmshSpec GmshProofs.
Import ListNotations.

(** ** Enumerations *)
Lemma enumerate_from_cons {A} k (x : A) l : enumerate_from k (x :: l) = (k, x) :: enumerate_from (S k) l.
Proof. reflexivity. Qed.
Lemma enumerate_from_app {A} (l l' : list A) : forall k, enumerate_from k (l ++ l') = enumerate_from k l ++ enumerate_from (k + length l) l'.
Proof.
  induction l as [|x l IH]; intros k; [cbn [app length]; rewrite Nat.add_0_r; reflexivity|]. cbn [app length]. rewrite !enumerate_from_cons, IH. cbn [app]. do 3 f_equal. lia.
Qed.
Lemma map_snd_enumerate_from {A} (l : list A) : forall k, map snd (enumerate_from k l) = l.
Proof. induction l as [|x l IH]; intros k; [reflexivity|]. rewrite enumerate_from_cons. cbn [map snd]. now rewrite IH. Qed.
Lemma filter_snd_enumerate {A} (p : A -> bool) (l : list A) : forall k, map snd (filter (fun ie => p (snd ie)) (enumerate_from k l)) = filter p l.
Proof. induction l as [|x l IH]; intros k; [reflexivity|]. rewrite enumerate_from_cons. cbn [filter snd]. destruct (p x); cbn [map snd]; now rewrite IH. Qed.
Lemma enumerate_from_ge {A} (l : list A) : forall k i x, In (i, x) (enumerate_from k l) -> k <= i < k + length l.
Proof.
  induction l as [|y l IH]; intros k i x H; [destruct H|]. rewrite enumerate_from_cons in H. cbn [length]. destruct H as [H|H]; [injection H as -> _; lia|]. apply IH in H. lia.
Qed.
Lemma enumerate_from_sorted {A} (p : nat * A -> bool) (l : list A) : forall k, StronglySorted lt (map fst (filter p (enumerate_from k l))).
Proof.
  induction l as [|x l IH]; intros k; [constructor|]. rewrite enumerate_from_cons. cbn [filter]. destruct (p (k, x)); [|apply IH]. cbn [map fst]. constructor; [apply IH|]. apply Forall_forall. intros i Hi. apply in_map_iff in Hi. destruct Hi as ((i', y) & <- & Hi). apply filter_In in Hi. destruct Hi as (Hi & _). apply enumerate_from_ge in Hi. cbn [fst]. lia.
Qed.

(** ** Types of elements by first occurrence *)
Definition type_of (et : gelem * list nat) : nat := ge_type (fst et).
Definition firsts (els : list (gelem * list nat)) : list nat := set_update [] (map type_of els).
Definition nrs_of (els : list (gelem * list nat)) (ty : nat) : list nat := map fst (filter (fun ie : nat * (gelem * list nat) => type_of (snd ie) =? ty) (enumerate els)).
Definition sel (els : list (gelem * list nat)) (ty : nat) : list (gelem * list nat) := filter (fun et => type_of et =? ty) els.

Lemma nrs_sel els ty : Forall2 (fun nr et => nth_error els nr = Some et) (nrs_of els ty) (sel els ty).
Proof.
  unfold nrs_of, sel. rewrite <- (filter_snd_enumerate (fun et => type_of et =? ty) els 0).
  assert (H : forall ie, In ie (filter (fun ie : nat * (gelem * list nat) => type_of (snd ie) =? ty) (enumerate_from 0 els)) -> nth_error els (fst ie) = Some (snd ie)).
  { intros (i, et) Hin. apply filter_In in Hin. destruct Hin as (Hin & _). apply In_nth_error in Hin. destruct Hin as (k & Hk). change (enumerate_from 0 els) with (enumerate els) in Hk. rewrite nth_error_enumerate in Hk. destruct (nth_error els k) eqn:E; [|discriminate]. cbn in Hk. injection Hk as <- <-. exact E. }
  unfold enumerate. revert H. generalize (filter (fun ie : nat * (gelem * list nat) => type_of (snd ie) =? ty) (enumerate_from 0 els)). clear. induction l as [|ie l IH]; intros H; [constructor|]. cbn [map]. constructor; [apply H; now left|apply IH; intros; apply H; now right].
Qed.
Lemma nrs_In els ty nr : In nr (nrs_of els ty) <-> exists et, nth_error els nr = Some et /\ type_of et = ty.
Proof.
  unfold nrs_of. rewrite in_map_iff. split.
  - intros ((i, et) & <- & Hin). apply filter_In in Hin. destruct Hin as (Hin & Ht). apply Nat.eqb_eq in Ht. cbn [snd] in Ht. apply In_nth_error in Hin. destruct Hin as (k & Hk). rewrite nth_error_enumerate in Hk. destruct (nth_error els k) as [et0|] eqn:E; [|discriminate Hk]. cbn in Hk. injection Hk as <- <-. exists et0. auto.
  - intros (et & Het & Ht). exists (nr, et). split; [reflexivity|]. apply filter_In. split; [|cbn [snd]; now apply Nat.eqb_eq]. apply (nth_error_In _ nr). rewrite nth_error_enumerate, Het. reflexivity.
Qed.
Lemma firsts_spec els : NoDup (firsts els) /\ forall ty, In ty (firsts els) <-> exists et, In et els /\ type_of et = ty.
Proof.
  unfold firsts. destruct (set_update_spec (map type_of els) [] (NoDup_nil _)) as (H1 & H2). split; [exact H1|]. intros ty. rewrite H2, in_map_iff. split.
  - intros [[]|(et & H & Hin)]. eauto.
  - intros (et & Hin & H). right. eauto.
Qed.
Lemma firsts_snoc els et : firsts (els ++ [et]) = set_add (firsts els) (type_of et).
Proof. unfold firsts, set_update. rewrite map_app, fold_left_app. reflexivity. Qed.
Lemma nrs_snoc els et ty : nrs_of (els ++ [et]) ty = nrs_of els ty ++ (if type_of et =? ty then [length els] else []).
Proof.
  unfold nrs_of, enumerate. rewrite enumerate_from_app, filter_app, map_app. f_equal. cbn [Nat.add]. unfold enumerate_from. cbn [length seq combine filter snd]. destruct (type_of et =? ty); reflexivity.
Qed.
Lemma firsts_sorted els : forall g g' ty ty' x l x' l', g < g' -> nth_error (firsts els) g = Some ty -> nth_error (firsts els) g' = Some ty' -> nrs_of els ty = x :: l -> nrs_of els ty' = x' :: l' -> x < x'.
Proof.
  induction els as [|et els IH] using rev_ind; intros g g' ty ty' x l x' l' Hg Hty Hty' Hl Hl'; [destruct g; discriminate Hty|].
  rewrite firsts_snoc in Hty, Hty'. rewrite nrs_snoc in Hl, Hl'. destruct (firsts_spec els) as (_ & Hin).
  assert (Hne : forall ty0 k, nth_error (firsts els) k = Some ty0 -> exists y m, nrs_of els ty0 = y :: m).
  { intros ty0 k Hk. apply nth_error_In in Hk. apply Hin in Hk. destruct Hk as (et0 & He & Ht). apply In_nth_error in He. destruct He as (nr & Hnr). assert (Hi : In nr (nrs_of els ty0)) by (apply nrs_In; eauto). destruct (nrs_of els ty0) as [|y m]; [destruct Hi|eauto]. }
  unfold set_add in Hty, Hty'. destruct (memb (type_of et) (firsts els)) eqn:Em.
  - destruct (Hne ty g Hty) as (y & m & Hy). destruct (Hne ty' g' Hty') as (y' & m' & Hy'). rewrite Hy in Hl. rewrite Hy' in Hl'. cbn [app] in Hl, Hl'. injection Hl as <- _. injection Hl' as <- _. exact (IH g g' ty ty' y m y' m' Hg Hty Hty' Hy Hy').
  - assert (Hgl : g < length (firsts els)). { assert (Hg' : g' < length (firsts els ++ [type_of et])) by (apply nth_error_Some; congruence). rewrite app_length in Hg'. cbn [length] in Hg'. lia. }
    rewrite nth_error_app1 in Hty by exact Hgl. destruct (Hne ty g Hty) as (y & m & Hy). rewrite Hy in Hl. cbn [app] in Hl. injection Hl as <- _.
    destruct (Nat.lt_ge_cases g' (length (firsts els))) as [Hg'|Hg'].
    + rewrite nth_error_app1 in Hty' by exact Hg'. destruct (Hne ty' g' Hty') as (y' & m' & Hy'). rewrite Hy' in Hl'. cbn [app] in Hl'. injection Hl' as <- _. exact (IH g g' ty ty' y m y' m' Hg Hty Hty' Hy Hy').
    + assert (Hy0 : y < length els). { assert (Hi : In y (nrs_of els ty)) by (rewrite Hy; now left). apply nrs_In in Hi. destruct Hi as (e0 & He0 & _). apply nth_error_Some. congruence. }
      rewrite nth_error_app2 in Hty' by exact Hg'. destruct (g' - length (firsts els)) as [|k]; [|destruct k; discriminate Hty']. cbn in Hty'. injection Hty' as <-.
      assert (Hnil : nrs_of els (type_of et) = []). { destruct (nrs_of els (type_of et)) as [|z zs] eqn:Ez; [reflexivity|]. exfalso. assert (Hi : In z (nrs_of els (type_of et))) by (rewrite Ez; now left). apply nrs_In in Hi. destruct Hi as (e0 & He0 & Ht0). assert (Hf : In (type_of et) (firsts els)) by (apply Hin; exists e0; split; [exact (nth_error_In _ _ He0)|exact Ht0]). apply memb_In in Hf. congruence. }
      rewrite Hnil, Nat.eqb_refl in Hl'. cbn [app] in Hl'. injection Hl' as <- _. exact Hy0.
Qed.

(** ** tag_to_elements *)
Definition tget (m : list (nat * list nat)) (name : nat) : list nat := match assoc name m with Some l => l | None => [] end.
Definition mark_element (m : list (nat * list nat)) (kn : nat * list (nat * nat)) : list (nat * list nat) := fold_left (fun m nd => add_marked m (fst nd) (fst kn)) (snd kn) m.
Definition marked_fold (m : list (nat * list nat)) (l : list (nat * list (nat * nat))) : list (nat * list nat) := fold_left mark_element l m.
Lemma add_marked_assoc m t e name : assoc name (add_marked m t e) = if name =? t then Some (tget m name ++ [e]) else assoc name m.
Proof.
  unfold tget. induction m as [|(t', els) m IH]; cbn [add_marked assoc].
  - destruct (name =? t); reflexivity.
  - destruct (t =? t') eqn:E.
    + apply Nat.eqb_eq in E. subst t'. cbn [assoc]. destruct (name =? t); reflexivity.
    + cbn [assoc]. destruct (name =? t') eqn:E'; [|exact IH]. apply Nat.eqb_eq in E'. subst t'. rewrite Nat.eqb_sym, E. reflexivity.
Qed.
Lemma mark_element_get kn name : forall m, tget (mark_element m kn) name = tget m name ++ repeat (fst kn) (length (filter (fun nd => fst nd =? name) (snd kn))).
Proof.
  destruct kn as (k, nds). unfold mark_element. cbn [fst snd]. induction nds as [|nd nds IH]; intros m; cbn [fold_left filter length]; [cbn [repeat]; now rewrite app_nil_r|].
  rewrite IH. unfold tget at 1. rewrite add_marked_assoc. rewrite (Nat.eqb_sym (fst nd)). destruct (name =? fst nd); cbn [length repeat]; [rewrite <- app_assoc; reflexivity|reflexivity].
Qed.
Lemma marked_fold_get name l : forall m, tget (marked_fold m l) name = tget m name ++ flat_map (fun kn : nat * list (nat * nat) => repeat (fst kn) (length (filter (fun nd => fst nd =? name) (snd kn)))) l.
Proof.
  unfold marked_fold. induction l as [|kn l IH]; intros m; cbn [fold_left flat_map]; [now rewrite app_nil_r|]. rewrite IH, mark_element_get, <- app_assoc. reflexivity.
Qed.
Lemma marked_fold_some l : forall m, (forall name, assoc name m <> Some []) -> forall name, assoc name (marked_fold m l) <> Some [].
Proof.
  unfold marked_fold. induction l as [|(k, nds) l IH]; intros m Hm; cbn [fold_left]; [exact Hm|]. apply IH. unfold mark_element. cbn [fst snd]. revert m Hm. induction nds as [|nd nds IHn]; intros m Hm; cbn [fold_left]; [exact Hm|]. apply IHn. intros name. rewrite add_marked_assoc. destruct (name =? fst nd); [|apply Hm]. destruct (tget m name); discriminate.
Qed.
Lemma marked_fold_app m l l' : marked_fold m (l ++ l') = marked_fold (marked_fold m l) l'.
Proof. apply fold_left_app. Qed.

(** ** Tags of faces *)
Definition assigned (m : tagmap) (vs : list nat) (t : btag) : Prop := exists k ts, In (k, ts) m /\ In t ts /\ forall v, In v k <-> In v vs.
Definition key_distinct (m : tagmap) : Prop := ForallOrdPairs (fun a b : list nat * list btag => set_eqb (fst a) (fst b) = false) m.
Lemma set_eqb_sym a b : set_eqb a b = set_eqb b a.
Proof. unfold set_eqb. apply andb_comm. Qed.
Lemma facetag_add_key m k ts a : In a (facetag_add m k ts) -> exists ts', In (fst a, ts') m \/ fst a = k.
Proof.
  induction m as [|(k', ts') m IH]; cbn [facetag_add]; intros H; [destruct H as [<-|[]]; exists []; now right|].
  destruct (set_eqb k' k).
  - destruct H as [<-|H]; [exists ts'; left; now left|]. exists (snd a). left. right. destruct a; exact H.
  - destruct H as [<-|H]; [exists ts'; left; now left|]. destruct (IH H) as (ts0 & [H0|H0]); exists ts0; [left; now right|now right].
Qed.
Lemma facetag_add_distinct m k ts : key_distinct m -> key_distinct (facetag_add m k ts).
Proof.
  unfold key_distinct. induction m as [|(k', ts') m IH]; cbn [facetag_add]; intros H; [repeat constructor|]. inversion H as [|a l Hf Hr E]; subst.
  destruct (set_eqb k' k) eqn:E; [constructor; [exact Hf|exact Hr]|]. constructor; [|apply IH; exact Hr].
  apply Forall_forall. intros a Ha. cbn [fst]. destruct (facetag_add_key m k ts a Ha) as (ts0 & [H0|H0]); [|rewrite H0; exact E]. exact (proj1 (Forall_forall _ _) Hf _ H0).
Qed.
Lemma facetag_add_assigned m k ts vs t : assigned (facetag_add m k ts) vs t <-> assigned m vs t \/ (In t ts /\ forall v, In v k <-> In v vs).
Proof.
  unfold assigned. induction m as [|(k', ts') m IH]; cbn [facetag_add].
  - split.
    + intros (k0 & ts0 & [E|[]] & Ht & Hv). injection E as -> ->. right. auto.
    + intros [(k0 & ts0 & [] & _)|(Ht & Hv)]. exists k, ts. split; [now left|auto].
  - destruct (set_eqb k' k) eqn:E.
    + pose proof (proj1 (set_eqb_iff k' k) E) as Hk. split.
      * intros (k0 & ts0 & [E0|Hin] & Ht & Hv).
        -- injection E0 as <- <-. apply in_app_or in Ht. destruct Ht as [Ht|Ht]; [left; exists k', ts'; split; [now left|auto]|]. right. split; [exact Ht|]. intros v. rewrite <- Hk. apply Hv.
        -- left. exists k0, ts0. split; [now right|auto].
      * intros [(k0 & ts0 & [E0|Hin] & Ht & Hv)|(Ht & Hv)].
        -- injection E0 as <- <-. exists k', (ts' ++ ts). split; [now left|]. split; [apply in_or_app; now left|exact Hv].
        -- exists k0, ts0. split; [now right|auto].
        -- exists k', (ts' ++ ts). split; [now left|]. split; [apply in_or_app; now right|]. intros v. rewrite Hk. apply Hv.
    + split.
      * intros (k0 & ts0 & [E0|Hin] & Ht & Hv); [left; exists k0, ts0; split; [now left|auto]|].
        destruct (proj1 IH) as [(k1 & ts1 & H1 & H2)|H1]; [exists k0, ts0; auto|left; exists k1, ts1; split; [now right|exact H2]|now right].
      * intros [(k0 & ts0 & [E0|Hin] & Ht & Hv)|H].
        -- exists k0, ts0. split; [now left|auto].
        -- destruct (proj2 IH) as (k1 & ts1 & H1 & H2); [left; exists k0, ts0; auto|]. exists k1, ts1. split; [now right|exact H2].
        -- destruct (proj2 IH) as (k1 & ts1 & H1 & H2); [now right|]. exists k1, ts1. split; [now right|exact H2].
Qed.
Lemma key_distinct_keys m : key_distinct m -> keys_distinct m.
Proof.
  intros H k ts k' ts' Hin Hin' Hk. assert (E : set_eqb k k' = true) by (now apply set_eqb_iff). unfold key_distinct in H. destruct (ForallOrdPairs_In H _ _ Hin Hin') as [Heq|[Hd|Hd]]; [congruence| |]; cbn [fst] in Hd; [congruence|rewrite set_eqb_sym in Hd; congruence].
Qed.
Lemma facetag_add_users m k ts : (forall k ts t, In (k, ts) m -> In t ts -> exists n, t = TUser n) -> (forall t, In t ts -> exists n, t = TUser n) ->
  forall k0 ts0 t, In (k0, ts0) (facetag_add m k ts) -> In t ts0 -> exists n, t = TUser n.
Proof.
  intros Hm Hts. induction m as [|(k', ts') m IH]; cbn [facetag_add]; intros k0 ts0 t Hin Ht.
  - destruct Hin as [E|[]]. injection E as <- <-. auto.
  - destruct (set_eqb k' k).
    + destruct Hin as [E|Hin]; [|exact (Hm k0 ts0 t (or_intror Hin) Ht)]. injection E as <- <-. apply in_app_or in Ht. destruct Ht as [Ht|Ht]; [exact (Hm k' ts' t (or_introl eq_refl) Ht)|auto].
    + destruct Hin as [E|Hin]; [exact (Hm k0 ts0 t (or_introl E) Ht)|]. apply (IH (fun k1 ts1 t1 H1 => Hm k1 ts1 t1 (or_intror H1)) k0 ts0 t Hin Ht).
Qed.

Section GetMesh.
  Variable R : cring.
  Context {A : Type}.
  Variable aff_id : A.
  Variable tag_order : list btag -> list btag.
  Variables (kind : nat -> gkind) (dimensions vertex_count node_count : nat -> nat).
  Variables (fvi : nat -> list (list nat)) (shuffle : nat -> list nat) (flip_matrix : nat -> list (list R)).
  Local Notation get_mesh := (get_mesh R aff_id tag_order kind dimensions vertex_count node_count fvi shuffle flip_matrix).
  Local Notation build_groups := (build_groups R kind dimensions vertex_count node_count fvi shuffle flip_matrix).
  Local Notation element_step := (element_step R vertex_count node_count).
  Local Notation make_group := (make_group R kind dimensions fvi shuffle flip_matrix).

  (** ** The result only depends on the file *)
  Lemma marker_tags_ext tp tp' mk : (forall t, tag_of tp t = tag_of tp' t) -> marker_tags tp mk = marker_tags tp' mk.
  Proof. intros H. destruct mk as [l|]; [|reflexivity]. unfold marker_tags. rewrite (mapM_ext (tag_of tp) (tag_of tp') l) by auto. reflexivity. Qed.
  Lemma get_mesh_same f s s' : received R f s -> received R f s' -> get_mesh s = get_mesh s'.
  Proof.
    intros ((pts & P1 & P2 & P3) & (els & E1 & E2 & E3) & T1 & T2) ((pts' & P1' & P2' & P3') & (els' & E1' & E2' & E3') & T1' & T2').
    assert (pts' = pts). { apply nth_error_ext'. intros i. destruct (nth_error pts i) as [p|] eqn:E; [apply P3', P3; exact E|]. destruct (nth_error pts' i) as [p|] eqn:E'; [|reflexivity]. apply P3', P3 in E'. congruence. } subst pts'.
    assert (els' = els). { apply nth_error_ext'. intros i. destruct (nth_error els i) as [p|] eqn:E; [apply E3', E3; exact E|]. destruct (nth_error els' i) as [p|] eqn:E'; [|reflexivity]. apply E3', E3 in E'. congruence. } subst els'.
    destruct s as [n0 e0 tp], s' as [n1 e1 tp']. cbn [rc_nodes rc_elems rc_tags] in *. subst n0 n1 e0 e1.
    assert (Ht : forall t, tag_of tp t = tag_of tp' t) by (intros t; now rewrite T1, T1').
    assert (Hl : (length (tp_tags tp) =? 0) = (length (tp_tags tp') =? 0)). { assert (Hi : tp_tags tp = [] <-> tp_tags tp' = []) by (rewrite T2, T2'; tauto). destruct (tp_tags tp), (tp_tags tp'); try reflexivity; destruct Hi as (H1 & H2); [discriminate (H1 eq_refl)|discriminate (H2 eq_refl)]. }
    unfold GmshModel.get_mesh. cbn [rc_nodes rc_elems rc_tags]. rewrite Hl. destruct (histogram _) as [hist|]; cbn [bind]; [|reflexivity]. destruct (guard _ RuntimeError); cbn [bind]; [|reflexivity].
    assert (Hft : forall bulk ep, face_tags bulk ep tp = face_tags bulk ep tp').
    { intros bulk ep. unfold face_tags. apply foldM_ext. intros m (o, mk). cbn [fst snd]. destruct o; [|reflexivity]. rewrite Hl. destruct (length (tp_tags tp') =? 0); [reflexivity|]. now rewrite (marker_tags_ext tp tp' mk Ht). }
    assert (Hbg : forall amb bulk ps ep h, build_groups amb bulk ps ep tp h = build_groups amb bulk ps ep tp' h).
    { intros amb bulk ps ep h. unfold GmshModel.build_groups. f_equal. apply foldM_ext. intros ((gs, base), tte) (ty, n). cbn [fst]. destruct (dimensions ty =? bulk); [|reflexivity].
      rewrite (foldM_ext (element_step amb ps tp base ty) (element_step amb ps tp' base ty)); [reflexivity|]. intros ((rows, xs), t0) (o, mk). unfold GmshModel.element_step. cbn [fst snd]. destruct o; [|reflexivity]. now rewrite (marker_tags_ext tp tp' mk Ht). }
    rewrite Hft. now rewrite Hbg.
  Qed.

  (** ** What the mesh is *)
  Definition conv (et : gelem * list nat) : option gelem * option (list nat) := (Some (fst et), match snd et with [] => None | ts => Some ts end).
  Lemma combine_conv els : combine (map (fun et : gelem * list nat => Some (fst et)) els) (map (fun et : gelem * list nat => match snd et with [] => None | ts => Some ts end) els) = map conv els.
  Proof. induction els as [|et els IH]; [reflexivity|]. cbn [map combine]. now rewrite IH. Qed.
  (** the tags of tag numbers *)
  Definition nds (tags : list tevent) (ts : list nat) : list (nat * nat) := flat_map (fun t => match lookup_tag tags t with Some nd => [nd] | None => [] end) ts.
  Lemma marker_tags_nds tp tags ts : (forall t, tag_of tp t = Ok (lookup_tag tags t)) -> marker_tags tp (match ts with [] => None | t :: l => Some (t :: l) end) = Ok (nds tags ts).
  Proof.
    intros H. destruct ts as [|t0 ts]; [reflexivity|]. unfold marker_tags. rewrite (mapM_ext (tag_of tp) (fun t => Ok (lookup_tag tags t))) by auto. rewrite mapM_pure. cbn [bind]. f_equal. unfold nds. generalize (t0 :: ts). clear. induction l as [|t l IH]; [reflexivity|]. cbn [map flat_map]. now rewrite IH.
  Qed.
  Lemma histogram_ok els : exists h, histogram (map (fun et : gelem * list nat => Some (fst et)) els) = Ok h /\ map fst h = firsts els.
  Proof.
    unfold histogram, firsts, set_update.
    assert (Hadd : forall h t, map fst (hist_add h t) = set_add (map fst h) t).
    { unfold set_add. induction h as [|(t', n) h IH]; intros t; [reflexivity|]. cbn [hist_add map fst memb existsb]. destruct (t =? t') eqn:E; [reflexivity|]. cbn [map fst orb]. rewrite IH. unfold memb. destruct (existsb (Nat.eqb t) (map fst h)); reflexivity. }
    assert (H : forall els h, exists h', foldM (fun h e => match e with None => Err AssertionError | Some e => Ok (hist_add h (ge_type e)) end) (map (fun et : gelem * list nat => Some (fst et)) els) h = Ok h' /\ map fst h' = fold_left set_add (map type_of els) (map fst h)).
    { clear els. induction els as [|et els IH]; intros h; [exists h; auto|]. cbn [map foldM bind fold_left]. destruct (IH (hist_add h (ge_type (fst et)))) as (h' & H1 & H2). exists h'. split; [exact H1|]. rewrite H2, Hadd. reflexivity. }
    destruct (H els []) as (h & H1 & H2). exists h. auto.
  Qed.

  Section Loop.
    Variables (amb : nat) (pts : list (point R)) (tp : tpart) (tags : list tevent).
    Hypothesis Htags : forall t, tag_of tp t = Ok (lookup_tag tags t).
    Definition elem_ok (ty : nat) (et : gelem * list nat) (x : enodes R) : Prop :=
      element_nodes R amb pts (ge_nodes (fst et)) = Ok x /\ length (ge_nodes (fst et)) = node_count ty /\ length (ge_verts (fst et)) = vertex_count ty.
    Lemma element_loop base ty l : forall rows xs tte rows' xs' tte', foldM (element_step amb pts tp base ty) (map conv l) (rows, xs, tte) = Ok (rows', xs', tte') ->
      rows' = rows ++ map (fun et => ge_verts (fst et)) (sel l ty) /\ (exists xs1, xs' = xs ++ xs1 /\ Forall2 (elem_ok ty) (sel l ty) xs1) /\
      tte' = marked_fold tte (enumerate_from (base + length rows) (map (fun et => nds tags (snd et)) (sel l ty))).
    Proof.
      unfold sel. induction l as [|(e, ts) l IH]; intros rows xs tte rows' xs' tte' H; cbn [map foldM filter] in *.
      - injection H as <- <- <-. split; [now rewrite app_nil_r|]. split; [exists []; split; [now rewrite app_nil_r|constructor]|reflexivity].
      - apply bind_ok in H. destruct H as (st & Hst & H). unfold GmshModel.element_step, conv in Hst. cbn [fst snd] in Hst. change (type_of (e, ts)) with (ge_type e). destruct (ge_type e =? ty) eqn:Et.
        + apply bind_ok in Hst. destruct Hst as (x & Hx & Hst). destruct (length (ge_nodes e) =? node_count ty) eqn:En; [|discriminate Hst]. cbn [guard bind] in Hst. destruct (length (ge_verts e) =? vertex_count ty) eqn:Ev; [|discriminate Hst]. cbn [guard bind] in Hst.
          rewrite (marker_tags_nds tp tags ts Htags) in Hst. cbn [bind] in Hst. injection Hst as <-. apply IH in H. destruct H as (H1 & (xs1 & H2 & H3) & H4). apply Nat.eqb_eq in En, Ev.
          split; [rewrite H1, <- app_assoc; reflexivity|]. split; [exists (x :: xs1); split; [rewrite H2, <- app_assoc; reflexivity|constructor; [split; [exact Hx|split; [exact En|exact Ev]]|exact H3]]|].
          rewrite H4. cbn [map]. rewrite enumerate_from_cons. unfold marked_fold. cbn [fold_left]. rewrite app_length. cbn [length]. unfold mark_element at 3. cbn [fst snd]. replace (base + (length rows + 1)) with (S (base + length rows)) by lia. reflexivity.
        + injection Hst as <-. exact (IH _ _ _ _ _ _ H).
    Qed.
    Lemma make_group_nelements ty rows xs g : length rows = length xs -> make_group ty rows xs = Ok g -> nelements g = length rows /\ eg_fvi g = fvi ty.
    Proof.
      intros Hl H. unfold GmshModel.make_group in H. destruct (kind ty).
      - destruct (dimensions ty =? 2); [|injection H as <-; split; [symmetry; exact Hl|reflexivity]]. apply bind_ok in H. destruct H as (perm & _ & H). unfold flip_element_group in H. apply bind_ok in H. destruct H as (u & _ & H). apply bind_ok in H. destruct H as (vi & _ & H). injection H as <-. split; [|reflexivity]. unfold nelements. cbn [eg_nodes]. rewrite map_length, combine_length, repeat_length. lia.
      - apply bind_ok in H. destruct H as (rows' & _ & H). injection H as <-. split; [symmetry; exact Hl|reflexivity].
      - discriminate H.
    Qed.
    Definition group_ok (els : list (gelem * list nat)) (ty : nat) (g : egroup (enodes R)) : Prop :=
      exists xs, Forall2 (elem_ok ty) (sel els ty) xs /\ make_group ty (map (fun et => ge_verts (fst et)) (sel els ty)) xs = Ok g.
    Lemma build_groups_ok bulk ep els h groups tte : ep_elems ep = map (fun et : gelem * list nat => Some (fst et)) els -> ep_markers ep = map (fun et : gelem * list nat => match snd et with [] => None | ts => Some ts end) els ->
      build_groups amb bulk pts ep tp h = Ok (groups, tte) ->
      let tys := filter (fun ty => dimensions ty =? bulk) (map fst h) in
      Forall2 (group_ok els) tys groups /\ tte = marked_fold [] (enumerate (concat (map (fun ty => map (fun et => nds tags (snd et)) (sel els ty)) tys))).
    Proof.
      intros He Hm H. unfold GmshModel.build_groups in H. apply bind_ok in H. destruct H as (((gs, base'), tte0) & H & E). cbn [fst snd] in E. injection E as -> ->. rewrite He, Hm, combine_conv in H.
      assert (HG : forall h gs0 base tte0 gs base' tte, foldM (fun (st : list (egroup (enodes R)) * nat * list (nat * list nat)) (tn : nat * nat) =>
           let '(groups, base, tte) := st in
           if dimensions (fst tn) =? bulk then
             '(rows, xs, tte') <- foldM (element_step amb pts tp base (fst tn)) (map conv els) ([], [], tte) ;;
             g <- make_group (fst tn) rows xs ;;
             Ok (groups ++ [g], base + nelements g, tte')
           else Ok st) h (gs0, base, tte0) = Ok (gs, base', tte) ->
         let tys := filter (fun ty => dimensions ty =? bulk) (map fst h) in
         (exists gs1, gs = gs0 ++ gs1 /\ Forall2 (group_ok els) tys gs1) /\ tte = marked_fold tte0 (enumerate_from base (concat (map (fun ty => map (fun et => nds tags (snd et)) (sel els ty)) tys)))).
      { clear H. clear h base' tte groups. induction h as [|(ty, n) h IH]; intros gs0 base tte0 gs base' tte H; cbn [foldM map filter fst] in *.
        - injection H as <- <- <-. split; [exists []; split; [now rewrite app_nil_r|constructor]|reflexivity].
        - destruct (dimensions ty =? bulk) eqn:Ed; cbn [bind] in H; [|exact (IH _ _ _ _ _ _ H)].
          apply bind_ok in H. destruct H as (st & Hst & H). apply bind_ok in Hst. destruct Hst as (((rows, xs), tte1) & Hl & Hst). apply bind_ok in Hst. destruct Hst as (g & Hg & Hst). injection Hst as <-.
          apply element_loop in Hl. destruct Hl as (H1 & (xs1 & H2 & H3) & H4). cbn [app length] in H1, H2, H4. subst xs1. rewrite Nat.add_0_r in H4.
          assert (Hlen : length rows = length xs) by (rewrite H1, map_length; exact (Forall2_length' _ _ _ H3)).
          destruct (make_group_nelements ty rows xs g Hlen Hg) as (Hn & _). apply IH in H. cbn zeta in H |- *. destruct H as ((gs1 & -> & HF) & ->). split.
          + exists (g :: gs1). split; [now rewrite <- app_assoc|]. constructor; [|exact HF]. exists xs. split; [exact H3|]. rewrite <- H1. exact Hg.
          + cbn [map concat]. rewrite enumerate_from_app, marked_fold_app, map_length. rewrite H4, Hn, H1, map_length. reflexivity. }
      cbn zeta. destruct (HG h [] 0 [] groups base' tte H) as ((gs1 & -> & HF) & ->). split; [exact HF|reflexivity].
    Qed.
  End Loop.

  (** ** Arrangement of elements *)
  Lemma element_nodes_file f pts amb e x : (forall i p, In (i, p) (gf_nodes f) <-> nth_error pts i = Some p) -> (forall i p, In (i, p) (gf_nodes f) -> length p = amb) ->
    element_nodes R amb pts (ge_nodes e) = Ok x -> file_nodes R f e x.
  Proof.
    intros Hp Hamb H. unfold element_nodes in H. apply bind_ok in H. destruct H as (ps & Hps & H). apply mapM_ok in H. split.
    - intros i p Hin. rewrite (Hamb i p Hin). apply Forall2_length' in H. rewrite seq_length in H. congruence.
    - intros r xs Hr. destruct (Forall2_nth_error_r _ _ _ _ _ H Hr) as (r' & Hr' & Hxs). assert (r' = r). { rewrite nth_error_seq in Hr'. destruct (r <? amb); [|discriminate Hr']. injection Hr' as <-. reflexivity. } subst r'.
      unfold take in Hps. apply mapM_ok in Hps. apply mapM_ok in Hxs. clear -Hps Hxs Hp. revert xs Hxs. induction Hps as [|n p ns ps Hn _ IH]; intros xs Hxs; inversion Hxs as [|p' v ps' vs Hv Hvs]; subst; constructor; [|apply IH; assumption]. exists p. split; [apply Hp; now apply get_ok|now apply get_ok].
  Qed.
  Lemma involutive_102 : involutive [1; 0; 2].
  Proof. intros j p H. destruct j as [|[|[|j]]]; cbn in H; try (injection H as <-; reflexivity). destruct j; discriminate H. Qed.

  Lemma Forall2_map_l {B C D} (P : C -> D -> Prop) (h : B -> C) l l' : Forall2 P (map h l) l' <-> Forall2 (fun x y => P (h x) y) l l'.
  Proof.
    split; intros H.
    - remember (map h l) as m eqn:E. revert l E. induction H as [|c d m l' Hc _ IH]; intros [|b l] E; try discriminate E; constructor; injection E as -> ->; auto.
    - induction H; constructor; auto.
  Qed.
  Lemma group_elements f els ty g pts amb : (forall i p, In (i, p) (gf_nodes f) <-> nth_error pts i = Some p) -> (forall i p, In (i, p) (gf_nodes f) -> length p = amb) ->
    group_ok amb pts els ty g -> (forall et, In et (sel els ty) -> type_of et = ty) ->
    exists vi, eg_vi g = Some vi /\ length vi = nelements g /\ length vi = length (sel els ty) /\ eg_fvi g = fvi ty /\
      Forall2 (fun (et : gelem * list nat) (rx : list nat * enodes R) => arranged R kind dimensions shuffle flip_matrix f (fst et) (fst rx) (snd rx)) (sel els ty) (combine vi (eg_nodes g)) /\
      Forall (fun row => length row = match kind ty with GTensor => length (shuffle ty) | _ => vertex_count ty end) vi.
  Proof.
    intros Hp Hamb (xs & HF & Hg) Hty. set (rows := map (fun et : gelem * list nat => ge_verts (fst et)) (sel els ty)) in *.
    assert (Hlen : length rows = length xs) by (unfold rows; rewrite map_length; exact (Forall2_length' _ _ _ HF)). assert (Hls : length (sel els ty) = length rows) by (unfold rows; now rewrite map_length).
    destruct (make_group_nelements ty rows xs g Hlen Hg) as (Hn & Hfv). unfold GmshModel.make_group in Hg. destruct (kind ty) eqn:Ek; [| |discriminate Hg].
    - destruct (dimensions ty =? 2) eqn:Ed.
      + change (simplex_flip_permutation 2) with (Ok [1; 0; 2]) in Hg. cbn [bind] in Hg. rewrite (flip_group_unfold R (flip_matrix ty) [1; 0; 2] (repeat true (length rows)) (mk_egroup (Some rows) xs (fvi ty)) rows) in Hg; [|reflexivity|exact Hlen|rewrite repeat_length; exact Hlen].
        apply bind_ok in Hg. destruct Hg as (vi & Hvi & Hg). injection Hg as <-. cbn [eg_vi eg_nodes nelements] in *. exists vi. apply mapM_ok in Hvi.
        assert (Hcomb : forall (B : Type) (l : list B), combine (repeat true (length l)) l = map (fun b => (true, b)) l) by (intros B l; induction l as [|b l IH]; [reflexivity|]; cbn [length repeat combine map]; now rewrite IH).
        rewrite (Hcomb _ rows) in Hvi. rewrite Hlen, (Hcomb _ xs). rewrite map_map. unfold rows in Hvi. rewrite map_map, Forall2_map_l in Hvi.
        assert (Hlv : length vi = length (sel els ty)) by (symmetry; exact (Forall2_length' _ _ _ Hvi)).
        split; [reflexivity|]. split; [unfold nelements; cbn [eg_nodes]; rewrite map_length; lia|]. split; [exact Hlv|]. split; [reflexivity|].
        assert (Hrow : forall et row, In et (sel els ty) -> flip_row [1; 0; 2] (true, ge_verts (fst et)) = Ok row -> length row = length (ge_verts (fst et)) /\ forall j p, nth_error [1; 0; 2] j = Some p -> nth_error row p = nth_error (ge_verts (fst et)) j).
        { intros et row _ Hr. unfold flip_row in Hr. cbn [fst snd] in Hr. assert (H3 : length [1; 0; 2] = length (ge_verts (fst et))). { unfold permute_row in Hr. destruct (length [1; 0; 2] =? length (ge_verts (fst et))) eqn:E3; [now apply Nat.eqb_eq|discriminate Hr]. }
          destruct (permute_row_spec (map (fun _ => 0) (ge_verts (fst et))) [1; 0; 2] (ge_verts (fst et)) involutive_102 H3) as (row' & R1 & R2 & R3); [apply map_length|]. rewrite R1 in Hr. injection Hr as <-. auto. }
        split.
        * clear Hlv Hls Hn Hcomb Hfv. clear rows Hlen. revert vi Hvi Hty Hrow. generalize (sel els ty), HF. clear HF. intros l HF. induction HF as [|et x l xs (Hx & _) _ IH]; intros vi Hvi Hty Hrow; inversion Hvi as [|et' row l' vi' Hr Hvi' E1 E2]; subst; cbn [map combine]; constructor.
          -- cbn [fst snd]. unfold arranged. rewrite (Hty et (or_introl eq_refl) : ge_type (fst et) = ty), Ek, Ed. exists x. split; [exact (element_nodes_file f pts amb (fst et) x Hp Hamb Hx)|]. destruct (Hrow et row (or_introl eq_refl) Hr) as (H1 & H2). split; [exact H1|]. split; [exact H2|reflexivity].
          -- apply IH; [exact Hvi'|intros; apply Hty; now right|intros; apply Hrow; [now right|assumption]].
        * apply Forall_forall. intros row Hin. apply In_nth_error in Hin. destruct Hin as (k & Hk). destruct (Forall2_nth_error_r _ _ _ _ _ Hvi Hk) as (et & Het & Hr). destruct (Hrow et row (nth_error_In _ _ Het) Hr) as (H1 & _). rewrite H1. destruct (Forall2_nth_error _ _ _ _ _ HF Het) as (x & _ & _ & _ & Hv). exact Hv.
      + injection Hg as <-. cbn [eg_vi eg_nodes]. exists rows. split; [reflexivity|]. split; [exact Hlen|]. split; [now symmetry|]. split; [reflexivity|]. split.
        * unfold rows. clear Hn Hls Hlen Hfv. clear rows. revert Hty HF. generalize (sel els ty). intros l Hty HF. induction HF as [|et x l xs (Hx & _) _ IH]; cbn [map combine]; constructor; [|apply IH; intros; apply Hty; now right].
          cbn [fst snd]. unfold arranged. rewrite (Hty et (or_introl eq_refl) : ge_type (fst et) = ty), Ek, Ed. split; [reflexivity|exact (element_nodes_file f pts amb (fst et) x Hp Hamb Hx)].
        * unfold rows. apply Forall_forall. intros row Hin. apply in_map_iff in Hin. destruct Hin as (et & <- & Hin). apply In_nth_error in Hin. destruct Hin as (k & Hk). destruct (Forall2_nth_error _ _ _ _ _ HF Hk) as (x & _ & _ & _ & Hv). exact Hv.
    - apply bind_ok in Hg. destruct Hg as (vi & Hvi & Hg). injection Hg as <-. cbn [eg_vi eg_nodes]. exists vi. apply mapM_ok in Hvi. unfold rows in Hvi. rewrite Forall2_map_l in Hvi. assert (Hlv : length vi = length (sel els ty)) by (symmetry; exact (Forall2_length' _ _ _ Hvi)).
      split; [reflexivity|]. split; [cbn [nelements eg_nodes] in *; unfold nelements; cbn [eg_nodes]; congruence|]. split; [exact Hlv|]. split; [reflexivity|].
      assert (Hrow : forall (et : gelem * list nat) row, take (ge_verts (fst et)) (shuffle ty) = Ok row -> Forall2 (fun s v => nth_error (ge_verts (fst et)) s = Some v) (shuffle ty) row).
      { intros et row Hr. unfold take in Hr. apply mapM_ok in Hr. eapply Forall2_impl; [|exact Hr]. intros s v Hs. now apply get_ok. }
      split.
      * clear Hlv Hls Hn Hfv. clear rows Hlen. revert vi Hvi Hty. generalize (sel els ty), HF. clear HF. intros l HF. induction HF as [|et x l xs (Hx & _) _ IH]; intros vi Hvi Hty; inversion Hvi as [|et' row l' vi' Hr Hvi' E1 E2]; subst; cbn [combine]; constructor; [|apply IH; [exact Hvi'|intros; apply Hty; now right]].
        cbn [fst snd]. unfold arranged. rewrite (Hty et (or_introl eq_refl) : ge_type (fst et) = ty), Ek. split; [exact (Hrow et row Hr)|exact (element_nodes_file f pts amb (fst et) x Hp Hamb Hx)].
      * apply Forall_forall. intros row Hin. apply In_nth_error in Hin. destruct Hin as (k & Hk). destruct (Forall2_nth_error_r _ _ _ _ _ Hvi Hk) as (et & _ & Hr). symmetry. exact (Forall2_length' _ _ _ (Hrow et row Hr)).
  Qed.

  (** ** All of get_mesh *)
  Lemma fold_max_spec l : l <> [] -> In (fold_right Nat.max 0 l) l /\ Forall (fun x => x <= fold_right Nat.max 0 l) l.
  Proof.
    intros Hl. induction l as [|x l IH]; [congruence|]. cbn [fold_right]. destruct l as [|y l].
    - cbn [fold_right]. rewrite Nat.max_0_r. split; [now left|repeat constructor].
    - destruct (IH ltac:(discriminate)) as (H1 & H2). split.
      + destruct (Nat.max_spec x (fold_right Nat.max 0 (y :: l))) as [(_ & ->)|(_ & ->)]; [now right|now left].
      + constructor; [lia|]. eapply Forall_impl; [|exact H2]. cbn beta. intros; lia.
  Qed.
  Lemma get_mesh_parts f s m tte : received R f s -> numbered R f -> get_mesh s = Ok (m, tte) ->
    exists pts els d h ft groups, rc_nodes R s = NArray R pts /\ (forall i p, In (i, p) (gf_nodes f) <-> nth_error pts i = Some p) /\ length pts = length (gf_nodes f) /\
      (forall nr et, In (nr, et) (gf_elems f) <-> nth_error els nr = Some et) /\ bulk_dim R dimensions f d /\ map fst h = firsts els /\
      (let amb := match pts with [] => 0 | p :: _ => length p end in (forall i p, In (i, p) (gf_nodes f) -> length p = amb) /\ build_groups amb d pts (rc_elems R s) (rc_tags R s) h = Ok (groups, tte)) /\
      rc_elems R s = mk_epart (map (fun et : gelem * list nat => Some (fst et)) els) (map (fun et : gelem * list nat => match snd et with [] => None | ts => Some ts end) els) /\
      face_tags d (rc_elems R s) (rc_tags R s) = Ok ft /\ m_groups m = groups /\ m_vertices m = Some pts /\
      (let conforming := if length (filter (fun ty => dimensions ty =? d) (firsts els)) =? 1 then true else d <? 3 in m_conforming m = Some conforming /\
       (conforming = true -> gf_tags f <> [] -> exists fags, m_facial m = Available fags /\ compute_facial_adjacency aff_id tag_order (Some ft) groups = Ok fags)).
  Proof.
    intros ((pts & P1 & P2 & P3) & (els & E1 & E2 & E3) & T1 & T2) (_ & _ & Hlen) H. unfold GmshModel.get_mesh in H. rewrite E1 in H. cbn [ep_elems] in H. destruct (histogram_ok els) as (h & Hh1 & Hh2). rewrite Hh1 in H. cbn [bind] in H.
    destruct (length h =? 0) eqn:Eh; [discriminate H|]. cbn [negb guard bind] in H. rewrite P1 in H. rewrite <- E1 in H. apply bind_ok in H. destruct H as (ft & Hft & H). apply bind_ok in H. destruct H as ((groups, tte0) & Hb & H). apply bind_ok in H. destruct H as (facial & Hf & H). apply bind_ok in H. destruct H as (m0 & Hm & H). injection H as -> ->.
    set (d := fold_right Nat.max 0 (map (fun tn : nat * nat => dimensions (fst tn)) h)) in *.
    assert (Hd : bulk_dim R dimensions f d).
    { assert (Hm1 : map (fun tn : nat * nat => dimensions (fst tn)) h = map dimensions (firsts els)) by (rewrite <- Hh2, map_map; reflexivity). assert (Hne : map dimensions (firsts els) <> []) by (rewrite <- Hh2; destruct h; [discriminate Eh|discriminate]).
      destruct (fold_max_spec (map dimensions (firsts els)) Hne) as (H1 & H2). rewrite <- Hm1 in H1, H2. fold d in H1, H2. destruct (firsts_spec els) as (_ & Hin). split.
      - rewrite Hm1 in H1. apply in_map_iff in H1. destruct H1 as (ty & Hty & H1). apply Hin in H1. destruct H1 as ((e, ts) & He & Ht). apply In_nth_error in He. destruct He as (nr & Hnr). exists nr, e, ts. split; [now apply E3|]. unfold type_of in Ht. cbn [fst] in Ht. now rewrite Ht.
      - intros nr e ts Hfe. apply E3 in Hfe. apply (proj1 (Forall_forall _ _) H2). rewrite Hm1. apply in_map. apply Hin. exists (e, ts). split; [exact (nth_error_In _ _ Hfe)|reflexivity]. }
    exists pts, els, d, h, ft, groups. split; [exact P1|]. split; [exact P3|]. split; [exact P2|]. split; [exact E3|]. split; [exact Hd|]. split; [exact Hh2|]. split.
    { split; [|exact Hb]. intros i p Hin. pose proof (proj1 (P3 i p) Hin) as Hi. destruct pts as [|q pts]; [destruct i; discriminate Hi|]. apply (Hlen i p 0 q); [exact Hin|]. now apply P3. }
    split; [exact E1|]. split; [exact Hft|].
    assert (Hcnt : length (filter (fun tn : nat * nat => dimensions (fst tn) =? d) h) = length (filter (fun ty => dimensions ty =? d) (firsts els))).
    { rewrite <- Hh2. clear. generalize d. intros d'. induction h as [|(ty, n) h IH]; [reflexivity|]. cbn [map filter fst]. destruct (dimensions ty =? d'); cbn [length]; now rewrite IH. }
    rewrite Hcnt in Hf, Hm. set (conforming := if length (filter (fun ty => dimensions ty =? d) (firsts els)) =? 1 then true else d <? 3) in *. cbn zeta.
    assert (Hm' : m_groups m = groups /\ m_vertices m = Some pts /\ m_conforming m = Some conforming /\ forall fl, facial = Available fl -> complete_facial_adjacency fl = Ok fl -> m_facial m = Available fl).
    { unfold make_mesh in Hm. apply bind_ok in Hm. destruct Hm as (fac & Hfac & Hm). injection Hm as <-. cbn [m_groups m_vertices m_conforming m_facial]. split; [reflexivity|]. split; [reflexivity|]. split; [reflexivity|]. intros fl -> Hc. cbn [none_to_false] in Hfac. rewrite Hc in Hfac. cbn [bind] in Hfac. congruence. }
    destruct Hm' as (G1 & G2 & G3 & G4). split; [exact G1|]. split; [exact G2|]. split; [exact G3|]. intros Hconf Htg. rewrite Hconf in Hf. assert (Htl : length (tp_tags (rc_tags R s)) =? 0 = false). { destruct (tp_tags (rc_tags R s)) eqn:Et; [exfalso; apply Htg; now apply T2|reflexivity]. }
    rewrite Htl in Hf. cbn [andb negb] in Hf. apply bind_ok in Hf. destruct Hf as (fl & Hfl & Hf). injection Hf as <-. exists fl. split; [|exact Hfl]. apply G4; [reflexivity|].
    unfold compute_facial_adjacency in Hfl. destruct groups as [|g0 groups]; [injection Hfl as <-; reflexivity|]. apply bind_ok in Hfl. destruct Hfl as (pairs & _ & Hfl). cbn zeta in Hfl. apply bind_ok in Hfl. destruct Hfl as (idp & _ & Hfl). apply bind_ok in Hfl. destruct Hfl as (fags & _ & Hfl). exact (complete_idempotent _ _ Hfl).
  Qed.

  Lemma face_tags_ok f s els d ft : received R f s -> gf_tags f <> [] -> consistent_tags (gf_tags f) -> (forall nr et, In (nr, et) (gf_elems f) <-> nth_error els nr = Some et) ->
    rc_elems R s = mk_epart (map (fun et : gelem * list nat => Some (fst et)) els) (map (fun et : gelem * list nat => match snd et with [] => None | ts => Some ts end) els) ->
    face_tags d (rc_elems R s) (rc_tags R s) = Ok ft ->
    key_distinct ft /\ (forall k ts t, In (k, ts) ft -> In t ts -> exists n, t = TUser n) /\
    forall vs name, assigned ft vs (TUser name) <-> exists nr e ts d', file_elem R f nr e ts /\ has_mark R f ts name d' /\ S d' = d /\ forall v, In v (ge_verts e) <-> In v vs.
  Proof.
    intros (_ & _ & T1 & T2) Htg Hc E3 E1 H. unfold face_tags in H. rewrite E1 in H. cbn [ep_elems ep_markers] in H. rewrite combine_conv in H. assert (Htl : length (tp_tags (rc_tags R s)) =? 0 = false). { destruct (tp_tags (rc_tags R s)) eqn:Et; [exfalso; apply Htg; now apply T2|reflexivity]. }
    set (new := fun et : gelem * list nat => map (fun nd : nat * nat => TUser (fst nd)) (filter (fun nd : nat * nat => S (snd nd) =? d) (nds (gf_tags f) (snd et)))).
    assert (HI : forall l m0 ft, foldM (fun m (em : option gelem * option (list nat)) =>
             match fst em with
             | None => Err AssertionError
             | Some e =>
                 if length (tp_tags (rc_tags R s)) =? 0 then Ok m
                 else nds <- marker_tags (rc_tags R s) (snd em) ;;
                      Ok (facetag_add m (ge_verts e) (map (fun nd : nat * nat => TUser (fst nd)) (filter (fun nd : nat * nat => S (snd nd) =? d) nds)))
             end) (map conv l) m0 = Ok ft ->
        key_distinct m0 -> (forall k ts t, In (k, ts) m0 -> In t ts -> exists n, t = TUser n) ->
        key_distinct ft /\ (forall k ts t, In (k, ts) ft -> In t ts -> exists n, t = TUser n) /\
        forall vs t, assigned ft vs t <-> assigned m0 vs t \/ exists et, In et l /\ In t (new et) /\ forall v, In v (ge_verts (fst et)) <-> In v vs).
    { clear H ft E1 E3. induction l as [|(e, ts) l IH]; intros m0 ft H Hk Hu; cbn [map foldM] in H.
      - injection H as <-. split; [exact Hk|]. split; [exact Hu|]. intros vs t. split; [auto|]. intros [H|(et & [] & _)]. exact H.
      - apply bind_ok in H. destruct H as (m1 & H1 & H). unfold conv in H1. cbn [fst snd] in H1. rewrite Htl in H1. rewrite (marker_tags_nds (rc_tags R s) (gf_tags f) ts T1) in H1. cbn [bind] in H1. injection H1 as <-.
        change (map (fun nd : nat * nat => TUser (fst nd)) (filter (fun nd : nat * nat => S (snd nd) =? d) (nds (gf_tags f) ts))) with (new (e, ts)) in H.
        destruct (IH _ _ H) as (K1 & K2 & K3).
        { now apply facetag_add_distinct. }
        { apply facetag_add_users; [exact Hu|]. intros t Ht. unfold new in Ht. apply in_map_iff in Ht. destruct Ht as (nd & <- & _). eauto. }
        split; [exact K1|]. split; [exact K2|]. intros vs t. rewrite K3, facetag_add_assigned. split.
        + intros [[Ha|(Ht & Hv)]|(et & Hin & Ht & Hv)]; [now left| |]; right; [exists (e, ts); split; [now left|auto]|exists et; split; [now right|auto]].
        + intros [Ha|(et & [<-|Hin] & Ht & Hv)]; [now left; left|left; right; auto|right; exists et; auto]. }
    destruct (HI els [] ft H) as (K1 & K2 & K3); [constructor|intros k ts t []|]. split; [exact K1|]. split; [exact K2|]. intros vs name. rewrite K3. split.
    - intros [(k & ts & [] & _)|((e, ts) & Hin & Ht & Hv)]. apply In_nth_error in Hin. destruct Hin as (nr & Hnr). unfold new in Ht. cbn [fst snd] in *. apply in_map_iff in Ht. destruct Ht as ((n, dd) & En & Ht). injection En as ->. apply filter_In in Ht. destruct Ht as (Ht & Hd). apply Nat.eqb_eq in Hd. cbn [snd] in Hd.
      unfold nds in Ht. apply in_flat_map in Ht. destruct Ht as (t & Ht & Hl). destruct (lookup_tag (gf_tags f) t) as [(n', d')|] eqn:El; [|destruct Hl]. destruct Hl as [El2|[]]. injection El2 as -> ->. apply lookup_tag_iff in El; [|exact Hc].
      exists nr, e, ts, dd. split; [now apply E3|]. split; [exists (AddTag name t dd); auto|]. split; [exact Hd|exact Hv].
    - intros (nr & e & ts & d' & Hfe & (a & Ha & Hn & Hd' & Hi) & Hd & Hv). right. apply E3 in Hfe. exists (e, ts). split; [exact (nth_error_In _ _ Hfe)|]. split; [|exact Hv]. unfold new. cbn [snd]. apply in_map_iff. exists (name, d'). split; [reflexivity|]. apply filter_In. split; [|cbn [snd]; now apply Nat.eqb_eq].
      unfold nds. apply in_flat_map. exists (tg_index a). split; [exact Hi|]. assert (El : lookup_tag (gf_tags f) (tg_index a) = Some (name, d')) by (apply lookup_tag_iff; [exact Hc|]; destruct a; cbn in *; subst; exact Ha). rewrite El. now left.
  Qed.

  (** ** In terms of the file *)
  Lemma marks_nds f name ts : consistent_tags (gf_tags f) -> length (filter (fun nd : nat * nat => fst nd =? name) (nds (gf_tags f) ts)) = marks R f name ts.
  Proof.
    intros Hc. unfold marks, nds. induction ts as [|t ts IH]; [reflexivity|]. cbn [flat_map filter]. rewrite filter_app, app_length, IH. clear IH.
    destruct (existsb _ (gf_tags f)) eqn:Ee.
    - apply existsb_exists in Ee. destruct Ee as (a & Ha & E). apply andb_prop in E. destruct E as (E1 & E2). apply Nat.eqb_eq in E1, E2. subst t name. rewrite (proj2 (lookup_tag_iff (gf_tags f) (tg_index a) (tg_name a) (tg_dim a) Hc)) by (destruct a; exact Ha). cbn [filter fst]. now rewrite Nat.eqb_refl.
    - destruct (lookup_tag (gf_tags f) t) as [(n, d)|] eqn:El; [|reflexivity]. apply lookup_tag_iff in El; [|exact Hc]. cbn [filter fst]. destruct (n =? name) eqn:En; [|reflexivity]. exfalso. assert (Ht : existsb (fun a => (tg_index a =? t) && (tg_name a =? name)) (gf_tags f) = true) by (apply existsb_exists; exists (AddTag n t d); split; [exact El|]; cbn [tg_index tg_name]; now rewrite Nat.eqb_refl, En). congruence.
  Qed.
  Lemma sel_type els ty et : In et (sel els ty) -> type_of et = ty.
  Proof. intros H. apply filter_In in H. now apply Nat.eqb_eq. Qed.

  Lemma element_order_firsts f els d : (forall nr et, In (nr, et) (gf_elems f) <-> nth_error els nr = Some et) ->
    element_order R dimensions f d (filter (fun ty => dimensions ty =? d) (firsts els)) (map (nrs_of els) (filter (fun ty => dimensions ty =? d) (firsts els))).
  Proof.
    intros E3. set (tys := filter (fun ty => dimensions ty =? d) (firsts els)). destruct (firsts_spec els) as (Hnd & Hin). split; [|split; [|split]].
    - assert (H : forall ty, In ty tys -> nrs_of els ty <> [] /\ StronglySorted lt (nrs_of els ty) /\ forall nr, In nr (nrs_of els ty) <-> exists e ts, file_elem R f nr e ts /\ ge_type e = ty).
      { intros ty Hty. apply filter_In in Hty. destruct Hty as (Hty & _). apply Hin in Hty. destruct Hty as (et & He & Ht). apply In_nth_error in He. destruct He as (nr & Hnr). split.
        - intros E. assert (Hi : In nr (nrs_of els ty)) by (apply nrs_In; eauto). rewrite E in Hi. destruct Hi.
        - split; [apply enumerate_from_sorted|]. intros nr'. rewrite nrs_In. split.
          + intros ((e, ts) & H1 & H2). exists e, ts. split; [now apply E3|exact H2].
          + intros (e & ts & H1 & H2). exists (e, ts). split; [now apply E3|exact H2]. }
      revert H. generalize tys. clear. induction tys as [|ty tys IH]; intros H; constructor; [apply H; now left|apply IH; intros; apply H; now right].
    - now apply NoDup_filter.
    - intros ty. unfold tys. rewrite filter_In, Hin, Nat.eqb_eq. split.
      + intros ((et & He & Ht) & Hd). split; [exact Hd|]. apply In_nth_error in He. destruct He as (nr & Hnr). destruct et as (e, ts). exists nr, e, ts. split; [now apply E3|exact Ht].
      + intros (Hd & nr & e & ts & Hfe & Ht). split; [|exact Hd]. exists (e, ts). split; [|exact Ht]. apply E3 in Hfe. exact (nth_error_In _ _ Hfe).
    - intros g g' x l x' l' Hg Hx Hx'. rewrite nth_error_map in Hx, Hx'. destruct (nth_error tys g) as [ty|] eqn:Ety; [|discriminate Hx]. destruct (nth_error tys g') as [ty'|] eqn:Ety'; [|discriminate Hx']. cbn in Hx, Hx'. injection Hx as Hx. injection Hx' as Hx'.
      assert (Hpos : forall l (p : nat -> bool) g g' ty ty', g < g' -> nth_error (filter p l) g = Some ty -> nth_error (filter p l) g' = Some ty' -> exists i i', i < i' /\ nth_error l i = Some ty /\ nth_error l i' = Some ty').
      { clear. induction l as [|y l IH]; intros p g g' ty ty' Hg H H'; [destruct g; discriminate H|]. cbn [filter] in H, H'. destruct (p y).
        - destruct g as [|g], g' as [|g']; try lia.
          + cbn [nth_error] in H, H'. injection H as <-. apply nth_error_In in H'. apply filter_In in H'. destruct H' as (H' & _). apply In_nth_error in H'. destruct H' as (i' & Hi'). exists 0, (S i'). split; [lia|auto].
          + cbn [nth_error] in H, H'. destruct (IH p g g' ty ty' ltac:(lia) H H') as (i & i' & H1 & H2 & H3). exists (S i), (S i'). split; [lia|auto].
        - destruct (IH p g g' ty ty' Hg H H') as (i & i' & H1 & H2 & H3). exists (S i), (S i'). split; [lia|auto]. }
      destruct (Hpos _ _ _ _ _ _ Hg Ety Ety') as (i & i' & H1 & H2 & H3). exact (firsts_sorted els i i' ty ty' x l x' l' H1 H2 H3 Hx Hx').
  Qed.

  Lemma groups_represent f els d pts amb groups : (forall nr et, In (nr, et) (gf_elems f) <-> nth_error els nr = Some et) -> bulk_dim R dimensions f d ->
    (forall i p, In (i, p) (gf_nodes f) <-> nth_error pts i = Some p) -> (forall i p, In (i, p) (gf_nodes f) -> length p = amb) ->
    Forall2 (group_ok amb pts els) (filter (fun ty => dimensions ty =? d) (firsts els)) groups ->
    represents R kind dimensions fvi shuffle flip_matrix f d (map (nrs_of els) (filter (fun ty => dimensions ty =? d) (firsts els))) groups.
  Proof.
    intros E3 Hd Hp Hamb HF. split; [exact Hd|]. set (tys := filter (fun ty => dimensions ty =? d) (firsts els)) in *. exists tys. split; [now apply element_order_firsts|]. split; [symmetry; exact (Forall2_length' _ _ _ HF)|].
    intros g ty l grp Hty Hl Hg. rewrite nth_error_map, Hty in Hl. cbn in Hl. injection Hl as <-. destruct (Forall2_nth_error _ _ _ _ _ HF Hty) as (grp' & Hg' & Hok). assert (grp' = grp) by congruence. subst grp'.
    destruct (group_elements f els ty grp pts amb Hp Hamb Hok (sel_type els ty)) as (vi & V1 & V2 & V3 & V4 & V5 & _). pose proof (nrs_sel els ty) as Hns. pose proof (Forall2_length' _ _ _ Hns) as Hnl.
    exists vi. split; [exact V1|]. split; [exact V4|]. split; [congruence|]. split; [unfold nelements in V2; congruence|]. intros k nr Hk. destruct (Forall2_nth_error _ _ _ _ _ Hns Hk) as ((e, ts) & Hs & He). destruct (Forall2_nth_error _ _ _ _ _ V5 Hs) as ((row, x) & Hc & Ha). exists e, ts, row, x. split; [now apply E3|]. split; [exact (sel_type els ty (e, ts) (nth_error_In _ _ Hs))|].
    assert (Hcc : forall (B C : Type) (l : list B) (l' : list C) k b c, nth_error (combine l l') k = Some (b, c) -> nth_error l k = Some b /\ nth_error l' k = Some c).
    { clear. intros B C. induction l as [|b0 l IH]; intros [|c0 l'] [|k] b c H; try discriminate H; [cbn in H; injection H as <- <-; auto|exact (IH l' k b c H)]. }
    destruct (Hcc _ _ _ _ _ _ _ Hc) as (C1 & C2). auto.
  Qed.

  (** ** Success *)
  Lemma mapM_exists {B C} (h : B -> res C) l : (forall x, In x l -> exists y, h x = Ok y) -> exists l', mapM h l = Ok l'.
  Proof.
    induction l as [|x l IH]; intros H; [exists []; reflexivity|]. destruct (H x (or_introl eq_refl)) as (y & Hy). destruct IH as (l' & Hl'); [intros; apply H; now right|]. exists (y :: l'). cbn [mapM]. rewrite Hy. cbn [bind]. now rewrite Hl'.
  Qed.
  Lemma build_groups_total f els d pts amb tp h ep : well_formed R kind dimensions fvi shuffle vertex_count node_count f d -> (forall nr et, In (nr, et) (gf_elems f) <-> nth_error els nr = Some et) ->
    length pts = length (gf_nodes f) -> (forall p, In p pts -> length p = amb) -> (forall t, tag_of tp t = Ok (lookup_tag (gf_tags f) t)) ->
    ep = mk_epart (map (fun et : gelem * list nat => Some (fst et)) els) (map (fun et : gelem * list nat => match snd et with [] => None | ts => Some ts end) els) ->
    map fst h = firsts els -> exists r, build_groups amb d pts ep tp h = Ok r.
  Proof.
    intros (Hd & Hw) E3 Hlen Hamb T1 -> Hh. unfold GmshModel.build_groups. cbn [ep_elems ep_markers]. rewrite combine_conv.
    assert (Hel : forall base ty l rows xs tte, dimensions ty = d -> (forall et, In et l -> In et els) -> exists r, foldM (element_step amb pts tp base ty) (map conv l) (rows, xs, tte) = Ok r).
    { intros base ty l rows xs tte Hdim. revert rows xs tte.
      assert (Hstep : forall st et, In et els -> exists st', element_step amb pts tp base ty st (conv et) = Ok st').
      { intros ((rows, xs), tte) (e, ts) Hin. unfold GmshModel.element_step, conv. cbn [fst snd]. destruct (ge_type e =? ty) eqn:Et; [|eauto].
        apply Nat.eqb_eq in Et. subst ty. destruct (In_nth_error _ _ Hin) as (nr & Hnr). apply E3 in Hnr. destruct (Hw nr e ts Hnr Hdim) as (_ & W2 & W3 & W4).
        assert (Hx : exists x, element_nodes R amb pts (ge_nodes e) = Ok x).
        { unfold element_nodes. assert (Ht : exists ps, take pts (ge_nodes e) = Ok ps) by (apply take_total; apply Forall_forall; intros n Hn; rewrite Hlen; auto). destruct Ht as (ps & Hps). unfold point in Hps |- *. rewrite Hps. cbn [bind]. apply mapM_exists. intros r Hr. apply in_seq in Hr. apply mapM_exists. intros p Hp.
          assert (Hpp : In p pts). { apply In_nth_error in Hp. destruct Hp as (k & Hk). unfold take in Hps. apply mapM_ok in Hps. destruct (Forall2_nth_error_r _ _ _ _ _ Hps Hk) as (n & _ & Hn). apply get_ok in Hn. exact (nth_error_In _ _ Hn). }
          specialize (Hamb p Hpp). destruct (nth_error p r) as [v|] eqn:Ev; [exists v; now apply get_ok|apply nth_error_None in Ev; lia]. }
        destruct Hx as (x & Hx). rewrite Hx, W2, W3, !Nat.eqb_refl. cbn [bind guard]. rewrite (marker_tags_nds tp (gf_tags f) ts T1). cbn [bind]. eauto. }
      intros rows xs tte. generalize (rows, xs, tte). induction l as [|et0 l IH]; intros st Hin; [cbn [map foldM]; eauto|]. cbn [map foldM]. destruct (Hstep st et0 (Hin et0 (or_introl eq_refl))) as (st' & Hst). rewrite Hst. cbn [bind]. apply IH. intros; apply Hin; now right. }
    assert (Hmk : forall ty xs, In ty (firsts els) -> dimensions ty = d -> length xs = length (sel els ty) -> exists g, make_group ty (map (fun et : gelem * list nat => ge_verts (fst et)) (sel els ty)) xs = Ok g).
    { intros ty xs Hty Hdim Hxs. destruct (firsts_spec els) as (_ & Hin). pose proof (proj1 (Hin ty) Hty) as ((e0, ts0) & He0 & Ht0). apply In_nth_error in He0. destruct He0 as (nr0 & He0). apply E3 in He0. unfold type_of in Ht0. cbn [fst] in Ht0. destruct (Hw nr0 e0 ts0 He0 ltac:(congruence)) as (W1 & _). rewrite Ht0 in W1.
      assert (Hrows : forall row, In row (map (fun et : gelem * list nat => ge_verts (fst et)) (sel els ty)) -> length row = vertex_count ty).
      { intros row Hr. apply in_map_iff in Hr. destruct Hr as ((e, ts) & <- & Hs). pose proof (sel_type _ _ _ Hs) as Hst. unfold type_of in Hst. cbn [fst] in *. apply filter_In in Hs. destruct Hs as (Hs & _). apply In_nth_error in Hs. destruct Hs as (nr & Hnr). apply E3 in Hnr. destruct (Hw nr e ts Hnr ltac:(congruence)) as (_ & W2 & _). congruence. }
      unfold GmshModel.make_group. unfold known_type in W1. destruct (kind ty); [| |destruct W1].
      - destruct (dimensions ty =? 2) eqn:Ed; [|eauto]. apply Nat.eqb_eq in Ed. destruct W1 as (W1 & _). change (simplex_flip_permutation 2) with (Ok [1; 0; 2]). cbn [bind].
        rewrite (flip_group_unfold R (flip_matrix ty) [1; 0; 2] _ _ (map (fun et : gelem * list nat => ge_verts (fst et)) (sel els ty))); [|reflexivity|unfold nelements; cbn [eg_nodes]; now rewrite map_length|unfold nelements; cbn [eg_nodes]; now rewrite repeat_length, map_length].
        destruct (flip_rows [1; 0; 2] (repeat true (length (map (fun et : gelem * list nat => ge_verts (fst et)) (sel els ty)))) (map (fun et : gelem * list nat => ge_verts (fst et)) (sel els ty)) involutive_102) as (vi & Hvi & _); [apply Forall_forall; intros row Hr; rewrite (Hrows row Hr); exact (W1 Ed)|]. rewrite Hvi. cbn [bind]. eauto.
      - destruct W1 as (W1 & _). destruct (mapM_exists (fun row => take row (shuffle ty)) (map (fun et : gelem * list nat => ge_verts (fst et)) (sel els ty))) as (vi & Hvi); [|rewrite Hvi; cbn [bind]; eauto]. intros row Hr. apply take_total. apply Forall_forall. intros k Hk. rewrite (Hrows row Hr). auto. }
    assert (HG : forall h' st, (forall ty, In ty (map fst h') -> In ty (firsts els)) -> exists r, foldM (fun (st : list (egroup (enodes R)) * nat * list (nat * list nat)) (tn : nat * nat) =>
           let '(groups, base, tte) := st in
           if dimensions (fst tn) =? d then
             '(rows, xs, tte') <- foldM (element_step amb pts tp base (fst tn)) (map conv els) ([], [], tte) ;;
             g <- make_group (fst tn) rows xs ;;
             Ok (groups ++ [g], base + nelements g, tte')
           else Ok st) h' st = Ok r).
    { induction h' as [|(ty, n) h' IH]; intros ((gs, base), tte) Hin; [eexists; reflexivity|]. cbn [foldM fst]. destruct (dimensions ty =? d) eqn:Edim; cbn [bind].
      - apply Nat.eqb_eq in Edim. destruct (Hel base ty els [] [] tte Edim (fun et H => H)) as (((rows, xs), tte') & Hl). rewrite Hl. cbn [bind].
        destruct (element_loop amb pts tp (gf_tags f) T1 base ty els [] [] tte rows xs tte' Hl) as (H1 & (xs1 & H2 & H3) & _). cbn [app] in H1, H2. subst xs1.
        destruct (Hmk ty xs (Hin ty (or_introl eq_refl)) Edim) as (g & Hg); [symmetry; exact (Forall2_length' _ _ _ H3)|]. rewrite H1, Hg. cbn [bind]. apply IH. intros; apply Hin; now right.
      - apply IH. intros; apply Hin; now right. }
    destruct (HG h ([], 0, [])) as (r & Hr); [intros ty; now rewrite Hh|]. rewrite Hr. cbn [bind]. eauto.
  Qed.
  Lemma represents_wf f d nrs groups : well_formed R kind dimensions fvi shuffle vertex_count node_count f d -> represents R kind dimensions fvi shuffle flip_matrix f d nrs groups -> has_rows groups /\ faces_wf groups.
  Proof.
    intros (_ & Hw) (_ & tys & (Ho1 & _ & Ho3 & _) & Hl & Hg).
    assert (Hgrp : forall g grp, nth_error groups g = Some grp -> exists ty l, nth_error tys g = Some ty /\ nth_error nrs g = Some l /\ group_of R kind dimensions fvi shuffle flip_matrix f ty l grp).
    { intros g grp Hgg. destruct (nth_error tys g) as [ty|] eqn:Ety; [|exfalso; apply nth_error_None in Ety; assert (g < length groups) by (apply nth_error_Some; congruence); lia]. destruct (Forall2_nth_error _ _ _ _ _ Ho1 Ety) as (l & Hnl & _). exists ty, l. eauto. }
    split.
    - apply Forall_forall. intros grp Hin. apply In_nth_error in Hin. destruct Hin as (g & Hgg). destruct (Hgrp g grp Hgg) as (ty & l & _ & _ & vi & V1 & _ & V3 & V4 & _). exists vi. split; [exact V1|unfold nelements; congruence].
    - intros g grp e row ref k Hgg (grp' & vi' & G1 & G2 & _ & G3) Hr Hk. assert (grp' = grp) by congruence. subst grp'. destruct (Hgrp g grp Hgg) as (ty & l & Hty & Hnl & vi & V1 & V2 & V3 & V4 & V5). assert (vi' = vi) by congruence. subst vi'.
      destruct (nth_error l e) as [nr|] eqn:Enr; [|exfalso; apply nth_error_None in Enr; assert (e < length vi) by (apply nth_error_Some; congruence); lia]. destruct (V5 e nr Enr) as (el & ts & row' & x & Hfe & Hel & Hrow & _ & Ha). assert (row' = row) by congruence. subst row'.
      pose proof (proj1 (Ho3 ty) (nth_error_In _ _ Hty)) as (Hdim & _). rewrite V2 in Hr. destruct (Hw nr el ts Hfe ltac:(congruence)) as (W1 & W2 & _). unfold arranged in Ha. rewrite Hel in *. unfold known_type in W1. destruct (kind ty); [| |destruct Ha].
      + destruct W1 as (_ & W1). assert (Hlr : length row = length (ge_verts el)). { destruct (dimensions ty =? 2); [destruct Ha as (x0 & _ & Hfl & _); exact Hfl|destruct Ha as (-> & _); reflexivity]. } rewrite Hlr, W2. exact (W1 ref k Hr Hk).
      + destruct W1 as (_ & W1). destruct Ha as (Ha & _). rewrite <- (Forall2_length' _ _ _ Ha). exact (W1 ref k Hr Hk).
  Qed.

  Lemma get_mesh_total f s d : received R f s -> numbered R f -> consistent_tags (gf_tags f) -> well_formed R kind dimensions fvi shuffle vertex_count node_count f d ->
    (forall l t, In t (tag_order l) <-> In t l) ->
    (gf_tags f <> [] -> forall nrs groups, represents R kind dimensions fvi shuffle flip_matrix f d nrs groups -> at_most_two groups /\ exists g, In g groups /\ eg_fvi g <> []) ->
    exists m tte, get_mesh s = Ok (m, tte).
  Proof.
    intros Hrec Hnum Hc Hwf Hto Hfac. pose proof Hrec as ((pts & P1 & P2 & P3) & (els & E1 & E2 & E3) & T1 & T2). unfold GmshModel.get_mesh. rewrite E1. cbn [ep_elems]. destruct (histogram_ok els) as (h & Hh1 & Hh2). rewrite Hh1. cbn [bind].
    pose proof Hwf as (Hd & Hw). destruct Hd as ((nr & e & ts & Hfe & Hdim) & Hmax). destruct (firsts_spec els) as (_ & Hin).
    assert (Hmem : In (ge_type e) (firsts els)) by (apply Hin; exists (e, ts); split; [apply E3 in Hfe; exact (nth_error_In _ _ Hfe)|reflexivity]).
    assert (Hh0 : length h =? 0 = false) by (rewrite <- Hh2 in Hmem; destruct h; [destruct Hmem|reflexivity]). rewrite Hh0. cbn [negb guard bind]. rewrite P1. rewrite <- E1.
    assert (Hbulk : fold_right Nat.max 0 (map (fun tn : nat * nat => dimensions (fst tn)) h) = d).
    { assert (Hm1 : map (fun tn : nat * nat => dimensions (fst tn)) h = map dimensions (firsts els)) by (rewrite <- Hh2, map_map; reflexivity). rewrite Hm1. destruct (fold_max_spec (map dimensions (firsts els))) as (H1 & H2); [intros E; apply map_eq_nil in E; rewrite E in Hmem; destruct Hmem|].
      apply in_map_iff in H1. destruct H1 as (ty & Hty & H1). apply Hin in H1. destruct H1 as ((e', ts') & He & Ht). apply In_nth_error in He. destruct He as (nr' & Hnr). apply E3 in Hnr. pose proof (Hmax nr' e' ts' Hnr) as Hle. unfold type_of in Ht. cbn [fst] in Ht. rewrite Ht, Hty in Hle.
      pose proof (proj1 (Forall_forall _ _) H2 _ (in_map dimensions _ _ Hmem)) as Hge. cbn beta in Hge. lia. }
    rewrite Hbulk.
    assert (Hft : exists ft, face_tags d (rc_elems R s) (rc_tags R s) = Ok ft).
    { unfold face_tags. rewrite E1. cbn [ep_elems ep_markers]. rewrite combine_conv. clear -T1. generalize (@nil (list nat * list btag)). induction els as [|(e, ts) els IH]; intros m0; [eexists; reflexivity|]. cbn [map foldM]. unfold conv at 1 2. cbn [fst snd]. destruct (length (tp_tags (rc_tags R s)) =? 0); cbn [bind]; [apply IH|]. rewrite (marker_tags_nds (rc_tags R s) (gf_tags f) ts T1). cbn [bind]. apply IH. }
    destruct Hft as (ft & Hft). rewrite Hft. cbn [bind].
    set (amb := match pts with [] => 0 | p :: _ => length p end).
    assert (Hamb : forall i p, In (i, p) (gf_nodes f) -> length p = amb). { intros i p Hip. pose proof (proj1 (P3 i p) Hip) as Hi. unfold amb. destruct pts as [|q pts]; [destruct i; discriminate Hi|]. destruct Hnum as (_ & _ & Hlen). apply (Hlen i p 0 q); [exact Hip|]. now apply P3. }
    destruct (build_groups_total f els d pts amb (rc_tags R s) h (rc_elems R s) Hwf E3 P2) as ((groups, tte) & Hbg); [intros p Hp; apply In_nth_error in Hp; destruct Hp as (i & Hi); apply P3 in Hi; exact (Hamb i p Hi)|exact T1|exact E1|exact Hh2|]. rewrite Hbg. cbn [bind].
    assert (Hm : forall b fl, (match fl with Available l => exists l', complete_facial_adjacency l = Ok l' | _ => True end) -> exists m, make_mesh (Some pts) groups Pending fl (Some b) 0 0 0 = Ok m (A := mesh (enodes R) A (point R))).
    { intros b fl Hfl. unfold make_mesh. destruct fl as [| |l]; [destruct b; eexists; reflexivity|destruct b; eexists; reflexivity|]. destruct Hfl as (l' & Hl'). destruct b; cbn [none_to_false truthy]; rewrite Hl'; cbn [bind]; eexists; reflexivity. }
    assert (Hcnt : forall b : bool, exists facial, (if b && negb (length (tp_tags (rc_tags R s)) =? 0) then f0 <- compute_facial_adjacency aff_id tag_order (Some ft) groups ;; Ok (Available f0) else Ok Pending) = Ok facial /\ match facial with Available l => exists l', complete_facial_adjacency l = Ok l' | _ => True end).
    { intros b. destruct (b && negb (length (tp_tags (rc_tags R s)) =? 0)) eqn:Eb; [|exists Pending; auto]. apply andb_prop in Eb. destruct Eb as (_ & Eb). assert (Htg : gf_tags f <> []) by (intros E; apply T2 in E; rewrite E in Eb; discriminate Eb).
      destruct (face_tags_ok f s els d ft Hrec Htg Hc E3 E1 Hft) as (K1 & K2 & _).
      pose proof (build_groups_ok amb pts (rc_tags R s) (gf_tags f) T1 d (rc_elems R s) els h groups tte ltac:(now rewrite E1) ltac:(now rewrite E1) Hbg) as (HF & _). rewrite Hh2 in HF.
      pose proof (groups_represent f els d pts amb groups E3 (proj1 Hwf) P3 Hamb HF) as Hrep. destruct (represents_wf f d _ groups Hwf Hrep) as (W1 & W2). destruct (Hfac Htg _ _ Hrep) as (W3 & W4).
      destruct (C06_boundary_tags aff_id tag_order groups ft Hto W1 W2 W4 W3 (key_distinct_keys ft K1)) as (fags & Hf & _).
      { intros k ts0 t Hk Ht Hs. destruct (K2 k ts0 t Hk Ht) as (n & ->). destruct Hs as [Hs|[Hs|Hs]]; discriminate Hs. }
      rewrite Hf. cbn [bind]. exists (Available fags). split; [reflexivity|]. exists fags.
      unfold compute_facial_adjacency in Hf. destruct groups as [|g0 groups]; [injection Hf as <-; reflexivity|]. apply bind_ok in Hf. destruct Hf as (pairs & _ & Hf). cbn zeta in Hf. apply bind_ok in Hf. destruct Hf as (idp & _ & Hf). apply bind_ok in Hf. destruct Hf as (fags0 & _ & Hf). exact (complete_idempotent _ _ Hf). }
    match goal with |- context [if ?b && _ then _ else _] => destruct (Hcnt b) as (facial & Hf1 & Hf2); rewrite Hf1; cbn [bind]; destruct (Hm b facial Hf2) as (m & Hm'); rewrite Hm' end. cbn [bind]. eauto.
  Qed.
End GetMesh.

(** ** Conflicting tags *)
Lemma receive_conflict R evs : forall s n e x,
  foldM (step_node R) (node_events R evs) (rc_nodes R s) = Ok n -> foldM step_elem (elem_events R evs) (rc_elems R s) = Ok e -> foldM step_tag (tag_events R evs) (rc_tags R s) = Err x ->
  foldM (step R) evs s = Err x.
Proof.
  induction evs as [|ev evs IH]; intros s n e x Hn He Ht; [discriminate Ht|]. unfold node_events, elem_events, tag_events in *. cbn [flat_map] in *. destruct ev as [ev|ev|ev]; cbn [app foldM] in *; unfold step at 1.
  - apply bind_ok in Hn. destruct Hn as (n1 & H1 & Hn). rewrite H1. cbn [bind]. exact (IH (mk_recv R n1 (rc_elems R s) (rc_tags R s)) n e x Hn He Ht).
  - apply bind_ok in He. destruct He as (e1 & H1 & He). rewrite H1. cbn [bind]. exact (IH (mk_recv R (rc_nodes R s) e1 (rc_tags R s)) n e x Hn He Ht).
  - destruct (step_tag (rc_tags R s) ev) as [t1|] eqn:E1; cbn [bind] in Ht |- *; [|injection Ht as ->; reflexivity]. exact (IH (mk_recv R (rc_nodes R s) (rc_elems R s) t1) n e x Hn He Ht).
Qed.
