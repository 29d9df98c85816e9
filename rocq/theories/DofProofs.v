(** * DofProofs: proofs about DOF arrays *)
From Coq Require Import List Arith Bool Reals Lia Lra.
From Verif Require Import Np NpFacts DofModel DofSpec.
Import ListNotations.

(** ** Pickling *)
Section Pickle.
  Context {D Tag : Type}.
  Variable rethaw : nat -> @leaf D Tag -> @leaf D Tag.
  Variables taggable has_axes : nat -> bool.
  Variable tag_union : list Tag -> list Tag -> list Tag.

  Lemma upd_app {X} (l l' : list X) x y : upd (l ++ x :: l') (length l) y = l ++ y :: l'.
  Proof. induction l as [|z l IH]; cbn; [reflexivity|]. now f_equal. Qed.

  (** Tagging all axes of an array without axis tags *)
  Lemma tag_axes (Hu : forall t, tag_union [] t = t) ax : forall done (l : @leaf D Tag), lf_axes l = Some (done ++ repeat [] (length ax)) ->
    foldM (fun l ia => tag_axis tag_union (fst ia) (snd ia) l) (enumerate_from (length done) ax) l =
    Ok (mk_leaf (lf_data l) (lf_ndim l) (lf_tags l) (Some (done ++ ax))).
  Proof.
    induction ax as [|t ax IH]; intros done l Hl.
    - cbn in Hl |- *. destruct l as [d n ts axs]; cbn in *. now rewrite Hl.
    - assert (E : tag_axis tag_union (length done) t l = Ok (mk_leaf (lf_data l) (lf_ndim l) (lf_tags l) (Some (done ++ t :: repeat [] (length ax))))).
      { unfold tag_axis. rewrite Hl. cbn [length repeat].
        unfold get. rewrite nth_error_app2, Nat.sub_diag by lia. cbn [nth_error bind].
        unfold put. rewrite app_length. cbn [length]. rewrite (proj2 (Nat.ltb_lt _ _)) by lia. cbn [bind]. now rewrite upd_app, Hu. }
      rewrite enumerate_from_cons. cbn [foldM fst snd]. rewrite E. cbn [bind].
      specialize (IH (done ++ [t]) (mk_leaf (lf_data l) (lf_ndim l) (lf_tags l) (Some ((done ++ [t]) ++ repeat [] (length ax))))).
      rewrite app_length in IH. cbn [length] in IH. rewrite Nat.add_1_r in IH. cbn [lf_data lf_ndim lf_tags lf_axes] in IH.
      replace (done ++ t :: repeat [] (length ax)) with ((done ++ [t]) ++ repeat [] (length ax)) by (rewrite <- app_assoc; reflexivity).
      rewrite IH by reflexivity. now rewrite <- app_assoc.
  Qed.

  Lemma tag_no_axes ias (l : @leaf D Tag) : lf_axes l = None -> foldM (fun l ia => tag_axis tag_union (fst ia) (snd ia) l) ias l = Ok l.
  Proof. intros H. induction ias as [|ia ias IH]; cbn [foldM]; auto. replace (tag_axis tag_union (fst ia) (snd ia) l) with (Ok l) by (unfold tag_axis; now rewrite H). exact IH. Qed.

  Lemma setstate_ok (Hu : forall t, tag_union [] t = t) q (data : list (D * nat)) tags axs :
    length data = length tags -> length tags = length axs -> (forall i d ax, nth_error data i = Some d -> nth_error axs i = Some ax -> length ax = snd d) ->
    exists ls, setstate taggable has_axes tag_union (Some q) (PDict data tags axs) = Ok (mk_dof (Some q) ls) /\ length ls = length data /\
      forall i d t ax, nth_error data i = Some d -> nth_error tags i = Some t -> nth_error axs i = Some ax ->
        nth_error ls i = Some (mk_leaf (fst d) (snd d) (if taggable q then Some t else None) (if has_axes q then Some ax else None)).
  Proof.
    intros H1 H2 H3. cbn [setstate]. rewrite (proj2 (Nat.eqb_eq _ _) H1), (proj2 (Nat.eqb_eq _ _) H2). cbn [andb guard].
    change (bind (Ok tt) ?f) with (f tt). cbv beta. match goal with |- context [mapM ?g (seq 0 (length data))] => set (f := g) end.
    assert (Hf : forall i d t ax, nth_error data i = Some d -> nth_error tags i = Some t -> nth_error axs i = Some ax ->
              f i = Ok (mk_leaf (fst d) (snd d) (if taggable q then Some t else None) (if has_axes q then Some ax else None))).
    { intros i d t ax Hd Ht Ha. unfold f, get. rewrite Hd, Ht, Ha. cbn [bind]. rewrite (H3 i d ax Hd Ha), Nat.eqb_refl. cbn [guard bind].
      unfold with_new_tags, from_numpy. destruct (taggable q); destruct (has_axes q); cbn [lf_tags lf_data lf_ndim lf_axes].
      - rewrite (tag_axes Hu ax []); [reflexivity|]. cbn. now rewrite (H3 i d ax Hd Ha).
      - now rewrite tag_no_axes.
      - rewrite (tag_axes Hu ax []); [reflexivity|]. cbn. now rewrite (H3 i d ax Hd Ha).
      - now rewrite tag_no_axes. }
    destruct (mapM_total f (seq 0 (length data))) as (ls & Hls).
    { intros i Hi. apply in_seq in Hi.
      destruct (nth_error data i) as [d|] eqn:E1; [|apply nth_error_None in E1; lia]. destruct (nth_error tags i) as [t|] eqn:E2; [|apply nth_error_None in E2; lia].
      destruct (nth_error axs i) as [ax|] eqn:E3; [|apply nth_error_None in E3; lia]. rewrite (Hf i d t ax); eauto. }
    rewrite Hls. cbn [bind]. exists ls. split; auto. apply mapM_ok in Hls. split; [rewrite <- (Forall2_length' _ _ _ Hls); apply seq_length|].
    intros i d t ax Hd Ht Ha. assert (Hi : i < length data) by (apply nth_error_Some; congruence).
    assert (Es : nth_error (seq 0 (length data)) i = Some i).
    { rewrite (nth_error_nth' _ 0) by (rewrite seq_length; lia). now rewrite seq_nth. }
    destruct (Forall2_nth_error _ _ _ _ _ Hls Es) as (l & Hl & El). rewrite (Hf i d t ax Hd Ht Ha) in El. congruence.
  Qed.

  Lemma getstate_ok p own (x : @dofarray D Tag) : rethaw_ok has_axes rethaw -> df_actx x = Some own ->
    exists axs, getstate rethaw (Some p) x = Ok (PDict (map (fun l => (lf_data l, lf_ndim l)) (map (rethaw p) (df_data x)))
        (map (fun l => match lf_tags l with Some t => t | None => [] end) (map (rethaw p) (df_data x))) axs) /\
      axs = map (fun l => match lf_axes l with Some ax => ax | None => repeat [] (lf_ndim l) end) (map (rethaw p) (df_data x)).
  Proof.
    intros Hr Ho. cbn [getstate]. rewrite Ho.
    assert (E : (if own =? p then map (rethaw own) (df_data x) else map (rethaw p) (df_data x)) = map (rethaw p) (df_data x)).
    { destruct (own =? p) eqn:E; auto. apply Nat.eqb_eq in E. now subst. }
    cbn zeta. rewrite E. eexists. split; [|reflexivity].
    set (ary := map (rethaw p) (df_data x)).
    assert (Hax : forall l, In l ary -> match lf_axes l with Some _ => has_axes p = true | None => has_axes p = false end).
    { intros l Hl. unfold ary in Hl. apply in_map_iff in Hl as (l0 & <- & _). destruct (Hr p l0) as (_ & _ & H). destruct (lf_axes (rethaw p l0)); tauto. }
    clearbody ary. destruct ary as [|l0 ary']; [reflexivity|]. pose proof (Hax l0 (or_introl eq_refl)) as H0.
    destruct (lf_axes l0) as [ax0|] eqn:E0.
    - assert (G : mapM (fun l => match lf_axes l with Some a => Ok a | None => Err AttributeError end) (l0 :: ary') =
                  Ok (map (fun l => match lf_axes l with Some ax => ax | None => repeat [] (lf_ndim l) end) (l0 :: ary'))).
      { apply mapM_ok. clear E0 E. revert Hax. generalize (l0 :: ary'). induction l as [|l ls IH]; intros Hax; cbn [map]; constructor.
        - specialize (Hax l (or_introl eq_refl)). destruct (lf_axes l); [reflexivity|congruence].
        - apply IH. intros l' Hl'. apply Hax. now right. }
      rewrite G. reflexivity.
    - cbn [bind]. f_equal. f_equal. apply map_ext_in. intros l Hl. specialize (Hax l Hl). destruct (lf_axes l); [congruence|reflexivity].
  Qed.

  Lemma pickle_roundtrip (Hu : forall t, tag_union [] t = t) p q own (x : @dofarray D Tag) : rethaw_ok has_axes rethaw -> df_actx x = Some own ->
    exists s ls, getstate rethaw (Some p) x = Ok s /\ setstate taggable has_axes tag_union (Some q) s = Ok (mk_dof (Some q) ls) /\
      Forall2 (same_array taggable has_axes q) (map (rethaw p) (df_data x)) ls /\ map lf_data ls = map lf_data (df_data x).
  Proof.
    intros Hr Ho. destruct (getstate_ok p own x Hr Ho) as (axs & Hg & Ha). rewrite Hg. set (ary := map (rethaw p) (df_data x)) in *.
    destruct (setstate_ok Hu q (map (fun l => (lf_data l, lf_ndim l)) ary)
                (map (fun l => match lf_tags l with Some t => t | None => [] end) ary) axs) as (ls & Hs & Hl & Hn).
    - now rewrite !map_length.
    - now rewrite Ha, !map_length.
    - intros i d ax. rewrite Ha, !nth_error_map. destruct (nth_error ary i) as [l|] eqn:E; [|discriminate]. cbn [option_map]. intros [= <-] [= <-]. cbn [snd].
      apply nth_error_In in E. unfold ary in E. apply in_map_iff in E as (l0 & <- & _). destruct (Hr p l0) as (_ & H2 & H3).
      destruct (lf_axes (rethaw p l0)); [rewrite H2; tauto|apply repeat_length].
    - eexists _, ls. split; [reflexivity|]. split; [exact Hs|]. rewrite map_length in Hl.
      assert (HF : Forall2 (same_array taggable has_axes q) ary ls).
      { apply Forall2_intro_nth; [auto|]. intros i l l' Hi Hi'. specialize (Hn i (lf_data l, lf_ndim l) (match lf_tags l with Some t => t | None => [] end)
              (match lf_axes l with Some ax => ax | None => repeat [] (lf_ndim l) end)).
        rewrite Ha, !nth_error_map, Hi in Hn. cbn [option_map] in Hn. specialize (Hn eq_refl eq_refl eq_refl). rewrite Hn in Hi'. injection Hi' as <-.
        unfold same_array. cbn [lf_data lf_ndim lf_tags lf_axes fst snd]. auto. }
      split; auto. transitivity (map lf_data ary).
      + clear - HF. induction HF as [|l l' ary ls H HF IH]; cbn [map]; auto. destruct H as (-> & _). now f_equal.
      + unfold ary. rewrite map_map. apply map_ext. intros l. apply (Hr p l).
  Qed.
End Pickle.

(** ** Programs *)
Lemma exec_restores {Out} (p : prog Out) : forall tls, fst (fst (exec p tls)) = tls.
Proof.
  induction p as [a|p IHp q IHq|actx p IHp|p IHp q IHq]; intros tls; cbn [exec].
  - now destruct (a tls).
  - specialize (IHp tls). destruct (exec p tls) as [[tls1 o1] [e|]]; cbn in IHp; subst tls1; auto.
    specialize (IHq tls). destruct (exec q tls) as [[tls2 o2] e]; cbn in IHq |- *. congruence.
  - destruct tls; [reflexivity|]. now destruct (exec p actx) as [[? ?] ?].
  - specialize (IHp tls). destruct (exec p tls) as [[tls1 o1] [e|]]; cbn in IHp; subst tls1; auto.
    specialize (IHq tls). destruct (exec q tls) as [[tls2 o2] e']; cbn in IHq |- *. congruence.
Qed.

(** Everything inside the context is done with the context given *)
Lemma exec_sees {Out} (f : prog (option nat * Out) -> Prop) a :
  (forall p, f p -> match p with Act g => forall tls o, g tls = Ok o -> fst o = tls | Seq p q | Try p q => f p /\ f q | With _ p => f p end) ->
  forall p, f p -> Forall (fun o => fst o = Some a) (snd (fst (exec p (Some a)))).
Proof.
  intros Hf. induction p as [g|p IHp q IHq|actx p IHp|p IHp q IHq]; intros Hp; pose proof (Hf _ Hp) as H; cbn [exec].
  - destruct (g (Some a)) as [o|e] eqn:E; constructor; auto.
  - destruct H as (H1 & H2). specialize (IHp H1). specialize (IHq H2). pose proof (exec_restores p (Some a)) as Hr.
    destruct (exec p (Some a)) as [[tls1 o1] [e|]]; cbn in *; auto. subst tls1. destruct (exec q (Some a)) as [[tls2 o2] e]; cbn in *.
    apply Forall_app. auto.
  - constructor.
  - destruct H as (H1 & H2). specialize (IHp H1). specialize (IHq H2). pose proof (exec_restores p (Some a)) as Hr.
    destruct (exec p (Some a)) as [[tls1 o1] [e|]]; cbn in *; auto. subst tls1. destruct (exec q (Some a)) as [[tls2 o2] e']; cbn in *.
    apply Forall_app. auto.
Qed.

Lemma threads_independent t evs : forall s,
  map snd (filter (fun tr => fst tr =? t) (run_threads s evs)) = run_thread (s t) (map snd (filter (fun te => fst te =? t) evs)).
Proof.
  induction evs as [|[u e] evs IH]; intros s; cbn [run_threads filter fst]; [reflexivity|].
  destruct (tstep (s u) e) as [v r] eqn:E. cbn [filter fst]. destruct (u =? t) eqn:Eu.
  - apply Nat.eqb_eq in Eu. subst u. cbn [map snd run_thread]. rewrite E, IH. unfold tset. now rewrite Nat.eqb_refl.
  - rewrite IH. unfold tset. rewrite Nat.eqb_sym, Eu. reflexivity.
Qed.

(** ** Serialisation *)
Lemma deserialize_iff {X} (it : list (nat * X)) d :
  deserialize_dof true it = Ok d <-> map fst it = seq 0 (length it) /\ d = map snd it.
Proof.
  unfold deserialize_dof, enumerate. generalize 0 as k. revert d. induction it as [|[i v] it IH]; intros d k.
  - cbn; split; [intros [= <-]; auto|intros (_ & ->); reflexivity].
  - rewrite enumerate_from_cons. cbn [mapM map length seq fst snd negb orb]. destruct (k =? i) eqn:E; cbn [guard bind].
    + apply Nat.eqb_eq in E. subst i. specialize (IH (match d with [] => [] | _ :: d => d end) (S k)).
      destruct (mapM _ _) as [d'|e]; cbn [bind].
      * split.
        -- intros [= <-]. destruct IH as [IH _]. destruct (IH eq_refl) as (H1 & H2). split; congruence.
        -- intros ([= H1] & ->). destruct IH as [_ IH]. cbn in IH. specialize (IH (conj H1 eq_refl)). congruence.
      * split; [discriminate|]. intros ([= H1] & ->). destruct IH as [_ IH]. cbn in IH. specialize (IH (conj H1 eq_refl)). discriminate.
    + apply Nat.eqb_neq in E. split; [discriminate|]. intros ([= H1 _] & _). congruence.
Qed.

Lemma deserialize_error {X} (it : list (nat * X)) : map fst it <> seq 0 (length it) -> deserialize_dof true it = Err ValueError.
Proof.
  intros H. destruct (deserialize_dof true it) as [d|e] eqn:E; [apply deserialize_iff in E; tauto|]. f_equal. clear H. revert E.
  unfold deserialize_dof. generalize (enumerate it). induction l as [|[i iv] l IH]; cbn [mapM]; [discriminate|].
  cbn [fst snd negb orb]. destruct (i =? fst iv); cbn [guard bind]; [|congruence]. destruct (mapM _ l); cbn [bind]; [discriminate|]. intros [= ->]. now apply IH.
Qed.

Lemma enumerate_fst {X} (l : list X) : map fst (enumerate l) = seq 0 (length l).
Proof. unfold enumerate. generalize 0. induction l as [|x l IH]; intros k; [reflexivity|]. rewrite enumerate_from_cons. cbn. f_equal; auto. Qed.
Lemma enumerate_snd' {X} (l : list X) : map snd (enumerate l) = l.
Proof. unfold enumerate. generalize 0. induction l as [|x l IH]; intros k; [reflexivity|]. rewrite enumerate_from_cons. cbn. f_equal; auto. Qed.
Lemma enumerate_length' {X} (l : list X) : length (enumerate l) = length l.
Proof. rewrite <- (map_length fst), enumerate_fst. apply seq_length. Qed.

(** ** Containers *)
Section ValueInd.
  Context {X : Type}.
  Variable Pr : value X -> Prop.
  Hypothesis Hnum : forall x, Pr (VNum x).
  Hypothesis Hdof : forall a d, Pr (VDof a d).
  Hypothesis Hcont : forall kids, Forall (fun kv => Pr (snd kv)) kids -> Pr (VCont kids).
  Hypothesis Hother : Pr VOther.
  Fixpoint value_induction (v : value X) : Pr v :=
    match v with
    | VNum x => Hnum x
    | VDof a d => Hdof a d
    | VCont kids => Hcont kids ((fix go (kids : list (nat * value X)) : Forall (fun kv => Pr (snd kv)) kids :=
        match kids with [] => Forall_nil _ | kv :: kids => Forall_cons _ (value_induction (snd kv)) (go kids) end) kids)
    | VOther => Hother
    end.
End ValueInd.

Section Containers.
  Context {X : Type}.

  Lemma rec_map_compose (f g : value X -> value X) v : rec_map g (rec_map f v) = rec_map (fun l => rec_map g (f l)) v.
  Proof.
    induction v as [x|a d|kids IH|] using value_induction; cbn [rec_map]; auto.
    f_equal. rewrite map_map. apply map_ext_in. intros kv Hin. cbn [fst snd]. rewrite Forall_forall in IH. now rewrite IH.
  Qed.

  Lemma rec_map_id v : rec_map (fun l : value X => l) v = v.
  Proof.
    induction v as [x|a d|kids IH|] using value_induction; cbn [rec_map]; auto.
    f_equal. rewrite <- (map_id kids) at 2. apply map_ext_in. intros [k u] Hin. cbn [fst snd]. rewrite Forall_forall in IH. f_equal. exact (IH (k, u) Hin).
  Qed.

  Lemma rec_map_leaves (f : value X -> value X) v : leaves (rec_map f v) = flat_map (fun l => leaves (f l)) (leaves v).
  Proof.
    induction v as [x|a d|kids IH|] using value_induction; cbn [rec_map leaves flat_map]; try (now rewrite app_nil_r).
    induction kids as [|kv kids IHk]; cbn [map flat_map snd]; [reflexivity|]. apply Forall_cons_iff in IH as (H1 & H2).
    rewrite flat_map_app, H1. f_equal. now apply IHk.
  Qed.

  Lemma rec_map_shape (f : value X -> value X) v : (forall l, (forall kids, l <> VCont kids) -> shape_of (f l) = Leaf) -> shape_of (rec_map f v) = shape_of v.
  Proof.
    intros Hf. induction v as [x|a d|kids IH|] using value_induction; cbn [rec_map shape_of]; try (apply Hf; discriminate).
    f_equal. rewrite map_map. apply map_ext_in. intros kv Hin. cbn [fst snd]. rewrite Forall_forall in IH. now rewrite IH.
  Qed.
End Containers.

(** ** Norms *)
Section Norm.
  Local Open Scope R_scope.

  Lemma rpow_nonneg p x : 0 <= rpow p x.
  Proof. unfold rpow. destruct (Req_EM_T x 0); [lra|]. left. apply exp_pos. Qed.
  Lemma rpow_root p x : 0 < p -> 0 <= x -> rpow p (rpow (1 / p) x) = x.
  Proof.
    intros Hp Hx. unfold rpow at 2. destruct (Req_EM_T x 0) as [->|Hne].
    - unfold rpow. destruct (Req_EM_T 0 0); lra.
    - unfold rpow. destruct (Req_EM_T (Rpower x (1 / p)) 0) as [E|_]; [exfalso; pose proof (exp_pos (1 / p * ln x)); unfold Rpower in E; lra|].
      rewrite Rpower_mult. replace (1 / p * p) with 1 by (field; lra). apply Rpower_1. lra.
  Qed.

  Lemma rsum_cons x l : rsum (x :: l) = x + rsum l.
  Proof. reflexivity. Qed.
  Lemma rsum_nil : rsum [] = 0.
  Proof. reflexivity. Qed.
  Lemma rsum_app l l' : rsum (l ++ l') = rsum l + rsum l'.
  Proof. induction l as [|x l IH]; cbn [app]; [rewrite rsum_nil; lra|]. rewrite !rsum_cons, IH. lra. Qed.
  Lemma rsum_nonneg l : Forall (fun x => 0 <= x) l -> 0 <= rsum l.
  Proof. induction 1 as [|x l Hx H IH]; [rewrite rsum_nil; lra|]. rewrite rsum_cons. lra. Qed.
  Lemma sum0_rsum l : sum0 0 Rplus l = rsum l.
  Proof.
    unfold sum0. assert (G : forall l a, fold_left Rplus l a = a + rsum l).
    { induction l0 as [|x l0 IH]; intros a; cbn [fold_left]; [rewrite rsum_nil; lra|]. rewrite IH, rsum_cons. lra. }
    rewrite G. lra.
  Qed.

  Lemma reduce1_best (f : R -> R -> R) (le : R -> R -> Prop) l :
    (forall a, le a a) -> (forall a b c, le a b -> le b c -> le a c) -> (forall a b, le a (f a b) /\ le b (f a b) /\ (f a b = a \/ f a b = b)) ->
    l <> [] -> exists r, reduce1 f l = Ok r /\ In r l /\ Forall (fun x => le x r) l.
  Proof.
    intros Hr Ht Hf Hne. destruct l as [|x l]; [congruence|]. cbn [reduce1]. exists (fold_left f l x). split; auto.
    clear Hne. revert x. induction l as [|y l IH]; intros x; cbn [fold_left].
    - split; [now left|]. constructor; auto.
    - destruct (IH (f x y)) as (Hin & HF). destruct (Hf x y) as (H1 & H2 & H3). apply Forall_cons_iff in HF as (H4 & H5). split.
      + destruct Hin as [Hin|Hin]; [|now right; right]. rewrite <- Hin. destruct H3 as [->| ->]; cbn; auto.
      + constructor; [eapply Ht; eauto|]. constructor; [eapply Ht; eauto|]. auto.
  Qed.

  Lemma Rmax_best l : l <> [] -> exists r, reduce1 Rmax l = Ok r /\ In r l /\ Forall (fun x => x <= r) l.
  Proof.
    apply reduce1_best; [intros; lra|intros; lra|]. intros a b. split; [apply Rmax_l|]. split; [apply Rmax_r|]. unfold Rmax. destruct (Rle_dec a b); auto.
  Qed.
  Lemma Rmin_best l : l <> [] -> exists r, reduce1 Rmin l = Ok r /\ In r l /\ Forall (fun x => r <= x) l.
  Proof.
    intros H. destruct (reduce1_best Rmin (fun a b => b <= a) l) as (r & Hr); [intros; lra|intros; lra| |auto|eauto].
    intros a b. split; [apply Rmin_l|]. split; [apply Rmin_r|]. unfold Rmin. destruct (Rle_dec a b); auto.
  Qed.

  Context {X : Type}.
  Variable modulus : X -> R.
  Hypothesis modulus_nonneg : forall x, 0 <= modulus x.

  Definition positiveb (p : R) : bool := if Rlt_dec 0 p then true else false.
  Definition rootR (p x : R) : R := rpow (1 / p) x.
  Notation rnorm := (reduce_norm 0 Rplus Rmult Rmax Rmin sqrt rpow rootR positiveb).
  Notation lnorm := (leaf_norm 0 Rplus Rmult Rmax Rmin sqrt rpow rootR positiveb modulus).
  Notation nrec := (norm_rec 0 Rplus Rmult Rmax Rmin sqrt rpow rootR positiveb modulus).

  Lemma is_norm_reduce o ms : (match o with Two => True | Inf | NegInf => ms <> [] | Other p => 0 < p end) -> exists r, rnorm o ms = Ok r /\ is_norm o ms r.
  Proof.
    destruct o as [| | |p]; cbn [reduce_norm is_norm]; intros H.
    - eexists. split; [reflexivity|]. rewrite sum0_rsum. split; [apply sqrt_pos|]. apply sqrt_sqrt. apply rsum_nonneg.
      apply Forall_forall. intros y Hy. apply in_map_iff in Hy as (x & <- & _). nra.
    - apply Rmax_best. exact H.
    - apply Rmin_best. exact H.
    - unfold positiveb. destruct (Rlt_dec 0 p); [|contradiction]. eexists. split; [reflexivity|]. split; auto. split; [apply rpow_nonneg|].
      rewrite sum0_rsum. apply rpow_root; auto. apply rsum_nonneg. apply Forall_forall. intros y Hy. apply in_map_iff in Hy as (x & <- & _). apply rpow_nonneg.
  Qed.

  Lemma rnorm_sound o ms r : rnorm o ms = Ok r -> is_norm o ms r.
  Proof.
    intros H. destruct (is_norm_reduce o ms) as (r' & Hr & Hn); [|congruence].
    destruct o as [| | |p]; auto; cbn [reduce_norm] in H.
    - destruct ms; [discriminate|congruence].
    - destruct ms; [discriminate|congruence].
    - unfold positiveb in H. destruct (Rlt_dec 0 p); [auto|discriminate].
  Qed.

  Lemma lnorm_sound o xs r : lnorm o xs = Ok r -> is_norm o (map modulus xs) r.
  Proof.
    intros H. apply rnorm_sound. destruct o as [| | |p]; cbn [leaf_norm reduce_norm] in *; auto; destruct (map modulus xs); auto; discriminate.
  Qed.
  Lemma lnorm_total o xs : (match o with Two => True | Inf | NegInf => xs <> [] | Other p => 0 < p end) -> exists r, lnorm o xs = Ok r.
  Proof.
    intros H. destruct (is_norm_reduce o (map modulus xs)) as (r & Hr & _).
    - destruct o; auto; destruct xs; [congruence|discriminate|congruence|discriminate].
    - exists r. destruct o as [| | |p]; cbn [leaf_norm reduce_norm] in *; auto; destruct (map modulus xs); auto; discriminate.
  Qed.

  (** Norm of norms *)
  Lemma is_norm_concat o parts rs r : Forall2 (is_norm o) parts rs -> is_norm o rs r -> is_norm o (concat parts) r.
  Proof.
    intros HF Hr. destruct o as [| | |p]; cbn [is_norm] in *.
    - destruct Hr as (H0 & Hr). split; auto. rewrite Hr. clear Hr. induction HF as [|xs y parts rs (_ & H) HF IH]; cbn [concat map]; [reflexivity|].
      rewrite map_app, rsum_app, <- IH, <- H. reflexivity.
    - destruct Hr as (H1 & H2). split.
      + apply In_nth_error in H1 as (i & Hi). destruct (Forall2_nth_error_r _ _ _ _ _ HF Hi) as (xs & Hxs & Hn & _). apply in_concat. exists xs. split; auto. now apply nth_error_In in Hxs.
      + apply Forall_forall. intros x Hx. apply in_concat in Hx as (xs & Hxs & Hx). apply In_nth_error in Hxs as (i & Hi).
        destruct (Forall2_nth_error _ _ _ _ _ HF Hi) as (y & Hy & _ & Hall). rewrite Forall_forall in Hall, H2. specialize (Hall x Hx). specialize (H2 y (nth_error_In _ _ Hy)). lra.
    - destruct Hr as (H1 & H2). split.
      + apply In_nth_error in H1 as (i & Hi). destruct (Forall2_nth_error_r _ _ _ _ _ HF Hi) as (xs & Hxs & Hn & _). apply in_concat. exists xs. split; auto. now apply nth_error_In in Hxs.
      + apply Forall_forall. intros x Hx. apply in_concat in Hx as (xs & Hxs & Hx). apply In_nth_error in Hxs as (i & Hi).
        destruct (Forall2_nth_error _ _ _ _ _ HF Hi) as (y & Hy & _ & Hall). rewrite Forall_forall in Hall, H2. specialize (Hall x Hx). specialize (H2 y (nth_error_In _ _ Hy)). lra.
    - destruct Hr as (Hp & H0 & Hr). split; auto. split; auto. rewrite Hr. clear Hr. induction HF as [|xs y parts rs (_ & _ & H) HF IH]; cbn [concat map]; [reflexivity|].
      rewrite map_app, rsum_app, <- IH, <- H. reflexivity.
  Qed.

  Lemma norm_single o x : 0 <= x -> (forall p, o = Other p -> 0 < p) -> is_norm o [x] x.
  Proof.
    intros Hx Hp. destruct o as [| | |p]; cbn [is_norm map]; rewrite ?rsum_cons, ?rsum_nil.
    - split; lra.
    - split; [now left|]. constructor; [lra|constructor].
    - split; [now left|]. constructor; [lra|constructor].
    - split; [now apply Hp|]. split; auto. lra.
  Qed.

  Fixpoint norm_kids (o : ord R) (kids : list (nat * value X)) (actx : option nat) : res (option nat * list R) :=
    match kids with
    | [] => Ok (actx, [])
    | kv :: kids => ar <- nrec o (snd kv) actx ;; p <- norm_kids o kids (fst ar) ;; Ok (fst p, snd ar :: snd p)
    end.
  Lemma norm_rec_cont o kids actx : nrec o (VCont kids) actx = (p <- norm_kids o kids actx ;; r <- rnorm o (snd p) ;; Ok (fst p, r)).
  Proof.
    cbn [norm_rec]. f_equal. revert actx. induction kids as [|kv kids IH]; intros actx; [reflexivity|]. cbn [norm_kids].
    destruct (nrec o (snd kv) actx) as [ar|]; cbn [bind]; auto. now rewrite IH.
  Qed.

  (** Soundness: the result is the norm of all entries *)
  Lemma norm_sound o (Ho : forall p, o = Other p -> 0 < p) v : forall actx a r, nrec o v actx = Ok (a, r) -> is_norm o (map modulus (entries v)) r.
  Proof.
    induction v as [x|a0 d|kids IH|] using value_induction; intros actx a r H.
    - cbn in H. injection H as <- <-. cbn. apply norm_single; auto.
    - destruct a0 as [a0|]; [|discriminate]. cbn [norm_rec] in H. destruct (guard _ _) as [[]|]; [|discriminate]. cbn [bind] in H.
      destruct (mapM (lnorm o) d) as [ns|] eqn:E; [|discriminate]. cbn [bind] in H. destruct (rnorm o ns) as [r'|] eqn:Er; [|discriminate]. cbn [bind] in H. injection H as <- <-.
      apply rnorm_sound in Er. cbn [entries]. rewrite concat_map. apply is_norm_concat with (rs := ns); auto. apply mapM_ok in E.
      clear - E. induction E; cbn [map]; constructor; auto. now apply lnorm_sound.
    - rewrite norm_rec_cont in H. destruct (norm_kids o kids actx) as [[a' ns]|] eqn:E; [|discriminate]. cbn [bind fst snd] in H.
      destruct (rnorm o ns) as [r'|] eqn:Er; [|discriminate]. cbn [bind] in H. injection H as <- <-. apply rnorm_sound in Er. cbn [entries].
      rewrite flat_map_concat_map, concat_map, map_map. apply is_norm_concat with (rs := ns); auto. clear Er.
      revert actx a' ns E. induction IH as [|kv kids Hk IH IHk]; intros actx a' ns E; cbn [norm_kids] in E; [injection E as <- <-; constructor|].
      destruct (nrec o (snd kv) actx) as [[a1 r1]|] eqn:E1; [|discriminate]. cbn [bind fst snd] in E. destruct (norm_kids o kids a1) as [[a2 ns2]|] eqn:E2; [|discriminate].
      cbn [bind fst snd] in E. injection E as <- <-. cbn [map]. constructor; eauto.
    - discriminate.
  Qed.

  Lemma in_context_cont a kids : in_context a (VCont kids) <-> Forall (fun kv : nat * value X => in_context a (snd kv)) kids.
  Proof.
    cbn [in_context]. induction kids as [|kv kids IH]; [split; auto; constructor|]. rewrite Forall_cons_iff. rewrite IH. tauto.
  Qed.
  Lemma no_empty_cont kids : no_empty (VCont kids) <-> kids <> [] /\ Forall (fun kv : nat * value X => no_empty (snd kv)) kids.
  Proof.
    cbn [no_empty]. assert (G : forall kids : list (nat * value X), (fix go (kids : list (nat * value X)) : Prop := match kids with [] => True | kv :: kids => no_empty (snd kv) /\ go kids end) kids <->
       Forall (fun kv : nat * value X => no_empty (snd kv)) kids).
    { clear kids. induction kids as [|kv kids IH]; [split; auto; constructor|]. rewrite Forall_cons_iff. rewrite IH. tauto. }
    now rewrite G.
  Qed.

  (** Completeness *)
  Lemma norm_total o ctx v : in_context ctx v -> supported o v -> forall actx, actx = None \/ actx = Some ctx ->
    exists a r, nrec o v actx = Ok (a, r) /\ (a = None \/ a = Some ctx).
  Proof.
    induction v as [x|a0 d|kids IH|] using value_induction; intros Hc Hs actx Ha.
    - exists actx, (modulus x). auto.
    - cbn [in_context] in Hc. subst a0. cbn [norm_rec].
      assert (Hg : match actx with Some b => (ctx =? b)%nat | None => true end = true) by (destruct Ha as [->| ->]; auto; apply Nat.eqb_refl).
      rewrite Hg. cbn [guard bind].
      destruct (mapM_total (lnorm o) d) as (ns & Hns).
      { intros xs Hxs. apply lnorm_total. destruct o; auto; cbn [supported no_empty] in Hs; destruct Hs as (_ & Hs); rewrite Forall_forall in Hs; auto. }
      rewrite Hns. cbn [bind]. apply mapM_ok, Forall2_length' in Hns.
      destruct (is_norm_reduce o ns) as (r & Hr & _).
      { destruct o; auto; cbn [supported no_empty] in Hs; destruct Hs as (Hs & _); intros ->; destruct d; [congruence|discriminate|congruence|discriminate]. }
      rewrite Hr. cbn [bind]. eauto.
    - apply in_context_cont in Hc. rewrite norm_rec_cont.
      assert (Hk : Forall (fun kv : nat * value X => supported o (snd kv)) kids).
      { destruct o; cbn [supported] in *; try (apply no_empty_cont in Hs; tauto); apply Forall_forall; auto. }
      assert (G : exists a ns, norm_kids o kids actx = Ok (a, ns) /\ length ns = length kids /\ (a = None \/ a = Some ctx)).
      { clear Hs. revert actx Ha Hc Hk. induction IH as [|kv kids Hv IH IHk]; intros actx Ha Hc Hk; cbn [norm_kids].
        - eauto.
        - apply Forall_cons_iff in Hc as (Hc1 & Hc2). apply Forall_cons_iff in Hk as (Hk1 & Hk2).
          destruct (Hv Hc1 Hk1 actx Ha) as (a1 & r1 & E1 & Ha1). rewrite E1. cbn [bind fst snd].
          destruct (IHk a1 Ha1 Hc2 Hk2) as (a2 & ns & E2 & El & Ha2). rewrite E2. cbn [bind fst snd]. eexists _, _. split; [reflexivity|]. cbn [length]. auto. }
      destruct G as (a & ns & E & El & Ha'). rewrite E. cbn [bind fst snd].
      destruct (is_norm_reduce o ns) as (r & Hr & _).
      { destruct o; auto; cbn [supported] in Hs; apply no_empty_cont in Hs as (Hs & _); intros ->; destruct kids; [congruence|discriminate|congruence|discriminate]. }
      rewrite Hr. cbn [bind]. eauto.
    - destruct Hc.
  Qed.
End Norm.

(** ** Shapes *)
Lemma check_iff groups shapes : check_dofarray groups (Some shapes) = Ok tt <-> Forall2 (fun g s => s = [fst g; snd g]) groups shapes.
Proof.
  cbn [check_dofarray]. destruct (length shapes =? length groups) eqn:E; cbn [guard bind].
  - apply Nat.eqb_eq in E. revert shapes E. induction groups as [|g groups IH]; intros [|s shapes] E; try discriminate.
    + split; [constructor|reflexivity].
    + cbn [combine mapM fst snd]. specialize (IH shapes ltac:(cbn in E; lia)). destruct (list_eq_dec Nat.eq_dec s [fst g; snd g]) as [Es|Es]; cbn [guard bind].
      * destruct (mapM _ (combine groups shapes)) eqn:Em; cbn [bind] in *.
        -- split; auto. intros _. constructor; auto. now apply IH.
        -- split; [discriminate|]. intros H. inversion H; subst. apply IH in H5. discriminate.
      * split; [discriminate|]. intros H. inversion H; subst. congruence.
  - apply Nat.eqb_neq in E. split; [discriminate|]. intros H. apply Forall2_length' in H. congruence.
Qed.
Lemma check_error groups shapes : ~ Forall2 (fun g s => s = [fst g; snd g]) groups shapes -> check_dofarray groups (Some shapes) = Err InconsistentDOFArray.
Proof.
  intros H. rewrite <- check_iff in H. revert H. cbn [check_dofarray]. destruct (length shapes =? length groups); cbn [guard bind]; [|auto].
  assert (G : forall l : list ((nat * nat) * list nat), match mapM (fun gs => guard (if list_eq_dec Nat.eq_dec (snd gs) [fst (fst gs); snd (fst gs)] then true else false) InconsistentDOFArray) l
           with Ok _ => True | Err e => e = InconsistentDOFArray end).
  { induction l as [|gs l IH]; cbn [mapM]; auto. destruct (list_eq_dec _ _ _); cbn [guard bind]; auto. destruct (mapM _ l); auto. }
  specialize (G (combine groups shapes)). destruct (mapM _ _); cbn [bind]; [congruence|]. now subst.
Qed.
