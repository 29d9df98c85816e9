(** * GmshRunProofs: lemmas about paths and axes. *)
From Coq Require Import List Arith Bool Lia.
From Verif Require Import Np NpFacts Lin GmshRunModel GmshRunSpec.
Import ListNotations.

Lemma components_slash : forall a acc b, components_from acc (a ++ slash :: b) = components_from acc a ++ components b.
Proof.
  induction a as [|c a IH]; intros acc b; cbn [app components_from]; change separator with slash.
  - now rewrite Nat.eqb_refl.
  - destruct (c =? slash); [rewrite IH, app_assoc; reflexivity|apply IH].
Qed.

Lemma split_last_app p : p = fst (split_last p) ++ snd (split_last p).
Proof.
  induction p as [|c p IH]; [reflexivity|]. cbn [split_last]. destruct (split_last p) as (h & t). cbn [fst snd] in IH.
  destruct h as [|x h]; [destruct (c =? slash)|]; cbn [fst snd app] in *; now rewrite IH at 1.
Qed.

Lemma split_last_tail p : forallb (fun c => negb (c =? slash)) (snd (split_last p)) = true.
Proof.
  induction p as [|c p IH]; [reflexivity|]. cbn [split_last]. destruct (split_last p) as (h & t). cbn [snd] in IH.
  destruct h as [|x h]; [destruct (c =? slash) eqn:E|]; cbn [snd forallb]; rewrite ?E, ?IH; reflexivity.
Qed.

Lemma split_last_head p : fst (split_last p) = [] \/ exists h, fst (split_last p) = h ++ [slash].
Proof.
  induction p as [|c p IH]; [now left|]. cbn [split_last]. destruct (split_last p) as (h & t). cbn [fst] in *.
  destruct IH as [->|(h' & ->)].
  - destruct (Nat.eqb_spec c slash) as [->|]; [right; now exists []|now left].
  - right. exists (c :: h'). destruct (h' ++ [slash]) eqn:E; [now destruct h'|]. cbn. now rewrite E.
Qed.

Lemma rstrip_spec p : exists s, p = rstrip p ++ s /\ forallb (fun c => c =? slash) s = true.
Proof.
  induction p as [|c p (s & E & Hs)]; [now exists []|]. cbn [rstrip]. destruct (rstrip p) as [|x r] eqn:Er.
  - destruct (c =? slash) eqn:Ec.
    + exists (c :: p). split; [reflexivity|]. cbn [app] in E. subst s. cbn. now rewrite Ec.
    + exists p. split; [reflexivity|]. cbn [app] in E. now subst s.
  - exists s. split; [|exact Hs]. cbn [app] in *. now rewrite E at 1.
Qed.

Lemma components_slashes s : forallb (fun c => c =? slash) s = true -> forall acc, components_from acc s = match acc with [] => [] | _ => [acc] end.
Proof.
  induction s as [|c s IH]; intros H acc; [reflexivity|]. cbn [forallb] in H. apply andb_true_iff in H as (Hc & Hs). cbn [components_from]. change separator with slash. rewrite Hc, IH by assumption. now rewrite app_nil_r.
Qed.

Lemma components_strip a s : forallb (fun c => c =? slash) s = true -> components (a ++ s) = components a.
Proof.
  intros Hs. destruct s as [|c s]; [now rewrite app_nil_r|]. cbn [forallb] in Hs. apply andb_true_iff in Hs as (Hc & Hs). apply Nat.eqb_eq in Hc as ->.
  unfold components at 1. rewrite components_slash. unfold components. rewrite (components_slashes s Hs []), app_nil_r. reflexivity.
Qed.

Lemma last_slash (a : path) : slash =? last a 0 = true -> exists h, a = h ++ [slash].
Proof.
  intros H. destruct a as [|c a]; [cbn in H; discriminate|]. apply Nat.eqb_eq in H. exists (removelast (c :: a)). rewrite H. now apply app_removelast_last.
Qed.

(** Joining with a slash between *)
Lemma join_components a b : starts_with_slash b = false -> components (join a b) = components a ++ components b.
Proof.
  intros Hb. unfold join. rewrite Hb. destruct a as [|c a]; [reflexivity|].
  destruct (slash =? last (c :: a) 0) eqn:E.
  - apply last_slash in E as (h & ->). rewrite <- app_assoc. cbn [app]. unfold components at 1 2. rewrite !components_slash. unfold components. cbn. now rewrite app_nil_r.
  - unfold components at 1. now rewrite components_slash.
Qed.

Lemma join_starts a b : a <> [] -> starts_with_slash b = false -> starts_with_slash (join a b) = starts_with_slash a.
Proof. intros Ha Hb. unfold join. rewrite Hb. destruct a as [|c a]; [congruence|]. now destruct (slash =? last (c :: a) 0). Qed.

Lemma tail_no_slash t : forallb (fun c => negb (c =? slash)) t = true -> starts_with_slash t = false.
Proof. destruct t as [|c t]; [reflexivity|]. cbn. intros H. apply andb_true_iff in H as (H & _). now apply negb_true_iff. Qed.

Lemma rstrip_starts p : forallb (fun c => c =? slash) p = false -> rstrip p <> [] /\ starts_with_slash (rstrip p) = starts_with_slash p.
Proof.
  intros H. destruct (rstrip_spec p) as (s & E & Hs). destruct (rstrip p) as [|c r] eqn:Er.
  - cbn [app] in E. subst s. congruence.
  - split; [discriminate|]. rewrite E. reflexivity.
Qed.

Lemma resolve_eq cwd p : resolve cwd p = if starts_with_slash p then components p else components cwd ++ components p.
Proof. reflexivity. Qed.

Lemma saved_resolve cwd p f d : starts_with_slash cwd = true -> output_place cwd (Some p) = Some (f, d) -> resolve cwd (join d f) = resolve cwd p.
Proof.
  intros Hcwd. cbn [output_place]. intros [= <- <-].
  pose proof (split_last_app p) as Ep. pose proof (tail_no_slash _ (split_last_tail p)) as Ht. pose proof (split_last_head p) as Hh.
  unfold basename, dirname. cbv zeta. destruct (split_last p) as (h & t). cbn [fst snd] in *. subst p.
  destruct Hh as [->|(h' & ->)].
  - cbn [forallb app]. rewrite !resolve_eq. rewrite Ht. rewrite join_starts, Hcwd by (auto; destruct cwd; discriminate). now apply join_components.
  - set (h := h' ++ [slash]) in *.
    assert (Hd : exists d : path, @eq path (match forallb (fun c => c =? slash) h return path with true => h | false => rstrip h end) d /\ d <> [] /\ starts_with_slash d = starts_with_slash h /\ components d = components h).
    { eexists. split; [reflexivity|]. destruct (forallb (fun c => c =? slash) h) eqn:E.
      - split; [unfold h; now destruct h'|auto].
      - destruct (rstrip_starts h E) as (H1 & H2). destruct (rstrip_spec h) as (s & Es & Hs). split; [exact H1|]. split; [exact H2|]. rewrite Es at 2. symmetry. now apply components_strip. }
    destruct Hd as (d & -> & Hne & Hs & Hc).
    destruct d as [|dc d0]; [congruence|]. cbv iota. set (d := dc :: d0) in *. clearbody d.
    assert (Hst : starts_with_slash (h ++ t) = starts_with_slash h) by (unfold h; now destruct h').
    rewrite !resolve_eq. rewrite (join_starts d t Hne Ht), Hs, Hst, (join_components d t Ht). rewrite Hc.
    assert (E : components (h ++ t) = components h ++ components t).
    { unfold h. rewrite <- app_assoc. cbn [app]. unfold components at 1 2. rewrite !components_slash. unfold components. cbn. now rewrite app_nil_r. }
    now rewrite E.
Qed.

Section Axes.
  Context {R : cring} (reqb : R -> R -> bool) (Hr : forall a b, reqb a b = true <-> a = b).

  Lemma axis_zero_ok d (vertices : list (list R)) a : in_space d vertices -> a < d ->
    exists b, axis_zero reqb vertices a = Ok b /\ (b = true <-> zero_axis vertices a).
  Proof using Hr.
    intros Hs Ha. unfold axis_zero, zero_axis, in_space in *. induction vertices as [|v vs IH]; cbn [mapM].
    - cbn [bind forallb]. exists true. split; [reflexivity|]. split; [intros _ v []|auto].
    - destruct IH as (b & Hb & Hiff); [intros; apply Hs; now right|].
      destruct (get_total v a) as (x & Hx); [rewrite (Hs v (or_introl eq_refl)); exact Ha|]. rewrite Hx. cbn [bind]. apply get_ok in Hx.
      destruct (mapM (fun v => get v a) vs) as [c|]; cbn [bind] in *; [|discriminate]. injection Hb as <-. eexists. split; [reflexivity|]. cbn [forallb].
      rewrite andb_true_iff, Hr, Hiff. split.
      + intros (-> & H) w [<-|Hw]; auto.
      + intros H. split; [|intros w Hw; apply H; now right]. specialize (H v (or_introl eq_refl)). congruence.
  Qed.

  Lemma first_zero_axis_ok d (vertices : list (list R)) : in_space d vertices -> d <= 3 -> forall n k, k + n = d ->
    exists w, first_zero_axis reqb vertices (seq k n) = Ok w /\
      ((w = [] /\ forall a, k <= a < d -> ~ zero_axis vertices a) \/
       exists a, w = [WZeroAxis a a] /\ k <= a < d /\ zero_axis vertices a /\ forall b, k <= b < a -> ~ zero_axis vertices b).
  Proof using Hr.
    intros Hs Hd. induction n as [|n IH]; intros k Hk; cbn [seq first_zero_axis].
    - exists []. split; [reflexivity|]. left. split; [reflexivity|]. intros. lia.
    - destruct (axis_zero_ok d vertices k Hs) as (b & -> & Hb); [lia|]. cbn [bind]. destruct b.
      + destruct (get_total [120; 121; 122] k) as (x & ->); [cbn [length]; lia|]. cbn [bind]. eexists. split; [reflexivity|]. right. exists k. split; [reflexivity|]. split; [lia|].
        split; [tauto|]. intros. lia.
      + assert (Hn : ~ zero_axis vertices k) by (intros H; apply Hb in H; discriminate).
        destruct (IH (S k)) as (w & -> & H); [lia|]. exists w. split; [reflexivity|]. destruct H as [(-> & H)|(a & -> & Ha & Hz & H)].
        * left. split; [reflexivity|]. intros a Ha. destruct (Nat.eq_dec a k) as [->|]; [exact Hn|]. apply H. lia.
        * right. exists a. split; [reflexivity|]. split; [lia|]. split; [exact Hz|]. intros b Hb'. destruct (Nat.eq_dec b k) as [->|]; [exact Hn|]. apply H. lia.
  Qed.
End Axes.
