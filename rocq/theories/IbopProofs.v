(** * IbopProofs: lemmas for IbopProps. *)
From Coq Require Import List Arith Bool Lia.
From Verif Require Import Np NpFacts IbopModel IbopSpec.
Import ListNotations.

Lemma nth_error_range b n i : nth_error (seq b n) i = if i <? n then Some (b + i) else None.
Proof.
  revert b i. induction n as [|n IH]; intros b [|i]; cbn [seq nth_error]; try reflexivity.
  - change (0 <? S n) with true. now rewrite Nat.add_0_r.
  - rewrite IH. change (S i <? S n) with (i <? n). destruct (i <? n); [|reflexivity]. f_equal. lia.
Qed.

Section IbopProofs.
  Variable V : Type.
  Variable f : V -> V -> V.
  Notation heap := (heap V).

  Lemma zip_entrywise u v : length u = length v -> entrywise V f u v (zip_with V f u v).
  Proof using.
    unfold entrywise. revert v. induction u as [|x u IH]; intros [|y v] H; try discriminate; cbn [combine zip_with]; constructor; [reflexivity|]. apply IH. cbn in H. lia.
  Qed.
  Lemma holds_upd (h : heap) x vs a r : ~ In a x -> holds V h x vs -> holds V (upd h a r) x vs.
  Proof using.
    intros Hn H. induction H as [|b v x vs (s & Hs & Hv) H IH]; [constructor|]. constructor.
    - exists s. split; [|exact Hv]. rewrite nth_error_upd_neq; [exact Hs|]. intros ->. apply Hn. now left.
    - apply IH. intros Hi. apply Hn. now right.
  Qed.
  Lemma inplace_upd (h : heap) x a w : all_inplace V h x -> all_inplace V (upd h a (mk_arr V true w)) x.
  Proof using.
    intros H. induction H as [|b x (s & Hs & Hi) H IH]; constructor; [|exact IH]. destruct (Nat.eq_dec a b) as [->|Hn].
    - exists (mk_arr V true w). split; [|reflexivity]. apply nth_error_upd_eq. apply nth_error_Some. congruence.
    - exists s. split; [|exact Hi]. now rewrite nth_error_upd_neq.
  Qed.

  (** in-place operators with another DOFArray, from place [k] on *)
  Lemma loop_dof y k x vs ws (h : heap) : NoDup x -> all_inplace V h x -> holds V h x vs -> holds V h (skipn k y) ws ->
    (forall i j a, nth_error x i = Some a -> nth_error (skipn k y) j = Some a -> j <= i) ->
    Forall2 (fun u v => length u = length v) vs ws ->
    exists h' us, loop V (fun h ia => b <- get y (fst ia) ;; iop V f h (snd ia) b) (enumerate_from k x) h = (h', None) /\
      holds V h' x us /\ Forall2 (fun vw u => entrywise V f (fst vw) (snd vw) u) (combine vs ws) us /\ only V x h h' /\ length h' = length h.
  Proof using.
    revert k vs ws h. induction x as [|a x IH]; intros k vs ws h Hnd Hin Hx Hy Hb Hl; try (change (enumerate_from k []) with (@nil (nat * nat))); cbn [loop].
    - inversion Hx; subst. exists h, []. split; [reflexivity|]. split; [constructor|]. split; [constructor|]. split; [intros ? _; reflexivity|reflexivity].
    - inversion Hx as [|? v ? vs' (r & Hr & Hv) Hx']; subst vs. inversion Hl as [|? w ? ws' Hvw Hl']; subst. apply NoDup_cons_iff in Hnd as (Hna & Hnd). inversion_clear Hin as [|? ? Hia Hin'].
      inversion Hy as [|b ? yk ? (s & Hs & Hw) Hy' Eyk]; subst.
      assert (Hb0 : nth_error y k = Some b). { rewrite <- (firstn_skipn k y) at 1. assert (Hk : k <= length y). { destruct (le_lt_dec k (length y)); [assumption|]. rewrite skipn_all2 in Eyk by lia. discriminate. }
        rewrite nth_error_app2; rewrite firstn_length, Nat.min_l by exact Hk; [|lia]. rewrite Nat.sub_diag, <- Eyk. reflexivity. }
      assert (Eyk' : skipn (S k) y = yk). { clear -Eyk. revert y Eyk. induction k as [|k IH]; intros [|c y] E; try discriminate; [cbn in E |- *; congruence|]. cbn [skipn] in *. now apply IH. }
      change (enumerate_from k (a :: x)) with ((k, a) :: enumerate_from (S k) x). cbn [loop fst snd]. unfold iop, get. rewrite Hb0. cbn [bind]. rewrite Hr. cbn [bind]. rewrite Hs. cbn [bind]. apply Nat.eqb_eq in Hvw as Hvw'. rewrite Hvw'. cbn [guard bind].
      destruct Hia as (r' & Hr' & Hi). assert (r' = r) by congruence. subst r'. unfold store. rewrite Hi.
      set (w' := zip_with V f (data V r) (data V s)). set (h1 := upd h a (mk_arr V true w')).
      assert (Hya : ~ In a yk). { intros Hina. apply In_nth_error in Hina as (j & Hj). assert (S j <= 0); [|lia]. apply (Hb 0 (S j) a); [reflexivity|]. rewrite <- Eyk. exact Hj. }
      destruct (IH (S k) vs' ws' h1) as (h' & us & E & H1 & H2 & H3 & H4).
      + exact Hnd.
      + unfold h1. now apply inplace_upd.
      + unfold h1. now apply holds_upd.
      + unfold h1. rewrite Eyk'. now apply holds_upd.
      + intros i j c Hi' Hj. assert (S j <= S i); [|lia]. apply (Hb (S i) (S j) c); [exact Hi'|]. rewrite <- Eyk. cbn [nth_error]. now rewrite Eyk' in Hj.
      + exact Hl'.
      + exists h', (w' :: us). split; [exact E|]. split.
        * constructor; [|exact H1]. exists (mk_arr V true w'). split; [|reflexivity]. rewrite (H3 a Hna). unfold h1. apply nth_error_upd_eq. apply nth_error_Some. congruence.
        * split; [|split].
          -- cbn [combine]. constructor; [|exact H2]. cbn [fst snd]. now apply zip_entrywise.
          -- intros c Hc. rewrite (H3 c) by (intros Hi'; apply Hc; now right). unfold h1. apply nth_error_upd_neq. intros <-. apply Hc. now left.
          -- rewrite H4. unfold h1. apply length_upd.
  Qed.

  Lemma loop_map (g : V -> V) body x vs (h : heap) :
    (forall h a r, nth_error h a = Some r -> inplace V r = true -> body h a = Ok (upd h a (mk_arr V true (map g (data V r))))) ->
    NoDup x -> all_inplace V h x -> holds V h x vs ->
    exists h', loop V body x h = (h', None) /\ holds V h' x (map (map g) vs) /\ only V x h h' /\ length h' = length h.
  Proof using.
    intros Hbody. revert vs h. induction x as [|a x IH]; intros vs h Hnd Hin Hx; cbn [loop].
    - inversion Hx; subst. exists h. split; [reflexivity|]. split; [constructor|]. split; [intros ? _; reflexivity|reflexivity].
    - inversion Hx as [|? v ? vs' (r & Hr & Hv) Hx']; subst. apply NoDup_cons_iff in Hnd as (Hna & Hnd). inversion_clear Hin as [|? ? Hia Hin']. destruct Hia as (r' & Hr' & Hi). assert (r' = r) by congruence. subst r'.
      rewrite (Hbody h a r Hr Hi). set (h1 := upd h a _). destruct (IH vs' h1) as (h' & E & H1 & H2 & H3); [exact Hnd|unfold h1; now apply inplace_upd|unfold h1; now apply holds_upd|].
      exists h'. split; [exact E|]. split; [|split].
      + cbn [map]. constructor; [|exact H1]. eexists. split; [|]. 1: rewrite (H2 a Hna); unfold h1; apply nth_error_upd_eq; apply nth_error_Some; congruence. reflexivity.
      + intros c Hc. rewrite (H2 c) by (intros Hi'; apply Hc; now right). unfold h1. apply nth_error_upd_neq. intros <-. apply Hc. now left.
      + rewrite H3. unfold h1. apply length_upd.
  Qed.

  Lemma holds_only (h h' : heap) x y vs : only V x h h' -> (forall a, In a y -> ~ In a x) -> holds V h y vs -> holds V h' y vs.
  Proof using.
    intros Ho Hd H. induction H as [|a v y vs (r & Hr & Hv) H IH]; [constructor|]. constructor.
    - exists r. split; [|exact Hv]. rewrite Ho; [exact Hr|]. apply Hd. now left.
    - apply IH. intros b Hb. apply Hd. now right.
  Qed.
End IbopProofs.
