(** * IbopProps: in-place operations on DOFArrays.

    C167 what they do to the arrays, C168 when they differ from the arithmetic operators. *)
From Coq Require Import List Arith Bool Lia ZArith.
From Verif Require Import Np NpFacts IbopModel IbopSpec IbopProofs.
Import ListNotations.

Section IbopProps.
  Variable V : Type.
  Variable f : V -> V -> V.

  (** ** C167: in-place operations change exactly the arrays of the DOFArray

      [x += y] gives the sums of the old values, also if [y] is [x] itself, or shares arrays with it that come no later in [y]. Nothing else changes. *)
  Theorem C167_inplace h x y vs ws : NoDup x -> all_inplace V h x -> holds V h x vs -> holds V h y ws -> Forall2 (fun u v => length u = length v) vs ws -> not_behind x y ->
    exists h' us, ibop V f h x (ODof V y) = (h', None) /\ holds V h' x us /\ Forall2 (fun vw u => entrywise V f (fst vw) (snd vw) u) (combine vs ws) us /\ only V x h h'.
  Proof using.
    intros Hnd Hin Hx Hy Hl Hb. unfold ibop. assert (El : length x = length y). { rewrite (Forall2_length' _ _ _ Hx), (Forall2_length' _ _ _ Hy). exact (Forall2_length' _ _ _ Hl). }
    rewrite El, Nat.eqb_refl. cbn [negb]. destruct (loop_dof V f y 0 x vs ws h) as (h' & us & E & H1 & H2 & H3 & _); auto. exists h', us. auto.
  Qed.
  Theorem C167_inplace_number h x c vs : NoDup x -> all_inplace V h x -> holds V h x vs ->
    exists h', ibop V f h x (ONum V c) = (h', None) /\ holds V h' x (map (map (fun v => f v c)) vs) /\ only V x h h'.
  Proof using.
    intros Hnd Hin Hx. unfold ibop. destruct (loop_map V (fun v => f v c) (fun h a => iop_number V f h a c) x vs h) as (h' & E & H1 & H2 & _); auto; [|exists h'; auto].
    intros h0 a r Hr Hi. unfold iop_number, get, store. rewrite Hr. cbn [bind]. now rewrite Hi.
  Qed.
  Theorem C167_fill h x c vs : NoDup x -> all_inplace V h x -> holds V h x vs ->
    exists h', fill V h x c = (h', None) /\ holds V h' x (map (map (fun _ => c)) vs) /\ only V x h h'.
  Proof using.
    intros Hnd Hin Hx. unfold fill. edestruct (loop_map V (fun _ => c)) as (h' & E & H1 & H2 & _); [|exact Hnd|exact Hin|exact Hx|exists h'; split; [exact E|auto]].
    intros h0 a r Hr Hi. cbn beta. unfold get. rewrite Hr. cbn [bind]. rewrite Hi. reflexivity.
  Qed.
  (** different lengths and other types are errors that leave everything as it was *)
  Theorem C167_errors h x : (forall y, length x <> length y -> ibop V f h x (ODof V y) = (h, Some ValueError)) /\ ibop V f h x (OOther V) = (h, Some NotImplementedError).
  Proof using. split; [|reflexivity]. intros y H. unfold ibop. destruct (Nat.eqb_spec (length x) (length y)); [contradiction|reflexivity]. Qed.

  (** A copy has the same values, and changing the copy in place does not change the array, nor the other way round *)
  Theorem C167_copy h x vs : holds V h x vs -> exists h' x', copy V h x = Ok (h', x') /\ holds V h' x' vs /\ holds V h' x vs /\ NoDup x' /\ (all_inplace V h x -> all_inplace V h' x') /\
    forall h'', (only V x' h' h'' -> holds V h'' x vs) /\ (only V x h' h'' -> holds V h'' x' vs).
  Proof using.
    intros Hx. unfold copy. assert (Hlt : forall a, In a x -> a < length h). { intros a Ha. apply In_nth_error in Ha as (i & Hi). destruct (Forall2_nth_error _ _ _ _ _ Hx Hi) as (v & _ & r & Hr & _). apply nth_error_Some. congruence. }
    assert (Hm : exists new, mapM (get h) x = Ok new /\ Forall2 (fun a r => nth_error h a = Some r) x new /\ Forall2 (fun r v => data V r = v) new vs).
    { clear Hlt. induction Hx as [|a v x vs (r & Hr & Hv) Hx (new & IH1 & IH2 & IH3)]; [exists []; repeat constructor|]. exists (r :: new). cbn [mapM]. unfold get at 1. rewrite Hr. cbn [bind]. rewrite IH1. cbn [bind]. repeat constructor; auto. }
    destruct Hm as (new & Em & Hn1 & Hn2). rewrite Em. cbn [bind]. exists (h ++ new), (seq (length h) (length x)). split; [reflexivity|].
    assert (Hnew : forall i, nth_error (h ++ new) (length h + i) = nth_error new i) by (intros i; rewrite nth_error_app2 by lia; f_equal; lia).
    assert (Hold : forall y ws, holds V h y ws -> holds V (h ++ new) y ws).
    { intros y ws Hy. induction Hy as [|a v y ws (r & Hr & Hv) Hy IH]; constructor; [|exact IH]. exists r. split; [|exact Hv]. rewrite nth_error_app1; [exact Hr|]. apply nth_error_Some. congruence. }
    assert (H' : holds V (h ++ new) (seq (length h) (length x)) vs).
    { apply Forall2_intro_nth; [rewrite seq_length; exact (Forall2_length' _ _ _ Hx)|]. intros i a v Ha Hv. rewrite nth_error_range in Ha. destruct (i <? length x); [|discriminate]. injection Ha as <-. destruct (Forall2_nth_error_r _ _ _ _ _ Hn2 Hv) as (r & Hr & Hd). exists r. split; [|exact Hd]. now rewrite Hnew. }
    split; [exact H'|]. split; [now apply Hold|]. split; [apply seq_NoDup|]. split.
    - intros Hin. apply Forall_forall. intros a Ha. apply in_seq in Ha. set (i := a - length h). assert (Hi : i < length x) by (unfold i; lia). destruct (nth_error x i) as [b|] eqn:Eb; [|apply nth_error_None in Eb; lia].
      destruct (Forall2_nth_error _ _ _ _ _ Hn1 Eb) as (r & Hr & Hb). exists r. split; [replace a with (length h + i) by (unfold i; lia); now rewrite Hnew|].
      unfold all_inplace in Hin. rewrite Forall_forall in Hin. destruct (Hin b (nth_error_In _ _ Eb)) as (r' & Hr' & Hp). congruence.
    - intros h''. split; intros Ho.
      + apply (holds_only V (h ++ new) h'' _ x vs Ho); [|now apply Hold]. intros a Ha Hs. apply in_seq in Hs. apply Hlt in Ha. lia.
      + apply (holds_only V (h ++ new) h'' _ _ vs Ho); [|exact H']. intros a Hs Ha. apply in_seq in Hs. apply Hlt in Ha. lia.
  Qed.
End IbopProps.

(** Two groups; the arrays of [x] are 0 and 1, those of [y] are 2 and 1, the second array of [x] *)
Definition ih : heap Z := [mk_arr Z true [1%Z; 2%Z]; mk_arr Z true [3%Z]; mk_arr Z false [10%Z; 20%Z]; mk_arr Z false [5%Z]].
Example C167_example : NoDup [0; 1] /\ all_inplace Z ih [0; 1] /\ holds Z ih [0; 1] [[1%Z; 2%Z]; [3%Z]] /\ not_behind [0; 1] [2; 1] /\
  ibop Z Z.add ih [0; 1] (ODof Z [2; 1]) = ([mk_arr Z true [11%Z; 22%Z]; mk_arr Z true [6%Z]; mk_arr Z false [10%Z; 20%Z]; mk_arr Z false [5%Z]], None).
Proof.
  split; [repeat constructor; cbn; intuition lia|]. split; [repeat constructor; eexists; (split; [reflexivity|reflexivity])|].
  split; [repeat constructor; eexists; (split; [reflexivity|reflexivity])|]. split; [|reflexivity].
  intros [|[|i]] [|[|j]] a; cbn [nth_error]; try (intros [= <-] [= E]; lia); try lia; try discriminate; destruct i || destruct j; discriminate.
Qed.

(** ** C168: x += y is not x = x + y

    Arrays without in-place operators are left as they are without an error; an error in a later group leaves the groups before it changed; and arrays shared at an
    earlier place are read after they have changed. *)
Theorem C168_inplace_refuted :
  (exists (h : heap Z) x y vs ws, NoDup x /\ holds Z h x vs /\ holds Z h y ws /\ Forall2 (fun u v => length u = length v) vs ws /\
     ibop Z Z.add h x (ODof Z y) = (h, None) /\ ~ Forall2 (fun vw u => entrywise Z Z.add (fst vw) (snd vw) u) (combine vs ws) vs) /\
  (exists (h h' : heap Z) x y, NoDup x /\ all_inplace Z h x /\ ibop Z Z.add h x (ODof Z y) = (h', Some ValueError) /\ h' <> h) /\
  (exists (h h' : heap Z) x y vs ws us, NoDup x /\ all_inplace Z h x /\ holds Z h x vs /\ holds Z h y ws /\ Forall2 (fun u v => length u = length v) vs ws /\
     ibop Z Z.add h x (ODof Z y) = (h', None) /\ holds Z h' x us /\ ~ Forall2 (fun vw u => entrywise Z Z.add (fst vw) (snd vw) u) (combine vs ws) us).
Proof.
  split; [|split].
  - exists [mk_arr Z false [1%Z]; mk_arr Z false [2%Z]], [0], [1], [[1%Z]], [[2%Z]]. split; [repeat constructor; auto|]. split; [repeat constructor; eexists; split; reflexivity|]. split; [repeat constructor; eexists; split; reflexivity|].
    split; [repeat constructor|]. split; [reflexivity|]. intros H. inversion_clear H as [|? ? ? ? H1 _]. cbn [fst snd] in H1. inversion_clear H1 as [|? ? ? ? H2 _]. cbn in H2. lia.
  - exists [mk_arr Z true [1%Z]; mk_arr Z true [2%Z]; mk_arr Z true [3%Z; 4%Z]], [mk_arr Z true [2%Z]; mk_arr Z true [2%Z]; mk_arr Z true [3%Z; 4%Z]], [0; 1], [0; 2].
    split; [repeat constructor; cbn; intuition lia|]. split; [repeat constructor; eexists; (split; [reflexivity|reflexivity])|]. split; [reflexivity|]. discriminate.
  - exists [mk_arr Z true [1%Z]; mk_arr Z true [2%Z]], [mk_arr Z true [3%Z]; mk_arr Z true [5%Z]], [0; 1], [1; 0], [[1%Z]; [2%Z]], [[2%Z]; [1%Z]], [[3%Z]; [5%Z]].
    split; [repeat constructor; cbn; intuition lia|]. split; [repeat constructor; eexists; (split; [reflexivity|reflexivity])|]. split; [repeat constructor; eexists; split; reflexivity|]. split; [repeat constructor; eexists; split; reflexivity|].
    split; [repeat constructor|]. split; [reflexivity|]. split; [repeat constructor; eexists; split; reflexivity|].
    intros H. inversion_clear H as [|? ? ? ? _ H1]. inversion_clear H1 as [|? ? ? ? H2 _]. cbn [fst snd] in H2. inversion_clear H2 as [|? ? ? ? H3 _]. cbn in H3. lia.
Qed.

Print Assumptions C167_inplace.
Print Assumptions C167_inplace_number.
Print Assumptions C167_fill.
Print Assumptions C167_errors.
Print Assumptions C167_copy.
Print Assumptions C168_inplace_refuted.
