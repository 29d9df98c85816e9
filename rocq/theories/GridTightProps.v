(** * GridTightProps: the default offset of make_mesh_grid (C58): copies do not touch. *)
From Coq Require Import List Arith Bool ZArith Lia Ring Ring_theory.
From Verif Require Import Np NpFacts MeshModel MeshSpec MeshStateModel Lin Ord ProcModel ProcSpec AffineModel AffineSpec AffineProofs.
Import ListNotations.

Section Lattice.
  Variable R : cring.
  Add Ring Rgt : (rth R).

  Lemma rmul_0 (x : R) : rmul r0 x = r0.
  Proof. ring. Qed.
  Lemma vadd_nth (u v : list R) j x y : nth_error u j = Some x -> nth_error v j = Some y -> nth_error (vadd u v) j = Some (radd x y).
  Proof. apply map2_nth. Qed.
  Lemma zeros_nth d j : j < d -> nth_error (zeros (R := R) d) j = Some r0.
  Proof. intros H. unfold zeros. now apply nth_error_repeat. Qed.
  Lemma ntimes_nth d n (o : list R) j x : length o = d -> nth_error o j = Some x -> nth_error (ntimes d n o) j = Some (rmul (rnat R n) x).
  Proof.
    intros L H. assert (Hj : j < d) by (rewrite <- L; apply nth_error_Some; congruence). induction n as [|n IH].
    - cbn [ntimes rnat]. rewrite zeros_nth by assumption. f_equal. ring.
    - cbn [ntimes rnat]. rewrite (vadd_nth _ _ _ _ _ H IH). f_equal. ring.
  Qed.
  Lemma ntimes_length d n (o : list R) : length o = d -> length (ntimes d n o) = d.
  Proof. intros L. induction n as [|n IH]; cbn [ntimes]; [apply zeros_length|]. rewrite vadd_length; congruence. Qed.
  Lemma lattice_nth d j c : j < d -> forall (offs : list (list R)) I s, length I = length offs -> Forall (fun o => length o = d) offs ->
    (forall i o x, nth_error offs i = Some o -> nth_error o j = Some x -> x = if s + i =? j then c else r0) ->
    nth_error (lattice d I offs) j = Some (match (if s <=? j then nth_error I (j - s) else None) with Some n => rmul (rnat R n) c | None => r0 end).
  Proof.
    intros Hj. induction offs as [|o offs IH]; intros [|n I] s HL HF H; try discriminate HL.
    - cbn [lattice]. rewrite zeros_nth by assumption. destruct (s <=? j); [|reflexivity]. now destruct (j - s).
    - inversion HF as [|? ? Lo HF']; subst. cbn [lattice]. cbn in HL.
      destruct (nth_error o j) as [x|] eqn:Ex; [|apply nth_error_None in Ex; lia].
      pose proof (H 0 o x eq_refl Ex) as Hx. rewrite Nat.add_0_r in Hx.
      rewrite (vadd_nth _ _ _ _ _ (ntimes_nth (length o) n o j x eq_refl Ex) (IH I (S s) ltac:(lia) HF' ltac:(intros i o' x' Hi Hx'; replace (S s + i) with (s + S i) by lia; exact (H (S i) o' x' Hi Hx')))).
      f_equal. destruct (Nat.eqb_spec s j) as [->|N].
      + subst x. rewrite Nat.leb_refl, Nat.sub_diag. destruct (Nat.leb_spec (S j) j); [lia|]. cbn [nth_error]. ring.
      + subst x. destruct (Nat.leb_spec s j), (Nat.leb_spec (S s) j); try lia.
        * replace (j - s) with (S (j - S s)) by lia. cbn [nth_error]. ring.
        * ring.
  Qed.
End Lattice.

Section Separated.
  Variable R : ocring.
  Add Ring Rso : (rth R).
  Lemma rnat_sub n k : rnat R (n + k) = radd (rnat R n) (rnat R k).
  Proof. induction n as [|n IH]; cbn [rnat plus]; [ring|]. rewrite IH. ring. Qed.
  Lemma rnat_mul_nonneg n (c : R) : ole r0 c = true -> ole r0 (rmul (rnat R n) c) = true.
  Proof.
    intros H. induction n as [|n IH]; cbn [rnat].
    - replace (rmul r0 c) with (@r0 R) by ring. apply ole_refl.
    - replace (rmul (radd r1 (rnat R n)) c) with (radd c (rmul (rnat R n) c)) by ring. now apply ole_add_nonneg.
  Qed.
  (** u in the i-th and v in the j-th interval *)
  Lemma separated (l h q u v w : R) i j :
    ole l v = true -> ole v h = true -> ole l u = true -> ole u h = true -> olt r0 (rmul q (rsub h l)) = true -> j < i ->
    radd u (radd w (rmul (rnat R i) (radd (rsub h l) (rmul q (rsub h l))))) <> radd v (radd w (rmul (rnat R j) (radd (rsub h l) (rmul q (rsub h l))))).
  Proof.
    intros V1 V2 U1 U2 Hq Hij E. set (s := rsub h l) in *. set (t := rmul q s) in *.
    replace i with (j + S (i - S j)) in E by lia. rewrite rnat_sub in E. cbn [rnat] in E. set (k := rnat R (i - S j)) in *.
    assert (S0 : ole r0 s = true) by (apply le_diff; eapply ole_trans; eassumption).
    assert (K : ole r0 (rmul k (radd s t)) = true) by (apply rnat_mul_nonneg; apply ole_add_nonneg; [exact S0|now apply olt_nle]).
    assert (T : ole t r0 = true).
    { apply diff_le. replace (rsub r0 t) with (radd (rmul k (radd s t)) (radd (rsub h v) (rsub u l))).
      - apply ole_add_nonneg; [exact K|]. apply ole_add_nonneg; now apply le_diff.
      - assert (Ev : v = radd u (rmul (radd r1 k) (radd s t))).
        { transitivity (rsub (radd v (radd w (rmul (rnat R j) (radd s t)))) (radd w (rmul (rnat R j) (radd s t)))); [ring|]. rewrite <- E. ring. }
        rewrite Ev. unfold s at 2. replace h with (radd s l) by (unfold s; ring). ring_simplify. ring. }
    rewrite olt_iff in Hq. congruence.
  Qed.
End Separated.

Definition ex_line : mesh (list (list Z)) (amap Zcring) (list Z) :=
  mk_mesh [mk_egroup (Some [[0; 1]]) [[[0]; [4]]%Z] [[0]; [1]]] (Some [[0]; [4]]%Z) (Some true) Pending Pending 0 0 0.

(** The offsets of neighbors along axis i are the size of the bounding box and a quarter of it in coordinate i, and zero in all other coordinates. *)
Theorem C58_default_offset :
  forall (R : cring) d leb quarter same_kind shape (m : mesh (list (list R)) (amap R) (list R)) lo hi,
    find_bounding_box leb d m = Ok (lo, hi) -> length lo = d -> length hi = d ->
    exists offset, make_mesh_grid R leb quarter same_kind d shape None m = make_mesh_grid R leb quarter same_kind d shape (Some offset) m /\
      length offset = d /\ Forall (fun o => length o = d) offset /\
      forall i j o x a b, nth_error offset i = Some o -> nth_error o j = Some x -> nth_error lo i = Some a -> nth_error hi i = Some b ->
        x = if i =? j then (((b - a) + quarter * (b - a)))%cr else r0.
Proof.
  intros R d leb quarter same_kind shape m lo hi Hb Hlo Hhi.
  pose proof (rth R) as RT. 
  exists (map2 (fun (e : list R) c => map (fun u => rmul u (radd c (rmul quarter c))) e) (idmat d) (vsub hi lo)).
  split; [unfold make_mesh_grid; destruct (guard (length shape =? d) ValueError); cbn [bind]; [|reflexivity]; rewrite Hb; reflexivity|].
  assert (Ls : length (vsub hi lo) = d) by (rewrite vsub_length; congruence).
  assert (Li : length (idmat (R := R) d) = d) by apply is_mat_id.
  split; [rewrite map2_length; congruence|].
  assert (N : forall i o, nth_error (map2 (fun (e : list R) c => map (fun u => rmul u (radd c (rmul quarter c))) e) (idmat d) (vsub hi lo)) i = Some o ->
    exists c, nth_error (vsub hi lo) i = Some c /\ o = map (fun u => rmul u (radd c (rmul quarter c))) (unitv d i)).
  { intros i o Ho. assert (Hi : i < d). { rewrite <- Li, <- (map2_length (fun (e : list R) c => map (fun u => rmul u (radd c (rmul quarter c))) e) (idmat d) (vsub hi lo)) by congruence. apply nth_error_Some. congruence. }
    destruct (nth_error (vsub hi lo) i) as [c|] eqn:Ec; [|apply nth_error_None in Ec; lia].
    exists c. split; [reflexivity|]. assert (Eu : nth_error (idmat (R := R) d) i = Some (unitv d i)).
    { unfold idmat. rewrite nth_error_map, (nth_error_nth' _ 0) by (rewrite seq_length; lia). now rewrite seq_nth by lia. }
    rewrite (map2_nth _ _ _ _ _ _ Eu Ec) in Ho. now injection Ho as <-. }
  split.
  - apply Forall_forall. intros o Ho. apply In_nth_error in Ho as (i & Ho). destruct (N i o Ho) as (c & _ & ->). rewrite map_length. unfold unitv. now rewrite map_length, seq_length.
  - intros i j o x a b Ho Hx Ha Hbb. destruct (N i o Ho) as (c & Ec & ->). unfold vsub in Ec. rewrite (map2_nth _ _ _ _ _ _ Hbb Ha) in Ec. injection Ec as <-.
    rewrite nth_error_map in Hx. destruct (nth_error (unitv d i) j) as [u|] eqn:Eu; [|discriminate]. injection Hx as <-.
    unfold unitv in Eu. rewrite nth_error_map in Eu. destruct (nth_error (seq 0 d) j) as [k|] eqn:Ek; [|discriminate]. injection Eu as <-.
    assert (j < d) by (rewrite <- (seq_length d 0); apply nth_error_Some; congruence). rewrite (nth_error_nth' _ 0), seq_nth in Ek by (rewrite ?seq_length; lia). injection Ek as <-.
    cbn [plus]. destruct (i =? j); [apply (Rmul_1_l RT)|]. apply rmul_0.
Qed.
Print Assumptions C58_default_offset.

(** With these offsets no point of the bounding box is in two copies with different indices, if a quarter of the size of the box is positive in every coordinate. *)
Theorem C58_copies_separated :
  forall (R : ocring) d leb quarter same_kind shape (m : mesh (list (list R)) (amap R) (list R)) lo hi,
    find_bounding_box leb d m = Ok (lo, hi) -> length lo = d -> length hi = d ->
    (forall i a b, nth_error lo i = Some a -> nth_error hi i = Some b -> olt r0 (rmul quarter (rsub b a)) = true) ->
    exists offset, make_mesh_grid R leb quarter same_kind d shape None m = make_mesh_grid R leb quarter same_kind d shape (Some offset) m /\
      length offset = d /\ Forall (fun o => length o = d) offset /\
      forall x y I J o0, nth_error offset 0 = Some o0 -> length I = d -> length J = d -> I <> J ->
        length x = d -> length y = d ->
        (forall p i u a b, p = x \/ p = y -> nth_error p i = Some u -> nth_error lo i = Some a -> nth_error hi i = Some b -> ole a u = true /\ ole u b = true) ->
        vadd x (vadd o0 (lattice d I offset)) <> vadd y (vadd o0 (lattice d J offset)).
Proof.
  intros R d leb quarter same_kind shape m lo hi Hb Hlo Hhi Hq.
  destruct (C58_default_offset R d leb quarter same_kind shape m lo hi Hb Hlo Hhi) as (offset & E & L & F & Hoff).
  exists offset. split; [exact E|]. split; [exact L|]. split; [exact F|]. intros x y I J o0 Ho HI HJ Hne Hx Hy Hbox Heq.
  assert (D : exists a i j, nth_error I a = Some i /\ nth_error J a = Some j /\ i <> j).
  { clear - HI HJ Hne. revert J d HI HJ Hne. induction I as [|i I IH]; intros [|j J] d HI HJ Hne; cbn in *; try lia; [congruence|].
    destruct (Nat.eq_dec i j) as [->|N]; [|exists 0, i, j; auto]. destruct (IH J (length I) eq_refl ltac:(lia) ltac:(congruence)) as (a & i' & j' & H). exists (S a), i', j'. exact H. }
  destruct D as (a & i & j & Hi & Hj & Hij). assert (Ha : a < d) by (rewrite <- HI; apply nth_error_Some; congruence).
  assert (get1 : forall (l : list R), length l = d -> exists u, nth_error l a = Some u).
  { intros l Hl. destruct (nth_error l a) as [u|] eqn:Eu; eauto. apply nth_error_None in Eu. lia. }
  destruct (get1 x Hx) as (u & Hu), (get1 y Hy) as (v & Hv), (get1 lo Hlo) as (l & Hl), (get1 hi Hhi) as (h & Hh).
  assert (Lo0 : length o0 = d) by (rewrite Forall_forall in F; apply F; now apply nth_error_In in Ho). destruct (get1 o0 Lo0) as (w & Hw).
  pose proof (Hq a l h Hl Hh) as Hpos. destruct (Hbox x a u l h (or_introl eq_refl) Hu Hl Hh) as (X1 & X2), (Hbox y a v l h (or_intror eq_refl) Hv Hl Hh) as (Y1 & Y2).
  set (c := radd (rsub h l) (rmul quarter (rsub h l))) in *.
  assert (C : forall k n, length k = d -> nth_error k a = Some n -> nth_error (lattice d k offset) a = Some (rmul (rnat R n) c)).
  { intros k n Hk Hn. rewrite (lattice_nth R d a c Ha offset k 0 ltac:(congruence) F).
    - cbn [Nat.leb]. now rewrite Nat.sub_0_r, Hn.
    - intros p o z Hp Hz. cbn [plus]. assert (Hpd : p < d) by (rewrite <- L; apply nth_error_Some; congruence).
      destruct (nth_error lo p) as [lp|] eqn:Elp; [|apply nth_error_None in Elp; lia]. destruct (nth_error hi p) as [hp|] eqn:Ehp; [|apply nth_error_None in Ehp; lia].
      rewrite (Hoff p a o z lp hp Hp Hz Elp Ehp). destruct (Nat.eqb_spec p a) as [->|]; [|reflexivity]. unfold c. rewrite Hl in Elp. rewrite Hh in Ehp. now injection Elp as ->; injection Ehp as ->. }
  apply (f_equal (fun z => nth_error z a)) in Heq.
  rewrite (vadd_nth _ _ _ _ _ _ Hu (vadd_nth _ _ _ _ _ _ Hw (C I i HI Hi))), (vadd_nth _ _ _ _ _ _ Hv (vadd_nth _ _ _ _ _ _ Hw (C J j HJ Hj))) in Heq.
  injection Heq as Heq.
  assert (Hlt : i < j \/ j < i) by lia. destruct Hlt as [H|H].
  - apply (separated R l h quarter v u w j i X1 X2 Y1 Y2 Hpos H). now symmetry.
  - now apply (separated R l h quarter u v w i j Y1 Y2 X1 X2 Hpos H).
Qed.
Print Assumptions C58_copies_separated.

Example C58_separated_example :
  find_bounding_box Z.leb 1 ex_line = Ok ([0], [4])%Z /\
  exists m', make_mesh_grid Zcring Z.leb 1%Z (fun _ _ => true) 1 [2] None ex_line = Ok m' /\ m_vertices m' = Some [[8]; [12]; [16]; [20]]%Z.
Proof. split; [reflexivity|]. eexists. split; [vm_compute; reflexivity|reflexivity]. Qed.
