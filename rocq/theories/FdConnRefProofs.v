(** * FdConnRefProofs: the map between reference simplices. *)
From Coq Require Import List Arith Bool Lia ZArith Ring.
From Verif Require Import Np NpFacts MeshProofs Lin FdImportProofs FdConnModel FdConnSpec FdConnFromProofs.
Import ListNotations.

Section Ref.
  Context {R : cring}.
  Add Ring Rring : (rth R).

  (** c times the identity *)
  Definition scal (c : R) (d : nat) : list (list R) := map (fun a => map (fun i => if i =? a then c else r0) (seq 0 d)) (seq 0 d).

  Lemma nth_map2 {X Y W} (f : X -> Y -> W) a b i : nth_error (map2 f a b) i = match nth_error a i, nth_error b i with Some x, Some y => Some (f x y) | _, _ => None end.
  Proof.
    revert b i. induction a as [|x a IH]; intros [|y b] i; cbn [map2].
    - now destruct i.
    - now destruct i.
    - destruct i; [reflexivity|]. cbn [nth_error]. now destruct (nth_error a i).
    - destruct i; [reflexivity|]. cbn [nth_error]. apply IH.
  Qed.
  Lemma nth_unitv d i j : nth_error (unitv (R := R) d i) j = if j <? d then Some (if i =? j then r1 else r0) else None.
  Proof.
    unfold unitv. rewrite nth_error_map. destruct (Nat.ltb_spec j d).
    - rewrite seq_nth_ok by auto. reflexivity.
    - rewrite (proj2 (nth_error_None (seq 0 d) j)) by now rewrite seq_length. reflexivity.
  Qed.
  Lemma nth_zeros d j : nth_error (zeros (R := R) d) j = if j <? d then Some r0 else None.
  Proof.
    unfold zeros. destruct (Nat.ltb_spec j d); [now apply nth_error_repeat|]. apply nth_error_None. now rewrite repeat_length.
  Qed.

  (** base and span of the vertices: vertex 0 is [b], vertex [i + 1] is [b] plus [c] times the unit vector [i] *)
  Definition simplex_verts (d : nat) (b : list R) (c : R) (vs : list (list R)) : Prop :=
    vs = b :: map (fun i => vadd b (vscale c (unitv d i))) (seq 0 d) /\ length b = d.

  Lemma fiat_simplex d : simplex_verts d (zeros d) r1 (fiat_vertices R d).
  Proof.
    split; [|apply repeat_length]. unfold fiat_vertices. f_equal. unfold idmat. apply map_ext. intros i. rewrite vscale1. symmetry. apply zeros_vadd. unfold unitv. now rewrite map_length, seq_length.
  Qed.
  Lemma modepy_simplex d : simplex_verts d (map (fun x => rsub (radd x x) r1) (zeros d)) (radd r1 r1) (modepy_vertices R d).
  Proof.
    split; [|rewrite map_length; apply repeat_length]. unfold modepy_vertices, fiat_vertices. cbn [map]. f_equal. unfold idmat. rewrite map_map. apply map_ext. intros i.
    apply nth_error_ext'. intros j. unfold vadd, vscale. rewrite nth_map2, !nth_error_map, nth_unitv, nth_zeros. destruct (j <? d); [|reflexivity]. cbn [option_map].
    f_equal. destruct (i =? j); ring.
  Qed.

  Lemma spans d b c vs : simplex_verts d b c vs ->
    mapM (fun a => mapM (fun p => get p a) (map (fun v => vsub v b) (skipn 1 vs))) (seq 0 d) = Ok (scal c d).
  Proof.
    intros (-> & Hb). cbn [skipn]. rewrite map_map. unfold scal. apply mapM_map_ok. intros a Ha. apply in_seq in Ha.
    assert (E : map (fun i => vsub (vadd b (vscale c (unitv d i))) b) (seq 0 d) = map (fun i => vscale c (unitv d i)) (seq 0 d)).
    { apply map_ext. intros i. apply nth_error_ext'. intros j. unfold vsub, vadd, vscale. rewrite !nth_map2, nth_error_map, nth_unitv. destruct (Nat.ltb_spec j d).
      - destruct (nth_error b j) as [x|] eqn:E; [|apply nth_error_None in E; lia]. cbn [option_map]. f_equal. ring.
      - rewrite (proj2 (nth_error_None b j)) by lia. reflexivity. }
    rewrite E. set (l := seq 0 d). assert (Hl : forall i, In i l -> i < d) by (intros i Hi; apply in_seq in Hi; lia). clearbody l. clear E.
    induction l as [|i l IH]; [reflexivity|]. cbn [map mapM]. rewrite IH by (intros; apply Hl; now right). rewrite (proj2 (get_ok (vscale c (unitv d i)) a (if i =? a then c else r0))); [reflexivity|].
    unfold vscale. rewrite nth_error_map, nth_unitv. destruct (Nat.ltb_spec a d); [|lia]. cbn [option_map]. f_equal. destruct (i =? a); ring.
  Qed.

  Lemma scal_mat c d : is_mat d d (scal c d).
  Proof.
    split; [unfold scal; now rewrite map_length, seq_length|]. apply Forall_forall. intros r Hr. apply in_map_iff in Hr as (a & <- & _). now rewrite map_length, seq_length.
  Qed.
  Lemma scal_id c d : scal c d = map (vscale c) (idmat (R := R) d).
  Proof.
    unfold scal, idmat. rewrite map_map. apply map_ext. intros a. unfold vscale, unitv. rewrite map_map. apply map_ext. intros i. rewrite Nat.eqb_sym. destruct (a =? i); ring.
  Qed.
  Lemma matvec_scaled c (M : list (list R)) v : matvec (map (vscale c) M) v = vscale c (matvec M v).
  Proof. unfold matvec, vscale at 2. rewrite !map_map. apply map_ext. intros r. apply dot_vscale_l. Qed.
  Lemma matvec_scal c d v : length v = d -> matvec (scal c d) v = vscale c v.
  Proof. intros Hv. rewrite scal_id, matvec_scaled, matvec_id by exact Hv. reflexivity. Qed.
  Lemma dot_vscale_r c (u v : list R) : dot u (vscale c v) = rmul c (dot u v).
  Proof. rewrite dot_comm, dot_vscale_l. now rewrite dot_comm. Qed.
  Lemma matvec_vscale c (M : list (list R)) v : matvec M (vscale c v) = vscale c (matvec M v).
  Proof. unfold matvec, vscale at 2. rewrite map_map. apply map_ext. intros r. apply dot_vscale_r. Qed.
  Lemma vscale_length c (v : list R) : length (vscale c v) = length v.
  Proof. apply map_length. Qed.

  (** the solution commutes *)
  Lemma solution c c' d X : is_mat d d X -> matmul d (scal c d) X = scal c' d -> forall v, length v = d -> matvec X (vscale c v) = vscale c' v.
  Proof.
    intros HX E v Hv. rewrite matvec_vscale. rewrite <- (matvec_scal c' d v Hv), <- E. rewrite (matvec_matmul R d d d _ _ v (scal_mat c d) HX).
    symmetry. apply matvec_scal. rewrite matvec_length. apply HX.
  Qed.

  Variable solve : list (list R) -> list (list R) -> res (list (list R)).
  Variable neg_det : list (list R) -> bool.

  (** What the map does: coordinates with respect to the vertices are kept *)
  Lemma reference_coords d dir f : right_solver d solve -> reference_map R solve neg_det d dir = Ok f ->
    exists b c b' c' vs vs', vs = (if dir then fiat_vertices R d else modepy_vertices R d) /\ vs' = (if dir then modepy_vertices R d else fiat_vertices R d) /\
      simplex_verts d b c vs /\ simplex_verts d b' c' vs' /\
      (forall u, length u = d -> f (vadd b (vscale c u)) = vadd b' (vscale c' u)) /\
      (forall p, length p = d -> length (f p) = d /\ vadd b' (vscale c (vsub (f p) b')) = vadd b' (vscale c' (vsub p b))).
  Proof.
    intros Hs H. unfold reference_map in H.
    assert (Hvs : exists b c, simplex_verts d b c (if dir then fiat_vertices R d else modepy_vertices R d)) by (destruct dir; eauto using fiat_simplex, modepy_simplex).
    assert (Hvs' : exists b c, simplex_verts d b c (if dir then modepy_vertices R d else fiat_vertices R d)) by (destruct dir; eauto using fiat_simplex, modepy_simplex).
    destruct Hvs as (b & c & Hb). destruct Hvs' as (b' & c' & Hb'). exists b, c, b', c'.
    exists (if dir then fiat_vertices R d else modepy_vertices R d), (if dir then modepy_vertices R d else fiat_vertices R d).
    split; [reflexivity|]. split; [reflexivity|]. split; [exact Hb|]. split; [exact Hb'|].
    pose proof (spans _ _ _ _ Hb) as S1. pose proof (spans _ _ _ _ Hb') as S2.
    set (vs := if dir then fiat_vertices R d else modepy_vertices R d) in *. set (vs' := if dir then modepy_vertices R d else fiat_vertices R d) in *. clearbody vs vs'.
    assert (Hl : length vs = S d) by (rewrite (proj1 Hb); cbn [length]; now rewrite map_length, seq_length).
    assert (G1 : get vs 0 = Ok b) by (rewrite (proj1 Hb); reflexivity). assert (G2 : get vs' 0 = Ok b') by (rewrite (proj1 Hb'); reflexivity).
    rewrite G1, G2 in H. cbn [bind] in H. rewrite Hl in H. destruct d as [|d].
    - cbn [Nat.eqb] in H. injection H as <-. destruct Hb as (_ & Hb). destruct Hb' as (_ & Hb'). destruct b; [|discriminate]. destruct b'; [|discriminate].
      split; [intros [|? ?] Hu; [reflexivity|discriminate]|]. intros [|? ?] Hp; [split; reflexivity|discriminate].
    - cbn [Nat.eqb] in H. rewrite S1, S2 in H. cbn [bind] in H. apply bind_ok in H as (X & EX & H). destruct (Hs _ _ _ (scal_mat _ _) (scal_mat _ _) EX) as (HX & Eq).
      apply bind_ok in H as (? & _ & H). injection H as <-. destruct Hb as (_ & Hb). destruct Hb' as (_ & Hb'). set (D := S d) in *. clearbody D.
      pose proof (solution _ _ _ _ HX Eq) as Hsol.
      assert (LX : forall v, length (matvec X v) = D) by (intros v; rewrite matvec_length; apply HX).
      split.
      + intros u Hu. rewrite (matvec_vadd R D D) by (auto; rewrite vscale_length; lia). rewrite Hsol by exact Hu. rewrite vsub_vadd.
        rewrite (vadd_comm R (matvec X b)), <- vadd_assoc. rewrite (vadd_comm R b'), (vadd_assoc R (matvec X b)), vadd_vopp, LX.
        rewrite zeros_vadd by (exact Hb'). apply vadd_comm.
      + intros p Hp. split; [rewrite vadd_length; [apply LX|rewrite LX, vsub_length; [symmetry; exact Hb'|rewrite LX; exact Hb']]|].
        f_equal. rewrite <- Hsol by (rewrite vsub_length; lia). rewrite <- matvec_vscale || idtac. rewrite matvec_vscale. f_equal.
        rewrite !vsub_vadd. rewrite (matvec_vadd R D D) by (auto; rewrite vopp_length; lia). rewrite matvec_vopp. rewrite <- vadd_assoc. f_equal.
        rewrite (vadd_comm R b'), <- vadd_assoc, vadd_vopp, Hb'. apply vadd_zeros. now rewrite vopp_length, LX.
  Qed.

  Theorem reference_vertices d dir f i v w : right_solver d solve -> reference_map R solve neg_det d dir = Ok f ->
    nth_error (if dir then fiat_vertices R d else modepy_vertices R d) i = Some v -> nth_error (if dir then modepy_vertices R d else fiat_vertices R d) i = Some w -> f v = w.
  Proof.
    intros Hs H Hv Hw. destruct (reference_coords d dir f Hs H) as (b & c & b' & c' & vs & vs' & -> & -> & (Ev & Hb) & (Ev' & Hb') & Hf & _).
    rewrite Ev in Hv. rewrite Ev' in Hw. destruct i as [|i]; cbn [nth_error] in Hv, Hw.
    - injection Hv as <-. injection Hw as <-. specialize (Hf (zeros d) (repeat_length _ _)).
      assert (Hz : forall k : R, vscale k (zeros d) = zeros d). { intros k. unfold vscale, zeros. clear. induction d as [|n IH]; cbn [repeat map]; [reflexivity|]. rewrite IH. f_equal. ring. }
      rewrite !Hz, !vadd_zeros in Hf by assumption. exact Hf.
    - rewrite nth_error_map in Hv, Hw. destruct (nth_error (seq 0 d) i) as [k|]; [|discriminate]. cbn [option_map] in Hv, Hw. injection Hv as <-. injection Hw as <-.
      apply Hf. unfold unitv. now rewrite map_length, seq_length.
  Qed.
End Ref.

Section RefInv.
  Context {R : cring}.
  Add Ring Rring2 : (rth R).
  Variable solve : list (list R) -> list (list R) -> res (list (list R)).
  Variable neg_det : list (list R) -> bool.

  Lemma simplex_verts_fun d (b b2 : list R) c c2 vs : simplex_verts d b c vs -> simplex_verts d b2 c2 vs -> b = b2 /\ forall u, length u = d -> vscale c u = vscale c2 u.
  Proof.
    intros (E & Hb) (E2 & Hb2). rewrite E in E2. injection E2 as <- E2. split; [reflexivity|]. intros u Hu. destruct d as [|d].
    - destruct u; [reflexivity|discriminate].
    - assert (c = c2); [|now subst]. cbn [seq map] in E2. injection E2 as E2 _. apply (f_equal (fun l => nth_error l 0)) in E2. unfold vadd, vscale in E2. rewrite !nth_map2 in E2.
      destruct b as [|x b]; [discriminate|]. cbn [nth_error] in E2. injection E2 as E2.
      assert (H : radd x (rmul c r1) = radd x c) by ring. assert (H2 : radd x (rmul c2 r1) = radd x c2) by ring. rewrite H, H2 in E2.
      assert (E3 : rsub (radd x c) x = rsub (radd x c2) x) by congruence. assert (H3 : rsub (radd x c) x = c) by ring. assert (H4 : rsub (radd x c2) x = c2) by ring. congruence.
  Qed.

  Theorem reference_inverse d f g : right_solver d solve -> reference_map R solve neg_det d true = Ok f -> reference_map R solve neg_det d false = Ok g ->
    forall p, length p = d -> g (f p) = p /\ f (g p) = p.
  Proof.
    intros Hs Hf Hg p Hp.
    destruct (reference_coords solve neg_det d true f Hs Hf) as (b & c & b' & c' & vs & vs' & -> & -> & S1 & S2 & F1 & F2).
    destruct (reference_coords solve neg_det d false g Hs Hg) as (a & e & a' & e' & vs & vs' & -> & -> & T1 & T2 & G1 & G2).
    destruct (simplex_verts_fun _ _ _ _ _ _ S2 T1) as (<- & Hce). destruct (simplex_verts_fun _ _ _ _ _ _ S1 T2) as (<- & Hce').
    destruct (simplex_verts_fun _ _ _ _ _ _ S1 (fiat_simplex d)) as (-> & Hc1).
    assert (V1 : forall u, length u = d -> vscale c u = u) by (intros u Hu; rewrite Hc1 by exact Hu; apply vscale1).
    assert (Hfp : forall u, length u = d -> f u = vadd b' (vscale c' u)). { intros u Hu. rewrite <- (F1 u Hu). rewrite V1 by exact Hu. now rewrite zeros_vadd. }
    assert (Hb' : length b' = d) by apply T1. assert (Hz : length (zeros (R := R) d) = d) by apply repeat_length.
    split.
    - rewrite (Hfp p Hp), Hce by exact Hp. rewrite G1 by exact Hp. rewrite <- Hce' by exact Hp. rewrite V1 by exact Hp. now apply zeros_vadd.
    - destruct (G2 p Hp) as (Hl & E). rewrite (Hfp _ Hl).
      assert (Hs1 : vsub (g p) (zeros d) = g p).
      { rewrite vsub_vadd. assert (Hop : vopp (zeros d) = zeros (R := R) d). { unfold vopp, zeros. clear. induction d as [|n IH]; cbn [repeat map]; [reflexivity|]. rewrite IH. f_equal. ring. }
        rewrite Hop. now apply vadd_zeros. }
      rewrite Hs1 in E. assert (Hlp : length (vsub p b') = d) by (rewrite vsub_length; lia).
      rewrite zeros_vadd in E by (unfold vscale; rewrite map_length; exact Hl). rewrite zeros_vadd in E by (unfold vscale; rewrite map_length; exact Hlp).
      rewrite Hce by exact Hl. rewrite E, <- Hce' by exact Hlp. rewrite V1 by exact Hlp. rewrite vsub_vadd, (vadd_comm R p), vadd_assoc, vadd_vopp, Hb'. now apply zeros_vadd.
  Qed.
End RefInv.
