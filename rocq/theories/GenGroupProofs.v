(** * GenGroupProofs: nodes of groups made of vertices. *)
From Coq Require Import List Arith Bool Lia ZArith Ring.
From Verif Require Import Np NpFacts MeshModel MeshStateModel MeshProofs Lin Ord ProcModel AffineModel RefineModel FdConnFromProofs GenModel GenSpec.
Import ListNotations.

Section Vec.
  Context {R : cring}.
  Add Ring Rring : (rth R).
  Local Open Scope cring_scope.

  Lemma vecmat_cons n a w (r : list R) N : vecmat n (a :: w) (r :: N) = vadd (vscale a r) (vecmat n w N).
  Proof. reflexivity. Qed.

  Lemma between_length t (u v : list R) : length u = length v -> length (between R t u v) = length u.
  Proof. apply map2_length. Qed.
  Lemma between_cons t a (u : list R) b v : between R t (a :: u) (b :: v) = ((1 - t) * a + t * b) :: between R t u v.
  Proof. reflexivity. Qed.

  Lemma vscale_length a (v : list R) : length (vscale a v) = length v.
  Proof. apply map_length. Qed.

  Lemma between_zeros t n : between R t (zeros n) (zeros n) = zeros n.
  Proof. induction n as [|n IH]; [reflexivity|]. change (zeros (R := R) (S n)) with ((0 : R) :: zeros n). rewrite between_cons, IH. f_equal. ring. Qed.

  Lemma between_step t a b (r x y : list R) : length x = length r -> length y = length r ->
    vadd (vscale ((1 - t) * a + t * b) r) (between R t x y) = between R t (vadd (vscale a r) x) (vadd (vscale b r) y).
  Proof.
    revert x y; induction r as [|c r IH]; intros [|p x] [|q y] Hx Hy; cbn [length] in Hx, Hy; try lia; [reflexivity|].
    unfold vadd, vscale, between in *. cbn [map map2]. f_equal; [ring|]. apply IH; lia.
  Qed.

  Lemma vecmat_between n t (w w' : list R) N : length w = length N -> length w' = length N -> Forall (fun r => length r = n) N ->
    vecmat n (between R t w w') N = between R t (vecmat n w N) (vecmat n w' N).
  Proof.
    revert w w'; induction N as [|r N IH]; intros [|a w] [|b w'] Hw Hw' HF; cbn [length] in Hw, Hw'; try lia.
    - unfold vecmat. cbn [map2 between fold_right]. symmetry. apply between_zeros.
    - inversion HF; subst. rewrite between_cons, !vecmat_cons, IH by (auto; lia). apply between_step; apply vecmat_length; auto; lia.
  Qed.

  Lemma span_step a s (v o y : list R) : length o = length v -> length y = length v ->
    vadd (vscale a (vsub v o)) (vadd (vscale (- s) o) y) = vadd (vscale (- (a + s)) o) (vadd (vscale a v) y).
  Proof.
    revert o y; induction v as [|c v IH]; intros [|p o] [|q y] Ho Hy; cbn [length] in Ho, Hy; try lia; [reflexivity|].
    unfold vadd, vscale, vsub in *. cbn [map map2]. f_equal; [ring|]. apply IH; lia.
  Qed.

  Lemma span_sum n (o : list R) w rest : length o = n -> Forall (fun r => length r = n) rest -> length w = length rest ->
    vecmat n w (map (fun v => vsub v o) rest) = vadd (vscale (- rsum w) o) (vecmat n w rest).
  Proof.
    intros Ho HF. revert w; induction HF as [|r rest Hr HF IH]; intros [|a w] Hw; cbn [length] in Hw; try lia.
    - unfold vecmat. cbn [map map2 fold_right rsum]. rewrite vadd_zeros by (rewrite vscale_length; exact Ho).
      subst n. clear. induction o as [|c o IH]; [reflexivity|]. change (zeros (R := R) (length (c :: o))) with ((0 : R) :: zeros (length o)). rewrite IH. cbn [vscale map]. f_equal. ring.
    - cbn [map]. rewrite !vecmat_cons, IH by lia. cbn [rsum]. apply span_step; [lia|]. rewrite vecmat_length; auto; lia.
  Qed.

  Lemma bary_step s (o y : list R) : length y = length o -> vadd (vadd (vscale (- s) o) y) o = vadd (vscale (1 - s) o) y.
  Proof.
    revert y; induction o as [|c o IH]; intros [|q y] Hy; cbn [length] in Hy; try lia; [reflexivity|].
    unfold vadd, vscale in *. cbn [map map2]. f_equal; [ring|]. apply IH; lia.
  Qed.

  (** origin + sum of w_i (v_i - origin) in barycentric form *)
  Lemma bary n (o : list R) w rest : length o = n -> Forall (fun r => length r = n) rest -> length w = length rest ->
    vadd (vecmat n w (map (fun v => vsub v o) rest)) o = vecmat n ((1 - rsum w) :: w) (o :: rest).
  Proof.
    intros Ho HF Hw. rewrite (span_sum n) by auto. rewrite vecmat_cons. apply bary_step. rewrite vecmat_length; auto.
  Qed.

  Lemma rsum_between t (u v : list R) : length u = length v -> rsum (between R t u v) = (1 - t) * rsum u + t * rsum v.
  Proof.
    revert v; induction u as [|a u IH]; intros [|b v] H; cbn [length] in H; try lia; [unfold between; cbn [map2 rsum]; ring|].
    rewrite between_cons. cbn [rsum]. rewrite IH by lia. ring.
  Qed.
End Vec.

Section Simplex.
  Variable R : cring.
  Variable half : R.
  Add Ring Rring2 : (rth R).
  Local Open Scope cring_scope.
  Hypothesis Hhalf : half + half = 1.

  Definition weights (u : list R) : list R := let w := to_01 R half u in (1 - rsum w) :: w.
  Definition spoint (n : nat) (verts : list (list R)) (u : list R) : list R := vecmat n (weights u) verts.

  Lemma to_01_length u : length (to_01 R half u) = length u.
  Proof. apply map_length. Qed.
  Lemma weights_length u : length (weights u) = S (length u).
  Proof. unfold weights. cbn [length]. now rewrite to_01_length. Qed.

  Lemma simplex_points_ok n d verts un : length verts = S d -> Forall (fun v => length v = n) verts -> Forall (fun u => length u = d) un ->
    simplex_points R half un verts = Ok (map (spoint n verts) un).
  Proof.
    intros Hd HF Hu. destruct verts as [|o rest]; [discriminate|]. cbn [length] in Hd. inversion HF; subst. unfold simplex_points. cbn [get nth_error bind skipn].
    rewrite map_length. apply mapM_ok.
    clear HF. induction Hu as [|u un Hu Hun IH]; cbn [map]; constructor.
    - unfold guard. replace (length u) with (length rest) by lia. rewrite Nat.eqb_refl. cbn [bind]. f_equal. unfold spoint, weights. apply bary; auto. rewrite to_01_length. lia.
    - exact IH.
  Qed.

  Lemma to_01_between t u v : length u = length v -> to_01 R half (between R t u v) = between R t (to_01 R half u) (to_01 R half v).
  Proof.
    revert v; induction u as [|a u IH]; intros [|b v] H; cbn [length] in H; try lia; [reflexivity|]. unfold to_01, between in *. cbn [map map2]. f_equal; [ring|]. apply IH. lia.
  Qed.

  Lemma weights_between t u v : length u = length v -> weights (between R t u v) = between R t (weights u) (weights v).
  Proof.
    intros H. unfold weights. cbv zeta. rewrite to_01_between by auto. rewrite between_cons. f_equal. rewrite rsum_between by (now rewrite !to_01_length). ring.
  Qed.

  Lemma spoint_between n d verts t u v : length verts = S d -> Forall (fun v => length v = n) verts -> length u = d -> length v = d ->
    spoint n verts (between R t u v) = between R t (spoint n verts u) (spoint n verts v).
  Proof.
    intros Hd HF Hu Hv. unfold spoint. rewrite weights_between by lia. apply vecmat_between; auto; rewrite weights_length; lia.
  Qed.

  Lemma to_01_unit d k : to_01 R half (unit_vertex R d k) = map (fun j => if k =? j then 1 else 0) (seq 1 d).
  Proof.
    unfold to_01, unit_vertex. rewrite map_map, <- seq_shift, map_map. apply map_ext. intros j. rewrite (Nat.eqb_sym k). destruct (S j =? k); [transitivity (half + half); [ring|exact Hhalf]|ring].
  Qed.

  Lemma rsum_unit s d k : rsum (map (fun j => if k =? j then (1 : R) else 0) (seq s d)) = if ((s <=? k) && (k <? s + d))%nat then 1 else 0.
  Proof.
    revert s; induction d as [|d IH]; intros s; cbn [seq map rsum].
    - destruct (Nat.leb_spec s k), (Nat.ltb_spec k (s + 0)%nat); cbn [andb]; try reflexivity; lia.
    - rewrite IH. destruct (Nat.eqb_spec k s), (Nat.leb_spec (S s) k), (Nat.leb_spec s k), (Nat.ltb_spec k (S s + d)%nat), (Nat.ltb_spec k (s + S d)%nat); cbn [andb]; try lia; ring.
  Qed.

  Lemma weights_unit d k : (k <= d)%nat -> weights (unit_vertex R d k) = map (fun j => if (0 + k)%nat =? j then 1 else 0) (seq 0 (S d)).
  Proof.
    intros Hk. unfold weights. cbv zeta. rewrite to_01_unit. cbn [seq map Nat.add]. f_equal. rewrite rsum_unit.
    destruct (Nat.eqb_spec k 0), (Nat.leb_spec 1 k), (Nat.ltb_spec k (1 + d)%nat); cbn [andb]; try lia; ring.
  Qed.

  Lemma spoint_vertex n d verts k v : length verts = S d -> Forall (fun v => length v = n) verts -> nth_error verts k = Some v ->
    spoint n verts (unit_vertex R d k) = v.
  Proof.
    intros Hd HF Hk. assert (k < S d) by (rewrite <- Hd; apply nth_error_Some; congruence). unfold spoint. rewrite weights_unit by lia. now apply vecmat_unit.
  Qed.
End Simplex.

Section Tensor.
  Variable R : cring.
  Variable half : R.
  Add Ring Rring3 : (rth R).
  Local Open Scope cring_scope.
  Hypothesis Hhalf : half + half = 1.

  Lemma monomial_corner f t : Forall (fun b => b < 2)%nat t -> monomial R f (to_01 R half (unit_corner R t)) = monomial R f (map (rnat R) t).
  Proof.
    unfold monomial. intros H. f_equal. f_equal. unfold to_01, unit_corner. rewrite map_map. apply map_ext_in. intros b Hb. rewrite Forall_forall in H. specialize (H b Hb).
    destruct b as [|[|b]]; [cbn [rnat]; ring|cbn [rnat]; transitivity (half + half); [ring|rewrite Hhalf; ring]|lia].
  Qed.

  Definition tpoint (tuples : list (list nat)) (n : nat) (coeffs : list (list R)) (u : list R) : list R :=
    vecmat n (map (fun f => monomial R f (to_01 R half u)) tuples) coeffs.

  Lemma with_coord_length i a (u : list R) : length (with_coord R i a u) = length u.
  Proof. unfold with_coord. rewrite map_length, combine_length, seq_length. lia. Qed.

  Lemma with_coord_from s i a (u : list R) : forall f, Forall (fun b => b < 2)%nat f ->
    forall t b, 
      rprod R (map2 (rpow R) (to_01 R half (map (fun jx => if fst jx =? i then (1 - t) * a + t * b else snd jx) (combine (seq s (length u)) u))) f)
      = (1 - t) * rprod R (map2 (rpow R) (to_01 R half (map (fun jx => if fst jx =? i then a else snd jx) (combine (seq s (length u)) u))) f)
        + t * rprod R (map2 (rpow R) (to_01 R half (map (fun jx => if fst jx =? i then b else snd jx) (combine (seq s (length u)) u))) f).
  Proof.
    revert s; induction u as [|x u IH]; intros s f Hf t b.
    - cbn [length seq combine map to_01 map2 rprod]. ring.
    - destruct f as [|e f]; [unfold to_01; cbn [length seq combine map map2 rprod]; ring|]. inversion Hf; subst. unfold to_01 in *. cbn [length seq combine map map2 rprod fst snd].
      destruct (Nat.eqb_spec s i) as [->|Hsi].
      + assert (E : forall c, map (fun x : R => half + half * x) (map (fun jx => if fst jx =? i then c else snd jx) (combine (seq (S i) (length u)) u))
                   = map (fun x : R => half + half * x) u).
        { intros c. f_equal. clear. assert (G : forall s, (i < s)%nat -> map (fun jx => if fst jx =? i then c else snd jx) (combine (seq s (length u)) u) = u).
          { induction u as [|y u IH]; intros s Hs; cbn [length seq combine map fst snd]; [reflexivity|]. destruct (Nat.eqb_spec s i); [lia|]. f_equal. apply IH. lia. }
          apply G. lia. }
        rewrite !E. destruct e as [|[|e]]; [cbn [rpow]; ring|cbn [rpow]; ring|lia].
      + rewrite IH by auto. ring.
  Qed.

  Lemma monomial_multi f i t a b u : Forall (fun e => e < 2)%nat f ->
    monomial R f (to_01 R half (with_coord R i ((1 - t) * a + t * b) u))
    = (1 - t) * monomial R f (to_01 R half (with_coord R i a u)) + t * monomial R f (to_01 R half (with_coord R i b u)).
  Proof. intros Hf. unfold monomial, with_coord. now apply with_coord_from. Qed.

  Lemma tpoint_multi tuples n coeffs i t a b u : Forall (Forall (fun e => e < 2)%nat) tuples -> length coeffs = length tuples -> Forall (fun r => length r = n) coeffs ->
    tpoint tuples n coeffs (with_coord R i ((1 - t) * a + t * b) u) = between R t (tpoint tuples n coeffs (with_coord R i a u)) (tpoint tuples n coeffs (with_coord R i b u)).
  Proof.
    intros Ht Hl HF. unfold tpoint. rewrite <- vecmat_between by (auto; now rewrite map_length). f_equal.
    clear Hl. induction Ht as [|f ts Hf Hts IH]; [reflexivity|]. cbn [map]. rewrite between_cons. f_equal; [now apply monomial_multi|exact IH].
  Qed.

  Lemma tpoint_corner tuples n coeffs verts k t v :
    matmul n (map (fun t => map (fun f => monomial R f (map (rnat R) t)) tuples) tuples) coeffs = verts ->
    nth_error tuples k = Some t -> Forall (fun b => b < 2)%nat t -> nth_error verts k = Some v -> tpoint tuples n coeffs (unit_corner R t) = v.
  Proof.
    intros <- Ht Hb Hv. unfold matmul in Hv. rewrite map_map in Hv. rewrite (map_nth_error _ _ _ Ht) in Hv. injection Hv as <-. unfold tpoint. f_equal. apply map_ext. intros f. now apply monomial_corner.
  Qed.

  Lemma tensor_points_ok solve tuples un verts n dim : right_solver R solve -> length verts = (2 ^ dim)%nat -> Forall (fun v => length v = n) verts ->
    length (tuples dim) = (2 ^ dim)%nat -> Forall (fun u => length u = dim) un ->
    forall coeffs, solve (map (fun t => map (fun f => monomial R f (map (rnat R) t)) (tuples dim)) (tuples dim)) verts = Ok coeffs ->
    tensor_points R half solve tuples un verts = Ok (map (tpoint (tuples dim) n coeffs) un) /\ is_mat (R := R) (2 ^ dim) n coeffs /\
    matmul n (map (fun t => map (fun f => monomial R f (map (rnat R) t)) (tuples dim)) (tuples dim)) coeffs = verts.
  Proof.
    intros Hs Hv HF Ht Hu coeffs Hc. assert (Hp : (2 ^ dim <> 0)%nat) by (apply Nat.pow_nonzero; lia).
    assert (Hm : is_mat (R := R) (2 ^ dim) (2 ^ dim) (map (fun t => map (fun f => monomial R f (map (rnat R) t)) (tuples dim)) (tuples dim))).
    { split; [now rewrite map_length|]. apply Forall_forall. intros r Hr. apply in_map_iff in Hr as (t & <- & _). now rewrite map_length. }
    destruct (Hs _ n _ verts coeffs Hm (conj Hv HF) Hc) as (Hmc & Hmm). split; [|split; auto].
    unfold tensor_points. cbv zeta. rewrite Hv, Nat.log2_pow2 by lia. unfold guard at 1. rewrite Nat.eqb_refl. destruct (Nat.eqb_spec (2 ^ dim) 0); [contradiction|]. cbn [negb andb bind].
    unfold guard at 1. rewrite Ht, Nat.eqb_refl. cbn [bind]. rewrite Hc. cbn [bind]. replace (match verts with [] => 0%nat | v :: _ => length v end) with n.
    2: { destruct verts as [|v verts]; [cbn [length] in Hv; lia|]. now inversion HF. }
    apply mapM_ok. clear Hm Hmm Hmc Hc. induction Hu as [|u un Hu Hun IH]; cbn [map]; constructor; [|exact IH]. unfold guard. rewrite Hu, Nat.eqb_refl. reflexivity.
  Qed.
End Tensor.
