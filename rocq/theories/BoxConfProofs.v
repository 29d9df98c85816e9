(** * BoxConfProofs: elements of neighboring cells share faces *)
From Coq Require Import List Arith Bool ZArith Lia Permutation.
From Verif Require Import Np NpFacts MeshModel MeshSpec Lin RestrProofs BoxModel BoxSpec BoxIndexProofs.
Import ListNotations.

(** ** local faces: positions of the vertices of facet [ref] of a subelement *)
Definition lface (d : nat) (cs : list corner) (ref : list nat) : list (list nat) :=
  match take (map (coff d) cs) ref with Ok P => P | Err _ => [] end.

Fixpoint key_eqb (a b : list nat) : bool :=
  match a, b with [], [] => true | x :: a, y :: b => (x =? y) && key_eqb a b | _, _ => false end.
Lemma key_eqb_eq a b : key_eqb a b = true <-> a = b.
Proof.
  revert b. induction a as [|x a IH]; intros [|y b]; cbn; split; intros H; try discriminate; auto.
  - apply andb_true_iff in H as (H1 & H2). apply Nat.eqb_eq in H1. apply IH in H2. congruence.
  - injection H as <- <-. rewrite Nat.eqb_refl. now apply IH.
Qed.
Definition key_memb (x : list nat) (l : list (list nat)) : bool := existsb (key_eqb x) l.
Lemma key_memb_In x l : key_memb x l = true <-> In x l.
Proof. unfold key_memb. rewrite existsb_exists. split; [intros (y & Hy & E); apply key_eqb_eq in E; congruence|intros H; exists x; split; [assumption|now apply key_eqb_eq]]. Qed.
Definition keys_eqb (a b : list (list nat)) : bool := forallb (fun x => key_memb x b) a && forallb (fun x => key_memb x a) b.
Lemma keys_eqb_spec a b : keys_eqb a b = true <-> forall x, In x a <-> In x b.
Proof.
  unfold keys_eqb. rewrite andb_true_iff, !forallb_forall. split.
  - intros (H1 & H2) x. split; intros H; apply key_memb_In; auto.
  - intros H. split; intros x Hx; apply key_memb_In, H, Hx.
Qed.
Fixpoint distinct_b (l : list (list nat)) : bool := match l with [] => true | x :: l => negb (key_memb x l) && distinct_b l end.
Lemma distinct_b_spec l : distinct_b l = true -> NoDup l.
Proof. induction l as [|x l IH]; cbn; intros H; constructor; apply andb_true_iff in H as (H1 & H2); auto. intros Hin. apply key_memb_In in Hin. rewrite Hin in H1. discriminate. Qed.

(** (subelement, facet, positions) *)
Definition lfaces (d : nat) (table : list (list corner)) (facets : list (list nat)) : list (nat * nat * list (list nat)) :=
  flat_map (fun ics => map (fun iref => (fst ics, fst iref, lface d (snd ics) (snd iref))) (enumerate facets)) (enumerate table).

Definition ones (d : nat) : list nat := repeat 1 d.
(** (shift by one cell, encoded by adding 1; subelement; facet) *)
Definition neighbors (d : nat) (table : list (list corner)) (facets : list (list nat)) (p : nat * nat * list (list nat)) : list (list nat * (nat * nat)) :=
  flat_map (fun dl => flat_map (fun q =>
      if keys_eqb (map (place dl) (snd q)) (map (place (ones d)) (snd p)) && negb (key_eqb dl (ones d) && pair_eqb (fst q) (fst p))
      then [(dl, fst q)] else []) (lfaces d table facets)) (ndindex (repeat 3 d)).

Definition all_at (a v : nat) (P : list (list nat)) : bool :=
  forallb (fun x => match nth_error x a with Some y => y =? v | None => false end) P.

Definition conf_face (d : nat) (table : list (list corner)) (facets : list (list nat)) (p : nat * nat * list (list nat)) : bool :=
  negb (length (snd p) =? 0) && distinct_b (snd p) && forallb (fun x => (length x =? d) && forallb (fun y => y <=? 2) x) (snd p) &&
  match neighbors d table facets p with
  | [(dl, q)] => forallb (fun a => Bool.eqb (all_at a 0 (snd p)) (match nth_error dl a with Some v => v =? 0 | None => false end) &&
                                   Bool.eqb (all_at a 2 (snd p)) (match nth_error dl a with Some v => v =? 2 | None => false end)) (seq 0 d)
  | _ => false
  end.
Definition conf_check (d nv : nat) (table : list (list corner)) (facets : list (list nat)) : bool :=
  forallb (fun cs => length cs =? nv) table && forallb (forallb (fun k => k <? nv)) facets &&
  forallb (fun fg => forallb (fun gh => (fst fg =? fst gh) || negb (set_eqb (snd fg) (snd gh))) (enumerate facets)) (enumerate facets) &&
  forallb (conf_face d table facets) (lfaces d table facets).

(** ** general facts *)
Lemma perm_Forall2 {A B} (Q : A -> B -> Prop) l l' m : Permutation l l' -> Forall2 Q l m -> exists m', Forall2 Q l' m' /\ Permutation m m'.
Proof.
  intros HP. revert m. induction HP as [|x l l' HP IH|x y l|l l' l'' H1 IH1 H2 IH2]; intros m HF.
  - inversion HF; subst. exists []. split; constructor.
  - inversion HF as [|? b ? m' Hb Hm]; subst. destruct (IH _ Hm) as (m'' & HF' & Hp). exists (b :: m''). split; [now constructor|now constructor].
  - inversion HF as [|? b ? m' Hb Hm]; subst. inversion Hm as [|? c ? m'' Hc Hm']; subst. exists (c :: b :: m''). split; [now repeat constructor|constructor].
  - destruct (IH1 _ HF) as (m1 & HF1 & Hp1). destruct (IH2 _ HF1) as (m2 & HF2 & Hp2). exists m2. split; [exact HF2|]. now transitivity m1.
Qed.
Lemma Forall2_fun {A B} (Q : A -> B -> Prop) l m m' : (forall a b b', Q a b -> Q a b' -> b = b') -> Forall2 Q l m -> Forall2 Q l m' -> m = m'.
Proof. intros HQ H. revert m'. induction H as [|a b l m Hab H IH]; intros m' H'; inversion H' as [|? b' ? m'' Hb' Hm']; subst; [reflexivity|]. f_equal; eauto. Qed.
Lemma Forall2_sym {A B} (Q : A -> B -> Prop) l m : Forall2 Q l m -> Forall2 (fun b a => Q a b) m l.
Proof. induction 1; constructor; auto. Qed.

Definition shifted (t dl t' : list nat) : Prop := map2 Nat.add t dl = map S t'.

Lemma place_length t p : length t = length p -> length (place t p) = length t.
Proof. apply map2_length. Qed.
Lemma place_inj t p q : length p = length t -> length q = length t -> place t p = place t q -> p = q.
Proof. unfold place. revert p q. induction t as [|a t IH]; intros [|x p] [|y q] Hp Hq H; cbn in *; try lia; [reflexivity|]. injection H as H1 H2. f_equal; [lia|]. apply IH; auto; lia. Qed.
Lemma place_shift t dl t' p p' : length dl = length t -> length t' = length t -> length p = length t -> length p' = length t -> shifted t dl t' ->
  (place dl p' = place (ones (length t)) p <-> place t' p' = place t p).
Proof.
  unfold place, shifted, ones. revert dl t' p p'. induction t as [|a t IH]; intros [|x dl] [|y t'] [|u p] [|v p'] H1 H2 H3 H4 Hs; cbn in H1, H2, H3, H4; try lia; [tauto|].
  cbn [map2 map] in Hs. injection Hs as Ha Hs. cbn [length repeat map2]. specialize (IH dl t' p p' ltac:(lia) ltac:(lia) ltac:(lia) ltac:(lia) Hs).
  split; intros H; injection H as Hh Ht; (f_equal; [lia|now apply IH]).
Qed.
Lemma shift_exists t t' p p' : length t' = length t -> length p = length t -> length p' = length t -> Forall (fun y => y <= 2) p -> Forall (fun y => y <= 2) p' -> place t' p' = place t p ->
  exists dl, length dl = length t /\ In dl (ndindex (repeat 3 (length t))) /\ shifted t dl t'.
Proof.
  unfold place, shifted. revert t' p p'. induction t as [|a t IH]; intros [|y t'] [|u p] [|v p'] H1 H2 H3 Hp Hp' H; cbn in H1, H2, H3; try lia.
  - exists []. split; [reflexivity|]. split; [now left|reflexivity].
  - cbn [map2] in H. injection H as Hh Ht. apply Forall_cons_iff in Hp as (Hu & Hp). apply Forall_cons_iff in Hp' as (Hv & Hp').
    destruct (IH t' p p' ltac:(lia) ltac:(lia) ltac:(lia) Hp Hp' Ht) as (dl & Hl & Hin & Hs). exists ((S y - a) :: dl). split; [cbn; lia|]. split.
    + cbn [length repeat]. apply In_ndindex. constructor; [lia|now apply In_ndindex].
    + cbn [map2 map]. f_equal; [lia|exact Hs].
Qed.
Lemma shifted_inj t dl t' t'' : shifted t dl t' -> shifted t dl t'' -> t' = t''.
Proof. unfold shifted. intros H1 H2. rewrite H1 in H2. clear -H2. revert t'' H2. induction t' as [|x t' IH]; intros [|y t'']; cbn; intros H; try discriminate; [reflexivity|]. injection H as H1 H2. f_equal; auto. Qed.
Lemma shifted_ones t : shifted t (ones (length t)) t.
Proof. unfold shifted, ones. induction t as [|a t IH]; [reflexivity|]. cbn [length repeat map2 map]. f_equal; [lia|exact IH]. Qed.
Lemma shifted_same t dl : length dl = length t -> shifted t dl t -> dl = ones (length t).
Proof. unfold shifted, ones. revert dl. induction t as [|a t IH]; intros [|x dl] Hl H; cbn in Hl; try lia; [reflexivity|]. cbn [map2 map] in H. injection H as H1 H2. cbn [length repeat]. f_equal; [lia|]. apply IH; [lia|exact H2]. Qed.
Lemma nth_place t p a x y : nth_error t a = Some x -> nth_error p a = Some y -> nth_error (place t p) a = Some (2 * x + y).
Proof. apply (nth_map2 (fun i o => 2 * i + o)). Qed.

(** the shifted cell exists unless some coordinate leaves the grid *)
Lemma shift_in_grid t dl n : Forall2 lt t n -> length dl = length t -> Forall (fun v => v <= 2) dl ->
  (exists t', shifted t dl t' /\ Forall2 lt t' n) \/
  exists a x v m, nth_error t a = Some x /\ nth_error dl a = Some v /\ nth_error n a = Some m /\ ((x = 0 /\ v = 0) \/ (v = 2 /\ S x = m)).
Proof.
  intros HF. revert dl. induction HF as [|x m t n Hx HF IH]; intros [|v dl] Hl Hd; cbn in Hl; try lia.
  - left. exists []. split; [reflexivity|constructor].
  - apply Forall_cons_iff in Hd as (Hv & Hd). destruct (IH dl ltac:(lia) Hd) as [(t' & Hs & Ht')|(a & x' & v' & m' & H1 & H2 & H3 & H4)].
    + destruct (Nat.eq_dec (x + v) 0) as [E|E]; [right; exists 0, x, v, m; cbn; repeat split; auto; lia|].
      destruct (Nat.eq_dec v 2) as [->|Hv2]; [destruct (Nat.eq_dec (S x) m) as [E2|E2]; [right; exists 0, x, 2, m; cbn; repeat split; auto|]|].
      * left. exists (S x :: t'). split; [|constructor; [lia|exact Ht']]. unfold shifted in *. cbn [map2 map]. f_equal; [lia|exact Hs].
      * left. exists (x + v - 1 :: t'). split; [|constructor; [lia|exact Ht']]. unfold shifted in *. cbn [map2 map]. f_equal; [lia|exact Hs].
    + right. exists (S a), x', v', m'. cbn. auto.
Qed.
Lemma shift_out t dl t' n a x v m : shifted t dl t' -> Forall2 lt t' n -> nth_error t a = Some x -> nth_error dl a = Some v -> nth_error n a = Some m ->
  ~ ((x = 0 /\ v = 0) \/ (v = 2 /\ S x = m)).
Proof.
  unfold shifted. intros Hs HF Hx Hv Hm Hc. pose proof (nth_map2 Nat.add _ _ _ _ _ Hx Hv) as Hn. rewrite Hs in Hn. rewrite nth_error_map in Hn.
  destruct (nth_error t' a) as [y|] eqn:Hy; [|discriminate]. cbn in Hn. injection Hn as Hn. destruct (Forall2_nth_error _ _ _ _ _ HF Hy) as (m' & Hm' & Hlt). assert (m' = m) by congruence. subst. lia.
Qed.

(** ** the faces of all elements *)
Section Conf.
  Context {E : Type}.
  Variables (mid : bool) (shape : list nat) (nv : nat) (table : list (list corner)) (facets fvi : list (list nat)) (rows : list (list nat)) (nodes : list E).
  Hypothesis Hshape : shape <> [].
  Hypothesis Hrows : rows_spec mid shape table rows.
  Hypothesis Hcheck : conf_check (length shape) nv table facets = true.
  Hypothesis Hfvi : enumerates fvi facets.
  Hypothesis Hnodes : length nodes = length rows.
  Let d := length shape.
  Let cells := ndindex (pred_shape shape).
  Let keys := vkeys mid shape (pred_shape shape).
  Let groups := [mk_egroup (Some rows) nodes fvi].

  Lemma chk_len cs : In cs table -> length cs = nv.
  Proof. intros H. unfold conf_check in Hcheck. rewrite !andb_true_iff in Hcheck. destruct Hcheck as (((H1 & _) & _) & _). rewrite forallb_forall in H1. now apply Nat.eqb_eq, H1. Qed.
  Lemma chk_ref ref k : In ref facets -> In k ref -> k < nv.
  Proof. intros H Hk. unfold conf_check in Hcheck. rewrite !andb_true_iff in Hcheck. destruct Hcheck as (((_ & H1) & _) & _). rewrite forallb_forall in H1. specialize (H1 _ H). rewrite forallb_forall in H1. now apply Nat.ltb_lt, H1. Qed.
  Lemma chk_distinct f g a b : nth_error facets f = Some a -> nth_error facets g = Some b -> Permutation a b -> f = g.
  Proof.
    intros Ha Hb HP. unfold conf_check in Hcheck. rewrite !andb_true_iff in Hcheck. destruct Hcheck as ((_ & H1) & _). rewrite forallb_forall in H1.
    assert (Hf : In (f, a) (enumerate facets)) by (now apply In_enumerate). specialize (H1 _ Hf). rewrite forallb_forall in H1. assert (Hg : In (g, b) (enumerate facets)) by (now apply In_enumerate). specialize (H1 _ Hg). cbn [fst snd] in H1.
    apply orb_true_iff in H1 as [H1|H1]; [now apply Nat.eqb_eq in H1|]. exfalso. apply negb_true_iff, not_true_iff_false in H1. apply H1. unfold set_eqb. apply andb_true_iff. split; apply forallb_forall; intros x Hx; apply memb_In; [now apply (Permutation_in _ HP)|now apply (Permutation_in _ (Permutation_sym HP))].
  Qed.
  Lemma chk_face p : In p (lfaces d table facets) -> conf_face d table facets p = true.
  Proof. intros H. unfold conf_check in Hcheck. rewrite !andb_true_iff in Hcheck. destruct Hcheck as (_ & H1). rewrite forallb_forall in H1. auto. Qed.

  Lemma lfaces_In s f P : In (s, f, P) (lfaces d table facets) <-> exists cs ref, nth_error table s = Some cs /\ nth_error facets f = Some ref /\ P = lface d cs ref.
  Proof.
    unfold lfaces. rewrite in_flat_map. split.
    - intros ((s', cs) & Hs & H). apply In_enumerate in Hs. apply in_map_iff in H as ((f', ref) & Heq & Hf). apply In_enumerate in Hf. cbn [fst snd] in Heq. injection Heq as <- <- <-. eauto.
    - intros (cs & ref & Hs & Hf & ->). exists (s, cs). split; [now apply In_enumerate|]. apply in_map_iff. exists (f, ref). split; [reflexivity|now apply In_enumerate].
  Qed.
  Lemma lface_wf s f P : In (s, f, P) (lfaces d table facets) -> P <> [] /\ NoDup P /\ forall x, In x P -> length x = d /\ Forall (fun y => y <= 2) x.
  Proof.
    intros H. apply chk_face in H. unfold conf_face in H. cbn [fst snd] in H. rewrite !andb_true_iff in H. destruct H as (((H1 & H2) & H3) & _). split; [|split].
    - intros ->. discriminate.
    - now apply distinct_b_spec.
    - rewrite forallb_forall in H3. intros x Hx. apply H3 in Hx. apply andb_true_iff in Hx as (Hl & Hf). split; [now apply Nat.eqb_eq|]. apply Forall_forall. rewrite forallb_forall in Hf. intros y Hy. now apply Nat.leb_le, Hf.
  Qed.

  (** facets and reference faces *)
  Lemma facet_of f ref : nth_error fvi f = Some ref -> exists f0 ref0, nth_error facets f0 = Some ref0 /\ Permutation ref ref0.
  Proof.
    intros H. destruct Hfvi as (F1 & HP & HF). destruct (Forall2_nth_error _ _ _ _ _ HF H) as (ref0 & H0 & Hp).
    apply nth_error_In in H0. apply (Permutation_in _ (Permutation_sym HP)) in H0. apply In_nth_error in H0 as (f0 & H0). eauto.
  Qed.
  Lemma ref_of f0 ref0 : nth_error facets f0 = Some ref0 -> exists f ref, nth_error fvi f = Some ref /\ Permutation ref ref0.
  Proof.
    intros H. destruct Hfvi as (F1 & HP & HF). apply nth_error_In in H. apply (Permutation_in _ HP) in H. apply In_nth_error in H. destruct H as (f & Hf).
    destruct (Forall2_nth_error_r _ _ _ _ _ HF Hf) as (ref & H0 & Hp). eauto.
  Qed.
  Lemma facets_inj f g a b : nth_error fvi f = Some a -> nth_error fvi g = Some b -> Permutation a b -> f = g.
  Proof.
    intros Ha Hb HP. destruct Hfvi as (F1 & HP1 & HF). destruct (Forall2_nth_error _ _ _ _ _ HF Ha) as (a0 & Ha0 & Hpa). destruct (Forall2_nth_error _ _ _ _ _ HF Hb) as (b0 & Hb0 & Hpb).
    assert (Hab : Permutation a0 b0) by (rewrite <- Hpa, HP; exact Hpb).
    assert (a0 = b0).
    { pose proof (nth_error_In _ _ Ha0) as Ia. pose proof (nth_error_In _ _ Hb0) as Ib. apply (Permutation_in _ (Permutation_sym HP1)) in Ia, Ib. apply In_nth_error in Ia as (i & Hi). apply In_nth_error in Ib as (j & Hj).
      assert (i = j) by (eapply chk_distinct; eauto). congruence. }
    subst b0. assert (Hnd : NoDup F1).
    { apply (Permutation_NoDup HP1). apply NoDup_nth_error. intros i j Hi Hij. destruct (nth_exists facets i Hi) as (x & Hx). eapply chk_distinct; [exact Hx|rewrite <- Hij; exact Hx|reflexivity]. }
    refine (proj1 (NoDup_nth_error F1) Hnd f g _ _); [apply nth_error_Some; congruence|congruence].
  Qed.

  (** [lists t P vs]: the vertices [vs] are those at the positions [P] of cell [t] *)
  Definition lists (t : list nat) (P : list (list nat)) (vs : list nat) : Prop :=
    exists ks, Forall2 (fun v k => nth_error keys v = Some k) vs ks /\ Permutation ks (map (place t) P).

  (** face (e, f) is facet f0 of subelement s of cell t *)
  Definition is_face (e f : nat) (t : list nat) (s f0 : nat) (P : list (list nat)) : Prop :=
    exists c cs ref ref0, e = length table * c + s /\ nth_error cells c = Some t /\ nth_error table s = Some cs /\ nth_error fvi f = Some ref /\
      nth_error facets f0 = Some ref0 /\ Permutation ref ref0 /\ P = lface d cs ref0.

  Lemma lface_take cs ref : In cs table -> Forall (fun k => k < nv) ref -> take (map (coff d) cs) ref = Ok (lface d cs ref).
  Proof.
    intros Hcs Hr. unfold lface. destruct (take_total (map (coff d) cs) ref) as (P & HP); [rewrite map_length, (chk_len cs Hcs); exact Hr|]. now rewrite HP.
  Qed.
  Lemma ref_lt ref ref0 : In ref0 facets -> Permutation ref ref0 -> Forall (fun k => k < nv) ref.
  Proof. intros H HP. apply Forall_forall. intros k Hk. apply (chk_ref ref0); auto. now apply (Permutation_in _ HP). Qed.
  Lemma lface_perm cs ref ref0 : In cs table -> In ref0 facets -> Permutation ref ref0 -> Permutation (lface d cs ref) (lface d cs ref0).
  Proof.
    intros Hcs H0 HP. pose proof (lface_take cs ref Hcs (ref_lt ref ref0 H0 HP)) as E1. pose proof (lface_take cs ref0 Hcs (ref_lt ref0 ref0 H0 (Permutation_refl _))) as E2.
    apply take_ok in E1, E2. destruct (perm_Forall2 _ _ _ _ HP E1) as (m' & HF & Hp).
    assert (m' = lface d cs ref0); [|subst; exact Hp]. eapply Forall2_fun; [|exact HF|exact E2]. intros a b b' Hb Hb'. cbn beta in *. congruence.
  Qed.

  Lemma face_verts_is e f vs : face_verts groups (0, e, f) vs <->
    exists c t s cs ref, e = length table * c + s /\ nth_error cells c = Some t /\ nth_error table s = Some cs /\ nth_error fvi f = Some ref /\
      exists ks, Forall2 (fun v k => nth_error keys v = Some k) vs ks /\ ks = map (place t) (lface d cs ref).
  Proof.
    assert (Hrow : forall c t s cs ref row vs, nth_error cells c = Some t -> nth_error table s = Some cs -> nth_error fvi (f) = Some ref ->
      Forall2 (fun cn v => nth_error keys v = Some (place t (coff d cn))) cs row ->
      (Forall2 (fun k v => nth_error row k = Some v) ref vs <-> Forall2 (fun v k => nth_error keys v = Some k) vs (map (place t) (lface d cs ref)))).
    { intros c t s cs ref row vs' Ht Hs Hf HF. destruct (facet_of f ref Hf) as (f0 & ref0 & H0 & HP).
      pose proof (lface_take cs ref (nth_error_In _ _ Hs) (ref_lt ref ref0 (nth_error_In _ _ H0) HP)) as HT. apply take_ok in HT.
      remember (lface d cs ref) as P eqn:EP. clear EP Hf HP. revert vs'. induction HT as [|k p ref P Hk HT IH]; intros vs'.
      - cbn [map]. split; inversion 1; constructor.
      - rewrite nth_error_map in Hk. destruct (nth_error cs k) as [cn|] eqn:Hcn; [|discriminate]. cbn in Hk. injection Hk as <-.
        destruct (Forall2_nth_error _ _ _ _ _ HF Hcn) as (v & Hv & Hkey). cbn [map]. split; inversion 1 as [|? v' ? vs'' Hv' Hvs]; subst.
        + constructor; [cbn beta in *; congruence|now apply IH].
        + constructor; [|now apply IH]. cbn beta in *. rewrite Hv. f_equal. refine (proj1 (NoDup_nth_error keys) (NoDup_vkeys mid shape (pred_shape shape) Hshape) v _ _ _); [apply nth_error_Some; congruence|congruence]. }
    unfold face_verts, groups. split.
    - intros (grp & row & ref & Hg & (grp' & vi & Hg' & Hvi & He & Hr) & Hf & HF). cbn in Hg. injection Hg as <-. cbn in Hg'. injection Hg' as <-. cbn [eg_vi eg_fvi] in *. injection Hvi as <-.
      destruct (rs_inv _ _ _ _ _ _ Hrows Hr) as (c & t & s & cs & -> & Ht & Hs & HFr). exists c, t, s, cs, ref. do 4 (split; [assumption||reflexivity|]). eexists. split; [|reflexivity]. eapply Hrow; eauto.
    - intros (c & t & s & cs & ref & -> & Ht & Hs & Hf & ks & HF & ->). destruct (rs_row _ _ _ _ Hrows _ _ _ _ Ht Hs) as (row & Hr & HFr).
      eexists. exists row, ref. split; [reflexivity|]. split.
      + eexists. exists rows. split; [reflexivity|]. split; [reflexivity|]. split; [|exact Hr]. unfold nelements. cbn [eg_nodes]. rewrite Hnodes. apply nth_error_Some. congruence.
      + split; [exact Hf|]. eapply Hrow; eauto.
  Qed.
  Lemma face_verts_group a vs : face_verts groups a vs -> fst (fst a) = 0.
  Proof. destruct a as [[[|g] e] f]; [reflexivity|]. intros (grp & row & ref & Hg & _). destruct g; discriminate. Qed.

  Lemma face_verts_lists e f vs : face_verts groups (0, e, f) vs -> exists t s f0 P, is_face e f t s f0 P /\ lists t P vs.
  Proof.
    intros H. apply face_verts_is in H as (c & t & s & cs & ref & He & Ht & Hs & Hf & ks & HF & ->). destruct (facet_of f ref Hf) as (f0 & ref0 & H0 & HP).
    exists t, s, f0, (lface d cs ref0). split; [exists c, cs, ref, ref0; auto 10|]. eexists. split; [exact HF|]. apply Permutation_map, lface_perm; eauto using nth_error_In.
  Qed.
  Lemma is_face_verts e f t s f0 P : is_face e f t s f0 P -> exists vs, face_verts groups (0, e, f) vs /\ lists t P vs.
  Proof.
    intros (c & cs & ref & ref0 & He & Ht & Hs & Hf & H0 & HP & ->). destruct (rs_row _ _ _ _ Hrows _ _ _ _ Ht Hs) as (row & Hr & HFr).
    assert (HT : exists vs, Forall2 (fun v k => nth_error keys v = Some k) vs (map (place t) (lface d cs ref))).
    { pose proof (lface_take cs ref (nth_error_In _ _ Hs) (ref_lt ref ref0 (nth_error_In _ _ H0) HP)) as HT. apply take_ok in HT. remember (lface d cs ref) as P. clear -HT HFr. induction HT as [|k p r P Hk HT (vs & IH)]; [exists []; constructor|].
      rewrite nth_error_map in Hk. destruct (nth_error cs k) as [cn|] eqn:Hcn; [|discriminate]. injection Hk as <-. destruct (Forall2_nth_error _ _ _ _ _ HFr Hcn) as (v & _ & Hv). exists (v :: vs). constructor; auto. }
    destruct HT as (vs & HF). exists vs. split; [apply face_verts_is; eauto 15|]. eexists. split; [exact HF|]. apply Permutation_map, lface_perm; eauto using nth_error_In.
  Qed.
  Lemma is_face_lface e f t s f0 P : is_face e f t s f0 P -> In (s, f0, P) (lfaces d table facets) /\ In t cells /\ length t = d.
  Proof.
    intros (c & cs & ref & ref0 & He & Ht & Hs & Hf & H0 & HP & ->). split; [apply lfaces_In; eauto|]. apply nth_error_In in Ht. split; [exact Ht|].
    apply In_ndindex, Forall2_length' in Ht. rewrite map_length in Ht. exact Ht.
  Qed.
  Lemma is_face_valid e f : valid_face groups (0, e, f) <-> exists t s f0 P, is_face e f t s f0 P.
  Proof.
    unfold valid_face, groups. split.
    - intros (grp & Hg & He & Hf). cbn in Hg. injection Hg as <-. unfold nelements, nfaces in *. cbn [eg_nodes eg_fvi] in *. rewrite Hnodes in He. destruct (nth_exists rows e He) as (row & Hr). destruct (nth_exists fvi f Hf) as (ref & Href).
      destruct (rs_inv _ _ _ _ _ _ Hrows Hr) as (c & t & s & cs & Ec & Ht & Hs & _). destruct (facet_of f ref Href) as (f0 & ref0 & H0 & HP). exists t, s, f0, (lface d cs ref0). exists c, cs, ref, ref0. auto 10.
    - intros (t & s & f0 & P & c & cs & ref & ref0 & -> & Ht & Hs & Hf & _). eexists. split; [reflexivity|]. unfold nelements, nfaces. cbn [eg_nodes eg_fvi]. rewrite Hnodes.
      destruct (rs_row _ _ _ _ Hrows _ _ _ _ Ht Hs) as (row & Hr & _). split; apply nth_error_Some; congruence.
  Qed.
  Lemma is_face_inj e f e' f' t s f0 P P' : is_face e f t s f0 P -> is_face e' f' t s f0 P' -> e = e' /\ f = f'.
  Proof.
    intros (c & cs & ref & ref0 & -> & Ht & Hs & Hf & H0 & HP & ->) (c' & cs' & ref' & ref0' & -> & Ht' & Hs' & Hf' & H0' & HP' & ->). split.
    - f_equal. f_equal. refine (proj1 (NoDup_nth_error cells) (NoDup_ndindex _) c c' _ _); [apply nth_error_Some; congruence|congruence].
    - apply (facets_inj f f' ref ref'); auto. assert (ref0' = ref0) by congruence. subst. rewrite HP. now symmetry.
  Qed.
  Lemma is_face_fun e f t s f0 P t' s' f0' P' : is_face e f t s f0 P -> is_face e f t' s' f0' P' -> t = t' /\ s = s' /\ f0 = f0' /\ P = P'.
  Proof.
    intros (c & cs & ref & ref0 & -> & Ht & Hs & Hf & H0 & HP & ->) (c' & cs' & ref' & ref0' & He & Ht' & Hs' & Hf' & H0' & HP' & ->).
    assert (s < length table) by (apply nth_error_Some; congruence). assert (s' < length table) by (apply nth_error_Some; congruence).
    assert (Hcc : c = c' /\ s = s'). { assert (c = c') by nia. subst. lia. } destruct Hcc as (<- & <-). assert (ref' = ref) by congruence. subst ref'. assert (cs' = cs) by congruence. subst cs'.
    assert (f0' = f0). { eapply chk_distinct; [exact H0'|exact H0|]. rewrite <- HP'. exact HP. } subst f0'. repeat split; congruence.
  Qed.
  Lemma is_face_exists t s f0 P : In t cells -> In (s, f0, P) (lfaces d table facets) -> exists e f, is_face e f t s f0 P.
  Proof.
    intros Ht H. apply lfaces_In in H as (cs & ref0 & Hs & H0 & ->). apply In_nth_error in Ht as (c & Ht). destruct (ref_of f0 ref0 H0) as (f & ref & Hf & HP).
    exists (length table * c + s), f, c, cs, ref, ref0. auto 10.
  Qed.

  (** equal vertices *)
  Lemma lists_perm t P vs t' P' vs' : lists t P vs -> lists t' P' vs' -> (Permutation vs vs' <-> Permutation (map (place t) P) (map (place t') P')).
  Proof.
    intros (ks & HF & Hp) (ks' & HF' & Hp'). split; intros H.
    - destruct (perm_Forall2 _ _ _ _ H HF) as (m & HFm & Hm). assert (m = ks') by (eapply Forall2_fun; [|exact HFm|exact HF']; intros a b b' X Y; cbn beta in *; congruence). subst m.
      rewrite <- Hp, Hm. exact Hp'.
    - assert (Hk : Permutation ks ks') by (rewrite Hp, H; now symmetry). destruct (perm_Forall2 _ _ _ _ Hk (Forall2_sym _ _ _ HF)) as (m & HFm & Hm).
      assert (m = vs'); [|now subst]. eapply Forall2_fun; [|exact HFm|exact (Forall2_sym _ _ _ HF')]. intros a b b' X Y. cbn beta in *.
      refine (proj1 (NoDup_nth_error keys) (NoDup_vkeys mid shape (pred_shape shape) Hshape) b b' _ _); [apply nth_error_Some; congruence|congruence].
  Qed.
  Lemma place_set_perm t P t' P' s f0 s' f0' : length t = d -> length t' = d -> In (s, f0, P) (lfaces d table facets) -> In (s', f0', P') (lfaces d table facets) ->
    (Permutation (map (place t) P) (map (place t') P') <-> forall x, In x (map (place t) P) <-> In x (map (place t') P')).
  Proof.
    intros Ht Ht' HP HP'. apply lface_wf in HP as (_ & Hnd & Hl), HP' as (_ & Hnd' & Hl'). split.
    - intros H x. split; apply Permutation_in; [exact H|now symmetry].
    - intros H. apply NoDup_Permutation; [| |exact H]; (apply NoDup_map_inj; [|assumption]); intros a b Ha Hb; apply place_inj.
      + rewrite Ht. now apply Hl. + rewrite Ht. now apply Hl. + rewrite Ht'. now apply Hl'. + rewrite Ht'. now apply Hl'.
  Qed.
  Lemma sets_shift t dl t' P P' s f0 s' f0' : length t = d -> length t' = d -> length dl = d -> In (s, f0, P) (lfaces d table facets) -> In (s', f0', P') (lfaces d table facets) -> shifted t dl t' ->
    (keys_eqb (map (place dl) P') (map (place (ones d)) P) = true <-> forall x, In x (map (place t) P) <-> In x (map (place t') P')).
  Proof.
    intros Ht Ht' Hdl HP HP' Hs. apply lface_wf in HP as (_ & _ & Hl), HP' as (_ & _ & Hl'). rewrite keys_eqb_spec.
    assert (Hiff : forall p p', In p P -> In p' P' -> (place dl p' = place (ones d) p <-> place t' p' = place t p)).
    { intros p p' Hp Hp'. rewrite <- Ht. apply place_shift; try congruence; rewrite Ht; [now apply Hl|now apply Hl']. }
    split; intros H x; split; intros Hx.
    - apply in_map_iff in Hx as (p & <- & Hp). pose proof (proj2 (H (place (ones d) p)) (in_map _ _ _ Hp)) as Hx. apply in_map_iff in Hx as (p' & E1 & Hp'). apply in_map_iff. exists p'. split; [now apply Hiff|exact Hp'].
    - apply in_map_iff in Hx as (p' & <- & Hp'). pose proof (proj1 (H (place dl p')) (in_map _ _ _ Hp')) as Hx. apply in_map_iff in Hx as (p & E1 & Hp). apply in_map_iff. exists p. split; [symmetry; apply Hiff; auto|exact Hp].
    - apply in_map_iff in Hx as (p' & <- & Hp'). pose proof (proj2 (H (place t' p')) (in_map _ _ _ Hp')) as Hx. apply in_map_iff in Hx as (p & E1 & Hp). apply in_map_iff. exists p. split; [symmetry; apply Hiff; auto|exact Hp].
    - apply in_map_iff in Hx as (p & <- & Hp). pose proof (proj1 (H (place t p)) (in_map _ _ _ Hp)) as Hx. apply in_map_iff in Hx as (p' & E1 & Hp'). apply in_map_iff. exists p'. split; [now apply Hiff|exact Hp'].
  Qed.
  Lemma neighbors_In p dl q : In (dl, q) (neighbors d table facets p) <-> In dl (ndindex (repeat 3 d)) /\ exists P', In (q, P') (lfaces d table facets) /\ keys_eqb (map (place dl) P') (map (place (ones d)) (snd p)) = true /\ ~ (dl = ones d /\ q = fst p).
  Proof.
    unfold neighbors. rewrite in_flat_map. split.
    - intros (dl' & Hdl & H). apply in_flat_map in H as ((q', P') & Hq & H). cbn [fst snd] in H. destruct (keys_eqb (map (place dl') P') (map (place (ones d)) (snd p))) eqn:Ek; [|destruct H].
      destruct (key_eqb dl' (ones d) && pair_eqb q' (fst p)) eqn:En; [destruct H|]. destruct H as [H|[]]. injection H as <- <-. split; [exact Hdl|]. exists P'. split; [exact Hq|]. split; [exact Ek|].
      intros (-> & ->). apply not_true_iff_false in En. apply En. apply andb_true_iff. split; [now apply key_eqb_eq|now apply pair_eqb_eq].
    - intros (Hdl & P' & Hq & Ek & Hn). exists dl. split; [exact Hdl|]. apply in_flat_map. exists (q, P'). split; [exact Hq|]. cbn [fst snd]. rewrite Ek.
      destruct (key_eqb dl (ones d) && pair_eqb q (fst p)) eqn:En; [|now left]. exfalso. apply andb_true_iff in En as (E1 & E2). apply key_eqb_eq in E1. apply pair_eqb_eq in E2. auto.
  Qed.

  (** partners *)
  Lemma partner_iff e f t s f0 P e' f' t' s' f0' P' : is_face e f t s f0 P -> is_face e' f' t' s' f0' P' ->
    (partner groups (0, e, f) (0, e', f') <-> exists dl, length dl = d /\ shifted t dl t' /\ In (dl, (s', f0')) (neighbors d table facets (s, f0, P))).
  Proof.
    intros Hf Hf'. destruct (is_face_lface _ _ _ _ _ _ Hf) as (Hl & Ht & Hlt). destruct (is_face_lface _ _ _ _ _ _ Hf') as (Hl' & Ht' & Hlt').
    destruct (is_face_verts _ _ _ _ _ _ Hf) as (vs & Hvs & HL). destruct (is_face_verts _ _ _ _ _ _ Hf') as (vs' & Hvs' & HL').
    assert (Huniq : forall a va vb, face_verts groups a va -> face_verts groups a vb -> va = vb).
    { intros ((g, x), y) va vb (g1 & r1 & f1 & A1 & (g1' & v1 & A2 & A3 & _ & A4) & A5 & A6) (g2 & r2 & f2 & B1 & (g2' & v2 & B2 & B3 & _ & B4) & B5 & B6).
      assert (g2 = g1) by congruence. subst g2. assert (g1' = g1) by congruence. assert (g2' = g1) by congruence. subst. assert (v1 = v2) by congruence. subst. assert (r1 = r2) by congruence. assert (f1 = f2) by congruence. subst.
      eapply Forall2_fun; [|exact A6|exact B6]. intros ? ? ? X Y. cbn beta in *. congruence. }
    assert (Hsame : same_verts groups (0, e, f) (0, e', f') <-> forall x, In x (map (place t) P) <-> In x (map (place t') P')).
    { rewrite <- (place_set_perm t P t' P' s f0 s' f0'), <- (lists_perm t P vs t' P' vs') by assumption. split.
      - intros (va & vb & Ha & Hb & Hp). rewrite (Huniq _ _ _ Hvs Ha), (Huniq _ _ _ Hvs' Hb). exact Hp.
      - intros Hp. exists vs, vs'. auto. }
    split.
    - intros (_ & _ & Hne & Hsv). pose proof (proj1 Hsame Hsv) as Hset. destruct (lface_wf _ _ _ Hl) as (HP0 & _ & HPl). destruct (lface_wf _ _ _ Hl') as (_ & _ & HPl').
      destruct P as [|p P0] eqn:EP; [congruence|]. rewrite <- EP in *. assert (Hp : In p P) by (rewrite EP; now left). pose proof (proj1 (Hset (place t p)) (in_map _ _ _ Hp)) as Hx. apply in_map_iff in Hx as (p' & Epp & Hp').
      destruct (shift_exists t t' p p') as (dl & Hdl & Hdin & Hs); try congruence.
      + rewrite Hlt. now apply HPl. + rewrite Hlt. now apply HPl'. + now apply HPl. + now apply HPl'.
      + rewrite Hlt in *. exists dl. split; [exact Hdl|]. split; [exact Hs|]. apply neighbors_In. split; [exact Hdin|]. exists P'. split; [exact Hl'|]. cbn [fst snd]. split; [apply (sets_shift t dl t' P P' s f0 s' f0'); assumption|].
        intros (Ed & Eq). subst dl. assert (t' = t) by (eapply shifted_inj; [exact Hs|rewrite <- Hlt; apply shifted_ones]). subst t'. injection Eq as -> ->. destruct (is_face_inj _ _ _ _ _ _ _ _ _ Hf Hf') as (-> & ->). now apply Hne.
    - intros (dl & Hdl & Hs & Hin). apply neighbors_In in Hin as (_ & P1 & Hq & Hk & Hn). cbn [fst snd] in *.
      assert (P1 = P'). { apply lfaces_In in Hq as (c1 & r1 & A1 & A2 & ->). apply lfaces_In in Hl' as (c2 & r2 & B1 & B2 & ->). congruence. } subst P1.
      split; [apply is_face_valid; eauto 10|]. split; [apply is_face_valid; eauto 10|]. split.
      + intros Heq. injection Heq as -> ->. destruct (is_face_fun _ _ _ _ _ _ _ _ _ _ Hf Hf') as (<- & <- & <- & <-). apply Hn. split; [|reflexivity]. rewrite <- Hlt. apply shifted_same; [congruence|exact Hs].
      + apply Hsame. apply (sets_shift t dl t' P P' s f0 s' f0'); assumption.
  Qed.

  Lemma one_neighbor p : In p (lfaces d table facets) -> exists dl q, neighbors d table facets p = [(dl, q)] /\
    forall a v, nth_error dl a = Some v -> (v = 0 <-> all_at a 0 (snd p) = true) /\ (v = 2 <-> all_at a 2 (snd p) = true).
  Proof.
    intros H. apply chk_face in H as Hc. unfold conf_face in Hc. rewrite andb_true_iff in Hc. destruct Hc as (_ & Hc). destruct (neighbors d table facets p) as [|(dl, q) [|]] eqn:En; try discriminate.
    exists dl, q. split; [reflexivity|]. intros a v Ha. rewrite forallb_forall in Hc. assert (Hdl : In dl (ndindex (repeat 3 d))) by (assert (In (dl, q) (neighbors d table facets p)) by (rewrite En; now left); now apply neighbors_In in H0 as (? & _)).
    apply In_ndindex, Forall2_length' in Hdl. rewrite repeat_length in Hdl. assert (Had : In a (seq 0 d)) by (apply in_seq; split; [lia|]; rewrite <- Hdl; cbn; apply nth_error_Some; congruence).
    specialize (Hc a Had). rewrite Ha in Hc. apply andb_true_iff in Hc as (H1 & H2). apply Bool.eqb_prop in H1, H2. split; [rewrite H1|rewrite H2]; symmetry; apply Nat.eqb_eq.
  Qed.

  Theorem box_at_most_two : at_most_two groups.
  Proof.
    intros a b c (Ha & Hb & Hab) (_ & Hc & Hac). assert (Hg : forall x, valid_face groups x -> exists e f, x = (0, e, f)).
    { intros ((g, x), y) (grp & Hg & _). destruct g as [|g]; [eauto|]. destruct g; discriminate. }
    destruct (Hg a Ha) as (e & f & ->). destruct (Hg b Hb) as (e' & f' & ->). destruct (Hg c Hc) as (e'' & f'' & ->).
    destruct (proj1 (is_face_valid e f) Ha) as (t & s & f0 & P & Hf). destruct (proj1 (is_face_valid e' f') Hb) as (t' & s' & f0' & P' & Hf'). destruct (proj1 (is_face_valid e'' f'') Hc) as (t'' & s'' & f0'' & P'' & Hf'').
    destruct (proj1 (partner_iff _ _ _ _ _ _ _ _ _ _ _ _ Hf Hf') (conj Ha (conj Hb Hab))) as (dl & _ & Hs & Hn). destruct (proj1 (partner_iff _ _ _ _ _ _ _ _ _ _ _ _ Hf Hf'') (conj Ha (conj Hc Hac))) as (dl' & _ & Hs' & Hn').
    destruct (one_neighbor (s, f0, P) (proj1 (is_face_lface _ _ _ _ _ _ Hf))) as (dl0 & q & En & _). rewrite En in Hn, Hn'. destruct Hn as [Hn|[]]. destruct Hn' as [Hn'|[]]. assert (dl' = dl) by congruence. subst dl'. assert (Hq : (s', f0') = (s'', f0'')) by congruence. injection Hq as <- <-.
    assert (t'' = t') by (eapply shifted_inj; eauto). subst t''. destruct (is_face_inj _ _ _ _ _ _ _ _ _ Hf' Hf'') as (-> & ->). reflexivity.
  Qed.

  (** positions on a side of the cell *)
  Lemma all_at_spec a v P s f0 : In (s, f0, P) (lfaces d table facets) -> (all_at a v P = true <-> forall x, In x P -> nth_error x a = Some v).
  Proof.
    intros _. unfold all_at. rewrite forallb_forall. split; intros H x Hx; specialize (H x Hx).
    - destruct (nth_error x a); [|discriminate]. apply Nat.eqb_eq in H. congruence.
    - rewrite H. apply Nat.eqb_refl.
  Qed.

  Lemma side_local t s f0 P a x m : In (s, f0, P) (lfaces d table facets) -> In t cells -> nth_error t a = Some x -> nth_error (pred_shape shape) a = Some m ->
       ((forall y, In y P -> nth_error (place t y) a = Some 0) <-> x = 0 /\ all_at a 0 P = true) /\
       ((forall y, In y P -> nth_error (place t y) a = Some (2 * m)) <-> S x = m /\ all_at a 2 P = true).
  Proof.
    intros Hl Ht Hx Hm. pose proof (proj1 (In_ndindex _ _) Ht) as HFt. assert (Hlt : length t = d) by (pose proof (Forall2_length' _ _ _ HFt) as Hlt; rewrite map_length in Hlt; exact Hlt). destruct (lface_wf _ _ _ Hl) as (HP0 & _ & HPl). assert (Hxm : x < m) by (destruct (Forall2_nth_error _ _ _ _ _ HFt Hx) as (m' & Hm' & Hlt'); assert (m' = m) by congruence; subst; exact Hlt').
      assert (Hpl : forall y, In y P -> exists u, nth_error y a = Some u /\ u <= 2 /\ nth_error (place t y) a = Some (2 * x + u)).
      { intros y Hy. destruct (HPl y Hy) as (Hly & Hby). destruct (nth_exists y a) as (u & Hu); [rewrite Hly, <- Hlt; apply nth_error_Some; congruence|]. exists u. split; [exact Hu|]. split; [|now apply nth_place]. rewrite Forall_forall in Hby. apply Hby. eapply nth_error_In; eauto. }
      split; split.
      - intros H. split; [|apply (all_at_spec a 0 P s f0 Hl); intros y Hy; destruct (Hpl y Hy) as (u & Hu & _ & Hp); rewrite (H y Hy) in Hp; injection Hp as Hp; rewrite Hu; f_equal; lia].
        destruct P as [|y P0]; [congruence|]. destruct (Hpl y (or_introl eq_refl)) as (u & Hu & _ & Hp). rewrite (H y (or_introl eq_refl)) in Hp. injection Hp as Hp. lia.
      - intros (-> & H) y Hy. destruct (Hpl y Hy) as (u & Hu & _ & Hp). rewrite (proj1 (all_at_spec a 0 P s f0 Hl) H y Hy) in Hu. injection Hu as <-. exact Hp.
      - intros H. split; [|apply (all_at_spec a 2 P s f0 Hl); intros y Hy; destruct (Hpl y Hy) as (u & Hu & Hu2 & Hp); rewrite (H y Hy) in Hp; injection Hp as Hp; rewrite Hu; f_equal; lia].
        destruct P as [|y P0]; [congruence|]. destruct (Hpl y (or_introl eq_refl)) as (u & Hu & Hu2 & Hp). rewrite (H y (or_introl eq_refl)) in Hp. injection Hp as Hp. lia.
      - intros (Hm' & H) y Hy. destruct (Hpl y Hy) as (u & Hu & _ & Hp). rewrite (proj1 (all_at_spec a 2 P s f0 Hl) H y Hy) in Hu. injection Hu as <-. rewrite Hp. f_equal. lia.
  Qed.

  (** A face has no partner exactly if it lies on a side of the grid *)
  Theorem box_boundary e f t s f0 P : is_face e f t s f0 P ->
    (boundary_face groups (0, e, f) <->
     exists a m, nth_error (pred_shape shape) a = Some m /\
       ((forall x, In x P -> nth_error (place t x) a = Some 0) \/ (forall x, In x P -> nth_error (place t x) a = Some (2 * m)))).
  Proof.
    intros Hf. destruct (is_face_lface _ _ _ _ _ _ Hf) as (Hl & Ht & Hlt). destruct (one_neighbor (s, f0, P) Hl) as (dl & (s', f0') & En & Hdl). cbn [snd] in Hdl.
    assert (Hin : In (dl, (s', f0')) (neighbors d table facets (s, f0, P))) by (rewrite En; now left). apply neighbors_In in Hin as (Hdin & P' & Hq & _).
    pose proof (proj1 (In_ndindex _ _) Hdin) as HFd. pose proof (Forall2_length' _ _ _ HFd) as Hld. rewrite repeat_length in Hld. pose proof (proj1 (In_ndindex _ _) Ht) as HFt.
    assert (Hle : Forall (fun v => v <= 2) dl). { clear -HFd. remember (repeat 3 d) as r. assert (Hr : Forall (fun n => n = 3) r) by (subst; apply Forall_forall; intros x Hx; now apply repeat_spec in Hx). clear Heqr. induction HFd; constructor; apply Forall_cons_iff in Hr as (-> & Hr); [lia|auto]. }
    destruct (lface_wf _ _ _ Hl) as (HP0 & _ & HPl).
    assert (Hside : forall a x m, nth_error t a = Some x -> nth_error (pred_shape shape) a = Some m ->
       ((forall y, In y P -> nth_error (place t y) a = Some 0) <-> x = 0 /\ all_at a 0 P = true) /\
       ((forall y, In y P -> nth_error (place t y) a = Some (2 * m)) <-> S x = m /\ all_at a 2 P = true)).
    { intros a x m. apply (side_local t s f0 P a x m Hl Ht). }
    split.
    - intros (Hv & Hb). destruct (shift_in_grid t dl (pred_shape shape) HFt ltac:(congruence) Hle) as [(t' & Hs & Ht')|(a & x & v & m & Hx & Hva & Hm & Hc)].
      + exfalso. destruct (is_face_exists t' s' f0' P') as (e' & f' & Hf'); [now apply In_ndindex|exact Hq|]. apply (Hb (0, e', f')). apply (partner_iff _ _ _ _ _ _ _ _ _ _ _ _ Hf Hf'). exists dl. split; [exact Hld|]. split; [exact Hs|]. rewrite En. now left.
      + exists a, m. split; [exact Hm|]. destruct (Hside a x m Hx Hm) as (H1 & H2). destruct (Hdl a v Hva) as (H3 & H4). destruct Hc as [(-> & Hc)|(Hc & Hxm)]; [left; apply H1; split; [reflexivity|now apply H3]|right; apply H2; split; [exact Hxm|now apply H4]].
    - intros (a & m & Hm & Hc). split; [apply is_face_valid; eauto 10|]. intros b Hp. destruct b as ((g, e'), f'). assert (Hg : g = 0). { destruct Hp as (_ & (grp & Hg & _) & _). destruct g as [|[|g]]; try discriminate. reflexivity. } subst g.
      pose proof Hp as (_ & Hvb & _). apply is_face_valid in Hvb as (t' & s1 & f1 & P1 & Hf'). destruct (proj1 (partner_iff _ _ _ _ _ _ _ _ _ _ _ _ Hf Hf') Hp) as (dl' & _ & Hs & Hn). rewrite En in Hn. destruct Hn as [Hn|[]]. injection Hn as <- <- <-.
      destruct (is_face_lface _ _ _ _ _ _ Hf') as (_ & Ht' & _). apply In_ndindex in Ht'. destruct (nth_exists t a) as (x & Hx); [rewrite Hlt; unfold d; rewrite <- (map_length (fun s => s - 1) shape); apply nth_error_Some; congruence|].
      destruct (nth_exists dl a) as (v & Hva); [rewrite Hld, <- Hlt; apply nth_error_Some; congruence|]. destruct (Hside a x m Hx Hm) as (H1 & H2). destruct (Hdl a v Hva) as (H3 & H4).
      apply (shift_out _ _ _ _ _ _ _ _ Hs Ht' Hx Hva Hm). destruct Hc as [Hc|Hc]; [left; apply H1 in Hc as (? & ?); split; [assumption|now apply H3]|right; apply H2 in Hc as (? & ?); split; [now apply H4|assumption]].
  Qed.
End Conf.
