(** * GenSphereProofs: icosahedra and spheres. *)
From Coq Require Import List Arith Bool Lia ZArith Ring.
From Verif Require Import Np NpFacts MeshModel MeshStateModel MeshProofs Lin Ord ProcModel AffineModel RefineModel RefineSpec RefineProofs FdConnFromProofs GenModel GenSpec GenGroupProofs.
Import ListNotations.

(** ** Ordered rings *)
Section Ordered.
  Variable R : ocring.
  Add Ring Ro : (rth R).
  Local Open Scope cring_scope.
  Hypothesis Hpos : strict_products R.

  Lemma lt_sub (a b : R) : a <? b = true <-> 0 <? b - a = true.
  Proof.
    unfold olt. rewrite !negb_true_iff. split; intros H; apply not_true_is_false; intros K; apply not_true_iff_false in H; apply H.
    - apply diff_le. apply le_diff in K. now replace (a - b) with (0 - (b - a)) by ring.
    - apply diff_le. apply le_diff in K. now replace (0 - (b - a)) with (a - b) by ring.
  Qed.
  Lemma lt_ne (a : R) : 0 <? a = true -> a <> 0.
  Proof. intros H ->. rewrite olt_irrefl in H. discriminate. Qed.
  Lemma ne_cases (a : R) : a <> 0 -> 0 <? a = true \/ 0 <? - a = true.
  Proof.
    intros H. destruct (0 <=? a) eqn:E.
    - left. rewrite olt_iff. apply not_true_is_false. intros K. apply H. now apply (ole_antisym R).
    - right. replace (- a) with (0 - a) by ring. apply (proj1 (lt_sub a 0)). now apply olt_iff.
  Qed.
  Lemma square_pos (a : R) : a <> 0 -> 0 <? a * a = true.
  Proof.
    intros H. destruct (ne_cases a H) as [K|K]; [auto|]. replace (a * a) with ((- a) * (- a)) by ring. auto.
  Qed.
  Lemma product_zero (a b : R) : a * b = 0 -> a <> 0 -> b = 0.
  Proof.
    intros H Ha. destruct (0 <=? b) eqn:E1, (b <=? 0) eqn:E2; try (now apply (ole_antisym R)).
    - exfalso. assert (Hb : b <> 0) by (intros ->; now rewrite ole_refl in E2). pose proof (Hpos _ _ (square_pos a Ha) (square_pos b Hb)) as K.
      replace (a * a * (b * b)) with ((a * b) * (a * b)) in K by ring. rewrite H in K. apply (lt_ne _ K). ring.
    - exfalso. assert (Hb : b <> 0) by (intros ->; now rewrite ole_refl in E1). pose proof (Hpos _ _ (square_pos a Ha) (square_pos b Hb)) as K.
      replace (a * a * (b * b)) with ((a * b) * (a * b)) in K by ring. rewrite H in K. apply (lt_ne _ K). ring.
    - exfalso. destruct (ole_total R 0 b); congruence.
  Qed.
  Lemma sum_squares_nonneg (p : list R) : (0 <=? dot p p) = true.
  Proof. induction p as [|a p IH]; [apply ole_refl|]. rewrite dot_cons. apply ole_add_nonneg; auto. apply square_nonneg. Qed.
  Lemma dot_zero (p : list R) : dot p p = 0 -> forall n, dot n p = 0.
  Proof.
    induction p as [|a p IH]; intros H n; [apply dot_nil_r|]. rewrite dot_cons in H.
    assert (Ha : a * a = 0).
    { apply (ole_antisym R); [|apply square_nonneg]. apply diff_le. replace (0 - a * a) with (dot p p) by (rewrite <- H; ring). apply sum_squares_nonneg. }
    assert (Hp : dot p p = 0) by (rewrite Ha in H; rewrite <- H; ring).
    assert (a = 0). { destruct (0 <=? a) eqn:E1, (a <=? 0) eqn:E2; try (now apply (ole_antisym R)); [| |destruct (ole_total R 0 a); congruence];
      exfalso; assert (Hb : a <> 0) by (intros ->; rewrite ole_refl in *; congruence); apply (lt_ne _ (square_pos a Hb)); exact Ha. }
    destruct n as [|b n]; [reflexivity|]. rewrite dot_cons, IH by auto. subst a. ring.
  Qed.

  Variables (sqrt inv : R -> R).
  Hypothesis Hsqrt : right_sqrt R sqrt.
  Hypothesis Hinv : right_inv R inv.

  (** the square of 1/sqrt N *)
  Lemma inv_sqrt (N : R) : (0 <=? N) = true -> N <> 0 -> N * (inv (sqrt N) * inv (sqrt N)) = 1 /\ sqrt N <> 0.
  Proof.
    intros H Hn. destruct (Hsqrt N H) as (Hs & _). assert (Hs0 : sqrt N <> 0) by (intros E; apply Hn; rewrite <- Hs, E; ring). split; auto.
    pose proof (Hinv _ Hs0) as Hi. rewrite <- Hs at 1. replace (sqrt N * sqrt N * (inv (sqrt N) * inv (sqrt N))) with ((sqrt N * inv (sqrt N)) * (sqrt N * inv (sqrt N))) by ring. rewrite Hi. ring.
  Qed.

  Lemma dot_scale c (p q : list R) : dot (map (fun x => x * c) p) (map (fun x => x * c) q) = c * c * dot p q.
  Proof. revert q; induction p as [|a p IH]; intros [|b q]; cbn [map]; try (unfold dot; cbn [map2 rsum]; ring). rewrite !dot_cons, IH. ring. Qed.

  Lemma scaled_to_eq r p : scaled_to R sqrt inv r p = map (fun x => x * (r * inv (sqrt (dot p p)))) p.
  Proof. unfold scaled_to. apply map_ext. intros x. ring. Qed.

  Lemma scaled_on_sphere r p : length p = 3%nat -> dot p p <> 0 -> on_sphere R r (scaled_to R sqrt inv r p).
  Proof.
    intros Hl Hn. split; [unfold scaled_to; now rewrite map_length|]. rewrite scaled_to_eq, dot_scale. destruct (inv_sqrt _ (sum_squares_nonneg p) Hn) as (H & _).
    transitivity (r * r * (dot p p * (inv (sqrt (dot p p)) * inv (sqrt (dot p p))))); [ring|]. rewrite H. ring.
  Qed.

  Lemma inv_pos a : (0 : R) <? 1 = true -> 0 <? a = true -> 0 <? inv a = true.
  Proof.
    intros H1 Ha. pose proof (Hinv a (lt_ne _ Ha)) as H. assert (Hi : inv a <> 0) by (intros E; rewrite E in H; apply (lt_ne _ H1); rewrite <- H; ring).
    destruct (ne_cases _ Hi) as [K|K]; auto. exfalso. pose proof (Hpos _ _ Ha K) as L. replace (a * - inv a) with (- (a * inv a)) in L by ring. rewrite H in L.
    pose proof (olt_add R 0 1 0 (- (1)) H1 L) as M. replace (1 + - (1)) with (0 : R) in M by ring. replace (0 + 0) with (0 : R) in M by ring. rewrite olt_irrefl in M. discriminate.
  Qed.
End Ordered.

(** ** Sorting of the vertices: only the order of -phi < -1 < 0 < 1 < phi matters *)
Section Tokens.
  Variable R : ocring.
  Add Ring Ro2 : (rth R).
  Local Open Scope cring_scope.
  Variable phi : R.
  Hypothesis Hgold : golden R phi.

  Lemma one_pos : (0 : R) <? 1 = true.
  Proof.
    destruct Hgold as (H & Hlt). rewrite olt_iff. apply not_true_is_false. intros K. assert (E : (1 : R) = 0).
    { apply (ole_antisym R); auto. replace (1 : R) with ((1 : R) * 1) by ring. apply square_nonneg. }
    assert (E2 : phi = 1) by (transitivity (phi * 1); [ring|]; rewrite E; ring). rewrite E2, olt_irrefl in Hlt. discriminate.
  Qed.
  Lemma phi_pos : 0 <? phi = true.
  Proof. destruct Hgold as (_ & H). eapply ole_lt_trans; [|exact H]. apply olt_nle. apply one_pos. Qed.

  Ltac chain T := first [assumption | eapply T; [eassumption|chain T]].

  Definition tok (z : Z) : R := match z with 2%Z => phi | 1%Z => 1 | (-1)%Z => - (1) | (-2)%Z => - phi | _ => 0 end.
  Definition token (z : Z) : Prop := In z [-2; -1; 0; 1; 2]%Z.

  Lemma tok_lt a b : token a -> token b -> (a < b)%Z -> tok a <? tok b = true.
  Proof.
    assert (H1 := one_pos). assert (Hp := phi_pos). destruct Hgold as (_ & Hg).
    assert (N1 : - (1) <? (0 : R) = true) by (apply (proj2 (lt_sub R _ _)); now replace (0 - - (1)) with (1 : R) by ring).
    assert (N2 : - phi <? - (1) = true) by (apply (proj2 (lt_sub R _ _)); replace (- (1) - - phi) with (phi - 1) by ring; now apply (proj1 (lt_sub R _ _))).
    assert (T : forall x y z : R, x <? y = true -> y <? z = true -> x <? z = true) by (intros x y z A B; eapply olt_le_trans; [exact A|now apply olt_nle]).
    intros Ha Hb Hab. repeat (destruct Ha as [<-|Ha]; [repeat (destruct Hb as [<-|Hb]; [try lia; cbn [tok]; chain T|]); destruct Hb|]). destruct Ha.
  Qed.
  Lemma tok_le a b : token a -> token b -> (tok a <=? tok b) = (a <=? b)%Z.
  Proof.
    intros Ha Hb. destruct (Z.leb_spec a b) as [H|H].
    - apply Z.lt_eq_cases in H as [H| ->]; [apply olt_nle; now apply tok_lt|apply ole_refl].
    - apply olt_iff. now apply tok_lt.
  Qed.

  Lemma lex_tok a b : Forall token a -> Forall token b -> lex_le R (map tok a) (map tok b) = lex_le Zocring a b.
  Proof.
    intros Ha; revert b; induction Ha as [|x a Hx Ha IH]; intros b Hb; destruct Hb as [|y b Hy Hb]; try reflexivity. cbn [map lex_le]. unfold olt. rewrite !tok_le by auto. rewrite IH by auto. reflexivity.
  Qed.
  Lemma insert_tok a l : Forall token a -> Forall (Forall token) l -> insert R (map tok a) (map (map tok) l) = map (map tok) (insert Zocring a l).
  Proof.
    intros Ha Hl. induction Hl as [|b l Hb Hl IH]; [reflexivity|]. cbn [map insert]. rewrite lex_tok by auto. destruct (lex_le Zocring a b); [reflexivity|]. rewrite IH. reflexivity.
  Qed.
  Lemma insert_forall (P : list Z -> Prop) a l : P a -> Forall P l -> Forall P (insert Zocring a l).
  Proof. intros Ha Hl. induction Hl as [|b l Hb Hl IH]; cbn [insert]; [repeat constructor; auto|]. destruct (lex_le Zocring a b); repeat constructor; auto. Qed.
  Lemma sorted_tok l : Forall (Forall token) l -> sorted R (map (map tok) l) = map (map tok) (sorted Zocring l) /\ Forall (Forall token) (sorted Zocring l).
  Proof.
    intros Hl. induction Hl as [|a l Ha Hl (IH & IH2)]; [split; [reflexivity|constructor]|]. cbn [map sorted fold_right]. unfold sorted in *. rewrite IH. split; [now apply insert_tok|]. now apply insert_forall.
  Qed.

  Definition ico_tokens : list (list Z) := Eval vm_compute in ico_points Zocring 2%Z.
  Definition ico_sorted : list (list Z) := Eval vm_compute in sorted Zocring ico_tokens.

  Lemma ico_points_tok : ico_points R phi = map (map tok) ico_tokens.
  Proof. unfold ico_points, ico_tokens. cbn [flat_map app map tok]. repeat (f_equal; try ring). Qed.

  Lemma ico_sorted_eq : sorted R (ico_points R phi) = map (map tok) ico_sorted.
  Proof.
    rewrite ico_points_tok. assert (H : Forall (Forall token) ico_tokens) by (unfold ico_tokens; repeat (apply Forall_cons || apply Forall_nil); unfold token; cbn [In]; auto 10).
    destruct (sorted_tok _ H) as (-> & _). reflexivity.
  Qed.
End Tokens.

(** ** The icosahedron *)
Section Ico.
  Variable R : ocring.
  Add Ring Ro3 : (rth R).
  Local Open Scope cring_scope.
  Variables (phi r : R) (sqrt inv : R -> R).
  Hypothesis Hpos : strict_products R.
  Hypothesis Hgold : golden R phi.
  Hypothesis Hsqrt : right_sqrt R sqrt.
  Hypothesis Hinv : right_inv R inv.

  Definition ico_scale : R := r * inv (sqrt (phi + (1 + 1))).
  Definition ico_list : list (list R) := map (map (fun x => x * ico_scale)) (map (map (tok R phi)) ico_sorted).
  Definition ico_tri_list : list (list nat) := Eval vm_compute in match ico_tris with Ok l => l | Err _ => [] end.

  Lemma ico_tris_ok : ico_tris = Ok ico_tri_list.
  Proof. reflexivity. Qed.

  Lemma ico_vertices_ok : ico_vertices R sqrt inv phi r = Ok ico_list.
  Proof.
    unfold ico_vertices. rewrite (ico_sorted_eq R phi Hgold). unfold ico_list, ico_sorted at 1. cbn [map get nth_error bind]. f_equal.
    match goal with |- context [dot ?p ?p] => assert (E : dot p p = phi + (1 + 1)) end.
    { destruct Hgold as (Hphi & _). cbv [dot map2 rsum tok]. ring [Hphi]. }
    rewrite E. reflexivity.
  Qed.

  Lemma ico_scale_square : (phi + (1 + 1)) * (ico_scale * ico_scale) = r * r.
  Proof.
    unfold ico_scale. assert (Hp := phi_pos R phi Hgold). assert (H1 := one_pos R phi Hgold).
    assert (HN : 0 <? phi + (1 + 1) = true).
    { replace (0 : R) with (0 + (0 + 0) : R) by ring. repeat apply olt_add; auto. }
    destruct (inv_sqrt R sqrt inv Hsqrt Hinv (phi + (1 + 1))) as (H & _); [now apply olt_nle|now apply lt_ne|].
    transitivity (r * r * ((phi + (1 + 1)) * (inv (sqrt (phi + (1 + 1))) * inv (sqrt (phi + (1 + 1)))))); [ring|]. rewrite H. ring.
  Qed.

  Lemma ico_norms : Forall (on_sphere R r) ico_list.
  Proof.
    destruct Hgold as (Hphi & _). pose proof ico_scale_square as Hs. unfold ico_list, ico_sorted. cbn [map tok]. generalize dependent ico_scale. intros s Hs.
    repeat (apply Forall_cons || apply Forall_nil); (split; [reflexivity|]); rewrite <- Hs; cbv [dot map2 rsum]; ring [Hphi].
  Qed.

  Lemma ico_closed : closed_surface ico_tri_list.
  Proof.
    split; [|split].
    - repeat constructor.
    - unfold ico_tri_list. cbn [map tri_edges concat app]. repeat (apply NoDup_cons; [cbn [In]; intuition congruence|]). apply NoDup_nil.
    - assert (H : forallb (fun e => existsb (pair_eqb (snd e, fst e)) (concat (map tri_edges ico_tri_list))) (concat (map tri_edges ico_tri_list)) = true) by (vm_compute; reflexivity).
      intros a b Hin. rewrite forallb_forall in H. specialize (H _ Hin). apply existsb_exists in H as ((c & d) & Hc & E). cbn [fst snd] in E.
      unfold pair_eqb in E. apply andb_true_iff in E as (E1 & E2). cbn [fst snd] in *. apply Nat.eqb_eq in E1, E2. now subst.
  Qed.

  Lemma ico_triangles : Forall (fun t => exists p q w, corner_points ico_list t [p; q; w] /\
      dist2 R p q = ico_scale * ico_scale * (1 + 1 + 1 + 1) /\ dist2 R q w = ico_scale * ico_scale * (1 + 1 + 1 + 1) /\ dist2 R w p = ico_scale * ico_scale * (1 + 1 + 1 + 1) /\
      det3 R p q w = ico_scale * (ico_scale * ico_scale) * (1 + 1 + phi + phi) /\
      Forall (fun x => dot (vadd p (vadd q w)) x = ico_scale * ico_scale * (1 + 1 + phi + phi + phi)) [p; q; w]) ico_tri_list.
  Proof.
    destruct Hgold as (Hphi & _). unfold ico_list, ico_sorted. cbn [map tok]. generalize ico_scale. intros s. unfold ico_tri_list.
    repeat (apply Forall_cons || apply Forall_nil);
      (do 3 eexists; split; [repeat (apply Forall2_cons; [reflexivity|]); apply Forall2_nil|]);
      (repeat (apply conj)); try (repeat (apply Forall_cons || apply Forall_nil));
      cbv [dist2 det3 vadd vsub dot map2 rsum]; ring [Hphi].
  Qed.
End Ico.
