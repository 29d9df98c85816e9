(** * SurfGeomProofs: vertices of tori, surfaces of revolution and curves *)
From Coq Require Import List Arith Bool ZArith Lia Permutation Ring.
From Verif Require Import Np NpFacts MeshModel MeshStateModel MeshSpec Lin Ord RestrProofs BoxModel BoxSpec SurfModel SurfSpec SurfProofs SurfRevProofs.
Import ListNotations.

Section Grid.
  Variable R : cring.
  Local Notation nsmul := (nsmul R). Local Notation linspace := (linspace R). Local Notation meshgrid := (meshgrid R).

  Lemma linspace_length h k : length (linspace h k) = k.
  Proof. unfold SurfModel.linspace. now rewrite map_length, seq_length. Qed.
  Lemma nth_linspace h k i : i < k -> nth_error (linspace h k) i = Some (nsmul i h).
  Proof. intros H. unfold SurfModel.linspace. rewrite nth_error_map, nth_error_seq. destruct (Nat.ltb_spec i k); [reflexivity|lia]. Qed.
  Lemma nth_meshgrid us vs i j u v : nth_error us i = Some u -> nth_error vs j = Some v -> nth_error (meshgrid us vs) (i + j * length us) = Some (u, v).
  Proof.
    intros Hu Hv. unfold SurfModel.meshgrid. rewrite Nat.add_comm. rewrite (flat_map_const_nth _ (length us)); [|intros x; apply map_length|apply nth_error_Some; congruence].
    rewrite Hv. rewrite nth_error_map, Hu. reflexivity.
  Qed.
  Lemma meshgrid_length us vs : length (meshgrid us vs) = length vs * length us.
  Proof. unfold SurfModel.meshgrid. apply flat_map_const_length. intros x. apply map_length. Qed.
End Grid.

(** ** Torus *)
Section Torus.
  Variable R : cring.
  Add Ring Rring : (rth R).
  Context {E : Type}.
  Variables (cos sin : R -> R) (a b : R) (f : R -> R -> R) (uv_nodes : list (R * R) -> list (R * R)) (pack : list (list R) -> E).
  Variables (n m : nat) (hu hv : R).
  Hypothesis Hn : 1 <= n.
  Hypothesis Hm : 1 <= m.
  Local Open Scope cring_scope.
  Local Notation nsmul := (nsmul R).
  Let uv := meshgrid R (linspace R hu (n + 1)) (linspace R hv (m + 1)).
  Let P (i j : nat) : R * R := (nsmul i hu, nsmul j hv).
  Local Notation tp := (torus_point R cos sin a b f).

  Lemma uv_at i j : (i <= n)%nat -> (j <= m)%nat -> nth_error uv (torus_idx n i j) = Some (P i j).
  Proof.
    intros Hi Hj. unfold uv, torus_idx. replace (i + j * (n + 1))%nat with (i + j * length (linspace R hu (n + 1)))%nat by (now rewrite linspace_length). apply nth_meshgrid; apply nth_linspace; lia.
  Qed.
  Lemma vert_at i j : (i < n)%nat -> (j < m)%nat -> nth_error (torus_vertices R cos sin a b f n m hu hv) (i + j * n)%nat = Some (tp (P i j)).
  Proof.
    intros Hi Hj. unfold torus_vertices. rewrite nth_error_map. replace (i + j * n)%nat with (i + j * length (linspace R hu n))%nat by (now rewrite linspace_length).
    rewrite (nth_meshgrid R _ _ i j (nsmul i hu) (nsmul j hv)) by (apply nth_linspace; assumption). reflexivity.
  Qed.
  Lemma verts_length : length (torus_vertices R cos sin a b f n m hu hv) = (m * n)%nat.
  Proof. unfold torus_vertices. now rewrite map_length, meshgrid_length, !linspace_length. Qed.

  (** the shape of the rows before wrapping *)
  Definition row_shape (cls : gcls) (row : list (nat * nat)) : Prop :=
    exists i j, (i < n)%nat /\ (j < m)%nat /\ match cls with
      | GSimplex => row = [(i, j); (i + 1, j); (i, j + 1)]%nat \/ row = [(i + 1, j); (i + 1, j + 1); (i, j + 1)]%nat
      | GTensor => row = [(i, j); (i + 1, j); (i, j + 1); (i + 1, j + 1)]%nat
      | GOther => False
      end.
  Lemma rows_shape cls : cls <> GOther -> exists rows, torus_grid_rows n m cls = Ok rows /\ exists pts, rows = map (map (fun ij => torus_idx n (fst ij) (snd ij))) pts /\ Forall (row_shape cls) pts.
  Proof.
    intros Hc. destruct cls; [| |congruence]; eexists; (split; [reflexivity|]).
    - exists (map (fun ij : nat * nat => let (i, j) := ij in [(i, j); (i + 1, j); (i, j + 1)]%nat) (grid n m) ++ map (fun ij : nat * nat => let (i, j) := ij in [(i + 1, j); (i + 1, j + 1); (i, j + 1)]%nat) (grid n m)). split.
      + rewrite map_app, !map_map. f_equal; apply map_ext; intros (i, j); reflexivity.
      + apply Forall_app. split; apply Forall_forall; intros r Hr; apply in_map_iff in Hr; destruct Hr as ((i, j) & <- & Hin); apply In_grid in Hin; exists i, j; tauto.
    - exists (map (fun ij : nat * nat => let (i, j) := ij in [(i, j); (i + 1, j); (i, j + 1); (i + 1, j + 1)]%nat) (grid n m)). split.
      + rewrite map_map. apply map_ext; intros (i, j); reflexivity.
      + apply Forall_forall; intros r Hr; apply in_map_iff in Hr; destruct Hr as ((i, j) & <- & Hin); apply In_grid in Hin; exists i, j; tauto.
  Qed.
  Lemma shape_in cls row ij : row_shape cls row -> In ij row -> (fst ij <= n)%nat /\ (snd ij <= m)%nat.
  Proof. intros (i & j & Hi & Hj & H) Hin. destruct cls; [destruct H as [->| ->]|subst row|contradiction]; cbn [In] in Hin; destruct ij as (x, y); cbn [fst snd]; repeat (destruct Hin as [Hin|Hin]; [injection Hin as <- <-; lia|]); contradiction. Qed.
  Lemma take_uv row : (forall ij, In ij row -> (fst ij <= n)%nat /\ (snd ij <= m)%nat) -> take uv (map (fun ij => torus_idx n (fst ij) (snd ij)) row) = Ok (map (fun ij => P (fst ij) (snd ij)) row).
  Proof.
    intros H. unfold take. apply mapM_ok. induction row as [|ij row IH]; cbn [map]; constructor.
    - apply get_ok. apply uv_at; apply H; now left.
    - apply IH. intros; apply H; now right.
  Qed.

  Lemma torus_ok cls fvi : cls <> GOther -> exists pts, Forall (row_shape cls) pts /\
    generate_torus_and_cycle_vertices R cos sin a b f uv_nodes pack n m hu hv cls fvi =
      Ok ([mk_egroup (Some (torus_rows n m cls)) (map (fun c => pack (map tp (uv_nodes c))) (map (map (fun ij => P (fst ij) (snd ij))) pts)) fvi],
          torus_vertices R cos sin a b f n m hu hv, torus_major n, torus_minor n m) /\
    torus_rows n m cls = map (map (fun ij => torus_wrap n m (torus_idx n (fst ij) (snd ij)))) pts.
  Proof.
    intros Hc. destruct (rows_shape cls Hc) as (rows & Hr & pts & Hp & HF). exists pts. split; [exact HF|].
    assert (Hrows : torus_rows n m cls = map (map (fun ij => torus_wrap n m (torus_idx n (fst ij) (snd ij)))) pts).
    { unfold torus_rows. rewrite Hr, Hp, map_map. apply map_ext. intros r. now rewrite map_map. }
    split; [|exact Hrows]. unfold generate_torus_and_cycle_vertices, torus_group. rewrite Hr. cbn [bind].
    assert (Hc2 : mapM (take (meshgrid R (linspace R hu (n + 1)) (linspace R hv (m + 1)))) rows = Ok (map (map (fun ij => P (fst ij) (snd ij))) pts)).
    { rewrite Hp. apply mapM_ok. clear Hr Hp Hrows rows. induction pts as [|r pts IH]; cbn [map]; constructor.
      - apply take_uv. intros ij Hin. eapply shape_in; [|exact Hin]. exact (Forall_inv HF).
      - apply IH. exact (Forall_inv_tail HF). }
    rewrite Hc2. cbn [bind]. unfold torus_rows. rewrite Hr. reflexivity.
  Qed.

  Lemma shape_cross cls row : row_shape cls row -> cross R (map (fun ij => P (fst ij) (snd ij)) row) = Some (hu * hv).
  Proof.
    assert (HS : forall i h, nsmul (i + 1) h = nsmul i h + h) by (intros; rewrite Nat.add_1_r; reflexivity).
    intros (i & j & Hi & Hj & H). destruct cls; [destruct H as [->| ->]|subst row|contradiction]; unfold P; cbn [map fst snd cross]; rewrite ?HS; f_equal; ring.
  Qed.

  Lemma wrapped_vertex i j : (i <= n)%nat -> (j <= m)%nat ->
    cos (nsmul n hu) = cos 0 -> sin (nsmul n hu) = sin 0 -> cos (nsmul m hv) = cos 0 -> sin (nsmul m hv) = sin 0 ->
    (forall v, f (nsmul n hu) v = f 0 v) -> (forall u, f u (nsmul m hv) = f u 0) ->
    nth_error (torus_vertices R cos sin a b f n m hu hv) (torus_wrap n m (torus_idx n i j)) = Some (tp (P i j)).
  Proof.
    intros Hi Hj C1 S1 C2 S2 F1 F2. rewrite wrap_idx by lia. rewrite vert_at by (apply Nat.mod_upper_bound; lia). f_equal. unfold P.
    assert (Hi' : (i < n /\ i mod n = i)%nat \/ (i = n /\ i mod n = 0)%nat) by (destruct (Nat.eq_dec i n) as [->|]; [right; split; [reflexivity|apply Nat.mod_same; lia]|left; split; [lia|apply Nat.mod_small; lia]]).
    assert (Hj' : (j < m /\ j mod m = j)%nat \/ (j = m /\ j mod m = 0)%nat) by (destruct (Nat.eq_dec j m) as [->|]; [right; split; [reflexivity|apply Nat.mod_same; lia]|left; split; [lia|apply Nat.mod_small; lia]]).
    destruct Hi' as [(_ & ->)|(-> & ->)]; destruct Hj' as [(_ & ->)|(-> & ->)]; [reflexivity| | |]; unfold torus_point; change (nsmul 0 hu) with (r0 : R); change (nsmul 0 hv) with (r0 : R);
      rewrite ?C1, ?S1, ?C2, ?S2, ?F1, ?F2; reflexivity.
  Qed.

  Lemma major_at i : (i < n)%nat -> nth_error (torus_major n) i = Some i.
  Proof using Type. clear Hn Hm. intros H. unfold torus_major. rewrite nth_error_map, nth_error_seq. destruct (Nat.ltb_spec i n); [|lia]. cbn [option_map]. unfold torus_idx. f_equal. lia. Qed.
  Lemma minor_at j : (j < m)%nat -> nth_error (torus_minor n m) j = Some (j * (n + 1))%nat.
  Proof using Type. clear Hn Hm. intros H. unfold torus_minor. rewrite nth_error_map, nth_error_seq. destruct (Nat.ltb_spec j m); [|lia]. reflexivity. Qed.
End Torus.

Section OnTorus.
  Variable R : cring.
  Add Ring Rring2 : (rth R).
  Local Open Scope cring_scope.
  Lemma point_on_torus (cos sin : R -> R) (a b : R) uv : (forall t, cos t * cos t + sin t * sin t = 1) -> on_torus R a b (torus_point R cos sin a b (fun _ _ => 1) uv).
  Proof.
    intros H. destruct uv as (u, v). unfold torus_point. do 3 eexists. split; [reflexivity|]. cbn zeta. pose proof (H u) as Hu. pose proof (H v) as Hv.
    set (cu := cos u) in *. set (su := sin u) in *. set (cv := cos v) in *. set (sv := sin v) in *. clearbody cu su cv sv.
    assert (E1 : cu * (a + b * 1 * cv) * (cu * (a + b * 1 * cv)) + su * (a + b * 1 * cv) * (su * (a + b * 1 * cv)) = (a + b * cv) * (a + b * cv)).
    { transitivity ((cu * cu + su * su) * ((a + b * cv) * (a + b * cv))); [ring|]. rewrite Hu. ring. }
    rewrite E1. assert (E2 : (a + b * cv) * (a + b * cv) + b * 1 * sv * (b * 1 * sv) + a * a - b * b = (1 + 1) * a * (a + b * cv)).
    { transitivity (a * a + (1 + 1) * a * b * cv + b * b * (cv * cv + sv * sv) + a * a - b * b); [ring|]. rewrite Hv. ring. }
    rewrite E2. ring.
  Qed.
End OnTorus.

(** ** Surface of revolution *)
Section Rev.
  Variable R : cring.
  Add Ring Rring3 : (rth R).
  Context {E : Type}.
  Variables (cos sin : R -> R) (arctan2 div get_radius : R -> R -> R) (el_nodes : list (list R) -> list (list R)) (pack : list (list R) -> E).
  Local Open Scope cring_scope.

  Lemma rev_vertices_shape angles heights : Forall (fun p => exists x y z, p = [x; y; z]) (rev_vertices R cos sin get_radius angles heights).
  Proof. apply Forall_forall. intros p Hp. unfold rev_vertices in Hp. apply in_map_iff in Hp. destruct Hp as ((t, h) & <- & _). eauto. Qed.
  Lemma rev_vertices_length angles heights : length (rev_vertices R cos sin get_radius angles heights) = (length heights * length angles)%nat.
  Proof. unfold rev_vertices. now rewrite map_length, meshgrid_length. Qed.
  Lemma ensure_total p : (exists x y z, p = [x; y; z]) -> exists q, ensure_radius R arctan2 div get_radius p = Ok q.
  Proof. intros (x & y & z & ->). eexists. reflexivity. Qed.

  Lemma rev_ok angles heights fvi : (1 <= length angles)%nat ->
    (forall vs, Forall (fun p => exists x y z, p = [x; y; z]) vs -> Forall (fun p => exists x y z, p = [x; y; z]) (el_nodes vs)) ->
    exists nodes verts, generate_surface_of_revolution R cos sin arctan2 div get_radius el_nodes pack angles heights fvi =
        Ok ([mk_egroup (Some (rev_rows (length angles) (length heights))) nodes fvi], verts) /\
      length nodes = length (rev_rows (length angles) (length heights)) /\
      Forall2 (fun p q => ensure_radius R arctan2 div get_radius p = Ok q) (rev_vertices R cos sin get_radius angles heights) verts.
  Proof.
    intros Hn Hel. unfold generate_surface_of_revolution. set (V := rev_vertices R cos sin get_radius angles heights). set (rows := rev_rows (length angles) (length heights)).
    assert (H1 : exists evs, mapM (take V) rows = Ok evs).
    { apply mapM_total. intros row Hrow. apply take_total. apply Forall_forall. intros v Hv. apply In_nth_error in Hrow. destruct Hrow as (e & He). apply rev_row in He. destruct He as (t & i & j & (Hi & Hj & _) & ->).
      unfold V. rewrite rev_vertices_length. assert (Hs : ((j + 1) mod length angles < length angles)%nat) by (apply Nat.mod_upper_bound; lia). unfold rev_tri, rpt in Hv. destruct t; cbn [In] in Hv; repeat (destruct Hv as [Hv|Hv]; [subst v; nia|]); contradiction. }
    destruct H1 as (evs & H1). rewrite H1. cbn [bind].
    destruct (mapM_total (ensure_radius R arctan2 div get_radius) V) as (verts & H2).
    { intros p Hp. apply ensure_total. exact (proj1 (Forall_forall _ _) (rev_vertices_shape angles heights) p Hp). }
    rewrite H2. cbn [bind].
    destruct (mapM_total (fun vs => mapM (ensure_radius R arctan2 div get_radius) (el_nodes vs)) evs) as (nn & H3).
    { intros vs Hvs. apply mapM_total. intros p Hp. apply ensure_total. assert (HF : Forall (fun p => exists x y z, p = [x; y; z]) vs).
      { apply mapM_ok in H1. destruct (In_nth_error _ _ Hvs) as (k & Hk). destruct (Forall2_nth_error_r _ _ _ _ _ H1 Hk) as (row & _ & Ht). apply mapM_ok in Ht. apply Forall_forall. intros q Hq. destruct (In_nth_error _ _ Hq) as (k2 & Hk2). destruct (Forall2_nth_error_r _ _ _ _ _ Ht Hk2) as (v & _ & Hg). apply get_ok in Hg. exact (proj1 (Forall_forall _ _) (rev_vertices_shape angles heights) q (nth_error_In _ _ Hg)). }
      exact (proj1 (Forall_forall _ _) (Hel vs HF) p Hp). }
    rewrite H3. cbn [bind]. exists (map pack nn), verts. split; [reflexivity|]. split.
    - rewrite map_length. apply mapM_ok in H1, H3. rewrite <- (Forall2_length' _ _ _ H3), <- (Forall2_length' _ _ _ H1). reflexivity.
    - apply mapM_ok. exact H2.
  Qed.

  (** the radius is divided out *)
  Lemma ensure_radius_one angles heights : (forall t, cos t * cos t + sin t * sin t = 1) -> (forall x y, y <> 0 -> div x y * y = x) ->
    (forall x y : R, x * y = 0 -> x = 0 \/ y = 0) ->
    (forall h t, In h heights -> In t angles -> get_radius h t <> 0 /\ get_radius h (arctan2 (sin t * get_radius h t) (cos t * get_radius h t)) = get_radius h t) ->
    forall p q, In p (rev_vertices R cos sin get_radius angles heights) -> ensure_radius R arctan2 div get_radius p = Ok q -> axis_distance2 R q 1.
  Proof.
    intros Htrig Hdiv Hint Hr p q Hp Hq.
    assert (Hcan : forall p q s : R, s <> 0 -> p * s = q * s -> p = q).
    { intros x y s Hs H. destruct (Hint (x - y) s) as [H0|H0]; [transitivity (x * s - y * s); [ring|rewrite H; ring]| |contradiction]. transitivity (x - y + y); [ring|rewrite H0; ring]. } unfold rev_vertices in Hp. apply in_map_iff in Hp. destruct Hp as ((t, h) & <- & Hin).
    assert (Hth : In h heights /\ In t angles). { unfold meshgrid in Hin. apply in_flat_map in Hin. destruct Hin as (h' & Hh & Hin). apply in_map_iff in Hin. destruct Hin as (t' & Eq & Ht). injection Eq as <- <-. auto. }
    destruct (Hr h t (proj1 Hth) (proj2 Hth)) as (Hne & Heq). unfold ensure_radius in Hq. rewrite Heq in Hq. injection Hq as <-. do 3 eexists. split; [reflexivity|].
    set (r := get_radius h t) in *. assert (Hs : cos t * r * (cos t * r) + sin t * r * (sin t * r) = r * r) by (transitivity ((cos t * cos t + sin t * sin t) * (r * r)); [ring|rewrite Htrig; ring]).
    rewrite Hs. assert (Hrr : r * r <> 0) by (intros H; destruct (Hint _ _ H); contradiction). pose proof (Hdiv r (r * r) Hrr) as Hd. set (s := div r (r * r)) in *. clearbody s.
    assert (Hsr : s * r = 1). { apply (Hcan (s * r) 1 r Hne). rewrite <- Hd at 3. ring. }
    transitivity ((cos t * cos t + sin t * sin t) * ((s * r) * (s * r))); [ring|]. rewrite Htrig, Hsr. ring.
  Qed.
End Rev.

(** ** Curves *)
Section CurveMesh.
  Context {E : Type}.
  Variables (ne wrap : nat) (nodes : list E) (fvi : list (list nat)).
  Hypothesis Hfvi : enumerates fvi (facets_of 1 false).
  Hypothesis Hnodes : length nodes = ne.
  Hypothesis Hne : 1 <= ne.
  Hypothesis Hwrap : wrap = ne \/ wrap = ne + 1.
  Let groups := [mk_egroup (Some (curve_rows ne wrap)) nodes fvi].

  Lemma fvi_cases : fvi = [[0]; [1]] \/ fvi = [[1]; [0]].
  Proof using Hfvi. clear groups Hnodes Hne Hwrap.
    destruct Hfvi as (F1 & HP & HF). cbn [facets_of] in HP. apply Permutation_length_2_inv in HP.
    destruct HP as [->| ->]; inversion HF as [|x ? ? ? Hx HF2]; subst; inversion HF2 as [|y ? ? ? Hy HF3]; subst; inversion HF3; subst;
      apply Permutation_sym, Permutation_length_1_inv in Hx; apply Permutation_sym, Permutation_length_1_inv in Hy; subst; auto.
  Qed.
  (** face [f] is end [s] of an element: true for the second one *)
  Definition end_of (f : nat) (s : bool) : Prop := nth_error fvi f = Some [if s then 1 else 0].
  Lemma end_of_ex s : exists f, end_of f s.
  Proof using Hfvi. clear groups Hnodes Hne Hwrap. unfold end_of. destruct fvi_cases as [->| ->]; destruct s; ((exists 0; reflexivity) || (exists 1; reflexivity)). Qed.
  Lemma end_of_total f : f < length fvi -> exists s, end_of f s.
  Proof using Hfvi. clear groups Hnodes Hne Hwrap. unfold end_of. destruct fvi_cases as [->| ->]; intros H; destruct f as [|[|]]; cbn in H; try lia; ((exists false; reflexivity) || (exists true; reflexivity)). Qed.
  Lemma end_of_inj f f' s : end_of f s -> end_of f' s -> f = f'.
  Proof using Hfvi. clear groups Hnodes Hne Hwrap. unfold end_of. destruct fvi_cases as [->| ->]; destruct f as [|[|[|]]], f' as [|[|[|]]], s; cbn; intros H H'; try discriminate; reflexivity. Qed.
  Lemma end_of_lt f s : end_of f s -> f < length fvi.
  Proof. intros H. apply nth_error_Some. unfold end_of in H. congruence. Qed.

  Definition endpt (k : nat) (s : bool) : nat := if s then (k + 1) mod wrap else k.
  Lemma curve_row k : k < ne -> nth_error (curve_rows ne wrap) k = Some [k; (k + 1) mod wrap].
  Proof using Type. clear groups Hfvi Hnodes Hne Hwrap. intros H. unfold curve_rows. rewrite nth_error_map, nth_error_seq. destruct (Nat.ltb_spec k ne); [reflexivity|lia]. Qed.
  Lemma curve_rows_length : length (curve_rows ne wrap) = ne.
  Proof using Type. unfold curve_rows. now rewrite map_length, seq_length. Qed.
  Lemma curve_valid g k f : valid_face groups (g, k, f) <-> g = 0 /\ k < ne /\ f < length fvi.
  Proof using Hnodes. clear Hfvi Hne Hwrap.
    pose proof (valid_face_iff (curve_rows ne wrap) nodes fvi) as H. rewrite curve_rows_length in H. exact (H Hnodes g k f).
  Qed.
  Lemma curve_face_verts k f s vs : k < ne -> end_of f s -> (face_verts groups (0, k, f) vs <-> vs = [endpt k s]).
  Proof using Hnodes. clear Hfvi Hne Hwrap.
    intros Hk Hf. unfold end_of in Hf. split.
    - intros (grp & row & ref & Hg & (grp2 & vi & Hg2 & Hvi & _ & Hr) & Href & HF). cbn in Hg. injection Hg as <-. cbn in Hg2. injection Hg2 as <-. cbn [eg_vi] in Hvi. injection Hvi as <-. rewrite (curve_row k Hk) in Hr. injection Hr as <-.
      cbn [eg_fvi] in Href. rewrite Hf in Href. injection Href as <-. inversion HF as [|x y ? ? Hx HF2]; subst. inversion HF2; subst. destruct s; cbn in Hx; injection Hx as <-; reflexivity.
    - intros ->. exists (mk_egroup (Some (curve_rows ne wrap)) nodes fvi), [k; (k + 1) mod wrap], [if s then 1 else 0]. split; [reflexivity|]. split.
      + exists (mk_egroup (Some (curve_rows ne wrap)) nodes fvi), (curve_rows ne wrap). repeat split; [|now apply curve_row]. unfold nelements. cbn [eg_nodes]. lia.
      + split; [exact Hf|]. constructor; [|constructor]. destruct s; reflexivity.
  Qed.
  Lemma curve_partner k f s b : k < ne -> end_of f s -> (partner groups (0, k, f) b <-> exists k' f' s', b = (0, k', f') /\ k' < ne /\ end_of f' s' /\ (k', s') <> (k, s) /\ endpt k' s' = endpt k s).
  Proof using Hnodes Hfvi. clear Hne Hwrap.
    intros Hk Hf. split.
    - intros (_ & Hv & Hneq & va & vb & Ha & Hb & HP). destruct b as ((g, k'), f'). apply curve_valid in Hv. destruct Hv as (-> & Hk' & Hf'). destruct (end_of_total f' Hf') as (s' & Hs'). exists k', f', s'.
      apply (curve_face_verts k f s va Hk Hf) in Ha. apply (curve_face_verts k' f' s' vb Hk' Hs') in Hb. subst va vb. apply Permutation_length_1_inv in HP. injection HP as HP. split; [reflexivity|]. split; [exact Hk'|]. split; [exact Hs'|]. split; [|exact HP].
      intros Heq. injection Heq as -> ->. apply Hneq. now rewrite (end_of_inj f f' s Hf Hs').
    - intros (k' & f' & s' & -> & Hk' & Hf' & Hneq & Heq). split; [apply curve_valid; repeat split; [exact Hk|now apply (end_of_lt f s)]|]. split; [apply curve_valid; repeat split; [exact Hk'|now apply (end_of_lt f' s')]|]. split.
      + intros H. injection H as <- <-. apply Hneq. f_equal. unfold end_of in Hf, Hf'. rewrite Hf in Hf'. injection Hf' as Hs. destruct s, s'; congruence.
      + exists [endpt k s], [endpt k' s']. split; [now apply (curve_face_verts k f s)|]. split; [now apply (curve_face_verts k' f' s')|]. rewrite Heq. reflexivity.
  Qed.

  (** ends of the curve *)
  Definition loose (k : nat) (s : bool) : Prop := wrap = ne + 1 /\ ((k = 0 /\ s = false) \/ (k + 1 = ne /\ s = true)).
  Lemma endpt_eq k s k' s' : k < ne -> k' < ne -> (endpt k' s' = endpt k s <-> (k', s') = (k, s) \/ (s' = negb s /\ if s then nx wrap k k' else nx wrap k' k)).
  Proof using Hwrap. clear Hfvi Hnodes Hne.
    intros Hk Hk'. assert (Hk2 : k < wrap) by (destruct Hwrap; lia). assert (Hk2' : k' < wrap) by (destruct Hwrap; lia). pose proof (nx_mod wrap k Hk2) as H. pose proof (nx_mod wrap k' Hk2') as H'. unfold endpt. unfold nx in *.
    destruct s, s'; cbn [negb]; split.
    - intros Heq. left. f_equal. lia.
    - intros [Heq|(Heq & _)]; [|discriminate]. now injection Heq as ->.
    - intros Heq. right. split; [reflexivity|]. lia.
    - intros [Heq|(_ & Heq)]; [discriminate|lia].
    - intros Heq. right. split; [reflexivity|]. lia.
    - intros [Heq|(_ & Heq)]; [discriminate|lia].
    - intros Heq. left. f_equal. lia.
    - intros [Heq|(Heq & _)]; [|discriminate]. now injection Heq as ->.
  Qed.
  Lemma curve_faces k f s : k < ne -> end_of f s ->
    (loose k s /\ forall b, ~ partner groups (0, k, f) b) \/ (~ loose k s /\ exists b, partner groups (0, k, f) b /\ forall b', partner groups (0, k, f) b' -> b' = b).
  Proof using Hnodes Hfvi Hwrap. clear Hne.
    intros Hk Hf. destruct (end_of_ex (negb s)) as (f' & Hf').
    assert (Hpart : forall b, partner groups (0, k, f) b <-> exists k', b = (0, k', f') /\ k' < ne /\ if s then nx wrap k k' else nx wrap k' k).
    { intros b. rewrite (curve_partner k f s b Hk Hf). split.
      - intros (k' & f2 & s' & -> & Hk' & Hf2 & Hneq & Heq). apply endpt_eq in Heq; [|assumption|assumption]. destruct Heq as [Heq|(-> & Heq)]; [contradiction|]. exists k'. rewrite (end_of_inj f2 f' (negb s) Hf2 Hf'). auto.
      - intros (k' & -> & Hk' & Hx). exists k', f', (negb s). split; [reflexivity|]. split; [exact Hk'|]. split; [exact Hf'|]. split; [intros H; injection H as _ H; destruct s; discriminate|]. apply endpt_eq; auto. }
    destruct s.
    - destruct (Nat.eq_dec (k + 1) ne) as [Ek|Ek]; [destruct Hwrap as [Hw|Hw]|].
      + right. split; [unfold loose; lia|]. exists (0, 0, f'). split; [apply Hpart; exists 0; unfold nx; repeat split; lia|]. intros b Hb. apply Hpart in Hb. destruct Hb as (k' & -> & Hk' & Hx). unfold nx in Hx. replace k' with 0 by lia. reflexivity.
      + left. split; [unfold loose; tauto|]. intros b Hb. apply Hpart in Hb. destruct Hb as (k' & -> & Hk' & Hx). unfold nx in Hx. lia.
      + right. split; [unfold loose; intros (_ & [(_ & H)|(H & _)]); [discriminate|lia]|]. exists (0, k + 1, f'). split; [apply Hpart; exists (k + 1); unfold nx; repeat split; lia|]. intros b Hb. apply Hpart in Hb. destruct Hb as (k' & -> & Hk' & Hx). unfold nx in Hx. replace k' with (k + 1) by lia. reflexivity.
    - destruct k as [|k]; [destruct Hwrap as [Hw|Hw]|].
      + right. split; [unfold loose; lia|]. exists (0, ne - 1, f'). split; [apply Hpart; exists (ne - 1); unfold nx; repeat split; lia|]. intros b Hb. apply Hpart in Hb. destruct Hb as (k' & -> & Hk' & Hx). unfold nx in Hx. replace k' with (ne - 1) by lia. reflexivity.
      + left. split; [unfold loose; tauto|]. intros b Hb. apply Hpart in Hb. destruct Hb as (k' & -> & Hk' & Hx). unfold nx in Hx. lia.
      + right. split; [unfold loose; intros (_ & [(H & _)|(_ & H)]); [discriminate|discriminate]|]. exists (0, k, f'). split; [apply Hpart; exists k; unfold nx; repeat split; lia|]. intros b Hb. apply Hpart in Hb. destruct Hb as (k' & -> & Hk' & Hx). unfold nx in Hx. replace k' with k by lia. reflexivity.
  Qed.
End CurveMesh.

Section Curve.
  Variable R : cring.
  Context {E : Type}.
  Variables (curve : R -> list R) (close : list R -> list R -> bool) (req : R -> R -> bool) (pack : list (list R) -> E).
  Hypothesis Hreq : forall x y, req x y = true <-> x = y.
  Local Open Scope cring_scope.
  Local Notation mk := (make_curve_mesh R curve close req pack).

  Lemma diffs_at (bds : list R) k x y : nth_error bds k = Some x -> nth_error bds (k + 1) = Some y ->
    nth_error (removelast bds) k = Some x /\ nth_error (diffs R bds) k = Some (y - x).
  Proof.
    intros Hx Hy. assert (Hl : (k + 1 < length bds)%nat) by (apply nth_error_Some; congruence).
    assert (H1 : nth_error (removelast bds) k = Some x). { rewrite removelast_firstn_len. rewrite nth_error_firstn. destruct (Nat.ltb_spec k (Nat.pred (length bds))); [exact Hx|lia]. }
    split; [exact H1|]. unfold diffs. apply (map2_nth (fun x y => y - x)); [exact H1|]. destruct bds as [|z bds]; [destruct k; discriminate|]. rewrite Nat.add_1_r in Hy. exact Hy.
  Qed.
  Lemma removelast_length' {A} (l : list A) : length (removelast l) = (length l - 1)%nat.
  Proof. rewrite removelast_firstn_len, firstn_length. lia. Qed.
  Lemma diffs_length (bds : list R) : length (diffs R bds) = (length bds - 1)%nat.
  Proof. unfold diffs. rewrite map2_length; rewrite removelast_length'; [reflexivity|]. destruct bds; cbn [tl length]; lia. Qed.
  Lemma params_at (bds nodes01 : list R) k x y : nth_error bds k = Some x -> nth_error bds (k + 1) = Some y ->
    nth_error (curve_params R bds nodes01) k = Some (map (fun s => x + (y - x) * s) nodes01).
  Proof. intros Hx Hy. destruct (diffs_at bds k x y Hx Hy) as (H1 & H2). unfold curve_params. rewrite (map2_nth (fun s l => map (fun x => s + l * x) nodes01) _ _ k x (y - x) H1 H2). reflexivity. Qed.
  Lemma params_length (bds nodes01 : list R) : length (curve_params R bds nodes01) = (length bds - 1)%nat.
  Proof. unfold curve_params. rewrite map2_length; rewrite removelast_length'; [reflexivity|]. now rewrite diffs_length. Qed.

  Lemma curve_rows_max ne wrap : (1 <= ne)%nat -> (wrap = ne \/ wrap = ne + 1)%nat -> (list_max (concat (curve_rows ne wrap)) + 1 = wrap)%nat /\ length (concat (curve_rows ne wrap)) <> 0%nat.
  Proof.
    intros Hne Hw. assert (Hin : forall v, In v (concat (curve_rows ne wrap)) <-> exists k, (k < ne)%nat /\ (v = k \/ v = (k + 1) mod wrap)).
    { intros v. rewrite in_concat. split.
      - intros (row & Hr & Hv). unfold curve_rows in Hr. apply in_map_iff in Hr. destruct Hr as (k & <- & Hk). apply in_seq in Hk. exists k. split; [lia|]. destruct Hv as [<-|[<-|[]]]; auto.
      - intros (k & Hk & Hv). exists [k; (k + 1) mod wrap]. split; [unfold curve_rows; apply in_map_iff; exists k; split; [reflexivity|apply in_seq; lia]|]. destruct Hv as [->| ->]; cbn; auto. }
    assert (Hbig : In (wrap - 1)%nat (concat (curve_rows ne wrap))).
    { apply Hin. exists (ne - 1)%nat. split; [lia|]. destruct Hw as [Hw|Hw]; [left; lia|right]. replace (ne - 1 + 1)%nat with ne by lia. rewrite Nat.mod_small by lia. lia. }
    split.
    - assert (Hle : (list_max (concat (curve_rows ne wrap)) <= wrap - 1)%nat). { apply list_max_le. apply Forall_forall. intros v Hv. apply Hin in Hv. destruct Hv as (k & Hk & [->| ->]); [lia|]. assert ((k + 1) mod wrap < wrap)%nat by (apply Nat.mod_upper_bound; lia). lia. }
      assert (Hge : (wrap - 1 <= list_max (concat (curve_rows ne wrap)))%nat). { pose proof (proj1 (list_max_le (concat (curve_rows ne wrap)) _) (le_n _)) as HF. exact (proj1 (Forall_forall _ _) HF _ Hbig). }
      lia.
    - intros H. apply length_zero_iff_nil in H. rewrite H in Hbig. destruct Hbig.
  Qed.

  Lemma curve_total bds nodes01 (closed : bool) fvi : (2 <= length bds)%nat -> nth_error bds 0 = Some 0 -> nth_error bds (length bds - 1) = Some 1 ->
    (closed = true -> close (curve 0) (curve 1) = true) ->
    let ne := (length bds - 1)%nat in let wrap := if closed then ne else (ne + 1)%nat in
    mk bds nodes01 closed fvi = Ok ([mk_egroup (Some (curve_rows ne wrap)) (map (fun ts => pack (map curve ts)) (curve_params R bds nodes01)) fvi], firstn wrap (map curve bds), concat (curve_params R bds nodes01)).
  Proof.
    intros Hl H0 H1 Hc ne wrap. unfold make_curve_mesh. rewrite (proj2 (get_ok _ _ _) H0). cbn [bind]. rewrite (proj2 (Hreq 0 0) eq_refl). cbn [guard bind]. rewrite (proj2 (get_ok _ _ _) H1). cbn [bind]. rewrite (proj2 (Hreq 1 1) eq_refl). cbn [guard bind].
    fold ne. fold wrap. assert (Hw : (wrap = ne \/ wrap = ne + 1)%nat) by (unfold wrap; destruct closed; auto). destruct (curve_rows_max ne wrap) as (Hmax & Hnz); [unfold ne; lia|exact Hw|].
    rewrite (proj2 (Nat.eqb_neq _ _) Hnz). cbn [negb guard bind]. rewrite Hmax. rewrite firstn_length, map_length. rewrite Nat.min_l by (unfold ne in *; lia). rewrite Nat.eqb_refl. cbn [guard bind].
    destruct closed; [rewrite (Hc eq_refl)|]; reflexivity.
  Qed.
  Lemma curve_inv bds nodes01 (closed : bool) fvi r : mk bds nodes01 closed fvi = Ok r ->
    (2 <= length bds)%nat /\ nth_error bds 0 = Some 0 /\ nth_error bds (length bds - 1) = Some 1 /\ (closed = true -> close (curve 0) (curve 1) = true).
  Proof.
    intros H. unfold make_curve_mesh in H. apply bind_ok in H. destruct H as (first & Hf & H). apply get_ok in Hf. destruct (req first 0) eqn:Ef; [|discriminate]. cbn [guard bind] in H. apply Hreq in Ef. subst first.
    apply bind_ok in H. destruct H as (last & Hla & H). apply get_ok in Hla. destruct (req last 1) eqn:El; [|discriminate]. cbn [guard bind] in H. apply Hreq in El. subst last.
    destruct (negb (Nat.eqb _ 0)) eqn:E0; [|discriminate]. cbn [guard bind] in H. destruct (Nat.eqb (length _) (_ + 1)); [|discriminate]. cbn [guard bind] in H.
    assert (Ec : closed = true -> close (curve 0) (curve 1) = true) by (intros ->; destruct (close (curve 0) (curve 1)); [reflexivity|discriminate H]). split; [|split; [exact Hf|split; [exact Hla|]]].
    - destruct bds as [|x [|y bds]]; cbn [length]; [discriminate Hf| |lia]. exfalso. cbn in E0. discriminate E0.
    - exact Ec.
  Qed.
End Curve.
