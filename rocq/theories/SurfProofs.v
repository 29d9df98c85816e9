(** * SurfProofs: edges of surface meshes *)
From Coq Require Import List Arith Bool ZArith Lia Permutation Ring.
From Verif Require Import Np NpFacts MeshModel MeshSpec Lin RestrProofs BoxModel BoxSpec SurfModel SurfSpec.
Import ListNotations.

(** ** Faces and edges *)
Section Edges.
  Context {E : Type}.
  Variables (rows : list (list nat)) (nodes : list E) (fvi : list (list nat)) (is_tp : bool).
  Hypothesis Hfvi : enumerates fvi (facets_of 2 is_tp).
  Hypothesis Hnodes : length nodes = length rows.
  Hypothesis Hrow : forall e row, nth_error rows e = Some row -> length row = if is_tp then 4 else 3.
  Let groups := [mk_egroup (Some rows) nodes fvi].

  (** face [f] is edge [k] *)
  Definition face_edge (f k : nat) : Prop := exists ref i j, nth_error fvi f = Some ref /\ nth_error (circuit is_tp) k = Some (i, j) /\ Permutation ref [i; j].

  Lemma circuit_facets : exists F, Permutation (facets_of 2 is_tp) F /\ Forall2 (@Permutation nat) F (map (fun ij => [fst ij; snd ij]) (circuit is_tp)).
  Proof.
    destruct is_tp; cbn [facets_of circuit map fst snd].
    - exists [[0; 1]; [1; 3]; [2; 3]; [0; 2]]. split; [|repeat constructor].
      change [[0; 2]; [1; 3]; [0; 1]; [2; 3]] with ([[0; 2]] ++ [[1; 3]] ++ [[0; 1]; [2; 3]]). change [[0; 1]; [1; 3]; [2; 3]; [0; 2]] with ([[0; 1]; [1; 3]; [2; 3]] ++ [[0; 2]]).
      etransitivity; [apply Permutation_app_comm|]. apply Permutation_app_tail. cbn [app]. apply perm_swap.
    - exists [[0; 1]; [1; 2]; [0; 2]]. split; [|repeat constructor]. constructor. apply perm_swap.
  Qed.
  Lemma perm_pair (l : list nat) i j i' j' : Permutation l [i; j] -> Permutation l [i'; j'] -> (i = i' /\ j = j') \/ (i = j' /\ j = i').
  Proof.
    intros H H'. assert (H2 : Permutation [i; j] [i'; j']) by (etransitivity; [apply Permutation_sym; exact H|exact H']).
    apply Permutation_length_2_inv in H2. destruct H2 as [H2|H2]; injection H2 as -> ->; auto.
  Qed.
  Lemma circuit_inj k k' i j i' j' : nth_error (circuit is_tp) k = Some (i, j) -> nth_error (circuit is_tp) k' = Some (i', j') -> (i = i' /\ j = j') \/ (i = j' /\ j = i') -> k = k'.
  Proof.
    intros H H' Hc. assert (Hk : k < length (circuit is_tp)) by (apply nth_error_Some; congruence). assert (Hk' : k' < length (circuit is_tp)) by (apply nth_error_Some; congruence).
    destruct is_tp; cbn [circuit length] in Hk, Hk';
      (destruct k as [|[|[|[|]]]]; [| | |try lia|lia]; (destruct k' as [|[|[|[|]]]]; [| | |try lia|lia]; cbn in H, H'; injection H as <- <-; injection H' as <- <-; try reflexivity; exfalso; lia)).
  Qed.
  Lemma face_edge_total f : f < length fvi -> exists k, face_edge f k.
  Proof.
    intros Hf. destruct (nth_exists fvi f Hf) as (ref & Hr). destruct Hfvi as (F1 & HP & HF). destruct (Forall2_nth_error _ _ _ _ _ HF Hr) as (ref1 & H1 & Hp).
    destruct circuit_facets as (F & HPF & HFF). assert (Hin : In ref1 F). { eapply Permutation_in; [exact HPF|]. eapply Permutation_in; [apply Permutation_sym; exact HP|]. eapply nth_error_In; eauto. }
    apply In_nth_error in Hin as (k & Hk). destruct (Forall2_nth_error _ _ _ _ _ HFF Hk) as (ij & Hij & Hp2). rewrite nth_error_map in Hij. destruct (nth_error (circuit is_tp) k) as [(i, j)|] eqn:Ec; [|discriminate]. injection Hij as <-.
    exists k, ref, i, j. split; [exact Hr|]. split; [exact Ec|]. etransitivity; eassumption.
  Qed.
  Lemma face_edge_surj k : k < length (circuit is_tp) -> exists f, face_edge f k.
  Proof.
    intros Hk. destruct (nth_exists _ k Hk) as ((i, j) & Hij). destruct circuit_facets as (F & HPF & HFF). destruct Hfvi as (F1 & HP & HF).
    assert (Hm : nth_error (map (fun ij => [fst ij; snd ij]) (circuit is_tp)) k = Some [i; j]) by (rewrite nth_error_map, Hij; reflexivity).
    destruct (Forall2_nth_error_r _ _ _ _ _ HFF Hm) as (r & Hr & Hp). assert (Hin : In r F1). { eapply Permutation_in; [exact HP|]. eapply Permutation_in; [apply Permutation_sym; exact HPF|]. eapply nth_error_In; eauto. }
    apply In_nth_error in Hin as (f & Hf). destruct (Forall2_nth_error_r _ _ _ _ _ HF Hf) as (ref & Href & Hp2). exists f, ref, i, j. split; [exact Href|]. split; [exact Hij|]. etransitivity; eassumption.
  Qed.
  Lemma face_edge_fun f k k' : face_edge f k -> face_edge f k' -> k = k'.
  Proof. intros (r & i & j & Hr & Hk & HP) (r' & i' & j' & Hr' & Hk' & HP'). rewrite Hr in Hr'. injection Hr' as <-. eapply circuit_inj; eauto. eapply perm_pair; eauto. Qed.
  Lemma face_edge_inj f f' k : face_edge f k -> face_edge f' k -> f = f'.
  Proof.
    intros (r & i & j & Hr & Hk & HP) (r' & i' & j' & Hr' & Hk' & HP'). rewrite Hk in Hk'. injection Hk' as <- <-. destruct Hfvi as (F1 & HPf & HF).
    destruct (Forall2_nth_error _ _ _ _ _ HF Hr) as (x & Hx & Hpx). destruct (Forall2_nth_error _ _ _ _ _ HF Hr') as (y & Hy & Hpy).
    assert (Hs : forall x, In x F1 -> exists a b, x = [a; b] /\ a < b).
    { intros z Hz. apply (Permutation_in z (Permutation_sym HPf)) in Hz. destruct is_tp; cbn [facets_of In] in Hz; repeat (destruct Hz as [<-|Hz]; [do 2 eexists; split; [reflexivity|lia]|]); destruct Hz. }
    destruct (Hs x (nth_error_In _ _ Hx)) as (a & b & -> & Hab). destruct (Hs y (nth_error_In _ _ Hy)) as (c & d & -> & Hcd).
    assert (E1 : Permutation [a; b] [i; j]) by (etransitivity; [apply Permutation_sym; exact Hpx|exact HP]).
    assert (E2 : Permutation [a; b] [c; d]). { etransitivity; [exact E1|]. etransitivity; [apply Permutation_sym; exact HP'|exact Hpy]. }
    apply Permutation_length_2_inv in E2. destruct E2 as [E2|E2]; injection E2 as -> ->; [|lia].
    assert (HN : NoDup F1). { eapply Permutation_NoDup; [exact HPf|]. destruct is_tp; cbn [facets_of]; repeat constructor; cbn [In]; intuition discriminate. }
    apply (proj1 (NoDup_nth_error F1) HN); [apply nth_error_Some; congruence|congruence].
  Qed.

  Lemma valid_face_iff g e f : valid_face groups (g, e, f) <-> g = 0 /\ e < length rows /\ f < length fvi.
  Proof.
    unfold valid_face, groups. split.
    - intros (grp & Hg & He & Hf). destruct g as [|g]; [|destruct g; discriminate]. cbn in Hg. injection Hg as <-. unfold nelements, nfaces in *. cbn [eg_nodes eg_fvi] in *. rewrite Hnodes in He. auto.
    - intros (-> & He & Hf). eexists. split; [reflexivity|]. unfold nelements, nfaces. cbn [eg_nodes eg_fvi]. rewrite Hnodes. auto.
  Qed.
  Lemma row_nth e row i : nth_error rows e = Some row -> i < (if is_tp then 4 else 3) -> exists v, nth_error row i = Some v.
  Proof. intros He Hi. apply nth_exists. rewrite (Hrow _ _ He). exact Hi. Qed.
  Lemma circuit_lt k i j : nth_error (circuit is_tp) k = Some (i, j) -> i < (if is_tp then 4 else 3) /\ j < (if is_tp then 4 else 3).
  Proof. intros H. destruct is_tp; destruct k as [|[|[|[|]]]]; cbn in H; try discriminate; try (injection H as <- <-; lia). destruct n; discriminate. Qed.
  Lemma edge_exists e k : e < length rows -> k < length (circuit is_tp) -> exists u v, edge_at rows is_tp e k u v.
  Proof.
    intros He Hk. destruct (nth_exists _ _ He) as (row & Hr). destruct (nth_exists _ _ Hk) as ((i, j) & Hij). destruct (circuit_lt _ _ _ Hij) as (Hi & Hj).
    destruct (row_nth _ _ _ Hr Hi) as (u & Hu). destruct (row_nth _ _ _ Hr Hj) as (v & Hv). exists u, v, row, i, j. auto.
  Qed.
  Lemma edge_fun e k u v u' v' : edge_at rows is_tp e k u v -> edge_at rows is_tp e k u' v' -> u = u' /\ v = v'.
  Proof. intros (row & i & j & Hr & Hk & Hu & Hv) (row' & i' & j' & Hr' & Hk' & Hu' & Hv'). rewrite Hr in Hr'. injection Hr' as <-. rewrite Hk in Hk'. injection Hk' as <- <-. split; congruence. Qed.

  (** the vertices of a face are the ends of its edge *)
  Lemma face_verts_edge e f k u v vs : face_edge f k -> edge_at rows is_tp e k u v -> (face_verts groups (0, e, f) vs -> Permutation vs [u; v]) /\ exists vs', face_verts groups (0, e, f) vs' /\ Permutation vs' [u; v].
  Proof.
    intros (ref & i & j & Href & Hk & HP) (row & i' & j' & Hr & Hk' & Hu & Hv). rewrite Hk in Hk'. injection Hk' as <- <-.
    assert (He : e < length rows) by (apply nth_error_Some; congruence).
    assert (Hex : exists vs', Forall2 (fun k v => nth_error row k = Some v) ref vs' /\ Permutation vs' [u; v]).
    { apply Permutation_length_2_inv in HP || apply Permutation_sym, Permutation_length_2_inv in HP. destruct HP as [->| ->]; [exists [u; v]|exists [v; u]]; (split; [repeat constructor; assumption|]); [reflexivity|apply perm_swap]. }
    assert (Hfv : forall vs', Forall2 (fun k v => nth_error row k = Some v) ref vs' -> face_verts groups (0, e, f) vs').
    { intros vs' HF. exists (mk_egroup (Some rows) nodes fvi), row, ref. split; [reflexivity|]. split; [|split; [exact Href|exact HF]]. exists (mk_egroup (Some rows) nodes fvi), rows. split; [reflexivity|]. split; [reflexivity|]. unfold nelements. cbn [eg_nodes]. rewrite Hnodes. split; assumption. }
    destruct Hex as (vs' & HF & HP'). split; [|exists vs'; split; [apply Hfv; exact HF|exact HP']].
    intros (grp & row2 & ref2 & Hg & (grp2 & vi & Hg2 & Hvi & _ & Hr2) & Href2 & HF2). cbn in Hg, Hg2. injection Hg as <-. injection Hg2 as <-. cbn [eg_vi eg_fvi] in *. injection Hvi as <-. rewrite Hr in Hr2. injection Hr2 as <-. rewrite Href in Href2. injection Href2 as <-.
    assert (vs = vs'); [|subst; exact HP']. clear -HF HF2. revert vs' HF. induction HF2 as [|x y l l' Hxy _ IH]; intros vs' HF; inversion HF; subst; [reflexivity|]. f_equal; [congruence|now apply IH].
  Qed.

  Lemma partner_iff e f k u v b : face_edge f k -> edge_at rows is_tp e k u v ->
    (partner groups (0, e, f) b <-> exists e' f' k', b = (0, e', f') /\ face_edge f' k' /\ (e', k') <> (e, k) /\ (edge_at rows is_tp e' k' u v \/ edge_at rows is_tp e' k' v u)).
  Proof.
    intros Hf He. assert (Hel : e < length rows) by (destruct He as (row & i & j & Hr & _); apply nth_error_Some; congruence). assert (Hfl : f < length fvi) by (destruct Hf as (ref & i & j & Hr & _); apply nth_error_Some; congruence). split.
    - destruct b as ((g', e'), f'). intros (Hv & Hv' & Hne & (va & vb & Hva & Hvb & HP)). apply valid_face_iff in Hv'. destruct Hv' as (-> & He' & Hf'). destruct (face_edge_total f' Hf') as (k' & Hk').
      assert (Hkl : k' < length (circuit is_tp)) by (destruct Hk' as (r & i & j & _ & H & _); apply nth_error_Some; congruence).
      destruct (edge_exists e' k' He' Hkl) as (u' & v' & He2). exists e', f', k'. split; [reflexivity|]. split; [exact Hk'|]. split.
      + intros Heq. injection Heq as -> ->. apply Hne. rewrite (face_edge_inj f f' k Hf Hk'). reflexivity.
      + pose proof (proj1 (face_verts_edge e f k u v va Hf He) Hva) as P1. pose proof (proj1 (face_verts_edge e' f' k' u' v' vb Hk' He2) Hvb) as P2.
        assert (P3 : Permutation va [u'; v']) by exact (Permutation_trans HP P2). destruct (perm_pair _ _ _ _ _ P1 P3) as [(-> & ->)|(-> & ->)]; auto.
    - intros (e' & f' & k' & -> & Hk' & Hne & He'). assert (Hel' : e' < length rows) by (destruct He' as [(row & i & j & Hr & _)|(row & i & j & Hr & _)]; apply nth_error_Some; congruence). assert (Hfl' : f' < length fvi) by (destruct Hk' as (ref & i & j & Hr & _); apply nth_error_Some; congruence).
      split; [apply valid_face_iff; auto|]. split; [apply valid_face_iff; auto|]. split; [intros Heq; injection Heq as <- <-; apply Hne; rewrite (face_edge_fun f k k' Hf Hk'); reflexivity|].
      destruct (proj2 (face_verts_edge e f k u v [] Hf He)) as (va & Hva & Pa). destruct He' as [He'|He'].
      + destruct (proj2 (face_verts_edge e' f' k' u v [] Hk' He')) as (vb & Hvb & Pb). exists va, vb. split; [exact Hva|]. split; [exact Hvb|]. etransitivity; [exact Pa|apply Permutation_sym; exact Pb].
      + destruct (proj2 (face_verts_edge e' f' k' v u [] Hk' He')) as (vb & Hvb & Pb). exists va, vb. split; [exact Hva|]. split; [exact Hvb|]. etransitivity; [exact Pa|]. etransitivity; [apply perm_swap|apply Permutation_sym; exact Pb].
  Qed.

  Lemma closed_oriented_closed : closed_oriented rows is_tp -> closed_mesh groups.
  Proof.
    intros Hco ((g, e), f) Hv. apply valid_face_iff in Hv. destruct Hv as (-> & He & Hf). destruct (face_edge_total f Hf) as (k & Hk). assert (Hkl : k < length (circuit is_tp)) by (destruct Hk as (r & i & j & _ & H & _); apply nth_error_Some; congruence).
    destruct (edge_exists e k He Hkl) as (u & v & Hek). destruct (Hco _ _ _ _ Hek) as (Huv & Hu & e' & k' & Hek').
    assert (Hkl' : k' < length (circuit is_tp)) by (destruct Hek' as (r & i & j & _ & H & _); apply nth_error_Some; congruence). destruct (face_edge_surj k' Hkl') as (f' & Hf').
    exists (0, e', f'). split.
    - apply (partner_iff e f k u v _ Hk Hek). exists e', f', k'. split; [reflexivity|]. split; [exact Hf'|]. split; [|auto]. intros Heq. injection Heq as -> ->. destruct (edge_fun _ _ _ _ _ _ Hek Hek'). congruence.
    - intros b Hb. apply (partner_iff e f k u v _ Hk Hek) in Hb. destruct Hb as (e2 & f2 & k2 & -> & Hf2 & Hne & [H2|H2]); [destruct (Hu _ _ H2); congruence|].
      destruct (Hco _ _ _ _ Hek') as (_ & Hu' & _). destruct (Hu' _ _ H2) as (-> & ->). do 2 f_equal. eapply face_edge_inj; eauto.
  Qed.
End Edges.

(** ** Torus *)
(** s is the successor of i modulo n *)
Definition nx (n i s : nat) : Prop := (i + 1 < n /\ s = i + 1) \/ (i + 1 = n /\ s = 0).
Lemma nx_mod n i : i < n -> nx n i ((i + 1) mod n).
Proof. intros H. destruct (Nat.eq_dec (i + 1) n) as [E|E]; [right; split; [exact E|]; rewrite E; apply Nat.mod_same; lia|left; split; [lia|]; apply Nat.mod_small; lia]. Qed.
Lemma nx_pred n i : i < n -> exists p, p < n /\ nx n p i.
Proof. intros H. destruct i as [|i]; [exists (n - 1)|exists i]; unfold nx; split; lia. Qed.
Lemma nx_ex n i : i < n -> exists s, s < n /\ nx n i s.
Proof. intros H. exists ((i + 1) mod n). split; [apply Nat.mod_upper_bound; lia|now apply nx_mod]. Qed.
Lemma nx_fun n i s s' : nx n i s -> nx n i s' -> s = s'.
Proof. unfold nx. lia. Qed.

Lemma wrap_idx n m i j : 0 < n -> i <= n -> torus_wrap n m (torus_idx n i j) = i mod n + (j mod m) * n.
Proof.
  intros Hn Hi. unfold torus_wrap, torus_idx. rewrite Nat.mod_add by lia. rewrite (Nat.mod_small i (n + 1)) by lia. rewrite Nat.div_add by lia. rewrite (Nat.div_small i) by lia. reflexivity.
Qed.
Lemma pt_inj n x y x' y' : x < n -> x' < n -> x + y * n = x' + y' * n -> x = x' /\ y = y'.
Proof.
  intros Hx Hx' H. assert (y = y'). { apply (f_equal (fun z => z / n)) in H. rewrite !Nat.div_add in H by lia. rewrite !Nat.div_small in H by lia. exact H. }
  subst. split; [nia|reflexivity].
Qed.

Section TorusEdges.
  Variables n m : nat.
  Hypothesis (Hn : 3 <= n) (Hm : 3 <= m).

  (** the corners of a cell: true means one step further *)
  Definition step_ (b : bool) (i s : nat) : nat := if b then s else i.
  Definition corner_pt (i si j sj : nat) (c : bool * bool) : nat := step_ (fst c) i si + step_ (snd c) j sj * n.
  Definition t_table (t : bool) : list (bool * bool) :=
    if t then [(true, false); (true, true); (false, true)] else [(false, false); (true, false); (false, true)].
  Definition q_table : list (bool * bool) := [(false, false); (true, false); (false, true); (true, true)].
  Definition tri_at (e : nat) (t : bool) (i j : nat) : Prop :=
    i < n /\ j < m /\ if t then exists e', e = length (grid n m) + e' /\ nth_error (grid n m) e' = Some (i, j) else nth_error (grid n m) e = Some (i, j).

  Lemma grid_at e i j : nth_error (grid n m) e = Some (i, j) -> i < n /\ j < m.
  Proof. intros H. apply In_grid. eapply nth_error_In; eauto. Qed.
  Lemma grid_ex i j : i < n -> j < m -> exists e, nth_error (grid n m) e = Some (i, j).
  Proof. intros Hi Hj. apply In_nth_error. apply In_grid. auto. Qed.
  Lemma grid_inj e e' ij : nth_error (grid n m) e = Some ij -> nth_error (grid n m) e' = Some ij -> e = e'.
  Proof. intros H H'. apply (proj1 (NoDup_nth_error _) (NoDup_grid n m)); [apply nth_error_Some; congruence|congruence]. Qed.
  Lemma tri_at_fun e e' t i j : tri_at e t i j -> tri_at e' t i j -> e = e'.
  Proof. intros (_ & _ & H) (_ & _ & H'). destruct t; [destruct H as (x & -> & H); destruct H' as (x' & -> & H'); f_equal|]; eapply grid_inj; eauto. Qed.
  Lemma tri_at_ex t i j : i < n -> j < m -> exists e, tri_at e t i j.
  Proof. intros Hi Hj. destruct (grid_ex i j Hi Hj) as (e & He). destruct t; [exists (length (grid n m) + e)|exists e]; split; auto; split; auto. exists e. auto. Qed.

  Lemma wrap_corner i j a b : i < n -> j < m -> torus_wrap n m (torus_idx n (if a : bool then i + 1 else i) (if b : bool then j + 1 else j)) = corner_pt i ((i + 1) mod n) j ((j + 1) mod m) (a, b).
  Proof.
    intros Hi Hj. rewrite wrap_idx by (destruct a; lia). unfold corner_pt, step_. cbn [fst snd].
    destruct a, b; try (rewrite (Nat.mod_small i) by lia); try (rewrite (Nat.mod_small j) by lia); reflexivity.
  Qed.

  Definition torus_rows (cls : gcls) : list (list nat) := match torus_grid_rows n m cls with Ok r => map (map (torus_wrap n m)) r | Err _ => [] end.

  Lemma simplex_row e row : nth_error (torus_rows GSimplex) e = Some row <-> exists t i j, tri_at e t i j /\ row = map (corner_pt i ((i + 1) mod n) j ((j + 1) mod m)) (t_table t).
  Proof.
    unfold torus_rows, torus_grid_rows. rewrite map_app, !map_map.
    assert (Hmap : forall (F : nat * nat -> list nat) e row, nth_error (map F (grid n m)) e = Some row <-> exists i j, nth_error (grid n m) e = Some (i, j) /\ row = F (i, j)).
    { intros F e0 row0. rewrite nth_error_map. destruct (nth_error (grid n m) e0) as [(i, j)|] eqn:Ee; cbn [option_map]; split.
      - intros [= <-]. eauto.
      - intros (i' & j' & [= <- <-] & ->). reflexivity.
      - discriminate.
      - intros (i & j & [=] & _). }
    split.
    - intros H. destruct (Nat.lt_ge_cases e (length (grid n m))) as [Hlt|Hge].
      + rewrite nth_error_app1 in H by (rewrite map_length; exact Hlt). apply Hmap in H. destruct H as (i & j & He & ->). destruct (grid_at _ _ _ He) as (Hi & Hj). exists false, i, j. split; [repeat split; assumption|].
        cbn [map t_table]. f_equal; [apply (wrap_corner i j false false Hi Hj)|]. f_equal; [apply (wrap_corner i j true false Hi Hj)|]. f_equal. apply (wrap_corner i j false true Hi Hj).
      + rewrite nth_error_app2 in H by (rewrite map_length; exact Hge). rewrite map_length in H. apply Hmap in H. destruct H as (i & j & He & ->). destruct (grid_at _ _ _ He) as (Hi & Hj). exists true, i, j. split; [split; [exact Hi|]; split; [exact Hj|]; exists (e - length (grid n m)); split; [lia|exact He]|].
        cbn [map t_table]. f_equal; [apply (wrap_corner i j true false Hi Hj)|]. f_equal; [apply (wrap_corner i j true true Hi Hj)|]. f_equal. apply (wrap_corner i j false true Hi Hj).
    - intros (t & i & j & (Hi & Hj & He) & ->). destruct t.
      + destruct He as (e' & -> & He). rewrite nth_error_app2 by (rewrite map_length; lia). rewrite map_length. replace (length (grid n m) + e' - length (grid n m)) with e' by lia. apply Hmap. exists i, j. split; [exact He|].
        cbn [map t_table]. f_equal; [symmetry; apply (wrap_corner i j true false Hi Hj)|]. f_equal; [symmetry; apply (wrap_corner i j true true Hi Hj)|]. f_equal. symmetry. apply (wrap_corner i j false true Hi Hj).
      + rewrite nth_error_app1 by (rewrite map_length; apply nth_error_Some; congruence). apply Hmap. exists i, j. split; [exact He|].
        cbn [map t_table]. f_equal; [symmetry; apply (wrap_corner i j false false Hi Hj)|]. f_equal; [symmetry; apply (wrap_corner i j true false Hi Hj)|]. f_equal. symmetry. apply (wrap_corner i j false true Hi Hj).
  Qed.
  Lemma tensor_row e row : nth_error (torus_rows GTensor) e = Some row <-> exists i j, tri_at e false i j /\ row = map (corner_pt i ((i + 1) mod n) j ((j + 1) mod m)) q_table.
  Proof.
    unfold torus_rows, torus_grid_rows. rewrite map_map, nth_error_map.
    assert (Heq : forall i j, i < n -> j < m -> map (torus_wrap n m) [torus_idx n i j; torus_idx n (i + 1) j; torus_idx n i (j + 1); torus_idx n (i + 1) (j + 1)] = map (corner_pt i ((i + 1) mod n) j ((j + 1) mod m)) q_table).
    { intros i j Hi Hj. cbn [map q_table]. f_equal; [apply (wrap_corner i j false false Hi Hj)|]. f_equal; [apply (wrap_corner i j true false Hi Hj)|]. f_equal; [apply (wrap_corner i j false true Hi Hj)|]. f_equal. apply (wrap_corner i j true true Hi Hj). }
    split.
    - destruct (nth_error (grid n m) e) as [(i, j)|] eqn:Ee; [|discriminate]. cbn [option_map]. intros [= <-]. destruct (grid_at _ _ _ Ee) as (Hi & Hj). exists i, j. split; [repeat split; assumption|]. apply Heq; assumption.
    - intros (i & j & (Hi & Hj & He) & ->). rewrite He. cbn [option_map]. f_equal. apply Heq; assumption.
  Qed.

  (** an edge as steps of a cell *)
  Definition cell_edges (t : bool) : list ((bool * bool) * (bool * bool)) :=
    if t then [((true, false), (true, true)); ((true, true), (false, true)); ((false, true), (true, false))]
    else [((false, false), (true, false)); ((true, false), (false, true)); ((false, true), (false, false))].
  Definition quad_edges : list ((bool * bool) * (bool * bool)) :=
    [((false, false), (true, false)); ((true, false), (true, true)); ((true, true), (false, true)); ((false, true), (false, false))].

  Lemma simplex_edge e k u v : edge_at (torus_rows GSimplex) false e k u v <-> exists t i j c c', tri_at e t i j /\ nth_error (cell_edges t) k = Some (c, c') /\
    u = corner_pt i ((i + 1) mod n) j ((j + 1) mod m) c /\ v = corner_pt i ((i + 1) mod n) j ((j + 1) mod m) c'.
  Proof.
    split.
    - intros (row & x & y & Hr & Hk & Hu & Hv). apply simplex_row in Hr. destruct Hr as (t & i & j & Ht & ->). exists t, i, j.
      destruct k as [|[|[|k]]]; cbn in Hk; try (destruct k; discriminate); injection Hk as <- <-; destruct t; cbn in Hu, Hv; injection Hu as <-; injection Hv as <-; do 2 eexists; (split; [exact Ht|]); (split; [reflexivity|]); split; reflexivity.
    - intros (t & i & j & c & c' & Ht & Hk & -> & ->). exists (map (corner_pt i ((i + 1) mod n) j ((j + 1) mod m)) (t_table t)). destruct k as [|[|[|k]]]; [exists 0, 1|exists 1, 2|exists 2, 0|destruct t; destruct k; discriminate]; (split; [apply simplex_row; exists t, i, j; split; [exact Ht|reflexivity]|]); destruct t; cbn in Hk; injection Hk as <- <-; repeat split; reflexivity.
  Qed.
  Lemma tensor_edge e k u v : edge_at (torus_rows GTensor) true e k u v <-> exists i j c c', tri_at e false i j /\ nth_error quad_edges k = Some (c, c') /\
    u = corner_pt i ((i + 1) mod n) j ((j + 1) mod m) c /\ v = corner_pt i ((i + 1) mod n) j ((j + 1) mod m) c'.
  Proof.
    split.
    - intros (row & x & y & Hr & Hk & Hu & Hv). apply tensor_row in Hr. destruct Hr as (i & j & Ht & ->). exists i, j.
      destruct k as [|[|[|[|k]]]]; cbn in Hk; try (destruct k; discriminate); injection Hk as <- <-; cbn in Hu, Hv; injection Hu as <-; injection Hv as <-; do 2 eexists; (split; [exact Ht|]); (split; [reflexivity|]); split; reflexivity.
    - intros (i & j & c & c' & Ht & Hk & -> & ->). exists (map (corner_pt i ((i + 1) mod n) j ((j + 1) mod m)) q_table). destruct k as [|[|[|[|k]]]]; [exists 0, 1|exists 1, 3|exists 3, 2|exists 2, 0|destruct k; discriminate]; (split; [apply tensor_row; exists i, j; split; [exact Ht|reflexivity]|]); cbn in Hk; injection Hk as <- <-; repeat split; reflexivity.
  Qed.

  Lemma corner_inj i si j sj i' si' j' sj' c c' : i < n -> nx n i si -> i' < n -> nx n i' si' ->
    corner_pt i si j sj c = corner_pt i' si' j' sj' c' -> step_ (fst c) i si = step_ (fst c') i' si' /\ step_ (snd c) j sj = step_ (snd c') j' sj'.
  Proof. intros Hi Hs Hi' Hs' H. unfold corner_pt in H. apply pt_inj in H; [exact H| |]; unfold step_, nx in *; [destruct (fst c)|destruct (fst c')]; lia. Qed.

  Lemma torus_simplex : closed_oriented (torus_rows GSimplex) false.
  Proof.
    intros e k u v H. apply simplex_edge in H. destruct H as (t & i & j & c & c' & Ht & Hk & Hu & Hv). pose proof Ht as (Hi & Hj & _).
    assert (Hkl : k < 3) by (assert (k < length (cell_edges t)) by (apply nth_error_Some; congruence); destruct t; assumption).
    pose proof (nx_mod n i Hi) as Si. pose proof (nx_mod m j Hj) as Sj. set (si := (i + 1) mod n) in *. set (sj := (j + 1) mod m) in *.
    split; [|split].
    - intros E. rewrite Hu, Hv in E. apply corner_inj in E; auto. destruct t; destruct k as [|[|[|]]]; try lia; cbn in Hk; injection Hk as <- <-; cbn [fst snd step_] in E; unfold nx in *; lia.
    - intros e' k' H'. apply simplex_edge in H'. destruct H' as (t' & i' & j' & c2 & c2' & Ht' & Hk' & Hu' & Hv'). pose proof Ht' as (Hi' & Hj' & _).
      assert (Hkl' : k' < 3) by (assert (k' < length (cell_edges t')) by (apply nth_error_Some; congruence); destruct t'; assumption).
      pose proof (nx_mod n i' Hi') as Si'. pose proof (nx_mod m j' Hj') as Sj'. set (si' := (i' + 1) mod n) in *. set (sj' := (j' + 1) mod m) in *.
      rewrite Hu in Hu'. rewrite Hv in Hv'. apply corner_inj in Hu'; auto. apply corner_inj in Hv'; auto. destruct Hu' as (A1 & A2). destruct Hv' as (B1 & B2).
      assert (Hc : t = t' /\ i = i' /\ j = j' /\ k = k').
      { clear -Hk Hk' A1 A2 B1 B2 Si Sj Si' Sj' Hkl Hkl' Hn Hm. unfold nx in *.
        destruct t, t'; destruct k as [|[|[|]]]; try lia; destruct k' as [|[|[|]]]; try lia; cbn in Hk, Hk'; injection Hk as <- <-; injection Hk' as <- <-; cbn [fst snd step_] in *; clearbody si sj si' sj'; try (exfalso; lia); repeat split; try reflexivity; lia. }
      destruct Hc as (-> & -> & -> & ->). split; [|reflexivity]. eapply tri_at_fun; eauto.
    - destruct (nx_pred n i Hi) as (pi & Hpi & Spi). destruct (nx_pred m j Hj) as (pj & Hpj & Spj).
      assert (Hsi : si < n) by (apply Nat.mod_upper_bound; lia). assert (Hsj : sj < m) by (apply Nat.mod_upper_bound; lia).
      assert (Hgo : forall t' i' j' k' c2 c2', i' < n -> j' < m -> nth_error (cell_edges t') k' = Some (c2, c2') -> v = corner_pt i' ((i' + 1) mod n) j' ((j' + 1) mod m) c2 -> u = corner_pt i' ((i' + 1) mod n) j' ((j' + 1) mod m) c2' -> exists e' k', edge_at (torus_rows GSimplex) false e' k' v u).
      { intros t' i' j' k' c2 c2' Hi' Hj' Hk' H1 H2. destruct (tri_at_ex t' i' j' Hi' Hj') as (e' & He'). exists e', k'. apply simplex_edge. exists t', i', j', c2, c2'. auto. }
      assert (Mi : (pi + 1) mod n = i) by (eapply nx_fun; [apply nx_mod; exact Hpi|exact Spi]). assert (Mj : (pj + 1) mod m = j) by (eapply nx_fun; [apply nx_mod; exact Hpj|exact Spj]).
      destruct t; destruct k as [|[|[|]]]; try lia; cbn in Hk; injection Hk as <- <-; cbn [corner_pt fst snd step_] in Hu, Hv; unfold corner_pt in Hu, Hv; cbn [fst snd step_] in Hu, Hv.
      + apply (Hgo false si j 2 (false, true) (false, false)); auto.
      + apply (Hgo false i sj 0 (false, false) (true, false)); auto.
      + apply (Hgo false i j 1 (true, false) (false, true)); auto.
      + apply (Hgo true i pj 1 (true, true) (false, true)); auto; unfold corner_pt; cbn [fst snd step_]; rewrite Mj; assumption.
      + apply (Hgo true i j 2 (false, true) (true, false)); auto.
      + apply (Hgo true pi j 0 (true, false) (true, true)); auto; unfold corner_pt; cbn [fst snd step_]; rewrite Mi; assumption.
  Qed.

  Lemma torus_tensor : closed_oriented (torus_rows GTensor) true.
  Proof.
    intros e k u v H. apply tensor_edge in H. destruct H as (i & j & c & c' & Ht & Hk & Hu & Hv). pose proof Ht as (Hi & Hj & _).
    assert (Hkl : k < 4) by (change 4 with (length quad_edges); apply nth_error_Some; congruence).
    pose proof (nx_mod n i Hi) as Si. pose proof (nx_mod m j Hj) as Sj. set (si := (i + 1) mod n) in *. set (sj := (j + 1) mod m) in *.
    split; [|split].
    - intros E. rewrite Hu, Hv in E. apply corner_inj in E; auto. destruct k as [|[|[|[|]]]]; try lia; cbn in Hk; injection Hk as <- <-; cbn [fst snd step_] in E; unfold nx in *; lia.
    - intros e' k' H'. apply tensor_edge in H'. destruct H' as (i' & j' & c2 & c2' & Ht' & Hk' & Hu' & Hv'). pose proof Ht' as (Hi' & Hj' & _).
      assert (Hkl' : k' < 4) by (change 4 with (length quad_edges); apply nth_error_Some; congruence).
      pose proof (nx_mod n i' Hi') as Si'. pose proof (nx_mod m j' Hj') as Sj'. set (si' := (i' + 1) mod n) in *. set (sj' := (j' + 1) mod m) in *.
      rewrite Hu in Hu'. rewrite Hv in Hv'. apply corner_inj in Hu'; auto. apply corner_inj in Hv'; auto. destruct Hu' as (A1 & A2). destruct Hv' as (B1 & B2).
      assert (Hc : i = i' /\ j = j' /\ k = k').
      { clear -Hk Hk' A1 A2 B1 B2 Si Sj Si' Sj' Hkl Hkl' Hn Hm. unfold nx in *.
        destruct k as [|[|[|[|]]]]; try lia; destruct k' as [|[|[|[|]]]]; try lia; cbn in Hk, Hk'; injection Hk as <- <-; injection Hk' as <- <-; cbn [fst snd step_] in *; clearbody si sj si' sj'; try (exfalso; lia); repeat split; try reflexivity; lia. }
      destruct Hc as (-> & -> & ->). split; [|reflexivity]. eapply tri_at_fun; eauto.
    - destruct (nx_pred n i Hi) as (pi & Hpi & Spi). destruct (nx_pred m j Hj) as (pj & Hpj & Spj).
      assert (Hsi : si < n) by (apply Nat.mod_upper_bound; lia). assert (Hsj : sj < m) by (apply Nat.mod_upper_bound; lia).
      assert (Hgo : forall i' j' k' c2 c2', i' < n -> j' < m -> nth_error quad_edges k' = Some (c2, c2') -> v = corner_pt i' ((i' + 1) mod n) j' ((j' + 1) mod m) c2 -> u = corner_pt i' ((i' + 1) mod n) j' ((j' + 1) mod m) c2' -> exists e' k', edge_at (torus_rows GTensor) true e' k' v u).
      { intros i' j' k' c2 c2' Hi' Hj' Hk' H1 H2. destruct (tri_at_ex false i' j' Hi' Hj') as (e' & He'). exists e', k'. apply tensor_edge. exists i', j', c2, c2'. auto. }
      assert (Mi : (pi + 1) mod n = i) by (eapply nx_fun; [apply nx_mod; exact Hpi|exact Spi]). assert (Mj : (pj + 1) mod m = j) by (eapply nx_fun; [apply nx_mod; exact Hpj|exact Spj]).
      destruct k as [|[|[|[|]]]]; try lia; cbn in Hk; injection Hk as <- <-; unfold corner_pt in Hu, Hv; cbn [fst snd step_] in Hu, Hv.
      + apply (Hgo i pj 2 (true, true) (false, true)); auto; unfold corner_pt; cbn [fst snd step_]; rewrite Mj; assumption.
      + apply (Hgo si j 3 (false, true) (false, false)); auto.
      + apply (Hgo i sj 0 (false, false) (true, false)); auto.
      + apply (Hgo pi j 1 (true, false) (true, true)); auto; unfold corner_pt; cbn [fst snd step_]; rewrite Mi; assumption.
  Qed.
End TorusEdges.
