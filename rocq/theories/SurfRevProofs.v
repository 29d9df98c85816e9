(** * SurfRevProofs: surfaces of revolution, vertices of tori, curves *)
From Coq Require Import List Arith Bool ZArith Lia Permutation Ring.
From Verif Require Import Np NpFacts MeshModel MeshSpec Lin RestrProofs BoxModel BoxSpec SurfModel SurfSpec SurfProofs.
Import ListNotations.

Lemma flat_map_const_nth {A B} (f : A -> list B) c l q r : (forall x, length (f x) = c) -> r < c ->
  nth_error (flat_map f l) (q * c + r) = match nth_error l q with Some x => nth_error (f x) r | None => None end.
Proof.
  intros Hf Hr. revert q. induction l as [|x l IH]; intros q; [destruct (q * c + r), q; reflexivity|]. cbn [flat_map]. destruct q as [|q].
  - cbn [Nat.mul Nat.add nth_error]. now rewrite nth_error_app1 by (rewrite Hf; exact Hr).
  - rewrite nth_error_app2 by (rewrite Hf; lia). rewrite Hf. replace (S q * c + r - c) with (q * c + r) by lia. rewrite IH. reflexivity.
Qed.
Lemma flat_map_const_length {A B} (f : A -> list B) c l : (forall x, length (f x) = c) -> length (flat_map f l) = length l * c.
Proof. intros Hf. induction l as [|x l IH]; [reflexivity|]. cbn [flat_map]. rewrite app_length, Hf, IH. cbn [length]. lia. Qed.
Lemma divmod_split c e : 0 < c -> exists q r, e = q * c + r /\ r < c.
Proof. intros Hc. exists (e / c), (e mod c). split; [|apply Nat.mod_upper_bound; lia]. pose proof (Nat.div_mod e c). lia. Qed.
Lemma flat_map_grid {B} (f : nat -> nat -> list B) a b : flat_map (fun i => flat_map (f i) (seq 0 b)) (seq 0 a) = flat_map (fun ij => f (fst ij) (snd ij)) (grid a b).
Proof.
  unfold grid. generalize (seq 0 a). intros l. induction l as [|i l IH]; [reflexivity|]. cbn [flat_map]. rewrite flat_map_app, IH. f_equal. clear.
  generalize (seq 0 b). intros l. induction l as [|j l IH]; [reflexivity|]. cbn [flat_map map fst snd]. now rewrite IH.
Qed.

(** ** Surface of revolution *)
Section Rev.
  Variables n m : nat.

  Definition rpt (i j : nat) : nat := i * n + j.
  Definition rev_tri (t : bool) (i j sj : nat) : list nat :=
    if t then [rpt i j; rpt i sj; rpt (i + 1) sj] else [rpt i j; rpt (i + 1) j; rpt (i + 1) sj].
  Definition rev_at (e : nat) (t : bool) (i j : nat) : Prop :=
    i < m - 1 /\ j < n /\ exists q, nth_error (grid (m - 1) n) q = Some (i, j) /\ e = q * 2 + if t then 1 else 0.

  Lemma rev_row e row : nth_error (rev_rows n m) e = Some row <-> exists t i j, rev_at e t i j /\ row = rev_tri t i j ((j + 1) mod n).
  Proof.
    unfold rev_rows. rewrite flat_map_grid. set (f := fun ij : nat * nat => _). assert (Hf : forall x, length (f x) = 2) by reflexivity. split.
    - intros H. destruct (divmod_split 2 e) as (q & r & -> & Hr); [lia|]. rewrite (flat_map_const_nth f 2 _ q r Hf Hr) in H. destruct (nth_error (grid (m - 1) n) q) as [(i, j)|] eqn:Eq; [|discriminate].
      pose proof (proj1 (In_grid _ _ _ _) (nth_error_In _ _ Eq)) as (Hi & Hj). destruct r as [|[|r]]; [exists false|exists true|lia]; exists i, j; cbn in H; injection H as <-; (split; [|reflexivity]); (split; [exact Hi|]); (split; [exact Hj|]); exists q; auto.
    - intros (t & i & j & (Hi & Hj & q & Hq & ->) & ->). rewrite (flat_map_const_nth f 2) by (try exact Hf; destruct t; lia). rewrite Hq. destruct t; reflexivity.
  Qed.
  Lemma rev_at_fun e e' t i j : rev_at e t i j -> rev_at e' t i j -> e = e'.
  Proof.
    intros (_ & _ & q & Hq & ->) (_ & _ & q' & Hq' & ->). f_equal. f_equal. apply (proj1 (NoDup_nth_error _) (NoDup_grid (m - 1) n)); [apply nth_error_Some; congruence|congruence].
  Qed.
  Lemma rev_at_ex t i j : i < m - 1 -> j < n -> exists e, rev_at e t i j.
  Proof. intros Hi Hj. assert (Hin : In (i, j) (grid (m - 1) n)) by (apply In_grid; auto). apply In_nth_error in Hin as (q & Hq). exists (q * 2 + if t then 1 else 0). split; [exact Hi|]. split; [exact Hj|]. exists q. auto. Qed.
  Lemma rev_at_unique e t i j t' i' j' : rev_at e t i j -> rev_at e t' i' j' -> t = t' /\ i = i' /\ j = j'.
  Proof. intros (_ & _ & q & Hq & ->) (_ & _ & q' & Hq' & E). assert (q = q' /\ t = t') as (<- & <-) by (destruct t, t'; split; (reflexivity || lia)). rewrite Hq in Hq'. injection Hq' as <- <-. auto. Qed.

  (** edges: (row step, column step) of both ends *)
  Definition rev_edges (t : bool) : list ((bool * bool) * (bool * bool)) :=
    if t then [((false, false), (false, true)); ((false, true), (true, true)); ((true, true), (false, false))]
    else [((false, false), (true, false)); ((true, false), (true, true)); ((true, true), (false, false))].
  Definition rcorner (i j sj : nat) (c : bool * bool) : nat := rpt (step_ (fst c) i (i + 1)) (step_ (snd c) j sj).

  Lemma rev_edge e k u v : edge_at (rev_rows n m) false e k u v <-> exists t i j c c', rev_at e t i j /\ nth_error (rev_edges t) k = Some (c, c') /\
    u = rcorner i j ((j + 1) mod n) c /\ v = rcorner i j ((j + 1) mod n) c'.
  Proof.
    split.
    - intros (row & x & y & Hr & Hk & Hu & Hv). apply rev_row in Hr. destruct Hr as (t & i & j & Ht & ->). exists t, i, j.
      destruct k as [|[|[|k]]]; cbn in Hk; try (destruct k; discriminate); injection Hk as <- <-; destruct t; cbn in Hu, Hv; injection Hu as <-; injection Hv as <-; do 2 eexists; (split; [exact Ht|]); (split; [reflexivity|]); split; reflexivity.
    - intros (t & i & j & c & c' & Ht & Hk & -> & ->). exists (rev_tri t i j ((j + 1) mod n)). destruct k as [|[|[|k]]]; [exists 0, 1|exists 1, 2|exists 2, 0|destruct t; destruct k; discriminate]; (split; [apply rev_row; exists t, i, j; split; [exact Ht|reflexivity]|]); destruct t; cbn in Hk; injection Hk as <- <-; repeat split; reflexivity.
  Qed.
  Lemma rpt_inj i j i' j' : j < n -> j' < n -> rpt i j = rpt i' j' -> i = i' /\ j = j'.
  Proof. intros Hj Hj' H. unfold rpt in H. destruct (pt_inj n j i j' i' Hj Hj'); lia. Qed.
  Lemma rcorner_inj i j sj i' j' sj' c c' : j < n -> nx n j sj -> j' < n -> nx n j' sj' ->
    rcorner i j sj c = rcorner i' j' sj' c' -> step_ (fst c) i (i + 1) = step_ (fst c') i' (i' + 1) /\ step_ (snd c) j sj = step_ (snd c') j' sj'.
  Proof. intros Hj Hs Hj' Hs' H. unfold rcorner in H. apply rpt_inj in H; [exact H| |]; unfold step_, nx in *; [destruct (snd c)|destruct (snd c')]; lia. Qed.

  (** every diagonal is traversed in the same direction by both triangles *)
  Lemma rev_not_oriented : 1 <= n -> 2 <= m -> ~ consistently_oriented (rev_rows n m) false.
  Proof.
    intros Hn Hm H. destruct (rev_at_ex false 0 0) as (e & He); [lia|lia|]. destruct (rev_at_ex true 0 0) as (e' & He'); [lia|lia|].
    assert (e = e'). { eapply (H e 2 e' 2); apply rev_edge; [exists false, 0, 0|exists true, 0, 0]; do 2 eexists; (split; [eassumption|]); (split; [reflexivity|]); split; reflexivity. }
    subst e'. destruct (rev_at_unique _ _ _ _ _ _ _ He He') as (E & _). discriminate.
  Qed.

  (** the partner of an edge: none on the first and last circle, otherwise one *)
  Definition mate (t : bool) (i j pj sj k : nat) : option (bool * nat * nat * nat) :=
    match t, k with
    | false, 0 => Some (true, i, pj, 1)
    | false, 1 => if i + 1 <? m - 1 then Some (true, i + 1, j, 0) else None
    | false, _ => Some (true, i, j, 2)
    | true, 0 => if 0 <? i then Some (false, i - 1, j, 1) else None
    | true, 1 => Some (false, i, sj, 0)
    | true, _ => Some (false, i, j, 2)
    end.
  Lemma rev_mate (t t' : bool) i j pj sj k i' j' sj' k' c c' c2 c2' : 3 <= n -> i < m - 1 -> j < n -> i' < m - 1 -> j' < n ->
    nx n j sj -> nx n pj j -> pj < n -> nx n j' sj' -> nth_error (rev_edges t) k = Some (c, c') -> nth_error (rev_edges t') k' = Some (c2, c2') ->
    (((rcorner i' j' sj' c2 = rcorner i j sj c /\ rcorner i' j' sj' c2' = rcorner i j sj c') \/ (rcorner i' j' sj' c2 = rcorner i j sj c' /\ rcorner i' j' sj' c2' = rcorner i j sj c)) <->
     (t', i', j', k') = (t, i, j, k) \/ mate t i j pj sj k = Some (t', i', j', k')).
  Proof.
    intros Hn Hi Hj Hi' Hj' Sj Pj Hpj Sj' Hk Hk'. assert (Hkl : k < 3) by (assert (k < length (rev_edges t)) by (apply nth_error_Some; congruence); destruct t; assumption). assert (Hkl' : k' < 3) by (assert (k' < length (rev_edges t')) by (apply nth_error_Some; congruence); destruct t'; assumption).
    split.
    - intros H. assert (Hs : (step_ (fst c2) i' (i' + 1) = step_ (fst c) i (i + 1) /\ step_ (snd c2) j' sj' = step_ (snd c) j sj /\ step_ (fst c2') i' (i' + 1) = step_ (fst c') i (i + 1) /\ step_ (snd c2') j' sj' = step_ (snd c') j sj) \/
        (step_ (fst c2) i' (i' + 1) = step_ (fst c') i (i + 1) /\ step_ (snd c2) j' sj' = step_ (snd c') j sj /\ step_ (fst c2') i' (i' + 1) = step_ (fst c) i (i + 1) /\ step_ (snd c2') j' sj' = step_ (snd c) j sj)).
      { destruct H as [(H1 & H2)|(H1 & H2)]; apply rcorner_inj in H1; auto; apply rcorner_inj in H2; auto; [left|right]; tauto. }
      clear H. unfold nx in *. destruct t, t'; destruct k as [|[|[|]]]; try lia; destruct k' as [|[|[|]]]; try lia; cbn in Hk, Hk'; injection Hk as <- <-; injection Hk' as <- <-; cbn [fst snd step_ mate] in *; try (exfalso; lia);
        first [ left; repeat f_equal; lia | right; repeat f_equal; lia | right; match goal with |- context [if ?b then _ else _] => destruct b eqn:Eb; [apply Nat.ltb_lt in Eb|apply Nat.ltb_ge in Eb; exfalso; lia] end; repeat f_equal; lia ].
    - intros [[= -> -> -> ->]|H].
      + rewrite Hk in Hk'. injection Hk' as <- <-. left. assert (sj' = sj) by (eapply nx_fun; eauto). subst. auto.
      + destruct t; destruct k as [|[|[|]]]; try lia; cbn [mate] in H; cbn in Hk; injection Hk as <- <-;
          try (match type of H with context [if ?b then _ else _] => destruct b eqn:Eb; [apply Nat.ltb_lt in Eb|discriminate] end); injection H as <- <- <- <-; cbn in Hk'; injection Hk' as <- <-; unfold rcorner; cbn [fst snd step_];
          try (assert (sj' = sj) by (eapply nx_fun; eauto); subst sj'); try (assert (sj' = j) by (eapply nx_fun; eauto); subst sj'); try (replace (i - 1 + 1) with i by lia); auto.
  Qed.
End Rev.

Section RevMesh.
  Context {E : Type}.
  Variables (n m : nat) (nodes : list E) (fvi : list (list nat)).
  Hypothesis Hn : 3 <= n.
  Hypothesis Hfvi : enumerates fvi (facets_of 2 false).
  Hypothesis Hnodes : length nodes = length (rev_rows n m).
  Let groups := [mk_egroup (Some (rev_rows n m)) nodes fvi].

  Lemma rev_row_len e row : nth_error (rev_rows n m) e = Some row -> length row = 3.
  Proof. intros H. apply rev_row in H. destruct H as (t & i & j & _ & ->). destruct t; reflexivity. Qed.

  (** the vertices [vs] all lie on the first circle, or all on the last one *)
  Definition on_end (vs : list nat) : Prop := (forall v, In v vs -> v < n) \/ (forall v, In v vs -> (m - 1) * n <= v).

  Lemma rev_faces a vs : face_verts groups a vs ->
    (on_end vs /\ forall b, ~ partner groups a b) \/ (~ on_end vs /\ exists b, partner groups a b /\ forall b', partner groups a b' -> b' = b).
  Proof.
    destruct a as ((g, e), f). intros Hvs. assert (Hval : valid_face groups (g, e, f)).
    { destruct Hvs as (grp & row & ref & Hg & (grp2 & vi & Hg2 & _ & He & _) & Href & _). exists grp. split; [exact Hg|]. rewrite Hg in Hg2. injection Hg2 as <-. split; [exact He|]. apply nth_error_Some. congruence. }
    apply (valid_face_iff (rev_rows n m) nodes fvi Hnodes) in Hval. destruct Hval as (-> & He & Hf).
    destruct (face_edge_total (rev_rows n m) fvi false Hfvi rev_row_len f Hf) as (k & Hk). assert (Hkl : k < 3) by (destruct Hk as (r & x & y & _ & H & _); change 3 with (length (circuit false)); apply nth_error_Some; congruence).
    destruct (edge_exists (rev_rows n m) nodes fvi false Hfvi Hnodes rev_row_len e k He Hkl) as (u & v & Hek). pose proof (proj1 (face_verts_edge (rev_rows n m) nodes fvi false Hnodes e f k u v vs Hk Hek) Hvs) as HP.
    pose proof (fun b => partner_iff (rev_rows n m) nodes fvi false Hfvi Hnodes rev_row_len e f k u v b Hk Hek) as Hpart. fold groups in Hpart.
    apply rev_edge in Hek. destruct Hek as (t & i & j & c & c' & Ht & Hc & Hu & Hv). pose proof Ht as (Hi & Hj & _). destruct (nx_pred n j Hj) as (pj & Hpj & Spj). pose proof (nx_mod n j Hj) as Sj.
    assert (Hpart' : forall b, partner groups (0, e, f) b <-> exists e' f' k' t' i' j', b = (0, e', f') /\ face_edge fvi false f' k' /\ rev_at n m e' t' i' j' /\ mate m t i j pj ((j + 1) mod n) k = Some (t', i', j', k')).
    { intros b. rewrite Hpart. split.
      - intros (e' & f' & k' & -> & Hf' & Hne & He'). exists e', f', k'. destruct He' as [He'|He']; apply rev_edge in He'; destruct He' as (t' & i' & j' & c2 & c2' & Ht' & Hc' & Hu' & Hv'); exists t', i', j'; pose proof Ht' as (Hi' & Hj' & _); (split; [reflexivity|]); (split; [exact Hf'|]); (split; [exact Ht'|]);
        (destruct (proj1 (rev_mate n m t t' i j pj ((j + 1) mod n) k i' j' ((j' + 1) mod n) k' c c' c2 c2' Hn Hi Hj Hi' Hj' Sj Spj Hpj (nx_mod n j' Hj') Hc Hc')) as [Hs|Hs]; [rewrite <- Hu, <- Hv, <- Hu', <- Hv'; auto| |exact Hs]);
        exfalso; apply Hne; injection Hs as -> -> -> ->; rewrite (rev_at_fun n m _ _ _ _ _ Ht Ht'); reflexivity.
      - intros (e' & f' & k' & t' & i' & j' & -> & Hf' & Ht' & Hm). exists e', f', k'. split; [reflexivity|]. split; [exact Hf'|]. pose proof Ht' as (Hi' & Hj' & _).
        assert (Hkl' : k' < 3) by (destruct Hf' as (r & x & y & _ & H & _); change 3 with (length (circuit false)); apply nth_error_Some; congruence).
        destruct (nth_error (rev_edges t') k') as [(c2, c2')|] eqn:Hc'; [|apply nth_error_None in Hc'; destruct t'; cbn in Hc'; lia].
        pose proof (proj2 (rev_mate n m t t' i j pj ((j + 1) mod n) k i' j' ((j' + 1) mod n) k' c c' c2 c2' Hn Hi Hj Hi' Hj' Sj Spj Hpj (nx_mod n j' Hj') Hc Hc') (or_intror Hm)) as Heq.
        split.
        + intros Heq'. injection Heq' as -> ->. destruct (rev_at_unique n m _ _ _ _ _ _ _ Ht Ht') as (<- & _). clear -Hm. destruct t; destruct k as [|[|]]; cbn [mate] in Hm; try discriminate; destruct (_ <? _); discriminate.
        + destruct Heq as [(H1 & H2)|(H1 & H2)]; [left|right]; apply rev_edge; exists t', i', j', c2, c2'; (split; [exact Ht'|]); (split; [exact Hc'|]); split; congruence. }
    assert (Hon : on_end vs <-> (u < n /\ v < n) \/ ((m - 1) * n <= u /\ (m - 1) * n <= v)).
    { unfold on_end. split; (intros [H|H]; [left|right]).
      - split; apply H; eapply Permutation_in; try (apply Permutation_sym; exact HP); cbn; auto.
      - split; apply H; eapply Permutation_in; try (apply Permutation_sym; exact HP); cbn; auto.
      - intros w Hw. apply (Permutation_in _ HP) in Hw. destruct Hw as [<-|[<-|[]]]; tauto.
      - intros w Hw. apply (Permutation_in _ HP) in Hw. destruct Hw as [<-|[<-|[]]]; tauto. }
    assert (Hmate : (on_end vs /\ mate m t i j pj ((j + 1) mod n) k = None) \/ (~ on_end vs /\ exists p, mate m t i j pj ((j + 1) mod n) k = Some p)).
    { rewrite Hon. assert (Hsj : (j + 1) mod n < n) by (apply Nat.mod_upper_bound; lia). set (sj := (j + 1) mod n) in *. clearbody sj. subst u v. unfold rcorner, rpt.
      destruct t; destruct k as [|[|[|]]]; try lia; cbn in Hc; injection Hc as <- <-; cbn [fst snd step_ mate];
        try (match goal with |- context [if ?b then _ else _] => destruct b eqn:Eb; [apply Nat.ltb_lt in Eb|apply Nat.ltb_ge in Eb] end);
        first [ left; split; [|reflexivity]; (left; split; nia) + (right; split; nia) | right; split; [|eexists; reflexivity]; intros [(A & B)|(A & B)]; nia ]. }
    destruct Hmate as [(Ho & Hm)|(Ho & (((t', i'), j'), k') & Hm)].
    - left. split; [exact Ho|]. intros b Hb. apply Hpart' in Hb. destruct Hb as (? & ? & ? & ? & ? & ? & _ & _ & _ & H). congruence.
    - right. split; [exact Ho|].
      assert (Hr : i' < m - 1 /\ j' < n /\ k' < 3).
      { assert (Hsj : (j + 1) mod n < n) by (apply Nat.mod_upper_bound; lia). clear -Hm Hi Hj Hpj Hsj Hkl. destruct t; destruct k as [|[|[|]]]; try lia; cbn [mate] in Hm; try (match type of Hm with context [if ?b then _ else _] => destruct b eqn:Eb; [apply Nat.ltb_lt in Eb|discriminate] end); injection Hm as <- <- <- <-; repeat split; lia. }
      destruct Hr as (Hi' & Hj' & Hk'). destruct (rev_at_ex n m t' i' j' Hi' Hj') as (e' & He'). destruct (face_edge_surj (rev_rows n m) fvi false Hfvi rev_row_len k' Hk') as (f' & Hf'). exists (0, e', f'). split.
      + apply Hpart'. exists e', f', k', t', i', j'. auto.
      + intros b Hb. apply Hpart' in Hb. destruct Hb as (e2 & f2 & k2 & t2 & i2 & j2 & -> & Hf2 & Ht2 & Hm2). rewrite Hm in Hm2. injection Hm2 as <- <- <- <-. rewrite (rev_at_fun n m _ _ _ _ _ Ht2 He'), (face_edge_inj (rev_rows n m) nodes fvi false Hfvi Hnodes rev_row_len f2 f' k' Hf2 Hf'). reflexivity.
  Qed.
End RevMesh.
