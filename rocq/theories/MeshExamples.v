(** * A concrete mesh with two groups, and checkers showing it meets the hypotheses.

    Two triangles (0,1,2), (1,3,2) sharing the edge 1-2, and a quadrilateral
    (1,4,3,5) in a second group sharing the edge 1-3 with the second triangle. *)
From Coq Require Import List Arith Bool ZArith Lia Permutation.
From Verif Require Import Np NpFacts MeshModel MeshSpec MeshProofs CompletionProofs FaceProofs.
Import ListNotations.

Definition tri_faces : list (list nat) := [[0; 1]; [2; 0]; [1; 2]].
Definition quad_faces : list (list nat) := [[0; 1]; [2; 3]; [0; 2]; [1; 3]].

Definition ex_groups : list (egroup nat) :=
  [mk_egroup (Some [[0; 1; 2]; [1; 3; 2]]) [100; 101] tri_faces;
   mk_egroup (Some [[1; 4; 3; 5]]) [102] quad_faces].

Lemma ex_has_rows : has_rows ex_groups.
Proof. repeat constructor; eexists; split; reflexivity. Qed.

Lemma local_row_ex g e row : local_row ex_groups g e row ->
  (g = 0 /\ e = 0 /\ row = [0; 1; 2]) \/ (g = 0 /\ e = 1 /\ row = [1; 3; 2]) \/ (g = 1 /\ e = 0 /\ row = [1; 4; 3; 5]).
Proof.
  intros (grp & vi & Hg & Hv & Hl & Hr). destruct g as [|[|g]]; cbn in Hg; [| |destruct g; discriminate];
    inversion Hg; subst; cbn in Hv; inversion Hv; subst; cbn in Hl.
  - destruct e as [|[|e]]; cbn in Hr; [inversion Hr; auto|inversion Hr; auto|lia].
  - destruct e as [|e]; cbn in Hr; [inversion Hr; auto 6|lia].
Qed.

Lemma ex_faces_wf : faces_wf ex_groups.
Proof.
  intros g grp e row ref k Hg Hr Href Hk.
  apply local_row_ex in Hr as [(-> & -> & ->)|[(-> & -> & ->)|(-> & -> & ->)]]; cbn in Hg; inversion Hg; subst;
    cbn in Href; cbn; intuition (subst; cbn in Hk; lia).
Qed.

Lemma ex_rows_in_range : rows_in_range 6 ex_groups.
Proof.
  intros e row v (g & i & Hr & _) Hv.
  apply local_row_ex in Hr as [(_ & _ & ->)|[(_ & _ & ->)|(_ & _ & ->)]]; cbn in Hv; lia.
Qed.

Lemma ex_rows_nonempty : forall e row, elem_row ex_groups e row -> row <> [].
Proof.
  intros e row (g & i & Hr & _).
  apply local_row_ex in Hr as [(_ & _ & ->)|[(_ & _ & ->)|(_ & _ & ->)]]; discriminate.
Qed.

(** Decides [at_most_two]: sorted vertex lists of all faces, no three equal. *)
Definition face_verts_b {E} (groups : list (egroup E)) (a : faceid) : list nat :=
  let '(g, e, f) := a in
  match nth_error groups g with
  | None => []
  | Some grp =>
      match eg_vi grp, nth_error (eg_fvi grp) f with
      | Some vi, Some ref =>
          match nth_error vi e with
          | Some row => sort_nat (concat (map (fun k => match nth_error row k with Some v => [v] | None => [] end) ref))
          | None => []
          end
      | _, _ => []
      end
  end.

Fixpoint list_nat_eqb (a b : list nat) : bool :=
  match a, b with
  | [], [] => true
  | x :: a', y :: b' => Nat.eqb x y && list_nat_eqb a' b'
  | _, _ => false
  end.

Lemma list_nat_eqb_refl a : list_nat_eqb a a = true.
Proof. induction a; cbn; auto. now rewrite Nat.eqb_refl. Qed.

Definition fid_eqb (a b : faceid) : bool :=
  Nat.eqb (fst (fst a)) (fst (fst b)) && Nat.eqb (snd (fst a)) (snd (fst b)) && Nat.eqb (snd a) (snd b).

Lemma fid_eqb_eq a b : fid_eqb a b = true <-> a = b.
Proof.
  destruct a as ((a1, a2), a3), b as ((b1, b2), b3). unfold fid_eqb; cbn.
  rewrite !andb_true_iff, !Nat.eqb_eq. intuition congruence.
Qed.

Definition at_most_two_b {E} (groups : list (egroup E)) : bool :=
  let ids := all_face_ids groups in
  forallb (fun a =>
    let l := filter (fun b => negb (fid_eqb a b) && list_nat_eqb (face_verts_b groups a) (face_verts_b groups b)) ids in
    length l <=? 1) ids.

Lemma face_verts_b_spec {E} (groups : list (egroup E)) a va :
  face_verts groups a va -> face_verts_b groups a = sort_nat va.
Proof.
  destruct a as ((g, e), f). intros (grp & row & ref & Hg & (grp' & vi & Hg' & Hvi & _ & Hr) & Href & HF).
  assert (grp' = grp) by congruence; subst. cbn. rewrite Hg, Hvi, Href, Hr. f_equal.
  clear -HF. induction HF as [|k v ref va Hk HF IH]; cbn; auto. rewrite Hk. cbn. congruence.
Qed.

Lemma at_most_two_b_sound {E} (groups : list (egroup E)) : at_most_two_b groups = true -> at_most_two groups.
Proof.
  intros H a b c Hb Hc. unfold at_most_two_b in H. rewrite forallb_forall in H.
  destruct Hb as (Va & Vb & Nb & (va & vb & FA & FB & PB)).
  destruct Hc as (_ & Vc & Nc & (va' & vc & FA' & FC & PC)).
  specialize (H a (proj2 (In_all_face_ids _ _) Va)). apply Nat.leb_le in H.
  set (l := filter _ _) in H.
  assert (HL : forall x vx, valid_face groups x -> a <> x -> face_verts groups x vx -> Permutation va vx -> In x l).
  { intros x vx V N F P. unfold l. apply filter_In. split; [now apply In_all_face_ids|].
    apply andb_true_iff. split.
    - apply negb_true_iff. destruct (fid_eqb a x) eqn:X; auto. apply fid_eqb_eq in X. contradiction.
    - rewrite (face_verts_b_spec _ _ _ FA), (face_verts_b_spec _ _ _ F), (proj2 (sort_nat_eq_iff va vx) P).
      apply list_nat_eqb_refl. }
  assert (Hb : In b l) by (eapply HL; eauto).
  assert (Hc : In c l).
  { eapply HL; eauto. rewrite (face_verts_fun _ _ _ _ FA FA'). auto. }
  clearbody l. destruct l as [|x [|y l]]; cbn in *; [contradiction| |lia]. intuition congruence.
Qed.

Lemma ex_at_most_two : at_most_two ex_groups.
Proof. apply at_most_two_b_sound. reflexivity. Qed.

Lemma ex_has_faces : exists g, In g ex_groups /\ eg_fvi g <> [].
Proof. eexists. split; [left; reflexivity|discriminate]. Qed.

(** *** Witness for C49 *)
Lemma face_verts_ex_012 vs : face_verts ex_groups (0, 1, 2) vs -> vs = [3; 2].
Proof.
  intros H. eapply face_verts_fun; [exact H|].
  exists (mk_egroup (Some [[0; 1; 2]; [1; 3; 2]]) [100; 101] tri_faces), [1; 3; 2], [1; 2].
  split; [reflexivity|]. split; [|split; [reflexivity|repeat constructor]].
  eexists _, _. split; [reflexivity|]. split; [reflexivity|]. split; [cbn; lia|reflexivity].
Qed.

Lemma no_boundary_not_in_all_refuted :
  exists (groups : list (egroup nat)) (m : tagmap) fags a,
    has_rows groups /\ faces_wf groups /\ at_most_two groups /\ keys_distinct m /\
    compute_facial_adjacency tt (fun l => l) (Some m) groups = Ok fags /\
    (exists t, tag_assigned groups m a t) /\
    (forall t, tag_assigned groups m a t -> not_a_boundary t) /\
    bdry_adj fags TAll a.
Proof.
  exists ex_groups, [([2; 3], [TUserNoBdry 7])]. eexists. exists (0, 1, 2).
  split; [exact ex_has_rows|]. split; [exact ex_faces_wf|]. split; [exact ex_at_most_two|].
  split; [|split; [vm_compute; reflexivity|split; [|split]]].
  - intros k ts k' ts' [E1|[]] [E2|[]] _. congruence.
  - exists (TUserNoBdry 7), [2; 3], [TUserNoBdry 7], [3; 2]. split; [now left|]. split; [now left|]. split; [|cbn; tauto].
    exists (mk_egroup (Some [[0; 1; 2]; [1; 3; 2]]) [100; 101] tri_faces), [1; 3; 2], [1; 2].
    split; [reflexivity|]. split; [|split; [reflexivity|repeat constructor]].
    eexists _, _. split; [reflexivity|]. split; [reflexivity|]. split; [cbn; lia|reflexivity].
  - intros t (k & ts & vs & [E|[]] & Ht & _). inversion E; subst. destruct Ht as [<-|[]]. unfold not_a_boundary. eauto 8.
  - eexists. split; [reflexivity|]. eexists (Boundary 0 TAll _). split; [cbn; eauto 10|]. split; [reflexivity|cbn; tauto].
Qed.
