(** * VisProofs *)
From Coq Require Import List Arith Bool Lia Permutation Ring.
From Verif Require Import Np NpFacts MeshModel Lin RestrProofs VisModel VisSpec.
Import ListNotations.

(** ** Reading cells *)
Lemma slice_app_l {A} (pre l : list A) lo hi : lo = length pre -> hi = lo + length l -> forall post, slice (pre ++ l ++ post) lo hi = l.
Proof.
  intros -> -> post. unfold slice. rewrite skipn_app, skipn_all, Nat.sub_diag. cbn [app skipn]. replace (length pre + length l - length pre) with (length l) by lia.
  rewrite firstn_app, firstn_all, Nat.sub_diag. cbn [firstn]. apply app_nil_r.
Qed.
Lemma combine_tl_cons {A} (x y : A) l : combine (x :: y :: l) (tl (x :: y :: l)) = (x, y) :: combine (y :: l) (tl (y :: l)).
Proof. reflexivity. Qed.
Lemma read_concat_from {A} (vals : list A) cells : forall pre,
  mapM (fun lh : nat * nat => take vals (slice (pre ++ concat cells) (fst lh) (snd lh))) (combine (length pre :: cumsum_from (length pre) (map (@length nat) cells)) (cumsum_from (length pre) (map (@length nat) cells))) = mapM (take vals) cells.
Proof.
  induction cells as [|c cells IH]; intros pre; [reflexivity|]. cbn [map cumsum_from concat combine mapM fst snd].
  rewrite slice_app_l by lia. specialize (IH (pre ++ c)). rewrite app_length in IH. rewrite <- app_assoc in IH. unfold combine in IH. fold (@combine nat nat) in IH. rewrite IH. reflexivity.
Qed.
Lemma read_concat {A} (vals : list A) cells : read_cells vals (concat cells) (cumsum (0 :: map (@length nat) cells)) = mapM (take vals) cells.
Proof. unfold read_cells, cumsum. cbn [cumsum_from Nat.add tl]. exact (read_concat_from vals cells []). Qed.

(** ** Groups *)
Definition gcells (nb : nat) (g : visgrp) (el : list (list nat)) : list (list (list nat)) :=
  map (fun e => map (map (fun i => nb + e * vg_nunit g + i)) el) (seq 0 (vg_nel g)).
Fixpoint vcl (sb nb : nat) (l : list (visgrp * (list (list nat) * nat))) : list vcgrp :=
  match l with
  | [] => []
  | (g, (el, ty)) :: l => mk_vcgrp (gcells nb g el) ty sb (length el) :: vcl (sb + vg_nel g * length el) (nb + vg_ndofs g) l
  end.
Definition good (conn_for : visgrp -> res (list (list nat) * nat)) (gc : visgrp * (list (list nat) * nat)) : Prop :=
  conn_for (fst gc) = Ok (snd gc) /\ fst (snd gc) <> [] /\ 0 < vg_nunit (fst gc).

Lemma gcells_length nb g el : length (gcells nb g el) = vg_nel g.
Proof. unfold gcells. now rewrite map_length, seq_length. Qed.

Lemma vis_groups_ok conn_for l : Forall (good conn_for) l -> vis_groups conn_for (map fst l) = Ok (vcl 0 0 l).
Proof.
  intros Hl. unfold vis_groups. match goal with |- context [foldM ?f _ _] => set (step := f) end.
  assert (Hs : forall acc sb nb g el ty, good conn_for (g, (el, ty)) -> step (acc, sb, nb) g = Ok (acc ++ [mk_vcgrp (gcells nb g el) ty sb (length el)], sb + vg_nel g * length el, nb + vg_ndofs g)).
  { intros acc sb nb g el ty (H1 & H2 & H3). cbn [fst snd] in H1, H2, H3. unfold step. rewrite H1. cbn [bind]. destruct (vg_nunit g =? 0) eqn:E0; [apply Nat.eqb_eq in E0; lia|]. cbn [negb guard bind].
    assert (Hm : match el with [] => [[]] | _ => el end = el) by (destruct el; [congruence|reflexivity]). rewrite Hm.
    unfold nsubelements. cbn [vc_conn vc_nsub]. now rewrite map_length, seq_length. }
  assert (H : forall l sb nb acc, Forall (good conn_for) l -> exists sb' nb', foldM step (map fst l) (acc, sb, nb) = Ok (acc ++ vcl sb nb l, sb', nb')).
  { clear l Hl. clearbody step. induction l as [|(g, (el, ty)) l IH]; intros sb nb acc Hl; [exists sb, nb; cbn; now rewrite app_nil_r|].
    cbn [map fst foldM]. rewrite (Hs acc sb nb g el ty (Forall_inv Hl)). cbn [bind].
    destruct (IH (sb + vg_nel g * length el) (nb + vg_ndofs g) (acc ++ [mk_vcgrp (gcells nb g el) ty sb (length el)]) (Forall_inv_tail Hl)) as (sb' & nb' & Hf). exists sb', nb'.
    rewrite Hf. cbn [vcl]. now rewrite <- app_assoc. }
  destruct (H l 0 0 [] Hl) as (sb & nb & Hf). rewrite Hf. reflexivity.
Qed.

Definition cells_of (vcs : list vcgrp) : list (list nat) := concat (map (fun c => concat (vc_conn c)) vcs).
Lemma concat_concat {A} (l : list (list (list A))) : concat (concat l) = concat (map (@concat A) l).
Proof. induction l as [|x l IH]; [reflexivity|]. cbn [concat map]. now rewrite concat_app, IH. Qed.
Lemma flat_conn_cells vcs : flat_conn vcs = concat (cells_of vcs).
Proof. unfold flat_conn, cells_of. rewrite concat_concat, map_map. f_equal. apply map_ext. intros c. now rewrite concat_concat. Qed.

(** the type of each cell *)
Definition types_of (l : list (visgrp * (list (list nat) * nat))) : list nat :=
  concat (map (fun gc : visgrp * (list (list nat) * nat) => repeat (snd (snd gc)) (vg_nel (fst gc) * length (fst (snd gc)))) l).
Lemma sum_nsub sb nb l : sum (map nsubelements (vcl sb nb l)) = length (types_of l).
Proof.
  revert sb nb. induction l as [|(g, (el, ty)) l IH]; intros sb nb; [reflexivity|]. cbn [vcl map sum fold_right types_of concat fst snd]. unfold types_of in IH. rewrite app_length, repeat_length.
  unfold nsubelements at 1. cbn [vc_conn vc_nsub]. rewrite gcells_length. f_equal. apply IH.
Qed.
Lemma assign_slice_mid {A} (pre mid post : list A) lo hi v : lo = length pre -> hi = lo + length mid ->
  assign_slice (pre ++ mid ++ post) lo hi v = pre ++ repeat v (length mid) ++ post.
Proof.
  intros -> ->. unfold assign_slice. apply nth_error_ext'. intros i. rewrite nth_error_map, nth_error_enumerate.
  destruct (Nat.lt_ge_cases i (length pre)) as [H1|H1].
  - rewrite !nth_error_app1 by assumption. destruct (nth_error pre i) as [x|]; [|reflexivity]. cbn [option_map fst snd]. destruct (length pre <=? i) eqn:E1; [apply Nat.leb_le in E1; lia|reflexivity].
  - rewrite !(nth_error_app2 pre) by assumption. destruct (Nat.lt_ge_cases (i - length pre) (length mid)) as [H2|H2].
    + rewrite nth_error_app1 by assumption. rewrite nth_error_app1 by (rewrite repeat_length; assumption). destruct (nth_exists mid _ H2) as (x & Hx). rewrite Hx. cbn [option_map fst snd].
      rewrite (proj2 (Nat.leb_le _ _) H1). rewrite (proj2 (Nat.ltb_lt i (length pre + length mid))) by lia. cbn [andb]. symmetry. rewrite (nth_error_repeat v H2). reflexivity.
    + rewrite nth_error_app2 by assumption. rewrite nth_error_app2 by (rewrite repeat_length; assumption). rewrite repeat_length. destruct (nth_error post _) as [x|]; [|reflexivity]. cbn [option_map fst snd]. destruct (i <? length pre + length mid) eqn:E1; [apply Nat.ltb_lt in E1; lia|]. now rewrite andb_false_r.
Qed.
Lemma cell_types_ok l : Forall (fun gc : visgrp * (list (list nat) * nat) => snd (snd gc) < 255) l -> cell_types (vcl 0 0 l) = Ok (types_of l).
Proof.
  intros Hl. unfold cell_types. rewrite sum_nsub.
  assert (H : forall l sb nb pre, sb = length pre -> fold_left (fun ts c => assign_slice ts (vc_base c) (vc_base c + nsubelements c) (vc_type c)) (vcl sb nb l) (pre ++ repeat 255 (length (types_of l))) = pre ++ types_of l).
  { clear. induction l as [|(g, (el, ty)) l IH]; intros sb nb pre ->; [reflexivity|]. cbn [vcl fold_left vc_base vc_type]. unfold types_of. cbn [map concat fst snd]. fold (types_of l). rewrite app_length, repeat_length, repeat_app. unfold nsubelements. cbn [vc_conn vc_nsub]. rewrite gcells_length.
    rewrite assign_slice_mid by (rewrite ?repeat_length; reflexivity). rewrite repeat_length. rewrite app_assoc. rewrite (IH _ _ (pre ++ repeat ty (vg_nel g * length el))) by (rewrite app_length, repeat_length; reflexivity). now rewrite <- app_assoc. }
  pose proof (H l 0 0 [] eq_refl) as H0. cbn [app] in H0. rewrite H0. replace (forallb _ _) with true; [reflexivity|]. symmetry. apply forallb_forall. intros t Ht. apply Nat.ltb_lt. unfold types_of in Ht. apply in_concat in Ht. destruct Ht as (ts & Hts & Ht). apply in_map_iff in Hts. destruct Hts as (gc & <- & Hin). apply repeat_spec in Ht. subst t. exact (proj1 (Forall_forall _ _) Hl gc Hin).
Qed.

(** ** Values *)
Lemma concat_const_nth {A} (d : list (list A)) n e i x post : Forall (fun y => length y = n) d -> nth_error d e = Some x -> i < n -> nth_error (concat d ++ post) (e * n + i) = nth_error x i.
Proof.
  intros Hd. revert e. induction d as [|y d IH]; intros e He Hi; [destruct e; discriminate|]. pose proof (Forall_inv Hd) as Hy. cbn beta in Hy. cbn [concat]. rewrite <- app_assoc. destruct e as [|e].
  - injection He as ->. cbn [Nat.mul Nat.add]. rewrite nth_error_app1 by lia. reflexivity.
  - rewrite nth_error_app2 by lia. rewrite Hy. replace (S e * n + i - n) with (e * n + i) by lia. apply IH; [exact (Forall_inv_tail Hd)|exact He|exact Hi].
Qed.
Lemma concat_const_length {A} (d : list (list A)) n : Forall (fun y => length y = n) d -> length (concat d) = length d * n.
Proof. induction 1 as [|y d Hy _ IH]; [reflexivity|]. cbn [concat length]. rewrite app_length, IH, Hy. lia. Qed.
Lemma mapM_ext_in {A B} (f f' : A -> res B) l : (forall x, In x l -> f x = f' x) -> mapM f l = mapM f' l.
Proof. induction l as [|x l IH]; intros H; [reflexivity|]. cbn [mapM]. rewrite (H x (or_introl eq_refl)). rewrite IH by (intros; apply H; now right). reflexivity. Qed.
Lemma mapM_map {A B C} (f : B -> res C) (h : A -> B) l : mapM f (map h l) = mapM (fun x => f (h x)) l.
Proof. induction l as [|x l IH]; [reflexivity|]. cbn [map mapM]. now rewrite IH. Qed.
Lemma mapM_app {A B} (f : A -> res B) l l' : mapM f (l ++ l') = (r <- mapM f l ;; r' <- mapM f l' ;; Ok (r ++ r')).
Proof.
  induction l as [|x l IH]; cbn [app mapM bind]; [destruct (mapM f l'); reflexivity|]. destruct (f x) as [y|]; cbn [bind]; [|reflexivity]. rewrite IH. destruct (mapM f l) as [r|]; cbn [bind]; [|reflexivity]. destruct (mapM f l') as [r'|]; reflexivity.
Qed.
Lemma mapM_concat {A B} (f : A -> res B) ll : mapM f (concat ll) = (r <- mapM (mapM f) ll ;; Ok (concat r)).
Proof.
  induction ll as [|l ll IH]; [reflexivity|]. cbn [concat mapM]. rewrite mapM_app. destruct (mapM f l) as [r|]; cbn [bind]; [|reflexivity]. rewrite IH. destruct (mapM (mapM f) ll) as [r'|]; reflexivity.
Qed.
Lemma take_shift {A} (vals x : list A) nb els : (forall i, In i els -> nth_error vals (nb + i) = nth_error x i) -> take vals (map (fun i => nb + i) els) = take x els.
Proof. intros H. unfold take. rewrite mapM_map. apply mapM_ext_in. intros i Hi. unfold get. now rewrite (H i Hi). Qed.

(** subelements refer to nodes of the element *)
Definition in_range (gc : visgrp * (list (list nat) * nat)) : Prop := Forall (Forall (fun i => i < vg_nunit (fst gc))) (fst (snd gc)).

Lemma group_values {A} (pre post : list A) g el dg : length dg = vg_nel g -> Forall (fun x => length x = vg_nunit g) dg -> Forall (Forall (fun i => i < vg_nunit g)) el ->
  mapM (take (pre ++ concat dg ++ post)) (concat (gcells (length pre) g el)) = group_cells el dg.
Proof.
  intros Hl Hd Hel. rewrite mapM_concat. unfold group_cells. f_equal.
  unfold gcells. rewrite mapM_map.
  assert (H : forall d' e0, (forall k x, nth_error d' k = Some x -> nth_error dg (e0 + k) = Some x) ->
     mapM (fun e => mapM (take (pre ++ concat dg ++ post)) (map (map (fun i => length pre + e * vg_nunit g + i)) el)) (seq e0 (length d')) = mapM (fun x => mapM (take x) el) d').
  { induction d' as [|x d' IH]; intros e0 Hd'; [reflexivity|]. cbn [length seq mapM]. rewrite (IH (S e0)) by (intros k y Hk; replace (S e0 + k) with (e0 + S k) by lia; now apply Hd').
    assert (Hx : nth_error dg e0 = Some x) by (rewrite <- (Nat.add_0_r e0); now apply Hd'). f_equal. rewrite mapM_map. apply mapM_ext_in. intros els Hels.
    apply take_shift. intros i Hi. assert (Hlt : i < vg_nunit g) by (exact (proj1 (Forall_forall _ _) (proj1 (Forall_forall _ _) Hel els Hels) i Hi)).
    rewrite nth_error_app2 by lia. replace (length pre + e0 * vg_nunit g + i - length pre) with (e0 * vg_nunit g + i) by lia. now apply concat_const_nth. }
  rewrite <- Hl. apply (H dg 0). auto.
Qed.
Lemma all_values {A} l : forall sb (pre : list A) d, shaped (map fst l) d -> Forall in_range l ->
  mapM (take (pre ++ flat d)) (cells_of (vcl sb (length pre) l)) = all_cells (map (fun gc => fst (snd gc)) l) d.
Proof.
  unfold cells_of, all_cells.
  assert (H : forall l sb (pre : list A) d, shaped (map fst l) d -> Forall in_range l ->
    mapM (fun c => mapM (take (pre ++ flat d)) (concat (vc_conn c))) (vcl sb (length pre) l) = mapM (fun ed : list (list nat) * list (list A) => group_cells (fst ed) (snd ed)) (combine (map (fun gc => fst (snd gc)) l) d)).
  { induction l0 as [|(g, (el, ty)) l0 IH]; intros sb pre d Hd Hl; [reflexivity|]. unfold shaped in Hd. cbn [map fst] in Hd. inversion Hd as [|g' dg gs d' (H1 & H2) Hd' E1 E2]; subst. cbn [vcl mapM map combine fst snd vc_conn].
    unfold flat. cbn [map concat]. rewrite (group_values pre (concat (map (@concat A) d')) g el dg H1 H2 (Forall_inv Hl)). destruct (group_cells el dg) as [r|]; cbn [bind]; [|reflexivity].
    specialize (IH (sb + vg_nel g * length el) (pre ++ concat dg) d' Hd' (Forall_inv_tail Hl)). rewrite app_length, (concat_const_length dg _ H2), H1 in IH. change (vg_nel g * vg_nunit g) with (vg_ndofs g) in IH. rewrite <- app_assoc in IH. unfold flat in IH. rewrite IH. reflexivity. }
  intros sb pre d Hd Hl. rewrite mapM_concat, mapM_map. rewrite H by assumption. reflexivity.
Qed.

Lemma shaped_sizes_lengths sb nb l (cnc : nat -> nat) : Forall (fun gc : visgrp * (list (list nat) * nat) => Forall (fun els => length els = cnc (snd (snd gc))) (fst (snd gc))) l ->
  map (@length nat) (cells_of (vcl sb nb l)) = map cnc (types_of l).
Proof.
  revert sb nb. induction l as [|(g, (el, ty)) l IH]; intros sb nb Hl; [reflexivity|]. unfold cells_of, types_of. cbn [vcl map concat fst snd vc_conn]. rewrite !map_app. f_equal; [|apply IH; exact (Forall_inv_tail Hl)].
  pose proof (Forall_inv Hl) as Hel. cbn [fst snd] in Hel. unfold gcells. generalize 0 as e0. induction (vg_nel g) as [|n IHn]; intros e0; [reflexivity|]. cbn [seq map concat Nat.mul]. rewrite repeat_app, !map_app, IHn. f_equal. clear -Hel.
  induction Hel as [|els el Hels _ IHel]; [reflexivity|]. cbn [map length repeat]. rewrite map_length, Hels. now rewrite IHel.
Qed.

(** ** Lagrange elements: one cell per element *)
Lemma removelast_cumsum_from acc l : removelast (acc :: cumsum_from acc l) = match l with [] => [] | x :: l' => acc :: removelast ((acc + x) :: cumsum_from (acc + x) l') end.
Proof. destruct l as [|x l]; reflexivity. Qed.
Lemma lagrange_offsets gs : forall acc, Forall (fun g => 0 < vg_nunit g) gs ->
  exists offs, mapM (fun og : nat * visgrp => let (o, g) := og in _ <- guard (negb (vg_nunit g =? 0)) ZeroDivisionError ;; Ok (map (fun k => o + (k + 1) * vg_nunit g) (seq 0 (vg_nel g)))) (combine (removelast (acc :: cumsum_from acc (map vg_ndofs gs))) gs) = Ok offs /\
    concat offs = cumsum_from acc (concat (map (fun g => repeat (vg_nunit g) (vg_nel g)) gs)).
Proof.
  induction gs as [|g gs IH]; intros acc Hg; [exists []; split; reflexivity|]. cbn [map]. rewrite removelast_cumsum_from. cbn [combine mapM]. pose proof (Forall_inv Hg) as H0. cbn beta in H0. destruct (vg_nunit g =? 0) eqn:E0; [apply Nat.eqb_eq in E0; lia|]. cbn [negb guard bind].
  destruct (IH (acc + vg_ndofs g) (Forall_inv_tail Hg)) as (offs & H1 & H2). rewrite H1. cbn [bind]. eexists. split; [reflexivity|]. cbn [concat]. rewrite H2. clear -H0.
  assert (H : forall l n k0 acc, map (fun k => acc + (k + 1) * vg_nunit g) (seq k0 n) ++ cumsum_from (acc + (k0 + n) * vg_nunit g) l = cumsum_from (acc + k0 * vg_nunit g) (repeat (vg_nunit g) n ++ l)).
  { induction n as [|n IHn]; intros k0 acc0; [cbn [seq map app repeat]; now rewrite Nat.add_0_r|]. cbn [seq map app repeat cumsum_from]. f_equal; [lia|]. replace (acc0 + k0 * vg_nunit g + vg_nunit g) with (acc0 + S k0 * vg_nunit g) by lia. rewrite <- IHn. f_equal. f_equal. lia. }
  specialize (H (concat (map (fun g => repeat (vg_nunit g) (vg_nel g)) gs)) (vg_nel g) 0 acc). cbn [Nat.mul Nat.add] in H. rewrite Nat.add_0_r in H. unfold vg_ndofs. exact H.
Qed.
Lemma lagrange_lengths sb nb l : Forall (fun gc : visgrp * (list (list nat) * nat) => exists p, fst (snd gc) = [p] /\ length p = vg_nunit (fst gc)) l ->
  map (@length nat) (cells_of (vcl sb nb l)) = concat (map (fun g => repeat (vg_nunit g) (vg_nel g)) (map fst l)).
Proof.
  revert sb nb. induction l as [|(g, (el, ty)) l IH]; intros sb nb Hl; [reflexivity|]. unfold cells_of. cbn [vcl map concat fst vc_conn]. rewrite map_app. f_equal; [|apply IH; exact (Forall_inv_tail Hl)].
  destruct (Forall_inv Hl) as (p & Hp & Hpl). cbn [fst snd] in Hp, Hpl. subst el. unfold gcells. generalize 0 as e0. induction (vg_nel g) as [|n IHn]; intros e0; [reflexivity|]. cbn [seq map concat app repeat]. rewrite map_length, Hpl. now rewrite IHn.
Qed.
Lemma lagrange_count sb nb l : Forall (fun gc : visgrp * (list (list nat) * nat) => exists p, fst (snd gc) = [p] /\ length p = vg_nunit (fst gc)) l ->
  length (cells_of (vcl sb nb l)) = sum (map vg_nel (map fst l)).
Proof.
  intros Hl. rewrite <- (map_length (@length nat)), (lagrange_lengths sb nb l Hl). clear. induction l as [|gc l IH]; [reflexivity|]. cbn [map concat sum fold_right]. rewrite app_length, repeat_length, IH. reflexivity.
Qed.

(** ** XDMF *)
Lemma xdmf_ok l : exists r, xdmf_connectivity (map fst l) (vcl 0 0 l) = Ok r /\ Forall2 (fun (gc : visgrp * (list (list nat) * nat)) c => c = concat (gcells 0 (fst gc) (fst (snd gc)))) l r.
Proof.
  unfold xdmf_connectivity.
  assert (H : forall l sb nb acc, exists r nb', foldM (fun (st : list (list (list nat)) * nat) (gc : visgrp * vcgrp) =>
           let '(result, node_base) := st in let (g, c) := gc in
           Ok (result ++ [map (map (fun i => i - node_base)) (concat (vc_conn c))], node_base + vg_ndofs g))
         (combine (map fst l) (vcl sb nb l)) (acc, nb) = Ok (acc ++ r, nb') /\ Forall2 (fun (gc : visgrp * (list (list nat) * nat)) c => c = concat (gcells 0 (fst gc) (fst (snd gc)))) l r).
  { clear l. induction l as [|(g, (el, ty)) l IH]; intros sb nb acc; [exists [], nb; split; [cbn; now rewrite app_nil_r|constructor]|]. cbn [map fst vcl combine foldM bind vc_conn].
    destruct (IH (sb + vg_nel g * length el) (nb + vg_ndofs g) (acc ++ [map (map (fun i => i - nb)) (concat (gcells nb g el))])) as (r & nb' & Hf & HF). rewrite Hf.
    exists (map (map (fun i => i - nb)) (concat (gcells nb g el)) :: r), nb'. split; [now rewrite <- app_assoc|]. constructor; [|exact HF]. cbn [fst snd]. rewrite concat_map. f_equal. unfold gcells. rewrite map_map. apply map_ext. intros e. rewrite map_map. apply map_ext. intros els. rewrite map_map. apply map_ext. intros i. lia. }
  destruct (H l 0 0 []) as (r & nb & Hf & HF). rewrite Hf. exists r. split; [reflexivity|exact HF].
Qed.

(** ** Subelements of hypercubes *)
Lemma tuple_eqb_eq a b : tuple_eqb a b = true <-> a = b.
Proof.
  revert b. induction a as [|x a IH]; intros [|y b]; cbn [tuple_eqb]; split; try discriminate; try reflexivity.
  - intros H. apply andb_prop in H. destruct H as (H1 & H2). apply Nat.eqb_eq in H1. apply IH in H2. now subst.
  - intros H. injection H as -> ->. rewrite Nat.eqb_refl. now apply IH.
Qed.
Lemma tuple_index_ok nts t i : NoDup nts -> (tuple_index nts t = Ok i <-> nth_error nts i = Some t).
Proof.
  intros Hnd. unfold tuple_index. split.
  - destruct (find _ _) as [(k, t')|] eqn:Ef; [|discriminate]. intros H. injection H as ->. apply find_some in Ef. destruct Ef as (Hin & He). cbn [snd] in He. apply tuple_eqb_eq in He. subst t'. apply in_rev in Hin. apply In_nth_error in Hin. destruct Hin as (k & Hk). rewrite nth_error_enumerate in Hk. destruct (nth_error nts k) eqn:Ek; [|discriminate]. cbn in Hk. injection Hk as <- <-. exact Ek.
  - intros H. destruct (find _ _) as [(k, t')|] eqn:Ef.
    + f_equal. apply find_some in Ef. destruct Ef as (Hin & He). cbn [snd] in He. apply tuple_eqb_eq in He. subst t'. apply in_rev in Hin. apply In_nth_error in Hin. destruct Hin as (k' & Hk). rewrite nth_error_enumerate in Hk. destruct (nth_error nts k') eqn:Ek; [|discriminate]. cbn in Hk. injection Hk as <- <-. apply (proj1 (NoDup_nth_error nts) Hnd); [apply nth_error_Some; congruence|congruence].
    + exfalso. assert (Hin : In (i, t) (rev (enumerate nts))). { apply -> in_rev. apply (nth_error_In _ i). rewrite nth_error_enumerate, H. reflexivity. } pose proof (find_none _ _ Ef _ Hin) as Hf. cbn [snd] in Hf. assert (tuple_eqb t t = true) by (now apply tuple_eqb_eq). congruence.
Qed.
Lemma tuple_index_total nts t : NoDup nts -> In t nts -> exists i, tuple_index nts t = Ok i.
Proof. intros Hnd Hin. apply In_nth_error in Hin. destruct Hin as (i & Hi). exists i. now apply tuple_index_ok. Qed.

Lemma offsets_corners d : 1 <= d <= 3 -> el_offsets d = Ok (vtk_corners d).
Proof. intros H. destruct d as [|[|[|[|d]]]]; [lia|reflexivity|reflexivity|reflexivity|lia]. Qed.
Lemma corners_shape d : 1 <= d <= 3 -> Forall (fun c => length c = d /\ Forall (fun x => x <= 1) c) (vtk_corners d) /\ In (repeat 1 d) (vtk_corners d).
Proof. intros H. destruct d as [|[|[|[|d]]]]; try lia; (split; [cbn; repeat constructor|cbn; tauto]). Qed.
Lemma map2_add_nth (o c : list nat) j x y : nth_error o j = Some x -> nth_error c j = Some y -> nth_error (map2 Nat.add o c) j = Some (x + y).
Proof. apply map2_nth. Qed.

Lemma hypercube_submesh d k nts : 1 <= d <= 3 -> grid_tuples d k nts ->
  exists els origins, vtk_submesh_for_hypercube d nts = Ok els /\ NoDup origins /\ (forall o, In o origins <-> length o = d /\ Forall (fun x => x < k) o) /\ Forall2 (vtk_cell nts d) origins els.
Proof.
  intros Hd (Hnd & Hin). unfold vtk_submesh_for_hypercube. rewrite (offsets_corners d Hd). cbn [bind]. destruct (corners_shape d Hd) as (Hcs & Hones).
  set (f := fun origin => match mapM (fun off => tuple_index nts (add_tuples origin off)) (vtk_corners d) with Ok el => [el] | Err _ => [] end).
  set (low := fun o : list nat => forallb (fun x => x <? k) o). exists (flat_map f nts), (filter low nts). split; [reflexivity|]. split; [now apply NoDup_filter|].
  assert (Hlow : forall o, low o = true <-> Forall (fun x => x < k) o).
  { intros o. unfold low. rewrite forallb_forall, Forall_forall. split; intros H x Hx; apply Nat.ltb_lt; now apply H. }
  split.
  - intros o. rewrite filter_In, Hin, Hlow. split; [tauto|]. intros (H1 & H2). split; [|exact H2]. split; [exact H1|]. eapply Forall_impl; [|exact H2]. cbn beta. intros; lia.
  - assert (Hf : forall o, In o nts -> if low o then exists el, f o = [el] /\ vtk_cell nts d o el else f o = []).
    { intros o Ho. apply Hin in Ho. destruct Ho as (Hol & Hok). destruct (low o) eqn:El.
      - apply Hlow in El. unfold f. destruct (mapM_total (fun off => tuple_index nts (add_tuples o off)) (vtk_corners d)) as (el & Hel).
        { intros c Hc. apply tuple_index_total; [exact Hnd|]. apply Hin. destruct (proj1 (Forall_forall _ _) Hcs c Hc) as (Hcl & Hc1). unfold add_tuples. split; [rewrite map2_length; lia|].
          apply Forall_forall. intros z Hz. apply In_nth_error in Hz. destruct Hz as (j & Hj). assert (Hjd : j < d) by (rewrite <- Hol; rewrite <- (map2_length Nat.add o c) by lia; apply nth_error_Some; congruence).
          destruct (nth_exists o j ltac:(lia)) as (x & Hx). destruct (nth_exists c j ltac:(lia)) as (y & Hy). rewrite (map2_add_nth o c j x y Hx Hy) in Hj. injection Hj as <-.
          pose proof (proj1 (Forall_forall _ _) El x (nth_error_In _ _ Hx)) as Hxk. pose proof (proj1 (Forall_forall _ _) Hc1 y (nth_error_In _ _ Hy)) as Hy1. cbn beta in Hxk, Hy1. lia. }
        rewrite Hel. exists el. split; [reflexivity|]. unfold vtk_cell. apply mapM_ok in Hel. assert (Hflip : forall (A B : Type) (P : A -> B -> Prop) l l', Forall2 P l l' -> Forall2 (fun b a => P a b) l' l) by (intros A B P l l' HF; induction HF; constructor; auto). apply Hflip in Hel. clear Hflip.
        assert (Hall : forall c, In c (vtk_corners d) -> length c = d) by (intros c Hc; exact (proj1 (proj1 (Forall_forall _ _) Hcs c Hc))). revert Hall. clear -Hel Hnd Hol. induction Hel as [|i c el cs Hi _ IH]; intros Hall; constructor; [|apply IH; intros; apply Hall; now right].
        apply tuple_index_ok in Hi; [|exact Hnd]. exists (add_tuples o c). split; [exact Hi|]. pose proof (Hall c (or_introl eq_refl)) as Hcl. split; [unfold add_tuples; rewrite map2_length; lia|]. intros j x y Hx Hy. now apply map2_add_nth.
      - unfold f. destruct (mapM (fun off => tuple_index nts (add_tuples o off)) (vtk_corners d)) as [el|] eqn:Em; [|reflexivity]. exfalso. assert (Hx : exists i, tuple_index nts (add_tuples o (repeat 1 d)) = Ok i).
        { apply mapM_ok in Em. apply In_nth_error in Hones. destruct Hones as (j & Hj). destruct (Forall2_nth_error _ _ _ _ _ Em Hj) as (i & _ & Hi). eauto. }
        destruct Hx as (i & Hi). apply tuple_index_ok in Hi; [|exact Hnd]. apply nth_error_In in Hi. apply Hin in Hi. destruct Hi as (_ & Hle).
        assert (low o = true); [|congruence]. apply Hlow. apply Forall_forall. intros x Hx. apply In_nth_error in Hx. destruct Hx as (j & Hj). assert (Hjd : j < d) by (rewrite <- Hol; apply nth_error_Some; congruence).
        assert (Hs : nth_error (add_tuples o (repeat 1 d)) j = Some (x + 1)) by (apply map2_add_nth; [exact Hj|now apply nth_error_repeat]). pose proof (proj1 (Forall_forall _ _) Hle _ (nth_error_In _ _ Hs)) as Hxle. cbn beta in Hxle. lia. }
    revert Hf. clearbody f low. clear. set (P := vtk_cell nts d). clearbody P. induction nts as [|o l IH]; intros Hf; [constructor|]. cbn [filter flat_map]. pose proof (Hf o (or_introl eq_refl)) as Ho. specialize (IH (fun o' Ho' => Hf o' (or_intror Ho'))). destruct (low o).
    + destruct Ho as (el & -> & Hel). constructor; [exact Hel|exact IH].
    + rewrite Ho. exact IH.
Qed.

(** ** Shrunken elements *)
Section Shrink.
  Variable R : cring.
  Add Ring Rring : (rth R).
  Variable mean : list R -> R.
  Local Open Scope cring_scope.
  Local Notation shrink_element := (shrink_element R mean). Local Notation shrink_axis := (shrink_axis R mean).

  Lemma chunks_concat {A} n (l : list (list A)) : Forall (fun x => length x = n) l -> forall post, chunks (length l) n (concat l ++ post) = l.
  Proof.
    induction 1 as [|x l Hx _ IH]; intros post; [reflexivity|]. cbn [length chunks concat]. rewrite <- app_assoc. rewrite firstn_app, Hx, Nat.sub_diag. cbn [firstn]. rewrite app_nil_r, <- Hx, firstn_all. f_equal.
    rewrite skipn_app, skipn_all, Nat.sub_diag. cbn [app skipn]. rewrite Hx. apply IH.
  Qed.
  Lemma shrink_flat s gs d : shaped gs d -> shrink_axis s gs (flat d) = flat (map (map (shrink_element s)) d).
  Proof.
    intros H. induction H as [|g dg gs d (H1 & H2) _ IH]; [reflexivity|]. cbn [VisModel.shrink_axis map]. unfold flat. cbn [map concat]. fold (flat d).
    assert (Hlen : length (concat dg) = vg_ndofs g) by (rewrite (concat_const_length dg _ H2), H1; reflexivity).
    rewrite firstn_app, Hlen, Nat.sub_diag, <- Hlen, firstn_all. cbn [firstn]. rewrite skipn_app, skipn_all, Nat.sub_diag. cbn [app skipn]. rewrite IH. unfold flat. f_equal. f_equal. f_equal.
    rewrite <- H1. exact (chunks_concat _ dg H2 []).
  Qed.
  Lemma shrink_element_length s x : length (shrink_element s x) = length x.
  Proof. apply map_length. Qed.
  Lemma shrink_shaped s gs d : shaped gs d -> shaped gs (map (map (shrink_element s)) d).
  Proof.
    intros H. induction H as [|g dg gs d (H1 & H2) _ IH]; constructor; [|exact IH]. split; [now rewrite map_length|]. clear -H2. induction H2; constructor; [now rewrite shrink_element_length|assumption].
  Qed.
  Hypothesis Hmean : forall s c x, x <> [] -> mean (map (fun y => s * y + (1 - s) * c) x) = s * mean x + (1 - s) * c.
  Lemma shrink_twice s t x : x <> [] -> shrink_element t (shrink_element s x) = shrink_element (t * s) x.
  Proof.
    intros Hx. unfold VisModel.shrink_element. rewrite (Hmean s (mean x) x Hx). rewrite map_map. apply map_ext. intros y. ring.
  Qed.
  Lemma shrink_dofs_twice s t gs d : Forall (fun g => (0 < vg_nunit g)%nat) gs -> shaped gs d -> map (map (shrink_element t)) (map (map (shrink_element s)) d) = map (map (shrink_element (t * s))) d.
  Proof.
    intros Hg H. induction H as [|g dg gs d (H1 & H2) _ IH]; [reflexivity|]. cbn [map]. rewrite (IH (Forall_inv_tail Hg)). f_equal. pose proof (Forall_inv Hg) as H0. cbn beta in H0. rewrite map_map. clear -H2 H0 Hmean.
    induction H2 as [|x dg Hx _ IHd]; [reflexivity|]. cbn [map]. rewrite IHd. f_equal. apply shrink_twice. intros ->. cbn in Hx. lia.
  Qed.
End Shrink.
