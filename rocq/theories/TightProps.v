(** * TightProps: more theorems about earlier areas, for behavior that mutation tests showed not to be covered. *)
From Coq Require Import String List Arith Bool Lia ZArith.
From Verif Require Import Np NpFacts MeshModel MeshStateModel Lin Ord CompletionProofs SplitProofs FdModel ConnModel DistModel DistSpec ConsistModel BoxModel PartModel PartSpec FdValModel ConsistProofs DofModel.
Import ListNotations.
Local Open Scope nat_scope.

(** ** C40: what a thread sees.  A context is in effect after [evs] if it was entered outside of any other and has not been left. *)
Definition outside (evs : list tevent) : Prop := exists p q, evs = p ++ q /\ (p = [] \/ exists p', p = p' ++ [Leave]) /\ forall a, ~ In (Enter a) q.
Definition inside (a : nat) (evs : list tevent) : Prop := exists p q, evs = p ++ Enter a :: q /\ outside p /\ ~ In Leave q.

Fixpoint after (s : option nat) (evs : list tevent) : option nat := match evs with [] => s | e :: evs => after (fst (tstep s e)) evs end.
Lemma after_app s e1 e2 : after s (e1 ++ e2) = after (after s e1) e2.
Proof. revert s. induction e1 as [|e e1 IH]; intros s; [reflexivity|]. cbn. apply IH. Qed.
Lemma run_after s evs e : run_thread s (evs ++ [e]) = run_thread s evs ++ [snd (tstep (after s evs) e)].
Proof.
  revert s. induction evs as [|x evs IH]; intros s; cbn [app run_thread after].
  - destruct (tstep s e). reflexivity.
  - destruct (tstep s x) as (v, r) eqn:E. cbn [fst]. now rewrite IH.
Qed.
Lemma after_spec evs : (forall a, after None evs = Some a -> inside a evs) /\ (after None evs = None -> outside evs).
Proof.
  induction evs as [|e evs IH] using rev_ind; [split; [discriminate|intros _; exists [], []; repeat split; auto]|].
  destruct IH as (IH1 & IH2). rewrite after_app. cbn [after]. destruct e as [b| |]; cbn [tstep].
  - destruct (after None evs) as [c|] eqn:E; cbn [fst]; split; intros; try congruence.
    + injection H as <-. destruct (IH1 c eq_refl) as (p & q & -> & Hp & Hq). exists p, (q ++ [Enter b]). split; [now rewrite <- app_assoc|]. split; [exact Hp|]. intros H. apply in_app_or in H as [H|[H|[]]]; [now apply Hq|discriminate].
    + injection H as <-. exists evs, []. split; [reflexivity|]. split; [now apply IH2|intros []].
  - cbn [fst]. split; [discriminate|]. intros _. exists (evs ++ [Leave]), []. split; [now rewrite app_nil_r|]. split; [right; now exists evs|]. intros a [].
  - cbn [fst]. split.
    + intros a Ha. destruct (IH1 a Ha) as (p & q & -> & Hp & Hq). exists p, (q ++ [Query]). split; [now rewrite <- app_assoc|]. split; [exact Hp|]. intros H. apply in_app_or in H as [H|[H|[]]]; [now apply Hq|discriminate].
    + intros Ha. destruct (IH2 Ha) as (p & q & -> & Hp & Hq). exists p, (q ++ [Query]). split; [now rewrite <- app_assoc|]. split; [exact Hp|]. intros a H. apply in_app_or in H as [H|[H|[]]]; [exact (Hq a H)|discriminate].
Qed.
Theorem C40_thread_sees evs : exists c, 
  (match c with Some a => inside a evs | None => outside evs end) /\
  run_thread None (evs ++ [Query]) = run_thread None evs ++ [Sees c] /\
  (forall b, run_thread None (evs ++ [Enter b]) = run_thread None evs ++ [match c with None => Entered | Some _ => Refused end]) /\
  run_thread None (evs ++ [Leave; Query]) = run_thread None evs ++ [Left; Sees None].
Proof.
  exists (after None evs). split; [destruct (after_spec evs) as (H1 & H2); destruct (after None evs); auto|]. split; [now rewrite run_after|]. split; [intros b; rewrite run_after; cbn [tstep]; destruct (after None evs); reflexivity|].
  change [Leave; Query] with ([Leave] ++ [Query]). rewrite app_assoc, run_after, run_after, after_app, <- app_assoc. reflexivity.
Qed.
(** the two cases exclude each other *)
Lemma split_eq {A} (a b c d : list A) : a ++ b = c ++ d -> (exists l, c = a ++ l /\ b = l ++ d) \/ (exists l, a = c ++ l /\ d = l ++ b).
Proof.
  revert c. induction a as [|x a IH]; intros c H; [left; exists c; auto|]. destruct c as [|y c]; [right; exists (x :: a); auto|]. cbn in H. injection H as -> H. destruct (IH c H) as [(l & -> & ->)|(l & -> & ->)]; [left|right]; exists l; auto.
Qed.
Lemma inside_not_outside a evs : inside a evs -> ~ outside evs.
Proof.
  intros (p & q & -> & _ & Hq) (p' & q' & E & Hp' & Hq'). destruct (split_eq _ _ _ _ E) as [(l & -> & E2)|(l & -> & ->)].
  - destruct l as [|x l]; cbn in E2; [apply (Hq' a); rewrite <- E2; now left|]. injection E2 as <- ->. destruct Hp' as [H|(p'' & H)]; [destruct p; discriminate|].
    destruct (exists_last (l := Enter a :: l) ltac:(discriminate)) as (l' & z & Hl). rewrite Hl, app_assoc in H. apply app_inj_tail in H as (_ & ->).
    destruct l' as [|y l']; [injection Hl; discriminate|]. cbn in Hl. injection Hl as _ ->. apply Hq. rewrite <- app_assoc. apply in_or_app. right. now left.
  - apply (Hq' a). apply in_or_app. right. now left.
Qed.
Example C40_thread_example : inside 3 [Enter 1; Leave; Query; Enter 3; Query; Enter 4; Query] /\ outside [Enter 1; Leave; Query] /\
  run_thread None [Enter 1; Leave; Query; Enter 3; Query; Enter 4; Query] = [Entered; Left; Sees None; Entered; Sees (Some 3); Refused; Sees (Some 3)].
Proof.
  assert (H : outside [Enter 1; Leave; Query]) by (exists [Enter 1; Leave], [Query]; split; [reflexivity|]; split; [right; now exists [Enter 1]|]; intros a [H|[]]; discriminate).
  split; [|split; [exact H|reflexivity]]. exists [Enter 1; Leave; Query], [Query; Enter 4; Query]. split; [reflexivity|]. split; [exact H|]. intros [H0|[H0|[H0|[]]]]; discriminate.
Qed.

(** ** C117: curves in the plane.  The orientation is negative if the normal points to the left of the segment, and positive otherwise. *)
Theorem C117_curve_orientation (R : ocring) (fd : fdmesh R) cells n ns vertices rows os aft : fd_tdim fd = 1 -> fd_gdim fd = 2 -> orientations R fd cells (Some (n :: ns)) vertices rows = Ok (os, aft) ->
  aft = fd_orient fd /\ length os = length rows /\
  forall k n0 n1 v0 v1 row x0 y0 x1 y1 o, nth_error (n :: ns) k = Some [n0; n1] -> nth_error rows k = Some (v0 :: v1 :: row) -> nth_error vertices v0 = Some [x0; y0] -> nth_error vertices v1 = Some [x1; y1] -> nth_error os k = Some o ->
    o = (if olt (n0 * (y1 - y0) - n1 * (x1 - x0)) 0 then - (1) else 1)%cr.
Proof.
  intros Ht Hg H. unfold orientations in H. rewrite Ht, Hg in H. cbn [Nat.eqb andb] in H. apply bind_ok in H as (os' & Ho & H). injection H as -> <-. apply bind_ok in Ho as (u & Hl & Ho).
  unfold guard in Hl. destruct (length (n :: ns) =? length rows) eqn:El; [|discriminate]. apply Nat.eqb_eq in El. apply mapM_ok in Ho. split; [reflexivity|].
  split; [rewrite <- (Forall2_length' _ _ _ Ho), combine_length; lia|]. intros k n0 n1 v0 v1 row x0 y0 x1 y1 o Hn Hr H0 H1 Hk.
  assert (Hc : nth_error (combine (n :: ns) rows) k = Some ([n0; n1], v0 :: v1 :: row)) by (now apply nth_error_combine_Some).
  destruct (Forall2_nth_error _ _ _ _ _ Ho Hc) as (o' & Ho' & E). rewrite Hk in Ho'. injection Ho' as <-. unfold normal_orientation in E. cbn [fst snd] in E.
  change (get (v0 :: v1 :: row) 1) with (Ok v1) in E. change (get (v0 :: v1 :: row) 0) with (Ok v0) in E. cbn [bind] in E. unfold get in E. rewrite H0, H1 in E. cbn [bind vsub map2] in E. injection E as <-. reflexivity.
Qed.
Definition ex_curve : fdmesh Zocring := mk_fd 1 2 [] (0, 0) (fun n => n) 3 [] [] None None [] [] [] [7%Z].
Example C117_curve_example : orientations Zocring ex_curve None (Some [[0; 1]; [0; 1]]%Z) [[0; 0]; [1; 0]; [2; 0]]%Z [[0; 1]; [2; 1]] = Ok ([-1; 1]%Z, [7]%Z).
Proof. reflexivity. Qed.

(** ** C32: the batches of a connection with their groups *)
Theorem C32_batches {N} (groups : list (list (@batch N))) g b : In (g, b) (iterbatches groups) <-> exists bs, nth_error groups g = Some bs /\ In b bs.
Proof.
  unfold iterbatches. rewrite in_flat_map. split.
  - intros ((i, bs) & Hi & Hb). apply In_enumerate in Hi. cbn [fst snd] in *. apply in_map_iff in Hb as (b' & E & Hb). injection E as -> ->. eauto.
  - intros (bs & Hg & Hb). exists (g, bs). split; [now apply In_enumerate|]. cbn [fst snd]. apply in_map_iff. eauto.
Qed.
Example C32_batches_example : iterbatches [[mk_batch 0 [1] [2] tt None]; []; [mk_batch 1 [3] [4] tt None; mk_batch 0 [5] [6] tt None]] =
  [(0, mk_batch 0 [1] [2] tt None); (2, mk_batch 1 [3] [4] tt None); (2, mk_batch 0 [5] [6] tt None)].
Proof. reflexivity. Qed.

(** ** C111: an element with a NaN coordinate has no orientation *)
Theorem C111_orientation_numbers (R : ocring) bs (vertices : list (list (fl R))) row o : orientation_fl R bs vertices row = Ok (Some o) ->
  forall k v p, k = fst bs \/ In k (snd bs) -> nth_error row k = Some v -> nth_error vertices v = Some p -> Forall (fun x => x <> None) p.
Proof.
  assert (Hn : forall p q, numbers R p = Some q -> Forall (fun x => x <> None) p).
  { induction p as [|[x|] p IH]; intros q H; [constructor| |discriminate]. cbn [numbers] in H. destruct (numbers R p) as [q'|]; [|discriminate]. constructor; [discriminate|]. exact (IH q' eq_refl). }
  assert (Hn2 : forall ps qs, numbers2 R ps = Some qs -> Forall (fun p => exists q, numbers R p = Some q) ps).
  { induction ps as [|p ps IH]; intros qs H; [constructor|]. cbn [numbers2] in H. destruct (numbers R p) as [q|] eqn:E; [|discriminate]. destruct (numbers2 R ps) as [qs'|]; [|discriminate]. constructor; [eauto|]. exact (IH qs' eq_refl). }
  intros H. unfold orientation_fl in H. apply bind_ok in H as (bv & Hbv & H). apply bind_ok in H as (b & Hb & H). apply bind_ok in H as (xs & Hxs & H). apply bind_ok in H as (u & _ & H).
  destruct (numbers R b) as [b'|] eqn:Eb; [|discriminate]. destruct (numbers2 R xs) as [xs'|] eqn:Ex; [|discriminate]. apply get_ok in Hbv, Hb. apply mapM_ok in Hxs.
  intros k v p [-> |Hk] Hv Hp; [rewrite Hbv in Hv; injection Hv as <-; rewrite Hb in Hp; injection Hp as <-; exact (Hn _ _ Eb)|].
  apply In_nth_error in Hk as (i & Hi). destruct (Forall2_nth_error _ _ _ _ _ Hxs Hi) as (x & Hx & E). apply bind_ok in E as (v' & Hv' & E). apply get_ok in Hv', E. rewrite Hv in Hv'. injection Hv' as <-. rewrite Hp in E. injection E as <-.
  destruct (proj1 (Forall_forall _ _) (Hn2 _ _ Ex) p (nth_error_In _ _ Hx)) as (q & Hq). exact (Hn _ _ Hq).
Qed.
Example C111_orientation_example : orientation_fl Zocring (0, [1; 2]) [[Some 0; Some 0]; [Some 2; Some 0]; [Some 0; Some 3]; [None; Some 1]]%Z [0; 1; 2] = Ok (Some 6%Z) /\
  orientation_fl Zocring (0, [1; 2]) [[Some 0; Some 0]; [Some 2; Some 0]; [Some 0; Some 3]; [None; Some 1]]%Z [0; 1; 3] = Ok None.
Proof. split; reflexivity. Qed.

(** ** C109: skip_tests, and what make_mesh and copy return *)
Theorem C109_checked (R : ocring) resampling span_indices default_tol d tol skip so m m' :
  checked R resampling span_indices default_tol d tol skip so m = Ok m' <-> m' = m /\ (skip = true \/ check_mesh_consistency R resampling span_indices default_tol d tol so m = Ok tt).
Proof.
  unfold checked. destruct skip.
  - split; [intros H; injection H as <-; auto|intros (-> & _); reflexivity].
  - destruct (check_mesh_consistency R resampling span_indices default_tol d tol so m) as [[]|e]; cbn [bind].
    + split; [intros H; injection H as <-; auto|intros (-> & _); reflexivity].
    + split; [discriminate|intros (_ & [H|H]); discriminate].
Qed.

(** ** C114: groups of other shapes *)
Theorem C114_other_groups (R : ocring) vinv diffs tol nu (g : cgroup R) els :
  (cg_simplex g = true -> is_affine R vinv diffs tol nu g els = is_affine_simplex_group R vinv diffs tol nu g els) /\
  (cg_simplex g = false -> is_affine_simplex_group R vinv diffs tol nu g els = Err TypeError /\ is_affine R vinv diffs tol nu g els = if cg_modepy g then Ok false else Err NotImplementedError).
Proof. unfold is_affine, is_affine_simplex_group. split; intros ->; [reflexivity|split; reflexivity]. Qed.

(** ** C43: mesh types, and numbers of points *)
Theorem C43_mesh_types (R : cring) half axes cls mt r : box_elements R half axes cls mt = Ok r ->
  cls <> GOther /\ (1 <= length axes <= 3) /\ (mt = MNone \/ (mt = MX /\ length axes = 2 /\ cls = GSimplex)).
Proof.
  unfold box_elements. intros H. apply bind_ok in H as (u & _ & H). apply bind_ok in H as (vs & _ & H). apply bind_ok in H as (is_tp & Htp & H).
  assert (Hc : cls <> GOther /\ (is_tp = false -> cls = GSimplex)) by (destruct cls; injection Htp as <- || discriminate Htp; split; congruence). destruct Hc as (Hc & Hs). split; [exact Hc|].
  destruct axes as [|a0 [|a1 axes]]; cbn [map length] in H |- *.
  - discriminate H.
  - split; [lia|]. destruct mt; try discriminate H. now left.
  - apply bind_ok in H as (plan & Hp & _). destruct axes as [|a2 [|a3 axes]]; cbn [length] in Hp |- *; destruct is_tp, mt; try discriminate Hp; (split; [lia|auto]).
Qed.
Example C43_types_example : (exists r, box_elements Zcring 0%Z [[0; 2]; [0; 2]]%Z GSimplex MX = Ok r) /\ box_elements Zcring 0%Z [[0; 2]; [0; 2]]%Z GTensor MX = Err ValueError.
Proof. split; [eexists; reflexivity|reflexivity]. Qed.
Theorem C43_points_per_axis ndim n nelements npoints pts : points_per_axis ndim n nelements npoints = Ok pts ->
  ~ In 1 pts /\
  match n, nelements, npoints with
  | Some k, None, None => length pts = ndim /\ forall p, In p pts -> p = k
  | None, None, Some ps => pts = ps
  | None, Some es, None => Forall2 (fun nel p => p - 1 = nel) es pts
  | _, _, _ => False
  end.
Proof.
  unfold points_per_axis. intros H. apply bind_ok in H as (l & Hl & H). apply bind_ok in H as (u & Hg & H). injection H as ->. split.
  { intros Hin. unfold guard in Hg. replace (existsb (fun p => p =? 1) pts) with true in Hg; [discriminate|]. symmetry. apply existsb_exists. exists 1. auto. }
  destruct n as [k|], nelements as [es|], npoints as [ps|]; try discriminate; injection Hl as <-; try reflexivity.
  - split; [apply repeat_length|]. intros p Hp. now apply repeat_spec in Hp.
  - clear. induction es as [|e es IH]; cbn [map]; constructor; auto. destruct (0 <? e) eqn:E; [apply Nat.ltb_lt in E; lia|]. apply Nat.ltb_ge in E. lia.
Qed.
Example C43_points_example : points_per_axis 2 None (Some [3; 0]) None = Ok [4; 0] /\ points_per_axis 2 (Some 5) None None = Ok [5; 5].
Proof. split; reflexivity. Qed.

(** ** C85: the tags of a periodic box.  Tags of periodic sides are replaced, all others are kept *)
Definition tag_faces (d : tagdict) (t : btag) : option (list string) := option_map snd (find (fun tf : btag * list string => btag_eqb (fst tf) t) d).
Lemma tag_faces_set d t fs t' : tag_faces (BoxModel.dict_set d t fs) t' = if btag_eqb t t' then Some fs else tag_faces d t'.
Proof.
  unfold tag_faces. induction d as [|(u, gs) d IH]; cbn [BoxModel.dict_set find fst option_map snd].
  - destruct (btag_eqb t t'); reflexivity.
  - destruct (btag_eqb u t) eqn:Eu.
    + apply btag_eqb_eq in Eu as ->. cbn [find fst]. destruct (btag_eqb t t'); reflexivity.
    + cbn [find fst]. destruct (btag_eqb u t') eqn:Eu'; [|exact IH]. destruct (btag_eqb t t') eqn:Et; [|reflexivity]. apply btag_eqb_eq in Eu', Et. subst. rewrite (proj2 (btag_eqb_eq t' t') eq_refl) in Eu. discriminate.
Qed.
Theorem C85_periodic_tags ptag dim periodic d d' : (forall u i u' i', ptag u i = ptag u' i' -> u = u' /\ i = i') -> periodic_tags ptag dim periodic d = Ok d' ->
  (forall u i, i < dim -> nth_error periodic i = Some true -> tag_faces d' (ptag u i) = Some [side_name u i]) /\
  (forall t, (forall u i, i < dim -> nth_error periodic i = Some true -> t <> ptag u i) -> tag_faces d' t = tag_faces d t).
Proof.
  intros Hinj. unfold periodic_tags. match goal with |- context [foldM ?F _ _] => set (step := F) end.
  assert (H : forall n k d d', foldM step (seq k n) d = Ok d' ->
    (forall u i, k <= i < k + n -> nth_error periodic i = Some true -> tag_faces d' (ptag u i) = Some [side_name u i]) /\
    (forall t, (forall u i, k <= i < k + n -> nth_error periodic i = Some true -> t <> ptag u i) -> tag_faces d' t = tag_faces d t)).
  { induction n as [|n IH]; intros k d0 d1 H; cbn [seq foldM] in H; [injection H as <-; split; [intros; lia|reflexivity]|].
    apply bind_ok in H as (d2 & Hs & H). destruct (IH _ _ _ H) as (I1 & I2). unfold step in Hs. apply bind_ok in Hs as (p & Hp & Hs). injection Hs as <-. apply get_ok in Hp.
    assert (Hk : forall u, p = true -> tag_faces d1 (ptag u k) = Some [side_name u k]).
    { intros u ->. rewrite I2. 2: { intros u' i Hi _ E. apply Hinj in E as (_ & ->). lia. } rewrite tag_faces_set. destruct (btag_eqb (ptag true k) (ptag u k)) eqn:E; [apply btag_eqb_eq in E; apply Hinj in E as (-> & _); reflexivity|].
      destruct u; [rewrite (proj2 (btag_eqb_eq _ _) eq_refl) in E; discriminate|]. rewrite tag_faces_set, (proj2 (btag_eqb_eq _ _) eq_refl). reflexivity. }
    split.
    - intros u i Hi Hper. destruct (Nat.eq_dec i k) as [-> |Hne]; [apply Hk; congruence|]. apply I1; [lia|exact Hper].
    - intros t Ht. rewrite I2 by (intros u i Hi; apply Ht; lia). destruct p; [|reflexivity]. rewrite !tag_faces_set.
      destruct (btag_eqb (ptag true k) t) eqn:E; [apply btag_eqb_eq in E; exfalso; apply (Ht true k); [lia|exact Hp|now symmetry]|].
      destruct (btag_eqb (ptag false k) t) eqn:E'; [apply btag_eqb_eq in E'; exfalso; apply (Ht false k); [lia|exact Hp|now symmetry]|]. reflexivity. }
  intros Hd. destruct (H dim 0 d d' Hd) as (H1 & H2). split; [intros u i Hi; apply H1; lia|]. intros t Ht. apply H2. intros u i Hi. apply Ht. lia.
Qed.
Example C85_periodic_example : exists d', periodic_tags (fun u i => TUser (2 * i + if u : bool then 1 else 0)) 2 [false; true] [(TUser 2, ["+x"%string]); (TUser 9, ["-x"%string])] = Ok d' /\
  tag_faces d' (TUser 2) = Some ["-y"%string] /\ tag_faces d' (TUser 3) = Some ["+y"%string] /\ tag_faces d' (TUser 9) = Some ["-x"%string] /\ tag_faces d' (TUser 0) = None.
Proof. eexists. split; [reflexivity|]. repeat split. Qed.

(** ** C11: elements that do not exist are an error *)
Theorem C11_out_of_range {E A V} garbage (vs : list V) (groups : list (egroup E)) (fags : res (list (list (fagrp A)))) conforming parts rp e p k :
  requested parts rp <> [] -> assigned parts e p k -> sum (map nelements groups) <= e ->
  partition_mesh garbage (Some vs) groups fags conforming parts rp = Err IndexError :> res (list (nat * mesh E A V)).
Proof.
  intros Hrp (els & Hin & Hk) He.
  assert (Hc : element_counts (sum (map nelements groups)) parts = Err IndexError).
  { unfold element_counts. generalize (repeat 0 (sum (map nelements groups))). apply (in_map snd) in Hin. cbn [snd] in Hin. induction (map snd parts) as [|l ls IH]; [destruct Hin|]. intros counts. cbn [foldM].
    unfold count_step at 1. destruct (forallb (fun e => e <? sum (map nelements groups)) l) eqn:Ef; [|reflexivity]. cbn [guard bind]. destruct Hin as [-> |Hin]; [|now apply IH].
    exfalso. pose proof (proj1 (forallb_forall _ _) Ef e (nth_error_In _ _ Hk)) as H. cbn beta in H. apply Nat.ltb_lt in H. lia. }
  unfold partition_mesh. fold (requested parts rp). destruct (requested parts rp) as [|q l]; [congruence|]. cbn [mapM]. unfold get_mesh_part at 1. rewrite Hc. reflexivity.
Qed.
Example C11_range_example : partition_mesh (fun _ => []) (Some [tt; tt; tt]) [mk_egroup (Some [[0; 1]; [1; 2]]) [tt; tt] []] (Ok [[]] : res (list (list (fagrp nat)))) (Some true) [(0, [0; 1]); (4, [2])] None = Err IndexError :> res (list (nat * mesh unit nat unit)) /\
  assigned [(0, [0; 1]); (4, [2])] 2 4 0.
Proof. split; [reflexivity|]. exists [2]. cbn. auto. Qed.

(** ** C192: functions of the space returned by firedrake_fspace are accepted by the connection, and have the shape asked for; anything that is not a shape is a TypeError *)
Theorem C192_fspace c shape :
  match shape with
  | ShOther => firedrake_fspace c shape = Err TypeError
  | _ => exists s, firedrake_fspace c shape = Ok s /\ (forall dt, validate_function c (PFunction s dt) (Some (sp_shape s)) (Some dt) = Ok tt) /\
           sp_shape s = match shape with ShInt n => [n] | ShTuple t => t | _ => [] end
  end.
Proof.
  assert (H : forall sh dt, validate_function c (PFunction (mk_space (fc_family c) (fc_degree c) (fc_mesh c) sh) dt) (Some sh) (Some dt) = Ok tt).
  { intros sh dt. cbn [validate_function sp_family sp_degree sp_mesh sp_shape]. rewrite !Nat.eqb_refl. cbn [guard bind]. unfold guard. now rewrite (proj2 (list_nat_eqb_iff sh sh) eq_refl). }
  destruct shape as [|n|t|]; [| | |reflexivity]; (eexists; split; [reflexivity|]; split; [intros dt; apply H|reflexivity]).
Qed.

(** ** C37: the interface with one connection for each remote rank.  If connections are listed by both ranks, the ranks are consistent as C37 requires, so that each gets the connection for each of its neighbors *)
Theorem C37_old_interface {C M O} (pack : nat -> C -> res M) (link : C -> M -> res O) (conns : list (list (nat * C))) :
  (forall r l, nth_error conns r = Some l -> NoDup (map fst l)) ->
  (forall r l r' c, nth_error conns r = Some l -> In (r', c) l -> (exists l' c', nth_error conns r' = Some l' /\ In (r, c') l') /\ exists m, pack r' c = Ok m) ->
  (forall r l r' c l' c' m, nth_error conns r = Some l -> In (r', c) l -> nth_error conns r' = Some l' -> In (r, c') l' -> pack r c' = Ok m -> exists o, link c m = Ok o) ->
  consistent pack link true (map (fun rl : nat * list (nat * C) => old_irbis (fst rl) (snd rl)) (enumerate conns)).
Proof.
  intros H1 H2 H3. set (cfg := map _ _).
  assert (Hcfg : forall r l, nth_error cfg r = Some l <-> exists l0, nth_error conns r = Some l0 /\ l = old_irbis r l0).
  { intros r l. unfold cfg. rewrite nth_error_map, nth_error_enumerate. destruct (nth_error conns r) as [l0|]; cbn [option_map fst snd].
    - split; [intros H; injection H as <-; eauto|intros (l1 & Hl1 & ->); injection Hl1 as <-; reflexivity].
    - split; [discriminate|]. intros (l0 & Hl0 & _). discriminate. }
  assert (Hin : forall r (l0 : list (nat * C)) b, In b (old_irbis r l0) <-> exists r' c, In (r', c) l0 /\ b = mk_irbi r r' r' c).
  { intros r l0 b. unfold old_irbis. rewrite in_map_iff. split; [intros ((r', c) & <- & H); eauto|intros (r' & c & H & ->); exists (r', c); auto]. }
  assert (Hrem : forall r (l0 : list (nat * C)), map ib_remote (old_irbis r l0) = map fst l0) by (intros r l0; unfold old_irbis; rewrite map_map; reflexivity).
  constructor.
  - intros r l Hl. apply Hcfg in Hl as (l0 & Hl0 & ->). apply (NoDup_map_inv snd). replace (map snd (map ib_pair (old_irbis r l0))) with (map fst l0); [exact (H1 _ _ Hl0)|]. unfold old_irbis. rewrite !map_map. reflexivity.
  - intros _ r l Hl. apply Hcfg in Hl as (l0 & Hl0 & ->). rewrite Hrem. exact (H1 _ _ Hl0).
  - intros r l b Hl Hb. apply Hcfg in Hl as (l0 & Hl0 & ->). apply Hin in Hb as (r' & c & Hb & ->). destruct (H2 _ _ _ _ Hl0 Hb) as ((l' & c' & Hl' & Hc') & _).
    exists (mk_irbi r' r r c'). exists (old_irbis r' l'). cbn [ib_rank ib_local ib_remote]. split; [apply Hcfg; eauto|]. split; [apply Hin; eauto|]. auto.
  - intros r l b Hl Hb. apply Hcfg in Hl as (l0 & Hl0 & ->). apply Hin in Hb as (r' & c & Hb & ->). exact (proj2 (H2 _ _ _ _ Hl0 Hb)).
  - intros r l b b' m Hl Hb (l' & Hl' & Hb' & E1 & E2 & E3) Hm. apply Hcfg in Hl as (l0 & Hl0 & ->). apply Hin in Hb as (r' & c & Hb & ->). cbn [ib_rank ib_local ib_remote ib_conn] in *.
    apply Hcfg in Hl' as (l1 & Hl1 & ->). apply Hin in Hb' as (r'' & c' & Hb' & ->). cbn [ib_rank ib_local ib_remote ib_conn] in *. subst r''. exact (H3 _ _ _ _ _ _ _ Hl0 Hb Hl1 Hb' Hm).
Qed.
Example C37_old_example : consistent (fun r c => Ok (r + c)) (fun c m => Ok (c, m)) true (map (fun rl : nat * list (nat * nat) => old_irbis (fst rl) (snd rl)) (enumerate [[(1, 10); (2, 20)]; [(0, 30)]; [(0, 40)]])).
Proof.
  apply C37_old_interface.
  - intros [|[|[|[|r]]]] l H; cbn in H; try discriminate; injection H as <-; repeat constructor; cbn; intuition discriminate.
  - intros [|[|[|[|r]]]] l r' c H Hin; cbn in H; try discriminate; injection H as <-; cbn in Hin; repeat (destruct Hin as [Hin|Hin]; [injection Hin as <- <-; split; [eexists _, _; split; [reflexivity|cbn; eauto]|eauto]|]); destruct Hin.
  - eauto.
Qed.

(** ** C51: the condition of C51_as_python_partial is necessary.  With any other boundary tag, the program raises NameError *)
Theorem C51_other_tags {E A V} dfd (m : mesh E A V) f l b t : m_facial m = Available f -> In l f -> In b l -> bdry_tag b = Some t -> t <> TNone -> t <> TAll -> t <> TReallyAll ->
  run_as_python dfd m = Err NameError.
Proof.
  intros Hf Hl Hb Ht H1 H2 H3. unfold run_as_python. rewrite Hf. match goal with |- context [forallb ?F f] => assert (H : forallb F f = false) end.
  { apply not_true_is_false. intros H. rewrite forallb_forall in H. specialize (H l Hl). rewrite forallb_forall in H. specialize (H b Hb). rewrite Ht in H. destruct t; cbn in H; congruence. }
  rewrite H. reflexivity.
Qed.
Example C51_other_example : run_as_python 0 (mk_mesh [mk_egroup (Some [[0; 1]]) [tt] []] (Some [tt; tt]) (Some true) Pending (Available [[Boundary 0 TInduced [(0, 0)]]]) 0 0 0 : mesh unit unit unit) = Err NameError.
Proof. apply (C51_other_tags _ _ [[Boundary 0 TInduced [(0, 0)]]] [Boundary 0 TInduced [(0, 0)]] (Boundary 0 TInduced [(0, 0)]) TInduced); cbn; auto; discriminate. Qed.

Print Assumptions C51_other_tags. Print Assumptions C40_thread_sees. Print Assumptions C117_curve_orientation. Print Assumptions C32_batches. Print Assumptions C111_orientation_numbers. Print Assumptions C109_checked.
Print Assumptions C114_other_groups. Print Assumptions C43_mesh_types. Print Assumptions C43_points_per_axis. Print Assumptions C85_periodic_tags. Print Assumptions C11_out_of_range.
Print Assumptions C192_fspace. Print Assumptions C37_old_interface.
