(** * DrawProofs: lemmas about pictures of meshes. *)
From Coq Require Import List Arith Bool QArith Qminmax Qabs Lqa Lia Permutation.
From Verif Require Import Np NpFacts DrawModel DrawSpec.
Import ListNotations.
Local Open Scope nat_scope.

(** ** Lists *)
Lemma mapM_app' {A B} (f : A -> res B) l l' : mapM f (l ++ l') = (r <- mapM f l ;; r' <- mapM f l' ;; Ok (r ++ r')).
Proof.
  induction l as [|x l IH]; cbn [mapM app].
  - cbn [bind]. destruct (mapM f l'); reflexivity.
  - destruct (f x); cbn [bind]; [|reflexivity]. rewrite IH. destruct (mapM f l); cbn [bind]; [|reflexivity]. destruct (mapM f l'); reflexivity.
Qed.

Lemma mapM_map' {A B C} (f : B -> res C) (g : A -> B) l : mapM f (map g l) = mapM (fun x => f (g x)) l.
Proof. induction l as [|x l IH]; cbn [mapM map]; [reflexivity|]. now rewrite IH. Qed.

Lemma mapM_flat {A B C} (f : B -> res C) (g : A -> list B) l :
  (r <- mapM (fun x => mapM f (g x)) l ;; Ok (concat r)) = mapM f (flat_map g l).
Proof.
  induction l as [|x l IH]; cbn [mapM flat_map]; [reflexivity|]. rewrite mapM_app', <- IH.
  destruct (mapM f (g x)); cbn [bind]; [|reflexivity]. destruct (mapM _ l); reflexivity.
Qed.

Lemma Forall2_concat {A B C} (P : A -> B -> Prop) (sel : C -> list B) l (blocks : list (list C)) :
  Forall2 (fun a b => exists p, flat_map sel b = [p] /\ P a p) l blocks -> Forall2 P l (flat_map sel (concat blocks)).
Proof.
  induction 1 as [|a b l bs (p & Hp & HP) H IH]; cbn [concat]; [constructor|]. rewrite flat_map_app, Hp. cbn. now constructor.
Qed.

Lemma flat_map_concat_nil {B C} (sel : C -> list B) (blocks : list (list C)) :
  Forall (fun b => flat_map sel b = []) blocks -> flat_map sel (concat blocks) = [].
Proof. induction 1 as [|b bs Hb H IH]; cbn [concat]; [reflexivity|]. now rewrite flat_map_app, Hb, IH. Qed.

Lemma Forall2_r {A B} (P : A -> B -> Prop) (Q : B -> Prop) l l' : (forall a b, P a b -> Q b) -> Forall2 P l l' -> Forall Q l'.
Proof. intros H. induction 1; constructor; eauto. Qed.

(** ** Elements *)
Lemma draw_elements_eq vertices numbers groups : Forall (fun g => d_vi g <> None) groups ->
  draw_elements vertices numbers groups =
  (b <- mapM (fun '(g, (igrp, iel), el) => draw_element vertices numbers (length groups) igrp iel g el) (elements groups) ;; Ok (concat b)).
Proof.
  intros H. unfold draw_elements, elements. rewrite <- mapM_flat. generalize (length groups). intros ng. change (enumerate groups) with (enumerate_from 0 groups). generalize 0 as k.
  induction H as [|g gs Hg H IH]; intros k; [reflexivity|]. rewrite !enumerate_from_cons. cbn [mapM].
  unfold vertex_indices_of, rows at 1. destruct (d_vi g) as [vi|] eqn:E; [|congruence]. cbn [bind]. rewrite mapM_map'.
  assert (Ext : forall l, mapM (fun '(iel, el) => draw_element vertices numbers ng k iel g el) l =
     mapM (fun x : nat * list nat => (let '(g, (igrp, iel), el) := let '(iel, el) := x in (g, (k, iel), el) in draw_element vertices numbers ng igrp iel g el)) l).
  { intros l. apply mapM_ext. intros [iel el] _. reflexivity. }
  rewrite Ext. destruct (mapM _ (enumerate vi)) as [r|]; cbn [bind]; [|reflexivity].
  specialize (IH (S k)).
  destruct (mapM _ (enumerate_from (S k) gs)) as [r1|e1] eqn:E1, (mapM (fun x => mapM _ _) (enumerate_from (S k) gs)) as [r2|e2] eqn:E2;
    unfold vertex_indices_of in IH; rewrite ?E1 in IH; cbn [bind] in IH |- *; try discriminate.
  - injection IH as IH. cbn [concat]. now rewrite IH, concat_app.
  - congruence.
Qed.

Lemma take_vertices vertices el : Forall (fun v => v < length vertices) el ->
  exists vs, take vertices el = Ok vs /\ vertices_of vertices el vs /\ length vs = length el.
Proof.
  intros H. destruct (take_total vertices el) as (vs & Hvs); [exact H|].
  exists vs. split; [exact Hvs|]. apply take_ok in Hvs. split; [exact Hvs|]. symmetry. now apply Forall2_length' in Hvs.
Qed.

Lemma psum_eq l : (fst (psum l) == fold_right (fun p s => fst p + s) 0 l /\ snd (psum l) == fold_right (fun p s => snd p + s) 0 l)%Q.
Proof. unfold psum. induction l as [|p l (IH1 & IH2)]; cbn; [split; reflexivity|]. rewrite IH1, IH2. split; reflexivity. Qed.

Lemma centroid_center l : l <> [] -> is_center l (centroid l).
Proof.
  intros Hl. split; [exact Hl|]. cbv zeta. unfold centroid. cbn [fst snd]. destruct (psum_eq l) as (H1 & H2).
  assert (~ inject_Z (Z.of_nat (length l)) == 0)%Q.
  { destruct l; [congruence|]. unfold Qeq, inject_Z. cbn -[Z.of_nat]. lia. }
  rewrite <- H1, <- H2. split; field; assumption.
Qed.

(** The order does not matter for the center *)
Lemma sum_perm (f : pt2 -> Q) l l' : Permutation l l' -> (fold_right (fun p s => f p + s) 0 l == fold_right (fun p s => f p + s) 0 l')%Q.
Proof. induction 1; cbn; try lra. Qed.
Lemma center_perm l l' c : Permutation l l' -> is_center l c -> is_center l' c.
Proof.
  intros HP (Hl & H1 & H2). split.
  - intros ->. apply Permutation_sym, Permutation_nil in HP. congruence.
  - cbv zeta in *. rewrite <- (Permutation_length HP), <- (sum_perm fst _ _ HP), <- (sum_perm snd _ _ HP). auto.
Qed.

Lemma take_perm {X} (l : list X) order l' : Permutation order (seq 0 (length l)) -> take l order = Ok l' -> Permutation l' l.
Proof.
  intros HP H. apply take_ok in H.
  assert (E : l' = flat_map (fun i => match nth_error l i with Some x => [x] | None => [] end) order).
  { clear HP. induction H as [|i x order l' Hx H IH]; [reflexivity|]. cbn. rewrite Hx, IH. reflexivity. }
  rewrite E. rewrite HP. clear.
  assert (G : forall k pre, length pre = k -> flat_map (fun i => match nth_error (pre ++ l) i with Some x => [x] | None => [] end) (seq k (length l)) = l).
  { induction l as [|x l IH]; intros k pre Hk; [reflexivity|]. cbn [length seq flat_map]. rewrite nth_error_app2, Hk, Nat.sub_diag by lia. cbn [nth_error app].
    f_equal. replace (pre ++ x :: l) with ((pre ++ [x]) ++ l) by (now rewrite <- app_assoc). apply IH. rewrite app_length, Hk. cbn. lia. }
  pose proof (G 0 [] eq_refl) as G0. cbn [app] in G0. rewrite G0. reflexivity.
Qed.

Lemma shape_order g n : shape_ok g n -> Permutation (path_order g n) (seq 0 n) /\
  (d_dim g = 2 -> exists fs, Permutation fs (d_fvi g) /\ Forall2 same_pair (cycle (path_order g n)) fs) /\ 0 < n.
Proof.
  intros H. unfold path_order. destruct H as [t vi fvi Hf|vi fvi Hf|vi fvi Hf]; cbn [d_tensor d_dim d_fvi].
  - replace (t && (1 =? 2)) with false by (now destruct t). split; [reflexivity|]. split; [discriminate|lia].
  - cbn [andb]. split; [reflexivity|]. split; [|lia]. intros _. destruct Hf as [Hf|Hf].
    + exists [[0; 1]; [1; 2]; [2; 0]]. split.
      * rewrite Hf. apply perm_skip, perm_swap.
      * repeat constructor; unfold same_pair; cbn; auto.
    + exists [[0; 1]; [1; 2]; [0; 2]]. split.
      * rewrite Hf. apply perm_skip, perm_swap.
      * repeat (apply Forall2_cons || apply Forall2_nil); unfold same_pair; cbn; auto.
  - cbn [andb Nat.eqb]. split; [cbn; do 2 apply perm_skip; apply perm_swap|]. split; [|lia]. intros _.
    exists [[0; 1]; [1; 3]; [2; 3]; [0; 2]]. split.
    + rewrite Hf. apply perm_skip. eapply perm_trans; [apply perm_swap|]. apply perm_skip, perm_swap.
    + repeat (apply Forall2_cons || apply Forall2_nil); unfold same_pair; cbn; auto.
Qed.

Definition sel_path (d : drawn) := match d with DPath p => [p] | _ => [] end.

Lemma draw_element_ok vertices numbers ng igrp iel g n el : shape_ok g n -> length el = n -> Forall (fun v => v < length vertices) el ->
  exists b, draw_element vertices numbers ng igrp iel g el = Ok b /\
    (exists p, paths b = [p] /\ outline vertices g el p) /\
    (if numbers then exists c, element_texts b = [c] /\ center_of vertices el (fst c) /\ element_label ng igrp iel (snd c) else element_texts b = []) /\
    vertex_texts b = [] /\ face_texts b = [] /\ arrows b = [] /\ limits b = [].
Proof.
  intros Hs Hn Hv. destruct (take_vertices vertices el Hv) as (vs & Hvs & Hof & Hl). destruct (shape_order g n Hs) as (HP & Hf & Hpos).
  assert (Hr : Forall (fun i => i < length vs) (path_order g (length vs))).
  { apply Forall_forall. intros i Hi. rewrite Hl, Hn in *. apply (Permutation_in i HP) in Hi. apply in_seq in Hi. lia. }
  destruct (take_total vs _ Hr) as (es & Hes). pose proof (take_perm vs (path_order g (length vs)) es) as HPe.
  rewrite Hl, Hn in HPe. specialize (HPe HP). rewrite Hl, Hn in Hes. specialize (HPe Hes).
  assert (Hlen : length es = n) by (rewrite (Permutation_length HPe); congruence).
  destruct es as [|first es]; [cbn in Hlen; lia|].
  unfold draw_element. rewrite Hvs. cbn [bind]. rewrite Hl, Hn, Hes. cbn [bind]. unfold element_path. cbn [get nth_error bind tl].
  eexists. split; [reflexivity|]. apply take_ok in Hes.
  split; [|split; [|destruct numbers; [destruct (ng =? 1)|]; auto]].
  - eexists. split; [destruct numbers; [destruct (ng =? 1)|]; reflexivity|].
    exists (path_order g n), (first :: es), first. rewrite Hn. split; [exact HP|]. split; [|split; [reflexivity|split; [|split; [|exact Hf]]]].
    + eapply Forall2_impl; [|exact Hes]. intros k v Hk. cbn beta in Hk. destruct (Forall2_nth_error_r _ _ _ k v Hof Hk) as (i & Hi & Hiv). eauto.
    + cbn [map snd]. rewrite map_app, map_map. cbn. now rewrite map_id.
    + cbn [map fst]. rewrite map_app, map_map. cbn. f_equal. f_equal. cbn in Hlen. replace (n - 1) with (length es) by lia. clear. induction es; cbn; congruence.
  - destruct numbers; [|reflexivity].
    assert (C : center_of vertices el (centroid (first :: es))).
    { exists vs. split; [exact Hof|]. eapply center_perm; [exact HPe|]. now apply centroid_center. }
    unfold element_label. destruct (Nat.eqb_spec ng 1); eexists; (split; [reflexivity|]); cbn [fst snd]; auto.
Qed.

Lemma mapM_blocks {A B} (f : A -> res B) (P : A -> B -> Prop) l :
  (forall x, In x l -> exists y, f x = Ok y /\ P x y) -> exists r, mapM f l = Ok r /\ Forall2 P l r.
Proof.
  induction l as [|x l IH]; intros H; cbn [mapM].
  - exists []. auto.
  - destruct (H x (or_introl eq_refl)) as (y & -> & Hy). destruct IH as (r & -> & Hr); [intros; apply H; now right|]. cbn [bind]. eauto.
Qed.

Lemma Forall2_flat {A B C} (P : B -> C -> Prop) (g : A -> list B) l r : Forall2 (fun x b => Forall2 P (g x) b) l r -> Forall2 P (flat_map g l) (concat r).
Proof. induction 1; cbn; auto. now apply Forall2_app. Qed.

Lemma In_elements groups g i el : In (g, i, el) (elements groups) -> In g groups /\ In el (rows g).
Proof.
  unfold elements. intros H. apply in_flat_map in H as ((igrp & h) & Hh & H). apply in_map_iff in H as ((iel & e) & [= -> <- <-] & He).
  apply In_enumerate in Hh. apply In_enumerate in He. split; eapply nth_error_In; eauto.
Qed.

Definition no_others (ds : list drawn) : Prop := vertex_texts ds = [] /\ face_texts ds = [] /\ arrows ds = [] /\ limits ds = [].

Lemma draw_elements_ok vertices numbers groups : Forall (group_ok (length vertices)) groups ->
  exists ds, draw_elements vertices numbers groups = Ok ds /\
    Forall2 (fun '(g, _, el) p => outline vertices g el p) (elements groups) (paths ds) /\
    (if numbers
     then Forall2 (fun '(_, (igrp, iel), el) t => center_of vertices el (fst t) /\ element_label (length groups) igrp iel (snd t)) (elements groups) (element_texts ds)
     else element_texts ds = []) /\ no_others ds.
Proof.
  intros H. rewrite draw_elements_eq by (eapply Forall_impl; [|exact H]; intros g (Hg & _); exact Hg).
  destruct (mapM_blocks (fun '(g, (igrp, iel), el) => draw_element vertices numbers (length groups) igrp iel g el)
    (fun '(g, (igrp, iel), el) b =>
      (exists p, paths b = [p] /\ outline vertices g el p) /\
      (if numbers then exists c, element_texts b = [c] /\ center_of vertices el (fst c) /\ element_label (length groups) igrp iel (snd c) else element_texts b = []) /\
      vertex_texts b = [] /\ face_texts b = [] /\ arrows b = [] /\ limits b = []) (elements groups)) as (r & -> & Hr).
  { intros ((g & igrp & iel) & el) Hin. apply In_elements in Hin as (Hg & Hel). rewrite Forall_forall in H. destruct (H g Hg) as (_ & n & Hs & Hrows).
    rewrite Forall_forall in Hrows. destruct (Hrows el Hel) as (Hn & Hv). eapply draw_element_ok; eauto. }
  cbn [bind]. eexists. split; [reflexivity|]. split; [|split].
  - apply Forall2_concat. eapply Forall2_impl; [|exact Hr]. intros ((g & igrp & iel) & el) b (Hp & _). exact Hp.
  - destruct numbers.
    + apply Forall2_concat. eapply Forall2_impl; [|exact Hr]. intros ((g & igrp & iel) & el) b (_ & Hc & _). exact Hc.
    + apply flat_map_concat_nil. eapply Forall2_r; [|exact Hr]. intros ((g & igrp & iel) & el) b (_ & Hc & _). exact Hc.
  - repeat split; apply flat_map_concat_nil; (eapply Forall2_r; [|exact Hr]); intros ((g & igrp & iel) & el) b (_ & _ & H1 & H2 & H3 & H4); assumption.
Qed.

(** ** Vertices *)
Lemma draw_vertices_ok vertices : vertex_texts (draw_vertices vertices) = enumerate vertices /\
  paths (draw_vertices vertices) = [] /\ element_texts (draw_vertices vertices) = [] /\ face_texts (draw_vertices vertices) = [] /\ arrows (draw_vertices vertices) = [] /\ limits (draw_vertices vertices) = [].
Proof.
  unfold draw_vertices. induction (enumerate vertices) as [|(i & v) l (IH1 & IH2 & IH3 & IH4 & IH5 & IH6)]; cbn; [auto 10|].
  fold (vertex_texts (map (fun '(i, v) => DText v (LVertex i)) l)). rewrite IH1. auto 10.
Qed.

(** ** Faces *)
Lemma shape_faces g n : shape_ok g n -> Forall (fun f => f <> [] /\ Forall (fun k => k < n) f) (d_fvi g).
Proof.
  assert (G : forall l l' n, Permutation l l' -> forallb (fun f => negb (length f =? 0) && forallb (fun k => k <? n) f) l' = true ->
    Forall (fun f : list nat => f <> [] /\ Forall (fun k => k < n) f) l).
  { intros l l' m HP H. apply Forall_forall. intros f Hf. apply (Permutation_in f HP) in Hf. rewrite forallb_forall in H. apply H in Hf.
    apply andb_true_iff in Hf as (Hf & Hk). split; [intros ->; discriminate|]. apply Forall_forall. intros k Hin. rewrite forallb_forall in Hk. now apply Nat.ltb_lt, Hk. }
  intros [t vi fvi Hf|vi fvi [Hf|Hf]|vi fvi Hf]; cbn [d_fvi]; (eapply G; [exact Hf|reflexivity]).
Qed.

Lemma draw_faces_ok vertices groups : Forall (group_ok (length vertices)) groups ->
  exists ds, draw_faces vertices groups = Ok ds /\ Forall2 (face_text vertices) (faces groups) (face_texts ds) /\
    paths ds = [] /\ element_texts ds = [] /\ vertex_texts ds = [] /\ arrows ds = [] /\ limits ds = [].
Proof.
  intros H.
  assert (G : exists ds, draw_faces vertices groups = Ok ds /\ Forall2 (fun f d => exists t, d = DText (snd t) (LFace (fst t)) /\ face_text vertices f t) (faces groups) ds).
  { unfold draw_faces, faces.
    match goal with |- context [mapM ?F groups] => destruct (mapM_blocks F
      (fun g b => Forall2 (fun f d => exists t, d = DText (snd t) (LFace (fst t)) /\ face_text vertices f t)
         (flat_map (fun el => map (fun '(i, f) => (el, i, f)) (enumerate (d_fvi g))) (rows g)) b) groups) as (r & -> & Hr) end.
    - intros g Hg. rewrite Forall_forall in H. destruct (H g Hg) as (Hvi & n & Hs & Hrows). unfold vertex_indices_of, rows in *. destruct (d_vi g) as [vi|]; [|congruence]. cbn [bind].
      match goal with |- context [mapM ?F vi] => destruct (mapM_blocks F
        (fun el b => Forall2 (fun f d => exists t, d = DText (snd t) (LFace (fst t)) /\ face_text vertices f t) (map (fun '(i, f) => (el, i, f)) (enumerate (d_fvi g))) b) vi) as (r & -> & Hr) end.
      + intros el Hel. rewrite Forall_forall in Hrows. destruct (Hrows el Hel) as (Hn & Hv). destruct (take_vertices vertices el Hv) as (vs & -> & Hof & Hl). cbn [bind].
        pose proof (shape_faces g n Hs) as Hfs. rewrite Forall_forall in Hfs.
        match goal with |- context [mapM ?F (enumerate (d_fvi g))] => destruct (mapM_blocks F
          (fun x d => exists t, d = DText (snd t) (LFace (fst t)) /\ face_text vertices (let '(i, f) := x in (el, i, f)) t) (enumerate (d_fvi g))) as (r & -> & Hr) end.
        * intros (i & f) Hi. apply In_enumerate in Hi. apply nth_error_In in Hi. destruct (Hfs f Hi) as (Hne & Hlt).
          assert (Hlt' : Forall (fun k => k < length vs) f) by (rewrite Hl, Hn; exact Hlt).
          assert (Hlt'' : Forall (fun k => k < length el) f) by (rewrite Hn; exact Hlt).
          destruct (take_total vs f Hlt') as (fv & Hfv). destruct (take_total el f Hlt'') as (fi & Hfi). rewrite Hfv. cbn [bind].
          eexists. split; [reflexivity|].
          exists (i, padd (pscale (3#10) (centroid vs)) (pscale (7#10) (centroid fv))). split; [reflexivity|]. unfold face_text. cbn [fst snd]. split; [reflexivity|].
          apply take_ok in Hfv. apply take_ok in Hfi. exists fi, (centroid vs), (centroid fv). split; [exact Hfi|]. split; [|split].
          -- exists vs. split; [exact Hof|]. apply centroid_center. intros ->. destruct f as [|k f]; [congruence|]. inversion_clear Hlt'. cbn in *. lia.
          -- exists fv. split.
             ++ unfold vertices_of in *. eapply Forall2_intro_nth.
                ** rewrite <- (Forall2_length' _ _ _ Hfv), <- (Forall2_length' _ _ _ Hfi). reflexivity.
                ** intros j a b Ha Hb. destruct (Forall2_nth_error_r _ _ _ j a Hfi Ha) as (k & Hk & Hka). destruct (Forall2_nth_error_r _ _ _ j b Hfv Hb) as (k' & Hk' & Hkb).
                   assert (k' = k) as -> by congruence. destruct (Forall2_nth_error _ _ _ k a Hof Hka) as (v & Hv' & Hav). congruence.
             ++ apply centroid_center. intros ->. inversion Hfv; subst. congruence.
          -- unfold peq, padd, pscale, psub. cbn [fst snd]. split; ring.
        * exists r. split; [reflexivity|]. clear - Hr. induction Hr; constructor; auto.
      + cbn [bind]. eexists. split; [reflexivity|]. now apply Forall2_flat.
    - cbn [bind]. eexists. split; [reflexivity|]. now apply Forall2_flat. }
  destruct G as (ds & -> & G). exists ds. split; [reflexivity|]. clear H.
  induction G as [|f d fs ds (t & -> & Ht) G (IH1 & IH2 & IH3 & IH4 & IH5 & IH6)]; [cbn; auto 10|].
  cbn. split; [|auto 10]. constructor; [destruct t; exact Ht|exact IH1].
Qed.

(** ** Arrows *)
Lemma global_element_ok groups : Forall (fun g => d_vi g <> None) groups ->
  forall i el, nth_error (concat (map rows groups)) i = Some el -> global_element groups i = Ok el.
Proof.
  induction 1 as [|g gs Hg H IH]; intros i el Hi; cbn in Hi; [now destruct i|].
  cbn [global_element]. unfold vertex_indices_of. unfold rows in Hi at 1. destruct (d_vi g) as [vi|]; [|congruence]. cbn [bind].
  destruct (Nat.ltb_spec i (length vi)).
  - rewrite nth_error_app1 in Hi by assumption. now apply get_ok.
  - rewrite nth_error_app2 in Hi by assumption. now apply IH.
Qed.

Lemma Qabs_scale (a x : Q) : (0 <= a)%Q -> (Qabs (a * x) == a * Qabs x)%Q.
Proof. intros H. rewrite Qabs_Qmult, (Qabs_pos a) by assumption. reflexivity. Qed.
Lemma jitter_bound (m u : Q) : (0 <= m -> 0 <= u < 1 -> - ((25#1000) * m) <= (5#100) * (u - (1#2)) * m <= (25#1000) * m)%Q.
Proof. intros Hm (H0 & H1). split; nra. Qed.
Lemma Qabs_le (x r : Q) : (- r <= x <= r -> Qabs x <= r)%Q.
Proof. intros H. now apply Qabs_Qle_condition. Qed.

Lemma arrow_ok c c' u v : unit_interval u -> unit_interval v -> exists a, arrow c c' u v = DArrow (fst a) (snd a) /\ arrow_between c c' a.
Proof.
  intros (Hu1 & Hu2) (Hv1 & Hv2). unfold arrow.
  eexists (_, _). cbn [fst snd]. split; [reflexivity|].
  exists (pt_abs_max (psub c' c)). unfold pt_abs_max at 1 2 3 4. cbn [psub fst snd].
  split; [split; [apply Q.le_max_l|apply Q.le_max_r]|].
  split. { destruct (Q.max_spec (Qabs (fst c' - fst c)) (Qabs (snd c' - snd c))) as [(_ & E)|(_ & E)]; [right|left]; rewrite E; reflexivity. }
  assert (Hm : (0 <= pt_abs_max (psub c' c))%Q). { unfold pt_abs_max. eapply Qle_trans; [apply Qabs_nonneg|apply Q.le_max_l]. }
  generalize dependent (pt_abs_max (psub c' c)). intros m Hm.
  pose proof (jitter_bound m _ Hm Hu1). pose proof (jitter_bound m _ Hm Hu2). pose proof (jitter_bound m _ Hm Hv1). pose proof (jitter_bound m _ Hm Hv2).
  unfold within, jitter, padd, pscale, psub. cbn [fst snd].
  set (j1 := ((5#100) * (fst u - (1#2)) * m)%Q) in *. set (j2 := ((5#100) * (snd u - (1#2)) * m)%Q) in *.
  set (k1 := ((5#100) * (fst v - (1#2)) * m)%Q) in *. set (k2 := ((5#100) * (snd v - (1#2)) * m)%Q) in *.
  clearbody j1 j2 k1 k2. repeat split; apply Qabs_le; lra.
Qed.

Lemma neighbor_pairs_ok n starts neighbors ls : neighbor_lists n starts neighbors ls -> neighbor_pairs n starts neighbors = Ok (flat_pairs ls).
Proof.
  intros (Hl & H). unfold neighbor_pairs, flat_pairs. rewrite flat_map_concat_map.
  assert (E : mapM (fun i => a <- get starts i ;; b <- get starts (S i) ;; Ok (map (fun j => (i, j)) (slice neighbors a b))) (seq 0 n) =
    Ok (map (fun '(i, l) => map (fun j => (i, j)) l) (enumerate ls))); [|now rewrite E].
  rewrite <- Hl. clear Hl n. apply mapM_ok. unfold enumerate.
  assert (G : forall ls k, (forall i l, nth_error ls i = Some l -> exists a b, nth_error starts (k + i) = Some a /\ nth_error starts (S (k + i)) = Some b /\ l = slice neighbors a b) ->
    Forall2 (fun i y => (a <- get starts i ;; b <- get starts (S i) ;; Ok (map (fun j => (i, j)) (slice neighbors a b))) = Ok y) (seq k (length ls))
      (map (fun '(i, l) => map (fun j => (i, j)) l) (enumerate_from k ls))).
  { clear. induction ls as [|l ls IH]; intros k H; [constructor|]. rewrite enumerate_from_cons. cbn [length seq map]. constructor.
    - destruct (H 0 l eq_refl) as (a & b & Ha & Hb & ->). rewrite Nat.add_0_r in Ha, Hb. rewrite (proj2 (get_ok _ _ _) Ha). cbn [bind]. rewrite (proj2 (get_ok _ _ _) Hb). reflexivity.
    - apply IH. intros i l' Hi. replace (S k + i) with (k + S i) by lia. now apply H. }
  apply G. exact H.
Qed.

Lemma rows_ok nv groups e : Forall (group_ok nv) groups -> In e (concat (map rows groups)) -> e <> [] /\ Forall (fun v => v < nv) e.
Proof.
  intros H He. apply in_concat in He as (l & Hl & He). apply in_map_iff in Hl as (g & <- & Hg). rewrite Forall_forall in H. destruct (H g Hg) as (_ & n & Hs & Hr).
  rewrite Forall_forall in Hr. destruct (Hr e He) as (Hn & Hv). split; [|exact Hv]. destruct (shape_order g n Hs) as (_ & _ & Hpos). intros ->. cbn in Hn. lia.
Qed.

Lemma In_flat_pairs ls i j : In (i, j) (flat_pairs ls) <-> exists l, nth_error ls i = Some l /\ In j l.
Proof.
  unfold flat_pairs. rewrite in_flat_map. split.
  - intros ((i' & l) & Hl & H). apply in_map_iff in H as (j' & [= -> ->] & Hj). apply In_enumerate in Hl. eauto.
  - intros (l & Hl & Hj). exists (i, l). split; [now apply In_enumerate|]. apply in_map_iff. eauto.
Qed.

Lemma draw_adjacency_ok vertices groups n starts neighbors ls rnd : Forall (group_ok (length vertices)) groups -> (forall k, unit_interval (rnd k)) ->
  neighbor_lists n starts neighbors ls ->
  (forall i j, In (i, j) (flat_pairs ls) -> i <> j /\ i < length (concat (map rows groups)) /\ j < length (concat (map rows groups))) ->
  exists ds, draw_adjacency vertices groups n starts neighbors rnd = Ok ds /\ Forall2 (arrow_for vertices groups) (flat_pairs ls) (arrows ds) /\
    paths ds = [] /\ element_texts ds = [] /\ vertex_texts ds = [] /\ face_texts ds = [] /\ limits ds = [].
Proof.
  intros Hg Hrnd Hn Hp. unfold draw_adjacency. rewrite (neighbor_pairs_ok _ _ _ _ Hn). cbn [bind].
  match goal with |- context [mapM ?F _] => destruct (mapM_blocks F (fun x d => exists a, d = DArrow (fst a) (snd a) /\ arrow_for vertices groups (snd x) a) (enumerate (flat_pairs ls)))
    as (r & -> & Hr) end.
  { intros (k & i & j) Hin. apply In_enumerate in Hin. apply nth_error_In in Hin. destruct (Hp i j Hin) as (Hij & Hi & Hj).
    apply Nat.eqb_neq in Hij as ->. cbn [negb guard bind].
    destruct (nth_error (concat (map rows groups)) i) as [e|] eqn:Ei; [|now apply nth_error_None in Ei; lia].
    destruct (nth_error (concat (map rows groups)) j) as [e'|] eqn:Ej; [|now apply nth_error_None in Ej; lia].
    assert (Hvi : Forall (fun g => d_vi g <> None) groups) by (eapply Forall_impl; [|exact Hg]; intros g (Hx & _); exact Hx).
    rewrite (global_element_ok groups Hvi i e Ei), (global_element_ok groups Hvi j e' Ej). cbn [bind].
    destruct (rows_ok _ _ e Hg (nth_error_In _ _ Ei)) as (Hne & Hv). destruct (rows_ok _ _ e' Hg (nth_error_In _ _ Ej)) as (Hne' & Hv').
    destruct (take_vertices vertices e Hv) as (vs & -> & Hof & Hl). destruct (take_vertices vertices e' Hv') as (vs' & -> & Hof' & Hl'). cbn [bind].
    destruct (arrow_ok (centroid vs) (centroid vs') _ _ (Hrnd (2 * k)) (Hrnd (2 * k + 1))) as (a & Ha & Hb).
    eexists. split; [reflexivity|]. exists a. split; [exact Ha|]. exists e, e', (centroid vs), (centroid vs'). cbn [fst snd]. split; [exact Ei|]. split; [exact Ej|].
    split; [|split; [|exact Hb]].
    - exists vs. split; [exact Hof|]. apply centroid_center. intros ->. destruct e; [congruence|discriminate].
    - exists vs'. split; [exact Hof'|]. apply centroid_center. intros ->. destruct e'; [congruence|discriminate]. }
  exists r. split; [reflexivity|].
  assert (E : flat_pairs ls = map snd (enumerate (flat_pairs ls))). { symmetry. apply nth_error_ext'. intros i. rewrite nth_error_map, nth_error_enumerate. now destruct (nth_error (flat_pairs ls) i). }
  rewrite E. generalize dependent (enumerate (flat_pairs ls)). clear. intros l Hr _.
  induction Hr as [|x d l r (a & -> & Ha) Hr (IH1 & IH2 & IH3 & IH4 & IH5 & IH6)]; [cbn; auto 10|]. cbn. split; [|auto 10]. constructor; [destruct a; exact Ha|exact IH1].
Qed.

(** ** Labels are different *)
Lemma labels_nodup groups (ts : list (pt2 * label)) (C : list nat -> pt2 -> Prop) :
  Forall2 (fun '(_, (igrp, iel), el) t => C el (fst t) /\ element_label (length groups) igrp iel (snd t)) (elements groups) ts -> NoDup (map snd ts).
Proof.
  intros H.
  assert (Hkeys : NoDup (map (fun '(_, i, _) => i) (elements groups))).
  { unfold elements. change (enumerate groups) with (enumerate_from 0 groups). clear. generalize 0 as k.
    assert (G : forall gs k x, In x (map (fun '(_, i, _) => i) (flat_map (fun '(igrp, g) => map (fun '(iel, el) => (g, (igrp, iel), el)) (enumerate (rows g))) (enumerate_from k gs))) -> k <= fst x).
    { intros gs. induction gs as [|g gs IH]; intros k x Hx; [destruct Hx|]. rewrite enumerate_from_cons in Hx. cbn [flat_map] in Hx. rewrite map_app in Hx. apply in_app_iff in Hx as [Hx|Hx].
      - rewrite map_map in Hx. apply in_map_iff in Hx as ((iel & el) & <- & _). cbn. lia.
      - apply IH in Hx. lia. }
    induction groups as [|g gs IH]; intros k; [constructor|]. rewrite enumerate_from_cons. cbn [flat_map]. rewrite map_app. apply NoDup_app.
    - rewrite map_map. unfold enumerate. generalize 0 as j. induction (rows g) as [|el l IHl]; intros j; [constructor|]. rewrite enumerate_from_cons. cbn [map]. constructor; [|apply IHl].
      intros Hin. apply in_map_iff in Hin as ((iel & e) & [= E] & Hin). apply In_nth_error in Hin as (n & Hn). rewrite nth_error_enumerate_from in Hn. destruct (nth_error l n); [|discriminate]. cbn in Hn. injection Hn as Hn _. lia.
    - apply IH.
    - intros x Hx Hx'. apply G in Hx'. rewrite map_map in Hx. apply in_map_iff in Hx as ((iel & el) & <- & _). cbn in Hx'. lia. }
  assert (Hin : forall g ig ie el, In (g, (ig, ie), el) (elements groups) -> ig < length groups).
  { intros g ig ie el Hx. unfold elements in Hx. apply in_flat_map in Hx as ((igrp & h) & Hh & Hx). apply in_map_iff in Hx as ((iel & e) & [= -> -> -> ->] & He).
    apply In_enumerate in Hh. apply nth_error_Some. congruence. }
  revert Hkeys Hin H. generalize (length groups) as ng, (elements groups) as es. clear. intros ng es Hkeys Hin H.
  induction H as [|((g & ig & ie) & el) (c & t) es ts (_ & Ht) H IH]; [constructor|]. cbn [map] in *. inversion_clear Hkeys as [|? ? Hnot Hk]. constructor.
  - intros Hx. apply in_map_iff in Hx as ((c' & t') & E & Hx). cbn [snd] in E. subst t'. apply Hnot.
    assert (exists x, In x es /\ element_label ng (fst (snd (fst x))) (snd (snd (fst x))) t) as (((g' & ig' & ie') & el') & Hes & Ht').
    { clear - H Hx. induction H as [|((g & ig & ie) & el) y es ts (_ & Hy) H IH]; [destruct Hx|]. destruct Hx as [->|Hx].
      - eexists. split; [now left|exact Hy].
      - destruct (IH Hx) as (x & Hin & Hl). exists x. split; [now right|exact Hl]. }
    cbn [fst snd] in Ht'. apply in_map_iff. exists (g', (ig', ie'), el'). split; [|exact Hes].
    pose proof (Hin g' ig' ie' el' (or_intror Hes)) as B1. pose proof (Hin g ig ie el (or_introl eq_refl)) as B2.
    cbn [snd] in Ht. destruct Ht as [(N & ->)|(N & ->)], Ht' as [(N' & E)|(N' & E)]; try congruence.
    + injection E as ->. f_equal. lia.
  - apply IH; [exact Hk|]. intros. eapply Hin. right. eassumption.
Qed.
