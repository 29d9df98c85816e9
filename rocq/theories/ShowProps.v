(** * ShowProps: theorems about pictures of fields. *)
From Coq Require Import String ZArith List Arith Bool Lia Ring.
From Verif Require Import Np NpFacts MeshModel Lin VisModel VisSpec VisProofs VisIoModel ShowModel ShowSpec ShowProofs.
Import ListNotations.

Section Props.
  Variable R : cring.
  Variable mean : list R -> R.
  Variable V : Type.
  Variable truthy : V -> bool.
  Variable conn_for : visgrp -> res (list (list nat) * nat).
  Variable conn : dofarray R -> res (dofarray R).
  Local Notation matplotlib := (show_scalar_in_matplotlib_3d R mean V truthy conn_for conn).
  Local Notation mayavi := (show_scalar_in_mayavi R V truthy conn_for conn).

  (** A group whose elements are drawn with subelements of k corners, all of them nodes of the element *)
  Definition drawn (k : nat) (g : visgrp) (el : list (list nat)) : Prop :=
    (exists ty, conn_for g = Ok (el, ty)) /\ el <> [] /\ 0 < vg_nunit g /\
    Forall (fun els => length els = k /\ forall i, In i els -> i < vg_nunit g) el.

  Lemma drawn_parts k g el : drawn k g el -> (exists ty, vis_groups conn_for [g] = Ok [mk_vcgrp (gcells 0 g el) ty 0 (length el)]) /\
    Forall (fun els => length els = k) el /\ Forall (Forall (fun i => i < vg_nunit g)) el.
  Proof.
    intros ((ty & H1) & H2 & H3 & H4). split.
    - exists ty. apply (vis_groups_ok conn_for [(g, (el, ty))]). constructor; [|constructor]. now split.
    - split; (apply Forall_forall; intros els Hels; destruct (proj1 (Forall_forall _ _) H4 els Hels) as (H & H')); [exact H|now apply Forall_forall].
  Qed.
  Lemma connectivity_flat g el : concat (map (@concat nat) (gcells 0 g el)) = concat (tris g el).
  Proof. unfold tris. now rewrite concat_concat. Qed.

  (** ** C205: on a discretization with one group of triangles, both functions show the triangles of all elements with the values of the field.  With matplotlib, the triangle
      number e * (subelements of an element) + j is subelement j of element e; its corners are the nodes of the element, with zeros for missing coordinates, and its value is
      the mean of the values of the field at the corners.  There are no other triangles. *)
  Theorem C205_matplotlib g el coords v fv kw : drawn 3 g el -> 0 < vg_nel g -> coords <> [] -> length coords <= 3 -> Forall (rectangular (vg_nel g) (vg_nunit g)) coords ->
    real_field conn (vg_nel g) (vg_nunit g) v fv ->
    exists p, matplotlib [g] 2 (map (@concat R) coords) v kw = Ok p /\
      length (mp_verts R V p) = vg_nel g * length el /\ length (mp_values R V p) = vg_nel g * length el /\
      forall e j els, e < vg_nel g -> nth_error el j = Some els ->
        exists corners vals, nth_error (mp_verts R V p) (e * length el + j) = Some corners /\ Forall2 (point_at coords e) els corners /\
          Forall2 (fun i x => at_node fv e i = Some x) els vals /\ nth_error (mp_values R V p) (e * length el + j) = Some (mean vals).
  Proof.
    intros Hdr Hnel Hne H3 Hc Hv. pose proof Hdr as (_ & Hel & _). destruct (drawn_parts 3 g el Hdr) as ((ty & Hg) & Hk & Hr). destruct (real_resample R conn g v fv Hv) as (Hrs & Hfv).
    pose proof (padded_rect R _ _ _ Hc) as Hpr. pose proof (padded_length R coords Hne H3) as Hpl. destruct (padded R coords) as [|d0 [|d1 [|d2 [|? ?]]]] eqn:Hp; try discriminate.
    inversion Hpr as [|? ? P0 Hpr1]; subst. inversion Hpr1 as [|? ? P1 Hpr2]; subst. inversion Hpr2 as [|? ? P2 _]; subst.
    destruct (take_tris g el d0 P0 Hr) as (xt & Hxt & Lx & Nx). destruct (take_tris g el d1 P1 Hr) as (yt & Hyt & Ly & Ny). destruct (take_tris g el d2 P2 Hr) as (zt & Hzt & Lz & Nz).
    destruct (take_tris g el fv Hfv Hr) as (ft & Hft & Lf & Nf).
    assert (Hgt : triangulation V (length (concat d0)) (tris g el) = Ok (tris g el, [])).
    { unfold triangulation. rewrite tris_length. destruct (vg_nel g * length el =? 0) eqn:E0. { apply Nat.eqb_eq in E0. destruct el; [congruence|]. cbn in E0. lia. }
      cbn [negb guard bind]. replace (forallb (forallb (fun i => i <? length (concat d0))) (tris g el)) with true; [reflexivity|]. symmetry. apply forallb_forall. intros t Ht. apply forallb_forall. intros i Hi.
      apply Nat.ltb_lt. apply tris_in in Ht as (e & j & els & He & Hj & ->). apply in_map_iff in Hi as (i' & <- & Hi'). rewrite (flat_len _ _ _ P0).
      pose proof (proj1 (Forall_forall _ _) (proj1 (Forall_forall _ _) Hr els (nth_error_In _ _ Hj)) i' Hi') as Hlt. cbn beta in Hlt. nia. }
    eexists. split.
    - unfold show_scalar_in_matplotlib_3d, pop. rewrite Hrs. cbn [bind]. rewrite Hg. cbn [bind Nat.eqb guard]. rewrite (pad_ok R coords Hne), Hp. cbn [map bind]. cbn [vc_conn]. rewrite connectivity_flat.
      change (get [concat d0; concat d1; concat d2] 0) with (Ok (concat d0)). change (get [concat d0; concat d1; concat d2] 1) with (Ok (concat d1)). change (get [concat d0; concat d1; concat d2] 2) with (Ok (concat d2)).
      cbn [bind]. rewrite (reshape_concat 3 (tris g el) ltac:(lia) (tris_len g el 3 Hk)). cbn [bind]. rewrite Hgt. cbn [bind]. rewrite Hxt. cbn [bind]. rewrite Hyt. cbn [bind]. rewrite Hzt. cbn [bind]. rewrite Hft. cbn [bind]. reflexivity.
    - cbn [mp_verts mp_values]. split; [now apply stack3_length|]. split; [now rewrite map_length|]. intros e j els He Hj.
      destruct (Nx e j els He Hj) as (x & X1 & X2). destruct (Ny e j els He Hj) as (y & Y1 & Y2). destruct (Nz e j els He Hj) as (z & Z1 & Z2). destruct (Nf e j els He Hj) as (f & F1 & F2).
      eexists _, f. split; [exact (stack3_nth R _ _ _ _ _ _ _ X1 Y1 Z1)|]. split.
      + apply (points_ok R coords d0 d1 d2 (vg_nel g) (vg_nunit g) e els Hc Hne He); auto. exact (proj1 (Forall_forall _ _) Hr els (nth_error_In _ _ Hj)).
      + split; [exact F2|]. now rewrite nth_error_map, F1.
  Qed.

  (** ... with mayavi, the cells consist of numbers of points; cell e * (subelements of an element) + j is subelement j of element e, its points are the nodes of the element and
      their values the values of the field there.  The cells are lines for curves and triangles for surfaces. *)
  Theorem C205_mayavi dim g el coords v fv kw : dim = 1 \/ dim = 2 -> drawn (S dim) g el -> coords <> [] -> length coords <= 3 -> Forall (rectangular (vg_nel g) (vg_nunit g)) coords ->
    real_field conn (vg_nel g) (vg_nunit g) v fv ->
    exists p ax0 ax1 ax2 vals, mayavi [g] dim (map (@concat R) coords) v kw = Ok p /\ my_axes R V p = [ax0; ax1; ax2] /\ my_values R V p = RArr (RealArr vals) /\
      length (my_cells R V p) = vg_nel g * length el /\
      forall e j els, e < vg_nel g -> nth_error el j = Some els ->
        exists cell, nth_error (my_cells R V p) (e * length el + j) = Some cell /\
          Forall2 (fun i n => exists x y z f, nth_error ax0 n = Some x /\ nth_error ax1 n = Some y /\ nth_error ax2 n = Some z /\ nth_error vals n = Some f /\
                               point_at coords e i [x; y; z] /\ at_node fv e i = Some f) els cell.
  Proof.
    intros Hdim Hdr Hne H3 Hc Hv. destruct (drawn_parts (S dim) g el Hdr) as ((ty & Hg) & Hk & Hr). destruct (real_resample R conn g v fv Hv) as (Hrs & Hfv).
    pose proof (padded_rect R _ _ _ Hc) as Hpr. pose proof (padded_length R coords Hne H3) as Hpl. destruct (padded R coords) as [|d0 [|d1 [|d2 [|? ?]]]] eqn:Hp; try discriminate.
    inversion Hpr as [|? ? P0 Hpr1]; subst. inversion Hpr1 as [|? ? P1 Hpr2]; subst. inversion Hpr2 as [|? ? P2 _]; subst.
    assert (Hok : exists p, mayavi [g] dim (map (@concat R) coords) v kw = Ok p /\ my_axes R V p = [concat d0; concat d1; concat d2] /\ my_values R V p = RArr (RealArr (concat fv)) /\ my_cells R V p = tris g el).
    { unfold show_scalar_in_mayavi, pop. rewrite Hrs. cbn [bind]. rewrite Hg. cbn [bind]. unfold get at 1. cbn [nth_error bind vc_conn]. rewrite connectivity_flat, (pad_ok R coords Hne), Hp. cbn [map bind length Nat.eqb guard].
      destruct Hdim as [-> | ->]; (rewrite (reshape_concat _ (tris g el) (Nat.lt_0_succ _) (tris_len g el _ Hk)); cbn [bind]; eexists; split; [reflexivity|]; now cbn). }
    destruct Hok as (p & Hok & Hax & Hvals & Hcells). exists p, (concat d0), (concat d1), (concat d2), (concat fv). rewrite Hcells. repeat (split; [assumption|]). split; [apply tris_length|].
    intros e j els He Hj. exists (map (fun i => e * vg_nunit g + i) els). split; [now apply tris_nth|]. pose proof (proj1 (Forall_forall _ _) Hr els (nth_error_In _ _ Hj)) as Hels.
    apply Forall2_intro_nth; [now rewrite map_length|]. intros k i n Hi Hn. rewrite nth_error_map, Hi in Hn. injection Hn as <-. pose proof (proj1 (Forall_forall _ _) Hels i (nth_error_In _ _ Hi)) as Hlt. cbn beta in Hlt.
    destruct (flat_nth _ _ d0 e i P0 He Hlt) as (E0 & x & X). destruct (flat_nth _ _ d1 e i P1 He Hlt) as (E1 & y & Y). destruct (flat_nth _ _ d2 e i P2 He Hlt) as (E2 & z & Z). destruct (flat_nth _ _ fv e i Hfv He Hlt) as (E3 & f & F).
    exists x, y, z, f. rewrite E0, E1, E2, E3. repeat (split; [assumption|]). split; [|assumption].
    pose proof (points_ok R coords d0 d1 d2 (vg_nel g) (vg_nunit g) e [i] Hc Hne He ltac:(constructor; [exact Hlt|constructor]) Hp [x] [y] [z]) as HP.
    assert (HP' : Forall2 (fun i p => point_at coords e i p) [i] [[x; y; z]]) by (apply HP; constructor; auto; constructor). now inversion HP'.
  Qed.

  (** what is refused: dimensions other than these, and fields with complex values with matplotlib *)
  Theorem C205_dimensions dim g el coords v fv kw : drawn (S dim) g el -> real_field conn (vg_nel g) (vg_nunit g) v fv ->
    (dim <> 2 -> matplotlib [g] dim coords v kw = Err RuntimeError) /\ (dim <> 1 -> dim <> 2 -> mayavi [g] dim coords v kw = Err RuntimeError).
  Proof.
    intros Hdr Hv. destruct (drawn_parts (S dim) g el Hdr) as ((ty & Hg) & _). destruct (real_resample R conn g v fv Hv) as (Hrs & _). split.
    - intros H2. unfold show_scalar_in_matplotlib_3d, pop. rewrite Hrs. cbn [bind]. rewrite Hg. cbn [bind]. apply Nat.eqb_neq in H2. rewrite H2. reflexivity.
    - intros H1 H2. unfold show_scalar_in_mayavi, pop. rewrite Hrs. cbn [bind]. rewrite Hg. cbn [bind]. unfold get at 1. cbn [nth_error bind]. destruct dim as [|[|[|dim]]]; [reflexivity|congruence|congruence|reflexivity].
  Qed.
  Theorem C205_complex groups dim coords v kw : (exists x y, v = VNum (ComplexNum x y)) \/ (exists d d', v = VDof d /\ conn d = Ok (ComplexDof d')) -> forall p, matplotlib groups dim coords v kw <> Ok p.
  Proof.
    intros H p. unfold show_scalar_in_matplotlib_3d, pop. destruct H as [(x & y & ->)|(d & d' & -> & Hd)]; [discriminate|]. cbn [resample]. rewrite Hd. cbn [bind]. destruct (check_vis _ _ _); discriminate.
  Qed.

  (** ** C206: with several groups, mayavi gets the cells of the first group only, and matplotlib refuses *)
  Theorem C206_first_group_only dim g el gs coords v kw p : dim = 1 \/ dim = 2 -> drawn (S dim) g el -> mayavi (g :: gs) dim coords v kw = Ok p -> my_cells R V p = tris g el.
  Proof.
    intros Hdim Hdr. destruct (drawn_parts (S dim) g el Hdr) as (_ & Hk & _). destruct Hdr as ((ty & Hcf) & Hel & Hun & _). unfold show_scalar_in_mayavi, pop. destruct (resample R conn (sizes (g :: gs)) v) as [r|]; [|discriminate]. cbn [bind].
    destruct (vis_groups conn_for (g :: gs)) as [vcs|] eqn:E; [|discriminate]. cbn [bind].
    assert (Hc : nth_error vcs 0 = Some (mk_vcgrp (gcells 0 g el) ty 0 (length el))).
    { unfold vis_groups in E. match type of E with context [foldM ?F _ _] => set (step := F) in E end. cbn [foldM] in E.
      assert (Hs : step ([], 0, 0) g = Ok ([mk_vcgrp (gcells 0 g el) ty 0 (length el)], 0 + vg_nel g * length el, 0 + vg_ndofs g)).
      { unfold step. rewrite Hcf. cbn [bind]. destruct (vg_nunit g =? 0) eqn:E0; [apply Nat.eqb_eq in E0; lia|]. cbn [negb guard bind].
        assert (Hm : match el with [] => [[]] | _ => el end = el) by (destruct el; [congruence|reflexivity]). rewrite Hm. unfold nsubelements. cbn [vc_conn vc_nsub app]. now rewrite map_length, seq_length. }
      rewrite Hs in E. cbn [bind] in E.
      assert (Hf : forall gs st st', foldM step gs st = Ok st' -> forall c, nth_error (fst (fst st)) 0 = Some c -> nth_error (fst (fst st')) 0 = Some c).
      { induction gs0 as [|g0 gs0 IH]; intros st st' H c Hc0; [injection H as <-; exact Hc0|]. cbn [foldM] in H. destruct (step st g0) as [st1|] eqn:E1; [|discriminate]. cbn [bind] in H. apply (IH _ _ H).
        destruct st as ((acc, sb), nb). unfold step in E1. destruct (conn_for g0) as [(el0, ty0)|]; [|discriminate]. cbn [bind] in E1. destruct (guard _ _); [|discriminate]. cbn [bind] in E1. injection E1 as <-. cbn [fst] in Hc0 |- *.
        rewrite nth_error_app1; [exact Hc0|]. apply nth_error_Some. congruence. }
      destruct (foldM step gs _) as [st'|] eqn:Ef; [|discriminate]. cbn [bind] in E. injection E as <-. exact (Hf _ _ _ Ef _ eq_refl). }
    unfold get at 1. rewrite Hc. cbn [bind vc_conn]. rewrite connectivity_flat.
    destruct Hdim as [-> | ->]; (destruct (pad R coords) as [axes|]; [|discriminate]; cbn [bind]; try (destruct (guard _ _); [|discriminate]; cbn [bind]);
      rewrite (reshape_concat _ (tris g el) (Nat.lt_0_succ _) (tris_len g el _ Hk)); cbn [bind]; intros H; injection H as <-; reflexivity).
  Qed.
  Theorem C206_matplotlib g1 g2 gs dim coords v kw p : matplotlib (g1 :: g2 :: gs) dim coords v kw <> Ok p.
  Proof.
    unfold show_scalar_in_matplotlib_3d, pop. destruct (resample _ _ _ _) as [r|]; [|discriminate]. cbn [bind]. destruct r as [[l|l]|l]; try discriminate. cbn [bind].
    destruct (vis_groups conn_for (g1 :: g2 :: gs)) as [vcs|] eqn:E; [|discriminate]. cbn [bind]. destruct vcs as [|c [|c' vcs]]; try discriminate. exfalso.
    unfold vis_groups in E. match type of E with context [foldM ?F _ _] => set (step := F) in E end.
    assert (Hf : forall gs st st', foldM step gs st = Ok st' -> length (fst (fst st')) = length (fst (fst st)) + length gs).
    { induction gs0 as [|g0 gs0 IH]; intros st st' H; [injection H as <-; cbn; lia|]. cbn [foldM] in H. destruct (step st g0) as [st1|] eqn:E1; [|discriminate]. cbn [bind] in H. rewrite (IH _ _ H).
      destruct st as ((acc, sb), nb). unfold step in E1. destruct (conn_for g0) as [(el0, ty0)|]; [|discriminate]. cbn [bind] in E1. destruct (guard _ _); [|discriminate]. cbn [bind] in E1. injection E1 as <-. cbn [fst length].
      rewrite app_length. cbn [length]. lia. }
    destruct (foldM step _ _) as [st'|] eqn:Ef; [|discriminate]. cbn [bind] in E. injection E as E. apply Hf in Ef. rewrite E in Ef. cbn [length fst] in Ef. lia.
  Qed.

  (** ** C208: keyword arguments.  mayavi gets all of them besides do_show (and scalars, for surfaces) *)
  Theorem C208_mayavi groups dim coords v kw p : mayavi groups dim coords v kw = Ok p ->
    (forall n x, In (n, x) kw -> n <> "do_show"%string -> n <> "scalars"%string -> In (n, x) (my_kwargs R V p)) /\
    (forall n x, In (n, x) (my_kwargs R V p) -> In (n, x) kw) /\
    (my_shown R V p = match kw_get V "do_show" kw with Some b => truthy b | None => true end).
  Proof.
    unfold show_scalar_in_mayavi, pop. destruct (resample _ _ _ _) as [r|]; [|discriminate]. cbn [bind]. destruct (vis_groups _ _) as [vcs|]; [|discriminate]. cbn [bind]. destruct (get vcs 0) as [c|]; [|discriminate]. cbn [bind].
    assert (Hd : forall m n x l, In (n, x) (kw_del V m l) <-> In (n, x) l /\ n <> m).
    { intros m n x l. unfold kw_del. rewrite filter_In. cbn [fst]. rewrite negb_true_iff, String.eqb_neq. reflexivity. }
    destruct dim as [|[|[|dim]]]; try discriminate; (destruct (pad R coords) as [axes|]; [|discriminate]; cbn [bind]; try (destruct (guard _ _); [|discriminate]; cbn [bind]); destruct (reshape _ _); [|discriminate]; cbn [bind]; intros H; injection H as <-; cbn [my_kwargs my_shown]; split; [|split; [|reflexivity]]).
    - intros n x Hin Hn _. now apply Hd.
    - intros n x Hin. now apply Hd in Hin.
    - intros n x Hin Hn Hn'. apply Hd. split; [now apply Hd|exact Hn'].
    - intros n x Hin. apply Hd in Hin as (Hin & _). now apply Hd in Hin.
  Qed.
  (** ... matplotlib's collection gets none; the limits and the norm of the colors are used *)
  Theorem C208_matplotlib groups dim coords v kw p : matplotlib groups dim coords v kw = Ok p ->
    mp_kwargs R V p = [] /\
    (mp_clim R V p = match kw_get V "vmin" kw, kw_get V "vmax" kw with None, None => None | a, b => Some (a, b) end) /\ mp_norm R V p = kw_get V "norm" kw /\
    (mp_shown R V p = match kw_get V "do_show" kw with Some b => truthy b | None => true end).
  Proof.
    assert (Hg : forall m n l, m <> n -> kw_get V n (kw_del V m l) = kw_get V n l).
    { intros m n l Hmn. unfold kw_get, kw_del. induction l as [|(a, b) l IH]; [reflexivity|]. cbn [filter fst]. destruct (String.eqb a m) eqn:Ea; cbn [negb find fst].
      - apply String.eqb_eq in Ea as ->. rewrite (proj2 (String.eqb_neq m n) Hmn). exact IH.
      - destruct (String.eqb a n); [reflexivity|exact IH]. }
    unfold show_scalar_in_matplotlib_3d, pop. destruct (resample _ _ _ _) as [r|]; [|discriminate]. cbn [bind]. destruct r as [[l|l]|l]; try discriminate. cbn [bind].
    destruct (vis_groups _ _) as [vcs|]; [|discriminate]. cbn [bind]. destruct vcs as [|c [|c' vcs]]; try discriminate. cbn [bind]. destruct (guard _ _); [|discriminate]. cbn [bind]. destruct (pad R coords) as [axes|]; [|discriminate]. cbn [bind].
    destruct (get axes 0) as [x|]; [|discriminate]. cbn [bind]. destruct (get axes 1) as [y|]; [|discriminate]. cbn [bind]. destruct (get axes 2) as [z|]; [|discriminate]. cbn [bind]. destruct (reshape _ _) as [t|]; [|discriminate]. cbn [bind].
    unfold triangulation. destruct (guard _ _); [|discriminate]. cbn [bind]. destruct (guard _ _); [|discriminate]. cbn [bind].
    destruct (mapM (take x) t); [|discriminate]. cbn [bind]. destruct (mapM (take y) t); [|discriminate]. cbn [bind]. destruct (mapM (take z) t); [|discriminate]. cbn [bind]. destruct (mapM (take l) t); [|discriminate]. cbn [bind].
    intros H. injection H as <-. cbn [mp_kwargs mp_clim mp_norm mp_shown]. rewrite !Hg by discriminate. repeat split. destruct (kw_get V "vmin" kw), (kw_get V "vmax" kw); reflexivity.
  Qed.
End Props.

(** ** Examples and counterexamples *)
Local Open Scope nat_scope.
Definition ex_conn (d : dofarray Zcring) : res (dofarray Zcring) := Ok d.
Definition ex_truthy (v : nat) : bool := negb (v =? 0).
(** the sum stands for the mean *)
Definition ex_mean (l : list Z) : Z := fold_right Z.add 0%Z l.
(** triangles of order 2 with four subelements, lines of order 2, and quadrilaterals of order 1 *)
Definition ex_conn_for (g : visgrp) : res (list (list nat) * nat) :=
  match vg_shape g with
  | Simplex 1 => Ok ([[0; 1]; [1; 2]], 3)
  | Simplex 2 => Ok ([[0; 1; 3]; [1; 2; 4]; [3; 4; 5]; [1; 4; 3]], 5)
  | Hypercube 2 => Ok ([[0; 1; 3; 2]], 9)
  | _ => Err KeyError
  end.
Definition ex_tri : visgrp := mk_visgrp true (Simplex 2) 2 2 6.
Definition ex_line : visgrp := mk_visgrp true (Simplex 1) 2 2 3.
Definition ex_quads (n : nat) : visgrp := mk_visgrp true (Hypercube 2) 1 n 4.
Definition ex_tri_coords : list (list (list Z)) := [[[0; 1; 2; 0; 1; 0]; [2; 1; 0; 2; 1; 2]]; [[0; 0; 0; 1; 1; 2]; [2; 2; 2; 1; 1; 0]]]%Z.
Definition ex_tri_field : list (list Z) := [[10; 11; 12; 13; 14; 15]; [20; 21; 22; 23; 24; 25]]%Z.
Definition ex_line_coords : list (list (list Z)) := [[[0; 1; 2]; [2; 3; 4]]]%Z.
Definition ex_line_field : list (list Z) := [[5; 6; 7]; [8; 9; 10]]%Z.
(** n unit squares next to each other *)
Definition ex_quad_coords (n : nat) : list (list (list Z)) := [map (fun e => [Z.of_nat e; Z.of_nat e + 1; Z.of_nat e; Z.of_nat e + 1]%Z) (seq 0 n); repeat [0; 0; 1; 1]%Z n].

Lemma ex_subelements (el : list (list nat)) (k n : nat) : forallb (fun els => (length els =? k) && forallb (fun i => i <? n) els) el = true -> Forall (fun els => length els = k /\ forall i, In i els -> i < n) el.
Proof.
  intros H. apply Forall_forall. intros els Hels. pose proof (proj1 (forallb_forall _ _) H els Hels) as H1. apply andb_true_iff in H1 as (H1 & H2). apply Nat.eqb_eq in H1. split; [exact H1|].
  intros i Hi. apply Nat.ltb_lt. exact (proj1 (forallb_forall _ _) H2 i Hi).
Qed.
Example C205_nonvacuous : drawn ex_conn_for 3 ex_tri [[0; 1; 3]; [1; 2; 4]; [3; 4; 5]; [1; 4; 3]] /\ Forall (rectangular 2 6) ex_tri_coords /\
  real_field (R := Zcring) ex_conn 2 6 (VDof (RealDof [ex_tri_field])) ex_tri_field /\
  drawn ex_conn_for 2 ex_line [[0; 1]; [1; 2]] /\ Forall (rectangular 2 3) ex_line_coords.
Proof.
  split; [|split; [|split; [|split]]].
  - split; [exists 5; reflexivity|]. split; [discriminate|]. split; [cbn; lia|now apply ex_subelements].
  - repeat constructor.
  - right. eexists. split; [reflexivity|]. split; [reflexivity|repeat constructor].
  - split; [exists 3; reflexivity|]. split; [discriminate|]. split; [cbn; lia|now apply ex_subelements].
  - repeat constructor.
Qed.
Example C205_example : option_map (fun p => (mp_verts Zcring nat p, mp_values Zcring nat p))
    (match show_scalar_in_matplotlib_3d Zcring ex_mean nat ex_truthy ex_conn_for ex_conn [ex_tri] 2 (map (@concat Z) ex_tri_coords) (VDof (RealDof [ex_tri_field])) [] with Ok p => Some p | Err _ => None end)
  = Some ([[[0; 0; 0]; [1; 0; 0]; [0; 1; 0]]; [[1; 0; 0]; [2; 0; 0]; [1; 1; 0]]; [[0; 1; 0]; [1; 1; 0]; [0; 2; 0]]; [[1; 0; 0]; [1; 1; 0]; [0; 1; 0]];
           [[2; 2; 0]; [1; 2; 0]; [2; 1; 0]]; [[1; 2; 0]; [0; 2; 0]; [1; 1; 0]]; [[2; 1; 0]; [1; 1; 0]; [2; 0; 0]]; [[1; 2; 0]; [1; 1; 0]; [2; 1; 0]]]%Z,
          [34; 37; 42; 38; 64; 67; 72; 68]%Z).
Proof. vm_compute. reflexivity. Qed.
Example C205_lines : show_scalar_in_mayavi Zcring nat ex_truthy ex_conn_for ex_conn [ex_line] 1 (map (@concat Z) ex_line_coords) (VDof (RealDof [ex_line_field])) [("do_show", 0); ("opacity", 7)]%string
  = Ok (mk_mayavi Zcring nat [[0; 1; 2; 2; 3; 4]; [0; 0; 0; 0; 0; 0]; [0; 0; 0; 0; 0; 0]]%Z [[0; 1]; [1; 2]; [3; 4]; [4; 5]] (RArr (RealArr [5; 6; 7; 8; 9; 10]%Z)) [("opacity"%string, 7)] false).
Proof. vm_compute. reflexivity. Qed.

(** C206: a picture of two groups of triangles with mayavi contains no triangle of the second group, whose nodes are 12 to 23; matplotlib raises an error *)
Theorem C206_groups_refuted : exists p,
  show_scalar_in_mayavi Zcring nat ex_truthy ex_conn_for ex_conn [ex_tri; ex_tri] 2 (map (fun d => concat d ++ concat d) ex_tri_coords) (VDof (RealDof [ex_tri_field; ex_tri_field])) [] = Ok p /\
  length (my_cells Zcring nat p) = 8 /\ Forall (Forall (fun i => i < 12)) (my_cells Zcring nat p) /\ map (@length Z) (my_axes Zcring nat p) = [24; 24; 24] /\
  show_scalar_in_matplotlib_3d Zcring ex_mean nat ex_truthy ex_conn_for ex_conn [ex_tri; ex_tri] 2 (map (fun d => concat d ++ concat d) ex_tri_coords) (VDof (RealDof [ex_tri_field; ex_tri_field])) [] = Err ValueError.
Proof. eexists. split; [vm_compute; reflexivity|]. vm_compute. repeat split; repeat constructor. Qed.

(** C207: pictures of quadrilaterals.  Three unit squares next to each other become four triangles, one of them with corners of two squares, and the upper left half of the first square is
    missing; two squares raise an error. *)
Theorem C207_quadrilaterals_refuted : exists p,
  show_scalar_in_matplotlib_3d Zcring ex_mean nat ex_truthy ex_conn_for ex_conn [ex_quads 3] 2 (map (@concat Z) (ex_quad_coords 3)) (VNum (RealNum 1%Z)) [] = Ok p /\
  mp_verts Zcring nat p = [[[0; 0; 0]; [1; 0; 0]; [1; 1; 0]]; [[0; 1; 0]; [1; 0; 0]; [2; 0; 0]]; [[2; 1; 0]; [1; 1; 0]; [2; 0; 0]]; [[3; 0; 0]; [3; 1; 0]; [2; 1; 0]]]%Z /\
  (exists q, show_scalar_in_mayavi Zcring nat ex_truthy ex_conn_for ex_conn [ex_quads 3] 2 (map (@concat Z) (ex_quad_coords 3)) (VNum (RealNum 1%Z)) [] = Ok q /\
     my_cells Zcring nat q = [[0; 1; 3]; [2; 4; 5]; [7; 6; 8]; [9; 11; 10]]) /\
  show_scalar_in_matplotlib_3d Zcring ex_mean nat ex_truthy ex_conn_for ex_conn [ex_quads 2] 2 (map (@concat Z) (ex_quad_coords 2)) (VNum (RealNum 1%Z)) [] = Err ValueError /\
  show_scalar_in_mayavi Zcring nat ex_truthy ex_conn_for ex_conn [ex_quads 2] 2 (map (@concat Z) (ex_quad_coords 2)) (VNum (RealNum 1%Z)) [] = Err ValueError.
Proof. eexists. split; [vm_compute; reflexivity|]. split; [reflexivity|]. split; [eexists; split; vm_compute; reflexivity|]. split; vm_compute; reflexivity. Qed.
Example C207_hypotheses : drawn ex_conn_for 4 (ex_quads 3) [[0; 1; 3; 2]] /\ Forall (rectangular 3 4) (ex_quad_coords 3).
Proof.
  split; [|repeat constructor]. split; [exists 9; reflexivity|]. split; [discriminate|]. split; [cbn; lia|now apply ex_subelements].
Qed.

(** C208: the keyword argument alpha does not reach matplotlib *)
Theorem C208_matplotlib_kwargs_refuted : exists p,
  show_scalar_in_matplotlib_3d Zcring ex_mean nat ex_truthy ex_conn_for ex_conn [ex_tri] 2 (map (@concat Z) ex_tri_coords) (VDof (RealDof [ex_tri_field])) [("alpha", 3); ("vmin", 4)]%string = Ok p /\
  ~ In ("alpha"%string, 3) (mp_kwargs Zcring nat p) /\ mp_clim Zcring nat p = Some (Some 4, None).
Proof. eexists. split; [vm_compute; reflexivity|]. split; [intros []|reflexivity]. Qed.

Print Assumptions C205_matplotlib. Print Assumptions C205_mayavi. Print Assumptions C205_dimensions. Print Assumptions C205_complex.
Print Assumptions C206_first_group_only. Print Assumptions C206_matplotlib. Print Assumptions C206_groups_refuted. Print Assumptions C207_quadrilaterals_refuted.
Print Assumptions C208_mayavi. Print Assumptions C208_matplotlib. Print Assumptions C208_matplotlib_kwargs_refuted.
