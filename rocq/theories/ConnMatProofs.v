(** * ConnMatProofs: the matrix of a connection *)
From Coq Require Import List Arith Bool ZArith Lia.
From Verif Require Import Np NpFacts MeshSpec MeshProofs PointProofs SplitProofs FlipProofs Lin ConnModel ConnSpec ConnProofs.
Import ListNotations.

Lemma pos_unique a b n i j : i < n -> j < n -> a * n + i = b * n + j -> a = b /\ i = j.
Proof.
  intros Hi Hj H. apply (Nat.div_mod_unique n a b i j Hi Hj). lia.
Qed.
Lemma pos_bound t n i nel : t < nel -> i < n -> t * n + i < nel * n.
Proof. intros Ht Hi. pose proof (Nat.mul_le_mono_r (S t) nel n Ht). cbn [Nat.mul] in H. lia. Qed.
Lemma In_grid r c i j : In (i, j) (grid r c) <-> i < r /\ j < c.
Proof.
  unfold grid. rewrite in_flat_map. split.
  - intros (x & Hx & Hin). apply in_map_iff in Hin. destruct Hin as (y & E & Hy). injection E as -> ->. apply in_seq in Hx, Hy. lia.
  - intros (Hi & Hj). exists i. split; [apply in_seq; lia|]. apply in_map_iff. exists j. split; [reflexivity|apply in_seq; lia].
Qed.
Lemma nth_error_concat_uniform {A} (rows : list (list A)) n t row i : Forall (fun r => length r = n) rows -> nth_error rows t = Some row -> i < n ->
  nth_error (concat rows) (t * n + i) = nth_error row i.
Proof.
  intros H. revert t. induction H as [|r rows Hr H IH]; intros [|t] Ht Hi; try discriminate; cbn [nth_error] in Ht; cbn [concat].
  - injection Ht as ->. rewrite nth_error_app1 by (cbn; lia). reflexivity.
  - rewrite nth_error_app2 by (cbn [Nat.mul]; lia). rewrite <- (IH t Ht Hi). f_equal. cbn [Nat.mul]. lia.
Qed.
Lemma concat_uniform_length {A} (rows : list (list A)) n : Forall (fun r => length r = n) rows -> length (concat rows) = length rows * n.
Proof. induction 1 as [|r rows Hr H IH]; [reflexivity|]. cbn [concat length Nat.mul]. rewrite app_length. lia. Qed.

Section Matrix.
  Context {R : cring} {N K : Type}.
  Variable rmat : K -> N -> list (list R).
  Variable rpick : K -> N -> option (list nat).
  Notation batch := (@batch N).
  Notation conn := (@conn N K).
  Notation dgroup := (@dgroup K).
  Notation contributes := (contributes rmat rpick).
  Add Ring Rring : (rth R).

  Lemma dot_nil_l (v : list R) : dot [] v = r0.
  Proof. reflexivity. Qed.
  Lemma dot_app (a b p q : list R) : length a = length p -> dot (a ++ b) (p ++ q) = radd (dot a p) (dot b q).
  Proof.
    revert p. induction a as [|x a IH]; intros [|y p] H; try discriminate; cbn [app].
    - rewrite dot_nil_l. ring.
    - injection H as H. rewrite !dot_cons, IH by exact H. ring.
  Qed.
  Lemma dot_pad (m p x q : list R) a c : length p = a -> length m = length x -> dot (zeros a ++ m ++ zeros c) (p ++ x ++ q) = dot m x.
  Proof.
    intros Hp Hm. rewrite dot_app by (rewrite zeros_length; congruence). rewrite dot_app by exact Hm. rewrite !dot_zeros. ring.
  Qed.

  Lemma batch_matrix_ok nt ns tb sb ndt nds (m : list (list R)) (b : batch) nelt nels :
    is_mat ndt nds m -> length (bt_from b) = length (bt_to b) -> NoDup (bt_to b) -> Forall (fun t => t < nelt) (bt_to b) -> Forall (fun s => s < nels) (bt_from b) ->
    tb + nelt * ndt <= nt -> sb + nels * nds <= ns ->
    exists M, batch_matrix R nt ns tb sb ndt nds m b = Ok M /\ is_mat nt ns M /\
      forall r row, nth_error M r = Some row ->
        (forall t s i mi, In (t, s) (combine (bt_to b) (bt_from b)) -> nth_error m i = Some mi -> r = tb + t * ndt + i ->
           row = zeros (sb + s * nds) ++ mi ++ zeros (ns - (sb + s * nds) - nds)) /\
        ((forall t i, In t (bt_to b) -> i < ndt -> r <> tb + t * ndt + i) -> row = zeros ns).
  Proof.
    intros (Hml & Hmr) Hl Hnd Hto Hfrom Htb Hsb. unfold batch_matrix.
    rewrite (proj2 (Nat.eqb_eq _ _)) by congruence. cbn [guard bind].
    match goal with |- context [mapM ?f (combine _ _)] => set (f1 := f) end.
    assert (Hent : forall i j, i < ndt -> j < nds -> exists row v, nth_error m i = Some row /\ nth_error row j = Some v).
    { intros i j Hi Hj. destruct (nth_error m i) as [row|] eqn:E; [|apply nth_error_None in E; lia].
      assert (Hrl : length row = nds) by (rewrite Forall_forall in Hmr; apply Hmr; eapply nth_error_In; eauto).
      destruct (nth_error row j) as [v|] eqn:Ev; [|apply nth_error_None in Ev; lia]. eauto. }
    assert (Hbt : forall t i, t < nelt -> i < ndt -> tb + t * ndt + i < nt) by (intros t i Ht Hi; pose proof (pos_bound t ndt i nelt Ht Hi); lia).
    assert (Hbs : forall s j, s < nels -> j < nds -> sb + s * nds + j < ns) by (intros s j Hs Hj; pose proof (pos_bound s nds j nels Hs Hj); lia).
    assert (Hf1 : forall t s, t < nelt -> s < nels -> exists ws, f1 (t, s) = Ok ws /\
      forall k v, In (k, v) ws <-> exists i j row, i < ndt /\ j < nds /\ nth_error m i = Some row /\ nth_error row j = Some v /\ k = (tb + t * ndt + i) * ns + (sb + s * nds + j)).
    { intros t s Ht Hs. unfold f1. cbn [fst snd].
      match goal with |- context [mapM ?f (grid _ _)] => set (f2 := f) end.
      assert (Hf2 : forall i j, i < ndt -> j < nds -> exists row v, nth_error m i = Some row /\ nth_error row j = Some v /\ f2 (i, j) = Ok ((tb + t * ndt + i) * ns + (sb + s * nds + j), v)).
      { intros i j Hi Hj. destruct (Hent i j Hi Hj) as (row & v & Hrow & Hv). exists row, v. split; [exact Hrow|]. split; [exact Hv|]. unfold f2.
        rewrite (proj2 (get_ok _ _ _) Hrow). cbn [bind]. rewrite (proj2 (get_ok _ _ _) Hv). cbn [bind].
        rewrite (proj2 (Nat.ltb_lt _ _) (Hbt t i Ht Hi)), (proj2 (Nat.ltb_lt _ _) (Hbs s j Hs Hj)). reflexivity. }
      destruct (mapM_total f2 (grid ndt nds)) as (ws & Hws).
      { intros (i, j) Hin. apply (proj1 (In_grid _ _ _ _)) in Hin. destruct (Hf2 i j) as (row & v & _ & _ & H); [tauto..|]. eauto. }
      rewrite Hws. cbn [bind]. exists ws. split; [reflexivity|]. apply mapM_ok in Hws. intros k v. split.
      - intros Hin. apply In_nth_error in Hin. destruct Hin as (p & Hp). destruct (Forall2_nth_error_r _ _ _ _ _ Hws Hp) as ((i, j) & Hij & Hr).
        apply nth_error_In in Hij. apply (proj1 (In_grid _ _ _ _)) in Hij. destruct Hij as (Hi & Hj). destruct (Hf2 i j Hi Hj) as (row & v' & Hrow & Hv & Hr').
        rewrite Hr' in Hr. injection Hr as <- <-. exists i, j, row. auto.
      - intros (i & j & row & Hi & Hj & Hrow & Hv & ->). assert (Hin : In (i, j) (grid ndt nds)) by now apply In_grid.
        apply In_nth_error in Hin. destruct Hin as (p & Hp). destruct (Forall2_nth_error _ _ _ _ _ Hws Hp) as (w & Hw & Hr).
        destruct (Hf2 i j Hi Hj) as (row' & v' & Hrow' & Hv' & Hr'). assert (row' = row) by congruence. subst row'. assert (v' = v) by congruence. subst v'.
        rewrite Hr' in Hr. injection Hr as <-. eapply nth_error_In; eauto. }
    assert (Hrange : forall t s, In (t, s) (combine (bt_to b) (bt_from b)) -> t < nelt /\ s < nels).
    { intros t s Hin. rewrite Forall_forall in Hto, Hfrom. split; [apply Hto; eapply in_combine_l; eauto|apply Hfrom; eapply in_combine_r; eauto]. }
    destruct (mapM_total f1 (combine (bt_to b) (bt_from b))) as (writes & Hwrites).
    { intros (t, s) Hin. destruct (Hrange t s Hin) as (Ht & Hs). destruct (Hf1 t s Ht Hs) as (ws & H & _). eauto. }
    rewrite Hwrites. cbn [bind]. apply mapM_ok in Hwrites.
    assert (Hw : forall k v, In (k, v) (concat writes) <-> exists t s i j row, In (t, s) (combine (bt_to b) (bt_from b)) /\ i < ndt /\ j < nds /\
        nth_error m i = Some row /\ nth_error row j = Some v /\ k = (tb + t * ndt + i) * ns + (sb + s * nds + j)).
    { intros k v. rewrite in_concat. split.
      - intros (ws & Hws & Hin). apply In_nth_error in Hws. destruct Hws as (p & Hp). destruct (Forall2_nth_error_r _ _ _ _ _ Hwrites Hp) as ((t, s) & Hts & Hr).
        apply nth_error_In in Hts. destruct (Hrange t s Hts) as (Ht & Hs). destruct (Hf1 t s Ht Hs) as (ws' & Hr' & Hspec).
        assert (ws' = ws) by congruence. subst ws'. apply (proj1 (Hspec k v)) in Hin. destruct Hin as (i & j & row & H). exists t, s, i, j, row. tauto.
      - intros (t & s & i & j & row & Hts & Hi & Hj & Hrow & Hv & ->). destruct (Hrange t s Hts) as (Ht & Hs). destruct (Hf1 t s Ht Hs) as (ws & Hr & Hspec).
        apply In_nth_error in Hts. destruct Hts as (p & Hp). destruct (Forall2_nth_error _ _ _ _ _ Hwrites Hp) as (ws' & Hws' & Hr').
        assert (ws' = ws) by congruence. subst ws'. exists ws. split; [eapply nth_error_In; eauto|]. apply (proj2 (Hspec _ v)). exists i, j, row. auto. }
    destruct (proj2 (scatter_ok_range (concat writes) (repeat (@r0 R) (nt * ns)))) as (flat & Hflat).
    { rewrite repeat_length. apply Forall_forall. intros (k, v) Hin. apply (proj1 (Hw k v)) in Hin.
      destruct Hin as (t & s & i & j & row & Hts & Hi & Hj & _ & _ & ->). destruct (Hrange t s Hts) as (Ht & Hs). cbn [fst].
      apply pos_bound; auto. }
    rewrite Hflat. cbn [bind]. eexists. split; [reflexivity|].
    assert (Hfl : length flat = nt * ns) by (rewrite (scatter_length _ _ _ Hflat); apply repeat_length).
    assert (Hrowlen : forall r, r < nt -> length (slice flat (r * ns) (r * ns + ns)) = ns).
    { intros r Hr. rewrite slice_length; [lia|]. rewrite Hfl. pose proof (Nat.mul_le_mono_r (S r) nt ns Hr). cbn [Nat.mul] in H. lia. }
    assert (Hcell : forall r col, r < nt -> col < ns -> nth_error (slice flat (r * ns) (r * ns + ns)) col = nth_error flat (r * ns + col)).
    { intros r col Hr Hc. rewrite nth_error_slice. now rewrite (proj2 (Nat.ltb_lt _ _)) by lia. }
    split.
    - split; [now rewrite map_length, seq_length|]. apply Forall_forall. intros row Hin. apply in_map_iff in Hin. destruct Hin as (r & <- & Hr). apply in_seq in Hr. apply Hrowlen. lia.
    - intros r row Hr. rewrite nth_error_map in Hr. destruct (nth_error (seq 0 nt) r) as [r'|] eqn:Er; [|discriminate].
      cbn [option_map] in Hr. injection Hr as <-.
      assert (Hrlt : r < nt) by (rewrite <- (seq_length nt 0); apply nth_error_Some; congruence).
      assert (r' = r) by (rewrite (nth_error_nth' (seq 0 nt) 0) in Er by (rewrite seq_length; lia); rewrite seq_nth in Er by lia; cbn [Nat.add] in Er; congruence). subst r'.
      split.
      + intros t s i mi Hts Hmi Hr. destruct (Hrange t s Hts) as (Ht & Hs).
        assert (Hi : i < ndt) by (rewrite <- Hml; apply nth_error_Some; congruence).
        assert (Hmil : length mi = nds) by (rewrite Forall_forall in Hmr; apply Hmr; eapply nth_error_In; eauto).
        assert (Hns : sb + s * nds + nds <= ns). { pose proof (Nat.mul_le_mono_r (S s) nels nds Hs). cbn [Nat.mul] in H. lia. }
        (* entries written in this row *)
        assert (Hkey : forall col v, col < ns -> In (r * ns + col, v) (concat writes) <-> exists j, j < nds /\ col = sb + s * nds + j /\ nth_error mi j = Some v).
        { intros col v Hc. rewrite Hw. split.
          - intros (t' & s' & i' & j & row & Hts' & Hi' & Hj & Hrow & Hv & E). destruct (Hrange t' s' Hts') as (Ht' & Hs').
            apply pos_unique in E; [|exact Hc|now apply Hbs]. destruct E as (E1 & E2). rewrite Hr in E1.
            assert (E1' : t * ndt + i = t' * ndt + i') by lia. apply pos_unique in E1'; [|exact Hi|exact Hi']. destruct E1' as (-> & ->).
            assert (s' = s).
            { clear -Hnd Hl Hts Hts'. apply In_nth_error in Hts, Hts'. destruct Hts as (p & Hp), Hts' as (p' & Hp').
              apply nth_error_combine_Some in Hp, Hp'. destruct Hp as (Hp1 & Hp2), Hp' as (Hp1' & Hp2').
              assert (p = p'). { apply (proj1 (NoDup_nth_error _) Hnd); [apply nth_error_Some; congruence|congruence]. } subst. congruence. }
            subst s'. exists j. split; [exact Hj|]. split; [exact E2|]. congruence.
          - intros (j & Hj & -> & Hv). exists t, s, i, j, mi. rewrite Hr. repeat split; assumption. }
        apply nth_error_ext'. intros col. destruct (Nat.lt_ge_cases col ns) as [Hc|Hc].
        2:{ rewrite (proj2 (nth_error_None _ col)) by (rewrite Hrowlen; assumption). symmetry. apply nth_error_None.
            rewrite !app_length, !zeros_length. lia. }
        rewrite Hcell by assumption.
        destruct (scatter_cases _ _ _ (r * ns + col) Hflat) as [(Hnin & E)|(v & Hin & E)]; rewrite E.
        * assert (Hin0 : r * ns + col < nt * ns) by now apply pos_bound.
          rewrite (nth_error_repeat (@r0 R) Hin0). symmetry.
          destruct (Nat.lt_ge_cases col (sb + s * nds)) as [H1|H1].
          { rewrite nth_error_app1 by now rewrite zeros_length. unfold zeros. now apply nth_error_repeat. }
          rewrite nth_error_app2 by now rewrite zeros_length. rewrite zeros_length.
          destruct (Nat.lt_ge_cases (col - (sb + s * nds)) nds) as [H2|H2].
          { exfalso. destruct (nth_error mi (col - (sb + s * nds))) as [v|] eqn:Ev; [|apply nth_error_None in Ev; lia].
            apply Hnin. apply in_map_iff. exists (r * ns + col, v). split; [reflexivity|]. apply (Hkey col v Hc). exists (col - (sb + s * nds)). split; [exact H2|]. split; [lia|exact Ev]. }
          rewrite nth_error_app2 by lia. unfold zeros. apply nth_error_repeat. lia.
        * apply (Hkey col v Hc) in Hin. destruct Hin as (j & Hj & -> & Hv). symmetry.
          rewrite nth_error_app2 by (rewrite zeros_length; lia). rewrite zeros_length.
          replace (sb + s * nds + j - (sb + s * nds)) with j by lia. rewrite nth_error_app1 by lia. exact Hv.
      + intros Hno. apply nth_error_ext'. intros col. destruct (Nat.lt_ge_cases col ns) as [Hc|Hc].
        2:{ rewrite (proj2 (nth_error_None _ col)) by (rewrite Hrowlen; assumption). symmetry. apply nth_error_None. now rewrite zeros_length. }
        rewrite Hcell by assumption.
        destruct (scatter_cases _ _ _ (r * ns + col) Hflat) as [(Hnin & E)|(v & Hin & E)]; rewrite E.
        * unfold zeros. rewrite nth_error_repeat by (now apply pos_bound). symmetry. now apply nth_error_repeat.
        * exfalso. apply (proj1 (Hw _ v)) in Hin. destruct Hin as (t & s & i & j & row & Hts & Hi & Hj & _ & _ & E').
          destruct (Hrange t s Hts) as (Ht & Hs). apply pos_unique in E'; [|exact Hc|now apply Hbs]. destruct E' as (E' & _).
          apply (Hno t i); [eapply in_combine_l; eauto|exact Hi|exact E'].
  Qed.

  Definition gsize (g : dgroup) : nat := dg_nel g * dg_ndof g.
  Notation flat := (fun ary : list (list (list R)) => concat (concat ary)).

  Lemma on_discr_length (gs : list dgroup) (ary : list (list (list R))) : on_discr gs ary -> length (concat (concat ary)) = ndofs gs.
  Proof.
    unfold ndofs. induction 1 as [|g rows gs ary (Hl & Hr) H IH]; [reflexivity|]. cbn [concat map]. rewrite concat_app, app_length, IH.
    rewrite (concat_uniform_length _ _ Hr), Hl. unfold sum. cbn [fold_right]. reflexivity.
  Qed.

  Lemma flat_split (gs : list dgroup) (ary : list (list (list R))) g gr src s x : on_discr gs ary ->
    nth_error gs g = Some gr -> nth_error ary g = Some src -> nth_error src s = Some x ->
    exists p q, concat (concat ary) = p ++ x ++ q /\ length p = base (map gsize gs) g + s * dg_ndof gr.
  Proof.
    intros Hd Hg Hsrc Hx.
    assert (Hu : Forall (fun row => length row = dg_ndof gr) src) by (eapply Forall2_nth_error in Hd; [|exact Hg]; destruct Hd as (src' & Hs' & _ & H); congruence).
    apply nth_error_split in Hx. destruct Hx as (s1 & s2 & -> & Hs1).
    apply Forall_app in Hu. destruct Hu as (Hu & _).
    exists (concat (concat (firstn g ary)) ++ concat s1), (concat s2 ++ concat (concat (skipn (S g) ary))). split.
    - assert (E : ary = firstn g ary ++ (s1 ++ x :: s2) :: skipn (S g) ary).
      { clear -Hsrc. revert g Hsrc. induction ary as [|a ary IH]; intros [|g] H; try discriminate; cbn [nth_error] in H.
        - injection H as ->. reflexivity.
        - cbn [firstn skipn app]. f_equal. now apply IH. }
      rewrite E at 1. rewrite concat_app, concat_cons, !concat_app, concat_cons, <- !app_assoc. reflexivity.
    - rewrite app_length, (concat_uniform_length _ _ Hu), Hs1. f_equal. unfold base.
      clear -Hd. revert g. induction Hd as [|g0 rows gs ary (Hl & Hr) H IH]; intros [|g]; [reflexivity..|]. cbn [firstn map concat].
      rewrite concat_app, app_length, (concat_uniform_length _ _ Hr), Hl, IH. unfold sum. cbn [fold_right]. reflexivity.
  Qed.

  Lemma base_le sizes g n : nth_error sizes g = Some n -> base sizes g + n <= sum sizes.
  Proof.
    intros H. unfold base. revert sizes H. induction g as [|g IH]; intros [|m sizes] H; try discriminate; cbn [nth_error] in H.
    - injection H as ->. unfold sum. cbn [firstn fold_right]. lia.
    - specialize (IH _ H). unfold sum in *. cbn [firstn fold_right]. lia.
  Qed.

  Lemma starts_nth sizes g n : nth_error sizes g = Some n -> nth_error (0 :: cumsum sizes) g = Some (base sizes g).
  Proof.
    intros H. assert (Hg : g < length sizes) by (apply nth_error_Some; congruence).
    destruct g as [|g]; [reflexivity|]. cbn [nth_error]. unfold cumsum. rewrite cumsum_from_nth by lia. reflexivity.
  Qed.

  (** Hypotheses on one batch *)
  Definition mat_ok (from : list dgroup) (tg : dgroup) (b : batch) : Prop :=
    NoDup (bt_to b) /\ forall g, nth_error from (bt_fgrp b) = Some g ->
        is_mat (dg_ndof tg) (dg_ndof g) (rmat (dg_kind g) (bt_nodes b)) /\
        forall ix x, rpick (dg_kind g) (bt_nodes b) = Some ix -> length x = dg_ndof g ->
          Forall2 (fun i v => nth_error x i = Some v) ix (matvec (rmat (dg_kind g) (bt_nodes b)) x).

  Definition rows_of (from : list dgroup) ary (tg : dgroup) (bs : list batch) (rows : list (list R)) : Prop :=
    length rows = dg_nel tg /\ forall t row, nth_error rows t = Some row -> sums rmat rpick from ary (dg_ndof tg) bs t row.

  Lemma batch_apply from (tg : dgroup) ary (b : batch) nt tb : on_discr from ary -> batch_ok rmat rpick from tg b -> mat_ok from tg b ->
    tb + gsize tg <= nt ->
    exists g M, nth_error from (bt_fgrp b) = Some g /\
      batch_matrix R nt (ndofs from) tb (base (map gsize from) (bt_fgrp b)) (dg_ndof tg) (dg_ndof g) (rmat (dg_kind g) (bt_nodes b)) b = Ok M /\
      is_mat nt (ndofs from) M /\
      forall rows, length rows = dg_nel tg -> (forall t row, nth_error rows t = Some row -> contributes from ary (dg_ndof tg) t b row) ->
        matvec M (flat ary) = zeros tb ++ concat rows ++ zeros (nt - tb - gsize tg).
  Proof.
    intros Hary Hok (Hnd & Hmat) Hnt. pose proof Hok as (Hl & Hto & g & Hg & Hfrom & _). destruct (Hmat g Hg) as (Hm & Hpick). exists g.
    destruct (batch_matrix_ok nt (ndofs from) tb (base (map gsize from) (bt_fgrp b)) (dg_ndof tg) (dg_ndof g) _ b (dg_nel tg) (dg_nel g) Hm Hl Hnd Hto Hfrom Hnt) as (M & HM & HMm & HMr).
    { apply base_le. rewrite nth_error_map, Hg. reflexivity. }
    exists M. split; [exact Hg|]. split; [exact HM|]. split; [exact HMm|].
    intros rows Hrl Hrows.
    assert (Hrows' : forall t row, nth_error rows t = Some row -> length row = dg_ndof tg).
    { intros t row Ht. eapply contributes_length; eauto. }
    assert (Hu : Forall (fun row => length row = dg_ndof tg) rows).
    { apply Forall_forall. intros row Hin. apply In_nth_error in Hin. destruct Hin as (t & Ht). eauto. }
    apply nth_error_ext'. intros r. unfold matvec at 1. rewrite nth_error_map.
    assert (Hlen : length (zeros tb ++ concat rows ++ zeros (R := R) (nt - tb - gsize tg)) = nt).
    { rewrite !app_length, !zeros_length, (concat_uniform_length _ _ Hu), Hrl. unfold gsize in *. lia. }
    destruct HMm as (HMl & _). destruct (nth_error M r) as [row|] eqn:Er.
    2:{ cbn [option_map]. symmetry. apply nth_error_None. apply nth_error_None in Er. lia. }
    assert (Hrlt : r < nt) by (rewrite <- HMl; apply nth_error_Some; congruence).
    cbn [option_map]. symmetry. destruct (HMr r row Er) as (Hin & Hout).
    destruct (Nat.lt_ge_cases r tb) as [H1|H1].
    { rewrite nth_error_app1 by now rewrite zeros_length. unfold zeros. rewrite nth_error_repeat by exact H1.
      rewrite Hout; [now rewrite dot_zeros|]. intros t i _ _. lia. }
    rewrite nth_error_app2 by now rewrite zeros_length. rewrite zeros_length.
    destruct (Nat.lt_ge_cases (r - tb) (gsize tg)) as [H2|H2].
    2:{ rewrite nth_error_app2 by (rewrite (concat_uniform_length _ _ Hu), Hrl; exact H2). unfold zeros.
        rewrite nth_error_repeat by (rewrite (concat_uniform_length _ _ Hu), Hrl; unfold gsize in *; lia).
        rewrite Hout; [now rewrite dot_zeros|]. intros t i Ht Hi E. rewrite Forall_forall in Hto. pose proof (pos_bound t (dg_ndof tg) i (dg_nel tg) (Hto _ Ht) Hi). unfold gsize in *. lia. }
    rewrite nth_error_app1 by (rewrite (concat_uniform_length _ _ Hu), Hrl; exact H2).
    assert (Hnd0 : dg_ndof tg <> 0) by (unfold gsize in H2; intros E; rewrite E, Nat.mul_0_r in H2; lia).
    set (t := (r - tb) / dg_ndof tg). set (i := (r - tb) mod dg_ndof tg).
    assert (Hri : r - tb = t * dg_ndof tg + i) by (unfold t, i; rewrite Nat.mul_comm; apply Nat.div_mod; exact Hnd0).
    assert (Hi : i < dg_ndof tg) by now apply Nat.mod_upper_bound.
    assert (Ht : t < dg_nel tg). { unfold t. apply Nat.div_lt_upper_bound; [exact Hnd0|]. unfold gsize in H2. lia. }
    rewrite Hri. destruct (nth_error rows t) as [c|] eqn:Ec; [|apply nth_error_None in Ec; lia].
    rewrite (nth_error_concat_uniform _ _ _ _ _ Hu Ec Hi).
    destruct (Hrows t c Ec) as [(g' & s & src & x & Hg' & (j & Hjt & Hjs & _) & Hsrc & Hx & Hc)|(Hno & ->)].
    - assert (g' = g) by congruence. subst g'.
      assert (Hxl : length x = dg_ndof g).
      { eapply Forall2_nth_error in Hary; [|exact Hg]. destruct Hary as (src' & Hs' & _ & Hf). assert (src' = src) by congruence. subst. rewrite Forall_forall in Hf. apply Hf. eapply nth_error_In; eauto. }
      assert (Hc' : c = matvec (rmat (dg_kind g) (bt_nodes b)) x).
      { destruct (rpick (dg_kind g) (bt_nodes b)) as [ix|] eqn:Ep; [|exact Hc]. specialize (Hpick ix x eq_refl Hxl). clear -Hc Hpick.
        revert Hpick. generalize (matvec (rmat (dg_kind g) (bt_nodes b)) x) as d. induction Hc as [|k v ix c Hk Hc IH]; intros d H; inversion H; subst; [reflexivity|]. f_equal; [congruence|auto]. }
      assert (Hts : In (t, s) (combine (bt_to b) (bt_from b))) by (eapply nth_error_In; apply nth_error_combine'; eauto).
      destruct Hm as (Hml & Hmr). destruct (nth_error (rmat (dg_kind g) (bt_nodes b)) i) as [mi|] eqn:Emi; [|apply nth_error_None in Emi; lia].
      rewrite (Hin t s i mi Hts Emi) by lia. destruct (flat_split _ _ _ _ _ _ _ Hary Hg Hsrc Hx) as (p & q & Ef & Hp). rewrite Ef.
      rewrite dot_pad; [|exact Hp|]. 2:{ rewrite Hxl. rewrite Forall_forall in Hmr. apply Hmr. eapply nth_error_In; eauto. }
      rewrite Hc'. unfold matvec. rewrite nth_error_map, Emi. reflexivity.
    - rewrite Hout.
      + rewrite dot_zeros. unfold zeros. now apply nth_error_repeat.
      + intros t' i' Ht' Hi' E. assert (E' : t * dg_ndof tg + i = t' * dg_ndof tg + i') by lia. apply pos_unique in E'; [|exact Hi|exact Hi']. destruct E' as (-> & _). contradiction.
  Qed.

  Lemma vadd_app (a b c d : list R) : length a = length c -> vadd (a ++ b) (c ++ d) = vadd a c ++ vadd b d.
  Proof.
    unfold vadd. revert c. induction a as [|x a IH]; intros [|y c] H; try discriminate; cbn [app map2]; [reflexivity|]. f_equal. apply IH. now injection H.
  Qed.
  Lemma zeros_app m n : zeros (R := R) (m + n) = zeros m ++ zeros n.
  Proof. apply repeat_app. Qed.
  Lemma concat_madd nd (a b : list (list R)) : length a = length b -> Forall (fun r => length r = nd) a -> Forall (fun r => length r = nd) b ->
    concat (madd R a b) = vadd (concat a) (concat b).
  Proof.
    intros Hl Ha. revert b Hl. induction Ha as [|x a Hx Ha IH]; intros [|y b] Hl Hb; try discriminate; [reflexivity|].
    apply Forall_cons_iff in Hb. destruct Hb as (Hy & Hb). unfold madd. cbn [map2 concat]. rewrite vadd_app by congruence. f_equal. apply IH; [now injection Hl|exact Hb].
  Qed.
  Lemma concat_zero_rows nel nd : concat (repeat (zeros (R := R) nd) nel) = zeros (nel * nd).
  Proof. induction nel as [|n IH]; [reflexivity|]. cbn [repeat concat Nat.mul]. now rewrite IH, zeros_app. Qed.

  Lemma matvec_madd nt ns (A B : list (list R)) v : is_mat nt ns A -> is_mat nt ns B -> matvec (madd R A B) v = vadd (matvec A v) (matvec B v).
  Proof.
    intros (Hl & Ha) (Hl' & Hb). rewrite <- Hl in Hl'. clear Hl. revert B Hl' Hb. induction Ha as [|x A Hx Ha IH]; intros [|y B] Hl Hb; try discriminate; [reflexivity|].
    apply Forall_cons_iff in Hb. destruct Hb as (Hy & Hb). unfold madd, matvec, vadd. cbn [map2 map]. f_equal; [apply dot_vadd_l; congruence|]. apply IH; [now injection Hl|exact Hb].
  Qed.
  Lemma is_mat_madd nt ns (A B : list (list R)) : is_mat nt ns A -> is_mat nt ns B -> is_mat nt ns (madd R A B).
  Proof.
    intros (Hl & Ha) (Hl' & Hb). split; [unfold madd; rewrite map2_length; congruence|]. rewrite <- Hl in Hl'. clear Hl.
    revert B Hl' Hb. induction Ha as [|x A Hx Ha IH]; intros [|y B] Hl Hb; try discriminate; [constructor|].
    apply Forall_cons_iff in Hb. destruct Hb as (Hy & Hb). unfold madd. cbn [map2]. constructor; [rewrite vadd_length; congruence|]. apply IH; [now injection Hl|exact Hb].
  Qed.
  Lemma matvec_total nt ns (ms : list (list (list R))) m v : is_mat nt ns m -> Forall (is_mat nt ns) ms ->
    matvec (fold_left (madd R) ms m) v = vsum nt (map (fun M => matvec M v) (m :: ms)) /\ is_mat nt ns (fold_left (madd R) ms m).
  Proof.
    intros Hm H. cbn [map]. rewrite vsum_cons. revert m Hm. induction H as [|M ms HM H IH]; intros m Hm; cbn [fold_left map].
    - split; [|exact Hm]. change (vsum nt []) with (zeros (R := R) nt). symmetry. apply vadd_zeros. rewrite matvec_length. apply Hm.
    - destruct (IH (madd R m M) (is_mat_madd _ _ _ _ Hm HM)) as (E & Hi). split; [|exact Hi]. rewrite E, (matvec_madd nt ns) by assumption.
      rewrite vsum_cons. symmetry. apply vadd_assoc.
  Qed.

  Lemma group_matrices from (tg : dgroup) ary nt tb (bs : list batch) : on_discr from ary -> Forall (batch_ok rmat rpick from tg) bs -> Forall (mat_ok from tg) bs ->
    tb + gsize tg <= nt ->
    exists ms rows, mapM (fun b =>
                    if length (bt_from b) =? 0 then Ok []
                    else
                      fg <- get from (bt_fgrp b) ;;
                      sb <- get (0 :: cumsum (map (fun g => dg_nel g * dg_ndof g) from)) (bt_fgrp b) ;;
                      m <- batch_matrix R nt (ndofs from) tb sb (dg_ndof tg) (dg_ndof fg) (rmat (dg_kind fg) (bt_nodes b)) b ;;
                      Ok [m]) bs = Ok ms /\ Forall (is_mat nt (ndofs from)) (concat ms) /\
      rows_of from ary tg bs rows /\ Forall (fun row => length row = dg_ndof tg) rows /\
      vsum nt (map (fun M => matvec M (flat ary)) (concat ms)) = zeros tb ++ concat rows ++ zeros (nt - tb - gsize tg) /\
      (concat ms = [] -> Forall (fun b => bt_from b = []) bs).
  Proof.
    intros Hary Hok Hmat Hnt. induction Hok as [|b bs Hb Hok IH].
    - exists [], (repeat (zeros (dg_ndof tg)) (dg_nel tg)). split; [reflexivity|]. split; [constructor|]. split; [|split; [|split; [|constructor]]].
      + split; [apply repeat_length|]. intros t row Ht. apply nth_error_In, repeat_spec in Ht. subst. exists []. split; [constructor|reflexivity].
      + apply Forall_forall. intros row Hin. apply repeat_spec in Hin. subst. apply zeros_length.
      + cbn [concat map]. change (vsum nt []) with (zeros (R := R) nt). rewrite concat_zero_rows, <- !zeros_app. f_equal. unfold gsize in *. lia.
    - apply Forall_cons_iff in Hmat. destruct Hmat as (Hm & Hmat). destruct (IH Hmat) as (ms & rows & Hms & Hmm & (Hrl & Hrows) & Hru & Hv & Hemp). clear IH.
      (* the part of b *)
      assert (Hrb : exists rb, length rb = dg_nel tg /\ (forall t row, nth_error rb t = Some row -> contributes from ary (dg_ndof tg) t b row)).
      { destruct (batch_contribution_ok rmat rpick true _ _ _ _ Hary Hb) as (o & _ & Ho). destruct o as [rb|].
        - exists rb. split; [apply Ho|]. intros t row Ht. now apply Ho.
        - exists (repeat (zeros (dg_ndof tg)) (dg_nel tg)). split; [apply repeat_length|]. intros t row Ht.
          assert (t < dg_nel tg) by (rewrite <- (repeat_length (zeros (R := R) (dg_ndof tg)) (dg_nel tg)); apply nth_error_Some; congruence).
          apply nth_error_In, repeat_spec in Ht. subst. now apply Ho. }
      destruct Hrb as (rb & Hrbl & Hrb).
      assert (Hrbu : Forall (fun row => length row = dg_ndof tg) rb).
      { apply Forall_forall. intros row Hin. apply In_nth_error in Hin. destruct Hin as (t & Ht). eapply contributes_length; eauto. }
      assert (Hsum : rows_of from ary tg (b :: bs) (madd R rb rows) /\ Forall (fun row => length row = dg_ndof tg) (madd R rb rows)).
      { split; [split|].
        - unfold madd. rewrite map2_length; congruence.
        - intros t row Ht. destruct (nth_error rb t) as [x|] eqn:Ex; destruct (nth_error rows t) as [y|] eqn:Ey.
          + unfold madd in Ht. rewrite (map2_nth vadd rb rows t x y Ex Ey) in Ht. injection Ht as <-.
            destruct (Hrows t y Ey) as (cs & Hcs & ->). exists (x :: cs). split; [|reflexivity]. constructor; [auto|exact Hcs].
          + apply nth_error_None in Ey. assert (t < length rb) by (apply nth_error_Some; congruence). lia.
          + apply nth_error_None in Ex. assert (t < length rows) by (apply nth_error_Some; congruence). lia.
          + apply nth_error_None in Ex. assert (t < length (madd R rb rows)) by (apply nth_error_Some; congruence). unfold madd in H. rewrite map2_length in H by congruence. lia.
        - clear -Hrbu Hru Hrbl Hrl. rewrite <- Hrl in Hrbl. clear Hrl. revert rows Hrbl Hru. induction Hrbu as [|x rb Hx H IH]; intros [|y rows] Hl Hru; try discriminate; [constructor|].
          apply Forall_cons_iff in Hru. destruct Hru as (Hy & Hru). unfold madd. cbn [map2]. constructor; [rewrite vadd_length; congruence|]. apply IH; [now injection Hl|exact Hru]. }
      cbn [mapM]. destruct (Nat.eqb_spec (length (bt_from b)) 0) as [E|E].
      + cbn [bind]. rewrite Hms. cbn [bind]. exists ([] :: ms), (madd R rb rows). split; [reflexivity|]. cbn [concat app]. split; [exact Hmm|].
        split; [apply Hsum|]. split; [apply Hsum|]. split; [|intros H; constructor; [now apply length_zero_iff_nil|auto]].
        assert (madd R rb rows = rows) as ->; [|exact Hv].
        assert (Hz : forall t row, nth_error rb t = Some row -> row = zeros (dg_ndof tg)).
        { intros t row Ht. destruct (Hrb t row Ht) as [(g & s & src & x & _ & (j & Hj & _) & _)|(_ & Hz)]; [|exact Hz].
          destruct Hb as (Hl & _). rewrite Hl in E. apply length_zero_iff_nil in E. rewrite E in Hj. destruct j; discriminate. }
        clear -Hz Hrbl Hrl Hru. rewrite <- Hrl in Hrbl. clear Hrl. revert rb Hz Hrbl. induction Hru as [|y rows Hy H IH]; intros [|x rb] Hz Hl; try discriminate; [reflexivity|].
        unfold madd. cbn [map2]. f_equal; [rewrite (Hz 0 x eq_refl); now apply vadd_zeros_l|]. apply IH; [intros t row Ht; apply (Hz (S t) row Ht)|now injection Hl].
      + destruct (batch_apply from tg ary b nt tb Hary Hb Hm Hnt) as (g & M & Hg & HM & HMm & HMv).
        rewrite (proj2 (get_ok _ _ _) Hg). cbn [bind].
        rewrite (proj2 (get_ok _ _ _) (starts_nth (map (fun g => dg_nel g * dg_ndof g) from) (bt_fgrp b) (gsize g) ltac:(rewrite nth_error_map, Hg; reflexivity))). cbn [bind].
        change (map (fun g => dg_nel g * dg_ndof g) from) with (map gsize from). rewrite HM. cbn [bind].
        change (map gsize from) with (map (fun g : dgroup => dg_nel g * dg_ndof g) from). rewrite Hms. cbn [bind].
        exists ([M] :: ms), (madd R rb rows). split; [reflexivity|]. cbn [concat app]. split; [now constructor|].
        split; [apply Hsum|]. split; [apply Hsum|]. split; [|intros H; discriminate].
        cbn [map]. rewrite vsum_cons, Hv, (HMv rb Hrbl Hrb).
        rewrite vadd_app by now rewrite !zeros_length. rewrite vadd_zeros by apply zeros_length. f_equal.
        rewrite vadd_app. 2:{ rewrite (concat_uniform_length _ _ Hrbu), (concat_uniform_length _ _ Hru). congruence. }
        rewrite vadd_zeros by apply zeros_length. f_equal. symmetry. apply (concat_madd (dg_ndof tg)); [congruence|exact Hrbu|exact Hru].
  Qed.

  Lemma full_matrix_ok (c : conn) ary : conn_ok rmat rpick c -> picks_agree rmat rpick c -> targets_distinct c -> on_discr (cn_from c) ary ->
    exists o r, full_matrix R rmat c = Ok o /\ transports rmat rpick c ary r /\
      match o with
      | Some M => is_mat (ndofs (cn_to c)) (ndofs (cn_from c)) M /\ matvec M (flat ary) = flat r
      | None => Forall (Forall (fun b => bt_from b = [])) (cn_groups c)
      end.
  Proof.
    intros Hc Hp Hd Hary. unfold full_matrix. rewrite (proj2 (Nat.eqb_eq _ _) (Forall2_length' _ _ _ Hc)). cbn [guard bind].
    set (nt := ndofs (cn_to c)).
    match goal with |- context [foldM ?f _ _] => set (f1 := f) end.
    assert (Hgen : forall tgs bss, Forall2 (fun tg bs => Forall (batch_ok rmat rpick (cn_from c) tg) bs /\ Forall (mat_ok (cn_from c) tg) bs) tgs bss ->
      forall b0 mats, b0 + sum (map gsize tgs) <= nt ->
      exists new rs, foldM f1 (combine tgs bss) (b0, mats) = Ok (b0 + sum (map gsize tgs), mats ++ new) /\ Forall (is_mat nt (ndofs (cn_from c))) new /\
        Forall2 (fun tb rows => rows_of (cn_from c) ary (fst tb) (snd tb) rows) (combine tgs bss) rs /\
        vsum nt (map (fun M => matvec M (flat ary)) new) = zeros b0 ++ flat rs ++ zeros (nt - b0 - sum (map gsize tgs)) /\
        length (flat rs) = sum (map gsize tgs) /\
        (new = [] -> Forall (Forall (fun b => bt_from b = [])) bss)).
    { induction 1 as [|tg bs tgs bss (Hb & Hm) Hrest IH]; intros b0 mats Hb0.
      - exists [], []. cbn [combine foldM map]. unfold sum. cbn [fold_right]. rewrite Nat.add_0_r, app_nil_r. split; [reflexivity|]. split; [constructor|]. split; [constructor|].
        split; [|split; [reflexivity|constructor]]. change (vsum nt []) with (zeros (R := R) nt). cbn [concat app]. rewrite <- zeros_app. f_equal. unfold sum in Hb0. cbn [map fold_right] in Hb0. lia.
      - cbn [map] in *. unfold sum in Hb0. cbn [fold_right] in Hb0. fold (sum (map gsize tgs)) in Hb0.
        destruct (group_matrices (cn_from c) tg ary nt b0 bs Hary Hb Hm) as (ms & rows & Hms & Hmm & Hrows & Hru & Hv & Hemp); [lia|].
        destruct (IH (b0 + gsize tg) (mats ++ concat ms)) as (new & rs & Hnew & Hnm & Hrs & Hnv & Hfl & Hne); [lia|].
        exists (concat ms ++ new), (rows :: rs). cbn [combine foldM]. unfold f1 at 1. rewrite Hms. cbn [bind].
        change (b0 + dg_nel tg * dg_ndof tg) with (b0 + gsize tg). rewrite Hnew.
        assert (Hsum : sum (gsize tg :: map gsize tgs) = gsize tg + sum (map gsize tgs)) by reflexivity.
        assert (Hcl : length (concat rows) = gsize tg) by (rewrite (concat_uniform_length _ _ Hru); destruct Hrows as (-> & _); reflexivity).
        split; [rewrite Hsum, Nat.add_assoc, app_assoc; reflexivity|]. split; [apply Forall_app; auto|]. split; [constructor; [exact Hrows|exact Hrs]|].
        split; [|split].
        + rewrite map_app, vsum_app.
          2:{ apply Forall_map. eapply Forall_impl; [|exact Hmm]. intros M (HM & _). now rewrite matvec_length. }
          2:{ apply Forall_map. eapply Forall_impl; [|exact Hnm]. intros M (HM & _). now rewrite matvec_length. }
          rewrite Hv, Hnv. cbn [concat]. rewrite concat_app, zeros_app, <- !app_assoc.
          rewrite vadd_app by now rewrite !zeros_length. rewrite vadd_zeros by apply zeros_length. f_equal.
          rewrite vadd_app by now rewrite zeros_length. rewrite vadd_zeros by exact Hcl. f_equal.
          rewrite vadd_zeros_l by (rewrite app_length, Hfl, zeros_length; lia). f_equal. f_equal. rewrite Hsum. lia.
        + cbn [concat]. rewrite concat_app, app_length, Hfl, Hcl. reflexivity.
        + intros E. apply app_eq_nil in E. destruct E as (E1 & E2). constructor; auto. }
    assert (Hall : Forall2 (fun tg bs => Forall (batch_ok rmat rpick (cn_from c) tg) bs /\ Forall (mat_ok (cn_from c) tg) bs) (cn_to c) (cn_groups c)).
    { unfold conn_ok, picks_agree, targets_distinct in *. clear Hgen f1 nt. revert Hp Hd. generalize (cn_from c) Hc. clear. intros from Hc. induction Hc as [|tg bs tgs bss (Hb & _) H IH]; intros Hp Hd; [constructor|].
      inversion Hp as [|? ? ? ? Hp1 Hp2]; subst. apply Forall_cons_iff in Hd. destruct Hd as (Hd & Hd'). constructor; [|auto]. split; [exact Hb|].
      apply Forall_forall. intros b Hin. rewrite Forall_forall in Hp1, Hd. split; [now apply Hd|]. intros g Hg. now apply Hp1. }
    destruct (Hgen _ _ Hall 0 []) as (new & rs & Hnew & Hnm & Hrs & Hnv & Hfl & Hne); [reflexivity|]. cbn [app] in Hnew.
    rewrite Hnew. cbn [bind snd].
    assert (Htr : transports rmat rpick c ary rs) by exact Hrs.
    destruct new as [|m ms].
    - exists None, rs. auto.
    - exists (Some (fold_left (madd R) ms m)), rs. split; [reflexivity|]. split; [exact Htr|].
      apply Forall_cons_iff in Hnm. destruct Hnm as (Hm & Hms). destruct (matvec_total nt (ndofs (cn_from c)) ms m (flat ary) Hm Hms) as (E & Hi). split; [exact Hi|].
      rewrite E, Hnv. unfold nt, ndofs. change (sum (map (fun g => dg_nel g * dg_ndof g) (cn_to c))) with (sum (map gsize (cn_to c))).
      rewrite Nat.sub_0_r, Nat.sub_diag. unfold zeros. cbn [repeat app]. now rewrite app_nil_r.
  Qed.
End Matrix.
