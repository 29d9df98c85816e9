(** * GNProofs: the Gauss-Newton method. *)
From Coq Require Import List Arith Bool Lia Ring.
From Verif Require Import Np NpFacts MeshProofs Lin Ord GNModel GNSpec.
Import ListNotations.

Section GNProofs.
  Variable R : ocring.
  Add Ring gn_ring : (rth R).
  Variable inv : R -> option R.
  Hypothesis Hinv : forall x y, inv x = Some y -> rmul x y = r1.
  Variable lstsq : list (list R) -> list R -> list R.
  Variable tol : R.
  Variables (dim amb : nat).
  Local Open Scope cring_scope.

  (** ** Sums *)
  Lemma dot_map_add {X} (w : list R) (f g : X -> R) l : dot w (map (fun x => f x + g x) l) = dot w (map f l) + dot w (map g l).
  Proof using. revert w; induction l as [|x l IH]; intros [|a w]; cbn [map]; try (cbn; ring). rewrite !dot_cons, IH. ring. Qed.
  Lemma dot_map_scale {X} (w : list R) a (f : X -> R) l : dot w (map (fun x => a * f x) l) = a * dot w (map f l).
  Proof using. revert w; induction l as [|x l IH]; intros [|b w]; cbn [map]; try (cbn; ring). rewrite !dot_cons, IH. ring. Qed.
  Lemma dot_map_zero {X} (w : list R) (l : list X) : dot w (map (fun _ => 0) l) = 0.
  Proof using. revert w; induction l as [|x l IH]; intros [|b w]; cbn [map]; try (cbn; ring). rewrite !dot_cons, IH. ring. Qed.

  Lemma swap_sums {X} (w c : list R) (basis : list (X -> R)) un :
    dot w (map (fun x => dot c (map (fun b => b x) basis)) un) = dot c (map (fun b => dot (map b un) w) basis).
  Proof using.
    revert c; induction basis as [|b basis IH]; intros [|a c]; try (cbn [map]; rewrite ?dot_nil_r; transitivity (dot w (map (fun _ => 0) un)); [apply (f_equal (dot w)), map_ext; intros x; rewrite ?dot_nil_r; reflexivity|rewrite dot_map_zero; reflexivity]).
    cbn [map]. rewrite dot_cons, (dot_comm _ (map b un)), <- IH, <- dot_map_scale, <- dot_map_add. apply (f_equal (dot w)), map_ext. intros x. now rewrite dot_cons.
  Qed.

  Lemma vecmat_image (w : list R) (fs : list (list R -> R)) un : length w = length un ->
    vecmat (length fs) w (map (image R fs) un) = map (fun f => dot w (map f un)) fs.
  Proof using.
    unfold vecmat. revert w; induction un as [|u un IH]; intros [|a w] Hl; try discriminate; cbn [map map2 fold_right].
    - unfold zeros. clear. induction fs as [|f fs IH]; [reflexivity|]. cbn [map length repeat]. now rewrite IH.
    - rewrite IH by (cbn in Hl; lia). unfold image, vadd, vscale. rewrite map_map. clear. induction fs as [|f fs IH]; [reflexivity|]. cbn [map map2]. now rewrite IH, dot_cons.
  Qed.

  (** ** Interpolation *)
  Section Interp.
    Variable basis : list (list R -> R).
    Variable gradients : list (list R -> list R).
    Variable M : list (list R).
    Variable un : list (list R).
    Hypothesis HM : inverse_vandermonde R basis un M.
    Hypothesis Hun : Forall (fun u => length u = dim) un.
    Hypothesis Hgr : gradients_ok R dim basis gradients.

    Lemma span_value f g u : in_span R dim basis gradients f g -> length u = dim -> dot (matvec M (map (fun b => b u) basis)) (map f un) = f u.
    Proof using HM Hun.
      intros (c & Hc & H) Hu. destruct HM as (Hl & HMl & Hinvs).
      rewrite (map_ext_in f (fun x => dot c (map (fun b => b x) basis)) un) by (intros x Hx; apply H; rewrite Forall_forall in Hun; auto).
      rewrite swap_sums, Hinvs by apply map_length. now rewrite (proj1 (H u Hu)).
    Qed.
    Lemma span_gradient f g u r : in_span R dim basis gradients f g -> length u = dim -> (r < dim)%nat ->
      dot (matvec M (map (fun b => nth r (b u) 0) gradients)) (map f un) = nth r (g u) 0.
    Proof using HM Hun Hgr.
      intros (c & Hc & H) Hu Hr. destruct HM as (Hl & HMl & Hinvs).
      rewrite (map_ext_in f (fun x => dot c (map (fun b => b x) basis)) un) by (intros x Hx; apply H; rewrite Forall_forall in Hun; auto).
      rewrite swap_sums, Hinvs by (rewrite map_length; apply Hgr). symmetry. now apply H.
    Qed.

    Lemma apply_image fs gs u : Forall2 (in_span R dim basis gradients) fs gs -> (exists g, in_span R dim basis gradients (fun _ => 1) g) -> olt 0 tol = true ->
      length fs = amb -> length u = dim ->
      apply_map R tol amb basis M (map (image R fs) un) u = Ok (image R fs u).
    Proof using HM Hun.
      intros HF (g1 & H1) Htol Hf Hu. unfold apply_map. destruct HM as (Hl & HMl & _).
      assert (E : rsum (matvec M (map (fun f => f u) basis)) = 1).
      { transitivity (dot (matvec M (map (fun f => f u) basis)) (map (fun _ => 1) un)).
        - assert (G : forall (w : list R) (l : list (list R)), length w = length l -> rsum w = dot w (map (fun _ => 1) l)).
          { induction w as [|a w IH]; intros [|x l] Hx; try discriminate; [reflexivity|]. cbn [map rsum]. rewrite dot_cons, (IH l) by (cbn in Hx; lia). ring. }
          apply G. rewrite matvec_length. exact HMl.
        - exact (span_value _ _ _ H1 Hu). }
      rewrite E. assert (Es : small R tol (1 - 1) = true).
      { unfold small. replace (1 - 1) with (@r0 R) by ring. rewrite Htol, andb_true_r. rewrite olt_iff. apply not_true_is_false. intros H.
        rewrite olt_iff in Htol. apply (ole_add R _ _ tol) in H. replace (0 + tol) with tol in H by ring. replace (- tol + tol) with (@r0 R) in H by ring. congruence. }
      rewrite Es. cbn [guard bind]. f_equal. rewrite <- Hf, vecmat_image by (rewrite matvec_length; exact HMl).
      unfold image. clear -HF Hu HM Hun. induction HF as [|f g fs gs H _ IH]; [reflexivity|]. cbn [map]. rewrite IH. f_equal. now apply (span_value f g).
    Qed.

    Lemma jacobian_image fs gs u : Forall2 (in_span R dim basis gradients) fs gs -> length fs = amb -> length u = dim ->
      jacobian R dim amb gradients M (map (image R fs) un) u = Ok (map (fun r => map (fun g => nth r (g u) 0) gs) (seq 0 dim)).
    Proof using HM Hun Hgr.
      intros HF Hf Hu. unfold jacobian. rewrite (mapM_ext _ (fun r => Ok (map (fun g => nth r (g u) 0) gs))); [apply mapM_pure|].
      intros r Hr. apply in_seq in Hr. destruct Hgr as (Hgl & Hg).
      assert (E : mapM (fun g : list R -> list R => get (g u) r) gradients = Ok (map (fun b => nth r (b u) 0) gradients)).
      { rewrite (mapM_ext _ (fun g => Ok (nth r (g u) 0))); [apply mapM_pure|]. intros g Hgin. apply get_ok. apply nth_error_nth'. rewrite Forall_forall in Hg. rewrite (Hg g Hgin u Hu). lia. }
      rewrite E. cbn [bind]. f_equal. destruct HM as (Hl & HMl & _). rewrite <- Hf, vecmat_image by (rewrite matvec_length; exact HMl).
      clear E Hf. induction HF as [|f g fs gs H _ IH]; [reflexivity|]. cbn [map]. f_equal; [|exact IH]. apply (span_gradient f g); auto. lia.
    Qed.

    (** ** Affine faces *)
    Definition cols (abs : list (list R * R)) : list (list R) := map (column R abs) (seq 0 dim).
    Definition good_face (abs : list (list R * R)) : Prop :=
      length abs = amb /\ Forall (fun ab => length (fst ab) = dim /\ in_span R dim basis gradients (aff R ab) (fun _ => fst ab)) abs.
    Hypothesis Hdim : dim = 1%nat \/ dim = 2%nat.
    Hypothesis Hone : exists g, in_span R dim basis gradients (fun _ => 1) g.
    Hypothesis Htol : olt 0 tol = true.

    Lemma solve_affine abs (u v : list R) : Forall (fun ab => length (fst ab) = dim) abs -> inv (gram R (cols abs)) <> None -> length u = dim -> length v = dim ->
      option_map (vsub u) (solve R inv lstsq dim (cols abs) (vsub (image R (map (aff R) abs) u) (image R (map (aff R) abs) v))) = Some v.
    Proof using Hinv Hdim.
      intros Hab Hg Hu Hv. destruct Hdim as [Ed|Ed].
      - unfold cols, solve in *. rewrite Ed in Hab, Hg, Hu, Hv. rewrite Ed. cbn [seq map gram] in Hg. cbn [seq map]. destruct u as [|u0 [|? ?]]; try discriminate. destruct v as [|v0 [|? ?]]; try discriminate.
        set (c := column R abs 0) in *.
        assert (E : vsub (image R (map (aff R) abs) [u0]) (image R (map (aff R) abs) [v0]) = map (fun ab : list R * R => (u0 - v0) * nth 0 (fst ab) 0) abs).
        { clear Hg. unfold image, vsub. rewrite !map_map. induction Hab as [|ab abs Ha _ IH]; [reflexivity|]. cbn [map map2]. rewrite IH. f_equal.
          destruct ab as ([|a [|? ?]], b); try discriminate. unfold aff, dot. cbn. ring. }
        rewrite E, dot_map_scale. fold c. change (map (fun x : list R * R => nth 0 (fst x) 0) abs) with c.
        destruct (inv (dot c c)) as [i|] eqn:Ei; [|congruence]. apply Hinv in Ei. cbn [option_map vsub map2]. f_equal. f_equal.
        transitivity (u0 - (u0 - v0) * (dot c c * i)); [ring|]. rewrite Ei. ring.
      - unfold cols, solve in *. rewrite Ed in Hab, Hg, Hu, Hv. rewrite Ed. cbn [seq map gram] in Hg. cbn [seq map]. destruct u as [|u0 [|u1 [|? ?]]]; try discriminate. destruct v as [|v0 [|v1 [|? ?]]]; try discriminate.
        assert (E : vsub (image R (map (aff R) abs) [u0; u1]) (image R (map (aff R) abs) [v0; v1]) =
          map (fun ab : list R * R => (u0 - v0) * nth 0 (fst ab) 0 + (u1 - v1) * nth 1 (fst ab) 0) abs).
        { clear Hg. unfold image, vsub. rewrite !map_map. induction Hab as [|ab abs Ha _ IH]; [reflexivity|]. cbn [map map2]. rewrite IH. f_equal.
          destruct ab as ([|a [|a' [|? ?]]], b); try discriminate. unfold aff, dot. cbn. ring. }
        rewrite E, !dot_map_add, !dot_map_scale. 
        change (map (fun x : list R * R => nth 0 (fst x) 0) abs) with (column R abs 0). change (map (fun x : list R * R => nth 1 (fst x) 0) abs) with (column R abs 1).
        set (c := column R abs 0) in *. set (d := column R abs 1) in *. rewrite (dot_comm _ d c) in Hg. rewrite (dot_comm _ d c).
        destruct (inv _) as [i|] eqn:Ei; [|congruence]. apply Hinv in Ei. cbn [option_map vsub map2]. f_equal. f_equal; [|f_equal].
        + transitivity (u0 - (u0 - v0) * ((dot c c * dot d d - dot c d * dot c d) * i)); [ring|]. rewrite Ei. ring.
        + transitivity (u1 - (u1 - v1) * ((dot c c * dot d d - dot c d * dot c d) * i)); [ring|]. rewrite Ei. ring.
    Qed.

    Lemma newton_affine abs u v : good_face abs -> inv (gram R (cols abs)) <> None -> length u = dim -> length v = dim ->
      newton_point R inv lstsq tol dim amb basis gradients M (map (image R (map (aff R) abs)) un) (Some u) (image R (map (aff R) abs) v) =
        Ok (vsub (image R (map (aff R) abs) u) (image R (map (aff R) abs) v), Some v).
    Proof using HM Hun Hgr Hinv Hdim Hone Htol.
      intros (Hl & Hab) Hg Hu Hv. unfold newton_point.
      assert (HF : Forall2 (in_span R dim basis gradients) (map (aff R) abs) (map (fun ab _ => fst ab) abs)).
      { clear -Hab. induction Hab as [|ab abs (_ & H) _ IH]; cbn [map]; constructor; auto. }
      rewrite (apply_image _ _ u HF Hone Htol) by (rewrite ?map_length; auto). cbn [bind].
      rewrite (jacobian_image _ _ u HF) by (rewrite ?map_length; auto). cbn [bind].
      replace (map (fun r => map (fun g : list R -> list R => nth r (g u) 0) (map (fun ab _ => fst ab) abs)) (seq 0 dim)) with (cols abs) by (unfold cols, column; apply map_ext; intros r; now rewrite map_map).
      rewrite solve_affine; auto. eapply Forall_impl; [|exact Hab]. now intros ab (H & _).
    Qed.

    Lemma vsub_self (x : list R) : vsub x x = map (fun _ => 0) x.
    Proof using. induction x as [|a x IH]; [reflexivity|]. cbn [vsub map2 map] in *. unfold vsub in IH. rewrite IH. f_equal. ring. Qed.
    Lemma small_zero : small R tol 0 = true.
    Proof using Htol.
      unfold small. rewrite Htol, andb_true_r, olt_iff. apply not_true_is_false. intros H.
      pose proof Htol as Ht. rewrite olt_iff in Ht. apply (ole_add R _ _ tol) in H. replace (0 + tol) with tol in H by ring. replace (- tol + tol) with (@r0 R) in H by ring. congruence.
    Qed.

    Lemma iterate_affine fuel (faces : list (list (list R * R) * list R)) us : (0 < amb)%nat -> faces <> [] ->
      Forall (fun av => good_face (fst av) /\ inv (gram R (cols (fst av))) <> None /\ length (snd av) = dim) faces ->
      length us = length faces -> Forall (fun u => length u = dim) us ->
      iterate R inv lstsq tol dim amb basis gradients M (S fuel)
        (map (fun av => (map (image R (map (aff R) (fst av))) un, image R (map (aff R) (fst av)) (snd av))) faces) (map Some us) = Ok (map (fun av => Some (snd av)) faces).
    Proof using HM Hun Hgr Hinv Hdim Hone Htol.
      intros Hamb Hne HF.
      set (problems := map (fun av : list (list R * R) * list R => (map (image R (map (aff R) (fst av))) un, image R (map (aff R) (fst av)) (snd av))) faces).
      assert (Round : forall us, length us = length faces -> Forall (fun u => length u = dim) us ->
        mapM (fun pu : (list (list R) * list R) * option (list R) => newton_point R inv lstsq tol dim amb basis gradients M (fst (fst pu)) (snd pu) (snd (fst pu))) (combine problems (map Some us)) =
          Ok (map2 (fun av u => (vsub (image R (map (aff R) (fst av)) u) (image R (map (aff R) (fst av)) (snd av)), Some (snd av))) faces us)).
      { unfold problems. clear Hne problems us. induction HF as [|av faces (H1 & H2 & H3) _ IH]; intros [|u us] Hl Hs; try discriminate; [reflexivity|]. inversion_clear Hs as [|? ? Hu Hs'].
        cbn [map combine mapM map2 fst snd]. rewrite (newton_affine _ u (snd av) H1 H2 Hu H3). cbn [bind]. rewrite IH by (auto; cbn in Hl; lia). reflexivity. }
      assert (Snd : forall us : list (list R), length us = length faces ->
        map snd (map2 (fun av u => (vsub (image R (map (aff R) (fst av)) u) (image R (map (aff R) (fst av)) (snd av)), Some (snd av))) faces us) = map (fun av => Some (snd av)) faces).
      { clear. intros us. revert us. induction faces as [|av faces IH]; intros [|u us] Hl; try discriminate; [reflexivity|]. cbn [map2 map snd]. f_equal. apply IH. cbn in Hl. lia. }
      assert (Ne : forall us : list (list R), length us = length faces ->
        length (concat (map fst (map2 (fun av u => (vsub (image R (map (aff R) (fst av)) u) (image R (map (aff R) (fst av)) (snd av)), Some (snd av))) faces us))) <> 0%nat).
      { clear us Round Snd problems. intros us Hl. destruct faces as [|av faces']; [congruence|]. destruct us as [|u us]; [discriminate|]. cbn [map2 map fst concat]. rewrite app_length.
        inversion_clear HF as [|? ? ((Ha & _) & _) _]. unfold vsub, image. rewrite map2_length by now rewrite !map_length. rewrite !map_length. lia. }
      intros Hl Hs. cbn [iterate]. rewrite (Round us Hl Hs). cbn [bind]. rewrite (proj2 (Nat.eqb_neq _ _) (Ne us Hl)). cbn [negb guard bind]. rewrite (Snd us Hl).
      destruct (forallb _ _); [reflexivity|].
      assert (Hvs : map (fun av : list (list R * R) * list R => Some (snd av)) faces = map Some (map snd faces)) by now rewrite map_map.
      assert (Hvl : length (map snd faces) = length faces) by apply map_length.
      assert (Hvd : Forall (fun u : list R => length u = dim) (map snd faces)) by (apply Forall_map; eapply Forall_impl; [|exact HF]; now intros av (_ & _ & H)).
      assert (Z : forallb (small R tol) (concat (map fst (map2 (fun av u => (vsub (image R (map (aff R) (fst av)) u) (image R (map (aff R) (fst av)) (snd av)), Some (snd av))) faces (map snd faces)))) = true).
      { apply forallb_forall. intros x Hx. apply in_concat in Hx as (l & Hlin & Hx). apply in_map_iff in Hlin as (s & <- & Hsin).
        assert (Hz : exists y, fst s = vsub y y).
        { clear -Hsin. induction faces as [|av faces IH]; [destruct Hsin|]. cbn [map map2] in Hsin. destruct Hsin as [<-|Hsin]; [eexists; reflexivity|auto]. }
        destruct Hz as (y & Hy). rewrite Hy, vsub_self in Hx. apply in_map_iff in Hx as (? & <- & _). exact small_zero. }
      rewrite Hvs. destruct fuel as [|fuel]; cbn [iterate]; rewrite (Round _ Hvl Hvd); cbn [bind]; rewrite (proj2 (Nat.eqb_neq _ _) (Ne _ Hvl)); cbn [negb guard bind]; rewrite Z, (Snd _ Hvl), Hvs; reflexivity.
    Qed.
  End Interp.

  (** ** What the returned points satisfy *)
  Section Runs.
    Variable basis : list (list R -> R).
    Variable gradients : list (list R -> list R).
    Variable M : list (list R).
    Variable problems : list (list (list R) * list R).
    Notation points := (list (option (list R))).
    (** one round of steps, and the residuals *)
    Definition steps_of (us : points) (steps : list (list R * option (list R))) : Prop :=
      mapM (fun pu => newton_point R inv lstsq tol dim amb basis gradients M (fst (fst pu)) (snd pu) (snd (fst pu))) (combine problems us) = Ok steps.
    Definition next_points (us us' : points) : Prop := exists steps, steps_of us steps /\ us' = map snd steps.
    Definition close_points (us : points) : Prop := exists steps, steps_of us steps /\ Forall (fun s => Forall (fun x => olt (- tol) x = true /\ olt x tol = true) (fst s)) steps.

    Lemma close_iff us steps : steps_of us steps -> (forallb (small R tol) (concat (map fst steps)) = true <-> close_points us).
    Proof using.
      intros Hs. rewrite forallb_forall. split.
      - intros H. exists steps. split; [exact Hs|]. apply Forall_forall. intros s Hin. apply Forall_forall. intros x Hx. apply andb_true_iff. apply H. apply in_concat. exists (fst s). split; [now apply in_map|exact Hx].
      - intros (steps' & Hs' & HF). assert (steps' = steps) by (unfold steps_of in *; congruence). subst steps'. intros x Hx. apply in_concat in Hx as (l & Hl & Hx). apply in_map_iff in Hl as (s & <- & Hin).
        rewrite Forall_forall in HF. specialize (HF s Hin). rewrite Forall_forall in HF. apply andb_true_iff. now apply HF.
    Qed.
    Lemma after_det n us a b : after _ next_points n us a -> after _ next_points n us b -> a = b.
    Proof using.
      intros H. revert b. induction H as [us|n us v w (st & Hs & ->) _ IH]; intros b Hb; inversion Hb as [|? ? v' ? (st' & Hs' & ->) Hb']; subst; [reflexivity|].
      assert (st' = st) by (unfold steps_of in *; congruence). subst st'. auto.
    Qed.
    Lemma iterate_runs fuel us : (forall us', iterate R inv lstsq tol dim amb basis gradients M fuel problems us = Ok us' -> stopped _ next_points close_points fuel us us') /\
      (iterate R inv lstsq tol dim amb basis gradients M fuel problems us = Err RuntimeError -> exhausted _ next_points close_points fuel us).
    Proof using.
      revert us. induction fuel as [|fuel IH]; intros us; cbn [iterate].
      all: destruct (mapM _ (combine problems us)) as [steps|e] eqn:Es; cbn [bind];
        [|split; [discriminate|]; intros [= ->]; exfalso; clear -Es; revert Es; generalize (combine problems us); intros l; induction l as [|pu l IHl]; cbn [mapM]; [discriminate|];
          destruct (newton_point R inv lstsq tol dim amb basis gradients M (fst (fst pu)) (snd pu) (snd (fst pu))) as [s|e] eqn:En; cbn [bind];
          [destruct (mapM _ l) as [ss|e]; cbn [bind]; [discriminate|intros [= ->]; now apply IHl]|];
          intros [= ->]; clear IHl; unfold newton_point, apply_map in En; destruct (snd pu) as [u|]; [|discriminate]; destruct (small R tol _); cbn [guard bind] in En; [|discriminate];
          unfold jacobian in En; destruct (mapM _ (seq 0 dim)) as [df|e] eqn:Ed; cbn [bind] in En; [discriminate|]; assert (e = RuntimeError) as -> by congruence; clear En; revert Ed;
          generalize (seq 0 dim); intros rs; induction rs as [|r rs IHr]; cbn [mapM]; [discriminate|];
          destruct (mapM (fun g : list R -> list R => get (g u) r) gradients) as [db|e] eqn:Eg; cbn [bind];
          [destruct (mapM _ rs); cbn [bind]; [discriminate|intros [= ->]; now apply IHr]|];
          intros [= ->]; clear IHr; revert Eg; clear; induction gradients as [|g gs IHg]; cbn [mapM]; [discriminate|]; unfold get at 1; destruct (nth_error (g u) r); cbn [bind]; [|discriminate];
          destruct (mapM _ gs); cbn [bind]; [discriminate|]; intros [= ->]; now apply IHg].
      all: pose proof (close_iff us steps Es) as Hc; destruct (length (concat (map fst steps)) =? 0)%nat; cbn [negb guard bind]; [split; discriminate|];
        destruct (forallb (small R tol) (concat (map fst steps))) eqn:Ef.
      1,3: split; [|discriminate]; intros us' [= <-]; exists 0%nat, us; split; [lia|]; split; [constructor|]; split; [now apply Hc|]; split; [exists steps; auto|]; intros j w Hj; lia.
      - assert (Hn : ~ close_points us) by (intros H; apply Hc in H; congruence). split; [discriminate|]. intros _ k Hk. assert (k = 0)%nat as -> by lia. exists us. split; [constructor|exact Hn].
      - assert (Hn : ~ close_points us) by (intros H; apply Hc in H; congruence). destruct (IH (map snd steps)) as (IH1 & IH2). split.
        + intros us' H. destruct (IH1 us' H) as (k & y & K1 & K2 & K3 & K4 & K5). exists (S k), y. split; [lia|]. split; [econstructor; [exists steps; eauto|exact K2]|]. split; [exact K3|]. split; [exact K4|].
          intros [|j] w Hj Hw; inversion Hw as [|? ? v ? (st & Hs & ->) Hb]; subst; [exact Hn|]. assert (st = steps) by (unfold steps_of in *; congruence). subst st. apply (K5 j); [lia|exact Hb].
        + intros H [|k] Hk; [exists us; split; [constructor|exact Hn]|]. destruct (IH2 H k) as (y & K1 & K2); [lia|]. exists y. split; [|exact K2]. econstructor; [exists steps; eauto|exact K1].
    Qed.
  End Runs.

  Section Checked.
    Variable basis : list (list R -> R).
    Variable gradients : list (list R -> list R).
    Variable M : list (list R).
    Variable un : list (list R).
    Hypothesis HM : inverse_vandermonde R basis un M.
    Hypothesis Hun : Forall (fun u => length u = dim) un.
    Hypothesis Hgr : gradients_ok R dim basis gradients.
    Hypothesis Hone : exists g, in_span R dim basis gradients (fun _ => 1) g.
    Hypothesis Htol : olt 0 tol = true.
    Hypothesis Hinv0 : forall x, inv x = None -> x = 0.
    Hypothesis Hlstsq : forall df resid, Forall (fun row => length row = amb) df -> length resid = amb -> least_squares R amb df resid (lstsq df resid).
    Notation newton := (newton_point R inv lstsq tol dim amb basis gradients M).

    Lemma solve_ok df resid : length df = dim -> Forall (fun row => length row = amb) df -> length resid = amb ->
      match solve R inv lstsq dim df resid with
      | Some delta => least_squares R amb df resid delta
      | None => gram R df = 0
      end.
    Proof using Hinv Hinv0 Hlstsq.
      clear HM Hun Hgr Hone. intros Hl Hr Hres. unfold solve. destruct dim as [|[|[|n]]]; try now apply Hlstsq.
      - destruct df as [|d0 [|? ?]]; try discriminate. cbn [gram]. destruct (inv (dot d0 d0)) as [i|] eqn:Ei; cbn [option_map]; [|now apply Hinv0]. apply Hinv in Ei.
        split; [reflexivity|]. constructor; [|constructor]. unfold combination. rewrite dot_comm, dot_vecmat by (auto; reflexivity).
        unfold matvec. cbn [map]. unfold dot at 1. cbn [map2 rsum]. transitivity (dot d0 resid * (dot d0 d0 * i)); [ring|]. rewrite Ei. ring.
      - destruct df as [|d0 [|d1 [|? ?]]]; try discriminate. cbn [gram]. rewrite !(dot_comm _ d1 d0). destruct (inv (dot d0 d0 * dot d1 d1 - dot d0 d1 * dot d0 d1)) as [i|] eqn:Ei; cbn [option_map]; [|now apply Hinv0]. apply Hinv in Ei.
        split; [reflexivity|]. constructor; [|constructor; [|constructor]]; unfold combination; rewrite dot_comm, dot_vecmat by (auto; reflexivity);
          unfold matvec; cbn [map]; rewrite ?(dot_comm _ d1 d0), !dot_cons; change (dot (@nil R) (@nil R)) with (@r0 R).
        + transitivity (dot d0 resid * ((dot d0 d0 * dot d1 d1 - dot d0 d1 * dot d0 d1) * i)); [ring|]. rewrite Ei. ring.
        + transitivity (dot d1 resid * ((dot d0 d0 * dot d1 d1 - dot d0 d1 * dot d0 d1) * i)); [ring|]. rewrite Ei. ring.
    Qed.

    Lemma newton_face fc u t : face_ok R dim amb basis gradients fc -> length u = dim -> length t = amb ->
      exists u', newton (face_nodes R un fc) (Some u) t = Ok (vsub (image R (fc_fs R fc) u) t, u') /\
        newton_step R amb (derivatives R dim (fc_gs R fc) u) (vsub (image R (fc_fs R fc) u) t) u u' /\ (forall v, u' = Some v -> length v = dim).
    Proof using HM Hun Hgr Hone Htol Hinv Hinv0 Hlstsq.
      intros (Hl & HF) Hu Ht. unfold newton_point, face_nodes. rewrite (apply_image basis gradients M un HM Hun _ _ u HF Hone Htol Hl Hu). cbn [bind].
      rewrite (jacobian_image basis gradients M un HM Hun Hgr _ _ u HF Hl Hu). cbn [bind]. fold (derivatives R dim (fc_gs R fc) u).
      assert (Hd : length (derivatives R dim (fc_gs R fc) u) = dim) by (unfold derivatives; now rewrite map_length, seq_length).
      assert (Hda : Forall (fun row : list R => length row = amb) (derivatives R dim (fc_gs R fc) u)).
      { unfold derivatives. apply Forall_map, Forall_forall. intros r _. rewrite map_length, <- (Forall2_length' _ _ _ HF). exact Hl. }
      assert (Hres : length (vsub (image R (fc_fs R fc) u) t) = amb) by (unfold vsub, image; rewrite map2_length; rewrite map_length; congruence).
      pose proof (solve_ok _ _ Hd Hda Hres) as Hs. destruct (solve _ _ _ _ _ _) as [delta|]; cbn [option_map]; (eexists; split; [reflexivity|]).
      - split; [exists delta; auto|]. intros v [= <-]. destruct Hs as (Hs & _). unfold vsub. rewrite map2_length; congruence.
      - split; [exact Hs|discriminate].
    Qed.

    Definition sized (u : option (list R)) : Prop := forall v, u = Some v -> length v = dim.

    Lemma small_iff x : small R tol x = true <-> olt (- tol) x = true /\ olt x tol = true.
    Proof using. unfold small. apply andb_true_iff. Qed.

    Lemma round (faces : list (face R * list R)) us steps : Forall (fun ft => face_ok R dim amb basis gradients (fst ft) /\ length (snd ft) = amb) faces ->
      length us = length faces -> Forall sized us ->
      mapM (fun pu : (list (list R) * list R) * option (list R) => newton (fst (fst pu)) (snd pu) (snd (fst pu)))
        (combine (map (fun ft => (face_nodes R un (fst ft), snd ft)) faces) us) = Ok steps ->
      Forall2 (fun ft s => exists u, length u = dim /\ fst s = vsub (image R (fc_fs R (fst ft)) u) (snd ft) /\
                       newton_step R amb (derivatives R dim (fc_gs R (fst ft)) u) (fst s) u (snd s) /\ sized (snd s)) faces steps.
    Proof using HM Hun Hgr Hone Htol Hinv Hinv0 Hlstsq.
      intros HF Hl Hs Hst. apply mapM_ok in Hst. revert us Hl Hs steps Hst. induction HF as [|ft faces (Hf & Ht) _ IHf]; intros [|u us] Hl Hs steps Hst; try discriminate; cbn [map combine] in Hst; [inversion_clear Hst; constructor|].
      inversion_clear Hst as [|? s ? steps' Hs0 Hst']. inversion_clear Hs as [|? ? Hu Hs']. cbn [fst snd] in Hs0. constructor; [|apply (IHf us); auto].
      destruct u as [u|]; [|discriminate]. destruct (newton_face (fst ft) u (snd ft) Hf (Hu u eq_refl) Ht) as (u' & E & K1 & K2). rewrite E in Hs0.
      assert (s = (vsub (image R (fc_fs R (fst ft)) u) (snd ft), u')) as -> by congruence. exists u. cbn [fst snd]. auto.
    Qed.

    Lemma iterate_found fuel (faces : list (face R * list R)) us us' : Forall (fun ft => face_ok R dim amb basis gradients (fst ft) /\ length (snd ft) = amb) faces ->
      length us = length faces -> Forall sized us ->
      iterate R inv lstsq tol dim amb basis gradients M fuel (map (fun ft => (face_nodes R un (fst ft), snd ft)) faces) us = Ok us' ->
      Forall2 (fun ft u' => found R dim amb tol (fst ft) (snd ft) u') faces us'.
    Proof using HM Hun Hgr Hone Htol Hinv Hinv0 Hlstsq.
      intros HF. revert us. induction fuel as [|fuel IH]; intros us Hl Hs H; cbn [iterate] in H; apply bind_ok in H as (steps & Hst & H); pose proof (round faces us steps HF Hl Hs Hst) as G;
        destruct (length (concat (map fst steps)) =? 0)%nat; try discriminate; cbn [negb guard bind] in H; destruct (forallb (small R tol) (concat (map fst steps))) eqn:Ef; try discriminate.
      1,2: assert (us' = map snd steps) as -> by congruence; assert (Hsm : Forall (fun s : list R * option (list R) => Forall (fun x => small R tol x = true) (fst s)) steps)
             by (apply Forall_forall; intros s Hin; apply Forall_forall; intros x Hx; rewrite forallb_forall in Ef; apply Ef, in_concat; exists (fst s); split; [now apply in_map|exact Hx]);
           clear -G Hsm; induction G as [|ft s faces steps (u & H1 & H2 & H3 & H4) _ IHG]; cbn [map]; constructor; inversion_clear Hsm as [|? ? Hx Hsm']; [|now apply IHG];
           exists u; split; [exact H1|]; rewrite <- H2; split; [|exact H3]; unfold within; rewrite <- H2; eapply Forall_impl; [|exact Hx]; intros x; apply small_iff.
      apply (IH (map snd steps)); [rewrite map_length; symmetry; apply (Forall2_length' _ _ _ G)|clear -G; induction G as [|ft s faces steps (u & _ & _ & _ & H) _ IHG]; cbn [map]; constructor; auto|exact H].
    Qed.
  End Checked.
End GNProofs.
