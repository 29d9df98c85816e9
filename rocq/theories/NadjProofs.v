(** * NadjProofs *)
From Coq Require Import List Arith QArith Lqa Lia Bool Setoid.
From Verif Require Import Np NpFacts RestrProofs SplitProofs VisIoVertexProofs NadjModel NadjSpec.
Import ListNotations.
Local Open Scope nat_scope.

(** ** relations *)
Lemma relation_nth n pairs a : a < n -> exists l, nth_error (relation_of n pairs) a = Some l /\ forall b, In b l <-> In (a, b) pairs.
Proof.
  intros H. unfold relation_of. eexists. split.
  - rewrite nth_error_map, RestrProofs.nth_error_seq. apply Nat.ltb_lt in H. rewrite H. reflexivity.
  - cbn [Nat.add]. intros b. rewrite in_map_iff. split.
    + intros ((x & y) & <- & Hin). apply filter_In in Hin as (Hin & E). cbn [fst snd] in *. apply Nat.eqb_eq in E. now subst.
    + intros Hin. exists (a, b). split; [reflexivity|]. apply filter_In. split; [exact Hin|]. apply Nat.eqb_refl.
Qed.
Lemma relation_length n pairs : length (relation_of n pairs) = n.
Proof. unfold relation_of. now rewrite map_length, seq_length. Qed.

Lemma fold_sym rel (l : list (nat * nat)) ok : Forall (fun ab => snd ab < length rel) l ->
  exists r, foldM (fun (ok : bool) ab => if ok then others <- get rel (snd ab) ;; Ok (memb (fst ab) others) else Ok false) l ok = Ok r /\
    (r = true <-> ok = true /\ forall a b, In (a, b) l -> exists o, nth_error rel b = Some o /\ In a o).
Proof.
  revert ok. induction l as [|(a & b) l IH]; intros ok H; [exists ok; split; [reflexivity|]; split; [intros ->; split; [reflexivity|intros ? ? []]|tauto]|].
  inversion H as [|x y Hb Hl]; subst. cbn [snd fst] in *. rewrite foldM_cons. cbn [snd fst]. destruct ok.
  - destruct (get_total rel b Hb) as (o & Eo). rewrite Eo. cbn [bind]. destruct (IH (memb a o) Hl) as (r & Er & Hr). exists r. split; [exact Er|]. rewrite Hr, memb_In. apply get_ok in Eo. split.
    + intros (A & B). split; [reflexivity|]. intros a' b' [E|Hin]; [injection E as <- <-; now exists o|now apply B].
    + intros (_ & B). split; [destruct (B a b (or_introl eq_refl)) as (o' & Eo' & Ho'); congruence|]. intros a' b' Hin. apply B. now right.
  - cbn [bind]. destruct (IH false Hl) as (r & Er & Hr). exists r. split; [exact Er|]. rewrite Hr. split; intros (A & _); discriminate A.
Qed.
Lemma is_symmetric_ok rel : (forall a l b, nth_error rel a = Some l -> In b l -> b < length rel) ->
  exists r, is_symmetric rel = Ok r /\ (r = true <-> forall a l b, nth_error rel a = Some l -> In b l -> exists o, nth_error rel b = Some o /\ In a o).
Proof.
  intros H. assert (HI : forall a b, In (a, b) (concat (map (fun al => map (fun b => (fst al, b)) (snd al)) (enumerate rel))) <-> exists l, nth_error rel a = Some l /\ In b l).
  { intros a b. rewrite in_concat. split.
    - intros (x & Hx & Hin). apply in_map_iff in Hx as ((a' & l) & <- & Hl). cbn [fst snd] in Hin. apply in_map_iff in Hin as (b' & E & Hb). injection E as <- <-. exists l. split; [|exact Hb].
      apply In_enumerate in Hl. exact Hl.
    - intros (l & El & Hb). exists (map (fun b => (a, b)) l). split; [|now apply in_map]. apply in_map_iff. exists (a, l). split; [reflexivity|]. now apply In_enumerate. }
  destruct (fold_sym rel (concat (map (fun al => map (fun b => (fst al, b)) (snd al)) (enumerate rel))) true) as (r & Er & Hr).
  { apply Forall_forall. intros (a & b) Hin. apply HI in Hin as (l & El & Hb). cbn [snd]. exact (H a l b El Hb). }
  exists r. split; [exact Er|]. rewrite Hr. split.
  - intros (_ & B) a l b El Hb. apply B, HI. now exists l.
  - intros B. split; [reflexivity|]. intros a b Hin. apply HI in Hin as (l & El & Hb). exact (B a l b El Hb).
Qed.
Lemma same_set_iff a b : same_set a b = true <-> forall x, In x a <-> In x b.
Proof.
  unfold same_set. rewrite andb_true_iff, !forallb_forall. split.
  - intros (A & B) x. split; intros H; [apply memb_In, A|apply memb_In, B]; exact H.
  - intros H. split; intros x Hx; apply memb_In, H, Hx.
Qed.

(** ** numbering *)
Section Numbering.
  Variable groups : list (list (list nat)).
  Lemma sum_length (l : list (list (list nat))) : sum (map (@length _) l) = length (concat l).
  Proof. induction l as [|x l IH]; [reflexivity|]. cbn [map concat]. rewrite app_length, <- IH. reflexivity. Qed.
  Lemma base_ok ig : base groups ig = length (concat (firstn ig groups)).
  Proof. unfold base. apply sum_length. Qed.
End Numbering.
Lemma numbered_row groups ig ie e : numbered groups ig ie e -> exists g row, nth_error groups ig = Some g /\ nth_error g ie = Some row /\ nth_error (concat groups) e = Some row /\ e = base groups ig + ie.
Proof.
  intros (g & row & Hg & Hr & ->). exists g, row. rewrite base_ok. split; [exact Hg|]. split; [exact Hr|]. split; [|reflexivity]. revert ig Hg. induction groups as [|g0 gs IH]; intros ig Hg; [destruct ig; discriminate|]. destruct ig as [|ig]; cbn [firstn concat].
  - injection Hg as ->. cbn [length Nat.add]. rewrite nth_error_app1; [exact Hr|apply nth_error_Some; congruence].
  - cbn [nth_error] in Hg. rewrite app_length, nth_error_app2 by lia. replace (length g0 + length (concat (firstn ig gs)) + ie - length g0) with (length (concat (firstn ig gs)) + ie) by lia. now apply IH.
Qed.
Lemma numbered_inj groups ig ie ig' ie' e : numbered groups ig ie e -> numbered groups ig' ie' e -> ig = ig' /\ ie = ie'.
Proof.
  intros (g & row & Hg & Hr & E) (g' & row' & Hg' & Hr' & E'). revert ig ig' e Hg Hg' E E'. induction groups as [|g0 gs IH]; intros ig ig' e Hg Hg' E E'; [destruct ig; discriminate|].
  assert (ie < length g) by (apply nth_error_Some; congruence). assert (ie' < length g') by (apply nth_error_Some; congruence).
  destruct ig as [|ig]; destruct ig' as [|ig']; cbn [firstn concat nth_error length] in *.
  - split; [reflexivity|lia].
  - injection Hg as ->. rewrite app_length in E'. lia.
  - injection Hg' as ->. rewrite app_length in E. lia.
  - rewrite app_length in E, E'. destruct (IH ig ig' (e - length g0) Hg Hg') as (A & B); [lia|lia|]. split; [congruence|exact B].
Qed.
Lemma numbered_total groups e : e < length (concat groups) -> exists ig ie, numbered groups ig ie e.
Proof.
  revert e. induction groups as [|g0 gs IH]; intros e H; [cbn in H; lia|]. cbn [concat] in H. rewrite app_length in H. destruct (Nat.lt_ge_cases e (length g0)) as [L|L].
  - destruct (nth_error g0 e) as [row|] eqn:Er; [|apply nth_error_None in Er; lia]. exists 0, e, g0, row. now repeat split.
  - destruct (IH (e - length g0) ltac:(lia)) as (ig & ie & g & row & Hg & Hr & E). exists (S ig), ie, g, row. split; [exact Hg|]. split; [exact Hr|]. cbn [firstn concat]. rewrite app_length. lia.
Qed.
Lemma In_elements groups ig ie row : In (ig, ie, row) (elements groups) <-> exists g, nth_error groups ig = Some g /\ nth_error g ie = Some row.
Proof.
  unfold elements. rewrite in_concat. split.
  - intros (x & Hx & Hin). apply in_map_iff in Hx as ((ig' & g) & <- & Hg). cbn [fst snd] in Hin. apply in_map_iff in Hin as ((ie' & row') & E & Hr). cbn [fst snd] in E. injection E as <- <- <-. apply In_enumerate in Hg. apply In_enumerate in Hr. now exists g.
  - intros (g & Hg & Hr). exists (map (fun er => (ig, fst er, snd er)) (enumerate g)). split; [apply in_map_iff; exists (ig, g); split; [reflexivity|now apply In_enumerate]|]. apply in_map_iff. exists (ie, row). split; [reflexivity|now apply In_enumerate].
Qed.
Lemma numbered_iff groups ig ie e : numbered groups ig ie e <-> exists row, In (ig, ie, row) (elements groups) /\ e = base groups ig + ie.
Proof.
  split.
  - intros H. destruct (numbered_row _ _ _ _ H) as (g & row & Hg & Hr & _ & E). exists row. split; [apply In_elements; now exists g|exact E].
  - intros (row & Hin & E). apply In_elements in Hin as (g & Hg & Hr). exists g, row. rewrite base_ok in E. now repeat split.
Qed.

(** ** the transformation *)
Lemma fold_put (vertices : list pt) origin (others : list nat) ps k : Forall2 (fun i p => nth_error vertices i = Some p) others ps -> forall cols, length cols = k + length others ->
  foldM (fun cols ki => v <- get vertices (snd ki) ;; put cols (fst ki) (psub v origin)) (enumerate_from k others) cols = Ok (firstn k cols ++ map (fun p => psub p origin) ps).
Proof.
  revert ps k. induction others as [|i others IH]; intros ps k H cols Hl; inversion H as [|x p l ps' Hi Ho]; subst.
  - cbn [length] in Hl. cbn. rewrite app_nil_r, firstn_all2 by lia. reflexivity.
  - unfold enumerate_from. cbn [length seq combine]. rewrite foldM_cons. cbn [fst snd]. unfold get at 1. rewrite Hi. cbn [bind]. unfold put. cbn [length] in Hl. assert (L : (k <? length cols) = true) by (apply Nat.ltb_lt; lia). rewrite L. cbn [bind].
    change (combine (seq (S k) (length others)) others) with (enumerate_from (S k) others). rewrite (IH ps' (S k) Ho) by (rewrite length_upd; lia). f_equal. cbn [map]. change (psub p origin :: map (fun p0 => psub p0 origin) ps') with ([psub p origin] ++ map (fun p0 => psub p0 origin) ps'). rewrite app_assoc. f_equal.
    apply nth_error_ext'. intros j. destruct (Nat.lt_trichotomy j k) as [Hj|[->|Hj]].
    + rewrite nth_error_firstn, nth_error_app1 by (rewrite firstn_length; lia). rewrite nth_error_firstn. assert ((j <? S k) = true) as -> by (apply Nat.ltb_lt; lia). assert ((j <? k) = true) as -> by (apply Nat.ltb_lt; lia). apply nth_error_upd_neq. lia.
    + rewrite nth_error_firstn. assert ((k <? S k) = true) as -> by (apply Nat.ltb_lt; lia). rewrite nth_error_upd_eq by lia. rewrite nth_error_app2 by (rewrite firstn_length; lia). rewrite firstn_length, Nat.min_l by lia. rewrite Nat.sub_diag. reflexivity.
    + transitivity (@None pt); [|symmetry]; apply nth_error_None; [rewrite firstn_length; lia|rewrite app_length, firstn_length; cbn [length]; lia].
Qed.

(** ** the check, for any meaning of the test *)
Section Check.
  Variable lstsq : list pt -> pt -> list Q * option Q.
  Variable junk : nat -> list pt.
  Variable matches : pt -> list (nat * nat).
  Variable tol : Q.
  Variable vertices : list pt.
  Variable groups : list (list (list nat)).
  Variable starts neighbors : list nat.
  Variable d : nat.
  Let n := length (concat groups).

  Hypothesis Hrows : forall row, In row (concat groups) -> length row = S d /\ Forall (fun i => i < length vertices) row.
  Hypothesis Hjunk : length (junk d) = d.
  Hypothesis Hfirst : exists g0 r0, nth_error groups 0 = Some g0 /\ nth_error g0 0 = Some r0.
  Hypothesis Hstarts : n < length starts.
  Hypothesis Hnb : forall e e', neighbor starts neighbors e e' -> e' < n.
  Hypothesis Hmatch : forall v p, In v vertices -> In p (matches v) -> exists e, numbered groups (fst p) (snd p) e.

  (** the test for element e' *)
  Definition tested (e' : nat) (v : pt) : Prop := exists o ps, corners vertices groups e' (o :: ps) /\ is_connected lstsq tol (map (fun p => psub p o) ps) (psub v o) = true.
  Definition near (v : pt) (e' : nat) : Prop := exists p, In p (matches v) /\ numbered groups (fst p) (snd p) e'.
  Definition meets (e e' : nat) : Prop := e <> e' /\ exists pts v, corners vertices groups e pts /\ In v pts /\ near v e' /\ tested e' v.

  Lemma corners_total e : e < n -> exists row pts, nth_error (concat groups) e = Some row /\ Forall2 (fun i p => nth_error vertices i = Some p) row pts /\ length pts = S d.
  Proof.
    intros H. destruct (nth_error (concat groups) e) as [row|] eqn:Er; [|apply nth_error_None in Er; unfold n in H; lia]. exists row. destruct (Hrows row (nth_error_In _ _ Er)) as (L & F).
    destruct (mapM_total (get vertices) row) as (pts & Ep); [intros i Hi; apply get_total; rewrite Forall_forall in F; now apply F|]. exists pts. apply mapM_ok in Ep. split; [reflexivity|]. split; [|rewrite <- (Forall2_length' _ _ _ Ep); exact L].
    eapply Forall2_impl; [|exact Ep]. intros i p E. now apply get_ok.
  Qed.
  Lemma corners_fun e pts pts' : corners vertices groups e pts -> corners vertices groups e pts' -> pts = pts'.
  Proof.
    intros (row & Er & F) (row' & Er' & F'). rewrite Er in Er'. injection Er' as <-. clear Er. revert pts' F'. induction F as [|i p row pts Hp F IH]; intros pts' F'; inversion F'; subst; [reflexivity|]. f_equal; [congruence|now apply IH].
  Qed.
  Lemma numbered_lt ig ie e : numbered groups ig ie e -> e < n.
  Proof. intros H. destruct (numbered_row _ _ _ _ H) as (g & row & _ & _ & Er & _). unfold n. apply nth_error_Some. congruence. Qed.

  Lemma transformation_ok row o ps : Forall2 (fun i p => nth_error vertices i = Some p) row (o :: ps) -> length row = S d ->
    transformation junk (S d) vertices row = Ok (o, map (fun p => psub p o) ps).
  Proof.
    intros F L. inversion F as [|i p others ps' Hi Ho]; subst. unfold transformation. unfold get at 1. rewrite Hi. cbn [bind]. cbn [length] in L. replace (S d - 1) with d by lia. unfold enumerate. rewrite (fold_put vertices o others ps 0 Ho) by lia. reflexivity.
  Qed.

  (** one candidate *)
  Lemma found_ok ig ie v p : In v vertices -> In p (matches v) -> forall e, e = base groups ig + ie -> numbered groups ig ie e ->
    exists l, (if (fst p =? ig) && (snd p =? ie) then Ok []
        else grp <- get groups (fst p) ;; row' <- get grp (snd p) ;; oc <- transformation junk (S d) vertices row' ;;
          let e' := base groups (fst p) + snd p in
          Ok (if is_connected lstsq tol (snd oc) (psub v (fst oc)) then [(e', e); (e, e')] else [])) = Ok l /\
      forall x, In x l <-> exists e', numbered groups (fst p) (snd p) e' /\ e <> e' /\ tested e' v /\ (x = (e', e) \/ x = (e, e')).
  Proof.
    intros Hv Hp e Ee Hnum. destruct (Hmatch v p Hv Hp) as (e' & Hn'). destruct ((fst p =? ig) && (snd p =? ie)) eqn:S.
    - apply andb_true_iff in S as (S1 & S2). apply Nat.eqb_eq in S1. apply Nat.eqb_eq in S2. exists []. split; [reflexivity|]. intros x. split; [intros []|]. intros (e2 & H2 & Hne & _). exfalso. apply Hne. rewrite S1, S2 in H2.
      destruct (numbered_row _ _ _ _ H2) as (_ & _ & _ & _ & _ & E2). congruence.
    - destruct (numbered_row _ _ _ _ Hn') as (g & row' & Hg & Hr & Er & E'). unfold get at 1. rewrite Hg. cbn [bind]. unfold get at 1. rewrite Hr. cbn [bind].
      destruct (corners_total e' (numbered_lt _ _ _ Hn')) as (row2 & pts & Er2 & Fp & Lp). rewrite Er in Er2. injection Er2 as <-. destruct pts as [|o ps]; [discriminate|].
      rewrite (transformation_ok row' o ps Fp) by (apply Hrows; now apply nth_error_In in Er). cbn [bind fst snd]. cbv zeta. rewrite <- E'. eexists. split; [reflexivity|].
      assert (HT : tested e' v <-> is_connected lstsq tol (map (fun p => psub p o) ps) (psub v o) = true).
      { split; [|intros H; exists o, ps; split; [now exists row'|exact H]]. intros (o2 & ps2 & C2 & H2). assert (o :: ps = o2 :: ps2) as E by (apply (corners_fun e'); [now exists row'|exact C2]). now injection E as <- <-. }
      assert (Hne : e <> e').
      { intros E. rewrite <- E in Hn'. destruct (numbered_inj _ _ _ _ _ _ Hn' Hnum) as (A & B). rewrite A, B, !Nat.eqb_refl in S. discriminate. }
      intros x. split.
      + intros Hin. destruct (is_connected lstsq tol (map (fun p => psub p o) ps) (psub v o)) eqn:I; [|destruct Hin]. exists e'. split; [exact Hn'|]. split; [exact Hne|]. split; [now apply HT|]. destruct Hin as [<-|[<-|[]]]; auto.
      + intros (e2 & H2 & _ & T2 & Hx). assert (e2 = e') by (destruct (numbered_row _ _ _ _ H2) as (_ & _ & _ & _ & _ & E2); congruence). subst e2. apply HT in T2. rewrite T2. destruct Hx as [->| ->]; cbn [In]; auto.
  Qed.

  Lemma visit_ok ig ie row : In (ig, ie, row) (elements groups) -> exists e r, numbered groups ig ie e /\ visit lstsq junk matches tol (S d) vertices groups starts neighbors (ig, ie, row) = Ok r /\
    (forall x, In x (fst r) <-> exists e', neighbor starts neighbors e e' /\ x = (e, e')) /\ (forall x, In x (snd r) <-> exists e', meets e e' /\ (x = (e', e) \/ x = (e, e'))).
  Proof.
    intros Hin. set (e := base groups ig + ie). assert (Hnum : numbered groups ig ie e) by (apply numbered_iff; exists row; auto). pose proof (numbered_lt _ _ _ Hnum) as Le.
    assert (Er : nth_error (concat groups) e = Some row).
    { destruct (numbered_row _ _ _ _ Hnum) as (g & row2 & Hg & Hr & Er & _). apply In_elements in Hin as (g2 & Hg2 & Hr2). congruence. }
    unfold visit. fold e. destruct (get_total starts e ltac:(lia)) as (a & Ea). rewrite Ea. cbn [bind]. destruct (get_total starts (e + 1) ltac:(lia)) as (b & Eb). rewrite Eb. cbn [bind]. apply get_ok in Ea. apply get_ok in Eb.
    destruct (Hrows row (nth_error_In _ _ Er)) as (Lr & Fr). rewrite Forall_forall in Fr.
    set (F := fun v p => if (fst p =? ig) && (snd p =? ie) then Ok []
        else grp <- get groups (fst p) ;; row' <- get grp (snd p) ;; oc <- transformation junk (S d) vertices row' ;;
          let e' := base groups (fst p) + snd p in
          Ok (if is_connected lstsq tol (snd oc) (psub v (fst oc)) then [(e', e); (e, e')] else [])).
    assert (HV : forall i, In i row -> exists v l, nth_error vertices i = Some v /\ (vertex <- get vertices i ;; found <- mapM (F vertex) (matches vertex) ;; Ok (concat found)) = Ok l /\
      forall x, In x l <-> exists e', near v e' /\ e <> e' /\ tested e' v /\ (x = (e', e) \/ x = (e, e'))).
    { intros i Hi. destruct (get_total vertices i (Fr i Hi)) as (v & Ev). rewrite Ev. cbn [bind]. apply get_ok in Ev. exists v. pose proof (nth_error_In _ _ Ev) as Hv.
      destruct (mapM_total (F v) (matches v)) as (ls & El). { intros p Hp. destruct (found_ok ig ie v p Hv Hp e eq_refl Hnum) as (l & E & _). now exists l. }
      rewrite El. cbn [bind]. exists (concat ls). split; [exact Ev|]. split; [reflexivity|]. apply mapM_ok in El. intros x. rewrite in_concat. split.
      - intros (l & Hl & Hx). destruct (Forall2_In_r _ _ _ l El Hl) as (p & Hp & E). destruct (found_ok ig ie v p Hv Hp e eq_refl Hnum) as (l' & E' & H'). change (F v p = Ok l') in E'. rewrite E' in E. injection E as <-. apply H' in Hx as (e' & Hn & Hne & Ht & Hx). exists e'. split; [now exists p|auto].
      - intros (e' & (p & Hp & Hn) & Hne & Ht & Hx). destruct (Forall2_In_l _ _ _ p El Hp) as (l & Hl & E). destruct (found_ok ig ie v p Hv Hp e eq_refl Hnum) as (l' & E' & H'). change (F v p = Ok l') in E'. rewrite E' in E. injection E as <-. exists l'. split; [exact Hl|]. apply H'. exists e'. auto. }
    change (fun i => vertex <- get vertices i ;; found <- mapM (fun near => if (fst near =? ig) && (snd near =? ie) then Ok [] else
          grp <- get groups (fst near) ;; row' <- get grp (snd near) ;; oc <- transformation junk (S d) vertices row' ;;
          let e' := base groups (fst near) + snd near in Ok (if is_connected lstsq tol (snd oc) (psub vertex (fst oc)) then [(e', e); (e, e')] else [])) (matches vertex) ;; Ok (concat found))
      with (fun i => vertex <- get vertices i ;; found <- mapM (F vertex) (matches vertex) ;; Ok (concat found)).
    match goal with |- context [mapM ?f row] => destruct (mapM_total f row) as (geo & Eg) end. { intros i Hi. destruct (HV i Hi) as (v & l & _ & E & _). now exists l. }
    rewrite Eg. cbn [bind]. exists e. eexists. split; [exact Hnum|]. split; [reflexivity|]. cbn [fst snd]. split.
    - intros x. rewrite in_map_iff. split.
      + intros (nb & <- & Hnb'). apply In_nth_error in Hnb' as (k & Hk). exists nb. split; [|reflexivity]. unfold slice in Hk. rewrite nth_error_firstn in Hk. destruct (Nat.ltb_spec k (b - a)) as [L|L]; [|discriminate]. rewrite nth_error_skipn in Hk. exists a, b, (a + k). repeat split; auto; lia.
      + intros (e' & (a' & b' & k & Ha & Hb & L & Hk) & ->). assert (a' = a) by congruence. assert (b' = b) by congruence. subst a' b'. exists e'. split; [reflexivity|]. apply (nth_error_In _ (k - a)). unfold slice. rewrite nth_error_firstn.
        assert ((k - a <? b - a) = true) as -> by (apply Nat.ltb_lt; lia). rewrite nth_error_skipn. replace (a + (k - a)) with k by lia. exact Hk.
    - apply mapM_ok in Eg. intros x. rewrite in_concat. split.
      + intros (l & Hl & Hx). destruct (Forall2_In_r _ _ _ l Eg Hl) as (i & Hi & E). destruct (HV i Hi) as (v & l' & Ev & E' & H'). assert (EE : Ok l' = Ok l) by (rewrite <- E'; exact E). injection EE as <-. apply H' in Hx as (e' & Hnear & Hne & Ht & Hx). exists e'. split; [|exact Hx]. split; [exact Hne|].
        destruct (corners_total e Le) as (row2 & pts & Er2 & Fp & _). rewrite Er in Er2. injection Er2 as <-. exists pts, v. split; [now exists row|]. split; [|now split]. destruct (Forall2_In_l _ _ _ i Fp Hi) as (v' & Hv' & Ev'). congruence.
      + intros (e' & (Hne & pts & v & (row2 & Er2 & Fp) & Hv & Hnear & Ht) & Hx). rewrite Er in Er2. injection Er2 as <-. destruct (Forall2_In_r _ _ _ v Fp Hv) as (i & Hi & Ev). destruct (Forall2_In_l _ _ _ i Eg Hi) as (l & Hl & E). destruct (HV i Hi) as (v' & l' & Ev' & E' & H'). assert (EE : Ok l' = Ok l) by (rewrite <- E'; exact E). injection EE as <-. assert (v' = v) by congruence. subst v'.
        exists l'. split; [exact Hl|]. apply H'. exists e'. auto.
  Qed.

  Lemma meets_lt e e' : meets e e' -> e < n /\ e' < n.
  Proof.
    intros (_ & pts & v & (row & Er & _) & _ & (p & _ & Hn) & _). split; [unfold n; apply nth_error_Some; congruence|exact (numbered_lt _ _ _ Hn)].
  Qed.
  Lemma check_ok :
    (check lstsq junk matches tol vertices groups starts neighbors = Ok tt <-> forall e e', e < n -> (neighbor starts neighbors e e' <-> meets e e' \/ meets e' e)) /\
    (check lstsq junk matches tol vertices groups starts neighbors = Ok tt \/ check lstsq junk matches tol vertices groups starts neighbors = Err AssertionError).
  Proof.
    unfold check. destruct Hfirst as (g0 & r0 & Hg0 & Hr0). unfold get at 1 3 5. rewrite Hg0. cbn [bind]. unfold get at 1 2 3. rewrite Hr0. cbn [bind].
    assert (L0 : length r0 = S d). { apply Hrows. apply in_concat. exists g0. split; [now apply nth_error_In in Hg0|now apply nth_error_In in Hr0]. }
    rewrite L0. destruct (mapM_total (visit lstsq junk matches tol (S d) vertices groups starts neighbors) (elements groups)) as (found & Ef).
    { intros ((ig & ie) & row) Hin. destruct (visit_ok ig ie row Hin) as (e & r & _ & E & _). now exists r. }
    rewrite Ef. cbn [bind]. cbv zeta. rewrite sum_length. fold n. apply mapM_ok in Ef.
    assert (HC : forall a b, a < n -> (In (a, b) (concat (map fst found)) <-> neighbor starts neighbors a b)).
    { intros a b La. rewrite in_concat. split.
      - intros (l & Hl & Hx). apply in_map_iff in Hl as (r & <- & Hr). destruct (Forall2_In_r _ _ _ r Ef Hr) as (((ig & ie) & row) & Hin & E). destruct (visit_ok ig ie row Hin) as (e & r' & _ & E' & H1 & _). rewrite E' in E. injection E as <-. apply H1 in Hx as (e' & Hn & Ex). now injection Ex as -> ->.
      - intros Hn. destruct (numbered_total groups a La) as (ig & ie & Hnum). destruct (proj1 (numbered_iff _ _ _ _) Hnum) as (row & Hin & Ea). destruct (Forall2_In_l _ _ _ _ Ef Hin) as (r & Hr & E). destruct (visit_ok ig ie row Hin) as (e & r' & He & E' & H1 & _). rewrite E' in E. injection E as <-.
        exists (fst r'). split; [now apply in_map|]. apply H1. exists b. assert (e = a) by (destruct (numbered_row _ _ _ _ He) as (_ & _ & _ & _ & _ & E2); congruence). subst e. now split. }
    assert (HG : forall a b, a < n -> (In (a, b) (concat (map snd found)) <-> meets a b \/ meets b a)).
    { intros a b La. rewrite in_concat. split.
      - intros (l & Hl & Hx). apply in_map_iff in Hl as (r & <- & Hr). destruct (Forall2_In_r _ _ _ r Ef Hr) as (((ig & ie) & row) & Hin & E). destruct (visit_ok ig ie row Hin) as (e & r' & _ & E' & _ & H2). rewrite E' in E. injection E as <-. apply H2 in Hx as (e' & Hm & [Ex|Ex]); injection Ex as -> ->; auto.
      - intros H. assert (exists e e', meets e e' /\ ((a, b) = (e', e) \/ (a, b) = (e, e'))) as (e & e' & Hm & Hx) by (destruct H as [H|H]; [exists a, b|exists b, a]; auto).
        destruct (meets_lt e e' Hm) as (Le & _). destruct (numbered_total groups e Le) as (ig & ie & Hnum). destruct (proj1 (numbered_iff _ _ _ _) Hnum) as (row & Hin & Ea). destruct (Forall2_In_l _ _ _ _ Ef Hin) as (r & Hr & E). destruct (visit_ok ig ie row Hin) as (e2 & r' & He & E' & _ & H2). rewrite E' in E. injection E as <-.
        exists (snd r'). split; [now apply in_map|]. apply H2. exists e'. assert (e2 = e) by (destruct (numbered_row _ _ _ _ He) as (_ & _ & _ & _ & _ & E2); congruence). subst e2. now split. }
    set (con := relation_of n (concat (map fst found))). set (geo := relation_of n (concat (map snd found))).
    assert (HCn : forall a, a < n -> exists l, nth_error con a = Some l /\ forall b, In b l <-> neighbor starts neighbors a b).
    { intros a La. destruct (relation_nth n (concat (map fst found)) a La) as (l & El & Hl). exists l. split; [exact El|]. intros b. rewrite Hl. now apply HC. }
    assert (HGn : forall a, a < n -> exists l, nth_error geo a = Some l /\ forall b, In b l <-> meets a b \/ meets b a).
    { intros a La. destruct (relation_nth n (concat (map snd found)) a La) as (l & El & Hl). exists l. split; [exact El|]. intros b. rewrite Hl. now apply HG. }
    assert (Lc : length con = n) by apply relation_length. assert (Lg : length geo = n) by apply relation_length.
    destruct (is_symmetric_ok con) as (sym & Es & Hs).
    { intros a l b El Hb. assert (La : a < n) by (rewrite <- Lc; apply nth_error_Some; congruence). destruct (HCn a La) as (l' & El' & Hl'). assert (l' = l) by congruence. subst l'. apply Hl' in Hb. rewrite Lc. exact (Hnb a b Hb). }
    rewrite Es. cbn [bind].
    assert (HE : forallb (fun ab => same_set (fst ab) (snd ab)) (combine geo con) = true <-> forall e e', e < n -> (neighbor starts neighbors e e' <-> meets e e' \/ meets e' e)).
    { rewrite forallb_forall. split.
      - intros H e e' Le. destruct (HCn e Le) as (lc & Ec & Hc). destruct (HGn e Le) as (lg & Eg & Hg). assert (Hin : In (lg, lc) (combine geo con)) by (apply (nth_error_In _ e); apply SplitProofs.nth_error_combine_Some; now split).
        pose proof (proj1 (same_set_iff _ _) (H _ Hin)) as S. cbn [fst snd] in S. rewrite <- Hc, <- Hg. symmetry. apply S.
      - intros H (lg & lc) Hin. apply In_nth_error in Hin as (e & He). apply SplitProofs.nth_error_combine_Some in He as (Eg & Ec). assert (Le : e < n) by (rewrite <- Lc; apply nth_error_Some; congruence).
        destruct (HCn e Le) as (lc' & Ec' & Hc). destruct (HGn e Le) as (lg' & Eg' & Hg). assert (lc' = lc) by congruence. assert (lg' = lg) by congruence. subst lc' lg'. apply same_set_iff. intros x. cbn [fst snd]. rewrite Hc, Hg. symmetry. now apply H. }
    assert (HS : (forall e e', e < n -> (neighbor starts neighbors e e' <-> meets e e' \/ meets e' e)) -> sym = true).
    { intros H. apply Hs. intros a l b El Hb. assert (La : a < n) by (rewrite <- Lc; apply nth_error_Some; congruence). destruct (HCn a La) as (l' & El' & Hl'). assert (l' = l) by congruence. subst l'. apply Hl' in Hb. pose proof (Hnb a b Hb) as Lb. destruct (HCn b Lb) as (o & Eo & Ho). exists o. split; [exact Eo|]. apply Ho, H; [exact Lb|]. apply H in Hb; [tauto|exact La]. }
    destruct sym; cbn [guard bind].
    - destruct (forallb (fun ab => same_set (fst ab) (snd ab)) (combine geo con)); cbn [guard]; (split; [|now auto]); split; intros H; try reflexivity; try discriminate; [now apply HE|]. apply HE in H. discriminate.
    - split; [|now auto]. split; [discriminate|]. intros H. apply HS in H. discriminate.
  Qed.
End Check.

(** ** barycentric coordinates *)
Section Hull.
  Local Open Scope Q_scope.
  Lemma qdot_cons a b x y : qdot (a :: x) (b :: y) == a * b + qdot x y.
  Proof. unfold qdot. cbn [combine map fold_right fst snd]. reflexivity. Qed.
  Lemma qdot_eq a x y : Forall2 Qeq x y -> qdot a x == qdot a y.
  Proof.
    intros H. revert a. induction H as [|p q x y Hp H IH]; intros a; [reflexivity|]. destruct a as [|c a]; [reflexivity|]. rewrite !qdot_cons, Hp, IH. reflexivity.
  Qed.
  Lemma qsum_eq x y : Forall2 Qeq x y -> qsum x == qsum y.
  Proof. induction 1 as [|p q x y Hp H IH]; [reflexivity|]. unfold qsum in *. cbn [fold_right]. rewrite Hp, IH. reflexivity. Qed.
  Lemma coord_psub k a b : length a = length b -> coord k (psub a b) == coord k a - coord k b.
  Proof.
    unfold coord, psub. revert b k. induction a as [|x a IH]; intros [|y b] k H; cbn [length] in H; try discriminate.
    - destruct k; cbn; reflexivity.
    - destruct k as [|k]; cbn [combine map nth_error fst snd]; [reflexivity|]. apply IH. now injection H.
  Qed.
  Lemma qdot_psub k o ps x : length ps = length x -> Forall (fun p => length p = length o) ps ->
    qdot (map (coord k) (map (fun p => psub p o) ps)) x == qdot (map (coord k) ps) x - coord k o * qsum x.
  Proof.
    revert x. induction ps as [|p ps IH]; intros [|a x] L F; cbn [length] in L; try discriminate; [unfold qdot, qsum; cbn; ring|]. inversion F as [|? ? Hp F']; subst.
    cbn [map]. rewrite !qdot_cons, (coord_psub k p o Hp), (IH x) by (try (now injection L); assumption). unfold qsum at 2. cbn [fold_right]. fold (qsum x). ring.
  Qed.
  Lemma normsq_zero v : normsq v == 0 -> forall k, coord k v == 0.
  Proof.
    assert (NN : forall v, 0 <= normsq v).
    { induction v0 as [|x v0 IH]; [unfold normsq, qsum; cbn; lra|]. unfold normsq, qsum in *. cbn [map fold_right]. nra. }
    induction v as [|x v IH]; intros H k; [unfold coord; destruct k; reflexivity|]. unfold normsq, qsum in H. cbn [map fold_right] in H. pose proof (NN v) as N. unfold normsq, qsum in N. assert (Hx : x * x == 0) by nra. assert (Hv : normsq v == 0) by (unfold normsq, qsum; nra).
    destruct k as [|k]; [|exact (IH Hv k)]. unfold coord. cbn [nth_error]. destruct (Qmult_integral _ _ Hx); assumption.
  Qed.
  Lemma qdot_zeros a n : qdot a (repeat 0 n) == 0.
  Proof. revert a. induction n as [|n IH]; intros [|c a]; try reflexivity. cbn [repeat]. rewrite qdot_cons, IH. ring. Qed.

  Lemma connected_iff lstsq o ps v : solves lstsq (length o) (map (fun p => psub p o) ps) -> Forall (fun p => length p = length o) ps -> length v = length o ->
    is_connected lstsq 0 (map (fun p => psub p o) ps) (psub v o) = true <-> in_hull (o :: ps) v.
  Proof.
    intros Hs Hp Hv. unfold is_connected. assert (LV : length (psub v o) = length o) by (unfold psub; rewrite map_length, combine_length; lia). specialize (Hs (psub v o) LV). destruct (lstsq (map (fun p => psub p o) ps) (psub v o)) as (x & r). destruct Hs as (Lx & Hn & Hr & Hu). rewrite map_length in Lx, Hu.
    assert (HB : forall y, length y = length ps -> (combines (map (fun p => psub p o) ps) y (psub v o) <-> combines (o :: ps) ((1 - qsum y) :: y) v)).
    { intros y Ly. split; intros H k; specialize (H k).
      - cbn [map]. rewrite qdot_cons. rewrite qdot_psub, coord_psub in H by (try assumption; now symmetry). lra.
      - cbn [map] in H. rewrite qdot_cons in H. rewrite qdot_psub, coord_psub by (try assumption; now symmetry). lra. }
    rewrite !andb_true_iff, Qle_bool_iff, forallb_forall. split.
    - intros ((Hin & Hsum) & Hpos). assert (C : combines (map (fun p => psub p o) ps) x (psub v o)).
      { destruct r as [q|]; [|now apply Hn]. apply orb_true_iff in Hin as [Hz|Hz].
        - apply Qeq_bool_iff in Hz. pose proof (normsq_zero _ Hz) as Z. intros k. rewrite (qdot_eq _ x (repeat 0 (length ps))); [rewrite qdot_zeros; symmetry; apply Z|]. apply Hu; [apply repeat_length|]. intros k'. rewrite qdot_zeros. symmetry. apply Z.
        - apply andb_true_iff in Hz as (_ & Hz). apply Qle_bool_iff in Hz. apply (Hr q eq_refl). assert (q * q == 0) as Q0 by nra. destruct (Qmult_integral _ _ Q0); assumption. }
      exists ((1 - qsum x) :: x). split; [cbn [length]; congruence|]. split; [|split; [|now apply HB]].
      + constructor; [lra|]. apply Forall_forall. intros a Ha. specialize (Hpos a Ha). apply Qle_bool_iff in Hpos. lra.
      + unfold qsum at 1. cbn [fold_right]. fold (qsum x). ring.
    - intros (w & Lw & Pw & Sw & Cw). destruct w as [|w0 y]; [discriminate|]. cbn [length] in Lw. inversion Pw as [|? ? P0 Py]; subst. unfold qsum in Sw. cbn [fold_right] in Sw. fold (qsum y) in Sw.
      assert (Ly : length y = length ps) by (now injection Lw). assert (Cy : combines (map (fun p => psub p o) ps) y (psub v o)).
      { apply (HB y Ly). intros k. rewrite <- (Cw k). cbn [map]. rewrite !qdot_cons. assert (1 - qsum y == w0) as -> by lra. reflexivity. }
      pose proof (Hu y Ly Cy) as Exy. assert (Cx : combines (map (fun p => psub p o) ps) x (psub v o)) by (intros k; rewrite (qdot_eq _ x y Exy); apply Cy). split; [split|].
      + destruct r as [q|]; [|reflexivity]. apply orb_true_iff. right. apply andb_true_iff. split; [reflexivity|]. apply Qle_bool_iff. pose proof (proj2 (Hr q eq_refl) Cx) as Q0. rewrite Q0. lra.
      + rewrite (qsum_eq x y Exy). lra.
      + intros a Ha. apply Qle_bool_iff. destruct (Forall2_In_l _ _ _ a Exy Ha) as (b & Hb & E). rewrite Forall_forall in Py. specialize (Py b Hb). cbn beta in Py. rewrite E. lra.
  Qed.
End Hull.
