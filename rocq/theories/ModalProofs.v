(** * ModalProofs: proofs about memoised matrices, derivatives, nodal and modal data *)
From Coq Require Import List Arith Bool ZArith Lia Permutation.
From Verif Require Import Np NpFacts Lin ConnModel ConnSpec ConnProofs ModalModel ModalSpec.
Import ListNotations.

Section ModalProofs.
  Context {R : cring} {P : Type}.
  Variable E : numerics R P.
  Notation fn := (P -> R).
  Notation mat := (list (list R)).
  Notation group := (@dgroup (kind R P)).
  Notation discr := (list group).

  (** ** Keys *)
  Definition same_discretization (a b : kind R P) : Prop :=
    kd_class a = kd_class b /\ kd_dim a = kd_dim b /\ kd_order a = kd_order b /\
    basis E a = basis E b /\ unit_nodes E a = unit_nodes E b /\ weights E a = weights E b.
  Lemma key_shape (k : kind R P) key : discretization_key k = Ok key ->
    exists tl, key = AClass (kd_class k) :: AInt (Z.of_nat (kd_dim k)) :: AInt (Z.of_nat (kd_order k)) :: tl /\
      length tl = (match kd_class k with RecursiveNodes => 1 | _ => 0 end) /\ (kd_class k = RecursiveNodes -> tl = [AStr (kd_family k)]).
  Proof.
    unfold discretization_key. intros H. destruct (kd_class k); try discriminate H; injection H as <-; eexists; (split; [reflexivity|]); (split; [reflexivity|]); intros Hc; try discriminate Hc; reflexivity.
  Qed.
  Lemma key_keyed (k : kind R P) key : discretization_key k = Ok key -> kd_class k <> GivenNodes /\ kd_class k <> TensorProductGiven /\ kd_class k <> LegendreTensorProduct.
  Proof. unfold discretization_key. destruct (kd_class k); intros H; try discriminate H; repeat split; discriminate. Qed.
  Lemma key_inj_app (a b : kind R P) ka kb (u v : list atom) : discretization_key a = Ok ka -> discretization_key b = Ok kb ->
    ka ++ u = kb ++ v -> ka = kb /\ u = v.
  Proof.
    intros Ha Hb He. destruct (key_shape _ _ Ha) as (ta & -> & La & _). destruct (key_shape _ _ Hb) as (tb & -> & Lb & _).
    cbn [app] in He. injection He as Ec Ed Eo Et. rewrite Ec in La. rewrite <- La in Lb.
    assert (ta = tb /\ u = v) as (-> & ->); [|rewrite Ec, Ed, Eo; split; reflexivity].
    clear -Et Lb. revert tb Lb Et. induction ta as [|x ta IH]; intros [|y tb] L Et; try discriminate L; [split; [reflexivity|exact Et]|].
    cbn [app] in Et. injection Et as -> Et. injection L as L. destruct (IH tb L Et) as (-> & ->). split; reflexivity.
  Qed.
  Lemma key_sound (a b : kind R P) k : discretization_key a = Ok k -> discretization_key b = Ok k -> same_discretization a b.
  Proof.
    intros Ha Hb. destruct (key_shape _ _ Ha) as (ta & Ea & _ & Fa). destruct (key_shape _ _ Hb) as (tb & Eb & _ & Fb).
    destruct (key_keyed _ _ Ha) as (N1 & N2 & N3). subst k. injection Eb as Ec Ed Eo Et.
    apply Nat2Z.inj in Ed, Eo.
    assert (Ff : kd_class a = RecursiveNodes -> kd_family a = kd_family b).
    { intros H. specialize (Fa H). rewrite Ec in H. specialize (Fb H). subst ta tb. injection Fb as ->. reflexivity. }
    assert (Hb' : basis E a = basis E b) by (unfold basis; rewrite <- Ec, <- Ed, <- Eo; destruct (kd_class a); try reflexivity; congruence).
    assert (Hn' : unit_nodes E a = unit_nodes E b).
    { unfold unit_nodes. rewrite <- Ec, <- Ed, <- Eo. destruct (kd_class a) eqn:Ek; try reflexivity; try congruence. now rewrite (Ff eq_refl). }
    split; [exact Ec|]. split; [exact Ed|]. split; [exact Eo|]. split; [exact Hb'|]. split; [exact Hn'|].
    unfold weights. rewrite <- Ec, <- Ed, <- Eo, Hb', Hn'. reflexivity.
  Qed.

  (** ** Memoisation *)
  (** Every call with this key would compute this matrix *)
  Definition entry_ok (k : ckey) (m : mat) : Prop :=
    match fst k with
    | FQuadrature => forall a b, key2 a b = Ok (snd k) -> vtw (basis E b) (unit_nodes E a) (weights E a) = Ok m
    | FVandermondeInverse => forall a, key1 a = Ok (snd k) -> nm_inv E (vandermonde (basis E a) (unit_nodes E a)) = Ok m
    | FModalToNodal => forall a b, key2 a b = Ok (snd k) -> vandermonde (basis E b) (unit_nodes E a) = m
    | FDerivative => forall a axes, derivative_key a axes = Ok (snd k) -> derivative_matrix E a axes = Ok m
    | FVandermonde => forall a, key1 a = Ok (snd k) -> vandermonde (basis E a) (unit_nodes E a) = m
    end.
  Definition sound (s : actx R) : Prop := forall k m, lookup s k = Some m -> entry_ok k m.
  Definition pure {X} (m : sm R X) (r : res X) : Prop := forall s, sound s -> snd (m s) = r /\ sound (fst (m s)).

  Lemma sound_nil : sound [].
  Proof. intros k m H. discriminate H. Qed.
  Lemma sound_add s k m : sound s -> entry_ok k m -> sound ((k, m) :: s).
  Proof.
    intros Hs Hm k' m' H. unfold lookup in H. cbn [find fst] in H. destruct (ckey_eq_dec k k') as [<-|N].
    - cbn [option_map snd] in H. injection H as <-. exact Hm.
    - apply Hs. exact H.
  Qed.

  Lemma pure_sret {X} (r : res X) : pure (sret r) r.
  Proof. intros s Hs. split; [reflexivity|exact Hs]. Qed.
  Lemma pure_bind {X Y} (m : sm R X) (r : res X) (f : X -> sm R Y) (g : X -> res Y) : pure m r -> (forall x, r = Ok x -> pure (f x) (g x)) -> pure (sbind m f) (bind r g).
  Proof.
    intros Hm Hf s Hs. destruct (Hm s Hs) as (Hr & Hs'). unfold sbind. destruct (m s) as [s' [x|e]]; cbn [snd fst] in Hr, Hs'; subst r.
    - cbn [bind]. now apply Hf.
    - cbn [bind snd fst]. split; [reflexivity|exact Hs'].
  Qed.
  Lemma pure_smapM {X Y} (f : X -> sm R Y) (g : X -> res Y) l : (forall x, In x l -> pure (f x) (g x)) -> pure (smapM f l) (mapM g l).
  Proof.
    induction l as [|x l IH]; intros H; [apply pure_sret|]. cbn [smapM mapM]. apply pure_bind; [apply H; now left|]. intros y _.
    apply pure_bind; [apply IH; intros z Hz; apply H; now right|]. intros ys _. apply pure_sret.
  Qed.
  Lemma pure_memo f key compute : (forall k m, key = Ok k -> entry_ok (f, k) m -> compute = Ok m) -> (forall k m, key = Ok k -> compute = Ok m -> entry_ok (f, k) m) ->
    pure (memo f key compute) (bind key (fun _ => compute)).
  Proof.
    intros H1 H2 s Hs. unfold memo. destruct key as [k|e]; cbn [bind]; [|split; [reflexivity|exact Hs]].
    destruct (lookup s (f, k)) as [m|] eqn:El.
    - split; [symmetry; exact (H1 k m eq_refl (Hs _ _ El))|exact Hs].
    - destruct compute as [m|e]; (split; [reflexivity|]); cbn [fst]; [|exact Hs]. apply sound_add; [exact Hs|]. exact (H2 k m eq_refl eq_refl).
  Qed.

  Lemma key1_ok (a : kind R P) k : key1 a = Ok k -> exists ka, discretization_key a = Ok ka /\ k = [ka].
  Proof. unfold key1. destruct (discretization_key a) as [ka|]; cbn [bind]; intros H; [|discriminate H]. injection H as <-. exists ka. split; reflexivity. Qed.
  Lemma key2_ok (a b : kind R P) k : key2 a b = Ok k -> exists ka kb, discretization_key a = Ok ka /\ discretization_key b = Ok kb /\ k = [ka; kb].
  Proof.
    unfold key2. destruct (discretization_key a) as [ka|]; cbn [bind]; intros H; [|discriminate H]. destruct (discretization_key b) as [kb|]; cbn [bind] in H; [|discriminate H].
    injection H as <-. exists ka, kb. repeat split.
  Qed.
  Lemma derivative_key_ok (a : kind R P) axes k : derivative_key a axes = Ok k -> exists ka, discretization_key a = Ok ka /\ k = [ka ++ map AInt axes].
  Proof. unfold derivative_key. destruct (discretization_key a) as [ka|]; cbn [bind]; intros H; [|discriminate H]. injection H as <-. exists ka. split; reflexivity. Qed.
  Lemma AInt_inj (u v : list Z) : map AInt u = map AInt v -> u = v.
  Proof. revert v. induction u as [|x u IH]; intros [|y v] H; try discriminate H; [reflexivity|]. cbn [map] in H. injection H as -> H. f_equal. now apply IH. Qed.

  Ltac memo_tac := intros k m Hk He; unfold entry_ok in *; cbn [fst snd] in *.
  Lemma pure_quadrature a b : pure (memo FQuadrature (key2 a b) (vtw (basis E b) (unit_nodes E a) (weights E a))) (bind (key2 a b) (fun _ => vtw (basis E b) (unit_nodes E a) (weights E a))).
  Proof.
    apply pure_memo; memo_tac; [now apply He|]. intros a' b' Hk'. destruct (key2_ok _ _ _ Hk) as (ka & kb & Ha & Hb & ->). destruct (key2_ok _ _ _ Hk') as (ka' & kb' & Ha' & Hb' & Hq). injection Hq as <- <-.
    destruct (key_sound _ _ _ Ha Ha') as (_ & _ & _ & _ & Hn & Hw). destruct (key_sound _ _ _ Hb Hb') as (_ & _ & _ & Hf & _). now rewrite <- Hn, <- Hw, <- Hf.
  Qed.
  Lemma pure_vinv a : pure (memo FVandermondeInverse (key1 a) (nm_inv E (vandermonde (basis E a) (unit_nodes E a)))) (bind (key1 a) (fun _ => nm_inv E (vandermonde (basis E a) (unit_nodes E a)))).
  Proof.
    apply pure_memo; memo_tac; [now apply He|]. intros a' Hk'. destruct (key1_ok _ _ Hk) as (ka & Ha & ->). destruct (key1_ok _ _ Hk') as (ka' & Ha' & Hq). injection Hq as <-.
    destruct (key_sound _ _ _ Ha Ha') as (_ & _ & _ & Hb & Hn & _). now rewrite <- Hn, <- Hb.
  Qed.
  Lemma pure_m2n a b : pure (memo FModalToNodal (key2 a b) (Ok (vandermonde (basis E b) (unit_nodes E a)))) (bind (key2 a b) (fun _ => Ok (vandermonde (basis E b) (unit_nodes E a)))).
  Proof.
    apply pure_memo; memo_tac; [f_equal; now apply He|]. intros a' b' Hk'. injection He as <-. destruct (key2_ok _ _ _ Hk) as (ka & kb & Ha & Hb & ->). destruct (key2_ok _ _ _ Hk') as (ka' & kb' & Ha' & Hb' & Hq). injection Hq as <- <-.
    destruct (key_sound _ _ _ Ha Ha') as (_ & _ & _ & _ & Hn & _). destruct (key_sound _ _ _ Hb Hb') as (_ & _ & _ & Hf & _). now rewrite <- Hn, <- Hf.
  Qed.
  Lemma pure_vdm a : pure (memo FVandermonde (key1 a) (Ok (vandermonde (basis E a) (unit_nodes E a)))) (bind (key1 a) (fun _ => Ok (vandermonde (basis E a) (unit_nodes E a)))).
  Proof.
    apply pure_memo; memo_tac; [f_equal; now apply He|]. intros a' Hk'. injection He as <-. destruct (key1_ok _ _ Hk) as (ka & Ha & ->). destruct (key1_ok _ _ Hk') as (ka' & Ha' & Hq). injection Hq as <-.
    destruct (key_sound _ _ _ Ha Ha') as (_ & _ & _ & Hb & Hn & _). now rewrite <- Hn, <- Hb.
  Qed.
  Lemma pure_derivative a axes : pure (memo FDerivative (derivative_key a axes) (derivative_matrix E a axes)) (bind (derivative_key a axes) (fun _ => derivative_matrix E a axes)).
  Proof.
    apply pure_memo; memo_tac; [now apply He|]. intros a' axes' Hk'. destruct (derivative_key_ok _ _ _ Hk) as (ka & Ha & ->). destruct (derivative_key_ok _ _ _ Hk') as (ka' & Ha' & Hq). injection Hq as Hq.
    destruct (key_inj_app _ _ _ _ _ _ Ha Ha' Hq) as (<- & Hx). apply AInt_inj in Hx. subst axes'.
    destruct (key_sound _ _ _ Ha Ha') as (Hc & _ & _ & Hb & Hn & _). unfold derivative_matrix in *. now rewrite <- Hn, <- Hb, <- Hc.
  Qed.

  (** ** The functions without memoisation *)
  Definition derivative_pure (d : discr) (dim : nat) (axes : list Z) (frozen : bool) (vec : dofs R) : res (dofs R) :=
    if negb (forallb (fun g => is_interp (kd_class (dg_kind g))) d) then Err TypeError
    else match axes with
         | [] => Ok vec
         | _ =>
             let axes := isort Z.leb axes in
             if frozen then Err ValueError
             else if negb (forallb (fun a => Z.leb 0 a && Z.ltb a (Z.of_nat dim)) axes) then Err ValueError
             else mapM (fun ig : nat * group =>
                    m <- bind (derivative_key (dg_kind (snd ig)) axes) (fun _ => derivative_matrix E (dg_kind (snd ig)) axes) ;;
                    rows <- get vec (fst ig) ;; einsum m rows) (enumerate d)
         end.
  Lemma derivative_is_pure d dim axes frozen vec : pure (num_reference_derivative E d dim axes frozen vec) (derivative_pure d dim axes frozen vec).
  Proof.
    unfold num_reference_derivative, derivative_pure. destruct (negb _); [apply pure_sret|]. destruct axes as [|a axes]; [apply pure_sret|]. cbv zeta.
    destruct frozen; [apply pure_sret|]. destruct (negb _); [apply pure_sret|]. apply pure_smapM. intros [i g] _. cbn [fst snd].
    apply pure_bind; [apply pure_derivative|]. intros m _. apply pure_bind; [apply pure_sret|]. intros rows _. apply pure_sret.
  Qed.

  Definition n2m_group (allow : bool) (to : discr) (ary : dofs R) (ig : nat * group) : res (list (list R)) :=
    mg <- get to (fst ig) ;;
    let k := dg_kind (snd ig) in let mk := dg_kind mg in
    match kd_class k with
    | QuadratureSimplex =>
        if (nm_exact_to E (kd_class k) (kd_dim k) (kd_order k) <? 2 * kd_order mk) && negb allow then Err ValueError
        else rows <- get ary (fst ig) ;; m <- bind (key2 k mk) (fun _ => vtw (basis E mk) (unit_nodes E k) (weights E k)) ;; einsum m rows
    | c => if is_interp c then
             rows <- get ary (fst ig) ;; m <- bind (key1 k) (fun _ => nm_inv E (vandermonde (basis E k) (unit_nodes E k))) ;; einsum m rows
           else Err NotImplementedError
    end.
  Definition n2m_pure (allow : bool) (from to : discr) (ary : dofs R) : res (dofs R) :=
    if negb (length ary =? length from) then Err ValueError else mapM (n2m_group allow to ary) (enumerate from).
  Lemma n2m_is_pure allow from to ary : pure (nodal_to_modal E allow from to ary) (n2m_pure allow from to ary).
  Proof.
    unfold nodal_to_modal, n2m_pure. destruct (negb _); [apply pure_sret|]. apply pure_smapM. intros [i g] _. unfold n2m_group. cbn [fst snd].
    apply pure_bind; [apply pure_sret|]. intros mg _. cbv zeta.
    destruct (kd_class (dg_kind g)); cbn [is_interp];
      first [ apply pure_sret
            | apply pure_bind; [apply pure_sret|]; intros rows _; apply pure_bind; [apply pure_vinv|]; intros m _; apply pure_sret
            | destruct (_ && _); [apply pure_sret|]; apply pure_bind; [apply pure_sret|]; intros rows _; apply pure_bind; [apply pure_quadrature|]; intros m _; apply pure_sret ].
  Qed.

  Definition m2n_pure (from to : discr) (ary : dofs R) : res (dofs R) :=
    if negb (length ary =? length from) then Err ValueError
    else mapM (fun ig : nat * group =>
           fg <- get from (fst ig) ;;
           m <- bind (key2 (dg_kind (snd ig)) (dg_kind fg)) (fun _ => Ok (vandermonde (basis E (dg_kind fg)) (unit_nodes E (dg_kind (snd ig))))) ;;
           rows <- get ary (fst ig) ;; einsum m rows) (enumerate to).
  Lemma m2n_is_pure from to ary : pure (modal_to_nodal E from to ary) (m2n_pure from to ary).
  Proof.
    unfold modal_to_nodal, m2n_pure. destruct (negb _); [apply pure_sret|]. apply pure_smapM. intros [i g] _. cbn [fst snd].
    apply pure_bind; [apply pure_sret|]. intros fg _. apply pure_bind; [apply pure_m2n|]. intros m _. apply pure_bind; [apply pure_sret|]. intros rows _. apply pure_sret.
  Qed.

  Definition l2_pure (c : @conn (list P) (kind R P)) (ary : dofs R) : res (dofs R) :=
    coefs <- l2_coefficients E c ary ;;
    if negb (length (cn_from c) =? length coefs) then Err ValueError
    else mapM (fun gc : group * list (list R) =>
           m <- bind (key1 (dg_kind (fst gc))) (fun _ => Ok (vandermonde (basis E (dg_kind (fst gc))) (unit_nodes E (dg_kind (fst gc))))) ;;
           einsum m (snd gc)) (combine (cn_from c) coefs).
  Lemma l2_is_pure c ary : pure (l2_call E c ary) (l2_pure c ary).
  Proof.
    unfold l2_call, l2_pure. apply pure_bind; [apply pure_sret|]. intros coefs _. destruct (negb _); [apply pure_sret|]. apply pure_smapM. intros [g rows] _. cbn [fst snd].
    apply pure_bind; [apply pure_vdm|]. intros m _. apply pure_sret.
  Qed.

  Fixpoint inverse_pure (v : inverse R P) (ary : dofs R) : res (dofs R) :=
    match v with
    | InvDirect c => l2_pure c ary
    | InvSame _ => Ok ary
    | InvChain l => (fix go (l : list (inverse R P)) (ary : dofs R) : res (dofs R) :=
                       match l with [] => Ok ary | v :: l => a <- inverse_pure v ary ;; go l a end) l ary
    end.
  Lemma inverse_ind' (Q : inverse R P -> Prop) : (forall c, Q (InvDirect c)) -> (forall x, Q (InvSame x)) -> (forall l, Forall Q l -> Q (InvChain l)) -> forall v, Q v.
  Proof.
    intros H1 H2 H3. fix IH 1. intros [c|x|l]; [apply H1|apply H2|]. apply H3. revert l. fix go 1. intros [|v l]; [constructor|constructor; [apply IH|apply go]].
  Qed.
  Lemma inverse_is_pure v : forall ary, pure (inverse_call E v ary) (inverse_pure v ary).
  Proof.
    induction v as [c|x|l IH] using inverse_ind'; intros ary; [apply l2_is_pure|apply pure_sret|].
    cbn [inverse_call inverse_pure]. revert ary. induction IH as [|v l Hv _ IHl]; intros ary; [apply pure_sret|]. apply pure_bind; [apply Hv|]. intros a _. apply IHl.
  Qed.

  Definition run_pure (o : op) : res (dofs R) :=
    match o with
    | ODerivative d dim axes frozen vec => derivative_pure d dim axes frozen vec
    | ONodalToModal allow from to ary => n2m_pure allow from to ary
    | OModalToNodal from to ary => m2n_pure from to ary
    | OProject v ary => inverse_pure v ary
    end.
  Lemma run_is_pure o : pure (run E o) (run_pure o).
  Proof. destruct o; [apply derivative_is_pure|apply n2m_is_pure|apply m2n_is_pure|apply inverse_is_pure]. Qed.
  Lemma reached_sound s : reached E s -> sound s.
  Proof. induction 1 as [|o s _ IH]; [exact sound_nil|]. exact (proj2 (run_is_pure o s IH)). Qed.
  Lemma run_reached o s : reached E s -> snd (run E o s) = run_pure o.
  Proof. intros H. exact (proj1 (run_is_pure o s (reached_sound s H))). Qed.

  (** ** Values *)
  Lemma map2_map_l {X Y Z' W} (f : Y -> Z' -> W) (g : X -> Y) l l' : map2 f (map g l) l' = map2 (fun x y => f (g x) y) l l'.
  Proof. revert l'. induction l as [|x l IH]; intros [|y l']; cbn [map map2]; [reflexivity..|]. f_equal. apply IH. Qed.
  Lemma map2_map_r {X Y Z' W} (f : X -> Z' -> W) (g : Y -> Z') l l' : map2 f l (map g l') = map2 (fun x y => f x (g y)) l l'.
  Proof. revert l'. induction l as [|x l IH]; intros [|y l']; cbn [map map2]; [reflexivity..|]. f_equal. apply IH. Qed.
  Lemma matvec_vandermonde (fs : list fn) xs c : matvec (vandermonde fs xs) c = values fs c xs.
  Proof. unfold matvec, vandermonde, values. rewrite map_map. apply map_ext. intros x. unfold dot. now rewrite map2_map_l. Qed.
  Lemma vandermonde_mat (fs : list fn) xs : is_mat (length xs) (length fs) (vandermonde fs xs).
  Proof. unfold vandermonde. split; [apply map_length|]. apply Forall_forall. intros r Hr. apply in_map_iff in Hr. destruct Hr as (x & <- & _). apply map_length. Qed.
  Lemma values_length (fs : list fn) c xs : length (values fs c xs) = length xs.
  Proof. apply map_length. Qed.

  Lemma einsum_ok (m : mat) rows nr nc : is_mat nr nc m -> Forall (fun x => length x = nc) rows -> einsum m rows = Ok (map (matvec m) rows).
  Proof.
    intros (_ & Hm) Hr. unfold einsum. assert (Hg : forallb (fun x : list R => forallb (fun row : list R => length row =? length x) m) rows = true).
    { apply forallb_forall. intros x Hx. apply forallb_forall. intros row Hrow. apply Nat.eqb_eq. rewrite (proj1 (Forall_forall _ _) Hm _ Hrow), (proj1 (Forall_forall _ _) Hr _ Hx). reflexivity. }
    rewrite Hg. reflexivity.
  Qed.
  Lemma unisolvent_inv (fs : list fn) xs : inv_ok E fs xs -> unisolvent fs xs ->
    exists W, nm_inv E (vandermonde fs xs) = Ok W /\ is_mat (length xs) (length xs) W /\
      (forall c, length c = length xs -> matvec W (values fs c xs) = c) /\ (forall v, length v = length xs -> values fs (matvec W v) xs = v).
  Proof. intros Hi (W & HW & Hl & H1 & H2). exists W. split; [now apply Hi|auto]. Qed.

  (** Arrays group by group *)
  Lemma mapM_enumerate {X} (f : nat * group -> res X) (Q : nat -> group -> X -> Prop) (d : discr) :
    (forall i g, nth_error d i = Some g -> exists y, f (i, g) = Ok y /\ Q i g y) ->
    exists ys, mapM f (enumerate d) = Ok ys /\ length ys = length d /\ forall i g y, nth_error d i = Some g -> nth_error ys i = Some y -> Q i g y.
  Proof.
    intros H. destruct (mapM_total f (enumerate d)) as (ys & Hys).
    { intros [i g] Hin. apply In_nth_error in Hin. destruct Hin as (j & Hj). rewrite nth_error_enumerate in Hj. destruct (nth_error d j) as [g'|] eqn:Eg; [|discriminate Hj].
      cbn [option_map] in Hj. injection Hj as <- <-. destruct (H _ _ Eg) as (y & Hy & _). exists y. exact Hy. }
    exists ys. split; [exact Hys|]. pose proof (proj1 (mapM_ok _ _ _) Hys) as F. split; [rewrite <- (Forall2_length' _ _ _ F); apply length_enumerate|].
    intros i g y Hg Hy. assert (He : nth_error (enumerate d) i = Some (i, g)) by (rewrite nth_error_enumerate, Hg; reflexivity).
    destruct (Forall2_nth_error _ _ _ i (i, g) F He) as (y0 & Hy0 & Hf). rewrite Hy in Hy0. injection Hy0 as <-.
    destruct (H _ _ Hg) as (y' & Hy' & HQ). rewrite Hf in Hy'. injection Hy' as <-. exact HQ.
  Qed.

  Lemma on_discr_rows (d : discr) (ary : dofs R) i g : on_discr d ary -> nth_error d i = Some g ->
    exists x, nth_error ary i = Some x /\ length x = dg_nel g /\ Forall (fun row => length row = dg_ndof g) x.
  Proof. intros H Hg. destruct (Forall2_nth_error _ _ _ _ _ H Hg) as (x & Hx & Hl & Hr). exists x. auto. Qed.
  Lemma on_discr_intro (d : discr) (ary : dofs R) : length ary = length d ->
    (forall i g x, nth_error d i = Some g -> nth_error ary i = Some x -> length x = dg_nel g /\ Forall (fun row => length row = dg_ndof g) x) -> on_discr d ary.
  Proof. intros Hl H. apply Forall2_intro_nth; [symmetry; exact Hl|]. exact H. Qed.
  Lemma Forall2_map_r' {X Y} (Q : X -> Y -> Prop) (f : X -> Y) l : (forall x, In x l -> Q x (f x)) -> Forall2 Q l (map f l).
  Proof. induction l as [|x l IH]; intros H; constructor; [apply H; now left|apply IH; intros y Hy; apply H; now right]. Qed.
  Lemma Forall2_map_l' {X Y} (Q : X -> Y -> Prop) (f : Y -> X) l : (forall x, In x l -> Q (f x) x) -> Forall2 Q (map f l) l.
  Proof. induction l as [|x l IH]; intros H; constructor; [apply H; now left|apply IH; intros y Hy; apply H; now right]. Qed.

  Lemma modal_keyed (k : kind R P) : is_modal_class (kd_class k) = true -> keyed k.
  Proof. unfold keyed, discretization_key. destruct (kd_class k); intros H; try discriminate H; eexists; reflexivity. Qed.
  Lemma keyed1 (k : kind R P) : keyed k -> exists key, key1 k = Ok key.
  Proof. intros (key & H). unfold key1. rewrite H. eexists. reflexivity. Qed.
  Lemma keyed2 (a b : kind R P) : keyed a -> keyed b -> exists key, key2 a b = Ok key.
  Proof. intros (ka & Ha) (kb & Hb). unfold key2. rewrite Ha. cbn [bind]. rewrite Hb. eexists. reflexivity. Qed.

  (** ** Modal to nodal *)
  Lemma m2n_ok (from to : discr) (c : dofs R) : modal_ok E from -> nodal_ok E to -> Forall2 (fun m g => keyed (dg_kind g) /\ dg_nel g = dg_nel m) from to -> on_discr from c ->
    exists v, m2n_pure from to c = Ok v /\ on_discr to v /\ coefficients_of E to from v c.
  Proof.
    intros Hm Hn Hk Hc. unfold m2n_pure. pose proof (Forall2_length' _ _ _ Hc) as Lc. pose proof (Forall2_length' _ _ _ Hk) as Lk.
    rewrite <- Lc, Nat.eqb_refl. cbn [negb].
    match goal with |- context [mapM ?f (enumerate to)] => set (F := f) end.
    destruct (mapM_enumerate F (fun i g y => exists m x, nth_error from i = Some m /\ nth_error c i = Some x /\ length y = dg_nel g /\ Forall (fun row => length row = dg_ndof g) y /\
        y = map (fun w => values (basis E (dg_kind m)) w (unit_nodes E (dg_kind g))) x) to) as (v & Hv & Lv & Hq).
    { intros i g Hg. destruct (Forall2_nth_error_r _ _ _ _ _ Hk Hg) as (m & Hgm & Hkey & Hnel). destruct (on_discr_rows _ _ _ _ Hc Hgm) as (x & Hx & Lx & Hr).
      destruct (proj1 (Forall_forall _ _) Hm m (nth_error_In _ _ Hgm)) as (Hcl & Hnd). destruct (proj1 (Forall_forall _ _) Hn g (nth_error_In _ _ Hg)) as (_ & Hng).
      destruct (keyed2 (dg_kind g) (dg_kind m) Hkey (modal_keyed _ Hcl)) as (key & Hkk).
      exists (map (fun w => values (basis E (dg_kind m)) w (unit_nodes E (dg_kind g))) x). split.
      - unfold F. cbn [fst snd]. unfold get. rewrite Hgm. cbn [bind]. rewrite Hkk. cbn [bind]. rewrite Hx. cbn [bind].
        rewrite (einsum_ok _ _ _ _ (vandermonde_mat (basis E (dg_kind m)) (unit_nodes E (dg_kind g)))).
        + f_equal. apply map_ext. intros w. apply matvec_vandermonde.
        + rewrite <- Hnd. exact Hr.
      - exists m, x. split; [exact Hgm|]. split; [exact Hx|]. split; [rewrite map_length; congruence|]. split; [|reflexivity].
        apply Forall_forall. intros row Hrow. apply in_map_iff in Hrow. destruct Hrow as (w & <- & _). rewrite values_length. congruence. }
    exists v. split; [exact Hv|]. split.
    - apply on_discr_intro; [exact Lv|]. intros i g x Hg Hx. destruct (Hq _ _ _ Hg Hx) as (m & x' & _ & _ & H1 & H2 & _). auto.
    - intros i g m x a Hg Hm' Hx Ha. destruct (Hq _ _ _ Hg Hx) as (m' & x' & Hm'' & Hx' & _ & _ & ->). rewrite Hm' in Hm''. injection Hm'' as <-. rewrite Ha in Hx'. injection Hx' as <-.
      apply Forall2_map_l'. reflexivity.
  Qed.

  (** Values and coefficients determine each other *)
  Lemma coefficients_values (from to : discr) v v' c : on_discr from v -> on_discr from v' -> on_discr to c -> length from = length to ->
    coefficients_of E from to v c -> coefficients_of E from to v' c -> v = v'.
  Proof.
    intros Hv Hv' Hc Hl H H'. apply nth_error_ext'. intros i. destruct (nth_error from i) as [g|] eqn:Eg.
    - destruct (on_discr_rows _ _ _ _ Hv Eg) as (x & Hx & _). destruct (on_discr_rows _ _ _ _ Hv' Eg) as (x' & Hx' & _).
      assert (exists m, nth_error to i = Some m) as (m & Em). { destruct (nth_error to i) as [m|] eqn:Em; [exists m; reflexivity|]. apply nth_error_None in Em. assert (i < length from) by (apply nth_error_Some; congruence). lia. }
      destruct (on_discr_rows _ _ _ _ Hc Em) as (a & Ha & _). rewrite Hx, Hx'. f_equal.
      pose proof (H _ _ _ _ _ Eg Em Hx Ha) as F. pose proof (H' _ _ _ _ _ Eg Em Hx' Ha) as F'. clear -F F'. revert x' F'. induction F as [|? ? ? ? -> _ IH]; intros x' F'; inversion F'; subst; [reflexivity|]. f_equal. now apply IH.
    - apply nth_error_None in Eg. rewrite (proj2 (nth_error_None v i)), (proj2 (nth_error_None v' i)); [reflexivity| |]; [rewrite <- (Forall2_length' _ _ _ Hv')|rewrite <- (Forall2_length' _ _ _ Hv)]; exact Eg.
  Qed.

  (** ** Nodal to modal, interpolatory groups *)
  Lemma n2m_interp_ok allow (from to : discr) (ary : dofs R) : nodal_ok E from -> modal_ok E to -> Forall2 (interpolates E) from to -> on_discr from ary ->
    exists c, n2m_pure allow from to ary = Ok c /\ on_discr to c /\ coefficients_of E from to ary c /\
      forall c', on_discr to c' -> coefficients_of E from to ary c' -> c' = c.
  Proof.
    intros Hn Hm Hk Ha. unfold n2m_pure. pose proof (Forall2_length' _ _ _ Ha) as La. pose proof (Forall2_length' _ _ _ Hk) as Lk.
    rewrite <- La, Nat.eqb_refl. cbn [negb].
    destruct (mapM_enumerate (n2m_group allow to ary) (fun i g y => exists m x W, nth_error to i = Some m /\ nth_error ary i = Some x /\ interpolates E g m /\ length x = dg_nel g /\
        dg_ndof m = dg_ndof g /\ is_mat (dg_ndof g) (dg_ndof g) W /\ y = map (matvec W) x /\ Forall (fun row => length row = dg_ndof g) x /\
        (forall c, length c = dg_ndof g -> matvec W (values (basis E (dg_kind m)) c (unit_nodes E (dg_kind g))) = c) /\
        (forall v, length v = dg_ndof g -> values (basis E (dg_kind m)) (matvec W v) (unit_nodes E (dg_kind g)) = v)) from) as (c & Hc & Lc & Hq).
    { intros i g Hg. destruct (Forall2_nth_error _ _ _ _ _ Hk Hg) as (m & Hgm & Hint). pose proof Hint as (Hcl & Hkey & Hnel & Hb & Huni & Hi).
      destruct (on_discr_rows _ _ _ _ Ha Hg) as (x & Hx & Lx & Hr). destruct (unisolvent_inv _ _ Hi Huni) as (W & HW & HWm & H1 & H2).
      destruct (proj1 (Forall_forall _ _) Hm m (nth_error_In _ _ Hgm)) as (Hmc & Hmd). destruct (proj1 (Forall_forall _ _) Hn g (nth_error_In _ _ Hg)) as (_ & Hng).
      destruct (keyed1 _ Hkey) as (key & Hkk). rewrite <- Hng in HWm, H1, H2.
      assert (Hnd : dg_ndof m = dg_ndof g) by (destruct Huni as (_ & _ & Hfl & _); rewrite Hmd, Hng, Hb; exact Hfl).
      exists (map (matvec W) x). split.
      - unfold n2m_group. cbn [fst snd]. unfold get. rewrite Hgm. cbn [bind]. rewrite Hx. cbn [bind]. rewrite Hkk. cbn [bind]. rewrite HW. cbn [bind]. rewrite (einsum_ok _ _ _ _ HWm Hr). cbn [bind].
        destruct (kd_class (dg_kind g)); try discriminate Hcl; reflexivity.
      - exists m, x, W. rewrite Hb. repeat (split; [first [exact Hgm|exact Hx|exact Hint|exact Lx|exact Hnd|exact HWm|reflexivity|exact Hr|exact H1]|]). exact H2. }
    exists c. split; [exact Hc|]. split; [|split].
    - apply on_discr_intro; [congruence|]. intros i m y Hgm Hy.
      assert (exists g, nth_error from i = Some g) as (g & Hg). { destruct (nth_error from i) as [g|] eqn:Eg; [exists g; reflexivity|]. apply nth_error_None in Eg. assert (i < length to) by (apply nth_error_Some; congruence). lia. }
      destruct (Hq _ _ _ Hg Hy) as (m' & x & W & Hm' & _ & (_ & _ & Hnel & _) & Lx & Hnd & (HWl & _) & -> & _). rewrite Hgm in Hm'. injection Hm' as <-.
      split; [rewrite map_length; congruence|]. apply Forall_forall. intros row Hrow. apply in_map_iff in Hrow. destruct Hrow as (w & <- & _). rewrite matvec_length. congruence.
    - intros i g m x a Hg Hgm Hx Hy. destruct (Hq _ _ _ Hg Hy) as (m' & x' & W & Hm' & Hx' & _ & _ & _ & _ & -> & Hr & _ & H2). rewrite Hgm in Hm'. injection Hm' as <-. rewrite Hx in Hx'. injection Hx' as <-.
      apply Forall2_map_r'. intros v Hv. symmetry. apply H2. exact (proj1 (Forall_forall _ _) Hr v Hv).
    - intros c' Hc' Hco. apply nth_error_ext'. intros i. destruct (nth_error from i) as [g|] eqn:Eg.
      + assert (exists y, nth_error c i = Some y) as (y & Hy). { destruct (nth_error c i) as [y|] eqn:Ey; [exists y; reflexivity|]. apply nth_error_None in Ey. assert (i < length from) by (apply nth_error_Some; congruence). lia. }
        destruct (Hq _ _ _ Eg Hy) as (m & x & W & Hgm & Hx & _ & _ & Hnd & _ & -> & _ & H1 & _). destruct (on_discr_rows _ _ _ _ Hc' Hgm) as (a & Ha' & _ & Hra). rewrite Hy, Ha'. f_equal.
        pose proof (Hco _ _ _ _ _ Eg Hgm Hx Ha') as F. rewrite Hnd in Hra. clear -F Hra H1. induction F as [|? w ? ? -> _ IH]; [reflexivity|]. inversion Hra; subst. cbn [map]. f_equal; [symmetry; now apply H1|now apply IH].
      + apply nth_error_None in Eg. rewrite (proj2 (nth_error_None c i)), (proj2 (nth_error_None c' i)); [reflexivity| |rewrite Lc; exact Eg]. rewrite <- (Forall2_length' _ _ _ Hc'). rewrite <- Lk. exact Eg.
  Qed.
End ModalProofs.
