(** * LookupProps: C169 and C170, the search tree for elements. *)
From Coq Require Import List Arith Bool Lia ZArith.
From Verif Require Import Np NpFacts Lin Ord MeshModel MeshStateModel ProcModel BoxMapProofs LookupModel LookupSpec LookupProofs.
Import ListNotations.

Section LookupProps.
  Variable R : ocring.
  Context {A : Type}.

  (** C169: for every mesh with corners of [dim] coordinates and elements with corners, and every eps at least 0, the tree is built. Every element is
      inserted once, in order. The box of an element contains every convex combination of its corners, its bounds are coordinates of corners moved by
      eps, and it lies inside the box of the root, whose bounds are coordinates of vertices moved by eps. *)
  Theorem C169_lookup_tree dim eps (m : mesh (list (list R)) A (list R)) vs :
    m_vertices m = Some vs -> vs <> [] -> Forall (fun v => length v = dim) vs -> good_groups R m (length vs) -> ole r0 eps = true ->
    exists root entries, make_element_lookup_tree R dim eps m = Ok (root, entries) /\
      map fst entries = concat (map (fun ig => map (pair (fst ig)) (seq 0 (length (eg_nodes (snd ig))))) (enumerate (m_groups m))) /\
      tight R eps root vs /\
      forall g i b, In ((g, i), b) entries -> exists pts, element_points R m g i pts /\ box_inside R b root /\ tight R eps b pts /\
        forall p, convex_point R dim pts p -> inside R b p.
  Proof using.
    intros Ev Hne HF Hg He. destruct (points_box R dim vs Hne HF) as (lo & hi & El & Eh & Ll & Lh & Hb & Ha1 & Ha2).
    set (f := fun ig : nat * egroup (list (list R)) => mapM (fun iel => match eg_vi (snd ig) with None => Err TypeError
               | Some vi => row <- get vi iel ;; b <- element_box R dim eps vs row ;; Ok ((fst ig, iel), b) end) (seq 0 (length (eg_nodes (snd ig))))).
    assert (Hone : forall ig, In ig (enumerate (m_groups m)) -> exists l, f ig = Ok l /\ map fst l = map (pair (fst ig)) (seq 0 (length (eg_nodes (snd ig)))) /\
               forall g i b, In ((g, i), b) l -> exists pts, element_points R m g i pts /\ box_inside R b (widen R eps (lo, hi)) /\ tight R eps b pts /\ forall p, convex_point R dim pts p -> inside R b p).
    { intros [k g] Hin. cbn [fst snd]. apply In_enumerate in Hin. unfold good_groups in Hg. rewrite Forall_forall in Hg. destruct (Hg g (nth_error_In _ _ Hin)) as (vi & Evi & Hlen & Hrows).
      assert (Hel : forall iel, In iel (seq 0 (length (eg_nodes g))) -> exists b, (match eg_vi g with None => Err TypeError | Some vi => row <- get vi iel ;; b <- element_box R dim eps vs row ;; Ok ((k, iel), b) end) = Ok ((k, iel), b) /\
                 exists pts, element_points R m k iel pts /\ box_inside R b (widen R eps (lo, hi)) /\ tight R eps b pts /\ forall p, convex_point R dim pts p -> inside R b p).
      { intros iel Hi. apply in_seq in Hi. rewrite Evi. destruct (get_total vi iel) as (row & Er); [lia|]. rewrite Er. cbn [bind]. apply get_ok in Er.
        rewrite Forall_forall in Hrows. destruct (Hrows row (nth_error_In _ _ Er)) as (Hr0 & Hr).
        destruct (element_box_ok R dim eps vs row lo hi He HF Hr0 Hr Ll Lh Hb) as (pts & b & Hp & Eb & H1 & H2 & H3). rewrite Eb. cbn [bind]. exists b. split; [reflexivity|]. exists pts. split; [|auto].
        exists g, vi, row, vs. auto. }
      unfold f. cbn [fst snd]. destruct (mapM_total (fun iel => match eg_vi g with None => Err TypeError | Some vi => row <- get vi iel ;; b <- element_box R dim eps vs row ;; Ok ((k, iel), b) end) (seq 0 (length (eg_nodes g)))) as (l & El').
      { intros iel Hi. destruct (Hel iel Hi) as (b & E & _). eauto. }
      rewrite El'. exists l. split; [reflexivity|]. apply mapM_ok in El'. split.
      - clear -El' Hel. revert Hel. induction El' as [|iel e is l E El' IH]; intros Hel; [reflexivity|]. cbn [map]. rewrite IH by (intros; apply Hel; now right). destruct (Hel iel (or_introl eq_refl)) as (b & E' & _). rewrite E in E'. injection E' as ->. reflexivity.
      - intros g' i b Hin'. destruct (Forall2_In_r _ _ _ _ El' Hin') as (iel & Hi & E). destruct (Hel iel Hi) as (b' & E' & H). rewrite E in E'. injection E' as -> -> ->. exact H. }
    destruct (mapM_total f (enumerate (m_groups m))) as (entries & Ee). { intros ig Hig. destruct (Hone ig Hig) as (l & E & _). eauto. }
    exists (widen R eps (lo, hi)), (concat entries). split.
    { unfold make_element_lookup_tree, find_bounding_box. rewrite Ev. cbn [bind]. rewrite El. cbn [bind]. rewrite Eh. cbn [bind]. fold f. rewrite Ee. reflexivity. }
    apply mapM_ok in Ee. split; [|split; [now apply tight_widen|]].
    - clear -Ee Hone. revert Hone. induction Ee as [|ig l igs ls E Ee IH]; intros Hone; [reflexivity|]. cbn [map concat]. rewrite map_app, IH by (intros; apply Hone; now right).
      destruct (Hone ig (or_introl eq_refl)) as (l' & E' & Hm & _). rewrite E in E'. injection E' as <-. now rewrite Hm.
    - intros g i b Hin. apply in_concat in Hin as (l & Hl & Hin). destruct (Forall2_In_r _ _ _ _ Ee Hl) as (ig & Hig & E). destruct (Hone ig Hig) as (l' & E' & _ & H). rewrite E in E'. injection E' as <-. now apply H.
  Qed.

  (** C169: a search that returns all entries whose box contains the point finds every element the point lies in. *)
  Theorem C169_search_complete dim eps (m : mesh (list (list R)) A (list R)) vs root entries (matches : list R -> list ((nat * nat) * (list R * list R))) g i p pts :
    m_vertices m = Some vs -> vs <> [] -> Forall (fun v => length v = dim) vs -> good_groups R m (length vs) -> ole r0 eps = true ->
    make_element_lookup_tree R dim eps m = Ok (root, entries) ->
    (forall q e, In e entries -> inside R (snd e) q -> In e (matches q)) ->
    element_points R m g i pts -> convex_point R dim pts p -> In (g, i) (map fst (matches p)).
  Proof using.
    intros Ev Hne HF Hg He E Hm Hpts Hp. destruct (C169_lookup_tree dim eps m vs Ev Hne HF Hg He) as (root' & entries' & E' & Hf & _ & H). rewrite E in E'. injection E' as <- <-.
    assert (Hin : In (g, i) (map fst entries)).
    { rewrite Hf. destruct Hpts as (grp & vi & row & vs' & Hgr & Hvi & Hrow & _ & _). apply in_concat. exists (map (pair g) (seq 0 (length (eg_nodes grp)))). split.
      - apply in_map_iff. exists (g, grp). split; [reflexivity|]. now apply In_enumerate.
      - apply in_map, in_seq. unfold good_groups in Hg. rewrite Forall_forall in Hg. destruct (Hg grp (nth_error_In _ _ Hgr)) as (vi' & Hvi' & Hlen & _). rewrite Hvi in Hvi'. injection Hvi' as <-. assert (i < length vi) by (apply nth_error_Some; congruence). lia. }
    apply in_map_iff in Hin as ([gi b] & Egi & Hin). cbn [fst] in Egi. subst gi. destruct (H g i b Hin) as (pts' & Hpts' & _ & _ & Hins).
    apply in_map_iff. exists ((g, i), b). split; [reflexivity|]. apply Hm; [exact Hin|]. apply Hins.
    replace pts' with pts; [exact Hp|]. destruct Hpts as (grp & vi & row & vs1 & G1 & V1 & R1 & W1 & F1). destruct Hpts' as (grp' & vi' & row' & vs2 & G2 & V2 & R2 & W2 & F2).
    rewrite G1 in G2. injection G2 as <-. rewrite V1 in V2. injection V2 as <-. rewrite R1 in R2. injection R2 as <-. rewrite W1 in W2. injection W2 as <-.
    clear -F1 F2. revert pts' F2. induction F1 as [|v q row pts Hq F1 IH]; intros pts' F2; inversion F2 as [|v' q' row' pts'' Hq' F2']; subst; [reflexivity|]. rewrite Hq in Hq'. injection Hq' as <-. f_equal. now apply IH.
  Qed.
End LookupProps.
Print Assumptions C169_lookup_tree.
Print Assumptions C169_search_complete.

(** two triangles that share an edge, eps = 1 *)
Definition lookup_mesh : mesh (list (list Zocring)) unit (list Zocring) :=
  mk_mesh [mk_egroup (Some [[0; 1; 2]; [1; 3; 2]]) [[]; []] []] (Some [[0; 0]; [4; 0]; [0; 4]; [4; 4]]%Z) (Some true) Pending Pending 0 0 0.
Example C169_example :
  make_element_lookup_tree Zocring 2 1%Z lookup_mesh = Ok (([-1; -1], [5; 5])%Z, [((0, 0), ([-1; -1], [5; 5])%Z); ((0, 1), ([-1; -1], [5; 5])%Z)]) /\
  good_groups Zocring lookup_mesh 4 /\ convex_point Zocring 2 [[0; 0]; [4; 0]; [0; 4]]%Z [4; 0]%Z.
Proof.
  split; [vm_compute; reflexivity|]. split.
  - repeat constructor. exists [[0; 1; 2]; [1; 3; 2]]. repeat split; repeat constructor; try discriminate; lia.
  - split; [reflexivity|]. exists [0; 1; 0]%Z. repeat split; try (repeat constructor). intros a c H. destruct a as [|[|[|a]]]; cbn in H; try discriminate; injection H as <-.
    + exists [0; 4; 0]%Z. split; [repeat constructor|reflexivity].
    + exists [0; 0; 4]%Z. split; [repeat constructor|reflexivity].
Qed.

(** C170 is false: "the box of an element contains the nodes of the element". The boxes are made from the corners. A curved edge from (0, 0) to (2, 0)
    whose middle node is (1, 3) has the box [-1, 3] x [-1, 1] (eps = 1); the node lies outside, also outside the box of the root. *)
Definition curved_mesh : mesh (list (list Zocring)) unit (list Zocring) :=
  mk_mesh [mk_egroup (Some [[0; 1]]) [[[0; 0]; [1; 3]; [2; 0]]%Z] []] (Some [[0; 0]; [2; 0]]%Z) (Some true) Pending Pending 0 0 0.
Theorem C170_curved_elements_refuted :
  exists (m : mesh (list (list Zocring)) unit (list Zocring)) grp nodes node root b,
    nth_error (m_groups m) 0 = Some grp /\ nth_error (eg_nodes grp) 0 = Some nodes /\ In node nodes /\ good_groups Zocring m 2 /\
    (forall v, In v [[0; 0]; [2; 0]]%Z -> In v nodes) /\ m_vertices m = Some [[0; 0]; [2; 0]]%Z /\
    make_element_lookup_tree Zocring 2 1%Z m = Ok (root, [((0, 0), b)]) /\ ~ inside Zocring b node /\ ~ inside Zocring root node.
Proof.
  exists curved_mesh, (mk_egroup (Some [[0; 1]]) [[[0; 0]; [1; 3]; [2; 0]]%Z] []), [[0; 0]; [1; 3]; [2; 0]]%Z, [1; 3]%Z, ([-1; -1], [3; 1])%Z, ([-1; -1], [3; 1])%Z.
  split; [reflexivity|]. split; [reflexivity|]. split; [right; left; reflexivity|]. split.
  { repeat constructor. exists [[0; 1]]. repeat split; repeat constructor; try discriminate; lia. }
  split. { intros v [<-|[<-|[]]]; cbn; auto. }
  split; [reflexivity|]. split; [vm_compute; reflexivity|].
  split; intros [_ H]; inversion H as [|? ? ? ? _ H']; inversion H' as [|? ? ? ? H'' _]; discriminate.
Qed.
Print Assumptions C170_curved_elements_refuted.
