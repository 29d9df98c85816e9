(** * GmshProps: properties C47 and C96 to C99 of meshes read from Gmsh files. *)
From Coq Require Import List Arith Bool Lia Permutation Sorted ZArith.
From Verif Require Import Np NpFacts MeshModel MeshSpec MeshStateModel Lin RestrProofs ProcModel ProcSpec FlipProofs MeshProofs FacialProofs CompletionProofs MeshProps GmshModel GmshSpec GmshProofs GmshMeshProofs.
Import ListNotations.

Section Gmsh.
  Variable R : cring.
  Context {A : Type}.
  Variable aff_id : A.
  Variable tag_order : list btag -> list btag.
  Hypothesis Htag_order : forall l t, In t (tag_order l) <-> In t l.
  Variables (kind : nat -> gkind) (dimensions vertex_count node_count : nat -> nat).
  Variables (fvi : nat -> list (list nat)) (shuffle : nat -> list nat) (flip_matrix : nat -> list (list R)).
  Local Notation get_mesh := (get_mesh R aff_id tag_order kind dimensions vertex_count node_count fvi shuffle flip_matrix).
  Local Notation represents := (represents R kind dimensions fvi shuffle flip_matrix).
  Local Notation well_formed := (well_formed R kind dimensions fvi shuffle vertex_count node_count).

  (** ** C47: the mesh and the map of tags do not depend on the order of callbacks *)
  Theorem C47_order_independent f evs evs' : numbered R f -> consistent_tags (gf_tags f) -> delivers R f evs -> delivers R f evs' ->
    exists s s', receive R evs = Ok s /\ receive R evs' = Ok s' /\ get_mesh s = get_mesh s'.
  Proof using Type.
    intros Hn Hc Hd Hd'. destruct (receive_received R f evs Hn Hc Hd) as (s & H1 & H2). destruct (receive_received R f evs' Hn Hc Hd') as (s' & H1' & H2'). exists s, s'. split; [exact H1|]. split; [exact H1'|].
    exact (get_mesh_same R aff_id tag_order kind dimensions vertex_count node_count fvi shuffle flip_matrix f s s' H2 H2').
  Qed.

  (** each tag maps to exactly the mesh-wide numbers of the elements marked with it, in order; an element with several tag numbers for one name is listed
      as often *)
  Definition tag_lists (f : gfile R) (nrs : list (list nat)) (tss : list (list nat)) : Prop := Forall2 (fun nr ts => exists e, file_elem R f nr e ts) (concat nrs) tss.
  Theorem C47_volume_tags f evs s m tte : numbered R f -> consistent_tags (gf_tags f) -> delivers R f evs -> receive R evs = Ok s -> get_mesh s = Ok (m, tte) ->
    exists d nrs tss, represents f d nrs (m_groups m) /\ tag_lists f nrs tss /\
      (forall name, assoc name tte = match flat_map (fun kt : nat * list nat => repeat (fst kt) (marks R f name (snd kt))) (enumerate tss) with [] => None | l => Some l end) /\
      (forall name k, (exists l, assoc name tte = Some l /\ In k l) <-> exists ts d', nth_error tss k = Some ts /\ has_mark R f ts name d').
  Proof using Type.
    intros Hn Hc Hd Hs Hm. destruct (receive_received R f evs Hn Hc Hd) as (s' & H1 & Hrec). assert (s' = s) by congruence. subst s'. pose proof Hrec as (_ & _ & T1 & _).
    destruct (get_mesh_parts R aff_id tag_order kind dimensions vertex_count node_count fvi shuffle flip_matrix f s m tte Hrec Hn Hm) as (pts & els & d & h & ft & groups & P1 & P3 & P2 & E3 & Hb & Hh & (Hamb & Hbg) & E1 & Hft & G1 & G2 & G3).
    set (amb := match pts with [] => 0 | p :: _ => length p end) in *.
    pose proof (build_groups_ok R kind dimensions vertex_count node_count fvi shuffle flip_matrix amb pts (rc_tags R s) (gf_tags f) T1 d (rc_elems R s) els h groups tte ltac:(now rewrite E1) ltac:(now rewrite E1) Hbg) as (HF & Htte). rewrite Hh in HF, Htte.
    set (tys := filter (fun ty => dimensions ty =? d) (firsts els)) in *. exists d, (map (nrs_of els) tys), (concat (map (fun ty => map snd (sel els ty)) tys)).
    split; [rewrite G1; exact (groups_represent R kind dimensions vertex_count node_count fvi shuffle flip_matrix f els d pts amb groups E3 Hb P3 Hamb HF)|]. split.
    { unfold tag_lists. generalize tys. clear -E3. induction tys as [|ty tys IH]; [constructor|]. cbn [map concat]. apply Forall2_app; [|exact IH]. pose proof (nrs_sel els ty) as Hns. induction Hns as [|nr (e, ts) l l' H _ IHl]; [constructor|]. cbn [map]. constructor; [exists e; now apply E3|exact IHl]. }
    assert (Hexact : forall name, assoc name tte = match flat_map (fun kt : nat * list nat => repeat (fst kt) (marks R f name (snd kt))) (enumerate (concat (map (fun ty => map snd (sel els ty)) tys))) with [] => None | l => Some l end).
    { intros name. set (tss := concat (map (fun ty => map snd (sel els ty)) tys)).
      assert (Hnds : concat (map (fun ty => map (fun et : gelem * list nat => nds (gf_tags f) (snd et)) (sel els ty)) tys) = map (nds (gf_tags f)) tss) by (unfold tss; rewrite concat_map, map_map; f_equal; apply map_ext; intros ty; now rewrite map_map).
      rewrite Hnds in Htte.
      assert (Hflat : forall l k, flat_map (fun kn : nat * list (nat * nat) => repeat (fst kn) (length (filter (fun nd => fst nd =? name) (snd kn)))) (enumerate_from k (map (nds (gf_tags f)) l)) = flat_map (fun kt : nat * list nat => repeat (fst kt) (marks R f name (snd kt))) (enumerate_from k l)).
      { induction l as [|ts l IH]; intros k; [reflexivity|]. cbn [map]. rewrite !enumerate_from_cons. cbn [flat_map fst snd]. rewrite IH, marks_nds by exact Hc. reflexivity. }
      pose proof (marked_fold_get name (enumerate (map (nds (gf_tags f)) tss)) []) as Hg. rewrite <- Htte in Hg. unfold enumerate in Hg. rewrite Hflat in Hg. cbn [app] in Hg. unfold enumerate. pose proof (marked_fold_some (enumerate (map (nds (gf_tags f)) tss)) [] ltac:(intros ?; discriminate) name) as Hne. rewrite <- Htte in Hne.
      unfold tget at 1 in Hg. change (tget [] name) with (@nil nat) in Hg. cbn [app] in Hg. rewrite <- Hg. destruct (assoc name tte) as [[|x l]|]; [congruence|reflexivity|reflexivity]. }
    split; [exact Hexact|]. intros name k. rewrite Hexact. set (tss := concat (map (fun ty => map snd (sel els ty)) tys)). set (L := flat_map _ _).
    assert (HL : In k L <-> exists ts, nth_error tss k = Some ts /\ 0 < marks R f name ts).
    { unfold L. rewrite in_flat_map. split.
      - intros ((k', ts) & Hin & Hr). cbn [fst snd] in Hr. assert (k = k') by (exact (repeat_spec _ _ _ Hr)). subst k'. apply In_nth_error in Hin. destruct Hin as (j & Hj). rewrite nth_error_enumerate in Hj. destruct (nth_error tss j) as [ts'|] eqn:E; [|discriminate Hj]. cbn in Hj. injection Hj as -> ->. exists ts. split; [exact E|]. destruct (marks R f name ts); [destruct Hr|lia].
      - intros (ts & Hk & Hp). exists (k, ts). split; [apply (nth_error_In _ k); rewrite nth_error_enumerate, Hk; reflexivity|]. cbn [fst snd]. destruct (marks R f name ts); [lia|now left]. }
    assert (Hmk : forall ts, 0 < marks R f name ts <-> exists d', has_mark R f ts name d').
    { intros ts. unfold marks, has_mark. split.
      - intros H. destruct (filter _ ts) as [|t l] eqn:Ef; [cbn in H; lia|]. assert (Hin : In t (t :: l)) by now left. rewrite <- Ef in Hin. apply filter_In in Hin. destruct Hin as (Hin & He). apply existsb_exists in He. destruct He as (a & Ha & E). apply andb_prop in E. destruct E as (Ea & Eb). apply Nat.eqb_eq in Ea, Eb. subst. exists (tg_dim a), a. auto.
      - intros (d' & a & Ha & Hna & _ & Hin). destruct (filter _ ts) as [|t l] eqn:Ef; [|cbn; lia]. exfalso. assert (Hi : In (tg_index a) []) by (rewrite <- Ef; apply filter_In; split; [exact Hin|]; apply existsb_exists; exists a; split; [exact Ha|]; now rewrite Nat.eqb_refl, Hna, Nat.eqb_refl). destruct Hi. }
    split.
    - intros (l & El & Hkl). assert (HkL : In k L) by (destruct L; [discriminate El|injection El as <-; exact Hkl]). apply HL in HkL. destruct HkL as (ts & Hts & Hp). apply Hmk in Hp. destruct Hp as (d' & Hd'). exists ts, d'. auto.
    - intros (ts & d' & Hts & Hd'). assert (HkL : In k L) by (apply HL; exists ts; split; [exact Hts|]; apply Hmk; eauto). destruct L as [|x l]; [destruct HkL|]. exists (x :: l). auto.
  Qed.

  (** ** C96: the mesh has the nodes of the file as vertices and its elements of the largest dimension, one group for each type *)
  Theorem C96_elements f evs s m tte : numbered R f -> consistent_tags (gf_tags f) -> delivers R f evs -> receive R evs = Ok s -> get_mesh s = Ok (m, tte) ->
    (exists pts, m_vertices m = Some pts /\ length pts = length (gf_nodes f) /\ forall i p, nth_error pts i = Some p <-> In (i, p) (gf_nodes f)) /\
    exists d nrs, represents f d nrs (m_groups m).
  Proof using Type.
    intros Hn Hc Hd Hs Hm. destruct (C47_volume_tags f evs s m tte Hn Hc Hd Hs Hm) as (d & nrs & _ & Hrep & _). split; [|eauto]. destruct (receive_received R f evs Hn Hc Hd) as (s' & H1 & Hrec). assert (s' = s) by congruence. subst s'.
    destruct (get_mesh_parts R aff_id tag_order kind dimensions vertex_count node_count fvi shuffle flip_matrix f s m tte Hrec Hn Hm) as (pts & els & d' & h & ft & groups & P1 & P3 & P2 & _ & _ & _ & _ & _ & _ & _ & G2 & _). exists pts. split; [exact G2|]. split; [exact P2|]. intros i p. symmetry. apply P3.
  Qed.

  (** well-formed files are accepted; for a file with tags, no three faces may coincide *)
  Theorem C96_accepted f evs d : numbered R f -> consistent_tags (gf_tags f) -> delivers R f evs -> well_formed f d ->
    (gf_tags f <> [] -> forall nrs groups, represents f d nrs groups -> at_most_two groups /\ exists g, In g groups /\ eg_fvi g <> []) ->
    exists s m tte, receive R evs = Ok s /\ get_mesh s = Ok (m, tte).
  Proof using Htag_order.
    intros Hn Hc Hd Hwf Hfac. destruct (receive_received R f evs Hn Hc Hd) as (s & H1 & Hrec). destruct (get_mesh_total R aff_id tag_order kind dimensions vertex_count node_count fvi shuffle flip_matrix f s d Hrec Hn Hc Hwf Htag_order Hfac) as (m & tte & Hm). eauto.
  Qed.

  (** ** C97: a boundary face of a conforming mesh has a tag if and only if the file has an element with the same vertices marked with a tag of that name
      of the dimension of faces *)
  Theorem C97_face_tags f evs s m tte d : numbered R f -> consistent_tags (gf_tags f) -> delivers R f evs -> receive R evs = Ok s -> get_mesh s = Ok (m, tte) ->
    well_formed f d -> gf_tags f <> [] -> at_most_two (m_groups m) -> (exists g, In g (m_groups m) /\ eg_fvi g <> []) -> (length (m_groups m) = 1 \/ d < 3) ->
    m_conforming m = Some true /\ exists fags, m_facial m = Available fags /\
      (forall name a, bdry_adj fags (TUser name) a <->
         boundary_face (m_groups m) a /\ exists nr e ts d' vs, file_elem R f nr e ts /\ has_mark R f ts name d' /\ S d' = d /\ face_verts (m_groups m) a vs /\ forall v, In v (ge_verts e) <-> In v vs) /\
      (forall a, bdry_adj fags TReallyAll a <-> boundary_face (m_groups m) a).
  Proof using Htag_order.
    intros Hn Hc Hd Hs Hm Hwf Htg Htwo Hfv Hone. destruct (receive_received R f evs Hn Hc Hd) as (s' & H1 & Hrec). assert (s' = s) by congruence. subst s'. pose proof Hrec as (_ & _ & T1 & _).
    destruct (get_mesh_parts R aff_id tag_order kind dimensions vertex_count node_count fvi shuffle flip_matrix f s m tte Hrec Hn Hm) as (pts & els & d0 & h & ft & groups & P1 & P3 & P2 & E3 & Hb & Hh & (Hamb & Hbg) & E1 & Hft & G1 & G2 & G3 & G4).
    assert (d0 = d). { destruct Hwf as (((nr & e & ts & He & Hde) & Hmax) & _). destruct Hb as ((nr' & e' & ts' & He' & Hde') & Hmax'). pose proof (Hmax nr' e' ts' He'). pose proof (Hmax' nr e ts He). lia. } subst d0.
    set (amb := match pts with [] => 0 | p :: _ => length p end) in *.
    pose proof (build_groups_ok R kind dimensions vertex_count node_count fvi shuffle flip_matrix amb pts (rc_tags R s) (gf_tags f) T1 d (rc_elems R s) els h groups tte ltac:(now rewrite E1) ltac:(now rewrite E1) Hbg) as (HF & _). rewrite Hh in HF.
    pose proof (groups_represent R kind dimensions vertex_count node_count fvi shuffle flip_matrix f els d pts amb groups E3 Hb P3 Hamb HF) as Hrep.
    assert (Hconf : (if length (filter (fun ty => dimensions ty =? d) (firsts els)) =? 1 then true else d <? 3) = true). { rewrite G1 in Hone. rewrite (Forall2_length' _ _ _ HF). destruct (length groups =? 1) eqn:E; [reflexivity|]. apply Nat.eqb_neq in E. apply Nat.ltb_lt. lia. }
    rewrite Hconf in G3, G4. split; [exact G3|]. destruct (G4 eq_refl Htg) as (fags & F1 & F2). exists fags. split; [exact F1|].
    destruct (face_tags_ok R f s els d ft Hrec Htg Hc E3 E1 Hft) as (K1 & K2 & K3). rewrite G1 in Htwo, Hfv |- *. destruct (represents_wf R kind dimensions vertex_count node_count fvi shuffle flip_matrix f d _ groups Hwf Hrep) as (W1 & W2).
    destruct (C06_boundary_tags aff_id tag_order groups ft Htag_order W1 W2 Hfv Htwo (key_distinct_keys ft K1)) as (fags' & Hf' & B1 & B2 & _).
    { intros k ts0 t Hk Ht Hsys. destruct (K2 k ts0 t Hk Ht) as (n & ->). destruct Hsys as [Hsys|[Hsys|Hsys]]; discriminate Hsys. }
    assert (fags' = fags) by congruence. subst fags'. split; [|exact B2]. intros name a. rewrite B1 by (intros [Hsys|[Hsys|Hsys]]; discriminate Hsys). split; intros (Hbf & Hta); (split; [exact Hbf|]).
    - destruct Hta as (k & ts & vs & Hk & Ht & Hv & Hkv). destruct (proj1 (K3 vs name)) as (nr & e & ts' & d' & Q1 & Q2 & Q3 & Q4); [exists k, ts; auto|]. exists nr, e, ts', d', vs. auto.
    - destruct Hta as (nr & e & ts & d' & vs & Q1 & Q2 & Q3 & Q4 & Q5). destruct (proj2 (K3 vs name)) as (k & ts' & Hk & Ht & Hkv); [exists nr, e, ts, d'; auto|]. exists k, ts', vs. auto.
  Qed.

  (** ** C98: a file is rejected if and only if two different tags have the same number *)
  Theorem C98_tag_numbers f evs : numbered R f -> delivers R f evs ->
    ((exists s, receive R evs = Ok s) <-> consistent_tags (gf_tags f)) /\
    ((exists a b, In a (gf_tags f) /\ In b (gf_tags f) /\ tg_index a = tg_index b /\ a <> b) -> receive R evs = Err ValueError).
  Proof using Type.
    intros Hn Hd.
    assert (Herr : (exists a b, In a (gf_tags f) /\ In b (gf_tags f) /\ tg_index a = tg_index b /\ a <> b) -> receive R evs = Err ValueError).
    { intros (a & b & Ha & Hb & Hi & Hab). destruct Hn as (Hn & He & Hl). destruct Hd as ((nodes & Hnp & Hne) & (elems & Hep & Hee) & Htp).
      destruct (nodes_received R nodes (length (gf_nodes f)) (NList R [])) as (pts & P1 & _).
      { eapply Permutation_trans; [apply Permutation_map; exact Hnp|exact Hn]. }
      { intros i p j q Hi' Hj. apply (Hl i p j q); eapply Permutation_in; try exact Hnp; assumption. }
      destruct (elems_received elems (length (gf_elems f)) (mk_epart [] [])) as (els & E1 & _).
      { eapply Permutation_trans; [apply Permutation_map; exact Hep|exact He]. }
      unfold receive. eapply receive_conflict; [cbn [init_recv rc_nodes]; rewrite Hne; exact P1|cbn [init_recv rc_elems]; rewrite Hee; exact E1|cbn [init_recv rc_tags]]. apply (tags_conflict (tag_events R evs) a b); [eapply Permutation_in; [exact (Permutation_sym Htp)|exact Ha]|eapply Permutation_in; [exact (Permutation_sym Htp)|exact Hb]|exact Hi|exact Hab]. }
    split; [|exact Herr]. split.
    - intros (s & Hs) a b Ha Hb Hi. assert (Hdec : {a = b} + {a <> b}) by (repeat decide equality). destruct Hdec as [E|E]; [exact E|]. rewrite Herr in Hs by (exists a, b; auto). discriminate Hs.
    - intros Hc. destruct (receive_received R f evs Hn Hc Hd) as (s & H1 & _). eauto.
  Qed.
End Gmsh.
Print Assumptions C47_order_independent.
Print Assumptions C47_volume_tags.
Print Assumptions C96_elements.
Print Assumptions C96_accepted.
Print Assumptions C97_face_tags.
Print Assumptions C98_tag_numbers.

(** ** Examples *)
(** types: 1 lines, 2 triangles, 3 quadrilaterals, all of order one *)
Definition ex_kind (ty : nat) : gkind := match ty with 1 | 2 => GSimplex | 3 => GTensor | _ => GOther end.
Definition ex_dim (ty : nat) : nat := match ty with 1 => 1 | 2 | 3 => 2 | _ => 0 end.
Definition ex_count (ty : nat) : nat := match ty with 1 => 2 | 2 => 3 | 3 => 4 | _ => 0 end.
Definition ex_fvi (ty : nat) : list (list nat) := match ty with 1 => [[0]; [1]] | 2 => [[0; 1]; [2; 0]; [1; 2]] | 3 => [[0; 1]; [2; 3]; [2; 0]; [1; 3]] | _ => [] end.
Definition ex_shuffle (ty : nat) : list nat := match ty with 3 => [0; 1; 3; 2] | _ => [] end.
Definition ex_flip (ty : nat) : list (list Z) := [[0; 1; 0]; [1; 0; 0]; [0; 0; 1]]%Z.
(** Two triangles and a quadrilateral.  Tag number 7 is on a line at the boundary, number 8 on a line between elements; numbers 9 and 10 are on triangles
    and the quadrilateral, number 11 has no tag. *)
Definition ex_file : gfile Zcring :=
  mk_gfile Zcring [(0, [0; 0]%Z); (1, [1; 0]%Z); (2, [0; 1]%Z); (3, [1; 1]%Z); (4, [2; 0]%Z); (5, [2; 1]%Z)]
    [(0, (mk_gelem 1 [0; 1] [0; 1], [7])); (1, (mk_gelem 3 [1; 4; 5; 3] [1; 4; 3; 5], [9])); (2, (mk_gelem 2 [0; 1; 2] [0; 1; 2], [11; 9]));
     (3, (mk_gelem 1 [2; 1] [2; 1], [8])); (4, (mk_gelem 2 [1; 3; 2] [1; 3; 2], [9; 10]))]
    [AddTag 1 7 1; AddTag 2 8 1; AddTag 3 9 2; AddTag 4 10 2; AddTag 3 9 2].
Definition ex_events : list (event Zcring) :=
  let N nr (p : point Zcring) := ENode Zcring (AddNode Zcring nr p) in let E nr e ts := EElem Zcring (AddElement nr e ts) in let T n i d := ETag Zcring (AddTag n i d) in
  [T 4 10 2; ENode Zcring (SetUpNodes Zcring 6); N 3 [1; 1]%Z; N 0 [0; 0]%Z; N 5 [2; 1]%Z; EElem Zcring (SetUpElements 5); T 3 9 2; N 1 [1; 0]%Z; E 4 (mk_gelem 2 [1; 3; 2] [1; 3; 2]) [9; 10];
   N 2 [0; 1]%Z; N 4 [2; 0]%Z; T 3 9 2; ENode Zcring (FinalizeNodes Zcring); E 1 (mk_gelem 3 [1; 4; 5; 3] [1; 4; 3; 5]) [9]; E 0 (mk_gelem 1 [0; 1] [0; 1]) [7];
   T 1 7 1; E 3 (mk_gelem 1 [2; 1] [2; 1]) [8]; E 2 (mk_gelem 2 [0; 1; 2] [0; 1; 2]) [11; 9]; T 2 8 1].
Definition ex_order (l : list btag) : list btag := l.
Definition ex_result := (s <- receive Zcring ex_events ;; get_mesh Zcring tt ex_order ex_kind ex_dim ex_count ex_count ex_fvi ex_shuffle ex_flip s).

Example ex_numbered : numbered Zcring ex_file.
Proof.
  split; [apply Permutation_refl|]. split; [apply Permutation_refl|]. intros i p j q H H'. cbn in H, H'.
  repeat (destruct H as [H|H]; [injection H as <- <-|]); try (destruct H); repeat (destruct H' as [H'|H']; [injection H' as <- <-; reflexivity|]); destruct H'.
Qed.
Example ex_consistent : consistent_tags (gf_tags ex_file).
Proof.
  intros a b H H' E. cbn in H, H'. repeat (destruct H as [H|H]; [subst a|]); try (destruct H); repeat (destruct H' as [H'|H']; [subst b; cbn in E; try discriminate E; reflexivity|]); destruct H'.
Qed.
Lemma perm_insert {A} (x : A) pre post l : Permutation l (pre ++ post) -> Permutation (x :: l) (pre ++ x :: post).
Proof. intros H. now apply Permutation_cons_app. Qed.
Example ex_delivers : delivers Zcring ex_file ex_events.
Proof.
  split; [|split].
  - exists [(3, [1; 1]%Z); (0, [0; 0]%Z); (5, [2; 1]%Z); (1, [1; 0]%Z); (2, [0; 1]%Z); (4, [2; 0]%Z)]. split; [|reflexivity]. cbn [gf_nodes ex_file].
    apply (perm_insert _ [_; _; _]). apply (perm_insert _ []). apply (perm_insert _ [_; _; _]). apply (perm_insert _ []). apply Permutation_refl.
  - exists [(4, (mk_gelem 2 [1; 3; 2] [1; 3; 2], [9; 10])); (1, (mk_gelem 3 [1; 4; 5; 3] [1; 4; 3; 5], [9])); (0, (mk_gelem 1 [0; 1] [0; 1], [7])); (3, (mk_gelem 1 [2; 1] [2; 1], [8])); (2, (mk_gelem 2 [0; 1; 2] [0; 1; 2], [11; 9]))].
    split; [|reflexivity]. cbn [gf_elems ex_file]. apply (perm_insert _ [_; _; _; _]). apply (perm_insert _ [_]). apply (perm_insert _ []). apply (perm_insert _ [_]). apply Permutation_refl.
  - cbn [ex_events tag_events flat_map app gf_tags ex_file]. apply (perm_insert _ [_; _; _]). apply (perm_insert _ [_; _]). apply (perm_insert _ [_; _]). apply Permutation_refl.
Qed.
(** The quadrilateral comes first in the file; the line between the elements has no effect, and the tag of the boundary is on the face of the first triangle. *)
Example C96_example :
  ex_result =
  Ok (mk_mesh [mk_egroup (Some [[1; 4; 3; 5]]) [[[1; 2; 1; 2]; [0; 0; 1; 1]]]%Z (ex_fvi 3); mk_egroup (Some [[1; 0; 2]; [3; 1; 2]]) [[[1; 0; 0]; [0; 0; 1]]; [[1; 1; 0]; [1; 0; 1]]]%Z (ex_fvi 2)]
        (Some [[0; 0]; [1; 0]; [0; 1]; [1; 1]; [2; 0]; [2; 1]]%Z) (Some true) Pending
        (Available [[Interior 0 1 [((0, 2), (1, 0))] tt; Boundary 0 TAll [(0, 0); (0, 1); (0, 3)]; Boundary 0 TNone []; Boundary 0 TReallyAll [(0, 0); (0, 1); (0, 3)]];
                    [Interior 1 0 [((1, 0), (0, 2))] tt; Interior 1 1 [((0, 1), (1, 2)); ((1, 2), (0, 1))] tt; Boundary 1 (TUser 1) [(0, 0)]; Boundary 1 TAll [(0, 0); (1, 1); (0, 2)]; Boundary 1 TNone []; Boundary 1 TReallyAll [(0, 0); (1, 1); (0, 2)]]]) 0 0 0,
      [(3, [0; 1; 2]); (4, [2])]).
Proof. vm_compute. reflexivity. Qed.

Example C97_hypotheses : well_formed Zcring ex_kind ex_dim ex_fvi ex_shuffle ex_count ex_count ex_file 2 /\ gf_tags ex_file <> [] /\
  match ex_result with Ok (m, _) => at_most_two (m_groups m) /\ (exists g, In g (m_groups m) /\ eg_fvi g <> []) | Err _ => False end.
Proof.
  split; [|split; [discriminate|]].
  - split; [split|].
    + exists 1, (mk_gelem 3 [1; 4; 5; 3] [1; 4; 3; 5]), [9]. split; [unfold file_elem; cbn; auto|reflexivity].
    + intros nr e ts H. unfold file_elem in H. cbn in H. repeat (destruct H as [H|H]; [injection H as <- <- <-; cbn; lia|]). destruct H.
    + intros nr e ts H. unfold file_elem in H. cbn in H.
      repeat (destruct H as [H|H]; [injection H as <- <- <-; intros Hd; first [discriminate Hd|split; [split; [cbn; intros; first [reflexivity|lia]|intros ref k Hr Hk; cbn in Hr; repeat (destruct Hr as [<-|Hr]; [cbn in Hk |- *; lia|]); destruct Hr]|split; [reflexivity|split; [reflexivity|intros n Hn; cbn in Hn |- *; lia]]]]|]). destruct H.
  - rewrite C96_example. cbn [m_groups]. split; [apply MeshExamples.at_most_two_b_sound; vm_compute; reflexivity|]. eexists. split; [now left|discriminate].
Qed.

(** One triangle with a tagged side: any mesh with the elements of this file has at most two faces with the same vertices. *)
Definition ex_file1 : gfile Zcring := mk_gfile Zcring [(0, [0]%Z); (1, [1]%Z); (2, [5]%Z)] [(0, (mk_gelem 2 [0; 1; 2] [0; 1; 2], [])); (1, (mk_gelem 1 [2; 1] [2; 1], [3]))] [AddTag 1 3 1].
Example C96_accepted_hypotheses : well_formed Zcring ex_kind ex_dim ex_fvi ex_shuffle ex_count ex_count ex_file1 2 /\
  forall nrs groups, represents Zcring ex_kind ex_dim ex_fvi ex_shuffle ex_flip ex_file1 2 nrs groups -> at_most_two groups /\ exists g, In g groups /\ eg_fvi g <> [].
Proof.
  split.
  - split; [split|].
    + exists 0, (mk_gelem 2 [0; 1; 2] [0; 1; 2]), []. split; [unfold file_elem; cbn; auto|reflexivity].
    + intros nr e ts H. unfold file_elem in H. cbn in H. repeat (destruct H as [H|H]; [injection H as <- <- <-; cbn; lia|]). destruct H.
    + intros nr e ts H. unfold file_elem in H. cbn in H.
      repeat (destruct H as [H|H]; [injection H as <- <- <-; intros Hd; first [discriminate Hd|split; [split; [cbn; intros; first [reflexivity|lia]|intros ref k Hr Hk; cbn in Hr; repeat (destruct Hr as [<-|Hr]; [cbn in Hk |- *; lia|]); destruct Hr]|split; [reflexivity|split; [reflexivity|intros n Hn; cbn in Hn |- *; lia]]]]|]). destruct H.
  - intros nrs groups (_ & tys & (H1 & H2 & H3 & _) & Hl & Hg).
    assert (Hty : forall ty, In ty tys <-> ty = 2).
    { intros ty. rewrite H3. split.
      - intros (Hd & nr & e & ts & He & Ht). unfold file_elem in He. cbn in He. destruct He as [E|[E|[]]]; injection E as <- <- <-; cbn in Ht; subst ty; [reflexivity|discriminate Hd].
      - intros ->. split; [reflexivity|]. exists 0, (mk_gelem 2 [0; 1; 2] [0; 1; 2]), []. split; [unfold file_elem; cbn; auto|reflexivity]. }
    assert (tys = [2]). { destruct tys as [|a [|b tys]]; [destruct (proj2 (Hty 2) eq_refl)|f_equal; apply Hty; now left|]. exfalso. assert (a = 2) by (apply Hty; now left). assert (b = 2) by (apply Hty; right; now left). subst. inversion H2 as [|x l Hx _]; subst. apply Hx. now left. } subst tys.
    destruct groups as [|grp [|g2 groups]]; cbn in Hl; try discriminate Hl. inversion H1 as [|ty l ty' l' (Hl1 & Hl2 & Hl3) Hr]; subst. inversion Hr; subst.
    assert (l = [0]).
    { assert (Hl0 : forall nr, In nr l <-> nr = 0).
      { intros nr. rewrite Hl3. split.
        - intros (e & ts & He & Ht). unfold file_elem in He. cbn in He. destruct He as [E|[E|[]]]; injection E as <- <- <-; [reflexivity|discriminate Ht].
        - intros ->. exists (mk_gelem 2 [0; 1; 2] [0; 1; 2]), []. split; [unfold file_elem; cbn; auto|reflexivity]. }
      destruct l as [|a [|b l]]; [congruence|f_equal; apply Hl0; now left|]. exfalso. assert (a = 0) by (apply Hl0; now left). assert (b = 0) by (apply Hl0; right; now left). subst. inversion Hl2 as [|x y _ Hf]; subst. pose proof (Forall_inv Hf) as Hlt. cbn beta in Hlt. lia. } subst l.
    destruct (Hg 0 2 [0] grp eq_refl eq_refl eq_refl) as (vi & V1 & V2 & V3 & V4 & V5). destruct (V5 0 0 eq_refl) as (e & ts & row & x & He & Ht & Hrow & _ & Ha). unfold file_elem in He. cbn in He. destruct He as [E|[E|[]]]; [|discriminate E]. injection E as <- <-.
    destruct Ha as (x0 & _ & F1 & F2 & _). pose proof (F2 0 1 eq_refl) as R1. pose proof (F2 1 0 eq_refl) as R0. pose proof (F2 2 2 eq_refl) as R2. cbn in R0, R1, R2, F1, V3, V4.
    destruct row as [|r0 [|r1 [|r2 [|]]]]; try discriminate F1. cbn in R0, R1, R2. injection R0 as ->. injection R1 as ->. injection R2 as ->.
    destruct vi as [|row [|]]; try discriminate V3. cbn in Hrow. injection Hrow as ->. destruct grp as [gvi gn gf]. cbn in V1, V2, V4. subst gvi gf. destruct gn as [|xx [|]]; try discriminate V4. split; [|eexists; split; [now left|discriminate]].
    apply MeshExamples.at_most_two_b_sound. vm_compute. reflexivity.
Qed.

(** Gmsh numbers the tags of each dimension separately: a curve and a surface with tag number one are rejected. *)
Definition ex_conflict : list (event Zcring) := [ETag Zcring (AddTag 1 1 1); ETag Zcring (AddTag 2 1 2)].
Example C98_example : receive Zcring ex_conflict = Err ValueError.
Proof. reflexivity. Qed.

(** ** C99: elements are listed under a name only if they have a tag of that name and of their own dimension *)
Definition C99_own_dimension (R : cring) (aff_id : unit) tag_order kind dimensions vertex_count node_count fvi shuffle flip_matrix : Prop :=
  forall f evs s (m : mesh (enodes R) unit (point R)) tte, numbered R f -> consistent_tags (gf_tags f) -> delivers R f evs -> receive R evs = Ok s ->
    get_mesh R aff_id tag_order kind dimensions vertex_count node_count fvi shuffle flip_matrix s = Ok (m, tte) ->
    forall d name l, bulk_dim R dimensions f d -> assoc name tte = Some l -> exists a, In a (gf_tags f) /\ tg_name a = name /\ tg_dim a = d.
(** A file with the name of curves with number 1, and a triangle in a group of surfaces with number 1 without name: the triangle is listed under
    the name of the curves. *)
Definition ex_file2 : gfile Zcring := mk_gfile Zcring [(0, [0]%Z); (1, [1]%Z); (2, [5]%Z)] [(0, (mk_gelem 2 [0; 1; 2] [0; 1; 2], [1])); (1, (mk_gelem 1 [2; 1] [2; 1], [1]))] [AddTag 1 1 1].
Definition ex_events2 : list (event Zcring) :=
  [ETag Zcring (AddTag 1 1 1); ENode Zcring (SetUpNodes Zcring 3); ENode Zcring (AddNode Zcring 0 ([0]%Z : point Zcring)); ENode Zcring (AddNode Zcring 1 ([1]%Z : point Zcring)); ENode Zcring (AddNode Zcring 2 ([5]%Z : point Zcring)); ENode Zcring (FinalizeNodes Zcring);
   EElem Zcring (SetUpElements 2); EElem Zcring (AddElement 0 (mk_gelem 2 [0; 1; 2] [0; 1; 2]) [1]); EElem Zcring (AddElement 1 (mk_gelem 1 [2; 1] [2; 1]) [1])].
Theorem C99_own_dimension_refuted : ~ C99_own_dimension Zcring tt ex_order ex_kind ex_dim ex_count ex_count ex_fvi ex_shuffle ex_flip.
Proof.
  intros H. destruct (receive Zcring ex_events2) as [s|] eqn:Es; [|vm_compute in Es; discriminate Es].
  destruct (get_mesh Zcring tt ex_order ex_kind ex_dim ex_count ex_count ex_fvi ex_shuffle ex_flip s) as [(m, tte)|] eqn:Em; [|vm_compute in Es; injection Es as <-; vm_compute in Em; discriminate Em].
  destruct (H ex_file2 ex_events2 s m tte) with (d := 2) (name := 1) (l := [0]) as (a & Ha & _ & Hd).
  - split; [apply Permutation_refl|]. split; [apply Permutation_refl|]. intros i p j q Hi Hj. cbn in Hi, Hj.
    repeat (destruct Hi as [Hi|Hi]; [injection Hi as <- <-|]); try (destruct Hi); repeat (destruct Hj as [Hj|Hj]; [injection Hj as <- <-; reflexivity|]); destruct Hj.
  - intros a b Ha Hb _. cbn in Ha, Hb. destruct Ha as [<-|[]], Hb as [<-|[]]. reflexivity.
  - split; [exists (gf_nodes ex_file2); split; [apply Permutation_refl|reflexivity]|]. split; [exists (gf_elems ex_file2); split; [apply Permutation_refl|reflexivity]|apply Permutation_refl].
  - exact Es.
  - exact Em.
  - split; [exists 0, (mk_gelem 2 [0; 1; 2] [0; 1; 2]), [1]; split; [unfold file_elem; cbn; auto|reflexivity]|]. intros nr e ts He. unfold file_elem in He. cbn in He. destruct He as [E|[E|[]]]; injection E as <- <- <-; cbn; lia.
  - vm_compute in Es. injection Es as <-. vm_compute in Em. injection Em as <- <-. reflexivity.
  - cbn in Ha. destruct Ha as [<-|[]]. discriminate Hd.
Qed.
Print Assumptions C99_own_dimension_refuted.
