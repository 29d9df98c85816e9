(** * NdgProps: C188, C189. *)
From Coq Require Import String List Arith ZArith Lia Bool.
From Verif Require Import Np NpFacts RestrProofs VisIoVertexProofs NdgModel NdgSpec NdgProofs.
Import ListNotations.

(** ** C188: a mesh of simplices in a space of the same dimension comes back from the nodal DG codes with its vertices, elements and order; the nodes are those of the codes *)
Section Props.
  Context {A : Type}.
  Variable globals startup : nat -> session A -> res (session A).
  Variable unit_nodes : nat -> nat -> res (list (list A)).

  (** what set_mesh leaves behind, for meshes of all kinds *)
  Theorem C188_sent m g order vs vi s0 s : keeps_mesh startup -> set_mesh globals startup m order s0 = Ok s -> nm_groups m = [g] -> nm_ambient m <= 3 -> nm_vertices m = Some vs -> ng_vi g = Some vi ->
    (forall ax, ax < nm_ambient m -> exists v, nth_error vs ax = Some v /\ pull (vertex_axis ax) s = Ok (VVec v)) /\
    pull "EToV" s = Ok (VIdx (map (map S) vi)) /\ pull "N" s = Ok (VNum order) /\ pull "Nv" s = Ok (VNum (nm_nvertices m)) /\ pull "K" s = Ok (VNum (ng_nel g)).
  Proof.
    intros Hk H Hg Ha Hv Hi. unfold set_mesh in H. rewrite Hg, Hv, Hi in H. apply bind_ok in H as (s1 & _ & H). cbn [bind] in H. cbv zeta in H.
    apply bind_ok in H as (s2 & E2 & H). apply bind_ok in H as (ax & Ex & H). apply bind_ok in H as (s3 & E3 & H).
    destruct (nm_ambient m) as [|a] eqn:Ea; [discriminate|]. injection Ex as <-. destruct (push_axes_ok vs (S a) _ _ Ha E2) as (P1 & P2). destruct (push_one_ok vs a _ _ ltac:(lia) E3) as (w & Ew & ->).
    assert (NV : forall name ax, In name ["EToV"; "N"; "Nv"; "K"]%string -> name <> vertex_axis ax).
    { intros name ax' [<-|[<-|[<-|[<-|[]]]]]; destruct ax' as [|[|ax']]; discriminate. }
    split; [|split; [|split; [|split]]].
    - intros ax L. destruct (P1 ax L) as (v & Ev & Pv). exists v. split; [exact Ev|]. rewrite (Hk _ _ _ H) by (destruct ax as [|[|ax]]; cbn [vertex_axis In]; auto 10).
      rewrite !pull_push_other by (apply not_eq_sym, NV; cbn [In]; auto 10). destruct (Nat.eq_dec ax a) as [->|Hne].
      + rewrite pull_push. congruence.
      + rewrite pull_push_other; [exact Pv|]. destruct ax as [|[|[|ax]]]; destruct a as [|[|[|a]]]; cbn [vertex_axis]; try lia; discriminate.
    - rewrite (Hk _ _ _ H) by (cbn [In]; auto 10). rewrite pull_push_other by discriminate. apply pull_push.
    - rewrite (Hk _ _ _ H) by (cbn [In]; auto 10). apply pull_push.
    - rewrite (Hk _ _ _ H) by (cbn [In]; auto 10). rewrite !pull_push_other by (first [discriminate|apply NV; cbn [In]; auto 10]). rewrite P2 by (intros; apply NV; cbn [In]; auto 10). rewrite pull_push_other by discriminate. apply pull_push.
    - rewrite (Hk _ _ _ H) by (cbn [In]; auto 10). rewrite !pull_push_other by (first [discriminate|apply NV; cbn [In]; auto 10]). rewrite P2 by (intros; apply NV; cbn [In]; auto 10). apply pull_push.
  Qed.
  Theorem C188_mesh m g order vs vi xs u s0 s : keeps_mesh startup -> set_mesh globals startup m order s0 = Ok s ->
    nm_groups m = [g] -> nm_ambient m = ng_dim g -> nm_ambient m <= 3 -> nm_vertices m = Some vs -> length vs = nm_ambient m -> ng_vi g = Some vi -> vi <> [] -> Forall (fun row => length row = S (ng_dim g)) vi ->
    unit_nodes (ng_dim g) order = Ok u -> length xs = ng_dim g ->
    (forall ax x, nth_error xs ax = Some x -> pull (node_axis ax) s = Ok (VMat x) /\ exists n k, matrix n k x /\ 0 < n) ->
    exists d, get_discr unit_nodes s = Ok d /\ nd_vertices d = vs /\ nd_vi d = vi /\ nd_order d = order /\ nd_unit d = u /\ Forall2 transposed xs (nd_nodes d).
  Proof.
    intros Hk Hs Hg Hd Ha Hv Lv Hi Hne Hw Hu Lx Hx. destruct (C188_sent m g order vs vi s0 s Hk Hs Hg Ha Hv Hi) as (PV & PE & PN & _).
    unfold get_discr, pull_idx, pull_num. rewrite PE. cbn [bind]. destruct vi as [|row vi]; [contradiction|]. rewrite PN. inversion Hw as [|x l Hr Hw']; subst x l.
    cbn [map]. change (get (map S row :: map (map S) vi) 0) with (Ok (map S row)). cbn [bind]. rewrite map_length, Hr. replace (S (ng_dim g) - 1) with (ng_dim g) by lia. cbv zeta. rewrite Hu. cbn [bind].
    assert (EV : mapM (fun ax => name <- get vaxes ax ;; v <- pull name s ;; match v with VVec v => Ok v | VMat rows => Ok (concat rows) | _ => Err TypeError end) (seq 0 (ng_dim g)) = Ok vs).
    { apply mapM_ok. apply Forall2_intro_nth; [rewrite seq_length; congruence|]. intros i ax v Hax Hvi. rewrite RestrProofs.nth_error_seq in Hax. destruct (Nat.ltb_spec i (ng_dim g)) as [L|L]; [|discriminate]. injection Hax as <-. cbn [Nat.add].
      destruct (PV i ltac:(lia)) as (w & Ew & Pw). assert (w = v) by congruence. subst w. assert (get vaxes i = Ok (vertex_axis i)) as -> by (destruct i as [|[|[|i]]]; [| | |lia]; reflexivity). cbn [bind]. rewrite Pw. reflexivity. }
    rewrite EV. cbn [bind].
    assert (EX : exists nodes, mapM (fun ax => name <- get axes ax ;; v <- pull name s ;; match v with VMat rows => transpose rows | _ => Err TypeError end) (seq 0 (ng_dim g)) = Ok nodes /\ Forall2 transposed xs nodes).
    { assert (HT : forall ax, ax < ng_dim g -> exists x t, nth_error xs ax = Some x /\ (name <- get axes ax ;; v <- pull name s ;; match v with VMat rows => transpose rows | _ => Err TypeError end) = Ok t /\ transposed x t).
      { intros ax L. destruct (nth_error xs ax) as [x|] eqn:Ex; [|apply nth_error_None in Ex; lia]. destruct (Hx ax x Ex) as (Px & n & k & Mx & Hn). destruct (transpose_ok n k x Mx Hn) as (t & Et & _ & Tt). exists x, t. split; [reflexivity|]. split; [|exact Tt].
        assert (get axes ax = Ok (node_axis ax)) as -> by (destruct ax as [|[|[|ax]]]; [| | |lia]; reflexivity). cbn [bind]. rewrite Px. exact Et. }
      match goal with |- exists nodes, mapM ?f _ = _ /\ _ => destruct (mapM_total f (seq 0 (ng_dim g))) as (nodes & En) end.
      { intros ax Hin. apply in_seq in Hin. destruct (HT ax ltac:(lia)) as (x & t & _ & Et & _). now exists t. }
      exists nodes. split; [exact En|]. apply mapM_ok in En. pose proof (Forall2_length' _ _ _ En) as Ln. rewrite seq_length in Ln. apply Forall2_intro_nth; [lia|]. intros i x t Ex Et.
      destruct (Forall2_nth_error_r _ _ _ i t En Et) as (ax & Eax & Eq). assert (i < length xs) by (apply nth_error_Some; congruence). rewrite RestrProofs.nth_error_seq in Eax. destruct (Nat.ltb_spec i (ng_dim g)) as [L|L]; [|discriminate]. injection Eax as <-. cbn [Nat.add] in Eq.
      destruct (HT i L) as (x' & t' & Ex' & Et' & Tt). rewrite Et' in Eq. injection Eq as <-. rewrite Ex in Ex'. injection Ex' as <-. exact Tt. }
    destruct EX as (nodes & En & Tn). rewrite En. cbn [bind].
    assert (EI : mapM (mapM (fun i => match i with 0 => Err IndexError | S i => Ok i end)) (map (map S) (row :: vi)) = Ok (row :: vi)).
    { clear. generalize (row :: vi). intros l. induction l as [|r l IH]; [reflexivity|]. cbn [map mapM]. assert (mapM (fun i => match i with 0 => Err IndexError | S i => Ok i end) (map S r) = Ok r) as ->.
      { clear. induction r as [|i r IH]; [reflexivity|]. cbn [map mapM bind]. rewrite IH. reflexivity. }
      cbn [bind]. rewrite IH. reflexivity. }
    change (map S row :: map (map S) vi) with (map (map S) (row :: vi)). rewrite EI. cbn [bind]. eexists. split; [reflexivity|]. cbn [nd_vertices nd_vi nd_order nd_unit nd_nodes]. auto.
  Qed.

  (** fields come back unchanged, and the codes see one column per element *)
  Theorem C188_fields name (a : ndof A) s s' n k : push_dof_array name a s = Ok s' -> (forall g, In g (nf_groups a) -> matrix n k g) -> 0 < n -> 0 < k ->
    pull_dof_array name s' = Ok a /\ (forall name', name' <> name -> pull name' s' = pull name' s) /\ exists g t, nf_groups a = [g] /\ pull name s' = Ok (VMat t) /\ transposed g t /\ matrix k n t.
  Proof.
    intros H HM Hn Hk. unfold push_dof_array in H. destruct a as [th gs]. cbn [nf_groups nf_thawed] in *. destruct gs as [|g [|g2 gs]]; try discriminate. destruct th; [|discriminate]. cbn [guard bind] in H. apply bind_ok in H as (t & Et & H). injection H as <-.
    assert (M : matrix n k g) by (apply HM; now left). split; [|split].
    - unfold pull_dof_array. rewrite pull_push. cbn [bind]. rewrite (transpose_transpose n k g t M Hn Hk Et). reflexivity.
    - intros name' Hne. now apply pull_push_other.
    - destruct (transpose_ok n k g M Hn) as (t' & Et' & Mt & Tt). rewrite Et in Et'. injection Et' as <-. exists g, t. split; [reflexivity|]. split; [apply pull_push|]. now split.
  Qed.
  Theorem C188_errors m order s name (a : ndof A) :
    (length (nm_groups m) <> 1 -> set_mesh globals startup m order s = Err ValueError) /\
    (forall g s', nm_groups m = [g] -> globals (ng_dim g) s = Ok s' -> nm_vertices m = None -> set_mesh globals startup m order s = Err DataUnavailableError) /\
    (length (nf_groups a) <> 1 -> push_dof_array name a s = Err ValueError) /\
    (forall g, nf_groups a = [g] -> nf_thawed a = false -> push_dof_array name a s = Err AttributeError).
  Proof.
    split; [|split; [|split]].
    - intros H. unfold set_mesh. destruct (nm_groups m) as [|g [|g2 gs]]; [reflexivity|now contradiction H|reflexivity].
    - intros g s' Hg Eg Hv. unfold set_mesh. rewrite Hg, Eg, Hv. reflexivity.
    - intros H. unfold push_dof_array. destruct (nf_groups a) as [|g [|g2 gs]]; [reflexivity|now contradiction H|reflexivity].
    - intros g Hg Ht. unfold push_dof_array. rewrite Hg, Ht. reflexivity.
  Qed.
End Props.

(** ** C189: other meshes, other names *)
(** startup scripts for order 1 which keep the mesh: the nodes are the vertices *)
Definition corner (v : list Z) (k : nat) (row : list nat) : Z := match nth_error row k with Some i => match nth_error v (i - 1) with Some z => z | None => 0%Z end | None => 0%Z end.
Definition corner_nodes (d : nat) (vname : string) (s : session Z) : list (list Z) :=
  match pull vname s, pull "EToV" s with
  | Ok (VVec v), Ok (VIdx etov) => map (fun k => map (corner v k) etov) (seq 0 (S d))
  | _, _ => []
  end.
Definition startup1 (d : nat) (s : session Z) : res (session Z) :=
  Ok (fold_left (fun s' ax => push (node_axis ax) (VMat (corner_nodes d (vertex_axis ax) s)) s') (seq 0 (Nat.min d 3)) s).
Definition unit1 (d order : nat) : res (list (list Z)) := Ok (map (fun i => map (fun j => if j =? S i then 1%Z else (-1)%Z) (seq 0 (S d))) (seq 0 d)).
Definition globals0 (d : nat) (s : session Z) : res (session Z) := Ok s.

Lemma startup1_keeps : keeps_mesh startup1.
Proof.
  intros d s s' H. unfold startup1 in H. injection H as <-. intros name Hin. generalize (seq 0 (Nat.min d 3)). intros axs.
  assert (G : forall s1, pull name (fold_left (fun s' ax => push (node_axis ax) (VMat (corner_nodes d (vertex_axis ax) s)) s') axs s1) = pull name s1).
  { induction axs as [|ax axs IH]; intros s1; [reflexivity|]. cbn [fold_left]. rewrite IH. apply pull_push_other. intros ->. destruct ax as [|[|ax]]; cbn [node_axis In] in Hin; repeat (destruct Hin as [Hin|Hin]; [discriminate|]); contradiction. }
  apply G.
Qed.

(** a surface comes back as its projection to the first two axes *)
Definition surface : nmesh Z := mk_nmesh [mk_ngroup 2 (Some [[0; 1; 2]; [0; 2; 3]]) 2] 3 4 (Some [[0; 1; 1; 0]; [0; 0; 1; 1]; [0; 2; 0; 2]]%Z).
Theorem C189_surface_refuted : exists m s d, length (nm_groups m) = 1 /\ set_mesh globals0 startup1 m 1 [] = Ok s /\ get_discr unit1 s = Ok d /\
  nm_vertices m <> Some (nd_vertices d) /\ length (nd_vertices d) < nm_ambient m.
Proof.
  exists surface. eexists. eexists. split; [reflexivity|]. split; [vm_compute; reflexivity|]. split; [vm_compute; reflexivity|]. split; [discriminate|]. cbn [nd_vertices length nm_ambient surface]. lia.
Qed.
(** quadrilaterals are accepted; they come back as tetrahedra if there are coordinates of an earlier mesh *)
Definition tet : nmesh Z := mk_nmesh [mk_ngroup 3 (Some [[0; 1; 2; 3]]) 1] 3 4 (Some [[0; 1; 0; 0]; [0; 0; 1; 0]; [0; 0; 0; 1]]%Z).
Definition quad : nmesh Z := mk_nmesh [mk_ngroup 2 (Some [[0; 1; 2; 3]]) 1] 2 4 (Some [[0; 1; 0; 1]; [0; 0; 1; 1]]%Z).
Theorem C189_cubes_refuted : exists s1 s2 s3 d, set_mesh globals0 startup1 quad 1 [] = Ok s1 /\ get_discr unit1 s1 = Err NameError /\
  set_mesh globals0 startup1 tet 1 [] = Ok s2 /\ set_mesh globals0 startup1 quad 1 s2 = Ok s3 /\ get_discr unit1 s3 = Ok d /\ length (nd_vertices d) = 3 /\ nm_vertices quad <> Some (nd_vertices d).
Proof.
  do 4 eexists. split; [vm_compute; reflexivity|]. split; [vm_compute; reflexivity|]. split; [vm_compute; reflexivity|]. split; [vm_compute; reflexivity|]. split; [vm_compute; reflexivity|]. split; [reflexivity|discriminate].
Qed.
(** a field whose name is a variable of the codes replaces it *)
Definition tri : nmesh Z := mk_nmesh [mk_ngroup 2 (Some [[0; 1; 2]]) 1] 2 3 (Some [[0; 1; 0]; [0; 0; 1]]%Z).
Theorem C189_names_refuted : exists s d a s' d', set_mesh globals0 startup1 tri 1 [] = Ok s /\ get_discr unit1 s = Ok d /\ push_dof_array "x" a s = Ok s' /\ get_discr unit1 s' = Ok d' /\ nd_nodes d' <> nd_nodes d /\ nd_vertices d' = nd_vertices d.
Proof.
  do 2 eexists. exists (mk_ndof true [[[5; 6; 7]%Z]]). do 2 eexists. split; [vm_compute; reflexivity|]. split; [vm_compute; reflexivity|]. split; [vm_compute; reflexivity|]. split; [vm_compute; reflexivity|]. split; [discriminate|reflexivity].
Qed.

(** two triangles go there and back *)
Definition square : nmesh Z := mk_nmesh [mk_ngroup 2 (Some [[0; 1; 2]; [0; 2; 3]]) 2] 2 4 (Some [[0; 1; 1; 0]; [0; 0; 1; 1]]%Z).
Example C188_example : exists s d, set_mesh globals0 startup1 square 1 [] = Ok s /\ get_discr unit1 s = Ok d /\ Some (nd_vertices d) = nm_vertices square /\ nd_vi d = [[0; 1; 2]; [0; 2; 3]] /\
  nd_nodes d = [[[0; 1; 1]; [0; 1; 0]]; [[0; 0; 1]; [0; 1; 1]]]%Z /\ Forall (fun row => length row = 3) (nd_vi d).
Proof.
  do 2 eexists. split; [vm_compute; reflexivity|]. split; [vm_compute; reflexivity|]. split; [reflexivity|]. split; [reflexivity|]. split; [reflexivity|]. repeat constructor.
Qed.
Example C188_fields_example : exists s, push_dof_array "u" (mk_ndof true [[[1; 2; 3]; [4; 5; 6]]%Z]) [] = Ok s /\ pull "u" s = Ok (VMat [[1; 4]; [2; 5]; [3; 6]]%Z) /\ pull_dof_array "u" s = Ok (mk_ndof true [[[1; 2; 3]; [4; 5; 6]]%Z]).
Proof. eexists. split; [vm_compute; reflexivity|]. split; vm_compute; reflexivity. Qed.

Print Assumptions C188_sent.
Print Assumptions C188_mesh.
Print Assumptions C188_fields.
Print Assumptions C188_errors.
Print Assumptions C189_surface_refuted.
Print Assumptions C189_cubes_refuted.
Print Assumptions C189_names_refuted.
