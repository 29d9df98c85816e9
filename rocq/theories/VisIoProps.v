(** * VisIoProps: properties C145-C157 of visualization files. *)
From Coq Require Import String List Arith Bool Lia Permutation.
From Verif Require Import Np NpFacts MeshModel MeshSpec MeshProps VisModel VisSpec VisProps VisIoModel VisIoSpec VisIoFieldProofs VisIoXdmfProofs VisIoFileProofs VisIoMakeProofs VisIoVertexProofs.
Import ListNotations.

(** ** C145: the point data of a VTK file: every field asked for, at all nodes, split into real and imaginary parts if it is complex *)
Theorem C145_point_data R zero (conn : dofarray R -> res (dofarray R)) groups real_only nf :
  Forall (fun f => separable R zero conn groups (snd f)) (wanted R nf) ->
  exists parts, point_data R zero conn groups real_only nf = Ok (concat parts) /\ Forall2 (file_entry R zero conn groups real_only) (wanted R nf) parts.
Proof. apply point_data_ok. Qed.
Print Assumptions C145_point_data.
(** two groups, with one element of two nodes and two elements of one node; the connection returns its argument *)
Definition ex_vgroups : list (nat * nat) := [(1, 2); (2, 1)].
Definition ex_id (d : dofarray nat) : res (dofarray nat) := Ok d.
Definition ex_real : fval nat := VDof (RealDof [[[1; 2]]; [[3]; [4]]]).
Definition ex_complex : fval nat := VDof (ComplexDof [[[(1, 5); (2, 6)]]; [[(3, 7)]; [(4, 8)]]]).
Lemma ex_real_scalar : scalar nat 0 ex_id ex_vgroups ex_real false [[(1, 0); (2, 0)]; [(3, 0); (4, 0)]].
Proof. refine (scalar_dof nat 0 ex_id ex_vgroups _ _ eq_refl _). repeat constructor. Qed.
Lemma ex_complex_scalar : scalar nat 0 ex_id ex_vgroups ex_complex true [[(1, 5); (2, 6)]; [(3, 7); (4, 8)]].
Proof. refine (scalar_cdof nat 0 ex_id ex_vgroups _ _ eq_refl _). repeat constructor. Qed.
Definition ex_fields : list (string * fval nat) :=
  [("q"%string, VData [("rho"%string, ex_real); ("none"%string, VNone); ("mom"%string, VObj [ex_complex; ex_real])]); ("one"%string, VNum (RealNum 1)); ("empty"%string, VObj [])].
Example C145_hypotheses : Forall (fun f => separable nat 0 ex_id ex_vgroups (snd f)) (wanted nat ex_fields) /\ length (wanted nat ex_fields) = 3.
Proof.
  split; [|reflexivity]. cbn. apply Forall_cons; [|apply Forall_cons; [|apply Forall_cons; [|apply Forall_nil]]]; cbn [snd].
  - left. exists false. eexists. exact ex_real_scalar.
  - right. exists ex_complex, [ex_real]. split; [reflexivity|]. split; [repeat constructor; exists false; eexists; exact ex_real_scalar|]. left. eexists. exact ex_complex_scalar.
  - left. exists false. eexists. constructor.
Qed.
Example C145_example : point_data nat 0 ex_id ex_vgroups false ex_fields =
  Ok [("q_rho"%string, RArr (RealArr [1; 2; 3; 4]));
      ("q_mom_r"%string, RObj [RArr (RealArr [1; 2; 3; 4]); RArr (RealArr [1; 2; 3; 4])]); ("q_mom_i"%string, RObj [RArr (RealArr [5; 6; 7; 8]); RArr (RealArr [0; 0; 0; 0])]);
      ("one"%string, RArr (RealArr [1; 1; 1; 1]))].
Proof. vm_compute. reflexivity. Qed.

(** ** C146: there are only real arrays in the file, for the fields of C145; not if the first component of a vector is real and another one complex *)
Theorem C146_all_real R zero (conn : dofarray R -> res (dofarray R)) groups real_only nf out :
  Forall (fun f => separable R zero conn groups (snd f)) (wanted R nf) -> point_data R zero conn groups real_only nf = Ok out -> Forall (fun f => all_real (snd f)) out.
Proof.
  intros H E. destruct (point_data_ok R zero conn groups real_only nf H) as (parts & E' & HF). assert (out = concat parts) as -> by congruence. apply Forall_concat. clear -HF. induction HF as [|f part w parts Hf _ IH]; constructor; [|exact IH].
  assert (Hre : forall (valss : list (list (list (R * R)))), Forall (fun v : rval R => exists a, v = RArr (RealArr a)) (map (re R) valss)). { intros valss. apply Forall_forall. intros v Hv. apply in_map_iff in Hv. destruct Hv as (vals & <- & _). eexists. reflexivity. }
  assert (Him : forall (valss : list (list (list (R * R)))), Forall (fun v : rval R => exists a, v = RArr (RealArr a)) (map (im R) valss)). { intros valss. apply Forall_forall. intros v Hv. apply in_map_iff in Hv. destruct Hv as (vals & <- & _). eexists. reflexivity. }
  destruct Hf as [n v vals _|n v vals _|n vs valss _ _|n vs valss _ _]; try destruct real_only; repeat constructor; cbn [snd all_real]; auto; exact I.
Qed.
Print Assumptions C146_all_real.
Theorem C146_all_real_refuted : exists nf out, Forall (fun f => plottable nat 0 ex_id ex_vgroups (snd f)) (wanted nat nf) /\
  point_data nat 0 ex_id ex_vgroups true nf = Ok out /\ In ("u"%string, RObj [RArr (RealArr [1; 2; 3; 4]); RArr (ComplexArr [(1, 5); (2, 6); (3, 7); (4, 8)])]) out /\
  ~ Forall (fun f => all_real (snd f)) out.
Proof.
  exists [("u"%string, VObj [ex_real; ex_complex])]. eexists. split; [|split; [vm_compute; reflexivity|split; [now left|]]].
  - cbn. apply Forall_cons; [|apply Forall_nil]. right. eexists. split; [reflexivity|]. apply Forall_cons; [exists false; eexists; exact ex_real_scalar|]. apply Forall_cons; [exists true; eexists; exact ex_complex_scalar|apply Forall_nil].
  - intros H. apply Forall_inv in H. cbn [snd all_real] in H. apply Forall_inv_tail, Forall_inv in H. destruct H as (a & H). discriminate.
Qed.
Print Assumptions C146_all_real_refuted.

(** ** C147: the names in a file are distinct, if the names asked for are and do not end in "_r" or "_i" *)
Theorem C147_names R zero (conn : dofarray R -> res (dofarray R)) groups real_only nf out :
  Forall (fun f => separable R zero conn groups (snd f)) (wanted R nf) -> NoDup (map fst (wanted R nf)) ->
  (forall a b s, In a (map fst (wanted R nf)) -> In b (map fst (wanted R nf)) -> In s ["_r"; "_i"]%string -> a <> (b ++ s)%string) ->
  point_data R zero conn groups real_only nf = Ok out -> NoDup (map fst out).
Proof.
  intros H Hn Hs E. destruct (point_data_ok R zero conn groups real_only nf H) as (parts & E' & HF). assert (out = concat parts) as -> by congruence. exact (names_distinct R zero conn groups real_only _ _ HF Hn Hs).
Qed.
Print Assumptions C147_names.
Example C147_hypotheses : NoDup (map fst (wanted nat ex_fields)) /\
  (forall a b s, In a (map fst (wanted nat ex_fields)) -> In b (map fst (wanted nat ex_fields)) -> In s ["_r"; "_i"]%string -> a <> (b ++ s)%string).
Proof.
  split; [cbn; repeat constructor; cbn; intuition discriminate|]. intros a b s Ha Hb Hs. cbn in Ha, Hb, Hs. intuition subst; discriminate.
Qed.
(** Fields with different names may have the same name in the file: a complex field "u" and a field "u_r", an attribute "b_c" of "a" and "c" of "a_b". *)
Theorem C147_names_refuted : exists nf out nf' out',
  NoDup (map fst nf) /\ Forall (fun f => separable nat 0 ex_id ex_vgroups (snd f)) (wanted nat nf) /\ point_data nat 0 ex_id ex_vgroups false nf = Ok out /\ ~ NoDup (map fst out) /\
  NoDup (map fst nf') /\ Forall (fun f => separable nat 0 ex_id ex_vgroups (snd f)) (wanted nat nf') /\ point_data nat 0 ex_id ex_vgroups false nf' = Ok out' /\ ~ NoDup (map fst out').
Proof.
  exists [("u"%string, ex_complex); ("u_r"%string, ex_real)]. eexists. exists [("a"%string, VData [("b_c"%string, ex_real)]); ("a_b"%string, VData [("c"%string, ex_real)])]. eexists.
  assert (Hr : separable nat 0 ex_id ex_vgroups ex_real) by (left; exists false; eexists; exact ex_real_scalar). assert (Hc : separable nat 0 ex_id ex_vgroups ex_complex) by (left; exists true; eexists; exact ex_complex_scalar).
  split; [cbn; repeat constructor; cbn; intuition discriminate|]. split; [cbn; repeat (constructor; try assumption)|]. split; [vm_compute; reflexivity|]. split; [intros H; inversion H as [|? ? Hn _]; apply Hn; right; now left|].
  split; [cbn; repeat constructor; cbn; intuition discriminate|]. split; [cbn; repeat (constructor; try assumption)|]. split; [vm_compute; reflexivity|]. intros H; inversion H as [|? ? Hn _]; apply Hn; now left.
Qed.
Print Assumptions C147_names_refuted.

(** ** C148: the fields of an XDMF file; vectors may have real and complex components in any order *)
Theorem C148_xdmf_fields R zero (conn : dofarray R -> res (dofarray R)) groups real_only nf : groups <> [] ->
  Forall (fun f => plottable R zero conn groups (snd f)) (wanted R nf) ->
  exists parts, xdmf_data R zero conn groups real_only nf = Ok (concat parts) /\ Forall2 (xdmf_entry R zero conn groups real_only) (wanted R nf) parts.
Proof. intros Hg. now apply xdmf_data_ok. Qed.
Print Assumptions C148_xdmf_fields.
Example C148_example : Forall (fun f => plottable nat 0 ex_id ex_vgroups (snd f)) (wanted nat [("u"%string, VObj [ex_real; ex_complex])]) /\
  xdmf_data nat 0 ex_id ex_vgroups false [("u"%string, VObj [ex_real; ex_complex])] =
  Ok [("u_r"%string, [G2 (RealArr2 [[1; 2]; [1; 2]]); G2 (RealArr2 [[3; 4]; [3; 4]])]); ("u_i"%string, [G2 (RealArr2 [[0; 0]; [5; 6]]); G2 (RealArr2 [[0; 0]; [7; 8]])])].
Proof.
  split; [|vm_compute; reflexivity]. cbn. apply Forall_cons; [|apply Forall_nil]. right. eexists. split; [reflexivity|]. apply Forall_cons; [exists false; eexists; exact ex_real_scalar|]. apply Forall_cons; [exists true; eexists; exact ex_complex_scalar|apply Forall_nil].
Qed.

(** ** C149: files that exist are not changed unless [overwrite] is given *)
Definition keeps {content} (s s' : fs content) : Prop := forall n c, s n = Some c -> s' n = Some c.
Theorem C149_no_overwrite content (vtu : content) manifest relname s :
  (forall file par_manifest par_files, keeps s (snd (write_vtk_file content vtu manifest relname s file false par_manifest par_files))) /\
  (forall comm fmt par_manifest, keeps s (snd (write_parallel_vtk_file content vtu manifest relname s comm fmt false par_manifest))) /\
  (forall file, keeps s (snd (write_removing content vtu s file false))).
Proof.
  assert (H : forall file par_manifest par_files, keeps s (snd (write_vtk_file content vtu manifest relname s file false par_manifest par_files))).
  { intros file m fns n c Hn. unfold write_vtk_file. cbn [negb]. rewrite !andb_true_r. destruct (exists_ s file) eqn:E1; [exact Hn|].
    assert (Hf : n <> file). { intros ->. apply exists_none in E1. congruence. }
    destruct m as [m|]; [|destruct fns; cbn [snd]; rewrite write_other by exact Hf; exact Hn].
    set (resp := match fns with Some (f :: _) => (f =? file)%string | _ => false end). rewrite andb_true_r. destruct (resp && exists_ s m) eqn:E2; [exact Hn|].
    destruct fns as [fns|]; [|cbn [snd]; rewrite write_other by exact Hf; exact Hn]. destruct resp; cbn [snd]; [|rewrite write_other by exact Hf; exact Hn]. cbn [andb] in E2.
    rewrite write_other; [rewrite write_other by exact Hf; exact Hn|]. intros ->. apply exists_none in E2. congruence. }
  split; [exact H|]. split.
  - intros comm fmt m n c Hn. unfold write_parallel_vtk_file. destruct (match comm with Some c => c | None => (0, 1) end) as (rank, nranks). destruct (match m with Some m => Ok m | None => _ end); [|exact Hn]. now apply H.
  - intros file n c Hn. unfold write_removing. destruct (exists_ s file) eqn:E; [exact Hn|]. cbn [snd]. rewrite write_other; [exact Hn|]. intros ->. apply exists_none in E. congruence.
Qed.
Print Assumptions C149_no_overwrite.
(** write_vtkhdf_file and write_xdmf_file do not look at [overwrite]. *)
Definition ex_split (n : string) : string * string := (substring 0 (String.length n - 4) n, substring (String.length n - 4) 4 n).
Definition ex_fs (files : list (string * nat)) : fs nat := fun n => match find (fun f : string * nat => (fst f =? n)%string) files with Some f => Some (snd f) | None => None end.
Theorem C149_overwrite_refuted : exists (s : fs nat),
  (exists s', write_vtkhdf_file nat 7 ex_split s "a.hdf" false = (Done, s') /\ s "a.hdf"%string = Some 1 /\ s' "a.hdf"%string = Some 7) /\
  (exists s', write_xdmf_file nat 7 ex_split s "a.xmf" 2 false = (Done, s') /\ s "a.xmf"%string = Some 2 /\ s' "a.xmf"%string = Some 7 /\ s "a.h5"%string = Some 3 /\ s' "a.h5"%string = Some 7).
Proof. exists (ex_fs [("a.hdf"%string, 1); ("a.xmf"%string, 2); ("a.h5"%string, 3)]). split; eexists; repeat split; reflexivity. Qed.
Print Assumptions C149_overwrite_refuted.

(** ** C150: either the file and the manifest are written or neither *)
Theorem C150_both_or_neither content (vtu : content) manifest relname s file overwrite m fns :
  match write_vtk_file content vtu manifest relname s file overwrite (Some m) fns with
  | (Done, s') =>
      let responsible := exists l, fns = Some (file :: l) in
      (file = m -> ~ responsible) -> s' file = Some vtu /\ (forall l, fns = Some (file :: l) -> s' m = Some (manifest (map (relname m) (file :: l)))) /\
      (forall n, n <> file -> (n = m -> ~ responsible) -> s' n = s n)
  | (FileExistsError, s') => s' = s /\ overwrite = false /\ (s file <> None \/ s m <> None)
  | (Raised _, _) => False
  end.
Proof.
  unfold write_vtk_file. destruct (exists_ s file && negb overwrite) eqn:E1.
  { apply andb_prop in E1 as (E1 & E2). split; [reflexivity|]. split; [now destruct overwrite|]. left. intros H. apply exists_none in H. congruence. }
  set (resp := match fns with Some (f :: _) => (f =? file)%string | _ => false end). destruct (resp && exists_ s m && negb overwrite) eqn:E2.
  { apply andb_prop in E2 as (E2 & E3). apply andb_prop in E2 as (_ & E2). split; [reflexivity|]. split; [now destruct overwrite|]. right. intros H. apply exists_none in H. congruence. }
  destruct fns as [fns|].
  2: { cbn zeta. intros _. split; [apply write_same|]. split; [discriminate|]. intros n Hn _. now apply write_other. }
  destruct resp eqn:Er; cbn zeta; intros Hm.
  - destruct fns as [|f fns]; [discriminate|]. apply String.eqb_eq in Er. subst f. assert (Hne : file <> m) by (intros ->; apply (Hm eq_refl); eauto). split; [rewrite write_other by exact Hne; apply write_same|]. split.
    + intros l [= ->]. apply write_same.
    + intros n Hn Hnm. rewrite write_other; [now apply write_other|]. intros ->. apply (Hnm eq_refl). eauto.
  - split; [apply write_same|]. split; [|intros n Hn _; now apply write_other]. intros l [= ->]. unfold resp in Er. rewrite String.eqb_refl in Er. discriminate.
Qed.
Print Assumptions C150_both_or_neither.
Example C150_example :
  exists s', write_vtk_file nat 7 (fun l => length l) (fun _ n => n) (ex_fs []) "a-0.vtu" false (Some "a.pvtu"%string) (Some ["a-0.vtu"; "a-1.vtu"]%string) = (Done, s') /\ s' "a-0.vtu"%string = Some 7 /\ s' "a.pvtu"%string = Some 2.
Proof. eexists. repeat split; reflexivity. Qed.
(** With names of files but without the name of a manifest, the file is written before ValueError is raised. *)
Theorem C150_both_or_neither_refuted : exists (s s' : fs nat) e,
  write_vtk_file nat 7 (fun l => length l) (fun _ n => n) s "a-0.vtu" true None (Some ["a-0.vtu"; "a-1.vtu"]%string) = (Raised e, s') /\ s "a-0.vtu"%string = Some 1 /\ s' "a-0.vtu"%string = Some 7.
Proof. exists (ex_fs [("a-0.vtu"%string, 1)]). eexists. exists ValueError. repeat split; reflexivity. Qed.
Print Assumptions C150_both_or_neither_refuted.

(** ** C151: the ranks of a parallel run, in whatever order, write one file each and one manifest with the names of all files *)
Theorem C151_parallel_files content (vtu : nat -> content) manifest relname s nranks fmt overwrite m order :
  0 < nranks -> Permutation order (seq 0 nranks) -> (forall i j, i < nranks -> j < nranks -> fmt i = fmt j -> i = j) -> (forall i, i < nranks -> fmt i <> m) ->
  (overwrite = true \/ (s m = None /\ forall i, i < nranks -> s (fmt i) = None)) ->
  exists s', parallel_run content manifest relname s vtu nranks fmt overwrite (Some m) order = (repeat Done nranks, s') /\
    (forall r, r < nranks -> s' (fmt r) = Some (vtu r)) /\ s' m = Some (manifest (map (relname m) (map fmt (seq 0 nranks)))) /\
    (forall n, n <> m -> (forall r, r < nranks -> n <> fmt r) -> s' n = s n).
Proof. apply parallel_files. Qed.
Print Assumptions C151_parallel_files.
(** the name of the manifest, if none is given, is the name of the file of rank 0 with the extension .pvtu *)
Lemma C151_default_manifest content (vtu : content) manifest relname s comm fmt overwrite base : fmt 0 = (base ++ ".vtu")%string ->
  write_parallel_vtk_file content vtu manifest relname s comm fmt overwrite None = write_parallel_vtk_file content vtu manifest relname s comm fmt overwrite (Some (base ++ ".pvtu")%string).
Proof.
  intros H. unfold write_parallel_vtk_file. destruct (match comm with Some c => c | None => (0, 1) end) as (rank, nranks). rewrite H.
  assert (Hl : String.length (base ++ ".vtu") - 4 = String.length base) by (clear; induction base as [|c base IH]; [reflexivity|]; cbn [String.append String.length] in *; destruct (String.length (base ++ ".vtu")) as [|[|[|[|k]]]] eqn:E; cbn in *; try lia; destruct base; discriminate).
  assert (H1 : ends_with_vtu (base ++ ".vtu") = true). { unfold ends_with_vtu. rewrite Hl. clear. induction base as [|c base IH]; [reflexivity|]. cbn [String.append String.length substring]. exact IH. }
  assert (H2 : manifest_name (base ++ ".vtu") = (base ++ ".pvtu")%string). { unfold manifest_name. rewrite Hl. f_equal. clear. induction base as [|c base IH]; [reflexivity|]. cbn [String.append String.length substring]. now rewrite IH. }
  rewrite H1, H2. reflexivity.
Qed.
Print Assumptions C151_default_manifest.
Example C151_example : exists s', parallel_run nat (fun l => 100 + length l) (fun _ n => n) (ex_fs []) (fun r => r) 3 (fun r => nth r ["a0.vtu"; "a1.vtu"; "a2.vtu"]%string EmptyString) false (Some "a0.pvtu"%string) [2; 0; 1] = (repeat Done 3, s') /\
  s' "a2.vtu"%string = Some 2 /\ s' "a0.pvtu"%string = Some 103.
Proof. eexists. split; [vm_compute; reflexivity|]. split; reflexivity. Qed.

(** ** C152: the datasets of a VTK HDF file written by several ranks, in whatever order.  A reader who splits them by the numbers of cells, points and connectivity entries gets
    what each rank had, the coordinates padded with zeros to three. *)
Theorem C152_hdf_ranks R zero width (ranks : list (hdf_local R)) order :
  (forall h, In h ranks -> length (hl_types h) = hl_cells h /\ length (hl_offsets h) = S (hl_cells h) /\ Forall (fun row => length row = width) (hl_nodes h)) ->
  Permutation order (seq 0 (length ranks)) ->
  exists ncells npoints nconn points conn offsets types,
    write_ranks R zero width ranks order = Ok (mk_hdf_file R (map Some ncells) (map Some npoints) (map Some nconn) (map Some points) (map Some conn) (map Some offsets) (map Some types)) /\
    split_by ncells types = map (@hl_types R) ranks /\ split_by (map S ncells) offsets = map (@hl_offsets R) ranks /\ split_by nconn conn = map (@hl_conn R) ranks /\
    split_by npoints (map (firstn width) points) = map (@hl_nodes R) ranks /\ ncells = map (@hl_cells R) ranks /\
    Forall (fun row => length row = Nat.max 3 width /\ skipn width row = repeat zero (3 - width)) points.
Proof.
  intros Hc Hp. do 7 eexists. split; [apply ranks_ok; [intros h Hh; destruct (Hc h Hh) as (H1 & H2 & _); auto|exact Hp]|]. 
  assert (Hpad : forall h, In h ranks -> map (firstn width) (pad_rows R zero width (hl_nodes h)) = hl_nodes h). { intros h Hh. destruct (Hc h Hh) as (_ & _ & Hw). unfold pad_rows. rewrite Forall_forall in Hw. destruct (width <? 3) eqn:E.
    - rewrite map_map. rewrite <- (map_id (hl_nodes h)) at 2. apply map_ext_in. intros row Hrow. unfold pad_row. rewrite firstn_app, (Hw row Hrow), Nat.sub_diag. rewrite firstn_all2 by (rewrite (Hw row Hrow); lia). cbn [firstn]. apply app_nil_r.
    - rewrite <- (map_id (hl_nodes h)) at 2. apply map_ext_in. intros row Hrow. apply firstn_all2. rewrite (Hw row Hrow). lia. }
  split; [|split; [|split; [|split; [|split]]]].
  - replace (map (@hl_cells R) ranks) with (map (@length nat) (map (fun h => hl_types h) ranks)); [apply split_concat|]. rewrite map_map. apply map_ext_in. intros h Hh. now destruct (Hc h Hh) as (-> & _).
  - replace (map S (map (@hl_cells R) ranks)) with (map (@length nat) (map (fun h => hl_offsets h) ranks)); [apply split_concat|]. rewrite !map_map. apply map_ext_in. intros h Hh. now destruct (Hc h Hh) as (_ & -> & _).
  - replace (map (fun h : hdf_local R => length (hl_conn h)) ranks) with (map (@length nat) (map (fun h => hl_conn h) ranks)); [apply split_concat|]. now rewrite map_map.
  - rewrite concat_map, map_map. replace (map (fun x => map (firstn width) (pad_rows R zero width (hl_nodes x))) ranks) with (map (@hl_nodes R) ranks) by (symmetry; apply map_ext_in; exact Hpad).
    replace (map (fun h : hdf_local R => length (hl_nodes h)) ranks) with (map (@length (list R)) (map (@hl_nodes R) ranks)); [apply split_concat|]. now rewrite map_map.
  - reflexivity.
  - apply Forall_concat. apply Forall_forall. intros rows Hrows. apply in_map_iff in Hrows. destruct Hrows as (h & <- & Hh). destruct (Hc h Hh) as (_ & _ & Hw). unfold pad_rows. destruct (width <? 3) eqn:E.
    + apply Nat.ltb_lt in E. apply Forall_map. eapply Forall_impl; [|exact Hw]. cbn beta. intros row Hrow. unfold pad_row. rewrite app_length, repeat_length, Hrow. split; [lia|]. rewrite skipn_app, Hrow, Nat.sub_diag. rewrite skipn_all2 by lia. reflexivity.
    + apply Nat.ltb_ge in E. eapply Forall_impl; [|exact Hw]. cbn beta. intros row Hrow. split; [lia|]. rewrite skipn_all2 by lia. replace (3 - width) with 0 by lia. reflexivity.
Qed.
Print Assumptions C152_hdf_ranks.
(** point data: each rank has as many rows as points *)
Theorem C152_hdf_fields A (pad : list A -> list A) (data : list (list A)) order : (forall x, In x data -> length (pad x) = length x) ->
  Permutation order (seq 0 (length data)) ->
  exists field, write_field pad data (map (@length A) data) order = Ok (map Some field) /\ split_by (map (@length A) data) field = map pad data.
Proof.
  intros Hpad Hp. eexists. split; [now apply write_field_ok|]. replace (map (@length A) data) with (map (@length A) (map pad data)); [apply split_concat|]. rewrite map_map. apply map_ext_in. exact Hpad.
Qed.
Print Assumptions C152_hdf_fields.
Definition ex_ranks : list (hdf_local nat) := [mk_hdf_local 1 [[1; 2]; [3; 4]; [5; 6]] [0; 1; 2] [0; 3] [5]; mk_hdf_local 2 [[7; 8]; [9; 10]; [11; 12]; [13; 14]] [0; 1; 2; 1; 2; 3] [0; 3; 6] [5; 5]].
Example C152_example : (forall h, In h ex_ranks -> length (hl_types h) = hl_cells h /\ length (hl_offsets h) = S (hl_cells h) /\ Forall (fun row => length row = 2) (hl_nodes h)) /\
  write_ranks nat 0 2 ex_ranks [1; 0] = Ok (mk_hdf_file nat (map Some [1; 2]) (map Some [3; 4]) (map Some [3; 6])
    (map Some [[1; 2; 0]; [3; 4; 0]; [5; 6; 0]; [7; 8; 0]; [9; 10; 0]; [11; 12; 0]; [13; 14; 0]]) (map Some [0; 1; 2; 0; 1; 2; 1; 2; 3]) (map Some [0; 3; 0; 3; 6]) (map Some [5; 5; 5])).
Proof. split; [|vm_compute; reflexivity]. intros h [<-|[<-|[]]]; cbn; repeat split; repeat constructor. Qed.
(** A rank without elements cannot take part: finding the numbers of points of its cells raises ValueError. *)
Theorem C152_empty_rank_refuted : exists gc, drawable ex_tuples ex_submesh ex_simplex_type ex_tensor_type ex_count gc /\
  (vcs <- vis_groups (connectivity_for ex_tuples ex_submesh ex_simplex_type ex_tensor_type) [fst gc] ;; types <- cell_types vcs ;; hdf_linear_cells ex_count vcs types) = Err ValueError.
Proof.
  exists (mk_visgrp true (Simplex 2) 1 0 3, ([[0; 1; 2]], 5)). split; [|vm_compute; reflexivity]. split; [reflexivity|]. split; [discriminate|]. split; [cbn; lia|]. split; [lia|]. intros els [<-|[]]. split; [reflexivity|]. cbn. intros; lia.
Qed.
Print Assumptions C152_empty_rank_refuted.

(** ** C153: the dictionary h5_file_options of the caller is not changed *)
Theorem C153_options_kept V (mpio : V) veqb opts : snd (vtkhdf_options V mpio veqb None opts) = opts.
Proof. reflexivity. Qed.
Print Assumptions C153_options_kept.
(** With a communicator, h5py gets it, the driver mpio and the other options of the caller, or the caller asked for another driver. *)
Theorem C153_options_given V (mpio : V) veqb c (opts : option (dict V)) : (forall v, veqb v mpio = true <-> v = mpio) ->
  let given : dict V := match opts with Some d => d | None => [] end in
  NoDup (map fst given) ->
  match fst (vtkhdf_options V mpio veqb (Some c) opts) with
  | Ok d => NoDup (map fst d) /\ dict_get V d "comm"%string = Some c /\ dict_get V d "driver"%string = Some mpio /\
            (forall k, k <> "comm"%string -> k <> "driver"%string -> dict_get V d k = dict_get V given k)
  | Err e => e = ValueError /\ exists v, dict_get V given "driver"%string = Some v /\ v <> mpio
  end.
Proof. apply vtkhdf_options_given. Qed.
Print Assumptions C153_options_given.
Example C153_given_example : fst (vtkhdf_options string "mpio"%string String.eqb (Some "world"%string) (Some [("comm"%string, "self"%string); ("libver"%string, "latest"%string)])) =
  Ok [("comm"%string, "world"%string); ("libver"%string, "latest"%string); ("driver"%string, "mpio"%string)].
Proof. reflexivity. Qed.
(** With a communicator, it is put into the dictionary: a later file written without communicator is opened with it, and write_xdmf_file refuses the dictionary. *)
Theorem C153_options_refuted : exists (opts opts' : dict string),
  snd (vtkhdf_options string "mpio"%string String.eqb (Some "world"%string) (Some opts)) = Some opts' /\ opts' <> opts /\
  fst (vtkhdf_options string "mpio"%string String.eqb None (Some opts')) = Ok opts' /\ dict_get string opts' "comm"%string = Some "world"%string /\
  xdmf_options string "mpio"%string String.eqb (Some opts) = Ok opts /\ xdmf_options string "mpio"%string String.eqb (Some opts') = Err NotImplementedError.
Proof. exists [("libver"%string, "latest"%string)]. eexists. split; [vm_compute; reflexivity|]. split; [discriminate|]. repeat split; reflexivity. Qed.
Print Assumptions C153_options_refuted.

(** ** C154: visualizers *)
Theorem C154_make_visualizer key U F S keqb apply_factory equidistant edge_clustered (one : S) key_order nunit_of fresh (d : discr key U F) ord shrink force v :
  discr_wf key U F apply_factory d -> fresh <> d_id d -> make_visualizer key U F keqb apply_factory equidistant edge_clustered S one fresh d ord shrink force = Ok v ->
  good_visualizer key U F apply_factory key_order nunit_of v /\ conn_from (v_conn v) = d /\ v_equi v = force /\ v_shrink v = match shrink with Some s => s | None => one end /\
  (force = true -> exists o, ord = Some o /\ (d_factory (conn_to (v_conn v)) = equidistant o \/ conn_to (v_conn v) = d)).
Proof. apply make_good. Qed.
Print Assumptions C154_make_visualizer.
Theorem C154_connectivity key U F S apply_factory key_order nunit_of (v : visualizer key U F S) h : good_visualizer key U F apply_factory key_order nunit_of v ->
  good_visualizer key U F apply_factory key_order nunit_of (snd (vtk_connectivity key U F S v h)) /\ v_conn (snd (vtk_connectivity key U F S v h)) = v_conn v /\
  match fst (vtk_connectivity key U F S v h) with Ok c => same_cells key U F key_order nunit_of (conn_to c) (conn_to (v_conn v)) | Err e => e = RuntimeError /\ h = true /\ v_equi v = false end.
Proof. apply connectivity_good. Qed.
Print Assumptions C154_connectivity.
Theorem C154_copy key U F S keqb apply_factory key_order nunit_of fresh (v : visualizer key U F S) d' from to gs :
  (forall a b, keqb a b = true -> a = b) -> (forall f a b, mg_shape a = mg_shape b -> apply_factory f a = apply_factory f b) ->
  good_visualizer key U F apply_factory key_order nunit_of v -> v_conn v = DirectConn from to gs -> discr_wf key U F apply_factory d' -> check_same_connectivity key U F keqb d' from = true ->
  (forall g g', In g (d_groups from) -> In g' (d_groups d') -> dg_key g = dg_key g' -> mg_shape (dg_mesh g) = mg_shape (dg_mesh g')) ->
  exists v' to', copy_with_same_connectivity key U F keqb apply_factory S fresh v d' false = Ok v' /\ good_visualizer key U F apply_factory key_order nunit_of v' /\ v_conn v' = DirectConn d' to' gs /\
    d_mesh to' = d_mesh d' /\ d_factory to' = d_factory to /\ same_cells key U F key_order nunit_of to' to /\ v_shrink v' = v_shrink v /\ v_equi v' = v_equi v.
Proof. intros Hk Hf. now apply copy_good. Qed.
Print Assumptions C154_copy.
(** keys are shapes with orders, unit nodes their numbers, factories the kind and the order *)
Definition ex_factory (f : bool * nat) (mg : mgrp) : res ((bool * nat * nat) * nat) :=
  match mg_shape mg with Simplex d => Ok ((fst f, snd f, d), (snd f + 1) * d) | _ => Err TypeError end.
Definition ex_keqb (a b : bool * nat * nat) : bool := Bool.eqb (fst (fst a)) (fst (fst b)) && (snd (fst a) =? snd (fst b)) && (snd a =? snd b).
Definition ex_vmesh (id : nat) : vmesh := mk_vmesh id [mk_mgrp (Simplex 2) 4; mk_mgrp (Simplex 2) 3].
Definition ex_discr (id mesh : nat) : discr (bool * nat * nat) nat (bool * nat) :=
  mk_discr id (ex_vmesh mesh) (false, 2) [mk_dgrp (mk_mgrp (Simplex 2) 4) (false, 2, 2) 6; mk_dgrp (mk_mgrp (Simplex 2) 3) (false, 2, 2) 6].
Example C154_example : discr_wf _ _ _ ex_factory (ex_discr 1 1) /\ discr_wf _ _ _ ex_factory (ex_discr 2 2) /\ check_same_connectivity _ _ _ ex_keqb (ex_discr 2 2) (ex_discr 1 1) = true /\
  exists v v' to gs, make_visualizer _ _ _ ex_keqb ex_factory (fun o => (true, o)) (fun o => (false, o)) nat 1 3 (ex_discr 1 1) (Some 4) None true = Ok v /\ v_conn v = DirectConn (ex_discr 1 1) to gs /\
    copy_with_same_connectivity _ _ _ ex_keqb ex_factory nat 4 (snd (vtk_connectivity _ _ _ _ v true)) (ex_discr 2 2) false = Ok v' /\ v_lagrange v' = Some (DirectConn (ex_discr 1 1) to gs).
Proof.
  assert (H : forall a b, discr_wf _ _ _ ex_factory (ex_discr a b)) by (intros a b; repeat constructor). split; [apply H|]. split; [apply H|]. split; [reflexivity|]. do 4 eexists. split; [vm_compute; reflexivity|]. split; [reflexivity|]. split; [vm_compute; reflexivity|]. reflexivity.
Qed.
(** A visualizer made without further arguments cannot be copied, and an element_shrink_factor cannot be given alone. *)
Theorem C154_copy_refuted : exists (d d' : discr (bool * nat * nat) nat (bool * nat)) v,
  discr_wf _ _ _ ex_factory d /\ discr_wf _ _ _ ex_factory d' /\ check_same_connectivity _ _ _ ex_keqb d' d = true /\
  make_visualizer _ _ _ ex_keqb ex_factory (fun o => (true, o)) (fun o => (false, o)) nat 1 3 d None None false = Ok v /\
  copy_with_same_connectivity _ _ _ ex_keqb ex_factory nat 4 v d' false = Err AssertionError /\
  make_visualizer _ _ _ ex_keqb ex_factory (fun o => (true, o)) (fun o => (false, o)) nat 1 3 d None (Some 2) false = Err AssertionError.
Proof.
  exists (ex_discr 1 1), (ex_discr 2 2). assert (H : forall a b, discr_wf _ _ _ ex_factory (ex_discr a b)) by (intros a b; repeat constructor). eexists. split; [apply H|]. split; [apply H|]. split; [reflexivity|]. split; [vm_compute; reflexivity|]. split; vm_compute; reflexivity.
Qed.
Print Assumptions C154_copy_refuted.

(** ** C155: files with the vertices of a mesh *)
Theorem C155_vertex_vtk simplex_type tensor_type groups :
  (forall d, 1 <= d <= 3 -> exists t, simplex_type d = Some t /\ t <> 255) -> (forall d, 1 <= d <= 3 -> exists t, tensor_type d = Some t /\ t <> 255) ->
  groups <> [] -> Forall writable groups ->
  exists cells types, write_vertex_vtk simplex_type tensor_type groups = Ok (concat cells, types) /\ length cells = length (elements groups) /\ length types = length (elements groups) /\
    Forall2 (fun (gr : vgroup * list nat) (ct : list nat * nat) => element_cell (fst gr) (snd gr) (fst ct) /\ element_type simplex_type tensor_type (fst gr) = Some (snd ct)) (elements groups) (combine cells types).
Proof.
  intros Hs Ht Hne Hw. destruct (types_ok simplex_type tensor_type Hs Ht groups Hne Hw) as (ts & H1 & H2). destruct (cells_ok groups Hw) as (cells & H3 & H4). destruct (elements_split simplex_type tensor_type groups cells ts H3 H1) as (H5 & H6 & H7).
  exists (concat cells). eexists. split; [unfold write_vertex_vtk; rewrite H2; cbn [bind]; rewrite H4; reflexivity|]. auto.
Qed.
Print Assumptions C155_vertex_vtk.
(** a triangle and two quadrilaterals *)
Definition ex_mixed : list vgroup := [mk_vgroup MSimplex 2 [[0; 1; 2]]; mk_vgroup MTensor 2 [[1; 3; 2; 4]; [3; 5; 4; 6]]].
Example C155_example : Forall writable ex_mixed /\ write_vertex_vtk (fun d => nth_error [1; 3; 5; 10] d) (fun d => nth_error [1; 3; 9; 12] d) ex_mixed = Ok ([0; 1; 2; 1; 3; 4; 2; 3; 5; 6; 4], [5; 9; 9]).
Proof. split; [|vm_compute; reflexivity]. repeat constructor; cbn; try lia; discriminate. Qed.
(** STL: one triangle for each element, with its vertices in order; only for one group of triangles in three dimensions *)
Theorem C155_stl P ambient_dim (vertices : list P) groups :
  match write_stl P ambient_dim vertices groups with
  | Ok triangles => exists rows, groups = [mk_vgroup MSimplex 2 rows] /\ ambient_dim = 3 /\
      Forall2 (fun row tri => exists a b c l x y z, row = a :: b :: c :: l /\ tri = [x; y; z] /\ nth_error vertices a = Some x /\ nth_error vertices b = Some y /\ nth_error vertices c = Some z) rows triangles
  | Err NotImplementedError => length groups <> 1
  | Err ValueError => ambient_dim <> 3 \/ (forall rows, groups <> [mk_vgroup MSimplex 2 rows])
  | Err _ => exists rows, groups = [mk_vgroup MSimplex 2 rows] /\ (Exists (Exists (fun v => length vertices <= v)) rows \/ Exists (fun row => length row < 3) rows)
  end.
Proof.
  unfold write_stl. destruct groups as [|g [|g' l]]; [discriminate| |discriminate]. destruct (ambient_dim =? 3) eqn:E; cbn [guard bind]; [|left; now apply Nat.eqb_neq]. apply Nat.eqb_eq in E.
  destruct g as [cl dim rows]. cbn [vgr_class vgr_dim vgr_vi]. destruct (match cl with MSimplex => dim =? 2 | _ => false end) eqn:E2; cbn [guard bind].
  2: { right. intros rows' [= -> -> _]. discriminate. }
  destruct cl; try discriminate. apply Nat.eqb_eq in E2. subst dim ambient_dim.
  destruct (mapM (fun row => take vertices row) rows) as [faces|e] eqn:E3; cbn [bind].
  - apply mapM_ok in E3. destruct (mapM (fun face => mapM (fun iv => get face iv) (seq 0 3)) faces) as [tris|e] eqn:E4.
    + apply mapM_ok in E4. exists rows. split; [reflexivity|]. split; [reflexivity|]. revert tris E4. clear -E3. induction E3 as [|row face rows faces H _ IH]; intros tris E4; inversion E4 as [|? tri ? tris' Htri E4']; subst; constructor; [|now apply IH].
      apply take_ok in H. cbn [seq mapM] in Htri. destruct face as [|x [|y [|z l]]]; cbn in Htri; try discriminate. assert (tri = [x; y; z]) as -> by congruence.
      inversion H as [|a ? r1 ? Ha H1]; subst. inversion H1 as [|b ? r2 ? Hb H2]; subst. inversion H2 as [|c ? r3 ? Hc H3]; subst. do 7 eexists. repeat split; eassumption.
    + assert (Hx : e = IndexError /\ Exists (fun row => length row < 3) rows). { revert E4. clear -E3. induction E3 as [|row face rows faces H _ IH]; intros E4; [discriminate|]. cbn [mapM] in E4. destruct (mapM (fun iv => get face iv) (seq 0 3)) as [t|e'] eqn:Et; cbn [bind] in E4.
        - destruct (mapM (fun face => mapM (fun iv => get face iv) (seq 0 3)) faces) eqn:E5; cbn [bind] in E4; [discriminate|]. assert (e0 = e) as -> by congruence. destruct (IH eq_refl) as (-> & Hr). split; [reflexivity|now right].
        - assert (e' = e) as -> by congruence. apply take_ok in H. apply Forall2_length' in H. destruct face as [|x [|y [|z l]]]; cbn in Et; try discriminate; (split; [congruence|left; rewrite H; cbn; lia]). }
      destruct Hx as (-> & Hx). exists rows. auto.
  - assert (Hx : e = IndexError /\ Exists (Exists (fun v => length vertices <= v)) rows). { revert E3. clear. induction rows as [|row rows IH]; intros E3; [discriminate|]. cbn [mapM] in E3. destruct (take vertices row) as [t|e'] eqn:Et; cbn [bind] in E3.
      - destruct (mapM (fun row => take vertices row) rows) eqn:E5; cbn [bind] in E3; [discriminate|]. assert (e0 = e) as -> by congruence. destruct (IH eq_refl) as (-> & Hr). split; [reflexivity|now right].
      - assert (e' = e) as -> by congruence. clear -Et. unfold take in Et. assert (He : e = IndexError /\ Exists (fun v => length vertices <= v) row). { revert Et. induction row as [|v row IH]; intros Et; [discriminate|]. cbn [mapM] in Et. unfold get at 1 in Et. destruct (nth_error vertices v) eqn:En; cbn [bind] in Et; [|split; [congruence|left; now apply nth_error_None]]. destruct (mapM (get vertices) row) eqn:Er; cbn [bind] in Et; [discriminate|]. assert (e0 = e) as -> by congruence. destruct (IH eq_refl) as (-> & Hr). split; [reflexivity|now right]. } destruct He as (-> & He). split; [reflexivity|now left]. }
    destruct Hx as (-> & Hx). exists rows. auto.
Qed.
Print Assumptions C155_stl.
Example C155_stl_example : write_stl nat 3 [10; 20; 30; 40] [mk_vgroup MSimplex 2 [[0; 1; 2]; [0; 2; 3]]] = Ok [[10; 20; 30]; [10; 30; 40]].
Proof. reflexivity. Qed.

(** ** C156: mesh_to_tikz: names of coordinates are unique, each has the point it should have; lines and triangles are drawn by their edges *)
Ltac pick_edge := first [exists 0, 1; now repeat split; lia|exists 1, 0; now repeat split; lia|exists 1, 2; now repeat split; lia|exists 2, 1; now repeat split; lia|exists 0, 2; now repeat split; lia|exists 2, 0; now repeat split; lia].
Theorem C156_tikz P average (vertices : list P) groups ptss : groups <> [] -> Forall2 (fun gr pts => take vertices (snd gr) = Ok pts) (elements groups) ptss ->
  exists coords cycles, mesh_to_tikz P average vertices groups = Ok (coords, cycles) /\ NoDup (map fst coords) /\ length cycles = length ptss /\
    (forall name p, In (name, p) coords <-> exists n pts, nth_error ptss n = Some pts /\ ((name = Cent (n + 1) /\ p = average pts) \/ exists i, name = Vert (n + 1) (i + 1) /\ nth_error pts i = Some p)) /\
    (forall n g row, nth_error (elements groups) n = Some (g, row) -> vgr_class g = MSimplex -> 1 <= vgr_dim g <= 2 -> length row = nvertices_of g ->
      exists cycle, nth_error cycles n = Some cycle /\ forall a b, (In (a, b) (segments cycle) \/ In (b, a) (segments cycle)) <-> exists i j, a = Vert (n + 1) (i + 1) /\ b = Vert (n + 1) (j + 1) /\ is_edge g i j).
Proof.
  intros Hne H. do 2 eexists. split; [apply (tikz_ok P average vertices groups ptss Hne H)|]. split; [apply names_nodup|]. split; [rewrite map_length; unfold enumerate, enumerate_from; rewrite combine_length, seq_length; lia|]. split.
  - intros name p. rewrite in_concat. split.
    + intros (l & Hl & Hp). apply in_map_iff in Hl. destruct Hl as ((n, pts) & <- & Hn). apply In_enumerate in Hn. cbn [fst snd] in Hp. exists n, pts. split; [exact Hn|]. destruct Hp as [Hp|Hp]; [left; injection Hp as <- <-; auto|]. right. apply in_map_iff in Hp. destruct Hp as ((i, q) & E & Hi). apply In_enumerate in Hi. cbn [fst snd] in E. injection E as <- <-. eauto.
    + intros (n & pts & Hn & Hp). exists (element_lines P average n pts). split; [apply in_map_iff; exists (n, pts); split; [reflexivity|now apply In_enumerate]|]. destruct Hp as [(-> & ->)|(i & -> & Hi)]; [now left|]. right. apply in_map_iff. exists (i, p). split; [reflexivity|now apply In_enumerate].
  - intros n g row Hn Hc Hd Hl. destruct (Forall2_nth_error _ _ _ _ _ H Hn) as (pts & Hpts & Ht). cbn [snd] in Ht. apply take_ok in Ht. apply Forall2_length' in Ht.
    exists (map (fun vi => Vert (n + 1) (vi + 1)) (seq 0 (length pts))). split; [rewrite nth_error_map, nth_error_enumerate, Hpts; reflexivity|]. rewrite <- Ht, Hl. unfold is_edge, nvertices_of. rewrite Hc. intros a b.
    assert (Hdd : vgr_dim g = 1 \/ vgr_dim g = 2) by lia. destruct Hdd as [-> | ->]; cbn [seq map segments app combine In]; split.
    + intros [H'|H']; repeat (destruct H' as [H'|H']; [injection H' as <- <-; pick_edge|]); destruct H'.
    + intros (i & j & -> & -> & Hi & Hj & Hij). destruct i as [|[|i]]; destruct j as [|[|j]]; try lia; auto.
    + intros [H'|H']; repeat (destruct H' as [H'|H']; [injection H' as <- <-; pick_edge|]); destruct H'.
    + intros (i & j & -> & -> & Hi & Hj & Hij). destruct i as [|[|[|i]]]; destruct j as [|[|[|j]]]; try lia; auto 10.
Qed.
Print Assumptions C156_tikz.
Example C156_example : mesh_to_tikz nat (fun l => sum l) [10; 20; 30; 40] [mk_vgroup MSimplex 1 [[3; 0]]; mk_vgroup MSimplex 2 [[0; 1; 2]]] =
  Ok ([(Cent 1, 50); (Vert 1 1, 40); (Vert 1 2, 10); (Cent 2, 60); (Vert 2 1, 10); (Vert 2 2, 20); (Vert 2 3, 30)], [[Vert 1 1; Vert 1 2]; [Vert 2 1; Vert 2 2; Vert 2 3]]).
Proof. reflexivity. Qed.
(** A quadrilateral is drawn with its two diagonals instead of two of its sides. *)
Theorem C156_quadrilateral_refuted : exists g row coords cycle, vgr_class g = MTensor /\ vgr_dim g = 2 /\ length row = nvertices_of g /\ vgr_vi g = [row] /\
  mesh_to_tikz nat (fun l => sum l) [10; 20; 30; 40] [g] = Ok (coords, [cycle]) /\
  is_edge g 0 2 /\ ~ In (Vert 1 1, Vert 1 3) (segments cycle) /\ ~ In (Vert 1 3, Vert 1 1) (segments cycle) /\
  ~ is_edge g 1 2 /\ In (Vert 1 2, Vert 1 3) (segments cycle).
Proof.
  exists (mk_vgroup MTensor 2 [[0; 1; 2; 3]]), [0; 1; 2; 3]. do 2 eexists. split; [reflexivity|]. split; [reflexivity|]. split; [reflexivity|]. split; [reflexivity|]. split; [vm_compute; reflexivity|].
  split; [unfold is_edge; cbn; split; [lia|split; [lia|]]; exists 1; cbn; split; [lia|right; split; [reflexivity|lia]]|].
  split; [cbn; intuition discriminate|]. split; [cbn; intuition discriminate|]. split; [|cbn; auto].
  intros (_ & _ & k & Hk & He). cbn in Hk. assert (Hkk : k = 0 \/ k = 1) by (cbn in Hk; lia). destruct Hkk as [-> | ->]; cbn in He; intuition (try discriminate; lia).
Qed.
Print Assumptions C156_quadrilateral_refuted.

(** ** C157: the file of nodal adjacency: a point for each element, the average of its vertices; a line from each element to each element it shares a vertex with *)
Theorem C157_points P mean_of (vertices garbage : list P) groups ptss : groups <> [] -> length garbage = length (elements groups) ->
  Forall2 (fun gr pts => take vertices (snd gr) = Ok pts) (elements groups) ptss -> adjacency_points P mean_of garbage vertices groups = Ok (map mean_of ptss).
Proof. apply points_ok. Qed.
Print Assumptions C157_points.
Theorem C157_lines {E} ord nv (groups : list (egroup E)) starts nbs garbage :
  (forall l, Permutation (ord l) l) -> groups <> [] -> has_rows groups -> rows_in_range nv groups -> (forall e row, elem_row groups e row -> row <> []) ->
  compute_nodal_adjacency ord (Some nv) groups = Ok (starts, nbs) -> length garbage = length nbs ->
  exists lines, adjacency_lines garbage (sum (map nelements groups)) starts nbs = Ok lines /\ NoDup lines /\
    forall a b, In (a, b) lines <-> a < sum (map nelements groups) /\ a <> b /\ share_vertex groups a b.
Proof.
  intros Hord Hne Hr Hrng Hrow Hadj Hg. destruct (C02_nodal_adjacency ord nv groups Hord Hne Hr Hrng Hrow) as (starts' & nbs' & E' & _ & H0 & Hn & Hrows). assert (starts' = starts /\ nbs' = nbs) as (-> & ->) by (split; congruence). clear E'.
  set (n := sum (map nelements groups)) in *.
  assert (exists rows, Forall2 (fun e row => csr_row starts nbs e row /\ NoDup row /\ forall f, In f row <-> f <> e /\ share_vertex groups e f) (seq 0 n) rows) as (rows & HF).
  { assert (G : forall l, (forall e, In e l -> e < n) -> exists rows, Forall2 (fun e row => csr_row starts nbs e row /\ NoDup row /\ forall f, In f row <-> f <> e /\ share_vertex groups e f) l rows). { induction l as [|e l IH]; intros Hl; [exists []; constructor|]. destruct (Hrows e) as (row & H1); [apply Hl; now left|]. destruct IH as (rows & H2); [intros e' He'; apply Hl; now right|]. exists (row :: rows). now constructor. } apply G. intros e He. apply in_seq in He. lia. }
  eexists. split; [eapply lines_ok; [exact H0|exact Hn|exact Hg|eapply Forall2_impl; [|exact HF]; cbn; tauto]|].
  assert (Hrow' : forall e row, nth_error rows e = Some row -> e < n /\ NoDup row /\ forall f, In f row <-> f <> e /\ share_vertex groups e f).
  { intros e row He. destruct (Forall2_nth_error_r _ _ _ _ _ HF He) as (e' & He' & _ & H1 & H2). assert (Hlt : e < n). { rewrite <- (seq_length n 0). rewrite (Forall2_length' _ _ _ HF). apply nth_error_Some. congruence. } rewrite (nth_error_nth' _ 0) in He' by (rewrite seq_length; exact Hlt). rewrite seq_nth in He' by exact Hlt. injection He' as <-. auto. }
  split.
  - clear -Hrow'. unfold enumerate. assert (G : forall k, (forall e row, nth_error rows e = Some row -> NoDup row) -> NoDup (concat (map (fun er : nat * list nat => map (pair (fst er)) (snd er)) (enumerate_from k rows)))); [|apply G; intros e row He; now apply (Hrow' e row He)].
    clear. induction rows as [|row rows IH]; intros k H; [constructor|]. rewrite enumerate_from_cons. cbn [map concat fst snd]. apply NoDup_app.
    + apply FinFun.Injective_map_NoDup; [intros x y E; congruence|]. exact (H 0 row eq_refl).
    + apply IH. intros e r He. exact (H (S e) r He).
    + intros (a, b) Hx Hy. apply in_map_iff in Hx. destruct Hx as (b' & [= <- <-] & _). apply in_concat in Hy. destruct Hy as (l & Hl & Hy). apply in_map_iff in Hl. destruct Hl as ((n, q) & <- & Hl). cbn [fst snd] in Hy. apply in_map_iff in Hy. destruct Hy as (? & [= <- _] & _). unfold enumerate_from in Hl. apply in_combine_l in Hl. apply in_seq in Hl. lia.
  - intros a b. rewrite in_concat. split.
    + intros (l & Hl & Hy). apply in_map_iff in Hl. destruct Hl as ((e, row) & <- & Hl). apply In_enumerate in Hl. cbn [fst snd] in Hy. apply in_map_iff in Hy. destruct Hy as (b' & [= <- <-] & Hb). destruct (Hrow' e row Hl) as (H1 & _ & H2). apply H2 in Hb. destruct Hb. auto.
    + intros (Ha & Hab & Hs). destruct (nth_error rows a) as [row|] eqn:Er. 2: { apply nth_error_None in Er. rewrite <- (Forall2_length' _ _ _ HF), seq_length in Er. lia. }
      exists (map (pair a) row). split; [apply in_map_iff; exists (a, row); split; [reflexivity|now apply In_enumerate]|]. apply in_map_iff. exists b. split; [reflexivity|]. apply (Hrow' a row Er). auto.
Qed.
Print Assumptions C157_lines.
Example C157_example : adjacency_points nat (fun l => sum l) [0; 0; 0] [10; 20; 30; 40; 50; 60; 70] ex_mixed = Ok [60; 140; 220] /\
  adjacency_lines [9; 9; 9; 9; 9; 9] 3 [0; 2; 4; 6] [1; 2; 0; 2; 0; 1] = Ok [(0, 1); (0, 2); (1, 0); (1, 2); (2, 0); (2, 1)].
Proof. split; reflexivity. Qed.
