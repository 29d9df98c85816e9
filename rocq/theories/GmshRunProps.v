(** * GmshRunProps: options and warnings of generate_gmsh (C203, C204). *)
From Coq Require Import List Arith Bool ZArith Lia.
From Verif Require Import Np NpFacts Lin GmshRunModel GmshRunSpec GmshRunProofs.
Import ListNotations.

(** ** C203: output files, units and warnings *)

(** The output of gmsh is saved where the argument says, relative paths being relative to the current directory; output_file_name has the same meaning and takes precedence;
    nothing is saved without either. *)
Theorem C203_saved :
  forall (R : cring) (reqb : R -> R -> bool) cwd points u name path force o, starts_with_slash cwd = true ->
    generate_gmsh reqb cwd points u name path force = Ok o ->
    match name, path with
    | Some p, _ | None, Some p => exists q, oc_saved o = Some q /\ resolve cwd q = resolve cwd p
    | None, None => oc_saved o = None
    end.
Proof.
  intros R reqb cwd points u name path force o Hcwd H. unfold generate_gmsh in H. destruct u as [u|], name as [p|]; cbv iota beta in H; apply bind_ok in H as (w & _ & [= <-]); cbn [oc_saved].
  all: try destruct path as [p'|]; try reflexivity; eexists; (split; [reflexivity|]); eapply saved_resolve; (exact Hcwd || reflexivity).
Qed.
Print Assumptions C203_saved.

(** The first coordinates are kept; without force_ambient_dim there is a warning exactly if a coordinate is zero for all vertices, about the first of these; without a unit the
    unit is millimeters. *)
Theorem C203_warnings :
  forall (R : cring) (reqb : R -> R -> bool), (forall a b, reqb a b = true <-> a = b) ->
  forall cwd (points : tunit -> list (list R)) u name path force d, d <= 3 -> (forall u, points u <> [] /\ in_space d (points u)) ->
    exists o, generate_gmsh reqb cwd points u name path force = Ok o /\
      oc_unit o = match u with Some u => u | None => UMM end /\
      oc_vertices o = match force with Some k => map (firstn k) (points (oc_unit o)) | None => points (oc_unit o) end /\
      (In WTargetUnit (oc_warnings o) <-> u = None) /\ (In WOutputName (oc_warnings o) <-> name <> None) /\
      (forall a s, In (WZeroAxis a s) (oc_warnings o) <->
        force = None /\ s = a /\ a < d /\ zero_axis (points (oc_unit o)) a /\ forall b, b < a -> ~ zero_axis (points (oc_unit o)) b).
Proof.
  intros R reqb Hr cwd points u name path force d Hd Hs. unfold generate_gmsh.
  set (un := match u with Some u => u | None => UMM end).
  set (w1 := match u with Some _ => [] | None => [WTargetUnit] end).
  assert (E1 : match u with Some u => (u, []) | None => (UMM, [WTargetUnit]) end = (un, w1)) by (now destruct u). rewrite E1. clear E1.
  set (pa := match name with Some n => Some n | None => path end). set (w2 := match name with Some _ => [WOutputName] | None => [] end).
  assert (E2 : match name with Some n => (Some n, [WOutputName]) | None => (path, []) end = (pa, w2)) by (now destruct name). rewrite E2. clear E2.
  destruct (Hs un) as (Hne & Hsp).
  assert (exists w3, match force with
          | Some _ => Ok []
          | None => first_zero_axis reqb (match force with Some k => map (firstn k) (points un) | None => points un end)
             (seq 0 (match (match force with Some k => map (firstn k) (points un) | None => points un end) with [] => 0 | v :: _ => length v end))
          end = Ok w3 /\ ~ In WTargetUnit w3 /\ ~ In WOutputName w3 /\ forall a s, In (WZeroAxis a s) w3 <->
        force = None /\ s = a /\ a < d /\ zero_axis (points un) a /\ forall b, b < a -> ~ zero_axis (points un) b) as (w3 & E3 & N1 & N2 & Hw).
  { destruct force as [k|].
    - exists []. split; [reflexivity|]. split; [intros []|]. split; [intros []|]. intros a s. split; [intros []|intros (H & _); discriminate].
    - assert (El : match points un with [] => 0 | v :: _ => length v end = d).
      { destruct (points un) as [|v vs]; [congruence|]. apply Hsp. now left. }
      rewrite El. destruct (first_zero_axis_ok reqb Hr d (points un) Hsp Hd d 0 eq_refl) as (w & Ew & H). exists w. split; [exact Ew|].
      destruct H as [(-> & H)|(a0 & -> & Ha & Hz & H)].
      + split; [intros []|]. split; [intros []|]. intros a s. split; [intros []|]. intros (_ & _ & Ha & Hz & _). exfalso. apply (H a); [lia|exact Hz].
      + split; [intros [[=]|[]]|]. split; [intros [[=]|[]]|]. intros a s. split.
        * intros [[= <- <-]|[]]. split; [reflexivity|]. split; [reflexivity|]. split; [lia|]. split; [exact Hz|]. intros b Hb. apply H. lia.
        * intros (_ & -> & Hlt & Hz' & H'). left. destruct (lt_eq_lt_dec a a0) as [[L| ->]|L]; [exfalso; apply (H a); [lia|exact Hz']|reflexivity|exfalso; apply (H' a0); [exact L|exact Hz]]. }
  cbv zeta. rewrite E3. cbn [bind]. eexists. split; [reflexivity|]. cbn [oc_unit oc_vertices oc_warnings]. split; [reflexivity|]. split; [reflexivity|].
  split; [|split].
  - rewrite !in_app_iff. unfold w1, w2. destruct u, name; cbn [In]; split; try tauto; try congruence; intuition discriminate.
  - rewrite !in_app_iff. unfold w1, w2. destruct u, name; cbn [In]; split; try tauto; try congruence; intuition discriminate.
  - intros a s. rewrite !in_app_iff, <- Hw. unfold w1, w2. destruct u, name; cbn [In]; intuition discriminate.
Qed.
Print Assumptions C203_warnings.

(** If all coordinates from the suggested number on are zero, nothing is lost by following the suggestion, and no further axis is zero. *)
Theorem C203_suggestion_in_first_axes :
  forall (R : cring) (reqb : R -> R -> bool), (forall a b, reqb a b = true <-> a = b) ->
  forall cwd (points : tunit -> list (list R)) u name path d o o' a k, d <= 3 -> (forall u, points u <> [] /\ in_space d (points u)) ->
    generate_gmsh reqb cwd points u name path None = Ok o -> In (WZeroAxis a k) (oc_warnings o) -> in_first k d (oc_vertices o) ->
    generate_gmsh reqb cwd points u name path (Some k) = Ok o' ->
    map (fun v => v ++ repeat r0 (d - k)) (oc_vertices o') = oc_vertices o /\ forall b, b < k -> ~ zero_axis (oc_vertices o') b.
Proof.
  intros R reqb Hr cwd points u name path d o o' a k Hd Hs H1 Hw Hin H2.
  destruct (C203_warnings R reqb Hr cwd points u name path None d Hd Hs) as (o1 & E1 & U1 & V1 & _ & _ & W1). rewrite H1 in E1. injection E1 as <-.
  destruct (C203_warnings R reqb Hr cwd points u name path (Some k) d Hd Hs) as (o2 & E2 & U2 & V2 & _). rewrite H2 in E2. injection E2 as <-.
  apply W1 in Hw as (_ & -> & Ha & Hz & Hb). rewrite V1 in *. rewrite V2. rewrite U1 in *. rewrite U2. set (un := match u with Some u => u | None => UMM end) in *.
  destruct (Hs un) as (_ & Hsp). split.
  - rewrite map_map. rewrite <- (map_id (points un)) at 2. apply map_ext_in. intros v Hv. rewrite <- (firstn_skipn a v) at 2. f_equal.
    apply nth_error_ext'. intros i. rewrite nth_error_skipn. destruct (Nat.ltb_spec i (d - a)) as [L|L].
    + rewrite (Hin (a + i)) by (auto; lia). rewrite nth_error_repeat by assumption. reflexivity.
    + rewrite (proj2 (nth_error_None _ _)) by (rewrite repeat_length; lia). symmetry. apply nth_error_None. rewrite (Hsp v Hv). lia.
  - intros b Hlt Hzb. apply (Hb b Hlt). intros v Hv. specialize (Hzb (firstn a v) (in_map _ _ _ Hv)). rewrite nth_error_firstn in Hzb. destruct (b <? a); [exact Hzb|discriminate].
Qed.
Print Assumptions C203_suggestion_in_first_axes.

(** "out/m.msh" in the directory "/w"; a triangle in the x-y plane *)
Definition ex_cwd : path := [47; 119].
Definition ex_out : path := [111; 117; 116; 47; 109; 46; 109; 115; 104].
Definition ex_tri (_ : tunit) : list (list Zcring) := [[0; 0; 0]; [1; 0; 0]; [0; 1; 0]]%Z.
Example C203_example :
  generate_gmsh (R := Zcring) Z.eqb ex_cwd ex_tri None None (Some ex_out) None = Ok (mk_outcome (R := Zcring) (ex_tri UMM) UMM (Some ex_out) [WTargetUnit; WZeroAxis 2 2]) /\
  resolve ex_cwd ex_out = [[119]; [111; 117; 116]; [109; 46; 109; 115; 104]] /\ starts_with_slash ex_cwd = true /\
  generate_gmsh (R := Zcring) Z.eqb ex_cwd ex_tri (Some UM) (Some [109]) None (Some 2) =
    Ok (mk_outcome (R := Zcring) [[0; 0]; [1; 0]; [0; 1]]%Z UM (Some [47; 119; 47; 109]) [WOutputName]) /\
  in_first 2 3 (ex_tri UMM) /\ in_space 3 (ex_tri UMM).
Proof.
  repeat match goal with |- _ /\ _ => split end; try (vm_compute; reflexivity).
  - intros a Ha. assert (a = 2) as -> by lia. intros v [<-|[<-|[<-|[]]]]; reflexivity.
  - intros v [<-|[<-|[<-|[]]]]; reflexivity.
Qed.

(** ** C204 (refuted): following the suggestion of the warning keeps the vertices apart *)
Theorem C204_suggestion_refuted :
  exists (points points' : tunit -> list (list Zcring)) o o1 o' o1',
    (* a triangle in the x-z plane *)
    generate_gmsh (R := Zcring) Z.eqb ex_cwd points (Some UM) None None None = Ok o /\ In (WZeroAxis 1 1) (oc_warnings o) /\ NoDup (oc_vertices o) /\
    generate_gmsh (R := Zcring) Z.eqb ex_cwd points (Some UM) None None (Some 1) = Ok o1 /\ ~ NoDup (oc_vertices o1) /\
    (* a triangle in the y-z plane: no coordinates are left *)
    generate_gmsh (R := Zcring) Z.eqb ex_cwd points' (Some UM) None None None = Ok o' /\ In (WZeroAxis 0 0) (oc_warnings o') /\ NoDup (oc_vertices o') /\
    generate_gmsh (R := Zcring) Z.eqb ex_cwd points' (Some UM) None None (Some 0) = Ok o1' /\ oc_vertices o1' = [[]; []; []].
Proof.
  exists (fun _ => [[0; 0; 0]; [1; 0; 0]; [0; 0; 1]]%Z), (fun _ => [[0; 0; 0]; [0; 1; 0]; [0; 0; 1]]%Z). do 4 eexists.
  split; [vm_compute; reflexivity|]. split; [left; reflexivity|]. split; [cbn [oc_vertices]; repeat constructor; cbn; intuition discriminate|].
  split; [vm_compute; reflexivity|]. split.
  { cbn [oc_vertices]. intros H. inversion_clear H as [|? ? Hn _]. apply Hn. right. now left. }
  split; [vm_compute; reflexivity|]. split; [left; reflexivity|]. split; [cbn [oc_vertices]; repeat constructor; cbn; intuition discriminate|].
  split; [vm_compute; reflexivity|reflexivity].
Qed.
Print Assumptions C204_suggestion_refuted.
