(** * FdConnProps: theorems C125-C133 about exporting meshes to Firedrake and connections to Firedrake. *)
From Coq Require QArith Qcanon.
From Coq Require Import List Arith Bool Lia Permutation Sorted ZArith.
From Verif Require Import Np NpFacts MeshModel MeshSpec MeshProofs MeshStateModel Lin ProcModel ConsistModel Ord QcOrd FdModel FdSpec FdImportProofs FdConnModel FdConnSpec FdConnProofs FdConnMainProofs FdConnExportProofs FdConnFromProofs FdConnRefProofs.
Import ListNotations.

Section Props.
  Variable R : cring.
  Context {A V : Type}.
  Variable resampling : list (list R) -> list (list R) -> list (list R).
  Variables (rint : R -> Z) (inj : Z -> R).
  Variables (simplex : nat -> bool) (plex : list (list nat) -> list V -> fdexport) (ambient : nat) (mat nodes : list (list R)).
  Notation export := (export_mesh R resampling rint inj simplex plex ambient mat nodes).

  Lemma export_all d (m : mesh (enodes R) A V) group_nr g rows old cells coords :
    rounds rint inj -> symmetric d nodes -> interpolates resampling nodes -> length mat = length nodes ->
    can_export simplex d m group_nr g rows old cells coords -> proper_fx (length nodes) cells (plex cells coords) ->
    let fx := plex cells coords in
    exists data perms, export m group_nr = Ok (data, fx_cells fx, perms) /\
      partition (length rows) perms /\ (forall p e, entry perms p e -> perm_of fx rows old e p) /\ length data = fx_nnodes fx /\
      (forall nd, (exists e c ns, nth_error (fx_cells fx) e = Some c /\ nth_error (fx_cell_nodes fx) c = Some ns /\ In nd ns) ->
         exists pt, nth_error data nd = Some pt /\ exported_point fx rows old nodes (map (map (matvec mat)) (eg_nodes g)) nd pt) /\
      (forall nd, nd < fx_nnodes fx -> (forall e c ns, nth_error (fx_cells fx) e = Some c -> nth_error (fx_cell_nodes fx) c = Some ns -> ~ In nd ns) -> nth_error data nd = Some (zeros ambient)).
  Proof using.
    intros H1 H2 H3 H4 (nr & vs & E1 & E2 & E3 & E4 & E5 & E6 & E7 & E8 & E9 & E10 & E11 & E12) Hfx.
    exact (export_ok resampling rint inj simplex plex ambient mat nodes d m nr group_nr g rows old cells coords vs H1 H2 H3 H4 E1 E2 E3 E4 E5 E6 E7 E8 E9 E10 E11 E12 Hfx).
  Qed.

  (** ** C125: the permutations of perm2cell *)
  Theorem C125_exported_permutations d (m : mesh (enodes R) A V) group_nr g rows old cells coords :
    rounds rint inj -> symmetric d nodes -> interpolates resampling nodes -> length mat = length nodes ->
    can_export simplex d m group_nr g rows old cells coords -> proper_fx (length nodes) cells (plex cells coords) ->
    exists data order perms, export m group_nr = Ok (data, order, perms) /\
      forall p e, in_list perms p e -> exists c row orow, nth_error order e = Some c /\ nth_error rows e = Some row /\
        fd_vertices (plex cells coords) old c orow /\ Permutation p (seq 0 (d + 1)) /\
        forall i k, nth_error p i = Some k -> nth_error orow i = nth_error row k.
  Proof using.
    intros H1 H2 H3 H4 H5 H6. destruct (export_all d m group_nr g rows old cells coords H1 H2 H3 H4 H5 H6) as (data & perms & E & _ & Hent & _).
    exists data, (fx_cells (plex cells coords)), perms. split; [exact E|]. intros p e He. destruct (Hent p e He) as (c & row & frow & orow & G1 & G2 & G3 & G4 & G5 & G6).
    exists c, row, orow. split; [exact G1|]. split; [exact G2|]. split; [exists frow; auto|].
    assert (Hl : length row = d + 1). { destruct H5 as (nr & vs & _ & _ & _ & _ & _ & _ & _ & F & _). rewrite Forall_forall in F. apply F. eapply nth_error_In; eauto. }
    rewrite Hl in G5. split; [exact G5|]. intros i k Hk. destruct (perm_range _ _ _ _ G5 Hk) as (_ & Hkl). destruct (nth_error row k) as [v|] eqn:Ev.
    - apply G6. eauto.
    - apply nth_error_None in Ev. lia.
  Qed.

  (** ** C126: every element is in exactly one list *)
  Theorem C126_elements_partitioned d (m : mesh (enodes R) A V) group_nr g rows old cells coords :
    rounds rint inj -> symmetric d nodes -> interpolates resampling nodes -> length mat = length nodes ->
    can_export simplex d m group_nr g rows old cells coords -> proper_fx (length nodes) cells (plex cells coords) ->
    exists data order perms, export m group_nr = Ok (data, order, perms) /\ length order = length rows /\ NoDup (map fst perms) /\
      (forall p cs, In (p, cs) perms -> cs <> [] /\ NoDup cs) /\
      (forall e, e < length rows <-> exists p, in_list perms p e) /\ (forall p q e, in_list perms p e -> in_list perms q e -> p = q).
  Proof using.
    intros H1 H2 H3 H4 H5 H6. destruct (export_all d m group_nr g rows old cells coords H1 H2 H3 H4 H5 H6) as (data & perms & E & Hpart & _).
    exists data, (fx_cells (plex cells coords)), perms. split; [exact E|].
    split. { destruct H6 as (Hl & _). destruct H5 as (nr & vs & _ & _ & _ & _ & _ & _ & _ & _ & _ & _ & F & _). rewrite Hl. exact (Forall2_length' _ _ _ F). }
    pose proof Hpart as (Hk & Hp & Hne).
    assert (Hnd : NoDup (concat (map snd perms))) by (apply (Permutation_NoDup (Permutation_sym Hp)), seq_NoDup).
    split; [exact Hk|]. split; [|split].
    - intros p cs Hin. split; [eauto|]. clear - Hnd Hin. induction perms as [|(q, cs') l IH]; [destruct Hin|]. cbn [map snd concat] in Hnd. apply NoDup_app_inv in Hnd as (N1 & N2 & _).
      destruct Hin as [E|Hin]; [injection E as <- <-; exact N1|auto].
    - intros e. split; [intros He; exact (partition_entry _ _ _ Hpart He)|]. intros (p & cs & Hin & He).
      assert (Hc : In e (concat (map snd perms))) by (apply in_concat; exists cs; split; [apply in_map_iff; exists (p, cs); auto|exact He]).
      apply (Permutation_in _ Hp), in_seq in Hc. lia.
    - clear - Hnd. intros p q e (cs & Hp & He) (cs' & Hq & He'). induction perms as [|(r, cs0) l IH]; [destruct Hp|]. cbn [map snd concat] in Hnd. apply NoDup_app_inv in Hnd as (N1 & N2 & N3).
      assert (Hin : forall p cs, In (p, cs) l -> In e cs -> In e (concat (map snd l))) by (intros p0 c0 I1 I2; apply in_concat; exists c0; split; [apply in_map_iff; exists (p0, c0); auto|exact I2]).
      destruct Hp as [E|Hp], Hq as [E'|Hq].
      + congruence.
      + injection E as <- <-. exfalso. apply (N3 e He). eauto.
      + injection E' as <- <-. exfalso. apply (N3 e He'). eauto.
      + auto.
  Qed.

  (** ** C127: the documented direction of the permutations.  [p] maps vertices of the Firedrake cell to vertices of the
      element; the documentation says the opposite, which is right exactly for permutations that are their own inverse. *)
  Theorem C127_documented_iff d (m : mesh (enodes R) A V) group_nr g rows old cells coords :
    rounds rint inj -> symmetric d nodes -> interpolates resampling nodes -> length mat = length nodes ->
    can_export simplex d m group_nr g rows old cells coords -> proper_fx (length nodes) cells (plex cells coords) ->
    exists data order perms, export m group_nr = Ok (data, order, perms) /\
      forall p e, in_list perms p e -> exists c row orow, nth_error order e = Some c /\ nth_error rows e = Some row /\ fd_vertices (plex cells coords) old c orow /\
        ((forall i k, nth_error p i = Some k -> nth_error orow k = nth_error row i) <-> (forall i k, nth_error p i = Some k -> nth_error p k = Some i)).
  Proof using.
    intros H1 H2 H3 H4 H5 H6. destruct (C125_exported_permutations d m group_nr g rows old cells coords H1 H2 H3 H4 H5 H6) as (data & order & perms & E & H).
    exists data, order, perms. split; [exact E|]. intros p e He. destruct (H p e He) as (c & row & orow & G1 & G2 & G3 & G4 & G5). exists c, row, orow.
    split; [exact G1|]. split; [exact G2|]. split; [exact G3|].
    assert (Hr : length row = d + 1 /\ NoDup row). { destruct H5 as (nr & vs & _ & _ & _ & _ & _ & _ & _ & F & _). rewrite Forall_forall in F. apply F. eapply nth_error_In; eauto. }
    destruct Hr as (Hl & Hnd). split.
    - intros Hd i k Hk. destruct (perm_range _ _ _ _ G4 Hk) as (Hi & Hkl).
      destruct (nth_error p k) as [j|] eqn:Ej. 2:{ apply nth_error_None in Ej. rewrite (Permutation_length G4), seq_length in Ej. lia. }
      f_equal. pose proof (Hd _ _ Hk) as E1. rewrite (G5 _ _ Ej) in E1. rewrite NoDup_nth_error in Hnd. apply Hnd; [|exact E1].
      destruct (perm_range _ _ _ _ G4 Ej). lia.
    - intros Hinv i k Hk. apply G5. now apply Hinv.
  Qed.

  (** ** C128: coordinates of the exported mesh *)
  Theorem C128_exported_coordinates d (m : mesh (enodes R) A V) group_nr g rows old cells coords :
    rounds rint inj -> symmetric d nodes -> interpolates resampling nodes -> length mat = length nodes ->
    can_export simplex d m group_nr g rows old cells coords -> proper_fx (length nodes) cells (plex cells coords) ->
    let point := exported_point (plex cells coords) rows old nodes (map (map (matvec mat)) (eg_nodes g)) in
    exists data order perms, export m group_nr = Ok (data, order, perms) /\ length data = fx_nnodes (plex cells coords) /\
      (forall nd, (exists e c ns, nth_error order e = Some c /\ nth_error (fx_cell_nodes (plex cells coords)) c = Some ns /\ In nd ns) ->
         exists pt, nth_error data nd = Some pt /\ point nd pt) /\
      (forall nd, nd < length data -> (forall e c ns, nth_error order e = Some c -> nth_error (fx_cell_nodes (plex cells coords)) c = Some ns -> ~ In nd ns) ->
         nth_error data nd = Some (zeros ambient)) /\
      ((forall nd pt pt', point nd pt -> point nd pt' -> pt = pt') -> forall nd pt, point nd pt -> nth_error data nd = Some pt).
  Proof using.
    intros H1 H2 H3 H4 H5 H6 point. destruct (export_all d m group_nr g rows old cells coords H1 H2 H3 H4 H5 H6) as (data & perms & E & _ & _ & Hl & Hw & Hz).
    exists data, (fx_cells (plex cells coords)), perms. split; [exact E|]. split; [exact Hl|]. split; [exact Hw|]. split; [rewrite Hl; exact Hz|].
    intros Hagree nd pt Hpt. destruct (Hw nd) as (pt' & Hd & Hpt').
    - destruct Hpt as (e & c & row & frow & orow & ns & k & p & j & q & x & G1 & _ & _ & _ & G5 & G6 & _). exists e, c, ns. split; [exact G1|]. split; [exact G5|]. eapply nth_error_In; eauto.
    - rewrite Hd. f_equal. eapply Hagree; eauto.
  Qed.

  (** ** C129: the node mapping of build_connection_to_firedrake *)
  Theorem C129_node_mapping_to d (m : mesh (enodes R) A V) group_nr g rows old cells coords junk cnl :
    rounds rint inj -> symmetric d nodes -> interpolates resampling nodes -> length mat = length nodes ->
    can_export simplex d m group_nr g rows old cells coords -> proper_fx (length nodes) cells (plex cells coords) ->
    length junk = length rows -> NoDup (concat cnl) ->
    (forall c, In c (fx_cells (plex cells coords)) -> exists ns, nth_error cnl c = Some ns /\ length ns = length nodes) ->
    exists data order perms mapping, export m group_nr = Ok (data, order, perms) /\
      mapping_to_firedrake R resampling rint nodes junk order perms cnl = Ok mapping /\
      connection_init [(true, length rows, length nodes)] true true mapping (Some 0%Z) = Ok 0 /\
      forall e c row ns new k nd, nth_error order e = Some c -> nth_error rows e = Some row -> nth_error cnl c = Some ns -> nth_error mapping e = Some new -> nth_error new k = Some nd ->
        exists orow j p q, fd_vertices (plex cells coords) old c orow /\ nth_error ns j = Some nd /\ nth_error nodes k = Some p /\ nth_error nodes j = Some q /\ same_place row p orow q.
  Proof using.
    intros H1 H2 H3 H4 H5 H6 Hj Hnd Hcnl. destruct (export_all d m group_nr g rows old cells coords H1 H2 H3 H4 H5 H6) as (data & perms & E & Hpart & Hent & _).
    assert (Hrows : Forall (fun row => length row = d + 1) rows).
    { destruct H5 as (nr & vs & _ & _ & _ & _ & _ & _ & _ & F & _). eapply Forall_impl; [|exact F]. cbn. tauto. }
    assert (Hlen : length (fx_cells (plex cells coords)) = length rows).
    { destruct H6 as (Hl & _). destruct H5 as (nr & vs & _ & _ & _ & _ & _ & _ & _ & _ & _ & _ & F & _). rewrite Hl. exact (Forall2_length' _ _ _ F). }
    destruct (mapping_to_ok resampling rint inj H1 d nodes H2 H3 (plex cells coords) rows old Hrows junk perms cnl Hpart Hent Hlen (proj1 (proj2 H6)) Hj Hnd Hcnl) as (mapping & Em & Lm & Nm & Hm).
    exists data, (fx_cells (plex cells coords)), perms, mapping. split; [exact E|]. split; [exact Em|]. split.
    - assert (Hall : Forall (fun r => length r = length nodes) mapping).
      { apply Forall_forall. intros r Hr. apply In_nth_error in Hr as (e & Hr). assert (e < length rows) by (rewrite <- Lm; apply nth_error_Some; congruence).
        destruct (nth_error rows e) as [row|] eqn:Er; [|apply nth_error_None in Er; lia]. destruct (nth_error (fx_cells (plex cells coords)) e) as [c|] eqn:Ec; [|apply nth_error_None in Ec; lia].
        destruct (Hcnl c (nth_error_In _ _ Ec)) as (ns & Hns & _). destruct (Hm e c row ns r Ec Er Hns Hr) as (frow & orow & _ & _ & Hl & _). exact Hl. }
      unfold connection_init, connection_group. cbn [length Z.of_nat Z.opp guard bind get nth_error negb Z.leb Z.ltb Z.compare Pos.compare Pos.compare_cont andb orb Z.to_nat]. cbn.
      rewrite Lm, Nat.eqb_refl. cbn [andb]. rewrite (proj2 (forallb_forall _ _)); [cbn [guard bind]|intros r Hr; rewrite Forall_forall in Hall; apply Nat.eqb_eq; auto].
      now rewrite (unique_nodup_length _ Nm), Nat.eqb_refl.
    - intros e c row ns new k nd G1 G2 G3 G4 G5. destruct (Hm e c row ns new G1 G2 G3 G4) as (frow & orow & F1 & F2 & _ & F3). destruct (F3 k nd G5) as (j & p & q & J1 & J2 & J3 & J4).
      exists orow, j, p, q. split; [exists frow; auto|]. auto.
  Qed.

End Props.

Section Transfers.
  Variable R : cring.

  (** ** C130: the node mapping of build_connection_from_firedrake *)
  Theorem C130_node_mapping_from (resampling : list (list R) -> list (list R) -> list (list R)) (rint : R -> Z) (inj : Z -> R) nodes d neg cells cnl used :
    rounds rint inj -> symmetric (S d) nodes -> interpolates resampling nodes ->
    match cells with None => used = cnl | Some cs => NoDup cs /\ Forall2 (fun c ns => nth_error cnl c = Some ns) cs used end ->
    length neg = length used -> NoDup (concat cnl) -> Forall (fun ns => length ns = length nodes) cnl ->
    exists mapping, mapping_from_firedrake R resampling rint (S d) nodes neg cells cnl = Ok mapping /\ length mapping = length used /\ NoDup (concat mapping) /\
      forall e b ns new vs k nd, nth_error neg e = Some b -> nth_error used e = Some ns -> nth_error mapping e = Some new -> length vs = S d + 1 -> nth_error new k = Some nd ->
        exists j p q, nth_error ns j = Some nd /\ nth_error nodes k = Some p /\ nth_error nodes j = Some q /\ same_place (if b then swap01 vs else vs) p vs q.
  Proof using.
    intros H1 H2 H3 H4 H5 H6 H7. destruct (mapping_from_ok resampling rint inj H1 d nodes H2 H3 neg cells cnl used H4 H5 H6 H7) as (mapping & E & L & N & Hm).
    exists mapping. split; [exact E|]. split; [exact L|]. split; [exact N|]. intros e b ns new vs k nd G1 G2 G3 G4 G5. destruct (Hm e b ns new vs G1 G2 G3 G4) as (_ & _ & F). exact (F k nd G5).
  Qed.

  (** ** C131: transfer of fields and functions *)
  Theorem C131_field_round_trip n fd2mm mm2fd mapping nr nnodes (u : mfield R) empty :
    proper_mapping n nnodes mapping -> undoes n fd2mm mm2fd -> proper_field u -> nr < length empty ->
    Forall (fun a => exists x, nth_error a nr = Some x /\ group_shape (length mapping) n x) (field_comps u) ->
    exists f u', from_meshmode R mm2fd mapping nr nnodes u None = Ok f /\ ff_shape R f = field_shape u /\
      Forall (fun d => length d = nnodes /\ forall k, k < nnodes -> ~ In k (concat mapping) -> nth_error d k = Some r0) (ff_data R f) /\
      from_firedrake R fd2mm mapping nr empty f None = Ok u' /\ field_shape u' = field_shape u /\
      Forall2 (fun a' a => nth_error a' nr = nth_error a nr) (field_comps u') (field_comps u).
  Proof using.
    intros H1 H2 H3 H4 H5. destruct (field_round_trip n fd2mm mm2fd mapping nr nnodes u empty H1 H2 H3 H5 H4) as (f & u' & E1 & E2 & E3 & E4 & E5 & _ & E6).
    exists f, u'. repeat (split; [assumption|]). eapply Forall2_impl; [|exact E6]. cbn. tauto.
  Qed.

  Theorem C131_function_round_trip n fd2mm mm2fd mapping nr nnodes (f : ffunction R) empty :
    proper_mapping n nnodes mapping -> undoes n mm2fd fd2mm -> length mm2fd = n -> proper_function f -> nr < length empty ->
    Forall (fun d => length d = nnodes) (ff_data R f) ->
    exists u f', from_firedrake R fd2mm mapping nr empty f None = Ok u /\ from_meshmode R mm2fd mapping nr nnodes u None = Ok f' /\ ff_shape R f' = ff_shape R f /\
      Forall2 (fun d' d => length d' = nnodes /\ forall k, In k (concat mapping) -> nth_error d' k = nth_error d k) (ff_data R f') (ff_data R f).
  Proof using.
    intros H1 H2 H3 H4 H5 H6. destruct (function_round_trip n fd2mm mm2fd mapping nr nnodes f empty H1 (proj1 H2) H3 H2 H4 H6 H5) as (u & f' & E1 & _ & E3 & E4 & E5).
    exists u, f'. repeat (split; [assumption|]). eapply Forall2_impl; [|exact E5]. cbn. intros d' d (Hl & Hk). split; [exact Hl|]. intros k Hin.
    assert (k < nnodes) by (destruct H1 as (_ & _ & F); rewrite Forall_forall in F; auto). rewrite (Hk k) by assumption. destruct (in_dec Nat.eq_dec k (concat mapping)); [reflexivity|contradiction].
  Qed.

  Theorem C131_into_function n mm2fd mapping nr nnodes (u : mfield R) (f0 : ffunction R) :
    proper_mapping n nnodes mapping -> length mm2fd = n ->
    Forall (fun a => exists x, nth_error a nr = Some x /\ group_shape (length mapping) n x) (field_comps u) ->
    ff_shape R f0 = field_shape u -> length (ff_data R f0) = length (field_comps u) -> Forall (fun d => length d = nnodes) (ff_data R f0) ->
    exists f, from_meshmode R mm2fd mapping nr nnodes u (Some f0) = Ok f /\ ff_shape R f = field_shape u /\
      Forall2 (fun d d0 => length d = nnodes /\ forall k, ~ In k (concat mapping) -> nth_error d k = nth_error d0 k) (ff_data R f) (ff_data R f0) /\
      Forall2 (fun d a => forall x e row v i nd, nth_error a nr = Some x -> nth_error mapping e = Some row -> nth_error x e = Some v -> nth_error row i = Some nd ->
        nth_error d nd = nth_error (matvec mm2fd v) i) (ff_data R f) (field_comps u).
  Proof using.
    intros H1 H2 H3 H4 H5 H6. destruct (field_into n mm2fd mapping nr nnodes u f0 H1 H2 H3 H4 H5 H6) as (f & E1 & E2 & E3 & E4). exists f. repeat (split; [assumption|]).
    eapply Forall2_impl; [|exact E4]. cbn. intros d a H x e row v i nd Hx Hr Hv Hi. specialize (H x Hx). destruct (Forall2_nth_error _ _ _ _ _ H Hr) as (v' & Hv' & Ht).
    assert (v' = v) by congruence. subst v'. apply take_ok in Ht. destruct (Forall2_nth_error _ _ _ _ _ Ht Hi) as (y & Hy & Hd). congruence.
  Qed.

  (** ** C132: from_firedrake stores into a given object array - never *)
  Theorem C132_out_object_array fd2mm mapping nr empty f s cs :
    from_firedrake R fd2mm mapping nr empty f (Some (FObj R s cs)) = Err ValueError \/ from_firedrake R fd2mm mapping nr empty f (Some (FObj R s cs)) = Err AttributeError.
  Proof using. unfold from_firedrake. destruct (list_nat_eqb s (ff_shape R f)); cbn [guard bind]; auto. Qed.

  (** group numbers that are too large: IndexError, although ValueError is documented *)
  Theorem C132_group_nr_error ngroups z : (Z.of_nat ngroups <= z)%Z -> connection_group ngroups (Some z) = Err IndexError.
  Proof using.
    intros H. unfold connection_group. cbn [bind]. replace (z <? Z.of_nat ngroups)%Z with false by (symmetry; apply Z.ltb_ge; lia). rewrite andb_false_r. reflexivity.
  Qed.

  (** ** C133: the map between the reference simplices *)
  Theorem C133_reference_vertices solve neg_det d dir f i v w : right_solver d solve -> reference_map R solve neg_det d dir = Ok f ->
    nth_error (if dir then fiat_vertices R d else modepy_vertices R d) i = Some v -> nth_error (if dir then modepy_vertices R d else fiat_vertices R d) i = Some w -> f v = w.
  Proof using. apply reference_vertices. Qed.

  Theorem C133_reference_inverse solve neg_det d f g : right_solver d solve -> reference_map R solve neg_det d true = Ok f -> reference_map R solve neg_det d false = Ok g ->
    forall p, length p = d -> g (f p) = p /\ f (g p) = p.
  Proof using. apply reference_inverse. Qed.
End Transfers.

(** Imported meshes are not known to be conforming, so they cannot be exported again. *)
Theorem C132_imported_not_exported (R : ocring) (A : Type) (aff_id : A) M fvi junk normals fd cells (m : mesh (enodes R) A (list R)) os after
    resampling rint inj simplex plex ambient mat nodes group_nr :
  import_mesh R aff_id M fvi junk normals fd cells = Ok (m, os, after) -> simplex 0 = true -> (group_nr = None \/ group_nr = Some 0%Z) ->
  export_mesh R resampling rint inj simplex plex ambient mat nodes m group_nr = Err ValueError.
Proof.
  intros H Hs Hnr. apply import_inv in H as (_ & _ & _ & _ & rn & rows & nv & cnl & pts & xs & dofs & vertices & perm & g & fags & fags' & l & _ & _ & _ & _ & _ & _ & _ & _ & _ & _ & _ & _ & _ & ->).
  unfold export_mesh. destruct Hnr as [-> | ->]; cbn; rewrite Hs; reflexivity.
Qed.

Print Assumptions C125_exported_permutations.
Print Assumptions C126_elements_partitioned.
Print Assumptions C127_documented_iff.
Print Assumptions C128_exported_coordinates.
Print Assumptions C129_node_mapping_to.
Print Assumptions C130_node_mapping_from.
Print Assumptions C131_field_round_trip.
Print Assumptions C131_function_round_trip.
Print Assumptions C131_into_function.
Print Assumptions C132_out_object_array.
Print Assumptions C132_group_nr_error.
Print Assumptions C132_imported_not_exported.
Print Assumptions C133_reference_vertices.
Print Assumptions C133_reference_inverse.

(** ** Examples *)

(** Quadratic triangles: the nodes by twice their barycentric coordinates, over the integers *)
Definition p2 : list (list Z) := [[2; 0; 0]; [1; 1; 0]; [0; 2; 0]; [1; 0; 1]; [0; 1; 1]; [0; 0; 2]]%Z.
Definition z_eqb (p q : list Z) : bool := if list_eq_dec Z.eq_dec p q then true else false.
Definition exact (new old : list (list Z)) : list (list Z) :=
  map (fun p => match find (fun jq => z_eqb (snd jq) p) (enumerate old) with Some (j, _) => unitv (R := Zcring) (length old) j | None => zeros (R := Zcring) (length old) end) new.
Lemma z_eqb_iff p q : z_eqb p q = true <-> p = q.
Proof. unfold z_eqb. destruct (list_eq_dec Z.eq_dec p q); split; congruence. Qed.
Lemma exact_row (nodes new : list (list Z)) k j p : NoDup nodes -> nth_error new k = Some p -> nth_error nodes j = Some p ->
  nth_error (exact new nodes) k = Some (unitv (R := Zcring) (length nodes) j).
Proof.
  intros Hnd Hk Hj. unfold exact. rewrite nth_error_map, Hk. cbn [option_map]. f_equal.
  destruct (find (fun jq : nat * list Z => z_eqb (snd jq) p) (enumerate nodes)) as [(j', q)|] eqn:E.
  - apply find_some in E as (Hin & Eq). cbn [snd] in Eq. apply z_eqb_iff in Eq. subst q. apply In_enumerate in Hin. rewrite NoDup_nth_error in Hnd. f_equal. apply Hnd; [apply nth_error_Some; congruence|congruence].
  - exfalso. assert (Hin : In (j, p) (enumerate nodes)) by (apply In_enumerate; exact Hj). apply (find_none _ _ E) in Hin. cbn [snd] in Hin.
    assert (z_eqb p p = true) by now apply z_eqb_iff. congruence.
Qed.
Lemma exact_ok nodes : NoDup nodes -> interpolates (R := Zcring) exact nodes.
Proof. intros Hnd new. split; [apply map_length|]. intros k j p. apply exact_row. exact Hnd. Qed.
Lemma p2_symmetric : symmetric (R := Zcring) 2 p2.
Proof.
  split; [|split].
  - unfold p2. repeat constructor; cbn; intuition discriminate.
  - cbn. intuition (subst; reflexivity).
  - intros p q Hp Hq.
    assert (Hs : forall a b : list Z, Permutation a b -> fold_right Z.add 0%Z a = fold_right Z.add 0%Z b).
    { induction 1; cbn [fold_right]; lia. }
    specialize (Hs _ _ Hq). assert (Hl := Permutation_length Hq).
    assert (Hb : forall x : Z, In x q -> (x = 0 \/ x = 1 \/ x = 2)%Z). { intros x Hx. apply (Permutation_in _ (Permutation_sym Hq)) in Hx. cbn in Hp. intuition (subst; cbn in Hx; intuition lia). }
    assert (E : length q = 3 /\ fold_right Z.add 0%Z q = 2%Z). { rewrite <- Hl, <- Hs. cbn in Hp. intuition (subst; reflexivity). }
    destruct E as (El & Es). destruct q as [|a [|b [|c [|]]]]; try discriminate. cbn [fold_right] in Es.
    pose proof (Hb a (or_introl eq_refl)) as Ha. pose proof (Hb b (or_intror (or_introl eq_refl))) as Hbb. pose proof (Hb c (or_intror (or_intror (or_introl eq_refl)))) as Hc.
    destruct Ha as [-> | [-> | ->]], Hbb as [-> | [-> | ->]], Hc as [-> | [-> | ->]]; try (exfalso; lia); cbn; tauto.
Qed.
Lemma z_rounds : rounds (R := Zcring) (fun z : Z => z) (fun z : Z => z).
Proof. repeat split. Qed.

(** Two triangles of the square with corners (0,0), (2,0), (0,2), (2,2); vertex 3 is not used. Firedrake calls the second one
    cell 0, and starts at other vertices. *)
Definition sq_rows : list (list nat) := [[0; 1; 2]; [1; 4; 2]].
Definition sq_old : list nat := [0; 1; 2; 4].
Definition sq_cells : list (list nat) := [[0; 1; 2]; [1; 3; 2]].
Definition sq_vertices : list (Z * Z) := [(0, 0); (2, 0); (0, 2); (9, 9); (2, 2)]%Z.
Definition sq_grp : egroup (enodes Zcring) :=
  mk_egroup (Some sq_rows)
    [[[0; 1; 2; 0; 1; 0]; [0; 0; 0; 1; 1; 2]]; [[2; 2; 2; 1; 1; 0]; [0; 1; 2; 1; 2; 2]]]%Z [[0; 1]; [2; 0]; [1; 2]].
Definition sq_mesh : mesh (enodes Zcring) nat (Z * Z) := mk_mesh [sq_grp] (Some sq_vertices) (Some true) Pending Pending 0 0 0.
Definition sq_plex (cells : list (list nat)) (coords : list (Z * Z)) : fdexport :=
  mk_fx [1; 0] [[5; 3; 4; 6; 7; 8; 0]; [3; 4; 2; 9; 10; 8; 1]] (2, 6) [[3; 7; 1; 8; 5; 2]; [1; 5; 2; 4; 6; 0]] 10.
Definition sq_coords : list (Z * Z) := [(0, 0); (2, 0); (0, 2); (2, 2)]%Z.
Definition zid (z : Z) : Z := z.

Lemma sq_can_export : can_export (fun _ => true) 2 sq_mesh None sq_grp sq_rows sq_old sq_cells sq_coords.
Proof.
  exists 0, sq_vertices. cbn [m_groups sq_mesh length m_vertices m_conforming sq_grp eg_vi eg_nodes nth_error sq_rows]. repeat (split; [solve [auto]|]). split; [discriminate|].
  split. { repeat constructor; cbn; intuition discriminate. }
  split; [reflexivity|]. split.
  - split.
    + repeat constructor.
    + intros v. cbn. tauto.
  - split; repeat constructor.
Qed.
Lemma sq_proper : proper_fx (length p2) sq_cells (sq_plex sq_cells sq_coords).
Proof.
  split; [reflexivity|]. split; [repeat constructor; cbn; intuition discriminate|]. intros [|[|e]] c row Hc Hr; cbn in Hc, Hr; try discriminate.
  - injection Hc as <-. injection Hr as <-. split.
    + exists [1; 2; 0]. split; [eexists; split; reflexivity|]. apply Permutation_sym, (Permutation_app_comm [0] [1; 2]).
    + eexists. split; [reflexivity|]. split; [reflexivity|]. repeat constructor.
  - injection Hc as <-. injection Hr as <-. split.
    + exists [3; 1; 2]. split; [eexists; split; reflexivity|]. apply perm_swap.
    + eexists. split; [reflexivity|]. split; [reflexivity|]. repeat constructor.
  - destruct e; discriminate.
Qed.

(** The hypotheses of C125 to C129 hold, *)
Example C125_example : rounds (R := Zcring) zid zid /\ symmetric (R := Zcring) 2 p2 /\ interpolates (R := Zcring) exact p2 /\ length (idmat (R := Zcring) 6) = length p2 /\
  can_export (fun _ => true) 2 sq_mesh None sq_grp sq_rows sq_old sq_cells sq_coords /\ proper_fx (length p2) sq_cells (sq_plex sq_cells sq_coords).
Proof.
  split; [repeat split|]. split; [exact p2_symmetric|]. split; [apply exact_ok, p2_symmetric|]. split; [reflexivity|]. split; [exact sq_can_export|exact sq_proper].
Qed.
(** and the mesh is exported: node 9 is in no cell. *)
Definition sq_export := export_mesh Zcring exact zid zid (fun _ => true) sq_plex 2 (idmat (R := Zcring) 6) p2 sq_mesh None.
Example C128_example : sq_export =
  Ok ([[0; 0]; [2; 0]; [0; 2]; [2; 2]; [1; 0]; [1; 1]; [0; 1]; [2; 1]; [1; 2]; [0; 0]]%Z, [1; 0], [([1; 2; 0], [0]); ([1; 0; 2], [1])]).
Proof. vm_compute. reflexivity. Qed.

(** What the documentation of perm2cell says is false here: the vertex p[0] = 1 of cell 1 is vertex 2 of the mesh, but
    vertex 0 of element 0 is vertex 0. *)
Theorem C127_documented_direction_refuted : exists (m : mesh (enodes Zcring) nat (Z * Z)) g rows old cells coords plex data order perms p e c row orow i k,
  can_export (fun _ => true) 2 m None g rows old cells coords /\ proper_fx (length p2) cells (plex cells coords) /\
  export_mesh Zcring exact zid zid (fun _ => true) plex 2 (idmat (R := Zcring) 6) p2 m None = Ok (data, order, perms) /\
  in_list perms p e /\ nth_error order e = Some c /\ nth_error rows e = Some row /\ fd_vertices (plex cells coords) old c orow /\
  nth_error p i = Some k /\ nth_error orow k <> nth_error row i.
Proof.
  exists sq_mesh, sq_grp, sq_rows, sq_old, sq_cells, sq_coords, sq_plex. do 3 eexists. exists [1; 2; 0], 0, 1, [0; 1; 2], [1; 2; 0], 0, 1.
  split; [exact sq_can_export|]. split; [exact sq_proper|]. split; [vm_compute; reflexivity|]. split; [exists [0]; split; [left; reflexivity|left; reflexivity]|].
  split; [reflexivity|]. split; [reflexivity|]. split; [|split; [reflexivity|discriminate]].
  exists [1; 2; 0]. split; [eexists; split; reflexivity|]. repeat constructor.
Qed.
Print Assumptions C127_documented_direction_refuted.
Print Assumptions C132_imported_not_exported.

(** The mapping to a discontinuous space with 12 nodes *)
Definition sq_dg : list (list nat) := [seq 0 6; seq 6 6].
Example C129_example : (exists data order perms, sq_export = Ok (data, order, perms) /\
  mapping_to_firedrake Zcring exact zid p2 [[]; []] order perms sq_dg = Ok [[11; 9; 6; 10; 7; 8]; [2; 1; 0; 4; 3; 5]]) /\
  NoDup (concat sq_dg) /\ (forall c, In c [1; 0] -> exists ns, nth_error sq_dg c = Some ns /\ length ns = length p2).
Proof.
  split; [|split].
  - do 3 eexists. split; vm_compute; reflexivity.
  - vm_compute. repeat constructor; cbn; intuition discriminate.
  - cbn. intuition (subst; eexists; split; reflexivity).
Qed.

(** Two of three cells are used, the second is negatively oriented. *)
Definition dg3 : list (list nat) := [seq 0 6; seq 6 6; seq 12 6].
Example C130_example : mapping_from_firedrake Zcring exact zid 2 p2 [false; true] (Some [2; 0]) dg3 = Ok [seq 12 6; [2; 1; 0; 4; 3; 5]] /\
  NoDup (concat dg3) /\ Forall (fun ns => length ns = length p2) dg3 /\ Forall2 (fun c ns => nth_error dg3 c = Some ns) [2; 0] [seq 12 6; seq 0 6] /\ NoDup [2; 0].
Proof.
  split; [vm_compute; reflexivity|]. split; [vm_compute; repeat constructor; cbn; intuition discriminate|]. split; [repeat constructor|]. split; [repeat constructor|].
  repeat constructor; cbn; intuition discriminate.
Qed.

(** A vector field with two components on a mesh with two groups; group 1 has two elements with two nodes; node 4 of the
    Firedrake space is not used. *)
Definition up : list (list Z) := [[1; 1]; [0; 1]]%Z.
Definition down : list (list Z) := [[1; -1]; [0; 1]]%Z.
Definition tr_mapping : list (list nat) := [[1; 0]; [5; 3]].
Definition tr_field : mfield Zcring := FObj Zcring [2] [[[[7]]; [[1; 2]; [3; 4]]]; [[[8]]; [[5; 6]; [0; 9]]]]%Z.
Lemma up_down : undoes (R := Zcring) 2 up down.
Proof.
  split; [reflexivity|]. intros v Hv. destruct v as [|a [|b [|]]]; try discriminate.
  cbv -[Z.add Z.mul Z.opp]. f_equal; [ring|f_equal; ring].
Qed.
Lemma tr_proper : proper_mapping 2 6 tr_mapping.
Proof. split; [repeat constructor|]. split; [repeat constructor; cbn; intuition discriminate|]. repeat constructor; lia. Qed.
Example C131_example : exists f, from_meshmode Zcring down tr_mapping 1 6 tr_field None = Ok f /\ ff_data Zcring f = [[2; -1; 0; 4; 0; -1]; [6; -1; 0; 9; 0; -9]]%Z /\
  from_firedrake Zcring up tr_mapping 1 [[[0]]; [[0; 0]; [0; 0]]]%Z f None = Ok (FObj Zcring [2] [[[[0]]; [[1; 2]; [3; 4]]]; [[[0]]; [[5; 6]; [0; 9]]]]%Z).
Proof. eexists. split; [vm_compute; reflexivity|]. split; vm_compute; reflexivity. Qed.
Example C132_example : connection_group 2 (Some 2%Z) = Err IndexError /\ connection_group 2 None = Err ValueError /\
  from_firedrake Zcring up tr_mapping 1 [[[0]]; [[0; 0]; [0; 0]]]%Z (mk_ff Zcring [2] [[1; 2; 3; 4; 5; 6]; [1; 2; 3; 4; 5; 6]]%Z) (Some tr_field) = Err AttributeError.
Proof. repeat split. Qed.

(** From FIAT's triangle to that of modepy; over the integers, dividing by 1 is all the solver has to do. *)
Definition solve_id (a b : list (list Z)) : res (list (list Z)) := if list_eq_dec (list_eq_dec Z.eq_dec) a (idmat (R := Zcring) (length b)) then Ok b else Err ValueError.
Lemma solve_id_inv (a b x : list (list Z)) : solve_id a b = Ok x -> a = idmat (R := Zcring) (length b) /\ x = b.
Proof. unfold solve_id. destruct (list_eq_dec (list_eq_dec Z.eq_dec) a (idmat (R := Zcring) (length b))); [|discriminate]. intros H. injection H as <-. auto. Qed.
Lemma solve_id_right : right_solver (R := Zcring) 2 solve_id.
Proof.
  intros a b x Ha Hb H. apply solve_id_inv in H as (-> & ->).
  split; [exact Hb|]. destruct Hb as (L & F). destruct b as [|r [|s [|]]]; try discriminate. apply Forall_cons_iff in F as (Fr & F). apply Forall_cons_iff in F as (Fs & _).
  destruct r as [|? [|? [|]]], s as [|? [|? [|]]]; try discriminate. cbv -[Z.add Z.mul]. repeat f_equal; ring.
Qed.
Example C133_example : exists f, reference_map Zcring solve_id (fun _ => false) 2 true = Ok f /\ f [3; 5]%Z = [5; 9]%Z /\ map f (fiat_vertices Zcring 2) = modepy_vertices Zcring 2.
Proof. eexists. split; [vm_compute; reflexivity|]. split; vm_compute; reflexivity. Qed.

(** Both directions, on intervals: a solver for one equation over the rationals *)
Definition solve1 (a b : list (list Qcanon.Qc)) : res (list (list Qcanon.Qc)) :=
  match a, b with
  | [[x]], [[y]] => if Qcanon.Qc_eq_dec x (frac 0 1) then Err ValueError else Ok [[Qcanon.Qcdiv y x]]
  | _, _ => Err ValueError
  end.
Lemma solve1_right : right_solver (R := Qccring) 1 solve1.
Proof.
  intros a b x (La & Fa) (Lb & Fb) H. destruct a as [|[|p [|]] [|]]; try discriminate. destruct b as [|[|q [|]] [|]]; try discriminate.
  unfold solve1 in H. destruct (Qcanon.Qc_eq_dec p (frac 0 1)) as [|Hp]; [discriminate|]. assert (Ex : x = [[Qcanon.Qcdiv q p]]) by congruence. subst x. clear H.
  split; [split; [reflexivity|repeat constructor]|].
  assert (E : Qcanon.Qcplus (Qcanon.Qcmult p (Qcanon.Qcdiv q p)) (frac 0 1) = q).
  { rewrite Qcanon.Qcmult_div_r by exact Hp. rewrite Qcanon.Qcplus_comm. apply Qcanon.Qcplus_0_l. }
  change ([[Qcanon.Qcplus (Qcanon.Qcmult p (Qcanon.Qcdiv q p)) (frac 0 1)]] = [[q]]). now rewrite E.
Qed.
Example C133_inverse_example : exists f g, reference_map Qccring solve1 (fun _ => false) 1 true = Ok f /\ reference_map Qccring solve1 (fun _ => false) 1 false = Ok g /\
  map Qcanon.this (f [frac 3 4]) = map Qcanon.this [frac 1 2] /\ map Qcanon.this (g [frac 1 2]) = map Qcanon.this [frac 3 4].
Proof. do 2 eexists. split; [reflexivity|]. split; [reflexivity|]. split; vm_compute; reflexivity. Qed.
