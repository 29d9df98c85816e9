(** * BoxProofs: vertices and elements of box meshes *)
From Coq Require Import String Ascii List Arith Bool ZArith Lia Permutation Ring.
From Verif Require Import Np NpFacts MeshModel MeshSpec MeshProofs FacialProofs Lin Ord RestrProofs BoxModel BoxSpec BoxIndexProofs BoxConfProofs BoxTagProofs.
Import ListNotations.

Section Coords.
  Variable R : ocring.
  Variable half : R.
  Add Ring Rbox : (rth R).

  (** coordinate number j of an axis in doubled numbering: j/2 for even j, midpoints for odd j *)
  Definition coord (ax : list R) (j : nat) : option R :=
    if Nat.even j then nth_error ax (Nat.div2 j)
    else match nth_error ax (Nat.div2 j), nth_error ax (S (Nat.div2 j)) with Some a, Some b => Some (half * (a + b))%cr | _, _ => None end.
  Definition at_key (axes : list (list R)) (k : list nat) (p : list R) : Prop :=
    length k = length axes /\ Forall2 (fun (aj : list R * nat) x => coord (fst aj) (snd aj) = Some x) (combine axes k) p.

  Lemma even_dbl i : Nat.even (2 * i) = true.
  Proof. rewrite Nat.even_mul. reflexivity. Qed.
  Lemma even_dbl1 i : Nat.even (S (2 * i)) = false.
  Proof. rewrite Nat.even_succ, <- Nat.negb_even, even_dbl. reflexivity. Qed.
  Lemma coord_even ax i : coord ax (2 * i) = nth_error ax i.
  Proof. unfold coord. rewrite even_dbl, Nat.div2_double. reflexivity. Qed.
  Lemma coord_odd ax i a b : nth_error ax i = Some a -> nth_error ax (S i) = Some b -> coord ax (S (2 * i)) = Some (half * (a + b))%cr.
  Proof. intros Ha Hb. unfold coord. rewrite even_dbl1, Nat.div2_succ_double, Ha, Hb. reflexivity. Qed.

  Lemma coord_exists ax j : ax <> [] -> j <= 2 * (length ax - 1) -> exists x, coord ax j = Some x.
  Proof.
    intros Hne Hj. assert (0 < length ax) by (destruct ax; [congruence|cbn; lia]). destruct (Nat.Even_or_Odd j) as [(i & ->)|(i & ->)].
    - rewrite coord_even. apply nth_exists. lia.
    - destruct (nth_exists ax i) as (a & Ha); [lia|]. destruct (nth_exists ax (S i)) as (b & Hb); [lia|]. rewrite Nat.add_1_r, (coord_odd _ _ _ _ Ha Hb). eauto.
  Qed.

  Lemma nth_tl {X} (l : list X) i : nth_error (tl l) i = nth_error l (S i).
  Proof. destruct l; [destruct i; reflexivity|reflexivity]. Qed.
  Lemma nth_removelast {X} (l : list X) i : S i < length l -> nth_error (removelast l) i = nth_error l i.
  Proof. revert i. induction l as [|x l IH]; intros i H; [cbn in H; lia|]. destruct l as [|y l]; [cbn in H; lia|]. destruct i as [|i]; [reflexivity|]. cbn [removelast nth_error]. apply IH. cbn in *. lia. Qed.
  Lemma nth_midpoints ax i a b : nth_error ax i = Some a -> nth_error ax (S i) = Some b -> nth_error (axis_midpoints R half ax) i = Some (half * (a + b))%cr.
  Proof.
    intros Ha Hb. unfold axis_midpoints. apply (nth_map2 (fun l r => rmul half (radd l r))); [|now rewrite nth_tl].
    rewrite nth_removelast; [exact Ha|]. apply nth_error_Some. congruence.
  Qed.

  Lemma box_point_grid axes t : Forall2 lt t (map (@length R) axes) -> exists p, box_point R axes t = Ok p /\ at_key axes (dbl t) p.
  Proof.
    unfold box_point, at_key. revert t. induction axes as [|ax axes IH]; intros t H; cbn [map] in H; inversion H as [|i n t' s Hi Ht]; subst.
    - exists []. split; [reflexivity|]. split; [reflexivity|constructor].
    - destruct (IH _ Ht) as (p & Hp & Hl & HF). destruct (nth_exists ax i Hi) as (x & Hx). exists (x :: p). cbn [combine mapM fst snd]. rewrite (proj2 (get_ok _ _ _) Hx). cbn [bind]. rewrite Hp. cbn [bind]. split; [reflexivity|].
      cbn [dbl map length combine]. split; [f_equal; exact Hl|]. constructor; [|exact HF]. cbn [fst snd]. now rewrite coord_even.
  Qed.
  Lemma box_point_mid axes t : Forall2 lt t (pred_shape (map (@length R) axes)) -> exists p, box_point R (map (axis_midpoints R half) axes) t = Ok p /\ at_key axes (dbl1 t) p.
  Proof.
    unfold box_point, at_key. revert t. induction axes as [|ax axes IH]; intros t H; cbn [map] in H; inversion H as [|i n t' s Hi Ht]; subst.
    - exists []. split; [reflexivity|]. split; [reflexivity|constructor].
    - destruct (IH _ Ht) as (p & Hp & Hl & HF). destruct (nth_exists ax i) as (a & Ha); [lia|]. destruct (nth_exists ax (S i)) as (b & Hb); [lia|]. pose proof (nth_midpoints _ _ _ _ Ha Hb) as Hx.
      exists ((half * (a + b))%cr :: p). cbn [map combine mapM fst snd]. rewrite (proj2 (get_ok _ _ _) Hx). cbn [bind]. rewrite Hp. cbn [bind]. split; [reflexivity|].
      cbn [dbl1 map length combine]. split; [f_equal; exact Hl|]. constructor; [|exact HF]. cbn [fst snd]. now apply coord_odd.
  Qed.

  Lemma mapM_keys {X} (f : list nat -> res X) (g : list nat -> list nat) (Q : list nat -> X -> Prop) l : (forall t, In t l -> exists p, f t = Ok p /\ Q (g t) p) -> exists ps, mapM f l = Ok ps /\ Forall2 Q (map g l) ps.
  Proof.
    induction l as [|t l IH]; intros H; [exists []; split; [reflexivity|constructor]|]. destruct (H t (or_introl eq_refl)) as (p & Hp & HQ). destruct IH as (ps & Hps & HF); [intros; apply H; now right|].
    exists (p :: ps). cbn [mapM map]. rewrite Hp. cbn [bind]. rewrite Hps. split; [reflexivity|now constructor].
  Qed.

  Lemma vertices_ok axes : exists vs, box_vertices R axes = Ok vs /\ Forall2 (at_key axes) (map dbl (ndindex (map (@length R) axes))) vs.
  Proof. apply mapM_keys. intros t Ht. apply box_point_grid. now apply In_ndindex. Qed.
  Lemma midpoints_ok axes : exists vs, midpoints R half axes (pred_shape (map (@length R) axes)) = Ok vs /\ Forall2 (at_key axes) (map dbl1 (ndindexF (pred_shape (map (@length R) axes)))) vs.
  Proof. apply mapM_keys. intros t Ht. apply box_point_mid. now apply In_ndindexF. Qed.

  (** ** the elements *)
  Definition table_of (d : nat) (cls : gcls) (mt : mtype) : list (list corner) :=
    match d with 1 => seg_table | _ => match cell_plan d (is_tensor cls) mt with Ok p => cp_table p | Err _ => [] end end.
  Definition mid_of (mt : mtype) : bool := match mt with MX => true | _ => false end.
  Definition offsets_of (d : nat) (cls : gcls) (mt : mtype) : side -> list nat :=
    match d with 1 => fun _ => [0] | _ => match cell_plan d (is_tensor cls) mt with Ok p => cp_offsets p | Err _ => fun _ => [] end end.
  Definition nv_of (d : nat) (cls : gcls) : nat := if is_tensor cls then 2 ^ d else S d.

  Definition off_check (d : nat) (table : list (list corner)) (offsets : side -> list nat) : bool :=
    forallb (fun s => forallb (fun off => off <? length table) (offsets s)) (box_faces d).

  Lemma kind_checks d cls mt : box_kind d cls mt ->
    conf_check d (nv_of d cls) (table_of d cls mt) (facets_of d (is_tensor cls)) = true /\
    side_check (table_of d cls mt) (facets_of d (is_tensor cls)) d (offsets_of d cls mt) = true /\
    table_ok d (mid_of mt) (nv_of d cls) (table_of d cls mt) = true /\ table_of d cls mt <> [] /\
    (forall s off, In off (offsets_of d cls mt s) -> off < length (table_of d cls mt)).
  Proof.
    intros [| | | | | |]; (split; [vm_compute; reflexivity|split; [vm_compute; reflexivity|split; [vm_compute; reflexivity|split; [discriminate|]]]]).
    all: intros (u, a) off; cbn; try (intros [<-|[]]; lia).
    - destruct u; cbn; intros [<-|[]]; lia.
    - destruct u, a as [|a]; cbn; intros [<-|[]]; lia.
    - destruct u, a as [|[|a]]; cbn; intros [<-|[<-|[]]]; lia.
  Qed.

  Lemma size_pos shape : Forall (fun n => 2 <= n) shape -> 0 < size (pred_shape shape).
  Proof. induction 1 as [|n shape Hn _ IH]; cbn [map size fold_right]; [lia|]. fold (size (pred_shape shape)). nia. Qed.

  Lemma box_elements_ok axes cls mt : box_kind (length axes) cls mt -> Forall (fun ax : list R => 2 <= length ax) axes ->
    let shape := map (@length R) axes in
    exists verts rows elems, box_elements R half axes cls mt = Ok (verts, rows, elems) /\
      rows_spec (mid_of mt) shape (table_of (length axes) cls mt) rows /\
      Forall2 (at_key axes) (vkeys (mid_of mt) shape (pred_shape shape)) verts /\
      sides_spec shape (table_of (length axes) cls mt) (offsets_of (length axes) cls mt) (length rows) elems.
  Proof.
    intros Hk Hax shape. pose proof (kind_checks _ _ _ Hk) as (_ & _ & Hok & Htne & Hoff). destruct (vertices_ok axes) as (verts & Hv & HFv). destruct (midpoints_ok axes) as (mids & Hm & HFm). fold shape in HFv, HFm, Hm.
    assert (Hg : forallb (fun ax : list R => negb (length ax =? 1)) axes = true). { apply forallb_forall. intros ax Hin. rewrite Forall_forall in Hax. specialize (Hax _ Hin). apply negb_true_iff, Nat.eqb_neq. lia. }
    assert (Hsh : Forall (fun n => 2 <= n) shape) by (unfold shape; apply Forall_forall; intros n Hn; apply in_map_iff in Hn as (ax & <- & Hin); rewrite Forall_forall in Hax; auto).
    unfold box_elements. rewrite Hg. cbn [guard bind]. rewrite Hv. cbn [bind]. fold shape.
    assert (Hcls : match cls with GSimplex => Ok false | GTensor => Ok true | GOther => Err ValueError end = Ok (is_tensor cls)) by (destruct Hk; reflexivity). rewrite Hcls. cbn [bind].
    assert (Hlen : length shape = length axes) by (unfold shape; apply map_length).
    destruct (Nat.eq_dec (length axes) 1) as [H1|Hn1].
    - rewrite H1 in *. destruct axes as [|ax [|]]; cbn in H1; try discriminate. cbn [map] in shape. unfold shape in *. cbn [map]. assert (Hmt : mt = MNone) by (inversion Hk; reflexivity). subst mt. cbn [guard bind].
      apply Forall_inv in Hsh. destruct (Nat.ltb_spec 0 (length ax - 1)) as [_|]; [|lia]. exists verts. eexists. eexists. split; [reflexivity|].
      assert (Htab : table_of 1 cls MNone = seg_table /\ offsets_of 1 cls MNone = fun _ => [0]) by (inversion Hk; split; reflexivity). destruct Htab as (-> & ->). pose proof (seg_rows_spec (length ax)) as Hrows. split; [exact Hrows|]. split.
      + unfold vkeys. cbn [mid_of]. rewrite app_nil_r. exact HFv.
      + rewrite (rs_length _ _ _ _ Hrows). cbn [length seg_table map size fold_right]. replace (1 * ((length ax - 1) * 1)) with (length ax - 1) by lia. apply seg_sides. exact Hsh.
    - assert (Hplan : exists plan, cell_plan (length axes) (is_tensor cls) mt = Ok plan /\ cp_table plan = table_of (length axes) cls mt /\ cp_offsets plan = offsets_of (length axes) cls mt).
      { destruct Hk; try congruence; eexists; (split; [reflexivity|split; reflexivity]). }
      destruct Hplan as (plan & Hplan & Htab & Hoffs).
      assert (Hmids : exists ms, match mt with MX => midpoints R half axes (pred_shape shape) | _ => Ok [] end = Ok ms /\ Forall2 (at_key axes) (if mid_of mt then map dbl1 (ndindexF (pred_shape shape)) else []) ms).
      { destruct mt; cbn [mid_of]; [exists []; split; [reflexivity|constructor]|exists mids; split; [exact Hm|exact HFm]|exists []; split; [reflexivity|constructor]]. }
      destruct Hmids as (ms & Hms & HFms).
      assert (Hpos : 0 < length (table_of (length axes) cls mt) * size (pred_shape shape)). { pose proof (size_pos _ Hsh). destruct (table_of (length axes) cls mt); [congruence|cbn [length]; nia]. }
      apply Nat.ltb_lt in Hpos.
      destruct (cell_rows_spec (mid_of mt) (nv_of (length axes) cls) shape (table_of (length axes) cls mt)) as (rows & Hrows & Hrs).
      { intros Hs. rewrite Hs in Hlen. cbn in Hlen. inversion Hk; lia. } { rewrite Hlen. exact Hok. }
      destruct (face_elements_sides shape (table_of (length axes) cls mt) (offsets_of (length axes) cls mt) Hoff) as (elems & He & Hss).
      exists (verts ++ ms), rows, elems. split.
      + assert (Hdef : (plan <- cell_plan (length axes) (is_tensor cls) mt ;; mids <- match mt with MX => midpoints R half axes (pred_shape shape) | _ => Ok [] end ;;
          (if 0 <? length (cp_table plan) * size (pred_shape shape) then rows <- cell_rows shape (pred_shape shape) (cp_table plan) ;;
            elems <- mapM (fun s => es <- face_elements (pred_shape shape) (length (cp_table plan)) (cp_offsets plan) s ;; Ok (s, es)) (box_faces (length axes)) ;; Ok (verts ++ mids, rows, elems)
           else Ok (verts ++ mids, [], map (fun s => (s, [])) (box_faces (length axes))))) = Ok (verts ++ ms, rows, elems)).
        { rewrite Hplan. cbn [bind]. rewrite Hms. cbn [bind]. rewrite Htab, Hoffs, Hpos, Hrows. cbn [bind]. rewrite Hlen in He. rewrite He. reflexivity. }
        destruct shape as [|n [|n' sh]]; [exact Hdef|cbn in Hlen; lia|exact Hdef].
      + split; [exact Hrs|]. split; [|rewrite (rs_length _ _ _ _ Hrs); exact Hss]. unfold vkeys. apply Forall2_app; assumption.
  Qed.
End Coords.
