(** * SurfProps: curves, tori and surfaces of revolution (C45, C46, C86-C89) *)
From Coq Require Import List Arith Bool ZArith Lia Permutation Ring.
From Coq Require QArith Qcanon.
From Verif Require Import Np NpFacts MeshModel MeshStateModel MeshSpec Lin Ord RestrProofs BoxModel BoxSpec SurfModel SurfSpec SurfProofs SurfRevProofs SurfGeomProofs QcOrd.
Import ListNotations.

Definition tensor (cls : gcls) : bool := match cls with GTensor => true | _ => false end.

Section Statements.
  Variable R : cring.
  Add Ring Rring : (rth R).
  Context {E : Type}.
  Local Open Scope cring_scope.
  Local Notation nsmul := (nsmul R).

  (** ** Tori *)
  Section Torus.
    Variables (cos sin : R -> R) (a b : R) (f : R -> R -> R) (uv_nodes : list (R * R) -> list (R * R)) (pack : list (list R) -> E).
    Variables (n m : nat) (hu hv : R) (cls : gcls) (fvi : list (list nat)).
    Local Notation generate := (generate_torus_and_cycle_vertices R cos sin a b f uv_nodes pack n m hu hv cls fvi).

    (** C86: from three cells in each direction on, the mesh is a closed surface with consistent orientation. *)
    Theorem C86_torus_closed : (3 <= n)%nat -> (3 <= m)%nat -> cls <> GOther -> enumerates fvi (facets_of 2 (tensor cls)) ->
      exists rows nodes verts major minor, generate = Ok ([mk_egroup (Some rows) nodes fvi], verts, major, minor) /\
        closed_mesh [mk_egroup (Some rows) nodes fvi] /\ closed_oriented rows (tensor cls) /\
        length verts = (n * m)%nat /\ length rows = ((if tensor cls then 1 else 2) * (n * m))%nat /\
        forall row v, In row rows -> In v row -> (v < n * m)%nat.
    Proof.
      intros Hn Hm Hc Hfvi. destruct (torus_ok R cos sin a b f uv_nodes pack n m hu hv ltac:(lia) ltac:(lia) cls fvi Hc) as (pts & HF & Hgen & Hrows).
      do 5 eexists. split; [exact Hgen|].
      assert (Hco : closed_oriented (torus_rows n m cls) (tensor cls)) by (destruct cls; [now apply torus_simplex|now apply torus_tensor|congruence]).
      assert (Hrl : forall e row, nth_error (torus_rows n m cls) e = Some row -> length row = if tensor cls then 4%nat else 3%nat).
      { intros e row He. rewrite Hrows, nth_error_map in He. destruct (nth_error pts e) as [p|] eqn:Ep; [|discriminate]. injection He as <-. rewrite map_length. destruct (proj1 (Forall_forall _ _) HF p (nth_error_In _ _ Ep)) as (i & j & _ & _ & Hs). destruct cls; [destruct Hs as [->| ->]|subst p|contradiction]; reflexivity. }
      assert (Hlen : length (torus_rows n m cls) = ((if tensor cls then 1 else 2) * (n * m))%nat).
      { unfold torus_rows, torus_grid_rows. destruct cls; [| |congruence]; rewrite map_length; rewrite ?app_length, !map_length; unfold grid; rewrite (flat_map_const_length _ m) by (intros; now rewrite map_length, seq_length); rewrite seq_length; cbn [tensor]; lia. }
      split; [|split; [exact Hco|split; [rewrite verts_length; lia|split; [exact Hlen|]]]].
      - apply (closed_oriented_closed (torus_rows n m cls) _ fvi (tensor cls) Hfvi); [rewrite Hrows, !map_length; reflexivity|exact Hrl|exact Hco].
      - intros row v Hrow Hv. rewrite Hrows in Hrow. apply in_map_iff in Hrow. destruct Hrow as (p & <- & Hp). apply in_map_iff in Hv. destruct Hv as (ij & <- & Hij).
        destruct (shape_in n m ltac:(lia) ltac:(lia) cls p ij (proj1 (Forall_forall _ _) HF p Hp) Hij) as (Hi & Hj). rewrite wrap_idx by lia.
        assert ((fst ij mod n < n)%nat) by (apply Nat.mod_upper_bound; lia). assert ((snd ij mod m < m)%nat) by (apply Nat.mod_upper_bound; lia). nia.
    Qed.

    (** The vertices of an element are the images of its corners in the parameter domain, its nodes the images of the nodes in the parameter
        domain, and it is positively oriented in the parameter domain; hu and hv are the sizes of a cell, n hu and m hv periods. *)
    Theorem C86_torus_parametrization groups verts major minor : (1 <= n)%nat -> (1 <= m)%nat ->
      cos (nsmul n hu) = cos 0 -> sin (nsmul n hu) = sin 0 -> cos (nsmul m hv) = cos 0 -> sin (nsmul m hv) = sin 0 ->
      (forall v, f (nsmul n hu) v = f 0 v) -> (forall u, f u (nsmul m hv) = f u 0) ->
      generate = Ok (groups, verts, major, minor) ->
      exists rows corners, groups = [mk_egroup (Some rows) (map (fun c => pack (map (torus_point R cos sin a b f) (uv_nodes c))) corners) fvi] /\
        Forall2 (Forall2 (fun v uv => nth_error verts v = Some (torus_point R cos sin a b f uv))) rows corners /\
        Forall (fun c => cross R c = Some (hu * hv)) corners.
    Proof.
      intros Hn Hm C1 S1 C2 S2 F1 F2 Hgen. assert (Hc : cls <> GOther) by (intros ->; discriminate Hgen).
      destruct (torus_ok R cos sin a b f uv_nodes pack n m hu hv Hn Hm cls fvi Hc) as (pts & HF & Hgen' & Hrows). rewrite Hgen in Hgen'. injection Hgen' as -> -> _ _.
      exists (torus_rows n m cls). eexists. split; [reflexivity|]. rewrite Hrows. clear Hgen Hrows. split.
      - induction pts as [|p pts IH]; cbn [map]; constructor; [|apply IH; exact (Forall_inv_tail HF)]. pose proof (Forall_inv HF) as Hs. assert (Hb : forall ij, In ij p -> (fst ij <= n)%nat /\ (snd ij <= m)%nat) by (intros ij Hin; exact (shape_in n m Hn Hm cls p ij Hs Hin)). clear -Hb Hn Hm C1 S1 C2 S2 F1 F2.
        induction p as [|ij p IHp]; cbn [map]; constructor; [|apply IHp; intros; apply Hb; now right]. destruct (Hb ij (or_introl eq_refl)) as (Hi & Hj). exact (wrapped_vertex R cos sin a b f n m hu hv Hn Hm (fst ij) (snd ij) Hi Hj C1 S1 C2 S2 F1 F2).
      - apply Forall_forall. intros c Hin. apply in_map_iff in Hin. destruct Hin as (p & <- & Hp). exact (shape_cross R n m hu hv cls p (proj1 (Forall_forall _ _) HF p Hp)).
    Qed.

    (** C45: the first list of indices is right: entry i is the number of the vertex with angle i hu around the axis and angle 0 around the tube. *)
    Theorem C45_major groups verts major minor : (1 <= m)%nat -> generate = Ok (groups, verts, major, minor) ->
      length major = n /\ forall i, (i < n)%nat -> exists v, nth_error major i = Some v /\ nth_error verts v = Some (torus_point R cos sin a b f (nsmul i hu, 0)).
    Proof.
      intros Hm Hgen. unfold generate_torus_and_cycle_vertices in Hgen. apply bind_ok in Hgen. destruct Hgen as (grp & _ & Hgen). injection Hgen as _ <- <- _. split; [unfold torus_major; now rewrite map_length, seq_length|].
      intros i Hi. exists i. split; [exact (major_at n i Hi)|]. pose proof (vert_at R cos sin a b f n m hu hv i 0 Hi) as Hv. rewrite Nat.mul_0_l, Nat.add_0_r in Hv. apply Hv. lia.
    Qed.
    (** The second one is wrong: entry j is the number of a vertex at angle j hu, not 0, around the axis (j < n), or not the number
        of a vertex at all. *)
    Theorem C45_minor_indices groups verts major minor : (1 <= n)%nat -> generate = Ok (groups, verts, major, minor) ->
      length minor = m /\ forall j, (j < m)%nat -> exists v, nth_error minor j = Some v /\
        ((j < n)%nat -> nth_error verts v = Some (torus_point R cos sin a b f (nsmul j hu, nsmul j hv))) /\
        ((n <= j)%nat -> (j + 1 = m)%nat -> nth_error verts v = None).
    Proof.
      intros Hn Hgen. unfold generate_torus_and_cycle_vertices in Hgen. apply bind_ok in Hgen. destruct Hgen as (grp & _ & Hgen). injection Hgen as _ <- _ <-. split; [unfold torus_minor; now rewrite map_length, seq_length|].
      intros j Hj. exists (j * (n + 1))%nat. split; [exact (minor_at n m j Hj)|]. split.
      - intros Hjn. replace (j * (n + 1))%nat with (j + j * n)%nat by lia. now apply vert_at.
      - intros Hjn Hjm. apply nth_error_None. rewrite verts_length. nia.
    Qed.
  End Torus.

  (** With the default r_minor_func all vertices and nodes lie on the torus. *)
  Theorem C86_on_torus (cos sin : R -> R) a b uv_nodes (pack : list (list R) -> E) n m hu hv cls fvi groups verts major minor :
    (forall t, cos t * cos t + sin t * sin t = 1) ->
    generate_torus_and_cycle_vertices R cos sin a b (fun _ _ => 1) uv_nodes pack n m hu hv cls fvi = Ok (groups, verts, major, minor) ->
    Forall (on_torus R a b) verts /\ exists rows nodes, groups = [mk_egroup (Some rows) (map pack nodes) fvi] /\ Forall (Forall (on_torus R a b)) nodes.
  Proof.
    intros Htrig Hgen. unfold generate_torus_and_cycle_vertices in Hgen. apply bind_ok in Hgen. destruct Hgen as (grp & Hg & Hgen). injection Hgen as <- <- _ _.
    unfold torus_group in Hg. apply bind_ok in Hg. destruct Hg as (rows & _ & Hg). apply bind_ok in Hg. destruct Hg as (corners & _ & Hg). injection Hg as <-. split.
    - apply Forall_forall. intros p Hp. unfold torus_vertices in Hp. apply in_map_iff in Hp. destruct Hp as (uv & <- & _). now apply point_on_torus.
    - exists (map (map (torus_wrap n m)) rows), (map (fun c => map (torus_point R cos sin a b (fun _ _ => 1)) (uv_nodes c)) corners). split; [now rewrite map_map|].
      apply Forall_forall. intros l Hl. apply in_map_iff in Hl. destruct Hl as (c & <- & _). apply Forall_forall. intros p Hp. apply in_map_iff in Hp. destruct Hp as (uv & <- & _). now apply point_on_torus.
  Qed.

  (** ** Surfaces of revolution *)
  Section Revolution.
    Variables (cos sin : R -> R) (arctan2 div get_radius : R -> R -> R) (el_nodes : list (list R) -> list (list R)) (pack : list (list R) -> E).
    Variables (angles heights : list R) (fvi : list (list nat)).
    Local Notation generate := (generate_surface_of_revolution R cos sin arctan2 div get_radius el_nodes pack angles heights fvi).
    Let n := length angles.
    Let m := length heights.

    (** C87: from three angles on there is a mesh; the faces on the first and on the last circle have no neighbor, all others exactly one. *)
    Theorem C87_revolution_conforming : (3 <= length angles)%nat -> enumerates fvi (facets_of 2 false) ->
      (forall vs, Forall (fun p => exists x y z, p = [x; y; z]) vs -> Forall (fun p => exists x y z, p = [x; y; z]) (el_nodes vs)) ->
      exists groups verts, generate = Ok (groups, verts) /\ length verts = (n * m)%nat /\
        (forall a, valid_face groups a -> exists vs, face_verts groups a vs /\ Forall (fun v => (v < n * m)%nat) vs) /\
        forall a vs, face_verts groups a vs ->
          let on_end := (forall v, In v vs -> (v < n)%nat) \/ (forall v, In v vs -> ((m - 1) * n <= v)%nat) in
          (on_end /\ forall b, ~ partner groups a b) \/ (~ on_end /\ exists b, partner groups a b /\ forall b', partner groups a b' -> b' = b).
    Proof.
      intros Hn Hfvi Hel. destruct (rev_ok R cos sin arctan2 div get_radius el_nodes pack angles heights fvi ltac:(lia) Hel) as (nodes & verts & Hgen & Hnodes & HF). exists [mk_egroup (Some (rev_rows n m)) nodes fvi], verts. split; [exact Hgen|]. split; [|split].
      - rewrite <- (Forall2_length' _ _ _ HF), rev_vertices_length. unfold n, m. lia.
      - intros ((g, e), fc) Hval. apply (valid_face_iff (rev_rows n m) nodes fvi Hnodes) in Hval. destruct Hval as (-> & He & Hf).
        destruct (face_edge_total (rev_rows n m) fvi false Hfvi (rev_row_len n m) fc Hf) as (k & Hk). assert (Hkl : (k < 3)%nat) by (destruct Hk as (r & x & y & _ & H & _); change 3%nat with (length (circuit false)); apply nth_error_Some; congruence).
        destruct (edge_exists (rev_rows n m) nodes fvi false Hfvi Hnodes (rev_row_len n m) e k He Hkl) as (u & v & Hek).
        destruct (face_verts_edge (rev_rows n m) nodes fvi false Hnodes e fc k u v [] Hk Hek) as (_ & vs & Hvs & HP). exists vs. split; [exact Hvs|]. apply Forall_forall. intros w Hw. apply (Permutation_in _ HP) in Hw.
        apply rev_edge in Hek. destruct Hek as (t & i & j & c & c' & (Hi & Hj & _) & _ & Hu & Hv). assert (Hsj : ((j + 1) mod n < n)%nat) by (apply Nat.mod_upper_bound; unfold n; lia).
        assert (Hc : forall c, (rcorner n i j ((j + 1) mod n) c < n * m)%nat) by (intros (x, y); unfold rcorner, rpt; cbn [fst snd]; destruct x, y; cbn [step_]; nia). destruct Hw as [<-|[<-|[]]]; [rewrite Hu|rewrite Hv]; apply Hc.
      - intros a vs Hvs. exact (rev_faces n m nodes fvi Hn Hfvi Hnodes a vs Hvs).
    Qed.

    (** C46: every vertex has distance 1 from the axis, whatever the radius (as long as the angle is recovered by arctan2). *)
    Theorem C46_distance_is_one groups verts : (forall t, cos t * cos t + sin t * sin t = 1) -> (forall x y, y <> 0 -> div x y * y = x) ->
      (forall x y : R, x * y = 0 -> x = 0 \/ y = 0) ->
      (forall h t, In h heights -> In t angles -> get_radius h t <> 0 /\ get_radius h (arctan2 (sin t * get_radius h t) (cos t * get_radius h t)) = get_radius h t) ->
      generate = Ok (groups, verts) -> Forall (fun p => axis_distance2 R p 1) verts.
    Proof.
      intros Ht Hd Hi Hr Hgen. unfold generate_surface_of_revolution in Hgen. apply bind_ok in Hgen. destruct Hgen as (ev & _ & Hgen). apply bind_ok in Hgen. destruct Hgen as (nv & Hnv & Hgen). apply bind_ok in Hgen. destruct Hgen as (nn & _ & Hgen). injection Hgen as _ <-.
      apply mapM_ok in Hnv. apply Forall_forall. intros q Hq. destruct (In_nth_error _ _ Hq) as (k & Hk). destruct (Forall2_nth_error_r _ _ _ _ _ Hnv Hk) as (p & Hp & He). exact (ensure_radius_one R cos sin arctan2 div get_radius angles heights Ht Hd Hi Hr p q (nth_error_In _ _ Hp) He).
    Qed.

    (** C88: neighboring triangles traverse their common edge in opposite directions.  False for every surface of revolution with at least
        one strip (witness below). *)
    Theorem C88_revolution_never_oriented groups verts : (1 <= length angles)%nat -> (2 <= length heights)%nat -> generate = Ok (groups, verts) ->
      exists rows, map eg_vi groups = [Some rows] /\ ~ consistently_oriented rows false.
    Proof.
      intros Hn Hm Hgen. unfold generate_surface_of_revolution in Hgen. apply bind_ok in Hgen. destruct Hgen as (ev & _ & Hgen). apply bind_ok in Hgen. destruct Hgen as (nv & Hnv & Hgen). apply bind_ok in Hgen. destruct Hgen as (nn & _ & Hgen). injection Hgen as <- _.
      exists (rev_rows (length angles) (length heights)). split; [reflexivity|]. now apply rev_not_oriented.
    Qed.
  End Revolution.

  (** ** Curves *)
  Section Curve.
    Variables (curve : R -> list R) (close : list R -> list R -> bool) (req : R -> R -> bool) (pack : list (list R) -> E).
    Hypothesis Hreq : forall x y, req x y = true <-> x = y.
    Local Notation mk := (make_curve_mesh R curve close req pack).

    (** C89: there is a mesh iff the element boundaries go from 0 to 1, and the curve is closed if it should be *)
    Theorem C89_curve_accepts bds nodes01 (closed : bool) fvi :
      (exists r, mk bds nodes01 closed fvi = Ok r) <->
      ((2 <= length bds)%nat /\ nth_error bds 0 = Some 0 /\ nth_error bds (length bds - 1) = Some 1 /\ (closed = true -> close (curve 0) (curve 1) = true)).
    Proof.
      split; [intros (r & H); exact (curve_inv R curve close req pack Hreq bds nodes01 closed fvi r H)|]. intros (H1 & H2 & H3 & H4). eexists. exact (curve_total R curve close req pack Hreq bds nodes01 closed fvi H1 H2 H3 H4).
    Qed.

    (** Element k goes from the vertex at parameter b_k to the vertex at b_{k+1}, except that the last element of a closed curve ends in the
        first vertex; its nodes are images of the parametrization points, which are those of the unit nodes moved to [b_k, b_{k+1}]. *)
    Theorem C89_curve_elements bds nodes01 (closed : bool) fvi groups verts ts : mk bds nodes01 closed fvi = Ok (groups, verts, ts) ->
      exists rows nodes params, groups = [mk_egroup (Some rows) nodes fvi] /\ length rows = (length bds - 1)%nat /\ length nodes = (length bds - 1)%nat /\ ts = concat params /\
        length verts = (if closed then length bds - 1 else length bds)%nat /\
        forall k x y, nth_error bds k = Some x -> nth_error bds (k + 1) = Some y ->
          exists u v tk, nth_error rows k = Some [u; v] /\ nth_error verts u = Some (curve x) /\
            (nth_error verts v = Some (curve y) \/ (closed = true /\ y = 1 /\ nth_error verts v = Some (curve 0) /\ close (curve 0) (curve 1) = true)) /\
            nth_error params k = Some tk /\ tk = map (fun s => x + (y - x) * s) nodes01 /\ nth_error nodes k = Some (pack (map curve tk)).
    Proof.
      intros Hmk. destruct (curve_inv R curve close req pack Hreq bds nodes01 closed fvi _ Hmk) as (H1 & H2 & H3 & H4). pose proof (curve_total R curve close req pack Hreq bds nodes01 closed fvi H1 H2 H3 H4) as Ht. cbv zeta in Ht. rewrite Hmk in Ht. injection Ht as -> -> ->.
      set (ne := (length bds - 1)%nat) in *. set (wrap := if closed then ne else (ne + 1)%nat).
      do 3 eexists. split; [reflexivity|]. split; [apply curve_rows_length|]. split; [rewrite map_length; apply params_length|]. split; [reflexivity|]. split; [rewrite firstn_length, map_length; unfold wrap, ne; destruct closed; lia|].
      intros k x y Hx Hy. assert (Hk : (k + 1 < length bds)%nat) by (apply nth_error_Some; congruence). assert (Hkn : (k < ne)%nat) by (unfold ne; lia).
      exists k, ((k + 1) mod wrap)%nat. eexists. split; [exact (curve_row ne wrap k Hkn)|].
      assert (Hv : forall i z, (i < wrap)%nat -> nth_error bds i = Some z -> nth_error (firstn wrap (map curve bds)) i = Some (curve z)).
      { intros i z Hi Hz. rewrite nth_error_firstn. destruct (Nat.ltb_spec i wrap); [|lia]. rewrite nth_error_map, Hz. reflexivity. }
      assert (Hkw : (k < wrap)%nat) by (unfold wrap; destruct closed; lia). split; [now apply Hv|]. split.
      - pose proof (nx_mod wrap k Hkw) as Hnx. destruct Hnx as [(Hlt & Heq)|(Hlt & Heq)].
        + left. rewrite Heq. apply Hv; [lia|exact Hy].
        + right. assert (Hcl : closed = true) by (destruct closed; [reflexivity|exfalso; unfold wrap, ne in *; lia]). split; [exact Hcl|].
          assert (Hk1 : (k + 1 = ne)%nat) by (unfold wrap in Hlt; rewrite Hcl in Hlt; exact Hlt). split; [rewrite Hk1 in Hy; congruence|]. split; [rewrite Heq; apply Hv; [lia|exact H2]|auto].
      - pose proof (params_at R bds nodes01 k x y Hx Hy) as Hp. split; [exact Hp|]. split; [reflexivity|]. rewrite nth_error_map, Hp. reflexivity.
    Qed.

    (** A closed curve has no boundary; the boundary of an open one consists of the two ends. *)
    Theorem C89_curve_faces bds nodes01 (closed : bool) fvi groups verts ts : enumerates fvi (facets_of 1 false) -> mk bds nodes01 closed fvi = Ok (groups, verts, ts) ->
      if closed then closed_mesh groups
      else exists a b va vb, boundary_face groups a /\ boundary_face groups b /\
        face_verts groups a [va] /\ nth_error verts va = Some (curve 0) /\ face_verts groups b [vb] /\ nth_error verts vb = Some (curve 1) /\
        forall c, valid_face groups c -> c = a \/ c = b \/ exists d, partner groups c d /\ forall d', partner groups c d' -> d' = d.
    Proof.
      intros Hfvi Hmk. destruct (curve_inv R curve close req pack Hreq bds nodes01 closed fvi _ Hmk) as (H1 & H2 & H3 & H4). pose proof (curve_total R curve close req pack Hreq bds nodes01 closed fvi H1 H2 H3 H4) as Ht. cbv zeta in Ht. rewrite Hmk in Ht. injection Ht as -> -> ->.
      set (ne := (length bds - 1)%nat) in *. set (nodes := map (fun ts => pack (map curve ts)) (curve_params R bds nodes01)). assert (Hnodes : length nodes = ne) by (unfold nodes; rewrite map_length; apply params_length). assert (Hne : (1 <= ne)%nat) by (unfold ne; lia). destruct closed.
      - intros ((g, k), fc) Hval. apply (curve_valid ne ne nodes fvi Hnodes) in Hval. destruct Hval as (-> & Hk & Hf). destruct (end_of_total fvi Hfvi fc Hf) as (s & Hs).
        destruct (curve_faces ne ne nodes fvi Hfvi Hnodes (or_introl eq_refl) k fc s Hk Hs) as [((Hw & _) & _)|(_ & H)]; [lia|exact H].
      - destruct (end_of_ex fvi Hfvi false) as (f0 & Hf0). destruct (end_of_ex fvi Hfvi true) as (f1 & Hf1). exists (0%nat, 0%nat, f0), (0%nat, (ne - 1)%nat, f1), 0%nat, ne.
        pose proof (curve_faces ne (ne + 1) nodes fvi Hfvi Hnodes (or_intror eq_refl)) as Hcf. pose proof (fun g k fc => curve_valid ne (ne + 1) nodes fvi Hnodes g k fc) as Hcv.
        assert (Hend : forall i z, (i < ne + 1)%nat -> nth_error bds i = Some z -> nth_error (firstn (ne + 1) (map curve bds)) i = Some (curve z)).
        { intros i z Hi Hz. rewrite nth_error_firstn. destruct (Nat.ltb_spec i (ne + 1)); [|lia]. rewrite nth_error_map, Hz. reflexivity. }
        split; [|split; [|split; [|split; [|split; [|split]]]]].
        + split; [apply Hcv; repeat split; [lia|exact (end_of_lt fvi f0 false Hf0)]|]. destruct (Hcf 0%nat f0 false ltac:(lia) Hf0) as [(_ & H)|(H & _)]; [exact H|]. exfalso. apply H. split; [reflexivity|]. left. auto.
        + split; [apply Hcv; repeat split; [lia|exact (end_of_lt fvi f1 true Hf1)]|]. destruct (Hcf (ne - 1)%nat f1 true ltac:(lia) Hf1) as [(_ & H)|(H & _)]; [exact H|]. exfalso. apply H. split; [reflexivity|]. right. split; [lia|reflexivity].
        + apply (curve_face_verts ne (ne + 1) nodes fvi Hnodes 0 f0 false); [lia|exact Hf0|reflexivity].
        + apply Hend; [lia|exact H2].
        + apply (curve_face_verts ne (ne + 1) nodes fvi Hnodes (ne - 1) f1 true); [lia|exact Hf1|]. unfold endpt. replace (ne - 1 + 1)%nat with ne by lia. rewrite Nat.mod_small by lia. reflexivity.
        + apply Hend; [lia|exact H3].
        + intros ((g, k), fc) Hval. apply Hcv in Hval. destruct Hval as (-> & Hk & Hf). destruct (end_of_total fvi Hfvi fc Hf) as (s & Hs). destruct (Hcf k fc s Hk Hs) as [((_ & Hl) & _)|(_ & H)]; [|right; right; exact H].
          destruct Hl as [(-> & ->)|(Hk1 & ->)]; [left; now rewrite (end_of_inj fvi Hfvi fc f0 false Hs Hf0)|right; left]. rewrite (end_of_inj fvi Hfvi fc f1 true Hs Hf1). replace k with (ne - 1)%nat by lia. reflexivity.
    Qed.
  End Curve.
End Statements.

(** For nodes in [0, 1] and increasing boundaries the parametrization points of an element lie between its boundaries. *)
Section Between.
  Variable R : ocring.
  Add Ring Rring2 : (rth R).
  Local Open Scope cring_scope.
  Theorem C89_curve_parameters (x y s : R) : (x <=? y) = true -> (0 <=? s) = true -> (s <=? 1) = true ->
    (x <=? x + (y - x) * s) = true /\ (x + (y - x) * s <=? y) = true.
  Proof.
    intros Hxy H0 H1. apply le_diff in Hxy, H1. split; apply diff_le.
    - replace (x + (y - x) * s - x) with ((y - x) * s) by ring. now apply ole_mul.
    - replace (y - (x + (y - x) * s)) with ((y - x) * (1 - s)) by ring. now apply ole_mul.
  Qed.
End Between.

Print Assumptions C45_major.
Print Assumptions C45_minor_indices.
Print Assumptions C46_distance_is_one.
Print Assumptions C86_torus_closed.
Print Assumptions C86_torus_parametrization.
Print Assumptions C86_on_torus.
Print Assumptions C87_revolution_conforming.
Print Assumptions C88_revolution_never_oriented.
Print Assumptions C89_curve_accepts.
Print Assumptions C89_curve_elements.
Print Assumptions C89_curve_faces.
Print Assumptions C89_curve_parameters.

(** ** Examples *)
(** Angles in quarter turns, coordinates are integers. *)
Definition zcos (t : Zcring) : Zcring := match (t mod 4)%Z with 0%Z => 1%Z | 2%Z => (-1)%Z | _ => 0%Z end.
Definition zsin (t : Zcring) : Zcring := match (t mod 4)%Z with 1%Z => 1%Z | 3%Z => (-1)%Z | _ => 0%Z end.
Definition ex_torus (n m : nat) (cls : gcls) fvi :=
  generate_torus_and_cycle_vertices Zcring zcos zsin 3%Z 1%Z (fun _ _ => 1%Z) (fun c => c) (fun l => l) n m 1%Z 1%Z cls fvi.
Example trig_hypothesis : forall t, radd (rmul (zcos t) (zcos t)) (rmul (zsin t) (zsin t)) = (1%Z : Zcring).
Proof.
  intros t. unfold zcos, zsin. assert (H : (0 <= t mod 4 < 4)%Z) by (apply Z.mod_pos_bound; lia).
  assert (Hc : (t mod 4 = 0 \/ t mod 4 = 1 \/ t mod 4 = 2 \/ t mod 4 = 3)%Z) by lia. destruct Hc as [E|[E|[E|E]]]; rewrite E; reflexivity.
Qed.
Example torus_hypotheses :
  (3 <= 4)%nat /\ GSimplex <> GOther /\ enumerates [[0; 1]; [2; 0]; [2; 1]] (facets_of 2 (tensor GSimplex)) /\
  zcos (nsmul Zcring 4 1%Z) = zcos 0%Z /\ zsin (nsmul Zcring 4 1%Z) = zsin 0%Z.
Proof. split; [lia|]. split; [discriminate|]. split; [exists [[0; 1]; [0; 2]; [1; 2]]; split; [reflexivity|]; repeat (constructor; [apply perm_swap || reflexivity|]); constructor|]. split; reflexivity. Qed.
Example torus_example :
  match ex_torus 4 4 GTensor (facets_of 2 true) with
  | Ok ([g], verts, major, minor) =>
      option_map (firstn 4) (eg_vi g) = Some [[0; 1; 4; 5]; [4; 5; 8; 9]; [8; 9; 12; 13]; [12; 13; 0; 1]] /\
      firstn 2 (eg_nodes g) = [[[4; 0; 0]; [0; 4; 0]; [3; 0; 1]; [0; 3; 1]]; [[3; 0; 1]; [0; 3; 1]; [2; 0; 0]; [0; 2; 0]]]%Z /\
      firstn 6 verts = [[4; 0; 0]; [0; 4; 0]; [-4; 0; 0]; [0; -4; 0]; [3; 0; 1]; [0; 3; 1]]%Z /\ major = [0; 1; 2; 3]
  | _ => False
  end.
Proof. vm_compute. repeat split; reflexivity. Qed.
(** With two cells in a direction faces have the same vertices three or more times: the bound is needed. *)
Example torus_two_cells :
  match ex_torus 2 4 GTensor (facets_of 2 true) with
  | Ok (groups, _, _, _) => partner groups (0, 0, 2) (0, 4, 2) /\ partner groups (0, 0, 2) (0, 3, 3)
  | Err _ => False
  end.
Proof.
  assert (Hp : forall (g : egroup (list (list Zcring))) a b va vb, let '(_, ea, fa) := a in let '(_, eb, fb) := b in fst (fst a) = 0 -> fst (fst b) = 0 -> a <> b -> ea < nelements g -> eb < nelements g -> fa < nfaces g -> fb < nfaces g ->
    face_verts [g] a va -> face_verts [g] b vb -> Permutation va vb -> partner [g] a b).
  { intros g ((ga, ea), fa) ((gb, eb), fb) va vb Ha Hb Hne H1 H2 H3 H4 Fa Fb HP. cbn in Ha, Hb. subst. split; [exists g; auto|]. split; [exists g; auto|]. split; [exact Hne|]. exists va, vb. auto. }
  assert (Hfv : forall (g : egroup (list (list Zcring))) rows e f row ref vs, eg_vi g = Some rows -> nth_error rows e = Some row -> e < nelements g -> nth_error (eg_fvi g) f = Some ref -> take row ref = Ok vs -> face_verts [g] (0, e, f) vs).
  { intros g rows e f row ref vs H1 H2 H3 H4 H5. exists g, row, ref. split; [reflexivity|]. split; [exists g, rows; auto|]. split; [exact H4|]. apply mapM_ok in H5. eapply Forall2_impl; [|exact H5]. intros x y Hxy. now apply get_ok. }
  destruct (ex_torus 2 4 GTensor (facets_of 2 true)) as [(((groups, v), mj), mn)|] eqn:Ex; [|vm_compute in Ex; discriminate]. vm_compute in Ex. injection Ex as <- _ _ _. split.
  - apply (Hp _ (0, 0, 2) (0, 4, 2) [0; 1] [1; 0]); try reflexivity; try discriminate; try (cbn; lia); [| |apply perm_swap]; eapply Hfv; try reflexivity; cbn; lia.
  - apply (Hp _ (0, 0, 2) (0, 3, 3) [0; 1] [0; 1]); try reflexivity; try discriminate; try (cbn; lia); eapply Hfv; try reflexivity; cbn; lia.
Qed.

(** C45: minor lists vertices on the circle in the plane y = 0.  False: other circles, and numbers that are not vertices. *)
Theorem C45_minor_refuted :
  (exists groups verts major minor v p, ex_torus 4 4 GSimplex (facets_of 2 false) = Ok (groups, verts, major, minor) /\ In v minor /\ nth_error verts v = Some p /\ nth_error p 1 <> Some 0%Z) /\
  (exists groups verts major minor v, ex_torus 3 5 GSimplex (facets_of 2 false) = Ok (groups, verts, major, minor) /\ In v minor /\ nth_error verts v = None).
Proof.
  split.
  - do 4 eexists. exists 5, [0; 3; 1]%Z. split; [vm_compute; reflexivity|]. split; [right; left; reflexivity|]. split; [reflexivity|]. discriminate.
  - do 4 eexists. exists 16. split; [vm_compute; reflexivity|]. split; [do 4 right; left; reflexivity|]. reflexivity.
Qed.
Print Assumptions C45_minor_refuted.

(** Radius 2 at heights 0, 1, 2; rational coordinates, angles in quarter turns. *)
Definition q (z : Z) : Qccring := Qcanon.Q2Qc (QArith_base.inject_Z z).
Definition qcos (t : Qccring) : Qccring := q (zcos (QArith_base.Qnum (Qcanon.this t))).
Definition qsin (t : Qccring) : Qccring := q (zsin (QArith_base.Qnum (Qcanon.this t))).
Definition ex_rev := generate_surface_of_revolution Qccring qcos qsin (fun _ _ => q 0) Qcanon.Qcdiv (fun _ _ => q 2) (fun vs => vs) (fun vs => vs)
  [q 0; q 1; q 2; q 3] [q 0; q 1; q 2] (facets_of 2 false).
Example revolution_hypotheses :
  (forall t, radd (rmul (qcos t) (qcos t)) (rmul (qsin t) (qsin t)) = (r1 : Qccring)) /\
  (forall x y : Qccring, y <> r0 -> rmul (Qcanon.Qcdiv x y : Qccring) y = x) /\
  (forall x y : Qccring, rmul x y = r0 -> x = r0 \/ y = r0) /\ (q 2 : Qccring) <> r0 /\ enumerates (facets_of 2 false) (facets_of 2 false).
Proof.
  split; [|split; [|split; [|split]]].
  - intros t. unfold qcos, qsin. generalize (QArith_base.Qnum (Qcanon.this t)). clear t. intros t. unfold zcos, zsin. assert (H : (0 <= t mod 4 < 4)%Z) by (apply Z.mod_pos_bound; lia).
    assert (Hc : (t mod 4 = 0 \/ t mod 4 = 1 \/ t mod 4 = 2 \/ t mod 4 = 3)%Z) by lia. destruct Hc as [E|[E|[E|E]]]; rewrite E; apply Qcanon.Qc_is_canon; reflexivity.
  - intros x y Hy. change (Qcanon.Qcmult (Qcanon.Qcdiv x y) y = x). rewrite Qcanon.Qcmult_comm. apply Qcanon.Qcmult_div_r. exact Hy.
  - intros x y H. exact (Qcanon.Qcmult_integral x y H).
  - intros H. apply (f_equal Qcanon.this) in H. vm_compute in H. discriminate H.
  - exists (facets_of 2 false). split; [reflexivity|]. repeat constructor.
Qed.
Example revolution_example :
  match ex_rev with
  | Ok ([g], verts) => option_map (firstn 3) (eg_vi g) = Some [[0; 4; 5]; [0; 1; 5]; [1; 5; 6]] /\
      map (map Qcanon.this) (firstn 3 verts) = map (map Qcanon.this) [[q 1; q 0; q 0]; [q 0; q 1; q 0]; [q (-1); q 0; q 0]]
  | _ => False
  end.
Proof. vm_compute. split; reflexivity. Qed.
(** C46: every vertex has distance get_radius(height, angle) from the axis.  False. *)
Theorem C46_radius_refuted :
  exists groups verts p, ex_rev = Ok (groups, verts) /\ In p verts /\ ~ axis_distance2 Qccring p (rmul (q 2) (q 2)).
Proof.
  destruct ex_rev as [(groups, verts)|] eqn:Ex; [|vm_compute in Ex; discriminate].
  assert (HF : Forall (fun p => axis_distance2 Qccring p r1) verts).
  { destruct revolution_hypotheses as (H1 & H2 & H3 & H4 & _). exact (C46_distance_is_one Qccring qcos qsin _ _ _ _ _ _ _ _ groups verts H1 H2 H3 (fun _ _ _ _ => conj H4 eq_refl) Ex). }
  destruct verts as [|p verts]; [exfalso; apply (f_equal (fun r => match r with Ok (_, v) => length v | Err _ => 0 end)) in Ex; vm_compute in Ex; discriminate|].
  exists groups, (p :: verts), p. split; [reflexivity|]. split; [now left|]. intros (x & y & z & Hp & Hd). destruct (Forall_inv HF) as (x' & y' & z' & Hp' & Hd'). rewrite Hp in Hp'. injection Hp' as <- <- <-. rewrite Hd' in Hd. apply (f_equal Qcanon.this) in Hd. vm_compute in Hd. discriminate Hd.
Qed.
Print Assumptions C46_radius_refuted.
(** C88: the mesh of this cylinder is not consistently oriented. *)
Theorem C88_revolution_orientation_refuted : exists groups verts rows, ex_rev = Ok (groups, verts) /\ map eg_vi groups = [Some rows] /\ ~ consistently_oriented rows false.
Proof.
  destruct ex_rev as [(groups, verts)|] eqn:Ex; [|vm_compute in Ex; discriminate].
  assert (Hl : 1 <= length [q 0; q 1; q 2; q 3]) by (cbn; lia). assert (Hl2 : 2 <= length [q 0; q 1; q 2]) by (cbn; lia).
  destruct (C88_revolution_never_oriented Qccring _ _ _ _ _ _ _ _ _ _ groups verts Hl Hl2 Ex) as (rows & Hr & Hn). exists groups, verts, rows. auto.
Qed.
Print Assumptions C88_revolution_orientation_refuted.

(** A closed polygon with three segments: curve through quarter turns, and an open curve. *)
Definition ex_curve (closed : bool) (bds : list Zcring) :=
  make_curve_mesh Zcring (fun t => [t; (t * t)%Z]) (fun _ _ => true) Z.eqb (fun l => l) bds [0; 1]%Z closed [[0]; [1]].
Example curve_hypotheses : (forall x y, Z.eqb x y = true <-> x = y) /\ enumerates [[0]; [1]] (facets_of 1 false).
Proof. split; [exact Z.eqb_eq|]. exists [[0]; [1]]. split; [reflexivity|]. repeat constructor. Qed.
Example curve_example :
  ex_curve true [0; 5; 7; 1]%Z = Ok ([mk_egroup (Some [[0; 1]; [1; 2]; [2; 0]]) [[[0; 0]; [5; 25]]; [[5; 25]; [7; 49]]; [[7; 49]; [1; 1]]]%Z [[0]; [1]]], [[0; 0]; [5; 25]; [7; 49]]%Z, [0; 5; 5; 7; 7; 1]%Z) /\
  ex_curve false [0; 5; 1]%Z = Ok ([mk_egroup (Some [[0; 1]; [1; 2]]) [[[0; 0]; [5; 25]]; [[5; 25]; [1; 1]]]%Z [[0]; [1]]], [[0; 0]; [5; 25]; [1; 1]]%Z, [0; 5; 5; 1]%Z) /\
  ex_curve true [0; 1]%Z = Ok ([mk_egroup (Some [[0; 0]]) [[[0; 0]; [1; 1]]]%Z [[0]; [1]]], [[0; 0]]%Z, [0; 1]%Z) /\
  ex_curve true [0; 5]%Z = Err AssertionError.
Proof. repeat split; vm_compute; reflexivity. Qed.
