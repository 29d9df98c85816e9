(** * BoxProps: box meshes (C43, C44, C83, C84, C85) *)
From Coq Require QArith Qcanon.
From Coq Require Import String Ascii List Arith Bool ZArith Lia Permutation Ring.
From Verif Require Import Np NpFacts MeshModel MeshSpec MeshProofs FacialProofs MeshStateModel MeshProps Lin Ord QcOrd RestrProofs AffineModel PointModel GlueModel PointSpec BoxModel BoxSpec BoxIndexProofs BoxConfProofs BoxTagProofs BoxProofs BoxMeshProofs BoxGeomProofs BoxTileProofs.
Import ListNotations.

Section NoPeriodic.
  Variable R : ocring.
  Variables (half small : R).
  Context {E : Type}.
  Variable el_nodes : list (list R) -> E.
  Variable tag_order : list btag -> list btag.
  Variable ptag : bool -> nat -> btag.
  Variable median : list R -> R.
  Variable inv : list (list R) -> res (list (list R)).
  Variable fuel : nat.

  Lemma no_periodic_tags n k dict : k <= n -> foldM (fun d i => p <- get (repeat false n) i ;; Ok (if p : bool then dict_set (dict_set d (ptag false i) [side_name false i]) (ptag true i) [side_name true i] else d)) (seq (n - k) k) dict = Ok dict.
  Proof.
    revert dict. induction k as [|k IH]; intros dict Hk; [reflexivity|]. cbn [seq foldM]. assert (Hg : get (repeat false n) (n - S k) = Ok false). { apply get_ok. destruct (nth_exists (repeat false n) (n - S k)) as (b & Hb); [rewrite repeat_length; lia|]. rewrite Hb. f_equal. apply nth_error_In, repeat_spec in Hb. exact Hb. }
    rewrite Hg. cbn [bind]. replace (S (n - S k)) with (n - k) by lia. apply IH. lia.
  Qed.
  Lemma existsb_repeat n : existsb (fun b => b) (repeat false n) = false.
  Proof. induction n; [reflexivity|]. cbn. assumption. Qed.

  Lemma generate_none axes order cls fvi dict mt : (half + half = 1)%cr -> (forall l t, In t (tag_order l) <-> In t l) ->
    box_kind (length axes) cls mt -> good_axes R axes -> enumerates fvi (facets_of (length axes) (is_tensor cls)) -> 1 <= order ->
    let d := match dict with None => [] | Some d => d end in valid_dict (length axes) d ->
    exists m verts rows pts fags, let groups := [mk_egroup (Some rows) (map el_nodes pts) fvi] in
      generate_box_mesh R half small el_nodes tag_order ptag median inv fuel axes order None cls fvi dict mt = Ok (m, d) /\
      m_groups m = groups /\ m_vertices m = Some verts /\ m_facial m = Available fags /\
      mapM (take verts) rows = Ok pts /\ pts = elem_list R half axes (table_of (length axes) cls mt) /\
      has_rows groups /\ faces_wf groups /\ at_most_two groups /\ (exists g, In g groups /\ eg_fvi g <> []) /\
      (forall a, boundary_face groups a <-> exists s, face_on R axes verts groups a s) /\
      (d = [] -> compute_facial_adjacency (mk_amap None None) tag_order None groups = Ok fags) /\
      (d <> [] -> exists mm, compute_facial_adjacency (mk_amap None None) tag_order (Some mm) groups = Ok fags /\ keys_distinct mm /\ (forall k ts t, In (k, ts) mm -> In t ts -> ~ system_tag t) /\
        forall a t, tag_assigned groups mm a t <-> exists s fs, face_on R axes verts groups a s /\ In (t, fs) d /\ In (side_name (fst s) (snd s)) fs).
  Proof.
    intros Hhalf Hto Hk Hax Hfvi Hord d (Hn & Hs).
    assert (Hp : periodic_tags ptag (length axes) (repeat false (length axes)) d = Ok d). { unfold periodic_tags. pose proof (no_periodic_tags (length axes) (length axes) d (le_n _)) as H. now rewrite Nat.sub_diag in H. }
    destruct (box_mesh_ok R half Hhalf el_nodes (mk_amap None None : amap R) tag_order Hto ptag axes order (repeat false (length axes)) cls fvi dict d mt Hk Hax Hfvi Hord Hp Hn Hs) as (verts & rows & pts & fags & Hbm & _ & Hpts & Hrs & Hat & H1 & H2 & H3 & H4 & H5 & H6).
    exists (mk_mesh [mk_egroup (Some rows) (map el_nodes pts) fvi] (Some verts) (Some true) Pending (Available fags) 0 0 0). exists verts, rows, pts, fags. cbv zeta. split; [|split; [reflexivity|split; [reflexivity|split; [reflexivity|split; [exact Hpts|split]]]]].
    - unfold generate_box_mesh. rewrite Hbm. cbn [bind]. rewrite existsb_repeat. reflexivity.
    - pose proof (kind_checks _ _ _ Hk) as (_ & _ & Hok & _ & _). eapply pts_elem_list; eauto. intros ->. inversion Hk.
    - split; [exact H1|]. split; [exact H2|]. split; [exact H3|]. split; [|split; [exact H4|split; [exact H5|exact H6]]].
      eexists. split; [now left|]. cbn [eg_fvi]. intros ->. destruct Hfvi as (F1 & HP & HF). inversion HF; subst. apply Permutation_length in HP. inversion Hk as [Q1 Q2|Q1 Q2|Q1 Q2|Q1 Q2|Q1 Q2|Q1 Q2|Q1 Q2]; rewrite <- Q1, <- ?Q2 in HP; subst; cbn in HP; discriminate.
  Qed.
End NoPeriodic.

(** C43: the elements of a box mesh are positively oriented and their measures add up to the measure of the box. *)
Theorem C43_box_measure :
  forall (R : ocring) half small (E : Type) (el_nodes : list (list R) -> E) tag_order ptag median inv fuel axes order cls fvi dict mt,
    (half + half = 1)%cr -> (forall a b : R, 0 <? a = true -> 0 <? b = true -> 0 <? a * b = true)%cr -> (forall l t, In t (tag_order l) <-> In t l) ->
    box_kind (length axes) cls mt -> good_axes R axes -> enumerates fvi (facets_of (length axes) (is_tensor cls)) -> 1 <= order ->
    valid_dict (length axes) (match dict with None => [] | Some d => d end) ->
    exists m d verts rows pts,
      generate_box_mesh R half small el_nodes tag_order ptag median inv fuel axes order None cls fvi dict mt = Ok (m, d) /\
      m_vertices m = Some verts /\ m_groups m = [mk_egroup (Some rows) (map el_nodes pts) fvi] /\
      mapM (take verts) rows = Ok pts /\
      (forall p, In p pts -> 0 <? measure R (is_tensor cls) p = true)%cr /\
      (forall ls, Forall2 (extent R) axes ls -> rsum (map (measure R (is_tensor cls)) pts) = nmul R (if is_tensor cls then 1 else fact (length axes)) (product R ls)).
Proof.
  intros R half small E el_nodes tag_order ptag median inv fuel axes order cls fvi dict mt Hhalf Hpos Hto Hk Hax Hfvi Hord Hd.
  destruct (generate_none R half small el_nodes tag_order ptag median inv fuel axes order cls fvi dict mt Hhalf Hto Hk Hax Hfvi Hord Hd) as (m & verts & rows & pts & fags & Hm & Hg & Hv & _ & Hpts & -> & _).
  exists m. eexists. exists verts, rows. eexists. split; [exact Hm|]. split; [exact Hv|]. split; [exact Hg|]. split; [exact Hpts|]. split.
  - intros p Hp. eapply elems_positive; eauto.
  - intros ls Hls. rewrite (measure_sum R half Hhalf Hpos axes cls mt Hk Hax). unfold pieces. f_equal. f_equal. clear -Hls. induction Hls as [|ax x axes ls (a & b & Ha & Hb & ->) _ IH]; [reflexivity|]. cbn [map]. unfold at_ at 1 2. rewrite Ha, Hb. now f_equal.
Qed.
Print Assumptions C43_box_measure.

(** Tensor product elements are the cells of the grid, with vertices in tensor product numbering. *)
Theorem C43_tensor_cells :
  forall (R : ocring) half small (E : Type) (el_nodes : list (list R) -> E) tag_order ptag median inv fuel axes order fvi dict mt,
    (half + half = 1)%cr -> (forall l t, In t (tag_order l) <-> In t l) ->
    box_kind (length axes) GTensor mt -> good_axes R axes -> enumerates fvi (facets_of (length axes) true) -> 1 <= order ->
    valid_dict (length axes) (match dict with None => [] | Some d => d end) ->
    exists m d verts rows pts,
      generate_box_mesh R half small el_nodes tag_order ptag median inv fuel axes order None GTensor fvi dict mt = Ok (m, d) /\
      m_vertices m = Some verts /\ m_groups m = [mk_egroup (Some rows) (map el_nodes pts) fvi] /\ mapM (take verts) rows = Ok pts /\
      forall p, In p pts -> exists lo hi t, tensor_box R lo hi p /\ length t = length axes /\
        forall a ax i, nth_error axes a = Some ax -> nth_error t a = Some i -> nth_error lo a = nth_error ax i /\ nth_error hi a = nth_error ax (S i) /\ S i < length ax.
Proof.
  intros R half small E el_nodes tag_order ptag median inv fuel axes order fvi dict mt Hhalf Hto Hk Hax Hfvi Hord Hd.
  destruct (generate_none R half small el_nodes tag_order ptag median inv fuel axes order GTensor fvi dict mt Hhalf Hto Hk Hax Hfvi Hord Hd) as (m & verts & rows & pts & fags & Hm & Hg & Hv & _ & Hpts & -> & _).
  exists m. eexists. exists verts, rows. eexists. split; [exact Hm|]. split; [exact Hv|]. split; [exact Hg|]. split; [exact Hpts|].
  intros p Hp. destruct (elems_tensor R half axes mt p Hk Hp) as (t & Ht & Hb). exists (los R axes t), (his R axes t), t. split; [exact Hb|]. apply In_ndindex in Ht. split; [now rewrite (Forall2_length' _ _ _ Ht), !map_length|].
  clear -Ht. revert t Ht. induction axes as [|ax0 axes IH]; intros t Ht a ax i Ha Hi; [destruct a; discriminate|]. cbn [map] in Ht. inversion Ht as [|i0 n t' s Hi0 Ht']; subst. destruct a as [|a]; cbn in Ha, Hi; [|now apply (IH t' Ht' a)].
  injection Ha as ->. injection Hi as ->. split; [|split; [|lia]]; symmetry; apply at_nth; lia.
Qed.
Print Assumptions C43_tensor_cells.

(** C84: the elements cover the box, and no point is inside two of them. *)
Theorem C84_box_tiling :
  forall (R : ocring) half small (E : Type) (el_nodes : list (list R) -> E) tag_order ptag median inv fuel axes order cls fvi dict mt,
    (half + half = 1)%cr -> (forall a b : R, 0 <? a = true -> 0 <? b = true -> 0 <? a * b = true)%cr -> (forall l t, In t (tag_order l) <-> In t l) ->
    box_kind (length axes) cls mt -> good_axes R axes -> enumerates fvi (facets_of (length axes) (is_tensor cls)) -> 1 <= order ->
    valid_dict (length axes) (match dict with None => [] | Some d => d end) ->
    exists m d verts rows pts,
      generate_box_mesh R half small el_nodes tag_order ptag median inv fuel axes order None cls fvi dict mt = Ok (m, d) /\
      m_vertices m = Some verts /\ m_groups m = [mk_egroup (Some rows) (map el_nodes pts) fvi] /\ mapM (take verts) rows = Ok pts /\
      (forall x, in_box R axes x -> exists p, In p pts /\ in_element R (is_tensor cls) p x) /\
      (forall x e e' p p', length x = length axes -> nth_error pts e = Some p -> nth_error pts e' = Some p' ->
         inside_element R (is_tensor cls) p x -> inside_element R (is_tensor cls) p' x -> e = e').
Proof.
  intros R half small E el_nodes tag_order ptag median inv fuel axes order cls fvi dict mt Hhalf Hpos Hto Hk Hax Hfvi Hord Hd.
  destruct (generate_none R half small el_nodes tag_order ptag median inv fuel axes order cls fvi dict mt Hhalf Hto Hk Hax Hfvi Hord Hd) as (m & verts & rows & pts & fags & Hm & Hg & Hv & _ & Hpts & -> & _).
  exists m. eexists. exists verts, rows. eexists. split; [exact Hm|]. split; [exact Hv|]. split; [exact Hg|]. split; [exact Hpts|]. split.
  - intros x Hx. eapply elems_cover; eauto.
  - intros x e e' p p' Hx He He' H H'. exact (elems_disjoint R half Hhalf Hpos axes cls mt x e e' p p' Hk Hax Hx He He' H H').
Qed.
Print Assumptions C84_box_tiling.

(** C83: box meshes are conforming.  Every face either lies on a side of the box or belongs to exactly one other element. *)
Theorem C83_box_conforming :
  forall (R : ocring) half small (E : Type) (el_nodes : list (list R) -> E) tag_order ptag median inv fuel axes order cls fvi dict mt,
    (half + half = 1)%cr -> (forall l t, In t (tag_order l) <-> In t l) ->
    box_kind (length axes) cls mt -> good_axes R axes -> enumerates fvi (facets_of (length axes) (is_tensor cls)) -> 1 <= order ->
    valid_dict (length axes) (match dict with None => [] | Some d => d end) ->
    exists m d verts,
      generate_box_mesh R half small el_nodes tag_order ptag median inv fuel axes order None cls fvi dict mt = Ok (m, d) /\
      m_vertices m = Some verts /\ length (m_groups m) = 1 /\
      forall a, valid_face (m_groups m) a ->
        ((exists s, face_on R axes verts (m_groups m) a s) /\ (forall b, ~ partner (m_groups m) a b)) \/
        ((forall s, ~ face_on R axes verts (m_groups m) a s) /\ exists b, partner (m_groups m) a b /\ forall b', partner (m_groups m) a b' -> b' = b).
Proof.
  intros R half small E el_nodes tag_order ptag median inv fuel axes order cls fvi dict mt Hhalf Hto Hk Hax Hfvi Hord Hd.
  destruct (generate_none R half small el_nodes tag_order ptag median inv fuel axes order cls fvi dict mt Hhalf Hto Hk Hax Hfvi Hord Hd) as (m & verts & rows & pts & fags & Hm & Hg & Hv & _ & _ & _ & H1 & H2 & H3 & H4 & H5 & _).
  exists m. eexists. exists verts. split; [exact Hm|]. split; [exact Hv|]. rewrite Hg. split; [reflexivity|]. intros a Ha.
  destruct (C04_facial_adjacency (mk_amap None None : amap R) tag_order None _ Hto H1 H2 H4 H3) as (fg & _ & _ & Hint & _ & _ & _ & Hbd & Hall).
  destruct (Hall a Ha) as [(b & Hb)|(t & Ht)].
  - right. apply Hint in Hb. split; [|exists b; split; [exact Hb|intros b' Hb'; exact (H3 _ _ _ Hb' Hb)]].
    intros s Hs. assert (Hbf : boundary_face [mk_egroup (Some rows) (map el_nodes pts) fvi] a) by (apply H5; eauto). exact (proj2 Hbf b Hb).
  - left. pose proof (Hbd t a Ht) as Hbf. split; [now apply H5|exact (proj2 Hbf)].
Qed.
Print Assumptions C83_box_conforming.

(** C44: a face has a boundary tag exactly if it lies on a side of the box that is listed for the tag. *)
Theorem C44_box_tags :
  forall (R : ocring) half small (E : Type) (el_nodes : list (list R) -> E) tag_order ptag median inv fuel axes order cls fvi dict mt,
    (half + half = 1)%cr -> (forall l t, In t (tag_order l) <-> In t l) ->
    box_kind (length axes) cls mt -> good_axes R axes -> enumerates fvi (facets_of (length axes) (is_tensor cls)) -> 1 <= order ->
    let d := match dict with None => [] | Some d => d end in valid_dict (length axes) d ->
    exists m verts fags,
      generate_box_mesh R half small el_nodes tag_order ptag median inv fuel axes order None cls fvi dict mt = Ok (m, d) /\
      m_vertices m = Some verts /\ m_facial m = Available fags /\ length fags = 1 /\
      let on a s := face_on R axes verts (m_groups m) a s in
      let tagged a t := exists s fs, on a s /\ In (t, fs) d /\ In (side_name (fst s) (snd s)) fs in
      (forall t a, ~ system_tag t -> (bdry_adj fags t a <-> tagged a t)) /\
      (forall a, bdry_adj fags TReallyAll a <-> exists s, on a s) /\
      (forall a, bdry_adj fags TAll a <->
         (exists s, on a s) /\ ((exists a' s, on a' s /\ forall t, ~ tagged a' t) \/ exists t, tagged a t /\ ~ not_a_boundary t)).
Proof.
  intros R half small E el_nodes tag_order ptag median inv fuel axes order cls fvi dict mt Hhalf Hto Hk Hax Hfvi Hord d Hd.
  destruct (generate_none R half small el_nodes tag_order ptag median inv fuel axes order cls fvi dict mt Hhalf Hto Hk Hax Hfvi Hord Hd) as (m & verts & rows & pts & fags & Hm & Hg & Hv & Hf & _ & _ & H1 & H2 & H3 & H4 & H5 & H6 & H7).
  exists m, verts, fags. split; [exact Hm|]. split; [exact Hv|]. split; [exact Hf|]. rewrite Hg. fold d in H6, H7. clear Hm Hd Hg Hv Hf.
  set (groups := [mk_egroup (Some rows) (map el_nodes pts) fvi]) in *.
  assert (Hlen : length fags = 1).
  { destruct d as [|td d'].
    - destruct (C04_facial_adjacency (mk_amap None None : amap R) tag_order None groups Hto H1 H2 H4 H3) as (fg & Hc & Hl & _). rewrite (H6 eq_refl) in Hc. injection Hc as <-. exact Hl.
    - destruct H7 as (mm & Hc' & _); [discriminate|]. destruct (C04_facial_adjacency (mk_amap None None : amap R) tag_order (Some mm) groups Hto H1 H2 H4 H3) as (fg & Hc & Hl & _). rewrite Hc' in Hc. injection Hc as <-. exact Hl. }
  split; [exact Hlen|]. intros on tagged. destruct d as [|td d'].
  - destruct (C04_untagged_boundary (mk_amap None None : amap R) tag_order groups Hto H1 H2 H4 H3) as (fg & Hc & Hb). rewrite (H6 eq_refl) in Hc. injection Hc as <-.
    assert (Hno : forall a t, ~ tagged a t) by (intros a t (s & fs & _ & [] & _)).
    split; [|split].
    + intros t a Ht. rewrite Hb. split; [intros ([-> | ->] & _); exfalso; apply Ht; unfold system_tag; auto|intros H; destruct (Hno _ _ H)].
    + intros a. rewrite Hb. rewrite H5. unfold on. intuition.
    + intros a. rewrite Hb. rewrite H5. split.
      * intros (_ & s & Hs). split; [exists s; exact Hs|]. left. exists a, s. split; [exact Hs|]. apply Hno.
      * intros (H & _). auto.
  - destruct H7 as (mm & Hc' & Hkd & Hsys & Hta); [discriminate|].
    destruct (C06_boundary_tags (mk_amap None None : amap R) tag_order groups mm Hto H1 H2 H4 H3 Hkd Hsys) as (fg & Hc & Hb1 & Hb2 & Hb3 & _). rewrite Hc' in Hc. injection Hc as <-.
    assert (Htag : forall a t, tag_assigned groups mm a t <-> tagged a t) by (intros a t; apply Hta).
    split; [|split].
    + intros t a Ht. rewrite (Hb1 t a Ht), Htag. split; [intros (_ & H); exact H|]. intros H. split; [|exact H]. apply H5. destruct H as (s & fs & H & _). eauto.
    + intros a. rewrite Hb2. apply H5.
    + intros a. rewrite Hb3, H5. assert (Hz : forall a s, on a s -> fst (fst a) = 0). { intros ((g, e), f) s (vs & (grp & row & ref & Hgr & _) & _). cbn [fst]. destruct g as [|g]; [reflexivity|]. cbn in Hgr. destruct g; discriminate. }
      split; (intros ((s0 & Hs0) & [H|(t & Ht & Hnb)]); (split; [exists s0; exact Hs0|])); try (right; exists t; split; [now apply Htag|exact Hnb]); left.
      * destruct H as (e' & f' & Hbf & Hno). apply H5 in Hbf. destruct Hbf as (s & Hs). exists (fst (fst a), e', f'), s. split; [exact Hs|]. intros t Ht. apply (Hno t). now apply Htag.
      * destruct H as (((g', e'), f') & s & Hs & Hno). exists e', f'. rewrite (Hz _ _ Hs0). pose proof (Hz _ _ Hs) as E0. cbn [fst] in E0. subst g'. cbv zeta. split; [apply H5; exists s; exact Hs|]. intros t Ht. apply (Hno t). now apply Htag.
Qed.
Print Assumptions C44_box_tags.

(** The name of a side that does not exist is an error. *)
Theorem C44_unknown_side :
  forall (R : ocring) half small (E : Type) (el_nodes : list (list R) -> E) tag_order ptag median inv fuel axes order cls fvi d mt t fs f,
    (half + half = 1)%cr -> (forall l t, In t (tag_order l) <-> In t l) ->
    box_kind (length axes) cls mt -> good_axes R axes -> enumerates fvi (facets_of (length axes) (is_tensor cls)) -> 1 <= order ->
    In (t, fs) d -> In f fs -> (forall s : side, snd s < length axes -> f <> side_name (fst s) (snd s)) ->
    generate_box_mesh R half small el_nodes tag_order ptag median inv fuel axes order None cls fvi (Some d) mt = Err ValueError.
Proof.
  intros R half small E el_nodes tag_order ptag median inv fuel axes order cls fvi d mt t fs f Hhalf Hto Hk Hax Hfvi Hord Hin Hf Hbad.
  assert (Hp0 : forall d, periodic_tags ptag (length axes) (repeat false (length axes)) d = Ok d). { intros d0. unfold periodic_tags. pose proof (no_periodic_tags ptag (length axes) (length axes) d0 (le_n _)) as H. now rewrite Nat.sub_diag in H. }
  destruct (box_mesh_ok R half Hhalf el_nodes (mk_amap None None : amap R) tag_order Hto ptag axes order (repeat false (length axes)) cls fvi None [] mt Hk Hax Hfvi Hord (Hp0 [])) as (verts & rows & pts & fags & Hbm & _); [intros ? ? ? []|intros ? ? []|].
  unfold generate_box_mesh. unfold box_mesh in Hbm |- *. destruct (box_elements R half axes cls mt) as [((v0, r0), e0)|]; [|discriminate]. cbn [bind] in *. destruct (match cls with GSimplex => 1 <=? order | _ => true end); cbn [guard bind] in *; [|discriminate]. destruct (mapM (take v0) r0) as [p0|]; cbn [bind] in *; [|discriminate]. rewrite Hp0. cbn [bind].
  destruct d as [|td d'] eqn:Ed; [destruct Hin|]. rewrite <- Ed in *. assert (Hbt : box_face_to_tags (length axes) d = Err ValueError); [|rewrite Hbt; reflexivity].
  clear -Hin Hf Hbad. unfold box_face_to_tags. generalize (@nil (side * list btag)). assert (Hps : forall f', (exists s, parse_side (length axes) f' = Ok s) \/ parse_side (length axes) f' = Err ValueError).
  { intros f'. unfold parse_side. destruct f' as [|c1 [|c2 [|]]]; auto. destruct (axis_index c2) as [a|]; auto. destruct (a <? length axes); cbn [guard bind]; auto. destruct (Ascii.eqb c1 "-"); eauto. destruct (Ascii.eqb c1 "+"); eauto. }
  assert (Hff : parse_side (length axes) f = Err ValueError). { destruct (Hps f) as [(s & Hs)|H]; [|exact H]. apply parse_side_ok in Hs. destruct Hs as (Hs & Hl & _). destruct (Hbad s Hl Hs). }
  set (inner := fun (t : btag) (d : list (side * list btag)) f => s <- parse_side (length axes) f ;; Ok (add_tag d s t)).
  assert (Hi : forall fs t acc, (exists acc', foldM (inner t) fs acc = Ok acc') \/ foldM (inner t) fs acc = Err ValueError).
  { induction fs0 as [|f0 fs0 IH]; intros t0 acc; [left; eexists; reflexivity|]. cbn [foldM]. unfold inner at 1 3. destruct (Hps f0) as [(s & Hs0)|Hs0]; rewrite Hs0; cbn [bind]; [apply IH|auto]. }
  assert (Hi2 : forall fs t acc, In f fs -> foldM (inner t) fs acc = Err ValueError).
  { induction fs0 as [|f0 fs0 IH]; intros t0 acc H; [destruct H|]. cbn [foldM]. unfold inner at 1. destruct H as [-> | H]; [rewrite Hff; reflexivity|]. destruct (Hps f0) as [(s & Hs0)|Hs0]; rewrite Hs0; cbn [bind]; [now apply IH|reflexivity]. }
  induction d as [|(t0, fs0) d IH]; intros acc; [destruct Hin|]. cbn [foldM fst snd]. fold (inner t0). destruct Hin as [E0|Hin].
  - injection E0 as -> ->. rewrite Hi2 by exact Hf. reflexivity.
  - destruct (Hi fs0 t0 acc) as [(acc' & ->)| ->]; cbn [bind]; [now apply IH|reflexivity].
Qed.
Print Assumptions C44_unknown_side.

(** ** Examples *)
Definition q (n : Z) : Qcocring := frac n 1.
Definition ex_axes : list (list Qcocring) := [[q 0; q 1; q 3]; [q 0; q 2]].
Definition ex_dict : tagdict := [(TUser 0, ["-x"; "+y"]); (TUser 1, ["+y"])]%string.
Definition ex_ptag (upper : bool) (i : nat) : btag := TUser (10 + 2 * i + if upper then 1 else 0).
Definition ex_median (l : list Qcocring) : Qcocring := match l with x :: _ => x | [] => q 0 end.
Definition ex_inv (M : list (list Qcocring)) : res (list (list Qcocring)) := Err ValueError.
Definition ex_order (l : list btag) : list btag := fold_right (fun t acc => if existsb (btag_eqb t) acc then acc else t :: acc) [] l.
Definition ex_box axes periodic cls fvi dict mt :=
  generate_box_mesh Qcocring (frac 1 2) (frac 1 1000) (fun p => p) ex_order ex_ptag ex_median ex_inv 5 axes 1 periodic cls fvi dict mt.
Definition raw (v : list (list Qcocring)) : list (list QArith_base.Q) := map (map Qcanon.this) v.
Definition shown (r : res (mesh (list (list Qcocring)) (amap Qcocring) (list Qcocring) * tagdict)) :=
  match r with
  | Ok (m, d) => Ok (map (fun g => (eg_vi g, map raw (eg_nodes g))) (m_groups m), option_map raw (m_vertices m),
                     match m_facial m with Available fags => Some (map (map (fun fg => (bdry_tag fg, fag_faces fg))) fags) | _ => None end, d)
  | Err e => Err e
  end.

Lemma good_axes_dec (R : ocring) (axes : list (list R)) :
  forallb (fun ax => (2 <=? length ax) && forallb (fun ab => olt (fst ab) (snd ab)) (combine ax (tl ax))) axes = true -> good_axes R axes.
Proof.
  intros H. apply Forall_forall. intros ax Hin. pose proof (proj1 (forallb_forall _ _) H ax Hin) as Hb. apply andb_true_iff in Hb as (Hl & Hb). apply Nat.leb_le in Hl. split; [exact Hl|].
  intros i a b Ha Hbb. apply (proj1 (forallb_forall _ _) Hb (a, b)). apply (nth_error_In _ i). clear -Ha Hbb. revert i Ha Hbb. induction ax as [|x ax IH]; intros i Ha Hb; [destruct i; discriminate|]. cbn [tl]. destruct ax as [|y ax]; [destruct i as [|[|]]; discriminate|].
  destruct i as [|i]; [cbn in *; congruence|]. cbn [combine nth_error]. apply IH; assumption.
Qed.
Lemma ex_order_ok l t : In t (ex_order l) <-> In t l.
Proof.
  induction l as [|u l IH]; [reflexivity|]. cbn [ex_order fold_right]. fold (ex_order l). destruct (existsb (btag_eqb u) (ex_order l)) eqn:E; cbn [In]; rewrite IH; [|reflexivity].
  split; [auto|]. intros [<-|H]; [|exact H]. apply existsb_exists in E as (v & Hv & E). apply CompletionProofs.btag_eqb_eq in E. subst v. now apply IH.
Qed.
Example box_hypotheses :
  box_kind (length ex_axes) GSimplex MX /\ good_axes Qcocring ex_axes /\
  enumerates [[0; 1]; [2; 0]; [2; 1]] (facets_of (length ex_axes) (is_tensor GSimplex)) /\ valid_dict (length ex_axes) ex_dict.
Proof.
  split; [constructor|]. split; [|split; [|split]].
  - apply good_axes_dec. vm_compute. reflexivity.
  - exists (facets_of 2 false). split; [reflexivity|]. repeat constructor.
  - intros t fs f [H|[H|[]]] Hf; inversion H; subst; cbn [In] in Hf.
    + destruct Hf as [<-|[<-|[]]]; [exists (false, 0)|exists (true, 1)]; cbn; auto.
    + destruct Hf as [<-|[]]. exists (true, 1). cbn. auto.
  - intros t fs [H|[H|[]]] Hs; inversion H; subst; destruct Hs as [Hs|[Hs|Hs]]; discriminate.
Qed.
(** Two cells of four triangles each; vertices 6 and 7 are the midpoints. *)
Example box_x_example :
  match shown (ex_box ex_axes None GSimplex [[0; 1]; [2; 0]; [2; 1]] (Some ex_dict) MX) with
  | Ok (g, v, f, d) =>
      map fst g = [Some [[0; 2; 6]; [2; 3; 6]; [3; 1; 6]; [1; 0; 6]; [2; 4; 7]; [4; 5; 7]; [5; 3; 7]; [3; 2; 7]]] /\
      v = Some (raw [[q 0; q 0]; [q 0; q 2]; [q 1; q 0]; [q 1; q 2]; [q 3; q 0]; [q 3; q 2]; [frac 1 2; q 1]; [q 2; q 1]]) /\ d = ex_dict /\
      option_map (map (filter (fun tf => match fst tf with Some (TUser _) => true | _ => false end))) f =
        Some [[(Some (TUser 0), [(2, 0); (3, 0); (6, 0)]); (Some (TUser 1), [(2, 0); (6, 0)])]]
  | Err _ => False
  end.
Proof. vm_compute. repeat split; reflexivity. Qed.
(** Extents 3 and 2: the determinants of the eight triangles add up to 2! * 3 * 2. *)
Example box_x_measure :
  Forall2 (extent Qcocring) ex_axes [q 3; q 2] /\
  match ex_box ex_axes None GSimplex [[0; 1]; [2; 0]; [2; 1]] None MX with
  | Ok (m, _) => map (fun g => Qcanon.this (rsum (map (measure Qcocring false) (eg_nodes g)))) (m_groups m) = [Qcanon.this (nmul Qcocring 2 (product Qcocring [q 3; q 2]))]
  | Err _ => False
  end.
Proof.
  split; [|vm_compute; reflexivity]. constructor; [|constructor; [|constructor]].
  - exists (q 0), (q 3). split; [reflexivity|]. split; [reflexivity|]. apply Qcanon.Qc_is_canon. reflexivity.
  - exists (q 0), (q 2). split; [reflexivity|]. split; [reflexivity|]. apply Qcanon.Qc_is_canon. reflexivity.
Qed.
Example box_hex_hypotheses :
  let axes := [[q 0; q 1; q 3]; [q 0; q 2]; [q 5; q 7]] in
  box_kind (length axes) GTensor MNone /\ good_axes Qcocring axes /\ enumerates (facets_of 3 true) (facets_of (length axes) true) /\ valid_dict (length axes) ex_dict.
Proof.
  split; [constructor|]. split; [apply good_axes_dec; vm_compute; reflexivity|]. split; [|split].
  - exists (facets_of 3 true). split; [reflexivity|]. repeat constructor.
  - intros t fs f Hin Hf. destruct (proj1 (proj2 (proj2 (proj2 box_hypotheses))) t fs f Hin Hf) as (s & Hs & Hl). exists s. split; [exact Hs|]. cbn [length ex_axes] in *. lia.
  - exact (proj2 (proj2 (proj2 (proj2 box_hypotheses)))).
Qed.
Example box_hex_example :
  match shown (ex_box [[q 0; q 1; q 3]; [q 0; q 2]; [q 5; q 7]] None GTensor (facets_of 3 true) None MNone) with
  | Ok (g, v, f, d) => map fst g = [Some [[0; 4; 2; 6; 1; 5; 3; 7]; [4; 8; 6; 10; 5; 9; 7; 11]]] /\ d = [] /\
      map snd g = [[raw [[q 0; q 0; q 5]; [q 1; q 0; q 5]; [q 0; q 2; q 5]; [q 1; q 2; q 5]; [q 0; q 0; q 7]; [q 1; q 0; q 7]; [q 0; q 2; q 7]; [q 1; q 2; q 7]];
                    raw [[q 1; q 0; q 5]; [q 3; q 0; q 5]; [q 1; q 2; q 5]; [q 3; q 2; q 5]; [q 1; q 0; q 7]; [q 3; q 0; q 7]; [q 1; q 2; q 7]; [q 3; q 2; q 7]]]]
  | Err _ => False
  end.
Proof. vm_compute. repeat split; reflexivity. Qed.
Example unknown_side_example :
  ex_box ex_axes None GSimplex [[0; 1]; [2; 0]; [2; 1]] (Some [(TUser 0, ["-x"; "+z"])]%string) MNone = Err ValueError /\
  ex_box ex_axes None GSimplex [[0; 1]; [2; 0]; [2; 1]] (Some [(TUser 0, ["x"])]%string) MNone = Err ValueError.
Proof. split; vm_compute; reflexivity. Qed.

(** C85: the dictionary that is passed in is left alone.  False for a periodic box: entries for the periodic sides are added to it,
    and a box made with the same dictionary later has boundaries with these tags. *)
Definition ex_box_Z axes periodic dict :=
  generate_box_mesh Zocring 0%Z 1%Z (fun _ => 0) ex_order ex_ptag median_Z (fun _ => Err ValueError) 5 axes 1 periodic GTensor (facets_of 2 true) dict MNone.
Theorem C85_argument_unchanged_refuted :
  exists axes dict m dict' m2,
    ex_box_Z axes (Some [true; false]) (Some dict) = Ok (m, dict') /\
    dict = [] /\ dict' = [(ex_ptag false 0, ["-x"]); (ex_ptag true 0, ["+x"])]%string /\
    ex_box_Z axes None (Some dict') = Ok (m2, dict') /\
    exists fags a, m_facial m2 = Available fags /\ bdry_adj fags (ex_ptag false 0) a.
Proof.
  exists [[0; 1; 3]; [0; 2]]%Z, []. do 3 eexists. split; [vm_compute; reflexivity|]. split; [reflexivity|]. split; [reflexivity|]. split; [vm_compute; reflexivity|].
  eexists. exists (0, 0, 0). split; [reflexivity|]. eexists. split; [reflexivity|]. exists (Boundary 0 (TUser 10) [(0, 0)]). split; [|split; [reflexivity|now left]].
  cbn [In]. intuition.
Qed.
Print Assumptions C85_argument_unchanged_refuted.
