(** * EqSpec: what equality of meshes should be. *)
From Coq Require Import List.
From Verif Require Import Np Lin MeshModel AffineModel EqModel.
Import ListNotations.

Section Spec.
  Context {R : cring}.

  (** Everything except face_id_dtype is the same *)
  Definition same_data (m m' : emesh R) : Prop :=
    em_class R m = em_class R m' /\ em_vertices R m = em_vertices R m' /\ em_groups R m = em_groups R m' /\ em_conforming R m = em_conforming R m' /\
    em_nodal R m = em_nodal R m' /\ em_facial R m = em_facial R m' /\ em_vdtype R m = em_vdtype R m' /\ em_edtype R m = em_edtype R m'.

  (** Facial adjacency groups are interior, boundary or inter-part groups *)
  Definition concrete (g : fagroup R) : Prop := match g with GFacial _ _ _ _ _ => False | _ => True end.
  Definition concrete_mesh (m : emesh R) : Prop :=
    match em_facial R m with LSome gs => Forall (Forall concrete) gs | _ => True end.

  (** The map of a group *)
  Definition group_map (g : fagroup R) : option (amap R) :=
    match g with
    | GInterior _ _ _ _ _ _ _ _ f | GInterPart _ _ _ _ _ _ _ _ _ f => Some f
    | _ => None
    end.
  (** The same components are present *)
  Definition same_components (f g : amap R) : Prop :=
    (am_matrix f = None <-> am_matrix g = None) /\ (am_offset f = None <-> am_offset g = None).
  Definition comparable (a b : fagroup R) : Prop :=
    forall f g, group_map a = Some f -> group_map b = Some g -> same_components f g.
  (** Groups at the same place have maps with the same components *)
  Definition comparable_meshes (m m' : emesh R) : Prop :=
    forall gs hs, em_facial R m = LSome gs -> em_facial R m' = LSome hs ->
    forall i j l l' a b, nth_error gs i = Some l -> nth_error hs i = Some l' -> nth_error l j = Some a -> nth_error l' j = Some b -> comparable a b.
End Spec.
