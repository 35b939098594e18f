(** Independent specification of setting image sizes and principal points from images. *)
From stdpp Require Import gmap strings.
From Verif Require Import Base Reconstruction_Model.

Section spec.
Context {F C D I : Type}.
Notation recon := (recon F C D).
(** [size_of n] is the size of the image with name [n]. *)
Context (size_of : string -> Z * Z) (with_size : Z * Z -> C -> C) (with_center : Z * Z -> I -> I).

(** [r'] is [r] with the image size of each view set to that of its image, and nothing else changed. *)
Definition sized (r r' : recon) : Prop :=
  r' = set_views r (rc_views r') /\
  forall u, rc_views r' !! u = (fun v => View (v_name v) (v_est v) (v_intr v) (with_size (size_of (v_name v)) (v_data v)) (v_feats v)) <$> rc_views r !! u.
(** Intrinsics objects that no view uses are as before; the others have the center of the image of one of their views. *)
Definition centered_for_one (r : recon) (h h' : gmap N I) : Prop := forall p,
  ((forall u v, rc_views r !! u = Some v -> v_intr v <> p) /\ h' !! p = h !! p) \/
  exists u v, rc_views r !! u = Some v /\ v_intr v = p /\ h' !! p = with_center (size_of (v_name v)) <$> h !! p.
(** The principal point of each view is the center of its image. *)
Definition centered_for_all (r : recon) (h h' : gmap N I) : Prop := forall u v, rc_views r !! u = Some v ->
  h' !! v_intr v = with_center (size_of (v_name v)) <$> h !! v_intr v.
End spec.
