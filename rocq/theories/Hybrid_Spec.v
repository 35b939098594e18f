(** Independent specification of hybrid reconstruction. *)
From stdpp Require Import gmap.
From Coq Require Import Reals QArith_base Qcanon.
From Verif Require Import Base Reconstruction_Model ViewGraph_Model SfmQueries_Spec Priors_Model VisibilityPyramid_Spec BundleAdjust_Model Localize_Model Incremental_Model Hybrid_Model.

Section spec.
Context {F : Type}.
Notation recon := (recon F (list R) (list R)).
Implicit Types (r : recon) (g : view_graph two_view).

(** All pairs of the graph are pairs of views of the reconstruction. *)
Definition pairs_present g r : Prop := forall p, is_Some (vg_edges g !! p) -> is_Some (rc_views r !! p.1) /\ is_Some (rc_views r !! p.2).

(** The features, in units of the smallest cells of the visibility pyramid, fit in an int, for the image sizes in the
    priors of all views with the same intrinsics. *)
Definition all_features_fit (position : F -> Qc * Qc) (priors : N -> prior) r : Prop :=
  forall u v t f x c, rc_views r !! u = Some v -> v_feats v !! t = Some f -> rc_view_group r !! u = Some c -> rc_view_group r !! x = Some c ->
    representable 6 (p_width (priors x)) (this (position f).1) /\ representable 6 (p_height (priors x)) (this (position f).2).

(** The orientation of at least one view of the pair is known. *)
Definition some_orientation {A} (orientations : gmap N A) (p : N * N) : Prop := is_Some (orientations !! p.1) \/ is_Some (orientations !! p.2).

(** The angle of a pair: that between the viewing directions if both orientations are known, and zero otherwise. *)
Definition pair_angle {A} (angle : view F (list R) -> view F (list R) -> Z) (orientations : gmap N A) r (p : N * N) (a : Z) : Prop :=
  (is_Some (orientations !! p.1) /\ is_Some (orientations !! p.2) /\ exists v1 v2, rc_views r !! p.1 = Some v1 /\ rc_views r !! p.2 = Some v2 /\ a = angle v1 v2) \/
  (~ (is_Some (orientations !! p.1) /\ is_Some (orientations !! p.2)) /\ a = 0%Z).

(** The better of two candidates, given with angle, number of verified matches and ids: the larger angle, then more matches,
    then smaller ids. *)
Definition better_seed (x y : Z * Z * (N * N)) : Prop :=
  (y.1.1 < x.1.1)%Z \/ x.1.1 = y.1.1 /\ ((y.1.2 < x.1.2)%Z \/ x.1.2 = y.1.2 /\ ((x.2.1 < y.2.1)%N \/ x.2.1 = y.2.1 /\ (x.2.2 < y.2.2)%N)).

(** [r'] is [r] with the orientations set in the views that are not estimated; positions stay. *)
Definition oriented_views (orientations : gmap N (R * R * R)) r r' : Prop :=
  r' = set_views r (rc_views r') /\
  forall u, rc_views r' !! u =
    (fun v => match orientations !! u with
              | Some o => if v_est v then v else View (v_name v) false (v_intr v) (take 3 (v_data v) ++ [o.1.1; o.1.2; o.2]) (v_feats v)
              | None => v
              end) <$> rc_views r !! u.

(** The orientation of a view: the last three of the six numbers of its pose.  The one that view [u] starts with is that of
    the rotation estimation, if there is one and the view was not estimated before. *)
Definition orientation (v : view F (list R)) : list R := drop 3 (v_data v).
Definition first_orientation (orientations : gmap N (R * R * R)) (u : N) (v : view F (list R)) : list R :=
  match orientations !! u with
  | Some o => if v_est v then orientation v else [o.1.1; o.1.2; o.2]
  | None => orientation v
  end.
(** An orientation that was found by a localization that does not assume a known one. *)
Definition localized_orientation {P W} (E : nat -> env F P W) (o : list R) : Prop :=
  exists n th ms, (e_ok (e_calibrated (E n) th ms) = true /\ o = e_orientation (e_calibrated (E n) th ms)) \/
                  (e_ok (e_uncalibrated (E n) th ms) = true /\ o = e_orientation (e_uncalibrated (E n) th ms)).
End spec.
