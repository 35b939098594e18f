(** Independent specification of incremental reconstruction. *)
From stdpp Require Import gmap.
From Coq Require Import Reals QArith_base Qcanon.
From Verif Require Import Base Reconstruction_Model ViewGraph_Model SfmQueries_Spec TrackEstimator_Model BundleAdjust_Model BundleAdjust_Spec
  Localize_Model Localize_Spec Priors_Model Priors_Spec VisibilityPyramid_Spec Incremental_Model.

Section spec.
Context {F P W : Type}.
Notation recon := (recon F (list R) (list R)).
Implicit Types (r : recon) (g : view_graph two_view).

(** [r'] has the same views, features, tracks and groups as [r]; only poses, points, estimated flags and intrinsics of
    views may differ. *)
Definition same_observations r r' : Prop :=
  rc_next_track r' = rc_next_track r /\ rc_next_view r' = rc_next_view r /\ rc_next_group r' = rc_next_group r /\
  rc_names r' = rc_names r /\ rc_view_group r' = rc_view_group r /\ rc_groups r' = rc_groups r /\
  (forall u, option_Forall2 (fun v v' => v_name v' = v_name v /\ v_feats v' = v_feats v) (rc_views r !! u) (rc_views r' !! u)) /\
  (forall t, option_Forall2 (fun T T' => t_views T' = t_views T) (rc_tracks r !! t) (rc_tracks r' !! t)).

(** The input of the estimator: a reconstruction as its interface makes it (C08, C12), with extrinsics of length six and
    intrinsics objects for the views, and usable priors. *)
Definition input_ok r (h : gmap N intrinsics) (priors : N -> prior) : Prop :=
  consistent r /\ grouped r /\ allocated r h /\ sized h /\ created r h /\ six r /\
  (Z.of_nat (size (dom (rc_tracks r))) < 2 ^ 31)%Z /\ forall u, is_Some (rc_views r !! u) -> usable (priors u).

(** Pairs of the graph with more than [n] verified matches are pairs of views of the reconstruction. *)
Definition pairs_exist g r (n : Z) : Prop :=
  forall p i, vg_edges g !! p = Some i -> (n < tv_verified i)%Z -> is_Some (rc_views r !! p.1) /\ is_Some (rc_views r !! p.2).

(** The environment keeps the contracts of the robust estimators and of the nonlinear solver. *)
Definition environment_ok (E : nat -> env F P W) : Prop :=
  exists err ferr cerr, forall n, pose_contract err ferr (e_with_orientation (E n)) (e_calibrated (E n)) (e_uncalibrated (E n)) /\
    ceres_contract cerr (e_solve (E n)).

(** Options that exclude a division by zero in the triangulation and in the selection of tracks; [grid] is the cell size
    that the selection has remembered from an earlier call. *)
Definition options_ok (opts : inc_options) (grid : option Z) : Prop :=
  (1 <= io_min_inliers opts < 2 ^ 31)%Z /\ (1 <= eo_threads (io_triangulation opts))%Z /\ (1 <= eo_step (io_triangulation opts))%Z /\
  (io_subsample opts = true -> default (io_cell_size opts) grid <> 0%Z /\ io_cell_size opts <> 0%Z).

(** The features of the views of the graph, in units of the smallest cells of the visibility pyramid, fit in an int. *)
Definition features_ok (position : F -> Qc * Qc) (size : N -> Z * Z) g r : Prop :=
  forall u v t f, u ∈ vg_view_ids g -> rc_views r !! u = Some v -> v_feats v !! t = Some f ->
    representable 6 (size u).1 (this (position f).1) /\ representable 6 (size u).2 (this (position f).2).

(** The same for the image sizes in the priors of all views with the same intrinsics. *)
Definition features_fit (position : F -> Qc * Qc) (priors : N -> prior) g r : Prop :=
  forall u v t f x c, u ∈ vg_view_ids g -> rc_views r !! u = Some v -> v_feats v !! t = Some f ->
    rc_view_group r !! u = Some c -> rc_view_group r !! x = Some c ->
    representable 6 (p_width (priors x)) (this (position f).1) /\ representable 6 (p_height (priors x)) (this (position f).2).

(** The candidates for the initial pair, best first: fewer inliers of a homography, then more verified matches, then
    smaller view ids. *)
Definition better_pair (i j : N * N * two_view) : Prop :=
  (tv_homography i.2 < tv_homography j.2)%Z \/ tv_homography i.2 = tv_homography j.2 /\
  ((tv_verified j.2 < tv_verified i.2)%Z \/ tv_verified i.2 = tv_verified j.2 /\
   ((i.1.1 < j.1.1)%N \/ i.1.1 = j.1.1 /\ (i.1.2 < j.1.2)%N)).

(** The points in view [u] of the tracks that are estimated, as a list in some order. *)
Definition estimated_points (position : F -> Qc * Qc) r (u : N) (l : list (Q * Q)) : Prop :=
  exists v ts, rc_views r !! u = Some v /\ NoDup ts /\ (forall t, t ∈ ts <-> is_Some (v_feats v !! t) /\ est_track r t) /\
    l = omap (fun t => (fun f => (this (position f).1, this (position f).2)) <$> v_feats v !! t) ts.

(** Pose of a view: position and angle-axis vector. *)
Definition pose_is r (u : N) (d : list R) : Prop := exists v, rc_views r !! u = Some v /\ v_data v = d.
Definition identity_pose : list R := [0; 0; 0; 0; 0; 0]%R.
End spec.

Section underconstrained.
Context {F : Type}.
Notation recon := (recon F (list R) (list R)).
Implicit Types r : recon.
(** [r'] is [r] with the estimated flags of the views [us] and of the tracks [ts] cleared. *)
Definition flags_cleared r r' (us ts : gset N) : Prop :=
  r' = set_tracks (set_views r (rc_views r')) (rc_tracks r') /\
  (forall u, rc_views r' !! u = (fun v => View (v_name v) (if decide (u ∈ us) then false else v_est v) (v_intr v) (v_data v) (v_feats v)) <$> rc_views r !! u) /\
  (forall t, rc_tracks r' !! t = (fun T => Track (if decide (t ∈ ts) then false else t_est T) (t_data T) (t_views T)) <$> rc_tracks r !! t).

(** A well constrained part of the scene: each of the views sees at least three of the tracks and each of the tracks is
    seen by at least two of the views, and all are estimated. *)
Definition well_constrained r (us ts : gset N) : Prop :=
  (forall u, u ∈ us -> est_view r u /\ exists X : gset N, (3 <= size X)%nat /\ forall t, t ∈ X -> t ∈ ts /\ sees r u t) /\
  (forall t, t ∈ ts -> est_track r t /\ exists X : gset N, (2 <= size X)%nat /\ forall u, u ∈ X -> u ∈ us /\ sees r u t).
End underconstrained.
