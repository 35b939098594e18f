(** Independent specification of the localization of a view. *)
From stdpp Require Import gmap.
From Coq Require Import Reals.
From Verif Require Import Base Reconstruction_Model SfmQueries_Spec BundleAdjust_Model BundleAdjust_Spec Localize_Model.

Section spec.
Context {F P W : Type}.
Notation recon := (recon F (list R) (list R)).

(** The error of a correspondence for a pose: of a feature normalized by the intrinsics, and of a centered pixel with a
    focal length. *)
Definition pose_error : Type := list R -> list R -> P * W -> R.
Definition focal_error : Type := R -> list R -> list R -> P * W -> R.

(** The contract of a robust estimator: what it returns as inliers are different correspondences with an error below
    the threshold; poses are vectors of length 3, focal lengths are positive. *)
Definition inliers_of (err : P * W -> R) (thresh : R) (ms : list (P * W)) (l : list nat) : Prop :=
  NoDup l /\ forall i, i ∈ l -> exists m, ms !! i = Some m /\ (err m < thresh)%R.
Definition pose_contract (err : pose_error) (ferr : focal_error) (with_orientation : R -> list R -> list (P * W) -> estimate)
    (calibrated uncalibrated : R -> list (P * W) -> estimate) : Prop :=
  (forall th o ms, let e := with_orientation th o ms in e_ok e = true ->
     length (e_position e) = 3%nat /\ inliers_of (err o (e_position e)) th ms (e_inliers e)) /\
  (forall th ms, let e := calibrated th ms in e_ok e = true ->
     length (e_position e) = 3%nat /\ length (e_orientation e) = 3%nat /\ inliers_of (err (e_orientation e) (e_position e)) th ms (e_inliers e)) /\
  (forall th ms, let e := uncalibrated th ms in e_ok e = true ->
     (0 < e_focal e)%R /\ length (e_position e) = 3%nat /\ length (e_orientation e) = 3%nat /\
     inliers_of (ferr (e_focal e) (e_orientation e) (e_position e)) th ms (e_inliers e)).

(** The intrinsics of a view are known: there is a prior for the focal length, or another view with the same
    intrinsics has been estimated. *)
Definition intrinsics_known (priors : gset N) (r : recon) (u : N) : Prop :=
  u ∈ priors \/ exists w g, w <> u /\ rc_view_group r !! u = Some g /\ rc_view_group r !! w = Some g /\ est_view r w.

(** What is tested instead of the second condition: the view itself has been estimated before and shares its intrinsics. *)
Definition treated_as_known (priors : gset N) (r : recon) (u : N) : Prop :=
  u ∈ priors \/ est_view r u /\ exists w g, w <> u /\ rc_view_group r !! u = Some g /\ rc_view_group r !! w = Some g.

(** [r'] is [r] with another pose and estimated flag of view [u]. *)
Definition posed (r r' : recon) (u : N) (est : bool) (d : list R) : Prop :=
  r' = set_views r (rc_views r') /\ (forall w, w <> u -> rc_views r' !! w = rc_views r !! w) /\
  forall v, rc_views r !! u = Some v -> rc_views r' !! u = Some (View (v_name v) est (v_intr v) d (v_feats v)).

(** At least [n] different estimated tracks in view [u] are seen with an error below the threshold. *)
Definition supported (r : recon) (u : N) (n : nat) (err : F -> list R -> R) (thresh : R) : Prop :=
  exists ts : list N, NoDup ts /\ (n <= length ts)%nat /\
    forall t, t ∈ ts -> exists v T f, rc_views r !! u = Some v /\ v_feats v !! t = Some f /\ rc_tracks r !! t = Some T /\
      t_est T = true /\ (err f (t_data T) < thresh)%R.

(** A pose (position [p], angle-axis [o]) found for view [u] with intrinsics [i] and at least [n] inliers; [h1] are the
    intrinsics afterwards.  With a known orientation it is kept; with unknown intrinsics the focal length is set. *)
Definition pose_found (unproject center : intrinsics -> F -> P) (hnorm : list R -> W) (err : pose_error) (ferr : focal_error)
    (opts : localize_options) (known : bool) (s : R) (r : recon) (h : gmap N intrinsics) (u : N) (n : nat)
    (p o : list R) (h1 : gmap N intrinsics) : Prop :=
  exists v i, rc_views r !! u = Some v /\ h !! v_intr v = Some i /\ length p = 3%nat /\ length o = 3%nat /\
    let f := default 0%R (i_params i !! 0%nat) in
    let calibrated_support := supported r u n (fun x X => err o p (unproject i x, hnorm X)) (s * s / (f * f)) in
    if lo_known_orientation opts then o = drop 3 (v_data v) /\ h1 = h /\ calibrated_support
    else if known then h1 = h /\ calibrated_support
    else exists fl, (0 < fl)%R /\ h1 = <[v_intr v := Intrinsics (i_type i) (<[0%nat := fl]> (i_params i))]> h /\
           supported r u n (fun x X => ferr fl o p (center i x, hnorm X)) (s * s).

(** The six extrinsics of a view. *)
Definition six (r : recon) : Prop := forall u v, rc_views r !! u = Some v -> length (v_data v) = 6%nat.
End spec.
