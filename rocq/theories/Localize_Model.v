(** Model of /repo/src/theia/sfm/localize_view_to_reconstruction.{h,cc}, on top of the models of Reconstruction and of
    bundle adjustment (extrinsics of a view: position and angle-axis vector, 6 numbers; intrinsics objects in a heap).

    The robust pose estimators (EstimateAbsolutePoseWithKnownOrientation, EstimateCalibratedAbsolutePose,
    EstimateUncalibratedAbsolutePose) are arguments with the contract [pose_contract] of Localize_Spec; what RANSAC
    returns is the subject of the model Ransac.  They return whether they succeeded, the pose (the rotation as its
    angle-axis vector, camera.cc:242-246) and the indices of the inliers.  The normalization of features by the
    intrinsics and hnormalized() are arguments.  Of the RANSAC parameters only the threshold that is overwritten is
    modelled. *)
From stdpp Require Import gmap.
From Coq Require Import Reals.
From Verif Require Import Base Reconstruction_Model BundleAdjust_Model.

(** reconstruction_estimator_utils.cc:95-107. *)
Definition resolution_scaled_threshold (threshold : R) (width height : Z) : R :=
  if decide (width = 0 /\ height = 0)%Z then threshold
  else (threshold * IZR (Z.max width height) / 1024)%R.

(** localize_view_to_reconstruction.h:49-75. *)
Record localize_options := LocalizeOptions {
  lo_threshold : R; lo_known_orientation : bool; lo_bundle_adjust : bool; lo_ba : ba_options; lo_min_inliers : Z }.

(** The comparison of a size with min_num_inliers, an int that is converted to size_t. *)
Definition to_size (n : Z) : Z := (n mod 2 ^ 64)%Z.

(** camera.cc:234-250, SetPosition and SetOrientationFromAngleAxis on the six extrinsics. *)
Definition set_position (p d : list R) : list R := p ++ drop 3 d.
Definition set_orientation (o d : list R) : list R := take 3 d ++ o.

Section model.
Context {F P W : Type}.
Notation recon := (recon F (list R) (list R)).
Definition corr : Type := P * W.

Record estimate := Estimate { e_ok : bool; e_orientation : list R; e_position : list R; e_focal : R; e_inliers : list nat }.

Context (unproject center : intrinsics -> F -> P) (hnorm : list R -> W).
Context (with_orientation : R -> list R -> list corr -> estimate) (calibrated uncalibrated : R -> list corr -> estimate).

(** 54-75, DoesViewHaveKnownIntrinsics.  [priors] are the views whose focal length prior is set.  The loop body looks at
    the view itself, not at the view of the group. *)
Definition has_known_intrinsics (priors : gset N) (r : recon) (u : N) : outcome bool :=
  v ← or_ub (rc_views r !! u);
  if bool_decide (u ∈ priors) then Ok true
  else
    let g := default kInvalidId (rc_view_group r !! u) in
    Ok (existsb (fun w => v_est v && negb (bool_decide (u = w))) (elements (rc_groups r !!! g))).

(** 77-99 and 101-123, GetNormalized2D3DMatches and GetIntrinsicsNormalized2D3DMatches: they differ in [norm]. *)
Definition match_step (norm : intrinsics -> F -> P) (i : intrinsics) (r : recon) (v : view F (list R)) (acc : list corr) (t : N)
    : outcome (list corr) :=
  T ← or_ub (rc_tracks r !! t);
  if negb (t_est T) then Ok acc
  else
    f ← or_ub (v_feats v !! t);
    Ok (acc ++ [(norm i f, hnorm (t_data T))]).
Definition get_matches (ot : order N) (norm : intrinsics -> F -> P) (i : intrinsics) (r : recon) (v : view F (list R))
    : outcome (list corr) :=
  run_steps (match_step norm i r v) [] (ot (elements (dom (v_feats v)))).

(** Writes to the view and to the intrinsics object. *)
Definition set_view (r : recon) (u : N) (est : bool) (d : list R) : recon :=
  set_views r (alter (fun v => View (v_name v) est (v_intr v) d (v_feats v)) u (rc_views r)).
(** camera_intrinsics_model.cc:192-206, with parameter 0 the focal length in every model. *)
Definition set_focal (h : gmap N intrinsics) (p : N) (f : R) : outcome (gmap N intrinsics) :=
  if Rlt_dec 0 f then Ok (alter (fun i => Intrinsics (i_type i) (<[0%nat := f]> (i_params i))) p h) else CheckFail.

(** 125-217, EstimateCameraPose: success, the inliers ([inl] from before if they are not written), and the state. *)
Definition estimate_camera_pose (ot : order N) (known : bool) (opts : localize_options) (width height : Z)
    (r : recon) (h : gmap N intrinsics) (u : N) (inl : list nat) : outcome (bool * list nat * recon * gmap N intrinsics) :=
  v ← or_ub (rc_views r !! u);
  i ← or_ub (h !! v_intr v);
  matches ← get_matches ot (if known then unproject else center) i r v;
  if decide (Z.of_nat (length matches) < to_size (lo_min_inliers opts))%Z then Ok (false, inl, r, h)
  else
    let s := resolution_scaled_threshold (lo_threshold opts) width height in
    let f := default 0%R (i_params i !! 0%nat) in
    if lo_known_orientation opts then
      let e := with_orientation (s * s / (f * f))%R (drop 3 (v_data v)) matches in
      if e_ok e && bool_decide (to_size (lo_min_inliers opts) < Z.of_nat (length (e_inliers e)))%Z
      then Ok (true, e_inliers e, set_view r u (v_est v) (set_position (e_position e) (v_data v)), h)
      else Ok (false, e_inliers e, r, h)
    else if known then
      let e := calibrated (s * s / (f * f))%R matches in
      if e_ok e
      then Ok (true, e_inliers e, set_view r u (v_est v) (set_position (e_position e) (set_orientation (e_orientation e) (v_data v))), h)
      else Ok (false, e_inliers e, r, h)
    else
      let e := uncalibrated (s * s)%R matches in
      if e_ok e
      then
        h' ← set_focal h (v_intr v) (e_focal e);
        Ok (true, e_inliers e, set_view r u (v_est v) (set_position (e_position e) (set_orientation (e_orientation e) (v_data v))), h')
      else Ok (false, e_inliers e, r, h).

(** 221-258, LocalizeViewToReconstruction.  [inl] are the inliers in the summary before the call. *)
Definition localize (ot : order N) (os : nat -> N -> order N) (solve : list (residual (F:=F)) -> gmap block flags -> (block -> list R) -> solution)
    (priors : gset N) (opts : localize_options) (width height : Z) (r : recon) (h : gmap N intrinsics) (u : N) (inl : list nat)
    : outcome (bool * list nat * recon * gmap N intrinsics) :=
  known ← (if lo_known_orientation opts then Ok true else has_known_intrinsics priors r u);
  '(ok, inl, r, h) ← estimate_camera_pose ot known opts width height r h u inl;
  if negb ok || bool_decide (Z.of_nat (length inl) < to_size (lo_min_inliers opts))%Z then Ok (false, inl, r, h)
  else
    v ← or_ub (rc_views r !! u);
    let r := set_view r u true (v_data v) in
    if lo_bundle_adjust opts then
      '(r, h, sm) ← bundle_adjust_view os r h (lo_ba opts) solve u;
      Ok (sm_success sm, inl, r, h)
    else Ok (true, inl, r, h).
End model.
