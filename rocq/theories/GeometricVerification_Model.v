(** Model of the geometric verification of the matches between two views: EstimateTwoViewInfo
    (/repo/src/theia/sfm/estimate_twoview_info.cc) and TwoViewMatchGeometricVerification
    (/repo/src/theia/sfm/two_view_match_geometric_verification.{h,cc}).

    Pixel coordinates are rationals, as in the model of the visibility pyramid; camera parameters, poses and the error
    thresholds of the estimators are reals; squared reprojection errors and the components of rays are rationals in
    canonical form, as in the model of the track estimator.  The descriptors and the distances of the matches are not
    modelled.  The cameras do not share intrinsics, so these are a part of the camera here. *)
From stdpp Require Import gmap strings.
From Coq Require Import Reals QArith_base Qcanon.
From Verif Require Import Base Reconstruction_Model BundleAdjust_Model SfmQueries_Model Priors_Model Localize_Model
  VisibilityPyramid_Model.

(** A keypoint, (x(), y()). *)
Notation pixel := (Q * Q)%type.

(** camera.h: the data members of a Camera, with its own intrinsics; the extrinsics are the position and the angle axis. *)
Record two_view_camera := TwoViewCamera { tc_ext : list R; tc_intr : intrinsics; tc_size : Z * Z }.

(** camera.cc:58-66, the constructor. *)
Definition new_camera : two_view_camera := TwoViewCamera [0; 0; 0; 0; 0; 0]%R (create Pinhole) (0, 0)%Z.

(** camera.cc:120-131, SetFromCameraIntrinsicsPriors. *)
Definition camera_from_prior (p : prior) (c : two_view_camera) : outcome two_view_camera :=
  ty ← type_of_string (p_model p);
  let i := if decide (i_type (tc_intr c) = ty) then tc_intr c else create ty in
  ps ← set_from_prior (i_type i) p (i_params i);
  Ok (TwoViewCamera (tc_ext c) (Intrinsics (i_type i) ps) (p_width p, p_height p)).

(** camera.cc:264-266. *)
Definition camera_set_focal (f : R) (c : two_view_camera) : outcome two_view_camera :=
  ps ← set_focal_length f (i_params (tc_intr c));
  Ok (TwoViewCamera (tc_ext c) (Intrinsics (i_type (tc_intr c)) ps) (tc_size c)).
Definition camera_focal (c : two_view_camera) : R := default 0%R (i_params (tc_intr c) !! 0%nat).

(** twoview_info.h:54-86. *)
Record two_view_info := TwoViewInfo {
  ti_focal1 : R; ti_focal2 : R; ti_position : list R; ti_rotation : list R;
  ti_verified : Z; ti_homography : Z; ti_visibility : Z }.

(** two_view_match_geometric_verification.h:54-93 and estimate_twoview_info.h:51-73, the options that are modelled; the
    smallest triangulation angle is given by its cosine. *)
Record verify_options := VerifyOptions {
  vo_sampson : R; vo_min_matches : Z; vo_guided : bool; vo_adjust : bool; vo_triangulation : Qc; vo_cos_angle : Qc; vo_final : Qc }.

Section model.
Context {X P : Type}.

(** The geometry: PixelToNormalizedCoordinates and hnormalized of a keypoint (camera.cc:225-228), the normalized ray
    (PixelToUnitDepthRay), TriangulateMidpoint with the positions of the two cameras, and ProjectPoint: the squared
    distance to the keypoint, or nothing for a negative depth. *)
Record geometry := Geometry {
  y_normalized : intrinsics -> pixel -> X;
  y_ray : two_view_camera -> pixel -> Qc * Qc * Qc;
  y_midpoint : two_view_camera -> two_view_camera -> pixel -> pixel -> option P;
  y_error : two_view_camera -> pixel -> P -> option Qc }.

(** The results of EstimateRelativePose and EstimateUncalibratedRelativePose, with the rotation as angle axis. *)
Record relative := Relative { l_rotation : list R; l_position : list R; l_focal1 : R; l_focal2 : R; l_inliers : list nat }.

(** The estimators, for the error threshold: EstimateRelativePose, EstimateUncalibratedRelativePose, the inliers of
    EstimateHomography, BundleAdjustTwoViews (constant intrinsics of the two cameras), and GetMatches of the guided matcher. *)
Record solvers := Solvers {
  z_relative : R -> list (X * X) -> option relative;
  z_uncalibrated : R -> list (X * X) -> option relative;
  z_homography : R -> list (pixel * pixel) -> list nat;
  z_adjust : bool -> bool -> list (pixel * pixel) -> two_view_camera -> two_view_camera -> list P
             -> two_view_camera * two_view_camera * list P * bool;
  z_guided : two_view_camera -> two_view_camera -> list (nat * nat) -> outcome (list (nat * nat)) }.

Context (y : geometry) (z : solvers).

(** estimate_twoview_info.cc:67-100, NormalizeFeatures. *)
Definition normalize_features (p1 p2 : prior) (cs : list (pixel * pixel)) : outcome (list (X * X)) :=
  c1 ← camera_from_prior p1 new_camera;
  c2 ← camera_from_prior p2 new_camera;
  c1 ← (if bool_decide (p_focal p1 = None \/ p_focal p2 = None) then camera_set_focal 1 c1 else Ok c1);
  c2 ← (if bool_decide (p_focal p1 = None \/ p_focal p2 = None) then camera_set_focal 1 c2 else Ok c2);
  Ok ((fun c => (y_normalized y (tc_intr c1) c.1, y_normalized y (tc_intr c2) c.2)) <$> cs).

(** 103-129, ComputeVisibilityScoreOfInliers. *)
Definition add_inlier (cs : list (pixel * pixel)) (pp : pyramid * pyramid) (i : nat) : outcome (pyramid * pyramid) :=
  c ← or_ub (cs !! i);
  a ← vp_add pp.1 c.1;
  b ← vp_add pp.2 c.2;
  Ok (a, b).
Definition visibility_score (p1 p2 : prior) (cs : list (pixel * pixel)) (inliers : list nat) : outcome Z :=
  if bool_decide (p_width p1 = 0 \/ p_height p1 = 0 \/ p_width p2 = 0 \/ p_height p2 = 0)%Z
  then Ok (Z.of_nat (length inliers))
  else
    a ← vp_new (p_width p1) (p_height p1) 6;
    b ← vp_new (p_width p2) (p_height p2) 6;
    pp ← run_steps (add_inlier cs) (a, b) inliers;
    s1 ← vp_score pp.1;
    s2 ← vp_score pp.2;
    Ok (s1 + s2)%Z.

(** 131-189, EstimateTwoViewInfoCalibrated, and 191-248, EstimateTwoViewInfoUncalibrated, from the result [r] of the
    estimator on: [inliers] is the caller's vector, which is assigned after the score has been computed from it. *)
Definition set_info (p1 p2 : prior) (cs : list (pixel * pixel)) (f1 f2 : R) (r : relative) (info : two_view_info)
    (inliers : list nat) : outcome (bool * two_view_info * list nat) :=
  score ← visibility_score p1 p2 cs inliers;
  Ok (true,
      TwoViewInfo f1 f2 (l_position r) (l_rotation r) (Z.of_nat (length (l_inliers r))) (ti_homography info) score,
      l_inliers r).

(** 152-162 and 212-221. *)
Definition estimate_calibrated (opts : verify_options) (p1 p2 : prior) (f1 f2 : R) (cs : list (pixel * pixel))
    (info : two_view_info) (inliers : list nat) : outcome (bool * two_view_info * list nat) :=
  ns ← normalize_features p1 p2 cs;
  let t1 := resolution_scaled_threshold (vo_sampson opts) (p_width p1) (p_height p1) in
  let t2 := resolution_scaled_threshold (vo_sampson opts) (p_width p2) (p_height p2) in
  match z_relative z (t1 * t2 / (f1 * f2))%R ns with
  | None => Ok (false, info, inliers)
  | Some r => set_info p1 p2 cs f1 f2 r info inliers
  end.
Definition estimate_uncalibrated (opts : verify_options) (p1 p2 : prior) (cs : list (pixel * pixel))
    (info : two_view_info) (inliers : list nat) : outcome (bool * two_view_info * list nat) :=
  ns ← normalize_features p1 p2 cs;
  let t1 := resolution_scaled_threshold (vo_sampson opts) (p_width p1) (p_height p1) in
  let t2 := resolution_scaled_threshold (vo_sampson opts) (p_width p2) (p_height p2) in
  match z_uncalibrated z (t1 * t2)%R ns with
  | None => Ok (false, info, inliers)
  | Some r => set_info p1 p2 cs (l_focal1 r) (l_focal2 r) r info inliers
  end.

(** 252-292, EstimateTwoViewInfo: clears the vector of inliers first. *)
Definition estimate_two_view_info (opts : verify_options) (p1 p2 : prior) (cs : list (pixel * pixel)) (info : two_view_info)
    : outcome (bool * two_view_info * list nat) :=
  match p_focal p1, p_focal p2 with
  | Some f1, Some f2 => estimate_calibrated opts p1 p2 f1 f2 cs info []
  | _, _ => estimate_uncalibrated opts p1 p2 cs info []
  end.

(** two_view_match_geometric_verification.cc:56-68, SetupCameras. *)
Definition setup_cameras (p1 p2 : prior) (info : two_view_info) (c1 c2 : two_view_camera)
    : outcome (two_view_camera * two_view_camera) :=
  c1 ← camera_from_prior p1 c1;
  c1 ← camera_set_focal (ti_focal1 info) c1;
  let c2 := TwoViewCamera (ti_position info ++ ti_rotation info) (tc_intr c2) (tc_size c2) in
  c2 ← camera_from_prior p2 c2;
  c2 ← camera_set_focal (ti_focal2 info) c2;
  Ok (c1, c2).

(** 72-83, AcceptableReprojectionError. *)
Definition acceptable (c : two_view_camera) (x : pixel) (p : P) (sq_max : Qc) : bool :=
  match y_error y c x p with None => false | Some e => bool_decide (e < sq_max)%Qc end.

(** 101-111, CreateCorrespondencesFromIndexedMatches: an index that is not that of a keypoint is undefined. *)
Definition correspondence (ks1 ks2 : list pixel) (m : nat * nat) : outcome (pixel * pixel) :=
  k1 ← or_ub (ks1 !! m.1);
  k2 ← or_ub (ks2 !! m.2);
  Ok (k1, k2).
Fixpoint correspondences (ks1 ks2 : list pixel) (ms : list (nat * nat)) : outcome (list (pixel * pixel)) :=
  match ms with
  | [] => Ok []
  | m :: ms => c ← correspondence ks1 ks2 m; cs ← correspondences ks1 ks2 ms; Ok (c :: cs)
  end.

(** two_view_match_geometric_verification.h:128-135, the data members that change. *)
Record verifier := Verifier { vf_camera1 : two_view_camera; vf_camera2 : two_view_camera; vf_matches : list (nat * nat) }.

(** 328-363, CountHomographyInliers. *)
Definition count_homography (opts : verify_options) (ks1 ks2 : list pixel) (v : verifier) : outcome Z :=
  let t1 := resolution_scaled_threshold (vo_sampson opts) (tc_size (vf_camera1 v)).1 (tc_size (vf_camera1 v)).2 in
  let t2 := resolution_scaled_threshold (vo_sampson opts) (tc_size (vf_camera2 v)).1 (tc_size (vf_camera2 v)).2 in
  cs ← correspondences ks1 ks2 (vf_matches v);
  Ok (Z.of_nat (length (z_homography z (t1 * t2)%R cs))).

(** 185-254, TriangulatePoints: the matches that are kept and their points. *)
Fixpoint triangulate_points (opts : verify_options) (ks1 ks2 : list pixel) (c1 c2 : two_view_camera) (ms : list (nat * nat))
    : outcome (list (nat * nat) * list P) :=
  match ms with
  | [] => Ok ([], [])
  | m :: ms =>
      c ← correspondence ks1 ks2 m;
      rest ← triangulate_points opts ks1 ks2 c1 c2 ms;
      let sq_max := (vo_triangulation opts * vo_triangulation opts)%Qc in
      if sufficient_angle (vo_cos_angle opts) [y_ray y c1 c.1; y_ray y c2 c.2] then
        match y_midpoint y c1 c2 c.1 c.2 with
        | None => Ok rest
        | Some p =>
            if negb (acceptable c1 c.1 p sq_max) || negb (acceptable c2 c.2 p sq_max) then Ok rest
            else Ok (m :: rest.1, p :: rest.2)
        end
      else Ok rest
  end.

(** 295-314: the matches that are kept after the adjustment. *)
Fixpoint inliers_after (opts : verify_options) (c1 c2 : two_view_camera) (cs : list (pixel * pixel)) (ms : list (nat * nat))
    (ps : list P) : outcome (list (nat * nat)) :=
  match cs with
  | [] => Ok []
  | c :: cs =>
      m ← or_ub (head ms);
      p ← or_ub (head ps);
      rest ← inliers_after opts c1 c2 cs (tail ms) (tail ps);
      let sq_max := (vo_final opts * vo_final opts)%Qc in
      Ok (if acceptable c1 c.1 p sq_max && acceptable c2 c.2 p sq_max then m :: rest else rest)
  end.

(** Eigen's normalize() (a vector of norm 0 is left alone). *)
Definition normalize (v : list R) : list R :=
  let n := sqrt (foldr (fun a s => (a * a + s)%R) 0%R v) in
  if Rlt_dec 0 n then (fun a => (a / n)%R) <$> v else v.

(** two_view_match_geometric_verification.cc:256-324, BundleAdjustRelativePose. *)
Definition adjust_relative_pose (opts : verify_options) (p1 p2 : prior) (ks1 ks2 : list pixel) (v : verifier) (info : two_view_info)
    : outcome (bool * two_view_info * verifier) :=
  tri ← triangulate_points opts ks1 ks2 (vf_camera1 v) (vf_camera2 v) (vf_matches v);
  let v := Verifier (vf_camera1 v) (vf_camera2 v) tri.1 in
  if decide (Z.of_nat (length tri.1) < to_size (vo_min_matches opts))%Z then Ok (false, info, v)
  else
    cs ← correspondences ks1 ks2 tri.1;
    let '(c1, c2, ps, success) :=
      z_adjust z (bool_decide (p_focal p1 <> None)) (bool_decide (p_focal p2 <> None)) cs (vf_camera1 v) (vf_camera2 v) tri.2 in
    if negb success then Ok (false, info, Verifier c1 c2 tri.1)
    else
      ms ← inliers_after opts c1 c2 cs tri.1 ps;
      Ok (true,
          TwoViewInfo (camera_focal c1) (camera_focal c2) (normalize (take 3 (tc_ext c2))) (drop 3 (tc_ext c2))
            (ti_verified info) (ti_homography info) (ti_visibility info),
          Verifier c1 c2 ms).

(** 144-150: the matches at the indices of the inliers. *)
Fixpoint select_matches (ms : list (nat * nat)) (inliers : list nat) : outcome (list (nat * nat)) :=
  match inliers with
  | [] => Ok []
  | i :: inliers => m ← or_ub (ms !! i); rest ← select_matches ms inliers; Ok (m :: rest)
  end.

(** 156-182, from guided matching on. *)
Definition finish (opts : verify_options) (p1 p2 : prior) (ks1 ks2 : list pixel) (v : verifier) (info : two_view_info)
    (out : list (pixel * pixel)) : outcome (bool * list (pixel * pixel) * two_view_info * verifier) :=
  ms ← (if vo_guided opts then z_guided z (vf_camera1 v) (vf_camera2 v) (vf_matches v) else Ok (vf_matches v));
  let v := Verifier (vf_camera1 v) (vf_camera2 v) ms in
  '(ok, info, v) ← (if vo_adjust opts && bool_decide (to_size (vo_min_matches opts) < Z.of_nat (length ms))%Z
                    then adjust_relative_pose opts p1 p2 ks1 ks2 v info else Ok (true, info, v));
  if ok : bool then
    out ← correspondences ks1 ks2 (vf_matches v);
    Ok (bool_decide (to_size (vo_min_matches opts) < Z.of_nat (length out))%Z, out,
        TwoViewInfo (ti_focal1 info) (ti_focal2 info) (ti_position info) (ti_rotation info)
          (Z.of_nat (length out)) (ti_homography info) (ti_visibility info), v)
  else Ok (false, out, info, v).

(** 113-182, VerifyMatches.  [out] and [info] are the caller's objects. *)
Definition verify_matches (opts : verify_options) (p1 p2 : prior) (ks1 ks2 : list pixel) (v : verifier)
    (out : list (pixel * pixel)) (info : two_view_info) : outcome (bool * list (pixel * pixel) * two_view_info * verifier) :=
  if decide (Z.of_nat (length (vf_matches v)) < to_size (vo_min_matches opts))%Z then Ok (false, out, info, v)
  else
    cs ← correspondences ks1 ks2 (vf_matches v);
    n ← count_homography opts ks1 ks2 v;
    let info := TwoViewInfo (ti_focal1 info) (ti_focal2 info) (ti_position info) (ti_rotation info)
                  (ti_verified info) n (ti_visibility info) in
    '(ok, info, inliers) ← estimate_two_view_info opts p1 p2 cs info;
    if (ok : bool) && bool_decide (to_size (vo_min_matches opts) <= Z.of_nat (length inliers))%Z then
      ms ← select_matches (vf_matches v) inliers;
      '(c1, c2) ← setup_cameras p1 p2 info (vf_camera1 v) (vf_camera2 v);
      finish opts p1 p2 ks1 ks2 (Verifier c1 c2 ms) info out
    else Ok (false, out, info, v).

(** 87-99, the constructor. *)
Definition new_verifier (ms : list (nat * nat)) : verifier := Verifier new_camera new_camera ms.
End model.
Arguments geometry : clear implicits.
Arguments solvers : clear implicits.
