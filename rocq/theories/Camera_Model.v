(** Model of the camera geometry: /repo/src/theia/sfm/camera/camera.cc (poses, projection, rays),
    the five lens models /repo/src/theia/sfm/camera/{pinhole,pinhole_radial_tangential,fisheye,fov,
    division_undistortion}_camera_model.h, /repo/src/theia/sfm/camera/projection_matrix_utils.cc,
    /repo/src/theia/math/matrix/rq_decomposition.h and
    /repo/src/theia/sfm/transformation/transform_reconstruction.cc.

    Simplification: doubles are modelled by real numbers (no rounding).  A division by zero, which
    yields an infinity or a NaN in the code, is a total division here; every theorem that depends on
    a quotient excludes a zero denominator.  Decimal constants stand for themselves.

    ceres and Eigen are not part of /repo.  Their conversion of an angle-axis vector into a rotation
    is modelled by Rodrigues' formula (ceres switches to a first-order expansion below an angle of
    about 1.5e-8; the model does not), the inverse conversion by any function that inverts it on
    rotations ([aa_conv] below), and Eigen's Householder QR by its contract ([qr_contract]). *)
From stdpp Require Import gmap.
From Coq Require Import Reals.
From Verif Require Import Base Reconstruction_Model.
Local Open Scope R_scope.

(** * Vectors and matrices (Eigen::Vector2d, Vector3d, Vector4d, Matrix3d) *)
Record vec2 := V2 { x2 : R; y2 : R }.
Record vec3 := V3 { x3 : R; y3 : R; z3 : R }.
Record vec4 := V4 { x4 : R; y4 : R; z4 : R; w4 : R }.
(** A matrix is given by its rows. *)
Record mat3 := M3 { row0 : vec3; row1 : vec3; row2 : vec3 }.

Definition vadd (a b : vec3) : vec3 := V3 (x3 a + x3 b) (y3 a + y3 b) (z3 a + z3 b).
Definition vsub (a b : vec3) : vec3 := V3 (x3 a - x3 b) (y3 a - y3 b) (z3 a - z3 b).
Definition vscale (k : R) (a : vec3) : vec3 := V3 (k * x3 a) (k * y3 a) (k * z3 a).
Definition vopp (a : vec3) : vec3 := V3 (- x3 a) (- y3 a) (- z3 a).
Definition dot (a b : vec3) : R := x3 a * x3 b + y3 a * y3 b + z3 a * z3 b.
Definition norm3 (a : vec3) : R := sqrt (dot a a).

Definition mapply (M : mat3) (v : vec3) : vec3 := V3 (dot (row0 M) v) (dot (row1 M) v) (dot (row2 M) v).
Definition mtrans (M : mat3) : mat3 :=
  M3 (V3 (x3 (row0 M)) (x3 (row1 M)) (x3 (row2 M)))
     (V3 (y3 (row0 M)) (y3 (row1 M)) (y3 (row2 M)))
     (V3 (z3 (row0 M)) (z3 (row1 M)) (z3 (row2 M))).
Definition mmul (A B : mat3) : mat3 :=
  M3 (mapply (mtrans B) (row0 A)) (mapply (mtrans B) (row1 A)) (mapply (mtrans B) (row2 A)).
Definition mscale (k : R) (A : mat3) : mat3 :=
  M3 (vscale k (row0 A)) (vscale k (row1 A)) (vscale k (row2 A)).
Definition mid : mat3 := M3 (V3 1 0 0) (V3 0 1 0) (V3 0 0 1).
Definition det3 (M : mat3) : R :=
  let '(M3 (V3 a b c) (V3 d e f) (V3 g h i)) := M in
  a * (e * i - f * h) - b * (d * i - f * g) + c * (d * h - e * g).

(** Proper rotations. *)
Definition rotation (M : mat3) : Prop := mmul M (mtrans M) = mid /\ det3 M = 1.

(** * Orientations *)

(** ceres::AngleAxisToRotationMatrix, used at camera.cc:252-258, and
    Eigen::AngleAxisd(...).toRotationMatrix(), used at projection_matrix_utils.cc:125-131. *)
Definition rot_of_aa (w : vec3) : mat3 :=
  let th := norm3 w in
  if Req_EM_T th 0 then mid
  else
    let n := vscale (/ th) w in
    let c := cos th in let s := sin th in
    M3 (V3 (c + x3 n * x3 n * (1 - c)) (x3 n * y3 n * (1 - c) - z3 n * s)
           (y3 n * s + x3 n * z3 n * (1 - c)))
       (V3 (z3 n * s + x3 n * y3 n * (1 - c)) (c + y3 n * y3 n * (1 - c))
           (- x3 n * s + y3 n * z3 n * (1 - c)))
       (V3 (- y3 n * s + x3 n * z3 n * (1 - c)) (x3 n * s + y3 n * z3 n * (1 - c))
           (c + z3 n * z3 n * (1 - c))).

Definition cross (a b : vec3) : vec3 :=
  V3 (y3 a * z3 b - z3 a * y3 b) (z3 a * x3 b - x3 a * z3 b) (x3 a * y3 b - y3 a * x3 b).

(** ceres::AngleAxisRotatePoint, used at camera.cc:207-209. *)
Definition aa_rotate (w p : vec3) : vec3 :=
  let th := norm3 w in
  if Req_EM_T th 0 then p
  else
    let n := vscale (/ th) w in
    let c := cos th in let s := sin th in
    vadd (vadd (vscale c p) (vscale s (cross n p))) (vscale ((dot n p) * (1 - c)) n).

(** ceres::RotationMatrixToAngleAxis (camera.cc:242-246) and Eigen's AngleAxisd(matrix)
    (projection_matrix_utils.cc:115-116): any function that finds an angle-axis vector of every
    rotation. *)
Definition aa_conv (f : mat3 -> vec3) : Prop := forall M, rotation M -> rot_of_aa (f M) = M.

(** * Lens models *)

(** Parameters: pinhole_camera_model.h:86-94 (and the same block of the other headers). *)
Inductive intrinsics :=
  | Pinhole (f ar skew px py k1 k2 : R)
  | RadialTangential (f ar skew px py k1 k2 k3 t1 t2 : R)
  | Fisheye (f ar skew px py k1 k2 k3 k4 : R)
  | Fov (f ar px py omega : R)
  | Division (f ar px py k : R).

Definition rsq (p : vec2) : R := x2 p * x2 p + y2 p * y2 p.
Definition smul2 (k : R) (p : vec2) : vec2 := V2 (k * x2 p) (k * y2 p).

(** pinhole_camera_model.h:241-257. *)
Definition ph_factor (k1 k2 : R) (p : vec2) : R := 1 + rsq p * (k1 + k2 * rsq p).
Definition ph_distort (k1 k2 : R) (p : vec2) : vec2 :=
  V2 (x2 p * ph_factor k1 k2 p) (y2 p * ph_factor k1 k2 p).

(** The iteration shared by the three iterative models (e.g. pinhole_camera_model.h:263-295):
    [step] computes the next estimate, the loop stops when both coordinates moved by less than
    1e-10 or after the given number of rounds.  The flag tells whether it stopped by convergence. *)
Definition undistort_eps : R := / 10000000000.
Fixpoint undistort_iter (step : vec2 -> vec2) (n : nat) (u : vec2) : vec2 * bool :=
  match n with
  | O => (u, false)
  | S n' =>
      let u' := step u in
      if Rlt_dec (Rabs (x2 u' - x2 u)) undistort_eps then
        if Rlt_dec (Rabs (y2 u' - y2 u)) undistort_eps then (u', true)
        else undistort_iter step n' u'
      else undistort_iter step n' u'
  end.

(** pinhole_camera_model.h:259-296. *)
Definition ph_step (k1 k2 : R) (d u : vec2) : vec2 :=
  V2 (x2 d / ph_factor k1 k2 u) (y2 d / ph_factor k1 k2 u).
Definition ph_undistort (k1 k2 : R) (d : vec2) : vec2 * bool :=
  undistort_iter (ph_step k1 k2 d) 100 d.

(** pinhole_radial_tangential_camera_model.h:250-291. *)
Definition rt_radial (k1 k2 k3 : R) (p : vec2) : R :=
  1 + k1 * rsq p + k2 * rsq p * rsq p + k3 * rsq p * rsq p * rsq p.
Definition rt_tx (t1 t2 : R) (p : vec2) : R :=
  t2 * (rsq p + 2 * x2 p * x2 p) + 2 * t1 * x2 p * y2 p.
Definition rt_ty (t1 t2 : R) (p : vec2) : R :=
  t1 * (rsq p + 2 * y2 p * y2 p) + 2 * t2 * x2 p * y2 p.
Definition rt_distort (k1 k2 k3 t1 t2 : R) (p : vec2) : vec2 :=
  V2 (x2 p * rt_radial k1 k2 k3 p + rt_tx t1 t2 p) (y2 p * rt_radial k1 k2 k3 p + rt_ty t1 t2 p).

(** pinhole_radial_tangential_camera_model.h:293-360. *)
Definition rt_step (k1 k2 k3 t1 t2 : R) (d u : vec2) : vec2 :=
  V2 ((x2 d - rt_tx t1 t2 u) / rt_radial k1 k2 k3 u)
     ((y2 d - rt_ty t1 t2 u) / rt_radial k1 k2 k3 u).
Definition rt_undistort (k1 k2 k3 t1 t2 : R) (d : vec2) : vec2 * bool :=
  undistort_iter (rt_step k1 k2 k3 t1 t2 d) 100 d.

(** ceres::atan2 with a positive first and a non-negative second argument. *)
Definition atan2_pos (y x : R) : R := if Req_EM_T x 0 then PI / 2 else atan (y / x).

(** fisheye_camera_model.h:218-267. *)
Definition fe_theta_d (k1 k2 k3 k4 th : R) : R :=
  let q := th * th in
  th * (1 + k1 * q + k2 * q * q + k3 * q * q * q + k4 * q * q * q * q).
Definition fe_distort (k1 k2 k3 k4 : R) (p : vec3) : vec2 :=
  let r2 := x3 p * x3 p + y3 p * y3 p in
  if Rlt_dec r2 (/ 100000000) then V2 (x3 p) (y3 p)
  else
    let r := sqrt r2 in
    let td := fe_theta_d k1 k2 k3 k4 (atan2_pos r (Rabs (z3 p))) in
    let d := V2 (td * x3 p / r) (td * y3 p / r) in
    if Rlt_dec (z3 p) 0 then V2 (- x2 d) (- y2 d) else d.

(** fisheye_camera_model.h:269-330.  The early return of the loop is the [else] branch of the first
    test. *)
Fixpoint fe_undistort_iter (k1 k2 k3 k4 : R) (d : vec2) (n : nat) (u : vec2) : vec2 :=
  match n with
  | O => u
  | S n' =>
      let r := sqrt (rsq u) in
      if Rlt_dec r (/ 100000000) then d
      else
        let td := fe_theta_d k1 k2 k3 k4 (atan2_pos r 1) in
        let u' := V2 (r * x2 d / td) (r * y2 d / td) in
        if Rlt_dec (Rabs (x2 u' - x2 u)) undistort_eps then
          if Rlt_dec (Rabs (y2 u' - y2 u)) undistort_eps then u'
          else fe_undistort_iter k1 k2 k3 k4 d n' u'
        else fe_undistort_iter k1 k2 k3 k4 d n' u'
  end.
Definition fe_undistort (k1 k2 k3 k4 : R) (d : vec2) : vec2 :=
  fe_undistort_iter k1 k2 k3 k4 d 100 d.

(** fov_camera_model.h:211-259. *)
Definition fov_distort (om : R) (p : vec2) : vec2 :=
  let r2 := rsq p in
  let k :=
    if Rlt_dec om (/ 1000) then om * om * r2 / 3 - om * om / 12 + 1
    else if Rlt_dec r2 (/ 1000) then
      let t := tan (om / 2) in - 2 * t * (4 * r2 * t * t - 3) / (3 * om)
    else let r := sqrt r2 in atan (2 * r * tan (om / 2)) / (r * om) in
  smul2 k p.

(** fov_camera_model.h:262-309. *)
Definition fov_undistort (om : R) (d : vec2) : vec2 :=
  let r2 := rsq d in
  let k :=
    if Rlt_dec om (/ 1000) then om * om * r2 / 3 - om * om / 12 + 1
    else if Rlt_dec r2 (/ 1000) then om * (om * om * r2 + 3) / (6 * tan (om / 2))
    else let r := sqrt r2 in tan (r * om) / (2 * r * tan (om / 2)) in
  smul2 k d.

(** division_undistortion_camera_model.h:256-289; the bound is DBL_EPSILON. *)
Definition dbl_epsilon : R := / 2 ^ 52.
Definition div_distort (k : R) (p : vec2) : vec2 :=
  let r2 := rsq p in
  let denom := 2 * k * r2 in
  let inner := 1 - 4 * k * r2 in
  if Rlt_dec (Rabs denom) dbl_epsilon then p
  else if Rlt_dec inner 0 then p
  else let s := (1 - sqrt inner) / denom in V2 (x2 p * s) (y2 p * s).

(** division_undistortion_camera_model.h:291-312. *)
Definition div_undistort (k : R) (d : vec2) : vec2 :=
  let u := 1 / (1 + k * rsq d) in V2 (x2 d * u) (y2 d * u).

(** The calibration step, e.g. pinhole_camera_model.h:206-209, and its inverse 227-231. *)
Definition calib (f ar skew px py : R) (d : vec2) : vec2 :=
  V2 (f * x2 d + skew * y2 d + px) (f * ar * y2 d + py).
Definition uncalib (f ar skew px py : R) (q : vec2) : vec2 :=
  let y := (y2 q - py) / (f * ar) in V2 ((x2 q - px - y * skew) / f) y.
Definition perspective (p : vec3) : vec2 := V2 (x3 p / z3 p) (y3 p / z3 p).

(** CameraToPixelCoordinates: pinhole_camera_model.h:181-210,
    pinhole_radial_tangential_camera_model.h:190-219, fisheye_camera_model.h:162-187,
    fov_camera_model.h:155-182, division_undistortion_camera_model.h:172-202; dispatched by
    CameraIntrinsicsModel::CameraToImageCoordinates, camera_intrinsics_model.cc:116-130. *)
Definition camera_to_image (i : intrinsics) (p : vec3) : vec2 :=
  match i with
  | Pinhole f ar sk px py k1 k2 => calib f ar sk px py (ph_distort k1 k2 (perspective p))
  | RadialTangential f ar sk px py k1 k2 k3 t1 t2 =>
      calib f ar sk px py (rt_distort k1 k2 k3 t1 t2 (perspective p))
  | Fisheye f ar sk px py k1 k2 k3 k4 => calib f ar sk px py (fe_distort k1 k2 k3 k4 p)
  | Fov f ar px py om =>
      let d := fov_distort om (perspective p) in V2 (f * x2 d + px) (f * ar * y2 d + py)
  | Division f ar px py k =>
      let n := perspective p in
      let d := div_distort k (V2 (f * x2 n) (f * ar * y2 n)) in V2 (x2 d + px) (y2 d + py)
  end.

(** PixelToCameraCoordinates: pinhole_camera_model.h:212-239 and the same function of the other
    headers; CameraIntrinsicsModel::ImageToCameraCoordinates. *)
Definition lift (u : vec2) : vec3 := V3 (x2 u) (y2 u) 1.
Definition image_to_camera (i : intrinsics) (q : vec2) : vec3 :=
  match i with
  | Pinhole f ar sk px py k1 k2 => lift (ph_undistort k1 k2 (uncalib f ar sk px py q)).1
  | RadialTangential f ar sk px py k1 k2 k3 t1 t2 =>
      lift (rt_undistort k1 k2 k3 t1 t2 (uncalib f ar sk px py q)).1
  | Fisheye f ar sk px py k1 k2 k3 k4 => lift (fe_undistort k1 k2 k3 k4 (uncalib f ar sk px py q))
  | Fov f ar px py om => lift (fov_undistort om (V2 ((x2 q - px) / f) ((y2 q - py) / (f * ar))))
  | Division f ar px py k =>
      let u := div_undistort k (V2 (x2 q - px) (y2 q - py)) in
      lift (V2 (x2 u / f) (y2 u / (f * ar)))
  end.

(** * Cameras *)

(** The extrinsics of a camera, camera.h:194-198: angle-axis orientation and position. *)
Record pose := Pose { p_aa : vec3; p_pos : vec3 }.

(** camera.cc:204-213: the pixel and the returned depth. *)
Definition project_point (i : intrinsics) (c : pose) (X : vec4) : vec2 * R :=
  let adjusted := vsub (V3 (x4 X) (y4 X) (z4 X)) (vscale (w4 X) (p_pos c)) in
  let rotated := aa_rotate (p_aa c) adjusted in
  (camera_to_image i rotated, z3 rotated / w4 X).

(** camera.cc:215-227. *)
Definition pixel_ray (i : intrinsics) (c : pose) (q : vec2) : vec3 :=
  mapply (mtrans (rot_of_aa (p_aa c))) (image_to_camera i q).

(** * TransformReconstruction, transform_reconstruction.cc *)

(** 48-53. *)
Definition transform_point (Rot : mat3) (t : vec3) (s : R) (p : vec3) : vec3 :=
  vadd (mapply (mscale s Rot) p) t.

(** 55-68; [to_aa] is the conversion of SetOrientationFromRotationMatrix. *)
Definition transform_camera (to_aa : mat3 -> vec3) (Rot : mat3) (t : vec3) (s : R) (c : pose) : pose :=
  Pose (to_aa (mmul (rot_of_aa (p_aa c)) (mtrans Rot))) (transform_point Rot t s (p_pos c)).

(** Eigen's hnormalized() and homogeneous(). *)
Definition hnormalized (X : vec4) : vec3 := V3 (x4 X / w4 X) (y4 X / w4 X) (z4 X / w4 X).
Definition homogeneous (p : vec3) : vec4 := V4 (x3 p) (y3 p) (z3 p) 1.

(** 72-93.  The two loops visit the views and the tracks in the orders [ov] and [ot] of the unordered
    maps; the reconstruction is the one of [Reconstruction_Model] with poses as camera data and
    homogeneous points as track data. *)
Definition transform_view {F} (to_aa : mat3 -> vec3) (Rot : mat3) (t : vec3) (s : R)
    (v : view F pose) : view F pose :=
  if v_est v then
    View (v_name v) (v_est v) (v_intr v) (transform_camera to_aa Rot t s (v_data v)) (v_feats v)
  else v.
Definition transform_track (Rot : mat3) (t : vec3) (s : R) (k : track vec4) : track vec4 :=
  if t_est k then
    Track (t_est k) (homogeneous (transform_point Rot t s (hnormalized (t_data k)))) (t_views k)
  else k.
Definition transform_reconstruction {F} (ov ot : order N) (to_aa : mat3 -> vec3) (Rot : mat3)
    (t : vec3) (s : R) (r : recon F pose vec4) : recon F pose vec4 :=
  let views := foldl (fun m u => alter (transform_view to_aa Rot t s) u m) (rc_views r)
                 (ov (elements (dom (rc_views r)))) in
  let tracks := foldl (fun m k => alter (transform_track Rot t s) k m) (rc_tracks r)
                  (ot (elements (dom (rc_tracks r)))) in
  set_tracks (set_views r views) tracks.

(** * Projection matrices, projection_matrix_utils.cc *)

(** A 3x4 matrix: the left 3x3 block and the last column. *)
Record mat34 := M34 { m_left : mat3; m_last : vec3 }.

(** 50-60. *)
Definition calibration_matrix (f skew ar px py : R) : mat3 :=
  M3 (V3 f skew px) (V3 0 (f * ar) py) (V3 0 0 1).

(** 62-74: focal length, skew, aspect ratio and principal point, or the failed CHECK. *)
Definition calibration_to_intrinsics (K : mat3) : outcome (R * R * R * R * R) :=
  let k22 := z3 (row2 K) in
  if Req_EM_T k22 0 then CheckFail
  else Ok (x3 (row0 K) / k22, y3 (row0 K) / k22, y3 (row1 K) / x3 (row0 K),
           z3 (row0 K) / k22, z3 (row1 K) / k22).

(** rq_decomposition.h:72-117 for 3x3 matrices.  [qr] is Eigen's Householder QR: the packed factor
    (upper triangle of R, Householder vectors below) and Q. *)
Definition revcols (M : mat3) : mat3 :=
  let rv v := V3 (z3 v) (y3 v) (x3 v) in M3 (rv (row0 M)) (rv (row1 M)) (rv (row2 M)).
Definition revrows (M : mat3) : mat3 := M3 (row2 M) (row1 M) (row0 M).
Definition clear_lower (M : mat3) : mat3 :=
  M3 (row0 M) (V3 0 (y3 (row1 M)) (z3 (row1 M))) (V3 0 0 (z3 (row2 M))).
Definition rq_decomposition (qr : mat3 -> mat3 * mat3) (M : mat3) : mat3 * mat3 :=
  let '(packed, q0) := qr (revcols (mtrans M)) in
  let r := clear_lower (revcols (revrows (mtrans packed))) in
  let q := revrows (mtrans q0) in
  if Rlt_dec (det3 q) 0 then
    (M3 (V3 (x3 (row0 r)) (- y3 (row0 r)) (z3 (row0 r)))
        (V3 (x3 (row1 r)) (- y3 (row1 r)) (z3 (row1 r)))
        (V3 (x3 (row2 r)) (- y3 (row2 r)) (z3 (row2 r))),
     M3 (row0 q) (vopp (row1 q)) (row2 q))
  else (r, q).

(** Eigen::HouseholderQR: Q is orthogonal and Q times the upper triangle of the packed factor is the
    input. *)
Definition qr_contract (qr : mat3 -> mat3 * mat3) : Prop :=
  forall A, let '(packed, q) := qr A in
    mmul q (mtrans q) = mid /\ mmul q (clear_lower packed) = A.

(** 96-102, the body of the sign loop for i = 0, 1, 2. *)
Definition flip0 (KR : mat3 * mat3) : mat3 * mat3 :=
  let '(K, Rm) := KR in
  if Rlt_dec (x3 (row0 K)) 0 then
    (M3 (V3 (- x3 (row0 K)) (y3 (row0 K)) (z3 (row0 K)))
        (V3 (- x3 (row1 K)) (y3 (row1 K)) (z3 (row1 K)))
        (V3 (- x3 (row2 K)) (y3 (row2 K)) (z3 (row2 K))),
     M3 (vopp (row0 Rm)) (row1 Rm) (row2 Rm))
  else KR.
Definition flip1 (KR : mat3 * mat3) : mat3 * mat3 :=
  let '(K, Rm) := KR in
  if Rlt_dec (y3 (row1 K)) 0 then
    (M3 (V3 (x3 (row0 K)) (- y3 (row0 K)) (z3 (row0 K)))
        (V3 (x3 (row1 K)) (- y3 (row1 K)) (z3 (row1 K)))
        (V3 (x3 (row2 K)) (- y3 (row2 K)) (z3 (row2 K))),
     M3 (row0 Rm) (vopp (row1 Rm)) (row2 Rm))
  else KR.
Definition flip2 (KR : mat3 * mat3) : mat3 * mat3 :=
  let '(K, Rm) := KR in
  if Rlt_dec (z3 (row2 K)) 0 then
    (M3 (V3 (x3 (row0 K)) (y3 (row0 K)) (- z3 (row0 K)))
        (V3 (x3 (row1 K)) (y3 (row1 K)) (- z3 (row1 K)))
        (V3 (x3 (row2 K)) (y3 (row2 K)) (- z3 (row2 K))),
     M3 (row0 Rm) (row1 Rm) (vopp (row2 Rm)))
  else KR.

(** Eigen's triangularView<Upper>().solve: back substitution. *)
Definition upper_solve (K : mat3) (b : vec3) : vec3 :=
  let z := z3 b / z3 (row2 K) in
  let y := (y3 b - z3 (row1 K) * z) / y3 (row1 K) in
  let x := (x3 b - y3 (row0 K) * y - z3 (row0 K) * z) / x3 (row0 K) in
  V3 x y z.

(** 76-119: calibration matrix, angle-axis rotation and position; None when it returns false.
    ProjectToRotationMatrix (sfm/pose/util.cc:121-135) is the nearest rotation by an SVD; [nearest]
    stands for it, with the contract that it leaves rotations unchanged. *)
Definition decompose_projection_matrix (qr : mat3 -> mat3 * mat3) (nearest : mat3 -> mat3)
    (to_aa : mat3 -> vec3) (P : mat34) : option (mat3 * vec3 * vec3) :=
  let '(r, q) := rq_decomposition qr (m_left P) in
  let rot := nearest q in
  let kdet := det3 r in
  if Req_EM_T kdet 0 then None
  else
    let k := if Rlt_dec 0 kdet then r else mscale (-1) r in
    let '(K, Rm) := flip2 (flip1 (flip0 (k, rot))) in
    let t := upper_solve K (m_last P) in
    let pos := if Rlt_dec 0 kdet then vopp (mapply (mtrans Rm) t) else mapply (mtrans Rm) t in
    Some (K, to_aa Rm, pos).

(** 121-136. *)
Definition compose_projection_matrix (K : mat3) (aa pos : vec3) : mat34 :=
  let Rm := rot_of_aa aa in
  M34 (mmul K Rm) (mapply K (vopp (mapply Rm pos))).

(** camera.cc:153-189, InitializeFromProjectionMatrix: the parameters of the pinhole camera it builds.
    When the decomposition fails its outputs are uninitialised Eigen matrices, which are then read. *)
Definition initialize_from_projection_matrix (qr : mat3 -> mat3 * mat3) (nearest : mat3 -> mat3)
    (to_aa : mat3 -> vec3) (P : mat34) : outcome (option (intrinsics * pose)) :=
  match decompose_projection_matrix qr nearest to_aa P with
  | None => UB
  | Some (K, aa, pos) =>
      if Req_EM_T (x3 (row0 K)) 0 then Ok None
      else if Req_EM_T (y3 (row1 K)) 0 then Ok None
      else
        '(f, sk, ar, px, py) ← calibration_to_intrinsics K;
        Ok (Some (Pinhole f ar sk px py 0 0, Pose aa pos))
  end.

(** pinhole_camera_model.cc:157-164 and the GetCalibrationMatrix of the other models (fov and division
    have no skew), with camera.cc:191-198, GetProjectionMatrix. *)
Definition intrinsics_matrix (i : intrinsics) : mat3 :=
  match i with
  | Pinhole f ar sk px py _ _ => calibration_matrix f sk ar px py
  | RadialTangential f ar sk px py _ _ _ _ _ => calibration_matrix f sk ar px py
  | Fisheye f ar sk px py _ _ _ _ => calibration_matrix f sk ar px py
  | Fov f ar px py _ => calibration_matrix f 0 ar px py
  | Division f ar px py _ => calibration_matrix f 0 ar px py
  end.
Definition get_projection_matrix (i : intrinsics) (c : pose) : mat34 :=
  compose_projection_matrix (intrinsics_matrix i) (p_aa c) (p_pos c).
