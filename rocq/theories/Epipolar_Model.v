(** Model of the two-view matrix utilities: /repo/src/theia/sfm/pose/util.cc, essential_matrix_utils.cc and
    fundamental_matrix_util.cc, and the cheirality test of /repo/src/theia/sfm/triangulation/triangulation.cc:216-232.

    Simplification: doubles are modelled by real numbers (no rounding).  A result that is not a finite number is
    [None].  Eigen's singular value decomposition is an argument. *)
From stdpp Require Import gmap strings.
From Coq Require Import Reals.
From Verif Require Import Base Camera_Model RotationGraph_Model Alignment_Model.
Local Open Scope R_scope.

(** Columns of a matrix, and Eigen's homogeneous() of a 2d point. *)
Definition col0 (M : mat3) : vec3 := V3 (x3 (row0 M)) (x3 (row1 M)) (x3 (row2 M)).
Definition col1 (M : mat3) : vec3 := V3 (y3 (row0 M)) (y3 (row1 M)) (y3 (row2 M)).
Definition col2 (M : mat3) : vec3 := V3 (z3 (row0 M)) (z3 (row1 M)) (z3 (row2 M)).
Definition homog (p : vec2) : vec3 := V3 (x2 p) (y2 p) 1.

(** util.cc:56-68, SquaredSampsonDistance. *)
Definition squared_sampson (F : mat3) (x y : vec2) : option R :=
  let epiline := mapply F (homog x) in
  let numerator := dot (homog y) epiline in
  let d0 := dot (homog y) (col0 F) in
  let d1 := dot (homog y) (col1 F) in
  let denominator := d0 * d0 + d1 * d1 + x3 epiline * x3 epiline + y3 epiline * y3 epiline in
  if Req_EM_T denominator 0 then None else Some (numerator * numerator / denominator).

(** util.cc:70-76, CrossProductMatrix. *)
Definition cross_matrix (v : vec3) : mat3 :=
  M3 (V3 0 (- z3 v) (y3 v)) (V3 (z3 v) 0 (- x3 v)) (V3 (- y3 v) (x3 v) 0).

(** Sums of the coordinates of 2d points, for rowwise().mean() and squaredNorm(). *)
Definition sum_points (f : vec2 -> R) (ps : list vec2) : R := foldl (fun s p => s + f p) 0 ps.

(** util.cc:82-116, NormalizeImagePoints: the normalized points and the normalization matrix.  Line 87 accesses the
    first point.  If all points are the same the factor is sqrt(2) / 0. *)
Definition normalize_image_points (ps : list vec2) : outcome (option (list vec2 * mat3)) :=
  match ps with
  | [] => UB
  | _ =>
    let n := INR (length ps) in
    let cx := sum_points x2 ps / n in
    let cy := sum_points y2 ps / n in
    let rms := sqrt (sum_points (fun p => (x2 p - cx) * (x2 p - cx) + (y2 p - cy) * (y2 p - cy)) ps / n) in
    if Req_EM_T rms 0 then Ok None
    else
      let k := sqrt 2 / rms in
      let m := M3 (V3 k 0 (-1 * k * cx)) (V3 0 k (-1 * k * cy)) (V3 0 0 1) in
      Ok (Some (map (fun p => let h := mapply m (homog p) in V2 (x3 h / z3 h) (y3 h / z3 h)) ps, m))
  end.

(** util.cc:121-133, ProjectToRotationMatrix. *)
Definition project_to_rotation (svd : mat3 -> mat3 * vec3 * mat3) (M : mat3) : mat3 :=
  let '(U, _, V) := svd M in
  let rotation_mat := mmul U (mtrans V) in
  if Rlt_dec (det3 rotation_mat) 0 then mscale (-1) rotation_mat else rotation_mat.

(** essential_matrix_utils.cc:66-72.  M.col(2) *= -1.0 if the determinant is negative. *)
Definition positive_col2 (M : mat3) : mat3 :=
  if Rlt_dec (det3 M) 0 then mmul M (diag3 1 1 (-1)) else M.

(** essential_matrix_utils.cc:57-80, DecomposeEssentialMatrix. *)
Definition decompose_d : mat3 := M3 (V3 0 1 0) (V3 (-1) 0 0) (V3 0 0 1).
Definition decompose_essential (svd : mat3 -> mat3 * vec3 * mat3) (E : mat3) : mat3 * mat3 * vec3 :=
  let '(U0, _, V0) := svd E in
  let U := positive_col2 U0 in
  let V := positive_col2 V0 in
  (mmul (mmul U decompose_d) (mtrans V),
   mmul (mmul U (mtrans decompose_d)) (mtrans V),
   normalize (col2 U)).

(** essential_matrix_utils.cc:86-108, EssentialMatrixFromTwoProjectionMatrices. *)
Definition essential_from_projections (pose1 pose2 : mat34) : mat3 :=
  let relative_rotation := mmul (m_left pose1) (mtrans (m_left pose2)) in
  let translation := normalize (vsub (m_last pose1) (mapply relative_rotation (m_last pose2))) in
  mmul (cross_matrix translation) relative_rotation.

(** triangulation.cc:216-232, IsTriangulatedPointInFrontOfCameras. *)
Definition in_front (feature1 feature2 : vec2) (rotation : mat3) (position : vec3) : bool :=
  let dir1 := homog feature1 in
  let dir2 := mapply (mtrans rotation) (homog feature2) in
  let dir1_sq := dot dir1 dir1 in
  let dir2_sq := dot dir2 dir2 in
  let dir1_dir2 := dot dir1 dir2 in
  let dir1_pos := dot dir1 position in
  let dir2_pos := dot dir2 position in
  if Rgt_dec (dir2_sq * dir1_pos - dir1_dir2 * dir2_pos) 0 then
    if Rgt_dec (dir1_dir2 * dir1_pos - dir1_sq * dir2_pos) 0 then true else false
  else false.

(** std::max_element over the counts, paired with their candidate: the first of the largest. *)
Definition max_step {A} (best x : nat * A) : nat * A := if decide (best.1 < x.1)%nat then x else best.

(** essential_matrix_utils.cc:108-148, GetBestPoseFromEssentialMatrix: the returned count, the rotation and the
    position.  Simplification: the counts are natural numbers (int in the code). *)
Definition count_in_front (correspondences : list (vec2 * vec2)) (pose : mat3 * vec3) : nat :=
  length (base.filter (fun c : vec2 * vec2 => in_front c.1 c.2 pose.1 pose.2 = true) correspondences).
Definition best_pose (svd : mat3 -> mat3 * vec3 * mat3) (E : mat3) (correspondences : list (vec2 * vec2))
  : nat * (mat3 * vec3) :=
  let '(rotation1, rotation2, translation) := decompose_essential svd E in
  let candidate r t := (r, vopp (mapply (mtrans r) t)) in
  let c0 := candidate rotation1 translation in
  let c1 := candidate rotation1 (vopp translation) in
  let c2 := candidate rotation2 translation in
  let c3 := candidate rotation2 (vopp translation) in
  let counted c := (count_in_front correspondences c, c) in
  foldl max_step (counted c0) [counted c1; counted c2; counted c3].

(** The last column of matrixV() of the singular value decomposition. *)
Definition right_null (svd : mat3 -> mat3 * vec3 * mat3) (F : mat3) : vec3 := let '(_, _, V) := svd F in col2 V.

(** fundamental_matrix_util.cc:205-218, ProjectionMatricesFromFundamentalMatrix. *)
Definition projections_from_fundamental (svd : mat3 -> mat3 * vec3 * mat3) (F : mat3) : mat34 * mat34 :=
  let right_epipole := right_null svd F in
  (M34 mid (V3 0 0 0), M34 (mmul (cross_matrix right_epipole) (mtrans F)) right_epipole).

(** Determinant of the matrix with the four given rows (Matrix4d::determinant), by expansion along the last column. *)
Definition det4 (r0 r1 r2 r3 : vec3 * R) : R :=
  - r0.2 * det3 (M3 r1.1 r2.1 r3.1) + r1.2 * det3 (M3 r0.1 r2.1 r3.1)
  - r2.2 * det3 (M3 r0.1 r1.1 r3.1) + r3.2 * det3 (M3 r0.1 r1.1 r2.1).
Definition prow (P : mat34) (i : nat) : vec3 * R :=
  match i with
  | 0%nat => (row0 (m_left P), x3 (m_last P))
  | 1%nat => (row1 (m_left P), y3 (m_last P))
  | _ => (row2 (m_left P), z3 (m_last P))
  end.

(** fundamental_matrix_util.cc:222-241, FundamentalMatrixFromProjectionMatrices. *)
Definition fundamental_from_projections (P1 P2 : mat34) : mat3 :=
  let index1 (i : nat) : nat := match i with 0%nat => 1 | 1%nat => 2 | _ => 0 end%nat in
  let index2 (i : nat) : nat := match i with 0%nat => 2 | 1%nat => 0 | _ => 1 end%nat in
  let entry (r c : nat) := det4 (prow P2 (index1 c)) (prow P2 (index2 c)) (prow P1 (index1 r)) (prow P1 (index2 r)) in
  M3 (V3 (entry 0 0)%nat (entry 0 1)%nat (entry 0 2)%nat)
     (V3 (entry 1 0)%nat (entry 1 1)%nat (entry 1 2)%nat)
     (V3 (entry 2 0)%nat (entry 2 1)%nat (entry 2 2)%nat).

(** fundamental_matrix_util.cc:243-253, EssentialMatrixFromFundamentalMatrix. *)
Definition essential_from_fundamental (F : mat3) (focal1 focal2 : R) : mat3 :=
  mmul (mmul (diag3 focal2 focal2 1) F) (diag3 focal1 focal1 1).

(** fundamental_matrix_util.cc:255-271, ComposeFundamentalMatrix.  DiagonalMatrix::inverse divides by the focal
    lengths. *)
Definition compose_fundamental (focal1 focal2 : R) (rotation : mat3) (translation : vec3) : option mat3 :=
  if Req_EM_T focal1 0 then None
  else if Req_EM_T focal2 0 then None
  else Some (mmul (mmul (mmul (diag3 (/ focal2) (/ focal2) 1) (cross_matrix translation)) rotation)
               (diag3 (/ focal1) (/ focal1) 1)).

(** atan2 for a first argument [y] and a second argument [x] different from 0, and the rotation by an angle about the
    third axis, fundamental_matrix_util.cc:82-95. *)
Definition atan2_nz (y x : R) : R :=
  if Rlt_dec 0 x then atan (y / x) else if Rle_dec 0 y then atan (y / x) + PI else atan (y / x) - PI.
Definition rotation_z (theta : R) : mat3 :=
  M3 (V3 (cos theta) (- sin theta) 0) (V3 (sin theta) (cos theta) 0) (V3 0 0 1).

(** What FocalLengthsFromFundamentalMatrix returns: false, true with two numbers, or true with something that is not a
    number. *)
Inductive focal_result := FocalFail | FocalOk (focal1 focal2 : R) | FocalUndefined.

(** fundamental_matrix_util.cc:57-133, FocalLengthsFromFundamentalMatrix.  The inverses of the diagonal matrices divide
    by the coordinates of the rotated epipoles, the squared focal lengths by the expressions [n1] and [n2]: a zero
    gives an infinite number or a NaN, of which the comparison in line 125 may or may not be true.  In the model all
    these cases give [FocalUndefined]; the theorems only use it where the code computes 0 / 0. *)
Definition focal_lengths_from_fundamental (svd : mat3 -> mat3 * vec3 * mat3) (F : mat3) : focal_result :=
  let epipole1 := right_null svd F in
  let epipole2 := right_null svd (mtrans F) in
  if Req_EM_T (x3 epipole1) 0 then FocalFail
  else if Req_EM_T (x3 epipole2) 0 then FocalFail
  else
    let rotation1 := rotation_z (atan2_nz (- y3 epipole1) (x3 epipole1)) in
    let rotation2 := rotation_z (atan2_nz (- y3 epipole2) (x3 epipole2)) in
    let rotated := mmul (mmul rotation2 F) (mtrans rotation1) in
    let e1 := mapply rotation1 epipole1 in
    let e2 := mapply rotation2 epipole2 in
    if Req_EM_T (z3 e1) 0 then FocalUndefined
    else if Req_EM_T (z3 e2) 0 then FocalUndefined
    else
      let factorized := mmul (mmul (diag3 (/ z3 e2) 1 (/ - x3 e2)) rotated) (diag3 (/ z3 e1) 1 (/ - x3 e1)) in
      let a := x3 (row0 factorized) in
      let b := y3 (row0 factorized) in
      let c := x3 (row1 factorized) in
      let d := y3 (row1 factorized) in
      let n1 := a * c * z3 e1 * z3 e1 + b * d in
      let n2 := a * b * z3 e2 * z3 e2 + c * d in
      if Req_EM_T n1 0 then FocalUndefined
      else if Req_EM_T n2 0 then FocalUndefined
      else
        let sq1 := (- a * c * x3 e1 * x3 e1) / n1 in
        let sq2 := (- a * b * x3 e2 * x3 e2) / n2 in
        if Rlt_dec sq1 0 then FocalFail
        else if Rlt_dec sq2 0 then FocalFail
        else FocalOk (sqrt sq1) (sqrt sq2).
