(** Properties of the camera geometry (C47, C48, C61, C62, C63).  Numbers are reals. *)
From stdpp Require Import gmap strings.
From Coq Require Import Reals Lra.
From Verif Require Import Base Reconstruction_Model Camera_Model Camera_Spec Camera_Proofs Camera_Lens Camera_Matrix.
Local Open Scope R_scope.

(** * C47: similarity transformations preserve reprojections *)

(** For every reconstruction, visiting order, rotation, translation and positive scale: an estimated
    point with a finite position, outside the principal plane of an estimated camera, projects to the
    same pixel after TransformReconstruction, and its depth is multiplied by the scale.  All lens
    models are covered; for the fisheye model the point has to be further than 1e-4 from the optical
    axis in the coordinates handed to the lens, before and after. *)
Theorem transform_preserves_projections {F} (ov ot : order N) to_aa Rot t s (r : recon F pose vec4) i :
  aa_conv to_aa -> rotation Rot -> 0 < s ->
  forall u v k T, rc_views r !! u = Some v -> rc_tracks r !! k = Some T ->
    v_est v = true -> t_est T = true -> w4 (t_data T) <> 0 ->
    let c := v_data v in let X := t_data T in
    z3 (in_frame c (hnormalized X)) <> 0 ->
    (fisheye i -> / 100000000 <= w4 X * w4 X * off_axis2 (in_frame c (hnormalized X)) /\
                  / 100000000 <= s * s * off_axis2 (in_frame c (hnormalized X))) ->
    let r' := transform_reconstruction ov ot to_aa Rot t s r in
    exists v' T', rc_views r' !! u = Some v' /\ rc_tracks r' !! k = Some T' /\
      (project_point i (v_data v') (t_data T')).1 = (project_point i c X).1 /\
      (project_point i (v_data v') (t_data T')).2 = s * (project_point i c X).2.
Proof.
  intros Hc HR Hs u v k T Hv HT Ev ET Hw c X Hz Hf r'.
  exists (transform_view to_aa Rot t s v), (transform_track Rot t s T).
  unfold r'. rewrite transform_views, transform_tracks, Hv, HT. do 2 (split; [reflexivity|]).
  unfold transform_view, transform_track. rewrite Ev, ET. cbn [v_data t_data].
  pose proof (transform_projection to_aa Rot t s c X i Hc HR Hs Hw Hz Hf) as H.
  fold c X. rewrite H. destruct (project_point i c X) as [px d]. split; reflexivity.
Qed.
Print Assumptions transform_preserves_projections.

(** Nothing else changes: the transformed reconstruction has the same views and tracks with the same
    names, observations, estimated flags, intrinsics and groups, and the poses and points of views and
    tracks that are not estimated are not touched. *)
Theorem transform_frame {F} (ov ot : order N) to_aa Rot t s (r : recon F pose vec4) :
  let r' := transform_reconstruction ov ot to_aa Rot t s r in
  (forall u, rc_views r' !! u = None <-> rc_views r !! u = None) /\
  (forall k, rc_tracks r' !! k = None <-> rc_tracks r !! k = None) /\
  (forall u v v', rc_views r !! u = Some v -> rc_views r' !! u = Some v' ->
     v_name v' = v_name v /\ v_est v' = v_est v /\ v_intr v' = v_intr v /\ v_feats v' = v_feats v /\
     (v_est v = false -> v' = v)) /\
  (forall k T T', rc_tracks r !! k = Some T -> rc_tracks r' !! k = Some T' ->
     t_est T' = t_est T /\ t_views T' = t_views T /\ (t_est T = false -> T' = T)) /\
  rc_names r' = rc_names r /\ rc_view_group r' = rc_view_group r /\ rc_groups r' = rc_groups r /\
  rc_next_view r' = rc_next_view r /\ rc_next_track r' = rc_next_track r /\
  rc_next_group r' = rc_next_group r.
Proof.
  intros r'. repeat split; try reflexivity.
  - unfold r'. rewrite transform_views. apply fmap_None.
  - unfold r'. rewrite transform_views. apply fmap_None.
  - unfold r'. rewrite transform_tracks. apply fmap_None.
  - unfold r'. rewrite transform_tracks. apply fmap_None.
  - unfold r' in H0. rewrite transform_views, H in H0. injection H0 as <-.
    unfold transform_view. destruct (v_est v); reflexivity.
  - unfold r' in H0. rewrite transform_views, H in H0. injection H0 as <-.
    unfold transform_view. destruct (v_est v) eqn:E; [reflexivity|exact E].
  - unfold r' in H0. rewrite transform_views, H in H0. injection H0 as <-.
    unfold transform_view. destruct (v_est v); reflexivity.
  - unfold r' in H0. rewrite transform_views, H in H0. injection H0 as <-.
    unfold transform_view. destruct (v_est v); reflexivity.
  - intros E. unfold r' in H0. rewrite transform_views, H in H0. injection H0 as <-.
    unfold transform_view. rewrite E. reflexivity.
  - unfold r' in H0. rewrite transform_tracks, H in H0. injection H0 as <-.
    unfold transform_track. destruct (t_est T) eqn:E; [reflexivity|exact E].
  - unfold r' in H0. rewrite transform_tracks, H in H0. injection H0 as <-.
    unfold transform_track. destruct (t_est T); reflexivity.
  - intros E. unfold r' in H0. rewrite transform_tracks, H in H0. injection H0 as <-.
    unfold transform_track. rewrite E. reflexivity.
Qed.
Print Assumptions transform_frame.

(** The result does not depend on the order in which the unordered maps are visited. *)
Theorem transform_order_independent {F} (ov ot ov' ot' : order N) to_aa Rot t s (r : recon F pose vec4) :
  transform_reconstruction ov ot to_aa Rot t s r = transform_reconstruction ov' ot' to_aa Rot t s r.
Proof.
  unfold transform_reconstruction. f_equal.
  - f_equal. apply map_eq. intros u. rewrite !transform_lookup. reflexivity.
  - apply map_eq. intros u. rewrite !transform_lookup. reflexivity.
Qed.
Print Assumptions transform_order_independent.

(** A quarter turn about the optical axis, scale 2; the hypotheses hold for an off-axis point and the
    projection of a pinhole camera with focal length 100 is (25, 50) before and after. *)
Definition ex_rot : mat3 := M3 (V3 0 (-1) 0) (V3 1 0 0) (V3 0 0 1).
Definition ex_point : vec4 := V4 1 2 4 1.
Definition ex_pose : pose := Pose (V3 0 0 0) (V3 0 0 0).
Definition ex_cam : intrinsics := Pinhole 100 1 0 0 0 0 0.
Definition ex_recon : recon unit pose vec4 :=
  Recon 1 1 1 {["a"%string := 0%N]} {[0%N := View "a" true 0 ex_pose {[0%N := tt]}]}
    {[0%N := Track true ex_point {[0%N]}]} {[0%N := 0%N]} {[0%N := {[0%N]}]} 1.

Lemma ex_frame : in_frame ex_pose (hnormalized ex_point) = V3 1 2 4.
Proof.
  unfold in_frame, ex_pose. cbn [p_aa p_pos]. rewrite rot_of_aa_zero, mapply_id.
  unfold ex_point, vsub, hnormalized. cbn [x3 y3 z3 x4 y4 z4 w4]. f_equal; field.
Qed.

Example transform_example :
  aa_conv aa_of_rot /\ rotation ex_rot /\ 0 < 2 /\
  z3 (in_frame ex_pose (hnormalized ex_point)) <> 0 /\
  project_point ex_cam ex_pose ex_point = (V2 25 50, 4) /\
  exists v' T', let r' := transform_reconstruction ord_id ord_rev aa_of_rot ex_rot (V3 1 2 3) 2 ex_recon in
    rc_views r' !! 0%N = Some v' /\ rc_tracks r' !! 0%N = Some T' /\
    project_point ex_cam (v_data v') (t_data T') = (V2 25 50, 8).
Proof.
  assert (HR : rotation ex_rot).
  { split; [|unfold det3, ex_rot; ring].
    unfold ex_rot, mmul, mapply, mtrans, mid, dot. cbn [row0 row1 row2 x3 y3 z3].
    f_equal; f_equal; ring. }
  assert (Hz : z3 (in_frame ex_pose (hnormalized ex_point)) <> 0) by (rewrite ex_frame; cbn [z3]; lra).
  assert (HP : project_point ex_cam ex_pose ex_point = (V2 25 50, 4)).
  { rewrite project_point_frame by (cbn [ex_point w4]; lra). rewrite ex_frame. cbn [ex_point w4 z3].
    rewrite vscale_1. cbn [ex_cam camera_to_image]. rewrite ph_distort_0.
    unfold calib, perspective. cbn [x2 y2 x3 y3 z3]. f_equal. f_equal; field. }
  split; [exact aa_of_rot_conv|]. split; [exact HR|]. split; [lra|]. split; [exact Hz|].
  split; [exact HP|].
  assert (Hw : w4 (t_data (Track true ex_point {[0%N]} : track vec4)) <> 0) by (cbn; lra).
  destruct (transform_preserves_projections (F := unit) ord_id ord_rev aa_of_rot ex_rot (V3 1 2 3) 2
    ex_recon ex_cam aa_of_rot_conv HR ltac:(lra) 0%N (View "a" true 0 ex_pose {[0%N := tt]}) 0%N
    (Track true ex_point {[0%N]}) (lookup_singleton _ _) (lookup_singleton _ _) eq_refl eq_refl Hw Hz)
    as (v' & T' & E1 & E2 & E3 & E4).
  { intros []. }
  exists v', T'. cbn zeta. split; [exact E1|]. split; [exact E2|].
  cbn [v_data t_data] in E3, E4. rewrite HP in E3, E4. cbn [fst snd] in E3, E4.
  destruct (project_point ex_cam (v_data v') (t_data T')) as [a b]. cbn [fst snd] in *.
  subst a b. f_equal; lra.
Qed.

(** Without the condition on fisheye lenses the property is false: the lens treats every point closer
    than 1e-4 to the axis as undistorted, whatever its depth, so scaling the scene moves its pixel. *)
Theorem transform_fisheye_refuted :
  exists (i : intrinsics) (p : vec3) (s : R), 0 < s /\ z3 p <> 0 /\
    camera_to_image i (vscale s p) <> camera_to_image i p.
Proof.
  exists (Fisheye 1 1 0 0 0 0 0 0 0), (V3 (/ 20000) 0 1), (/ 2).
  split; [lra|]. split; [cbn [z3]; lra|].
  cbn [camera_to_image]. unfold fe_distort, vscale. cbn [x3 y3 z3].
  destruct (Rlt_dec (/ 2 * / 20000 * (/ 2 * / 20000) + / 2 * 0 * (/ 2 * 0)) _) as [_|H]; [|lra].
  destruct (Rlt_dec (/ 20000 * / 20000 + 0 * 0) _) as [_|H]; [|lra].
  unfold calib. cbn [x2 y2]. intros E. injection E. intros _ H. lra.
Qed.
Print Assumptions transform_fisheye_refuted.

(** * C48: projection and back-projection *)

(** For every pinhole camera without lens distortion (both pinhole models), pose and point off the
    principal plane: walking along the ray of the projected pixel up to the returned depth gives back
    the point. *)
Theorem ray_of_projection i c p :
  ideal_pinhole i -> (project_point i c (homogeneous p)).2 <> 0 ->
  ray_point i c (project_point i c (homogeneous p)).1 (project_point i c (homogeneous p)).2 = p.
Proof.
  intros Hi. destruct (project_point i c (homogeneous p)) as [q d] eqn:E. cbn [fst snd].
  intros Hd. apply (project_then_ray i c p q d Hi E Hd).
Qed.
Print Assumptions ray_of_projection.

(** Conversely every point on the ray of a pixel, at non-zero depth, projects to that pixel with that
    depth. *)
Theorem projection_of_ray i c q d :
  ideal_pinhole i -> d <> 0 -> project_point i c (homogeneous (ray_point i c q d)) = (q, d).
Proof. exact (ray_then_project i c q d). Qed.
Print Assumptions projection_of_ray.

Example pinhole_example :
  ideal_pinhole ex_cam /\ (project_point ex_cam ex_pose (homogeneous (V3 1 2 4))) = (V2 25 50, 4).
Proof.
  split; [repeat split; lra|].
  replace (homogeneous (V3 1 2 4)) with ex_point by reflexivity.
  apply transform_example.
Qed.

(** * C61: closed-form lens models *)

(** Division model: inside the domain of the lens equation (4 k r^2 <= 1) undistortion inverts
    distortion, exactly except where the code short-cuts a negligible distortion, where the relative
    error is at most DBL_EPSILON. *)
Theorem division_round_trip k p : 4 * k * rsq p <= 1 ->
  let u := div_undistort k (div_distort k p) in
  (dbl_epsilon <= Rabs (2 * k * rsq p) -> u = p) /\
  Rabs (x2 u - x2 p) <= dbl_epsilon * Rabs (x2 p) /\
  Rabs (y2 u - y2 p) <= dbl_epsilon * Rabs (y2 p).
Proof.
  intros H u. split; [intros He; apply div_exact; assumption|]. apply div_round_trip, H.
Qed.
Print Assumptions division_round_trip.

(** And distortion inverts undistortion on all points before the fold of the lens (|k r^2| < 1). *)
Theorem division_round_trip_back k d :
  -1 < k * rsq d < 1 -> dbl_epsilon <= Rabs (2 * k * rsq (div_undistort k d)) ->
  div_distort k (div_undistort k d) = d.
Proof. exact (div_exact_back k d). Qed.
Print Assumptions division_round_trip_back.

(** Outside the domain the code returns the point unchanged, which undistortion does not undo. *)
Theorem division_round_trip_refuted : exists k p, div_undistort k (div_distort k p) <> p.
Proof. exact div_refuted. Qed.
Print Assumptions division_round_trip_refuted.

(** Field-of-view model: both round trips are exact when neither direction uses its Taylor series. *)
Theorem fov_round_trip om p : / 1000 <= om < PI -> / 1000 <= rsq p ->
  / 1000 <= rsq (fov_distort om p) -> fov_undistort om (fov_distort om p) = p.
Proof. exact (fov_exact om p). Qed.
Print Assumptions fov_round_trip.

Theorem fov_round_trip_back om d : / 1000 <= om < PI -> / 1000 <= rsq d ->
  sqrt (rsq d) * om < PI / 2 -> / 1000 <= rsq (fov_undistort om d) ->
  fov_distort om (fov_undistort om d) = d.
Proof. exact (fov_exact_back om d). Qed.
Print Assumptions fov_round_trip_back.

(** For omega below the guard (the test is omega < 1e-3, not |omega|) distortion and undistortion
    multiply by the same factor: with omega = -1 the point (1, 0) comes back as (115/64, 0). *)
Theorem fov_round_trip_refuted : exists om p, fov_undistort om (fov_distort om p) <> p.
Proof.
  exists (-1), (V2 1 0). rewrite fov_refuted. intros E. injection E. lra.
Qed.
Print Assumptions fov_round_trip_refuted.

(** A division camera with k = -1/16 and the point (2, 0): inside the domain and above the shortcut. *)
Example division_example : 4 * (- (1 / 16)) * rsq (V2 2 0) <= 1 /\
  dbl_epsilon <= Rabs (2 * (- (1 / 16)) * rsq (V2 2 0)) /\ div_distort (- (1 / 16)) (V2 2 0) <> V2 2 0.
Proof.
  assert (Hr : rsq (V2 2 0) = 4) by (unfold rsq; cbn [x2 y2]; ring). rewrite Hr.
  assert (He : dbl_epsilon <= Rabs (2 * (- (1 / 16)) * 4)).
  { rewrite Rabs_left by lra. pose proof dbl_epsilon_bounds. lra. }
  split; [lra|]. split; [exact He|]. intros E.
  assert (H : div_undistort (- (1 / 16)) (div_distort (- (1 / 16)) (V2 2 0)) = V2 2 0)
    by (apply div_exact; rewrite Hr; [exact He|lra]).
  rewrite E in H. unfold div_undistort in H. rewrite Hr in H. cbn [x2 y2] in H.
  replace (1 / (1 + - (1 / 16) * 4)) with (4 / 3) in H by field. injection H. lra.
Qed.

(** A field-of-view camera with omega = 1 and the point (1, 0). *)
Example fov_example : / 1000 <= 1 < PI /\ / 1000 <= rsq (V2 1 0) /\ / 1000 <= rsq (fov_distort 1 (V2 1 0)).
Proof.
  assert (Hr : rsq (V2 1 0) = 1) by (unfold rsq; cbn [x2 y2]; ring).
  pose proof PI2_1 as HPI. pose proof PI_4 as HP4.
  split; [lra|]. rewrite Hr. split; [lra|].
  unfold fov_distort. rewrite Hr.
  destruct (Rlt_dec 1 (/ 1000)) as [?|_]; [lra|]. rewrite sqrt_1.
  rewrite rsq_smul2, Hr.
  (* tan (1/2) > 1/2, so atan (2 tan (1/2)) > atan 1 = PI/4 > 1/2. *)
  assert (Ht : / 2 < tan (1 / 2)).
  { pose proof (tan_half_pos 1 ltac:(lra)) as Hp.
    assert (Hat : atan (tan (1 / 2)) = 1 / 2) by (apply atan_tan; lra).
    destruct (Rlt_dec (/ 2) (tan (1 / 2))) as [?|Hn]; [assumption|exfalso].
    assert (Hle : atan (tan (1 / 2)) <= atan (/ 2)).
    { destruct (Rle_lt_or_eq_dec (tan (1 / 2)) (/ 2)) as [H|H]; [lra| |].
      - left. apply atan_increasing, H.
      - right. rewrite H. reflexivity. }
    assert (Hlt : atan (/ 2) < / 2); [|lra].
    (* The mean value theorem: the derivative of atan is below 1. *)
    destruct (atan_bound (/ 2)) as [_ Hb].
    pose proof (atan_pos (/ 2) ltac:(lra)) as [Hap _].
    destruct (MVT_cor2 atan (fun x => / (1 + x ^ 2)) 0 (/ 2)) as (c & Hc & Hc2); [lra| |].
    { intros x _. apply derivable_pt_lim_atan. }
    rewrite atan_0 in Hc. rewrite !Rminus_0_r in Hc. rewrite Hc.
    assert (1 < 1 + c ^ 2) by (assert (0 < c ^ 2) by (apply pow_lt; lra); lra).
    assert (/ (1 + c ^ 2) < 1) by (rewrite <- Rinv_1; apply Rinv_lt_contravar; lra).
    lra. }
  assert (Ha : PI / 4 < atan (2 * 1 * tan (1 / 2))).
  { rewrite <- atan_1. apply atan_increasing. lra. }
  replace (1 * 1) with 1 by ring.
  set (z := atan _) in *. assert (1 / 2 < z) by lra. clearbody z.
  replace (z / (1 * 1) * (z / (1 * 1)) * 1) with (z * z) by field.
  assert (1 / 4 < z * z); [|lra].
  apply Rlt_trans with (1 / 2 * z); [lra|]. apply Rmult_lt_compat_r; lra.
Qed.

(** * C62: the iterative undistortion of the pinhole model *)

(** If at the undistorted point the lens displaces by at most ten percent (|k1| r^2 + |k2| r^4 <= 1/10),
    the at most 100 rounds of UndistortPoint recover the point to 1.3e-10, plus a relative error of
    (11/20)^100 / 10 (less than 1e-26) if the loop runs out of rounds. *)
Theorem pinhole_undistort_accurate k1 k2 p :
  Rabs (k1 * rsq p) + Rabs (k2 * (rsq p * rsq p)) <= / 10 ->
  let u := (ph_undistort k1 k2 (ph_distort k1 k2 p)).1 in
  Rabs (x2 u - x2 p) <= 11 / 9 * undistort_eps + / 10 * (11 / 20) ^ 100 * Rabs (x2 p) /\
  Rabs (y2 u - y2 p) <= 11 / 9 * undistort_eps + / 10 * (11 / 20) ^ 100 * Rabs (y2 p).
Proof. exact (ph_undistort_accurate k1 k2 p). Qed.
Print Assumptions pinhole_undistort_accurate.

(** Without a bound on the distortion the lens can fold two points onto one pixel. *)
Theorem pinhole_undistort_refuted :
  exists k1 k2 p, (ph_undistort k1 k2 (ph_distort k1 k2 p)).1 <> p.
Proof.
  exists (-1), 0, (V2 1 0). destruct ph_refuted as [-> ->]. intros E. injection E. lra.
Qed.
Print Assumptions pinhole_undistort_refuted.

Example pinhole_undistort_example :
  Rabs (- (/ 10) * rsq (V2 (3 / 5) (4 / 5))) + Rabs (0 * (rsq (V2 (3 / 5) (4 / 5)) * rsq (V2 (3 / 5) (4 / 5)))) <= / 10 /\
  ph_distort (- / 10) 0 (V2 (3 / 5) (4 / 5)) = V2 (27 / 50) (18 / 25).
Proof.
  assert (Hr : rsq (V2 (3 / 5) (4 / 5)) = 1) by (unfold rsq; cbn [x2 y2]; field). rewrite !Hr.
  split.
  - rewrite Rmult_0_l, Rabs_R0, Rmult_1_r, Rabs_Ropp, Rabs_pos_eq by lra. lra.
  - unfold ph_distort, ph_factor. rewrite Hr. cbn [x2 y2]. f_equal; field.
Qed.

(** * C63: projection matrices *)

(** GetProjectionMatrix agrees with ProjectPoint: for every undistorted pinhole camera, pose and finite
    homogeneous point off the principal plane, the matrix maps the point to the homogeneous pixel, with
    third coordinate the depth times the homogeneous weight. *)
Theorem projection_matrix_projects i c X : ideal_pinhole i -> w4 X <> 0 ->
  (project_point i c X).2 <> 0 ->
  perspective (mat34_apply (get_projection_matrix i c) X) = (project_point i c X).1 /\
  z3 (mat34_apply (get_projection_matrix i c) X) = w4 X * (project_point i c X).2.
Proof. exact (matrix_projection i c X). Qed.
Print Assumptions projection_matrix_projects.

(** DecomposeProjectionMatrix reports failure exactly for matrices whose left block is singular, and
    otherwise returns an upper triangular calibration matrix with positive diagonal, an orientation and
    a position that compose to the given matrix up to its sign. *)
Theorem decompose_projection_exact qr nearest to_aa P :
  qr_contract qr -> keeps_rotations nearest -> aa_conv to_aa ->
  match decompose_projection_matrix qr nearest to_aa P with
  | None => det3 (m_left P) = 0
  | Some (K, aa, pos) => det3 (m_left P) <> 0 /\ calibration K /\
      P = mat34_scale (if Rlt_dec 0 (det3 (m_left P)) then 1 else -1) (compose_projection_matrix K aa pos)
  end.
Proof. exact (decompose_correct qr nearest to_aa P). Qed.
Print Assumptions decompose_projection_exact.

(** Decomposition recovers what was composed, from any non-zero multiple of the matrix: the calibration
    matrix up to the positive scale, the same rotation, the same position. *)
Theorem decompose_inverts_compose qr nearest to_aa k K aa pos :
  qr_contract qr -> keeps_rotations nearest -> aa_conv to_aa -> calibration K -> k <> 0 ->
  exists aa', decompose_projection_matrix qr nearest to_aa
      (mat34_scale k (compose_projection_matrix K aa pos)) = Some (mscale (Rabs k) K, aa', pos) /\
    rot_of_aa aa' = rot_of_aa aa.
Proof. exact (decompose_compose qr nearest to_aa k K aa pos). Qed.
Print Assumptions decompose_inverts_compose.

(** InitializeFromProjectionMatrix on a matrix with an invertible left block builds an undistorted
    pinhole camera whose projection matrix is the given one up to scale. *)
Theorem initialize_reproduces_matrix qr nearest to_aa P :
  qr_contract qr -> keeps_rotations nearest -> aa_conv to_aa -> det3 (m_left P) <> 0 ->
  exists i c k, initialize_from_projection_matrix qr nearest to_aa P = Ok (Some (i, c)) /\
    ideal_pinhole i /\ k <> 0 /\ P = mat34_scale k (get_projection_matrix i c).
Proof. exact (initialize_correct qr nearest to_aa P). Qed.
Print Assumptions initialize_reproduces_matrix.

(** On a singular left block it does not return false as documented: it ignores the failure of the
    decomposition and reads its uninitialised outputs. *)
Theorem initialize_singular_refuted qr nearest to_aa P :
  qr_contract qr -> keeps_rotations nearest -> aa_conv to_aa -> det3 (m_left P) = 0 ->
  initialize_from_projection_matrix qr nearest to_aa P = UB.
Proof. exact (initialize_singular qr nearest to_aa P). Qed.
Print Assumptions initialize_singular_refuted.

(** Intrinsics survive the trip through the calibration matrix. *)
Theorem intrinsics_calibration_round_trip f sk ar px py : f <> 0 ->
  calibration_to_intrinsics (calibration_matrix f sk ar px py) = Ok (f, sk, ar, px, py).
Proof. exact (calibration_round_trip f sk ar px py). Qed.
Print Assumptions intrinsics_calibration_round_trip.

(** The contracts are satisfiable (Givens rotations, the identity, and an explicit logarithm), and the
    theorems apply to a concrete camera. *)
Example contracts_met :
  qr_contract givens_qr /\ keeps_rotations (fun M => M) /\ aa_conv aa_of_rot /\
  calibration (calibration_matrix 100 3 2 50 60) /\
  det3 (m_left (compose_projection_matrix (calibration_matrix 100 3 2 50 60) (V3 0 0 0) (V3 1 2 3))) = 20000.
Proof.
  split; [exact givens_qr_contract|]. split; [intros M _; reflexivity|]. split; [exact aa_of_rot_conv|].
  split.
  - unfold calibration, calibration_matrix. cbn [row0 row1 row2 x3 y3 z3]. repeat split; lra.
  - unfold compose_projection_matrix. cbn [m_left]. rewrite rot_of_aa_zero, mmul_id_r.
    unfold det3, calibration_matrix. ring.
Qed.
