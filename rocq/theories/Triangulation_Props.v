(** Properties C84 to C89: triangulation. *)
From stdpp Require Import gmap strings.
From Coq Require Import Reals Lra Psatz.
From Verif Require Import Base Camera_Model Camera_Spec Camera_Proofs RotationGraph_Model RotationGraph_Proofs Alignment_Model Alignment_Spec Alignment_Proofs
  Epipolar_Model Epipolar_Spec Epipolar_Proofs Epipolar_Pose Epipolar_Fund Epipolar_Focal Epipolar_Focal2 LeastSquares_Model LeastSquares_Proofs Triangulation_Model Triangulation_Spec
  Triangulation_Proofs Triangulation_NView Triangulation_More.
Local Open Scope R_scope.

(** A concrete pair of cameras, at the origin and at (1, 0, 0), and the images of the point (0, 0, 2). *)
Definition left_camera : mat34 := M34 mid (V3 0 0 0).
Definition right_camera : mat34 := M34 mid (V3 (-1) 0 0).
Definition far_point : vec4 := V4 0 0 2 1.
Lemma det_mid : det3 mid <> 0.
Proof. unfold det3, mid. cbn. lra. Qed.
Lemma left_at : camera_at left_camera (V3 0 0 0).
Proof. split; [apply det_mid|]. apply vec3_eq; unfold left_camera; tcbv; ring. Qed.
Lemma right_at : camera_at right_camera (V3 1 0 0).
Proof. split; [apply det_mid|]. apply vec3_eq; unfold right_camera; tcbv; ring. Qed.
Lemma far_off : off_baseline far_point (V3 0 0 0) (V3 1 0 0).
Proof. intros E. apply (f_equal y3) in E. unfold far_point in E. revert E. tcbv. lra. Qed.
Lemma far_left : image left_camera far_point (V2 0 0).
Proof. exists 2. apply vec3_eq; unfold left_camera, far_point; tcbv; ring. Qed.
Lemma far_right : image right_camera far_point (V2 (-1/2) 0).
Proof. exists 2. apply vec3_eq; unfold right_camera, far_point; tcbv; field. Qed.

(** ** C84: TriangulateDLT *)
(** The result has length 1 and no other point of length 1 has a smaller error. *)
Theorem dlt_minimizes smallest P1 P2 p1 p2 : smallest_contract smallest ->
  let v := triangulate_dlt smallest P1 P2 p1 p2 in
  unit4 v /\ forall X, unit4 X -> dlt_error P1 p1 v + dlt_error P2 p2 v <= dlt_error P1 p1 X + dlt_error P2 p2 X.
Proof. apply dlt_optimal. Qed.
Print Assumptions dlt_minimizes.
(** Exact images of a point that is not on the line through the two cameras give this point. *)
Theorem dlt_recovers_point smallest P1 P2 c1 c2 p1 p2 X : smallest_contract smallest ->
  camera_at P1 c1 -> camera_at P2 c2 -> off_baseline X c1 c2 -> image P1 X p1 -> image P2 X p2 ->
  same_point (triangulate_dlt smallest P1 P2 p1 p2) X.
Proof. apply dlt_exact. Qed.
Print Assumptions dlt_recovers_point.
Example dlt_case : same_point (triangulate_dlt exact_smallest left_camera right_camera (V2 0 0) (V2 (-1/2) 0)) far_point.
Proof. exact (dlt_recovers_point _ _ _ _ _ _ _ _ exact_smallest_contract left_at right_at far_off far_left far_right). Qed.

(** ** C85: TriangulateNView *)
Theorem nview_minimizes eigen poses points : eigen_contract eigen -> length poses = length points ->
  exists v ts, triangulate_nview eigen poses points = Ok v /\ unit4 v /\ length ts = length points /\
    forall X ss, unit4 X -> length ss = length points -> view_error (zip poses points) ts v <= view_error (zip poses points) ss X.
Proof.
  intros Hc HL. destruct (nview_optimal eigen poses points Hc HL) as (v & E & U & M). exists v, (map (fun x => view_param x.1 x.2 v) (zip poses points)).
  split; [done|]. split; [done|]. split; [rewrite map_length, zip_with_length; lia|]. intros X ss HX Hs. unfold view_error.
  rewrite (param_at (fun x s => sqdist (mat34_apply x.1 v) (vscale s (point_h x.2))) (fun x => view_cost x.1 x.2 v)) by (intros; apply view_cost_at).
  eapply Rle_trans; [by apply M|]. apply (param_min (fun x s => sqdist (mat34_apply x.1 X) (vscale s (point_h x.2))) (fun x => view_cost x.1 x.2 X)).
  - intros. apply view_cost_min.
  - rewrite zip_with_length. lia.
Qed.
Print Assumptions nview_minimizes.
Theorem nview_recovers_point eigen poses points X i j P1 P2 p1 p2 c1 c2 : eigen_contract eigen -> length poses = length points ->
  (forall k P p, poses !! k = Some P -> points !! k = Some p -> image P X p) ->
  poses !! i = Some P1 -> points !! i = Some p1 -> poses !! j = Some P2 -> points !! j = Some p2 ->
  camera_at P1 c1 -> camera_at P2 c2 -> off_baseline X c1 c2 ->
  exists v, triangulate_nview eigen poses points = Ok v /\ same_point v X.
Proof.
  intros Hc HL HI Pi pi Pj pj C1 C2 HB. destruct (nview_optimal eigen poses points Hc HL) as (v & E & _). exists v. split; [done|].
  by eapply (nview_exact eigen poses points X i j P1 P2 p1 p2 c1 c2 v).
Qed.
Print Assumptions nview_recovers_point.
Theorem nview_aborts eigen poses points : length poses <> length points -> triangulate_nview eigen poses points = CheckFail.
Proof. intros H. unfold triangulate_nview. by rewrite bool_decide_false. Qed.
Print Assumptions nview_aborts.
Lemma far_images k P p : [left_camera; right_camera] !! k = Some P -> [V2 0 0; V2 (-1/2) 0] !! k = Some p -> image P far_point p.
Proof. destruct k as [|[|k]]; cbn; try done; intros [= <-] [= <-]; [apply far_left|apply far_right]. Qed.
Example nview_case : exists v, triangulate_nview exact_eigen [left_camera; right_camera] [V2 0 0; V2 (-1/2) 0] = Ok v /\ same_point v far_point.
Proof.
  exact (nview_recovers_point exact_eigen [left_camera; right_camera] [V2 0 0; V2 (-1/2) 0] far_point 0 1 _ _ _ _ _ _ exact_eigen_contract eq_refl far_images eq_refl eq_refl eq_refl eq_refl left_at right_at far_off).
Qed.

(** ** C86: TriangulateMidpoint *)
Definition unit_rays (rays : list (vec3 * vec3)) : Prop := Forall (fun r => dot r.2 r.2 = 1) rays.
(** It fails exactly if all rays are parallel.  Otherwise no point is as near to the rays. *)
Theorem midpoint_fails_iff_parallel rays : (2 <= length rays)%nat -> unit_rays rays ->
  (triangulate_midpoint (map fst rays) (map snd rays) = Ok None <-> parallel_rays (map snd rays)) /\
  exists r, triangulate_midpoint (map fst rays) (map snd rays) = Ok r.
Proof.
  intros HL HU. pose proof (midpoint_cases rays HL HU) as H. destruct (triangulate_midpoint _ _) as [[v|]| | |]; try done.
  - split; [|by eexists]. split; [done|]. intros HP. by destruct H as (p & _ & NP & _).
  - split; [done|by eexists].
Qed.
Print Assumptions midpoint_fails_iff_parallel.
Theorem midpoint_nearest rays v : (2 <= length rays)%nat -> unit_rays rays ->
  triangulate_midpoint (map fst rays) (map snd rays) = Ok (Some v) ->
  exists p ts, v = V4 (x3 p) (y3 p) (z3 p) 1 /\ length ts = length rays /\
    forall q ss, length ss = length rays -> q <> p -> ray_error rays ts p < ray_error rays ss q.
Proof.
  intros HL HU HE. pose proof (midpoint_cases rays HL HU) as H. rewrite HE in H. destruct H as (p & -> & NP & HG).
  unfold unit_rays in HU. rewrite list.Forall_forall in HU. exists p, (map (fun r => dot r.2 (vsub p r.1)) rays). split; [done|]. split; [by rewrite map_length|].
  assert (ET : ray_error rays (map (fun r => dot r.2 (vsub p r.1)) rays) p = Rsum (fun r => ray_cost r p) rays).
  { clear -HU. revert HU. unfold ray_error. induction rays as [|[o d] rays IH]; intros HU; [done|]. cbn [map zip_with fst snd]. unfold Rsum in *. cbn [foldr]. rewrite IH by (intros; apply HU; set_solver).
    cbn [fst snd]. rewrite ray_cost_split by (apply (HU (o, d)); set_solver). ring. }
  assert (EM : forall q ss, length ss = length rays -> Rsum (fun r => ray_cost r q) rays <= ray_error rays ss q).
  { clear -HU. revert HU. unfold ray_error. induction rays as [|[o d] rays IH]; intros HU q [|s ss] Hs; try done; [cbn; lra|]. cbn [map zip_with fst snd]. unfold Rsum in *. cbn [foldr].
    specialize (IH ltac:(intros; apply HU; set_solver) q ss ltac:(cbn in Hs; lia)). cbn [fst snd]. rewrite ray_cost_split by (apply (HU (o, d)); set_solver).
    pose proof (Rle_0_sqr (s - dot d (vsub q o))) as A. unfold Rsqr in A. clear HU. lra. }
  intros q ss Hs Nq. rewrite ET. eapply Rlt_le_trans; [|by apply EM]. rewrite (HG q).
  set (T := Rsum (fun r => dot (cross (vsub q p) r.2) (cross (vsub q p) r.2)) rays). assert (HT : 0 <= T) by (apply Rsum_nonneg; intros; apply dot_nonneg).
  destruct (Rle_lt_or_eq_dec _ _ HT) as [HP|Z]; [clear -HP; rewrite <- (Rplus_0_r (Rsum _ rays)) at 1; by apply Rplus_lt_compat_l|]. exfalso. apply NP. exists (vsub q p). split.
  - intros E. apply Nq. destruct p as [a b c], q as [d e f]. unfold vsub in E. cbn in E. injection E as E1 E2 E3. f_equal; lra.
  - apply list.Forall_forall. intros d Hd. apply elem_of_list_fmap in Hd as (r & -> & Hr). symmetry in Z.
    pose proof (Rsum_zero _ rays ltac:(intros; apply dot_nonneg) Z r Hr) as Z'. cbn beta in Z'. unfold dot in Z'. apply sumsq0 in Z'. destruct Z' as (Z1 & Z2 & Z3). by apply vec3_eq.
Qed.
Print Assumptions midpoint_nearest.
(** Rays that meet in a point give this point. *)
Theorem midpoint_recovers_point rays X : (2 <= length rays)%nat -> unit_rays rays -> ~ parallel_rays (map snd rays) ->
  Forall (fun r => exists t, X = vadd r.1 (vscale t r.2)) rays ->
  triangulate_midpoint (map fst rays) (map snd rays) = Ok (Some (V4 (x3 X) (y3 X) (z3 X) 1)).
Proof.
  intros HL HU NP HX. destruct (midpoint_fails_iff_parallel rays HL HU) as [HP [[v|] E]]; [|exfalso; by apply NP, HP].
  destruct (midpoint_nearest rays v HL HU E) as (p & ts & -> & Lt & HM).
  assert (HS : exists ss, length ss = length rays /\ ray_error rays ss X = 0).
  { clear -HX. induction HX as [|r rays [t Ht] _ (ss & Ls & Es)]; [by exists []|]. exists (t :: ss). split; [cbn; lia|]. unfold ray_error, Rsum in *. cbn. rewrite Es, <- Ht. unfold sqdist, vsub, dot. cbn. ring. }
  destruct HS as (ss & Ls & Es). destruct (Classical_Prop.classic (X = p)) as [->|N]; [done|]. specialize (HM X ss Ls N). rewrite Es in HM.
  exfalso. assert (0 <= ray_error rays ts p); [|lra]. apply Rsum_nonneg. intros x _. unfold sqdist. apply dot_nonneg.
Qed.
Print Assumptions midpoint_recovers_point.
Theorem midpoint_aborts origins directions : (length origins < 2)%nat \/ length origins <> length directions -> triangulate_midpoint origins directions = CheckFail.
Proof.
  intros H. unfold triangulate_midpoint. destruct (decide (2 <= length origins)%nat) as [L|L].
  - rewrite (bool_decide_true (2 <= length origins)%nat) by done. rewrite (bool_decide_false (length origins = length directions)) by lia. done.
  - rewrite (bool_decide_false (2 <= length origins)%nat) by done. done.
Qed.
Print Assumptions midpoint_aborts.
Example midpoint_case : triangulate_midpoint [V3 0 0 0; V3 1 0 0] [V3 0 0 1; V3 (-3/5) 0 (4/5)] = Ok (Some (V4 0 0 (4/3) 1)).
Proof.
  apply (midpoint_recovers_point [(V3 0 0 0, V3 0 0 1); (V3 1 0 0, V3 (-3/5) 0 (4/5))] (V3 0 0 (4/3))).
  - cbn. lia.
  - repeat constructor; tcbv; field.
  - intros ([a b c] & N & H). cbn in H. rewrite !list.Forall_cons in H. destruct H as (H1 & H2 & _). revert H1 H2. tcbv. intros H1 H2. injection H1 as A1 A2 A3. injection H2 as B1 B2 B3.
    apply N. f_equal; lra.
  - repeat constructor; cbn.
    + exists (4/3). apply vec3_eq; tcbv; field.
    + exists (5/3). apply vec3_eq; tcbv; field.
Qed.

(** ** C87: Triangulate *)
(** Full claim: for every pair of image points, the corrected points satisfy the epipolar constraint, so that the rays
    meet.  It is false: the correction of each line uses the line of the same image instead of the other image. *)
Theorem corrected_points_constraint_refuted :
  exists P1 P2 c1 c2 p1 p2 q1 q2, rotation (m_left P1) /\ rotation (m_left P2) /\ camera_at P1 c1 /\ camera_at P2 c2 /\ c1 <> c2 /\
    find_optimal_points (essential_from_projections P1 P2) p1 p2 = Some (q1, q2) /\
    epipolar (essential_from_projections P1 P2) (point_h q2) (point_h q1) <> 0 /\
    ~ (exists X, X <> V4 0 0 0 0 /\ image P1 X q1 /\ image P2 X q2).
Proof.
  exists forward_pair.1, forward_pair.2, (V3 0 0 0), (V3 0 0 1), (V2 1 0), (V2 (3/5) (4/5)), (V2 (92/125) (6/125)), (V2 (12/25) (14/25)).
  assert (C1 : camera_at forward_pair.1 (V3 0 0 0)) by (split; [apply det_mid|apply vec3_eq; unfold forward_pair; tcbv; ring]).
  assert (C2 : camera_at forward_pair.2 (V3 0 0 1)) by (split; [apply det_mid|apply vec3_eq; unfold forward_pair; tcbv; ring]).
  refine (conj rotation_mid (conj rotation_mid (conj C1 (conj C2 (conj _ (conj correction_wrong (conj _ _))))))).
  - intros [=]. lra.
  - unfold epipolar, essential_from_projections. cbn [forward_pair fst snd m_left m_last].
    assert (ET : vsub (V3 0 0 0) (mapply (mmul mid (mtrans mid)) (V3 0 0 (-1))) = V3 0 0 1) by (apply vec3_eq; mcbv; ring). rewrite ET.
    rewrite unit_normalize by (intros [=]; lra). unfold unit_of. replace (dot (V3 0 0 1) (V3 0 0 1)) with 1 by (unfold dot; cbn; ring). rewrite sqrt_1, Rinv_1.
    rewrite mapply_mmul. tcbv. unfold cross_matrix. tcbv. lra.
  - intros ([x y z w] & N & [s A] & [t B]). revert A B. unfold forward_pair. tcbv. intros A B. injection A as A1 A2 A3. injection B as B1 B2 B3.
    assert (Ex : 12/25 * t = 92/125 * s) by lra. assert (Ey : 14/25 * t = 6/125 * s) by lra. assert (s = 0) by lra. assert (t = 0) by lra. apply N. f_equal; lra.
Qed.
Print Assumptions corrected_points_constraint_refuted.
(** Proved: exact images, seen by calibrated cameras, are not changed by the correction and give their point. *)
Theorem triangulate_recovers_point_partial smallest P1 P2 c1 c2 p1 p2 X : smallest_contract smallest ->
  rotation (m_left P1) -> rotation (m_left P2) -> camera_at P1 c1 -> camera_at P2 c2 -> off_baseline X c1 c2 -> image P1 X p1 -> image P2 X p2 ->
  exists v, triangulate smallest P1 P2 p1 p2 = Some v /\ same_point v X.
Proof.
  intros Hc R1 R2 C1 C2 HB I1 I2. unfold triangulate. rewrite (correction_exact P1 P2 c1 c2 X p1 p2) by done. eexists. split; [done|]. by apply (dlt_exact smallest P1 P2 c1 c2).
Qed.
Print Assumptions triangulate_recovers_point_partial.
Example triangulate_case : exists v, triangulate exact_smallest left_camera right_camera (V2 0 0) (V2 (-1/2) 0) = Some v /\ same_point v far_point.
Proof. exact (triangulate_recovers_point_partial exact_smallest left_camera right_camera _ _ _ _ _ exact_smallest_contract rotation_mid rotation_mid left_at right_at far_off far_left far_right). Qed.

(** ** C88: TriangulateNViewSVD *)
(** Full claim: exact images of a point in at least two views give this point.  It is false: parts of the matrix of
    the linear system are not initialized.  [mem] is the content of this memory. *)
Theorem nview_svd_recovers_point_refuted :
  exists poses points X P1 P2 p1 p2 c1 c2 mem, poses = [P1; P2] /\ points = [p1; p2] /\
    camera_at P1 c1 /\ camera_at P2 c2 /\ off_baseline X c1 c2 /\ image P1 X p1 /\ image P2 X p2 /\
    forall smallest, smallest_contract smallest -> exists v, triangulate_nview_svd smallest mem poses points = Ok v /\ forall k, v <> scale4 k X.
Proof.
  exists side_pair, side_points, far_point, left_camera, right_camera, (V2 0 0), (V2 (-1/2) 0), (V3 0 0 0), (V3 1 0 0), bad_mem.
  refine (conj eq_refl (conj eq_refl (conj left_at (conj right_at (conj far_off (conj far_left (conj far_right _))))))).
  intros smallest Hc. destruct (bad_mem_result smallest Hc) as (k & Nk & E). exists (V4 k k k 0). split; [done|]. intros q Eq. apply (f_equal x4) in Eq. unfold far_point in Eq. cbn in Eq. lra.
Qed.
Print Assumptions nview_svd_recovers_point_refuted.
(** Proved: if this memory is zero, the claim holds, and the result minimizes the error. *)
Theorem nview_svd_recovers_point_partial smallest poses points X i j P1 P2 p1 p2 c1 c2 : smallest_contract smallest -> length poses = length points ->
  (forall k P p, poses !! k = Some P -> points !! k = Some p -> image P X p) ->
  poses !! i = Some P1 -> points !! i = Some p1 -> poses !! j = Some P2 -> points !! j = Some p2 ->
  camera_at P1 c1 -> camera_at P2 c2 -> off_baseline X c1 c2 ->
  exists v k, triangulate_nview_svd smallest (fun _ _ => 0) poses points = Ok v /\ k <> 0 /\ v = scale4 k X.
Proof.
  intros Hc HL HI Pi pi Pj pj C1 C2 HB. destruct (nview_svd_optimal smallest poses points Hc HL) as (v & ts & E & _). exists v.
  destruct (nview_svd_exact smallest poses points X i j P1 P2 p1 p2 c1 c2 v) as (k & Nk & Ek); try done. by exists k.
Qed.
Print Assumptions nview_svd_recovers_point_partial.
Theorem nview_svd_minimizes_partial smallest poses points : smallest_contract smallest -> length poses = length points ->
  exists v ts, triangulate_nview_svd smallest (fun _ _ => 0) poses points = Ok v /\ length ts = length points /\ dot4 v v + ldot ts ts = 1 /\
    forall X ss, length ss = length points -> dot4 X X + ldot ss ss = 1 -> view_error (zip poses points) ts v <= view_error (zip poses points) ss X.
Proof. apply nview_svd_optimal. Qed.
Print Assumptions nview_svd_minimizes_partial.
Example nview_svd_case : exists v k, triangulate_nview_svd exact_smallest (fun _ _ => 0) [left_camera; right_camera] [V2 0 0; V2 (-1/2) 0] = Ok v /\ k <> 0 /\ v = scale4 k far_point.
Proof.
  exact (nview_svd_recovers_point_partial exact_smallest [left_camera; right_camera] [V2 0 0; V2 (-1/2) 0] far_point 0 1 _ _ _ _ _ _ exact_smallest_contract eq_refl far_images eq_refl eq_refl eq_refl eq_refl left_at right_at far_off).
Qed.

(** ** C89: SufficientTriangulationAngle *)
Theorem sufficient_angle_iff dirs deg : Forall (fun d => dot d d = 1) dirs -> 0 <= deg <= 180 ->
  sufficient_triangulation_angle dirs deg = true <->
  exists i j a b t, (i < j)%nat /\ dirs !! i = Some a /\ dirs !! j = Some b /\ angle_degrees a b t /\ deg < t.
Proof. apply sufficient_iff. Qed.
Print Assumptions sufficient_angle_iff.
Example angle_case : sufficient_triangulation_angle [V3 1 0 0; V3 1 0 0; V3 0 1 0] 89 = true /\ sufficient_triangulation_angle [V3 1 0 0; V3 1 0 0; V3 0 1 0] 90 = false.
Proof.
  assert (HU : Forall (fun d => dot d d = 1) [V3 1 0 0; V3 1 0 0; V3 0 1 0]) by (repeat constructor; tcbv; ring).
  split; [|apply not_true_iff_false]; rewrite sufficient_angle_iff by (done || lra).
  - exists 0%nat, 2%nat, (V3 1 0 0), (V3 0 1 0), 90. split_and!; try done; [lia| |lra]. split; [lra|]. replace (90 * PI / 180) with (PI / 2) by field. rewrite cos_PI2. tcbv. ring.
  - intros (i & j & a & b & t & _ & A & B & [T D] & L).
    assert (P : cos (t * PI / 180) < 0).
    { pose proof PI_RGT_0 as P. apply cos_lt_0; [|]; (apply (Rmult_lt_reg_r (180 / PI)); [apply Rmult_lt_0_compat; [lra|by apply Rinv_0_lt_compat]|]); field_simplify; lra. }
    destruct i as [|[|[|i]]]; try done; destruct j as [|[|[|j]]]; try done; cbn in A, B; injection A as <-; injection B as <-; revert D; tcbv; intros D; lra.
Qed.
