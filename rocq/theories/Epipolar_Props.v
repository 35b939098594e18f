(** Properties C75-C83: two-view matrices.  Numbers are reals; the singular value decomposition is any function that
    meets its contract, and [svd_contract_met] (Alignment_Props.v) shows that one exists. *)
From stdpp Require Import gmap strings.
From Coq Require Import Reals Lra Psatz.
From Verif Require Import Base Camera_Model Camera_Spec Camera_Proofs RotationGraph_Model RotationGraph_Proofs Alignment_Model Alignment_Spec Alignment_Proofs Alignment_Svd
  Epipolar_Model Epipolar_Spec Epipolar_Proofs Epipolar_Pose Epipolar_Fund Epipolar_Focal Epipolar_Focal2.
Local Open Scope R_scope.

(** C75.  The squared Sampson distance is the smallest sum of squared offsets of the two points that satisfies the
    epipolar constraint to first order, it is attained, and there is no number only if no offset changes the
    constraint to first order. *)
Theorem sampson_is_first_order_distance : forall F x y,
  match squared_sampson F x y with
  | Some d => (exists dx dy, first_order F x y dx dy = 0 /\ rsq dx + rsq dy = d) /\
              (forall dx dy, first_order F x y dx dy = 0 -> d <= rsq dx + rsq dy)
  | None => forall dx dy, first_order F x y dx dy = epipolar F (point_h x) (point_h y)
  end.
Proof.
  intros F x y. destruct (squared_sampson F x y) as [d|] eqn:E; [by apply sampson_some|by apply sampson_none].
Qed.
Print Assumptions sampson_is_first_order_distance.

(** C75.  Exchanging the images and transposing, or scaling the matrix, changes nothing; for points that satisfy the
    constraint the distance is 0, and only for those. *)
Theorem sampson_invariant : forall F x y k, k <> 0 ->
  squared_sampson (mtrans F) y x = squared_sampson F x y /\ squared_sampson (mscale k F) x y = squared_sampson F x y /\
  (forall d, squared_sampson F x y = Some d -> (d = 0 <-> epipolar F (point_h x) (point_h y) = 0)).
Proof.
  intros F x y k Hk. split; [symmetry; apply sampson_transpose|]. split; [by apply sampson_scale|].
  intros d H. unfold squared_sampson in H. change (dot (homog y) (mapply F (homog x))) with (epipolar F (point_h x) (point_h y)) in H.
  revert H. destruct (Req_EM_T _ 0) as [|N]; [done|]. intros [= <-]. set (n := epipolar _ _ _). clearbody n. unfold Rdiv. split.
  - intros Z. apply Rmult_integral in Z as [Z|Z]; [apply Rmult_integral in Z as [Z|Z]; done|]. by apply Rinv_neq_0_compat in Z.
  - intros ->. ring.
Qed.
Print Assumptions sampson_invariant.

(** The matrix of a sideways motion, and points off the epipolar line by 3. *)
Example sampson_example : squared_sampson (M3 (V3 0 0 0) (V3 0 0 (-1)) (V3 0 1 0)) (V2 0 0) (V2 5 3) = Some (9 / 2).
Proof.
  unfold squared_sampson. mcbv. unfold homog. cbn. destruct (Req_EM_T _ 0) as [Z|_]; [lra|]. f_equal. field.
Qed.

(** C76.  Missing: the average distance is not sqrt 2 (refuted below), and there must be two different points.  Then
    the points are moved by a scaling and a translation, which is the returned matrix, the centroid is the origin and
    the root mean square distance to it is sqrt 2. *)
Theorem normalize_points_partial : forall ps, (exists p q, p ∈ ps /\ q ∈ ps /\ p <> q) ->
  exists qs m k cx cy, normalize_image_points ps = Ok (Some (qs, m)) /\ 0 < k /\
    m = M3 (V3 k 0 (- k * cx)) (V3 0 k (- k * cy)) (V3 0 0 1) /\
    length qs = length ps /\
    (forall i p q, ps !! i = Some p -> qs !! i = Some q -> mapply m (point_h p) = point_h q) /\
    Rsum x2 qs = 0 /\ Rsum y2 qs = 0 /\ sqrt (Rsum rsq qs / INR (length qs)) = sqrt 2.
Proof.
  intros ps (p & q & Hp & Hq & Hpq). assert (N : ps <> []) by (intros ->; by apply not_elem_of_nil in Hp).
  destruct (normalize_cases ps N) as [(r & Hr & _)|(_ & k & cx & cy & Hk & E & X & Y & D)].
  - exfalso. apply Hpq. rewrite list.Forall_forall in Hr. rewrite <- (Hr p Hp). by apply Hr.
  - exists (map (fun p => V2 (k * (x2 p - cx)) (k * (y2 p - cy))) ps), (M3 (V3 k 0 (- k * cx)) (V3 0 k (- k * cy)) (V3 0 0 1)), k, cx, cy.
    assert (L : length (map (fun p => V2 (k * (x2 p - cx)) (k * (y2 p - cy))) ps) = length ps) by apply map_length.
    split; [exact E|]. split; [done|]. split; [done|]. split; [done|]. split; [|split; [done|split; [done|]]].
    + intros i a b Ha Hb. rewrite list_lookup_fmap, Ha in Hb. cbn in Hb. injection Hb as <-. destruct a as [x y].
      apply vec3_eq; mcbv; cbn; ring.
    + rewrite D, L. f_equal. field. apply not_0_INR. by destruct ps.
Qed.
Print Assumptions normalize_points_partial.

(** C76, as documented, fails: the average distance from the centroid is not sqrt 2. *)
Theorem normalize_average_refuted : exists ps qs m, normalize_image_points ps = Ok (Some (qs, m)) /\
  Rsum x2 qs = 0 /\ Rsum y2 qs = 0 /\ Rsum (fun q => sqrt (rsq q)) qs / INR (length qs) <> sqrt 2.
Proof.
  destruct (normalize_points_partial [V2 0 0; V2 0 0; V2 3 0]) as (qs & m & k & cx & cy & E & Hk & Hm & HL & HP & HX & HY & HD).
  { exists (V2 0 0), (V2 3 0). split; [left|]. split; [right; right; left|]. intros Z. injection Z as Z. lra. }
  exists [V2 0 0; V2 0 0; V2 3 0], qs, m. split; [done|]. split; [done|]. split; [done|].
  destruct qs as [|q0 [|q1 [|q2 [|]]]]; try done. clear HL E.
  pose proof (HP 0%nat _ _ eq_refl eq_refl) as E0. pose proof (HP 1%nat _ _ eq_refl eq_refl) as E1. pose proof (HP 2%nat _ _ eq_refl eq_refl) as E2. clear HP.
  subst m. destruct q0 as [a b], q1 as [a' b'], q2 as [c d]. unfold mapply, dot, point_h in E0, E1, E2. cbn in E0, E1, E2.
  injection E0 as E01 E02. injection E1 as E11 E12. injection E2 as E21 E22. unfold Rsum, rsq in *. cbn [foldr x2 y2 length] in *.
  replace (INR 3) with 3 in * by (cbn; ring).
  assert (A : a' = a) by lra. assert (C : c = - 2 * a) by lra. assert (B : b = 0 /\ b' = 0 /\ d = 0) by lra. destruct B as (-> & -> & ->). assert (Ha : a < 0) by lra.
  clear E01 E02 E11 E12 E21 E22 HX HY. subst a' c.
  assert (S1 : sqrt (a * a + 0 * 0) = - a). { replace (a * a + 0 * 0) with ((- a) * (- a)) by ring. apply sqrt_square. lra. }
  assert (S2 : sqrt (- 2 * a * (- 2 * a) + 0 * 0) = -2 * a). { replace (- 2 * a * (- 2 * a) + 0 * 0) with ((- 2 * a) * (- 2 * a)) by ring. apply sqrt_square. lra. }
  rewrite S1, S2. intros Z. apply (f_equal (fun z => z * z)) in HD. apply (f_equal (fun z => z * z)) in Z. rewrite sqrt_sqrt in Z by lra. rewrite !sqrt_sqrt in HD by nra. nra.
Qed.
Print Assumptions normalize_average_refuted.

(** C76.  Without points the behavior is undefined; if all points are equal there are no numbers, although the function
    returns true. *)
Theorem normalize_degenerate : normalize_image_points [] = UB /\
  forall p n, normalize_image_points (replicate (S n) p) = Ok None.
Proof.
  split; [done|]. intros p n. destruct (normalize_cases (replicate (S n) p)) as [(r & _ & H)|((a & b & Ha & Hb & Hab) & _)]; [done|done|].
  apply elem_of_replicate in Ha as [-> _], Hb as [-> _]. done.
Qed.
Print Assumptions normalize_degenerate.

(** C77.  Missing: a matrix with a negative determinant (refuted below).  The result is a rotation, a rotation is
    returned unchanged, and for a positive determinant no rotation is closer. *)
Theorem project_to_rotation_partial : forall svd M, svd_contract svd ->
  rotation (project_to_rotation svd M) /\ (rotation M -> project_to_rotation svd M = M) /\
  (0 < det3 M -> nearest_rotation M (project_to_rotation svd M)).
Proof.
  intros svd M H. split; [by apply project_rotation|]. split; [by apply project_keeps|]. by apply project_cases.
Qed.
Print Assumptions project_to_rotation_partial.
Example project_to_rotation_example : 0 < det3 (mscale 2 mid) /\ project_to_rotation exact_svd (mscale 2 mid) = mid.
Proof.
  split; [unfold det3; cbn; lra|].
  destruct (project_to_rotation_partial exact_svd (mscale 2 mid) exact_svd_contract) as (HR & _ & HN).
  destruct HN as [_ HN]; [unfold det3; cbn; lra|]. specialize (HN mid rotation_mid). set (P := project_to_rotation _ _) in *. clearbody P.
  rewrite !mdist_frob, (mfrob_rotation P) in HN by (by apply rotation_orthogonal). rewrite (mfrob_rotation mid) in HN by (apply rotation_orthogonal, rotation_mid).
  destruct (orthogonal_entries P (rotation_orthogonal P HR)) as (E0 & E1 & E2).
  destruct HR as [HR _]. destruct P as [[a b c] [d e f] [g h i]]. cbn in E0, E1, E2.
  unfold frob, mscale, vscale, mid, dot in HN. cbn in HN.
  assert (a = 1 /\ e = 1 /\ i = 1) as (-> & -> & ->) by lra.
  pose proof (f_equal (fun M => x3 (row0 M)) HR) as R0. pose proof (f_equal (fun M => y3 (row1 M)) HR) as R1. pose proof (f_equal (fun M => z3 (row2 M)) HR) as R2.
  unfold mmul, mtrans, mapply, mid, dot in R0, R1, R2. cbn in R0, R1, R2.
  assert (A : b * b = 0 /\ c * c = 0 /\ d * d = 0 /\ f * f = 0 /\ g * g = 0 /\ h * h = 0).
  { pose proof (Rle_0_sqr b). pose proof (Rle_0_sqr c). pose proof (Rle_0_sqr d). pose proof (Rle_0_sqr f). pose proof (Rle_0_sqr g). pose proof (Rle_0_sqr h). unfold Rsqr in *. lra. }
  assert (Z : forall r, r * r = 0 -> r = 0) by (intros r Q; apply Rmult_integral in Q as [?|?]; done).
  destruct A as (?&?&?&?&?&?). unfold mid. f_equal; f_equal; by apply Z.
Qed.

(** C77, as documented, fails: for every matrix with a negative determinant the result is the rotation that is farthest
    away, and it is not the nearest one. *)
Theorem project_to_rotation_refuted : forall svd M, svd_contract svd -> det3 M < 0 ->
  farthest_rotation M (project_to_rotation svd M) /\ ~ nearest_rotation M (project_to_rotation svd M).
Proof.
  intros svd M H HD. pose proof (proj2 (project_cases svd M H) HD) as HF. split; [done|]. intros [HR HN]. destruct HF as [_ HF].
  assert (HC : forall Rot, rotation Rot -> frob Rot M = frob (project_to_rotation svd M) M).
  { intros Rot HRot. specialize (HN Rot HRot). specialize (HF Rot HRot). rewrite !mdist_frob in HN, HF. rewrite (mfrob_rotation _ (rotation_orthogonal _ HRot)), (mfrob_rotation _ (rotation_orthogonal _ HR)) in HN. rewrite (mfrob_rotation _ (rotation_orthogonal _ HRot)), (mfrob_rotation _ (rotation_orthogonal _ HR)) in HF. lra. }
  (* the four diagonal rotations give the same value, so the entries vanish *)
  set (v := frob (project_to_rotation svd M) M) in *. clearbody v. clear HN HF HR.
  assert (RD : forall a b c, a * a = 1 -> b * b = 1 -> c = a * b -> rotation (diag3 a b c)).
  { intros a b c Ha Hb ->. assert (Hab : a * b * (a * b) = 1) by (transitivity ((a * a) * (b * b)); [ring|rewrite Ha, Hb; ring]). split.
    - rewrite diag3_trans, diag3_mmul. unfold diag3, mid. f_equal; f_equal; lra.
    - rewrite det_diag. lra. }
  assert (RP : forall a b c, a * a = 1 -> b * b = 1 -> c = a * b -> rotation (M3 (V3 0 a 0) (V3 0 0 b) (V3 c 0 0))).
  { intros a b c Ha Hb ->. assert (Hab : a * b * (a * b) = 1) by (transitivity ((a * a) * (b * b)); [ring|rewrite Ha, Hb; ring]). split.
    - apply mat3_eq; apply vec3_eq; mcbv; lra.
    - unfold det3. cbn. lra. }
  assert (RQ : forall a b c, a * a = 1 -> b * b = 1 -> c = a * b -> rotation (M3 (V3 0 0 a) (V3 b 0 0) (V3 0 c 0))).
  { intros a b c Ha Hb ->. assert (Hab : a * b * (a * b) = 1) by (transitivity ((a * a) * (b * b)); [ring|rewrite Ha, Hb; ring]). split.
    - apply mat3_eq; apply vec3_eq; mcbv; lra.
    - unfold det3. cbn. lra. }
  assert (HH : forall T : R -> R -> R -> mat3, (forall a b c, a * a = 1 -> b * b = 1 -> c = a * b -> rotation (T a b c)) ->
    frob (T 1 1 1) M = v /\ frob (T 1 (-1) (-1)) M = v /\ frob (T (-1) 1 (-1)) M = v /\ frob (T (-1) (-1) 1) M = v).
  { intros T HT. split_and!; apply HC; apply HT; lra. }
  pose proof (HH _ RD) as (D1 & D2 & D3 & D4). pose proof (HH _ RP) as (P1 & P2 & P3 & P4). pose proof (HH _ RQ) as (Q1 & Q2 & Q3 & Q4). clear HH RD RP RQ HC.
  destruct M as [[a b c] [d e f] [g h i]]. unfold frob, diag3, dot in *. cbn in *.
  assert (a = 0 /\ e = 0 /\ i = 0) as (-> & -> & ->) by lra. assert (b = 0 /\ f = 0 /\ g = 0) as (-> & -> & ->) by lra.
  assert (c = 0 /\ d = 0 /\ h = 0) as (-> & -> & ->) by lra. unfold det3 in HD. cbn in HD. lra.
Qed.
Print Assumptions project_to_rotation_refuted.
Example project_to_rotation_refuted_example : det3 (diag3 1 1 (-1)) < 0.
Proof. unfold det3, diag3. cbn. lra. Qed.

(** C78.  Whatever the matrix, the parts are two rotations and a unit vector.  From the essential matrix of a motion,
    or any multiple of it, one of the rotations is that of the motion, the other one differs from it by a half turn
    about the translation, and the translation is found up to length and sign. *)
Theorem decompose_essential_sound : forall svd E, svd_contract svd ->
  let '(r1, r2, t) := decompose_essential svd E in rotation r1 /\ rotation r2 /\ dot t t = 1.
Proof. intros svd E H. by apply decompose_proper. Qed.
Print Assumptions decompose_essential_sound.
Theorem decompose_essential_recovers : forall svd k Rot t, svd_contract svd -> rotation Rot -> t <> V3 0 0 0 -> k <> 0 ->
  let '(r1, r2, t') := decompose_essential svd (mscale k (essential Rot t)) in
  (t' = unit_of t \/ t' = vopp (unit_of t)) /\
  ((r1 = Rot /\ r2 = mmul (half_turn t) Rot) \/ (r2 = Rot /\ r1 = mmul (half_turn t) Rot)).
Proof.
  intros svd k Rot t Hs HR Ht Hk. destruct (decompose_exact svd k Rot t Hs HR Ht Hk) as (sg & Hsg & H).
  destruct (decompose_essential _ _) as [[r1 r2] t']. destruct H as [-> H]. split; [|done].
  destruct Hsg as [-> | ->]; [left|right]; destruct (unit_of t); apply vec3_eq; cbn; ring.
Qed.
Print Assumptions decompose_essential_recovers.
(** Each of the four combinations has the same essential matrix up to a factor. *)
Theorem decompose_essential_candidates : forall svd k Rot t, svd_contract svd -> rotation Rot -> t <> V3 0 0 0 -> k <> 0 ->
  let '(r1, r2, t') := decompose_essential svd (mscale k (essential Rot t)) in
  forall r s, r = r1 \/ r = r2 -> s = t' \/ s = vopp t' ->
    exists m, m <> 0 /\ essential r s = mscale m (mscale k (essential Rot t)).
Proof.
  intros svd k Rot t Hs HR Ht Hk. pose proof (decompose_essential_recovers svd k Rot t Hs HR Ht Hk) as H.
  destruct (decompose_essential _ _) as [[r1 r2] t']. destruct H as [Ht' Hr]. intros r s Hr' Hs'.
  destruct (unit_of_scale t Ht) as (u & Hu & Eu & Hun).
  assert (Es : exists v, v <> 0 /\ s = vscale v t).
  { assert (A : s = unit_of t \/ s = vopp (unit_of t)).
    { destruct Ht' as [-> | ->], Hs' as [-> | ->]; try tauto. left. destruct (unit_of t). apply vec3_eq; cbn; ring. }
    destruct A as [-> | ->]; rewrite Eu; [exists u|exists (- u)]; (split; [lra|]); [done|]. destruct t. apply vec3_eq; cbn; ring. }
  destruct Es as (v & Hv & ->).
  assert (Er : exists w, w <> 0 /\ mmul (skew t) r = mscale w (mmul (skew t) Rot)).
  { assert (A : r = Rot \/ r = mmul (half_turn t) Rot) by (destruct Hr as [[-> ->]|[-> ->]], Hr' as [-> | ->]; tauto).
    destruct A as [-> | ->]; [exists 1; split; [lra|by rewrite mscale_1]|].
    exists (-1). split; [lra|]. rewrite <- mmul_assoc, <- mmul_mscale_l. f_equal. unfold half_turn. rewrite Eu. clear.
    destruct t as [x y z]. apply mat3_eq; apply vec3_eq; mcbv; ring. }
  destruct Er as (w & Hw & Er). exists (v * w * / k). split.
  - repeat apply Rmult_integral_contrapositive_currified; try done. by apply Rinv_neq_0_compat.
  - rewrite mscale_mscale, essential_scale. unfold essential. rewrite Er, mscale_mscale. f_equal. field. done.
Qed.
Print Assumptions decompose_essential_candidates.
Example decompose_essential_example : rotation mid /\ V3 1 0 0 <> V3 0 0 0 /\ 2 <> 0.
Proof. split; [apply rotation_mid|]. split; [|lra]. intros Z. injection Z as Z. lra. Qed.

(** C79.  The pose returned is one of the four and has the largest number of correspondences in front of both cameras
    among them; that number is returned. *)
Theorem best_pose_optimal : forall svd E l, svd_contract svd ->
  let '(r1, r2, t) := decompose_essential svd E in
  let '(n, (r, p)) := best_pose svd E l in
  ((r = r1 \/ r = r2) /\ (p = vopp (mapply (mtrans r) t) \/ p = mapply (mtrans r) t)) /\ rotation r /\ dot p p = 1 /\
  n = count_in_front l (r, p) /\
  forall r' p', r' = r1 \/ r' = r2 -> p' = vopp (mapply (mtrans r') t) \/ p' = mapply (mtrans r') t ->
    (count_in_front l (r', p') <= n)%nat.
Proof.
  intros svd E l Hs. pose proof (decompose_proper svd E Hs) as HP. unfold best_pose.
  destruct (decompose_essential svd E) as [[r1 r2] t]. destruct HP as (R1 & R2 & Ht).
  assert (NN : forall r, vopp (mapply (mtrans r) (vopp t)) = mapply (mtrans r) t). { intros [[] [] []]. destruct t. apply vec3_eq; mcbv; ring. }
  rewrite !NN.
  match goal with |- context [foldl max_step ?x ?l] => destruct (max_fold x l) as [H1 H2]; set (b := foldl max_step x l) in * end.
  clearbody b. destruct b as [n [r p]]. cbn [fst] in *.
  assert (A : n = count_in_front l (r, p) /\ (r = r1 \/ r = r2) /\ (p = vopp (mapply (mtrans r) t) \/ p = mapply (mtrans r) t)).
  { apply elem_of_cons in H1 as [H1|H1]; [injection H1 as -> -> ->; tauto|].
    apply elem_of_cons in H1 as [H1|H1]; [injection H1 as -> -> ->; tauto|].
    apply elem_of_cons in H1 as [H1|H1]; [injection H1 as -> -> ->; tauto|].
    apply elem_of_cons in H1 as [H1|H1]; [injection H1 as -> -> ->; tauto|]. by apply not_elem_of_nil in H1. }
  destruct A as (An & Ar & Ap). assert (HR : rotation r) by (destruct Ar as [-> | ->]; done).
  split; [tauto|]. split; [done|]. split.
  { rewrite <- Ht, <- (orthogonal_norm (mtrans r) t (rotation_orthogonal _ (rotation_trans r HR))).
    destruct Ap as [-> | ->]; [|done]. unfold dot, vopp. cbn. ring. }
  split; [done|]. intros r' p' Hr' Hp'.
  refine (H2 (count_in_front l (r', p'), (r', p')) _). rewrite !elem_of_cons.
  destruct Hr' as [-> | ->], Hp' as [-> | ->]; tauto.
Qed.
Print Assumptions best_pose_optimal.

(** C79.  If more than half of the correspondences are images of points in front of both cameras, and the essential
    matrix is that of the cameras, their rotation and position are returned, whatever the other correspondences. *)
Theorem best_pose_recovers : forall svd k Rot c good bad l, svd_contract svd -> rotation Rot -> c <> V3 0 0 0 -> k <> 0 ->
  l ≡ₚ good ++ bad -> Forall (seen_by_both Rot c) good -> (length bad < length good)%nat ->
  let '(n, (r, p)) := best_pose svd (mscale k (essential Rot (vopp (mapply Rot c)))) l in
  r = Rot /\ p = unit_of c /\ (length good <= n <= length l)%nat.
Proof.
  intros svd k Rot c good bad l Hs HR Hc Hk Hl Hg Hb. rewrite (best_pose_exact svd k Rot c good bad l Hs HR Hc Hk Hl Hg Hb).
  split; [done|]. split; [done|]. split; [|apply count_le]. rewrite (count_split good bad l _ Hl).
  rewrite (count_all good); [lia|]. eapply list.Forall_impl; [exact Hg|]. intros f Hf. cbn [fst snd].
  destruct (unit_of_scale c Hc) as (u & Hu & -> & _). by apply true_pose_in_front.
Qed.
Print Assumptions best_pose_recovers.
Example best_pose_example : seen_by_both mid (V3 1 0 0) (V2 0 0, V2 (-1 / 2) 0).
Proof.
  exists (V3 0 0 2). rewrite mapply_id. unfold perspective, vsub. cbn. split; [lra|]. split; [f_equal; field|]. split; [lra|].
  split; [f_equal; field|]. intros Z. apply (f_equal y3) in Z. cbn in Z. lra.
Qed.

(** C83.  The test for a point in front of both cameras: the rays are not parallel and the points where they are
    closest to each other have positive depth along both. *)
Theorem in_front_of_cameras : forall f1 f2 Rot p,
  in_front f1 f2 Rot p = true <->
  (let d1 := point_h f1 in let d2 := mapply (mtrans Rot) (point_h f2) in
   cross d1 d2 <> V3 0 0 0 /\ exists z1 z2, 0 < z1 /\ 0 < z2 /\ closest d1 p d2 z1 z2).
Proof. exact in_front_iff. Qed.
Print Assumptions in_front_of_cameras.
(** C83.  So images of a point in front of two cameras pass for the right pose, at any distance of the cameras, and
    fail if the second camera is put on the other side. *)
Theorem in_front_of_true_cameras : forall Rot c f k, rotation Rot -> seen_by_both Rot c f -> 0 < k ->
  in_front f.1 f.2 Rot (vscale k c) = true /\ in_front f.1 f.2 Rot (vscale (- k) c) = false.
Proof.
  intros Rot c f k HR Hf Hk. split; [by apply true_pose_in_front|]. apply opposite_not_in_front; [done..|lra].
Qed.
Print Assumptions in_front_of_true_cameras.

(** C80.  The essential matrix made from two projection matrices [R | t] relates the images of every point: for the
    image in camera 2 it gives the epipolar line in camera 1.  It is the essential matrix of a motion with a
    translation of length 1, and up to a factor it is the fundamental matrix of the cameras. *)
Theorem essential_from_cameras : forall R1 t1 R2 t2, rotation R1 -> rotation R2 -> center (M34 R1 t1) <> center (M34 R2 t2) ->
  let E := essential_from_projections (M34 R1 t1) (M34 R2 t2) in
  (forall X, epipolar E (vadd (mapply R2 X) t2) (vadd (mapply R1 X) t1) = 0) /\
  (exists Rot t, rotation Rot /\ dot t t = 1 /\ E = essential Rot t) /\
  (exists m, m < 0 /\ fundamental_from_projections (M34 R1 t1) (M34 R2 t2) = mscale m E).
Proof.
  intros R1 t1 R2 t2 H1 H2 Hc E. destruct (essential_projections R1 t1 R2 t2 H1 H2 Hc) as [HE Hn].
  destruct (unit_of_scale _ Hn) as (u & Hu & Eu & Hun).
  assert (HF : fundamental_from_projections (M34 R1 t1) (M34 R2 t2) = mscale (- / u) E).
  { unfold E. rewrite HE, Eu, (fundamental_calibrated R1 t1 R2 t2 H1 H2), essential_scale, mscale_mscale. f_equal. field. lra. }
  pose proof (Rinv_0_lt_compat u Hu) as Hi.
  split; [|split].
  - intros X. pose proof (fundamental_epipolar (M34 R1 t1) (M34 R2 t2) (V4 (x3 X) (y3 X) (z3 X) 1)) as H.
    rewrite HF, epipolar_mscale in H. apply Rmult_integral in H as [H|H]; [lra|].
    rewrite <- H. f_equal; destruct X as [x y z]; [destruct R2, t2|destruct R1, t1]; apply vec3_eq; fcbv; cbn; ring.
  - exists (mmul R1 (mtrans R2)), (unit_of (vsub t1 (mapply (mmul R1 (mtrans R2)) t2))). split; [|split; [|exact HE]].
    + apply rotation_mmul; [done|by apply rotation_trans].
    + rewrite Eu, <- Hun. set (v := vsub _ _). unfold dot, vscale. cbn. ring.
  - exists (- / u). split; [lra|done].
Qed.
Print Assumptions essential_from_cameras.
Example essential_from_cameras_example : center (M34 mid (V3 0 0 0)) <> center (M34 mid (V3 1 0 0)).
Proof. unfold center. cbn [m_left m_last]. intros Z. apply (f_equal x3) in Z. revert Z. mcbv. lra. Qed.

(** C81.  The matrix made from two projection matrices relates the images of every point, exchanging the cameras
    transposes it, and it is the same for the cameras moved together. *)
Theorem fundamental_from_cameras : forall P1 P2,
  (forall X, epipolar (fundamental_from_projections P1 P2) (mat34_apply P2 X) (mat34_apply P1 X) = 0) /\
  fundamental_from_projections P2 P1 = mtrans (fundamental_from_projections P1 P2) /\
  (forall s, let moved P := M34 (m_left P) (vadd (m_last P) (mapply (m_left P) s)) in
     fundamental_from_projections (moved P1) (moved P2) = fundamental_from_projections P1 P2).
Proof.
  intros P1 P2. split; [apply fundamental_epipolar|]. split; [apply fundamental_swap|].
  intros s. destruct P1, P2. apply fundamental_translate.
Qed.
Print Assumptions fundamental_from_cameras.

(** C81.  The projection matrices made from a fundamental matrix F (so det F = 0) have exactly F as their fundamental
    matrix, so y^T F x = 0 for the images y and x of every point; the first camera is [I | 0]. *)
Theorem projections_have_fundamental : forall svd F, svd_contract svd -> det3 F = 0 ->
  let '(P1, P2) := projections_from_fundamental svd F in
  P1 = M34 mid (V3 0 0 0) /\ fundamental_from_projections P1 P2 = F /\
  forall X, epipolar F (mat34_apply P2 X) (mat34_apply P1 X) = 0.
Proof.
  intros svd F Hs HD. destruct (right_null_spec svd F Hs) as [Hn H0]. specialize (H0 HD). unfold projections_from_fundamental.
  set (e := right_null svd F) in *. clearbody e.
  assert (E : fundamental_from_projections (M34 mid (V3 0 0 0)) (M34 (mmul (cross_matrix e) (mtrans F)) e) = F).
  { rewrite fundamental_canonical. change (cross_matrix e) with (skew e). rewrite <- mmul_assoc, mtrans_mmul, mtrans_mtrans.
    assert (K : mtrans (mmul (skew e) (skew e)) = madd (outer e e) (mscale (-1) mid)).
    { destruct e as [x y z]. unfold dot in Hn. cbn in Hn. apply mat3_eq; apply vec3_eq; mcbv; lra. }
    rewrite K. destruct F as [[a b c] [d f g] [h i j]], e as [x y z]. unfold mapply, dot in H0. cbn in H0. injection H0 as A B C.
    apply mat3_eq; apply vec3_eq; mcbv;
      [transitivity (a - x * (a * x + b * y + c * z))|transitivity (b - y * (a * x + b * y + c * z))|transitivity (c - z * (a * x + b * y + c * z))
      |transitivity (d - x * (d * x + f * y + g * z))|transitivity (f - y * (d * x + f * y + g * z))|transitivity (g - z * (d * x + f * y + g * z))
      |transitivity (h - x * (h * x + i * y + j * z))|transitivity (i - y * (h * x + i * y + j * z))|transitivity (j - z * (h * x + i * y + j * z))];
      try ring; rewrite ?A, ?B, ?C; ring. }
  split; [done|]. split; [done|]. intros X. rewrite <- E at 1. apply fundamental_epipolar.
Qed.
Print Assumptions projections_have_fundamental.
Example projections_have_fundamental_example : det3 (essential mid (V3 1 2 3)) = 0.
Proof. unfold essential. rewrite det3_mmul, det_skew. ring. Qed.

(** C81.  Removing the focal lengths from a composed matrix gives back the essential matrix of the motion, and its
    epipolar constraint holds for the pixels of every point seen with these focal lengths; zero focal lengths give no
    numbers. *)
Theorem compose_fundamental_inverse : forall f1 f2 Rot t,
  match compose_fundamental f1 f2 Rot t with
  | Some F => f1 <> 0 /\ f2 <> 0 /\ essential_from_fundamental F f1 f2 = essential Rot t /\
      forall X, let Y := vadd (mapply Rot X) t in
        epipolar F (V3 (f1 * x3 X) (f1 * y3 X) (z3 X)) (V3 (f2 * x3 Y) (f2 * y3 Y) (z3 Y)) = 0
  | None => f1 = 0 \/ f2 = 0
  end.
Proof.
  intros f1 f2 Rot t. destruct (compose_fundamental f1 f2 Rot t) as [F|] eqn:E.
  - destruct (compose_essential f1 f2 Rot t F E) as (N1 & N2 & HE). split; [done|]. split; [done|]. split; [done|].
    intros X Y.
    assert (A : epipolar F (V3 (f1 * x3 X) (f1 * y3 X) (z3 X)) (V3 (f2 * x3 Y) (f2 * y3 Y) (z3 Y)) = epipolar (essential_from_fundamental F f1 f2) X Y).
    { unfold essential_from_fundamental, epipolar. clearbody Y. destruct F as [[] [] []], X, Y. mcbv. ring. }
    rewrite A, HE. unfold Y, epipolar, essential. rewrite mapply_mmul. set (v := mapply Rot X). clearbody v. destruct v, t. mcbv. ring.
  - unfold compose_fundamental in E. destruct (Req_EM_T f1 0); [tauto|]. destruct (Req_EM_T f2 0); [tauto|done].
Qed.
Print Assumptions compose_fundamental_inverse.

(** C82.  Missing: the cases refuted below.  If F belongs to some focal lengths, and numbers are returned, they are
    those focal lengths.  If moreover the first and third coordinates of both epipoles are not zero, the two principal
    points do not correspond, and in the first image the epipolar line of the second principal point is not
    perpendicular to the line from the first principal point to the epipole, the function succeeds. *)
Theorem focal_lengths_right_partial : forall svd F f1 f2 k Rot t, svd_contract svd -> 0 < f1 -> 0 < f2 -> k <> 0 ->
  rotation Rot -> t <> V3 0 0 0 -> essential_from_fundamental F f1 f2 = mscale k (essential Rot t) ->
  match focal_lengths_from_fundamental svd F with FocalOk g1 g2 => g1 = f1 /\ g2 = f2 | _ => True end.
Proof. intros svd F f1 f2 k Rot t H. by apply focal_never_wrong. Qed.
Print Assumptions focal_lengths_right_partial.
Theorem focal_lengths_found_partial : forall svd F f1 f2 k Rot t e1 e2, svd_contract svd -> 0 < f1 -> 0 < f2 -> k <> 0 ->
  rotation Rot -> t <> V3 0 0 0 -> essential_from_fundamental F f1 f2 = mscale k (essential Rot t) ->
  mapply F e1 = V3 0 0 0 -> mapply (mtrans F) e2 = V3 0 0 0 ->
  x3 e1 <> 0 -> z3 e1 <> 0 -> x3 e2 <> 0 -> z3 e2 <> 0 ->
  z3 (row2 F) <> 0 -> y3 (row2 F) * x3 e1 - x3 (row2 F) * y3 e1 <> 0 ->
  focal_lengths_from_fundamental svd F = FocalOk f1 f2.
Proof. intros svd F f1 f2 k Rot t e1 e2 H P1 P2 Nk HR Ht HE. exact (focal_defined svd H F f1 f2 k Rot t P1 P2 Nk HR Ht HE e1 e2). Qed.
Print Assumptions focal_lengths_found_partial.
(** C82.  Conversely, for every matrix of determinant 0, positive focal lengths that are returned make it the essential
    matrix of a motion. *)
Theorem focal_lengths_sound : forall svd F f1 f2, svd_contract svd -> det3 F = 0 ->
  focal_lengths_from_fundamental svd F = FocalOk f1 f2 -> 0 < f1 -> 0 < f2 ->
  exists Rot t, rotation Rot /\ t <> V3 0 0 0 /\ essential_from_fundamental F f1 f2 = essential Rot t.
Proof. exact focal_sound. Qed.
Print Assumptions focal_lengths_sound.

(** A rotation, and the same one seen by cameras that are turned by 90 degrees about their axes. *)
Definition rot_a : mat3 := M3 (V3 (1/3) (2/3) (2/3)) (V3 (2/3) (1/3) (-2/3)) (V3 (-2/3) (2/3) (-1/3)).
Definition turn90 : mat3 := M3 (V3 0 (-1) 0) (V3 1 0 0) (V3 0 0 1).
Lemma rot_a_rotation : rotation rot_a.
Proof. split; [apply mat3_eq; apply vec3_eq; unfold rot_a; mcbv; field|unfold det3, rot_a; cbn; field]. Qed.
Lemma turn90_rotation : rotation turn90.
Proof. split; [apply mat3_eq; apply vec3_eq; unfold turn90; mcbv; ring|unfold det3, turn90; cbn; ring]. Qed.
Lemma unit_focal E : essential_from_fundamental E 1 1 = E.
Proof. unfold essential_from_fundamental. destruct E as [[] [] []]. apply mat3_eq; apply vec3_eq; mcbv; ring. Qed.

(** C82 fails in general: there is a motion whose fundamental matrix gives no focal lengths, although after turning both
    images by 90 degrees they are found. *)
Theorem focal_lengths_refuted : exists Rot t, rotation Rot /\ t <> V3 0 0 0 /\
  essential_from_fundamental (essential Rot t) 1 1 = essential Rot t /\
  forall svd, svd_contract svd -> focal_lengths_from_fundamental svd (essential Rot t) = FocalFail /\
    focal_lengths_from_fundamental svd (mmul (mmul turn90 (essential Rot t)) (mtrans turn90)) = FocalOk 1 1.
Proof.
  set (t := V3 (4/3) (-1/3) (1/3)). assert (Ht : t <> V3 0 0 0) by (intros Z; apply (f_equal x3) in Z; cbn in Z; lra).
  exists rot_a, t. split; [apply rot_a_rotation|]. split; [done|]. split; [apply unit_focal|]. intros svd Hs. split.
  - assert (HD : det3 (essential rot_a t) = 0) by (unfold essential; rewrite det3_mmul, det_skew; ring).
    destruct (right_null_spec svd (essential rot_a t) Hs) as [_ HN]. specialize (HN HD).
    assert (X : x3 (right_null svd (essential rot_a t)) = 0).
    { set (e := right_null _ _) in *. clearbody e. destruct e as [x y z]. unfold essential, rot_a, t in HN. revert HN. mcbv. intros HN. injection HN as A B C. lra. }
    unfold focal_lengths_from_fundamental. rewrite X. destruct (Req_EM_T 0 0); [done|lra].
  - rewrite (essential_conj turn90 rot_a t (mtrans turn90) turn90_rotation).
    apply (focal_lengths_found_partial svd _ 1 1 1 (mmul (mmul turn90 rot_a) (mtrans turn90)) (mapply turn90 t) (V3 (-1) 0 1) (V3 (1/3) (4/3) (1/3)) Hs); try lra.
    + apply rotation_mmul; [apply rotation_mmul; [apply turn90_rotation|apply rot_a_rotation]|apply rotation_trans, turn90_rotation].
    + intros Z. apply (f_equal x3) in Z. unfold turn90, t in Z. revert Z. mcbv. lra.
    + rewrite unit_focal, mscale_1. done.
    + unfold essential, turn90, rot_a, t. apply vec3_eq; mcbv; field.
    + unfold essential, turn90, rot_a, t. apply vec3_eq; mcbv; field.
    + cbn. lra.
    + cbn. lra.
    + cbn. lra.
    + cbn. lra.
    + unfold essential, turn90, rot_a, t. mcbv. lra.
    + unfold essential, turn90, rot_a, t. mcbv. lra.
Qed.
Print Assumptions focal_lengths_refuted.

(** C82 fails in general: for an epipole at infinity the function reports success with values that are not numbers. *)
Theorem focal_lengths_undefined_refuted : exists Rot t, rotation Rot /\ t <> V3 0 0 0 /\
  essential_from_fundamental (essential Rot t) 1 1 = essential Rot t /\
  forall svd, svd_contract svd -> focal_lengths_from_fundamental svd (essential Rot t) = FocalUndefined.
Proof.
  set (t := V3 (1/3) (2/3) (-2/3)). assert (Ht : t <> V3 0 0 0) by (intros Z; apply (f_equal x3) in Z; cbn in Z; lra).
  exists rot_a, t. split; [apply rot_a_rotation|]. split; [done|]. split; [apply unit_focal|]. intros svd Hs.
  assert (HD : det3 (essential rot_a t) = 0) by (unfold essential; rewrite det3_mmul, det_skew; ring).
  destruct (right_null_spec svd (essential rot_a t) Hs) as [HU HN]. specialize (HN HD).
  destruct (right_null_spec svd (mtrans (essential rot_a t)) Hs) as [HU2 HN2]. rewrite det3_mtrans in HN2. specialize (HN2 HD).
  unfold focal_lengths_from_fundamental. set (e := right_null svd (essential rot_a t)) in *. clearbody e. set (e' := right_null svd (mtrans (essential rot_a t))) in *. clearbody e'.
  destruct e as [x y z], e' as [x' y' z']. unfold dot in HU, HU2. cbn [x3 y3 z3] in *.
  assert (A : y = 0 /\ z = 0). { revert HN. unfold essential, rot_a, t. mcbv. intros HN. injection HN as A B C. lra. }
  assert (B : y' = 2 * x' /\ z' = -2 * x'). { revert HN2. unfold essential, rot_a, t. mcbv. intros HN2. injection HN2 as A1 B C. lra. }
  destruct A as [-> ->], B as [-> ->]. destruct (Req_EM_T x 0) as [->|_]; [lra|]. destruct (Req_EM_T x' 0) as [->|_]; [lra|].
  destruct (Req_EM_T _ 0) as [_|N]; [done|]. exfalso. apply N. unfold rotation_z. mcbv. ring.
Qed.
Print Assumptions focal_lengths_undefined_refuted.
