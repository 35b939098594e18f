(** Triangulation: uniqueness of the point, the linear methods, the midpoint. *)
From stdpp Require Import gmap strings.
From Coq Require Import Reals Lra Psatz.
From Verif Require Import Base Camera_Model Camera_Spec Camera_Proofs RotationGraph_Model RotationGraph_Proofs Alignment_Model Alignment_Spec Alignment_Proofs
  Epipolar_Model Epipolar_Spec Epipolar_Proofs Epipolar_Pose Epipolar_Focal Epipolar_Focal2 LeastSquares_Model LeastSquares_Proofs Triangulation_Model Triangulation_Spec.
Local Open Scope R_scope.

Ltac tcbv := cbv beta iota zeta delta [outer mmul mtrans mapply mscale madd vscale vadd vsub vopp dot diag3 mid skew cross col0 col1 col2 x3 y3 z3 row0 row1 row2
  mat34_apply m_left m_last point_h homog x2 y2 x4 y4 z4 w4 row4 prow dlt_rows ldot ladd lscale map app foldr head4 list4 dot4 scale4 dlt_error sqdist fst snd].

Lemma vec4_eq (a b : vec4) : x4 a = x4 b -> y4 a = y4 b -> z4 a = z4 b -> w4 a = w4 b -> a = b.
Proof. destruct a, b. cbn. by intros -> -> -> ->. Qed.
Lemma list4_length (v : list R) : length v = 4%nat -> exists a b c d, v = [a; b; c; d].
Proof. destruct v as [|a [|b [|c [|d [|]]]]]; try done. eauto. Qed.
Lemma list4_head v : length v = 4%nat -> list4 (head4 v) = v.
Proof. intros (a & b & c & d & ->)%list4_length. done. Qed.
Lemma head4_list X : head4 (list4 X) = X.
Proof. by destruct X. Qed.
Lemma ldot_list4 X Y : ldot (list4 X) (list4 Y) = dot4 X Y.
Proof. destruct X, Y. tcbv. ring. Qed.
Lemma dot4_nonneg X : 0 <= dot4 X X.
Proof. rewrite <- ldot_list4. apply ldot_nonneg. Qed.

(** ** The point is determined by its images *)
Lemma camera_apply P c X : camera_at P c -> mat34_apply P X = mapply (m_left P) (vsub (V3 (x4 X) (y4 X) (z4 X)) (vscale (w4 X) c)).
Proof.
  intros [_ H]. destruct P as [[[a b c0] [d e f] [g h i]] [t1 t2 t3]], c as [u v w], X as [x y z q]. revert H. tcbv. intros H. injection H as H1 H2 H3.
  apply vec3_eq; tcbv.
  - transitivity (a * x + b * y + c0 * z + q * t1 - q * (a * u + b * v + c0 * w + t1)); [rewrite H1; ring|ring].
  - transitivity (d * x + e * y + f * z + q * t2 - q * (d * u + e * v + f * w + t2)); [rewrite H2; ring|ring].
  - transitivity (g * x + h * y + i * z + q * t3 - q * (g * u + h * v + i * w + t3)); [rewrite H3; ring|ring].
Qed.
Lemma invertible M v : det3 M <> 0 -> mapply M v = V3 0 0 0 -> v = V3 0 0 0.
Proof.
  intros HD H. assert (E : mapply (mmul (adj M) M) v = V3 0 0 0) by (rewrite mapply_mmul, H; apply mapply_zero).
  rewrite adj_l, mapply_mscale, mapply_id in E. apply (vscale_inj (det3 M)); [done|]. rewrite E. apply vec3_eq; cbn; ring.
Qed.
Lemma same_ray M u v h r s : det3 M <> 0 -> u <> V3 0 0 0 -> mapply M u = vscale r h -> mapply M v = vscale s h -> exists k, v = vscale k u.
Proof.
  intros HD Hu E1 E2. assert (Hr : r <> 0).
  { intros ->. apply Hu. apply (invertible M); [done|]. rewrite E1. apply vec3_eq; cbn; ring. }
  exists (s / r). assert (Z : vsub v (vscale (s / r) u) = V3 0 0 0).
  { apply (invertible M); [done|]. rewrite mapply_vsub, mapply_vscale, E1, E2. apply vec3_eq; cbn; field; done. }
  destruct v, u. unfold vsub, vscale in *. cbn in *. injection Z as Z1 Z2 Z3. f_equal; lra.
Qed.
Lemma off_baseline_nonzero X c1 c2 : off_baseline X c1 c2 ->
  vsub (V3 (x4 X) (y4 X) (z4 X)) (vscale (w4 X) c1) <> V3 0 0 0 /\ vsub (V3 (x4 X) (y4 X) (z4 X)) (vscale (w4 X) c2) <> V3 0 0 0.
Proof.
  unfold off_baseline. intros H. split; intros Z; apply H.
  - rewrite Z. apply vec3_eq; tcbv; ring.
  - set (X' := V3 (x4 X) (y4 X) (z4 X)) in *. assert (E : X' = vscale (w4 X) c2).
    { destruct X' as [a b c]. destruct c2. revert Z. tcbv. intros Z. injection Z as Z1 Z2 Z3. f_equal; lra. }
    rewrite E. destruct c1, c2. generalize (w4 X). intros. apply vec3_eq; tcbv; ring.
Qed.
Lemma cross_combination a b p q : cross a b <> V3 0 0 0 -> vscale p a = vscale q b -> p = 0 /\ q = 0.
Proof.
  intros N E. assert (Hp : vscale p (cross a b) = V3 0 0 0).
  { transitivity (cross (vscale p a) b); [destruct a, b; apply vec3_eq; tcbv; ring|]. rewrite E. destruct a, b. apply vec3_eq; tcbv; ring. }
  assert (Hq : vscale q (cross a b) = V3 0 0 0).
  { transitivity (cross a (vscale q b)); [destruct a, b; apply vec3_eq; tcbv; ring|]. rewrite <- E. destruct a, b. apply vec3_eq; tcbv; ring. }
  split; (destruct (Req_EM_T p 0) as [|Np] || idtac); try done.
  - exfalso. apply N. apply (vscale_inj p); [done|]. rewrite Hp. apply vec3_eq; cbn; ring.
  - destruct (Req_EM_T q 0) as [|Nq]; [done|]. exfalso. apply N. apply (vscale_inj q); [done|]. rewrite Hq. apply vec3_eq; cbn; ring.
  - destruct (Req_EM_T q 0) as [|Nq]; [done|]. exfalso. apply N. apply (vscale_inj q); [done|]. rewrite Hq. apply vec3_eq; cbn; ring.
Qed.
Lemma image_unique P1 P2 c1 c2 X Y p1 p2 : camera_at P1 c1 -> camera_at P2 c2 -> off_baseline X c1 c2 ->
  image P1 X p1 -> image P2 X p2 -> image P1 Y p1 -> image P2 Y p2 -> exists k, Y = scale4 k X.
Proof.
  intros C1 C2 HB [r1 X1] [r2 X2] [s1 Y1] [s2 Y2]. destruct (off_baseline_nonzero X c1 c2 HB) as [N1 N2].
  rewrite (camera_apply P1 c1 X C1) in X1. rewrite (camera_apply P1 c1 Y C1) in Y1. rewrite (camera_apply P2 c2 X C2) in X2. rewrite (camera_apply P2 c2 Y C2) in Y2.
  destruct (same_ray _ _ _ _ _ _ (proj1 C1) N1 X1 Y1) as [k1 K1]. destruct (same_ray _ _ _ _ _ _ (proj1 C2) N2 X2 Y2) as [k2 K2]. clear X1 X2 Y1 Y2 N1 N2 C1 C2.
  unfold off_baseline in HB. set (u := vsub (V3 (x4 X) (y4 X) (z4 X)) (vscale (w4 X) c1)) in *.
  destruct (cross_combination u (vsub c2 c1) (k1 - k2) (w4 Y - k2 * w4 X) HB) as [A B].
  { destruct X as [x y z w], Y as [x' y' z' w'], c1 as [a b c], c2 as [d e f]. unfold u in *. revert K1 K2. tcbv. intros K1 K2. injection K1 as K11 K12 K13. injection K2 as K21 K22 K23.
    apply vec3_eq; tcbv; lra. }
  exists k1. assert (k2 = k1) by lra. subst k2. destruct X as [x y z w], Y as [x' y' z' w'], c1 as [a b c]. unfold u in *. revert K1 B. tcbv. intros K1 B. injection K1 as K11 K12 K13.
  assert (w' = k1 * w) by lra. subst w'. f_equal; lra.
Qed.

Lemma scale4_same v X : unit4 v -> (exists k, v = scale4 k X) -> same_point v X.
Proof. done. Qed.

(** ** TriangulateDLT *)
Lemma dlt_sum P1 P2 p1 p2 v : length v = 4%nat ->
  foldr (fun r s => ldot r v * ldot r v + s) 0 (dlt_rows P1 p1 ++ dlt_rows P2 p2) = dlt_error P1 p1 (head4 v) + dlt_error P2 p2 (head4 v).
Proof.
  intros (a & b & c & d & ->)%list4_length. destruct P1 as [[[] [] []] []], P2 as [[[] [] []] []], p1, p2. tcbv. ring.
Qed.
Lemma dlt_rows_ok P1 P2 p1 p2 : Forall (fun r => length r = 4%nat) (dlt_rows P1 p1 ++ dlt_rows P2 p2).
Proof. destruct P1 as [[[] [] []] []], P2 as [[[] [] []] []], p1, p2. repeat constructor. Qed.
Lemma dlt_error_zero P p X : dlt_error P p X <= 0 <-> image P X p.
Proof.
  unfold dlt_error, image. destruct (mat34_apply P X) as [a b c], p as [x y]. cbn. split.
  - intros H. pose proof (Rle_0_sqr (x * c - a)) as A. pose proof (Rle_0_sqr (y * c - b)) as B. unfold Rsqr in *.
    assert (Z : forall r, r * r = 0 -> r = 0) by (intros r Q; apply Rmult_integral in Q as [?|?]; done).
    assert (x * c - a = 0) by (apply Z; lra). assert (y * c - b = 0) by (apply Z; lra). exists c. unfold vscale. cbn. f_equal; lra.
  - intros [s E]. unfold vscale in E. cbn in E. injection E as -> -> ->. right. ring.
Qed.
Lemma dlt_optimal smallest P1 P2 p1 p2 : smallest_contract smallest ->
  let v := triangulate_dlt smallest P1 P2 p1 p2 in
  unit4 v /\ forall X, unit4 X -> dlt_error P1 p1 v + dlt_error P2 p2 v <= dlt_error P1 p1 X + dlt_error P2 p2 X.
Proof.
  intros Hc v. destruct (Hc 4%nat _ ltac:(lia) (dlt_rows_ok P1 P2 p1 p2)) as (L & U & M). cbv zeta in *. fold v in L, U, M.
  set (l := smallest 4%nat _) in *. assert (Hv : v = head4 l) by done. split.
  - unfold unit4. rewrite <- ldot_list4, Hv, list4_head by done. done.
  - intros X HX. specialize (M (list4 X) eq_refl). rewrite ldot_list4 in M. specialize (M HX). rewrite !dlt_sum in M by done. rewrite head4_list in M. by rewrite Hv.
Qed.
Lemma dlt_error_nonneg P p X : 0 <= dlt_error P p X.
Proof. unfold dlt_error. cbv zeta. pose proof (Rle_0_sqr (x2 p * z3 (mat34_apply P X) - x3 (mat34_apply P X))). pose proof (Rle_0_sqr (x2 p * z3 (mat34_apply P X) - x3 (mat34_apply P X))).
  pose proof (Rle_0_sqr (y2 p * z3 (mat34_apply P X) - y3 (mat34_apply P X))). unfold Rsqr in *. lra. Qed.
Lemma normalize4 X : 0 < dot4 X X -> unit4 (scale4 (/ sqrt (dot4 X X)) X).
Proof.
  intros Hp. unfold unit4. pose proof (sqrt_lt_R0 _ Hp) as Hs. transitivity (/ sqrt (dot4 X X) * / sqrt (dot4 X X) * dot4 X X).
  - unfold dot4 at 1. unfold scale4. cbn. unfold dot4. ring.
  - rewrite <- (sqrt_sqrt (dot4 X X)) at 3 by lra. field. lra.
Qed.
Lemma mat34_apply_scale P k X : mat34_apply P (scale4 k X) = vscale k (mat34_apply P X).
Proof. destruct P as [[[] [] []] []], X. apply vec3_eq; tcbv; ring. Qed.
Lemma image_scale P k X p : image P X p -> image P (scale4 k X) p.
Proof. intros [s E]. exists (k * s). rewrite mat34_apply_scale, E. destruct p. apply vec3_eq; tcbv; ring. Qed.
Lemma off_baseline_pos X c1 c2 : off_baseline X c1 c2 -> 0 < dot4 X X.
Proof.
  intros H. destruct (Rle_lt_or_eq_dec _ _ (dot4_nonneg X)) as [|Z]; [done|]. exfalso. apply H. symmetry in Z. rewrite <- ldot_list4 in Z. apply ldot_zero in Z.
  destruct X as [x y z w]. injection Z as -> -> -> ->. destruct c1, c2. apply vec3_eq; tcbv; ring.
Qed.
Lemma dlt_exact smallest P1 P2 c1 c2 p1 p2 X : smallest_contract smallest -> camera_at P1 c1 -> camera_at P2 c2 -> off_baseline X c1 c2 ->
  image P1 X p1 -> image P2 X p2 -> same_point (triangulate_dlt smallest P1 P2 p1 p2) X.
Proof.
  intros Hc C1 C2 HB I1 I2. destruct (dlt_optimal smallest P1 P2 p1 p2 Hc) as [U M]. set (v := triangulate_dlt _ _ _ _ _) in *.
  pose proof (off_baseline_pos X c1 c2 HB) as Hp. specialize (M _ (normalize4 X Hp)).
  assert (A1 : dlt_error P1 p1 (scale4 (/ sqrt (dot4 X X)) X) <= 0) by (by apply dlt_error_zero, image_scale).
  assert (A2 : dlt_error P2 p2 (scale4 (/ sqrt (dot4 X X)) X) <= 0) by (by apply dlt_error_zero, image_scale).
  pose proof (dlt_error_nonneg P1 p1 v). pose proof (dlt_error_nonneg P2 p2 v). split; [done|].
  apply (image_unique P1 P2 c1 c2 X v p1 p2 C1 C2 HB I1 I2); apply dlt_error_zero; lra.
Qed.
