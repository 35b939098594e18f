(** Proofs about fundamental matrices, projection matrices and focal lengths. *)
From stdpp Require Import gmap strings.
From Coq Require Import Reals Lra Psatz Nsatz.
From Verif Require Import Base Camera_Model Camera_Spec Camera_Proofs RotationGraph_Model RotationGraph_Proofs Alignment_Model Alignment_Spec Alignment_Proofs
  Epipolar_Model Epipolar_Spec Epipolar_Proofs.
Local Open Scope R_scope.

Ltac fcbv := cbv beta iota zeta delta [fundamental_from_projections det4 prow det3 mat34_apply m_left m_last epipolar essential fst snd
  outer mmul mtrans mapply mscale madd vscale vadd vsub vopp dot diag3 mid skew cross_matrix cross col0 col1 col2 x3 y3 z3 row0 row1 row2 x4 y4 z4 w4].

Lemma right_null_spec svd F : svd_contract svd -> dot (right_null svd F) (right_null svd F) = 1 /\ (det3 F = 0 -> mapply F (right_null svd F) = V3 0 0 0).
Proof.
  intros H. specialize (H F). unfold right_null. destruct (svd F) as [[U sv] V]. destruct H as (HU & HV & H2 & H1 & HF).
  rewrite col2_apply. split.
  - rewrite (orthogonal_norm V _ HV). unfold e3, dot. cbn. ring.
  - intros HD. rewrite HF at 1. rewrite !mapply_mmul, <- (mapply_mmul (mtrans V) V), (orthogonal_l V HV), mapply_id, mapply_diag3.
    assert (Z : z3 sv = 0).
    { rewrite HF, !det3_mmul, det_diag, det3_mtrans in HD. pose proof (orthogonal_det U HU) as DU. pose proof (orthogonal_det V HV) as DV.
      assert (P : x3 sv * y3 sv * z3 sv = 0).
      { set (s := x3 sv * y3 sv * z3 sv) in *.
        assert (E : (det3 U * s * det3 V) * (det3 U * det3 V) = (det3 U * det3 U) * (det3 V * det3 V) * s) by ring.
        rewrite HD, DU, DV in E. lra. }
      destruct (Req_dec (z3 sv) 0) as [|N]; [done|]. assert (0 < z3 sv) by lra.
      assert (0 < x3 sv * y3 sv) by (apply Rmult_lt_0_compat; lra). assert (0 < x3 sv * y3 sv * z3 sv) by (by apply Rmult_lt_0_compat). lra. }
    rewrite Z. unfold e3. destruct U as [[a b c] [d e f] [g h i]]. apply vec3_eq; mcbv; ring.
Qed.

Lemma fundamental_epipolar P1 P2 X : epipolar (fundamental_from_projections P1 P2) (mat34_apply P2 X) (mat34_apply P1 X) = 0.
Proof.
  destruct P1 as [[[a b c] [d e f] [g h i]] [j k l]], P2 as [[[a' b' c'] [d' e' f'] [g' h' i']] [j' k' l']], X as [x y z w].
  fcbv. ring.
Qed.
Lemma fundamental_swap P1 P2 : fundamental_from_projections P2 P1 = mtrans (fundamental_from_projections P1 P2).
Proof.
  destruct P1 as [[[a b c] [d e f] [g h i]] [j k l]], P2 as [[[a' b' c'] [d' e' f'] [g' h' i']] [j' k' l']].
  apply mat3_eq; apply vec3_eq; fcbv; ring.
Qed.
(** For cameras [R | t] the fundamental matrix is the essential matrix of the relative motion, up to the sign. *)
Lemma fundamental_canonical M e : fundamental_from_projections (M34 mid (V3 0 0 0)) (M34 M e) = mscale (-1) (mtrans (mmul (skew e) M)).
Proof. destruct M as [[a b c] [d e' f] [g h i]], e as [x y z]. apply mat3_eq; apply vec3_eq; fcbv; ring. Qed.
Lemma fundamental_left A M v P2 : fundamental_from_projections (M34 (mmul A M) (mapply A v)) P2 = mmul (mtrans (adj A)) (fundamental_from_projections (M34 M v) P2).
Proof.
  destruct P2 as [[[a' b' c'] [d' e' f'] [g' h' i']] [j' k' l']], A as [[a b c] [d e f] [g h i]], M as [[m1 m2 m3] [m4 m5 m6] [m7 m8 m9]], v as [v1 v2 v3].
  apply mat3_eq; apply vec3_eq; unfold adj; fcbv; ring.
Qed.
Lemma fundamental_translate M1 t1 M2 t2 s :
  fundamental_from_projections (M34 M1 (vadd t1 (mapply M1 s))) (M34 M2 (vadd t2 (mapply M2 s))) = fundamental_from_projections (M34 M1 t1) (M34 M2 t2).
Proof.
  destruct M1 as [[a b c] [d e f] [g h i]], M2 as [[m1 m2 m3] [m4 m5 m6] [m7 m8 m9]], t1, t2, s.
  apply mat3_eq; apply vec3_eq; fcbv; ring.
Qed.
Lemma fundamental_calibrated R1 t1 R2 t2 : rotation R1 -> rotation R2 ->
  let rel := mmul R1 (mtrans R2) in
  fundamental_from_projections (M34 R1 t1) (M34 R2 t2) = mscale (-1) (essential rel (vsub t1 (mapply rel t2))).
Proof.
  intros H1 H2 rel. assert (Hrel : rotation rel) by (apply rotation_mmul; [done|by apply rotation_trans]).
  assert (E : fundamental_from_projections (M34 R1 t1) (M34 R2 t2) =
    fundamental_from_projections (M34 (mmul R1 mid) (mapply R1 (V3 0 0 0))) (M34 R2 (vsub t2 (mapply R2 (mapply (mtrans R1) t1))))).
  { rewrite <- (fundamental_translate (mmul R1 mid) _ _ _ (mapply (mtrans R1) t1)). rewrite mmul_id_r. f_equal; f_equal.
    - rewrite <- mapply_mmul. destruct H1 as [-> _]. rewrite mapply_id. destruct R1, t1. apply vec3_eq; mcbv; ring.
    - apply vec3_eq; mcbv; ring. }
  rewrite E, fundamental_left, fundamental_canonical. rewrite <- (rotation_adj R1 H1), mtrans_mtrans.
  set (ta := vsub t2 (mapply R2 (mapply (mtrans R1) t1))).
  assert (Er : mapply rel ta = vopp (vsub t1 (mapply rel t2))).
  { unfold ta, rel. rewrite mapply_vsub. rewrite <- (mapply_mmul R2 (mtrans R1)), <- (mapply_mmul _ (mmul R2 (mtrans R1))).
    assert (K : mmul (mmul R1 (mtrans R2)) (mmul R2 (mtrans R1)) = mid).
    { rewrite mmul_assoc, <- (mmul_assoc (mtrans R2)), (rotation_trans_l R2 H2), mmul_id_l. by destruct H1. }
    rewrite K, mapply_id. apply vec3_eq; unfold vsub, vopp; cbn; ring. }
  rewrite mtrans_mmul, skew_trans.
  assert (Es : mmul rel (skew ta) = mscale (-1) (essential rel (vsub t1 (mapply rel t2)))).
  { pose proof (skew_conj rel ta Hrel) as C. rewrite Er, skew_vopp in C. unfold essential.
    rewrite <- mmul_mscale_l, <- C, mmul_assoc, (rotation_trans_l rel Hrel), mmul_id_r. done. }
  rewrite <- Es. unfold rel. generalize (skew ta). intros S. destruct R1 as [[a b c] [d e f] [g h i]], R2 as [[m1 m2 m3] [m4 m5 m6] [m7 m8 m9]], S as [[s1 s2 s3] [s4 s5 s6] [s7 s8 s9]].
  apply mat3_eq; apply vec3_eq; mcbv; ring.
Qed.

(** The epipolar constraint of the essential matrix of two calibrated cameras. *)
Lemma epipolar_mscale k F x y : epipolar (mscale k F) x y = k * epipolar F x y.
Proof. unfold epipolar, dot, mapply, mscale, vscale, dot. cbn. ring. Qed.
Lemma essential_scale k Rot t : essential Rot (vscale k t) = mscale k (essential Rot t).
Proof. unfold essential. by rewrite skew_vscale, mmul_mscale_l. Qed.

Lemma essential_projections R1 t1 R2 t2 : rotation R1 -> rotation R2 -> center (M34 R1 t1) <> center (M34 R2 t2) ->
  essential_from_projections (M34 R1 t1) (M34 R2 t2) = essential (mmul R1 (mtrans R2)) (unit_of (vsub t1 (mapply (mmul R1 (mtrans R2)) t2))) /\
  vsub t1 (mapply (mmul R1 (mtrans R2)) t2) <> V3 0 0 0.
Proof.
  intros H1 H2 Hc. assert (N : vsub t1 (mapply (mmul R1 (mtrans R2)) t2) <> V3 0 0 0).
  { intros E. apply Hc. unfold center. cbn [m_left m_last]. f_equal.
    assert (Et : t1 = mapply (mmul R1 (mtrans R2)) t2).
    { apply vec3_eq; [apply (f_equal x3) in E|apply (f_equal y3) in E|apply (f_equal z3) in E]; unfold vsub in E; cbn [x3 y3 z3] in E; lra. }
    rewrite Et, mapply_mmul, <- mapply_mmul, (rotation_trans_l _ H1), mapply_id. done. }
  split; [|done]. unfold essential_from_projections. cbn [m_left m_last]. rewrite (unit_normalize _ N). done.
Qed.

Lemma compose_essential f1 f2 Rot t F : compose_fundamental f1 f2 Rot t = Some F -> f1 <> 0 /\ f2 <> 0 /\ essential_from_fundamental F f1 f2 = essential Rot t.
Proof.
  unfold compose_fundamental. destruct (Req_EM_T f1 0) as [|N1]; [done|]. destruct (Req_EM_T f2 0) as [|N2]; [done|].
  intros [= <-]. split_and!; [done..|]. unfold essential_from_fundamental, essential. rewrite cross_matrix_skew, !mmul_assoc.
  rewrite <- (mmul_assoc (diag3 f2 f2 1)), !diag3_mmul.
  assert (I : forall f, f <> 0 -> diag3 (f * / f) (f * / f) (1 * 1) = mid /\ diag3 (/ f * f) (/ f * f) (1 * 1) = mid).
  { intros f Hf. split; unfold diag3, mid; f_equal; f_equal; field; done. }
  rewrite (proj1 (I f2 N2)), (proj2 (I f1 N1)), mmul_id_l, mmul_id_r. done.
Qed.
Lemma essential_det_zero F f1 f2 Rot t k : f1 <> 0 -> f2 <> 0 -> essential_from_fundamental F f1 f2 = mscale k (essential Rot t) -> det3 F = 0.
Proof.
  intros N1 N2 H. apply (f_equal det3) in H. unfold essential_from_fundamental in H. rewrite !det3_mmul, !det_diag in H.
  assert (E : forall M, det3 (mscale k M) = k * k * k * det3 M) by (intros [[] [] []]; unfold det3, mscale, vscale; cbn; ring).
  rewrite E in H. unfold essential in H. rewrite det3_mmul, det_skew in H.
  assert (K : f2 * f2 * 1 * det3 F * (f1 * f1 * 1) = (f2 * f2 * (f1 * f1)) * det3 F) by ring. rewrite K in H.
  replace (k * k * k * (0 * det3 Rot)) with 0 in H by ring. apply Rmult_integral in H as [H|H]; [|done].
  exfalso. apply Rmult_integral in H as [H|H]; apply Rmult_integral in H as [H|H]; done.
Qed.

(** * Focal lengths *)
Lemma atan2_spec y x : x <> 0 -> sin (atan2_nz y x) * x = cos (atan2_nz y x) * y.
Proof.
  intros H. assert (A : sin (atan (y / x)) * x = cos (atan (y / x)) * y).
  { pose proof (tan_atan (y / x)) as T. unfold tan in T. pose proof (atan_bound (y / x)) as [B1 B2].
    assert (C : 0 < cos (atan (y / x))) by (apply cos_gt_0; lra).
    apply (f_equal (fun z => z * cos (atan (y / x)) * x)) in T. field_simplify in T; [|lra..]. lra. }
  unfold atan2_nz. destruct (Rlt_dec 0 x); [done|]. destruct (Rle_dec 0 y).
  - rewrite neg_sin, neg_cos. lra.
  - replace (atan (y / x) - PI) with (- (PI - atan (y / x))) by ring. rewrite sin_neg, cos_neg, sin_PI_x, Rtrigo_facts.cos_pi_minus. lra.
Qed.
Lemma rotation_z_rotation th : rotation (rotation_z th).
Proof.
  pose proof (sin2_cos2 th) as H. unfold Rsqr in H. split; [|unfold det3, rotation_z; cbn; lra].
  unfold rotation_z. apply mat3_eq; apply vec3_eq; mcbv; lra.
Qed.
Lemma rotation_z_diag th f : mmul (rotation_z th) (diag3 f f 1) = mmul (diag3 f f 1) (rotation_z th).
Proof. unfold rotation_z. apply mat3_eq; apply vec3_eq; mcbv; ring. Qed.
Lemma rotation_z_diag_t th f : mmul (mtrans (rotation_z th)) (diag3 f f 1) = mmul (diag3 f f 1) (mtrans (rotation_z th)).
Proof. unfold rotation_z. apply mat3_eq; apply vec3_eq; mcbv; ring. Qed.

Definition norm_rotation (e : vec3) : mat3 := rotation_z (atan2_nz (- y3 e) (x3 e)).
Lemma norm_rotation_spec e : x3 e <> 0 -> dot e e = 1 ->
  let e' := mapply (norm_rotation e) e in y3 e' = 0 /\ x3 e' <> 0.
Proof.
  intros H H1. unfold norm_rotation. set (th := atan2_nz _ _). pose proof (atan2_spec (- y3 e) (x3 e) H) as A. fold th in A.
  pose proof (orthogonal_norm (rotation_z th) e (rotation_orthogonal _ (rotation_z_rotation th))) as N. cbv zeta.
  assert (Y : y3 (mapply (rotation_z th) e) = 0).
  { destruct e as [x y z]. unfold rotation_z, mapply, dot in *. cbn in *. lra. }
  assert (Z : z3 (mapply (rotation_z th) e) = z3 e).
  { destruct e as [x y z]. unfold rotation_z, mapply, dot in *. cbn in *. lra. }
  split; [done|]. intros X. unfold dot in N. rewrite X, Y, Z in N. assert (K : x3 e * x3 e + y3 e * y3 e = 0) by lra. nra.
Qed.

(** If the essential matrix of F and the focal lengths is that of a motion, the rows of the rotated matrix are
    orthogonal. *)
Lemma focal_rows F f1 f2 k Rot t e2 r1 : f1 <> 0 -> f2 <> 0 -> k <> 0 -> rotation Rot -> t <> V3 0 0 0 ->
  essential_from_fundamental F f1 f2 = mscale k (essential Rot t) ->
  dot e2 e2 = 1 -> mapply (mtrans F) e2 = V3 0 0 0 -> y3 (mapply (norm_rotation e2) e2) = 0 ->
  let G := mmul (mmul (norm_rotation e2) F) (mtrans (rotation_z r1)) in
  f1 * f1 * (x3 (row0 G) * x3 (row1 G) + y3 (row0 G) * y3 (row1 G)) + z3 (row0 G) * z3 (row1 G) = 0.
Proof.
  intros N1 N2 Nk HR Ht HE He1 He2 Hy G. unfold norm_rotation in *. set (th := atan2_nz _ _) in *. clearbody th.
  pose proof (rotation_z_rotation th) as HZ2. pose proof (rotation_z_rotation r1) as HZ1.
  set (E := mscale k (essential Rot t)) in *.
  (* the translation is along the epipole *)
  set (v := mapply (diag3 (/ f2) (/ f2) 1) e2).
  assert (Hv : mapply (diag3 f2 f2 1) v = e2).
  { unfold v. rewrite !mapply_diag3. cbn [x3 y3 z3]. destruct e2 as [a b c]. cbn. f_equal; field; done. }
  assert (HEv : mapply (mtrans E) v = V3 0 0 0).
  { rewrite <- HE. unfold essential_from_fundamental. rewrite !mtrans_mmul, !diag3_trans, !mapply_mmul, Hv, He2. rewrite mapply_diag3. cbn. f_equal; ring. }
  pose proof (essential_square k Rot t HR) as HS. cbv zeta in HS. fold E in HS.
  assert (Hvt : vscale (dot t t) v = vscale (dot t v) t).
  { assert (Z : mapply (mmul E (mtrans E)) v = V3 0 0 0) by (rewrite mapply_mmul, HEv; destruct E; apply vec3_eq; mcbv; ring).
    rewrite HS, skew_square, mapply_mscale in Z.
    assert (Nkk : k * k <> 0) by (intros Q; apply Rmult_integral in Q as [?|?]; done).
    destruct (mapply (madd (mscale (dot t t) mid) (mscale (-1) (outer t t))) v) as [p q r] eqn:EM.
    unfold vscale in Z. cbn in Z. injection Z as Z1 Z2 Z3. apply Rmult_integral in Z1 as [?|Z1]; [done|]. apply Rmult_integral in Z2 as [?|Z2]; [done|]. apply Rmult_integral in Z3 as [?|Z3]; [done|].
    rewrite Z1, Z2, Z3 in EM. clearbody v. clear -EM. destruct t as [a b c], v as [x y z]. revert EM. mcbv. intros EM. injection EM as E1 E2 E3. f_equal; lra. }
  assert (Hty : y3 (mapply (rotation_z th) t) = 0).
  { assert (Y : f2 * y3 (mapply (rotation_z th) v) = 0).
    { rewrite <- Hy, <- Hv. rewrite <- mapply_mmul, rotation_z_diag, mapply_mmul, mapply_diag3. done. }
    apply Rmult_integral in Y as [?|Y]; [done|].
    assert (Y' : dot t v * y3 (mapply (rotation_z th) t) = 0).
    { transitivity (y3 (mapply (rotation_z th) (vscale (dot t v) t))); [rewrite mapply_vscale; done|]. rewrite <- Hvt, mapply_vscale. cbn [vscale y3]. rewrite Y. ring. }
    apply Rmult_integral in Y' as [Z|?]; [|done]. exfalso.
    assert (Vz : v = V3 0 0 0).
    { rewrite Z in Hvt. pose proof (dot_pos' t Ht). 
      apply vec3_eq; [apply (f_equal x3) in Hvt|apply (f_equal y3) in Hvt|apply (f_equal z3) in Hvt]; unfold vscale in Hvt; cbn [x3 y3 z3] in Hvt;
        (apply (Rmult_eq_reg_l (dot t t)); [cbn [x3 y3 z3]; lra|lra]). }
    rewrite Vz in Hv. rewrite <- Hv in He1. unfold mapply, diag3, dot in He1. cbn in He1. lra. }
  (* the square of the rotated essential matrix *)
  set (E' := mmul (mmul (rotation_z th) E) (mtrans (rotation_z r1))).
  assert (HE' : E' = mmul (mmul (diag3 f2 f2 1) G) (diag3 f1 f1 1)).
  { unfold E', G. rewrite <- HE. unfold essential_from_fundamental.
    rewrite !mmul_assoc. rewrite <- rotation_z_diag_t. rewrite <- !mmul_assoc. f_equal. f_equal. rewrite !mmul_assoc, <- mmul_assoc, rotation_z_diag, mmul_assoc. done. }
  assert (HSq : mmul E' (mtrans E') = mscale (k * k) (madd (mscale (dot t t) mid) (mscale (-1) (outer (mapply (rotation_z th) t) (mapply (rotation_z th) t))))).
  { unfold E'. rewrite !mtrans_mmul, mtrans_mtrans, !mmul_assoc. rewrite <- (mmul_assoc (mtrans (rotation_z r1))), (rotation_trans_l _ HZ1), mmul_id_l.
    rewrite <- (mmul_assoc E), HS, skew_square. rewrite mmul_mscale_l, mmul_mscale_r. f_equal.
    assert (K : forall M s u, mmul M (mtrans M) = mid -> mmul M (mmul (madd (mscale s mid) (mscale (-1) (outer u u))) (mtrans M)) = madd (mscale s mid) (mscale (-1) (outer (mapply M u) (mapply M u)))).
    { intros M s u HM. transitivity (madd (mscale s (mmul M (mtrans M))) (mscale (-1) (outer (mapply M u) (mapply M u)))); [clear|by rewrite HM]. destruct M as [[a b c] [d e f] [g h i]], u as [x y z]. apply mat3_eq; apply vec3_eq; mcbv; ring. }
    apply K. by destruct HZ2. }
  apply (f_equal (fun M => y3 (row0 M))) in HSq. rewrite HE' in HSq.
  assert (L : y3 (row0 (mmul (mmul (mmul (diag3 f2 f2 1) G) (diag3 f1 f1 1)) (mtrans (mmul (mmul (diag3 f2 f2 1) G) (diag3 f1 f1 1)))))
    = f2 * f2 * (f1 * f1 * (x3 (row0 G) * x3 (row1 G) + y3 (row0 G) * y3 (row1 G)) + z3 (row0 G) * z3 (row1 G))).
  { clearbody G. destruct G as [[a b c] [d e f] [g h i]]. mcbv. ring. }
  rewrite L in HSq. 
  assert (Rz : y3 (row0 (mscale (k * k) (madd (mscale (dot t t) mid) (mscale (-1) (outer (mapply (rotation_z th) t) (mapply (rotation_z th) t)))))) = 0).
  { set (u := mapply (rotation_z th) t) in *. unfold mscale, madd, outer, vscale, vadd, mid. cbn [x3 y3 z3 row0 row1 row2]. rewrite Hty. ring. }
  rewrite Rz in HSq. apply Rmult_integral in HSq as [Q|Q]; [|done]. exfalso. apply Rmult_integral in Q as [?|?]; done.
Qed.

(** The numbers that the function computes. *)
Section numbers.
Context (F : mat3) (e1 e2 : vec3).
Let r1 := norm_rotation e1.
Let r2 := norm_rotation e2.
Let G := mmul (mmul r2 F) (mtrans r1).
Let p1 := x3 (mapply r1 e1).
Let q1 := z3 (mapply r1 e1).
Let p2 := x3 (mapply r2 e2).
Let q2 := z3 (mapply r2 e2).
Context (H1 : mapply F e1 = V3 0 0 0) (H2 : mapply (mtrans F) e2 = V3 0 0 0) (U1 : dot e1 e1 = 1) (U2 : dot e2 e2 = 1).
Context (X1 : x3 e1 <> 0) (X2 : x3 e2 <> 0).

Lemma focal_p : p1 <> 0 /\ p2 <> 0.
Proof using X1 X2 U1 U2. split; [apply (norm_rotation_spec e1 X1 U1)|apply (norm_rotation_spec e2 X2 U2)]. Qed.
Lemma focal_right : mapply G (V3 p1 0 q1) = V3 0 0 0.
Proof using H1 X1 U1.
  assert (E : V3 p1 0 q1 = mapply r1 e1).
  { unfold p1, q1. pose proof (norm_rotation_spec e1 X1 U1) as [Y _]. fold r1 in Y. destruct (mapply r1 e1). cbn in *. by rewrite Y. }
  rewrite E. unfold G. rewrite <- mapply_mmul, mmul_assoc, (rotation_trans_l r1 (rotation_z_rotation _)), mmul_id_r, mapply_mmul, H1.
  destruct r2. apply vec3_eq; mcbv; ring.
Qed.
Lemma focal_left : mapply (mtrans G) (V3 p2 0 q2) = V3 0 0 0.
Proof using H2 X2 U2.
  assert (E : V3 p2 0 q2 = mapply r2 e2).
  { unfold p2, q2. pose proof (norm_rotation_spec e2 X2 U2) as [Y _]. fold r2 in Y. destruct (mapply r2 e2). cbn in *. by rewrite Y. }
  rewrite E. unfold G. rewrite !mtrans_mmul, mtrans_mtrans. rewrite <- mapply_mmul, !mmul_assoc, (rotation_trans_l r2 (rotation_z_rotation _)), mmul_id_r, mapply_mmul, H2.
  destruct r1. apply vec3_eq; mcbv; ring.
Qed.
End numbers.

Lemma null_coords (G : mat3) p1 q1 p2 q2 : q1 <> 0 -> q2 <> 0 -> mapply G (V3 p1 0 q1) = V3 0 0 0 -> mapply (mtrans G) (V3 p2 0 q2) = V3 0 0 0 ->
  exists a b c d, G = M3 (V3 (q2 * q1 * a) (q2 * b) (- (q2 * p1 * a))) (V3 (q1 * c) d (- (p1 * c))) (V3 (- (p2 * q1 * a)) (- (p2 * b)) (p2 * p1 * a)) /\
    a = / q2 * x3 (row0 G) * / q1 /\ b = / q2 * y3 (row0 G) /\ c = x3 (row1 G) * / q1 /\ d = y3 (row1 G).
Proof.
  intros N1 N2 HR HL. destruct G as [[g00 g01 g02] [g10 g11 g12] [g20 g21 g22]].
  unfold mapply, mtrans, dot in HR, HL. cbn in HR, HL. injection HR as A0 A1 A2. injection HL as B0 B1 B2.
  exists (/ q2 * g00 * / q1), (/ q2 * g01), (g10 * / q1), g11. cbn [x3 y3 row0 row1]. split; [|split_and!; done].
  assert (E02 : g02 = - (p1 * g00 / q1)) by (apply (Rmult_eq_reg_r q1); [|done]; field_simplify; [lra|done]).
  assert (E12 : g12 = - (p1 * g10 / q1)) by (apply (Rmult_eq_reg_r q1); [|done]; field_simplify; [lra|done]).
  assert (E20 : g20 = - (p2 * g00 / q2)) by (apply (Rmult_eq_reg_r q2); [|done]; field_simplify; [lra|done]).
  assert (E21 : g21 = - (p2 * g01 / q2)) by (apply (Rmult_eq_reg_r q2); [|done]; field_simplify; [lra|done]).
  assert (E22 : g22 = p1 * p2 * g00 / (q1 * q2)).
  { apply (Rmult_eq_reg_r q1); [|done]. transitivity (- (g20 * p1)); [lra|]. rewrite E20. field. split; done. }
  rewrite E02, E12, E20, E21, E22. f_equal; f_equal; field; try split; done.
Qed.

Lemma focal_unfold svd F : svd_contract svd -> det3 F = 0 ->
  let e1 := right_null svd F in let e2 := right_null svd (mtrans F) in
  dot e1 e1 = 1 /\ dot e2 e2 = 1 /\ mapply F e1 = V3 0 0 0 /\ mapply (mtrans F) e2 = V3 0 0 0 /\
  let r1 := norm_rotation e1 in let r2 := norm_rotation e2 in let G := mmul (mmul r2 F) (mtrans r1) in
  let p1 := x3 (mapply r1 e1) in let q1 := z3 (mapply r1 e1) in let p2 := x3 (mapply r2 e2) in let q2 := z3 (mapply r2 e2) in
  ((x3 e1 = 0 \/ x3 e2 = 0) /\ focal_lengths_from_fundamental svd F = FocalFail) \/
  (x3 e1 <> 0 /\ x3 e2 <> 0 /\ (q1 = 0 \/ q2 = 0) /\ focal_lengths_from_fundamental svd F = FocalUndefined) \/
  (x3 e1 <> 0 /\ x3 e2 <> 0 /\ q1 <> 0 /\ q2 <> 0 /\ p1 <> 0 /\ p2 <> 0 /\ exists a b c d,
    G = M3 (V3 (q2 * q1 * a) (q2 * b) (- (q2 * p1 * a))) (V3 (q1 * c) d (- (p1 * c))) (V3 (- (p2 * q1 * a)) (- (p2 * b)) (p2 * p1 * a)) /\
    let n1 := a * c * q1 * q1 + b * d in let n2 := a * b * q2 * q2 + c * d in
    let s1 := (- a * c * p1 * p1) / n1 in let s2 := (- a * b * p2 * p2) / n2 in
    focal_lengths_from_fundamental svd F =
      if Req_EM_T n1 0 then FocalUndefined else if Req_EM_T n2 0 then FocalUndefined
      else if Rlt_dec s1 0 then FocalFail else if Rlt_dec s2 0 then FocalFail else FocalOk (sqrt s1) (sqrt s2)).
Proof.
  intros Hs HD e1 e2. destruct (right_null_spec svd F Hs) as [U1 N1]. specialize (N1 HD).
  assert (HDt : det3 (mtrans F) = 0) by by rewrite det3_mtrans.
  destruct (right_null_spec svd (mtrans F) Hs) as [U2 N2]. specialize (N2 HDt). fold e1 in U1, N1. fold e2 in U2, N2.
  refine (conj U1 (conj U2 (conj N1 (conj N2 _)))). intros r1 r2 G p1 q1 p2 q2. unfold focal_lengths_from_fundamental. fold e1 e2.
  destruct (Req_EM_T (x3 e1) 0) as [Z1|X1]; [left; tauto|]. destruct (Req_EM_T (x3 e2) 0) as [Z2|X2]; [left; tauto|]. right.
  change (rotation_z (atan2_nz (- y3 e1) (x3 e1))) with r1. change (rotation_z (atan2_nz (- y3 e2) (x3 e2))) with r2.
  change (mmul (mmul r2 F) (mtrans r1)) with G. change (x3 (mapply r1 e1)) with p1. change (z3 (mapply r1 e1)) with q1.
  change (x3 (mapply r2 e2)) with p2. change (z3 (mapply r2 e2)) with q2. cbv zeta.
  destruct (Req_EM_T q1 0) as [Z1|Q1]; [left; tauto|]. destruct (Req_EM_T q2 0) as [Z2|Q2]; [left; tauto|]. right.
  destruct (focal_p e1 e2 U1 U2 X1 X2) as [P1 P2]. fold r1 r2 in P1, P2. change (x3 (mapply r1 e1)) with p1 in P1. change (x3 (mapply r2 e2)) with p2 in P2.
  split_and!; [done..|].
  pose proof (focal_right F e1 e2 N1 U1 X1) as HR. pose proof (focal_left F e1 e2 N2 U2 X2) as HL. fold r1 r2 in HR, HL. fold G in HR, HL. fold p1 q1 in HR. fold p2 q2 in HL.
  destruct (null_coords G p1 q1 p2 q2 Q1 Q2 HR HL) as (a & b & c & d & HG & Ea & Eb & Ec & Ed).
  exists a, b, c, d. split; [done|].
  assert (K : forall A s1 s2 u1 u2, let M := mmul (mmul (diag3 s1 1 s2) A) (diag3 u1 1 u2) in
    x3 (row0 M) = s1 * x3 (row0 A) * u1 /\ y3 (row0 M) = s1 * y3 (row0 A) /\ x3 (row1 M) = x3 (row1 A) * u1 /\ y3 (row1 M) = y3 (row1 A)).
  { intros [[] [] []] s1 s2 u1 u2. mcbv. split_and!; ring. }
  destruct (K G (/ q2) (/ - p2) (/ q1) (/ - p1)) as (K1 & K2 & K3 & K4). cbv zeta in K1, K2, K3, K4.
  rewrite K1, K2, K3, K4, <- Ea, <- Eb, <- Ec, <- Ed. done.
Qed.
