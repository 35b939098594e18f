(** Proofs about the two-view matrix utilities. *)
From stdpp Require Import gmap strings.
From Coq Require Import Reals Lra Psatz Nsatz.
From Verif Require Import Base Camera_Model Camera_Spec Camera_Proofs RotationGraph_Model RotationGraph_Proofs Alignment_Model Alignment_Spec Alignment_Proofs
  Epipolar_Model Epipolar_Spec.
Local Open Scope R_scope.

Lemma mat3_eq (A B : mat3) : row0 A = row0 B -> row1 A = row1 B -> row2 A = row2 B -> A = B.
Proof. destruct A as [a1 a2 a3], B as [b1 b2 b3]. cbn. intros -> -> ->. done. Qed.
Ltac mcbv := cbv beta iota delta [outer mmul mtrans mapply mscale madd vscale vadd vsub vopp dot diag3 mid skew cross_matrix cross col0 col1 col2 x3 y3 z3 row0 row1 row2].
Ltac mring := mcbv; try (f_equal; f_equal; ring); try (f_equal; ring); try ring.

(** * Sampson distance *)
Lemma homog_point p : homog p = point_h p.
Proof. done. Qed.
Lemma sampson_gradient F x y dx dy :
  first_order F x y dx dy = dot (homog y) (mapply F (homog x))
    + (dot (homog y) (col0 F) * x2 dx + dot (homog y) (col1 F) * y2 dx
       + x3 (mapply F (homog x)) * x2 dy + y3 (mapply F (homog x)) * y2 dy).
Proof.
  destruct F as [[a b c] [d e f] [g h i]]. unfold first_order, epipolar, point_h, offset_h, homog, mapply, dot, col0, col1. cbn. ring.
Qed.

(** Least-norm solution of one linear equation in four unknowns. *)
Lemma cauchy4 a b c d p q r s :
  (a * p + b * q + c * r + d * s) * (a * p + b * q + c * r + d * s)
    <= (a * a + b * b + c * c + d * d) * (p * p + q * q + r * r + s * s).
Proof.
  assert (H : forall x, 0 <= x * x) by (intros; apply Rle_0_sqr).
  pose proof (H (a * q - b * p)). pose proof (H (a * r - c * p)). pose proof (H (a * s - d * p)).
  pose proof (H (b * r - c * q)). pose proof (H (b * s - d * q)). pose proof (H (c * s - d * r)). nra.
Qed.

(** * Skew matrices *)
Lemma skew_apply t v : mapply (skew t) v = cross t v.
Proof. unfold mapply, skew, cross, dot. cbn. f_equal; ring. Qed.
Lemma cross_matrix_skew t : cross_matrix t = skew t.
Proof. done. Qed.
Lemma skew_trans t : mtrans (skew t) = mscale (-1) (skew t).
Proof. destruct t as [a b c]. unfold skew. mring. Qed.
Lemma skew_conj M t : rotation M -> mmul (mmul M (skew t)) (mtrans M) = skew (mapply M t).
Proof.
  intros H. pose proof (rotation_adj _ H) as Ha.
  assert (E : mmul M (skew t) = mmul (skew (mapply M t)) M).
  { destruct H as [HM HD]. 
    assert (E' : mmul (mtrans (adj M)) (skew t) = mmul (skew (mapply M t)) M).
    { destruct M as [[a b c] [d e f] [g h i]], t as [t1 t2 t3]. unfold adj, skew. mring. }
    rewrite <- Ha, mtrans_mtrans in E'. done. }
  rewrite E, mmul_assoc. destruct H as [-> _]. apply mmul_id_r.
Qed.
Lemma skew_vscale k t : skew (vscale k t) = mscale k (skew t).
Proof. destruct t as [a b c]. unfold skew. mring. Qed.
Lemma skew_vopp t : skew (vopp t) = mscale (-1) (skew t).
Proof. destruct t as [a b c]. unfold skew. mring. Qed.

(** * Decomposition of essential matrices *)
Lemma positive_col2_orthogonal M : orthogonal M -> orthogonal (positive_col2 M).
Proof.
  intros H. unfold positive_col2. destruct (Rlt_dec _ _); [|done]. apply orthogonal_mmul; [done|].
  unfold orthogonal, diag3. mring.
Qed.
Lemma det_diag a b c : det3 (diag3 a b c) = a * b * c.
Proof. unfold det3, diag3. cbn. ring. Qed.
Lemma positive_col2_rotation M : orthogonal M -> rotation (positive_col2 M).
Proof.
  intros H. split; [by apply positive_col2_orthogonal|].
  pose proof (orthogonal_det M H) as HD. unfold positive_col2. destruct (Rlt_dec _ _).
  - rewrite det3_mmul, det_diag. nra.
  - nra.
Qed.
Lemma decompose_d_rotation : rotation decompose_d.
Proof. split; [unfold decompose_d; mring|unfold det3, decompose_d; cbn; ring]. Qed.

Definition e3 : vec3 := V3 0 0 1.
Lemma col2_apply M : col2 M = mapply M e3.
Proof. destruct M as [[a b c] [d e f] [g h i]]. unfold e3. mring. Qed.
Lemma diag3_mmul a b c d e f : mmul (diag3 a b c) (diag3 d e f) = diag3 (a * d) (b * e) (c * f).
Proof. mring. Qed.
Lemma diag3_trans a b c : mtrans (diag3 a b c) = diag3 a b c.
Proof. mring. Qed.
Lemma conj_cancel U D : orthogonal U -> mmul (mmul (mtrans U) (mmul (mmul U D) (mtrans U))) U = D.
Proof.
  intros H. pose proof (orthogonal_l U H) as Hl. rewrite !mmul_assoc, Hl, mmul_id_r, <- mmul_assoc, Hl, mmul_id_l. done.
Qed.
Lemma svd_square A U s0 s1 s2 V : orthogonal V -> A = mmul (mmul U (diag3 s0 s1 s2)) (mtrans V) ->
  mmul A (mtrans A) = mmul (mmul U (diag3 (s0 * s0) (s1 * s1) (s2 * s2))) (mtrans U).
Proof.
  intros HV ->. rewrite !mtrans_mmul, mtrans_mtrans, diag3_trans. rewrite <- diag3_mmul.
  pose proof (orthogonal_l V HV) as Hl. rewrite !mmul_assoc. rewrite <- (mmul_assoc (mtrans V) V), Hl, mmul_id_l. done.
Qed.
Lemma skew_square t : mmul (skew t) (mtrans (skew t)) = madd (mscale (dot t t) mid) (mscale (-1) (outer t t)).
Proof. destruct t as [a b c]. unfold outer. mring. Qed.
Lemma essential_square k Rot t : rotation Rot ->
  let A := mscale k (essential Rot t) in mmul A (mtrans A) = mscale (k * k) (mmul (skew t) (mtrans (skew t))).
Proof.
  intros [H _] A. unfold A, essential.
  assert (E : mtrans (mscale k (mmul (skew t) Rot)) = mscale k (mmul (mtrans Rot) (mtrans (skew t)))).
  { rewrite <- mtrans_mmul. generalize (mmul (skew t) Rot). intros M. destruct M as [[a b c] [d e f] [g h i]]. mring. }
  rewrite E, mmul_mscale_l, mmul_mscale_r, mmul_assoc, <- (mmul_assoc Rot), H, mmul_id_l.
  generalize (mmul (skew t) (mtrans (skew t))). intros M. destruct M as [[a b c] [d e f] [g h i]]. mring.
Qed.
Lemma skew_fourth t : let M := mmul (skew t) (mtrans (skew t)) in mmul M M = mscale (dot t t) M.
Proof.
  intros M. unfold M. rewrite skew_square. destruct t as [a b c].
  apply mat3_eq; apply vec3_eq; mcbv; ring.
Qed.
Lemma mapply_diag3 a b c v : mapply (diag3 a b c) v = V3 (a * x3 v) (b * y3 v) (c * z3 v).
Proof. mring. Qed.
Lemma dot_pos' t : t <> V3 0 0 0 -> 0 < dot t t.
Proof.
  intros H. destruct (Rle_lt_or_eq_dec 0 (dot t t) (dot_nonneg t)) as [G|G]; [done|]. exfalso. apply H.
  symmetry in G. unfold dot in G. apply sumsq0 in G. destruct G as (? & ? & ?). by apply vec3_eq.
Qed.
Lemma det_skew t : det3 (skew t) = 0.
Proof. unfold det3, skew. cbn. ring. Qed.

Lemma essential_svd k Rot t U s0 s1 s2 V : rotation Rot -> t <> V3 0 0 0 -> k <> 0 ->
  is_svd (mscale k (essential Rot t)) (U, V3 s0 s1 s2, V) ->
  s2 = 0 /\ s0 = s1 /\ 0 < s0 /\ s0 * s0 = k * k * dot t t /\
  exists e, e * e * dot t t = 1 /\ col2 U = vscale e t.
Proof.
  intros HR Ht Hk (HU & HV & H2 & H1 & HA). cbn [x3 y3 z3] in *. pose proof (dot_pos' t Ht) as Hp.
  set (A := mscale k (essential Rot t)) in *.
  assert (HD : det3 A = 0).
  { unfold A, essential. assert (E : forall M, det3 (mscale k M) = k * k * k * det3 M) by (intros [[] [] []]; unfold det3, mscale, vscale; cbn; ring).
    rewrite E, det3_mmul, det_skew. ring. }
  rewrite HA, !det3_mmul, det_diag, det3_mtrans in HD.
  assert (Z : s2 = 0).
  { pose proof (orthogonal_det U HU) as DU. pose proof (orthogonal_det V HV) as DV.
    assert (P : s0 * s1 * s2 = 0).
    { assert (E : (det3 U * (s0 * s1 * s2) * det3 V) * (det3 U * det3 V) = (det3 U * det3 U) * (det3 V * det3 V) * (s0 * s1 * s2)) by ring.
      rewrite HD, DU, DV in E. lra. }
    destruct (Req_dec s2 0) as [|N]; [done|]. assert (0 < s2) by lra. assert (0 < s1) by lra. assert (0 < s0) by lra.
    assert (0 < s0 * s1) by nra. nra. }
  pose proof (svd_square A U s0 s1 s2 V HV HA) as HS.
  pose proof (essential_square k Rot t HR) as HE. cbv zeta in HE. fold A in HE.
  set (W := mmul (skew t) (mtrans (skew t))) in *. pose proof (skew_fourth t) as H4. cbv zeta in H4. fold W in H4.
  assert (HB : mmul (mmul A (mtrans A)) (mmul A (mtrans A)) = mscale (k * k * dot t t) (mmul A (mtrans A))).
  { rewrite HE, mmul_mscale_l, mmul_mscale_r, H4. generalize W. intros [[] [] []]. mring. }
  rewrite HS in HB.
  assert (HC : diag3 (s0 * s0 * (s0 * s0)) (s1 * s1 * (s1 * s1)) (s2 * s2 * (s2 * s2)) =
    mscale (k * k * dot t t) (diag3 (s0 * s0) (s1 * s1) (s2 * s2))).
  { rewrite <- (conj_cancel U (mscale _ _) HU). rewrite mmul_mscale_r, mmul_mscale_l, <- HB.
    set (D := diag3 (s0 * s0) (s1 * s1) (s2 * s2)). rewrite !mmul_assoc.
    pose proof (orthogonal_l U HU) as Hl.
    rewrite Hl, mmul_id_r, <- (mmul_assoc (mtrans U) U), Hl, mmul_id_l.
    rewrite <- (mmul_assoc (mtrans U) U), Hl, mmul_id_l. unfold D. rewrite diag3_mmul. done. }
  assert (HT : s0 * s0 + s1 * s1 + s2 * s2 = 2 * (k * k * dot t t)).
  { assert (ET : forall D, RotationGraph_Spec.trace (mmul (mmul U D) (mtrans U)) = RotationGraph_Spec.trace D).
    { intros D. assert (C : forall X Y, RotationGraph_Spec.trace (mmul X Y) = RotationGraph_Spec.trace (mmul Y X)).
      { intros [[] [] []] [[] [] []]. unfold RotationGraph_Spec.trace, mmul, mapply, mtrans, dot. cbn. ring. }
      rewrite C, <- mmul_assoc, (orthogonal_l U HU), mmul_id_l. done. }
    pose proof (f_equal RotationGraph_Spec.trace HS) as T. rewrite ET, HE in T.
    unfold W in T. rewrite skew_square in T. unfold RotationGraph_Spec.trace, diag3, mscale, madd, vadd, vscale, outer, mid, dot in T. cbn in T.
    unfold dot. lra. }
  unfold diag3, mscale, vscale in HC. cbn in HC. injection HC as C0 _ _ _ C1 _ _ _ C2.
  set (w := k * k * dot t t) in *. assert (Hkp : 0 < k * k) by (pose proof (Rsqr_pos_lt k Hk); unfold Rsqr in *; lra).
  assert (Hw : 0 < w) by (unfold w; apply Rmult_lt_0_compat; lra).
  assert (Q0 : s0 * s0 = w /\ s1 * s1 = w).
  { rewrite Z in HT. assert (s0 * s0 * (s0 * s0 - w) = 0) by lra. assert (s1 * s1 * (s1 * s1 - w) = 0) by lra.
    apply Rmult_integral in H as [G|G]; apply Rmult_integral in H0 as [G'|G']; lra. }
  destruct Q0 as [Q0 Q1]. split; [done|]. split; [nra|]. split; [nra|]. split; [done|].
  exists (dot t (col2 U) / dot t t).
  assert (HN : mapply W (col2 U) = V3 0 0 0).
  { pose proof (f_equal (fun M => mapply M (col2 U)) HS) as T. cbn beta in T. rewrite HE, mapply_mscale in T.
    rewrite col2_apply, !mapply_mmul in T. rewrite <- (mapply_mmul (mtrans U) U), (orthogonal_l U HU), mapply_id in T.
    rewrite mapply_diag3 in T. unfold e3 in T. cbn [x3 y3 z3] in T. rewrite Z in T.
    rewrite col2_apply. destruct (mapply W (mapply U (V3 0 0 1))) as [p q r] eqn:EW. unfold e3. rewrite EW.
    unfold vscale in T. cbn [x3 y3 z3] in T.
    assert (E0 : mapply U (V3 (s0 * s0 * 0) (s1 * s1 * 0) (0 * 0 * 1)) = V3 0 0 0) by mring.
    rewrite E0 in T. injection T as T1 T2 T3. assert (Hkk : k * k <> 0) by nra.
    apply Rmult_integral in T1 as [?|T1]; [done|]. apply Rmult_integral in T2 as [?|T2]; [done|].
    apply Rmult_integral in T3 as [?|T3]; [done|]. by subst. }
  assert (HP : vscale (dot t t) (col2 U) = vscale (dot t (col2 U)) t).
  { unfold W in HN. rewrite skew_square in HN. generalize dependent (col2 U). intros u HN.
    unfold mapply, madd, mscale, vadd, vscale, outer, mid, dot in HN. cbn in HN. injection HN as N1 N2 N3.
    apply vec3_eq; unfold vscale, dot; cbn; lra. }
  assert (HQ : col2 U = vscale (dot t (col2 U) / dot t t) t).
  { pose proof (f_equal x3 HP) as P1. pose proof (f_equal y3 HP) as P2. pose proof (f_equal z3 HP) as P3.
    unfold vscale in P1, P2, P3. cbn [x3 y3 z3] in P1, P2, P3.
    apply vec3_eq; unfold vscale; cbn [x3 y3 z3]; apply (Rmult_eq_reg_l (dot t t)); try lra; field_simplify; lra. }
  split; [|exact HQ].
  assert (HN1 : dot (col2 U) (col2 U) = 1).
  { rewrite col2_apply, (orthogonal_norm U _ HU). unfold e3, dot. cbn. ring. }
  rewrite HQ in HN1 at 1 2. unfold dot at 1 in HN1. unfold vscale in HN1. cbn [x3 y3 z3] in HN1.
  rewrite <- HN1. unfold dot at 5. ring.
Qed.

Lemma unit_normalize v : v <> V3 0 0 0 -> normalize v = unit_of v.
Proof.
  intros H. unfold normalize, unit_of, norm3. destruct (Req_EM_T _ _) as [E|]; [|done].
  apply sqrt_eq_0 in E; [|apply dot_nonneg]. pose proof (dot_pos' v H). lra.
Qed.
Lemma normalize_unit v : dot v v = 1 -> normalize v = v.
Proof.
  intros H. unfold normalize, norm3. rewrite H, sqrt_1. destruct (Req_EM_T _ _); [lra|].
  destruct v as [a b c]. unfold vscale. cbn. f_equal; field.
Qed.
Lemma dot_unit_of v : v <> V3 0 0 0 -> dot (unit_of v) (unit_of v) = 1.
Proof.
  intros H. pose proof (dot_pos' v H) as Hp. unfold unit_of.
  assert (E : forall k a, dot (vscale k a) (vscale k a) = k * k * dot a a) by (intros; unfold dot, vscale; cbn; ring).
  rewrite E. rewrite <- (sqrt_sqrt (dot v v)) at 3 by lra. field. pose proof (sqrt_lt_R0 _ Hp). lra.
Qed.
(** A multiple of length 1 is the unit vector or its opposite. *)
Lemma unit_multiple e t : t <> V3 0 0 0 -> e * e * dot t t = 1 ->
  vscale e t = unit_of t \/ vscale e t = vopp (unit_of t).
Proof.
  intros Ht H. pose proof (dot_pos' t Ht) as Hp. pose proof (sqrt_lt_R0 _ Hp) as Hs. unfold unit_of.
  set (s := sqrt (dot t t)) in *. assert (Es : s * s = dot t t) by (apply sqrt_sqrt; lra). rewrite <- Es in H.
  assert (K : (e * s - 1) * (e * s + 1) = 0) by lra. apply Rmult_integral in K as [K|K].
  - left. f_equal. apply (Rmult_eq_reg_r s); [|lra]. field_simplify; lra.
  - right. assert (E : e = - / s). { apply (Rmult_eq_reg_r s); [|lra]. field_simplify; lra. }
    subst e. destruct t as [a b c]. unfold vopp, vscale. cbn. f_equal; ring.
Qed.


(** The two rotations and the translation of the decomposition are always proper. *)
Lemma decompose_proper svd E : svd_contract svd ->
  let '(r1, r2, t) := decompose_essential svd E in rotation r1 /\ rotation r2 /\ dot t t = 1.
Proof.
  intros H. specialize (H E). unfold decompose_essential. destruct (svd E) as [[U sv] V].
  destruct H as (HU & HV & _). pose proof (positive_col2_rotation U HU) as RU. pose proof (positive_col2_rotation V HV) as RV.
  pose proof decompose_d_rotation as RD. split_and!.
  - apply rotation_mmul; [by apply rotation_mmul|by apply rotation_trans].
  - apply rotation_mmul; [apply rotation_mmul; [done|by apply rotation_trans]|by apply rotation_trans].
  - assert (HN : dot (col2 (positive_col2 U)) (col2 (positive_col2 U)) = 1).
    { rewrite col2_apply, (orthogonal_norm _ _ (rotation_orthogonal _ RU)). unfold e3, dot. cbn. ring. }
    rewrite normalize_unit; done.
Qed.

Lemma skew_e3_cases Q sg : rotation Q -> sg * sg = 1 -> mscale sg (mmul (skew e3) Q) = diag3 1 1 0 ->
  (sg = 1 /\ Q = decompose_d) \/ (sg = -1 /\ Q = mtrans decompose_d).
Proof.
  intros HQ Hs HE. assert (HA := rotation_adj Q HQ). destruct Q as [[a b c] [d e f] [g h i]].
  unfold skew, e3, mmul, mtrans, mapply, mscale, vscale, dot, diag3 in HE. cbn in HE.
  injection HE as E1 E2 E3 E4 E5 E6 _ _ _. unfold adj, mtrans in HA. cbn in HA. injection HA as A1 A2 A3 A4 A5 A6 A7 A8 A9.
  assert (K : (sg - 1) * (sg + 1) = 0) by lra. apply Rmult_integral in K as [K|K].
  - left. assert (sg = 1) by lra. subst sg. split; [done|]. unfold decompose_d.
    assert (a = 0) by lra. assert (b = 1) by lra. assert (c = 0) by lra. assert (d = -1) by lra. assert (e = 0) by lra. assert (f = 0) by lra.
    subst a b c d e f. assert (g = 0) by lra. assert (h = 0) by lra. assert (i = 1) by lra. f_equal; f_equal; lra.
  - right. assert (sg = -1) by lra. subst sg. split; [done|]. unfold decompose_d, mtrans. cbn.
    assert (a = 0) by lra. assert (b = -1) by lra. assert (c = 0) by lra. assert (d = 1) by lra. assert (e = 0) by lra. assert (f = 0) by lra.
    subst a b c d e f. assert (g = 0) by lra. assert (h = 0) by lra. assert (i = 1) by lra. f_equal; f_equal; lra.
Qed.

(** The decomposition of k [t]x R: the translation is t or -t, scaled to length 1, one rotation is R and the other is R
    followed by the half turn about t. *)
Lemma mmul_flip_zero U s : mmul (positive_col2 U) (diag3 s s 0) = mmul U (diag3 s s 0).
Proof.
  unfold positive_col2. destruct (Rlt_dec _ _); [|done]. rewrite mmul_assoc, diag3_mmul. f_equal. unfold diag3. f_equal; f_equal; ring.
Qed.
Lemma col2_positive U : col2 (positive_col2 U) = col2 U \/ col2 (positive_col2 U) = vopp (col2 U).
Proof.
  unfold positive_col2. destruct (Rlt_dec _ _); [right|by left]. destruct U as [[a b c] [d e f] [g h i]]. mring.
Qed.

Lemma decompose_exact svd k Rot t : svd_contract svd -> rotation Rot -> t <> V3 0 0 0 -> k <> 0 ->
  exists sg, (sg = 1 \/ sg = -1) /\
  let '(r1, r2, t') := decompose_essential svd (mscale k (essential Rot t)) in
  t' = vscale sg (unit_of t) /\ ((r1 = Rot /\ r2 = mmul (half_turn t) Rot) \/ (r2 = Rot /\ r1 = mmul (half_turn t) Rot)).
Proof.
  intros Hc HR Ht Hk. specialize (Hc (mscale k (essential Rot t))). unfold decompose_essential.
  destruct (svd _) as [[U0 [s0 s1 s2]] V0]. pose proof (essential_svd k Rot t U0 s0 s1 s2 V0 HR Ht Hk Hc) as (-> & <- & Hs & Hss & e0 & He0 & Hcol0).
  destruct Hc as (HU0 & HV0 & _ & _ & HA). cbn [x3 y3 z3] in HA.
  pose proof (positive_col2_rotation U0 HU0) as HU. pose proof (positive_col2_rotation V0 HV0) as HV.
  assert (HA' : mscale k (essential Rot t) = mmul (mmul (positive_col2 U0) (diag3 s0 s0 0)) (mtrans (positive_col2 V0))).
  { rewrite HA, mmul_flip_zero, !mmul_assoc. f_equal.
    assert (E : mtrans (mmul (positive_col2 V0) (diag3 s0 s0 0)) = mtrans (mmul V0 (diag3 s0 s0 0))) by (by rewrite mmul_flip_zero).
    rewrite !mtrans_mmul, diag3_trans in E. done. }
  assert (Hcol : exists e, e * e * dot t t = 1 /\ col2 (positive_col2 U0) = vscale e t).
  { destruct (col2_positive U0) as [->| ->]; rewrite Hcol0; [by exists e0|]. exists (- e0). split; [lra|].
    destruct t as [a b c]. unfold vopp, vscale. cbn. f_equal; ring. }
  clear HA Hcol0 He0 e0. destruct Hcol as (e & He & Hcol).
  set (U := positive_col2 U0) in *. set (V := positive_col2 V0) in *. clearbody U V. clear HU0 HV0 U0 V0.
  pose proof (dot_pos' t Ht) as Hp.
  assert (Hcu : dot (col2 U) (col2 U) = 1).
  { rewrite Hcol. rewrite <- He. unfold dot, vscale. cbn. ring. }
  (* the skew matrix of t, in the frame of U *)
  assert (Hskew : mscale e (skew t) = mmul (mmul U (skew e3)) (mtrans U)).
  { rewrite (skew_conj U e3 HU), <- col2_apply, Hcol, skew_vscale. done. }
  set (Q := mmul (mmul (mtrans U) Rot) V).
  assert (HQ : rotation Q). { apply rotation_mmul; [apply rotation_mmul; [by apply rotation_trans|done]|done]. }
  assert (Hne : e <> 0) by (intros ->; lra).
  set (sg := k / (e * s0)).
  assert (Hsg : sg * sg = 1).
  { unfold sg. replace (k / (e * s0) * (k / (e * s0))) with ((k * k) / ((e * e) * (s0 * s0))) by (field; split; lra).
    rewrite Hss. replace (e * e * (k * k * dot t t)) with (k * k * (e * e * dot t t)) by ring. rewrite He. field. done. }
  assert (HZ : mscale sg (mmul (skew e3) Q) = diag3 1 1 0).
  { assert (E1 : mmul (mmul (mtrans U) (mscale k (essential Rot t))) V = diag3 s0 s0 0).
    { rewrite HA'. rewrite !mmul_assoc, (orthogonal_l V (rotation_orthogonal V HV)), mmul_id_r, <- mmul_assoc,
        (orthogonal_l U (rotation_orthogonal U HU)), mmul_id_l. done. }
    assert (E2 : mscale k (essential Rot t) = mscale (k / e) (mmul (mmul (mmul U (skew e3)) (mtrans U)) Rot)).
    { rewrite <- Hskew, mmul_mscale_l. unfold essential. generalize (mmul (skew t) Rot). intros [[] [] []].
      unfold mscale, vscale. cbn. f_equal; f_equal; field; done. }
    rewrite E2 in E1. rewrite mmul_mscale_r, mmul_mscale_l in E1. rewrite !mmul_assoc in E1.
    rewrite <- (mmul_assoc (mtrans U) U), (orthogonal_l U (rotation_orthogonal U HU)), mmul_id_l in E1.
    rewrite <- (mmul_assoc (mtrans U) Rot V) in E1. fold Q in E1.
    assert (E3 : mscale (/ s0) (diag3 s0 s0 0) = diag3 1 1 0).
    { unfold mscale, diag3, vscale. cbn. f_equal; f_equal; field; lra. }
    rewrite <- E3, <- E1. generalize (mmul (skew e3) Q). intros [[] [] []]. unfold sg, mscale, vscale. cbn. f_equal; f_equal; field; split; lra. }
  assert (HRQ : Rot = mmul (mmul U Q) (mtrans V)).
  { unfold Q. rewrite !mmul_assoc. destruct HV as [-> _]. rewrite mmul_id_r, <- mmul_assoc. destruct HU as [-> _]. by rewrite mmul_id_l. }
  assert (HH : half_turn t = mmul (mmul U (diag3 (-1) (-1) 1)) (mtrans U)).
  { assert (E : outer (unit_of t) (unit_of t) = outer (col2 U) (col2 U)).
    { rewrite Hcol. destruct (unit_multiple e t Ht He) as [->| ->]; [done|]. generalize (unit_of t). intros [].
      unfold outer, vopp, vscale. cbn. f_equal; f_equal; ring. }
    unfold half_turn. rewrite E. destruct HU as [HU _].
    assert (EM : mscale (-1) mid = mscale (-1) (mmul U (mtrans U))) by by rewrite HU.
    rewrite EM. clear. destruct U as [[a b c] [d e f] [g h i]].
    apply mat3_eq; apply vec3_eq; mcbv; ring. }
  assert (HD : mmul (diag3 (-1) (-1) 1) decompose_d = mtrans decompose_d /\ mmul (diag3 (-1) (-1) 1) (mtrans decompose_d) = decompose_d).
  { split; unfold decompose_d; mring. }
  assert (HHR : forall Q', mmul (mmul (mmul U (diag3 (-1) (-1) 1)) (mtrans U)) (mmul (mmul U Q') (mtrans V)) = mmul (mmul U (mmul (diag3 (-1) (-1) 1) Q')) (mtrans V)).
  { intros Q'. rewrite !mmul_assoc. rewrite <- (mmul_assoc (mtrans U) U), (orthogonal_l U (rotation_orthogonal U HU)), mmul_id_l. done. }
  rewrite (normalize_unit _ Hcu), Hcol. 
  assert (Hsgn : exists sg, (sg = 1 \/ sg = -1) /\ vscale e t = vscale sg (unit_of t)).
  { destruct (unit_multiple e t Ht He) as [->| ->]; [exists 1|exists (-1)]; (split; [tauto|]); generalize (unit_of t); intros []; unfold vscale, vopp; cbn; f_equal; ring. }
  destruct Hsgn as (sg' & Hsg' & Hv). exists sg'. split; [done|]. split; [done|].
  rewrite HH. destruct HD as [HD1 HD2].
  destruct (skew_e3_cases Q sg HQ Hsg HZ) as [[_ ->]|[_ ->]]; rewrite HRQ, HHR; [left|right].
  - by rewrite HD1.
  - by rewrite HD2.
Qed.
