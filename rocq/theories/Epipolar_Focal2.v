(** Focal lengths from a fundamental matrix: the result is right wherever it is a number. *)
From stdpp Require Import gmap strings.
From Coq Require Import Reals Lra Psatz Nsatz.
From Verif Require Import Base Camera_Model Camera_Spec Camera_Proofs RotationGraph_Model RotationGraph_Proofs Alignment_Model Alignment_Spec Alignment_Proofs
  Epipolar_Model Epipolar_Spec Epipolar_Proofs Epipolar_Focal.
Local Open Scope R_scope.

Lemma mtrans_mscale k M : mtrans (mscale k M) = mscale k (mtrans M).
Proof. destruct M as [[a b c] [d e f] [g h i]]. mring. Qed.
Lemma mscale_mscale a b M : mscale a (mscale b M) = mscale (a * b) M.
Proof. destruct M as [[] [] []]. mring. Qed.
Lemma essential_transpose Rot t : rotation Rot -> mtrans (essential Rot t) = mscale (-1) (essential (mtrans Rot) (mapply (mtrans Rot) t)).
Proof.
  intros H. unfold essential. rewrite mtrans_mmul, skew_trans, mmul_mscale_r. f_equal.
  pose proof (skew_conj (mtrans Rot) t (rotation_trans Rot H)) as C. rewrite mtrans_mtrans in C. rewrite <- C, mmul_assoc.
  destruct H as [-> _]. by rewrite mmul_id_r.
Qed.
Lemma fundamental_transpose F f1 f2 : essential_from_fundamental (mtrans F) f2 f1 = mtrans (essential_from_fundamental F f1 f2).
Proof. unfold essential_from_fundamental. rewrite !mtrans_mmul, !diag3_trans, mmul_assoc. done. Qed.

Lemma mapply_zero M : mapply M (V3 0 0 0) = V3 0 0 0.
Proof. destruct M as [[] [] []]. mring. Qed.
Lemma vscale_inj k a b : k <> 0 -> vscale k a = vscale k b -> a = b.
Proof. intros Hk E. destruct a, b. unfold vscale in E. cbn in E. injection E as E1 E2 E3. f_equal; apply (Rmult_eq_reg_l k); done. Qed.

(** The left null space of F is a line. *)
Lemma kernel_line F f1 f2 k Rot t e : f2 <> 0 -> k <> 0 -> rotation Rot -> t <> V3 0 0 0 ->
  essential_from_fundamental F f1 f2 = mscale k (essential Rot t) -> mapply (mtrans F) e = V3 0 0 0 ->
  exists m, e = vscale m (mapply (diag3 f2 f2 1) t).
Proof.
  intros N2 Nk HR Ht HE He. set (E := mscale k (essential Rot t)) in *.
  set (v := mapply (diag3 (/ f2) (/ f2) 1) e).
  assert (Hv : mapply (diag3 f2 f2 1) v = e).
  { unfold v. rewrite !mapply_diag3. cbn [x3 y3 z3]. destruct e as [a b c]. cbn. f_equal; field; done. }
  assert (HEv : mapply (mtrans E) v = V3 0 0 0).
  { rewrite <- HE. unfold essential_from_fundamental. rewrite !mtrans_mmul, !diag3_trans, !mapply_mmul, Hv, He. apply mapply_zero. }
  pose proof (essential_square k Rot t HR) as HS. cbv zeta in HS. fold E in HS. clearbody v.
  assert (Z : mapply (mmul E (mtrans E)) v = V3 0 0 0) by (rewrite mapply_mmul, HEv; apply mapply_zero).
  rewrite HS, skew_square, mapply_mscale in Z.
  assert (Nkk : k * k <> 0) by (intros Q; apply Rmult_integral in Q as [?|?]; done).
  pose proof (dot_pos' t Ht) as Hp. exists (dot t v / dot t t). rewrite <- Hv, <- mapply_vscale. f_equal.
  apply (vscale_inj (dot t t)); [lra|]. 
  assert (Z' : mapply (madd (mscale (dot t t) mid) (mscale (-1) (outer t t))) v = V3 0 0 0).
  { apply (vscale_inj (k * k)); [done|]. rewrite Z. unfold vscale. cbn. f_equal; ring. }
  transitivity (vscale (dot t v) t).
  - clear -Z'. destruct t as [a b c], v as [x y z]. revert Z'. mcbv. intros EM. injection EM as E1 E2 E3. f_equal; lra.
  - destruct t as [a b c]. unfold vscale. cbn [x3 y3 z3]. f_equal; field; lra.
Qed.

Section exact.
Context (svd : mat3 -> mat3 * vec3 * mat3) (Hsvd : svd_contract svd).
Context (F : mat3) (f1 f2 k : R) (Rot : mat3) (t : vec3).
Context (P1 : 0 < f1) (P2 : 0 < f2) (Nk : k <> 0) (HR : rotation Rot) (Ht : t <> V3 0 0 0).
Context (HE : essential_from_fundamental F f1 f2 = mscale k (essential Rot t)).

Lemma focal_det : det3 F = 0.
Proof using All. eapply (essential_det_zero F f1 f2); [lra|lra|exact HE]. Qed.
Lemma focal_HE_t : essential_from_fundamental (mtrans F) f2 f1 = mscale (- k) (essential (mtrans Rot) (mapply (mtrans Rot) t)).
Proof using HE HR. rewrite fundamental_transpose, HE, mtrans_mscale, (essential_transpose Rot t HR), mscale_mscale. f_equal. ring. Qed.
Lemma focal_Ht_t : mapply (mtrans Rot) t <> V3 0 0 0.
Proof using HR Ht.
  intros Z. apply Ht. transitivity (mapply Rot (mapply (mtrans Rot) t)).
  - rewrite <- mapply_mmul. destruct HR as [-> _]. by rewrite mapply_id.
  - rewrite Z. apply mapply_zero.
Qed.

(** What the linear equations give. *)
Lemma focal_equations e1 e2 : dot e1 e1 = 1 -> dot e2 e2 = 1 -> mapply F e1 = V3 0 0 0 -> mapply (mtrans F) e2 = V3 0 0 0 -> x3 e1 <> 0 -> x3 e2 <> 0 ->
  forall q1 q2 p1 p2 a b c d, q1 <> 0 -> q2 <> 0 ->
  mmul (mmul (norm_rotation e2) F) (mtrans (norm_rotation e1)) =
    M3 (V3 (q2 * q1 * a) (q2 * b) (- (q2 * p1 * a))) (V3 (q1 * c) d (- (p1 * c))) (V3 (- (p2 * q1 * a)) (- (p2 * b)) (p2 * p1 * a)) ->
  f1 * f1 * (a * c * q1 * q1 + b * d) = - a * c * p1 * p1 /\ f2 * f2 * (a * b * q2 * q2 + c * d) = - a * b * p2 * p2.
Proof using All.
  intros U1 U2 N1 N2 X1 X2 q1 q2 p1 p2 a b c d Q1 Q2 HG.
  destruct (norm_rotation_spec e1 X1 U1) as [Y1 _]. destruct (norm_rotation_spec e2 X2 U2) as [Y2 _].
  pose proof (focal_rows F f1 f2 k Rot t e2 (atan2_nz (- y3 e1) (x3 e1)) ltac:(lra) ltac:(lra) Nk HR Ht HE U2 N2 Y2) as A.
  cbv zeta in A. fold (norm_rotation e1) in A. rewrite HG in A. cbn [x3 y3 z3 row0 row1 row2] in A.
  pose proof (focal_rows (mtrans F) f2 f1 (- k) (mtrans Rot) (mapply (mtrans Rot) t) e1 (atan2_nz (- y3 e2) (x3 e2)) ltac:(lra) ltac:(lra) ltac:(lra)
    (rotation_trans Rot HR) focal_Ht_t focal_HE_t U1) as B. rewrite mtrans_mtrans in B. specialize (B N1 Y1).
  cbv zeta in B. fold (norm_rotation e2) in B.
  assert (HGt : mmul (mmul (norm_rotation e1) (mtrans F)) (mtrans (norm_rotation e2)) = mtrans (mmul (mmul (norm_rotation e2) F) (mtrans (norm_rotation e1)))).
  { rewrite !mtrans_mmul, mtrans_mtrans, mmul_assoc. done. }
  rewrite HGt, HG in B. unfold mtrans in B. cbn [x3 y3 z3 row0 row1 row2] in B. split.
  - apply (Rmult_eq_reg_l q2); [|done]. lra.
  - apply (Rmult_eq_reg_l q1); [|done]. lra.
Qed.

Lemma focal_value g : 0 < g -> forall num den, den <> 0 -> g * g * den = num -> num / den = g * g.
Proof using. intros Hg num den Hd E. rewrite <- E. field. done. Qed.

Lemma focal_never_wrong : match focal_lengths_from_fundamental svd F with FocalOk g1 g2 => g1 = f1 /\ g2 = f2 | _ => True end.
Proof using All.
  pose proof (focal_unfold svd F Hsvd focal_det) as HU. cbv zeta in HU.
  destruct HU as (U1 & U2 & N1 & N2 & [[_ ->]|[(_ & _ & _ & ->)|(X1 & X2 & Q1 & Q2 & _ & _ & a & b & c & d & HG & ->)]]); [done..|].
  destruct (focal_equations _ _ U1 U2 N1 N2 X1 X2 _ _ _ _ a b c d Q1 Q2 HG) as [E1 E2].
  destruct (Req_EM_T _ 0) as [|D1]; [done|]. destruct (Req_EM_T _ 0) as [|D2]; [done|].
  rewrite (focal_value f1 P1 _ _ D1 E1), (focal_value f2 P2 _ _ D2 E2).
  destruct (Rlt_dec _ _); [done|]. destruct (Rlt_dec _ _); [done|]. rewrite !sqrt_square by lra. done.
Qed.

Lemma focal_defined e1 e2 : mapply F e1 = V3 0 0 0 -> mapply (mtrans F) e2 = V3 0 0 0 ->
  x3 e1 <> 0 -> z3 e1 <> 0 -> x3 e2 <> 0 -> z3 e2 <> 0 ->
  z3 (row2 F) <> 0 -> y3 (row2 F) * x3 e1 - x3 (row2 F) * y3 e1 <> 0 ->
  focal_lengths_from_fundamental svd F = FocalOk f1 f2.
Proof using All.
  intros M1 M2 X1 Z1 X2 Z2 NA NB.
  pose proof (focal_unfold svd F Hsvd focal_det) as HU. cbv zeta in HU.
  destruct HU as (U1 & U2 & N1 & N2 & HU). assert (Nf1 : f1 <> 0) by (clear -P1; lra). assert (Nf2 : f2 <> 0) by (clear -P2; lra). assert (Nk' : - k <> 0) by (clear -Nk; lra). set (n1 := right_null svd F) in *. set (n2 := right_null svd (mtrans F)) in *.
  assert (Hpar : forall (v e n : vec3), (exists m, e = vscale m v) -> (exists m, n = vscale m v) -> dot n n = 1 -> x3 e <> 0 -> exists m, m <> 0 /\ n = vscale m e).
  { intros v e n [m ->] [m' ->] Hn Hx. assert (Nm : m <> 0). { intros ->. apply Hx. cbn. ring. }
    exists (m' / m). split.
    - intros Z. assert (m' = 0) by (apply (Rmult_eq_reg_r (/ m)); [clear -Z; unfold Rdiv in Z; lra|by apply Rinv_neq_0_compat]). subst m'.
      unfold dot, vscale in Hn. cbn in Hn. lra.
    - destruct v. unfold vscale. cbn. f_equal; field; done. }
  assert (L2 : exists m, m <> 0 /\ n2 = vscale m e2).
  { apply (Hpar (mapply (diag3 f2 f2 1) t)); [|by apply (kernel_line F f1 f2 k Rot t)| done|done].
    by apply (kernel_line F f1 f2 k Rot t). }
  assert (L1 : exists m, m <> 0 /\ n1 = vscale m e1).
  { apply (Hpar (mapply (diag3 f1 f1 1) (mapply (mtrans Rot) t))); [| |done|done].
    - apply (kernel_line (mtrans F) f2 f1 (- k) (mtrans Rot)); [done|done|by apply rotation_trans|apply focal_Ht_t|apply focal_HE_t|by rewrite mtrans_mtrans].
    - apply (kernel_line (mtrans F) f2 f1 (- k) (mtrans Rot)); [done|done|by apply rotation_trans|apply focal_Ht_t|apply focal_HE_t|by rewrite mtrans_mtrans]. }
  destruct L1 as (m1 & Nm1 & L1), L2 as (m2 & Nm2 & L2).
  assert (NX1 : x3 n1 <> 0) by (rewrite L1; cbn; apply Rmult_integral_contrapositive_currified; done).
  assert (NX2 : x3 n2 <> 0) by (rewrite L2; cbn; apply Rmult_integral_contrapositive_currified; done).
  assert (Ez : forall e, z3 (mapply (norm_rotation e) e) = z3 e) by (intros [x y z]; unfold norm_rotation, rotation_z, mapply, dot; cbn; ring).
  destruct HU as [[[?|?] _]|[(_ & _ & HQ & _)|(_ & _ & Q1 & Q2 & Pp1 & Pp2 & a & b & c & d & HG & ->)]]; [done|done| |].
  { exfalso. rewrite !Ez, L1, L2 in HQ. cbn in HQ. destruct HQ as [HQ|HQ]; apply Rmult_integral in HQ as [?|?]; done. }
  destruct (focal_equations _ _ U1 U2 N1 N2 NX1 NX2 _ _ _ _ a b c d Q1 Q2 HG) as [E1 E2].
  set (q1 := z3 (mapply (norm_rotation n1) n1)) in *. set (q2 := z3 (mapply (norm_rotation n2) n2)) in *.
  set (p1 := x3 (mapply (norm_rotation n1) n1)) in *. set (p2 := x3 (mapply (norm_rotation n2) n2)) in *.
  clearbody q1 q2 p1 p2.
  (* a, b, c are not zero *)
  assert (R2 : row2 (mmul (mmul (norm_rotation n2) F) (mtrans (norm_rotation n1))) = mapply (norm_rotation n1) (row2 F)).
  { unfold norm_rotation, rotation_z. destruct F as [[? ? ?] [? ? ?] [? ? ?]]. apply vec3_eq; mcbv; ring. }
  rewrite HG in R2. cbn [row2] in R2. clear HG.
  assert (Na : a <> 0).
  { intros ->. apply NA. apply (f_equal z3) in R2. unfold norm_rotation, rotation_z, mapply, dot in R2. cbn in R2. clear -R2. lra. }
  assert (Nb : b <> 0).
  { intros ->. apply NB. apply (f_equal y3) in R2. pose proof (atan2_spec (- y3 n1) (x3 n1) NX1) as A.
    unfold norm_rotation, rotation_z, mapply, dot in R2. cbn [x3 y3 z3 row0 row1 row2] in R2. set (th := atan2_nz (- y3 n1) (x3 n1)) in *. rewrite L1 in A. unfold vscale in A. cbn [x3 y3 z3] in A.
    assert (A' : sin th * x3 e1 = - cos th * y3 e1) by (apply (Rmult_eq_reg_l m1); [clear -A; lra|done]).
    pose proof (sin2_cos2 th) as SC. unfold Rsqr in SC.
    assert (B0 : sin th * x3 (row2 F) + cos th * y3 (row2 F) = 0) by (clear -R2; lra).
    assert (C1 : cos th * (y3 (row2 F) * x3 e1 - x3 (row2 F) * y3 e1) = 0).
    { replace (cos th * (y3 (row2 F) * x3 e1 - x3 (row2 F) * y3 e1)) with ((cos th * y3 (row2 F)) * x3 e1 + (- cos th * y3 e1) * x3 (row2 F)) by ring. rewrite <- A'.
      replace (cos th * y3 (row2 F)) with (- (sin th * x3 (row2 F))) by (clear -B0; lra). ring. }
    apply Rmult_integral in C1 as [C0|?]; [|done]. exfalso. rewrite C0 in A'. assert (S0 : sin th <> 0) by (intros S0; rewrite S0, C0 in SC; lra).
    assert (Zx : sin th * x3 e1 = 0) by (clear -A'; lra). apply Rmult_integral in Zx as [?|?]; done. }
  assert (Nc : c <> 0).
  { intros ->. assert (K : f1 * f1 * (b * d) = 0) by (clear -E1; lra). assert (f1 * f1 <> 0) by (clear -P1; nra). apply Rmult_integral in K as [?|K]; [done|]. apply Rmult_integral in K as [?|K]; [done|]. subst d.
    assert (K : a * b * (f2 * f2 * (q2 * q2) + p2 * p2) = 0) by (clear -E2; lra). apply Rmult_integral in K as [K|K].
    - apply Rmult_integral in K as [?|?]; done.
    - assert (0 <= f2 * f2 * (q2 * q2)) by (apply Rmult_le_pos; apply Rle_0_sqr). assert (0 < p2 * p2) by (exact (Rsqr_pos_lt p2 Pp2)). clear -K H0 H1. lra. }
  assert (NP : forall x y p, x <> 0 -> y <> 0 -> p <> 0 -> - x * y * p * p <> 0).
  { intros x y p Hx Hy Hp Z. assert (Z' : x * (y * (p * p)) = 0) by (clear -Z; lra). apply Rmult_integral in Z' as [?|Z']; [done|]. apply Rmult_integral in Z' as [?|Z']; [done|]. apply Rmult_integral in Z' as [?|?]; done. }
  destruct (Req_EM_T _ 0) as [D1|D1]; [exfalso; rewrite D1 in E1; apply (NP a c p1 Na Nc Pp1); clear -E1; lra|].
  destruct (Req_EM_T _ 0) as [D2|D2]; [exfalso; rewrite D2 in E2; apply (NP a b p2 Na Nb Pp2); clear -E2; lra|].
  rewrite (focal_value f1 P1 _ _ D1 E1), (focal_value f2 P2 _ _ D2 E2).
  destruct (Rlt_dec _ _) as [L|_]; [exfalso; clear -L P1; nra|]. destruct (Rlt_dec _ _) as [L|_]; [exfalso; clear -L P2; nra|]. rewrite !sqrt_square by (apply Rlt_le; done). done.
Qed.
End exact.

(** ** Conversely, the focal lengths returned make the matrix essential. *)
Definition roty (x y : R) : mat3 := M3 (V3 x 0 y) (V3 0 1 0) (V3 (- y) 0 x).
Lemma roty_rotation x y : x * x + y * y = 1 -> rotation (roty x y).
Proof.
  intros H. split.
  - apply mat3_eq; apply vec3_eq; unfold roty, mid; mcbv; lra.
  - unfold roty, det3. cbn. lra.
Qed.

Lemma essential_conj W Rot t Q : rotation W -> mmul (mmul W (essential Rot t)) Q = essential (mmul (mmul W Rot) Q) (mapply W t).
Proof.
  intros H. pose proof (skew_conj W t H) as C. unfold essential.
  assert (E : mmul (skew (mapply W t)) W = mmul W (skew t)). { rewrite <- C, mmul_assoc, (rotation_trans_l W H). apply mmul_id_r. }
  rewrite <- (mmul_assoc (skew (mapply W t))), <- (mmul_assoc (skew (mapply W t)) W), E. by rewrite !mmul_assoc.
Qed.

Lemma block_essential al be ga de : al <> 0 -> al * ga = - (be * de) -> al * be = - (ga * de) -> (be <> 0 \/ ga <> 0) ->
  exists Rot t, rotation Rot /\ t <> V3 0 0 0 /\ M3 (V3 al be 0) (V3 ga de 0) (V3 0 0 0) = essential Rot t.
Proof.
  intros Na E1 E2 Nbg.
  assert (Hs : al * al = de * de).
  { assert (A : be * (al * al) = be * (de * de)).
    { replace (be * (al * al)) with (al * (al * be)) by ring. rewrite E2. replace (al * - (ga * de)) with (- de * (al * ga)) by ring. rewrite E1. ring. }
    assert (B : ga * (al * al) = ga * (de * de)).
    { replace (ga * (al * al)) with (al * (al * ga)) by ring. rewrite E1. replace (al * - (be * de)) with (- de * (al * be)) by ring. rewrite E2. ring. }
    destruct Nbg as [N|N]; [apply (Rmult_eq_reg_l be)|apply (Rmult_eq_reg_l ga)]; done. }
  assert (Hs0 : (de - al) * (de + al) = 0) by lra.
  assert (He : exists ep, ep * ep = 1 /\ de = ep * al /\ ga = - ep * be).
  { apply Rmult_integral in Hs0 as [Z|Z].
    - exists 1. assert (de = al) by lra. subst de. repeat split; [ring|ring|]. apply (Rmult_eq_reg_l al); [|done]. rewrite E1. ring.
    - exists (-1). assert (de = - al) by lra. subst de. repeat split; [ring|ring|]. apply (Rmult_eq_reg_l al); [|done]. rewrite E1. ring. }
  clear E1 E2 Hs Hs0 Nbg. destruct He as (ep & Hep & -> & ->).
  assert (Hp : 0 < al * al + be * be). { pose proof (Rsqr_pos_lt al Na). pose proof (Rle_0_sqr be). unfold Rsqr in *. lra. }
  set (s := sqrt (al * al + be * be)). assert (Hss : s * s = al * al + be * be) by (apply sqrt_sqrt; lra). assert (Sp : 0 < s) by (apply sqrt_lt_R0; lra).
  assert (Hx : exists x y, al = s * x /\ be = s * y). { exists (al / s), (be / s). split; field; lra. }
  clearbody s. clear Hp Na. destruct Hx as (x & y & -> & ->).
  assert (Hxy : x * x + y * y = 1). { apply (Rmult_eq_reg_l (s * s)); [lra|]. intros Z. apply Rmult_integral in Z as [?|?]; lra. }
  exists (M3 (V3 (- ep * y) (ep * x) 0) (V3 (- x) (- y) 0) (V3 0 0 ep)), (V3 0 0 s). split; [split|split].
  - apply mat3_eq; apply vec3_eq; mcbv; try ring; try lra.
    transitivity ((ep * ep) * (x * x + y * y)); [ring|rewrite Hep, Hxy; ring].
  - unfold det3. cbn. transitivity ((ep * ep) * (x * x + y * y)); [ring|rewrite Hep, Hxy; ring].
  - intros Z. injection Z as Z. lra.
  - unfold essential. apply mat3_eq; apply vec3_eq; mcbv; ring.
Qed.

Lemma norm_pos f q p : p <> 0 -> 0 < f * f * q * q + p * p.
Proof. intros H. pose proof (Rsqr_pos_lt p H). pose proof (Rle_0_sqr (f * q)). unfold Rsqr in *. lra. Qed.

(** The core: a matrix of the shape the code reduces F to. *)
Lemma reduced_essential f1 f2 q1 p1 q2 p2 a b c d : 0 < f1 -> 0 < f2 -> p1 <> 0 -> p2 <> 0 ->
  f1 * f1 * (a * c * q1 * q1 + b * d) = - a * c * p1 * p1 -> f2 * f2 * (a * b * q2 * q2 + c * d) = - a * b * p2 * p2 ->
  a <> 0 -> b <> 0 ->
  exists Rot t, rotation Rot /\ t <> V3 0 0 0 /\
    mmul (mmul (diag3 f2 f2 1) (M3 (V3 (q2 * q1 * a) (q2 * b) (- (q2 * p1 * a))) (V3 (q1 * c) d (- (p1 * c))) (V3 (- (p2 * q1 * a)) (- (p2 * b)) (p2 * p1 * a)))) (diag3 f1 f1 1) = essential Rot t.
Proof.
  intros P1 P2 N1 N2 E1 E2 Na Nb.
  pose proof (norm_pos f1 q1 p1 N1) as H1. pose proof (norm_pos f2 q2 p2 N2) as H2.
  set (n1 := sqrt (f1 * f1 * q1 * q1 + p1 * p1)). set (n2 := sqrt (f2 * f2 * q2 * q2 + p2 * p2)).
  assert (S1 : n1 * n1 = f1 * f1 * q1 * q1 + p1 * p1) by (apply sqrt_sqrt; lra). assert (S2 : n2 * n2 = f2 * f2 * q2 * q2 + p2 * p2) by (apply sqrt_sqrt; lra).
  assert (Q1 : 0 < n1) by (by apply sqrt_lt_R0). assert (Q2 : 0 < n2) by (by apply sqrt_lt_R0). clearbody n1 n2.
  destruct (block_essential (n1 * n2 * a) (f1 * n2 * b) (f2 * n1 * c) (f1 * f2 * d)) as (Rot & t & HR & Ht & HE).
  - intros Z. apply Rmult_integral in Z as [Z|Z]; [apply Rmult_integral in Z as [Z|Z]; lra|done].
  - replace (n1 * n2 * a * (f2 * n1 * c)) with ((n1 * n1) * n2 * f2 * (a * c)) by ring. rewrite S1. clear -E1.
    replace ((f1 * f1 * q1 * q1 + p1 * p1) * n2 * f2 * (a * c)) with (n2 * f2 * (f1 * f1 * (a * c * q1 * q1 + b * d) + a * c * p1 * p1 - f1 * f1 * b * d)) by ring. rewrite E1. ring.
  - replace (n1 * n2 * a * (f1 * n2 * b)) with ((n2 * n2) * n1 * f1 * (a * b)) by ring. rewrite S2. clear -E2.
    replace ((f2 * f2 * q2 * q2 + p2 * p2) * n1 * f1 * (a * b)) with (n1 * f1 * (f2 * f2 * (a * b * q2 * q2 + c * d) + a * b * p2 * p2 - f2 * f2 * c * d)) by ring. rewrite E2. ring.
  - left. intros Z. apply Rmult_integral in Z as [Z|Z]; [apply Rmult_integral in Z as [Z|Z]; lra|done].
  - set (W1 := roty (f1 * q1 / n1) (p1 / n1)). set (W2 := roty (f2 * q2 / n2) (p2 / n2)).
    assert (HW1 : rotation W1). { apply roty_rotation. transitivity ((f1 * f1 * q1 * q1 + p1 * p1) / (n1 * n1)); [field; lra|]. rewrite <- S1. field. lra. }
    assert (HW2 : rotation W2). { apply roty_rotation. transitivity ((f2 * f2 * q2 * q2 + p2 * p2) / (n2 * n2)); [field; lra|]. rewrite <- S2. field. lra. }
    exists (mmul (mmul W2 Rot) (mtrans W1)), (mapply W2 t). split; [|split].
    + apply rotation_mmul; [by apply rotation_mmul|by apply rotation_trans].
    + intros Z. apply Ht. transitivity (mapply (mtrans W2) (mapply W2 t)).
      * by rewrite <- mapply_mmul, (rotation_trans_l W2 HW2), mapply_id.
      * rewrite Z. apply mapply_zero.
    + rewrite <- (essential_conj W2 Rot t (mtrans W1) HW2), <- HE. unfold W1, W2, roty. clear -Q1 Q2.
      apply mat3_eq; apply vec3_eq; mcbv; field; lra.
Qed.

Lemma rotation_z_diag th f : mmul (diag3 f f 1) (rotation_z th) = mmul (rotation_z th) (diag3 f f 1).
Proof. unfold rotation_z. apply mat3_eq; apply vec3_eq; mcbv; ring. Qed.
Lemma mtrans_rotation_z_diag th f : mmul (diag3 f f 1) (mtrans (rotation_z th)) = mmul (mtrans (rotation_z th)) (diag3 f f 1).
Proof. unfold rotation_z. apply mat3_eq; apply vec3_eq; mcbv; ring. Qed.

Lemma focal_sound svd F f1 f2 : svd_contract svd -> det3 F = 0 -> focal_lengths_from_fundamental svd F = FocalOk f1 f2 -> 0 < f1 -> 0 < f2 ->
  exists Rot t, rotation Rot /\ t <> V3 0 0 0 /\ essential_from_fundamental F f1 f2 = essential Rot t.
Proof.
  intros Hs HD HF P1 P2. pose proof (focal_unfold svd F Hs HD) as HU. cbv zeta in HU.
  destruct HU as (U1 & U2 & N1 & N2 & [[_ HU]|[(_ & _ & _ & HU)|(X1 & X2 & Q1 & Q2 & Pp1 & Pp2 & a & b & c & d & HG & HU)]]); [congruence..|].
  rewrite HF in HU. clear HF.
  set (n1 := right_null svd F) in *. set (n2 := right_null svd (mtrans F)) in *.
  set (q1 := z3 (mapply (norm_rotation n1) n1)) in *. set (q2 := z3 (mapply (norm_rotation n2) n2)) in *.
  set (p1 := x3 (mapply (norm_rotation n1) n1)) in *. set (p2 := x3 (mapply (norm_rotation n2) n2)) in *.
  clearbody q1 q2 p1 p2. clearbody n1 n2.
  set (D1 := a * c * q1 * q1 + b * d) in *. set (D2 := a * b * q2 * q2 + c * d) in *.
  revert HU. destruct (Req_EM_T D1 0) as [|ND1]; [done|]. destruct (Req_EM_T D2 0) as [|ND2]; [done|].
  destruct (Rlt_dec _ _) as [|L1]; [done|]. destruct (Rlt_dec _ _) as [|L2]; [done|]. intros HU. injection HU as Ef1 Ef2.
  assert (Q1' : f1 * f1 * D1 = - a * c * p1 * p1). { rewrite Ef1, sqrt_sqrt by (clear -L1; lra). field. done. }
  assert (Q2' : f2 * f2 * D2 = - a * b * p2 * p2). { rewrite Ef2, sqrt_sqrt by (clear -L2; lra). field. done. }
  assert (Na : a <> 0). { intros ->. assert (Z : f1 * f1 * D1 = 0) by (rewrite Q1'; ring). apply Rmult_integral in Z as [Z|?]; [|done]. clear -Z P1. nra. }
  assert (Nb : b <> 0). { intros ->. assert (Z : f2 * f2 * D2 = 0) by (rewrite Q2'; ring). apply Rmult_integral in Z as [Z|?]; [|done]. clear -Z P2. nra. }
  destruct (reduced_essential f1 f2 q1 p1 q2 p2 a b c d P1 P2 Pp1 Pp2 Q1' Q2' Na Nb) as (Rot & t & HR & Ht & HE).
  rewrite <- HG in HE. clear HG.
  assert (HW1 : rotation (norm_rotation n1)) by apply rotation_z_rotation. assert (HW2 : rotation (norm_rotation n2)) by apply rotation_z_rotation.
  set (W1 := norm_rotation n1) in *. set (W2 := norm_rotation n2) in *.
  exists (mmul (mmul (mtrans W2) Rot) W1), (mapply (mtrans W2) t). split; [|split].
  - apply rotation_mmul; [apply rotation_mmul; [by apply rotation_trans|done]|done].
  - intros Z. apply Ht. transitivity (mapply W2 (mapply (mtrans W2) t)).
    + rewrite <- mapply_mmul. destruct HW2 as [-> _]. by rewrite mapply_id.
    + rewrite Z. apply mapply_zero.
  - rewrite <- (essential_conj (mtrans W2) Rot t W1 (rotation_trans W2 HW2)), <- HE. unfold essential_from_fundamental.
    assert (C2 : mmul (diag3 f2 f2 1) W2 = mmul W2 (diag3 f2 f2 1)) by apply rotation_z_diag.
    assert (C1 : mmul (mtrans W1) (diag3 f1 f1 1) = mmul (diag3 f1 f1 1) (mtrans W1)) by (symmetry; apply mtrans_rotation_z_diag).
    clearbody W1 W2. 
    transitivity (mmul (mmul (mmul (mtrans W2) (mmul (diag3 f2 f2 1) W2)) F) (mmul (mmul (mtrans W1) (diag3 f1 f1 1)) W1)).
    + rewrite C1, C2, <- (mmul_assoc (mtrans W2) W2), (mmul_assoc _ (mtrans W1) W1), (rotation_trans_l W2 HW2), (rotation_trans_l W1 HW1), mmul_id_l, mmul_id_r. done.
    + by rewrite !mmul_assoc.
Qed.
