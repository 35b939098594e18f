(** Proofs about projection matrices, and instances of the contracts of Eigen. *)
From stdpp Require Import gmap.
From Coq Require Import Reals Lra Psatz.
From Verif Require Import Base Camera_Model Camera_Spec Camera_Proofs.
Local Open Scope R_scope.

(** * Calibration matrices *)

Lemma calibration_round_trip f sk ar px py : f <> 0 ->
  calibration_to_intrinsics (calibration_matrix f sk ar px py) = Ok (f, sk, ar, px, py).
Proof.
  intros Hf. unfold calibration_to_intrinsics, calibration_matrix. cbn [row0 row1 row2 x3 y3 z3].
  destruct (Req_EM_T 1 0) as [?|_]; [lra|].
  replace (f * ar / f) with ar by (field; exact Hf).
  assert (D1 : forall z, z / 1 = z) by (intros; field). rewrite !D1. reflexivity.
Qed.

Lemma intrinsics_matrix_scale K f sk ar px py :
  calibration K -> calibration_to_intrinsics K = Ok (f, sk, ar, px, py) ->
  K = mscale (z3 (row2 K)) (calibration_matrix f sk ar px py) /\ 0 < f /\ 0 < ar.
Proof.
  destruct K as [[a b c] [d e g] [h k i]]. unfold calibration, calibration_to_intrinsics.
  cbn [row0 row1 row2 x3 y3 z3]. intros (-> & -> & -> & Ha & He & Hi).
  destruct (Req_EM_T i 0) as [?|_]; [lra|]. intros H.
  assert (f = a / i /\ sk = b / i /\ ar = e / a /\ px = c / i /\ py = g / i) as (-> & -> & -> & -> & ->)
    by (repeat split; congruence).
  split; [|split; apply Rdiv_lt_0_compat; assumption].
  unfold calibration_matrix, mscale, vscale. cbn [row0 row1 row2 x3 y3 z3].
  f_equal; f_equal; field; lra.
Qed.

(** * The RQ decomposition *)

Lemma det3_orthogonal q : mmul q (mtrans q) = mid -> det3 q = 1 \/ det3 q = -1.
Proof.
  intros H. apply (f_equal det3) in H. rewrite det3_mmul, det3_mtrans in H.
  replace (det3 mid) with 1 in H by (unfold det3, mid; ring).
  assert ((det3 q - 1) * (det3 q + 1) = 0) as E by lra.
  apply Rmult_integral in E as [E|E]; [left|right]; lra.
Qed.

Lemma orthogonal_trans q : mmul q (mtrans q) = mid -> mmul (mtrans q) q = mid.
Proof.
  intros H. destruct (det3_orthogonal q H) as [Hd|Hd].
  - apply rotation_trans_l. split; assumption.
  - assert (HR : rotation (mscale (-1) q)).
    { split.
      - rewrite <- H. vring.
      - replace (det3 (mscale (-1) q)) with (- det3 q); [lra|]. vec. unfold det3. ring. }
    apply rotation_trans_l in HR. rewrite <- HR. vring.
Qed.

Lemma clear_lower_flip M : clear_lower (revcols (revrows (mtrans M))) =
  revcols (revrows (mtrans (clear_lower M))).
Proof. destruct M as [[a0 b0 d0] [a1 b1 d1] [a2 b2 d2]]. reflexivity. Qed.

Lemma rev_mul A B : mmul (revcols (revrows A)) (revrows B) = revrows (mmul A B).
Proof. unfold revcols, revrows. vring. Qed.

Definition upper (M : mat3) : Prop := x3 (row1 M) = 0 /\ x3 (row2 M) = 0 /\ y3 (row2 M) = 0.

Lemma clear_lower_upper M : upper (clear_lower M).
Proof. repeat split. Qed.

Lemma rq_correct qr M : qr_contract qr ->
  let '(r, q) := rq_decomposition qr M in mmul r q = M /\ rotation q /\ upper r.
Proof.
  intros Hqr. specialize (Hqr (revcols (mtrans M))). unfold rq_decomposition.
  destruct (qr (revcols (mtrans M))) as [packed q0]. destruct Hqr as [Ho He].
  set (r := clear_lower (revcols (revrows (mtrans packed)))).
  set (q := revrows (mtrans q0)).
  assert (Hrq : mmul r q = M).
  { unfold r, q. rewrite clear_lower_flip, rev_mul, <- mtrans_mmul, He.
    destruct M as [[a0 b0 d0] [a1 b1 d1] [a2 b2 d2]]. reflexivity. }
  assert (Hq : mmul q (mtrans q) = mid).
  { unfold q. pose proof (orthogonal_trans q0 Ho) as Ht.
    assert (E : forall A, mmul (revrows (mtrans A)) (mtrans (revrows (mtrans A))) =
                     revcols (revrows (mmul (mtrans A) A))) by (unfold revcols, revrows; vring).
    rewrite E, Ht. reflexivity. }
  assert (Hu : upper r) by apply clear_lower_upper.
  clearbody r q. clear Ho He.
  destruct (Rlt_dec (det3 q) 0) as [Hd|Hd].
  - split; [|split; [split|]].
    + rewrite <- Hrq. vring.
    + assert (E : forall A, mmul (M3 (row0 A) (vopp (row1 A)) (row2 A))
                         (mtrans (M3 (row0 A) (vopp (row1 A)) (row2 A))) =
          let B := mmul A (mtrans A) in
          M3 (V3 (x3 (row0 B)) (- y3 (row0 B)) (z3 (row0 B)))
             (V3 (- x3 (row1 B)) (y3 (row1 B)) (- z3 (row1 B)))
             (V3 (x3 (row2 B)) (- y3 (row2 B)) (z3 (row2 B)))) by (cbn zeta; vring).
      rewrite E, Hq. cbn zeta. unfold mid. cbn [row0 row1 row2 x3 y3 z3]. rewrite Ropp_0. reflexivity.
    + destruct (det3_orthogonal q Hq) as [?|E]; [lra|].
      replace (det3 (M3 (row0 q) (vopp (row1 q)) (row2 q))) with (- det3 q); [lra|].
      destruct q as [[a0 b0 d0] [a1 b1 d1] [a2 b2 d2]]. unfold det3, vopp. cbn [row0 row1 row2 x3 y3 z3]. ring.
    + destruct Hu as (H1 & H2 & H3). repeat split; cbn [row0 row1 row2 x3 y3 z3];
        rewrite ?H1, ?H2, ?H3, ?Ropp_0; reflexivity.
  - split; [exact Hrq|]. split; [|exact Hu]. split; [exact Hq|].
    destruct (det3_orthogonal q Hq); lra.
Qed.

(** * The sign loop *)
Lemma flip_product KR :
  (mmul (flip0 KR).1 (flip0 KR).2 = mmul KR.1 KR.2) /\
  (mmul (flip1 KR).1 (flip1 KR).2 = mmul KR.1 KR.2) /\
  (mmul (flip2 KR).1 (flip2 KR).2 = mmul KR.1 KR.2).
Proof.
  destruct KR as [K Rm]. unfold flip0, flip1, flip2. cbn [fst snd].
  repeat split; (destruct (Rlt_dec _ 0); cbn [fst snd]; [|reflexivity]); vring.
Qed.

Lemma upper_det M : upper M -> det3 M = x3 (row0 M) * y3 (row1 M) * z3 (row2 M).
Proof.
  destruct M as [[a b c] [d e f] [g h i]]. unfold upper. cbn [row0 row1 row2 x3 y3 z3].
  intros (-> & -> & ->). unfold det3. ring.
Qed.

Lemma orth_neg_rows s0 s1 s2 Q :
  s0 * s0 = 1 -> s1 * s1 = 1 -> s2 * s2 = 1 -> s0 * s1 * s2 = 1 -> rotation Q ->
  rotation (M3 (vscale s0 (row0 Q)) (vscale s1 (row1 Q)) (vscale s2 (row2 Q))).
Proof.
  intros H0 H1 H2 H3 [HQ Hd]. split.
  - assert (E : mmul (M3 (vscale s0 (row0 Q)) (vscale s1 (row1 Q)) (vscale s2 (row2 Q)))
                  (mtrans (M3 (vscale s0 (row0 Q)) (vscale s1 (row1 Q)) (vscale s2 (row2 Q)))) =
      let B := mmul Q (mtrans Q) in
      M3 (V3 (s0 * s0 * x3 (row0 B)) (s0 * s1 * y3 (row0 B)) (s0 * s2 * z3 (row0 B)))
         (V3 (s1 * s0 * x3 (row1 B)) (s1 * s1 * y3 (row1 B)) (s1 * s2 * z3 (row1 B)))
         (V3 (s2 * s0 * x3 (row2 B)) (s2 * s1 * y3 (row2 B)) (s2 * s2 * z3 (row2 B))))
      by (cbn zeta; vring).
    rewrite E, HQ. cbn zeta. unfold mid. cbn [row0 row1 row2 x3 y3 z3]. f_equal; f_equal; lra.
  - replace (det3 _) with (s0 * s1 * s2 * det3 Q); [rewrite H3, Hd; ring|].
    destruct Q as [[a0 b0 d0] [a1 b1 d1] [a2 b2 d2]]. unfold det3, vscale. cbn [row0 row1 row2 x3 y3 z3]. ring.
Qed.

Lemma flips_correct K Q : upper K -> 0 < det3 K -> rotation Q ->
  let '(K', Q') := flip2 (flip1 (flip0 (K, Q))) in
  calibration K' /\ rotation Q' /\ mmul K' Q' = mmul K Q.
Proof.
  intros Hu Hd HQ. destruct (flip2 (flip1 (flip0 (K, Q)))) as [K' Q'] eqn:E.
  assert (Hp : mmul K' Q' = mmul K Q).
  { destruct (flip_product (K, Q)) as (P0 & _ & _).
    destruct (flip_product (flip0 (K, Q))) as (_ & P1 & _).
    destruct (flip_product (flip1 (flip0 (K, Q)))) as (_ & _ & P2).
    rewrite E in P2. cbn [fst snd] in P2, P0. congruence. }
  split; [|split; [|exact Hp]]; clear Hp; rewrite (upper_det K Hu) in Hd.
  - destruct K as [[a b c] [d e f] [g h i]], Q as [r0 r1 r2].
    unfold upper in Hu. cbn [row0 row1 row2 x3 y3 z3] in *. destruct Hu as (-> & -> & ->).
    assert (a <> 0 /\ e <> 0 /\ i <> 0) as (Ha & He & Hi) by (repeat split; intros ->; lra).
    clear Hd. unfold flip0, flip1, flip2 in E. cbn [row0 row1 row2 x3 y3 z3] in E.
    destruct (Rlt_dec a 0); cbn [row0 row1 row2 x3 y3 z3] in E;
    (destruct (Rlt_dec e 0); cbn [row0 row1 row2 x3 y3 z3] in E);
    (destruct (Rlt_dec i 0); cbn [row0 row1 row2 x3 y3 z3] in E);
    injection E as <- <-; unfold calibration; cbn [row0 row1 row2 x3 y3 z3]; repeat split; lra.
  - destruct K as [[a b c] [d e f] [g h i]].
    unfold upper in Hu. cbn [row0 row1 row2 x3 y3 z3] in *. destruct Hu as (-> & -> & ->).
    assert (Hsg : (a < 0 \/ 0 < a) /\ (e < 0 \/ 0 < e) /\ (i < 0 \/ 0 < i)).
    { assert (a <> 0 /\ e <> 0 /\ i <> 0) as (Ha & He & Hi) by (repeat split; intros ->; lra).
      repeat split; lra. }
    assert (V1 : forall v, vscale 1 v = v) by (intros [x y z]; unfold vscale; cbn [x3 y3 z3]; f_equal; ring).
    assert (V2 : forall v, vscale (-1) v = vopp v)
      by (intros [x y z]; unfold vscale, vopp; cbn [x3 y3 z3]; f_equal; ring).
    assert (Hgen : forall s0 s1 s2 : R, s0 * s0 = 1 -> s1 * s1 = 1 -> s2 * s2 = 1 -> s0 * s1 * s2 = 1 ->
      Q' = M3 (vscale s0 (row0 Q)) (vscale s1 (row1 Q)) (vscale s2 (row2 Q)) -> rotation Q')
      by (intros s0 s1 s2 ? ? ? ? ->; apply orth_neg_rows; assumption).
    unfold flip0, flip1, flip2 in E. cbn [row0 row1 row2 x3 y3 z3] in E.
    destruct (Rlt_dec a 0); cbn [row0 row1 row2 x3 y3 z3] in E;
    (destruct (Rlt_dec e 0); cbn [row0 row1 row2 x3 y3 z3] in E);
    (destruct (Rlt_dec i 0); cbn [row0 row1 row2 x3 y3 z3] in E);
    injection E as _ HQ'.
    1,4,6,7: exfalso; destruct Hsg as (? & ? & ?).
    + assert (0 < a * e) by nra. nra.
    + assert (0 < e * i) by nra. nra.
    + assert (0 < a * i) by nra. nra.
    + assert (0 < a * e) by nra. nra.
    + apply (Hgen (-1) (-1) 1); try lra. rewrite V1, !V2. congruence.
    + apply (Hgen (-1) 1 (-1)); try lra. rewrite V1, !V2. congruence.
    + apply (Hgen 1 (-1) (-1)); try lra. rewrite V1, !V2. congruence.
    + apply (Hgen 1 1 1); try lra. rewrite !V1. destruct Q as [q0 q1 q2]; cbn [row0 row1 row2]; congruence.
Qed.

Lemma upper_solve_correct K b : calibration K -> mapply K (upper_solve K b) = b.
Proof.
  destruct K as [[a k c] [d e f] [g h i]], b as [x y z]. unfold calibration.
  cbn [row0 row1 row2 x3 y3 z3]. intros (-> & -> & -> & Ha & He & Hi).
  unfold upper_solve, mapply, dot. cbn [row0 row1 row2 x3 y3 z3]. f_equal; field; lra.
Qed.

(** * Decomposition *)

Lemma decompose_correct qr nearest to_aa P :
  qr_contract qr -> keeps_rotations nearest -> aa_conv to_aa ->
  match decompose_projection_matrix qr nearest to_aa P with
  | None => det3 (m_left P) = 0
  | Some (K, aa, pos) => det3 (m_left P) <> 0 /\ calibration K /\
      P = mat34_scale (if Rlt_dec 0 (det3 (m_left P)) then 1 else -1) (compose_projection_matrix K aa pos)
  end.
Proof.
  intros Hqr Hn Ha. unfold decompose_projection_matrix.
  pose proof (rq_correct qr (m_left P) Hqr) as H.
  destruct (rq_decomposition qr (m_left P)) as [r q]. destruct H as (Hrq & Hq & Hu).
  assert (Hdet : det3 (m_left P) = det3 r)
    by (rewrite <- Hrq, det3_mmul; destruct Hq as [_ ->]; ring).
  rewrite Hdet, (Hn q Hq).
  destruct (Req_EM_T (det3 r) 0) as [E|Hne]; [exact E|].
  set (s := if Rlt_dec 0 (det3 r) then 1 else -1).
  assert (Hk : exists k, (if Rlt_dec 0 (det3 r) then r else mscale (-1) r) = k /\
    upper k /\ 0 < det3 k /\ mmul k q = mscale s (m_left P)).
  { eexists. split; [reflexivity|]. unfold s. destruct (Rlt_dec 0 (det3 r)) as [Hd|Hd].
    - rewrite mscale_1. auto.
    - split; [|split].
      + destruct Hu as (H1 & H2 & H3). unfold upper, mscale, vscale. cbn [row0 row1 row2 x3 y3 z3].
        rewrite H1, H2, H3. repeat split; ring.
      + replace (det3 (mscale (-1) r)) with (- det3 r); [lra|].
        destruct r as [[a0 b0 d0] [a1 b1 d1] [a2 b2 d2]]. unfold det3, mscale, vscale. cbn [row0 row1 row2 x3 y3 z3]. ring.
      + rewrite mmul_mscale_l, Hrq. reflexivity. }
  destruct Hk as (k & -> & Hku & Hkd & Hkq).
  pose proof (flips_correct k q Hku Hkd Hq) as HF.
  destruct (flip2 (flip1 (flip0 (k, q)))) as [K Rm]. destruct HF as (HK & HR & HKR).
  split; [exact Hne|]. split; [exact HK|].
  set (t := upper_solve K (m_last P)).
  assert (Ht : mapply K t = m_last P) by (apply upper_solve_correct, HK).
  unfold compose_projection_matrix, mat34_scale. cbn [m_left m_last]. rewrite (Ha Rm HR).
  assert (Hl : m_left P = mscale s (mmul K Rm)).
  { rewrite HKR, Hkq. unfold s. destruct (Rlt_dec 0 (det3 r)).
    - rewrite !mscale_1. reflexivity.
    - set (A := m_left P). clearbody A. clear. vring. }
  assert (Hrr : forall v, mapply Rm (mapply (mtrans Rm) v) = v).
  { intros v. rewrite <- mapply_mmul. destruct HR as [-> _]. apply mapply_id. }
  assert (Hv : m_last P = vscale s (mapply K (vopp (mapply Rm
    (if Rlt_dec 0 (det3 r) then vopp (mapply (mtrans Rm) t) else mapply (mtrans Rm) t))))).
  { unfold s. destruct (Rlt_dec 0 (det3 r)).
    - rewrite (mapply_vopp Rm), Hrr.
      assert (E : vopp (vopp t) = t) by (clearbody t; clear; vring).
      rewrite E, Ht. set (A := m_last P). clearbody A. clear. vring.
    - rewrite Hrr, mapply_vopp, Ht. set (A := m_last P). clearbody A. clear. vring. }
  destruct P as [L v]. cbn [m_left m_last] in *. congruence.
Qed.

(** Uniqueness of the factorisation. *)
Lemma pos_sq_inj x y : 0 < x -> 0 < y -> x * x = y * y -> x = y.
Proof. intros. nra. Qed.

Lemma calibration_unique K1 K2 R1 R2 : calibration K1 -> calibration K2 -> rotation R1 -> rotation R2 ->
  mmul K1 R1 = mmul K2 R2 -> K1 = K2 /\ R1 = R2.
Proof.
  intros H1 H2 HR1 HR2 HE.
  assert (HS : mmul K1 (mtrans K1) = mmul K2 (mtrans K2)).
  { assert (E : forall K Rm, rotation Rm -> mmul (mmul K Rm) (mtrans (mmul K Rm)) = mmul K (mtrans K)).
    { intros K Rm [Ho _]. rewrite mtrans_mmul, mmul_assoc, <- (mmul_assoc Rm), Ho, mmul_id_l. reflexivity. }
    rewrite <- (E K1 R1 HR1), <- (E K2 R2 HR2), HE. reflexivity. }
  assert (EK : K1 = K2).
  { clear HE HR1 HR2. destruct K1 as [[a b c] [d e f] [g h i]], K2 as [[a' b' c'] [d' e' f'] [g' h' i']].
    unfold calibration in *. cbn [row0 row1 row2 x3 y3 z3] in *.
    destruct H1 as (-> & -> & -> & Ha & He & Hi), H2 as (-> & -> & -> & Ha' & He' & Hi').
    unfold mmul, mapply, mtrans, dot in HS. cbn [row0 row1 row2 x3 y3 z3] in HS.
    injection HS. intros.
    assert (i = i') as <- by (apply pos_sq_inj; lra).
    assert (f = f') as <- by (apply Rmult_eq_reg_r with i; lra).
    assert (c = c') as <- by (apply Rmult_eq_reg_r with i; lra).
    assert (e = e') as <- by (apply pos_sq_inj; lra).
    assert (b = b') as <- by (apply Rmult_eq_reg_r with e; lra).
    assert (a = a') as <- by (apply pos_sq_inj; lra). reflexivity. }
  split; [exact EK|]. subst K2.
  assert (Hd : det3 K1 <> 0).
  { destruct H1 as (U1 & U2 & U3 & Ha & He & Hi). rewrite upper_det by (repeat split; assumption).
    apply Rgt_not_eq. repeat apply Rmult_lt_0_compat; assumption. }
  apply (f_equal (mmul (adj K1))) in HE. rewrite <- !mmul_assoc, adj_l, !mmul_mscale_l, !mmul_id_l in HE.
  apply (f_equal (mscale (/ det3 K1))) in HE.
  assert (E : forall A, mscale (/ det3 K1) (mscale (det3 K1) A) = A).
  { intros [[a0 b0 d0] [a1 b1 d1] [a2 b2 d2]]. unfold mscale, vscale. cbn [row0 row1 row2 x3 y3 z3].
    set (z := det3 K1) in *. f_equal; f_equal; field; exact Hd. }
  rewrite !E in HE. exact HE.
Qed.

Lemma det3_mscale k M : det3 (mscale k M) = k * k * k * det3 M.
Proof. destruct M as [[a0 b0 d0] [a1 b1 d1] [a2 b2 d2]]. unfold det3, mscale, vscale. cbn [row0 row1 row2 x3 y3 z3]. ring. Qed.

Lemma calibration_det K : calibration K -> 0 < det3 K.
Proof.
  intros (U1 & U2 & U3 & Ha & He & Hi). rewrite upper_det by (repeat split; assumption).
  repeat apply Rmult_lt_0_compat; assumption.
Qed.

Lemma decompose_compose qr nearest to_aa k K aa pos :
  qr_contract qr -> keeps_rotations nearest -> aa_conv to_aa -> calibration K -> k <> 0 ->
  exists aa', decompose_projection_matrix qr nearest to_aa
      (mat34_scale k (compose_projection_matrix K aa pos)) = Some (mscale (Rabs k) K, aa', pos) /\
    rot_of_aa aa' = rot_of_aa aa.
Proof.
  intros Hqr Hn Ha HK Hk.
  pose proof (decompose_correct qr nearest to_aa (mat34_scale k (compose_projection_matrix K aa pos)) Hqr Hn Ha) as HD.
  assert (Hdet : det3 (m_left (mat34_scale k (compose_projection_matrix K aa pos))) = k * k * k * det3 K).
  { cbn [mat34_scale m_left compose_projection_matrix]. rewrite det3_mscale, det3_mmul.
    destruct (rot_of_aa_rotation aa) as [_ ->]. ring. }
  pose proof (calibration_det K HK) as HdK.
  assert (Hkk : 0 < k * k) by nra.
  destruct (decompose_projection_matrix _ _ _ _) as [[[K' aa'] pos']|].
  2:{ exfalso. rewrite Hdet in HD. apply Rmult_integral in HD as [HD|HD]; [|lra].
      apply Rmult_integral in HD as [HD|HD]; lra. }
  destruct HD as (_ & HK' & HP). rewrite Hdet in HP.
  set (s := if Rlt_dec 0 (k * k * k * det3 K) then 1 else -1) in *.
  assert (Hs : s * k = Rabs k /\ s * s = 1).
  { unfold s. destruct (Rlt_dec 0 (k * k * k * det3 K)) as [H|H].
    - assert (0 < k).
      { apply Rnot_le_lt. intros Hle. assert (k * k * k * det3 K <= 0); [|lra].
        assert (k * k * k <= 0) by nra. nra. }
      rewrite Rabs_pos_eq by lra. lra.
    - assert (k < 0).
      { apply Rnot_le_lt. intros Hle. apply H. assert (0 < k) by lra.
        repeat apply Rmult_lt_0_compat; assumption. }
      rewrite Rabs_left by lra. lra. }
  destruct Hs as [Hs1 Hs2]. clearbody s.
  pose proof (f_equal m_left HP) as HL. pose proof (f_equal m_last HP) as HT. clear HP.
  unfold mat34_scale, compose_projection_matrix in HL, HT. cbn [m_left m_last] in HL, HT.
  assert (HL' : mmul (mscale (Rabs k) K) (rot_of_aa aa) = mmul K' (rot_of_aa aa')).
  { rewrite mmul_mscale_l, <- Hs1.
    assert (E : forall A, mscale (s * k) A = mscale s (mscale k A)) by (clear; intros; vring).
    rewrite E, HL. clear - Hs2.
    assert (E : forall A, mscale s (mscale s A) = mscale (s * s) A) by (intros; vring).
    rewrite E, Hs2, mscale_1. reflexivity. }
  assert (HaK : calibration (mscale (Rabs k) K)).
  { assert (0 < Rabs k) by (apply Rabs_pos_lt, Hk).
    destruct HK as (U1 & U2 & U3 & Ha1 & He & Hi). unfold calibration, mscale, vscale.
    cbn [row0 row1 row2 x3 y3 z3]. rewrite U1, U2, U3. repeat split; try ring; apply Rmult_lt_0_compat; assumption. }
  destruct (calibration_unique _ _ _ _ HaK HK' (rot_of_aa_rotation aa) (rot_of_aa_rotation aa') HL')
    as [EK ER].
  exists aa'. split; [|symmetry; exact ER].
  assert (Hpos : pos' = pos).
  { rewrite <- EK, <- ER in HT.
    rewrite !mapply_mscale, !mapply_vopp in HT.
    assert (E : forall v, vscale s (vscale (Rabs k) v) = vscale k v).
    { intros [x y z]. unfold vscale. cbn [x3 y3 z3]. rewrite <- Hs1.
      f_equal; replace k with (s * s * k) at 2 by (rewrite Hs2; ring); ring. }
    rewrite E in HT.
    apply (f_equal (vscale (/ k))) in HT.
    assert (E2 : forall v, vscale (/ k) (vscale k v) = v).
    { intros [x y z]. unfold vscale. cbn [x3 y3 z3]. f_equal; field; exact Hk. }
    rewrite !E2 in HT. apply (f_equal vopp) in HT.
    assert (E3 : forall v, vopp (vopp v) = v) by (intros; vring).
    rewrite !E3 in HT. rewrite <- !mapply_mmul in HT.
    apply (f_equal (mapply (mmul (mtrans (rot_of_aa aa)) (adj K)))) in HT.
    rewrite <- !mapply_mmul in HT.
    replace (mmul (mmul (mtrans (rot_of_aa aa)) (adj K)) (mmul K (rot_of_aa aa)))
      with (mscale (det3 K) mid) in HT.
    2:{ rewrite !mmul_assoc, <- (mmul_assoc (adj K)), adj_l, mmul_mscale_l, mmul_id_l, mmul_mscale_r.
        rewrite rotation_trans_l by apply rot_of_aa_rotation. reflexivity. }
    rewrite !mapply_mscale, !mapply_id in HT.
    apply (f_equal (vscale (/ det3 K))) in HT.
    assert (E4 : forall v, vscale (/ det3 K) (vscale (det3 K) v) = v).
    { intros [x y z]. unfold vscale. cbn [x3 y3 z3]. set (u := det3 K) in *. f_equal; field; lra. }
    rewrite !E4 in HT. symmetry. exact HT. }
  congruence.
Qed.

(** * Projection through the matrix *)

Lemma compose_apply K aa pos X : w4 X <> 0 ->
  mat34_apply (compose_projection_matrix K aa pos) X =
    mapply K (vscale (w4 X) (in_frame (Pose aa pos) (hnormalized X))).
Proof.
  intros Hw. unfold mat34_apply, compose_projection_matrix, in_frame. cbn [m_left m_last p_aa p_pos].
  rewrite mapply_mmul, <- mapply_vscale, <- mapply_vadd. f_equal.
  assert (E : V3 (x4 X) (y4 X) (z4 X) = vscale (w4 X) (hnormalized X)).
  { unfold vscale, hnormalized. cbn [x3 y3 z3]. f_equal; field; exact Hw. }
  rewrite E, mapply_vscale, mapply_vsub. set (A := mapply _ (hnormalized X)). set (B := mapply _ pos).
  clearbody A B. vring.
Qed.

Lemma matrix_projection i c X : ideal_pinhole i -> w4 X <> 0 ->
  (project_point i c X).2 <> 0 ->
  perspective (mat34_apply (get_projection_matrix i c) X) = (project_point i c X).1 /\
  z3 (mat34_apply (get_projection_matrix i c) X) = w4 X * (project_point i c X).2.
Proof.
  intros Hi Hw. rewrite project_point_frame by exact Hw. cbn [fst snd].
  unfold get_projection_matrix. destruct c as [aa pos]. cbn [p_aa p_pos].
  rewrite compose_apply by exact Hw. set (p := in_frame _ _). intros Hz.
  assert (Hz' : z3 (vscale (w4 X) p) <> 0)
    by (cbn [vscale z3]; apply Rmult_integral_contrapositive_currified; assumption).
  assert (Hgen : forall f ar sk px py v, z3 v <> 0 ->
    perspective (mapply (calibration_matrix f sk ar px py) v) = calib f ar sk px py (perspective v) /\
    z3 (mapply (calibration_matrix f sk ar px py) v) = z3 v).
  { intros f ar sk px py [x y z] Hv. cbn [z3] in Hv.
    unfold mapply, calibration_matrix, perspective, calib, dot. cbn [row0 row1 row2 x3 y3 z3 x2 y2].
    split; [|ring]. f_equal; field; exact Hv. }
  destruct i; cbn [ideal_pinhole] in Hi; try tauto; cbn [intrinsics_matrix camera_to_image].
  - destruct Hi as (_ & _ & -> & ->). rewrite ph_distort_0.
    destruct (Hgen f ar skew px py (vscale (w4 X) p) Hz') as [-> ->]. split; reflexivity.
  - destruct Hi as (_ & _ & -> & -> & -> & -> & ->). rewrite rt_distort_0.
    destruct (Hgen f ar skew px py (vscale (w4 X) p) Hz') as [-> ->]. split; reflexivity.
Qed.

Lemma initialize_correct qr nearest to_aa P :
  qr_contract qr -> keeps_rotations nearest -> aa_conv to_aa -> det3 (m_left P) <> 0 ->
  exists i c k, initialize_from_projection_matrix qr nearest to_aa P = Ok (Some (i, c)) /\
    ideal_pinhole i /\ k <> 0 /\ P = mat34_scale k (get_projection_matrix i c).
Proof.
  intros Hqr Hn Ha Hd. pose proof (decompose_correct qr nearest to_aa P Hqr Hn Ha) as HD.
  unfold initialize_from_projection_matrix.
  destruct (decompose_projection_matrix qr nearest to_aa P) as [[[K aa] pos]|]; [|contradiction].
  destruct HD as (_ & HK & HP).
  pose proof HK as (U1 & U2 & U3 & Hk0 & Hk1 & Hk2).
  destruct (Req_EM_T (x3 (row0 K)) 0) as [?|_]; [lra|].
  destruct (Req_EM_T (y3 (row1 K)) 0) as [?|_]; [lra|].
  destruct (calibration_to_intrinsics K) as [[[[[f sk] ar] px] py]| | |] eqn:EC.
  2-4: exfalso; unfold calibration_to_intrinsics in EC;
       destruct (Req_EM_T (z3 (row2 K)) 0); [lra|discriminate].
  destruct (intrinsics_matrix_scale K f sk ar px py HK EC) as (EK & Hf & Har).
  set (s := if Rlt_dec 0 (det3 (m_left P)) then 1 else -1) in *.
  assert (Hs : s <> 0) by (unfold s; destruct (Rlt_dec _ _); lra).
  exists (Pinhole f ar sk px py 0 0), (Pose aa pos), (s * z3 (row2 K)).
  split; [reflexivity|]. split; [repeat split; lra|].
  split; [apply Rmult_integral_contrapositive_currified; lra|].
  rewrite HP at 1. unfold get_projection_matrix. cbn [intrinsics_matrix p_aa p_pos].
  rewrite EK at 1. set (z := z3 (row2 K)). set (C := calibration_matrix f sk ar px py).
  clearbody z C s. unfold mat34_scale, compose_projection_matrix. cbn [m_left m_last]. f_equal.
  - rewrite mmul_mscale_l. set (A := mmul _ _). clearbody A. clear. vring.
  - rewrite mapply_mscale. set (A := mapply _ _). clearbody A. clear. vring.
Qed.

Lemma initialize_singular qr nearest to_aa P :
  qr_contract qr -> keeps_rotations nearest -> aa_conv to_aa -> det3 (m_left P) = 0 ->
  initialize_from_projection_matrix qr nearest to_aa P = UB.
Proof.
  intros Hqr Hn Ha Hd. pose proof (decompose_correct qr nearest to_aa P Hqr Hn Ha) as HD.
  unfold initialize_from_projection_matrix.
  destruct (decompose_projection_matrix qr nearest to_aa P) as [[[K aa] pos]|]; [tauto|reflexivity].
Qed.

(** * An instance of the contract of the QR decomposition: Givens rotations *)
Definition hyp (a b : R) : R := sqrt (a * a + b * b).
Definition gc (a b : R) : R := if Req_EM_T (hyp a b) 0 then 1 else a / hyp a b.
Definition gs (a b : R) : R := if Req_EM_T (hyp a b) 0 then 0 else b / hyp a b.

Lemma hyp_sq a b : hyp a b * hyp a b = a * a + b * b.
Proof. apply sqrt_sqrt. nra. Qed.
Lemma givens_unit a b : gc a b * gc a b + gs a b * gs a b = 1.
Proof.
  unfold gc, gs. destruct (Req_EM_T _ _) as [E|E]; [ring|].
  replace (_ + _) with ((a * a + b * b) / (hyp a b * hyp a b)) by (field; exact E).
  rewrite <- hyp_sq. field. exact E.
Qed.
Lemma givens_zero a b : - gs a b * a + gc a b * b = 0.
Proof.
  unfold gc, gs. destruct (Req_EM_T _ _) as [E|E].
  - pose proof (hyp_sq a b) as H. rewrite E in H. assert (b = 0) by nra. lra.
  - field. exact E.
Qed.

Definition G01 (c s : R) : mat3 := M3 (V3 c s 0) (V3 (- s) c 0) (V3 0 0 1).
Definition G02 (c s : R) : mat3 := M3 (V3 c 0 s) (V3 0 1 0) (V3 (- s) 0 c).
Definition G12 (c s : R) : mat3 := M3 (V3 1 0 0) (V3 0 c s) (V3 0 (- s) c).
Lemma G01_orth c s : c * c + s * s = 1 -> mmul (mtrans (G01 c s)) (G01 c s) = mid.
Proof. intros H. unfold G01, mmul, mapply, mtrans, mid, dot. cbn [row0 row1 row2 x3 y3 z3]. f_equal; f_equal; lra. Qed.
Lemma G02_orth c s : c * c + s * s = 1 -> mmul (mtrans (G02 c s)) (G02 c s) = mid.
Proof. intros H. unfold G02, mmul, mapply, mtrans, mid, dot. cbn [row0 row1 row2 x3 y3 z3]. f_equal; f_equal; lra. Qed.
Lemma G12_orth c s : c * c + s * s = 1 -> mmul (mtrans (G12 c s)) (G12 c s) = mid.
Proof. intros H. unfold G12, mmul, mapply, mtrans, mid, dot. cbn [row0 row1 row2 x3 y3 z3]. f_equal; f_equal; lra. Qed.

Definition givens_qr (A : mat3) : mat3 * mat3 :=
  let g1 := G01 (gc (x3 (row0 A)) (x3 (row1 A))) (gs (x3 (row0 A)) (x3 (row1 A))) in
  let B := mmul g1 A in
  let g2 := G02 (gc (x3 (row0 B)) (x3 (row2 B))) (gs (x3 (row0 B)) (x3 (row2 B))) in
  let C := mmul g2 B in
  let g3 := G12 (gc (y3 (row1 C)) (y3 (row2 C))) (gs (y3 (row1 C)) (y3 (row2 C))) in
  (mmul g3 C, mmul (mtrans g1) (mmul (mtrans g2) (mtrans g3))).

Lemma upper_clear M : upper M -> clear_lower M = M.
Proof.
  destruct M as [[a b c] [d e f] [g h i]]. unfold upper, clear_lower. cbn [row0 row1 row2 x3 y3 z3].
  intros (-> & -> & ->). reflexivity.
Qed.

Lemma givens_qr_contract : qr_contract givens_qr.
Proof.
  intros A. unfold givens_qr.
  set (c1 := gc (x3 (row0 A)) (x3 (row1 A))). set (s1 := gs (x3 (row0 A)) (x3 (row1 A))).
  assert (U1 : c1 * c1 + s1 * s1 = 1) by apply givens_unit.
  assert (Z1 : - s1 * x3 (row0 A) + c1 * x3 (row1 A) = 0) by apply givens_zero.
  clearbody c1 s1. set (B := mmul (G01 c1 s1) A).
  assert (B1 : x3 (row1 B) = 0).
  { unfold B, mmul, mapply, mtrans, G01, dot. cbn [row0 row1 row2 x3 y3 z3]. lra. }
  assert (EB : mmul (mtrans (G01 c1 s1)) B = A)
    by (unfold B; rewrite <- mmul_assoc, G01_orth, mmul_id_l by exact U1; reflexivity).
  clearbody B.
  set (c2 := gc (x3 (row0 B)) (x3 (row2 B))). set (s2 := gs (x3 (row0 B)) (x3 (row2 B))).
  assert (U2 : c2 * c2 + s2 * s2 = 1) by apply givens_unit.
  assert (Z2 : - s2 * x3 (row0 B) + c2 * x3 (row2 B) = 0) by apply givens_zero.
  clearbody c2 s2. set (C := mmul (G02 c2 s2) B).
  assert (C1 : x3 (row1 C) = 0 /\ x3 (row2 C) = 0).
  { unfold C, mmul, mapply, mtrans, G02, dot. cbn [row0 row1 row2 x3 y3 z3]. lra. }
  assert (EC : mmul (mtrans (G02 c2 s2)) C = B)
    by (unfold C; rewrite <- mmul_assoc, G02_orth, mmul_id_l by exact U2; reflexivity).
  clearbody C.
  set (c3 := gc (y3 (row1 C)) (y3 (row2 C))). set (s3 := gs (y3 (row1 C)) (y3 (row2 C))).
  assert (U3 : c3 * c3 + s3 * s3 = 1) by apply givens_unit.
  assert (Z3 : - s3 * y3 (row1 C) + c3 * y3 (row2 C) = 0) by apply givens_zero.
  clearbody c3 s3. set (D := mmul (G12 c3 s3) C).
  assert (HD : upper D).
  { destruct C1 as [Ca Cb]. unfold upper, D, mmul, mapply, mtrans, G12, dot. cbn [row0 row1 row2 x3 y3 z3].
    rewrite Ca, Cb. lra. }
  assert (ED : mmul (mtrans (G12 c3 s3)) D = C)
    by (unfold D; rewrite <- mmul_assoc, G12_orth, mmul_id_l by exact U3; reflexivity).
  split.
  - rewrite !mtrans_mmul, !mtrans_mtrans, !mmul_assoc.
    rewrite <- (mmul_assoc (mtrans (G12 c3 s3))), G12_orth, mmul_id_l by exact U3.
    rewrite <- (mmul_assoc (mtrans (G02 c2 s2))), G02_orth, mmul_id_l by exact U2.
    apply G01_orth, U1.
  - rewrite upper_clear by exact HD. rewrite !mmul_assoc, ED, EC, EB. reflexivity.
Qed.
