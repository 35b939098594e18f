(** Proofs about the camera model. *)
From stdpp Require Import gmap.
From Coq Require Import Reals Lra Psatz Nsatz.
From Verif Require Import Base Reconstruction_Model Camera_Model.
Local Open Scope R_scope.

(** * Vectors and matrices *)
Ltac vec := intros; repeat match goal with
  | v : vec3 |- _ => destruct v | v : vec2 |- _ => destruct v | M : mat3 |- _ => destruct M end;
  unfold mmul, mapply, mtrans, mscale, mid, vadd, vsub, vscale, vopp, dot, cross in *;
  cbn [x2 y2 x3 y3 z3 row0 row1 row2] in *.
Ltac vring := vec; f_equal; try ring; f_equal; ring.

Lemma mapply_mmul A B v : mapply (mmul A B) v = mapply A (mapply B v).
Proof. vring. Qed.
Lemma mmul_assoc A B C : mmul (mmul A B) C = mmul A (mmul B C).
Proof. vring. Qed.
Lemma mmul_id_l A : mmul mid A = A.
Proof. vring. Qed.
Lemma mmul_id_r A : mmul A mid = A.
Proof. vring. Qed.
Lemma mapply_id v : mapply mid v = v.
Proof. vring. Qed.
Lemma mtrans_mmul A B : mtrans (mmul A B) = mmul (mtrans B) (mtrans A).
Proof. vring. Qed.
Lemma mtrans_mtrans A : mtrans (mtrans A) = A.
Proof. vring. Qed.
Lemma mapply_vscale A k v : mapply A (vscale k v) = vscale k (mapply A v).
Proof. vring. Qed.
Lemma mapply_mscale A k v : mapply (mscale k A) v = vscale k (mapply A v).
Proof. vring. Qed.
Lemma mapply_vadd A u v : mapply A (vadd u v) = vadd (mapply A u) (mapply A v).
Proof. vring. Qed.
Lemma mapply_vsub A u v : mapply A (vsub u v) = vsub (mapply A u) (mapply A v).
Proof. vring. Qed.
Lemma mapply_vopp A u : mapply A (vopp u) = vopp (mapply A u).
Proof. vring. Qed.
Lemma det3_mmul A B : det3 (mmul A B) = det3 A * det3 B.
Proof. vec. unfold det3. ring. Qed.
Lemma det3_mtrans A : det3 (mtrans A) = det3 A.
Proof. vec. unfold det3. ring. Qed.

(** The adjugate, to invert matrices. *)
Definition adj (M : mat3) : mat3 :=
  let '(M3 (V3 a b c) (V3 d e f) (V3 g h i)) := M in
  M3 (V3 (e * i - f * h) (c * h - b * i) (b * f - c * e))
     (V3 (f * g - d * i) (a * i - c * g) (c * d - a * f))
     (V3 (d * h - e * g) (b * g - a * h) (a * e - b * d)).
Lemma adj_l M : mmul (adj M) M = mscale (det3 M) mid.
Proof. destruct M as [[] [] []]. unfold adj, det3. vring. Qed.
Lemma adj_r M : mmul M (adj M) = mscale (det3 M) mid.
Proof. destruct M as [[] [] []]. unfold adj, det3. vring. Qed.
Lemma mscale_1 A : mscale 1 A = A.
Proof. vring. Qed.
Lemma mmul_mscale_l k A B : mmul (mscale k A) B = mscale k (mmul A B).
Proof. vring. Qed.
Lemma mmul_mscale_r k A B : mmul A (mscale k B) = mscale k (mmul A B).
Proof. vring. Qed.

Lemma rotation_adj M : rotation M -> mtrans M = adj M.
Proof.
  intros [HM Hd].
  assert (H : mmul (adj M) (mmul M (mtrans M)) = adj M) by (rewrite HM, mmul_id_r; reflexivity).
  rewrite <- mmul_assoc, adj_l, Hd, mscale_1, mmul_id_l in H. exact H.
Qed.

Lemma rotation_trans_l M : rotation M -> mmul (mtrans M) M = mid.
Proof.
  intros H. rewrite (rotation_adj M H), adj_l. destruct H as [_ ->]. apply mscale_1.
Qed.

Lemma rotation_trans M : rotation M -> rotation (mtrans M).
Proof.
  intros H. split.
  - rewrite mtrans_mtrans. apply rotation_trans_l, H.
  - rewrite det3_mtrans. apply H.
Qed.

Lemma rotation_mmul A B : rotation A -> rotation B -> rotation (mmul A B).
Proof.
  intros [HA dA] [HB dB]. split.
  - rewrite mtrans_mmul, mmul_assoc, <- (mmul_assoc B), HB, mmul_id_l. exact HA.
  - rewrite det3_mmul, dA, dB. ring.
Qed.

Lemma rotation_mid : rotation mid.
Proof. split; [vring|unfold det3, mid; ring]. Qed.

(** * Orientations *)
Lemma rabs_between x e : Rabs x <= e -> - e <= x <= e.
Proof. intros H. pose proof (Rle_abs x). pose proof (Rle_abs (- x)). rewrite Rabs_Ropp in *. lra. Qed.

Lemma dot_nonneg a : 0 <= dot a a.
Proof. destruct a as [x y z]. unfold dot. cbn. nra. Qed.

Lemma unit_axis w : norm3 w <> 0 ->
  let n := vscale (/ norm3 w) w in x3 n * x3 n + y3 n * y3 n + z3 n * z3 n = 1.
Proof.
  intros Hw. cbn zeta. unfold vscale. cbn [x3 y3 z3].
  assert (Hs : norm3 w * norm3 w = dot w w) by (apply sqrt_sqrt, dot_nonneg).
  replace (_ + _) with (dot w w * (/ norm3 w * / norm3 w)) by (unfold dot; ring).
  rewrite <- Hs. field. exact Hw.
Qed.

Lemma sc1 th : sin th * sin th + cos th * cos th = 1.
Proof. pose proof (sin2_cos2 th). unfold Rsqr in *. lra. Qed.

Lemma rot_of_aa_rotation w : rotation (rot_of_aa w).
Proof.
  unfold rot_of_aa. destruct (Req_EM_T (norm3 w) 0) as [_|Hw]; [apply rotation_mid|].
  pose proof (unit_axis w Hw) as Hn. cbn zeta in Hn.
  pose proof (sc1 (norm3 w)) as Hsc.
  set (n := vscale _ _) in *. set (c := cos _) in *. set (s := sin _) in *.
  clearbody n c s. destruct n as [x y z]. cbn [x3 y3 z3] in *.
  split.
  - unfold mmul, mapply, mtrans, dot, mid. cbn [x3 y3 z3 row0 row1 row2].
    repeat f_equal; nsatz.
  - unfold det3. cbn [x3 y3 z3 row0 row1 row2]. nsatz.
Qed.

Lemma aa_rotate_matrix w p : aa_rotate w p = mapply (rot_of_aa w) p.
Proof.
  unfold aa_rotate, rot_of_aa. destruct (Req_EM_T (norm3 w) 0) as [_|Hw].
  - symmetry; apply mapply_id.
  - cbn zeta. set (n := vscale (/ norm3 w) w). set (c := cos _). set (s := sin _). clearbody n c s.
    destruct n as [x y z], p as [a b d].
    unfold mapply, vadd, vscale, cross, dot. cbn [x3 y3 z3 row0 row1 row2].
    f_equal; ring.
Qed.

(** A concrete conversion of rotations into angle-axis vectors, to show that [aa_conv] can be met. *)
Definition trace3 (M : mat3) : R := x3 (row0 M) + y3 (row1 M) + z3 (row2 M).
Definition half_skew (M : mat3) : vec3 :=
  V3 ((y3 (row2 M) - z3 (row1 M)) / 2) ((z3 (row0 M) - x3 (row2 M)) / 2)
     ((x3 (row1 M) - y3 (row0 M)) / 2).
Definition pi_axis (M : mat3) : vec3 :=
  let u :=
    if Rlt_dec (-1) (x3 (row0 M)) then V3 (1 + x3 (row0 M)) (x3 (row1 M)) (x3 (row2 M))
    else if Rlt_dec (-1) (y3 (row1 M)) then V3 (y3 (row0 M)) (1 + y3 (row1 M)) (y3 (row2 M))
    else V3 (z3 (row0 M)) (z3 (row1 M)) (1 + z3 (row2 M)) in
  vscale (/ norm3 u) u.
Definition aa_of_rot (M : mat3) : vec3 :=
  let c := (trace3 M - 1) / 2 in
  if Rle_dec 1 c then V3 0 0 0
  else if Rle_dec c (-1) then vscale PI (pi_axis M)
  else vscale (acos c / sin (acos c)) (half_skew M).

(** The relations between the entries of a rotation that the conversion relies on. *)
Lemma rotation_entries a b c d e f g h i :
  rotation (M3 (V3 a b c) (V3 d e f) (V3 g h i)) ->
  (a = e * i - f * h /\ b = f * g - d * i /\ c = d * h - e * g /\
   d = c * h - b * i /\ e = a * i - c * g /\ f = b * g - a * h /\
   g = b * f - c * e /\ h = c * d - a * f /\ i = a * e - b * d) /\
  (a * a + b * b + c * c = 1 /\ d * d + e * e + f * f = 1 /\ g * g + h * h + i * i = 1 /\
   a * d + b * e + c * f = 0 /\ a * g + b * h + c * i = 0 /\ d * g + e * h + f * i = 0) /\
  (a * a + d * d + g * g = 1 /\ b * b + e * e + h * h = 1 /\ c * c + f * f + i * i = 1 /\
   a * b + d * e + g * h = 0 /\ a * c + d * f + g * i = 0 /\ b * c + e * f + h * i = 0).
Proof.
  intros H. pose proof (rotation_adj _ H) as Ha. pose proof (rotation_trans_l _ H) as Hl.
  destruct H as [Ho _].
  unfold mmul, mapply, mtrans, adj, mid, dot in *. cbn [x3 y3 z3 row0 row1 row2] in *.
  injection Ha. injection Ho. injection Hl. intros. repeat split; lra.
Qed.

Lemma norm3_unit u : dot u u = 1 -> norm3 u = 1.
Proof. intros H. unfold norm3. rewrite H. apply sqrt_1. Qed.

Lemma rot_of_aa_unit th n : 0 < th -> dot n n = 1 ->
  rot_of_aa (vscale th n) =
    let c := cos th in let s := sin th in
    M3 (V3 (c + x3 n * x3 n * (1 - c)) (x3 n * y3 n * (1 - c) - z3 n * s)
           (y3 n * s + x3 n * z3 n * (1 - c)))
       (V3 (z3 n * s + x3 n * y3 n * (1 - c)) (c + y3 n * y3 n * (1 - c))
           (- x3 n * s + y3 n * z3 n * (1 - c)))
       (V3 (- y3 n * s + x3 n * z3 n * (1 - c)) (x3 n * s + y3 n * z3 n * (1 - c))
           (c + z3 n * z3 n * (1 - c))).
Proof.
  intros Hth Hn.
  assert (Hno : norm3 (vscale th n) = th).
  { assert (E : dot (vscale th n) (vscale th n) = th * th * dot n n)
      by (unfold dot, vscale; cbn [x3 y3 z3]; ring).
    unfold norm3. rewrite E, Hn, Rmult_1_r. apply sqrt_square. lra. }
  unfold rot_of_aa. rewrite Hno. destruct (Req_EM_T th 0) as [->|_]; [lra|].
  replace (vscale (/ th) (vscale th n)) with n; [reflexivity|].
  destruct n as [x y z]. unfold vscale. cbn [x3 y3 z3]. f_equal; field; lra.
Qed.

Lemma rot_of_aa_zero : rot_of_aa (V3 0 0 0) = mid.
Proof.
  unfold rot_of_aa. destruct (Req_EM_T _ _) as [_|H]; [reflexivity|].
  exfalso; apply H. unfold norm3, dot. cbn [x3 y3 z3].
  replace (0 * 0 + 0 * 0 + 0 * 0) with 0 by ring. apply sqrt_0.
Qed.

Lemma sumsq0 p q r : p * p + q * q + r * r = 0 -> p = 0 /\ q = 0 /\ r = 0.
Proof. intros H. repeat split; nra. Qed.
Lemma unit_entry a p q : a * a + p * p + q * q = 1 -> a <= 1.
Proof. nra. Qed.
Lemma unit_entry_one p q : 1 * 1 + p * p + q * q = 1 -> p = 0 /\ q = 0.
Proof. intros H. split; nra. Qed.
Lemma sq_bound t y : t <= -1 -> 0 <= y -> y = 4 - (t - 1) * (t - 1) -> t = -1.
Proof. nra. Qed.

Lemma aa_of_rot_conv : aa_conv aa_of_rot.
Proof.
  intros [[a b c] [d e f] [g h i]] HM.
  pose proof (rotation_entries _ _ _ _ _ _ _ _ _ HM) as
    ((C1 & C2 & C3 & C4 & C5 & C6 & C7 & C8 & C9) & (R1 & R2 & R3 & R4 & R5 & R6) &
     (L1 & L2 & L3 & L4 & L5 & L6)).
  unfold aa_of_rot, trace3. cbn [x3 y3 z3 row0 row1 row2].
  set (t := a + e + i).
  (* The squared length of the skew part, in terms of the trace. *)
  assert (Hsk : (h - f) * (h - f) + (c - g) * (c - g) + (d - b) * (d - b) = 4 - (t - 1) * (t - 1))
    by (unfold t; lra).
  assert (S00 : (1 + t) * (a + a) = (1 + t) * (t - 1) + (h - f) * (h - f)) by (unfold t; lra).
  assert (S11 : (1 + t) * (e + e) = (1 + t) * (t - 1) + (c - g) * (c - g)) by (unfold t; lra).
  assert (S22 : (1 + t) * (i + i) = (1 + t) * (t - 1) + (d - b) * (d - b)) by (unfold t; lra).
  assert (S01 : (1 + t) * (b + d) = (h - f) * (c - g)) by (unfold t; lra).
  assert (S02 : (1 + t) * (c + g) = (h - f) * (d - b)) by (unfold t; lra).
  assert (S12 : (1 + t) * (f + h) = (c - g) * (d - b)) by (unfold t; lra).
  destruct (Rle_dec 1 ((t - 1) / 2)) as [Ht|Ht].
  - (* The identity. *)
    rewrite rot_of_aa_zero.
    assert (a <= 1) by (apply (unit_entry a b c); lra).
    assert (e <= 1) by (apply (unit_entry e d f); lra).
    assert (i <= 1) by (apply (unit_entry i g h); lra).
    assert (a = 1 /\ e = 1 /\ i = 1) as (Ha & He & Hi) by (unfold t in Ht; repeat split; lra).
    clear - R1 R2 R3 Ha He Hi. subst a e i.
    destruct (unit_entry_one b c) as [-> ->]; [clear - R1; lra|].
    destruct (unit_entry_one d f) as [-> ->]; [clear - R2; lra|].
    destruct (unit_entry_one g h) as [-> ->]; [clear - R3; lra|]. reflexivity.
  - destruct (Rle_dec ((t - 1) / 2) (-1)) as [Ht'|Ht'].
    + (* A half turn. *)
      assert (t = -1).
      { apply (sq_bound t _) with (3 := Hsk); [lra|].
        pose proof (Rle_0_sqr (h - f)). pose proof (Rle_0_sqr (c - g)).
        pose proof (Rle_0_sqr (d - b)). unfold Rsqr in *. lra. }
      assert (h = f /\ c = g /\ d = b) as (-> & -> & ->).
      { assert (4 - (t - 1) * (t - 1) = 0) as E by (rewrite H; ring). rewrite E in Hsk.
        destruct (sumsq0 _ _ _ Hsk) as (? & ? & ?). repeat split; lra. }
      clear S00 S11 S22 S01 S02 S12 Hsk.
      unfold pi_axis. cbn [x3 y3 z3 row0 row1 row2].
      set (u := if Rlt_dec (-1) a then _ else _).
      assert (Hu : exists m, 0 < m /\ dot u u = 2 * m /\
        x3 u * x3 u = m * (1 + a) /\ y3 u * y3 u = m * (1 + e) /\ z3 u * z3 u = m * (1 + i) /\
        x3 u * y3 u = m * b /\ x3 u * z3 u = m * g /\ y3 u * z3 u = m * f).
      { unfold u, dot, t in *.
        destruct (Rlt_dec (-1) a) as [Ha|Ha]; [exists (1 + a); cbn [x3 y3 z3]; repeat split; lra|].
        destruct (Rlt_dec (-1) e) as [He|He]; [exists (1 + e); cbn [x3 y3 z3]; repeat split; lra|].
        exists (1 + i); cbn [x3 y3 z3]. repeat split; lra. }
      clearbody u. destruct Hu as (m & Hm & Hd & Q).
      assert (Hno : norm3 u * norm3 u = 2 * m).
      { unfold norm3. rewrite sqrt_sqrt; [exact Hd|rewrite Hd; lra]. }
      assert (Hnz : norm3 u <> 0) by (intros E; rewrite E in Hno; lra).
      rewrite rot_of_aa_unit; [|exact PI_RGT_0|].
      2:{ unfold dot, vscale. cbn [x3 y3 z3].
          replace (_ + _) with (dot u u / (norm3 u * norm3 u)) by (unfold dot; field; exact Hnz).
          rewrite Hno, Hd. field. lra. }
      cbn zeta. rewrite cos_PI, sin_PI. unfold vscale. cbn [x3 y3 z3].
      assert (Hinv : / norm3 u * / norm3 u = / (2 * m)) by (rewrite <- Hno; field; exact Hnz).
      destruct Q as (Q1 & Q2 & Q3 & Q4 & Q5 & Q6).
      set (k := / norm3 u) in *. clearbody k.
      assert (forall p q w, p * q = m * w -> k * p * (k * q) * (1 - -1) = w) as Hk.
      { intros p q w E. replace (k * p * (k * q) * (1 - -1)) with (k * k * (p * q) * 2) by ring.
        rewrite Hinv, E. field. lra. }
      rewrite (Hk _ _ _ Q1), (Hk _ _ _ Q2), (Hk _ _ _ Q3), (Hk _ _ _ Q4), (Hk _ _ _ Q5), (Hk _ _ _ Q6).
      f_equal; f_equal; ring.
    + (* The general case. *)
      set (k := (t - 1) / 2) in *.
      assert (Hk : -1 < k < 1) by lra.
      assert (Hcos : cos (acos k) = k) by (apply cos_acos; lra).
      pose proof (acos_bound_lt k Hk) as Hb.
      assert (Hsin : 0 < sin (acos k)) by (apply sin_gt_0; lra).
      pose proof (sc1 (acos k)) as Hsc. rewrite Hcos in Hsc.
      set (th := acos k) in *. set (sn := sin th) in *.
      assert (Esn : sin th = sn) by reflexivity. clearbody th sn.
      replace (vscale (th / sn) (half_skew _)) with
        (vscale th (vscale (/ sn) (half_skew (M3 (V3 a b c) (V3 d e f) (V3 g h i)))))
        by (unfold vscale; cbn [x3 y3 z3]; f_equal; field; lra).
      assert (Ek : t = 2 * k + 1) by (unfold k; lra). clearbody k.
      assert (Hn2 : sn * sn = (1 - k) * (1 + k)) by lra.
      rewrite rot_of_aa_unit; [|lra|].
      2:{ unfold half_skew, dot, vscale. cbn [x3 y3 z3 row0 row1 row2].
          replace (_ + _) with
            (((h - f) * (h - f) + (c - g) * (c - g) + (d - b) * (d - b)) / (4 * (sn * sn)))
            by (field; lra).
          rewrite Hsk, Hn2, Ek. field. nra. }
      cbn zeta. rewrite Hcos, Esn. unfold half_skew, vscale. cbn [x3 y3 z3 row0 row1 row2].
      assert (Hq : forall p q, / sn * (p / 2) * (/ sn * (q / 2)) * (1 - k) = p * q / (4 * (1 + k))).
      { intros p q. replace (/ sn * (p / 2) * (/ sn * (q / 2)) * (1 - k)) with
          (p * q * (1 - k) / (4 * (sn * sn))) by (field; lra).
        rewrite Hn2. field. nra. }
      assert (Hl : forall p, / sn * (p / 2) * sn = p / 2) by (intros; field; lra).
      assert (Hl' : forall p, - (/ sn * (p / 2)) * sn = - p / 2) by (intros; field; lra).
      rewrite !Hq, !Hl, !Hl'. rewrite Ek in *.
      f_equal; f_equal; (apply Rmult_eq_reg_l with (4 * (1 + k)); [|apply Rgt_not_eq; lra]);
        match goal with |- context [?p / (4 * (1 + k))] =>
          assert (4 * (1 + k) * (p / (4 * (1 + k))) = p) by (field; lra);
          set (z := p / (4 * (1 + k))) in *; clearbody z end; lra.
Qed.

(** * Scale invariance of the lens models *)
From Verif Require Import Camera_Spec.

Lemma perspective_scale a p : a <> 0 -> z3 p <> 0 -> perspective (vscale a p) = perspective p.
Proof.
  intros Ha Hz. unfold perspective, vscale. cbn [x3 y3 z3]. f_equal; field; split; assumption.
Qed.

Lemma fe_distort_scale k1 k2 k3 k4 a p : a <> 0 -> z3 p <> 0 ->
  / 100000000 <= off_axis2 p -> / 100000000 <= a * a * off_axis2 p ->
  fe_distort k1 k2 k3 k4 (vscale a p) = fe_distort k1 k2 k3 k4 p.
Proof.
  intros Ha Hz H1 H2. unfold off_axis2 in *.
  unfold fe_distort, vscale. cbn [x3 y3 z3]. set (r2 := x3 p * x3 p + y3 p * y3 p) in *.
  replace (a * x3 p * (a * x3 p) + a * y3 p * (a * y3 p)) with (a * a * r2) by (unfold r2; ring).
  destruct (Rlt_dec (a * a * r2) _) as [?|_]; [lra|].
  destruct (Rlt_dec r2 _) as [?|_]; [lra|].
  assert (Hr : 0 < r2) by (assert (0 < / 100000000) by lra; lra).
  assert (Hs : sqrt (a * a * r2) = Rabs a * sqrt r2).
  { rewrite sqrt_mult; [|nra|lra]. f_equal. apply sqrt_Rsqr_abs. }
  pose proof (sqrt_lt_R0 _ Hr) as Hsq.
  assert (Hab : 0 < Rabs a) by (apply Rabs_pos_lt, Ha).
  assert (Hzb : 0 < Rabs (z3 p)) by (apply Rabs_pos_lt, Hz).
  assert (Hth : atan2_pos (sqrt (a * a * r2)) (Rabs (a * z3 p)) = atan2_pos (sqrt r2) (Rabs (z3 p))).
  { rewrite Hs, Rabs_mult. unfold atan2_pos.
    destruct (Req_EM_T (Rabs a * Rabs (z3 p)) 0) as [E|_]; [nra|].
    destruct (Req_EM_T (Rabs (z3 p)) 0) as [E|_]; [lra|].
    f_equal. field. split; lra. }
  rewrite Hth, Hs. set (td := fe_theta_d _ _ _ _ _). cbn [x2 y2].
  destruct (Rtotal_order a 0) as [Hn|[?|Hp]]; [|lra|].
  - assert (HA : Rabs a = - a) by (apply Rabs_left; lra). rewrite HA.
    destruct (Rlt_dec (a * z3 p) 0), (Rlt_dec (z3 p) 0); try nra; f_equal; field; lra.
  - rewrite (Rabs_pos_eq a) by lra.
    destruct (Rlt_dec (a * z3 p) 0), (Rlt_dec (z3 p) 0); try nra; f_equal; field; lra.
Qed.

Lemma camera_to_image_scale i a p : a <> 0 -> z3 p <> 0 ->
  (fisheye i -> / 100000000 <= off_axis2 p /\ / 100000000 <= a * a * off_axis2 p) ->
  camera_to_image i (vscale a p) = camera_to_image i p.
Proof.
  intros Ha Hz Hf. destruct i; cbn [camera_to_image];
    try (rewrite perspective_scale by assumption; reflexivity).
  destruct (Hf I) as [H1 H2]. rewrite fe_distort_scale by assumption. reflexivity.
Qed.

(** * Similarity transformations *)

Lemma project_point_frame i c X : w4 X <> 0 ->
  project_point i c X =
    (camera_to_image i (vscale (w4 X) (in_frame c (hnormalized X))), z3 (in_frame c (hnormalized X))).
Proof.
  intros Hw. unfold project_point, in_frame. rewrite aa_rotate_matrix.
  assert (E : vsub (V3 (x4 X) (y4 X) (z4 X)) (vscale (w4 X) (p_pos c)) =
              vscale (w4 X) (vsub (hnormalized X) (p_pos c))).
  { unfold vsub, vscale, hnormalized. cbn [x3 y3 z3]. f_equal; field; exact Hw. }
  rewrite E, mapply_vscale. f_equal. unfold vscale. cbn [z3]. field. exact Hw.
Qed.

Lemma in_frame_transform to_aa Rot t s c p : aa_conv to_aa -> rotation Rot ->
  in_frame (transform_camera to_aa Rot t s c) (transform_point Rot t s p) =
    vscale s (in_frame c p).
Proof.
  intros Hc HR. unfold in_frame, transform_camera. cbn [p_aa p_pos].
  rewrite Hc by (apply rotation_mmul; [apply rot_of_aa_rotation|apply rotation_trans, HR]).
  unfold transform_point.
  assert (E : vsub (vadd (mapply (mscale s Rot) p) t) (vadd (mapply (mscale s Rot) (p_pos c)) t) =
              vscale s (mapply Rot (vsub p (p_pos c)))).
  { rewrite !mapply_mscale, mapply_vsub. vring. }
  rewrite E, mapply_vscale. f_equal. rewrite mapply_mmul. f_equal.
  rewrite <- mapply_mmul, rotation_trans_l by exact HR. apply mapply_id.
Qed.

Lemma hnormalized_homogeneous p : hnormalized (homogeneous p) = p.
Proof. destruct p as [a b d]. unfold hnormalized, homogeneous. cbn [x4 y4 z4 w4 x3 y3 z3]. f_equal; field. Qed.

Lemma transform_projection to_aa Rot t s c X i :
  aa_conv to_aa -> rotation Rot -> 0 < s -> w4 X <> 0 ->
  z3 (in_frame c (hnormalized X)) <> 0 ->
  (fisheye i -> / 100000000 <= w4 X * w4 X * off_axis2 (in_frame c (hnormalized X)) /\
                / 100000000 <= s * s * off_axis2 (in_frame c (hnormalized X))) ->
  project_point i (transform_camera to_aa Rot t s c)
    (homogeneous (transform_point Rot t s (hnormalized X))) =
  let '(pixel, depth) := project_point i c X in (pixel, s * depth).
Proof.
  intros Hc HR Hs Hw Hz Hf. rewrite !project_point_frame; [|exact Hw|cbn [homogeneous w4]; lra].
  rewrite hnormalized_homogeneous, in_frame_transform by assumption.
  cbn [homogeneous w4]. set (p := in_frame c (hnormalized X)) in *. f_equal.
  replace (vscale 1 (vscale s p)) with (vscale (s / w4 X) (vscale (w4 X) p)).
  2:{ destruct p as [a b d]. unfold vscale. cbn [x3 y3 z3]. f_equal; field; exact Hw. }
  apply camera_to_image_scale.
  - unfold Rdiv. apply Rmult_integral_contrapositive_currified; [lra|].
    apply Rinv_neq_0_compat, Hw.
  - unfold vscale. cbn [z3]. apply Rmult_integral_contrapositive_currified; assumption.
  - intros Hfe. destruct (Hf Hfe) as [H1 H2].
    assert (E : off_axis2 (vscale (w4 X) p) = w4 X * w4 X * off_axis2 p)
      by (unfold off_axis2, vscale; cbn [x3 y3]; ring).
    rewrite E. split; [exact H1|].
    replace (s / w4 X * (s / w4 X) * (w4 X * w4 X * off_axis2 p)) with (s * s * off_axis2 p)
      by (field; exact Hw). exact H2.
Qed.

(** The two loops update every entry once. *)
Lemma foldl_alter_lookup {A} (f : A -> A) (l : list N) (m : gmap N A) k :
  base.NoDup l ->
  foldl (fun m u => alter f u m) m l !! k = (if decide (k ∈ l) then f <$> m !! k else m !! k).
Proof.
  revert m. induction l as [|u l IH]; intros m Hnd; cbn [foldl].
  - rewrite decide_False by apply not_elem_of_nil. reflexivity.
  - rewrite list.NoDup_cons in Hnd. destruct Hnd as [Hu Hnd]. rewrite IH by exact Hnd.
    destruct (decide (k = u)) as [->|Hne].
    + rewrite decide_False by exact Hu. rewrite decide_True by left.
      apply lookup_alter.
    + rewrite lookup_alter_ne by congruence.
      destruct (decide (k ∈ l)) as [Hin|Hin].
      * rewrite decide_True by (right; exact Hin). reflexivity.
      * rewrite decide_False; [reflexivity|]. rewrite elem_of_cons. tauto.
Qed.

Lemma transform_lookup {A} (f : A -> A) (o : order N) (m : gmap N A) k :
  foldl (fun m u => alter f u m) m (o (elements (dom m))) !! k = f <$> m !! k.
Proof.
  rewrite foldl_alter_lookup.
  2:{ rewrite (ord_perm o (elements (dom m))). apply NoDup_elements. }
  destruct (decide _) as [_|Hn]; [reflexivity|].
  destruct (m !! k) as [x|] eqn:E; [|reflexivity]. exfalso; apply Hn.
  rewrite (ord_perm o (elements (dom m))). apply elem_of_elements, elem_of_dom. eauto.
Qed.

Lemma transform_views {F} ov ot to_aa Rot t s (r : recon F pose vec4) u :
  rc_views (transform_reconstruction ov ot to_aa Rot t s r) !! u =
    transform_view to_aa Rot t s <$> rc_views r !! u.
Proof. apply (transform_lookup (transform_view to_aa Rot t s)). Qed.

Lemma transform_tracks {F} ov ot to_aa Rot t s (r : recon F pose vec4) k :
  rc_tracks (transform_reconstruction ov ot to_aa Rot t s r) !! k =
    transform_track Rot t s <$> rc_tracks r !! k.
Proof. apply (transform_lookup (transform_track Rot t s)). Qed.

(** * Projection and back-projection *)

Lemma calib_uncalib f ar sk px py q : f <> 0 -> ar <> 0 ->
  calib f ar sk px py (uncalib f ar sk px py q) = q.
Proof.
  intros. destruct q as [a b]. unfold calib, uncalib. cbn [x2 y2]. f_equal; field; auto.
Qed.
Lemma uncalib_calib f ar sk px py d : f <> 0 -> ar <> 0 ->
  uncalib f ar sk px py (calib f ar sk px py d) = d.
Proof.
  intros. destruct d as [a b]. unfold calib, uncalib. cbn [x2 y2]. f_equal; field; auto.
Qed.

Lemma ph_distort_0 p : ph_distort 0 0 p = p.
Proof. destruct p as [a b]. unfold ph_distort, ph_factor. cbn [x2 y2]. f_equal; ring. Qed.
Lemma rt_distort_0 p : rt_distort 0 0 0 0 0 p = p.
Proof. destruct p as [a b]. unfold rt_distort, rt_radial, rt_tx, rt_ty. cbn [x2 y2]. f_equal; ring. Qed.

Lemma undistort_eps_pos : 0 < undistort_eps.
Proof. unfold undistort_eps. lra. Qed.

Lemma undistort_iter_fixed step n u : step u = u -> (undistort_iter step (S n) u) = (u, true).
Proof.
  intros H. cbn [undistort_iter]. rewrite H.
  pose proof undistort_eps_pos.
  rewrite !Rminus_diag_eq, Rabs_R0 by reflexivity.
  destruct (Rlt_dec 0 undistort_eps) as [_|?]; [reflexivity|lra].
Qed.

Lemma ph_undistort_0 d : (ph_undistort 0 0 d).1 = d.
Proof.
  unfold ph_undistort. rewrite undistort_iter_fixed; [reflexivity|].
  destruct d as [a b]. unfold ph_step, ph_factor. cbn [x2 y2]. f_equal; field; nra.
Qed.
Lemma rt_undistort_0 d : (rt_undistort 0 0 0 0 0 d).1 = d.
Proof.
  unfold rt_undistort. rewrite undistort_iter_fixed; [reflexivity|].
  destruct d as [a b]. unfold rt_step, rt_radial, rt_tx, rt_ty. cbn [x2 y2]. f_equal; field; nra.
Qed.

Lemma ideal_forward i : ideal_pinhole i -> forall p, z3 p <> 0 ->
  image_to_camera i (camera_to_image i p) = vscale (/ z3 p) p.
Proof.
  intros Hi p Hz.
  assert (E : lift (perspective p) = vscale (/ z3 p) p).
  { destruct p as [a b e]. unfold lift, perspective, vscale. cbn [x2 y2 x3 y3 z3] in *. f_equal; field; exact Hz. }
  destruct i; cbn [ideal_pinhole] in Hi; try tauto.
  - destruct Hi as (Hf & Ha & -> & ->). cbn [camera_to_image image_to_camera].
    rewrite ph_distort_0, uncalib_calib, ph_undistort_0 by assumption. exact E.
  - destruct Hi as (Hf & Ha & -> & -> & -> & -> & ->). cbn [camera_to_image image_to_camera].
    rewrite rt_distort_0, uncalib_calib, rt_undistort_0 by assumption. exact E.
Qed.

Lemma ideal_backward i : ideal_pinhole i -> forall q d, d <> 0 ->
  camera_to_image i (vscale d (image_to_camera i q)) = q /\ z3 (image_to_camera i q) = 1.
Proof.
  intros Hi q d Hd.
  assert (E : forall u, perspective (vscale d (lift u)) = u).
  { intros [x y]. unfold lift, perspective, vscale. cbn [x2 y2 x3 y3 z3] in *. f_equal; field; exact Hd. }
  destruct i; cbn [ideal_pinhole] in Hi; try tauto.
  - destruct Hi as (Hf & Ha & -> & ->). cbn [camera_to_image image_to_camera]. split; [|reflexivity].
    rewrite E, ph_distort_0, ph_undistort_0. apply calib_uncalib; assumption.
  - destruct Hi as (Hf & Ha & -> & -> & -> & -> & ->). cbn [camera_to_image image_to_camera].
    split; [|reflexivity].
    rewrite E, rt_distort_0, rt_undistort_0. apply calib_uncalib; assumption.
Qed.

Lemma homogeneous_w p : w4 (homogeneous p) = 1.
Proof. reflexivity. Qed.

Lemma vscale_1 v : vscale 1 v = v.
Proof. vring. Qed.

Lemma project_then_ray i c p q d : ideal_pinhole i ->
  project_point i c (homogeneous p) = (q, d) -> d <> 0 -> ray_point i c q d = p.
Proof.
  intros Hi HP Hd. rewrite project_point_frame in HP by (rewrite homogeneous_w; lra).
  rewrite hnormalized_homogeneous, homogeneous_w, vscale_1 in HP.
  set (f := in_frame c p) in *. assert (Hz : z3 f = d) by congruence.
  assert (Hq : q = camera_to_image i f) by congruence.
  unfold ray_point, pixel_ray. rewrite Hq, ideal_forward by (rewrite ?Hz; assumption).
  rewrite mapply_vscale, Hz. unfold f, in_frame.
  rewrite <- mapply_mmul, rotation_trans_l, mapply_id by apply rot_of_aa_rotation.
  destruct (p_pos c) as [a b e], p as [a1 b1 e1]. unfold vadd, vscale, vsub. cbn [x3 y3 z3]. f_equal; field; exact Hd.
Qed.

Lemma ray_then_project i c q d : ideal_pinhole i -> d <> 0 ->
  project_point i c (homogeneous (ray_point i c q d)) = (q, d).
Proof.
  intros Hi Hd. rewrite project_point_frame by (rewrite homogeneous_w; lra).
  rewrite hnormalized_homogeneous, homogeneous_w, vscale_1.
  assert (E : in_frame c (ray_point i c q d) = vscale d (image_to_camera i q)).
  { unfold in_frame, ray_point, pixel_ray.
    assert (Hs : vsub (vadd (p_pos c) (vscale d (mapply (mtrans (rot_of_aa (p_aa c)))
      (image_to_camera i q)))) (p_pos c) = vscale d (mapply (mtrans (rot_of_aa (p_aa c)))
      (image_to_camera i q))).
    { set (a := p_pos c). set (b := vscale d _). clearbody a b. vring. }
    rewrite Hs, mapply_vscale. f_equal. rewrite <- mapply_mmul.
    rewrite (proj1 (rot_of_aa_rotation (p_aa c))). apply mapply_id. }
  rewrite E. destruct (ideal_backward i Hi q d Hd) as [Hb H1]. rewrite Hb. f_equal.
  unfold vscale. cbn [z3]. rewrite H1. ring.
Qed.
