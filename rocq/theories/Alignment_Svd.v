(** Every real 3x3 matrix has a singular value decomposition: the contract of the decomposition can be met. *)
From stdpp Require Import prelude.
From Coq Require Import Reals Lra Psatz Nsatz Ranalysis.
From Verif Require Import Base Camera_Model Camera_Proofs Alignment_Model Alignment_Spec Alignment_Proofs.
Local Open Scope R_scope.

(** A real root of a cubic. *)
Lemma cubic_root (a b c : R) : {x : R | x * x * x + a * (x * x) + b * x + c = 0}.
Proof.
  set (f := fun x => x * x * x + a * (x * x) + b * x + c).
  set (M := 1 + Rabs a + Rabs b + Rabs c).
  pose proof (Rabs_pos a) as Ha. pose proof (Rabs_pos b) as Hb. pose proof (Rabs_pos c) as Hc.
  pose proof (Rle_abs a) as A1. pose proof (Rle_abs b) as B1. pose proof (Rle_abs c) as C1.
  pose proof (Rle_abs (- a)) as A2. pose proof (Rle_abs (- b)) as B2. pose proof (Rle_abs (- c)) as C2.
  rewrite Rabs_Ropp in A2, B2, C2.
  assert (HM : 1 <= M) by (unfold M; lra).
  assert (HM2 : M <= M * M) by nra.
  assert (E : M * M * M = M * M + Rabs a * (M * M) + Rabs b * (M * M) + Rabs c * (M * M)) by (unfold M at 3; ring).
  assert (K1 : - (Rabs a * (M * M)) <= a * (M * M) <= Rabs a * (M * M)) by (split; nra).
  assert (K2 : - (Rabs b * (M * M)) <= b * M <= Rabs b * (M * M)) by (split; nra).
  assert (K3 : - (Rabs c * (M * M)) <= c <= Rabs c * (M * M)) by (split; nra).
  assert (H1 : f (- M) < 0) by (unfold f; nra).
  assert (H2 : 0 < f M) by (unfold f; nra).
  destruct (IVT f (- M) M) as [x [_ Hx]]; [unfold f; reg|lra|done|done|]. exists x. exact Hx.
Qed.

Lemma vec3_zero_dec (a : vec3) : {a = V3 0 0 0} + {a <> V3 0 0 0}.
Proof.
  destruct (Req_EM_T (x3 a) 0) as [H1|H1]; [|right; intros ->; by apply H1].
  destruct (Req_EM_T (y3 a) 0) as [H2|H2]; [|right; intros ->; by apply H2].
  destruct (Req_EM_T (z3 a) 0) as [H3|H3]; [|right; intros ->; by apply H3].
  left. by apply vec3_eq.
Qed.

Lemma dot_pos a : a <> V3 0 0 0 -> 0 < dot a a.
Proof.
  intros H. pose proof (dot_nonneg a) as H0. destruct (Rle_lt_or_eq_dec _ _ H0) as [?|E]; [done|]. destruct H.
  symmetry in E. unfold dot in E. apply sumsq0 in E. destruct E as (? & ? & ?). by apply vec3_eq.
Qed.

(** A non-zero vector orthogonal to a given one. *)
Lemma perp (a : vec3) : {b : vec3 | b <> V3 0 0 0 /\ dot a b = 0}.
Proof.
  destruct a as [a b c]. destruct (Req_EM_T a 0) as [->|Ha].
  - exists (V3 1 0 0). split; [intros H; injection H; lra|]. unfold dot. cbn. ring.
  - exists (V3 (- b) a 0). split; [intros H; injection H; lra|]. unfold dot. cbn. ring.
Qed.
Lemma normalize (a : vec3) : a <> V3 0 0 0 -> {b : vec3 | dot b b = 1 /\ exists k, b = vscale k a}.
Proof.
  intros H. apply dot_pos in H. exists (vscale (/ sqrt (dot a a)) a). split; [|by eexists].
  assert (sqrt (dot a a) <> 0) by (apply Rgt_not_eq, sqrt_lt_R0; done).
  transitivity (dot a a / (sqrt (dot a a) * sqrt (dot a a))); [unfold dot at 1, vscale; cbn; unfold dot; field; done|].
  rewrite sqrt_sqrt by lra. field. lra.
Qed.
Lemma unit_perp (a : vec3) : {b : vec3 | dot b b = 1 /\ dot a b = 0}.
Proof.
  destruct (perp a) as (b & Hb & E). destruct (normalize b Hb) as (u & Hu & Hk). exists u. split; [done|].
  destruct Hk as [k ->]. rewrite dot_vscale, E. ring.
Qed.
Lemma cross_perp a b : dot a (cross a b) = 0 /\ dot b (cross a b) = 0.
Proof. unfold dot, cross. cbn. split; ring. Qed.
Lemma cross_unit a b : dot a a = 1 -> dot b b = 1 -> dot a b = 0 -> dot (cross a b) (cross a b) = 1.
Proof.
  intros Ha Hb Hab.
  transitivity (dot a a * dot b b - dot a b * dot a b); [unfold dot, cross; cbn; ring|]. rewrite Ha, Hb, Hab. ring.
Qed.

(** Vectors with zero cross product are parallel. *)
Lemma cross_zero_perp r q v : r <> V3 0 0 0 -> cross r q = V3 0 0 0 -> dot r v = 0 -> dot q v = 0.
Proof.
  intros Hr Hc Hv. apply dot_pos in Hr.
  assert (E : dot r r * dot q v = dot r q * dot r v).
  { destruct r as [r1 r2 r3], q as [q1 q2 q3], v as [v1 v2 v3]. unfold cross, dot in *. cbn in *.
    injection Hc as H1 H2 H3. 
    assert (r2 * q3 = r3 * q2) by lra. assert (r3 * q1 = r1 * q3) by lra. assert (r1 * q2 = r2 * q1) by lra.
    nsatz. }
  rewrite Hv, Rmult_0_r in E. apply Rmult_integral in E as [?|?]; lra.
Qed.

Lemma kernel (N : mat3) : det3 N = 0 -> {v : vec3 | v <> V3 0 0 0 /\ mapply N v = V3 0 0 0}.
Proof.
  intros HD. destruct N as [r0 r1 r2]. unfold mapply. cbn [row0 row1 row2].
  assert (D0 : dot r2 (cross r0 r1) = 0 /\ dot r1 (cross r0 r2) = 0 /\ dot r0 (cross r1 r2) = 0).
  { destruct r0 as [a b c], r1 as [d e f], r2 as [g h i]. unfold det3, dot, cross in *. cbn in *. split; [|split]; lra. }
  destruct D0 as (D0 & D1 & D2).
  destruct (vec3_zero_dec (cross r0 r1)) as [C01|C01].
  2: { exists (cross r0 r1). split; [done|]. destruct (cross_perp r0 r1) as [-> ->]. by rewrite D0. }
  destruct (vec3_zero_dec (cross r0 r2)) as [C02|C02].
  2: { exists (cross r0 r2). split; [done|]. destruct (cross_perp r0 r2) as [-> ->]. by rewrite D1. }
  destruct (vec3_zero_dec (cross r1 r2)) as [C12|C12].
  2: { exists (cross r1 r2). split; [done|]. destruct (cross_perp r1 r2) as [-> ->]. by rewrite D2. }
  destruct (vec3_zero_dec r0) as [Z0|Z0].
  2: { destruct (perp r0) as (v & Hv & E). exists v. split; [done|].
       rewrite E, (cross_zero_perp r0 r1 v Z0 C01 E), (cross_zero_perp r0 r2 v Z0 C02 E). done. }
  destruct (vec3_zero_dec r1) as [Z1|Z1].
  2: { destruct (perp r1) as (v & Hv & E). exists v. split; [done|].
       rewrite E, (cross_zero_perp r1 r2 v Z1 C12 E), Z0. unfold dot. cbn. f_equal; ring. }
  destruct (perp r2) as (v & Hv & E). exists v. split; [done|]. rewrite E, Z0, Z1. unfold dot. cbn. f_equal; ring.
Qed.

(** A symmetric matrix has a unit eigenvector. *)
Lemma eigenvector (B : mat3) : {v : vec3 | dot v v = 1 /\ exists l, mapply B v = vscale l v}.
Proof.
  destruct B as [[a b c] [d e f] [g h i]].
  destruct (cubic_root (- (a + e + i)) (a * e - b * d + (a * i - c * g) + (e * i - f * h))
     (- det3 (M3 (V3 a b c) (V3 d e f) (V3 g h i)))) as [l Hl].
  set (N := M3 (V3 (a - l) b c) (V3 d (e - l) f) (V3 g h (i - l))).
  destruct (kernel N) as (v & Hv & E).
  { unfold N, det3 in *. lra. }
  destruct (normalize v Hv) as (u & Hu & Hk). exists u. split; [done|]. exists l. destruct Hk as [k ->].
  destruct v as [v1 v2 v3]. unfold N, mapply, vscale, dot in *. cbn in *. injection E as E1 E2 E3.
  assert (a * v1 + b * v2 + c * v3 = l * v1) by lra. assert (d * v1 + e * v2 + f * v3 = l * v2) by lra.
  assert (g * v1 + h * v2 + i * v3 = l * v3) by lra. f_equal; nsatz.
Qed.

(** Diagonalization of a symmetric 2x2 matrix by a rotation. *)
Lemma rotate2 (a b d : R) : {cs : R * R | cs.1 * cs.1 + cs.2 * cs.2 = 1 /\ b * (cs.1 * cs.1 - cs.2 * cs.2) + (d - a) * (cs.1 * cs.2) = 0}.
Proof.
  destruct (Req_EM_T b 0) as [->|Hb].
  - exists (1, 0). cbn. split; ring.
  - set (m := (a - d) / b). set (t := (- m + sqrt (m * m + 4)) / 2).
    assert (Ht : t * t + m * t - 1 = 0).
    { unfold t. assert (Hs : sqrt (m * m + 4) * sqrt (m * m + 4) = m * m + 4) by (apply sqrt_sqrt; nra).
      set (q := sqrt (m * m + 4)) in *. nra. }
    assert (Hp : 0 < 1 + t * t) by nra.
    set (c := / sqrt (1 + t * t)).
    assert (Hc : c * c * (1 + t * t) = 1).
    { unfold c. assert (Hs : sqrt (1 + t * t) * sqrt (1 + t * t) = 1 + t * t) by (apply sqrt_sqrt; lra).
      assert (sqrt (1 + t * t) <> 0) by (apply Rgt_not_eq, sqrt_lt_R0; done). set (q := sqrt (1 + t * t)) in *.
      rewrite <- Hs. field. done. }
    exists (c, t * c). cbn [fst snd]. split; [lra|].
    replace (d - a) with (- (b * m)) by (unfold m; field; done).
    transitivity (- b * (c * c) * (t * t + m * t - 1)); [ring|]. rewrite Ht. ring.
Qed.

(** Three orthonormal vectors whose images under [A] are orthogonal to each other. *)
Definition orthonormal (a b c : vec3) : Prop :=
  dot a a = 1 /\ dot b b = 1 /\ dot c c = 1 /\ dot a b = 0 /\ dot a c = 0 /\ dot b c = 0.
Definition frame_of (A : mat3) (a b c : vec3) : Prop :=
  orthonormal a b c /\ dot (mapply A a) (mapply A b) = 0 /\ dot (mapply A a) (mapply A c) = 0 /\ dot (mapply A b) (mapply A c) = 0.

Lemma dot_image A a b : dot (mapply A a) (mapply A b) = dot a (mapply (mmul (mtrans A) A) b).
Proof. rewrite dot_mapply, mapply_mmul. done. Qed.

Lemma singular_frame (A : mat3) : {f : vec3 * vec3 * vec3 | frame_of A f.1.1 f.1.2 f.2}.
Proof.
  destruct (eigenvector (mmul (mtrans A) A)) as (v & Hv & Hl).
  destruct (unit_perp v) as (u & Hu & Hvu). set (w := cross v u).
  assert (Hw : dot w w = 1) by (by apply cross_unit).
  destruct (cross_perp v u) as [Hvw Huw]. fold w in Hvw, Huw.
  destruct (rotate2 (dot (mapply A u) (mapply A u)) (dot (mapply A u) (mapply A w)) (dot (mapply A w) (mapply A w))) as ([c s] & Hcs & Hd).
  cbn [fst snd] in *.
  exists (v, vadd (vscale c u) (vscale s w), vadd (vscale (- s) u) (vscale c w)). cbn [fst snd].
  assert (Vu : dot (mapply A v) (mapply A u) = 0 /\ dot (mapply A v) (mapply A w) = 0).
  { destruct Hl as [l Hl]. split; rewrite dot_comm, dot_image, Hl, dot_vscale, dot_comm; [rewrite Hvu|rewrite Hvw]; ring. }
  destruct Vu as [Vu Vw].
  assert (D2 : forall k1 a k2 b x, dot x (vadd (vscale k1 a) (vscale k2 b)) = k1 * dot x a + k2 * dot x b)
    by (intros; unfold dot, vadd, vscale; cbn; ring).
  assert (D1 : forall k1 a k2 b x, dot (vadd (vscale k1 a) (vscale k2 b)) x = k1 * dot a x + k2 * dot b x)
    by (intros; unfold dot, vadd, vscale; cbn; ring).
  split; [split; [done|]|].
  - rewrite !D1, !D2, !(dot_comm w u), Hu, Hw, Hvu, Hvw, Huw. repeat split; lra.
  - rewrite !mapply_vadd, !mapply_vscale, !D1, !D2, !(dot_comm (mapply A w) (mapply A u)), Vu, Vw.
    split; [ring|]. split; [ring|]. lra.
Qed.

Definition columns (a b c : vec3) : mat3 := mtrans (M3 a b c).
Lemma orthonormal_columns a b c : orthonormal a b c -> orthogonal (columns a b c).
Proof.
  intros (H1 & H2 & H3 & H4 & H5 & H6).
  assert (O : orthogonal (M3 a b c)).
  { destruct a as [a1 a2 a3], b as [b1 b2 b3], c as [c1 c2 c3]. unfold orthogonal, mmul, mtrans, mapply, dot, mid in *. cbn in *.
    f_equal; f_equal; lra. }
  unfold columns. by apply orthogonal_trans.
Qed.

(** From such a frame, ordered by the length of the images. *)
Lemma svd_of_frame (A : mat3) v0 v1 v2 u0 u1 u2 s0 s1 s2 : orthonormal v0 v1 v2 -> orthonormal u0 u1 u2 ->
  mapply A v0 = vscale s0 u0 -> mapply A v1 = vscale s1 u1 -> mapply A v2 = vscale s2 u2 -> 0 <= s2 <= s1 -> s1 <= s0 ->
  is_svd A (columns u0 u1 u2, V3 s0 s1 s2, columns v0 v1 v2).
Proof.
  intros HV HU E0 E1 E2 Hs1 Hs0. pose proof (orthonormal_columns _ _ _ HV) as OV.
  split; [by apply orthonormal_columns|]. split; [done|]. cbn [x3 y3 z3]. split; [done|]. split; [done|].
  assert (E : mmul A (columns v0 v1 v2) = mmul (columns u0 u1 u2) (diag3 s0 s1 s2)).
  { destruct A as [[a b c] [d e f] [g h i]], v0 as [v01 v02 v03], v1 as [v11 v12 v13], v2 as [v21 v22 v23],
      u0 as [u01 u02 u03], u1 as [u11 u12 u13], u2 as [u21 u22 u23].
    unfold mapply, vscale, dot in E0, E1, E2. cbn in E0, E1, E2.
    injection E0 as ? ? ?. injection E1 as ? ? ?. injection E2 as ? ? ?.
    unfold mmul, columns, diag3, mtrans, mapply, dot. cbn. f_equal; f_equal; lra. }
  rewrite <- E, mmul_assoc, OV, mmul_id_r. done.
Qed.

Lemma image_unit (b : vec3) s : s * s = dot b b -> s <> 0 -> b = vscale s (vscale (/ s) b) /\ dot (vscale (/ s) b) (vscale (/ s) b) = 1.
Proof.
  intros E Hs. split.
  - destruct b as [b1 b2 b3]. unfold vscale. cbn. f_equal; field; done.
  - transitivity (dot b b / (s * s)); [unfold dot, vscale; cbn; field; done|]. rewrite <- E. field. done.
Qed.
Lemma image_zero (b : vec3) s : s * s = dot b b -> s = 0 -> b = V3 0 0 0.
Proof.
  intros E ->. rewrite Rmult_0_l in E. symmetry in E. unfold dot in E. apply sumsq0 in E. destruct E as (? & ? & ?). by apply vec3_eq.
Qed.
Lemma vscale_zero u : vscale 0 u = V3 0 0 0.
Proof. unfold vscale. f_equal; ring. Qed.

Lemma sorted_frame_svd (A : mat3) v0 v1 v2 : frame_of A v0 v1 v2 ->
  dot (mapply A v1) (mapply A v1) <= dot (mapply A v0) (mapply A v0) ->
  dot (mapply A v2) (mapply A v2) <= dot (mapply A v1) (mapply A v1) -> {d | is_svd A d}.
Proof.
  intros [HV (H01 & H02 & H12)] L1 L2.
  set (b0 := mapply A v0) in *. set (b1 := mapply A v1) in *. set (b2 := mapply A v2) in *.
  set (s0 := sqrt (dot b0 b0)). set (s1 := sqrt (dot b1 b1)). set (s2 := sqrt (dot b2 b2)).
  assert (E0 : s0 * s0 = dot b0 b0) by (apply sqrt_sqrt, dot_nonneg).
  assert (E1 : s1 * s1 = dot b1 b1) by (apply sqrt_sqrt, dot_nonneg).
  assert (E2 : s2 * s2 = dot b2 b2) by (apply sqrt_sqrt, dot_nonneg).
  assert (P0 : s1 <= s0) by (apply sqrt_le_1_alt; done). assert (P1 : s2 <= s1) by (apply sqrt_le_1_alt; done).
  assert (P2 : 0 <= s2) by apply sqrt_pos.
  assert (DS : forall j k x y, dot (vscale j x) (vscale k y) = j * k * dot x y) by (intros; unfold dot, vscale; cbn; ring).
  destruct (Req_EM_T s0 0) as [Z0|Z0].
  { exists (columns (V3 1 0 0) (V3 0 1 0) (V3 0 0 1), V3 s0 s1 s2, columns v0 v1 v2).
    assert (s1 = 0) by lra. assert (s2 = 0) by lra.
    apply svd_of_frame; [done| | | | |lra|lra].
    - unfold orthonormal, dot. cbn. repeat split; ring.
    - fold b0. rewrite Z0, vscale_zero. by eapply image_zero.
    - fold b1. rewrite H, vscale_zero. by eapply image_zero.
    - fold b2. rewrite H0, vscale_zero. by eapply image_zero. }
  destruct (image_unit b0 s0 E0 Z0) as [B0 U0]. set (u0 := vscale (/ s0) b0) in *.
  destruct (Req_EM_T s1 0) as [Z1|Z1].
  { destruct (unit_perp u0) as (u1 & U1 & U01). destruct (cross_perp u0 u1) as [X0 X1].
    exists (columns u0 u1 (cross u0 u1), V3 s0 s1 s2, columns v0 v1 v2). assert (s2 = 0) by lra.
    apply svd_of_frame; [done| |done| | |lra|lra].
    - split; [done|]. split; [done|]. split; [by apply cross_unit|]. done.
    - fold b1. rewrite Z1, vscale_zero. by eapply image_zero.
    - fold b2. rewrite H, vscale_zero. by eapply image_zero. }
  destruct (image_unit b1 s1 E1 Z1) as [B1 U1]. set (u1 := vscale (/ s1) b1) in *.
  assert (U01 : dot u0 u1 = 0) by (unfold u0, u1; rewrite DS, H01; ring).
  destruct (Req_EM_T s2 0) as [Z2|Z2].
  { destruct (cross_perp u0 u1) as [X0 X1].
    exists (columns u0 u1 (cross u0 u1), V3 s0 s1 s2, columns v0 v1 v2).
    apply svd_of_frame; [done| |done|done| |lra|lra].
    - split; [done|]. split; [done|]. split; [by apply cross_unit|]. done.
    - fold b2. rewrite Z2, vscale_zero. by eapply image_zero. }
  destruct (image_unit b2 s2 E2 Z2) as [B2 U2]. set (u2 := vscale (/ s2) b2) in *.
  exists (columns u0 u1 u2, V3 s0 s1 s2, columns v0 v1 v2). apply svd_of_frame; [done| |done|done|done|lra|lra].
  split; [done|]. split; [done|]. split; [done|]. split; [done|]. unfold u0, u1, u2. rewrite !DS, H02, H12. split; ring.
Qed.

Lemma frame_swap01 A a b c : frame_of A a b c -> frame_of A b a c.
Proof.
  intros [(H1 & H2 & H3 & H4 & H5 & H6) (K1 & K2 & K3)]. unfold frame_of, orthonormal.
  rewrite (dot_comm b a), (dot_comm (mapply A b) (mapply A a)). tauto.
Qed.
Lemma frame_swap12 A a b c : frame_of A a b c -> frame_of A a c b.
Proof.
  intros [(H1 & H2 & H3 & H4 & H5 & H6) (K1 & K2 & K3)]. unfold frame_of, orthonormal.
  rewrite (dot_comm c b), (dot_comm (mapply A c) (mapply A b)). tauto.
Qed.

Theorem svd_exists (A : mat3) : {d | is_svd A d}.
Proof.
  destruct (singular_frame A) as [[[a b] c] H]. cbn [fst snd] in H.
  set (n := fun x => dot (mapply A x) (mapply A x)).
  destruct (Rle_dec (n b) (n a)) as [L1|L1].
  - destruct (Rle_dec (n c) (n b)) as [L2|L2]; [by apply (sorted_frame_svd A a b c)|].
    destruct (Rle_dec (n c) (n a)) as [L3|L3]; unfold n in *.
    + apply (sorted_frame_svd A a c b); [by apply frame_swap12|lra|lra].
    + apply (sorted_frame_svd A c a b); [by apply frame_swap01, frame_swap12|lra|lra].
  - destruct (Rle_dec (n c) (n a)) as [L2|L2]; unfold n in *.
    + apply (sorted_frame_svd A b a c); [by apply frame_swap01|lra|lra].
    + destruct (Rle_dec (n c) (n b)) as [L3|L3]; unfold n in *.
      * apply (sorted_frame_svd A b c a); [by apply frame_swap12, frame_swap01|lra|lra].
      * apply (sorted_frame_svd A c b a); [by apply frame_swap01, frame_swap12, frame_swap01|lra|lra].
Qed.

(** A decomposition that meets the contract. *)
Definition exact_svd (A : mat3) : mat3 * vec3 * mat3 := proj1_sig (svd_exists A).
Theorem exact_svd_contract : svd_contract exact_svd.
Proof. intros A. apply (proj2_sig (svd_exists A)). Qed.
