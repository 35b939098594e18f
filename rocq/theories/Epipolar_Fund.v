(** Proofs about point normalization, the projection onto rotations and fundamental matrices. *)
From stdpp Require Import gmap strings.
From Coq Require Import Reals Lra Psatz Nsatz.
From Verif Require Import Base Camera_Model Camera_Spec Camera_Proofs RotationGraph_Model RotationGraph_Proofs Alignment_Model Alignment_Spec Alignment_Proofs
  Epipolar_Model Epipolar_Spec Epipolar_Proofs.
Local Open Scope R_scope.

(** * Sampson distance *)
Lemma sampson_some F x y d : squared_sampson F x y = Some d ->
  (exists dx dy, first_order F x y dx dy = 0 /\ rsq dx + rsq dy = d) /\
  (forall dx dy, first_order F x y dx dy = 0 -> d <= rsq dx + rsq dy).
Proof.
  unfold squared_sampson. set (n := dot (homog y) (mapply F (homog x))).
  set (a := dot (homog y) (col0 F)). set (b := dot (homog y) (col1 F)). set (c := x3 (mapply F (homog x))). set (e := y3 (mapply F (homog x))).
  destruct (Req_EM_T _ _) as [|N]; [done|]. intros [= <-]. set (q := a * a + b * b + c * c + e * e) in *.
  assert (Hq : 0 < q). { assert (H : forall x, 0 <= x * x) by (intros; apply Rle_0_sqr). pose proof (H a). pose proof (H b). pose proof (H c). pose proof (H e). unfold q in *. lra. }
  split.
  - exists (V2 (- n * a / q) (- n * b / q)), (V2 (- n * c / q) (- n * e / q)). rewrite sampson_gradient. fold n a b c e. cbn [x2 y2]. unfold rsq. cbn [x2 y2].
    split; [|transitivity (n * n * (a * a + b * b + c * c + e * e) / (q * q))].
    + transitivity (n - n * (a * a + b * b + c * c + e * e) / q); [field; lra|]. fold q. field. lra.
    + field. lra.
    + fold q. field. lra.
  - intros [p1 p2] [p3 p4] H. rewrite sampson_gradient in H. fold n a b c e in H. cbn [x2 y2] in H. unfold rsq. cbn [x2 y2].
    pose proof (cauchy4 a b c e p1 p2 p3 p4) as HC. fold q in HC.
    assert (En : a * p1 + b * p2 + c * p3 + e * p4 = - n) by lra. rewrite En in HC.
    apply (Rmult_le_reg_r q); [done|]. replace (n * n / q * q) with (n * n) by (field; lra). lra.
Qed.
Lemma sampson_none F x y : squared_sampson F x y = None <-> forall dx dy, first_order F x y dx dy = epipolar F (point_h x) (point_h y).
Proof.
  unfold squared_sampson. set (n := dot (homog y) (mapply F (homog x))).
  set (a := dot (homog y) (col0 F)). set (b := dot (homog y) (col1 F)). set (c := x3 (mapply F (homog x))). set (e := y3 (mapply F (homog x))).
  assert (H : forall x, 0 <= x * x) by (intros; apply Rle_0_sqr). pose proof (H a). pose proof (H b). pose proof (H c). pose proof (H e).
  assert (E : epipolar F (point_h x) (point_h y) = n) by done.
  split.
  - destruct (Req_EM_T _ _) as [Z|]; [|done]. intros _ dx dy. rewrite sampson_gradient, E. fold n a b c e.
    assert (a = 0) by nra. assert (b = 0) by nra. assert (c = 0) by nra. assert (e = 0) by nra.
    replace a with 0. replace b with 0. replace c with 0. replace e with 0. ring.
  - intros G. destruct (Req_EM_T _ _) as [|N]; [done|]. exfalso. apply N. specialize (G (V2 a b) (V2 c e)).
    rewrite sampson_gradient, E in G. fold n a b c e in G. cbn [x2 y2] in G. lra.
Qed.
Lemma sampson_transpose F x y : squared_sampson F x y = squared_sampson (mtrans F) y x.
Proof.
  destruct F as [[a b c] [d e f] [g h i]], x as [x1 x2'], y as [y1 y2'].
  unfold squared_sampson, homog, mtrans, mapply, dot, col0, col1. cbn [x3 y3 z3 row0 row1 row2 x2 y2].
  match goal with |- (if Req_EM_T ?p 0 then _ else Some ?u) = (if Req_EM_T ?q 0 then _ else Some ?v) =>
    replace q with p by ring end.
  destruct (Req_EM_T _ _); [done|]. f_equal. f_equal. ring.
Qed.
Lemma sampson_scale F k x y : k <> 0 -> squared_sampson (mscale k F) x y = squared_sampson F x y.
Proof.
  intros Hk. destruct F as [[a b c] [d e f] [g h i]], x as [x1 x2'], y as [y1 y2'].
  unfold squared_sampson, homog, mscale, vscale, mapply, dot, col0, col1. cbn [x3 y3 z3 row0 row1 row2 x2 y2].
  match goal with |- (if Req_EM_T ?p 0 then _ else Some (?m * ?m / _)) = (if Req_EM_T ?q 0 then _ else Some (?n * ?n / _)) =>
    replace p with (k * k * q) by ring; replace m with (k * n) by ring; set (qq := q); set (nn := n) end.
  destruct (Req_EM_T (k * k * qq) 0) as [Z|Z], (Req_EM_T qq 0) as [Y|Y]; [done| | |].
  - exfalso. apply Rmult_integral in Z as [Z|Z]; [|done]. nra.
  - exfalso. apply Z. rewrite Y. ring.
  - f_equal. field. split; [done|]. done.
Qed.

(** * Projection onto rotations *)
Definition mfrob (A B : mat3) : R := dot (row0 A) (row0 B) + dot (row1 A) (row1 B) + dot (row2 A) (row2 B).
Lemma mdist_frob A B : mdist A B = mfrob A A - 2 * frob A B + mfrob B B.
Proof. unfold mdist, mfrob, frob, sqdist, vsub, dot. cbn. ring. Qed.
Lemma mfrob_rotation A : orthogonal A -> mfrob A A = 3.
Proof.
  intros H. unfold mfrob. pose proof (f_equal row0 H) as R0. pose proof (f_equal row1 H) as R1. pose proof (f_equal row2 H) as R2.
  apply (f_equal x3) in R0. apply (f_equal y3) in R1. apply (f_equal z3) in R2.
  unfold mmul, mtrans, mapply, mid, dot in R0, R1, R2. cbn in R0, R1, R2. unfold dot. lra.
Qed.
Lemma project_frob M U sv V : is_svd M (U, sv, V) -> frob (mmul U (mtrans V)) M = x3 sv + y3 sv + z3 sv.
Proof.
  intros (HU & HV & _ & _ & ->). rewrite frob_svd.
  assert (E : mmul (mmul (mtrans U) (mmul U (mtrans V))) V = mid).
  { rewrite <- mmul_assoc, (orthogonal_l U HU), mmul_id_l. by apply orthogonal_l. }
  rewrite E. unfold mid. cbn. ring.
Qed.
Lemma frob_neg A B : frob (mscale (-1) A) B = - frob A B.
Proof. unfold frob, mscale, vscale, dot. cbn. ring. Qed.
Lemma frob_bound Rot M U sv V : is_svd M (U, sv, V) -> orthogonal Rot -> - (x3 sv + y3 sv + z3 sv) <= frob Rot M <= x3 sv + y3 sv + z3 sv.
Proof.
  intros (HU & HV & H2 & H1 & ->) HR. rewrite frob_svd. set (Q := mmul (mmul (mtrans U) Rot) V).
  assert (HQ : orthogonal Q) by (apply orthogonal_mmul; [apply orthogonal_mmul; [by apply orthogonal_trans|done]|done]).
  clearbody Q. pose proof (orthogonal_entries Q HQ) as (E0 & E1 & E2).
  assert (HQ' : orthogonal (mscale (-1) Q)).
  { clear -HQ. unfold orthogonal in *. rewrite <- HQ. destruct Q as [[a b c] [d e f] [g h i]]. mring. }
  pose proof (orthogonal_entries _ HQ') as (F0 & F1 & F2). unfold mscale, vscale in F0, F1, F2. cbn in F0, F1, F2.
  set (p := x3 (row0 Q)) in *. set (q := y3 (row1 Q)) in *. set (r := z3 (row2 Q)) in *.
  assert (K : forall u v, -1 <= u <= 1 -> 0 <= v -> - v <= u * v <= v) by (intros; nra).
  destruct (K p (x3 sv)); [lra|lra|]. destruct (K q (y3 sv)); [lra|lra|]. destruct (K r (z3 sv)); [lra|lra|]. lra.
Qed.
Lemma project_rotation svd M : svd_contract svd -> rotation (project_to_rotation svd M).
Proof.
  intros H. specialize (H M). unfold project_to_rotation. destruct (svd M) as [[U sv] V]. destruct H as (HU & HV & _).
  assert (HO : orthogonal (mmul U (mtrans V))) by (apply orthogonal_mmul; [done|by apply orthogonal_trans]).
  pose proof (orthogonal_det _ HO) as HD. destruct (Rlt_dec _ _).
  - apply mopp_rotation; [done|nra].
  - split; [done|nra].
Qed.
Lemma project_cases svd M : svd_contract svd ->
  (0 < det3 M -> nearest_rotation M (project_to_rotation svd M)) /\
  (det3 M < 0 -> farthest_rotation M (project_to_rotation svd M)).
Proof.
  intros H. pose proof (project_rotation svd M H) as HP. specialize (H M). unfold nearest_rotation, farthest_rotation.
  revert HP. unfold project_to_rotation. destruct (svd M) as [[U sv] V].
  pose proof (project_frob M U sv V H) as HF. pose proof (fun Rot HR => frob_bound Rot M U sv V H (rotation_orthogonal Rot HR)) as HB.
  destruct H as (HU & HV & H2 & H1 & HM). intros HP.
  assert (HO : orthogonal (mmul U (mtrans V))) by (apply orthogonal_mmul; [done|by apply orthogonal_trans]).
  assert (HDM : det3 M = det3 (mmul U (mtrans V)) * (x3 sv * y3 sv * z3 sv)).
  { rewrite HM, !det3_mmul, det_diag. ring. }
  assert (Hs : 0 <= x3 sv * y3 sv * z3 sv). { apply Rmult_le_pos; [apply Rmult_le_pos|]; lra. }
  pose proof (orthogonal_det _ HO) as HD2. set (d := det3 (mmul U (mtrans V))) in *.
  split; intros HDs; (split; [done|]); intros Rot' HR'; rewrite !mdist_frob, (mfrob_rotation _ (rotation_orthogonal _ HR')), (mfrob_rotation _ (rotation_orthogonal _ HP));
    specialize (HB Rot' HR'); destruct (Rlt_dec d 0); try (rewrite frob_neg, HF; lra); try (rewrite HF; lra).
  - exfalso. nra.
  - exfalso. nra.
Qed.
Lemma project_keeps svd : svd_contract svd -> keeps_rotations (project_to_rotation svd).
Proof.
  intros H M HM. assert (HD : 0 < det3 M) by (destruct HM as [_ ->]; lra).
  destruct (proj1 (project_cases svd M H) HD) as [_ HN]. specialize (HN M HM).
  assert (Z : forall a, sqdist a a = 0) by (intros; unfold sqdist, dot, vsub; cbn; ring).
  unfold mdist in HN at 2. rewrite !Z in HN. unfold mdist in HN.
  set (P := project_to_rotation svd M) in *.
  assert (N : forall a b, 0 <= sqdist a b) by (intros; apply dot_nonneg).
  pose proof (N (row0 P) (row0 M)). pose proof (N (row1 P) (row1 M)). pose proof (N (row2 P) (row2 M)).
  apply mat3_eq; apply sqdist_zero; lra.
Qed.

(** * Normalization of points *)
Lemma sum_points_Rsum f ps : sum_points f ps = Rsum f ps.
Proof.
  unfold sum_points. assert (H : forall s, foldl (fun s p => s + f p) s ps = s + Rsum f ps).
  { induction ps as [|p ps IH]; intros s; cbn; [ring|]. rewrite IH. unfold Rsum. ring. }
  rewrite H. ring.
Qed.
Lemma Rsum_const {A} k (l : list A) : Rsum (fun _ => k) l = INR (length l) * k.
Proof. induction l as [|a l IH]; cbn [length]; [cbn; ring|]. rewrite S_INR. unfold Rsum in *. cbn [foldr]. rewrite IH. ring. Qed.
Lemma Rsum_map {A B} (f : B -> R) (g : A -> B) l : Rsum f (map g l) = Rsum (fun a => f (g a)) l.
Proof. induction l as [|a l IH]; [done|]. cbn. unfold Rsum in IH. by rewrite IH. Qed.

Lemma normalize_cases ps : ps <> [] ->
  (exists p, Forall (eq p) ps /\ normalize_image_points ps = Ok None) \/
  ((exists p q, p ∈ ps /\ q ∈ ps /\ p <> q) /\ exists k cx cy,
    0 < k /\ let q p := V2 (k * (x2 p - cx)) (k * (y2 p - cy)) in
    let m := M3 (V3 k 0 (- k * cx)) (V3 0 k (- k * cy)) (V3 0 0 1) in
    normalize_image_points ps = Ok (Some (map q ps, m)) /\
    Rsum x2 (map q ps) = 0 /\ Rsum y2 (map q ps) = 0 /\ Rsum rsq (map q ps) = 2 * INR (length ps)).
Proof.
  intros Hne. assert (Hn : 0 < INR (length ps)) by (apply lt_0_INR; destruct ps; [done|cbn; lia]).
  unfold normalize_image_points. destruct ps as [|p0 ps0] eqn:Eps; [done|]. rewrite <- Eps in *. clear Hne.
  rewrite !sum_points_Rsum. set (n := INR (length ps)) in *. set (cx := Rsum x2 ps / n). set (cy := Rsum y2 ps / n).
  set (v := fun p : vec2 => (x2 p - cx) * (x2 p - cx) + (y2 p - cy) * (y2 p - cy)).
  assert (Hv : forall p, p ∈ ps -> 0 <= v p) by (intros; unfold v; assert (H1 := Rle_0_sqr (x2 p - cx)); assert (H2 := Rle_0_sqr (y2 p - cy)); unfold Rsqr in *; lra).
  pose proof (Rsum_nonneg v ps Hv) as Hs. 
  assert (Hsn : 0 <= Rsum v ps / n) by (apply Rmult_le_pos; [done|left; by apply Rinv_0_lt_compat]).
  destruct (Req_EM_T _ _) as [Z|N].
  - left. exists p0. split; [|done]. apply sqrt_eq_0 in Z; [|done].
    assert (Z' : Rsum v ps = 0) by (apply (Rmult_eq_reg_r (/ n)); [unfold Rdiv in Z; lra|apply Rinv_neq_0_compat; lra]).
    assert (K : forall p, p ∈ ps -> x2 p = cx /\ y2 p = cy).
    { intros p Hp. pose proof (Rsum_zero v ps Hv Z' p Hp) as E. unfold v in E.
      assert (H1 := Rle_0_sqr (x2 p - cx)). assert (H2 := Rle_0_sqr (y2 p - cy)). unfold Rsqr in *. split; nra. }
    apply list.Forall_forall. intros p Hp. destruct (K p Hp) as [A1 A2]. destruct (K p0) as [B1 B2]; [rewrite Eps; left|].
    destruct p, p0. cbn in *. congruence.
  - right. set (rms := sqrt (Rsum v ps / n)) in *.
    assert (Hr : 0 < rms) by (pose proof (sqrt_pos (Rsum v ps / n)); unfold rms in *; lra).
    assert (Hrr : rms * rms * n = Rsum v ps) by (unfold rms; rewrite sqrt_sqrt by done; field; lra).
    split.
    { destruct (Classical_Prop.classic (exists p q, p ∈ ps /\ q ∈ ps /\ p <> q)) as [|H]; [done|]. exfalso.
      assert (Eq : forall p, p ∈ ps -> p = p0).
      { intros p Hp. apply Classical_Prop.NNPP. intros G. apply H. exists p, p0. split_and!; [done|rewrite Eps; left|done]. }
      assert (Ex : cx = x2 p0). { unfold cx. rewrite (Rsum_ext x2 (fun _ => x2 p0) ps) by (intros a Ha; by rewrite (Eq a Ha)). rewrite Rsum_const. fold n. field. lra. }
      assert (Ey : cy = y2 p0). { unfold cy. rewrite (Rsum_ext y2 (fun _ => y2 p0) ps) by (intros a Ha; by rewrite (Eq a Ha)). rewrite Rsum_const. fold n. field. lra. }
      rewrite (Rsum_ext v (fun _ => 0) ps) in Hrr.
      2: { intros a Ha. unfold v. rewrite (Eq a Ha), Ex, Ey. ring. }
      rewrite Rsum_const in Hrr. assert (0 < rms * rms * n) by (apply Rmult_lt_0_compat; [by apply Rmult_lt_0_compat|done]). lra. }
    assert (H2 : 0 < sqrt 2) by (apply sqrt_lt_R0; lra).
    exists (sqrt 2 / rms), cx, cy. split; [by apply Rdiv_lt_0_compat|]. set (k := sqrt 2 / rms). cbv zeta.
    assert (Hm : M3 (V3 k 0 (-1 * k * cx)) (V3 0 k (-1 * k * cy)) (V3 0 0 1) = M3 (V3 k 0 (- k * cx)) (V3 0 k (- k * cy)) (V3 0 0 1)) by (f_equal; f_equal; ring).
    rewrite Hm. split_and!.
    + f_equal. f_equal. f_equal. apply map_ext. intros [x y]. unfold mapply, dot, homog. cbn. f_equal; field.
    + rewrite Rsum_map. cbn [x2]. rewrite Rsum_scale. rewrite (Rsum_ext (fun a => x2 a - cx) (fun a => x2 a + (- cx))) by (intros; ring).
      rewrite Rsum_plus, Rsum_const. fold n. unfold cx. field. lra.
    + rewrite Rsum_map. cbn [y2]. rewrite Rsum_scale. rewrite (Rsum_ext (fun a => y2 a - cy) (fun a => y2 a + (- cy))) by (intros; ring).
      rewrite Rsum_plus, Rsum_const. fold n. unfold cy. field. lra.
    + rewrite Rsum_map. rewrite (Rsum_ext _ (fun a => k * k * v a)) by (intros; unfold rsq, v; cbn; ring). rewrite Rsum_scale, <- Hrr.
      unfold k. replace (sqrt 2 / rms * (sqrt 2 / rms) * (rms * rms * n)) with (sqrt 2 * sqrt 2 * n) by (field; lra). rewrite sqrt_sqrt by lra. ring.
Qed.
