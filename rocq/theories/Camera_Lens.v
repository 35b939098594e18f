(** Proofs about the distortion and undistortion functions of the lens models. *)
From stdpp Require Import gmap.
From Coq Require Import Reals Lra Psatz.
From Verif Require Import Base Camera_Model Camera_Spec Camera_Proofs.
Local Open Scope R_scope.

(** * The division model *)

Lemma rsq_nonneg p : 0 <= rsq p.
Proof. unfold rsq. nra. Qed.

Lemma dbl_epsilon_bounds : 0 < dbl_epsilon < / 1000.
Proof.
  unfold dbl_epsilon. split.
  - apply Rinv_0_lt_compat, pow_lt. lra.
  - apply Rinv_lt_contravar; [|simpl; lra]. apply Rmult_lt_0_compat; [lra|apply pow_lt; lra].
Qed.

Lemma div_exact k p :
  dbl_epsilon <= Rabs (2 * k * rsq p) -> 4 * k * rsq p <= 1 ->
  div_undistort k (div_distort k p) = p.
Proof.
  intros H1 H2. unfold div_distort.
  destruct (Rlt_dec (Rabs _) _) as [?|_]; [lra|].
  destruct (Rlt_dec (1 - 4 * k * rsq p) 0) as [?|_]; [lra|].
  set (r2 := rsq p) in *. set (q := sqrt (1 - 4 * k * r2)).
  assert (Hq : q * q = 1 - 4 * k * r2) by (apply sqrt_sqrt; lra).
  assert (Hq0 : 0 <= q) by apply sqrt_pos.
  assert (Hd : 2 * k * r2 <> 0).
  { intros E. rewrite E, Rabs_R0 in H1. pose proof dbl_epsilon_bounds. lra. }
  assert (Hs : (1 - q) / (2 * k * r2) = 2 / (1 + q)).
  { apply Rmult_eq_reg_r with (2 * k * r2 * (1 + q)); [|apply Rmult_integral_contrapositive_currified; lra].
    replace ((1 - q) / (2 * k * r2) * (2 * k * r2 * (1 + q))) with (1 - q * q)
      by (field; split; intros E; apply Hd; rewrite E; ring).
    rewrite Hq. field. lra. }
  rewrite Hs. set (s := 2 / (1 + q)).
  assert (Hs0 : 0 < s) by (unfold s; apply Rdiv_lt_0_compat; lra).
  assert (Hk : 1 + k * (s * s * r2) = s).
  { unfold s. replace (1 + k * (2 / (1 + q) * (2 / (1 + q)) * r2)) with
      (((1 + q) * (1 + q) + (4 * k * r2)) / ((1 + q) * (1 + q))) by (field; lra).
    replace (4 * k * r2) with (1 - q * q) by lra. field. lra. }
  unfold div_undistort. cbn [x2 y2].
  replace (rsq (V2 (x2 p * s) (y2 p * s))) with (s * s * r2) by (unfold r2, rsq; cbn [x2 y2]; ring).
  rewrite Hk. destruct p as [a b]. cbn [x2 y2]. f_equal; field; lra.
Qed.

(** Everywhere in the domain the round trip is exact up to the guard of the code. *)
Lemma div_round_trip k p : 4 * k * rsq p <= 1 ->
  let u := div_undistort k (div_distort k p) in
  Rabs (x2 u - x2 p) <= dbl_epsilon * Rabs (x2 p) /\
  Rabs (y2 u - y2 p) <= dbl_epsilon * Rabs (y2 p).
Proof.
  intros H. cbn zeta. pose proof dbl_epsilon_bounds as He.
  destruct (Rle_dec dbl_epsilon (Rabs (2 * k * rsq p))) as [Hge|Hlt].
  - rewrite div_exact by assumption. rewrite !Rminus_diag_eq, Rabs_R0 by reflexivity.
    split; (apply Rmult_le_pos; [lra|apply Rabs_pos]).
  - assert (E : div_distort k p = p).
    { unfold div_distort. destruct (Rlt_dec (Rabs _) _) as [_|?]; [reflexivity|lra]. }
    rewrite E. unfold div_undistort. cbn [x2 y2].
    set (z := k * rsq p).
    assert (Hz : Rabs z <= dbl_epsilon / 2).
    { replace (2 * k * rsq p) with (2 * z) in Hlt by (unfold z; ring).
      rewrite Rabs_mult, (Rabs_pos_eq 2) in Hlt by lra. lra. }
    apply rabs_between in Hz.
    assert (forall a, Rabs (a * (1 / (1 + z)) - a) <= dbl_epsilon * Rabs a) as Ha.
    { intros a. replace (a * (1 / (1 + z)) - a) with (- z / (1 + z) * a) by (field; lra).
      rewrite Rabs_mult. apply Rmult_le_compat_r; [apply Rabs_pos|].
      apply Rabs_le. split.
      - apply Rmult_le_reg_r with (1 + z); [lra|].
        replace (- z / (1 + z) * (1 + z)) with (- z) by (field; lra). nra.
      - apply Rmult_le_reg_r with (1 + z); [lra|].
        replace (- z / (1 + z) * (1 + z)) with (- z) by (field; lra). nra. }
    split; apply Ha.
Qed.

(** The other direction: every distorted point strictly inside the radius where the model folds. *)
Lemma div_exact_back k d :
  -1 < k * rsq d < 1 -> dbl_epsilon <= Rabs (2 * k * rsq (div_undistort k d)) ->
  div_distort k (div_undistort k d) = d.
Proof.
  intros Hk He. unfold div_distort. destruct (Rlt_dec (Rabs _) _) as [?|_]; [lra|].
  set (u := 1 + k * rsq d).
  assert (Hu : 0 < u) by (unfold u; lra).
  assert (Er : k * rsq (div_undistort k d) = (u - 1) / (u * u)).
  { unfold div_undistort. fold u. unfold rsq at 1. cbn [x2 y2].
    replace (k * _) with (k * rsq d / (u * u)) by (unfold rsq; field; lra).
    unfold u. f_equal. ring. }
  assert (Ei : 1 - 4 * k * rsq (div_undistort k d) = ((2 - u) / u) * ((2 - u) / u)).
  { replace (4 * k * _) with (4 * (k * rsq (div_undistort k d))) by ring. rewrite Er. field. lra. }
  rewrite Ei. destruct (Rlt_dec _ 0) as [Hn|_].
  { exfalso. pose proof (Rle_0_sqr ((2 - u) / u)) as Hs. unfold Rsqr in Hs. lra. }
  assert (Hp : 0 <= (2 - u) / u) by (apply Rmult_le_pos; [unfold u; lra|apply Rlt_le, Rinv_0_lt_compat, Hu]).
  rewrite sqrt_square by exact Hp.
  assert (Hnz : u - 1 <> 0).
  { intros E. replace (2 * k * rsq (div_undistort k d)) with (2 * (k * rsq (div_undistort k d))) in He by ring.
    rewrite Er, E in He. unfold Rdiv in He. rewrite Rmult_0_l, Rmult_0_r, Rabs_R0 in He.
    pose proof dbl_epsilon_bounds. lra. }
  replace (2 * k * rsq (div_undistort k d)) with (2 * ((u - 1) / (u * u))) by (rewrite <- Er; ring).
  unfold div_undistort. fold u. cbn [x2 y2].
  replace ((1 - (2 - u) / u) / (2 * ((u - 1) / (u * u)))) with u by (field; lra).
  destruct d as [a b]. cbn [x2 y2]. f_equal; field; lra.
Qed.

(** Beyond the fold the fallback is not an inverse. *)
Lemma div_refuted : exists k p, div_undistort k (div_distort k p) <> p.
Proof.
  exists 1, (V2 1 0). unfold div_distort.
  replace (rsq (V2 1 0)) with 1 by (unfold rsq; cbn [x2 y2]; ring).
  pose proof dbl_epsilon_bounds as He.
  destruct (Rlt_dec (Rabs (2 * 1 * 1)) dbl_epsilon) as [H|_].
  { rewrite Rabs_pos_eq in H by lra. lra. }
  destruct (Rlt_dec (1 - 4 * 1 * 1) 0) as [_|?]; [|lra].
  unfold div_undistort, rsq. cbn [x2 y2]. intros E. injection E. intros _ Hx. lra.
Qed.

(** * The field-of-view model *)

Lemma smul2_smul2 a b p : smul2 a (smul2 b p) = smul2 (a * b) p.
Proof. unfold smul2. cbn [x2 y2]. f_equal; ring. Qed.
Lemma smul2_1 p : smul2 1 p = p.
Proof. destruct p as [a b]. unfold smul2. cbn [x2 y2]. f_equal; ring. Qed.
Lemma rsq_smul2 a p : rsq (smul2 a p) = a * a * rsq p.
Proof. unfold rsq, smul2. cbn [x2 y2]. ring. Qed.
Lemma sqrt_rsq_smul2 a p : 0 <= a -> sqrt (rsq (smul2 a p)) = a * sqrt (rsq p).
Proof.
  intros Ha. rewrite rsq_smul2, sqrt_mult; [|nra|apply rsq_nonneg].
  rewrite sqrt_square by exact Ha. reflexivity.
Qed.

Lemma tan_half_pos om : 0 < om < PI -> 0 < tan (om / 2).
Proof. intros H. apply tan_gt_0; lra. Qed.

Lemma atan_pos x : 0 < x -> 0 < atan x < PI / 2.
Proof.
  intros H. split; [|apply (proj2 (atan_bound x))].
  rewrite <- atan_0. apply atan_increasing, H.
Qed.

Lemma fov_exact om p : / 1000 <= om < PI -> / 1000 <= rsq p ->
  / 1000 <= rsq (fov_distort om p) ->
  fov_undistort om (fov_distort om p) = p.
Proof.
  intros Ho Hp Hd. unfold fov_undistort.
  destruct (Rlt_dec om _) as [?|_]; [lra|]. destruct (Rlt_dec (rsq (fov_distort om p)) _) as [?|_]; [lra|].
  assert (Hom : 0 < om < PI) by (assert (0 < / 1000) by lra; lra).
  assert (Hr : 0 < sqrt (rsq p)) by (apply sqrt_lt_R0; assert (0 < / 1000) by lra; lra).
  pose proof (tan_half_pos om Hom) as Ht.
  set (r := sqrt (rsq p)) in *.
  assert (Harg : 0 < 2 * r * tan (om / 2)) by nra.
  pose proof (atan_pos _ Harg) as Hat.
  assert (E : fov_distort om p = smul2 (atan (2 * r * tan (om / 2)) / (r * om)) p).
  { unfold fov_distort. destruct (Rlt_dec om _) as [?|_]; [lra|].
    destruct (Rlt_dec (rsq p) _) as [?|_]; [lra|]. reflexivity. }
  set (k := atan (2 * r * tan (om / 2)) / (r * om)) in *.
  assert (Hk : 0 < k) by (apply Rdiv_lt_0_compat; nra).
  cbn zeta. rewrite E, sqrt_rsq_smul2, smul2_smul2 by lra. fold r.
  replace (k * r * om) with (atan (2 * r * tan (om / 2))) by (unfold k; field; lra).
  rewrite tan_atan. replace (2 * r * tan (om / 2) / (2 * (k * r) * tan (om / 2)) * k) with 1.
  - apply smul2_1.
  - field. repeat split; apply Rgt_not_eq; lra.
Qed.

Lemma fov_exact_back om d : / 1000 <= om < PI -> / 1000 <= rsq d ->
  sqrt (rsq d) * om < PI / 2 -> / 1000 <= rsq (fov_undistort om d) ->
  fov_distort om (fov_undistort om d) = d.
Proof.
  intros Ho Hp Hd Hu. unfold fov_distort.
  destruct (Rlt_dec om _) as [?|_]; [lra|]. destruct (Rlt_dec (rsq (fov_undistort om d)) _) as [?|_]; [lra|].
  assert (Hom : 0 < om < PI) by (assert (0 < / 1000) by lra; lra).
  assert (Hr : 0 < sqrt (rsq d)) by (apply sqrt_lt_R0; assert (0 < / 1000) by lra; lra).
  pose proof (tan_half_pos om Hom) as Ht.
  set (r := sqrt (rsq d)) in *.
  assert (Htr : 0 < tan (r * om)) by (apply tan_gt_0; [nra|exact Hd]).
  assert (E : fov_undistort om d = smul2 (tan (r * om) / (2 * r * tan (om / 2))) d).
  { unfold fov_undistort. destruct (Rlt_dec om _) as [?|_]; [lra|].
    destruct (Rlt_dec (rsq d) _) as [?|_]; [lra|]. reflexivity. }
  set (k := tan (r * om) / (2 * r * tan (om / 2))) in *.
  assert (Hk : 0 < k) by (apply Rdiv_lt_0_compat; nra).
  cbn zeta. rewrite E, sqrt_rsq_smul2, smul2_smul2 by lra. fold r.
  replace (2 * (k * r) * tan (om / 2)) with (tan (r * om)) by (unfold k; field; split; apply Rgt_not_eq; lra).
  rewrite atan_tan by (split; [nra|exact Hd]).
  replace (r * om / (k * r * om) * k) with 1; [apply smul2_1|].
  field. repeat split; apply Rgt_not_eq; lra.
Qed.

(** Below the guard on omega both directions multiply by the same factor. *)
Lemma fov_refuted : fov_undistort (-1) (fov_distort (-1) (V2 1 0)) = V2 (115 / 64) 0.
Proof.
  unfold fov_distort. destruct (Rlt_dec (-1) _) as [_|?]; [|lra].
  replace (rsq (V2 1 0)) with 1 by (unfold rsq; cbn [x2 y2]; ring).
  unfold fov_undistort. destruct (Rlt_dec (-1) _) as [_|?]; [|lra].
  unfold smul2, rsq. cbn [x2 y2]. f_equal; field.
Qed.

(** * The iterative models *)

(** What convergence means: the result is one step away from a point that is close to it. *)
Lemma undistort_iter_converged step n u r :
  undistort_iter step n u = (r, true) ->
  exists v, r = step v /\ Rabs (x2 r - x2 v) < undistort_eps /\ Rabs (y2 r - y2 v) < undistort_eps.
Proof.
  revert u. induction n as [|n IH]; intros u H; cbn [undistort_iter] in H; [discriminate|].
  destruct (Rlt_dec _ _) as [H1|H1]; [|eapply IH, H].
  destruct (Rlt_dec _ _) as [H2|H2]; [|eapply IH, H].
  exists u. replace r with (step u) by congruence. auto.
Qed.

(** The iteration of the pinhole model, along the direction of the undistorted point [p]. *)
Section contraction.
Context (k1 k2 : R) (p : vec2).
Let a := k1 * rsq p.
Let b := k2 * (rsq p * rsq p).
Let F (l : R) : R := 1 + l * l * (a + b * (l * l)).
Context (Hsmall : Rabs a + Rabs b <= / 10).

Lemma factor_smul l : ph_factor k1 k2 (smul2 l p) = F l.
Proof. unfold ph_factor. rewrite rsq_smul2. unfold F, a, b. ring. Qed.

Lemma distort_smul : ph_distort k1 k2 p = smul2 (F 1) p.
Proof.
  rewrite <- (smul2_1 p) at 1. unfold ph_distort. rewrite factor_smul.
  unfold smul2. cbn [x2 y2]. f_equal; ring.
Qed.

Lemma small_ab : - / 10 <= a <= / 10 /\ - / 10 <= b <= / 10 /\ -/10 <= a + b <= /10 /\ -/10 <= a - b <= /10.
Proof.
  pose proof (Rle_abs a). pose proof (Rle_abs (- a)). rewrite Rabs_Ropp in *.
  pose proof (Rle_abs b). pose proof (Rle_abs (- b)). rewrite Rabs_Ropp in *.
  pose proof (Rabs_pos a). pose proof (Rabs_pos b). lra.
Qed.

Lemma F_lower l : 9 / 10 <= l <= 11 / 10 -> 17 / 20 <= F l.
Proof.
  intros Hl. pose proof small_ab as (Ha & Hb & Hab & Hab').
  unfold F. set (m := l * l). assert (Hm : 0 <= m <= 121 / 100) by (unfold m; nra). clearbody m.
  assert (- (121 / 100 / 10) <= m * (a + b) <= 121/100/10) by nra.
  assert (Hlo : - (1 / 4) <= m * (m - 1)).
  { pose proof (Rle_0_sqr (m - 1 / 2)) as Hs. unfold Rsqr in Hs. lra. }
  assert (Hhi : m * (m - 1) <= 121 / 100 * (21 / 100)) by nra.
  set (n := m * (m - 1)) in *.
  replace (m * (a + b * m)) with (m * (a + b) + n * b) by (unfold n; ring). clearbody n.
  assert (- (121 / 100 * (21 / 100) / 10) <= n * b) by nra. lra.
Qed.

Lemma step_contracts l : Rabs (l - 1) <= / 10 -> Rabs (F 1 / F l - 1) <= 11 / 20 * Rabs (l - 1).
Proof.
  intros Hl. pose proof Hl as Hl'. apply rabs_between in Hl'.
  assert (HF : 17 / 20 <= F l) by (apply F_lower; lra).
  pose proof small_ab as (Ha & Hb & Hab & Hab').
  assert (E : F 1 / F l - 1 = (1 - l) * ((1 + l) * (a + b * (1 + l * l)) / F l)).
  { replace (F 1) with (F l + (1 - l) * ((1 + l) * (a + b * (1 + l * l)))) by (unfold F; ring).
    field. lra. }
  rewrite E, Rabs_mult, Rabs_minus_sym, Rmult_comm.
  apply Rmult_le_compat_r; [apply Rabs_pos|].
  assert (Hn : Rabs ((1 + l) * (a + b * (1 + l * l))) <= 11 / 20 * (17 / 20)).
  { rewrite Rabs_mult, (Rabs_pos_eq (1 + l)) by lra.
    assert (Hm : Rabs (a + b * (1 + l * l)) <= 221 / 1000).
    { apply Rabs_le. assert (Hm : 0 <= 1 + l * l <= 221 / 100) by nra.
      set (m := 1 + l * l) in *. clearbody m. 
      assert (-(221/100 - 1) * / 10 <= b * (m - 1) <= (221/100 - 1) * / 10) by nra. lra. }
    pose proof (Rabs_pos (a + b * (1 + l * l))). nra. }
  unfold Rdiv at 1. rewrite Rabs_mult, (Rabs_pos_eq (/ F l)) by (apply Rlt_le, Rinv_0_lt_compat; lra).
  apply Rmult_le_reg_r with (F l); [lra|]. rewrite Rmult_assoc, Rinv_l, Rmult_1_r by lra. nra.
Qed.

Lemma ph_step_smul l : ph_step k1 k2 (ph_distort k1 k2 p) (smul2 l p) = smul2 (F 1 / F l) p.
Proof.
  unfold ph_step. rewrite factor_smul, distort_smul. unfold smul2. cbn [x2 y2].
  f_equal; unfold Rdiv; ring.
Qed.

(** After [n] rounds from a point with relative error [e], the error is at most what the stopping rule
    or the contraction guarantees. *)
Lemma iter_accurate n l e : Rabs (l - 1) <= e -> e <= / 10 ->
  let u := (undistort_iter (ph_step k1 k2 (ph_distort k1 k2 p)) n (smul2 l p)).1 in
  Rabs (x2 u - x2 p) <= 11 / 9 * undistort_eps + e * (11 / 20) ^ n * Rabs (x2 p) /\
  Rabs (y2 u - y2 p) <= 11 / 9 * undistort_eps + e * (11 / 20) ^ n * Rabs (y2 p).
Proof.
  revert l e. induction n as [|n IH]; intros l e Hl He; cbn zeta.
  - cbn [undistort_iter fst pow]. rewrite Rmult_1_r. pose proof undistort_eps_pos.
    assert (forall c, Rabs (l * c - c) <= 11 / 9 * undistort_eps + e * Rabs c) as Hc.
    { intros c. replace (l * c - c) with ((l - 1) * c) by ring. rewrite Rabs_mult.
      pose proof (Rmult_le_compat_r (Rabs c) _ _ (Rabs_pos c) Hl). lra. }
    split; apply Hc.
  - cbn [undistort_iter]. rewrite ph_step_smul. set (l' := F 1 / F l).
    assert (Hc : Rabs (l' - 1) <= 11 / 20 * Rabs (l - 1)) by (apply step_contracts; lra).
    assert (Hl' : Rabs (l' - 1) <= 11 / 20 * e) by lra.
    assert (Hrec : let u := (undistort_iter (ph_step k1 k2 (ph_distort k1 k2 p)) n (smul2 l' p)).1 in
      Rabs (x2 u - x2 p) <= 11 / 9 * undistort_eps + e * (11 / 20) ^ S n * Rabs (x2 p) /\
      Rabs (y2 u - y2 p) <= 11 / 9 * undistort_eps + e * (11 / 20) ^ S n * Rabs (y2 p)).
    { specialize (IH l' (11 / 20 * e) Hl').
      assert (Hlt : 11 / 20 * e <= / 10) by (pose proof (Rabs_pos (l - 1)); lra). specialize (IH Hlt).
      cbn zeta in IH |- *. cbn [pow].
      replace (e * (11 / 20 * (11 / 20) ^ n)) with (11 / 20 * e * (11 / 20) ^ n) by ring. exact IH. }
    destruct (Rlt_dec (Rabs (x2 (smul2 l' p) - x2 (smul2 l p))) undistort_eps) as [Hx|_]; [|exact Hrec].
    destruct (Rlt_dec (Rabs (y2 (smul2 l' p) - y2 (smul2 l p))) undistort_eps) as [Hy|_]; [|exact Hrec].
    cbn [fst smul2 x2 y2] in *.
    assert (He0 : 0 <= e) by (pose proof (Rabs_pos (l - 1)); lra).
    assert (Hpw : 0 < (11 / 20) ^ S n) by (apply pow_lt; lra).
    assert (forall c, Rabs (l' * c - l * c) < undistort_eps ->
      Rabs (l' * c - c) <= 11 / 9 * undistort_eps + e * (11 / 20) ^ S n * Rabs c) as Hcc.
    { intros c Hd. pose proof (Rabs_pos c) as Hc0.
      assert (0 <= e * (11 / 20) ^ S n * Rabs c).
      { apply Rmult_le_pos; [|exact Hc0]. apply Rmult_le_pos; lra. }
      replace (l' * c - l * c) with ((l' - l) * c) in Hd by ring. rewrite Rabs_mult in Hd.
      replace (l' * c - c) with ((l' - 1) * c) by ring. rewrite Rabs_mult.
      assert (Htri : Rabs (l - 1) <= Rabs (l' - l) + Rabs (l' - 1)).
      { replace (l - 1) with (- (l' - l) + (l' - 1)) by ring.
        pose proof (Rabs_triang (- (l' - l)) (l' - 1)). rewrite Rabs_Ropp in *. lra. }
      (* |l' - 1| <= 11/20 |l - 1| <= 11/20 (|l' - l| + |l' - 1|), hence <= 11/9 |l' - l|. *)
      assert (Hb : Rabs (l' - 1) <= 11 / 9 * Rabs (l' - l)) by lra.
      assert (Rabs (l' - 1) * Rabs c <= 11 / 9 * Rabs (l' - l) * Rabs c)
        by (apply Rmult_le_compat_r; assumption).
      lra. }
    split; apply Hcc; assumption.
Qed.

Lemma ph_undistort_accurate :
  let u := (ph_undistort k1 k2 (ph_distort k1 k2 p)).1 in
  Rabs (x2 u - x2 p) <= 11 / 9 * undistort_eps + / 10 * (11 / 20) ^ 100 * Rabs (x2 p) /\
  Rabs (y2 u - y2 p) <= 11 / 9 * undistort_eps + / 10 * (11 / 20) ^ 100 * Rabs (y2 p).
Proof.
  assert (HF : Rabs (F 1 - 1) <= / 10).
  { pose proof small_ab as (_ & _ & Hab & _). unfold F.
    replace (1 + 1 * 1 * (a + b * (1 * 1)) - 1) with (a + b) by ring. apply Rabs_le. lra. }
  pose proof (iter_accurate 100 (F 1) (/ 10) HF (Rle_refl _)) as H.
  unfold ph_undistort. rewrite <- distort_smul in H. exact H.
Qed.
End contraction.

(** Without a bound on the distortion the round trip can fail: the lens map folds. *)
Lemma ph_refuted : ph_distort (-1) 0 (V2 1 0) = V2 0 0 /\ (ph_undistort (-1) 0 (V2 0 0)).1 = V2 0 0.
Proof.
  split.
  - unfold ph_distort, ph_factor, rsq. cbn [x2 y2]. f_equal; ring.
  - unfold ph_undistort. rewrite undistort_iter_fixed; [reflexivity|].
    unfold ph_step, ph_factor, rsq. cbn [x2 y2]. f_equal; field.
Qed.
