(** Proofs about the cheirality test and the choice among the four poses of an essential matrix. *)
From stdpp Require Import gmap strings.
From Coq Require Import Reals Lra Psatz Nsatz.
From Verif Require Import Base Camera_Model Camera_Spec Camera_Proofs RotationGraph_Model RotationGraph_Proofs Alignment_Model Alignment_Spec Alignment_Proofs
  Epipolar_Model Epipolar_Spec Epipolar_Proofs.
Local Open Scope R_scope.

(** * Two rays *)
Section rays.
Context (d1 d2 p : vec3).
Let D := dot d1 d1 * dot d2 d2 - dot d1 d2 * dot d1 d2.
Let n1 := dot d2 d2 * dot d1 p - dot d1 d2 * dot d2 p.
Let n2 := dot d1 d2 * dot d1 p - dot d1 d1 * dot d2 p.

Lemma gram_cross : D = dot (cross d1 d2) (cross d1 d2).
Proof using. unfold D. mcbv. ring. Qed.
Lemma gram_pos : cross d1 d2 <> V3 0 0 0 -> 0 < D.
Proof using. intros H. rewrite gram_cross. by apply dot_pos'. Qed.
Lemma parallel_zero : cross d1 d2 = V3 0 0 0 -> n1 = 0.
Proof using.
  intros H. unfold n1. replace (dot d2 d2 * dot d1 p - dot d1 d2 * dot d2 p) with (dot (cross d1 d2) (cross p d2)).
  - rewrite H. unfold dot. cbn. ring.
  - mcbv. ring.
Qed.
Lemma dist_split s1 s2 : D <> 0 ->
  sqdist (vscale s1 d1) (vadd p (vscale s2 d2)) =
  sqdist (vscale (n1 / D) d1) (vadd p (vscale (n2 / D) d2)) +
    dot (vsub (vscale (s1 - n1 / D) d1) (vscale (s2 - n2 / D) d2)) (vsub (vscale (s1 - n1 / D) d1) (vscale (s2 - n2 / D) d2)).
Proof using.
  intros HD. set (z1 := n1 / D). set (z2 := n2 / D).
  assert (E1 : z1 * dot d1 d1 - z2 * dot d1 d2 = dot d1 p).
  { unfold z1, z2, n1, n2. apply (Rmult_eq_reg_r D); [|done]. field_simplify; [|done]. unfold D. ring. }
  assert (E2 : z1 * dot d1 d2 - z2 * dot d2 d2 = dot d2 p).
  { unfold z1, z2, n1, n2. apply (Rmult_eq_reg_r D); [|done]. field_simplify; [|done]. unfold D. ring. }
  clearbody z1 z2. 
  assert (K : sqdist (vscale s1 d1) (vadd p (vscale s2 d2)) - sqdist (vscale z1 d1) (vadd p (vscale z2 d2)) -
    dot (vsub (vscale (s1 - z1) d1) (vscale (s2 - z2) d2)) (vsub (vscale (s1 - z1) d1) (vscale (s2 - z2) d2))
    = 2 * (s1 - z1) * (z1 * dot d1 d1 - z2 * dot d1 d2 - dot d1 p) - 2 * (s2 - z2) * (z1 * dot d1 d2 - z2 * dot d2 d2 - dot d2 p)).
  { unfold sqdist. clear. destruct d1 as [a b c], d2 as [a' b' c'], p as [x y z]. mcbv. ring. }
  rewrite E1, E2 in K. lra.
Qed.
Lemma closest_solution : D <> 0 -> closest d1 p d2 (n1 / D) (n2 / D).
Proof using. intros HD s1 s2. rewrite (dist_split s1 s2 HD). match goal with |- _ <= _ + dot ?v ?v => pose proof (dot_nonneg v) end. lra. Qed.
Lemma closest_unique z1 z2 : cross d1 d2 <> V3 0 0 0 -> closest d1 p d2 z1 z2 -> z1 = n1 / D /\ z2 = n2 / D.
Proof using.
  intros Hc H. pose proof (gram_pos Hc) as HD. assert (HD' : D <> 0) by lra.
  specialize (H (n1 / D) (n2 / D)). rewrite (dist_split z1 z2 HD') in H.
  set (a := z1 - n1 / D) in *. set (b := z2 - n2 / D) in *.
  match type of H with _ + dot ?v ?v <= _ => pose proof (dot_nonneg v) as G; set (w := v) in * end.
  assert (Z : dot w w = 0) by lra. unfold dot in Z. apply sumsq0 in Z. destruct Z as (W1 & W2 & W3).
  assert (Ew : w = V3 0 0 0) by (by apply vec3_eq).
  assert (Ca : vscale a (cross d1 d2) = V3 0 0 0).
  { transitivity (cross w d2). { unfold w. clear. destruct d1 as [x y z], d2 as [x' y' z']. mring. } rewrite Ew. destruct d2. mring. }
  assert (Cb : vscale b (cross d1 d2) = V3 0 0 0).
  { transitivity (cross w d1). { unfold w. clear. destruct d1 as [x y z], d2 as [x' y' z']. mring. } rewrite Ew. destruct d1. mring. }
  assert (NZ : forall k, vscale k (cross d1 d2) = V3 0 0 0 -> k = 0).
  { intros k E. destruct (Req_dec k 0) as [|N]; [done|]. exfalso. apply Hc.
    destruct (cross d1 d2) as [x y z]. unfold vscale in E. cbn in E. injection E as A B C.
    apply Rmult_integral in A as [?|A]; [done|]. apply Rmult_integral in B as [?|B]; [done|]. apply Rmult_integral in C as [?|C]; [done|]. by subst. }
  apply NZ in Ca. apply NZ in Cb. unfold a, b in *. lra.
Qed.
End rays.

Lemma in_front_iff f1 f2 Rot p :
  in_front f1 f2 Rot p = true <->
  let d1 := point_h f1 in
  let d2 := mapply (mtrans Rot) (point_h f2) in
  cross d1 d2 <> V3 0 0 0 /\ exists z1 z2, 0 < z1 /\ 0 < z2 /\ closest d1 p d2 z1 z2.
Proof.
  unfold in_front. cbv zeta. change homog with point_h. set (d1 := point_h f1). set (d2 := mapply (mtrans Rot) (point_h f2)).
  pose proof (gram_pos d1 d2) as HP. pose proof (closest_solution d1 d2 p) as HC. pose proof (closest_unique d1 d2 p) as HU. pose proof (parallel_zero d1 d2 p) as HZ.
  set (D := dot d1 d1 * dot d2 d2 - dot d1 d2 * dot d1 d2) in *.
  set (n1 := dot d2 d2 * dot d1 p - dot d1 d2 * dot d2 p) in *. set (n2 := dot d1 d2 * dot d1 p - dot d1 d1 * dot d2 p) in *.
  split.
  - destruct (Rgt_dec n1 0) as [G1|]; [|done]. destruct (Rgt_dec n2 0) as [G2|]; [|done]. intros _.
    assert (Hc : cross d1 d2 <> V3 0 0 0) by (intros E; specialize (HZ E); lra).
    specialize (HP Hc). split; [done|]. exists (n1 / D), (n2 / D). split_and!.
    + by apply Rdiv_lt_0_compat.
    + by apply Rdiv_lt_0_compat.
    + apply HC. lra.
  - intros (Hc & z1 & z2 & P1 & P2 & Hcl). specialize (HP Hc). destruct (HU z1 z2 Hc Hcl) as [-> ->].
    assert (K : forall x, 0 < x / D -> x > 0).
    { intros x Hx. replace x with (x / D * D) by (field; lra). apply Rlt_gt, Rmult_lt_0_compat; lra. }
    destruct (Rgt_dec n1 0) as [|N]; [|by apply K in P1]. destruct (Rgt_dec n2 0) as [|N]; [done|by apply K in P2].
Qed.

(** * The four candidates *)
Lemma seen_rays Rot c f : rotation Rot -> seen_by_both Rot c f ->
  exists z1 z2, 0 < z1 /\ 0 < z2 /\ let d1 := point_h f.1 in let d2 := mapply (mtrans Rot) (point_h f.2) in
    c = vsub (vscale z1 d1) (vscale z2 d2) /\ cross d1 d2 <> V3 0 0 0.
Proof.
  intros HR (X & P1 & E1 & P2 & E2 & Hc). destruct f as [f1 f2]. cbn [fst snd] in *.
  set (Y := mapply Rot (vsub X c)) in *. exists (z3 X), (z3 Y). split; [done|]. split; [done|].
  assert (F1 : X = vscale (z3 X) (point_h f1)).
  { rewrite <- E1. destruct X as [x y z]. cbn in *. unfold vscale, point_h, perspective. cbn. f_equal; field; lra. }
  assert (F2 : Y = vscale (z3 Y) (point_h f2)).
  { rewrite <- E2. clearbody Y. destruct Y as [x y z]. cbn in *. unfold vscale, point_h, perspective. cbn. f_equal; field; lra. }
  assert (G : vsub X c = vscale (z3 Y) (mapply (mtrans Rot) (point_h f2))).
  { rewrite <- mapply_vscale, <- F2. unfold Y. rewrite <- mapply_mmul, (rotation_trans_l _ HR), mapply_id. done. }
  set (d1 := point_h f1) in *. set (d2 := mapply (mtrans Rot) (point_h f2)) in *. cbv zeta.
  assert (Ec : c = vsub (vscale (z3 X) d1) (vscale (z3 Y) d2)).
  { rewrite <- F1, <- G. clear. destruct X as [x y z], c as [a b d]. unfold vsub. cbn. f_equal; ring. }
  split; [done|]. intros E. apply Hc. rewrite Ec, F1. set (k1 := z3 X). set (k2 := z3 Y). clearbody k1 k2.
  transitivity (vscale (- (k1 * k2)) (cross d1 d2)).
  - clear. destruct d1 as [x y z], d2 as [a b d]. apply vec3_eq; mcbv; ring.
  - rewrite E. apply vec3_eq; mcbv; ring.
Qed.

Lemma in_front_eq f1 f2 Rot p : in_front f1 f2 Rot p = true <->
  let d1 := point_h f1 in let d2 := mapply (mtrans Rot) (point_h f2) in
  dot d2 d2 * dot d1 p - dot d1 d2 * dot d2 p > 0 /\ dot d1 d2 * dot d1 p - dot d1 d1 * dot d2 p > 0.
Proof.
  unfold in_front. cbv zeta. change homog with point_h. destruct (Rgt_dec _ _); [|split; [done|tauto]]. destruct (Rgt_dec _ _); [split; [tauto|done]|split; [done|tauto]].
Qed.

Lemma true_pose_in_front Rot c f k : rotation Rot -> seen_by_both Rot c f -> 0 < k -> in_front f.1 f.2 Rot (vscale k c) = true.
Proof.
  intros HR Hs Hk. destruct (seen_rays Rot c f HR Hs) as (z1 & z2 & P1 & P2 & Ec & Hc). cbv zeta in *.
  rewrite in_front_eq. cbv zeta. set (d1 := point_h f.1) in *. set (d2 := mapply _ _) in *. pose proof (gram_pos d1 d2 Hc) as HD.
  assert (0 < k * z1) by (by apply Rmult_lt_0_compat). assert (0 < k * z2) by (by apply Rmult_lt_0_compat).
  set (D := dot d1 d1 * dot d2 d2 - dot d1 d2 * dot d1 d2) in *.
  split.
  - replace (dot d2 d2 * dot d1 (vscale k c) - dot d1 d2 * dot d2 (vscale k c)) with (k * z1 * D).
    + apply Rlt_gt, Rmult_lt_0_compat; done.
    + rewrite Ec. unfold D. mcbv. ring.
  - replace (dot d1 d2 * dot d1 (vscale k c) - dot d1 d1 * dot d2 (vscale k c)) with (k * z2 * D).
    + apply Rlt_gt, Rmult_lt_0_compat; done.
    + rewrite Ec. unfold D. mcbv. ring.
Qed.

Lemma opposite_not_in_front Rot c f k : rotation Rot -> seen_by_both Rot c f -> k < 0 -> in_front f.1 f.2 Rot (vscale k c) = false.
Proof.
  intros HR Hs Hk. destruct (seen_rays Rot c f HR Hs) as (z1 & z2 & P1 & P2 & Ec & Hc). cbv zeta in *.
  apply not_true_is_false. rewrite in_front_eq. cbv zeta. set (d1 := point_h f.1) in *. set (d2 := mapply _ _) in *. pose proof (gram_pos d1 d2 Hc) as HD.
  intros [H _]. set (D := dot d1 d1 * dot d2 d2 - dot d1 d2 * dot d1 d2) in *.
  replace (dot d2 d2 * dot d1 (vscale k c) - dot d1 d2 * dot d2 (vscale k c)) with (- (- k * (z1 * D))) in H.
  - assert (0 < z1 * D) by (by apply Rmult_lt_0_compat). assert (0 < - k * (z1 * D)) by (apply Rmult_lt_0_compat; lra). lra.
  - rewrite Ec. unfold D. mcbv. ring.
Qed.

(** The rays of a pose whose second camera is turned by half a turn about the baseline. *)
Lemma twisted_rays d1 d2 c al z1 z2 k :
  0 < z1 -> 0 < z2 -> c = vsub (vscale z1 d1) (vscale z2 d2) ->
  let d2' := vsub (vscale (2 * al) c) d2 in
  dot d2' d2' * dot d1 (vscale k c) - dot d1 d2' * dot d2' (vscale k c) > 0 ->
  dot d1 d2' * dot d1 (vscale k c) - dot d1 d1 * dot d2' (vscale k c) > 0 -> False.
Proof.
  intros P1 P2 Ec d2' G1 G2.
  assert (EB : vscale (1 + 2 * al * z2) c = vadd (vscale z1 d1) (vscale z2 d2')).
  { unfold d2'. assert (E : vscale z2 d2 = vsub (vscale z1 d1) c) by (rewrite Ec; apply vec3_eq; mcbv; ring).
    apply vec3_eq; apply (f_equal x3) in E as E1; apply (f_equal y3) in E as E2; apply (f_equal z3) in E as E3; revert E1 E2 E3; mcbv; destruct c, d1, d2; intros; lra. }
  set (be := 1 + 2 * al * z2) in *. clearbody d2' be.
  set (D := dot d1 d1 * dot d2' d2' - dot d1 d2' * dot d1 d2').
  set (n1 := dot d2' d2' * dot d1 (vscale k c) - dot d1 d2' * dot d2' (vscale k c)) in *.
  set (n2 := dot d1 d2' * dot d1 (vscale k c) - dot d1 d1 * dot d2' (vscale k c)) in *.
  assert (LB : forall a, be * dot a (vscale k c) = k * (z1 * dot a d1 + z2 * dot a d2')).
  { intros a. transitivity (k * dot a (vscale be c)). { unfold dot, vscale. cbn. ring. } rewrite EB. unfold dot, vscale, vadd. cbn. ring. }
  assert (N1 : be * n1 = k * z1 * D).
  { unfold n1, D. transitivity (dot d2' d2' * (be * dot d1 (vscale k c)) - dot d1 d2' * (be * dot d2' (vscale k c))); [ring|].
    rewrite !LB. rewrite (dot_comm d2' d1). ring. }
  assert (N2 : be * n2 = - (k * z2 * D)).
  { unfold n2, D. transitivity (dot d1 d2' * (be * dot d1 (vscale k c)) - dot d1 d1 * (be * dot d2' (vscale k c))); [ring|].
    rewrite !LB. rewrite (dot_comm d2' d1). ring. }
  destruct (Req_dec be 0) as [Z|NZ].
  - assert (Ep : vscale z1 d1 = vscale (- z2) d2').
    { rewrite Z in EB. apply vec3_eq; [apply (f_equal x3) in EB|apply (f_equal y3) in EB|apply (f_equal z3) in EB]; revert EB; mcbv; destruct c, d1, d2'; intros; lra. }
    assert (K : z1 * n1 = 0).
    { unfold n1. transitivity (dot d2' d2' * dot (vscale z1 d1) (vscale k c) - dot (vscale z1 d1) d2' * dot d2' (vscale k c)).
      - unfold dot, vscale. cbn. ring.
      - rewrite Ep. unfold dot, vscale. cbn. ring. }
    apply Rmult_integral in K as [?|?]; lra.
  - assert (K : be * (n1 * z2 + n2 * z1) = 0).
    { transitivity (be * n1 * z2 + be * n2 * z1); [ring|]. rewrite N1, N2. ring. }
    apply Rmult_integral in K as [?|K]; [done|]. assert (0 < n1 * z2) by (apply Rmult_lt_0_compat; lra). assert (0 < n2 * z1) by (apply Rmult_lt_0_compat; lra). lra.
Qed.

Lemma unit_of_scale v : v <> V3 0 0 0 -> exists k, 0 < k /\ unit_of v = vscale k v /\ k * k * dot v v = 1.
Proof.
  intros H. pose proof (dot_pos' v H) as Hp. pose proof (sqrt_lt_R0 _ Hp) as Hs. exists (/ sqrt (dot v v)). split; [by apply Rinv_0_lt_compat|]. split; [done|].
  rewrite <- (sqrt_sqrt (dot v v)) at 3 by lra. field. lra.
Qed.
Lemma half_turn_apply t h : half_turn t = mtrans (half_turn t) /\
  mapply (half_turn t) h = vsub (vscale (2 * dot (unit_of t) h) (unit_of t)) h.
Proof. unfold half_turn. generalize (unit_of t). intros [a b c]. destruct h as [x y z]. split; [mring|]. apply vec3_eq; mcbv; ring. Qed.

Lemma twisted_not_in_front Rot c f k : rotation Rot -> seen_by_both Rot c f ->
  in_front f.1 f.2 (mmul (half_turn (vopp (mapply Rot c))) Rot) (vscale k c) = false.
Proof.
  intros HR Hs. destruct (seen_rays Rot c f HR Hs) as (z1 & z2 & P1 & P2 & Ec & Hc). cbv zeta in *.
  apply not_true_is_false. rewrite in_front_eq. cbv zeta. set (t := vopp (mapply Rot c)).
  assert (Hcz : c <> V3 0 0 0).
  { intros Z. destruct Hs as (X & _ & _ & _ & _ & Hx). apply Hx. rewrite Z. apply vec3_eq; mcbv; ring. }
  assert (Htd : dot t t = dot c c).
  { rewrite <- (orthogonal_norm Rot c (rotation_orthogonal _ HR)). unfold t, dot, vopp. cbn. ring. }
  assert (Ht : t <> V3 0 0 0).
  { intros Z. apply (dot_pos' c) in Hcz. rewrite <- Htd, Z in Hcz. unfold dot in Hcz. cbn in Hcz. lra. }
  destruct (unit_of_scale t Ht) as (s & Hs0 & Hu & Hss).
  set (d1 := point_h f.1) in *. set (h2 := point_h f.2) in *. set (d2 := mapply (mtrans Rot) h2) in *.
  assert (Ed : mapply (mtrans (mmul (half_turn t) Rot)) h2 = vsub (vscale (2 * (s * s * dot c d2)) c) d2).
  { rewrite mtrans_mmul, mapply_mmul. destruct (half_turn_apply t h2) as [<- ->]. rewrite mapply_vsub. fold d2. f_equal.
    rewrite mapply_vscale, Hu, mapply_vscale.
    assert (E1 : mapply (mtrans Rot) t = vscale (-1) c).
    { unfold t. rewrite mapply_vopp, <- mapply_mmul, (rotation_trans_l _ HR), mapply_id. apply vec3_eq; mcbv; ring. }
    assert (E2 : dot (vscale s t) h2 = - s * dot c d2).
    { unfold d2, t. transitivity (- s * dot (mapply Rot c) h2). { unfold dot, vscale, vopp. cbn. ring. } rewrite dot_mapply. done. }
    rewrite E1, E2. apply vec3_eq; unfold vscale; cbn [x3 y3 z3]; ring. }
  rewrite Ed. intros [G1 G2]. exact (twisted_rays d1 d2 c (s * s * dot c d2) z1 z2 k P1 P2 Ec G1 G2).
Qed.

(** * The choice *)
Lemma count_split (good bad l : list (vec2 * vec2)) p : l ≡ₚ good ++ bad -> count_in_front l p = (count_in_front good p + count_in_front bad p)%nat.
Proof. intros H. unfold count_in_front. rewrite H, list.filter_app, app_length. done. Qed.
Lemma count_le l p : (count_in_front l p <= length l)%nat.
Proof. apply list.filter_length. Qed.
Lemma count_all l p : Forall (fun f : vec2 * vec2 => in_front f.1 f.2 p.1 p.2 = true) l -> count_in_front l p = length l.
Proof.
  unfold count_in_front. induction 1 as [|f l Hf Hl IH]; [done|]. rewrite list.filter_cons_True by done. cbn. by rewrite IH.
Qed.
Lemma count_none l p : Forall (fun f : vec2 * vec2 => in_front f.1 f.2 p.1 p.2 = false) l -> count_in_front l p = 0%nat.
Proof.
  unfold count_in_front. induction 1 as [|f l Hf Hl IH]; [done|]. rewrite list.filter_cons_False; [done|]. by rewrite Hf.
Qed.

Lemma max_fold {A} (x : nat * A) (l : list (nat * A)) :
  foldl max_step x l ∈ x :: l /\ forall y, y ∈ x :: l -> (y.1 <= (foldl max_step x l).1)%nat.
Proof.
  revert x. induction l as [|z l IH]; intros x; cbn [foldl].
  - split; [by left|]. intros y Hy. apply elem_of_list_singleton in Hy as ->. done.
  - destruct (IH (max_step x z)) as [H1 H2]. split.
    + apply elem_of_cons in H1 as [H1|H1].
      * rewrite H1. unfold max_step. destruct (decide _); [right; left|left].
      * by right; right.
    + intros y Hy. assert (M := H2 (max_step x z) (elem_of_list_here _ _)). unfold max_step in M at 1.
      apply elem_of_cons in Hy as [->|Hy]; [destruct (decide _); unfold max_step in *; lia|].
      apply elem_of_cons in Hy as [->|Hy]; [destruct (decide _); unfold max_step in *; lia|].
      apply H2. by right.
Qed.

Lemma max_fold_unique {A} (x : nat * A) l best : best ∈ x :: l -> (forall y, y ∈ x :: l -> y <> best -> (y.1 < best.1)%nat) -> foldl max_step x l = best.
Proof.
  intros Hb Hu. destruct (max_fold x l) as [H1 H2]. set (r := foldl max_step x l) in *.
  destruct (Classical_Prop.classic (r = best)) as [|N]; [done|]. specialize (Hu r H1 N). specialize (H2 best Hb). lia.
Qed.

Lemma best_pose_exact svd k Rot c good bad l : svd_contract svd -> rotation Rot -> c <> V3 0 0 0 -> k <> 0 ->
  l ≡ₚ good ++ bad -> Forall (seen_by_both Rot c) good -> (length bad < length good)%nat ->
  best_pose svd (mscale k (essential Rot (vopp (mapply Rot c)))) l = (count_in_front l (Rot, unit_of c), (Rot, unit_of c)).
Proof.
  intros Hsvd HR Hcz Hk Hl Hgood Hlen. set (t := vopp (mapply Rot c)).
  assert (Htd : dot t t = dot c c).
  { rewrite <- (orthogonal_norm Rot c (rotation_orthogonal _ HR)). unfold t, dot, vopp. cbn. ring. }
  assert (Ht : t <> V3 0 0 0).
  { intros Z. apply (dot_pos' c) in Hcz. rewrite <- Htd, Z in Hcz. unfold dot in Hcz. cbn in Hcz. lra. }
  destruct (decompose_exact svd k Rot t Hsvd HR Ht Hk) as (sg & Hsg & HD).
  unfold best_pose. destruct (decompose_essential _ _) as [[r1 r2] t']. destruct HD as (-> & HD).
  destruct (unit_of_scale c Hcz) as (s & Hs & Hu & Hss).
  assert (HRt : mapply (mtrans Rot) t = vopp c).
  { unfold t. rewrite mapply_vopp, <- mapply_mmul, (rotation_trans_l _ HR), mapply_id. done. }
  assert (Hut : unit_of t = vscale s t).
  { unfold unit_of in *. rewrite Htd. f_equal. 
    assert (G : forall a b, vscale a c = vscale b c -> a = b).
    { intros a b E. pose proof (f_equal (fun v => dot v c) E) as E'. cbn beta in E'. pose proof (dot_pos' c Hcz) as Hp.
      assert (EQ : forall k, dot (vscale k c) c = k * dot c c) by (intros; unfold dot, vscale; cbn; ring). rewrite !EQ in E'. apply Rmult_eq_reg_r in E'; lra. }
    by apply G. }
  assert (HP : forall g, vopp (mapply (mtrans Rot) (vscale g (unit_of t))) = vscale (g * s) c).
  { intros g. rewrite Hut, !mapply_vscale, HRt. apply vec3_eq; mcbv; ring. }
  assert (HH : mapply (half_turn t) t = t).
  { destruct (half_turn_apply t t) as [_ ->]. rewrite Hut.
    transitivity (vsub (vscale (2 * (s * s * dot t t)) t) t). { apply vec3_eq; mcbv; ring. }
    rewrite Htd, Hss. apply vec3_eq; mcbv; ring. }
  assert (HP' : forall g, vopp (mapply (mtrans (mmul (half_turn t) Rot)) (vscale g (unit_of t))) = vscale (g * s) c).
  { intros g. rewrite mtrans_mmul, mapply_mmul. destruct (half_turn_apply t t) as [<- _].
    rewrite Hut, !mapply_vscale, HH, HRt. apply vec3_eq; mcbv; ring. }
  assert (HO : vopp (vscale sg (unit_of t)) = vscale (- sg) (unit_of t)) by (apply vec3_eq; mcbv; ring).
  set (T := mmul (half_turn t) Rot) in *.
  assert (Hpos : forall g, 0 < g -> (length good <= count_in_front l (Rot, vscale (g * s) c))%nat).
  { intros g Hg. rewrite (count_split good bad l _ Hl). rewrite (count_all good); [lia|].
    apply list.Forall_forall. intros f Hf. cbn. apply true_pose_in_front; [done|by apply (proj1 (list.Forall_forall _ _) Hgood)|by apply Rmult_lt_0_compat]. }
  assert (Hneg : forall g, g < 0 -> (count_in_front l (Rot, vscale (g * s) c) <= length bad)%nat).
  { intros g Hg. rewrite (count_split good bad l _ Hl). rewrite (count_none good); [apply count_le|].
    apply list.Forall_forall. intros f Hf. cbn. apply opposite_not_in_front; [done|by apply (proj1 (list.Forall_forall _ _) Hgood)|].
    assert (0 < - g * s) by (apply Rmult_lt_0_compat; lra). lra. }
  assert (Htw : forall g, (count_in_front l (T, vscale (g * s) c) <= length bad)%nat).
  { intros g. rewrite (count_split good bad l _ Hl). rewrite (count_none good); [apply count_le|].
    apply list.Forall_forall. intros f Hf. cbn. unfold T, t. apply twisted_not_in_front; [done|by apply (proj1 (list.Forall_forall _ _) Hgood)]. }
  assert (HOne : unit_of c = vscale (1 * s) c) by (rewrite Hu; f_equal; ring).
  rewrite HO, HOne. specialize (Hpos 1 ltac:(lra)). specialize (Hneg (-1) ltac:(lra)).
  pose proof (Htw 1) as Ht1. pose proof (Htw (-1)) as Ht2. cbv zeta.
  destruct HD as [[-> ->]|[-> ->]]; rewrite !HP, !HP'; (destruct Hsg as [->| ->]; [change (- (1)) with (Ropp 1); replace (Ropp 1) with (-1) by ring|replace (- (-1)) with 1 by ring]);
    (apply max_fold_unique; [rewrite !elem_of_cons; tauto|]);
    intros y Hy Hn; rewrite !elem_of_cons in Hy; repeat (destruct Hy as [->|Hy]; [try done; cbn [fst]; lia|]); by apply elem_of_nil in Hy.
Qed.
