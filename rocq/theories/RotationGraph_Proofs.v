(** Lemmas about rotations on a view graph. *)
From stdpp Require Import gmap sorting.
From Coq Require Import Reals Lra.
From Coq Require Import Classical_Prop.
From Verif Require Import Base ConnectedComponents_Model ConnectedComponents_Spec ViewGraph_Model ViewGraph_Spec.
From Verif Require Import ViewGraph_Proofs MinSpanningTree_Model MinSpanningTree_Spec MinSpanningTree_Props.
From Verif Require Import TripletExtractor_Model TripletExtractor_Spec TripletExtractor_Props.
From Verif Require Import Camera_Model Camera_Proofs PriorityQueue_Model RotationGraph_Model RotationGraph_Spec.
Open Scope R_scope.

(** * Angles *)
Lemma trace_mmul_comm A B : trace (mmul A B) = trace (mmul B A).
Proof.
  destruct A as [[a1 a2 a3] [b1 b2 b3] [c1 c2 c3]], B as [[d1 d2 d3] [e1 e2 e3] [f1 f2 f3]].
  unfold trace, mmul, mapply, mtrans, dot. cbn [x3 y3 z3 row0 row1 row2]. ring.
Qed.
Lemma trace_mtrans A : trace (mtrans A) = trace A.
Proof. reflexivity. Qed.

Lemma trace_rot_of_aa w : trace (rot_of_aa w) = 1 + 2 * cos (norm3 w).
Proof.
  unfold rot_of_aa. destruct (Req_EM_T (norm3 w) 0) as [E|E].
  - rewrite E, cos_0. unfold trace, mid. cbn [x3 y3 z3 row0 row1 row2]. ring.
  - pose proof (unit_axis w E) as Hu. unfold trace. cbn [x3 y3 z3 row0 row1 row2].
    set (n := vscale (/ norm3 w) w) in *. clearbody n.
    set (c := cos _). clearbody c. unfold dot in Hu.
    replace (c + x3 n * x3 n * (1 - c) + (c + y3 n * y3 n * (1 - c)) + (c + z3 n * z3 n * (1 - c)))
      with (3 * c + (x3 n * x3 n + y3 n * y3 n + z3 n * z3 n) * (1 - c)) by ring.
    rewrite Hu. ring.
Qed.

Lemma norm3_nonneg w : 0 <= norm3 w.
Proof. apply sqrt_pos. Qed.

Lemma canonical_angle f M : aa_canonical f -> rotation M ->
  norm3 (f M) = acos ((trace M - 1) / 2).
Proof.
  intros Hf HM. destruct (Hf M HM) as [E Hle].
  rewrite <- E at 2. rewrite trace_rot_of_aa.
  replace ((1 + 2 * cos (norm3 (f M)) - 1) / 2) with (cos (norm3 (f M))) by field.
  symmetry. apply acos_cos. split; [apply norm3_nonneg|exact Hle].
Qed.

Lemma canonical_conv f : aa_canonical f -> aa_conv f.
Proof. intros Hf M HM. apply (Hf M HM). Qed.

Lemma norm3_vscale k v : norm3 (vscale k v) = Rabs k * norm3 v.
Proof.
  unfold norm3. replace (dot (vscale k v) (vscale k v)) with (k * k * dot v v)
    by (unfold dot, vscale; cbn [x3 y3 z3]; ring).
  rewrite sqrt_mult; [|nra|apply dot_nonneg]. f_equal. fold (Rsqr k). apply sqrt_Rsqr_abs.
Qed.
Lemma norm3_vopp v : norm3 (vopp v) = norm3 v.
Proof.
  unfold norm3. f_equal. unfold dot, vopp. cbn [x3 y3 z3]. ring.
Qed.

Lemma rot_of_aa_vopp w : rot_of_aa (vopp w) = mtrans (rot_of_aa w).
Proof.
  unfold rot_of_aa. rewrite norm3_vopp. destruct (Req_EM_T (norm3 w) 0) as [E|E]; [reflexivity|].
  unfold mtrans, vscale, vopp. cbn [x3 y3 z3 row0 row1 row2].
  f_equal; f_equal; ring.
Qed.

Lemma vscale_m1 w : vscale (-1) w = vopp w.
Proof. unfold vscale, vopp. f_equal; ring. Qed.

Lemma multiply_rotations_ok f a b : aa_canonical f ->
  rot_of_aa (multiply_rotations f a b) = mmul (rot_of_aa a) (rot_of_aa b).
Proof.
  intros Hf. unfold multiply_rotations. apply (canonical_conv f Hf).
  apply rotation_mmul; apply rot_of_aa_rotation.
Qed.

(** The conversion of the camera proofs keeps angles within pi. *)
Lemma aa_of_rot_canonical : aa_canonical aa_of_rot.
Proof.
  intros M HM. split; [by apply aa_of_rot_conv|].
  pose proof (aa_of_rot_conv M HM) as E.
  destruct M as [[a b c] [d e f] [g h i]].
  pose proof (rotation_entries _ _ _ _ _ _ _ _ _ HM) as
    ((C1 & C2 & C3 & C4 & C5 & C6 & C7 & C8 & C9) & (R1 & R2 & R3 & R4 & R5 & R6) &
     (L1 & L2 & L3 & L4 & L5 & L6)).
  clear E.
  unfold aa_of_rot, trace3. cbn [x3 y3 z3 row0 row1 row2].
  assert (HP : 0 < PI) by exact PI_RGT_0.
  destruct (Rle_dec 1 _) as [Ht|Ht].
  - unfold norm3, dot. cbn [x3 y3 z3]. replace (0 * 0 + 0 * 0 + 0 * 0) with 0 by ring. rewrite sqrt_0. lra.
  - destruct (Rle_dec _ (-1)) as [Ht'|Ht'].
    + rewrite norm3_vscale, (Rabs_pos_eq PI) by lra.
      rewrite <- (Rmult_1_r PI) at 2. apply Rmult_le_compat_l; [lra|].
      unfold pi_axis. set (u := if Rlt_dec (-1) _ then _ else _). clearbody u.
      rewrite norm3_vscale. pose proof (norm3_nonneg u) as Hu.
      destruct (Req_dec (norm3 u) 0) as [Hz|Hz].
      * rewrite Hz, Rmult_0_r. lra.
      * rewrite Rabs_pos_eq; [|left; apply Rinv_0_lt_compat; lra]. rewrite Rinv_l by exact Hz. lra.
    + set (t := a + e + i) in *. set (k := (t - 1) / 2) in *.
      assert (Hk : -1 < k < 1) by lra.
      pose proof (acos_bound_lt k Hk) as Hb.
      assert (Hsin : 0 < sin (acos k)) by (apply sin_gt_0; lra).
      rewrite norm3_vscale, Rabs_pos_eq.
      2:{ apply Rmult_le_pos; [lra|]. left. by apply Rinv_0_lt_compat. }
      assert (Hsk : dot (half_skew (M3 (V3 a b c) (V3 d e f) (V3 g h i)))
                        (half_skew (M3 (V3 a b c) (V3 d e f) (V3 g h i))) = sin (acos k) * sin (acos k)).
      { pose proof (sc1 (acos k)) as Hsc. rewrite cos_acos in Hsc by lra.
        replace (sin (acos k) * sin (acos k)) with (1 - k * k) by lra.
        unfold half_skew, dot. cbn [x3 y3 z3 row0 row1 row2]. unfold k, t. lra. }
      unfold norm3. rewrite Hsk, sqrt_square by lra.
      replace (acos k / sin (acos k) * sin (acos k)) with (acos k) by (field; lra). lra.
Qed.

(** * Relative poses of two cameras *)
Lemma aa_rotate_opp w p : aa_rotate (vopp w) (aa_rotate w p) = p.
Proof.
  rewrite !aa_rotate_matrix, rot_of_aa_vopp, <- mapply_mmul, rotation_trans_l, mapply_id; [done|].
  apply rot_of_aa_rotation.
Qed.
Lemma aa_rotate_vopp w p : aa_rotate w (vopp p) = vopp (aa_rotate w p).
Proof. rewrite !aa_rotate_matrix. apply mapply_vopp. Qed.
Lemma vopp_vopp v : vopp (vopp v) = v.
Proof. destruct v as [a b d]. unfold vopp. cbn [x3 y3 z3]. f_equal; ring. Qed.

Lemma swap_swap i j : swap_cameras i = Ok j -> swap_cameras j = Ok i.
Proof.
  destruct i as [f1 f2 p r m]. unfold swap_cameras. cbn [tv_focal1 tv_focal2 tv_position tv_rotation tv_matches].
  destruct (Req_EM_T f1 0) as [|H1]; [discriminate|]. destruct (Req_EM_T f2 0) as [|H2]; [discriminate|].
  intros E. assert (j = TwoView f2 f1 (vopp (aa_rotate r p)) (vscale (-1) r) m) as -> by congruence.
  cbn [tv_focal1 tv_focal2 tv_position tv_rotation tv_matches].
  destruct (Req_EM_T f2 0) as [|_]; [done|]. destruct (Req_EM_T f1 0) as [|_]; [done|].
  rewrite !vscale_m1, aa_rotate_vopp, aa_rotate_opp, !vopp_vopp. done.
Qed.

Lemma normalize_mapply M v : rotation M -> normalize (mapply M v) = mapply M (normalize v).
Proof.
  intros HM. unfold normalize.
  assert (norm3 (mapply M v) = norm3 v) as ->.
  { unfold norm3. f_equal.
    assert (forall A u w, dot (mapply A u) w = dot u (mapply (mtrans A) w)) as Hadj.
    { intros [[a1 a2 a3] [b1 b2 b3] [c1 c2 c3]] [u1 u2 u3] [w1 w2 w3].
      unfold dot, mapply, mtrans. cbn [x3 y3 z3 row0 row1 row2]. unfold dot. cbn [x3 y3 z3]. ring. }
    rewrite Hadj, <- mapply_mmul, rotation_trans_l, mapply_id by done. done. }
  destruct (Req_EM_T (norm3 v) 0); [done|]. by rewrite mapply_vscale.
Qed.
Lemma normalize_vopp v : normalize (vopp v) = vopp (normalize v).
Proof.
  unfold normalize. rewrite norm3_vopp. destruct (Req_EM_T (norm3 v) 0); [done|].
  destruct v as [a b d]. unfold vscale, vopp. cbn [x3 y3 z3]. f_equal; ring.
Qed.

Lemma vsub_anti a b : vsub a b = vopp (vsub b a).
Proof. destruct a as [a1 a2 a3], b as [b1 b2 b3]. unfold vsub, vopp. cbn [x3 y3 z3]. f_equal; ring. Qed.

Lemma two_view_swap f norm f1 c1 f2 c2 i : aa_canonical f -> f1 <> 0 -> f2 <> 0 ->
  exists j, swap_cameras (two_view_from_cameras f norm f1 c1 f2 c2 i) = Ok j /\
    let k := two_view_from_cameras f norm f2 c2 f1 c1 i in
    tv_focal1 j = tv_focal1 k /\ tv_focal2 j = tv_focal2 k /\ tv_position j = tv_position k /\
    rot_of_aa (tv_rotation j) = rot_of_aa (tv_rotation k) /\ tv_matches j = tv_matches k.
Proof.
  intros Hf H1 H2. unfold swap_cameras, two_view_from_cameras.
  cbn [tv_focal1 tv_focal2 tv_position tv_rotation tv_matches].
  destruct (Req_EM_T f1 0) as [|_]; [done|]. destruct (Req_EM_T f2 0) as [|_]; [done|].
  eexists; split; [reflexivity|]. cbn zeta. cbn [tv_focal1 tv_focal2 tv_position tv_rotation tv_matches].
  split; [done|]. split; [done|].
  pose proof (rot_of_aa_rotation (p_aa c1)) as Hr1. pose proof (rot_of_aa_rotation (p_aa c2)) as Hr2.
  split; [|split; [|done]].
  - rewrite aa_rotate_matrix, multiply_rotations_ok, rot_of_aa_vopp by done.
    rewrite !aa_rotate_matrix.
    assert (Hpos : forall v, mapply (mmul (rot_of_aa (p_aa c2)) (mtrans (rot_of_aa (p_aa c1))))
                       (mapply (rot_of_aa (p_aa c1)) v) = mapply (rot_of_aa (p_aa c2)) v).
    { intros v. rewrite <- mapply_mmul, mmul_assoc, rotation_trans_l, mmul_id_r by done. done. }
    rewrite (vsub_anti (p_pos c1)), mapply_vopp. destruct norm.
    + rewrite !normalize_mapply, Hpos, normalize_vopp, normalize_mapply by done. done.
    + by rewrite Hpos.
  - rewrite vscale_m1, rot_of_aa_vopp, !multiply_rotations_ok, !rot_of_aa_vopp, mtrans_mmul, mtrans_mtrans by done.
    done.
Qed.

Lemma normalize_scale v : v <> V3 0 0 0 -> norm3 (normalize v) = 1 /\ v = vscale (norm3 v) (normalize v) /\ 0 < norm3 v.
Proof.
  intros Hv. pose proof (norm3_nonneg v) as Hn.
  assert (Hz : norm3 v <> 0).
  { intros E. unfold norm3 in E. apply sqrt_eq_0 in E; [|apply dot_nonneg].
    destruct v as [a b d]. unfold dot in E. cbn [x3 y3 z3] in E.
    destruct (sumsq0 _ _ _ E) as (-> & -> & ->). done. }
  unfold normalize. destruct (Req_EM_T (norm3 v) 0) as [|_]; [done|].
  split; [|split; [|lra]].
  - rewrite norm3_vscale, Rabs_pos_eq; [by apply Rinv_l|]. left. apply Rinv_0_lt_compat. lra.
  - destruct v as [a b d]. set (n := norm3 _) in *. clearbody n. unfold vscale. cbn [x3 y3 z3].
    f_equal; field; done.
Qed.

Lemma two_view_relative f norm f1 c1 f2 c2 i X : aa_canonical f ->
  let j := two_view_from_cameras f norm f1 c1 f2 c2 i in
  exists s, (norm = false -> s = 1) /\ (p_pos c1 <> p_pos c2 -> 0 < s) /\
    (norm = true -> p_pos c1 <> p_pos c2 -> norm3 (tv_position j) = 1) /\
    mapply (rot_of_aa (p_aa c2)) (vsub X (p_pos c2)) =
      mapply (rot_of_aa (tv_rotation j))
        (vsub (mapply (rot_of_aa (p_aa c1)) (vsub X (p_pos c1))) (vscale s (tv_position j))).
Proof.
  intros Hf. cbn zeta. unfold two_view_from_cameras. cbn [tv_position tv_rotation].
  pose proof (rot_of_aa_rotation (p_aa c1)) as Hr1.
  rewrite multiply_rotations_ok, rot_of_aa_vopp, !aa_rotate_matrix by done.
  assert (Hmain : mapply (rot_of_aa (p_aa c2)) (vsub X (p_pos c2)) =
    mapply (mmul (rot_of_aa (p_aa c2)) (mtrans (rot_of_aa (p_aa c1))))
      (vsub (mapply (rot_of_aa (p_aa c1)) (vsub X (p_pos c1)))
            (mapply (rot_of_aa (p_aa c1)) (vsub (p_pos c2) (p_pos c1))))).
  { rewrite <- mapply_vsub, <- mapply_mmul, mmul_assoc, rotation_trans_l, mmul_id_r by done.
    f_equal. destruct X as [x y z], (p_pos c1) as [a1 a2 a3], (p_pos c2) as [b1 b2 b3].
    unfold vsub. cbn [x3 y3 z3]. f_equal; ring. }
  destruct norm.
  - set (v := vsub (p_pos c2) (p_pos c1)) in *.
    assert (Hd : p_pos c1 <> p_pos c2 -> v <> V3 0 0 0).
    { intros Hne E. apply Hne. unfold v in E. destruct (p_pos c1) as [a1 a2 a3], (p_pos c2) as [b1 b2 b3].
      unfold vsub in E. cbn [x3 y3 z3] in E. injection E as E1 E2 E3. f_equal; lra. }
    rewrite normalize_mapply by done.
    exists (norm3 v). split; [done|].
    split; [intros Hne; by apply normalize_scale, Hd|].
    split.
    + intros _ Hne. rewrite <- (proj1 (normalize_scale v (Hd Hne))).
      rewrite <- normalize_mapply by done.
      assert (forall u, norm3 (mapply (rot_of_aa (p_aa c1)) u) = norm3 u) as Hn.
      { intros u. unfold norm3. f_equal.
        assert (forall A u w, dot (mapply A u) w = dot u (mapply (mtrans A) w)) as Hadj.
        { intros [[a1 a2 a3] [b1 b2 b3] [d1 d2 d3]] [u1 u2 u3] [w1 w2 w3].
          unfold dot, mapply, mtrans. cbn [x3 y3 z3 row0 row1 row2]. unfold dot. cbn [x3 y3 z3]. ring. }
        rewrite Hadj, <- mapply_mmul, rotation_trans_l, mapply_id by done. done. }
      rewrite normalize_mapply by done. apply Hn.
    + rewrite <- mapply_vscale. rewrite Hmain. f_equal. f_equal. f_equal.
      unfold normalize. destruct (Req_EM_T (norm3 v) 0) as [E|E].
      * rewrite E. unfold norm3 in E. apply sqrt_eq_0 in E; [|apply dot_nonneg].
        clear -E. destruct v as [a b d]. unfold dot in E. cbn [x3 y3 z3] in E.
        destruct (sumsq0 _ _ _ E) as (-> & -> & ->). unfold vscale. cbn [x3 y3 z3]. f_equal; ring.
      * clear -E. destruct v as [a b d]. set (n := norm3 _) in *. clearbody n. unfold vscale. cbn [x3 y3 z3].
        f_equal; field; done.
  - exists 1. split; [done|]. split; [intros _; lra|]. split; [done|].
    rewrite vscale_1. exact Hmain.
Qed.

(** * Removing edges *)
Lemma remove_pairs_run l : forall c : view_graph two_view,
  foldl (fun g p => (vg_remove_edge g p.1 p.2).1) c l = (vg_run c (map (fun p => VRemoveEdge p.1 p.2) l)).1.
Proof.
  induction l as [|[a b] l IH]; intros c; [done|]. cbn [foldl map vg_run vg_step fst snd].
  destruct (vg_remove_edge c a b) as [c1 r1] eqn:E. cbn [fst]. rewrite IH.
  destruct (vg_run c1 _) as [c2 r2]. done.
Qed.

Lemma ag_remove_run l : forall g : agraph two_view, simple_graph g ->
  let g' := (ag_run g (map (fun p => VRemoveEdge p.1 p.2) l)).1 in
  ag_views g' = ag_views g /\
  forall x y i, ag_label g' x y = Some i <-> ag_label g x y = Some i /\ (x, y) ∉ l /\ (y, x) ∉ l.
Proof.
  induction l as [|[a b] l IH]; intros g Hg.
  - cbn. split; [done|]. intros x y i. split; [|tauto]. intros ?. split; [done|]. split; apply not_elem_of_nil.
  - cbn [map ag_run fst snd].
    set (gr := ag_step g (VRemoveEdge a b)).
    assert (Hs : simple_graph gr.1 /\ ag_views gr.1 = ag_views g /\
      forall x y i, ag_label gr.1 x y = Some i <-> ag_label g x y = Some i /\ (x, y) ≠ (a, b) /\ (y, x) ≠ (a, b)).
    { destruct Hg as (Hsym & Hirr & Hin). unfold gr. cbn [ag_step].
      destruct (ag_label g a b) as [e|] eqn:E; cbn [fst ag_views ag_label].
      - split.
        + split_and!; cbn [ag_label ag_views].
          * intros x y. destruct (decide (same_pair a b x y)) as [H|H], (decide (same_pair a b y x)) as [H'|H'];
              unfold same_pair in *; solve [done|tauto|apply Hsym].
          * intros x. destruct (decide _); [done|apply Hirr].
          * intros x y. destruct (decide _); [by intros []|apply Hin].
        + split; [done|]. intros x y i. destruct (decide (same_pair a b x y)) as [H|H]; unfold same_pair in H.
          * split; [done|]. intros (_ & H1 & H2). destruct H as [[-> ->]|[-> ->]]; done.
          * split; [|tauto]. intros ?. split; [done|]. split; intros [= -> ->]; tauto.
      - split; [done|]. split; [done|]. intros x y i. split; [|tauto]. intros H. split; [done|].
        split; intros [= -> ->]; [congruence|]. rewrite Hsym in E. congruence. }
    destruct gr as [g1 r1]. cbn [fst] in Hs. destruct Hs as (Hg1 & Hv & Hl).
    specialize (IH g1 Hg1). destruct (ag_run g1 _) as [g2 r2] eqn:E2. cbn [fst] in IH |- *.
    destruct IH as [Hv2 Hl2]. split; [congruence|]. intros x y i. rewrite Hl2, Hl, !not_elem_of_cons. tauto.
Qed.

Lemma vg_run_app {E} (ops1 ops2 : list (vg_op E)) : forall c,
  (vg_run c (ops1 ++ ops2)).1 = (vg_run (vg_run c ops1).1 ops2).1.
Proof.
  induction ops1 as [|op ops1 IH]; intros c; [done|]. cbn [app vg_run].
  destruct (vg_step c op) as [c1 r]. specialize (IH c1).
  destruct (vg_run c1 (ops1 ++ ops2)) as [c2 rs], (vg_run c1 ops1) as [c3 rs']. done.
Qed.

(** The effect of RemoveEdge on every pair of a set. *)
Lemma remove_pairs_ok (o : order (N * N)) (c : view_graph two_view) (g : agraph two_view) (bad : gset (N * N)) : vrel c g ->
  let c' := remove_pairs o c bad in
  exists g', vrel c' g' /\ ag_views g' = ag_views g /\
    forall x y i, ag_label g' x y = Some i <-> ag_label g x y = Some i /\ (x, y) ∉ bad /\ (y, x) ∉ bad.
Proof.
  intros Hr. cbn zeta. unfold remove_pairs. rewrite remove_pairs_run.
  set (l := o (elements bad)).
  assert (Hl : forall p, p ∈ l <-> p ∈ bad). { intros p. unfold l. rewrite ord_perm. apply elem_of_elements. }
  destruct (vrel_run (map (fun p => VRemoveEdge p.1 p.2) l) c g Hr) as [Hr' _].
  eexists; split; [exact Hr'|].
  destruct (ag_remove_run l g) as [Hv Hlab]; [apply Hr|]. split; [done|].
  intros x y i. rewrite Hlab, !Hl. done.
Qed.

Lemma restricted_of_vrel (c : view_graph two_view) (g : agraph two_view) c' (g' : agraph two_view) (keep : N -> N -> Prop) :
  vrel c g -> vrel c' g' -> ag_views g' = ag_views g ->
  (forall x y i, ag_label g' x y = Some i <-> ag_label g x y = Some i /\ keep x y) ->
  restricted c c' keep.
Proof.
  intros Hr Hr' Hv Hl.
  destruct (vrel_answers _ _ Hr) as (A1 & _ & A3 & _).
  destruct (vrel_answers _ _ Hr') as (B1 & B2 & B3 & B4 & _).
  split_and!.
  - intros a b i. rewrite A3, B3. apply Hl.
  - intros v. apply eq_bool_prop_intro. rewrite !Is_true_true, A1, B1, Hv. done.
  - intros v ns H u. apply B4 in H as [_ H]. rewrite H, B2. done.
Qed.

(** * FilterViewPairsFromOrientation *)
Lemma rel_angle_le (f : mat3 -> vec3) M max : aa_canonical f -> rotation M -> 0 <= max ->
  dot (f M) (f M) <= deg_to_rad max * deg_to_rad max <-> angle_degrees M <= max.
Proof.
  intros Hf HM Hmax. unfold angle_degrees. rewrite <- (canonical_angle f M Hf HM).
  assert (HP : 0 < PI) by exact PI_RGT_0.
  assert (Hd : 0 <= deg_to_rad max).
  { unfold deg_to_rad. apply Rmult_le_pos; [done|]. apply Rmult_le_pos; [lra|]. lra. }
  assert (Hn : dot (f M) (f M) = norm3 (f M) * norm3 (f M)).
  { unfold norm3. rewrite sqrt_sqrt; [done|apply dot_nonneg]. }
  pose proof (norm3_nonneg (f M)) as Hn0. rewrite Hn. set (n := norm3 (f M)) in *. clearbody n. clear Hn.
  assert (E : max = deg_to_rad max * (180 / PI)) by (unfold deg_to_rad; field; lra).
  set (d := deg_to_rad max) in *. clearbody d. rewrite E.
  assert (Hk : 0 < 180 / PI) by (apply Rdiv_lt_0_compat; lra).
  split; intros H.
  - apply Rmult_le_compat_r; [lra|]. apply Rsqr_incr_0_var; [exact H|done].
  - apply Rmult_le_reg_r in H; [|done]. apply Rmult_le_compat; lra.
Qed.

Lemma agrees_sym c g os max a b : vrel c g -> agrees c os max a b -> agrees c os max b a.
Proof.
  intros Hr (M & wa & wb & (i & Hi & HM) & Ha & Hb & Hang).
  destruct (vrel_answers _ _ Hr) as (_ & _ & A3 & _). destruct Hr as (_ & _ & _ & (Hsym & Hirr & _)).
  assert (Hab : a <> b). { intros ->. rewrite A3, Hirr in Hi. done. }
  exists (mtrans M), wb, wa. split; [|split; [done|split; [done|]]].
  - exists i. split; [rewrite A3, Hsym, <- A3; done|]. rewrite HM.
    destruct (decide (a < b)%N), (decide (b < a)%N); try lia; [done|]. by rewrite mtrans_mtrans.
  - unfold angle_degrees in *.
    replace (trace (mmul (mtrans (mtrans M)) (mmul (rot_of_aa wa) (mtrans (rot_of_aa wb))))) with
      (trace (mmul (mtrans M) (mmul (rot_of_aa wb) (mtrans (rot_of_aa wa))))); [done|].
    rewrite <- (trace_mtrans (mmul (mtrans (mtrans M)) _)), !mtrans_mmul, !mtrans_mtrans.
    apply trace_mmul_comm.
Qed.

Section filters.
Context (f : mat3 -> vec3) (Hf : aa_canonical f).

Lemma acceptable_agrees c g os max a b i o1 o2 : vrel c g -> 0 <= max -> (a < b)%N ->
  vg_get_edge c a b = Some i -> os !! a = Some o1 -> os !! b = Some o2 ->
  difference_acceptable f o1 o2 (tv_rotation i) (deg_to_rad max * deg_to_rad max) = true <->
  agrees c os max a b.
Proof.
  intros Hr Hmax Hab Hi H1 H2. unfold difference_acceptable.
  set (L := mmul (rot_of_aa (vopp (tv_rotation i))) (rot_of_aa (multiply_rotations f o2 (vopp o1)))).
  assert (HL : L = mmul (mtrans (rot_of_aa (tv_rotation i))) (mmul (rot_of_aa o2) (mtrans (rot_of_aa o1)))).
  { unfold L. by rewrite multiply_rotations_ok, !rot_of_aa_vopp. }
  assert (HLr : rotation L) by (apply rotation_mmul; apply rot_of_aa_rotation).
  transitivity (dot (f L) (f L) <= deg_to_rad max * deg_to_rad max).
  { unfold multiply_rotations at 1. fold L. unfold multiply_rotations at 1. fold L.
    destruct (Rle_dec _ _); split; intros; done. }
  rewrite rel_angle_le by done. rewrite HL. split.
  - intros H. exists (rot_of_aa (tv_rotation i)), o1, o2. split; [|done].
    exists i. rewrite decide_True by done. done.
  - intros (M & wa & wb & (j & Hj & HM) & Ha & Hb & H).
    rewrite decide_True in HM by done.
    assert (j = i) as -> by congruence. assert (wa = o1) as -> by congruence. assert (wb = o2) as -> by congruence.
    by subst M.
Qed.

Lemma orientation_steps c g os max l : vrel c g -> 0 <= max ->
  (forall a b i, ((a, b), i) ∈ l -> vg_edges c !! (a, b) = Some i) -> forall bad a b,
  (a, b) ∈ foldl (orientation_step f os (deg_to_rad max * deg_to_rad max)) bad l <->
  (a, b) ∈ bad \/ ((exists i, ((a, b), i) ∈ l) /\ ~ agrees c os max a b).
Proof.
  intros Hr Hmax. induction l as [|[[x y] j] l IH]; intros Hin bad a b; cbn [foldl].
  - split; [by left|]. intros [?|[[i Hi] _]]; [done|]. by apply elem_of_nil in Hi.
  - rewrite IH by (intros; apply Hin; by right).
    assert (Hxy : vg_edges c !! (x, y) = Some j) by (apply Hin; left).
    assert (Hlt : (x < y)%N).
    { destruct (vrel_answers _ _ Hr) as (_ & _ & _ & _ & _ & _ & A7 & _). by apply A7 in Hxy as [? _]. }
    assert (Hget : vg_get_edge c x y = Some j).
    { unfold vg_get_edge, view_id_pair. by rewrite decide_True. }
    assert (Hstep : (a, b) ∈ orientation_step f os (deg_to_rad max * deg_to_rad max) bad ((x, y), j) <->
      (a, b) ∈ bad \/ ((a, b) = (x, y) /\ ~ agrees c os max x y)).
    { unfold orientation_step. cbn [fst snd].
      assert (Hnone : os !! x = None \/ os !! y = None -> ~ agrees c os max x y).
      { intros Hn (M & wa & wb & _ & Ha & Hb & _). destruct Hn; congruence. }
      destruct (os !! x) as [o1|] eqn:E1; [|rewrite elem_of_union, elem_of_singleton; naive_solver].
      destruct (os !! y) as [o2|] eqn:E2; [|rewrite elem_of_union, elem_of_singleton; naive_solver].
      pose proof (acceptable_agrees c g os max x y j o1 o2 Hr Hmax Hlt Hget E1 E2) as Hacc.
      destruct (difference_acceptable _ _ _ _) eqn:Ed.
      - assert (agrees c os max x y) by (by apply Hacc). tauto.
      - assert (~ agrees c os max x y) by (intros Hag; apply Hacc in Hag; done).
        rewrite elem_of_union, elem_of_singleton. tauto. }
    rewrite Hstep. split.
    + intros [[?|[[= -> ->] ?]]|[[i Hi] ?]]; [by left|right; split; [exists j; left|done]|].
      right. split; [exists i; by right|done].
    + intros [?|[[i Hi] Hna]]; [by left; left|]. apply elem_of_cons in Hi as [[= -> -> ->]|Hi]; [left; by right|].
      right. split; [by exists i|done].
Qed.

Lemma filter_orientation_ok oe op os max c g : vrel c g -> 0 <= max ->
  exists c', filter_from_orientation f oe op os max c = Ok c' /\ restricted c c' (agrees c os max) /\
    exists g', vrel c' g'.
Proof.
  intros Hr Hmax. unfold filter_from_orientation. destruct (Rlt_dec max 0); [lra|].
  set (bad := foldl _ _ _). eexists; split; [reflexivity|].
  destruct (remove_pairs_ok op c g bad Hr) as (g' & Hr' & Hv & Hl). split; [|by exists g'].
  apply (restricted_of_vrel c g _ g'); try done.
  intros x y i. rewrite Hl.
  destruct (vrel_answers _ _ Hr) as (_ & _ & A3 & _ & _ & _ & A7 & _).
  assert (Hbad : forall a b, (a, b) ∈ bad <-> is_Some (vg_edges c !! (a, b)) /\ ~ agrees c os max a b).
  { intros a b. unfold bad. rewrite (orientation_steps c g); [|done|done|].
    - rewrite elem_of_empty. split.
      + intros [[]|[[j Hj] ?]]. rewrite ord_perm, elem_of_map_to_list in Hj. split; [by exists j|done].
      + intros [[j Hj] ?]. right. split; [|done]. exists j. by rewrite ord_perm, elem_of_map_to_list.
    - intros a' b' j Hj. by rewrite ord_perm, elem_of_map_to_list in Hj. }
  split.
  - intros (Hi & H1 & H2). split; [done|].
    destruct (decide (x < y)%N) as [Hlt|Hge].
    + assert (is_Some (vg_edges c !! (x, y))) by (exists i; by apply A7).
      rewrite Hbad in H1. destruct (classic (agrees c os max x y)); tauto.
    + assert (x <> y). { intros ->. destruct Hr as (_ & _ & _ & (_ & Hirr & _)). by rewrite Hirr in Hi. }
      assert (is_Some (vg_edges c !! (y, x))).
      { exists i. apply A7. split; [lia|]. destruct Hr as (_ & _ & _ & (Hsym & _)). by rewrite Hsym. }
      rewrite Hbad in H2. apply (agrees_sym c g); [done|]. destruct (classic (agrees c os max y x)); tauto.
  - intros (Hi & Hag). split; [done|]. rewrite !Hbad. split; [tauto|].
    intros [_ Hn]. apply Hn, (agrees_sym c g); done.
Qed.
End filters.

(** * FilterViewGraphCyclesByRotation *)
Definition loop_good (f : mat3 -> vec3) (c : view_graph two_view) (max : R) (t : triplet) : Prop :=
  let '(x, y, z) := t in
  exists i12 i13 i23, vg_get_edge c x y = Some i12 /\ vg_get_edge c x z = Some i13 /\ vg_get_edge c y z = Some i23 /\
    loop_rotation_error f i12 i13 i23 < max.

Lemma loop_error_angle f i12 i13 i23 : aa_canonical f ->
  loop_rotation_error f i12 i13 i23 =
  acos ((trace (mmul (rot_of_aa (tv_rotation i23)) (mmul (rot_of_aa (tv_rotation i12)) (mtrans (rot_of_aa (tv_rotation i13))))) - 1) / 2)
    * (180 / PI).
Proof.
  intros Hf. unfold loop_rotation_error, rad_to_deg. rewrite (canonical_angle f).
  - by rewrite mmul_assoc.
  - done.
  - apply rotation_mmul; [apply rotation_mmul|apply rotation_trans]; apply rot_of_aa_rotation.
Qed.

Lemma trace3_cyc A B C : trace (mmul A (mmul B C)) = trace (mmul B (mmul C A)).
Proof. rewrite trace_mmul_comm, !mmul_assoc. done. Qed.

Lemma get_edge_sym c (g : agraph two_view) a b : vrel c g -> vg_get_edge c a b = vg_get_edge c b a.
Proof.
  intros Hr. destruct (vrel_answers _ _ Hr) as (_ & _ & A3 & _). rewrite !A3.
  destruct Hr as (_ & _ & _ & (Hsym & _)). apply Hsym.
Qed.
Lemma get_edge_irrefl c (g : agraph two_view) a i : vrel c g -> vg_get_edge c a a = Some i -> False.
Proof.
  intros Hr. destruct (vrel_answers _ _ Hr) as (_ & _ & A3 & _). rewrite A3.
  destruct Hr as (_ & _ & _ & (_ & Hirr & _)). by rewrite Hirr.
Qed.

Lemma relative_flip c (g : agraph two_view) a b M : vrel c g -> relative c a b M -> relative c b a (mtrans M).
Proof.
  intros Hr (i & Hi & ->).
  assert (a <> b) by (intros ->; by eapply get_edge_irrefl).
  exists i. split; [by rewrite (get_edge_sym c g)|].
  destruct (decide (a < b)%N), (decide (b < a)%N); try lia; [done|by rewrite mtrans_mtrans].
Qed.

Lemma good_cycle_flip c (g : agraph two_view) max a b w : vrel c g -> good_cycle c max a b w -> good_cycle c max b a w.
Proof.
  intros Hr (M1 & M2 & M3 & H1 & H2 & H3 & H).
  exists (mtrans M1), (mtrans M3), (mtrans M2).
  split; [by apply (relative_flip c g)|]. split; [by apply (relative_flip c g)|]. split; [by apply (relative_flip c g)|].
  unfold angle_degrees in *.
  replace (trace (mmul (mtrans M2) (mmul (mtrans M3) (mtrans M1)))) with (trace (mmul M3 (mmul M2 M1))); [done|].
  rewrite <- (trace_mtrans (mmul (mtrans M2) _)), !mtrans_mmul, !mtrans_mtrans, mmul_assoc.
  rewrite (trace3_cyc M3), (trace3_cyc M2). done.
Qed.

(** The cycle through a triangle, from any of its sides. *)
Lemma good_cycle_iff f c (g : agraph two_view) max a b w : aa_canonical f -> vrel c g -> (a < b)%N ->
  good_cycle c max a b w <->
  ((b < w)%N /\ loop_good f c max (a, b, w)) \/ ((a < w < b)%N /\ loop_good f c max (a, w, b)) \/
  ((w < a)%N /\ loop_good f c max (w, a, b)).
Proof.
  intros Hf Hr Hab. split.
  - intros (M1 & M2 & M3 & (i1 & Hi1 & E1) & (i2 & Hi2 & E2) & (i3 & Hi3 & E3) & H).
    rewrite decide_True in E1 by done. unfold angle_degrees in H.
    destruct (decide (b < w)%N) as [Hbw|Hbw]; [|destruct (decide (w < a)%N) as [Hwa|Hwa]].
    + left. split; [done|]. exists i1, i3, i2. split; [done|]. split; [by rewrite (get_edge_sym c g)|]. split; [done|].
      rewrite loop_error_angle by done. rewrite decide_False in E3 by lia. subst M1 M2 M3.
      by rewrite (trace3_cyc (mtrans _)) in H.
    + right. right. split; [done|].
      exists i3, i2, i1. split; [done|]. split; [by rewrite (get_edge_sym c g)|]. split; [done|].
      rewrite loop_error_angle by done. subst M1 M2 M3.
      rewrite (trace3_cyc (rot_of_aa _)), (trace3_cyc (mtrans _)) in H. done.
    + assert (w <> b) by (intros ->; by eapply (get_edge_irrefl c g)).
      assert (w <> a) by (intros ->; by eapply (get_edge_irrefl c g)).
      right. left. split; [lia|].
      exists i3, i1, i2. split; [by rewrite (get_edge_sym c g)|]. split; [done|]. split; [by rewrite (get_edge_sym c g)|].
      rewrite loop_error_angle by done. subst M1 M2 M3.
      rewrite <- trace_mtrans, !mtrans_mmul, !mtrans_mtrans, mmul_assoc in H.
      rewrite (trace3_cyc (mtrans _)) in H. done.
  - intros [[Hbw H]|[[Hw H]|[Hwa H]]].
    + destruct H as (i12 & i13 & i23 & H12 & H13 & H23 & H). rewrite loop_error_angle in H by done.
      exists (rot_of_aa (tv_rotation i12)), (rot_of_aa (tv_rotation i23)), (mtrans (rot_of_aa (tv_rotation i13))).
      split; [exists i12; by rewrite decide_True|]. split; [exists i23; by rewrite decide_True|].
      split; [exists i13; rewrite decide_False by lia; split; [by rewrite (get_edge_sym c g)|done]|].
      unfold angle_degrees. by rewrite (trace3_cyc (mtrans _)).
    + destruct H as (i12 & i13 & i23 & H12 & H13 & H23 & H). rewrite loop_error_angle in H by done.
      exists (rot_of_aa (tv_rotation i13)), (mtrans (rot_of_aa (tv_rotation i23))), (mtrans (rot_of_aa (tv_rotation i12))).
      split; [exists i13; by rewrite decide_True|].
      split; [exists i23; rewrite decide_False by lia; split; [by rewrite (get_edge_sym c g)|done]|].
      split; [exists i12; rewrite decide_False by lia; split; [by rewrite (get_edge_sym c g)|done]|].
      unfold angle_degrees. rewrite <- trace_mtrans, !mtrans_mmul, !mtrans_mtrans, mmul_assoc.
      by rewrite (trace3_cyc (mtrans _)).
    + destruct H as (i12 & i13 & i23 & H12 & H13 & H23 & H). rewrite loop_error_angle in H by done.
      exists (rot_of_aa (tv_rotation i23)), (mtrans (rot_of_aa (tv_rotation i13))), (rot_of_aa (tv_rotation i12)).
      split; [exists i23; by rewrite decide_True|].
      split; [exists i13; rewrite decide_False by lia; split; [by rewrite (get_edge_sym c g)|done]|].
      split; [exists i12; by rewrite decide_True|].
      unfold angle_degrees. by rewrite (trace3_cyc (rot_of_aa _)), (trace3_cyc (mtrans _)).
Qed.

Lemma cycle_steps f c max ts : (forall x y z, (x, y, z) ∈ ts -> is_Some (vg_get_edge c x y) /\ is_Some (vg_get_edge c x z) /\
    is_Some (vg_get_edge c y z)) -> forall inv, exists inv',
  run_steps (cycle_step f c max) inv ts = Ok inv' /\
  forall p, p ∈ inv' <-> p ∈ inv /\ ~ exists t, t ∈ ts /\ loop_good f c max t /\ p ∈ sides t.
Proof.
  induction ts as [|[[x y] z] ts IH]; intros Hin inv.
  - exists inv. split; [done|]. intros p. split; [|tauto]. intros ?. split; [done|].
    intros (t & Ht & _). by apply elem_of_nil in Ht.
  - destruct (Hin x y z) as ([i12 H12] & [i13 H13] & [i23 H23]); [left|].
    set (inv1 := if Rlt_dec (loop_rotation_error f i12 i13 i23) max
                 then inv ∖ {[(x, y)]} ∖ {[(x, z)]} ∖ {[(y, z)]} else inv).
    assert (E1 : cycle_step f c max inv (x, y, z) = Ok inv1).
    { unfold cycle_step. rewrite H12, H13, H23. done. }
    cbn [run_steps]. rewrite E1. cbn [mbind outcome_bind].
    destruct (IH ltac:(intros; apply Hin; by right) inv1) as (inv' & E & Hinv').
    exists inv'. split; [exact E|]. intros p. rewrite Hinv'.
    assert (Hgood : loop_good f c max (x, y, z) <-> loop_rotation_error f i12 i13 i23 < max).
    { unfold loop_good. split; [|intros; by exists i12, i13, i23].
      intros (j12 & j13 & j23 & F1 & F2 & F3 & ?).
      assert (j12 = i12) as -> by congruence. assert (j13 = i13) as -> by congruence.
      assert (j23 = i23) as -> by congruence. done. }
    assert (H1 : p ∈ inv1 <-> p ∈ inv /\ ~ (loop_good f c max (x, y, z) /\ p ∈ sides (x, y, z))).
    { rewrite Hgood. unfold inv1. destruct (Rlt_dec _ _) as [Hlt|Hge]; [|tauto].
      rewrite !elem_of_difference, !elem_of_singleton. unfold sides.
      rewrite !elem_of_cons, elem_of_nil. tauto. }
    rewrite H1. split.
    + intros [[Hp Hn] Hn']. split; [done|]. intros (t & Ht & Hg & Hs).
      apply elem_of_cons in Ht as [->|Ht]; [tauto|]. apply Hn'. by exists t.
    + intros [Hp Hn]. split; [split; [done|]|].
      * intros [Hg Hs]. apply Hn. exists (x, y, z). split; [left|done].
      * intros (t & Ht & Hg & Hs). apply Hn. exists t. split; [by right|done].
Qed.

Lemma filter_cycles_ok f (ot : order (N * N)) (ord_e : order (N * N * list N)) (ord_c : order N)
    (ord_g : order (N * gset N)) (ord_i : order N) (srt : size_sort) (op : order (N * N)) max c (g : agraph two_view) :
  aa_canonical f -> vrel c g -> fewer_triangles (elements (dom (vg_edges c))) (2 ^ 32) ->
  exists c', filter_cycles f ot ord_e ord_c ord_g ord_i srt op max c = Ok c' /\
    restricted c c' (fun a b => exists w, good_cycle c max a b w) /\ exists g', vrel c' g'.
Proof.
  intros Hf Hr Hfew. unfold filter_cycles.
  set (pairs := dom (vg_edges c)). set (edges := ot (elements pairs)).
  assert (Hperm : edges ≡ₚ elements pairs) by apply ord_perm.
  destruct (vrel_answers _ _ Hr) as (_ & _ & A3 & _ & _ & _ & A7 & _).
  assert (Hedge : forall a b, (a, b) ∈ edges <-> (a < b)%N /\ is_Some (vg_get_edge c a b)).
  { intros a b. rewrite Hperm, elem_of_elements. unfold pairs. rewrite elem_of_dom. split.
    - intros [i Hi]. apply A7 in Hi as [? Hi]. split; [done|]. exists i. by rewrite A3.
    - intros [? [i Hi]]. exists i. apply A7. split; [done|]. by rewrite <- A3. }
  assert (Hord : ordered_edges edges).
  { split; [rewrite Hperm; apply NoDup_elements|]. intros a b H. rewrite Hedge in H. tauto. }
  assert (Hfew' : fewer_triangles edges (2 ^ 32)).
  { intros ts Hnd Hts. apply (Hfew ts Hnd). intros [[x y] z] Ht. specialize (Hts _ Ht). unfold triangle in *.
    fold pairs. rewrite <- !Hperm. done. }
  destruct (triplets_exact ord_e ord_c ord_g ord_i srt edges [] Hord Hfew')
    as (gs & res & E & Hres & _ & _ & _ & Htri & _).
  rewrite E. cbn [mbind outcome_bind check]. cbn [app] in Hres.
  assert (Htri' : forall t, t ∈ mjoin res <-> triangle edges t).
  { intros t. rewrite <- Htri. rewrite !elem_of_list_join. by setoid_rewrite Hres. }
  destruct (cycle_steps f c max (mjoin res)) with (inv := pairs) as (inv & Einv & Hinv).
  { intros x y z Ht. apply Htri' in Ht as (_ & H1 & H2 & H3). rewrite !Hedge in H1, H2, H3. tauto. }
  rewrite Einv. cbn [mbind outcome_bind].
  eexists; split; [reflexivity|].
  destruct (remove_pairs_ok op c g inv Hr) as (g' & Hr' & Hv & Hl). split; [|by exists g'].
  apply (restricted_of_vrel c g _ g'); try done.
  (* A pair stays invalid iff no cycle through it is good. *)
  assert (Hkey : forall a b, (a < b)%N -> is_Some (vg_get_edge c a b) ->
    (a, b) ∉ inv <-> exists w, good_cycle c max a b w).
  { intros a b Hab He. rewrite Hinv.
    assert (Hp : (a, b) ∈ pairs). { rewrite <- elem_of_elements, <- Hperm. by apply Hedge. }
    split.
    - intros Hn. destruct (classic (exists t, t ∈ mjoin res /\ loop_good f c max t /\ (a, b) ∈ sides t)) as [Hex|]; [|tauto].
      destruct Hex as ([[x y] z] & Ht & Hg & Hs). apply Htri' in Ht as (Hlt & _).
      unfold sides in Hs. rewrite !elem_of_cons, elem_of_nil in Hs.
      destruct Hs as [[= -> ->]|[[= -> ->]|[[= -> ->]|[]]]].
      + exists z. apply (good_cycle_iff f c g); [done|done|done|]. left. split; [lia|done].
      + exists y. apply (good_cycle_iff f c g); [done|done|done|]. right; left. split; [lia|done].
      + exists x. apply (good_cycle_iff f c g); [done|done|done|]. right; right. split; [lia|done].
    - intros [w Hw] [_ Hn]. apply Hn. apply (good_cycle_iff f c g) in Hw; [|done..].
      destruct Hw as [[? Hg]|[[? Hg]|[? Hg]]]; eexists; (split; [|split; [exact Hg|]]);
        try (unfold sides; rewrite !elem_of_cons; tauto);
        apply Htri'; destruct Hg as (i12 & i13 & i23 & H12 & H13 & H23 & _);
        (split; [lia|]); rewrite !Hedge; rewrite H12, H13, H23; repeat split; try lia; eauto. }
  assert (Hlt : forall x y, (x, y) ∈ inv -> (x < y)%N).
  { intros x y H. apply Hinv in H as [H _]. rewrite <- elem_of_elements, <- Hperm, Hedge in H. tauto. }
  intros x y i. rewrite Hl.
  split.
  - intros (Hi & H1 & H2). split; [done|].
    assert (Hget : vg_get_edge c x y = Some i) by (by rewrite A3).
    destruct (decide (x < y)%N) as [Hxy|Hge].
    + apply Hkey; [done|by exists i|done].
    + assert (x <> y) by (intros ->; by eapply (get_edge_irrefl c g)).
      destruct (proj1 (Hkey y x ltac:(lia) ltac:(exists i; by rewrite (get_edge_sym c g))) H2) as [w Hw].
      exists w. by apply (good_cycle_flip c g).
  - intros (Hi & [w Hw]). split; [done|].
    assert (Hget : vg_get_edge c x y = Some i) by (by rewrite A3).
    destruct (decide (x < y)%N) as [Hxy|Hge].
    + split; [apply Hkey; eauto|]. intros Hin. apply Hlt in Hin. lia.
    + assert (x <> y) by (intros ->; by eapply (get_edge_irrefl c g)).
      split; [intros Hin; apply Hlt in Hin; lia|].
      apply Hkey; [lia|exists i; by rewrite (get_edge_sym c g)|]. exists w. by apply (good_cycle_flip c g).
Qed.
