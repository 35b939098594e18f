(** Triangulate (corrected points), TriangulateNViewSVD and SufficientTriangulationAngle. *)
From stdpp Require Import gmap strings.
From Coq Require Import Reals Lra Psatz.
From Verif Require Import Base Camera_Model Camera_Spec Camera_Proofs RotationGraph_Model RotationGraph_Proofs Alignment_Model Alignment_Spec Alignment_Proofs
  Epipolar_Model Epipolar_Spec Epipolar_Proofs Epipolar_Pose Epipolar_Fund Epipolar_Focal Epipolar_Focal2 LeastSquares_Model LeastSquares_Proofs Triangulation_Model Triangulation_Spec
  Triangulation_Proofs Triangulation_NView.
Local Open Scope R_scope.

(** ** SufficientTriangulationAngle *)
Lemma angle_loop_true c dirs : angle_loop c dirs = true <-> exists i j a b, (i < j)%nat /\ dirs !! i = Some a /\ dirs !! j = Some b /\ dot a b < c.
Proof.
  induction dirs as [|d dirs IH]; cbn.
  { split; [done|]. intros (i & j & a & b & _ & H & _). by rewrite lookup_nil in H. }
  destruct (existsb _ dirs) eqn:E.
  - split; [intros _|done]. apply existsb_exists in E as (b & Hb & Hd). destruct (Rlt_dec (dot d b) c) as [Hl|]; [|done].
    apply elem_of_list_In, elem_of_list_lookup in Hb as [j Hj]. exists 0%nat, (S j), d, b. split; [lia|done].
  - rewrite IH. split.
    + intros (i & j & a & b & H & A & B & D). exists (S i), (S j), a, b. split; [lia|done].
    + intros (i & j & a & b & H & A & B & D). destruct j as [|j]; [lia|]. cbn in B. destruct i as [|i].
      * exfalso. cbn in A. injection A as <-. apply not_true_iff_false in E. apply E. apply existsb_exists. exists b. split.
        -- apply elem_of_list_In. by eapply elem_of_list_lookup_2.
        -- by destruct (Rlt_dec (dot d b) c).
      * exists i, j, a, b. split; [lia|done].
Qed.
Lemma unit_dot_bound a b : dot a a = 1 -> dot b b = 1 -> -1 <= dot a b <= 1.
Proof.
  intros A B. assert (H : 0 <= dot (vsub a b) (vsub a b)) by apply dot_nonneg. assert (G : 0 <= dot (vadd a b) (vadd a b)) by apply dot_nonneg.
  replace (dot (vsub a b) (vsub a b)) with (dot a a + dot b b - 2 * dot a b) in H by (destruct a, b; tcbv; ring).
  replace (dot (vadd a b) (vadd a b)) with (dot a a + dot b b + 2 * dot a b) in G by (destruct a, b; tcbv; ring). lra.
Qed.
Lemma angle_exists a b : dot a a = 1 -> dot b b = 1 -> exists t, angle_degrees a b t.
Proof.
  intros A B. pose proof (unit_dot_bound a b A B) as H. pose proof PI_RGT_0 as P. exists (acos (dot a b) * 180 / PI). unfold angle_degrees. pose proof (acos_bound (dot a b)) as [C D]. split; [split|].
  - apply Rmult_le_pos; [lra|]. left. by apply Rinv_0_lt_compat.
  - apply (Rmult_le_reg_r PI); [done|]. field_simplify; lra.
  - replace (acos (dot a b) * 180 / PI * PI / 180) with (acos (dot a b)) by (field; lra). by rewrite cos_acos.
Qed.
Lemma angle_lt a b t deg : 0 <= deg <= 180 -> angle_degrees a b t -> (dot a b < cos (deg * (PI / 180)) <-> deg < t).
Proof.
  intros Hd [Ht ->]. pose proof PI_RGT_0 as P. replace (t * PI / 180) with (t * (PI / 180)) by field. assert (Q : 0 < PI / 180) by lra. split; intros H.
  - destruct (Rlt_le_dec deg t) as [|L]; [done|]. exfalso. assert (t * (PI / 180) <= deg * (PI / 180)) by (apply Rmult_le_compat_r; lra).
    assert (cos (deg * (PI / 180)) <= cos (t * (PI / 180))); [|lra]. apply cos_decr_1; try done.
    + apply Rmult_le_pos; lra.
    + replace PI with (180 * (PI / 180)) at 2 by field. apply Rmult_le_compat_r; lra.
    + apply Rmult_le_pos; lra.
    + replace PI with (180 * (PI / 180)) at 2 by field. apply Rmult_le_compat_r; lra.
  - apply cos_decreasing_1.
    + apply Rmult_le_pos; lra.
    + replace PI with (180 * (PI / 180)) at 2 by field. apply Rmult_le_compat_r; lra.
    + apply Rmult_le_pos; lra.
    + replace PI with (180 * (PI / 180)) at 2 by field. apply Rmult_le_compat_r; lra.
    + apply Rmult_lt_compat_r; lra.
Qed.
Lemma sufficient_iff dirs deg : Forall (fun d => dot d d = 1) dirs -> 0 <= deg <= 180 ->
  sufficient_triangulation_angle dirs deg = true <->
  exists i j a b t, (i < j)%nat /\ dirs !! i = Some a /\ dirs !! j = Some b /\ angle_degrees a b t /\ deg < t.
Proof.
  intros HU Hd. unfold sufficient_triangulation_angle. rewrite angle_loop_true. rewrite list.Forall_forall in HU. split.
  - intros (i & j & a & b & L & A & B & D). destruct (angle_exists a b) as [t Ht]; [apply HU; by eapply elem_of_list_lookup_2..|].
    exists i, j, a, b, t. split_and!; try done. by apply (angle_lt a b).
  - intros (i & j & a & b & t & L & A & B & D & E). exists i, j, a, b. split_and!; try done. by apply (angle_lt a b t).
Qed.

(** ** Triangulate *)
Lemma rotation_cross Rot a b : rotation Rot -> cross (mapply Rot a) (mapply Rot b) = mapply Rot (cross a b).
Proof.
  intros H. pose proof (rotation_adj Rot H) as HA. transitivity (mapply (mtrans (adj Rot)) (cross a b)).
  - destruct Rot as [[] [] []], a, b. unfold adj. apply vec3_eq; mcbv; ring.
  - by rewrite <- HA, mtrans_mtrans.
Qed.
Lemma rotation_dot Rot a b : rotation Rot -> dot (mapply Rot a) (mapply Rot b) = dot a b.
Proof.
  intros H. transitivity (dot a (mapply (mmul (mtrans Rot) Rot) b)).
  - destruct Rot as [[] [] []], a, b. mcbv. ring.
  - by rewrite (rotation_trans_l _ H), mapply_id.
Qed.
Lemma nonzero_scale M a s h : det3 M <> 0 -> a <> V3 0 0 0 -> mapply M a = vscale s h -> s <> 0.
Proof. intros D N E ->. apply N. apply (invertible M); [done|]. rewrite E. apply vec3_eq; cbn; ring. Qed.
Lemma correction_exact P1 P2 c1 c2 X p1 p2 : rotation (m_left P1) -> rotation (m_left P2) -> camera_at P1 c1 -> camera_at P2 c2 ->
  off_baseline X c1 c2 -> image P1 X p1 -> image P2 X p2 ->
  find_optimal_points (essential_from_projections P1 P2) p1 p2 = Some (p1, p2).
Proof.
  intros HR1 HR2 C1 C2 HB [s1 I1] [s2 I2]. destruct (off_baseline_nonzero X c1 c2 HB) as [N1 N2].
  rewrite (camera_apply P1 c1 X C1) in I1. rewrite (camera_apply P2 c2 X C2) in I2.
  pose proof (nonzero_scale _ _ _ _ (proj1 C1) N1 I1) as Hs1. pose proof (nonzero_scale _ _ _ _ (proj1 C2) N2 I2) as Hs2.
  unfold off_baseline in HB. set (a1 := vsub (V3 (x4 X) (y4 X) (z4 X)) (vscale (w4 X) c1)) in *. set (a2 := vsub (V3 (x4 X) (y4 X) (z4 X)) (vscale (w4 X) c2)) in *.
  set (b := vsub c2 c1) in *. assert (Ea : a2 = vsub a1 (vscale (w4 X) b)) by (unfold a1, a2, b; destruct X, c1, c2; apply vec3_eq; tcbv; ring).
  set (R12 := mmul (m_left P1) (mtrans (m_left P2))).
  assert (ET : vsub (m_last P1) (mapply R12 (m_last P2)) = mapply (m_left P1) b).
  { assert (L : forall P c, camera_at P c -> m_last P = vopp (mapply (m_left P) c)).
    { intros P c [_ E]. apply vec3_eq; [apply (f_equal x3) in E|apply (f_equal y3) in E|apply (f_equal z3) in E]; unfold vadd, vopp in *; cbn [x3 y3 z3] in *; lra. }
    rewrite (L P1 c1 C1), (L P2 c2 C2). unfold R12. rewrite mapply_mmul.
    assert (E : mapply (mtrans (m_left P2)) (vopp (mapply (m_left P2) c2)) = vopp c2).
    { rewrite mapply_vopp, <- mapply_mmul, (rotation_trans_l _ HR2), mapply_id. done. }
    rewrite E. unfold b. generalize (m_left P1). intros [[] [] []]. destruct c1, c2. apply vec3_eq; mcbv; ring. }
  assert (Hb : b <> V3 0 0 0). { intros E. apply HB. rewrite E. destruct a1. apply vec3_eq; cbn; ring. }
  assert (HT : mapply (m_left P1) b <> V3 0 0 0). { intros E. apply Hb. by apply (invertible (m_left P1)); [apply C1|]. }
  set (E := essential_from_projections P1 P2). set (g := mapply E (point_h p2)).
  assert (Hg : exists k, 0 < k /\ vscale s2 g = vscale k (mapply (m_left P1) (cross b a2))).
  { destruct (unit_of_scale _ HT) as (k & Hk & Ek & _). exists k. split; [done|].
    unfold g, E, essential_from_projections. fold R12. rewrite ET, (unit_normalize _ HT), Ek. rewrite mapply_mmul.
    assert (EA : mapply R12 (vscale s2 (point_h p2)) = mapply (m_left P1) a2).
    { rewrite <- I2. unfold R12. rewrite mapply_mmul, <- (mapply_mmul (mtrans _)), (rotation_trans_l _ HR2), mapply_id. done. }
    rewrite <- (rotation_cross _ b a2 HR1), <- EA. generalize (mapply (m_left P1) b) R12 (point_h p2). intros [] [[] [] []] []. apply vec3_eq; mcbv; ring. }
  destruct Hg as (k & Hk & Eg).
  assert (Hc : dot (point_h p1) g = 0).
  { assert (Q : s1 * s2 * dot (point_h p1) g = k * dot a1 (cross b a2)).
    { transitivity (dot (vscale s1 (point_h p1)) (vscale s2 g)); [generalize (point_h p1) g; intros [] []; tcbv; ring|].
      rewrite Eg, <- I1. transitivity (k * dot (mapply (m_left P1) a1) (mapply (m_left P1) (cross b a2))); [generalize (mapply (m_left P1) a1) (mapply (m_left P1) (cross b a2)); intros [] []; tcbv; ring|].
      by rewrite rotation_dot. }
    assert (Z : dot a1 (cross b a2) = 0) by (rewrite Ea; generalize a1 b (w4 X); intros [] [] w; tcbv; ring).
    rewrite Z, Rmult_0_r in Q. apply Rmult_integral in Q as [Q|Q]; [|done]. apply Rmult_integral in Q as [Q|Q]; done. }
  assert (Hl : 0 < dot2 (head2 g) (head2 g)).
  { unfold dot2, head2. cbn [x2 y2]. pose proof (Rle_0_sqr (x3 g)) as A. pose proof (Rle_0_sqr (y3 g)) as B. unfold Rsqr in *.
    destruct (Req_dec (x3 g * x3 g + y3 g * y3 g) 0) as [Z|]; [|lra]. exfalso.
    assert (Zx : x3 g = 0) by (destruct (Rmult_integral (x3 g) (x3 g)); [lra|done..]). assert (Zy : y3 g = 0) by (destruct (Rmult_integral (y3 g) (y3 g)); [lra|done..]).
    assert (Zz : z3 g = 0). { clear -Hc Zx Zy. revert Hc Zx Zy. generalize g. intros []. tcbv. intros Hc -> ->. lra. }
    assert (Zg : g = V3 0 0 0) by (by apply vec3_eq). rewrite Zg in Eg.
    assert (ZC : cross b a2 = V3 0 0 0).
    { apply (invertible (m_left P1)); [apply C1|]. apply (vscale_inj k); [lra|]. rewrite <- Eg. apply vec3_eq; cbn; ring. }
    apply HB. clear -ZC Ea. rewrite Ea in ZC. apply vec3_eq; [apply (f_equal x3) in ZC|apply (f_equal y3) in ZC|apply (f_equal z3) in ZC]; revert ZC; generalize a1 b (w4 X); intros [] [] w; tcbv; intros; lra. }
  clear Eg Hk HT Hb ET Ea I1 I2 N1 N2 HB.
  unfold find_optimal_points. change (homog p1) with (point_h p1). change (homog p2) with (point_h p2). fold g. rewrite Hc.
  set (l1 := head2 g) in *. set (l2 := head2 (mapply (mtrans E) (point_h p1))).
  assert (Hl2 : 0 <= dot2 l2 l2) by (unfold dot2; pose proof (Rle_0_sqr (x2 l2)); pose proof (Rle_0_sqr (y2 l2)); unfold Rsqr in *; lra).
  set (bb := (dot2 l1 l1 + dot2 l2 l2) / 2). assert (Hbb : 0 < bb) by (unfold bb; lra).
  rewrite Rmult_0_r, Rminus_0_r. rewrite (sqrt_square bb) by lra. destruct (Rlt_dec (bb * bb) 0) as [W|_]; [exfalso; clear -W Hbb; pose proof (Rmult_lt_0_compat bb bb Hbb Hbb); lra|].
  destruct (Req_EM_T (bb + bb) 0) as [W|_]; [exfalso; lra|]. replace (0 / (bb + bb)) with 0 by (field; lra).
  assert (ES : forall M l, sub2 l (corner_apply M (scale2 0 l)) = l).
  { intros [[] [] []] []. unfold sub2, corner_apply, scale2. cbn. f_equal; ring. }
  rewrite !ES. destruct (Req_EM_T (dot2 l1 l1 + dot2 l2 l2) 0) as [W|_]; [exfalso; lra|]. f_equal. rewrite Rmult_0_l. unfold sub2, scale2. destruct p1, p2. cbn. f_equal; f_equal; ring.
Qed.

(** The corrected points of a concrete pair, which do not satisfy the constraint. *)
Definition forward_pair : mat34 * mat34 := (M34 mid (V3 0 0 0), M34 mid (V3 0 0 (-1))).
Lemma correction_wrong :
  find_optimal_points (essential_from_projections forward_pair.1 forward_pair.2) (V2 1 0) (V2 (3/5) (4/5)) = Some (V2 (92/125) (6/125), V2 (12/25) (14/25)).
Proof.
  assert (EE : essential_from_projections forward_pair.1 forward_pair.2 = M3 (V3 0 (-1) 0) (V3 1 0 0) (V3 0 0 0)).
  { unfold essential_from_projections. cbn [forward_pair fst snd m_left m_last].
    assert (ET : vsub (V3 0 0 0) (mapply (mmul mid (mtrans mid)) (V3 0 0 (-1))) = V3 0 0 1) by (apply vec3_eq; mcbv; ring). rewrite ET.
    rewrite unit_normalize by (intros [=]; lra). unfold unit_of. replace (dot (V3 0 0 1) (V3 0 0 1)) with 1 by (unfold dot; cbn; ring). rewrite sqrt_1.
    apply mat3_eq; apply vec3_eq; mcbv; field. }
  rewrite EE. unfold find_optimal_points.
  set (l1 := head2 (mapply _ (homog (V2 (3/5) (4/5))))). assert (E1 : l1 = V2 (-4/5) (3/5)) by (unfold l1, head2; f_equal; tcbv; field). rewrite E1. clearbody l1.
  set (l2 := head2 (mapply _ (homog (V2 1 0)))). assert (E2 : l2 = V2 0 (-1)) by (unfold l2, head2; f_equal; tcbv; field). rewrite E2. clearbody l2.
  set (a := dot2 _ (corner_apply _ (V2 0 (-1)))). assert (Ea : a = -4/5) by (unfold a, dot2, corner_apply; cbn; field). rewrite Ea. clearbody a.
  set (bb := _ / 2). assert (Eb : bb = 1) by (unfold bb, dot2; cbn; field). rewrite Eb. clearbody bb.
  set (c := dot (homog _) _). assert (Ec : c = -4/5) by (unfold c; tcbv; field). rewrite Ec. clearbody c.
  replace (1 * 1 - -4 / 5 * (-4 / 5)) with (3/5 * (3/5)) by field. rewrite sqrt_square by lra. destruct (Rlt_dec _ 0) as [W|_]; [exfalso; lra|].
  destruct (Req_EM_T (1 + 3/5) 0) as [W|_]; [exfalso; lra|]. replace (-4 / 5 / (1 + 3 / 5)) with (-1/2) by field.
  set (m1 := sub2 (V2 (-4/5) (3/5)) _). assert (F1 : m1 = V2 (-11/10) (1/5)) by (unfold m1, sub2, corner_apply, scale2; cbn; f_equal; field). rewrite F1. clearbody m1.
  set (m2 := sub2 (V2 0 (-1)) _). assert (F2 : m2 = V2 (-1/2) (-1)) by (unfold m2, sub2, corner_apply, scale2; cbn; f_equal; field). rewrite F2. clearbody m2.
  set (n := dot2 (V2 (-11/10) _) _ + _). assert (En : n = 5/2) by (unfold n, dot2; cbn; field). rewrite En. clearbody n.
  destruct (Req_EM_T (5/2) 0) as [W|_]; [exfalso; lra|]. unfold sub2, scale2. cbn. f_equal. f_equal; f_equal; field.
Qed.

(** ** TriangulateNViewSVD *)
Lemma ldot_app a b x y : length a = length x -> ldot (a ++ b) (x ++ y) = ldot a x + ldot b y.
Proof. revert x. induction a as [|a0 a IH]; intros [|x0 x] H; cbn in *; try done; [ring|]. rewrite IH by lia. ring. Qed.
Lemma ldot_pick (ss : list R) (h : R) (i k : nat) :
  ldot (map (fun j => if decide (j = i) then h else 0) (seq k (length ss))) ss = if decide (k <= i)%nat then h * (default 0 (ss !! (i - k)%nat)) else 0.
Proof.
  revert k. induction ss as [|s ss IH]; intros k; [cbn; destruct (decide _); rewrite ?lookup_nil; cbn; ring|].
  cbn [length seq map ldot]. rewrite IH. destruct (decide (k = i)) as [->|N].
  - destruct (decide (S i <= i)%nat); [lia|]. destruct (decide (i <= i)%nat); [|lia]. rewrite Nat.sub_diag. cbn. ring.
  - destruct (decide (k <= i)%nat) as [L|L].
    + destruct (decide (S k <= i)%nat); [|lia]. replace (i - k)%nat with (S (i - S k))%nat by lia. cbn. rewrite Rmult_0_l, Rplus_0_l. done.
    + destruct (decide (S k <= i)%nat); [lia|]. ring.
Qed.
Definition zero_mem (i j : nat) : R := 0.
Definition svd_block (n : nat) (i : nat) (v : mat34 * vec2) : list (list R) :=
  map (fun kh : nat * R => lscale (-1) (row4 v.1 kh.1) ++ map (fun j => if decide (j = i) then kh.2 else 0) (seq 0 n)) [(0%nat, x2 v.2); (1%nat, y2 v.2); (2%nat, 1)].
Lemma row4_length P k : length (row4 P k) = 4%nat.
Proof. unfold row4. by destruct (prow P k). Qed.
Lemma svd_rows_zero poses points : svd_rows zero_mem poses points = mjoin (imap (svd_block (length points)) (zip poses points)).
Proof. unfold svd_rows. f_equal. apply imap_ext. intros i [P p] _. done. Qed.
Lemma svd_block_ok n i v : Forall (fun r => length r = (4 + n)%nat) (svd_block n i v).
Proof. unfold svd_block. repeat constructor; rewrite app_length, map_length, lscale_length, row4_length, seq_length; done. Qed.
Lemma svd_rows_ok mem poses points : Forall (fun r => length r = (4 + length points)%nat) (svd_rows mem poses points).
Proof.
  apply list.Forall_forall. intros r Hr. unfold svd_rows in Hr. apply elem_of_list_join in Hr as (l & Hr & Hl). apply elem_of_lookup_imap in Hl as (i & [P p] & -> & _).
  apply elem_of_list_fmap in Hr as ([k h] & -> & _). rewrite app_length, map_length, lscale_length, row4_length, seq_length. done.
Qed.
Lemma svd_block_sum n i v X ss s : length ss = n -> ss !! i = Some s ->
  foldr (fun r a => ldot r (list4 X ++ ss) * ldot r (list4 X ++ ss) + a) 0 (svd_block n i v) = sqdist (mat34_apply v.1 X) (vscale s (point_h v.2)).
Proof.
  intros <- Hs. unfold svd_block. cbn [map foldr fst snd].
  assert (D : forall k h, ldot (lscale (-1) (row4 v.1 k) ++ map (fun j => if decide (j = i) then h else 0) (seq 0 (length ss))) (list4 X ++ ss) = h * s - ldot (row4 v.1 k) (list4 X)).
  { intros k h. rewrite ldot_app by (by rewrite lscale_length, row4_length). rewrite ldot_pick, decide_True, Nat.sub_0_r, Hs by lia. cbn [default from_option id].
    rewrite (ldot_comm (lscale _ _)), ldot_lscale_r, (ldot_comm (list4 X)). unfold Datatypes.id. ring. }
  rewrite !D. clear. destruct v as [[[[] [] []] []] []], X. tcbv. ring.
Qed.
Lemma foldr_app_sum (f : list R -> R) l1 l2 : foldr (fun r a => f r + a) 0 (l1 ++ l2) = foldr (fun r a => f r + a) 0 l1 + foldr (fun r a => f r + a) 0 l2.
Proof. induction l1 as [|x l1 IH]; cbn; [ring|rewrite IH; ring]. Qed.
Lemma svd_sum_gen n X ss (l : list (mat34 * vec2)) k : length ss = n -> length (drop k ss) = length l ->
  foldr (fun r a => ldot r (list4 X ++ ss) * ldot r (list4 X ++ ss) + a) 0 (mjoin (imap (fun i => svd_block n (k + i)) l)) = view_error l (drop k ss) X.
Proof.
  intros Hn. revert k. induction l as [|v l IH]; intros k Hk.
  { cbn. destruct (drop k ss); done. }
  destruct (drop k ss) as [|s ss'] eqn:Ed; [done|]. assert (Hs : ss !! k = Some s) by (rewrite <- (Nat.add_0_r k), <- lookup_drop, Ed; done).
  assert (Ed' : drop (S k) ss = ss') by (rewrite <- Nat.add_1_r, <- drop_drop, Ed; done).
  rewrite imap_cons. change (mjoin (svd_block n (k + 0) v :: ?t)) with (svd_block n (k + 0) v ++ mjoin t).
  rewrite (foldr_app_sum (fun r => ldot r (list4 X ++ ss) * ldot r (list4 X ++ ss))), Nat.add_0_r, (svd_block_sum n k v X ss s Hn Hs).
  specialize (IH (S k)). rewrite Ed' in IH. specialize (IH ltac:(cbn in Hk; lia)).
  assert (EI : imap ((fun i => svd_block n (k + i)) ∘ S) l = imap (fun i => svd_block n (S k + i)) l) by (apply imap_ext; intros i x _; cbn [compose]; f_equal; lia).
  rewrite EI, IH. unfold view_error, Rsum. reflexivity.
Qed.
Lemma svd_sum poses points v : length poses = length points -> length v = (4 + length points)%nat ->
  foldr (fun r a => ldot r v * ldot r v + a) 0 (svd_rows zero_mem poses points) = view_error (zip poses points) (drop 4 v) (head4 v).
Proof.
  intros HL Hv. rewrite svd_rows_zero. assert (EV : v = list4 (head4 v) ++ drop 4 v) by (do 4 (destruct v as [|? v]; [done|]); done).
  pose proof (svd_sum_gen (length points) (head4 v) (drop 4 v) (zip poses points) 0) as G. rewrite <- EV, drop_0 in G. apply G; [rewrite drop_length; lia|rewrite zip_with_length, drop_length; lia].
Qed.
Lemma nview_svd_optimal smallest poses points : smallest_contract smallest -> length poses = length points ->
  exists v ts, triangulate_nview_svd smallest zero_mem poses points = Ok v /\ length ts = length points /\ dot4 v v + ldot ts ts = 1 /\
    forall X ss, length ss = length points -> dot4 X X + ldot ss ss = 1 -> view_error (zip poses points) ts v <= view_error (zip poses points) ss X.
Proof.
  intros Hc HL. unfold triangulate_nview_svd. rewrite bool_decide_true by done. cbn [check mbind outcome_bind or_die].
  destruct (Hc (4 + length points)%nat _ ltac:(lia) (svd_rows_ok zero_mem poses points)) as (L & U & M). cbv zeta in *. set (l := smallest _ _) in *. clearbody l.
  exists (head4 l), (drop 4 l). split; [done|]. split; [rewrite drop_length; lia|].
  assert (EV : l = list4 (head4 l) ++ drop 4 l) by (do 4 (destruct l as [|? l]; [done|]); done). split.
  - rewrite EV, ldot_app, ldot_list4 in U by done. done.
  - intros X ss Hs HU. specialize (M (list4 X ++ ss)). rewrite ldot_app, ldot_list4, app_length, Hs in M by done. specialize (M eq_refl HU).
    rewrite !svd_sum in M by (done || by rewrite app_length, Hs). done.
Qed.
Lemma nview_svd_exact smallest poses points X i j P1 P2 p1 p2 c1 c2 v : smallest_contract smallest -> length poses = length points ->
  (forall k P p, poses !! k = Some P -> points !! k = Some p -> image P X p) ->
  poses !! i = Some P1 -> points !! i = Some p1 -> poses !! j = Some P2 -> points !! j = Some p2 ->
  camera_at P1 c1 -> camera_at P2 c2 -> off_baseline X c1 c2 ->
  triangulate_nview_svd smallest zero_mem poses points = Ok v -> exists k, k <> 0 /\ v = scale4 k X.
Proof.
  intros Hc HL HI Pi pi Pj pj C1 C2 HB Hv. destruct (nview_svd_optimal smallest poses points Hc HL) as (v' & ts & E & Lt & U & M). rewrite E in Hv. injection Hv as ->.
  set (ss := map (fun x => view_param x.1 x.2 X) (zip poses points)).
  assert (Ls : length ss = length points) by (unfold ss; rewrite map_length, zip_with_length; lia).
  assert (Z : view_error (zip poses points) ss X = 0).
  { unfold view_error, ss. rewrite (param_at (fun x s => sqdist (mat34_apply x.1 X) (vscale s (point_h x.2))) (fun x => view_cost x.1 x.2 X)) by (intros; apply view_cost_at).
    rewrite (Rsum_ext _ (fun _ => 0)); [rewrite Rsum_const; ring|]. intros [P p] Hx. apply elem_of_list_lookup in Hx as [k Hk]. apply lookup_zip_with_Some in Hk as (? & ? & [= <- <-] & Hk1 & Hk2).
    apply view_cost_zero. by eapply HI. }
  pose proof (off_baseline_pos X c1 c2 HB) as Hp. set (N := dot4 X X + ldot ss ss). assert (HN : 0 < N) by (unfold N; pose proof (ldot_nonneg ss); lra).
  pose proof (sqrt_lt_R0 _ HN) as HsN. set (q := / sqrt N). assert (Hq : q * q * N = 1). { unfold q. rewrite <- (sqrt_sqrt N) at 3 by lra. field. lra. }
  specialize (M (scale4 q X) (lscale q ss)). rewrite lscale_length in M. specialize (M Ls).
  assert (HU : dot4 (scale4 q X) (scale4 q X) + ldot (lscale q ss) (lscale q ss) = 1).
  { rewrite <- Hq. unfold N. rewrite ldot_lscale_r, (ldot_comm (lscale q ss)), ldot_lscale_r. destruct X. unfold dot4, scale4. cbn. ring. }
  specialize (M HU).
  assert (Z' : view_error (zip poses points) (lscale q ss) (scale4 q X) = q * q * view_error (zip poses points) ss X).
  { unfold view_error. clear. rewrite <- Rsum_scale. generalize q ss (zip poses points). clear. intros q ss l. revert ss. induction l as [|x l IH]; intros [|s ss]; try done. cbn [lscale map zip_with]. unfold Rsum in *. cbn [foldr].
    change (map (Rmult q) ss) with (lscale q ss). rewrite IH. cbn [fst snd]. rewrite mat34_apply_scale. f_equal. generalize (mat34_apply x.1 X) (point_h x.2). intros [] []. tcbv. ring. }
  rewrite Z', Z, Rmult_0_r in M.
  assert (Hall : forall k P p, poses !! k = Some P -> points !! k = Some p -> exists s, ts !! k = Some s /\ mat34_apply P v = vscale s (point_h p)).
  { intros k P p HP Hp'. destruct (lookup_lt_is_Some_2 ts k) as [s Hs]; [rewrite Lt; by eapply lookup_lt_Some|]. exists s. split; [done|].
    apply sqdist_zero. assert (Z2 : view_error (zip poses points) ts v = 0).
    { apply Rle_antisym; [done|]. apply Rsum_nonneg. intros x _. unfold sqdist. apply dot_nonneg. }
    unfold view_error in Z2. refine (Rsum_zero _ _ _ Z2 ((P, p), s) _); [intros x _; unfold sqdist; apply dot_nonneg|].
    apply elem_of_list_lookup. exists k. apply lookup_zip_with_Some. exists (P, p), s. split_and!; try done. apply lookup_zip_with_Some. by exists P, p. }
  assert (EX : exists k, v = scale4 k X).
  { destruct (Hall i P1 p1 Pi pi) as (s & _ & E1). destruct (Hall j P2 p2 Pj pj) as (s' & _ & E2).
    apply (image_unique P1 P2 c1 c2 X v p1 p2 C1 C2 HB); [by eapply HI..|by exists s|by exists s']. }
  destruct EX as [k Ek]. exists k. split; [|done]. intros ->.
  assert (Zt : ldot ts ts = 0).
  { assert (Hz : Forall (fun s => s = 0) ts).
    { apply list.Forall_forall. intros s Hs. apply elem_of_list_lookup in Hs as [m Hm]. assert (Lm : (m < length points)%nat) by (rewrite <- Lt; by eapply lookup_lt_Some).
      destruct (lookup_lt_is_Some_2 points m Lm) as [p Hp']. destruct (lookup_lt_is_Some_2 poses m ltac:(lia)) as [P HP]. destruct (Hall m P p HP Hp') as (s' & Hs' & ES).
      rewrite Hm in Hs'. injection Hs' as <-. rewrite Ek in ES. apply (f_equal z3) in ES. rewrite mat34_apply_scale in ES. cbn in ES. lra. }
    clear -Hz. induction Hz as [|s ts -> _ IH]; cbn; [done|]. rewrite IH. ring. }
  rewrite Ek, Zt in U. destruct X. unfold dot4, scale4 in U. cbn in U. lra.
Qed.

(** Memory contents for which an exact triangulation problem gives another point. *)
Definition side_pair : list mat34 := [M34 mid (V3 0 0 0); M34 mid (V3 (-1) 0 0)].
Definition side_points : list vec2 := [V2 0 0; V2 (-1/2) 0].
Definition bad_mem (i j : nat) : R :=
  match i, j with 0%nat, 5%nat => 1 | 1%nat, 5%nat => 1 | 3%nat, 4%nat => 3/2 | 4%nat, 4%nat => 1 | _, _ => 0 end.
Lemma bad_mem_result smallest : smallest_contract smallest ->
  exists k, k <> 0 /\ triangulate_nview_svd smallest bad_mem side_pair side_points = Ok (V4 k k k 0).
Proof.
  intros Hc. assert (ER : svd_rows bad_mem side_pair side_points =
    [[-1 * 1; -1 * 0; -1 * 0; -1 * 0; 0; 1]; [-1 * 0; -1 * 1; -1 * 0; -1 * 0; 0; 1]; [-1 * 0; -1 * 0; -1 * 1; -1 * 0; 1; 0];
     [-1 * 1; -1 * 0; -1 * 0; -1 * -1; 3/2; -1/2]; [-1 * 0; -1 * 1; -1 * 0; -1 * 0; 1; 0]; [-1 * 0; -1 * 0; -1 * 1; -1 * 0; 0; 1]]) by reflexivity.
  unfold triangulate_nview_svd. rewrite bool_decide_true by done. cbn [check mbind outcome_bind or_die length side_points Nat.add]. rewrite ER.
  set (rows := _ :: _) in *. assert (HR : Forall (fun r : list R => length r = 6%nat) rows) by (repeat constructor).
  destruct (Hc 6%nat rows ltac:(lia) HR) as (L & U & _). cbv zeta in *.
  pose proof (smallest_null smallest 6 rows [1;1;1;0;1;1] Hc HR eq_refl ltac:(cbn; lra)) as HN. unfold rows in HN at 1 2.
  assert (HZ : Forall (fun r => ldot r (smallest 6%nat rows) = 0) rows). { apply HN. repeat constructor; cbn; field. } clear HN.
  set (l := smallest 6%nat rows) in *. clearbody l. unfold rows in HZ.
  destruct l as [|a [|b [|c [|w [|s1 [|s2 [|]]]]]]]; try done. rewrite !list.Forall_cons in HZ. destruct HZ as (Z1 & Z2 & Z3 & Z4 & Z5 & Z6 & _). cbn in Z1, Z2, Z3, Z4, Z5, Z6, U.
  assert (a = s2) by lra. assert (b = s2) by lra. assert (c = s1) by lra. assert (s1 = s2) by lra. subst a b c s1. assert (w = 0) by lra. subst w.
  exists s2. split; [|done]. intros ->. lra.
Qed.
