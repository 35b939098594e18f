(** TriangulateNView and TriangulateMidpoint. *)
From stdpp Require Import gmap strings.
From Coq Require Import Reals Lra Psatz.
From Verif Require Import Base Camera_Model Camera_Spec Camera_Proofs RotationGraph_Model RotationGraph_Proofs Alignment_Model Alignment_Spec Alignment_Proofs
  Epipolar_Model Epipolar_Spec Epipolar_Proofs Epipolar_Pose Epipolar_Fund Epipolar_Focal Epipolar_Focal2 LeastSquares_Model LeastSquares_Proofs Triangulation_Model Triangulation_Spec
  Triangulation_Proofs.
Local Open Scope R_scope.

Lemma param_min {A} (f : A -> R -> R) (g : A -> R) (l : list A) (ss : list R) : (forall a s, g a <= f a s) -> length ss = length l ->
  Rsum g l <= Rsum (fun x => f x.1 x.2) (zip l ss).
Proof.
  intros H. revert ss. induction l as [|a l IH]; intros [|s ss] L; cbn in *; try lra; try done. specialize (IH ss ltac:(lia)). specialize (H a s). unfold Rsum in *. lra.
Qed.
Lemma param_at {A} (f : A -> R -> R) (g : A -> R) (t : A -> R) (l : list A) : (forall a, f a (t a) = g a) ->
  Rsum (fun x => f x.1 x.2) (zip l (map t l)) = Rsum g l.
Proof. intros H. induction l as [|a l IH]; [done|]. cbn in *. unfold Rsum in *. by rewrite IH, H. Qed.

(** ** TriangulateNView *)
Definition view_cost (P : mat34) (p : vec2) (X : vec4) : R :=
  let w := mat34_apply P X in let n := normalize (homog p) in dot w w - dot n w * dot n w.
Lemma homog_nonzero p : point_h p <> V3 0 0 0.
Proof. intros E. apply (f_equal z3) in E. cbn in E. lra. Qed.
Lemma homog_unit p : exists m, 0 < m /\ point_h p = vscale m (normalize (homog p)) /\ dot (normalize (homog p)) (normalize (homog p)) = 1.
Proof.
  change (homog p) with (point_h p). rewrite (unit_normalize _ (homog_nonzero p)).
  destruct (unit_of_scale _ (homog_nonzero p)) as (u & Hu & Eu & Hun). exists (/ u). split; [by apply Rinv_0_lt_compat|]. rewrite Eu. split.
  - destruct (point_h p). apply vec3_eq; cbn; field; lra.
  - rewrite <- Hun. generalize (point_h p). intros []. unfold dot, vscale. cbn. ring.
Qed.
Lemma view_cost_sum P p v : length v = 4%nat -> foldr (fun r s => ldot r v * ldot r v + s) 0 (cost_rows P p) = view_cost P p (head4 v).
Proof.
  intros (a & b & c & d & ->)%list4_length. unfold cost_rows, view_cost. destruct (homog_unit p) as (m & _ & _ & Hn). set (n := normalize (homog p)) in *. clearbody n.
  cbv zeta. set (w := mat34_apply P _).
  transitivity (dot w w - (2 - dot n n) * (dot n w * dot n w)); [|rewrite Hn; ring].
  unfold w. clear. destruct n as [n1 n2 n3], P as [[[] [] []] []]. tcbv. ring.
Qed.
Lemma cost_rows_ok P p : Forall (fun r => length r = 4%nat) (cost_rows P p).
Proof. unfold cost_rows. generalize (normalize (homog p)). intros n. destruct P as [[[] [] []] []]. repeat constructor. Qed.
Lemma outer_rows_quad rows A v : sym_ok 4 A -> Forall (fun r => length r = 4%nat) rows -> length v = 4%nat ->
  sym_ok 4 (foldl (fun A r => sym_outer 1 r A) A rows) /\
  sym_quad (foldl (fun A r => sym_outer 1 r A) A rows) v = sym_quad A v + foldr (fun r s => ldot r v * ldot r v + s) 0 rows.
Proof.
  intros HA Hr Hv. revert A HA. induction Hr as [|r rows Hr0 _ IH]; intros A HA; cbn [foldl foldr]; [split; [done|ring]|].
  destruct (IH (sym_outer 1 r A) (sym_outer_ok 4 1 r A Hr0 HA)) as [O E]. split; [done|]. rewrite E, (sym_quad_outer 4) by done. ring.
Qed.
Lemma nview_quad l A v : sym_ok 4 A -> length v = 4%nat ->
  sym_ok 4 (foldl nview_step A l) /\ sym_quad (foldl nview_step A l) v = sym_quad A v + Rsum (fun x => view_cost x.1 x.2 (head4 v)) l.
Proof.
  revert A. induction l as [|[P p] l IH]; intros A HA Hv; cbn [foldl]; [cbn; split; [done|ring]|].
  destruct (outer_rows_quad (cost_rows P p) A v HA (cost_rows_ok P p) Hv) as [O E].
  destruct (IH (nview_step A (P, p)) O Hv) as [O' E']. split; [done|]. rewrite E'. unfold nview_step at 1. cbn [fst snd]. rewrite E, view_cost_sum by done. unfold Rsum. cbn. ring.
Qed.
Lemma view_cost_split P p X s : exists m, 0 < m /\
  sqdist (mat34_apply P X) (vscale s (point_h p)) = view_cost P p X + (s * m - dot (normalize (homog p)) (mat34_apply P X)) * (s * m - dot (normalize (homog p)) (mat34_apply P X)).
Proof.
  unfold view_cost. destruct (homog_unit p) as (m & Hm & E & Hn). set (n := normalize (homog p)) in *. clearbody n. cbv zeta. exists m. split; [done|]. rewrite E. set (w := mat34_apply P X). clearbody w. clear -Hn.
  transitivity (dot w w - 2 * s * m * dot n w + s * s * (m * m) * dot n n); [destruct w, n; tcbv; ring|]. rewrite Hn. ring.
Qed.
Definition view_param (P : mat34) (p : vec2) (X : vec4) : R := dot (point_h p) (mat34_apply P X) / dot (point_h p) (point_h p).
Lemma view_cost_min P p X s : view_cost P p X <= sqdist (mat34_apply P X) (vscale s (point_h p)).
Proof. destruct (view_cost_split P p X s) as (m & _ & ->). match goal with |- _ <= _ + ?r * ?r => pose proof (Rle_0_sqr r) end. unfold Rsqr in *. lra. Qed.
Lemma view_cost_at P p X : sqdist (mat34_apply P X) (vscale (view_param P p X) (point_h p)) = view_cost P p X.
Proof.
  unfold view_cost, view_param. destruct (homog_unit p) as (m & Hm & E & Hn). set (n := normalize (homog p)) in *. clearbody n. cbv zeta. rewrite E. set (w := mat34_apply P X). clearbody w. clear -Hn Hm.
  assert (E1 : dot (vscale m n) w / dot (vscale m n) (vscale m n) = dot n w / m).
  { replace (dot (vscale m n) w) with (m * dot n w) by (destruct n, w; tcbv; ring). replace (dot (vscale m n) (vscale m n)) with (m * m * dot n n) by (destruct n; tcbv; ring). rewrite Hn. field. lra. }
  rewrite E1. set (q := dot n w). transitivity (dot w w - 2 * q * dot n w + q * q * dot n n).
  - clearbody q. destruct w, n. tcbv. field. lra.
  - rewrite Hn. fold q. ring.
Qed.
Lemma view_cost_nonneg P p X : 0 <= view_cost P p X.
Proof. rewrite <- view_cost_at. unfold sqdist. apply dot_nonneg. Qed.
Lemma view_cost_zero P p X : view_cost P p X = 0 <-> image P X p.
Proof.
  split.
  - intros H. exists (view_param P p X). apply sqdist_zero. by rewrite view_cost_at.
  - intros [s E]. pose proof (view_cost_min P p X s) as M. rewrite E in M. pose proof (view_cost_nonneg P p X).
    assert (Z : sqdist (vscale s (point_h p)) (vscale s (point_h p)) = 0) by (destruct p; tcbv; ring). lra.
Qed.
Lemma view_cost_scale P p k X : view_cost P p (scale4 k X) = k * k * view_cost P p X.
Proof. unfold view_cost. rewrite mat34_apply_scale. generalize (normalize (homog p)) (mat34_apply P X). intros [] []. tcbv. ring. Qed.

Lemma nview_optimal eigen poses points : eigen_contract eigen -> length poses = length points ->
  exists v, triangulate_nview eigen poses points = Ok v /\ unit4 v /\
    forall X, unit4 X -> Rsum (fun x => view_cost x.1 x.2 v) (zip poses points) <= Rsum (fun x => view_cost x.1 x.2 X) (zip poses points).
Proof.
  intros Hc HL. unfold triangulate_nview. rewrite bool_decide_true by done. cbn [check mbind outcome_bind or_die].
  set (A := foldl nview_step (sym_zero 4) (zip poses points)).
  destruct (nview_quad (zip poses points) (sym_zero 4) (list4 (V4 0 0 0 0)) (sym_zero_ok 4) eq_refl) as [HA _]. fold A in HA.
  destruct (Hc 4%nat A ltac:(lia) HA) as (L & U & M). cbv zeta in *. set (l := eigen 4%nat A) in *.
  exists (head4 l). split; [done|]. split; [unfold unit4; by rewrite <- ldot_list4, list4_head|].
  intros X HX. specialize (M (list4 X) eq_refl). rewrite ldot_list4 in M. specialize (M HX). unfold A in M.
  rewrite (proj2 (nview_quad _ _ l (sym_zero_ok 4) L)), (proj2 (nview_quad _ _ (list4 X) (sym_zero_ok 4) eq_refl)), !sym_quad_zero, head4_list in M. lra.
Qed.
Lemma nview_exact eigen poses points X i j P1 P2 p1 p2 c1 c2 v : eigen_contract eigen -> length poses = length points ->
  (forall k P p, poses !! k = Some P -> points !! k = Some p -> image P X p) ->
  poses !! i = Some P1 -> points !! i = Some p1 -> poses !! j = Some P2 -> points !! j = Some p2 ->
  camera_at P1 c1 -> camera_at P2 c2 -> off_baseline X c1 c2 ->
  triangulate_nview eigen poses points = Ok v -> same_point v X.
Proof.
  intros Hc HL HI Pi pi Pj pj C1 C2 HB Hv. destruct (nview_optimal eigen poses points Hc HL) as (v' & E & U & M). rewrite E in Hv. injection Hv as ->.
  pose proof (off_baseline_pos X c1 c2 HB) as Hp. specialize (M _ (normalize4 X Hp)).
  assert (Z : Rsum (fun x => view_cost x.1 x.2 (scale4 (/ sqrt (dot4 X X)) X)) (zip poses points) = 0).
  { rewrite (Rsum_ext _ (fun _ => 0)).
    - rewrite Rsum_const. ring.
    - intros [P p] Hx. apply elem_of_list_lookup in Hx as [k Hk]. apply lookup_zip_with_Some in Hk as (? & ? & [= <- <-] & Hk1 & Hk2). cbn [fst snd].
      rewrite view_cost_scale, (proj2 (view_cost_zero P p X)); [ring|by eapply HI]. }
  rewrite Z in M. assert (Z' : Rsum (fun x => view_cost x.1 x.2 v) (zip poses points) = 0).
  { apply Rle_antisym; [done|]. apply Rsum_nonneg. intros x _. apply view_cost_nonneg. }
  assert (Hall : forall x, x ∈ zip poses points -> view_cost x.1 x.2 v = 0).
  { apply (Rsum_zero (fun x => view_cost x.1 x.2 v)); [intros x _; apply view_cost_nonneg|done]. }
  split; [done|]. apply (image_unique P1 P2 c1 c2 X v p1 p2 C1 C2 HB); [by eapply HI..| |]; apply view_cost_zero.
  - apply (Hall (P1, p1)). apply elem_of_list_lookup. exists i. apply lookup_zip_with_Some. by exists P1, p1.
  - apply (Hall (P2, p2)). apply elem_of_list_lookup. exists j. apply lookup_zip_with_Some. by exists P2, p2.
Qed.

(** ** TriangulateMidpoint *)
Definition dir4 (d : vec3) : list R := [x3 d; y3 d; z3 d; 0].
Definition org4 (o : vec3) : list R := [x3 o; y3 o; z3 o; 1].
Lemma sym_apply_shift n k s v : sym_ok n s -> length v = n -> sym_apply (sym_shift k s) v = ladd (sym_apply s v) (lscale k v).
Proof.
  revert n v. induction s as [|a b s IH]; intros [|n] [|x v] H Hv; try done. destruct H as [H1 H2]. cbn in Hv. cbn [sym_shift sym_apply]. rewrite (IH n) by (done || lia).
  assert (Ls : length (sym_apply s v) = n) by (apply sym_apply_length; [done|lia]). assert (Lv : length v = n) by lia.
  cbn [lscale map ladd]. f_equal; [ring|]. clear -Ls Lv H1. generalize dependent (sym_apply s v). intros l Ll. revert b v l H1 Lv Ll.
  induction n as [|n IH]; intros [|b0 b] [|v0 v] [|l0 l] H1 Lv Ll; cbn in *; try done. f_equal; [ring|]. apply IH; lia.
Qed.
Lemma sym_apply_zero n v : length v = n -> sym_apply (sym_zero n) v = replicate n 0.
Proof.
  revert v. induction n as [|n IH]; intros [|x v] H; try done. cbn in *. rewrite ldot_zeros, IH by lia. f_equal; [ring|].
  clear. induction n as [|n IH]; [done|]. cbn. f_equal; [ring|done].
Qed.
Lemma midpoint_term_ok d A : sym_ok 4 A -> sym_ok 4 (midpoint_term d A).
Proof. intros H. apply sym_outer_ok; [done|]. by apply sym_shift_ok. Qed.
Lemma midpoint_term_dot d A u v : sym_ok 4 A -> length u = 4%nat -> length v = 4%nat ->
  ldot u (sym_apply (midpoint_term d A) v) = ldot u (sym_apply A v) + (ldot u v - ldot (dir4 d) u * ldot (dir4 d) v).
Proof.
  intros HA Hu Hv. unfold midpoint_term. pose proof (sym_shift_ok 4 1 A HA) as HS. assert (LA : length (sym_apply A v) = 4%nat) by (by apply sym_apply_length).
  rewrite (sym_apply_outer 4) by done. rewrite ldot_ladd_r by (rewrite (sym_apply_length 4), lscale_length; done).
  rewrite (sym_apply_shift 4) by done. rewrite ldot_ladd_r by (rewrite LA, lscale_length; done). rewrite !ldot_lscale_r. fold (dir4 d). rewrite (ldot_comm u (dir4 d)). ring.
Qed.
Lemma midpoint_system rays A b : sym_ok 4 A -> length b = 4%nat ->
  let '(A', b') := foldl midpoint_step (A, b) rays in
  sym_ok 4 A' /\ length b' = 4%nat /\
  forall u v, length u = 4%nat -> length v = 4%nat ->
    ldot u (sym_apply A' v) = ldot u (sym_apply A v) + Rsum (fun r => ldot u v - ldot (dir4 r.2) u * ldot (dir4 r.2) v) rays /\
    ldot u b' = ldot u b + Rsum (fun r => ldot u (org4 r.1) - ldot (dir4 r.2) u * ldot (dir4 r.2) (org4 r.1)) rays.
Proof.
  revert A b. induction rays as [|[o d] rays IH]; intros A b HA Hb.
  { cbn. split; [done|]. split; [done|]. intros; split; ring. }
  assert (LT : length (sym_apply (midpoint_term d (sym_zero 4)) (org4 o)) = 4%nat) by (apply sym_apply_length; [apply midpoint_term_ok, sym_zero_ok|done]).
  cbn [foldl]. change (midpoint_step (A, b) (o, d)) with (midpoint_term d A, ladd b (sym_apply (midpoint_term d (sym_zero 4)) (org4 o))).
  specialize (IH (midpoint_term d A) (ladd b (sym_apply (midpoint_term d (sym_zero 4)) (org4 o))) (midpoint_term_ok d A HA)).
  destruct (foldl midpoint_step _ rays) as [A' b']. destruct IH as (OA & Lb & H); [rewrite ladd_length; [done|by rewrite LT]|]. split; [done|]. split; [done|].
  intros u v Hu Hv. destruct (H u v Hu Hv) as [H1 H2]. rewrite H1, H2. rewrite midpoint_term_dot by done. split.
  - unfold Rsum. cbn. ring.
  - rewrite ldot_ladd_r by (by rewrite LT). rewrite midpoint_term_dot by (done || apply sym_zero_ok). rewrite sym_apply_zero by done. rewrite (ldot_comm u (replicate 4 0)), ldot_zeros. unfold Rsum. cbn [foldr fst snd]. ring.
Qed.

Definition ray_cost (r : vec3 * vec3) (p : vec3) : R := let v := vsub p r.1 in dot v v - dot r.2 v * dot r.2 v.
Lemma ray_cost_split o d p s : dot d d = 1 -> sqdist p (vadd o (vscale s d)) = ray_cost (o, d) p + (s - dot d (vsub p o)) * (s - dot d (vsub p o)).
Proof.
  intros H. unfold ray_cost. cbn [fst snd]. transitivity (dot (vsub p o) (vsub p o) - 2 * s * dot d (vsub p o) + s * s * dot d d); [destruct o, d, p; tcbv; ring|]. rewrite H. ring.
Qed.
Lemma perp_cost d v : dot d d = 1 -> dot v v - dot d v * dot d v = dot (cross v d) (cross v d).
Proof. intros H. transitivity (dot v v * dot d d - dot d v * dot d v); [rewrite H; ring|destruct d, v; tcbv; ring]. Qed.

Lemma midpoint_cases (rays : list (vec3 * vec3)) : (2 <= length rays)%nat -> Forall (fun r => dot r.2 r.2 = 1) rays ->
  match triangulate_midpoint (map fst rays) (map snd rays) with
  | Ok None => parallel_rays (map snd rays)
  | Ok (Some v) => exists p, v = V4 (x3 p) (y3 p) (z3 p) 1 /\ ~ parallel_rays (map snd rays) /\
      forall q, Rsum (fun r => ray_cost r q) rays = Rsum (fun r => ray_cost r p) rays + Rsum (fun r => dot (cross (vsub q p) r.2) (cross (vsub q p) r.2)) rays
  | _ => False
  end.
Proof.
  intros HL HU. unfold triangulate_midpoint. rewrite !map_length, !bool_decide_true by done. cbn [check mbind outcome_bind or_die].
  assert (EZ : zip (map fst rays) (map snd rays) = rays). { clear. induction rays as [|[o d] rays IH]; [done|]. cbn. by f_equal. }
  rewrite EZ. pose proof (midpoint_system rays (sym_zero 4) (replicate 4 0) (sym_zero_ok 4) eq_refl) as HS.
  destruct (foldl midpoint_step _ rays) as [A b]. destruct HS as (OA & Lb & HS).
  assert (HA : forall u v, length u = 4%nat -> length v = 4%nat -> ldot u (sym_apply A v) = Rsum (fun r => ldot u v - ldot (dir4 r.2) u * ldot (dir4 r.2) v) rays).
  { intros u v Hu Hv. destruct (HS u v Hu Hv) as [-> _]. rewrite sym_apply_zero by done. rewrite (ldot_comm u (replicate 4 0)), ldot_zeros. ring. }
  assert (Hb : forall u, length u = 4%nat -> ldot u b = Rsum (fun r => ldot u (org4 r.1) - ldot (dir4 r.2) u * ldot (dir4 r.2) (org4 r.1)) rays).
  { intros u Hu. destruct (HS u u Hu Hu) as [_ ->]. rewrite (ldot_comm u (replicate 4 0)), ldot_zeros. ring. }
  clear HS EZ.
  assert (HQ : forall v w, sym_quad A [x3 v; y3 v; z3 v; w] = INR (length rays) * (w * w) + Rsum (fun r => dot (cross v r.2) (cross v r.2)) rays).
  { intros v w. rewrite (sym_quad_apply 4) by done. rewrite HA by done. rewrite <- Rsum_const, <- Rsum_plus. apply Rsum_ext. intros [o d] Hr. rewrite list.Forall_forall in HU. specialize (HU _ Hr). cbn [snd] in *.
    rewrite <- (perp_cost d v HU). destruct d, v. unfold dir4. tcbv. ring. }
  assert (HN : 0 < INR (length rays)) by (apply lt_0_INR; lia).
  assert (HPar : sym_pd 4 A <-> ~ parallel_rays (map snd rays)).
  { split.
    - intros Pd (v & Nv & Hv). specialize (Pd [x3 v; y3 v; z3 v; 0] eq_refl). rewrite HQ in Pd. pose proof (dot_pos' v Nv) as Pv.
      assert (Z : Rsum (fun r => dot (cross v r.2) (cross v r.2)) rays = 0).
      { rewrite (Rsum_ext _ (fun _ => 0)); [rewrite Rsum_const; ring|]. intros r Hr. rewrite list.Forall_forall in Hv. rewrite (Hv r.2) by (by apply elem_of_list_fmap_1). unfold dot. cbn. ring. }
      rewrite Z in Pd. assert (0 < INR (length rays) * (0 * 0) + 0); [|lra]. apply Pd. unfold dot in Pv. cbn. lra.
    - intros NP l Hl Pl. apply list4_length in Hl as (x & y & z & w & ->). specialize (HQ (V3 x y z) w). cbn [x3 y3 z3] in HQ. rewrite HQ.
      set (v := V3 x y z) in *. assert (HS : 0 <= Rsum (fun r => dot (cross v r.2) (cross v r.2)) rays) by (apply Rsum_nonneg; intros; apply dot_nonneg).
      pose proof (Rle_0_sqr w) as Hw. unfold Rsqr in Hw. assert (0 <= INR (length rays) * (w * w)) by (apply Rmult_le_pos; lra).
      destruct (Rle_lt_or_eq_dec _ _ HS) as [|Z]; [lra|]. destruct (Rle_lt_or_eq_dec _ _ Hw) as [Pw|Zw].
      + assert (0 < INR (length rays) * (w * w)) by (by apply Rmult_lt_0_compat). lra.
      + exfalso. apply NP. exists v. split.
        * intros E. injection E as -> -> ->. cbn in Pl. lra.
        * apply list.Forall_forall. intros d Hd. apply elem_of_list_fmap in Hd as (r & -> & Hr). symmetry in Z.
          pose proof (Rsum_zero _ rays ltac:(intros; apply dot_nonneg) Z r Hr) as Z'. cbn beta in Z'. unfold dot in Z'. apply sumsq0 in Z'. destruct Z' as (Z1 & Z2 & Z3). by apply vec3_eq. }
  pose proof (llt_correct 4 A b OA Lb) as HC. destruct (llt_solve 4 A b) as [l|]; cbn [fmap option_fmap option_map].
  2:{ apply Classical_Prop.NNPP. intros NP. apply HC. by apply HPar. }
  destruct HC as (Ll & El & Pd). apply list4_length in Ll as (x & y & z & w & ->).
  assert (Hw : w = 1).
  { pose proof (HA [0;0;0;1] [x;y;z;w] eq_refl eq_refl) as H1. rewrite El, (Hb [0;0;0;1] eq_refl) in H1.
    assert (E1 : Rsum (fun r : vec3 * vec3 => ldot [0;0;0;1] (org4 r.1) - ldot (dir4 r.2) [0;0;0;1] * ldot (dir4 r.2) (org4 r.1)) rays = INR (length rays) * 1).
    { rewrite <- Rsum_const. apply Rsum_ext. intros [o d] _. unfold dir4, org4. tcbv. ring. }
    assert (E2 : Rsum (fun r : vec3 * vec3 => ldot [0;0;0;1] [x;y;z;w] - ldot (dir4 r.2) [0;0;0;1] * ldot (dir4 r.2) [x;y;z;w]) rays = INR (length rays) * w).
    { rewrite <- Rsum_const. apply Rsum_ext. intros [o d] _. unfold dir4, org4. tcbv. ring. }
    rewrite E1, E2 in H1. apply (Rmult_eq_reg_l (INR (length rays))); lra. }
  subst w. exists (V3 x y z). split; [done|]. split; [by apply HPar|]. intros q.
  set (p := V3 x y z). set (e := vsub q p).
  assert (Hlin : Rsum (fun r => dot e (vsub p r.1) - dot r.2 e * dot r.2 (vsub p r.1)) rays = 0).
  { pose proof (HA [x3 e; y3 e; z3 e; 0] [x;y;z;1] eq_refl eq_refl) as H1. rewrite El, (Hb [x3 e; y3 e; z3 e; 0] eq_refl) in H1.
    assert (E : Rsum (fun r => dot e (vsub p r.1) - dot r.2 e * dot r.2 (vsub p r.1)) rays =
      Rsum (fun r => ldot [x3 e; y3 e; z3 e; 0] [x; y; z; 1] - ldot (dir4 r.2) [x3 e; y3 e; z3 e; 0] * ldot (dir4 r.2) [x; y; z; 1]) rays +
      -1 * Rsum (fun r => ldot [x3 e; y3 e; z3 e; 0] (org4 r.1) - ldot (dir4 r.2) [x3 e; y3 e; z3 e; 0] * ldot (dir4 r.2) (org4 r.1)) rays).
    { rewrite <- Rsum_scale, <- Rsum_plus. apply Rsum_ext. intros [o d] _. clearbody e. destruct e, o, d. unfold p, dir4, org4. tcbv. ring. }
    rewrite E, H1. ring. }
  assert (E : Rsum (fun r => ray_cost r q) rays = Rsum (fun r => ray_cost r p + (2 * (dot e (vsub p r.1) - dot r.2 e * dot r.2 (vsub p r.1)) + dot (cross e r.2) (cross e r.2))) rays).
  { apply Rsum_ext. intros [o d] Hr. rewrite list.Forall_forall in HU. specialize (HU _ Hr). cbn [fst snd] in *. rewrite <- (perp_cost d e HU). unfold ray_cost, e, p. cbn [fst snd].
    clear. destruct o, d, q. tcbv. ring. }
  rewrite E, !Rsum_plus, Rsum_scale, Hlin. ring.
Qed.
