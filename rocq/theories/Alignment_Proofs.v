(** Proofs about alignment. *)
From stdpp Require Import gmap strings.
From Coq Require Import Reals Lra Psatz Nsatz.
From Verif Require Import Base Reconstruction_Model Camera_Model Camera_Proofs RotationGraph_Spec RotationGraph_Proofs Alignment_Model Alignment_Spec.
Local Open Scope R_scope.

(** * Sums *)
Lemma Rsum_plus {A} (f g : A -> R) l : Rsum (fun a => f a + g a) l = Rsum f l + Rsum g l.
Proof. induction l as [|a l IH]; cbn; [ring|]. unfold Rsum in *. rewrite IH. ring. Qed.
Lemma Rsum_scale {A} k (f : A -> R) l : Rsum (fun a => k * f a) l = k * Rsum f l.
Proof. induction l as [|a l IH]; cbn; [ring|]. unfold Rsum in *. rewrite IH. ring. Qed.
Lemma Rsum_ext {A} (f g : A -> R) l : (forall a, a ∈ l -> f a = g a) -> Rsum f l = Rsum g l.
Proof.
  induction l as [|a l IH]; intros H; cbn; [done|]. unfold Rsum in IH. rewrite IH, H; [done|by left|].
  intros b Hb. apply H. by right.
Qed.
Lemma Rsum_nonneg {A} (f : A -> R) l : (forall a, a ∈ l -> 0 <= f a) -> 0 <= Rsum f l.
Proof.
  induction l as [|a l IH]; intros H; cbn; [lra|].
  assert (H1 := H a (elem_of_list_here _ _)). assert (H2 := IH (fun y Hy => H y (elem_of_list_further _ _ _ Hy))).
  unfold Rsum in H2. lra.
Qed.
Lemma Rsum_zero {A} (f : A -> R) l : (forall a, a ∈ l -> 0 <= f a) -> Rsum f l = 0 -> forall a, a ∈ l -> f a = 0.
Proof.
  induction l as [|b l IH]; intros H E a Ha; [by apply elem_of_nil in Ha|]. cbn in E.
  assert (H1 := H b (elem_of_list_here _ _)).
  assert (H2 := Rsum_nonneg f l (fun y Hy => H y (elem_of_list_further _ _ _ Hy))). unfold Rsum in H2.
  apply elem_of_cons in Ha as [->|Ha]; [lra|].
  apply IH; [|unfold Rsum; lra|done]. intros y Hy. apply H. by right.
Qed.
Lemma Rsum_pos {A} (f : A -> R) l : (forall a, a ∈ l -> 0 <= f a) -> (exists a, a ∈ l /\ 0 < f a) -> 0 < Rsum f l.
Proof.
  intros H (a & Ha & Hp). pose proof (Rsum_nonneg f l H) as H0.
  destruct (Rle_lt_or_eq_dec _ _ H0) as [?|E]; [done|]. symmetry in E. pose proof (Rsum_zero f l H E a Ha). lra.
Qed.

(** * Vectors *)
Lemma vec3_eq (a b : vec3) : x3 a = x3 b -> y3 a = y3 b -> z3 a = z3 b -> a = b.
Proof. destruct a as [a1 a2 a3], b as [b1 b2 b3]. cbn. intros -> -> ->. done. Qed.
Lemma sqdist_zero a b : sqdist a b = 0 -> a = b.
Proof. unfold sqdist, dot, vsub. cbn. intros H. apply sumsq0 in H. destruct H as (H1 & H2 & H3). apply vec3_eq; lra. Qed.
Lemma dot_mapply M a b : dot (mapply M a) b = dot a (mapply (mtrans M) b).
Proof. unfold dot, mapply, mtrans, dot. cbn. ring. Qed.
Lemma orthogonal_l M : orthogonal M -> mmul (mtrans M) M = mid.
Proof.
  intros H. assert (HD : det3 M * det3 M = 1).
  { rewrite <- (det3_mtrans M) at 2. rewrite <- det3_mmul, H. unfold det3, mid. ring. }
  assert (HA : mscale (det3 M) (mtrans M) = adj M).
  { assert (E : mmul (adj M) (mmul M (mtrans M)) = adj M) by (rewrite H; apply mmul_id_r).
    rewrite <- mmul_assoc, adj_l, mmul_mscale_l, mmul_id_l in E. done. }
  rewrite <- (mscale_1 (mmul _ _)), <- HD.
  replace (mscale (det3 M * det3 M) (mmul (mtrans M) M)) with (mscale (det3 M) (mmul (mscale (det3 M) (mtrans M)) M)).
  - rewrite HA, adj_l. transitivity (mscale (det3 M * det3 M) mid); [|by rewrite HD, mscale_1].
    unfold mscale, vscale, mid. cbn. f_equal; f_equal; ring.
  - rewrite mmul_mscale_l. unfold mscale, vscale. cbn. f_equal; f_equal; ring.
Qed.
Lemma orthogonal_det M : orthogonal M -> det3 M * det3 M = 1.
Proof. intros H. rewrite <- (det3_mtrans M) at 2. rewrite <- det3_mmul, H. unfold det3, mid. ring. Qed.
Lemma orthogonal_trans M : orthogonal M -> orthogonal (mtrans M).
Proof. intros H. unfold orthogonal. rewrite mtrans_mtrans. by apply orthogonal_l. Qed.
Lemma orthogonal_mmul A B : orthogonal A -> orthogonal B -> orthogonal (mmul A B).
Proof.
  intros HA HB. unfold orthogonal. rewrite mtrans_mmul, mmul_assoc, <- (mmul_assoc B), HB, mmul_id_l. done.
Qed.
Lemma rotation_orthogonal M : rotation M -> orthogonal M.
Proof. by intros [H _]. Qed.
Lemma orthogonal_norm M a : orthogonal M -> dot (mapply M a) (mapply M a) = dot a a.
Proof. intros H. rewrite dot_mapply, <- mapply_mmul, (orthogonal_l M H), mapply_id. done. Qed.

Lemma orthogonal_entries M : orthogonal M -> x3 (row0 M) <= 1 /\ y3 (row1 M) <= 1 /\ z3 (row2 M) <= 1.
Proof.
  destruct M as [[a b c] [d e f] [g h i]]. unfold orthogonal, mmul, mtrans, mapply, dot, mid. cbn.
  intros H. injection H as H1 _ _ _ H2 _ _ _ H3.
  split; [|split]; apply (unit_entry _ _ _ ltac:(eassumption)) || nra.
Qed.
Lemma rotation_trace M : rotation M -> -1 <= x3 (row0 M) + y3 (row1 M) + z3 (row2 M).
Proof.
  intros H. pose proof (trace_rot_of_aa (aa_of_rot M)) as E. rewrite (aa_of_rot_conv M H) in E. unfold trace in E.
  rewrite E. pose proof (COS_bound (norm3 (aa_of_rot M))) as [HB _]. lra.
Qed.
Lemma mopp_rotation M : orthogonal M -> det3 M = -1 -> rotation (mscale (-1) M).
Proof.
  intros H D. split.
  - rewrite <- H. destruct M as [[a b c] [d e f] [g h i]]. unfold mmul, mtrans, mapply, mscale, vscale, dot. cbn.
    f_equal; f_equal; ring.
  - destruct M as [[a b c] [d e f] [g h i]]. unfold det3, mscale, vscale in *. cbn in *. lra.
Qed.
Lemma reflection_trace M : orthogonal M -> det3 M = -1 -> x3 (row0 M) + y3 (row1 M) + z3 (row2 M) <= 1.
Proof.
  intros H D. pose proof (rotation_trace _ (mopp_rotation M H D)) as HT.
  unfold mscale, vscale in HT. cbn [row0 row1 row2 x3 y3 z3] in HT. lra.
Qed.

(** * The best rotation for given singular values *)
Definition frob (A B : mat3) : R := dot (row0 A) (row0 B) + dot (row1 A) (row1 B) + dot (row2 A) (row2 B).

Lemma frob_svd Rot U V s0 s1 s2 :
  let Q := mmul (mmul (mtrans U) Rot) V in
  frob Rot (mmul (mmul U (diag3 s0 s1 s2)) (mtrans V)) = x3 (row0 Q) * s0 + y3 (row1 Q) * s1 + z3 (row2 Q) * s2.
Proof.
  destruct Rot as [[a b c] [d e f] [g h i]], U as [[u1 u2 u3] [u4 u5 u6] [u7 u8 u9]], V as [[v1 v2 v3] [v4 v5 v6] [v7 v8 v9]].
  unfold frob, mmul, mtrans, mapply, dot, diag3. cbn. ring.
Qed.

Lemma trace_bound Q s0 s1 s2 : orthogonal Q -> 0 <= s2 <= s1 -> s1 <= s0 -> 
  x3 (row0 Q) * s0 + y3 (row1 Q) * s1 + z3 (row2 Q) * s2 <= s0 + s1 + (if Rgt_dec (det3 Q) 0 then 1 else -1) * s2.
Proof.
  intros H H2 H1. pose proof (orthogonal_entries Q H) as (E0 & E1 & E2). destruct (Rgt_dec _ _) as [G|G].
  - nra.
  - assert (D : det3 Q = -1). { pose proof (orthogonal_det Q H). nra. }
    pose proof (reflection_trace Q H D) as HT. set (p := x3 (row0 Q)) in *. set (q := y3 (row1 Q)) in *. set (r := z3 (row2 Q)) in *.
    assert (A1 : s2 * (p + q + r) <= s2 * 1) by (apply Rmult_le_compat_l; lra).
    assert (A2 : (s1 - s2) * (p + q) <= (s1 - s2) * 2) by (apply Rmult_le_compat_l; lra).
    assert (A3 : (s0 - s1) * p <= (s0 - s1) * 1) by (apply Rmult_le_compat_l; lra). lra.
Qed.

Lemma best_rotation A U sv V : is_svd A (U, sv, V) ->
  let s22 := if Rgt_dec (det3 U * det3 (mtrans V)) 0 then 1 else -1 in
  let Rot := mmul (mmul U (diag3 1 1 s22)) (mtrans V) in
  rotation Rot /\ frob Rot A = x3 sv + y3 sv + s22 * z3 sv /\ 0 <= frob Rot A /\
  forall Rot', rotation Rot' -> frob Rot' A <= frob Rot A.
Proof.
  intros (HU & HV & H2 & H1 & HA) s22 Rot.
  assert (Hs : s22 * s22 = 1) by (unfold s22; destruct (Rgt_dec _ _); ring).
  assert (HD : orthogonal (diag3 1 1 s22)).
  { unfold orthogonal, diag3, mmul, mtrans, mapply, dot, mid. cbn. f_equal; f_equal; lra. }
  assert (HR : orthogonal Rot) by (apply orthogonal_mmul; [by apply orthogonal_mmul|by apply orthogonal_trans]).
  assert (Hd : det3 U * det3 (mtrans V) * s22 = 1).
  { assert (E : (det3 U * det3 (mtrans V)) * (det3 U * det3 (mtrans V)) = 1).
    { pose proof (orthogonal_det U HU) as E1. pose proof (orthogonal_det _ (orthogonal_trans V HV)) as E2. nra. }
    unfold s22. destruct (Rgt_dec _ _) as [G|G]; nra. }
  assert (Hrot : rotation Rot).
  { split; [done|]. unfold Rot. rewrite !det3_mmul.
    replace (det3 (diag3 1 1 s22)) with s22 by (unfold det3, diag3; ring). lra. }
  assert (Hf : frob Rot A = x3 sv + y3 sv + s22 * z3 sv).
  { rewrite HA, frob_svd.
    replace (mmul (mmul (mtrans U) Rot) V) with (diag3 1 1 s22); [unfold diag3; cbn; ring|].
    unfold Rot. rewrite <- !mmul_assoc, (orthogonal_l U HU), mmul_id_l, mmul_assoc, (orthogonal_l V HV), mmul_id_r. done. }
  split; [done|]. split; [done|]. split.
  { rewrite Hf. unfold s22. destruct (Rgt_dec _ _); lra. }
  intros Rot' HR'. rewrite Hf. rewrite HA, frob_svd.
  eapply Rle_trans; [apply trace_bound; [|done|done]|].
  - apply orthogonal_mmul; [|done]. apply orthogonal_mmul; [by apply orthogonal_trans|by apply rotation_orthogonal].
  - rewrite !det3_mmul. destruct HR' as [_ ->]. rewrite Rmult_1_r. unfold s22. rewrite !det3_mtrans. lra.
Qed.

(** * Splitting the misfit *)
Lemma move_dist Rot s t lc rc l r : orthogonal Rot ->
  let e := vsub rc (move s Rot t lc) in
  sqdist r (move s Rot t l) =
    sqdist r rc - 2 * s * dot (vsub r rc) (mapply Rot (vsub l lc)) + s * s * dot (vsub l lc) (vsub l lc)
    + 2 * dot e (vsub r rc) - 2 * s * dot e (mapply Rot (vsub l lc)) + dot e e.
Proof.
  intros H e. rewrite <- (orthogonal_norm Rot (vsub l lc) H). unfold e, move, sqdist.
  rewrite mapply_vsub. set (a := mapply Rot l). set (b := mapply Rot lc). clearbody a b.
  unfold dot, vsub, vadd, vscale. cbn. ring.
Qed.

Notation triple := (vec3 * vec3 * R)%type.
Implicit Types ps : list triple.

Lemma frob_outer Rot a b w : frob Rot (outer (vscale w a) b) = w * dot a (mapply Rot b).
Proof. destruct Rot as [[a1 b1 c1] [d e f] [g h i]]. unfold frob, outer, mapply, dot, vscale. cbn. ring. Qed.
Lemma frob_madd Rot A B : frob Rot (madd A B) = frob Rot A + frob Rot B.
Proof. unfold frob, madd, vadd, dot. cbn. ring. Qed.
Lemma frob_mscale Rot k A : frob Rot (mscale k A) = k * frob Rot A.
Proof. unfold frob, mscale, vscale, dot. cbn. ring. Qed.
Lemma frob_mtrans Rot A : frob Rot (mtrans A) = frob (mtrans Rot) A.
Proof. unfold frob, mtrans, dot. cbn. ring. Qed.

Lemma sigma_loop_sum lc ps : sigma_loop lc ps = Rsum (fun p => p.2 * sqdist p.1.1 lc) ps.
Proof.
  unfold sigma_loop. assert (H : forall s0, foldl (fun s (p : triple) => let '(l, _, w) := p in s + dot (vsub l lc) (vsub l lc) * w) s0 ps
    = s0 + Rsum (fun p => p.2 * sqdist p.1.1 lc) ps).
  { induction ps as [|[[l r] w] ps IH]; intros s0; cbn; [ring|]. rewrite IH. unfold Rsum, sqdist. cbn [fst snd]. ring. }
  rewrite H. ring.
Qed.
Lemma cross_loop_sum lc rc ps Rot :
  frob Rot (mtrans (cross_loop lc rc ps)) = Rsum (fun p => p.2 * dot (vsub p.1.2 rc) (mapply Rot (vsub p.1.1 lc))) ps.
Proof.
  rewrite frob_mtrans. unfold cross_loop.
  assert (H : forall m0, frob (mtrans Rot) (foldl (fun m (p : triple) => let '(l, r, w) := p in madd m (outer (vscale w (vsub l lc)) (vsub r rc))) m0 ps)
    = frob (mtrans Rot) m0 + Rsum (fun p => p.2 * dot (vsub p.1.2 rc) (mapply Rot (vsub p.1.1 lc))) ps).
  { induction ps as [|[[l r] w] ps IH]; intros m0; [cbn; ring|]. cbn [foldl]. rewrite IH, frob_madd, frob_outer. unfold Rsum. cbn [foldr fst snd].
    replace (dot (vsub l lc) (mapply (mtrans Rot) (vsub r rc))) with (dot (vsub r rc) (mapply Rot (vsub l lc))); [ring|].
    rewrite <- dot_mapply. unfold dot. ring. }
  rewrite H. unfold frob, mzero, dot. cbn. ring.
Qed.

Lemma centroid_loop ps st : (Forall (fun p => 0 <= p.2) ps ->
    exists ws lc rc, run_steps centroid_step st ps = Ok (ws, lc, rc) /\ ws = st.1.1 + Rsum snd ps /\
      (forall e, dot e lc = dot e st.1.2 + Rsum (fun p => p.2 * dot e p.1.1) ps) /\
      (forall e, dot e rc = dot e st.2 + Rsum (fun p => p.2 * dot e p.1.2) ps)) /\
  (~ Forall (fun p => 0 <= p.2) ps -> run_steps centroid_step st ps = CheckFail).
Proof.
  revert st. induction ps as [|[[l r] w] ps IH]; intros [[ws lc] rc].
  - split; [|intros H; by destruct H]. intros _. exists ws, lc, rc. split; [done|]. cbn. split; [ring|]. split; intros; ring.
  - cbn [run_steps]. assert (E : centroid_step (ws, lc, rc) (l, r, w) =
      if Rge_dec w 0 then Ok (ws + w, vadd lc (vscale w l), vadd rc (vscale w r)) else CheckFail) by done.
    rewrite E. destruct (Rge_dec w 0) as [Hw|Hw].
    + cbn [mbind outcome_bind]. destruct (IH (ws + w, vadd lc (vscale w l), vadd rc (vscale w r))) as [IH1 IH2]. split.
      * intros [_ H]%list.Forall_cons. destruct (IH1 H) as (ws' & lc' & rc' & E' & H1 & H2 & H3). exists ws', lc', rc'.
        split; [done|]. cbn [fst snd] in *. unfold Rsum in *. cbn [foldr fst snd]. split; [rewrite H1; ring|].
        split; intros e; [rewrite H2|rewrite H3]; unfold dot, vadd, vscale; cbn [x3 y3 z3]; ring.
      * intros H. apply IH2. intros H'. apply H. constructor; [cbn; lra|done].
    + split; [|done]. intros [H _]%list.Forall_cons. cbn in H. lra.
Qed.

Lemma dot_comm a b : dot a b = dot b a.
Proof. unfold dot. ring. Qed.
Lemma dot_vscale e k a : dot e (vscale k a) = k * dot e a.
Proof. unfold dot, vscale. cbn. ring. Qed.

(** The misfit is the sum of a part that only depends on where the centroid goes and one that only depends on scale and
    rotation. *)
Lemma misfit_split ps lc rc ws : ws = Rsum snd ps -> ws <> 0 ->
  (forall e, dot e lc = / ws * Rsum (fun p => p.2 * dot e p.1.1) ps) ->
  (forall e, dot e rc = / ws * Rsum (fun p => p.2 * dot e p.1.2) ps) ->
  forall s Rot t, orthogonal Rot -> let e := vsub rc (move s Rot t lc) in
  misfit ps s Rot t = ws * dot e e + Rsum (fun p => p.2 * sqdist p.1.2 rc) ps
    - 2 * s * frob Rot (mtrans (cross_loop lc rc ps)) + s * s * sigma_loop lc ps.
Proof.
  intros Hws Hnz Hl Hr s Rot t HR e. rewrite cross_loop_sum, sigma_loop_sum. unfold misfit.
  transitivity (Rsum (fun p : triple => p.2 * sqdist p.1.2 rc + (- 2 * s) * (p.2 * dot (vsub p.1.2 rc) (mapply Rot (vsub p.1.1 lc)))
     + (s * s) * (p.2 * sqdist p.1.1 lc) + 2 * (p.2 * dot e (vsub p.1.2 rc)) + (- 2 * s) * (p.2 * dot e (mapply Rot (vsub p.1.1 lc)))
     + dot e e * p.2) ps).
  { apply Rsum_ext. intros p _. rewrite (move_dist Rot s t lc rc) by done. fold e. unfold sqdist. ring. }
  rewrite !Rsum_plus, !Rsum_scale.
  assert (Z1 : Rsum (fun p : triple => p.2 * dot e (vsub p.1.2 rc)) ps = 0).
  { transitivity (Rsum (fun p : triple => p.2 * dot e p.1.2 + (- dot e rc) * p.2) ps).
    { apply Rsum_ext. intros p _. unfold dot, vsub. cbn. ring. }
    rewrite Rsum_plus, Rsum_scale. change (Rsum (fun a : triple => a.2) ps) with (Rsum snd ps). rewrite <- Hws, (Hr e). field. done. }
  assert (Z2 : Rsum (fun p : triple => p.2 * dot e (mapply Rot (vsub p.1.1 lc))) ps = 0).
  { set (e' := mapply (mtrans Rot) e).
    transitivity (Rsum (fun p : triple => p.2 * dot e' p.1.1 + (- dot e' lc) * p.2) ps).
    { apply Rsum_ext. intros p _. rewrite (dot_comm e), dot_mapply. fold e'. unfold dot, vsub. cbn. ring. }
    rewrite Rsum_plus, Rsum_scale. change (Rsum (fun a : triple => a.2) ps) with (Rsum snd ps). rewrite <- Hws, (Hl e'). field. done. }
  rewrite Z1, Z2. change (Rsum (fun a : triple => a.2) ps) with (Rsum snd ps). rewrite <- Hws. ring.
Qed.

(** * The alignment *)
Lemma zip_weights (left right : list vec3) (weights : list R) : length left = length right -> length left = length weights ->
  (Forall (fun p : triple => 0 <= p.2) (zip (zip left right) weights) <-> Forall (fun w => 0 <= w) weights).
Proof.
  intros H1 H2. assert (E : (zip (zip left right) weights).*2 = weights) by (apply snd_zip; rewrite zip_with_length_l_eq; lia).
  rewrite <- E at 2. rewrite Forall_fmap. done.
Qed.
Lemma zip_sum (left right : list vec3) (weights : list R) : length left = length right -> length left = length weights ->
  Rsum snd (zip (zip left right) weights) = Rsum id weights.
Proof.
  intros H1 H2. assert (E : (zip (zip left right) weights).*2 = weights) by (apply snd_zip; rewrite zip_with_length_l_eq; lia).
  rewrite <- E at 2. generalize (zip (zip left right) weights). clear. intros qs. induction qs as [|p qs IH]; [done|]. cbn. unfold Rsum in IH. by rewrite IH.
Qed.

Lemma align_unfold svd left right weights : length left = length right -> length left = length weights -> left <> [] ->
  align_weighted svd left right weights =
    let ps := zip (zip left right) weights in
    '(ws, lsum, rsum) ← run_steps centroid_step (0, V3 0 0 0, V3 0 0 0) ps;
    if Rgt_dec ws 0 then
      let lc := vscale (/ ws) lsum in
      let rc := vscale (/ ws) rsum in
      let sigma := sigma_loop lc ps / ws in
      let correlation := mscale (/ ws) (cross_loop lc rc ps) in
      let '(U, sv, V) := svd (mtrans correlation) in
      let det := det3 U * det3 (mtrans V) in
      let s22 := if Rgt_dec det 0 then 1 else -1 in
      if Req_EM_T sigma 0 then Ok None
      else
        let scale := (x3 sv + y3 sv + s22 * z3 sv) / sigma in
        let rotation := mmul (mmul U (diag3 1 1 s22)) (mtrans V) in
        let translation := vsub rc (mapply (mscale scale rotation) lc) in
        Ok (Some (Similarity rotation translation scale))
    else CheckFail.
Proof.
  intros E1 E2 Hne. unfold align_weighted. rewrite (decide_True _ _ E1), (decide_True _ _ E2). by destruct left.
Qed.

Section align.
Context (svd : mat3 -> mat3 * vec3 * mat3) (left right : list vec3) (weights : list R).
Let ps := zip (zip left right) weights.

Lemma align_abort : ~ alignable left right weights -> align_weighted svd left right weights =
  (if decide (length left = length right /\ length left = length weights /\ left = []) then UB else CheckFail).
Proof.
  intros H. destruct (decide (length left = length right)) as [E1|E1].
  2: { unfold align_weighted. rewrite (decide_False _ _ E1). destruct (decide _) as [[? _]|_]; done. }
  destruct (decide (length left = length weights)) as [E2|E2].
  2: { unfold align_weighted. rewrite (decide_True _ _ E1), (decide_False _ _ E2). destruct (decide _) as [(_ & ? & _)|_]; done. }
  destruct (decide (left = [])) as [EL|EL].
  { rewrite decide_True by done. unfold align_weighted. rewrite (decide_True _ _ E1), (decide_True _ _ E2), EL. done. }
  rewrite decide_False by tauto. rewrite align_unfold by done. fold ps. cbv zeta. destruct (centroid_loop ps (0, V3 0 0 0, V3 0 0 0)) as [C1 C2].
  destruct (Classical_Prop.classic (Forall (fun p => 0 <= p.2) ps)) as [Hn|Hn].
  2: { rewrite (C2 Hn). done. }
  destruct (C1 Hn) as (ws & lc & rc & E & Hws & _). rewrite E. cbn [mbind outcome_bind].
  destruct (Rgt_dec ws 0) as [G|G]; [|done]. exfalso. apply H.
  apply zip_weights in Hn; [|done..]. split; [done|]. split; [done|]. split; [congruence|]. split; [done|].
  apply Classical_Prop.NNPP. intros HE. revert G. rewrite Hws. unfold ps. rewrite zip_sum by done. cbn [fst].
  assert (Hz : Rsum id weights = 0); [|lra]. clear -Hn HE. induction weights as [|w ww IH]; [done|].
  apply list.Forall_cons in Hn as [H1 H2]. cbn. unfold Rsum in IH. rewrite IH; [|done|].
  - assert (~ 0 < w) by (intros ?; apply HE; by left). unfold id. lra.
  - intros ?. apply HE. by right.
Qed.

Hypothesis Hal : alignable left right weights.
Hypothesis Hsvd : svd_contract svd.

Lemma align_cases :
  (coincident left weights /\ align_weighted svd left right weights = Ok None) \/
  (~ coincident left weights /\ exists a, align_weighted svd left right weights = Ok (Some a) /\
     rotation (s_rotation a) /\ 0 <= s_scale a /\
     forall s Rot t, 0 <= s -> rotation Rot -> misfit ps (s_scale a) (s_rotation a) (s_translation a) <= misfit ps s Rot t).
Proof.
  destruct Hal as (E1 & E2 & Hne & Hw & Hex). rewrite align_unfold by done. fold ps. cbv zeta.
  destruct (centroid_loop ps (0, V3 0 0 0, V3 0 0 0)) as [C1 _].
  assert (Hps : Forall (fun p : triple => 0 <= p.2) ps) by (by apply zip_weights).
  destruct (C1 Hps) as (ws & ls & rs & E & Hws & Hls & Hrs). rewrite E. cbn [mbind outcome_bind]. cbn [fst snd] in *.
  rewrite Rplus_0_l in Hws.
  assert (Hpos : 0 < ws).
  { rewrite Hws. unfold ps. rewrite zip_sum by done. apply Rsum_pos.
    - intros w Hin. rewrite list.Forall_forall in Hw. by apply Hw.
    - rewrite list.Exists_exists in Hex. done. }
  destruct (Rgt_dec ws 0) as [_|G]; [|lra].
  set (lc := vscale (/ ws) ls). set (rc := vscale (/ ws) rs).
  assert (Hlc : forall e, dot e lc = / ws * Rsum (fun p : triple => p.2 * dot e p.1.1) ps).
  { intros e. unfold lc. rewrite dot_vscale, Hls. unfold dot at 1. cbn. f_equal. ring. }
  assert (Hrc : forall e, dot e rc = / ws * Rsum (fun p : triple => p.2 * dot e p.1.2) ps).
  { intros e. unfold rc. rewrite dot_vscale, Hrs. unfold dot at 1. cbn. f_equal. ring. }
  pose proof (misfit_split ps lc rc ws Hws ltac:(lra) Hlc Hrc) as Hsplit.
  set (A := mtrans (mscale (/ ws) (cross_loop lc rc ps))).
  pose proof (Hsvd A) as HA. destruct (svd A) as [[U sv] V]. 
  destruct (best_rotation A U sv V HA) as (HR & Hf & Hnn & Hbest).
  set (s22 := if Rgt_dec (det3 U * det3 (mtrans V)) 0 then 1 else -1) in *.
  set (Ro := mmul (mmul U (diag3 1 1 s22)) (mtrans V)) in *.
  assert (HfA : forall Rot, frob Rot (mtrans (cross_loop lc rc ps)) = ws * frob Rot A).
  { intros Rot. unfold A. rewrite !frob_mtrans, frob_mscale. field. lra. }
  set (sigma := sigma_loop lc ps / ws).
  assert (Hsig : sigma_loop lc ps = ws * sigma) by (unfold sigma; field; lra).
  assert (Hterm : forall p : triple, p ∈ ps -> 0 <= p.2 * sqdist p.1.1 lc).
  { intros p Hp. rewrite list.Forall_forall in Hps. apply Rmult_le_pos; [by apply Hps|]. apply dot_nonneg. }
  assert (Hsn : 0 <= sigma).
  { assert (0 <= sigma_loop lc ps) by (rewrite sigma_loop_sum; by apply Rsum_nonneg). unfold sigma. apply Rmult_le_pos; [done|].
    left. by apply Rinv_0_lt_compat. }
  assert (Hlook : forall i l w, left !! i = Some l -> weights !! i = Some w -> exists r, (l, r, w) ∈ ps).
  { intros i l w Hi Hj. assert (is_Some (right !! i)) as [r Hr].
    { apply lookup_lt_is_Some. rewrite <- E1. by eapply lookup_lt_Some. }
    exists r. apply elem_of_list_lookup. exists i. unfold ps. rewrite !lookup_zip_with, Hi, Hr, Hj. done. }
  assert (Hpl : forall p : triple, p ∈ ps -> exists i, left !! i = Some p.1.1 /\ weights !! i = Some p.2).
  { intros [[l r] w] (i & Hi)%elem_of_list_lookup. exists i. unfold ps in Hi. rewrite !lookup_zip_with in Hi.
    destruct (left !! i) as [l'|]; [|done]. destruct (right !! i) as [r'|]; [|done]. destruct (weights !! i) as [w'|]; [|done].
    cbn in Hi. injection Hi as -> -> ->. done. }
  destruct (Req_EM_T sigma 0) as [Hz|Hz].
  - left. split; [|done]. exists lc. intros i l w Hi Hj Hwp. destruct (Hlook i l w Hi Hj) as [r Hp].
    assert (Z : sigma_loop lc ps = 0) by (rewrite Hsig, Hz; ring). rewrite sigma_loop_sum in Z.
    pose proof (Rsum_zero _ ps Hterm Z _ Hp) as Z1. cbn [fst snd] in Z1. apply Rmult_integral in Z1 as [?|Z1]; [lra|].
    by apply sqdist_zero.
  - right. split.
    { intros (c & Hc). apply Hz.
      (* all points with positive weight are c, hence the centroid is c *)
      assert (Hlcc : lc = c).
      { assert (Hd : forall e, dot e lc = dot e c).
        { intros e. rewrite Hlc. transitivity (/ ws * Rsum (fun p : triple => dot e c * p.2) ps).
          - f_equal. apply Rsum_ext. intros p Hp. destruct (Hpl p Hp) as (i & Hi & Hj).
            rewrite list.Forall_forall in Hps. destruct (Rle_lt_or_eq_dec _ _ (Hps p Hp)) as [G|G].
            + rewrite (Hc i _ _ Hi Hj G). ring.
            + rewrite <- G. ring.
          - rewrite Rsum_scale. change (Rsum (fun a : triple => a.2) ps) with (Rsum snd ps). rewrite <- Hws. field. lra. }
        apply vec3_eq; [pose proof (Hd (V3 1 0 0)) as H|pose proof (Hd (V3 0 1 0)) as H|pose proof (Hd (V3 0 0 1)) as H];
          unfold dot in H; cbn [x3 y3 z3] in H; lra. }
      assert (Z : sigma_loop lc ps = 0); [|unfold sigma; rewrite Z; field; lra]. rewrite sigma_loop_sum.
      transitivity (Rsum (fun _ : triple => 0 * 0) ps); [|rewrite Rsum_scale; ring].
      apply Rsum_ext. intros p Hp. destruct (Hpl p Hp) as (i & Hi & Hj).
      rewrite list.Forall_forall in Hps. destruct (Rle_lt_or_eq_dec _ _ (Hps p Hp)) as [G|G].
      - rewrite (Hc i _ _ Hi Hj G), Hlcc. unfold sqdist, dot, vsub. cbn. ring.
      - rewrite <- G. ring. }
    eexists. split; [reflexivity|]. cbn [s_rotation s_translation s_scale]. split; [done|].
    rewrite <- Hf. set (T := frob Ro A) in *.
    assert (Hs0 : 0 <= T / sigma). { apply Rmult_le_pos; [done|]. left. apply Rinv_0_lt_compat. lra. }
    split; [done|]. intros s Rot t Hs HRot. rewrite !Hsplit by (by apply rotation_orthogonal).
    rewrite !HfA, Hsig. fold T.
    replace (vsub rc (move (T / sigma) Ro (vsub rc (mapply (mscale (T / sigma) Ro) lc)) lc)) with (V3 0 0 0).
    2: { unfold move. rewrite mapply_mscale. apply vec3_eq; unfold vsub, vadd; cbn; ring. }
    pose proof (dot_nonneg (vsub rc (move s Rot t lc))) as He. set (d := dot (vsub rc _) _) in *.
    replace (dot (V3 0 0 0) (V3 0 0 0)) with 0 by (unfold dot; cbn; ring).
    assert (HT : frob Rot A <= T) by (by apply Hbest). set (f := frob Rot A) in *.
    assert (K : - (T / sigma * T) <= - 2 * s * f + s * s * sigma).
    { assert (s * f <= s * T) by (by apply Rmult_le_compat_l).
      assert (0 <= sigma * ((s - T / sigma) * (s - T / sigma))) as Hsq by (apply Rmult_le_pos; [exact Hsn|apply (Rle_0_sqr (s - T / sigma))]).
      replace (sigma * ((s - T / sigma) * (s - T / sigma))) with (s * s * sigma - 2 * s * T + T / sigma * T) in Hsq by (field; lra).
      lra. }
    assert (K2 : ws * (- (T / sigma * T)) <= ws * (- 2 * s * f + s * s * sigma)) by (apply Rmult_le_compat_l; lra).
    assert (K3 : 0 <= ws * d) by (apply Rmult_le_pos; lra).
    replace (T / sigma * (T / sigma) * (ws * sigma)) with (ws * (T / sigma * T)) by (field; lra). lra.
Qed.
End align.
