(** Proofs about alignment: recovery of a similarity, alignment of reconstructions. *)
From stdpp Require Import gmap strings.
From Coq Require Import Reals Lra Psatz Nsatz.
From Verif Require Import Base Reconstruction_Model Reconstruction_Props SfmQueries_Model SfmQueries_Props Camera_Model Camera_Proofs
  Alignment_Model Alignment_Spec Alignment_Proofs Alignment_Svd.
Local Open Scope R_scope.

(** * A similarity is determined by three points that are not on a line *)
Lemma rotation_cross M a b : rotation M -> mapply M (cross a b) = cross (mapply M a) (mapply M b).
Proof.
  intros H. apply rotation_trans in H. pose proof (rotation_adj _ H) as E. rewrite mtrans_mtrans in E. rewrite E at 1. clear E H.
  destruct M as [[m1 m2 m3] [m4 m5 m6] [m7 m8 m9]], a as [a1 a2 a3], b as [b1 b2 b3].
  unfold mapply, cross, adj, mtrans, dot. cbn. f_equal; ring.
Qed.

Lemma fixes_frame Q a b : mapply Q a = a -> mapply Q b = b -> mapply Q (cross a b) = cross a b -> cross a b <> V3 0 0 0 -> Q = mid.
Proof.
  intros Ha Hb Hc Hn. set (D := mtrans (M3 a b (cross a b))).
  assert (E : mmul Q D = D).
  { unfold D, mmul. rewrite mtrans_mtrans. unfold mapply in *. destruct Q as [q0 q1 q2]. cbn [row0 row1 row2] in *.
    set (c := cross a b) in *. destruct a as [a1 a2 a3], b as [b1 b2 b3], c as [c1 c2 c3].
    injection Ha as A1 A2 A3. injection Hb as B1 B2 B3. injection Hc as C1 C2 C3.
    unfold mtrans. cbn [row0 row1 row2 x3 y3 z3]. rewrite !(dot_comm (V3 _ _ _)). f_equal; f_equal; done. }
  assert (HD : det3 D = dot (cross a b) (cross a b)).
  { unfold D. rewrite det3_mtrans. destruct a as [a1 a2 a3], b as [b1 b2 b3]. unfold det3, cross, dot. cbn. ring. }
  apply dot_pos in Hn. rewrite <- HD in Hn.
  assert (E2 : mmul (mmul Q D) (adj D) = mmul D (adj D)) by (by rewrite E).
  rewrite mmul_assoc, adj_r, mmul_mscale_r, mmul_id_r in E2.
  assert (Hk : forall k A, k <> 0 -> mscale (/ k) (mscale k A) = A).
  { intros k [[x1 x2 x3'] [x4 x5 x6] [x7 x8 x9]] Hk. unfold mscale, vscale. cbn. f_equal; f_equal; field; done. }
  rewrite <- (Hk (det3 D) Q), E2, Hk; [done|lra|lra].
Qed.

Lemma similarity_unique s Rot t s' Rot' t' a b c : 0 <= s -> 0 < s' -> rotation Rot -> rotation Rot' -> not_collinear a b c ->
  move s Rot t a = move s' Rot' t' a -> move s Rot t b = move s' Rot' t' b -> move s Rot t c = move s' Rot' t' c ->
  s = s' /\ Rot = Rot' /\ t = t'.
Proof.
  intros Hs Hs' HR HR' Hn Ea Eb Ec.
  assert (Dif : forall x y, move s Rot t x = move s' Rot' t' x -> move s Rot t y = move s' Rot' t' y ->
    vscale s (mapply Rot (vsub y x)) = vscale s' (mapply Rot' (vsub y x))).
  { intros x y Hx Hy. rewrite !mapply_vsub. unfold move in *.
    set (p := mapply Rot x) in *. set (q := mapply Rot y) in *. set (p' := mapply Rot' x) in *. set (q' := mapply Rot' y) in *.
    clearbody p q p' q'. unfold vadd, vscale, vsub in *. injection Hx as X1 X2 X3. injection Hy as Y1 Y2 Y3. apply vec3_eq; cbn; lra. }
  pose proof (Dif a b Ea Eb) as D1. pose proof (Dif a c Ea Ec) as D2. clear Dif.
  unfold not_collinear in Hn. set (d1 := vsub b a) in *. set (d2 := vsub c a) in *.
  assert (N1 : d1 <> V3 0 0 0).
  { intros E. apply Hn. rewrite E. unfold cross. cbn. f_equal; ring. }
  apply dot_pos in N1.
  assert (Es : s = s').
  { assert (E : s * s * dot d1 d1 = s' * s' * dot d1 d1).
    { rewrite <- (orthogonal_norm Rot d1) at 1 by (by apply rotation_orthogonal).
      rewrite <- (orthogonal_norm Rot' d1) by (by apply rotation_orthogonal).
      transitivity (dot (vscale s (mapply Rot d1)) (vscale s (mapply Rot d1))); [unfold dot, vscale; cbn; ring|].
      rewrite D1. unfold dot, vscale. cbn. ring. }
    apply Rmult_eq_reg_r in E; [|lra]. nra. }
  subst s'.
  assert (Can : forall x y, vscale s x = vscale s y -> x = y).
  { intros x y H. unfold vscale in H. injection H as H1 H2 H3. apply vec3_eq; eapply Rmult_eq_reg_l; try eassumption; lra. }
  apply Can in D1, D2. clear Can.
  assert (ER : Rot = Rot').
  { assert (HQ : mmul (mtrans Rot') Rot = mid).
    { assert (F : forall d, mapply Rot d = mapply Rot' d -> mapply (mmul (mtrans Rot') Rot) d = d).
      { intros d E. rewrite mapply_mmul, E, <- mapply_mmul, (orthogonal_l Rot'), mapply_id; [done|by apply rotation_orthogonal]. }
      apply (fixes_frame _ d1 d2); [by apply F|by apply F| |done].
      apply F. rewrite !rotation_cross by done. by rewrite D1, D2. }
    rewrite <- (mmul_id_l Rot), <- (proj1 HR'), mmul_assoc, HQ, mmul_id_r. done. }
  subst Rot'. split; [done|]. split; [done|]. unfold move, vadd in Ea. injection Ea as E1 E2 E3. apply vec3_eq; lra.
Qed.

Lemma misfit_zero ps s Rot t : (forall p, p ∈ ps -> 0 <= p.2) -> misfit ps s Rot t <= 0 ->
  forall l r w, (l, r, w) ∈ ps -> 0 < w -> r = move s Rot t l.
Proof.
  intros Hw H l r w Hin Hpos.
  assert (Hn : forall p : vec3 * vec3 * R, p ∈ ps -> 0 <= p.2 * sqdist p.1.2 (move s Rot t p.1.1)).
  { intros p Hp. apply Rmult_le_pos; [by apply Hw|]. apply dot_nonneg. }
  pose proof (Rsum_nonneg _ ps Hn) as H0. fold (misfit ps s Rot t) in H0.
  assert (E : misfit ps s Rot t = 0) by lra.
  pose proof (Rsum_zero _ ps Hn E _ Hin) as Z. cbn [fst snd] in Z. apply Rmult_integral in Z as [?|Z]; [lra|]. by apply sqdist_zero.
Qed.

Section recover.
Context (svd : mat3 -> mat3 * vec3 * mat3) (Hsvd : svd_contract svd).

Lemma align_recovers left weights s Rot t : 0 < s -> rotation Rot -> length left = length weights -> Forall (fun w => 0 <= w) weights ->
  (exists i j k a b c wi wj wk, left !! i = Some a /\ left !! j = Some b /\ left !! k = Some c /\
     weights !! i = Some wi /\ weights !! j = Some wj /\ weights !! k = Some wk /\ 0 < wi /\ 0 < wj /\ 0 < wk /\ not_collinear a b c) ->
  align_weighted svd left (move s Rot t <$> left) weights = Ok (Some (Similarity Rot t s)).
Proof.
  intros Hs HR HL HW (i & j & k & a & b & c & wi & wj & wk & Hi & Hj & Hk & Wi & Wj & Wk & Pi & Pj & Pk & Hn).
  assert (Hal : alignable left (move s Rot t <$> left) weights).
  { split; [by rewrite fmap_length|]. split; [done|]. split; [by intros ->|]. split; [done|].
    apply list.Exists_exists. exists wi. split; [by eapply elem_of_list_lookup_2|done]. }
  set (right := move s Rot t <$> left) in *. set (ps := zip (zip left right) weights).
  assert (Hps : forall p : vec3 * vec3 * R, p ∈ ps -> 0 <= p.2).
  { destruct Hal as (E1 & E2 & _). pose proof (proj2 (zip_weights left right weights E1 E2) HW) as H.
    rewrite list.Forall_forall in H. done. }
  assert (Hin : forall i a w, left !! i = Some a -> weights !! i = Some w -> (a, move s Rot t a, w) ∈ ps).
  { intros i' a' w' H1 H2. apply elem_of_list_lookup. exists i'. unfold ps, right. rewrite !lookup_zip_with, list_lookup_fmap, H1, H2. done. }
  destruct (align_cases svd left right weights Hal Hsvd) as [[(x & Hx) _]|(_ & r & E & HRr & Hsr & Hbest)].
  - exfalso. apply Hn. rewrite (Hx i a wi Hi Wi Pi), (Hx j b wj Hj Wj Pj), (Hx k c wk Hk Wk Pk). unfold cross, vsub. cbn. f_equal; ring.
  - rewrite E. fold ps in Hbest.
    assert (H0 : misfit ps s Rot t = 0).
    { unfold misfit. transitivity (Rsum (fun _ : vec3 * vec3 * R => 0 * 0) ps); [|rewrite Rsum_scale; ring].
      apply Rsum_ext. intros [[l r'] w] (i' & Hi')%elem_of_list_lookup. unfold ps, right in Hi'. rewrite !lookup_zip_with, list_lookup_fmap in Hi'.
      destruct (left !! i') as [l'|]; [|done]. destruct (weights !! i') as [w'|]; [|done]. cbn in Hi'. injection Hi' as -> <- ->.
      cbn [fst snd]. unfold sqdist, dot, vsub. cbn. ring. }
    pose proof (Hbest s Rot t ltac:(lra) HR) as Hle. rewrite H0 in Hle.
    pose proof (misfit_zero ps _ _ _ Hps Hle) as Hz.
    destruct (similarity_unique (s_scale r) (s_rotation r) (s_translation r) s Rot t a b c) as (S1 & S2 & S3); [done|done|done|done|done| | | |].
    + symmetry. eapply Hz; [by apply (Hin i)|done].
    + symmetry. eapply Hz; [by apply (Hin j)|done].
    + symmetry. eapply Hz; [by apply (Hin k)|done].
    + destruct r as [r1 r2 r3]. cbn in *. by subst.
Qed.
End recover.

(** * Reconstructions *)
Section recon.
Context {F : Type}.
Notation recon := (recon F pose vec4).
Implicit Types r : recon.
Definition named r : Prop := forall n u v, rc_views r !! u = Some v -> v_name v = n -> rc_view_id_from_name r n = u.

Lemma position_unique r n p q : named r -> position r n p -> position r n q -> p = q.
Proof.
  intros Hn (u & v & Hu & En & ->) (u' & v' & Hu' & En' & ->).
  pose proof (Hn n u v Hu En) as E1. pose proof (Hn n u' v' Hu' En') as E2. assert (u = u') as <- by congruence. congruence.
Qed.

Lemma positions_of_ok r names : named r -> (forall n, n ∈ names -> exists u v, rc_views r !! u = Some v /\ v_name v = n) ->
  exists l, positions_of r names = Ok l /\ Forall2 (position r) names l.
Proof.
  intros Hn. induction names as [|n names IH]; intros H; [by exists []|].
  destruct (H n ltac:(by left)) as (u & v & Hu & En). destruct IH as (l & El & Hl); [intros m Hm; apply H; by right|].
  exists (p_pos (v_data v) :: l). cbn [positions_of]. rewrite (Hn n u v Hu En), Hu. cbn [or_ub mbind outcome_bind]. rewrite El.
  cbn [mbind outcome_bind]. split; [done|]. constructor; [|done]. by exists u, v.
Qed.

Lemma misfit_names (names : list string) (l1 l2 : list vec3) (p1 p2 : string -> vec3) s Rot t :
  l1 = p1 <$> names -> l2 = p2 <$> names ->
  misfit (zip (zip l2 l1) (replicate (length l2) 1)) s Rot t = Rsum (fun n => sqdist (p1 n) (move s Rot t (p2 n))) names.
Proof.
  intros -> ->. induction names as [|n names IH]; [done|]. cbn [fmap list_fmap length replicate zip_with].
  unfold misfit, Rsum in *. cbn [foldr fst snd]. rewrite IH. unfold sqdist. ring.
Qed.

Lemma Forall2_position r names l (p : string -> vec3) : named r -> Forall2 (position r) names l ->
  (forall n, n ∈ names -> position r n (p n)) -> l = p <$> names.
Proof.
  intros Hn H. induction H as [|n x names l Hx _ IH]; intros Hp; [done|]. cbn. rewrite <- IH; [|intros m Hm; apply Hp; by right].
  f_equal. apply (position_unique r n); [done|done|]. apply Hp. by left.
Qed.

Lemma Rsum_perm {A} (f : A -> R) l l' : l ≡ₚ l' -> Rsum f l = Rsum f l'.
Proof.
  induction 1 as [|x l1 l2 _ IH|x y l1|l1 l2 l3 _ IH1 _ IH2]; [done| | |by rewrite IH1]; unfold Rsum in *; cbn; [by rewrite IH|ring].
Qed.
End recon.
