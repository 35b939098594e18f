(** Symmetric matrices: completing the square, Cholesky, existence of the smallest eigenvector. *)
From stdpp Require Import list.
From Coq Require Import Reals Lra Psatz.
From Verif Require Import LeastSquares_Model.
Local Open Scope R_scope.

Lemma ldot_comm a b : ldot a b = ldot b a.
Proof. revert b. induction a as [|x a IH]; intros [|y b]; cbn; [lra..|]. rewrite IH. ring. Qed.
Lemma ldot_ladd_l a b c : length a = length b -> ldot (ladd a b) c = ldot a c + ldot b c.
Proof. revert b c. induction a as [|x a IH]; intros [|y b] [|z c] H; cbn in *; try lra; try done. rewrite IH by lia. ring. Qed.
Lemma ldot_lscale_l k a c : ldot (lscale k a) c = k * ldot a c.
Proof. revert c. induction a as [|x a IH]; intros [|z c]; cbn; try lra. unfold lscale in IH. rewrite IH. ring. Qed.
Lemma ldot_ladd_r a b c : length a = length b -> ldot c (ladd a b) = ldot c a + ldot c b.
Proof. intros H. rewrite !(ldot_comm c). by apply ldot_ladd_l. Qed.
Lemma ldot_lscale_r k a c : ldot c (lscale k a) = k * ldot c a.
Proof. rewrite !(ldot_comm c). apply ldot_lscale_l. Qed.
Lemma ladd_length a b : length a = length b -> length (ladd a b) = length a.
Proof. revert b. induction a as [|x a IH]; intros [|y b] H; cbn in *; try done. rewrite IH; lia. Qed.
Lemma lscale_length k a : length (lscale k a) = length a.
Proof. apply map_length. Qed.
Lemma ldot_nonneg a : 0 <= ldot a a.
Proof. induction a as [|x a IH]; cbn; [lra|]. pose proof (Rle_0_sqr x). unfold Rsqr in *. lra. Qed.
Lemma ldot_zero a : ldot a a = 0 -> a = replicate (length a) 0.
Proof.
  induction a as [|x a IH]; cbn; [done|]. intros H. pose proof (ldot_nonneg a). pose proof (Rle_0_sqr x) as Hx. unfold Rsqr in Hx.
  assert (x = 0) as -> by (assert (Z : x * x = 0) by lra; apply Rmult_integral in Z as [?|?]; done). f_equal. apply IH. lra.
Qed.
Lemma ldot_zeros n a : ldot (replicate n 0) a = 0.
Proof. revert a. induction n as [|n IH]; intros [|x a]; cbn; [done..|]. rewrite IH. ring. Qed.
Lemma list_unsnoc_S {A} (v : list A) n : length v = S n -> exists x w, v = x :: w /\ length w = n.
Proof. destruct v as [|x w]; [done|]. intros [= H]. eauto. Qed.
Lemma cauchy a b : ldot a b * ldot a b <= ldot a a * ldot b b.
Proof.
  assert (H : forall k, 0 <= ldot a a - 2 * k * ldot a b + k * k * ldot b b).
  { intros k. revert b. induction a as [|x a IH]; intros b; cbn.
    - pose proof (ldot_nonneg b). pose proof (Rle_0_sqr k). unfold Rsqr in *. assert (0 <= k * k * ldot b b) by (by apply Rmult_le_pos). destruct b; cbn in *; lra.
    - destruct b as [|y b]; cbn.
      + pose proof (ldot_nonneg a). pose proof (Rle_0_sqr x). unfold Rsqr in *. lra.
      + specialize (IH b). pose proof (Rle_0_sqr (x - k * y)). unfold Rsqr in *. lra. }
  destruct (Rle_lt_or_eq_dec 0 (ldot b b) (ldot_nonneg b)) as [P|Z].
  - specialize (H (ldot a b / ldot b b)). apply (Rmult_le_compat_r (ldot b b)) in H; [|lra]. field_simplify in H; [|lra]. unfold Rdiv in H. nra.
  - assert (N : ldot a b = 0).
    { rewrite (ldot_zero b) by done. rewrite ldot_comm. apply ldot_zeros. }
    rewrite N, <- Z. lra.
Qed.

(** ** Operations on symmetric matrices *)
Lemma sym_zero_ok n : sym_ok n (sym_zero n).
Proof. induction n as [|n IH]; cbn; [done|]. by rewrite replicate_length. Qed.
Lemma sym_outer_ok n k b s : length b = n -> sym_ok n s -> sym_ok n (sym_outer k b s).
Proof.
  revert b s. induction n as [|n IH]; intros b s Hb H; destruct s as [|a c rest]; try done; destruct b as [|x b]; cbn in *; try done.
  destruct H as [H1 H2]. split; [|apply IH; [lia|done]]. rewrite ladd_length; [done|]. rewrite lscale_length. lia.
Qed.
Lemma sym_ok_dec n s : {sym_ok n s} + {~ sym_ok n s}.
Proof.
  revert s. induction n as [|n IH]; intros [|a b s]; cbn; [left; exact I|right; tauto|right; tauto|].
  destruct (decide (length b = n)); [|right; tauto]. destruct (IH s); [left|right]; tauto.
Defined.
Lemma sym_shift_ok n k s : sym_ok n s -> sym_ok n (sym_shift k s).
Proof. revert n. induction s as [|a b s IH]; intros [|n] H; cbn in *; try done. destruct H. split; [done|]. by apply IH. Qed.
Lemma sym_apply_length n s v : sym_ok n s -> length v = n -> length (sym_apply s v) = n.
Proof.
  revert n v. induction s as [|a b s IH]; intros [|n] [|x v] H Hv; cbn in *; try done. destruct H as [H1 H2]. f_equal.
  rewrite ladd_length; rewrite lscale_length; [done|]. rewrite (IH n v H2); lia.
Qed.
Lemma sym_quad_apply n s v : sym_ok n s -> length v = n -> sym_quad s v = ldot v (sym_apply s v).
Proof.
  revert n v. induction s as [|a b s IH]; intros [|n] [|x v] H Hv; cbn in *; try done. destruct H as [H1 H2].
  rewrite ldot_ladd_r by (rewrite lscale_length, (sym_apply_length n); [lia|done|lia]). rewrite <- (IH n v H2) by lia. rewrite ldot_lscale_r, (ldot_comm v b). ring.
Qed.
Lemma sym_quad_outer n k b s v : sym_ok n s -> length b = n -> length v = n -> sym_quad (sym_outer k b s) v = sym_quad s v + k * (ldot b v * ldot b v).
Proof.
  revert n b v. induction s as [|a c s IH]; intros [|n] [|y b] [|x v] H Hb Hv; cbn in *; try done; try lra. destruct H as [H1 H2].
  rewrite (IH n) by (done || lia). rewrite ldot_ladd_l by (rewrite lscale_length; lia). rewrite ldot_lscale_l. ring.
Qed.
Lemma sym_apply_outer n k b s v : sym_ok n s -> length b = n -> length v = n -> sym_apply (sym_outer k b s) v = ladd (sym_apply s v) (lscale (k * ldot b v) b).
Proof.
  revert n b v. induction s as [|a c s IH]; intros [|n] [|y b] [|x v] H Hb Hv; cbn in *; try done. destruct H as [H1 H2].
  rewrite (IH n) by (done || lia). rewrite ldot_ladd_l by (rewrite lscale_length; lia). rewrite ldot_lscale_l. f_equal; [ring|].
  assert (L : length (sym_apply s v) = length b) by (rewrite (sym_apply_length n); [lia|done|lia]).
  assert (Lc : length c = length b) by lia. clear -L Lc. revert c L Lc. generalize (sym_apply s v). generalize (ldot b v). intros d. revert d.
  induction b as [|z b IH]; intros d [|w l] [|u c] L Lc; cbn in *; try done. f_equal; [ring|].
  apply IH; lia.
Qed.
Lemma sym_quad_shift n k s v : sym_ok n s -> length v = n -> sym_quad (sym_shift k s) v = sym_quad s v + k * ldot v v.
Proof.
  revert n v. induction s as [|a c s IH]; intros [|n] [|x v] H Hv; cbn in *; try done; try lra. destruct H as [H1 H2]. rewrite (IH n) by (done || lia). ring.
Qed.
Lemma sym_quad_lscale n k s v : sym_ok n s -> length v = n -> sym_quad s (lscale k v) = k * k * sym_quad s v.
Proof.
  revert n v. induction s as [|a c s IH]; intros [|n] [|x v] H Hv; cbn in *; try done; try lra. destruct H as [H1 H2].
  change (map (Rmult k) v) with (lscale k v). rewrite ldot_lscale_r. rewrite (IH n) by (done || lia). ring.
Qed.
Lemma sym_quad_zero n v : sym_quad (sym_zero n) v = 0.
Proof. revert v. induction n as [|n IH]; intros [|x v]; cbn; [done..|]. rewrite ldot_zeros, IH. ring. Qed.
Lemma gram_ok n rows : Forall (fun r => length r = n) rows -> sym_ok n (gram n rows).
Proof. induction 1 as [|r rows Hr _ IH]; cbn; [apply sym_zero_ok|]. by apply sym_outer_ok. Qed.
Lemma gram_quad n rows v : Forall (fun r => length r = n) rows -> length v = n -> sym_quad (gram n rows) v = foldr (fun r s => ldot r v * ldot r v + s) 0 rows.
Proof.
  intros H Hv. induction H as [|r rows Hr H IH]; [cbn; apply sym_quad_zero|].
  cbn [foldr]. change (gram n (r :: rows)) with (sym_outer 1 r (gram n rows)).
  rewrite (sym_quad_outer n) by (done || by apply gram_ok). rewrite IH. ring.
Qed.
Lemma sum_sq_nonneg rows v : 0 <= foldr (fun r s => ldot r v * ldot r v + s) 0 rows.
Proof. induction rows as [|r rows IH]; cbn; [lra|]. pose proof (Rle_0_sqr (ldot r v)). unfold Rsqr in *. lra. Qed.
Lemma sum_sq_zero rows v : foldr (fun r s => ldot r v * ldot r v + s) 0 rows <= 0 -> Forall (fun r => ldot r v = 0) rows.
Proof.
  induction rows as [|r rows IH]; cbn; [constructor|]. intros H. pose proof (Rle_0_sqr (ldot r v)) as Hr. pose proof (sum_sq_nonneg rows v). unfold Rsqr in *.
  constructor; [|apply IH; lra]. assert (Z : ldot r v * ldot r v = 0) by lra. apply Rmult_integral in Z as [?|?]; done.
Qed.

(** ** A semidefinite form vanishes somewhere or has a margin *)
Lemma complete_square n a b s x v : a <> 0 -> sym_ok n s -> length b = n -> length v = n ->
  sym_quad (SCons a b s) (x :: v) = a * ((x + ldot b v / a) * (x + ldot b v / a)) + sym_quad (sym_outer (- / a) b s) v.
Proof. intros Ha H Hb Hv. rewrite (sym_quad_outer n) by done. cbn. field. done. Qed.

Lemma psd_margin n s : sym_ok n s -> (forall v, length v = n -> 0 <= sym_quad s v) ->
  {v | length v = n /\ 0 < ldot v v /\ sym_quad s v = 0} + {e | 0 < e /\ forall v, length v = n -> e * ldot v v <= sym_quad s v}.
Proof.
  revert s. induction n as [|n IH]; intros [|a b s] H HP; try (by exfalso).
  { right. exists 1. split; [lra|]. intros [|? ?] Hv; [|done]. cbn. lra. }
  destruct H as [Hb Hs].
  assert (Hz : length (replicate n 0) = n) by apply replicate_length.
  assert (Q0 : forall x, sym_quad (SCons a b s) (x :: replicate n 0) = a * (x * x)).
  { intros x. cbn. rewrite (ldot_comm b), ldot_zeros.
    assert (E : sym_quad s (replicate n 0) = 0).
    { assert (E' : replicate n 0 = lscale 0 (replicate n 0)) by (clear; induction n; cbn; [done|]; rewrite IHn at 1; f_equal; ring).
      rewrite E', (sym_quad_lscale n) by done. ring. }
    rewrite E. ring. }
  destruct (total_order_T 0 a) as [[Pa|Za]|Na].
  - destruct (IH (sym_outer (- / a) b s)) as [(v & Hv & Pv & Zv)|(e & Pe & He)].
    + by apply sym_outer_ok.
    + intros v Hv. specialize (HP ((- (ldot b v / a)) :: v) ltac:(cbn; lia)). rewrite (complete_square n) in HP by (lra || done).
      replace (- (ldot b v / a) + ldot b v / a) with 0 in HP by ring. lra.
    + left. exists ((- (ldot b v / a)) :: v). split; [cbn; lia|]. split.
      * cbn. pose proof (Rle_0_sqr (- (ldot b v / a))). unfold Rsqr in *. lra.
      * rewrite (complete_square n) by (lra || done). rewrite Zv. ring.
    + right. set (B := ldot b b / (a * a)). assert (HB : 0 <= B).
      { unfold B, Rdiv. apply Rmult_le_pos; [apply ldot_nonneg|]. apply Rlt_le, Rinv_0_lt_compat. nra. }
      set (C := 2 / a + (1 + 2 * B) / e). 
      assert (P1 : 0 < 2 / a) by (apply Rdiv_lt_0_compat; lra). assert (P2 : 0 < (1 + 2 * B) / e) by (apply Rdiv_lt_0_compat; lra).
      assert (PC : 0 < C) by (unfold C; lra).
      exists (/ C). split; [by apply Rinv_0_lt_compat|]. intros v Hv. destruct (list_unsnoc_S v n Hv) as (x & w & -> & Hw).
      rewrite (complete_square n) by (lra || done). set (q := sym_quad _ w) in *. specialize (He w Hw). fold q in He.
      cbn [ldot]. set (y := x + ldot b w / a). set (m := ldot b w / a) in *.
      assert (Hm : m * m <= B * ldot w w).
      { unfold m, B. replace (ldot b w / a * (ldot b w / a)) with ((ldot b w * ldot b w) / (a * a)) by (field; lra).
        replace (ldot b b / (a * a) * ldot w w) with ((ldot b b * ldot w w) / (a * a)) by (field; lra).
        apply Rmult_le_compat_r; [apply Rlt_le, Rinv_0_lt_compat; nra|apply cauchy]. }
      assert (Hx : x * x <= 2 * (y * y) + 2 * (m * m)). { replace x with (y - m) by (unfold y; ring). pose proof (Rle_0_sqr (y + m)). unfold Rsqr in *. nra. }
      apply (Rmult_le_reg_l C); [done|]. rewrite <- Rmult_assoc, Rinv_r by lra. rewrite Rmult_1_l.
      pose proof (ldot_nonneg w) as Hww. pose proof (Rle_0_sqr y) as Hyy. unfold Rsqr in Hyy.
      assert (Hq : 0 <= q) by (assert (0 <= e * ldot w w) by (apply Rmult_le_pos; lra); lra).
      assert (A1 : 2 * (y * y) <= 2 / a * (a * (y * y) + q)).
      { replace (2 / a * (a * (y * y) + q)) with (2 * (y * y) + 2 / a * q) by (field; lra). assert (0 <= 2 / a * q) by (apply Rmult_le_pos; lra). lra. }
      assert (A2 : (1 + 2 * B) * ldot w w <= (1 + 2 * B) / e * (a * (y * y) + q)).
      { apply Rle_trans with ((1 + 2 * B) / e * (e * ldot w w)); [right; field; lra|].
        apply Rmult_le_compat_l; [lra|]. assert (0 <= a * (y * y)) by (apply Rmult_le_pos; lra). lra. }
      unfold C. lra.
  - left. exists (1 :: replicate n 0). split; [cbn; lia|]. split; [cbn; rewrite ldot_zeros; lra|]. rewrite Q0, <- Za. ring.
  - exfalso. specialize (HP (1 :: replicate n 0) ltac:(cbn; lia)). rewrite Q0 in HP. lra.
Qed.

Lemma unit_exists n : (0 < n)%nat -> length (1 :: replicate (pred n) 0) = n /\ ldot (1 :: replicate (pred n) 0) (1 :: replicate (pred n) 0) = 1.
Proof. intros H. split; [cbn; rewrite replicate_length; lia|]. cbn. rewrite ldot_zeros. ring. Qed.

Lemma normalize_list n v : length v = n -> 0 < ldot v v -> let u := lscale (/ sqrt (ldot v v)) v in length u = n /\ ldot u u = 1.
Proof.
  intros Hv Hp u. unfold u. split; [by rewrite lscale_length|]. rewrite ldot_lscale_l, ldot_lscale_r. pose proof (sqrt_lt_R0 _ Hp) as Hs.
  rewrite <- (sqrt_sqrt (ldot v v)) at 3 by lra. field. lra.
Qed.

Lemma sym_bound n s : sym_ok n s -> {C | forall v, length v = n -> - (C * ldot v v) <= sym_quad s v}.
Proof.
  revert s. induction n as [|n IH]; intros [|a b s] H; try (by exfalso).
  { exists 0. intros [|? ?] Hv; [|done]. cbn. lra. }
  destruct H as [Hb Hs]. destruct (IH s Hs) as (C & HC). exists (Rmax (Rabs a + 1) (C + ldot b b)). intros v Hv.
  destruct (list_unsnoc_S v n Hv) as (x & w & -> & Hw). specialize (HC w Hw). cbn [sym_quad ldot].
  pose proof (cauchy b w) as HB. pose proof (ldot_nonneg w) as Pw. pose proof (Rle_0_sqr x) as Px. unfold Rsqr in Px.
  pose proof (Rmax_l (Rabs a + 1) (C + ldot b b)) as M1. pose proof (Rmax_r (Rabs a + 1) (C + ldot b b)) as M2. set (M := Rmax _ _) in *.
  assert (A1 : (Rabs a + 1) * (x * x) <= M * (x * x)) by (by apply Rmult_le_compat_r).
  assert (A2 : (C + ldot b b) * ldot w w <= M * ldot w w) by (by apply Rmult_le_compat_r).
  assert (A3 : - Rabs a * (x * x) <= a * (x * x)). { apply Rmult_le_compat_r; [done|]. pose proof (Rle_abs (- a)). rewrite Rabs_Ropp in *. lra. }
  pose proof (Rle_0_sqr (x + ldot b w)) as A4. unfold Rsqr in A4. lra.
Qed.

Theorem smallest_exists n s : (0 < n)%nat -> sym_ok n s ->
  {v | length v = n /\ ldot v v = 1 /\ forall u, length u = n -> ldot u u = 1 -> sym_quad s v <= sym_quad s u}.
Proof.
  intros Hn Hs. destruct (sym_bound n s Hs) as (C & HC). destruct (unit_exists n Hn) as [L1 U1]. set (e1 := 1 :: replicate (pred n) 0) in *.
  set (E := fun l => forall u, length u = n -> ldot u u = 1 -> l <= sym_quad s u).
  destruct (completeness E) as [l [Hub Hlub]].
  - exists (sym_quad s e1). intros l Hl. by apply Hl.
  - exists (- C). intros u Hu Hu1. specialize (HC u Hu). rewrite Hu1 in HC. lra.
  - assert (HE : E l). { intros u Hu Hu1. apply Hlub. intros l' Hl'. by apply Hl'. }
    assert (HQ : forall v, length v = n -> 0 <= sym_quad (sym_shift (- l) s) v).
    { intros v Hv. rewrite (sym_quad_shift n) by done. destruct (Rle_lt_or_eq_dec 0 (ldot v v) (ldot_nonneg v)) as [P|Z].
      - destruct (normalize_list n v Hv P) as [Lu Uu]. set (u := lscale _ _) in *. specialize (HE u Lu Uu). unfold u in HE. rewrite (sym_quad_lscale n) in HE by done.
        pose proof (sqrt_lt_R0 _ P) as HS. pose proof (sqrt_sqrt (ldot v v) ltac:(lra)) as HSS. set (r := sqrt (ldot v v)) in *.
        apply (Rmult_le_compat_l (r * r)) in HE; [|nra]. replace (r * r * (/ r * / r * sym_quad s v)) with (sym_quad s v) in HE by (field; lra). rewrite HSS in HE. lra.
      - rewrite <- Z. assert (V0 : v = lscale 0 v).
        { symmetry in Z. apply ldot_zero in Z. rewrite Z. clear. induction (length v); cbn; [done|]. rewrite IHn at 1. f_equal. ring. }
        rewrite V0, (sym_quad_lscale n) by done. lra. }
    destruct (psd_margin n (sym_shift (- l) s) (sym_shift_ok n (- l) s Hs) HQ) as [(v & Hv & Pv & Zv)|(e & Pe & He)].
    + destruct (normalize_list n v Hv Pv) as [Lu Uu]. exists (lscale (/ sqrt (ldot v v)) v). split; [done|]. split; [done|].
      intros u Hu Hu1. specialize (HE u Hu Hu1). rewrite (sym_quad_shift n) in Zv by done. rewrite (sym_quad_lscale n) by done.
      pose proof (sqrt_lt_R0 _ Pv) as HS. pose proof (sqrt_sqrt (ldot v v) ltac:(lra)) as HSS. set (r := sqrt (ldot v v)) in *. rewrite <- HSS in Zv.
      replace (/ r * / r * sym_quad s v) with l; [done|]. replace (sym_quad s v) with (l * (r * r)) by lra. field. lra.
    + exfalso. assert (HE' : E (l + e)).
      { intros u Hu Hu1. specialize (He u Hu). rewrite (sym_quad_shift n) in He by done. rewrite Hu1 in He. lra. }
      specialize (Hub (l + e) HE'). lra.
Qed.


Definition exact_eigen (n : nat) (s : sym) : list R.
Proof.
  destruct (decide (0 < n)%nat) as [Hn|]; [|exact []].
  destruct (sym_ok_dec n s) as [Hs|]; [|exact []]. exact (proj1_sig (smallest_exists n s Hn Hs)).
Defined.
Theorem exact_eigen_contract : eigen_contract exact_eigen.
Proof.
  intros n s Hn Hs. unfold exact_eigen. destruct (decide (0 < n)%nat) as [Hn'|]; [|done]. destruct (sym_ok_dec n s) as [Hs'|]; [|done].
  exact (proj2_sig (smallest_exists n s Hn' Hs')).
Qed.
Definition exact_smallest (n : nat) (rows : list (list R)) : list R := exact_eigen n (gram n rows).
Theorem exact_smallest_contract : smallest_contract exact_smallest.
Proof.
  intros n rows Hn Hr. destruct (exact_eigen_contract n (gram n rows) Hn (gram_ok n rows Hr)) as (L & U & M). cbv zeta in *. fold (exact_smallest n rows) in *.
  split; [done|]. split; [done|]. intros u Hu Hu1. rewrite <- !(gram_quad n) by done. by apply M.
Qed.

(** If some vector is mapped to zero, so is the smallest one. *)
Lemma smallest_null smallest n rows u : smallest_contract smallest -> Forall (fun r => length r = n) rows -> length u = n -> 0 < ldot u u ->
  Forall (fun r => ldot r u = 0) rows -> Forall (fun r => ldot r (smallest n rows) = 0) rows.
Proof.
  intros Hc Hr Hu Pu Hz. assert (Hn : (0 < n)%nat) by (destruct u; [cbn in Pu; lra|cbn in Hu; lia]).
  destruct (Hc n rows Hn Hr) as (L & U & M). destruct (normalize_list n u Hu Pu) as [L1 U1]. specialize (M _ L1 U1).
  apply sum_sq_zero. eapply Rle_trans; [exact M|]. right. clear -Hz. induction Hz as [|r rows Hr _ IH]; cbn; [done|].
  rewrite ldot_lscale_r, Hr, IH. ring.
Qed.

(** ** Cholesky *)
Definition sym_pd (n : nat) (s : sym) : Prop := forall v, length v = n -> 0 < ldot v v -> 0 < sym_quad s v.
Lemma llt_correct n s r : sym_ok n s -> length r = n ->
  match llt_solve n s r with
  | Some v => length v = n /\ sym_apply s v = r /\ sym_pd n s
  | None => ~ sym_pd n s
  end.
Proof.
  revert s r. induction n as [|n IH]; intros [|a b s] [|y r] Hs Hr; try done.
  { cbn. split; [done|]. split; [done|]. intros [|? ?] Hv; [cbn; lra|done]. }
  destruct Hs as [Hb Hs]. cbn in Hr. assert (Hr' : length r = n) by lia. cbn [llt_solve].
  assert (Hz : length (replicate n 0) = n) by apply replicate_length.
  destruct (Rlt_dec 0 a) as [Pa|Na].
  - assert (Lr : length (ladd r (lscale (- (y / a)) b)) = n) by (rewrite ladd_length; [done|rewrite lscale_length; lia]).
    specialize (IH (sym_outer (- / a) b s) (ladd r (lscale (- (y / a)) b)) (sym_outer_ok n _ b s Hb Hs) Lr).
    destruct (llt_solve _ _ _) as [v|].
    + destruct IH as (Lv & Ev & Pd). split; [cbn; lia|]. split.
      * cbn [sym_apply]. f_equal; [field; lra|]. rewrite (sym_apply_outer n) in Ev by done.
        assert (La : length (sym_apply s v) = n) by (by apply sym_apply_length). generalize dependent (sym_apply s v). generalize (ldot b v). clear -Pa Hb Hr'. intros d l E Ll.
        revert b r l Hb Hr' Ll E. induction n as [|n IHn]; intros [|b0 b] [|r0 r] [|l0 l] Hb Hr' Ll E; cbn in *; try done.
        injection E as E0 E. f_equal; [|by apply IHn; try lia]. 
        assert (E1 : l0 = r0 + - (y / a) * b0 - - / a * d * b0) by lra. rewrite E1. field. lra.
      * intros u Hu Pu. destruct (list_unsnoc_S u n Hu) as (x & w & -> & Hw). rewrite (complete_square n) by (lra || done).
        pose proof (Rle_0_sqr (x + ldot b w / a)) as Sq. unfold Rsqr in Sq. assert (0 <= a * ((x + ldot b w / a) * (x + ldot b w / a))) by (apply Rmult_le_pos; lra).
        destruct (Rle_lt_or_eq_dec 0 (ldot w w) (ldot_nonneg w)) as [P|Z]; [specialize (Pd w Hw P); lra|].
        symmetry in Z. apply ldot_zero in Z. rewrite Hw in Z. subst w.
        assert (Px : 0 < x * x) by (cbn in Pu; rewrite ldot_zeros in Pu; lra).
        rewrite (ldot_comm b), ldot_zeros. 
        assert (E0 : sym_quad (sym_outer (- / a) b s) (replicate n 0) = 0).
        { assert (E' : replicate n 0 = lscale 0 (replicate n 0)) by (clear; induction n; cbn; [done|]; rewrite IHn at 1; f_equal; ring).
          rewrite E', (sym_quad_lscale n) by (done || by apply sym_outer_ok). ring. }
        rewrite E0. replace (x + 0 / a) with x by (field; lra). assert (0 < a * (x * x)) by (by apply Rmult_lt_0_compat). lra.
    + intros Pd. apply IH. intros w Hw Pw. specialize (Pd ((- (ldot b w / a)) :: w)). rewrite (complete_square n) in Pd by (lra || done).
      replace (- (ldot b w / a) + ldot b w / a) with 0 in Pd by ring.
      assert (0 < a * (0 * 0) + sym_quad (sym_outer (- / a) b s) w).
      { apply Pd; [cbn; lia|]. cbn. pose proof (Rle_0_sqr (- (ldot b w / a))). unfold Rsqr in *. lra. }
      lra.
  - intros Pd. specialize (Pd (1 :: replicate n 0)). cbn in Pd. rewrite (ldot_comm b), !ldot_zeros in Pd.
    assert (E0 : sym_quad s (replicate n 0) = 0).
    { assert (E' : replicate n 0 = lscale 0 (replicate n 0)) by (clear; induction n; cbn; [done|]; rewrite IHn at 1; f_equal; ring).
      rewrite E', (sym_quad_lscale n) by done. ring. }
    rewrite E0, Hz in Pd. assert (0 < a * (1 * 1) + 2 * 1 * 0 + 0) by (apply Pd; [done|lra]). lra.
Qed.
