(** Proofs about polynomials. *)
From stdpp Require Import prelude.
From Coq Require Import Reals Lra.
From Verif Require Import Base Polynomial_Model Polynomial_Spec.
Open Scope R_scope.

(** Little-endian values. *)
Fixpoint lvalue (l : list R) (x : R) : R := match l with [] => 0 | c :: l => c + x * lvalue l x end.

Lemma lvalue_app l k x : lvalue (l ++ k) x = lvalue l x + x ^ length l * lvalue k x.
Proof. induction l as [|c l IH]; simpl; [lra|]. rewrite IH. ring. Qed.
Lemma value_lvalue p x : value p x = lvalue (reverse p) x.
Proof.
  induction p as [|c p IH]; [done|]. rewrite reverse_cons, lvalue_app, reverse_length. simpl. rewrite IH. ring.
Qed.
Lemma value_reverse l x : value (reverse l) x = lvalue l x.
Proof. by rewrite value_lvalue, reverse_involutive. Qed.
Lemma evaluate_value p x : evaluate p x = value p x.
Proof.
  assert (H : forall v, foldl (fun v c => v * x + c) v p = v * x ^ length p + value p x).
  { induction p as [|c p IH]; intros v; simpl; [ring|]. rewrite IH. ring. }
  unfold evaluate. rewrite H. ring.
Qed.
Lemma lvalue_replicate n x : lvalue (replicate n 0) x = 0.
Proof. induction n as [|n IH]; simpl; [done|]. rewrite IH. ring. Qed.
Lemma value_replicate n x : value (replicate n 0) x = 0.
Proof. induction n as [|n IH]; simpl; [done|]. rewrite IH. ring. Qed.
Lemma lvalue_insert l x : forall k c d, l !! k = Some c -> lvalue (<[k := c + d]> l) x = lvalue l x + d * x ^ k.
Proof.
  induction l as [|a l IH]; intros [|k] c d H; simpl in *; try done.
  - simplify_eq. ring.
  - rewrite (IH _ _ _ H). ring.
Qed.

(** RemoveLeadingZeros. *)
Lemma rlz_cons c d p : remove_leading_zeros (c :: d :: p) =
  if Req_EM_T c 0 then remove_leading_zeros (d :: p) else c :: d :: p.
Proof. done. Qed.
Lemma rlz_spec p :
  exists n, p = replicate n 0 ++ remove_leading_zeros p /\ normal (remove_leading_zeros p) /\
    (p <> [] -> remove_leading_zeros p <> []).
Proof.
  induction p as [|c [|d p] IH].
  - exists 0%nat. done.
  - exists 0%nat. done.
  - rewrite rlz_cons. destruct (Req_EM_T c 0) as [->|Hc].
    + destruct IH as (n & H1 & H2 & H3). exists (S n). cbn [replicate app]. rewrite <- H1. split_and!; try done. intros _. by apply H3.
    + exists 0%nat. done.
Qed.
Lemma rlz_value p x : value (remove_leading_zeros p) x = value p x.
Proof.
  destruct (rlz_spec p) as (n & H & _).
  assert (Hr : forall l, value (replicate n 0 ++ l) x = value l x).
  { clear H. intros l. induction n as [|n IH]; simpl; [done|]. rewrite IH. ring. }
  rewrite <- (Hr (remove_leading_zeros p)). by rewrite <- H.
Qed.
Lemma rlz_length p : (length (remove_leading_zeros p) <= length p)%nat.
Proof. destruct (rlz_spec p) as (n & H & _). rewrite H at 2. rewrite app_length. lia. Qed.
Lemma rlz_zero t : t <> [] -> (length (remove_leading_zeros (0%R :: t)) <= length t)%nat.
Proof.
  destruct t as [|d t]; [done|]. intros _. rewrite rlz_cons. destruct (Req_EM_T 0 0); [|done]. apply rlz_length.
Qed.

(** DifferentiatePolynomial. *)
Definition derivative_of (p : list R) : list R := imap (fun i c => INR (length p - 1 - i) * c) (take (length p - 1) p).

Lemma pow_derivable n x : derivable_pt_lim (fun x => x ^ n) x (INR n * x ^ pred n).
Proof. apply derivable_pt_lim_pow. Qed.
Lemma derivative_of_cons c d p : derivative_of (c :: d :: p) = INR (length (d :: p)) * c :: derivative_of (d :: p).
Proof.
  unfold derivative_of. cbn [length Nat.sub]. rewrite Nat.sub_0_r.
  change (take (S (length p)) (c :: d :: p)) with (c :: take (length p) (d :: p)).
  rewrite imap_cons. f_equal.
Qed.
Lemma derivative_length p : length (derivative_of p) = (length p - 1)%nat.
Proof. unfold derivative_of. rewrite imap_length, take_length. lia. Qed.
Lemma derivative_lim p x : derivable_pt_lim (value p) x (value (derivative_of p) x).
Proof.
  induction p as [|c p IH].
  - apply derivable_pt_lim_const.
  - destruct p as [|d p].
    + cbn. apply derivable_pt_lim_ext with (fun _ => c); [intros; simpl; ring|]. apply derivable_pt_lim_const.
    + rewrite derivative_of_cons.
      replace (value (INR (length (d :: p)) * c :: derivative_of (d :: p)) x)
        with (c * (INR (length (d :: p)) * x ^ pred (length (d :: p))) + value (derivative_of (d :: p)) x).
      2:{ change (value (INR (length (d :: p)) * c :: derivative_of (d :: p)) x)
            with (INR (length (d :: p)) * c * x ^ length (derivative_of (d :: p)) + value (derivative_of (d :: p)) x).
          rewrite derivative_length. replace (length (d :: p) - 1)%nat with (pred (length (d :: p))) by lia. ring. }
      apply (derivable_pt_lim_plus (fun x => c * x ^ length (d :: p)) (value (d :: p))); [|exact IH].
      apply (derivable_pt_lim_scal (fun x => x ^ length (d :: p))). apply pow_derivable.
Qed.
Lemma differentiate_ok p : p <> [] ->
  exists d, differentiate p = Ok d /\ length d = Nat.max 1 (length p - 1) /\
    forall x, derivable_pt_lim (value p) x (value d x).
Proof.
  intros Hp. destruct p as [|c [|d p]]; [done| |].
  - exists [0]. split_and!; [done..|]. intros x. pose proof (derivative_lim [c] x) as H. simpl in *.
    replace (0 * 1 + 0) with 0 by ring. exact H.
  - exists (derivative_of (c :: d :: p)). split_and!.
    + unfold differentiate, derivative_of. simpl length. done.
    + rewrite derivative_length. simpl. lia.
    + apply derivative_lim.
Qed.

(** MultiplyPolynomials. *)
Lemma mul_inner_ok a x q : forall k acc, (k + length q <= length acc)%nat ->
  exists acc', mul_inner k a q acc = Ok acc' /\ length acc' = length acc /\
    lvalue acc' x = lvalue acc x + a * x ^ k * lvalue q x.
Proof.
  induction q as [|b q IH]; intros k acc Hk; cbn [mul_inner].
  - exists acc. split_and!; [done..|]. simpl. ring.
  - simpl in Hk. destruct (lookup_lt_is_Some_2 acc k) as [c Hc]; [lia|]. rewrite Hc. cbn [or_ub mbind outcome_bind].
    destruct (IH (S k) (<[k := c + a * b]> acc)) as (acc' & -> & Hl & Hv); [rewrite insert_length; lia|].
    exists acc'. rewrite insert_length in Hl. split_and!; [done..|].
    rewrite Hv, (lvalue_insert _ _ _ _ _ Hc). simpl. ring.
Qed.
Lemma mul_outer_ok x q : q <> [] -> forall p i acc, (i + length p + length q <= length acc + 1)%nat ->
  exists acc', mul_outer i p q acc = Ok acc' /\ length acc' = length acc /\
    lvalue acc' x = lvalue acc x + x ^ i * lvalue p x * lvalue q x.
Proof.
  intros Hq. induction p as [|a p IH]; intros i acc Hi; cbn [mul_outer].
  - exists acc. split_and!; [done..|]. simpl. ring.
  - simpl in Hi. destruct (mul_inner_ok a x q i acc) as (acc1 & -> & Hl1 & Hv1); [lia|]. cbn [mbind outcome_bind].
    destruct (IH (S i) acc1) as (acc2 & -> & Hl2 & Hv2); [lia|].
    exists acc2. split_and!; [done|lia|]. rewrite Hv2, Hv1. simpl. ring.
Qed.
Lemma multiply_ok p q x : p <> [] -> q <> [] ->
  exists m, multiply p q = Ok m /\ length m = (length p + length q - 1)%nat /\ value m x = value p x * value q x.
Proof.
  intros Hp Hq. unfold multiply.
  destruct (length p + length q)%nat as [|n] eqn:En; [destruct p; [done|simpl in En; lia]|].
  destruct (mul_outer_ok x (reverse q)) with (p := reverse p) (i := 0%nat) (acc := replicate n 0)
    as (acc & -> & Hl & Hv).
  { intros H. apply Hq. by rewrite <- (reverse_involutive q), H. }
  { rewrite !reverse_length, replicate_length. lia. }
  cbn [mbind outcome_bind]. exists (reverse acc). split_and!; [done| |].
  - rewrite reverse_length, Hl, replicate_length. lia.
  - rewrite value_reverse, Hv, lvalue_replicate, !value_lvalue. simpl. ring.
Qed.
(** The result does not depend on the point of evaluation. *)
Lemma multiply_all p q : p <> [] -> q <> [] ->
  exists m, multiply p q = Ok m /\ length m = (length p + length q - 1)%nat /\
    forall x, value m x = value p x * value q x.
Proof.
  intros Hp Hq. destruct (multiply_ok p q 0 Hp Hq) as (m & Hm & Hl & _). exists m. split_and!; [done..|].
  intros x. destruct (multiply_ok p q x Hp Hq) as (m' & Hm' & _ & Hv). congruence.
Qed.

(** AddPolynomials. *)
Lemma value_app l k x : value (l ++ k) x = value l x * x ^ length k + value k x.
Proof.
  induction l as [|c l IH]; simpl; [ring|]. rewrite IH, app_length, pow_add. ring.
Qed.
Lemma value_zip_plus x : forall l k, length l = length k ->
  value (zip_with Rplus l k) x = value l x + value k x.
Proof.
  induction l as [|c l IH]; intros [|d k] H; simpl in *; try done; [ring|].
  rewrite zip_with_length, IH by lia. replace (length l `min` length k)%nat with (length k) by lia.
  replace (length l) with (length k) by lia. ring.
Qed.
Lemma add_tail_ok s p x : (length p <= length s)%nat ->
  length (add_tail s p) = length s /\ value (add_tail s p) x = value s x + value p x.
Proof.
  intros H. unfold add_tail.
  assert (Hd : length (drop (length s - length p) s) = length p) by (rewrite drop_length; lia).
  split.
  - rewrite app_length, zip_with_length, Hd, take_length. lia.
  - rewrite value_app, value_zip_plus, zip_with_length, Hd by done.
    assert (Hs : value s x = value (take (length s - length p) s) x * x ^ length p +
      value (drop (length s - length p) s) x) by (rewrite <- Hd at 2; by rewrite <- value_app, take_drop).
    rewrite Hs, Nat.min_id. ring.
Qed.
Lemma add_ok p q x : length (add p q) = Nat.max (length p) (length q) /\ value (add p q) x = value p x + value q x.
Proof.
  unfold add. destruct (decide (length q < length p)%nat).
  - destruct (add_tail_ok p q x) as [H1 H2]; [lia|]. split; [lia|done].
  - destruct (add_tail_ok q p x) as [H1 H2]; [lia|]. split; [lia|]. rewrite H2. ring.
Qed.

(** DividePolynomial. *)
Lemma value_zip_minus x : forall l k, length l = length k ->
  value (zip_with Rminus l k) x = value l x - value k x.
Proof.
  induction l as [|c l IH]; intros [|d k] H; simpl in *; try done; [ring|].
  rewrite zip_with_length, IH by lia. replace (length l `min` length k)%nat with (length k) by lia.
  replace (length l) with (length k) by lia. ring.
Qed.
Lemma value_scale s l x : value ((fun d => d * s) <$> l) x = value l x * s.
Proof. induction l as [|c l IH]; [simpl; ring|]. rewrite fmap_cons. cbn [value]. rewrite IH, fmap_length. ring. Qed.

Lemma div_loop_ok (d0 : R) (d : list R) : d0 <> 0 -> d <> [] -> forall fuel num q,
  (length num < fuel)%nat -> num <> [] -> length q = (length num - length d)%nat \/
    (length num - length d <= length q)%nat ->
  (forall k, (k < length num - length d)%nat -> q !! k = Some 0) ->
  exists quot rem, div_loop fuel (d0 :: d) num q = Ok (quot, rem) /\ length quot = length q /\
    (length rem <= length d)%nat /\ rem <> [] /\
    forall x, lvalue q x * value (d0 :: d) x + value num x = value quot x * value (d0 :: d) x + value rem x.
Proof.
  intros Hd0 Hd. induction fuel as [|fuel IH]; intros num q Hfuel Hnum Hql Hq; [lia|].
  cbn [div_loop]. destruct (decide (length num < length (d0 :: d))%nat) as [Hlt|Hge].
  { exists (reverse q), num. split_and!; [done|by rewrite reverse_length| |done|].
    - simpl in Hlt. lia.
    - intros x. by rewrite value_reverse. }
  destruct num as [|n0 num]; [done|]. simpl in Hge.
  assert (Hk : (length (n0 :: num) - length (d0 :: d) = length num - length d)%nat) by done.
  rewrite Hk. set (k := (length num - length d)%nat) in *.
  assert (Hkl : length num = (length d + k)%nat) by (unfold k; lia).
  assert (Hqk : q !! k = Some 0) by (apply Hq; simpl; lia).
  rewrite Hqk. cbn [or_ub mbind outcome_bind].
  set (s := n0 / d0).
  cbn [app fmap list_fmap zip_with tail].
  change (list_fmap R R (fun d1 => d1 * s)) with (@fmap list _ R R (fun d1 => d1 * s)).
  set (diff := zip_with Rminus num ((fun d1 => d1 * s) <$> d ++ replicate k 0)).
  assert (Hdl : length diff = length num).
  { unfold diff. rewrite zip_with_length, fmap_length, app_length, replicate_length. lia. }
  assert (Hdne : diff <> []).
  { intros H. rewrite H in Hdl. destruct d; [done|]. simpl in *. lia. }
  destruct (IH (remove_leading_zeros (0 :: diff)) (<[k := s]> q)) as (quot & rem & -> & H1 & H2 & H3 & H4).
  - pose proof (rlz_zero diff Hdne). simpl in Hfuel. lia.
  - destruct (rlz_spec (0 :: diff)) as (? & _ & _ & H). by apply H.
  - right. rewrite insert_length. pose proof (rlz_zero diff Hdne). apply lookup_lt_Some in Hqk. lia.
  - intros j Hj. pose proof (rlz_zero diff Hdne). rewrite list_lookup_insert_ne by lia. apply Hq. simpl. lia.
  - exists quot, rem. rewrite insert_length in H1. split_and!; try done. intros x. rewrite <- H4, rlz_value.
    replace (<[k := s]> q) with (<[k := 0 + s]> q) by (f_equal; ring).
    rewrite (lvalue_insert q x k 0 s Hqk). simpl. unfold diff.
    rewrite value_zip_minus by (rewrite fmap_length, app_length, replicate_length; lia).
    rewrite value_scale, value_app, value_replicate, replicate_length, Hkl, pow_add. unfold s. field. done.
Qed.

Lemma divide_ok p d0 d : d0 <> 0 -> d <> [] -> p <> [] ->
  (length p < length (d0 :: d))%nat \/ (length d <= length (remove_leading_zeros p))%nat ->
  exists fuel0, forall fuel, (fuel0 <= fuel)%nat ->
  exists quot rem, divide fuel p (d0 :: d) = Ok (quot, rem) /\ (length rem < length (d0 :: d))%nat /\ rem <> [] /\
    forall x, value p x = value quot x * value (d0 :: d) x + value rem x.
Proof.
  intros Hd0 Hd Hp Hcase. exists (S (length p)). intros fuel Hfuel. unfold divide.
  destruct (decide (length p < length (d0 :: d))%nat) as [Hlt|Hge].
  { exists [0], p. split_and!; try done. intros x. simpl. ring. }
  destruct Hcase as [|Hcase]; [done|].
  rewrite decide_False by (simpl; lia).
  pose proof (rlz_length p). 
  destruct (div_loop_ok d0 d Hd0 Hd fuel (remove_leading_zeros p)
    (replicate (length (remove_leading_zeros p) + 1 - length (d0 :: d)) 0)) as (quot & rem & H1 & H2 & H3 & H4 & H5).
  - lia.
  - destruct (rlz_spec p) as (? & _ & _ & Hne). by apply Hne.
  - right. rewrite replicate_length. simpl. lia.
  - intros k Hk. apply lookup_replicate_2. simpl. lia.
  - exists quot, rem. split_and!; [done|simpl; lia|done|]. intros x. rewrite <- H5, lvalue_replicate, rlz_value. ring.
Qed.

(** A constant divisor: the numerator is never shorter than it. *)
Lemma div_loop_hang d0 : forall fuel num q, num <> [] -> q <> [] ->
  (length num <= length q)%nat -> div_loop fuel [d0] num q = Hang.
Proof.
  induction fuel as [|fuel IH]; intros num q Hn Hq Hl; [done|]. cbn [div_loop].
  destruct num as [|n0 num]; [done|]. rewrite decide_False by (simpl; lia).
  replace (length (n0 :: num) - length [d0])%nat with (length num) by (simpl; lia). simpl in Hl.
  destruct (lookup_lt_is_Some_2 q (length num)) as [c Hc]; [lia|]. rewrite Hc. cbn [or_ub mbind outcome_bind].
  apply IH.
  - destruct (rlz_spec (0 :: tail (zip_with Rminus (n0 :: num)
      ((fun d => d * (n0 / d0)) <$> [d0] ++ replicate (length num) 0)))) as (? & _ & _ & H). by apply H.
  - destruct q; [done|]. by destruct (length num).
  - rewrite insert_length. etrans; [apply rlz_length|].
    assert (Ht : forall l k : list R, (length (tail (zip_with Rminus (n0 :: l) k)) <= length l)%nat).
    { intros l [|c' k]; simpl; [lia|]. rewrite zip_with_length. lia. }
    cbn [length]. etrans; [apply le_n_S, Ht|]. done.
Qed.
Lemma divide_hang p d0 fuel : p <> [] -> divide fuel p [d0] = Hang.
Proof.
  intros Hp. unfold divide. rewrite decide_False by (destruct p; [done|simpl; lia]).
  destruct (rlz_spec p) as (? & _ & _ & H). specialize (H Hp).
  rewrite decide_False by (simpl; lia). apply div_loop_hang; [done| |].
  - destruct (remove_leading_zeros p); [done|]. simpl. by rewrite Nat.add_comm.
  - rewrite replicate_length. simpl. lia.
Qed.

(** The roots of linear and quadratic polynomials. *)
Lemma linear_ok a b : a <> 0 ->
  exists r, linear_roots [a; b] = Ok ([Some r], [0]) /\ forall x, value [a; b] x = a * (x - r).
Proof.
  intros Ha. exists (- b / a). unfold linear_roots, fdiv. destruct (Req_EM_T a 0); [done|]. split; [done|].
  intros x. simpl. field. done.
Qed.
Lemma fdiv_ok x y : y <> 0 -> fdiv x y = Some (x / y).
Proof. intros H. unfold fdiv. by destruct (Req_EM_T y 0). Qed.

Lemma quadratic_real a b c : a <> 0 -> 0 <= b * b - 4 * a * c -> ~ (b = 0 /\ c = 0) ->
  exists r s, quadratic_roots [a; b; c] = Ok ([Some r; Some s], [Some 0; Some 0]) /\
    forall x, value [a; b; c] x = a * (x - r) * (x - s).
Proof.
  intros Ha HD Hbc. unfold quadratic_roots. rewrite Rabs_pos_eq by done.
  destruct (Rle_dec 0 (b * b - 4 * a * c)) as [_|]; [|done].
  set (S := sqrt (b * b - 4 * a * c)).
  assert (HS : S * S = b * b - 4 * a * c) by (apply sqrt_sqrt; done).
  assert (HS0 : 0 <= S) by apply sqrt_pos.
  destruct (Rle_dec 0 b) as [Hb|Hb].
  - assert (Hne : - b - S <> 0).
    { intros H. apply Hbc. assert (b = 0) by lra. assert (S = 0) by lra. split; [done|].
      subst b. rewrite H1 in HS. assert (a * c = 0) by lra. apply Rmult_integral in H0 as [?|?]; done. }
    rewrite !fdiv_ok by lra. do 2 eexists. split; [done|]. intros x. simpl.
    assert (Hc : c = (b * b - S * S) / (4 * a)) by (rewrite HS; field; done).
    rewrite Hc. field. lra.
  - assert (Hne : - b + S <> 0) by lra.
    rewrite !fdiv_ok by lra. do 2 eexists. split; [done|]. intros x. simpl.
    assert (Hc : c = (b * b - S * S) / (4 * a)) by (rewrite HS; field; done).
    rewrite Hc. field. lra.
Qed.
Lemma quadratic_complex a b c : a <> 0 -> b * b - 4 * a * c < 0 ->
  exists re im, quadratic_roots [a; b; c] = Ok ([Some re; Some re], [Some im; Some (- im)]) /\ im <> 0 /\
    forall x, value [a; b; c] x = a * ((x - re) * (x - re) + im * im).
Proof.
  intros Ha HD. unfold quadratic_roots. rewrite Rabs_left by done.
  destruct (Rle_dec 0 (b * b - 4 * a * c)) as [|_]; [lra|].
  set (S := sqrt (- (b * b - 4 * a * c))).
  assert (HS : S * S = - (b * b - 4 * a * c)) by (apply sqrt_sqrt; lra).
  assert (HS0 : 0 < S) by (apply sqrt_lt_R0; lra).
  rewrite !fdiv_ok by lra. exists (- b / (2 * a)), (S / (2 * a)). split_and!.
  - repeat f_equal. field. done.
  - unfold Rdiv. apply Rmult_integral_contrapositive_currified; [lra|]. apply Rinv_neq_0_compat. lra.
  - intros x. simpl. assert (Hc : c = (b * b + S * S) / (4 * a)) by (rewrite HS; field; done).
    rewrite Hc. field. done.
Qed.

(** MinimizePolynomial. *)
Definition fits (p : list R) (lo hi : R) (best : R * R) : Prop := best.2 = value p best.1 /\ lo <= best.1 <= hi.

Lemma minimize_step_ok p lo hi best root : fits p lo hi best ->
  fits p lo hi (minimize_step p lo hi best root) /\ (minimize_step p lo hi best root).2 <= best.2 /\
  (lo <= root <= hi -> (minimize_step p lo hi best root).2 <= value p root).
Proof.
  intros [H1 H2]. unfold minimize_step.
  destruct (Rlt_dec root lo); [split; [done|]; split; [lra|]; lra|].
  destruct (Rlt_dec hi root); [split; [done|]; split; [lra|]; lra|].
  rewrite evaluate_value. destruct (Rlt_dec (value p root) best.2).
  - split; [|simpl; lra]. split; simpl; [done|lra].
  - split; [done|]. split; lra.
Qed.
Lemma minimize_fold_ok p lo hi roots : forall best, fits p lo hi best ->
  let res := foldl (minimize_step p lo hi) best roots in
  fits p lo hi res /\ res.2 <= best.2 /\ forall root, root ∈ roots -> lo <= root <= hi -> res.2 <= value p root.
Proof.
  induction roots as [|r roots IH]; intros best Hb; cbn [foldl].
  - split; [done|]. split; [simpl; lra|]. intros root H. by apply elem_of_nil in H.
  - destruct (minimize_step_ok p lo hi best r Hb) as (H1 & H2 & H3).
    destruct (IH _ H1) as (I1 & I2 & I3). cbn in *. split; [done|]. split; [lra|].
    intros root Hr Hin. apply elem_of_cons in Hr as [->|Hr]; [|by apply I3]. specialize (H3 Hin). lra.
Qed.

Lemma minimum_or_critical p d lo hi : lo <= hi -> (forall x, derivable_pt_lim (value p) x (value d x)) ->
  exists m, minimum (value p) lo hi m /\ (m = lo \/ m = hi \/ value d m = 0).
Proof.
  intros Hle Hd.
  assert (Hder : forall x, derivable_pt (value p) x) by (intros x; exists (value d x); apply Hd).
  destruct (continuity_ab_min (value p) lo hi Hle) as (m & Hmin & Hm).
  { intros c _. apply derivable_continuous_pt, Hder. }
  exists m. split; [done|].
  destruct (Req_EM_T m lo) as [->|H1]; [by left|]. destruct (Req_EM_T m hi) as [->|H2]; [by right; left|].
  right; right. pose proof (deriv_minimum (value p) lo hi m (Hder m)) as H.
  rewrite <- H; [| lra | lra | intros x Hx Hx'; apply Hmin; lra ].
  symmetry. apply derive_pt_eq_0. apply Hd.
Qed.

Lemma constant_of_zero p d : (forall x, derivable_pt_lim (value p) x (value d x)) -> (forall x, value d x = 0) ->
  forall x y, value p x = value p y.
Proof.
  intros Hd Hz x y.
  assert (Hder : derivable (value p)) by (intros z; exists (value d z); apply Hd).
  apply (null_derivative_1 (value p) Hder). intros z. apply derive_pt_eq_0. rewrite <- (Hz z). apply Hd.
Qed.

Lemma minimize_ok find_roots p d roots lo hi : lo <= hi -> (3 <= length p)%nat ->
  differentiate p = Ok d -> find_roots d = Some roots ->
  ((exists x, value d x <> 0) -> forall x, value d x = 0 -> x ∈ roots) ->
  exists x v, minimize find_roots p lo hi = Ok (x, v) /\ v = value p x /\ minimum (value p) lo hi x.
Proof.
  intros Hle Hlen Hdiff Hroots Hcomplete. unfold minimize. rewrite !evaluate_value, decide_False by lia.
  rewrite Hdiff. cbn [mbind outcome_bind]. rewrite Hroots.
  set (mid := (lo + hi) / 2). cbn [snd].
  set (b1 := if Rlt_dec (value p lo) (value p mid) then (lo, value p lo) else (mid, value p mid)).
  set (b2 := if Rlt_dec (value p hi) b1.2 then (hi, value p hi) else b1).
  assert (Hb1 : fits p lo hi b1 /\ b1.2 <= value p mid /\ b1.2 <= value p lo).
  { unfold b1. destruct (Rlt_dec (value p lo) (value p mid)); simpl; split; try lra; split; simpl; try done; unfold mid; lra. }
  assert (Hb2 : fits p lo hi b2 /\ b2.2 <= value p mid /\ b2.2 <= value p lo /\ b2.2 <= value p hi).
  { unfold b2. destruct Hb1 as (F & ? & ?). destruct (Rlt_dec (value p hi) b1.2); simpl.
    - split; [split; simpl; [done|lra]|]. lra.
    - split; [done|]. lra. }
  destruct Hb2 as (F2 & H1 & H2 & H3).
  destruct (minimize_fold_ok p lo hi roots b2 F2) as ((Fv & Fr) & I2 & I3).
  set (res := foldl (minimize_step p lo hi) b2 roots) in *.
  exists res.1, res.2. split; [by destruct res|]. split; [done|]. split; [done|].
  assert (Hder : forall x, derivable_pt_lim (value p) x (value d x)).
  { destruct (differentiate_ok p) as (d' & Hd' & _ & H); [intros ->; simpl in Hlen; lia|].
    assert (d' = d) as -> by congruence. exact H. }
  destruct (minimum_or_critical p d lo hi Hle Hder) as (m & [Hm Hmin] & Hcase).
  intros y Hy. apply Rle_trans with (value p m); [|by apply Hmin]. rewrite <- Fv.
  destruct Hcase as [->|[->|Hcrit]]; [lra|lra|].
  destruct (Classical_Prop.classic (exists x, value d x <> 0)) as [Hne|Hz].
  - apply I3; [by apply Hcomplete|done].
  - assert (Hz' : forall x, value d x = 0).
    { intros x. destruct (Req_EM_T (value d x) 0); [done|]. exfalso. apply Hz. by exists x. }
    rewrite (constant_of_zero p d Hder Hz' m mid). lra.
Qed.

Lemma minimize_linear find_roots p lo hi : lo <= hi -> (length p <= 2)%nat ->
  exists x v, minimize find_roots p lo hi = Ok (x, v) /\ v = value p x /\ minimum (value p) lo hi x.
Proof.
  intros Hle Hlen. unfold minimize. rewrite !evaluate_value, decide_True by done. cbn [snd].
  assert (Hlin : forall y, lo <= y <= hi -> value p lo <= value p y \/ value p hi <= value p y).
  { intros y Hy. destruct p as [|a [|b [|? ?]]]; [| | |simpl in Hlen; lia]; simpl; [lra|lra|].
    destruct (Rle_dec 0 a); [left|right]; nra. }
  set (mid := (lo + hi) / 2).
  set (b1 := if Rlt_dec (value p lo) (value p mid) then (lo, value p lo) else (mid, value p mid)).
  set (b2 := if Rlt_dec (value p hi) b1.2 then (hi, value p hi) else b1).
  assert (Hb1 : fits p lo hi b1 /\ b1.2 <= value p lo).
  { unfold b1. destruct (Rlt_dec (value p lo) (value p mid)); simpl; split; try lra; split; simpl; try done; unfold mid; lra. }
  assert (Hb2 : fits p lo hi b2 /\ b2.2 <= value p lo /\ b2.2 <= value p hi).
  { unfold b2. destruct Hb1 as (F & ?). destruct (Rlt_dec (value p hi) b1.2); simpl.
    - split; [split; simpl; [done|lra]|]. lra.
    - split; [done|]. lra. }
  destruct Hb2 as ((Fv & Fr) & H2 & H3).
  exists b2.1, b2.2. split; [by destruct b2|]. split; [done|]. split; [done|].
  intros y Hy. rewrite <- Fv. destruct (Hlin y Hy); lra.
Qed.
