(** Properties C33, C34, C35 and C54: polynomials. *)
From stdpp Require Import prelude.
From Coq Require Import Reals Lra.
From Verif Require Import Base Polynomial_Model Polynomial_Spec Polynomial_Proofs.
Open Scope R_scope.

(** C33.  Evaluation, removal of leading zeros, sum, product and derivative are those of polynomials. *)
Theorem evaluate_polynomial p x : evaluate p x = value p x.
Proof. exact (evaluate_value p x). Qed.
Theorem remove_leading_zeros_exact p :
  (exists n, p = replicate n 0 ++ remove_leading_zeros p) /\ normal (remove_leading_zeros p) /\
  (p <> [] -> remove_leading_zeros p <> []) /\ forall x, value (remove_leading_zeros p) x = value p x.
Proof.
  destruct (rlz_spec p) as (n & H1 & H2 & H3). split_and!; [by exists n|done|done|]. exact (rlz_value p).
Qed.
Theorem add_polynomials p q :
  length (add p q) = Nat.max (length p) (length q) /\ forall x, value (add p q) x = value p x + value q x.
Proof. split; [exact (proj1 (add_ok p q 0))|]. intros x. exact (proj2 (add_ok p q x)). Qed.
Theorem multiply_polynomials p q : p <> [] -> q <> [] ->
  exists m, multiply p q = Ok m /\ length m = (length p + length q - 1)%nat /\
    forall x, value m x = value p x * value q x.
Proof. exact (multiply_all p q). Qed.
Theorem differentiate_polynomial p : p <> [] ->
  exists d, differentiate p = Ok d /\ length d = Nat.max 1 (length p - 1) /\
    forall x, derivable_pt_lim (value p) x (value d x).
Proof. exact (differentiate_ok p). Qed.

Example polynomial_sample :
  differentiate [5; 0; 2; 1] = Ok [INR 3 * 5; INR 2 * 0; INR 1 * 2] /\
  multiply [1; 1] [1; -1] = Ok [0 + 1 * 1; 0 + 1 * 1 + 1 * -1; 0 + 1 * -1] /\
  add [1; 2; 3] [4; 5] = [1; 2 + 4; 3 + 5] /\ evaluate [2; 0; 1] 3 = 19.
Proof. split_and!; [done..|]. cbn. lra. Qed.

(** C34, partial.  For a divisor of degree at least one with a non-zero leading coefficient: the division returns, and
    dividend = quotient * divisor + remainder with a remainder of lower degree.  The dividend must not have so many
    leading zeros that it is shorter than the divisor by two or more without them. *)
Theorem divide_polynomial_partial p d0 d : d0 <> 0 -> d <> [] -> p <> [] ->
  (length p < length (d0 :: d))%nat \/ (length d <= length (remove_leading_zeros p))%nat ->
  exists fuel0, forall fuel, (fuel0 <= fuel)%nat ->
  exists quot rem, divide fuel p (d0 :: d) = Ok (quot, rem) /\ (length rem < length (d0 :: d))%nat /\ rem <> [] /\
    forall x, value p x = value quot x * value (d0 :: d) x + value rem x.
Proof. exact (divide_ok p d0 d). Qed.

Example divide_polynomial_sample :
  exists quot rem, divide 10 [1; 0; -1; 5] [1; 1] = Ok (quot, rem) /\ (length rem <= 1)%nat /\
    forall x, value [1; 0; -1; 5] x = value quot x * value [1; 1] x + value rem x.
Proof.
  pose proof (div_loop_ok 1 [1]) as H.
  assert (H1 : (1 <> 0)%R) by lra.
  destruct (H H1 ltac:(done) 10%nat [1; 0; -1; 5] [0; 0; 0]) as (quot & rem & E & _ & Hl & _ & Hv);
    [simpl; lia|done|right; simpl; lia| |].
  - intros k Hk. simpl in Hk. destruct k as [|[|[|k]]]; [done..|]. lia.
  - exists quot, rem. split_and!; [|done|].
    + unfold divide. rewrite decide_False by (simpl; lia). rewrite rlz_cons.
      destruct (Req_EM_T 1 0); [lra|]. rewrite decide_False by (simpl; lia). exact E.
    + intros x. rewrite <- Hv. simpl. ring.
Qed.

(** The division by a constant polynomial never returns, and a dividend with leading zeros may be divided into a
    vector of negative size. *)
Theorem divide_polynomial_refuted :
  (forall p c fuel, p <> [] -> divide fuel p [c] = Hang) /\
  (forall fuel, divide fuel [0; 0; 0; 1] [1; 0; 1] = UB).
Proof.
  split; [intros p c fuel Hp; exact (divide_hang p c fuel Hp)|].
  intros fuel. unfold divide. rewrite decide_False by (simpl; lia). rewrite !rlz_cons.
  destruct (Req_EM_T 0 0) as [_|]; [|lra]. cbn [remove_leading_zeros]. by rewrite decide_True by (simpl; lia).
Qed.

(** C35, partial.  The roots of quadratic polynomials, with multiplicity, unless b = c = 0; and of linear ones. *)
Theorem quadratic_roots_partial a b c : a <> 0 -> ~ (b = 0 /\ c = 0) ->
  (0 <= b * b - 4 * a * c ->
     exists r s, quadratic_roots [a; b; c] = Ok ([Some r; Some s], [Some 0; Some 0]) /\
       forall x, value [a; b; c] x = a * (x - r) * (x - s)) /\
  (b * b - 4 * a * c < 0 ->
     exists re im, quadratic_roots [a; b; c] = Ok ([Some re; Some re], [Some im; Some (- im)]) /\ im <> 0 /\
       forall x, value [a; b; c] x = a * ((x - re) * (x - re) + im * im)).
Proof.
  intros Ha Hbc. split; intros HD; [exact (quadratic_real a b c Ha HD Hbc)|exact (quadratic_complex a b c Ha HD)].
Qed.
(** So the real roots are exactly those returned. *)
Corollary quadratic_roots_real_partial a b c x : a <> 0 -> ~ (b = 0 /\ c = 0) -> 0 <= b * b - 4 * a * c ->
  exists r s, quadratic_roots [a; b; c] = Ok ([Some r; Some s], [Some 0; Some 0]) /\
    (value [a; b; c] x = 0 <-> x = r \/ x = s).
Proof.
  intros Ha Hbc HD. destruct (quadratic_real a b c Ha HD Hbc) as (r & s & H & Hv). exists r, s. split; [done|].
  rewrite Hv. split.
  - intros H0. apply Rmult_integral in H0 as [H0|H0]; [apply Rmult_integral in H0 as [?|?]|]; [done|left; lra|right; lra].
  - intros [-> | ->]; ring.
Qed.
Theorem linear_roots_exact a b : a <> 0 ->
  exists r, linear_roots [a; b] = Ok ([Some r], [0]) /\ forall x, value [a; b] x = a * (x - r).
Proof. exact (linear_ok a b). Qed.

Example quadratic_roots_sample : 1 <> 0 /\ ~ (-3 = 0 /\ 2 = 0) /\ 0 <= -3 * -3 - 4 * 1 * 2 /\ 2 * 2 - 4 * 1 * 5 < 0.
Proof. lra. Qed.

(** The double root 0 of a x^2: the second root returned is 0 / 0. *)
Theorem quadratic_roots_refuted a : a <> 0 ->
  quadratic_roots [a; 0; 0] = Ok ([Some 0; None], [Some 0; Some 0]).
Proof.
  intros Ha. unfold quadratic_roots.
  replace (0 * 0 - 4 * a * 0) with 0 by ring. rewrite Rabs_R0, sqrt_0.
  destruct (Rle_dec 0 0) as [_|]; [|lra]. unfold fdiv.
  destruct (Req_EM_T (2 * a) 0) as [|_]; [lra|]. destruct (Req_EM_T (- 0 - 0) 0) as [_|]; [|lra].
  replace ((- 0 - 0) / (2 * a)) with 0 by (field; done). done.
Qed.

(** C54.  If the root finder returns all real roots of the derivative, MinimizePolynomial returns a minimum of the
    polynomial on the interval, and its value. *)
Theorem minimize_polynomial find_roots p lo hi : lo <= hi ->
  (forall d, differentiate p = Ok d -> exists roots, find_roots d = Some roots /\
     ((exists x, value d x <> 0) -> forall x, value d x = 0 -> x ∈ roots)) ->
  exists x v, minimize find_roots p lo hi = Ok (x, v) /\ v = value p x /\ minimum (value p) lo hi x.
Proof.
  intros Hle Hroots. destruct (decide (length p <= 2)%nat) as [Hl|Hl].
  - by apply minimize_linear.
  - destruct (differentiate_ok p) as (d & Hd & _); [by intros ->; simpl in Hl; lia|].
    destruct (Hroots d Hd) as (roots & Hr & Hc). apply (minimize_ok find_roots p d roots); try done. lia.
Qed.

(** For instance x^2 - 2 x on [0, 5] with the root of its derivative 2 x - 2. *)
Example minimize_polynomial_sample :
  exists x v, minimize (fun _ => Some [1]) [1; -2; 0] 0 5 = Ok (x, v) /\ v = value [1; -2; 0] x /\
    minimum (value [1; -2; 0]) 0 5 x.
Proof.
  apply minimize_polynomial; [lra|]. intros d Hd. exists [1]. split; [done|]. intros _ x Hx.
  unfold differentiate in Hd. injection Hd as <-. simpl in Hx. apply elem_of_list_singleton. lra.
Qed.

Print Assumptions evaluate_polynomial.
Print Assumptions remove_leading_zeros_exact.
Print Assumptions add_polynomials.
Print Assumptions multiply_polynomials.
Print Assumptions differentiate_polynomial.
Print Assumptions divide_polynomial_partial.
Print Assumptions divide_polynomial_refuted.
Print Assumptions quadratic_roots_partial.
Print Assumptions quadratic_roots_real_partial.
Print Assumptions linear_roots_exact.
Print Assumptions quadratic_roots_refuted.
Print Assumptions minimize_polynomial.
