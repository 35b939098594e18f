(** Properties C36, C55 and C56: the closed-form solvers. *)
From stdpp Require Import prelude.
From Coq Require Import Reals Lra.
From Coquelicot Require Import Complex.
From Verif Require Import ClosedForm_Model ClosedForm_Spec ClosedForm_Proofs.
Open Scope C_scope.

(** C36, partial.  SolveCubic returns the three roots of a x^3 + b x^2 + c x + d with multiplicities when 3 a c < b^2.
    Missing: the case b^2 < 3 a c, where it is false, and b^2 = 3 a c, where only one of the three roots or no number is
    returned. *)
Theorem solve_cubic_partial F a b c d : a <> 0%R -> (3 * a * c < b * b)%R ->
  exists r0 r1 r2, solve_cubic F a b c d = [Some r0; Some r1; Some r2] /\
    forall x, cubic a b c d x = RtoC a * (x - r0) * (x - r1) * (x - r2).
Proof. exact (solve_cubic_ok F a b c d). Qed.

(** x^3 - 3 x + 2 = (x - 1)^2 (x + 2): a double root, and both cube roots are taken of negative numbers. *)
Example solve_cubic_sample : (1 <> 0)%R /\ (3 * 1 * -3 < 0 * 0)%R /\ cubic 1 0 (-3) 2 (RtoC 1) = RtoC 0.
Proof. split_and!; [lra|lra|]. rewrite real_cubic. f_equal. lra. Qed.

(** For every cubic with b^2 < 3 a c the first value returned is not a root; when b^2 = 3 a c the single value is a root
    or not a number. *)
Theorem solve_cubic_refuted F a b c d : a <> 0%R -> (b * b < 3 * a * c)%R ->
  exists r0 r1 r2, solve_cubic F a b c d = [Some r0; Some r1; Some r2] /\ cubic a b c d r0 <> RtoC 0.
Proof. exact (solve_cubic_wrong F a b c d). Qed.
Theorem solve_cubic_triple F a b c d : a <> 0%R -> (3 * a * c = b * b)%R ->
  if Rlt_dec 0 ((2 * b * b * b - 9 * a * b * c + 27 * a * a * d) / (27 * a * a * a))
  then solve_cubic F a b c d = [None]
  else exists r, solve_cubic F a b c d = [Some r] /\ cubic a b c d r = RtoC 0.
Proof. exact (solve_cubic_zero F a b c d). Qed.

(** x^3 + x and x^3 + 1. *)
Example solve_cubic_wrong_sample :
  (exists r0 r1 r2, solve_cubic std_roots 1 0 1 0 = [Some r0; Some r1; Some r2] /\ cubic 1 0 1 0 r0 <> RtoC 0) /\
  solve_cubic std_roots 1 0 0 1 = [None].
Proof.
  split; [apply solve_cubic_refuted; lra|].
  pose proof (solve_cubic_triple std_roots 1 0 0 1) as H. destruct (Rlt_dec _ _) as [|Hn] in H; [apply H; lra|].
  exfalso. lra.
Qed.

(** A cubic with leading coefficient zero is solved as a quadratic. *)
Theorem solve_cubic_degenerate F b c d : solve_cubic F 0 b c d = solve_quadratic b c d.
Proof. unfold solve_cubic. destruct (Req_EM_T 0 0) as [_|]; [done|lra]. Qed.

(** C56.  SolveQuadratic returns both roots, except for a x^2, and the root of a linear equation. *)
Theorem solve_quadratic_partial a b c : a <> 0%R -> ~ (b = 0%R /\ c = 0%R) ->
  exists r s, solve_quadratic a b c = [Some r; Some s] /\
    forall x, quadratic a b c x = RtoC a * (x - r) * (x - s).
Proof. exact (solve_quadratic_ok a b c). Qed.
Theorem solve_quadratic_linear b c : b <> 0%R ->
  exists r, solve_quadratic 0 b c = [Some r] /\ forall x, quadratic 0 b c x = RtoC b * (x - r).
Proof. exact (solve_linear_ok b c). Qed.
(** The second root of a x^2 is not a number. *)
Theorem solve_quadratic_refuted a : a <> 0%R -> exists r, solve_quadratic a 0 0 = [r; None].
Proof.
  intros Ha. unfold solve_quadratic. destruct (Req_EM_T a 0) as [|_]; [done|].
  destruct (Rle_dec 0 (0 * 0 - 4 * a * 0)) as [_|]; [|lra]. destruct (Rle_dec 0 0) as [_|]; [|lra].
  eexists. f_equal. f_equal. unfold rdiv. destruct (Req_EM_T _ 0) as [_|Hn]; [done|]. exfalso. apply Hn.
  replace (0 * 0 - 4 * a * 0)%R with 0%R by ring. rewrite Rabs_R0, sqrt_0. ring.
Qed.

(** The variants with a tolerance return the real parts of exactly the roots with a smaller imaginary part; so all real
    roots are among them where the solver is right. *)
Theorem reals_within_tolerance tol roots x :
  x ∈ real_parts_within tol roots <-> exists z, Some z ∈ roots /\ fst z = x /\ (Rabs (snd z) < tol)%R.
Proof. exact (real_parts_within_iff tol roots x). Qed.
Theorem solve_quadratic_reals_partial tol a b c x : (0 < tol)%R -> a <> 0%R -> ~ (b = 0%R /\ c = 0%R) ->
  (a * x * x + b * x + c = 0)%R -> x ∈ real_parts_within tol (solve_quadratic a b c).
Proof. intros Ht Ha Hbc Hx. apply solve_quadratic_reals_ok; [done..|]. by rewrite real_quadratic, Hx. Qed.
Theorem solve_cubic_reals_partial F tol a b c d x : (0 < tol)%R -> a <> 0%R -> (3 * a * c < b * b)%R ->
  (a * x * x * x + b * x * x + c * x + d = 0)%R -> x ∈ real_parts_within tol (solve_cubic F a b c d).
Proof. intros Ht Ha Hp Hx. apply solve_cubic_reals_ok; [done..|]. by rewrite real_cubic, Hx. Qed.
Example solve_reals_sample :
  1%R ∈ real_parts_within 0.1 (solve_cubic std_roots 1 0 (-3) 2) /\ (-2)%R ∈ real_parts_within 0.1 (solve_cubic std_roots 1 0 (-3) 2) /\
  3%R ∈ real_parts_within 0.1 (solve_quadratic 1 (-4) 3).
Proof.
  split_and!; [apply solve_cubic_reals_partial; lra|apply solve_cubic_reals_partial; lra|].
  apply solve_quadratic_reals_partial; lra.
Qed.

(** C55, partial.  SolveQuartic returns the four roots with multiplicities when the depressed quartic t^4 + alpha t^2 +
    beta t + gamma has beta <> 0 and the cube root taken on the way is zero or not tiny.  Missing: beta = 0, where it is
    false, and cube roots with a real part below 1e-8, which the code replaces. *)
Theorem solve_quartic_partial F sgR sgQ a b c d e :
  let P := q_P (q_alpha a b c) (q_gamma a b c d e) in
  let Q := q_Q (q_alpha a b c) (q_beta a b c d) (q_gamma a b c d e) in
  a <> 0%R -> q_beta a b c d <> 0%R ->
  q_R F P Q = RtoC 0 \/ (1 / 100000000 <= fst (ccbrt F sgR (q_R F P Q)))%R ->
  exists r0 r1 r2 r3, solve_quartic F sgR sgQ a b c d e = Some [r0; r1; r2; r3] /\
    forall x, quartic a b c d e x = RtoC a * (x - r0) * (x - r1) * (x - r2) * (x - r3).
Proof. exact (solve_quartic_ok F sgR sgQ a b c d e). Qed.

(** beta is the linear coefficient after the substitution x = t - b/(4 a). *)
Theorem quartic_beta_meaning a b c d e t : a <> 0%R ->
  quartic a b c d e (t + RtoC (- b / (4 * a))) =
  RtoC a * (t * t * t * t + RtoC (q_alpha a b c) * t * t + RtoC (q_beta a b c d) * t + RtoC (q_gamma a b c d e)).
Proof.
  intros Ha. rewrite depress4 by done. cbn zeta.
  replace (t + RtoC (- b / (4 * a)) - RtoC (- b / (4 * a))) with t by ring. done.
Qed.

(** x^4 + x: P = 0 and Q = -1/8, so the cube root is that of 1/8 or of 0, depending on the sign of the square root. *)
Example solve_quartic_sample sgR sgQ : exists r0 r1 r2 r3, solve_quartic std_roots sgR sgQ 1 0 0 1 0 = Some [r0; r1; r2; r3] /\
    forall x, quartic 1 0 0 1 0 x = RtoC 1 * (x - r0) * (x - r1) * (x - r2) * (x - r3).
Proof.
  apply solve_quartic_partial; [lra|unfold q_beta; lra|].
  assert (HP : q_P (q_alpha 1 0 0) (q_gamma 1 0 0 1 0) = 0%R) by (unfold q_P, q_alpha, q_gamma; lra).
  assert (HQ : q_Q (q_alpha 1 0 0) (q_beta 1 0 0 1) (q_gamma 1 0 0 1 0) = (-1/8)%R)
    by (unfold q_Q, q_alpha, q_beta, q_gamma; lra).
  rewrite HP, HQ. pose proof (q_R_equation std_roots 0 (-1/8)) as HR. cbn zeta in HR.
  set (R := q_R std_roots 0 (-1/8)) in *. replace (0 * 0 * 0 / 27)%R with 0%R in HR by lra.
  assert (HR' : R * (R + RtoC (-1/8)) = RtoC 0) by (rewrite <- HR; ring).
  apply C_mult_integral in HR' as [?|HR']; [by left|right].
  assert (E : R = RtoC (1/8)).
  { replace R with (R + RtoC (-1/8) - RtoC (-1/8)) by ring. rewrite HR', <- RtoC_minus. f_equal. lra. }
  rewrite E. set (U := ccbrt std_roots sgR (RtoC (1/8))).
  assert (HU : cube U = RtoC (1/8)) by apply (ccbrt_cube std_roots).
  destruct (principal3_nonneg U (1/8)) as [HU1 HU2]; [apply (ccbrt_principal std_roots)|done|lra|].
  assert (HU3 : U = RtoC (1/2)) by (apply real_cube_root; [done|rewrite HU; f_equal; lra]).
  rewrite HU3. cbn. lra.
Qed.

(** x^4 - 1: the code divides 0 by 0 and returns no number. *)
Theorem solve_quartic_refuted F sgR sgQ :
  solve_quartic F sgR sgQ 1 0 0 0 (-1) = None /\ quartic 1 0 0 0 (-1) (RtoC 1) = RtoC 0.
Proof.
  split; [apply solve_quartic_biquadratic|]. unfold quartic.
  rewrite <- !RtoC_mult, <- !RtoC_plus. f_equal. lra.
Qed.

Print Assumptions solve_cubic_partial.
Print Assumptions solve_cubic_refuted.
Print Assumptions solve_cubic_triple.
Print Assumptions solve_cubic_degenerate.
Print Assumptions solve_quadratic_partial.
Print Assumptions solve_quadratic_linear.
Print Assumptions solve_quadratic_refuted.
Print Assumptions reals_within_tolerance.
Print Assumptions solve_quadratic_reals_partial.
Print Assumptions solve_cubic_reals_partial.
Print Assumptions solve_quartic_partial.
Print Assumptions quartic_beta_meaning.
Print Assumptions solve_quartic_refuted.
