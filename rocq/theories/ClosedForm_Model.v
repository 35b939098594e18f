(** Model of /repo/src/theia/math/closed_form_polynomial_solver.cc.

    Doubles are real numbers, std::complex is Coquelicot's C.  A returned array is a list; [None] stands for a value that
    is not a finite number (a division by zero, or the power of a negative number). *)
From stdpp Require Import prelude.
From Coq Require Import Reals.
From Coquelicot Require Import Complex.
Open Scope R_scope.

(** std::sqrt and std::pow(_, 1/3) on complex numbers: principal roots.  The argument of the square root is between
    -pi/2 and pi/2 and that of the cube root between -pi/3 and pi/3.  A zero imaginary part has a sign in C++, which
    decides between the arguments pi/3 and -pi/3 for the cube root of a negative number: the first argument of [ccbrt]
    is true when that sign is negative. *)
Record complex_roots := ComplexRoots {
  csqrt : C -> C;
  ccbrt : bool -> C -> C;
  csqrt_square : forall z, Cmult (csqrt z) (csqrt z) = z;
  csqrt_principal : forall z, 0 <= fst (csqrt z);
  ccbrt_cube : forall sg z, Cmult (ccbrt sg z) (Cmult (ccbrt sg z) (ccbrt sg z)) = z;
  ccbrt_principal : forall sg z, Cmod (ccbrt sg z) / 2 <= fst (ccbrt sg z);
  ccbrt_above : forall x, 0 <= snd (ccbrt false (RtoC x));
  ccbrt_below : forall x, snd (ccbrt true (RtoC x)) <= 0
}.

(** Division of doubles. *)
Definition rdiv (x y : R) : option R := if Req_EM_T y 0 then None else Some (x / y).
Definition real (x : option R) : option C := option_map RtoC x.

(** std::pow(x, 1.0 / 3.0) on doubles: not a number for negative [x]. *)
Definition rcbrt (x : R) : option R :=
  if Req_EM_T x 0 then Some 0 else if Rlt_dec x 0 then None else Some (Rpower x (/ 3)).

(** closed_form_polynomial_solver.cc:93-123, SolveQuadratic. *)
Definition solve_quadratic (a b c : R) : list (option C) :=
  if Req_EM_T a 0 then [real (rdiv (-1 * c) b)]
  else
    let D := b * b - 4 * a * c in
    let sqrt_D := sqrt (Rabs D) in
    if Rle_dec 0 D
    then if Rle_dec 0 b
         then [real (rdiv (- b - sqrt_D) (2 * a)); real (rdiv (2 * c) (- b - sqrt_D))]
         else [real (rdiv (2 * c) (- b + sqrt_D)); real (rdiv (- b + sqrt_D) (2 * a))]
    else [Some (- b / (2 * a), sqrt_D / (2 * a)); Some (- b / (2 * a), - sqrt_D / (2 * a))].

Section Roots.
  Context (F : complex_roots).
  Open Scope C_scope.

  (** closed_form_polynomial_solver.cc:46-65, SolveDepressedCubic.  If the imaginary part of [sqrt_t] is zero, it is a
      positive zero, and so a negative one in the argument of the second cube root. *)
  Definition solve_depressed_cubic (p q : R) : list (option C) :=
    if Req_EM_T p 0 then [real (rcbrt (-1 * q))]
    else
      let omega : C := (-0.5, 0.5 * sqrt 3)%R in
      let temp : C := (q * q / 4 + p * p * p / 27)%R in
      let sqrt_t := csqrt F temp in
      let u := ccbrt F false ((-0.5 * q)%R + sqrt_t) in
      let v := ccbrt F true ((-0.5 * q)%R - sqrt_t) in
      [Some (u + v); Some (u * omega + v * omega * omega); Some (u * omega * omega + v * omega)].

  (** closed_form_polynomial_solver.cc:155-172, SolveCubic. *)
  Definition solve_cubic (a b c d : R) : list (option C) :=
    if Req_EM_T a 0 then solve_quadratic b c d
    else
      let p := ((3 * a * c - b * b) / (3 * a * a))%R in
      let q := ((2 * b * b * b - 9 * a * b * c + 27 * a * a * d) / (27 * a * a * a))%R in
      map (option_map (fun z => z - RtoC (b / (3 * a)))) (solve_depressed_cubic p q).

  (** closed_form_polynomial_solver.cc:212-232, the intermediate values of SolveQuartic. *)
  Definition q_alpha (a b c : R) : R := (-3 * (b * b) / (8 * (a * a)) + c / a)%R.
  Definition q_beta (a b c d : R) : R := (b * b * b / (8 * (a * a * a)) - b * c / (2 * (a * a)) + d / a)%R.
  Definition q_gamma (a b c d e : R) : R :=
    (-3 * (b * b * b * b) / (256 * (a * a * a * a)) + b * b * c / (16 * (a * a * a)) - b * d / (4 * (a * a)) + e / a)%R.
  Definition q_P (alpha gamma : R) : R := (- (alpha * alpha) / 12 - gamma)%R.
  Definition q_Q (alpha beta gamma : R) : R :=
    (- (alpha * alpha * alpha) / 108 + alpha * gamma / 3 - beta * beta / 8)%R.
  Definition q_R (P Q : R) : C := - RtoC Q / RtoC 2 + csqrt F (RtoC (Q * Q / 4 + P * P * P / 27)%R).

  (** closed_form_polynomial_solver.cc:205-268, SolveQuartic.  The result is None when one of the divisors is zero.  The
      signs [sgR] and [sgQ] of the imaginary parts of R and Q, when these are zero, are arguments of the model. *)
  Definition solve_quartic (sgR sgQ : bool) (a b c d e : R) : option (list C) :=
    if Req_EM_T a 0 then None
    else
      let alpha := q_alpha a b c in
      let beta := q_beta a b c d in
      let gamma := q_gamma a b c d e in
      let P := q_P alpha gamma in
      let Q := q_Q alpha beta gamma in
      let U := ccbrt F sgR (q_R P Q) in
      let y := if Rlt_dec (Rabs (fst U)) (1 / 100000000)%R
               then RtoC (-5 * alpha / 6) - ccbrt F sgQ (RtoC Q)
               else RtoC (-5 * alpha / 6) - RtoC P / (RtoC 3 * U) + U in
      let w := csqrt F (RtoC alpha + RtoC 2 * y) in
      if Ceq_dec w (RtoC 0) then None
      else
        let s1 := csqrt F (- (RtoC (3 * alpha) + RtoC 2 * y + RtoC (2 * beta) / w)) in
        let s2 := csqrt F (- (RtoC (3 * alpha) + RtoC 2 * y - RtoC (2 * beta) / w)) in
        let shift := RtoC (- b / (4 * a)) in
        Some [shift + RtoC 0.5 * (w + s1); shift + RtoC 0.5 * (w - s1);
              shift + RtoC 0.5 * (- w + s2); shift + RtoC 0.5 * (- w - s2)].
End Roots.

(** closed_form_polynomial_solver.cc:69-78, 127-137 and 176-188: the real parts of all roots. *)
Definition real_parts (roots : list (option C)) : list (option R) := map (option_map fst) roots.

(** closed_form_polynomial_solver.cc:80-91, 139-151 and 190-203: the real parts of the roots with a small imaginary part
    (a comparison with NaN is false, so those are dropped). *)
Fixpoint real_parts_within (tolerance : R) (roots : list (option C)) : list R :=
  match roots with
  | [] => []
  | Some z :: roots =>
      if Rlt_dec (Rabs (snd z)) tolerance then fst z :: real_parts_within tolerance roots
      else real_parts_within tolerance roots
  | None :: roots => real_parts_within tolerance roots
  end.
