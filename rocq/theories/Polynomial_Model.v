(** Model of /repo/src/theia/math/polynomial.{h,cc}.

    A VectorXd is a list of real numbers, leading coefficient first; doubles are real numbers.  [None] stands for a
    result that is not a finite number (a division by zero). *)
From stdpp Require Import prelude.
From Coq Require Import Reals.
From Verif Require Import Base.
Open Scope R_scope.

(** Division of doubles. *)
Definition fdiv (x y : R) : option R := if Req_EM_T y 0 then None else Some (x / y).

(** polynomial.h:95-101, EvaluatePolynomial. *)
Definition evaluate (polynomial : list R) (x : R) : R := foldl (fun v c => v * x + c) 0 polynomial.

(** polynomial.cc:92-98, RemoveLeadingZeros: drop zeros while more than one coefficient is left. *)
Fixpoint remove_leading_zeros (polynomial : list R) : list R :=
  match polynomial with
  | c :: (_ :: _) as p => if Req_EM_T c 0 then remove_leading_zeros p else polynomial
  | _ => polynomial
  end.

(** polynomial.cc:100-118, DifferentiatePolynomial. *)
Definition differentiate (polynomial : list R) : outcome (list R) :=
  match length polynomial with
  | O => CheckFail
  | S O => Ok [0]
  | S degree => Ok (imap (fun i c => INR (degree - i) * c) (take degree polynomial))
  end.

(** polynomial.cc:123-126, the inner loop, from index [k] = i + j on; [acc] is multiplied_poly.reverse() and [q] the
    rest of poly2.reverse(). *)
Fixpoint mul_inner (k : nat) (a : R) (q acc : list R) : outcome (list R) :=
  match q with
  | [] => Ok acc
  | b :: q => c ← or_ub (acc !! k); mul_inner (S k) a q (<[k := c + a * b]> acc)
  end.
(** polynomial.cc:122-127, the outer loop. *)
Fixpoint mul_outer (i : nat) (p q acc : list R) : outcome (list R) :=
  match p with
  | [] => Ok acc
  | a :: p => acc ← mul_inner i a q acc; mul_outer (S i) p q acc
  end.
(** polynomial.cc:120-129, MultiplyPolynomials; a vector of negative size is undefined. *)
Definition multiply (poly1 poly2 : list R) : outcome (list R) :=
  match (length poly1 + length poly2)%nat with
  | O => UB
  | S n => acc ← mul_outer 0 (reverse poly1) (reverse poly2) (replicate n 0); Ok (reverse acc)
  end.

(** polynomial.cc:145-160, the loop of DividePolynomial.  [quotient] is quotient->reverse(). *)
Fixpoint div_loop (fuel : nat) (divisor numerator quotient : list R) : outcome (list R * list R) :=
  match fuel with
  | O => Hang
  | S fuel =>
      if decide (length numerator < length divisor)%nat then Ok (reverse quotient, numerator)
      else
        match numerator, divisor with
        | n0 :: _, d0 :: _ =>
            let k := (length numerator - length divisor)%nat in
            let s := n0 / d0 in
            _ ← or_ub (quotient !! k);
            let denominator := (fun d => d * s) <$> (divisor ++ replicate k 0) in
            let difference := zip_with Rminus numerator denominator in
            div_loop fuel divisor (remove_leading_zeros (0 :: tail difference)) (<[k := s]> quotient)
        | _, _ => UB
        end
  end.
(** polynomial.cc:131-162, DividePolynomial.  The quotient of the leading coefficients is a total function here: a
    divisor that starts with 0 is not modelled. *)
Definition divide (fuel : nat) (polynomial divisor : list R) : outcome (list R * list R) :=
  if decide (length polynomial < length divisor)%nat then Ok ([0], polynomial)
  else
    let numerator := remove_leading_zeros polynomial in
    if decide (length numerator + 1 < length divisor)%nat then UB
    else div_loop fuel divisor numerator (replicate (length numerator + 1 - length divisor) 0).

(** polynomial.cc:164-174, AddPolynomials. *)
Definition add_tail (sum p : list R) : list R :=
  take (length sum - length p) sum ++ zip_with Rplus (drop (length sum - length p) sum) p.
Definition add (poly1 poly2 : list R) : list R :=
  if decide (length poly2 < length poly1)%nat then add_tail poly1 poly2 else add_tail poly2 poly1.

(** polynomial.cc:176-188, FindLinearPolynomialRoots: the real and the imaginary parts. *)
Definition linear_roots (polynomial : list R) : outcome (list (option R) * list R) :=
  match polynomial with
  | [a; b] => Ok ([fdiv (- b) a], [0])
  | _ => CheckFail
  end.

(** polynomial.cc:190-233, FindQuadraticPolynomialRoots: the real and the imaginary parts. *)
Definition quadratic_roots (polynomial : list R) : outcome (list (option R) * list (option R)) :=
  match polynomial with
  | [a; b; c] =>
      let D := b * b - 4 * a * c in
      let sqrt_D := sqrt (Rabs D) in
      Ok (if Rle_dec 0 D
          then (if Rle_dec 0 b
                then [fdiv (- b - sqrt_D) (2 * a); fdiv (2 * c) (- b - sqrt_D)]
                else [fdiv (2 * c) (- b + sqrt_D); fdiv (- b + sqrt_D) (2 * a)],
                [Some 0; Some 0])
          else ([fdiv (- b) (2 * a); fdiv (- b) (2 * a)], [fdiv sqrt_D (2 * a); fdiv (- sqrt_D) (2 * a)]))
  | _ => CheckFail
  end.

(** polynomial.cc:268-279, the loop over the critical points. *)
Definition minimize_step (polynomial : list R) (x_min x_max : R) (best : R * R) (root : R) : R * R :=
  if Rlt_dec root x_min then best
  else if Rlt_dec x_max root then best
  else if Rlt_dec (evaluate polynomial root) best.2 then (root, evaluate polynomial root) else best.

(** polynomial.cc:235-280, MinimizePolynomial: (optimal_x, optimal_value).  [find_roots] is FindPolynomialRoots: the
    real parts of the roots, or None when it fails. *)
Definition minimize (find_roots : list R -> option (list R)) (polynomial : list R) (x_min x_max : R)
    : outcome (R * R) :=
  let x := (x_min + x_max) / 2 in
  let best := (x, evaluate polynomial x) in
  let best := if Rlt_dec (evaluate polynomial x_min) best.2 then (x_min, evaluate polynomial x_min) else best in
  let best := if Rlt_dec (evaluate polynomial x_max) best.2 then (x_max, evaluate polynomial x_max) else best in
  if decide (length polynomial <= 2)%nat then Ok best
  else
    derivative ← differentiate polynomial;
    match find_roots derivative with
    | None => Ok best
    | Some roots => Ok (foldl (minimize_step polynomial x_min x_max) best roots)
    end.
