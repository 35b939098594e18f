(** Model of the quality measurements: /repo/src/theia/solvers/inlier_support.h, mle_quality_measurement.h and
    lmed_quality_measurement.h.

    [double]s are exact rationals ([Qc]): no rounding, no infinities, no NaN among the residuals. *)
From stdpp Require Import gmap sorting numbers.
From Coq Require Import QArith_base Qcanon.
From Verif Require Import Base.
Open Scope Qc_scope.

(** The loops over the residuals: the indices that satisfy [p], appended to [inliers]. *)
Fixpoint collect (p : Qc -> bool) (i : nat) (residuals : list Qc) (inliers : list Z) : list Z :=
  match residuals with
  | [] => inliers
  | r :: rest => collect p (S i) rest (if p r then inliers ++ [Z.of_nat i] else inliers)
  end.

(** inlier_support.h:54-63, ComputeCost.  size() - size() is computed modulo 2^64. *)
Definition inlier_support_cost (thresh : Qc) (residuals : list Qc) (inliers : list Z) : Z * list Z :=
  let inliers := collect (fun r => bool_decide (r < thresh)) 0 residuals inliers in
  (((Z.of_nat (length residuals) - Z.of_nat (length inliers)) mod 2 ^ 64)%Z, inliers).

(** mle_quality_measurement.h:58-71, ComputeCost. *)
Definition mle_cost (thresh : Qc) (residuals : list Qc) (inliers : list Z) : Qc * list Z :=
  (foldl (fun s r => if decide (r < thresh) then s + r else s + thresh) 0 residuals,
   collect (fun r => bool_decide (r < thresh)) 0 residuals inliers).

(** std::nth_element(begin, begin + n, end) for 0 <= n < size: a permutation with the n-th smallest element at
    position n, nothing larger before it and nothing smaller after it. *)
Record nth_element := NthElement {
  ne_run : nat -> list Qc -> list Qc;
  ne_perm : forall n l, ne_run n l ≡ₚ l;
  ne_nth : forall n l x, ne_run n l !! n = Some x ->
    (forall i y, (i < n)%nat -> ne_run n l !! i = Some y -> y <= x) /\
    (forall i y, (n < i)%nat -> ne_run n l !! i = Some y -> x <= y)
}.

(** lmed_quality_measurement.h:79-99, CalculateMedianOfSquaredResiduals.  For size 1 the second call gets the
    position begin() - 1, and for size 0 element 0 is read: undefined. *)
Definition lmed_median (ne : nth_element) (residuals : list Qc) : outcome Qc :=
  let squared := (fun r => r * r) <$> residuals in
  let n := length squared in
  let squared := ne_run ne (n / 2) squared in
  median ← or_ub (squared !! (n / 2)%nat);
  if decide ((n mod 2)%nat ≠ 0%nat) then
    match (n / 2)%nat with
    | O => UB
    | S k =>
        let squared := ne_run ne k squared in
        x ← or_ub (squared !! k);
        Ok (Q2Qc (Qmake 1 2) * (x + median))
    end
  else Ok median.

(** lmed_quality_measurement.h:102-119, CalculateInliers.  The code squares the threshold
    2.5 * 1.4826 * (1 + 5 / (size - min)) * sqrt(median); the model uses the square directly.  size - min is
    computed modulo 2^64; for size = min the threshold is infinite, or NaN when the median is 0. *)
Definition lmed_inliers (median : Qc) (min_num_samples : Z) (residuals : list Qc) (inliers : list Z) : list Z :=
  let d := ((Z.of_nat (length residuals) - min_num_samples) mod 2 ^ 64)%Z in
  let p :=
    if decide (d = 0%Z) then fun _ => bool_decide (median ≠ 0)
    else
      let c := Q2Qc (Qmake 25 10) * Q2Qc (Qmake 14826 10000) * (1 + Q2Qc (Qmake 5 (Z.to_pos d))) in
      fun r => bool_decide (r * r < c * c * median)
  in
  collect p 0 residuals inliers.

(** lmed_quality_measurement.h:58-64, ComputeCost. *)
Definition lmed_cost (ne : nth_element) (min_sample_size : Z) (residuals : list Qc) (inliers : list Z)
    : outcome (Qc * list Z) :=
  median ← lmed_median ne residuals;
  Ok (median, lmed_inliers median min_sample_size residuals inliers).
