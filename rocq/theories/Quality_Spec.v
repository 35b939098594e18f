(** Independent specification of costs, inliers and medians. *)
From stdpp Require Import gmap sorting numbers.
From Coq Require Import QArith_base Qcanon.
From Verif Require Import Base.
Open Scope Qc_scope.

(** The indices of the residuals below the threshold, in increasing order. *)
Definition is_inliers (thresh : Qc) (residuals : list Qc) (inliers : list Z) : Prop :=
  StronglySorted Z.lt inliers /\
  forall i, i ∈ inliers <-> exists r, (0 <= i)%Z /\ residuals !! Z.to_nat i = Some r /\ r < thresh.

(** The number of residuals that are not below the threshold. *)
Definition outliers (thresh : Qc) (residuals : list Qc) : Z :=
  Z.of_nat (length (filter (fun r => ~ r < thresh) residuals)).

(** The sum of the residuals cut off at the threshold. *)
Definition truncated_sum (thresh : Qc) (residuals : list Qc) : Qc :=
  foldr (fun r s => (if decide (r < thresh) then r else thresh) + s) 0 residuals.

(** [s] is the sorted list of the squares of [residuals]. *)
Definition sorted_squares (residuals s : list Qc) : Prop :=
  s ≡ₚ (fun r => r * r) <$> residuals /\ StronglySorted Qcle s.

(** [m] is the median of a sorted list: the middle element, or the mean of the two middle elements. *)
Definition is_median (s : list Qc) (m : Qc) : Prop :=
  (exists k, length s = (2 * k + 1)%nat /\ s !! k = Some m) \/
  (exists k x y, length s = (2 * k + 2)%nat /\ s !! k = Some x /\ s !! S k = Some y /\ m = Q2Qc (Qmake 1 2) * (x + y)).
