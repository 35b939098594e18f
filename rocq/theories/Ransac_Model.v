(** Model of the sample-consensus loop: /repo/src/theia/solvers/sample_consensus_estimator.h, ransac.h, lmed.h and
    exhaustive_ransac.h.

    [double]s are exact rationals ([Qc]).  The one expression with logarithms in ComputeMaxIterations is an
    arbitrary function [log_ratio]; Ransac_Confidence.v relates it to the real logarithms. *)
From stdpp Require Import gmap sorting numbers.
From Coq Require Import QArith_base Qcanon.
From Verif Require Import Base Sampling_Model Quality_Model.
Open Scope Qc_scope.

(** sample_consensus_estimator.h:57-114, RansacParameters (the random generator is part of the sampler here). *)
Record params := Params {
  error_thresh : Qc;
  failure_probability : Qc;
  min_inlier_ratio : Qc;
  min_iterations : Z;
  max_iterations : Z;
  use_mle : bool;
  use_Tdd_test : bool
}.

(** sample_consensus_estimator.h:117-129, RansacSummary. *)
Record summary := Summary {
  inliers : list Z;
  num_input_data_points : Z;
  num_iterations : Z;
  confidence : Qc
}.

(** estimator.h:54-127: the virtual methods of an estimator that the loop calls.  SampleSize returns a double that is a
    natural number in every estimator of the library. *)
Record estimator (Datum Model : Type) := Estimator {
  sample_size : nat;
  estimate_model : list Datum -> option (list Model);
  get_residuals : list Datum -> Model -> list Qc
}.
Arguments Estimator {Datum Model}.
Arguments sample_size {Datum Model}.
Arguments estimate_model {Datum Model}.
Arguments get_residuals {Datum Model}.

(** sampler.h:46-71: the virtual methods of a sampler. *)
Record sampler (St : Type) := Sampler {
  sm_initialize : St -> Z -> outcome (St * bool);
  sm_sample : St -> outcome (St * option (list Z))
}.
Arguments Sampler {St}.
Arguments sm_initialize {St}.
Arguments sm_sample {St}.

(** quality_measurement.h:46-65, ComputeCost. *)
Definition quality := list Qc -> list Z -> outcome (Qc * list Z).

(** A natural number or an integer as a double. *)
Definition of_Z (z : Z) : Qc := Q2Qc (inject_Z z).
Definition of_nat (n : nat) : Qc := of_Z (Z.of_nat n).

(** The conversion of a double to an int: truncation towards zero. *)
Definition to_int (q : Qc) : Z := Z.quot (Qnum q) (Zpos (Qden q)).

Definition Qcmin (a b : Qc) : Qc := if decide (b < a) then b else a.
Definition Qcmax (a b : Qc) : Qc := if decide (a < b) then b else a.

(** sample_consensus_estimator.h:187-198, the CHECKs of the constructor. *)
Definition check_params (p : params) : outcome unit :=
  _ ← check (bool_decide (0 < error_thresh p));
  _ ← check (bool_decide (min_inlier_ratio p <= 1));
  _ ← check (bool_decide (0 <= min_inlier_ratio p));
  _ ← check (bool_decide (failure_probability p < 1));
  _ ← check (bool_decide (0 < failure_probability p));
  check (bool_decide (min_iterations p <= max_iterations p)%Z).

(** sample_consensus_estimator.h:200-212, Initialize: the choice of the quality measurement. *)
Definition default_quality (p : params) : quality := fun residuals inliers =>
  if use_mle p then Ok (mle_cost (error_thresh p) residuals inliers)
  else let '(c, inliers) := inlier_support_cost (error_thresh p) residuals inliers in Ok (of_Z c, inliers).

(** lmed.h:62-71: the quality measurement of LMed. *)
Definition lmed_quality (ne : nth_element) (sample_size : nat) : quality := fun residuals inliers =>
  lmed_cost ne (Z.of_nat sample_size) residuals inliers.

Section Ransac.
  Context {Datum Model St : Type}.
  (** log_failure_prob / log_prob as a function of the failure probability, the number of samples and the
      inlier ratio: lines 231-238. *)
  Context (log_ratio : Qc -> nat -> Qc -> Qc).
  (** std::numeric_limits<double>::max(). *)
  Context (dbl_max : Qc).
  Context (p : params) (est : estimator Datum Model) (smp : sampler St) (q : quality).

  (** sample_consensus_estimator.h:214-243, ComputeMaxIterations. *)
  Definition compute_max_iterations (inlier_ratio : Qc) : outcome Z :=
    _ ← check (bool_decide (0 < inlier_ratio));
    if decide (inlier_ratio = 1) then Ok (min_iterations p)
    else
      let num_samples := if use_Tdd_test p then S (sample_size est) else sample_size est in
      let n := log_ratio (failure_probability p) num_samples inlier_ratio in
      Ok (to_int (Qcmax (of_Z (min_iterations p)) (Qcmin n (of_Z (max_iterations p))))).

  (** The local variables *best_model, best_cost and max_iterations of Estimate. *)
  Record best := Best { b_model : Model; b_cost : Qc; b_limit : Z }.

  (** lines 298-328: one hypothesis.  data[i] outside the vector is undefined behaviour. *)
  Definition consider (data : list Datum) (b : best) (m : Model) : outcome best :=
    '(cost, ins) ← q (get_residuals est data m) [];
    let ratio := of_nat (length ins) / of_nat (length data) in
    if decide (cost < b_cost b) then
      if decide (ratio < of_nat (sample_size est) / of_nat (length data)) then Ok (Best m cost (b_limit b))
      else
        k ← compute_max_iterations ratio;
        Ok (Best m cost (Z.min k (b_limit b)))
    else Ok b.

  (** lines 284-288, the data of a subset. *)
  Definition subset_data (data : list Datum) (indices : list Z) : outcome (list Datum) :=
    mapM (fun i => if decide (0 <= i)%Z then or_ub (data !! Z.to_nat i) else UB) indices.

  (** lines 276-330, the loop. *)
  Fixpoint ransac_loop (fuel : nat) (data : list Datum) (n : Z) (s : St) (b : best) : outcome (Z * St * best) :=
    if decide (n < b_limit b)%Z then
      match fuel with
      | O => Hang
      | S fuel =>
          '(s, sampled) ← sm_sample smp s;
          match sampled with
          | None => ransac_loop fuel data (n + 1) s b
          | Some indices =>
              sub ← subset_data data indices;
              match estimate_model est sub with
              | None => ransac_loop fuel data (n + 1) s b
              | Some models =>
                  b ← run_steps (consider data) b models;
                  ransac_loop fuel data (n + 1) s b
              end
          end
      end
    else Ok (n, s, b).

  (** lines 245-344, Estimate.  The result is the return value, *best_model, *summary and the sampler's state.
      When the sampler refuses the data only the inliers of the summary are written. *)
  Definition ransac_estimate (s : St) (data : list Datum) (init : Model) (sum : summary)
      : outcome (bool * Model * summary * St) :=
    _ ← check (bool_decide (0 < length data)%nat);
    '(s, ok) ← sm_initialize smp s (Z.of_nat (length data));
    if (ok : bool) then
      limit ←
        (if decide (0 < min_inlier_ratio p) then
           k ← compute_max_iterations (min_inlier_ratio p); Ok (Z.min k (max_iterations p))
         else Ok (max_iterations p));
      '(n, s, b) ← ransac_loop (Z.to_nat limit) data 0 s (Best init dbl_max limit);
      '(_, ins) ← q (get_residuals est data (b_model b)) [];
      let ratio := of_nat (length ins) / of_nat (length data) in
      let conf := 1 - (1 - ratio ^ sample_size est) ^ Z.to_nat n in
      Ok (true, b_model b, Summary ins (Z.of_nat (length data)) n conf, s)
    else Ok (false, init, Summary [] (num_input_data_points sum) (num_iterations sum) (confidence sum), s).
End Ransac.
Arguments Best {Model}.
Arguments b_model {Model}.
Arguments b_cost {Model}.
Arguments b_limit {Model}.

(** A constructor call, Initialize and Estimate: ransac.h:55-59 and the class above. *)
Definition ransac {Datum Model St} log_ratio dbl_max (p : params) (est : estimator Datum Model) (smp : sampler St)
    (s : St) (data : list Datum) (init : Model) (sum : summary) : outcome (bool * Model * summary * St) :=
  _ ← check_params p;
  ransac_estimate log_ratio dbl_max p est smp (default_quality p) s data init sum.

Definition lmed {Datum Model St} log_ratio dbl_max (ne : nth_element) (p : params) (est : estimator Datum Model)
    (smp : sampler St) (s : St) (data : list Datum) (init : Model) (sum : summary)
    : outcome (bool * Model * summary * St) :=
  _ ← check_params p;
  ransac_estimate log_ratio dbl_max p est smp (lmed_quality ne (sample_size est)) s data init sum.

(** The samplers as implementations of the interface. *)
Definition random_sampler (min_num_samples : Z) : sampler (list Z * stream) := Sampler
  (fun s n => indices ← rs_initialize min_num_samples n; Ok ((indices, s.2), true))
  (fun s => '(indices, r, subset) ← rs_sample min_num_samples s.1 s.2 []; Ok ((indices, r), Some subset)).

Definition exhaustive_sampler : sampler es_state := Sampler
  (fun s n => s ← es_initialize s n; Ok (s, true))
  (fun s => let '(s, subset) := es_sample s [] in Ok (s, Some subset)).
