(** Independent specification of sample consensus. *)
From stdpp Require Import gmap sorting numbers.
From Coq Require Import QArith_base Qcanon.
From Verif Require Import Base Quality_Spec Ransac_Model.
Open Scope Qc_scope.

Section Spec.
  Context {Datum Model St : Type}.

  (** [drawn est smp data n s s' ms]: the first [n] samples taken from the sampler in state [s] leave it in state [s']
      and the estimator makes the models [ms] of them, in this order.  Failed samples and failed estimations give no
      model. *)
  Inductive drawn (est : estimator Datum Model) (smp : sampler St) (data : list Datum)
      : nat -> St -> St -> list Model -> Prop :=
  | drawn_0 s : drawn est smp data 0 s s []
  | drawn_no_sample n s s' s'' ms : drawn est smp data n s s' ms ->
      sm_sample smp s' = Ok (s'', None) -> drawn est smp data (S n) s s'' ms
  | drawn_no_model n s s' s'' ms indices subset : drawn est smp data n s s' ms ->
      sm_sample smp s' = Ok (s'', Some indices) ->
      Forall2 (fun i d => (0 <= i)%Z /\ data !! Z.to_nat i = Some d) indices subset ->
      estimate_model est subset = None -> drawn est smp data (S n) s s'' ms
  | drawn_models n s s' s'' ms indices subset new : drawn est smp data n s s' ms ->
      sm_sample smp s' = Ok (s'', Some indices) ->
      Forall2 (fun i d => (0 <= i)%Z /\ data !! Z.to_nat i = Some d) indices subset ->
      estimate_model est subset = Some new -> drawn est smp data (S n) s s'' (ms ++ new).

  (** [m] is the first of the cheapest models of [ms], provided that one costs less than [worst]; otherwise it is the
      model [init] that was there before. *)
  Definition is_best (cost : Model -> Qc) (worst : Qc) (init : Model) (ms : list Model) (m : Model) : Prop :=
    (m = init /\ forall h, h ∈ ms -> worst <= cost h) \/
    (cost m < worst /\ exists before after, ms = before ++ m :: after /\
       (forall h, h ∈ before -> cost m < cost h) /\ (forall h, h ∈ after -> cost m <= cost h)).
End Spec.

(** The cost of a model with the given residuals: the truncated sum or the number of outliers. *)
Definition model_cost (p : params) (residuals : list Qc) : Qc :=
  if use_mle p then truncated_sum (error_thresh p) residuals else of_Z (outliers (error_thresh p) residuals).

(** Every sample of an initialised sampler exists and consists of indices of the data. *)
Definition sound_sampler {St} (smp : sampler St) (n : nat) (s : St) : Prop :=
  exists (Inv : St -> Prop) s0, sm_initialize smp s (Z.of_nat n) = Ok (s0, true) /\ Inv s0 /\
    forall s1, Inv s1 -> exists s2 sampled, sm_sample smp s1 = Ok (s2, sampled) /\ Inv s2 /\
      forall indices i, sampled = Some indices -> i ∈ indices -> (0 <= i < Z.of_nat n)%Z.
