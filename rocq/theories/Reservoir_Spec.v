(** Independent specification of reservoir sampling. *)
From stdpp Require Import prelude.
From Verif Require Import Base Sampling_Model.
Open Scope Z_scope.

(** The sequences of [m] draws after the first [k] elements: the draw for the element after [n] others is one of
    0 .. n, each with the same probability. *)
Definition is_draws (k m : Z) (ds : list Z) : Prop :=
  Z.of_nat (length ds) = m /\ forall i d, ds !! i = Some d -> 0 <= d <= k + Z.of_nat i.

(** How many of the sequences satisfy [P]. *)
Definition number {A} (P : A -> Prop) `{!forall a, Decision (P a)} (l : list A) : Z := Z.of_nat (length (filter P l)).
