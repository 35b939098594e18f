(** Property C40: reservoir sampling. *)
From stdpp Require Import prelude.
From Verif Require Import Base Sampling_Model Sampling_Spec Reservoir_Model Reservoir_Spec Reservoir_Proofs.
Open Scope Z_scope.

(** C40, every stream: the reservoir holds min(N, K) of the N added elements, and all of them when N <= K. *)
Theorem reservoir_contents {E} (k : Z) (r : stream) (xs : list E) : 0 <= k ->
  exists s0 s, rv_new k r = Ok s0 /\ run_steps rv_add s0 xs = Ok s /\
    rv_added s = Z.of_nat (length xs) /\
    Z.of_nat (length (rv_samples s)) = Z.min (Z.of_nat (length xs)) k /\
    rv_samples s ⊆+ xs /\ (Z.of_nat (length xs) <= k -> rv_samples s = xs).
Proof.
  intros Hk. destruct (rv_invariant k xs r Hk) as (s0 & s & H1 & H2 & H3 & H4 & H5 & H6 & H7).
  exists s0, s. split_and!; try done. intros H. by apply H7.
Qed.

(** C40, uniformity: there is a list of all the equally likely sequences of draws, each once; the reservoir is
    determined by the sequence; and each of the N elements is in the reservoir for K/N of the sequences. *)
Theorem reservoir_uniform {E} `{!EqDecision E} (k : nat) (xs : list E) : (k <= length xs)%nat -> NoDup xs ->
  exists (sequences : list (list Z)) (result : list Z -> list E),
    NoDup sequences /\
    (forall ds, ds ∈ sequences <-> is_draws (Z.of_nat k) (Z.of_nat (length xs - k)) ds) /\
    (forall ds r, ds ∈ sequences -> starts_with r ds ->
       exists s0 s, rv_new (Z.of_nat k) r = Ok s0 /\ run_steps rv_add s0 xs = Ok s /\ rv_samples s = result ds) /\
    (forall x, x ∈ xs -> Z.of_nat (length xs) * number (fun ds => x ∈ result ds) sequences =
       Z.of_nat k * Z.of_nat (length sequences)).
Proof.
  intros Hk Hnd. exists (draw_lists k (length xs - k)), (result k xs). split_and!.
  - apply NoDup_draw_lists.
  - apply elem_of_draw_lists.
  - intros ds r Hds Hr. apply run_result; [done| |done]. by apply elem_of_draw_lists.
  - intros x Hx. apply uniform_count; [lia|done|done].
Qed.

Example reservoir_sample :
  is_draws 2 3 [1; 3; 0] /\
  run_steps rv_add (Reservoir 2 0 (fun n => nth n [1; 3; 0] 0) []) [10; 11; 12; 13; 14]%nat =
    (s ← run_steps rv_add (Reservoir 2 0 (fun n => nth n [1; 3; 0] 0) []) [10; 11; 12; 13; 14]%nat;
     Ok (Reservoir 2 5 (rv_rng s) [14; 12]%nat)) /\
  length (draw_lists 2 3) = 60%nat /\
  number (fun ds => 11%nat ∈ result 2 [10; 11; 12; 13; 14]%nat ds) (draw_lists 2 3) = 24.
Proof.
  split_and!; [| |vm_compute; reflexivity|vm_compute; reflexivity].
  - split; [done|]. intros [|[|[|i]]] d; simpl; intros; simplify_eq; lia.
  - cbv. done.
Qed.

Print Assumptions reservoir_contents.
Print Assumptions reservoir_uniform.
