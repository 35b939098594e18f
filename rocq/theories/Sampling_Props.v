(** C28, C29, C30, C50: the samplers. *)
From stdpp Require Import gmap.
From Coq Require Import QArith.
From Verif Require Import Base Sampling_Model Sampling_Spec Sampling_Proofs.
Open Scope Z_scope.

(** C28.  After Initialize(n) every one of any number of samples has exactly m different indices below n,
    for every stream of random numbers. *)
Theorem random_sampler_distinct : forall (m n : Z) (k : nat) (r : stream), 0 <= m <= n ->
  exists indices xss, rs_initialize m n = Ok indices /\ rs_run k m indices r = Ok xss /\
    length xss = k /\ forall xs, xs ∈ xss -> good_sample m n xs.
Proof.
  intros m n k r Hm. exists (seqZ 0 n).
  destruct (rs_run_lemma m n k Hm (seqZ 0 n) r (Permutation_refl _)) as (xss & ? & ? & ?).
  exists xss. split_and!; try done. unfold rs_initialize. by rewrite bool_decide_eq_true_2 by lia.
Qed.
Print Assumptions random_sampler_distinct.

(** Too few data abort the program. *)
Theorem random_sampler_too_few : forall m n : Z, n < m -> rs_initialize m n = CheckFail.
Proof. intros m n H. unfold rs_initialize. by rewrite bool_decide_eq_false_2 by lia. Qed.
Print Assumptions random_sampler_too_few.

(** C50.  From any state left by earlier samples, every ordered sample of m out of n is the result of
    exactly one sequence of draws (the i-th uniform on n - i values): uniform draws give uniform samples. *)
Theorem random_sampler_uniform : forall (m n : Z) (indices xs : list Z),
  0 <= m <= n -> indices ≡ₚ seqZ 0 n -> good_sample m n xs ->
  exists ds, draws m n ds /\
    (forall r, starts_with r ds -> exists indices' r', rs_sample m indices r [] = Ok (indices', r', xs)) /\
    (forall ds' r indices' r', draws m n ds' -> starts_with r ds' ->
       rs_sample m indices r [] = Ok (indices', r', xs) -> ds' = ds).
Proof. exact random_sampler_uniform_lemma. Qed.
Print Assumptions random_sampler_uniform.

Example random_sampler_sample :
  good_sample 3 5 [4; 0; 2] /\
  rs_run 2 3 (seqZ 0 5) (fun k => nth k [9; 0; 1; 3; 2; 2] 0) = Ok [[4; 1; 3]; [2; 4; 0]] /\
  exists r ind' r', rs_sample 3 [2; 4; 1; 0; 3] r [] = Ok (ind', r', [4; 0; 2]).
Proof.
  split_and!.
  - split_and!; [done|by apply (bool_decide_unpack _); vm_compute|].
    intros x. rewrite !elem_of_cons, elem_of_nil. lia.
  - by vm_compute.
  - exists (fun k => nth k [1; 2; 1] 0). eexists _, _. vm_compute. done.
Qed.

(** C29.  After the first Initialize and any history of samples and of further calls to Initialize with
    numbers that do not get smaller: all samples are pairs a < b below n, and any n(n-1)/2 consecutive
    ones contain every pair exactly once. *)
Theorem exhaustive_sampler_partial : forall (n0 : Z) (ops : list es_op), 2 <= n0 -> growing n0 ops ->
  exists s0 s1 s, es_new 2 = Ok s0 /\ es_initialize s0 n0 = Ok s1 /\ run_steps es_step s1 ops = Ok s /\
    (forall k, exists a b, es_nth k s = [a; b] /\ 0 <= a < b /\ b < es_n s) /\
    (forall a b, 0 <= a < b -> b < es_n s ->
       exists k, 2 * Z.of_nat k < es_n s * (es_n s - 1) /\ es_nth k s = [a; b] /\
         forall k', 2 * Z.of_nat k' < es_n s * (es_n s - 1) -> es_nth k' s = [a; b] -> k' = k).
Proof.
  intros n0 ops Hn Hg. exists (ES 0 0 1).
  destruct (es_history_lemma ops (ES 0 0 1) eq_refl n0 Hn Hg) as (s1 & s & H1 & H2 & Hv).
  exists s1, s. split_and!; [done|done|done| |]; by apply exhaustive_lemma.
Qed.
Print Assumptions exhaustive_sampler_partial.

(** Missing: Initialize does not restart the enumeration, so after Initialize with a smaller number the
    next sample can be out of range. *)
Theorem exhaustive_sampler_refuted :
  exists s0 s1 s, es_new 2 = Ok s0 /\ es_initialize s0 10 = Ok s1 /\
    run_steps es_step s1 [ESample; ESample; ESample; ESample; EInit 3] = Ok s /\
    es_n s = 3 /\ es_nth 0 s = [0; 5].
Proof. exists (ES 0 0 1), (ES 10 0 1), (ES 3 0 5). split_and!; reflexivity. Qed.
Print Assumptions exhaustive_sampler_refuted.

Example exhaustive_sampler_sample :
  growing 3 [ESample; EInit 4; ESample] /\
  exists s0 s1 s, es_new 2 = Ok s0 /\ es_initialize s0 3 = Ok s1 /\
    run_steps es_step s1 [ESample; EInit 4; ESample] = Ok s /\
    (fun k => es_nth k s) <$> seq 0 6 = [[0; 3]; [1; 2]; [1; 3]; [2; 3]; [0; 1]; [0; 2]].
Proof. split; [simpl; lia|]. exists (ES 0 0 1), (ES 3 0 1), (ES 4 0 3). split_and!; reflexivity. Qed.

(** C30.  When a PROSAC sample is produced it has m different indices and the sample counter is advanced;
    the indices are below n, except that the last one can be n itself. *)
Theorem prosac_sampler_partial : forall (fuel : nat) (m : Z) (s : ps_state) (r : stream) (s' : ps_state) (r' : stream)
    (xs : list Z),
  1 <= m <= ps_n s -> ps_sample fuel m s r [] = Ok (s', r', xs) ->
  s' = PS (ps_n s) (ps_convergence s) (ps_k s + 1) /\
  Z.of_nat (length xs) = m /\ NoDup xs /\
  (forall x, x ∈ xs -> 0 <= x <= ps_n s) /\
  (good_sample m (ps_n s) xs \/
   exists ys, xs = ys ++ [ps_n s] /\ forall y, y ∈ ys -> 0 <= y < ps_n s - 1).
Proof. exact prosac_lemma. Qed.
Print Assumptions prosac_sampler_partial.

(** A sample is always produced, unless the random numbers keep avoiding some value. *)
Theorem prosac_sampler_terminates : forall (m : Z) (s : ps_state) (r : stream), 1 <= m <= ps_n s -> fair r ->
  exists fuel s' r' xs, ps_sample fuel m s r [] = Ok (s', r', xs) /\ fair r'.
Proof. exact prosac_terminates_lemma. Qed.
Print Assumptions prosac_sampler_terminates.

(** With as many data as a sample needs, the very first sample always contains the index n, which is out of
    range; with more data it happens once the growing subset is everything (here: sample 2 of 2 out of 3 data). *)
Theorem prosac_sampler_refuted :
  (forall (fuel : nat) (m : Z) (r r' : stream) (s' : ps_state) (xs : list Z), 1 <= m ->
     ps_sample fuel m (ps_initialize m) r [] = Ok (s', r', xs) -> m ∈ xs) /\
  (exists r,
     ('(s1, r1, xs1) ← ps_sample 9 2 (ps_initialize 3) r [];
      '(_, _, xs2) ← ps_sample 9 2 s1 r1 [];
      Ok (xs1, xs2)) = Ok ([0; 2], [1; 3])).
Proof.
  split.
  - intros fuel m r r' s' xs. apply prosac_first_lemma.
  - exists (fun k => Z.of_nat k). by vm_compute.
Qed.
Print Assumptions prosac_sampler_refuted.

Example prosac_sampler_sample : fair (fun k => Z.of_nat k) /\
  exists s' r', ps_sample 20 3 (ps_set_sample_number (ps_initialize 10) 2) (fun k => Z.of_nat (k * k)) [] = Ok (s', r', [0; 1; 4]).
Proof.
  split.
  - intros b x n Hx. exists (n * Z.to_nat b + Z.to_nat x)%nat. split; [nia|].
    replace (Z.of_nat (n * Z.to_nat b + Z.to_nat x)) with (x + Z.of_nat n * b) by lia.
    rewrite Z_mod_plus_full, Z.mod_small; lia.
  - eexists _, _. vm_compute. done.
Qed.
