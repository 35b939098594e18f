(** Model of the samplers: /repo/src/theia/solvers/random_sampler.cc, exhaustive_sampler.cc and
    prosac_sampler.cc.

    [int] values are [Z] without overflow (all of them are bounded by the number of data points, except the
    sample counter of PROSAC). *)
From stdpp Require Import gmap.
From Coq Require Import QArith Qround.
From Verif Require Import Base.
Open Scope Z_scope.

(** The random numbers.  A stream of arbitrary integers drives all draws; quantifying over all streams
    covers every behaviour of the generator. *)
Definition stream := nat -> Z.
Definition shead (r : stream) : Z := r 0%nat.
Definition stail (r : stream) : stream := fun n => r (S n).

(** /repo/src/theia/util/random.cc:83-86, RandInt: a number between [lo] and [hi], inclusive;
    std::uniform_int_distribution requires lo <= hi. *)
Definition rand_int (lo hi : Z) (r : stream) : outcome (Z * stream) :=
  if decide (lo <= hi) then Ok (lo + shead r mod (hi - lo + 1), stail r) else UB.

(** ** random_sampler.cc *)

(** random_sampler.cc:53-58, Initialize; the state is sample_indices_. *)
Definition rs_initialize (min_num_samples num_datapoints : Z) : outcome (list Z) :=
  _ ← check (bool_decide (min_num_samples <= num_datapoints));
  Ok (seqZ 0 num_datapoints).

(** std::swap of two elements of a vector (the same element twice is allowed). *)
Definition swap (l : list Z) (i j : nat) : outcome (list Z) :=
  x ← or_ub (l !! i);
  y ← or_ub (l !! j);
  Ok (<[j := x]> (<[i := y]> l)).

(** random_sampler.cc:64-69, the loop, from index [i] for [todo] more rounds.  The result is the state, the
    random stream and the output vector. *)
Fixpoint rs_loop (todo : nat) (i : nat) (indices : list Z) (r : stream) (subset : list Z)
    : outcome (list Z * stream * list Z) :=
  match todo with
  | O => Ok (indices, r, subset)
  | S todo' =>
      '(j, r) ← rand_int (Z.of_nat i) (Z.of_nat (length indices) - 1) r;
      indices ← swap indices i (Z.to_nat j);
      x ← or_ub (indices !! i);
      rs_loop todo' (S i) indices r (subset ++ [x])
  end.

(** random_sampler.cc:62-72, Sample. *)
Definition rs_sample (min_num_samples : Z) (indices : list Z) (r : stream) (subset : list Z)
    : outcome (list Z * stream * list Z) :=
  rs_loop (Z.to_nat min_num_samples) 0 indices r subset.

(** ** exhaustive_sampler.cc *)

(** exhaustive_sampler.h:59-72, the data members. *)
Record es_state := ES { es_n : Z; es_i : Z; es_j : Z }.

(** exhaustive_sampler.cc:45-53, the constructor; num_datapoints_ is not initialised there, the model
    gives it the value 0. *)
Definition es_new (min_num_samples : Z) : outcome es_state :=
  _ ← check (bool_decide (min_num_samples = 2));
  Ok (ES 0 0 1).

(** exhaustive_sampler.cc:55-59, Initialize: i_ and j_ are not reset. *)
Definition es_initialize (s : es_state) (num_datapoints : Z) : outcome es_state :=
  _ ← check (bool_decide (2 <= num_datapoints));
  Ok (ES num_datapoints (es_i s) (es_j s)).

(** exhaustive_sampler.cc:62-79, Sample. *)
Definition es_sample (s : es_state) (subset : list Z) : es_state * list Z :=
  let subset := subset ++ [es_i s; es_j s] in
  let j := es_j s + 1 in
  if decide (es_n s <= j) then
    let i := es_i s + 1 in
    let i := if decide (es_n s - 1 <= i) then 0 else i in
    (ES (es_n s) i (i + 1), subset)
  else (ES (es_n s) (es_i s) j, subset).

(** ** prosac_sampler.cc *)

Global Instance Qlt_dec : RelDecision Qlt.
Proof. intros x y. unfold Qlt. apply _. Defined.

(** prosac_sampler.h:65-71, the data members. *)
Record ps_state := PS { ps_n : Z; ps_convergence : Z; ps_k : Z }.

(** prosac_sampler.cc:53-58, Initialize. *)
Definition ps_initialize (num_datapoints : Z) : ps_state := PS num_datapoints 20000 1.

(** prosac_sampler.cc:61, SetSampleNumber. *)
Definition ps_set_sample_number (s : ps_state) (k : Z) : ps_state := PS (ps_n s) (ps_convergence s) k.

(** prosac_sampler.cc:69-74: T_n for n = m.  The [double]s are modelled by exact rationals. *)
Definition ps_t_n (m N conv : Z) : Q :=
  foldl (fun t i => t * (inject_Z (m - i) / inject_Z (N - i)))%Q (inject_Z conv) (seqZ 0 m).

(** prosac_sampler.cc:76-85, the growth loop: one round for each t = 1, ..., k. *)
Fixpoint ps_grow (todo : nat) (t m N : Z) (t_n t_n' : Q) (n : Z) : Q * Z :=
  match todo with
  | O => (t_n', n)
  | S todo' =>
      if decide ((t_n' < inject_Z t)%Q /\ n < N) then
        let t_n_plus1 := ((t_n * (inject_Z n + 1)) / (inject_Z n + 1 - inject_Z m))%Q in
        ps_grow todo' (t + 1) m N t_n_plus1 (t_n' + inject_Z (Qceiling (t_n_plus1 - t_n)))%Q (n + 1)
      else ps_grow todo' (t + 1) m N t_n t_n' n
  end.

(** prosac_sampler.cc:92-97 and 109-114: draw until the number is new.  The C++ loop has no bound; running
    out of [fuel] is the outcome [Hang]. *)
Fixpoint ps_draw (fuel : nat) (hi : Z) (used : list Z) (r : stream) : outcome (Z * stream) :=
  match fuel with
  | O => Hang
  | S fuel' =>
      '(x, r) ← rand_int 0 hi r;
      if decide (x ∈ used) then ps_draw fuel' hi used r else Ok (x, r)
  end.

Fixpoint ps_draws (fuel : nat) (count : nat) (hi : Z) (used : list Z) (r : stream)
    : outcome (list Z * stream) :=
  match count with
  | O => Ok (used, r)
  | S count' =>
      '(x, r) ← ps_draw fuel hi used r;
      ps_draws fuel count' hi (used ++ [x]) r
  end.

(** prosac_sampler.cc:67-126, Sample. *)
Definition ps_sample (fuel : nat) (m : Z) (s : ps_state) (r : stream) (subset : list Z)
    : outcome (ps_state * stream * list Z) :=
  let N := ps_n s in
  let '(t_n', n) := ps_grow (Z.to_nat (ps_k s)) 1 m N (ps_t_n m N (ps_convergence s)) 1%Q m in
  '(subset, r) ←
    (if decide (t_n' < inject_Z (ps_k s))%Q
     then '(xs, r) ← ps_draws fuel (Z.to_nat m) (n - 1) [] r; Ok (subset ++ xs, r)
     else '(xs, r) ← ps_draws fuel (Z.to_nat (m - 1)) (n - 2) [] r; Ok (subset ++ xs ++ [n], r));
  _ ← check (bool_decide (Z.of_nat (length subset) = m));
  Ok (PS N (ps_convergence s) (ps_k s + 1), r, subset).
