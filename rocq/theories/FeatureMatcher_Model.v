(** Model of /repo/src/theia/matching/feature_matcher.cc: which image pairs are matched, and how the work
    is split.  The result of matching and verifying one pair (MatchImagePair, GeometricVerification) is an
    argument: [result i] for the pair at index [i] (an index, because geometric verification is randomised,
    so that equal pairs need not give equal results). *)
From stdpp Require Import gmap strings.
From Verif Require Import Base.

Notation name := string.
Notation image_pair := (string * string)%type.

Section fm.
Context {R : Type}.

(** feature_matcher.h:134-143, the members that change. *)
Record matcher := Matcher {
  fm_names : list name;
  fm_pairs : list image_pair }.

Definition fm_new : matcher := Matcher [] [].

(** Conversion of an unsigned value to int. *)
Definition to_int (z : Z) : Z := (z + 2 ^ 31) mod 2 ^ 32 - 2 ^ 31.

(** feature_matcher.cc:72-76: the two loops of SelectAllPairs. *)
Fixpoint all_pairs (names : list name) : list image_pair :=
  match names with
  | [] => []
  | a :: rest => map (fun b => (a, b)) rest ++ all_pairs rest
  end.

(** feature_matcher.cc:63-78, SelectAllPairs on an empty vector.  [reserve] of a negative int throws
    std::length_error, which ends the program like a failed CHECK. *)
Definition select_all_pairs (names : list name) : outcome (list image_pair) :=
  let n := Z.of_nat (length names) in
  _ ← check (bool_decide (0 <= to_int ((n * (n - 1)) mod 2 ^ 64 / 2))%Z);
  Ok (all_pairs names).

(** feature_matcher.cc:88-90, AddImage; 92-98, AddImages. *)
Definition add_image (m : matcher) (n : name) : matcher := Matcher (fm_names m ++ [n]) (fm_pairs m).
Definition add_images (m : matcher) (l : list name) : matcher := foldl add_image m l.

(** feature_matcher.cc:100-103, SetImagePairsToMatch. *)
Definition set_pairs (m : matcher) (l : list image_pair) : matcher := Matcher (fm_names m) l.

(** feature_matcher.h:132, kMaxThreadingStepSize_. *)
Definition max_step : Z := 20.

(** feature_matcher.cc:122-125, the loop that adds tasks (signed overflow is undefined). *)
Fixpoint chunk_loop (fuel : nat) (n step i : Z) : outcome (list (Z * Z)) :=
  match fuel with
  | O => Hang
  | S fuel =>
      if bool_decide (i < n)%Z then
        if bool_decide (i + step < 2 ^ 31)%Z then
          rest ← chunk_loop fuel n step (i + step);
          Ok ((i, Z.min n (i + step)) :: rest)
        else UB
      else Ok []
  end.

(** feature_matcher.cc:115-125: the index ranges given to the pool.  The constructor of the pool aborts
    when there are no threads (threadpool.cc:82), before the division. *)
Definition chunks (num_pairs : nat) (num_threads_option : Z) : outcome (list (Z * Z)) :=
  let n := to_int (Z.of_nat num_pairs) in
  let threads := Z.min num_threads_option n in
  _ ← check (bool_decide (1 <= threads)%Z);
  let step := Z.min max_step (n / threads) in
  chunk_loop (S (Z.to_nat n)) n step 0.

(** feature_matcher.cc:136-200, MatchAndVerifyImagePairs, one iteration: GetFeatures aborts when there are
    no features; a successful match is stored under the pair of names. *)
Definition match_pair (features : gset name) (pairs : list image_pair) (result : nat -> option R)
    (db : gmap image_pair R) (i : nat) : outcome (gmap image_pair R) :=
  p ← or_ub (pairs !! i);
  _ ← check (bool_decide (p.1 ∈ features));
  _ ← check (bool_decide (p.2 ∈ features));
  Ok (match result i with Some r => <[p := r]> db | None => db end).

(** The indices of a range [start, end). *)
Definition indices (c : Z * Z) : list nat := seq (Z.to_nat c.1) (Z.to_nat (c.2 - c.1)).

(** feature_matcher.cc:105-134, MatchImages.  The threads of the pool run the chunks concurrently, so that
    the pairs are handled in some order [sched] that the pool chooses; PutImagePairMatch is atomic
    (in_memory_features_and_matches_database.cc:126-132). *)
Definition match_images (threads : Z) (sched : list nat -> list nat) (features : gset name)
    (result : nat -> option R) (m : matcher) (db : gmap image_pair R)
    : outcome (matcher * gmap image_pair R) :=
  pairs ← match fm_pairs m with
          | [] => select_all_pairs (fm_names m)
          | l => Ok l
          end;
  cs ← chunks (length pairs) threads;
  db' ← run_steps (match_pair features pairs result) db (sched (concat (map indices cs)));
  Ok (Matcher (fm_names m) pairs, db').

End fm.
