(** Model of /repo/src/theia/math/histogram.h.

    The element type [T] is arbitrary, with its operator<, the value of -numeric_limits<T>::infinity() and that of
    numeric_limits<T>::max().  The counts are unbounded. *)
From stdpp Require Import list numbers.
From Coq Require Import QArith_base Qcanon.
From Verif Require Import Base.

(** std::upper_bound on a range that is partitioned with respect to "value < element": the position of the first
    element for which it holds, or the end. *)
Record upper_bound {T} (lt : T -> T -> bool) := UpperBound {
  ub_run : list T -> T -> nat;
  ub_spec : forall l v n, (n <= length l)%nat -> (forall i x, l !! i = Some x -> lt v x = true <-> (n <= i)%nat) ->
    ub_run l v = n
}.
Arguments UpperBound {T lt}.
Arguments ub_run {T lt}.
Arguments ub_spec {T lt}.

Section Histogram.
  Context {T : Type} (lt : T -> T -> bool) (minus_infinity max : T) (ub : upper_bound lt).

  (** histogram.h:110-112, boundaries_ and histogram_count_. *)
  Record histogram := Histogram { h_boundaries : list T; h_count : list Z }.

  (** histogram.h:52-60, the constructor. *)
  Definition h_new (boundaries : list T) : histogram :=
    let b := minus_infinity :: boundaries ++ [max] in
    Histogram b (replicate (length b) 0%Z).

  (** histogram.h:64-70, Add.  A negative index is out of range. *)
  Definition h_add (h : histogram) (value : T) : outcome histogram :=
    match ub_run ub (h_boundaries h) value with
    | O => UB
    | S bin_index =>
        c ← or_ub (h_count h !! bin_index);
        Ok (Histogram (h_boundaries h) (<[bin_index := (c + 1)%Z]> (h_count h)))
    end.

  (** A line of the printed message: "< a = n", "[a - b) = n" and "> a = n". *)
  Inductive line := Below (a : T) (n : Z) | Between (a b : T) (n : Z) | Above (a : T) (n : Z).

  (** histogram.h:87-93, the loop from [i] on for [todo] rounds. *)
  Fixpoint print_loop (h : histogram) (todo i : nat) : outcome (list line) :=
    match todo with
    | O => Ok []
    | S todo =>
        a ← or_ub (h_boundaries h !! i);
        b ← or_ub (h_boundaries h !! S i);
        n ← or_ub (h_count h !! i);
        rest ← print_loop h todo (S i);
        Ok (Between a b n :: rest)
    end.

  (** histogram.h:79-106, PrintString, as the list of its lines.  [boundaries_.size() - 2] is at least 0. *)
  Definition h_print (h : histogram) : outcome (list line) :=
    let n := length (h_boundaries h) in
    front ← or_ub (h_count h !! 0%nat);
    first ← (if decide (0 < front)%Z then b ← or_ub (h_boundaries h !! 1%nat); Ok [Below b front] else Ok []);
    middle ← print_loop h (n - 3) 1;
    c ← or_ub (h_count h !! (n - 2)%nat);
    last ← (if decide (0 < c)%Z then b ← or_ub (h_boundaries h !! (n - 2)%nat); Ok [Above b c] else Ok []);
    Ok (first ++ middle ++ last).
End Histogram.
Arguments Histogram {T}.
Arguments h_boundaries {T}.
Arguments h_count {T}.
Arguments Below {T}.
Arguments Between {T}.
Arguments Above {T}.

(** The two instances: T = double without NaN, and T = int, whose infinity() is 0. *)
Inductive dbl := NegInf | Fin (q : Qc) | PosInf.
Definition dbl_lt (a b : dbl) : bool :=
  match a, b with
  | NegInf, NegInf => false
  | NegInf, _ => true
  | _, NegInf => false
  | PosInf, _ => false
  | Fin _, PosInf => true
  | Fin x, Fin y => bool_decide (x < y)%Qc
  end.
Definition int_lt (a b : Z) : bool := bool_decide (a < b)%Z.
Definition int_minus_infinity : Z := 0.
Definition int_max : Z := 2 ^ 31 - 1.
