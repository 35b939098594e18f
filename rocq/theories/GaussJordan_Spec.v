(** Independent specification of linear systems. *)
From stdpp Require Import prelude.
From Coq Require Import Reals.
Open Scope R_scope.

(** f 0 + ... + f (n-1) *)
Fixpoint sum (n : nat) (f : nat -> R) : R := match n with O => 0 | S n => sum n f + f n end.

(** [x] solves the homogeneous linear system given by the first [r] rows and [c] columns of [M].  A system M x = b is
    the homogeneous system of the matrix [M | b] for vectors with -1 as last entry. *)
Definition solves (r c : nat) (M : nat -> nat -> R) (x : nat -> R) : Prop :=
  forall i, (i < r)%nat -> sum c (fun j => M i j * x j) = 0.

(** The upper left block with [n] rows and columns is invertible. *)
Definition invertible_block (n : nat) (M : nat -> nat -> R) : Prop :=
  forall x, solves n n M x -> forall j, (j < n)%nat -> x j = 0.

(** The entries of the identity matrix. *)
Definition delta (i j : nat) : R := if decide (i = j) then 1 else 0.
