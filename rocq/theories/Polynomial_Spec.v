(** Independent specification of polynomials. *)
From stdpp Require Import prelude.
From Coq Require Import Reals.
Open Scope R_scope.

(** The value of a polynomial: the sum of coefficient times power of x, leading coefficient first. *)
Fixpoint value (p : list R) (x : R) : R :=
  match p with
  | [] => 0
  | c :: p => c * x ^ length p + value p x
  end.

(** [p] has no superfluous leading zero. *)
Definition normal (p : list R) : Prop :=
  match p with
  | [] => True
  | [_] => True
  | c :: _ => c <> 0
  end.

(** [x] is a minimum of [f] on the interval. *)
Definition minimum (f : R -> R) (lo hi x : R) : Prop :=
  lo <= x <= hi /\ forall y, lo <= y <= hi -> f x <= f y.
