(** Independent specification of closed-form solutions. *)
From stdpp Require Import prelude.
From Coq Require Import Reals.
From Coquelicot Require Import Complex.
Open Scope C_scope.

(** The values of the polynomials a x^2 + b x + c and so on at a complex number. *)
Definition quadratic (a b c : R) (x : C) : C := RtoC a * x * x + RtoC b * x + RtoC c.
Definition cubic (a b c d : R) (x : C) : C := RtoC a * x * x * x + RtoC b * x * x + RtoC c * x + RtoC d.
Definition quartic (a b c d e : R) (x : C) : C :=
  RtoC a * x * x * x * x + RtoC b * x * x * x + RtoC c * x * x + RtoC d * x + RtoC e.
