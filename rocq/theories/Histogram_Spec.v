(** Independent specification of histograms. *)
From stdpp Require Import list numbers.
From Verif Require Import Base Histogram_Model.

Section Spec.
  Context {T : Type} (lt : T -> T -> bool).

  (** A strict total order. *)
  Definition total_order : Prop :=
    (forall x, lt x x = false) /\
    (forall x y z, lt x y = true -> lt y z = true -> lt x z = true) /\
    (forall x y, lt x y = true \/ x = y \/ lt y x = true).

  (** a <= b. *)
  Definition le (a b : T) : Prop := lt b a = false.

  (** How many of the values are in the half-open interval [a, b), and from a on. *)
  Definition count_between (a b : T) (vs : list T) : Z :=
    Z.of_nat (length (filter (fun v => lt v a = false /\ lt v b = true) vs)).
  Definition count_from (a : T) (vs : list T) : Z := Z.of_nat (length (filter (fun v => lt v a = false) vs)).

  Definition sum (l : list Z) : Z := foldr Z.add 0%Z l.

  (** The number on a line. *)
  Definition line_count (l : @line T) : Z :=
    match l with Below _ n => n | Between _ _ n => n | Above _ n => n end.
End Spec.
