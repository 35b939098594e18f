(** Independent specification of the visibility pyramid. *)
From stdpp Require Import gmap numbers.
From Coq Require Import QArith_base Qround.
Open Scope Z_scope.

(** The cell of a coordinate on level [i], which divides the dimension into 2^i equal half-open intervals; points
    outside the image count for the first and the last one. *)
Definition level_cell (i : nat) (size : Z) (x : Q) : Z :=
  if negb (Qle_bool 0 x) then 0
  else if Qle_bool (inject_Z size) x then 2 ^ Z.of_nat i - 1
  else Qfloor (inject_Z (2 ^ Z.of_nat i) * x / inject_Z size).

(** The occupied cells of level [i]. *)
Definition occupied (i : nat) (width height : Z) (points : list (Q * Q)) : gset (Z * Z) :=
  list_to_set ((fun p => (level_cell i width p.1, level_cell i height p.2)) <$> points).

(** The sum over the levels 1 .. n of the number of occupied cells times the number of cells. *)
Fixpoint score (n : nat) (width height : Z) (points : list (Q * Q)) : Z :=
  match n with
  | O => 0
  | S m => score m width height points + Z.of_nat (size (occupied n width height points)) * 4 ^ Z.of_nat n
  end.

(** The coordinate, in units of the finest cells, fits in an int. *)
Definition representable (levels : nat) (size : Z) (x : Q) : Prop :=
  (- inject_Z (2 ^ 31) <= inject_Z (2 ^ Z.of_nat levels) * x / inject_Z size)%Q /\
  (inject_Z (2 ^ Z.of_nat levels) * x / inject_Z size < inject_Z (2 ^ 31))%Q.
