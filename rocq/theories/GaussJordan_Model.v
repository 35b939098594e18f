(** Model of /repo/src/theia/math/matrix/gauss_jordan.h.

    Scalars are real numbers and a matrix is a function from row and column indices (counted from zero) to scalars; only
    the entries inside the dimensions matter.  [None] stands for a matrix with entries that are not finite, after a
    division by zero.  Besides the matrix the functions of the model return the list of the coefficients that were left
    in place because they are smaller than the threshold; the code does not compute that list. *)
From stdpp Require Import prelude.
From Coq Require Import Reals.
From Verif Require Import Base.
Open Scope R_scope.

Definition matrix := nat -> nat -> R.

(** gauss_jordan.h:110 and 167, kPrecisionThreshold. *)
Definition threshold : R := 1 / 1000000000.

(** gauss_jordan.h:47-65, FindLargestAbsoluteValueInColumn: the value and its row. *)
Definition find_largest (M : matrix) (column starting_row ending_row : nat) : R * nat :=
  fold_left (fun best row => if Rlt_dec (Rabs best.1) (Rabs (M row column)) then (M row column, row) else best)
    (seq starting_row (ending_row - starting_row)) (M starting_row column, starting_row).

(** Row operations of Eigen: swap, division of a row, assignment of an entry, subtraction of a multiple of a row. *)
Definition swap_rows (r s : nat) (M : matrix) : matrix :=
  fun i => if decide (i = r) then M s else if decide (i = s) then M r else M i.
Definition divide_row (r : nat) (x : R) (M : matrix) : matrix :=
  fun i j => if decide (i = r) then M i j / x else M i j.
Definition set_entry (r c : nat) (x : R) (M : matrix) : matrix :=
  fun i j => if decide (i = r /\ j = c) then x else M i j.
Definition subtract_row (r : nat) (x : R) (s : nat) (M : matrix) : matrix :=
  fun i j => if decide (i = r) then M i j - x * M s j else M i j.

(** gauss_jordan.h:139-150 and 184-195: one row of the column [c] is cleared with the row [s]. *)
Definition clear (c s : nat) (st : matrix * list R) (row : nat) : matrix * list R :=
  let leading_coeff := st.1 row c in
  if Rlt_dec (Rabs leading_coeff) threshold then (st.1, st.2 ++ [leading_coeff])
  else (subtract_row row leading_coeff s st.1, st.2).

(** gauss_jordan.h:120-151: the body of the loop over the rows, for num_rows_to_process = [n]. *)
Definition top_down_step (n : nat) (st : matrix * list R) (current_row : nat) : option (matrix * list R) :=
  let '(max_value, max_row) := find_largest st.1 current_row current_row (n - 1) in
  if Req_EM_T max_value 0 then None
  else
    let M := set_entry current_row current_row 1
               (divide_row current_row max_value (swap_rows current_row max_row st.1)) in
    Some (fold_left (clear current_row current_row) (seq (current_row + 1) (n - (current_row + 1))) (M, st.2)).

Fixpoint top_down_loop (n : nat) (rows : list nat) (st : matrix * list R) : option matrix * list R :=
  match rows with
  | [] => (Some st.1, st.2)
  | row :: rows =>
      match top_down_step n st row with Some st => top_down_loop n rows st | None => (None, st.2) end
  end.

(** gauss_jordan.h:107-154, TopDownGaussJordan on a matrix with the given dimensions; also the number of rows
    processed. *)
Definition top_down (num_rows num_cols : nat) (last_row : Z) (M : matrix) : outcome (nat * (option matrix * list R)) :=
  _ ← check (bool_decide (1 <= last_row)%Z);
  _ ← check (bool_decide (num_rows <= num_cols)%nat);
  let n := Z.to_nat (Z.min (Z.of_nat num_rows) (last_row + 1)) in
  Ok (n, top_down_loop n (seq 0 n) (M, [])).

(** gauss_jordan.h:178-196: for current_row = [current_row], the rows current_row-1, ..., last. *)
Definition bottom_up_step (last : nat) (st : matrix * list R) (current_row : nat) : matrix * list R :=
  fold_left (clear current_row current_row) (reverse (seq last (current_row - last))) st.

(** gauss_jordan.h:161-197, BottomUpGaussJordan, on top of the list of coefficients left so far. *)
Definition bottom_up (num_rows num_cols start_row : nat) (last : Z) (st : matrix * list R) : outcome (matrix * list R) :=
  _ ← check (bool_decide (start_row <= Nat.min num_rows num_cols)%nat);
  _ ← check (bool_decide (0 <= last)%Z);
  _ ← check (bool_decide (last <= Z.of_nat start_row)%Z);
  if decide (Z.of_nat start_row = last) then Ok st
  else Ok (fold_left (bottom_up_step (Z.to_nat last))
             (reverse (seq (Z.to_nat last) (start_row - Z.to_nat last))) st).

(** gauss_jordan.h:215-229, GaussJordan.  When the first phase produced entries that are not finite the second one does
    not remove them. *)
Definition gauss_jordan (num_rows num_cols : nat) (top_down_last bottom_up_last : Z) (M : matrix)
  : outcome (option matrix * list R) :=
  '(n, (M1, log)) ← top_down num_rows num_cols top_down_last M;
  match M1 with
  | Some M1 => '(M2, log) ← bottom_up num_rows num_cols n bottom_up_last (M1, log); Ok (Some M2, log)
  | None => _ ← bottom_up num_rows num_cols n bottom_up_last (M, []); Ok (None, log)
  end.

(** gauss_jordan.h:240-243, GaussJordan without row arguments. *)
Definition gauss_jordan_all (num_rows num_cols : nat) (M : matrix) : outcome (option matrix * list R) :=
  gauss_jordan num_rows num_cols (Z.of_nat num_rows - 1) 0 M.
