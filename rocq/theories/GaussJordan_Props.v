(** Property C37: Gauss-Jordan elimination. *)
From stdpp Require Import prelude.
From Coq Require Import Reals Lra.
From Verif Require Import Base GaussJordan_Model GaussJordan_Spec GaussJordan_Proofs.
Open Scope R_scope.

(** C37, first part.  Whatever the matrix and the row arguments, the solutions of the linear system are unchanged. *)
Theorem gauss_jordan_solutions rows cols td bu M M' log :
  gauss_jordan rows cols td bu M = Ok (Some M', log) -> forall x, solves rows cols M x <-> solves rows cols M' x.
Proof. exact (gauss_jordan_same rows cols td bu M M' log). Qed.

(** C37, second part, partial.  For row arguments in range the function returns; rows below the last one to process are
    untouched.  If only zero coefficients are left in place (no non-zero coefficient is below the threshold 1e-9), then
    the result is finite if and only if two blocks are invertible: the upper left block of the [n] rows to process, and
    the one without its last row and column.  In that case the block of the result is the identity in the rows from
    [bu] on and upper triangular with unit diagonal above.  Missing: the condition on the smaller block should not be
    needed, and small coefficients should be eliminated. *)
Theorem gauss_jordan_partial rows cols td bu M : (1 <= td)%Z -> (rows <= cols)%nat ->
  let n := Z.to_nat (Z.min (Z.of_nat rows) (td + 1)) in
  (0 <= bu <= Z.of_nat n)%Z ->
  exists r log, gauss_jordan rows cols td bu M = Ok (r, log) /\
    (forall M', r = Some M' -> forall i j, (n <= i)%nat -> M' i j = M i j) /\
    (Forall (fun x => x = 0) log ->
     (r <> None <-> invertible_block n M /\ invertible_block (n - 1) M) /\
     (forall M', r = Some M' -> forall i j, (i < n)%nat -> (j < n)%nat -> (bu <= Z.of_nat i)%Z \/ (j <= i)%nat ->
        M' i j = delta i j)).
Proof. exact (gauss_jordan_exact rows cols td bu M). Qed.

Ltac entries :=
  unfold set_entry, divide_row, swap_rows, subtract_row; repeat (case_decide; try (exfalso; lia)); try (cbn; lra).

(** The matrix 2 1 3 / 4 5 6 becomes 1 0 3/2 / 0 1 0. *)
Definition sample : matrix := fun i j => nth j (nth i [[2; 1; 3]; [4; 5; 6]] []) 0.
Example gauss_jordan_sample :
  exists M', gauss_jordan_all 2 3 sample = Ok (Some M', []) /\
    M' 0%nat 0%nat = 1 /\ M' 0%nat 1%nat = 0 /\ M' 0%nat 2%nat = 3/2 /\
    M' 1%nat 0%nat = 0 /\ M' 1%nat 1%nat = 1 /\ M' 1%nat 2%nat = 0.
Proof.
  unfold gauss_jordan_all. rewrite gauss_jordan_run by lia.
  change (Z.to_nat (Z.min (Z.of_nat 2) (Z.of_nat 2 - 1 + 1))) with 2%nat. cbn [seq top_down_loop].
  assert (E0 : find_largest sample 0 0 1 = (2, 0%nat)).
  { unfold find_largest. cbn. destruct (Rlt_dec _ _); done. }
  unfold top_down_step at 1. cbn [fst snd]. replace (2 - 1)%nat with 1%nat by done. rewrite E0.
  destruct (Req_EM_T 2 0) as [|_]; [lra|].
  cbn [seq fold_left Nat.add Nat.sub]. change (fold_left (clear 0 0) [1%nat]) with (fun st => clear 0 0 st 1). cbn beta.
  set (M1 := set_entry 0 0 1 (divide_row 0 2 (swap_rows 0 0 sample))).
  assert (C1 : clear 0 0 (M1, []) 1 = (subtract_row 1 (M1 1%nat 0%nat) 0 M1, [])).
  { unfold clear. cbn [fst snd]. destruct (Rlt_dec _ _) as [Hl|]; [exfalso|done].
    assert (V : M1 1%nat 0%nat = 4) by (unfold M1; entries).
    rewrite V in Hl. unfold threshold in Hl. rewrite Rabs_pos_eq in Hl; lra. }
  rewrite C1. set (M2 := subtract_row 1 (M1 1%nat 0%nat) 0 M1).
  assert (V : M2 0%nat 0%nat = 1 /\ M2 0%nat 1%nat = 1/2 /\ M2 0%nat 2%nat = 3/2 /\ M2 1%nat 0%nat = 0 /\ M2 1%nat 1%nat = 3 /\ M2 1%nat 2%nat = 0).
  { unfold M2, M1. split_and!; entries. }
  destruct V as (V00 & V01 & V02 & V10 & V11 & V12).
  assert (E1 : top_down_step 2 (M2, []) 1 = Some (set_entry 1 1 1 (divide_row 1 3 (swap_rows 1 1 M2)), [])).
  { unfold top_down_step, find_largest. cbn [fst snd seq fold_left Nat.sub Nat.add]. rewrite V11.
    destruct (Req_EM_T 3 0) as [|_]; [lra|done]. }
  rewrite E1. set (M3 := set_entry 1 1 1 (divide_row 1 3 (swap_rows 1 1 M2))). cbn zeta. cbn [fst snd].
  assert (W : M3 0%nat 0%nat = 1 /\ M3 0%nat 1%nat = 1/2 /\ M3 0%nat 2%nat = 3/2 /\ M3 1%nat 0%nat = 0 /\ M3 1%nat 1%nat = 1 /\ M3 1%nat 2%nat = 0).
  { clearbody M2. unfold M3. split_and!; entries. }
  destruct W as (W00 & W01 & W02 & W10 & W11 & W12).
  change (reverse (seq (Z.to_nat 0) (2 - Z.to_nat 0))) with [1%nat; 0%nat]. cbn [fold_left].
  assert (B1 : bottom_up_step (Z.to_nat 0) (M3, []) 1 = (subtract_row 0 (1/2) 1 M3, [])).
  { unfold bottom_up_step. change (reverse (seq (Z.to_nat 0) (1 - Z.to_nat 0))) with [0%nat]. cbn [fold_left].
    unfold clear. cbn [fst snd]. rewrite W01. destruct (Rlt_dec _ _) as [Hl|]; [|done].
    exfalso. unfold threshold in Hl. rewrite Rabs_pos_eq in Hl; lra. }
  rewrite B1. change (bottom_up_step (Z.to_nat 0) ?st 0) with st. cbn [fst snd]. eexists. split; [done|]. clearbody M3. split_and!; entries.
Qed.

(** An invertible matrix whose first pivot is in the last row is not reduced; and a small coefficient stays. *)
Definition swapped : matrix := fun i j => nth j (nth i [[0; 1]; [1; 0]] []) 0.
Definition nearly : matrix := fun i j => nth j (nth i [[1; 0]; [1/2000000000; 1]] []) 0.
Theorem gauss_jordan_refuted :
  (invertible_block 2 swapped /\ gauss_jordan_all 2 2 swapped = Ok (None, [])) /\
  (invertible_block 2 nearly /\ exists M' log, gauss_jordan_all 2 2 nearly = Ok (Some M', log) /\ M' 1%nat 0%nat <> 0).
Proof.
  split; split.
  - intros x Hx j Hj. pose proof (Hx 0%nat ltac:(lia)) as H0. pose proof (Hx 1%nat ltac:(lia)) as H1.
    cbn in H0, H1. destruct j as [|[|j]]; [lra|lra|lia].
  - unfold gauss_jordan_all. rewrite gauss_jordan_run by lia.
    change (Z.to_nat (Z.min (Z.of_nat 2) (Z.of_nat 2 - 1 + 1))) with 2%nat. cbn [seq top_down_loop].
    assert (E0 : top_down_step 2 (swapped, []) 0 = None).
    { unfold top_down_step, find_largest. cbn. destruct (Rlt_dec _ _); destruct (Req_EM_T 0 0); done. }
    by rewrite E0.
  - intros x Hx j Hj. pose proof (Hx 0%nat ltac:(lia)) as H0. pose proof (Hx 1%nat ltac:(lia)) as H1.
    cbn in H0, H1. destruct j as [|[|j]]; [lra|lra|lia].
  - unfold gauss_jordan_all. rewrite gauss_jordan_run by lia.
    change (Z.to_nat (Z.min (Z.of_nat 2) (Z.of_nat 2 - 1 + 1))) with 2%nat. cbn [seq top_down_loop].
    set (M1 := set_entry 0 0 1 (divide_row 0 1 (swap_rows 0 0 nearly))).
    assert (V : M1 1%nat 0%nat = 1/2000000000 /\ M1 1%nat 1%nat = 1 /\ M1 0%nat 1%nat = 0 /\ M1 0%nat 0%nat = 1).
    { unfold M1. split_and!; entries. }
    destruct V as (V10 & V11 & V01 & V00).
    assert (E0 : top_down_step 2 (nearly, []) 0 = Some (M1, [1/2000000000])).
    { unfold top_down_step, find_largest. cbn [fst snd Nat.sub seq fold_left Nat.add].
      destruct (Rlt_dec (Rabs (nearly 0%nat 0%nat)) (Rabs (nearly 0%nat 0%nat))) as [Hn|_]; [exfalso; lra|].
      change (nearly 0%nat 0%nat) with 1. destruct (Req_EM_T 1 0) as [|_]; [lra|]. fold M1.
      unfold clear. cbn [fst snd]. rewrite V10. destruct (Rlt_dec _ _) as [|Hn]; [done|]. exfalso. apply Hn.
      unfold threshold. rewrite Rabs_pos_eq; lra. }
    rewrite E0. set (M2 := set_entry 1 1 1 (divide_row 1 1 (swap_rows 1 1 M1))).
    assert (E1 : top_down_step 2 (M1, [1/2000000000]) 1 = Some (M2, [1/2000000000])).
    { unfold top_down_step, find_largest. cbn [fst snd Nat.sub seq fold_left Nat.add]. rewrite V11.
      destruct (Req_EM_T 1 0) as [|_]; [lra|done]. }
    rewrite E1. cbn zeta. cbn [fst snd]. do 2 eexists. split; [done|].
    rewrite bottom_up_fold_outside.
    + cbn [fst]. clearbody M1. unfold M2. entries.
    + intros k. rewrite elem_of_reverse, elem_of_seq. simpl. lia.
Qed.

(** A matrix with one row makes GaussJordan abort. *)
Theorem gauss_jordan_one_row cols M : gauss_jordan_all 1 cols M = CheckFail.
Proof. done. Qed.

Print Assumptions gauss_jordan_solutions.
Print Assumptions gauss_jordan_partial.
Print Assumptions gauss_jordan_refuted.
Print Assumptions gauss_jordan_one_row.
