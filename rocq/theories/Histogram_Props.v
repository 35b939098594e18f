(** Properties C38 and C53: histograms. *)
From stdpp Require Import prelude sorting.
From Coq Require Import QArith_base Qcanon.
From Verif Require Import Base Histogram_Model Histogram_Spec Histogram_Proofs.

(** C38, doubles.  [max] is the largest double; the values are anything but NaN. *)
Theorem histogram_exact (ub : upper_bound dbl_lt) (max : Qc) (bs vs : list dbl) :
  let B := NegInf :: bs ++ [Fin max] in
  StronglySorted (le dbl_lt) B ->
  exists h, run_steps (h_add dbl_lt ub) (h_new NegInf (Fin max) bs) vs = Ok h /\
    h_boundaries h = B /\ length (h_count h) = length B /\
    (forall i a b, B !! i = Some a -> B !! S i = Some b -> h_count h !! i = Some (count_between dbl_lt a b vs)) /\
    h_count h !! S (length bs) = Some (count_from dbl_lt (Fin max) vs) /\
    sum (h_count h) = Z.of_nat (length vs).
Proof.
  intros B Hs.
  assert (Hvs : Forall (le dbl_lt NegInf) vs) by (apply list.Forall_forall; intros [] _; done).
  destruct (adds_exact dbl_lt dbl_total NegInf (Fin max) ub bs Hs vs Hvs) as (h & H & H1 & H2 & H3 & H4).
  exists h. split_and!; try done. exact (adds_total dbl_lt NegInf (Fin max) ub bs vs h H).
Qed.

Definition q (z : Z) : dbl := Fin (Q2Qc (inject_Z z)).

Example histogram_sample :
  StronglySorted (le dbl_lt) (NegInf :: [q 0; q 1; q 3] ++ [q 100]) /\
  match run_steps (h_add dbl_lt (scan_upper_bound dbl_lt)) (h_new NegInf (q 100) [q 0; q 1; q 3])
          [q 2; q (-1); q 1; q 3; q 100; NegInf; PosInf; q 7; q 2] with
  | Ok h => bool_decide (h_count h = [2; 0; 3; 2; 2]%Z)
  | _ => false
  end = true.
Proof.
  split; [|vm_compute; reflexivity].
  repeat (constructor; try reflexivity).
Qed.

(** C38, integers, partial: the boundaries are sorted only together with the 0 inserted in front and INT_MAX at the
    end, so neither they nor the values may be negative. *)
Theorem histogram_int_partial (ub : upper_bound int_lt) (bs vs : list Z) :
  let B := 0%Z :: bs ++ [int_max] in
  StronglySorted Z.le B -> Forall (fun v => 0 <= v)%Z vs ->
  exists h, run_steps (h_add int_lt ub) (h_new int_minus_infinity int_max bs) vs = Ok h /\
    h_boundaries h = B /\ length (h_count h) = length B /\
    (forall i a b, B !! i = Some a -> B !! S i = Some b -> h_count h !! i = Some (count_between int_lt a b vs)) /\
    h_count h !! S (length bs) = Some (count_from int_lt int_max vs) /\
    sum (h_count h) = Z.of_nat (length vs).
Proof.
  intros B Hs Hvs.
  assert (Hle : forall a b, (a <= b)%Z -> le int_lt a b) by (intros a b ?; apply bool_decide_eq_false; lia).
  assert (Hs' : StronglySorted (le int_lt) B).
  { induction Hs as [|a l Hl IH Ha]; constructor; [done|].
    apply list.Forall_forall. intros x Hx. apply Hle. by apply (proj1 (list.Forall_forall _ _) Ha). }
  assert (Hvs' : Forall (le int_lt int_minus_infinity) vs).
  { apply list.Forall_forall. intros x Hx. apply Hle. by apply (proj1 (list.Forall_forall _ _) Hvs). }
  destruct (adds_exact int_lt int_total int_minus_infinity int_max ub bs Hs' vs Hvs') as (h & H & H1 & H2 & H3 & H4).
  exists h. split_and!; try done. exact (adds_total int_lt int_minus_infinity int_max ub bs vs h H).
Qed.

Example histogram_int_sample :
  StronglySorted Z.le (0 :: [2; 5] ++ [int_max])%Z /\
  run_steps (h_add int_lt (scan_upper_bound int_lt)) (h_new int_minus_infinity int_max [2; 5]%Z) [3; 0; 5; 4]%Z =
    Ok (Histogram [0; 2; 5; int_max]%Z [1; 2; 1; 0]%Z).
Proof. split; [|vm_compute; reflexivity]. repeat (constructor; try (vm_compute; done)). Qed.

(** Adding a negative integer increments the element before the first: infinity() is 0 for integers. *)
Theorem histogram_int_refuted (ub : upper_bound int_lt) (bs : list Z) v :
  StronglySorted Z.le (0 :: bs ++ [int_max])%Z -> (v < 0)%Z ->
  h_add int_lt ub (h_new int_minus_infinity int_max bs) v = UB.
Proof.
  intros Hs Hv. unfold h_add, h_new. cbn [h_boundaries].
  rewrite (ub_spec ub _ v 0%nat); [done|lia|].
  intros i x Hi. split; [lia|]. intros _. apply bool_decide_eq_true.
  assert (0 <= x)%Z; [|lia].
  destruct i as [|i]; simpl in Hi; [by simplify_eq|].
  inversion_clear Hs as [|? ? _ Ha]. apply (proj1 (list.Forall_forall _ _) Ha). by eapply elem_of_list_lookup_2.
Qed.

(** C53.  With at least one boundary the printed message has one line per interval between consecutive boundaries
    with its count, and before and after it the numbers of values below the first and from the last boundary on,
    when they are not zero. *)
Theorem histogram_print (ub : upper_bound dbl_lt) (max : Qc) (bs vs : list dbl) b0 b1 :
  StronglySorted (le dbl_lt) (NegInf :: bs ++ [Fin max]) -> bs !! 0%nat = Some b0 -> last bs = Some b1 ->
  Forall (fun v => dbl_lt v (Fin max) = true) vs ->
  exists h below above, run_steps (h_add dbl_lt ub) (h_new NegInf (Fin max) bs) vs = Ok h /\
    below = Z.of_nat (length (filter (fun v => dbl_lt v b0 = true) vs)) /\
    above = count_from dbl_lt b1 vs /\
    h_print h = Ok ((if decide (0 < below)%Z then [Below b0 below] else []) ++
      zip_with (fun a b => Between a b (count_between dbl_lt a b vs)) bs (tail bs) ++
      (if decide (0 < above)%Z then [Above b1 above] else [])).
Proof.
  intros Hs H0 H1 Hmax.
  assert (Hvs : Forall (le dbl_lt NegInf) vs) by (apply list.Forall_forall; intros [] _; done).
  destruct (print_exact dbl_lt dbl_total NegInf (Fin max) ub bs Hs vs b0 b1 H0 H1 Hvs) as (h & H & Hp).
  exists h. do 2 eexists. split_and!; [done..|].
  rewrite Hp. unfold below.
  replace (count_from dbl_lt b1 vs) with (count_between dbl_lt b1 (Fin max) vs); [done|].
  unfold count_from, count_between. do 2 f_equal. clear Hvs H Hp.
  induction Hmax as [|w vs Hw Hmax IH]; [done|]. rewrite !filter_cons.
  destruct (decide (dbl_lt w b1 = false /\ dbl_lt w (Fin max) = true)) as [[? ?]|Hn];
    destruct (decide (dbl_lt w b1 = false)) as [|Hn2]; rewrite ?IH; try done.
  exfalso. by apply Hn.
Qed.

Example histogram_print_sample :
  match run_steps (h_add dbl_lt (scan_upper_bound dbl_lt)) (h_new NegInf (q 100) [q 0; q 1; q 3])
          [q 2; q 1; q 3; q 7; q 2] with
  | Ok h => match h_print h with
            | Ok ls => bool_decide (line_count <$> ls = [0; 3; 2]%Z)
            | _ => false
            end
  | _ => false
  end = true.
Proof. vm_compute. reflexivity. Qed.

(** Without boundaries the only bin is printed twice, so that the printed counts do not add up. *)
Theorem histogram_print_refuted (ub : upper_bound dbl_lt) (max : Qc) (vs : list dbl) :
  vs <> [] -> Forall (fun v => dbl_lt v (Fin max) = true) vs ->
  exists h ls, run_steps (h_add dbl_lt ub) (h_new NegInf (Fin max) []) vs = Ok h /\
    h_print h = Ok ls /\ sum (line_count <$> ls) = (2 * Z.of_nat (length vs))%Z.
Proof.
  intros Hne Hmax.
  assert (Hvs : Forall (le dbl_lt NegInf) vs) by (apply list.Forall_forall; intros [] _; done).
  assert (Hs : StronglySorted (le dbl_lt) (NegInf :: [] ++ [Fin max])) by (repeat constructor).
  destruct (adds_exact dbl_lt dbl_total NegInf (Fin max) ub [] Hs vs Hvs) as (h & H & HB & HL & Hc & _).
  specialize (Hc 0%nat NegInf (Fin max) eq_refl eq_refl).
  assert (Hn : count_between dbl_lt NegInf (Fin max) vs = Z.of_nat (length vs)).
  { unfold count_between. f_equal. clear -Hmax Hvs. induction Hmax as [|w vs Hw Hmax IH]; [done|].
    inversion_clear Hvs. rewrite filter_cons_True by done. simpl. by rewrite IH. }
  rewrite Hn in Hc.
  assert (Hpos : (0 < Z.of_nat (length vs))%Z) by (destruct vs; [done|simpl; lia]).
  exists h. unfold h_print. rewrite HB. cbn [length app Nat.sub]. rewrite Hc. cbn [or_ub mbind outcome_bind].
  destruct (decide (0 < Z.of_nat (length vs))%Z); [|done].
  cbn [lookup list_lookup or_ub mbind outcome_bind print_loop]. rewrite ?Hc. cbn [or_ub mbind outcome_bind].
  eexists. split_and!; [done|done|]. cbn [fmap list_fmap app line_count sum foldr]. lia.
Qed.

Print Assumptions histogram_exact.
Print Assumptions histogram_int_partial.
Print Assumptions histogram_int_refuted.
Print Assumptions histogram_print.
Print Assumptions histogram_print_refuted.
