(** Proofs about Gauss-Jordan elimination. *)
From stdpp Require Import prelude.
From Coq Require Import Reals Lra.
From Verif Require Import Base GaussJordan_Model GaussJordan_Spec.
Open Scope R_scope.

(** Sums. *)
Lemma sum_ext n f g : (forall j, (j < n)%nat -> f j = g j) -> sum n f = sum n g.
Proof. induction n as [|n IH]; intros H; simpl; [done|]. rewrite IH by (intros; apply H; lia). by rewrite H by lia. Qed.
Lemma sum_zero n f : (forall j, (j < n)%nat -> f j = 0) -> sum n f = 0.
Proof. intros H. induction n as [|n IH]; simpl; [done|]. rewrite IH by (intros; apply H; lia). rewrite H by lia. lra. Qed.
Lemma sum_scal n a f : sum n (fun j => a * f j) = a * sum n f.
Proof. induction n as [|n IH]; simpl; [ring|]. rewrite IH. ring. Qed.
Lemma sum_plus n f g : sum n (fun j => f j + g j) = sum n f + sum n g.
Proof. induction n as [|n IH]; simpl; [ring|]. rewrite IH. ring. Qed.
Lemma sum_extend k n f : (k <= n)%nat -> (forall j, (k <= j)%nat -> (j < n)%nat -> f j = 0) -> sum n f = sum k f.
Proof.
  intros Hk H. induction n as [|n IH]; [replace k with 0%nat by lia; done|].
  destruct (decide (k = S n)) as [->|]; [done|]. simpl. rewrite IH by (intros; try apply H; lia). rewrite H by lia. ring.
Qed.
Lemma sum_single n k f : (k < n)%nat -> (forall j, (j < n)%nat -> j <> k -> f j = 0) -> sum n f = f k.
Proof.
  intros Hk H. rewrite (sum_extend (S k)); [|lia|intros; apply H; lia]. simpl.
  rewrite sum_zero; [ring|]. intros. apply H; lia.
Qed.

(** Row operations keep the solutions. *)
Definition rowval (c : nat) (M : matrix) (x : nat -> R) (i : nat) : R := sum c (fun j => M i j * x j).
Lemma rowval_swap c r s M x i : rowval c (swap_rows r s M) x i =
  if decide (i = r) then rowval c M x s else if decide (i = s) then rowval c M x r else rowval c M x i.
Proof. unfold rowval, swap_rows. by repeat case_decide. Qed.
Lemma rowval_divide c r y M x i : rowval c (divide_row r y M) x i =
  if decide (i = r) then rowval c M x i / y else rowval c M x i.
Proof.
  unfold rowval, divide_row. case_decide; [|done]. unfold Rdiv. rewrite (Rmult_comm (sum _ _)), <- sum_scal.
  apply sum_ext. intros. ring.
Qed.
Lemma rowval_subtract c r y s M x i : rowval c (subtract_row r y s M) x i =
  if decide (i = r) then rowval c M x i - y * rowval c M x s else rowval c M x i.
Proof.
  unfold rowval, subtract_row. case_decide; [|done].
  transitivity (sum c (fun j => M i j * x j) + sum c (fun j => - y * (M s j * x j))).
  - rewrite <- sum_plus. apply sum_ext. intros. ring.
  - rewrite sum_scal. ring.
Qed.

Definition same_solutions (r c : nat) (M M' : matrix) : Prop := forall x, solves r c M x <-> solves r c M' x.
Lemma same_solutions_refl r c M : same_solutions r c M M. Proof. done. Qed.
Lemma same_solutions_trans r c M1 M2 M3 :
  same_solutions r c M1 M2 -> same_solutions r c M2 M3 -> same_solutions r c M1 M3.
Proof. intros H1 H2 x. by rewrite (H1 x). Qed.
Lemma same_swap n c r s M : (r < n)%nat -> (s < n)%nat -> same_solutions n c M (swap_rows r s M).
Proof.
  intros Hr Hs x. unfold solves. fold (rowval c M x). split; intros H i Hi.
  - change (rowval c (swap_rows r s M) x i = 0). rewrite rowval_swap. repeat case_decide; by apply H.
  - change (rowval c M x i = 0).
    assert (E : forall k, (k < n)%nat -> rowval c (swap_rows r s M) x k = 0) by exact H.
    destruct (decide (i = r)) as [->|Hr'].
    + specialize (E s Hs). rewrite rowval_swap in E. repeat case_decide; subst; done.
    + destruct (decide (i = s)) as [->|Hs'].
      * specialize (E r Hr). rewrite rowval_swap in E. repeat case_decide; done.
      * specialize (E i Hi). rewrite rowval_swap in E. repeat case_decide; done.
Qed.
Lemma same_divide n c r y M : y <> 0 -> same_solutions n c M (divide_row r y M).
Proof.
  intros Hy x. split; intros H i Hi.
  - change (rowval c (divide_row r y M) x i = 0). rewrite rowval_divide.
    assert (E : rowval c M x i = 0) by (by apply H). case_decide; rewrite E; [unfold Rdiv; ring|done].
  - change (rowval c M x i = 0). assert (E : rowval c (divide_row r y M) x i = 0) by (by apply H).
    rewrite rowval_divide in E. case_decide; [|done].
    replace (rowval c M x i) with (rowval c M x i / y * y) by (field; done). rewrite E. ring.
Qed.
Lemma same_subtract n c r y s M : (s < n)%nat -> r <> s -> same_solutions n c M (subtract_row r y s M).
Proof.
  intros Hs Hrs x. split; intros H i Hi.
  - change (rowval c (subtract_row r y s M) x i = 0). rewrite rowval_subtract.
    assert (E : rowval c M x i = 0) by (by apply H). assert (E' : rowval c M x s = 0) by (by apply H).
    case_decide; rewrite E; [rewrite E'; ring|done].
  - change (rowval c M x i = 0).
    assert (E : rowval c (subtract_row r y s M) x i = 0) by (by apply H).
    assert (E' : rowval c (subtract_row r y s M) x s = 0) by (by apply H).
    rewrite rowval_subtract in E, E'. rewrite decide_False in E' by done. case_decide; [|done].
    rewrite E' in E. lra.
Qed.
Lemma same_pointwise n c M M' : (forall i j, M i j = M' i j) -> same_solutions n c M M'.
Proof.
  intros H x. split; intros Hs i Hi; rewrite <- (Hs i Hi); apply sum_ext; intros; by rewrite H.
Qed.

(** The search for the pivot. *)
Lemma find_largest_spec M col s e : let '(v, r) := find_largest M col s e in
  (s <= r)%nat /\ (r < Nat.max (S s) e)%nat /\ v = M r col /\
  (forall i, (s <= i)%nat -> (i < Nat.max (S s) e)%nat -> Rabs (M i col) <= Rabs v).
Proof.
  unfold find_largest.
  assert (H : forall rows (b : R * nat), b.1 = M b.2 col -> let '(v, r) := fold_left
      (fun best row => if Rlt_dec (Rabs best.1) (Rabs (M row col)) then (M row col, row) else best) rows b in
    (r = b.2 \/ r ∈ rows) /\ v = M r col /\ Rabs b.1 <= Rabs v /\ forall i, i ∈ rows -> Rabs (M i col) <= Rabs v).
  { induction rows as [|row rows IH]; intros b Hb; simpl.
    - destruct b as [v r]. simpl in *. split_and!; [by left|done|lra|]. intros i Hi. by apply elem_of_nil in Hi.
    - destruct (Rlt_dec (Rabs b.1) (Rabs (M row col))) as [Hl|Hl].
      + specialize (IH (M row col, row) eq_refl). destruct (fold_left _ rows (M row col, row)) as [v r].
        destruct IH as (H1 & H2 & H3 & H4). simpl in *. split_and!; [|done|lra|].
        * destruct H1 as [->|?]; right; [left|by right].
        * intros i [->|Hi]%elem_of_cons; [done|by apply H4].
      + specialize (IH b Hb). destruct (fold_left _ rows b) as [v r].
        destruct IH as (H1 & H2 & H3 & H4). split_and!; [|done|done|].
        * destruct H1 as [->|?]; [by left|right; by right].
        * intros i [->|Hi]%elem_of_cons; [lra|by apply H4]. }
  specialize (H (seq s (e - s)) (M s col, s) eq_refl).
  destruct (fold_left _ _ _) as [v r]. destruct H as (H1 & H2 & H3 & H4). simpl in *. split_and!.
  - destruct H1 as [->|H1%elem_of_seq]; lia.
  - destruct H1 as [->|H1%elem_of_seq]; lia.
  - done.
  - intros i Hi1 Hi2. destruct (decide (i = s)) as [->|]; [done|]. apply H4. apply elem_of_seq. lia.
Qed.

(** Clearing a column. *)
Lemma clear_same n c col s st row : (s < n)%nat -> row <> s -> same_solutions n c st.1 (clear col s st row).1.
Proof.
  intros. unfold clear. destruct (Rlt_dec _ _); [apply same_solutions_refl|]. by apply same_subtract.
Qed.
Lemma clear_fold_same n c col s rows st : (s < n)%nat -> s ∉ rows ->
  same_solutions n c st.1 (fold_left (clear col s) rows st).1.
Proof.
  intros Hs. revert st. induction rows as [|row rows IH]; intros st Hrows; simpl; [apply same_solutions_refl|].
  apply not_elem_of_cons in Hrows as [H1 H2].
  eapply same_solutions_trans; [apply (clear_same n c col s st row); done|]. by apply IH.
Qed.
(** The list of coefficients left in place only grows. *)
Lemma clear_log col s st row : exists l, (clear col s st row).2 = st.2 ++ l.
Proof. unfold clear. destruct (Rlt_dec _ _); simpl; [by eexists|]. exists []. by rewrite app_nil_r. Qed.
Lemma clear_fold_log col s rows st : exists l, (fold_left (clear col s) rows st).2 = st.2 ++ l.
Proof.
  revert st. induction rows as [|row rows IH]; intros st; simpl; [exists []; by rewrite app_nil_r|].
  destruct (IH (clear col s st row)) as [l ->]. destruct (clear_log col s st row) as [l' ->].
  exists (l' ++ l). by rewrite app_assoc.
Qed.
Definition zeros (l : list R) : Prop := Forall (fun x => x = 0) l.
Lemma zeros_app_l l k : zeros (l ++ k) -> zeros l.
Proof. unfold zeros. rewrite Forall_app. tauto. Qed.

Lemma clear_entries col s (st : matrix * list R) row : zeros (clear col s st row).2 -> s <> row ->
  (forall j, (clear col s st row).1 s j = st.1 s j) /\
  (forall i j, i <> row -> (clear col s st row).1 i j = st.1 i j) /\
  (forall j, (clear col s st row).1 row j = st.1 row j - st.1 row col * st.1 s j).
Proof.
  destruct st as [M log]. unfold clear. cbn [fst snd]. intros Hz Hs.
  destruct (Rlt_dec _ _); cbn [fst snd] in *.
  - apply Forall_app in Hz as [_ Hz]. apply Forall_cons in Hz as [Hz _]. split_and!; [done|done|].
    intros j. rewrite Hz. ring.
  - unfold subtract_row. split_and!; intros; repeat case_decide; try done; congruence.
Qed.

(** What the clearing of a column with a unit pivot does to the entries when only zeros are left in place. *)
Lemma clear_fold_entries col s rows (st : matrix * list R) : s ∉ rows -> NoDup rows -> st.1 s col = 1 ->
  zeros (fold_left (clear col s) rows st).2 ->
  let M' := (fold_left (clear col s) rows st).1 in
  (forall i j, i ∉ rows -> M' i j = st.1 i j) /\
  (forall i j, i ∈ rows -> M' i j = st.1 i j - st.1 i col * st.1 s j).
Proof.
  revert st. induction rows as [|row rows IH]; intros st Hs Hnd Hp Hz; simpl in *.
  { split; [done|]. intros i j Hi. by apply elem_of_nil in Hi. }
  apply not_elem_of_cons in Hs as [Hs1 Hs2]. apply NoDup_cons in Hnd as [Hn1 Hn2].
  assert (Hst : (forall j, (clear col s st row).1 s j = st.1 s j) /\
    (forall i j, i <> row -> (clear col s st row).1 i j = st.1 i j) /\
    (forall j, (clear col s st row).1 row j = st.1 row j - st.1 row col * st.1 s j)).
  { destruct (clear_fold_log col s rows (clear col s st row)) as [l El]. rewrite El in Hz. apply zeros_app_l in Hz.
    by apply clear_entries. }
  destruct Hst as (H1 & H2 & H3).
  destruct (IH (clear col s st row)) as [I1 I2]; [done|done|by rewrite H1|done|]. split.
  - intros i j [Hi1 Hi2]%not_elem_of_cons. rewrite I1 by done. by apply H2.
  - intros i j [->|Hi]%elem_of_cons.
    + rewrite I1 by done. apply H3.
    + assert (i <> row) by (intros ->; done). rewrite I2 by done. rewrite !H2 by done. done.
Qed.

(** One step of the first phase. *)
Definition pivoted (k : nat) (v : R) (r : nat) (M : matrix) : matrix :=
  set_entry k k 1 (divide_row k v (swap_rows k r M)).
Lemma pivoted_entries k v r M : v = M r k -> v <> 0 ->
  forall i j, pivoted k v r M i j = if decide (i = k) then M r j / v else if decide (i = r) then M k j else M i j.
Proof.
  intros -> Hv i j. unfold pivoted, set_entry, divide_row, swap_rows.
  destruct (decide (i = k /\ j = k)) as [[-> ->]|]; [rewrite decide_True by done; field; done|].
  repeat case_decide; try done; subst.
Qed.
Lemma pivoted_same n c k v r M : v = M r k -> v <> 0 -> (k < n)%nat -> (r < n)%nat ->
  same_solutions n c M (pivoted k v r M).
Proof.
  intros Hv Hv0 Hk Hr.
  eapply same_solutions_trans; [by apply (same_swap n c k r)|].
  eapply same_solutions_trans; [by apply (same_divide n c k v)|].
  apply same_pointwise. intros i j. rewrite pivoted_entries by done. unfold divide_row, swap_rows.
  repeat case_decide; subst; done.
Qed.

Lemma top_down_step_some n k st st' : top_down_step n st k = Some st' ->
  exists v r, (k <= r)%nat /\ (r < Nat.max (S k) (n - 1))%nat /\ v = st.1 r k /\ v <> 0 /\
    st' = fold_left (clear k k) (seq (k + 1) (n - (k + 1))) (pivoted k v r st.1, st.2).
Proof.
  unfold top_down_step. pose proof (find_largest_spec st.1 k k (n - 1)) as H.
  destruct (find_largest st.1 k k (n - 1)) as [v r]. destruct H as (H1 & H2 & H3 & _).
  destruct (Req_EM_T v 0); [done|]. intros [= <-]. by exists v, r.
Qed.
Lemma top_down_step_none n k st : top_down_step n st k = None ->
  forall i, (k <= i)%nat -> (i < Nat.max (S k) (n - 1))%nat -> st.1 i k = 0.
Proof.
  unfold top_down_step. pose proof (find_largest_spec st.1 k k (n - 1)) as H.
  destruct (find_largest st.1 k k (n - 1)) as [v r]. destruct H as (_ & _ & _ & H4).
  destruct (Req_EM_T v 0) as [->|]; [|done]. intros _ i Hi1 Hi2. specialize (H4 i Hi1 Hi2). rewrite Rabs_R0 in H4.
  destruct (Req_EM_T (st.1 i k) 0); [done|]. pose proof (Rabs_pos_lt _ n0). lra.
Qed.
Lemma top_down_step_same n m c k st st' : top_down_step n st k = Some st' -> (k < n)%nat ->
  (Nat.max (S k) (n - 1) <= m)%nat -> same_solutions m c st.1 st'.1.
Proof.
  intros (v & r & H1 & H2 & Hv & Hv0 & ->)%top_down_step_some Hk Hm.
  eapply same_solutions_trans; [apply (pivoted_same m c k v r); [done|done|lia|lia]|].
  apply (clear_fold_same m c k k _ (pivoted k v r st.1, st.2)); [lia|]. rewrite elem_of_seq. lia.
Qed.
Lemma top_down_step_log n k st st' : top_down_step n st k = Some st' -> exists l, st'.2 = st.2 ++ l.
Proof.
  intros (v & r & _ & _ & _ & _ & ->)%top_down_step_some.
  by destruct (clear_fold_log k k (seq (k + 1) (n - (k + 1))) (pivoted k v r st.1, st.2)) as [l ->]; exists l.
Qed.

(** The first [k] columns are those of an upper triangular matrix with units on the diagonal. *)
Definition triangular (n k : nat) (M : matrix) : Prop :=
  forall j, (j < k)%nat -> M j j = 1 /\ forall i, (j < i)%nat -> (i < n)%nat -> M i j = 0.
Lemma top_down_step_triangular n k st st' : top_down_step n st k = Some st' -> (k < n)%nat -> zeros st'.2 ->
  triangular n k st.1 -> triangular n (S k) st'.1.
Proof.
  intros (v & r & H1 & H2 & Hv & Hv0 & ->)%top_down_step_some Hk Hz Ht.
  set (rows := seq (k + 1) (n - (k + 1))) in *. set (P := pivoted k v r st.1) in *.
  assert (HP : forall i j, P i j = if decide (i = k) then st.1 r j / v else if decide (i = r) then st.1 k j else st.1 i j)
    by (by apply pivoted_entries).
  assert (Hpk : P k k = 1) by (rewrite HP, decide_True by done; rewrite <- Hv; field; done).
  destruct (clear_fold_entries k k rows (P, st.2)) as [E1 E2]; [unfold rows; rewrite elem_of_seq; lia|apply NoDup_seq|done|done|].
  simpl in E1, E2. set (M' := (fold_left _ rows (P, st.2)).1) in *.
  assert (HPz : forall i j, (j < k)%nat -> (j < i)%nat -> (i < n)%nat -> P i j = 0).
  { intros i j Hj Hji Hi. rewrite HP. destruct (Ht j Hj) as [_ Hz0]. repeat case_decide; subst; try (apply Hz0; lia).
    rewrite Hz0 by lia. unfold Rdiv. ring. }
  intros j Hj. destruct (decide (j = k)) as [->|].
  - split.
    + rewrite E1 by (unfold rows; rewrite elem_of_seq; lia). done.
    + intros i Hi1 Hi2. rewrite E2 by (unfold rows; rewrite elem_of_seq; lia). rewrite Hpk. ring.
  - split.
    + rewrite E1 by (unfold rows; rewrite elem_of_seq; lia). rewrite HP. rewrite !decide_False by lia.
      apply Ht. lia.
    + intros i Hi1 Hi2. destruct (decide (i ∈ rows)) as [Hr|Hr].
      * rewrite E2 by done. rewrite (HPz i j), (HPz k j) by lia. ring.
      * rewrite E1 by done. apply HPz; lia.
Qed.

(** A triangular system has a solution for every right-hand side. *)
Lemma triangular_solve n k M b : (k <= n)%nat -> triangular n k M ->
  exists x, forall i, (i < k)%nat -> sum k (fun j => M i j * x j) = b i.
Proof.
  intros Hk. revert b. induction k as [|k IH]; intros b Ht; [exists (fun _ => 0); intros; lia|].
  destruct (IH ltac:(lia) (fun i => b i - M i k * b k)) as [x Hx].
  { intros j Hj. apply Ht. lia. }
  exists (fun j => if decide (j = k) then b k else x j). intros i Hi. simpl. rewrite decide_True by done.
  rewrite (sum_ext k _ (fun j => M i j * x j)) by (intros j Hj; by rewrite decide_False by lia).
  destruct (decide (i = k)) as [->|].
  - rewrite sum_zero; [destruct (Ht k) as [-> _]; [lia|ring]|].
    intros j Hj. destruct (Ht j) as [_ Hz]; [lia|]. rewrite Hz by lia. ring.
  - rewrite Hx by lia. ring.
Qed.
(** A column without a pivot makes a block singular. *)
Lemma no_pivot_singular n m k M : triangular n k M -> (k < m)%nat -> (m <= n)%nat ->
  (forall i, (k <= i)%nat -> (i < m)%nat -> M i k = 0) -> ~ invertible_block m M.
Proof.
  intros Ht Hk Hm Hz Hinv. destruct (triangular_solve n k M (fun i => - M i k)) as [x Hx]; [lia|done|].
  assert (H0 : solves m m M (fun j => if decide (j < k)%nat then x j else if decide (j = k) then 1 else 0)).
  { intros i Hi. rewrite (sum_extend (S k)); [|lia|].
    - simpl. rewrite (decide_False (P := (k < k)%nat)) by lia. rewrite decide_True by done.
      rewrite (sum_ext k _ (fun j => M i j * x j)) by (intros j Hj; by rewrite decide_True by lia).
      destruct (decide (i < k)%nat).
      + rewrite Hx by done. ring.
      + rewrite Hz by lia. rewrite sum_zero; [ring|]. intros j Hj. destruct (Ht j Hj) as [_ Hz']. rewrite Hz' by lia. ring.
    - intros j Hj1 Hj2. rewrite !decide_False by lia. ring. }
  specialize (Hinv _ H0 k Hk). simpl in Hinv. rewrite decide_False in Hinv by lia. rewrite decide_True in Hinv by done. lra.
Qed.
Lemma invertible_same m M M' : same_solutions m m M M' -> invertible_block m M -> invertible_block m M'.
Proof. intros H Hi x Hx. apply Hi. by apply H. Qed.
Lemma same_solutions_sym r c M M' : same_solutions r c M M' -> same_solutions r c M' M.
Proof. intros H x. by rewrite (H x). Qed.

(** The whole first phase. *)
Lemma top_down_loop_log n rows st : exists l, (top_down_loop n rows st).2 = st.2 ++ l.
Proof.
  revert st. induction rows as [|k rows IH]; intros st; simpl; [exists []; by rewrite app_nil_r|].
  destruct (top_down_step n st k) as [st'|] eqn:E; [|exists []; by rewrite app_nil_r].
  destruct (IH st') as [l ->]. destruct (top_down_step_log _ _ _ _ E) as [l' ->]. exists (l' ++ l). by rewrite app_assoc.
Qed.
Lemma top_down_loop_same n m c k st M' log : (k <= n)%nat -> (n <= m)%nat ->
  top_down_loop n (seq k (n - k)) st = (Some M', log) -> same_solutions m c st.1 M'.
Proof.
  intros Hk Hm. remember (n - k)%nat as d eqn:Hd. revert k Hk Hd st.
  induction d as [|d IH]; intros k Hk Hd st H; cbn [seq top_down_loop] in H.
  { simplify_eq. apply same_solutions_refl. }
  destruct (top_down_step n st k) as [st'|] eqn:E; [|done].
  eapply same_solutions_trans; [apply (top_down_step_same n m c k st st' E); lia|].
  apply (IH (S k)); [lia|lia|done].
Qed.
Lemma top_down_loop_triangular n k st M' log : (k <= n)%nat ->
  top_down_loop n (seq k (n - k)) st = (Some M', log) -> zeros log -> triangular n k st.1 -> triangular n n M'.
Proof.
  intros Hk. remember (n - k)%nat as d eqn:Hd. revert k Hk Hd st.
  induction d as [|d IH]; intros k Hk Hd st H Hz Ht; cbn [seq top_down_loop] in H.
  { simplify_eq. by replace k with n in Ht by lia. }
  destruct (top_down_step n st k) as [st'|] eqn:E; [|done].
  destruct (top_down_loop_log n (seq (S k) d) st') as [l Hl]. rewrite H in Hl. simpl in Hl.
  apply (IH (S k) ltac:(lia) ltac:(lia) st' H Hz). eapply top_down_step_triangular; [done|lia| |done].
  rewrite Hl in Hz. by apply zeros_app_l in Hz.
Qed.
Lemma top_down_loop_some n k st r log : (k <= n)%nat -> top_down_loop n (seq k (n - k)) st = (r, log) -> zeros log ->
  triangular n k st.1 -> invertible_block n st.1 -> ((k < n - 1)%nat -> invertible_block (n - 1) st.1) -> r <> None.
Proof.
  intros Hk. remember (n - k)%nat as d eqn:Hd. revert k Hk Hd st.
  induction d as [|d IH]; intros k Hk Hd st H Hz Ht Hi1 Hi2; cbn [seq top_down_loop] in H; [by simplify_eq|].
  destruct (top_down_step n st k) as [st'|] eqn:E.
  - destruct (top_down_loop_log n (seq (S k) d) st') as [l Hl]. rewrite H in Hl. simpl in Hl.
    apply (IH (S k) ltac:(lia) ltac:(lia) st' H Hz).
    + eapply top_down_step_triangular; [done|lia| |done]. rewrite Hl in Hz. by apply zeros_app_l in Hz.
    + eapply invertible_same; [|done]. apply (top_down_step_same n n n k st st' E); lia.
    + intros Hk'. eapply invertible_same; [|apply Hi2; lia]. apply (top_down_step_same n (n - 1) (n - 1) k st st' E); lia.
  - exfalso. pose proof (top_down_step_none _ _ _ E) as Hn. destruct (decide (k < n - 1)%nat).
    + eapply (no_pivot_singular n (n - 1) k); [done|lia|lia| |apply Hi2; lia]. intros i ? ?. apply Hn; lia.
    + eapply (no_pivot_singular n n k); [done|lia|lia| |done]. intros i ? ?. apply Hn; lia.
Qed.
(** Conversely both blocks are invertible. *)
Lemma triangular_invertible n M : triangular n n M -> invertible_block n M.
Proof.
  intros Ht x Hx.
  assert (H : forall d j, (n - d <= j)%nat -> (j < n)%nat -> x j = 0).
  { induction d as [|d IH]; intros j Hj1 Hj2; [lia|]. destruct (decide (n - d <= j)%nat); [by apply IH|].
    specialize (Hx j Hj2). rewrite (sum_single n j) in Hx; [|done|].
    - destruct (Ht j Hj2) as [E _]. rewrite E in Hx. lra.
    - intros i Hi Hij. destruct (decide (i < j)%nat).
      + destruct (Ht i Hi) as [_ Hz]. rewrite Hz by lia. ring.
      + rewrite (IH i) by lia. ring. }
  intros j Hj. apply (H n); lia.
Qed.
Lemma top_down_loop_sub_invertible n k st M' log : (k <= n - 1)%nat ->
  top_down_loop n (seq k (n - k)) st = (Some M', log) -> zeros log -> triangular n k st.1 ->
  invertible_block (n - 1) st.1.
Proof.
  intros Hk. remember (n - k)%nat as d eqn:Hd. revert k Hk Hd st.
  induction d as [|d IH]; intros k Hk Hd st H Hz Ht; cbn [seq top_down_loop] in H.
  { replace (n - 1)%nat with 0%nat by lia. intros x _ j Hj. lia. }
  destruct (decide (k = n - 1)%nat) as [->|].
  { apply triangular_invertible. intros j Hj. destruct (Ht j Hj) as [H1 H2]. split; [done|]. intros i ? ?. apply H2; lia. }
  destruct (top_down_step n st k) as [st'|] eqn:E; [|done].
  destruct (top_down_loop_log n (seq (S k) d) st') as [l Hl]. rewrite H in Hl. simpl in Hl.
  eapply invertible_same; [apply same_solutions_sym, (top_down_step_same n (n - 1) (n - 1) k st st' E); lia|].
  apply (IH (S k) ltac:(lia) ltac:(lia) st' H Hz). eapply top_down_step_triangular; [done|lia| |done].
  rewrite Hl in Hz. by apply zeros_app_l in Hz.
Qed.

(** The second phase. *)
Lemma bottom_up_step_same m c b k st : (k < m)%nat -> same_solutions m c st.1 (bottom_up_step b st k).1.
Proof.
  intros Hk. unfold bottom_up_step. apply clear_fold_same; [done|]. rewrite elem_of_reverse, elem_of_seq. lia.
Qed.
Lemma bottom_up_fold_same m c b rows st : (forall k, k ∈ rows -> (k < m)%nat) ->
  same_solutions m c st.1 (fold_left (bottom_up_step b) rows st).1.
Proof.
  revert st. induction rows as [|k rows IH]; intros st H; simpl; [apply same_solutions_refl|].
  eapply same_solutions_trans; [apply (bottom_up_step_same m c b k); apply H; left|]. apply IH. intros. apply H. by right.
Qed.
Lemma bottom_up_fold_log b rows st : exists l, (fold_left (bottom_up_step b) rows st).2 = st.2 ++ l.
Proof.
  revert st. induction rows as [|k rows IH]; intros st; simpl; [exists []; by rewrite app_nil_r|].
  destruct (IH (bottom_up_step b st k)) as [l ->]. unfold bottom_up_step.
  destruct (clear_fold_log k k (reverse (seq b (k - b))) st) as [l' ->]. exists (l' ++ l). by rewrite app_assoc.
Qed.
Definition cleared (n b k : nat) (M : matrix) : Prop :=
  forall i j, (b <= i)%nat -> (i < j)%nat -> (k <= j)%nat -> (j < n)%nat -> M i j = 0.
Lemma bottom_up_fold_identity n b k st : (b <= k)%nat -> (k <= n)%nat -> triangular n n st.1 -> cleared n b k st.1 ->
  zeros (fold_left (bottom_up_step b) (reverse (seq b (k - b))) st).2 ->
  let M' := (fold_left (bottom_up_step b) (reverse (seq b (k - b))) st).1 in
  triangular n n M' /\ cleared n b b M' /\ forall i j, (i < b)%nat -> M' i j = st.1 i j.
Proof.
  remember (k - b)%nat as d eqn:Hd. revert k Hd st. induction d as [|d IH]; intros k Hd st Hb Hk Ht Hc Hz.
  { simpl. assert (k = b) as -> by lia. done. }
  rewrite seq_S, reverse_app in *. cbn [reverse rev_append app fold_left] in *.
  change (reverse [(b + d)%nat]) with [(b + d)%nat] in *. cbn [app fold_left] in *.
  replace (b + d)%nat with (k - 1)%nat in * by lia. set (q := (k - 1)%nat) in *.
  set (st1 := bottom_up_step b st q) in *.
  destruct (bottom_up_fold_log b (reverse (seq b d)) st1) as [l Hl]. 
  assert (Hz1 : zeros st1.2) by (rewrite Hl in Hz; by apply zeros_app_l in Hz).
  destruct (clear_fold_entries q q (reverse (seq b (q - b))) st) as [E1 E2].
  { rewrite elem_of_reverse, elem_of_seq. lia. }
  { rewrite reverse_Permutation. apply NoDup_seq. }
  { apply Ht. lia. }
  { exact Hz1. }
  change ((fold_left (clear q q) (reverse (seq b (q - b))) st).1) with st1.1 in E1, E2.
  destruct (IH q ltac:(lia) st1 ltac:(lia) ltac:(lia)) as (I1 & I2 & I3).
  - intros j Hj. split.
    + destruct (decide (j ∈ reverse (seq b (q - b)))) as [Hr|Hr].
      * rewrite E2 by done. rewrite elem_of_reverse, elem_of_seq in Hr.
        destruct (Ht j Hj) as [-> Hz']. rewrite (Hz' q) by lia. ring.
      * rewrite E1 by done. by apply Ht.
    + intros i Hij Hi. destruct (decide (i ∈ reverse (seq b (q - b)))) as [Hr|Hr].
      * rewrite E2 by done. rewrite elem_of_reverse, elem_of_seq in Hr.
        destruct (Ht j Hj) as [_ Hz']. rewrite (Hz' i), (Hz' q) by lia. ring.
      * rewrite E1 by done. by apply Ht.
  - intros i j Hi Hij Hj Hjn. destruct (decide (i ∈ reverse (seq b (q - b)))) as [Hr|Hr].
    + rewrite E2 by done. rewrite elem_of_reverse, elem_of_seq in Hr. destruct (decide (j = q)) as [->|].
      * destruct (Ht q) as [-> _]; [lia|]. ring.
      * rewrite (Hc i j), (Hc q j) by lia. ring.
    + rewrite E1 by done. rewrite elem_of_reverse, elem_of_seq in Hr. apply Hc; lia.
  - done.
  - split_and!; [done|done|]. intros i j Hi. rewrite I3 by done. apply E1. rewrite elem_of_reverse, elem_of_seq. lia.
Qed.

(** The complete algorithm. *)
Lemma gauss_jordan_run rows cols td bu M : (1 <= td)%Z -> (rows <= cols)%nat ->
  let n := Z.to_nat (Z.min (Z.of_nat rows) (td + 1)) in
  (0 <= bu <= Z.of_nat n)%Z ->
  gauss_jordan rows cols td bu M =
    let '(r, log) := top_down_loop n (seq 0 n) (M, []) in
    match r with
    | None => Ok (None, log)
    | Some M1 => let st := fold_left (bottom_up_step (Z.to_nat bu)) (reverse (seq (Z.to_nat bu) (n - Z.to_nat bu))) (M1, log) in
                 Ok (Some st.1, st.2)
    end.
Proof.
  intros Htd Hc n Hbu. unfold gauss_jordan, top_down.
  rewrite !bool_decide_eq_true_2 by done. cbn [check mbind outcome_bind]. fold n.
  destruct (top_down_loop n (seq 0 n) (M, [])) as [r log].
  assert (Hb : forall st, bottom_up rows cols n bu st =
    Ok (fold_left (bottom_up_step (Z.to_nat bu)) (reverse (seq (Z.to_nat bu) (n - Z.to_nat bu))) st)).
  { intros st. unfold bottom_up. rewrite !bool_decide_eq_true_2 by (unfold n; lia). cbn [check mbind outcome_bind].
    destruct (decide (Z.of_nat n = bu)) as [E|E]; [|done]. replace (n - Z.to_nat bu)%nat with 0%nat by lia. done. }
  destruct r as [M1|]; cbn [mbind outcome_bind]; rewrite Hb; cbn [mbind outcome_bind]; [|done].
  by destruct (fold_left _ _ _) as [M2 log'].
Qed.

Lemma clear_fold_outside col s rows st i j : i ∉ rows -> (fold_left (clear col s) rows st).1 i j = st.1 i j.
Proof.
  revert st. induction rows as [|row rows IH]; intros st Hi; simpl; [done|].
  apply not_elem_of_cons in Hi as [H1 H2]. rewrite IH by done. unfold clear. destruct (Rlt_dec _ _); simpl; [done|].
  unfold subtract_row. by rewrite decide_False.
Qed.
Lemma top_down_loop_outside n k st M' log i j : (k <= n)%nat -> (n <= i)%nat ->
  top_down_loop n (seq k (n - k)) st = (Some M', log) -> M' i j = st.1 i j.
Proof.
  intros Hk Hi. remember (n - k)%nat as d eqn:Hd. revert k Hk Hd st.
  induction d as [|d IH]; intros k Hk Hd st H; cbn [seq top_down_loop] in H; [by simplify_eq|].
  destruct (top_down_step n st k) as [st'|] eqn:E; [|done]. rewrite (IH (S k) ltac:(lia) ltac:(lia) st' H).
  apply top_down_step_some in E as (v & r & H1 & H2 & Hv & Hv0 & ->).
  rewrite clear_fold_outside by (rewrite elem_of_seq; lia). simpl. rewrite pivoted_entries by done.
  by rewrite !decide_False by lia.
Qed.
Lemma bottom_up_fold_outside b rows st i j : (forall k, k ∈ rows -> (k <= i)%nat) ->
  (fold_left (bottom_up_step b) rows st).1 i j = st.1 i j.
Proof.
  revert st. induction rows as [|k rows IH]; intros st H; simpl; [done|].
  rewrite IH by (intros; apply H; by right). unfold bottom_up_step. apply clear_fold_outside.
  rewrite elem_of_reverse, elem_of_seq. specialize (H k ltac:(left)). lia.
Qed.

Lemma gauss_jordan_same rows cols td bu M M' log : gauss_jordan rows cols td bu M = Ok (Some M', log) ->
  same_solutions rows cols M M'.
Proof.
  intros H. set (n := Z.to_nat (Z.min (Z.of_nat rows) (td + 1))).
  destruct (decide (1 <= td)%Z) as [Htd|Htd]; [|unfold gauss_jordan, top_down in H; rewrite (bool_decide_eq_false_2 (1 <= td)%Z) in H by done; cbn [check mbind outcome_bind] in H; done].
  destruct (decide (rows <= cols)%nat) as [Hc|Hc];
    [|unfold gauss_jordan, top_down in H; rewrite (bool_decide_eq_true_2 (1 <= td)%Z), (bool_decide_eq_false_2 (rows <= cols)%nat) in H by done; cbn [check mbind outcome_bind] in H; done].
  destruct (decide (0 <= bu <= Z.of_nat n)%Z) as [Hb|Hb].
  2:{ exfalso. unfold gauss_jordan, top_down in H. rewrite !bool_decide_eq_true_2 in H by done.
      cbn [check mbind outcome_bind] in H. fold n in H. destruct (top_down_loop n (seq 0 n) (M, [])) as [r l].
      assert (E : forall st, bottom_up rows cols n bu st = CheckFail).
      { intros st. unfold bottom_up. rewrite (bool_decide_eq_true_2 (n <= Nat.min rows cols)%nat) by (unfold n; lia). cbn [check mbind outcome_bind].
        destruct (decide (0 <= bu)%Z); [|by rewrite (bool_decide_eq_false_2 (0 <= bu)%Z)].
        rewrite (bool_decide_eq_true_2 (0 <= bu)%Z) by done. cbn [check mbind outcome_bind]. by rewrite bool_decide_eq_false_2 by lia. }
      destruct r; cbn [mbind outcome_bind] in H; rewrite E in H; done. }
  rewrite gauss_jordan_run in H by done. fold n in H.
  destruct (top_down_loop n (seq 0 n) (M, [])) as [[M1|] l] eqn:E; [|done]. simpl in H.
  assert (Ht : same_solutions rows cols M M1).
  { apply (top_down_loop_same n rows cols 0 (M, []) M1 l); [lia|unfold n; lia|]. by rewrite Nat.sub_0_r. }
  set (st := fold_left _ _ _) in H. assert (M' = st.1) as -> by congruence.
  eapply same_solutions_trans; [exact Ht|]. apply (bottom_up_fold_same rows cols _ _ (M1, l)).
  intros k. rewrite elem_of_reverse, elem_of_seq. unfold n. lia.
Qed.

Lemma gauss_jordan_exact rows cols td bu M : (1 <= td)%Z -> (rows <= cols)%nat ->
  let n := Z.to_nat (Z.min (Z.of_nat rows) (td + 1)) in
  (0 <= bu <= Z.of_nat n)%Z ->
  exists r log, gauss_jordan rows cols td bu M = Ok (r, log) /\
    (forall M', r = Some M' -> forall i j, (n <= i)%nat -> M' i j = M i j) /\
    (Forall (fun x => x = 0) log ->
     (r <> None <-> invertible_block n M /\ invertible_block (n - 1) M) /\
     (forall M', r = Some M' -> forall i j, (i < n)%nat -> (j < n)%nat -> (bu <= Z.of_nat i)%Z \/ (j <= i)%nat ->
        M' i j = delta i j)).
Proof.
  intros Htd Hc n Hb. rewrite gauss_jordan_run by done. fold n.
  destruct (top_down_loop n (seq 0 n) (M, [])) as [r l] eqn:E.
  assert (E' : top_down_loop n (seq 0 (n - 0)) (M, []) = (r, l)) by (by rewrite Nat.sub_0_r).
  assert (Ht0 : triangular n 0 (M, @nil R).1) by (intros j Hj; lia).
  destruct r as [M1|].
  - cbn zeta. set (b := Z.to_nat bu). set (st := fold_left _ _ _). exists (Some st.1), st.2. split; [done|].
    assert (Hout : forall i j, (n <= i)%nat -> st.1 i j = M i j).
    { intros i j Hi. unfold st. rewrite bottom_up_fold_outside.
      - apply (top_down_loop_outside n 0 (M, []) M1 l); [lia|done|done].
      - intros k. rewrite elem_of_reverse, elem_of_seq. lia. }
    split; [intros M' [= <-]; exact Hout|]. intros Hz.
    assert (Hzl : zeros l).
    { destruct (bottom_up_fold_log b (reverse (seq b (n - b))) (M1, l)) as [l' Hl']. fold st in Hl'.
      simpl in Hl'. rewrite Hl' in Hz. by apply zeros_app_l in Hz. }
    pose proof (top_down_loop_triangular n 0 _ M1 l ltac:(lia) E' Hzl Ht0) as Ht.
    split.
    + split; [|done]. intros _. split.
      * eapply invertible_same; [|by apply triangular_invertible]. apply same_solutions_sym.
        apply (top_down_loop_same n n n 0 (M, []) M1 l); [lia|lia|done].
      * apply (top_down_loop_sub_invertible n 0 (M, []) M1 l); [lia|done|done|done].
    + intros M' [= <-] i j Hi Hj Hij.
      destruct (bottom_up_fold_identity n b n (M1, l)) as (I1 & I2 & I3); [lia|lia|done| |exact Hz|].
      { intros ? ? ? ? ? ?. lia. }
      fold st in I1, I2, I3. unfold delta. case_decide as Hd.
      * subst j. by apply I1.
      * destruct (decide (j < i)%nat).
        -- apply I1; lia.
        -- apply I2; lia.
  - exists None, l. split; [done|]. split; [done|]. intros Hz. split; [|done]. split; [done|].
    intros [H1 H2]. apply (top_down_loop_some n 0 (M, []) None l); try done. lia.
Qed.
