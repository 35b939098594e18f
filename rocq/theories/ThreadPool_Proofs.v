(** Proofs about the thread pool. *)
From stdpp Require Import list.
From Verif Require Import Base ThreadPool_Model.

Section lists.
Context {A : Type}.

Fixpoint wsum (f : A -> nat) (l : list A) : nat := match l with [] => 0 | x :: l' => f x + wsum f l' end.

Lemma wsum_insert f (l : list A) i x y : l !! i = Some y -> wsum f (<[i := x]> l) + f y = wsum f l + f x.
Proof.
  revert i. induction l as [|z l IH]; intros [|i] Hi; simplify_eq/=; [lia|].
  specialize (IH i Hi). lia.
Qed.
Lemma wsum_app f (l l' : list A) : wsum f (l ++ l') = wsum f l + wsum f l'.
Proof. induction l; simpl; lia. Qed.
Lemma wsum_in f (l : list A) i x : l !! i = Some x -> f x <= wsum f l.
Proof. revert i. induction l as [|z l IH]; intros [|i] Hi; simplify_eq/=; [lia|]. specialize (IH i Hi). lia. Qed.
Lemma wsum_zero f (l : list A) : wsum f l = 0 <-> Forall (fun x => f x = 0) l.
Proof.
  induction l as [|z l IH]; simpl; [by split; constructor|]. rewrite Forall_cons, <-IH. lia.
Qed.
Lemma wsum_pos f (l : list A) : wsum f l ≠ 0 -> exists i x, l !! i = Some x /\ f x ≠ 0.
Proof.
  induction l as [|z l IH]; simpl; [done|]. intros Hs. destruct (decide (f z = 0)) as [E|E].
  - destruct IH as (i & x & ? & ?); [lia|]. exists (S i), x. done.
  - exists 0, z. done.
Qed.

Lemma omap_insert {B} (f : A -> option B) (l : list A) i x y : l !! i = Some y ->
  option_list (f y) ++ omap f (<[i := x]> l) ≡ₚ option_list (f x) ++ omap f l.
Proof.
  revert i. induction l as [|z l IH]; intros [|i] Hi; simplify_eq/=.
  - destruct (f x), (f y); simpl; try done. apply Permutation_swap.
  - specialize (IH i Hi). destruct (f z) as [b|]; simpl; [|done].
    rewrite <-!Permutation_middle. by constructor.
Qed.
End lists.

Section proofs.
Context {T : Type}.
Implicit Types s : pool T.

Definition is_check (w : worker T) : nat := match w with WCheck => 1 | _ => 0 end.
Definition is_sleep (w : worker T) : nat := match w with WSleep => 1 | _ => 0 end.
Definition is_awake (w : worker T) : nat := match w with WLock | WCheck => 1 | _ => 0 end.
Definition is_exit (w : worker T) : nat := match w with WExit => 1 | _ => 0 end.
Definition is_hold (a : adder T) : nat := match a with AHold _ => 1 | _ => 0 end.
Definition is_notify (a : adder T) : nat := match a with ANotify => 1 | _ => 0 end.
Definition d_hold (d : dtor) : nat := match d with DHold => 1 | _ => 0 end.
Definition stopped (d : dtor) : bool := match d with DNotify | DJoin | DDone => true | _ => false end.

Record pinv (n : Z) s : Prop := {
  i_one : (1 <= n)%Z;
  i_len : length (p_workers s) = Z.to_nat n;
  i_lock : wsum is_check (p_workers s) + wsum is_hold (p_adders s) + d_hold (p_dtor s)
    = if p_locked s then 1 else 0;
  i_fifo : p_started s ++ p_tasks s = p_added s;
  i_once : p_started s ≡ₚ p_finished s ++ running s;
  i_stop : p_stop s = stopped (p_dtor s);
  i_wake : wsum is_sleep (p_workers s) ≠ 0 ->
    length (p_tasks s) <= wsum is_awake (p_workers s) + wsum is_notify (p_adders s);
  i_stopwake : p_stop s = true -> p_dtor s ≠ DNotify -> wsum is_sleep (p_workers s) = 0;
  i_exit : wsum is_exit (p_workers s) ≠ 0 -> p_stop s = true /\ p_tasks s = [];
  i_done : p_dtor s = DDone -> Forall (eq WExit) (p_workers s) }.

Lemma wsum_replicate {A} (f : A -> nat) n x : wsum f (replicate n x) = n * f x.
Proof. induction n; simpl; lia. Qed.

Lemma pinv_new n s : pool_new n = Ok s -> pinv n s.
Proof.
  unfold pool_new. case_bool_decide as Hn; simpl; [|done]. intros [= <-].
  constructor; cbn [p_locked p_tasks p_stop p_workers p_adders p_dtor p_aborted p_added p_started p_finished];
    rewrite ?wsum_replicate; simpl; try done; try lia.
  - apply replicate_length.
  - unfold running. simpl. by induction (Z.to_nat n).
Qed.

Lemma wake_sums l : wsum is_sleep (wake <$> l) = 0 /\
  wsum is_check (wake <$> l) = wsum is_check l /\ wsum is_exit (wake <$> l) = wsum is_exit l /\
  omap (fun w => match w with WRun t => Some t | _ => None end) (wake <$> l)
  = omap (fun w : worker T => match w with WRun t => Some t | _ => None end) l.
Proof.
  induction l as [|w l (IH1 & IH2 & IH3 & IH4)]; [done|]. destruct w; csimpl; rewrite ?IH1, ?IH2, ?IH3, ?IH4; done.
Qed.

(** Updating the worker at [i] keeps [running] up to a permutation. *)
Definition run_of (w : worker T) : option T := match w with WRun t => Some t | _ => None end.
Lemma running_set l i (x y : worker T) : l !! i = Some y ->
  option_list (run_of y) ++ omap run_of (<[i := x]> l) ≡ₚ option_list (run_of x) ++ omap run_of l.
Proof. apply omap_insert. Qed.

Ltac fields := cbn [p_locked p_tasks p_stop p_workers p_adders p_dtor p_aborted p_added p_started p_finished
  set_worker set_adder set_dtor set_lock set_stop set_aborted push_task pop_task end_task wake_all call_add] in *.

Lemma pinv_worker n s i x y :
  pinv n s -> p_workers s !! i = Some y ->
  length (<[i := x]> (p_workers s)) = Z.to_nat n /\
  wsum is_check (<[i := x]> (p_workers s)) + is_check y = wsum is_check (p_workers s) + is_check x /\
  wsum is_sleep (<[i := x]> (p_workers s)) + is_sleep y = wsum is_sleep (p_workers s) + is_sleep x /\
  wsum is_awake (<[i := x]> (p_workers s)) + is_awake y = wsum is_awake (p_workers s) + is_awake x /\
  wsum is_exit (<[i := x]> (p_workers s)) + is_exit y = wsum is_exit (p_workers s) + is_exit x /\
  is_check y <= wsum is_check (p_workers s) /\ is_sleep y <= wsum is_sleep (p_workers s) /\
  option_list (run_of y) ++ omap run_of (<[i := x]> (p_workers s)) ≡ₚ option_list (run_of x) ++ omap run_of (p_workers s).
Proof.
  intros I Hy. rewrite insert_length, (i_len n s I).
  split_and!; try done; try (by apply wsum_insert); try (by eapply wsum_in). by apply running_set.
Qed.

Lemma pinv_adder s i x y : p_adders s !! i = Some y ->
  wsum is_hold (<[i := x]> (p_adders s)) + is_hold y = wsum is_hold (p_adders s) + is_hold x /\
  wsum is_notify (<[i := x]> (p_adders s)) + is_notify y = wsum is_notify (p_adders s) + is_notify x /\
  is_hold y <= wsum is_hold (p_adders s) /\ is_notify y <= wsum is_notify (p_adders s).
Proof. intros Hy. split_and!; try (by apply wsum_insert); by eapply wsum_in. Qed.

Lemma not_done_exit n s i w : pinv n s -> p_workers s !! i = Some w -> w ≠ WExit -> p_dtor s ≠ DDone.
Proof.
  intros I Hw Hne E. pose proof (i_done n s I E) as Hall.
  apply Hne. symmetry. exact (Forall_lookup_1 _ _ _ _ Hall Hw).
Qed.

Lemma pinv_step n s s' : pinv n s -> pstep s s' -> pinv n s'.
Proof.
  intros I Hs.
  pose proof (i_one n s I) as I1. pose proof (i_len n s I) as I2. pose proof (i_lock n s I) as I3.
  pose proof (i_fifo n s I) as I4. pose proof (i_once n s I) as I5. pose proof (i_stop n s I) as I6.
  pose proof (i_wake n s I) as I7. pose proof (i_stopwake n s I) as I8. pose proof (i_exit n s I) as I9.
  pose proof (i_done n s I) as I10. unfold running in I5. fold run_of in I5.
  destruct Hs as [s i Ha Hl Hw|s i Ha Hw Hst Ht|s i Ha Hw Hst Ht|s i t rest Ha Hw Ht|s i t Ha Hw
    |s i t Ha Hl Hw|s i t Ha Hw Hst|s i t Ha Hw Hst|s i j Ha Hw Hj|s i Ha Hw Hn
    |s Ha Hl Hd|s Ha Hd|s Ha Hd|s Ha Hd Hall].
  - destruct (pinv_worker n s i WCheck _ I Hw) as (L & C & S & W & E & C0 & S0 & R).
    pose proof (not_done_exit n s i _ I Hw ltac:(done)) as Hnd. rewrite Hl in I3. simpl in *.
    constructor; fields; unfold running; fields; fold run_of; try done; try lia.
    + by rewrite R.
    + intros. apply I8 in H as ?; [lia|done].
    + intros. apply I9. lia.
  - destruct (pinv_worker n s i WSleep _ I Hw) as (L & C & S & W & E & C0 & S0 & R).
    pose proof (not_done_exit n s i _ I Hw ltac:(done)) as Hnd. simpl in *.
    constructor; fields; unfold running; fields; fold run_of; try done; try lia.
    + destruct (p_locked s); lia.
    + by rewrite R.
    + rewrite Ht. simpl. lia.
    + congruence.
    + intros. apply I9. lia.
  - destruct (pinv_worker n s i WExit _ I Hw) as (L & C & S & W & E & C0 & S0 & R).
    pose proof (not_done_exit n s i _ I Hw ltac:(done)) as Hnd. simpl in *.
    constructor; fields; unfold running; fields; fold run_of; try done; try lia.
    + destruct (p_locked s); lia.
    + by rewrite R.
    + rewrite Ht. simpl. lia.
    + intros. apply I8 in H as ?; [lia|done].
  - destruct (pinv_worker n s i (WRun t) _ I Hw) as (L & C & S & W & E & C0 & S0 & R).
    pose proof (not_done_exit n s i _ I Hw ltac:(done)) as Hnd. simpl in *.
    constructor; fields; unfold running; fields; fold run_of; try done; try lia.
    + destruct (p_locked s); lia.
    + rewrite <-I4, Ht. by rewrite <-app_assoc.
    + rewrite R, I5. rewrite <-app_assoc. f_equiv. by rewrite Permutation_app_comm.
    + intros Hs. rewrite Ht in I7. simpl in I7. lia.
    + intros. apply I8 in H as ?; [lia|done].
    + intros. destruct I9 as [_ ?]; [lia|]. congruence.
  - destruct (pinv_worker n s i WLock _ I Hw) as (L & C & S & W & E & C0 & S0 & R).
    pose proof (not_done_exit n s i _ I Hw ltac:(done)) as Hnd. simpl in *.
    constructor; fields; unfold running; fields; fold run_of; try done; try lia.
    + rewrite I5, <-R, <-app_assoc. done.
    + intros. apply I8 in H as ?; [lia|done].
    + intros. apply I9. lia.
  - destruct (pinv_adder s i (AHold t) _ Hw) as (H1 & H2 & H3 & H4). rewrite Hl in I3. simpl in *.
    constructor; fields; try done; try lia.
  - destruct (pinv_adder s i ANotify _ Hw) as (H1 & H2 & H3 & H4). simpl in *.
    constructor; fields; try done; try lia.
    + destruct (p_locked s); lia.
    + by rewrite app_assoc, I4.
    + rewrite app_length. simpl. lia.
    + intros He. destruct (I9 He). congruence.
  - constructor; fields; done.
  - destruct (pinv_adder s i ADone _ Hw) as (H1 & H2 & H3 & H4).
    destruct (pinv_worker n s j WLock _ I Hj) as (L & C & S & W & E & C0 & S0 & R).
    pose proof (not_done_exit n s j _ I Hj ltac:(done)) as Hnd. simpl in *.
    constructor; fields; unfold running; fields; fold run_of; try done; try lia.
    + by rewrite R.
    + intros. apply I8 in H as ?; [lia|done].
    + intros. apply I9. lia.
  - destruct (pinv_adder s i ADone _ Hw) as (H1 & H2 & H3 & H4). simpl in *.
    assert (wsum is_sleep (p_workers s) = 0) as Hz.
    { apply wsum_zero. eapply Forall_impl; [exact Hn|]. by intros []. }
    constructor; fields; try done; try lia.
  - rewrite Hl, Hd in I3. rewrite Hd in I6, I8, I10. simpl in *. constructor; fields; simpl; try done; try lia.
    intros E _. congruence.
  - rewrite Hd in I3, I6. simpl in *. constructor; fields; simpl; try done; try lia.
    + destruct (p_locked s); lia.
    + intros He. destruct (I9 He). congruence.
  - destruct (wake_sums (p_workers s)) as (S & C & E & R). rewrite Hd in I3, I6. simpl in *.
    constructor; fields; unfold running; fields; simpl; try rewrite C; try rewrite E; try rewrite R; try done; try lia.
    by rewrite fmap_length.
  - rewrite Hd in I3, I6, I8. simpl in *. constructor; fields; simpl; try done; try lia.
    intros E _. by apply I8.
Qed.

Lemma pinv_spurious n s s' : pinv n s -> spurious s s' -> pinv n s'.
Proof.
  intros I Hs.
  pose proof (i_one n s I) as I1. pose proof (i_len n s I) as I2. pose proof (i_lock n s I) as I3.
  pose proof (i_fifo n s I) as I4. pose proof (i_once n s I) as I5. pose proof (i_stop n s I) as I6.
  pose proof (i_wake n s I) as I7. pose proof (i_stopwake n s I) as I8. pose proof (i_exit n s I) as I9.
  pose proof (i_done n s I) as I10. unfold running in I5. fold run_of in I5.
  destruct Hs as [s i Ha Hw].
  destruct (pinv_worker n s i WLock _ I Hw) as (L & C & S & W & E & C0 & S0 & R).
  pose proof (not_done_exit n s i _ I Hw ltac:(done)) as Hnd. simpl in *.
  constructor; fields; unfold running; fields; fold run_of; try done; try lia.
  - by rewrite R.
  - intros. apply I8 in H as ?; [lia|done].
  - intros. apply I9. lia.
Qed.

Lemma pinv_call n s s' : pinv n s -> call s s' -> pinv n s'.
Proof.
  intros I Hs.
  pose proof (i_one n s I) as I1. pose proof (i_len n s I) as I2. pose proof (i_lock n s I) as I3.
  pose proof (i_fifo n s I) as I4. pose proof (i_once n s I) as I5. pose proof (i_stop n s I) as I6.
  pose proof (i_wake n s I) as I7. pose proof (i_stopwake n s I) as I8. pose proof (i_exit n s I) as I9.
  pose proof (i_done n s I) as I10.
  destruct Hs as [s t Ha Hd|s Ha Hd].
  - constructor; fields; rewrite ?wsum_app; simpl; try done; try lia.
  - rewrite Hd in I3, I6, I8. simpl in *. constructor; fields; try done. intros E _. by apply I8.
Qed.

Lemma pinv_reachable n s : reachable n s -> pinv n s.
Proof.
  induction 1; [by apply pinv_new|by eapply pinv_step|by eapply pinv_spurious|by eapply pinv_call].
Qed.

(** ** Nothing is stuck *)

(** All threads of the pool wait or have ended, and no call is in progress. *)
Definition quiet s : Prop :=
  Forall (fun w => w = WSleep \/ w = WExit) (p_workers s) /\ Forall (eq ADone) (p_adders s) /\
  (p_dtor s = DIdle \/ p_dtor s = DDone).

Lemma progress n s : reachable n s -> p_aborted s = false -> (exists s', pstep s s') \/ quiet s.
Proof.
  intros I%pinv_reachable Ha.
  assert (Dw : forall i w, p_workers s !! i = Some w -> p_locked s = false ->
    (exists s', pstep s s') \/ w = WSleep \/ w = WExit).
  { intros i w Hw Hl. destruct w; eauto; left.
    - eexists. by eapply s_worker_lock.
    - exfalso. pose proof (i_lock n s I) as HL. rewrite Hl in HL. pose proof (wsum_in is_check _ _ _ Hw). simpl in *. lia.
    - eexists. by eapply s_worker_run. }
  destruct (p_locked s) eqn:Hl.
  { left. pose proof (i_lock n s I) as HL. rewrite Hl in HL.
    destruct (decide (wsum is_check (p_workers s) = 0)) as [E1|E1].
    2:{ apply wsum_pos in E1 as (i & w & Hw & Hc). destruct w; try done.
        destruct (p_tasks s) as [|t rest] eqn:Ht; [destruct (p_stop s) eqn:Hst|]; eexists.
        - by eapply s_worker_exit.
        - by eapply s_worker_sleep.
        - by eapply s_worker_take. }
    destruct (decide (wsum is_hold (p_adders s) = 0)) as [E2|E2].
    2:{ apply wsum_pos in E2 as (i & a & Hw & Hc). destruct a; try done.
        destruct (p_stop s) eqn:Hst; eexists; [by eapply s_add_abort|by eapply s_add_push]. }
    assert (p_dtor s = DHold) as Hd by (destruct (p_dtor s); simpl in HL; try lia; done).
    eexists. by eapply s_dtor_stop. }
  assert (Hlk := i_lock n s I). rewrite Hl in Hlk.
  (* adders *)
  destruct (decide (wsum (fun a : adder T => match a with ADone => 0 | _ => 1 end) (p_adders s) = 0)) as [Ea|Ea].
  2:{ left. apply wsum_pos in Ea as (i & a & Hw & Hc). destruct a; try done.
      - eexists. by eapply s_add_lock.
      - exfalso. pose proof (wsum_in is_hold _ _ _ Hw). simpl in *. lia.
      - destruct (decide (wsum is_sleep (p_workers s) = 0)) as [E|E].
        + eexists. eapply s_add_notify_none; [done..|]. apply wsum_zero in E.
          eapply Forall_impl; [exact E|]. by intros [].
        + apply wsum_pos in E as (j & w & Hj & Hs). destruct w; try done. eexists. by eapply s_add_notify. }
  assert (Forall (eq ADone) (p_adders s)) as Fa.
  { apply wsum_zero in Ea. eapply Forall_impl; [exact Ea|]. by intros []. }
  (* workers *)
  destruct (decide (wsum (fun w : worker T => match w with WSleep | WExit => 0 | _ => 1 end) (p_workers s) = 0)) as [Ew|Ew].
  2:{ apply wsum_pos in Ew as (i & w & Hw & Hc).
      destruct (Dw i w Hw eq_refl) as [?|[->| ->]]; [by left|done|done]. }
  assert (Forall (fun w => w = WSleep \/ w = WExit) (p_workers s)) as Fw.
  { apply wsum_zero in Ew. eapply Forall_impl; [exact Ew|]. intros []; simpl; auto; done. }
  destruct (p_dtor s) eqn:Hd.
  - right. split; [done|]. split; [done|]. by left.
  - left. eexists. by eapply s_dtor_lock.
  - simpl in Hlk. lia.
  - left. eexists. by eapply s_dtor_notify.
  - left. eexists. eapply s_dtor_join; [done|done|].
    assert (Hz : wsum is_sleep (p_workers s) = 0).
    { apply (i_stopwake n s I); [|by rewrite Hd]. by rewrite (i_stop n s I), Hd. }
    apply wsum_zero in Hz. apply Forall_forall. intros w Hin.
    rewrite Forall_forall in Fw, Hz. destruct (Fw w Hin) as [->| ->]; [|done]. by specialize (Hz _ Hin).
  - right. split; [done|]. split; [done|]. by right.
Qed.

Lemma quiet_all n s : reachable n s -> quiet s ->
  p_tasks s = [] /\ running s = [] /\ p_started s = p_added s /\ p_finished s ≡ₚ p_added s.
Proof.
  intros I%pinv_reachable (Fw & Fa & Hd).
  assert (Hrun : running s = []).
  { unfold running. clear -Fw. induction Fw as [|w l [->| ->] _ IH]; simpl; done. }
  assert (Htasks : p_tasks s = []).
  { destruct Hd as [Hd|Hd].
    - assert (Hex : wsum is_exit (p_workers s) = 0).
      { destruct (decide (wsum is_exit (p_workers s) = 0)) as [E|E]; [done|].
        destruct (i_exit n s I E) as [Hst _]. rewrite (i_stop n s I), Hd in Hst. done. }
      assert (Hsl : wsum is_sleep (p_workers s) ≠ 0).
      { destruct (p_workers s) as [|w l] eqn:E.
        - pose proof (i_len n s I) as HL. rewrite E in HL. pose proof (i_one n s I). simpl in HL. lia.
        - apply Forall_cons in Fw as [[->| ->] _]; simpl in *; lia. }
      pose proof (i_wake n s I Hsl) as HL.
      assert (wsum is_awake (p_workers s) = 0) as Hz.
      { apply wsum_zero. eapply Forall_impl; [exact Fw|]. by intros w [->| ->]. }
      assert (wsum is_notify (p_adders s) = 0) as Hz2.
      { apply wsum_zero. eapply Forall_impl; [exact Fa|]. by intros w <-. }
      rewrite Hz, Hz2 in HL. apply nil_length_inv. lia.
    - pose proof (i_done n s I Hd) as Hall.
      assert (Hex : wsum is_exit (p_workers s) ≠ 0).
      { destruct (p_workers s) as [|w l] eqn:E.
        - pose proof (i_len n s I) as HL. rewrite E in HL. pose proof (i_one n s I). simpl in HL. lia.
        - apply Forall_cons in Hall as [<- _]. simpl. lia. }
      by destruct (i_exit n s I Hex). }
  pose proof (i_fifo n s I) as Hf. rewrite Htasks, app_nil_r in Hf.
  pose proof (i_once n s I) as Ho. rewrite Hrun, app_nil_r in Ho.
  split; [done|]. split; [done|]. split; [done|]. by rewrite <-Hf.
Qed.

Lemma dtor_done_all n s : reachable n s -> p_dtor s = DDone ->
  Forall (eq WExit) (p_workers s) /\ p_tasks s = [] /\ p_started s = p_added s /\ p_finished s ≡ₚ p_added s.
Proof.
  intros R Hd. pose proof (pinv_reachable n s R) as I.
  pose proof (i_done n s I Hd) as Hall.
  assert (Hex : wsum is_exit (p_workers s) ≠ 0).
  { destruct (p_workers s) as [|w l] eqn:E.
    - pose proof (i_len n s I) as HL. rewrite E in HL. pose proof (i_one n s I). simpl in HL. lia.
    - apply Forall_cons in Hall as [<- _]. simpl. lia. }
  destruct (i_exit n s I Hex) as [_ Ht].
  assert (Hrun : running s = []).
  { unfold running. clear -Hall. induction Hall as [|w l <- _ IH]; simpl; done. }
  pose proof (i_fifo n s I) as Hf. rewrite Ht, app_nil_r in Hf.
  pose proof (i_once n s I) as Ho. rewrite Hrun, app_nil_r in Ho.
  split; [done|]. split; [done|]. split; [done|]. by rewrite <-Hf.
Qed.

(** ** Termination *)

Definition w_weight (w : worker T) : nat := match w with WLock => 3 | WCheck => 2 | WRun _ => 4 | _ => 0 end.
Definition a_weight (a : adder T) : nat := match a with ALock _ => 9 | AHold _ => 8 | ANotify => 4 | ADone => 0 end.
Definition d_weight (n : nat) (d : dtor) : nat :=
  match d with DIdle => 0 | DLock => 4 + 3 * n | DHold => 3 + 3 * n | DNotify => 2 + 3 * n | DJoin => 1 | DDone => 0 end.
Definition work s : nat :=
  if p_aborted s then 0 else
  1 + wsum w_weight (p_workers s) + wsum a_weight (p_adders s) + 3 * length (p_tasks s)
  + d_weight (length (p_workers s)) (p_dtor s).

Lemma wake_weight l : wsum w_weight (wake <$> l) <= wsum w_weight l + 3 * length l.
Proof. induction l as [|w l IH]; [done|]. destruct w; csimpl in *; lia. Qed.

Lemma work_step s s' : pstep s s' -> work s' < work s.
Proof.
  intros Hs. unfold work.
  destruct Hs as [s i Ha Hl Hw|s i Ha Hw Hst Ht|s i Ha Hw Hst Ht|s i t rest Ha Hw Ht|s i t Ha Hw
    |s i t Ha Hl Hw|s i t Ha Hw Hst|s i t Ha Hw Hst|s i j Ha Hw Hj|s i Ha Hw Hn
    |s Ha Hl Hd|s Ha Hd|s Ha Hd|s Ha Hd Hall]; fields; rewrite Ha, ?insert_length, ?fmap_length.
  - pose proof (wsum_insert w_weight _ i WCheck _ Hw) as HW. simpl in *. lia.
  - pose proof (wsum_insert w_weight _ i WSleep _ Hw) as HW. simpl in *. lia.
  - pose proof (wsum_insert w_weight _ i WExit _ Hw) as HW. simpl in *. lia.
  - pose proof (wsum_insert w_weight _ i (WRun t) _ Hw) as HW. rewrite Ht. simpl in *. lia.
  - pose proof (wsum_insert w_weight _ i WLock _ Hw) as HW. simpl in *. lia.
  - pose proof (wsum_insert a_weight _ i (AHold t) _ Hw) as HW. simpl in *. lia.
  - pose proof (wsum_insert a_weight _ i ANotify _ Hw) as HW. rewrite app_length. simpl in *. lia.
  - lia.
  - pose proof (wsum_insert a_weight _ i ADone _ Hw) as HW.
    pose proof (wsum_insert w_weight _ j WLock _ Hj) as HW'. simpl in *. lia.
  - pose proof (wsum_insert a_weight _ i ADone _ Hw) as HW. simpl in *. lia.
  - rewrite Hd. simpl. lia.
  - rewrite Hd. simpl. lia.
  - rewrite Hd. pose proof (wake_weight (p_workers s)). simpl. lia.
  - rewrite Hd. simpl. lia.
Qed.

Lemma work_spurious s s' : spurious s s' -> work s' <= 3 + work s.
Proof.
  intros [s1 i Ha Hw]. unfold work. fields. rewrite Ha, insert_length.
  pose proof (wsum_insert w_weight _ i WLock _ Hw) as HW. simpl in *. lia.
Qed.

(** A run without new calls: [k] steps of the threads and [u] spurious wake-ups. *)
Inductive run_from : pool T -> nat -> nat -> pool T -> Prop :=
| rf_nil s : run_from s 0 0 s
| rf_step s s1 k u s' : pstep s s1 -> run_from s1 k u s' -> run_from s (S k) u s'
| rf_spurious s s1 k u s' : spurious s s1 -> run_from s1 k u s' -> run_from s k (S u) s'.

Lemma run_bound s k u s' : run_from s k u s' -> k <= work s + 3 * u.
Proof.
  induction 1 as [|s s1 k u s' Hs _ IH|s s1 k u s' Hs _ IH]; [lia| |].
  - apply work_step in Hs. lia.
  - apply work_spurious in Hs. lia.
Qed.

Lemma run_reach n s k u s' : reachable n s -> run_from s k u s' -> reachable n s'.
Proof.
  intros R Hr. induction Hr as [|s s1 k u s' Hs _ IH|s s1 k u s' Hs _ IH]; [done|apply IH|apply IH].
  - by eapply r_step.
  - by eapply r_spurious.
Qed.

End proofs.
