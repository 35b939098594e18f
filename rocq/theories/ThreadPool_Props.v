(** Properties of the thread pool. *)
From stdpp Require Import list.
From Verif Require Import Base ThreadPool_Model ThreadPool_Proofs.

(** The constructor aborts unless there is at least one thread. *)
Theorem thread_pool_threads : forall (T : Type) (n : Z),
  (exists s : pool T, pool_new n = Ok s) <-> (1 <= n)%Z.
Proof.
  intros T n. unfold pool_new. case_bool_decide; simpl; split; try done; eauto. by intros [].
Qed.
Print Assumptions thread_pool_threads.

(** C20 (safety).  In every state that any schedule, with any spurious wake-ups, can reach: tasks are
    started in the order in which they were added, each once; the tasks started are exactly those that
    have finished and those being run now; and never more run than there are threads. *)
Theorem thread_pool_fifo_once : forall (T : Type) (n : Z) (s : pool T), reachable n s ->
  p_added s = p_started s ++ p_tasks s /\
  p_started s ≡ₚ p_finished s ++ running s /\
  (Z.of_nat (length (running s)) <= n)%Z.
Proof.
  intros T n s R%pinv_reachable. split; [symmetry; apply (i_fifo n s R)|]. split; [apply (i_once n s R)|].
  pose proof (i_one n s R). pose proof (i_len n s R) as HL.
  assert (length (running s) <= length (p_workers s))%nat; [|lia].
  unfold running. generalize (p_workers s). intros l. induction l as [|w l IH]; [done|]. destruct w; csimpl in *; lia.
Qed.
Print Assumptions thread_pool_fifo_once.

(** C20 (destructor).  When the destructor has returned, every task ever added has finished, once, and
    every thread has ended. *)
Theorem thread_pool_destructor : forall (T : Type) (n : Z) (s : pool T), reachable n s -> p_dtor s = DDone ->
  p_finished s ≡ₚ p_added s /\ p_tasks s = [] /\ running s = [] /\ Forall (eq WExit) (p_workers s).
Proof.
  intros T n s R Hd. destruct (dtor_done_all n s R Hd) as (H1 & H2 & H3 & H4). split_and!; try done.
  unfold running. clear -H1. induction H1 as [|w l <- _ IH]; simpl; done.
Qed.
Print Assumptions thread_pool_destructor.

(** C20 (no deadlock, no lost wake-up).  Unless a CHECK has failed, in every reachable state some thread
    can move without a spurious wake-up, or nothing is left to do: every task ever added has finished, no
    Add or destructor call is in progress. *)
Theorem thread_pool_no_deadlock : forall (T : Type) (n : Z) (s : pool T),
  reachable n s -> p_aborted s = false ->
  (exists s', pstep s s') \/
  (p_finished s ≡ₚ p_added s /\ p_tasks s = [] /\ running s = [] /\ Forall (eq ADone) (p_adders s) /\
   (p_dtor s = DIdle \/ p_dtor s = DDone)).
Proof.
  intros T n s R Ha. destruct (progress n s R Ha) as [?|Hq]; [by left|right].
  destruct (quiet_all n s R Hq) as (H1 & H2 & H3 & H4). destruct Hq as (_ & ? & ?). done.
Qed.
Print Assumptions thread_pool_no_deadlock.

(** C20 (termination).  With no further calls, the number of steps of any schedule is bounded by the work
    present and the number of spurious wake-ups; so no schedule goes on for ever, whatever the scheduler,
    and by the previous theorem it can only end when everything is done. *)
Theorem thread_pool_terminates : forall (T : Type) (s : pool T) (k u : nat) (s' : pool T),
  run_from s k u s' -> (k <= work s + 3 * u)%nat.
Proof. exact @run_bound. Qed.
Print Assumptions thread_pool_terminates.

(** A CHECK fails only if Add runs when the destructor has set [stop]. *)
Theorem thread_pool_abort : forall (T : Type) (s s' : pool T),
  pstep s s' -> p_aborted s' = true -> exists i t, p_adders s !! i = Some (AHold t) /\ p_stop s = true.
Proof. intros T s s' Hs Ha. destruct Hs; simpl in Ha; try congruence. eauto. Qed.
Print Assumptions thread_pool_abort.

(** A schedule of a pool of two threads with two tasks, that ends with the destructor. *)
Example thread_pool_sample : exists s : pool nat,
  reachable 2 s /\ p_dtor s = DDone /\ p_added s = [7; 8] /\ p_started s = [7; 8] /\ p_finished s = [8; 7] /\
  p_aborted s = false.
Proof.
  assert (R : reachable 2 (Pool false [] false [WLock; WLock] [] DIdle false [] [] [] : pool nat)).
  { by apply r_new. }
  eapply r_call in R; [|apply (c_add _ 7); first [done|repeat constructor; done]]; cbv in R.
  eapply r_call in R; [|apply (c_add _ 8); first [done|repeat constructor; done]]; cbv in R.
  eapply r_step in R; [|apply (s_worker_lock _ 1); first [done|repeat constructor; done]]; cbv in R.
  eapply r_step in R; [|apply (s_worker_sleep _ 1); first [done|repeat constructor; done]]; cbv in R.
  eapply r_step in R; [|apply (s_add_lock _ 0 7); first [done|repeat constructor; done]]; cbv in R.
  eapply r_step in R; [|apply (s_add_push _ 0 7); first [done|repeat constructor; done]]; cbv in R.
  eapply r_step in R; [|apply (s_worker_lock _ 0); first [done|repeat constructor; done]]; cbv in R.
  eapply r_step in R; [|apply (s_worker_take _ 0 7 []); first [done|repeat constructor; done]]; cbv in R.
  eapply r_step in R; [|apply (s_add_lock _ 1 8); first [done|repeat constructor; done]]; cbv in R.
  eapply r_step in R; [|apply (s_add_push _ 1 8); first [done|repeat constructor; done]]; cbv in R.
  eapply r_step in R; [|apply (s_add_notify _ 1 1); first [done|repeat constructor; done]]; cbv in R.
  eapply r_step in R; [|apply (s_add_notify_none _ 0); first [done|repeat constructor; done]]; cbv in R.
  eapply r_call in R; [|apply (c_destroy _); first [done|repeat constructor; done]]; cbv in R.
  eapply r_step in R; [|apply (s_dtor_lock _); first [done|repeat constructor; done]]; cbv in R.
  eapply r_step in R; [|apply (s_dtor_stop _); first [done|repeat constructor; done]]; cbv in R.
  eapply r_step in R; [|apply (s_worker_lock _ 1); first [done|repeat constructor; done]]; cbv in R.
  eapply r_step in R; [|apply (s_worker_take _ 1 8 []); first [done|repeat constructor; done]]; cbv in R.
  eapply r_step in R; [|apply (s_dtor_notify _); first [done|repeat constructor; done]]; cbv in R.
  eapply r_step in R; [|apply (s_worker_run _ 1 8); first [done|repeat constructor; done]]; cbv in R.
  eapply r_step in R; [|apply (s_worker_run _ 0 7); first [done|repeat constructor; done]]; cbv in R.
  eapply r_step in R; [|apply (s_worker_lock _ 0); first [done|repeat constructor; done]]; cbv in R.
  eapply r_step in R; [|apply (s_worker_exit _ 0); first [done|repeat constructor; done]]; cbv in R.
  eapply r_step in R; [|apply (s_worker_lock _ 1); first [done|repeat constructor; done]]; cbv in R.
  eapply r_step in R; [|apply (s_worker_exit _ 1); first [done|repeat constructor; done]]; cbv in R.
  eapply r_step in R; [|apply (s_dtor_join _); first [done|repeat constructor; done]]; cbv in R.
  eexists. split; [exact R|]. done.
Qed.
