(** Model of /repo/src/theia/util/threadpool.{h,cc}: an interleaving transition system.

    One step is what happens between two points where the operating system may switch threads: acquiring
    [queue_mutex], a critical section with its release, a notification, running a task.  Waking up without
    a notification (allowed for std::condition_variable) is a separate kind of step, and so are the calls
    made by the users of the pool, which may come from any thread at any time, also from tasks.

    Tasks are values of a type [T]; running one is a step that always ends (std::packaged_task stores
    exceptions in the future).  [p_added], [p_started] and [p_finished] record history and are never read. *)
From stdpp Require Import list.
From Verif Require Import Base.

Section pool.
Context {T : Type}.

(** threadpool.cc:84-101, where a worker can be. *)
Inductive worker :=
| WLock               (* waiting for queue_mutex, at line 89 or inside wait after being woken *)
| WCheck              (* holds queue_mutex, about to evaluate the predicate of wait *)
| WSleep              (* blocked in condition.wait *)
| WRun (t : T)        (* line 98 *)
| WExit.              (* returned at line 93 *)

(** threadpool.h:113-133, where a thread that called Add can be. *)
Inductive adder :=
| ALock (t : T)       (* waiting for queue_mutex, line 120 *)
| AHold (t : T)       (* holds queue_mutex, lines 122-128 *)
| ANotify             (* line 130 *)
| ADone.

(** threadpool.cc:107-115, where the destructor is. *)
Inductive dtor :=
| DIdle               (* not called *)
| DLock | DHold       (* line 109, line 110 *)
| DNotify             (* line 112 *)
| DJoin               (* lines 113-114 *)
| DDone.

Record pool := Pool {
  p_locked : bool;
  p_tasks : list T;
  p_stop : bool;
  p_workers : list worker;
  p_adders : list adder;
  p_dtor : dtor;
  p_aborted : bool;
  p_added : list T;
  p_started : list T;
  p_finished : list T }.

(** threadpool.cc:81-103, the constructor. *)
Definition pool_new (num_threads : Z) : outcome pool :=
  _ ← check (bool_decide (1 <= num_threads)%Z);
  Ok (Pool false [] false (replicate (Z.to_nat num_threads) WLock) [] DIdle false [] [] []).

Definition set_worker i w s := Pool (p_locked s) (p_tasks s) (p_stop s) (<[i := w]> (p_workers s))
  (p_adders s) (p_dtor s) (p_aborted s) (p_added s) (p_started s) (p_finished s).
Definition set_adder i a s := Pool (p_locked s) (p_tasks s) (p_stop s) (p_workers s)
  (<[i := a]> (p_adders s)) (p_dtor s) (p_aborted s) (p_added s) (p_started s) (p_finished s).
Definition set_dtor d s := Pool (p_locked s) (p_tasks s) (p_stop s) (p_workers s)
  (p_adders s) d (p_aborted s) (p_added s) (p_started s) (p_finished s).
Definition set_lock b s := Pool b (p_tasks s) (p_stop s) (p_workers s)
  (p_adders s) (p_dtor s) (p_aborted s) (p_added s) (p_started s) (p_finished s).
Definition set_stop s := Pool (p_locked s) (p_tasks s) true (p_workers s)
  (p_adders s) (p_dtor s) (p_aborted s) (p_added s) (p_started s) (p_finished s).
Definition set_aborted s := Pool (p_locked s) (p_tasks s) (p_stop s) (p_workers s)
  (p_adders s) (p_dtor s) true (p_added s) (p_started s) (p_finished s).
Definition push_task t s := Pool (p_locked s) (p_tasks s ++ [t]) (p_stop s) (p_workers s)
  (p_adders s) (p_dtor s) (p_aborted s) (p_added s ++ [t]) (p_started s) (p_finished s).
Definition pop_task t rest s := Pool (p_locked s) rest (p_stop s) (p_workers s)
  (p_adders s) (p_dtor s) (p_aborted s) (p_added s) (p_started s ++ [t]) (p_finished s).
Definition end_task t s := Pool (p_locked s) (p_tasks s) (p_stop s) (p_workers s)
  (p_adders s) (p_dtor s) (p_aborted s) (p_added s) (p_started s) (p_finished s ++ [t]).

(** What std::condition_variable::notify_all does to a worker. *)
Definition wake (w : worker) : worker := match w with WSleep => WLock | _ => w end.
Definition wake_all s := Pool (p_locked s) (p_tasks s) (p_stop s) (wake <$> p_workers s)
  (p_adders s) (p_dtor s) (p_aborted s) (p_added s) (p_started s) (p_finished s).

(** Steps of the threads.  None is possible once a CHECK has failed. *)
Inductive pstep : pool -> pool -> Prop :=
(* threadpool.cc:89, or the end of a wait: lock the mutex *)
| s_worker_lock s i : p_aborted s = false -> p_locked s = false -> p_workers s !! i = Some WLock ->
    pstep s (set_lock true (set_worker i WCheck s))
(* threadpool.cc:90-92: the predicate is false; release the mutex and block, atomically *)
| s_worker_sleep s i : p_aborted s = false -> p_workers s !! i = Some WCheck ->
    p_stop s = false -> p_tasks s = [] ->
    pstep s (set_lock false (set_worker i WSleep s))
(* threadpool.cc:93: stop && tasks.empty() *)
| s_worker_exit s i : p_aborted s = false -> p_workers s !! i = Some WCheck ->
    p_stop s = true -> p_tasks s = [] ->
    pstep s (set_lock false (set_worker i WExit s))
(* threadpool.cc:94-96: take the front task, release the mutex *)
| s_worker_take s i t rest : p_aborted s = false -> p_workers s !! i = Some WCheck ->
    p_tasks s = t :: rest ->
    pstep s (set_lock false (set_worker i (WRun t) (pop_task t rest s)))
(* threadpool.cc:98: run it, and go round the loop *)
| s_worker_run s i t : p_aborted s = false -> p_workers s !! i = Some (WRun t) ->
    pstep s (set_worker i WLock (end_task t s))
(* threadpool.h:120 *)
| s_add_lock s i t : p_aborted s = false -> p_locked s = false -> p_adders s !! i = Some (ALock t) ->
    pstep s (set_lock true (set_adder i (AHold t) s))
(* threadpool.h:123-128: CHECK(!stop), enqueue, release the mutex *)
| s_add_push s i t : p_aborted s = false -> p_adders s !! i = Some (AHold t) -> p_stop s = false ->
    pstep s (set_lock false (set_adder i ANotify (push_task t s)))
| s_add_abort s i t : p_aborted s = false -> p_adders s !! i = Some (AHold t) -> p_stop s = true ->
    pstep s (set_aborted s)
(* threadpool.h:130: wakes one waiting thread, if there is any *)
| s_add_notify s i j : p_aborted s = false -> p_adders s !! i = Some ANotify -> p_workers s !! j = Some WSleep ->
    pstep s (set_worker j WLock (set_adder i ADone s))
| s_add_notify_none s i : p_aborted s = false -> p_adders s !! i = Some ANotify ->
    Forall (fun w => w ≠ WSleep) (p_workers s) ->
    pstep s (set_adder i ADone s)
(* threadpool.cc:109-111 *)
| s_dtor_lock s : p_aborted s = false -> p_locked s = false -> p_dtor s = DLock ->
    pstep s (set_lock true (set_dtor DHold s))
| s_dtor_stop s : p_aborted s = false -> p_dtor s = DHold ->
    pstep s (set_lock false (set_dtor DNotify (set_stop s)))
(* threadpool.cc:112 *)
| s_dtor_notify s : p_aborted s = false -> p_dtor s = DNotify ->
    pstep s (set_dtor DJoin (wake_all s))
(* threadpool.cc:113-114: every join returns *)
| s_dtor_join s : p_aborted s = false -> p_dtor s = DJoin -> Forall (eq WExit) (p_workers s) ->
    pstep s (set_dtor DDone s).

(** A wake-up without notification. *)
Inductive spurious : pool -> pool -> Prop :=
| s_spurious s i : p_aborted s = false -> p_workers s !! i = Some WSleep ->
    spurious s (set_worker i WLock s).

Definition call_add t s := Pool (p_locked s) (p_tasks s) (p_stop s) (p_workers s)
  (p_adders s ++ [ALock t]) (p_dtor s) (p_aborted s) (p_added s) (p_started s) (p_finished s).

(** Calls from outside: Add while the object exists, and the destructor once. *)
Inductive call : pool -> pool -> Prop :=
| c_add s t : p_aborted s = false -> p_dtor s ≠ DDone -> call s (call_add t s)
| c_destroy s : p_aborted s = false -> p_dtor s = DIdle -> call s (set_dtor DLock s).

(** States a pool with [n] threads can be in. *)
Inductive reachable (n : Z) : pool -> Prop :=
| r_new s : pool_new n = Ok s -> reachable n s
| r_step s s' : reachable n s -> pstep s s' -> reachable n s'
| r_spurious s s' : reachable n s -> spurious s s' -> reachable n s'
| r_call s s' : reachable n s -> call s s' -> reachable n s'.

(** The tasks being executed. *)
Definition running (s : pool) : list T :=
  omap (fun w => match w with WRun t => Some t | _ => None end) (p_workers s).

End pool.
Arguments worker : clear implicits.
Arguments adder : clear implicits.
Arguments pool : clear implicits.
