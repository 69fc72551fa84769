(** * Model of async_executor/thread_pool.h and async_executor/executor.h.

    A labelled transition system.  Each step is one operation on the shared state
    (mutex, condition variable, queue, stop flag) by one thread; any enabled step
    of any thread may come next, so every schedule is an execution.  Threads
    [0 .. n-1] are the workers created by the constructor (thread_pool.h:66-85), the
    others are client threads, each performing a list of calls on the pool.
    Simplifications: the constructor has finished (its static initialisation is
    serialised by the language, lines 51-54), memory is sequentially consistent (all
    shared fields are accessed under the mutex), a task is the list of calls it makes on the
    pool and does not throw. *)
From Coq Require Import List Arith Bool.
Import ListNotations.

(* thread_pool.h:14-21, 23-34 and 49, 41-47; executor.h:22-26, 32-35. *)
Inductive call :=
| CPush (t : task)        (* PushTask(t), also BridgeExecutor::schedule(t) *)
| CStop                   (* Stop(), also ~ThreadPool() *)
| CWho                    (* GetCurrentId() = currentContextId() *)
with task := Task (id : nat) (body : list call).

(* task(), thread_pool.h:81. *)
Definition body_of (t : task) : list call := match t with Task _ b => b end.

(** Progress inside one call. *)
(* Positions inside thread_pool.h:14-34. *)
Inductive act :=
| AIdle                   (* between two calls *)
| AHoldPush (t : task)    (* line 16: holds the mutex *)
| AUnlPush                (* line 18 done, mutex held *)
| ANotifyOne              (* line 20 *)
| AHoldStop               (* line 24: holds the mutex *)
| AUnlStop                (* line 28 done, mutex held *)
| ANotifyAll              (* line 30 *)
| AJoin (j : nat).        (* lines 31-33, about to join works_[j] *)

(* Positions inside thread_pool.h:66-85, and inside a call of 14-47. *)
Inductive pc :=
| WInit                   (* lines 69-70 *)
| WLock                   (* line 73, or woken inside wait: about to lock *)
| WTest                   (* line 74: mutex held, evaluating the predicate *)
| WSleep                  (* predicate false: about to unlock and block, atomically *)
| WWait                   (* blocked in wait, mutex released *)
| WTake                   (* line 75: mutex held, predicate true *)
| WExiting                (* line 76, mutex still held by the unique_lock *)
| WExit                   (* the thread function has returned *)
| WGot (k : nat) (t : task)      (* lines 78-79 done, mutex held *)
| Calls (a : act) (job : option nat) (rest : list call).
    (* performing calls: a client, or a worker running task number [job] (line 81) *)

(** [th_cur]: the thread-local pair of lines 36-39 ([None] = its initial value). *)
(* A std::thread with its thread_local pair, thread_pool.h:36-39, 60. *)
Record thread := { th_pc : pc; th_cur : option nat }.

(* thread_pool.h:60-64. *)
Record state := {
  queue : list (nat * task);     (* tasks_, each with the number of its acceptance *)
  stop : bool;                   (* stop_ *)
  mtx : option nat;              (* owner of mut_ *)
  threads : list thread;
  accepted : nat;                (* ghost: tasks accepted so far *)
  crashed : bool                 (* std::terminate was called *)
}.

(** What an observer sees. *)
(* What can be observed of thread_pool.h:14-85. *)
Inductive event :=
| Tau
| Accept (k : nat) (t : task)    (* PushTask stored t as number k *)
| Drop (t : task)                (* PushTask returned without storing t *)
| Start (w k : nat) (t : task)   (* worker w took task number k *)
| Finish (w k : nat)             (* task number k returned *)
| Shut (i : nat)                 (* thread i set stop_ *)
| StopRet (i : nat) (first : bool)   (* Stop() returned; first: it set stop_ *)
| Who (i : nat) (r : option nat)     (* GetCurrentId() returned r ([None] = -1) *)
| Spurious (w : nat)             (* wait woke up without notification *)
| Crash.

(* Overwriting one element of a list; helper for the threads of thread_pool.h:60. *)
Fixpoint upd {A} (i : nat) (x : A) (l : list A) : list A :=
  match l, i with
  | [], _ => []
  | _ :: l', O => x :: l'
  | y :: l', S i' => y :: upd i' x l'
  end.

(* A thread of thread_pool.h:60 moves on; no counterpart of its own. *)
Definition set_pc (i : nat) (p : pc) (l : list thread) : list thread :=
  match nth_error l i with
  | Some th => upd i {| th_pc := p; th_cur := th_cur th |} l
  | None => l
  end.

(* notify_all, thread_pool.h:30. *)
Definition wake (th : thread) : thread :=
  match th_pc th with
  | WWait => {| th_pc := WLock; th_cur := th_cur th |}
  | _ => th
  end.

(* Helper of [step]; the other members of thread_pool.h:60-64 stay. *)
Definition with_threads (s : state) (l : list thread) : state :=
  {| queue := queue s; stop := stop s; mtx := mtx s; threads := l; accepted := accepted s; crashed := crashed s |}.
(* Locking and unlocking mut_, thread_pool.h:16, 19, 24, 29, 73, 80. *)
Definition with_mtx (s : state) (m : option nat) : state :=
  {| queue := queue s; stop := stop s; mtx := m; threads := threads s; accepted := accepted s; crashed := crashed s |}.

(* Helper of [step], see thread_pool.h:66-85. *)
Definition goto (s : state) (i : nat) (p : pc) : state := with_threads s (set_pc i p (threads s)).
(* Helper of [step], see thread_pool.h:66-85. *)
Definition pc_of (s : state) (i : nat) (p : pc) : Prop :=
  exists th, nth_error (threads s) i = Some th /\ th_pc th = p.
(* Blocked inside cond_.wait, thread_pool.h:74. *)
Definition waiting (s : state) (w : nat) : Prop := pc_of s w WWait.

(** line 74, the predicate. *)
(* thread_pool.h:74. *)
Definition ready (s : state) : bool := stop s || match queue s with [] => false | _ => true end.

(* thread_pool.h:14-85, one operation on shared state at a time; the lines are given at each rule. *)
Inductive step (n : nat) (s : state) : event -> state -> Prop :=
(* ---- worker loop, lines 68-83 ---- *)
| s_init w (H : pc_of s w WInit) :
    step n s Tau (with_threads s (upd w {| th_pc := WLock; th_cur := Some w |} (threads s)))
| s_lock w (H : pc_of s w WLock) (HM : mtx s = None) :
    step n s Tau (goto (with_mtx s (Some w)) w WTest)
| s_test w (H : pc_of s w WTest) :
    step n s Tau (goto s w (if ready s then WTake else WSleep))
| s_sleep w (H : pc_of s w WSleep) :
    step n s Tau (goto (with_mtx s None) w WWait)
| s_spurious w (H : waiting s w) :
    step n s (Spurious w) (goto s w WLock)
| s_exit w (H : pc_of s w WTake) (HS : stop s = true) (HQ : queue s = []) :
    step n s Tau (goto s w WExiting)
| s_exited w (H : pc_of s w WExiting) :
    step n s Tau (goto (with_mtx s None) w WExit)
| s_pop w k t q (H : pc_of s w WTake) (HQ : queue s = (k, t) :: q) :
    step n s (Start w k t)
      (goto {| queue := q; stop := stop s; mtx := mtx s; threads := threads s;
               accepted := accepted s; crashed := crashed s |} w (WGot k t))
| s_go w k t (H : pc_of s w (WGot k t)) :
    step n s Tau (goto (with_mtx s None) w (Calls AIdle (Some k) (body_of t)))
| s_finish w k (H : pc_of s w (Calls AIdle (Some k) [])) :
    step n s (Finish w k) (goto s w WLock)
(* ---- PushTask, lines 14-21 ---- *)
| s_push i t job r (H : pc_of s i (Calls AIdle job (CPush t :: r))) (HM : mtx s = None) :
    step n s Tau (goto (with_mtx s (Some i)) i (Calls (AHoldPush t) job r))
| s_push_drop i t job r (H : pc_of s i (Calls (AHoldPush t) job r)) (HS : stop s = true) :
    step n s (Drop t) (goto (with_mtx s None) i (Calls AIdle job r))
| s_push_store i t job r (H : pc_of s i (Calls (AHoldPush t) job r)) (HS : stop s = false) :
    step n s (Accept (accepted s) t)
      (goto {| queue := queue s ++ [(accepted s, t)]; stop := stop s; mtx := mtx s; threads := threads s;
               accepted := S (accepted s); crashed := crashed s |} i (Calls AUnlPush job r))
| s_push_unlock i job r (H : pc_of s i (Calls AUnlPush job r)) :
    step n s Tau (goto (with_mtx s None) i (Calls ANotifyOne job r))
| s_notify_one i job r w (H : pc_of s i (Calls ANotifyOne job r)) (HW : waiting s w) :
    step n s Tau (goto (goto s w WLock) i (Calls AIdle job r))
| s_notify_none i job r (H : pc_of s i (Calls ANotifyOne job r)) (HW : forall w, ~ waiting s w) :
    step n s Tau (goto s i (Calls AIdle job r))
(* ---- Stop, lines 23-34 ---- *)
| s_stop i job r (H : pc_of s i (Calls AIdle job (CStop :: r))) (HM : mtx s = None) :
    step n s Tau (goto (with_mtx s (Some i)) i (Calls AHoldStop job r))
| s_stop_again i job r (H : pc_of s i (Calls AHoldStop job r)) (HS : stop s = true) :
    step n s (StopRet i false) (goto (with_mtx s None) i (Calls AIdle job r))
| s_stop_set i job r (H : pc_of s i (Calls AHoldStop job r)) (HS : stop s = false) :
    step n s (Shut i)
      (goto {| queue := queue s; stop := true; mtx := mtx s; threads := threads s;
               accepted := accepted s; crashed := crashed s |} i (Calls AUnlStop job r))
| s_stop_unlock i job r (H : pc_of s i (Calls AUnlStop job r)) :
    step n s Tau (goto (with_mtx s None) i (Calls ANotifyAll job r))
| s_notify_all i job r (H : pc_of s i (Calls ANotifyAll job r)) :
    step n s Tau (goto (with_threads s (map wake (threads s))) i (Calls (AJoin 0) job r))
| s_join i j job r (H : pc_of s i (Calls (AJoin j) job r)) (HJ : j < n) (HX : pc_of s j WExit) :
    step n s Tau (goto s i (Calls (AJoin (S j)) job r))
| s_join_self i job r (H : pc_of s i (Calls (AJoin i) job r)) (HJ : i < n) :
    (* join() of the calling thread throws system_error, which escapes the task *)
    step n s Crash {| queue := queue s; stop := stop s; mtx := mtx s; threads := threads s;
                      accepted := accepted s; crashed := true |}
| s_stop_return i job r (H : pc_of s i (Calls (AJoin n) job r)) :
    step n s (StopRet i true) (goto s i (Calls AIdle job r))
(* ---- GetCurrentId, lines 41-47 ---- *)
| s_who i job r th (H : nth_error (threads s) i = Some th) (HP : th_pc th = Calls AIdle job (CWho :: r)) :
    step n s (Who i (th_cur th)) (goto s i (Calls AIdle job r)).

(** line 66: [n] workers; and one client thread per list of calls. *)
(* thread_pool.h:66-68. *)
Definition init (n : nat) (clients : list (list call)) : state :=
  {| queue := []; stop := false; mtx := None;
     threads := repeat {| th_pc := WInit; th_cur := None |} n
                ++ map (fun l => {| th_pc := Calls AIdle None l; th_cur := None |}) clients;
     accepted := 0; crashed := false |}.

(** Executions: after std::terminate nothing runs any more. *)
(* Executions of thread_pool.h:14-85 by all threads; no counterpart of its own. *)
Inductive exec (n : nat) (s0 : state) : list event -> state -> Prop :=
| e_nil : exec n s0 [] s0
| e_snoc tr s e s' : exec n s0 tr s -> crashed s = false -> step n s e s' -> exec n s0 (tr ++ [e]) s'.

(** executor.h:22-26: the value returned by [schedule], whatever PushTask did. *)
Definition schedule_result (e : event) : option bool :=
  match e with Accept _ _ | Drop _ => Some true | _ => None end.

(** thread_pool.h:51-54: the pool of the whole process; later worker counts are
    ignored. *)
Definition GetOrConstructInstance (obj : option nat) (worker_num : nat) : option nat :=
  match obj with Some n => Some n | None => Some worker_num end.
(* thread_pool.h:56. *)
Definition GetWorkerNum (obj : option nat) : nat := match obj with Some n => n | None => 0 end.
