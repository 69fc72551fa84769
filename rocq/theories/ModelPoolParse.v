(** * The parallel parser on the thread pool, lock by lock.

    [ModelExec] runs the tasks of a parse on [n] workers with an atomic queue;
    [ModelThreadPool] has the mutex, the condition variable and the queue, but tasks
    that are lists of calls.  Here both meet: several threads call [Parse] with the
    Coroutine scheduler (object.h:1804-1818), their coroutines are the tasks of the
    one process-wide pool (executor.h:22-26, thread_pool.h:51-54), and every step is
    one operation on the shared state by one thread.

    What is assumed of async_simple (not part of the repository):
    - [.via(&e)] and [syncAwait] (object.h:1812-1814): the calling thread hands the root
      coroutine to [schedule] and blocks until it has ended;
    - [co_await collectAllPara(v)] (object.h:1391, 1549, 1565): with an empty [v] it goes
      on at once; with one element that coroutine is started in place; otherwise every
      element is handed to [schedule], in order, one by one (some may run or even end
      before the last is handed over).  Results are stored by position.  A counter of
      the elements that have not ended, plus one for the awaiting coroutine until it
      has handed over everything, decides who resumes the awaiting coroutine: the
      thread that counts it down to zero, at once and on its own stack.

    Simplifications: memory is sequentially consistent; [syncAwait] returns in one step;
    [Stop] is one step (its lock, the assignment, unlock and notify_all are taken
    separately in [ModelThreadPool]) and its joining is not followed; the part of the
    parse before and after the root coroutine (object.h:1805-1811, 1815-1817) is run
    sequentially by its own thread, the latter counted as part of the root coroutine. *)
From Verif Require Import Base ModelObject ModelParse ModelConcurrent ModelExec.

(** A thread inside PushTask. *)
(* Positions inside thread_pool.h:14-21. *)
Inductive pact :=
| PIdle                   (* not inside PushTask *)
| PHold                   (* line 16: holds the mutex *)
| PUnl                    (* line 18 done, mutex held *)
| PNotify.                (* line 20 *)

(** A coroutine and the sub-coroutines it awaits.  [k] is the number of a task in the
    pool, [w] a worker thread. *)
(* A coroutine of object.h:1311-1572 (Lazy frame) and its place in the pool, thread_pool.h:61 and 66-82. *)
Inductive ltree (A : Type) : Type :=
| LIdle (p : prog A)                 (* not handed to schedule yet *)
| LQueued (k : nat) (p : prog A)     (* inside task number k *)
| LLost (p : prog A)                 (* dropped by PushTask, thread_pool.h:17 *)
| LRun (w : nat) (p : prog A)        (* running on worker w *)
| LBuild (w : nat) (id : N) (f : view -> prog A)     (* inside buildReMap on worker w *)
| LFork (w : nat) (a : pact) (ts : list (ltree block)) (f : list (outcome block) -> prog A)
    (* worker w is inside collectAllPara, still handing over or starting elements *)
| LWait (ts : list (ltree block)) (f : list (outcome block) -> prog A)
    (* suspended; whoever ends the last element resumes it *)
| LDone (r : outcome A).
Arguments LIdle {A} p.
Arguments LQueued {A} k p.
Arguments LLost {A} p.
Arguments LRun {A} w p.
Arguments LBuild {A} w id f.
Arguments LFork {A} w a ts f.
Arguments LWait {A} ts f.
Arguments LDone {A} r.

(* Specification helper: a coroutine that was not handed to schedule yet (object.h:1391, 1549, 1565). *)
Definition is_idle {A} (t : ltree A) : bool := match t with LIdle _ => true | _ => false end.

(** Worker [w] has something of this coroutine on its stack. *)
(* The call stack of a worker inside task(), thread_pool.h:81. *)
Fixpoint on {A} (w : nat) (t : ltree A) : bool :=
  match t with
  | LRun v _ | LBuild v _ _ => Nat.eqb v w
  | LFork v _ ts _ => Nat.eqb v w || existsb (fun x => on w x) ts
  | LWait ts _ => existsb (fun x => on w x) ts
  | LIdle _ | LQueued _ _ | LLost _ | LDone _ => false
  end.

(** How a step of a coroutine touches the pool. *)
(* The operations of thread_pool.h:14-21 and 77-81 a coroutine takes part in. *)
Inductive lab :=
| QInt (w : nat)              (* not at all *)
| QTake (k w : nat)           (* worker w calls task number k: line 81 *)
| QLock (w : nat)             (* line 16 *)
| QStore (w k : nat)          (* lines 17-18 *)
| QDrop (w : nat)             (* line 17 returns, the mutex is released *)
| QUnlock (w : nat)           (* line 19 *)
| QNotify (w : nat).          (* line 20 *)

(** Steps of one parse. *)
(* The coroutines of object.h:1311-1572 on the workers of thread_pool.h:66-82; the lines are given at each
   rule. *)
Inductive lstep (look : N -> outcome view) : lab -> forall A, shared -> ltree A -> shared -> ltree A -> Prop :=
| l_take A k w (p : prog A) sh :                     (* thread_pool.h:80-81 *)
    lstep look (QTake k w) A sh (LQueued k p) sh (LRun w p)
| l_build A w id (f : view -> prog A) :              (* string_map.h:37-38, 47 *)
    lstep look (QInt w) A Fresh (LRun w (PGetStr id f)) Building (LBuild w id f)
| l_built A w id (f : view -> prog A) sh :           (* string_map.h:48-50, 40-43 *)
    lstep look (QInt w) A sh (LBuild w id f) Ready (LRun w (answer (look id) f))
| l_get A w id (f : view -> prog A) :                (* string_map.h:40-43 *)
    lstep look (QInt w) A Ready (LRun w (PGetStr id f)) Ready (LRun w (answer (look id) f))
| l_race A w id (f : view -> prog A) :               (* reads a table another thread is filling *)
    lstep look (QInt w) A Building (LRun w (PGetStr id f)) Building (LRun w (PFail FUB))
| l_fork0 A w (f : list (outcome block) -> prog A) sh :    (* collectAllPara({}) *)
    lstep look (QInt w) A sh (LRun w (PPar [] f)) sh (LRun w (f []))
| l_fork1 A w p (f : list (outcome block) -> prog A) sh :  (* one element: in place *)
    lstep look (QInt w) A sh (LRun w (PPar [p] f)) sh (LFork w PIdle [LRun w p] f)
| l_fork A w p q ps (f : list (outcome block) -> prog A) sh :  (* object.h:1391, 1549, 1565 *)
    lstep look (QInt w) A sh (LRun w (PPar (p :: q :: ps) f)) sh (LFork w PIdle (map LIdle (p :: q :: ps)) f)
(* the awaiting coroutine hands over its next element: executor.h:22-26 *)
| l_lock A w l1 p l2 (f : list (outcome block) -> prog A) sh :     (* thread_pool.h:16 *)
    forallb (fun x => negb (is_idle x)) l1 = true ->
    lstep look (QLock w) A sh (LFork w PIdle (l1 ++ LIdle p :: l2) f) sh (LFork w PHold (l1 ++ LIdle p :: l2) f)
| l_store A w k l1 p l2 (f : list (outcome block) -> prog A) sh :  (* thread_pool.h:18 *)
    forallb (fun x => negb (is_idle x)) l1 = true ->
    lstep look (QStore w k) A sh (LFork w PHold (l1 ++ LIdle p :: l2) f) sh (LFork w PUnl (l1 ++ LQueued k p :: l2) f)
| l_drop A w l1 p l2 (f : list (outcome block) -> prog A) sh :     (* thread_pool.h:17 *)
    forallb (fun x => negb (is_idle x)) l1 = true ->
    lstep look (QDrop w) A sh (LFork w PHold (l1 ++ LIdle p :: l2) f) sh (LFork w PIdle (l1 ++ LLost p :: l2) f)
| l_unlock A w ts (f : list (outcome block) -> prog A) sh :        (* thread_pool.h:19 *)
    lstep look (QUnlock w) A sh (LFork w PUnl ts f) sh (LFork w PNotify ts f)
| l_notify A w ts (f : list (outcome block) -> prog A) sh :        (* thread_pool.h:20 *)
    lstep look (QNotify w) A sh (LFork w PNotify ts f) sh (LFork w PIdle ts f)
(* everything handed over: the awaiting coroutine counts itself down *)
| l_suspend A w ts (f : list (outcome block) -> prog A) sh :
    forallb (fun x => negb (is_idle x)) ts = true -> existsb (fun x => on w x) ts = false ->
    (exists x, In x ts /\ forall r, x <> LDone r) ->
    lstep look (QInt w) A sh (LFork w PIdle ts f) sh (LWait ts f)
| l_through A w rs (f : list (outcome block) -> prog A) sh :       (* it was the last *)
    lstep look (QInt w) A sh (LFork w PIdle (map LDone rs) f) sh (LRun w (f rs))
(* steps of the elements *)
| l_task_fork A w a l1 t l2 (f : list (outcome block) -> prog A) l sh t' sh' :
    lstep look l block sh t sh' t' -> (forall r, t' <> LDone r) ->
    lstep look l A sh (LFork w a (l1 ++ t :: l2) f) sh' (LFork w a (l1 ++ t' :: l2) f)
| l_task A l1 t l2 (f : list (outcome block) -> prog A) l sh t' sh' :
    lstep look l block sh t sh' t' -> (forall r, t' <> LDone r) ->
    lstep look l A sh (LWait (l1 ++ t :: l2) f) sh' (LWait (l1 ++ t' :: l2) f)
(* an element ends *)
| l_report_fork A v w a l1 p r l2 (f : list (outcome block) -> prog A) sh :
    result p = Some r ->
    lstep look (QInt w) A sh (LFork v a (l1 ++ LRun w p :: l2) f) sh (LFork v a (l1 ++ LDone r :: l2) f)
| l_report A w l1 p r l2 (f : list (outcome block) -> prog A) sh :
    result p = Some r -> (exists x, In x (l1 ++ l2) /\ forall r', x <> LDone r') ->
    lstep look (QInt w) A sh (LWait (l1 ++ LRun w p :: l2) f) sh (LWait (l1 ++ LDone r :: l2) f)
| l_last A w p rs1 r rs2 (f : list (outcome block) -> prog A) sh :   (* resumes the awaiting coroutine *)
    result p = Some r ->
    lstep look (QInt w) A sh (LWait (map LDone rs1 ++ LRun w p :: map LDone rs2) f) sh (LRun w (f (rs1 ++ r :: rs2)))
| l_finish A w (p : prog A) r sh :                   (* for the root only *)
    result p = Some r -> lstep look (QInt w) A sh (LRun w p) sh (LDone r).
Arguments lstep look l {A} _ _ _ _.

(** A worker thread. *)
(* Positions inside the worker loop, thread_pool.h:66-85. *)
Inductive wpc :=
| WInit                   (* lines 69-70 *)
| WLock                   (* line 73, or woken inside wait: about to lock *)
| WTest                   (* line 74: mutex held, evaluating the predicate *)
| WSleep                  (* predicate false: about to unlock and block, atomically *)
| WWait                   (* blocked in wait, mutex released *)
| WTake                   (* line 75: mutex held, predicate true *)
| WGot (k : nat)          (* lines 78-79 done, mutex held *)
| WBusy                   (* line 81: inside task() *)
| WExiting                (* line 76, mutex still held *)
| WExit.                  (* the thread function has returned *)

(** A thread that has called Parse. *)
(* object.h:1804-1818, and PushTask (thread_pool.h:14-21) for the root coroutine. *)
Inductive cpc :=
| CPush (a : pact)        (* handing over the root; PIdle: about to lock *)
| CAwait                  (* blocked in syncAwait, line 1814 *)
| CReturned.              (* lines 1815-1817 *)

(** A call of Parse: where its thread is, the content of its finished reverse table,
    the state of that table, its coroutines. *)
(* A call of CoroutineScheduler::Parse, object.h:1804-1818. *)
Record job := { j_pc : cpc; j_look : N -> outcome view; j_sh : shared; j_tree : ltree obj }.

(* A thread that can own mut_, thread_pool.h:62. *)
Inductive owner := OWorker (w : nat) | OCaller (i : nat).

(* thread_pool.h:60-64 and the threads inside Parse. *)
Record qstate := {
  q_queue : list nat;            (* tasks_ *)
  q_stop : bool;                 (* stop_ *)
  q_mtx : option owner;          (* owner of mut_ *)
  q_workers : list wpc;          (* works_ *)
  q_jobs : list job;
  q_next : nat                   (* ghost: number of the next task *)
}.

(* Overwriting one element of a list; helper for the threads of thread_pool.h:60. *)
Fixpoint upd {A} (i : nat) (x : A) (l : list A) : list A :=
  match l, i with
  | [], _ => []
  | _ :: l', O => x :: l'
  | y :: l', S i' => y :: upd i' x l'
  end.

(* Helpers of [qstep]: the other members of thread_pool.h:60-64 stay. *)
Definition set_w (s : qstate) (w : nat) (p : wpc) : qstate :=
  {| q_queue := q_queue s; q_stop := q_stop s; q_mtx := q_mtx s; q_workers := upd w p (q_workers s);
     q_jobs := q_jobs s; q_next := q_next s |}.
(* Locking and unlocking mut_, thread_pool.h:16, 19, 73, 80. *)
Definition set_m (s : qstate) (m : option owner) : qstate :=
  {| q_queue := q_queue s; q_stop := q_stop s; q_mtx := m; q_workers := q_workers s; q_jobs := q_jobs s; q_next := q_next s |}.
(* tasks_.pop(), thread_pool.h:79. *)
Definition set_q (s : qstate) (q : list nat) : qstate :=
  {| q_queue := q; q_stop := q_stop s; q_mtx := q_mtx s; q_workers := q_workers s; q_jobs := q_jobs s; q_next := q_next s |}.
(* tasks_.emplace, thread_pool.h:18. *)
Definition store (s : qstate) : qstate :=
  {| q_queue := q_queue s ++ [q_next s]; q_stop := q_stop s; q_mtx := q_mtx s; q_workers := q_workers s;
     q_jobs := q_jobs s; q_next := S (q_next s) |}.
(* Helper of [qstep]: a call of Parse (object.h:1804-1818) moves on. *)
Definition set_j (s : qstate) (i : nat) (j : job) : qstate :=
  {| q_queue := q_queue s; q_stop := q_stop s; q_mtx := q_mtx s; q_workers := q_workers s;
     q_jobs := upd i j (q_jobs s); q_next := q_next s |}.

(** line 74, the predicate. *)
(* thread_pool.h:74. *)
Definition qready (s : qstate) : bool := q_stop s || match q_queue s with [] => false | _ => true end.

(** notify_one: one of the threads blocked in wait, if there is one, goes on. *)
(* cond_.notify_one(), thread_pool.h:20. *)
Inductive notify (s : qstate) : qstate -> Prop :=
| n_one w : nth_error (q_workers s) w = Some WWait -> notify s (set_w s w WLock)
| n_none : (forall w, nth_error (q_workers s) w <> Some WWait) -> notify s s.

(** What a label means for the pool. *)
(* thread_pool.h:14-21, 80-81. *)
Inductive effect (s : qstate) : lab -> qstate -> Prop :=
| f_int w : nth_error (q_workers s) w = Some WBusy -> effect s (QInt w) s
| f_take k w : nth_error (q_workers s) w = Some (WGot k) ->
    effect s (QTake k w) (set_w (set_m s None) w WBusy)
| f_lock w : nth_error (q_workers s) w = Some WBusy -> q_mtx s = None ->
    effect s (QLock w) (set_m s (Some (OWorker w)))
| f_store w : nth_error (q_workers s) w = Some WBusy -> q_stop s = false ->
    effect s (QStore w (q_next s)) (store s)
| f_drop w : nth_error (q_workers s) w = Some WBusy -> q_stop s = true ->
    effect s (QDrop w) (set_m s None)
| f_unlock w : nth_error (q_workers s) w = Some WBusy ->
    effect s (QUnlock w) (set_m s None)
| f_notify w s' : nth_error (q_workers s) w = Some WBusy -> notify s s' -> effect s (QNotify w) s'.

(** One step of some thread; the label tells the spurious wake-ups. *)
(* thread_pool.h:14-21, 66-82 and object.h:1804-1818; the lines are given at each rule. *)
Inductive qstep (s : qstate) : bool -> qstate -> Prop :=
(* ---- worker loop, thread_pool.h:68-83 ---- *)
| q_init w (H : nth_error (q_workers s) w = Some WInit) : qstep s false (set_w s w WLock)
| q_lock w (H : nth_error (q_workers s) w = Some WLock) (HM : q_mtx s = None) :
    qstep s false (set_w (set_m s (Some (OWorker w))) w WTest)
| q_test w (H : nth_error (q_workers s) w = Some WTest) :
    qstep s false (set_w s w (if qready s then WTake else WSleep))
| q_sleep w (H : nth_error (q_workers s) w = Some WSleep) : qstep s false (set_w (set_m s None) w WWait)
| q_spurious w (H : nth_error (q_workers s) w = Some WWait) : qstep s true (set_w s w WLock)
| q_exit w (H : nth_error (q_workers s) w = Some WTake) (HS : q_stop s = true) (HQ : q_queue s = []) :
    qstep s false (set_w s w WExiting)
| q_exited w (H : nth_error (q_workers s) w = Some WExiting) : qstep s false (set_w (set_m s None) w WExit)
| q_pop w k q (H : nth_error (q_workers s) w = Some WTake) (HQ : q_queue s = k :: q) :
    qstep s false (set_w (set_q s q) w (WGot k))
| q_return w (H : nth_error (q_workers s) w = Some WBusy)   (* nothing is left on its stack *)
    (HO : forall j, In j (q_jobs s) -> on w (j_tree j) = false) : qstep s false (set_w s w WLock)
(* ---- the coroutines ---- *)
| q_coro i pc look sh t l s' sh' t'
    (H : nth_error (q_jobs s) i = Some {| j_pc := pc; j_look := look; j_sh := sh; j_tree := t |})
    (HL : lstep look l sh t sh' t') (HE : effect s l s') :
    qstep s false (set_j s' i {| j_pc := pc; j_look := look; j_sh := sh'; j_tree := t' |})
(* ---- the threads that called Parse: PushTask for the root, then syncAwait ---- *)
| q_clock i look sh t
    (H : nth_error (q_jobs s) i = Some {| j_pc := CPush PIdle; j_look := look; j_sh := sh; j_tree := t |})
    (HM : q_mtx s = None) :
    qstep s false (set_j (set_m s (Some (OCaller i))) i {| j_pc := CPush PHold; j_look := look; j_sh := sh; j_tree := t |})
| q_cstore i look sh p
    (H : nth_error (q_jobs s) i = Some {| j_pc := CPush PHold; j_look := look; j_sh := sh; j_tree := LIdle p |})
    (HS : q_stop s = false) :
    qstep s false (set_j (store s) i {| j_pc := CPush PUnl; j_look := look; j_sh := sh; j_tree := LQueued (q_next s) p |})
| q_cdrop i look sh p
    (H : nth_error (q_jobs s) i = Some {| j_pc := CPush PHold; j_look := look; j_sh := sh; j_tree := LIdle p |})
    (HS : q_stop s = true) :
    qstep s false (set_j (set_m s None) i {| j_pc := CAwait; j_look := look; j_sh := sh; j_tree := LLost p |})
| q_cunlock i look sh t
    (H : nth_error (q_jobs s) i = Some {| j_pc := CPush PUnl; j_look := look; j_sh := sh; j_tree := t |}) :
    qstep s false (set_j (set_m s None) i {| j_pc := CPush PNotify; j_look := look; j_sh := sh; j_tree := t |})
| q_cnotify i look sh t s'
    (H : nth_error (q_jobs s) i = Some {| j_pc := CPush PNotify; j_look := look; j_sh := sh; j_tree := t |})
    (HN : notify s s') :
    qstep s false (set_j s' i {| j_pc := CAwait; j_look := look; j_sh := sh; j_tree := t |})
| q_creturn i look sh r
    (H : nth_error (q_jobs s) i = Some {| j_pc := CAwait; j_look := look; j_sh := sh; j_tree := LDone r |}) :
    qstep s false (set_j s i {| j_pc := CReturned; j_look := look; j_sh := sh; j_tree := LDone r |}).

(** Somebody calls Stop for the first time (see the simplifications above); later calls
    return at once, thread_pool.h:25-27. *)
(* thread_pool.h:23-30. *)
Definition qstop (s s' : qstate) : Prop :=
  q_mtx s = None /\ q_stop s = false /\
  s' = {| q_queue := q_queue s; q_stop := true; q_mtx := None;
          q_workers := map (fun p => match p with WWait => WLock | _ => p end) (q_workers s);
          q_jobs := q_jobs s; q_next := q_next s |}.

(** [n] workers (thread_pool.h:66-68), and the threads about to hand over their roots. *)
(* object.h:1811-1813 for each of the calls; the pool of thread_pool.h:51-54. *)
Definition qinit (n : nat) (stopped : bool) (calls : list ((N -> outcome view) * prog obj)) : qstate :=
  {| q_queue := []; q_stop := stopped; q_mtx := None; q_workers := repeat WInit n;
     q_jobs := map (fun c => {| j_pc := CPush PIdle; j_look := fst c; j_sh := Fresh; j_tree := LIdle (snd c) |}) calls;
     q_next := 0 |}.

(** Executions without Stop. *)
(* Executions of thread_pool.h:14-21, 66-82 and object.h:1804-1818 by all threads; no counterpart of its own. *)
Inductive qsteps : qstate -> qstate -> Prop :=
| qs_refl s : qsteps s s
| qs_step s s1 b s2 : qsteps s s1 -> qstep s1 b s2 -> qsteps s s2.

(** Executions in which somebody may call Stop. *)
(* The same with thread_pool.h:23-30. *)
Inductive rsteps : qstate -> qstate -> Prop :=
| rs_refl s : rsteps s s
| rs_step s s1 b s2 : rsteps s s1 -> qstep s1 b s2 -> rsteps s s2
| rs_stop s s1 s2 : rsteps s s1 -> qstop s1 s2 -> rsteps s s2.

(** A coroutine has crashed the program. *)
(* Specification helper: a task started at thread_pool.h:81 has hit undefined behaviour or a failed assert. *)
Fixpoint lcrashes {A} (t : ltree A) : bool :=
  match t with
  | LIdle _ | LQueued _ _ | LLost _ | LBuild _ _ _ | LDone _ => false
  | LRun _ (PFail FUB) | LRun _ (PFail FAbort) | LRun _ (PFail FFuel) => true
  | LRun _ _ => false
  | LFork _ _ ts _ | LWait ts _ => existsb (fun x => lcrashes x) ts
  end.

(** A coroutine of this parse was dropped. *)
(* Specification helper: PushTask returned at thread_pool.h:17 without storing one of its tasks. *)
Fixpoint lost {A} (t : ltree A) : bool :=
  match t with
  | LLost _ => true
  | LFork _ _ ts _ | LWait ts _ => existsb (fun x => lost x) ts
  | _ => false
  end.
