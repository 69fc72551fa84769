(** * The parallel parser on its executor.

    [ModelConcurrent] lets every task of the parse run at any time.  Here a task
    runs only while one of the [n] worker threads of the pool executes it
    (executor.h:22-26, thread_pool.h:66-82).

    - The root coroutine is handed to the executor by [.via(&e)] and the calling
      thread blocks in [syncAwait] (object.h:1812-1815).
    - [co_await collectAllPara(tasks)] (object.h:1391, 1549, 1565) pushes every
      task to the queue of the pool and suspends, which frees the worker; with no
      task at all it goes on at once.
    - A worker that has finished a task reports its result; the one that reports
      last makes the suspended parent continue: in place, on the same worker
      ([inplace = true], what async_simple does), or by handing it to the executor
      again ([inplace = false]).  The theorems hold for both.

    Simplifications: the queue is a set (any waiting task may be popped; the FIFO
    order of the real queue is one of these choices, and some task can be popped
    from the one iff from the other); popping is atomic (ModelThreadPool has the
    mutex, the condition variable and the wake-ups); the pool is not stopped and
    serves no one else; the lines after [syncAwait] (object.h:1816-1817) are
    counted as part of the root task. *)
From Verif Require Import Base ModelObject ModelParse ModelConcurrent.

(** A task waiting in the queue, running on a worker, inside [buildReMap] on a
    worker, suspended, or done. *)
(* A coroutine of object.h:1311-1572 together with its place in the pool, thread_pool.h:61 (tasks_) and 66-82.
   *)
Inductive etree (A : Type) : Type :=
| EQueued (p : prog A)
| ERun (p : prog A)
| EBuild (id : N) (k : view -> prog A)
| EWait (ts : list (etree block)) (k : list (outcome block) -> prog A)
| EDone (r : outcome A).
Arguments EQueued {A} p.
Arguments ERun {A} p.
Arguments EBuild {A} id k.
Arguments EWait {A} ts k.
Arguments EDone {A} r.

(** What a task leaves behind: a value, or the exception it threw. *)
(* co_return or a leaving exception, object.h:1367, 1398, 1461, 1526, 1555, 1570, 1352. *)
Definition result {A} (p : prog A) : option (outcome A) :=
  match p with
  | PRet a => Some (Ok a)
  | PFail (FThrow e) => Some (Throw e)
  | _ => None
  end.

(** Workers in use. *)
(* Workers that are inside task(), thread_pool.h:81. *)
Fixpoint busy {A} (t : etree A) : nat :=
  match t with
  | ERun _ | EBuild _ _ => 1
  | EWait ts _ => list_sum (map (fun x => busy x) ts)
  | EQueued _ | EDone _ => 0
  end.

(** Tasks in the queue. *)
(* Elements of tasks_, thread_pool.h:61. *)
Fixpoint waiting {A} (t : etree A) : nat :=
  match t with
  | EQueued _ => 1
  | EWait ts _ => list_sum (map (fun x => waiting x) ts)
  | ERun _ | EBuild _ _ | EDone _ => 0
  end.

(** [free]: some worker is idle. *)
(* Steps of the coroutines of object.h:1311-1572 on the workers of thread_pool.h:66-82; the lines are given at
   each rule. *)
Inductive estep (look : N -> outcome view) (inplace free : bool) : forall A, shared -> etree A -> shared -> etree A -> Prop :=
| e_pick A (p : prog A) sh :                    (* thread_pool.h:73-80 *)
    free = true -> estep look inplace free A sh (EQueued p) sh (ERun p)
| e_build A id (k : view -> prog A) :           (* string_map.h:37-38, 47 *)
    estep look inplace free A Fresh (ERun (PGetStr id k)) Building (EBuild id k)
| e_built A id (k : view -> prog A) sh :        (* string_map.h:48-50, 40-43 *)
    estep look inplace free A sh (EBuild id k) Ready (ERun (answer (look id) k))
| e_get A id (k : view -> prog A) :             (* string_map.h:40-43 *)
    estep look inplace free A Ready (ERun (PGetStr id k)) Ready (ERun (answer (look id) k))
| e_race A id (k : view -> prog A) :
    estep look inplace free A Building (ERun (PGetStr id k)) Building (ERun (PFail FUB))
| e_fork A t ts (k : list (outcome block) -> prog A) sh :   (* executor.h:22-26 for each task *)
    estep look inplace free A sh (ERun (PPar (t :: ts) k)) sh (EWait (map EQueued (t :: ts)) k)
| e_fork_none A (k : list (outcome block) -> prog A) sh :
    estep look inplace free A sh (ERun (PPar [] k)) sh (ERun (k []))
| e_task A l1 t l2 (k : list (outcome block) -> prog A) sh t' sh' :
    estep look inplace free block sh t sh' t' -> (forall r, t' <> EDone r) ->
    estep look inplace free A sh (EWait (l1 ++ t :: l2) k) sh' (EWait (l1 ++ t' :: l2) k)
| e_report A l1 p r l2 (k : list (outcome block) -> prog A) sh :  (* not the last one *)
    result p = Some r -> (exists x, In x (l1 ++ l2) /\ forall r', x <> EDone r') ->
    estep look inplace free A sh (EWait (l1 ++ ERun p :: l2) k) sh (EWait (l1 ++ EDone r :: l2) k)
| e_last A p rs1 r rs2 (k : list (outcome block) -> prog A) sh :
    result p = Some r ->
    estep look inplace free A sh (EWait (map EDone rs1 ++ ERun p :: map EDone rs2) k)
                              sh (if inplace then ERun (k (rs1 ++ r :: rs2)) else EQueued (k (rs1 ++ r :: rs2)))
| e_finish A (p : prog A) r sh :                (* syncAwait returns; for the root only, see [e_task] *)
    result p = Some r -> estep look inplace free A sh (ERun p) sh (EDone r).
Arguments estep look inplace free {A} _ _ _ _.

(** One step of the whole parse with [n] workers. *)
(* One step of the system of thread_pool.h:66-82 running object.h:1812-1815. *)
Definition xstep {A} (look : N -> outcome view) (inplace : bool) (n : nat) sh (t : etree A) sh' t' : Prop :=
  estep look inplace (busy t <? n)%nat sh t sh' t'.

(* Executions of that system; no counterpart of its own (thread_pool.h:66-82). *)
Inductive xsteps {A} (look : N -> outcome view) (inplace : bool) (n : nat) : shared -> etree A -> shared -> etree A -> Prop :=
| xs_refl sh t : xsteps look inplace n sh t sh t
| xs_step sh t sh1 t1 sh2 t2 :
    xsteps look inplace n sh t sh1 t1 -> xstep look inplace n sh1 t1 sh2 t2 -> xsteps look inplace n sh t sh2 t2.

(** A task has crashed the program. *)
(* Specification helper: a task started at thread_pool.h:81 has hit undefined behaviour or a failed assert. *)
Fixpoint ecrashes {A} (t : etree A) : bool :=
  match t with
  | EQueued _ | EBuild _ _ | EDone _ => false
  | ERun (PFail FUB) | ERun (PFail FAbort) | ERun (PFail FFuel) => true
  | ERun _ => false
  | EWait ts _ => existsb (fun x => ecrashes x) ts
  end.

(** ** Several parses at once

    [ThreadPool::GetOrConstructInstance] (thread_pool.h:51-54) hands the same pool
    to every [BridgeExecutor], so parses called from different threads share its
    workers.  Each has its own document, [StringMap] and task tree. *)
Definition parse_state : Type := (N -> outcome view) * shared * etree obj.

(* Workers inside task() over all parses, thread_pool.h:81. *)
Definition all_busy (l : list parse_state) : nat := list_sum (map (fun x => busy (snd x)) l).

(* One step of several parses on the one pool of thread_pool.h:51-54. *)
Inductive mstep (inplace : bool) (n : nat) : list parse_state -> list parse_state -> Prop :=
| m_step l1 look sh t l2 sh' t' :
    estep look inplace (all_busy (l1 ++ (look, sh, t) :: l2) <? n)%nat sh t sh' t' ->
    mstep inplace n (l1 ++ (look, sh, t) :: l2) (l1 ++ (look, sh', t') :: l2).

(* Executions of several parses on that pool (thread_pool.h:51-54). *)
Inductive msteps (inplace : bool) (n : nat) : list parse_state -> list parse_state -> Prop :=
| ms_refl l : msteps inplace n l l
| ms_step l l1 l2 : msteps inplace n l l1 -> mstep inplace n l1 l2 -> msteps inplace n l l2.
