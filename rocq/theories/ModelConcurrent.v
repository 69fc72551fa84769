(** * Interleavings of the parallel parser.

    [ModelParse] gives the parser as a computation [prog] with two effects; [run]
    is its sequential meaning.  Here is its concurrent meaning: the task tree built
    by [co_await collectAllPara] (object.h:1391, 1550, 1566), whose leaves run on
    the threads of the executor in any interleaving, sharing one [StringMap] whose
    reverse table is built on first use without synchronisation
    (string_map.h:36-51).  Simplifications: each step up to the next shared access
    is atomic (tasks share nothing else: their inputs are read-only and each has
    its own BridgePool); reading the finished table, including
    [unordered_map::operator[]] on a key that is present, is not a conflict. *)
From Verif Require Import Base ModelParse.

(** The reverse table: [re_map_ == nullptr]; allocated, being filled; complete. *)
(* re_map_, string_map.h:85, seen from several threads; states of the code between string_map.h:37 and 51. *)
Inductive shared := Fresh | Building | Ready.

(** A task: running up to its next effect; inside [buildReMap]; or suspended until
    its children are done. *)
(* A coroutine of object.h:1311-1572 and the sub-tasks it awaits at 1391, 1549, 1565. *)
Inductive tree (A : Type) : Type :=
| TRun (p : prog A)
| TBuild (id : N) (k : view -> prog A)
| TWait (ts : list (tree block)) (k : list (outcome block) -> prog A).
Arguments TRun {A} p.
Arguments TBuild {A} id k.
Arguments TWait {A} ts k.

(* The end of GetStr, string_map.h:40-43: the answer or the exception reaches the caller. *)
Definition answer {A} (o : outcome view) (k : view -> prog A) : prog A := pbind (lift o) k.

(** The result of a finished task, as stored in its [Try]. *)
(* co_return and the Try collected by collectAllPara, object.h:1367, 1461, 1526 and 1391, 1549, 1565. *)
Definition finished (t : tree block) : option (outcome block) :=
  match t with
  | TRun (PRet b) => Some (Ok b)
  | TRun (PFail (FThrow e)) => Some (Throw e)
  | _ => None
  end.

(** [look] is the content of the complete table. *)
(* Steps of the coroutines of object.h:1311-1572: GetStr string_map.h:36-51, collectAllPara object.h:1391,
   1549, 1565. *)
Inductive cstep (look : N -> outcome view) : forall A, shared -> tree A -> shared -> tree A -> Prop :=
| c_build A id (k : view -> prog A) :           (* string_map.h:37-38, 47 *)
    cstep look A Fresh (TRun (PGetStr id k)) Building (TBuild id k)
| c_built A id (k : view -> prog A) sh :        (* string_map.h:48-50, 40-43 *)
    cstep look A sh (TBuild id k) Ready (TRun (answer (look id) k))
| c_get A id (k : view -> prog A) :             (* string_map.h:40-43 *)
    cstep look A Ready (TRun (PGetStr id k)) Ready (TRun (answer (look id) k))
| c_race A id (k : view -> prog A) :            (* reads a table another thread is filling *)
    cstep look A Building (TRun (PGetStr id k)) Building (TRun (PFail FUB))
| c_fork A ts (k : list (outcome block) -> prog A) sh :
    cstep look A sh (TRun (PPar ts k)) sh (TWait (map TRun ts) k)
| c_task A l1 t l2 (k : list (outcome block) -> prog A) sh t' sh' :
    cstep look block sh t sh' t' ->
    cstep look A sh (TWait (l1 ++ t :: l2) k) sh' (TWait (l1 ++ t' :: l2) k)
| c_join A ts rs (k : list (outcome block) -> prog A) sh :
    map finished ts = map Some rs ->
    cstep look A sh (TWait ts k) sh (TRun (k rs)).
Arguments cstep look {A} _ _ _ _.

(** Any number of steps. *)
(* Executions of the parallel parse, object.h:1812-1815. *)
Inductive csteps (look : N -> outcome view) {A} : shared -> tree A -> shared -> tree A -> Prop :=
| cs_refl sh t : csteps look sh t sh t
| cs_step sh t sh1 t1 sh2 t2 :
    csteps look sh t sh1 t1 -> cstep look sh1 t1 sh2 t2 -> csteps look sh t sh2 t2.

(** Number of tasks that can run now. *)
(* Specification helper over the tasks of object.h:1391, 1549, 1565; no counterpart in the code. *)
Fixpoint active {A} (t : tree A) : nat :=
  match t with
  | TRun (PRet _) | TRun (PFail _) => 0
  | TRun _ | TBuild _ _ => 1
  | TWait ts _ => list_sum (map (fun x => active x) ts)
  end.

(** Number of tasks inside or about to enter [GetStr]. *)
(* Specification helper over the calls of GetStr at object.h:215, 334, 438, 1421, 1485; no counterpart in the
   code. *)
Fixpoint in_getstr {A} (t : tree A) : nat :=
  match t with
  | TRun (PGetStr _ _) | TBuild _ _ => 1
  | TRun _ => 0
  | TWait ts _ => list_sum (map (fun x => in_getstr x) ts)
  end.

(** A task has crashed the program (undefined behaviour or failed assert). *)
(* Specification helper: a task of object.h:1317-1527 has hit undefined behaviour or a failed assert. *)
Fixpoint crashes {A} (t : tree A) : bool :=
  match t with
  | TRun (PFail FUB) | TRun (PFail FAbort) | TRun (PFail FFuel) => true
  | TRun _ | TBuild _ _ => false
  | TWait ts _ => existsb (fun x => crashes x) ts
  end.
