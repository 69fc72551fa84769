(** * The pools of the parallel parser: coroutine frames, their BridgePool, and the
    hand-over of pools from task to task (object.h:71-124, 998-1007, 1295-1309,
    1317-1572, 1805-1818).

    Every coroutine has its own [BridgePool bp]; what it allocated is moved out with
    its result, merged into the pool of the awaiting coroutine and, at the end, into
    the pool the caller passed to [Parse].  Only the pools are modelled here: a task
    is the sequence of its allocations, awaits and throws, whatever the document. *)
From Verif Require Import Base ModelPool ModelStorage.

(** ** BridgePool: eight object pools used together *)

(** object.h:116-123, in order of declaration. *)
Definition members : list cls := [KData; KDataView; KArray; KArrayItem; KMap; KMapItem; KMapView; KMapViewItem].
(** object.h:999-1006, the members merged by [BridgePool::Merge]. *)
Definition merged_members : list cls := [KData; KDataView; KArray; KArrayItem; KMap; KMapItem; KMapView; KMapViewItem].
(** object.h:85-92, the members cleared by [BridgePool::Clear]. *)
Definition cleared_members : list cls := [KData; KDataView; KArray; KArrayItem; KMap; KMapView; KMapItem; KMapViewItem].

(* Sameness of two of the eight member pools of BridgePool, object.h:116-123. *)
Definition cls_eqb (a b : cls) : bool :=
  match a, b with
  | KData, KData | KDataView, KDataView | KArray, KArray | KArrayItem, KArrayItem
  | KMap, KMap | KMapItem, KMapItem | KMapView, KMapView | KMapViewItem, KMapViewItem => true
  | _, _ => false
  end.

(** Operations on BridgePools; pools are numbered in the order of their creation. *)
(* BridgePool: construction object.h:996, allocation 1009-1033, Merge 998-1007, moves 77-79, destruction and
   Clear 84-93. *)
Inductive bp_op :=
| BpNew                                     (* BridgePool p; *)
| BpAlloc (i : nat) (k : cls) (throws : bool)  (* p_i.data(...), p_i.array_item(), ... *)
| BpMerge (i j : nat)                       (* p_i.Merge(std::move(p_j)) *)
| BpClear (i : nat)                         (* p_i.Clear() *)
| BpMove (j : nat)                          (* BridgePool p(std::move(p_j)); *)
| BpAssign (i j : nat)                      (* p_i = std::move(p_j); *)
| BpDestroy (i : nat).                      (* p_i goes out of scope *)

(** What an operation does to the member of class [k].  Construction, move and
    destruction are implicit and act on all members. *)
(* What object.h:84-93, 998-1007 and 1009-1033 do to one of the members of 116-123. *)
Definition member_ops (k : cls) (op : bp_op) : list pool_op :=
  let on l o := flat_map (fun k' => if cls_eqb k k' then [o] else []) l in
  match op with
  | BpNew => on members OpNew
  | BpAlloc i k' throws => on [k'] (OpAlloc i throws)
  | BpMerge i j => on merged_members (OpMerge i j)
  | BpClear i => on cleared_members (OpClear i)
  | BpMove j => on members (OpMoveNew j)
  | BpAssign i j => on members (OpMoveAssign i j)
  | BpDestroy i => on members (OpDestroy i)
  end.
(* The same for a sequence of operations (object.h:84-93, 998-1033). *)
Definition member_run (k : cls) (ops : list bp_op) : list pool_op := flat_map (member_ops k) ops.

(** ** Coroutines *)

(** What the body of a coroutine does with pools: allocate a node or an item from its
    own pool (a throwing constructor is the [true] case), throw, or await sub-tasks
    and merge their pools into its own.  [ASpawn false \[j\]] is
    [co_await ParseArray/ParseMap] (1340-1350, 1432-1442, 1496-1507); [ASpawn b js] is
    [collectAllPara] followed by the merge loop, backwards for arrays (1391-1397) and
    forwards for maps (1549-1554, 1565-1569). *)
(* The bodies of object.h:1317-1368, 1371-1399, 1401-1462, 1464-1527, 1529-1572, as far as pools are
   concerned. *)
Inductive act :=
| AAlloc (k : cls) (throws : bool)
| AThrow
| ASpawn (backwards : bool) (js : list (list act)).
(* The body of a coroutine of object.h:1317-1572, as far as pools are concerned. *)
Definition job := list act.

(** A coroutine frame: not started (Lazy); running, [i] being its [bp]; suspended;
    finished with a result that carries pool [r]; finished with an exception. *)
(* Coroutine frames of object.h:1317-1572 with their local BridgePool (1321, 1373, 1404, 1468, 1531). *)
Inductive frame :=
| FNew (j : job)
| FRun (i : nat) (j : job)
| FAwait (i : nat) (backwards : bool) (cs : list frame) (j : job)
| FDone (r : nat)
| FFail.

(* Is the Lazy of object.h:1391, 1549, 1565 finished. *)
Definition done (f : frame) : bool := match f with FDone _ | FFail => true | _ => false end.

(** The pools held by finished sub-tasks ([parse_result], [objs]). *)
(* ParseResult::bp, object.h:1301, and the fourth component of the tuples, 1306-1309. *)
Definition held (cs : list frame) : list nat := flat_map (fun f => match f with FDone r => [r] | _ => [] end) cs.

(** The merge loop: stops at the first failed [Try], whose [value()] rethrows. *)
(* object.h:1394-1397, 1551-1554, 1566-1569. *)
Fixpoint merges (i : nat) (l : list frame) : list bp_op * bool :=
  match l with
  | [] => ([], true)
  | FDone r :: l' => let (ops, ok) := merges i l' in (BpMerge i r :: ops, ok)
  | _ :: _ => ([], false)
  end.

(** One step of the tree of coroutines, with the pool operations it performs; [n] is
    the number of pools created so far. *)
(* Steps of these bodies: allocation object.h:1356, 1361, 1392, 1448, 1541; awaiting 1340, 1391; merging 1344,
   1396, 1553; return 1367, 1398. *)
Inductive fstep : nat -> frame -> list bp_op -> nat -> frame -> Prop :=
| f_start n j :                                 (* 1321, 1373, 1404, 1468, 1531 *)
    fstep n (FNew j) [BpNew] (S n) (FRun n j)
| f_alloc n i k j :
    fstep n (FRun i (AAlloc k false :: j)) [BpAlloc i k false] n (FRun i j)
| f_alloc_throws n i k j :
    fstep n (FRun i (AAlloc k true :: j)) [BpAlloc i k true; BpDestroy i] n FFail
| f_throw n i j :
    fstep n (FRun i (AThrow :: j)) [BpDestroy i] n FFail
| f_spawn n i b js j :
    fstep n (FRun i (ASpawn b js :: j)) [] n (FAwait i b (map FNew js) j)
| f_child n i b l1 c l2 j ops n' c' :
    fstep n c ops n' c' ->
    fstep n (FAwait i b (l1 ++ c :: l2) j) ops n' (FAwait i b (l1 ++ c' :: l2) j)
| f_join n i (b : bool) cs j ops :
    forallb done cs = true -> merges i (if b then rev cs else cs) = (ops, true) ->
    fstep n (FAwait i b cs j) (ops ++ map BpDestroy (held cs)) n (FRun i j)
| f_rethrow n i (b : bool) cs j ops :
    forallb done cs = true -> merges i (if b then rev cs else cs) = (ops, false) ->
    fstep n (FAwait i b cs j) (ops ++ map BpDestroy (held cs) ++ [BpDestroy i]) n FFail
| f_return n i :                                (* co_return ...(std::move(bp)) *)
    fstep n (FRun i []) [BpMove i; BpDestroy i] (S n) (FDone n)
| f_forward n r :                               (* the result is moved on (promise, Try) *)
    fstep n (FDone r) [BpMove r; BpDestroy r] (S n) (FDone n).

(** Any number of steps and all their operations, in order. *)
(* Executions of the frames; no counterpart of its own (object.h:1391, 1549, 1565). *)
Inductive fsteps : nat -> frame -> list bp_op -> nat -> frame -> Prop :=
| fs_refl n f : fsteps n f [] n f
| fs_step n f ops1 n1 f1 ops2 n2 f2 :
    fsteps n f ops1 n1 f1 -> fstep n1 f1 ops2 n2 f2 -> fsteps n f (ops1 ++ ops2) n2 f2.

(** object.h:1814-1817: [root = syncAwait(...)]; [GetBridgePool().Merge(root.bp)];
    [root] is destroyed. *)
Definition deliver (p r : nat) : list bp_op := [BpMerge p r; BpDestroy r].
