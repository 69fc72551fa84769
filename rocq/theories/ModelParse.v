(** * Model of the parsers of object.h and parse.h. *)
From Verif Require Import Base ModelVarint ModelData ModelSecondary ModelObject.

(** ** Computations of the parser.

    A free monad with the two operations whose meaning depends on other tasks:
    [PGetStr] touches the shared, lazily built table of the [StringMap];
    [PPar] is [co_await collectAllPara(tasks)]: run block tasks in any
    interleaving and receive their results ([Try<T>]) in task order. *)
(* The tuples of object.h:1367, 1461 and 1526 (the pool component is in ModelFrames). *)
Inductive block :=
| BArr (items : list obj) (count : N)
| BMap (items : list (bytes * obj)) (count : N)
| BMapView (items : list (view * obj)) (count : N).

(* The ways a coroutine of object.h:1311-1572 can fail to return. *)
Inductive failure := FThrow (e : exn) | FAbort | FUB | FFuel.

(* The same as outcomes; no counterpart of its own (object.h:1311-1572). *)
Definition fail_out {A} (f : failure) : outcome A :=
  match f with FThrow e => Throw e | FAbort => Abort | FUB => UB | FFuel => Fuel end.

(* Coroutines of object.h:1311-1572: co_return 1367; throw 1352; GetStr 1421; collectAllPara 1391. *)
Inductive prog (A : Type) : Type :=
| PRet (a : A)
| PFail (f : failure)
| PGetStr (id : N) (k : view -> prog A)
| PPar (tasks : list (prog block)) (k : list (outcome block) -> prog A).
Arguments PRet {A} a.
Arguments PFail {A} f.
Arguments PGetStr {A} id k.
Arguments PPar {A} tasks k.

(* Sequencing inside a coroutine, and co_await of ParseArray and ParseMap (object.h:1340, 1346, 1432, 1438,
   1496, 1503). *)
Fixpoint pbind {A B} (p : prog A) (f : A -> prog B) : prog B :=
  match p with
  | PRet a => f a
  | PFail e => PFail e
  | PGetStr id k => PGetStr id (fun v => pbind (k v) f)
  | PPar ts k => PPar ts (fun rs => pbind (k rs) f)
  end.

(* A step without effects on shared state inside a coroutine, for example object.h:1377-1379. *)
Definition lift {A} (x : outcome A) : prog A :=
  match x with
  | Ok a => PRet a
  | Throw e => PFail (FThrow e)
  | Abort => PFail FAbort
  | UB => PFail FUB
  | Fuel => PFail FFuel
  end.

Declare Scope prog_scope.
Delimit Scope prog_scope with prog.
Notation "x <- e ;; f" := (pbind e (fun x => f))
  (at level 61, e at next level, right associativity) : prog_scope.
Notation "' p <- e ;; f" := (pbind e (fun x => match x with p => f end))
  (at level 61, p pattern, e at next level, right associativity) : prog_scope.
Local Open Scope prog_scope.

(** A task that hits undefined behaviour or a failed assert takes the whole
    program down; an exception is stored in the task's [Try]. *)
(* A task of object.h:1391, 1549, 1565 ended the process; no counterpart of its own. *)
Fixpoint hard_failure (l : list (outcome block)) : option failure :=
  match l with
  | [] => None
  | Abort :: _ => Some FAbort
  | UB :: _ => Some FUB
  | Fuel :: _ => Some FFuel
  | _ :: l' => hard_failure l'
  end.

(** Sequential meaning; [get] answers [GetStr]. *)
(* One of the possible executions of object.h:1311-1572: tasks one after the other. *)
Fixpoint run {A} (get : N -> outcome view) (p : prog A) {struct p} : outcome A :=
  match p with
  | PRet a => Ok a
  | PFail f => fail_out f
  | PGetStr id k => obind (get id) (fun v => run get (k v))
  | PPar ts k =>
      let rs := map (fun t => run get t) ts in
      match hard_failure rs with
      | Some f => fail_out f
      | None => run get (k rs)
      end
  end.

(** The reading environment of one document: [b_env] wraps the whole content,
    [b_buf] names its buffer, [b_map] says whether a StringMap is in use
    (the argument [map != nullptr]). *)
(* The arguments content and sm of object.h:1311-1315, or inner and map of 210, 558, 741. *)
Record penv := { b_env : renv; b_buf : nat; b_map : bool }.

(** ** Data *)

(** parse.h:59-68 [BRIDGE_PARSE].  [memcpy(&t, ptr, len)] into a [w]-byte object:
    longer lengths overrun it, shorter ones leave zero bytes. *)
Definition parse_num (c : cfg) (content : bytes) (t : numty) (addr n : N) : outcome store :=
  let w := sizeof_num t in
  if negb (ndebug c) && negb (w =? n) then Abort
  else if w <? n then UB
  else obind (read_range content addr n) (fun m =>
       Ok (SNum t (num_of_wire c w (m ++ repeat x00 (N.to_nat (w - n)))))).

(** parse.h:70-85 [parseData(..., bridge_variant&)]. *)
Definition parseData (c : cfg) (content : bytes) (dt addr n : N) : outcome store :=
  if (dt =? BRIDGE_BYTES) || (dt =? BRIDGE_CUSTOM) then
    omap SVec (read_range content addr n)
  else if dt =? BRIDGE_STRING then
    omap SStr (read_range content addr n)
  else match num_of_dt dt with
  | Some t => parse_num c content t addr n
  | None => Throw ERuntime
  end.

(** parse.h:87-100 [parseData(..., bridge_view_variant&)]. *)
Definition parseData_view (c : cfg) (content : bytes) (buf : nat) (dt addr n : N) : outcome store :=
  if (dt =? BRIDGE_BYTES) || (dt =? BRIDGE_STRING) then
    Ok (SView {| v_buf := buf; v_off := addr; v_len := n |})
  else match num_of_dt dt with
  | Some t => parse_num c content t addr n
  | None => Throw ERuntime
  end.

(** object.h:208-224 [Data::valueParse] and 327-342 [DataView::valueParse]; the
    class is chosen by [parse_ref] in [object_factory] (object.h:1035-1053). *)
Definition Data_valueParse (E : penv) (parse_ref : bool) (s : rstate) : prog (obj * rstate) :=
  let R := b_env E in
  '(dt, s1) <- lift (parseDataType R s) ;;
  if negb (valid_data_type dt) then PFail (FThrow ERuntime)
  else if (dt =? BRIDGE_STRING) && b_map E then
    '(id, s2) <- lift (parseLength R s1) ;;
    PGetStr (u32 id) (fun v =>
      if parse_ref then PRet (ODataView dt (SView v), s2)
      else str <- lift (read_local R v) ;; PRet (OData dt (SStr str), s2))
  else
    '(size, s2) <- lift (parseLength R s1) ;;
    a <- lift (curAddr R s2) ;;
    d <- lift (if parse_ref then parseData_view (r_cfg R) (r_content R) (b_buf E) dt a size
               else parseData (r_cfg R) (r_content R) dt a size) ;;
    let s3 := skip size s2 in
    _ <- lift (check_oor R s3) ;;
    PRet (if parse_ref then ODataView dt d else OData dt d, add_off size s3).

(** object.h:425-441 [parse_key]. *)
Definition parse_key (E : penv) (s : rstate) : prog (view * rstate) :=
  let R := b_env E in
  if b_map E then
    '(id, s1) <- lift (parseLength R s) ;;
    PGetStr (u32 id) (fun v => PRet (v, s1))
  else
    '(key_length, s1) <- lift (parseLength R s) ;;
    a <- lift (curAddr R s1) ;;
    let v := {| v_buf := b_buf E; v_off := a; v_len := key_length |} in
    let s2 := skip key_length s1 in
    _ <- lift (check_oor R s2) ;;
    PRet (v, add_off key_length s2).

(** ** Sequential parser: object.h:982-986 [Object::valueParse] with the three
    container methods (556-579, 739-755, 863-876), [parse_child] (462-470) and
    [object_factory] (1035-1053).  [p] is the pool whose reference new containers
    capture.  Recursion (nesting and loop iterations) is on [fuel]. *)
Fixpoint valueParse (E : penv) (p : pool) (parse_ref : bool) (fuel : nat)
    (t : objtype) (s : rstate) {struct fuel} : prog (obj * rstate) :=
  match fuel with
  | O => PFail FFuel
  | S f =>
      let R := b_env E in
      match t with
      | TData => Data_valueParse E parse_ref s
      | TArray =>
          '(count, s1) <- lift (parseLength R s) ;;
          '(_, s2) <- lift (parseLength R s1) ;;
          '(items, s3) <- array_loop E p parse_ref f count s2 [] ;;
          PRet (OArray p count (rev items), s3)
      | TMap =>
          '(count, s1) <- lift (parseLength R s) ;;
          '(_, s2) <- lift (parseLength R s1) ;;
          if parse_ref then
            '(items, s3) <- mapview_loop E p parse_ref f count s2 [] ;;
            PRet (OMapView p count items, s3)
          else
            _ <- lift (check_oor R s2) ;;
            '(items, s3) <- map_loop E p parse_ref f count s2 [] ;;
            PRet (OMap p count items, s3)
      end
  end

(** object.h:565-576: children are appended at the tail; [acc] is the reversed
    list built so far. *)
with array_loop (E : penv) (p : pool) (parse_ref : bool) (fuel : nat)
    (count : N) (s : rstate) (acc : list obj) {struct fuel} : prog (list obj * rstate) :=
  match fuel with
  | O => PFail FFuel
  | S f =>
      if count =? 0 then PRet (acc, s)
      else
        '(t, s1) <- lift (parseObjectType (b_env E) s) ;;
        '(o, s2) <- valueParse E p parse_ref f t s1 ;;
        array_loop E p parse_ref f (count - 1) s2 (o :: acc)
  end

(** object.h:747-753: [Insert(std::string(key_view), ...)] copies the key after
    the child has been parsed and puts the entry in front. *)
with map_loop (E : penv) (p : pool) (parse_ref : bool) (fuel : nat)
    (count : N) (s : rstate) (acc : list (bytes * obj)) {struct fuel}
  : prog (list (bytes * obj) * rstate) :=
  match fuel with
  | O => PFail FFuel
  | S f =>
      if count =? 0 then PRet (acc, s)
      else
        '(kv, s1) <- parse_key E s ;;
        '(t, s2) <- lift (parseObjectType (b_env E) s1) ;;
        '(o, s3) <- valueParse E p parse_ref f t s2 ;;
        key <- lift (read_local (b_env E) kv) ;;
        map_loop E p parse_ref f (count - 1) s3 ((key, o) :: acc)
  end

(** object.h:870-874. *)
with mapview_loop (E : penv) (p : pool) (parse_ref : bool) (fuel : nat)
    (count : N) (s : rstate) (acc : list (view * obj)) {struct fuel}
  : prog (list (view * obj) * rstate) :=
  match fuel with
  | O => PFail FFuel
  | S f =>
      if count =? 0 then PRet (acc, s)
      else
        '(kv, s1) <- parse_key E s ;;
        '(t, s2) <- lift (parseObjectType (b_env E) s1) ;;
        '(o, s3) <- valueParse E p parse_ref f t s2 ;;
        mapview_loop E p parse_ref f (count - 1) s3 ((kv, o) :: acc)
  end.

(** ** Parallel parser (object.h:1295-1572) *)

(** object.h:502-513, 680-691, 839-850 [Merge]: the block list goes in front. *)
Definition merge_arr (acc : list obj * N) (r : outcome block) : outcome (list obj * N) :=
  obind r (fun b => match b with
  | BArr items count => Ok (match items with [] => acc
                            | _ => (items ++ fst acc, u64 (snd acc + count)) end)
  | _ => UB end).
(* Map::Merge, object.h:680-691, at 1551-1553. *)
Definition merge_map (acc : list (bytes * obj) * N) (r : outcome block)
  : outcome (list (bytes * obj) * N) :=
  obind r (fun b => match b with
  | BMap items count => Ok (match items with [] => acc
                            | _ => (items ++ fst acc, u64 (snd acc + count)) end)
  | _ => UB end).
(* MapView::Merge, object.h:839-850, at 1566-1568. *)
Definition merge_mapview (acc : list (view * obj) * N) (r : outcome block)
  : outcome (list (view * obj) * N) :=
  obind r (fun b => match b with
  | BMapView items count => Ok (match items with [] => acc
                            | _ => (items ++ fst acc, u64 (snd acc + count)) end)
  | _ => UB end).

(** [value()] of a failed [Try] rethrows; blocks are merged one after the other. *)
(* The loops object.h:1394-1397 (over the reversed list), 1551-1554, 1566-1569. *)
Fixpoint merge_all {A} (f : A -> outcome block -> outcome A) (acc : A) (l : list (outcome block))
  : outcome A :=
  match l with
  | [] => Ok acc
  | r :: l' => obind (f acc r) (fun acc' => merge_all f acc' l')
  end.

(** object.h:1382-1388 = 1543-1548 = 1559-1564: block ranges; also the final
    value of [begin]. *)
Fixpoint ranges (begin : N) (l : list N) : list (N * N) * N :=
  match l with
  | [] => ([], begin)
  | n :: l' => let e := u64 (begin + n) in
               let (r, last) := ranges e l' in ((begin, e) :: r, last)
  end.

(** object.h:1414-1422 and 1478-1486: the key of a block entry; lengths are
    truncated to [uint32_t] and the result of [skip] is not checked. *)
Definition block_key (E : penv) (s : rstate) : prog (view * rstate) :=
  let R := b_env E in
  if b_map E then
    '(id, s1) <- lift (parseLength R s) ;;
    PGetStr (u32 id) (fun v => PRet (v, s1))
  else
    '(kl, s1) <- lift (parseLength R s) ;;
    let key_length := u32 kl in
    a <- lift (curAddr R s1) ;;
    PRet ({| v_buf := b_buf E; v_off := a; v_len := key_length |},
          add_off key_length (skip key_length s1)).

Section Para.
  Variable E : penv.
  Variable si : split_info.
  Let R := b_env E.

  (** object.h:1371-1399 [ParseArray], 1529-1572 [ParseMap].  Result: the object
      and the offset behind it.  New containers capture the coroutine's pool. *)
  Fixpoint ParseArray (fuel : nat) (parse_ref : bool) (os : N) {struct fuel} : prog (obj * N) :=
    match fuel with
    | O => PFail FFuel
    | S f =>
        let s := {| idx := os; off := os |} in
        '(_, s1) <- lift (parseLength R s) ;;
        '(id, s2) <- lift (parseLength R s1) ;;
        block_info <- lift (GetBlockInfoFromId si (u32 id)) ;;
        let (rs, last) := ranges (idx s2) block_info in
        PPar (map (fun be => ParseArrayBlock f parse_ref (snd be) {| idx := fst be; off := fst be |} [] 0) rs)
          (fun objs =>
             '(items, size) <- lift (merge_all merge_arr ([], 0) (rev objs)) ;;
             PRet (OArray CoroFrame size items, last))
    end

  with ParseMap (fuel : nat) (parse_ref : bool) (os : N) {struct fuel} : prog (obj * N) :=
    match fuel with
    | O => PFail FFuel
    | S f =>
        let s := {| idx := os; off := os |} in
        '(_, s1) <- lift (parseLength R s) ;;
        '(id, s2) <- lift (parseLength R s1) ;;
        block_info <- lift (GetBlockInfoFromId si (u32 id)) ;;
        let (rs, last) := ranges (idx s2) block_info in
        if parse_ref then
          PPar (map (fun be => ParseMapViewBlock f (snd be) {| idx := fst be; off := fst be |} [] 0) rs)
            (fun objs =>
               '(items, size) <- lift (merge_all merge_mapview ([], 0) objs) ;;
               PRet (OMapView CoroFrame size items, last))
        else
          PPar (map (fun be => ParseMapBlock f (snd be) {| idx := fst be; off := fst be |} [] 0) rs)
            (fun objs =>
               '(items, size) <- lift (merge_all merge_map ([], 0) objs) ;;
               PRet (OMap CoroFrame size items, last))
    end

  (** object.h:1331-1354 = 1424-1446 = 1488-1511: one value inside a block. *)
  with block_value (fuel : nat) (parse_ref : bool) (s : rstate) {struct fuel}
    : prog (obj * rstate) :=
    match fuel with
    | O => PFail FFuel
    | S f =>
        '(t, need_to_split, s1) <- lift (parseObjectType_split R s) ;;
        if need_to_split : bool then
          match t with
          | TArray => '(o, e) <- ParseArray f parse_ref (idx s1) ;; PRet (o, {| idx := e; off := e |})
          | TMap => '(o, e) <- ParseMap f parse_ref (idx s1) ;; PRet (o, {| idx := e; off := e |})
          | TData => PFail (FThrow ERuntime)
          end
        else valueParse E CoroFrame parse_ref f t s1
    end

  (** object.h:1317-1368 [ParseArrayBlock]; [acc] is reversed. *)
  with ParseArrayBlock (fuel : nat) (parse_ref : bool) (end_ : N) (s : rstate)
      (acc : list obj) (count : N) {struct fuel} : prog block :=
    match fuel with
    | O => PFail FFuel
    | S f =>
        if off s <? end_ then
          '(o, s1) <- block_value f parse_ref s ;;
          ParseArrayBlock f parse_ref end_ s1 (o :: acc) (u64 (count + 1))
        else PRet (BArr (rev acc) count)
    end

  (** object.h:1401-1462 [ParseMapBlock]: the key is copied at once. *)
  with ParseMapBlock (fuel : nat) (end_ : N) (s : rstate)
      (acc : list (bytes * obj)) (count : N) {struct fuel} : prog block :=
    match fuel with
    | O => PFail FFuel
    | S f =>
        if off s <? end_ then
          '(kv, s1) <- block_key E s ;;
          key <- lift (read_local R kv) ;;
          '(o, s2) <- block_value f false s1 ;;
          ParseMapBlock f end_ s2 ((key, o) :: acc) (u64 (count + 1))
        else PRet (BMap (rev acc) count)
    end

  (** object.h:1464-1527 [ParseMapViewBlock]. *)
  with ParseMapViewBlock (fuel : nat) (end_ : N) (s : rstate)
      (acc : list (view * obj)) (count : N) {struct fuel} : prog block :=
    match fuel with
    | O => PFail FFuel
    | S f =>
        if off s <? end_ then
          '(kv, s1) <- block_key E s ;;
          '(o, s2) <- block_value f true s1 ;;
          ParseMapViewBlock f end_ s2 ((kv, o) :: acc) (u64 (count + 1))
        else PRet (BMapView (rev acc) count)
    end.
End Para.

(** ** Schedulers (object.h:1679-1842) *)

(** object.h:1591-1600 [ParseTotalSize]. *)
Definition ParseTotalSize (c : cfg) (inner : bytes) : outcome N :=
  if len inner <? 8 then Throw ERuntime
  else Ok (num_of_wire c 8 (firstn 8 inner)).

(** object.h:1611-1620 [ParseSecondary]: the table's bytes are a view into the
    content whose length is not checked.  Result: its reader and the position
    behind it. *)
Definition secondary_env (c : cfg) (content : bytes) (total_size : N) : outcome (renv * N) :=
  obind (parseLength_str c content total_size) (fun x =>
    let secondary_size := fst x in
    let base := u64 (total_size + snd x) in
    Ok ({| r_cfg := c; r_content := content; r_base := base; r_size := secondary_size |},
        u64 (base + secondary_size))).

(** State of a [Scheduler] after object.h:1722-1754 [initFromContent]. *)
Record sched := {
  sc_map : option (string_map view);      (* use_string_map_ / string_map_ *)
  sc_split : split_info;
  sc_need_to_split : bool;
  sc_total : N
}.

(* GetMetaSize, object.h:1708. *)
Definition meta_size : N := 10.           (* object.h:1708 *)

Definition initFromContent (c : cfg) (fuel : nat) (content : bytes) (buf : nat) : outcome sched :=
  if len content <? meta_size then Throw ERuntime
  else
    obind (ParseTotalSize c content) (fun total_size =>
    let ty := b2n (nth 8 content x00) in
    obind
      (if ty =? SeriTypeToChar NORMAL then
         obind (secondary_env c content total_size) (fun x =>
         obind (SplitInfo_Construct (fst x) fuel) (fun si => Ok (None, si)))
       else if ty =? SeriTypeToChar REPLACE then
         obind (secondary_env c content total_size) (fun x =>
         obind (StringMap_Construct (fst x) buf fuel) (fun sm =>
         obind (secondary_env c content (snd x)) (fun y =>
         obind (SplitInfo_Construct (fst y) fuel) (fun si => Ok (Some sm, si)))))
       else Throw ERuntime)
      (fun x =>
       let flag := b2n (nth 9 content x00) in
       let mk b := Ok {| sc_map := fst x; sc_split := snd x; sc_need_to_split := b; sc_total := total_size |} in
       if flag =? 0 then mk false
       else if flag =? 10 then mk true
       else Throw ERuntime)).

(* InnerWrapper wrapper(content_), object.h:1767, 1325, 1374, 1408, 1472, 1532. *)
Definition root_env (c : cfg) (content : bytes) : renv :=
  {| r_cfg := c; r_content := content; r_base := 0; r_size := len content |}.

(* The same with GetStringMap(), object.h:1697-1702, 1777, 1814. *)
Definition doc_env (c : cfg) (content : bytes) (buf : nat) (sc : sched) : penv :=
  {| b_env := root_env c content; b_buf := buf;
     b_map := match sc_map sc with Some _ => true | None => false end |}.

(** What [GetStr] answers during the parse of this document. *)
(* map->GetStr(id), object.h:215, 334, 438, 1421, 1485, with string_map.h:36-44. *)
Definition getter (c : cfg) (m : option (string_map view)) (id : N) : outcome view :=
  match m with
  | Some m => obind (GetStr c id m) (fun x => Ok (fst x))
  | None => UB                     (* never called: map == nullptr *)
  end.

(** object.h:1781, 1817: take "root" out of the parsed root map. *)
Definition take_root (content : bytes) (root : obj) : outcome obj :=
  match root with
  | OMap _ _ items => Ok (fst (Map_take items root_key))
  | OMapView _ _ items =>
      obind (MapView_take (fun _ => Some content) items root_key) (fun x => Ok (fst x))
  | _ => UB
  end.

(** object.h:1765-1782 [NormalScheduler::Parse] as a computation. *)
Definition NormalParse_prog (E : penv) (fuel : nat) (parse_ref : bool) (p : pool) (total : N)
  : prog obj :=
  '(root, s) <- valueParse E p parse_ref fuel TMap {| idx := meta_size; off := meta_size |} ;;
  if negb (off s =? total) then PFail (FThrow ERuntime)
  else lift (take_root (r_content (b_env E)) root).

(** object.h:1812-1817, the parallel branch of [CoroutineScheduler::Parse]. *)
Definition CoroParse_prog (E : penv) (si : split_info) (fuel : nat) (parse_ref : bool) : prog obj :=
  '(root, _) <- ParseMap E si fuel parse_ref meta_size ;;
  lift (take_root (r_content (b_env E)) root).

(** object.h:1820-1829 [ParseOption] (the worker count does not influence the
    result, see ModelThreadPool). *)
Inductive SchedulerType := Normal | Coroutine.
(* object.h:1825-1829; worker_num_ is a parameter of ModelExec. *)
Record ParseOption := { po_type : SchedulerType; po_ref : bool }.

(** The computation performed by [Parse] once the metadata has been read. *)
(* object.h:1832-1839 with NormalScheduler::Parse 1765-1782 and CoroutineScheduler::Parse 1805-1818. *)
Definition Parse_prog (c : cfg) (fuel : nat) (content : bytes) (buf : nat) (p : pool)
    (po : ParseOption) (sc : sched) : prog obj :=
  let E := doc_env c content buf sc in
  match po_type po, sc_need_to_split sc with
  | Coroutine, true => CoroParse_prog E (sc_split sc) fuel (po_ref po)
  | _, _ => NormalParse_prog E fuel (po_ref po) p (sc_total sc)
  end.

(** object.h:1831-1842 [Parse], 1805-1818 [CoroutineScheduler::Parse].  (When the
    root is not split the latter builds a [NormalScheduler], which reads the same
    metadata a second time.)  [buf] names the buffer that holds [content], [p] is
    the pool argument. *)
Definition Parse (c : cfg) (fuel : nat) (content : bytes) (buf : nat) (p : pool)
    (po : ParseOption) : outcome obj :=
  obind (initFromContent c fuel content buf) (fun sc =>
    run (getter c (sc_map sc)) (Parse_prog c fuel content buf p po sc)).
