(** * Programs using pools and containers together (object.h:71-124, 375-380, 489-554,
    647-737, 807-954, 996-1050; object_pool.h).

    ModelPool.v has the pools without what their objects contain, ModelLinked.v has the
    containers in memory that never goes away.  Here both meet: containers and items are
    cells in slots of pools, a container remembers the BridgePool it was made from by
    reference, and pools are merged, moved, cleared and destroyed at any time.  Reading
    or writing a slot whose memory was freed, or using a BridgePool that no longer
    exists, is undefined. *)
From Verif Require Import Base ModelData ModelObject ModelPool ModelStorage ModelFrames.
Local Open Scope out_scope.

(** A pointer to a pooled object: its class and its slot. *)
(* Object*, ArrayItem*, MapItem*, MapViewItem*: object.h:490-495, 644, 648-654, 803, 807-813, 959. *)
Definition addr : Type := cls * slot_id.

(** The value of a Data or DataView: its type tag and its variant. *)
(* data_type_ and data_, object.h:250-251, 367-368. *)
Definition datum : Type := N * ModelData.store.
(** A key: the std::string of a MapItem, or the std::string_view of a MapViewItem, which
    points into the program's own memory. *)
(* MapItem::key_, MapViewItem::key_, object.h:648-654, 807-813. *)
Inductive ckey := OwnKey (b : bytes) | RefKey (v : view).
(* The characters of a key when it is compared, object.h:710, 721, 855, 936. *)
Definition key_content (um : memory) (k : ckey) : outcome bytes :=
  match k with OwnKey b => Ok b | RefKey v => read_view um v end.
(* The key type the Insert of each class takes, object.h:515, 693, 943; other arguments do not compile. *)
Definition key_fits (ik : cls) (k : ckey) : bool :=
  match ik, k with
  | KArrayItem, _ | KMapItem, OwnKey _ | KMapViewItem, RefKey _ => true
  | _, _ => false
  end.

(** What a slot contains. *)
(* Data and DataView object.h:167-372; Array, Map, MapView: bridge_pool_ 380, last_child_ and
   last_node_ with size_ 644-645, 803-804, 959-960; items 490-495, 648-654, 807-813. *)
Inductive cell :=
| CellData (x : datum)
| CellCont (pool : nat) (last : option slot_id) (size : N)
| CellItem (key : ckey) (val : option addr) (next : option slot_id).

(** The class of the items of a container. *)
(* array_item(), map_item(), map_view_item(): object.h:516, 694, 944. *)
Definition item_cls (k : cls) : option cls :=
  match k with KArray => Some KArrayItem | KMap => Some KMapItem | KMapView => Some KMapViewItem | _ => None end.

(** The program's state: the pools of every class, what was written where, and the
    pointers to objects the program received, in the order of their creation. *)
(* Objects of class BridgePool, object.h:71-124, and the memory behind them. *)
Record client := { k_pools : cls -> pworld; k_mem : cls -> slot_id -> option cell; k_vars : list addr }.
(* Before any BridgePool (object.h:996) exists. *)
Definition client0 : client := {| k_pools := fun _ => pworld0; k_mem := fun _ _ => None; k_vars := [] |}.

(** ** Memory *)

(** Does the slot hold an object?  From the history of the memory alone: constructed
    there (placement new), and since then neither destroyed nor its buffer freed. *)
(* object_pool.h:38, 68, 78. *)
Definition live_step (s : slot_id) (b : bool) (e : event) : bool :=
  let same x := Nat.eqb (fst s) (fst x) && (snd s =? snd x) in
  match e with
  | EvBuffer _ _ => b
  | EvConstruct s' => if same s' then true else b
  | EvDestroy s' => if same s' then false else b
  | EvFree buf => if Nat.eqb (fst s) buf then false else b
  end.
(* The state of one slot (object_pool.h:37, 67-70) after everything that has happened. *)
Definition touchable (w : client) (a : addr) : bool :=
  fold_left (live_step (snd a)) (w_trace (k_pools w (fst a))) false.

(** Reading and writing through a pointer. *)
(* Every ->, object.h:510-525, 547-553, 573, 688-704, 709-726, 847-861, 935-954. *)
Definition fetch (w : client) (a : addr) : outcome cell :=
  if touchable w a then match k_mem w (fst a) (snd a) with Some c => Ok c | None => UB end else UB.
(* Overwriting one cell; helper of [store] and [alloc] (object.h:510-525, 688-704, 847, 943-954, 1009-1033). *)
Definition set_mem (a : addr) (c : cell) (m : cls -> slot_id -> option cell) : cls -> slot_id -> option cell :=
  fun k s => if cls_eqb k (fst a) && Nat.eqb (fst s) (fst (snd a)) && (snd s =? snd (snd a)) then Some c else m k s.
(* Every assignment through ->, object.h:510-525, 688-704, 730-733, 943-954. *)
Definition store (w : client) (a : addr) (c : cell) : outcome client :=
  if touchable w a
  then Ok {| k_pools := k_pools w; k_mem := set_mem a c (k_mem w); k_vars := k_vars w |}
  else UB.

(** ** Pools *)

(* Replacing the member pool of one class; helper of [bp_do] (object.h:116-123). *)
Definition set_pool (k : cls) (p : pworld) (ps : cls -> pworld) : cls -> pworld :=
  fun k' => if cls_eqb k' k then p else ps k'.

(** One operation on BridgePools, member by member; the results of the allocations. *)
(* object.h:71-93, 996-1033, in the order of 116-123 (the members do not share anything). *)
Fixpoint bp_members (ks : list cls) (op : bp_op) (ps : cls -> pworld) : outcome ((cls -> pworld) * list pool_result) :=
  match ks with
  | [] => Ok (ps, [])
  | k :: ks' =>
      '(p, rs) <- pool_run (require_destruct k) (ps k) (member_ops k op) ;;
      '(ps', rs') <- bp_members ks' op (set_pool k p ps) ;;
      Ok (ps', rs ++ rs')
  end.
(* object.h:71-93, 996-1033. *)
Definition bp_do (w : client) (op : bp_op) : outcome (client * list pool_result) :=
  '(ps, rs) <- bp_members members op (k_pools w) ;;
  Ok ({| k_pools := ps; k_mem := k_mem w; k_vars := k_vars w |}, rs).

(** [bridge_pool_i.xxx()]: an object of class [k] with content [c] in pool [i]. *)
(* BridgePool::data, data_view, array, array_item, map, map_item, map_view, map_view_item, object.h:1009-1033.
   (Simplification: the constructors do not throw; see C31, C98 for those that do.) *)
Definition alloc (w : client) (i : nat) (k : cls) (c : cell) : outcome (client * slot_id) :=
  '(w1, rs) <- bp_do w (BpAlloc i k false) ;;
  match rs with
  | [RSlot s] => Ok ({| k_pools := k_pools w1; k_mem := set_mem (k, s) c (k_mem w1); k_vars := k_vars w1 |}, s)
  | _ => UB
  end.

(** ** Containers *)

(** The container behind a pointer: its pool, newest item and size. *)
(* this->bridge_pool_, last_child_ / last_node_, size_: object.h:380, 644-645, 803-804, 959-960. *)
Definition get_cont (w : client) (a : addr) : outcome (cls * nat * option slot_id * N) :=
  c <- fetch w a ;;
  match c, item_cls (fst a) with
  | CellCont p last size, Some ik => Ok (ik, p, last, size)
  | _, _ => UB
  end.
(* An item behind a pointer; object.h:490-495, 648-654, 807-813. *)
Definition get_item (w : client) (a : addr) : outcome (ckey * option addr * option slot_id) :=
  c <- fetch w a ;;
  match c with CellItem key val next => Ok (key, val, next) | _ => UB end.

(** object.h:515-525, 693-704, 943-954 [Insert]: the item comes from the pool the
    container was made from; its fields are assigned, then linked in front. *)
Definition cl_Insert (w : client) (a : addr) (key : ckey) (v : option addr) : outcome client :=
  '(ik, p, _, _) <- get_cont w a ;;
  if negb (key_fits ik key) then UB else
  '(w1, s) <- alloc w p ik (CellItem (OwnKey []) None None) ;;
  w2 <- store w1 (ik, s) (CellItem (if cls_eqb ik KArrayItem then OwnKey [] else key) v None) ;;
  '(_, _, last, size) <- get_cont w2 a ;;
  w3 <- match last with
        | None => Ok w2
        | Some _ =>
            '(key', v', _) <- get_item w2 (ik, s) ;;
            store w2 (ik, s) (CellItem key' v' last)
        end ;;
  store w3 a (CellCont p (Some s) (u64 (size + 1))).

(** object.h:565-578, one round of [Array::valueParse], and 1356-1365, 1447-1459, 1512-1524,
    one round of the blocks of the parallel parser: the next item, from pool [j], is linked
    behind the previous one ([tail]).  Simplification: the chain hangs at the container from
    its first item on; the code attaches it ([last_child_ = head], [size_ = count], or
    [Merge] 502-513, 680-691, 839-850) after the loop, and nobody but the parser has the
    container before that. *)
Fixpoint cl_tail (w : client) (ik : cls) (fuel : nat) (cur : option slot_id) : outcome (option slot_id) :=
  match cur with
  | None => Ok None
  | Some s =>
      match fuel with
      | O => Fuel
      | S f => '(_, _, next) <- get_item w (ik, s) ;;
               match next with None => Ok cur | Some _ => cl_tail w ik f next end
      end
  end.
(* No counterpart: the loops of object.h:708, 719, 854, 934 have no bound.  Enough iterations for any chain of
   items: more than items were ever made. *)
Definition chain_fuel (w : client) (ik : cls) : nat := S (length (w_trace (k_pools w ik))).
(* object.h:565-578, 1356-1365, 1447-1459, 1512-1524. *)
Definition cl_Append (w : client) (j : nat) (a : addr) (key : ckey) (v : option addr) : outcome client :=
  '(ik, p, last, size) <- get_cont w a ;;
  if negb (key_fits ik key) then UB else
  tail <- cl_tail w ik (chain_fuel w ik) last ;;
  '(w1, s) <- alloc w j ik (CellItem (OwnKey []) None None) ;;
  w2 <- store w1 (ik, s) (CellItem (if cls_eqb ik KArrayItem then OwnKey [] else key) v None) ;;
  match tail with
  | None => store w2 a (CellCont p (Some s) (u64 (size + 1)))
  | Some s0 =>
      '(k0, v0, _) <- get_item w2 (ik, s0) ;;
      w3 <- store w2 (ik, s0) (CellItem k0 v0 (Some s)) ;;
      store w3 a (CellCont p last (u64 (size + 1)))
  end.

(** object.h:527-531, 730-733, 927-930 [Clear]. *)
Definition cl_Clear (w : client) (a : addr) : outcome client :=
  '(_, p, _, _) <- get_cont w a ;;
  store w a (CellCont p None 0).

(** object.h:533, 728, 925 [Size]. *)
Definition cl_Size (w : client) (a : addr) : outcome N :=
  '(_, _, _, size) <- get_cont w a ;; Ok size.

(** object.h:535-554 [Array::operator\[\]]: [n] steps along [next_]. *)
Fixpoint cl_walk (w : client) (ik : cls) (n : nat) (tmp : option slot_id) : outcome (option slot_id) :=
  match n with
  | O => Ok tmp
  | S n' => match tmp with
            | None => Ok None
            | Some s => '(_, _, next) <- get_item w (ik, s) ;; cl_walk w ik n' next
            end
  end.
(* Array::operator[], object.h:535-554. *)
Definition cl_at (w : client) (a : addr) (n : N) : outcome (option addr) :=
  '(ik, _, last, size) <- get_cont w a ;;
  if size <=? n then Ok None
  else
    tmp <- cl_walk w ik (N.to_nat (size - 1 - n)) last ;;
    match tmp with
    | None => Ok None
    | Some s => '(_, v, _) <- get_item w (ik, s) ;; Ok v
    end.

(** object.h:706-715, 717-726, 852-861, 932-941: the search loop of [operator\[\]] and
    [Get]; at most [fuel] iterations. *)
Fixpoint cl_search (um : memory) (w : client) (ik : cls) (fuel : nat) (cur : option slot_id) (key : bytes) : outcome (option slot_id) :=
  match cur with
  | None => Ok None
  | Some s =>
      match fuel with
      | O => Fuel
      | S f => '(key', _, next) <- get_item w (ik, s) ;;
               kc <- key_content um key' ;;
               if bytes_eqb kc key then Ok cur else cl_search um w ik f next key
      end
  end.
(* Map::operator[] and MapView::operator[], object.h:706-715, 852-861. *)
Definition cl_lookup (um : memory) (w : client) (a : addr) (key : bytes) : outcome (option addr) :=
  '(ik, _, last, _) <- get_cont w a ;;
  p <- cl_search um w ik (chain_fuel w ik) last key ;;
  match p with None => Ok None | Some s => '(_, v, _) <- get_item w (ik, s) ;; Ok v end.
(* Map::Get and MapView::Get, object.h:717-726, 932-941: return std::move(cur->value_). *)
Definition cl_take (um : memory) (w : client) (a : addr) (key : bytes) : outcome (option addr * client) :=
  '(ik, _, last, _) <- get_cont w a ;;
  p <- cl_search um w ik (chain_fuel w ik) last key ;;
  match p with
  | None => Ok (None, w)
  | Some s =>
      '(key', v, next) <- get_item w (ik, s) ;;
      w' <- store w (ik, s) (CellItem key' None next) ;;
      Ok (v, w')
  end.

(** object.h:620-639, 658-675, 735-737, 817-834, 921-923: a loop over all items. *)
Fixpoint cl_items (w : client) (ik : cls) (fuel : nat) (it : option slot_id) : outcome (list (ckey * option addr)) :=
  match it with
  | None => Ok []
  | Some s =>
      match fuel with
      | O => Fuel
      | S f => '(key, v, next) <- get_item w (ik, s) ;;
               rest <- cl_items w ik f next ;;
               Ok ((key, v) :: rest)
      end
  end.
(* for (it = Begin(); it != End(); ++it), object.h:620-639, 658-675, 735-737, 817-834, 921-923. *)
Definition cl_iterate (w : client) (a : addr) : outcome (list (ckey * option addr)) :=
  '(ik, _, last, _) <- get_cont w a ;; cl_items w ik (chain_fuel w ik) last.

(** The value of a Data or DataView. *)
(* Data::Get, DataView::Get object.h:186-214, 305-330 (as far as memory is concerned). *)
Definition cl_read (w : client) (a : addr) : outcome datum :=
  c <- fetch w a ;; match c with CellData x => Ok x | _ => UB end.
(* Data::operator=, DataView::operator=, object.h:178-184, 290-303 (as far as memory is concerned). *)
Definition cl_assign (w : client) (a : addr) (x : datum) : outcome client :=
  c <- fetch w a ;; match c with CellData _ => store w a (CellData x) | _ => UB end.

(** Everything below a pointer, as a serialization or a dump finds it: the objects of
    ModelObject.v.  A null pointer is [ONull]. *)
(* The shape visited by valueSeri and dump, object.h:581-618, 757-800, 878-919: the items in order, each with its
   child. *)
Fixpoint view_items (f : addr -> outcome obj) (l : list (ckey * option addr)) : outcome (list (ckey * obj)) :=
  match l with
  | [] => Ok []
  | (key, v) :: l' =>
      t <- match v with None => Ok ONull | Some a => f a end ;;
      rest <- view_items f l' ;;
      Ok ((key, t) :: rest)
  end.
(* The std::string of a MapItem, the std::string_view of a MapViewItem (object.h:648-654, 807-813). *)
Definition own_of (k : ckey) : bytes := match k with OwnKey b => b | RefKey _ => [] end.
(* object.h:807-813. *)
Definition ref_of (k : ckey) : view := match k with RefKey v => v | OwnKey _ => {| v_buf := 0%nat; v_off := 0; v_len := 0 |} end.
(* An object of class k made from pool p with size_ size and these items, object.h:380, 489-545, 644-645, 657-804,
   816-960. *)
Definition cont_obj (k : cls) (p : nat) (size : N) (l : list (ckey * obj)) : obj :=
  match k with
  | KArray => OArray (PoolId p) size (map snd l)
  | KMap => OMap (PoolId p) size (map (fun e => (own_of (fst e), snd e)) l)
  | _ => OMapView (PoolId p) size (map (fun e => (ref_of (fst e), snd e)) l)
  end.
(* Data or DataView with this value, object.h:167-372. *)
Definition data_obj (k : cls) (x : datum) : obj :=
  match k with KData => OData (fst x) (snd x) | _ => ODataView (fst x) (snd x) end.
(** The recursion over a tree; nesting at most [depth] (a cyclic structure has no end).
    Simplification: the items of a container are read before its children. *)
(* valueSeri and dump, object.h:581-618, 757-800, 878-919. *)
Fixpoint cl_view (depth : nat) (w : client) (a : addr) : outcome obj :=
  match depth with
  | O => Fuel
  | S d =>
      match item_cls (fst a) with
      | None => x <- cl_read w a ;; Ok (data_obj (fst a) x)
      | Some _ =>
          '(_, p, _, size) <- get_cont w a ;;
          l <- cl_iterate w a ;; ts <- view_items (cl_view d w) l ;; Ok (cont_obj (fst a) p size ts)
      end
  end.

(** ** Programs *)

(** Objects are named by the order of their creation: variable [n] holds the pointer
    the [n]-th creating call returned (the raw pointer stays usable after the
    [unique_ptr] was moved into a container; [object_pool_deleter] does nothing). *)
(** Calls that compare keys carry the program's own memory at that moment ([um]): the
    keys of a MapView point into it. *)
(* The public members of BridgePool object.h:71-93, Array 499-579, Map 677-755, MapView 836-954, Data 167-262,
   DataView 274-372, and Serialize / Dump as readers. *)
Inductive ccall :=
| CPool (op : bp_op)                              (* New, Merge, Clear, moves, end of scope *)
| CData (i : nat) (v : bool) (x : datum)          (* bp_i.data(x) / bp_i.data_view(x) *)
| CCont (i : nat) (k : cls)                       (* bp_i.array() / map() / map_view() *)
| CScratch (i : nat) (k : cls)                    (* an object of pool i nobody keeps a pointer to *)
| CInsert (c : nat) (key : ckey) (v : option nat)
| CAppend (j c : nat) (key : ckey) (v : option nat)  (* what the parser does to its containers; not a public member *)
| CClear (c : nat)
| CTake (um : memory) (c : nat) (key : bytes)
| CSize (c : nat)
| CAt (c : nat) (n : N)
| CLookup (um : memory) (c : nat) (key : bytes)
| CIterate (c : nat)
| CRead (d : nat)
| CAssign (d : nat) (x : datum)
| CView (depth : nat) (c : nat).

(* The results of these members. *)
(* object.h:533, 535, 706, 717, 728, 735, 186. *)
Inductive canswer :=
| AnNone | AnNum (n : N) | AnPtr (a : option addr) | AnList (l : list (ckey * option addr))
| AnData (x : datum) | AnView (t : obj).

(* The pointer in a variable; no counterpart (see [ccall], object.h:71-954). *)
Definition var (w : client) (n : nat) : outcome addr :=
  match nth_error (k_vars w) n with Some a => Ok a | None => UB end.
(* The same for an argument that may be null, object.h:515, 693, 943. *)
Definition var_opt (w : client) (v : option nat) : outcome (option addr) :=
  match v with None => Ok None | Some n => a <- var w n ;; Ok (Some a) end.
(** The static type of the pointer: other calls do not compile. *)
(* Array::operator[] object.h:535; Map::operator[], Get 706, 717; MapView::operator[], Get 852, 932. *)
Definition as_array (a : addr) : outcome addr := if cls_eqb (fst a) KArray then Ok a else UB.
(* object.h:706, 717, 852, 932. *)
Definition as_map (a : addr) : outcome addr := if cls_eqb (fst a) KMap || cls_eqb (fst a) KMapView then Ok a else UB.
(* A creating call: the pointer goes to a new variable (object.h:1009-1033). *)
Definition create (w : client) (i : nat) (k : cls) (c : cell) : outcome (client * canswer) :=
  '(w1, s) <- alloc w i k c ;;
  Ok ({| k_pools := k_pools w1; k_mem := k_mem w1; k_vars := k_vars w1 ++ [(k, s)] |}, AnNone).

(* One call, see [ccall] for the lines (object.h:71-954). *)
Definition cl_step (w : client) (op : ccall) : outcome (client * canswer) :=
  match op with
  | CPool (BpAlloc _ _ _) => UB                   (* not a public member *)
  | CPool o => '(w', _) <- bp_do w o ;; Ok (w', AnNone)
  | CData i v x => create w i (if v then KDataView else KData) (CellData x)
  | CCont i k => match item_cls k with
                 | Some _ => create w i k (CellCont i None 0)
                 | None => UB
                 end
  | CScratch i k => '(w', _) <- alloc w i k (CellItem (OwnKey []) None None) ;; Ok (w', AnNone)
  | CInsert c key v => a <- var w c ;; v' <- var_opt w v ;; w' <- cl_Insert w a key v' ;; Ok (w', AnNone)
  | CAppend j c key v => a <- var w c ;; v' <- var_opt w v ;; w' <- cl_Append w j a key v' ;; Ok (w', AnNone)
  | CClear c => a <- var w c ;; w' <- cl_Clear w a ;; Ok (w', AnNone)
  | CTake um c key => p <- var w c ;; a <- as_map p ;; '(v, w') <- cl_take um w a key ;; Ok (w', AnPtr v)
  | CSize c => a <- var w c ;; n <- cl_Size w a ;; Ok (w, AnNum n)
  | CAt c n => p <- var w c ;; a <- as_array p ;; v <- cl_at w a n ;; Ok (w, AnPtr v)
  | CLookup um c key => p <- var w c ;; a <- as_map p ;; v <- cl_lookup um w a key ;; Ok (w, AnPtr v)
  | CIterate c => a <- var w c ;; l <- cl_iterate w a ;; Ok (w, AnList l)
  | CRead d => a <- var w d ;; x <- cl_read w a ;; Ok (w, AnData x)
  | CAssign d x => a <- var w d ;; w' <- cl_assign w a x ;; Ok (w', AnNone)
  | CView depth c => a <- var w c ;; t <- cl_view depth w a ;; Ok (w, AnView t)
  end.

(* A sequence of calls by the user; no counterpart of its own (object.h:71-954). *)
Fixpoint cl_run (w : client) (ops : list ccall) : outcome (client * list canswer) :=
  match ops with
  | [] => Ok (w, [])
  | op :: ops' =>
      '(w1, a) <- cl_step w op ;;
      '(w2, r) <- cl_run w1 ops' ;;
      Ok (w2, a :: r)
  end.
