(** * Model of the object classes of object.h and of their serialization. *)
From Verif Require Import Base ModelVarint ModelData ModelSecondary.
Local Open Scope out_scope.

(** The [BridgePool&] captured by a container (object.h:377-380): a pool of the
    program, or the local pool of a coroutine frame of the parallel parser, which
    is destroyed when the coroutine has finished (object.h:1373, 1531). *)
Inductive pool := PoolId (n : nat) | CoroFrame.

(** object.h:167 [Data], 274 [DataView], 497 [Array], 656 [Map], 815 [MapView].
    [ONull] is a null [unique_ptr<Object>].  The linked lists are lists, first
    element = [last_child_] / [last_node_]; [size] is the separate field [size_].
    (Simplification: item nodes are not separate heap cells.) *)
Inductive obj :=
| ONull
| OData (dt : N) (s : store)
| ODataView (dt : N) (s : store)
| OArray (p : pool) (size : N) (items : list obj)
| OMap (p : pool) (size : N) (items : list (bytes * obj))
| OMapView (p : pool) (size : N) (items : list (view * obj)).

(** object.h:39 [GetType] (on a null pointer: undefined). *)
Definition GetType (o : obj) : outcome objtype :=
  match o with
  | ONull => UB
  | OData _ _ | ODataView _ _ => Ok TData
  | OArray _ _ _ => Ok TArray
  | OMap _ _ _ | OMapView _ _ _ => Ok TMap
  end.

(** object.h:41 [IsRefType]. *)
Definition IsRefType (o : obj) : outcome bool :=
  match o with
  | ONull => UB
  | ODataView _ _ | OMapView _ _ _ => Ok true
  | OData _ _ | OArray _ _ _ | OMap _ _ _ => Ok false
  end.

(** ** Construction through the API *)

(** object.h:1009-1031: [bp.data()], [bp.data_view()] (invalid state),
    [bp.array()], [bp.map()], [bp.map_view()]. *)
Definition data_default : obj := OData BRIDGE_INVALID SNone.
(* DataView::DataView(), object.h:276. *)
Definition data_view_default : obj := ODataView BRIDGE_INVALID SNone.
(* Array::Array, object.h:499-500, called by 1019-1021. *)
Definition array_new (p : pool) : obj := OArray p 0 [].
(* Map::Map, object.h:677-678, called by 1025. *)
Definition map_new (p : pool) : obj := OMap p 0 [].
(* MapView::MapView, object.h:836-837, called by 1029-1031. *)
Definition map_view_new (p : pool) : obj := OMapView p 0 [].

(** object.h:172-176 / 178-184 with serialize.h:32-66 and object.h:137-141: a Data holding
    a value of each supported type.  A custom type contributes the bytes returned
    by its [SerializeToBridge]. *)
Definition data_of_string (s : bytes) : obj := OData BRIDGE_STRING (SStr s).
(* Data(std::vector<char>), object.h:172-176 with serialize.h:46-52. *)
Definition data_of_bytes (s : bytes) : obj := OData BRIDGE_BYTES (SVec s).
(* Data(number), object.h:172-176 with serialize.h:60-62. *)
Definition data_of_num (t : numty) (n : N) : obj := OData (dt_of_num t) (SNum t n).
(* Data(custom object), object.h:172-176 with 137-141; [b] is what SerializeToBridge() returned. *)
Definition data_of_custom (b : bytes) : obj := OData BRIDGE_CUSTOM (SVec b).

(** serialize.h:14-30: the length used for [const char (&arr)\[n\]]. *)
Definition cstr_content (arr : bytes) : bytes :=
  match rev arr with
  | b :: r => if byte_eqb b x00 then rev r else arr
  | [] => arr
  end.
(* Data("..."), object.h:172-176 with serialize.h:14-21. *)
Definition data_of_cstr (arr : bytes) : obj := OData BRIDGE_STRING (SStr (cstr_content arr)).

(** object.h:278-288 with serialize.h:23-58: a DataView on a buffer. *)
Definition data_view_of_string (v : view) : obj := ODataView BRIDGE_STRING (SView v).
(* DataView(std::vector<char>), object.h:278-283 with serialize.h:54-58. *)
Definition data_view_of_bytes (v : view) : obj := ODataView BRIDGE_BYTES (SView v).
(* DataView(number), object.h:278-283 with serialize.h:64-66. *)
Definition data_view_of_num (t : numty) (n : N) : obj := ODataView (dt_of_num t) (SNum t n).

(** object.h:515-525 [Array::Insert]; the item comes from the captured pool. *)
Definition Array_Insert (live : pool -> bool) (a : obj) (value : obj) : outcome obj :=
  match a with
  | OArray p size items =>
      if live p then Ok (OArray p (u64 (size + 1)) (value :: items)) else UB
  | _ => UB
  end.

(** object.h:693-704 [Map::Insert]. *)
Definition Map_Insert (live : pool -> bool) (m : obj) (key : bytes) (value : obj) : outcome obj :=
  match m with
  | OMap p size items =>
      if live p then Ok (OMap p (u64 (size + 1)) ((key, value) :: items)) else UB
  | _ => UB
  end.

(** object.h:943-954 [MapView::Insert]. *)
Definition MapView_Insert (live : pool -> bool) (m : obj) (key : view) (value : obj) : outcome obj :=
  match m with
  | OMapView p size items =>
      if live p then Ok (OMapView p (u64 (size + 1)) ((key, value) :: items)) else UB
  | _ => UB
  end.

(** object.h:527-531, 730-733, 927-930 [Clear]. *)
Definition Container_Clear (o : obj) : outcome obj :=
  match o with
  | OArray p _ _ => Ok (OArray p 0 [])
  | OMap p _ _ => Ok (OMap p 0 [])
  | OMapView p _ _ => Ok (OMapView p 0 [])
  | _ => UB
  end.

(** object.h:535-554 [Array::operator\[\]]: walk from the head, the list being in
    reverse order.  [nullptr] is [ONull]. *)
Fixpoint walk (n : nat) (l : list obj) : obj :=
  match n with
  | O => match l with [] => ONull | o :: _ => o end
  | S n' => match l with [] => ONull | _ :: l' => walk n' l' end
  end.
(* Array::operator[], object.h:535-554. *)
Definition Array_at (size : N) (items : list obj) (n : N) : obj :=
  if size <=? n then ONull
  else walk (N.to_nat (size - 1 - n)) items.

(** object.h:706-715 [Map::operator\[\]]. *)
Fixpoint Map_at (items : list (bytes * obj)) (key : bytes) : obj :=
  match items with
  | [] => ONull
  | (k, o) :: l => if bytes_eqb k key then o else Map_at l key
  end.

(** object.h:852-861 [MapView::operator\[\]]: comparing reads the key's buffer. *)
Fixpoint MapView_at (mem : memory) (items : list (view * obj)) (key : bytes) : outcome obj :=
  match items with
  | [] => Ok ONull
  | (v, o) :: l =>
      k <- read_view mem v ;;
      if bytes_eqb k key then Ok o else MapView_at mem l key
  end.

(** object.h:717-726 [Map::Get]: moves the value out, leaving a null pointer and
    [size_] unchanged.  Returns the value and the map afterwards. *)
Fixpoint Map_take (items : list (bytes * obj)) (key : bytes) : obj * list (bytes * obj) :=
  match items with
  | [] => (ONull, [])
  | (k, o) :: l =>
      if bytes_eqb k key then (o, (k, ONull) :: l)
      else let (r, l') := Map_take l key in (r, (k, o) :: l')
  end.

(** object.h:932-941 [MapView::Get]. *)
Fixpoint MapView_take (mem : memory) (items : list (view * obj)) (key : bytes)
  : outcome (obj * list (view * obj)) :=
  match items with
  | [] => Ok (ONull, [])
  | (v, o) :: l =>
      k <- read_view mem v ;;
      if bytes_eqb k key then Ok (o, (v, ONull) :: l)
      else '(r, l') <- MapView_take mem l key ;; Ok (r, (v, o) :: l')
  end.

(** ** Serialization *)

(** The mutable arguments of [valueSeri]: outer, map, si (null = None). *)
(* object.h:228, 346, 583, 759, 880. *)
Record sstate := { outer : bytes; smap : option (string_map bytes); sinfo : option split_info }.

(* outer.append / push_back, for example object.h:415; serialize.h:70, 78, 140. *)
Definition with_outer (st : sstate) (b : bytes) : sstate :=
  {| outer := b; smap := smap st; sinfo := sinfo st |}.

(* seriLength, serialize.h:72-79, called at object.h:388, 402, 414, 418. *)
Definition st_seriLength (c : cfg) (n : N) (st : sstate) : outcome sstate :=
  b <- seriLength c n (outer st) ;; Ok (with_outer st b).

(** serialize.h:68-70 [seriDataType], 133-141 [seriObjectType]. *)
Definition st_push (n : N) (st : sstate) : sstate := with_outer st (outer st ++ [n2b n]).

(** serialize.h:91-112 [seriData(dt, const bridge_variant&, outer)]. *)
Definition seriData (c : cfg) (dt : N) (s : store) (st : sstate) : outcome sstate :=
  if (dt =? BRIDGE_BYTES) || (dt =? BRIDGE_CUSTOM) then
    tmp <- get_vec s ;;
    st1 <- st_seriLength c (len tmp) st ;;
    Ok (with_outer st1 (outer st1 ++ tmp))
  else if dt =? BRIDGE_STRING then
    tmp <- get_str s ;;
    st1 <- st_seriLength c (len tmp) st ;;
    Ok (with_outer st1 (outer st1 ++ tmp))
  else match num_of_dt dt with
  | Some t =>
      n <- get_num t s ;;
      st1 <- st_seriLength c (sizeof_num t) st ;;
      Ok (with_outer st1 (outer st1 ++ num_to_wire c (sizeof_num t) n))
  | None => Throw ERuntime
  end.

(** serialize.h:114-131 [seriData(dt, const bridge_view_variant&, outer)]. *)
Definition seriData_view (c : cfg) (mem : memory) (dt : N) (s : store) (st : sstate)
  : outcome sstate :=
  if (dt =? BRIDGE_BYTES) || (dt =? BRIDGE_STRING) then
    v <- get_view s ;;
    st1 <- st_seriLength c (v_len v) st ;;
    tmp <- read_view mem v ;;
    Ok (with_outer st1 (outer st1 ++ tmp))
  else match num_of_dt dt with
  | Some t =>
      n <- get_num t s ;;
      st1 <- st_seriLength c (sizeof_num t) st ;;
      Ok (with_outer st1 (outer st1 ++ num_to_wire c (sizeof_num t) n))
  | None => Throw ERuntime
  end.

(** object.h:228-239 [Data::valueSeri] (the result flag [need_to_split] is false). *)
Definition Data_valueSeri (c : cfg) (dt : N) (s : store) (st : sstate) : outcome sstate :=
  if negb (valid_data_type dt) then Throw ERuntime
  else
    let st1 := st_push dt st in
    match smap st with
    | Some m =>
        if dt =? BRIDGE_STRING then
          str <- get_str s ;;
          let (id, m') := RegisterIdFromString str m in
          st_seriLength c id {| outer := outer st1; smap := Some m'; sinfo := sinfo st1 |}
        else seriData c dt s st1
    | None => seriData c dt s st1
    end.

(** object.h:346-356 [DataView::valueSeri]. *)
Definition DataView_valueSeri (c : cfg) (mem : memory) (dt : N) (s : store) (st : sstate)
  : outcome sstate :=
  if negb (valid_data_type dt) then Throw ERuntime
  else
    let st1 := st_push dt st in
    match smap st with
    | Some m =>
        if dt =? BRIDGE_STRING then
          v <- get_view s ;;
          str <- read_view mem v ;;
          let (id, m') := RegisterIdFromString str m in
          st_seriLength c id {| outer := outer st1; smap := Some m'; sinfo := sinfo st1 |}
        else seriData_view c mem dt s st1
    | None => seriData_view c mem dt s st1
    end.

(** object.h:395-404 [seri_split_id]. *)
Definition seri_split_id (c : cfg) (st : sstate) : outcome (N * sstate) :=
  let (id, st1) :=
    match sinfo st with
    | Some si => let (id, si') := RequestId si in
                 (id, {| outer := outer st; smap := smap st; sinfo := Some si' |})
    | None => (0, st)
    end in
  st2 <- st_seriLength c id st1 ;;
  Ok (id, st2).

(** object.h:409-420 [seri_key]. *)
Definition seri_key (c : cfg) (key : bytes) (st : sstate) : outcome sstate :=
  match smap st with
  | None =>
      st1 <- st_seriLength c (u32 (len key)) st ;;
      Ok (with_outer st1 (outer st1 ++ key))
  | Some m =>
      let (id, m') := RegisterIdFromString key m in
      st_seriLength c id {| outer := outer st; smap := Some m'; sinfo := sinfo st |}
  end.

(** [outer\[position\] |= 0x80]. *)
(* object.h:454. *)
Definition set_msb (position : nat) (b : bytes) : bytes :=
  match skipn position b with
  | x :: r => firstn position b ++ n2b (N.lor (b2n x) 128) :: r
  | [] => b
  end.

(** object.h:446-457 [seri_child]; [valueSeri] is the dispatched call on [cur]. *)
Definition seri_child (c : cfg) (cur : obj)
    (valueSeri : sstate -> outcome (sstate * bool)) (st : sstate) : outcome sstate :=
  let object_type_position := length (outer st) in
  t <- GetType cur ;;
  let st1 := st_push (ObjectTypeToChar t) st in
  '(st2, child_need_to_split) <- valueSeri st1 ;;
  if child_need_to_split : bool then
    if negb (ndebug c) && (ObjectTypeToChar t =? ObjectTypeToChar TData) then Abort
    else Ok (with_outer st2 (set_msb object_type_position (outer st2)))
  else Ok st2.

(** object.h:591-598 = 769-776 = 891-897: after each child, cut a block once it
    reaches the split size.  [push_back] to [vector<uint32_t>] truncates. *)
Definition cut_block (c : cfg) (st : sstate) (current_size : N) (blocks : list N) : N * list N :=
  match sinfo st with
  | Some _ =>
      let tmp_size := len (outer st) in
      if split_block_size c <=? sub64 tmp_size current_size
      then (tmp_size, blocks ++ [u32 (sub64 tmp_size current_size)])
      else (current_size, blocks)
  | None => (current_size, blocks)
  end.

(** object.h:588-600 = 765-778 = 886-899: the loop over the children.
    [seri_item] serializes one element (for maps: key, then value). *)
Definition seri_items (c : cfg) {I : Type} (seri_item : I -> sstate -> outcome sstate) :=
  fix loop (l : list I) (st : sstate) (current_size : N) (blocks : list N)
    : outcome (sstate * N * list N) :=
    match l with
    | [] => Ok (st, current_size, blocks)
    | x :: l' =>
        st1 <- seri_item x st ;;
        let (cs, bl) := cut_block c st1 current_size blocks in
        loop l' st1 cs bl
    end.

(** object.h:601-604 = 779-782 = 900-903: the last block. *)
Definition last_block (st : sstate) (current_size : N) (blocks : list N) : list N :=
  match sinfo st with
  | Some _ =>
      let rest := sub64 (len (outer st)) current_size in
      if 0 <? rest then blocks ++ [u32 rest] else blocks
  | None => blocks
  end.

(** object.h:479-487 [register_split_info]. *)
Definition register_split_info (c : cfg) (id : N) (blocks : list N) (st : sstate) : sstate * bool :=
  match sinfo st with
  | Some si =>
      match blocks with
      | [] => (st, false)
      | b0 :: _ =>
          if (2 <=? len blocks) || (split_block_size c <=? last blocks b0)
          then ({| outer := outer st; smap := smap st;
                   sinfo := Some (RegisterSplitInfo id blocks si) |}, true)
          else (st, false)
      end
  | None => (st, false)
  end.

(** object.h:583-606 (Array), 759-784 (Map), 880-905 (MapView): the common shape
    of the three container [valueSeri] methods. *)
Definition container_valueSeri (c : cfg) {I : Type} (size : N)
    (seri_item : I -> sstate -> outcome sstate) (items : list I) (st : sstate)
  : outcome (sstate * bool) :=
  st1 <- st_seriLength c (u32 size) st ;;                        (* seri_count, 386-389 *)
  '(split_info_id, st2) <- seri_split_id c st1 ;;
  '(st3, current_size, blocks) <- seri_items c seri_item items st2 (len (outer st2)) [] ;;
  Ok (register_split_info c split_info_id (last_block st3 current_size blocks) st3).

(** object.h:988-992 [Object::valueSeri] with BRIDGE_DISPATCH (965-980). *)
Fixpoint valueSeri (c : cfg) (mem : memory) (o : obj) (st : sstate) {struct o}
  : outcome (sstate * bool) :=
  match o with
  | ONull => UB
  | OData dt s => st1 <- Data_valueSeri c dt s st ;; Ok (st1, false)
  | ODataView dt s => st1 <- DataView_valueSeri c mem dt s st ;; Ok (st1, false)
  | OArray _ size items =>
      container_valueSeri c size
        (fun child st => seri_child c child (valueSeri c mem child) st) items st
  | OMap _ size items =>
      container_valueSeri c size
        (fun '(key, child) st =>
           st1 <- seri_key c key st ;;
           seri_child c child (valueSeri c mem child) st1) items st
  | OMapView _ size items =>
      container_valueSeri c size
        (fun '(key, child) st =>
           k <- read_view mem key ;;
           st1 <- seri_key c k st ;;
           seri_child c child (valueSeri c mem child) st1) items st
  end.

(** ** Top level (object.h:1574-1677) *)

(** object.h:1574-1577. *)
Inductive SeriType := NORMAL | REPLACE.
(* object.h:1574-1579. *)
Definition SeriTypeToChar (t : SeriType) : N := match t with NORMAL => 0 | REPLACE => 1 end.

(** object.h:1581-1589 [SeriTotalSizeToOuter]: overwrite the first 8 bytes. *)
Definition SeriTotalSizeToOuter (c : cfg) (total_size : N) (outer : bytes) : outcome bytes :=
  if len outer <? 8 then Throw ERuntime
  else Ok (num_to_wire c 8 total_size ++ skipn 8 outer).

(** object.h:1602-1609 [SuffixSecondary]. *)
Definition SuffixSecondary (c : cfg) (content secondary_str : bytes) : outcome bytes :=
  r <- seriLength c (len secondary_str) content ;;
  Ok (r ++ secondary_str).

(** The key "root" (object.h:1625, 1647, 1781, 1817). *)
Definition root_key : bytes := map n2b [114; 111; 111; 116].

(** object.h:1622-1641 [SerializeNormal] and 1643-1668 [SerializeReplace].
    [p] is the pool argument (only used to build the root map). *)
Definition Serialize (c : cfg) (mem : memory) (type : SeriType) (p : pool) (o : obj)
  : outcome bytes :=
  let root := OMap p 1 [(root_key, o)] in
  let ret := repeat x00 8 ++ [n2b (SeriTypeToChar type)] ++ [x00] in
  let sm := match type with NORMAL => None | REPLACE => Some sm_empty end in
  '(st, need_to_split) <- valueSeri c mem root {| outer := ret; smap := sm; sinfo := Some si_empty |} ;;
  let out := if need_to_split : bool
             then firstn 9 (outer st) ++ n2b 10 :: skipn 10 (outer st)   (* ret[9] = 0x0A *)
             else outer st in
  out1 <- SeriTotalSizeToOuter c (len out) out ;;
  out2 <- match smap st with
          | Some m => s <- StringMap_Serialize c m ;; SuffixSecondary c out1 s
          | None => Ok out1
          end ;;
  match sinfo st with
  | Some si => s <- SplitInfo_Serialize c si ;; SuffixSecondary c out2 s
  | None => UB (* unreachable: si is never null here *)
  end.
