(** * Model of serialize.h (length primitives), inner.h, the reading primitives
    of parse.h, string_map.h and split_info.h. *)
From Verif Require Import Base ModelVarint ModelData.
Local Open Scope out_scope.

(** ** Writing *)

(** serialize.h:72-79 [seriLength(uint32_t length, Outer&)]: the argument is
    truncated to 32 bits by the call. *)
Definition seriLength (c : cfg) (length : N) (outer : bytes) : outcome bytes :=
  b <- varint_encode c (u32 length) 128 ;;
  Ok (outer ++ b).

(** ** Reading *)

(** inner.h:11-35 [InnerWrapper] over the part [\[base, base+size)] of a buffer,
    plus the [offset] that callers maintain beside [current_index_]. *)
Record renv := { r_cfg : cfg; r_content : bytes; r_base : N; r_size : N }.
(* current_index_, inner.h:34, and the caller's offset, parse.h:24, 50, 103, 117. *)
Record rstate := { idx : N; off : N }.

(** inner.h:15-20 [curAddr]: absolute index in the buffer. *)
Definition curAddr (E : renv) (s : rstate) : outcome N :=
  if r_size E <=? idx s then Throw ERuntime else Ok (r_base E + idx s).

(** inner.h:22 [ssize_t remain() const { return str_.size() - current_index_; }]. *)
Definition remain (E : renv) (s : rstate) : Z := to_int64 (sub64 (r_size E) (idx s)).

(** inner.h:24 [skip]; the callers add the same amount to [offset]. *)
Definition skip (n : N) (s : rstate) : rstate := {| idx := u64 (idx s + n); off := off s |}.
(* offset += ..., parse.h:31, 55, 108, 122; object.h:223, 341, 435, 1418, 1482. *)
Definition add_off (n : N) (s : rstate) : rstate := {| idx := idx s; off := u64 (off s + n) |}.

(** inner.h:30 and 37-40 [BRIDGE_CHECK_OOR]. *)
Definition check_oor (E : renv) (s : rstate) : outcome unit :=
  if r_size E <? idx s then Throw ERuntime else Ok tt.

(** inner.h:42-45 [BRIDGE_CHECK_EMPTY]. *)
Definition check_empty (E : renv) (s : rstate) : outcome unit :=
  if (remain E s <=? 0)%Z then Throw ERuntime else Ok tt.

(** parse.h:23-33 [parseLength(const Inner&, size_t&)].  [inner.remain()] is
    converted to the [int] parameter of [varint_decode]. *)
Definition parseLength (E : renv) (s : rstate) : outcome (N * rstate) :=
  _ <- check_empty E s ;;
  a <- curAddr E s ;;
  '(tmp, n) <- varint_decode (r_cfg E) (r_content E) a (to_int32 (remain E s)) ;;
  let s1 := skip n s in
  _ <- check_oor E s1 ;;
  Ok (tmp, add_off n s1).

(** parse.h:35-47 [parseLength(const std::string&, size_t offset, char& skip)]. *)
Definition parseLength_str (c : cfg) (content : bytes) (offset : N) : outcome (N * N) :=
  if len content <=? offset then Throw ERuntime
  else
    '(tmp, n) <- varint_decode c content offset
                   (to_int32 (to_int64 (sub64 (len content) offset))) ;;
    if len content <? u64 (offset + n) then Throw ERuntime
    else Ok (tmp, n).

(** parse.h:49-57 [parseDataType]. *)
Definition parseDataType (E : renv) (s : rstate) : outcome (N * rstate) :=
  _ <- check_empty E s ;;
  a <- curAddr E s ;;
  b <- read_byte (r_content E) a ;;
  let s1 := skip 1 s in
  _ <- check_oor E s1 ;;
  Ok (b2n b, add_off 1 s1).

(** parse.h:117-135 [parseObjectType(inner, offset, need_to_split)]. *)
Definition parseObjectType_split (E : renv) (s : rstate) : outcome (objtype * bool * rstate) :=
  _ <- check_empty E s ;;
  a <- curAddr E s ;;
  b <- read_byte (r_content E) a ;;
  let s1 := skip 1 s in
  _ <- check_oor E s1 ;;
  let s2 := add_off 1 s1 in
  let need_to_split := negb (N.shiftr (N.land (b2n b) 128) 1 =? 0) in
  match CharToObjectType (N.land (b2n b) 127) with
  | None => Throw ERuntime
  | Some t => Ok (t, need_to_split, s2)
  end.

(** parse.h:102-115 [parseObjectType(inner, offset)]. *)
Definition parseObjectType (E : renv) (s : rstate) : outcome (objtype * rstate) :=
  _ <- check_empty E s ;;
  a <- curAddr E s ;;
  b <- read_byte (r_content E) a ;;
  let s1 := skip 1 s in
  _ <- check_oor E s1 ;;
  let s2 := add_off 1 s1 in
  match CharToObjectType (N.land (b2n b) 127) with
  | None => Throw ERuntime
  | Some t => Ok (t, s2)
  end.

(** ** StringMap (string_map.h).

    [K] is how a key is represented: the bytes themselves on the writing side, a
    view into the document on the reading side.  [map_] is kept in insertion
    order; the order in which it is iterated is [hash_order c]. *)
(* string_map.h:83-86. *)
Record string_map (K : Type) := {
  sm_map : list (K * N);                  (* map_ *)
  sm_re : option (list (N * K));          (* re_map_, nullptr = None *)
  sm_next : N                             (* next_id_ *)
}.
Arguments sm_map {K} _.
Arguments sm_re {K} _.
Arguments sm_next {K} _.
Arguments Build_string_map {K} _ _ _.

(** string_map.h:19. *)
Definition sm_empty {K} : string_map K := Build_string_map [] None 0.

(* find / count / at of std::unordered_map, string_map.h:26, 40, split_info.h:36, 38, 68. *)
Fixpoint assoc_find {K V} (eqb : K -> K -> bool) (k : K) (l : list (K * V)) : option V :=
  match l with
  | [] => None
  | (k', v) :: l' => if eqb k k' then Some v else assoc_find eqb k l'
  end.

(** [m\[k\] = v] on an association list without duplicate keys. *)
(* operator[] = of std::unordered_map, string_map.h:30, 49, split_info.h:32, 34. *)
Fixpoint assoc_set {K V} (eqb : K -> K -> bool) (k : K) (v : V) (l : list (K * V)) : list (K * V) :=
  match l with
  | [] => [(k, v)]
  | (k', v') :: l' => if eqb k k' then (k, v) :: l' else (k', v') :: assoc_set eqb k v l'
  end.

(** string_map.h:25-34 [RegisterIdFromString].  [re_map_] is not touched. *)
Definition RegisterIdFromString (str : bytes) (m : string_map bytes) : N * string_map bytes :=
  match assoc_find bytes_eqb str (sm_map m) with
  | Some id => (id, m)
  | None =>
      (sm_next m,
       Build_string_map (sm_map m ++ [(str, sm_next m)]) (sm_re m) (u32 (sm_next m + 1)))
  end.

(** string_map.h:46-51 [buildReMap]. *)
Definition buildReMap {K} {H : Hashable K} (c : cfg) (m : string_map K) : list (N * K) :=
  fold_left (fun re each => assoc_set N.eqb (snd each) (fst each) re) (hash_order c (sm_map m)) [].

(** string_map.h:36-44 [GetStr]: builds the table on first use. *)
Definition GetStr {K} {H : Hashable K} (c : cfg) (id : N) (m : string_map K) : outcome (K * string_map K) :=
  let re := match sm_re m with Some re => re | None => buildReMap c m end in
  match assoc_find N.eqb id re with
  | None => Throw ERuntime
  | Some k => Ok (k, Build_string_map (sm_map m) (Some re) (sm_next m))
  end.

(** string_map.h:58-63, the loop of [Serialize]. *)
Fixpoint sm_serialize_loop (c : cfg) (l : list (bytes * N)) (ret : bytes) : outcome bytes :=
  match l with
  | [] => Ok ret
  | (k, id) :: l' =>
      r1 <- seriLength c (u32 (len k)) ret ;;
      r2 <- seriLength c id (r1 ++ k) ;;
      sm_serialize_loop c l' r2
  end.

(** string_map.h:53-65 [Serialize]. *)
Definition StringMap_Serialize (c : cfg) (m : string_map bytes) : outcome bytes :=
  r <- seriLength c (u32 (len (sm_map m))) [] ;;
  sm_serialize_loop c (hash_order c (sm_map m)) r.

(** Contents of a view into the document being parsed. *)
(* Reading through a string_view made at object.h:432, 1480 or string_map.h:74. *)
Definition read_local (E : renv) (v : view) : outcome bytes :=
  read_range (r_content E) (v_off v) (v_len v).

(** [map_.find(str)] on the reading side compares (and hashes) the characters;
    the stored views have been read successfully when they were inserted. *)
(* map_.insert at string_map.h:78 looks the key up first. *)
Fixpoint view_find (E : renv) (s : bytes) (l : list (view * N)) : outcome (option N) :=
  match l with
  | [] => Ok None
  | (v, id) :: l' =>
      b <- read_local E v ;;
      if bytes_eqb s b then Ok (Some id) else view_find E s l'
  end.

(** string_map.h:72-79, the loop of [Construct].  [insert] keeps an existing
    entry.  [auto key_length] is a [uint64_t]. *)
Fixpoint sm_construct_loop (E : renv) (buf : nat) (fuel : nat) (count : N) (s : rstate)
    (acc : list (view * N)) : outcome (list (view * N)) :=
  match fuel with
  | O => Fuel
  | S f =>
      if count =? 0 then Ok acc
      else
        '(key_length, s1) <- parseLength E s ;;
        a <- curAddr E s1 ;;
        let v := {| v_buf := buf; v_off := a; v_len := key_length |} in
        let s2 := skip key_length (add_off key_length s1) in
        '(id, s3) <- parseLength E s2 ;;
        k <- read_local E v ;;
        found <- view_find E k acc ;;
        let acc' := match found with Some _ => acc | None => acc ++ [(v, u32 id)] end in
        sm_construct_loop E buf f (count - 1) s3 acc'
  end.

(** string_map.h:67-81 [Construct].  The reader is positioned at 0 of a view. *)
Definition StringMap_Construct (E : renv) (buf : nat) (fuel : nat) : outcome (string_map view) :=
  '(count, s) <- parseLength E {| idx := 0; off := 0 |} ;;
  l <- sm_construct_loop E buf fuel (u32 count) s [] ;;
  Ok (Build_string_map l None 0).

(** ** SplitInfo (split_info.h). *)
(* split_info.h:79-81. *)
Record split_info := {
  si_info : list (N * list N);            (* info_ *)
  si_next : N                             (* next_id_ *)
}.

(** split_info.h:18. *)
Definition si_empty : split_info := {| si_info := []; si_next := 1 |}.

(** split_info.h:24-28 [RequestId]. *)
Definition RequestId (si : split_info) : N * split_info :=
  (si_next si, {| si_info := si_info si; si_next := u32 (si_next si + 1) |}).

(** split_info.h:32-34 [RegisterSplitInfo]. *)
Definition RegisterSplitInfo (id : N) (info : list N) (si : split_info) : split_info :=
  {| si_info := assoc_set N.eqb id info (si_info si); si_next := si_next si |}.

(** split_info.h:36 [info_.at(id)]. *)
Definition GetBlockInfoFromId (si : split_info) (id : N) : outcome (list N) :=
  match assoc_find N.eqb id (si_info si) with
  | Some l => Ok l
  | None => Throw EOutOfRange
  end.

(** split_info.h:38 [Find]. *)
Definition si_Find (si : split_info) (id : N) : bool :=
  match assoc_find N.eqb id (si_info si) with Some _ => true | None => false end.

(** split_info.h:48-50: the block sizes. *)
Fixpoint seri_numbers (c : cfg) (l : list N) (ret : bytes) : outcome bytes :=
  match l with
  | [] => Ok ret
  | n :: l' => r <- seriLength c n ret ;; seri_numbers c l' r
  end.

(** split_info.h:44-51, the loop of [Serialize].  [uint32_t count] truncates the
    number of blocks; only [count] of them are written. *)
Fixpoint si_serialize_loop (c : cfg) (l : list (N * list N)) (ret : bytes) : outcome bytes :=
  match l with
  | [] => Ok ret
  | (id, blocks) :: l' =>
      r1 <- seriLength c id ret ;;
      let count := u32 (len blocks) in
      r2 <- seriLength c count r1 ;;
      r3 <- seri_numbers c (firstn (N.to_nat count) blocks) r2 ;;
      si_serialize_loop c l' r3
  end.

(** split_info.h:40-53 [Serialize]. *)
Definition SplitInfo_Serialize (c : cfg) (si : split_info) : outcome bytes :=
  r <- seriLength c (u32 (len (si_info si))) [] ;;
  si_serialize_loop c (hash_order c (si_info si)) r.

(** split_info.h:64-67. *)
Fixpoint parse_numbers (E : renv) (fuel : nat) (count : N) (s : rstate) (acc : list N)
  : outcome (list N * rstate) :=
  match fuel with
  | O => Fuel
  | S f =>
      if count =? 0 then Ok (acc, s)
      else '(tmp, s1) <- parseLength E s ;;
           parse_numbers E f (count - 1) s1 (acc ++ [u32 tmp])
  end.

(** split_info.h:60-75, the loop of [Construct]. *)
Fixpoint si_construct_loop (E : renv) (fuel : nat) (count : N) (s : rstate) (acc : split_info)
  : outcome split_info :=
  match fuel with
  | O => Fuel
  | S f =>
      if count =? 0 then Ok acc
      else
        '(id0, s1) <- parseLength E s ;;
        let id := u32 id0 in
        '(blocks, s2) <- parseLength E s1 ;;
        '(block_info, s3) <- parse_numbers E f (u32 blocks) s2 [] ;;
        match assoc_find N.eqb id (si_info acc) with
        | Some _ => Throw ERuntime
        | None =>
            let acc' :=
              {| si_info := si_info acc ++ [(id, block_info)];
                 si_next := if si_next acc <=? id then u32 (id + 1) else si_next acc |} in
            si_construct_loop E f (count - 1) s3 acc'
        end
  end.

(** split_info.h:55-77 [Construct]. *)
Definition SplitInfo_Construct (E : renv) (fuel : nat) : outcome split_info :=
  '(count, s) <- parseLength E {| idx := 0; off := 0 |} ;;
  si_construct_loop E fuel (u32 count) s si_empty.
