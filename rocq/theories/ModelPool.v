(** * Model of object_pool.h: Block, ObjectPool and the buffers they own. *)
From Verif Require Import Base.
Local Open Scope out_scope.

(** A slot: the buffer it lies in and its index there.  Buffers are numbered in
    the order of their allocation; [aligned_alloc] returns memory disjoint from
    every other allocation, so different numbers are different memory, and slots
    with different indices do not overlap (their byte offsets are multiples of
    [sizeof(T)]).  (Simplification: [aligned_alloc] does not fail.) *)
(* buf_ + i * sizeof(T), object_pool.h:37, 67-70. *)
Definition slot_id : Type := nat * N.

(** What happens to memory, in order. *)
(* aligned_alloc object_pool.h:51, placement new 68, ~T() 38, free 78. *)
Inductive event :=
| EvBuffer (b : nat) (capacity : N)   (* aligned_alloc *)
| EvConstruct (s : slot_id)           (* placement new T *)
| EvDestroy (s : slot_id)             (* ~T() *)
| EvFree (b : nat).                   (* free *)

(** object_pool.h:46-88 [Block<T>]: [buf_] (null = None), [top_], [capacity_]. *)
Record block := { b_buf : option nat; b_top : N; b_cap : N }.

(** object_pool.h:49-53 [Block(size_t capacity)]; [fresh] numbers the buffer. *)
Definition Block_new (fresh : nat) (capacity : N) : block * list event :=
  if 0 <? capacity then ({| b_buf := Some fresh; b_top := 0; b_cap := capacity |}, [EvBuffer fresh capacity])
  else ({| b_buf := None; b_top := 0; b_cap := capacity |}, []).

(** object_pool.h:55 [Block(Block&&)]: the new block, and what is left of the old. *)
Definition Block_move (other : block) : block * block :=
  ({| b_buf := b_buf other; b_top := b_top other; b_cap := b_cap other |},
   {| b_buf := None; b_top := b_top other; b_cap := b_cap other |}).

(** object_pool.h:60 [Full]. *)
Definition Full (b : block) : bool := b_top b =? b_cap b.

(** object_pool.h:62-71 [Block::Alloc]: [None] is [nullptr]; constructing in a null
    or exhausted buffer is undefined.  [throws]: T's constructor throws. *)
Definition Block_Alloc (throws : bool) (b : block) : outcome (option slot_id * block * list event * bool) :=
  if Full b then Ok (None, b, [], false)
  else match b_buf b with
  | None => UB
  | Some buf =>
      if b_top b <? b_cap b then
        if throws then Ok (None, b, [], true)
        else Ok (Some (buf, b_top b), {| b_buf := b_buf b; b_top := u64 (b_top b + 1); b_cap := b_cap b |},
                 [EvConstruct (buf, b_top b)], false)
      else UB
  end.

(* 0, ..., n-1: the loop index of object_pool.h:36. *)
Fixpoint upto (n : nat) : list N := match n with O => [] | S m => upto m ++ [N.of_nat m] end.

(** object_pool.h:33-44 [destructor_proxy<T>]; [rd] = require_destruct<T>. *)
Definition destructor_proxy (rd : bool) (buf : nat) (top : N) : list event :=
  if rd then map (fun i => EvDestroy (buf, i)) (upto (N.to_nat top)) else [].

(** object_pool.h:73-82 [~Block]. *)
Definition Block_dtor (rd : bool) (b : block) : list event :=
  match b_buf b with
  | None => []
  | Some buf => destructor_proxy rd buf (b_top b) ++ [EvFree buf]
  end.

(** [std::vector<Block<T>>]: elements and capacity.  [emplace_back] grows by
    doubling: every element is move-constructed into the new storage and the old
    one destroyed; then the new element is move-constructed from its argument. *)
(* std::vector<Block<T>> blocks_, object_pool.h:125. *)
Record blocks := { v_elems : list block; v_capacity : nat }.

(* Growth of blocks_ inside push_back / emplace_back, object_pool.h:112, 119, by the move constructor 55. *)
Definition relocate (rd : bool) (l : list block) : list block * list event :=
  (map (fun b => fst (Block_move b)) l, flat_map (fun b => Block_dtor rd (snd (Block_move b))) l).

(** Returns the vector, what is left of the argument, and the events. *)
(* blocks_.push_back / emplace_back, object_pool.h:112, 119. *)
Definition emplace_back (rd : bool) (v : blocks) (b : block) : blocks * block * list event :=
  let (moved, rest) := Block_move b in
  if (length (v_elems v) <? v_capacity v)%nat then
    ({| v_elems := v_elems v ++ [moved]; v_capacity := v_capacity v |}, rest, [])
  else
    let (old, evs) := relocate rd (v_elems v) in
    ({| v_elems := old ++ [moved]; v_capacity := S (2 * v_capacity v) |}, rest, evs).

(** [vector::clear] / destruction of the elements, first to last. *)
(* blocks_.clear(), object_pool.h:104, 121, with ~Block 73-82. *)
Definition clear_events (rd : bool) (l : list block) : list event := flat_map (Block_dtor rd) l.

(** object_pool.h:97 [ObjectPool()] with [reserve(4)]. *)
Definition Pool_new : blocks := {| v_elems := []; v_capacity := 4 |}.

(** object_pool.h:104 [Clear]. *)
Definition Pool_Clear (rd : bool) (v : blocks) : blocks * list event :=
  ({| v_elems := []; v_capacity := v_capacity v |}, clear_events rd (v_elems v)).

(** object_pool.h:108-109 the capacity of the next block. *)
Definition capacity_array : list N := [2; 16; 128; 1024; 4096; 10240].
(* object_pool.h:108-111. *)
Definition next_capacity (n : nat) : N :=
  if (n <? length capacity_array)%nat then nth n capacity_array 0 else nth (length capacity_array - 1) capacity_array 0.

(* blocks_.empty() or blocks_.back().Full(), object_pool.h:110. *)
Definition last_full (v : blocks) : bool :=
  match rev (v_elems v) with [] => true | b :: _ => Full b end.

(** object_pool.h:106-115 [ObjectPool::Alloc].  The temporary [Block<T>(capacity)]
    is moved from and destroyed.  Returns the slot (None = nullptr), the pool, the
    events and whether an exception leaves. *)
Definition Pool_Alloc (rd throws : bool) (fresh : nat) (v : blocks)
  : outcome (option slot_id * blocks * list event * bool) :=
  let (v1, evs) :=
    if last_full v then
      let (tmp, evs1) := Block_new fresh (next_capacity (length (v_elems v))) in
      let '(v1, tmp', evs2) := emplace_back rd v tmp in
      (v1, evs1 ++ evs2 ++ Block_dtor rd tmp')
    else (v, [])
  in
  match rev (v_elems v1) with
  | [] => UB
  | b :: before =>
      '(r, b', evs', e) <- Block_Alloc throws b ;;
      Ok (r, {| v_elems := rev (b' :: before); v_capacity := v_capacity v1 |}, evs ++ evs', e)
  end.

(** object_pool.h:117-122 [Merge(ObjectPool&& other)], [other] being another pool.
    Returns this pool, the other one and the events. *)
Fixpoint merge_loop (rd : bool) (v : blocks) (l : list block) : blocks * list block * list event :=
  match l with
  | [] => (v, [], [])
  | each :: l' =>
      let '(v1, each', evs) := emplace_back rd v each in
      let '(v2, rest, evs') := merge_loop rd v1 l' in
      (v2, each' :: rest, evs ++ evs')
  end.
(* object_pool.h:117-122. *)
Definition Pool_Merge (rd : bool) (v other : blocks) : blocks * blocks * list event :=
  let '(v1, rest, evs) := merge_loop rd v (v_elems other) in
  (v1, {| v_elems := []; v_capacity := v_capacity other |}, evs ++ clear_events rd rest).

(** ** A program using any number of pools of one type *)

(* Objects of class ObjectPool, object_pool.h:94-126; numbers and trace are ghosts. *)
Record pworld := {
  w_pools : list (option blocks);   (* by pool number; None = destroyed *)
  w_fresh : nat;                    (* next buffer number *)
  w_trace : list event              (* everything that has happened, oldest first *)
}.

(* object_pool.h:97, 99-100, 102, 104, 106-115, 117-122. *)
Inductive pool_op :=
| OpNew                             (* ObjectPool p; *)
| OpAlloc (i : nat) (throws : bool) (* p_i.Alloc(...) *)
| OpMerge (i j : nat)               (* p_i.Merge(std::move(p_j)) *)
| OpClear (i : nat)                 (* p_i.Clear() *)
| OpMoveNew (j : nat)               (* ObjectPool p(std::move(p_j)); *)
| OpMoveAssign (i j : nat)          (* p_i = std::move(p_j); *)
| OpDestroy (i : nat).              (* p_i goes out of scope *)

(* The result of Alloc, object_pool.h:63-71, 107-115. *)
Inductive pool_result := RNone | RSlot (s : slot_id) | RNull | RThrow.

(* Overwriting one element of a list; helper for the pools of object_pool.h:94-126. *)
Fixpoint put {A} (n : nat) (x : A) (l : list A) : list A :=
  match n, l with
  | _, [] => []
  | O, _ :: l' => x :: l'
  | S n', y :: l' => y :: put n' x l'
  end.

(* Use of a pool that is alive; a destroyed one (object_pool.h:102) is undefined. *)
Definition get_pool (w : pworld) (i : nat) : outcome blocks :=
  match nth_error (w_pools w) i with Some (Some v) => Ok v | _ => UB end.

(** One step.  Using a destroyed pool, and merging or move-assigning a pool into
    itself, are undefined.  97-98: the defaulted moves take the vector and leave an
    empty one; move assignment first destroys what the target held. *)
(* One call of object_pool.h:97-122. *)
Definition pool_step (rd : bool) (w : pworld) (op : pool_op) : outcome (pworld * pool_result) :=
  match op with
  | OpNew =>
      Ok ({| w_pools := w_pools w ++ [Some Pool_new]; w_fresh := w_fresh w; w_trace := w_trace w |}, RNone)
  | OpAlloc i throws =>
      v <- get_pool w i ;;
      '(r, v', evs, e) <- Pool_Alloc rd throws (w_fresh w) v ;;
      Ok ({| w_pools := put i (Some v') (w_pools w); w_fresh := S (w_fresh w); w_trace := w_trace w ++ evs |},
          if e : bool then RThrow else match r with Some s => RSlot s | None => RNull end)
  | OpMerge i j =>
      v <- get_pool w i ;; other <- get_pool w j ;;
      if Nat.eqb i j then UB
      else
        let '(v', other', evs) := Pool_Merge rd v other in
        Ok ({| w_pools := put j (Some other') (put i (Some v') (w_pools w)); w_fresh := w_fresh w; w_trace := w_trace w ++ evs |}, RNone)
  | OpClear i =>
      v <- get_pool w i ;;
      let (v', evs) := Pool_Clear rd v in
      Ok ({| w_pools := put i (Some v') (w_pools w); w_fresh := w_fresh w; w_trace := w_trace w ++ evs |}, RNone)
  | OpMoveNew j =>
      other <- get_pool w j ;;
      Ok ({| w_pools := put j (Some {| v_elems := []; v_capacity := 0 |}) (w_pools w) ++ [Some other];
             w_fresh := w_fresh w; w_trace := w_trace w |}, RNone)
  | OpMoveAssign i j =>
      v <- get_pool w i ;; other <- get_pool w j ;;
      if Nat.eqb i j then UB
      else Ok ({| w_pools := put j (Some {| v_elems := []; v_capacity := 0 |}) (put i (Some other) (w_pools w));
                  w_fresh := w_fresh w; w_trace := w_trace w ++ clear_events rd (v_elems v) |}, RNone)
  | OpDestroy i =>
      v <- get_pool w i ;;
      Ok ({| w_pools := put i None (w_pools w); w_fresh := w_fresh w;
             w_trace := w_trace w ++ snd (Pool_Clear rd v) |}, RNone)
  end.

(* A sequence of calls (object_pool.h:97-122); no counterpart of its own. *)
Fixpoint pool_run (rd : bool) (w : pworld) (ops : list pool_op) : outcome (pworld * list pool_result) :=
  match ops with
  | [] => Ok (w, [])
  | op :: ops' =>
      '(w1, r) <- pool_step rd w op ;;
      '(w2, rs) <- pool_run rd w1 ops' ;;
      Ok (w2, r :: rs)
  end.

(* Before any ObjectPool (object_pool.h:97) exists. *)
Definition pworld0 : pworld := {| w_pools := []; w_fresh := 0; w_trace := [] |}.
