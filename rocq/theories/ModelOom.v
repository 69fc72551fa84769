(** * object_pool.h when memory runs out.

    ModelPool.v assumes that every request for memory is granted.  Here each call says
    which of its requests fail: [std::aligned_alloc] returns a null pointer
    (object_pool.h:51), or the storage of [blocks_] cannot grow and [std::bad_alloc] is
    thrown (object_pool.h:97, 112, 119). *)
From Verif Require Import Base ModelPool.
Local Open Scope out_scope.

(** [growths = None]: [blocks_] can always grow; [Some n]: [n] times, then it throws. *)
(* No counterpart: the answers of the memory behind object_pool.h:51, 97, 112, 119. *)
Record memory_left := { null_buffer : bool; growths : option nat }.
(* No counterpart: enough memory for everything (object_pool.h:51, 97, 112, 119). *)
Definition plenty : memory_left := {| null_buffer := false; growths := None |}.

(** blocks_.push_back / emplace_back, object_pool.h:112, 119: [None] is [std::bad_alloc],
    which leaves vector and argument as they were.  Also the number of growths left. *)
Definition emplace_back_mem (rd : bool) (g : option nat) (v : blocks) (b : block)
  : option (blocks * block * list event) * option nat :=
  if (length (v_elems v) <? v_capacity v)%nat then (Some (emplace_back rd v b), g)
  else match g with
       | Some O => (None, g)
       | _ => (Some (emplace_back rd v b), option_map pred g)
       end.

(* blocks_.back().Alloc(...), object_pool.h:114. *)
Definition back_Alloc (throws : bool) (v : blocks) (evs : list event)
  : outcome (option slot_id * blocks * list event * bool) :=
  match rev (v_elems v) with
  | [] => UB
  | b :: before =>
      '(r, b', evs', e) <- Block_Alloc throws b ;;
      Ok (r, {| v_elems := rev (b' :: before); v_capacity := v_capacity v |}, evs ++ evs', e)
  end.

(** object_pool.h:106-115 [ObjectPool::Alloc]; an exception from [push_back] destroys the
    temporary block on its way out (73-82). *)
Definition Pool_Alloc_mem (rd throws : bool) (m : memory_left) (fresh : nat) (v : blocks)
  : outcome (option slot_id * blocks * list event * bool) :=
  if last_full v then
    let cap := next_capacity (length (v_elems v)) in
    let (tmp, evs1) :=
      if null_buffer m then ({| b_buf := None; b_top := 0; b_cap := cap |}, []) else Block_new fresh cap in
    match fst (emplace_back_mem rd (growths m) v tmp) with
    | None => Ok (None, v, evs1 ++ Block_dtor rd tmp, true)
    | Some (v1, tmp', evs2) => back_Alloc throws v1 (evs1 ++ evs2 ++ Block_dtor rd tmp')
    end
  else back_Alloc throws v [].

(** object_pool.h:117-122 [Merge]: this pool, what the other one holds, the events, and
    whether [std::bad_alloc] leaves (then 121 is not reached). *)
Fixpoint merge_loop_mem (rd : bool) (g : option nat) (v : blocks) (l : list block)
  : blocks * list block * list event * bool :=
  match l with
  | [] => (v, [], [], false)
  | each :: l' =>
      match emplace_back_mem rd g v each with
      | (None, _) => (v, each :: l', [], true)
      | (Some (v1, each', evs), g') =>
          let '(v2, rest, evs', t) := merge_loop_mem rd g' v1 l' in
          (v2, each' :: rest, evs ++ evs', t)
      end
  end.
(* object_pool.h:117-122. *)
Definition Pool_Merge_mem (rd : bool) (g : option nat) (v other : blocks) : blocks * blocks * list event * bool :=
  let '(v1, rest, evs, t) := merge_loop_mem rd g v (v_elems other) in
  if t : bool then (v1, {| v_elems := rest; v_capacity := v_capacity other |}, evs, true)
  else (v1, {| v_elems := []; v_capacity := v_capacity other |}, evs ++ clear_events rd rest, false).

(** One call; an exception of either kind is [RThrow].  A pool whose constructor throws
    (object_pool.h:97) never exists.  The other calls ask for no memory. *)
(* object_pool.h:97-122. *)
Definition pool_step_mem (rd : bool) (w : pworld) (c : pool_op * memory_left) : outcome (pworld * pool_result) :=
  match fst c with
  | OpNew =>
      match growths (snd c) with
      | Some O => Ok ({| w_pools := w_pools w ++ [None]; w_fresh := w_fresh w; w_trace := w_trace w |}, RThrow)
      | _ => pool_step rd w OpNew
      end
  | OpAlloc i throws =>
      v <- get_pool w i ;;
      '(r, v', evs, e) <- Pool_Alloc_mem rd throws (snd c) (w_fresh w) v ;;
      Ok ({| w_pools := put i (Some v') (w_pools w); w_fresh := S (w_fresh w); w_trace := w_trace w ++ evs |},
          if e : bool then RThrow else match r with Some s => RSlot s | None => RNull end)
  | OpMerge i j =>
      v <- get_pool w i ;; other <- get_pool w j ;;
      if Nat.eqb i j then UB
      else
        let '(v', other', evs, t) := Pool_Merge_mem rd (growths (snd c)) v other in
        Ok ({| w_pools := put j (Some other') (put i (Some v') (w_pools w)); w_fresh := w_fresh w; w_trace := w_trace w ++ evs |},
            if t : bool then RThrow else RNone)
  | op => pool_step rd w op
  end.
(* A sequence of calls (object_pool.h:97-122); no counterpart of its own. *)
Fixpoint pool_run_mem (rd : bool) (w : pworld) (cs : list (pool_op * memory_left)) : outcome (pworld * list pool_result) :=
  match cs with
  | [] => Ok (w, [])
  | c :: cs' =>
      '(w1, r) <- pool_step_mem rd w c ;;
      '(w2, rs) <- pool_run_mem rd w1 cs' ;;
      Ok (w2, r :: rs)
  end.
