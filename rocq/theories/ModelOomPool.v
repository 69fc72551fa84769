(** * BridgePool when memory runs out (object.h:71-124, 996-1033).

    A BridgePool is eight object pools; what ModelOom.v says about one of them is put
    together here, in the order in which the members are constructed, merged and cleared,
    and with what C++ does when one of them throws. *)
From Verif Require Import Base ModelPool ModelOom ModelStorage ModelFrames ModelClient.
Local Open Scope out_scope.

(** The call on a member behind a call on a BridgePool. *)
(* object.h:77-79, 84-93, 996-1033. *)
Definition call_of (op : bp_op) : pool_op :=
  match op with
  | BpNew => OpNew | BpAlloc i _ throws => OpAlloc i throws | BpMerge i j => OpMerge i j | BpClear i => OpClear i
  | BpMove j => OpMoveNew j | BpAssign i j => OpMoveAssign i j | BpDestroy i => OpDestroy i
  end.
(** The members it is made on, in order.  (Simplification: destruction runs through the
    members backwards, 116-123; they share nothing.) *)
(* object.h:85-92 (Clear), 999-1006 (Merge), 1009-1033 (one member), 116-123 (the implicit ones). *)
Definition reached (op : bp_op) : list cls :=
  match op with
  | BpMerge _ _ => merged_members | BpClear _ => cleared_members | BpAlloc _ k _ => [k] | _ => members
  end.

(** The calls on the members, one after the other; the first exception ends it.  [m]: the
    memory every member finds.  Also the result of the last call. *)
(* object.h:998-1007 and 84-93, 1009-1033. *)
Fixpoint bp_each (ks : list cls) (op : pool_op) (m : cls -> memory_left) (ps : cls -> pworld) (r0 : pool_result)
  : outcome ((cls -> pworld) * pool_result) :=
  match ks with
  | [] => Ok (ps, r0)
  | k :: ks' =>
      '(p, r) <- pool_step_mem (require_destruct k) (ps k) (op, m k) ;;
      match r with
      | RThrow => Ok (set_pool k p ps, RThrow)
      | _ => bp_each ks' op m (set_pool k p ps) r
      end
  end.

(** No pool at the next number (the BridgePool was not constructed as far as this member). *)
(* No counterpart: the numbering of the pools; object.h:996. *)
Definition no_pool (w : pworld) : pworld :=
  {| w_pools := w_pools w ++ [None]; w_fresh := w_fresh w; w_trace := w_trace w |}.

(** [BridgePool::BridgePool() = default], object.h:996: the members 116-123 in order; when
    the constructor of one throws, those before it are destroyed again. *)
Fixpoint bp_construct (ks : list cls) (m : cls -> memory_left) (ps : cls -> pworld) : outcome ((cls -> pworld) * pool_result) :=
  match ks with
  | [] => Ok (ps, RNone)
  | k :: ks' =>
      '(p, r) <- pool_step_mem (require_destruct k) (ps k) (OpNew, m k) ;;
      match r with
      | RThrow => Ok (fold_right (fun k' q => set_pool k' (no_pool (q k')) q) (set_pool k p ps) ks', RThrow)
      | _ =>
          '(ps1, r1) <- bp_construct ks' m (set_pool k p ps) ;;
          match r1 with
          | RThrow =>
              '(p1, _) <- pool_step (require_destruct k) (ps1 k) (OpDestroy (pred (length (w_pools (ps1 k))))) ;;
              Ok (set_pool k p1 ps1, RThrow)
          | _ => Ok (ps1, RNone)
          end
      end
  end.

(** One call on BridgePools. *)
(* object.h:77-79, 84-93, 996-1033. *)
Definition bp_step_mem (ps : cls -> pworld) (op : bp_op) (m : cls -> memory_left) : outcome ((cls -> pworld) * pool_result) :=
  match op with
  | BpNew => bp_construct members m ps
  | _ => bp_each (reached op) (call_of op) m ps RNone
  end.
