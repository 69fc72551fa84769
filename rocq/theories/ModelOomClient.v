(** * Programs over pools and containers that may run out of memory
    (object.h:71-124, 499-579, 677-755, 836-954, 1009-1033).

    ModelClient.v assumes that creating an object and inserting an entry get the memory
    they need.  Here every call says what fails: the vector of blocks of the pool cannot
    grow, the constructor of the value throws, or the key of a [Map] cannot be copied. *)
From Verif Require Import Base ModelData ModelObject ModelPool ModelOom ModelStorage ModelFrames ModelClient ModelOomPool.
Local Open Scope out_scope.

(* No counterpart: the answers of the memory behind object_pool.h:51, 112 (lack), the constructor called at
   object_pool.h:68 (ctor_throws), and std::string::operator= at object.h:695 (key_throws). *)
Record trouble := { lack : memory_left; ctor_throws : bool; key_throws : bool }.
(* No counterpart: nothing fails. *)
Definition no_trouble : trouble := {| lack := plenty; ctor_throws := false; key_throws := false |}.

(** [bridge_pool_i.xxx()]; [None]: an exception. *)
(* object.h:1009-1033 with object_pool.h:62-71, 106-115. *)
Definition alloc_mem (w : client) (i : nat) (k : cls) (c : cell) (m : memory_left) (throws : bool) : outcome (client * option slot_id) :=
  '(ps, r) <- bp_step_mem (k_pools w) (BpAlloc i k throws) (fun _ => m) ;;
  match r with
  | RSlot s => Ok ({| k_pools := ps; k_mem := set_mem (k, s) c (k_mem w); k_vars := k_vars w |}, Some s)
  | RThrow => Ok ({| k_pools := ps; k_mem := k_mem w; k_vars := k_vars w |}, None)
  | _ => UB
  end.

(* A creating call: BridgePool::data, data_view, array, map, map_view, object.h:1009-1033. *)
Definition create_mem (w : client) (i : nat) (k : cls) (c : cell) (m : memory_left) (throws : bool) : outcome (client * option canswer) :=
  '(w1, r) <- alloc_mem w i k c m throws ;;
  match r with
  | Some s => Ok ({| k_pools := k_pools w1; k_mem := k_mem w1; k_vars := k_vars w1 ++ [(k, s)] |}, Some AnNone)
  | None => Ok (w1, None)
  end.

(** object.h:515-525, 693-704, 943-954 [Insert]: the item first, then its key (a copy only
    in a [Map]), then its value, then the links. *)
Definition cl_Insert_mem (w : client) (a : addr) (key : ckey) (v : option addr) (x : trouble) : outcome (client * option canswer) :=
  '(ik, p, _, _) <- get_cont w a ;;
  if negb (key_fits ik key) then UB else
  '(w1, r) <- alloc_mem w p ik (CellItem (OwnKey []) None None) (lack x) false ;;
  match r with
  | None => Ok (w1, None)
  | Some s =>
      if key_throws x && cls_eqb ik KMapItem then Ok (w1, None)
      else
        w2 <- store w1 (ik, s) (CellItem (if cls_eqb ik KArrayItem then OwnKey [] else key) v None) ;;
        '(_, _, last, size) <- get_cont w2 a ;;
        w3 <- match last with
              | None => Ok w2
              | Some _ =>
                  '(key', v', _) <- get_item w2 (ik, s) ;;
                  store w2 (ik, s) (CellItem key' v' last)
              end ;;
        w4 <- store w3 a (CellCont p (Some s) (u64 (size + 1))) ;;
        Ok (w4, Some AnNone)
  end.

(** One call; [None] is an exception.  Simplification: the other calls find enough memory
    (those on pools: ModelOomPool.v; overwriting a value: C50). *)
(* object.h:71-954; see [ccall]. *)
Definition cl_step_mem (w : client) (op : ccall) (x : trouble) : outcome (client * option canswer) :=
  match op with
  | CData i v d => create_mem w i (if v then KDataView else KData) (CellData d) (lack x) (ctor_throws x)
  | CCont i k => match item_cls k with
                 | Some _ => create_mem w i k (CellCont i None 0) (lack x) false
                 | None => UB
                 end
  | CScratch i k => '(w', r) <- alloc_mem w i k (CellItem (OwnKey []) None None) (lack x) false ;; Ok (w', option_map (fun _ => AnNone) r)
  | CInsert c key v => a <- var w c ;; v' <- var_opt w v ;; cl_Insert_mem w a key v' x
  | _ => '(w', a) <- cl_step w op ;; Ok (w', Some a)
  end.

(* A sequence of calls by a user who catches every exception and goes on (object.h:71-954). *)
Fixpoint cl_run_mem (w : client) (ops : list (ccall * trouble)) : outcome (client * list (option canswer)) :=
  match ops with
  | [] => Ok (w, [])
  | op :: ops' =>
      '(w1, a) <- cl_step_mem w (fst op) (snd op) ;;
      '(w2, r) <- cl_run_mem w1 ops' ;;
      Ok (w2, a :: r)
  end.
