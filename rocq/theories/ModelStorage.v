(** * Model of the heap storage owned by pooled objects (object.h:71-124, 167-262,
    490-495, 648-654, 807-813, 998-1050; object_pool.h:33-43, 73-82).

    Only what matters for storage is kept: which objects live in a BridgePool, which
    heap allocations their [std::string] / [std::vector<char>] members own, and what
    running or not running a destructor does to them. *)
From Verif Require Import Base ModelData ModelObject ModelDataLife.

(** The eight pooled classes (object.h:116-123). *)
Inductive cls := KData | KDataView | KArray | KArrayItem | KMap | KMapItem | KMapView | KMapViewItem.

(** Base classes at object.h:167, 274, 490, 497, 648, 656, 807, 815. *)
Definition require_destruct (k : cls) : bool :=
  match k with KData | KMap => true | _ => false end.

(** A pooled object and the allocation owned by its string or vector, if any. *)
(* An object inside one of the pools object.h:116-123. *)
Record pooled := { o_cls : cls; o_owns : option nat }.

(* The objects of the pools object.h:116-123 and the heap allocations they own. *)
Record bstate := { s_objs : list pooled; s_heap : list nat; s_next : nat }.
(* A new BridgePool, object.h:996. *)
Definition bstate0 : bstate := {| s_objs := []; s_heap := []; s_next := 0 |}.

(** Longest string stored inside the [std::string] object (libstdc++). *)
(* std::string of libstdc++ (used at serialize.h:20, 32, 39, object.h:649); not in the code. *)
Definition sso : N := 15.

(** Does constructing this payload allocate? *)
(* construct<std::string>, serialize.h:20, 32, 39, parse.h:74, object.h:216, 695. *)
Definition str_allocates (s : bytes) : bool := sso <? len s.
(* construct<std::vector<char>>, serialize.h:47, 51, parse.h:72. *)
Definition vec_allocates (s : bytes) : bool := 0 <? len s.
(* The same by argument, object.h:172-184. *)
Definition arg_allocates (a : arg) : bool :=
  match a with
  | AStr s => str_allocates s
  | ACstr arr => str_allocates (cstr_content arr)
  | ABytes s | ACustom s => vec_allocates s
  | ANum _ _ | AThrowing | AOwn => false
  end.

(* Alloc, object.h:1009-1033. *)
Definition add_obj (k : cls) (allocates : bool) (st : bstate) : bstate :=
  if allocates
  then {| s_objs := {| o_cls := k; o_owns := Some (s_next st) |} :: s_objs st;
          s_heap := s_next st :: s_heap st; s_next := S (s_next st) |}
  else {| s_objs := {| o_cls := k; o_owns := None |} :: s_objs st; s_heap := s_heap st; s_next := s_next st |}.

(* The destructor of a std::string or std::vector, object.h:253-259. *)
Definition release (a : option nat) (heap : list nat) : list nat :=
  match a with Some n => filter (fun m => negb (Nat.eqb m n)) heap | None => heap end.

(** What running the destructor of a class releases.  object.h:167-262: Data has no
    destructor of its own, and the storage of its variant is a [char] array
    (variant.h:134), so ~Data() releases nothing; object.h:656-806: nor does ~Map(),
    whose items are raw pointers. *)
Definition dtor_releases (o : pooled) : option nat := None.

(** object_pool.h:33-43 over all objects of a pool. *)
Definition run_dtors (l : list pooled) (heap : list nat) : list nat :=
  fold_left (fun h o => if require_destruct (o_cls o) then release (dtor_releases o) h else h) l heap.

(* object.h:84-93, 178-184, 1009-1033. *)
Inductive bp_call :=
| NewData (a : arg)              (* bp.data(x), or a parsed data node *)
| NewOther (k : cls)             (* data_view, array, map, map_view and item cells *)
| NewMapItem (key : bytes)       (* Map::Insert(key, ...) *)
| AssignData (n : nat) (a : arg) (* d = x on the n-th object, if it is a Data *)
| ClearPool.                     (* bp.Clear() or ~BridgePool() *)

(* The classes without owned payload: object.h:117-120, 122-123. *)
Definition other_cls (k : cls) : cls := match k with KData | KMapItem => KArray | _ => k end.

(* After destruct_by_datatype and serialize_proxy, object.h:180-182. *)
Fixpoint set_owns (n : nat) (a : option nat) (l : list pooled) : list pooled :=
  match n, l with
  | _, [] => []
  | O, o :: l' => {| o_cls := o_cls o; o_owns := a |} :: l'
  | S n', o :: l' => o :: set_owns n' a l'
  end.

(** object.h:178-184 releases the old payload (destruct_by_datatype) first;
    object.h:84-93 / the implicit ~BridgePool(). *)
Definition do_call (st : bstate) (c : bp_call) : bstate :=
  match c with
  | NewData a => add_obj KData (arg_allocates a) st
  | NewOther k => add_obj (other_cls k) false st
  | NewMapItem key => add_obj KMapItem (str_allocates key) st
  | AssignData n a =>
      match nth_error (s_objs st) n with
      | Some {| o_cls := KData; o_owns := old |} =>
          let heap := release old (s_heap st) in
          if arg_allocates a
          then {| s_objs := set_owns n (Some (s_next st)) (s_objs st); s_heap := s_next st :: heap; s_next := S (s_next st) |}
          else {| s_objs := set_owns n None (s_objs st); s_heap := heap; s_next := s_next st |}
      | _ => st
      end
  | ClearPool => {| s_objs := []; s_heap := run_dtors (s_objs st) (s_heap st); s_next := s_next st |}
  end.

(* A sequence of calls by the user; no counterpart of its own (object.h:84-93, 178-184, 1009-1033). *)
Definition do_calls (l : list bp_call) (st : bstate) : bstate := fold_left do_call l st.
