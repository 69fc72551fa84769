(** * Model of data_type.h, object_type.h, util.h (byte order) and of the typed
    storage of Data / DataView (variant.h). *)
From Verif Require Import Base.
Local Open Scope out_scope.

(** object_type.h:5-10 [enum class ObjectType : char]. *)
Inductive objtype := TData | TMap | TArray.

(** object_type.h:12 [ObjectTypeToChar]. ([Invalid] is represented by [None]
    where it can occur.) *)
Definition ObjectTypeToChar (t : objtype) : N :=
  match t with TData => 0 | TMap => 1 | TArray => 2 end.

(** object_type.h:27-36 [CharToObjectType]; [None] is [ObjectType::Invalid]. *)
Definition CharToObjectType (c : N) : option objtype :=
  if c =? ObjectTypeToChar TData then Some TData
  else if c =? ObjectTypeToChar TMap then Some TMap
  else if c =? ObjectTypeToChar TArray then Some TArray
  else None.

(** data_type.h:13-22. *)
Definition BRIDGE_BYTES := 0.
(* data_type.h:14. *)
Definition BRIDGE_STRING := 1.
(* data_type.h:15. *)
Definition BRIDGE_INT32 := 2.
(* data_type.h:16. *)
Definition BRIDGE_UINT32 := 3.
(* data_type.h:17. *)
Definition BRIDGE_INT64 := 4.
(* data_type.h:18. *)
Definition BRIDGE_UINT64 := 5.
(* data_type.h:19. *)
Definition BRIDGE_FLOAT := 6.
(* data_type.h:20. *)
Definition BRIDGE_DOUBLE := 7.
(* data_type.h:21. *)
Definition BRIDGE_CUSTOM := 12.
(* data_type.h:22. *)
Definition BRIDGE_INVALID := 13.

(** data_type.h:24-27 [BRIDGE_CHECK_DATA_TYPE]. *)
Definition valid_data_type (t : N) : bool :=
  (t =? BRIDGE_BYTES) || (t =? BRIDGE_STRING) || (t =? BRIDGE_INT32) ||
  (t =? BRIDGE_UINT32) || (t =? BRIDGE_INT64) || (t =? BRIDGE_UINT64) ||
  (t =? BRIDGE_FLOAT) || (t =? BRIDGE_DOUBLE) || (t =? BRIDGE_CUSTOM).

(** The six arithmetic types of the variant (type_trait.h:36-44).  A value is
    its bit pattern: two's complement for the signed integers, IEEE encoding for
    the floating types. *)
Inductive numty := I32 | U32 | I64 | U64 | F32 | F64.

(* Sameness of two alternatives of the variant (variant.h:39-50, std::is_same_v). *)
Definition numty_eqb (a b : numty) : bool :=
  match a, b with
  | I32, I32 | U32, U32 | I64, I64 | U64, U64 | F32, F32 | F64, F64 => true
  | _, _ => false
  end.

(* sizeof(t), serialize.h:87-88, parse.h:62. *)
Definition sizeof_num (t : numty) : N :=
  match t with I32 | U32 | F32 => 4 | I64 | U64 | F64 => 8 end.

(** data_type.h:52-59 (InnerDataTypeTrait of the arithmetic types). *)
Definition dt_of_num (t : numty) : N :=
  match t with
  | I32 => BRIDGE_INT32 | U32 => BRIDGE_UINT32
  | I64 => BRIDGE_INT64 | U64 => BRIDGE_UINT64
  | F32 => BRIDGE_FLOAT | F64 => BRIDGE_DOUBLE
  end.

(** The [else if (dt == ...)] chains of serialize.h:103-108 and parse.h:76-81. *)
Definition num_of_dt (dt : N) : option numty :=
  if dt =? BRIDGE_INT32 then Some I32
  else if dt =? BRIDGE_UINT32 then Some U32
  else if dt =? BRIDGE_INT64 then Some I64
  else if dt =? BRIDGE_UINT64 then Some U64
  else if dt =? BRIDGE_FLOAT then Some F32
  else if dt =? BRIDGE_DOUBLE then Some F64
  else None.

(** variant.h:87-135 [variant<...>]: untagged storage with [construct], [get],
    [destruct].  The model remembers what was constructed; reading it at another
    type is [UB] (see [get_*]).  [SNone] is storage in which nothing has been
    constructed. *)
Inductive store :=
| SNone
| SVec (l : bytes)            (* std::vector<char> *)
| SStr (l : bytes)            (* std::string *)
| SView (v : view)            (* std::string_view, view variant only *)
| SNum (t : numty) (n : N).

(* variant::get<std::vector<char>>, variant.h:115-119; another alternative stored is undefined behaviour. *)
Definition get_vec (s : store) : outcome bytes := match s with SVec l => Ok l | _ => UB end.
(* variant::get<std::string>, variant.h:115-119. *)
Definition get_str (s : store) : outcome bytes := match s with SStr l => Ok l | _ => UB end.
(* variant::get<std::string_view>, variant.h:115-119. *)
Definition get_view (s : store) : outcome view := match s with SView v => Ok v | _ => UB end.
(* variant::get<int32_t>, ..., variant.h:115-119. *)
Definition get_num (t : numty) (s : store) : outcome N :=
  match s with SNum t' n => if numty_eqb t t' then Ok n else UB | _ => UB end.

(** ** Byte order (util.h). *)

(** The object representation of a [w]-byte number, least significant first. *)
(* The memory seen through a char pointer to t at serialize.h:88 and util.h:34-39, on a little-endian machine.
   *)
Fixpoint le_bytes (w : nat) (n : N) : bytes :=
  match w with O => [] | S w' => n2b n :: le_bytes w' (n / 256) end.

(* Its inverse: memcpy into t, parse.h:63. *)
Fixpoint of_le_bytes (l : bytes) : N :=
  match l with [] => 0 | b :: l' => b2n b + 256 * of_le_bytes l' end.

(** Bytes of a number in memory on a given host (util.h:22-25 detects which). *)
Definition num_to_mem (c : cfg) (w : N) (n : N) : bytes :=
  if little c then le_bytes (N.to_nat w) n else rev (le_bytes (N.to_nat w) n).
(* The number whose object representation is [m] (parse.h:61-63, object.h:1595). *)
Definition num_of_mem (c : cfg) (m : bytes) : N :=
  if little c then of_le_bytes m else of_le_bytes (rev m).

(** util.h:30-41 [flipByByte]: copies byte [i] to byte [sizeof(T)-1-i]. *)
Definition flipByByte (c : cfg) (w : N) (n : N) : N :=
  num_of_mem c (rev (num_to_mem c w n)).

(** The idiom of serialize.h:83-88 and object.h:1585-1588: flip on little-endian
    hosts, then copy the object representation. *)
Definition num_to_wire (c : cfg) (w : N) (n : N) : bytes :=
  num_to_mem c w (if little c then flipByByte c w n else n).

(** The idiom of parse.h:61-67 and object.h:1595-1598: copy [m] into the object
    representation, then flip on little-endian hosts. *)
Definition num_of_wire (c : cfg) (w : N) (m : bytes) : N :=
  let t := num_of_mem c m in
  if little c then flipByByte c w t else t.
