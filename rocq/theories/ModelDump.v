(** * Model of dump (object.h:55, 241-247, 358-364, 608-618, 786-799, 907-920, 994). *)
From Verif Require Import Base ModelData ModelSecondary ModelObject.
From Coq Require Import Strings.Byte Strings.String.
Local Open Scope out_scope.

(** A C string literal. *)
(* The literals of object.h:243-246, 610, 788, 793 and data_type.h:64-91, object_type.h:17-23. *)
Definition lit (s : string) : bytes := list_byte_of_string s.

(** [std::to_string(size_t)]: decimal digits, most significant first. *)
(* Inside std::to_string, object.h:610, 788, 909. *)
Fixpoint to_digits (fuel : nat) (n : N) (acc : bytes) : bytes :=
  match fuel with
  | O => acc
  | S fuel' =>
      let acc' := n2b (48 + n mod 10) :: acc in
      if n <? 10 then acc' else to_digits fuel' (n / 10) acc'
  end.
(* std::to_string(Size()), object.h:610, 788, 909. *)
Definition to_string (n : N) : bytes := to_digits (S (N.to_nat (N.log2 n))) n [].

(** data_type.h:61-93 [DataTypeToStr]. *)
Definition DataTypeToStr (dt : N) : bytes :=
  if dt =? BRIDGE_BYTES then lit "bytes"
  else if dt =? BRIDGE_STRING then lit "string"
  else if dt =? BRIDGE_INT32 then lit "int32"
  else if dt =? BRIDGE_UINT32 then lit "uint32"
  else if dt =? BRIDGE_INT64 then lit "int64"
  else if dt =? BRIDGE_UINT64 then lit "uint64"
  else if dt =? BRIDGE_FLOAT then lit "float"
  else if dt =? BRIDGE_DOUBLE then lit "double"
  else if dt =? BRIDGE_CUSTOM then lit "custom"
  else lit "invalid".

(** object_type.h:14-25 [ObjectTypeToStr]. *)
Definition ObjectTypeToStr (t : objtype) : bytes :=
  match t with TData => lit "Data" | TMap => lit "Map" | TArray => lit "Array" end.

(* Limit of int level, object.h:241, 608, 786, 907. *)
Definition INT_MAX : Z := 2147483647.

(** [std::string(level, ' ')] with an [int] level: a negative one becomes a huge
    size and std::length_error is thrown. *)
(* std::string prefix(level, ' '), object.h:242, 359, 609, 787, 789, 908, 910. *)
Definition blanks (level : Z) : outcome bytes :=
  if (level <? 0)%Z then Throw ELogic else Ok (repeat (n2b 32) (Z.to_nat level)).

(** [level + k] on [int]. *)
(* level + 1, level + 2, object.h:615, 789, 795, 910, 916; signed overflow is undefined. *)
Definition int_add (level k : Z) : outcome Z :=
  if (level + k <=? INT_MAX)%Z then Ok (level + k)%Z else UB.

(* '\n', object.h:614, 792, 794, 913, 915. *)
Definition newline : byte := n2b 10.

(** The loop bodies of the containers; [f buf level] is the child's [dump]. *)
(* The loop object.h:611-617. *)
Fixpoint dump_array (l : list (bytes -> Z -> outcome bytes)) (buf : bytes) (level : Z) : outcome bytes :=
  match l with
  | [] => Ok buf
  | f :: l' =>
      next <- int_add level 1 ;;
      buf' <- f (buf ++ [newline]) next ;;
      dump_array l' buf' level
  end.
(* The loops object.h:790-797 and 911-918. *)
Fixpoint dump_map (key_prefix : bytes) (l : list (outcome bytes * (bytes -> Z -> outcome bytes))) (buf : bytes) (level : Z)
  : outcome bytes :=
  match l with
  | [] => Ok buf
  | (rk, f) :: l' =>
      key <- rk ;;
      let buf1 := buf ++ [newline] ++ (key_prefix ++ lit "< " ++ key ++ lit " > : ") ++ [newline] in
      next <- int_add level 2 ;;
      buf' <- f buf1 next ;;
      dump_map key_prefix l' buf' level
  end.

(** object.h:994 [Object::dump] and the five [dump]s.  A null child is undefined.
    [dump_data]: 241-247 = 358-364; arrays: 608-618; maps: 786-799; views: 907-920. *)
Definition dump_data (dt : N) (buf : bytes) (level : Z) : outcome bytes :=
  prefix <- blanks level ;;
  Ok (buf ++ (prefix ++ ObjectTypeToStr TData) ++ lit "[ " ++ DataTypeToStr dt ++ lit " ]").

(* object.h:609-610, 787-788, 908-909. *)
Definition dump_head (t : objtype) (size : N) (buf : bytes) (level : Z) : outcome bytes :=
  prefix <- blanks level ;;
  Ok (buf ++ (prefix ++ ObjectTypeToStr t ++ lit "[ " ++ to_string size ++ lit " ]")).

(* Object::dump, object.h:994, with Data 241-247, DataView 358-364, Array 608-618, Map 786-798, MapView
   907-919. *)
Fixpoint dump (mem : memory) (o : obj) (buf : bytes) (level : Z) {struct o} : outcome bytes :=
  match o with
  | ONull => UB
  | OData dt _ | ODataView dt _ => dump_data dt buf level
  | OArray _ size items =>
      buf1 <- dump_head TArray size buf level ;;
      dump_array (map (dump mem) items) buf1 level
  | OMap _ size items =>
      buf1 <- dump_head TMap size buf level ;;
      key_level <- int_add level 1 ;;
      key_prefix <- blanks key_level ;;
      dump_map key_prefix (map (fun e => (Ok (fst e), dump mem (snd e))) items) buf1 level
  | OMapView _ size items =>
      buf1 <- dump_head TMap size buf level ;;
      key_level <- int_add level 1 ;;
      key_prefix <- blanks key_level ;;
      dump_map key_prefix (map (fun e => (read_view mem (fst e), dump mem (snd e))) items) buf1 level
  end.
