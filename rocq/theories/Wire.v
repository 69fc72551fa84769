(** * The document format, as a specification.

    [wire D T sz v fl b] says that the bytes [b] are an encoding of the value [v];
    [D] is the dictionary (None: strings are written out), [T] the table of split
    containers and [sz] the split size.  [fl] is the split mark of the node.
    Nothing here refers to the serializer or the parsers. *)
From Verif Require Import Base ModelData ModelSecondary ModelObject ModelWrapper Spec VarintProofs.

(** Big-endian representation in [w] bytes. *)
Definition be_bytes (w : N) (n : N) : bytes := rev (le_bytes (N.to_nat w) n).

Definition dict := option (N -> option bytes).
Definition table := N -> option (list N).

(** A string: length-prefixed, or a dictionary id. *)
Inductive str_wire : dict -> bytes -> bytes -> Prop :=
| sw_plain s : len s < W32 -> str_wire None s (venc (len s) ++ s)
| sw_dict d id s : id < W32 -> d id = Some s -> str_wire (Some d) s (venc id).

Inductive scalar_wire (D : dict) : scalar -> bytes -> Prop :=
| xw_str s b : str_wire D s b -> scalar_wire D (VStr s) (n2b BRIDGE_STRING :: b)
| xw_bytes s : len s < W32 ->
    scalar_wire D (VBytes s) (n2b BRIDGE_BYTES :: venc (len s) ++ s)
| xw_custom s : len s < W32 ->
    scalar_wire D (VCustom s) (n2b BRIDGE_CUSTOM :: venc (len s) ++ s)
| xw_num t n : num_ok t n ->
    scalar_wire D (VNum t n)
      (n2b (dt_of_num t) :: venc (width t) ++ be_bytes (width t) n).

(** Node tag: the object type, plus the split mark in the top bit. *)
Definition type_of (v : value) : objtype :=
  match v with VScalar _ => TData | VArr _ => TArray | VMap _ => TMap end.
Definition tag (v : value) (fl : bool) : byte :=
  n2b (ObjectTypeToChar (type_of v) + if fl then 128 else 0).

(** The elements of a container are written in chunks.  If it is registered in
    the split table its block list cuts the chunks into non-empty consecutive
    groups; all but the last have at least the split size, and if there is only
    one it has, too. *)
Definition block_size (g : list bytes) : N := len (concat g).

Definition split_ok (T : table) (sz id : N) (chunks : list bytes) (fl : bool) : Prop :=
  if fl then
    exists groups,
      chunks = concat groups /\
      T id = Some (map block_size groups) /\
      groups <> [] /\
      Forall (fun g => g <> []) groups /\
      Forall (fun g => sz <= block_size g) (removelast groups) /\
      (len groups = 1 -> Forall (fun g => sz <= block_size g) groups)
  else T id = None.

Inductive wire (D : dict) (T : table) (sz : N) : value -> bool -> bytes -> Prop :=
| w_scalar x b : scalar_wire D x b -> wire D T sz (VScalar x) false b
| w_arr l id chunks fl :
    len l < W32 -> id < W32 ->
    Forall2 (fun v ch => exists f b, wire D T sz v f b /\ ch = tag v f :: b) (rev l) chunks ->
    split_ok T sz id chunks fl ->
    wire D T sz (VArr l) fl (venc (len l) ++ venc id ++ concat chunks)
| w_map l id chunks fl :
    len l < W32 -> id < W32 ->
    Forall2 (fun e ch => exists kb f b, str_wire D (fst e) kb /\ wire D T sz (snd e) f b /\
                                   ch = kb ++ tag (snd e) f :: b) l chunks ->
    split_ok T sz id chunks fl ->
    wire D T sz (VMap l) fl (venc (len l) ++ venc id ++ concat chunks).

(** Chunks of array elements and of map entries. *)
Definition elem_wire D T sz (v : value) (ch : bytes) : Prop :=
  exists f b, wire D T sz v f b /\ ch = tag v f :: b.
Definition entry_wire D T sz (e : bytes * value) (ch : bytes) : Prop :=
  exists kb f b, str_wire D (fst e) kb /\ wire D T sz (snd e) f b /\ ch = kb ++ tag (snd e) f :: b.

(** ** Whole documents *)

(** The strings of the dictionary numbered from [n]. *)
Fixpoint number_from (n : N) (l : list bytes) : list (bytes * N) :=
  match l with [] => [] | x :: l' => (x, n) :: number_from (n + 1) l' end.


(** An auxiliary table, length-prefixed. *)
Definition section (s : bytes) : bytes := venc (len s) ++ s.

(** The dictionary table: count, then key length, key, id. *)
Definition dict_bytes (l : list (bytes * N)) : bytes :=
  venc (len l) ++ concat (map (fun e => venc (len (fst e)) ++ fst e ++ venc (snd e)) l).

(** The split table: count, then id, number of blocks, block sizes. *)
Definition split_bytes (l : list (N * list N)) : bytes :=
  venc (len l) ++
  concat (map (fun e => venc (fst e) ++ venc (len (snd e)) ++ concat (map venc (snd e))) l).

(** The dictionary with strings [ks]: string number i has id i. *)
Definition dict_of (ty : SeriType) (ks : list bytes) : dict :=
  match ty with
  | NORMAL => None
  | REPLACE => Some (fun i => nth_error ks (N.to_nat i))
  end.

Definition table_of (info : list (N * list N)) : table := fun id => assoc_find N.eqb id info.

(** A document for the value [v]: ten header bytes, body, tables.  [dict_list] and
    [info] are the table entries in the order in which they were written. *)
Inductive document (sz : N) (ty : SeriType) (v : value) : bytes -> Prop :=
| doc body fl ks dict_list info :
    NoDup ks ->
    (ty = NORMAL -> ks = []) ->
    (forall k, In k ks -> k = root_key \/ occurs k v) ->
    Permutation dict_list (number_from 0 ks) ->
    NoDup (map fst info) ->
    Forall (fun e => 1 <= fst e < W32 /\ snd e <> [] /\ Forall (fun b => b < W32) (snd e) /\
                     len (snd e) < W32) info ->
    wire (dict_of ty ks) (table_of info) sz (VMap [(root_key, v)]) fl body ->
    document sz ty v
      (be_bytes 8 (10 + len body) ++ [n2b (SeriTypeToChar ty)] ++ [n2b (if fl then 10 else 0)] ++ body ++
       match ty with NORMAL => [] | REPLACE => section (dict_bytes dict_list) end ++
       section (split_bytes info)).
