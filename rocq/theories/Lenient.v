(** * Specification: the language the sequential parser accepts.

    [Wire.v] describes what the serializer writes.  This file describes, again
    without reference to the parsers, every byte string that has a meaning for the
    sequential parser: numbers may be padded, ids and split marks are arbitrary,
    numeric payloads may be short (release builds).  [lwire strict D v b]: the bytes
    [b] mean the value [v]; [D] is the dictionary (None: strings are spelled out);
    [strict] forbids short numeric payloads. *)
From Verif Require Import Base ModelData ModelSecondary ModelObject ModelWrapper Spec Wire.

(** Little-endian groups of seven bits; every byte but the last has its top bit set. *)
Inductive groups : bytes -> N -> Prop :=
| g_last b : b2n b < 128 -> groups [b] (b2n b)
| g_more b l n : 128 <= b2n b -> groups l n -> groups (b :: l) (b2n b - 128 + 128 * n).

(** [b] is a representation of [n]: at most ten bytes, modulo 2^64. *)
Definition vint (n : N) (b : bytes) : Prop :=
  exists m, groups b m /\ len b <= 10 /\ n = m mod 2 ^ 64.

(** A number in big-endian byte order. *)
Definition big_endian (b : bytes) : N := fold_left (fun a x => 256 * a + b2n x) b 0.

Section Grammar.
  Variable strict : bool.
  Variable D : option (N -> option bytes).

  (** A key or a string value. *)
  Inductive lstr : bytes -> bytes -> Prop :=
  | ls_plain s l : D = None -> vint (len s) l -> lstr s (l ++ s)
  | ls_dict d id s l : D = Some d -> vint id l -> d (id mod 2 ^ 32) = Some s -> lstr s l.

  Inductive lscalar : scalar -> bytes -> Prop :=
  | lx_str s b : lstr s b -> lscalar (VStr s) (n2b BRIDGE_STRING :: b)
  | lx_bytes s l : vint (len s) l -> lscalar (VBytes s) (n2b BRIDGE_BYTES :: l ++ s)
  | lx_custom s l : vint (len s) l -> lscalar (VCustom s) (n2b BRIDGE_CUSTOM :: l ++ s)
  | lx_num t m l : vint (len m) l -> len m <= width t -> (strict = true -> len m = width t) ->
      lscalar (VNum t (big_endian (m ++ repeat x00 (N.to_nat (width t - len m)))))
              (n2b (dt_of_num t) :: l ++ m).

  (** The low seven bits of a tag are the type of the node. *)
  Definition tagged (v : value) (t : byte) : Prop := b2n t mod 128 = ObjectTypeToChar (type_of v).

  Inductive lwire : value -> bytes -> Prop :=
  | lw_scalar x b : lscalar x b -> lwire (VScalar x) b
  | lw_arr l cnt id i chunks :
      vint (len l) cnt -> vint i id ->
      Forall2 (fun v ch => exists t b, lwire v b /\ tagged v t /\ ch = t :: b) (rev l) chunks ->
      lwire (VArr l) (cnt ++ id ++ concat chunks)
  | lw_map l cnt id i chunks :
      vint (len l) cnt -> vint i id ->
      Forall2 (fun e ch => exists kb t b, lstr (fst e) kb /\ lwire (snd e) b /\ tagged (snd e) t /\
                                     ch = kb ++ t :: b) l chunks ->
      lwire (VMap l) (cnt ++ id ++ concat chunks).
End Grammar.

(** The value stored under "root": the last one in the document. *)
Definition last_root (entries : list (bytes * value)) : option value :=
  assoc_find bytes_eqb root_key (rev entries).

(** A whole document: ten header bytes, the body of the announced size, and
    something behind it. *)
Inductive lenient_doc (strict : bool) (D : option (N -> option bytes)) (ty : SeriType) (entries : list (bytes * value))
  : bytes -> bytes -> Prop :=
| ldoc size t f body rest :
    len size = 8 -> big_endian size = 10 + len body -> b2n t = SeriTypeToChar ty -> (b2n f = 0 \/ b2n f = 10) ->
    lwire strict D (VMap entries) body -> rest <> [] ->
    lenient_doc strict D ty entries (size ++ [t] ++ [f] ++ body ++ rest) rest.

(** ** The tables behind the body *)

(** Dictionary: entries of a key and a 32-bit id; whatever follows the announced
    number of entries is ignored. *)
Inductive ldict (l : list (bytes * N)) : bytes -> Prop :=
| ldict_ n cnt chunks junk :
    vint n cnt -> n mod 2 ^ 32 = len l ->
    Forall2 (fun e ch => exists kl i id, vint (len (fst e)) kl /\ vint i id /\ snd e = i mod 2 ^ 32 /\
                                    ch = kl ++ fst e ++ id) l chunks ->
    ldict l (cnt ++ concat chunks ++ junk).

(** Block table: no id twice. *)
Inductive lsplit (l : list (N * list N)) : bytes -> Prop :=
| lsplit_ n cnt chunks junk :
    vint n cnt -> n mod 2 ^ 32 = len l -> NoDup (map fst l) ->
    Forall2 (fun e ch => exists i id m num blocks, vint i id /\ fst e = i mod 2 ^ 32 /\ vint m num /\ m mod 2 ^ 32 = len (snd e) /\
                           Forall2 (fun x b => exists y, vint y b /\ x = y mod 2 ^ 32) (snd e) blocks /\
                           ch = id ++ num ++ concat blocks) l chunks ->
    lsplit l (cnt ++ concat chunks ++ junk).

(** The id a table gives to a key: its first one. *)
Fixpoint id_of (k : bytes) (l : list (bytes * N)) : option N :=
  match l with
  | [] => None
  | (k', i) :: l' => if bytes_eqb k k' then Some i else id_of k l'
  end.

(** [d] is a reading of the table [l] (there is only one if no two keys share an id). *)
Definition reading (l : list (bytes * N)) (d : N -> option bytes) : Prop :=
  forall id, match d id with Some s => id_of s l = Some id | None => forall s, id_of s l <> Some id end.

(** No two keys share an id. *)
Definition unambiguous (l : list (bytes * N)) : Prop :=
  forall s1 s2 id, id_of s1 l = Some id -> id_of s2 l = Some id -> s1 = s2.

(** What follows the body: each table preceded by its size, then anything.
    ([clear]: the dictionary is unambiguous.) *)
Inductive ltables (clear : bool) : SeriType -> option (N -> option bytes) -> bytes -> Prop :=
| lt_normal n sb splits junk : vint (len sb) n -> lsplit splits sb -> ltables clear NORMAL None (n ++ sb ++ junk)
| lt_replace n db strings d n' sb splits junk :
    vint (len db) n -> ldict strings db -> reading strings d -> (clear = true -> unambiguous strings) ->
    vint (len sb) n' -> lsplit splits sb ->
    ltables clear REPLACE (Some d) (n ++ db ++ n' ++ sb ++ junk).

(** Every part that the sizes announce is there. *)
Inductive announced : bytes -> Prop :=
| an_normal main t n table rest :
    len main >= 10 -> nth_error main 8 = Some t -> b2n t = 0 -> big_endian (firstn 8 main) = len main ->
    vint (len table) n -> announced (main ++ n ++ table ++ rest)
| an_replace main t n table n' table' rest :
    len main >= 10 -> nth_error main 8 = Some t -> b2n t = 1 -> big_endian (firstn 8 main) = len main ->
    vint (len table) n -> vint (len table') n' -> announced (main ++ n ++ table ++ n' ++ table' ++ rest).
