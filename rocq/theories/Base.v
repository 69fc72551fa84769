(** * Base: bytes, machine integers, outcomes, platform configuration.

    Nothing here is specific to one function of the library; it fixes the
    vocabulary in which the rest of the model is written. *)

From Coq Require Export List NArith ZArith Lia Bool Permutation.
From Coq Require Import Strings.Byte.
Export ListNotations.
#[global] Open Scope N_scope.

Notation byte := Coq.Init.Byte.byte.
Notation x00 := Coq.Init.Byte.x00.

(** A C++ [char] array / [std::string] / [std::vector<char>]. *)
(* Bytes as in std::string content_, object.h:1695, and std::vector<char>, type_trait.h:65. *)
Definition bytes := list byte.

(** Unsigned value of a byte and conversion of an integer to [char]
    ([static_cast<char>], i.e. modulo 256). *)
(* Reading a char as an unsigned number: varint.h:38-39, 44-45, parse.h:52, 105. *)
Definition b2n (b : byte) : N := Byte.to_N b.
(* static_cast<char> of a number (serialize.h:70, varint.h:22, 26): the low eight bits. *)
Definition n2b (n : N) : byte :=
  match Byte.of_N (n mod 256) with Some b => b | None => x00 end.

(* Equality of two chars (object_type.h:28-34, string_map.h:26). *)
Definition byte_eqb (a b : byte) : bool := b2n a =? b2n b.

(* operator== of std::string and std::string_view (object.h:709, 720, 855, 935; string_map.h:26). *)
Fixpoint bytes_eqb (a b : bytes) : bool :=
  match a, b with
  | [], [] => true
  | x :: a', y :: b' => byte_eqb x y && bytes_eqb a' b'
  | _, _ => false
  end.

(** Length of a list as a machine-size number. *)
(* size() of std::string, std::vector and std::string_view (for example object.h:1637, inner.h:16). *)
Definition len {A} (l : list A) : N := N.of_nat (length l).

(** [size_t] / [uint64_t] and [uint32_t] wrap-around. *)
(* 2^64, the modulus of size_t and uint64_t (inner.h:22-24, parse.h:31, object.h:223). *)
Definition W64 : N := 2 ^ 64.
(* 2^32, the modulus of uint32_t (object.h:387, 413; serialize.h:74). *)
Definition W32 : N := 2 ^ 32.
(* Conversion to size_t or uint64_t (object.h:223, inner.h:24: index arithmetic wraps). *)
Definition u64 (n : N) : N := n mod W64.
(* Conversion to uint32_t (serialize.h:74, object.h:214, 387, 413, 1378, 1415). *)
Definition u32 (n : N) : N := n mod W32.
(* Subtraction on size_t (object.h:540, 594; inner.h:22; parse.h:41). *)
Definition sub64 (a b : N) : N := (a + (W64 - b mod W64)) mod W64.

(** [ssize_t] view of a 64-bit pattern, and truncation of a signed value to a
    32-bit [int] (two's complement, as on every supported target). *)
(* The ssize_t result of remain(), inner.h:22. *)
Definition to_int64 (n : N) : Z :=
  if n <? 2 ^ 63 then Z.of_N n else (Z.of_N n - 2 ^ 64)%Z.
(* Conversion of size_t to int: the parameter len of varint_decode, varint.h:32, called at parse.h:28 and 41.
   *)
Definition to_int32 (z : Z) : Z :=
  let m := (z mod 2 ^ 32)%Z in
  if (m <? 2 ^ 31)%Z then m else (m - 2 ^ 32)%Z.

(** ** Outcomes.  Exceptions, failed [assert]s, undefined behaviour and
    exhausted recursion fuel are kept apart. *)
(* std::runtime_error (for example inner.h:17), std::out_of_range (split_info.h:36, info_.at),
   std::logic_error and the library's length_error (object.h:1840, std::string at object.h:242). *)
Inductive exn := ERuntime | EOutOfRange | ELogic.

(* What a call can end in; assert() at varint.h:24, 42, parse.h:62, object.h:281, 455, 507; throw at
   inner.h:17. *)
Inductive outcome (A : Type) : Type :=
| Ok (a : A)
| Throw (e : exn)      (* a C++ exception leaves the call *)
| Abort                (* a failed assert() in a build without NDEBUG *)
| UB                   (* undefined behaviour *)
| Fuel.                (* the model's recursion fuel ran out *)
Arguments Ok {A} a.
Arguments Throw {A} e.
Arguments Abort {A}.
Arguments UB {A}.
Arguments Fuel {A}.

(* Sequencing of two C++ statements, the second reached only if the first returned normally; no counterpart of
   its own (for example object.h:562-564). *)
Definition obind {A B} (x : outcome A) (f : A -> outcome B) : outcome B :=
  match x with
  | Ok a => f a
  | Throw e => Throw e
  | Abort => Abort
  | UB => UB
  | Fuel => Fuel
  end.

(* [obind] with a total function, no counterpart of its own (for example object.h:216). *)
Definition omap {A B} (f : A -> B) (x : outcome A) : outcome B :=
  obind x (fun a => Ok (f a)).

Declare Scope out_scope.
Delimit Scope out_scope with out.
Notation "x <- e ;; f" := (obind e (fun x => f))
  (at level 61, e at next level, right associativity) : out_scope.
Notation "' p <- e ;; f" := (obind e (fun x => match x with p => f end))
  (at level 61, p pattern, e at next level, right associativity) : out_scope.

(** ** Platform configuration.

    [iter] is the iteration order of [std::unordered_map]: the list it receives
    is the content of the table in insertion order, the list it returns is the
    order in which a range-for visits it.  The order may depend on the keys (their
    hashes) in any way, hence the argument [Hashable K]. *)
(* The keys of the unordered_maps of the code: string_map.h:84-85, split_info.h:80, adaptor.h:45, 55. *)
Inductive hash_input := HStr (b : bytes) | HNum (n : N) | HView (buf : nat) (off len : N).
Class Hashable (K : Type) := hash_of : K -> hash_input.
#[global] Instance Hashable_str : Hashable bytes := HStr.
#[global] Instance Hashable_num : Hashable N := HNum.

(* Byte order util.h:10-28; assert() as in varint.h:24; plain char as in varint.h:5-6; split_block_size
   object.h:33; iteration order of the maps of string_map.h:84, split_info.h:80. *)
Record cfg := {
  little : bool;             (* Endian::Instance().GetEndianType() == Little *)
  ndebug : bool;             (* asserts compiled out *)
  char_signed : bool;        (* plain char is signed *)
  split_block_size : N;      (* object.h:33, 1024*1024*10 *)
  iter : forall K V : Type, Hashable K -> list (K * V) -> list (K * V)
}.
(* for (auto& each : unordered_map), string_map.h:48, 58, split_info.h:44, adaptor.h:47, 57. *)
Definition hash_order (c : cfg) {K V : Type} {H : Hashable K} (l : list (K * V)) : list (K * V) :=
  iter c K V H l.

(** The platform assumption of most theorems: plain [char] is signed (x86) and a
    range-for over an [unordered_map] visits every entry exactly once. *)
(* What varint.h:5-6 and 37 need (plain char signed), and the iteration of string_map.h:48, 58 and
   split_info.h:44. *)
Definition sane (c : cfg) : Prop :=
  char_signed c = true /\ (forall K V (H : Hashable K) (l : list (K * V)), Permutation (hash_order c l) l).

(** object.h:33 [constexpr size_t split_block_size = 1024 * 1024 * 10]. *)
Definition real_split_block_size : N := 1024 * 1024 * 10.

(** A concrete x86-64 configuration, for the examples. *)
(* The platform of the project, with asserts: util.h:24, object.h:33, varint.h:24. *)
Definition x86_debug : cfg :=
  {| little := true; ndebug := false; char_signed := true;
     split_block_size := real_split_block_size; iter := fun _ _ _ l => l |}.
(* The platform of the project's own build: util.h:24 gives Little, object.h:33 the block size, NDEBUG set. *)
Definition x86_release : cfg :=
  {| little := true; ndebug := true; char_signed := true;
     split_block_size := real_split_block_size; iter := fun _ _ _ l => rev l |}.

(** ** Memory.  A buffer is a [std::string]: reading at index [size()] gives the
    terminating NUL, anything further is undefined. *)
(* operator[] / *ptr on the characters of a std::string: parse.h:52, 105, 119, varint.h:37, 44, object.h:1728,
   1746. *)
Definition read_byte (content : bytes) (i : N) : outcome byte :=
  if i <? len content then Ok (nth (N.to_nat i) content x00)
  else if i =? len content then Ok x00
  else UB.

(* The characters designated by (pointer, length), for example object.h:432, 1616. *)
Definition slice {A} (l : list A) (off n : N) : list A :=
  firstn (N.to_nat n) (skipn (N.to_nat off) l).

(** Reading [n] bytes starting at index [a] of a buffer. *)
(* Copying n characters from an address: parse.h:63, 72, 74; object.h:1416. *)
Definition read_range (content : bytes) (a n : N) : outcome bytes :=
  if n =? 0 then Ok []
  else if a + n <=? len content + 1 then Ok (slice (content ++ [x00]) a n)
  else UB.

(** A [std::string_view]: which buffer, where, how long.  Constructing one never
    touches memory; reading it does. *)
(* std::string_view members: object.h:808, data_type.h:118, string_map.h:84-85. *)
Record view := { v_buf : nat; v_off : N; v_len : N }.
#[global] Instance Hashable_view : Hashable view := fun v => HView (v_buf v) (v_off v) (v_len v).

(** The live buffers of the program. *)
(* The buffers the views of object.h:808 and data_type.h:118 point into, among them the caller's content
   (object.h:1831). *)
Definition memory := nat -> option bytes.

(* Reading through a std::string_view: object.h:269, 415, 831, 855. *)
Definition read_view (mem : memory) (v : view) : outcome bytes :=
  match mem (v_buf v) with
  | Some content => read_range content (v_off v) (v_len v)
  | None => UB                      (* the buffer is gone: use after free *)
  end.
