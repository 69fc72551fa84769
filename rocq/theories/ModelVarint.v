(** * Model of include/bridge/varint.h *)
From Verif Require Import Base.
Local Open Scope out_scope.

(** varint.h:6 [static constexpr char MSBALL = ~0x7F;] used in [n & MSBALL] with
    [n : unsigned long long]: a signed char is sign-extended to
    0xFFFFFFFFFFFFFF80, an unsigned one is just 0x80. *)
Definition MSBALL (c : cfg) : N :=
  if char_signed c then W64 - 128 else 128.

(** varint.h:18-30 [varint_encode].  [k] is [ptr - buf].  The loop runs at most
    ten times for a 64-bit [n]; the fuel is never exhausted
    (VarintProofs.varint_encode_ok). *)
Fixpoint varint_encode_loop (c : cfg) (fuel : nat) (n : N) (k buflen : N) : outcome bytes :=
  match fuel with
  | O => Fuel
  | S f =>
      if N.land n (MSBALL c) =? 0 then Ok [n2b n]                 (* line 26 *)
      else
        let b := n2b (N.lor (N.land n 255) 128) in                (* line 22 *)
        let k' := k + 1 in
        if negb (ndebug c) && negb (k' <? buflen) then Abort      (* line 24 *)
        else r <- varint_encode_loop c f (N.shiftr n 7) k' buflen ;;
             Ok (b :: r)
  end.

(* varint.h:18-30. *)
Definition varint_encode (c : cfg) (n : N) (buflen : N) : outcome bytes :=
  varint_encode_loop c 11 n 0 buflen.

(** varint.h:32-50 [varint_decode].  [ptr] is the absolute index in the buffer
    that is read, [k = ptr - buf].  Shifting by 64 or more is undefined
    (lines 39 and 45), which bounds the loop.  Result: value and [*bytes]. *)
Fixpoint varint_decode_loop (c : cfg) (fuel : nat) (content : bytes)
    (ptr : N) (k : N) (buflen : Z) (bits result : N) : outcome (N * N) :=
  match fuel with
  | O => Fuel
  | S f =>
      b <- read_byte content ptr ;;
      let ll := b2n b in
      if negb (bits <? 64) then UB
      else
        let result' := u64 (result + u64 (N.shiftl (N.land ll 127) bits)) in
        if N.land ll 128 =? 0 then Ok (result', (k + 1) mod 256)
        else
          if negb (ndebug c) && negb (Z.of_N (k + 1) <? buflen)%Z then Abort
          else varint_decode_loop c f content (ptr + 1) (k + 1) buflen (bits + 7) result'
  end.

(* varint.h:32-50. *)
Definition varint_decode (c : cfg) (content : bytes) (addr : N) (buflen : Z)
  : outcome (N * N) :=
  varint_decode_loop c 12 content addr 0 buflen 0 0.

(** varint.h:8-16 and 52-63 [varint_encoding_length]. *)
Definition varint_encoding_length (n : N) : N :=
  if n <? 128 then 1
  else if n <? 16384 then 2
  else if n <? 2097152 then 3
  else if n <? 268435456 then 4
  else if n <? 34359738368 then 5
  else if n <? 4398046511104 then 6
  else if n <? 562949953421312 then 7
  else if n <? 72057594037927936 then 8
  else if n <? 9223372036854775808 then 9
  else 10.
