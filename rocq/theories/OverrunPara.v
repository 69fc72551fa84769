(** * Specification: the byte strings that make the parallel parser misbehave.

    Written over the positional grammar of [LenientPara.v] and the sequential
    specification of [Overrun.v].  The blocks of a split container are read
    independently of each other: a harmful spot in one of them counts although the
    other blocks may be incomplete or malformed.  Inside one block the children before
    the spot must be complete.  A key that runs past the buffer, which the sequential
    parser refuses, is copied by the parallel one.
    [room] is where the complete children stand: the document, or a part of it. *)
From Verif Require Import Base ModelData ModelObject Spec Wire Lenient Overrun LenientPara.

Section OverrunPara.
  Variable copying strict : bool.
  Variable D : option (N -> option bytes).
  Variable blocks : list (N * list N).
  Variable content room : bytes.

  (** One of the blocks behind position [b]: from [lo] to [hi]. *)
  Definition block_of (b : N) (sizes : list N) (lo hi : N) : Prop :=
    exists before n after, sizes = before ++ n :: after /\ lo = b + fold_right N.add 0 before /\ hi = lo + n.

  (** Reading in place refuses custom data. *)
  Definition readable (v : value) : Prop := copying = false -> no_custom v.

  (** The split container of type [t] (behind its tag). *)
  Inductive split_harms (h : harm) : objtype -> N -> Prop :=
  | sh_count t i : t <> TData -> bad_field strict content h i -> split_harms h t i
  | sh_id t i n a : t <> TData -> number_at content i n a -> bad_field strict content h a -> split_harms h t i
  | sh_block t i n a id b sizes lo hi : t <> TData ->
      number_at content i n a -> number_at content a id b -> In (id mod 2 ^ 32, sizes) blocks ->
      block_of b sizes lo hi -> block_harms h t lo hi -> split_harms h t i
  (** A block of children of such a container: from its first position to its end. *)
  with block_harms (h : harm) : objtype -> N -> N -> Prop :=
  | bh_element i e : i < e -> child_harms h i -> block_harms h TArray i e
  | bh_elements i e v j : i < e -> pval room strict D blocks i v j -> readable v ->
      block_harms h TArray j e -> block_harms h TArray i e
  | bh_key i e : i < e -> bad_field strict content h i -> block_harms h TMap i e
  | bh_key_end i e n a : h = Undefined -> copying = true -> D = None -> i < e ->
      number_at content i n a -> a < len content -> past_buffer content a (n mod 2 ^ 32) -> block_harms h TMap i e
  | bh_entry i e k j : i < e -> pkey content D i k j -> child_harms h j -> block_harms h TMap i e
  | bh_entries i e k j v j' : i < e -> pkey room D i k j -> pval room strict D blocks j v j' -> readable v ->
      block_harms h TMap j' e -> block_harms h TMap i e
  (** A child, tag included. *)
  with child_harms (h : harm) : N -> Prop :=
  | ch_whole i x t : b2n x = ObjectTypeToChar t -> Overrun.found content i [x] ->
      harms copying strict D content h t (i + 1) -> child_harms h i
  | ch_split i x t : b2n x = 128 + ObjectTypeToChar t -> Overrun.found content i [x] ->
      split_harms h t (i + 1) -> child_harms h i.
End OverrunPara.
