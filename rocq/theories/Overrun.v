(** * Specification: the byte strings that make the sequential parser misbehave.

    Written over the grammar of [Lenient.v] only.  A document is harmful if, behind
    parts that are all complete, there stands
    - a payload whose announced length runs past the buffer, or (release builds) past
      the number it is copied into, or a number field of more than ten bytes:
      undefined behaviour;
    - in a debug build, a number announced with another size than its type has, or a
      number field that is cut off by the end of the buffer: a failed assert.
    [copying] tells Parse with parse_ref = false from Parse with parse_ref = true:
    reading in place copies only numbers, and refuses custom data.  [strict] is the
    debug build. *)
From Verif Require Import Base ModelData ModelObject Spec Wire Lenient.

(** What can happen. *)
Inductive harm := Undefined | FailedAssert.

Section Overrun.
  Variable copying strict : bool.
  Variable D : option (N -> option bytes).
  Variable content : bytes.

  (** The bytes [b] stand at position [i]. *)
  Definition found (i : N) (b : bytes) : Prop := exists A B, content = A ++ b ++ B /\ len A = i.

  (** A number, a tag, a key, a whole value at [i]; the next part starts at [j]. *)
  Definition number_at (i n j : N) : Prop := exists b, vint n b /\ found i b /\ j = i + len b.
  Definition tag_at (i : N) (t : objtype) : Prop := exists x, found i [x] /\ b2n x mod 128 = ObjectTypeToChar t.
  Definition key_at (i j : N) : Prop := exists s b, lstr D s b /\ found i b /\ j = i + len b.
  Definition value_at (t : objtype) (i j : N) : Prop :=
    exists v b, type_of v = t /\ lwire strict D v b /\ (copying = false -> no_custom v) /\ found i b /\ j = i + len b.

  (** [n] bytes from [a] on are more than the buffer holds (a std::string keeps one
      readable zero byte behind its last character). *)
  Definition past_buffer (a n : N) : Prop := len content + 1 < a + n.

  (** The [k] bytes from [i] on are there and all say that the number goes on. *)
  Definition continued (i k : N) : Prop :=
    i + k <= len content /\ forall j, j < k -> 128 <= b2n (nth (N.to_nat (i + j)) content x00).

  (** A number field that cannot be read. *)
  Inductive bad_field : harm -> N -> Prop :=
  | too_long i : continued i 10 -> (strict = true -> i + 10 < len content) -> bad_field Undefined i
  | cut_off i k : strict = true -> 0 < k -> k <= 10 -> continued i k -> i + k = len content -> bad_field FailedAssert i.

  (** The tags of strings, bytes, custom data and numbers. *)
  Definition data_tag (d : N) : Prop :=
    d = BRIDGE_STRING \/ d = BRIDGE_BYTES \/ d = BRIDGE_CUSTOM \/ exists t, d = dt_of_num t.

  (** A payload that cannot be read. *)
  Inductive bad_payload : harm -> N -> Prop :=
  | bad_length h i d : data_tag d -> found i [n2b d] -> bad_field h (i + 1) -> bad_payload h i
  | bad_blob i d n a :
      copying = true -> d = BRIDGE_BYTES \/ d = BRIDGE_CUSTOM \/ (d = BRIDGE_STRING /\ D = None) ->
      found i [n2b d] -> number_at (i + 1) n a -> a < len content -> past_buffer a n -> bad_payload Undefined i
  | bad_number i t n a :
      found i [n2b (dt_of_num t)] -> number_at (i + 1) n a -> a < len content ->
      (strict = true -> n = width t) ->
      width t < n \/ past_buffer a n -> bad_payload Undefined i
  | wrong_size i t n a :
      strict = true -> found i [n2b (dt_of_num t)] -> number_at (i + 1) n a -> a < len content ->
      n <> width t -> bad_payload FailedAssert i.

  (** [n] complete elements (entries) between two positions. *)
  Inductive elements : N -> N -> N -> Prop :=
  | el_none i : elements 0 i i
  | el_more n i t j k : tag_at i t -> value_at t (i + 1) j -> elements n j k -> elements (1 + n) i k.
  Inductive pairs : N -> N -> N -> Prop :=
  | en_none i : pairs 0 i i
  | en_more n i e t j k : key_at i e -> tag_at e t -> value_at t (e + 1) j -> pairs n j k -> pairs (1 + n) i k.

  (** The value of type [t] that begins at [i] harms. *)
  Inductive harms (h : harm) : objtype -> N -> Prop :=
  | hm_payload i : bad_payload h i -> harms h TData i
  | hm_count i t : t <> TData -> bad_field h i -> harms h t i
  | hm_id i t n a : t <> TData -> number_at i n a -> bad_field h a -> harms h t i
  | hm_element i n a id b done c t :
      number_at i n a -> number_at a id b -> elements done b c -> done < n ->
      tag_at c t -> harms h t (c + 1) -> harms h TArray i
  | hm_key i n a id b done c :
      number_at i n a -> number_at a id b -> pairs done b c -> done < n ->
      bad_field h c -> harms h TMap i
  | hm_entry i n a id b done c e t :
      number_at i n a -> number_at a id b -> pairs done b c -> done < n ->
      key_at c e -> tag_at e t -> harms h t (e + 1) -> harms h TMap i.
End Overrun.

(** No complete number field holds 2^63 or more. *)
Definition small_numbers (content : bytes) : Prop := forall i n j, number_at content i n j -> n < 2 ^ 63.

(** Nine continuation bytes in a row occur nowhere (every number is below 2^63 and
    every number ends). *)
Definition short_numbers (content : bytes) : Prop :=
  forall i, exists j, (j < 9)%nat /\ b2n (nth (i + j) content x00) < 128.
