(** * Specification: the bytes of a document, in absolute terms.

    [Wire.v] describes the format with the names of the model's constants; here every
    tag, size and position is a literal number, and integers are described by their
    bytes, so that the file can be read next to a hex dump.  Nothing refers to the
    serializer or the parsers. *)
From Verif Require Import Base ModelData ModelObject ModelWrapper Spec.

(** Seven bits per byte, least significant first, the top bit on all but the last byte,
    without superfluous bytes. *)
Inductive digits : N -> bytes -> Prop :=
| dg_last b : b2n b < 128 -> digits (b2n b) [b]
| dg_more b n l : 128 <= b2n b -> 0 < n -> digits n l -> digits (b2n b - 128 + 128 * n) (b :: l).

(** Every length, count and id of a document is such a number below 2^32. *)
Definition small (n : N) (b : bytes) : Prop := digits n b /\ n < 4294967296.

(** Most significant byte first. *)
Definition network (b : bytes) : N := fold_left (fun a x => 256 * a + b2n x) b 0.

(** Tags of data and of nodes. *)
Definition data_code (x : scalar) : N :=
  match x with
  | VBytes _ => 0 | VStr _ => 1
  | VNum I32 _ => 2 | VNum U32 _ => 3 | VNum I64 _ => 4 | VNum U64 _ => 5 | VNum F32 _ => 6 | VNum F64 _ => 7
  | VCustom _ => 12
  end.
Definition node_code (v : value) (split : bool) : N :=
  match v with VScalar _ => 0 | VMap _ => 1 | VArr _ => 2 end + (if split then 128 else 0).

Section Format.
  (** None: strings are spelled out.  Some: string number i stands for the i-th one. *)
  Variable strings : option (list bytes).
  (** The split containers: their number and the sizes of their blocks. *)
  Variable blocks : list (N * list N).
  Variable split_size : N.

  Inductive text (s : bytes) : bytes -> Prop :=
  | tx_spelled l : strings = None -> small (len s) l -> text s (l ++ s)
  | tx_number ss i l : strings = Some ss -> nth_error ss (N.to_nat i) = Some s -> small i l -> text s l.

  Inductive payload : scalar -> bytes -> Prop :=
  | pl_str s b : text s b -> payload (VStr s) b
  | pl_bytes s l : small (len s) l -> payload (VBytes s) (l ++ s)
  | pl_custom s l : small (len s) l -> payload (VCustom s) (l ++ s)
  | pl_num4 t l b : t = I32 \/ t = U32 \/ t = F32 -> b2n l = 4 -> len b = 4 -> payload (VNum t (network b)) (l :: b)
  | pl_num8 t l b : t = I64 \/ t = U64 \/ t = F64 -> b2n l = 8 -> len b = 8 -> payload (VNum t (network b)) (l :: b).

  (** The elements of a split container form non-empty blocks, all but the last of at
      least the split size (if there is only one, it has at least that size). *)
  Definition divided (i : N) (split : bool) (elements : list bytes) : Prop :=
    if split then
      exists groups, elements = concat groups /\ groups <> [] /\ Forall (fun g => g <> []) groups /\
        In (i, map (fun g => len (concat g)) groups) blocks /\
        Forall (fun g => split_size <= len (concat g)) (removelast groups) /\
        (len groups = 1 -> Forall (fun g => split_size <= len (concat g)) groups)
    else ~ In i (map fst blocks).

  Inductive node : value -> bool -> bytes -> Prop :=
  | nd_data x t b : b2n t = data_code x -> payload x b -> node (VScalar x) false (t :: b)
  | nd_array l split count i id elements :
      small (len l) count -> small i id ->
      (* the last element comes first *)
      Forall2 (fun v e => exists s t b, node v s b /\ b2n t = node_code v s /\ e = t :: b) (rev l) elements ->
      divided i split elements -> node (VArr l) split (count ++ id ++ concat elements)
  | nd_map l split count i id elements :
      small (len l) count -> small i id ->
      Forall2 (fun x e => exists k s t b, text (fst x) k /\ node (snd x) s b /\ b2n t = node_code (snd x) s /\ e = k ++ t :: b) l elements ->
      divided i split elements -> node (VMap l) split (count ++ id ++ concat elements).
End Format.

(** A table, preceded by its size. *)
Definition sized (table b : bytes) : Prop := exists n, small (len table) n /\ b = n ++ table.

(** Strings with their numbers, in any order. *)
Inductive string_table (strings : list bytes) : bytes -> Prop :=
| st_ entries count rows :
    Permutation entries (combine strings (map N.of_nat (seq 0 (length strings)))) ->
    small (len entries) count ->
    Forall2 (fun e r => exists l i, small (len (fst e)) l /\ small (snd e) i /\ r = l ++ fst e ++ i) entries rows ->
    string_table strings (count ++ concat rows).

(** Numbers of split containers with their block sizes. *)
Inductive block_table (blocks : list (N * list N)) : bytes -> Prop :=
| bt_ count rows :
    small (len blocks) count -> NoDup (map fst blocks) ->
    Forall2 (fun e r => exists i n sizes, 1 <= fst e /\ small (fst e) i /\ snd e <> [] /\ small (len (snd e)) n /\
                          Forall2 small (snd e) sizes /\ r = i ++ n ++ concat sizes) blocks rows ->
    block_table blocks (count ++ concat rows).

(** The word "root". *)
Definition root_word : bytes := map n2b [114; 111; 111; 116].

(** A document.  [dictionary] tells SeriType::REPLACE from SeriType::NORMAL. *)
Inductive file (split_size : N) (dictionary : bool) (v : value) : bytes -> Prop :=
| file_ size mode mark split body strings blocks tables bt :
    len size = 8 -> network size = 10 + len body ->
    b2n mode = (if dictionary then 1 else 0) -> b2n mark = (if split : bool then 10 else 0) ->
    node (if dictionary then Some strings else None) blocks split_size (VMap [(root_word, v)]) split body ->
    (* the dictionary holds strings of the document, each once *)
    NoDup strings -> (forall s, In s strings -> s = root_word \/ occurs s v) ->
    (if dictionary then exists st, string_table strings st /\ sized st tables else strings = [] /\ tables = []) ->
    block_table blocks bt ->
    forall sbt, sized bt sbt -> file split_size dictionary v (size ++ [mode] ++ [mark] ++ body ++ tables ++ sbt).
