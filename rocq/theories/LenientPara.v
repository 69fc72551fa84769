(** * Specification: what bytes mean for the parallel parser.

    The parallel parser does not walk through a split container from its first to
    its last child: it looks the sizes of the blocks up in the block table, cuts the
    bytes behind the header of the container accordingly and reads every block on
    its own, until it has reached or passed the end of the block.  Blocks may
    therefore overlap or leave gaps, and the announced number of children is not
    used.  The grammar speaks about positions in the whole input. *)
From Verif Require Import Base ModelData ModelSecondary ModelObject ModelWrapper Spec Wire Lenient.

(** The bytes [b] stand at position [i] of [content]. *)
Definition found (content : bytes) (i : N) (b : bytes) : Prop :=
  exists before after, content = before ++ b ++ after /\ len before = i.

Section Positions.
  Variable content : bytes.
  Variable strict : bool.
  Variable D : option (N -> option bytes).          (* dictionary *)
  Variable blocks : list (N * list N).              (* block table: id, sizes *)

  (** [pkey i k j]: the key [k] stands between [i] and [j]. *)
  Inductive pkey : N -> bytes -> N -> Prop :=
  | pk_plain i n l k : D = None -> vint n l -> n mod 2 ^ 32 = len k -> found content i (l ++ k) ->
      pkey i k (i + len (l ++ k))
  | pk_dict d i id l k : D = Some d -> vint id l -> d (id mod 2 ^ 32) = Some k -> found content i l ->
      pkey i k (i + len l).

  (** [pval i v j]: a value read from position [i] is [v] and reading goes on at [j].
      Entries of a map are listed in the order in which lookups see them. *)
  Inductive pval : N -> value -> N -> Prop :=
  | pv_whole i t b v : b2n t < 128 -> tagged v t -> lwire strict D v b -> found content i (t :: b) ->
      pval i (mirror v) (i + len (t :: b))
  | pv_array i t vs j : b2n t = 128 + ObjectTypeToChar TArray -> found content i [t] -> parr (i + 1) vs j ->
      pval i (VArr (rev vs)) j
  | pv_map i t es j : b2n t = 128 + ObjectTypeToChar TMap -> found content i [t] -> pmap (i + 1) es j ->
      pval i (VMap es) j
  (** A split array: number of children (ignored), id, blocks. *)
  with parr : N -> list value -> N -> Prop :=
  | pa i n cnt id idb sizes vss j :
      vint n cnt -> vint id idb -> found content i (cnt ++ idb) -> In (id mod 2 ^ 32, sizes) blocks ->
      parrs (i + len (cnt ++ idb)) sizes vss j -> parr i (concat vss) j
  (** A split map: entries of later blocks are found first. *)
  with pmap : N -> list (bytes * value) -> N -> Prop :=
  | pm i n cnt id idb sizes ess j :
      vint n cnt -> vint id idb -> found content i (cnt ++ idb) -> In (id mod 2 ^ 32, sizes) blocks ->
      pmaps (i + len (cnt ++ idb)) sizes ess j -> pmap i (concat (rev ess)) j
  (** Blocks behind each other. *)
  with parrs : N -> list N -> list (list value) -> N -> Prop :=
  | pas_nil i : parrs i [] [] i
  | pas_cons i n sizes vs vss j : parr_block i (i + n) vs -> parrs (i + n) sizes vss j ->
      parrs i (n :: sizes) (vs :: vss) j
  with pmaps : N -> list N -> list (list (bytes * value)) -> N -> Prop :=
  | pms_nil i : pmaps i [] [] i
  | pms_cons i n sizes es ess j : pmap_block i (i + n) es -> pmaps (i + n) sizes ess j ->
      pmaps i (n :: sizes) (es :: ess) j
  (** One block: children are read until the end is reached or passed. *)
  with parr_block : N -> N -> list value -> Prop :=
  | pab_end i e : e <= i -> parr_block i e []
  | pab_more i e v j vs : i < e -> pval i v j -> parr_block j e vs -> parr_block i e (v :: vs)
  with pmap_block : N -> N -> list (bytes * value) -> Prop :=
  | pmb_end i e : e <= i -> pmap_block i e []
  | pmb_more i e k j v j' es : i < e -> pkey i k j -> pval j v j' -> pmap_block j' e es ->
      pmap_block i e ((k, v) :: es).
End Positions.

(** Tables behind the body, with the block table they contain. *)
Inductive ptables (clear : bool) : SeriType -> option (N -> option bytes) -> list (N * list N) -> bytes -> Prop :=
| pt_normal n sb splits junk : vint (len sb) n -> lsplit splits sb -> ptables clear NORMAL None splits (n ++ sb ++ junk)
| pt_replace n db strings d n' sb splits junk :
    vint (len db) n -> ldict strings db -> reading strings d -> (clear = true -> unambiguous strings) ->
    vint (len sb) n' -> lsplit splits sb ->
    ptables clear REPLACE (Some d) splits (n ++ db ++ n' ++ sb ++ junk).

(** The value under "root": the first one. *)
Definition first_root (entries : list (bytes * value)) : option value := assoc_find bytes_eqb root_key entries.

(** ** Documents whose blocks fit

    The format as its authors mean it: the blocks of a split container are the
    encodings of its children, cut between children, and the number of children is
    the announced one.  Any writer may have produced it (numbers may be padded, any
    ids, any cut between children, empty blocks). *)
Section Tiled.
  Variable strict : bool.
  Variable D : option (N -> option bytes).
  Variable blocks : list (N * list N).
  Definition sizes_of (groups : list (list bytes)) : list N := map (fun g => len (concat g)) groups.

  Inductive tval : value -> bytes -> Prop :=
  | tv_whole v t b : b2n t < 128 -> tagged v t -> lwire strict D v b -> tval v (t :: b)
  | tv_arr l t cnt id i groups :
      b2n t = 128 + ObjectTypeToChar TArray -> vint (len l) cnt -> vint i id ->
      In (i mod 2 ^ 32, sizes_of groups) blocks -> Forall2 tval (rev l) (concat groups) ->
      tval (VArr l) (t :: cnt ++ id ++ concat (concat groups))
  | tv_map l t cnt id i groups :
      b2n t = 128 + ObjectTypeToChar TMap -> vint (len l) cnt -> vint i id ->
      In (i mod 2 ^ 32, sizes_of groups) blocks ->
      Forall2 (fun e ch => exists kb b, lstr D (fst e) kb /\ tval (snd e) b /\ ch = kb ++ b) l (concat groups) ->
      tval (VMap l) (t :: cnt ++ id ++ concat (concat groups)).

  (** The body of a document: a split map without its tag. *)
  Definition tbody (entries : list (bytes * value)) (body : bytes) : Prop :=
    tval (VMap entries) (n2b 129 :: body).
End Tiled.
