(** * Which coroutines the parallel parser starts, and what each takes from its pool.

    [ModelParse] gives the result of the parallel parser and [ModelFrames] what happens
    to the pools for whatever coroutines there are.  Here the coroutines of one parse are
    computed from the input: for every coroutine its allocations, its awaits and where it
    throws, in order, the states in between being those of [ModelParse]. *)
From Verif Require Import Base ModelVarint ModelData ModelSecondary ModelObject ModelParse ModelWrapper ModelStorage ModelFrames ModelAlloc.

Section Jobs.
  Variable E : penv.
  Variable si : split_info.
  Variable get : N -> outcome view.
  Notation R := (b_env E).

  (** object.h:1374-1380 = 1532-1538: the count, the id and the sizes of the blocks. *)
  Definition split_ranges (os : N) : outcome (list (N * N)) :=
    obind (parseLength R {| idx := os; off := os |}) (fun x =>
    obind (parseLength R (snd x)) (fun y =>
    omap (fun sizes => fst (ranges (idx (snd y)) sizes)) (GetBlockInfoFromId si (u32 (fst y))))).

  (** object.h:1371-1399 [ParseArray].  Simplification: the array (1392) is listed before
      the await instead of after it, so that it is allocated also when a block throws
      (its [value()] rethrows at 1395, after 1392). *)
  Fixpoint array_job (fuel : nat) (pr : bool) (os : N) {struct fuel} : job :=
    match fuel with
    | O => [AThrow]
    | S f =>
        match split_ranges os with
        | Ok rs => [AAlloc KArray false;
                    ASpawn true (map (fun be => array_block_job f pr (snd be) {| idx := fst be; off := fst be |}) rs)]
        | _ => [AThrow]
        end
    end

  (** object.h:1529-1572 [ParseMap]. *)
  with map_job (fuel : nat) (pr : bool) (os : N) {struct fuel} : job :=
    match fuel with
    | O => [AThrow]
    | S f =>
        match split_ranges os with
        | Ok rs => [AAlloc (kind pr TMap) false;
                    ASpawn false (map (fun be => map_block_job f pr (snd be) {| idx := fst be; off := fst be |}) rs)]
        | _ => [AThrow]
        end
    end

  (** object.h:1331-1354 = 1424-1446 = 1488-1511: one value inside a block; a value that
      is not split is parsed in the coroutine itself, with its pool. *)
  with value_job (fuel : nat) (pr : bool) (s : rstate) {struct fuel} : job :=
    match fuel with
    | O => [AThrow]
    | S f =>
        match parseObjectType_split R s with
        | Ok (t, need_to_split, s1) =>
            if need_to_split : bool then
              match t with
              | TArray => [ASpawn false [array_job f pr (idx s1)]]
              | TMap => [ASpawn false [map_job f pr (idx s1)]]
              | TData => [AThrow]
              end
            else
              AAlloc (kind pr t) false :: map (fun k => AAlloc k false) (value_allocs E get CoroFrame pr f t s1) ++
              match run get (valueParse E CoroFrame pr f t s1) with Ok _ => [] | _ => [AThrow] end
        | _ => [AThrow]
        end
    end

  (** object.h:1317-1368 [ParseArrayBlock]. *)
  with array_block_job (fuel : nat) (pr : bool) (end_ : N) (s : rstate) {struct fuel} : job :=
    match fuel with
    | O => [AThrow]
    | S f =>
        if off s <? end_ then
          value_job f pr s ++
          match run get (block_value E si f pr s) with
          | Ok (_, s1) => AAlloc KArrayItem false :: array_block_job f pr end_ s1
          | _ => []
          end
        else []
    end

  (** object.h:1401-1462 [ParseMapBlock], 1464-1527 [ParseMapViewBlock]: the same but for
      the copy of the key (1417, 1422) and the class of the item (1448, 1513). *)
  with map_block_job (fuel : nat) (pr : bool) (end_ : N) (s : rstate) {struct fuel} : job :=
    match fuel with
    | O => [AThrow]
    | S f =>
        if off s <? end_ then
          match run get (block_key E s) with
          | Ok (kv, s1) =>
              match (if pr then Ok [] else read_local R kv) with
              | Ok _ =>
                  value_job f pr s1 ++
                  match run get (block_value E si f pr s1) with
                  | Ok (_, s2) => AAlloc (entry_kind pr) false :: map_block_job f pr end_ s2
                  | _ => []
                  end
              | _ => [AThrow]
              end
          | _ => [AThrow]
          end
        else []
    end.
End Jobs.

(** object.h:1805-1818 [CoroutineScheduler::Parse] of a document whose root is split:
    the coroutine of the root map.  ([None]: the document is not parsed by coroutines.) *)
Definition Parse_job (c : cfg) (fuel : nat) (content : bytes) (buf : nat) (parse_ref : bool) : option job :=
  match initFromContent c fuel content buf with
  | Ok sc => if sc_need_to_split sc then Some (map_job (doc_env c content buf sc) (sc_split sc) (getter c (sc_map sc)) fuel parse_ref meta_size)
             else None
  | _ => None
  end.
