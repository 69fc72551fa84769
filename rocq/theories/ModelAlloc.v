(** * Which objects the sequential parser takes from the caller's BridgePool.

    The parser of [ModelParse] gives results; here is the list of the pool
    allocations it makes on the way, in order, whether it ends with a result or with
    an exception (nothing is given back before [Clear]: the deleter of the
    [unique_ptr]s is empty, object_pool.h:128).  The states between the allocations are
    those of [ModelParse]. *)
From Verif Require Import Base ModelVarint ModelData ModelSecondary ModelObject ModelParse ModelWrapper ModelStorage.

(** object.h:1035-1053 [object_factory]; the root: object.h:1772-1776. *)
Definition kind (parse_ref : bool) (t : objtype) : cls :=
  match t with
  | TData => if parse_ref then KDataView else KData
  | TMap => if parse_ref then KMapView else KMap
  | TArray => KArray
  end.
(** object.h:693-703 (Map::Insert), 943-953 (MapView::Insert). *)
Definition entry_kind (parse_ref : bool) : cls := if parse_ref then KMapViewItem else KMapItem.

Section Alloc.
  Variable E : penv.
  Variable get : N -> outcome view.
  Variable p : pool.
  Variable pr : bool.
  Notation R := (b_env E).

  (** object.h:556-579, 739-755, 863-876 with [parse_child] 462-470: a child is
      allocated after its tag has been read, its item after the child has been parsed
      (and the key been copied). *)
  Fixpoint value_allocs (fuel : nat) (t : objtype) (s : rstate) {struct fuel} : list cls :=
    match fuel with
    | O => []
    | S f =>
        match t with
        | TData => []
        | _ =>
            match obind (parseLength R s) (fun x => omap (fun y => (fst x, snd y)) (parseLength R (snd x))) with
            | Ok (count, s2) =>
                match t with
                | TArray => array_allocs f count s2
                | _ => if pr then entry_allocs f count s2
                       else match check_oor R s2 with Ok _ => entry_allocs f count s2 | _ => [] end
                end
            | _ => []
            end
        end
    end
  (* object.h:565-576. *)
  with array_allocs (fuel : nat) (count : N) (s : rstate) {struct fuel} : list cls :=
    match fuel with
    | O => []
    | S f =>
        if count =? 0 then []
        else match parseObjectType R s with
             | Ok (t, s1) =>
                 kind pr t :: value_allocs f t s1 ++
                 match run get (valueParse E p pr f t s1) with
                 | Ok (_, s2) => KArrayItem :: array_allocs f (count - 1) s2
                 | _ => []
                 end
             | _ => []
             end
    end
  (* object.h:747-753, 870-874. *)
  with entry_allocs (fuel : nat) (count : N) (s : rstate) {struct fuel} : list cls :=
    match fuel with
    | O => []
    | S f =>
        if count =? 0 then []
        else match run get (parse_key E s) with
             | Ok (kv, s1) =>
                 match parseObjectType R s1 with
                 | Ok (t, s2) =>
                     kind pr t :: value_allocs f t s2 ++
                     match run get (valueParse E p pr f t s2) with
                     | Ok (_, s3) =>
                         match (if pr then Ok [] else read_local R kv) with
                         | Ok _ => entry_kind pr :: entry_allocs f (count - 1) s3
                         | _ => []
                         end
                     | _ => []
                     end
                 | _ => []
                 end
             | _ => []
             end
    end.
End Alloc.

(** object.h:1765-1782 [NormalScheduler::Parse]: nothing is allocated while the
    header and the tables are read (object.h:1717-1755). *)
Definition Parse_allocs (c : cfg) (fuel : nat) (content : bytes) (buf : nat) (p : pool) (parse_ref : bool) : list cls :=
  match initFromContent c fuel content buf with
  | Ok sc => kind parse_ref TMap ::
      value_allocs (doc_env c content buf sc) (getter c (sc_map sc)) p parse_ref fuel TMap {| idx := meta_size; off := meta_size |}
  | _ => []
  end.
