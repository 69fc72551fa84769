(** * Programs that also parse and serialize documents (object.h:1622-1677, 1765-1842).

    A session is a client program (ModelClient.v) that also owns byte buffers.  It can
    serialize an object into a buffer and parse a buffer into a pool.  Parsing is the
    sequential parser of ModelParse.v, here with every step it makes in memory: the calls
    to the pool and to the containers, in their order, whether it succeeds or throws. *)
From Verif Require Import Base ModelVarint ModelData ModelSecondary ModelObject ModelParse ModelWrapper ModelPool ModelStorage ModelFrames ModelAlloc ModelParaAlloc ModelClient.
Local Open Scope out_scope.

(** ** What the sequential parser does in memory *)

Section Calls.
  Variable E : penv.
  Variable get : N -> outcome view.
  Variable p : pool.
  Variable i : nat.           (* the same pool, as a number *)
  Variable pr : bool.
  Notation R := (b_env E).

  (** object.h:1035-1053 [object_factory]: the child before it is parsed. *)
  Definition make_call (t : objtype) : ccall :=
    match t with TData => CData i pr (BRIDGE_INVALID, SNone) | _ => CCont i (kind pr t) end.

  (** object.h:208-224, 327-342, 556-579, 739-755, 863-876 [valueParse] of the object in
      variable [n]; the next free variable is [m].  Result: the calls, and the next free
      variable afterwards.  Simplification: a Data or DataView gets its value at the end;
      one whose parse fails keeps [BRIDGE_INVALID] (nobody can see it). *)
  Fixpoint value_calls (fuel : nat) (t : objtype) (s : rstate) (n m : nat) {struct fuel} : list ccall * nat :=
    match fuel with
    | O => ([], m)
    | S f =>
        match t with
        | TData =>
            (match run get (Data_valueParse E pr s) with
             | Ok (OData dt x, _) | Ok (ODataView dt x, _) => [CAssign n (dt, x)]
             | _ => []
             end, m)
        | _ =>
            let r :=
              match obind (parseLength R s) (fun x => omap (fun y => (fst x, snd y)) (parseLength R (snd x))) with
              | Ok (count, s2) =>
                  match t with
                  | TArray => array_calls f count s2 n m
                  | _ => if pr then entry_calls f count s2 n m
                         else match check_oor R s2 with Ok _ => entry_calls f count s2 n m | _ => ([], m) end
                  end
              | _ => ([], m)
              end in
            (CClear n :: fst r, snd r)
        end
    end
  (* object.h:565-576. *)
  with array_calls (fuel : nat) (count : N) (s : rstate) (n m : nat) {struct fuel} : list ccall * nat :=
    match fuel with
    | O => ([], m)
    | S f =>
        if count =? 0 then ([], m)
        else match parseObjectType R s with
             | Ok (t, s1) =>
                 let c1 := value_calls f t s1 m (S m) in
                 match run get (valueParse E p pr f t s1) with
                 | Ok (_, s2) =>
                     let c2 := array_calls f (count - 1) s2 n (snd c1) in
                     (make_call t :: fst c1 ++ CAppend i n (OwnKey []) (Some m) :: fst c2, snd c2)
                 | _ => (make_call t :: fst c1, snd c1)
                 end
             | _ => ([], m)
             end
    end
  (* object.h:747-753, 870-874. *)
  with entry_calls (fuel : nat) (count : N) (s : rstate) (n m : nat) {struct fuel} : list ccall * nat :=
    match fuel with
    | O => ([], m)
    | S f =>
        if count =? 0 then ([], m)
        else match run get (parse_key E s) with
             | Ok (kv, s1) =>
                 match parseObjectType R s1 with
                 | Ok (t, s2) =>
                     let c1 := value_calls f t s2 m (S m) in
                     match run get (valueParse E p pr f t s2) with
                     | Ok (_, s3) =>
                         match (if pr then Ok (RefKey kv) else omap OwnKey (read_local R kv)) with
                         | Ok key =>
                             let c2 := entry_calls f (count - 1) s3 n (snd c1) in
                             (make_call t :: fst c1 ++ CInsert n key (Some m) :: fst c2, snd c2)
                         | _ => (make_call t :: fst c1, snd c1)
                         end
                     | _ => (make_call t :: fst c1, snd c1)
                     end
                 | _ => ([], m)
                 end
             | _ => ([], m)
             end
    end.
End Calls.

(** object.h:1765-1782 [NormalScheduler::Parse] up to [offset != GetTotalSize()]; the
    root map or map view is variable [m]. *)
Definition Parse_calls (c : cfg) (fuel : nat) (content : bytes) (buf : nat) (i : nat) (parse_ref : bool) (m : nat) : list ccall :=
  match initFromContent c fuel content buf with
  | Ok sc =>
      make_call i parse_ref TMap ::
      fst (value_calls (doc_env c content buf sc) (getter c (sc_map sc)) (PoolId i) i parse_ref fuel TMap
             {| idx := meta_size; off := meta_size |} m (S m))
  | _ => []
  end.
(** How that ends: object.h:1717-1755, 1777-1780. *)
Definition Parse_check (c : cfg) (fuel : nat) (content : bytes) (buf : nat) (i : nat) (parse_ref : bool) : outcome unit :=
  sc <- initFromContent c fuel content buf ;;
  '(_, s) <- run (getter c (sc_map sc)) (valueParse (doc_env c content buf sc) (PoolId i) parse_ref fuel TMap {| idx := meta_size; off := meta_size |}) ;;
  if negb (off s =? sc_total sc) then Throw ERuntime else Ok tt.

(** ** What the parallel parser does in memory

    One of its executions: every coroutine runs to its end before the next one starts, the
    blocks of an array first to last, those of a map last to first.  [m] is the next free
    variable, [q] the number of BridgePools made so far; the results say how both go on and
    how the coroutine ended ([frame], ModelFrames.v). *)
Section ParaCalls.
  Variable E : penv.
  Variable si : split_info.
  Variable get : N -> outcome view.
  Variable pr : bool.
  Notation R := (b_env E).

  (* Blocks one after the other; object.h:1391, 1549, 1565 (collectAllPara). *)
  Fixpoint seq_blocks (blk : N * N -> nat -> nat -> list ccall * (nat * nat) * frame) (rs : list (N * N)) (m q : nat) : list ccall * (nat * nat) * list frame :=
    match rs with
    | [] => ([], (m, q), [])
    | be :: rs' =>
        let '(c1, (m1, q1), fr) := blk be m q in
        let '(c2, mq, frs) := seq_blocks blk rs' m1 q1 in
        (c1 ++ c2, mq, fr :: frs)
    end.

  (** object.h:1367, 1398, 1461, 1526, 1571 [co_return], or an exception: the end of the
      coroutine whose [bp] is pool [j]. *)
  Definition leave_coro (ok : bool) (j q : nat) : list ccall * nat * frame :=
    if ok then ([CPool (BpMove j); CPool (BpDestroy j)], S q, FDone q) else ([CPool (BpDestroy j)], q, FFail).

  (** object.h:1317-1368, 1401-1462, 1464-1527: does this block end without an exception? *)
  Definition block_ok (fuel : nat) (t : objtype) (be : N * N) : bool :=
    let s := {| idx := fst be; off := fst be |} in
    match run get (match t with
                   | TArray => ParseArrayBlock E si fuel pr (snd be) s [] 0
                   | _ => if pr then ParseMapViewBlock E si fuel (snd be) s [] 0 else ParseMapBlock E si fuel (snd be) s [] 0
                   end) with Ok _ => true | _ => false end.

  (** object.h:1414-1422, 1478-1486: the key of an entry; the items of arrays have none. *)
  Definition item_key (t : objtype) (s : rstate) : outcome (ckey * rstate) :=
    match t with
    | TArray => Ok (OwnKey [], s)
    | _ => '(kv, s1) <- run get (block_key E s) ;;
           if pr then Ok (RefKey kv, s1) else omap (fun b => (OwnKey b, s1)) (read_local R kv)
    end.
  (* array_item(), map_item(), map_view_item(): object.h:1356, 1447, 1512. *)
  Definition item_kind (t : objtype) : cls := match t with TArray => KArrayItem | _ => entry_kind pr end.

  (** object.h:1371-1399 [ParseArray], 1529-1572 [ParseMap]; its [bp] is pool [q], its
      array or map is variable [m].  Simplification: the container is made before the blocks
      run (the code makes it after them, at 1392, 1541, 1557), so that their items can hang
      at it from the beginning, see [cl_Append]. *)
  Fixpoint coro_calls (fuel : nat) (t : objtype) (os : N) (m q : nat) {struct fuel} : list ccall * (nat * nat) * frame :=
    match fuel with
    | O => ([CPool BpNew; CPool (BpDestroy q)], (m, S q), FFail)
    | S f =>
        match split_ranges E si os with
        | Ok rs =>
            let '(c1, (m1, q1), frs) :=
              seq_blocks (fun be m' q' =>
                (* object.h:1317-1368, 1401-1462, 1464-1527: a block; its bp is pool q' *)
                let ok := block_ok f t be in
                let '(c, (m2, q2)) := item_calls f t ok q' m (snd be) {| idx := fst be; off := fst be |} m' (S q') in
                let '(c', q3, fr) := leave_coro ok q' q2 in
                (CPool BpNew :: c ++ c', (m2, q3), fr))
                (match t with TArray => rs | _ => rev rs end) (S m) (S q) in
            let '(ops, ok) := merges q (rev frs) in
            let '(c2, q2, fr) := leave_coro ok q q1 in
            (CPool BpNew :: CCont q (kind pr t) :: c1 ++ map CPool (ops ++ map BpDestroy (held (match t with TArray => frs | _ => rev frs end))) ++ c2, (m1, q2), fr)
        | _ => ([CPool BpNew; CPool (BpDestroy q)], (m, S q), FFail)
        end
    end

  (** The items of a block, [j] being its [bp] and [n] the container they are for.
      (Simplification: the items of a block that is going to throw hang nowhere.) *)
  (* object.h:1331-1366, 1413-1460, 1477-1525. *)
  with item_calls (fuel : nat) (t : objtype) (ok : bool) (j n : nat) (end_ : N) (s : rstate) (m q : nat) {struct fuel} : list ccall * (nat * nat) :=
    match fuel with
    | O => ([], (m, q))
    | S f =>
        if off s <? end_ then
          match item_key t s with
          | Ok (key, s1) =>
              let '(c1, (m1, q1)) := element_calls f j s1 m q in
              match run get (block_value E si f pr s1) with
              | Ok (_, s2) =>
                  let '(c2, mq) := item_calls f t ok j n end_ s2 m1 q1 in
                  (c1 ++ (if ok then CAppend j n key (Some m) else CScratch j (item_kind t)) :: c2, mq)
              | _ => (c1, (m1, q1))
              end
          | _ => ([], (m, q))
          end
        else ([], (m, q))
    end

  (** object.h:1331-1354 = 1424-1446 = 1488-1511: one value; one that is not split is parsed
      by the coroutine itself, with its pool [j]. *)
  with element_calls (fuel : nat) (j : nat) (s : rstate) (m q : nat) {struct fuel} : list ccall * (nat * nat) :=
    match fuel with
    | O => ([], (m, q))
    | S f =>
        match parseObjectType_split R s with
        | Ok (t, split, s1) =>
            if split : bool then
              match t with
              | TData => ([], (m, q))
              | _ =>
                  let '(c, mq, fr) := coro_calls f t (idx s1) m q in
                  (c ++ match fr with FDone r => map CPool (deliver j r) | _ => [] end, mq)
              end
            else
              let r := value_calls E get (PoolId j) j pr f t s1 m (S m) in
              (make_call j pr t :: fst r, (snd r, q))
        | _ => ([], (m, q))
        end
    end.
End ParaCalls.

(** object.h:1805-1818 [CoroutineScheduler::Parse]: the root map is variable [m], there are
    [q] pools so far. *)
Definition Coro_calls (c : cfg) (fuel : nat) (content : bytes) (buf : nat) (i : nat) (parse_ref : bool) (m q : nat) : list ccall :=
  match initFromContent c fuel content buf with
  | Ok sc =>
      if sc_need_to_split sc then
        let '(cs, _, fr) := coro_calls (doc_env c content buf sc) (sc_split sc) (getter c (sc_map sc)) parse_ref fuel TMap meta_size m q in
        cs ++ match fr with FDone r => map CPool (deliver i r) | _ => [] end
      else Parse_calls c fuel content buf i parse_ref m
  | _ => []
  end.
(** How that ends: object.h:1717-1755, 1805-1817. *)
Definition Coro_check (c : cfg) (fuel : nat) (content : bytes) (buf : nat) (i : nat) (parse_ref : bool) : outcome unit :=
  sc <- initFromContent c fuel content buf ;;
  if sc_need_to_split sc then
    '(_, _) <- run (getter c (sc_map sc)) (ParseMap (doc_env c content buf sc) (sc_split sc) fuel parse_ref meta_size) ;; Ok tt
  else Parse_check c fuel content buf i parse_ref.

(** ** Sessions *)

(** The client program, its buffers (std::string objects, by number), and - not part of
    the program - the calls made so far. *)
(* The arguments and results of Serialize and Parse, object.h:1670-1677, 1831-1842. *)
Record session := { se_client : client; se_mem : memory; se_done : list ccall }.
(* The beginning; no counterpart (object.h:996). *)
Definition session0 : session := {| se_client := client0; se_mem := fun _ => None; se_done := [] |}.

(** The lookups of map views read the program's buffers. *)
(* The comparisons of object.h:710, 721, 855, 936 read what the keys point to now. *)
Definition with_memory (um : memory) (op : ccall) : ccall :=
  match op with CTake _ c key => CTake um c key | CLookup _ c key => CLookup um c key | op => op end.
(* A string object gets new content or goes away; no counterpart in the library (object.h:1670, 1831 take them). *)
Definition set_buffer (b : nat) (x : option bytes) (um : memory) : memory :=
  fun b' => if Nat.eqb b' b then x else um b'.

(* The calls of a program, object.h:71-954 ([ccall]), 1670-1677 (Serialize), 1831-1842 (Parse). *)
Inductive scall :=
| SCall (op : ccall)
| SBuffer (b : nat) (x : option bytes)                               (* the program's own writing to its strings *)
| SSave (depth : nat) (ty : SeriType) (i n b : nat)                  (* b = Serialize<ty>(object n, pool i); nesting at most depth *)
| SLoad (i b : nat) (parse_ref : bool)                               (* Parse(b, pool i, {Normal, parse_ref}) *)
| SLoadPara (i b : nat) (parse_ref : bool).                          (* Parse(b, pool i, {Coroutine, parse_ref}) *)
(* The results, or the exception (object.h:1670-1677, 1831-1842). *)
Inductive sess_answer := SAns (a : canswer) | SThrown (e : exn).

(* Calls on the client; the history grows (object.h:71-954). *)
Definition se_do (s : session) (ops : list ccall) : outcome (session * list canswer) :=
  '(w, rs) <- cl_run (se_client s) ops ;;
  Ok ({| se_client := w; se_mem := se_mem s; se_done := se_done s ++ ops |}, rs).

(** A parse: its steps in memory, how they end, and the [Get] on the root map (variable
    number [length (k_vars (se_client s))]) that gives the result. *)
(* object.h:1777-1781, 1814-1818. *)
Definition se_load (s : session) (calls : list ccall) (check : outcome unit) : outcome (session * sess_answer) :=
  '(s1, _) <- se_do s calls ;;
  match check with
  | Ok _ =>
      '(s2, rs) <- se_do s1 [CTake (se_mem s) (length (k_vars (se_client s))) root_key] ;;
      match rs with [a] => Ok (s2, SAns a) | _ => UB end
  | Throw e => Ok (s1, SThrown e)
  | UB => UB | Abort => Abort | Fuel => Fuel
  end.

(** One call. *)
(* object.h:71-954; Serialize 1622-1677: the root map is a local variable, its one item comes from the pool, and
   the object is reachable as before afterwards (simplification: it is read completely before any byte is written);
   Parse 1765-1782, 1805-1818, 1831-1842. *)
Definition se_step (c : cfg) (fuel : nat) (s : session) (op : scall) : outcome (session * sess_answer) :=
  match op with
  | SCall op =>
      '(s', rs) <- se_do s [with_memory (se_mem s) op] ;;
      match rs with [a] => Ok (s', SAns a) | _ => UB end
  | SBuffer b x => Ok ({| se_client := se_client s; se_mem := set_buffer b x (se_mem s); se_done := se_done s |}, SAns AnNone)
  | SSave depth ty i n b =>
      '(s1, rs) <- se_do s [CScratch i KMapItem; CView depth n] ;;
      match rs with
      | [_; AnView o] =>
          match Serialize c (se_mem s1) ty (PoolId i) o with
          | Ok content => Ok ({| se_client := se_client s1; se_mem := set_buffer b (Some content) (se_mem s1); se_done := se_done s1 |}, SAns AnNone)
          | Throw e => Ok (s1, SThrown e)
          | UB => UB | Abort => Abort | Fuel => Fuel
          end
      | _ => UB
      end
  | SLoad i b pr =>
      match se_mem s b with
      | None => UB
      | Some content => se_load s (Parse_calls c fuel content b i pr (length (k_vars (se_client s)))) (Parse_check c fuel content b i pr)
      end
  | SLoadPara i b pr =>
      match se_mem s b with
      | None => UB
      | Some content =>
          se_load s (Coro_calls c fuel content b i pr (length (k_vars (se_client s))) (length (w_pools (k_pools (se_client s) KData))))
            (Coro_check c fuel content b i pr)
      end
  end.

(* A sequence of calls by the user (object.h:71-954, 1670-1677, 1831-1842). *)
Fixpoint se_run (c : cfg) (fuel : nat) (s : session) (ops : list scall) : outcome (session * list sess_answer) :=
  match ops with
  | [] => Ok (s, [])
  | op :: ops' =>
      '(s1, a) <- se_step c fuel s op ;;
      '(s2, r) <- se_run c fuel s1 ops' ;;
      Ok (s2, a :: r)
  end.
