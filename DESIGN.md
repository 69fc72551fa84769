# A Rocq (Coq 8.16.1) model of chloro-pn/bridge

## 1. Approach

Executable Gallina model, one definition per C++ function, each with a comment
citing file and lines.  Undefined behaviour, failed asserts, exceptions and
exhausted fuel are four *distinct* outcomes:

    outcome A := Ok a | Throw e | Abort | UB | Fuel

* `cfg` makes the platform explicit: byte order, NDEBUG, signedness of plain
  `char`, the split block size (10 MiB constant in the code, arbitrary here) and
  the iteration order of `std::unordered_map` (an arbitrary permutation of the
  content; it may depend on the keys in any way; `sane` only says that it is a permutation and that char is signed).
* Memory: buffers are `list byte` named by a number; a `string_view` is
  (buffer, offset, length); reading outside a live buffer is `UB` (index = size
  of a `std::string` reads the NUL terminator).
* Untagged `variant` storage is a tagged sum in the model; reading it at another
  type than the stored one is `UB`.
* Linked lists are lists (head first), `size_` is kept as a separate field.
* The parser is written in a free monad with two effects: `GetStr` (touches the
  lazily built shared table) and `Par` (collectAllPara over block tasks).  `run`
  is the sequential meaning; a small-step relation gives every interleaving.
* All index arithmetic is modulo 2^64, 32-bit truncations are written out.
* Fuel: the parser takes a `fuel` number decreasing at every nested call and loop
  iteration.  `Fuel` is never equal to any result, every positive theorem shows a
  result for every fuel from a stated bound on (the document length), and C15
  uses "Fuel for every fuel" as non-termination.

Files in `rocq/theories`:

| Kind | Files |
|------|-------|
| model | `Base` (outcome, cfg, bytes), `ModelVarint`, `ModelData`, `ModelSecondary` (string map, split info, tables), `ModelObject` (object tree, serializer), `ModelParse`, `ModelWrapper`, `ModelDataLife` (Data as a state machine), `ModelPattern`, `ModelDump`, `ModelAdaptor`, `ModelPool`, `ModelStorage`, `ModelThreadPool`, `ModelConcurrent`, `ModelLinked` (containers as linked items), `ModelFrames` (BridgePools handed between coroutines), `ModelExec` (parser tasks on the worker threads), `ModelTypes` (variant.h, type traits, overloads of adaptor and Data), `ModelCopy` (copies of containers), `ModelPatternLife` (ownership of pattern parts), `ModelAlloc`, `ModelParaAlloc` (the pool allocations and the coroutines of one parse), `ModelPoolParse` (the thread pool's locks and the parser's coroutines in one machine), `ModelClient` (client programs over pools and containers; simplified: constructors of pool objects do not throw; calls that compare keys of map views carry the user memory these point into; container copies are in ModelCopy only), `ModelSession` (programs that also parse and serialize: the steps of both parsers in memory, buffers of the program), `ModelOom`, `ModelOomPool`, `ModelOomClient` (object pools, BridgePools, programs when requests for memory fail) |
| specification | `Spec` (values, paths, lookups; nothing of the model), `SpecApi` (denotes, built, what the API shows), `Wire` (grammar of the format), `Lenient`, `LenientPara` (what the parsers accept, as grammars), `Overrun` (which documents lead the sequential parser out of bounds) |
| proofs | `*Proofs.v` |
| theorems | `Prop*.v`, one `Theorem Cxx_...` per claim, with `Example Cxx_met` (or a lemma of that kind) showing a concrete case meeting the hypotheses |
| audit | `Assumptions.v`: `Print Assumptions` of every `C` theorem |

## 2. Trusted base

* Coq 8.16.1's kernel, including its `vm_compute` machine (used to evaluate closed
  examples).
* `Print Assumptions` answers "Closed under the global context" for **every**
  theorem (see the output of `Assumptions.v` in the build): no axiom at all, neither
  own nor of the standard library.  (The seven parameters `Coq.ssr.ssrunder.*`
  that a listing of the loaded context shows come with the standard library's
  ssreflect files; no theorem depends on them.)
* The correspondence between the C++ text and the model, made checkable by the
  file/line citations.  The definitions that a reader has to trust to understand
  the statements are those of the model and of `Spec`, `SpecApi`, `Wire`, `Lenient`, and the
  small vocabularies at the top of each `Prop*.v`.

## 3. What is modelled, what is not

Modelled, function by function: `varint.h`, `util.h` (byte order, stack buffers),
`data_type.h`, `object_type.h`, `variant.h` (as tagged sum with life-cycle),
`inner.h`, `string_map.h`, `split_info.h`, `serialize.h`, `parse.h`, all of
`object.h` (Data, DataView, Array, Map, MapView, BridgePool, ObjectWrapper and
iterators, Serialize, Parse, NormalScheduler, CoroutineScheduler, valueParse,
coro_valueParse, dump), `object_pool.h`, `pattern.h`, `adaptor.h`,
`async_executor/thread_pool.h`, `async_executor/executor.h`.

Not modelled, and assumed:

* `std::` containers, mutex, condition variable and threads behave as the standard
  says; `async_simple`'s `Lazy`/`collectAllPara` runs its tasks in any interleaving
  and collects results by position; `syncAwait` returns when the root task is done.
* Allocation never fails (`bad_alloc`, null from `aligned_alloc`) except in `ModelOom`,
  `ModelOomPool` and `ModelOomClient`, the machine
  stack is unbounded (deep documents), `uint64_t` reference counts do not overflow.
* `&tmp[0]` on an empty vector or string_view is formally UB; the model returns the
  empty range.
* Concurrent calls of the non-const `unordered_map::operator[]` on a completed
  table are treated as reads (formally a race).
* `Timer`/`GetCurrentMs`, the concepts of `type_trait.h` other than those behind
  `adaptor` (they select which calls exist; the model has one constructor per
  accepted type), the move constructors of
  Data/Array/Map used only to hand values to pools, benchmark and example programs.
* `ModelThreadPool`'s tasks only push, stop or ask for their id and `ModelExec`'s queue
  is atomic; `ModelPoolParse` joins the two: the parser's coroutines are the pool's tasks
  and every lock operation is a step.  It assumes of async_simple: `via`/`syncAwait` hand
  the root to `schedule` and block until it has ended; `collectAllPara` starts a single
  element in place, hands several to `schedule` in order, stores results by position, and
  the thread that counts the last element down resumes the awaiting coroutine at once.

## 4. Plan and result per property

"refuted" = the property as stated is false of the code; a `_refuted` theorem
exhibits it and a `_partial` theorem gives the strongest true restriction we have.

| Id | Modelled | Proof | Result |
|----|----------|-------|--------|
| C01 C02 C03 C06 C47 | serializer, parser, parallel parser | grammar relation `wire`: serializer output is in it (induction on the tree), each parser inverts it (induction on the derivation) | proved |
| C04 | views as (buffer, offset, length) | conclusion of the same inversion lemma | proved |
| C05 C16 | parser on arbitrary bytes | invariants by induction on fuel, no hypothesis on the input | proved |
| C07 C08 | small-step interleavings of the free monad | confluence with `run`; invariant "table built before the first fork with 2 tasks" | proved |
| C09 | memory representation of numbers per byte order | algebra on byte lists | proved |
| C10 C45 | varint.h | induction on the number of 7-bit groups; refutation and exact characterisation for unsigned char | C10 proved, C45 refuted + iff |
| C11 C30 C46 | serializer | consequences of the grammar relation and of its table invariants | proved |
| C12 C13 | Scheduler::initFromContent, Parse | case analysis on the cut point; frame lemmas (a run on a buffer against the run on a longer buffer); refutation inside the tables | C12 refuted + partial, C13 proved |
| C71 C72 | Parse on arbitrary bytes / with a foreign split table | frame lemmas for every reader function, uniqueness of owning trees | proved |
| C73 C74 C75 | grammar of accepted bytes (Lenient.v, written without the parsers) and the sequential parser | soundness by induction on the fuel, completeness by induction on the fuel, uniqueness as a corollary | proved |
| C74 (continued) | all parse programs under two platform configurations | step-by-step relation between the two programs (PlatformSim.v: equal, or the build with assertions aborts), getters equal for dictionaries without shared ids; the grammars give bytes at most one meaning (GrammarUnique.v); PropPlatform.v | proved; the excluded dictionaries are C67's counterexample |
| C76 C77 | in-place parser against the same grammar (LenientRef.v) | induction on the fuel in both directions; refutation by evil_view; PropInsituAny.v: a partial-correctness induction over both parsers showing that absurd lengths are the only exception | C76 proved, C77 partial |
| C78 C79 | measures of the objects built from accepted bytes | cost of every rule of the grammar of C73; for the refutation a family of documents, one per n | C78 proved, C79 refuted + partial |
| C80 | the parallel parser on a family of hostile documents | induction on the number of levels, each readable from its first and its second byte | refuted + partial |
| C81 | nesting of accepted documents | family of nested documents through C73 completeness; upper bound from C78 | refuted + partial |
| C82 | parallel owning parser against a positional grammar (LenientPara.v) | mutual induction on the fuel (soundness) and on the derivation size (completeness), LenientParaProofs.v | proved |
| C83 | both parsers on documents of any writer | tiled documents: the positional and the sequential grammar meet; refutations by three concrete documents | refuted + partial |
| C84 | parse, edit, serialize, parse | composition of C73, the container model and the round trip; induction on the edits | proved |
| C85 | in-place results under other memories | induction on the object: denotation under the new memory has the same shape | proved |
| C86 | in-place parse against copying parse, both schedulers, arbitrary bytes | step-by-step simulation of the two programs by mutual induction on the fuel, in both directions (InsituSim.v, InsituBack.v) | proved |
| C14 C15 | parser on hostile bytes | witnesses; termination measure by cursor progress | refuted + partial |
| C17 C18 C20 C22 C23 C34 C52 | containers, wrapper, Data as state machines | refinement to lists / association lists, induction on op sequences | proved |
| C19 C24 C27 C33 C37 C38 C42 C44 C48 C49 C50 C51 | the code violates the full statement | `_refuted` witness and the strongest true restriction | refuted + partial |
| C21 C39 | order of maps after parse | `mirror` function on values, dump as function of the value | proved |
| C25 C26 | pattern.h | structural induction on patterns | proved |
| C28 C29 | StringMap, SplitInfo | induction on op sequences; codec round trip for any permutation | proved |
| C31 C32 | ObjectPool/Block | invariants over op sequences on several pools, a separate heap semantics checks the trace | proved |
| C35 C36 C54 | ThreadPool as labelled transition system (mutex-atomic steps, condition variable with spurious wake-ups) | inductive invariants over all schedules; a budget function for termination | proved |
| C53 C55 C56 | same | witnesses and invariants | refuted + partial |
| C57 | parallel parse of arbitrary bytes | witness document `racy_doc`; exact condition (two root blocks begin with a key, PropRace.v): the racing schedule for every such document, invariant over all schedules for the others | refuted + partial |
| C40 C41 | adaptor.h, custom types | induction over the container value | proved |
| C58 C59 C60 | serializer as a function on contents | injectivity by parsing back (`denotes_fun`), congruence, `mirror` twice is the identity | proved |
| C61 | containers at pointer level | refinement to lists: every chain denotes a list, chains are disjoint | proved |
| C62 C63 C64 | coroutine frames and their pools, arbitrary task tree, small-step interleaving | a Hoare-style triple for pool operations (owners, alive pools), induction on runs; built on the C31/C32 invariant | proved |
| C65 | template metafunctions as functions on a type of C++ types | induction on type lists and types | proved |
| C66 | overload resolution of adaptor, including whether the bodies compile | induction on types | partial: custom element types satisfy the constraint, but the body does not compile (C66_custom_refuted) |
| C92 C93 | pool mutex, queue, condition variable, Stop and the coroutine trees of several calls in one machine (`ModelPoolParse`) | invariant on who holds the mutex and where every task is, simulation by ModelExec's trees, lexicographic termination | C92 proved, C93 refuted (finding 32), partial |
| C91 | sequential parser (both parse_ref settings) against a positional specification of the harmful documents (Overrun.v) | mutual induction on the fuel (UB implies harm), induction on the derivation (harm implies UB), OverrunProofs.v | proved |
| C94 | both parsers in release builds; the sequential one in debug builds, same specification (harm FailedAssert) | induction on the fuel through the free monad; the two inductions of C91, instantiated for asserts | proved |
| C95 | Serialize and Parse against Format.v, a second description of the format in which every tag, size and position is a literal | Format.v and Wire.v describe the same byte strings (induction on the value); then Serialize_document and Parse_document | proved |
| C96 | object pools (ModelPool), literal growth sequence | induction on the number of allocations; invariant over histories: the blocks that are neither full nor last number at most the merges | proved |
| C97 | parallel parser (both parse_ref settings) against a positional specification of the harmful blocks (OverrunPara.v) | mutual induction on the fuel (UB implies a harmful block), induction on the derivation (a harmful block implies UB or a failed assert), OverrunParaProofs.v | proved |
| C98 | list of the pool allocations made along the sequential parser (ModelAlloc), successful or not | induction on the fuel against the tree of C73/C76 (exact multiset of classes) and against the bytes consumed (bound, any outcome) | proved |
| C99 | the coroutines of a parallel parse with their allocations, awaits and throws computed from the input (ModelParaAlloc), run by the frames of ModelFrames | induction on the fuel: a job is free of throws exactly if the parser of ModelParse succeeds, and its allocations are the objects of the tree; invariants of frames (throw-freeness, allocations still to do), a size that every step decreases; C62/C63 for owners | proved |
| C100 | Serialize under two platform configurations | valueSeri is the same function on both (SeriPlatform.v; the assert of seri_child cannot fire because data are never split); the tables are their encoded entries in hash order; a document shorter than the split size never cuts a block (induction on the object) | proved |
| C101 | a whole client program: pools, storage cells of every object and item, variables holding pointers (ModelClient) against objects with homes (SpecClient.v) | simulation relation (every cell live exactly if its owner's home is present, links of a container = its entries, pointers distinct), induction on the program | proved |
| C102 | as C101 | simulation plus exactness of the definedness condition | refuted (finding 36), exact condition proved (partial) |
| C103 | as C101 | simulation plus an invariant: entries are at home where their container is | refuted (finding 37), proved for programs that do not insert after the pool was given away (partial) |
| C104 | ModelClient plus buffers, Serialize and the sequential parser as a sequence of pool and container calls (ModelSession) | induction on the parser's fuel at the level of SpecClient.v: the calls build the tree ModelParse.v returns, above the objects that were there; then the simulation of C101 both ways; C01's transport for the save-load cycle | proved |
| C105 | programs and sessions of C101 and C104; a look at a whole tree, then any calls but those that change one of its objects | at the level of SpecClient.v every call keeps every object it does not change, up to its home; the tree is then equal or undefined; transported by the simulation of C101, and through the parser's calls (which change only objects the parse made) to sessions | proved |
| C106 | programs and sessions of C101 and C104; for every class the history of its pools | each call is at most one pool operation per class (step_does), so a program's pools are those of a pool history: C96's bound and the counts of objects and pools by induction; C32's invariant from the simulation of C101 | proved |
| C107 | ModelSession.v: the calls the parallel parser makes on pools and containers (Coro_calls), one coroutine after the other; sessions with SLoadPara | mutual induction over the parser's coroutines, blocks and elements: after its calls the container is there with entries whose homes are the pool handed on, and shows the parser's result; old objects and pools are kept exactly; then the delivery into the caller's pool and C104's transfer to the model; C107_execution (PropParaFrames.v): the same induction against the steps of ModelFrames.v, so the calls are an execution of the coroutines of ModelParaAlloc.v; PropParaObjects.v: a defined run of pool operations is a legal one, so C99 and C63 apply to it and give the objects of the program before and after | proved |
| C108 | sessions of C104 and C107 | all objects and entries of a parsed tree have one home (from C104's and C107's invariants); every call moves all homes by the same function (content_goes), by cases over the calls, then induction over the program; no home = undefined, a home = same view | proved |
| C109 | ModelOom: ModelPool with an oracle for failing requests (aligned_alloc null, vectors that cannot grow) | the invariant of C31/C32 on the pools without their moved-from blocks, plus: torn pools do not end with a moved-from block; induction over histories; an interrupted Merge moves a prefix of the blocks; BridgePools (ModelOomPool): the members one after the other, the first exception ends the call, half-constructed BridgePools are undone; three concrete refutations | partial (code violates it) |
| C110 | Order.v: `regrouped` (runs of entries reversed, arrays unchanged), ModelParse | the parallel reader's invariant of C05 with `regrouped` instead of equality up to permutation; a concrete refutation for two parallel trips | partial (code violates it) |
| C111 | ModelOomClient: the programs of ModelClient, every creating or inserting call with its failing requests | a call that does not throw is the call of C101 (on pointwise equal pools); one that throws leaves the relation of C101 to the specification as it was; induction over programs | proved |
| C90 | pattern objects with their parts, replacement and destruction; `delete` through a base without virtual destructor is UB | induction over the calls | partial: UB exactly when a part was ever handed over (finding 30) |
| C89 | ModelLinked plus copy construction (ModelCopy) | simulation by a table of shared entries; then against value semantics | partial: `Get` through a copy empties the original's entry (finding 31) |
| C88 | AsMap/AsArray/AsData chains against the wrapper on parse results | induction over the path, C16 | proved |
| C87 | template argument deduction, DataTypeTrait, the serialize overloads and the readers' constraints as functions on argument expressions (type, const, value category) and on the conversions of user classes | case analysis | partial: named custom objects that convert to std::string get the wrong tag (C87_tag_refuted) |
| C67 | reading tables with arbitrary, possibly repeated entries | induction on the entry list; hash order as a permutation | split table proved, dictionary refuted, partial |
| C70 | several task trees on one set of workers | per-tree simulation with an arbitrary supply of workers, well-founded product order | proved |
| C68 C69 | task trees on n workers and a queue (`ModelExec`) | simulation by the interleavings of C07, lexicographic termination, progress from "a suspended task has an unfinished child" | C68 proved, C69 refuted for 0 workers, partial |
| C43 | serializer error branch | induction on the tree | proved |

Properties added later are described in `properties.jsonl` and, with their proof
status, in `MANIFEST.json`.

## 5. Findings in the code

1. `Map::valueParse` re-inserts at the front: one Normal round trip reverses the
   iteration order of every map and makes the *oldest* duplicate key win (C19, C21).
   The Coroutine scheduler produces another order than Normal.
2. In-situ parse throws on custom data (C42).
3. `GetView<std::string>` on a bytes view, and vice versa, throws (C24).
4. No bounds checks before reads in the parser (C14).
5. Cursor wrap-around through a length field near 2^64: endless recursion (C15).
6. A cut inside the auxiliary tables is accepted, or read out of bounds (C12).
7. Lengths, counts and block sizes are truncated to 32 bits: documents of 4 GiB
   and more are broken silently; from 2 GiB on debug builds abort (C44).
8. On platforms with unsigned `char` `varint_encode` is wrong (C45).
9. Containers returned by a Coroutine parse refer to a pool inside a finished
   coroutine frame; inserting into them is UB (C38).
10. `BridgePool` never releases string/bytes payloads nor map keys (C33).
11. `ArrayPattern(n)` with an unset slot is a null dereference (C27).
12. Thread pool: second Stop returns early (C53), schedule() lies after Stop (C37),
    zero workers run nothing (C37), later worker_num ignored (C55), Stop inside a
    task terminates the process (C56).
13. Lazy inverse dictionary: never refreshed (C49); two root blocks in a hostile
    document race on building it (C57).
14. `Data::operator=` is not exception safe (C50) and not self-assignment safe (C51).
15. `Map::Get` moves a value out and leaves a null child; serializing that map is UB (C52).
16. dump with a negative level throws `std::length_error`; arrays are dumped in
    reverse index order (C39).
17. `CoroutineScheduler::Parse` does not check that the body ends at the declared
    size, `NormalScheduler::Parse` does.
18. `adaptor` rejects byte vectors nested in two or more container levels (C66).
19. `StringMap::Construct` accepts repeated ids: the content of such a document
    depends on the hash iteration order of the standard library (C67).
20. `worker_num_ = 0` is accepted and a parallel parse then hangs (C69).
21. The Coroutine reader does not check that the blocks it followed cover the body:
    a document cut by its last byte can be accepted with array elements missing
    (C12_silent_loss_refuted), while the sequential reader never does that
    (C12_sequential_cut_partial).
22. In-place parse accepts a 30-byte document whose only string has a length of
    2^64 - 19: the cursor wraps around to the start of the body and all checks pass;
    any use of that string_view reads out of bounds (C77_views_inside_refuted).
23. Dictionary amplification: a document of 4n+40 bytes whose array names one
    dictionary string n times makes the copying parser allocate n*n bytes
    (C79_amplification_refuted); 1 MB of input asks for about 64 GB.
24. Exponential blow-up of the Coroutine parser: nothing checks that a block ends where
    its last value ends, nor that blocks do not overlap. Four bytes per level, split into
    two one-byte blocks, double the number of tasks and nodes: 4k+30 bytes give
    2^(k+1)-1 nodes (C80_parallel_size_refuted); 200 bytes exhaust any machine.
25. No limit on nesting: three bytes per level (C81_depth_limit_refuted), and parsing, dumping,
    serializing and destroying all recurse once per level, so a small hostile document
    overflows the stack.
26. The parallel parser uses neither the announced number of children nor the announced
    end of the body: a document with a block table that does not tile its containers is
    accepted with other content than the sequential parser finds
    (C83_same_content_refuted), and bytes behind the last block are ignored although the
    sequential parser refuses them (C83_same_acceptance_refuted).
27. `DataView("...")` and `v = "..."` do not use the array overload of `serialize` (the
    deduced type `char[n]` is no `bridge_built_in_type`); the array is converted with
    `strlen`: embedded NULs cut the string, a missing terminator is read past the end
    (C48_view_array_refuted).  `Data` keeps all n characters.
28. `Data(x)`, `bp.data(x)` and `d = x` do not compile for a custom object that is an
    lvalue or const (`bridge_custom_type<T&>` is never satisfied); if the class happens to
    convert to `std::string` they compile and store the string under the tag CUSTOM, and
    every later read, serialization or assignment treats it as a vector
    (C87_tag_refuted).  `ObjectWrapper::Get<Custom>`, `GetPtr<Custom>` never compile; only
    `AsData(p)->Get<Custom>()` does (C87_readers).
29. Hence `adaptor` of a custom object, or of any container of them, satisfies its
    constraint and then fails in the body (C66_custom_refuted).
30. `Pattern` has virtual functions but `~Pattern()` is not virtual (pattern.h:18), and every
    composite pattern holds its parts as `unique_ptr<Pattern>`: destroying, replacing or
    removing a part deletes it through its base class, which is undefined for every composite
    pattern, the ones in the project's own pattern_test included (C90_composite_refuted).
31. Array, Map and MapView are copyable although they share their nodes with the copy: `Get`
    on the copy empties the entry of the original (C89_take_refuted).  Everything else is
    independent (C89_copies_independent_partial).
32. `PushTask` returns silently once the pool is stopped (thread_pool.h:17) and `schedule`
    reports success all the same (executor.h:22-26): a Coroutine `Parse` on a stopped pool,
    or one whose coroutines are dropped by a `Stop` meanwhile, blocks for ever
    (C93_stopped_pool_refuted; C93_only_dropped_partial says these are the only ones).
33. `ObjectPool::Alloc` picks the next buffer's size by the number of blocks, merged ones
    included (object_pool.h): after six merges of one-object pools the next object alone
    takes a 10240-slot buffer (C96_met).
34. `ParseMapBlock` copies a key with `std::string(w.curAddr(), key_length)` without a bound check
    and the in-place variant checks it only later (object.h:1414-1418): a key that announces more bytes than
    the buffer holds is read past its end by the copying Coroutine parser; the sequential parser throws (C97_met).
35. A sequential `Parse` that throws leaves every object made so far in the caller's pool until `Clear` or the
    pool's destruction (object.h:1772-1782 allocates from the caller's pool directly; C98_met), while the Coroutine
    scheduler drops the objects of a failed parse with its own pools (C63).
36. A container keeps a reference to the `BridgePool` object it was made from (object.h, `Array`, `Map`, `MapView`
    members `bp_`): after that object is moved from and destroyed (a pool returned by value, `Merge`d into another)
    the container still exists, can be read and serialized, but `Insert` is undefined (C102_insert_refuted;
    C102_insert_partial is the exact condition).
37. After `dst.Merge(std::move(src))` an `Insert` into a container made from `src` still takes its item from `src`;
    when `src` is cleared or destroyed, the live container links to freed memory (C103_entries_refuted).
38. `Block` does not check the result of `aligned_alloc` (object_pool.h:51): without memory the next object is
    constructed at a null pointer instead of an exception (C109_null_buffer_refuted). The move constructor of `Block`
    leaves `top_` and `capacity_` in the moved-from block (object_pool.h:55): after two `Merge`s from one pool were
    interrupted by `std::bad_alloc`, `Alloc` on the second target finds such a block as its last one, not full, and
    constructs an object at its null buffer (C109_merge_refuted).
39. The order of map entries after a parse depends on the scheduler and on where the serializer cut its blocks: the
    sequential parser reverses every map, so two trips restore the order; the parallel parser reverses the runs of
    entries found in the blocks and keeps the order inside each (ParseMap, object.h), so two trips need not restore
    it (C110_two_parallel_trips_refuted). Only documents of at least one block (10 MB) are affected.

## 6. Testing the theorems

`seeded/LOG.jsonl`: each line is one deliberate bug put into the model in a scratch
copy, the claim it breaks, the theorems whose proofs then failed (found by admitting
every failing lemma and asking `Print Assumptions` which theorems depend on one) and
the theorems tightened as a consequence.


Besides these, operators, constants, arguments and branches of the model files were
mutated at random (about 900 mutants in three runs; those that no longer type-check do
not count). A mutant survives if the whole development still builds with it. Every
survivor was read: nearly all are the same program (renamed binders, comparisons on
values that cannot be equal, a second check behind a first one that throws the same
exception, tests of states no execution reaches). The others showed theorems that were
too weak: the loop over iterators was used by no theorem (now `C20_loop`), and the
specifications took the widths of numbers from the model (now literal numbers, and
`Format.v`); they are in the log as `au..`.
