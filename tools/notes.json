{
 "C01": "Two forms: for any object denoting a value (relation `denotes`, SpecApi), and for objects given by their API build history (`built`), where success of Serialize is part of the conclusion. `fits` is the 4 GiB / 2 GiB limit of C44.",
 "C02": "As C01 with SeriType::REPLACE, any hash iteration order on both sides (cs, cp arbitrary sane platforms).",
 "C03": "Both schedulers, both serialization types.",
 "C04": "All views of the result, keys included; they lie in the caller's buffer and reading them is defined.",
 "C05": "No hypothesis on the input bytes; result contains no view, reads are the same under every memory.",
 "C06": "Both parse_ref settings, any split block size (field of cfg).",
 "C07": "Small-step interleaving semantics of the block tasks (ModelConcurrent); holds for serialized documents followed by any bytes. Deterministic result, progress in every reachable state, no infinite schedule.",
 "C08": "Same semantics; a task inside or at the entry of GetStr while the table is incomplete is the only active task. Formal race of unordered_map::operator[] on an already built table (reads through a non-const member) is not counted.",
 "C09": "Writer bytes are literally equal on both byte orders; readers of either byte order give the same view.",
 "C10": "Signed plain char (the other case is C45).",
 "C12": "Refuted as stated: cuts inside the tables are accepted or run into UB, and in Coroutine mode cutting the last byte can silently lose array elements (C12_silent_loss_refuted). Proved: every cut up to the end of the body is a runtime_error; every cut before the split table yields no object in any mode; in sequential mode a cut anywhere either yields no object or exactly the uncut object. Missing: cuts inside the dictionary may be UB rather than an exception; cuts inside the split table in Coroutine mode have no single outcome.",
 "C14": "Refuted: four concrete documents overrun a stack buffer, trip an assert or read out of bounds. Proved: rejection of everything the header check rejects; safety on every library-written document followed by any bytes.",
 "C15": "Refuted: a 10+-byte document whose key length makes the cursor wrap makes every parse mode recurse for ever. Proved: termination for dictionary/owning parses of any bytes, and for every mode when no length field can reach 2^63.",
 "C16": "No hypothesis on the input bytes.",
 "C19": "Refuted for duplicate keys: Map::valueParse inserts at the front, so after a Normal round trip the oldest duplicate wins. Proved: exactly what lookups give (mirror), and equality for distinct keys.",
 "C24": "Refuted: GetView<string> on a bytes node (and vice versa) throws. Proved: these are exactly the reads that throw, all others answer exactly.",
 "C27": "Refuted: unset slots of ArrayPattern(n) are dereferenced. Proved: Match is safe with all slots set, and with unset slots on anything but arrays of n elements.",
 "C33": "Refuted: BridgePool::Clear releases no payload at all (Data and MapItem are trivially dropped). Proved: exact condition-free heap accounting before Clear, and no leak for histories without heap payloads. How much is lost is exact: C33_every_long_payload_leaks_refuted.",
 "C37": "Refuted twice: a stopped pool drops the task but schedule() says true; a pool without workers never runs anything. Proved: accepted tasks of a pool with a worker have run when nothing moves any more, and every run gets there (C36).",
 "C38": "Refuted for the Coroutine scheduler: containers keep a reference to a pool in a finished coroutine frame. Proved for the Normal scheduler for any input bytes.",
 "C42": "Refuted: a document with BRIDGE_CUSTOM data cannot be parsed in situ. Proved for every other document. C42_insitu_exactly_all_schedulers_partial: for both schedulers, in-place parsing of a serialized document succeeds iff it holds no custom data and throws otherwise - so the exact extent of the failure is known; what is missing from the property is only what is false.",
 "C44": "Refuted: a 4 GiB string is written with length 0 and no reader accepts it. Proved below 4 GiB (2 GiB with asserts).",
 "C45": "Refuted for unsigned plain char; the values that do survive are characterised exactly (iff).",
 "C49": "Refuted: the inverse table is never refreshed. Proved: after the first lookup the answers never change.",
 "C50": "Refuted for every history: after a throwing SerializeToBridge reading or assigning the Data is undefined. Proved: what is left is released once and reads at built-in types are empty.",
 "C51": "Refuted for every history. Proved: assigning a copy taken before is fine.",
 "C53": "Refuted: a second Stop returns while tasks are outstanding. Proved: such a call only returns after the flag is set and no accepted task is lost.",
 "C55": "Refuted: the pool is a singleton, only the first worker_num counts. Proved: the first one is honoured.",
 "C56": "Refuted: Stop inside a task joins its own thread. Proved: no termination when no task calls Stop.",
 "C57": "Refuted: a hand-made REPLACE document with two root blocks lets two tasks build the table concurrently; and so does every document with a dictionary and a split root two of whose blocks begin with a key (C57_contended_refuted). Proved: race freedom and schedule independence of arbitrary bytes without dictionary, or without root split mark, or with the Normal scheduler (C57_no_dictionary_race_free_partial), and of every document with well-formed tables at most one of whose root blocks begins with a key (C57_uncontended_partial), so the two cases meet exactly.",
 "C58": "Equal bytes (whatever the platforms that wrote them, in either mode) have equal content.",
 "C59": "Equal content in the same entry order gives equal bytes in every configuration with the same iteration order of the dictionary.",
 "C60": "Serializing what Parse returned, iterated to a fixpoint of map order, reproduces the bytes.",
 "C61": "Pointer-level model of the linked containers refines the list model, for any program over any number of containers.",
 "C62": "Pools only; the tree of tasks is arbitrary (any document's tree is one of them).",
 "C63": "Pools only; payloads of std::string/std::vector inside nodes are the subject of C33.",
 "C64": "Pools only; the shared StringMap is the subject of C08.",
 "C65": "Sizes, alignments and constructor indices of variant.h for every alternative list; which bytes of the union each operation touches.",
 "C66": "Overload resolution of adaptor for a type grammar closed under vector and unordered_map; exact characterisation of the accepted types and of those whose bodies compile. Refuted for custom types: bp.data(const T&) does not compile for them.",
 "C88": "Casts modelled with their null dereference; navigation with tested casts equals the wrapper on every accepted input (copying), and is refused for views (in place).",
 "C87": "Exact characterisation of the argument expressions (type, constness, value category) that Data, DataView and the readers accept, for all user-defined conversions; tag and stored alternative agree except for named custom objects convertible to std::string (refuted).",
 "C67": "Split table: exact decoding, repetition rejected. Dictionary: any table is accepted, first id per key wins and a lookup gives some key with that id; the full statement is refuted with a document whose content depends on the hash order.",
 "C68": "Task trees of the parser on n workers and a queue; async_simple's Lazy/collectAllPara is represented by its documented behaviour (suspend, resume by the last child, in place or rescheduled).",
 "C69": "Refuted for 0 workers; for every positive number completion and the common result are proved.",
 "C70": "Same executor model as C68 with several task trees; each call has its own content, pool and dictionary.",
 "C13": "C13_same_object: exact equality of the returned objects in every mode; C13_trailing_bytes adds what the API shows.",
 "C71": "Completeness of the tables is needed: if a table claims more bytes than there are, appended bytes become part of it.",
 "C72": "Parse with Normal option only; Coroutine mode does use the table (C12_silent_loss_refuted shows what a wrong byte in it does).",
 "C73": "Soundness (with and without the tables) for plain and dictionary documents; completeness for plain documents and for dictionary documents in which no two keys share an id (otherwise the reading depends on the hash order, C67). Owning sequential mode; a table whose size field exceeds the buffer is outside the grammar (such inputs: C14).",
 "C74": "Plain documents; dictionary documents with a repeated id are the counterexample C67_ambiguous_dictionary_refuted, those without are covered by C73_documents_accepted.",
 "C75": "Exact equality of the objects (pool included), no restriction to distinct keys.",
 "C76": "Sequential scheduler; hypotheses: the document is below the size limit. The converse direction is C77.",
 "C77": "Refuted: a length field near 2^64 moves the cursor backwards and the in-place parser returns a string of almost 2^64 bytes (evil_view). C77_only_absurd_lengths_partial: for every accepted input and either scheduler that is the only way to fail - each string, byte string and key refers to the document's buffer and is readable, or announces at least 2^64 minus the document's size; C77_plausible_lengths_partial: if no reported length exceeds the document's size, every access path can be read. Agreement with the copying parser is proved for every input without nine consecutive bytes above 127 (C77_views_inside_partial, C77_views_inside_all_schedulers_partial). Missing from the agreement: inputs with longer length fields.",
 "C79": "Refuted: a dictionary document of 4n+40 bytes makes the parser store n*n bytes (for every n up to 2^28). Proved instead: nodes and nesting are linear in the size, storage is at most quadratic. ",
 "C80": "Refuted: blocks may overlap (a block may end in the middle of its last value), so a document of 4k+30 bytes is parsed in parallel into 2^(k+1)-1 nodes, for every k. Proved: at most one node per three bytes for documents written by the library, and for any document whose split mark is 0.",
 "C81": "Refuted: no limit exists; for every k a document of 3k+22 bytes nests k+1 arrays and is accepted, so recursion depth is chosen by the input. Proved: nesting is at most linear in the size of the document.",
 "C82": "Owning mode, both directions (the completeness direction for documents whose dictionary is unambiguous and whose values lie inside the body). The positional grammar is LenientPara.v.",
 "C83": "Refuted in three ways: both accept with different content (short block table), only the parallel parser accepts (bytes left in the body), only the sequential parser accepts (missing block row). Proved: for every document whose blocks tile their containers, by any writer, plain or dictionary, both accept and every access path shows the same.",
 "C84": "Edits at the root (the API gives only const access to children). Without distinct keys the re-read content follows C19.",
 "C85": "Positive and negative half. In the model comparing a key with a freed view is undefined even if the lengths differ (conservative), so key lookups are only claimed while the buffer exists.",
 "C86": "Proved by simulating the copying parser step by step (InsituSim.v), for both schedulers; the exact condition for throwing is stated with the positional grammar of C82 (parallel) and in C76 (sequential).",
 "C48": "Refuted for DataView: a char array never reaches the array overload but is converted through std::string_view(const char*), so everything after the first NUL is lost and an array without NUL is read past its end (C48_view_array_refuted). Proved: the full statement for Data, in every history and through transport; for DataView exactly what precedes the first NUL is covered.",
 "C102": "Refuted: a container refers to the BridgePool object it was made from; once that object is gone (moved or merged away) Insert is UB although the container lives. _partial: Insert works exactly when the container and that pool object both exist.",
 "C103": "Refuted: an entry inserted after the pool was merged away lives in the old pool and dies with it. _partial: holds for every program that inserts only before the pool is given away.",
 "C89": "Pointer-level model with copy construction; exact answers (shared entries), independence of keys/order/size always and of values without Get; refuted for Get: moving a value out through a copy empties it in the original.",
 "C90": "pattern.h:18 declares a non-virtual destructor and the parts are deleted through unique_ptr<Pattern>: undefined for every pattern that ever held a part (refuted exactly); defined for all patterns without parts.",
 "C91": "Exact for documents with a well-formed header and tables whose complete number fields are below 2^63; copying and in place, debug and release. C91_only covers documents with malformed tables too (no nine continuation bytes in a row). Larger length fields are covered by C12/C14 only.",
 "C92": "Combined lock-level machine (ModelPoolParse): pool mutex, queue, condition variable, coroutine trees of several calls. Assumes async_simple's via/syncAwait/collectAllPara as stated in ModelPoolParse.v.",
 "C93": "Refuted: PushTask drops tasks silently once the pool is stopped, and the awaiting Parse blocks for ever. Partial: at whatever point Stop comes, no crash, no wrong result, and exactly the calls that lost a coroutine never return.",
 "C94": "Release builds: every input, every mode. Debug builds, sequential parser: exact for documents with a well-formed header and tables whose complete number fields are below 2^63.",
 "C104": "ModelSession.v gives the sequential parser's steps in memory (the calls to the pool and the containers, also of a parse that throws); SessionProofs.build shows they build the tree of ModelParse.v. The parallel scheduler in memory is C62-C64 and C99. C104_pools_of_a_load: what the calls do to the pools of every class is what C98 lists. C104_objects: whatever the input, the program keeps its objects and gains those of C98, class by class (the heap after the pools' history).",
 "C105": "'Below' is what the program itself finds by iterating (inductive predicate under); the calls that change an object are listed in changes. For objects parsed in place the theorem is about the views they hold; the bytes behind them are C04 and C85.",
 "C106": "About the pools' own buffers. The strings and vectors inside pooled objects whose destructor is not run are C33 (they leak).",
 "C107": "The steps in memory follow one schedule: every coroutine runs to its end before the next starts (the results do not depend on the schedule by C57/C61). Containers made by coroutines remember a pool that is gone (C38; C107_met shows that an Insert into one is undefined), so the views are compared without those. C104_undisturbed and C105_session also cover parallel parses. C107_execution ties those steps to ModelFrames.v: what they do to the pools is one of the executions (fsteps) of the coroutines of Parse_job, so C62, C63 and C99 speak about them. C107_objects and C107_failed_load (PropParaObjects.v) draw the conclusion: the objects of the program are those it had plus exactly those of the document, or just those it had.",
 "C108": "For objects parsed in place this is about the objects; the bytes their views point to belong to the program's buffer (C04, C85). now_in follows the pool's content through the program's own pool calls.",
 "C109": "Refuted twice: the null pointer of aligned_alloc is never checked, and after an interrupted Merge the moved-from blocks keep their fill level, so a second interrupted Merge makes the target's next Alloc construct at a null buffer. _partial: with memory for the buffers and no second interruption of a Merge from the same pool everything holds, for every pattern of std::bad_alloc from the vectors of blocks. The same for BridgePools (eight members constructed, merged and cleared in order, any of which may throw): C109_bridge_pools_partial, C109_bridge_merge_refuted, and with enough memory the calls are those of C101-C107 (C109_bridge_enough_memory).",
 "C110": "Refuted for the Coroutine scheduler: once a map is cut into blocks, the runs of entries in the blocks are reversed but each run keeps its own order, and two round trips do not restore the order (C110_two_parallel_trips_refuted, with a block size of 8 instead of the 10 MB in object.h:33, so that the witness is small). _partial: arrays keep their order, maps are cut into consecutive runs that come in reverse order, with the Normal scheduler in exactly the reverse order; C110_small_documents: a document smaller than a block is parsed by both schedulers to the same object.",
 "C111": "C111_programs relates every program with failing requests to the specification of C101 run on the calls that did not throw; C111_no_effect is the same call by call (nothing to see afterwards, the call succeeds when repeated); C111_reported: a throwing constructor and a key a Map cannot copy are reported; C111_enough_memory: with no failures it is C101's statement. Failing requests are modelled in the creating calls, array_item() etc. and Insert; appending as the parsers do (CAppend) and overwriting a value find enough memory here (the latter is C50). A null pointer from aligned_alloc is excluded: C109 refutes that case."
}