{"id": "C01", "title": "Serialize/Parse round trip (NORMAL)", "statement": "For every object tree built through the API whose maps have pairwise distinct keys and whose serialized form stays below the size limit, Parse(Serialize<NORMAL>(o)) succeeds and every ObjectWrapper access path (keys and indices) yields the same node type, the same Size() and the same typed value as on o.", "quantifier": "all object trees (any depth, width, data types, Data or DataView leaves), all access paths, all iteration orders of the internal hash tables, both byte orders of writer and reader, assert-enabled and NDEBUG builds", "why_tests_cant": "unbounded trees and unspecified unordered_map iteration order", "anchors": ["include/bridge/object.h:SerializeNormal", "include/bridge/object.h:NormalScheduler::Parse", "include/bridge/object.h:Map::valueSeri", "include/bridge/object.h:Map::valueParse", "include/bridge/object.h:Array::valueSeri", "include/bridge/object.h:Array::valueParse", "include/bridge/object.h:Data::valueSeri", "include/bridge/object.h:Data::valueParse"]}
{"id": "C02", "title": "Serialize/Parse round trip with dictionary encoding (REPLACE)", "statement": "The round trip of C01 also holds for Serialize<SeriType::REPLACE>: every key and every string value is recovered exactly although only dictionary ids are written in the body.", "quantifier": "all object trees, all sharing patterns of strings between keys and values, all iteration orders of the dictionary", "why_tests_cant": "depends on every sharing pattern and on the hash-table iteration order of two different processes", "anchors": ["include/bridge/object.h:SerializeReplace", "include/bridge/string_map.h:StringMap"]}
{"id": "C03", "title": "In-situ parse reads the same content", "statement": "Parsing a serialized document with parse_ref=true yields, for every access path, the same node type, size and value (through GetView) as parsing it with parse_ref=false, provided the document holds no custom-type data.", "quantifier": "all serialized documents without custom data, both serialization types, all access paths", "why_tests_cant": "all trees and paths", "anchors": ["include/bridge/object.h:MapView::valueParse", "include/bridge/object.h:DataView::valueParse", "include/bridge/parse.h:parseData"]}
{"id": "C04", "title": "In-situ views point inside the caller's buffer", "statement": "After Parse with parse_ref=true of a serialized document every string_view reachable from the result (keys and values) designates a range lying inside the content buffer, and reading it never leaves the buffer.", "quantifier": "all serialized documents, every view reachable in the result", "why_tests_cant": "pointer ranges for every document", "anchors": ["include/bridge/object.h:DataView::valueParse", "include/bridge/object.h:BridgeContainerType::parse_key", "include/bridge/string_map.h:Construct"]}
{"id": "C05", "title": "Copying parse is independent of the input buffer", "statement": "A tree returned by Parse with parse_ref=false never refers to the content buffer: it can be read and re-serialized after the buffer is destroyed.", "quantifier": "every byte string for which Parse returns, both schedulers", "why_tests_cant": "must hold for every input, including hostile ones", "anchors": ["include/bridge/object.h:Data::valueParse", "include/bridge/object.h:Map::valueParse", "include/bridge/object.h:ParseMapBlock"]}
{"id": "C06", "title": "Parallel parse equals sequential parse", "statement": "For every serialized document, Parse with SchedulerType::Coroutine succeeds and every access path yields the same type, size and value as with SchedulerType::Normal (maps with distinct keys), for both parse_ref settings and whatever the split block size.", "quantifier": "all serialized documents, all split block sizes, all positions of split containers, both parse_ref settings", "why_tests_cant": "documents above the 10 MiB threshold with every nesting of split containers cannot be enumerated; the existing tests never reach the split path", "anchors": ["include/bridge/object.h:ParseArray", "include/bridge/object.h:ParseMap", "include/bridge/object.h:ParseArrayBlock", "include/bridge/object.h:ParseMapBlock", "include/bridge/object.h:ParseMapViewBlock", "include/bridge/object.h:CoroutineScheduler::Parse"]}
{"id": "C07", "title": "Parallel parse is schedule independent", "statement": "The outcome of a Coroutine parse of a serialized document does not depend on how block tasks are interleaved by the executor, although tasks share the lazily built id-to-string table: no schedule crashes, deadlocks or goes on for ever, and all return the same object.", "quantifier": "all serialized documents (followed by arbitrary bytes), all parse options, all interleavings of the block tasks", "why_tests_cant": "number of interleavings is unbounded", "anchors": ["include/bridge/object.h:ParseMap", "include/bridge/object.h:ParseArray", "include/bridge/string_map.h:GetStr"]}
{"id": "C08", "title": "No data race on the lazily built dictionary index", "statement": "While parsing a serialized document in parallel, the only write to the lazily built id-to-string table happens when a single task is active, hence before any concurrent reader.", "quantifier": "all serialized documents, all schedules", "why_tests_cant": "a race shows up only in some schedules", "anchors": ["include/bridge/string_map.h:GetStr", "include/bridge/string_map.h:buildReMap", "include/bridge/object.h:ParseMapBlock"]}
{"id": "C09", "title": "Byte-order independence of the format", "statement": "The bytes produced by Serialize are the same on little- and big-endian hosts (numbers in network order) and a document written on one is read back with the same values on the other.", "quantifier": "all objects, all pairs of byte orders", "why_tests_cant": "needs both kinds of host", "anchors": ["include/bridge/util.h:flipByByte", "include/bridge/serialize.h:BRIDGE_SERI", "include/bridge/parse.h:BRIDGE_PARSE", "include/bridge/object.h:SeriTotalSizeToOuter"]}
{"id": "C10", "title": "Varint codec round trip", "statement": "For every 64-bit n, decoding the bytes produced by encoding n, followed by arbitrary bytes, returns n and the number of bytes written, which is varint_encoding_length(n) and at most 10; the encoding is prefix free and shortest possible.", "quantifier": "all n < 2^64 and all following bytes", "why_tests_cant": "2^64 values times arbitrary suffixes", "anchors": ["include/bridge/varint.h:varint_encode", "include/bridge/varint.h:varint_decode", "include/bridge/varint.h:varint_encoding_length"]}
{"id": "C11", "title": "Document framing", "statement": "In every serialized document the first eight bytes hold in network order the size of header plus body, the ninth byte the serialization type, the tenth the split flag; the body ends exactly there and the rest is exactly the length-prefixed auxiliary tables.", "quantifier": "all objects and serialization types", "why_tests_cant": "all trees", "anchors": ["include/bridge/object.h:SerializeNormal", "include/bridge/object.h:SerializeReplace", "include/bridge/object.h:SeriTotalSizeToOuter", "include/bridge/object.h:SuffixSecondary"]}
{"id": "C12", "title": "Truncated documents are rejected", "statement": "Parse of any strict prefix of a serialized document throws a runtime_error; it never returns an object and never reads outside the buffer.", "quantifier": "all serialized documents, all cut points", "why_tests_cant": "all documents times all cut points", "anchors": ["include/bridge/object.h:Scheduler::initFromContent", "include/bridge/object.h:ParseSecondary", "include/bridge/parse.h:parseLength"]}
{"id": "C13", "title": "Trailing bytes do not matter", "statement": "Appending arbitrary bytes to a serialized document does not change what Parse returns.", "quantifier": "all serialized documents, all suffixes, both schedulers", "why_tests_cant": "all suffixes", "anchors": ["include/bridge/object.h:Scheduler::initFromContent", "include/bridge/object.h:NormalScheduler::Parse"]}
{"id": "C14", "title": "Parse is memory safe on every input", "statement": "For every byte string, Parse either returns an object or throws an exception; it never reads out of bounds, never overflows a stack buffer and never aborts.", "quantifier": "all byte strings, all parse options", "why_tests_cant": "hostile inputs", "anchors": ["include/bridge/object.h:Data::valueParse", "include/bridge/parse.h:BRIDGE_PARSE", "include/bridge/varint.h:varint_decode", "include/bridge/object.h:ParseSecondary"]}
{"id": "C15", "title": "Parse terminates on every input", "statement": "For every byte string, Parse terminates.", "quantifier": "all byte strings", "why_tests_cant": "non-termination cannot be observed by a test", "anchors": ["include/bridge/object.h:BridgeContainerType::parse_key", "include/bridge/inner.h:InnerWrapper::skip"]}
{"id": "C16", "title": "Whatever Parse returns is well formed", "statement": "For every byte string and option, if Parse returns a non-null object then in every node Size() equals the number of children, every data node has one of the nine supported type tags and a payload of that type, and no child is null.", "quantifier": "all byte strings for which Parse returns", "why_tests_cant": "hostile inputs", "anchors": ["include/bridge/object.h:Array::valueParse", "include/bridge/object.h:Map::valueParse", "include/bridge/object.h:Data::valueParse", "include/bridge/object.h:Array::Merge", "include/bridge/object.h:Map::Merge"]}
{"id": "C17", "title": "Array behaves as a growable sequence", "statement": "After any sequence of Insert and Clear calls, Size() is the number of elements inserted since the last Clear, operator[](n) is the n-th of them for n < Size() and nullptr otherwise.", "quantifier": "all operation sequences, all indices", "why_tests_cant": "all histories", "anchors": ["include/bridge/object.h:Array::Insert", "include/bridge/object.h:Array::operator[]", "include/bridge/object.h:Array::Clear"]}
{"id": "C18", "title": "Map behaves as a last-write-wins dictionary", "statement": "After any sequence of Insert and Clear calls on a Map or MapView, operator[](k) is the value of the most recent Insert of k since the last Clear, nullptr if there is none; Size() counts Inserts since the last Clear.", "quantifier": "all operation sequences, all keys", "why_tests_cant": "all histories", "anchors": ["include/bridge/object.h:Map::Insert", "include/bridge/object.h:Map::operator[]", "include/bridge/object.h:MapView::Insert", "include/bridge/object.h:MapView::operator[]"]}
{"id": "C19", "title": "Lookup after a round trip, duplicate keys included", "statement": "For every object, including maps into which the same key was inserted several times, lookup by key gives the same value before serialization and after Parse.", "quantifier": "all maps, duplicate keys allowed", "why_tests_cant": "requires unbounded maps and all schedulers", "anchors": ["include/bridge/object.h:Map::valueParse", "include/bridge/object.h:Map::valueSeri", "include/bridge/object.h:ParseMap"]}
{"id": "C20", "title": "Iteration covers every entry once", "statement": "An ObjectWrapperIterator obtained from a map or an array visits exactly Size() entries: for a map each inserted entry exactly once, most recent first, for an array each element once in reverse index order; it is Valid() until then and not afterwards.", "quantifier": "all containers reachable by API calls", "why_tests_cant": "all container states", "anchors": ["include/bridge/object.h:ObjectWrapperIterator", "include/bridge/object.h:MapIterator", "include/bridge/object.h:ArrayIterator"]}
{"id": "C21", "title": "Two round trips restore iteration order", "statement": "One Normal round trip reverses the iteration order of every map and keeps that of arrays; two round trips restore the original order exactly, for both serialization types and parse_ref settings.", "quantifier": "all trees", "why_tests_cant": "all trees", "anchors": ["include/bridge/object.h:Map::valueParse", "include/bridge/object.h:Map::valueSeri"]}
{"id": "C22", "title": "Wrapper access is total and exact", "statement": "Along any path of key and index accesses ObjectWrapper never dereferences a null object; the result is Empty() exactly when the path does not exist in the tree, and Size()/GetType()/iterators are empty optionals exactly when they do not apply.", "quantifier": "all trees, all paths", "why_tests_cant": "all trees and paths", "anchors": ["include/bridge/object.h:ObjectWrapper"]}
{"id": "C23", "title": "Typed reads never reinterpret storage", "statement": "After any sequence of constructions and assignments of a Data, Get<T> returns the last assigned value if it had type T and an empty optional otherwise; on a DataView a read at the stored type returns the last assigned value and a read at any other type returns no value (an empty optional, or for string/bytes confusion an exception, see C24); the storage is never read as another type than the one stored.", "quantifier": "all assignment histories over all supported types", "why_tests_cant": "all histories", "anchors": ["include/bridge/object.h:Data::operator=", "include/bridge/object.h:Data::Get", "include/bridge/object.h:DataView::Get", "include/bridge/variant.h:variant"]}
{"id": "C24", "title": "View reads never throw", "statement": "GetView<T> on any node returns the value when the type matches and an empty optional otherwise, and never throws.", "quantifier": "all nodes, all T", "why_tests_cant": "all nodes and types", "anchors": ["include/bridge/object.h:view_get_proxy", "include/bridge/object.h:DataView::Get"]}
{"id": "C25", "title": "Pattern matching decides the documented constraint", "statement": "For patterns whose array slots are all set, Match(o) is true exactly when o satisfies the constraint tree: type, exact size where set, a matching value for every required key and position, disjunction and conjunction.", "quantifier": "all patterns, all objects", "why_tests_cant": "all pattern/object pairs", "anchors": ["include/bridge/pattern.h:Pattern"]}
{"id": "C26", "title": "Pattern matching is preserved by transport", "statement": "An object with distinct keys and its parsed round trip (any serialization type, scheduler and parse_ref) are matched by exactly the same patterns.", "quantifier": "all patterns, all objects, all modes", "why_tests_cant": "all pairs", "anchors": ["include/bridge/pattern.h:MapPattern::Match", "include/bridge/pattern.h:DataPattern::Match"]}
{"id": "C27", "title": "Match is safe for every pattern", "statement": "Match never dereferences a null pointer, whichever slots of an ArrayPattern(n) have been set.", "quantifier": "all patterns built through the API", "why_tests_cant": "all patterns", "anchors": ["include/bridge/pattern.h:ArrayPattern"]}
{"id": "C28", "title": "Dictionary ids are dense, stable and injective", "statement": "RegisterIdFromString returns the same id for equal strings and different ids for different strings, the ids being 0..n-1 for n distinct strings in order of first registration; provided no registration follows the first lookup, GetStr of an id returns the string registered under it, also after Serialize/Construct in any iteration order; unknown ids throw.", "quantifier": "all registration sequences below 2^32 strings, all iteration orders", "why_tests_cant": "all histories", "anchors": ["include/bridge/string_map.h:StringMap"]}
{"id": "C29", "title": "Split table ids are unique and survive transport", "statement": "RequestId never returns the same id twice (below 2^32 requests), a registered block list is found under its id and nowhere else, SplitInfo::Construct(Serialize()) answers every query identically in any iteration order and continues with fresh ids.", "quantifier": "all request/registration sequences, all iteration orders", "why_tests_cant": "all histories", "anchors": ["include/bridge/split_info.h:SplitInfo"]}
{"id": "C30", "title": "Split blocks tile the payload on element boundaries", "statement": "In every serialized document the block list registered for a container is non-empty, its sizes add up to the byte size of the container's elements, every block boundary is an element boundary, every block except possibly the last is at least the split size, and a node carries the split mark exactly when its container is registered; data nodes never carry it.", "quantifier": "all objects, all split sizes", "why_tests_cant": "needs huge documents", "anchors": ["include/bridge/object.h:register_split_info", "include/bridge/object.h:seri_child", "include/bridge/object.h:Array::valueSeri", "include/bridge/object.h:Map::valueSeri"]}
{"id": "C31", "title": "Pool allocation never aliases and never fails", "statement": "Every Alloc returns a non-null slot distinct from every live slot of every pool, and live slots keep their address through later Alloc and Merge calls.", "quantifier": "all sequences of Alloc/Merge/Clear over any number of pools", "why_tests_cant": "all histories", "anchors": ["include/bridge/object_pool.h:ObjectPool", "include/bridge/object_pool.h:Block"]}
{"id": "C32", "title": "Pools destroy every object exactly once", "statement": "For types requiring destruction, every allocated object is destroyed exactly once: when the pool that owns it (after merges) is cleared or destroyed, never before and never twice.", "quantifier": "all sequences of Alloc/Merge/Clear/destruction", "why_tests_cant": "all histories", "anchors": ["include/bridge/object_pool.h:destructor_proxy", "include/bridge/object_pool.h:Merge"]}
{"id": "C33", "title": "Clearing a pool releases all heap storage of its objects", "statement": "After BridgePool::Clear or destruction no heap storage owned by its objects (string and byte payloads, map keys) remains allocated.", "quantifier": "all histories", "why_tests_cant": "leaks are invisible to functional tests", "anchors": ["include/bridge/object.h:MapItem", "include/bridge/object.h:Data::destruct_by_datatype", "include/bridge/object_pool.h:destructor_proxy"]}
{"id": "C34", "title": "Assigning a Data releases the previous payload exactly once", "statement": "Over any sequence of assignments, each owned payload is destroyed exactly once when replaced, and no payload is destroyed twice or used after destruction.", "quantifier": "all assignment histories", "why_tests_cant": "all histories", "anchors": ["include/bridge/object.h:Data::operator=", "include/bridge/object.h:Data::destruct_by_datatype"]}
{"id": "C35", "title": "Every accepted task runs exactly once, in FIFO order", "statement": "Every task accepted by PushTask before Stop is handed to exactly one worker, hand-out order is push order, tasks pushed after Stop are never run, and when the Stop call that stops a pool with at least one worker returns, every accepted task has run to completion (later Stop calls: C53).", "quantifier": "all interleavings of pushers, workers and stoppers, any number of workers >= 1", "why_tests_cant": "schedules", "anchors": ["include/bridge/async_executor/thread_pool.h:ThreadPool"]}
{"id": "C36", "title": "No lost wake-up, no deadlock in the pool", "statement": "Whenever no thread of the pool can move, the queue is empty, every accepted task has completed, and if Stop was called all workers have exited; at any moment a worker sleeps only if every queued task has its own wake-up on the way; without endless spurious wake-ups every schedule comes to an end. (Pools with at least one worker.)", "quantifier": "all interleavings including spurious wake-ups", "why_tests_cant": "schedules", "anchors": ["include/bridge/async_executor/thread_pool.h:PushTask", "include/bridge/async_executor/thread_pool.h:Stop"]}
{"id": "C37", "title": "schedule() reports acceptance truthfully", "statement": "BridgeExecutor::schedule returns true only if the function will eventually be run.", "quantifier": "all pool states and worker counts", "why_tests_cant": "needs a stopped or empty singleton pool", "anchors": ["include/bridge/async_executor/executor.h:schedule", "include/bridge/async_executor/thread_pool.h:PushTask", "include/bridge/async_executor/thread_pool.h:GetOrConstructInstance"]}
{"id": "C38", "title": "Containers returned by Parse can be extended", "statement": "Insert on any container reachable from the result of Parse is safe as long as the pool passed to Parse is alive.", "quantifier": "all documents, both schedulers", "why_tests_cant": "dangling references may appear to work", "anchors": ["include/bridge/object.h:BridgeContainerType", "include/bridge/object.h:ParseArray", "include/bridge/object.h:ParseMap"]}
{"id": "C39", "title": "dump is a faithful outline", "statement": "dump appends to its buffer the documented outline (type, size, keys, data type, indentation by depth) and nothing else; it is the same for view and owning trees with the same content, and it is preserved by two Normal round trips.", "quantifier": "all trees, levels and buffers", "why_tests_cant": "all trees", "anchors": ["include/bridge/object.h:Map::dump", "include/bridge/object.h:Array::dump", "include/bridge/object.h:Data::dump"]}
{"id": "C40", "title": "Adaptors preserve container content", "statement": "For every nesting of vector and unordered_map over supported types, adaptor builds a tree in which element i of a vector is at index i and the value of key k is at key k, with equal sizes, and the same holds after Serialize and Parse in every mode.", "quantifier": "all container values, all hash iteration orders", "why_tests_cant": "all values", "anchors": ["include/bridge/adaptor.h:adaptor"]}
{"id": "C41", "title": "Custom types survive transport", "statement": "For a custom type whose ConstructFromBridge inverts SerializeToBridge, Get<T> on the parsed node returns the original value (owning parse).", "quantifier": "all custom values, all documents", "why_tests_cant": "all values", "anchors": ["include/bridge/object.h:serialize_proxy", "include/bridge/object.h:get_proxy", "include/bridge/type_trait.h:bridge_custom_type"]}
{"id": "C42", "title": "In-situ parse accepts every serialized document", "statement": "Every document produced by Serialize can be parsed with parse_ref=true.", "quantifier": "all serialized documents", "why_tests_cant": "all trees", "anchors": ["include/bridge/parse.h:parseData", "include/bridge/object.h:DataView::valueParse"]}
{"id": "C43", "title": "Serialize never emits an undecodable data node", "statement": "Serialize of a tree containing a Data or DataView in the invalid (default constructed) state throws runtime_error and produces no document; for trees without such nodes it does not throw.", "quantifier": "all trees", "why_tests_cant": "all positions in all trees", "anchors": ["include/bridge/data_type.h:BRIDGE_CHECK_DATA_TYPE", "include/bridge/object.h:Data::valueSeri"]}
{"id": "C44", "title": "Round trip has no size limit", "statement": "The round trip holds for payloads and documents of any size that fit in memory.", "quantifier": "all sizes", "why_tests_cant": "needs multi-gigabyte inputs", "anchors": ["include/bridge/serialize.h:seriLength", "include/bridge/varint.h:varint_decode", "include/bridge/object.h:seri_count"]}
{"id": "C45", "title": "Varint codec does not depend on the platform's char", "statement": "The varint codec round trip holds whether plain char is signed or unsigned.", "quantifier": "all n, both signedness choices", "why_tests_cant": "needs another platform", "anchors": ["include/bridge/varint.h:MSBALL"]}
{"id": "C46", "title": "Each distinct string is stored once under dictionary encoding", "statement": "In a REPLACE document every distinct key or string value of the tree (and the synthetic root key) occurs exactly once in the dictionary, nothing else does, and every id in the body is below the dictionary size.", "quantifier": "all trees", "why_tests_cant": "all sharing patterns", "anchors": ["include/bridge/string_map.h:RegisterIdFromString", "include/bridge/object.h:seri_key"]}
{"id": "C47", "title": "Parsing does not depend on hash iteration order", "statement": "Two documents serialized from the same object with different hash-table iteration orders parse to the same tree, with any iteration order on the reading side.", "quantifier": "all objects, all iteration orders on both sides", "why_tests_cant": "iteration order is implementation defined", "anchors": ["include/bridge/string_map.h:Serialize", "include/bridge/split_info.h:Serialize", "include/bridge/string_map.h:buildReMap"]}
{"id": "C48", "title": "C-string literals lose exactly one terminator", "statement": "Constructing or assigning a Data or DataView from a char array of n elements stores all n characters, minus the last one exactly when it is NUL; embedded NULs are kept and survive the round trip.", "quantifier": "all array sizes and contents", "why_tests_cant": "all contents", "anchors": ["include/bridge/serialize.h:serialize"]}
{"id": "C49", "title": "Dictionary lookups see later registrations", "statement": "After any interleaving of RegisterIdFromString and GetStr calls on one StringMap, GetStr of every id handed out so far returns the string registered under it.", "quantifier": "every sequence of registrations and lookups", "why_tests_cant": "The library itself never mixes the two phases, so its tests never do; the property ranges over all histories of the public class.", "anchors": ["include/bridge/string_map.h:StringMap::GetStr", "include/bridge/string_map.h:StringMap::RegisterIdFromString", "include/bridge/string_map.h:StringMap::buildReMap"]}
{"id": "C50", "title": "Assignment is exception safe", "statement": "If the SerializeToBridge of the right-hand side of a Data assignment throws, the Data can still be read and assigned afterwards.", "quantifier": "every history of a Data followed by a throwing assignment", "why_tests_cant": "needs every prior state of the Data and undefined behaviour is not observable by a test", "anchors": ["include/bridge/object.h:Data::operator=", "include/bridge/object.h:detail::serialize_proxy", "include/bridge/object.h:Data::destruct_by_datatype"]}
{"id": "C51", "title": "A Data can be assigned from its own content", "statement": "d = *d.GetPtr<std::string>() keeps the value of d.", "quantifier": "every history of a Data holding a string", "why_tests_cant": "reading destroyed storage usually seems to work in a test", "anchors": ["include/bridge/object.h:Data::operator=", "include/bridge/object.h:Data::GetPtr"]}
{"id": "C52", "title": "Map::Get takes exactly one value out", "statement": "Get(k) on a Map returns what operator[](k) would have shown; afterwards lookups of k give nullptr, all other lookups and Size() are unchanged.", "quantifier": "every history of Insert, Get and Clear", "why_tests_cant": "ranges over all histories with repeated and shadowed keys", "anchors": ["include/bridge/object.h:Map::Get", "include/bridge/object.h:MapView::Get"]}
{"id": "C53", "title": "Every Stop call waits for the tasks", "statement": "Whichever thread calls Stop, and however many do, Stop returns only after every accepted task has run to completion.", "quantifier": "all numbers of workers and clients, all schedules", "why_tests_cant": "a second concurrent Stop must hit a window of a few instructions", "anchors": ["include/bridge/async_executor/thread_pool.h: ThreadPool::Stop"]}
{"id": "C54", "title": "Executor thread identification", "statement": "GetCurrentId / currentContextId / currentThreadInExecutor answer i inside a task run by worker i and -1 (false) on every thread that is not a worker of the pool.", "quantifier": "all schedules, all threads", "why_tests_cant": "depends on thread-local state set concurrently by starting threads", "anchors": ["include/bridge/async_executor/thread_pool.h: getCurrent, GetCurrentId", "include/bridge/async_executor/executor.h: currentContextId"]}
{"id": "C55", "title": "worker_num_ is honoured", "statement": "A parallel Parse runs on a pool with ParseOption::worker_num_ workers.", "quantifier": "all histories of Parse calls in one process", "why_tests_cant": "the pool is a process-wide singleton created by the first call", "anchors": ["include/bridge/async_executor/thread_pool.h: GetOrConstructInstance", "include/bridge/async_executor/executor.h: BridgeExecutor", "include/bridge/object.h: ParseOption"]}
{"id": "C56", "title": "Stop may be called from a task", "statement": "Calling Stop, also from inside a task, never terminates the process.", "quantifier": "all schedules and nestings of tasks", "why_tests_cant": "self-join only happens for one of the workers", "anchors": ["include/bridge/async_executor/thread_pool.h: ThreadPool::Stop"]}
{"id": "C57", "title": "Parallel parse of arbitrary input is race free", "statement": "Parsing arbitrary bytes with the Coroutine scheduler has no data race on the id-to-string table, whatever the schedule.", "quantifier": "all byte strings, all parse options, all schedules", "why_tests_cant": "needs a hostile document and a particular schedule", "anchors": ["include/bridge/string_map.h:GetStr", "include/bridge/object.h:ParseMap", "include/bridge/object.h:CoroutineScheduler"]}
{"id": "C58", "title": "Different contents never share their bytes", "statement": "If two objects serialize to the same document (below 2 GiB), they have the same content: same tree of types, keys, values and map order, whatever platform and serialization type produced the documents.", "quantifier": "all pairs of complete object trees, platforms and serialization types", "why_tests_cant": "a collision between two encodings is a needle in an infinite haystack; injectivity ranges over pairs of trees", "anchors": ["include/bridge/object.h: Serialize, valueSeri", "include/bridge/serialize.h"]}
{"id": "C59", "title": "The bytes depend on the content only", "statement": "Serialize gives the same bytes for any two objects with the same content on the same platform: it makes no difference whether nodes are views or own their data, where the viewed buffers lie, which pools were used or whether the object was serialized before.", "quantifier": "all pairs of complete object trees denoting the same value, all memories and pools", "why_tests_cant": "covers every mixture of views and owning nodes at every position of every tree", "anchors": ["include/bridge/object.h: Data::valueSeri, DataView::valueSeri, Map::valueSeri, MapView::valueSeri"]}
{"id": "C60", "title": "Load/store cycles reproduce the document", "statement": "Two sequential load/store cycles (Parse then Serialize, in-situ or copying) reproduce the original document byte for byte; one cycle suffices when no map has more than one entry.", "quantifier": "all documents produced by Serialize, both serialization types, all parse_ref combinations, all readers", "why_tests_cant": "byte equality for every tree shape and split layout", "anchors": ["include/bridge/object.h: Serialize, Parse, Map::valueParse"]}
{"id": "C61", "title": "Linked containers behave as independent sequences", "statement": "In any program over any number of arrays and maps sharing pool memory, with inserts, clears, take-outs, sequential and block-wise parses in any order, every query (size, index, lookup, iteration) on a container answers from that container's own history; no null or dangling item pointer is followed and every traversal ends.", "quantifier": "all operation sequences over all numbers of containers", "why_tests_cant": "pointer aliasing and wrongly linked tails only show for particular interleavings of operations on several containers", "anchors": ["include/bridge/object.h: Array::Insert, Array::operator[], Array::Merge, Map::Insert, Map::Get, Map::Merge, MapView::Merge, ParseArrayBlock, ParseMapBlock, ParseMapViewBlock"]}
{"id": "C62", "title": "Everything a parallel parse allocated belongs to the caller's pool", "statement": "When Parse with the Coroutine scheduler returns, every node and item that any of its tasks allocated is alive and owned by the BridgePool the caller passed, whatever the tree of tasks and their interleaving; nothing other pools own has changed hands, every pool of a task is gone, and no memory was used illegally. So the result lives exactly as long as the caller's pool.", "quantifier": "all task trees, all interleavings, all earlier histories of pools, all eight pooled classes", "why_tests_cant": "the lifetime of a node depends on the chain of pool moves and merges along every path of the task tree and on the schedule", "anchors": ["include/bridge/object.h:ParseArray", "include/bridge/object.h:ParseMap", "include/bridge/object.h:ParseArrayBlock", "include/bridge/object.h:ParseMapBlock", "include/bridge/object.h:ParseMapViewBlock", "include/bridge/object.h:BridgePool::Merge", "include/bridge/object.h:CoroutineScheduler::Parse", "include/bridge/object_pool.h:ObjectPool::Merge"]}
{"id": "C63", "title": "A failed parallel parse keeps nothing", "statement": "When a task of a parallel parse throws, wherever and however often this happens, every object allocated by any task is gone afterwards (destroyed exactly once if its class has a destructor), every task's pool is gone, and the pools that existed before own exactly what they owned.", "quantifier": "all task trees, all interleavings, all failing tasks, all eight pooled classes", "why_tests_cant": "any subset of the tasks can fail at any point", "anchors": ["include/bridge/object.h:ParseArray", "include/bridge/object.h:ParseMap", "include/bridge/object_pool.h:ObjectPool", "include/bridge/object_pool.h:Block"]}
{"id": "C64", "title": "No pool is used by two tasks at the same time", "statement": "While a parallel parse runs, two tasks awaited by the same coroutine never work on the same pool, none of them works on the pool of the coroutine that waits for them, and no task touches a pool that existed before the parse, in particular not the caller's; pools need no lock.", "quantifier": "all task trees and all reachable states of their execution", "why_tests_cant": "data races on pools depend on the schedule", "anchors": ["include/bridge/object.h:ParseArray", "include/bridge/object.h:ParseMap", "include/bridge/object.h:GetBPFromTuple", "include/bridge/object_pool.h:ObjectPool::Alloc"]}
{"id": "C65", "title": "The variant's storage serves every alternative", "statement": "variant<Ts...> can be instantiated exactly when the alternatives are pairwise different; construct/get/move/destruct for T compile exactly when T is one of them; its buffer is exactly as large as the largest alternative and its alignment serves every alternative; after any sequence of constructions reading the type constructed last gives that object and no access leaves the buffer.", "quantifier": "all lists of alternatives, all platforms' sizes and alignments, all construction histories", "why_tests_cant": "ranges over all type lists and platforms; a test instantiates a few", "anchors": ["include/bridge/variant.h:variant", "include/bridge/variant.h:Index", "include/bridge/variant.h:Unique", "include/bridge/variant.h:MaxSize", "include/bridge/variant.h:ValidType"]}
{"id": "C66", "title": "Which types adaptor accepts", "statement": "For every C++ type at most one overload of adaptor applies (never an ambiguity); if one applies then all the calls in its body compile too; and it applies exactly to the element types (the integers, floats, std::string, custom types), to byte vectors, to any nesting of vector and unordered_map<string or string_view, .> around an element type, and to one container level around byte vectors (two levels around byte vectors are rejected).", "quantifier": "all C++ types built from element types, byte vectors, vector and unordered_map", "why_tests_cant": "the set of types is infinite; a test instantiates a few", "anchors": ["include/bridge/adaptor.h:adaptor", "include/bridge/type_trait.h:AdaptorTrait", "include/bridge/type_trait.h:bridge_adaptor_type", "include/bridge/type_trait.h:bridge_type"]}
{"id": "C67", "title": "Ambiguous auxiliary tables are rejected", "statement": "A document whose split table names the same container twice is rejected with an exception, and a split table without repetition is decoded exactly. A document whose dictionary gives one id to two strings, or two ids to one string, is rejected too, so that the content of an accepted document never depends on how the standard library iterates its hash tables. (The second half is false: repeated dictionary ids are accepted, and the same bytes are then read as different contents under different iteration orders; repeated strings silently keep their first id.)", "quantifier": "all tables with 32-bit entries, repeated or not, at any place of a document; all hash iteration orders; all ids looked up", "why_tests_cant": "the library never writes such tables, so no round-trip test produces one, and which content an ambiguous dictionary yields depends on the standard library's hash order", "anchors": ["include/bridge/split_info.h: SplitInfo::Construct", "include/bridge/string_map.h: StringMap::Construct, GetStr, buildReMap"]}
{"id": "C68", "title": "A parallel parse always comes to an end on its thread pool", "statement": "With at least one worker thread, Parse with the Coroutine scheduler returns: no task ever waits for a worker that cannot become free (nested containers suspend instead of blocking), never more than worker_num_ tasks run at a time, every schedule is finite, and the caller gets the object (or, for dictionary-free input that fails, the exception) that a sequential parse gives.", "quantifier": "all serialized documents (followed by any bytes), and all dictionary-free inputs whose sequential parse returns or throws; all worker counts from 1; all choices of the pool; continuation of a parent in place or by rescheduling", "why_tests_cant": "deadlock by worker exhaustion depends on nesting, number of blocks, number of workers and schedule; a test sees a few of them", "anchors": ["include/bridge/object.h: CoroutineScheduler::Parse, ParseArray, ParseMap, ArrayParse, MapParse", "include/bridge/async_executor/executor.h: BridgeExecutor::schedule", "include/bridge/async_executor/thread_pool.h: ThreadPool"]}
{"id": "C69", "title": "Every worker_num_ is usable", "statement": "Parse with the Coroutine scheduler accepts every worker_num_ and then returns, or rejects it. (False: worker_num_ = 0 is accepted; for a document whose root is split no worker exists to run the root task and the caller blocks for ever. Every positive number works and gives the same result.)", "quantifier": "all values of worker_num_, all serialized documents, all schedules", "why_tests_cant": "a hang is the absence of any step in every schedule; a test can only time out", "anchors": ["include/bridge/object.h: ParseOption, CoroutineScheduler::Parse", "include/bridge/async_executor/thread_pool.h: ThreadPool::ThreadPool, GetOrConstructInstance"]}
{"id": "C70", "title": "Parallel parses may run at the same time", "statement": "Any number of parallel parses started from different threads share one thread pool. They do not block each other for ever, never more tasks run than there are workers, no task crashes, all calls return after finitely many steps, and each returns exactly what it returns when it runs alone.", "quantifier": "all finite sets of calls on serialized documents, copying or in place; all numbers of workers from 1; all schedules", "why_tests_cant": "the interleavings of several task trees on shared workers are unboundedly many", "anchors": ["include/bridge/async_executor/executor.h: BridgeExecutor::schedule", "include/bridge/async_executor/thread_pool.h: ThreadPool::GetOrConstructInstance", "include/bridge/object.h: CoroutineScheduler::Parse"]}
{"id": "C71", "title": "Bytes after the announced parts are never looked at", "statement": "Take any bytes, not only serialized ones, that contain everything their header announces (a main part of the declared size and the length-prefixed tables). If Parse accepts them, then appending any bytes at all gives exactly the same object, in every mode, in-place views included.", "quantifier": "all byte strings with complete tables, all suffixes, all parse options, all platforms and hash orders", "why_tests_cant": "both the accepted input and the suffix range over all byte strings, including hostile ones", "anchors": ["include/bridge/object.h: Scheduler::initFromContent, NormalScheduler::Parse, CoroutineScheduler::Parse", "include/bridge/object.h: InnerWrapper, parseLength"]}
{"id": "C72", "title": "The split table is only a hint for sequential parsing", "statement": "Replace the split table of a serialized document by arbitrary bytes. If the sequential parser accepts the result it returns the content of the original (the very same object in owning mode). In particular the split tables of two documents can be exchanged: both are still accepted and give the same objects as before.", "quantifier": "all serializable objects, all replacement byte strings, both document types, owning and in-place", "why_tests_cant": "ranges over all documents and all replacement tables", "anchors": ["include/bridge/object.h: Scheduler::initFromContent, NormalScheduler::Parse, SplitInfo::Construct"]}
{"id": "C73", "title": "The exact language of the sequential parser", "statement": "There is a small grammar of documents (Lenient.v) such that the sequential owning parser accepts a byte string whose announced parts are all present exactly when the string belongs to the grammar, and then returns exactly the object the grammar assigns to it (the last child of the root map called root). The grammar says which liberties are allowed: padded length numbers of at most ten bytes, arbitrary split marks and container ids, data behind the tables, unused bytes inside the tables, repeated keys, and in release builds numeric payloads shorter than their type (filled with zero bytes on the low-order side).", "quantifier": "all byte strings, all platforms, debug and release builds", "why_tests_cant": "acceptance and result are characterised for every byte string, including hostile ones", "anchors": ["include/bridge/object.h: NormalScheduler::Parse, Map::valueParse, Array::valueParse, Data::valueParse", "include/bridge/parse.h: parseLength, parseData", "include/bridge/string_map.h: StringMap::Construct", "include/bridge/split_info.h: SplitInfo::Construct"]}
{"id": "C74", "title": "The platform has no influence on what Parse does", "statement": "For every byte string that does not ask for a dictionary, two builds of the library with the same assertion setting (byte order, hash iteration order, signedness of char, block size may all differ) do the same with it: same object, same exception, or both undefined - for either scheduler, copying or in place, also for bytes no serializer wrote. A build with assertions either aborts or does exactly what a build without them does, so a release build accepts everything a debug build accepts. The same holds for documents with a dictionary that gives no id to two keys. Buffers may differ: two builds that accept the same bytes return objects with the same content.", "quantifier": "all byte strings, all pairs of platforms, both schedulers, both copying modes", "why_tests_cant": "would need every byte string on every platform", "anchors": ["include/bridge/object.h: NormalScheduler::Parse", "include/bridge/parse.h: parseData", "include/bridge/util.h: flipByByte, Endian"]}
{"id": "C75", "title": "Accepted bytes can be normalised", "statement": "Whatever non-null object the sequential parser returned for whatever bytes (padded numbers, repeated keys, foreign marks), Serialize succeeds on it in both formats; reading that document, writing the result and reading again gives exactly the object that the original bytes gave.", "quantifier": "all accepted byte strings, all platforms for each of the steps, both formats", "why_tests_cant": "ranges over all accepted byte strings", "anchors": ["include/bridge/object.h: Parse, Serialize, NormalScheduler::Parse"]}
{"id": "C76", "title": "In-place and copying parse agree on arbitrary bytes", "statement": "Whatever bytes the sequential copying parser accepts (written by the library or not), the in-place (parse_ref) sequential parser accepts exactly those of them that contain no custom data, throws a runtime error on the others, and its result shows through every access path exactly the content of the copy, as long as the caller's buffer still holds the document.", "quantifier": "all byte strings accepted by the copying parser, all platforms, all access paths", "why_tests_cant": "ranges over every accepted byte string and every access path", "anchors": ["include/bridge/object.h: DataView::valueParse, MapView::valueParse, Array::valueParse, NormalScheduler::Parse", "include/bridge/parse.h: parseData", "include/bridge/string_map.h: StringMap::Construct"]}
{"id": "C77", "title": "In-place results refer only to the document", "statement": "If the in-place parser returns an object, every string, byte string and key in it lies inside the document, so every access path can be read while the buffer is in place; and the copying parser accepts the same bytes with the same content.", "quantifier": "all byte strings accepted in place, all access paths", "why_tests_cant": "ranges over hostile byte strings", "anchors": ["include/bridge/object.h: DataView::valueParse", "include/bridge/inner.h: InnerWrapper::skip, outOfRange", "include/bridge/parse.h: parseData"]}
{"id": "C78", "title": "Plain documents cannot ask for more memory than they have bytes", "statement": "Whatever object the sequential parser builds from bytes whose format byte says 'plain', three bytes per node plus every byte of every stored string, byte string and key, plus ten, is at most the size of the input; three times the nesting depth plus ten likewise. Counts and lengths announced in hostile bytes reserve nothing by themselves.", "quantifier": "all byte strings the sequential parser accepts with format byte 0", "why_tests_cant": "ranges over all hostile byte strings", "anchors": ["include/bridge/object.h: NormalScheduler::Parse, Array::valueParse, Map::valueParse, Data::valueParse", "include/bridge/parse.h: parseData"]}
{"id": "C79", "title": "Dictionary documents cannot ask for more memory than a constant times their size", "statement": "The bytes stored in the object the sequential parser builds from any accepted document are bounded by a constant times the size of the document.", "quantifier": "all byte strings the sequential parser accepts", "why_tests_cant": "ranges over all hostile byte strings and is about growth, which a fixed set of inputs cannot show", "anchors": ["include/bridge/string_map.h: StringMap::Construct, GetStringFromId", "include/bridge/object.h: Data::valueParse, Map::valueParse"]}
{"id": "C80", "title": "Parallel parsing builds no more nodes than the document has bytes", "statement": "Whatever bytes the parallel (Coroutine) parser accepts, copying or in place, the number of nodes of the object it returns is at most the number of bytes it was given, so parsing hostile bytes in parallel costs no more memory than parsing them sequentially.", "quantifier": "all byte strings accepted by the parallel parser, both modes", "why_tests_cant": "ranges over all hostile byte strings and is about growth, which a fixed set of inputs cannot show", "anchors": ["include/bridge/object.h: ParseArray, ParseArrayBlock, ParseMap, ParseMapBlock, CoroutineScheduler::Parse", "include/bridge/split_info.h: SplitInfo::Construct"]}
{"id": "C81", "title": "Nesting accepted by the parser is bounded by a constant", "statement": "The nesting depth of every document Parse accepts (hence the depth of the recursion used to parse, dump, serialize and destroy it) is bounded by a constant that does not depend on the document.", "quantifier": "all byte strings the sequential parser accepts", "why_tests_cant": "it quantifies over every hostile byte string and every depth; a test tries one depth", "anchors": ["include/bridge/object.h: Array::valueParse, Map::valueParse, NormalScheduler::Parse"]}
{"id": "C82", "title": "What the parallel parser makes of any bytes is determined by the bytes and the block table", "statement": "Whatever byte string Parse with the Coroutine scheduler accepts, its result is the one determined by reading, from the position behind the header, the blocks listed in the table behind the body (each block read until its end is reached or passed, later blocks of a map found first, the announced number of children ignored); and every byte string that has such a reading is accepted with that result. A document not marked as split is treated exactly as by the sequential parser.", "quantifier": "all byte strings below the size limit whose tables have the announced size, both builds, plain and dictionary documents", "why_tests_cant": "it characterises the parser on every byte string, including hostile ones, in both directions", "anchors": ["include/bridge/object.h: CoroutineScheduler, ParseArray, ParseMap, ParseArrayBlock, ParseMapBlock, ParseSplitInfo", "include/bridge/split_info.h: SplitInfo::GetBlockInfoFromId"]}
{"id": "C83", "title": "The sequential and the parallel parser accept the same documents with the same content", "statement": "For every byte string marked as split, Parse with the Normal scheduler accepts it if and only if Parse with the Coroutine scheduler does, and what a user then finds along any path of keys and indexes is the same.", "quantifier": "all byte strings, whoever wrote them; all access paths", "why_tests_cant": "it ranges over all documents of all writers and all access paths", "anchors": ["include/bridge/object.h: NormalScheduler::Parse, CoroutineScheduler::Parse, ParseArray, ParseMap"]}
{"id": "C84", "title": "A parsed document can be edited and written again", "statement": "Whatever bytes the sequential copying parser accepts (whoever wrote them), the result can be edited at its root by any sequence of Insert and Clear while the pool lives; every access path then shows the edited content; Serialize of the result succeeds on any build in either format; and (if no map has a key twice) reading it back with any scheduler, in either mode, on any build shows the edited content along every path.", "quantifier": "all accepted byte strings, all edit sequences of fewer than 2^63 edits, all builds, formats, schedulers, modes and access paths", "why_tests_cant": "unbounded histories of edits on results of arbitrary inputs", "anchors": ["include/bridge/object.h: Array::Insert, Map::Insert, Clear, Serialize, Parse"]}
{"id": "C85", "title": "What an in-place result needs the buffer for", "statement": "The result of an in-place parse reads text, and nothing else, from the input buffer, at the time of the read. If the buffer is overwritten (but not shortened) every read stays defined and the structure, the numbers and the lengths of all texts and keys are unchanged. If the buffer is gone, types, sizes, numbers and whatever is reached by array indexes are still correct, and reading a non-empty text is undefined.", "quantifier": "all documents written by the library without custom data, all schedulers, all later contents of the buffer, all access paths", "why_tests_cant": "ranges over all later states of the memory and all documents; a use after free may look fine in a test", "anchors": ["include/bridge/object.h: DataView, MapView, ParseOption::parse_ref", "include/bridge/parse.h: parseData"]}
{"id": "C86", "title": "Reading in place follows copying, for either scheduler and arbitrary bytes", "statement": "Whatever bytes Parse accepts when copying (sequential or parallel scheduler, document written by the library or not), Parse with parse_ref=true and the same scheduler either throws a runtime error or succeeds, and then every access path into its result shows what the copy shows while the caller's buffer holds the document; it throws whenever custom data can be reached in the copy, and for the parallel scheduler exactly when the input holds custom data anywhere (also outside the returned part).", "quantifier": "all byte strings the copying parser accepts, both schedulers, all access paths, all platforms", "why_tests_cant": "ranges over every accepted byte string, every block table and every access path", "anchors": ["include/bridge/object.h: ParseArray, ParseMap, ParseArrayBlock, ParseMapBlock, ParseMapViewBlock, DataView::valueParse, MapView::valueParse, CoroutineScheduler::Parse", "include/bridge/parse.h: parseData"]}
{"id": "C87", "title": "Which C++ types the Data API accepts, and what it records", "statement": "Data(x), bp.data(x) and d = x compile exactly for the documented argument types (the numbers, std::string, std::vector<char>, named char arrays and literals, custom objects), DataView additionally for std::string_view but not for custom types; whatever compiles records the tag of the argument's type and stores the alternative that this tag stands for, so reading with the same type is well-defined; Get, GetPtr and GetView compile exactly for the types that can be stored.", "quantifier": "all argument types, constness and value categories, all user classes and their implicit conversions", "why_tests_cant": "the set of argument types and classes is infinite, and a call that does not compile cannot appear in a test", "anchors": ["include/bridge/object.h:Data", "include/bridge/object.h:DataView", "include/bridge/object.h:detail::serialize_proxy", "include/bridge/object.h:detail::get_proxy_", "include/bridge/data_type.h:DataTypeTrait", "include/bridge/serialize.h:serialize", "include/bridge/type_trait.h:bridge_custom_type"]}
{"id": "C88", "title": "The pointer interface agrees with the wrapper", "statement": "AsMap, AsArray and AsData on a non-null object return that object exactly when it is an owning map, an array, an owning data object, and a null pointer otherwise (never a wrongly typed pointer); after a copying parse, navigating and reading with them finds exactly what the wrapper finds, for every path, also custom values; after an in-place parse AsMap and AsData refuse every node and AsArray accepts exactly the arrays.", "quantifier": "all objects, all accepted inputs, both schedulers, all paths and types read", "why_tests_cant": "ranges over all accepted inputs and all paths", "anchors": ["include/bridge/object.h:AsMap", "include/bridge/object.h:AsArray", "include/bridge/object.h:AsData", "include/bridge/object.h:ObjectWrapper"]}
{"id": "C89", "title": "Copies of containers", "statement": "Array, Map and MapView objects can be copy-constructed. Whatever a program does with containers and copies of them (insert, clear, take, merge, parse, query, iterate, copy again), no null or dangling pointer is followed and every loop ends; keys, order and size of a container never change through operations on a copy of it, and as long as nothing is moved out with Get every answer is the one a deep copy would give. Full statement: a copy is independent of its original in every respect.", "quantifier": "all finite programs over any number of containers and copies", "why_tests_cant": "ranges over all interleavings of operations on containers that share nodes", "anchors": ["include/bridge/object.h:Array", "include/bridge/object.h:Map", "include/bridge/object.h:MapView"]}
{"id": "C90", "title": "Building and destroying patterns is defined", "statement": "A pattern can be built from parts (values of a map pattern, positions of an array pattern, alternatives, conjuncts), its parts replaced or removed, and destroyed, without undefined behaviour.", "quantifier": "all patterns, all sequences of member function calls", "why_tests_cant": "ranges over all histories; undefined behaviour is not observable in a passing test", "anchors": ["include/bridge/pattern.h:Pattern", "include/bridge/pattern.h:MapPattern", "include/bridge/pattern.h:ArrayPattern", "include/bridge/pattern.h:OrPattern", "include/bridge/pattern.h:AndPattern"]}
{"id": "C91", "title": "Exactly which documents lead the sequential parser into undefined behaviour", "statement": "Parse with the sequential scheduler (copying or in place, debug or release) runs into undefined behaviour on a document exactly if, behind parts that are all complete, there stands a data item whose announced payload length runs past the end of the buffer (copying parses of strings, bytes and custom data; numbers always), or, in release builds, a number announced with more bytes than its type has, or a number field (length, count, id, key length) with ten or more continuation bytes. No table, key, dictionary entry or tag leads out of bounds.", "quantifier": "all byte strings with a well-formed header and tables in which no complete number field holds 2^63 or more (the converse also for malformed tables, where no number field has nine continuation bytes), both builds, both parse_ref settings", "why_tests_cant": "an exact characterisation over all byte strings; out-of-bounds reads need not be visible in a test", "anchors": ["include/bridge/object.h: Data::valueParse, DataView::valueParse, NormalScheduler::Parse", "include/bridge/parse.h: parseLength, parseData"]}
{"id": "C92", "title": "Parallel parses on the shared pool return, lock by lock", "statement": "If several threads call Parse with the Coroutine scheduler on serialized documents at the same time, then on the process-wide thread pool with at least one worker, in every schedule of all operations on its mutex, queue and condition variable (spurious wake-ups included), every call returns what it returns when run alone; until all have returned some thread can move, and the threads cannot move for ever without spurious wake-ups.", "quantifier": "any number of concurrent calls on any serialized documents, copying or in place, any number of workers >= 1, all schedules", "why_tests_cant": "deadlock, lost wake-ups and wrong results depend on the interleaving of individual lock operations", "anchors": ["include/bridge/async_executor/thread_pool.h: PushTask, ThreadPool", "include/bridge/async_executor/executor.h: schedule", "include/bridge/object.h: CoroutineScheduler::Parse, coro_valueParse"]}
{"id": "C93", "title": "Parallel parses return although the pool is stopped", "statement": "A call of Parse with the Coroutine scheduler returns even if the shared thread pool has been stopped or is stopped meanwhile.", "quantifier": "any number of concurrent calls on serialized documents, any number of workers >= 1, Stop at any point of any schedule", "why_tests_cant": "ranges over every point of every schedule at which Stop may be called", "anchors": ["include/bridge/async_executor/thread_pool.h: PushTask, Stop", "include/bridge/async_executor/executor.h: schedule", "include/bridge/object.h: CoroutineScheduler::Parse"]}
{"id": "C94", "title": "Exactly which inputs fail an assert in Parse", "statement": "A release build of Parse fails no assert, on any input and in any mode. A debug build with the sequential scheduler fails one exactly if, behind parts that are all complete, the document holds a number announced with another size than its type has, or a number field cut off by the end of the buffer; on documents without such a spot and without one of C91's, Parse returns a tree or throws.", "quantifier": "release: all byte strings, fuels, pools, parse options; debug: all byte strings with a well-formed header and tables in which no complete number field holds 2^63 or more", "why_tests_cant": "ranges over all byte strings, and the debug characterisation is an exact one", "anchors": ["include/bridge/parse.h: BRIDGE_PARSE, parseData", "include/bridge/varint.h: varint_decode", "include/bridge/object.h: Parse, NormalScheduler::Parse"]}
{"id": "C95", "title": "The bytes of a document, in absolute terms", "statement": "Serialize writes exactly the format described with literal numbers in Format.v (tags 0-7 and 12 for data, 0/1/2 plus 128 for nodes, one size byte 4 or 8 before network-order numbers, minimal seven-bit groups for lengths, counts and ids, header, string table, block table); and every byte string of that format, whoever wrote it, is parsed by every scheduler and in both modes into an object with the described content.", "quantifier": "all objects with a content, both serialization types, all platforms; all byte strings of the format, all parse options", "why_tests_cant": "documents outlive the program that wrote them: the format must hold for every tree and every document, not for some files", "anchors": ["include/bridge/object.h: Serialize, Parse", "include/bridge/serialize.h", "include/bridge/data_type.h", "include/bridge/object_type.h", "include/bridge/varint.h"]}
{"id": "C96", "title": "Memory an object pool asks for", "statement": "A pool that serves n allocations requests buffers of 2, 16, 128, 1024, 4096, 10240, 10240, ... slots, each only when all earlier ones are used up, and frees none meanwhile; so at most 10239 slots are unused and there are at most 6 + n/10240 requests. Whatever is done with any number of pools (throwing constructors, moves, merges, clears, destruction), the slots held exceed the objects by at most 10240 per existing pool and per merge.", "quantifier": "all numbers of allocations; all sequences of pool operations", "why_tests_cant": "a bound over all histories", "anchors": ["include/bridge/object_pool.h: Block, ObjectPool::Alloc, ObjectPool::Merge"]}
{"id": "C97", "title": "Which inputs make the parallel parser leave its buffers", "statement": "On a document whose header announces a split root and whose tables are well formed, Parse with the Coroutine scheduler runs into undefined behaviour (a failed assert) only if one of the independently read blocks contains, behind complete children, one of the listed spots: a number field of more than ten bytes, a payload announced longer than the buffer (or than the number it is copied into), and, only here, a key announced longer than the buffer, which the sequential parser refuses. If such a spot is there behind complete children, the parser does run into one, even when other blocks are malformed and the sequential parser refuses the document. Otherwise it returns or throws.", "quantifier": "all byte strings with a well-formed split header and tables (numbers below 2^63), both parse_ref settings, debug and release builds", "why_tests_cant": "a characterisation of a set of hostile inputs; undefined behaviour need not show in a run", "anchors": ["include/bridge/object.h: ParseMapBlock, ParseArrayBlock, ParseMap, ParseArray, valueParse, parseLength", "include/bridge/inner.h: InnerWrapper"]}
{"id": "C98", "title": "Objects a parse takes from the caller's pool", "statement": "A sequential Parse that succeeds has taken from the caller's BridgePool exactly the objects of the value it accepted: one object per node, of the owning or of the view classes according to parse_ref, one item per array element and map entry, plus its own root map; a Parse of n bytes that succeeds, throws or aborts has taken fewer than n objects in all (documents without number fields of 2^63 or more).", "quantifier": "all byte strings (accepted ones; all ones for the bound), both modes, all platforms, all pools; all serialized trees", "why_tests_cant": "it is a claim about the memory taken for every input, including rejected ones, whose objects stay in the pool until Clear", "anchors": ["include/bridge/object.h: NormalScheduler::Parse, parse_child, object_factory, Array::valueParse, Map::valueParse, MapView::valueParse", "include/bridge/object_pool.h: BridgePool::data, data_view, array, map, map_view, array_item, map_item, map_view_item"]}
{"id": "C99", "title": "A parallel parse leaves exactly the objects of the document in the caller's pool", "statement": "When Parse with the Coroutine scheduler reads a document whose root is split, then however its coroutines are interleaved on the worker threads, every execution can be carried to its end; if the bytes are accepted, the pool the caller passed owns, more than before, exactly one live object of the right class per value and one item per element and entry (view classes when parsing in place) - nothing is lost with a coroutine's private pool, nothing is allocated twice, and no other pool's objects change hands. In particular for a document written by Serialize these are the root map, one item and the objects of the value. If the parse throws, every object any coroutine allocated is destroyed and the caller's pool is as before.", "quantifier": "all inputs of at most 2^32 (2^31 with asserts) bytes that the parallel parser accepts or refuses, both modes, all interleavings of the coroutines, all previous histories of pool operations, all eight object classes", "why_tests_cant": "The set of coroutines and their pools depends on the document and the hand-over of pools on the interleaving; a test sees one document and one schedule, and cannot see objects that are owned by no pool.", "anchors": ["include/bridge/object.h: ParseArray, ParseMap, ParseArrayBlock, ParseMapBlock, ParseMapViewBlock, CoroutineScheduler::Parse, BridgePool::Merge", "include/bridge/object_pool.h: ObjectPool::Alloc, ObjectPool::Merge"]}
{"id": "C100", "title": "The writing platform cannot influence a document beyond the order of its table entries", "statement": "For every object, complete or not, and every serialization type, Serialize ends in the same way (same exception, same undefined behaviour, or success) on any two platforms that differ in byte order, in whether asserts are compiled in, or in the iteration order of their hash tables; when it returns, both documents have the same length, the same header and body, and their dictionary and split tables have the same entries, possibly in another order. A NORMAL document shorter than the split size is the same byte for byte on all platforms, and does not depend on the split size.", "quantifier": "every object tree (including null children, invalid data, views), every memory, both serialization types, every two platforms (byte order, NDEBUG, any hash iteration order)", "why_tests_cant": "the tests run on one little-endian host with one standard library; another byte order or another unordered_map iteration order, and all object trees, cannot be enumerated", "anchors": ["include/bridge/object.h: Serialize, SerializeNormal, SerializeReplace, valueSeri, register_split_info", "include/bridge/string_map.h: StringMap::Serialize", "include/bridge/split_info.h: SplitInfo::Serialize", "include/bridge/serialize.h: seriLength, seriData"]}
{"id": "C101", "title": "Programs over pools and containers mean what they say", "statement": "Every program that creates pools, data, arrays, maps and map views, inserts, overwrites, clears, takes out, looks up, iterates, merges, moves, assigns, clears and destroys pools in any order behaves like the obvious specification (each object has a home pool, merging or moving a pool changes the homes, clearing or destroying a pool ends what is at home there): it is undefined exactly where it uses an object, entry or pool that has ended, and every answer before that is the specification's. Pointers identify objects: pointers to different objects never coincide, and a lookup returns the very pointer inserted. Merging, moving or creating a pool changes no answer of any later look. If no pool is cleared, destroyed or overwritten, every object ever made stays usable.", "quantifier": "all programs of fewer than 2^64 calls over any number of pools and objects, all keys and values", "why_tests_cant": "The interplay of pool histories and container histories is unbounded; a use-after-free that happens to read the old bytes passes every test.", "anchors": ["include/bridge/object.h: BridgePool, Array, Map, MapView, Data, DataView, ArrayItem, MapItem, MapViewItem", "include/bridge/object_pool.h: ObjectPool::Alloc, ObjectPool::Merge, ObjectPool::Clear"]}
{"id": "C102", "title": "A container can be inserted into as long as it exists", "statement": "As long as an array, map or map view exists (its memory is owned by some live pool), Insert on it works. It does not: a container keeps a reference to the BridgePool object it was made from, so after that pool object is destroyed - although its contents were moved or merged into a live pool - Insert is undefined. Insert works exactly when the container exists and the pool object it was made from exists.", "quantifier": "all programs of pool and container calls, every container, key and value", "why_tests_cant": "tests insert while the original pool object is still in scope; the defect needs a particular history of moves or merges.", "anchors": ["include/bridge/object.h: Array::Insert, Map::Insert, MapView::Insert, BridgePool::BridgePool(BridgePool&&), BridgePool::Merge"]}
{"id": "C103", "title": "The entries of a container live as long as the container", "statement": "As long as a container exists, its entries exist: it can be iterated, serialized or searched without touching freed memory. It does not hold: an entry inserted after the container's pool was merged into another one is allocated in the old pool and dies with it, leaving a dangling link in a live container. It holds for every program that inserts into a container only before the pool it was made from is given away.", "quantifier": "all programs of pool and container calls, every container", "why_tests_cant": "the dangling link only shows after a particular history (merge, insert, clear), and even then usually reads the old bytes.", "anchors": ["include/bridge/object.h: Array::Insert, Map::Insert, MapView::Insert, BridgePool::Merge, BridgePool::Clear"]}
{"id": "C104", "title": "Parsing and serializing inside a running program", "statement": "Inside any program that also builds, edits, merges, moves and clears its objects and pools, Parse(buffer, pool) returns a pointer that shows exactly the parsed tree (or throws exactly when and what the parser's result says), whatever the pool was used for before; it takes from the pool exactly the objects of the document, in order. Neither Parse (successful or throwing) nor Serialize nor writing to a buffer changes anything that a look at an existing object shows. An object serialized at one moment and parsed back at any later moment, into any pool alive then, in either parse mode, shows along every path what it showed when it was serialized, provided the buffer was left alone. A Parse takes no object away, and of each class exactly as many come as the document has. After a Parse that threw the program goes on as before.", "quantifier": "all programs of pool, container, parse, serialize and buffer operations (fewer than 2^64 calls in all), all buffers, both parse_ref settings of the sequential scheduler", "why_tests_cant": "Each test parses into a fresh pool; the claim is about parsing in the middle of arbitrary histories of pools and objects, including failed parses that leave half-built trees in the pool.", "anchors": ["include/bridge/object.h: Parse, NormalScheduler::Parse, Serialize, BridgePool, object_factory, Array::valueParse, Map::valueParse, MapView::valueParse"]}
{"id": "C105", "title": "Nothing changes under the program's feet", "statement": "Look at an object and at everything below it, as a serialization, a dump or an iteration would. Then let the program do anything - make objects, edit other containers, merge, move, clear and destroy pools, parse documents into any pool including the object's own, serialize any object including this one - except calling Insert, Clear, a taking lookup or an assignment on one of the objects it just saw. A later look at the object shows exactly the same, or is undefined because a pool holding part of it has ended; it never shows anything else. If no pool was cleared, overwritten or destroyed in between, it shows the same. If moreover the program leaves alone the buffers the object's views point into, every read along every path, every dump and every serialization of the object gives exactly what it gave before.", "quantifier": "all programs before and after the look, of any length, including parses that succeed or throw; all objects and all depths; all pool merges, moves, clears and destructions", "why_tests_cant": "The claim is about every interleaving of calls on unrelated objects and pools; a slot handed out twice, an entry overwritten by a merge or by a parse into the same pool shows up only after particular histories of the allocators.", "anchors": ["include/bridge/object.h: ObjectPool, BridgePool, Map, MapView, Array, Data, DataView, Parse, Serialize", "include/bridge/object_pool.h: ObjectPool::Merge, ObjectPool::Clear"]}
{"id": "C106", "title": "The memory of whole programs", "statement": "In any program that builds, edits, parses and serializes, and merges, moves, clears and ends pools, the memory of every class of pooled objects has a legal history: no buffer is freed twice, no object is constructed over another one or outside a buffer, none is destroyed twice, and no Data or Map is dropped without its destructor. When all pools of the program have ended every buffer has been returned, also after parses that threw. At any time the slots all pools hold exceed the objects and entries made so far by at most 10240 per class for every pool that exists and every merge so far.", "quantifier": "all programs, of any length, including parses of arbitrary bytes that succeed or throw; all eight classes of pooled objects; every moment", "why_tests_cant": "A double free, a lost buffer or unbounded growth would need a particular history of merges, moves and allocations across eight member pools; tests and sanitizers see the histories they run.", "anchors": ["include/bridge/object.h: BridgePool, Parse, Serialize, Map::Insert, MapView::Insert, Array::Insert, Array::valueParse", "include/bridge/object_pool.h: ObjectPool, Block"]}
{"id": "C107", "title": "Parallel parsing inside a running program", "statement": "A program that has been building, editing, merging, clearing and parsing can parse a buffer with the Coroutine scheduler into any pool that exists, whatever that pool's history. The pointer returned leads only to objects that are there, and together they show the tree the parser computed, or what a serialized object showed along every path of keys and indices; exceptions are the parser's. The pools the coroutines make on the way, and hand on to each other, are all gone afterwards, no pool of the program is lost, no byte of any buffer changes, and whatever the program saw of its other objects it still sees, also when the parse throws. What such a parse does to the pools is what one of the executions of its coroutines does (C62, C99), from the root coroutine's start to its end and the delivery of its pool to the caller's. Afterwards the program holds, class by class, the objects it held before and exactly those of the document (one per node, element and entry, and the root map); after an exception exactly those it held before.", "quantifier": "all programs of any length (including earlier parses by either scheduler, successful or not), all pools and their histories, all buffer contents within the size limits, copying and in-place parsing, both serialization formats", "why_tests_cant": "Every coroutine has its own BridgePool whose memory must end up in the caller's pool through a chain of merges and moves; one missing merge leaves pointers to freed memory that a test may well read successfully, and the chain depends on the document and the pool on the program's history.", "anchors": ["include/bridge/object.h: Parse, CoroutineScheduler, ParseMap, ParseMapBlock, ParseMapViewBlock, ParseArray, ParseArrayBlock, BridgePool::Merge, BridgePool::Clear", "include/bridge/object_pool.h: ObjectPool::Merge"]}
{"id": "C108", "title": "A parsed document lives exactly as long as the content of its pool", "statement": "The document that Parse returned, with either scheduler and copying or in place, stays complete and readable as long as the content of the BridgePool passed to Parse exists, wherever that content is merged, moved or assigned to by the program, and whatever happens to all other pools and documents. Once that content is cleared, overwritten by assignment or destroyed with the pool that has it, looking at the document is undefined. Nothing else ends it: neither the destruction of the original pool object after its content was handed on, nor the pools used internally by the coroutines.", "quantifier": "all programs before the parse, all documents within the size limits, all programs after it that do not change the document itself, of any length, including further parses by either scheduler; every pool history", "why_tests_cant": "Reading freed memory often still shows the old values, so a test that reads a document too late passes, and a node left behind in an internal pool is seen only if its memory happens to be reused; the histories of merges and moves are unbounded.", "anchors": ["include/bridge/object.h: Parse, NormalScheduler, CoroutineScheduler, ParseMap, ParseArray, BridgePool", "include/bridge/object_pool.h: ObjectPool, Block"]}
{"id": "C109", "title": "Object pools survive running out of memory", "statement": "When memory for an object pool cannot be had, Alloc and Merge throw and all pools stay usable: no call on an existing pool is undefined, no object handed out changes its address or dies before its owner is cleared or destroyed, each is destroyed exactly once, no buffer is freed twice or leaked; an interrupted Merge leaves every object with one of the two pools. The same holds for BridgePools: one whose construction throws leaves nothing behind, and a Merge of BridgePools that throws half-way leaves every object with one of the two.", "quantifier": "all programs over any number of pools, every choice of the requests for memory that fail, including repeated failures", "why_tests_cant": "Memory practically never runs out in a test, and the number of points at which it can is unbounded; the failing combination (a second interrupted Merge from the same pool, then an Alloc) needs two failures at particular fill levels.", "anchors": ["include/bridge/object_pool.h: Block::Block, Block::Alloc, Block(Block&&)", "include/bridge/object_pool.h: ObjectPool::Alloc, ObjectPool::Merge, ObjectPool::ObjectPool", "include/bridge/object.h: BridgePool::BridgePool, BridgePool::Merge, BridgePool::Clear, BridgePool::data, BridgePool::array_item"]}
{"id": "C110", "title": "Iteration order after a parse does not depend on the scheduler", "statement": "Whichever scheduler parses a serialized document, arrays come back in their order, every map comes back in the reverse order of its entries, and a second round trip restores the original order.", "quantifier": "all trees, both serialization types, parse_ref settings and schedulers, every block size, all splits", "why_tests_cant": "Below the block size (10 MB) the schedulers agree, so no small test can see a difference; above it the order depends on where the serializer happened to cut the blocks.", "anchors": ["include/bridge/object.h: ParseMap, ParseMapBlock, ParseArray, ParseArrayBlock, NormalScheduler::Parse, CoroutineScheduler::Parse"]}
{"id": "C111", "title": "A call that runs out of memory has no effect on the program", "statement": "A program over any number of BridgePools, values and containers that catches what its calls throw when memory runs out (a pool cannot grow, the constructor of a value throws, the key of a Map cannot be copied) and goes on behaves as if the calls that threw had never been made: only creating and inserting calls throw, what a constructor or the copy of a key throws is reported, after one that threw every query answers as before, the same call succeeds once there is memory, and a program is undefined only where it would have been without the calls that threw.", "quantifier": "all programs over the API (any pools, merges, moves, clears, containers, values), all choices of calls whose memory requests fail", "why_tests_cant": "Every call has several requests that can fail, in every state of the pools; the failing ones must be combined with everything the program does afterwards.", "anchors": ["include/bridge/object.h: BridgePool, Array::Insert, Map::Insert, MapView::Insert", "include/bridge/object_pool.h: ObjectPool::Alloc, Block::Alloc"]}
