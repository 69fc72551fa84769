import json
P=[]
def p(title, statement, quant, why, anchors):
    P.append(dict(id="C%02d"%(len(P)+1), title=title, statement=statement, quantifier=quant, why_tests_cant=why, anchors=anchors))
O="include/bridge/object.h"
p("Serialize/Parse round trip (NORMAL)",
  "For every object tree built through the API whose maps have pairwise distinct keys and whose serialized form stays below the size limit, Parse(Serialize<NORMAL>(o)) succeeds and every ObjectWrapper access path (keys and indices) yields the same node type, the same Size() and the same typed value as on o.",
  "all object trees (any depth, width, data types, Data or DataView leaves), all access paths, all iteration orders of the internal hash tables, both byte orders of writer and reader, assert-enabled and NDEBUG builds",
  "unbounded trees and unspecified unordered_map iteration order", [O+":SerializeNormal", O+":NormalScheduler::Parse", O+":Map::valueSeri", O+":Map::valueParse", O+":Array::valueSeri", O+":Array::valueParse", O+":Data::valueSeri", O+":Data::valueParse"])
p("Serialize/Parse round trip with dictionary encoding (REPLACE)",
  "The round trip of C01 also holds for Serialize<SeriType::REPLACE>: every key and every string value is recovered exactly although only dictionary ids are written in the body.",
  "all object trees, all sharing patterns of strings between keys and values, all iteration orders of the dictionary",
  "depends on every sharing pattern and on the hash-table iteration order of two different processes", [O+":SerializeReplace", "include/bridge/string_map.h:StringMap"])
p("In-situ parse reads the same content",
  "Parsing a serialized document with parse_ref=true yields, for every access path, the same node type, size and value (through GetView) as parsing it with parse_ref=false, provided the document holds no custom-type data.",
  "all serialized documents without custom data, both serialization types, all access paths", "all trees and paths", [O+":MapView::valueParse", O+":DataView::valueParse", "include/bridge/parse.h:parseData"])
p("In-situ views point inside the caller's buffer",
  "After Parse with parse_ref=true of a serialized document every string_view reachable from the result (keys and values) designates a range lying inside the content buffer, and reading it never leaves the buffer.",
  "all serialized documents, every view reachable in the result", "pointer ranges for every document", [O+":DataView::valueParse", O+":BridgeContainerType::parse_key", "include/bridge/string_map.h:Construct"])
p("Copying parse is independent of the input buffer",
  "A tree returned by Parse with parse_ref=false never refers to the content buffer: it can be read and re-serialized after the buffer is destroyed.",
  "every byte string for which Parse returns, both schedulers", "must hold for every input, including hostile ones", [O+":Data::valueParse", O+":Map::valueParse", O+":ParseMapBlock"])
p("Parallel parse equals sequential parse",
  "For every serialized document, Parse with SchedulerType::Coroutine succeeds and every access path yields the same type, size and value as with SchedulerType::Normal (maps with distinct keys), for both parse_ref settings and whatever the split block size.",
  "all serialized documents, all split block sizes, all positions of split containers, both parse_ref settings", "documents above the 10 MiB threshold with every nesting of split containers cannot be enumerated; the existing tests never reach the split path", [O+":ParseArray", O+":ParseMap", O+":ParseArrayBlock", O+":ParseMapBlock", O+":ParseMapViewBlock", O+":CoroutineScheduler::Parse"])
p("Parallel parse is schedule independent",
  "The outcome of a Coroutine parse does not depend on how block tasks are interleaved by the executor, although tasks share the lazily built id-to-string table.",
  "all interleavings of all block tasks of every parse", "number of interleavings is unbounded", [O+":ParseMap", O+":ParseArray", "include/bridge/string_map.h:GetStr"])
p("No data race on the lazily built dictionary index",
  "While parsing a serialized document in parallel, the only write to the lazily built id-to-string table happens when a single task is active, hence before any concurrent reader.",
  "all serialized documents, all schedules", "a race shows up only in some schedules", ["include/bridge/string_map.h:GetStr", "include/bridge/string_map.h:buildReMap", O+":ParseMapBlock"])
p("Byte-order independence of the format",
  "The bytes produced by Serialize are the same on little- and big-endian hosts (numbers in network order) and a document written on one is read back with the same values on the other.",
  "all objects, all pairs of byte orders", "needs both kinds of host", ["include/bridge/util.h:flipByByte", "include/bridge/serialize.h:BRIDGE_SERI", "include/bridge/parse.h:BRIDGE_PARSE", O+":SeriTotalSizeToOuter"])
p("Varint codec round trip",
  "For every 64-bit n, decoding the bytes produced by encoding n, followed by arbitrary bytes, returns n and the number of bytes written, which is varint_encoding_length(n) and at most 10; the encoding is prefix free and shortest possible.",
  "all n < 2^64 and all following bytes", "2^64 values times arbitrary suffixes", ["include/bridge/varint.h:varint_encode", "include/bridge/varint.h:varint_decode", "include/bridge/varint.h:varint_encoding_length"])
p("Document framing",
  "In every serialized document the first eight bytes hold in network order the size of header plus body, the ninth byte the serialization type, the tenth the split flag; the body ends exactly there and the rest is exactly the length-prefixed auxiliary tables.",
  "all objects and serialization types", "all trees", [O+":SerializeNormal", O+":SerializeReplace", O+":SeriTotalSizeToOuter", O+":SuffixSecondary"])
p("Truncated documents are rejected",
  "Parse of any strict prefix of a serialized document throws a runtime_error; it never returns an object and never reads outside the buffer.",
  "all serialized documents, all cut points", "all documents times all cut points", [O+":Scheduler::initFromContent", O+":ParseSecondary", "include/bridge/parse.h:parseLength"])
p("Trailing bytes do not matter",
  "Appending arbitrary bytes to a serialized document does not change what Parse returns.",
  "all serialized documents, all suffixes, both schedulers", "all suffixes", [O+":Scheduler::initFromContent", O+":NormalScheduler::Parse"])
p("Parse is memory safe on every input",
  "For every byte string, Parse either returns an object or throws an exception; it never reads out of bounds, never overflows a stack buffer and never aborts.",
  "all byte strings, all parse options", "hostile inputs", [O+":Data::valueParse", "include/bridge/parse.h:BRIDGE_PARSE", "include/bridge/varint.h:varint_decode", O+":ParseSecondary"])
p("Parse terminates on every input",
  "For every byte string, Parse terminates.",
  "all byte strings", "non-termination cannot be observed by a test", [O+":BridgeContainerType::parse_key", "include/bridge/inner.h:InnerWrapper::skip"])
p("Whatever Parse returns is well formed",
  "For every byte string and option, if Parse returns a non-null object then in every node Size() equals the number of children, every data node has one of the nine supported type tags and a payload of that type, and no child is null.",
  "all byte strings for which Parse returns", "hostile inputs", [O+":Array::valueParse", O+":Map::valueParse", O+":Data::valueParse", O+":Array::Merge", O+":Map::Merge"])
p("Array behaves as a growable sequence",
  "After any sequence of Insert and Clear calls, Size() is the number of elements inserted since the last Clear, operator[](n) is the n-th of them for n < Size() and nullptr otherwise.",
  "all operation sequences, all indices", "all histories", [O+":Array::Insert", O+":Array::operator[]", O+":Array::Clear"])
p("Map behaves as a last-write-wins dictionary",
  "After any sequence of Insert and Clear calls on a Map or MapView, operator[](k) is the value of the most recent Insert of k since the last Clear, nullptr if there is none; Size() counts Inserts since the last Clear.",
  "all operation sequences, all keys", "all histories", [O+":Map::Insert", O+":Map::operator[]", O+":MapView::Insert", O+":MapView::operator[]"])
p("Lookup after a round trip, duplicate keys included",
  "For every object, including maps into which the same key was inserted several times, lookup by key gives the same value before serialization and after Parse.",
  "all maps, duplicate keys allowed", "requires unbounded maps and all schedulers", [O+":Map::valueParse", O+":Map::valueSeri", O+":ParseMap"])
p("Iteration covers every entry once",
  "An ObjectWrapperIterator obtained from a map or an array visits exactly Size() entries: for a map each inserted entry exactly once, most recent first, for an array each element once in reverse index order; it is Valid() until then and not afterwards.",
  "all containers reachable by API calls", "all container states", [O+":ObjectWrapperIterator", O+":MapIterator", O+":ArrayIterator"])
p("Two round trips restore iteration order",
  "One Normal round trip reverses the iteration order of every map and keeps that of arrays; two round trips restore the original order exactly, for both serialization types and parse_ref settings.",
  "all trees", "all trees", [O+":Map::valueParse", O+":Map::valueSeri"])
p("Wrapper access is total and exact",
  "Along any path of key and index accesses ObjectWrapper never dereferences a null object; the result is Empty() exactly when the path does not exist in the tree, and Size()/GetType()/iterators are empty optionals exactly when they do not apply.",
  "all trees, all paths", "all trees and paths", [O+":ObjectWrapper"])
p("Typed reads never reinterpret storage",
  "After any sequence of constructions and assignments of a Data (or DataView), Get<T> returns the last assigned value if it had type T and an empty optional otherwise; the storage is never read as another type than the one stored.",
  "all assignment histories over all supported types", "all histories", [O+":Data::operator=", O+":Data::Get", O+":DataView::Get", "include/bridge/variant.h:variant"])
p("View reads never throw",
  "GetView<T> on any node returns the value when the type matches and an empty optional otherwise, and never throws.",
  "all nodes, all T", "all nodes and types", [O+":view_get_proxy", O+":DataView::Get"])
p("Pattern matching decides the documented constraint",
  "For patterns whose array slots are all set, Match(o) is true exactly when o satisfies the constraint tree: type, exact size where set, a matching value for every required key and position, disjunction and conjunction.",
  "all patterns, all objects", "all pattern/object pairs", ["include/bridge/pattern.h:Pattern"])
p("Pattern matching is preserved by transport",
  "An object with distinct keys and its parsed round trip (any serialization type, scheduler and parse_ref) are matched by exactly the same patterns.",
  "all patterns, all objects, all modes", "all pairs", ["include/bridge/pattern.h:MapPattern::Match", "include/bridge/pattern.h:DataPattern::Match"])
p("Match is safe for every pattern",
  "Match never dereferences a null pointer, whichever slots of an ArrayPattern(n) have been set.",
  "all patterns built through the API", "all patterns", ["include/bridge/pattern.h:ArrayPattern"])
p("Dictionary ids are dense, stable and injective",
  "RegisterIdFromString returns the same id for equal strings and different ids for different strings, the ids being 0..n-1 for n distinct strings in order of first registration; GetStr of an id returns the string registered under it, also after Serialize/Construct in any iteration order; unknown ids throw.",
  "all registration sequences below 2^32 strings, all iteration orders", "all histories", ["include/bridge/string_map.h:StringMap"])
p("Split table ids are unique and survive transport",
  "RequestId never returns the same id twice (below 2^32 requests), a registered block list is found under its id and nowhere else, SplitInfo::Construct(Serialize()) answers every query identically in any iteration order and continues with fresh ids.",
  "all request/registration sequences, all iteration orders", "all histories", ["include/bridge/split_info.h:SplitInfo"])
p("Split blocks tile the payload on element boundaries",
  "In every serialized document the block list registered for a container is non-empty, its sizes add up to the byte size of the container's elements, every block boundary is an element boundary, every block except possibly the last is at least the split size, and a node carries the split mark exactly when its container is registered; data nodes never carry it.",
  "all objects, all split sizes", "needs huge documents", [O+":register_split_info", O+":seri_child", O+":Array::valueSeri", O+":Map::valueSeri"])
p("Pool allocation never aliases and never fails",
  "Every Alloc returns a non-null slot distinct from every live slot of every pool, and live slots keep their address through later Alloc and Merge calls.",
  "all sequences of Alloc/Merge/Clear over any number of pools", "all histories", ["include/bridge/object_pool.h:ObjectPool", "include/bridge/object_pool.h:Block"])
p("Pools destroy every object exactly once",
  "For types requiring destruction, every allocated object is destroyed exactly once: when the pool that owns it (after merges) is cleared or destroyed, never before and never twice.",
  "all sequences of Alloc/Merge/Clear/destruction", "all histories", ["include/bridge/object_pool.h:destructor_proxy", "include/bridge/object_pool.h:Merge"])
p("Clearing a pool releases all heap storage of its objects",
  "After BridgePool::Clear or destruction no heap storage owned by its objects (string and byte payloads, map keys) remains allocated.",
  "all histories", "leaks are invisible to functional tests", [O+":MapItem", O+":Data::destruct_by_datatype", "include/bridge/object_pool.h:destructor_proxy"])
p("Assigning a Data releases the previous payload exactly once",
  "Over any sequence of assignments, each owned payload is destroyed exactly once when replaced, and no payload is destroyed twice or used after destruction.",
  "all assignment histories", "all histories", [O+":Data::operator=", O+":Data::destruct_by_datatype"])
p("Every accepted task runs exactly once, in FIFO order",
  "Every task accepted by PushTask before Stop is handed to exactly one worker, hand-out order is push order, tasks pushed after Stop are never run, and when Stop returns every accepted task has run to completion.",
  "all interleavings of pushers, workers and stoppers, any number of workers >= 1", "schedules", ["include/bridge/async_executor/thread_pool.h:ThreadPool"])
p("No lost wake-up, no deadlock in the pool",
  "Whenever no thread of the pool can move, the queue is empty, and if Stop was called all workers have exited; in particular no accepted task is left waiting while a worker sleeps.",
  "all interleavings including spurious wake-ups", "schedules", ["include/bridge/async_executor/thread_pool.h:PushTask", "include/bridge/async_executor/thread_pool.h:Stop"])
p("schedule() reports acceptance truthfully",
  "BridgeExecutor::schedule returns true only if the function will eventually be run.",
  "all pool states and worker counts", "needs a stopped or empty singleton pool", ["include/bridge/async_executor/executor.h:schedule", "include/bridge/async_executor/thread_pool.h:PushTask", "include/bridge/async_executor/thread_pool.h:GetOrConstructInstance"])
p("Containers returned by Parse can be extended",
  "Insert on any container reachable from the result of Parse is safe as long as the pool passed to Parse is alive.",
  "all documents, both schedulers", "dangling references may appear to work", [O+":BridgeContainerType", O+":ParseArray", O+":ParseMap"])
p("dump is a faithful outline",
  "dump appends to its buffer the documented outline (type, size, keys, data type, indentation by depth) and nothing else; it is the same for view and owning trees with the same content, and it is preserved by two Normal round trips.",
  "all trees, levels and buffers", "all trees", [O+":Map::dump", O+":Array::dump", O+":Data::dump"])
p("Adaptors preserve container content",
  "For every nesting of vector and unordered_map over supported types, adaptor builds a tree in which element i of a vector is at index i and the value of key k is at key k, with equal sizes, and the same holds after Serialize and Parse in every mode.",
  "all container values, all hash iteration orders", "all values", ["include/bridge/adaptor.h:adaptor"])
p("Custom types survive transport",
  "For a custom type whose ConstructFromBridge inverts SerializeToBridge, Get<T> on the parsed node returns the original value (owning parse).",
  "all custom values, all documents", "all values", [O+":serialize_proxy", O+":get_proxy", "include/bridge/type_trait.h:bridge_custom_type"])
p("In-situ parse accepts every serialized document",
  "Every document produced by Serialize can be parsed with parse_ref=true.",
  "all serialized documents", "all trees", ["include/bridge/parse.h:parseData", O+":DataView::valueParse"])
p("Serialize never emits an undecodable data node",
  "Serialize of a tree containing a Data or DataView in the invalid (default constructed) state throws runtime_error and produces no document; for trees without such nodes it does not throw.",
  "all trees", "all positions in all trees", ["include/bridge/data_type.h:BRIDGE_CHECK_DATA_TYPE", O+":Data::valueSeri"])
p("Round trip has no size limit",
  "The round trip holds for payloads and documents of any size that fit in memory.",
  "all sizes", "needs multi-gigabyte inputs", ["include/bridge/serialize.h:seriLength", "include/bridge/varint.h:varint_decode", O+":seri_count"])
p("Varint codec does not depend on the platform's char",
  "The varint codec round trip holds whether plain char is signed or unsigned.",
  "all n, both signedness choices", "needs another platform", ["include/bridge/varint.h:MSBALL"])
p("Each distinct string is stored once under dictionary encoding",
  "In a REPLACE document every distinct key or string value of the tree (and the synthetic root key) occurs exactly once in the dictionary, nothing else does, and every id in the body is below the dictionary size.",
  "all trees", "all sharing patterns", ["include/bridge/string_map.h:RegisterIdFromString", O+":seri_key"])
p("Parsing does not depend on hash iteration order",
  "Two documents serialized from the same object with different hash-table iteration orders parse to the same tree, with any iteration order on the reading side.",
  "all objects, all iteration orders on both sides", "iteration order is implementation defined", ["include/bridge/string_map.h:Serialize", "include/bridge/split_info.h:Serialize", "include/bridge/string_map.h:buildReMap"])
p("C-string literals lose exactly one terminator",
  "Constructing or assigning a Data or DataView from a char array of n elements stores all n characters, minus the last one exactly when it is NUL; embedded NULs are kept and survive the round trip.",
  "all array sizes and contents", "all contents", ["include/bridge/serialize.h:serialize"])
if __name__=="__main__":
    with open("/verif/properties.jsonl","w") as f:
        for x in P: f.write(json.dumps(x,ensure_ascii=False)+"\n")
    print(len(P)); [print(x["id"],x["title"]) for x in P]
