{
 "claims": [
  {
   "property": "C01",
   "status": "proved",
   "theorems": [
    "C01_round_trip_normal",
    "C01_round_trip_built"
   ],
   "note": "Two forms: for any object denoting a value (relation `denotes`, SpecApi), and for objects given by their API build history (`built`), where success of Serialize is part of the conclusion. `fits` is the 4 GiB / 2 GiB limit of C44."
  },
  {
   "property": "C02",
   "status": "proved",
   "theorems": [
    "C02_round_trip_replace"
   ],
   "note": "As C01 with SeriType::REPLACE, any hash iteration order on both sides (cs, cp arbitrary sane platforms)."
  },
  {
   "property": "C03",
   "status": "proved",
   "theorems": [
    "C03_insitu_same_content"
   ],
   "note": "Both schedulers, both serialization types."
  },
  {
   "property": "C04",
   "status": "proved",
   "theorems": [
    "C04_views_inside_buffer"
   ],
   "note": "All views of the result, keys included; they lie in the caller's buffer and reading them is defined."
  },
  {
   "property": "C05",
   "status": "proved",
   "theorems": [
    "C05_copy_is_independent"
   ],
   "note": "No hypothesis on the input bytes; result contains no view, reads are the same under every memory."
  },
  {
   "property": "C06",
   "status": "proved",
   "theorems": [
    "C06_parallel_equals_sequential"
   ],
   "note": "Both parse_ref settings, any split block size (field of cfg)."
  },
  {
   "property": "C07",
   "status": "proved",
   "theorems": [
    "C07_schedule_independent"
   ],
   "note": "Small-step interleaving semantics of the block tasks (ModelConcurrent); holds for serialized documents followed by any bytes. Deterministic result, progress in every reachable state, no infinite schedule."
  },
  {
   "property": "C08",
   "status": "proved",
   "theorems": [
    "C08_no_race"
   ],
   "note": "Same semantics; a task inside or at the entry of GetStr while the table is incomplete is the only active task. Formal race of unordered_map::operator[] on an already built table (reads through a non-const member) is not counted."
  },
  {
   "property": "C09",
   "status": "proved",
   "theorems": [
    "C09_byte_order"
   ],
   "note": "Writer bytes are literally equal on both byte orders; readers of either byte order give the same view."
  },
  {
   "property": "C10",
   "status": "proved",
   "theorems": [
    "C10_varint_round_trip"
   ],
   "note": "Signed plain char (the other case is C45)."
  },
  {
   "property": "C11",
   "status": "proved",
   "theorems": [
    "C11_framing"
   ],
   "note": ""
  },
  {
   "property": "C12",
   "status": "partial",
   "theorems": [
    "C12_truncation_refuted",
    "C12_truncated_body_partial",
    "C12_sequential_cut_partial",
    "C12_cut_before_split_table_partial",
    "C12_silent_loss_refuted"
   ],
   "note": "Refuted as stated: cuts inside the tables are accepted or run into UB, and in Coroutine mode cutting the last byte can silently lose array elements (C12_silent_loss_refuted). Proved: every cut up to the end of the body is a runtime_error; every cut before the split table yields no object in any mode; in sequential mode a cut anywhere either yields no object or exactly the uncut object. Missing: cuts inside the dictionary may be UB rather than an exception; cuts inside the split table in Coroutine mode have no single outcome."
  },
  {
   "property": "C13",
   "status": "proved",
   "theorems": [
    "C13_trailing_bytes",
    "C13_same_object"
   ],
   "note": "C13_same_object: exact equality of the returned objects in every mode; C13_trailing_bytes adds what the API shows."
  },
  {
   "property": "C14",
   "status": "partial",
   "theorems": [
    "C14_memory_safety_refuted",
    "C14_rejected_partial",
    "C14_serialized_partial"
   ],
   "note": "Refuted: four concrete documents overrun a stack buffer, trip an assert or read out of bounds. Proved: rejection of everything the header check rejects; safety on every library-written document followed by any bytes."
  },
  {
   "property": "C15",
   "status": "partial",
   "theorems": [
    "C15_termination_refuted",
    "C15_dictionary_owning_partial",
    "C15_short_lengths_partial"
   ],
   "note": "Refuted: a 10+-byte document whose key length makes the cursor wrap makes every parse mode recurse for ever. Proved: termination for dictionary/owning parses of any bytes, and for every mode when no length field can reach 2^63."
  },
  {
   "property": "C16",
   "status": "proved",
   "theorems": [
    "C16_result_well_formed",
    "C16_reads_are_defined"
   ],
   "note": "No hypothesis on the input bytes."
  },
  {
   "property": "C17",
   "status": "proved",
   "theorems": [
    "C17_array"
   ],
   "note": ""
  },
  {
   "property": "C18",
   "status": "proved",
   "theorems": [
    "C18_map",
    "C18_last_write_wins",
    "C18_map_view"
   ],
   "note": ""
  },
  {
   "property": "C19",
   "status": "partial",
   "theorems": [
    "C19_duplicate_keys_refuted",
    "C19_lookup_after_round_trip_partial"
   ],
   "note": "Refuted for duplicate keys: Map::valueParse inserts at the front, so after a Normal round trip the oldest duplicate wins. Proved: exactly what lookups give (mirror), and equality for distinct keys."
  },
  {
   "property": "C20",
   "status": "proved",
   "theorems": [
    "C20_iteration",
    "C20_insertion_order",
    "C20_loop",
    "C20_array_keys_throw"
   ],
   "note": ""
  },
  {
   "property": "C21",
   "status": "proved",
   "theorems": [
    "C21_two_round_trips"
   ],
   "note": ""
  },
  {
   "property": "C22",
   "status": "proved",
   "theorems": [
    "C22_wrapper_total",
    "C22_wrapper_exact"
   ],
   "note": ""
  },
  {
   "property": "C23",
   "status": "proved",
   "theorems": [
    "C23_typed_reads",
    "C23_construction",
    "C23_is_the_value",
    "C23_default_is_empty",
    "C23_typed_reads_view"
   ],
   "note": ""
  },
  {
   "property": "C24",
   "status": "partial",
   "theorems": [
    "C24_view_read_throws_refuted",
    "C24_view_reads_partial"
   ],
   "note": "Refuted: GetView<string> on a bytes node (and vice versa) throws. Proved: these are exactly the reads that throw, all others answer exactly."
  },
  {
   "property": "C25",
   "status": "proved",
   "theorems": [
    "C25_match_decides",
    "C25_map_pattern_history",
    "C25_array_pattern_history",
    "C25_or_and_pushes",
    "C25_leaf_patterns"
   ],
   "note": ""
  },
  {
   "property": "C26",
   "status": "proved",
   "theorems": [
    "C26_match_preserved"
   ],
   "note": ""
  },
  {
   "property": "C27",
   "status": "partial",
   "theorems": [
    "C27_match_safe_refuted",
    "C27_match_safe_partial"
   ],
   "note": "Refuted: unset slots of ArrayPattern(n) are dereferenced. Proved: Match is safe with all slots set, and with unset slots on anything but arrays of n elements."
  },
  {
   "property": "C28",
   "status": "proved",
   "theorems": [
    "C28_dictionary_ids"
   ],
   "note": ""
  },
  {
   "property": "C29",
   "status": "proved",
   "theorems": [
    "C29_split_table"
   ],
   "note": ""
  },
  {
   "property": "C30",
   "status": "proved",
   "theorems": [
    "C30_blocks_tile"
   ],
   "note": ""
  },
  {
   "property": "C31",
   "status": "proved",
   "theorems": [
    "C31_alloc_unique_stable",
    "C31_no_overlap"
   ],
   "note": ""
  },
  {
   "property": "C32",
   "status": "proved",
   "theorems": [
    "C32_destroyed_exactly_once",
    "C32_all_memory_returned"
   ],
   "note": ""
  },
  {
   "property": "C33",
   "status": "partial",
   "theorems": [
    "C33_storage_released_refuted",
    "C33_every_long_payload_leaks_refuted",
    "C33_frugal_partial",
    "C33_no_leak_before_clear_partial"
   ],
   "note": "Refuted: BridgePool::Clear releases no payload at all (Data and MapItem are trivially dropped). Proved: exact condition-free heap accounting before Clear, and no leak for histories without heap payloads. How much is lost is exact: C33_every_long_payload_leaks_refuted."
  },
  {
   "property": "C34",
   "status": "proved",
   "theorems": [
    "C34_released_once",
    "C34_released_once_from_value"
   ],
   "note": ""
  },
  {
   "property": "C35",
   "status": "proved",
   "theorems": [
    "C35_fifo_exactly_once",
    "C35_stop_drains"
   ],
   "note": ""
  },
  {
   "property": "C36",
   "status": "proved",
   "theorems": [
    "C36_no_deadlock",
    "C36_no_lost_wakeup",
    "C36_every_schedule_ends"
   ],
   "note": ""
  },
  {
   "property": "C37",
   "status": "partial",
   "theorems": [
    "C37_schedule_truthful_refuted",
    "C37_accepted_runs_partial"
   ],
   "note": "Refuted twice: a stopped pool drops the task but schedule() says true; a pool without workers never runs anything. Proved: accepted tasks of a pool with a worker have run when nothing moves any more, and every run gets there (C36)."
  },
  {
   "property": "C38",
   "status": "partial",
   "theorems": [
    "C38_extendable_sequential_partial",
    "C38_extendable_parallel_refuted"
   ],
   "note": "Refuted for the Coroutine scheduler: containers keep a reference to a pool in a finished coroutine frame. Proved for the Normal scheduler for any input bytes."
  },
  {
   "property": "C39",
   "status": "proved",
   "theorems": [
    "C39_sizes_decimal",
    "C39_dump_outline",
    "C39_negative_level",
    "C39_same_for_views",
    "C39_round_trips"
   ],
   "note": ""
  },
  {
   "property": "C40",
   "status": "proved",
   "theorems": [
    "C40_adaptor_content",
    "C40_adaptor_round_trip"
   ],
   "note": ""
  },
  {
   "property": "C41",
   "status": "proved",
   "theorems": [
    "C41_custom_types"
   ],
   "note": ""
  },
  {
   "property": "C42",
   "status": "partial",
   "theorems": [
    "C42_insitu_exactly_partial",
    "C42_insitu_exactly_all_schedulers_partial",
    "C42_insitu_custom_refuted",
    "C42_insitu_accepts_partial"
   ],
   "note": "Refuted: a document with BRIDGE_CUSTOM data cannot be parsed in situ. Proved for every other document. C42_insitu_exactly_all_schedulers_partial: for both schedulers, in-place parsing of a serialized document succeeds iff it holds no custom data and throws otherwise - so the exact extent of the failure is known; what is missing from the property is only what is false."
  },
  {
   "property": "C43",
   "status": "proved",
   "theorems": [
    "C43_invalid_data"
   ],
   "note": ""
  },
  {
   "property": "C44",
   "status": "partial",
   "theorems": [
    "C44_any_size_refuted",
    "C44_below_limit_partial"
   ],
   "note": "Refuted: a 4 GiB string is written with length 0 and no reader accepts it. Proved below 4 GiB (2 GiB with asserts)."
  },
  {
   "property": "C45",
   "status": "partial",
   "theorems": [
    "C45_unsigned_char_refuted",
    "C45_unsigned_char_partial"
   ],
   "note": "Refuted for unsigned plain char; the values that do survive are characterised exactly (iff)."
  },
  {
   "property": "C46",
   "status": "proved",
   "theorems": [
    "C46_dictionary"
   ],
   "note": ""
  },
  {
   "property": "C47",
   "status": "proved",
   "theorems": [
    "C47_iteration_order_invisible"
   ],
   "note": ""
  },
  {
   "property": "C48",
   "status": "partial",
   "theorems": [
    "C48_constructed_and_assigned_partial",
    "C48_view_array_refuted",
    "C48_view_partial",
    "C48_c_strings"
   ],
   "note": "Refuted for DataView: a char array never reaches the array overload but is converted through std::string_view(const char*), so everything after the first NUL is lost and an array without NUL is read past its end (C48_view_array_refuted). Proved: the full statement for Data, in every history and through transport; for DataView exactly what precedes the first NUL is covered."
  },
  {
   "property": "C49",
   "status": "partial",
   "theorems": [
    "C49_register_after_lookup_refuted",
    "C49_frozen_table_partial"
   ],
   "note": "Refuted: the inverse table is never refreshed. Proved: after the first lookup the answers never change."
  },
  {
   "property": "C50",
   "status": "partial",
   "theorems": [
    "C50_throwing_assignment_refuted",
    "C50_after_exception_partial"
   ],
   "note": "Refuted for every history: after a throwing SerializeToBridge reading or assigning the Data is undefined. Proved: what is left is released once and reads at built-in types are empty."
  },
  {
   "property": "C51",
   "status": "partial",
   "theorems": [
    "C51_self_assignment_refuted",
    "C51_copy_first_partial"
   ],
   "note": "Refuted for every history. Proved: assigning a copy taken before is fine."
  },
  {
   "property": "C52",
   "status": "proved",
   "theorems": [
    "C52_take"
   ],
   "note": ""
  },
  {
   "property": "C53",
   "status": "partial",
   "theorems": [
    "C53_every_stop_drains_refuted",
    "C53_late_stop_partial"
   ],
   "note": "Refuted: a second Stop returns while tasks are outstanding. Proved: such a call only returns after the flag is set and no accepted task is lost."
  },
  {
   "property": "C54",
   "status": "proved",
   "theorems": [
    "C54_current_id"
   ],
   "note": ""
  },
  {
   "property": "C55",
   "status": "partial",
   "theorems": [
    "C55_worker_num_refuted",
    "C55_first_worker_num_partial"
   ],
   "note": "Refuted: the pool is a singleton, only the first worker_num counts. Proved: the first one is honoured."
  },
  {
   "property": "C56",
   "status": "partial",
   "theorems": [
    "C56_stop_inside_task_refuted",
    "C56_no_termination_partial"
   ],
   "note": "Refuted: Stop inside a task joins its own thread. Proved: no termination when no task calls Stop."
  },
  {
   "property": "C57",
   "status": "partial",
   "theorems": [
    "C57_any_input_race_free_refuted",
    "C57_no_dictionary_race_free_partial",
    "C57_contended_refuted",
    "C57_uncontended_partial"
   ],
   "note": "Refuted: a hand-made REPLACE document with two root blocks lets two tasks build the table concurrently; and so does every document with a dictionary and a split root two of whose blocks begin with a key (C57_contended_refuted). Proved: race freedom and schedule independence of arbitrary bytes without dictionary, or without root split mark, or with the Normal scheduler (C57_no_dictionary_race_free_partial), and of every document with well-formed tables at most one of whose root blocks begins with a key (C57_uncontended_partial), so the two cases meet exactly."
  },
  {
   "property": "C58",
   "status": "proved",
   "theorems": [
    "C58_bytes_determine_content"
   ],
   "note": "Equal bytes (whatever the platforms that wrote them, in either mode) have equal content."
  },
  {
   "property": "C59",
   "status": "proved",
   "theorems": [
    "C59_content_determines_bytes"
   ],
   "note": "Equal content in the same entry order gives equal bytes in every configuration with the same iteration order of the dictionary."
  },
  {
   "property": "C60",
   "status": "proved",
   "theorems": [
    "C60_stable_bytes"
   ],
   "note": "Serializing what Parse returned, iterated to a fixpoint of map order, reproduces the bytes."
  },
  {
   "property": "C61",
   "status": "proved",
   "theorems": [
    "C61_linked_containers"
   ],
   "note": "Pointer-level model of the linked containers refines the list model, for any program over any number of containers."
  },
  {
   "property": "C62",
   "status": "proved",
   "theorems": [
    "C62_parallel_parse_owned"
   ],
   "note": "Pools only; the tree of tasks is arbitrary (any document's tree is one of them)."
  },
  {
   "property": "C63",
   "status": "proved",
   "theorems": [
    "C63_failed_parse_keeps_nothing"
   ],
   "note": "Pools only; payloads of std::string/std::vector inside nodes are the subject of C33."
  },
  {
   "property": "C64",
   "status": "proved",
   "theorems": [
    "C64_pools_not_shared"
   ],
   "note": "Pools only; the shared StringMap is the subject of C08."
  },
  {
   "property": "C65",
   "status": "proved",
   "theorems": [
    "C65_variant_storage",
    "C65_data_alternatives"
   ],
   "note": "Sizes, alignments and constructor indices of variant.h for every alternative list; which bytes of the union each operation touches."
  },
  {
   "property": "C66",
   "status": "partial",
   "theorems": [
    "C66_adaptor_types_partial",
    "C66_custom_refuted"
   ],
   "note": "Overload resolution of adaptor for a type grammar closed under vector and unordered_map; exact characterisation of the accepted types and of those whose bodies compile. Refuted for custom types: bp.data(const T&) does not compile for them."
  },
  {
   "property": "C67",
   "status": "partial",
   "theorems": [
    "C67_split_table",
    "C67_dictionary_partial",
    "C67_ambiguous_dictionary_refuted"
   ],
   "note": "Split table: exact decoding, repetition rejected. Dictionary: any table is accepted, first id per key wins and a lookup gives some key with that id; the full statement is refuted with a document whose content depends on the hash order."
  },
  {
   "property": "C68",
   "status": "proved",
   "theorems": [
    "C68_parallel_parse_completes",
    "C68_failing_parse_completes"
   ],
   "note": "Task trees of the parser on n workers and a queue; async_simple's Lazy/collectAllPara is represented by its documented behaviour (suspend, resume by the last child, in place or rescheduled)."
  },
  {
   "property": "C69",
   "status": "partial",
   "theorems": [
    "C69_zero_workers_refuted",
    "C69_any_positive_number_partial"
   ],
   "note": "Refuted for 0 workers; for every positive number completion and the common result are proved."
  },
  {
   "property": "C70",
   "status": "proved",
   "theorems": [
    "C70_parses_share_the_pool"
   ],
   "note": "Same executor model as C68 with several task trees; each call has its own content, pool and dictionary."
  },
  {
   "property": "C71",
   "status": "proved",
   "theorems": [
    "C71_tail_is_ignored"
   ],
   "note": "Completeness of the tables is needed: if a table claims more bytes than there are, appended bytes become part of it."
  },
  {
   "property": "C72",
   "status": "proved",
   "theorems": [
    "C72_split_table_unused",
    "C72_tables_exchanged"
   ],
   "note": "Parse with Normal option only; Coroutine mode does use the table (C12_silent_loss_refuted shows what a wrong byte in it does)."
  },
  {
   "property": "C73",
   "status": "proved",
   "theorems": [
    "C73_accepted_means",
    "C73_accepted_documents",
    "C73_documents_accepted",
    "C73_plain_documents_exactly"
   ],
   "note": "Soundness (with and without the tables) for plain and dictionary documents; completeness for plain documents and for dictionary documents in which no two keys share an id (otherwise the reading depends on the hash order, C67). Owning sequential mode; a table whose size field exceeds the buffer is outside the grammar (such inputs: C14)."
  },
  {
   "property": "C74",
   "status": "proved",
   "theorems": [
    "C74_platforms_agree",
    "C74_release_accepts",
    "C74_platforms_agree_all_schedulers",
    "C74_platforms_agree_in_place",
    "C74_same_outcome",
    "C74_debug_aborts_or_agrees",
    "C74_dictionary_outcome"
   ],
   "note": "Plain documents; dictionary documents with a repeated id are the counterexample C67_ambiguous_dictionary_refuted, those without are covered by C73_documents_accepted."
  },
  {
   "property": "C75",
   "status": "proved",
   "theorems": [
    "C75_normalisation"
   ],
   "note": "Exact equality of the objects (pool included), no restriction to distinct keys."
  },
  {
   "property": "C76",
   "status": "proved",
   "theorems": [
    "C76_insitu_agrees"
   ],
   "note": "Sequential scheduler; hypotheses: the document is below the size limit. The converse direction is C77."
  },
  {
   "property": "C77",
   "status": "partial",
   "theorems": [
    "C77_views_inside_refuted",
    "C77_views_inside_partial",
    "C77_only_absurd_lengths_partial",
    "C77_plausible_lengths_partial",
    "C77_views_inside_all_schedulers_partial"
   ],
   "note": "Refuted: a length field near 2^64 moves the cursor backwards and the in-place parser returns a string of almost 2^64 bytes (evil_view). C77_only_absurd_lengths_partial: for every accepted input and either scheduler that is the only way to fail - each string, byte string and key refers to the document's buffer and is readable, or announces at least 2^64 minus the document's size; C77_plausible_lengths_partial: if no reported length exceeds the document's size, every access path can be read. Agreement with the copying parser is proved for every input without nine consecutive bytes above 127 (C77_views_inside_partial, C77_views_inside_all_schedulers_partial). Missing from the agreement: inputs with longer length fields."
  },
  {
   "property": "C78",
   "status": "proved",
   "theorems": [
    "C78_plain_documents_linear"
   ],
   "note": ""
  },
  {
   "property": "C79",
   "status": "partial",
   "theorems": [
    "C79_any_document_quadratic_partial",
    "C79_amplification_refuted"
   ],
   "note": "Refuted: a dictionary document of 4n+40 bytes makes the parser store n*n bytes (for every n up to 2^28). Proved instead: nodes and nesting are linear in the size, storage is at most quadratic. "
  },
  {
   "property": "C80",
   "status": "partial",
   "theorems": [
    "C80_parallel_size_refuted",
    "C80_library_documents_partial",
    "C80_unsplit_partial"
   ],
   "note": "Refuted: blocks may overlap (a block may end in the middle of its last value), so a document of 4k+30 bytes is parsed in parallel into 2^(k+1)-1 nodes, for every k. Proved: at most one node per three bytes for documents written by the library, and for any document whose split mark is 0."
  },
  {
   "property": "C81",
   "status": "partial",
   "theorems": [
    "C81_depth_limit_refuted",
    "C81_depth_linear_partial"
   ],
   "note": "Refuted: no limit exists; for every k a document of 3k+22 bytes nests k+1 arrays and is accepted, so recursion depth is chosen by the input. Proved: nesting is at most linear in the size of the document."
  },
  {
   "property": "C82",
   "status": "proved",
   "theorems": [
    "C82_unsplit_is_sequential",
    "C82_parallel_accepted_means",
    "C82_parallel_documents_accepted"
   ],
   "note": "Owning mode, both directions (the completeness direction for documents whose dictionary is unambiguous and whose values lie inside the body). The positional grammar is LenientPara.v."
  },
  {
   "property": "C83",
   "status": "partial",
   "theorems": [
    "C83_tiled_documents_agree_partial",
    "C83_same_content_refuted",
    "C83_same_acceptance_refuted"
   ],
   "note": "Refuted in three ways: both accept with different content (short block table), only the parallel parser accepts (bytes left in the body), only the sequential parser accepts (missing block row). Proved: for every document whose blocks tile their containers, by any writer, plain or dictionary, both accept and every access path shows the same."
  },
  {
   "property": "C84",
   "status": "proved",
   "theorems": [
    "C84_edit_cycle"
   ],
   "note": "Edits at the root (the API gives only const access to children). Without distinct keys the re-read content follows C19."
  },
  {
   "property": "C85",
   "status": "proved",
   "theorems": [
    "C85_buffer_overwritten",
    "C85_buffer_gone"
   ],
   "note": "Positive and negative half. In the model comparing a key with a freed view is undefined even if the lengths differ (conservative), so key lookups are only claimed while the buffer exists."
  },
  {
   "property": "C86",
   "status": "proved",
   "theorems": [
    "C86_insitu_follows_copy",
    "C86_custom_refused",
    "C86_parallel_insitu_exactly"
   ],
   "note": "Proved by simulating the copying parser step by step (InsituSim.v), for both schedulers; the exact condition for throwing is stated with the positional grammar of C82 (parallel) and in C76 (sequential)."
  },
  {
   "property": "C87",
   "status": "partial",
   "theorems": [
    "C87_data_accepts",
    "C87_tag_matches_partial",
    "C87_tag_refuted",
    "C87_view_accepts",
    "C87_readers",
    "C87_write_read"
   ],
   "note": "Exact characterisation of the argument expressions (type, constness, value category) that Data, DataView and the readers accept, for all user-defined conversions; tag and stored alternative agree except for named custom objects convertible to std::string (refuted)."
  },
  {
   "property": "C88",
   "status": "proved",
   "theorems": [
    "C88_casts_after_copy",
    "C88_casts_after_insitu",
    "C88_casts_exact",
    "C88_null_is_undefined"
   ],
   "note": "Casts modelled with their null dereference; navigation with tested casts equals the wrapper on every accepted input (copying), and is refused for views (in place)."
  },
  {
   "property": "C89",
   "status": "partial",
   "theorems": [
    "C89_copies_share_entries",
    "C89_copies_independent_partial",
    "C89_take_refuted"
   ],
   "note": "Pointer-level model with copy construction; exact answers (shared entries), independence of keys/order/size always and of values without Get; refuted for Get: moving a value out through a copy empties it in the original."
  },
  {
   "property": "C90",
   "status": "partial",
   "theorems": [
    "C90_leaf_patterns_partial",
    "C90_composite_refuted"
   ],
   "note": "pattern.h:18 declares a non-virtual destructor and the parts are deleted through unique_ptr<Pattern>: undefined for every pattern that ever held a part (refuted exactly); defined for all patterns without parts."
  },
  {
   "property": "C91",
   "status": "proved",
   "theorems": [
    "C91_exactly",
    "C91_only"
   ],
   "note": "Exact for documents with a well-formed header and tables whose complete number fields are below 2^63; copying and in place, debug and release. C91_only covers documents with malformed tables too (no nine continuation bytes in a row). Larger length fields are covered by C12/C14 only."
  },
  {
   "property": "C92",
   "status": "proved",
   "theorems": [
    "C92_parses_return"
   ],
   "note": "Combined lock-level machine (ModelPoolParse): pool mutex, queue, condition variable, coroutine trees of several calls. Assumes async_simple's via/syncAwait/collectAllPara as stated in ModelPoolParse.v."
  },
  {
   "property": "C93",
   "status": "partial",
   "theorems": [
    "C93_stopped_pool_refuted",
    "C93_only_dropped_partial"
   ],
   "note": "Refuted: PushTask drops tasks silently once the pool is stopped, and the awaiting Parse blocks for ever. Partial: at whatever point Stop comes, no crash, no wrong result, and exactly the calls that lost a coroutine never return."
  },
  {
   "property": "C94",
   "status": "proved",
   "theorems": [
    "C94_release",
    "C94_exactly",
    "C94_otherwise"
   ],
   "note": "Release builds: every input, every mode. Debug builds, sequential parser: exact for documents with a well-formed header and tables whose complete number fields are below 2^63."
  },
  {
   "property": "C95",
   "status": "proved",
   "theorems": [
    "C95_written",
    "C95_read"
   ],
   "note": ""
  },
  {
   "property": "C96",
   "status": "proved",
   "theorems": [
    "C96_growth",
    "C96_overhead",
    "C96_any_history"
   ],
   "note": ""
  },
  {
   "property": "C97",
   "status": "proved",
   "theorems": [
    "C97_only",
    "C97_leads",
    "C97_otherwise"
   ],
   "note": ""
  },
  {
   "property": "C98",
   "status": "proved",
   "theorems": [
    "C98_owning",
    "C98_in_place",
    "C98_serialized",
    "C98_bounded"
   ],
   "note": ""
  },
  {
   "property": "C99",
   "status": "proved",
   "theorems": [
    "C99_owning",
    "C99_in_place",
    "C99_serialized",
    "C99_exception"
   ],
   "note": ""
  },
  {
   "property": "C100",
   "status": "proved",
   "theorems": [
    "C100_same_document",
    "C100_identical"
   ],
   "note": ""
  },
  {
   "property": "C101",
   "status": "proved",
   "theorems": [
    "C101_programs",
    "C101_merge_invisible",
    "C101_nothing_lost"
   ],
   "note": ""
  },
  {
   "property": "C102",
   "status": "partial",
   "theorems": [
    "C102_insert_refuted",
    "C102_insert_partial"
   ],
   "note": "Refuted: a container refers to the BridgePool object it was made from; once that object is gone (moved or merged away) Insert is UB although the container lives. _partial: Insert works exactly when the container and that pool object both exist."
  },
  {
   "property": "C103",
   "status": "partial",
   "theorems": [
    "C103_entries_refuted",
    "C103_entries_partial"
   ],
   "note": "Refuted: an entry inserted after the pool was merged away lives in the old pool and dies with it. _partial: holds for every program that inserts only before the pool is given away."
  },
  {
   "property": "C104",
   "status": "proved",
   "theorems": [
    "C104_pools_of_a_load",
    "C104_objects",
    "C104_sessions_are_programs",
    "C104_taken",
    "C104_load",
    "C104_undisturbed",
    "C104_cycle"
   ],
   "note": "ModelSession.v gives the sequential parser's steps in memory (the calls to the pool and the containers, also of a parse that throws); SessionProofs.build shows they build the tree of ModelParse.v. The parallel scheduler in memory is C62-C64 and C99. C104_pools_of_a_load: what the calls do to the pools of every class is what C98 lists. C104_objects: whatever the input, the program keeps its objects and gains those of C98, class by class (the heap after the pools' history)."
  },
  {
   "property": "C105",
   "status": "proved",
   "theorems": [
    "C105_reads",
    "C105_unchanged_or_gone",
    "C105_unchanged",
    "C105_session"
   ],
   "note": "'Below' is what the program itself finds by iterating (inductive predicate under); the calls that change an object are listed in changes. For objects parsed in place the theorem is about the views they hold; the bytes behind them are C04 and C85."
  },
  {
   "property": "C106",
   "status": "proved",
   "theorems": [
    "C106_bounded",
    "C106_returned"
   ],
   "note": "About the pools' own buffers. The strings and vectors inside pooled objects whose destructor is not run are C33 (they leak)."
  },
  {
   "property": "C107",
   "status": "proved",
   "theorems": [
    "C107_execution",
    "C107_objects",
    "C107_failed_load",
    "C107_load",
    "C107_pools",
    "C107_cycle"
   ],
   "note": "The steps in memory follow one schedule: every coroutine runs to its end before the next starts (the results do not depend on the schedule by C57/C61). Containers made by coroutines remember a pool that is gone (C38; C107_met shows that an Insert into one is undefined), so the views are compared without those. C104_undisturbed and C105_session also cover parallel parses. C107_execution ties those steps to ModelFrames.v: what they do to the pools is one of the executions (fsteps) of the coroutines of Parse_job, so C62, C63 and C99 speak about them. C107_objects and C107_failed_load (PropParaObjects.v) draw the conclusion: the objects of the program are those it had plus exactly those of the document, or just those it had."
  },
  {
   "property": "C108",
   "status": "proved",
   "theorems": [
    "C108_lifetime"
   ],
   "note": "For objects parsed in place this is about the objects; the bytes their views point to belong to the program's buffer (C04, C85). now_in follows the pool's content through the program's own pool calls."
  },
  {
   "property": "C109",
   "status": "partial",
   "theorems": [
    "C109_enough_memory",
    "C109_null_buffer_refuted",
    "C109_merge_refuted",
    "C109_bad_alloc_partial",
    "C109_bridge_pools_partial",
    "C109_bridge_enough_memory",
    "C109_bridge_merge_refuted"
   ],
   "note": "Refuted twice: the null pointer of aligned_alloc is never checked, and after an interrupted Merge the moved-from blocks keep their fill level, so a second interrupted Merge makes the target's next Alloc construct at a null buffer. _partial: with memory for the buffers and no second interruption of a Merge from the same pool everything holds, for every pattern of std::bad_alloc from the vectors of blocks. The same for BridgePools (eight members constructed, merged and cleared in order, any of which may throw): C109_bridge_pools_partial, C109_bridge_merge_refuted, and with enough memory the calls are those of C101-C107 (C109_bridge_enough_memory)."
  },
  {
   "property": "C110",
   "status": "partial",
   "theorems": [
    "C110_order_partial",
    "C110_small_documents",
    "C110_two_parallel_trips_refuted"
   ],
   "note": "Refuted for the Coroutine scheduler: once a map is cut into blocks, the runs of entries in the blocks are reversed but each run keeps its own order, and two round trips do not restore the order (C110_two_parallel_trips_refuted, with a block size of 8 instead of the 10 MB in object.h:33, so that the witness is small). _partial: arrays keep their order, maps are cut into consecutive runs that come in reverse order, with the Normal scheduler in exactly the reverse order; C110_small_documents: a document smaller than a block is parsed by both schedulers to the same object."
  },
  {
   "property": "C111",
   "status": "proved",
   "theorems": [
    "C111_programs",
    "C111_no_effect",
    "C111_reported",
    "C111_enough_memory"
   ],
   "note": "C111_programs relates every program with failing requests to the specification of C101 run on the calls that did not throw; C111_no_effect is the same call by call (nothing to see afterwards, the call succeeds when repeated); C111_reported: a throwing constructor and a key a Map cannot copy are reported; C111_enough_memory: with no failures it is C101's statement. Failing requests are modelled in the creating calls, array_item() etc. and Insert; appending as the parsers do (CAppend) and overwriting a value find enough memory here (the latter is C50). A null pointer from aligned_alloc is excluded: C109 refutes that case."
  }
 ]
}