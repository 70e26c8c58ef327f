{
 "claims": [
  {
   "property": "C01",
   "status": "partial",
   "theorems": [
    "C01_fresh_reads_refuted",
    "C01_fresh_reads_partial",
    "C01_fresh_reads_static_partial"
   ],
   "note": "Full statement false (witness in Demo): an evaluation in progress has already read a computed whose cache is dropped because another evaluation removed its last recorded dependent; the edge is then recorded to a node without parents. Proved for all histories in which this interruption does not occur (ghost flag hazard), and outright for applications in which the set of computeds a computed reads does not depend on data (static_env)."
  },
  {
   "property": "C02",
   "status": "partial",
   "theorems": [
    "C02_glitch_free_refuted",
    "C02_glitch_free_partial",
    "C02_glitch_free_static_partial"
   ],
   "note": "Same cause as C01. That refresh calls see the values at the end of the outermost transaction is unconditional."
  },
  {
   "property": "C03",
   "status": "proved",
   "theorems": [
    "C03_once_per_transaction"
   ],
   "note": "Any body, any reachable state. Panicking runs are not runs."
  },
  {
   "property": "C04",
   "status": "partial",
   "theorems": [
    "C04_no_missed_update_refuted",
    "C04_no_missed_update_partial",
    "C04_no_missed_update_static_partial"
   ],
   "note": "Same cause as C01."
  },
  {
   "property": "C05",
   "status": "partial",
   "theorems": [
    "C05_no_repeat",
    "C05_subscribe_all",
    "C05_subscribe_all_needs",
    "C05_subscribe_all_refuted"
   ],
   "note": "no_repeat and the once-per-set call of subscribe_all along recorded edges are unconditional; that the recorded edges contain what the computed needs is proved without interruption only (hazard = false), see C01; false otherwise (C05_subscribe_all_refuted)."
  },
  {
   "property": "C06",
   "status": "proved",
   "theorems": [
    "C06_no_call_after_drop",
    "C06_silent_after_drop"
   ],
   "note": "A subscription dropped while its own callback runs is gone when that call ends (the Rc is alive until then) and is not called in between."
  },
  {
   "property": "C07",
   "status": "proved",
   "theorems": [
    "C07_replace_parents",
    "C07_history"
   ],
   "note": "Graph model of graph_connections.rs and graph_one_to_many.rs. Acyclicity of the recorded graph is a hypothesis (the property is stated for acyclic graphs). The orphaned predicate of the specification says which nodes lost their last dependent."
  },
  {
   "property": "C08",
   "status": "proved",
   "theorems": [
    "C08_all_deps",
    "C08_set_invalidates",
    "C08_equal_set_is_silent"
   ],
   "note": "get_all_deps terminates on every graph and returns exactly the transitive dependents, in id order. A set at any point of a transaction clears the caches of exactly these computeds and schedules exactly these subscriptions; set_value_and_compare with an equal value does neither."
  },
  {
   "property": "C09",
   "status": "proved",
   "theorems": [
    "C09_connected_iff_needed"
   ],
   "note": "conn is external_connections.rs; dependents are those of the recorded graph."
  },
  {
   "property": "C10",
   "status": "partial",
   "theorems": [
    "C10_read_does_not_connect_refuted",
    "C10_read_does_not_connect_partial",
    "C10_no_computed_read_partial"
   ],
   "note": "Full statement false: reading a computed once leaves its edges and so keeps its values connected. Proved: whatever is connected is so because of a live subscription or a computed that was read one-off."
  },
  {
   "property": "C100",
   "status": "partial",
   "theorems": [
    "C100_to_server_partial",
    "C100_from_server_partial",
    "C100_to_page_partial",
    "C100_from_page_partial",
    "C100_bytes_partial",
    "C100_echo_partial",
    "C100_high_refuted",
    "C100_bytes_kept_refuted",
    "C100_bytes_grown_refuted",
    "C100_echo_refuted"
   ],
   "note": "Proved for values within the limits of C13/C15/C16; with a page, for blocks in the first 2 GiB. Refuted: from 2 GiB on a page takes every value for an empty array (pointers are negative numbers there); bytes given to a page are a view of a block that is dropped and used again after the call; giving such bytes back throws when the memory has to grow for them."
  },
  {
   "property": "C101",
   "status": "partial",
   "theorems": [
    "C101_mount",
    "C101_errors",
    "C101_dom",
    "C101_reach_partial",
    "C101_restricted_refuted",
    "C101_mut_refuted"
   ],
   "note": "Proved for functions whose parameters are names, and for private and public ones. Refuted: a pub(crate) component is private; a mut parameter does not compile. Generics and effects of the expressions are not modelled."
  },
  {
   "property": "C102",
   "status": "partial",
   "theorems": [
    "C102_infer",
    "C102_first",
    "C102_program_partial",
    "C102_outside",
    "C102_named",
    "C102_path",
    "C102_found",
    "C102_target_refuted",
    "C102_directory_refuted",
    "C102_library_refuted",
    "C102_failed_refuted",
    "C102_statement_refuted"
   ],
   "note": "Proved when the command runs in the root of the workspace, with the default target directory and library name. Refuted: with another target directory an old program is taken; in a subdirectory, or with a library name of its own, it panics; a failed build has removed the previous output. What cargo does is the book of Cargo."
  },
  {
   "property": "C103",
   "status": "partial",
   "theorems": [
    "C103_project",
    "C103_refused",
    "C103_builds",
    "C103_name_refuted"
   ],
   "note": "Proved for names that may stand in a TOML string. Refuted: any other name is accepted too and gives a manifest that has no name. Errors of the disk after the directory was made are not modelled; that the template compiles is not part of the model."
  },
  {
   "property": "C104",
   "status": "partial",
   "theorems": [
    "C104_plain",
    "C104_page",
    "C104_updates",
    "C104_url",
    "C104_start",
    "C104_handler",
    "C104_callback",
    "C104_complaint",
    "C104_message",
    "C104_text_partial",
    "C104_html",
    "C104_panic_refuted",
    "C104_charset_refuted"
   ],
   "note": "Proved for texts and pages. Refuted for panics: the task of the server panics too before it has read the message, so there is no answer at all; the message of a panic never is an answer. Refuted for readers: texts are sent as text/plain without a character set, so only ASCII texts are read as written by every reader."
  },
  {
   "property": "C105",
   "status": "partial",
   "theorems": [
    "C105_header",
    "C105_body",
    "C105_ttl_partial",
    "C105_sent_partial",
    "C105_forever_refuted",
    "C105_minutes_refuted",
    "C105_case_refuted"
   ],
   "note": "Proved for headers, body and times that fit into 64 bits of milliseconds. Refuted: u64::MAX seconds expire at once (or panic with overflow checks), large numbers of minutes wrap; names of headers that differ in case only are kept apart, so that the browser sends both values. What leaves is proved for the requests of C73."
  },
  {
   "property": "C106",
   "status": "partial",
   "theorems": [
    "C106_fair_partial",
    "C106_closures",
    "C106_suspense_refuted",
    "C106_hooks_refuted"
   ],
   "note": "Proved for every nesting of calls in closures, and of clone, eq, drop and renders of lists that leave the cell alone for which they are called. Refuted: whenever the attribute vertigo-suspense is set, the callback called at once makes a second &mut to the class of the element while the first one is in use; and a clone that sets, or an eq or drop that reads, the value it belongs to. Not modelled: the cells of the edges of the graph, of the transaction and of the DOM batch, under whose references no code of the program runs, and the panic that stops a list from being rendered inside its own rendering."
  },
  {
   "property": "C107",
   "status": "partial",
   "theorems": [
    "C107_safe_partial",
    "C107_freed_last",
    "C107_leak",
    "C107_leak_refuted"
   ],
   "note": "No history uses freed memory or frees twice; a task is freed exactly when its future is ready and no waker or timer is left. Refuted: a pending future whose last waker was dropped is kept for ever, because the task owns a waker of itself (C107_leak, for all such histories). One thread, as in wasm."
  },
  {
   "property": "C108",
   "status": "partial",
   "theorems": [
    "C108_writer_partial",
    "C108_from_slice_partial",
    "C108_writes_partial",
    "C108_write_refuted",
    "C108_layout_refuted",
    "C108_unwritten_refuted",
    "C108_empty_refuted",
    "C108_long_refuted"
   ],
   "note": "Proved: writes one after the other, blocks from non-empty slices, and any sequence of writes whose offsets plus lengths are below 2^32 (every byte is the one written there last). Refuted: in a release build the safe public write with an offset near 2^32 passes the check by wrapping and writes outside; convert_to_vec makes a vector that frees with alignment 1 what was allocated with the alignment of usize (every value received from the host); new followed by convert_to_vec gives out unwritten bytes; an empty slice panics; of 4 GiB and more only the first bytes are kept."
  },
  {
   "property": "C109",
   "status": "proved",
   "theorems": [
    "C109_question",
    "C109_equal",
    "C109_map",
    "C109_nan_refuted"
   ],
   "note": "For every chain of ? whose resources may depend on the data before, and every equality of the data that is an equivalence. C109_nan_refuted: without that (NaN) a resource is not equal to itself."
  },
  {
   "property": "C11",
   "status": "proved",
   "theorems": [
    "C11_outermost",
    "C11_nested",
    "C11_refused",
    "C11_brackets"
   ],
   "note": ""
  },
  {
   "property": "C110",
   "status": "partial",
   "theorems": [
    "C110_whole_partial",
    "C110_at_once_partial",
    "C110_hooks",
    "C110_outside_refuted",
    "C110_first_refuted"
   ],
   "note": "Proved for all applications and all sequences of events that end without a panic: no batch holds a part of a transaction, every batch holds all there is; after the first page a transaction is sent as soon as it is over; functions given to on_after_transaction are called once for each outermost transaction. Refuted: a handler of an event that changes the document without a transaction (handlers are not run in one) leaves its commands behind until some later transaction ends; the first page is sent before the last answer it waited for is looked at, so it still shows the loading state."
  },
  {
   "property": "C12",
   "status": "proved",
   "theorems": [
    "C12_json_roundtrip"
   ],
   "note": "All JsJson values whose wire size fits u32 and whose objects have < 65536 keys; any surrounding block and any following bytes. HashMap = association list in iteration order."
  },
  {
   "property": "C13",
   "status": "partial",
   "theorems": [
    "C13_value_roundtrip_partial",
    "C13_value_roundtrip_refuted",
    "C13_objects_never_decode_refuted"
   ],
   "note": "The full statement (C13_statement) is false: non-empty JsValue::Object is written with untagged keys and read expecting tagged ones, decoding fails. Proved for all values without non-empty JsValue::Object."
  },
  {
   "property": "C14",
   "status": "proved",
   "theorems": [
    "C14_size_exact"
   ],
   "note": "Sizes in wrapping u32 arithmetic; premise: the wire size fits u32."
  },
  {
   "property": "C15",
   "status": "partial",
   "theorems": [
    "C15_rust_to_js_partial",
    "C15_byte_order_mark_refuted",
    "C15_proto_key_refuted"
   ],
   "note": "Full statement false: TextDecoder strips a leading byte order mark; key \"__proto__\" assigned on a plain object is lost. Proved for all other values (objects included)."
  },
  {
   "property": "C16",
   "status": "partial",
   "theorems": [
    "C16_js_to_rust_partial",
    "C16_covers_all",
    "C16_js_to_rust_refuted"
   ],
   "note": "Full statement false for non-empty objects (untagged keys); proved for all others."
  },
  {
   "property": "C17",
   "status": "partial",
   "theorems": [
    "C17_no_panic_refuted",
    "C17_only_truncation_panics_partial",
    "C17_strings_are_utf8"
   ],
   "note": "Full statement false: a truncated block panics. Proved: decoding terminates on every block and only truncation panics (some extension of every block decodes without panic), and the byte sequences accepted as strings are exactly the UTF-8 encodings of sequences of Unicode scalar values. Rust stack depth is not modelled."
  },
  {
   "property": "C18",
   "status": "partial",
   "theorems": [
    "C18_hash_refuted",
    "C18_request_hash_refuted",
    "C18_hash_partial",
    "C18_request_hash_partial"
   ],
   "note": "Full statement false: hash depends on HashMap iteration order. Proved when every map has at most one entry."
  },
  {
   "property": "C19",
   "status": "partial",
   "theorems": [
    "C19_large_objects_refuted",
    "C12_json_roundtrip"
   ],
   "note": "Full statement false at 65536 keys (u16 count); true below by C12."
  },
  {
   "property": "C20",
   "status": "partial",
   "theorems": [
    "C20_roundtrip_partial",
    "C20_lossless_partial",
    "C20_option_refuted",
    "C20_statement_refuted"
   ],
   "note": "Full statement (C20_statement) false. Proved: everything written is read back as some value, and as the same value exactly when no 64-bit integer inside exceeds f64 precision and no Some holds a value written as null (lossless). chrono types are in C98; HashMap iteration order kept as list order."
  },
  {
   "property": "C21",
   "status": "partial",
   "theorems": [
    "C21_32bit",
    "C21_64bit_partial",
    "C21_64bit_refuted"
   ],
   "note": "u32/i32 proved; for u64/i64 the exact set of surviving values is proved and 2^53+1 is a counterexample."
  },
  {
   "property": "C22",
   "status": "partial",
   "theorems": [
    "C22_decode_partial",
    "C22_ends",
    "C22_exclusive",
    "C22_statement_refuted"
   ],
   "note": "No panic, termination, errors name the path to a wrong place, wrong documents are never accepted. Full statement false: numbers are truncated/saturated (-1 and 3.7 accepted as u32), a struct without fields accepts anything."
  },
  {
   "property": "C23",
   "status": "partial",
   "theorems": [
    "C23_sort_order",
    "C23_same_dom_partial",
    "C23_with_listeners_partial",
    "C23_same_dom_refuted",
    "C23_statement_refuted"
   ],
   "note": "Full statement (C23_statement) false: if a node is moved below a former descendant of itself that hangs below a removed node, the sorted batch inserts a node below itself and throws. Proved when parents can be ranked before children (vertigo never reparents), also for the real drop order in which listeners are removed after their node (C23_with_listeners_partial: equal up to listeners of removed nodes)."
  },
  {
   "property": "C24",
   "status": "proved",
   "theorems": [
    "C24_sent_once",
    "C24_flushed"
   ],
   "note": "Underflow/overflow of the u32 counter excluded by plausible (stops never outnumber starts, < 2^32 starts)."
  },
  {
   "property": "C25",
   "status": "partial",
   "theorems": [
    "C25_same_command_partial",
    "C25_batch_partial",
    "C25_bytes_partial",
    "C25_remove_attr_refuted",
    "C25_statement_refuted"
   ],
   "note": "All commands except RemoveAttr, on which the server hits unreachable!()."
  },
  {
   "property": "C26",
   "status": "proved",
   "theorems": [
    "C26_child_list"
   ],
   "note": "Premise l_valid: the reference is a current child different from the inserted node (otherwise the Rust code panics)."
  },
  {
   "property": "C27",
   "status": "partial",
   "theorems": [
    "C27_same_tree_partial",
    "C27_self_insert_refuted",
    "C25_remove_attr_refuted"
   ],
   "note": "Proved for all batches the browser replays without errors that contain no RemoveAttr, insert no node before itself and create html, head and body before using them and insert head and body. The full statement is false for RemoveAttr and for inserting a node before itself (the server panics)."
  },
  {
   "property": "C28",
   "status": "proved",
   "theorems": [
    "C28_attributes"
   ],
   "note": "Text is an abstract type with a decidable equality (section parameter); the instance for strings is immediate."
  },
  {
   "property": "C29",
   "status": "partial",
   "theorems": [
    "C29_no_injection_partial",
    "C29_style_refuted",
    "C29_case_refuted",
    "C29_statement_refuted"
   ],
   "note": "The specification is a tokenizer for HTML. Proved for all texts, attribute values and comments; names must be names, scripts and styles must not contain their own end tag (else false: C29_style_refuted), elements with raw content contain no elements; void elements must be written in lower case (else false: C29_case_refuted). html-escape is modelled after its documentation."
  },
  {
   "property": "C30",
   "status": "partial",
   "theorems": [
    "C30_exact_partial",
    "C30_up_to_spaces_partial",
    "C30_response_partial",
    "C30_spaces_refuted",
    "C30_raw_refuted",
    "C30_statement_refuted"
   ],
   "note": "Full statement false: the server formats its output, which adds spaces and newlines; text of xmp, iframe, noscript etc. is escaped although browsers do not decode it. Proved: exact without formatting; with formatting up to spaces and newlines, also for the whole response with environment, styles and start script. Tree construction by the browser (e.g. auto-closed paragraphs) not modelled."
  },
  {
   "property": "C31",
   "status": "proved",
   "theorems": [
    "C31_shows",
    "C31_keeps",
    "C31_released",
    "C31_order"
   ],
   "note": "On the browser document, for every sequence of lists; distinct keys only needed for C31_keeps. PartialEq of items is assumed to be equality; nodes left over are dropped in any order. Items are rendered as one element or text (attributes and children of the element left out); see C32 for reactive items, C52 for changed items with unchanged keys."
  },
  {
   "property": "C32",
   "status": "partial",
   "theorems": [
    "C32_exact",
    "C32_in_order_partial",
    "C32_only_then",
    "C32_history",
    "C32_settles",
    "C32_moved",
    "C32_refuted",
    "C32_list_refuted"
   ],
   "note": "Full statement false: when a fragment or list is mounted the content of its second and later reactive items is inserted before the first item (witnesses). C32_exact gives the exact order for every nesting; correct iff only the first item shows something of its own. C32_history gives the exact order after any history of updates of the reactive items: what an item that was updated shows stands directly before it, the rest stays where the mount put it; so the order is right once every later item was updated (C32_settles). C32_moved: a reactive item that is moved is rendered anew, its old nodes are removed. Updates of values nested deeper inside items, and whole list diffs over reactive items, are not covered by these three."
  },
  {
   "property": "C33",
   "status": "proved",
   "theorems": [
    "C33_shows"
   ],
   "note": "For every sequence of values and every rendered node (nested fragments, lists and values, in the order C32_exact gives). Which values reach the subscription is C02-C05."
  },
  {
   "property": "C34",
   "status": "proved",
   "theorems": [
    "C34_names",
    "C34_same_name",
    "C34_inserted",
    "C34_rule_once"
   ],
   "note": "For every sequence of requests that ends without a panic (C36). The two families are kept apart: the same text asked for as static and as dynamic style gets two classes. Class ids are unbounded in the model (u64 in the code)."
  },
  {
   "property": "C35",
   "status": "proved",
   "theorems": [
    "C35_means",
    "C35_means_last"
   ],
   "note": "Stronger than stated: for every list of declarations, nested rules, animations and media queries with any white space. Nested blocks at most 400 levels deep; blocks in ASCII (see C53); names of declarations do not start with [ or @media."
  },
  {
   "property": "C36",
   "status": "partial",
   "theorems": [
    "C36_plain_partial",
    "C36_items_partial",
    "C36_ascii_partial",
    "C36_refuted",
    "C36_refuted_square",
    "C36_refuted_letter"
   ],
   "note": "Full statement false: @media without colon or point, [attribute] rules and selectors with non-ASCII letters panic. Proved for texts without braces and for well formed styles; for ASCII text only the row splitter can panic."
  },
  {
   "property": "C37",
   "status": "partial",
   "theorems": [
    "C37_combined",
    "C37_quiet",
    "C37_removed_refuted",
    "C37_suspense_refuted"
   ],
   "note": "Combination and commands only on change are proved. Removal when all are empty is false (class=\"\" stays), and suspense(None) leaves the class of the suspense layer in place."
  },
  {
   "property": "C38",
   "status": "partial",
   "theorems": [
    "C38_partial",
    "C38_settled_after_drop",
    "C38_changes",
    "C38_total",
    "C38_elements_partial",
    "C38_calls_of",
    "C38_stale_refuted",
    "C38_depth_refuted",
    "C38_unattached_refuted",
    "C38_twice_refuted"
   ],
   "note": "Proved for all histories in which no loading node hangs below a removed one (true again at the end of every drop) and layers that have a parent and set the attribute once. False otherwise: stale value between the removal of a plain ancestor and of the loading node, panic at 500 levels, a layer without parent keeps its value, and setting the attribute twice ends the subscription."
  },
  {
   "property": "C39",
   "status": "partial",
   "theorems": [
    "C39_dispatch",
    "C39_call",
    "C39_once_partial",
    "C39_once_refuted"
   ],
   "note": "Ids unique and dispatch right for fewer than 2^64 registrations. \"One-shot runs at most once\" is false when the callback is called again while it runs (its resource is dropped only after the run); proved that it never runs after its first run has ended."
  },
  {
   "property": "C40",
   "status": "proved",
   "theorems": [
    "C40_delivered",
    "C40_once"
   ],
   "note": "The allocator returning only addresses not in use is expressed by nothing else touching the address in between."
  },
  {
   "property": "C41",
   "status": "partial",
   "theorems": [
    "C41_delivers",
    "C41_removed_refuted"
   ],
   "note": "Exactly-once, in-order delivery to the listeners registered when the trigger starts, for all re-entrant uses (fewer than 2^32-1 registrations). \"A removed listener is never called again\" is false for a listener removed during the same trigger."
  },
  {
   "property": "C42",
   "status": "partial",
   "theorems": [
    "C42_ranked",
    "C42_stateless_partial",
    "C42_memo_partial",
    "C42_statement_refuted"
   ],
   "note": "Full statement (all create functions) false: a create function with state can get its own key. Proved for every create function without state, for every one that gets only earlier keys in some order, and for every history without re-entrant creation."
  },
  {
   "property": "C43",
   "status": "partial",
   "theorems": [
    "C43_history",
    "C43_read_starts",
    "C43_read_requests",
    "C43_restart_partial",
    "C43_stuck_refuted"
   ],
   "note": "Full statement false: arguments of the fetch callback that cannot be decoded leave the cache locked forever. u64 overflow of now + ttl not modelled."
  },
  {
   "property": "C44",
   "status": "partial",
   "theorems": [
    "C44_no_panic",
    "C44_answers",
    "C44_page_complete",
    "C44_no_deadlock",
    "C44_sent_once",
    "C44_equal_sent_once_partial",
    "C44_dedup_refuted",
    "C44_equal_sent_once_refuted"
   ],
   "note": "For all applications and all interleavings of requests, responses and timer: no panic, every request answered exactly once with the response of its request, page complete when built, a request is in flight when the loop waits. Identical requests are sent once if their headers iterate in the same order; the full de-duplication is false: the Hash of a request feeds its header HashMap in iteration order, so equal requests with two or more headers can be sent twice."
  },
  {
   "property": "C45",
   "status": "partial",
   "theorems": [
    "C45_received",
    "C45_once",
    "C45_woken",
    "C45_two_values_refuted"
   ],
   "note": "Exactly-once delivery and waking proved for every history in which the value is not overwritten; a second publish before a poll replaces the first value."
  },
  {
   "property": "C46",
   "status": "partial",
   "theorems": [
    "C46_into",
    "C46_into_data",
    "C46_published",
    "C46_undecodable_refuted"
   ],
   "note": "From the callback arguments to the converted result. Not total: undecodable arguments publish nothing. The Debug rendering of a body is a parameter; logging left out."
  },
  {
   "property": "C47",
   "status": "proved",
   "theorems": [
    "C47_dispatch",
    "C47_only_one",
    "C47_unsupported",
    "C47_from_bytes",
    "C47_injective"
   ],
   "note": "All calls of api_import.rs with all arguments; the headers are a map. C47_from_bytes adds the binary codec within its limits (C13). Of console messages only the first of the four texts is kept by the server, as written. The log text itself and the websocket and cookie calls carry no data on the server."
  },
  {
   "property": "C48",
   "status": "partial",
   "theorems": [
    "C48_base_dir",
    "C48_prefix",
    "C48_component_refuted"
   ],
   "note": "The prefix is compared as text, not by component, so /build2/x is accepted below /build. Reading index.json not modelled."
  },
  {
   "property": "C49",
   "status": "proved",
   "theorems": [
    "C49_first_equals",
    "C49_strings"
   ],
   "note": ""
  },
  {
   "property": "C50",
   "status": "partial",
   "theorems": [
    "C50_only_html",
    "C50_inserted_partial",
    "C50_once_refuted"
   ],
   "note": "Proved for documents with at most one \"</body>\"; with several every one gets a copy of the script."
  },
  {
   "property": "C51",
   "status": "partial",
   "theorems": [
    "C51_panics_partial",
    "C51_meaning",
    "C51_statement_refuted",
    "C51_random_refuted"
   ],
   "note": "The full statement is false: timezone_offset and get_random (hence get_random_from) are unsupported on the server and turn the page into an error page. All other calls do not, and give what server_meaning says."
  },
  {
   "property": "C52",
   "status": "partial",
   "theorems": [
    "C52_content_partial",
    "C52_refuted"
   ],
   "note": "Full statement false: an item that changes but keeps its key keeps its old rendering. Proved when what is rendered depends on the key only."
  },
  {
   "property": "C53",
   "status": "partial",
   "theorems": [
    "C53_parts_partial",
    "C35_means",
    "C53_refuted",
    "C53_refuted_semicolon"
   ],
   "note": "Full statement false: character indices are used as byte offsets, so a non-ASCII letter cuts the end of the body off; after a superfluous semicolon the rule becomes a declaration. Proved when the text up to the closing brace is ASCII."
  },
  {
   "property": "C54",
   "status": "partial",
   "theorems": [
    "C54_refuted",
    "C54_plain_last"
   ],
   "note": "False: the plain rule of a style is always inserted last and so overrides every media query of the same style. The refutation is the result; nothing of the statement remains."
  },
  {
   "property": "C55",
   "status": "partial",
   "theorems": [
    "C55_kept",
    "C55_refuted",
    "C55_grows"
   ],
   "note": "False: the registered closure holds the class object whose drop would unregister it. Proved that no drop ever removes the callback and that it accumulates; the refutation is the result."
  },
  {
   "property": "C56",
   "status": "proved",
   "theorems": [
    "C56_released_is_dropped",
    "C56_dropped_only_if_released"
   ],
   "note": "For every run: what a call returned is dropped once the callback is called again or the subscription dropped, and a subscription the application never drops itself is dropped only then. The resource is modelled as the list of subscriptions it owns; resources of other kinds are not modelled."
  },
  {
   "property": "C57",
   "status": "partial",
   "theorems": [
    "C57_access_partial",
    "C57_access_refuted",
    "C57_bigint_refuted",
    "C57_bytes_refuted",
    "C57_get_props_refuted"
   ],
   "note": "Proved for every engine and every chain of get/set/call from the api, the window or the document that ends in a readable value (what some Rust value of the kinds fetch produces stands for). False in general: an object holding an undefined or a bigint is read as undefined, a bigint from 2^63 on wraps around, bytes inside of an object are read as an object of numbers, and get_props gives descriptions of the values. Accesses starting at an element: C58."
  },
  {
   "property": "C58",
   "status": "partial",
   "theorems": [
    "C58_element_unreached",
    "C58_element_refuted"
   ],
   "note": "False for every element, page and chain: the id is sent as a 64-bit integer, which the page does not accept as a number, so nothing is done and undefined is returned. The refutation is the result."
  },
  {
   "property": "C59",
   "status": "proved",
   "theorems": [
    "C59_takes_over",
    "C59_takes_over_total",
    "C59_later"
   ],
   "note": "Simulation between the replay on the page with the nodes of the server and the replay on the empty page, for all commands, including those that throw; the nodes of the server are removed afterwards. Setting the focus is not modelled; the whitespace the server leaves directly below html is outside of the statement."
  },
  {
   "property": "C60",
   "status": "proved",
   "theorems": [
    "C60_handler_runs"
   ],
   "note": "For every handler kind and event, both directions: the handler runs (with this data, once, preventing the default or not) iff the specification [happens] says so. Reading the bytes of dropped files is taken to succeed; texts are those JavaScript can encode."
  },
  {
   "property": "C61",
   "status": "proved",
   "theorems": [
    "C61_only_living",
    "C61_living_heard"
   ],
   "note": "Invariant over all operations of elements, all batches and the replay on the page, including throwing commands. That an element which exists has its listeners assumes that adding them did not throw."
  },
  {
   "property": "C62",
   "status": "partial",
   "theorems": [
    "C62_set_get_partial",
    "C62_far",
    "C62_refuted",
    "C62_far_refuted",
    "C62_name_refuted",
    "C62_prefix_refuted",
    "C62_mark_refuted",
    "C62_long_refuted"
   ],
   "note": "Proved for token names, values that fit and times that are dates. Refuted otherwise: a time beyond the range of dates silently makes a session cookie (theorem C62_far for all such times), a name with = stores another cookie, __Host- names and long values are not stored, a leading byte order mark is lost."
  },
  {
   "property": "C63",
   "status": "partial",
   "theorems": [
    "C63_foreign_partial",
    "C63_refuted"
   ],
   "note": "Proved for all values of the grammar of RFC 6265 without =. Refuted for values with = such as base64 padding: get splits at every = and reads them as empty."
  },
  {
   "property": "C64",
   "status": "partial",
   "theorems": [
    "C64_never_strict",
    "C64_refuted"
   ],
   "note": "Refuted: the attribute is written with a stray quote, so that no cookie ever is SameSite=Strict (C64_never_strict, for all cookies set)."
  },
  {
   "property": "C65",
   "status": "partial",
   "theorems": [
    "C65_set_get_partial",
    "C65_scalars",
    "C65_json_set_get_partial",
    "C65_json_scalars",
    "C65_refuted"
   ],
   "note": "Proved for lists, objects and null. Refuted for booleans, numbers and strings, which are stored but read as null (C65_scalars, for all of them). C65_json_* are about JSON.stringify and JSON.parse as modelled for C76, for values whose numbers the engine reads as what it wrote."
  },
  {
   "property": "C66",
   "status": "partial",
   "theorems": [
    "C66_history_partial",
    "C66_hash_partial",
    "C66_told",
    "C66_unobserved_refuted",
    "C66_mixed_refuted",
    "C66_percent_refuted"
   ],
   "note": "Proved for routers that stay observed (hash routers: while fragments decode and are not changed by pushing paths). Refuted: a router that nothing depends on while the location changes stays behind, also after it is observed again; a hash router does not see paths pushed by links; a fragment with a lone percent sign leaves the route as it was and cannot be left by set."
  },
  {
   "property": "C67",
   "status": "partial",
   "theorems": [
    "C67_hash_partial",
    "C67_history_partial",
    "C67_stuck",
    "C67_refuted"
   ],
   "note": "Proved for texts the hash keeps (no percent sign, tab, line break or leading #) and for addresses in the form the browser writes. Refuted: %41 is read as A, 100% changes the location but not the route."
  },
  {
   "property": "C68",
   "status": "partial",
   "theorems": [
    "C68_inside",
    "C68_outside_partial",
    "C68_dead",
    "C68_refuted"
   ],
   "note": "Proved for links inside the site and for those to elsewhere beginning with http://, https://, // or #. Refuted: links such as mailto: or tel: are taken from the browser and do nothing (C68_dead, for all of them). Modifier keys and target are not looked at by the code and not modelled."
  },
  {
   "property": "C69",
   "status": "proved",
   "theorems": [
    "C69_told",
    "C69_at_once",
    "C69_session",
    "C69_silent"
   ],
   "note": "Invariant over all tasks and microtasks of a page with any number of websockets and any application. The browser (sockets, order of tasks) follows the standards; a panicking callback is not modelled."
  },
  {
   "property": "C70",
   "status": "partial",
   "theorems": [
    "C70_sent",
    "C70_only",
    "C70_no_throw",
    "C70_refuted"
   ],
   "note": "Proved while the browser takes texts on the connection. Refuted: while the other side is closing, the application still sees the connection, and what it sends is lost without notice."
  },
  {
   "property": "C71",
   "status": "partial",
   "theorems": [
    "C71_no_new",
    "C71_closed_partial",
    "C71_never_closed",
    "C71_refuted"
   ],
   "note": "Proved: no connection is begun after the drop, and those that were open are closed. Refuted for a connection still being made at the drop: it opens afterwards and the page never closes it (C71_never_closed, for all continuations)."
  },
  {
   "property": "C72",
   "status": "partial",
   "theorems": [
    "C72_reconnects",
    "C72_one",
    "C72_host",
    "C72_refused"
   ],
   "note": "Proved for addresses the browser accepts. For others new WebSocket throws inside the loop: nothing is ever reported to the application (C72_refused, for all such addresses)."
  },
  {
   "property": "C73",
   "status": "partial",
   "theorems": [
    "C73_requests_partial",
    "C73_bytes_refuted",
    "C73_string_refuted",
    "C73_get_body_refuted",
    "C73_method_refuted",
    "C73_reserved_refuted",
    "C73_latin_refuted",
    "C73_case_refuted",
    "C73_nan_refuted"
   ],
   "note": "Proved for GET without a body and POST, token names the browser leaves to the application, ASCII values, and finite numbers that are read as written. Refuted otherwise: bytes get a content type in the browser only, a JSON string is sent without quotes as plain text by the browser, a body with GET is refused by the browser only, other methods panic on the server, reserved headers are dropped by the browser only, header values beyond ASCII differ in bytes, names that differ in case are merged differently, NaN is null or a panic."
  },
  {
   "property": "C74",
   "status": "partial",
   "theorems": [
    "C74_responses_partial",
    "C74_json_server_then_browser",
    "C74_twice_refuted",
    "C74_type_refuted",
    "C74_utf8_refuted",
    "C74_bom_refuted",
    "C74_depth_refuted",
    "C74_surrogate_refuted",
    "C74_json_bom_refuted"
   ],
   "note": "Proved for at most one ASCII content type, UTF-8 texts without a byte order mark, and JSON that the reader of the server accepts, or that is no JSON at all. Refuted otherwise: repeated or non-ASCII content types, texts that are not UTF-8 or begin with a byte order mark, JSON nested 128 levels, with lone surrogates or with a byte order mark."
  },
  {
   "property": "C75",
   "status": "partial",
   "theorems": [
    "C75_browser",
    "C75_server",
    "C75_refuted"
   ],
   "note": "Exact characterisation on both sides: in the browser a request is answered once iff all its headers are accepted, else never; on the server iff the method is GET or POST and the numbers of a JSON body are finite, else never."
  },
  {
   "property": "C76",
   "status": "partial",
   "theorems": [
    "C76_texts_partial",
    "C76_nan_refuted",
    "C76_minus_zero_refuted",
    "C76_depth_refuted"
   ],
   "note": "Proved for all values whose numbers are finite and are read as written, on the server up to 127 levels. How numbers are written and read is a parameter. Refuted: NaN is written null by the browser and panics on the server, minus zero loses its sign in the browser, 128 levels are not read by the server."
  },
  {
   "property": "C77",
   "status": "partial",
   "theorems": [
    "C77_not_early",
    "C77_once",
    "C77_dropped",
    "C77_drops",
    "C77_on_time",
    "C77_released",
    "C77_long_refuted",
    "C77_seconds_refuted"
   ],
   "note": "Proved for durations below 2^31 ms and any application. Refuted: longer durations, which a u32 holds, are called at once; set_interval is documented in seconds but takes milliseconds. The timers of the browser are those of the HTML standard, with ids that count up; timers are released from the browser while fewer than 2^31 ids were given."
  },
  {
   "property": "C78",
   "status": "proved",
   "theorems": [
    "C78_polled",
    "C78_not_after_done",
    "C78_one_at_a_time",
    "C78_no_spurious_polls",
    "C78_later"
   ],
   "note": "Invariant over all runs on both platforms. A future that panics is not modelled."
  },
  {
   "property": "C79",
   "status": "partial",
   "theorems": [
    "C79_only_zero",
    "C79_in_order",
    "C79_all_zero",
    "C79_sleep_refuted"
   ],
   "note": "Proved for timeouts of zero. Refuted for all others: they are never called while the server renders (C79_only_zero, for all applications), so that sleep does not end."
  },
  {
   "property": "C80",
   "status": "partial",
   "theorems": [
    "C80_no_errors",
    "C80_attributes_partial",
    "C80_texts",
    "C80_gone",
    "C80_handlers",
    "C80_settles",
    "C80_given_twice_refuted",
    "C80_class_refuted"
   ],
   "note": "Proved for elements whose attributes have different names, and for classes that are bound to a text. Refuted: if a name is given twice, an older binding overwrites the later text when its value changes; a class whose bound value becomes None stays as an empty attribute. That subscriptions see the current values is C01-C08."
  },
  {
   "property": "C81",
   "status": "partial",
   "theorems": [
    "C81_follows_partial",
    "C81_two_way",
    "C81_ignored",
    "C81_served",
    "C81_ignored_refuted",
    "C81_newlines_refuted",
    "C81_server_refuted",
    "C81_removed_value_refuted"
   ],
   "note": "Proved for texts without newlines (areas: without carriage returns) as long as no typed text leaves the bound value unchanged, in particular for every handler that stores the text. Refuted: a text the handler rejects stays in the field (C81_ignored, for all such handlers); texts with newlines; a textarea in the page of the server is empty; the value of a box that is removed stays as an empty attribute. The controls are those of the HTML standard."
  },
  {
   "property": "C82",
   "status": "partial",
   "theorems": [
    "C82_unclicked",
    "C82_toggle_partial",
    "C82_program_refuted",
    "C82_click_refuted",
    "C82_untold_refuted"
   ],
   "note": "Proved until the first click, and for on_change handlers that invert the value when nothing else changes it. Refuted: after a click changes of the value no longer show; with on_click the browser puts the mark back; the text given to on_change is the same for both states."
  },
  {
   "property": "C83",
   "status": "partial",
   "theorems": [
    "C83_follows_partial",
    "C83_refuted",
    "C83_foreign_refuted"
   ],
   "note": "Proved for different options as long as the application does not go back to an option the user has picked. Refuted otherwise, and for values that are no option."
  },
  {
   "property": "C84",
   "status": "partial",
   "theorems": [
    "C84_names",
    "C84_changes_partial",
    "C84_collision_refuted",
    "C84_zeros_refuted"
   ],
   "note": "Proved: the new name determines the original one and the CRC of the content; contents of equal length that differ only within 64 neighbouring bits get different names. Refuted in general: every content of nine bytes or more has another one of the same length and name, and zero bytes put in front never change the name."
  },
  {
   "property": "C85",
   "status": "partial",
   "theorems": [
    "C85_served_partial",
    "C85_all",
    "C85_no_extension",
    "C85_sharp_refuted",
    "C85_extension_refuted",
    "C85_leftover_refuted"
   ],
   "note": "Proved for all histories, for file names without the characters tab, newline, # % / ? and backslash, public paths of letters, digits, - and _, and files whose earlier contents do not have the same CRC. Refuted: a name with # is written but not found (addresses are not escaped), a file without an extension stops the build, files of earlier builds stay and are served."
  },
  {
   "property": "C86",
   "status": "partial",
   "theorems": [
    "C86_fresh_partial",
    "C86_missing_refuted",
    "C86_source_map_refuted"
   ],
   "note": "Proved for all histories in which the address was not requested while the file was missing (conditions on names as in C85). Refuted: the answer that a file is missing is cached for a day too; the source map has no hash in its name."
  },
  {
   "property": "C87",
   "status": "partial",
   "theorems": [
    "C87_not_lost",
    "C87_settled_partial",
    "C87_version_partial",
    "C87_stale_refuted",
    "C87_stale_errors_refuted"
   ],
   "note": "Proved for all interleavings: no change is lost. Proved if no change is taken up during a build: the status and the server are those of the newest sources. Refuted otherwise: an aborted build goes on to its end; if it ends last, it puts its program in the place of the newer one, or sends Errors although the newest sources are served."
  },
  {
   "property": "C88",
   "status": "partial",
   "theorems": [
    "C88_pages_partial",
    "C88_told",
    "C88_overlay_refuted",
    "C88_stale_refuted",
    "C88_dead_refuted",
    "C88_port_refuted",
    "C88_host_refuted"
   ],
   "note": "Proved for runs in which no change is taken up during a build and pages load and connect while the status is a version. Refuted otherwise: a page loaded before the version is sent keeps the message that a build is in progress; a page connected after the change keeps the old sources; a page told to load while there is no server is lost; with another --port-watch than 5555 no page gets any message, with a --host that 127.0.0.1 does not reach no version is ever sent."
  },
  {
   "property": "C89",
   "status": "partial",
   "theorems": [
    "C89_nodes_partial",
    "C89_text_partial",
    "C89_pseudo_html_partial",
    "C89_class_refuted",
    "C89_remove_class_refuted",
    "C89_callbacks_refuted",
    "C89_itself_refuted",
    "C89_roots_refuted",
    "C89_escape_refuted"
   ],
   "note": "Proved for all commands the browser carries out that do not put a node before itself: the fragment has the nodes, names, texts, children, parents and attributes (other than class and style) of the document; without classes, styles and callbacks the text of a node is that of the document. Refuted: a changed class adds the styles of both, a removed class stays, two callbacks of an event are kept as one, a node put before itself becomes the last, of several roots any is shown, texts are not escaped."
  },
  {
   "property": "C90",
   "status": "partial",
   "theorems": [
    "C90_text_partial",
    "C90_unit_refuted",
    "C90_late_refuted",
    "C90_late_variable",
    "C90_key_refuted",
    "C90_bracket_refuted",
    "C90_lost_refuted",
    "C90_refused",
    "C90_many_refused"
   ],
   "note": "Proved for all blocks of a grammar of declarations, colours, addresses, expressions before a text, selectors, references, media, animations with their steps, and comments, with any white space and nested to any depth. Refuted: a unit other than px comes apart from its expression; an expression after a text is left as it is, or is a variable, or another expression if its name is a key; brackets in values are taken for references; rules without a selector are lost. Some CSS is refused, and 677 expressions."
  },
  {
   "property": "C91",
   "status": "partial",
   "theorems": [
    "C91_tree_partial",
    "C91_document",
    "C91_element",
    "C91_refused",
    "C91_component_children",
    "C91_component_children_refuted",
    "C91_order_refuted"
   ],
   "note": "Proved from the tree syn_rsx gives to the nodes of the browser, for all trees, environments and pages; the refused trees are characterised. C91_document covers a page of html, head and body on a blank document. Not covered: html, head and body elsewhere, a class given more than once, commands for new styles (C34); reading tokens as tags is trusted. Refuted: what is written inside a component is dropped without an error; of several tags, a later one that is a component with a value is shown in the wrong order."
  },
  {
   "property": "C92",
   "status": "partial",
   "theorems": [
    "C92_document_follows_partial",
    "C92_comes_to_rest",
    "C92_one_pass",
    "C92_fragment_refuted"
   ],
   "note": "Proved for all templates without the flaws refuted elsewhere (C32: only the first item of a fragment is reactive, lists render texts and elements; C52: items with the same key are rendered alike), all pages, histories, orders of calls, orders in which leftover items are dropped and divisions into batches. Not in the model: listeners (C60, C61), the class attribute (C37, C80), styles, suspense, html, head and body (C91); which subscriptions the graph calls is C01-C06, here any may be called at any time, and one pass over those that have something to do is shown to be enough (C92_one_pass). Refuted without the condition on fragments."
  },
  {
   "property": "C93",
   "status": "partial",
   "theorems": [
    "C93_server",
    "C93_argument",
    "C93_same_partial",
    "C93_case_refuted",
    "C93_order_refuted",
    "C93_newline_refuted",
    "C93_name_refuted"
   ],
   "note": "The server and the parsing of arguments for all settings. The browser, for all documents and orders of the map, when no setting differs from the name asked for only in case, names can be names of attributes, the application has no such attribute on html and the response has no carriage return; each of the four conditions but the one on own attributes is shown to be needed by a counterexample."
  },
  {
   "property": "C94",
   "status": "partial",
   "theorems": [
    "C94_accepted",
    "C94_bind_partial",
    "C94_spawn_partial",
    "C94_spawn_takes_partial",
    "C94_rc_partial",
    "C94_rc_paths",
    "C94_order_refuted",
    "C94_spawn_takes_refuted",
    "C94_spawn_field_refuted",
    "C94_bar_refuted"
   ],
   "note": "What is accepted and generated is characterised exactly for lists of places. Copies proved when no place begins with the name of an earlier one; for bind_spawn! when a place that begins with a bound name is that variable itself. Refuted: bind!(a.b, b.c, ..) copies c from the new b; bind_spawn!(a.b, ..) takes a along, bind_spawn!(a.a, ..) copies a field of the copy; a closure with a | outside of braces is refused; bind_rc! refuses types that are paths or have two arguments (C94_rc_paths, for all of them). Expressions other than a.b.c in the list are not modelled; type and borrow checking is that of rustc."
  },
  {
   "property": "C95",
   "status": "partial",
   "theorems": [
    "C95_get_partial",
    "C95_post_partial",
    "C95_length",
    "C95_refused",
    "C95_elsewhere",
    "C95_headers_refuted",
    "C95_length_refuted",
    "C95_form_refuted",
    "C95_method_refuted",
    "C95_slash_refuted",
    "C95_escape_refuted"
   ],
   "note": "Method, URL and answer proved for GET, HEAD and JSON POST requests, for POST also the headers and the meaning of the JSON body; what is not below a proxy goes nowhere. Refuted: the headers of GET requests are dropped; a JSON body with white space is sent on with the wrong content-length (right for compact texts: C95_length); forms and methods other than GET, HEAD and POST are refused; /path is asked for as /path/; a path with .. leaves the path of the target. What reqwest does with the request it is given is a parameter; routing and extractors of axum as documented."
  },
  {
   "property": "C96",
   "status": "partial",
   "theorems": [
    "C96_shown",
    "C96_browser_partial",
    "C96_server_partial",
    "C96_trace_refuted",
    "C96_percent_refuted",
    "C96_level_refuted",
    "C96_marks_refuted"
   ],
   "note": "Proved for levels debug to error in the browser, for every message when the console follows the standard and for messages without two percent signs side by side otherwise; on the server the message is kept whole. Refuted: trace records are never shown; consoles that show %% as % change the message; on the server warnings become infos and errors warnings, and the directives for the console are written out. The place is taken to contain no percent sign."
  },
  {
   "property": "C97",
   "status": "partial",
   "theorems": [
    "C97_clock_partial",
    "C97_server_clock",
    "C97_elapsed",
    "C97_browser_partial",
    "C97_early_refuted",
    "C97_set_back_refuted",
    "C97_ahead_refuted",
    "C97_unit_refuted"
   ],
   "note": "Proved for clocks that go forwards and show a date from 25 January 1970 on. Refuted: on an earlier date the time is 0 (the number comes as an i32, which utc_now does not expect); when the clock is set back, or for an instant ahead, elapsed panics or wraps; the documentation promises a monotonic clock and seconds."
  },
  {
   "property": "C98",
   "status": "partial",
   "theorems": [
    "C98_date",
    "C98_datetime_partial",
    "C98_offset",
    "C98_far",
    "C98_valid",
    "C98_year_refuted",
    "C98_sent_on_refuted"
   ],
   "note": "Dates: every one. Instants: the years 0 to 9999, to the nanosecond and with leap seconds. Refuted outside of these years: they are written with a sign, which the reader of RFC 3339 does not take. chrono is third-party and modelled as documented."
  },
  {
   "property": "C99",
   "status": "partial",
   "theorems": [
    "C99_call_partial",
    "C99_get_partial",
    "C99_errors",
    "C99_server",
    "C99_statement_refuted",
    "C99_raw_refuted",
    "C99_escape_refuted",
    "C99_wide_refuted"
   ],
   "note": "Proved for literals without backslashes that are not raw and for integers of at most 32 bits, within the limits of C57 (values that can be read back, paths below 4 GB, names that do not begin with a byte order mark). Refuted: raw literals and escapes name something else; i64, u64, isize and usize arrive as bigints."
  }
 ]
}