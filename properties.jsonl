{"id": "C01", "title": "No stale reads of a Computed", "statement": "Reading a Computed (inside or outside a transaction) always returns exactly what its function would return if every Computed it depends on were evaluated from scratch against the values currently stored in the Values.", "quantifier": "for every family of computed functions (including ones whose reads depend on earlier reads), and every finite history of set / change / set_value_and_compare / nested transactions / reads / subscribe / drop of subscriptions, at every read in that history", "why_tests_cant": "The cache is invalidated through recorded edges; whether the edges are complete depends on the whole history of evaluations and un-subscriptions, which tests only sample.", "anchors": ["crates/vertigo/src/computed/graph_value.rs: GraphValue::{get_value,calculate_new_value,refresh}", "crates/vertigo/src/computed/dependencies/mod.rs: Dependencies::{transaction,report_set}", "crates/vertigo/src/computed/dependencies/graph.rs: Graph::set_parent_for_client", "crates/vertigo/src/computed/value.rs: Value::{set,get,change,set_value_and_compare}"]}
{"id": "C02", "title": "Notifications are glitch free", "statement": "Every value handed to a subscriber callback equals the from-scratch evaluation of the subscribed Computed against the values in force when it is called; for calls made because of a transaction these are the values at the end of the outermost transaction (the initial call made by subscribe sees the values at that moment). No callback ever sees a mixture of old and new values.", "quantifier": "for every history of operations and every callback invocation in it", "why_tests_cant": "Diamond shaped and dynamically changing graphs have unboundedly many shapes and refresh orders.", "anchors": ["crates/vertigo/src/computed/graph_value.rs: GraphValue::{get_value,calculate_new_value,refresh}", "crates/vertigo/src/computed/dependencies/mod.rs: Dependencies::{transaction,report_set}", "crates/vertigo/src/computed/dependencies/graph.rs: Graph::set_parent_for_client", "crates/vertigo/src/computed/value.rs: Value::{set,get,change,set_value_and_compare}", "crates/vertigo/src/computed/computed_box.rs: Computed::subscribe"]}
{"id": "C03", "title": "A subscriber is run at most once per outermost transaction", "statement": "However many Values are set and however deeply transactions nest, the callback of a subscription that existed before an outermost transaction is not called during the transaction body and at most once afterwards, in ascending order of subscription creation (a subscription created inside the body additionally gets its initial call).", "quantifier": "for every transaction body (any sequence and nesting of sets and reads) from every reachable state", "why_tests_cant": "Requires quantifying over all transaction bodies and graph shapes.", "anchors": ["crates/vertigo/src/computed/dependencies/mod.rs: Dependencies::transaction", "crates/vertigo/src/computed/dependencies/transaction_state.rs: TransactionState"]}
{"id": "C04", "title": "No missed update", "statement": "After an outermost transaction (or a subscribe / drop) has returned, the last value delivered to every live subscription equals the current from-scratch value of the Computed it is subscribed to.", "quantifier": "for every history, every live subscription, at every point where no transaction is open", "why_tests_cant": "A missed notification depends on an edge lost earlier in the history.", "anchors": ["crates/vertigo/src/computed/graph_value.rs: GraphValue::{get_value,calculate_new_value,refresh}", "crates/vertigo/src/computed/dependencies/mod.rs: Dependencies::{transaction,report_set}", "crates/vertigo/src/computed/dependencies/graph.rs: Graph::set_parent_for_client", "crates/vertigo/src/computed/value.rs: Value::{set,get,change,set_value_and_compare}", "crates/vertigo/src/computed/computed_box.rs: Computed::subscribe"]}
{"id": "C05", "title": "subscribe never repeats a value", "statement": "A subscription created with subscribe is never called twice in a row with equal values; one created with subscribe_all is called on every refresh of an affected subscription.", "quantifier": "for every history and every subscription", "why_tests_cant": "Quantifies over histories.", "anchors": ["crates/vertigo/src/computed/computed_box.rs: Computed::{subscribe,subscribe_all}", "crates/vertigo/src/computed/struct_mut/value_mut.rs: ValueMut::set_and_check"]}
{"id": "C06", "title": "A dropped subscription is never called again", "statement": "Once the DropResource of a subscription is dropped, its callback never runs again, and the dependency graph keeps no edge to it.", "quantifier": "for every history in which the drop happens and every continuation", "why_tests_cant": "Unbounded continuation; also drops in the middle of a refresh.", "anchors": ["crates/vertigo/src/computed/graph_value.rs: Drop for GraphValue", "crates/vertigo/src/computed/dependencies/refresh.rs: Refresh::{refresh,refresh_token_drop}", "crates/vertigo/src/computed/dependencies/graph.rs: Graph::remove_client"]}
{"id": "C07", "title": "Dependency graph integrity", "statement": "The two adjacency maps of the dependency graph are exact inverses of one another, contain no empty entries, and replacing the parents of a node leaves that node with exactly the new parents, terminates, and detaches precisely the computeds that lost their last dependent.", "quantifier": "for every sequence of parent replacements and removals over every acyclic graph", "why_tests_cant": "The cascade of removals is recursive over arbitrary graphs.", "anchors": ["crates/vertigo/src/computed/dependencies/graph_connections.rs: GraphConnectionsInner::{set_parent_for_client,exec_command,exec_command_list,get_update_commands}", "crates/vertigo/src/computed/dependencies/graph_one_to_many.rs: GraphOneToMany"]}
{"id": "C08", "title": "Invalidation reaches exactly the transitive dependents", "statement": "Setting a Value invalidates and schedules exactly the computeds and subscriptions reachable from it through recorded dependencies, and the traversal terminates on every graph, cyclic ones included.", "quantifier": "for every dependency graph and every start node", "why_tests_cant": "Reachability over arbitrary graphs.", "anchors": ["crates/vertigo/src/computed/dependencies/graph_connections.rs: GraphConnectionsInner::get_all_deps", "crates/vertigo/src/computed/dependencies/mod.rs: Dependencies::report_set"]}
{"id": "C09", "title": "Connected values are connected exactly while something depends on them", "statement": "For a value made by Value::with_connect the create function runs exactly when the value goes from having no dependents to having some, the returned resource is dropped exactly when the last dependent goes away, connects and disconnects strictly alternate, and the value is connected iff it currently has a dependent.", "quantifier": "for every history of reads, subscriptions and drops", "why_tests_cant": "Alternation over unbounded histories.", "anchors": ["crates/vertigo/src/computed/dependencies/external_connections.rs: ExternalConnections::set_connection", "crates/vertigo/src/computed/value.rs: Value::with_connect", "crates/vertigo/src/computed/dependencies/graph.rs: Graph::set_parent_for_client"]}
{"id": "C10", "title": "A one-off read does not keep a connected value connected", "statement": "A connectable value that nobody is subscribed to (only read with get inside a transaction that has ended) is not connected.", "quantifier": "for every history that ends with no live subscription", "why_tests_cant": "Depends on the history of reads and drops.", "anchors": ["crates/vertigo/src/computed/value.rs: Value::with_connect", "crates/vertigo/src/computed/graph_value.rs: GraphValue::calculate_new_value", "crates/vertigo/src/computed/dependencies/graph_connections.rs"]}
{"id": "C11", "title": "Transaction bracketing", "statement": "Transactions nest: only the outermost one triggers refreshing and the after-transaction hooks, exactly once, after all refreshing is done; after it the state is idle again; starting a transaction while subscribers are being refreshed is refused.", "quantifier": "for every well bracketed sequence of transaction starts and ends of depth below 65536, from the idle state", "why_tests_cant": "All nestings.", "anchors": ["crates/vertigo/src/computed/dependencies/transaction_state.rs: TransactionState::{up,down,move_to_idle,add_clients_to_refresh}", "crates/vertigo/src/computed/dependencies/hook.rs: Hooks"]}
{"id": "C12", "title": "JsJson binary round trip", "statement": "Decoding the bytes produced for a JsJson value gives back an equal value and consumes exactly those bytes, whatever follows them.", "quantifier": "for every JsJson value of any depth whose strings and lists are shorter than 2^32 and whose objects have fewer than 65536 keys", "why_tests_cant": "Infinitely many nested values.", "anchors": ["crates/vertigo/src/driver_module/js_value/js_json_struct.rs: JsJson::{write_to,get_size}, decode_js_json_inner", "crates/vertigo/src/driver_module/js_value/memory_block_write.rs", "crates/vertigo/src/driver_module/js_value/memory_block_read.rs"]}
{"id": "C13", "title": "JsValue binary round trip", "statement": "Decoding the bytes produced by to_snapshot for a JsValue gives back an equal value.", "quantifier": "for every JsValue of any depth within the same length limits", "why_tests_cant": "Infinitely many nested values.", "anchors": ["crates/vertigo/src/driver_module/js_value/js_value_struct.rs: JsValue::{write_to,to_snapshot,from_block}, decode_js_value_inner"]}
{"id": "C14", "title": "Declared size equals written size", "statement": "get_size is exactly the number of bytes written, so serialising a value never overruns or under-fills the block allocated for it and never panics.", "quantifier": "for every JsValue / JsJson value whose encoding fits in u32", "why_tests_cant": "All nested values.", "anchors": ["crates/vertigo/src/driver_module/js_value/js_value_struct.rs: JsValue::{get_size,write_to,to_snapshot}", "crates/vertigo/src/driver_module/js_value/js_json_struct.rs: JsJson::{get_size,write_to}", "crates/vertigo/src/driver_module/js_value/memory_block.rs: MemoryBlock::write"]}
{"id": "C15", "title": "Rust to JavaScript agreement", "statement": "What Rust serialises, the JavaScript decoder reads back as the same value (numbers, strings, lists, objects and embedded JSON), for every JsValue.", "quantifier": "for every JsValue within the length limits", "why_tests_cant": "Two independently written codecs over unbounded data.", "anchors": ["crates/vertigo/src/driver_module/src_js/jsvalue.ts: jsValueDecodeItem", "crates/vertigo/src/driver_module/src_js/jsjson.ts: jsJsonDecodeItem", "crates/vertigo/src/driver_module/js_value/js_value_struct.rs: JsValue::write_to"]}
{"id": "C16", "title": "JavaScript to Rust agreement", "statement": "What the JavaScript encoder writes, the Rust decoder reads back as the same value.", "quantifier": "for every JavaScript JsValueType value within the length limits", "why_tests_cant": "Two independently written codecs over unbounded data.", "anchors": ["crates/vertigo/src/driver_module/src_js/jsvalue.ts: saveToBufferItem", "crates/vertigo/src/driver_module/src_js/jsjson.ts: saveJsJsonToBufferItem", "crates/vertigo/src/driver_module/js_value/js_value_struct.rs: decode_js_value_inner"]}
{"id": "C17", "title": "Decoding arbitrary bytes never panics", "statement": "JsValue::from_block returns Ok or Err for every byte sequence; it never panics.", "quantifier": "for every finite byte sequence", "why_tests_cant": "All byte strings.", "anchors": ["crates/vertigo/src/driver_module/js_value/js_value_struct.rs: JsValue::from_block", "crates/vertigo/src/driver_module/js_value/memory_block_read.rs: MemoryBlockRead"]}
{"id": "C18", "title": "Equal JsJson values hash equally", "statement": "Two JsJson values that compare equal have equal hashes, as the Hash contract demands (JsJson is part of the key under which the server de-duplicates fetches).", "quantifier": "for every pair of equal JsJson values and every HashMap iteration order", "why_tests_cant": "Iteration order is random per map.", "anchors": ["crates/vertigo/src/driver_module/js_value/js_json_struct.rs: PartialEq, Hash for JsJson", "crates/vertigo-cli/src/serve/wasm/message.rs: Hash for FetchRequest"]}
{"id": "C19", "title": "Large objects survive serialisation", "statement": "An object survives encode followed by decode however many keys it has.", "quantifier": "for every object, of any number of keys", "why_tests_cant": "A test would need 65536 keys.", "anchors": ["crates/vertigo/src/driver_module/js_value/js_json_struct.rs: JsJson::write_to (count as u16)", "crates/vertigo/src/driver_module/js_value/js_value_struct.rs: JsValue::write_to"]}
{"id": "C20", "title": "Typed JSON round trip", "statement": "from_json(to_json(x)) is Ok(x) for every value of every type built from the supported primitives, String, Vec, Option, maps, and #[derive(AutoJsJson)] structs, tuples, newtypes and enums.", "quantifier": "for every such type (any nesting) and every value of it", "why_tests_cant": "Types and values are both unbounded.", "anchors": ["crates/vertigo/src/driver_module/js_value/serialize.rs: JsJsonSerialize, JsJsonDeserialize, from_json, to_json", "crates/vertigo-macro/src/jsjson/structs.rs", "crates/vertigo-macro/src/jsjson/enums.rs", "crates/vertigo-macro/src/jsjson/newtypes.rs", "crates/vertigo-macro/src/jsjson/tuple_fields.rs"]}
{"id": "C21", "title": "Integers survive JSON", "statement": "u32, i32, u64 and i64 values survive to_json / from_json unchanged.", "quantifier": "for every value of the integer type", "why_tests_cant": "2^64 values.", "anchors": ["crates/vertigo/src/driver_module/js_value/serialize.rs: impls for u64, i64, u32, i32"]}
{"id": "C22", "title": "Decoding errors are reported, not mangled", "statement": "from_json of a JSON of the wrong shape is an Err whose message names the path; it never panics and never returns Ok with invented data.", "quantifier": "for every JsJson and every supported target type without default attributes", "why_tests_cant": "All shapes of JSON.", "anchors": ["crates/vertigo/src/driver_module/js_value/serialize.rs", "crates/vertigo/src/driver_module/js_value/js_json_struct.rs: JsJson::{get_property,get_hashmap}"]}
{"id": "C23", "title": "Command reordering is invisible", "statement": "Sorting a batch so that removals come last yields the same final DOM as executing the batch in issue order, provided no command refers to a node after its removal, and keeps the relative order of all other commands.", "quantifier": "for every command batch satisfying the proviso, from every DOM state", "why_tests_cant": "All batches.", "anchors": ["crates/vertigo/src/driver_module/dom_command.rs: sort_commands, DriverDomCommand::is_event", "crates/vertigo/src/driver_module/dom.rs: Commands::flush_dom_changes_inner", "crates/vertigo/src/driver_module/src_js/api_browser/dom/dom.ts: dom_bulk_update"]}
{"id": "C24", "title": "Every DOM command is sent exactly once", "statement": "Each command issued is contained in exactly one flushed batch, batches come in issue order, no empty batch is sent, nothing is sent before the initial fetches have finished, and everything pending is sent once they have.", "quantifier": "for every interleaving of add_command, flush, fetch start and fetch stop in which stops never outnumber starts", "why_tests_cant": "All interleavings.", "anchors": ["crates/vertigo/src/driver_module/dom.rs: Commands, StateInitiation", "crates/vertigo/src/driver_module/driver.rs: Driver::new"]}
{"id": "C25", "title": "Server and wasm agree on the command wire format", "statement": "Every DOM command issued by the wasm side, written as JSON and decoded by the server, is decoded to the same command.", "quantifier": "for every DOM command with ids below 2^53", "why_tests_cant": "All commands and payload strings.", "anchors": ["crates/vertigo/src/driver_module/dom_command.rs: DriverDomCommand::into_string", "crates/vertigo-cli/src/serve/html/dom_command.rs: DomCommand::from_json"]}
{"id": "C26", "title": "Server child list behaves like a list", "statement": "The circular linked list the server uses for children behaves like an ordered list without duplicates: insert_before puts the child immediately before the reference (or last), remove deletes it, the enumeration never panics.", "quantifier": "for every sequence of insert_before / remove operations whose reference is a current child different from the inserted one", "why_tests_cant": "All operation sequences.", "anchors": ["crates/vertigo-cli/src/serve/html/element_children.rs: ElementChildren::{insert_before,remove,childs,insert_on_left}"]}
{"id": "C27", "title": "Server-side rendering replays commands like the browser", "statement": "Feeding the same command list to the server and to the browser produces the same tree of elements, attributes and texts.", "quantifier": "for every command list that is executable in the browser without errors", "why_tests_cant": "All command lists.", "anchors": ["crates/vertigo-cli/src/serve/html/element.rs: AllElements::{feed,insert_before,remove,get_response_one_elements}", "crates/vertigo/src/driver_module/src_js/api_browser/dom/dom.ts"]}
{"id": "C28", "title": "Attributes: last write wins, each attribute once", "statement": "After any sequence of attribute assignments each attribute appears exactly once with its last value, ordered by last assignment.", "quantifier": "for every sequence of set calls", "why_tests_cant": "All sequences.", "anchors": ["crates/vertigo-cli/src/serve/html/ordered_map.rs: OrderedMap::{set,get_iter}"]}
{"id": "C29", "title": "Rendered text cannot inject markup", "statement": "In the HTML produced by the server, text nodes, attribute values and comments cannot introduce tags: outside of the tags the renderer itself emits there is no '<' or '>' coming from application data.", "quantifier": "for every element tree and every text/attribute string", "why_tests_cant": "All strings.", "anchors": ["crates/vertigo-cli/src/serve/html/html_element.rs: html_node_to_string, attributes_to_string, get_render_child_mode"]}
{"id": "C30", "title": "Server rendering preserves text", "statement": "The text content of the document sent by the server equals the text content of the DOM (no characters added or removed).", "quantifier": "for every element tree", "why_tests_cant": "All trees.", "anchors": ["crates/vertigo-cli/src/serve/html/html_element.rs: html_node_to_string, HtmlDocument::convert_to_string", "crates/vertigo-cli/src/serve/html/html_response.rs: HtmlResponse::build_response"]}
{"id": "C31", "title": "render_list shows the list", "statement": "After every update of the list the nodes between the parent's other content and the list marker are exactly one node per item in item order; an item whose key survives keeps its node; nodes of vanished items are released.", "quantifier": "for every sequence of list values with pairwise distinct keys in each list, items rendered as plain nodes", "why_tests_cant": "The keyed diff has unboundedly many permutations.", "anchors": ["crates/vertigo/src/render/dom_list.rs: render_list, reorder_nodes, get_pairs_top, get_pairs_middle, get_pairs_bottom, CacheNode"]}
{"id": "C32", "title": "Nested reactive items keep their order", "statement": "A list (or fragment) whose items are themselves reactive (render_value / render_list / fragments) shows its items in order.", "quantifier": "for every list of items, each plain or reactive", "why_tests_cant": "Depends on nesting.", "anchors": ["crates/vertigo/src/render/dom_list.rs: reorder_nodes, get_pairs_middle", "crates/vertigo/src/dom/dom_comment.rs: DomComment::{new_marker,dom_fragment}", "crates/vertigo/src/driver_module/dom.rs: DriverDom::insert_before"]}
{"id": "C33", "title": "render_value shows exactly the current value", "statement": "Between two updates the marker of a reactive value is preceded by exactly the node rendered for the current value (or none for None), the previous node having been removed.", "quantifier": "for every sequence of values", "why_tests_cant": "All sequences.", "anchors": ["crates/vertigo/src/render/dom_value.rs: render_value, render_value_option", "crates/vertigo/src/dom/dom_comment.rs: DomComment::new_marker"]}
{"id": "C34", "title": "One class per distinct style", "statement": "Within each of the static and dynamic style families the same CSS text always gets the same class name, different CSS texts get different class names, and each rule set is inserted into the document exactly once.", "quantifier": "for every sequence of class requests", "why_tests_cant": "All sequences.", "anchors": ["crates/vertigo/src/css/css_manager.rs: CssManager::{get_static,get_dynamic,get_class_name}", "crates/vertigo/src/css/next_id.rs: NextId"]}
{"id": "C35", "title": "CSS splitting loses nothing", "statement": "Splitting a style into rows and each row into key and value loses no declaration: for declarations without braces, quotes of separators or semicolons inside them, the rows are exactly the declarations written, in order.", "quantifier": "for every list of declarations", "why_tests_cant": "All texts.", "anchors": ["crates/vertigo/src/css/transform_css/splits.rs: css_split_rows, css_row_split_to_pair, find_brackets"]}
{"id": "C36", "title": "CSS processing never panics", "statement": "Transforming any CSS text never panics.", "quantifier": "for every string", "why_tests_cant": "All strings.", "anchors": ["crates/vertigo/src/css/transform_css/splits.rs: css_split_rows, find_brackets", "crates/vertigo/src/css/transform_css/mod.rs: transform_css"]}
{"id": "C37", "title": "Class attribute merge", "statement": "The class attribute of an element is always the combination of its css classes, the user supplied class and the suspense class in force; it is removed when all are empty; the DOM is only touched when the combination changes.", "quantifier": "for every sequence of updates of the three sources", "why_tests_cant": "All sequences.", "anchors": ["crates/vertigo/src/dom/dom_element_class.rs: get_new_command, refresh_dom"]}
{"id": "C38", "title": "Suspense layers hide exactly while a descendant is loading", "statement": "The layer callback of a suspense boundary reports loading iff a suspense node is currently mounted below the boundary.", "quantifier": "for every sequence of node insertions, removals and registrations", "why_tests_cant": "All trees and histories.", "anchors": ["crates/vertigo/src/driver_module/dom_suspense/dom_suspense_mod.rs", "crates/vertigo/src/driver_module/dom_suspense/node_paths.rs", "crates/vertigo/src/driver_module/dom_suspense/dom_connection.rs"]}
{"id": "C39", "title": "Callback ids are unique and dispatch correctly", "statement": "Every registered callback gets an id never used before, calling an id runs exactly the callback registered under it while it is registered and nothing after its resource is dropped, and a one-shot callback runs at most once.", "quantifier": "for every sequence of register / call / drop", "why_tests_cant": "All sequences.", "anchors": ["crates/vertigo/src/driver_module/api/callbacks.rs: CallbackStore::{register,register_once,call}"]}
{"id": "C40", "title": "Arguments are handed over once", "statement": "A memory block allocated by JavaScript for an argument is delivered exactly once; a second read of the same pointer and pointer 0 yield Undefined.", "quantifier": "for every sequence of alloc / read", "why_tests_cant": "All sequences.", "anchors": ["crates/vertigo/src/driver_module/api/arguments.rs: Arguments::{alloc,get_by_ptr}"]}
{"id": "C41", "title": "Event emitter delivers to the current listeners", "statement": "Triggering an emitter calls each listener registered and not yet removed exactly once in registration order, and a removed listener is never called again.", "quantifier": "for every sequence of add / remove / trigger, including removals made by listeners during a trigger", "why_tests_cant": "Re-entrancy.", "anchors": ["crates/vertigo/src/driver_module/event_emitter.rs: EventEmitter::{add,trigger}"]}
{"id": "C42", "title": "AutoMap is a memo table", "statement": "For each key the create function runs at most once and get always returns the value created by that run.", "quantifier": "for every sequence of gets", "why_tests_cant": "All sequences.", "anchors": ["crates/vertigo/src/computed/auto_map.rs: AutoMap::get"]}
{"id": "C43", "title": "LazyCache fetches when needed and only once at a time", "statement": "Reading a lazy cache yields the last stored result (or Loading before the first one), starts a request iff the cached result is missing or expired, and never has two requests in flight; after a request ends another can be started.", "quantifier": "for every interleaving of reads, forced updates, forgets, clock advances and request completions (successful or failing)", "why_tests_cant": "All interleavings.", "anchors": ["crates/vertigo/src/fetch/lazy_cache.rs: LazyCache::{get,update,force_update,forget}, ApiResponse::needs_update"]}
{"id": "C44", "title": "Server de-duplicates fetches and answers every callback once", "statement": "During server rendering identical requests are sent once, every requesting callback receives exactly one response, equal to the response of the request, and the page is not sent while a request is outstanding (before the 10 s timeout).", "quantifier": "for every interleaving of requests and responses", "why_tests_cant": "All schedules.", "anchors": ["crates/vertigo-cli/src/serve/html/html_response.rs: HtmlResponse::{process_message,waiting_request}", "crates/vertigo-cli/src/serve/server_state.rs: ServerState::request"]}
{"id": "C45", "title": "A FutureBox hands over its value", "statement": "A value published to a FutureBox is received by the awaiting task exactly once whichever of publish and poll comes first, and the task is woken.", "quantifier": "for every interleaving of poll and publish", "why_tests_cant": "Interleavings.", "anchors": ["crates/vertigo/src/future_box.rs: FutureBox, FutureBoxSend"]}
{"id": "C46", "title": "Response conversion is total and faithful", "statement": "RequestResponse::into decodes the body with the supplied converter exactly when it returns Some for the status, and reports an error otherwise; network failures are reported as errors.", "quantifier": "for every status, body and converter", "why_tests_cant": "All statuses and bodies.", "anchors": ["crates/vertigo/src/fetch/request_builder.rs: RequestResponse::into"]}
{"id": "C47", "title": "API calls are dispatched to the intended handler", "statement": "Every message the wasm side builds for a server-supported API call is recognised by exactly the handler written for it, with its arguments intact; no earlier handler captures it.", "quantifier": "for every API call and every argument value", "why_tests_cant": "All argument values against an ordered chain of matchers.", "anchors": ["crates/vertigo-cli/src/serve/wasm/wasm_instance.rs: WasmInstance::new", "crates/vertigo-cli/src/serve/wasm/decode_commands.rs", "crates/vertigo-cli/src/serve/wasm/js_value_match.rs: Match", "crates/vertigo/src/driver_module/api/api_import.rs"]}
{"id": "C48", "title": "Public paths map to files", "statement": "A public path below the mount point maps to the file with the same relative path under the destination directory, any other path is rejected, and the mount point is the directory part of the wasm path.", "quantifier": "for every path", "why_tests_cant": "All strings.", "anchors": ["crates/vertigo-cli/src/serve/mount_path.rs: replace_prefix, get_base_dir"]}
{"id": "C49", "title": "KEY=value arguments split at the first '='", "statement": "parse_key_val returns the text before the first '=' and everything after it, and fails iff there is no '='.", "quantifier": "for every string", "why_tests_cant": "All strings.", "anchors": ["crates/vertigo-cli/src/commons/parse_key_val.rs: parse_key_val"]}
{"id": "C50", "title": "Watch script injection", "statement": "In watch mode the reload script is added to successful HTML responses only, exactly once, before the end of the body, leaving the rest of the document unchanged.", "quantifier": "for every response body", "why_tests_cant": "All bodies.", "anchors": ["crates/vertigo-cli/src/serve/response_state.rs: ResponseState::add_watch_script"]}
{"id": "C51", "title": "API calls during server rendering do not fail the page", "statement": "Whatever driver functions an application calls while the server renders it, the page is not replaced by an error page because of the call, and each supported function gives the application its documented meaning (the url of the request, the environment variable, false for is_browser, ...).", "quantifier": "for every driver API call with every argument", "why_tests_cant": "All calls and arguments.", "anchors": ["crates/vertigo/src/driver_module/api/api_import.rs", "crates/vertigo/src/driver_module/driver.rs: Driver::{get_random,get_random_from,timezone_offset}", "crates/vertigo-cli/src/serve/wasm/wasm_instance.rs: WasmInstance::new", "crates/vertigo-cli/src/serve/html/html_response.rs: HtmlResponse::process_message"]}
{"id": "C52", "title": "render_list shows the current content of its items", "statement": "After every update each node of a rendered list shows what the render function makes of the item it now stands for.", "quantifier": "for every sequence of list values", "why_tests_cant": "All sequences of lists, with items that change while their key stays.", "anchors": ["crates/vertigo/src/render/dom_list.rs: render_list, get_pairs_middle, CacheNode::get_or_create"]}
{"id": "C53", "title": "Nested rules keep their content", "statement": "A nested rule written in a style, such as :hover { ... }, reaches the document under its selector with exactly the text between its braces.", "quantifier": "for every selector, every body with matching braces and every place in the style", "why_tests_cant": "All texts, including letters outside ASCII.", "anchors": ["crates/vertigo/src/css/transform_css/splits.rs: find_brackets, css_split_rows", "crates/vertigo/src/css/transform_css/mod.rs: transform_css_selector_value"]}
{"id": "C54", "title": "A media query overrides the plain declaration before it", "statement": "While its query holds, a declaration inside a media query of a style takes precedence over a plain declaration of the same property written before it.", "quantifier": "for every style", "why_tests_cant": "The order in which rules reach the document, for all styles.", "anchors": ["crates/vertigo/src/css/transform_css/mod.rs: transform_css", "crates/vertigo/src/driver_module/src_js/api_browser/dom/dom.ts: insert_css"]}
{"id": "C55", "title": "A dropped element leaves no suspense callback behind", "statement": "When an element that set the suspense attribute is dropped, the driver no longer holds the callback it registered, so that creating and dropping elements does not accumulate state.", "quantifier": "for every sequence of creations, attribute calls and drops", "why_tests_cant": "Reference cycles are invisible to tests of behaviour; all lifetimes.", "anchors": ["crates/vertigo/src/dom/dom_element_class.rs: DomElementClassMerge::set_suspense_attr", "crates/vertigo/src/driver_module/dom_suspense/dom_suspense_mod.rs: DomSuspense::set_layer_callback", "crates/vertigo/src/dom/dom_element.rs: Drop for DomElement"]}
{"id": "C56", "title": "A subscription owns what its callback returned", "statement": "What the callback of a subscription returns (for instance further subscriptions) is kept until the callback has run again or the subscription is dropped, and is dropped then, not earlier.", "quantifier": "for every application and every sequence of operations", "why_tests_cant": "All histories, including callbacks that subscribe, set values or drop subscriptions.", "anchors": ["crates/vertigo/src/computed/computed_box.rs: Computed::subscribe, Computed::subscribe_all", "crates/vertigo/src/computed/graph_value.rs: GraphValue::refresh, Drop for GraphValue", "crates/vertigo/src/computed/struct_mut/value_mut.rs: ValueMut::change"]}
{"id": "C57", "title": "Values read from JavaScript arrive in Rust", "statement": "A chain root/get/set/call ... fetch of the DomAccess builder performs the corresponding JavaScript expression with arguments equal to the Rust values given, and returns the value of that expression (numbers, strings, booleans, bigints, byte arrays, plain arrays and objects).", "quantifier": "for every page, every chain of steps, every argument and every value read", "why_tests_cant": "All JavaScript values and all engines; the encoding passes through two languages.", "anchors": ["crates/vertigo/src/driver_module/api/api_dom_access.rs: DomAccess", "crates/vertigo/src/driver_module/src_js/js_node.ts: JsNode", "crates/vertigo/src/driver_module/src_js/jsvalue.ts: convertFromJsValue, convertToJsValue, convertToJsJson", "crates/vertigo/src/driver_module/src_js/wasm_module.ts", "crates/vertigo/src/driver_module/api/arguments.rs: Arguments::get_by_ptr"]}
{"id": "C58", "title": "An element reference reaches its element", "statement": "Reading a property or calling a method through a DomElementRef acts on the node that the page shows for that element.", "quantifier": "for every element, every page and every chain of steps", "why_tests_cant": "All ids and pages; the id crosses the language boundary.", "anchors": ["crates/vertigo/src/driver_module/api/api_dom_access.rs: DomAccess::element", "crates/vertigo/src/dom/dom_element_ref.rs: DomElementRef", "crates/vertigo/src/driver_module/src_js/js_node.ts: JsNode::nextRoot", "crates/vertigo/src/driver_module/src_js/guard.ts: isNumber"]}
{"id": "C59", "title": "A page rendered by the server is taken over cleanly", "statement": "After the first update in the browser the head and the body of the document hold exactly what the application's commands build on an empty page: nothing of what the server rendered is left beside it, and later updates remove nothing but what the application removes.", "quantifier": "for every content sent by the server and every sequence of commands, also when some of them throw", "why_tests_cant": "All server pages together with all command sequences.", "anchors": ["crates/vertigo/src/driver_module/src_js/api_browser/dom/dom.ts: DriverDom.get_to_clear, DriverDom.dom_bulk_update", "crates/vertigo/src/driver_module/src_js/api_browser/dom/map_nodes.ts"]}
{"id": "C60", "title": "Event handlers run once with what happened", "statement": "When an event of the kind a handler was registered for reaches the element, the handler runs exactly once with the data of that event (the text of the field, the pressed key with its modifiers, the dropped files with name and content), the default action is prevented exactly where the handler (or the kind of event) says so, and no other handler function is given the data of this event.", "quantifier": "for every kind of handler and every event", "why_tests_cant": "All events: texts, keys, files and targets; the data crosses the language boundary and is decoded twice.", "anchors": ["crates/vertigo/src/driver_module/src_js/api_browser/dom/dom.ts: DriverDom.callback_add, callback_click ...", "crates/vertigo/src/dom/dom_element.rs: DomElement::on_click ... on_load", "crates/vertigo/src/dom/dom_element.rs: get_key_down_event", "crates/vertigo/src/driver_module/api/callbacks.rs: CallbackStore::call"]}
{"id": "C61", "title": "Listeners live exactly as long as their element", "statement": "After the commands of an application reached the page, the listeners of the page are those of elements that still exist: an element that was dropped has no listener on the page or the document, no entry in the page's table of callbacks and none in the store of callbacks in Rust, and an element that exists has all of its listeners.", "quantifier": "for every sequence of creations, registrations and drops, and every way to cut the commands into batches", "why_tests_cant": "All histories and all batches, including commands that throw.", "anchors": ["crates/vertigo/src/dom/dom_element.rs: DomElement::add_event_listener, Drop for DomElement", "crates/vertigo/src/driver_module/api/callbacks.rs: CallbackStore::register", "crates/vertigo/src/driver_module/src_js/api_browser/dom/dom.ts: DriverDom.callback_add, DriverDom.callback_remove", "crates/vertigo/src/driver_module/dom_command.rs: sort_commands"]}
{"id": "C62", "title": "A cookie that was set is read until it expires", "statement": "After cookie_set(name, value, expires_in), cookie_get(name) returns the value until expires_in seconds have passed, also after the browser was closed and opened, and the empty string afterwards; the other cookies are not affected.", "quantifier": "for every name, value, expiry, time and set of cookies", "why_tests_cant": "All texts and times; the value is percent-encoded, put into the syntax of document.cookie and parsed back.", "anchors": ["crates/vertigo/src/driver_module/api/api_import.rs: ApiImport::{cookie_get,cookie_set}", "crates/vertigo/src/driver_module/src_js/api_browser/cookies.ts: CookiesType"]}
{"id": "C63", "title": "Cookies set by the server are read", "statement": "cookie_get(name) returns the value of the cookie of this name that the browser holds, percent-decoded, whoever set it.", "quantifier": "for every set of cookies and every value allowed in cookies", "why_tests_cant": "All values another program may write.", "anchors": ["crates/vertigo/src/driver_module/api/api_import.rs: ApiImport::cookie_get", "crates/vertigo/src/driver_module/src_js/api_browser/cookies.ts: CookiesType.get"]}
{"id": "C64", "title": "Cookies of the application are sent to its own site only", "statement": "A cookie set by cookie_set or cookie_set_json has SameSite=Strict, as the code asks for.", "quantifier": "for every cookie that is set", "why_tests_cant": "The attribute is invisible to the page; all cookies.", "anchors": ["crates/vertigo/src/driver_module/src_js/api_browser/cookies.ts: CookiesType.set"]}
{"id": "C65", "title": "JSON kept in a cookie is read back", "statement": "cookie_get_json(name) returns the JSON value given to cookie_set_json(name, value, expires_in) while the cookie lives.", "quantifier": "for every JSON value that fits into a cookie", "why_tests_cant": "All JSON values, through two encoders and two decoders.", "anchors": ["crates/vertigo/src/driver_module/api/api_import.rs: ApiImport::{cookie_get_json,cookie_set_json}", "crates/vertigo/src/driver_module/src_js/api_browser/cookies.ts: CookiesType.get_json, CookiesType.set_json"]}
{"id": "C66", "title": "The route is that of the location", "statement": "A router's value is the route that the address of the page stands for, whenever the browser has delivered its events, and its dependents are told of changes only.", "quantifier": "for every sequence of navigations, pushes, events, subscriptions and unsubscriptions", "why_tests_cant": "All interleavings of the user, the browser and the application.", "anchors": ["crates/vertigo/src/router.rs: Router::new", "crates/vertigo/src/driver_module/src_js/api_browser/hashrouter.ts", "crates/vertigo/src/driver_module/src_js/api_browser/historyLocation.ts", "crates/vertigo/src/driver_module/api/api_import.rs: ApiImport::{on_hash_change,on_history_change}"]}
{"id": "C67", "title": "Setting a route", "statement": "After set(route) the address of the page stands for the route and an observed router has it as its value.", "quantifier": "for every route whose text converts back to it", "why_tests_cant": "All texts: the address is percent-encoded by the browser and decoded by the code.", "anchors": ["crates/vertigo/src/router.rs: Router::set", "crates/vertigo/src/driver_module/src_js/api_browser/hashrouter.ts: HashRouter.push", "crates/vertigo/src/driver_module/src_js/api_browser/historyLocation.ts: HistoryLocation.push"]}
{"id": "C68", "title": "Links", "statement": "A click on a link to a page of the site changes the location without loading a page and the routers follow; links to anything else are left to the browser.", "quantifier": "for every href", "why_tests_cant": "All texts of href.", "anchors": ["crates/vertigo/src/driver_module/src_js/api_browser/dom/dom.ts: DriverDom.create_node", "crates/vertigo/src/driver_module/src_js/api_browser/historyLocation.ts: HistoryLocation.push"]}
{"id": "C69", "title": "Websocket messages arrive once and in order", "statement": "The callback of a websocket is handed Connection when a connection opens, each text that arrives on it once and in order, and Close when it ends, for one connection after the other; nothing is left out while the page is idle, and nothing comes after the resource is dropped.", "quantifier": "for every application, every number of websockets, and every sequence of openings, texts, failures, timeouts, sends and drops", "why_tests_cant": "All interleavings of the browser's events, timers, microtasks and callbacks that themselves open, send and drop.", "anchors": ["crates/vertigo/src/driver_module/api/api_import.rs: ApiImport::websocket", "crates/vertigo/src/websocket.rs: WebsocketMessage", "crates/vertigo/src/driver_module/src_js/api_browser/websocket/connection.ts: SocketConnection.startSocket, SocketConnection.connect", "crates/vertigo/src/driver_module/src_js/api_browser/websocket/websocket.ts: DriverWebsocket.websocket_register_callback"]}
{"id": "C70", "title": "Texts sent on a websocket leave on its connection", "statement": "While the callback has been told of a connection and not of its end, send hands the text to the socket of that connection, once, and to no other; otherwise nothing is sent; send never throws.", "quantifier": "for every application and every sequence of events", "why_tests_cant": "All moments at which an application may call send, including inside callbacks and while the connection is closing.", "anchors": ["crates/vertigo/src/websocket.rs: WebsocketConnection::send", "crates/vertigo/src/driver_module/src_js/api_browser/websocket/websocket.ts: DriverWebsocket.websocket_send_message", "crates/vertigo/src/driver_module/src_js/api_browser/websocket/connection.ts: SocketConnection.connect"]}
{"id": "C71", "title": "Dropping a websocket closes its connection", "statement": "After the resource returned by websocket is dropped, no connection is begun and every connection of it is closed.", "quantifier": "for every moment of the drop and everything that happens later", "why_tests_cant": "All moments, including while the connection is being made, and all later events.", "anchors": ["crates/vertigo/src/driver_module/api/api_import.rs: ApiImport::websocket", "crates/vertigo/src/driver_module/src_js/api_browser/websocket/websocket.ts: DriverWebsocket.websocket_unregister_callback", "crates/vertigo/src/driver_module/src_js/api_browser/websocket/connection.ts: SocketConnection.startSocket"]}
{"id": "C72", "title": "Websockets reconnect", "statement": "While the resource is kept, whatever happened, a new connection to the address asked for is begun after the current one failed or ended; there never are two at a time; an application is told if its address is not usable.", "quantifier": "for every history of connections, failures and timeouts", "why_tests_cant": "Unbounded histories; liveness of a loop over promises and timers.", "anchors": ["crates/vertigo/src/driver_module/src_js/api_browser/websocket/connection.ts: SocketConnection.startSocket, SocketConnection.connect", "crates/vertigo/src/driver_module/src_js/api_browser/websocket/promise.ts: PromiseBoxRace"]}
{"id": "C73", "title": "Requests are the same from the browser and from the server", "statement": "A request made by RequestBuilder leaves the browser, and leaves the server that renders the page, with the same method, address, headers and body: those the application asked for, and a content type that fits the body if none was given.", "quantifier": "for every method, address, set of headers and body", "why_tests_cant": "All texts and bodies; two independent implementations in two languages, one of which cannot be run beside the other.", "anchors": ["crates/vertigo/src/driver_module/src_js/api_browser/fetch.ts: getHeadersAndBody, Fetch.fetch_send_request", "crates/vertigo-cli/src/serve/html/send_request.rs: get_headers_and_body, send_request_inner", "crates/vertigo/src/fetch/request_builder.rs: RequestBuilder"]}
{"id": "C74", "title": "Responses are the same in the browser and on the server", "statement": "For the same response of a service the application is told the same status and the same body (JSON, text or bytes, by the content type), or a failure, in the browser and on the server.", "quantifier": "for every status, content type and sequence of bytes", "why_tests_cant": "All bytes a service may answer, through two JSON readers and two text decoders.", "anchors": ["crates/vertigo/src/driver_module/src_js/api_browser/fetch.ts: getTypeResponse, catchError, Fetch.fetch_send_request", "crates/vertigo-cli/src/serve/html/send_request.rs: get_response_type, send_request_inner"]}
{"id": "C75", "title": "Every request is answered once", "statement": "For every request the application makes, its future is completed exactly once: with the response, or with an error.", "quantifier": "for every request and every behaviour of the network", "why_tests_cant": "All requests, including those the platform rejects before they leave.", "anchors": ["crates/vertigo/src/driver_module/src_js/api_browser/fetch.ts: Fetch.fetch_send_request", "crates/vertigo-cli/src/serve/html/send_request.rs: send_request", "crates/vertigo-cli/src/serve/html/html_response.rs: HtmlResponse::process_message"]}
{"id": "C76", "title": "JSON texts are read as the value that was written", "statement": "A JsJson value written as text by the browser or by the server is read, by the browser and by the server, as that value.", "quantifier": "for every JSON value", "why_tests_cant": "All values and texts: strings with escapes, surrogates and any nesting; two writers and two readers.", "anchors": ["crates/vertigo/src/driver_module/js_value/js_json_struct.rs: JsJson", "crates/vertigo/src/driver_module/src_js/api_browser/fetch.ts: getHeadersAndBody, catchError", "crates/vertigo-cli/src/serve/html/send_request.rs: convert_to_jsvalue, convert_to_jsjson"]}
{"id": "C77", "title": "Timers are called when their time has come", "statement": "In the browser the function given to set_interval, or to a timeout, is called no earlier than its duration after it was set or called last, a timeout once at most, and never after its resource was dropped; when the page is idle, every function whose time has come was called; what was dropped or has been called for the last time is released.", "quantifier": "for every application, every set of timers, every duration and every interleaving of time, timers and drops, also in callbacks", "why_tests_cant": "Time and all interleavings; callbacks that set and drop timers, including their own.", "anchors": ["crates/vertigo/src/driver_module/api/api_import.rs: ApiImport::interval_set, ApiImport::timeout_set, ApiImport::set_timeout_and_detach", "crates/vertigo/src/driver_module/src_js/api_browser/interval.ts: Interval", "crates/vertigo/src/driver_module/driver.rs: Driver::set_interval, Driver::sleep"]}
{"id": "C78", "title": "Spawned futures are polled when woken", "statement": "A future given to spawn, in the browser and on the server, is polled after it was spawned and after each time its waker was called, until it is done and never after; polls do not overlap, and none happens inside of spawn or of the waker.", "quantifier": "for every application and every interleaving", "why_tests_cant": "All interleavings of wakers, polls and timers, with wakers called inside polls and after the end.", "anchors": ["crates/vertigo/src/driver_module/utils/futures_spawn.rs: spawn_local, Task::spawn, Task::wake_by_ref, Task::run", "crates/vertigo/src/driver_module/api/api_import.rs: ApiImport::set_timeout_and_detach"]}
{"id": "C79", "title": "Timers while the server renders", "statement": "While the server renders a page, timeouts of zero are called once each, in the order in which they were set, before the page is taken for settled; other timers behave as in the browser.", "quantifier": "for every application and every sequence of timers and drops", "why_tests_cant": "All interleavings; the second platform of the same program.", "anchors": ["crates/vertigo-cli/src/serve/wasm/decode_commands.rs: match_decode", "crates/vertigo-cli/src/serve/wasm/wasm_instance.rs", "crates/vertigo-cli/src/serve/html/html_response.rs: HtmlResponse::process_message", "crates/vertigo/src/driver_module/api/api_import.rs: ApiImport::timeout_set"]}
{"id": "C80", "title": "Attributes, texts and handlers follow the values they are bound to", "statement": "When a transaction is over and its commands were sent, every attribute and text of every node shows what it was given or is bound to, computed from the current values; an event calls the functions its handlers are bound to; what was dropped is gone, and no command fails in the browser.", "quantifier": "for every sequence of nodes made and dropped and of changes of values, also while a transaction is refreshing its subscriptions, and however the commands are batched", "why_tests_cant": "All interleavings; names that are given twice; attributes that come and go.", "anchors": ["crates/vertigo/src/dom/attr_value.rs: AttrValue", "crates/vertigo/src/dom/dom_element.rs: DomElement::add_attr", "crates/vertigo/src/dom/dom_element_class.rs: DomElementClassMerge", "crates/vertigo/src/dom/dom_text.rs: DomText::new_computed", "crates/vertigo/src/dom/callback.rs: Callback, Callback1"]}
{"id": "C81", "title": "Text fields show the text they are bound to", "statement": "An input or textarea shows the text its value attribute is bound to, whatever the user types and the application sets, in the browser and in the page the server sends.", "quantifier": "for every application, every handler and every sequence of edits and changes", "why_tests_cant": "All interleavings of edits and changes; the control has a state of its own that the code never reads back.", "anchors": ["crates/vertigo/src/driver_module/src_js/api_browser/dom/dom.ts: DriverDom.set_attribute, DriverDom.remove_attribute, DriverDom.callback_input, DriverDom.callback_change", "crates/vertigo/src/dom/dom_element.rs: DomElement::add_attr, DomElement::on_input, DomElement::on_change"]}
{"id": "C82", "title": "Check boxes show the value they are bound to", "statement": "A check box whose checked attribute is bound to a value is checked exactly when the value says so; clicking it inverts the two together, and its handler is told which.", "quantifier": "for every application and every sequence of clicks and changes", "why_tests_cant": "All interleavings of clicks and changes; the mark has a state of its own in the browser.", "anchors": ["crates/vertigo/src/driver_module/src_js/api_browser/dom/dom.ts: DriverDom.set_attribute, DriverDom.remove_attribute, DriverDom.callback_click, DriverDom.callback_change", "crates/vertigo/src/dom/dom_element.rs: DomElement::add_attr, DomElement::on_click, DomElement::on_change"]}
{"id": "C83", "title": "Drop-down lists show the value they are bound to", "statement": "A list whose options have a selected attribute bound to whether the value is theirs shows the option of the value, and picking an option sets the value.", "quantifier": "for every list of options and every sequence of picks and changes", "why_tests_cant": "All sequences of picks and changes; the options have states of their own in the browser.", "anchors": ["demo/app/src/app/todo/select.rs: Select::mount, is_selected", "crates/vertigo/src/driver_module/src_js/api_browser/dom/dom.ts: DriverDom.set_attribute, DriverDom.remove_attribute, DriverDom.callback_change"]}
{"id": "C84", "title": "New content, new name", "statement": "A static file is saved under a name that tells its original name, and that changes whenever its content changes.", "quantifier": "for every file name and every two contents", "why_tests_cant": "All contents; a hash collision is not found by trying.", "anchors": ["crates/vertigo-cli/src/build/wasm_path.rs: WasmPath::save_with_hash, get_hash", "crates/vertigo-macro/src/wasm_path.rs: WasmPath::save_with_hash, get_hash"]}
{"id": "C85", "title": "Included files are served", "statement": "After a build, the address that include_static! stands for, and those of the script and of the program in index.json, are answered with the content of the file that was built, and nothing else is served.", "quantifier": "for every project, every history of builds before it, and every file of it", "why_tests_cant": "All names and contents, and all histories: the directory of the macro is not cleaned between builds.", "anchors": ["crates/vertigo-macro/src/include_static.rs: bundle_file", "crates/vertigo-cli/src/build/build_run.rs: run_with_ws", "crates/vertigo-cli/src/build/build_opts.rs: BuildOpts::public_path_to", "crates/vertigo-cli/src/serve/serve_run.rs: run", "crates/vertigo-cli/src/serve/mount_path.rs: get_base_dir"]}
{"id": "C86", "title": "Caching for a day is safe", "statement": "Static files may be cached for a day; still a page gets the files of its own build, whatever was built and requested before.", "quantifier": "for every sequence of builds, requests and waiting", "why_tests_cant": "All histories of builds and caches.", "anchors": ["crates/vertigo-cli/src/serve/serve_run.rs: set_cache_header, run", "crates/vertigo-cli/src/build/build_run.rs: run_with_ws"]}
{"id": "C87", "title": "Watch ends at the newest sources", "statement": "Under `vertigo watch`, once everything has come to rest after any changes, the newest sources have been built; if they compile, the status sent to pages is the last version and the server makes pages of the newest sources, and if they do not, the status is Errors.", "quantifier": "for every sequence of changes and every interleaving of the tasks", "why_tests_cant": "All interleavings of changes with builds that cannot be interrupted.", "anchors": ["crates/vertigo-cli/src/watch/watch_run.rs: run, build_and_watch, Status", "crates/vertigo-cli/src/commons/spawn.rs: SpawnOwner", "crates/vertigo-cli/src/serve/serve_run.rs: run", "crates/vertigo-cli/src/build/build_run.rs: run_with_ws"]}
{"id": "C88", "title": "Watched pages follow", "statement": "Under `vertigo watch`, once everything has come to rest, every open page shows the newest sources with nothing over it, or, if they do not compile, the message that says so.", "quantifier": "for every sequence of changes, every moment at which pages are opened, connected and told, and all options", "why_tests_cant": "All interleavings of builds, messages and loading.", "anchors": ["crates/vertigo-cli/src/watch/sse.rs: handler_sse, MyStream", "crates/vertigo-cli/src/serve/watch.js: start_watch, processMessage", "crates/vertigo-cli/src/watch/watch_run.rs: run, build_and_watch", "crates/vertigo-cli/src/serve/response_state.rs: ResponseState", "crates/vertigo-cli/src/watch/is_http_server_listening.rs: is_http_server_listening"]}
{"id": "C89", "title": "The debug fragment is the document", "statement": "`DomDebugFragment::from_log` recreates, from the commands sent to the browser, the same nodes with the same attributes, callbacks and order that the browser has, and `to_pseudo_html` gives the text of the tree that is mounted.", "quantifier": "for every sequence of commands the browser carries out", "why_tests_cant": "All sequences of commands, compared with what another program does with them.", "anchors": ["crates/vertigo/src/inspect.rs: DomDebugFragment, DomDebugNode, from_cmds, from_log, to_pseudo_html", "crates/vertigo/src/dom/dom_id.rs: DomId"]}
{"id": "C90", "title": "The css! macro gives the rules that were written", "statement": "The text of a `css!` block is what was written between its braces: the declarations and nested rules in order, comments left out, every `{expression}` replaced by its value, every `[class]` by the selector of that class, and the `Css` is dynamic exactly if there is one of these.", "quantifier": "for every block, all expressions, values and class names", "why_tests_cant": "A macro is tested on a few blocks; here all blocks, nested to any depth, and all values of their expressions.", "anchors": ["crates/vertigo-macro/src/css_parser.rs: CssParser, ParamsEnumerator, generate_css_string, parse_stream", "crates/vertigo-macro/src/css.pest: css_block, rule, value, sub_rule", "crates/vertigo-macro/src/lib.rs: css, css_block"]}
{"id": "C91", "title": "The dom! macro gives the nodes that were written", "statement": "What is written in `dom!` comes to be in the document: when the node it makes is put into an element, that element gets, after the children it had, exactly the nodes written - names, texts, the value of every attribute (the class together with the style and the suspense class), the handlers of events in their order, the children in their order, the nodes of blocks, of `..spread`s and of components - and nothing else on the page changes. `dom!` refuses exactly the trees that have something unsupported.", "quantifier": "for every tree of tags, all values of the expressions in it, every page", "why_tests_cant": "Macros are tested on a few trees; here all trees, all values of their expressions, and the page they are added to.", "anchors": ["crates/vertigo-macro/src/html_parser.rs: dom_inner, convert_node, convert_to_component, strip_brackets, check_ident, extract_value", "crates/vertigo/src/dom/dom_element.rs: DomElement", "crates/vertigo/src/dom/dom_element_class.rs: DomElementClassMerge", "crates/vertigo/src/dom/dom_comment.rs: DomComment", "crates/vertigo/src/dom/dom_text.rs: DomText", "crates/vertigo/src/dom/dom_id.rs: DomId", "crates/vertigo/src/render/dom_value.rs: render_value_option", "crates/vertigo/src/render/dom_list.rs: render_list", "crates/vertigo/src/dom_macro/dom.rs: EmbedDom"]}
{"id": "C92", "title": "The document follows the values", "statement": "Whatever the order in which values change and subscriptions are called, the browser can execute every command sent to it, in the sorted batches they are sent in; nothing of the page outside the application changes; no node is left behind; and whenever no subscription has anything left to do, the document shows exactly what the template says for the current values: texts, attributes, optional content and lists in their order, nested in any way. After each change the subscriptions come to rest after at most as many effective calls as there are subscriptions, and it is enough to call once, in any order, each of those that have something to do when the values change.", "quantifier": "for every template, every page, every history of changes and calls, every order of the calls, every division into batches", "why_tests_cant": "A test tries one component and a few changes; here nested values and lists, whose subscriptions come and go while others are called, in every order.", "anchors": ["crates/vertigo/src/render/dom_value.rs: render_value_option", "crates/vertigo/src/render/dom_list.rs: render_list, reorder_nodes, get_pairs_top", "crates/vertigo/src/dom/dom_comment.rs: DomComment", "crates/vertigo/src/dom/dom_element.rs: DomElement", "crates/vertigo/src/dom/dom_text.rs: DomText", "crates/vertigo/src/computed/computed_box.rs: Computed", "crates/vertigo/src/driver_module/dom.rs: DriverDom", "crates/vertigo/src/driver_module/dom_command.rs: sort_commands"]}
{"id": "C93", "title": "A setting is the same on the server and in the browser", "statement": "The application is given for a name the value of the last --env name=value of that name, or nothing when there is none; a value may contain any characters, '=' too. In the browser it is given the same as on the server.", "quantifier": "for every list of settings, every order in which the map of settings is walked, every document, every name", "why_tests_cant": "A test tries a few names and values; the browser reads the settings back from attributes of the html tag, through escaping, duplicate names and lower-casing.", "anchors": ["crates/vertigo-cli/src/commons/parse_key_val.rs: parse_key_val", "crates/vertigo-cli/src/serve/server_state.rs: ServerState", "crates/vertigo-cli/src/serve/request_state.rs: RequestState, env", "crates/vertigo-cli/src/serve/wasm/wasm_instance.rs: WasmInstance", "crates/vertigo-cli/src/serve/html/html_response.rs: HtmlResponse", "crates/vertigo/src/driver_module/src_js/api_browser.ts: get_env", "crates/vertigo/src/driver_module/api/api_import.rs: get_env"]}
{"id": "C94", "title": "bind! gives a closure its own copies", "statement": "In bind!(a, b.c, |x| body) the closure is the one written; in it a and c stand for copies of a and b.c as they are where bind! is written, every other name for what it stands for there; of the surroundings the closure takes nothing that is listed. In what bind_spawn! spawns the names stand for copies, too. bind_rc! makes the same closure with the parameter types that were written. What cannot be bound is refused.", "quantifier": "for every list of places, parameters, body, surroundings, kind of values and way of copying", "why_tests_cant": "A test compiles a few closures; which tokens belong to the list, the parameters or the body, and what shadows what, depends on all of them.", "anchors": ["crates/vertigo-macro/src/bind.rs: bind_inner, bind_spawn_inner, bind_rc_inner, find_param_name, split_params_and_body, split_params_and_body_function, split_params_and_body_block, get_type"]}
{"id": "C95", "title": "Proxied requests reach the target", "statement": "With --proxy /path=target, a request for /path or below it (and below no longer path of a proxy) is sent once to the target, with its method, headers and body, the rest of its path and its query appended to the URL of the target; the answer comes back as it is, and that there is none is told with status 500. Other requests are not sent anywhere.", "quantifier": "for every list of proxies, every request (path, query, headers, body), every target", "why_tests_cant": "A test tries one proxy with a few requests; what is lost on the way depends on the path, the headers and the text of the body.", "anchors": ["crates/vertigo-cli/src/serve/serve_run.rs: run, get_response, post_response, install_proxy", "crates/vertigo-cli/src/serve/serve_opts.rs: ServeOptsInner"]}
{"id": "C96", "title": "Log records are shown as written", "statement": "A record written with the log macros is shown once in the console of the browser, by the function meant for its level, as its level, its place and its message letter by letter, whatever percent signs the message contains; while rendering on the server it is a line of the server's log with the same level and message.", "quantifier": "for every record (level, place, message) and every behaviour of the console that the Console Standard leaves open", "why_tests_cant": "The message is part of the format string of the console, so what is shown depends on the characters of the message; tests do not look at consoles.", "anchors": ["crates/vertigo/src/driver_module/init_env.rs: WasmLogger, Style, init_logger", "crates/vertigo/src/driver_module/api/api_import.rs: console_4, ConsoleLogLevel", "crates/vertigo-cli/src/serve/wasm/wasm_instance.rs: WasmInstance", "crates/vertigo-cli/src/serve/wasm/decode_commands.rs: match_log"]}
{"id": "C97", "title": "Instants tell the time that has passed", "statement": "Instant::now is the time on the clock; elapsed gives the time that has passed since, seconds_elapsed the whole seconds, and an instant moved by a duration has expired exactly when more than the duration has passed.", "quantifier": "for every two readings of the clock, every duration, in a browser and on the server, with and without overflow checks", "why_tests_cant": "A test reads the clock twice within a moment; clocks that are set back, unset clocks and the arithmetic of the build are not under its control.", "anchors": ["crates/vertigo/src/instant.rs: Instant", "crates/vertigo/src/driver_module/api/api_import.rs: instant_now, utc_now", "crates/vertigo-cli/src/serve/wasm/decode_commands.rs: match_date_now"]}
{"id": "C98", "title": "Dates and times survive the way through JSON", "statement": "With the feature chrono, a DateTime<Utc> or NaiveDate written with to_json is read by from_json as the same instant or day; a text of another program with the offset of its zone is read as the instant it tells; nothing that is not a date of the calendar is accepted.", "quantifier": "for every date and every instant chrono can hold, every text and every JSON value", "why_tests_cant": "A test writes a handful of dates; leap years, signs of years, fractions of seconds and offsets that cross a day, a month or a year need all of them.", "anchors": ["crates/vertigo/src/driver_module/js_value/serialize_chrono.rs: NAIVE_DATE_FORMAT"]}
{"id": "C99", "title": "window! and document! reach what they name", "statement": "window!(\"name()\", args\u2026) calls the method of that name of the window with the JavaScript values its arguments stand for (numbers as numbers, texts as strings, pairs as objects) and gives what it returned; window!(\"name\") gives the property; likewise document!. Arguments to a property are a compile error, and on the server nothing happens.", "quantifier": "for every literal, every name, every list of arguments, and every page", "why_tests_cant": "The macro works on the source text of its literal and the call leaves the program; the test of the repository only checks that one use compiles.", "anchors": ["crates/vertigo-macro/src/api_access.rs: api_access_inner", "crates/vertigo-macro/src/lib.rs: window, document", "crates/vertigo/src/driver_module/js_value/js_value_struct.rs: JsValue"]}
{"id": "C100", "title": "Values cross the memory between program and host unchanged", "statement": "A value the program hands to its host through its memory, and a value the host hands to it, arrives as it was sent, whatever is allocated, written and dropped elsewhere in the memory meanwhile, wherever the block lies; nothing else in the memory is changed. Bytes handed to a page stay what they are for as long as the page keeps them, and can be handed back.", "quantifier": "for every value, every memory, every behaviour of the allocator, and everything that happens in the memory between sending and receiving", "why_tests_cant": "Where blocks lie and when the memory grows depends on everything the program did before; tests run with small young memories.", "anchors": ["crates/vertigo-cli/src/serve/wasm/data_context.rs: DataContext", "crates/vertigo/src/driver_module/src_js/wasm_init.ts: wasmInit", "crates/vertigo/src/driver_module/src_js/buffer_cursor.ts: BufferCursor", "crates/vertigo/src/driver_module/src_js/jsvalue.ts: saveToBuffer", "crates/vertigo/src/driver_module/js_value/memory_block.rs: MemoryBlock", "crates/vertigo/src/driver_module/api/arguments.rs: Arguments"]}
{"id": "C101", "title": "A component shows what its function gives", "statement": "Using a component in dom! shows what the function it was written as gives for the attributes: name={value} is that parameter converted, name={&value} a copy, name={} the default, in whatever order they are written. A component can be used wherever its function could be called, and with every kind of parameter a function can have. Missing, unknown and repeated attributes do not compile.", "quantifier": "for every function, every choice and order of attributes, and every module", "why_tests_cant": "The macro turns a function into a structure at compile time; tests compile a few uses and cannot cover all declarations and orders.", "anchors": ["crates/vertigo-macro/src/component.rs: component_inner", "crates/vertigo-macro/src/html_parser.rs: convert_to_component", "crates/vertigo-macro/src/lib.rs: component"]}
{"id": "C102", "title": "vertigo build takes the program it has built", "statement": "Without a name, vertigo build builds the first package of the workspace that is a cdylib, and says so if there is none. When the build is over, the destination holds the program of that package as it was just compiled, under its hashed name; when it failed, the destination is as it was. Files outside of the destination and the directory of targets are never touched.", "quantifier": "for every workspace, package, current directory, target directory and state of the disk", "why_tests_cant": "Depends on what cargo is told and where it puts its output; tests run in one layout of one workspace.", "anchors": ["crates/vertigo-cli/src/build/cargo_workspace.rs: Workspace", "crates/vertigo-cli/src/build/build_run.rs: run_with_ws", "crates/vertigo-cli/src/build/cargo_build.rs: run_cargo_build", "crates/vertigo-cli/src/build/find_target.rs: find_wasm_in_target"]}
{"id": "C103", "title": "vertigo new makes a project of the given name", "statement": "vertigo new puts a project into the directory of the name, if there is nothing: a manifest with that name which asks for a cdylib, the source, a .gitignore, and nothing else; everything else on the disk stays as it was. If there is something in the way, it reports an error and changes nothing. vertigo build in the new project builds its program. Every name it accepts makes such a project.", "quantifier": "for every state of the disk, destination and name", "why_tests_cant": "Tests create a few projects in empty directories; the names and what is on the disk are unbounded.", "anchors": ["crates/vertigo-cli/src/new/mod.rs: run, TEMPLATE"]}
{"id": "C104", "title": "Texts instead of pages, and panics, while a page is rendered on the server", "statement": "If the function given to plains returns a text for the URL of a request, the answer is that text with status 200, whatever timeouts, requests and callbacks the application has started; readers see the text as the application wrote it. If it returns nothing, the answer is the page or an error, never a text with status 200. If the application panics while the page is rendered, the answer has status 500 and the message of the panic.", "quantifier": "for every application, URL, handler, order of network responses, timer and place of a panic", "why_tests_cant": "The order of messages, responses and the timer, and the place of a panic, are unbounded; what a reader sees depends on the default encoding of the reader.", "anchors": ["crates/vertigo/src/driver_module/driver.rs: plains, try_get_plain", "crates/vertigo-macro/src/main_wrap.rs: main_wrap", "crates/vertigo-cli/src/serve/server_state.rs: request", "crates/vertigo-cli/src/serve/html/html_response.rs: process_message, build_response", "crates/vertigo-cli/src/serve/wasm/wasm_instance.rs: call_vertigo_entry_function, wasm_callback", "crates/vertigo-cli/src/serve/response_state.rs: ResponseState, ContentType"]}
{"id": "C105", "title": "A request is what its builder was told last", "statement": "A request made with RequestBuilder has the method and address it was made with, and of every header, of the body and of the time to live what the last call about it said: setting a header again replaces it, headers replaces all. That is what leaves the browser and the server. A cached answer is fetched again exactly when more than the time to live has passed, whatever number of seconds, minutes, hours or days was given.", "quantifier": "for every chain of calls on a builder, every header, body and time to live, every time of the answer and of the next read", "why_tests_cant": "Chains of calls, names and times are unbounded; the limits of the arithmetic lie where no test waits.", "anchors": ["crates/vertigo/src/fetch/request_builder.rs: RequestBuilder", "crates/vertigo/src/fetch/lazy_cache.rs: LazyCache, ApiResponse", "crates/vertigo/src/instant.rs: add_duration, is_expire"]}
{"id": "C106", "title": "No reference is changed under the one who holds it", "statement": "Values, computed values, maps, subscriptions, listeners, callbacks, connections, lists, tasks and the classes of elements keep their contents in cells that hand out references without a check. For every program written in safe Rust with the public API, while a mutable reference to the contents of a cell is in use there is no other reference to them, and while a shared one is in use there is no mutable one: the behaviour is defined, whatever the closures, the clone, eq and drop of the types of the program do.", "quantifier": "for every program, every nesting of calls inside closures, clone, eq, drop, render functions and suspense callbacks", "why_tests_cant": "Undefined behaviour need not show in a test: the compiler may do anything, in another version or with other options; nestings of calls are unbounded.", "anchors": ["crates/vertigo/src/computed/struct_mut/inner_value.rs: InnerValue", "crates/vertigo/src/computed/struct_mut/value_mut.rs: ValueMut", "crates/vertigo/src/computed/value.rs: Value", "crates/vertigo/src/computed/graph_value.rs: GraphValueInner", "crates/vertigo/src/computed/auto_map.rs: AutoMap", "crates/vertigo/src/dom/dom_element_class.rs: DomElementClassMerge", "crates/vertigo/src/driver_module/dom_suspense/dom_suspense_mod.rs: DomSuspense", "crates/vertigo/src/driver_module/event_emitter.rs: EventEmitter", "crates/vertigo/src/driver_module/api/callbacks.rs: CallbackStore", "crates/vertigo/src/computed/dependencies/external_connections.rs: ExternalConnections", "crates/vertigo/src/render/dom_list.rs: render_list"]}
{"id": "C107", "title": "The memory of a spawned future", "statement": "A future that was spawned lives in memory that its wakers refer to by raw pointers. Whatever the program does with these wakers (clone, wake, wake by reference, drop, in any order, during polls, after the future is ready), the memory is not used after it has been freed and is not freed twice, and it is freed as soon as no waker and no timer refers to it.", "quantifier": "for every history of uses of wakers, polls and timers", "why_tests_cant": "Use of freed memory need not show; histories are unbounded.", "anchors": ["crates/vertigo/src/driver_module/utils/futures_spawn.rs: Task, spawn_local"]}
{"id": "C108", "title": "Blocks of memory", "statement": "A block of memory that is exchanged with the host is used within its bounds: bytes written one after the other, or at an offset, end up in the block where they were put, or there is a panic and nothing is written. A block made from bytes holds them. Bytes that were never written are not given out, and memory is freed with the layout it was allocated with.", "quantifier": "for every size, every sequence of writes, every offset, with and without overflow checks", "why_tests_cant": "A write out of bounds or a free with another layout need not show in a test run.", "anchors": ["crates/vertigo/src/driver_module/js_value/memory_block.rs: MemoryBlock", "crates/vertigo/src/driver_module/js_value/memory_block_write.rs: MemoryBlockWrite"]}
{"id": "C109", "title": "Resources", "statement": "A function that uses ? on resources returns the trouble (loading, or an error with its message) of the first one that is not there and looks at no later one; if all are there it goes on with their data. Resources are equal exactly when they are in the same state with equal message or data; map, ref_map and clone change the data only.", "quantifier": "for every function using ? on resources, all resources and all mappings", "why_tests_cant": "Chains of resources are unbounded and each may depend on the data before.", "anchors": ["crates/vertigo/src/fetch/resource.rs: Resource, ResourceError"]}
{"id": "C110", "title": "A transaction reaches the page whole", "statement": "What a transaction changes in the document, by itself and through the subscriptions it refreshes, reaches the page in one batch: nothing of it is sent before it is over, all of it is sent when it is over, before anything else happens, also if the transaction is nested in others or begun by a function given to on_after_transaction. Every such function is called once for every outermost transaction. The first page waits for the fetches the application begins with and shows what they brought.", "quantifier": "for every application, every nesting of transactions and every sequence of events", "why_tests_cant": "Nestings, refreshed subscriptions and functions that begin transactions after transactions are unbounded; tests look at the document after everything is over.", "anchors": ["crates/vertigo/src/computed/dependencies/mod.rs: transaction", "crates/vertigo/src/computed/dependencies/transaction_state.rs", "crates/vertigo/src/computed/dependencies/hook.rs", "crates/vertigo/src/driver_module/dom.rs: Commands", "crates/vertigo/src/driver_module/driver.rs: on_after_transaction", "crates/vertigo/src/lib.rs: start_app_inner"]}
