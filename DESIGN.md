# Design: a Rocq model of vertigo and what is proved about it

Source: vertigo at the pinned commit in `/repo` (read as text only; nothing was built or run).
Abbreviations used below: `V/` = `crates/vertigo/src/`, `CLI/` = `crates/vertigo-cli/src/`,
`MACRO/` = `crates/vertigo-macro/src/`.

## 1. How the development is organised

All Coq files are in `rocq/theories` and belong to the logical name `Verif`. For every area there are

* `XModel.v` - executable Gallina functions, one per modelled Rust/TypeScript function, each with a comment
  citing file and lines; no property proofs;
* `XSpec.v`, or a section "Specification" at the head of the property file - the small independent specification
  used by theorem statements: inductive relations, plain lists, plain functions; not the model's own helpers;
* `XProofs.v` and similar - lemmas;
* `XProps.v`, `XFinal.v` and the files named in section 3 - the property theorems (named after the property) and
  `Example`s (named `..._case` or in a module `Demo`) showing that the hypotheses are met by something non-trivial.

Conventions:

* a function that mutates through `&mut`/interior mutability returns the new state;
* a panic (`unwrap`, `unreachable!`, index out of bounds, explicit `panic!`) is an explicit error value, never a
  default; loops become structural recursion, folds or recursion on fuel, and running out of fuel is an error value
  different from a panic. Statements about results say "if the run ends with ..." for every fuel; where termination
  is part of the property it is proved that enough fuel exists;
* `u16`/`u32`/`u64` are `N` with the wrap/truncation written explicitly where the Rust code truncates;
* an `f64` is its 64-bit pattern (`N` below 2^64); the only operations on it that matter here are equality of
  bits and the conversions from and to integers, which are defined on patterns;
* a Rust `String` is a list of bytes in the codec, wire and HTML models (UTF-8 validity is a predicate on it) and
  a list of code points in the CSS model, where byte and character offsets differ observably;
* a `HashMap` is an association list in iteration order; theorems quantify over the list, hence over the order;
* callbacks and user code are programs (deep embedded, over the operations of the component), so that re-entrant
  uses are covered;
* names ending in `_partial` prove part of a property; the full statement is kept next to them as a definition
  (`Cxx_statement`); names ending in `_refuted` give a witness on which the faithful model violates the property.

## 2. Trusted base

* Coq 8.16.1's kernel (and `coqchk`), the standard library.
* `theories/Assumptions.v` runs `Print Assumptions` on every theorem named in `MANIFEST.json`; section 5 has the
  result.
* The reading of the source: every definition cites the lines it models. What is modelled and what is not is listed
  per property in section 3; the general omissions are
  - Rust's memory management: "dropped" is an explicit operation. Only for C55 (and C38 at the level of elements)
    are `Rc` reference counts modelled, because the property depends on them;
  - the Rust standard containers are trusted to be maps/sets/vectors with their documented orders;
  - `extern "C"` glue and pointers: a memory block is a list of bytes;
  - the browser DOM: modelled by its specified tree semantics (insertBefore moves, remove detaches, inserting a
    node below itself throws), and HTML parsing by a tokenizer written after the HTML standard;
  - external crates (`html_escape`, `serde_json`, `reqwest`, `actix`, `tokio`, `wasmtime`): `html_escape` is
    modelled after its documentation, the others are outside of all statements (e.g. the network is an event that
    delivers some response).

## 3. Properties

For each property: what is modelled, how it is proved, and what is missing.

### Reactive core (`Graph*.v`, `React*.v`)

A computed's function is a deep embedded program `Ret v | Read id (fun value => ...)`, so what is read may depend on
earlier reads. A computed can only capture objects created before it, i.e. with smaller ids. The state holds values,
caches, subscriptions, both adjacency maps, connections, the transaction state and the trace of deliveries
(`V/computed/{value,computed_box,graph_value,graph_id,reactive}.rs`, `V/computed/dependencies/*.rs`). Operations: set,
set_value_and_compare, change, nested transactions, get, subscribe, subscribe_all, drop; callbacks are programs over
them. The specification is a big-step relation `den values id v` that knows no cache and no graph.

* **C01 No stale reads of a Computed** (partial). The model violates it: while a computed is being evaluated, one it has already read can be detached from the graph by the evaluation of another (`graph_value.rs:52-64` records edges only at the end) and is re-attached without its own parents. The witness is a concrete application. The partial theorem proves the full statement, by an invariant over all histories, as long as this does not happen (ghost flag `hazard`); the static one proves it outright for applications in which the set of computeds read does not depend on data. Theorems: `C01_fresh_reads_refuted`, `C01_fresh_reads_partial`, `C01_fresh_reads_static_partial`.
* **C02 Notifications are glitch free** (partial). As C01. That refresh calls see the values at the end of the outermost transaction is unconditional. Theorems: `C02_glitch_free_refuted`, `C02_glitch_free_partial`, `C02_glitch_free_static_partial`.
* **C03 A subscriber is run at most once per outermost transaction** (proved). Induction over the transaction body from any reachable state; deliveries are read off the trace. Theorems: `C03_once_per_transaction`.
* **C04 No missed update** (partial). As C01, from the same invariant. Theorems: `C04_no_missed_update_refuted`, `C04_no_missed_update_partial`, `C04_no_missed_update_static_partial`.
* **C05 subscribe never repeats a value** (partial). `C05_no_repeat` and the call per set along recorded edges are unconditional; that the recorded edges contain what the computed needs holds without interruption (see C01). Theorems: `C05_no_repeat`, `C05_subscribe_all`, `C05_subscribe_all_needs`, `C05_subscribe_all_refuted`.
* **C06 A dropped subscription is never called again** (proved). Invariant over the trace for every continuation; edges of a dropped subscription are gone. Theorems: `C06_no_call_after_drop`, `C06_silent_after_drop`.
* **C07 Dependency graph integrity** (proved). `GraphModel` mirrors `graph_connections.rs` command by command. Proved: the maps stay inverse, without empty entries; fuel suffices; the exact set of edges and detached nodes after replacing parents, against a predicate `orphaned`. Acyclicity is a hypothesis, as in the quantifier. Theorems: `C07_replace_parents`, `C07_history`.
* **C08 Invalidation reaches exactly the transitive dependents** (proved). The depth first search of `get_all_deps` terminates on every graph and returns exactly the transitive dependents; `C08_set_invalidates` carries this over to the caches and pending subscriptions after a set. Theorems: `C08_all_deps`, `C08_set_invalidates`, `C08_equal_set_is_silent`.
* **C09 Connected values are connected exactly while something depends on them** (proved). Connect/disconnect log of `external_connections.rs` against the dependents of the recorded graph; invariant over histories. Theorems: `C09_connected_iff_needed`.
* **C10 A one-off read does not keep a connected value connected** (partial). Refuted: a one-off read leaves the computed attached. The partial theorems say exactly why a value can be connected. Theorems: `C10_read_does_not_connect_refuted`, `C10_read_does_not_connect_partial`, `C10_no_computed_read_partial`.
* **C11 Transaction bracketing** (proved). `transaction_state.rs` with its u16 level; induction over well bracketed sequences. Theorems: `C11_outermost`, `C11_nested`, `C11_refused`, `C11_brackets`.
* **C56 A subscription owns what its callback returned** (proved). Invariant over the interpreter with the sets of subscriptions about to be dropped and of callbacks running; the statement is about the trace only (`released`). `spares` says that an application never drops a subscription itself. Theorems: `C56_released_is_dropped`, `C56_dropped_only_if_released`.

### Codec (`Codec*.v`)

Byte-level models of Rust `write_to`/`decode` (`V/driver_module/js_value/*.rs`) and of the TypeScript encoder and
decoder (`V/driver_module/src_js/*`) for JsValue and JsJson. Equality of values is up to the order of map entries.

* **C12 JsJson binary round trip** (proved). Induction over JsJson (nested lists and objects) with an arbitrary suffix. Theorems: `C12_json_roundtrip`.
* **C13 JsValue binary round trip** (partial). False for non-empty objects: keys are written untagged and read as tagged values. Proved for all other values. Theorems: `C13_value_roundtrip_partial`, `C13_value_roundtrip_refuted`, `C13_objects_never_decode_refuted`.
* **C14 Declared size equals written size** (proved). `get_size` (wrapping u32 arithmetic) equals the bytes written, so the writer with its capacity check succeeds. Theorems: `C14_size_exact`.
* **C15 Rust to JavaScript agreement** (partial). False for texts starting with a byte order mark (TextDecoder strips it) and for the key `__proto__`; proved for all others. Theorems: `C15_rust_to_js_partial`, `C15_byte_order_mark_refuted`, `C15_proto_key_refuted`.
* **C16 JavaScript to Rust agreement** (partial). False for non-empty objects; proved for all others, and `C16_covers_all` says the partial theorem leaves out nothing else. Theorems: `C16_js_to_rust_partial`, `C16_covers_all`, `C16_js_to_rust_refuted`.
* **C17 Decoding arbitrary bytes never panics** (partial). False: truncated blocks panic. Proved: decoding terminates on every block and only truncation panics. Stack depth is not modelled. Theorems: `C17_no_panic_refuted`, `C17_only_truncation_panics_partial`, `C17_strings_are_utf8`.
* **C18 Equal JsJson values hash equally** (partial). False: the hash input depends on the iteration order of the map. Proved for maps with at most one entry. Theorems: `C18_hash_refuted`, `C18_request_hash_refuted`, `C18_hash_partial`, `C18_request_hash_partial`.
* **C19 Large objects survive serialisation** (partial). False at 65536 keys (the count is written as u16); below that C12 applies. Theorems: `C19_large_objects_refuted`, `C12_json_roundtrip`.

### JSON traits (`FloatModel.v`, `Json*.v`)

Type codes for the types with an implementation, including derived structs, tuples, newtypes and enums (recursive types
through an environment), `to_json`/`from_json` as in `serialize.rs` and as generated by the derive macro
(`MACRO/jsjson`). Integers go through f64 bit patterns (`as` casts). The chrono types are in C98.

* **C20 Typed JSON round trip** (partial). Round trip by induction on values; the exact condition (`lossless`) is proved necessary and sufficient. Witnesses: `Some(None)`, a large u64. Theorems: `C20_roundtrip_partial`, `C20_lossless_partial`, `C20_option_refuted`, `C20_statement_refuted`.
* **C21 Integers survive JSON** (partial). u32/i32 complete; for u64/i64 the exact set of surviving values, with a witness outside. Theorems: `C21_32bit`, `C21_64bit_partial`, `C21_64bit_refuted`.
* **C22 Decoding errors are reported, not mangled** (partial). No panic, termination, error paths, and a relation `denotes` between documents and values that decoding respects. False as stated for numbers (truncated and saturated) and structs without fields. Theorems: `C22_decode_partial`, `C22_ends`, `C22_exclusive`, `C22_statement_refuted`.

### DOM commands and server rendering (`Dom*.v`, `Ssr*.v`, `Html*.v`)

`DomModel` gives the browser's meaning of commands (`breplay`: a tree of nodes, errors where the browser throws).
`SsrModel` is the server's `AllElements` with its circular child lists. `HtmlModel` is the text produced.

* **C23 Command reordering is invisible** (partial). False when nodes are moved below former descendants; proved when parents can be ranked before children, also with the real drop order of listeners. Theorems: `C23_sort_order`, `C23_same_dom_partial`, `C23_with_listeners_partial`, `C23_same_dom_refuted`, `C23_statement_refuted`.
* **C24 Every DOM command is sent exactly once** (proved). State machine of `Commands` and `StateInitiation`: flushed ++ pending = issued. Theorems: `C24_sent_once`, `C24_flushed`.
* **C25 Server and wasm agree on the command wire format** (partial). False for RemoveAttr (`unreachable!`), proved for every other command, batches and bytes included. Theorems: `C25_same_command_partial`, `C25_batch_partial`, `C25_bytes_partial`, `C25_remove_attr_refuted`, `C25_statement_refuted`.
* **C26 Server child list behaves like a list** (proved). Refinement of the circular list to `list`. Theorems: `C26_child_list`.
* **C27 Server-side rendering replays commands like the browser** (partial). Simulation between `breplay` and `AllElements`; false for RemoveAttr and for inserting a node before itself. Theorems: `C27_same_tree_partial`, `C27_self_insert_refuted`, `C25_remove_attr_refuted`.
* **C28 Attributes: last write wins, each attribute once** (proved). `OrderedMap` against an association list. Theorems: `C28_attributes`.
* **C59 A page rendered by the server is taken over cleanly** (proved). Simulation between the replay on the page with the nodes of the server and on the empty page, then the removal of the old nodes. Theorems: `C59_takes_over`, `C59_takes_over_total`, `C59_later`.
* **C29 Rendered text cannot inject markup** (partial). Specification: a tokenizer for HTML. The text produced for a tree tokenizes to the tokens of the tree. False if a script or style contains its own end tag. Theorems: `C29_no_injection_partial`, `C29_style_refuted`, `C29_case_refuted`, `C29_statement_refuted`.
* **C30 Server rendering preserves text** (partial). Exact without formatting; up to spaces and newlines with it (false exactly: formatting adds them), also for the whole response. Raw text elements other than script and style are refuted. Tree construction by the browser is not modelled. Theorems: `C30_exact_partial`, `C30_up_to_spaces_partial`, `C30_response_partial`, `C30_spaces_refuted`, `C30_raw_refuted`, `C30_statement_refuted`.

### Rendering (`Render*.v`)

`render_list`, `render_value` and fragments (`V/render`, `V/dom`) as issuers of DOM commands; statements are about the
document obtained by replaying these commands with `breplay`.

* **C31 render_list shows the list** (proved). Invariant over every sequence of lists: children of the parent before the marker are the nodes of the items. Equality of items is assumed to be `PartialEq`; leftovers are dropped in any order. Theorems: `C31_shows`, `C31_keeps`, `C31_released`, `C31_order`.
* **C32 Nested reactive items keep their order** (partial). False: content of the second and later reactive items goes before the first (witnesses). `C32_exact` gives the exact order for every nesting; `RenderHistory.v` follows the items through updates and moves: the specification `astray`/`settled` says where the content of items that never changed and of those that did stands. Theorems: `C32_exact`, `C32_in_order_partial`, `C32_only_then`, `C32_history`, `C32_settles`, `C32_moved`, `C32_refuted`, `C32_list_refuted`.
* **C33 render_value shows exactly the current value** (proved). Induction over the sequence of values, for every rendered node. Theorems: `C33_shows`.
* **C52 render_list shows the current content of its items** (partial). False: an item that changes but keeps its key keeps its old rendering; proved when the rendering depends on the key only. Theorems: `C52_content_partial`, `C52_refuted`.

### CSS (`Css*.v`)

The splitter, the transformation and the manager of styles (`V/css`), and the merging of the class attribute
(`V/dom/dom_element_class.rs`). Offsets are in bytes where the code uses bytes.

* **C34 One class per distinct style** (proved). Memo table invariant over every sequence of requests that ends without a panic; `C34_rule_once` reads it off the log of inserted rules. Theorems: `C34_names`, `C34_same_name`, `C34_inserted`, `C34_rule_once`.
* **C35 CSS splitting loses nothing** (proved). For every list of declarations, nested rules, animations and media queries with any white space: the documents inserted are exactly those written (`C35_means`). Theorems: `C35_means`, `C35_means_last`.
* **C36 CSS processing never panics** (partial). False: `@media` without colon, attribute rules, non-ASCII letters in selectors panic. Proved for texts without braces and well formed styles. Theorems: `C36_plain_partial`, `C36_items_partial`, `C36_ascii_partial`, `C36_refuted`, `C36_refuted_square`, `C36_refuted_letter`.
* **C37 Class attribute merge** (partial). Combination and sending only on change proved; removal when all are empty and after suspense(None) refuted. Theorems: `C37_combined`, `C37_quiet`, `C37_removed_refuted`, `C37_suspense_refuted`.
* **C53 Nested rules keep their content** (partial). False for non-ASCII text and after a superfluous semicolon; proved when the text up to the closing brace is ASCII. Theorems: `C53_parts_partial`, `C35_means`, `C53_refuted`, `C53_refuted_semicolon`.
* **C54 A media query overrides the plain declaration before it** (partial). False: the plain rule of a style is inserted last. `C54_plain_last` shows it always is. Theorems: `C54_refuted`, `C54_plain_last`.

### Suspense (`Suspense*.v`)

Connections, paths and layer callbacks (`V/driver_module/dom_suspense`), and above them the elements with the `Rc`
counts of their class object (`V/dom/dom_element_class.rs`).

* **C38 Suspense layers hide exactly while a descendant is loading** (partial). Proved for all histories in which no loading node hangs below a removed one (true again at the end of every drop) and for layers with a parent that set the attribute once; each restriction has a witness. Theorems: `C38_partial`, `C38_settled_after_drop`, `C38_changes`, `C38_total`, `C38_elements_partial`, `C38_calls_of`, `C38_stale_refuted`, `C38_depth_refuted`, `C38_unattached_refuted`, `C38_twice_refuted`.
* **C55 A dropped element leaves no suspense callback behind** (partial). False: the registered closure holds the class whose drop would unregister it. Proved that no drop ever removes the callback and that they accumulate. Theorems: `C55_kept`, `C55_refuted`, `C55_grows`.

### Stores and small components (`Store*.v`, `Small*.v`, `MapModel.v`)

Callback store, argument blocks, event emitter, future box, AutoMap, public paths, KEY=value, watch script. Callbacks are
programs over the component they are registered with.

* **C39 Callback ids are unique and dispatch correctly** (partial). Ids unique and dispatch right below 2^64 registrations. A one-shot callback called while it runs runs again (refuted); never after its first run ended. Theorems: `C39_dispatch`, `C39_call`, `C39_once_partial`, `C39_once_refuted`.
* **C40 Arguments are handed over once** (proved). A block is delivered to the first read, `Undefined` afterwards; pointer 0 is `Undefined`. Theorems: `C40_delivered`, `C40_once`.
* **C41 Event emitter delivers to the current listeners** (partial). Exactly-once delivery in order to the listeners present when the trigger starts. A listener removed during the same trigger is still called (refuted). Theorems: `C41_delivers`, `C41_removed_refuted`.
* **C42 AutoMap is a memo table** (partial). False for create functions with state that get their own key; proved for stateless ones, for ranked ones and for histories without re-entrant creation. Theorems: `C42_ranked`, `C42_stateless_partial`, `C42_memo_partial`, `C42_statement_refuted`.
* **C45 A FutureBox hands over its value** (partial). Exactly-once delivery and waking; a second publish before a poll replaces the value (refuted). Theorems: `C45_received`, `C45_once`, `C45_woken`, `C45_two_values_refuted`.
* **C48 Public paths map to files** (partial). The prefix is compared as text, so `/build2/x` is accepted below `/build` (refuted); otherwise proved. Theorems: `C48_base_dir`, `C48_prefix`, `C48_component_refuted`.
* **C49 KEY=value arguments split at the first '='** (proved). Split at the first `=`. Theorems: `C49_first_equals`, `C49_strings`.
* **C50 Watch script injection** (partial). Proved for documents with at most one `</body>`; with several each gets the script (refuted). Theorems: `C50_only_html`, `C50_inserted_partial`, `C50_once_refuted`.

### Fetch, server, API (`Fetch*.v`, `Server*.v`, `Api*.v`)

From the callback arguments of a request to the typed result, the lazy cache; the message loop of the server with all
interleavings of application, network and timer; all calls of `api_import.rs` against the matcher chain of the server.

* **C43 LazyCache fetches when needed and only once at a time** (partial). State machine with clock; false when the arguments of the callback cannot be decoded (the cache stays locked). Theorems: `C43_history`, `C43_read_starts`, `C43_read_requests`, `C43_restart_partial`, `C43_stuck_refuted`.
* **C44 Server de-duplicates fetches and answers every callback once** (partial). For all applications and interleavings: no panic, every request answered exactly once, page complete when built. De-duplication is false for requests with several headers (hash order, C18). Theorems: `C44_no_panic`, `C44_answers`, `C44_page_complete`, `C44_no_deadlock`, `C44_sent_once`, `C44_equal_sent_once_partial`, `C44_dedup_refuted`, `C44_equal_sent_once_refuted`.
* **C46 Response conversion is total and faithful** (partial). Decision function; false (not total) for undecodable arguments. Theorems: `C46_into`, `C46_into_data`, `C46_published`, `C46_undecodable_refuted`.
* **C47 API calls are dispatched to the intended handler** (proved). Every call of `api_import.rs` with all arguments against the chain of handlers, also through the codec. Theorems: `C47_dispatch`, `C47_only_one`, `C47_unsupported`, `C47_from_bytes`, `C47_injective`.
* **C51 API calls during server rendering do not fail the page** (partial). False for timezone and random numbers; all other calls give what `server_meaning` says. Theorems: `C51_panics_partial`, `C51_meaning`, `C51_statement_refuted`, `C51_random_refuted`.

### Bridge to JavaScript (`BridgeModel.v`, `BridgeProps.v`)

The builder of `DomAccess`, its encoding (the codec model), the interpreter `JsNode` over an arbitrary page (state, `get`,
`set`, `call` and the table of nodes are parameters), the conversions between JavaScript and bridge values, and the way
back into Rust. Specification: `denotes`, the JavaScript value a Rust value stands for, and `runs`, the steps on it.

* **C57 Values read from JavaScript arrive in Rust** (partial). For every engine, by following the chain of steps; false for values outside of `readable`. Theorems: `C57_access_partial`, `C57_access_refuted`, `C57_bigint_refuted`, `C57_bytes_refuted`, `C57_get_props_refuted`.
* **C58 An element reference reaches its element** (partial). False for every element: the id is sent as a 64-bit integer and rejected. Theorems: `C58_element_unreached`, `C58_element_refuted`.

### Events (`EventModel.v`, `EventProps.v`, `DomListen.v`)

The way of an event from the page to the handler: the closures registered by `DomElement`, their decoding of the
arguments, `CallbackStore`, and the listener functions of `dom.ts`. And the life of listeners: creating and dropping
elements, the commands issued, cut into batches and sorted, and replayed on the page of `DomModel.v`.

* **C60 Event handlers run once with what happened** (proved). Specification `happens`, a relation between handler, event, actions and default prevented; equivalence by cases over all handlers and events. Theorems: `C60_handler_runs`.
* **C61 Listeners live exactly as long as their element** (proved). Invariant of the replay (`good`: a listener on the page is in the table of callbacks) and of the elements (`inv`); the last command on each callback id decides. Theorems: `C61_only_living`, `C61_living_heard`.

### Cookies (`CookieModel.v`, `CookieProps.v`)

The four cookie functions of the driver over the bridge of `BridgeModel.v`, `cookies.ts`, and the cookie store of the
browser after RFC 6265bis: parsing of an assignment to `document.cookie`, attributes, replacement, expiry and what
`document.cookie` reads as. `encodeURIComponent`, `decodeURIComponent`, `split` and `trim` after ECMAScript. Parameters:
`toUTCString` and the browser's parser of dates (assumed inverse on the range of dates, instantiated in `Demo`), and
`JSON.stringify`/`JSON.parse`. Simplified: one path and host, no secure or http-only cookies in the jar, no eviction.

* **C62 A cookie that was set is read until it expires** (partial). Percent-decoding inverts percent-encoding (induction on bytes); the assigned text parses to one cookie; `find` over the jar after `store`. Refutations by computation and, for far times, in general. Theorems: `C62_set_get_partial`, `C62_far`, `C62_refuted`, `C62_far_refuted`, `C62_name_refuted`, `C62_prefix_refuted`, `C62_mark_refuted`, `C62_long_refuted`.
* **C63 Cookies set by the server are read** (partial). Relation `unescapes` as specification of percent-decoding; `decodeURIComponent` characterised by it in both directions. Theorems: `C63_foreign_partial`, `C63_refuted`.
* **C64 Cookies of the application are sent to its own site only** (partial). The parser of attributes on the text the code writes. Theorems: `C64_never_strict`, `C64_refuted`.
* **C65 JSON kept in a cookie is read back** (partial). Composition of C62 with the values read through the bridge (C57). Theorems: `C65_set_get_partial`, `C65_scalars`, `C65_json_set_get_partial`, `C65_json_scalars`, `C65_refuted`.

### Routers and links (`RouterModel.v`, `RouterProps.v`)

`Router`, the callbacks of `hashrouter.ts` and `historyLocation.ts`, the location with the events the browser will still
fire, and the click listener of links. The setter of `location.hash` after the URL standard; `pushState` resolves
addresses by a parameter (`None`: another origin, an exception), which the statements constrain where they need it.
Simplified: texts pass the bridge unchanged (C57), connecting is by operations (C09), and reactions of the application to
a changed route are later operations.

* **C66 The route is that of the location** (partial). Invariant: callbacks of the page are those of connected routers; an observed router is right or an event is pending; induction over operations. Theorems: `C66_history_partial`, `C66_hash_partial`, `C66_told`, `C66_unobserved_refuted`, `C66_mixed_refuted`, `C66_percent_refuted`.
* **C67 Setting a route** (partial). Fragments decode to the text set (`unescapes`, C63); one step. Theorems: `C67_hash_partial`, `C67_history_partial`, `C67_stuck`, `C67_refuted`.
* **C68 Links** (partial). The prefixes tested against the grammar of schemes of RFC 3986. Theorems: `C68_inside`, `C68_outside_partial`, `C68_dead`, `C68_refuted`.

### Websockets (`WebsocketModel.v`, `WebsocketInv.v`, `WebsocketProps.v`)

The loop of `connection.ts` as a state machine between its `await`s, the promises, timers and listeners of each call of
`connect`, the tables of `websocket.ts`, the callbacks in Rust, and the microtask queue. A task (event of a socket, timer,
action of the application) begins only when no microtask waits. The browser's sockets follow the WebSockets standard. What
the application does in a callback is an arbitrary function of everything that happened. All statements are about the log
of what happened; its vocabulary (`told`, `expected`, `on_line`, ...) is at the top of `WebsocketInv.v`.
Simplified: texts pass the bridge unchanged (C57), ids are given in order (C39), panics of callbacks are left out.

* **C69 Websocket messages arrive once and in order** (proved). Invariant over the place of each loop, its sockets, the queue and the log; `told` against `expected`, which is computed from openings, arrivals and ends alone. Theorems: `C69_told`, `C69_at_once`, `C69_session`, `C69_silent`.
* **C70 Texts sent on a websocket leave on its connection** (partial). The log grows only by steps of six kinds (`grows`); sends are those of `on_line`, read off the log. Theorems: `C70_sent`, `C70_only`, `C70_no_throw`, `C70_refuted`.
* **C71 Dropping a websocket closes its connection** (partial). As C70; a socket open at the drop is closed by the same step. Witness for the rest, and its permanence for all continuations. Theorems: `C71_no_new`, `C71_closed_partial`, `C71_never_closed`, `C71_refuted`.
* **C72 Websockets reconnect** (partial). From every reachable state a continuation of events of the browser alone is constructed that leads to a new connection, through the callbacks of an arbitrary application; draining the microtasks terminates. Theorems: `C72_reconnects`, `C72_one`, `C72_host`, `C72_refused`.

### JSON texts (`JsonTextModel.v`, `JsonTextSpec.v`, `JsonTextProofs.v`, `JsonTextProps.v`, `CookieJson.v`)

The writers (`JSON.stringify` on what comes from `JsJson`, `convert_to_jsvalue` with `serde_json::to_string`) and the readers
(`JSON.parse`, `serde_json::from_slice` with `convert_to_jsjson`) byte by byte, the readers as recursive descent with fuel.
The specification is the grammar of RFC 8259 as a relation between texts and values (`text_of`); the readers are proved to
accept exactly its texts, with the values it gives (`read_text_iff`). Writing and reading of the digits of a number is a
parameter (shortest digits, correctly rounded reading), because `serde_json` without `float_roundtrip` may differ from
JavaScript in the last bit; statements ask for agreement on the numbers at hand only. Simplified: keys of an object that
differ in lone surrogates only; objects of more than 65535 keys do not pass the bridge (C15).

* **C76 JSON texts are read as the value that was written** (partial). Writers produce texts of the grammar that denote the value (induction over values); readers are exactly the grammar. Theorems: `C76_texts_partial`, `C76_nan_refuted`, `C76_minus_zero_refuted`, `C76_depth_refuted`.

### Requests on the wire (`WireModel.v`, `WireSpec.v`, `WireProps.v`)

`fetch.ts` over `Headers`, `fetch` and `Response` of the Fetch standard, and `send_request.rs` over `reqwest` as
documented: what leaves for a request, and what the application is told about a response. Which texts are addresses is a
parameter on either side. `carries` says what a request asks for in terms of RFC 9110 alone; `media_type` what a response says.
Not modelled: headers the platforms add of their own, redirects, CORS.

* **C73 Requests are the same from the browser and from the server** (partial). Both sides against `carries`; JSON bodies by C76. Each missing case has a witness. Theorems: `C73_requests_partial`, `C73_bytes_refuted`, `C73_string_refuted`, `C73_get_body_refuted`, `C73_method_refuted`, `C73_reserved_refuted`, `C73_latin_refuted`, `C73_case_refuted`, `C73_nan_refuted`.
* **C74 Responses are the same in the browser and on the server** (partial). Both sides against `media_type` and the grammar of JSON. Theorems: `C74_responses_partial`, `C74_json_server_then_browser`, `C74_twice_refuted`, `C74_type_refuted`, `C74_utf8_refuted`, `C74_bom_refuted`, `C74_depth_refuted`, `C74_surrogate_refuted`, `C74_json_bom_refuted`.
* **C75 Every request is answered once** (partial). Both directions: the header values a browser takes are characterised by decoding UTF-8 to Latin-1 (`takes`). Theorems: `C75_browser`, `C75_server`, `C75_refuted`.

### Timers and futures (`TimerModel.v`, `TimerProps.v`)

`interval_set`, `timeout_set`, `set_timeout_and_detach`, the store of callbacks, and the tasks of `futures_spawn.rs`, over
the timers of the HTML standard in the browser and over the queue of messages of the server. What the application does in a
callback or a poll is an arbitrary function of everything that happened; time passes between steps only. A step is: time
passes, a timer that is due fires (any of them), a message is taken, or the application acts. Statements are about the
log of what happened; `quiet` means that nothing is due. Simplified: numbers pass the bridge as in C57; timers of the
browser may fire late by any amount.

* **C77 Timers are called when their time has come** (partial). Invariant `Inv`, also while a callback runs (`cur`) and while a future is polled (`p`): what timers, callbacks and resources there are, in terms of the log; each entry of the log was allowed by what came before it (`ok`). Theorems: `C77_not_early`, `C77_once`, `C77_dropped`, `C77_drops`, `C77_on_time`, `C77_released`, `C77_long_refuted`, `C77_seconds_refuted`.
* **C78 Spawned futures are polled when woken** (proved). Same invariant; a future that waits has a timer of zero, of which there are at most as many as calls of the waker not yet answered by a poll. Theorems: `C78_polled`, `C78_not_after_done`, `C78_one_at_a_time`, `C78_no_spurious_polls`, `C78_later`.
* **C79 Timers while the server renders** (partial). Same invariant on the server; the queue is sorted by callback id. Theorems: `C79_only_zero`, `C79_in_order`, `C79_all_zero`, `C79_sleep_refuted`.

### Bound attributes, texts and handlers (`BindModel.v`, `BindProps.v`)

`DomElement` (attributes, class manager, handlers), `DomText` and `Callback` over the queue of commands of `DomModel.v` and
over the browser of C16-C20. The application is any sequence of steps: make or drop an element or a text, change the
values, refresh the next subscription of the running transaction, flush, and the fetch guards of the first page. Values
are one abstract state, computeds are functions of it; that subscriptions are refreshed with current values is C01-C08.
The specification (`made`, `value`, `text`, `handler`, `values`) only reads the list of steps.

* **C80 Attributes, texts and handlers follow the values they are bound to** (partial). Invariant per node: what the sent and the waiting commands make of it in the browser, in terms of the steps. C80_settles shows that the conditions of the other theorems can be reached from everywhere. Theorems: `C80_no_errors`, `C80_attributes_partial`, `C80_texts`, `C80_gone`, `C80_handlers`, `C80_settles`, `C80_given_twice_refuted`, `C80_class_refuted`.

### Form controls (`InputModel.v`, `InputProps.v`)

The controls of the HTML standard (value, dirty value flag, checkedness, dirty checkedness flag, options with selectedness
and dirtiness; sanitization of newlines), the commands `set_attribute` and `remove_attribute` of `dom.ts`, its event handlers, and
subscriptions that skip equal values. Handlers are arbitrary functions on an arbitrary state. Inputs are of type text (search,
tel, password), checkbox, or areas; other types sanitize differently and are not modelled; the type does not change.

* **C81 Text fields show the text they are bound to** (partial). Invariant: the control shows the text last sent, or what was typed since. Theorems: `C81_follows_partial`, `C81_two_way`, `C81_ignored`, `C81_served`, `C81_ignored_refuted`, `C81_newlines_refuted`, `C81_server_refuted`, `C81_removed_value_refuted`.
* **C82 Check boxes show the value they are bound to** (partial). Invariant; the mark and the bound value change in the same events. Theorems: `C82_unclicked`, `C82_toggle_partial`, `C82_program_refuted`, `C82_click_refuted`, `C82_untold_refuted`.
* **C83 Drop-down lists show the value they are bound to** (partial). `mark_facts`: marking the options one by one ends with exactly the option of the value selected, provided it was not dirty or was selected already. Theorems: `C83_follows_partial`, `C83_refuted`, `C83_foreign_refuted`.

### Static files (`StaticModel.v`, `StaticProps.v`, `StaticServe.v`)

CRC-64/ECMA-182 as in the crate `crc` (table of 256 entries), base64 without padding, `Path::file_stem` and `extension` on file
names, `save_with_hash`, the expansion of `include_static!` in release mode, `run_with_ws` from the cleaned destination to the copied
static files, `ServeDir` below the mount point, the addresses browsers request (URL standard), and a cache that keeps every
response of the directory for 86400 seconds. Contents are arbitrary bytes. Histories are any sequence of builds, requests and
waiting; the directory `static/included` lives through all of them. Not modelled: subdirectories, `CARGO_TARGET_DIR` (the
macro and the build then use different directories), directories listed as `index.html`, conditional requests.

* **C84 New content, new name** (partial). The register is linear over xor and one step is injective (`step_linear`, `step_inj`); feeding up to 64 bits is a xor followed by steps (`feed_place`), hence injective in these bits. The collision adds the polynomial itself. Theorems: `C84_names`, `C84_changes_partial`, `C84_collision_refuted`, `C84_zeros_refuted`.
* **C85 Included files are served** (partial). `good`: what the destination holds, in terms of all files ever built; `request_ok`, `decode_enc`: the browser escapes what the server decodes. Theorems: `C85_served_partial`, `C85_all`, `C85_no_extension`, `C85_sharp_refuted`, `C85_extension_refuted`, `C85_leftover_refuted`.
* **C86 Caching for a day is safe** (partial). `cache_ok`: every cached content is that of a file once built under this name; names are injective (C84_names). Theorems: `C86_fresh_partial`, `C86_missing_refuted`, `C86_source_map_refuted`.

### Watching (`WatchModel.v`, `WatchProps.v`, `WatchPages.v`)

The loop of `watch_run.rs` with its permit, the task of each version (waiting, compiling, starting to serve, serving) and the task that
checks the server, `SpawnOwner` (a task that computes goes on until it waits), the destination directory and the static `STATE`
shared by all builds, the channel of the status, `MyStream`, and `watch.js` with the messages it has not yet processed. A run is any
sequence of steps of these. Which sources compile is an arbitrary function. Not modelled: the excluded directories, that cargo lets one
build wait for another (builds overlap in any order), connections that outlive the server, panics of `tx.send` without a receiver,
reconnections of `EventSource`.

* **C87 Watch ends at the newest sources** (partial). `single`: the one task of a run without overlapping builds and what it has read; `caught`: the newest sources have been read by the last build, or will be. Theorems: `C87_not_lost`, `C87_settled_partial`, `C87_version_partial`, `C87_stale_refuted`, `C87_stale_errors_refuted`.
* **C88 Watched pages follow** (partial). `page_ok`: what a page has been sent is its own version and then what it has processed and has still to process. Theorems: `C88_pages_partial`, `C88_told`, `C88_overlay_refuted`, `C88_stale_refuted`, `C88_dead_refuted`, `C88_port_refuted`, `C88_host_refuted`.

### The debug fragment (`InspectModel.v`, `InspectProps.v`)

`inspect.rs` command by command over the commands of `DomModel.v`, next to the browser of `DomModel.v`. Hash maps are association lists
whose order `render` and the search for a root do not determine: `renders` and `root` are relations. The decimal text of a callback's
id is an arbitrary function. Not modelled: the log of the driver, which gives the commands.

* **C89 The debug fragment is the document** (partial). A simulation (`sim`) between the browser's document and the fragment, kept by each command; `shown` is the text of a part of the document. Concrete witnesses for what is not the same. Theorems: `C89_nodes_partial`, `C89_text_partial`, `C89_pseudo_html_partial`, `C89_class_refuted`, `C89_remove_class_refuted`, `C89_callbacks_refuted`, `C89_itself_refuted`, `C89_roots_refuted`, `C89_escape_refuted`.

### The css! macro (`CssMacroModel.v`, `CssMacroProps.v`, `CssMacroGen.v`, `CssMacroText.v`)

`css.pest` rule by rule as a recogniser of ordered choices (with the implicit white space of pest, which goes between the parts of
a sequence and of a repetition), the functions of `css_parser.rs` over the pairs it gives, and `format!` with its double braces. The
hash map of the parameters is a list, as keys are given in order of insertion. Values are ASCII; what a Rust expression is, and its
value, is a function of its text. The tokens' text is taken to be the source between the braces.

* **C90 The css! macro gives the rules that were written** (partial). Printing and parsing: the pairs of a printed block are given by `item_pairs` (`block_ok`, by induction over items). Generation: `yields` says what a step adds to the parameters and references and what text it gives under any later parameters. The text is a list of pieces, over which the replacements and `format!` are homomorphic. Concrete witnesses for what is changed or refused. Theorems: `C90_text_partial`, `C90_unit_refuted`, `C90_late_refuted`, `C90_late_variable`, `C90_key_refuted`, `C90_bracket_refuted`, `C90_lost_refuted`, `C90_refused`, `C90_many_refused`.

### The dom! macro (`DomMacroModel.v`, `DomMacroBuild.v`, `DomMacroProps.v`, `DomMacroPage.v`)

`html_parser.rs` function by function, from the nodes of syn_rsx to the generated calls; the calls of `DomElement`, `DomText`,
`DomComment`, `render_value` and `render_list` that make nodes, with counters of ids and callbacks and the queue of commands; mounting
as a function that a node carries (the callback of `node_parent`). Expressions are their tokens; an environment gives their values, of
which only that is asked that braces around an expression do not change it. The browser is that of `DomModel.v`.

* **C91 The dom! macro gives the nodes that were written** (partial). `says` reads the tree of tags without the macro; `all_ok` (induction over tags) shows that the generated code, evaluated, has this as what it shows. `all_good` (mutual induction over nodes and calls) shows that code makes what it shows: `Inv` ties the counters and the queue to the document, `mountable` says what inserting a node will do in any later document, `making` is an element while its methods are called, `part` a list of nodes put one before the other. `C91_document` uses the same steps on the fixed nodes 1, 2, 3: attribute calls leave the children where they are (`own_run`), then head and body are filled and moved to the end of html one after the other. `C91_refused` by induction over tags. Concrete witnesses for the refutations. Theorems: `C91_tree_partial`, `C91_document`, `C91_element`, `C91_refused`, `C91_component_children`, `C91_component_children_refuted`, `C91_order_refuted`.

### The user interface over time (`UiModel.v`, `UiSteps.v`, `UiProps.v`, `UiTheorems.v`, `UiOnce.v`)

Templates of elements with bound attributes, bound texts, fragments, `render_value` and `render_list`, nested in any way, as the code
builds them: what is made at once, what is made when a node is mounted, the value each subscription saw last, what dropping a node sends.
An event is a change of the values or the call of one subscription; nothing is assumed about which is called when. The order in which
the leftover entries of the cache of a list are dropped (a hash map) is any permutation. The browser is that of `DomModel.v`.

* **C92 The document follows the values** (partial). The specification is `view` (what a template shows for given values, a few lines that know nothing of ids or commands), `displays` (a node of the document shows a tree) and `quiet`. `done` (UiSteps.v) says what a piece of work may touch: its own nodes, new ones, the children of its parent; it composes. `make_mounts` (induction over templates) and `call_ok` (induction over the live nodes, with the keyed reordering of lists) establish it for making and for calling, with `lives` and `fits` tying nodes to document and template. `stale` counts the subscriptions whose last value is old: a call does nothing or lowers it (`call_less`), some call lowers it while it is not 0 (`call_works`), at 0 the document shows the view (`shown`). `tidy` (no command names a removed node, parents are older than children) makes the sorted batches equal to the commands in order, by the lemmas of C23. For one pass, `olds` lists the subscriptions whose last value is old; a call adds none to it and takes itself out (`call_shrinks`), since what is made is up to date and ids are unique. Theorems: `C92_document_follows_partial`, `C92_comes_to_rest`, `C92_one_pass`, `C92_fragment_refuted`.

### Settings (`EnvModel.v`, `EnvProps.v`)

From the argument `--env name=value` to what `get_env` gives the application: parsing, the map of settings, the answer of the server,
the `data-env-` attributes of the response (`build_response` of HtmlModel.v) and `getAttribute` of the browser. The map is the list of
its entries; the response is built from any permutation of it.

* **C93 A setting is the same on the server and in the browser** (partial). `setting` (the last pair of the name) is the specification. The browser is the tokenizer of HtmlProps.v after the newline normalisation of the HTML standard, `root_attrs` and `get_attribute` (lower case, first duplicate). `C93_same_partial` goes through C30, the membership of `with_env` and uniqueness up to case. The refutations compute the whole response and read it back. Theorems: `C93_server`, `C93_argument`, `C93_same_partial`, `C93_case_refuted`, `C93_order_refuted`, `C93_newline_refuted`, `C93_name_refuted`.

### The bind! macros (`ClosureModel.v`, `ClosureProps.v`)

From the tokens given to `bind!`, `bind_spawn!` and `bind_rc!` to the generated `let`s and closure, and what these `let`s bind, one
after the other, for any values with fields and any `clone`. `captured` is what the closure takes from outside: names in its body that
the `let`s have not bound (every identifier not after a dot counts as a name).

* **C94 bind! gives a closure its own copies** (partial). Places (`a.b.c`), lists with or without a final comma and `value` are the specification; `C94_accepted` is an equivalence by lemmas on splitting. `C94_bind_partial` and `C94_spawn_partial` are inductions over the `let`s with the invariant that values of the places still to come have not changed; the condition on roots is what keeps it, and the refutations show that it is needed. Theorems: `C94_accepted`, `C94_bind_partial`, `C94_spawn_partial`, `C94_spawn_takes_partial`, `C94_rc_partial`, `C94_rc_paths`, `C94_order_refuted`, `C94_spawn_takes_refuted`, `C94_spawn_field_refuted`, `C94_bar_refuted`.

### Proxies (`ProxyModel.v`, `ProxyProps.v`)

From a request to what is given to reqwest, and from what reqwest gives back to the answer: which route is taken (axum: static files, the
proxies, the application), what a nested service sees of the path, which methods are handled, how `Json<Value>` reads a body and how it is
written again (the readers and writers of `JsonTextModel.v`). reqwest with the network behind it is a function from requests to answers.

* **C95 Proxied requests reach the target** (partial). `below`, `belongs` and `url_at` are the specification. Routing: of the routes that match, the longest is picked (`pick_best`). Bodies: what the reader accepts is well formed (`den_parts`, mutual induction over the grammar), putting objects in order keeps the meaning (`ordered_alike`) and the length (`ordered_length`), and the written text denotes the value (`serde_den` of C76). Concrete witnesses for the refutations. Theorems: `C95_get_partial`, `C95_post_partial`, `C95_length`, `C95_refused`, `C95_elsewhere`, `C95_headers_refuted`, `C95_length_refuted`, `C95_form_refuted`, `C95_method_refuted`, `C95_slash_refuted`, `C95_escape_refuted`.

### Log records (`LogModel.v`, `LogProps.v`)

The logger of `init_env.rs` (levels, format string, styles, function of the console), the formatter of the Console Standard as far as
strings are concerned (whether `%%` is shown as `%`, and what is shown for directives other than `%c`, are parameters), and the line the
server logs. The way into the console is that of C57, the way to the server that of C47.

* **C96 Log records are shown as written** (partial). `lines_wanted` and `meant_for` are the specification. Three `%c` use up the three styles before the message begins (`runs_plain`, `runs_style`), and a text read with no arguments left stays as it is (`runs_rest`, induction over its length). The call is an access of C57. Theorems: `C96_shown`, `C96_browser_partial`, `C96_server_partial`, `C96_trace_refuted`, `C96_percent_refuted`, `C96_level_refuted`, `C96_marks_refuted`.

### Instants (`ClockModel.v`, `ClockProps.v`)

`Instant` over a reading of the clock, u64 arithmetic with and without overflow checks, and the reading itself: `Date.now()` of a page through
the bridge of C57 and `match_date_now` of the server.

* **C97 Instants tell the time that has passed** (partial). A number of milliseconds from 2^31 on is no i32, so it comes as an f64 (`conv_usual`), which keeps integers up to 2^53 (`f64_of_N_back`). The arithmetic is that of N with the bounds of u64. Concrete pages for the refutations. Theorems: `C97_clock_partial`, `C97_server_clock`, `C97_elapsed`, `C97_browser_partial`, `C97_early_refuted`, `C97_set_back_refuted`, `C97_ahead_refuted`, `C97_unit_refuted`.

### Dates and times in JSON (`ChronoModel.v`, `ChronoProps.v`)

The traits of `serialize_chrono.rs` over the writers and readers of chrono 0.4 that they use: `%Y-%m-%d`, RFC 3339, the calendar and the
way from local time to UTC. chrono is third-party, so this part of the model follows its documentation and sources from memory.

* **C98 Dates and times survive the way through JSON** (partial). The specification has the calendar (`real`, by the lengths of the months), the number of a day (`day_number`) and the grammar of a text (`rfc3339`, `zone`, `fraction`, `numeral`). Writers produce numerals and readers read them (induction over the digits); the day after and the day before are one day apart in `day_number` (`next_day_number`, `day_before_number`), so that reading a text with an offset gives the instant. Theorems: `C98_date`, `C98_datetime_partial`, `C98_offset`, `C98_far`, `C98_valid`, `C98_year_refuted`, `C98_sent_on_refuted`.

### The macros window! and document! (`AccessModel.v`, `AccessProps.v`)

`api_access_inner` on the source text of the literal (`trim_matches`, `strip_suffix`), the conversions `JsValue::from` and the path that is built.
Literals with a suffix, `\\u{…}` and line continuations are left out.

* **C99 window! and document! reach what they name** (partial). `says` is what the Rust reference says a literal stands for, `stands` what an argument stands for. The path is one of C57, so its theorem gives the effect in the page; on the server no matcher takes a path of two elements that starts at `window` or `document`. Theorems: `C99_call_partial`, `C99_get_partial`, `C99_errors`, `C99_server`, `C99_statement_refuted`, `C99_raw_refuted`, `C99_escape_refuted`, `C99_wide_refuted`.

### The memory between program and host (`HandoverModel.v`, `HandoverProps.v`)

The linear memory with the blocks the allocator has given out; the allocator is the contract of `GlobalAlloc` as a relation, so the theorems
hold for every allocator. `to_snapshot`/`get_by_ptr` of the program, `get_value`/`save_value` of the server, `decodeArguments`/`saveToBuffer` and
`getBuffer` of the page (a view through the buffer of that moment). What is in a block is that of the codec (C13-C16).

* **C100 Values cross the memory between program and host unchanged** (partial). An invariant (`sound`: blocks are apart and inside of the memory) and, for every event that leaves the block alone, preservation of its bytes; the codec theorems then give the value. The refutations are concrete memories. Theorems: `C100_to_server_partial`, `C100_from_server_partial`, `C100_to_page_partial`, `C100_from_page_partial`, `C100_bytes_partial`, `C100_echo_partial`, `C100_high_refuted`, `C100_bytes_kept_refuted`, `C100_bytes_grown_refuted`, `C100_echo_refuted`.

### Components (`ComponentModel.v`, `ComponentProps.v`)

`component_inner` as a function from the item to what is generated; what the compiler makes of a structure, a structure expression, [let]s and
visibilities is that of the Rust reference. Generics are left out.

* **C101 A component shows what its function gives** (partial). `called_with` says which variables a body sees when the function is called; structure expressions are permutations of the parameters (`once_spec`). `C101_dom` composes this with the model of dom! (C91), whose mounting of components was a parameter there. Theorems: `C101_mount`, `C101_errors`, `C101_dom`, `C101_reach_partial`, `C101_restricted_refuted`, `C101_mut_refuted`.

### Projects and their build (`CargoModel.v`, `CargoProps.v`, `ScaffoldModel.v`, `ScaffoldProps.v`)

The workspace as `cargo metadata` gives it, the disk as a function from paths, and the build as a relation (cargo may fail or put its program into the
target directory, changing anything there). Paths are lists of names; links, permissions and races with other programs are left out.

* **C102 vertigo build takes the program it has built** (partial). `application` says which packages can be meant, by membership; `C102_first` is the order. `C102_program_partial` carries the conditions under which the place looked at is the one cargo writes; each of them is needed (the refutations drop one at a time). Theorems: `C102_infer`, `C102_first`, `C102_program_partial`, `C102_outside`, `C102_named`, `C102_path`, `C102_found`, `C102_target_refuted`, `C102_directory_refuted`, `C102_library_refuted`, `C102_failed_refuted`, `C102_statement_refuted`.
* **C103 vertigo new makes a project of the given name** (partial). `occupied` and `obstructed` speak of the disk before; `manifest_name` and `makes_cdylib` of the text of the manifest. `C103_project` lists every path below the project. `C103_builds` composes with C102. Theorems: `C103_project`, `C103_refused`, `C103_builds`, `C103_name_refuted`.

### How a request is answered (`AnswerModel.v`, `AnswerProps.v`)

The loop of a request as in `ServerModel.v`, now with what the messages carry, with the handler of texts, and with calls that panic. A call of the
program either returns or panics; that a panic traps on wasm32-unknown-unknown, and that hyper closes the connection of a task that panicked, is taken from
Rust and hyper. The network and the timer act at any time.

* **C104 Texts instead of pages, and panics, while a page is rendered on the server** (partial). `C104_plain` counts the messages received: before the last one that the start has sent there is no answer, after the text there is only the text. `C104_message` excludes the branch for messages of panics unless the application sends one without panicking (C51 shows where vertigo does). `shows` is the spec of what a reader sees: UTF-8 if the content type names it, else the default of the reader. Theorems: `C104_plain`, `C104_page`, `C104_updates`, `C104_url`, `C104_start`, `C104_handler`, `C104_callback`, `C104_complaint`, `C104_message`, `C104_text_partial`, `C104_html`, `C104_panic_refuted`, `C104_charset_refuted`.

### The builder of requests (`BuilderModel.v`, `BuilderProps.v`)

The calls of `RequestBuilder` as a list, with a map of headers, and the arithmetic of u64 with and without overflow checks. Composed with the wire (C73),
and with the clock (C97) for the expiry of a cached answer (the cache itself is C43, where times do not overflow).

* **C105 A request is what its builder was told last** (partial). `last_says` reads the list from its end; the three relations `says_*` say what one call is about. `C105_ttl_partial` composes the multiplication, the addition of milliseconds and the comparison. `C105_sent_partial` composes with `C73_requests_partial`. Theorems: `C105_header`, `C105_body`, `C105_ttl_partial`, `C105_sent_partial`, `C105_forever_refuted`, `C105_minutes_refuted`, `C105_case_refuted`.

### References into cells (`CellModel.v`, `CellProps.v`)

Code as the tree of its accesses to cells: an access holds a reference while its body runs. Every function of the API that runs code of the program is a
definition that says which code runs under which reference. Values are left out.

* **C106 No reference is changed under the one who holds it** (partial). The rule of the Rust reference is `allowed`, on the list of references made and given up; `fair` builds programs from the functions of the API with conditions only on the code that runs under a reference (`reads`, `leaves`). The proof goes through the same rule on trees (`sound_iff`) and an induction over fair programs for every set of references in use. The refutation for vertigo-suspense holds for every argument. Theorems: `C106_fair_partial`, `C106_closures`, `C106_suspense_refuted`, `C106_hooks_refuted`.

### The memory of tasks (`WakerModel.v`, `WakerProps.v`)

The functions of the table of raw wakers, as what they do to the strong count of the `Rc`; an `Rc` operation on freed memory, or a drop of the last count while the
task still owns its waker, is an error.

* **C107 The memory of a spawned future** (partial). The specification `own` is the book-keeping of wakers and timers by ownership and says which histories safe Rust admits; it knows no counts. Invariant: the count is the number of wakers, timers, the running timer, and one for the waker the task owns. Theorems: `C107_safe_partial`, `C107_freed_last`, `C107_leak`, `C107_leak_refuted`.

### Blocks of memory (`BlockModel.v`, `BlockProps.v`)

A block is its layout, its size and its bytes, each written or not; 32-bit sums wrap or panic by the build profile; a copy that leaves the block is an error value.

* **C108 Blocks of memory** (partial). The specification `holds` says byte by byte what a block contains; `freed_well` is the rule of `dealloc`, `initialised` that of reading. Invariant of the writer: the data so far, then unwritten bytes, and the offset is their number. For writes at any offsets `written_last` says which write covers a place last. Theorems: `C108_writer_partial`, `C108_from_slice_partial`, `C108_writes_partial`, `C108_write_refuted`, `C108_layout_refuted`, `C108_unwritten_refuted`, `C108_empty_refuted`, `C108_long_refuted`.

### Resources (`ResourceModel.v`, `ResourceProps.v`)

The functions of `Resource`, and functions of the application as trees of uses of `?` (each may depend on the data of the earlier ones).

* **C109 Resources** (proved). The specification says what the list of resources looked at is, and compares states by the relation `same_trouble`. Induction over the tree. Theorems: `C109_question`, `C109_equal`, `C109_map`, `C109_nan_refuted`.

### Transactions and batches (`BatchModel.v`, `BatchProps.v`)

The states of a transaction, the queue of commands and the functions called after transactions, as an interpreter of nested programs that notes what can be seen
(commands issued, batches sent, transactions begun and over, functions called). What clients and functions do is a parameter. The order of commands within a batch (C23),
overflow of the counters, panics and endless runs are left out.

* **C110 A transaction reaches the page whole** (partial). The specification is about the list of noted events only: `never_half`, `complete`, `at_once` and counts. Invariant when nothing runs: the queue holds the unsent commands and the list of events is well formed; while something runs only commands are added. Theorems: `C110_whole_partial`, `C110_at_once_partial`, `C110_hooks`, `C110_outside_refuted`, `C110_first_refuted`.

Nothing is `not_applicable`. Not expressible here and left out of all statements: timing (the 10 s timeout is an
event), memory consumption, thread scheduling of tokio, the correctness of `wasmtime` and of browsers.

## 4. Mutation testing

`seeded/LOG.jsonl` records edits of the model made in a scratch copy, the claims each edit falsifies, and which theorems
of `MANIFEST.json` no longer hold. The harness applies one edit, rebuilds every dependent file, replaces each broken
proof by an admission (in the scratch copy only) and asks `Print Assumptions` which theorems now depend on one. A
theorem that survives an edit that falsifies its English claim is tightened, or a theorem is added; the log says which.
A theorem can also fail because its proof script is brittle; the survivors are the signal.

## 5. Assumptions reported by Print Assumptions

All theorems of `MANIFEST.json` are reported `Closed under the global context` (output of `theories/Assumptions.v`): no
axioms of the standard library, none of our own. `coqchk` lists, for the libraries loaded, only axioms of `Coq.ssr`
that are in the standard library's own files and that no theorem here uses.
