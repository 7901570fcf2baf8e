{"id": "C01", "title": "Generated schema text is well-formed JavaScript", "statement": "For every Rust type built from the supported built-ins and derived structs/enums whose serde names are JavaScript identifiers (string-safe for variant names), whenever T::schema() / T::inline_schema() return, the returned text lexes and parses, completely and unambiguously, as one JavaScript expression.", "quantifier": "every type expression (any nesting) over every set of derived declarations", "why_tests_cant": "the set of types is infinite; tests compare a few literal strings and never parse them", "anchors": ["core/src/build_ins.rs: impl_primitive, impl_tuples, Vec/HashSet/HashMap/Option/Result impls", "derive/src/impl_struct.rs: Struct::expand_schema, StructField::expand_schema", "derive/src/impl_enum/mod.rs: Enum::expand_schema", "derive/src/impl_enum/variant/*.rs: expand_schema"]}
{"id": "C02", "title": "Which generated schemas zod can construct", "statement": "Evaluating the generated schema text builds a zod schema (no exception while the generated module loads) for every type that uses neither bool, nor a derive with #[serde(flatten)], nor an internally tagged multi-variant enum with a newtype variant; each of these three features makes the text throw when it is evaluated or first used.", "quantifier": "every type over every set of derived declarations", "why_tests_cant": "needs evaluation of generated text for all types; the test-suite never runs the JavaScript", "anchors": ["core/src/build_ins.rs: bool", "derive/src/impl_struct.rs: StructField::expand_schema (flatten)", "derive/src/impl_enum/variant/tuple_variant.rs: expand_schema (Internal)"]}
{"id": "C03", "title": "Validation soundness: what the schema lets through, serde accepts", "statement": "For every type in the documented sound fragment and every JavaScript value v (well-formed Unicode strings, distinct keys): if parsing v with the generated schema succeeds with output o, then JSON.stringify(o) is deserialized by serde into that Rust type, unless it nests more than 127 levels (serde_json's recursion limit). 64-bit and size integers and floats are covered when all numbers are finite safe integers. Outside the fragment (unsafe numbers, lone surrogates, sets, maps, fixed arrays, PhantomData, defaults in tuples, partly skipped tuples, newtypes over Option, empty tuple variants) the property fails and witnesses are proved. 128-bit integers, bool and IP addresses are outside the fragment.", "quantifier": "every type of the fragment, every declaration set, every JavaScript value", "why_tests_cant": "infinitely many types and values; relates three languages", "anchors": ["core/src/build_ins.rs", "derive/src/impl_struct.rs", "derive/src/impl_enum/mod.rs", "derive/src/impl_enum/variant/*.rs", "core/src/rpc/codegen/mod.rs: RpcMember::decl"]}
{"id": "C04", "title": "Validation soundness for the value that is actually sent", "statement": "The generated client sends the caller's original arguments, not the parse output. For every type of the sound fragment without externally tagged data-carrying variants, adjacently tagged unit variants, Result or deny_unknown_fields, a value accepted by the schema deserializes as sent; for each of these four features an accepted value with an extra key is rejected by the server (witnesses).", "quantifier": "every type of the restricted fragment, every JavaScript value", "why_tests_cant": "infinitely many types and values", "anchors": ["core/src/rpc/codegen/mod.rs: RpcMember::decl (z.tuple([..]).parse([...arguments]); return request(..., arguments))"]}
{"id": "C05", "title": "Validation completeness: what serde serializes, the schema accepts", "statement": "For every type in the documented complete fragment and every JSON text serde produces for a value of that type, the generated schema accepts the parsed JSON. Witnesses are proved for Option (null), char outside the BMP, sets, maps, PhantomData, partly skipped tuples and shortened tuples.", "quantifier": "every type of the fragment, every serialized value", "why_tests_cant": "infinitely many types and values", "anchors": ["core/src/build_ins.rs", "derive/src/impl_struct.rs", "derive/src/impl_enum/mod.rs"]}
{"id": "C06", "title": "Integer schemas admit exactly the Rust range", "statement": "For u8,u16,u32,i8,i16,i32 the generated schema accepts a JavaScript value iff it is an integer number in the Rust type's range; for u64,u128,i64,i128 the upper bound (and only it) is off by the rounding of the literal to a double; for usize/isize there is no upper/lower bound at all.", "quantifier": "every JavaScript value, every built-in integer type", "why_tests_cant": "2^64 numbers plus fractions, infinities and non-numbers", "anchors": ["core/src/build_ins.rs: impl_primitive! for u8..i128, usize, isize"]}
{"id": "C07", "title": "Generated type text is well-formed TypeScript", "statement": "For every type whose declarations have identifier names and whose namespaces are not named like a type operator (keyof, typeof, ...), whenever T::type_def() and T::inline() return, their text parses completely and unambiguously as one TypeScript type; other names are proved counterexamples.", "quantifier": "every type expression over every set of declarations", "why_tests_cant": "infinite type space; tests never parse the text", "anchors": ["core/src/build_ins.rs", "derive/src/impl_struct.rs: expand_type_def, StructField::expand_type_defs", "derive/src/impl_enum/mod.rs: expand_typ_defs", "derive/src/impl_enum/variant/*.rs: expand_type_defs", "core/src/lib.rs: InlinedType, TsTypeDef Display"]}
{"id": "C08", "title": "Schema and TypeScript type agree", "statement": "For every type whose field names do not repeat, every value accepted by the generated schema, and the output of the parse, is a member of the generated TypeScript type (properties read as in TypeScript, a missing property reading as undefined). Repeated field names and the converse are proved counterexamples.", "quantifier": "every type and every JavaScript value", "why_tests_cant": "two independent generators must agree on an infinite domain", "anchors": ["core/src/build_ins.rs", "derive/src/impl_struct.rs", "derive/src/impl_enum/mod.rs", "derive/src/impl_enum/variant/*.rs"]}
{"id": "C09", "title": "Wire values inhabit the declared TypeScript type", "statement": "For every type of the documented fragment, every JSON value serde serializes is a member of the generated TypeScript type, and with Option, Weak and floats every such value without null is; Option (null instead of undefined), sets, maps, fields written differently than read and newtypes in internally tagged enums are proved counterexamples.", "quantifier": "every type of the fragment, every serialized value", "why_tests_cant": "infinitely many types and values", "anchors": ["core/src/build_ins.rs", "derive/src/impl_struct.rs", "derive/src/impl_enum/mod.rs"]}
{"id": "C10", "title": "Schema generation terminates exactly when no eager cycle exists", "statement": "T::schema() returns iff the graph of eagerly expanded types reachable from T is cycle free. Derived types, and Vec/HashMap/Option/Result around them, break cycles (lazy reference); Box, Arc, Rc, Cow, Cell, RefCell, Mutex, Weak, PhantomData and tuples do not: a struct that contains itself through one of these overflows the stack for every stack size.", "quantifier": "every set of mutually recursive declarations, every stack bound", "why_tests_cant": "non-termination cannot be observed by a test, and graphs are unbounded", "anchors": ["core/src/lib.rs: ZodType::inline_schema default", "core/src/build_ins.rs: impl_wrapper, impl_tuples", "derive/src/impl_struct.rs: expand (inline_schema)"]}
{"id": "C11", "title": "Type-text generation terminates exactly when no eager cycle exists", "statement": "T::type_def() / T::inline() return iff the (different) graph of eagerly expanded types is cycle free; a struct containing itself through any built-in container (Vec<Self>, Option<Box<Self>>, ...) overflows for every stack size although its schema() may return.", "quantifier": "every set of mutually recursive declarations, every stack bound", "why_tests_cant": "non-termination is unobservable; unbounded graphs", "anchors": ["core/src/lib.rs: ZodType::inline default", "core/src/build_ins.rs: Vec/HashSet/HashMap/Option/Result type_def"]}
{"id": "C12", "title": "References resolve", "statement": "In the module generated for a backend whose registered types and rpc signatures mention only registered types of its namespaces, whose names hide neither a namespace nor z/request/subscribe nor a generic type, which declares nothing twice and uses no name prefixes or suffixes, every name in every schema, function body and type resolves: to an import of the prelude, to the arguments, or to the exported schema (type) of exactly the referenced registered type. A reference into a namespace outside the backend, a schema or type prefix/suffix option, a type named like its namespace and a type named Map break it (witnesses).", "quantifier": "every declaration set, every backend, every inventory order", "why_tests_cant": "universally quantified over programs", "anchors": ["core/src/rpc/server.rs: generate_with_options", "derive/src/impl_struct.rs: expand (inline_schema)", "derive/src/impl_enum/mod.rs: expand"]}
{"id": "C13", "title": "Skipped fields and variants leave no trace", "statement": "Removing every skip_deserializing field and variant from a declaration changes neither schema, nor type definition, nor acceptance by the derive macro (for tuple variants and structs alike).", "quantifier": "every declaration and every subset of skipped fields and variants", "why_tests_cant": "exponentially many attribute combinations", "anchors": ["derive/src/impl_struct.rs: expand (filter)", "derive/src/impl_enum/mod.rs: expand (filter)", "derive/src/impl_enum/field.rs: VariantFields::new"]}
{"id": "C14", "title": "Tuple-struct default order check is exact", "statement": "Deriving Zod on a tuple struct with at least two kept fields aborts with 'non-default field follows default field' iff some kept non-default field stands after some kept default field.", "quantifier": "every tuple struct of any arity", "why_tests_cant": "all flag vectors of all lengths", "anchors": ["derive/src/impl_struct.rs: expand_schema (skip_while/find)"]}
{"id": "C15", "title": "Which declarations the derive accepts", "statement": "derive(Zod) expands successfully iff: structs - the default-order check passes, a transparent struct keeps a non-flattened field and a non-transparent tuple struct keeps at least one; enums - at least one variant is kept and every kept struct variant keeps at least one field. In every other case expansion aborts or panics, never producing code.", "quantifier": "every declaration", "why_tests_cant": "all shapes and attribute combinations", "anchors": ["derive/src/impl_struct.rs: expand_schema, expand_type_def", "derive/src/impl_enum/mod.rs: abort_empty", "derive/src/impl_enum/variant/struct_variant.rs: unreachable!"]}
{"id": "C16", "title": "Which RPC signatures the namespace macro accepts", "statement": "The macro accepts a method iff its receiver is exactly `&mut self` without lifetime, all other parameters are plain identifiers, it is async or has a return type, and an async method does not return `impl Trait`; async methods become Methods, others Streams.", "quantifier": "every method signature", "why_tests_cant": "combinatorially many signatures", "anchors": ["derive/src/rpc/args.rs: RpcItem::from_ast", "derive/src/rpc/impl_rpc.rs: expand_inventory_submit"]}
{"id": "C17", "title": "Doc comments are reproduced exactly and stay closed", "statement": "For every sequence of doc attributes (any Unicode text) the emitted documentation is empty if all of them are blank, and otherwise one /** ... */ block showing exactly the lines of the trimmed attributes in order, without leading empty lines and without one trailing empty line; it is a single comment, leaving no code behind, iff no line contains */ (witness of early close).", "quantifier": "every list of doc strings", "why_tests_cant": "unbounded texts", "anchors": ["derive/src/docs.rs: RustDocs::from_attrs, ToTokens"]}
{"id": "C18", "title": "Markdown escaping of the type table", "statement": "escape(s) replaces each of < > | by its entity and leaves all other characters and their order unchanged; the result contains none of the three characters; it is not injective because & is not escaped.", "quantifier": "every string", "why_tests_cant": "unbounded inputs, sequential replaces could interfere", "anchors": ["core/src/docs.rs: escape, Line::with_link"]}
{"id": "C19", "title": "generate(): namespace blocks", "statement": "The generated module is the client prelude followed by exactly one block per namespace that belongs to the backend and has at least one registered member, in strictly ascending name order; each block lists all type members in inventory order and then all rpc members in inventory order, nothing else. A type member is the constant of its schema and the interface or alias of its type, each with the documentation; an rpc member is one function, which validates its arguments and then calls request or subscribe with the names of namespace and method.", "quantifier": "every inventory (any link order), every backend namespace list", "why_tests_cant": "link order is not under test control", "anchors": ["core/src/rpc/server.rs: generate, generate_with_options", "core/src/lib.rs: NamespaceMemberDefinition::collect"]}
{"id": "C20", "title": "generate(): determinism and isolation", "statement": "The output does not depend on how members of different namespaces, or type and rpc members, are interleaved in the inventory, nor on members of namespaces outside the backend, nor on order or repetition in the backend's namespace list.", "quantifier": "every pair of inventories with the same per-namespace order", "why_tests_cant": "permutations of link order", "anchors": ["core/src/rpc/server.rs: generate_with_options"]}
{"id": "C21", "title": "generate(): the module parses and exports what was registered", "statement": "For every inventory whose names are non-reserved identifiers and whose doc comments do not contain */, the namespace part of the generated text parses as TypeScript (uniquely) if no registered type is misshapen, and is not TypeScript at all if one is; misshapen are exactly the structs with a flattened field, the tuple structs that are not newtypes, and enums deserialized from such types. The parsed namespaces are exactly those of the backend with a member, and export exactly one const and one type per registered type and one function per rpc member, in order, with the registered schemas and types. Methods or arguments named by a reserved word or a raw identifier also give unparseable text (witnesses).", "quantifier": "every inventory, every doc text", "why_tests_cant": "infinite program space", "anchors": ["core/src/rpc/server.rs: generate_with_options", "core/src/rpc/codegen/mod.rs: RpcMember::decl"]}
{"id": "C22", "title": "Registry queries partition the inventory", "statement": "Namespace::members, NamespaceMemberDefinition::collect, RpcNamespace::rpc_members, Backend::rpc_members and Backend::zod_namespaces return exactly the registered members of the asked namespaces, each once, in inventory order, and empty namespaces have no entry.", "quantifier": "every inventory", "why_tests_cant": "unbounded inventories", "anchors": ["core/src/lib.rs: members, collect", "core/src/rpc/server.rs: rpc_members, zod_namespaces", "core/src/rpc/codegen/mod.rs: rpc_members"]}
{"id": "C23", "title": "Generated client function calls the right server method with the right validation", "statement": "For every rpc member the generated namespace contains a function of that name whose parameters are the arguments with their types, whose body mentions the arguments, validates the argument list against the tuple of the arguments' schemas in order and then calls request (methods) or subscribe (streams) with exactly the member's namespace and method name, and whose result is a Promise (Store) of the result type; with hygienic names request, subscribe and z are the imported ones. An argument or method named request, or an argument named z, captures the call (witnesses).", "quantifier": "every rpc member with any number of arguments of any types", "why_tests_cant": "infinite signature space", "anchors": ["core/src/rpc/codegen/mod.rs: RpcMember::decl, create_phantom_arg_names, RpcArgument::new"]}
{"id": "C24", "title": "Wire round trip of calls", "statement": "For every backend, every method with at least one argument in a namespace whose NAME equals its type identifier, and every id up to 2^53: the JSON the generated client sends decodes on the server iff the arguments deserialize, and then to a call of exactly that method with exactly those arguments and that id. A zero-argument method and a method of a namespace whose name no request variant has can never be called through the generated client; a namespace named like another one runs the other one's method (witness). The name of a namespace is the one given in the attribute, or else the type's identifier without r#; a method whose identifier is raw is refused.", "quantifier": "every backend shape, id and argument list", "why_tests_cant": "infinite shapes", "anchors": ["core/src/rpc/mod.rs: Request", "derive/src/rpc/backend_impl.rs: expand_req_enum", "derive/src/rpc/impl_rpc.rs: expand_req_variant_decl", "src/rpc/clients/static/websocket_client.ts: execute"]}
{"id": "C25", "title": "Dispatch is exact", "statement": "A decoded call reaches exactly the handler of the named namespace field and method, and every value whose namespace or method is unknown or whose arguments do not deserialize yields one error response carrying the request id and runs no handler. Which JSON documents are requests at all (exactly one id that is a number up to 2^64-1, exactly one tag) is decided exactly.", "quantifier": "every backend shape, every JSON value", "why_tests_cant": "all JSON values", "anchors": ["derive/src/rpc/backend_impl.rs", "derive/src/rpc/impl_rpc.rs"]}
{"id": "C26", "title": "Response round trip", "statement": "For ids up to 2^53 the client's interpretation of an encoded method or stream response is exactly the (id, data) pair of that response and error responses are never delivered to any callback; encodings of responses with different kind, id or data differ. Larger ids are rounded (witness).", "quantifier": "every response", "why_tests_cant": "unbounded payloads", "anchors": ["core/src/rpc/mod.rs: Response", "src/rpc/clients/static/websocket_client.ts: socket.onmessage"]}
{"id": "C27", "title": "Calls execute serially in arrival order", "statement": "At any point of any execution the backend state equals the sequential execution, in queue order, of a prefix of the accepted requests of all connections; no request is executed twice, skipped or reordered, whatever the interleaving of connections, disconnects and stream tasks.", "quantifier": "every schedule of connects, sends, drops, completions and stream polls", "why_tests_cant": "unbounded interleavings", "anchors": ["src/rpc/servers/proxy.rs: BackendProxy::new", "derive/src/rpc/backend_impl.rs: handle_request"]}
{"id": "C28", "title": "One response per call, in order, with the caller's id", "statement": "For every connection whose receiver is alive, the non-stream responses it got are exactly the responses the sequential specification gives to its processed requests, in order: one per method call, one per undecodable call, one per malformed message, none for streams and cancels.", "quantifier": "every schedule, every connection", "why_tests_cant": "unbounded interleavings", "anchors": ["src/rpc/servers/proxy.rs", "derive/src/rpc/impl_rpc.rs: expand_req_variant_impl_method"]}
{"id": "C29", "title": "No cross-talk between connections", "statement": "Every response delivered on a connection answers a request that was sent on that connection (with the same id), in every execution.", "quantifier": "every schedule", "why_tests_cant": "unbounded interleavings", "anchors": ["src/rpc/servers/proxy.rs: ProxyTx::send, BackendProxy::new"]}
{"id": "C30", "title": "Stream items are delivered in order, completely, to the subscriber only", "statement": "For every stream task the stream responses delivered are exactly the items its stream produced up to now, in order, tagged with the request's id, on the connection that started it, as long as that connection's receiver lives.", "quantifier": "every schedule, every stream", "why_tests_cant": "unbounded interleavings", "anchors": ["derive/src/rpc/impl_rpc.rs: expand_req_variant_impl_stream"]}
{"id": "C31", "title": "Cancelling stops the stream", "statement": "After a CancelStream for id is processed, the stream last started under id is never polled again, and no response is produced by it except by a poll already in flight; other streams and all connections are unaffected.", "quantifier": "every schedule", "why_tests_cant": "race between cancel and poll", "anchors": ["derive/src/rpc/backend_impl.rs: handle_request CancelStream"]}
{"id": "C32", "title": "Id reuse across connections", "statement": "Because one subscriber map is shared by all connections, cancelling is connection-exact iff ids are unique: under globally unique stream ids a cancel stops exactly the canceller's stream; with two clients using the same id (as two generated clients do) a client stops another client's stream and orphans its own so that no cancel can stop it (witnesses).", "quantifier": "every schedule with / without unique ids", "why_tests_cant": "needs all histories", "anchors": ["src/rpc/servers/proxy.rs: subscribers", "derive/src/rpc/backend_impl.rs: subscribers.insert(id, jh)"]}
{"id": "C33", "title": "When the server dies", "statement": "The backend loop terminates abnormally only when a method completes for a connection whose receiver has been dropped, or the user's handler panics; a client that disconnects while its method call is pending takes the server down for all clients (witness). Streams, malformed input, cancels and disconnects alone never stop it.", "quantifier": "every schedule", "why_tests_cant": "crash point can be anywhere", "anchors": ["derive/src/rpc/impl_rpc.rs: expand_req_variant_impl_method (.unwrap())", "src/rpc/servers/proxy.rs"]}
{"id": "C34", "title": "Bad input is isolated", "statement": "A malformed message or undecodable call changes neither the backend state nor the subscriptions nor any other connection; its only effect is one error response to the sender (id None for malformed JSON, the request id otherwise).", "quantifier": "every schedule, every input", "why_tests_cant": "all inputs at all points", "anchors": ["src/rpc/servers/proxy.rs", "derive/src/rpc/backend_impl.rs"]}
{"id": "C35", "title": "Shutdown aborts registered streams", "statement": "When the backend loop ends or dies, every stream registered in the subscriber map is aborted and never polled again; later sends on any connection return Disconnected.", "quantifier": "every schedule and crash point", "why_tests_cant": "crash points", "anchors": ["core/src/rpc/server.rs: Drop for SubscriberMap", "src/rpc/servers/proxy.rs: ProxyTx::send"]}
{"id": "C36", "title": "Subscription bookkeeping", "statement": "The subscriber map holds at most one handle per id, and exactly the ids of stream calls processed and not cancelled since; finished streams are never removed (the map of a server whose clients never cancel grows with every stream call).", "quantifier": "every schedule", "why_tests_cant": "unbounded histories", "anchors": ["core/src/rpc/server.rs: SubscriberMap", "derive/src/rpc/backend_impl.rs"]}
{"id": "C37", "title": "Progress", "statement": "From every reachable state in which the loop is alive and all queued requests come from live connections whose handlers do not panic, letting the loop run empties the queue and answers every request.", "quantifier": "every reachable state", "why_tests_cant": "unbounded queues", "anchors": ["src/rpc/servers/proxy.rs"]}
{"id": "C38", "title": "Streams of a gone client stop", "statement": "After a connection's receiver is dropped nothing is ever added to it, and each of its stream tasks ends at the first item it tries to send.", "quantifier": "every schedule", "why_tests_cant": "unbounded histories", "anchors": ["derive/src/rpc/impl_rpc.rs: process_stream break"]}
{"id": "C39", "title": "Websocket pump", "statement": "The axum websocket handler forwards exactly the text frames, in order, each as one request or one parse-error message, ignores other frames, stops at the first socket error/close or when the request loop is gone, and writes each response as one text frame in order; a closed socket has no further effect.", "quantifier": "every sequence of frames and responses", "why_tests_cant": "unbounded sequences", "anchors": ["src/rpc/servers/axum.rs: websocket"]}
{"id": "C40", "title": "Client request ids are unique", "statement": "Within one client the n-th call (request or stream) gets the id n, for up to 2^53 calls; nothing but the request itself listens for the id of a request, and no two stores share an id. Beyond 2^53 calls ids repeat (refuted witness).", "quantifier": "every sequence of client operations and socket events", "why_tests_cant": "unbounded histories", "anchors": ["src/rpc/clients/static/websocket_client.ts: subscribe, request"]}
{"id": "C41", "title": "A request resolves once, with its own response", "statement": "In every execution of the client a request promise is resolved at most once, and only with the data of the first method/stream message carrying its id received after the call, and it listens until it is settled; stream callbacks see exactly the messages with their id received while subscribed, in order. Exception: a message in whose course a callback throws may be missed by listeners (refuted witness for the claim without the exception).", "quantifier": "every interleaving of calls, messages, socket events and timers", "why_tests_cant": "unbounded interleavings", "anchors": ["src/rpc/clients/static/websocket_client.ts: request, subscribe, onmessage"]}
{"id": "C42", "title": "Reconnect back-off", "statement": "The n-th consecutive reconnect delay since the last successful open is 100, 200, 1000, 3000, 3000, ... ms; when a socket closes a timer with the next of these delays is set exactly if there is a listener; the table index is always in range.", "quantifier": "every number of consecutive failures", "why_tests_cant": "unbounded counter", "anchors": ["src/rpc/clients/static/websocket_client.ts: reopenTimeout"]}
{"id": "C43", "title": "Client liveness gaps", "statement": "A request that gets no method/stream message with its id stays pending whatever else happens; error responses are no such messages. Each call is sent at most once; when any socket closes, the calls not yet sent are lost for ever and none is re-sent. Two sequential requests suffice to lose the second one although a socket is open (witness execution, for all continuations).", "quantifier": "exhibited executions; for all continuations", "why_tests_cant": "races and infinite waiting", "anchors": ["src/rpc/clients/static/websocket_client.ts: onclose, reopen, close, open_and_send"]}
{"id": "C44", "title": "Socket use", "statement": "The client gives texts to open sockets only, sends all that waits for a socket when it opens, sends calls in the order they were made (across sockets), has at most one socket that connects or is connected, and none and no timer when the last listener leaves. Without listeners a socket may be held (refuted witness).", "quantifier": "every interleaving", "why_tests_cant": "unbounded interleavings", "anchors": ["src/rpc/clients/static/websocket_client.ts: open_and_send, close"]}
{"id": "C45", "title": "Duplicate exports", "statement": "The derive's registration rejects two types with the same identifier in one namespace, so without renames generated export names are unique; with serde rename two types can export the same name, and a method may be named like a type (witnesses).", "quantifier": "every set of declarations", "why_tests_cant": "all programs", "anchors": ["derive/src/lib.rs: expand_type_registration", "derive/src/impl_inventory.rs"]}
{"id": "C46", "title": "Type-table and wrapper transparency", "statement": "Smart-pointer wrappers and shadowed collections produce exactly the text of the wrapped / shadowed type in all four queries that are not overridden, for every nesting.", "quantifier": "every type", "why_tests_cant": "infinite nesting", "anchors": ["core/src/build_ins.rs: impl_wrapper, impl_shadow"]}
{"id": "C47", "title": "End-to-end call", "statement": "For a client and server connected by in-order websockets that carry texts: a call of a method (with at least one argument) through the generated client settles its promise only with the JSON of the result of that method (numbers that are no finite doubles become null), which has then been called exactly once, with the arguments of the call, on the backend left by exactly the messages accepted before; the server never accepts a call twice. If the arguments deserialize, the schedule is fair and the socket and the server loop live until the promise is settled, the call does get to its method and the promise is settled with the result, whatever other clients do. Calls of methods without arguments or of renamed namespaces, and calls whose method fails, are never settled.", "quantifier": "every schedule of both sides, every method and arguments, any behaviour of other clients", "why_tests_cant": "composition of two concurrent state machines; liveness over endless schedules", "anchors": ["src/rpc/clients/static/websocket_client.ts", "src/rpc/servers/axum.rs", "src/rpc/servers/proxy.rs"]}
{"id": "C48", "title": "Validation always comes to an end, or never does", "statement": "For every closed set of derived types without flatten, the exported schemas accept or reject every JavaScript value (they never recurse for ever nor throw anything else) if and only if no endless chain of types hands the very same value on (newtypes, transparent structs, wrappers, from/try_from, newtype variants of untagged enums). A compiling pair of types on which validation never ends is exhibited.", "quantifier": "every environment, every value", "why_tests_cant": "non-termination cannot be observed by a test; infinitely many values", "anchors": ["core/src/build_ins.rs", "derive/src/impl_struct.rs", "derive/src/impl_enum/mod.rs"]}
{"id": "C49", "title": "The generated module as a whole", "statement": "For every regular program (see C12, C21) the text after the prelude has exactly one reading as a list of namespaces; all names in it resolve; evaluating its constants gives for every registered type of the backend a schema under Namespace.Name such that, with references resolved in this very module, what the schema accepts deserializes with serde (for the fragment of C03) and is a member of the TypeScript type exported under the same name.", "quantifier": "every program, backend, inventory order and input value", "why_tests_cant": "quantifies over programs, texts and values at once", "anchors": ["core/src/rpc/server.rs: generate_with_options", "derive/src/impl_struct.rs", "derive/src/impl_enum/mod.rs", "core/src/build_ins.rs"]}
{"id": "C50", "title": "End-to-end streams", "statement": "For a client and server connected by in-order websockets: the values heard by the listener of a stream of the generated client are an initial part, in order and without duplicates, of the items of the stream made by the function that was called, which has run exactly once for this call, with its arguments, on the backend left by the messages before; later listeners hear a contiguous part; values are left out only if a callback has thrown. If the arguments deserialize, the schedule is fair, the socket and the server loop live, no callback throws and the listener stays, the stream is made and every item it yields is heard, at its place, whatever other clients do. Nothing is ever heard of a stream function without arguments or of a renamed namespace. The client never asks the server to cancel a stream, though the server understands such a request.", "quantifier": "every schedule of both sides, every stream function and arguments, any behaviour of other clients", "why_tests_cant": "composition of two concurrent state machines; liveness over endless schedules", "anchors": ["src/rpc/clients/static/websocket_client.ts:108-169", "src/rpc/servers/axum.rs", "src/rpc/servers/proxy.rs", "derive/src/rpc/backend_impl.rs"]}
{"id": "C51", "title": "Texts of messages", "statement": "The JSON reader of both ends takes exactly the texts of RFC 8259 and gives the document of the text, which is unique. The text that is written for a document is such a text, of the same document except that numbers that are no finite doubles have become null; it is well-formed UTF-16 even if the strings in the document have lone surrogates.", "quantifier": "every text and every document, nested to any depth; every faithful way of writing and reading doubles", "why_tests_cant": "infinitely many texts; escapes, surrogates and number forms combine", "anchors": ["src/rpc/clients/static/websocket_client.ts:56-144", "src/rpc/servers/axum.rs:40-71"]}
{"id": "C52", "title": "Typed calls end to end", "statement": "For every regular program: each method and stream has a generated function in the namespace of its field. The function sends its arguments, unchanged, to that very item if and only if there are as many as parameters and each is accepted by the schema of its type; otherwise it sends nothing (it throws a ZodError, if no schema throws something else or runs for ever), and what it sends is of the declared TypeScript types. Whatever it sends, and JSON preserves, is deserialized by the server, so under a fair schedule the method (with at least one argument) is called, and the promise settled with its result. The value a promise is settled with is a member of the type in the declared result Promise<T>, and every value a listener of a stream hears is a member of the type in Store<T>.", "quantifier": "every program, every argument list, every schedule of both sides, any behaviour of other clients", "why_tests_cant": "quantifies over programs, values and concurrent executions at once", "anchors": ["core/src/rpc/codegen/mod.rs", "src/rpc/clients/static/websocket_client.ts", "src/rpc/servers/axum.rs", "derive/src/rpc/impl_rpc.rs"]}
{"id": "C53", "title": "Declarations as written", "statement": "Every name in the declaration the derive works with is the given one (rename) or else what rename_all makes of the Rust identifier: words separated by underscores (fields) or capitals (variants), joined as the rule says, with the rule of the container for its variants and fields and the rule of the variant for its own fields, separately for both directions; camelCase panics exactly on fields made of underscores only. If no written name is kebab-case or becomes a key starting with a digit, all generated texts parse. Programs with names as rustc's lints want them and no rename meet the conditions of the other properties (keys, tags, distinct names): no rule makes two snake_case fields equal, and only lowercase and UPPERCASE may make two UpperCamelCase variants equal. Exhibited: kebab-case texts do not parse; for transparent structs the schema may be that of another field than serde's; default on a container is lost.", "quantifier": "every declaration with any combination of the modelled attributes", "why_tests_cant": "infinitely many identifiers and attribute combinations", "anchors": ["derive/src/lib.rs:68-75", "derive/src/impl_struct.rs", "derive/src/impl_enum/mod.rs", "serde_derive_internals 0.26: case.rs, attr.rs, check.rs"]}
{"id": "C54", "title": "The whole file, client included", "statement": "The websocket client is a program that declares each of its values once, exports subscribe and request, and takes nothing from outside but nine names of the host. For every regular program (see C12, C49) the file generated with it has exactly one reading: this very program, followed by the namespaces of the backend. No value is declared twice at the top of it exactly if no namespace is called like a declaration of the client; every value that the functions and schemas of the namespaces take from outside is a declaration of the client, and so is the type Store; if no namespace is called like one of the nine names, the client gets those from the host. Exhibited: regular programs with a namespace JSON (which the client then calls stringify and parse of) and CONNECTION (declared twice).", "quantifier": "every program, backend and inventory order", "why_tests_cant": "quantifies over all programs; tests look at single files", "anchors": ["src/rpc/clients/static/websocket_client.ts", "src/rpc/clients/mod.rs", "core/src/rpc/server.rs: generate_with_options"]}
{"id": "C55", "title": "The websocket client as a running program", "statement": "The program in websocket_client.ts, run in a browser - with microtasks, promises, sockets, timers, and code of the user that makes requests, subscribes, unsubscribes and throws anywhere - never throws outside its handlers, never loops and never does anything undefined, whatever the user, the network and the clock do. Task by task it does what the model of C40 - C44 does, so those properties hold of it. In particular: all that is sent are texts of calls of the user with increasing numbers, over open sockets only; a promise of a request is pending or fulfilled with the data of a message with its own number, never rejected; a listener is called with the data of messages of one number in order; there is at most one socket that connects or is connected, at most one timer, not both, and its delay is 100, 200, 1000 or 3000. Exhibited: a run in which a request is never sent though there is an open socket.", "quantifier": "every sequence of tasks (code of the user, socket events, messages with any text, timers), any code in the callbacks", "why_tests_cant": "infinitely many interleavings of user code, network and timers; microtask order", "anchors": ["src/rpc/clients/static/websocket_client.ts"]}
{"id": "C56", "title": "A page and a server", "statement": "A page that runs the text of the generated websocket client and the axum server, connected by websockets. Wherever the user calls a method of the backend (with at least one argument, not of a renamed namespace), the promise is pending or fulfilled with the value this method returned, when it was called once, for this call, with the arguments of this call. The same holds of all promises at once, including those of calls made by callbacks, each for a call of its own. If the method fails the promise is pending for ever; so are promises of calls without arguments and of renamed namespaces. A listener is called with the first items of the stream that the function of the call has made, in order, one argument each; items are missing in between only if callbacks throw. All listeners at once, also those that come late or are added by callbacks, hear a part of what one of the calls has made, whatever calls without arguments or of unreachable namespaces are made besides. Listeners of streams without arguments are never called. If the connection stays and nothing waits for ever, a call comes to its end: its method is called, and the promise is fulfilled if the method returns; and every item of a stream reaches a listener that is not unsubscribed, if no callback throws. What the user has got stays: no promise is ever rejected, a fulfilled promise keeps its value whatever happens later; what a listener has been called with is only added to, and nothing is once it has been unsubscribed. The page is never stuck: every event has a successor state, exactly one.", "quantifier": "every schedule of page, network and server, any code of the user, any behaviour of other clients, every backend", "why_tests_cant": "composition of a program of which every run counts, a network and a concurrent server", "anchors": ["src/rpc/clients/static/websocket_client.ts", "src/rpc/servers/axum.rs", "src/rpc/servers/proxy.rs", "derive/src/rpc/backend_impl.rs"]}
{"id": "C57", "title": "A typed page", "statement": "A page that calls the functions of the generated module, in a browser that runs the generated client, with the server of the backend. What a function does not refuse it hands to the client. The promise it returns, if it is ever fulfilled, is fulfilled with a value of the type written in the module; a listener of the store it returns is called with one argument of the written type each time. On a page all whose calls are calls of generated functions, this holds of all promises and all listeners, wherever the calls are made. If the connection stays and nothing waits for ever, every call that is not refused reaches its method, with what serde reads from the arguments, and the promise is fulfilled with the result if the method returns; every stream that is not refused is made, and all its items reach the listener.", "quantifier": "every regular program over the supported declarations, every schedule of page, network and server, any other code of the user, any other clients", "why_tests_cant": "generated module, client, network, server and serde together: infinitely many programs, values and interleavings", "anchors": ["core/src/rpc/codegen/mod.rs", "src/rpc/clients/static/websocket_client.ts", "src/rpc/servers/axum.rs", "derive/src/rpc/impl_rpc.rs", "derive/src/rpc/backend_impl.rs"]}
