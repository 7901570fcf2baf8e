# Formal model of nicolaiunrein/zod in Rocq (Coq 8.16.1)

## 1. What is being verified

`zod` (Rust) derives a zod schema text and a TypeScript type text from Rust declarations,
collects them with rpc methods into a generated TypeScript module, and serves the rpc
methods over a websocket to a client whose runtime is part of the module.

Everything lives in `rocq/theories/`. For each layer there are four kinds of files:

* the **model**: total computable functions that follow the code function by function, each
  definition with the file and lines it models;
* the **specification**: what the theorems talk about, written without looking at the model's
  helper functions (`*Spec.v`), and models of what the *output* of the code means (JavaScript,
  TypeScript, zod, serde);
* the **proofs** (`*Proofs.v`, `*Lemmas.v`, ...), none of which is trusted;
* the **property theorems** (`Props*.v`: statements, `exact lemma`, `Print Assumptions`), and
  concrete instances of their hypotheses and witnesses (`*Examples.v`).

| layer | source | model | specification |
|---|---|---|---|
| type -> text | `core/src/build_ins.rs`, `core/src/lib.rs`, `derive/src/impl_struct.rs`, `derive/src/impl_enum/**`, `derive/src/args.rs` | `RustTy.v`, `Gen.v` | `GenSpec.v` |
| meaning of the texts | - | - | `JsLex.v`, `JsParse.v`, `TsType.v`, `JsModule.v` (grammars and parsers), `Js.v` (values, JSON), `Zod.v` (zod 3.20), `Serde.v` (serde 1.0), `ZodSpec.v`, `SerdeSpec.v`, `CompleteSpec.v`, `ParseSpec.v`, `TsSpec.v` |
| doc comments, type table | `derive/src/docs.rs`, `core/src/docs.rs` | `Docs.v` | `DocsSpec.v` |
| registry, module text | `core/src/rpc/server.rs`, `core/src/rpc/codegen/mod.rs`, `core/src/lib.rs`, `derive/src/impl_inventory.rs`, `derive/src/lib.rs` | `Registry.v` | `RegistrySpec.v`, `ModuleSpec.v`, `ScopeSpec.v` |
| namespace macro | `derive/src/rpc/args.rs`, `derive/src/rpc/impl_rpc.rs`, `derive/src/lib.rs` | `Macro.v` | `MacroSpec.v` |
| wire format, dispatch | `core/src/rpc/mod.rs`, `core/src/rpc/error.rs`, `derive/src/rpc/backend_impl.rs`, `derive/src/rpc/impl_rpc.rs`, `derive/src/impl_namespace.rs`, `execute` of the client | `Wire.v` | `WireSpec.v` |
| server | `src/rpc/servers/proxy.rs` and the macro output it runs | `Server.v` | `ServerSpec.v` (a sequential program) |
| websocket handler | `src/rpc/servers/axum.rs` | `Pump.v` | `PumpSpec.v` |
| client runtime | `src/rpc/clients/static/websocket_client.ts` | `Client.v` | `ClientSpec.v` |
| JSON texts | ECMA-262 `JSON`, serde_json | `JsonText.v` | `JsonTextSpec.v` |
| both together | all of the last four | `E2E.v`, `E2EText.v` | `E2ESpec.v`, `E2EStreamSpec.v` |
| attributes of serde | `derive/src/lib.rs`, `impl_struct.rs`, `impl_enum/*` (what they ask serde_derive_internals for) | `Written.v` | `WrittenSpec.v` |
| the client as a program, the whole file | `src/rpc/clients/static/websocket_client.ts` | `Prelude.v` | `TsProgram.v`, `FileSpec.v` |
| the client as a running program | `src/rpc/clients/static/websocket_client.ts`, ECMA-262, WebSockets and HTML standards | `JsSem.v` | `JsSpec.v` |
| generated functions, typed calls | `core/src/rpc/codegen/mod.rs` (output), all of the above | `ClientFn.v` | `TypedSpec.v` |

## 2. Plan per property, and where it stands

All of C01 - C57 are proved. Where the natural form of a claim is false of the code the property
is worded in the strongest true form found, and the theorems named `_refuted` prove, by concrete
programs or executions, that the conditions cannot be dropped.

* **C01, C07, C21, C23** (texts parse). Generators are functions to *strings*. A lexer (automaton
  over characters) and pushdown parsers over tokens are defined independently of them. The theorems
  say that the parser accepts the generated string, and with which tree; readings are unique. Proof:
  the intended tree (`Ast.v`, `TsAst.v`, no trust needed), lexing lemmas that compose, print/parse
  round trip.
* **C02, C06, C48** (zod). `Zod.v` evaluates an expression to a schema and parses values with fuel;
  load succeeds iff no bool, flatten or ill-tagged union is reachable. C48: parsing answers for every
  value iff there is no endless chain of types which hand the same value on.
* **C03, C04, C05** (schema vs serde). Induction over the depth of the parse against `Serde.de` /
  `Serde.ser`. The fragments are `SerdeSpec.sound`, `CompleteSpec.complete`; each exclusion has a witness.
* **C08, C09** (TypeScript types). Membership `TsSpec.member` is structural, by step-index free
  inductive definition; both theorems by induction over the generator's tree.
* **C10, C11** (termination of the generators). Fuel is stack depth. Some depth suffices iff the graph
  of eager calls has no cycle below the type; `C10_schema_dichotomy`: it returns or overflows for every depth.
* **C12, C49** (scoping, whole module). `ScopeSpec.sees` says what a name in a namespace block stands
  for; C49 composes parsing, scoping, loading and soundness for the text of the whole module.
* **C13, C14, C15, C16, C46**. Macro acceptance as equivalences; induction on declarations.
* **C17, C18**. Doc comments and escapes over lists of Unicode scalar values.
* **C19, C20, C22, C45**. Inventories are arbitrary lists; `generate` is characterised by an equivalence.
* **C24, C25, C26** (wire). The decoders serde_derive generates, over JSON trees; equivalences with a
  declarative `addressed`.
* **C27 - C38** (server). One transition system, arbitrary event lists; one invariant (`ServerProofs.Inv`)
  relates each reachable state to the sequential program of `ServerSpec.v`.
* **C39** (pump). Refines the server; frames in/out are exact prefixes; `C39_refines_proxy` carries
  C27 - C38 over to what happens behind websockets.
* **C40 - C44** (client). Transition system of the TypeScript runtime with arbitrary behaviour of the
  user, the sockets and the timer.
* **C47** (end to end). Client and server connected by in-order links, other clients arbitrary. Safety:
  a request is settled by its own handler's result only, handlers run at most once. Liveness: over endless
  fair schedules a measure argument (`E2ELive.leads`) per hop.
* **C50** (streams end to end). What a listener has been told is matched hop by hop (texts received, written,
  taken, queued) with what the task of the stream has yielded; liveness as in C47, for every item.
* **C51** (JSON texts). A printer and a reader of texts against the grammar of RFC 8259 as inductive
  definitions, in both directions; the round trip then follows. C47 and C50 are stated over texts.
* **C52** (typed calls). `ClientFn.invoke` runs a function of the parsed module: the arguments tuple against the
  schemas of this module, then `request`/`subscribe`. Composition of C49 with C47 and C50: what the function lets
  through is what the dispatcher decodes, and what comes back is in the TypeScript type of the function.
* **C53** (declarations as written). `Written.v` computes the declarations of the other layers from declarations with
  Rust identifiers and attributes. The spec says what the rules do to lists of words; injectivity by inverse functions
  on characters. `C53_usual_programs` discharges the name conditions of the other properties.

* **C54** (whole file). `Prelude.v` is the text of the client, `TsProgram.v` a lexer and a parser for the TypeScript it is
  written in (independent of the generator). The lexer of C21 is embedded in this one, so readings compose; names by
  computation on the tree of the client.
* **C55** (the running client). `JsSem.v` is an interpreter with fuel for the tree of C54: scopes, closures, promises and
  microtasks (ECMA-262), sockets (WebSockets standard), timers, code of the user as scripts. `JsHeap.v`, `JsWorld.v`,
  `JsStep.v`, `JsEntries.v` describe the states of the page that belong to a state of `Client.v`; each task, callback and
  microtask keeps that relation (`JsActs.v` ... `JsTasks.v`, `JsPage.v`), so the properties of the model carry over
  (`JsClaims.v`). `JsMono.v`: more fuel changes nothing, so a claim about one amount of fuel is a claim about the run.
* **C56** (a page and a server). `System.v` connects the page of C55 (not the model `Client.v`) with the server of `Pump.v` by
  links as in C47. `SystemProofs.v`: each step of such a system is a list of steps of `E2E.v`; the number of a call, the
  positions of promises and listeners are carried along. `SystemClaims.v` then takes C47 and C50 over to what the user sees,
  `SystemListen.v` does so for all listeners at once. `SystemStays.v`: later steps only add to what is there.
  `SystemFair.v` says what an endless fair run of page, network and server is; `SystemSched.v` lays the steps of the model that go
  with each step of the page end to end and shows the schedule fair in the sense of C47; `SystemLive.v`, `SystemFlow.v` take the
  liveness of C47 (calls) and C50 (streams) over. Choosing the run of the model for an endless run of the page uses
  `constructive_indefinite_description`.
* **C57** (a typed page). `page_action` says what a page does that runs a generated function (`ClientFn.v`); `SystemTyped.v` composes
  C52 and C56: what is accepted by the schemas is read by serde and reaches the method, what is written is of the type in the module.
  `SystemTypedAll.v`: the same of all promises and listeners of a page all whose calls are calls of generated functions.

## 3. Trusted base

### 3.1 Logic

The Coq 8.16.1 kernel (including `vm_compute`, used in examples only to evaluate closed terms) and
coqchk. No axioms of our own. `Print Assumptions` answers *Closed under the global context* for every one of the
property theorems but four: `C56_comes_to_an_end`, `C56_stream_arrives`, `C57_accepted_calls_run` and `C57_accepted_streams_flow` use one axiom of the standard library,
`Coq.Logic.IndefiniteDescription.constructive_indefinite_description` (an axiom of choice). The table in section 5 lists them. No functors, module types, admitted proofs or
plugins are used; only the Coq standard library is imported.

### 3.2 The reading of the code

The models in the third column of the table were written by reading the sources; that they say what the
sources say is trusted. What is modelled and what is simplified:

* **Generators** (`Gen.v`). All built-in impls of `core/src/build_ins.rs` (`impl_primitive`, tuples,
  arrays, `impl_wrapper`, `impl_shadow`, `Option`, `Result`, maps and sets) and all four trait
  functions; derive for structs and enums with `rename`, `rename_all` (the model takes the final serialize and deserialize
  names; `Written.v` computes them), `skip*`, `default`,
  `flatten`, `transparent`, `tag`, `content`, `untagged`, `from`, `try_from`, `deny_unknown_fields`.
  `format!` and `join` are string concatenation. Generic declarations cannot be derived and are not
  modelled. A declaration refers to others by index in an environment; Rust's name resolution, and the
  orphan and coherence rules are taken for granted.
* **Derive errors**: exactly the aborts and panics of the crate (C14, C15); what syn, darling and
  serde_derive reject beforehand is `Reject` or excluded by hypotheses (`tags_fit`).
* **Attributes** (`Written.v`): what serde_derive_internals 0.26 makes of identifiers and attributes, from
  its documented behaviour (its source is not in the repository). ASCII identifiers, well-formed attributes
  given at most once; `alias`, `with`, `bound`, `getter`, `into`, `remote`, `other`, `borrow` are not modelled.
* **Docs** (`Docs.v`): `str::trim` with Unicode White_Space, `str::lines`, UTF-8 are modelled; attribute
  parsing by syn is not.
* **Registry** (`Registry.v`): `inventory` yields an arbitrary list (link order is unspecified);
  `BTreeMap`/`BTreeSet` as sorted association lists, `HashMap` by its lookups. The client prelude is an
  arbitrary string; for the websocket client it is parsed and checked against the rest of the module (C54). rustc's
  duplicate-definition error E0592 is the hypothesis `registers` of C45.
* **Macro** (`Macro.v`): syntax trees of syn 1.0 restricted to what the macro inspects; parsing of Rust
  text is not modelled.
* **Wire** (`Wire.v`): `Request`, `<Backend>Req`, `<Namespace>Req`, `Response` as serde_derive 1.0
  (>= 1.0.152) encodes them. There is no Cargo.lock, so two version-dependent facts are parameters: whether
  `CancelStream` may be read from an array (`seq_cancel`) and whether `()` reads from `{}` in a buffered
  context (`unit_map`). JSON documents are trees; their texts are those of `JsonText.v`. `fine` = what serde_json reads
  at all (no lone surrogates, numbers within f64, depth at most 127). `float` is serde_json's conversion
  of non-integer literals. The `Deserialize` impls of argument types are the parameter `dec`, user code is
  the record `handlers`.
* **JSON texts** (`JsonText.v`): compact output, escapes of ECMA-262 (well-formed `JSON.stringify`); serde_json
  differs from it in no string without lone surrogates, and a Rust string has none. The decimal form of a
  double and the rounding of a literal are parameters, assumed to be inverse to each other (`faithful`).
  Integer literals are read exactly; that `JSON.parse` rounds them is part of `Js.jsparse`, except that
  integer literals from 2^1024 on are not read as infinite.
* **Browser** (`JsSem.v`): the part of ECMA-262 the client uses (calls, closures, `let`/`const` with dead zones, promises,
  `async` functions without `await`, `Set`, `forEach`), sockets and timers; anything else is the result `Stuck`, which C55
  excludes. `console` does nothing, `performance.now()` is an opaque value. Types are erased. The user calls `request`,
  `subscribe`, and what those return, at any time and in any callback, with any data as arguments; what they throw is
  reported or caught. A stringified argument has no `toJSON` and no cycles. [==] of data that is no integer with a number
  is a parameter.
* **Server** (`Server.v`): events are atomic between await points; futures channels are unbounded FIFO
  queues whose `send` fails iff the receiver is gone; tokio tasks run when the schedule says; `abort`
  takes effect at the next suspension point. Handlers are functions of the backend value and the
  arguments with explicit panic (`None`).
* **Pump** (`Pump.v`): `select!` as interleaving of the two futures; axum delivers frames of one socket in
  order; encoding a response cannot fail.
* **Client** (`Client.v`): run-to-completion tasks; WebSocket events as in the WHATWG standard (no message
  before open or after closing has started, `error` and `close` of a failing socket in one task, no `open`
  after `close()`); the request counter is a double (stays at 2^53). Not modelled: `new WebSocket`
  throwing, several clients on one page, the console.
* **Generated functions** (`ClientFn.v`): `z.tuple([...]).parse([...arguments])`-style validation as the generator
  writes it, then one call of `request` or `subscribe` with the arguments as given (not the parsed ones, as in the
  code). That TypeScript's compiler erases the type annotations and nothing else is taken for granted.
* **Links** (`E2E.v`): a websocket connection delivers in order, without duplication, and loses what is under
  way when an end closes.

**Validation of the reading.** `Conformance.v` transcribes the repository's own tests: all of `tests/*.rs` and the
failing derives of `tests/ui/zod` (except the missing `namespace` attribute, which is not in the model). The
declarations are written down as in the tests, attributes included; the generated texts, the JSON documents and
the compile errors are those the tests assert. The remaining ui tests (`tests/ui/rpc`) are in `MacroExamples.v`.

Not modelled at all: `build.rs`, the `examples/` (used as instances), CLI and feature-flag
plumbing, `src/lib.rs` re-exports, the `TypeScript` compiler's emit, error *texts* of serde_json.

### 3.3 The reading of other people's code

* **JavaScript/TypeScript** grammars: conservative subsets of ECMA-262 and the TypeScript grammar - what the
  lexer or parser does not know is an error. Names are ASCII (`ident`); non-ASCII identifiers, which
  TypeScript would accept, are outside the theorems. The restriction "no line terminator before `=>`" is
  not checked (the generators never write one). Namespaces mean: constants evaluated in order, later blocks
  of the same name not merged (the generator writes each name once, C19).
* **zod 3.20** (`Zod.v`): the methods the generators use, written after zod's `types.ts`, including
  discriminated unions, preprocessing of defaults, strict/strip behaviour and `z.lazy`. zod's IP regexes are
  a parameter.
* **serde / serde_json** (`Serde.v`): self-describing JSON. Not modelled: aliases, `with`/
  `deserialize_with`, `skip_serializing_if`, `other`, borrowed data, non-default features; `try_from`,
  `flatten`, IP addresses and map keys are parameters. In *buffered* contexts (internally tagged, untagged,
  flatten) real serde additionally accepts some documents (numeric variant tags, `{}` for `()`) and
  refuses 128-bit integers and integer map keys; 128-bit integers are outside the sound fragment, and where
  the model accepts less than serde, C03 and C04 ("... is read by serde") hold of serde all the more.
  Duplicate keys of an object are excluded (`sane`), JSON.stringify cannot produce them.
* **TypeScript membership** (`TsSpec.v`): structural, with `undefined` for absent optional properties;
  excess properties are allowed.

## 4. Findings

False claims one would like to make, each with a machine-checked witness (theorem names in `MANIFEST.json`):

1. `bool` fields make the generated module throw while loading (`z.bool` does not exist) - C02.
2. `#[serde(flatten)]` gives schemas that neither accept nor reject any object - C02.
3. Validation lets 2^64, 2^63 ... through, `usize`/`isize` are unbounded - C06; sets, maps, tuples
   with defaults, missing `Option`s in tuples and others pass validation but fail in serde - C03, C04.
4. `Option` serializes to `null`, which neither the schema nor the type allows - C05, C09.
5. A type that contains itself through `Box`, `Arc`, ... overflows the stack in `schema()`; through any
   container in `type_def()` - C10, C11. Two types can validate for ever - C48.
6. Doc comments containing `*/` escape the comment - C17. The type table is not injective - C18.
7. A kebab-case rename, reserved names, and struct shapes whose type text is an interface of a
   non-object break the module - C01, C07, C21. Arguments named like the function's own names are captured - C23.
8. Methods without arguments cannot be called, renamed namespaces are unreachable or reach another one - C24, C47, C50.
9. Ids beyond 2^53 are rounded - C26, C40.
10. One shared subscriber map: clients cancel each other's streams or make them unstoppable - C32.
11. A client that disconnects while its method runs panics the server loop for everybody - C33.
12. A response taken from the queue but not written is lost when the socket closes - C39; requests are never
    resent and error responses leave the promise pending for ever - C43, C47; a throwing callback makes
    other listeners miss the message - C41.
13. The client never sends `CancelStream`: unsubscribing leaves the stream running on the server - C50.
14. `rename_all = "kebab-case"` and variant renames give unquoted keys, `transparent` takes the first field instead of the
    one serde takes, `default` on the container does not make fields optional - C53.
15. A namespace called like a name of the client (`CONNECTION`, `request`, ...) is declared twice, one called `JSON`,
    `Set`, `Promise`, ... takes the place of what the client uses - C54.

## 5. Theorems and their assumptions

`Print Assumptions` of each theorem, as printed by the build:

| property | theorem | file | Print Assumptions |
|---|---|---|---|
| C01 | `C01_schema_text_parses` | `PropsZod.v` | Closed under the global context |
| C01 | `C01_any_name_refuted` | `PropsZod.v` | Closed under the global context |
| C02 | `C02_schema_loads_iff` | `PropsZod.v` | Closed under the global context |
| C02 | `C02_inline_schema_loads_iff` | `PropsZod.v` | Closed under the global context |
| C02 | `C02_clean_programs_load` | `PropsZod.v` | Closed under the global context |
| C02 | `C02_flatten_never_answers` | `PropsZod.v` | Closed under the global context |
| C03 | `C03_accepted_output_deserializes` | `PropsSerde.v` | Closed under the global context |
| C03 | `C03_accepted_safe_output_deserializes` | `PropsSerde.v` | Closed under the global context |
| C03 | `C03_numbers_refuted` | `PropsSerde.v` | Closed under the global context |
| C03 | `C03_lone_surrogate_refuted` | `PropsSerde.v` | Closed under the global context |
| C03 | `C03_containers_refuted` | `PropsSerde.v` | Closed under the global context |
| C03 | `C03_map_loses_entries_refuted` | `PropsSerde.v` | Closed under the global context |
| C03 | `C03_tuple_default_refuted` | `PropsSerde.v` | Closed under the global context |
| C03 | `C03_skipped_in_tuple_refuted` | `PropsSerde.v` | Closed under the global context |
| C03 | `C03_missing_option_refuted` | `PropsSerde.v` | Closed under the global context |
| C03 | `C03_empty_tuple_variant_refuted` | `PropsSerde.v` | Closed under the global context |
| C03 | `C03_depth_refuted` | `PropsSerde.v` | Closed under the global context |
| C04 | `C04_accepted_value_deserializes` | `PropsSerde.v` | Closed under the global context |
| C04 | `C04_external_extra_key_refuted` | `PropsSerde.v` | Closed under the global context |
| C04 | `C04_result_extra_key_refuted` | `PropsSerde.v` | Closed under the global context |
| C04 | `C04_adjacent_unit_content_refuted` | `PropsSerde.v` | Closed under the global context |
| C04 | `C04_deny_unknown_refuted` | `PropsSerde.v` | Closed under the global context |
| C05 | `C05_written_accepted` | `PropsComplete.v` | Closed under the global context |
| C05 | `C05_plain_written_accepted` | `PropsComplete.v` | Closed under the global context |
| C05 | `C05_null_refuted` | `PropsComplete.v` | Closed under the global context |
| C05 | `C05_char_outside_bmp_refuted` | `PropsComplete.v` | Closed under the global context |
| C05 | `C05_set_and_map_refuted` | `PropsComplete.v` | Closed under the global context |
| C05 | `C05_shortened_tuple_refuted` | `PropsComplete.v` | Closed under the global context |
| C05 | `C05_different_when_serializing_refuted` | `PropsComplete.v` | Closed under the global context |
| C05 | `C05_internal_newtype_refuted` | `PropsComplete.v` | Closed under the global context |
| C06 | `C06_small_int_exact` | `PropsZod.v` | Closed under the global context |
| C06 | `C06_wide_int_one_too_many` | `PropsZod.v` | Closed under the global context |
| C06 | `C06_usize_has_no_upper_bound` | `PropsZod.v` | Closed under the global context |
| C06 | `C06_isize_has_no_bound` | `PropsZod.v` | Closed under the global context |
| C07 | `C07_type_text_parses` | `PropsTs.v` | Closed under the global context |
| C07 | `C07_any_name_refuted` | `PropsTs.v` | Closed under the global context |
| C07 | `C07_any_namespace_refuted` | `PropsTs.v` | Closed under the global context |
| C08 | `C08_accepted_is_member` | `PropsTs.v` | Closed under the global context |
| C08 | `C08_duplicate_field_refuted` | `PropsTs.v` | Closed under the global context |
| C08 | `C08_converse_refuted` | `PropsTs.v` | Closed under the global context |
| C09 | `C09_written_is_member` | `PropsTs.v` | Closed under the global context |
| C09 | `C09_plain_written_is_member` | `PropsTs.v` | Closed under the global context |
| C09 | `C09_null_refuted` | `PropsTs.v` | Closed under the global context |
| C09 | `C09_set_and_map_refuted` | `PropsTs.v` | Closed under the global context |
| C09 | `C09_different_when_serializing_refuted` | `PropsTs.v` | Closed under the global context |
| C09 | `C09_internal_newtype_refuted` | `PropsTs.v` | Closed under the global context |
| C10 | `C10_schema_returns_iff_acyclic` | `PropsGen.v` | Closed under the global context |
| C10 | `C10_inline_schema_returns_iff_acyclic` | `PropsGen.v` | Closed under the global context |
| C10 | `C10_schema_dichotomy` | `PropsGen.v` | Closed under the global context |
| C10 | `C10_self_through_pointer_overflows` | `PropsGen.v` | Closed under the global context |
| C10 | `C10_lazy_programs_return` | `PropsGen.v` | Closed under the global context |
| C10 | `C10_text_unique` | `PropsGen.v` | Closed under the global context |
| C11 | `C11_type_returns_iff_acyclic` | `PropsGen.v` | Closed under the global context |
| C11 | `C11_inline_returns_iff_acyclic` | `PropsGen.v` | Closed under the global context |
| C11 | `C11_type_dichotomy` | `PropsGen.v` | Closed under the global context |
| C11 | `C11_self_through_container_overflows` | `PropsGen.v` | Closed under the global context |
| C11 | `C11_depth_enough` | `PropsGen.v` | Closed under the global context |
| C12 | `C12_names_resolve` | `PropsModule.v` | Closed under the global context |
| C12 | `C12_type_names_resolve` | `PropsModule.v` | Closed under the global context |
| C12 | `C12_foreign_namespaces_missing` | `PropsModule.v` | Closed under the global context |
| C12 | `C12_foreign_reference_refuted` | `PropsModule.v` | Closed under the global context |
| C12 | `C12_affixes_refuted` | `PropsModule.v` | Closed under the global context |
| C12 | `C12_hidden_names_refuted` | `PropsModule.v` | Closed under the global context |
| C13 | `C13_derive_ignores_skipped` | `PropsGen.v` | Closed under the global context |
| C13 | `C13_texts_ignore_skipped` | `PropsGen.v` | Closed under the global context |
| C13 | `C13_interface_ignores_skipped` | `PropsGen.v` | Closed under the global context |
| C14 | `C14_default_order_exact` | `PropsGen.v` | Closed under the global context |
| C15 | `C15_derive_accepts_iff` | `PropsGen.v` | Closed under the global context |
| C16 | `C16_accepted` | `PropsMacro.v` | Closed under the global context |
| C16 | `C16_items` | `PropsMacro.v` | Closed under the global context |
| C17 | `C17_doc_lines` | `PropsDocs.v` | Closed under the global context |
| C17 | `C17_lines_exist` | `PropsDocs.v` | Closed under the global context |
| C17 | `C17_closed` | `PropsDocs.v` | Closed under the global context |
| C17 | `C17_no_token` | `PropsDocs.v` | Closed under the global context |
| C17 | `C17_always_closed_refuted` | `PropsDocs.v` | Closed under the global context |
| C18 | `C18_escape` | `PropsDocs.v` | Closed under the global context |
| C18 | `C18_no_markup_left` | `PropsDocs.v` | Closed under the global context |
| C18 | `C18_column` | `PropsDocs.v` | Closed under the global context |
| C18 | `C18_injective_refuted` | `PropsDocs.v` | Closed under the global context |
| C19 | `C19_module_text` | `PropsRegistry.v` | Closed under the global context |
| C20 | `C20_depends_only_on_own_members` | `PropsRegistry.v` | Closed under the global context |
| C20 | `C20_deterministic` | `PropsRegistry.v` | Closed under the global context |
| C21 | `C21_module_parses` | `PropsModule.v` | Closed under the global context |
| C21 | `C21_misshapen_never_parses` | `PropsModule.v` | Closed under the global context |
| C21 | `C21_interfaces` | `PropsModule.v` | Closed under the global context |
| C21 | `C21_one_reading` | `PropsModule.v` | Closed under the global context |
| C21 | `C21_exports` | `PropsModule.v` | Closed under the global context |
| C21 | `C21_struct_shapes_refuted` | `PropsModule.v` | Closed under the global context |
| C21 | `C21_reserved_names_refuted` | `PropsModule.v` | Closed under the global context |
| C22 | `C22_members` | `PropsRegistry.v` | Closed under the global context |
| C22 | `C22_collect` | `PropsRegistry.v` | Closed under the global context |
| C22 | `C22_zod_namespaces` | `PropsRegistry.v` | Closed under the global context |
| C22 | `C22_rpc_members` | `PropsRegistry.v` | Closed under the global context |
| C23 | `C23_function` | `PropsModule.v` | Closed under the global context |
| C23 | `C23_function_unique` | `PropsModule.v` | Closed under the global context |
| C23 | `C23_hygiene` | `PropsModule.v` | Closed under the global context |
| C23 | `C23_captured_refuted` | `PropsModule.v` | Closed under the global context |
| C24 | `C24_round_trip` | `PropsWire.v` | Closed under the global context |
| C24 | `C24_without_arguments` | `PropsWire.v` | Closed under the global context |
| C24 | `C24_renamed_namespace` | `PropsWire.v` | Closed under the global context |
| C24 | `C24_own_name` | `PropsWire.v` | Closed under the global context |
| C24 | `C24_given_name` | `PropsWire.v` | Closed under the global context |
| C24 | `C24_raw_method` | `PropsWire.v` | Closed under the global context |
| C24 | `C24_any_namespace_refuted` | `PropsWire.v` | Closed under the global context |
| C25 | `C25_requests` | `PropsWire.v` | Closed under the global context |
| C25 | `C25_decodes_what_is_named` | `PropsWire.v` | Closed under the global context |
| C25 | `C25_refused` | `PropsWire.v` | Closed under the global context |
| C25 | `C25_method_called` | `PropsWire.v` | Closed under the global context |
| C25 | `C25_method_returned` | `PropsWire.v` | Closed under the global context |
| C25 | `C25_stream_called` | `PropsWire.v` | Closed under the global context |
| C26 | `C26_method_understood` | `PropsWire.v` | Closed under the global context |
| C26 | `C26_stream_understood` | `PropsWire.v` | Closed under the global context |
| C26 | `C26_errors_dropped` | `PropsWire.v` | Closed under the global context |
| C26 | `C26_injective` | `PropsWire.v` | Closed under the global context |
| C26 | `C26_all_ids_refuted` | `PropsWire.v` | Closed under the global context |
| C27 | `C27_serial_execution` | `PropsServer.v` | Closed under the global context |
| C28 | `C28_one_response_in_order` | `PropsServer.v` | Closed under the global context |
| C28 | `C28_dropped_receiver_prefix` | `PropsServer.v` | Closed under the global context |
| C29 | `C29_no_cross_talk` | `PropsServer.v` | Closed under the global context |
| C30 | `C30_stream_items_in_order` | `PropsServer.v` | Closed under the global context |
| C30 | `C30_items_only_grow` | `PropsServer.v` | Closed under the global context |
| C31 | `C31_cancel_stops` | `PropsServer.v` | Closed under the global context |
| C31 | `C31_cancel_frame` | `PropsServer.v` | Closed under the global context |
| C32 | `C32_unique_ids_exact` | `PropsServer.v` | Closed under the global context |
| C32 | `C32_orphan_unstoppable` | `PropsServer.v` | Closed under the global context |
| C32 | `C32_shared_ids_refuted` | `PropsServer.v` | Closed under the global context |
| C33 | `C33_panic_causes` | `PropsServer.v` | Closed under the global context |
| C33 | `C33_orderly_never_dies` | `PropsServer.v` | Closed under the global context |
| C33 | `C33_disconnect_refuted` | `PropsServer.v` | Closed under the global context |
| C34 | `C34_bad_input_isolated` | `PropsServer.v` | Closed under the global context |
| C35 | `C35_shutdown_aborts` | `PropsServer.v` | Closed under the global context |
| C35 | `C35_sends_fail` | `PropsServer.v` | Closed under the global context |
| C36 | `C36_bookkeeping` | `PropsServer.v` | Closed under the global context |
| C36 | `C36_map_never_shrinks` | `PropsServer.v` | Closed under the global context |
| C37 | `C37_progress` | `PropsServer.v` | Closed under the global context |
| C37 | `C37_progress_busy` | `PropsServer.v` | Closed under the global context |
| C38 | `C38_gone_client_silent` | `PropsServer.v` | Closed under the global context |
| C38 | `C38_gone_stream_ends` | `PropsServer.v` | Closed under the global context |
| C39 | `C39_frames_in` | `PropsPump.v` | Closed under the global context |
| C39 | `C39_stops` | `PropsPump.v` | Closed under the global context |
| C39 | `C39_frames_out` | `PropsPump.v` | Closed under the global context |
| C39 | `C39_progress` | `PropsPump.v` | Closed under the global context |
| C39 | `C39_closed` | `PropsPump.v` | Closed under the global context |
| C39 | `C39_own_connection` | `PropsPump.v` | Closed under the global context |
| C39 | `C39_refines_proxy` | `PropsPump.v` | Closed under the global context |
| C39 | `C39_every_taken_response_written_refuted` | `PropsPump.v` | Closed under the global context |
| C40 | `C40_ids_count` | `PropsClient.v` | Closed under the global context |
| C40 | `C40_request_id_own` | `PropsClient.v` | Closed under the global context |
| C40 | `C40_store_id_own` | `PropsClient.v` | Closed under the global context |
| C40 | `C40_for_ever_refuted` | `PropsClient.v` | Closed under the global context |
| C41 | `C41_request_adds` | `PropsClient.v` | Closed under the global context |
| C41 | `C41_request_settles` | `PropsClient.v` | Closed under the global context |
| C41 | `C41_request_waits` | `PropsClient.v` | Closed under the global context |
| C41 | `C41_listener_hears` | `PropsClient.v` | Closed under the global context |
| C41 | `C41_all_messages_refuted` | `PropsClient.v` | Closed under the global context |
| C42 | `C42_delays` | `PropsClient.v` | Closed under the global context |
| C42 | `C42_timer` | `PropsClient.v` | Closed under the global context |
| C42 | `C42_in_range` | `PropsClient.v` | Closed under the global context |
| C43 | `C43_stays_pending` | `PropsClient.v` | Closed under the global context |
| C43 | `C43_error_is_no_answer` | `PropsClient.v` | Closed under the global context |
| C43 | `C43_sent_once` | `PropsClient.v` | Closed under the global context |
| C43 | `C43_closed_lost` | `PropsClient.v` | Closed under the global context |
| C43 | `C43_requests_get_through_refuted` | `PropsClient.v` | Closed under the global context |
| C44 | `C44_sends_on_open` | `PropsClient.v` | Closed under the global context |
| C44 | `C44_opened_sends` | `PropsClient.v` | Closed under the global context |
| C44 | `C44_in_call_order` | `PropsClient.v` | Closed under the global context |
| C44 | `C44_one_socket` | `PropsClient.v` | Closed under the global context |
| C44 | `C44_last_leaves` | `PropsClient.v` | Closed under the global context |
| C44 | `C44_no_listener_no_socket_refuted` | `PropsClient.v` | Closed under the global context |
| C45 | `C45_unique_names` | `PropsRegistry.v` | Closed under the global context |
| C45 | `C45_renamed_refuted` | `PropsRegistry.v` | Closed under the global context |
| C45 | `C45_method_named_like_type_refuted` | `PropsRegistry.v` | Closed under the global context |
| C46 | `C46_wrapper_forwards` | `PropsGen.v` | Closed under the global context |
| C46 | `C46_unwrap_everywhere` | `PropsGen.v` | Closed under the global context |
| C47 | `C47_settled_by_its_method` | `PropsE2E.v` | Closed under the global context |
| C47 | `C47_comes_to_an_end` | `PropsE2E.v` | Closed under the global context |
| C47 | `C47_without_arguments` | `PropsE2E.v` | Closed under the global context |
| C47 | `C47_renamed_namespace` | `PropsE2E.v` | Closed under the global context |
| C47 | `C47_at_most_once` | `PropsE2E.v` | Closed under the global context |
| C47 | `C47_failed_for_ever` | `PropsE2E.v` | Closed under the global context |
| C47 | `C47_response_texts` | `PropsE2E.v` | Closed under the global context |
| C48 | `C48_answers_iff_grounded` | `PropsComplete.v` | Closed under the global context |
| C48 | `C48_types_over_grounded_answer` | `PropsComplete.v` | Closed under the global context |
| C48 | `C48_always_answers_refuted` | `PropsComplete.v` | Closed under the global context |
| C49 | `C49_module` | `PropsModule.v` | Closed under the global context |
| C49 | `C49_module_sound` | `PropsModule.v` | Closed under the global context |
| C49 | `C49_module_typed` | `PropsModule.v` | Closed under the global context |
| C50 | `C50_heard_in_order` | `PropsStream.v` | Closed under the global context |
| C50 | `C50_everything_is_heard` | `PropsStream.v` | Closed under the global context |
| C50 | `C50_any_listener` | `PropsStream.v` | Closed under the global context |
| C50 | `C50_without_arguments` | `PropsStream.v` | Closed under the global context |
| C50 | `C50_renamed_namespace` | `PropsStream.v` | Closed under the global context |
| C50 | `C50_never_cancelled` | `PropsStream.v` | Closed under the global context |
| C50 | `C50_cancel_texts` | `PropsStream.v` | Closed under the global context |
| C51 | `C51_reads_exactly_json` | `PropsJson.v` | Closed under the global context |
| C51 | `C51_one_document` | `PropsJson.v` | Closed under the global context |
| C51 | `C51_round_trip` | `PropsJson.v` | Closed under the global context |
| C51 | `C51_unicode` | `PropsJson.v` | Closed under the global context |
| C51 | `C51_doubles` | `PropsJson.v` | Closed under the global context |
| C52 | `C52_exported` | `PropsTyped.v` | Closed under the global context |
| C52 | `C52_sent_iff_valid` | `PropsTyped.v` | Closed under the global context |
| C52 | `C52_nothing_else` | `PropsTyped.v` | Closed under the global context |
| C52 | `C52_sends_or_refuses` | `PropsTyped.v` | Closed under the global context |
| C52 | `C52_arguments_typed` | `PropsTyped.v` | Closed under the global context |
| C52 | `C52_promise_typed` | `PropsTyped.v` | Closed under the global context |
| C52 | `C52_accepted_calls_run` | `PropsTyped.v` | Closed under the global context |
| C52 | `C52_heard_typed` | `PropsTyped.v` | Closed under the global context |
| C52 | `C52_accepted_streams_flow` | `PropsTyped.v` | Closed under the global context |
| C53 | `C53_variant_rules` | `PropsWritten.v` | Closed under the global context |
| C53 | `C53_field_rules` | `PropsWritten.v` | Closed under the global context |
| C53 | `C53_no_letters_panics` | `PropsWritten.v` | Closed under the global context |
| C53 | `C53_seen_as_written` | `PropsWritten.v` | Closed under the global context |
| C53 | `C53_texts_parse` | `PropsWritten.v` | Closed under the global context |
| C53 | `C53_usual_programs` | `PropsWritten.v` | Closed under the global context |
| C53 | `C53_fields_stay_apart` | `PropsWritten.v` | Closed under the global context |
| C53 | `C53_variants_stay_apart` | `PropsWritten.v` | Closed under the global context |
| C53 | `C53_tags_checked` | `PropsWritten.v` | Closed under the global context |
| C53 | `C53_transparent_checked` | `PropsWritten.v` | Closed under the global context |
| C53 | `C53_unquoted_names_refuted` | `PropsWritten.v` | Closed under the global context |
| C53 | `C53_same_name_refuted` | `PropsWritten.v` | Closed under the global context |
| C53 | `C53_transparent_field_refuted` | `PropsWritten.v` | Closed under the global context |
| C53 | `C53_container_default_refuted` | `PropsWritten.v` | Closed under the global context |
| C54 | `C54_client_reads` | `PropsFile.v` | Closed under the global context |
| C54 | `C54_file` | `PropsFile.v` | Closed under the global context |
| C54 | `C54_one_reading` | `PropsFile.v` | Closed under the global context |
| C54 | `C54_declared_once` | `PropsFile.v` | Closed under the global context |
| C54 | `C54_imports` | `PropsFile.v` | Closed under the global context |
| C54 | `C54_types` | `PropsFile.v` | Closed under the global context |
| C54 | `C54_client_undisturbed` | `PropsFile.v` | Closed under the global context |
| C54 | `C54_captured_refuted` | `PropsFile.v` | Closed under the global context |
| C54 | `C54_twice_refuted` | `PropsFile.v` | Closed under the global context |
| C55 | `C55_runs` | `PropsJs.v` | Closed under the global context |
| C55 | `C55_follows_model` | `PropsJs.v` | Closed under the global context |
| C55 | `C55_sent` | `PropsJs.v` | Closed under the global context |
| C55 | `C55_nothing_lost` | `PropsJs.v` | Closed under the global context |
| C55 | `C55_answers` | `PropsJs.v` | Closed under the global context |
| C55 | `C55_heard` | `PropsJs.v` | Closed under the global context |
| C55 | `C55_one_socket` | `PropsJs.v` | Closed under the global context |
| C55 | `C55_timer` | `PropsJs.v` | Closed under the global context |
| C55 | `C55_requests_get_through_refuted` | `PropsJs.v` | Closed under the global context |
| C56 | `C56_promise` | `PropsSystem.v` | Closed under the global context |
| C56 | `C56_all_promises` | `PropsSystem.v` | Closed under the global context |
| C56 | `C56_failed` | `PropsSystem.v` | Closed under the global context |
| C56 | `C56_without_arguments` | `PropsSystem.v` | Closed under the global context |
| C56 | `C56_renamed_namespace` | `PropsSystem.v` | Closed under the global context |
| C56 | `C56_listener` | `PropsSystem.v` | Closed under the global context |
| C56 | `C56_all_listeners` | `PropsSystem.v` | Closed under the global context |
| C56 | `C56_stream_without_arguments` | `PropsSystem.v` | Closed under the global context |
| C56 | `C56_stays` | `PropsSystem.v` | Closed under the global context |
| C56 | `C56_unsubscribed` | `PropsSystem.v` | Closed under the global context |
| C56 | `C56_goes_on` | `PropsSystem.v` | Closed under the global context |
| C56 | `C56_one_way` | `PropsSystem.v` | Closed under the global context |
| C56 | `C56_comes_to_an_end` | `PropsSystemLive.v` | `constructive_indefinite_description` (standard library) |
| C56 | `C56_stream_arrives` | `PropsSystemLive.v` | `constructive_indefinite_description` (standard library) |
| C57 | `C57_promise_typed` | `PropsSystemTyped.v` | Closed under the global context |
| C57 | `C57_heard_typed` | `PropsSystemTyped.v` | Closed under the global context |
| C57 | `C57_all_promises_typed` | `PropsSystemTyped.v` | Closed under the global context |
| C57 | `C57_all_heard_typed` | `PropsSystemTyped.v` | Closed under the global context |
| C57 | `C57_accepted_calls_run` | `PropsSystemTyped.v` | `constructive_indefinite_description` (standard library) |
| C57 | `C57_accepted_streams_flow` | `PropsSystemTyped.v` | `constructive_indefinite_description` (standard library) |
