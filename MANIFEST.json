{
 "claims": [
  {
   "property": "C01",
   "status": "proved",
   "theorems": [
    "C01_schema_text_parses",
    "C01_any_name_refuted"
   ],
   "note": "JavaScript is modelled by an automaton lexer and a pushdown parser over the expression grammar the generators can reach (identifiers, strings, numbers, member access, calls, arrays, objects, arrow functions); parsing is proved unique. C01_any_name_refuted: a kebab-case rename gives unparseable text."
  },
  {
   "property": "C02",
   "status": "proved",
   "theorems": [
    "C02_schema_loads_iff",
    "C02_inline_schema_loads_iff",
    "C02_clean_programs_load",
    "C02_flatten_never_answers"
   ],
   "note": "load evaluates the text with a model of zod 3.20 (Zod.v). Exact characterisation; the flatten theorem says the schema neither accepts nor rejects any object."
  },
  {
   "property": "C03",
   "status": "proved",
   "theorems": [
    "C03_accepted_output_deserializes",
    "C03_accepted_safe_output_deserializes",
    "C03_numbers_refuted",
    "C03_lone_surrogate_refuted",
    "C03_containers_refuted",
    "C03_map_loses_entries_refuted",
    "C03_tuple_default_refuted",
    "C03_skipped_in_tuple_refuted",
    "C03_missing_option_refuted",
    "C03_empty_tuple_variant_refuted",
    "C03_depth_refuted"
   ],
   "note": "Fragment: SerdeSpec.sound. serde's reading is Serde.v (specification side). Witnesses outside the fragment are the _refuted theorems."
  },
  {
   "property": "C04",
   "status": "proved",
   "theorems": [
    "C04_accepted_value_deserializes",
    "C04_external_extra_key_refuted",
    "C04_result_extra_key_refuted",
    "C04_adjacent_unit_content_refuted",
    "C04_deny_unknown_refuted"
   ],
   "note": "Fragment: SerdeSpec.sound with raw = true. The _refuted witnesses lie inside the fragment of C03."
  },
  {
   "property": "C05",
   "status": "proved",
   "theorems": [
    "C05_written_accepted",
    "C05_plain_written_accepted",
    "C05_null_refuted",
    "C05_char_outside_bmp_refuted",
    "C05_set_and_map_refuted",
    "C05_shortened_tuple_refuted",
    "C05_different_when_serializing_refuted",
    "C05_internal_newtype_refuted"
   ],
   "note": "Fragment: CompleteSpec.complete; ips_agree assumes zod's IP regexes accept what std::net prints. Witnesses outside the fragment are the _refuted theorems."
  },
  {
   "property": "C06",
   "status": "proved",
   "theorems": [
    "C06_small_int_exact",
    "C06_wide_int_one_too_many",
    "C06_usize_has_no_upper_bound",
    "C06_isize_has_no_bound"
   ],
   "note": "wide integers: exactly one value above the maximum (2^64, 2^128, 2^63, 2^127) is let through because the literal is rounded to a double."
  },
  {
   "property": "C07",
   "status": "proved",
   "theorems": [
    "C07_type_text_parses",
    "C07_any_name_refuted",
    "C07_any_namespace_refuted"
   ],
   "note": "TypeScript types are modelled by a pushdown parser over the type grammar the generators can reach (names, strings, tuples, generics, object types, unions, intersections, parentheses, qualified names); parsing is proved unique."
  },
  {
   "property": "C08",
   "status": "proved",
   "theorems": [
    "C08_accepted_is_member",
    "C08_duplicate_field_refuted",
    "C08_converse_refuted"
   ],
   "note": "Membership is the structural relation member of TsSpec.v."
  },
  {
   "property": "C09",
   "status": "proved",
   "theorems": [
    "C09_written_is_member",
    "C09_plain_written_is_member",
    "C09_null_refuted",
    "C09_set_and_map_refuted",
    "C09_different_when_serializing_refuted",
    "C09_internal_newtype_refuted"
   ],
   "note": "Fragment: TsSpec.typed; no assumption on recursion. Witnesses outside the fragment are the _refuted theorems."
  },
  {
   "property": "C10",
   "status": "proved",
   "theorems": [
    "C10_schema_returns_iff_acyclic",
    "C10_inline_schema_returns_iff_acyclic",
    "C10_schema_dichotomy",
    "C10_self_through_pointer_overflows",
    "C10_lazy_programs_return",
    "C10_text_unique"
   ],
   "note": "Stack depth is the fuel of gen; overflow means no depth suffices."
  },
  {
   "property": "C11",
   "status": "proved",
   "theorems": [
    "C11_type_returns_iff_acyclic",
    "C11_inline_returns_iff_acyclic",
    "C11_type_dichotomy",
    "C11_self_through_container_overflows",
    "C11_depth_enough"
   ],
   "note": ""
  },
  {
   "property": "C12",
   "status": "proved",
   "theorems": [
    "C12_names_resolve",
    "C12_type_names_resolve",
    "C12_foreign_namespaces_missing",
    "C12_foreign_reference_refuted",
    "C12_affixes_refuted",
    "C12_hidden_names_refuted"
   ],
   "note": "Scopes: ScopeSpec.sees (parameter, own namespace, namespaces of the module, outside). The _refuted theorems exhibit programs breaking each condition."
  },
  {
   "property": "C13",
   "status": "proved",
   "theorems": [
    "C13_derive_ignores_skipped",
    "C13_texts_ignore_skipped",
    "C13_interface_ignores_skipped"
   ],
   "note": ""
  },
  {
   "property": "C14",
   "status": "proved",
   "theorems": [
    "C14_default_order_exact"
   ],
   "note": ""
  },
  {
   "property": "C15",
   "status": "proved",
   "theorems": [
    "C15_derive_accepts_iff"
   ],
   "note": "Reject covers shapes syn/darling refuse before zod code runs."
  },
  {
   "property": "C16",
   "status": "proved",
   "theorems": [
    "C16_accepted",
    "C16_items"
   ],
   "note": "The syntax trees are those of syn 1.0; Rust's rule that only the first parameter can be a receiver is the hypothesis receiver_first."
  },
  {
   "property": "C17",
   "status": "proved",
   "theorems": [
    "C17_doc_lines",
    "C17_lines_exist",
    "C17_closed",
    "C17_no_token",
    "C17_always_closed_refuted"
   ],
   "note": "Rust strings are lists of scalar values, emitted as UTF-8; str::trim with Unicode White_Space and str::lines are modelled in Docs.v."
  },
  {
   "property": "C18",
   "status": "proved",
   "theorems": [
    "C18_escape",
    "C18_no_markup_left",
    "C18_column",
    "C18_injective_refuted"
   ],
   "note": "escape and the Rust column of Line::with_link; the schema column is T::schema() (C01)."
  },
  {
   "property": "C19",
   "status": "proved",
   "theorems": [
    "C19_module_text"
   ],
   "note": "An equivalence, for all CodegenOptions; the inventory is an arbitrary list (link order), the prelude an arbitrary string. type_text and decl_text are the literal templates; C21 and C23 say what they parse to."
  },
  {
   "property": "C20",
   "status": "proved",
   "theorems": [
    "C20_depends_only_on_own_members",
    "C20_deterministic"
   ],
   "note": ""
  },
  {
   "property": "C21",
   "status": "proved",
   "theorems": [
    "C21_module_parses",
    "C21_misshapen_never_parses",
    "C21_interfaces",
    "C21_one_reading",
    "C21_exports",
    "C21_struct_shapes_refuted",
    "C21_reserved_names_refuted"
   ],
   "note": "TypeScript namespaces are modelled by a grammar with automatic semicolon insertion and a parser (JsModule.v); a text has at most one reading. The prelude is an arbitrary string that is not parsed."
  },
  {
   "property": "C22",
   "status": "proved",
   "theorems": [
    "C22_members",
    "C22_collect",
    "C22_zod_namespaces",
    "C22_rpc_members"
   ],
   "note": "HashMap results are described by their lookups."
  },
  {
   "property": "C23",
   "status": "proved",
   "theorems": [
    "C23_function",
    "C23_function_unique",
    "C23_hygiene",
    "C23_captured_refuted"
   ],
   "note": "rpc_func describes the function completely (it is unique)."
  },
  {
   "property": "C24",
   "status": "proved",
   "theorems": [
    "C24_round_trip",
    "C24_without_arguments",
    "C24_renamed_namespace",
    "C24_own_name",
    "C24_given_name",
    "C24_raw_method",
    "C24_any_namespace_refuted"
   ],
   "note": "dec (the Deserialize impls of the argument types) is a parameter; documents are JSON trees as serde_json and JSON.stringify make them, [fine] excludes what serde_json cannot read at all (lone surrogates, numbers beyond f64, depth over 127)."
  },
  {
   "property": "C25",
   "status": "proved",
   "theorems": [
    "C25_requests",
    "C25_decodes_what_is_named",
    "C25_refused",
    "C25_method_called",
    "C25_method_returned",
    "C25_stream_called"
   ],
   "note": "The requests are decoded as serde_derive's internally tagged enums do; rustc's check that variants are distinct is the hypothesis distinct."
  },
  {
   "property": "C26",
   "status": "proved",
   "theorems": [
    "C26_method_understood",
    "C26_stream_understood",
    "C26_errors_dropped",
    "C26_injective",
    "C26_all_ids_refuted"
   ],
   "note": "Refuted for ids beyond 2^53."
  },
  {
   "property": "C27",
   "status": "proved",
   "theorems": [
    "C27_serial_execution"
   ],
   "note": "Refinement of every schedule to the sequential specification of ServerSpec.v."
  },
  {
   "property": "C28",
   "status": "proved",
   "theorems": [
    "C28_one_response_in_order",
    "C28_dropped_receiver_prefix"
   ],
   "note": ""
  },
  {
   "property": "C29",
   "status": "proved",
   "theorems": [
    "C29_no_cross_talk"
   ],
   "note": ""
  },
  {
   "property": "C30",
   "status": "proved",
   "theorems": [
    "C30_stream_items_in_order",
    "C30_items_only_grow"
   ],
   "note": ""
  },
  {
   "property": "C31",
   "status": "proved",
   "theorems": [
    "C31_cancel_stops",
    "C31_cancel_frame"
   ],
   "note": "A poll already in flight when the abort arrives may still deliver until it suspends (tokio semantics); stated in the theorem."
  },
  {
   "property": "C32",
   "status": "proved",
   "theorems": [
    "C32_unique_ids_exact",
    "C32_orphan_unstoppable",
    "C32_shared_ids_refuted"
   ],
   "note": "Unguarded claim refuted by C32_shared_ids_refuted."
  },
  {
   "property": "C33",
   "status": "proved",
   "theorems": [
    "C33_panic_causes",
    "C33_orderly_never_dies",
    "C33_disconnect_refuted"
   ],
   "note": "Guarded form proved; unguarded claim refuted by C33_disconnect_refuted for every backend."
  },
  {
   "property": "C34",
   "status": "proved",
   "theorems": [
    "C34_bad_input_isolated"
   ],
   "note": ""
  },
  {
   "property": "C35",
   "status": "proved",
   "theorems": [
    "C35_shutdown_aborts",
    "C35_sends_fail"
   ],
   "note": ""
  },
  {
   "property": "C36",
   "status": "proved",
   "theorems": [
    "C36_bookkeeping",
    "C36_map_never_shrinks"
   ],
   "note": ""
  },
  {
   "property": "C37",
   "status": "proved",
   "theorems": [
    "C37_progress",
    "C37_progress_busy"
   ],
   "note": ""
  },
  {
   "property": "C38",
   "status": "proved",
   "theorems": [
    "C38_gone_client_silent",
    "C38_gone_stream_ends"
   ],
   "note": ""
  },
  {
   "property": "C39",
   "status": "proved",
   "theorems": [
    "C39_frames_in",
    "C39_stops",
    "C39_frames_out",
    "C39_progress",
    "C39_closed",
    "C39_own_connection",
    "C39_refines_proxy",
    "C39_every_taken_response_written_refuted"
   ],
   "note": "The two futures of the handler are events of a schedule; decode and encode are parameters. Theorem C39_refines_proxy carries C27 - C38 over."
  },
  {
   "property": "C40",
   "status": "proved",
   "theorems": [
    "C40_ids_count",
    "C40_request_id_own",
    "C40_store_id_own",
    "C40_for_ever_refuted"
   ],
   "note": "enc, read and same are parameters of the client model; the counter is a double."
  },
  {
   "property": "C41",
   "status": "proved",
   "theorems": [
    "C41_request_adds",
    "C41_request_settles",
    "C41_request_waits",
    "C41_listener_hears",
    "C41_all_messages_refuted"
   ],
   "note": "su_from / su_to count the messages dealt with when the entry was added / deleted."
  },
  {
   "property": "C42",
   "status": "proved",
   "theorems": [
    "C42_delays",
    "C42_timer",
    "C42_in_range"
   ],
   "note": "Events of sockets and timers are arbitrary."
  },
  {
   "property": "C43",
   "status": "proved",
   "theorems": [
    "C43_stays_pending",
    "C43_error_is_no_answer",
    "C43_sent_once",
    "C43_closed_lost",
    "C43_requests_get_through_refuted"
   ],
   "note": "For all continuations; the refuted theorem is the concrete execution."
  },
  {
   "property": "C44",
   "status": "proved",
   "theorems": [
    "C44_sends_on_open",
    "C44_opened_sends",
    "C44_in_call_order",
    "C44_one_socket",
    "C44_last_leaves",
    "C44_no_listener_no_socket_refuted"
   ],
   "note": "WHATWG WebSocket behaviour (no message before open or after closing, error and close in one task) is part of the model's events."
  },
  {
   "property": "C45",
   "status": "proved",
   "theorems": [
    "C45_unique_names",
    "C45_renamed_refuted",
    "C45_method_named_like_type_refuted"
   ],
   "note": "rustc's E0592 check of the registration constants is the hypothesis registers."
  },
  {
   "property": "C46",
   "status": "proved",
   "theorems": [
    "C46_wrapper_forwards",
    "C46_unwrap_everywhere"
   ],
   "note": ""
  },
  {
   "property": "C47",
   "status": "proved",
   "theorems": [
    "C47_settled_by_its_method",
    "C47_comes_to_an_end",
    "C47_without_arguments",
    "C47_renamed_namespace",
    "C47_at_most_once",
    "C47_failed_for_ever",
    "C47_response_texts"
   ],
   "note": "Proved for the composition of the models of C24 - C26, C39, C40 - C44 and C51: the frames are texts. lives/fair are hypotheses on the schedule; countable excludes more than 2^53 calls. Handlers return (they are functions); a handler that panics ends the loop and with it lives."
  },
  {
   "property": "C48",
   "status": "proved",
   "theorems": [
    "C48_answers_iff_grounded",
    "C48_types_over_grounded_answer",
    "C48_always_answers_refuted"
   ],
   "note": "An equivalence for closed sets of declarations without flatten; the refuted theorem shows a compiling pair of types whose schema never answers."
  },
  {
   "property": "C49",
   "status": "proved",
   "theorems": [
    "C49_module",
    "C49_module_sound",
    "C49_module_typed"
   ],
   "note": "Combines C21, C12, C03 and C08 for the text of the module."
  },
  {
   "property": "C50",
   "status": "proved",
   "theorems": [
    "C50_heard_in_order",
    "C50_everything_is_heard",
    "C50_any_listener",
    "C50_without_arguments",
    "C50_renamed_namespace",
    "C50_never_cancelled",
    "C50_cancel_texts"
   ],
   "note": "Proved for the same composition as C47. A stream yields what the schedule makes it yield; items that can not be serialized become error responses, which the client drops. lives/fair/no_throws are hypotheses on the schedule, countable excludes more than 2^53 calls."
  },
  {
   "property": "C51",
   "status": "proved",
   "theorems": [
    "C51_reads_exactly_json",
    "C51_one_document",
    "C51_round_trip",
    "C51_unicode",
    "C51_doubles"
   ],
   "note": "Proved. The shortest decimal form of a double (Number::toString, ryu) and the rounding of literals are parameters, assumed faithful (JsonTextSpec.faithful); exact_faithful is an instance. Depth limits of serde_json are part of the wire model (C25), not of the grammar."
  },
  {
   "property": "C52",
   "status": "proved",
   "theorems": [
    "C52_exported",
    "C52_sent_iff_valid",
    "C52_nothing_else",
    "C52_sends_or_refuses",
    "C52_arguments_typed",
    "C52_promise_typed",
    "C52_accepted_calls_run",
    "C52_heard_typed",
    "C52_accepted_streams_flow"
   ],
   "note": "Proved, by composing C12, C21, C49 (the text and its functions), C02/C03/C48 (schemas), C05/C09 (results) and C47/C50 (both ends). reads: the types of the arguments are in the fragment of C03 and the Deserialize impls agree with the serde model there; plain_args: the arguments survive JSON.stringify (no undefined, Map, Set, ...); returns_typed / yields: the handlers return values of their Rust types."
  },
  {
   "property": "C53",
   "status": "proved",
   "theorems": [
    "C53_variant_rules",
    "C53_field_rules",
    "C53_no_letters_panics",
    "C53_seen_as_written",
    "C53_texts_parse",
    "C53_usual_programs",
    "C53_fields_stay_apart",
    "C53_variants_stay_apart",
    "C53_tags_checked",
    "C53_transparent_checked",
    "C53_unquoted_names_refuted",
    "C53_same_name_refuted",
    "C53_transparent_field_refuted",
    "C53_container_default_refuted"
   ],
   "note": "Written.v models the resolution of attributes by serde_derive_internals 0.26 (RenameRule, rename_by_rules, decide_tag, check) from its documented behaviour; its source is not part of /repo. Attributes alias, with, bound, getter, into, remote, other, borrow are not modelled. The _refuted theorems are gaps of the code: names are not quoted, transparent takes the first field, container default is ignored."
  },
  {
   "property": "C54",
   "status": "proved",
   "theorems": [
    "C54_client_reads",
    "C54_file",
    "C54_one_reading",
    "C54_declared_once",
    "C54_imports",
    "C54_types",
    "C54_client_undisturbed",
    "C54_captured_refuted",
    "C54_twice_refuted"
   ],
   "note": "Proved. TsProgram.v reads the part of TypeScript the client is written in (types are skipped, as in type stripping); the text of the client is a constant of the model (Prelude.v). The host names are those of the browser; of the imported module only its name is looked at. The _refuted theorems are programs that satisfy all other conditions."
  },
  {
   "property": "C55",
   "status": "proved",
   "theorems": [
    "C55_runs",
    "C55_follows_model",
    "C55_sent",
    "C55_nothing_lost",
    "C55_answers",
    "C55_heard",
    "C55_one_socket",
    "C55_timer",
    "C55_requests_get_through_refuted"
   ],
   "note": "Proved. The program is read from the text of the client (TsProgram.v) and run by an interpreter for the part of ECMAScript, the WebSocket interface and timers it uses (JsSem.v); C55_follows_model relates every run to a run of Client.v. A page has no other code that touches the client; what console.log prints and the address are not modelled; user callbacks are finite scripts of calls. The _refuted theorem is a run."
  },
  {
   "property": "C56",
   "status": "proved",
   "theorems": [
    "C56_promise",
    "C56_all_promises",
    "C56_failed",
    "C56_without_arguments",
    "C56_renamed_namespace",
    "C56_listener",
    "C56_all_listeners",
    "C56_stream_without_arguments",
    "C56_stays",
    "C56_unsubscribed",
    "C56_goes_on",
    "C56_one_way",
    "C56_comes_to_an_end",
    "C56_stream_arrives"
   ],
   "note": "Proved by composing C47/C50 with the simulation of C55: every run of the page with a server is a run of E2E.v (SystemProofs.v). The promise and the listener are those of code that makes just this call; what else the user does is arbitrary. few excludes more than 2^53 calls. C56_comes_to_an_end and C56_stream_arrives are about endless fair runs (SystemFair.v); they rest on one axiom of the standard library, IndefiniteDescription.constructive_indefinite_description, to choose the run of the model that goes with the page."
  },
  {
   "property": "C57",
   "status": "proved",
   "theorems": [
    "C57_promise_typed",
    "C57_heard_typed",
    "C57_all_promises_typed",
    "C57_all_heard_typed",
    "C57_accepted_calls_run",
    "C57_accepted_streams_flow"
   ],
   "note": "Proved by composing C52 (generated functions, types, serde) with C56. Hypotheses as there: a regular program, arguments and results of the fragments of SerdeSpec.v / TsSpec.v, plain arguments, namespaces not renamed, and for the last two an endless fair run; these two rest on IndefiniteDescription.constructive_indefinite_description of the standard library."
  }
 ]
}