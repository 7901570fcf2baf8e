(** C12, C21, C23, C49: the generated module as TypeScript.
    Every proof is one [exact]; the assumptions of each theorem are printed. *)
From Coq Require Import List String Bool NArith.
From Verif Require Import RustTy Gen GenSpec JsLex JsParse Js Ast TsType TsAst JsModule Zod ZodSpec Serde SerdeSpec ParseSpec TsSpec
  Registry RegistrySpec RegistryProofs RegistryExamples GenExamples ModuleSpec ModuleProofs ScopeSpec ScopeProofs ModuleExamples.
Import ListNotations.
Local Open Scope string_scope.
Local Open Scope list_scope.

(** The text after the prelude is a list of namespaces with the expected declarations. *)
Theorem C21_module_parses : forall E o inv names, good_names E -> type_names E -> usable_names E o inv names ->
  forall p s, generates E o inv names p s ->
  (forall i, In i (i_types inv) -> In (d_ns (lookup E i)) names -> ~ misshapen E (TNamed i)) ->
  exists s' m, s = p ^^ s' /\ ts_module s' m /\ spaces_of E o inv names m.
Proof. exact module_parses. Qed.
Print Assumptions C21_module_parses.

(** One misshapen type and nothing can be read any more. *)
Theorem C21_misshapen_never_parses : forall E o inv names, good_names E -> type_names E -> usable_names E o inv names ->
  forall p s, no_tuple_flatten E -> generates E o inv names p s ->
  (exists i, In i (i_types inv) /\ In (d_ns (lookup E i)) names /\ misshapen E (TNamed i)) ->
  exists s', s = p ^^ s' /\ forall m, ~ ts_module s' m.
Proof. exact module_rejected. Qed.
Print Assumptions C21_misshapen_never_parses.

(** Which types are interfaces. *)
Theorem C21_interfaces : forall E t s, returns E TypeDef t s ->
  (interface E t true <-> record_type E t) /\ (interface E t false <-> ~ record_type E t).
Proof. exact interfaces_spec. Qed.
Print Assumptions C21_interfaces.

Theorem C21_one_reading : forall s m m', ts_module s m -> ts_module s m' -> m = m'.
Proof. exact ts_module_unique. Qed.
Print Assumptions C21_one_reading.

(** The value exports of a namespace are its types and its methods and streams. *)
Theorem C21_exports : forall E o inv ns b, space_of E o inv ns b ->
  values b = map (fun i => schema_name o (d_name (lookup E i))) (types_of E ns (i_types inv)) ++
             map r_name (rpcs_of ns (i_rpcs inv)).
Proof. exact space_values. Qed.
Print Assumptions C21_exports.

Theorem C21_struct_shapes_refuted :
  unparseable [strukt "Ns" "Point" StTuple [fld "0" ex_u8; fld "1" ex_u8]] (mkInv [0] []) /\
  unparseable [strukt "Ns" "A" StNamed [fld "a" ex_u8];
               strukt "Ns" "B" StNamed [mkField "rest" (TNamed 0) false false true "rest" false]] (mkInv [0; 1] []).
Proof. exact (conj tuple_unparseable flatten_unparseable). Qed.
Print Assumptions C21_struct_shapes_refuted.

Theorem C21_reserved_names_refuted :
  unparseable [] (mkInv [] [mkRpc Method "Ns" "delete" [("n", ex_u8)] ex_u8]) /\
  unparseable [] (mkInv [] [mkRpc Method "Ns" "r#type" [] ex_u8]) /\
  unparseable [] (mkInv [] [mkRpc Method "Ns" "get" [("new", ex_u8)] ex_u8]).
Proof. exact (conj delete_unparseable raw_unparseable). Qed.
Print Assumptions C21_reserved_names_refuted.

(** Every name in the code of the module resolves. *)
Theorem C12_names_resolve : forall E o inv names inside m,
  spaces_of E o inv names m -> good_names E -> spans E inside -> registered E inv names inside ->
  mentions_inside inv names inside -> declared_once E inv names -> plain_schemas o -> hygienic E inv names ->
  usable_names E o inv names ->
  forall b ps e x p, In b m -> In (ps, e) (code b) -> In (x, p) (uses e) -> resolves E inside m b ps e x p.
Proof. exact names_resolve. Qed.
Print Assumptions C12_names_resolve.

(** So does every name in its types. *)
Theorem C12_type_names_resolve : forall E o inv names inside m,
  spaces_of E o inv names m -> good_names E -> spans E inside -> registered E inv names inside ->
  mentions_inside inv names inside -> declared_once E inv names ->
  forall b y x p, type_names E -> plain_types o -> generics_free E inv names ->
  In b m -> In y (signatures b) -> In (x, p) (tuses y) -> type_resolves E inside m b x p.
Proof. exact type_names_resolve. Qed.
Print Assumptions C12_type_names_resolve.

(** There is no namespace but those of the backend. *)
Theorem C12_foreign_namespaces_missing : forall E o inv names m, spaces_of E o inv names m ->
  forall ns, ~ In ns names -> block m ns = None.
Proof. exact spaces_not. Qed.
Print Assumptions C12_foreign_namespaces_missing.

Theorem C12_foreign_reference_refuted : uses_name trade default_options trade_inv ["Shop"] "Other" (Some "Thing")
  (fun m b ps => sees m b ps "Other" = PGlobal).
Proof. exact foreign_dangles. Qed.
Print Assumptions C12_foreign_reference_refuted.

Theorem C12_affixes_refuted :
  uses_name trade (mkOpts "" "Schema" "" "" "" "") trade_inv ["Shop"; "Other"] "Other" (Some "Thing")
    (fun m b ps => exists b', sees m b ps "Other" = PSpace b' /\ const b' "Thing" = None /\ In "ThingSchema" (values b')) /\
  uses_type trade (mkOpts "" "" "I" "" "I" "") trade_inv ["Shop"; "Other"] "Other" (Some "Thing")
    (fun m b => exists b', block m "Other" = Some b' /\ type_at b' "Thing" = None /\ In "IThing" (types b')).
Proof. exact (conj prefix_dangles type_prefix_dangles). Qed.
Print Assumptions C12_affixes_refuted.

Theorem C12_hidden_names_refuted :
  uses_name shop default_options (mkInv [0; 1] []) ["Shop"] "Shop" (Some "Item") (fun m b ps => sees m b ps "Shop" = POwn) /\
  uses_type atlas default_options (mkInv [0; 1] []) ["Geo"] "Map" None (fun m b => type_sees b "Map" = POwn).
Proof. exact (conj namespace_hidden generic_hidden). Qed.
Print Assumptions C12_hidden_names_refuted.

(** The function of a method or stream is in its namespace and does what it should. *)
Theorem C23_function : forall E o inv names m r,
  spaces_of E o inv names m -> In r (i_rpcs inv) -> In (r_ns r) names ->
  exists b f, block m (r_ns r) = Some b /\ In (IFun f) (b_items b) /\ rpc_func E r f.
Proof. exact rpc_functions. Qed.
Print Assumptions C23_function.

Theorem C23_function_unique : forall E r f g, rpc_func E r f -> rpc_func E r g -> f = g.
Proof. exact rpc_func_unique. Qed.
Print Assumptions C23_function_unique.

(** [request], [subscribe] and [z] are the imported ones. *)
Theorem C23_hygiene : forall E o inv names m r b f x,
  spaces_of E o inv names m -> plain_schemas o -> hygienic E inv names ->
  In r (i_rpcs inv) -> In (r_ns r) names -> block m (r_ns r) = Some b -> rpc_func E r f -> In x imports ->
  sees m b (map fst (fn_params f)) x = PGlobal.
Proof. exact rpc_hygiene. Qed.
Print Assumptions C23_hygiene.

Theorem C23_captured_refuted :
  uses_name [] default_options (mkInv [] [mkRpc Method "Ns" "send" [("request", ex_u8)] ex_u8]) ["Ns"] "request" None
    (fun m b ps => sees m b ps "request" = PParam /\
       In (ps, transmission "request" "Ns" "send") (code b)) /\
  uses_name [] default_options (mkInv [] [mkRpc Method "Ns" "request" [] ex_u8]) ["Ns"] "request" None
    (fun m b ps => sees m b ps "request" = POwn) /\
  uses_name [] default_options (mkInv [] [mkRpc Method "Ns" "send" [("z", ex_u8)] ex_u8]) ["Ns"] "z" (Some "tuple")
    (fun m b ps => sees m b ps "z" = PParam).
Proof. exact request_captured. Qed.
Print Assumptions C23_captured_refuted.

(** Everything about the text of a regular program at once. *)
Theorem C49_module : forall E o inv names inside p s,
  regular E o inv names inside -> generates E o inv names p (p ^^ s) ->
  exists m, ts_module s m /\ spaces_of E o inv names m /\
  (forall b ps e x q, In b m -> In (ps, e) (code b) -> In (x, q) (uses e) -> resolves E inside m b ps e x q) /\
  (forall b y x q, In b m -> In y (signatures b) -> In (x, q) (tuses y) -> type_resolves E inside m b x q) /\
  type_exports E inside (module_types m) /\
  (tags_ok E -> loadable E inside -> exports E inside (module_schemas m)).
Proof. exact whole_module. Qed.
Print Assumptions C49_module.

Theorem C49_module_sound : forall E o inv names inside p s,
  regular E o inv names inside -> generates E o inv names p (p ^^ s) ->
  forall R ip m i v out, ts_module s m -> tags_ok E -> loadable E inside -> sound false false inside E ->
  inside i = true -> exists z, module_schemas m (d_ns (lookup E i)) (d_name (lookup E i)) = Some z /\
    (sane false v -> accepts ip (module_schemas m) z v out ->
     (deserializes R E (TNamed i) (stringify_elem out) <-> jdepth (stringify_elem out) <= max_depth)).
Proof. exact whole_sound. Qed.
Print Assumptions C49_module_sound.

Theorem C49_module_typed : forall E o inv names inside p s,
  regular E o inv names inside -> generates E o inv names p (p ^^ s) ->
  forall ip m i v out, ts_module s m -> tags_ok E -> loadable E inside -> distinct E inside ->
  inside i = true -> exists z y, module_schemas m (d_ns (lookup E i)) (d_name (lookup E i)) = Some z /\
    module_types m (d_ns (lookup E i)) (d_name (lookup E i)) = Some y /\
    (accepts ip (module_schemas m) z v out -> member (module_types m) y v /\ member (module_types m) y out).
Proof. exact whole_typed. Qed.
Print Assumptions C49_module_typed.
