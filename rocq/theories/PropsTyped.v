(** Property C52: typed calls, from the generated function to the method and back.  Specification vocabulary:
    TypedSpec.v, [invoke] and [action] of ClientFn.v, and that of C47, C49 and C50.

    [program S E o inv inside stream_item p s m]: the backend of [S] is that of a regular program over the
    declarations [E]; [p ++ s] is the generated text, [m] its module.  Item [i] is item [k] of field [n], and [g]
    is the function of its name in the namespace of the field. *)
From Coq Require Import List String Arith Bool NArith ZArith.
From Verif Require Import Util RustTy Gen GenSpec Js JsonText JsonTextSpec JsonTextProofs TsType JsModule Zod ZodSpec Serde SerdeSpec ParseSpec TsSpec Registry RegistrySpec ModuleSpec ScopeSpec
  Macro Server ServerSpec Wire WireSpec WireProofs Pump Client ClientSpec E2E E2ESpec E2EStreamSpec E2EText E2EWire E2EStreamWire ClientFn TypedSpec TypedProofs.
Import ListNotations.
Local Open Scope string_scope.
Local Open Scope list_scope.

(** C52. There is a function for every item. *)
Theorem C52_exported {V F : Type} (S : setting ty V F) E o inv inside stream_item p s m n k f i :
  program S E o inv inside stream_item p s m -> has_item (s_backend S) n k f i ->
  exists b g, exported m (bf_name f) (it_ident i) b g.
Proof. exact (fun HP Hit => there S E o inv inside stream_item p s m HP n k f i Hit). Qed.
Print Assumptions C52_exported.

(** C52. A function passes its arguments on, exactly if there are as many as there are parameters and each is
    accepted by the schema of its type. *)
Theorem C52_sent_iff_valid {V F : Type} (S : setting ty V F) E o inv inside stream_item p s m n k f i b g ip args :
  program S E o inv inside stream_item p s m -> has_item (s_backend S) n k f i -> exported m (bf_name f) (it_ident i) b g ->
  (exists fuel, invoke ip m b g fuel args = Sends (transport (it_kind i)) (bf_name f) (it_ident i) args) <->
  Forall2 (fun a v => valid ip E (module_schemas m) (snd a) v) (it_args i) args.
Proof. exact (fun HP Hit Hg => sent_valid S E o inv inside stream_item p s m HP n k f i Hit b g Hg ip args). Qed.
Print Assumptions C52_sent_iff_valid.

(** C52. Otherwise it sends nothing. *)
Theorem C52_nothing_else {V F : Type} (S : setting ty V F) E o inv inside stream_item p s m n k f i b g ip fuel args :
  program S E o inv inside stream_item p s m -> has_item (s_backend S) n k f i -> exported m (bf_name f) (it_ident i) b g ->
  In (invoke ip m b g fuel args) [Sends (transport (it_kind i)) (bf_name f) (it_ident i) args; Refuses; Fails; Runs_on].
Proof. exact (fun HP Hit Hg => sent_or S E o inv inside stream_item p s m HP n k f i Hit b g Hg ip fuel args). Qed.
Print Assumptions C52_nothing_else.

(** C52. It either sends or refuses with a ZodError, if no type hands its value on for ever and no schema of an
    argument throws. *)
Theorem C52_sends_or_refuses {V F : Type} (S : setting ty V F) E o inv inside stream_item p s m n k f i b g ip args :
  program S E o inv inside stream_item p s m -> has_item (s_backend S) n k f i -> exported m (bf_name f) (it_ident i) b g ->
  closed E inside -> (forall i, inside i = true -> grounded E (TNamed i)) ->
  (forall a, In a (it_args i) -> ~ contains_throwing E (Inl (snd a))) ->
  exists fuel, In (invoke ip m b g fuel args) [Sends (transport (it_kind i)) (bf_name f) (it_ident i) args; Refuses].
Proof. exact (fun HP Hit Hg => is_over S E o inv inside stream_item p s m HP n k f i Hit b g Hg ip args). Qed.
Print Assumptions C52_sends_or_refuses.

(** C52. What is passed on, is of the types of the parameters. *)
Theorem C52_arguments_typed {V F : Type} (S : setting ty V F) E o inv inside stream_item p s m n k f i b g ip fuel args :
  program S E o inv inside stream_item p s m -> has_item (s_backend S) n k f i -> exported m (bf_name f) (it_ident i) b g ->
  TsSpec.distinct E inside -> action (invoke ip m b g fuel args) <> None ->
  Forall2 (fun q v => TsSpec.member (module_types m) (snd q) v) (fn_params g) args.
Proof. exact (fun HP Hit Hg => of_types S E o inv inside stream_item p s m HP n k f i Hit b g Hg ip args fuel). Qed.
Print Assumptions C52_arguments_typed.

(** C52. If the promise a function returns is settled, then with a value of its type. *)
Theorem C52_promise_typed {V F : Type} (S : setting ty V F) R E o inv inside stream_item p s m n k f i b g ip (a : list F) w0 fuel args ev mild es d y :
  faithful (s_lit S) (s_num S) -> faithful (s_lit' S) (s_num S) ->
  program S E o inv inside stream_item p s m -> has_item (s_backend S) n k f i -> exported m (bf_name f) (it_ident i) b g ->
  bf_name f = unraw (variant_ident f) -> it_kind i = Method ->
  typed_result E inside stream_item mild i -> returns_typed S R E stream_item mild n k i ->
  wreachable (call_text S) (read_text S) (same_id S) (from_text S) (to_text S) a w0 -> user (w_cl w0) = true ->
  action (invoke ip m b g fuel args) = Some ev -> Forall js_value args ->
  let w := wrun (call_text S) (read_text S) (same_id S) (from_text S) (to_text S)
             (wnext (call_text S) (read_text S) (same_id S) (from_text S) (to_text S) w0 (WClient ev)) es in
  countable (w_cl w) -> settled w (List.length (cl_subs (w_cl w0))) d -> fn_result g = YApp "Promise" [y] ->
  TsSpec.member (module_types m) y d.
Proof.
  intros L L' HP Hit Hg Hns Hk Ht Hr H1 H2 Hev Ha.
  exact (promised S R E o inv inside stream_item p s m HP n k f i Hit b g Hg ip L L' a w0 H1 H2 Hns fuel args ev Hev mild es d y Hk Ha Ht Hr).
Qed.
Print Assumptions C52_promise_typed.

(** C52. Under a fair schedule a method is called with what serde makes of the arguments its function has
    passed on, and the promise is settled with the result, if the socket lives until then. *)
Theorem C52_accepted_calls_run {V F : Type} (S : setting ty V F) R E o inv inside stream_item p s m n k f i b g ip (a : list F) w0 fuel args ev wide c sigma :
  faithful (s_lit S) (s_num S) -> faithful (s_lit' S) (s_num S) ->
  program S E o inv inside stream_item p s m -> has_item (s_backend S) n k f i -> exported m (bf_name f) (it_ident i) b g ->
  bf_name f = unraw (variant_ident f) -> it_kind i = Method -> it_args i <> [] ->
  reads S R E inside wide i ->
  wreachable (call_text S) (read_text S) (same_id S) (from_text S) (to_text S) a w0 -> user (w_cl w0) = true ->
  action (invoke ip m b g fuel args) = Some ev -> plain_args wide args ->
  let w1 := wnext (call_text S) (read_text S) (same_id S) (from_text S) (to_text S) w0 (WClient ev) in
  let w := at_time (call_text S) (read_text S) (same_id S) (from_text S) (to_text S) w1 sigma in
  let j := List.length (cl_subs (w_cl w0)) in
  fair (call_text S) (read_text S) (same_id S) (from_text S) (to_text S) w1 sigma c ->
  (forall x, (forall y d, y < x -> ~ settled (w y) j d) -> lives (w x) c /\ countable (w_cl (w x))) ->
  exists vs x res, decoded (s_dec S) (map snd (it_args i)) (map (fun a => to_value (s_float S) (stringify_elem a)) args) vs /\
    handler_ran S a (w x) (bump (cl_id (w_cl w0))) n k vs res /\
    match res with inl d => settled (w x) j (received_as double d) | inr _ => True end.
Proof.
  intros L L' HP Hit Hg Hns Hk Ha HR H1 H2 Hev Hp.
  exact (answered S R E o inv inside stream_item p s m HP n k f i Hit b g Hg ip L L' a w0 H1 H2 Hns fuel args ev Hev wide c sigma Hk Ha HR Hp).
Qed.
Print Assumptions C52_accepted_calls_run.

(** C52. What the first listener of a stream hears is of the type of the stream. *)
Theorem C52_heard_typed {V F : Type} (S : setting ty V F) R E o inv inside stream_item p s m n k f i b g ip (a : list F) w0 fuel args ev mild es y su :
  faithful (s_lit S) (s_num S) -> faithful (s_lit' S) (s_num S) ->
  program S E o inv inside stream_item p s m -> has_item (s_backend S) n k f i -> exported m (bf_name f) (it_ident i) b g ->
  bf_name f = unraw (variant_ident f) -> it_kind i = Stream -> typed_result E inside stream_item mild i ->
  wreachable (call_text S) (read_text S) (same_id S) (from_text S) (to_text S) a w0 -> user (w_cl w0) = true ->
  action (invoke ip m b g fuel args) = Some ev -> Forall js_value args ->
  let w := wrun (call_text S) (read_text S) (same_id S) (from_text S) (to_text S)
             (wnext (call_text S) (read_text S) (same_id S) (from_text S) (to_text S)
               (wnext (call_text S) (read_text S) (same_id S) (from_text S) (to_text S) w0 (WClient ev))
               (WClient (UListen (List.length (cl_stores (w_cl w0)))))) es in
  countable (w_cl w) -> yields S R E stream_item mild a w (bump (cl_id (w_cl w0))) n k i ->
  nth_error (cl_subs (w_cl w)) (List.length (cl_subs (w_cl w0))) = Some su -> fn_result g = YApp "Store" [y] ->
  Forall (TsSpec.member (module_types m) y) (su_seen su).
Proof.
  intros L L' HP Hit Hg Hns Hk Ht H1 H2 Hev Ha.
  exact (heard_typed S R E o inv inside stream_item p s m HP n k f i Hit b g Hg ip L L' a w0 H1 H2 Hns fuel args ev Hev mild es y su Hk Ha Ht).
Qed.
Print Assumptions C52_heard_typed.

(** C52. Under a fair schedule a stream is made of what serde makes of the arguments its function has passed
    on, and all it yields is heard, in its place, if the socket lives, no callback throws and the listener stays. *)
Theorem C52_accepted_streams_flow {V F : Type} (S : setting ty V F) R E o inv inside stream_item p s m n k f i b g ip (a : list F) w0 fuel args ev wide c sigma :
  faithful (s_lit S) (s_num S) -> faithful (s_lit' S) (s_num S) ->
  program S E o inv inside stream_item p s m -> has_item (s_backend S) n k f i -> exported m (bf_name f) (it_ident i) b g ->
  bf_name f = unraw (variant_ident f) -> it_kind i = Stream -> it_args i <> [] ->
  reads S R E inside wide i ->
  wreachable (call_text S) (read_text S) (same_id S) (from_text S) (to_text S) a w0 -> user (w_cl w0) = true ->
  action (invoke ip m b g fuel args) = Some ev -> plain_args wide args ->
  let w2 := wnext (call_text S) (read_text S) (same_id S) (from_text S) (to_text S)
              (wnext (call_text S) (read_text S) (same_id S) (from_text S) (to_text S) w0 (WClient ev))
              (WClient (UListen (List.length (cl_stores (w_cl w0))))) in
  let w := at_time (call_text S) (read_text S) (same_id S) (from_text S) (to_text S) w2 sigma in
  let j := List.length (cl_subs (w_cl w0)) in
  let id := bump (cl_id (w_cl w0)) in
  fair (call_text S) (read_text S) (same_id S) (from_text S) (to_text S) w2 sigma c ->
  (forall x, lives (w x) c /\ countable (w_cl (w x)) /\ no_throws (w_cl (w x)) /\
    forall s, nth_error (cl_subs (w_cl (w x))) j = Some s -> su_live s = true) ->
  exists vs, decoded (s_dec S) (map snd (it_args i)) (map (fun a => to_value (s_float S) (stringify_elem a)) args) vs /\
    (exists x tk, stream_made S a (w x) id n k vs tk) /\
    forall x tk q d, stream_made S a (w x) id n k vs tk -> nth_error (values (A := rpc S) (received_as double) tk) q = Some d ->
      exists y s, x <= y /\ nth_error (cl_subs (w_cl (w y))) j = Some s /\ nth_error (su_seen s) q = Some d.
Proof.
  intros L L' HP Hit Hg Hns Hk Ha HR H1 H2 Hev Hp.
  exact (flows S R E o inv inside stream_item p s m HP n k f i Hit b g Hg ip L L' a w0 H1 H2 Hns fuel args ev Hev wide c sigma Hk Ha HR Hp).
Qed.
Print Assumptions C52_accepted_streams_flow.
