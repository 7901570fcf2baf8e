(** Property C57: typed calls of a page.  Specification vocabulary: that of PropsTyped.v and PropsSystem.v, SystemFair.v, and
    [page_action] and [runs_function] of SystemTypedSpec.v.

    [program S E o inv inside stream_item p s m]: the backend of [S] is that of a regular program over the declarations [E]; [p ++ s]
    is the generated text, [m] its module.  Item [i] is item [k] of field [n], and [g] is the function of its name in the namespace of
    the field; [act] is what a page does that runs [g] with [args].  The page runs the text of the client, the server is that
    of the backend; what else happens is arbitrary. *)
From Coq Require Import List String Bool Arith NArith ZArith.
From Verif Require Import Util RustTy Gen GenSpec Js JsonText JsonTextSpec JsonTextProofs TsType JsModule Zod ZodSpec Serde SerdeSpec ParseSpec TsSpec Registry RegistrySpec ModuleSpec ScopeSpec
  Macro Server ServerSpec Wire WireSpec WireProofs Pump.
From Verif Require Import E2E E2ESpec E2EStreamSpec E2EText E2EProofs E2EWire E2EStreamWire ClientFn TypedSpec.
From Verif Require Import JsSem JsSpec System SystemSpec SystemFair SystemTypedSpec SystemTyped SystemTypedAll.
From Verif Require Client Prelude TsProgram.
Import ListNotations.
Local Open Scope string_scope.
Local Open Scope list_scope.

(** C57. If the promise a generated function returns is fulfilled, then with a value of its type. *)
Theorem C57_promise_typed {V F : Type} (S : setting ty V F) R E o inv inside stream_item p s m n k f i b g ip P fuel args act scripts (a : list F) y0 es1 y1 thr y2 es2 y mild d t :
  program S E o inv inside stream_item p s m -> has_item (s_backend S) n k f i -> exported m (bf_name f) (it_ident i) b g ->
  faithful (s_lit S) (s_num S) -> faithful (s_lit' S) (s_num S) -> bf_name f = unraw (variant_ident f) ->
  TsProgram.program Prelude.websocket_client = Some P -> page_action (invoke ip m b g fuel args) = Some act ->
  it_kind i = Method -> typed_result E inside stream_item mild i -> returns_typed S R E stream_item mild n k i -> Forall js_value args ->
  let ask : sevent S := STask (TUser (mkScript [act] thr)) in
  started S P scripts a y0 -> sruns S y0 es1 y1 -> sstep S y1 ask y2 -> sruns S y2 es2 y -> few scripts (tasks_of (es1 ++ ask :: es2)) ->
  fulfilled (sy_page y) (List.length (us_proms (st_user (sy_page y1)))) d -> fn_result g = YApp "Promise" [t] ->
  TsSpec.member (module_types m) t d.
Proof.
  intros HP Hit Hg L L' Hns HPg Hact Hk Ht Hr Ha ask R0 R1 R2 R3 Hf.
  exact (promised_typed S R E o inv inside stream_item p s m HP n k f i Hit b g Hg ip L L' Hns P HPg fuel args act Hact scripts a y0 y1 es1 thr R0 R1 Hk y2 es2 y mild d t R2 R3 Hf Ha Ht Hr).
Qed.
Print Assumptions C57_promise_typed.

(** C57. A listener of the store a generated function returns is called with one argument each time, of the type of the store. *)
Theorem C57_heard_typed {V F : Type} (S : setting ty V F) R E o inv inside stream_item p s m n k f i b g ip P fuel args act scripts (a : list F) y0 es1 y1 thr y2 es2 y mild t :
  program S E o inv inside stream_item p s m -> has_item (s_backend S) n k f i -> exported m (bf_name f) (it_ident i) b g ->
  faithful (s_lit S) (s_num S) -> faithful (s_lit' S) (s_num S) -> bf_name f = unraw (variant_ident f) ->
  TsProgram.program Prelude.websocket_client = Some P -> page_action (invoke ip m b g fuel args) = Some act ->
  it_kind i = Stream -> typed_result E inside stream_item mild i -> Forall js_value args ->
  let ask : sevent S := STask (TUser (mkScript [act; AListen (List.length (us_stores (st_user (sy_page y1))))] thr)) in
  started S P scripts a y0 -> sruns S y0 es1 y1 -> sstep S y1 ask y2 -> sruns S y2 es2 y -> few scripts (tasks_of (es1 ++ ask :: es2)) ->
  yields S R E stream_item mild a (server_side y) (next_number (sy_page y1)) n k i -> fn_result g = YApp "Store" [t] ->
  Forall (fun vs => exists d, vs = [VData d] /\ TsSpec.member (module_types m) t d) (heard_of (List.length (us_unls (st_user (sy_page y1)))) (sy_page y)).
Proof.
  intros HP Hit Hg L L' Hns HPg Hact Hk Ht Ha ask R0 R1 R2 R3 Hf.
  exact (listener_typed S R E o inv inside stream_item p s m HP n k f i Hit b g Hg ip L L' Hns P HPg fuel args act Hact scripts a y0 y1 es1 thr R0 R1 Hk y2 es2 y mild t R2 R3 Hf Ha Ht).
Qed.
Print Assumptions C57_heard_typed.

(** C57. A page all whose requests are calls of generated functions: whatever a promise is fulfilled with is of the type of one of them. *)
Theorem C57_all_promises_typed {V F : Type} (S : setting ty V F) R E o inv inside stream_item p s m P scripts (a : list F) y0 es y mild j d :
  program S E o inv inside stream_item p s m -> faithful (s_lit S) (s_num S) -> faithful (s_lit' S) (s_num S) ->
  TsProgram.program Prelude.websocket_client = Some P -> started S P scripts a y0 -> sruns S y0 es y -> few scripts (tasks_of es) ->
  let acts := all_actions scripts (tasks_of es) in
  (forall ns nm args, In (ARequest ns nm args) acts -> exists n k f i b g, runs_function S E inside stream_item m mild (ARequest ns nm args) n k f i b g /\
     returns_typed S R E stream_item mild n k i) ->
  fulfilled (sy_page y) j d ->
  exists act n k f i b g t, In act acts /\ runs_function S E inside stream_item m mild act n k f i b g /\ fn_result g = YApp "Promise" [t] /\ TsSpec.member (module_types m) t d.
Proof.
  intros HP L L' HPg R0 Rn Hf acts.
  exact (all_typed S R E o inv inside stream_item p s m HP mild L L' P HPg scripts a y0 y es R0 Rn Hf j d).
Qed.
Print Assumptions C57_all_promises_typed.

(** C57. A page all whose streams are calls of generated functions: a listener, also a late one, hears nothing or values of the type of
    the store of one of them, with one argument each time. *)
Theorem C57_all_heard_typed {V F : Type} (S : setting ty V F) R E o inv inside stream_item p s m P scripts (a : list F) y0 es y mild u :
  program S E o inv inside stream_item p s m -> faithful (s_lit S) (s_num S) -> faithful (s_lit' S) (s_num S) ->
  TsProgram.program Prelude.websocket_client = Some P -> started S P scripts a y0 -> sruns S y0 es y -> few scripts (tasks_of es) ->
  let acts := all_actions scripts (tasks_of es) in
  (forall ns nm args, In (AStream ns nm args) acts -> exists n k f i b g, runs_function S E inside stream_item m mild (AStream ns nm args) n k f i b g /\
     forall id, yields S R E stream_item mild a (server_side y) id n k i) ->
  u < List.length (us_unls (st_user (sy_page y))) -> heard_of u (sy_page y) = [] \/
  exists act n k f i b g t, In act acts /\ runs_function S E inside stream_item m mild act n k f i b g /\ fn_result g = YApp "Store" [t] /\
    Forall (fun vs => exists d, vs = [VData d] /\ TsSpec.member (module_types m) t d) (heard_of u (sy_page y)).
Proof.
  intros HP L L' HPg R0 Rn Hf acts.
  exact (all_heard_typed S R E o inv inside stream_item p s m HP mild L L' P HPg scripts a y0 y es R0 Rn Hf u).
Qed.
Print Assumptions C57_all_heard_typed.

(** C57. A call that a generated function does not refuse comes to its end: if its socket stays connected while its promise is pending,
    and nothing waits for ever, the method is called with what serde makes of the arguments, and if it returns, the promise is fulfilled
    with its result. *)
Theorem C57_accepted_calls_run {V F : Type} (S : setting ty V F) R E o inv inside stream_item p s m n k f i b g ip P fuel args act scripts (a : list F) y0 es1 y1 thr (y : nat -> system S) e sock wide :
  program S E o inv inside stream_item p s m -> has_item (s_backend S) n k f i -> exported m (bf_name f) (it_ident i) b g ->
  faithful (s_lit S) (s_num S) -> faithful (s_lit' S) (s_num S) -> bf_name f = unraw (variant_ident f) ->
  TsProgram.program Prelude.websocket_client = Some P -> page_action (invoke ip m b g fuel args) = Some act ->
  it_kind i = Method -> it_args i <> [] -> reads S R E inside wide i -> plain_args wide args ->
  let ask : sevent S := STask (TUser (mkScript [act] thr)) in
  started S P scripts a y0 -> sruns S y0 es1 y1 -> sstep S y1 ask (y 0) -> endless y e ->
  (forall x, few scripts (tasks_of (es1 ++ ask :: map e (seq 0 x)))) ->
  let j := List.length (us_proms (st_user (sy_page y1))) in
  fair_run y e sock -> (forall x, pending (sy_page (y x)) j -> connected (y x) sock) ->
  exists vs x res, decoded (s_dec S) (map snd (it_args i)) (map (fun a => to_value (s_float S) (stringify_elem a)) args) vs /\
    handler_ran S a (server_side (y x)) (next_number (sy_page y1)) n k vs res /\
    match res with inl d => fulfilled (sy_page (y x)) j (received_as double d) | inr _ => True end.
Proof.
  intros HP Hit Hg L L' Hns HPg Hact Hk Hn HR Ha ask R0 R1 R2 En Hf j.
  exact (call_runs S R E o inv inside stream_item p s m HP n k f i Hit b g Hg ip L L' Hns P HPg fuel args act Hact scripts a y0 y1 es1 thr R0 R1 Hk y e sock wide Hn R2 En Hf HR Ha).
Qed.
Print Assumptions C57_accepted_calls_run.

(** C57. A stream that a generated function does not refuse is made of what serde makes of the arguments, and each value it yields
    reaches the listener, in its place, if the socket stays connected, nothing waits for ever, no callback throws, and the listener stays. *)
Theorem C57_accepted_streams_flow {V F : Type} (S : setting ty V F) R E o inv inside stream_item p s m n k f i b g ip P fuel args act scripts (a : list F) y0 es1 y1 thr (y : nat -> system S) e sock wide :
  program S E o inv inside stream_item p s m -> has_item (s_backend S) n k f i -> exported m (bf_name f) (it_ident i) b g ->
  faithful (s_lit S) (s_num S) -> faithful (s_lit' S) (s_num S) -> bf_name f = unraw (variant_ident f) ->
  TsProgram.program Prelude.websocket_client = Some P -> page_action (invoke ip m b g fuel args) = Some act ->
  it_kind i = Stream -> it_args i <> [] -> reads S R E inside wide i -> plain_args wide args ->
  let ask : sevent S := STask (TUser (mkScript [act; AListen (List.length (us_stores (st_user (sy_page y1))))] thr)) in
  started S P scripts a y0 -> sruns S y0 es1 y1 -> sstep S y1 ask (y 0) -> endless y e ->
  (forall x, few scripts (tasks_of (es1 ++ ask :: map e (seq 0 x)))) ->
  let id := next_number (sy_page y1) in
  let u := List.length (us_unls (st_user (sy_page y1))) in
  fair_run y e sock -> (forall x, connected (y x) sock) -> Forall (fun x => sc_throw x = false) scripts ->
  (forall x, ~ In (AUnlisten u) (all_actions scripts (tasks_of (es1 ++ ask :: map e (seq 0 x))))) ->
  exists vs, decoded (s_dec S) (map snd (it_args i)) (map (fun a => to_value (s_float S) (stringify_elem a)) args) vs /\
    (exists x tk, stream_made S a (server_side (y x)) id n k vs tk) /\
    forall x tk q d, stream_made S a (server_side (y x)) id n k vs tk -> nth_error (values (A := rpc S) (received_as double) tk) q = Some d ->
      exists x', x <= x' /\ nth_error (heard_of u (sy_page (y x'))) q = Some [VData d].
Proof.
  intros HP Hit Hg L L' Hns HPg Hact Hk Hn HR Ha ask R0 R1 R2 En Hf id u.
  exact (stream_runs S R E o inv inside stream_item p s m HP n k f i Hit b g Hg ip L L' Hns P HPg fuel args act Hact scripts a y0 y1 es1 thr R0 R1 Hk y e sock wide Hn R2 En Hf HR Ha).
Qed.
Print Assumptions C57_accepted_streams_flow.
