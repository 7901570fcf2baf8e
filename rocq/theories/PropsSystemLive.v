(** Property C56: a page that runs the generated program, a server, and a network that carries everything in the end.
    Specification vocabulary: that of PropsSystem.v, SystemFair.v ([endless], [fair_run], [connected]), E2ESpec.v ([sent_doc]),
    WireSpec.v ([decoded]), E2EText.v ([fine]).

    The runs are endless.  What happens in them, and in which order, is arbitrary but for what is said of it.  The proofs pick, step
    by step, a run of the model of the client that goes with the page: this takes the axiom of Coq's standard library named below. *)
From Coq Require Import List String Bool Arith NArith ZArith.
From Verif Require Import Util Js JsonText JsonTextSpec JsonTextProofs Registry Macro Server ServerSpec Pump Wire WireSpec WireProofs TsProgram.
From Verif Require Import E2E E2ESpec E2EStreamSpec E2EText E2EProofs E2EWire E2EStreamWire JsSem JsSpec System SystemSpec SystemFair SystemLive SystemFlow.
From Verif Require Client Prelude.
Import ListNotations.
Local Open Scope string_scope.
Local Open Scope list_scope.

(** C56. A call of a method comes to its end: if its socket stays connected while its promise is pending, and nothing waits for
    ever, the method is called in the end, and if it returns, the promise is fulfilled with its result. *)
Theorem C56_comes_to_an_end (T V F : Type) (S : setting T V F) P n k f i args vs scripts (a : list F) y0 es1 y1 b (y : nat -> system S) e sock :
  program Prelude.websocket_client = Some P -> faithful (s_lit S) (s_num S) -> faithful (s_lit' S) (s_num S) ->
  distinct (s_backend S) -> has_item (s_backend S) n k f i -> bf_name f = unraw (variant_ident f) -> it_ident i = unraw (it_ident i) ->
  it_args i <> [] -> it_kind i = Method -> Forall js_value args ->
  let ask : sevent S := STask (TUser (mkScript [ARequest (bf_name f) (it_ident i) args] b)) in
  started S P scripts a y0 -> sruns S y0 es1 y1 -> sstep S y1 ask (y 0) -> endless y e ->
  (forall x, few scripts (tasks_of (es1 ++ ask :: map e (seq 0 x)))) ->
  let id := next_number (sy_page y1) in
  let j := List.length (us_proms (st_user (sy_page y1))) in
  (forall doc, sent_doc id f i args doc -> fine doc) ->
  decoded (s_dec S) (map snd (it_args i)) (map (fun a => to_value (s_float S) (stringify_elem a)) args) vs ->
  fair_run y e sock -> (forall x, pending (sy_page (y x)) j -> connected (y x) sock) ->
  exists x res, handler_ran S a (server_side (y x)) id n k vs res /\
    match res with inl d => fulfilled (sy_page (y x)) j (received_as double d) | inr _ => True end.
Proof.
  intros HP L L' H1 H2 H3 H4 H5 H6 H7 ask R0 R1 R2 En Hf id j Fi De Fr Co.
  exact (ask_ends S P HP L L' n k f i args H1 H2 H3 H4 H5 H6 H7 scripts a y0 y1 es1 b y e sock R0 R1 R2 En Hf Co vs Fi De Fr).
Qed.
Print Assumptions C56_comes_to_an_end.

(** C56. A listener of a stream that is not unsubscribed hears everything: if its socket stays connected, nothing waits for ever,
    and no callback throws, the function of the stream is called in the end, and each value it makes reaches the listener, in its place. *)
Theorem C56_stream_arrives (T V F : Type) (S : setting T V F) P n k f i args vs scripts (a : list F) y0 es1 y1 b (y : nat -> system S) e sock :
  program Prelude.websocket_client = Some P -> faithful (s_lit S) (s_num S) -> faithful (s_lit' S) (s_num S) ->
  distinct (s_backend S) -> has_item (s_backend S) n k f i -> bf_name f = unraw (variant_ident f) -> it_ident i = unraw (it_ident i) ->
  it_args i <> [] -> it_kind i = Stream -> Forall js_value args ->
  let ask : sevent S := STask (TUser (mkScript [AStream (bf_name f) (it_ident i) args; AListen (List.length (us_stores (st_user (sy_page y1))))] b)) in
  started S P scripts a y0 -> sruns S y0 es1 y1 -> sstep S y1 ask (y 0) -> endless y e ->
  (forall x, few scripts (tasks_of (es1 ++ ask :: map e (seq 0 x)))) ->
  let id := next_number (sy_page y1) in
  let u := List.length (us_unls (st_user (sy_page y1))) in
  (forall doc, sent_doc id f i args doc -> fine doc) ->
  decoded (s_dec S) (map snd (it_args i)) (map (fun a => to_value (s_float S) (stringify_elem a)) args) vs ->
  fair_run y e sock -> (forall x, connected (y x) sock) ->
  Forall (fun x => sc_throw x = false) scripts ->
  (forall x, ~ In (AUnlisten u) (all_actions scripts (tasks_of (es1 ++ ask :: map e (seq 0 x))))) ->
  (exists x tk, stream_made S a (server_side (y x)) id n k vs tk) /\
  forall x tk q d, stream_made S a (server_side (y x)) id n k vs tk -> nth_error (values (A := rpc S) (received_as double) tk) q = Some d ->
    exists x', x <= x' /\ nth_error (heard_of u (sy_page (y x'))) q = Some [VData d].
Proof.
  intros HP L L' H1 H2 H3 H4 H5 H6 H7 ask R0 R1 R2 En Hf id u Fi De Fr Co Ht Nu.
  exact (stream_flows_page S L L' P HP n k f i args H1 H2 H3 H4 H5 H6 H7 scripts a y0 y1 es1 b y e sock R0 R1 R2 En Hf Co Ht vs Nu Fi De Fr).
Qed.
Print Assumptions C56_stream_arrives.
