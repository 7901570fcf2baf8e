(** Property C56: a page that runs the generated program, a server, the network between them.
    Specification vocabulary: System.v ([system], [sstep], [sruns], [started]), SystemSpec.v ([pending], [fulfilled],
    [next_number], [calls_method]), JsSpec.v ([few], [heard_of], [all_actions]), E2EWire.v ([handler_ran]),
    E2EStreamWire.v ([stream_made]), E2EStreamSpec.v ([values], [thinned]).

    The page is the text of the client, read and interpreted (C55); the server is that of C20 - C26 and C43.  What the user
    does, what the network does, when the server does what, and what other clients send is arbitrary. *)
From Coq Require Import List String Bool Arith NArith ZArith.
From Verif Require Import Util Js JsonText JsonTextSpec JsonTextProofs Registry Macro Server ServerSpec Pump Wire WireSpec WireProofs TsProgram.
From Verif Require Import E2E E2ESpec E2EStreamSpec E2EText E2EProofs E2EWire E2EStreamWire JsSem JsSpec System SystemSpec SystemClaims SystemListen SystemStays SystemExamples.
From Verif Require Client Prelude.
Import ListNotations.
Local Open Scope string_scope.
Local Open Scope list_scope.

(** C56. The promise of a call of a method is pending, or fulfilled with the result of that method, which has been called
    once, with the arguments of the call. *)
Theorem C56_promise (T V F : Type) (S : setting T V F) P n k f i args scripts (a : list F) y0 es1 y1 b y2 es2 y :
  program Prelude.websocket_client = Some P -> faithful (s_lit S) (s_num S) -> faithful (s_lit' S) (s_num S) ->
  distinct (s_backend S) -> has_item (s_backend S) n k f i -> bf_name f = unraw (variant_ident f) -> it_ident i = unraw (it_ident i) ->
  it_args i <> [] -> it_kind i = Method -> Forall js_value args ->
  let ask : sevent S := STask (TUser (mkScript [ARequest (bf_name f) (it_ident i) args] b)) in
  started S P scripts a y0 -> sruns S y0 es1 y1 -> sstep S y1 ask y2 -> sruns S y2 es2 y -> few scripts (tasks_of (es1 ++ ask :: es2)) ->
  let j := List.length (us_proms (st_user (sy_page y1))) in
  pending (sy_page y) j \/
  exists vs d, decoded (s_dec S) (map snd (it_args i)) (map (fun a => to_value (s_float S) (stringify_elem a)) args) vs /\
    fulfilled (sy_page y) j (received_as double d) /\ handler_ran S a (server_side y) (next_number (sy_page y1)) n k vs (inl d).
Proof.
  intros HP L L' H1 H2 H3 H4 H5 H6 H7 ask R0 R1 R2 R3 Hf.
  exact (answered S P HP L L' n k f i args H1 H2 H3 H4 H5 H6 H7 scripts a y0 y1 y2 es1 b R0 R1 R2 y es2 R3 Hf).
Qed.
Print Assumptions C56_promise.

(** C56. However requests are made, also by callbacks: if they are calls of methods, or of namespaces that are renamed to a name no variant has, each promise is pending or fulfilled with
    the result of the method for a number of its own. *)
Theorem C56_all_promises (T V F : Type) (S : setting T V F) P scripts (a : list F) y0 es y :
  program Prelude.websocket_client = Some P -> faithful (s_lit S) (s_num S) -> faithful (s_lit' S) (s_num S) -> distinct (s_backend S) ->
  started S P scripts a y0 -> sruns S y0 es y -> few scripts (tasks_of es) ->
  let acts := all_actions scripts (tasks_of es) in
  (forall ns m args, In (ARequest ns m args) acts -> ~ In ns (field_tags (s_backend S)) \/ exists n k f i, calls_method S ns m args n k f i) ->
  exists ids, NoDup ids /\ List.length ids = List.length (us_proms (st_user (sy_page y))) /\
    forall j id, nth_error ids j = Some id -> pending (sy_page y) j \/
      exists ns m args n k f i vs d, In (ARequest ns m args) acts /\ calls_method S ns m args n k f i /\
        decoded (s_dec S) (map snd (it_args i)) (map (fun a => to_value (s_float S) (stringify_elem a)) args) vs /\
        fulfilled (sy_page y) j (received_as double d) /\ handler_ran S a (server_side y) id n k vs (inl d).
Proof. exact (fun HP L L' Hd R0 R Hf Hc => all_answered S P HP L L' scripts a y0 y es Hd R0 R Hf Hc). Qed.
Print Assumptions C56_all_promises.

(** C56. If the method has failed, the promise is pending, now and ever after. *)
Theorem C56_failed (T V F : Type) (S : setting T V F) P n k f i args scripts (a : list F) y0 es1 y1 b y2 es2 y es3 y' vs e :
  program Prelude.websocket_client = Some P -> faithful (s_lit S) (s_num S) -> faithful (s_lit' S) (s_num S) ->
  distinct (s_backend S) -> has_item (s_backend S) n k f i -> bf_name f = unraw (variant_ident f) -> it_ident i = unraw (it_ident i) ->
  it_args i <> [] -> it_kind i = Method -> Forall js_value args ->
  let ask : sevent S := STask (TUser (mkScript [ARequest (bf_name f) (it_ident i) args] b)) in
  started S P scripts a y0 -> sruns S y0 es1 y1 -> sstep S y1 ask y2 -> sruns S y2 es2 y -> sruns S y es3 y' ->
  few scripts (tasks_of (es1 ++ ask :: es2 ++ es3)) ->
  decoded (s_dec S) (map snd (it_args i)) (map (fun a => to_value (s_float S) (stringify_elem a)) args) vs ->
  handler_ran S a (server_side y) (next_number (sy_page y1)) n k vs (inr e) ->
  pending (sy_page y') (List.length (us_proms (st_user (sy_page y1)))).
Proof.
  intros HP L L' H1 H2 H3 H4 H5 H6 H7 ask R0 R1 R2 R3 R4 Hf.
  exact (failed S P HP L L' n k f i args H1 H2 H3 H4 H5 H6 H7 scripts a y0 y1 y2 es1 b R0 R1 R2 y es2 y' es3 vs e R3 R4 Hf).
Qed.
Print Assumptions C56_failed.

(** C56. The promise of a call of an item without arguments is pending, ever after. *)
Theorem C56_without_arguments (T V F : Type) (S : setting T V F) P n k f i args scripts (a : list F) y0 es1 y1 b y2 es2 y :
  program Prelude.websocket_client = Some P -> faithful (s_lit S) (s_num S) -> faithful (s_lit' S) (s_num S) ->
  distinct (s_backend S) -> has_item (s_backend S) n k f i -> bf_name f = unraw (variant_ident f) -> it_ident i = unraw (it_ident i) -> it_args i = [] ->
  let ask : sevent S := STask (TUser (mkScript [ARequest (bf_name f) (it_ident i) args] b)) in
  started S P scripts a y0 -> sruns S y0 es1 y1 -> sstep S y1 ask y2 -> sruns S y2 es2 y -> few scripts (tasks_of (es1 ++ ask :: es2)) ->
  pending (sy_page y) (List.length (us_proms (st_user (sy_page y1)))).
Proof.
  intros HP L L' H1 H2 H3 H4 H5 ask R0 R1 R2 R3 Hf.
  exact (never S P HP L L' scripts a y0 y1 y2 es1 _ _ args b R0 R1 R2 y es2 R3 Hf
           (exec_no_arguments (s_dec S) (s_float S) (s_unit S) (s_backend S) n k f i (map real args) H1 H2 H3 H4 H5)).
Qed.
Print Assumptions C56_without_arguments.

(** C56. So is that of a call of a namespace that is renamed to a name no variant has. *)
Theorem C56_renamed_namespace (T V F : Type) (S : setting T V F) P ns m args scripts (a : list F) y0 es1 y1 b y2 es2 y :
  program Prelude.websocket_client = Some P -> faithful (s_lit S) (s_num S) -> faithful (s_lit' S) (s_num S) ->
  ~ In ns (field_tags (s_backend S)) ->
  let ask : sevent S := STask (TUser (mkScript [ARequest ns m args] b)) in
  started S P scripts a y0 -> sruns S y0 es1 y1 -> sstep S y1 ask y2 -> sruns S y2 es2 y -> few scripts (tasks_of (es1 ++ ask :: es2)) ->
  pending (sy_page y) (List.length (us_proms (st_user (sy_page y1)))).
Proof.
  intros HP L L' H1 ask R0 R1 R2 R3 Hf.
  exact (never S P HP L L' scripts a y0 y1 y2 es1 ns m args b R0 R1 R2 y es2 R3 Hf
           (exec_unknown_name (s_dec S) (s_float S) (s_unit S) (s_backend S) ns m (map real args) H1)).
Qed.
Print Assumptions C56_renamed_namespace.

(** C56. A listener of a stream is called with the first of what the function of the call has made, in order, with one argument
    each; with some left out only if callbacks throw. *)
Theorem C56_listener (T V F : Type) (S : setting T V F) P n k f i args scripts (a : list F) y0 es1 y1 b y2 es2 y :
  program Prelude.websocket_client = Some P -> faithful (s_lit S) (s_num S) -> faithful (s_lit' S) (s_num S) ->
  distinct (s_backend S) -> has_item (s_backend S) n k f i -> bf_name f = unraw (variant_ident f) -> it_ident i = unraw (it_ident i) ->
  it_args i <> [] -> it_kind i = Stream -> Forall js_value args ->
  let ask : sevent S := STask (TUser (mkScript [AStream (bf_name f) (it_ident i) args; AListen (List.length (us_stores (st_user (sy_page y1))))] b)) in
  started S P scripts a y0 -> sruns S y0 es1 y1 -> sstep S y1 ask y2 -> sruns S y2 es2 y -> few scripts (tasks_of (es1 ++ ask :: es2)) ->
  exists seen, heard_of (List.length (us_unls (st_user (sy_page y1)))) (sy_page y) = map (fun d => [VData d]) seen /\
    (seen = [] \/
     exists vs tk heard after, decoded (s_dec S) (map snd (it_args i)) (map (fun a => to_value (s_float S) (stringify_elem a)) args) vs /\
       stream_made S a (server_side y) (next_number (sy_page y1)) n k vs tk /\
       values (A := rpc S) (received_as double) tk = heard ++ after /\ thinned heard seen /\
       (Forall (fun x => sc_throw x = false) scripts -> heard = seen)).
Proof.
  intros HP L L' H1 H2 H3 H4 H5 H6 H7 ask R0 R1 R2 R3 Hf.
  exact (hears S P HP L L' n k f i args H1 H2 H3 H4 H5 H6 H7 scripts a y0 y1 y2 es1 b R0 R1 R2 y es2 R3 Hf).
Qed.
Print Assumptions C56_listener.

(** C56. However streams are made and listened to, also late or by callbacks: if they are calls of streams, or of such namespaces, each listener is called
    with a part of what the function of one of these calls has made, in order, with one argument each; with some left out only if
    callbacks throw.  Each store has a number of its own. *)
Theorem C56_all_listeners (T V F : Type) (S : setting T V F) P scripts (a : list F) y0 es y :
  program Prelude.websocket_client = Some P -> faithful (s_lit S) (s_num S) -> faithful (s_lit' S) (s_num S) -> distinct (s_backend S) ->
  started S P scripts a y0 -> sruns S y0 es y -> few scripts (tasks_of es) ->
  let acts := all_actions scripts (tasks_of es) in
  (forall ns m args, In (AStream ns m args) acts -> ~ In ns (field_tags (s_backend S)) \/ exists n k f i, calls_stream S ns m args n k f i) ->
  exists ids, NoDup ids /\ List.length ids = List.length (us_stores (st_user (sy_page y))) /\
    forall u, u < List.length (us_unls (st_user (sy_page y))) ->
    exists id seen, In id ids /\ heard_of u (sy_page y) = map (fun d => [VData d]) seen /\
    (seen = [] \/
     exists ns m args n k f i vs tk before heard after, In (AStream ns m args) acts /\ calls_stream S ns m args n k f i /\
       decoded (s_dec S) (map snd (it_args i)) (map (fun a => to_value (s_float S) (stringify_elem a)) args) vs /\
       stream_made S a (server_side y) id n k vs tk /\
       values (A := rpc S) (received_as double) tk = before ++ heard ++ after /\ thinned heard seen /\
       (Forall (fun x => sc_throw x = false) scripts -> heard = seen)).
Proof. exact (fun HP L L' Hd R0 R Hf Hc => all_heard S L L' P HP scripts a y0 y es Hd R0 R Hf Hc). Qed.
Print Assumptions C56_all_listeners.

(** C56. A listener of a stream without arguments hears nothing. *)
Theorem C56_stream_without_arguments (T V F : Type) (S : setting T V F) P n k f i args scripts (a : list F) y0 es1 y1 b y2 es2 y :
  program Prelude.websocket_client = Some P -> faithful (s_lit S) (s_num S) -> faithful (s_lit' S) (s_num S) ->
  distinct (s_backend S) -> has_item (s_backend S) n k f i -> bf_name f = unraw (variant_ident f) -> it_ident i = unraw (it_ident i) -> it_args i = [] ->
  let ask : sevent S := STask (TUser (mkScript [AStream (bf_name f) (it_ident i) args; AListen (List.length (us_stores (st_user (sy_page y1))))] b)) in
  started S P scripts a y0 -> sruns S y0 es1 y1 -> sstep S y1 ask y2 -> sruns S y2 es2 y -> few scripts (tasks_of (es1 ++ ask :: es2)) ->
  heard_of (List.length (us_unls (st_user (sy_page y1)))) (sy_page y) = [].
Proof.
  intros HP L L' H1 H2 H3 H4 H5 ask R0 R1 R2 R3 Hf.
  exact (never_heard S P HP L L' scripts a y0 y1 y2 es1 _ _ args b R0 R1 R2 y es2 R3 Hf
           (exec_no_arguments (s_dec S) (s_float S) (s_unit S) (s_backend S) n k f i (map real args) H1 H2 H3 H4 H5)).
Qed.
Print Assumptions C56_stream_without_arguments.

(** C56. What the user has got stays, whatever happens later: every promise is pending or fulfilled, never rejected; if it is
    fulfilled, it is so with the same value from then on; what a listener has been called with is only added to. *)
Theorem C56_stays (T V F : Type) (S : setting T V F) P scripts (a : list F) y0 es y es' y' :
  program Prelude.websocket_client = Some P -> started S P scripts a y0 -> sruns S y0 es y -> sruns S y es' y' ->
  (forall j, j < List.length (us_proms (st_user (sy_page y))) ->
     (pending (sy_page y) j \/ exists d, fulfilled (sy_page y) j d) /\ forall d, fulfilled (sy_page y) j d -> fulfilled (sy_page y') j d) /\
  (forall u, u < List.length (us_unls (st_user (sy_page y))) -> exists later, heard_of u (sy_page y') = heard_of u (sy_page y) ++ later).
Proof.
  intros HP R0 R R'. split; [exact (fun j => proms_stay S P HP scripts a y0 y y' es es' R0 R R' j) | exact (fun u => heard_stays S P HP scripts a y0 y y' es es' R0 R R' u)].
Qed.
Print Assumptions C56_stays.

(** C56. A listener that has been unsubscribed is not called again, whatever comes. *)
Theorem C56_unsubscribed (T V F : Type) (S : setting T V F) P scripts (a : list F) y0 es1 y1 u b y2 es2 y :
  program Prelude.websocket_client = Some P -> u < List.length (us_unls (st_user (sy_page y1))) ->
  started S P scripts a y0 -> sruns S y0 es1 y1 -> sstep S y1 (STask (TUser (mkScript [AUnlisten u] b))) y2 -> sruns S y2 es2 y ->
  heard_of u (sy_page y) = heard_of u (sy_page y1).
Proof. exact (fun HP Lu R0 R1 R2 R3 => unsubscribed S P HP scripts a y0 y1 y2 y es1 es2 u b R0 R1 R2 R3 Lu). Qed.
Print Assumptions C56_unsubscribed.

(** C56. The page never gets stuck: whatever the user or the network does to it, it deals with; texts that are on their way can be
    delivered. *)
Theorem C56_goes_on (T V F : Type) (S : setting T V F) P scripts (a : list F) y0 es y :
  program Prelude.websocket_client = Some P -> started S P scripts a y0 -> sruns S y0 es y ->
  (forall t, (forall k, t <> TOpen k) -> (forall k x, t <> TMessage k x) -> exists y', sstep S y (STask t) y') /\
  (forall x, In x (sy_links y) -> exists y', sstep S y (SOpen (ln_sock x)) y') /\
  (forall l x so s v, nth_error (sy_links y) l = Some x -> nth_error (st_socks (sy_page y)) (ln_sock x) = Some so -> nth_error (so_sent so) (ln_up x) = Some v ->
     nth_error (p_socks (sy_sv y)) (ln_pump x) = Some s -> sk_live s = true -> exists y', sstep S y (SUp l) y') /\
  (forall l x so s t, nth_error (sy_links y) l = Some x -> nth_error (p_socks (sy_sv y)) (ln_pump x) = Some s -> nth_error (sk_out s) (ln_down x) = Some t ->
     nth_error (st_socks (sy_page y)) (ln_sock x) = Some so -> so_state so = Client.Open -> exists y', sstep S y (SDown l) y').
Proof.
  intros HP R0 R. split; [exact (fun t => goes_on S P HP scripts a y0 es y t R0 R)|]. split; [exact (fun x => goes_open S P HP scripts a y0 es y x R0 R)|].
  split; [exact (fun l x so s v => goes_up S P HP scripts a y0 es y l x so s v R0 R) | exact (fun l x so s t => goes_down S P HP scripts a y0 es y l x so s t R0 R)].
Qed.
Print Assumptions C56_goes_on.

(** C56. And in one way only. *)
Theorem C56_one_way (T V F : Type) (S : setting T V F) (y : system S) e y1 y2 : sstep S y e y1 -> sstep S y e y2 -> y1 = y2.
Proof. exact (steps_once S y e y1 y2). Qed.
Print Assumptions C56_one_way.
