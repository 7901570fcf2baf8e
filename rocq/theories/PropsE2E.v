(** Property C47: client and server together.  Specification vocabulary: E2ESpec.v, and [handler_ran]
    of E2EWire.v.

    [S] is a backend with the [Deserialize] impls of its argument types and its methods, and two writers and a
    reader of numbers (E2EText.v).  The frames are texts.  A result is received but for numbers that are no doubles.
    Schedules are arbitrary: other clients may send anything at any time. *)
From Coq Require Import List String Arith Bool NArith ZArith.
From Verif Require Import Util Js JsonText JsonTextSpec JsonTextProofs Serde Registry Macro Server ServerSpec Wire WireSpec WireProofs Pump Client ClientSpec.
From Verif Require Import E2E E2ESpec E2EText E2ESafe E2ESettle E2EFail E2EWire E2EExamples.
Import ListNotations.
Local Open Scope string_scope.
Local Open Scope list_scope.

(** C47. If the promise of a call of the generated client is settled, its method has been called, once,
    with the arguments of the call, and the promise has the result. *)
Theorem C47_settled_by_its_method (T V F : Type) (S : setting T V F)
    n k f i args (a : list F) w0 es d :
  faithful (s_lit S) (s_num S) -> faithful (s_lit' S) (s_num S) ->
  distinct (s_backend S) -> has_item (s_backend S) n k f i -> bf_name f = unraw (variant_ident f) -> it_ident i = unraw (it_ident i) ->
  it_args i <> [] -> it_kind i = Method ->
  Forall js_value args ->
  wreachable (call_text S) (read_text S) (same_id S) (from_text S) (to_text S) a w0 -> user (w_cl w0) = true ->
  let w := wrun (call_text S) (read_text S) (same_id S) (from_text S) (to_text S)
             (wnext (call_text S) (read_text S) (same_id S) (from_text S) (to_text S) w0 (WClient (URequest (bf_name f, it_ident i, args)))) es in
  countable (w_cl w) -> settled w (List.length (cl_subs (w_cl w0))) d ->
  exists vs d0, decoded (s_dec S) (map snd (it_args i)) (map (fun a => to_value (s_float S) (stringify_elem a)) args) vs /\
    d = received_as double d0 /\
    handler_ran S a w (bump (cl_id (w_cl w0))) n k vs (inl d0).
Proof. intros L L' H1 H2 H3 H4 H5 H6 H7 H8 H9. exact (wire_settled S L L' n k f i args a w0 H1 H2 H3 H4 H8 H9 H7 es d H5 H6). Qed.
Print Assumptions C47_settled_by_its_method.

(** C47. Under a fair schedule every call whose arguments deserialize gets to its method, and is settled
    with the result, if its socket lives until then. *)
Theorem C47_comes_to_an_end (T V F : Type) (S : setting T V F)
    n k f i args (a : list F) w0 m sigma vs :
  faithful (s_lit S) (s_num S) -> faithful (s_lit' S) (s_num S) ->
  let id := bump (cl_id (w_cl w0)) in
  let j := List.length (cl_subs (w_cl w0)) in
  let w1 := wnext (call_text S) (read_text S) (same_id S) (from_text S) (to_text S) w0 (WClient (URequest (bf_name f, it_ident i, args))) in
  let w := at_time (call_text S) (read_text S) (same_id S) (from_text S) (to_text S) w1 sigma in
  distinct (s_backend S) -> has_item (s_backend S) n k f i -> bf_name f = unraw (variant_ident f) -> it_ident i = unraw (it_ident i) ->
  it_args i <> [] -> it_kind i = Method ->
  Forall js_value args ->
  wreachable (call_text S) (read_text S) (same_id S) (from_text S) (to_text S) a w0 -> user (w_cl w0) = true ->
  (forall doc, sent_doc id f i args doc -> fine doc) ->
  decoded (s_dec S) (map snd (it_args i)) (map (fun a => to_value (s_float S) (stringify_elem a)) args) vs ->
  fair (call_text S) (read_text S) (same_id S) (from_text S) (to_text S) w1 sigma m ->
  (forall x, (forall y d, y < x -> ~ settled (w y) j d) -> lives (w x) m /\ countable (w_cl (w x))) ->
  exists x res, handler_ran S a (w x) id n k vs res /\
    match res with inl d => settled (w x) j (received_as double d) | inr _ => True end.
Proof.
  intros L L' id j w1 w H1 H2 H3 H4 H5 H6 H7 H8 H9 H10 H11.
  exact (wire_ends S L L' n k f i args a w0 H1 H2 H3 H4 H8 H9 H7 m sigma vs H5 H6 H10 H11).
Qed.
Print Assumptions C47_comes_to_an_end.

(** C47. A call of a method without arguments is never settled. *)
Theorem C47_without_arguments (T V F : Type) (S : setting T V F)
    n k f i args (a : list F) w0 es d :
  faithful (s_lit S) (s_num S) -> faithful (s_lit' S) (s_num S) ->
  distinct (s_backend S) -> has_item (s_backend S) n k f i -> bf_name f = unraw (variant_ident f) -> it_ident i = unraw (it_ident i) -> it_args i = [] ->
  wreachable (call_text S) (read_text S) (same_id S) (from_text S) (to_text S) a w0 -> user (w_cl w0) = true ->
  let w := wrun (call_text S) (read_text S) (same_id S) (from_text S) (to_text S)
             (wnext (call_text S) (read_text S) (same_id S) (from_text S) (to_text S) w0 (WClient (URequest (bf_name f, it_ident i, args)))) es in
  countable (w_cl w) -> ~ settled w (List.length (cl_subs (w_cl w0))) d.
Proof.
  intros L L' H1 H2 H3 H4 H5 H6 H7.
  exact (wire_unsettled S L L' a w0 _ _ args es d H6 H7
           (exec_no_arguments (s_dec S) (s_float S) (s_unit S) (s_backend S) n k f i (map real args) H1 H2 H3 H4 H5)).
Qed.
Print Assumptions C47_without_arguments.

(** C47. Nor is a call of a namespace that is renamed to a name no variant has. *)
Theorem C47_renamed_namespace (T V F : Type) (S : setting T V F)
    ns method args (a : list F) w0 es d :
  faithful (s_lit S) (s_num S) -> faithful (s_lit' S) (s_num S) ->
  ~ In ns (field_tags (s_backend S)) ->
  wreachable (call_text S) (read_text S) (same_id S) (from_text S) (to_text S) a w0 -> user (w_cl w0) = true ->
  let w := wrun (call_text S) (read_text S) (same_id S) (from_text S) (to_text S)
             (wnext (call_text S) (read_text S) (same_id S) (from_text S) (to_text S) w0 (WClient (URequest (ns, method, args)))) es in
  countable (w_cl w) -> ~ settled w (List.length (cl_subs (w_cl w0))) d.
Proof.
  intros L L' H1 H2 H3.
  exact (wire_unsettled S L L' a w0 ns method args es d H2 H3
           (exec_unknown_name (s_dec S) (s_float S) (s_unit S) (s_backend S) ns method (map real args) H1)).
Qed.
Print Assumptions C47_renamed_namespace.

(** C47. Whatever the codecs: the server accepts a call of the client at most once. *)
Theorem C47_at_most_once (R text K D : Type) enc read same (A : app) decode encode val data
    (a : St A) (w : world text K D A) id i i' :
  understand (R := R) enc read same decode encode val data ->
  wreachable enc read same decode encode a w -> countable (w_cl w) -> is_call w id i -> is_call w id i' -> i = i'.
Proof. exact (fun U => calls_once enc read same decode encode val data U a w id i i'). Qed.
Print Assumptions C47_at_most_once.

(** C47. Whatever the codecs: a call whose method has failed is never settled. *)
Theorem C47_failed_for_ever (R text K D : Type) enc read same (A : app) decode encode val data
    (a : St A) (w0 : world text K D A) (r : R) t es es' call e d :
  understand enc read same decode encode val data ->
  wreachable enc read same decode encode a w0 -> user (w_cl w0) = true -> enc (bump (cl_id (w_cl w0))) r = Some t ->
  from_value A (val r) = inl call -> is_stream A call = false ->
  let w := wrun enc read same decode encode (wnext enc read same decode encode w0 (WClient (URequest r))) es in
  ran a w (bump (cl_id (w_cl w0))) (val r) call (inr e) ->
  countable (w_cl (wrun enc read same decode encode w es')) ->
  ~ settled (wrun enc read same decode encode w es') (List.length (cl_subs (w_cl w0))) d.
Proof. exact (fun U => failed_never_settles enc read same decode encode val data U a w0 r t es es' call e d). Qed.
Print Assumptions C47_failed_for_ever.

(** C47. What a response looks like on the wire: what it is tagged with, the id, the data. *)
Theorem C47_response_texts (T V F : Type) (S : setting T V F) id d o e : faithful (s_lit' S) (s_num S) ->
  parse (s_num S) (to_text S (RMethod (A := rpc S) id d)) = Some (JObj [(js "method", JObj [(js "id", JInt (Z.of_N id)); (js "data", written double d)])]) /\
  parse (s_num S) (to_text S (RStream (A := rpc S) id d)) = Some (JObj [(js "stream", JObj [(js "id", JInt (Z.of_N id)); (js "data", written double d)])]) /\
  parse (s_num S) (to_text S (RError (A := rpc S) o e)) =
    Some (JObj [(js "error", JObj [(js "id", match o with Some n => JInt (Z.of_N n) | None => JNull end); (js "data", JObj [(js "JsonError", JStr e)])])]).
Proof. exact (fun L => response_texts S L id d o e). Qed.
Print Assumptions C47_response_texts.
