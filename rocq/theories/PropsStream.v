(** Property C50: streams, client and server together.  Specification vocabulary: E2ESpec.v, E2EStreamSpec.v,
    and [stream_made] of E2EStreamWire.v.

    [S] is a backend with the [Deserialize] impls of its argument types and its methods, and two writers and a
    reader of numbers (E2EText.v).  The frames are texts.  A result is received but for numbers that are no doubles.
    What a stream yields is up to the schedule, as is everything other clients send. *)
From Coq Require Import List String Arith Bool NArith ZArith.
From Verif Require Import Util Js JsonText JsonTextSpec JsonTextProofs Serde Registry Macro Server ServerSpec Wire WireSpec WireProofs Pump Client ClientSpec.
From Verif Require Import E2E E2ESpec E2EStreamSpec E2EText E2ESafe E2EWire E2EStream E2EStreamWire E2EStreamExamples.
Import ListNotations.
Local Open Scope string_scope.
Local Open Scope list_scope.

(** C50. What the first listener of a stream of the generated client has heard, is an initial part of the
    stream that the function of the call has made: of one run of that function, with the arguments of the
    call.  Values may only be left out if a callback has thrown. *)
Theorem C50_heard_in_order (T V F : Type) (S : setting T V F)
    n k f i args (a : list F) w0 es :
  faithful (s_lit S) (s_num S) -> faithful (s_lit' S) (s_num S) ->
  let id := bump (cl_id (w_cl w0)) in
  let r : rcall := (bf_name f, it_ident i, args) in
  distinct (s_backend S) -> has_item (s_backend S) n k f i -> bf_name f = unraw (variant_ident f) -> it_ident i = unraw (it_ident i) ->
  it_args i <> [] -> it_kind i = Stream ->
  Forall js_value args ->
  wreachable (call_text S) (read_text S) (same_id S) (from_text S) (to_text S) a w0 -> user (w_cl w0) = true ->
  let w2 := wnext (call_text S) (read_text S) (same_id S) (from_text S) (to_text S)
              (wnext (call_text S) (read_text S) (same_id S) (from_text S) (to_text S) w0 (WClient (UStream r)))
              (WClient (UListen (List.length (cl_stores (w_cl w0))))) in
  let w := wrun (call_text S) (read_text S) (same_id S) (from_text S) (to_text S) w2 es in
  countable (w_cl w) ->
  exists s, nth_error (cl_subs (w_cl w)) (List.length (cl_subs (w_cl w0))) = Some s /\
    (su_seen s = [] \/
     exists vs tk heard after,
       decoded (s_dec S) (map snd (it_args i)) (map (fun a => to_value (s_float S) (stringify_elem a)) args) vs /\
       stream_made S a w id n k vs tk /\
       values (A := rpc S) (received_as double) tk = heard ++ after /\ thinned heard (su_seen s) /\ (no_throws (w_cl w) -> heard = su_seen s)).
Proof.
  intros L L' id r H1 H2 H3 H4 H5 H6 H7 H8 H9.
  exact (wire_heard S L L' n k f i args a w0 H1 H2 H3 H4 H8 H9 H7 es H5 H6).
Qed.
Print Assumptions C50_heard_in_order.

(** C50. Under a fair schedule a stream whose arguments deserialize is made, and all it yields is heard, in
    its place, if the socket lives, no callback throws and the listener stays. *)
Theorem C50_everything_is_heard (T V F : Type) (S : setting T V F)
    n k f i args (a : list F) w0 m sigma vs :
  faithful (s_lit S) (s_num S) -> faithful (s_lit' S) (s_num S) ->
  let id := bump (cl_id (w_cl w0)) in
  let j := List.length (cl_subs (w_cl w0)) in
  let r : rcall := (bf_name f, it_ident i, args) in
  let w2 := wnext (call_text S) (read_text S) (same_id S) (from_text S) (to_text S)
              (wnext (call_text S) (read_text S) (same_id S) (from_text S) (to_text S) w0 (WClient (UStream r)))
              (WClient (UListen (List.length (cl_stores (w_cl w0))))) in
  let w := at_time (call_text S) (read_text S) (same_id S) (from_text S) (to_text S) w2 sigma in
  distinct (s_backend S) -> has_item (s_backend S) n k f i -> bf_name f = unraw (variant_ident f) -> it_ident i = unraw (it_ident i) ->
  it_args i <> [] -> it_kind i = Stream ->
  Forall js_value args ->
  wreachable (call_text S) (read_text S) (same_id S) (from_text S) (to_text S) a w0 -> user (w_cl w0) = true ->
  (forall doc, sent_doc id f i args doc -> fine doc) ->
  decoded (s_dec S) (map snd (it_args i)) (map (fun a => to_value (s_float S) (stringify_elem a)) args) vs ->
  fair (call_text S) (read_text S) (same_id S) (from_text S) (to_text S) w2 sigma m ->
  (forall x, lives (w x) m /\ countable (w_cl (w x)) /\ no_throws (w_cl (w x)) /\
    forall s, nth_error (cl_subs (w_cl (w x))) j = Some s -> su_live s = true) ->
  (exists x tk, stream_made S a (w x) id n k vs tk) /\
  forall x tk q d, stream_made S a (w x) id n k vs tk ->
    nth_error (values (A := rpc S) (received_as double) tk) q = Some d ->
    exists y s, x <= y /\ nth_error (cl_subs (w_cl (w y))) j = Some s /\ nth_error (su_seen s) q = Some d.
Proof.
  intros L L' id j r w2 w H1 H2 H3 H4 H5 H6 H7 H8 H9 H10 H11.
  exact (wire_flows S L L' n k f i args a w0 H1 H2 H3 H4 H8 H9 H7 m sigma vs H5 H6 H10 H11).
Qed.
Print Assumptions C50_everything_is_heard.

(** C50. Whatever the codecs: any listener of a call that reads as a stream, whenever it has come, hears a
    contiguous part of it, with values left out only if a callback has thrown. *)
Theorem C50_any_listener (R text K D : Type) enc read same (A : app) decode encode val data
    (a : St A) (w0 : world text K D A) (r : R) t es call j s :
  understand enc read same decode encode val data ->
  wreachable enc read same decode encode a w0 -> user (w_cl w0) = true -> enc (bump (cl_id (w_cl w0))) r = Some t ->
  from_value A (val r) = inl call -> is_stream A call = true ->
  let w := wrun enc read same decode encode (wnext enc read same decode encode w0 (WClient (UStream r))) es in
  countable (w_cl w) -> nth_error (cl_subs (w_cl w)) j = Some s -> su_id s = bump (cl_id (w_cl w0)) ->
  su_seen s = [] \/
  exists tk before heard after, streams a w (su_id s) (val r) call tk /\ values data tk = before ++ heard ++ after /\
    thinned heard (su_seen s) /\ (no_throws (w_cl w) -> heard = su_seen s).
Proof. exact (fun U => any_listener enc read same decode encode val data U a w0 r t es call j s). Qed.
Print Assumptions C50_any_listener.

(** C50. Nothing is heard of a stream function without arguments. *)
Theorem C50_without_arguments (T V F : Type) (S : setting T V F)
    n k f i args (a : list F) w0 es j s :
  faithful (s_lit S) (s_num S) -> faithful (s_lit' S) (s_num S) ->
  distinct (s_backend S) -> has_item (s_backend S) n k f i -> bf_name f = unraw (variant_ident f) -> it_ident i = unraw (it_ident i) -> it_args i = [] ->
  wreachable (call_text S) (read_text S) (same_id S) (from_text S) (to_text S) a w0 -> user (w_cl w0) = true ->
  let w := wrun (call_text S) (read_text S) (same_id S) (from_text S) (to_text S)
             (wnext (call_text S) (read_text S) (same_id S) (from_text S) (to_text S) w0 (WClient (UStream (bf_name f, it_ident i, args)))) es in
  countable (w_cl w) -> nth_error (cl_subs (w_cl w)) j = Some s -> su_id s = bump (cl_id (w_cl w0)) -> su_seen s = [].
Proof.
  intros L L' H1 H2 H3 H4 H5 H6 H7.
  exact (wire_unheard S L L' a w0 _ _ args es j s H6 H7
           (exec_no_arguments (s_dec S) (s_float S) (s_unit S) (s_backend S) n k f i (map real args) H1 H2 H3 H4 H5)).
Qed.
Print Assumptions C50_without_arguments.

(** C50. Nor of a stream of a namespace that is renamed to a name no variant has. *)
Theorem C50_renamed_namespace (T V F : Type) (S : setting T V F)
    ns method args (a : list F) w0 es j s :
  faithful (s_lit S) (s_num S) -> faithful (s_lit' S) (s_num S) ->
  ~ In ns (field_tags (s_backend S)) ->
  wreachable (call_text S) (read_text S) (same_id S) (from_text S) (to_text S) a w0 -> user (w_cl w0) = true ->
  let w := wrun (call_text S) (read_text S) (same_id S) (from_text S) (to_text S)
             (wnext (call_text S) (read_text S) (same_id S) (from_text S) (to_text S) w0 (WClient (UStream (ns, method, args)))) es in
  countable (w_cl w) -> nth_error (cl_subs (w_cl w)) j = Some s -> su_id s = bump (cl_id (w_cl w0)) -> su_seen s = [].
Proof.
  intros L L' H1 H2 H3.
  exact (wire_unheard S L L' a w0 ns method args es j s H2 H3
           (exec_unknown_name (s_dec S) (s_float S) (s_unit S) (s_backend S) ns method (map real args) H1)).
Qed.
Print Assumptions C50_renamed_namespace.

(** C50. The client never asks the server to cancel a stream, whether anybody listens or not. *)
Theorem C50_never_cancelled (T V F : Type) (S : setting T V F)
    (a : list F) w c id :
  faithful (s_lit S) (s_num S) -> faithful (s_lit' S) (s_num S) ->
  wreachable (call_text S) (read_text S) (same_id S) (from_text S) (to_text S) a w -> is_ours w c ->
  ~ In (c, inl (CancelStream (A := rpc S) id)) (st_sent (p_srv (w_sv w))).
Proof. intros L L'. exact (wire_no_cancel S L L' a w c id). Qed.
Print Assumptions C50_never_cancelled.

(** C50. The server does know cancels: this is how one is written. *)
Theorem C50_cancel_texts (T V F : Type) (S : setting T V F) (t : jstr) (id : N) :
  (id < 2 ^ 64)%N -> json_text (s_num S) t (JObj [(js "cancelStream", JObj [(js "id", JInt (Z.of_N id))])]) ->
  from_text S t = inl (CancelStream (A := rpc S) id).
Proof. exact (cancel_text S t id). Qed.
Print Assumptions C50_cancel_texts.
