(** Properties C24 - C26 of the wire format.  Specification vocabulary: WireSpec.v.

    [dec] stands for the [Deserialize] impls of the argument types. *)
From Coq Require Import List String Bool NArith ZArith.
From Verif Require Import Util Js RustTy Serde Registry Macro Server ServerSpec Wire WireSpec WireProofs WireExamples.
Import ListNotations.
Local Open Scope string_scope.
Local Open Scope list_scope.

(** C24. What the generated function of a method sends decodes to a call of this method exactly when
    the arguments deserialize, and then with exactly these arguments and this id. *)
Theorem C24_round_trip (T V : Type) (dec : T -> json -> option V) (float : num -> num) (seq_cancel unit_map : bool)
    (B : backend T) n k f i id args doc : distinct B -> has_item B n k f i ->
  bf_name f = unraw (variant_ident f) -> it_ident i = unraw (it_ident i) -> it_args i <> [] ->
  client_id id -> sent_doc id f i args doc -> fine doc ->
  exists v, from_str float seq_cancel doc = Some (WExec id v) /\
    forall c, read_call dec unit_map B v = Some c <->
      c_field c = n /\ c_item c = k /\
      decoded dec (map snd (it_args i)) (map (fun a => to_value float (stringify_elem a)) args) (c_args c).
Proof. exact (round_trip dec float seq_cancel unit_map B n k f i id args doc). Qed.
Print Assumptions C24_round_trip.

(** C24. A method without arguments can not be called. *)
Theorem C24_without_arguments (T V : Type) (dec : T -> json -> option V) (float : num -> num) (seq_cancel unit_map : bool)
    (B : backend T) n k f i id args doc : distinct B -> has_item B n k f i ->
  bf_name f = unraw (variant_ident f) -> it_ident i = unraw (it_ident i) -> it_args i = [] ->
  client_id id -> sent_doc id f i args doc -> fine doc ->
  exists v, from_str float seq_cancel doc = Some (WExec id v) /\ read_call dec unit_map B v = None.
Proof. exact (no_arguments dec float seq_cancel unit_map B n k f i id args doc). Qed.
Print Assumptions C24_without_arguments.

(** C24. Nor can any method of a namespace whose name is not the name of a variant. *)
Theorem C24_renamed_namespace (T V : Type) (dec : T -> json -> option V) (float : num -> num) (seq_cancel unit_map : bool)
    (B : backend T) (f : bfield T) (i : item T) id args doc :
  ~ In (bf_name f) (field_tags B) ->
  client_id id -> sent_doc id f i args doc -> fine doc ->
  exists v, from_str float seq_cancel doc = Some (WExec id v) /\ read_call dec unit_map B v = None.
Proof. exact (unknown_name dec float seq_cancel unit_map B f i id args doc). Qed.
Print Assumptions C24_renamed_namespace.

(** C24. In terms of the declarations: a namespace without a given name, in the backend under the identifier it was declared with;
    and a namespace with a given name. *)
Theorem C24_own_name (T V : Type) (dec : T -> json -> option V) (float : num -> num) (seq_cancel unit_map : bool)
    (B : backend T) n k f i id args doc : distinct B -> has_item B n k f i ->
  bf_given f = None -> variant_ident f = bf_ident f -> (forall r, bf_ident f <> "r#" ++ r)%string -> (forall r, it_ident i <> "r#" ++ r)%string -> it_args i <> [] ->
  client_id id -> stringify (execute id (bf_ident f) (it_ident i) args) = Some doc -> fine doc ->
  sent_doc id f i args doc /\
  exists v, from_str float seq_cancel doc = Some (WExec id v) /\
    forall c, read_call dec unit_map B v = Some c <->
      c_field c = n /\ c_item c = k /\
      decoded dec (map snd (it_args i)) (map (fun a => to_value float (stringify_elem a)) args) (c_args c).
Proof. exact (own_name dec float seq_cancel unit_map B n k f i id args doc). Qed.
Print Assumptions C24_own_name.

Theorem C24_given_name (T V : Type) (dec : T -> json -> option V) (float : num -> num) (seq_cancel unit_map : bool)
    (B : backend T) (f : bfield T) (i : item T) name id args doc :
  bf_given f = Some name -> ~ In name (field_tags B) ->
  client_id id -> stringify (execute id name (it_ident i) args) = Some doc -> fine doc ->
  sent_doc id f i args doc /\ exists v, from_str float seq_cancel doc = Some (WExec id v) /\ read_call dec unit_map B v = None.
Proof. exact (given_name dec float seq_cancel unit_map B f i name id args doc). Qed.
Print Assumptions C24_given_name.

(** C24. Nor can a method whose identifier is raw. *)
Theorem C24_raw_method (T V : Type) (dec : T -> json -> option V) (float : num -> num) (seq_cancel unit_map : bool)
    (B : backend T) (f : bfield T) (i : item T) r id args doc :
  it_ident i = ("r#" ++ r)%string -> (forall f' i', In f' B -> In i' (bf_items f') -> forall r', it_ident i' <> ("r#r#" ++ r')%string) ->
  client_id id -> sent_doc id f i args doc -> fine doc ->
  exists v, from_str float seq_cancel doc = Some (WExec id v) /\ forall c, distinct B -> read_call dec unit_map B v <> Some c.
Proof. exact (raw_name dec float seq_cancel unit_map B f i r id args doc). Qed.
Print Assumptions C24_raw_method.

(** C24. Without the hypothesis on the names: a call of one namespace runs another. *)
Theorem C24_any_namespace_refuted : distinct crossed /\ exists i doc v,
  has_item crossed 0 0 left_ i /\ client_id 1 /\ sent_doc 1 left_ i [JsNum (NInt 5)] doc /\ fine doc /\
  from_str exact false doc = Some (WExec 1 v) /\
  read_call keep false crossed v = Some (mkCall 1 0 [JInt 5]).
Proof. exact crossed_calls. Qed.
Print Assumptions C24_any_namespace_refuted.

(** C25. Which documents are requests. *)
Theorem C25_requests (float : num -> num) (seq_cancel : bool) doc r :
  from_str float seq_cancel doc = Some r <-> fine doc /\ asks float seq_cancel doc r.
Proof. exact (requests_read float seq_cancel doc r). Qed.
Print Assumptions C25_requests.

(** C25. A value is decoded to the call it names, and to no other. *)
Theorem C25_decodes_what_is_named (T V : Type) (dec : T -> json -> option V) (unit_map : bool)
    (B : backend T) v c : distinct B ->
  read_call dec unit_map B v = Some c <-> addressed dec unit_map B v c.
Proof. exact (read_call_iff dec unit_map B v c). Qed.
Print Assumptions C25_decodes_what_is_named.

(** C25. A value that names no call: one error response with the id, nothing else. *)
Theorem C25_refused (T V F : Type) (dec : T -> json -> option V) (unit_map : bool) (B : backend T)
    (H : handlers V F) (complain : json -> jstr) (s : state (rpc_app dec unit_map B H complain)) c id v :
  distinct B -> at_exec s c id v ->
  (forall x, ~ addressed dec unit_map B v x) -> rx_alive s c = true ->
  no_other_change s (next s EvRecv) /\
  received (next s EvRecv) c =
    received s c ++ [(SrcLoop, RError (A := rpc_app dec unit_map B H complain) (Some id) (complain v))] /\
  forall c', c' <> c -> received (next s EvRecv) c' = received s c'.
Proof. exact (refused dec unit_map B H complain s c id v). Qed.
Print Assumptions C25_refused.

(** C25. A call of a method: the loop waits for it; when it returns only its own field has changed, by
    its handler, and one response with the id goes to the caller. *)
Theorem C25_method_called (T V F : Type) (dec : T -> json -> option V) (unit_map : bool) (B : backend T)
    (H : handlers V F) (complain : json -> jstr) (s : state (rpc_app dec unit_map B H complain)) c id v x f i :
  distinct B -> at_exec s c id v ->
  addressed dec unit_map B v x -> has_item B (c_field x) (c_item x) f i -> it_kind i = Method ->
  next s EvRecv = with_loop (LBusy (A := rpc_app dec unit_map B H complain) c id x) (with_queue (List.tl (st_queue s)) s).
Proof. exact (method_started dec unit_map B H complain s c id v x f i). Qed.
Print Assumptions C25_method_called.

Theorem C25_method_returned (T V F : Type) (dec : T -> json -> option V) (unit_map : bool) (B : backend T)
    (H : handlers V F) (complain : json -> jstr) (s : state (rpc_app dec unit_map B H complain)) c id (x : call V) a a' r :
  st_loop s = LBusy (A := rpc_app dec unit_map B H complain) c id x ->
  rx_alive s c = true -> nth_error (st_app s) (c_field x) = Some a ->
  h_method H (c_field x) (c_item x) a (c_args x) = Some (a', r) ->
  let s' := next s EvMethodDone in
  only_field (c_field x) a a' (st_app s) (st_app s') /\ st_loop s' = LIdle /\
  received s' c = received s c ++
    [(SrcLoop, match r with
               | inl d => RMethod (A := rpc_app dec unit_map B H complain) id d
               | inr e => RError (A := rpc_app dec unit_map B H complain) (Some id) e
               end)] /\
  (forall c', c' <> c -> received s' c' = received s c') /\
  st_tasks s' = st_tasks s /\ st_subs s' = st_subs s /\ st_queue s' = st_queue s.
Proof. exact (method_returned dec unit_map B H complain s c id x a a' r). Qed.
Print Assumptions C25_method_returned.

(** C25. A call of a stream: its handler runs on its own field, one task starts. *)
Theorem C25_stream_called (T V F : Type) (dec : T -> json -> option V) (unit_map : bool) (B : backend T)
    (H : handlers V F) (complain : json -> jstr) (s : state (rpc_app dec unit_map B H complain)) c id v x f i a a' :
  distinct B -> at_exec s c id v ->
  addressed dec unit_map B v x -> has_item B (c_field x) (c_item x) f i -> it_kind i = Stream ->
  nth_error (st_app s) (c_field x) = Some a ->
  h_stream H (c_field x) (c_item x) a (c_args x) = Some a' ->
  let s' := next s EvRecv in
  only_field (c_field x) a a' (st_app s) (st_app s') /\ st_loop s' = LIdle /\
  st_tasks s' = st_tasks s ++ [mkTask (A := rpc_app dec unit_map B H complain) c id TIdle []] /\
  forall c', received s' c' = received s c'.
Proof. exact (stream_started dec unit_map B H complain s c id v x f i a a'). Qed.
Print Assumptions C25_stream_called.

(** C26. The client reads a method or stream response as its id and data. *)
Theorem C26_method_understood id d : client_id id ->
  on_message (jsparse (write_response (WMethod id d))) = Some (js_id id, jsparse d).
Proof. exact (method_understood id d). Qed.
Print Assumptions C26_method_understood.

Theorem C26_stream_understood id d : client_id id ->
  on_message (jsparse (write_response (WStream id d))) = Some (js_id id, jsparse d).
Proof. exact (stream_understood id d). Qed.
Print Assumptions C26_stream_understood.

(** C26. Error responses reach no callback. *)
Theorem C26_errors_dropped id m : on_message (jsparse (write_response (WError id m))) = None.
Proof. exact (error_ignored id m). Qed.
Print Assumptions C26_errors_dropped.

(** C26. Different responses have different encodings. *)
Theorem C26_injective r r' : write_response r = write_response r' -> r = r'.
Proof. exact (write_response_inj r r'). Qed.
Print Assumptions C26_injective.

(** C26. Ids beyond 2^53 are rounded. *)
Theorem C26_all_ids_refuted : exists id, (id < 2 ^ 64)%N /\
  on_message (jsparse (write_response (WMethod id JNull))) = Some (js_id (id - 1), JsNull).
Proof. exact id_rounded. Qed.
Print Assumptions C26_all_ids_refuted.
