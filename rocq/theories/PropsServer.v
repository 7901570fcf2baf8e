(** Properties C27 - C38 of the rpc server.  Specification vocabulary: ServerSpec.v. *)
From Coq Require Import List Arith NArith Bool.
From Verif Require Import Util Server ServerSpec ServerProofs ServerLemmas ServerExamples.
Import ListNotations.

(** C27. At any point of any schedule the accepted messages split into a processed prefix and a
    rest (the call in execution, then the queue); the backend value is that of the sequential
    execution of the prefix, and the streams started are the sequential ones. *)
Theorem C27_serial_execution (A : app) (a : St A) (es : list (event A)) :
  let s := run (init a) es in
  exists processed rest q,
    st_sent s = processed ++ rest /\ pending_of s rest /\
    seq_run (seq_init a) processed = Some q /\
    st_app s = q_app q /\
    map (fun t => (tk_conn t, tk_id t)) (st_tasks s) = q_starts q.
Proof. exact (serial_execution a es). Qed.
Print Assumptions C27_serial_execution.

(** C28. A connection whose receiver is alive got exactly the direct responses of the sequential
    execution of the processed prefix; their ids are those of its answerable requests, in order. *)
Theorem C28_one_response_in_order (A : app) (a : St A) (es : list (event A)) (c : nat) :
  let s := run (init a) es in
  rx_alive s c = true ->
  exists processed rest q,
    st_sent s = processed ++ rest /\ pending_of s rest /\
    seq_run (seq_init a) processed = Some q /\
    from_loop (received s c) = outs_to c (q_outs q) /\
    map response_id (from_loop (received s c)) = answer_ids_to c processed.
Proof. exact (one_response_in_order a es c). Qed.
Print Assumptions C28_one_response_in_order.

(** C28, receiver already dropped: what arrived before is a prefix of the sequential responses. *)
Theorem C28_dropped_receiver_prefix (A : app) (a : St A) (es : list (event A)) (c : nat) :
  let s := run (init a) es in
  exists processed rest q,
    st_sent s = processed ++ rest /\ pending_of s rest /\
    seq_run (seq_init a) processed = Some q /\
    prefix (from_loop (received s c)) (outs_to c (q_outs q)).
Proof. exact (dropped_receiver_prefix a es c). Qed.
Print Assumptions C28_dropped_receiver_prefix.

(** C29. *)
Theorem C29_no_cross_talk (A : app) (a : St A) (es : list (event A)) (c : nat) (o : src) (r : response A) :
  let s := run (init a) es in
  In (o, r) (received s c) -> exists m, In (c, m) (st_sent s) /\ answers m r.
Proof. exact (no_cross_talk a es c o r). Qed.
Print Assumptions C29_no_cross_talk.

(** C30. *)
Theorem C30_stream_items_in_order (A : app) (a : St A) (es : list (event A)) (t : nat) (tk : task A) :
  let s := run (init a) es in
  nth_error (st_tasks s) t = Some tk ->
  prefix (from_task t (received s (tk_conn tk))) (map (item_response (tk_id tk)) (tk_items tk)) /\
  (rx_alive s (tk_conn tk) = true ->
     from_task t (received s (tk_conn tk)) = map (item_response (tk_id tk)) (tk_items tk)) /\
  (forall c, c <> tk_conn tk -> from_task t (received s c) = []).
Proof. exact (stream_items a es t tk). Qed.
Print Assumptions C30_stream_items_in_order.

(** C30. What a stream has produced never changes afterwards, nor does its address. *)
Theorem C30_items_only_grow (A : app) (s : state A) (e : event A) (t : nat) (tk : task A) :
  nth_error (st_tasks s) t = Some tk ->
  exists tk', nth_error (st_tasks (next s e)) t = Some tk' /\
    tk_conn tk' = tk_conn tk /\ tk_id tk' = tk_id tk /\ prefix (tk_items tk) (tk_items tk').
Proof. exact (task_mono_step s e t tk). Qed.
Print Assumptions C30_items_only_grow.

(** C31. Processing a cancel of [id] stops the stream last started under [id]: whatever happens
    afterwards it is never idle or being polled (except for a poll in flight), and once that
    poll has suspended, or when none was in flight, it produces nothing more, on no connection. *)
Theorem C31_cancel_stops (A : app) (a : St A) (s : state A) (c : nat) (id : N) (t : nat) (tk : task A) (es : list (event A)) :
  reachable a s -> at_cancel s c id ->
  nth_error (st_tasks s) t = Some tk -> tk_id tk = id ->
  (forall t' tk', t < t' -> nth_error (st_tasks s) t' = Some tk' -> tk_id tk' <> id) ->
  (exists x, stat_of (run (next s EvRecv) es) t = Some x /\ stopped x = true) /\
  (polling (tk_stat tk) = false \/ In (EvYield t) es ->
     (exists x, stat_of (run (next s EvRecv) es) t = Some x /\ frozen x = true) /\
     forall es' c', from_task t (received (run (run (next s EvRecv) es) es') c') =
                    from_task t (received (run (next s EvRecv) es) c')).
Proof. exact (cancel_never_polled a s c id t tk es). Qed.
Print Assumptions C31_cancel_stops.

(** C31. A cancel touches no connection, not the backend, and no stream that carries another id
    or is not the last one started under the id. *)
Theorem C31_cancel_frame (A : app) (a : St A) (s : state A) (c : nat) (id : N) :
  reachable a s -> at_cancel s c id ->
  st_conns (next s EvRecv) = st_conns s /\ st_app (next s EvRecv) = st_app s /\
  forall t tk, nth_error (st_tasks s) t = Some tk ->
    tk_id tk <> id \/ (exists t' tk', t < t' /\ nth_error (st_tasks s) t' = Some tk' /\ tk_id tk' = id) ->
    nth_error (st_tasks (next s EvRecv)) t = Some tk.
Proof. exact (cancel_frame a s c id). Qed.
Print Assumptions C31_cancel_frame.

(** C32. With globally unique stream ids a cancel stops the stream of that id and no other. *)
Theorem C32_unique_ids_exact (A : app) (a : St A) (s : state A) (c : nat) (id : N) (t : nat) (tk : task A) :
  reachable a s -> at_cancel s c id ->
  (forall t1 t2 tk1 tk2, nth_error (st_tasks s) t1 = Some tk1 -> nth_error (st_tasks s) t2 = Some tk2 ->
     tk_id tk1 = tk_id tk2 -> t1 = t2) ->
  nth_error (st_tasks s) t = Some tk ->
  (tk_id tk = id -> exists x, stat_of (next s EvRecv) t = Some x /\ stopped x = true) /\
  (tk_id tk <> id -> nth_error (st_tasks (next s EvRecv)) t = Some tk).
Proof. exact (cancel_unique a s c id t tk). Qed.
Print Assumptions C32_unique_ids_exact.

(** C32. A running stream under whose id a later stream (of any connection) was started can never
    be aborted by the server again: no cancel, no shutdown reaches it. *)
Theorem C32_orphan_unstoppable (A : app) (a : St A) (s : state A) (t : nat) (tk : task A) (es : list (event A)) :
  reachable a s -> nth_error (st_tasks s) t = Some tk ->
  (exists t' tk', t < t' /\ nth_error (st_tasks s) t' = Some tk' /\ tk_id tk' = tk_id tk) ->
  tk_stat tk = TIdle \/ tk_stat tk = TPolling ->
  exists tk', nth_error (st_tasks (run s es)) t = Some tk' /\ unaborted (tk_stat tk') = true.
Proof. exact (orphan_reachable a s t tk es). Qed.
Print Assumptions C32_orphan_unstoppable.

(** C32. Connection-exact cancelling is false without unique ids: client 0 cancels its stream,
    the stream of client 1 is aborted and its own can never be. *)
Theorem C32_shared_ids_refuted :
  exists (s : state demo) (t0 t1 : task demo),
    reachable (A := demo) ([] : list N) s /\ at_cancel s 0 0%N /\
    nth_error (st_tasks s) 0 = Some t0 /\ tk_conn t0 = 0 /\ tk_id t0 = 0%N /\
    nth_error (st_tasks s) 1 = Some t1 /\ tk_conn t1 = 1 /\ tk_id t1 = 0%N /\
    stat_of s 0 = Some TIdle /\ stat_of s 1 = Some TIdle /\
    stat_of (next s EvRecv) 1 = Some TAborted /\
    forall es, exists tk, nth_error (st_tasks (run (next s EvRecv) es)) 0 = Some tk /\ unaborted (tk_stat tk) = true.
Proof. exact shared_ids_refuted. Qed.
Print Assumptions C32_shared_ids_refuted.

(** C33. The only events that kill the loop. *)
Theorem C33_panic_causes (A : app) (s : state A) (e : event A) :
  st_loop s <> LPanicked -> st_loop (next s e) = LPanicked ->
  (e = EvMethodDone /\ exists c id call, st_loop s = LBusy c id call /\
      (rx_alive s c = false \/ run_method A (st_app s) call = None)) \/
  (e = EvRecv /\ exists cm q, st_queue s = cm :: q /\ handler_panics s cm).
Proof. exact (panic_cause s e). Qed.
Print Assumptions C33_panic_causes.

(** C33. If no handler panics and receivers are only dropped by connections that have dropped
    their sender and have nothing pending, the loop never dies. *)
Theorem C33_orderly_never_dies (A : app) (a : St A) (es : list (event A)) :
  no_panics A -> orderly (init a) es -> st_loop (run (init a) es) <> LPanicked.
Proof. exact (orderly_alive a es). Qed.
Print Assumptions C33_orderly_never_dies.

(** C33. "A client cannot take the server down" is false, for every backend with a callable
    method: a client that goes away during its call ends the loop, and every later send of any
    other client is refused. *)
Theorem C33_disconnect_refuted (A : app) (a : St A) (v : Json A) (call : Call A) :
  from_value A v = inl call -> is_stream A call = false ->
  let es := [EvConnect; EvConnect; EvSend 0 (inl (Exec 0%N v)); EvRecv; EvDropRx 0; EvMethodDone] in
  st_loop (run (init a) es) = LPanicked /\
  forall es' m cn, nth_error (st_conns (run (run (init a) es) es')) 1 = Some cn -> cn_tx cn = true ->
    snd (step (run (run (init a) es) es') (EvSend 1 m)) = OSent false.
Proof. exact (disconnect_refuted A a v call). Qed.
Print Assumptions C33_disconnect_refuted.

(** C34. *)
Theorem C34_bad_input_isolated (A : app) (s : state A) (c : nat) (m : msg A) (q : list (nat * msg A)) (r : response A) :
  st_loop s = LIdle -> st_queue s = (c, m) :: q -> bad_input m r ->
  let s' := next s EvRecv in
  st_app s' = st_app s /\ st_subs s' = st_subs s /\ st_tasks s' = st_tasks s /\ st_loop s' = LIdle /\
  st_queue s' = q /\
  (forall c', received s' c' = received s c' ++ (if Nat.eqb c c' && rx_alive s c' then [(SrcLoop, r)] else [])) /\
  (forall c', rx_alive s' c' = rx_alive s c').
Proof. exact (bad_input_isolated s c m q r). Qed.
Print Assumptions C34_bad_input_isolated.

(** C35. *)
Theorem C35_shutdown_aborts (A : app) (a : St A) (s : state A) (e : event A) (id : N) (t : nat) (es : list (event A)) :
  reachable a s -> alive (st_loop s) = true -> alive (st_loop (next s e)) = false ->
  m_get id (st_subs s) = Some t ->
  exists x, stat_of (run (next s e) es) t = Some x /\ stopped x = true.
Proof. exact (shutdown_aborts_reachable a s e id t es). Qed.
Print Assumptions C35_shutdown_aborts.

Theorem C35_sends_fail (A : app) (s : state A) (es : list (event A)) (c : nat) (m : msg A) (cn : conn A) :
  alive (st_loop s) = false -> nth_error (st_conns (run s es)) c = Some cn -> cn_tx cn = true ->
  step (run s es) (EvSend c m) = (run s es, OSent false).
Proof. exact (send_after_death es s c m cn). Qed.
Print Assumptions C35_sends_fail.

(** C36. While the loop is alive, the map holds for each id exactly the stream the sequential
    specification says a cancel of the id would stop, with no duplicate keys. *)
Theorem C36_bookkeeping (A : app) (a : St A) (es : list (event A)) :
  let s := run (init a) es in
  alive (st_loop s) = true ->
  NoDup (map fst (st_subs s)) /\
  exists processed rest q,
    st_sent s = processed ++ rest /\ pending_of s rest /\
    seq_run (seq_init a) processed = Some q /\
    forall id, m_get id (st_subs s) = q_cancel q id.
Proof. exact (bookkeeping a es). Qed.
Print Assumptions C36_bookkeeping.

(** C36. Without cancels every stream ever started keeps an entry, finished or not. *)
Theorem C36_map_never_shrinks (A : app) (a : St A) (es : list (event A)) (t : nat) (tk : task A) :
  let s := run (init a) es in
  alive (st_loop s) = true -> no_cancels (st_sent s) ->
  nth_error (st_tasks s) t = Some tk -> In (tk_id tk) (map fst (st_subs s)).
Proof. exact (map_never_shrinks a es t tk). Qed.
Print Assumptions C36_map_never_shrinks.

(** C37. *)
Theorem C37_progress (A : app) (a : St A) (es : list (event A)) :
  let s := run (init a) es in
  no_panics A -> st_loop s = LIdle ->
  (forall c m, In (c, m) (st_queue s) -> rx_alive s c = true) ->
  let s' := run s (drain (length (st_queue s))) in
  st_queue s' = [] /\ st_loop s' = LIdle /\ st_sent s' = st_sent s /\
  exists q, seq_run (seq_init a) (st_sent s) = Some q /\
    forall c, rx_alive s c = true -> from_loop (received s' c) = outs_to c (q_outs q).
Proof. exact (progress_answers a es). Qed.
Print Assumptions C37_progress.

(** C37, loop busy: finishing the pending call leads to the idle case. *)
Theorem C37_progress_busy (A : app) (s : state A) (c : nat) (id : N) (call : Call A) :
  no_panics A -> st_loop s = LBusy c id call -> rx_alive s c = true ->
  let s' := next s EvMethodDone in
  st_loop s' = LIdle /\ st_queue s' = st_queue s /\ st_sent s' = st_sent s /\
  (forall c', rx_alive s' c' = rx_alive s c').
Proof. exact (progress_busy s c id call). Qed.
Print Assumptions C37_progress_busy.

(** C38. *)
Theorem C38_gone_client_silent (A : app) (s : state A) (es : list (event A)) (c : nat) :
  c < length (st_conns s) -> rx_alive s c = false ->
  received (run s es) c = received s c /\ rx_alive (run s es) c = false.
Proof. exact (gone_silent es s c). Qed.
Print Assumptions C38_gone_client_silent.

Theorem C38_gone_stream_ends (A : app) (s : state A) (es : list (event A)) (c t : nat) (tk : task A) (v : Json A + Err A) :
  c < length (st_conns s) -> rx_alive s c = false ->
  nth_error (st_tasks (run s es)) t = Some tk -> tk_conn tk = c -> polling (tk_stat tk) = true ->
  forall es', stat_of (run (next (run s es) (EvItem t v)) es') t = Some TBroken.
Proof. exact (gone_stream_ends es s c t tk v). Qed.
Print Assumptions C38_gone_stream_ends.
