(** Properties C40 - C44 of the websocket client.  Specification vocabulary: ClientSpec.v.

    [enc] stands for [execute] with [JSON.stringify], [read] for what [onmessage] makes of a text,
    [same] for the comparison of ids. *)
From Coq Require Import List Arith NArith Bool Sorted.
From Verif Require Import Util Js Wire Client ClientSpec ClientProofs ClientSockProofs ClientExamples.
Import ListNotations.

(** C40. The n-th call has the id n. *)
Theorem C40_ids_count (R text K D : Type) (enc : N -> R -> option text) (read : text -> option (K * D)) (same : K -> N -> bool)
    (c : client text K D) i x : creachable enc read same c -> countable c ->
  nth_error (cl_calls c) i = Some x -> x = N.of_nat (S i).
Proof. exact (ids_count enc read same c i x). Qed.
Print Assumptions C40_ids_count.

(** C40. Nothing else listens for the id of a request; two stores have different ids. *)
Theorem C40_request_id_own (R text K D : Type) (enc : N -> R -> option text) (read : text -> option (K * D)) (same : K -> N -> bool)
    (c : client text K D) i j s s' : creachable enc read same c -> countable c ->
  nth_error (cl_subs c) i = Some s -> nth_error (cl_subs c) j = Some s' -> su_req s = true -> su_id s = su_id s' -> i = j.
Proof. exact (request_id_own enc read same c i j s s'). Qed.
Print Assumptions C40_request_id_own.

Theorem C40_store_id_own (R text K D : Type) (enc : N -> R -> option text) (read : text -> option (K * D)) (same : K -> N -> bool)
    (c : client text K D) i j x : creachable enc read same c -> countable c ->
  nth_error (cl_stores c) i = Some x -> nth_error (cl_stores c) j = Some x -> i = j.
Proof. exact (stores_own enc read same c i j x). Qed.
Print Assumptions C40_store_id_own.

(** C40. Beyond 2^53 calls ids repeat. *)
Theorem C40_for_ever_refuted (R text K D : Type) (enc : N -> R -> option text) (read : text -> option (K * D)) (same : K -> N -> bool) (r : R) :
  exists (c : client text K D) i j x, creachable enc read same c /\ i <> j /\ nth_error (cl_calls c) i = Some x /\ nth_error (cl_calls c) j = Some x.
Proof. exact (ids_repeat enc read same r). Qed.
Print Assumptions C40_for_ever_refuted.

(** C41. A request starts to listen when it is made. *)
Theorem C41_request_adds (R text K D : Type) (enc : N -> R -> option text) (read : text -> option (K * D)) (same : K -> N -> bool)
    (c : client text K D) r : user c = true ->
  cl_calls (cnext enc read same c (URequest r)) = cl_calls c ++ [bump (cl_id c)] /\
  exists bad, cl_subs (cnext enc read same c (URequest r)) = cl_subs c ++ [mkSub (bump (cl_id c)) true bad true [] (done c) 0] /\
    (bad = true <-> enc (bump (cl_id c)) r = None).
Proof. exact (request_adds enc read same c r). Qed.
Print Assumptions C41_request_adds.

(** C41. It is resolved at most once, by the first message with its id since then (first: but for
    messages in whose course a callback threw); it stops listening only when it is settled. *)
Theorem C41_request_settles (R text K D : Type) (enc : N -> R -> option text) (read : text -> option (K * D)) (same : K -> N -> bool)
    (c : client text K D) j s : creachable enc read same c -> nth_error (cl_subs c) j = Some s -> su_req s = true ->
  (su_seen s = [] \/ exists d, su_seen s = [d] /\ exists i k ok, su_from s <= i /\ nth_error (cl_msgs c) i = Some (k, d, ok) /\
      same k (su_id s) = true /\
      forall i' k' d' ok', su_from s <= i' < i -> nth_error (cl_msgs c) i' = Some (k', d', ok') -> same k' (su_id s) = true -> ok' = false) /\
  (su_live s = false -> su_bad s = true \/ su_seen s <> []).
Proof. exact (request_settles enc read same c j s). Qed.
Print Assumptions C41_request_settles.

(** C41. As long as it is not resolved no such message has come. *)
Theorem C41_request_waits (R text K D : Type) (enc : N -> R -> option text) (read : text -> option (K * D)) (same : K -> N -> bool)
    (c : client text K D) j s : creachable enc read same c -> cl_disp c = None -> nth_error (cl_subs c) j = Some s ->
  su_live s = true -> su_seen s = [] ->
  forall i k d ok, su_from s <= i -> nth_error (cl_msgs c) i = Some (k, d, ok) -> same k (su_id s) = true -> ok = false.
Proof. exact (request_waits enc read same c j s). Qed.
Print Assumptions C41_request_waits.

(** C41. A listener hears the data of the messages with its id since it was added, in order and
    without gaps (but for such messages): until now, or until it left. *)
Theorem C41_listener_hears (R text K D : Type) (enc : N -> R -> option text) (read : text -> option (K * D)) (same : K -> N -> bool)
    (c : client text K D) j s : creachable enc read same c -> nth_error (cl_subs c) j = Some s ->
  exists upto, su_from s <= upto <= length (cl_msgs c) /\
    hears same (su_id s) (between (su_from s) upto (cl_msgs c)) (su_seen s) /\
    (su_live s = true -> cl_disp c = None -> upto = length (cl_msgs c)) /\
    (su_live s = false -> su_to s <= upto <= S (su_to s)).
Proof. exact (listener_hears enc read same c j s). Qed.
Print Assumptions C41_listener_hears.

(** C41. Without the exception: a listener misses a message because another one threw. *)
Theorem C41_all_messages_refuted : exists s, nth_error (cl_subs (run1 thrown)) 1 = Some s /\ su_live s = true /\ su_id s = 1%N /\
  su_from s = 0 /\ su_seen s = [] /\ cl_disp (run1 thrown) = None /\ map fst (cl_msgs (run1 thrown)) = [(1, 80)]%N.
Proof. exact a_listener_misses. Qed.
Print Assumptions C41_all_messages_refuted.

(** C42. The delays since a socket has opened are 100, 200, 1000, 3000, 3000, .. *)
Theorem C42_delays (R text K D : Type) (enc : N -> R -> option text) (read : text -> option (K * D)) (same : K -> N -> bool)
    (c : client text K D) i : creachable enc read same c -> i < length (cl_delays c) -> nth_error (cl_delays c) i = Some (backoff i).
Proof. exact (delays_grow enc read same c i). Qed.
Print Assumptions C42_delays.

(** C42. When a socket closes a timer with the next of them is set if there is a listener. *)
Theorem C42_timer (R text K D : Type) (enc : N -> R -> option text) (read : text -> option (K * D)) (same : K -> N -> bool)
    (c : client text K D) e : creachable enc read same c -> closes c e ->
  cl_timer (cnext enc read same c e) = if subscribed c then Some (backoff (length (cl_delays c))) else None.
Proof. exact (reopen_timer enc read same c e). Qed.
Print Assumptions C42_timer.

(** C42. The table is never read out of range. *)
Theorem C42_in_range n : reopen_timeout n = Some (backoff n).
Proof. exact (reopen_timeout_backoff n). Qed.
Print Assumptions C42_in_range.

(** C43. A request that gets no answer stays pending, whatever else happens. *)
Theorem C43_stays_pending (R text K D : Type) (enc : N -> R -> option text) (read : text -> option (K * D)) (same : K -> N -> bool)
    (c : client text K D) j id es : creachable enc read same c -> pending c j id -> not_now same id c -> no_answer read same id es ->
  pending (crun enc read same c es) j id /\ not_now same id (crun enc read same c es).
Proof. exact (stays_pending enc read same c j id es). Qed.
Print Assumptions C43_stays_pending.

(** C43. An error response is no answer. *)
Theorem C43_error_is_no_answer (same : jsval -> N -> bool) id id' m :
  foreign_text (fun t => on_message (jsparse t)) same id (write_response (WError id' m)).
Proof. exact (error_foreign same id id' m). Qed.
Print Assumptions C43_error_is_no_answer.

(** C43. Each call is sent at most once. *)
Theorem C43_sent_once (R text K D : Type) (enc : N -> R -> option text) (read : text -> option (K * D)) (same : K -> N -> bool)
    (c : client text K D) id : creachable enc read same c -> countable c -> times id (sent_ids c) <= 1.
Proof. exact (sent_once enc read same c id). Qed.
Print Assumptions C43_sent_once.

(** C43. When a socket closes - whichever - every call made so far that is not sent is lost for ever,
    and none is sent again. *)
Theorem C43_closed_lost (R text K D : Type) (enc : N -> R -> option text) (read : text -> option (K * D)) (same : K -> N -> bool)
    (c : client text K D) e id es : creachable enc read same c -> closes c e -> (id <= cl_id c)%N ->
  countable (crun enc read same (cnext enc read same c e) es) ->
  times id (sent_ids (crun enc read same (cnext enc read same c e) es)) = times id (sent_ids c).
Proof. exact (closed_lost enc read same c e id es). Qed.
Print Assumptions C43_closed_lost.

(** C43. Two requests one after the other: the second is never sent, though there is an open
    socket. *)
Theorem C43_requests_get_through_refuted : pending (run1 sequel) 1 2 /\ state_of (run1 sequel) 2 = Open /\
  forall es, countable (crun enc1 read1 N.eqb (run1 sequel) es) ->
    times 2 (sent_ids (crun enc1 read1 N.eqb (run1 sequel) es)) = 0.
Proof. exact sequel_lost. Qed.
Print Assumptions C43_requests_get_through_refuted.

(** C44. Texts are given to open sockets only. *)
Theorem C44_sends_on_open (R text K D : Type) (enc : N -> R -> option text) (read : text -> option (K * D)) (same : K -> N -> bool)
    (c : client text K D) e m : creachable enc read same c ->
  exists new, sent_on (cnext enc read same c e) m = sent_on c m ++ new /\
    (new <> [] -> state_of (cnext enc read same c e) m = Open).
Proof. exact (sends_on_open enc read same c e m). Qed.
Print Assumptions C44_sends_on_open.

(** C44. When a socket opens all that waits for it is sent, in order. *)
Theorem C44_opened_sends (R text K D : Type) (enc : N -> R -> option text) (read : text -> option (K * D)) (same : K -> N -> bool)
    (c : client text K D) n : creachable enc read same c -> idle c = true -> state_of c n = Connecting ->
  let c' := cnext enc read same c (NOpen n) in
  state_of c' n = Open /\ sent_on c' n = waiting_on c n /\ waiting_on c' n = [] /\ cl_delays c' = [] /\
  forall m, m <> n -> sent_on c' m = sent_on c m.
Proof. exact (opened_sends enc read same c n). Qed.
Print Assumptions C44_opened_sends.

(** C44. Calls are sent in the order they are made. *)
Theorem C44_in_call_order (R text K D : Type) (enc : N -> R -> option text) (read : text -> option (K * D)) (same : K -> N -> bool)
    (c : client text K D) : creachable enc read same c -> countable c -> StronglySorted N.lt (sent_ids c).
Proof. exact (sent_sorted enc read same c). Qed.
Print Assumptions C44_in_call_order.

(** C44. There is at most one socket that connects or is connected. *)
Theorem C44_one_socket (R text K D : Type) (enc : N -> R -> option text) (read : text -> option (K * D)) (same : K -> N -> bool)
    (c : client text K D) n m : creachable enc read same c -> held c n -> held c m -> n = m.
Proof. exact (one_held enc read same c n m). Qed.
Print Assumptions C44_one_socket.

(** C44. When the last listener leaves there is none, and no timer. *)
Theorem C44_last_leaves (R text K D : Type) (enc : N -> R -> option text) (read : text -> option (K * D)) (same : K -> N -> bool)
    (c : client text K D) e : creachable enc read same c -> subscribed c = true -> subscribed (cnext enc read same c e) = false ->
  cl_timer (cnext enc read same c e) = None /\ forall n, ~ held (cnext enc read same c e) n.
Proof. exact (last_gone enc read same c e). Qed.
Print Assumptions C44_last_leaves.

(** C44. But without listeners there may be one: a stream nobody has subscribed to. *)
Theorem C44_no_listener_no_socket_refuted : let c := run1 [UStream 8%N; NOpen 0] in subscribed c = false /\ held c 0.
Proof. exact unheard_stream. Qed.
Print Assumptions C44_no_listener_no_socket_refuted.
