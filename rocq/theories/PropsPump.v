(** Property C39 of the websocket handler.  Specification vocabulary: PumpSpec.v.

    [decode] reads a text frame, [encode] writes a response. *)
From Coq Require Import List Arith NArith Bool.
From Verif Require Import Util Server ServerSpec Pump PumpSpec PumpProofs PumpExamples ServerExamples.
Import ListNotations.

(** C39. The text frames are what the proxy got of this connection, one message each, in order.  Only a
    last one can be missing: it came after the request loop was gone and closed the socket. *)
Theorem C39_frames_in (A : app) (text : Type) (decode : text -> msg A) (encode : response A -> text)
    (a : St A) (p : pstate A text) k s : preachable decode encode a p -> nth_error (p_socks p) k = Some s ->
  exists acc ref, texts (sk_in s) = acc ++ ref /\
    sent_by (sk_conn s) (st_sent (p_srv p)) = map decode acc /\ length ref <= 1 /\
    (ref <> [] -> sk_live s = false /\ alive (st_loop (p_srv p)) = false).
Proof. exact (frames_in decode encode a p k s). Qed.
Print Assumptions C39_frames_in.

(** C39. An error or the end is the last frame looked at, and closes the socket. *)
Theorem C39_stops (A : app) (text : Type) (decode : text -> msg A) (encode : response A -> text)
    (a : St A) (p : pstate A text) k s l f r : preachable decode encode a p -> nth_error (p_socks p) k = Some s ->
  sk_in s = l ++ f :: r -> final f -> r = [] /\ sk_live s = false.
Proof. exact (ends decode encode a p k s l f r). Qed.
Print Assumptions C39_stops.

(** C39. The texts written are the first responses of the connection, one each, in order; a response being
    written is the next one. *)
Theorem C39_frames_out (A : app) (text : Type) (decode : text -> msg A) (encode : response A -> text)
    (a : St A) (p : pstate A text) k s : preachable decode encode a p -> nth_error (p_socks p) k = Some s ->
  exists n, sk_out s = map encode (firstn n (responses (p_srv p) (sk_conn s))) /\
    n <= length (responses (p_srv p) (sk_conn s)) /\
    (forall r, sk_hold s = Some r -> nth_error (responses (p_srv p) (sk_conn s)) n = Some r).
Proof. exact (frames_out decode encode a p k s). Qed.
Print Assumptions C39_frames_out.

(** C39. On an open socket the next response can be written. *)
Theorem C39_progress (A : app) (text : Type) (decode : text -> msg A) (encode : response A -> text)
    (a : St A) (p : pstate A text) k s r : preachable decode encode a p -> nth_error (p_socks p) k = Some s ->
  sk_live s = true -> sk_hold s = None ->
  nth_error (responses (p_srv p) (sk_conn s)) (length (sk_out s)) = Some r ->
  exists s', nth_error (p_socks (prun decode encode p [PTake k; PWrote k true])) k = Some s' /\
    sk_live s' = true /\ sk_hold s' = None /\ sk_out s' = sk_out s ++ [encode r] /\ sk_in s' = sk_in s /\ sk_conn s' = sk_conn s /\
    received (p_srv (prun decode encode p [PTake k; PWrote k true])) (sk_conn s) = received (p_srv p) (sk_conn s).
Proof. exact (progress decode encode a p k s r). Qed.
Print Assumptions C39_progress.

(** C39. A closed socket stays as it is: nothing is read, written, sent or received any more. *)
Theorem C39_closed (A : app) (text : Type) (decode : text -> msg A) (encode : response A -> text)
    (a : St A) (p : pstate A text) k s es : preachable decode encode a p -> nth_error (p_socks p) k = Some s -> sk_live s = false ->
  nth_error (p_socks (prun decode encode p es)) k = Some s /\
  received (p_srv (prun decode encode p es)) (sk_conn s) = received (p_srv p) (sk_conn s) /\
  sent_by (sk_conn s) (st_sent (p_srv (prun decode encode p es))) = sent_by (sk_conn s) (st_sent (p_srv p)) /\
  rx_alive (p_srv (prun decode encode p es)) (sk_conn s) = false.
Proof. exact (closed decode encode a p k s es). Qed.
Print Assumptions C39_closed.

(** C39. Every socket has a connection of its own, and the proxy behind them runs as in Server.v, so that
    C27 - C38 hold of it. *)
Theorem C39_own_connection (A : app) (text : Type) (decode : text -> msg A) (encode : response A -> text)
    (a : St A) (p : pstate A text) k k' s s' : preachable decode encode a p ->
  nth_error (p_socks p) k = Some s -> nth_error (p_socks p) k' = Some s' -> sk_conn s = sk_conn s' -> k = k'.
Proof. exact (own_conn decode encode a p k k' s s'). Qed.
Print Assumptions C39_own_connection.

Theorem C39_refines_proxy (A : app) (text : Type) (decode : text -> msg A) (encode : response A -> text)
    (a : St A) (p : pstate A text) : preachable decode encode a p -> exists es, p_srv p = run (init a) es.
Proof. exact (refines decode encode a p). Qed.
Print Assumptions C39_refines_proxy.

(** C39. Closing can lose a response that was already taken. *)
Theorem C39_every_taken_response_written_refuted :
  exists (p : pstate demo (list N)) s cn, preachable dec enc ([] : list N) p /\
  nth_error (p_socks p) 0 = Some s /\ nth_error (st_conns (p_srv p)) (sk_conn s) = Some cn /\
  length (sk_out s) < cn_read cn.
Proof. exact taken_is_written_refuted. Qed.
Print Assumptions C39_every_taken_response_written_refuted.
