(** Property C55: the websocket client as a running program.
    Specification vocabulary: TsProgram.v ([program]: the program of a text), JsSem.v ([page]: what a browser makes of it: an
    interpreter with microtasks, sockets, timers, code of the user), JsSpec.v ([outcome], [path], [agree], [busy], [alive],
    [within]), Client.v and ClientSpec.v (the model of C40 - C44).

    [lit], [num] write and read numbers, [other] is [==] of a value that is no integer with a number: any. *)
From Coq Require Import List String Bool Arith NArith ZArith Sorted.
From Verif Require Import Util Js JsonText Wire Prelude TsProgram FileProofs ClientSpec JsSem JsSpec JsClaims JsExamples.
From Verif Require Client.
Import ListNotations.
Local Open Scope string_scope.
Local Open Scope list_scope.

(** C55. Whatever the user, the network and the clock do: the page never throws, never leaves the part of the language that
    is modelled, and never runs for ever; more fuel changes nothing. *)
Theorem C55_runs lit num other P : program websocket_client = Some P -> forall scripts ts,
  exists s N, forall n, page lit num other n P scripts ts = if Nat.ltb n N then Fuel else Ok tt s.
Proof. exact (read_runs lit num other P). Qed.
Print Assumptions C55_runs.

(** C55. It does what the model of C40 - C44 does, task by task, and what can be seen of it is what the model says. *)
Theorem C55_follows_model lit num other P : program websocket_client = Some P -> forall scripts ts s,
  outcome lit num other P scripts ts s ->
  exists s0 c, load lit num other 40 P (st0 scripts) = Ok tt s0 /\ path lit num other s0 Client.cinit ts s c /\
    creachable (js_enc lit) (js_read num) (js_same other) c /\ agree s c.
Proof. exact (read_follows lit num other P). Qed.
Print Assumptions C55_follows_model.

(** C55. What is sent are the texts of calls of the user, numbered; no number twice, and in their order over all sockets. *)
Theorem C55_sent lit num other P : program websocket_client = Some P -> forall scripts ts s,
  outcome lit num other P scripts ts s -> few scripts ts ->
  exists sent : list (list (N * jcall)),
    Forall2 (fun y l => Forall2 (fun v x => exists t, v = VStr t /\ js_enc lit (fst x) (snd x) = Some t) (so_sent y) l) (st_socks s) sent /\
    StronglySorted N.lt (map fst (List.concat sent)) /\
    Forall (fun x => In (snd x) (calls_of (all_actions scripts ts))) (List.concat sent).
Proof. exact (read_sent lit num other P). Qed.
Print Assumptions C55_sent.

(** C55. Nothing is sent over a socket that closes or is closed. *)
Theorem C55_nothing_lost lit num other P : program websocket_client = Some P -> forall scripts ts s y,
  outcome lit num other P scripts ts s -> In y (st_socks s) -> so_lost y = [].
Proof. exact (read_lost lit num other P). Qed.
Print Assumptions C55_nothing_lost.

(** C55. The promises of requests are pending, or fulfilled with the data of a message with their number; no two have the same. *)
Theorem C55_answers lit num other P : program websocket_client = Some P -> forall scripts ts s,
  outcome lit num other P scripts ts s -> few scripts ts ->
  exists ids, NoDup ids /\
    Forall2 (fun v id => exists p x, v = VProm p /\ nth_error (st_proms s) p = Some x /\
      ((exists rs, pr_state x = PPending rs) \/
       exists d k t key, pr_state x = PFul (VData d) /\ In (TMessage k t) ts /\ js_read num t = Some (key, d) /\ js_same other key id = true))
    (us_proms (st_user s)) ids.
Proof. exact (read_answers lit num other P). Qed.
Print Assumptions C55_answers.

(** C55. A listener is called with data of messages with one number, in the order of the messages. *)
Theorem C55_heard lit num other P : program websocket_client = Some P -> forall scripts ts s j,
  outcome lit num other P scripts ts s -> j < List.length (us_unls (st_user s)) ->
  exists id, within (heard_of j s) (map (fun x => [VData (snd x)]) (filter (fun x => js_same other (fst x) id) (received num ts))).
Proof. exact (read_listener lit num other P). Qed.
Print Assumptions C55_heard.

(** C55. There is at most one socket that connects or is connected. *)
Theorem C55_one_socket lit num other P : program websocket_client = Some P -> forall scripts ts s k k',
  outcome lit num other P scripts ts s -> busy s k -> busy s k' -> k = k'.
Proof. exact (read_one_socket lit num other P). Qed.
Print Assumptions C55_one_socket.

(** C55. There is at most one timer, and none while there is such a socket; its delay is one of the table. *)
Theorem C55_timer lit num other P : program websocket_client = Some P -> forall scripts ts s k k',
  outcome lit num other P scripts ts s -> alive s k = true ->
  (alive s k' = true -> k' = k) /\ ~ busy s k' /\ exists f d, nth_error (st_timers s) k = Some (Some (f, VNum d)) /\ In d [100; 200; 1000; 3000]%Z.
Proof. exact (read_timer lit num other P). Qed.
Print Assumptions C55_timer.

(** C55. A request made while the socket of an earlier one closes: it is not sent though there is an open socket. *)
Theorem C55_requests_get_through_refuted : exists s, outcome1 client_program [] a_sequel s /\ st_jobs s = [] /\
  view s =
    ([(Client.Closed, ["{""exec"":{""id"":1,""method"":""name"",""namespace"":""Pet"",""args"":[7]}}"]); (Client.Closed, []); (Client.Open, [])],
     [None; None], [Some (VData (JsBool true)); None], []).
Proof. exact sequel_not_sent. Qed.
Print Assumptions C55_requests_get_through_refuted.
