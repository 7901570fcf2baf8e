(** Executable model of the rpc server: the backend proxy, its request loop, the
    subscriber map, the stream tasks and the connections.

    Sources: src/rpc/servers/proxy.rs, core/src/rpc/mod.rs, core/src/rpc/server.rs,
    derive/src/rpc/backend_impl.rs, derive/src/rpc/impl_rpc.rs.

    Concurrency: a state is changed by one [event] at a time; a schedule is an arbitrary
    list of events.  Events that are not enabled leave the state unchanged.  Atomicity
    follows the await points of the code: the request loop suspends only at
    [rx.next().await] and inside an async rpc method; a stream task suspends only at
    [StreamExt::next(&mut st).await]. *)
From Coq Require Import List Arith NArith Bool Lia.
From Verif Require Import Util.
Import ListNotations.

(** The user's application, as far as the server code depends on it.  Json and Err are
    serde_json values and errors, Call is the decoded request enum ([<Backend>Req]).  They are
    opaque here; Wire.v gives a concrete decoder. *)
Record app := mkApp {
  St : Type;      (* the backend struct *)
  Call : Type;
  Json : Type;
  Err : Type;
  (** [serde_json::from_value::<#req_ident>(value)], derive/src/rpc/backend_impl.rs:56. *)
  from_value : Json -> Call + Err;
  (** Whether the called item is a stream (sync fn) or a method (async fn),
      derive/src/rpc/args.rs:64-68 and derive/src/rpc/impl_rpc.rs:149-152. *)
  is_stream : Call -> bool;
  (** The user's async method run to completion, derive/src/rpc/impl_rpc.rs:169, together with
      [serde_json::to_value(result)] (core/src/rpc/mod.rs:48).  [None]: the method panics. *)
  run_method : St -> Call -> option (St * (Json + Err));
  (** The user's sync method that builds the stream, derive/src/rpc/impl_rpc.rs:185.
      [None]: it panics.  The stream itself is driven by the schedule ([EvItem]). *)
  open_stream : St -> Call -> option St
}.

Section Server.
Context {A : app}.
Local Notation St := (St A).
Local Notation Call := (Call A).
Local Notation Json := (Json A).
Local Notation Err := (Err A).

(** core/src/rpc/mod.rs:9-20 [Request] *)
Inductive request : Type :=
| Exec (id : N) (value : Json)
| CancelStream (id : N).

(** core/src/rpc/mod.rs:22-37 [Response] *)
Inductive response : Type :=
| RMethod (id : N) (data : Json)
| RStream (id : N) (data : Json)
| RError (id : option N) (data : Err).

(** core/src/rpc/mod.rs:40-45 [Response::error] with [id: usize] *)
Definition Response_error (id : N) (e : Err) : response := RError (Some id) e.

(** core/src/rpc/mod.rs:47-52 [Response::method]; the argument is the outcome of
    [serde_json::to_value]. *)
Definition Response_method (id : N) (v : Json + Err) : response :=
  match v with inl d => RMethod id d | inr e => Response_error id e end.

(** core/src/rpc/mod.rs:54-59 [Response::stream] *)
Definition Response_stream (id : N) (v : Json + Err) : response :=
  match v with inl d => RStream id d | inr e => Response_error id e end.

(** src/rpc/servers/proxy.rs:10 [Result<Request, Response>]: what a connection sends. *)
Definition msg : Type := (request + response)%type.

(** A spawned stream task (derive/src/rpc/impl_rpc.rs:187-201) as tokio sees it:
    - [TIdle]     spawned or suspended, may be polled;
    - [TPolling]  a worker thread is polling it;
    - [TAborting] [abort()] was called while it was being polled: tokio lets the current
                  poll run to its next suspension;
    - [TAborted]  cancelled; never polled again;
    - [TDone]     the stream ended ([while let Some] exits);
    - [TBroken]   a send failed ([break], impl_rpc.rs:191-196). *)
Inductive tstat := TIdle | TPolling | TAborting | TAborted | TDone | TBroken.

(** [tk_items] is history: every item the stream has yielded, oldest first. *)
Record task := mkTask { tk_conn : nat; tk_id : N; tk_stat : tstat; tk_items : list (Json + Err) }.

(** Who put a response in a channel (annotation only; the channel carries the response). *)
Inductive src := SrcLoop | SrcTask (t : nat).

(** src/rpc/servers/proxy.rs:46-76 [ProxyConnection] / [ProxyTx] / [ProxyRx]: [cn_rx]/[cn_tx]
    tell whether the receiving / sending half still exists; [cn_out] is history: everything
    ever put in the unbounded response channel, oldest first; [cn_read] counts the responses
    the owner of [ProxyRx] has taken. *)
Record conn := mkConn { cn_rx : bool; cn_tx : bool; cn_out : list (src * response); cn_read : nat }.

(** The task spawned by [BackendProxy::new] (proxy.rs:21-32): waiting for a request,
    awaiting an rpc method, killed by a panic, or ended because all senders are gone. *)
Inductive loop := LIdle | LBusy (c : nat) (id : N) (call : Call) | LPanicked | LEnded.

Record state := mkState {
  st_app : St;                        (* backend, proxy.rs:14 *)
  st_queue : list (nat * msg);        (* channel tx -> rx, proxy.rs:18 *)
  st_loop : loop;
  st_conns : list conn;
  st_tasks : list task;               (* every stream task ever spawned *)
  st_subs : list (N * nat);           (* SubscriberMap, core/src/rpc/server.rs:14-17 *)
  st_proxies : nat;                   (* live clones of BackendProxy *)
  st_sent : list (nat * msg)          (* history: messages for which ProxyTx::send returned Ok *)
}.

Inductive event :=
| EvConnect                  (* BackendProxy::connect *)
| EvCloneProxy               (* BackendProxy: Clone *)
| EvDropProxy                (* drop of a BackendProxy *)
| EvSend (c : nat) (m : msg) (* ProxyTx::send *)
| EvDropRx (c : nat)         (* drop of the ProxyRx *)
| EvDropTx (c : nat)         (* drop of the ProxyTx *)
| EvRead (c : nat)           (* ProxyRx::poll_next *)
| EvRecv                     (* the loop is woken at rx.next().await *)
| EvMethodDone               (* the awaited rpc method completes *)
| EvPoll (t : nat)           (* a worker starts polling a stream task *)
| EvItem (t : nat) (v : Json + Err)  (* during a poll the stream yields an item *)
| EvYield (t : nat)          (* the poll suspends *)
| EvFinish (t : nat).        (* the stream ends during a poll *)

(** What the caller of the event observes. *)
Inductive out := OUnit | OSent (ok : bool) | ORead (r : option response).

Definition init (a : St) : state := mkState a [] LIdle [] [] [] 1 [].

Definition alive (l : loop) : bool := match l with LIdle | LBusy _ _ _ => true | _ => false end.

Definition rx_alive (s : state) (c : nat) : bool :=
  match nth_error (st_conns s) c with Some cn => cn_rx cn | None => false end.

(** [UnboundedSender::unbounded_send] on connection [c]: fails iff the receiver is gone. *)
Definition push (s : state) (c : nat) (o : src) (r : response) : state :=
  mkState (st_app s) (st_queue s) (st_loop s)
    (upd c (fun cn => if cn_rx cn then mkConn (cn_rx cn) (cn_tx cn) (cn_out cn ++ [(o, r)]) (cn_read cn) else cn)
         (st_conns s))
    (st_tasks s) (st_subs s) (st_proxies s) (st_sent s).

Definition set_stat (f : tstat -> tstat) (t : task) : task :=
  mkTask (tk_conn t) (tk_id t) (f (tk_stat t)) (tk_items t).

(** [JoinHandle::abort] *)
Definition abort_stat (x : tstat) : tstat :=
  match x with TIdle => TAborted | TPolling => TAborting | y => y end.

Definition abort_task (t : nat) (ts : list task) : list task := upd t (set_stat abort_stat) ts.

(** core/src/rpc/server.rs:33-39 [Drop for SubscriberMap] *)
Definition drop_subs (subs : list (N * nat)) (ts : list task) : list task :=
  fold_left (fun ts p => abort_task (snd p) ts) subs ts.

(** The loop's future is dropped, after a panic or after its end (proxy.rs:21-32): the
    receiver goes away with everything still queued, [subscribers] is dropped. *)
Definition close_loop (l : loop) (s : state) : state :=
  mkState (st_app s) [] l (st_conns s) (drop_subs (st_subs s) (st_tasks s)) []
          (st_proxies s) (st_sent s).

Definition with_loop (l : loop) (s : state) : state :=
  mkState (st_app s) (st_queue s) l (st_conns s) (st_tasks s) (st_subs s) (st_proxies s) (st_sent s).

Definition with_app (a : St) (s : state) : state :=
  mkState a (st_queue s) (st_loop s) (st_conns s) (st_tasks s) (st_subs s) (st_proxies s) (st_sent s).

Definition with_queue (q : list (nat * msg)) (s : state) : state :=
  mkState (st_app s) q (st_loop s) (st_conns s) (st_tasks s) (st_subs s) (st_proxies s) (st_sent s).

(** [Some(tokio::spawn(..))] followed by [subscribers.insert(id, jh)]: impl_rpc.rs:187,
    backend_impl.rs:58-60.  An old handle under the same id is dropped, which detaches its
    task without aborting it. *)
Definition spawn (c : nat) (id : N) (s : state) : state :=
  mkState (st_app s) (st_queue s) (st_loop s) (st_conns s)
          (st_tasks s ++ [mkTask c id TIdle []])
          (m_set id (length (st_tasks s)) (st_subs s)) (st_proxies s) (st_sent s).

(** backend_impl.rs:69-73 [CancelStream] *)
Definition cancel (id : N) (s : state) : state :=
  match m_get id (st_subs s) with
  | Some t => mkState (st_app s) (st_queue s) (st_loop s) (st_conns s)
                      (abort_task t (st_tasks s)) (m_del id (st_subs s)) (st_proxies s) (st_sent s)
  | None => s
  end.

(** One iteration of the loop body up to its first suspension: proxy.rs:22-30 and
    [handle_request], backend_impl.rs:48-75, [call], impl_rpc.rs:43-52,155-202. *)
Definition handle (c : nat) (m : msg) (s : state) : state :=
  match m with
  | inr err => push s c SrcLoop err
  | inl (Exec id v) =>
      match from_value A v with
      | inr e => push s c SrcLoop (Response_error id e)
      | inl call =>
          if is_stream A call then
            match open_stream A (st_app s) call with
            | Some a => spawn c id (with_app a s)
            | None => close_loop LPanicked s
            end
          else with_loop (LBusy c id call) s
      end
  | inl (CancelStream id) => cancel id s
  end.

(** impl_rpc.rs:169-174: the awaited method is done; [unbounded_send(..).unwrap()] panics when
    the receiver is gone. *)
Definition method_done (c : nat) (id : N) (call : Call) (s : state) : state :=
  match run_method A (st_app s) call with
  | None => close_loop LPanicked s
  | Some (a, r) =>
      if rx_alive s c
      then with_loop LIdle (with_app a (push s c SrcLoop (Response_method id r)))
      else close_loop LPanicked s
  end.

Definition no_senders (s : state) : bool :=
  Nat.eqb (st_proxies s) 0 && forallb (fun cn => negb (cn_tx cn)) (st_conns s).

Definition with_conns (cs : list conn) (s : state) : state :=
  mkState (st_app s) (st_queue s) (st_loop s) cs (st_tasks s) (st_subs s) (st_proxies s) (st_sent s).

Definition with_tasks (ts : list task) (s : state) : state :=
  mkState (st_app s) (st_queue s) (st_loop s) (st_conns s) ts (st_subs s) (st_proxies s) (st_sent s).

Definition with_proxies (n : nat) (s : state) : state :=
  mkState (st_app s) (st_queue s) (st_loop s) (st_conns s) (st_tasks s) (st_subs s) n (st_sent s).

Definition polling (x : tstat) : bool := match x with TPolling | TAborting => true | _ => false end.

Definition step (s : state) (e : event) : state * out :=
  match e with
  | EvConnect =>                               (* proxy.rs:36-43 *)
      if Nat.eqb (st_proxies s) 0 then (s, OUnit)
      else (with_conns (st_conns s ++ [mkConn true true [] 0]) s, OUnit)
  | EvCloneProxy =>                            (* proxy.rs:8 *)
      if Nat.eqb (st_proxies s) 0 then (s, OUnit) else (with_proxies (S (st_proxies s)) s, OUnit)
  | EvDropProxy => (with_proxies (pred (st_proxies s)) s, OUnit)
  | EvSend c m =>                              (* proxy.rs:65-69 *)
      match nth_error (st_conns s) c with
      | Some cn =>
          if cn_tx cn then
            if alive (st_loop s) then
              (mkState (st_app s) (st_queue s ++ [(c, m)]) (st_loop s) (st_conns s) (st_tasks s)
                       (st_subs s) (st_proxies s) (st_sent s ++ [(c, m)]), OSent true)
            else (s, OSent false)
          else (s, OUnit)
      | None => (s, OUnit)
      end
  | EvDropRx c =>
      (with_conns (upd c (fun cn => mkConn false (cn_tx cn) (cn_out cn) (cn_read cn)) (st_conns s)) s, OUnit)
  | EvDropTx c =>
      (with_conns (upd c (fun cn => mkConn (cn_rx cn) false (cn_out cn) (cn_read cn)) (st_conns s)) s, OUnit)
  | EvRead c =>                                (* proxy.rs:82-88 *)
      match nth_error (st_conns s) c with
      | Some cn =>
          if cn_rx cn then
            match nth_error (cn_out cn) (cn_read cn) with
            | Some (_, r) =>
                (with_conns (upd c (fun cn => mkConn (cn_rx cn) (cn_tx cn) (cn_out cn) (S (cn_read cn))) (st_conns s)) s,
                 ORead (Some r))
            | None => (s, ORead None)
            end
          else (s, OUnit)
      | None => (s, OUnit)
      end
  | EvRecv =>                                  (* proxy.rs:22 *)
      match st_loop s with
      | LIdle =>
          match st_queue s with
          | (c, m) :: q => (handle c m (with_queue q s), OUnit)
          | [] => if no_senders s then (close_loop LEnded s, OUnit) else (s, OUnit)
          end
      | _ => (s, OUnit)
      end
  | EvMethodDone =>
      match st_loop s with
      | LBusy c id call => (method_done c id call s, OUnit)
      | _ => (s, OUnit)
      end
  | EvPoll t =>
      (with_tasks (upd t (set_stat (fun x => match x with TIdle => TPolling | y => y end)) (st_tasks s)) s, OUnit)
  | EvItem t v =>                              (* impl_rpc.rs:190-197 *)
      match nth_error (st_tasks s) t with
      | Some tk =>
          if polling (tk_stat tk) then
            if rx_alive s (tk_conn tk) then
              let s1 := push s (tk_conn tk) (SrcTask t) (Response_stream (tk_id tk) v) in
              (with_tasks (upd t (fun k => mkTask (tk_conn k) (tk_id k) (tk_stat k) (tk_items k ++ [v])) (st_tasks s1)) s1, OUnit)
            else
              (with_tasks (upd t (fun k => mkTask (tk_conn k) (tk_id k) TBroken (tk_items k ++ [v])) (st_tasks s)) s, OUnit)
          else (s, OUnit)
      | None => (s, OUnit)
      end
  | EvYield t =>
      (with_tasks (upd t (set_stat (fun x => match x with TPolling => TIdle | TAborting => TAborted | y => y end)) (st_tasks s)) s, OUnit)
  | EvFinish t =>                              (* impl_rpc.rs:190: while let .. = None *)
      (with_tasks (upd t (set_stat (fun x => if polling x then TDone else x)) (st_tasks s)) s, OUnit)
  end.

Definition next (s : state) (e : event) : state := fst (step s e).
Definition run (s : state) (es : list event) : state := fold_left next es s.

End Server.

Arguments request : clear implicits.
Arguments response : clear implicits.
Arguments msg : clear implicits.
Arguments task : clear implicits.
Arguments conn : clear implicits.
Arguments loop : clear implicits.
Arguments state : clear implicits.
Arguments event : clear implicits.
Arguments out : clear implicits.
