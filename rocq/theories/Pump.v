(** The axum websocket handler: frames in, frames out.

    Sources: src/rpc/servers/axum.rs:30-77, on top of the proxy of Server.v.

    The two futures of [websocket] are polled by one [select!]; they suspend at
    [receiver.next().await], [rx.next().await] and [sender.send(..).await].  Between taking a
    response and having written it the other future may run, so these are two events.
    [decode] is [serde_json::from_str] with its [map_err] (axum.rs:45-48), [encode] is
    [serde_json::to_string(&msg)] (axum.rs:59), which cannot fail for a [Response]. *)
From Coq Require Import List Arith NArith Bool.
From Verif Require Import Util Server.
Import ListNotations.

Section Pump.
Context {A : app} {text : Type} (decode : text -> msg A) (encode : response A -> text).

(** What [receiver.next().await] gives: a text message, any other message, an error, the end. *)
Inductive frame := FText (s : text) | FOther | FError | FEnd.

(** A running [websocket(stream, con)].  [sk_in], [sk_out] are history: the frames consumed and
    the texts written. *)
Record sock := mkSock {
  sk_conn : nat;
  sk_live : bool;
  sk_hold : option (response A);      (* taken from [rx], being written *)
  sk_in : list frame;
  sk_out : list text
}.

Record pstate := mkP { p_srv : state A; p_socks : list sock }.

Inductive pevent :=
| PServer (e : event A)               (* anything else that happens to the proxy *)
| PUpgrade                            (* axum.rs:30-36 [websocket_handler] *)
| PFrame (k : nat) (f : frame)        (* socket [k] delivers a frame to fut1 *)
| PTake (k : nat)                     (* fut2: [rx.next().await] gives a response *)
| PWrote (k : nat) (ok : bool).       (* fut2: [sender.send(..).await] is done *)

(** The halves of a socket's connection belong to its two futures: nobody else can use them. *)
Definition owned (ks : list sock) (c : nat) : bool := existsb (fun k => Nat.eqb (sk_conn k) c) ks.
Definition foreign (ks : list sock) (e : event A) : bool :=
  match e with
  | EvSend c _ | EvDropRx c | EvDropTx c | EvRead c => negb (owned ks c)
  | _ => true
  end.

Definition with_sock (k : nat) (g : sock -> sock) (p : pstate) : pstate :=
  mkP (p_srv p) (upd k g (p_socks p)).
Definition with_srv (s : state A) (p : pstate) : pstate := mkP s (p_socks p).

(** One future is done: [select!] drops the other, the function ends (axum.rs:73-76). *)
Definition hang_up (k c : nat) (p : pstate) : pstate :=
  with_sock k (fun s => mkSock (sk_conn s) false None (sk_in s) (sk_out s))
    (with_srv (next (next (p_srv p) (EvDropTx c)) (EvDropRx c)) p).

Definition consumed (k : nat) (f : frame) (p : pstate) : pstate :=
  with_sock k (fun s => mkSock (sk_conn s) (sk_live s) (sk_hold s) (sk_in s ++ [f]) (sk_out s)) p.

(** fut1, axum.rs:42-55. *)
Definition on_frame (k c : nat) (f : frame) (p : pstate) : pstate :=
  let p := consumed k f p in
  match f with
  | FText s =>
      match step (p_srv p) (EvSend c (decode s)) with
      | (srv, OSent false) => hang_up k c (with_srv srv p)
      | (srv, _) => with_srv srv p
      end
  | FOther => p
  | FError | FEnd => hang_up k c p
  end.

(** fut2, axum.rs:57-71.  [rx] cannot end: fut1 holds a sender. *)
Definition on_take (k c : nat) (p : pstate) : pstate :=
  match step (p_srv p) (EvRead c) with
  | (srv, ORead (Some r)) =>
      with_sock k (fun s => mkSock (sk_conn s) (sk_live s) (Some r) (sk_in s) (sk_out s)) (with_srv srv p)
  | _ => p
  end.

Definition on_wrote (k c : nat) (r : response A) (ok : bool) (p : pstate) : pstate :=
  if ok then with_sock k (fun s => mkSock (sk_conn s) (sk_live s) None (sk_in s) (sk_out s ++ [encode r])) p
  else hang_up k c p.

Definition pnext (p : pstate) (e : pevent) : pstate :=
  match e with
  | PServer e => if foreign (p_socks p) e then with_srv (next (p_srv p) e) p else p
  | PUpgrade =>
      if Nat.eqb (st_proxies (p_srv p)) 0 then p
      else mkP (next (p_srv p) EvConnect)
               (p_socks p ++ [mkSock (length (st_conns (p_srv p))) true None [] []])
  | PFrame k f =>
      match nth_error (p_socks p) k with
      | Some s => if sk_live s then on_frame k (sk_conn s) f p else p
      | None => p
      end
  | PTake k =>
      match nth_error (p_socks p) k with
      | Some s => match sk_live s, sk_hold s with true, None => on_take k (sk_conn s) p | _, _ => p end
      | None => p
      end
  | PWrote k ok =>
      match nth_error (p_socks p) k with
      | Some s => match sk_live s, sk_hold s with true, Some r => on_wrote k (sk_conn s) r ok p | _, _ => p end
      | None => p
      end
  end.

Definition prun (p : pstate) (es : list pevent) : pstate := fold_left pnext es p.
Definition pinit (a : St A) : pstate := mkP (init a) [].
End Pump.
Arguments frame : clear implicits.
Arguments pevent : clear implicits.
Arguments pstate : clear implicits.
Arguments sock : clear implicits.
