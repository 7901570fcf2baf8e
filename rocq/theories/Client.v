(** The websocket client that is put in front of the generated module.

    Source: src/rpc/clients/static/websocket_client.ts.

    JavaScript runs one task at a time; the promise callbacks it leads to run before the next
    task.  A state is changed by one event at a time, a schedule is an arbitrary list of events,
    an event that is not possible changes nothing:
    - [U..]  code of the user: calls, outside of a message or within a callback of a message;
    - [CVisit], [CFinally]: steps of the task at hand;
    - [N..], [TTimer]: a new task, of a socket or of the timer.
    Sockets behave as the WHATWG standard says: messages are delivered while the socket is open;
    a socket closed before it was open fails; a failing socket fires [error], then [close], else
    there is a [close] only.  Not modelled: [new WebSocket] throwing, two clients on one page,
    the console. *)
From Coq Require Import List Arith NArith Bool.
From Verif Require Import Util.
Import ListNotations.

(** [WebSocket.readyState]; [Closing b]: [b] tells whether it has been open. *)
Inductive ready := Connecting | Open | Closing (opened : bool) | Closed.

Section Client.
(** [R]: what is called with which arguments; [enc id r]: [execute(..)], 132-144 ([None]: it
    throws, as JSON.stringify may); [read]: what 57-71 make of a text: the id and the data given to
    the subscriptions ([None]: nothing happens, or it throws); [same]: [res_id == id]. *)
Context {R text K D : Type} (enc : N -> R -> option text) (read : text -> option (K * D)) (same : K -> N -> bool).

(** A socket; [ws_sent] is history: the texts given to [socket.send], with the id of their call. *)
Record wsock := mkWs { ws_state : ready; ws_sent : list (N * text) }.

(** An entry of [subscriptions] (14), of a [request] or of a [store.subscribe]; entries are not
    removed but marked.  [su_seen] is history: the data its callback was called with.  A request is
    settled by the first of them (191: [resolve]), or when [execute] throws ([su_bad]).
    [su_from], [su_to]: how many messages had been dealt with completely when it was added and when
    it was deleted. *)
Record sub := mkSub {
  su_id : N; su_req : bool; su_bad : bool; su_live : bool; su_seen : list D;
  su_from : nat; su_to : nat
}.

(** [subscriptions.forEach] at work (63-65, 68-70): entries added during the run are visited too.
    [dp_in]: code of the user is running, called by the last visited entry (159). *)
Record disp := mkDisp { dp_key : K; dp_data : D; dp_next : nat; dp_in : bool }.

Record client := mkClient {
  cl_id : N;                             (* req_id, 130 *)
  cl_socks : list wsock;                 (* every socket ever made *)
  cl_cur : option nat;                   (* socket, 9 *)
  cl_opening : option nat;               (* openPromise, 10: that of which socket *)
  cl_waiting : list (nat * (N * text));  (* open().then(() => open_and_send(value)), 102 *)
  cl_timer : option N;                   (* the timer of 38, if it is set *)
  cl_count : nat;                        (* reopenCount, 12 *)
  cl_subs : list sub;
  cl_stores : list N;                    (* the stores handed out, by their id *)
  cl_disp : option disp;
  (* history *)
  cl_calls : list N;                     (* the ids of all calls *)
  cl_msgs : list (K * D * bool);         (* messages; false: a callback threw *)
  cl_delays : list N                     (* the delays since a socket has opened *)
}.

Definition cinit : client := mkClient 0 [] None None [] None 0 [] [] None [] [] [].

(** ** Changing one thing *)
Definition set_id x c := mkClient x (cl_socks c) (cl_cur c) (cl_opening c) (cl_waiting c) (cl_timer c) (cl_count c) (cl_subs c) (cl_stores c) (cl_disp c) (cl_calls c ++ [x]) (cl_msgs c) (cl_delays c).
Definition set_socks x c := mkClient (cl_id c) x (cl_cur c) (cl_opening c) (cl_waiting c) (cl_timer c) (cl_count c) (cl_subs c) (cl_stores c) (cl_disp c) (cl_calls c) (cl_msgs c) (cl_delays c).
Definition set_cur x c := mkClient (cl_id c) (cl_socks c) x (cl_opening c) (cl_waiting c) (cl_timer c) (cl_count c) (cl_subs c) (cl_stores c) (cl_disp c) (cl_calls c) (cl_msgs c) (cl_delays c).
Definition set_opening x c := mkClient (cl_id c) (cl_socks c) (cl_cur c) x (cl_waiting c) (cl_timer c) (cl_count c) (cl_subs c) (cl_stores c) (cl_disp c) (cl_calls c) (cl_msgs c) (cl_delays c).
Definition set_waiting x c := mkClient (cl_id c) (cl_socks c) (cl_cur c) (cl_opening c) x (cl_timer c) (cl_count c) (cl_subs c) (cl_stores c) (cl_disp c) (cl_calls c) (cl_msgs c) (cl_delays c).
Definition set_timer x c := mkClient (cl_id c) (cl_socks c) (cl_cur c) (cl_opening c) (cl_waiting c) x (cl_count c) (cl_subs c) (cl_stores c) (cl_disp c) (cl_calls c) (cl_msgs c) (cl_delays c).
Definition set_count x l c := mkClient (cl_id c) (cl_socks c) (cl_cur c) (cl_opening c) (cl_waiting c) (cl_timer c) x (cl_subs c) (cl_stores c) (cl_disp c) (cl_calls c) (cl_msgs c) l.
Definition set_subs x c := mkClient (cl_id c) (cl_socks c) (cl_cur c) (cl_opening c) (cl_waiting c) (cl_timer c) (cl_count c) x (cl_stores c) (cl_disp c) (cl_calls c) (cl_msgs c) (cl_delays c).
Definition set_stores x c := mkClient (cl_id c) (cl_socks c) (cl_cur c) (cl_opening c) (cl_waiting c) (cl_timer c) (cl_count c) (cl_subs c) x (cl_disp c) (cl_calls c) (cl_msgs c) (cl_delays c).
Definition set_disp x m c := mkClient (cl_id c) (cl_socks c) (cl_cur c) (cl_opening c) (cl_waiting c) (cl_timer c) (cl_count c) (cl_subs c) (cl_stores c) x (cl_calls c) m (cl_delays c).

(** ** websocketStore *)

(** 5 and 16-22 [reopenTimeout] *)
Definition reopen_timeouts : list N := [100; 200; 1000; 3000]%N.
Definition timeout_index (n : nat) : nat :=
  if Nat.leb (length reopen_timeouts - 1) n then length reopen_timeouts - 1 else n.
Definition reopen_timeout (n : nat) : option N := nth_error reopen_timeouts (timeout_index n).

Definition state_of (c : client) (n : nat) : ready :=
  match nth_error (cl_socks c) n with Some s => ws_state s | None => Closed end.
Definition set_state (n : nat) (st : ready) (c : client) : client :=
  set_socks (upd n (fun s => mkWs st (ws_sent s)) (cl_socks c)) c.

(** [WebSocket.close()] *)
Definition closing (st : ready) : ready :=
  match st with Connecting => Closing false | Open => Closing true | x => x end.

(** 24-33 [close] *)
Definition close (c : client) : client :=
  let c := set_timer None c in
  match cl_cur c with
  | Some n => set_cur None (set_state n (closing (state_of c n)) c)
  | None => c
  end.

(** [subscriptions.size > 0] *)
Definition subscribed (c : client) : bool := existsb su_live (cl_subs c).

(** 35-40 [reopen] *)
Definition reopen (c : client) : client :=
  let c := close c in
  if subscribed c then
    match reopen_timeout (cl_count c) with
    | Some d => set_timer (Some d) (set_count (S (cl_count c)) (cl_delays c ++ [d]) c)
    | None => set_timer (Some 0%N) (set_count (S (cl_count c)) (cl_delays c ++ [0%N]) c)  (* setTimeout(.., undefined) *)
    end
  else c.

(** 42-98 [open]; the promise it returns follows that of the returned socket. *)
Definition open (c : client) : client * nat :=
  let c := set_timer None c in
  match cl_opening c with
  | Some p => (c, p)
  | None =>
      let n := length (cl_socks c) in
      (set_opening (Some n) (set_cur (Some n) (set_socks (cl_socks c ++ [mkWs Connecting []]) c)), n)
  end.

Definition is_open (st : ready) : bool := match st with Open => true | _ => false end.

(** 100-106 [open_and_send] *)
Definition open_and_send (v : N * text) (c : client) : client :=
  let wait c :=
    let (c, p) := open c in set_waiting (cl_waiting c ++ [(p, v)]) c in
  match cl_cur c with
  | Some n =>
      if is_open (state_of c n)
      then set_socks (upd n (fun s => mkWs (ws_state s) (ws_sent s ++ [v])) (cl_socks c)) c
      else wait c
  | None => wait c
  end.

(** Messages dealt with completely. *)
Definition done (c : client) : nat :=
  match cl_disp c with Some _ => pred (length (cl_msgs c)) | None => length (cl_msgs c) end.

(** 113 *)
Definition add_sub (id : N) (req bad : bool) (c : client) : client :=
  set_subs (cl_subs c ++ [mkSub id req bad true [] (done c) 0]) c.

(** 114-119 *)
Definition delete_sub (j : nat) (c : client) : client :=
  let c := set_subs (upd j (fun s =>
      if su_live s then mkSub (su_id s) (su_req s) (su_bad s) false (su_seen s) (su_from s) (done c) else s) (cl_subs c)) c in
  if subscribed c then c else close c.

(** 91-95 [onopen] and the callbacks of the promise: those waiting for it, in order.  No code of the
    user can run in between. *)
Definition on_open (n : nat) (c : client) : client :=
  let c := set_count 0 [] (set_opening None c) in
  let now := map snd (filter (fun w => Nat.eqb (fst w) n) (cl_waiting c)) in
  let c := set_waiting (filter (fun w => negb (Nat.eqb (fst w) n)) (cl_waiting c)) c in
  fold_left (fun c v => open_and_send v c) now c.

(** 87-90 [onerror]: the callbacks waiting for the promise are never called. *)
Definition on_error (n : nat) (c : client) : client :=
  set_waiting (filter (fun w => negb (Nat.eqb (fst w) n)) (cl_waiting c)) (set_opening None c).

(** 74-79 [onclose] *)
Definition on_close (c : client) : client := reopen c.

(** ** Calls *)

(** [req_id += 1] on a double. *)
Definition bump (n : N) : N := if N.ltb n (2 ^ 53) then (n + 1)%N else n.

(** 171-203 [request] *)
Definition request (r : R) (c : client) : client :=
  let c := set_id (bump (cl_id c)) c in
  match enc (cl_id c) r with
  | Some t => open_and_send (cl_id c, t) (add_sub (cl_id c) true false c)
  | None => add_sub (cl_id c) true true c
  end.

(** 146-169 [subscribe] *)
Definition subscribe (r : R) (c : client) : client :=
  let c := set_id (bump (cl_id c)) c in
  match enc (cl_id c) r with
  | Some t => open_and_send (cl_id c, t) (set_stores (cl_stores c ++ [cl_id c]) c)
  | None => c
  end.

(** ** Events *)
Inductive cevent :=
| URequest (r : R)
| UStream (r : R)
| UListen (k : nat)           (* store.subscribe(cb) of store k *)
| UUnlisten (j : nat)         (* the function it returned is called *)
| UThrow                      (* the running callback throws *)
| CVisit                      (* forEach goes on *)
| CFinally (j : nat)          (* 202: [.finally(() => unsubscribe())] of a settled request *)
| NOpen (n : nat)
| NClosing (n : nat)          (* the server starts closing *)
| NClose (n : nat)
| NFail (n : nat)
| NMessage (n : nat) (t : text)
| TTimer.

(** A request whose promise is settled but not its [finally]. *)
Definition unfinished (s : sub) : bool :=
  su_req s && su_live s && (su_bad s || match su_seen s with [] => false | _ => true end).

(** A new task can start. *)
Definition idle (c : client) : bool :=
  match cl_disp c with Some _ => false | None => negb (existsb unfinished (cl_subs c)) end.
(** Code of the user can run. *)
Definition user (c : client) : bool :=
  match cl_disp c with Some d => dp_in d | None => true end.

Definition visit (d : disp) (c : client) : client :=
  match nth_error (cl_subs c) (dp_next d) with
  | None => set_disp None (cl_msgs c) c
  | Some s =>
      let hit := su_live s && same (dp_key d) (su_id s) in
      set_disp (Some (mkDisp (dp_key d) (dp_data d) (S (dp_next d)) (hit && negb (su_req s)))) (cl_msgs c)
        (if hit
         then set_subs (upd (dp_next d) (fun s => mkSub (su_id s) (su_req s) (su_bad s) (su_live s) (su_seen s ++ [dp_data d]) (su_from s) (su_to s)) (cl_subs c)) c
         else c)
  end.

(** The last message is marked. *)
Definition spoil (l : list (K * D * bool)) : list (K * D * bool) :=
  upd (pred (length l)) (fun m => (fst m, false)) l.

Definition cnext (c : client) (e : cevent) : client :=
  match e with
  | URequest r => if user c then request r c else c
  | UStream r => if user c then subscribe r c else c
  | UListen k =>
      if user c then
        match nth_error (cl_stores c) k with Some id => add_sub id false false c | None => c end
      else c
  | UUnlisten j =>
      if user c then
        match nth_error (cl_subs c) j with
        | Some s => if su_req s then c else delete_sub j c
        | None => c
        end
      else c
  | UThrow =>
      match cl_disp c with
      | Some d => if dp_in d then set_disp None (spoil (cl_msgs c)) c else c
      | None => c
      end
  | CVisit => match cl_disp c with Some d => visit d c | None => c end
  | CFinally j =>
      match cl_disp c, nth_error (cl_subs c) j with
      | None, Some s => if unfinished s then delete_sub j c else c
      | _, _ => c
      end
  | NOpen n =>
      match idle c, state_of c n with
      | true, Connecting => on_open n (set_state n Open c)
      | _, _ => c
      end
  | NClosing n =>
      match idle c, state_of c n with
      | true, Open => set_state n (Closing true) c
      | _, _ => c
      end
  | NClose n =>
      match idle c, state_of c n with
      | true, (Open | Closing true) => on_close (set_state n Closed c)
      | _, _ => c
      end
  | NFail n =>
      match idle c, state_of c n with
      | true, (Connecting | Open | Closing _) => on_close (on_error n (set_state n Closed c))
      | _, _ => c
      end
  | NMessage n t =>
      match idle c, state_of c n with
      | true, Open =>
          match read t with
          | Some (k, d) => set_disp (Some (mkDisp k d 0 false)) (cl_msgs c ++ [(k, d, true)]) c
          | None => c
          end
      | _, _ => c
      end
  | TTimer =>
      match idle c, cl_timer c with
      | true, Some _ => fst (open c)
      | _, _ => c
      end
  end.

Definition crun (c : client) (es : list cevent) : client := fold_left cnext es c.
End Client.
Arguments wsock : clear implicits.
Arguments sub : clear implicits.
Arguments disp : clear implicits.
Arguments client : clear implicits.
Arguments cevent : clear implicits.
