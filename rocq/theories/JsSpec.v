(** What a run of the client's program (TsProgram.v, JsSem.v) has to do with a run of the model (Client.v).

    Specification side.  The page does what the model does: every task is an event of the model, followed by what the
    task leads to.  [agree] tells what can be seen of the page: sockets and what was sent over them, the timer,
    the promises of the requests, what the listeners were called with. *)
From Coq Require Import List String Ascii Bool NArith ZArith.
From Verif Require Import Util Js JsonText Wire JsSem.
From Verif Require Client TsProgram.
Import ListNotations.
Local Open Scope string_scope.
Local Open Scope list_scope.

Notation jclient := (Client.client jstr jsval jsval).
(** A call: namespace, method, arguments. *)
Definition jcall : Type := string * string * list jsval.

Section Spec.
Context (lit : num -> jstr) (num : jstr -> num) (other : jsval -> N -> bool).

(** The parameters of the model: texts of calls, texts of messages, [==]. *)
Definition js_enc (id : N) (r : jcall) : option jstr :=
  let '(ns, m, args) := r in option_map (print lit) (stringify (execute id ns m args)).
Definition js_read (t : jstr) : option (jsval * jsval) :=
  match parse num t with Some j => on_message (jsparse j) | None => None end.
Definition js_same (k : jsval) (id : N) : bool :=
  match k with JsNum (NInt z) => Z.eqb z (Z.of_N id) | _ => other k id end.
Notation cnext := (Client.cnext js_enc js_read js_same).

(** Which subscription is the j-th of a store. *)
Definition listeners (subs : list (Client.sub jsval)) : list nat :=
  map fst (filter (fun x => negb (Client.su_req (snd x))) (combine (seq 0 (List.length subs)) subs)).

(** What the user does. *)
Definition act_next (c : jclient) (a : action) : jclient :=
  match a with
  | ARequest ns m args => cnext c (Client.URequest (ns, m, args))
  | AStream ns m args => cnext c (Client.UStream (ns, m, args))
  | AListen k => cnext c (Client.UListen k)
  | AUnlisten j =>
      match nth_error (listeners (Client.cl_subs c)) j with Some i => cnext c (Client.UUnlisten i) | None => c end
  | AClose _ | AThen _ | ADefer => c
  end.
Definition acts_next (c : jclient) (l : list action) : jclient := fold_left act_next l c.
Definition code_next (c : jclient) (x : script) : jclient :=
  let c := acts_next c (sc_acts x) in if sc_throw x then cnext c Client.UThrow else c.
Definition pop (l : list script) : script * list script :=
  match l with [] => (mkScript [] false, []) | x :: r => (x, r) end.

(** What a task leads to: [finally] of requests, callbacks of a message, functions of the user. *)
Inductive leads : list script -> jclient -> list script -> jclient -> Prop :=
| l_done sc c : leads sc c sc c
| l_finally j sc c sc' c' : leads sc (cnext c (Client.CFinally j)) sc' c' -> leads sc c sc' c'
| l_visit sc c sc' c' : leads sc (cnext c Client.CVisit) sc' c' -> leads sc c sc' c'
| l_code sc c sc' c' : Client.user c = true -> leads (snd (pop sc)) (code_next c (fst (pop sc))) sc' c' -> leads sc c sc' c'.

Definition alive (s : state) (k : nat) : bool := match nth_error (st_timers s) k with Some (Some _) => true | _ => false end.
(** A task, from a state of the page: what is left of the scripts, the state of the model. *)
Inductive follows (s : state) (c : jclient) : task -> list script -> jclient -> Prop :=
| f_user x sc' c' : leads (us_scripts (st_user s)) (acts_next c (sc_acts x)) sc' c' -> follows s c (TUser x) sc' c'
| f_open k : follows s c (TOpen k) (us_scripts (st_user s)) (cnext c (Client.NOpen k))
| f_closing k : follows s c (TClosing k) (us_scripts (st_user s)) (cnext c (Client.NClosing k))
| f_close k : follows s c (TClose k) (us_scripts (st_user s)) (cnext c (Client.NClose k))
| f_fail k : follows s c (TFail k) (us_scripts (st_user s)) (cnext c (Client.NFail k))
| f_message k t sc' c' : leads (us_scripts (st_user s)) (cnext c (Client.NMessage k t)) sc' c' -> follows s c (TMessage k t) sc' c'
| f_timer k : follows s c (TTimer k) (us_scripts (st_user s)) (if alive s k then cnext c Client.TTimer else c).

(** What can be seen. *)
Definition sock_agrees (y : sock) (x : Client.wsock jstr) : Prop :=
  so_state y = Client.ws_state x /\ so_sent y = map (fun v => VStr (snd v)) (Client.ws_sent x) /\ so_lost y = [].
Definition prom_agrees (s : state) (v : val) (x : Client.sub jsval) : Prop :=
  exists p y, v = VProm p /\ nth_error (st_proms s) p = Some y /\
    match Client.su_seen x with d :: _ => pr_state y = PFul (VData d) | [] => exists rs, pr_state y = PPending rs end.
Definition heard_of (u : nat) (s : state) : list (list val) :=
  map snd (filter (fun x => Nat.eqb (fst x) u) (us_heard (st_user s))).
Record agree (s : state) (c : jclient) : Prop := {
  ag_jobs : st_jobs s = [];
  ag_idle : Client.idle c = true;
  ag_socks : Forall2 sock_agrees (st_socks s) (Client.cl_socks c);
  ag_timer : match Client.cl_timer c with
             | Some d => exists k f, nth_error (st_timers s) k = Some (Some (f, VNum (Z.of_N d))) /\ forall k', alive s k' = true -> k' = k
             | None => forall k, alive s k = false
             end;
  ag_proms : Forall2 (prom_agrees s) (us_proms (st_user s)) (filter Client.su_req (Client.cl_subs c));
  ag_heard : forall j i x, nth_error (listeners (Client.cl_subs c)) j = Some i -> nth_error (Client.cl_subs c) i = Some x ->
             heard_of j s = map (fun d => [VData d]) (Client.su_seen x);
  ag_unls : List.length (us_unls (st_user s)) = List.length (listeners (Client.cl_subs c));
  ag_stores : List.length (us_stores (st_user s)) = List.length (Client.cl_stores c)
}.

(** From state to state, task by task; between tasks page and model agree. *)
Inductive path : state -> jclient -> list task -> state -> jclient -> Prop :=
| p_nil s c : agree s c -> path s c [] s c
| p_task s c t ts s1 c1 s2 c2 : agree s c -> (exists N, forall n, N <= n -> run_task lit num other n t s = Ok tt s1) ->
    follows s c t (us_scripts (st_user s1)) c1 -> path s1 c1 ts s2 c2 -> path s c (t :: ts) s2 c2.

(** What can be read of the messages. *)
Definition received (ts : list task) : list (jsval * jsval) :=
  flat_map (fun t => match t with TMessage _ t => match js_read t with Some x => [x] | None => [] end | _ => [] end) ts.
(** What a page comes to. *)
Definition outcome (P : list TsProgram.top) (scripts : list script) (ts : list task) (s : state) : Prop :=
  exists n, page lit num other n P scripts ts = Ok tt s.
End Spec.

(** Sockets that connect or are connected. *)
Definition busy (s : state) (k : nat) : Prop :=
  exists y, nth_error (st_socks s) k = Some y /\ (so_state y = Client.Connecting \/ so_state y = Client.Open).
(** What the user may do in the course of a page. *)
Definition all_actions (scripts : list script) (ts : list task) : list action :=
  flat_map sc_acts scripts ++ flat_map (fun t => match t with TUser x => sc_acts x | _ => [] end) ts.
Definition calls_of (l : list action) : list jcall :=
  flat_map (fun a => match a with ARequest ns m args | AStream ns m args => [(ns, m, args)] | _ => [] end) l.
(** Ids do not repeat (see C40). *)
Definition few (scripts : list script) (ts : list task) : Prop := (N.of_nat (List.length (calls_of (all_actions scripts ts))) <= 2 ^ 53)%N.

(** Some elements, in their order. *)
Inductive within {A : Type} : list A -> list A -> Prop :=
| w_nil : within [] []
| w_skip x l m : within l m -> within l (x :: m)
| w_take x l m : within l m -> within (x :: l) (x :: m).
