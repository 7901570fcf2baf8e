(** A whole system: a page in a browser that runs the client's program, and a server.

    The page is that of JsSem.v, the server that of Pump.v; sockets are connected as in E2E.v: each socket of the page
    is linked to a websocket of the server once the server has accepted it (axum.rs:30-36), a link carries texts in order
    in both directions, what is on its way is lost when an end is closed.  All other sockets of the server are those
    of other clients: anything may arrive on them.  Which events happen, and when, is up to the schedule.

    Sources: src/rpc/clients/static/websocket_client.ts, src/rpc/servers/axum.rs, src/rpc/servers/proxy.rs. *)
From Coq Require Import List String Arith NArith Bool.
From Verif Require Import Util Js JsonText Registry Macro Server Pump Wire.
From Verif Require Import E2E E2EText TsProgram JsSem.
From Verif Require Client.
Import ListNotations.
Local Open Scope string_scope.
Local Open Scope list_scope.

Section System.
Context {T V F : Type} (S : setting T V F).
Local Notation A := (rpc S).
Local Notation serve := (pnext (A := A) (from_text S) (to_text S)).

Record system := mkSys { sy_page : state; sy_sv : Pump.pstate A jstr; sy_links : list link }.

Inductive sevent :=
| STask (t : task)                   (* the page but for [TOpen] and [TMessage] *)
| SServer (e : pevent A jstr)        (* the server but for texts on links *)
| SAccept (n : nat)                  (* the server accepts socket [n] of the page *)
| SOpen (n : nat)                    (* the page learns of it *)
| SUp (l : nat)                      (* link [l] delivers a text to the server *)
| SDown (l : nat).                   (* link [l] delivers a text to the page *)

(** A task of the page, and the microtasks it leads to: there is fuel for it. *)
Definition does (t : task) (p p' : state) : Prop := exists n, run_task (s_lit S) (s_num S) (s_other S) n t p = Ok tt p'.

Inductive sstep (y : system) : sevent -> system -> Prop :=
| s_task t p : (forall k, t <> TOpen k) -> (forall k x, t <> TMessage k x) -> does t (sy_page y) p ->
    sstep y (STask t) (mkSys p (sy_sv y) (sy_links y))
| s_server e : (forall k t x, e = PFrame k (FText t) -> In x (sy_links y) -> ln_pump x <> k) ->
    sstep y (SServer e) (mkSys (sy_page y) (serve (sy_sv y) e) (sy_links y))
| s_accept n : n < List.length (st_socks (sy_page y)) -> (forall x, In x (sy_links y) -> ln_sock x <> n) ->
    st_proxies (p_srv (sy_sv y)) <> 0 ->
    sstep y (SAccept n) (mkSys (sy_page y) (serve (sy_sv y) PUpgrade) (sy_links y ++ [mkLink n (List.length (p_socks (sy_sv y))) 0 0]))
| s_open n p x : In x (sy_links y) -> ln_sock x = n -> does (TOpen n) (sy_page y) p ->
    sstep y (SOpen n) (mkSys p (sy_sv y) (sy_links y))
| s_up l x so s t : nth_error (sy_links y) l = Some x ->
    nth_error (st_socks (sy_page y)) (ln_sock x) = Some so -> nth_error (so_sent so) (ln_up x) = Some (VStr t) ->
    nth_error (p_socks (sy_sv y)) (ln_pump x) = Some s -> sk_live s = true ->
    sstep y (SUp l) (mkSys (sy_page y) (serve (sy_sv y) (PFrame (ln_pump x) (FText t)))
                       (upd l (fun x => mkLink (ln_sock x) (ln_pump x) (Datatypes.S (ln_up x)) (ln_down x)) (sy_links y)))
| s_down l x so s t p : nth_error (sy_links y) l = Some x ->
    nth_error (p_socks (sy_sv y)) (ln_pump x) = Some s -> nth_error (sk_out s) (ln_down x) = Some t ->
    nth_error (st_socks (sy_page y)) (ln_sock x) = Some so -> so_state so = Client.Open ->
    does (TMessage (ln_sock x) t) (sy_page y) p ->
    sstep y (SDown l) (mkSys p (sy_sv y)
                         (upd l (fun x => mkLink (ln_sock x) (ln_pump x) (ln_up x) (Datatypes.S (ln_down x))) (sy_links y))).

Inductive sruns : system -> list sevent -> system -> Prop :=
| r_nil y : sruns y [] y
| r_step y e y1 es y2 : sstep y e y1 -> sruns y1 es y2 -> sruns y (e :: es) y2.

(** The page has loaded the program, the server has started with the backend [a]. *)
Definition started (P : list top) (scripts : list script) (a : list F) (y : system) : Prop :=
  (exists n, load (s_lit S) (s_num S) (s_other S) n P (st0 scripts) = Ok tt (sy_page y)) /\
  sy_sv y = pinit (A := A) a /\ sy_links y = [].
End System.
Arguments mkSys {T V F S}. Arguments sy_page {T V F S}. Arguments sy_sv {T V F S}. Arguments sy_links {T V F S}.
Arguments STask {T V F S}. Arguments SServer {T V F S}. Arguments SAccept {T V F S}. Arguments SOpen {T V F S}. Arguments SUp {T V F S}. Arguments SDown {T V F S}.
