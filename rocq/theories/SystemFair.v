(** A page and a server in an endless run: what waits for ever, what does not.  What C56_comes_to_an_end says. *)
From Coq Require Import List String Arith NArith Bool.
From Verif Require Import Util Js JsonText JsonTextSpec Registry Macro Server ServerSpec Wire WireSpec Pump E2E E2ESpec E2EText JsSem System SystemSpec.
From Verif Require Client.
Import ListNotations.
Local Open Scope list_scope.

Section SystemFair.
Context {T V F : Type} {S : setting T V F}.
Implicit Types (e : nat -> sevent S).

(** An endless run. *)
Definition endless (y : nat -> system S) e : Prop := forall i, sstep S (y i) (e i) (y (Datatypes.S i)).

(** The event happens again and again, unless it cannot happen again and again. *)
Definition again (y : nat -> system S) e (x : sevent S) : Prop := often (fun i => e i = x \/ forall y', ~ sstep S (y i) x y').

(** Socket [n] of the page is not closed, nor the websocket of the server it is linked to; the server goes on. *)
Definition connected (y : system S) (n : nat) : Prop :=
  (exists so, nth_error (st_socks (sy_page y)) n = Some so /\ (so_state so = Client.Connecting \/ so_state so = Client.Open)) /\
  Server.alive (st_loop (p_srv (sy_sv y))) = true /\
  forall x, In x (sy_links y) -> ln_sock x = n -> exists s, nth_error (p_socks (sy_sv y)) (ln_pump x) = Some s /\ sk_live s = true.

(** Nothing that concerns socket [n] waits for ever.  Nothing is said of what the page does once it has been told:
    a task goes on to its end. *)
Record fair_run (y : nat -> system S) e (n : nat) : Prop := {
  fr_open : exists i so, nth_error (st_socks (sy_page (y i))) n = Some so /\ so_state so = Client.Open;
  fr_net : forall i l x, nth_error (sy_links (y i)) l = Some x -> ln_sock x = n ->
    again y e (SUp l) /\ again y e (SDown l) /\ again y e (SServer (PTake (ln_pump x))) /\ again y e (SServer (PWrote (ln_pump x) true));
  fr_loop : again y e (SServer (PServer EvRecv));
  fr_done : again y e (SServer (PServer EvMethodDone))
}.
End SystemFair.
