(** A client and a server, connected: Client.v on top of Pump.v.

    Each socket of the client is linked to a websocket of the server once the server has accepted it
    (axum.rs:30-36).  A link carries texts in order in both directions; what is on its way is lost
    when an end is closed.  All other sockets of the server are those of other clients: anything
    may arrive on them.  The events of client and server are those of Client.v and Pump.v; which
    events happen, and when, is up to the schedule. *)
From Coq Require Import List Arith NArith Bool.
From Verif Require Import Util Server Pump Client ClientSpec.
Import ListNotations.

Section E2E.
Context {R text K D : Type} (enc : N -> R -> option text) (read : text -> option (K * D)) (same : K -> N -> bool).
Context {A : app} (decode : text -> msg A) (encode : response A -> text).

(** [ln_sock]: the socket of the client, [ln_pump]: that of the server; [ln_up], [ln_down]: how many
    texts have arrived. *)
Record link := mkLink { ln_sock : nat; ln_pump : nat; ln_up : nat; ln_down : nat }.
Record world := mkWorld { w_cl : client text K D; w_sv : pstate A text; w_links : list link }.

Inductive wevent :=
| WClient (e : cevent R text)        (* the client but for [NOpen] and [NMessage] *)
| WServer (e : pevent A text)        (* the server but for texts on links *)
| WAccept (n : nat)                  (* the server accepts socket [n] of the client *)
| WOpen (n : nat)                    (* the client learns of it *)
| WUp (l : nat)                      (* link [l] delivers a text to the server *)
| WDown (l : nat).                   (* link [l] delivers a text to the client *)

Definition linked_sock (w : world) (n : nat) : bool := existsb (fun x => Nat.eqb (ln_sock x) n) (w_links w).
Definition linked_pump (w : world) (k : nat) : bool := existsb (fun x => Nat.eqb (ln_pump x) k) (w_links w).

Definition wnext (w : world) (e : wevent) : world :=
  match e with
  | WClient (NOpen _) | WClient (NMessage _ _) => w
  | WClient e => mkWorld (cnext enc read same (w_cl w) e) (w_sv w) (w_links w)
  | WServer (PFrame k (FText t)) =>
      if linked_pump w k then w
      else mkWorld (w_cl w) (pnext decode encode (w_sv w) (PFrame k (FText t))) (w_links w)
  | WServer e => mkWorld (w_cl w) (pnext decode encode (w_sv w) e) (w_links w)
  | WAccept n =>
      if Nat.ltb n (length (cl_socks (w_cl w))) && negb (linked_sock w n) && negb (Nat.eqb (st_proxies (p_srv (w_sv w))) 0)
      then mkWorld (w_cl w) (pnext decode encode (w_sv w) PUpgrade)
                   (w_links w ++ [mkLink n (length (p_socks (w_sv w))) 0 0])
      else w
  | WOpen n =>
      if linked_sock w n
      then mkWorld (cnext enc read same (w_cl w) (NOpen n)) (w_sv w) (w_links w)
      else w
  | WUp l =>
      match nth_error (w_links w) l with
      | Some x =>
          match nth_error (sent_on (w_cl w) (ln_sock x)) (ln_up x), nth_error (p_socks (w_sv w)) (ln_pump x) with
          | Some (_, t), Some s =>
              if sk_live s
              then mkWorld (w_cl w) (pnext decode encode (w_sv w) (PFrame (ln_pump x) (FText t)))
                           (upd l (fun x => mkLink (ln_sock x) (ln_pump x) (S (ln_up x)) (ln_down x)) (w_links w))
              else w
          | _, _ => w
          end
      | None => w
      end
  | WDown l =>
      match nth_error (w_links w) l with
      | Some x =>
          match nth_error (p_socks (w_sv w)) (ln_pump x) with
          | Some s =>
              match nth_error (sk_out s) (ln_down x), idle (w_cl w), state_of (w_cl w) (ln_sock x) with
              | Some t, true, Open =>
                  mkWorld (cnext enc read same (w_cl w) (NMessage (ln_sock x) t)) (w_sv w)
                          (upd l (fun x => mkLink (ln_sock x) (ln_pump x) (ln_up x) (S (ln_down x))) (w_links w))
              | _, _, _ => w
              end
          | None => w
          end
      | None => w
      end
  end.

Definition wrun (w : world) (es : list wevent) : world := fold_left wnext es w.
Definition winit (a : St A) : world := mkWorld cinit (pinit a) [].

(** Endless schedules. *)
Fixpoint at_time (w : world) (sigma : nat -> wevent) (i : nat) : world :=
  match i with O => w | S i => wnext (at_time w sigma i) (sigma i) end.
End E2E.
Arguments world text K D A : clear implicits.
Arguments wevent R text A : clear implicits.
