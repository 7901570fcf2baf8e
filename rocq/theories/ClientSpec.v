(** What the theorems on the websocket client say. *)
From Coq Require Import List Arith NArith Bool Sorted.
From Verif Require Import Util Client.
Import ListNotations.

Section ClientSpec.
Context {R text K D : Type} (enc : N -> R -> option text) (read : text -> option (K * D)) (same : K -> N -> bool).
Local Notation client := (client text K D).
Local Notation cevent := (cevent R text).

Definition creachable (c : client) : Prop := exists es, c = crun enc read same cinit es.

(** Fewer calls than a double can count. *)
Definition countable (c : client) : Prop := (N.of_nat (length (cl_calls c)) <= 2 ^ 53)%N.

(** Messages [from] .. [upto - 1]. *)
Definition between {X} (from upto : nat) (l : list X) : list X := firstn (upto - from) (skipn from l).

(** What a listener for [id] hears of a list of messages: the data of those with its id, in order.
    It may miss one in whose course a callback threw. *)
Inductive hears (id : N) : list (K * D * bool) -> list D -> Prop :=
| h_nil : hears id [] []
| h_hit k d ok l r : same k id = true -> hears id l r -> hears id ((k, d, ok) :: l) (d :: r)
| h_miss k d ok l r : same k id = false -> hears id l r -> hears id ((k, d, ok) :: l) r
| h_thrown k d l r : same k id = true -> hears id l r -> hears id ((k, d, false) :: l) r.

(** All texts given to sockets, by the id of their call: socket after socket, in order. *)
Definition sent_ids (c : client) : list N := flat_map (fun s => map fst (ws_sent s)) (cl_socks c).
Definition waiting_ids (c : client) : list N := map (fun w => fst (snd w)) (cl_waiting c).
Definition times (id : N) (l : list N) : nat := count_occ N.eq_dec l id.

(** A socket that connects or is connected. *)
Definition held (c : client) (n : nat) : Prop := state_of c n = Connecting \/ state_of c n = Open.

(** The texts given to socket [n]. *)
Definition sent_on (c : client) (n : nat) : list (N * text) :=
  match nth_error (cl_socks c) n with Some s => ws_sent s | None => [] end.
(** The texts that wait for socket [n] to open. *)
Definition waiting_on (c : client) (n : nat) : list (N * text) :=
  map snd (filter (fun w => Nat.eqb (fst w) n) (cl_waiting c)).

(** The entry of a request that is not settled. *)
Definition pending (c : client) (j : nat) (id : N) : Prop :=
  exists s, nth_error (cl_subs c) j = Some s /\ su_id s = id /\ su_req s = true /\ su_bad s = false /\
    su_live s = true /\ su_seen s = [].

(** Texts that say nothing to a listener for [id]. *)
Definition foreign_text (id : N) (t : text) : Prop :=
  match read t with Some (k, _) => same k id = false | None => True end.
Definition no_answer (id : N) (es : list cevent) : Prop :=
  forall n t, In (NMessage n t) es -> foreign_text id t.
(** The message being dealt with is not for [id]. *)
Definition not_now (id : N) (c : client) : Prop :=
  match cl_disp c with Some d => same (dp_key d) id = false | None => True end.

(** A socket closes. *)
Definition closes (c : client) (e : cevent) : Prop :=
  idle c = true /\
  ((exists n, e = NFail n /\ state_of c n <> Closed) \/
   (exists n, e = NClose n /\ (state_of c n = Open \/ state_of c n = Closing true))).

(** The delay before the attempt after [n] failed ones, in ms. *)
Definition backoff (n : nat) : N := nth n [100; 200; 1000]%N 3000%N.
End ClientSpec.
