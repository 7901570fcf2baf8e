(** What the theorems on client and server together say. *)
From Coq Require Import List Arith NArith Bool.
From Verif Require Import Util Server ServerSpec Pump Client ClientSpec E2E.
Import ListNotations.

Section E2ESpec.
Context {R text K D : Type} (enc : N -> R -> option text) (read : text -> option (K * D)) (same : K -> N -> bool).
Context {A : app} (decode : text -> msg A) (encode : response A -> text).
Local Notation world := (world text K D A).
Local Notation wevent := (wevent R text A).

Definition wreachable (a : St A) (w : world) : Prop := exists es, w = wrun enc read same decode encode (winit a) es.

(** Client and server understand each other: [val r] is the value the server gets of a call [r],
    [data d] is what the client makes of a result [d]. *)
Record understand (val : R -> Json A) (data : Json A -> D) : Prop := {
  un_request : forall id r t, (0 < id <= 2 ^ 53)%N -> enc id r = Some t ->
    decode t = inl (Exec id (val r)) \/ (exists e, decode t = inr (RError None e));
  un_method : forall id d, (id <= 2 ^ 53)%N -> exists k, read (encode (RMethod id d)) = Some (k, data d) /\
    forall id', (id' <= 2 ^ 53)%N -> same k id' = N.eqb id id';
  un_stream : forall id d, (id <= 2 ^ 53)%N -> exists k, read (encode (RStream id d)) = Some (k, data d) /\
    forall id', (id' <= 2 ^ 53)%N -> same k id' = N.eqb id id';
  un_error : forall o e, read (encode (RError o e)) = None
}.

(** The connections of the client at the server. *)
Definition is_ours (w : world) (c : nat) : Prop :=
  exists x s, In x (w_links w) /\ nth_error (p_socks (w_sv w)) (ln_pump x) = Some s /\ sk_conn s = c.

(** The [i]-th message the server has accepted is the client's call [id]. *)
Definition is_call (w : world) (id : N) (i : nat) : Prop :=
  exists c v, nth_error (st_sent (p_srv (w_sv w))) i = Some (c, inl (Exec id v)) /\ is_ours w c.

(** The handler of [call] has run: once, for this message, after exactly the messages before it and
    on the backend value those have left; its result is [res]. *)
Definition ran (a : St A) (w : world) (id : N) (v : Json A) (call : Call A) (res : Json A + Err A) : Prop :=
  exists c before after q a',
    st_sent (p_srv (w_sv w)) = before ++ (c, inl (Exec id v)) :: after /\
    is_ours w c /\
    seq_run (seq_init a) before = Some q /\
    run_method A (q_app q) call = Some (a', res) /\
    (exists q', seq_run (seq_init a) (before ++ [(c, inl (Exec id v))]) = Some q' /\ q_app q' = a') /\
    (forall i, is_call w id i -> i = length before).

(** The request with entry [j] is settled with [d]. *)
Definition settled (w : world) (j : nat) (d : D) : Prop :=
  exists s, nth_error (cl_subs (w_cl w)) j = Some s /\ su_req s = true /\ su_seen s = [d].

(** Socket [n] of the client and its link live. *)
Definition lives (w : world) (n : nat) : Prop :=
  held (w_cl w) n /\ alive (st_loop (p_srv (w_sv w))) = true /\
  forall x, In x (w_links w) -> ln_sock x = n ->
    exists s, nth_error (p_socks (w_sv w)) (ln_pump x) = Some s /\ sk_live s = true.

(** Again and again. *)
Definition often (P : nat -> Prop) : Prop := forall i, exists j, i <= j /\ P j.

(** A schedule from [w] in which nothing that concerns socket [n] waits for ever. *)
Record fair (w : world) (sigma : nat -> wevent) (n : nat) : Prop := {
  fa_open : exists i, state_of (w_cl (at_time enc read same decode encode w sigma i)) n = Open;
  fa_net : forall i l x, nth_error (w_links (at_time enc read same decode encode w sigma i)) l = Some x -> ln_sock x = n ->
    often (fun j => sigma j = WUp l) /\
    often (fun j => sigma j = WDown l /\ idle (w_cl (at_time enc read same decode encode w sigma j)) = true) /\
    often (fun j => sigma j = WServer (PTake (ln_pump x))) /\
    often (fun j => sigma j = WServer (PWrote (ln_pump x) true));
  fa_loop : often (fun j => sigma j = WServer (PServer EvRecv));
  fa_done : often (fun j => sigma j = WServer (PServer EvMethodDone));
  fa_visit : often (fun j => sigma j = WClient CVisit)
}.
End E2ESpec.
