(** Concrete runs: non-vacuity of the server theorems, and witnesses for refutations. *)
From Coq Require Import List Arith NArith Bool Lia.
From Verif Require Import Util Server ServerSpec ServerProofs ServerLemmas.
Import ListNotations.

(** A small backend: its value is the log of executed calls.  Json is a list of numbers;
    [[0; n]] calls method [n], [[1; n]] opens stream [n], anything else does not decode.
    Number 13 makes the handler panic, number 7 makes serializing the result fail. *)
Definition demo : app := mkApp (list N) (bool * N) (list N) N
  (fun v => match v with [0; n] => inl (false, n) | [1; n] => inl (true, n) | _ => inr 99 end)%N
  fst
  (fun log c => if N.eqb (snd c) 13 then None
                else Some (log ++ [snd c], if N.eqb (snd c) 7 then inr 77%N else inl [snd c; snd c])%N)
  (fun log c => if N.eqb (snd c) 13 then None else Some (log ++ [snd c])).

Definition dexec (id : N) (v : list N) : msg demo := inl (Exec (A := demo) id v).

Definition dmethod (id : N) (v : list N) : response demo := RMethod (A := demo) id v.
Definition dstream (id : N) (v : list N) : response demo := RStream (A := demo) id v.
Definition derror (id : option N) (v : N) : response demo := RError (A := demo) id v.

Definition ex_schedule : list (event demo) :=
  [ EvConnect; EvConnect;
    EvSend 0 (dexec 5 [0; 3])%N;           (* method 3 *)
    EvSend 1 (dexec 5 [1; 4])%N;           (* stream 4 *)
    EvRecv;
    EvSend 1 (inr (RError (A := demo) None 50%N));          (* malformed text *)
    EvSend 0 (dexec 6 [9])%N;              (* undecodable *)
    EvMethodDone; EvRecv;
    EvPoll 0; EvItem 0 (inl ([8]%N : Json demo)); EvYield 0;
    EvRecv; EvRecv;
    EvSend 0 (dexec 7 [0; 7])%N;           (* unserializable result *)
    EvRecv; EvMethodDone; EvPoll 0; EvItem 0 (inr (9%N : Err demo));
    EvSend 1 (inl (CancelStream 5%N));
    EvSend 0 (dexec 8 [0; 1])%N ].

Definition ex_state : state demo := run (init (A := demo) ([] : list N)) ex_schedule.

Example ex_state_received :
  received ex_state 0 = [(SrcLoop, dmethod 5 [3; 3]); (SrcLoop, derror (Some 6%N) 99); (SrcLoop, derror (Some 7) 77)]%N /\
  received ex_state 1 = [(SrcTask 0, dstream 5 [8]); (SrcLoop, derror None 50); (SrcTask 0, derror (Some 5) 9)]%N /\
  st_app ex_state = [3; 4; 7]%N /\ length (st_queue ex_state) = 2.
Proof. vm_compute; repeat split. Qed.

(** C28: hypothesis met, answers non-empty. *)
Example ex_answered : rx_alive ex_state 0 = true /\
  map response_id (from_loop (received ex_state 0)) = [Some 5; Some 6; Some 7]%N.
Proof. vm_compute; auto. Qed.

(** C30: a stream with two items. *)
Example ex_stream : exists tk, nth_error (st_tasks ex_state) 0 = Some tk /\ length (tk_items tk) = 2 /\
  from_task 0 (received ex_state 1) = [dstream 5 [8]; derror (Some 5) 9]%N.
Proof. eexists; vm_compute; repeat split. Qed.

(** C31: a reachable state about to cancel a stream that is being polled. *)
Example ex_cancel : at_cancel ex_state 1 5%N /\
  exists tk, nth_error (st_tasks ex_state) 0 = Some tk /\ tk_id tk = 5%N /\ tk_stat tk = TPolling /\
  (forall t' tk', 0 < t' -> nth_error (st_tasks ex_state) t' = Some tk' -> tk_id tk' <> 5%N) /\
  stat_of (next ex_state EvRecv) 0 = Some TAborting.
Proof.
  split.
  - split; [reflexivity|]. eexists; vm_compute; reflexivity.
  - eexists; split; [vm_compute; reflexivity|]. repeat split.
    intros [|[|t']] tk' H E; [lia| |]; vm_compute in E; discriminate.
Qed.

(** C32: two clients, each with its own stream under id 0, as two generated clients do (every
    client counts its ids from 0).  Client 0 cancels: the stream of client 1 stops, the one of
    client 0 goes on for ever. *)
Definition shared_id_schedule : list (event demo) :=
  [ EvConnect; EvConnect; EvSend 0 (dexec 0 [1; 1])%N; EvSend 1 (dexec 0 [1; 2])%N; EvRecv; EvRecv;
    EvSend 0 (inl (CancelStream 0%N)) ].

Lemma shared_ids_refuted :
  exists (s : state demo) (t0 t1 : task demo),
    reachable (A := demo) ([] : list N) s /\ at_cancel s 0 0%N /\
    nth_error (st_tasks s) 0 = Some t0 /\ tk_conn t0 = 0 /\ tk_id t0 = 0%N /\
    nth_error (st_tasks s) 1 = Some t1 /\ tk_conn t1 = 1 /\ tk_id t1 = 0%N /\
    stat_of s 0 = Some TIdle /\ stat_of s 1 = Some TIdle /\
    stat_of (next s EvRecv) 1 = Some TAborted /\
    forall es, exists tk, nth_error (st_tasks (run (next s EvRecv) es)) 0 = Some tk /\ unaborted (tk_stat tk) = true.
Proof.
  exists (run (init (A := demo) ([] : list N)) shared_id_schedule). eexists; eexists.
  split; [eexists; reflexivity|].
  split; [split; [reflexivity|eexists; vm_compute; reflexivity]|].
  do 3 (split; [vm_compute; reflexivity|]). do 6 (split; [vm_compute; reflexivity|]).
  intros es. set (s1 := next _ EvRecv).
  assert (reachable (A := demo) ([] : list N) s1) as R.
  { exists (shared_id_schedule ++ [EvRecv]). vm_compute. reflexivity. }
  apply (orphan_forever es s1 0 (mkTask (A := demo) 0 0%N TIdle [])).
  - eapply sub_reachable; eauto.
  - vm_compute; reflexivity.
  - intros [id H]. vm_compute in H. discriminate.
  - reflexivity.
Qed.

(** C33: for every backend with at least one decodable method call, a client that goes away
    while its call is pending ends the server: the other client is refused from then on. *)
Lemma disconnect_refuted (A : app) (a : St A) v call :
  from_value A v = inl call -> is_stream A call = false ->
  let es := [EvConnect; EvConnect; EvSend 0 (inl (Exec 0%N v)); EvRecv; EvDropRx 0; EvMethodDone] in
  st_loop (run (init a) es) = LPanicked /\
  forall es' m cn, nth_error (st_conns (run (run (init a) es) es')) 1 = Some cn -> cn_tx cn = true ->
    snd (step (run (run (init a) es) es') (EvSend 1 m)) = OSent false.
Proof.
  intros Hv Hs es.
  assert (st_loop (run (init a) es) = LPanicked) as Hp.
  { unfold es, run, next; simpl. rewrite Hv; simpl. rewrite Hs; simpl.
    unfold method_done; simpl. destruct (run_method A a call) as [[? ?]|]; reflexivity. }
  split; auto. intros es' m cn Hc Ht.
  rewrite (send_after_death es' _ 1 m cn); auto. rewrite Hp; auto.
Qed.

(** C33, orderly schedules: the demo schedule extended by an orderly disconnect; and an
    application without panics exists. *)
Definition calm : app := mkApp (list N) N N N
  (fun v => if N.ltb v 10 then inl v else inr v) (fun c => N.ltb c 5) (fun l c => Some (l ++ [c], inl c)) (fun l c => Some (l ++ [c])).

Definition cexec (id v : N) : msg calm := inl (Exec (A := calm) id v).

Example calm_no_panics : no_panics calm.
Proof. split; intros; discriminate. Qed.

Definition calm_schedule : list (event calm) :=
  [EvConnect; EvConnect; EvSend 0 (cexec 1 7)%N; EvRecv; EvMethodDone; EvDropTx 0; EvDropRx 0; EvSend 1 (cexec 1 6)%N].

Example calm_orderly : orderly (init (A := calm) ([] : list N)) calm_schedule /\ st_loop (run (init (A := calm) ([] : list N)) calm_schedule) = LIdle.
Proof.
  split; [|vm_compute; reflexivity].
  unfold calm_schedule; cbn [orderly].
  repeat (split; [intros c E; try discriminate E|]); [|exact I].
  injection E as <-. split; [vm_compute; auto|split].
  - vm_compute; discriminate.
  - intros cn H; vm_compute in H; inversion H; reflexivity.
Qed.

(** C34 *)
Definition bad_schedule : list (event demo) :=
  [EvConnect; EvConnect; EvSend 0 (dexec 5 [1; 2])%N; EvRecv; EvSend 1 (dexec 6 [2; 2; 2])%N; EvSend 0 (dexec 7 [0; 2])%N].
Example ex_bad : let s := run (init (A := demo) ([] : list N)) bad_schedule in
  st_loop s = LIdle /\ (exists q, st_queue s = (1, (dexec 6 [2; 2; 2])%N) :: q) /\
  bad_input (A := demo) (dexec 6 [2; 2; 2])%N (derror (Some 6%N) 99%N).
Proof.
  split; [vm_compute; reflexivity|]. split; [eexists; vm_compute; reflexivity|].
  exists 99%N; split; reflexivity.
Qed.

(** C35: a crash with a registered running stream. *)
Definition crash_schedule : list (event demo) :=
  [EvConnect; EvSend 0 (dexec 5 [1; 2])%N; EvRecv; EvPoll 0; EvSend 0 (dexec 6 [1; 13])%N].
Example ex_crash : let s := run (init (A := demo) ([] : list N)) crash_schedule in
  alive (st_loop s) = true /\ alive (st_loop (next s EvRecv)) = false /\
  m_get 5%N (st_subs s) = Some 0 /\ stat_of s 0 = Some TPolling /\ stat_of (next s EvRecv) 0 = Some TAborting.
Proof. vm_compute; repeat split. Qed.

(** C36: finished streams stay in the map. *)
Definition leak_schedule : list (event demo) :=
  [EvConnect; EvSend 0 (dexec 5 [1; 2])%N; EvRecv; EvPoll 0; EvFinish 0; EvSend 0 (dexec 6 [1; 3])%N; EvRecv; EvPoll 1; EvFinish 1].
Example ex_leak : let s := run (init (A := demo) ([] : list N)) leak_schedule in
  alive (st_loop s) = true /\ no_cancels (st_sent s) /\ stat_of s 0 = Some TDone /\ stat_of s 1 = Some TDone /\
  map fst (st_subs s) = [6; 5]%N.
Proof. vm_compute; repeat split. Qed.

(** C37 *)
Definition queue_schedule : list (event calm) :=
  [EvConnect; EvConnect; EvSend 0 (cexec 1 7)%N; EvSend 1 (cexec 1 2)%N; EvSend 1 (cexec 2 12)%N].
Example ex_progress : let s := run (init (A := calm) ([] : list N)) queue_schedule in
  st_loop s = LIdle /\ length (st_queue s) = 3 /\ (forall c m, In (c, m) (st_queue s) -> rx_alive s c = true) /\
  map fst (received (run s (drain 3)) 0) = [SrcLoop] /\ map fst (received (run s (drain 3)) 1) = [SrcLoop].
Proof.
  split; [reflexivity|]. split; [reflexivity|]. split; [|vm_compute; auto].
  intros c m H. vm_compute in H. repeat destruct H as [H|H]; inversion H; reflexivity.
Qed.

(** C38 *)
Definition gone_schedule : list (event demo) :=
  [EvConnect; EvSend 0 (dexec 5 [1; 2])%N; EvRecv; EvPoll 0; EvItem 0 (inl ([1]%N : Json demo)); EvDropRx 0].
Example ex_gone : let s := run (init (A := demo) ([] : list N)) gone_schedule in
  0 < length (st_conns s) /\ rx_alive s 0 = false /\
  (exists tk, nth_error (st_tasks s) 0 = Some tk /\ tk_conn tk = 0 /\ polling (tk_stat tk) = true) /\
  stat_of (next s (EvItem 0 (inl ([2]%N : Json demo)))) 0 = Some TBroken /\ length (received s 0) = 1.
Proof.
  split; [vm_compute; lia|]. split; [reflexivity|]. split; [eexists; vm_compute; repeat split|]. vm_compute; auto.
Qed.
