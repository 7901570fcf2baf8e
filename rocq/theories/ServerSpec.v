(** Specification of the rpc server: what its clients may rely on, as a sequential program
    over the list of requests.  Nothing here mentions queues, tasks or polling. *)
From Coq Require Import List Arith NArith Bool.
From Verif Require Import Util Server.
Import ListNotations.

Section Spec.
Context {A : app}.

(** Sequential server: backend value, responses given so far (with the addressed connection),
    streams started so far (connection, id), and for each id the stream (its number in order
    of starting) that a cancel of the id would stop. *)
Record seqst := mkSeq {
  q_app : St A;
  q_outs : list (nat * response A);
  q_starts : list (nat * N);
  q_cancel : N -> option nat
}.

Definition seq_init (a : St A) : seqst := mkSeq a [] [] (fun _ => None).

(** The effect of one message of one connection.  [None]: the user's handler panics. *)
Definition seq_step (q : seqst) (cm : nat * msg A) : option seqst :=
  match cm with
  | (c, inr err) =>                       (* malformed message: its error goes back *)
      Some (mkSeq (q_app q) (q_outs q ++ [(c, err)]) (q_starts q) (q_cancel q))
  | (c, inl (CancelStream id)) =>
      Some (mkSeq (q_app q) (q_outs q) (q_starts q)
                  (fun i => if N.eqb id i then None else q_cancel q i))
  | (c, inl (Exec id v)) =>
      match from_value A v with
      | inr e =>                          (* undecodable call: error with the call's id *)
          Some (mkSeq (q_app q) (q_outs q ++ [(c, RError (Some id) e)]) (q_starts q) (q_cancel q))
      | inl call =>
          if is_stream A call then
            match open_stream A (q_app q) call with
            | None => None
            | Some a =>
                Some (mkSeq a (q_outs q) (q_starts q ++ [(c, id)])
                            (fun i => if N.eqb id i then Some (length (q_starts q)) else q_cancel q i))
            end
          else
            match run_method A (q_app q) call with
            | None => None
            | Some (a, inl d) => Some (mkSeq a (q_outs q ++ [(c, RMethod id d)]) (q_starts q) (q_cancel q))
            | Some (a, inr e) => Some (mkSeq a (q_outs q ++ [(c, RError (Some id) e)]) (q_starts q) (q_cancel q))
            end
      end
  end.

Fixpoint seq_run (q : seqst) (l : list (nat * msg A)) : option seqst :=
  match l with
  | [] => Some q
  | m :: r => match seq_step q m with None => None | Some q' => seq_run q' r end
  end.

(** The responses of a sequential run addressed to connection [c]. *)
Definition outs_to (c : nat) (l : list (nat * response A)) : list (response A) :=
  map snd (filter (fun p => Nat.eqb (fst p) c) l).

(** What a connection received from the request loop / from stream task [t]. *)
Definition from_loop (l : list (src * response A)) : list (response A) :=
  map snd (filter (fun p => match fst p with SrcLoop => true | _ => false end) l).

Definition from_task (t : nat) (l : list (src * response A)) : list (response A) :=
  map snd (filter (fun p => match fst p with SrcTask u => Nat.eqb u t | _ => false end) l).

(** The stream response for one item of a stream started under [id]. *)
Definition item_response (id : N) (v : Json A + Err A) : response A :=
  match v with inl d => RStream id d | inr e => RError (Some id) e end.

(** The id a response carries. *)
Definition response_id (r : response A) : option N :=
  match r with RMethod id _ => Some id | RStream id _ => Some id | RError o _ => o end.

(** The request the loop is working on, if any. *)
Definition working_on (s : state A) : list (nat * N) :=
  match st_loop s with LBusy c id _ => [(c, id)] | _ => [] end.

(** What connection [c] has received (in its channel) in state [s]. *)
Definition received (s : state A) (c : nat) : list (src * response A) :=
  match nth_error (st_conns s) c with Some cn => cn_out cn | None => [] end.

(** States reachable from a fresh proxy by some schedule. *)
Definition reachable (a : St A) (s : state A) : Prop := exists es, s = run (init a) es.

Definition stat_of (s : state A) (t : nat) : option tstat :=
  option_map (@tk_stat A) (nth_error (st_tasks s) t).

Implicit Types (s : state A) (es : list (event A)).

Definition pending_of s (rest : list (nat * msg A)) : Prop :=
  match st_loop s with
  | LIdle => rest = st_queue s
  | LBusy c id call => exists v, from_value A v = inl call /\ is_stream A call = false /\
                                 rest = (c, inl (Exec id v)) :: st_queue s
  | _ => True
  end.

(** Requests that get exactly one direct answer: everything but stream calls and cancels. *)
Definition wants_answer (m : msg A) : bool :=
  match m with
  | inr _ => true
  | inl (CancelStream _) => false
  | inl (Exec _ v) => match from_value A v with inl call => negb (is_stream A call) | inr _ => true end
  end.

Definition answer_id (m : msg A) : option N :=
  match m with
  | inr err => response_id err
  | inl (CancelStream _) => None
  | inl (Exec id _) => Some id
  end.

Definition answer_ids_to (c : nat) (l : list (nat * msg A)) : list (option N) :=
  map (fun p => answer_id (snd p)) (filter (fun p => Nat.eqb (fst p) c && wants_answer (snd p)) l).

(** [r] answers [m]: same id, or [m] is the malformed message whose error is [r]. *)
Definition answers (m : msg A) (r : response A) : Prop :=
  match m with
  | inl (Exec id _) => response_id r = Some id
  | inl (CancelStream _) => False
  | inr err => r = err
  end.

Definition stopped (x : tstat) : bool := match x with TIdle | TPolling => false | _ => true end.

Definition frozen (x : tstat) : bool := match x with TAborted | TDone | TBroken => true | _ => false end.

(** [s] is about to process a cancel of [id] sent by [c]. *)
Definition at_cancel s (c : nat) (id : N) : Prop :=
  st_loop s = LIdle /\ exists q, st_queue s = (c, inl (CancelStream id)) :: q.

Definition unaborted (x : tstat) : bool := match x with TAborting | TAborted => false | _ => true end.

Definition handler_panics s (cm : nat * msg A) : Prop :=
  match snd cm with
  | inl (Exec _ v) => match from_value A v with
                      | inl call => is_stream A call = true /\ open_stream A (st_app s) call = None
                      | inr _ => False
                      end
  | _ => False
  end.

(** Orderly disconnect: a receiver is dropped only after its sender, when nothing sent by the
    connection is still waiting or being executed. *)
Definition quiet s (c : nat) : Prop :=
  (forall m, ~ In (c, m) (st_queue s)) /\ (forall id call, st_loop s <> LBusy c id call) /\
  (forall cn, nth_error (st_conns s) c = Some cn -> cn_tx cn = false).

Fixpoint orderly s es : Prop :=
  match es with
  | [] => True
  | e :: r => (forall c, e = EvDropRx c -> quiet s c) /\ orderly (next s e) r
  end.

Definition no_panics : Prop :=
  (forall st call, run_method A st call <> None) /\ (forall st call, open_stream A st call <> None).

Definition bad_input (m : msg A) (r : response A) : Prop :=
  match m with
  | inr err => r = err
  | inl (Exec id v) => exists er, from_value A v = inr er /\ r = RError (Some id) er
  | inl (CancelStream _) => False
  end.

Fixpoint no_cancels (l : list (nat * msg A)) : Prop :=
  match l with
  | [] => True
  | (_, inl (CancelStream _)) :: _ => False
  | _ :: r => no_cancels r
  end.

Fixpoint drain (n : nat) : list (event A) :=
  match n with O => [] | S k => EvRecv :: EvMethodDone :: drain k end.

End Spec.
Arguments seqst : clear implicits.
Arguments no_panics A : clear implicits.
