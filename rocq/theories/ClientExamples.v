(** Runs of the websocket client. *)
From Coq Require Import List Arith NArith Bool Sorted Lia.
From Verif Require Import Util Js Wire WireProofs Client ClientSpec ClientProofs ClientSockProofs.
Import ListNotations.

(** A call is a number, its text the id and the number; calls of 13 can not be stringified.  A
    message is an id and data. *)
Definition enc1 (id : N) (r : N) : option (N * N) := if N.eqb r 13 then None else Some (id, r).
Definition read1 (t : N * N) : option (N * N) := if N.eqb (fst t) 0 then None else Some t.
Definition cl1 := client (N * N) N N.
Definition ev1 := cevent N (N * N).
Definition run1 (es : list ev1) : cl1 := crun enc1 read1 N.eqb cinit es.
Lemma run1_reach es : creachable enc1 read1 N.eqb (run1 es).
Proof. now exists es. Qed.

(** Two requests and a stream with two listeners; the answers come out of order. *)
Definition busy_day : list ev1 :=
  [URequest 7; UStream 8; UListen 0; URequest 9; UListen 0; NOpen 0;
   NMessage 0 (2, 80); CVisit; CVisit; CVisit; CVisit; CVisit;
   NMessage 0 (3, 90); CVisit; CVisit; CVisit; CVisit; CVisit; CFinally 2;
   NMessage 0 (2, 81); CVisit; CVisit; UUnlisten 1; CVisit; CVisit; CVisit;
   NMessage 0 (0, 5);
   NMessage 0 (1, 70); CVisit; CVisit; CVisit; CVisit; CVisit; CFinally 0]%N.
Example busy_day_ids : cl_calls (run1 busy_day) = [1; 2; 3]%N. Proof. reflexivity. Qed.
Example busy_day_subs : map (fun s => (su_id s, su_seen s, su_live s)) (cl_subs (run1 busy_day)) =
  [(1, [70], false); (2, [80; 81], false); (3, [90], false); (2, [80; 81], true)]%N.
Proof. reflexivity. Qed.
Example busy_day_sent : sent_ids (run1 busy_day) = [1; 2; 3]%N. Proof. reflexivity. Qed.
Example busy_day_countable : countable (run1 busy_day).
Proof. unfold countable. vm_compute. discriminate. Qed.

(** The same call made again has a listener of its own. *)
Example two_requests : exists s s', nth_error (cl_subs (run1 busy_day)) 0 = Some s /\ nth_error (cl_subs (run1 busy_day)) 2 = Some s' /\
  su_req s = true /\ su_req s' = true /\ su_id s <> su_id s'.
Proof.
  exists (mkSub 1 true false false [70]%N 0 4), (mkSub 3 true false false [90]%N 0 2).
  split; [vm_compute; reflexivity|]. split; [vm_compute; reflexivity|]. split; [reflexivity|]. split; [reflexivity | discriminate].
Qed.

(** A message that a listener misses: a callback threw before. *)
Definition thrown : list ev1 := [UStream 8; UListen 0; UListen 0; NOpen 0; NMessage 0 (1, 80); CVisit; UThrow]%N.
Lemma a_listener_misses : exists s, nth_error (cl_subs (run1 thrown)) 1 = Some s /\ su_live s = true /\ su_id s = 1%N /\
  su_from s = 0 /\ su_seen s = [] /\ cl_disp (run1 thrown) = None /\ map fst (cl_msgs (run1 thrown)) = [(1, 80)]%N.
Proof.
  exists (mkSub 1 false false true [] 0 0). split; [vm_compute; reflexivity|]. repeat (split; [reflexivity|]).
  reflexivity.
Qed.

(** Connecting fails four times, then works. *)
Definition failing : list ev1 :=
  [URequest 7; NFail 0; TTimer; NFail 1; TTimer; NFail 2; TTimer; NFail 3; TTimer; NFail 4]%N.
Example failing_delays : cl_delays (run1 failing) = [100; 200; 1000; 3000; 3000]%N /\ cl_timer (run1 failing) = Some 3000%N.
Proof. split; reflexivity. Qed.
Example failing_closes : closes (run1 (removelast failing)) (NFail 4 : ev1) /\ subscribed (run1 (removelast failing)) = true.
Proof. split; [|reflexivity]. split; [reflexivity|]. left. exists 4. split; [reflexivity|]. vm_compute. discriminate. Qed.
Example works_again : cl_delays (run1 (failing ++ [TTimer; NOpen 5])) = [] /\ state_of (run1 (failing ++ [TTimer; NOpen 5])) 5 = Open.
Proof. split; reflexivity. Qed.

(** One request after the other: the second is made when the first has been answered. *)
Definition sequel : list ev1 :=
  [URequest 7; NOpen 0; NMessage 0 (1, 70); CVisit; CVisit; CFinally 0; URequest 8; NClose 0; NFail 1; TTimer; NOpen 2]%N.
Example sequel_first : map su_seen (cl_subs (run1 sequel)) = [[70]; []]%N. Proof. reflexivity. Qed.
Lemma sequel_lost : pending (run1 sequel) 1 2 /\ state_of (run1 sequel) 2 = Open /\
  forall es, countable (crun enc1 read1 N.eqb (run1 sequel) es) ->
    times 2 (sent_ids (crun enc1 read1 N.eqb (run1 sequel) es)) = 0.
Proof.
  split; [|split; [reflexivity|]].
  - exists (mkSub 2 true false true [] 1 0). vm_compute. repeat split.
  - intros es H. rewrite (lost_forever enc1 read1 N.eqb (run1 sequel) 2 es (run1_reach _) H); [reflexivity| |].
    + vm_compute. discriminate.
    + intros n t Hi. vm_compute in Hi. contradiction.
Qed.

(** What waits is sent when the socket opens. *)
Definition waits : list ev1 := [URequest 7; UStream 8; URequest 9; URequest 13]%N.
Example waits_on : waiting_on (run1 waits) 0 = [(1, (1, 7)); (2, (2, 8)); (3, (3, 9))]%N /\ state_of (run1 waits) 0 = Connecting.
Proof. split; reflexivity. Qed.
(** (the call that can not be stringified has to be settled before the next task) *)
Example waits_sent : sent_on (run1 (waits ++ [CFinally 2; NOpen 0])) 0 = [(1, (1, 7)); (2, (2, 8)); (3, (3, 9))]%N.
Proof. reflexivity. Qed.
Example waits_idle : idle (run1 (waits ++ [CFinally 2])) = true.
Proof. reflexivity. Qed.

(** The last listener leaves. *)
Definition leaving : list ev1 := [UStream 8%N; UListen 0; NOpen 0].
Example leaves : subscribed (run1 leaving) = true /\ subscribed (cnext enc1 read1 N.eqb (run1 leaving) (UUnlisten 0)) = false /\
  state_of (run1 leaving) 0 = Open.
Proof. repeat split. Qed.

(** A stream nobody listens to keeps its socket. *)
Lemma unheard_stream : let c := run1 [UStream 8%N; NOpen 0] in subscribed c = false /\ held c 0.
Proof. split; [reflexivity | right; reflexivity]. Qed.

(** A request that is in flight when its socket closes. *)
Definition in_flight : list ev1 := [URequest 7%N; NOpen 0].
Example in_flight_closes : closes (run1 in_flight) (NClose 0 : ev1) /\ pending (cnext enc1 read1 N.eqb (run1 in_flight) (NClose 0)) 0 1 /\
  sent_ids (run1 in_flight) = [1]%N.
Proof.
  split; [|split; [|reflexivity]].
  - split; [reflexivity|]. right. exists 0. split; [reflexivity | now left].
  - exists (mkSub 1 true false true [] 0 0). vm_compute. repeat split.
Qed.

Lemma error_foreign (same : jsval -> N -> bool) id id' m :
  foreign_text (fun t => on_message (jsparse t)) same id (write_response (WError id' m)).
Proof. unfold foreign_text. now rewrite error_ignored. Qed.

(** A request whose only answer is an error. *)
Example only_errors : no_answer read1 N.eqb 1%N [NMessage 0 (0, 5); NMessage 0 (2, 6); NClose 0 : ev1]%N.
Proof. intros n t [[= <- <-]|[[= <- <-]|[[=]|[]]]]; vm_compute; auto. Qed.
