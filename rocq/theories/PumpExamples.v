(** A run of the websocket handler. *)
From Coq Require Import List Arith NArith Bool.
From Verif Require Import Util Server ServerSpec ServerExamples Pump PumpSpec PumpProofs.
Import ListNotations.

(** Texts are lists of numbers: the id, then the value. *)
Definition dec (t : list N) : msg demo :=
  match t with id :: v => dexec id v | [] => inr (RError (A := demo) None 50%N) end.
Definition enc (r : response demo) : list N :=
  match r with
  | RMethod id d => 1 :: id :: d
  | RStream id d => 2 :: id :: d
  | RError id e => [3; match id with Some n => n | None => 0 end; e]
  end%N.

Definition run0 (es : list (pevent demo (list N))) : pstate demo (list N) :=
  prun dec enc (pinit (A := demo) ([] : list N)) es.

Definition busy : list (pevent demo (list N)) :=
  [ PUpgrade; PUpgrade;
    PFrame 0 (FText [5; 0; 3]); PFrame 0 FOther; PFrame 1 (FText []); PFrame 0 (FText [6; 9]);
    PServer EvRecv; PServer EvMethodDone; PServer EvRecv; PServer EvRecv;
    PTake 0; PFrame 0 (FText [7; 0; 4]); PWrote 0 true; PTake 0 ]%N.

(** Two texts in, one response out, one being written. *)
Example busy_state :
  nth_error (p_socks (run0 busy)) 0 =
    Some (mkSock 0 true (Some (derror (Some 6%N) 99)) [FText [5; 0; 3]; FOther; FText [6; 9]; FText [7; 0; 4]] [[1; 5; 3; 3]])%N /\
  sent_by 0 (st_sent (p_srv (run0 busy))) = [dexec 5 [0; 3]; dexec 6 [9]; dexec 7 [0; 4]]%N /\
  responses (p_srv (run0 busy)) 0 = [dmethod 5 [3; 3]; derror (Some 6) 99]%N /\
  responses (p_srv (run0 busy)) 1 = [derror None 50]%N.
Proof. vm_compute. repeat split. Qed.

(** C39 progress: the hypotheses on the second socket. *)
Example progress_met : exists s, nth_error (p_socks (run0 busy)) 1 = Some s /\ sk_live s = true /\ sk_hold s = None /\
  nth_error (responses (p_srv (run0 busy)) (sk_conn s)) (length (sk_out s)) = Some (derror None 50).
Proof. eexists. split; [vm_compute; reflexivity|]. vm_compute. repeat split. Qed.

(** The socket closes while a response is being written: that response is lost. *)
Example closing : exists s, nth_error (p_socks (run0 (busy ++ [PFrame 0 FEnd]))) 0 = Some s /\
  sk_live s = false /\ sk_out s = [[1; 5; 3; 3]]%N /\ sk_in s = [FText [5; 0; 3]; FOther; FText [6; 9]; FText [7; 0; 4]; FEnd]%N /\
  length (responses (p_srv (run0 busy)) 0) = 2.
Proof. eexists. split; [vm_compute; reflexivity|]. vm_compute. repeat split. Qed.

(** A handler panics; the next text is refused and closes the socket. *)
Definition dead : list (pevent demo (list N)) :=
  [ PUpgrade; PFrame 0 (FText [5; 0; 13]); PServer EvRecv; PServer EvMethodDone; PFrame 0 (FText [6; 0; 1]); PFrame 0 (FText [7; 0; 1]) ]%N.
Example refused_text : exists s, nth_error (p_socks (run0 dead)) 0 = Some s /\ sk_live s = false /\
  texts (sk_in s) = [[5; 0; 13]; [6; 0; 1]]%N /\ sent_by 0 (st_sent (p_srv (run0 dead))) = [dexec 5 [0; 13]]%N.
Proof. eexists. split; [vm_compute; reflexivity|]. vm_compute. repeat split. Qed.

(** A response being written when the socket closes is lost although it was taken: the texts written
    need not be all the responses taken. *)
Lemma taken_is_written_refuted : exists (p : pstate demo (list N)) s cn, preachable dec enc ([] : list N) p /\
  nth_error (p_socks p) 0 = Some s /\ nth_error (st_conns (p_srv p)) (sk_conn s) = Some cn /\
  length (sk_out s) < cn_read cn.
Proof.
  exists (run0 (busy ++ [PFrame 0 FEnd])). eexists. eexists. split; [exists (busy ++ [PFrame 0 FEnd]); reflexivity|].
  split; [vm_compute; reflexivity|]. split; [vm_compute; reflexivity|]. vm_compute. repeat constructor.
Qed.
