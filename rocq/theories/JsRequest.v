From Coq Require Import List String Ascii Bool Arith NArith ZArith Lia.
From Verif Require Import Util Js JsonText Wire TsProgram FileProofs JsSem JsRun JsFun JsSend JsCalls.
From Verif Require Client.
Import ListNotations.
Local Open Scope string_scope.
Local Open Scope list_scope.
Section Funs.
Context (lit : num -> jstr) (num : jstr -> num) (other : jsval -> N -> bool).
Local Notation call := (call lit num other).

(** ** subscribe *)
Definition stream_frame (i : nat) (k : N) (ns m : string) (l : list val) (f : nat) : frame :=
  [("namespace", (true, Some (VStr (js ns)))); ("method", (true, Some (VStr (js m)))); ("args", (true, Some (VArr l)));
   ("id", (true, Some (VNum (Z.of_N k)))); ("req", (true, Some (exec_arg (Z.of_N k) ns m l)));
   ("store", (true, Some (VObj [("subscribe", f_listen i f); ("close", f_noclose (1 + i) f)])))].
Lemma subscribe_ok id iv so op th cnt rest fr pr sk su tm jb us k ns m l t : good_th th -> good_so so sk -> good_op op pr ->
  next id = Z.of_N k -> exec_text lit k ns m l t ->
  exists o f, send_spec (VStr t) so op th (List.length rest) (2 + fr) (List.length pr) sk tm o /\
  nth_error (rest ++ o_rest o) f = Some (stream_frame fr k ns m l (2 + f)) /\
  forall n, call (100 + n) v_subscribe [VStr (js ns); VStr (js m); VArr l] (St id iv so op th cnt rest fr pr sk su tm jb us) =
  Ok (VObj [("subscribe", f_listen fr (2 + f)); ("close", f_noclose (1 + fr) (2 + f))])
     (St (Z.of_N k) iv (o_so o) (o_op o) (o_th o) cnt (rest ++ o_rest o) (o_fr o) (pr ++ o_pr o) (o_sk o) su (o_tm o) (jb ++ o_jb o) us).
Proof.
  intros H1 H2 H3 Hn Hj.
  destruct (csend_ok lit num other (Z.of_N k) iv so op th cnt (rest ++ [stream_frame fr k ns m l (2 + List.length rest); exec_frame (Z.of_N k) ns m l]) (2 + fr) pr sk su tm jb us
     (VStr t) H1 H2 H3) as (o & Ho & E).
  exists (o_add [stream_frame fr k ns m l (2 + List.length rest); exec_frame (Z.of_N k) ns m l] o), (List.length rest).
  rewrite app_length in Ho. split; [now apply send_spec_more|]. split; [cbn [o_add o_rest]; now rewrite nth_at0|]. intros n.
  start. unfold v_subscribe. js. change (round_int (id + 1)) with (next id). rewrite Hn, app_nil_r.
  use execute_ok. all: js. use E. all: js. unfold o_add. cbn [o_so o_op o_th o_rest o_fr o_pr o_sk o_tm o_jb]. rewrite <- ?app_assoc. reflexivity.
Qed.

Definition cb_frame (u : val) : frame := [("cb", (true, Some u))].
Lemma listen_ok n id iv so op th cnt rest fr pr sk su tm jb us i f u i' k ns m l : existsb (same_fun fr) su = false ->
  nth_error rest f = Some (stream_frame i' k ns m l (2 + f)) ->
  call (40 + n) (f_listen i (2 + f)) [u] (St id iv so op th cnt rest fr pr sk su tm jb us) =
  Ok (f_unsub (1 + fr) (2 + (List.length rest + 1)))
     (St id iv so op th cnt (rest ++ [cb_frame u; sub_frame (f_hear fr (2 + List.length rest) (2 + f))]) (2 + fr) pr sk
        (su ++ [Some (f_hear fr (2 + List.length rest) (2 + f))]) tm jb us).
Proof.
  intros H Hf. start. unfold f_listen. js. use csub_ok. all: js. rewrite ?app_length. reflexivity.
Qed.
Lemma noclose_ok n id iv so op th cnt rest fr pr sk su tm jb us i f :
  call (10 + n) (f_noclose i f) [] (St id iv so op th cnt rest fr pr sk su tm jb us) = Ok VUndef (St id iv so op th cnt rest fr pr sk su tm jb us).
Proof. start. unfold f_noclose. js. reflexivity. Qed.

(** ** request *)
Definition request_frame (ns m : string) (l : list val) (un : val) (p : nat) : frame :=
  [("namespace", (true, Some (VStr (js ns)))); ("method", (true, Some (VStr (js m)))); ("args", (true, Some (VArr l)));
   ("unsubscribe", (true, Some un)); ("promise", (true, Some (VProm p)))].
Definition executor_frame (p : nat) (k : N) (ns m : string) (l : list val) : frame :=
  [("resolve", (true, Some (VResolve p))); ("_", (true, Some (VReject p))); ("id", (true, Some (VNum (Z.of_N k))));
   ("request", (true, Some (exec_arg (Z.of_N k) ns m l))); ("start", (true, Some VNow))].
Definition s_request (p0 p2 p3 : nat) (same fin : val) (mid : list prom) : list prom :=
  [mkProm (PPending []) true; mkProm (PPending [mkRe (HFun same) HNone (Some p2)]) false] ++ mid ++
  [mkProm (PPending [mkRe (HFinally fin) (HFinally fin) (Some p3)]) false; mkProm (PPending []) false].


Definition request_frames (fr r p : nat) (k : N) (ns m : string) (l : list val) (x : option val) : list frame :=
  [[("namespace", (true, Some (VStr (js ns)))); ("method", (true, Some (VStr (js m)))); ("args", (true, Some (VArr l)));
    ("unsubscribe", (true, Some (f_unsub (2 + fr) (2 + (r + 2))))); ("promise", (true, x))];
   executor_frame (p + 1) k ns m l; sub_frame (f_answer (1 + fr) (2 + (r + 1)) (2 + r)); exec_frame (Z.of_N k) ns m l].
Lemma request_ok id iv so op th cnt rest fr pr sk su tm jb us k ns m l t r p : good_th th -> good_so so sk -> good_op op pr ->
  (forall i, fr <= i -> existsb (same_fun i) su = false) ->
  next id = Z.of_N k -> exec_text lit k ns m l t ->
  List.length rest = r -> List.length pr = p ->
  exists o g,
  send_spec (VStr t) so op th r (3 + fr) (p + 2) sk tm (o_add (request_frames fr r p k ns m l (Some (VProm (p + 1)))) o) /\ g = (o_add (request_frames fr r p k ns m l (Some (VProm (p + 1)))) o) /\
  forall n, call (120 + n) v_request [VStr (js ns); VStr (js m); VArr l] (St id iv so op th cnt rest fr pr sk su tm jb us) =
  Ok (VProm p)
     (St (Z.of_N k) iv (o_so o) (o_op o) (o_th o) cnt (rest ++ o_rest g) (2 + o_fr o)
       (pr ++ s_request p (p + S (S (List.length (o_pr o)))) (p + S (S (S (List.length (o_pr o))))) (f_same (o_fr o) (2 + r)) (f_finally (1 + o_fr o) (2 + r)) (o_pr o)) (o_sk o)
       (su ++ [Some (f_answer (1 + fr) (2 + (r + 1)) (2 + r))]) (o_tm o) (jb ++ o_jb o ++ [JThen (p + S (S (S (List.length (o_pr o))))) p]) us).
Proof.
  intros H1 H2 H3 Hf Hn Hj Hr Hp.
  assert (H3' : good_op op (pr ++ [mkProm (PPending []) true; mkProm (PPending []) false])).
  { destruct H3 as [->|(q & -> & Hq)]; [now left|]. right. exists q. split; [reflexivity|]. rewrite app_length. cbn. lia. }
  destruct (csend_ok lit num other (Z.of_N k) iv so op th cnt (rest ++ request_frames fr r p k ns m l None) (3 + fr) (pr ++ [mkProm (PPending []) true; mkProm (PPending []) false]) sk
     (su ++ [Some (f_answer (1 + fr) (2 + (r + 1)) (2 + r))]) tm jb us (VStr t) H1 H2 H3') as (o & Ho & E).
  exists o. eexists. rewrite !app_length, Hr, Hp in Ho.
  split; [now apply send_spec_more|]. split; [reflexivity|].
  intros n. subst r p. start. unfold v_request. js. change (round_int (id + 1)) with (next id). rewrite Hn, app_nil_r. 
  eapply csub_ok; apply Hf; lia. all: js. use execute_ok. all: js. rewrite !app_length. cbn [List.length]. use E. all: js.
  rewrite upd_at0, !Nat.add_1_r, <- app_assoc. reflexivity.
Qed.
End Funs.
