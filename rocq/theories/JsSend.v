(** [open_and_send] of the client.  Proof side. *)
From Coq Require Import List String Ascii Bool Arith NArith ZArith Lia.
From Verif Require Import Util Js JsonText TsProgram FileProofs JsSem JsRun JsFun.
From Verif Require Client.
Import ListNotations.
Local Open Scope string_scope.
Local Open Scope list_scope.
Section Funs.
Context (lit : num -> jstr) (num : jstr -> num) (other : jsval -> N -> bool).
Local Notation call := (call lit num other).

(** ** Sending *)
Definition push (k : nat) (v : val) (sk : list sock) : list sock :=
  upd k (fun so => mkSock (so_state so) (so_sent so ++ [v]) (so_lost so) (so_on so)) sk.
Definition ready_so (so : val) (sk : list sock) (k : nat) : Prop :=
  exists x, so = VSock k /\ nth_error sk k = Some x /\ so_state x = Client.Open.
Definition busy_so (so : val) (sk : list sock) : Prop :=
  so = VUndef \/ exists k x, so = VSock k /\ nth_error sk k = Some x /\ so_state x <> Client.Open.
Definition value_frame (t : val) : frame := [("value", (true, Some t))].

(** What is different afterwards; lists of frames, promises and jobs get longer. *)
Record outcome := mkOut {
  o_so : val; o_op : val; o_th : val; o_rest : list frame; o_fr : nat; o_pr : list prom; o_sk : list sock;
  o_tm : list (option (val * val)); o_jb : list job
}.
Definition later (i f p : nat) : list prom :=
  [mkProm (PPending [mkRe (HFun (f_later i f)) HNone (Some p)]) true].
Inductive send_spec (t so op th : val) (r fr p : nat) (sk : list sock) (tm : list (option (val * val))) : outcome -> Prop :=
| SNow k g : ready_so so sk k ->
    send_spec t so op th r fr p sk tm (mkOut so op th g fr [] (push k t sk) tm [])
| SOld q g f : busy_so so sk -> op = VProm q -> nth_error g f = Some (value_frame t) ->
    send_spec t so op th r fr p sk tm
      (mkOut so op VUndef g (1 + fr)
         [mkProm (PPending [mkRe (HFun (f_later fr (2 + (r + f)))) HNone (Some (p + 1))]) true; mkProm (PPending []) false]
         sk (clear th tm) [JThen q p])
| SNew g f f' : busy_so so sk -> op = VUndef -> nth_error g f = Some (value_frame t) ->
    nth_error g f' = Some (open_frame (p + 1)) ->
    send_spec t so op th r fr p sk tm
      (mkOut (VSock (List.length sk)) (VProm (p + 1)) VUndef g (6 + fr)
         [mkProm (PPending [mkRe (HFun (f_later (5 + fr) (2 + (r + f)))) HNone (Some (p + 2))]) true; mkProm (PPending []) false; mkProm (PPending []) false]
         (sk ++ [mkSock Client.Connecting [] [] (handlers fr (2 + (r + f')))]) (clear th tm) [JThen (p + 1) p]).

Definition good_op (op : val) (pr : list prom) : Prop := op = VUndef \/ exists q, op = VProm q /\ q < List.length pr.
Lemma so_cases so sk : good_so so sk -> (exists k, ready_so so sk k) \/ busy_so so sk.
Proof.
  intros [->|(k & x & -> & Hx)]; [right; now left|].
  destruct (so_state x) eqn:E; [right; right; exists k, x; rewrite E; repeat split; assumption || discriminate | left; exists k, x; repeat split; assumption |
    right; right; exists k, x; rewrite E; repeat split; assumption || discriminate..].
Qed.
Lemma not_open st : st <> Client.Open -> Z.eqb (ready_code st) 1 = false.
Proof. now destruct st. Qed.

Lemma send_ok id iv so op th cnt rest fr pr sk su tm jb us t : good_th th -> good_so so sk -> good_op op pr ->
  exists o, send_spec t so op th (List.length rest) fr (List.length pr) sk tm o /\
  forall n, call (60 + n) v_send [t] (St id iv so op th cnt rest fr pr sk su tm jb us) =
  Ok VUndef (St id iv (o_so o) (o_op o) (o_th o) cnt (rest ++ o_rest o) (o_fr o) (pr ++ o_pr o) (o_sk o) su (o_tm o) (jb ++ o_jb o) us).
Proof.
  intros H1 H2 H3. destruct (so_cases _ _ H2) as [(k & x & -> & Hx & Ex)|Hb].
  - eexists. split; [eapply (SNow _ _ _ _ _ _ _ _ _ k [value_frame t]); exists x; repeat split; assumption|]. intros n. cbn [o_so o_op o_th o_rest o_fr o_pr o_sk o_tm o_jb].
    rewrite !app_nil_r. start. unfold v_send. js. rewrite Ex. cbn [ready_code Z.eqb Pos.eqb negb]. all: js. rewrite Ex. all: js. reflexivity.
  - destruct H3 as [->|(q & -> & Hq)].
    + exists (mkOut (VSock (List.length sk)) (VProm (List.length pr + 1)) VUndef [value_frame t; open_frame (List.length pr + 1)] (6 + fr)
         [mkProm (PPending [mkRe (HFun (f_later (5 + fr) (2 + (List.length rest + 0)))) HNone (Some (List.length pr + 2))]) true; mkProm (PPending []) false; mkProm (PPending []) false]
         (sk ++ [mkSock Client.Connecting [] [] (handlers fr (2 + (List.length rest + 1)))]) (clear th tm) [JThen (List.length pr + 1) (List.length pr)]).
      split; [apply (SNew _ _ _ _ _ _ _ _ _ _ 0 1); [exact Hb | reflexivity..]|].
      intros n. cbn [o_so o_op o_th o_rest o_fr o_pr o_sk o_tm o_jb]. rewrite Nat.add_0_r.
      destruct Hb as [->|(k & x & -> & Hx & Ex)]; start; unfold v_send.
      * js. use open_new. all: js. reflexivity.
      * js. rewrite not_open by exact Ex. cbn [negb]. all: js. use open_new. all: js. reflexivity.
    + exists (mkOut so (VProm q) VUndef [value_frame t] (1 + fr)
         [mkProm (PPending [mkRe (HFun (f_later fr (2 + (List.length rest + 0)))) HNone (Some (List.length pr + 1))]) true; mkProm (PPending []) false]
         sk (clear th tm) [JThen q (List.length pr)]).
      split; [apply (SOld _ _ _ _ _ _ _ _ _ _ _ 0); [exact Hb | reflexivity..]|].
      intros n. cbn [o_so o_op o_th o_rest o_fr o_pr o_sk o_tm o_jb]. rewrite Nat.add_0_r.
      destruct Hb as [->|(k & x & -> & Hx & Ex)]; start; unfold v_send.
      * js. use open_old. all: js. reflexivity.
      * js. rewrite not_open by exact Ex. cbn [negb]. all: js. use open_old. all: js. reflexivity.
Qed.
End Funs.
