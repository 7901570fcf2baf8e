(** Subscriptions and texts of the client.  Proof side. *)
From Coq Require Import List String Ascii Bool Arith NArith ZArith Lia.
From Verif Require Import Util Js JsonText Wire TsProgram FileProofs JsSem JsRun JsFun JsSend.
From Verif Require Client.
Import ListNotations.
Local Open Scope string_scope.
Local Open Scope list_scope.
Section Funs.
Context (lit : num -> jstr) (num : jstr -> num) (other : jsval -> N -> bool).
Local Notation call := (call lit num other).

Definition o_add (x : list frame) (o : outcome) : outcome :=
  mkOut (o_so o) (o_op o) (o_th o) (x ++ o_rest o) (o_fr o) (o_pr o) (o_sk o) (o_tm o) (o_jb o).
Lemma send_spec_more t so op th r fr p sk tm x o :
  send_spec t so op th (r + List.length x) fr p sk tm o -> send_spec t so op th r fr p sk tm (o_add x o).
Proof.
  intros H. inversion H; subst; unfold o_add; cbn [o_so o_op o_th o_rest o_fr o_pr o_sk o_tm o_jb]; rewrite <- ?Nat.add_assoc.
  - now constructor.
  - constructor; auto. now rewrite nth_at.
  - constructor; auto; now rewrite nth_at.
Qed.
Lemma csend_ok id iv so op th cnt rest fr pr sk su tm jb us t : good_th th -> good_so so sk -> good_op op pr ->
  exists o, send_spec t so op th (List.length rest) fr (List.length pr) sk tm o /\
  forall n, call (70 + n) v_csend [t] (St id iv so op th cnt rest fr pr sk su tm jb us) =
  Ok VUndef (St id iv (o_so o) (o_op o) (o_th o) cnt (rest ++ o_rest o) (o_fr o) (pr ++ o_pr o) (o_sk o) su (o_tm o) (jb ++ o_jb o) us).
Proof.
  intros H1 H2 H3. destruct (send_ok lit num other id iv so op th cnt (rest ++ [value_frame t]) fr pr sk su tm jb us t H1 H2 H3) as (o & Ho & E).
  exists (o_add [value_frame t] o). rewrite app_length in Ho. split; [now apply send_spec_more|]. intros n. start. unfold v_csend. js. use E. all: js.
  unfold o_add; cbn [o_so o_op o_th o_rest o_fr o_pr o_sk o_tm o_jb]. rewrite <- ?app_assoc. reflexivity.
Qed.

Definition sub_frame (v : val) : frame := [("subscription", (true, Some v))].
Lemma csub_ok n id iv so op th cnt rest fr pr sk su tm jb us i sc a ps b : existsb (same_fun i) su = false ->
  call (20 + n) v_csub [VClo i sc a ps b] (St id iv so op th cnt rest fr pr sk su tm jb us) =
  Ok (f_unsub fr (2 + List.length rest))
    (St id iv so op th cnt (rest ++ [sub_frame (VClo i sc a ps b)]) (1 + fr) pr sk (su ++ [Some (VClo i sc a ps b)]) tm jb us).
Proof.
  intros H. start. unfold v_csub. js. rewrite H. all: js. reflexivity.
Qed.

Definition remove (i : nat) (su : list (option val)) : list (option val) := map (fun e => if same_fun i e then None else e) su.
Lemma unsub_ok n id iv so op th cnt rest fr pr sk su tm jb us j f i sc a ps b : good_th th -> good_so so sk ->
  nth_error rest f = Some (sub_frame (VClo i sc a ps b)) ->
  call (40 + n) (f_unsub j (2 + f)) [] (St id iv so op th cnt rest fr pr sk su tm jb us) =
  Ok VUndef (if some_entry (remove i su) then St id iv so op th cnt rest fr pr sk (remove i su) tm jb us
             else St id iv VUndef op th cnt rest fr pr (shut so sk) (remove i su) (clear th tm) jb us).
Proof.
  intros H1 H2 H3. destruct (some_entry (remove i su)) eqn:E.
  - start. unfold f_unsub. js. change (map _ su) with (remove i su). rewrite some_entry_eq, E. cbn [negb]. all: js. reflexivity.
  - start. unfold f_unsub. js. change (map _ su) with (remove i su). rewrite some_entry_eq, E. cbn [negb]. all: js. use close_ok. all: js. reflexivity.
Qed.

Definition exec_arg (id : Z) (ns m : string) (l : list val) : val :=
  VObj [("req_id", VNum id); ("namespace", VStr (js ns)); ("method", VStr (js m)); ("args", VArr l)].
Lemma to_data_args args :
  (fix all (l : list val) := match l with
        | [] => Some []
        | v :: l => match to_data v, all l with Some d, Some ds => Some (d :: ds) | _, _ => None end
        end) (map VData args) = Some args.
Proof. induction args as [|a l IH]; [reflexivity|]. cbn [map to_data]. now rewrite IH. Qed.
Lemma to_data_exec id ns m args : to_data (VObj [("exec", VObj [("id", VNum (Z.of_N id)); ("method", VStr (js m)); ("namespace", VStr (js ns)); ("args", VArr (map VData args))])]) =
  Some (execute id ns m args).
Proof. cbn [to_data]. rewrite to_data_args. reflexivity. Qed.
Definition exec_frame (id : Z) (ns m : string) (l : list val) : frame :=
  [("req_id", (true, Some (VNum id))); ("method", (true, Some (VStr (js m)))); ("namespace", (true, Some (VStr (js ns)))); ("args", (true, Some (VArr l)))].
Definition exec_text (k : N) (ns m : string) (l : list val) (t : jstr) : Prop :=
  exists args j, l = map VData args /\ stringify (execute k ns m args) = Some j /\ t = print lit j.
Lemma execute_ok n z iv so op th cnt rest fr pr sk su tm jb us k ns m l t : exec_text k ns m l t ->
  call (30 + n) v_execute [exec_arg (Z.of_N k) ns m l] (St z iv so op th cnt rest fr pr sk su tm jb us) =
  Ok (VStr t) (St z iv so op th cnt (rest ++ [exec_frame (Z.of_N k) ns m l]) fr pr sk su tm jb us).
Proof.
  intros (args & j & Hl & Hj & Ht).
  assert (E : to_data (VObj [("exec", VObj [("id", VNum (Z.of_N k)); ("method", VStr (js m)); ("namespace", VStr (js ns)); ("args", VArr l)])]) =
    Some (execute k ns m args)) by (rewrite Hl; apply to_data_exec).
  start. unfold v_execute, exec_arg. js. rewrite E, Hj, <- Ht. all: js. reflexivity.
Qed.
End Funs.
