(** The callbacks of the client.  Proof side. *)
From Coq Require Import List String Ascii Bool Arith NArith ZArith Lia.
From Verif Require Import Util Js JsonText Wire TsProgram FileProofs JsSem JsRun JsFun JsSend JsCalls JsRequest.
From Verif Require Client.
Import ListNotations.
Local Open Scope string_scope.
Local Open Scope list_scope.
Section Funs.
Context (lit : num -> jstr) (num : jstr -> num) (other : jsval -> N -> bool).
Local Notation call := (call lit num other).
Local Notation user := (user lit num other).
Local Notation for_each := (for_each lit num other).

Lemma upd_upd {X} n (f g : X -> X) l : upd n f (upd n g l) = upd n (fun x => f (g x)) l.
Proof. revert n. induction l as [|x l IH]; intros [|n]; cbn; [reflexivity..|]. now rewrite IH. Qed.
Definition same_key (k : jsval) (id : N) : bool := match k with JsNum (NInt z) => Z.eqb z (Z.of_N id) | _ => other k id end.
Lemma eq_key k id : match k with JsNum (NInt x) => Z.eqb x (Z.of_N id) | _ => other k (Z.to_N (Z.of_N id)) end = same_key k id.
Proof. unfold same_key. now rewrite N2Z.id. Qed.
Definition pair_frame (k d : jsval) : frame := [("res_id", (true, Some (VData k))); ("data", (true, Some (VData d)))].
Definition heard (j : nat) (d : jsval) (us : users) : users := us_set_heard (us_heard us ++ [(j, [VData d])]) us.

Lemma call_user m j l s : call (S m) (VUser j) l s = user m (set_user (us_set_heard (us_heard (st_user s) ++ [(j, l)]) (st_user s)) s).
Proof. reflexivity. Qed.

Ltac ends r := destruct r; cbv beta iota delta [then_ok ret]; rewrite ?x_nil; cbv beta iota delta [then_ok ret]; rewrite ?x_nil; reflexivity.

Lemma hear_miss n id iv so op th cnt rest fr pr sk su tm jb us i h f u i' k0 ns m l k d :
  nth_error rest h = Some (cb_frame u) -> nth_error rest f = Some (stream_frame i' k0 ns m l (2 + f)) -> same_key k k0 = false ->
  call (20 + n) (f_hear i (2 + h) (2 + f)) [VArr [VData k; VData d]] (St id iv so op th cnt rest fr pr sk su tm jb us) =
  Ok VUndef (St id iv so op th cnt (rest ++ [pair_frame k d]) fr pr sk su tm jb us).
Proof.
  intros H1 H2 E. start. unfold f_hear. js. rewrite eq_key, E. all: js. reflexivity.
Qed.
Lemma hear_hit n id iv so op th cnt rest fr pr sk su tm jb us i h f j i' k0 ns m l k d r :
  nth_error rest h = Some (cb_frame (VUser j)) -> nth_error rest f = Some (stream_frame i' k0 ns m l (2 + f)) -> same_key k k0 = true ->
  user (13 + n) (St id iv so op th cnt (rest ++ [pair_frame k d]) fr pr sk su tm jb (heard j d us)) = r ->
  call (20 + n) (f_hear i (2 + h) (2 + f)) [VArr [VData k; VData d]] (St id iv so op th cnt rest fr pr sk su tm jb us) =
  then_ok r (fun _ => ret VUndef).
Proof.
  intros H1 H2 E H. start. unfold f_hear. js. rewrite eq_key, E. all: js. rewrite call_user; exact H. all: js. reflexivity. reflexivity. ends r.
Qed.

Lemma answer_miss n id iv so op th cnt rest fr pr sk su tm jb us i h f p k0 ns m l k d :
  nth_error rest h = Some (executor_frame p k0 ns m l) -> same_key k k0 = false ->
  call (20 + n) (f_answer i (2 + h) (2 + f)) [VArr [VData k; VData d]] (St id iv so op th cnt rest fr pr sk su tm jb us) =
  Ok VUndef (St id iv so op th cnt (rest ++ [pair_frame k d]) fr pr sk su tm jb us).
Proof.
  intros H1 E. start. unfold f_answer. js. rewrite eq_key, E. all: js. reflexivity.
Qed.
Lemma answer_hit n id iv so op th cnt rest fr pr sk su tm jb us i h f p k0 ns m l k d rs a b c p2 :
  nth_error rest h = Some (executor_frame p k0 ns m l) -> nth_error rest f = Some (request_frame a b c rs p2) -> same_key k k0 = true ->
  forall r, nth_error pr p = Some (mkProm (PPending r) false) ->
  call (30 + n) (f_answer i (2 + h) (2 + f)) [VArr [VData k; VData d]] (St id iv so op th cnt rest fr pr sk su tm jb us) =
  Ok VUndef (St id iv so op th cnt (rest ++ [pair_frame k d]) fr (upd p (fun _ => mkProm (PFul (VData d)) true) pr) sk su tm
    (jb ++ map (fun x => JReact (re_ful x) true (VData d) (re_to x)) r) us).
Proof.
  intros H1 H2 E r Hp. start. unfold f_answer. js. rewrite eq_key, E. all: js. rewrite nth_upd_same, Hp. cbn [option_map]. all: js.
  rewrite upd_upd. reflexivity.
Qed.
Lemma answer_used n id iv so op th cnt rest fr pr sk su tm jb us i h f p k0 ns m l k d rs a b c p2 :
  nth_error rest h = Some (executor_frame p k0 ns m l) -> nth_error rest f = Some (request_frame a b c rs p2) -> same_key k k0 = true ->
  forall st, nth_error pr p = Some (mkProm st true) ->
  call (30 + n) (f_answer i (2 + h) (2 + f)) [VArr [VData k; VData d]] (St id iv so op th cnt rest fr pr sk su tm jb us) =
  Ok VUndef (St id iv so op th cnt (rest ++ [pair_frame k d]) fr pr sk su tm jb us).
Proof.
  intros H1 H2 E r Hp. start. unfold f_answer. js. rewrite eq_key, E. all: js. reflexivity.
Qed.

Definition visit_frame (v : val) : frame := [("subscription", (true, Some v))].
Definition message_frame (e : val) (d : jsval) : frame := [("event", (true, Some e)); ("res", (false, Some (VData d)))].
Lemma visit_ok n id iv so op th cnt rest fr pr sk su tm jb us i f e x i' sc a ps b w r v : nth_error rest f = Some (message_frame e x) ->
  v = VClo i' sc a ps b ->
  call (16 + n) v [iv] (St id iv so op th cnt (rest ++ [visit_frame v]) fr pr sk su tm jb us) = r ->
  call (20 + n) (f_visit i (2 + f)) [v; v; w] (St id iv so op th cnt rest fr pr sk su tm jb us) = r.
Proof.
  intros Hf -> H. start. unfold f_visit. js. exact H. all: js. reflexivity. ends r.
Qed.

Lemma same_ok n id iv so op th cnt rest fr pr sk su tm jb us i f d :
  call (20 + n) (f_same i (2 + f)) [VData d] (St id iv so op th cnt rest fr pr sk su tm jb us) =
  Ok (VData d) (St id iv so op th cnt (rest ++ [value_frame (VData d)]) fr pr sk su tm jb us).
Proof. start. unfold f_same. js. reflexivity. Qed.
Lemma finally_ok n id iv so op th cnt rest fr pr sk su tm jb us i f ns m l j p f' i' sc a ps b : good_th th -> good_so so sk ->
  nth_error rest f = Some (request_frame ns m l (f_unsub j (2 + f')) p) ->
  nth_error rest f' = Some (sub_frame (VClo i' sc a ps b)) ->
  call (60 + n) (f_finally i (2 + f)) [] (St id iv so op th cnt rest fr pr sk su tm jb us) =
  Ok VUndef (if some_entry (remove i' su) then St id iv so op th cnt rest fr pr sk (remove i' su) tm jb us
             else St id iv VUndef op th cnt rest fr pr (shut so sk) (remove i' su) (clear th tm) jb us).
Proof.
  intros H1 H2 H3 H4. destruct (some_entry (remove i' su)) eqn:E.
  - start. unfold f_finally. js. change (truthy (f_unsub j (2 + f'))) with (Some true). all: js. eapply unsub_ok; eassumption. rewrite E. all: js. reflexivity.
  - start. unfold f_finally. js. change (truthy (f_unsub j (2 + f'))) with (Some true). all: js. eapply unsub_ok; eassumption. rewrite E. all: js. reflexivity.
Qed.
Lemma later_ok id iv so op th cnt rest fr pr sk su tm jb us i f t : good_th th -> good_so so sk -> good_op op pr ->
  nth_error rest f = Some (value_frame t) ->
  exists o, send_spec t so op th (List.length rest) fr (List.length pr) sk tm o /\
  forall n, call (80 + n) (f_later i (2 + f)) [VUndef] (St id iv so op th cnt rest fr pr sk su tm jb us) =
  Ok VUndef (St id iv (o_so o) (o_op o) (o_th o) cnt (rest ++ o_rest o) (o_fr o) (pr ++ o_pr o) (o_sk o) su (o_tm o) (jb ++ o_jb o) us).
Proof.
  intros H1 H2 H3 H4. destruct (send_ok lit num other id iv so op th cnt rest fr pr sk su tm jb us t H1 H2 H3) as (o & Ho & E).
  exists o. split; [exact Ho|]. intros n. start. unfold f_later. js. use E. all: js. reflexivity.
Qed.
Lemma timer_old n id iv so q th cnt rest fr pr sk su tm jb us i : good_th th -> q < List.length pr ->
  call (60 + n) (f_timer i) [] (St id iv so (VProm q) th cnt rest fr pr sk su tm jb us) =
  Ok (VProm (List.length pr))
    (St id iv so (VProm q) VUndef cnt rest fr (pr ++ [mkProm (PPending []) true]) sk su (clear th tm) (jb ++ [JThen q (List.length pr)]) us).
Proof. intros H1 H2. start. unfold f_timer. js. eapply open_old; eassumption. all: js. reflexivity. Qed.
Lemma timer_new n id iv so th cnt rest fr pr sk su tm jb us i : good_th th ->
  call (60 + n) (f_timer i) [] (St id iv so VUndef th cnt rest fr pr sk su tm jb us) =
  Ok (VProm (List.length pr))
    (St id iv (VSock (List.length sk)) (VProm (List.length pr + 1)) VUndef cnt
       (rest ++ [open_frame (List.length pr + 1)])
       (5 + fr) (pr ++ [mkProm (PPending []) true; mkProm (PPending []) false])
       (sk ++ [mkSock Client.Connecting [] [] (handlers fr (S (S (List.length rest))))]) su (clear th tm) (jb ++ [JThen (List.length pr + 1) (List.length pr)]) us).
Proof. intros H1. start. unfold f_timer. js. eapply open_new; eassumption. all: js. reflexivity. Qed.

Definition one_frame (x : string) (v : val) : frame := [(x, (true, Some v))].
Lemma onopen_ok n id iv so op th cnt rest fr pr sk su tm jb us i f p v rs : nth_error rest f = Some (open_frame p) ->
  nth_error pr p = Some (mkProm (PPending rs) false) ->
  call (20 + n) (f_open i (2 + f)) [v] (St id iv so op th cnt rest fr pr sk su tm jb us) =
  Ok VUndef (St id iv so VUndef th 0 (rest ++ [one_frame "_" v]) fr (upd p (fun _ => mkProm (PFul VUndef) true) pr) sk su tm
    (jb ++ map (fun x => JReact (re_ful x) true VUndef (re_to x)) rs) us).
Proof.
  intros H1 Hp. start. unfold f_open. js. rewrite nth_upd_same, Hp. cbn [option_map]. all: js. rewrite upd_upd. reflexivity.
Qed.
Lemma onerror_first n id iv so op th cnt rest fr pr sk su tm jb us i f p v rs : nth_error rest f = Some (open_frame p) ->
  nth_error pr p = Some (mkProm (PPending rs) false) ->
  call (20 + n) (f_error i (2 + f)) [v] (St id iv so op th cnt rest fr pr sk su tm jb us) =
  Ok VUndef (St id iv so VUndef th cnt (rest ++ [one_frame "error" v]) fr (upd p (fun _ => mkProm (PRej v) true) pr) sk su tm
    (jb ++ map (fun x => JReact (re_rej x) false v (re_to x)) rs) us).
Proof.
  intros H1 Hp. start. unfold f_error. js. rewrite nth_upd_same, Hp. cbn [option_map]. all: js. rewrite upd_upd. reflexivity.
Qed.
Lemma onerror_again n id iv so op th cnt rest fr pr sk su tm jb us i f p v st : nth_error rest f = Some (open_frame p) ->
  nth_error pr p = Some (mkProm st true) ->
  call (20 + n) (f_error i (2 + f)) [v] (St id iv so op th cnt rest fr pr sk su tm jb us) =
  Ok VUndef (St id iv so VUndef th cnt (rest ++ [one_frame "error" v]) fr pr sk su tm jb us).
Proof.
  intros H1 Hp. start. unfold f_error. js. reflexivity.
Qed.
Lemma onclose_ok id iv so op th cnt rest fr pr sk su tm jb us i v : good_th th -> good_so so sk -> (0 <= cnt)%Z ->
  exists g fr' i', fr <= fr' /\ forall n, call (60 + n) (f_close i) [v] (St id iv so op th cnt rest fr pr sk su tm jb us) =
  Ok VUndef
    (if some_entry su
     then St id iv VUndef op (VTimer (List.length tm)) (next cnt) (rest ++ g) fr' pr (shut so sk) su
            (clear th tm ++ [Some (f_timer i', VNum (delay cnt))]) jb us
     else St id iv VUndef op th cnt (rest ++ g) fr' pr (shut so sk) su (clear th tm) jb us).
Proof.
  intros H1 H2 H3. destruct (reopen_ok lit num other id iv so op th cnt (rest ++ [one_frame "event" v]) fr pr sk su tm jb us H1 H2 H3) as (g & fr' & Hf & E).
  exists ([one_frame "event" v] ++ g), fr', fr. split; [exact Hf|]. intros n. 
  start. unfold f_close. destruct (some_entry su) eqn:E1.
  - js. rewrite some_entry_gt, E1. all: js. use E. all: js. reflexivity.
  - js. rewrite some_entry_gt, E1. all: js. use E. all: js. reflexivity.
Qed.

(** [onmessage] *)
Definition msg_event (t : jstr) : val := VObj [("data", VStr t)].
Lemma data_get_member d k : data_get d k = member d k.
Proof. reflexivity. Qed.
Lemma data_in_has d k : data_in d k = has d k.
Proof. reflexivity. Qed.
Lemma find_method : find (fun x => jeqb (js x) (js "method")) plain_names = Some "method".
Proof. reflexivity. Qed.
Lemma find_stream : find (fun x => jeqb (js x) (js "stream")) plain_names = Some "stream".
Proof. reflexivity. Qed.
Lemma call_each m g k s : call (S m) (VMethod (VSet k) "forEach") [g] s = for_each m k 0 g s.
Proof. reflexivity. Qed.
Lemma message_hit n id iv so op th cnt rest fr pr sk su tm jb us i t x k d r : parse num t = Some x -> on_message (jsparse x) = Some (k, d) ->
  (forall n', n <= n' -> for_each n' 0 0 (f_visit fr (2 + List.length rest))
    (St id (VArr [VData k; VData d]) so op th cnt (rest ++ [message_frame (msg_event t) (jsparse x)]) (1 + fr) pr sk su tm jb us) = r) ->
  call (30 + n) (f_message i) [msg_event t] (St id iv so op th cnt rest fr pr sk su tm jb us) = then_ok r (fun _ => ret VUndef).
Proof.
  intros Hx Hm H. unfold on_message in Hm.
  destruct (has (jsparse x) "method") as [[|]|] eqn:E1; [| |discriminate].
  - destruct (member (jsparse x) "method") as [y|] eqn:E2; [|discriminate].
    destruct (member y "id") as [y1|] eqn:E3; [|discriminate].
    destruct (member y "data") as [y2|] eqn:E4; [|discriminate]. injection Hm as -> ->.
    start. unfold f_message, msg_event. js. rewrite Hx. all: js. rewrite find_method, data_in_has, E1. all: js. rewrite data_get_member, E2. all: js. rewrite data_get_member, E3.
    all: js. rewrite data_get_member, E2. all: js. rewrite data_get_member, E4. all: js. rewrite call_each. apply H; lia. all: js. reflexivity. reflexivity. ends r.
  - destruct (has (jsparse x) "stream") as [[|]|] eqn:E1'; [|discriminate..].
    destruct (member (jsparse x) "stream") as [y|] eqn:E2; [|discriminate].
    destruct (member y "id") as [y1|] eqn:E3; [|discriminate].
    destruct (member y "data") as [y2|] eqn:E4; [|discriminate]. injection Hm as -> ->.
    start. unfold f_message, msg_event. js. rewrite Hx. all: js. rewrite find_method, data_in_has, E1. all: js.
    rewrite find_stream, data_in_has, E1'. all: js. rewrite data_get_member, E2. all: js. rewrite data_get_member, E3.
    all: js. rewrite data_get_member, E2. all: js. rewrite data_get_member, E4. all: js. rewrite call_each. apply H; lia. all: js. reflexivity. reflexivity. reflexivity. ends r.
Qed.
Lemma message_miss id iv so op th cnt rest fr pr sk su tm jb us i t :
  match parse num t with Some x => on_message (jsparse x) | None => None end = None ->
  exists g, forall n, exists r, (r = Ok VUndef (St id iv so op th cnt (rest ++ g) fr pr sk su tm jb us) \/ exists v, r = Throw v (St id iv so op th cnt (rest ++ g) fr pr sk su tm jb us)) /\
  call (30 + n) (f_message i) [msg_event t] (St id iv so op th cnt rest fr pr sk su tm jb us) = r.
Proof.
  intros Hm. destruct (parse num t) as [x|] eqn:Hx.
  2:{ exists [[("event", (true, Some (msg_event t))); ("res", (false, None))]]. intros n. eexists. split; [right; eexists; reflexivity|].
      start. unfold f_message, msg_event. js. rewrite Hx. all: js. reflexivity. }
  exists [message_frame (msg_event t) (jsparse x)]. intros n.
  unfold on_message in Hm. destruct (has (jsparse x) "method") as [[|]|] eqn:E1.
  - destruct (member (jsparse x) "method") as [y|] eqn:E2.
    + destruct (member y "id") as [y1|] eqn:E3.
      * assert (E4 : member y "data" = None) by (destruct (member y "data"); [discriminate|reflexivity]). 
        exfalso. destruct y; cbn in E3, E4; discriminate.
      * eexists. split; [right; eexists; reflexivity|]. start. unfold f_message, msg_event. js. rewrite Hx. all: js. rewrite find_method, data_in_has, E1. all: js.
        rewrite data_get_member, E2. all: js. rewrite data_get_member, E3. all: js. reflexivity.
    + eexists. split; [right; eexists; reflexivity|]. start. unfold f_message, msg_event. js. rewrite Hx. all: js. rewrite find_method, data_in_has, E1. all: js.
      rewrite data_get_member, E2. all: js. reflexivity.
  - destruct (has (jsparse x) "stream") as [[|]|] eqn:E1'.
    + destruct (member (jsparse x) "stream") as [y|] eqn:E2.
      * destruct (member y "id") as [y1|] eqn:E3.
       -- assert (E4 : member y "data" = None) by (destruct (member y "data"); [discriminate|reflexivity]). 
          exfalso. destruct y; cbn in E3, E4; discriminate.
       -- eexists. split; [right; eexists; reflexivity|]. start. unfold f_message, msg_event. js. rewrite Hx. all: js. rewrite find_method, data_in_has, E1. all: js.
          rewrite find_stream, data_in_has, E1'. all: js.
          rewrite data_get_member, E2. all: js. rewrite data_get_member, E3. all: js. reflexivity.
      * eexists. split; [right; eexists; reflexivity|]. start. unfold f_message, msg_event. js. rewrite Hx. all: js. rewrite find_method, data_in_has, E1. all: js.
        rewrite find_stream, data_in_has, E1'. all: js.
        rewrite data_get_member, E2. all: js. reflexivity.
    + eexists. split; [left; reflexivity|]. start. unfold f_message, msg_event. js. rewrite Hx. all: js. rewrite find_method, data_in_has, E1. all: js.
      rewrite find_stream, data_in_has, E1'. all: js. reflexivity.
    + eexists. split; [right; eexists; reflexivity|]. start. unfold f_message, msg_event. js. rewrite Hx. all: js. rewrite find_method, data_in_has, E1. all: js.
      rewrite find_stream, data_in_has, E1'. all: js. reflexivity.
  - eexists. split; [right; eexists; reflexivity|]. start. unfold f_message, msg_event. js. rewrite Hx. all: js. rewrite find_method, data_in_has, E1. all: js. reflexivity.
Qed.
End Funs.
