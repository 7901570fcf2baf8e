(** The shop of TypedExamples.v, with a page: the hypotheses of C57. *)
From Coq Require Import List String Arith NArith ZArith Bool Lia.
From Verif Require Import Util Js JsonText JsonTextSpec RustTy TsType JsModule Serde SerdeSpec Registry Macro Server ServerSpec Wire WireSpec WireProofs Pump.
From Verif Require Import E2E E2ESpec E2EStreamSpec E2EText E2EWire E2EStreamWire ClientFn TypedSpec RegistryExamples ModuleExamples SerdeExamples TypedExamples.
From Verif Require Import JsSem JsSpec System SystemSpec SystemFair SystemProofs JsExamples SystemExamples SystemFairExamples SystemTypedSpec.
From Verif Require Client Prelude FileProofs.
Import ListNotations.
Local Open Scope string_scope.
Local Open Scope list_scope.

Local Notation sev := (sevent the_setting).
Local Notation sys := (system the_setting).
Definition closed_shop : sys := mkSys (S := the_setting) (st0 []) (pinit (A := rpc the_setting) [0; 0; 0]%N) [].
Definition got (o : option sys) : sys := match o with Some y => y | None => closed_shop end.
Definition isok (o : option sys) : bool := match o with Some _ => true | None => false end.
Lemma got_is o : isok o = true -> o = Some (got o).
Proof. now destruct o. Qed.
Definition opening : sys := got (sstart the_setting FileProofs.client_program [mkScript [] false] [0; 0; 0]%N).
Lemma opens : started the_setting FileProofs.client_program [mkScript [] false] [0; 0; 0]%N opening.
Proof. apply sstart_ok. apply got_is. vm_compute. reflexivity. Qed.
Definition shop_srv (e : Server.event the_rpc) : sev := SServer (PServer e).

(** What the page does that runs the generated functions. *)
Definition buy_act : JsSem.action := ARequest "Shop" "buy" buy_args.
Definition ticks_act : JsSem.action := AStream "Watch" "ticks" ticks_args.
Example page_sends : page_action (invoke no_ip the_module shop_block buy_fn 20 buy_args) = Some buy_act /\
  page_action (invoke no_ip the_module watch_block ticks_fn 20 ticks_args) = Some ticks_act /\
  page_action (invoke no_ip the_module shop_block buy_fn 20 [an_item 300; JsNum (NInt 2)]) = None.
Proof. repeat split; vm_compute; reflexivity. Qed.

(** A call, after a stream has been subscribed to. *)
Definition ask_ticks : sev := STask (TUser (mkScript [ticks_act; AListen 0] false)).
Definition ask_buy : sev := STask (TUser (mkScript [buy_act] false)).
Definition shop_morning : list sev :=
  [SAccept 0; SOpen 0; SUp 0; shop_srv EvRecv; shop_srv (EvPoll 0); shop_srv (EvItem (A := the_rpc) 0 (inl (JInt 7)));
   shop_srv (EvItem (A := the_rpc) 0 (inr (js "no"))); SServer (PTake 0); SServer (PWrote 0 true); SDown 0].
Definition shop_noon : list sev :=
  [SUp 0; shop_srv EvRecv; shop_srv EvMethodDone; shop_srv (EvItem (A := the_rpc) 0 (inl (JInt 8))); shop_srv (EvFinish 0);
   SServer (PTake 0); SServer (PWrote 0 true); SServer (PTake 0); SServer (PWrote 0 true); SServer (PTake 0); SServer (PWrote 0 true); SDown 0; SDown 0; SDown 0].
Definition shop_before : list sev := ask_ticks :: shop_morning.
Definition before_buy : sys := got (sdos the_setting opening shop_before).
Definition bought : sys := got (sdo the_setting before_buy ask_buy).
Lemma buy_comes : sruns the_setting opening shop_before before_buy /\ sstep the_setting before_buy ask_buy bought.
Proof. split; [apply sdos_run|apply sdo_step]; apply got_is; vm_compute; reflexivity. Qed.
Lemma buy_fits : all_fit the_setting 0 0 bought shop_noon = true /\ at_rest the_setting (rest the_setting bought shop_noon) = true.
Proof. split; vm_compute; reflexivity. Qed.
Definition shop_evening : Pump.pstate the_rpc jstr := Eval vm_compute in sy_sv (rest the_setting bought shop_noon).
(** Two states of the server are equal if their parts are. *)
Definition task_parts (t : Server.task the_rpc) : nat * N * tstat * list (json + jstr) := (tk_conn t, tk_id t, tk_stat t, tk_items t).
Lemma tasks_same : forall l l' : list (Server.task the_rpc), map task_parts l = map task_parts l' -> l = l'.
Proof.
  induction l as [|[c q t k] l IH]; intros [|[c' q' t' k'] l'] H; try discriminate H; [reflexivity|]. cbn in H. injection H as -> -> -> -> H. f_equal. exact (IH l' H).
Qed.
Section Parts.
Context (z z' : Pump.pstate the_rpc jstr).
Lemma state_same : p_socks z = p_socks z' -> st_app (p_srv z) = st_app (p_srv z') -> st_queue (p_srv z) = st_queue (p_srv z') -> st_loop (p_srv z) = st_loop (p_srv z') ->
  st_conns (p_srv z) = st_conns (p_srv z') -> map task_parts (st_tasks (p_srv z)) = map task_parts (st_tasks (p_srv z')) -> st_subs (p_srv z) = st_subs (p_srv z') ->
  st_proxies (p_srv z) = st_proxies (p_srv z') -> st_sent (p_srv z) = st_sent (p_srv z') -> z = z'.
Proof.
  destruct z as [[a1 a2 a3 a4 a5 a6 a7 a8] k]; destruct z' as [[b1 b2 b3 b4 b5 b6 b7 b8] k']; cbn. intros -> -> -> -> -> H -> -> ->. now rewrite (tasks_same _ _ H).
Qed.
End Parts.
Definition the_socks := Eval vm_compute in p_socks shop_evening.
Definition the_app := Eval vm_compute in st_app (p_srv shop_evening).
Definition the_queue := Eval vm_compute in st_queue (p_srv shop_evening).
Definition the_loop := Eval vm_compute in st_loop (p_srv shop_evening).
Definition the_conns := Eval vm_compute in st_conns (p_srv shop_evening).
Definition the_tasks := Eval vm_compute in map task_parts (st_tasks (p_srv shop_evening)).
Definition the_subs := Eval vm_compute in st_subs (p_srv shop_evening).
Definition the_proxies := Eval vm_compute in st_proxies (p_srv shop_evening).
Definition the_sent := Eval vm_compute in st_sent (p_srv shop_evening).
Ltac parts := apply state_same;
  [ vm_cast_no_check (eq_refl the_socks) | vm_cast_no_check (eq_refl the_app) | vm_cast_no_check (eq_refl the_queue) | vm_cast_no_check (eq_refl the_loop)
  | vm_cast_no_check (eq_refl the_conns) | vm_cast_no_check (eq_refl the_tasks) | vm_cast_no_check (eq_refl the_subs) | vm_cast_no_check (eq_refl the_proxies) | vm_cast_no_check (eq_refl the_sent) ].
Lemma shop_evening_comes : (sy_sv (rest the_setting bought shop_noon) : Pump.pstate the_rpc jstr) = shop_evening.
Proof. parts. Qed.
Lemma shop_evening_stays : forall e, In e (nothing the_setting 0) -> (pnext (A := the_rpc) (from_text the_setting) (to_text the_setting) shop_evening e : Pump.pstate the_rpc jstr) = shop_evening.
Proof. intros e H. repeat (destruct H as [<- | H]; [vm_cast_no_check (eq_refl shop_evening)|]). destruct H. Qed.
Lemma shop_nothing_new : forall e, In e (nothing the_setting 0) -> (pnext (A := the_rpc) (from_text the_setting) (to_text the_setting) (sy_sv (rest the_setting bought shop_noon)) e : Pump.pstate the_rpc jstr) = sy_sv (rest the_setting bought shop_noon).
Proof. rewrite shop_evening_comes. exact shop_evening_stays. Qed.
Example a_typed_call : let y := later the_setting bought shop_noon in let e := events the_setting shop_noon 0 in
  started the_setting FileProofs.client_program [mkScript [] false] [0; 0; 0]%N opening /\ sruns the_setting opening shop_before before_buy /\ sstep the_setting before_buy ask_buy (y 0) /\ endless y e /\
  (forall x, few [mkScript [] false] (tasks_of (shop_before ++ ask_buy :: map e (seq 0 x)))) /\ next_number (sy_page before_buy) = 2%N /\ List.length (us_proms (st_user (sy_page before_buy))) = 0 /\
  fair_run y e 0 /\ (forall x, connected (y x) 0) /\
  fulfilled (sy_page (y (List.length shop_noon))) 0 the_cart /\ exists t, fn_result buy_fn = YApp "Promise" [t] /\ t <> YName "any".
Proof.
  intros y e. destruct buy_comes as [R1 R2]. destruct buy_fits as [H1 H2]. pose proof shop_nothing_new as H3.
  split; [exact opens|]. split; [exact R1|]. split; [exact R2|].
  split; [exact (goes_round the_setting bought shop_noon 0 0 H1 H2 H3)|]. split; [intros x; apply few_events; vm_compute; discriminate|]. split; [vm_compute; reflexivity|]. split; [vm_compute; reflexivity|].
  split; [exact (is_fair the_setting bought shop_noon 0 0 H1 H2)|]. split; [exact (stays_connected the_setting bought shop_noon 0 0 H1)|]. split.
  - apply promised_fulfilled. vm_compute. reflexivity.
  - eexists. split; [reflexivity|]. discriminate.
Qed.

(** The stream. *)
Definition shop_day : list sev := shop_morning ++ ask_buy :: shop_noon.
Definition ticked : sys := got (sdo the_setting opening ask_ticks).
Lemma shop_day_fits : all_fit the_setting 0 0 ticked shop_day = true /\ at_rest the_setting (rest the_setting ticked shop_day) = true.
Proof. split; vm_compute; reflexivity. Qed.
Lemma shop_day_comes : (sy_sv (rest the_setting ticked shop_day) : Pump.pstate the_rpc jstr) = shop_evening.
Proof. parts. Qed.
Lemma shop_nothing_more : forall e, In e (nothing the_setting 0) -> (pnext (A := the_rpc) (from_text the_setting) (to_text the_setting) (sy_sv (rest the_setting ticked shop_day)) e : Pump.pstate the_rpc jstr) = sy_sv (rest the_setting ticked shop_day).
Proof. rewrite shop_day_comes. exact shop_evening_stays. Qed.
Example a_typed_stream : let y := later the_setting ticked shop_day in let e := events the_setting shop_day 0 in
  sstep the_setting opening ask_ticks (y 0) /\ endless y e /\
  (forall x, few [mkScript [] false] (tasks_of ([] ++ ask_ticks :: map e (seq 0 x)))) /\ next_number (sy_page opening) = 1%N /\
  List.length (us_stores (st_user (sy_page opening))) = 0 /\ List.length (us_unls (st_user (sy_page opening))) = 0 /\
  fair_run y e 0 /\ (forall x, connected (y x) 0) /\
  (forall x, ~ In (AUnlisten 0) (all_actions [mkScript [] false] (tasks_of ([] ++ ask_ticks :: map e (seq 0 x))))) /\
  heard_of 0 (sy_page (y (List.length shop_day))) = [[VData (JsNum (NInt 7))]; [VData (JsNum (NInt 8))]] /\
  yields the_setting the_rust mall same_type false [0; 0; 0]%N (server_side (y (List.length shop_day))) 1 0 0 the_ticks.
Proof.
  intros y e. destruct shop_day_fits as [H1 H2]. pose proof shop_nothing_more as H3.
  split; [apply sdo_step, got_is; vm_compute; reflexivity|].
  split; [exact (goes_round the_setting ticked shop_day 0 0 H1 H2 H3)|]. split; [intros x; apply few_events; vm_compute; discriminate|]. split; [vm_compute; reflexivity|]. split; [vm_compute; reflexivity|]. split; [vm_compute; reflexivity|].
  split; [exact (is_fair the_setting ticked shop_day 0 0 H1 H2)|]. split; [exact (stays_connected the_setting ticked shop_day 0 0 H1)|]. split; [|split; [vm_compute; reflexivity|]].
  - intros x H. apply acts_events in H. vm_compute in H. repeat (destruct H as [H|H]; [discriminate H|]). exact H.
  - intros vs tk d (c & v & bf & af & q & st' & x & x' & _ & _ & _ & _ & _ & _ & _ & Ht & _) Hd t Hg. rewrite (ticks_gives t Hg). clear t Hg.
    assert (Ht' : nth_error (st_tasks (p_srv shop_evening)) (List.length (q_starts q)) = Some tk) by (rewrite <- shop_day_comes; exact Ht). clear Ht.
    destruct (List.length (q_starts q)) as [|[|]]; cbn in Ht'; try discriminate Ht'. injection Ht' as <-.
    destruct Hd as [Hd|[Hd|[Hd|[]]]]; try discriminate Hd; injection Hd as <-; (split; [exists 9; vm_compute; reflexivity|split; [constructor|discriminate]]).
Qed.

(** The whole day: every call is that of a generated function. *)
Definition evening : sys := got (sdos the_setting opening (ask_ticks :: shop_day)).
Lemma evening_comes : (sy_sv evening : Pump.pstate the_rpc jstr) = shop_evening.
Proof. parts. Qed.
Definition the_actions : list JsSem.action := all_actions [mkScript [] false] (tasks_of (ask_ticks :: shop_day)).
Example a_typed_page : sruns the_setting opening (ask_ticks :: shop_day) evening /\ few [mkScript [] false] (tasks_of (ask_ticks :: shop_day)) /\
  (forall ns nm args, In (ARequest ns nm args) the_actions -> exists n k f i b g, runs_function the_setting mall mall_inside same_type the_module false (ARequest ns nm args) n k f i b g /\
     returns_typed the_setting the_rust mall same_type false n k i) /\
  (forall ns nm args, In (AStream ns nm args) the_actions -> exists n k f i b g, runs_function the_setting mall mall_inside same_type the_module false (AStream ns nm args) n k f i b g /\
     forall id, yields the_setting the_rust mall same_type false [0; 0; 0]%N (server_side evening) id n k i) /\
  In buy_act the_actions /\ In ticks_act the_actions /\
  fulfilled (sy_page evening) 0 the_cart /\ List.length (us_unls (st_user (sy_page evening))) = 1 /\
  heard_of 0 (sy_page evening) = [[VData (JsNum (NInt 7))]; [VData (JsNum (NInt 8))]].
Proof.
  split; [apply sdos_run, got_is; vm_compute; reflexivity|]. split; [vm_compute; discriminate|].
  destruct page_sends as (S1 & S2 & _). destruct plain_buy as [P1 P2].
  split; [|split; [|split; [right; right; left; reflexivity|split; [left; reflexivity|split; [apply promised_fulfilled; vm_compute; reflexivity|split; vm_compute; reflexivity]]]]].
  - intros ns nm args H. assert (Q : buy_act = ARequest ns nm args).
    { unfold the_actions in H. cbn in H. repeat (destruct H as [H|H]; [try discriminate H; exact H|]). destruct H. }
    clear H. rewrite <- Q. exists 1, 0, the_shop, the_buy, shop_block, buy_fn. destruct buy_exported as [H1 H2]. destruct buy_typed as [H3 H4]. split; [|exact H4].
    constructor; [exact H1|exact H2|left; reflexivity|exists no_ip, 20, buy_args; split; [|exact S1]|exact H3].
    eapply Forall_impl; [|exact P1]. cbn. tauto.
  - intros ns nm args H. assert (Q : ticks_act = AStream ns nm args).
    { unfold the_actions in H. cbn in H. repeat (destruct H as [H|H]; [try discriminate H; exact H|]). destruct H. }
    clear H. rewrite <- Q. exists 0, 0, the_watch, the_ticks, watch_block, ticks_fn. destruct ticks_exported as [H1 H2]. destruct ticks_heard as (_ & _ & _ & _ & H3 & H4). split.
    + constructor; [exact H1|exact H2|left; exact H4|exists no_ip, 20, ticks_args; split; [|exact S2]|exact H3].
      eapply Forall_impl; [|exact P2]. cbn. tauto.
    + intros id vs tk d (c & v & bf & af & q & st' & x & x' & _ & _ & _ & _ & _ & _ & _ & Ht & _) Hd t Hg. rewrite (ticks_gives t Hg). clear t Hg.
      assert (Ht' : nth_error (st_tasks (p_srv shop_evening)) (List.length (q_starts q)) = Some tk) by (rewrite <- evening_comes; exact Ht). clear Ht.
      destruct (List.length (q_starts q)) as [|[|]]; cbn in Ht'; try discriminate Ht'. injection Ht' as <-.
      destruct Hd as [Hd|[Hd|[Hd|[]]]]; try discriminate Hd; injection Hd as <-; (split; [exists 9; vm_compute; reflexivity|split; [constructor|discriminate]]).
Qed.
