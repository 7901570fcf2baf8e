(** Endless runs of a page and the server of examples/axum: the hypotheses of C56_comes_to_an_end and C56_stream_arrives. *)
From Coq Require Import List String Ascii Bool Arith NArith ZArith Lia.
From Verif Require Import Util Js JsonText JsonTextSpec JsonTextExamples Registry Macro Server ServerSpec Wire WireSpec WireProofs WireExamples Pump TsProgram.
From Verif Require Import E2E E2ESpec E2EStreamSpec E2EText E2EWire E2EExamples E2EStreamWire E2EStreamExamples JsSem JsSpec JsClaims System SystemSpec SystemFair SystemProofs JsExamples SystemExamples.
From Verif Require Client Prelude FileProofs RustTy.
Import ListNotations.
Local Open Scope string_scope.
Local Open Scope list_scope.

(** Some events, then the same four for ever, which change nothing. *)
Section Endless.
Context {T V F : Type} (S : setting T V F).
Context (y0 : system S) (es : list (sevent S)) (k n : nat).
Definition later (i : nat) : system S := match sdos S y0 (firstn i es) with Some y => y | None => y0 end.
Definition rest : system S := later (List.length es).
Definition nothing : list (pevent (rpc S) jstr) := [PTake k; PWrote k true; PServer EvRecv; PServer EvMethodDone].
Definition idly (i : nat) : sevent S := SServer (nth (i mod 4) nothing (PTake k)).
Definition events (i : nat) : sevent S := nth i es (idly (i - List.length es)).
Definition fits (y : system S) : bool :=
  match sy_links y with [] => true | [x] => Nat.eqb (ln_sock x) n && Nat.eqb (ln_pump x) k | _ => false end &&
  match nth_error (st_socks (sy_page y)) n with Some so => match so_state so with Client.Connecting | Client.Open => true | _ => false end | None => false end &&
  Server.alive (st_loop (p_srv (sy_sv y))) &&
  forallb (fun x => match nth_error (p_socks (sy_sv y)) (ln_pump x) with Some s => sk_live s | None => false end) (sy_links y).
Fixpoint all_fit (y : system S) (l : list (sevent S)) : bool :=
  fits y && match l with [] => true | e :: l => match sdo S y e with Some y' => all_fit y' l | None => false end end.
Definition at_rest (y : system S) : bool :=
  match sy_links y with
  | [x] =>
      match nth_error (st_socks (sy_page y)) (ln_sock x), nth_error (p_socks (sy_sv y)) (ln_pump x) with
      | Some so, Some s => match nth_error (so_sent so) (ln_up x), nth_error (sk_out s) (ln_down x), so_state so with None, None, Client.Open => true | _, _, _ => false end
      | _, _ => false
      end
  | _ => false
  end.
Hypothesis (Hfit : all_fit y0 es = true) (Hrest : at_rest rest = true)
           (Hnot : forall e, In e nothing -> pnext (from_text S) (to_text S) (sy_sv rest) e = sy_sv rest).

Lemma fit_steps l : forall y, all_fit y l = true -> forall i, i <= List.length l -> exists z, sdos S y (firstn i l) = Some z /\ fits z = true /\ (forall e, nth_error l i = Some e -> exists z', sdo S z e = Some z' /\ sdos S y (firstn (Datatypes.S i) l) = Some z').
Proof.
  induction l as [|e l IH]; intros y H i L; cbn [all_fit] in H; apply andb_prop in H as [H1 H2].
  - assert (i = 0) as -> by (cbn in L; lia). exists y. split; [reflexivity|]. split; [exact H1|]. discriminate.
  - destruct (sdo S y e) as [y'|] eqn:E; [|discriminate]. destruct i as [|i].
    + exists y. split; [reflexivity|]. split; [exact H1|]. intros e' [= <-]. exists y'. split; [exact E|]. cbn. now rewrite E.
    + destruct (IH y' H2 i ltac:(cbn in L; lia)) as (z & Z1 & Z2 & Z3). exists z. split; [cbn; now rewrite E|]. split; [exact Z2|]. intros e' He. destruct (Z3 e' He) as (z' & Z4 & Z5). exists z'. split; [exact Z4|].
      change (match sdo S y e with Some y' => sdos S y' (firstn (Datatypes.S i) l) | None => None end = Some z'). now rewrite E.
Qed.
Lemma later_end i : List.length es <= i -> later i = rest.
Proof. intros L. unfold rest, later. rewrite firstn_all. now rewrite firstn_all2. Qed.
Lemma idly_in i : exists e, In e nothing /\ idly i = SServer e.
Proof. exists (nth (i mod 4) nothing (PTake k)). split; [|reflexivity]. apply nth_In. apply Nat.mod_upper_bound. discriminate. Qed.
Lemma events_end i : List.length es <= i -> exists e, In e nothing /\ events i = SServer e.
Proof. intros L. unfold events. rewrite nth_overflow by exact L. apply idly_in. Qed.
Lemma fits_at i : fits (later i) = true.
Proof.
  destruct (Nat.le_gt_cases i (List.length es)) as [L|L]; [|rewrite (later_end i ltac:(lia)), <- (later_end (List.length es) (le_n _)); pose proof (le_n (List.length es)) as L'].
  - destruct (fit_steps es y0 Hfit i L) as (z & Z1 & Z2 & _). unfold later. now rewrite Z1.
  - destruct (fit_steps es y0 Hfit _ L') as (z & Z1 & Z2 & _). unfold later. now rewrite Z1.
Qed.
Lemma goes_round : endless later events.
Proof.
  intros i. destruct (Nat.lt_ge_cases i (List.length es)) as [L|L].
  - destruct (fit_steps es y0 Hfit i ltac:(lia)) as (z & Z1 & Z2 & Z3). destruct (nth_error es i) as [e|] eqn:E; [|apply nth_error_None in E; lia]. destruct (Z3 e eq_refl) as (z' & Z4 & Z5).
    unfold later, events. rewrite Z1, Z5, (nth_error_nth es i _ E). now apply sdo_step.
  - destruct (events_end i L) as (e & Ie & ->). rewrite !later_end by lia. pose proof (s_server S rest e) as St. rewrite (Hnot e Ie) in St.
    destruct rest as [p v l]. apply St. intros q t x Ee. destruct Ie as [<-|[<-|[<-|[<-|[]]]]]; discriminate Ee.
Qed.
Lemma often_nothing e q : nth_error nothing q = Some e -> often (fun i => events i = SServer e).
Proof.
  intros H i. exists (List.length es + (q + 4 * i)). split; [lia|]. unfold events. rewrite nth_overflow by lia. replace (List.length es + (q + 4 * i) - List.length es) with (q + i * 4) by lia.
  unfold idly. rewrite Nat.mod_add by discriminate. assert (Lq : q < 4) by (apply nth_some_lt in H; exact H). rewrite Nat.mod_small by exact Lq. now rewrite (nth_error_nth nothing q _ H).
Qed.
Lemma links_of i l x : nth_error (sy_links (later i)) l = Some x -> l = 0 /\ ln_sock x = n /\ ln_pump x = k.
Proof.
  pose proof (fits_at i) as H. unfold fits in H. rewrite !andb_true_iff in H. destruct H as (((H & _) & _) & _). destruct (sy_links (later i)) as [|z [|]]; try discriminate; [destruct l; discriminate|].
  apply andb_prop in H as [H1 H2]. destruct l as [|l]; [|destruct l; discriminate]. intros [= <-]. split; [reflexivity|]. split; now apply Nat.eqb_eq.
Qed.
Lemma stays_connected i : connected (later i) n.
Proof.
  pose proof (fits_at i) as H. unfold fits in H. rewrite !andb_true_iff in H. destruct H as (((_ & H1) & H2) & H3). split; [|split; [exact H2|]].
  - destruct (nth_error _ n) as [so|]; [|discriminate]. exists so. split; [reflexivity|]. destruct (so_state so); try discriminate; auto.
  - intros x Ix _. rewrite forallb_forall in H3. specialize (H3 x Ix). cbn in H3. destruct (nth_error (p_socks (sy_sv (later i))) (ln_pump x)) as [s|]; [|discriminate]. now exists s.
Qed.
Lemma is_fair : fair_run later events n.
Proof.
  pose proof Hrest as H. unfold at_rest in H. destruct (sy_links rest) as [|x [|]] eqn:El; try discriminate. destruct (nth_error (st_socks (sy_page rest)) (ln_sock x)) as [so|] eqn:Eso; [|discriminate].
  destruct (nth_error (p_socks (sy_sv rest)) (ln_pump x)) as [s|] eqn:Es; [|discriminate]. destruct (nth_error (so_sent so) (ln_up x)) eqn:Eu; [discriminate|]. destruct (nth_error (sk_out s) (ln_down x)) eqn:Ed; [discriminate|].
  destruct (so_state so) eqn:Eo; try discriminate.
  assert (Ex : nth_error (sy_links (later (List.length es))) 0 = Some x) by (fold rest; now rewrite El). destruct (links_of _ _ _ Ex) as (_ & X1 & X2).
  assert (Srv : forall q e, nth_error nothing q = Some e -> again later events (SServer e)).
  { intros q e Hq i. destruct (often_nothing e q Hq i) as (i' & L & E). exists i'. split; [exact L|]. now left. }
  constructor.
  - exists (List.length es), so. fold rest. rewrite <- X1. now split.
  - intros i l x' Hx' En. destruct (links_of i l x' Hx') as (-> & _ & ->). split; [|split; [|split; [exact (Srv 0 _ eq_refl)|exact (Srv 1 _ eq_refl)]]].
    + intros i'. exists (i' + List.length es). split; [lia|]. right. rewrite later_end by lia. intros z St. inversion St as [| | | |l0 x0 so0 s0 t0 E1 E2 E3|]; subst. rewrite El in E1. injection E1 as <-. congruence.
    + intros i'. exists (i' + List.length es). split; [lia|]. right. rewrite later_end by lia. intros z St. inversion St as [| | | | |l0 x0 so0 s0 t0 p0 E1 E2 E3]; subst. rewrite El in E1. injection E1 as <-. congruence.
  - exact (Srv 2 _ eq_refl).
  - exact (Srv 3 _ eq_refl).
Qed.
Lemma tasks_events i : tasks_of (map events (seq 0 i)) = tasks_of (firstn i es).
Proof.
  induction i as [|i IH]; [reflexivity|]. rewrite seq_S, map_app. unfold tasks_of in *. rewrite flat_map_app, IH. cbn [map Nat.add flat_map]. rewrite app_nil_r.
  destruct (Nat.lt_ge_cases i (List.length es)) as [L|L].
  - assert (Ef : firstn (Datatypes.S i) es = firstn i es ++ [events i]).
    { unfold events. clear - L. revert i L. generalize es. intros l. induction l as [|z l IH]; intros [|i] L; cbn in *; try lia; [reflexivity|]. f_equal. rewrite (IH i ltac:(lia)). reflexivity. }
    rewrite Ef, flat_map_app. cbn. now rewrite app_nil_r.
  - destruct (events_end i L) as (e & _ & ->). rewrite app_nil_r, !firstn_all2 by lia. reflexivity.
Qed.
Lemma acts_events scripts es1 ask i x : In x (all_actions scripts (tasks_of (es1 ++ ask :: map events (seq 0 i)))) -> In x (all_actions scripts (tasks_of (es1 ++ ask :: es))).
Proof.
  unfold all_actions. rewrite !in_app_iff. intros [H|H]; [now left|right]. change (ask :: map events (seq 0 i)) with ([ask] ++ map events (seq 0 i)) in H. change (ask :: es) with ([ask] ++ es).
  rewrite !tasks_app, !flat_map_app, !in_app_iff in *. destruct H as [H|[H|H]]; [auto|auto|]. right. right. rewrite tasks_events in H. rewrite <- (firstn_skipn i es), tasks_app, flat_map_app. apply in_app_iff. now left.
Qed.
Lemma few_events scripts es1 ask i : few scripts (tasks_of (es1 ++ ask :: es)) -> few scripts (tasks_of (es1 ++ ask :: map events (seq 0 i))).
Proof.
  unfold few, all_actions, calls_of. intros H. change (ask :: map events (seq 0 i)) with ([ask] ++ map events (seq 0 i)). change (ask :: es) with ([ask] ++ es) in H.
  rewrite <- (firstn_skipn i es) in H. rewrite !tasks_app, !flat_map_app, !app_length, tasks_events in *. lia.
Qed.
End Endless.

Local Notation sev := (sevent my_setting).
Local Notation sys := (system my_setting).
Definition dark : sys := mkSys (S := my_setting) (st0 []) (pinit (A := rpc my_setting) [0; 10]%N) [].
Definition the (o : option sys) : sys := match o with Some y => y | None => dark end.
Definition is (o : option sys) : bool := match o with Some _ => true | None => false end.
Lemma the_is o : is o = true -> o = Some (the o).
Proof. now destruct o. Qed.
Definition dawn : sys := the (sstart my_setting FileProofs.client_program called [0; 10]%N).
Lemma dawns : started my_setting FileProofs.client_program called [0; 10]%N dawn.
Proof. apply sstart_ok. apply the_is. vm_compute. reflexivity. Qed.

Lemma promised_fulfilled p j d : promised p (nth j (us_proms (st_user p)) VUndef) = Some (VData d) -> fulfilled p j d.
Proof.
  intros C. destruct (nth_error (us_proms (st_user p)) j) as [v|] eqn:Ev; [rewrite (nth_error_nth _ _ _ Ev) in C | rewrite nth_overflow in C by (now apply nth_error_None); discriminate].
  unfold promised in C. destruct v; try discriminate. destruct (nth_error (st_proms p) p0) as [x|] eqn:Ex; [|discriminate]. destruct (pr_state x) eqn:Es; try discriminate. injection C as ->.
  exists p0, x. auto.
Qed.

(** The request, at the end of the morning. *)
Definition ask_hello : sev := STask (TUser hello).
Definition ask_watch : sev := STask (TUser watch).
Definition before : list sev := ask_watch :: morning.
Definition at_noon : sys := the (sdos my_setting dawn before).
Definition asked : sys := the (sdo my_setting at_noon ask_hello).
Lemma noon_comes : sruns my_setting dawn before at_noon /\ sstep my_setting at_noon ask_hello asked.
Proof. split; [apply sdos_run|apply sdo_step]; apply the_is; vm_compute; reflexivity. Qed.
Lemma noon_fits : all_fit my_setting 1 0 asked noon = true /\ at_rest my_setting (rest my_setting asked noon) = true.
Proof. split; vm_compute; reflexivity. Qed.
Definition evening : Pump.pstate my_rpc jstr := Eval vm_compute in sy_sv (rest my_setting asked noon).
Lemma evening_comes : (sy_sv (rest my_setting asked noon) : Pump.pstate my_rpc jstr) = evening.
Proof. vm_cast_no_check (eq_refl evening). Qed.
Lemma evening_stays : forall e, In e (nothing my_setting 1) -> (pnext (A := my_rpc) (from_text my_setting) (to_text my_setting) evening e : Pump.pstate my_rpc jstr) = evening.
Proof. intros e H. repeat (destruct H as [<- | H]; [vm_cast_no_check (eq_refl evening)|]). destruct H. Qed.
Lemma nothing_new : forall e, In e (nothing my_setting 1) -> (pnext (A := my_rpc) (from_text my_setting) (to_text my_setting) (sy_sv (rest my_setting asked noon)) e : Pump.pstate my_rpc jstr) = sy_sv (rest my_setting asked noon).
Proof. rewrite evening_comes. exact evening_stays. Qed.
Example an_endless_afternoon : let y := later my_setting asked noon in let e := events my_setting noon 1 in
  started my_setting FileProofs.client_program called [0; 10]%N dawn /\ sruns my_setting dawn before at_noon /\ sstep my_setting at_noon ask_hello (y 0) /\ endless y e /\
  (forall x, few called (tasks_of (before ++ ask_hello :: map e (seq 0 x)))) /\ next_number (sy_page at_noon) = 3%N /\ List.length (us_proms (st_user (sy_page at_noon))) = 1 /\
  fair_run y e 0 /\ (forall x, connected (y x) 0) /\
  (exists i, has_item my_backend 0 1 watchout i /\ it_ident i = "hello" /\ (forall doc, sent_doc 3 watchout i hello_args doc -> fine doc) /\
    decoded keep (map snd (it_args i)) (map (fun a => to_value exact (stringify_elem a)) hello_args) [JStr (js "a"); JInt 7]) /\
  fulfilled (sy_page (y (List.length noon))) 1 (JsNum (NInt 3)).
Proof.
  intros y e. destruct noon_comes as [R1 R2]. destruct noon_fits as [H1 H2]. pose proof nothing_new as H3.
  split; [exact dawns|]. split; [exact R1|]. split; [exact R2|].
  split; [exact (goes_round my_setting asked noon 1 0 H1 H2 H3)|]. split; [intros x; apply few_events; vm_compute; discriminate|]. split; [vm_compute; reflexivity|]. split; [vm_compute; reflexivity|].
  split; [exact (is_fair my_setting asked noon 1 0 H1 H2)|]. split; [exact (stays_connected my_setting asked noon 1 0 H1)|]. split.
  - destruct my_call as (_ & (i & I1 & _ & _ & _ & _ & I2 & _ & _ & I3) & _). exists i. split; [exact I1|]. split; [exact I2|]. split; [|exact I3].
    destruct I1 as [If Ii]. vm_compute in Ii. injection Ii as <-.
    intros doc E. vm_compute in E. injection E as <-. split; [vm_compute; reflexivity|vm_compute; repeat constructor].
  - apply promised_fulfilled. vm_compute. reflexivity.
Qed.

(** The stream, from the start. *)
Definition all_day : list sev := morning ++ ask_hello :: noon.
Definition watched : sys := the (sdo my_setting dawn ask_watch).
Lemma day_fits : all_fit my_setting 1 0 watched all_day = true /\ at_rest my_setting (rest my_setting watched all_day) = true.
Proof. split; vm_compute; reflexivity. Qed.
Definition midnight : Pump.pstate my_rpc jstr := Eval vm_compute in sy_sv (rest my_setting watched all_day).
Lemma midnight_comes : (sy_sv (rest my_setting watched all_day) : Pump.pstate my_rpc jstr) = midnight.
Proof. vm_cast_no_check (eq_refl midnight). Qed.
Lemma midnight_stays : forall e, In e (nothing my_setting 1) -> (pnext (A := my_rpc) (from_text my_setting) (to_text my_setting) midnight e : Pump.pstate my_rpc jstr) = midnight.
Proof. intros e H. repeat (destruct H as [<- | H]; [vm_cast_no_check (eq_refl midnight)|]). destruct H. Qed.
Lemma nothing_more : forall e, In e (nothing my_setting 1) -> (pnext (A := my_rpc) (from_text my_setting) (to_text my_setting) (sy_sv (rest my_setting watched all_day)) e : Pump.pstate my_rpc jstr) = sy_sv (rest my_setting watched all_day).
Proof. rewrite midnight_comes. exact midnight_stays. Qed.
Example an_endless_day : let y := later my_setting watched all_day in let e := events my_setting all_day 1 in
  sstep my_setting dawn ask_watch (y 0) /\ endless y e /\
  (forall x, few called (tasks_of ([] ++ ask_watch :: map e (seq 0 x)))) /\ next_number (sy_page dawn) = 1%N /\
  List.length (us_stores (st_user (sy_page dawn))) = 0 /\ List.length (us_unls (st_user (sy_page dawn))) = 0 /\
  fair_run y e 0 /\ (forall x, connected (y x) 0) /\ Forall (fun x => sc_throw x = false) called /\
  (forall x, ~ In (AUnlisten 0) (all_actions called (tasks_of ([] ++ ask_watch :: map e (seq 0 x))))) /\
  heard_of 0 (sy_page (y (List.length all_day))) = [[VData (JsNum (NInt 7))]; [VData (JsNum (NInt 8))]].
Proof.
  intros y e. destruct day_fits as [H1 H2]. pose proof nothing_more as H3.
  split; [apply sdo_step, the_is; vm_compute; reflexivity|].
  split; [exact (goes_round my_setting watched all_day 1 0 H1 H2 H3)|]. split; [intros x; apply few_events; vm_compute; discriminate|]. split; [vm_compute; reflexivity|]. split; [vm_compute; reflexivity|]. split; [vm_compute; reflexivity|].
  split; [exact (is_fair my_setting watched all_day 1 0 H1 H2)|]. split; [exact (stays_connected my_setting watched all_day 1 0 H1)|]. split; [now repeat constructor|]. split; [|vm_compute; reflexivity].
  intros x H. apply acts_events in H. vm_compute in H. repeat (destruct H as [H|H]; [discriminate H|]). exact H.
Qed.
