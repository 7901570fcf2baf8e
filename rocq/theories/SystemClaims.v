(** What follows for a page and a server.  Proof side. *)
From Coq Require Import List String Ascii Bool Arith NArith ZArith Lia.
From Verif Require Import Util Js JsonText JsonTextSpec JsonTextProofs Registry Macro Server ServerSpec Pump Wire WireSpec WireProofs TsProgram FileProofs ClientSpec ClientProofs.
From Verif Require Import E2E E2ESpec E2EStreamSpec E2EText E2EProofs E2ESafe E2EFail E2EWire E2EStream E2EStreamWire.
From Verif Require Import JsSem JsSpec JsWorld JsStep JsEntries JsTasks JsPage JsMono JsClaims System SystemSpec SystemProofs.
From Verif Require Client ClientSockProofs JsRun Prelude.
Import ListNotations.
Local Open Scope string_scope.
Local Open Scope list_scope.

Section New.
Context {R text K D : Type} (enc : N -> R -> option text) (read : text -> option (K * D)) (same : K -> N -> bool).
(** Only requests add entries of requests. *)
Lemma subs_new (c : Client.client text K D) (e : Client.cevent R text) J s : nth_error (Client.cl_subs (Client.cnext enc read same c e)) J = Some s -> Client.su_req s = true ->
  J < List.length (Client.cl_subs c) \/ (J = List.length (Client.cl_subs c) /\ exists r, e = Client.URequest r /\ Client.user c = true).
Proof.
  intros H Q. destruct (effect_ok enc read same c e) as (c' & Ef & Tk). apply talk_parts in Tk as (_ & Tk & _). rewrite Tk in H.
  assert (Len : forall l : list (Client.sub D), map (fun s => (Client.su_id s, Client.su_req s)) l = map (fun s => (Client.su_id s, Client.su_req s)) (Client.cl_subs c) -> nth_error l J = Some s -> J < List.length (Client.cl_subs c)).
  { intros l E H'. apply nth_some_lt in H'. apply (f_equal (@List.length _)) in E. rewrite !map_length in E. lia. }
  assert (Snoc : forall x, nth_error (Client.cl_subs c ++ [x]) J = Some s -> J < List.length (Client.cl_subs c) \/ (J = List.length (Client.cl_subs c) /\ x = s)).
  { intros x H'. pose proof (nth_some_lt _ _ _ H') as L. rewrite app_length in L. cbn in L. destruct (Nat.lt_ge_cases J (List.length (Client.cl_subs c))) as [L'|L']; [now left|right].
    assert (J = List.length (Client.cl_subs c)) as -> by lia. rewrite nth_error_app2, Nat.sub_diag in H' by auto. injection H' as ->. auto. }
  destruct Ef as [e|r U _|r U _|r U _|r U _|k id U _|j x U _ _|d _ _|d _|j x _ _ _|n t k d _ _ _]; cbn in H; try (left; now apply nth_some_lt in H).
  - apply Snoc in H as [L|[L _]]; [now left|right]. eauto.
  - apply Snoc in H as [L|[L _]]; [now left|right]. eauto.
  - apply Snoc in H as [L|[L <-]]; [now left|discriminate].
  - left. exact (Len _ (keys_deleted j (Client.done c) (Client.cl_subs c)) H).
  - unfold Client.visit in H. destruct (nth_error (Client.cl_subs c) _) as [x|] eqn:Ex; [|left; now apply nth_some_lt in H]. cbn zeta in H.
    destruct (Client.su_live x && same (Client.dp_key d) (Client.su_id x))%bool; cbn in H; [|left; now apply nth_some_lt in H]. left. refine (Len _ _ H). apply keys_upd. now intros [].
  - left. exact (Len _ (keys_deleted j (Client.done c) (Client.cl_subs c)) H).
Qed.
End New.

Section Claims.
Context {T V F : Type} (S : setting T V F).
Local Notation A := (rpc S).
Local Notation lit := (s_lit S).
Local Notation num := (s_num S).
Local Notation other := (s_other S).
Local Notation reach := (wreachable (call_text S) (read_text S) (same_id S) (from_text S) (to_text S)).
Local Notation step := (wnext (call_text S) (read_text S) (same_id S) (from_text S) (to_text S)).
Local Notation steps := (wrun (call_text S) (read_text S) (same_id S) (from_text S) (to_text S)).
Local Notation world := (E2E.world jstr jsval jsval A).
Local Notation wevent := (wevent rcall jstr A).
Local Notation crun := (Client.crun (call_text S) (read_text S) (same_id S)).
Local Notation sstep := (sstep S).
Local Notation sruns := (sruns S).
Implicit Types (y : system S) (w : world).
Definition any (_ : action) : Prop := True.
Local Notation Sim := (Sim S any).
Lemma any_all l : allowed any l.
Proof. apply Forall_forall. now intros. Qed.

Context (P : list TsProgram.top) (HP : program Prelude.websocket_client = Some P).

(** ** The system goes on, in one way *)
Lemma steps_once y e y1 y2 : sstep y e y1 -> sstep y e y2 -> y1 = y2.
Proof.
  intros A1 A2. inversion A1; subst; inversion A2; subst; try reflexivity.
  - f_equal. match goal with A : does S _ _ ?p, B : does S _ _ ?q |- _ => exact (does_same S _ _ _ _ A B) end.
  - f_equal. match goal with A : does S _ _ ?p, B : does S _ _ ?q |- _ => exact (does_same S _ _ _ _ A B) end.
  - assert (x0 = x) as -> by congruence. assert (t0 = t) as -> by congruence. reflexivity.
  - assert (x0 = x) as -> by congruence. assert (s0 = s) as -> by congruence. assert (t0 = t) as -> by congruence. f_equal. match goal with A : does S _ _ ?p, B : does S _ _ ?q |- _ => exact (does_same S _ _ _ _ A B) end.
Qed.
Lemma sim_start scripts a y0 es y : started S P scripts a y0 -> sruns y0 es y -> exists w, Sim a y w.
Proof.
  intros H0 R. destruct (sim_init S any P scripts a y0 HP H0 (any_all _)) as [I0 _]. destruct (sim_run S any es a y0 _ y I0 R (any_all _)) as (es' & _ & I1 & _). now exists (steps (winit (A := A) a) es').
Qed.
Lemma goes_on scripts a y0 es y t : started S P scripts a y0 -> sruns y0 es y -> (forall k, t <> TOpen k) -> (forall k x, t <> TMessage k x) -> exists y', sstep y (STask t) y'.
Proof.
  intros H0 R N1 N2. destruct (sim_start scripts a y0 es y H0 R) as [w H]. destruct (task_can S _ _ t (si_page _ _ _ _ _ H)) as [p D]. exact (ex_intro _ _ (s_task S y t p N1 N2 D)).
Qed.
Lemma goes_open scripts a y0 es y x : started S P scripts a y0 -> sruns y0 es y -> In x (sy_links y) -> exists y', sstep y (SOpen (ln_sock x)) y'.
Proof.
  intros H0 R Ix. destruct (sim_start scripts a y0 es y H0 R) as [w H]. destruct (task_can S _ _ (TOpen (ln_sock x)) (si_page _ _ _ _ _ H)) as [p D]. exact (ex_intro _ _ (s_open S y _ p x Ix eq_refl D)).
Qed.
Lemma goes_down scripts a y0 es y l x so s t : started S P scripts a y0 -> sruns y0 es y -> nth_error (sy_links y) l = Some x ->
  nth_error (p_socks (sy_sv y)) (ln_pump x) = Some s -> nth_error (sk_out s) (ln_down x) = Some t ->
  nth_error (st_socks (sy_page y)) (ln_sock x) = Some so -> so_state so = Client.Open -> exists y', sstep y (SDown l) y'.
Proof.
  intros H0 R Hx Hs Ht Hso Os. destruct (sim_start scripts a y0 es y H0 R) as [w H]. destruct (task_can S _ _ (TMessage (ln_sock x) t) (si_page _ _ _ _ _ H)) as [p D]. exact (ex_intro _ _ (s_down S y l x so s t p Hx Hs Ht Hso Os D)).
Qed.
Lemma goes_up scripts a y0 es y l x so s v : started S P scripts a y0 -> sruns y0 es y -> nth_error (sy_links y) l = Some x ->
  nth_error (st_socks (sy_page y)) (ln_sock x) = Some so -> nth_error (so_sent so) (ln_up x) = Some v ->
  nth_error (p_socks (sy_sv y)) (ln_pump x) = Some s -> sk_live s = true -> exists y', sstep y (SUp l) y'.
Proof.
  intros H0 R Hx Hso Hv Hs Lv. destruct (sim_start scripts a y0 es y H0 R) as [w H]. destruct (forall2_at _ _ _ _ _ (ag_socks _ _ (sim_agree S any a y w H)) Hso) as (z & _ & (_ & Ez & _)).
  rewrite Ez, nth_error_map in Hv. destruct (nth_error (Client.ws_sent z) (ln_up x)) as [u|] eqn:Eu; [|discriminate]. cbn in Hv. injection Hv as <-.
  assert (Hu : nth_error (so_sent so) (ln_up x) = Some (VStr (snd u))) by (rewrite Ez, nth_error_map, Eu; reflexivity). exact (ex_intro _ _ (s_up S y l x so s (snd u) Hx Hso Hu Hs Lv)).
Qed.

(** ** Server and links *)
Lemma view_handler a y w id n k vs res : Sim a y w -> (handler_ran S a w id n k vs res <-> handler_ran S a (server_side y) id n k vs res).
Proof. intros [Hv Hl _ _ _]. destruct w as [c v l]. cbn in Hv, Hl. subst v l. reflexivity. Qed.
Lemma view_stream a y w id n k vs tk : Sim a y w -> (stream_made S a w id n k vs tk <-> stream_made S a (server_side y) id n k vs tk).
Proof. intros [Hv Hl _ _ _]. destruct w as [c v l]. cbn in Hv, Hl. subst v l. reflexivity. Qed.
Lemma handler_same a w id n k vs res res' : handler_ran S a w id n k vs res -> handler_ran S a w id n k vs res' -> res = res'.
Proof.
  intros (c & v & before & after & q & st' & x & x' & E1 & E2 & E3 & E4 & E5 & (E6 & _) & _) (c1 & v1 & before1 & after1 & q1 & st1 & x1 & x1' & D1 & D2 & D3 & D4 & D5 & (D6 & _) & _).
  assert (L : List.length before = List.length before1).
  { apply D3. exists c, v. rewrite E1, nth_error_app2, Nat.sub_diag by auto. auto. }
  rewrite E1 in D1. assert (before1 = before) as ->.
  { clear - L D1. revert before1 L D1. induction before as [|z l IH]; intros [|z1 l1] L D1; try discriminate; [reflexivity|]. injection D1 as <- D1. injection L as L. f_equal. now apply IH. }
  assert (q1 = q) as -> by congruence. assert (x1 = x) as -> by congruence. congruence.
Qed.
Hypothesis (Lit : faithful (s_lit S) (s_num S)) (Lit' : faithful (s_lit' S) (s_num S)).
Lemma handler_keeps a es : forall w id n k vs res, reach a w -> countable (w_cl (steps w es)) -> handler_ran S a w id n k vs res -> handler_ran S a (steps w es) id n k vs res.
Proof.
  induction es as [|e es IH]; intros w id n k vs res Hr Hc H; [exact H|]. change (steps w (e :: es)) with (steps (step w e) es) in *. apply IH; [now apply wreach_next|exact Hc|].
  apply wcount_run in Hc. destruct H as (c & v & before & after & q & st' & x & x' & E1 & E2 & E3 & E4).
  destruct (wsent_more (call_text S) (read_text S) (same_id S) (from_text S) (to_text S) w e) as (l & El). rewrite E1 in El. rewrite <- app_assoc, <- app_comm_cons in El.
  exists c, v, before, (after ++ l), q, st', x, x'. split; [exact El|]. pose proof (ours_next (call_text S) (read_text S) (same_id S) (from_text S) (to_text S) w e c E2) as Ho. split; [exact Ho|]. split; [|exact E4].
  intros i Hi. apply (calls_once (call_text S) (read_text S) (same_id S) (from_text S) (to_text S) _ _ (wire_understand S Lit Lit') a (step w e) id); auto; [now apply wreach_next|].
  exists c, v. rewrite El, nth_error_app2, Nat.sub_diag by auto. split; [reflexivity|exact Ho].
Qed.
Lemma decoded_same ts l vs vs' : decoded (s_dec S) ts l vs -> decoded (s_dec S) ts l vs' -> vs = vs'.
Proof. intros H. revert vs'. induction H as [|t ts j js v vs E H IH]; intros vs' H'; inversion H'; subst; [reflexivity|]. f_equal; [congruence|now apply IH]. Qed.

(** ** A request *)
Section Asked.
Context (scripts : list script) (a : list F) (y0 y1 y2 : system S) (es1 : list (sevent S)) (ns m : string) (args : list jsval) (b : bool).
Local Notation ask := (STask (TUser (mkScript [ARequest ns m args] b)) : sevent S).
Hypothesis (H0 : started S P scripts a y0) (R1 : sruns y0 es1 y1) (R2 : sstep y1 ask y2).

Lemma asked y es2 : sruns y2 es2 y -> few scripts (tasks_of (es1 ++ ask :: es2)) -> exists w1 (es : list wevent), Sim a y1 w1 /\
  let w := steps (step w1 (WClient (Client.URequest (ns, m, args)))) es in
  Sim a y w /\ countable (w_cl w) /\ Client.bump (Client.cl_id (w_cl w1)) = next_number (sy_page y1) /\
  (pending (sy_page y) (List.length (us_proms (st_user (sy_page y1)))) \/
   exists d, fulfilled (sy_page y) (List.length (us_proms (st_user (sy_page y1)))) d /\ settled w (List.length (Client.cl_subs (w_cl w1))) d).
Proof.
  intros R3 Hf. destruct (sim_init S any P scripts a y0 HP H0 (any_all _)) as [I0 S0].
  destruct (sim_run S any es1 a y0 _ y1 I0 R1 (any_all _)) as (e1 & _ & I1 & B1 & Q1). set (w1 := steps (winit (A := A) a) e1) in *.
  set (w2 := step w1 (WClient (Client.URequest (ns, m, args)))).
  assert (E2 : w2 = mkWorld (acts_next lit num other (w_cl w1) (sc_acts (mkScript [ARequest ns m args] b))) (w_sv w1) (w_links w1)) by reflexivity.
  destruct (sim_user_step S any a y1 w1 _ y2 I1 R2 (any_all _)) as (e2 & _ & I2 & B2 & Q2).
  { rewrite <- E2. apply wreach_next. exact (si_reach _ _ _ _ _ I1). }
  rewrite <- E2 in I2, B2, Q2.
  destruct (sim_run S any es2 a y2 _ y I2 R3 (any_all _)) as (e3 & _ & I3 & B3 & Q3). rewrite <- steps_app in I3, B3, Q3.
  exists w1, (e2 ++ e3). split; [exact I1|]. fold w2. set (w := steps w2 (e2 ++ e3)) in *. cbv zeta. split; [exact I3|].
  assert (C : countable (w_cl w)).
  { apply (few_count S scripts _ _ Hf). change (ask :: es2) with ([ask] ++ es2) in *. rewrite !tasks_app, !task_calls_app. unfold bounded in B2. rewrite S0 in B1. cbn [winit w_cl counted Client.cl_calls Client.cinit List.length] in B1. lia. }
  split; [exact C|].
  pose proof (sim_user S any a y1 w1 I1) as U1.
  destruct (request_adds (call_text S) (read_text S) (same_id S) (w_cl w1) (ns, m, args) U1) as (Ca & bad & Su & _).
  change (Client.cnext (call_text S) (read_text S) (same_id S) (w_cl w1) (Client.URequest (ns, m, args))) with (w_cl w2) in Ca, Su.
  assert (Cn : (N.of_nat (List.length (Client.cl_calls (w_cl w1))) < 2 ^ 53)%N).
  { apply wcount_run in C. unfold countable in C. rewrite Ca, app_length in C. cbn in C. lia. }
  split; [exact (number_is S any a y1 w1 I1 Cn)|].
  set (J := List.length (Client.cl_subs (w_cl w1))).
  assert (K : nth_error (map key (Client.cl_subs (w_cl w))) J = Some (Client.bump (Client.cl_id (w_cl w1)), true)).
  { apply (grown_steps S (e2 ++ e3) w2). rewrite Su, map_app, nth_error_app2, map_length; rewrite ?map_length; [|apply Nat.le_refl]. unfold J. now rewrite Nat.sub_diag. }
  rewrite nth_error_map in K. destruct (nth_error (Client.cl_subs (w_cl w)) J) as [s|] eqn:Es; [|discriminate]. cbn in K. injection K as Ki Kr.
  apply (request_state S any a y w J _ s I3 Es Kr). rewrite (forall2_len _ _ _ (ag_proms _ _ (sim_agree S any a y1 w1 I1))). apply request_at; [|exact Es|exact Kr].
  intros i k E. apply (grown_steps S (e2 ++ e3) w2). now apply grown_step.
Qed.

(** A call that names no item stays pending. *)
Lemma never y es2 : sruns y2 es2 y -> few scripts (tasks_of (es1 ++ ask :: es2)) ->
  read_call (s_dec S) (s_unit S) (s_backend S) (call_value S (ns, m, args)) = None -> pending (sy_page y) (List.length (us_proms (st_user (sy_page y1)))).
Proof.
  intros R3 Hf Hn. destruct (asked y es2 R3 Hf) as (w1 & es & I1 & I3 & C & _ & [Pe|(d & _ & Se)]); [exact Pe|]. exfalso.
  exact (wire_unsettled S Lit Lit' a w1 ns m args es d (si_reach _ _ _ _ _ I1) (sim_user S any a y1 w1 I1) Hn C Se).
Qed.
End Asked.

Section Method.
Context (n k : nat) (f : bfield T) (i : item T) (args : list jsval).
Hypothesis (Hdis : distinct (s_backend S)) (Hit : has_item (s_backend S) n k f i).
Hypothesis (Hns : bf_name f = unraw (variant_ident f)) (Hid : it_ident i = unraw (it_ident i)).
Hypothesis (Ha : it_args i <> []) (Hk : it_kind i = Method) (Hargs : Forall js_value args).
Let vals : list json := map (fun a => to_value (s_float S) (stringify_elem a)) args.
Context (scripts : list script) (a : list F) (y0 y1 y2 : system S) (es1 : list (sevent S)) (b : bool).
Local Notation ask := (STask (TUser (mkScript [ARequest (bf_name f) (it_ident i) args] b)) : sevent S).
Hypothesis (H0 : started S P scripts a y0) (R1 : sruns y0 es1 y1) (R2 : sstep y1 ask y2).
Let j := List.length (us_proms (st_user (sy_page y1))).
Let id := next_number (sy_page y1).

Lemma answered y es2 : sruns y2 es2 y -> few scripts (tasks_of (es1 ++ ask :: es2)) ->
  pending (sy_page y) j \/
  exists vs d0, decoded (s_dec S) (map snd (it_args i)) vals vs /\ fulfilled (sy_page y) j (received_as double d0) /\
    handler_ran S a (server_side y) id n k vs (inl d0).
Proof.
  intros R3 Hf. destruct (asked scripts a y0 y1 y2 es1 _ _ args b H0 R1 R2 y es2 R3 Hf) as (w1 & es & I1 & I3 & C & En & [Pe|(d & Fu & Se)]); [now left|right].
  destruct (wire_settled S Lit Lit' n k f i args a w1 Hdis Hit Hns Hid (si_reach _ _ _ _ _ I1) (sim_user S any a y1 w1 I1) Hargs es d Ha Hk C Se) as (vs & d0 & De & -> & Hr).
  exists vs, d0. split; [exact De|]. split; [exact Fu|]. unfold id. rewrite <- En. now apply (view_handler a y _ _ n k vs (inl d0) I3).
Qed.
Lemma failed y es2 y' es3 vs e : sruns y2 es2 y -> sruns y es3 y' -> few scripts (tasks_of (es1 ++ ask :: es2 ++ es3)) ->
  decoded (s_dec S) (map snd (it_args i)) vals vs -> handler_ran S a (server_side y) id n k vs (inr e) -> pending (sy_page y') j.
Proof.
  intros R3 R4 Hf De Hr.
  assert (R34 : sruns y2 (es2 ++ es3) y') by (clear - R3 R4; induction R3; [exact R4|cbn; econstructor; eauto]).
  destruct (answered y' (es2 ++ es3) R34 Hf) as [Pe|(vs' & d0 & De' & _ & Hr')]; [exact Pe|]. exfalso.
  rewrite <- (decoded_same _ _ _ _ De De') in Hr'.
  assert (Keep : handler_ran S a (server_side y') id n k vs (inr e)); [|pose proof (handler_same _ _ _ _ _ _ _ _ Keep Hr'); discriminate].
  destruct (sim_init S any P scripts a y0 HP H0 (any_all _)) as [I0 S0].
  assert (R03 : sruns y0 (es1 ++ ask :: es2) y) by (clear - R1 R2 R3; induction R1; [cbn; econstructor; eauto|cbn; econstructor; eauto]).
  destruct (sim_run S any _ a y0 _ y I0 R03 (any_all _)) as (e1 & _ & I1 & B1 & _). destruct (sim_run S any _ a y _ y' I1 R4 (any_all _)) as (e2 & _ & I2 & B2 & _).
  apply (view_handler a y' _ id n k vs (inr e) I2). apply handler_keeps; [exact (si_reach _ _ _ _ _ I1)| |now apply (view_handler a y _ id n k vs (inr e) I1)].
  apply (few_count S scripts _ _ Hf). change (es1 ++ ask :: es2 ++ es3) with (es1 ++ (ask :: es2) ++ es3). rewrite app_assoc, tasks_app, task_calls_app. rewrite S0 in B1. cbn [winit w_cl counted Client.cl_calls Client.cinit List.length] in B1. lia.
Qed.
End Method.

(** ** A stream *)
Section Streamed.
Context (scripts : list script) (a : list F) (y0 y1 y2 : system S) (es1 : list (sevent S)) (ns m : string) (args : list jsval) (b : bool).
Local Notation ask := (STask (TUser (mkScript [AStream ns m args; AListen (List.length (us_stores (st_user (sy_page y1))))] b)) : sevent S).
Hypothesis (H0 : started S P scripts a y0) (R1 : sruns y0 es1 y1) (R2 : sstep y1 ask y2).

Lemma streamed y es2 : sruns y2 es2 y -> few scripts (tasks_of (es1 ++ ask :: es2)) -> exists w1 (es : list wevent), Sim a y1 w1 /\
  let w := steps (step (step w1 (WClient (Client.UStream (ns, m, args)))) (WClient (Client.UListen (List.length (Client.cl_stores (w_cl w1)))))) es in
  Sim a y w /\ countable (w_cl w) /\ Client.bump (Client.cl_id (w_cl w1)) = next_number (sy_page y1) /\
  (Forall tame scripts -> no_throws (w_cl w)) /\
  exists s, nth_error (Client.cl_subs (w_cl w)) (List.length (Client.cl_subs (w_cl w1))) = Some s /\ Client.su_id s = Client.bump (Client.cl_id (w_cl w1)) /\
    heard_of (List.length (us_unls (st_user (sy_page y1)))) (sy_page y) = map (fun d => [VData d]) (Client.su_seen s).
Proof.
  intros R3 Hf. destruct (sim_init S any P scripts a y0 HP H0 (any_all _)) as [I0 S0].
  destruct (sim_run S any es1 a y0 _ y1 I0 R1 (any_all _)) as (e1 & _ & I1 & B1 & Q1). set (w1 := steps (winit (A := A) a) e1) in *.
  pose proof (ag_stores _ _ (sim_agree S any a y1 w1 I1)) as Es.
  set (w1' := step w1 (WClient (Client.UStream (ns, m, args)))). set (w2 := step w1' (WClient (Client.UListen (List.length (Client.cl_stores (w_cl w1)))))).
  assert (E2 : w2 = mkWorld (acts_next lit num other (w_cl w1) (sc_acts (mkScript [AStream ns m args; AListen (List.length (us_stores (st_user (sy_page y1))))] b))) (w_sv w1) (w_links w1)) by (rewrite Es; reflexivity).
  destruct (sim_user_step S any a y1 w1 _ y2 I1 R2 (any_all _)) as (e2 & _ & I2 & B2 & Q2).
  { rewrite <- E2. apply wreach_next, wreach_next. exact (si_reach _ _ _ _ _ I1). }
  rewrite <- E2 in I2, B2, Q2.
  destruct (sim_run S any es2 a y2 _ y I2 R3 (any_all _)) as (e3 & _ & I3 & B3 & Q3). rewrite <- steps_app in I3, B3, Q3.
  exists w1, (e2 ++ e3). split; [exact I1|]. fold w1'. fold w2. set (w := steps w2 (e2 ++ e3)) in *. cbv zeta. split; [exact I3|].
  assert (C : countable (w_cl w)).
  { apply (few_count S scripts _ _ Hf). change (ask :: es2) with ([ask] ++ es2) in *. rewrite !tasks_app, !task_calls_app. unfold bounded in B2. rewrite S0 in B1. cbn [winit w_cl counted Client.cl_calls Client.cinit List.length] in B1. lia. }
  split; [exact C|].
  pose proof (sim_user S any a y1 w1 I1) as U1.
  destruct (call_text S (Client.bump (Client.cl_id (w_cl w1))) (ns, m, args)) as [tx|] eqn:Etx; [|now apply enc_total in Etx].
  destruct (stream_adds (call_text S) (read_text S) (same_id S) (w_cl w1) (ns, m, args) tx U1 Etx) as (Ca & _ & Su & Sto & _ & U2).
  change (Client.cnext (call_text S) (read_text S) (same_id S) (w_cl w1) (Client.UStream (ns, m, args))) with (w_cl w1') in Ca, Su, Sto, U2.
  assert (Hst : nth_error (Client.cl_stores (w_cl w1')) (List.length (Client.cl_stores (w_cl w1))) = Some (Client.bump (Client.cl_id (w_cl w1)))) by (rewrite Sto, nth_error_app2, Nat.sub_diag; [reflexivity|apply Nat.le_refl]).
  destruct (listen_adds (call_text S) (read_text S) (same_id S) (w_cl w1') _ _ U2 Hst) as [Su2 _].
  change (Client.cnext (call_text S) (read_text S) (same_id S) (w_cl w1') _) with (w_cl w2) in Su2. rewrite Su in Su2.
  assert (Cn : (N.of_nat (List.length (Client.cl_calls (w_cl w1))) < 2 ^ 53)%N).
  { apply wcount_run, wcount_back in C. fold w1' in C. unfold countable in C. rewrite Ca, app_length in C. cbn in C. lia. }
  split; [exact (number_is S any a y1 w1 I1 Cn)|].
  split.
  { intros Ht. rewrite S0 in Q1. destruct (Q1 Ht) as [T1 N1]. destruct (Q2 T1) as [T2 N2]. destruct (Q3 T2) as [_ N3]. apply N3, N2, N1. constructor. }
  set (J := List.length (Client.cl_subs (w_cl w1))).
  assert (K : nth_error (map key (Client.cl_subs (w_cl w))) J = Some (Client.bump (Client.cl_id (w_cl w1)), false)).
  { apply (grown_steps S (e2 ++ e3) w2). rewrite Su2, map_app, nth_error_app2, map_length; rewrite ?map_length; [|apply Nat.le_refl]. unfold J. now rewrite Nat.sub_diag. }
  rewrite nth_error_map in K. destruct (nth_error (Client.cl_subs (w_cl w)) J) as [s|] eqn:Ej; [|discriminate]. cbn in K. injection K as Ki Kr.
  exists s. split; [reflexivity|]. split; [exact Ki|]. rewrite (ag_unls _ _ (sim_agree S any a y1 w1 I1)).
  apply (ag_heard _ _ (sim_agree S any a y w I3) _ J); [|exact Ej]. apply (listener_at _ _ s); [|exact Ej|exact Kr].
  intros i k E. apply (grown_steps S (e2 ++ e3) w2). apply grown_step, grown_step, E.
Qed.

(** Of a call that names no item nothing is heard. *)
Lemma never_heard y es2 : sruns y2 es2 y -> few scripts (tasks_of (es1 ++ ask :: es2)) ->
  read_call (s_dec S) (s_unit S) (s_backend S) (call_value S (ns, m, args)) = None -> heard_of (List.length (us_unls (st_user (sy_page y1)))) (sy_page y) = [].
Proof.
  intros R3 Hf Hn. destruct (streamed y es2 R3 Hf) as (w1 & es & I1 & I3 & C & _ & _ & s & Es & Ei & ->).
  rewrite (wire_unheard S Lit Lit' a w1 ns m args (_ :: es) _ s (si_reach _ _ _ _ _ I1) (sim_user S any a y1 w1 I1) Hn C Es Ei). reflexivity.
Qed.
End Streamed.

Section StreamItem.
Context (n k : nat) (f : bfield T) (i : item T) (args : list jsval).
Hypothesis (Hdis : distinct (s_backend S)) (Hit : has_item (s_backend S) n k f i).
Hypothesis (Hns : bf_name f = unraw (variant_ident f)) (Hid : it_ident i = unraw (it_ident i)).
Hypothesis (Ha : it_args i <> []) (Hk : it_kind i = Stream) (Hargs : Forall js_value args).
Let vals : list json := map (fun a => to_value (s_float S) (stringify_elem a)) args.
Context (scripts : list script) (a : list F) (y0 y1 y2 : system S) (es1 : list (sevent S)) (b : bool).
Local Notation ask := (STask (TUser (mkScript [AStream (bf_name f) (it_ident i) args; AListen (List.length (us_stores (st_user (sy_page y1))))] b)) : sevent S).
Hypothesis (H0 : started S P scripts a y0) (R1 : sruns y0 es1 y1) (R2 : sstep y1 ask y2).

Lemma hears y es2 : sruns y2 es2 y -> few scripts (tasks_of (es1 ++ ask :: es2)) ->
  exists seen, heard_of (List.length (us_unls (st_user (sy_page y1)))) (sy_page y) = map (fun d => [VData d]) seen /\
    (seen = [] \/
     exists vs tk heard after, decoded (s_dec S) (map snd (it_args i)) vals vs /\
       stream_made S a (server_side y) (next_number (sy_page y1)) n k vs tk /\
       values (A := A) (received_as double) tk = heard ++ after /\ thinned heard seen /\ (Forall tame scripts -> heard = seen)).
Proof.
  intros R3 Hf. destruct (streamed scripts a y0 y1 y2 es1 _ _ args b H0 R1 R2 y es2 R3 Hf) as (w1 & es & I1 & I3 & C & En & Nt & s & Es & _ & Eh).
  exists (Client.su_seen s). split; [exact Eh|].
  destruct (wire_heard S Lit Lit' n k f i args a w1 Hdis Hit Hns Hid (si_reach _ _ _ _ _ I1) (sim_user S any a y1 w1 I1) Hargs es Ha Hk C) as (s' & Es' & X).
  assert (Ess : Some s' = Some s) by exact (eq_trans (eq_sym Es') Es). injection Ess as ->. destruct X as [X|(vs & tk & heard & after & X1 & X2 & X3 & X4 & X5)]; [now left|]. right.
  exists vs, tk, heard, after. split; [exact X1|]. split; [rewrite <- En; now apply (view_stream a y _ _ n k vs tk I3)|]. split; [exact X3|]. split; [exact X4|]. auto.
Qed.
End StreamItem.

(** ** All requests *)
Lemma subs_step w (e : wevent) J s : nth_error (Client.cl_subs (w_cl (step w e))) J = Some s -> Client.su_req s = true ->
  J < List.length (Client.cl_subs (w_cl w)) \/ (J = List.length (Client.cl_subs (w_cl w)) /\ exists r, e = WClient (Client.URequest r) /\ Client.user (w_cl w) = true).
Proof.
  intros H Q.
  assert (Not : forall ce, (forall r, ce <> Client.URequest r) -> nth_error (Client.cl_subs (Client.cnext (call_text S) (read_text S) (same_id S) (w_cl w) ce)) J = Some s -> J < List.length (Client.cl_subs (w_cl w))).
  { intros ce N H'. destruct (subs_new (call_text S) (read_text S) (same_id S) _ _ _ _ H' Q) as [L|[_ (r & E & _)]]; [exact L|]. now destruct (N r). }
  assert (Same : nth_error (Client.cl_subs (w_cl w)) J = Some s -> J < List.length (Client.cl_subs (w_cl w))) by apply nth_some_lt.
  destruct e as [ce|pe|n|n|l|l]; cbn [wnext] in H.
  - assert (Next : nth_error (Client.cl_subs (Client.cnext (call_text S) (read_text S) (same_id S) (w_cl w) ce)) J = Some s -> J < List.length (Client.cl_subs (w_cl w)) \/ (J = List.length (Client.cl_subs (w_cl w)) /\ exists r, (WClient ce : wevent) = WClient (Client.URequest r) /\ Client.user (w_cl w) = true)).
    { intros H'. destruct (subs_new (call_text S) (read_text S) (same_id S) _ _ _ _ H' Q) as [L|[L (r & -> & U)]]; [now left|right; eauto]. }
    destruct ce; try exact (Next H); left; exact (Same H).
  - left. destruct pe as [x| |k fr|k|k b]; try exact (Same H). destruct fr as [t| | |]; try exact (Same H). destruct (linked_pump w k); exact (Same H).
  - left. destruct (_ && _ && _)%bool in H; exact (Same H).
  - left. destruct (linked_sock w n); [exact (Not (Client.NOpen n) (fun r E => ltac:(discriminate E)) H)|exact (Same H)].
  - left. destruct (nth_error (w_links w) l) as [x|]; [|exact (Same H)]. destruct (nth_error (sent_on (w_cl w) (ln_sock x)) (ln_up x)) as [[id t]|]; [|exact (Same H)].
    destruct (nth_error (p_socks (w_sv w)) (ln_pump x)) as [k|]; [|exact (Same H)]. destruct (sk_live k); exact (Same H).
  - left. destruct (nth_error (w_links w) l) as [x|]; [|exact (Same H)]. destruct (nth_error (p_socks (w_sv w)) (ln_pump x)) as [k|]; [|exact (Same H)].
    destruct (nth_error (sk_out k) (ln_down x)) as [t|]; [|exact (Same H)]. destruct (Client.idle (w_cl w)); [|exact (Same H)].
    destruct (Client.state_of (w_cl w) (ln_sock x)); try exact (Same H). exact (Not (Client.NMessage (ln_sock x) t) (fun r E => ltac:(discriminate E)) H).
Qed.
Lemma origin w0 J : Client.cl_subs (w_cl w0) = [] -> forall (es : list wevent) s, nth_error (Client.cl_subs (w_cl (steps w0 es))) J = Some s -> Client.su_req s = true ->
  exists ea r eb, es = ea ++ WClient (Client.URequest r) :: eb /\ Client.user (w_cl (steps w0 ea)) = true /\ List.length (Client.cl_subs (w_cl (steps w0 ea))) = J.
Proof.
  intros H0 es. induction es as [|e es IH] using rev_ind; intros s H Q.
  - change (steps w0 []) with w0 in H. rewrite H0 in H. destruct J; discriminate.
  - rewrite steps_app in H. change (steps (steps w0 es) [e]) with (step (steps w0 es) e) in H. destruct (subs_step _ e _ _ H Q) as [L|[L (r & -> & U)]].
    + destruct (nth_error (Client.cl_subs (w_cl (steps w0 es))) J) as [s'|] eqn:E; [|apply nth_error_None in E; lia].
      assert (Q' : Client.su_req s' = true).
      { assert (K : nth_error (map key (Client.cl_subs (w_cl (steps w0 es)))) J = Some (key s')) by (rewrite nth_error_map, E; reflexivity). apply (grown_step S (steps w0 es) e) in K. rewrite nth_error_map, H in K. cbn in K. injection K as _ K. congruence. }
      destruct (IH s' eq_refl Q') as (ea & r & eb & -> & U & Le). exists ea, r, (eb ++ [e]). split; [now rewrite <- app_assoc|]. auto.
    + exists es, r, []. auto.
Qed.

Section All.
Context (scripts : list script) (a : list F) (y0 y : system S) (es : list (sevent S)).
Hypothesis (Hdis : distinct (s_backend S)) (H0 : started S P scripts a y0) (R : sruns y0 es y) (Hf : few scripts (tasks_of es)).
Let acts := all_actions scripts (tasks_of es).
Hypothesis Hcalls : forall ns m args, In (ARequest ns m args) acts -> ~ In ns (field_tags (s_backend S)) \/ exists n k f i, calls_method S ns m args n k f i.
Lemma all_answered : exists ids, NoDup ids /\ List.length ids = List.length (us_proms (st_user (sy_page y))) /\
  forall j id, nth_error ids j = Some id -> pending (sy_page y) j \/
    exists ns m args n k f i vs d, In (ARequest ns m args) acts /\ calls_method S ns m args n k f i /\
      decoded (s_dec S) (map snd (it_args i)) (map (fun a => to_value (s_float S) (stringify_elem a)) args) vs /\
      fulfilled (sy_page y) j (received_as double d) /\ handler_ran S a (server_side y) id n k vs (inl d).
Proof.
  set (C := fun x : action => In x acts).
  assert (A1 : allowed C (flat_map sc_acts scripts)) by (apply Forall_forall; intros x Ix; apply in_or_app; now left).
  assert (A2 : allowed C (task_acts (tasks_of es))) by (apply Forall_forall; intros x Ix; apply in_or_app; now right).
  destruct (sim_init S C P scripts a y0 HP H0 A1) as [I0 S0]. destruct (sim_run S C es a y0 _ y I0 R A2) as (es' & O & I1 & B & _). set (w := steps (winit (A := A) a) es') in *.
  assert (Cn : countable (w_cl w)) by (apply (few_count S scripts _ _ Hf); rewrite S0 in B; cbn [winit w_cl counted Client.cl_calls Client.cinit List.length] in B; lia).
  pose proof (sim_creach S C a y w I1) as Rw. pose proof (sim_agree S C a y w I1) as G.
  exists (map (@Client.su_id jsval) (filter Client.su_req (Client.cl_subs (w_cl w)))). split; [|split].
  - apply filter_nodup. intros i j x z Hx Hz Px _ E. exact (ClientProofs.request_id_own _ _ _ _ i j x z Rw Cn Hx Hz Px E).
  - rewrite map_length. symmetry. exact (forall2_len _ _ _ (ag_proms _ _ G)).
  - intros j id Hj. rewrite nth_error_map in Hj. destruct (nth_error (filter Client.su_req (Client.cl_subs (w_cl w))) j) as [s|] eqn:Es; [|discriminate]. cbn in Hj. injection Hj as <-.
    pose proof (nth_error_In _ _ Es) as Is. apply filter_In in Is as [Is Q]. apply In_nth_error in Is as [J HJ].
    destruct (request_state S C a y w J j s I1 HJ Q Es) as [Pe|(d & Fu & Se)]; [now left|right].
    destruct (origin (winit (A := A) a) J eq_refl es' s HJ Q) as (ea & [[ns m] args] & eb & Ee & U & Le).
    assert (Ic : In (ARequest ns m args) acts) by (rewrite Ee in O; apply Forall_app in O as [_ O]; now inversion O).
    assert (Ew : w = steps (step (steps (winit (A := A) a) ea) (WClient (Client.URequest (ns, m, args)))) eb) by (unfold w; rewrite Ee, steps_app; reflexivity).
    set (w0 := steps (winit (A := A) a) ea) in *. assert (Rw0 : reach a w0) by (now exists ea).
    assert (Un : read_call (s_dec S) (s_unit S) (s_backend S) (call_value S (ns, m, args)) <> None).
    { intros Hn. rewrite <- Le, Ew in Se. rewrite Ew in Cn. exact (wire_unsettled S Lit Lit' a w0 ns m args eb d Rw0 U Hn Cn Se). }
    destruct (Hcalls ns m args Ic) as [K|(n & k & f & i & K)]; [destruct (Un (exec_unknown_name (s_dec S) (s_float S) (s_unit S) (s_backend S) ns m (map real args) K))|].
    destruct K as [K1 K2 K3 K4 K5 K7 K8]. subst ns m.
    assert (K6 : it_args i <> []) by (intros K6; exact (Un (exec_no_arguments (s_dec S) (s_float S) (s_unit S) (s_backend S) n k f i (map real args) Hdis K1 K4 K5 K6))).
    assert (Ki : Client.su_id s = Client.bump (Client.cl_id (w_cl w0))).
    { destruct (request_adds (call_text S) (read_text S) (same_id S) (w_cl w0) (bf_name f, it_ident i, args) U) as (_ & bad & Su & _).
      set (w2 := step w0 (WClient (Client.URequest (bf_name f, it_ident i, args)))) in *. change (Client.cnext (call_text S) (read_text S) (same_id S) (w_cl w0) (Client.URequest (bf_name f, it_ident i, args))) with (w_cl w2) in Su.
      assert (K : nth_error (map key (Client.cl_subs (w_cl w))) J = Some (Client.bump (Client.cl_id (w_cl w0)), true)).
      { rewrite Ew. apply (grown_steps S eb). rewrite Su, map_app, nth_error_app2, map_length; rewrite ?map_length; [|lia]. now rewrite Le, Nat.sub_diag. }
      rewrite nth_error_map, HJ in K. cbn in K. injection K as K _. exact K. }
    rewrite <- Le, Ew in Se. rewrite Ew in Cn.
    destruct (wire_settled S Lit Lit' n k f i args a w0 Hdis K1 K4 K5 Rw0 U K8 eb d K6 K7 Cn Se) as (vs & d0 & De & -> & Hr).
    exists (bf_name f), (it_ident i), args, n, k, f, i, vs, d0. split; [exact Ic|]. split; [now constructor|]. split; [exact De|]. split; [exact Fu|].
    change (handler_ran S a (steps (step w0 (WClient (Client.URequest (bf_name f, it_ident i, args)))) eb) (Client.bump (Client.cl_id (w_cl w0))) n k vs (inl d0)) in Hr. rewrite <- Ew, <- Ki in Hr. destruct I1 as [Hv Hl _ _ _]. clearbody w. destruct w as [c v l]. cbn in Hv, Hl. subst v l. exact Hr.
Qed.
End All.
End Claims.
