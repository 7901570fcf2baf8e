(** What a stream of a page is sent reaches its listener.  Proof side. *)
From Coq Require Import List String Ascii Bool Arith NArith ZArith Lia.
From Verif Require Import Util Js JsonText JsonTextSpec JsonTextProofs Registry Macro Server ServerSpec ServerLemmas Pump Wire WireSpec WireProofs TsProgram FileProofs ClientSpec ClientProofs.
From Verif Require Import E2E E2ESpec E2EStreamSpec E2EText E2EProofs E2ESafe E2EFail E2ELive E2ESettle E2EWire E2EStream E2EStreamWire.
From Verif Require Import JsSem JsSpec JsWorld JsStep JsEntries JsTasks JsPage JsMono JsClaims System SystemSpec SystemProofs SystemClaims SystemFair SystemSched SystemLive.
From Verif Require Client ClientSockProofs JsRun Prelude.
Import ListNotations.
Local Open Scope string_scope.
Local Open Scope list_scope.

Section Flow.
Context {T V F : Type} (S : setting T V F).
Local Notation A := (rpc S).
Local Notation lit := (s_lit S).
Local Notation num := (s_num S).
Local Notation other := (s_other S).
Local Notation reach := (wreachable (call_text S) (read_text S) (same_id S) (from_text S) (to_text S)).
Local Notation step := (wnext (call_text S) (read_text S) (same_id S) (from_text S) (to_text S)).
Local Notation steps := (wrun (call_text S) (read_text S) (same_id S) (from_text S) (to_text S)).
Local Notation time := (at_time (call_text S) (read_text S) (same_id S) (from_text S) (to_text S)).
Local Notation world := (E2E.world jstr jsval jsval A).
Local Notation wevent := (wevent rcall jstr A).
Local Notation sstep := (sstep S).
Local Notation sruns := (sruns S).
Implicit Types (w : world).

(** ** A stream that was made goes on *)
Lemma task_world w e t tk : nth_error (st_tasks (p_srv (w_sv w))) t = Some tk ->
  exists tk', nth_error (st_tasks (p_srv (w_sv (step w e)))) t = Some tk' /\ tk_conn tk' = tk_conn tk /\ tk_id tk' = tk_id tk.
Proof.
  intros H. destruct (sv_next (call_text S) (read_text S) (same_id S) (from_text S) (to_text S) w e) as [->|(pe & ->)]; [exists tk; auto|].
  destruct (srv_next (from_text S) (to_text S) (w_sv w) pe) as [->|[(e1 & -> & _)|(e1 & e2 & -> & _)]]; [exists tk; auto| |].
  - destruct (task_mono_step _ e1 t tk H) as (k & Hk & E1 & E2 & _). exists k. auto.
  - destruct (task_mono_step _ e1 t tk H) as (k & Hk & E1 & E2 & _). destruct (task_mono_step _ e2 t k Hk) as (k' & Hk' & E1' & E2' & _). exists k'. split; [exact Hk'|]. split; congruence.
Qed.
Hypothesis (Lit : faithful (s_lit S) (s_num S)) (Lit' : faithful (s_lit' S) (s_num S)).
Lemma made_keeps a es : forall w id n k vs tk, reach a w -> countable (w_cl (steps w es)) -> stream_made S a w id n k vs tk -> exists tk', stream_made S a (steps w es) id n k vs tk'.
Proof.
  induction es as [|e es IH]; intros w id n k vs tk Hr Hc H; [exact (ex_intro _ tk H)|]. change (steps w (e :: es)) with (steps (step w e) es) in *.
  assert (M : exists tk', stream_made S a (step w e) id n k vs tk').
  2:{ destruct M as [tk' M]. exact (IH (step w e) id n k vs tk' (wreach_next _ _ _ _ _ a w e Hr) Hc M). }
  apply wcount_run in Hc. destruct H as (c & v & before & after & q & st' & x & x' & E1 & E2 & E3 & E4 & E5 & E6 & E7 & E8 & E9 & E10).
  destruct (wsent_more (call_text S) (read_text S) (same_id S) (from_text S) (to_text S) w e) as (l & El). rewrite E1 in El. rewrite <- app_assoc, <- app_comm_cons in El.
  destruct (task_world w e _ tk E8) as (tk' & T1 & T2 & T3). rewrite <- T2 in E9. rewrite <- T3 in E10.
  pose proof (ours_next (call_text S) (read_text S) (same_id S) (from_text S) (to_text S) w e c E2) as Ho.
  exists tk', c, v, before, (after ++ l), q, st', x, x'. split; [exact El|]. split; [exact Ho|]. split; [|exact (conj E4 (conj E5 (conj E6 (conj E7 (conj T1 (conj E9 E10))))))].
  intros i Hi. apply (calls_once (call_text S) (read_text S) (same_id S) (from_text S) (to_text S) _ _ (wire_understand S Lit Lit') a (step w e) id); auto; [now apply wreach_next|].
  exists c, v. rewrite El, nth_error_app2, Nat.sub_diag by auto. split; [reflexivity|exact Ho].
Qed.

Context (P : list TsProgram.top) (HP : program Prelude.websocket_client = Some P).
Context (n k : nat) (f : bfield T) (it : item T) (args : list jsval).
Hypothesis (Hdis : distinct (s_backend S)) (Hit : has_item (s_backend S) n k f it).
Hypothesis (Hns : bf_name f = unraw (variant_ident f)) (Hid : it_ident it = unraw (it_ident it)).
Hypothesis (Ha : it_args it <> []) (Hk : it_kind it = Stream) (Hargs : Forall js_value args).
Context (scripts : list script) (a : list F) (y0 y1 : system S) (es1 : list (sevent S)) (b : bool).
Context (y : nat -> system S) (e : nat -> sevent S) (sock : nat).
Local Notation r := ((bf_name f, it_ident it, args) : rcall).
Local Notation ask := (STask (TUser (mkScript [AStream (bf_name f) (it_ident it) args; AListen (List.length (us_stores (st_user (sy_page y1))))] b)) : sevent S).
Hypothesis (H0 : started S P scripts a y0) (R1 : sruns y0 es1 y1) (R2 : sstep y1 ask (y 0)) (En : endless y e).
Hypothesis Few : forall i, few scripts (tasks_of (es1 ++ ask :: map e (seq 0 i))).
Let u := List.length (us_unls (st_user (sy_page y1))).
Let id := next_number (sy_page y1).
Definition C (x : action) : Prop := x <> AUnlisten u.
Local Notation Sim := (Sim S C).
Hypothesis Conn : forall i, connected (y i) sock.
Hypothesis Tame : Forall tame scripts.

Section Worlds.
Context (w0 : world) (l0 : list (Client.cevent rcall jstr)) (W : nat -> world) (B : nat -> list wevent) (sigma : nat -> wevent).
Local Notation w1 := (step w0 (WClient (Client.UStream r))).
Local Notation w2 := (step w1 (WClient (Client.UListen (List.length (Client.cl_stores (w_cl w0)))))).
Hypothesis (I0 : Sim a y1 w0) (Lc : Forall local l0) (E0 : W 0 = steps w2 (map (fun e => WClient e) l0)).
Hypothesis HW : forall i, Sim a (y i) (W i) /\ covers S C y e i (W i) (B i) (W (Datatypes.S i)).
Local Notation blocks := (blocks S B l0).
Local Notation turn := (turn S W w2).
Hypothesis (Hs : forall i k ev, nth_error (blocks i) k = Some ev -> sigma (begin blocks i + k) = ev)
           (Hm : forall i, map sigma (seq 0 (begin blocks i)) = List.concat (map blocks (seq 0 i))).
Hypothesis B0 : counted (w_cl (W 0)) + weigh (scr S (y 0)) <= weigh scripts + task_calls (tasks_of (es1 ++ [ask])).
Hypothesis Kc : calm_run S C w2 (map (fun e => WClient e) l0).
Hypothesis Q0 : Forall tame (scr S (y 0)) /\ no_throws (w_cl (W 0)).
Let J := List.length (Client.cl_subs (w_cl w0)).
Local Notation entry w s := (nth_error (Client.cl_subs (w_cl w)) J = Some s).

Lemma fl_reach1 : reach a w1.
Proof. apply wreach_next. exact (si_reach _ _ _ _ _ I0). Qed.
Lemma fl_reach2 : reach a w2.
Proof. apply wreach_next, fl_reach1. Qed.
Lemma fl_reach x : reach a (time w2 sigma x).
Proof. rewrite at_time_run. apply wreach_run, fl_reach2. Qed.
Lemma sent_text : exists tx, call_text S (Client.bump (Client.cl_id (w_cl w0))) r = Some tx.
Proof. destruct (call_text S (Client.bump (Client.cl_id (w_cl w0))) r) as [tx|] eqn:Etx; [now exists tx|now destruct (enc_total S _ _ Etx)]. Qed.
Lemma subs2 : Client.cl_subs (w_cl w2) = Client.cl_subs (w_cl w0) ++ [Client.mkSub (Client.bump (Client.cl_id (w_cl w0))) false false true [] (Client.done (w_cl w1)) 0].
Proof.
  destruct sent_text as [tx Etx].
  destruct (stream_adds (call_text S) (read_text S) (same_id S) (w_cl w0) r tx (sim_user S C a y1 w0 I0) Etx) as (_ & _ & Su & Sto & _ & U2).
  change (Client.cnext (call_text S) (read_text S) (same_id S) (w_cl w0) (Client.UStream r)) with (w_cl w1) in Su, Sto, U2.
  assert (Hst : nth_error (Client.cl_stores (w_cl w1)) (List.length (Client.cl_stores (w_cl w0))) = Some (Client.bump (Client.cl_id (w_cl w0)))) by (rewrite Sto, nth_error_app2, Nat.sub_diag; [reflexivity|apply Nat.le_refl]).
  destruct (listen_adds (call_text S) (read_text S) (same_id S) (w_cl w1) _ _ U2 Hst) as [Su2 _].
  change (Client.cnext (call_text S) (read_text S) (same_id S) (w_cl w1) _) with (w_cl w2) in Su2. rewrite Su in Su2. exact Su2.
Qed.
Definition on w : Prop := exists s, entry w s /\ Client.su_req s = false /\ Client.su_live s = true.
Lemma on2 : on w2.
Proof. eexists. rewrite subs2, nth_error_app2 by apply Nat.le_refl. unfold J. rewrite Nat.sub_diag. split; [reflexivity|]. split; reflexivity. Qed.
Lemma on_sub w : on w -> Client.subscribed (w_cl w) = true.
Proof. intros (s & E & _ & Lv). exact (live_subscribed _ J s E Lv). Qed.
Lemma on_next w ev : (ev <> WClient (Client.UUnlisten J)) -> on w -> on (step w ev).
Proof.
  intros Nu (s & E & Q & Lv).
  assert (Ev : w_cl (step w ev) = w_cl w \/ exists ce, ce <> Client.UUnlisten J /\ w_cl (step w ev) = Client.cnext (call_text S) (read_text S) (same_id S) (w_cl w) ce).
  { destruct ev as [ce|pe|m|m|l|l]; cbn [wnext].
    - assert (Nc : ce <> Client.UUnlisten J) by (intros ->; exact (Nu eq_refl)). destruct ce; try (right; eexists; split; [exact Nc|reflexivity]); left; reflexivity.
    - left. destruct pe as [x| |m fr|m|m bb]; try reflexivity. destruct fr as [t| | |]; try reflexivity. destruct (linked_pump w m); reflexivity.
    - left. destruct (_ && _ && _)%bool; reflexivity.
    - destruct (linked_sock w m); [|left; reflexivity]. right. exists (Client.NOpen m). split; [discriminate|reflexivity].
    - left. destruct (nth_error (w_links w) l) as [x|]; [|reflexivity]. destruct (nth_error (sent_on (w_cl w) (ln_sock x)) (ln_up x)) as [[i t]|]; [|reflexivity].
      destruct (nth_error (p_socks (w_sv w)) (ln_pump x)) as [z|]; [|reflexivity]. destruct (sk_live z); reflexivity.
    - destruct (nth_error (w_links w) l) as [x|]; [|left; reflexivity]. destruct (nth_error (p_socks (w_sv w)) (ln_pump x)) as [z|]; [|left; reflexivity].
      destruct (nth_error (sk_out z) (ln_down x)) as [t|]; [|left; reflexivity]. destruct (Client.idle (w_cl w)); [|left; reflexivity].
      destruct (Client.state_of (w_cl w) (ln_sock x)); try (left; reflexivity). right. exists (Client.NMessage (ln_sock x) t). split; [discriminate|reflexivity]. }
  destruct Ev as [Ev|(ce & Nc & Ev)]; unfold on; rewrite Ev; [exact (ex_intro _ s (conj E (conj Q Lv)))|].
  exact (listener_next (call_text S) (read_text S) (same_id S) (w_cl w) ce J s Nc E Q Lv).
Qed.
Lemma fl_stays2 : stays u J (w_cl w2).
Proof.
  unfold stays, u. rewrite (ag_unls _ _ (sim_agree S C a y1 w0 I0)). unfold J. eapply listener_at; [|rewrite subs2, nth_error_app2 by apply Nat.le_refl; rewrite Nat.sub_diag; reflexivity|reflexivity].
  intros q z Hz. now apply grown_step, grown_step.
Qed.
Lemma turn_run i : exists es, turn i = steps w2 es.
Proof. exists (map sigma (seq 0 (begin blocks i))). rewrite <- at_time_run. symmetry. exact (time_turn S C a y e W B w2 l0 HW E0 sigma Hs Hm i). Qed.
Lemma fl_stays i : stays u J (w_cl (W i)).
Proof. destruct (turn_run (Datatypes.S i)) as [es E]. change (turn (Datatypes.S i)) with (W i) in E. rewrite E. pose proof fl_stays2 as St. revert St. apply listeners_grown. exact (grown_steps S es w2). Qed.
Lemma sigma_calm x : sigma x <> WClient (Client.UUnlisten J).
Proof.
  destruct (time_in S C a y e W B w2 l0 HW E0 sigma Hs Hm x) as (i & q & -> & L & _). destruct (nth_error (blocks i) q) as [ev|] eqn:Ev; [|apply nth_error_None in Ev; lia].
  rewrite (Hs i q ev Ev). apply nth_error_In in Ev. assert (NC : ~ C (AUnlisten u)) by (intros X; exact (X eq_refl)). destruct i as [|i].
  - change (blocks 0) with (map (fun e => WClient e : wevent) l0 ++ [WClient Client.CVisit]) in Ev. apply in_app_iff in Ev as [Ev|[<-|[]]]; [|discriminate].
    pose proof (Kc u J NC fl_stays2) as X. rewrite Forall_forall in X. exact (X ev Ev).
  - change (blocks (Datatypes.S i)) with (B i) in Ev. destruct (HW i) as [_ (ps & es' & _ & _ & _ & _ & _ & _ & _ & _ & _ & Kb)].
    pose proof (Kb u J NC (fl_stays i)) as X. rewrite Forall_forall in X. exact (X ev Ev).
Qed.
Lemma on_at x : on (time w2 sigma x).
Proof. induction x as [|x IH]; [exact on2|]. exact (on_next _ _ (sigma_calm x) IH). Qed.

Lemma fl_turn i : time w2 sigma (begin blocks i) = turn i.
Proof. exact (time_turn S C a y e W B w2 l0 HW E0 sigma Hs Hm i). Qed.
Lemma fl_block i q : q <= List.length (blocks i) -> time w2 sigma (begin blocks i + q) = steps (turn i) (firstn q (blocks i)).
Proof. exact (time_at S C a y e W B w2 l0 HW E0 sigma Hs Hm i q). Qed.

(** *** The connection *)
Lemma fl_rest i : lives (W i) sock.
Proof.
  destruct (Conn i) as ((so & Hso & Os) & Al & Lk). destruct (HW i) as [Si _].
  destruct (forall2_at _ _ _ _ _ (ag_socks _ _ (sim_agree S C a _ _ Si)) Hso) as (z & Ez & (Est & _)). split; [|split].
  - unfold held, Client.state_of. rewrite Ez, <- Est. exact Os.
  - rewrite (si_sv _ _ _ _ _ Si). exact Al.
  - rewrite (si_sv _ _ _ _ _ Si), (si_links _ _ _ _ _ Si). exact Lk.
Qed.
Lemma fl_later i q : q < List.length (blocks (Datatypes.S i)) -> lives (time w2 sigma (begin blocks (Datatypes.S i) + q)) sock.
Proof.
  destruct (HW i) as [_ (ps & es' & Eb & Id & _ & _ & M & _)].
  assert (Bl : blocks (Datatypes.S i) = ps ++ es') by exact Eb.
  induction q as [|q IH]; intros L.
  - rewrite Nat.add_0_r, fl_turn. exact (fl_rest i).
  - destruct (Nat.le_gt_cases (Datatypes.S q) (List.length ps)) as [Lp|Lp].
    + rewrite fl_block by lia. rewrite Bl. change (turn (Datatypes.S i)) with (W i).
      assert (Ef : steps (W i) (firstn (Datatypes.S q) (ps ++ es')) = W i).
      { rewrite firstn_app. replace (Datatypes.S q - List.length ps) with 0 by lia. rewrite firstn_O, app_nil_r. now apply idles_first. }
      rewrite Ef. exact (fl_rest i).
    + assert (Hq : exists ev, nth_error (blocks (Datatypes.S i)) q = Some ev /\ small S ev).
      { rewrite Bl in L |- *. rewrite app_length in L. rewrite nth_error_app2 by lia. apply (mould_small S (e i)); [exact M|lia]. }
      destruct Hq as (ev & Hev & Sm). pose proof (Hs (Datatypes.S i) q ev Hev) as Es.
      pose proof (on_sub _ (on_at (begin blocks (Datatypes.S i) + Datatypes.S q))) as Su. rewrite Nat.add_succ_r in Su |- *. cbn [at_time] in Su |- *. rewrite Es in Su |- *.
      exact (lives_next S a sock _ ev (fl_reach _) Sm Su (IH ltac:(lia))).
Qed.
Lemma fl_first q : q < List.length (blocks 0) -> lives (time w2 sigma q) sock.
Proof.
  intros L.
  assert (Et : forall q, q <= List.length l0 -> time w2 sigma q = steps w2 (map (fun e => WClient e) (firstn q l0))).
  { intros z Lz. assert (Lb : z <= List.length (blocks 0)) by (change (blocks 0) with (map (fun e => WClient e : wevent) l0 ++ [WClient Client.CVisit]); rewrite app_length, map_length; cbn; lia).
    pose proof (fl_block 0 z Lb) as Et. change (begin blocks 0 + z) with z in Et. rewrite Et. change (turn 0) with w2. change (blocks 0) with (map (fun e => WClient e : wevent) l0 ++ [WClient Client.CVisit]).
    rewrite firstn_app, map_length. replace (z - List.length l0) with 0 by lia. rewrite firstn_O, app_nil_r, firstn_map. reflexivity. }
  change (blocks 0) with (map (fun e => WClient e : wevent) l0 ++ [WClient Client.CVisit]) in L. rewrite app_length, map_length in L. cbn in L. assert (Lq : q <= List.length l0) by lia.
  rewrite (Et q Lq). destruct (fl_rest 0) as (L1 & L2 & L3).
  assert (Su : forall q, Client.subscribed (w_cl (steps w2 (map (fun e => WClient e) (firstn q l0)))) = true).
  { intros z. assert (Ez : firstn z l0 = firstn (Nat.min z (List.length l0)) l0).
    { destruct (Nat.le_gt_cases z (List.length l0)) as [Lz|Lz]; [now rewrite Nat.min_l|]. rewrite Nat.min_r by lia. rewrite firstn_all. apply firstn_all2. lia. }
    rewrite Ez, <- Et by lia. apply on_sub, on_at. }
  assert (Rd : ready (w_cl w2)).
  { destruct sent_text as [tx Etx].
    pose proof (ready_stream (call_text S) (read_text S) (same_id S) (w_cl w0) r tx (sim_creach S C a y1 w0 I0) (sim_user S C a y1 w0 I0) Etx) as Rd1.
    change (Client.cnext (call_text S) (read_text S) (same_id S) (w_cl w0) (Client.UStream r)) with (w_cl w1) in Rd1.
    destruct (inner_back (call_text S) (read_text S) (same_id S) (w_cl w1) (Client.UListen (List.length (Client.cl_stores (w_cl w0)))) sock (reach_creach S a w1 fl_reach1) I Rd1 (Su 0)) as [Rd2 _]. exact Rd2. }
  assert (L1' : held (w_cl (steps w2 (map (fun e => WClient e) l0))) sock) by (rewrite <- E0; exact L1).
  pose proof (back S a sock l0 w2 fl_reach2 Lc Rd Su L1' q) as Hh.
  destruct (local_still S w2 l0 Lc) as [S1 S2]. rewrite <- E0 in S1, S2.
  assert (Fq : Forall local (firstn q l0)) by (rewrite <- (firstn_skipn q l0) in Lc; apply Forall_app in Lc; tauto).
  destruct (local_still S w2 _ Fq) as [T1 T2]. split; [exact Hh|]. rewrite T1, T2, <- S1, <- S2. split; [exact L2|exact L3].
Qed.

(** *** Numbers *)
Lemma fl_count_rest i : counted (w_cl (W i)) + weigh (scr S (y i)) <= weigh scripts + task_calls (tasks_of (es1 ++ ask :: map e (seq 0 i))).
Proof.
  induction i as [|i IH]; [exact B0|]. destruct (HW i) as [_ (ps & es' & _ & _ & _ & _ & _ & _ & _ & Bd & _)]. unfold bounded in Bd.
  rewrite seq_S, map_app, app_comm_cons, app_assoc, tasks_app, task_calls_app. cbn [map Nat.add]. lia.
Qed.
Lemma fl_countable_rest i : countable (w_cl (W i)).
Proof. apply (few_count S scripts _ _ (Few i)). pose proof (fl_count_rest i). lia. Qed.
Lemma fl_to_rest x : exists i es, W i = steps (time w2 sigma x) es.
Proof.
  destruct (time_in S C a y e W B w2 l0 HW E0 sigma Hs Hm x) as (i & q & _ & _ & E). exists i, (skipn q (blocks i)). rewrite E, <- steps_app, firstn_skipn.
  exact (turn_next S C a y e W B w2 l0 HW E0 i).
Qed.
Lemma fl_countable x : countable (w_cl (time w2 sigma x)).
Proof. destruct (fl_to_rest x) as (i & es & E). pose proof (fl_countable_rest i) as Co. rewrite E in Co. exact (wcount_run _ _ _ _ _ es _ Co). Qed.
Lemma fl_number : Client.bump (Client.cl_id (w_cl w0)) = id.
Proof.
  apply (number_is S C a y1 w0 I0). pose proof (fl_countable 0) as Co. cbn [at_time] in Co. apply wcount_back in Co. unfold countable in Co. destruct sent_text as [tx Etx].
  destruct (stream_adds (call_text S) (read_text S) (same_id S) (w_cl w0) r tx (sim_user S C a y1 w0 I0) Etx) as (Ca & _).
  change (Client.cnext (call_text S) (read_text S) (same_id S) (w_cl w0) (Client.UStream r)) with (w_cl w1) in Ca. rewrite Ca, app_length in Co. cbn in Co. lia.
Qed.

(** *** Nothing throws *)
Lemma fl_quiet_rest i : Forall tame (scr S (y i)) /\ no_throws (w_cl (W i)).
Proof.
  induction i as [|i [IH1 IH2]]; [exact Q0|]. destruct (HW i) as [_ (ps & es' & _ & _ & _ & _ & _ & _ & _ & _ & Kq & _)]. destruct (Kq IH1) as [K1 K2]. split; [exact K1|exact (K2 IH2)].
Qed.
Lemma fl_throws_back es : forall w, no_throws (w_cl (steps w es)) -> no_throws (w_cl w).
Proof.
  induction es as [|ev es IH]; intros w Nt; [exact Nt|]. specialize (IH (step w ev) Nt).
  destruct (cl_next (call_text S) (read_text S) (same_id S) (from_text S) (to_text S) w ev) as [E | (ce & E)]; rewrite E in IH; [exact IH|]. exact (no_throws_back _ _ _ _ _ IH).
Qed.
Lemma fl_quiet x : no_throws (w_cl (time w2 sigma x)).
Proof. destruct (fl_to_rest x) as (i & es & E). destruct (fl_quiet_rest i) as [_ Q]. rewrite E in Q. exact (fl_throws_back es _ Q). Qed.

(** *** The page *)
Lemma fl_heard i s : entry (W i) s -> heard_of u (sy_page (y i)) = map (fun d => [VData d]) (Client.su_seen s).
Proof. intros E. destruct (HW i) as [Si _]. exact (ag_heard _ _ (sim_agree S C a _ _ Si) u J s (fl_stays i) E). Qed.
Lemma seen_on es : forall w s, entry w s -> exists s' l, entry (steps w es) s' /\ Client.su_seen s' = Client.su_seen s ++ l.
Proof.
  induction es as [|ev es IH]; intros w s E; [exists s, []; split; [exact E|now rewrite app_nil_r]|]. change (steps w (ev :: es)) with (steps (step w ev) es).
  assert (N : exists s' l, entry (step w ev) s' /\ Client.su_seen s' = Client.su_seen s ++ l).
  { destruct (cl_next (call_text S) (read_text S) (same_id S) (from_text S) (to_text S) w ev) as [-> | (ce & ->)]; [exists s, []; split; [exact E|now rewrite app_nil_r]|].
    destruct (entry_next (call_text S) (read_text S) (same_id S) (w_cl w) ce J s E) as (s' & E' & _ & _ & (l & Sn) & _). exists s', l. split; [exact E'|exact Sn]. }
  destruct N as (s1 & l1 & E1 & Sn1). destruct (IH (step w ev) s1 E1) as (s2 & l2 & E2 & Sn2). exists s2, (l1 ++ l2). split; [exact E2|]. rewrite Sn2, Sn1. now rewrite app_assoc.
Qed.
Lemma rest_on i : forall i', i <= i' -> exists es, W i' = steps (W i) es.
Proof.
  intros i' L. induction L as [|i' L (es & IH)]; [exists []; reflexivity|]. destruct (HW i') as [_ (ps & es' & _ & _ & _ & _ & _ & E & _)]. exists (es ++ B i'). rewrite steps_app, <- IH. exact E.
Qed.

(** *** What flows *)
Lemma flows vs : (forall doc, sent_doc id f it args doc -> fine doc) ->
  decoded (s_dec S) (map snd (it_args it)) (map (fun a => to_value (s_float S) (stringify_elem a)) args) vs -> fair_run y e sock ->
  (exists i tk, stream_made S a (server_side (y i)) id n k vs tk) /\
  forall i tk q d, stream_made S a (server_side (y i)) id n k vs tk -> nth_error (values (A := A) (received_as double) tk) q = Some d ->
    exists i', i <= i' /\ nth_error (heard_of u (sy_page (y i'))) q = Some [VData d].
Proof.
  intros Fi De Fr. pose proof (sched_fair S C a y e En W B w2 l0 HW E0 sigma Hs Hm sock Fr) as Fa.
  assert (Fi' : forall doc, sent_doc (Client.bump (Client.cl_id (w_cl w0))) f it args doc -> fine doc) by (rewrite fl_number; exact Fi).
  assert (All : forall x, lives (time w2 sigma x) sock /\ countable (w_cl (time w2 sigma x)) /\ no_throws (w_cl (time w2 sigma x)) /\ forall s, entry (time w2 sigma x) s -> Client.su_live s = true).
  { intros x. split; [|split; [apply fl_countable|split; [apply fl_quiet|]]].
    - destruct (time_in S C a y e W B w2 l0 HW E0 sigma Hs Hm x) as (i & q & -> & Lq & _). destruct i as [|i]; [exact (fl_first q Lq)|exact (fl_later i q Lq)].
    - intros s E. destruct (on_at x) as (s' & E' & _ & Lv). assert (s' = s) as -> by congruence. exact Lv. }
  destruct (wire_flows S Lit Lit' n k f it args a w0 Hdis Hit Hns Hid (si_reach _ _ _ _ _ I0) (sim_user S C a y1 w0 I0) Hargs sock sigma vs Ha Hk Fi' De Fa All) as ((x & tk & Sm) & G).
  split.
  - destruct (fl_to_rest x) as (i & es & Ew). destruct (HW i) as [Si _]. pose proof (fl_countable_rest i) as Co. rewrite Ew in Co.
    destruct (made_keeps a es _ _ n k vs tk (fl_reach x) Co Sm) as [tk' Sm']. rewrite fl_number in Sm'. exists i, tk'. destruct Si as [Hv Hl _ _ _]. unfold server_side. rewrite <- Hv, <- Hl, Ew. exact Sm'.
  - intros i tk' q d Sm' Hd. destruct (HW i) as [Si _].
    assert (Sm2 : stream_made S a (time w2 sigma (begin blocks (Datatypes.S i))) (Client.bump (Client.cl_id (w_cl w0))) n k vs tk').
    { rewrite fl_turn, fl_number. change (turn (Datatypes.S i)) with (W i). destruct Si as [Hv Hl _ _ _]. unfold server_side in Sm'. rewrite <- Hv, <- Hl in Sm'. exact Sm'. }
    destruct (G _ tk' q d Sm2 Hd) as (z & s & _ & E & Sn). destruct (fl_to_rest z) as (i1 & es & Ew).
    destruct (seen_on es _ s E) as (s1 & l1 & E1 & Sn1). rewrite <- Ew in E1. destruct (rest_on i1 (Nat.max i i1) (Nat.le_max_r _ _)) as (es2 & Ew2).
    destruct (seen_on es2 _ s1 E1) as (s2 & l2 & E2 & Sn2). rewrite <- Ew2 in E2. exists (Nat.max i i1). split; [apply Nat.le_max_l|].
    rewrite (fl_heard _ s2 E2), nth_error_map, Sn2, Sn1, nth_error_app1; [rewrite nth_error_app1; [now rewrite Sn|now apply nth_some_lt in Sn]|]. rewrite app_length. apply nth_some_lt in Sn. lia.
Qed.
End Worlds.

Theorem stream_flows_page vs : (forall i, ~ In (AUnlisten u) (all_actions scripts (tasks_of (es1 ++ ask :: map e (seq 0 i))))) ->
  (forall doc, sent_doc id f it args doc -> fine doc) ->
  decoded (s_dec S) (map snd (it_args it)) (map (fun a => to_value (s_float S) (stringify_elem a)) args) vs -> fair_run y e sock ->
  (exists i tk, stream_made S a (server_side (y i)) id n k vs tk) /\
  forall i tk q d, stream_made S a (server_side (y i)) id n k vs tk -> nth_error (values (A := A) (received_as double) tk) q = Some d ->
    exists i', i <= i' /\ nth_error (heard_of u (sy_page (y i'))) q = Some [VData d].
Proof.
  intros Nu Fi De Fr.
  assert (Al : forall l, ~ In (AUnlisten u) l -> allowed C l) by (intros l Nl; apply Forall_forall; intros x Ix ->; exact (Nl Ix)).
  assert (Als : allowed C (flat_map sc_acts scripts)) by (apply Al; intros X; apply (Nu 0); apply in_or_app; now left).
  assert (Alt : forall i, ~ In (AUnlisten u) (task_acts (tasks_of (es1 ++ ask :: map e (seq 0 i))))) by (intros i X; apply (Nu i); apply in_or_app; now right).
  assert (Tapp : forall l l' : list (sevent S), task_acts (tasks_of (l ++ l')) = task_acts (tasks_of l) ++ task_acts (tasks_of l')) by (intros l l'; rewrite tasks_app; unfold task_acts; apply flat_map_app).
  assert (Ale : forall i, allowed C (task_acts (tasks_of [e i]))).
  { intros i. apply Al. intros X. apply (Alt (Datatypes.S i)). rewrite seq_S, map_app, app_comm_cons, app_assoc, Tapp. apply in_or_app. right. exact X. }
  assert (Al1 : allowed C (task_acts (tasks_of es1))) by (apply Al; intros X; apply (Alt 0); rewrite Tapp; apply in_or_app; now left).
  assert (Al2 : allowed C (task_acts (tasks_of [ask]))) by (apply Al; intros X; apply (Alt 0); change (ask :: map e (seq 0 0)) with [ask]; rewrite Tapp; apply in_or_app; now right).
  destruct (sim_init S C P scripts a y0 HP H0 Als) as [Ii S0].
  destruct (sim_run S C es1 a y0 _ y1 Ii R1 Al1) as (e1 & _ & I0 & B1 & Q1). set (w0 := steps (winit (A := A) a) e1) in *.
  set (w1 := step w0 (WClient (Client.UStream r))). set (w2 := step w1 (WClient (Client.UListen (List.length (Client.cl_stores (w_cl w0)))))).
  assert (E2 : w2 = mkWorld (acts_next lit num other (w_cl w0) (sc_acts (mkScript [AStream (bf_name f) (it_ident it) args; AListen (List.length (us_stores (st_user (sy_page y1))))] b))) (w_sv w0) (w_links w0)) by (rewrite (ag_stores _ _ (sim_agree S C a y1 w0 I0)); reflexivity).
  destruct (sim_user_block S C a y1 w0 _ (y 0) I0 R2 Al2) as (e2 & _ & I2 & B2 & Q2 & Kc & (l0 & El & Lc)).
  { rewrite <- E2. apply wreach_next, wreach_next. exact (si_reach _ _ _ _ _ I0). }
  rewrite <- E2 in I2, B2, Kc, Q2. destruct (worlds S C a y e En Ale _ I2) as (W & B & E0 & HW).
  assert (Q0 : Forall tame (scr S (y 0)) /\ no_throws (w_cl (W 0))).
  { rewrite S0 in Q1. destruct (Q1 Tame) as [T1 N1]. destruct (Q2 T1) as [T2 N2]. split; [exact T2|]. rewrite E0. apply N2, N1. constructor. }
  rewrite El in E0, Kc.
  destruct (flat (blocks S B l0) (blocks_some S C a y e W B w2 l0 HW E0)) as (sigma & Hs & Hm).
  apply (flows w0 l0 W B sigma I0 Lc E0 HW Hs Hm); try assumption.
  rewrite E0, <- El. rewrite tasks_app, task_calls_app. unfold bounded in B2. rewrite S0 in B1. cbn [winit w_cl counted Client.cl_calls Client.cinit List.length] in B1. lia.
Qed.
End Flow.
