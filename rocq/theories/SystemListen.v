(** All listeners of a page.  Proof side. *)
From Coq Require Import List String Ascii Bool Arith NArith ZArith Lia.
From Verif Require Import Util Js JsonText JsonTextSpec JsonTextProofs Registry Macro Server ServerSpec Pump Wire WireSpec WireProofs TsProgram FileProofs ClientSpec ClientProofs.
From Verif Require Import E2E E2ESpec E2EStreamSpec E2EText E2EProofs E2ESafe E2EFail E2EWire E2EStream E2EStreamWire.
From Verif Require Import JsSem JsSpec JsWorld JsStep JsEntries JsTasks JsPage JsMono JsClaims System SystemSpec SystemProofs SystemClaims.
From Verif Require Client ClientSockProofs JsRun Prelude.
Import ListNotations.
Local Open Scope string_scope.
Local Open Scope list_scope.

(** Only streams add stores. *)
Lemma stores_new {R text K D : Type} (enc : N -> R -> option text) (read : text -> option (K * D)) (same : K -> N -> bool) (c : Client.client text K D) (e : Client.cevent R text) id :
  In id (Client.cl_stores (Client.cnext enc read same c e)) -> In id (Client.cl_stores c) \/ exists r, e = Client.UStream r /\ Client.user c = true /\ id = Client.bump (Client.cl_id c).
Proof.
  intros H. destruct (effect_ok enc read same c e) as (c' & Ef & Tk). apply talk_parts in Tk as (_ & _ & Tk & _). rewrite Tk in H.
  destruct Ef as [e|r U _|r U _|r U _|r U _|k i U _|j x U _ _|d _ _|d _|j x _ _ _|n t k d _ _ _]; cbn in H; try (now left).
  - apply in_app_iff in H as [H|[<-|[]]]; [now left|right; eauto].
  - unfold Client.visit in H. destruct (nth_error (Client.cl_subs c) _) as [x|]; [|now left]. cbn zeta in H.
    destruct (Client.su_live x && same (Client.dp_key d) (Client.su_id x))%bool; cbn in H; now left.
Qed.

Lemma listener_is subs u J : nth_error (listeners subs) u = Some J -> exists s, nth_error subs J = Some s /\ Client.su_req s = false.
Proof.
  intros E. apply nth_error_In in E. unfold listeners in E. apply in_map_iff in E as ((i & x) & <- & I). apply filter_In in I as [I N]. cbn in *.
  apply negb_true_iff in N. exists x. split; [|exact N].
  assert (G : forall a (l : list (Client.sub jsval)), In (i, x) (combine (seq a (List.length l)) l) -> a <= i /\ nth_error l (i - a) = Some x).
  { clear. intros a l. revert a. induction l as [|z l IH]; intros a H; [destruct H|]. cbn in H. destruct H as [[= -> ->]|H]; [split; [lia|]; now rewrite Nat.sub_diag|].
    destruct (IH _ H) as [L E]. split; [lia|]. now replace (i - a) with (Datatypes.S (i - Datatypes.S a)) by lia. }
  destruct (G 0 _ I) as [_ G']. now rewrite Nat.sub_0_r in G'.
Qed.

Section Listen.
Context {T V F : Type} (S : setting T V F).
Local Notation A := (rpc S).
Local Notation reach := (wreachable (call_text S) (read_text S) (same_id S) (from_text S) (to_text S)).
Local Notation step := (wnext (call_text S) (read_text S) (same_id S) (from_text S) (to_text S)).
Local Notation steps := (wrun (call_text S) (read_text S) (same_id S) (from_text S) (to_text S)).
Local Notation wevent := (wevent rcall jstr A).
Local Notation data := (received_as double).

Lemma stores_step w (e : wevent) id : In id (Client.cl_stores (w_cl (step w e))) ->
  In id (Client.cl_stores (w_cl w)) \/ exists r, e = WClient (Client.UStream r) /\ Client.user (w_cl w) = true /\ id = Client.bump (Client.cl_id (w_cl w)).
Proof.
  intros H.
  assert (Not : forall ce, (forall r, ce <> Client.UStream r) -> In id (Client.cl_stores (Client.cnext (call_text S) (read_text S) (same_id S) (w_cl w) ce)) -> In id (Client.cl_stores (w_cl w))).
  { intros ce N H'. destruct (stores_new (call_text S) (read_text S) (same_id S) _ _ _ H') as [L|(r & E & _)]; [exact L|]. now destruct (N r). }
  destruct e as [ce|pe|n|n|l|l]; cbn [wnext] in H.
  - assert (Next : In id (Client.cl_stores (Client.cnext (call_text S) (read_text S) (same_id S) (w_cl w) ce)) ->
      In id (Client.cl_stores (w_cl w)) \/ exists r, (WClient ce : wevent) = WClient (Client.UStream r) /\ Client.user (w_cl w) = true /\ id = Client.bump (Client.cl_id (w_cl w))).
    { intros H'. destruct (stores_new (call_text S) (read_text S) (same_id S) _ _ _ H') as [L|(r & -> & U)]; [now left|right; eauto]. }
    destruct ce; try exact (Next H); left; exact H.
  - left. destruct pe as [x| |k fr|k|k b]; try exact H. destruct fr as [t| | |]; try exact H. destruct (linked_pump w k); exact H.
  - left. destruct (_ && _ && _)%bool in H; exact H.
  - left. destruct (linked_sock w n); [exact (Not (Client.NOpen n) (fun r E => ltac:(discriminate E)) H)|exact H].
  - left. destruct (nth_error (w_links w) l) as [x|]; [|exact H]. destruct (nth_error (sent_on (w_cl w) (ln_sock x)) (ln_up x)) as [[id' t]|]; [|exact H].
    destruct (nth_error (p_socks (w_sv w)) (ln_pump x)) as [k|]; [|exact H]. destruct (sk_live k); exact H.
  - left. destruct (nth_error (w_links w) l) as [x|]; [|exact H]. destruct (nth_error (p_socks (w_sv w)) (ln_pump x)) as [k|]; [|exact H].
    destruct (nth_error (sk_out k) (ln_down x)) as [t|]; [|exact H]. destruct (Client.idle (w_cl w)); [|exact H].
    destruct (Client.state_of (w_cl w) (ln_sock x)); try exact H. exact (Not (Client.NMessage (ln_sock x) t) (fun r E => ltac:(discriminate E)) H).
Qed.
Lemma stores_origin w0 id : Client.cl_stores (w_cl w0) = [] -> forall es : list wevent, In id (Client.cl_stores (w_cl (steps w0 es))) ->
  exists ea r eb, es = ea ++ WClient (Client.UStream r) :: eb /\ Client.user (w_cl (steps w0 ea)) = true /\ id = Client.bump (Client.cl_id (w_cl (steps w0 ea))).
Proof.
  intros H0 es. induction es as [|e es IH] using rev_ind; intros H.
  - change (steps w0 []) with w0 in H. rewrite H0 in H. destruct H.
  - rewrite steps_app in H. change (steps (steps w0 es) [e]) with (step (steps w0 es) e) in H. destruct (stores_step _ e _ H) as [L|(r & -> & U & E)].
    + destruct (IH L) as (ea & r & eb & -> & U & Le). exists ea, r, (eb ++ [e]). split; [now rewrite <- app_assoc|]. auto.
    + exists es, r, []. auto.
Qed.

Hypothesis (Lit : faithful (s_lit S) (s_num S)) (Lit' : faithful (s_lit' S) (s_num S)).
(** Any listener, also a late one. *)
Lemma wire_any n k f i args a w0 es j s : distinct (s_backend S) -> calls_stream S (bf_name f) (it_ident i) args n k f i -> it_args i <> [] -> reach a w0 -> Client.user (w_cl w0) = true ->
  let w := steps (step w0 (WClient (Client.UStream (bf_name f, it_ident i, args)))) es in
  countable (w_cl w) -> nth_error (Client.cl_subs (w_cl w)) j = Some s -> Client.su_id s = Client.bump (Client.cl_id (w_cl w0)) ->
  Client.su_seen s = [] \/
  exists vs tk before heard after, decoded (s_dec S) (map snd (it_args i)) (map (fun a => to_value (s_float S) (stringify_elem a)) args) vs /\
    stream_made S a w (Client.su_id s) n k vs tk /\ values (A := A) data tk = before ++ heard ++ after /\ thinned heard (Client.su_seen s) /\ (no_throws (w_cl w) -> heard = Client.su_seen s).
Proof.
  intros Hdis [Hit _ _ Hns Hid Hk Hargs] Ha Hr0 Hu w Hc E Ei. set (r := (bf_name f, it_ident i, args) : rcall) in *.
  pose proof (next_cid S a w0 Hr0) as Ci. pose proof (call_doc S _ (bf_name f) (it_ident i) args Ci) as Ed.
  destruct (read_call (s_dec S) (s_unit S) (s_backend S) (call_value S r)) as [[n' k' vs]|] eqn:Er.
  2:{ left. exact (wire_unheard S Lit Lit' a w0 _ _ args es j s Hr0 Hu Er Hc E Ei). }
  assert (Ef : from_value A (call_value S r) = inl (mkCall n' k' vs)).
  { change (from_value A ?v) with (match read_call (s_dec S) (s_unit S) (s_backend S) v with Some c => inl c | None => inr (s_complain S v) end). now rewrite Er. }
  pose proof Ef as Ef'. apply (call_names S n k f i args Hdis Hit Hns Hid Hargs _ Ha) in Ef' as (Q1 & Q2 & Q3). cbn in Q1, Q2, Q3. subst n' k'.
  destruct (any_listener _ _ _ _ _ _ _ (wire_reads S Lit Lit') a w0 r _ es (mkCall n k vs) j s Hr0 Hu Ed Ef) as [X|(tk & before & heard & after & X1 & X2 & X3 & X4)]; auto.
  { now apply (call_stream S n k f i Hit). }
  right. exists vs, tk, before, heard, after. split; [exact Q3|]. apply streams_made in X1. auto.
Qed.

Context (P : list TsProgram.top) (HP : program Prelude.websocket_client = Some P).
Section All.
Context (scripts : list script) (a : list F) (y0 y : system S) (es : list (sevent S)).
Hypothesis (Hdis : distinct (s_backend S)) (H0 : started S P scripts a y0) (R : sruns S y0 es y) (Hf : few scripts (tasks_of es)).
Let acts := all_actions scripts (tasks_of es).
Hypothesis Hcalls : forall ns m args, In (AStream ns m args) acts -> ~ In ns (field_tags (s_backend S)) \/ exists n k f i, calls_stream S ns m args n k f i.
Lemma all_heard : exists ids, NoDup ids /\ List.length ids = List.length (us_stores (st_user (sy_page y))) /\
  forall u, u < List.length (us_unls (st_user (sy_page y))) -> exists id seen, In id ids /\ heard_of u (sy_page y) = map (fun d => [VData d]) seen /\
  (seen = [] \/
   exists ns m args n k f i vs tk before heard after, In (AStream ns m args) acts /\ calls_stream S ns m args n k f i /\
     decoded (s_dec S) (map snd (it_args i)) (map (fun a => to_value (s_float S) (stringify_elem a)) args) vs /\
     stream_made S a (server_side y) id n k vs tk /\ values (A := A) data tk = before ++ heard ++ after /\ thinned heard seen /\
     (Forall tame scripts -> heard = seen)).
Proof.
  set (C := fun x : action => In x acts).
  assert (A1 : allowed C (flat_map sc_acts scripts)) by (apply Forall_forall; intros x Ix; apply in_or_app; now left).
  assert (A2 : allowed C (task_acts (tasks_of es))) by (apply Forall_forall; intros x Ix; apply in_or_app; now right).
  destruct (sim_init S C P scripts a y0 HP H0 A1) as [I0 S0]. destruct (sim_run S C es a y0 _ y I0 R A2) as (es' & O & I1 & B & Q). set (w := steps (winit (A := A) a) es') in *.
  assert (Cn : countable (w_cl w)) by (apply (few_count S scripts _ _ Hf); rewrite S0 in B; cbn [winit w_cl counted Client.cl_calls Client.cinit List.length] in B; lia).
  assert (Nt : Forall tame scripts -> no_throws (w_cl w)).
  { intros Ht. rewrite S0 in Q. destruct (Q Ht) as [_ N]. apply N. constructor. }
  pose proof (sim_creach S C a y w I1) as Rw. pose proof (sim_agree S C a y w I1) as G.
  pose proof (ki_inv _ _ _ _ Rw Cn) as Ky. exists (Client.cl_stores (w_cl w)). split; [exact (proj1 (proj2 (ClientProofs.nodup_app _ _ (ki_dup _ Ky))))|].
  split; [exact (eq_sym (ag_stores _ _ G))|]. intros u Lu.
  rewrite (ag_unls _ _ G) in Lu. destruct (nth_error (listeners (Client.cl_subs (w_cl w))) u) as [J|] eqn:EJ; [|apply nth_error_None in EJ; lia].
  destruct (listener_is _ _ _ EJ) as (s & HJ & Qs).
  assert (Is : In (Client.su_id s) (Client.cl_stores (w_cl w))).
  { apply (ki_own _ Ky). apply nth_error_In in HJ. apply in_map_iff. exists s. split; [|exact HJ]. now rewrite Qs. }
  exists (Client.su_id s), (Client.su_seen s). split; [exact Is|]. split; [exact (ag_heard _ _ G u J s EJ HJ)|].
  destruct (stores_origin (winit (A := A) a) _ eq_refl es' Is) as (ea & [[ns m] args] & eb & Ee & U & Ki).
  assert (Ic : In (AStream ns m args) acts) by (rewrite Ee in O; apply Forall_app in O as [_ O]; now inversion O).
  assert (Ew : w = steps (step (steps (winit (A := A) a) ea) (WClient (Client.UStream (ns, m, args)))) eb) by (unfold w; rewrite Ee, steps_app; reflexivity).
  set (w0 := steps (winit (A := A) a) ea) in *. assert (Rw0 : reach a w0) by (now exists ea).
  assert (Un : read_call (s_dec S) (s_unit S) (s_backend S) (call_value S (ns, m, args)) = None -> Client.su_seen s = []).
  { intros Hn. rewrite Ew in Cn, HJ. exact (wire_unheard S Lit Lit' a w0 ns m args eb J s Rw0 U Hn Cn HJ Ki). }
  destruct (Hcalls ns m args Ic) as [K|(n & k & f & i & K)]; [left; exact (Un (exec_unknown_name (s_dec S) (s_float S) (s_unit S) (s_backend S) ns m (map real args) K))|].
  destruct K as [K1 K2 K3 K4 K5 K7 K8]. subst ns m.
  assert (K6 : it_args i = [] \/ it_args i <> []) by (destruct (it_args i); [now left|right; discriminate]). destruct K6 as [K6|K6].
  { left. exact (Un (exec_no_arguments (s_dec S) (s_float S) (s_unit S) (s_backend S) n k f i (map real args) Hdis K1 K4 K5 K6)). }
  assert (Cs : calls_stream S (bf_name f) (it_ident i) args n k f i) by now constructor.
  rewrite Ew in Cn, HJ.
  destruct (wire_any n k f i args a w0 eb J s Hdis Cs K6 Rw0 U Cn HJ Ki) as [X|(vs & tk & before & heard & after & X1 & X2 & X3 & X4 & X5)]; [now left|right].
  exists (bf_name f), (it_ident i), args, n, k, f, i, vs, tk, before, heard, after. split; [exact Ic|]. split; [exact Cs|]. split; [exact X1|].
  split; [|split; [exact X3|split; [exact X4|]]].
  - rewrite <- Ew in X2. destruct I1 as [Hv Hl _ _ _]. clearbody w. destruct w as [c v l]. cbn in Hv, Hl. subst v l. exact X2.
  - intros Ht. apply X5. rewrite <- Ew. exact (Nt Ht).
Qed.
End All.
End Listen.
