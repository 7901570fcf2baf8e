(** What a page has got stays.  Proof side. *)
From Coq Require Import List String Ascii Bool Arith NArith ZArith Lia.
From Verif Require Import Util Js JsonText JsonTextSpec JsonTextProofs Registry Macro Server ServerSpec Pump Wire WireSpec WireProofs TsProgram FileProofs ClientSpec ClientProofs.
From Verif Require Import E2E E2ESpec E2EStreamSpec E2EText E2EProofs E2ESafe E2EFail E2ELive E2EWire E2EStream E2EStreamWire.
From Verif Require Import JsSem JsSpec JsWorld JsStep JsEntries JsTasks JsPage JsMono JsClaims System SystemSpec SystemProofs SystemClaims SystemSched.
From Verif Require Client Prelude.
Import ListNotations.
Local Open Scope string_scope.
Local Open Scope list_scope.

Lemma filter_place {X} (p : X -> bool) l : forall j s, nth_error (filter p l) j = Some s ->
  exists J, nth_error l J = Some s /\ p s = true /\ List.length (filter p (firstn J l)) = j.
Proof.
  induction l as [|x l IH]; intros j s H; [destruct j; discriminate|]. cbn [filter] in H. destruct (p x) eqn:Px.
  - destruct j as [|j]; cbn in H; [injection H as <-; exists 0; auto|]. destruct (IH j s H) as (J & E & Q & L). exists (S J). cbn. rewrite Px. cbn. auto.
  - destruct (IH j s H) as (J & E & Q & L). exists (S J). cbn. rewrite Px. auto.
Qed.

Lemma forall2_at2 {X Y} (p : X -> Y -> Prop) l m k z : Forall2 p l m -> nth_error m k = Some z -> exists x, nth_error l k = Some x /\ p x z.
Proof. intros H. revert k. induction H as [|x0 z0 l m H0 H IH]; intros [|k] E; cbn in *; try discriminate; [injection E as <-; eauto|now apply IH]. Qed.

(** What has left hears nothing more. *)
Section Gone.
Context {R text K D : Type} (enc : N -> R -> option text) (read : text -> option (K * D)) (same : K -> N -> bool).
Definition gone (c : Client.client text K D) (j : nat) (seen : list D) : Prop :=
  exists s, nth_error (Client.cl_subs c) j = Some s /\ Client.su_live s = false /\ Client.su_seen s = seen.
Lemma gone_next c (e : Client.cevent R text) j seen : gone c j seen -> gone (Client.cnext enc read same c e) j seen.
Proof.
  intros (s & H & Lv & Sn). destruct (effect_ok enc read same c e) as (c' & Ef & Tk). apply talk_parts in Tk as (_ & Tk & _). unfold gone. rewrite Tk. clear Tk.
  assert (Snoc : forall x, nth_error (Client.cl_subs c ++ [x]) j = Some s) by (intros x; rewrite nth_error_app1; [exact H|now apply nth_some_lt in H]).
  assert (Del : forall i n, nth_error (deleted i n (Client.cl_subs c)) j = Some s).
  { intros i n. unfold deleted. rewrite nth_upd, H. destruct (Nat.eqb i j); [|reflexivity]. cbn [option_map]. now rewrite Lv. }
  destruct Ef as [e|r U _|r U _|r U _|r U _|k id U _|i x U Ex Qx|d _ _|d _|i x _ Ex Un|n t k d _ _ _]; cbn; try (exists s; split; [solve [exact H|apply Snoc|apply Del]|now split]).
  unfold Client.visit. destruct (nth_error (Client.cl_subs c) (Client.dp_next d)) as [x|] eqn:Ex; [|eauto]. cbn zeta.
  destruct (Client.su_live x && same (Client.dp_key d) (Client.su_id x))%bool eqn:B; [|eauto]. cbn. rewrite nth_upd, H.
  destruct (Nat.eqb_spec (Client.dp_next d) j) as [Ej|]; [|eauto]. rewrite Ej, H in Ex. injection Ex as <-. rewrite Lv in B. discriminate.
Qed.
Lemma gone_after c j s : Client.user c = true -> nth_error (Client.cl_subs c) j = Some s -> Client.su_req s = false ->
  gone (Client.cnext enc read same c (Client.UUnlisten j)) j (Client.su_seen s).
Proof.
  intros U H Q. unfold Client.cnext. rewrite U, H, Q. pose proof (talk_delete j c) as Tk. apply talk_parts in Tk as (_ & Tk & _). unfold gone. rewrite Tk. cbn. unfold deleted. rewrite nth_upd, H, Nat.eqb_refl. cbn [option_map].
  eexists. split; [reflexivity|]. destruct (Client.su_live s) eqn:Lv; cbn; auto.
Qed.
End Gone.

Section Stays.
Context {T V F : Type} (S : setting T V F).
Local Notation A := (rpc S).
Local Notation step := (wnext (call_text S) (read_text S) (same_id S) (from_text S) (to_text S)).
Local Notation steps := (wrun (call_text S) (read_text S) (same_id S) (from_text S) (to_text S)).

Lemma seen_step w ev J s : nth_error (Client.cl_subs (w_cl w)) J = Some s ->
  exists s' l, nth_error (Client.cl_subs (w_cl (step w ev))) J = Some s' /\ Client.su_req s' = Client.su_req s /\ Client.su_seen s' = Client.su_seen s ++ l.
Proof.
  intros E. destruct (cl_next (call_text S) (read_text S) (same_id S) (from_text S) (to_text S) w ev) as [-> | (ce & ->)].
  - exists s, []. rewrite app_nil_r. auto.
  - destruct (entry_next (call_text S) (read_text S) (same_id S) (w_cl w) ce J s E) as (s' & E' & Q & _ & (l & Sn) & _). exists s', l. auto.
Qed.
Lemma seen_steps es : forall w J s, nth_error (Client.cl_subs (w_cl w)) J = Some s ->
  exists s' l, nth_error (Client.cl_subs (w_cl (steps w es))) J = Some s' /\ Client.su_req s' = Client.su_req s /\ Client.su_seen s' = Client.su_seen s ++ l.
Proof.
  induction es as [|ev es IH]; intros w J s E; [exists s, []; rewrite app_nil_r; auto|].
  destruct (seen_step w ev J s E) as (s1 & l1 & E1 & Q1 & N1). destruct (IH (step w ev) J s1 E1) as (s2 & l2 & E2 & Q2 & N2).
  exists s2, (l1 ++ l2). split; [exact E2|]. split; [congruence|]. now rewrite N2, N1, app_assoc.
Qed.

Lemma gone_step w ev J seen : gone (w_cl w) J seen -> gone (w_cl (step w ev)) J seen.
Proof.
  intros G. destruct (cl_next (call_text S) (read_text S) (same_id S) (from_text S) (to_text S) w ev) as [-> | (ce & ->)]; [exact G|now apply gone_next].
Qed.
Lemma gone_steps es : forall w J seen, gone (w_cl w) J seen -> gone (w_cl (steps w es)) J seen.
Proof. induction es as [|ev es IH]; intros w J seen G; [exact G|]. apply (IH (step w ev)). now apply gone_step. Qed.
Lemma listener_entry l u J : nth_error (listeners l) u = Some J -> exists s, nth_error l J = Some s /\ Client.su_req s = false.
Proof.
  intros E. apply nth_error_In in E. unfold listeners in E. apply in_map_iff in E as ([q s] & <- & Iq). apply filter_In in Iq as [Iq Q]. exists s.
  split; [|apply negb_true_iff; exact Q]. cbn [fst]. clear Q.
  assert (G : forall (k : list (Client.sub jsval)) b, In (q, s) (combine (seq b (List.length k)) k) -> b <= q /\ nth_error k (q - b) = Some s).
  { clear. induction k as [|x k IH]; intros b H; [destruct H|]. cbn [List.length seq combine] in H. destruct H as [H|H]; [injection H as -> ->; rewrite Nat.sub_diag; auto|].
    apply IH in H as [L H]. split; [lia|]. replace (q - b) with (Datatypes.S (q - Datatypes.S b)) by lia. exact H. }
  apply G in Iq as [_ Iq]. now rewrite Nat.sub_0_r in Iq.
Qed.

Context (P : list TsProgram.top) (HP : program Prelude.websocket_client = Some P).
Context (scripts : list script) (a : list F) (y0 y y' : system S) (es es' : list (sevent S)).
Hypothesis (H0 : started S P scripts a y0) (R : sruns S y0 es y) (R' : sruns S y es' y').

Lemma sims : exists w (ws : list (wevent rcall jstr A)), Sim S any a y w /\ Sim S any a y' (steps w ws).
Proof.
  destruct (sim_init S any P scripts a y0 HP H0 (any_all _)) as [I0 _]. destruct (sim_run S any es a y0 _ y I0 R (any_all _)) as (e1 & _ & I1 & _).
  destruct (sim_run S any es' a y _ y' I1 R' (any_all _)) as (e2 & _ & I2 & _). eauto.
Qed.

Lemma proms_stay j : j < List.length (us_proms (st_user (sy_page y))) ->
  (pending (sy_page y) j \/ exists d, fulfilled (sy_page y) j d) /\ forall d, fulfilled (sy_page y) j d -> fulfilled (sy_page y') j d.
Proof.
  intros Lj. destruct sims as (w & ws & I & I'). pose proof (ag_proms _ _ (sim_agree S any a y w I)) as Fp.
  destruct (nth_error (filter Client.su_req (Client.cl_subs (w_cl w))) j) as [s|] eqn:E; [|apply nth_error_None in E; rewrite <- (forall2_len _ _ _ Fp) in E; lia].
  destruct (filter_place _ _ j s E) as (J & EJ & Q & Lf). destruct (request_state S any a y w J j s I EJ Q E) as [Pe|(d0 & Fu & (s0 & E0 & _ & N0))].
  - split; [now left|]. intros d (p & x & K1 & K2 & K3). destruct Pe as (rs & p' & x' & K1' & K2' & K3'). congruence.
  - split; [right; eauto|]. intros d Fd. assert (d = d0) as ->. { destruct Fu as (p & x & K1 & K2 & K3), Fd as (p' & x' & K1' & K2' & K3'). congruence. }
    rewrite EJ in E0. injection E0 as <-. destruct (seen_steps ws w J s EJ) as (s' & l & E' & Q' & N'). rewrite Q in Q'.
    assert (Ef : nth_error (filter Client.su_req (Client.cl_subs (w_cl (steps w ws)))) j = Some s').
    { pose proof (nth_some_lt _ _ _ EJ) as LJ. rewrite <- Lf. apply request_at; [|rewrite firstn_length, Nat.min_l by lia; exact E'|exact Q'].
      intros q k Hq. apply (grown_steps S ws w). rewrite <- firstn_map in Hq. rewrite <- (firstn_skipn J (map key (Client.cl_subs (w_cl w)))), nth_error_app1; [exact Hq|]. now apply nth_some_lt in Hq. }
    destruct (forall2_at2 _ _ _ _ _ (ag_proms _ _ (sim_agree S any a y' _ I')) Ef) as (v & Hv & (p & x & -> & Ep & Ex)). rewrite N', N0 in Ex. exists p, x. auto.
Qed.
Lemma heard_stays u : u < List.length (us_unls (st_user (sy_page y))) -> exists l, heard_of u (sy_page y') = heard_of u (sy_page y) ++ l.
Proof.
  intros Lu. destruct sims as (w & ws & I & I'). pose proof (sim_agree S any a y w I) as G. pose proof (sim_agree S any a y' _ I') as G'. rewrite (ag_unls _ _ G) in Lu.
  destruct (nth_error (listeners (Client.cl_subs (w_cl w))) u) as [J|] eqn:E; [|apply nth_error_None in E; lia].
  pose proof (listeners_grown _ _ u J (grown_steps S ws w) E) as E'.
  destruct (listener_entry _ _ _ E) as (s & Es & _). destruct (seen_steps ws w J s Es) as (s' & l & Es' & _ & N').
  rewrite (ag_heard _ _ G u J s E Es), (ag_heard _ _ G' u J s' E' Es'), N', map_app. eauto.
Qed.
End Stays.

Section Unheard.
Context {T V F : Type} (S : setting T V F).
Local Notation A := (rpc S).
Local Notation step := (wnext (call_text S) (read_text S) (same_id S) (from_text S) (to_text S)).
Local Notation steps := (wrun (call_text S) (read_text S) (same_id S) (from_text S) (to_text S)).
Context (P : list TsProgram.top) (HP : program Prelude.websocket_client = Some P).
Context (scripts : list script) (a : list F) (y0 y1 y2 y : system S) (es1 es2 : list (sevent S)) (u : nat) (b : bool).
Hypothesis (H0 : started S P scripts a y0) (R1 : sruns S y0 es1 y1) (R2 : sstep S y1 (STask (TUser (mkScript [AUnlisten u] b))) y2) (R3 : sruns S y2 es2 y).
Lemma unsubscribed : u < List.length (us_unls (st_user (sy_page y1))) -> heard_of u (sy_page y) = heard_of u (sy_page y1).
Proof.
  intros Lu. destruct (sim_init S any P scripts a y0 HP H0 (any_all _)) as [I0 _]. destruct (sim_run S any es1 a y0 _ y1 I0 R1 (any_all _)) as (e1 & _ & I1 & _). set (w := steps (winit (A := A) a) e1) in *.
  pose proof (sim_agree S any a y1 w I1) as G1. rewrite (ag_unls _ _ G1) in Lu.
  destruct (nth_error (listeners (Client.cl_subs (w_cl w))) u) as [J|] eqn:E; [|apply nth_error_None in E; lia]. destruct (listener_entry _ _ _ E) as (s & Es & Q).
  set (w1 := step w (WClient (Client.UUnlisten J))).
  assert (E1 : w1 = mkWorld (acts_next (s_lit S) (s_num S) (s_other S) (w_cl w) (sc_acts (mkScript [AUnlisten u] b))) (w_sv w) (w_links w)) by (unfold w1; cbn [sc_acts]; unfold acts_next; cbn [fold_left act_next]; rewrite E; reflexivity).
  destruct (sim_user_step S any a y1 w _ y2 I1 R2 (any_all _)) as (e2 & _ & I2 & _).
  { rewrite <- E1. apply wreach_next. exact (si_reach _ _ _ _ _ I1). }
  rewrite <- E1 in I2. destruct (sim_run S any es2 a y2 _ y I2 R3 (any_all _)) as (e3 & _ & I3 & _). rewrite <- steps_app in I3.
  pose proof (sim_agree S any a y _ I3) as G3.
  assert (Gn : gone (w_cl (steps w1 (e2 ++ e3))) J (Client.su_seen s)) by (apply gone_steps; exact (gone_after _ _ _ (w_cl w) J s (sim_user S any a y1 w I1) Es Q)).
  destruct Gn as (s' & Es' & _ & Sn). assert (E' : nth_error (listeners (Client.cl_subs (w_cl (steps w1 (e2 ++ e3))))) u = Some J).
  { apply (listeners_grown (Client.cl_subs (w_cl w1))); [apply grown_steps|]. apply (listeners_grown (Client.cl_subs (w_cl w))); [apply grown_step|exact E]. }
  now rewrite (ag_heard _ _ G1 u J s E Es), (ag_heard _ _ G3 u J s' E' Es'), Sn.
Qed.
End Unheard.
