(** A page and a server do what the models of client and server do.  Proof side. *)
From Coq Require Import List String Ascii Bool Arith NArith ZArith Lia.
From Verif Require Import Util Js JsonText Registry Macro Server Pump Wire TsProgram FileProofs ClientSpec ClientProofs.
From Verif Require Import E2E E2ESpec E2EStreamSpec E2EText E2EProofs E2ESafe E2EFail E2EWire E2EStream E2EStreamWire.
From Verif Require Import JsSem JsSpec JsWorld JsStep JsEntries JsTasks JsPage JsMono JsClaims System SystemSpec.
From Verif Require Client ClientSockProofs JsRun Prelude.
Import ListNotations.
Local Open Scope string_scope.
Local Open Scope list_scope.

(** ** Events of the client that are no business of the network *)
Section Quiet.
Context {R text K D : Type} (enc : N -> R -> option text) (read : text -> option (K * D)) (same : K -> N -> bool).
Context {A : app} (decode : text -> msg A) (encode : response A -> text).
Definition quiet (e : Client.cevent R text) : Prop := match e with Client.NOpen _ | Client.NMessage _ _ => False | _ => True end.
Lemma wrun_quiet es : forall c v l, Forall quiet es -> wrun enc read same decode encode (mkWorld c v l) (map (fun e => WClient e) es) = mkWorld (Client.crun enc read same c es) v l.
Proof.
  induction es as [|e es IH]; intros c v l Q; [reflexivity|]. inversion Q as [|e' es' Q1 Q2]; subst. cbn [map wrun fold_left]. unfold wrun in IH. unfold Client.crun in *. cbn [fold_left].
  destruct e; try (now destruct Q1); exact (IH _ v l Q2).
Qed.
Lemma no_throws_next (c : Client.client text K D) (e : Client.cevent R text) : e <> Client.UThrow -> no_throws c -> no_throws (Client.cnext enc read same c e).
Proof.
  intros N H. destruct (effect_ok enc read same c e) as (c' & Ef & Tk). apply talk_parts in Tk as (_ & _ & _ & _ & _ & Tk). unfold no_throws in *. rewrite Tk.
  destruct Ef; try exact H; cbn; [congruence| |].
  - unfold Client.visit. destruct (nth_error _ _) as [s|]; [|exact H]. cbn zeta. destruct (Client.su_live s && same (Client.dp_key d) (Client.su_id s)); exact H.
  - apply Forall_app. split; [exact H|]. now constructor.
Qed.
Lemma calls_split (c : Client.client text K D) : (forall id r, enc id r <> None) -> creachable enc read same c ->
  List.length (Client.cl_calls c) = List.length (filter Client.su_req (Client.cl_subs c)) + List.length (Client.cl_stores c).
Proof.
  intros He. revert c. apply run_ind; [reflexivity|]. intros c e IH.
  assert (Len : forall l l' : list (Client.sub D), map (fun s => (Client.su_id s, Client.su_req s)) l = map (fun s => (Client.su_id s, Client.su_req s)) l' -> List.length (filter Client.su_req l) = List.length (filter Client.su_req l')).
  { clear. induction l as [|x l IH]; intros [|y l'] E; try discriminate; [reflexivity|]. cbn in *. injection E as _ E1 E2. rewrite E1. destruct (Client.su_req y); cbn; auto. }
  destruct (effect_ok enc read same c e) as (c' & Ef & Tk). apply talk_parts in Tk as (_ & -> & -> & _ & -> & _).
  destruct Ef; cbn; rewrite ?filter_app, ?app_length; cbn; try lia.
  - exfalso. eapply He. eassumption.
  - rewrite (Len _ _ (keys_deleted j (Client.done c) (Client.cl_subs c))). exact IH.
  - unfold Client.visit. destruct (nth_error _ _) as [s|]; [|exact IH]. cbn zeta. destruct (Client.su_live s && same (Client.dp_key d) (Client.su_id s)); [|exact IH]. cbn.
    rewrite (Len _ (Client.cl_subs c)); [exact IH|]. now apply keys_upd.
  - rewrite (Len _ _ (keys_deleted j (Client.done c) (Client.cl_subs c))). exact IH.
Qed.
End Quiet.

(** ** Positions of entries *)
Lemma at_split {X} (l : list X) n x : nth_error l n = Some x -> l = firstn n l ++ x :: skipn (Datatypes.S n) l.
Proof. revert n. induction l as [|y l IH]; intros [|n] E; try discriminate; cbn in *; [now injection E as ->|f_equal; now apply IH]. Qed.
Definition key (s : Client.sub jsval) : N * bool := (Client.su_id s, Client.su_req s).
Definition grown (l l' : list (Client.sub jsval)) : Prop := forall j k, nth_error (map key l) j = Some k -> nth_error (map key l') j = Some k.
Lemma grown_first l l' : grown l l' -> map key (firstn (List.length l) l') = map key l.
Proof.
  revert l'. induction l as [|x l IH]; intros l' G; [reflexivity|]. destruct l' as [|y l']; [now specialize (G 0 _ eq_refl)|]. cbn [map firstn List.length]. pose proof (G 0 _ eq_refl) as G0. cbn [map nth_error] in G0. f_equal.
  - congruence.
  - apply IH. intros j k. exact (G (Datatypes.S j) k).
Qed.
Lemma key_filter l : forall l', map key l = map key l' -> List.length (filter Client.su_req l) = List.length (filter Client.su_req l').
Proof. induction l as [|x l IH]; intros [|y l'] E; try discriminate; [reflexivity|]. cbn in *. injection E as _ E1 E2. rewrite E1. destruct (Client.su_req y); cbn; auto. Qed.
Lemma request_at l l' s : grown l l' -> nth_error l' (List.length l) = Some s -> Client.su_req s = true ->
  nth_error (filter Client.su_req l') (List.length (filter Client.su_req l)) = Some s.
Proof.
  intros G E Q. rewrite (at_split _ _ _ E), filter_app. cbn. rewrite Q, nth_error_app2; rewrite (key_filter l (firstn (List.length l) l')) by (symmetry; now apply grown_first).
  - now rewrite Nat.sub_diag.
  - apply Nat.le_refl.
Qed.
Lemma from_app a l l' : listeners_from a (l ++ l') = listeners_from a l ++ listeners_from (a + List.length l) l'.
Proof.
  unfold listeners_from. revert a. induction l as [|x l IH]; intros a; cbn [List.length List.app]; [now rewrite Nat.add_0_r|]. cbn [seq combine filter]. specialize (IH (Datatypes.S a)).
  rewrite Nat.add_succ_comm in IH. cbn [snd]. destruct (negb (Client.su_req x)); cbn [map List.app]; now rewrite IH.
Qed.
Lemma from_length l : forall a l' a', map key l = map key l' -> List.length (listeners_from a l) = List.length (listeners_from a' l').
Proof.
  unfold listeners_from. induction l as [|x l IH]; intros a [|y l'] a' E; try discriminate; [reflexivity|]. cbn [List.length seq combine filter snd map] in *. injection E as _ E1 E2.
  rewrite E1. destruct (negb (Client.su_req y)); cbn; auto.
Qed.
Lemma listener_at l l' s : grown l l' -> nth_error l' (List.length l) = Some s -> Client.su_req s = false ->
  nth_error (listeners l') (List.length (listeners l)) = Some (List.length l).
Proof.
  intros G E Q. change (nth_error (listeners_from 0 l') (List.length (listeners_from 0 l)) = Some (List.length l)).
  pose proof (grown_first _ _ G) as K. rewrite (at_split _ _ _ E), from_app.
  rewrite (from_length l 0 (firstn (List.length l) l') 0) by now symmetry. rewrite nth_error_app2, Nat.sub_diag by apply Nat.le_refl.
  unfold listeners_from. cbn [List.length seq combine filter snd]. rewrite Q. cbn. f_equal. apply nth_some_lt in E. rewrite firstn_length. lia.
Qed.

Lemma listeners_grown l l' u J : grown l l' -> nth_error (listeners l) u = Some J -> nth_error (listeners l') u = Some J.
Proof.
  intros G E. pose proof (grown_first _ _ G) as K. change (nth_error (listeners_from 0 l') u = Some J). rewrite <- (firstn_skipn (List.length l) l'), from_app.
  assert (Same : forall l l' a, map key l = map key l' -> listeners_from a l = listeners_from a l').
  { clear. unfold listeners_from. induction l as [|x l IH]; intros [|y l'] a E; try discriminate; [reflexivity|]. cbn [List.length seq combine filter snd map] in *. injection E as _ E1 E2. rewrite E1.
    specialize (IH l' (Datatypes.S a) E2). destruct (negb (Client.su_req y)); cbn [map fst]; [f_equal|]; exact IH. }
  rewrite (Same _ l 0 K), nth_error_app1; [exact E|]. now apply nth_some_lt in E.
Qed.
Lemma listeners_inj l u v J : nth_error (listeners l) u = Some J -> nth_error (listeners l) v = Some J -> u = v.
Proof.
  intros E1 E2. assert (N : NoDup (listeners l)).
  { clear E1 E2. change (NoDup (listeners_from 0 l)). unfold listeners_from. generalize 0. induction l as [|x l' IH]; [constructor|]. intros a. cbn [List.length seq combine filter snd].
    assert (Hi : forall (k : list (Client.sub jsval)) a z, In z (map fst (filter (fun p : nat * Client.sub jsval => negb (Client.su_req (snd p))) (combine (seq a (List.length k)) k))) -> a <= z).
    { clear. induction k as [|x k IH]; intros a z H; [destruct H|]. cbn [List.length seq combine filter snd] in H. destruct (negb (Client.su_req x)).
      - cbn in H. destruct H as [<-|H]; [lia|]. apply IH in H. lia.
      - apply IH in H. lia. }
    destruct (negb (Client.su_req x)); cbn [map fst]; [constructor|]; auto. intros H. apply Hi in H. lia. }
  apply (proj1 (NoDup_nth_error (listeners l)) N); [now apply nth_some_lt in E1|congruence].
Qed.

(** ** What a task leads to is a run of the model *)
Section Leads.
Context (lit : num -> jstr) (num : jstr -> num) (other : jsval -> N -> bool).
Local Notation cnext := (Client.cnext (js_enc lit) (js_read num) (js_same other)).
Local Notation crun := (Client.crun (js_enc lit) (js_read num) (js_same other)).
Local Notation cevent := (Client.cevent jcall jstr).
Definition tame (x : script) : Prop := sc_throw x = false.
Definition nothing_thrown (es : list cevent) : Prop := Forall (fun e => e <> Client.UThrow) es.
(** The calls are among those that [C] allows. *)
Context (C : action -> Prop).
Definition allowed (l : list action) : Prop := Forall C l.
Definition call_ok (e : cevent) : Prop :=
  match e with Client.URequest (ns, m, args) => C (ARequest ns m args) | Client.UStream (ns, m, args) => C (AStream ns m args) | _ => True end.
Definition ev_ok (e : cevent) : Prop := quiet e /\ call_ok e.
(** Events that are no business of the network and the clock either. *)
Definition local (e : cevent) : Prop :=
  match e with Client.NOpen _ | Client.NClosing _ | Client.NClose _ | Client.NFail _ | Client.NMessage _ _ | Client.TTimer => False | _ => True end.
Definition lev_ok (e : cevent) : Prop := local e /\ call_ok e.
Lemma lev_ev es : Forall lev_ok es -> Forall ev_ok es.
Proof. apply Forall_impl. intros e [H H']. split; [destruct e; now try destruct H|exact H']. Qed.
Lemma lev_local es : Forall lev_ok es -> Forall local es.
Proof. apply Forall_impl. now intros e [H _]. Qed.

(** The [u]-th listener, whose entry is [J], is not unsubscribed. *)
Definition stays (u J : nat) (c : jclient) : Prop := nth_error (listeners (Client.cl_subs c)) u = Some J.
Definition calm (J : nat) (es : list cevent) : Prop := Forall (fun e => e <> Client.UUnlisten J) es.
Definition keeps_calm (c : jclient) (es : list cevent) : Prop := forall u J, ~ C (AUnlisten u) -> stays u J c -> calm J es.
Lemma stays_next u J c e : stays u J c -> stays u J (cnext c e).
Proof. apply listeners_grown. intros j k E. exact (keys_next (js_enc lit) (js_read num) (js_same other) _ _ _ _ E). Qed.
Lemma stays_run u J es : forall c, stays u J c -> stays u J (crun c es).
Proof. induction es as [|e es IH]; intros c H; [exact H|]. apply (IH (cnext c e)). now apply stays_next. Qed.

Lemma allowed_app l l' : allowed (l ++ l') <-> allowed l /\ allowed l'.
Proof. apply Forall_app. Qed.
Lemma ok_quiet es : Forall ev_ok es -> Forall quiet es.
Proof. apply Forall_impl. now intros e [H _]. Qed.
Lemma crun_app c es es' : crun c (es ++ es') = crun (crun c es) es'.
Proof. unfold Client.crun. apply fold_left_app. Qed.
Lemma act_run c a : allowed [a] -> exists es, Forall lev_ok es /\ nothing_thrown es /\ act_next lit num other c a = crun c es /\ keeps_calm c es.
Proof.
  intros Al.
  assert (One : forall e : cevent, lev_ok e -> e <> Client.UThrow -> (forall J, e <> Client.UUnlisten J) -> exists es, Forall lev_ok es /\ nothing_thrown es /\ cnext c e = crun c es /\ keeps_calm c es).
  { intros e Q N Nu. exists [e]. split; [now constructor|]. split; [now constructor|]. split; [reflexivity|]. intros u J _ _. constructor; [apply Nu|constructor]. }
  assert (Non : exists es : list cevent, Forall lev_ok es /\ nothing_thrown es /\ c = crun c es /\ keeps_calm c es).
  { exists []. split; [constructor|]. split; [constructor|]. split; [reflexivity|]. intros u J _ _. constructor. }
  destruct a; cbn [act_next]; try exact Non.
  - apply One; try discriminate. split; [exact I|]. now inversion Al.
  - apply One; try discriminate. split; [exact I|]. now inversion Al.
  - apply One; try discriminate. now split.
  - destruct (nth_error _ _) as [x|] eqn:Ex; [|exact Non]. exists [Client.UUnlisten x]. split; [constructor; [now split|constructor]|]. split; [now constructor|]. split; [reflexivity|].
    intros u J Nu St. constructor; [|constructor]. intros [= ->]. unfold stays in St. rewrite (listeners_inj _ _ _ _ Ex St) in Al. inversion Al. contradiction.
Qed.
Lemma acts_run l : forall c, allowed l -> exists es, Forall lev_ok es /\ nothing_thrown es /\ acts_next lit num other c l = crun c es /\ keeps_calm c es.
Proof.
  induction l as [|a l IH]; intros c Al.
  - exists []. split; [constructor|]. split; [constructor|]. split; [reflexivity|]. intros u J _ _. constructor.
  - change (a :: l) with ([a] ++ l) in Al. apply allowed_app in Al as [A1 A2].
    destruct (act_run c a A1) as (es & Q & N & E & K). destruct (IH (act_next lit num other c a) A2) as (es' & Q' & N' & E' & K').
    exists (es ++ es'). split; [now apply Forall_app|]. split; [now apply Forall_app|]. split; [rewrite crun_app, <- E, <- E'; reflexivity|].
    intros u J Nu St. apply Forall_app. split; [exact (K u J Nu St)|]. apply (K' u J Nu). rewrite E. now apply stays_run.
Qed.
Lemma leads_run sc c sc' c' : leads lit num other sc c sc' c' -> allowed (flat_map sc_acts sc) -> exists es, Forall lev_ok es /\ c' = crun c es /\
  allowed (flat_map sc_acts sc') /\ (Forall tame sc -> Forall tame sc' /\ nothing_thrown es) /\ keeps_calm c es.
Proof.
  assert (One : forall (e : cevent) c, lev_ok e -> e <> Client.UThrow -> (forall J, e <> Client.UUnlisten J) -> forall sc sc' c',
    (exists es, Forall lev_ok es /\ c' = crun (cnext c e) es /\ allowed (flat_map sc_acts sc') /\ (Forall tame sc -> Forall tame sc' /\ nothing_thrown es) /\ keeps_calm (cnext c e) es) ->
    exists es, Forall lev_ok es /\ c' = crun c es /\ allowed (flat_map sc_acts sc') /\ (Forall tame sc -> Forall tame sc' /\ nothing_thrown es) /\ keeps_calm c es).
  { clear. intros e c Q N Nu sc sc' c' (es & Qs & E & Al & H & K). exists (e :: es). split; [now constructor|]. split; [exact E|]. split; [exact Al|]. split.
    - intros Ht. destruct (H Ht) as [H1 H2]. split; [exact H1|now constructor].
    - intros u J Nc St. constructor; [apply Nu|]. apply (K u J Nc). now apply stays_next. }
  induction 1 as [sc c|j sc c sc' c' L IH|sc c sc' c' L IH|sc c sc' c' U L IH]; intros Al.
  - exists []. split; [constructor|]. split; [reflexivity|]. split; [exact Al|]. split; [intros H; split; [exact H|constructor]|]. intros u J _ _. constructor.
  - specialize (IH Al). apply One in IH; [exact IH|now split|discriminate|discriminate].
  - specialize (IH Al). apply One in IH; [exact IH|now split|discriminate|discriminate].
  - assert (Al' : allowed (sc_acts (fst (pop sc))) /\ allowed (flat_map sc_acts (snd (pop sc)))).
    { destruct sc as [|x sc]; [split; constructor|]. now apply allowed_app. }
    destruct (IH (proj2 Al')) as (es & Q & E & Af & H & K). unfold code_next in E, K. destruct (acts_run (sc_acts (fst (pop sc))) c (proj1 Al')) as (es1 & Q1 & N1 & E1 & K1).
    exists (es1 ++ (if sc_throw (fst (pop sc)) then [Client.UThrow] else []) ++ es). split; [|split; [|split; [|split]]].
    + apply Forall_app. split; [exact Q1|]. apply Forall_app. split; [|exact Q]. destruct (sc_throw _); [|constructor]. constructor; [now split|constructor].
    + rewrite !crun_app, <- E1. destruct (sc_throw (fst (pop sc))); exact E.
    + exact Af.
    + intros Ht. assert (Hp : tame (fst (pop sc)) /\ Forall tame (snd (pop sc))).
      { destruct sc as [|x sc]; [split; [reflexivity|constructor]|]. inversion Ht; subst. now split. }
      destruct (H (proj2 Hp)) as [H1 H2]. split; [exact H1|]. apply Forall_app. split; [exact N1|]. rewrite (proj1 Hp). exact H2.
    + intros u J Nu St. apply Forall_app. split; [exact (K1 u J Nu St)|]. apply Forall_app. split; [destruct (sc_throw _); [constructor; [discriminate|constructor]|constructor]|].
      apply (K u J Nu). rewrite E1. destruct (sc_throw _); [apply stays_next|]; now apply stays_run.
Qed.
Lemma nothrow_run es : forall c, nothing_thrown es -> no_throws c -> no_throws (crun c es).
Proof.
  induction es as [|e es IH]; intros c N H; [exact H|]. inversion N; subst. cbn. apply IH; [assumption|]. now apply no_throws_next.
Qed.
End Leads.

Section Sim.
Context {T V F : Type} (S : setting T V F).
Local Notation A := (rpc S).
Local Notation lit := (s_lit S).
Local Notation num := (s_num S).
Local Notation other := (s_other S).
Local Notation reach := (wreachable (call_text S) (read_text S) (same_id S) (from_text S) (to_text S)).
Local Notation step := (wnext (call_text S) (read_text S) (same_id S) (from_text S) (to_text S)).
Local Notation steps := (wrun (call_text S) (read_text S) (same_id S) (from_text S) (to_text S)).
Local Notation world := (E2E.world jstr jsval jsval A).
Local Notation wevent := (wevent rcall jstr A).
Local Notation crun := (Client.crun (call_text S) (read_text S) (same_id S)).
Local Notation sstep := (sstep S).
Local Notation sruns := (sruns S).
Implicit Types (y : system S) (w : world).

Context (C : action -> Prop).
Definition wev_ok (e : wevent) : Prop := match e with WClient e => call_ok C e | _ => True end.
Definition scr y : list script := us_scripts (st_user (sy_page y)).
Definition rests (p : state) (c : jclient) : Prop := exists d, p = conc d /\ Inv d c /\ d_t d = [] /\ Client.cl_disp c = None.
Record Sim (a : list F) y w : Prop := {
  si_sv : w_sv w = sy_sv y;
  si_links : w_links w = sy_links y;
  si_reach : reach a w;
  si_page : rests (sy_page y) (w_cl w);
  si_allowed : allowed C (flat_map sc_acts (scr y))
}.

Lemma sim_agree a y w : Sim a y w -> agree (sy_page y) (w_cl w).
Proof. intros [_ _ _ (d & -> & I & Dt & Dd) _]. now apply agrees. Qed.
Lemma sim_idle a y w : Sim a y w -> Client.idle (w_cl w) = true.
Proof. intros H. exact (ag_idle _ _ (sim_agree a y w H)). Qed.
Lemma sim_user a y w : Sim a y w -> Client.user (w_cl w) = true.
Proof. intros [_ _ _ (d & _ & _ & _ & Dd) _]. unfold Client.user. now rewrite Dd. Qed.
Lemma sim_creach a y w : Sim a y w -> creachable (js_enc lit) (js_read num) (js_same other) (w_cl w).
Proof. intros H. exact (proj1 (parts (A := A) _ _ _ _ _ a w (si_reach _ _ _ H))). Qed.

Lemma task_sim p c t p' : rests p c -> does S t p p' ->
  exists c', rests p' c' /\ follows lit num other p c t (us_scripts (st_user p')) c'.
Proof.
  intros (d & -> & I & Dt & Dd) [n R]. destruct (task_ok lit num other d c t I Dt Dd) as (d' & c' & N & R' & I' & Dt' & Dd' & Fo).
  pose proof (task_more lit num other n (n + N) t ltac:(lia) (conc d)) as M. rewrite R in M. rewrite R' in M by lia. specialize (M ltac:(discriminate)). injection M as <-.
  exists c'. split; [now exists d'|exact Fo].
Qed.
Lemma task_can p c t : rests p c -> exists p', does S t p p'.
Proof. intros (d & -> & I & Dt & Dd). destruct (task_ok lit num other d c t I Dt Dd) as (d' & c' & N & R' & _). exists (conc d'), N. now apply R'. Qed.
Lemma does_same t p p1 p2 : does S t p p1 -> does S t p p2 -> p1 = p2.
Proof.
  intros [n R] [m R']. pose proof (task_more lit num other n (n + m) t ltac:(lia) p) as M. pose proof (task_more lit num other m (n + m) t ltac:(lia) p) as M'.
  rewrite R in M. rewrite R' in M'. rewrite M in M' by discriminate. specialize (M' ltac:(discriminate)). now injection M'.
Qed.

(** ** Step by step *)
Definition keeps_quiet (sc sc' : list script) (c c' : jclient) : Prop := Forall tame sc -> Forall tame sc' /\ (no_throws c -> no_throws c').

Definition task_acts (ts : list task) : list action := flat_map (fun t => match t with TUser x => sc_acts x | _ => [] end) ts.
(** Either local or one event. *)
Definition shape (es : list (Client.cevent rcall jstr)) : Prop := Forall local es \/ exists e, es = [e].
Lemma follows_run p c t sc' c' : (forall k, t <> TOpen k) -> (forall k x, t <> TMessage k x) -> follows lit num other p c t sc' c' ->
  allowed C (flat_map sc_acts (us_scripts (st_user p))) -> allowed C (task_acts [t]) ->
  exists es, Forall (ev_ok C) es /\ c' = crun c es /\ allowed C (flat_map sc_acts sc') /\ keeps_quiet (us_scripts (st_user p)) sc' c c' /\ shape es /\ keeps_calm C c es.
Proof.
  intros N1 N2 Fo Al At.
  assert (One : forall e : Client.cevent rcall jstr, ev_ok C e -> e <> Client.UThrow -> (forall J, e <> Client.UUnlisten J) -> exists es, Forall (ev_ok C) es /\
    Client.cnext (call_text S) (read_text S) (same_id S) c e = crun c es /\ allowed C (flat_map sc_acts (us_scripts (st_user p))) /\
    keeps_quiet (us_scripts (st_user p)) (us_scripts (st_user p)) c (Client.cnext (call_text S) (read_text S) (same_id S) c e) /\ shape es /\ keeps_calm C c es).
  { intros e Q N Nu. exists [e]. split; [now constructor|]. split; [reflexivity|]. split; [exact Al|]. split; [|split; [right; now exists e|intros u J _ _; constructor; [apply Nu|constructor]]]. intros Ht. split; [exact Ht|]. now apply no_throws_next. }
  inversion Fo as [x sc1 c1 L E1 E2 E3|k E1 E2 E3|k E1 E2 E3|k E1 E2 E3|k E1 E2 E3|k tx sc1 c1 L E1 E2 E3|k E1 E2 E3]; subst.
  - unfold task_acts in At. cbn [flat_map] in At. rewrite app_nil_r in At.
    destruct (acts_run lit num other C (sc_acts x) c At) as (es & Q & N & E & K). destruct (leads_run lit num other C _ _ _ _ L Al) as (es' & Q' & E' & Al' & H' & K').
    exists (es ++ es'). split; [apply lev_ev; now apply Forall_app|]. split; [rewrite E in E'; rewrite E'; symmetry; exact (crun_app lit num other c es es')|].
    split; [exact Al'|]. split; [|split; [left; apply (lev_local C); now apply Forall_app|intros u J Nu St; apply Forall_app; split; [exact (K u J Nu St)|apply (K' u J Nu); rewrite E; now apply stays_run]]]. intros Ht. destruct (H' Ht) as [H1 H2]. split; [exact H1|]. intros H. rewrite E', E. apply (nothrow_run lit num other); [exact H2|]. now apply (nothrow_run lit num other).
  - now destruct (N1 k).
  - exact (One (Client.NClosing k) (conj I I) ltac:(discriminate) ltac:(discriminate)).
  - exact (One (Client.NClose k) (conj I I) ltac:(discriminate) ltac:(discriminate)).
  - exact (One (Client.NFail k) (conj I I) ltac:(discriminate) ltac:(discriminate)).
  - now destruct (N2 k tx).
  - destruct (alive p k); [exact (One Client.TTimer (conj I I) ltac:(discriminate) ltac:(discriminate))|]. exists []. split; [constructor|]. split; [reflexivity|]. split; [exact Al|]. split; [now intros Ht|]. split; [left; constructor|intros u J _ _; constructor].
Qed.
Lemma lift_ok (es : list (Client.cevent rcall jstr)) : Forall (ev_ok C) es -> Forall wev_ok (map (fun e => WClient e) es).
Proof. induction 1 as [|e es [_ H] F1 IH]; constructor; [exact H|exact IH]. Qed.

Definition bounded y w (e : sevent S) y' w' : Prop := counted (w_cl w') + weigh (scr y') <= counted (w_cl w) + weigh (scr y) + task_calls (tasks_of [e]).
(** What an event of the system is in the model. *)
Definition mould (e : sevent S) (es : list wevent) : Prop :=
  match e with
  | STask _ => exists l, es = map (fun e => WClient e) l /\ shape l
  | SServer e => es = [WServer e]
  | SAccept n => es = [WAccept n]
  | SOpen n => es = [WOpen n]
  | SUp l => es = [WUp l]
  | SDown l => exists l', es = WDown l :: map (fun e => WClient e) l' /\ Forall local l'
  end.
Definition calm_run (w : world) (es : list wevent) : Prop := forall u J, ~ C (AUnlisten u) -> stays u J (w_cl w) -> Forall (fun e => e <> WClient (Client.UUnlisten J)) es.
Lemma lift_calm J (es : list (Client.cevent rcall jstr)) : calm J es -> Forall (fun e : wevent => e <> WClient (Client.UUnlisten J)) (map (fun e => WClient e) es).
Proof. induction 1 as [|e es H _ IH]; [constructor|]. constructor; [intros Q; injection Q as Q; exact (H Q)|exact IH]. Qed.
Lemma sim_block a y w e y' : Sim a y w -> sstep y e y' -> allowed C (task_acts (tasks_of [e])) ->
  exists es : list wevent, Forall wev_ok es /\ Sim a y' (steps w es) /\ bounded y w e y' (steps w es) /\ keeps_quiet (scr y) (scr y') (w_cl w) (w_cl (steps w es)) /\ mould e es /\ calm_run w es.
Proof.
  intros H St At. pose proof (sim_agree a y w H) as G. pose proof (sim_idle a y w H) as Id. destruct H as [Hv Hl Hr Hp Al]. destruct w as [c v l]. cbn [w_sv w_links w_cl] in *. subst v l.
  assert (Still : forall (y1 : system S) (w1 : world), sy_page y1 = sy_page y -> w_cl w1 = c -> bounded y (mkWorld c (sy_sv y) (sy_links y)) e y1 w1 /\ keeps_quiet (scr y) (scr y1) c (w_cl w1)).
  { intros y1 w1 E1 E2. unfold bounded, scr. rewrite E1, E2. split; [cbn; lia|]. intros Ht. now split. }
  inversion St as [t p N1 N2 D E1 E2|e0 N E1 E2|n Ln Nl Np E1 E2|n p x Ix En D E1 E2|l x so s t Hx Hso Ht Hs Lv E1 E2|l x so s t p Hx Hs Ht Hso Os D E1 E2]; subst e y'.
  - destruct (task_sim _ _ _ _ Hp D) as (c' & Hp' & Fo). destruct (follows_run _ _ _ _ _ N1 N2 Fo Al At) as (es & Q & Ec & Al' & Kq & Sh & Kc).
    pose proof (lift_ok es Q) as Qo. apply ok_quiet in Q. set (evs := map (fun e => WClient e : wevent) es).
    assert (E : steps (mkWorld c (sy_sv y) (sy_links y)) evs = mkWorld c' (sy_sv y) (sy_links y)) by (rewrite Ec; exact (wrun_quiet _ _ _ _ _ es _ _ _ Q)).
    exists evs. split; [exact Qo|]. split; [constructor; [now rewrite E|now rewrite E|now apply wreach_run|rewrite E; exact Hp'|exact Al']|]. rewrite E. split.
    + exact (counted_follows lit num other _ _ _ _ _ Fo).
    + split; [exact Kq|]. split; [now exists es|]. intros u J Nu St'. apply lift_calm. exact (Kc u J Nu St').
  - exists [WServer e0].
    assert (E : steps (mkWorld c (sy_sv y) (sy_links y)) [WServer e0] = mkWorld c (pnext (from_text S) (to_text S) (sy_sv y) e0) (sy_links y)).
    { cbn [wrun fold_left wnext]. destruct e0 as [e0| |k fr|k|k b]; try reflexivity. destruct fr as [tx| | |]; try reflexivity. destruct (linked_pump _ k) eqn:Lk; [|reflexivity].
      apply linked_pump_in in Lk as (x & Ix & Ex). now destruct (N k tx x eq_refl Ix). }
    split; [constructor; [exact I|constructor]|]. split; [|rewrite E; split; [now apply Still|split; [now apply Still|split; [reflexivity|intros u J _ _; constructor; [discriminate|constructor]]]]]. constructor; [now rewrite E|now rewrite E|now apply wreach_run|rewrite E; exact Hp|exact Al].
  - exists [WAccept n].
    assert (E : steps (mkWorld c (sy_sv y) (sy_links y)) [WAccept n] = mkWorld c (pnext (from_text S) (to_text S) (sy_sv y) PUpgrade) (sy_links y ++ [mkLink n (List.length (p_socks (sy_sv y))) 0 0])).
    { cbn [wrun fold_left wnext w_cl w_sv w_links]. rewrite <- (forall2_len _ _ _ (ag_socks _ _ G)). rewrite (proj2 (Nat.ltb_lt _ _) Ln).
      destruct (linked_sock _ n) eqn:Lk; [apply linked_sock_in in Lk as (x & Ix & Ex); now destruct (Nl x Ix)|]. destruct (Nat.eqb_spec (st_proxies (p_srv (sy_sv y))) 0); [contradiction|]. reflexivity. }
    split; [constructor; [exact I|constructor]|]. split; [|rewrite E; split; [now apply Still|split; [now apply Still|split; [reflexivity|intros u J _ _; constructor; [discriminate|constructor]]]]]. constructor; [now rewrite E|now rewrite E|now apply wreach_run|rewrite E; exact Hp|exact Al].
  - subst n. exists [WOpen (ln_sock x)]. destruct (task_sim _ _ _ _ Hp D) as (c' & Hp' & Fo).
    assert (E : steps (mkWorld c (sy_sv y) (sy_links y)) [WOpen (ln_sock x)] = mkWorld c' (sy_sv y) (sy_links y)).
    { cbn [wrun fold_left wnext w_cl w_sv w_links]. rewrite (proj2 (linked_sock_in _ _)) by (now exists x). inversion Fo. reflexivity. }
    split; [constructor; [exact I|constructor]|].
    split; [constructor; [now rewrite E|now rewrite E|now apply wreach_run|rewrite E; exact Hp'|inversion Fo as [|k E1 E2 E3| | | | |]; unfold scr; cbn [sy_page]; rewrite <- E2; exact Al]|]. rewrite E. split.
    + exact (counted_follows lit num other _ _ _ _ _ Fo).
    + split; [|split; [reflexivity|intros u J _ _; constructor; [discriminate|constructor]]]. inversion Fo as [|k E1 E2 E3| | | | |]. intros Ht. unfold scr. cbn [sy_page]. rewrite <- E2. split; [exact Ht|]. intros Hn. cbn [w_cl]. now apply no_throws_next.
  - exists [WUp l].
    destruct (forall2_at _ _ _ _ _ (ag_socks _ _ G) Hso) as (z & Hz & (_ & Ez & _)). rewrite Ez, nth_error_map in Ht. destruct (nth_error (Client.ws_sent z) (ln_up x)) as [[i tx]|] eqn:Eu; [|discriminate].
    cbn in Ht. injection Ht as ->.
    assert (E : steps (mkWorld c (sy_sv y) (sy_links y)) [WUp l] = mkWorld c (pnext (from_text S) (to_text S) (sy_sv y) (PFrame (ln_pump x) (FText t)))
      (upd l (fun x => mkLink (ln_sock x) (ln_pump x) (Datatypes.S (ln_up x)) (ln_down x)) (sy_links y))).
    { cbn [wrun fold_left wnext w_cl w_sv w_links]. rewrite Hx. unfold sent_on. rewrite Hz, Eu, Hs, Lv. reflexivity. }
    split; [constructor; [exact I|constructor]|]. split; [|rewrite E; split; [now apply Still|split; [now apply Still|split; [reflexivity|intros u J _ _; constructor; [discriminate|constructor]]]]]. constructor; [now rewrite E|now rewrite E|now apply wreach_run|rewrite E; exact Hp|exact Al].
  - destruct (task_sim _ _ _ _ Hp D) as (c' & Hp' & Fo).
    destruct (forall2_at _ _ _ _ _ (ag_socks _ _ G) Hso) as (z & Hz & (Ez & _ & _)).
    assert (Es : Client.state_of c (ln_sock x) = Client.Open) by (unfold Client.state_of; rewrite Hz; congruence).
    inversion Fo as [| | | | |k tx sc1 c1 L E1 E2 E3|]; subst.
    destruct (leads_run lit num other C _ _ _ _ L Al) as (es & Ql & Ec & Al' & Hq & Kc). pose proof (lev_ev C es Ql) as Q. pose proof (lift_ok es Q) as Qo. apply ok_quiet in Q.
    set (evs := (WDown l : wevent) :: map (fun e => WClient e) es).
    assert (E : steps (mkWorld c (sy_sv y) (sy_links y)) evs =
      mkWorld c' (sy_sv y) (upd l (fun x => mkLink (ln_sock x) (ln_pump x) (ln_up x) (Datatypes.S (ln_down x))) (sy_links y))).
    { unfold evs. cbn [wrun fold_left wnext w_cl w_sv w_links]. rewrite Hx, Hs, Ht, Id, Es. rewrite Ec. exact (wrun_quiet _ _ _ _ _ es _ _ _ Q). }
    exists evs. split; [constructor; [exact I|exact Qo]|].
    split; [constructor; [now rewrite E|now rewrite E|now apply wreach_run|rewrite E; exact Hp'|exact Al']|]. rewrite E. split.
    + exact (counted_follows lit num other _ _ _ _ _ Fo).
    + split; [|split; [exists es; split; [reflexivity|exact (lev_local C es Ql)]|intros u J Nu St'; constructor; [discriminate|apply lift_calm; apply (Kc u J Nu); now apply stays_next]]]. intros Hm. destruct (Hq Hm) as [H1 H2]. split; [exact H1|]. intros Hn. cbn [w_cl]. rewrite Ec. apply (nothrow_run lit num other); [exact H2|]. now apply no_throws_next.
Qed.

Lemma sim_step a y w e y' : Sim a y w -> sstep y e y' -> allowed C (task_acts (tasks_of [e])) ->
  exists es : list wevent, Forall wev_ok es /\ Sim a y' (steps w es) /\ bounded y w e y' (steps w es) /\ keeps_quiet (scr y) (scr y') (w_cl w) (w_cl (steps w es)).
Proof. intros H St At. destruct (sim_block a y w e y' H St At) as (es & H1 & H2 & H3 & H4 & _). now exists es. Qed.

Lemma tasks_app (es es' : list (sevent S)) : tasks_of (es ++ es') = tasks_of es ++ tasks_of es'.
Proof. unfold tasks_of. apply flat_map_app. Qed.
Lemma quiet_trans sc sc1 sc2 c c1 c2 : keeps_quiet sc sc1 c c1 -> keeps_quiet sc1 sc2 c1 c2 -> keeps_quiet sc sc2 c c2.
Proof. intros H H' Ht. destruct (H Ht) as [H1 H2]. destruct (H' H1) as [H3 H4]. split; auto. Qed.
Lemma steps_app w (es es' : list wevent) : steps w (es ++ es') = steps (steps w es) es'.
Proof. apply wrun_app. Qed.
Lemma task_acts_app ts ts' : task_acts (ts ++ ts') = task_acts ts ++ task_acts ts'.
Proof. apply flat_map_app. Qed.
Lemma sim_run es : forall a y w y', Sim a y w -> sruns y es y' -> allowed C (task_acts (tasks_of es)) ->
  exists es' : list wevent, Forall wev_ok es' /\ Sim a y' (steps w es') /\ counted (w_cl (steps w es')) + weigh (scr y') <= counted (w_cl w) + weigh (scr y) + task_calls (tasks_of es) /\
    keeps_quiet (scr y) (scr y') (w_cl w) (w_cl (steps w es')).
Proof.
  induction es as [|e es IH]; intros a y w y' H R At; inversion R as [y0|y0 e0 y1 es0 y2 S1 R2]; subst.
  - exists []. split; [constructor|]. split; [exact H|]. split; [cbn; lia|]. now intros Ht.
  - change (e :: es) with ([e] ++ es) in At. rewrite tasks_app, task_acts_app in At. apply allowed_app in At as [At1 At2].
    destruct (sim_step a y w e y1 H S1 At1) as (es1 & O1 & H1 & B1 & Q1). destruct (IH a y1 _ y' H1 R2 At2) as (es2 & O2 & H2 & B2 & Q2). exists (es1 ++ es2). rewrite steps_app. split; [now apply Forall_app|]. split; [exact H2|]. split.
    + change (e :: es) with ([e] ++ es). rewrite tasks_app, task_calls_app. unfold bounded in B1. lia.
    + exact (quiet_trans _ _ _ _ _ _ Q1 Q2).
Qed.
Lemma sim_init P scripts a y : program Prelude.websocket_client = Some P -> started S P scripts a y -> allowed C (flat_map sc_acts scripts) -> Sim a y (winit (A := A) a) /\ scr y = scripts.
Proof.
  intros HP (L & Ev & El) Al. apply read_is in HP. subst P. destruct L as [n L].
  assert (Ep : sy_page y = conc (world0 scripts)).
  { pose proof (load_more lit num other n (40 + n) client_program ltac:(lia) (st0 scripts)) as M. rewrite L in M. specialize (M ltac:(discriminate)).
    rewrite (JsRun.load_ok lit num other n scripts) in M. injection M as M. symmetry. exact M. }
  split; [|unfold scr; now rewrite Ep]. constructor.
  - now rewrite Ev.
  - now rewrite El.
  - now exists [].
  - rewrite Ep. exists (world0 scripts). split; [reflexivity|]. split; [exact (inv0 lit num other scripts)|]. split; reflexivity.
  - unfold scr. now rewrite Ep.
Qed.
Lemma few_count scripts (es : list (sevent S)) (c : jclient) : few scripts (tasks_of es) -> counted c <= weigh scripts + task_calls (tasks_of es) -> countable c.
Proof. unfold few, countable, all_actions, counted, weigh, task_calls. rewrite calls_of_app, app_length. lia. Qed.

(** Code of the user. *)
Lemma sim_user_block a y w x y' : Sim a y w -> sstep y (STask (TUser x)) y' -> allowed C (sc_acts x) ->
  let w1 := mkWorld (acts_next lit num other (w_cl w) (sc_acts x)) (w_sv w) (w_links w) in reach a w1 ->
  exists es : list wevent, Forall wev_ok es /\ Sim a y' (steps w1 es) /\ bounded y w (STask (TUser x)) y' (steps w1 es) /\ keeps_quiet (scr y) (scr y') (w_cl w) (w_cl (steps w1 es)) /\
    calm_run w1 es /\ exists l, es = map (fun e => WClient e) l /\ Forall local l.
Proof.
  intros H St At w1 R1. destruct H as [Hv Hl Hr Hp Al]. inversion St as [t p N1 N2 D E1 E2| | | | |]; subst.
  destruct (task_sim _ _ _ _ Hp D) as (c' & Hp' & Fo). assert (At' : allowed C (task_acts [TUser x])) by (unfold task_acts; cbn [flat_map]; now rewrite app_nil_r).
  pose proof (follows_run _ _ _ _ _ N1 N2 Fo Al At') as (_ & _ & _ & _ & Kq & _). pose proof (counted_follows lit num other _ _ _ _ _ Fo) as B.
  inversion Fo as [x0 sc1 c1 L E1 E2 E3| | | | | |]; subst. destruct (leads_run lit num other C _ _ _ _ L Al) as (es & Ql & Ec & Al' & _ & Kc). pose proof (lev_ev C es Ql) as Q. pose proof (lift_ok es Q) as Qo. apply ok_quiet in Q.
  set (evs := map (fun e => WClient e : wevent) es).
  assert (E : steps w1 evs = mkWorld c' (sy_sv y) (sy_links y)).
  { unfold w1, evs. rewrite Hv, Hl, Ec. exact (wrun_quiet _ _ _ _ _ es _ _ _ Q). }
  exists evs. split; [exact Qo|]. split; [|rewrite E; split; [exact B|split; [exact Kq|split; [intros u J Nu St'; apply lift_calm; exact (Kc u J Nu St')|]; exists es; split; [reflexivity|exact (lev_local C es Ql)]]]]. constructor; [now rewrite E|now rewrite E|now apply wreach_run|rewrite E; exact Hp'|exact Al'].
Qed.

Lemma sim_user_step a y w x y' : Sim a y w -> sstep y (STask (TUser x)) y' -> allowed C (sc_acts x) ->
  let w1 := mkWorld (acts_next lit num other (w_cl w) (sc_acts x)) (w_sv w) (w_links w) in reach a w1 ->
  exists es : list wevent, Forall wev_ok es /\ Sim a y' (steps w1 es) /\ bounded y w (STask (TUser x)) y' (steps w1 es) /\ keeps_quiet (scr y) (scr y') (w_cl w) (w_cl (steps w1 es)).
Proof. intros H St At w1 R1. destruct (sim_user_block a y w x y' H St At R1) as (es & H1 & H2 & H3 & H4 & _). now exists es. Qed.

Lemma grown_step w (e : wevent) : grown (Client.cl_subs (w_cl w)) (Client.cl_subs (w_cl (step w e))).
Proof.
  intros j k E. destruct (wmoves_ok (call_text S) (read_text S) (same_id S) (from_text S) (to_text S) w e); cbn [w_cl]; try exact E;
    exact (keys_next (call_text S) (read_text S) (same_id S) _ _ _ _ E).
Qed.
Lemma grown_steps (es : list wevent) : forall w, grown (Client.cl_subs (w_cl w)) (Client.cl_subs (w_cl (steps w es))).
Proof. induction es as [|e es IH]; intros w j k E; [exact E|]. cbn. apply IH. now apply grown_step. Qed.

Lemma enc_total id r : call_text S id r <> None.
Proof. destruct r as [[ns m] args]. discriminate. Qed.
Lemma number_is a y w : Sim a y w -> (N.of_nat (List.length (Client.cl_calls (w_cl w))) < 2 ^ 53)%N -> Client.bump (Client.cl_id (w_cl w)) = next_number (sy_page y).
Proof.
  intros H B. pose proof (sim_creach a y w H) as R. pose proof (sim_agree a y w H) as G.
  rewrite (id_last _ (id_inv _ _ _ _ R)), bump_min. unfold next_number. fold top in B. rewrite (forall2_len _ _ _ (ag_proms _ _ G)), (ag_stores _ _ G).
  pose proof (calls_split (call_text S) (read_text S) (same_id S) (w_cl w) enc_total R) as Cs. lia.
Qed.

Lemma request_state a y w J j s : Sim a y w -> nth_error (Client.cl_subs (w_cl w)) J = Some s -> Client.su_req s = true ->
  nth_error (filter Client.su_req (Client.cl_subs (w_cl w))) j = Some s ->
  pending (sy_page y) j \/ exists d, fulfilled (sy_page y) j d /\ settled w J d.
Proof.
  intros H Hs Rq Hf. pose proof (sim_agree a y w H) as G. pose proof (ag_proms _ _ G) as Fp.
  assert (Hv : exists v, nth_error (us_proms (st_user (sy_page y))) j = Some v).
  { destruct (nth_error (us_proms (st_user (sy_page y))) j) as [v|] eqn:E; [now exists v|]. apply nth_error_None in E. rewrite (forall2_len _ _ _ Fp) in E. apply nth_some_lt in Hf. lia. }
  destruct Hv as [v Hv]. destruct (forall2_at _ _ _ _ _ Fp Hv) as (s' & Hs' & (p & x & -> & Ep & E)). rewrite Hf in Hs'. injection Hs' as <-.
  destruct (request_settles _ _ _ _ J s (sim_creach a y w H) Hs Rq) as [[Es|(d & Es & _)] _]; rewrite Es in E.
  - left. destruct E as [rs E]. exists rs, p, x. auto.
  - right. exists d. split; [exists p, x; auto|]. exists s. auto.
Qed.

End Sim.
