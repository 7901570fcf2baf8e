(** What follows for pages.  Proof side. *)
From Coq Require Import List String Ascii Bool Arith NArith ZArith Lia.
From Verif Require Import Util Js JsonText Wire TsProgram FileProofs ClientSpec JsSem JsSpec JsPage JsMono.
From Verif Require Client ClientSockProofs ClientProofs JsRun Prelude.
Import ListNotations.
Local Open Scope string_scope.
Local Open Scope list_scope.

(** Texts of sockets, and such that wait, in the model. *)
Section Texts.
Context {R text K D : Type} (enc : N -> R -> option text) (read : text -> option (K * D)) (same : K -> N -> bool).
Notation client := (Client.client text K D).
Notation cnext := (Client.cnext enc read same).
Implicit Types c : client.
Context (Q : N * text -> Prop).
Definition texts_ok c : Prop := Forall (fun s => Forall Q (Client.ws_sent s)) (Client.cl_socks c) /\ Forall (fun w => Q (snd w)) (Client.cl_waiting c).
Lemma forall_upd_f {A} (P : A -> Prop) n f l : (forall x, P x -> P (f x)) -> Forall P l -> Forall P (upd n f l).
Proof. intros H F. revert n. induction F; intros [|n]; cbn; constructor; auto. Qed.
Lemma forall_filter {A} (P : A -> Prop) f l : Forall P l -> Forall P (filter f l).
Proof. induction 1; cbn; [constructor|]. destruct (f x); [now constructor|assumption]. Qed.
Lemma t_like c c' : Client.cl_socks c' = Client.cl_socks c -> Client.cl_waiting c' = Client.cl_waiting c -> texts_ok c -> texts_ok c'.
Proof. unfold texts_ok. now intros -> ->. Qed.
Lemma t_socks f n c : (forall s, Forall Q (Client.ws_sent s) -> Forall Q (Client.ws_sent (f s))) -> texts_ok c -> texts_ok (Client.set_socks (upd n f (Client.cl_socks c)) c).
Proof. intros H [A B]. split; [|exact B]. cbn. now apply forall_upd_f. Qed.
Lemma t_close c : texts_ok c -> texts_ok (Client.close c).
Proof.
  intros H. unfold Client.close. cbn. destruct (Client.cl_cur c); [|now apply (t_like c)].
  apply (t_like (Client.set_state n (Client.closing (Client.state_of (Client.set_timer None c) n)) (Client.set_timer None c))); [reflexivity..|]. apply t_socks; [auto|now apply (t_like c)].
Qed.
Lemma t_reopen c : texts_ok c -> texts_ok (Client.reopen c).
Proof.
  intros H. unfold Client.reopen. destruct (Client.subscribed _); [|now apply t_close]. destruct (Client.reopen_timeout _); (eapply t_like; [| |apply t_close; exact H]; reflexivity).
Qed.
Lemma t_open c : texts_ok c -> texts_ok (fst (Client.open c)).
Proof.
  intros [A B]. unfold Client.open. cbn. destruct (Client.cl_opening c); [split; assumption|]. split; [|exact B]. cbn. apply Forall_app. split; [exact A|]. repeat constructor.
Qed.
Lemma t_send v c : Q v -> texts_ok c -> texts_ok (Client.open_and_send v c).
Proof.
  intros Hv H.
  assert (W : texts_ok (let (c', p) := Client.open c in Client.set_waiting (Client.cl_waiting c' ++ [(p, v)]) c')).
  { pose proof (t_open c H) as H'. destruct (Client.open c) as [c' p]. cbn in *. destruct H' as [A B]. split; [exact A|]. cbn. apply Forall_app. split; [exact B|]. now repeat constructor. }
  unfold Client.open_and_send. destruct (Client.cl_cur c) as [n|]; [|exact W]. destruct (Client.is_open _); [|exact W].
  apply t_socks; [|exact H]. intros s Hs. cbn. apply Forall_app. split; [exact Hs|]. now repeat constructor.
Qed.
Lemma t_delete j c : texts_ok c -> texts_ok (Client.delete_sub j c).
Proof. intros H. unfold Client.delete_sub. destruct (Client.subscribed _); [now apply (t_like c)|apply t_close; now apply (t_like c)]. Qed.
Lemma t_fold l : forall c, Forall Q l -> texts_ok c -> texts_ok (fold_left (fun c v => Client.open_and_send v c) l c).
Proof. induction l as [|v l IH]; intros c F H; [exact H|]. inversion F; subst. cbn. apply IH; [assumption|]. now apply t_send. Qed.
Lemma t_state n st c : texts_ok c -> texts_ok (Client.set_state n st c).
Proof. apply t_socks. auto. Qed.
Lemma t_next c e : (forall r, e = Client.URequest r \/ e = Client.UStream r -> forall id t, enc id r = Some t -> Q (id, t)) -> texts_ok c -> texts_ok (cnext c e).
Proof.
  intros He H. destruct e; cbn [Client.cnext].
  - destruct (Client.user c); [|exact H]. unfold Client.request. destruct (enc _ r) eqn:E; [|now apply (t_like c)]. apply t_send; [eapply He; eauto|now apply (t_like c)].
  - destruct (Client.user c); [|exact H]. unfold Client.subscribe. destruct (enc _ r) eqn:E; [|now apply (t_like c)]. apply t_send; [eapply He; eauto|now apply (t_like c)].
  - destruct (Client.user c); [|exact H]. destruct (nth_error _ _); [|exact H]. now apply (t_like c).
  - destruct (Client.user c); [|exact H]. destruct (nth_error _ _) as [s|]; [|exact H]. destruct (Client.su_req s); [exact H|]. now apply t_delete.
  - destruct (Client.cl_disp c) as [d|]; [|exact H]. destruct (Client.dp_in d); [|exact H]. now apply (t_like c).
  - destruct (Client.cl_disp c) as [d|]; [|exact H]. unfold Client.visit. destruct (nth_error _ _) as [s|]; [|now apply (t_like c)].
    destruct (Client.su_live s && same _ _); now apply (t_like c).
  - destruct (Client.cl_disp c); [exact H|]. destruct (nth_error _ _) as [s|]; [|exact H]. destruct (Client.unfinished s); [now apply t_delete|exact H].
  - destruct (Client.idle c); [|exact H]. destruct (Client.state_of c n); try exact H. unfold Client.on_open. apply (t_state n Client.Open) in H. destruct H as [A B]. apply t_fold.
    + cbn. apply Forall_forall. intros x I. apply in_map_iff in I as (w & <- & I). apply filter_In in I as [I _]. cbn in B. rewrite Forall_forall in B. now apply B.
    + split; [exact A|]. cbn. now apply forall_filter.
  - destruct (Client.idle c); [|exact H]. destruct (Client.state_of c n); try exact H. now apply t_state.
  - destruct (Client.idle c); [|exact H]. destruct (Client.state_of c n) as [| |[|]|]; try exact H; apply t_reopen; now apply t_state.
  - destruct (Client.idle c); [|exact H].
    assert (G : texts_ok (Client.on_close (Client.on_error n (Client.set_state n Client.Closed c)))).
    { apply t_reopen. apply (t_state n Client.Closed) in H. destruct H as [A B]. split; [exact A|]. cbn. now apply forall_filter. }
    destruct (Client.state_of c n) as [| |[|]|]; first [exact H|exact G].
  - destruct (Client.idle c); [|exact H]. destruct (Client.state_of c n); try exact H. destruct (read t) as [[k d]|]; [|exact H]. now apply (t_like c).
  - destruct (Client.idle c); [|exact H]. destruct (Client.cl_timer c); [|exact H]. now apply t_open.
Qed.

(** Messages. *)
Context (M : K * D -> Prop).
Definition msgs_ok c : Prop := Forall (fun x => M (fst x)) (Client.cl_msgs c).
Lemma m_next c e : (forall n t x, e = Client.NMessage n t -> read t = Some x -> M x) -> msgs_ok c -> msgs_ok (cnext c e).
Proof.
  assert (Cl : forall c, Client.cl_msgs (Client.close c) = Client.cl_msgs c) by (intros c0; unfold Client.close; cbn; destruct (Client.cl_cur c0); reflexivity).
  assert (Sn : forall v c, Client.cl_msgs (Client.open_and_send v c) = Client.cl_msgs c).
  { intros v c0. unfold Client.open_and_send, Client.open. cbn. destruct (Client.cl_cur c0); [destruct (Client.is_open _); [reflexivity|]|]; destruct (Client.cl_opening c0); reflexivity. }
  assert (Re : forall c, Client.cl_msgs (Client.reopen c) = Client.cl_msgs c).
  { intros c0. unfold Client.reopen. destruct (Client.subscribed _); [destruct (Client.reopen_timeout _); cbn|]; apply Cl. }
  assert (De : forall j c, Client.cl_msgs (Client.delete_sub j c) = Client.cl_msgs c).
  { intros j c0. unfold Client.delete_sub. destruct (Client.subscribed _); [reflexivity|]. now rewrite Cl. }
  intros He H. unfold msgs_ok in *. destruct e; cbn [Client.cnext].
  - destruct (Client.user c); [|exact H]. unfold Client.request. destruct (enc _ r); [rewrite Sn|]; exact H.
  - destruct (Client.user c); [|exact H]. unfold Client.subscribe. destruct (enc _ r); [rewrite Sn|]; exact H.
  - destruct (Client.user c); [|exact H]. destruct (nth_error _ _); exact H.
  - destruct (Client.user c); [|exact H]. destruct (nth_error _ _) as [s|]; [|exact H]. destruct (Client.su_req s); [|rewrite De]; exact H.
  - destruct (Client.cl_disp c) as [d|]; [|exact H]. destruct (Client.dp_in d); [|exact H]. cbn. unfold Client.spoil. apply forall_upd_f; [|exact H]. intros [x b]. auto.
  - destruct (Client.cl_disp c) as [d|]; [|exact H]. unfold Client.visit. destruct (nth_error _ _) as [s|]; exact H.
  - destruct (Client.cl_disp c); [exact H|]. destruct (nth_error _ _) as [s|]; [|exact H]. destruct (Client.unfinished s); [rewrite De|]; exact H.
  - destruct (Client.idle c); [|exact H]. destruct (Client.state_of c n); try exact H. unfold Client.on_open.
    assert (Fo : forall l c0, Client.cl_msgs (fold_left (fun c v => Client.open_and_send v c) l c0) = Client.cl_msgs c0) by (induction l as [|v l IH]; intros c0; cbn; [reflexivity|now rewrite IH, Sn]).
    rewrite Fo. exact H.
  - destruct (Client.idle c); [|exact H]. destruct (Client.state_of c n); exact H.
  - destruct (Client.idle c); [|exact H]. destruct (Client.state_of c n) as [| |[|]|]; try exact H; unfold Client.on_close; rewrite Re; exact H.
  - destruct (Client.idle c); [|exact H]. destruct (Client.state_of c n) as [| |[|]|]; try exact H; unfold Client.on_close; rewrite Re; exact H.
  - destruct (Client.idle c); [|exact H]. destruct (Client.state_of c n); try exact H. destruct (read t) as [[k d]|] eqn:E; [|exact H]. cbn. apply Forall_app. split; [exact H|]. repeat constructor. eapply He; eauto.
  - destruct (Client.idle c); [|exact H]. destruct (Client.cl_timer c); [|exact H]. unfold Client.open. cbn. destruct (Client.cl_opening c); exact H.
Qed.
End Texts.

Section Claims.
Context (lit : num -> jstr) (num : jstr -> num) (other : jsval -> N -> bool).
Local Notation cnext := (Client.cnext (js_enc lit) (js_read num) (js_same other)).
Local Notation outcome := (outcome lit num other client_program).
Local Notation path := (path lit num other).
Local Notation follows := (follows lit num other).
Local Notation leads := (leads lit num other).
Local Notation reach := (creachable (js_enc lit) (js_read num) (js_same other)).

(** What holds of the model all along. *)
Definition sub_acts (a b : list action) : Prop := forall x, In x a -> In x b.
Lemma calls_in x l : In x l -> forall r, In r (match x with ARequest ns m args | AStream ns m args => [(ns, m, args)] | _ => [] end) -> In r (calls_of l).
Proof. intros I r Hr. unfold calls_of. apply in_flat_map. now exists x. Qed.
Section Kept.
Context (P : jclient -> Prop) (A : list action) (B : list task).
Context (HP : forall c e, P c -> (forall r, e = Client.URequest r \/ e = Client.UStream r -> In r (calls_of A)) -> (forall n t, e = Client.NMessage n t -> In (TMessage n t) B) -> P (cnext c e)).
Ltac easy_event := intros; first [discriminate | match goal with H : _ \/ _ |- _ => destruct H; discriminate end].
Lemma kept_acts l : forall c, sub_acts l A -> P c -> P (acts_next lit num other c l).
Proof.
  induction l as [|a l IH]; intros c S H; [exact H|]. cbn. apply IH; [intros x I; apply S; now right|].
  assert (Ia : In a A) by (apply S; now left). destruct a; cbn [JsSpec.act_next]; try exact H.
  - apply HP; [exact H| |easy_event]. intros r [E|E]; [|discriminate]. injection E as <-. eapply calls_in; [exact Ia|now left].
  - apply HP; [exact H| |easy_event]. intros r [E|E]; [discriminate|]. injection E as <-. eapply calls_in; [exact Ia|now left].
  - apply HP; [exact H|easy_event|easy_event].
  - destruct (nth_error _ _); [|exact H]. apply HP; [exact H|easy_event|easy_event].
Qed.
Lemma kept_leads sc c sc' c' : leads sc c sc' c' -> sub_acts (flat_map sc_acts sc) A -> P c -> P c' /\ sub_acts (flat_map sc_acts sc') A.
Proof.
  induction 1 as [sc c|j sc c sc' c' L IH|sc c sc' c' L IH|sc c sc' c' U L IH]; intros S H.
  - now split.
  - apply IH; [exact S|]. apply HP; [exact H|easy_event|easy_event].
  - apply IH; [exact S|]. apply HP; [exact H|easy_event|easy_event].
  - apply IH.
    + intros x I. apply S. destruct sc as [|y sc]; [exact I|]. cbn in *. apply in_or_app. now right.
    + assert (G : P (acts_next lit num other c (sc_acts (fst (pop sc))))).
      { apply kept_acts; [|exact H]. intros x I. apply S. destruct sc as [|y sc]; [destruct I|]. cbn in *. apply in_or_app. now left. }
      unfold code_next. destruct (sc_throw _); [|exact G]. apply HP; [exact G|easy_event|easy_event].
Qed.
Lemma kept_follows s c t sc' c' : follows s c t sc' c' -> sub_acts (flat_map sc_acts (us_scripts (st_user s))) A -> (forall x, t = TUser x -> sub_acts (sc_acts x) A) -> In t B ->
  P c -> P c' /\ sub_acts (flat_map sc_acts sc') A.
Proof.
  intros F S S2 It H. destruct F as [x sc' c' L|k|k|k|k|k t sc' c' L|k].
  - eapply kept_leads; [exact L|exact S|]. apply kept_acts; [now apply S2|exact H].
  - split; [|exact S]. apply HP; [exact H|easy_event|easy_event].
  - split; [|exact S]. apply HP; [exact H|easy_event|easy_event].
  - split; [|exact S]. apply HP; [exact H|easy_event|easy_event].
  - split; [|exact S]. apply HP; [exact H|easy_event|easy_event].
  - eapply kept_leads; [exact L|exact S|]. apply HP; [exact H|easy_event|]. intros n t' E. injection E as <- <-. exact It.
  - split; [|exact S]. destruct (alive s k); [|exact H]. apply HP; [exact H|easy_event|easy_event].
Qed.
Lemma kept_path s c ts s' c' : path s c ts s' c' -> sub_acts (flat_map sc_acts (us_scripts (st_user s))) A -> (forall x, In (TUser x) ts -> sub_acts (sc_acts x) A) -> (forall t, In t ts -> In t B) ->
  P c -> P c'.
Proof.
  induction 1 as [s c G|s c t ts s1 c1 s2 c2 G R F L IH]; intros S S2 S3 H; [exact H|].
  destruct (kept_follows s c t _ c1 F S) as [H1 S1]; [intros x ->; apply S2; now left|apply S3; now left|exact H|].
  apply IH; [exact S1|intros x I; apply S2; now right|intros x I; apply S3; now right|exact H1].
Qed.
End Kept.
Lemma path_last s c ts s' c' : path s c ts s' c' -> agree s' c'.
Proof. induction 1; assumption. Qed.

Lemma outcome_path scripts ts s : outcome scripts ts s -> exists s0 c, load lit num other 40 client_program (st0 scripts) = Ok tt s0 /\ path s0 Client.cinit ts s c /\ us_scripts (st_user s0) = scripts.
Proof.
  intros [N H]. destruct (page_ok lit num other scripts ts) as (s' & c & N' & R & s0 & L & P).
  assert (s' = s) as ->. { specialize (R (N + N') ltac:(lia)). rewrite (page_more lit num other N) in R; [congruence|lia|congruence]. }
  exists s0, c. split; [exact L|]. split; [exact P|]. pose proof (JsRun.load_ok lit num other 0 scripts) as L'. change (40 + 0) with 40 in L'. rewrite L in L'. injection L' as ->. reflexivity.
Qed.
Lemma outcome_kept scripts ts s (P : jclient -> Prop) : outcome scripts ts s -> P Client.cinit ->
  (forall c e, P c -> (forall r, e = Client.URequest r \/ e = Client.UStream r -> In r (calls_of (all_actions scripts ts))) -> (forall n t, e = Client.NMessage n t -> In (TMessage n t) ts) -> P (cnext c e)) ->
  exists c, agree s c /\ P c.
Proof.
  intros O P0 HP. destruct (outcome_path scripts ts s O) as (s0 & c & _ & L & E). exists c. split; [exact (path_last _ _ _ _ _ L)|].
  eapply kept_path; [exact HP|exact L| | | |exact P0].
  - rewrite E. intros x I. apply in_or_app. now left.
  - intros x I y Iy. apply in_or_app. right. apply in_flat_map. now exists (TUser x).
  - auto.
Qed.

(** ** The claims *)
Lemma page_runs scripts ts : exists s N, forall n, page lit num other n client_program scripts ts = if Nat.ltb n N then Fuel else Ok tt s.
Proof.
  destruct (page_ok lit num other scripts ts) as (s & c & N & R & _). exists s.
  assert (A : forall n, page lit num other n client_program scripts ts = Fuel \/ page lit num other n client_program scripts ts = Ok tt s).
  { intros n. destruct (page lit num other n client_program scripts ts) eqn:E; [right|exfalso|exfalso|now left];
      (pose proof (page_more lit num other n (n + N) client_program scripts ts ltac:(lia) ltac:(congruence)) as M; rewrite (R (n + N) ltac:(lia)), E in M; congruence). }
  clear c. induction N as [|N IH].
  - exists 0. intros n. apply R. lia.
  - destruct (A N) as [E|E].
    + exists (1 + N). intros n. destruct (Nat.ltb_spec n (1 + N)); [|apply R; lia]. destruct (A n) as [F|F]; [exact F|].
      pose proof (page_more lit num other n N client_program scripts ts ltac:(lia) ltac:(congruence)). congruence.
    + apply IH. intros n L. rewrite <- E. apply page_more; [exact L|congruence].
Qed.
Lemma page_unique scripts ts s s' : outcome scripts ts s -> outcome scripts ts s' -> s = s'.
Proof.
  intros [N H] [N' H']. pose proof (page_more lit num other N (N + N') client_program scripts ts ltac:(lia) ltac:(congruence)).
  pose proof (page_more lit num other N' (N + N') client_program scripts ts ltac:(lia) ltac:(congruence)). congruence.
Qed.
Lemma reach_next c e : reach c -> reach (cnext c e).
Proof. intros [es ->]. exists (es ++ [e]). unfold Client.crun. now rewrite fold_left_app. Qed.
Lemma reach_path s c ts s' c' : path s c ts s' c' -> reach c -> reach c'.
Proof.
  intros L H. eapply (kept_path reach (flat_map sc_acts (us_scripts (st_user s)) ++ flat_map (fun t => match t with TUser x => sc_acts x | _ => [] end) ts) ts); [|exact L| | |auto|exact H].
  - intros c0 e Hc _ _. now apply reach_next.
  - intros x I. apply in_or_app. now left.
  - intros x I y Iy. apply in_or_app. right. apply in_flat_map. now exists (TUser x).
Qed.
Lemma page_follows scripts ts s : outcome scripts ts s ->
  exists s0 c, load lit num other 40 client_program (st0 scripts) = Ok tt s0 /\ path s0 Client.cinit ts s c /\ reach c /\ agree s c.
Proof.
  intros O. destruct (outcome_path scripts ts s O) as (s0 & c & L & P & _). exists s0, c. split; [exact L|]. split; [exact P|]. split; [|exact (path_last _ _ _ _ _ P)].
  eapply reach_path; [exact P|]. now exists [].
Qed.
Lemma page_reach scripts ts s : outcome scripts ts s -> exists c, agree s c /\ reach c.
Proof. intros O. destruct (page_follows scripts ts s O) as (s0 & c & _ & _ & R & A). now exists c. Qed.

Lemma forall2_at {A B} (P : A -> B -> Prop) l m k x : Forall2 P l m -> nth_error l k = Some x -> exists y, nth_error m k = Some y /\ P x y.
Proof. intros F. revert k. induction F as [|a b l m H F IH]; intros [|k] E; cbn in *; try discriminate; [injection E as <-; now exists b|now apply IH]. Qed.
Lemma busy_held s c k : agree s c -> busy s k -> held c k.
Proof.
  intros G (y & Hy & E). destruct (forall2_at _ _ _ _ _ (ag_socks _ _ G) Hy) as (x & Hx & (Es & _ & _)). unfold held, Client.state_of. rewrite Hx, <- Es. exact E.
Qed.
Lemma page_one_socket scripts ts s k k' : outcome scripts ts s -> busy s k -> busy s k' -> k = k'.
Proof.
  intros O B B'. destruct (page_reach scripts ts s O) as (c & G & R). pose proof (ClientSockProofs.shape_inv _ _ _ _ R) as Sh.
  apply (busy_held _ _ _ G), (ClientSockProofs.lo_held _ (ClientSockProofs.sh_loose _ Sh)) in B. apply (busy_held _ _ _ G), (ClientSockProofs.lo_held _ (ClientSockProofs.sh_loose _ Sh)) in B'. congruence.
Qed.
Lemma page_timer scripts ts s k k' : outcome scripts ts s -> alive s k = true ->
  (alive s k' = true -> k' = k) /\ ~ busy s k' /\ exists f d, nth_error (st_timers s) k = Some (Some (f, VNum d)) /\ In d [100; 200; 1000; 3000]%Z.
Proof.
  intros O A. destruct (outcome_kept scripts ts s (fun c => reach c /\ match Client.cl_timer c with Some d => In d [100; 200; 1000; 3000]%N | None => True end) O) as (c & G & R & T).
  - split; [now exists []|exact I].
  - intros c e [R T] _ _. split; [now apply reach_next|].
    assert (Cl : forall c : jclient, Client.cl_timer (Client.close c) = None) by (intros c0; unfold Client.close; cbn; destruct (Client.cl_cur c0); reflexivity).
    assert (Re : forall c : jclient, match Client.cl_timer (Client.reopen c) with Some d => In d [100; 200; 1000; 3000]%N | None => True end).
    { intros c0. unfold Client.reopen. destruct (Client.subscribed _); [|now rewrite Cl]. unfold Client.reopen_timeout. destruct (nth_error _ _) as [d|] eqn:E; cbn.
      - now apply nth_error_In in E.
      - exfalso. apply nth_error_None in E. unfold Client.timeout_index in E. cbn [Client.reopen_timeouts List.length Nat.sub] in E. destruct (Nat.leb_spec 3 (Client.cl_count (Client.close c0))); lia. }
    assert (Sn : forall v (c : jclient), match Client.cl_timer c with Some d => In d [100; 200; 1000; 3000]%N | None => True end -> match Client.cl_timer (Client.open_and_send v c) with Some d => In d [100; 200; 1000; 3000]%N | None => True end).
    { intros v c0 H0. unfold Client.open_and_send, Client.open. cbn. destruct (Client.cl_cur c0); [destruct (Client.is_open _); [exact H0|]|]; destruct (Client.cl_opening c0); exact I. }
    assert (De : forall j (c : jclient), match Client.cl_timer c with Some d => In d [100; 200; 1000; 3000]%N | None => True end -> match Client.cl_timer (Client.delete_sub j c) with Some d => In d [100; 200; 1000; 3000]%N | None => True end).
    { intros j c0 H0. unfold Client.delete_sub. destruct (Client.subscribed _); [exact H0|]. now rewrite Cl. }
    destruct e; cbn [Client.cnext].
    + destruct (Client.user c); [|exact T]. unfold Client.request. destruct (js_enc _ _ _); [apply Sn|]; exact T.
    + destruct (Client.user c); [|exact T]. unfold Client.subscribe. destruct (js_enc _ _ _); [apply Sn|]; exact T.
    + destruct (Client.user c); [|exact T]. destruct (nth_error _ _); exact T.
    + destruct (Client.user c); [|exact T]. destruct (nth_error _ _) as [x|]; [|exact T]. destruct (Client.su_req x); [exact T|now apply De].
    + destruct (Client.cl_disp c) as [d|]; [|exact T]. destruct (Client.dp_in d); exact T.
    + destruct (Client.cl_disp c) as [d|]; [|exact T]. unfold Client.visit. destruct (nth_error _ _) as [x|]; [|exact T]. cbn. destruct (Client.su_live x && _); exact T.
    + destruct (Client.cl_disp c); [exact T|]. destruct (nth_error _ _) as [x|]; [|exact T]. destruct (Client.unfinished x); [now apply De|exact T].
    + destruct (Client.idle c); [|exact T]. destruct (Client.state_of c n); try exact T. unfold Client.on_open.
      assert (Fo : forall l (c0 : jclient), match Client.cl_timer c0 with Some d => In d [100; 200; 1000; 3000]%N | None => True end -> match Client.cl_timer (fold_left (fun c v => Client.open_and_send v c) l c0) with Some d => In d [100; 200; 1000; 3000]%N | None => True end).
      { induction l as [|v l IH]; intros c0 H0; cbn; [exact H0|]. apply IH. now apply Sn. }
      apply Fo. exact T.
    + destruct (Client.idle c); [|exact T]. destruct (Client.state_of c n); exact T.
    + destruct (Client.idle c); [|exact T]. destruct (Client.state_of c n) as [| |[|]|]; try exact T; apply Re.
    + destruct (Client.idle c); [|exact T]. destruct (Client.state_of c n) as [| |[|]|]; try exact T; apply Re.
    + destruct (Client.idle c); [|exact T]. destruct (Client.state_of c n); try exact T. destruct (js_read _ _) as [[? ?]|]; exact T.
    + destruct (Client.idle c); [|exact T]. destruct (Client.cl_timer c) eqn:E; [|rewrite E; exact I]. unfold Client.open. cbn. destruct (Client.cl_opening c); exact I.
  - pose proof (ag_timer _ _ G) as Tm. destruct (Client.cl_timer c) as [d|] eqn:Et; [|rewrite Tm in A; discriminate].
    destruct Tm as (k0 & f & Hk & U). pose proof (U k A) as ->. split; [intros A'; exact (U k' A')|]. split.
    + intros B. apply (busy_held _ _ _ G) in B. pose proof (ClientSockProofs.shape_inv _ _ _ _ R) as Sh. apply (ClientSockProofs.lo_held _ (ClientSockProofs.sh_loose _ Sh)) in B.
      rewrite (ClientSockProofs.sh_timer _ Sh) in B; [discriminate|congruence].
    + exists f, (Z.of_N d). split; [exact Hk|]. cbn in T. cbn. destruct T as [<-|[<-|[<-|[<-|[]]]]]; auto.
Qed.
Lemma page_sockets scripts ts s y : outcome scripts ts s -> In y (st_socks s) ->
  so_lost y = [] /\ forall v, In v (so_sent y) -> exists id ns m args t, v = VStr t /\ js_enc lit id (ns, m, args) = Some t /\ In (ns, m, args) (calls_of (all_actions scripts ts)).
Proof.
  intros O Iy. set (Q := fun v : N * jstr => exists r, js_enc lit (fst v) r = Some (snd v) /\ In r (calls_of (all_actions scripts ts))).
  destruct (outcome_kept scripts ts s (texts_ok Q) O) as (c & G & [A _]).
  - split; constructor.
  - intros c e H Hr _. apply t_next; [|exact H]. intros r E id t Et. exists r. split; [exact Et|now apply Hr].
  - apply In_nth_error in Iy as [k Hk]. destruct (forall2_at _ _ _ _ _ (ag_socks _ _ G) Hk) as (x & Hx & (_ & E2 & E3)). split; [exact E3|].
    intros v Iv. rewrite E2 in Iv. apply in_map_iff in Iv as (w & <- & Iw). rewrite Forall_forall in A. apply nth_error_In, A in Hx. rewrite Forall_forall in Hx.
    destruct (Hx w Iw) as ([[ns m] args] & Et & Ir). now exists (fst w), ns, m, args, (snd w).
Qed.
Lemma page_promises scripts ts s v : outcome scripts ts s -> In v (us_proms (st_user s)) ->
  exists p x, v = VProm p /\ nth_error (st_proms s) p = Some x /\
    ((exists rs, pr_state x = PPending rs) \/
     exists d k t key, pr_state x = PFul (VData d) /\ In (TMessage k t) ts /\ js_read num t = Some (key, d)).
Proof.
  intros O Iv. set (M := fun x : jsval * jsval => exists k t, In (TMessage k t) ts /\ js_read num t = Some x).
  destruct (outcome_kept scripts ts s (fun c => reach c /\ msgs_ok M c) O) as (c & G & R & Hm).
  - split; [now exists []|constructor].
  - intros c e [R H] _ Ht. split; [now apply reach_next|]. apply m_next; [|exact H]. intros n t x -> E. exists n, t. split; [now apply Ht|exact E].
  - apply In_nth_error in Iv as [j Hj]. destruct (forall2_at _ _ _ _ _ (ag_proms _ _ G) Hj) as (x & Hx & (p & y & E1 & E2 & E3)).
    exists p, y. split; [exact E1|]. split; [exact E2|]. destruct (Client.su_seen x) as [|d l] eqn:Es; [left; exact E3|right].
    apply nth_error_In, filter_In in Hx as [Ix Rx]. apply In_nth_error in Ix as [i Hi].
    destruct (ClientProofs.request_settles _ _ _ c i x R Hi Rx) as [[E|(d' & E & (i' & k & ok & _ & Hmsg & _ & _))] _]; [congruence|].
    rewrite Es in E. injection E as <- ->. unfold msgs_ok in Hm. rewrite Forall_forall in Hm. apply nth_error_In, Hm in Hmsg. destruct Hmsg as (n & t & It & Er). cbn in Er.
    exists d, n, t, k. now repeat split.
Qed.
(** How many calls there are. *)
Definition weigh (sc : list script) : nat := List.length (calls_of (flat_map sc_acts sc)).
Definition counted (c : jclient) : nat := List.length (Client.cl_calls c).
Lemma calls_of_app a b : calls_of (a ++ b) = calls_of a ++ calls_of b.
Proof. unfold calls_of. apply flat_map_app. Qed.
Lemma counted_next c e : counted (cnext c e) <= counted c + match e with Client.URequest _ | Client.UStream _ => 1 | _ => 0 end.
Proof.
  unfold counted.
  assert (Cl : forall c : jclient, Client.cl_calls (Client.close c) = Client.cl_calls c) by (intros c0; unfold Client.close; cbn; destruct (Client.cl_cur c0); reflexivity).
  assert (Sn : forall v (c : jclient), Client.cl_calls (Client.open_and_send v c) = Client.cl_calls c).
  { intros v c0. unfold Client.open_and_send, Client.open. cbn. destruct (Client.cl_cur c0); [destruct (Client.is_open _); [reflexivity|]|]; destruct (Client.cl_opening c0); reflexivity. }
  assert (Re : forall c : jclient, Client.cl_calls (Client.reopen c) = Client.cl_calls c).
  { intros c0. unfold Client.reopen. destruct (Client.subscribed _); [destruct (Client.reopen_timeout _); cbn|]; apply Cl. }
  assert (De : forall j (c : jclient), Client.cl_calls (Client.delete_sub j c) = Client.cl_calls c).
  { intros j c0. unfold Client.delete_sub. destruct (Client.subscribed _); [reflexivity|]. now rewrite Cl. }
  destruct e; cbn [Client.cnext].
  - destruct (Client.user c); [|lia]. unfold Client.request. destruct (js_enc _ _ _); [rewrite Sn|]; cbn; rewrite app_length; cbn; lia.
  - destruct (Client.user c); [|lia]. unfold Client.subscribe. destruct (js_enc _ _ _); [rewrite Sn|]; cbn; rewrite app_length; cbn; lia.
  - destruct (Client.user c); [|lia]. destruct (nth_error _ _); cbn; lia.
  - destruct (Client.user c); [|lia]. destruct (nth_error _ _) as [x|]; [|lia]. destruct (Client.su_req x); [|rewrite De]; lia.
  - destruct (Client.cl_disp c) as [d|]; [|lia]. destruct (Client.dp_in d); cbn; lia.
  - destruct (Client.cl_disp c) as [d|]; [|lia]. unfold Client.visit. destruct (nth_error _ _) as [x|]; cbn; [destruct (Client.su_live x && _); cbn|]; lia.
  - destruct (Client.cl_disp c); [lia|]. destruct (nth_error _ _) as [x|]; [|lia]. destruct (Client.unfinished x); [rewrite De|]; lia.
  - destruct (Client.idle c); [|lia]. destruct (Client.state_of c n); try lia. unfold Client.on_open.
    assert (Fo : forall l (c0 : jclient), Client.cl_calls (fold_left (fun c v => Client.open_and_send v c) l c0) = Client.cl_calls c0) by (induction l as [|v l IH]; intros c0; cbn; [reflexivity|now rewrite IH, Sn]).
    rewrite Fo. cbn. lia.
  - destruct (Client.idle c); [|lia]. destruct (Client.state_of c n); cbn; lia.
  - destruct (Client.idle c); [|lia]. destruct (Client.state_of c n) as [| |[|]|]; try lia; unfold Client.on_close; rewrite Re; cbn; lia.
  - destruct (Client.idle c); [|lia]. destruct (Client.state_of c n) as [| |[|]|]; try lia; unfold Client.on_close; rewrite Re; cbn; lia.
  - destruct (Client.idle c); [|lia]. destruct (Client.state_of c n); try lia. destruct (js_read _ _) as [[k d]|]; cbn; lia.
  - destruct (Client.idle c); [|lia]. destruct (Client.cl_timer c); [|lia]. unfold Client.open. cbn. destruct (Client.cl_opening c); cbn; lia.
Qed.
Lemma counted_acts l : forall c, counted (acts_next lit num other c l) <= counted c + List.length (calls_of l).
Proof.
  induction l as [|a l IH]; intros c; [cbn; lia|]. change (a :: l) with ([a] ++ l). rewrite calls_of_app, app_length. cbn [app JsSpec.acts_next fold_left].
  specialize (IH (act_next lit num other c a)). unfold JsSpec.acts_next in IH.
  assert (counted (act_next lit num other c a) <= counted c + List.length (calls_of [a])); [|lia].
  destruct a; cbn [JsSpec.act_next calls_of flat_map app List.length]; try lia.
  - apply (counted_next c (Client.URequest _)).
  - apply (counted_next c (Client.UStream _)).
  - exact (counted_next c (Client.UListen _)).
  - destruct (nth_error _ _) as [i|]; [|lia]. exact (counted_next c (Client.UUnlisten i)).
Qed.
Lemma counted_leads sc c sc' c' : leads sc c sc' c' -> counted c' + weigh sc' <= counted c + weigh sc.
Proof.
  induction 1 as [sc c|j sc c sc' c' L IH|sc c sc' c' L IH|sc c sc' c' U L IH].
  - lia.
  - pose proof (counted_next c (Client.CFinally j)) as H. cbn in *. lia.
  - pose proof (counted_next c Client.CVisit) as H. cbn in *. lia.
  - assert (H : counted (code_next lit num other c (fst (pop sc))) <= counted c + List.length (calls_of (sc_acts (fst (pop sc))))).
    { unfold code_next. pose proof (counted_acts (sc_acts (fst (pop sc))) c) as H. destruct (sc_throw _); [|exact H].
      pose proof (counted_next (acts_next lit num other c (sc_acts (fst (pop sc)))) Client.UThrow) as H2. cbn in *. lia. }
    assert (W : weigh sc = List.length (calls_of (sc_acts (fst (pop sc)))) + weigh (snd (pop sc))).
    { unfold weigh. destruct sc as [|x sc]; [reflexivity|]. cbn [pop fst snd flat_map]. now rewrite calls_of_app, app_length. }
    lia.
Qed.
Definition task_calls (ts : list task) : nat := List.length (calls_of (flat_map (fun t => match t with TUser x => sc_acts x | _ => [] end) ts)).
Lemma counted_follows s c t sc1 c1 : follows s c t sc1 c1 -> counted c1 + weigh sc1 <= counted c + weigh (us_scripts (st_user s)) + task_calls [t].
Proof.
  intros F. replace (task_calls [t]) with (List.length (calls_of (match t with TUser x => sc_acts x | _ => [] end))) by (unfold task_calls; cbn [flat_map]; now rewrite app_nil_r).
  inversion F as [x sc' c' L' E1 E2 E3|k E1 E2 E3|k E1 E2 E3|k E1 E2 E3|k E1 E2 E3|k tx sc' c' L' E1 E2 E3|k E1 E2 E3]; subst.
  - apply counted_leads in L'. pose proof (counted_acts (sc_acts x) c). lia.
  - pose proof (counted_next c (Client.NOpen k)) as H. cbn [calls_of flat_map List.length] in *. lia.
  - pose proof (counted_next c (Client.NClosing k)) as H. cbn [calls_of flat_map List.length] in *. lia.
  - pose proof (counted_next c (Client.NClose k)) as H. cbn [calls_of flat_map List.length] in *. lia.
  - pose proof (counted_next c (Client.NFail k)) as H. cbn [calls_of flat_map List.length] in *. lia.
  - apply counted_leads in L'. pose proof (counted_next c (Client.NMessage k tx)) as H. cbn [calls_of flat_map List.length] in *. lia.
  - destruct (alive s k).
    + pose proof (counted_next c Client.TTimer) as H. cbn [calls_of flat_map List.length] in *. lia.
    + lia.
Qed.
Lemma task_calls_app ts ts' : task_calls (ts ++ ts') = task_calls ts + task_calls ts'.
Proof. unfold task_calls. now rewrite flat_map_app, calls_of_app, app_length. Qed.
Lemma counted_path s c ts s' c' : path s c ts s' c' -> counted c' <= counted c + weigh (us_scripts (st_user s)) + task_calls ts.
Proof.
  induction 1 as [s c G|s c t ts s1 c1 s2 c2 G R F L IH]; [lia|]. change (t :: ts) with ([t] ++ ts). rewrite task_calls_app. apply counted_follows in F. lia.
Qed.
Lemma outcome_few scripts ts s (P : jclient -> Prop) : outcome scripts ts s -> few scripts ts -> P Client.cinit ->
  (forall c e, P c -> (forall r, e = Client.URequest r \/ e = Client.UStream r -> In r (calls_of (all_actions scripts ts))) -> (forall n t, e = Client.NMessage n t -> In (TMessage n t) ts) -> P (cnext c e)) ->
  exists c, agree s c /\ P c /\ reach c /\ countable c.
Proof.
  intros O Fw P0 HP. destruct (outcome_path scripts ts s O) as (s0 & c & _ & L & E). exists c. split; [exact (path_last _ _ _ _ _ L)|]. split; [|split].
  - eapply kept_path; [exact HP|exact L| | | |exact P0].
    + rewrite E. intros x I. apply in_or_app. now left.
    + intros x I y Iy. apply in_or_app. right. apply in_flat_map. now exists (TUser x).
    + auto.
  - eapply reach_path; [exact L|]. now exists [].
  - apply counted_path in L. unfold countable, few in *. rewrite E in L. unfold all_actions in Fw. rewrite calls_of_app, app_length in Fw. unfold counted, weigh, task_calls in L. cbn in L. lia.
Qed.
Lemma forall2_choose {A B} (P : A -> B -> Prop) l : Forall (fun x => exists y, P x y) l -> exists m, Forall2 P l m.
Proof. induction 1 as [|x l [y Hy] F [m Hm]]; [now exists []|]. exists (y :: m). now constructor. Qed.
Lemma page_sent scripts ts s : outcome scripts ts s -> few scripts ts ->
  exists sent : list (list (N * jcall)),
    Forall2 (fun y l => Forall2 (fun v x => exists t, v = VStr t /\ js_enc lit (fst x) (snd x) = Some t) (so_sent y) l) (st_socks s) sent /\
    Sorted.StronglySorted N.lt (map fst (List.concat sent)) /\
    Forall (fun x => In (snd x) (calls_of (all_actions scripts ts))) (List.concat sent).
Proof.
  intros O Fw. set (C := calls_of (all_actions scripts ts)). set (Q := fun v : N * jstr => exists r, js_enc lit (fst v) r = Some (snd v) /\ In r C).
  destruct (outcome_few scripts ts s (texts_ok Q) O Fw) as (c & G & [A _] & R & Cn).
  - split; constructor.
  - intros c e H Hr _. apply t_next; [|exact H]. intros r E id t Et. exists r. split; [exact Et|now apply Hr].
  - pose proof (ClientSockProofs.sent_sorted _ _ _ _ R Cn) as So.
    assert (H : exists sent : list (list (N * jcall)), Forall2 (fun x l => Forall2 (fun (w : N * jstr) (y : N * jcall) => fst w = fst y /\ js_enc lit (fst y) (snd y) = Some (snd w) /\ In (snd y) C) (Client.ws_sent x) l) (Client.cl_socks c) sent).
    { apply forall2_choose. eapply Forall_impl; [|exact A]. intros x Hx. apply forall2_choose. eapply Forall_impl; [|exact Hx]. intros w (r & Hr & Ir). now exists (fst w, r). }
    destruct H as [sent H]. exists sent. split; [|split].
    + pose proof (ag_socks _ _ G) as So2. clear - So2 H. revert sent H. induction So2 as [|y x l m (_ & E & _) F IH]; intros sent H; inversion H as [|x0 l1 l0 ls H1 H2]; subst; constructor; [|now apply IH].
      rewrite E. clear - H1. cbn beta in H1. induction H1 as [|w z a b (E1 & E2 & _) F2 IH2]; constructor; [exists (snd w); now split|exact IH2].
    + replace (map fst (List.concat sent)) with (sent_ids c); [exact So|]. unfold sent_ids. clear - H. induction H as [|x l1 l m H F IH]; [reflexivity|]. cbn. rewrite map_app, IH. f_equal.
      clear - H. induction H as [|w z l1 l2 (E1 & _) F2 IH2]; [reflexivity|]. cbn. now rewrite E1, IH2.
    + clear - H. induction H as [|x l1 l m H F IH]; [constructor|]. cbn. apply Forall_app. split; [|exact IH].
      clear - H. induction H as [|w z l1 l2 (_ & _ & I) F2 IH2]; [constructor|]. now constructor.
Qed.
Lemma filter_nodup (f : Client.sub jsval -> N) (p : Client.sub jsval -> bool) (l : list (Client.sub jsval)) :
  (forall i j x y, nth_error l i = Some x -> nth_error l j = Some y -> p x = true -> p y = true -> f x = f y -> i = j) -> NoDup (map f (filter p l)).
Proof.
  induction l as [|a l IH]; intros H; [constructor|]. cbn.
  assert (NoDup (map f (filter p l))). { apply IH. intros i j x y Hx Hy Px Py E. apply eq_add_S. now apply (H (Datatypes.S i) (Datatypes.S j) x y). }
  destruct (p a) eqn:Pa; [|assumption]. cbn. constructor; [|assumption]. intros I. apply in_map_iff in I as (b & E & I). apply filter_In in I as [I Pb]. apply In_nth_error in I as [j Hj].
  now specialize (H 0 (Datatypes.S j) a b eq_refl Hj Pa Pb (eq_sym E)).
Qed.
Lemma page_answers scripts ts s : outcome scripts ts s -> few scripts ts ->
  exists ids, NoDup ids /\
    Forall2 (fun v id => exists p x, v = VProm p /\ nth_error (st_proms s) p = Some x /\
      ((exists rs, pr_state x = PPending rs) \/
       exists d k t key, pr_state x = PFul (VData d) /\ In (TMessage k t) ts /\ js_read num t = Some (key, d) /\ js_same other key id = true))
    (us_proms (st_user s)) ids.
Proof.
  intros O Fw. set (M := fun x : jsval * jsval => exists k t, In (TMessage k t) ts /\ js_read num t = Some x).
  destruct (outcome_few scripts ts s (msgs_ok M) O Fw) as (c & G & Hm & R & Cn).
  - constructor.
  - intros c e H _ Ht. apply m_next; [|exact H]. intros n t x -> E. exists n, t. split; [now apply Ht|exact E].
  - exists (map (@Client.su_id jsval) (filter Client.su_req (Client.cl_subs c))). split.
    + apply filter_nodup. intros i j x y Hx Hy Px Py E. exact (ClientProofs.request_id_own _ _ _ c i j x y R Cn Hx Hy Px E).
    + assert (H : forall x, In x (filter Client.su_req (Client.cl_subs c)) -> match Client.su_seen x with [] => True | d :: _ => exists k t key, In (TMessage k t) ts /\ js_read num t = Some (key, d) /\ js_same other key (Client.su_id x) = true end).
      { intros x Ix. apply filter_In in Ix as [Ix Rx]. apply In_nth_error in Ix as [i Hi]. destruct (Client.su_seen x) as [|d l] eqn:Es; [exact I|].
        destruct (ClientProofs.request_settles _ _ _ c i x R Hi Rx) as [[E|(d' & E & (i' & k & ok & _ & Hmsg & Sm & _))] _]; [congruence|].
        rewrite Es in E. injection E as <- ->. unfold msgs_ok in Hm. rewrite Forall_forall in Hm. apply nth_error_In, Hm in Hmsg. destruct Hmsg as (n & t & It & Er). cbn in Er.
        exists n, t, k. now repeat split. }
      pose proof (ag_proms _ _ G) as Pr. clear - Pr H. induction Pr as [|v x l m (p & y & E1 & E2 & E3) F IH]; constructor.
      * exists p, y. split; [exact E1|]. split; [exact E2|]. pose proof (H x (or_introl eq_refl)) as Hx. destruct (Client.su_seen x) as [|d r]; [left; exact E3|right].
        destruct Hx as (k & t & key & A & B & D). now exists d, k, t, key.
      * apply IH. intros z Iz. apply H. now right.
Qed.

(** Messages in their order. *)
Lemma within_refl {A} (l : list A) : within l l.
Proof. induction l; [constructor|now apply w_take]. Qed.
Lemma within_none {A} (l : list A) : within [] l.
Proof. induction l; constructor; assumption. Qed.
Lemma within_trans {A} (b c : list A) : within b c -> forall a, within a b -> within a c.
Proof. induction 1 as [|x l m H IH|x l m H IH]; intros a W; [exact W|apply w_skip; now apply IH|]. inversion W; subst; [apply w_skip; now apply IH|apply w_take; now apply IH]. Qed.
Lemma within_app {A} (a b c d : list A) : within a b -> within c d -> within (a ++ c) (b ++ d).
Proof. intros W V. induction W; cbn; [exact V|now apply w_skip|now apply w_take]. Qed.
Lemma within_map {A B} (f : A -> B) a b : within a b -> within (map f a) (map f b).
Proof. induction 1; cbn; constructor; assumption. Qed.
Lemma within_filter {A} (f : A -> bool) a b : within a b -> within (filter f a) (filter f b).
Proof. induction 1 as [|x l m H IH|x l m H IH]; cbn; [constructor|destruct (f x); [now apply w_skip|exact IH]|destruct (f x); [now apply w_take|exact IH]]. Qed.
Lemma within_between {A} a b (l : list A) : within (between a b l) l.
Proof.
  unfold between. apply within_trans with (skipn a l).
  - rewrite <- (firstn_skipn a l) at 2. apply (within_app [] _ _ _ (within_none _) (within_refl _)).
  - rewrite <- (firstn_skipn (b - a) (skipn a l)) at 2. rewrite <- (app_nil_r (firstn _ _)) at 1. apply within_app; [apply within_refl|apply within_none].
Qed.
Definition told (c : jclient) : list (jsval * jsval) := map fst (Client.cl_msgs c).
Lemma told_next c e : told (cnext c e) = told c \/ exists k t x, e = Client.NMessage k t /\ js_read num t = Some x /\ told (cnext c e) = told c ++ [x].
Proof.
  assert (Cl : forall c : jclient, Client.cl_msgs (Client.close c) = Client.cl_msgs c) by (intros c0; unfold Client.close; cbn; destruct (Client.cl_cur c0); reflexivity).
  assert (Sn : forall v (c : jclient), Client.cl_msgs (Client.open_and_send v c) = Client.cl_msgs c).
  { intros v c0. unfold Client.open_and_send, Client.open. cbn. destruct (Client.cl_cur c0); [destruct (Client.is_open _); [reflexivity|]|]; destruct (Client.cl_opening c0); reflexivity. }
  assert (Re : forall c : jclient, Client.cl_msgs (Client.reopen c) = Client.cl_msgs c).
  { intros c0. unfold Client.reopen. destruct (Client.subscribed _); [destruct (Client.reopen_timeout _); cbn|]; apply Cl. }
  assert (De : forall j (c : jclient), Client.cl_msgs (Client.delete_sub j c) = Client.cl_msgs c).
  { intros j c0. unfold Client.delete_sub. destruct (Client.subscribed _); [reflexivity|]. now rewrite Cl. }
  unfold told. destruct e; cbn [Client.cnext]; try (destruct (Client.user c); [|now left]); try (destruct (Client.idle c); [|now left]).
  - left. unfold Client.request. destruct (js_enc _ _ _); [now rewrite Sn|reflexivity].
  - left. unfold Client.subscribe. destruct (js_enc _ _ _); [now rewrite Sn|reflexivity].
  - left. destruct (nth_error _ _); reflexivity.
  - left. destruct (nth_error _ _) as [x|]; [|reflexivity]. destruct (Client.su_req x); [|rewrite De]; reflexivity.
  - left. destruct (Client.cl_disp c) as [d|]; [|reflexivity]. destruct (Client.dp_in d); [|reflexivity]. cbn. unfold Client.spoil.
    match goal with |- context [upd ?k _ _] => generalize k end. induction (Client.cl_msgs c) as [|y l IH]; intros [|m]; cbn; f_equal; auto.
  - left. destruct (Client.cl_disp c) as [d|]; [|reflexivity]. unfold Client.visit. destruct (nth_error _ _) as [x|]; [|reflexivity]. destruct (Client.su_live x && _); reflexivity.
  - left. destruct (Client.cl_disp c); [reflexivity|]. destruct (nth_error _ _) as [x|]; [|reflexivity]. destruct (Client.unfinished x); [rewrite De|]; reflexivity.
  - left. destruct (Client.state_of c n); try reflexivity. unfold Client.on_open.
    assert (Fo : forall l (c0 : jclient), Client.cl_msgs (fold_left (fun c v => Client.open_and_send v c) l c0) = Client.cl_msgs c0) by (induction l as [|v l IH]; intros c0; cbn; [reflexivity|now rewrite IH, Sn]).
    now rewrite Fo.
  - left. destruct (Client.state_of c n); reflexivity.
  - left. destruct (Client.state_of c n) as [| |[|]|]; try reflexivity; unfold Client.on_close; now rewrite Re.
  - left. destruct (Client.state_of c n) as [| |[|]|]; try reflexivity; unfold Client.on_close; now rewrite Re.
  - destruct (Client.state_of c n); try now left. destruct (js_read num t) as [x|] eqn:E; [|now left]. destruct x as [k d]. right. exists n, t, (k, d). cbn. rewrite map_app. auto.
  - left. destruct (Client.cl_timer c); [|reflexivity]. unfold Client.open. cbn. destruct (Client.cl_opening c); reflexivity.
Qed.
Lemma told_leads sc c sc' c' : leads sc c sc' c' -> told c' = told c.
Proof.
  intros L. refine (proj1 (kept_leads (fun x => told x = told c) (flat_map sc_acts sc) [] _ sc c sc' c' L (fun x I => I) eq_refl)).
  intros c0 e H _ N. destruct (told_next c0 e) as [E|(k & t & x & -> & _ & _)]; [congruence|]. destruct (N k t eq_refl).
Qed.
Lemma told_acts c l : told (acts_next lit num other c l) = told c.
Proof.
  refine (kept_acts (fun x => told x = told c) l [] _ l c (fun x I => I) eq_refl).
  intros c0 e H _ N. destruct (told_next c0 e) as [E|(k & t & x & -> & _ & _)]; [congruence|]. destruct (N k t eq_refl).
Qed.
Lemma told_quiet c e : (forall k t, e <> Client.NMessage k t) -> told (cnext c e) = told c.
Proof. intros H. destruct (told_next c e) as [E|(k & t & x & -> & _)]; [exact E|]. now destruct (H k t). Qed.
Lemma told_path s c ts s' c' : path s c ts s' c' -> within (told c') (told c ++ received num ts).
Proof.
  induction 1 as [s c G|s c t ts s1 c1 s2 c2 G R F L IH]; [cbn; rewrite app_nil_r; apply within_refl|].
  apply (fun H => within_trans _ _ H _ IH). assert (E : received num (t :: ts) = received num [t] ++ received num ts) by (unfold received; cbn [flat_map]; now rewrite app_nil_r).
  rewrite E, app_assoc.
  apply within_app; [|apply within_refl].
  assert (Q : told c1 = told c -> within (told c1) (told c ++ received num [t])).
  { intros ->. rewrite <- (app_nil_r (told c)) at 1. apply within_app; [apply within_refl|apply within_none]. }
  inversion F as [x sc' c' L' E1 E2 E3|k E1 E2 E3|k E1 E2 E3|k E1 E2 E3|k E1 E2 E3|k tx sc' c' L' E1 E2 E3|k E1 E2 E3]; subst t; try subst c1.
  - apply Q. rewrite (told_leads _ _ _ _ L'). apply told_acts.
  - apply Q, told_quiet. discriminate.
  - apply Q, told_quiet. discriminate.
  - apply Q, told_quiet. discriminate.
  - apply Q, told_quiet. discriminate.
  - apply told_leads in L'. destruct (told_next c (Client.NMessage k tx)) as [A0|(k' & t' & x & [= <- <-] & A1 & A2)]; [apply Q; congruence|].
    rewrite L', A2. cbn [received flat_map]. rewrite A1. apply within_refl.
  - apply Q. destruct (alive s k); [apply told_quiet; discriminate|reflexivity].
Qed.
Lemma hears_within id (l : list (jsval * jsval * bool)) (r : list jsval) : hears (js_same other) id l r -> within r (map snd (filter (fun x => js_same other (fst x) id) (map fst l))).
Proof.
  induction 1 as [|k d ok l r S H IH|k d ok l r S H IH|k d l r S H IH]; cbn; [constructor| | |]; rewrite S; cbn; [now apply w_take|exact IH|now apply w_skip].
Qed.
Lemma page_listener scripts ts s j : outcome scripts ts s -> j < List.length (us_unls (st_user s)) ->
  exists id, within (heard_of j s) (map (fun x => [VData (snd x)]) (filter (fun x => js_same other (fst x) id) (received num ts))).
Proof.
  intros O Lj. destruct (page_follows scripts ts s O) as (s0 & c & _ & P & R & G). apply told_path in P. cbn in P.
  rewrite (ag_unls _ _ G) in Lj. destruct (nth_error (listeners (Client.cl_subs c)) j) as [i|] eqn:Ei; [|apply nth_error_None in Ei; lia].
  assert (Hi : exists x, nth_error (Client.cl_subs c) i = Some x).
  { apply nth_error_In in Ei. unfold listeners in Ei. apply in_map_iff in Ei as ((i' & x) & <- & I). apply filter_In in I as [I _]. apply in_combine_l in I. apply in_seq in I.
    destruct (nth_error (Client.cl_subs c) i') as [z|] eqn:E; [now exists z|]. apply nth_error_None in E. lia. }
  destruct Hi as [x Hx]. exists (Client.su_id x). rewrite (ag_heard _ _ G j i x Ei Hx).
  destruct (ClientProofs.listener_hears _ _ _ c i x R Hx) as (upto & _ & Hh & _). apply hears_within in Hh.
  rewrite <- (map_map snd (fun d : jsval => [VData d])). apply within_map. refine (within_trans _ _ _ _ Hh). apply within_map, within_filter.
  refine (within_trans _ _ P _ _). apply within_map, within_between.
Qed.
End Claims.

(** For the program that is read from the text of the client. *)
Section Read.
Context (lit : num -> jstr) (num : jstr -> num) (other : jsval -> N -> bool) (P : list top).
Context (HP : program Prelude.websocket_client = Some P).
Local Notation outcome := (outcome lit num other P).
Lemma read_is : P = client_program.
Proof. rewrite client_program_read in HP. now injection HP. Qed.
Lemma read_runs scripts ts : exists s N, forall n, page lit num other n P scripts ts = if Nat.ltb n N then Fuel else Ok tt s.
Proof. rewrite read_is. apply page_runs. Qed.
Lemma read_follows scripts ts s : outcome scripts ts s ->
  exists s0 c, load lit num other 40 P (st0 scripts) = Ok tt s0 /\ path lit num other s0 Client.cinit ts s c /\
    creachable (js_enc lit) (js_read num) (js_same other) c /\ agree s c.
Proof. rewrite read_is. apply page_follows. Qed.
Lemma read_sent scripts ts s : outcome scripts ts s -> few scripts ts ->
  exists sent : list (list (N * jcall)),
    Forall2 (fun y l => Forall2 (fun v x => exists t, v = VStr t /\ js_enc lit (fst x) (snd x) = Some t) (so_sent y) l) (st_socks s) sent /\
    Sorted.StronglySorted N.lt (map fst (List.concat sent)) /\
    Forall (fun x => In (snd x) (calls_of (all_actions scripts ts))) (List.concat sent).
Proof. rewrite read_is. apply page_sent. Qed.
Lemma read_lost scripts ts s y : outcome scripts ts s -> In y (st_socks s) -> so_lost y = [].
Proof. rewrite read_is. intros O I. exact (proj1 (page_sockets lit num other scripts ts s y O I)). Qed.
Lemma read_answers scripts ts s : outcome scripts ts s -> few scripts ts ->
  exists ids, NoDup ids /\
    Forall2 (fun v id => exists p x, v = VProm p /\ nth_error (st_proms s) p = Some x /\
      ((exists rs, pr_state x = PPending rs) \/
       exists d k t key, pr_state x = PFul (VData d) /\ In (TMessage k t) ts /\ js_read num t = Some (key, d) /\ js_same other key id = true))
    (us_proms (st_user s)) ids.
Proof. rewrite read_is. apply page_answers. Qed.
Lemma read_listener scripts ts s j : outcome scripts ts s -> j < List.length (us_unls (st_user s)) ->
  exists id, within (heard_of j s) (map (fun x => [VData (snd x)]) (filter (fun x => js_same other (fst x) id) (received num ts))).
Proof. rewrite read_is. apply page_listener. Qed.
Lemma read_one_socket scripts ts s k k' : outcome scripts ts s -> busy s k -> busy s k' -> k = k'.
Proof. rewrite read_is. apply page_one_socket. Qed.
Lemma read_timer scripts ts s k k' : outcome scripts ts s -> alive s k = true ->
  (alive s k' = true -> k' = k) /\ ~ busy s k' /\ exists f d, nth_error (st_timers s) k = Some (Some (f, VNum d)) /\ In d [100; 200; 1000; 3000]%Z.
Proof. rewrite read_is. apply page_timer. Qed.
End Read.
