(** Consequences of the server invariant, in the form used by the property theorems. *)
From Coq Require Import List Arith NArith Bool Lia.
From Verif Require Import Util Server ServerSpec ServerProofs.
Import ListNotations.

Section Lemmas.
Context {A : app}.
Implicit Types (a : St A) (s : state A) (e : event A) (es : list (event A)) (tk : task A).

(** ** C27, C28 *)


Lemma inv_received a s done q c : Inv a s done q ->
  prefix (from_loop (received s c)) (outs_to c (q_outs q)) /\
  (rx_alive s c = true -> from_loop (received s c) = outs_to c (q_outs q)).
Proof.
  intros I. unfold received, rx_alive. destruct (nth_error (st_conns s) c) as [cn|] eqn:E.
  - apply (I_loop _ _ _ _ I _ _ E).
  - split; [|discriminate]. exists (outs_to c (q_outs q)); reflexivity.
Qed.

Lemma refines a es :
  let s := run (init a) es in
  exists done rest q,
    st_sent s = done ++ rest /\ pending_of s rest /\
    seq_run (seq_init a) done = Some q /\
    st_app s = q_app q /\
    map (fun t => (tk_conn t, tk_id t)) (st_tasks s) = q_starts q /\
    (alive (st_loop s) = true -> forall id, m_get id (st_subs s) = q_cancel q id) /\
    (forall c, prefix (from_loop (received s c)) (outs_to c (q_outs q)) /\
               (rx_alive s c = true -> from_loop (received s c) = outs_to c (q_outs q))).
Proof.
  intros s. destruct (inv_run a es) as (done & q & I). fold s in I.
  destruct (I_sent _ _ _ _ I) as (rest & H1 & H2).
  exists done, rest, q. split; [auto|]. split.
  { unfold pending_of; unfold inflight in H2. destruct (st_loop s); auto. }
  split; [apply (I_run _ _ _ _ I)|]. split; [apply (I_app _ _ _ _ I)|].
  split; [apply (I_starts _ _ _ _ I)|]. split; [apply (I_subs _ _ _ _ I)|].
  intros c; eapply inv_received; eauto.
Qed.

(** ** The ids of the responses of a sequential run *)




Lemma seq_step_ids (q q' : seqst A) c (m : msg A) c' :
  seq_step q (c, m) = Some q' ->
  map response_id (outs_to c' (q_outs q')) =
  map response_id (outs_to c' (q_outs q)) ++ @answer_ids_to A c' [(c, m)].
Proof.
  unfold answer_ids_to; simpl; intros H.
  assert (forall r, map response_id (outs_to c' (q_outs q ++ [(c, r)])) =
          map response_id (outs_to c' (q_outs q)) ++ if Nat.eqb c c' then [response_id r] else []) as E.
  { intros r; rewrite outs_to_app, map_app; f_equal. unfold outs_to; simpl.
    destruct (Nat.eqb c c'); auto. }
  destruct m as [[id v|id]|err]; simpl in *.
  - destruct (from_value A v) as [call|er].
    + destruct (is_stream A call); simpl.
      * destruct (open_stream A (q_app q) call); inversion H; simpl; rewrite andb_false_r; simpl; rewrite app_nil_r; auto.
      * destruct (run_method A (q_app q) call) as [[a' [d|er]]|]; inversion H; simpl;
        rewrite E; destruct (Nat.eqb c c'); simpl; auto.
    + inversion H; simpl. rewrite E; destruct (Nat.eqb c c'); simpl; auto.
  - inversion H; simpl. rewrite andb_false_r; simpl; rewrite app_nil_r; auto.
  - inversion H; simpl. rewrite E; destruct (Nat.eqb c c'); simpl; auto.
Qed.

Lemma answer_ids_to_app c (l1 l2 : list (nat * msg A)) : @answer_ids_to A c (l1 ++ l2) = @answer_ids_to A c l1 ++ @answer_ids_to A c l2.
Proof. unfold answer_ids_to; rewrite filter_app, map_app; auto. Qed.

Lemma seq_run_ids l q q' c :
  seq_run q l = Some q' ->
  map response_id (outs_to c (q_outs q')) = map response_id (outs_to c (q_outs q)) ++ @answer_ids_to A c l.
Proof.
  revert q; induction l as [|[c0 m] l IH]; cbn [seq_run]; intros q H.
  - inversion H; rewrite app_nil_r; auto.
  - destruct (seq_step q (c0, m)) as [q1|] eqn:E; [|discriminate].
    rewrite (IH _ H), (seq_step_ids _ _ _ _ c E), <- app_assoc.
    f_equal. rewrite <- answer_ids_to_app; auto.
Qed.

Lemma responses_ids a es c :
  let s := run (init a) es in
  rx_alive s c = true ->
  exists done rest, st_sent s = done ++ rest /\ pending_of s rest /\
    map response_id (from_loop (received s c)) = @answer_ids_to A c done.
Proof.
  intros s Hrx. destruct (refines a es) as (done & rest & q & H1 & H2 & H3 & _ & _ & _ & H4).
  exists done, rest. split; [auto|]. split; [auto|]. fold s in H4.
  destruct (H4 c) as [_ H5]. rewrite (H5 Hrx). apply (seq_run_ids _ _ _ c H3).
Qed.

(** ** C29 *)


Lemma seq_run_outs l : forall q q', seq_run q l = Some q' ->
  (forall c r, In (c, r) (q_outs q') -> In (c, r) (q_outs q) \/ exists m, In (c, m) l /\ answers m r) /\
  (forall c id, In (c, id) (q_starts q') -> In (c, id) (q_starts q) \/ exists v call, In (c, inl (Exec id v)) l /\
      from_value A v = inl call /\ is_stream A call = true).
Proof.
  induction l as [|[c0 m] l IH]; cbn [seq_run]; intros q q' H.
  - inversion H; auto.
  - destruct (seq_step q (c0, m)) as [q1|] eqn:E; [|discriminate].
    destruct (IH _ _ H) as [H1 H2].
    assert ((forall c r, In (c, r) (q_outs q1) -> In (c, r) (q_outs q) \/ (c0 = c /\ answers m r)) /\
            (forall c id, In (c, id) (q_starts q1) -> In (c, id) (q_starts q) \/
               exists v call, c0 = c /\ m = inl (Exec id v) /\ from_value A v = inl call /\ is_stream A call = true)) as [H3 H4].
    { assert (forall (P : Prop) c r r0, In (c, r) (q_outs q ++ [(c0, r0)]) -> (r = r0 -> P) ->
               In (c, r) (q_outs q) \/ (c0 = c /\ P)) as K.
      { intros P c r r0 Hin HP. apply in_app_or in Hin. destruct Hin as [Hin|[Hin|[]]]; auto.
        inversion Hin; subst; auto. }
      unfold answers; destruct m as [[id v|id]|err]; simpl in E.
      - destruct (from_value A v) as [call|er] eqn:Ef.
        + destruct (is_stream A call) eqn:Es; simpl.
          * destruct (open_stream A (q_app q) call); inversion E; simpl; split; auto.
            intros c i Hin; apply in_app_or in Hin. destruct Hin as [Hin|[Hin|[]]]; auto.
            inversion Hin; subst. right; exists v, call; auto.
          * destruct (run_method A (q_app q) call) as [[a' [d|er]]|]; inversion E; simpl; split; auto;
            intros c r Hin; eapply K; eauto; intros ->; auto.
        + inversion E; simpl; split; auto. intros c r Hin; eapply K; eauto; intros ->; auto.
      - inversion E; simpl; auto.
      - inversion E; simpl; split; auto. intros c r Hin; eapply K; eauto. }
    split.
    + intros c r Hin. destruct (H1 c r Hin) as [Hin1|(m' & ? & ?)].
      * destruct (H3 _ _ Hin1) as [?|[-> ?]]; auto. right; exists m; simpl; auto.
      * right; exists m'; simpl; auto.
    + intros c id Hin. destruct (H2 c id Hin) as [Hin1|(v & call & ? & ?)].
      * destruct (H4 _ _ Hin1) as [?|(v & call & -> & -> & ? & ?)]; auto. right; exists v, call; simpl; auto.
      * right; exists v, call; simpl; auto.
Qed.

Lemma In_from_loop (l : list (src * response A)) r : In (SrcLoop, r) l -> In r (from_loop l).
Proof.
  intros H; unfold from_loop. apply in_map_iff. exists (SrcLoop, r); split; auto.
  apply filter_In; auto.
Qed.

Lemma In_from_task (l : list (src * response A)) t r : In (SrcTask t, r) l -> In r (from_task t l).
Proof.
  intros H; unfold from_task. apply in_map_iff. exists (SrcTask t, r); split; auto.
  apply filter_In; simpl; rewrite Nat.eqb_refl; auto.
Qed.

Lemma prefix_In {B} (l1 l2 : list B) x : prefix l1 l2 -> In x l1 -> In x l2.
Proof. intros [r ->] H; apply in_or_app; auto. Qed.

Lemma no_cross_talk a es c o r :
  let s := run (init a) es in
  In (o, r) (received s c) -> exists m, In (c, m) (st_sent s) /\ answers m r.
Proof.
  intros s Hin. destruct (inv_run a es) as (done & q & I). fold s in I.
  unfold received in Hin. destruct (nth_error (st_conns s) c) as [cn|] eqn:Ec; [|destruct Hin].
  destruct (I_sent _ _ _ _ I) as (rest & Hs & _).
  destruct (seq_run_outs _ _ _ (I_run _ _ _ _ I)) as [H1 H2].
  assert (forall m, In (c, m) done -> In (c, m) (st_sent s)) as Hd
    by (intros m Hm; rewrite Hs; apply in_or_app; auto).
  destruct o as [|t].
  - apply In_from_loop in Hin. destruct (I_loop _ _ _ _ I _ _ Ec) as [P _].
    eapply prefix_In in Hin; eauto. unfold outs_to in Hin. apply in_map_iff in Hin.
    destruct Hin as ([c' r'] & <- & Hin). apply filter_In in Hin; simpl in *.
    destruct Hin as [Hin Hc]. apply Nat.eqb_eq in Hc; subst c'.
    destruct (H1 _ _ Hin) as [[]|(m & ? & ?)]. exists m; auto.
  - apply In_from_task in Hin.
    destruct (nth_error (st_tasks s) t) as [tk|] eqn:Et.
    + pose proof (I_task _ _ _ _ I _ _ _ _ Ec Et) as K.
      destruct (Nat.eqb_spec (tk_conn tk) c) as [Hcc|_]; [|rewrite K in Hin; destruct Hin].
      destruct K as [K _]. eapply prefix_In in Hin; eauto. apply in_map_iff in Hin.
      destruct Hin as (it & <- & _).
      assert (In (tk_conn tk, tk_id tk) (q_starts q)) as Hst.
      { rewrite <- (I_starts _ _ _ _ I). apply in_map_iff. exists tk; split; auto. eapply nth_error_In; eauto. }
      destruct (H2 _ _ Hst) as [[]|(v & call & ? & ?)]. subst c. exists (inl (Exec (tk_id tk) v)); split; auto.
      destruct it; simpl; auto.
    + rewrite (I_notask _ _ _ _ I _ _ _ Ec) in Hin; [destruct Hin|]. apply nth_error_None; auto.
Qed.

(** ** C30 *)

Lemma stream_items a es t tk :
  let s := run (init a) es in
  nth_error (st_tasks s) t = Some tk ->
  prefix (from_task t (received s (tk_conn tk))) (map (item_response (tk_id tk)) (tk_items tk)) /\
  (rx_alive s (tk_conn tk) = true ->
     from_task t (received s (tk_conn tk)) = map (item_response (tk_id tk)) (tk_items tk)) /\
  (forall c, c <> tk_conn tk -> from_task t (received s c) = []).
Proof.
  intros s Ht. destruct (inv_run a es) as (done & q & I). fold s in I.
  unfold received, rx_alive. split; [|split].
  - destruct (nth_error (st_conns s) (tk_conn tk)) as [cn|] eqn:Ec; [|exists (map (item_response (tk_id tk)) (tk_items tk)); auto].
    pose proof (I_task _ _ _ _ I _ _ _ _ Ec Ht) as K. rewrite Nat.eqb_refl in K; tauto.
  - destruct (nth_error (st_conns s) (tk_conn tk)) as [cn|] eqn:Ec; [|discriminate].
    pose proof (I_task _ _ _ _ I _ _ _ _ Ec Ht) as K. rewrite Nat.eqb_refl in K; tauto.
  - intros c Hc. destruct (nth_error (st_conns s) c) as [cn|] eqn:Ec; auto.
    pose proof (I_task _ _ _ _ I _ _ _ _ Ec Ht) as K. destruct (Nat.eqb_spec (tk_conn tk) c); [congruence|auto].
Qed.

(** The items of a stream only grow, and its connection and id never change. *)
Lemma task_mono_step s e t tk : nth_error (st_tasks s) t = Some tk ->
  exists tk', nth_error (st_tasks (next s e)) t = Some tk' /\
    tk_conn tk' = tk_conn tk /\ tk_id tk' = tk_id tk /\ prefix (tk_items tk) (tk_items tk').
Proof.
  intros Ht. unfold next.
  assert (forall ts, map tcore ts = map tcore (st_tasks s) -> exists tk', nth_error ts t = Some tk' /\
    tk_conn tk' = tk_conn tk /\ tk_id tk' = tk_id tk /\ prefix (tk_items tk) (tk_items tk')) as K.
  { intros ts E. symmetry in E. destruct (tcore_nth _ _ _ _ E Ht) as (k & ? & ? & ? & E3).
    exists k; rewrite E3; auto using prefix_refl. }
  destruct e as [| | |c m|c|c|c| | |u|u v|u|u]; simpl.
  - destruct (Nat.eqb (st_proxies s) 0); simpl; auto.
  - destruct (Nat.eqb (st_proxies s) 0); simpl; auto.
  - apply K; auto.
  - destruct (nth_error (st_conns s) c) as [cn|]; simpl; auto. destruct (cn_tx cn); simpl; auto.
    destruct (alive (st_loop s)); simpl; auto.
  - auto.
  - auto.
  - destruct (nth_error (st_conns s) c) as [cn|]; simpl; auto. destruct (cn_rx cn); simpl; auto.
    destruct (nth_error (cn_out cn) (cn_read cn)) as [[? ?]|]; simpl; auto.
  - destruct (st_loop s); simpl; auto. destruct (st_queue s) as [|[c m] ql]; simpl.
    + destruct (no_senders s); simpl; auto. apply K, map_tcore_drop.
    + destruct m as [[id v|id]|err]; simpl; auto.
      * destruct (from_value A v); simpl; auto. destruct (is_stream A c0); simpl; auto.
        destruct (open_stream A (st_app s) c0); simpl; [|apply K, map_tcore_drop].
        exists tk. rewrite nth_error_app1 by (eapply nth_some_lt; eauto). auto using prefix_refl.
      * unfold cancel; simpl. destruct (m_get id (st_subs s)); simpl; auto. apply K, map_tcore_abort.
  - destruct (st_loop s) as [|c id call| |]; simpl; auto. unfold method_done.
    destruct (run_method A (st_app s) call) as [[? ?]|]; simpl; [|apply K, map_tcore_drop].
    destruct (rx_alive s c); simpl; auto. apply K, map_tcore_drop.
  - apply K, map_tcore_upd_stat.
  - destruct (nth_error (st_tasks s) u) as [tu|] eqn:Eu; simpl; auto.
    assert (forall st, exists tk' : task A,
      nth_error (upd u (fun k => mkTask (tk_conn k) (tk_id k) (st k) (tk_items k ++ [v])) (st_tasks s)) t = Some tk' /\
      tk_conn tk' = tk_conn tk /\ tk_id tk' = tk_id tk /\ prefix (tk_items tk) (tk_items tk')) as K2.
    { intros st; rewrite nth_upd, Ht. destruct (Nat.eqb u t); simpl.
      - eexists; split; [reflexivity|]; simpl; auto using prefix_app, prefix_refl.
      - exists tk; auto using prefix_refl. }
    destruct (polling (tk_stat tu)); simpl; auto.
    destruct (rx_alive s (tk_conn tu)); simpl.
    + apply (K2 (fun k => tk_stat k)).
    + apply (K2 (fun _ => TBroken)).
  - apply K, map_tcore_upd_stat.
  - apply K, map_tcore_upd_stat.
Qed.

(** ** Status transitions *)


(** The possible status changes of a task by one event. *)
Definition stat_step (x y : tstat) : Prop :=
  match x with
  | TIdle => y = TIdle \/ y = TPolling \/ y = TAborted
  | TPolling => y = TPolling \/ y = TIdle \/ y = TAborting \/ y = TDone \/ y = TBroken
  | TAborting => y = TAborting \/ y = TAborted \/ y = TDone \/ y = TBroken
  | z => y = z
  end.

Lemma stat_step_refl x : stat_step x x.
Proof. destruct x; simpl; auto. Qed.

Lemma stat_of_abort (ts : list (task A)) u t :
  option_map (@tk_stat A) (nth_error (abort_task u ts) t) =
  if Nat.eqb u t then option_map (fun k => abort_stat (tk_stat k)) (nth_error ts t)
  else option_map (@tk_stat A) (nth_error ts t).
Proof.
  unfold abort_task; rewrite nth_upd. destruct (Nat.eqb u t); auto.
  destruct (nth_error ts t); auto.
Qed.

Lemma stat_of_drop subs : forall (ts : list (task A)) t,
  option_map (@tk_stat A) (nth_error (drop_subs subs ts) t) =
  if existsb (fun p => Nat.eqb (snd p) t) subs
  then option_map (fun k => abort_stat (tk_stat k)) (nth_error ts t)
  else option_map (@tk_stat A) (nth_error ts t).
Proof.
  unfold drop_subs; induction subs as [|p r IH]; intros ts t; simpl; auto.
  rewrite IH. pose proof (stat_of_abort ts (snd p) t) as E.
  destruct (Nat.eqb_spec (snd p) t) as [->|Hne]; simpl.
  - destruct (existsb _ r); auto.
    unfold abort_task; rewrite nth_upd_same. destruct (nth_error ts t) as [k|]; simpl; auto.
    destruct (tk_stat k); auto.
  - destruct (existsb _ r); auto. unfold abort_task; rewrite nth_upd_other by auto. auto.
Qed.

Lemma abort_stat_step x : stat_step x (abort_stat x).
Proof. destruct x; simpl; auto. Qed.

Lemma stat_upd f s t u x :
  (forall y, stat_step y (f y)) ->
  stat_of s t = Some x ->
  exists y, option_map (@tk_stat A) (nth_error (upd u (set_stat f) (st_tasks s)) t) = Some y /\ stat_step x y
            /\ (t = u -> y = f x) /\ (t <> u -> y = x).
Proof.
  unfold stat_of; intros Hf Hx. rewrite nth_upd.
  destruct (nth_error (st_tasks s) t) as [k|]; simpl in Hx; inversion Hx; subst x.
  destruct (Nat.eqb_spec u t) as [->|Hne]; simpl; eexists; (split; [reflexivity|]); split; auto using stat_step_refl.
  - split; auto; intros H; congruence.
  - split; auto; intros H; congruence.
Qed.

Lemma stat_next s e t x : stat_of s t = Some x ->
  exists y, stat_of (next s e) t = Some y /\ stat_step x y.
Proof.
  intros Hx. unfold next.
  assert (forall s', st_tasks s' = st_tasks s -> exists y, stat_of s' t = Some y /\ stat_step x y) as K.
  { intros s' E. exists x. unfold stat_of; rewrite E. split; auto using stat_step_refl. }
  assert (forall subs, exists y, option_map (@tk_stat A) (nth_error (drop_subs subs (st_tasks s)) t) = Some y /\ stat_step x y) as KD.
  { intros subs. rewrite stat_of_drop. unfold stat_of in Hx.
    destruct (nth_error (st_tasks s) t) as [k|]; simpl in Hx; inversion Hx; subst x.
    destruct (existsb _ subs); simpl; eexists; split; try reflexivity; auto using stat_step_refl, abort_stat_step. }
  destruct e as [| | |c m|c|c|c| | |u|u v|u|u]; simpl.
  - destruct (Nat.eqb (st_proxies s) 0); simpl; auto.
  - destruct (Nat.eqb (st_proxies s) 0); simpl; auto.
  - auto.
  - destruct (nth_error (st_conns s) c) as [cn|]; simpl; auto. destruct (cn_tx cn); simpl; auto.
    destruct (alive (st_loop s)); simpl; auto.
  - auto.
  - auto.
  - destruct (nth_error (st_conns s) c) as [cn|]; simpl; auto. destruct (cn_rx cn); simpl; auto.
    destruct (nth_error (cn_out cn) (cn_read cn)) as [[? ?]|]; simpl; auto.
  - destruct (st_loop s); simpl; auto. destruct (st_queue s) as [|[c m] ql]; simpl.
    + destruct (no_senders s); simpl; auto. apply KD.
    + destruct m as [[id v|id]|err]; simpl; auto.
      * destruct (from_value A v); simpl; auto. destruct (is_stream A c0); simpl; auto.
        destruct (open_stream A (st_app s) c0); simpl; [|apply KD].
        exists x. split; auto using stat_step_refl. unfold stat_of in *; simpl.
        rewrite nth_error_app1; auto. destruct (nth_error (st_tasks s) t) eqn:E; [|discriminate]. eapply nth_some_lt; eauto.
      * unfold cancel; simpl. destruct (m_get id (st_subs s)) as [u|]; simpl; auto.
        destruct (stat_upd abort_stat s t u x abort_stat_step Hx) as (y & H1 & H2 & _). exists y; auto.
  - destruct (st_loop s) as [|c id call| |]; simpl; auto. unfold method_done.
    destruct (run_method A (st_app s) call) as [[? ?]|]; simpl; [|apply KD].
    destruct (rx_alive s c); simpl; auto. apply KD.
  - edestruct (stat_upd (fun x => match x with TIdle => TPolling | y => y end) s t u x) as (y & H1 & H2 & _);
      [intros []; simpl; auto|exact Hx|]. exists y; auto.
  - destruct (nth_error (st_tasks s) u) as [tu|] eqn:Eu; simpl; auto.
    destruct (polling (tk_stat tu)) eqn:Ep; simpl; auto.
    unfold stat_of in *. destruct (nth_error (st_tasks s) t) as [k|] eqn:Et; simpl in Hx; inversion Hx; subst x.
    destruct (rx_alive s (tk_conn tu)); simpl.
    + rewrite nth_upd, Et. destruct (Nat.eqb u t); simpl; eexists; split; try reflexivity; auto using stat_step_refl.
    + rewrite nth_upd, Et. destruct (Nat.eqb_spec u t) as [->|]; simpl; eexists; split; try reflexivity; auto using stat_step_refl.
      rewrite Et in Eu; inversion Eu; subst. destruct (tk_stat tu); try discriminate; simpl; auto.
  - edestruct (stat_upd (fun x => match x with TPolling => TIdle | TAborting => TAborted | y => y end) s t u x) as (y & H1 & H2 & _);
      [intros []; simpl; auto|exact Hx|]. exists y; auto.
  - edestruct (stat_upd (fun x => if polling x then TDone else x) s t u x) as (y & H1 & H2 & _);
      [intros []; simpl; auto|exact Hx|]. exists y; auto.
Qed.

Lemma stopped_run es : forall s t x, stat_of s t = Some x -> stopped x = true ->
  exists y, stat_of (run s es) t = Some y /\ stopped y = true.
Proof.
  induction es as [|e es IH]; intros s t x H Hs; simpl; [eauto|].
  destruct (stat_next s e t x H) as (y & H1 & H2). eapply IH; eauto.
  destruct x; simpl in *; try discriminate; intuition subst; auto.
Qed.

Lemma frozen_run es : forall s t x, stat_of s t = Some x -> frozen x = true ->
  stat_of (run s es) t = Some x.
Proof.
  induction es as [|e es IH]; intros s t x H Hs; simpl; [auto|].
  destruct (stat_next s e t x H) as (y & H1 & H2). apply IH; auto.
  destruct x; simpl in *; try discriminate; subst; auto.
Qed.

(** A response of task [t] appears only by an item event of [t] during one of its polls. *)
Lemma received_push s c o r c' :
  received (push s c o r) c' = received s c' ++ (if Nat.eqb c c' && rx_alive s c' then [(o, r)] else []).
Proof.
  unfold received, rx_alive; simpl; rewrite nth_upd.
  destruct (Nat.eqb_spec c c') as [->|H]; simpl.
  - destruct (nth_error (st_conns s) c') as [cn|]; simpl; auto. destruct (cn_rx cn); simpl; rewrite ?app_nil_r; auto.
  - rewrite app_nil_r; auto.
Qed.

Lemma received_upd (f : conn A -> conn A) s c c' :
  (forall cn, cn_out (f cn) = cn_out cn) ->
  received (with_conns (upd c f (st_conns s)) s) c' = received s c'.
Proof.
  intros Hf. unfold received; simpl; rewrite nth_upd. destruct (Nat.eqb c c'); auto.
  destruct (nth_error (st_conns s) c') as [cn|]; simpl; auto.
Qed.

Lemma received_connect s (cn : conn A) c : cn_out cn = [] ->
  received (with_conns (st_conns s ++ [cn]) s) c = received s c.
Proof.
  intros H. unfold received; simpl.
  destruct (Nat.lt_ge_cases c (length (st_conns s))) as [Hl|Hl].
  - rewrite nth_error_app1 by auto; auto.
  - rewrite nth_error_app2 by auto. rewrite (proj2 (nth_error_None (st_conns s) c)) by auto.
    destruct (c - length (st_conns s)) as [|[|k]]; simpl; auto.
Qed.

(** Everything one event can add to what a connection received. *)
Lemma received_next s e c :
  exists l, received (next s e) c = received s c ++ l /\
    (rx_alive s c = false -> l = []) /\
    (forall o r, In (o, r) l ->
       (o = SrcLoop /\ (e = EvRecv \/ e = EvMethodDone) /\ alive (st_loop s) = true) \/
       (exists t v tk, o = SrcTask t /\ e = EvItem t v /\ nth_error (st_tasks s) t = Some tk /\
                       polling (tk_stat tk) = true /\ tk_conn tk = c)).
Proof.
  assert (forall s', received s' c = received s c ->
    exists l, received s' c = received s c ++ l /\ (rx_alive s c = false -> l = []) /\
    (forall o r, In (o, r) l ->
       (o = SrcLoop /\ (e = EvRecv \/ e = EvMethodDone) /\ alive (st_loop s) = true) \/
       (exists t v tk, o = SrcTask t /\ e = EvItem t v /\ nth_error (st_tasks s) t = Some tk /\
                       polling (tk_stat tk) = true /\ tk_conn tk = c))) as K.
  { intros s' E. exists []. rewrite E, app_nil_r. split; [auto|]. split; [auto|intros ? ? []]. }
  unfold next; destruct e as [| | |c0 m|c0|c0|c0| | |u|u v|u|u]; simpl.
  - destruct (Nat.eqb (st_proxies s) 0); simpl; apply K; auto. apply received_connect; auto.
  - destruct (Nat.eqb (st_proxies s) 0); simpl; apply K; auto.
  - apply K; auto.
  - destruct (nth_error (st_conns s) c0) as [cn|]; simpl; [|apply K; auto]. destruct (cn_tx cn); simpl; [|apply K; auto].
    destruct (alive (st_loop s)); simpl; apply K; auto.
  - apply K. apply received_upd; auto.
  - apply K. apply received_upd; auto.
  - destruct (nth_error (st_conns s) c0) as [cn|]; simpl; [|apply K; auto]. destruct (cn_rx cn); simpl; [|apply K; auto].
    destruct (nth_error (cn_out cn) (cn_read cn)) as [[? ?]|]; simpl; [|apply K; auto].
    apply K. apply received_upd; auto.
  - destruct (st_loop s) eqn:El; simpl; try (apply K; auto; fail). destruct (st_queue s) as [|[c0 m] ql]; simpl.
    + destruct (no_senders s); simpl; apply K; auto.
    + assert (forall r, exists l, received (push (with_queue ql s) c0 SrcLoop r) c = received s c ++ l /\
        (rx_alive s c = false -> l = []) /\
        (forall o r, In (o, r) l ->
         (o = SrcLoop /\ (@EvRecv A = EvRecv \/ @EvRecv A = EvMethodDone) /\ alive (@LIdle A) = true) \/
         (exists t v tk, o = SrcTask t /\ @EvRecv A = EvItem t v /\ nth_error (st_tasks s) t = Some tk /\
                       polling (tk_stat tk) = true /\ tk_conn tk = c))) as KP.
      { intros r. exists (if Nat.eqb c0 c && rx_alive s c then [(SrcLoop, r)] else []).
        split; [apply (received_push (with_queue ql s))|]. split.
        - intros ->; rewrite andb_false_r; auto.
        - intros o r'. destruct (Nat.eqb c0 c && rx_alive s c); simpl; [|tauto].
          intros [E|[]]; inversion E; subst. left; auto. }
      destruct m as [[id v|id]|err]; simpl.
      * destruct (from_value A v); simpl; [|apply KP]. destruct (is_stream A c1); simpl; [|apply K; auto].
        destruct (open_stream A (st_app s) c1); simpl; apply K; auto.
      * unfold cancel; simpl. destruct (m_get id (st_subs s)); simpl; apply K; auto.
      * apply KP.
  - destruct (st_loop s) as [|c0 id call| |] eqn:El; simpl; try (apply K; auto; fail). unfold method_done.
    destruct (run_method A (st_app s) call) as [[a' r]|]; simpl; [|apply K; auto].
    destruct (rx_alive s c0); simpl; [|apply K; auto].
    exists (if Nat.eqb c0 c && rx_alive s c then [(SrcLoop, Response_method id r)] else []).
    split; [apply (received_push s)|]. split.
    + intros ->; rewrite andb_false_r; auto.
    + intros o r'. destruct (Nat.eqb c0 c && rx_alive s c); simpl; [|tauto].
      intros [E|[]]; inversion E; subst. left; auto.
  - apply K; auto.
  - destruct (nth_error (st_tasks s) u) as [tu|] eqn:Eu; simpl; [|apply K; auto].
    destruct (polling (tk_stat tu)) eqn:Ep; simpl; [|apply K; auto].
    destruct (rx_alive s (tk_conn tu)); simpl; [|apply K; auto].
    exists (if Nat.eqb (tk_conn tu) c && rx_alive s c then [(SrcTask u, Response_stream (tk_id tu) v)] else []).
    split; [apply (received_push s)|]. split.
    + intros ->; rewrite andb_false_r; auto.
    + intros o r'. destruct (Nat.eqb_spec (tk_conn tu) c); simpl; [|tauto]. destruct (rx_alive s c); simpl; [|tauto].
      intros [E|[]]; inversion E; subst. right; exists u, v, tu; auto.
  - apply K; auto.
  - apply K; auto.
Qed.

Lemma from_task_none (l : list (src * response A)) t :
  (forall o r, In (o, r) l -> o <> SrcTask t) -> from_task t l = [].
Proof.
  intros H; unfold from_task. induction l as [|[o r] l IH]; simpl; auto.
  assert (o <> SrcTask t) as Ho by (apply (H o r); simpl; auto).
  destruct o as [|u]; simpl.
  - apply IH; intros; eapply H; simpl; eauto.
  - destruct (Nat.eqb_spec u t); [subst; congruence|]. apply IH; intros; eapply H; simpl; eauto.
Qed.

Lemma frozen_silent es : forall s t x c, stat_of s t = Some x -> frozen x = true ->
  from_task t (received (run s es) c) = from_task t (received s c).
Proof.
  induction es as [|e es IH]; intros s t x c H Hf; simpl; auto.
  pose proof (frozen_run [e] s t x H Hf) as H1. simpl in H1.
  rewrite (IH (next s e) t x c H1 Hf).
  destruct (received_next s e c) as (l & E & _ & Hl). rewrite E, from_task_app.
  rewrite (from_task_none l t); [apply app_nil_r|].
  intros o r Hin. destruct (Hl o r Hin) as [(-> & _)|(u & v & tk & -> & _ & Hu & Hp & _)]; [discriminate|].
  intros Eu; inversion Eu; subst u. unfold stat_of in H; rewrite Hu in H; simpl in H; inversion H; subst x.
  destruct (tk_stat tk); discriminate.
Qed.

(** The stream stops producing at the latest at the next suspension of its current poll. *)
Lemma stopped_yield s t x : stat_of s t = Some x -> stopped x = true ->
  exists y, stat_of (next s (EvYield t)) t = Some y /\ frozen y = true.
Proof.
  intros H Hs.
  destruct (stat_upd (fun x => match x with TPolling => TIdle | TAborting => TAborted | y => y end) s t t x) as (y & H1 & _ & H3 & _);
    [intros []; simpl; auto|exact H|].
  exists y; split; [exact H1|]. rewrite (H3 eq_refl). destruct x; simpl in *; try discriminate; auto.
Qed.

(** ** Subscriber map and tasks *)

Record Sub s : Prop := {
  S_valid : forall id t, m_get id (st_subs s) = Some t -> exists tk, nth_error (st_tasks s) t = Some tk /\ tk_id tk = id;
  S_latest : forall id t, m_get id (st_subs s) = Some t -> forall t' tk', t < t' ->
     nth_error (st_tasks s) t' = Some tk' -> tk_id tk' <> id;
  S_nodup : NoDup (map fst (st_subs s));
  S_cover : alive (st_loop s) = true -> forall t tk, nth_error (st_tasks s) t = Some tk ->
     m_get (tk_id tk) (st_subs s) = Some t \/
     (exists t' tk', t < t' /\ nth_error (st_tasks s) t' = Some tk' /\ tk_id tk' = tk_id tk) \/
     stopped (tk_stat tk) = true
}.

Lemma sub_init a : Sub (@init A a).
Proof.
  constructor; simpl.
  - discriminate.
  - discriminate.
  - constructor.
  - intros _ [|t] tk H; discriminate.
Qed.

(** Same tasks up to status, statuses only stop. *)
Definition tstep (ts ts' : list (task A)) : Prop :=
  map tcore ts' = map tcore ts /\
  forall t tk tk', nth_error ts t = Some tk -> nth_error ts' t = Some tk' -> stopped (tk_stat tk) = true -> stopped (tk_stat tk') = true.

Lemma sub_tstep s ts : Sub s -> length ts = length (st_tasks s) ->
  (forall t tk', nth_error ts t = Some tk' -> exists tk, nth_error (st_tasks s) t = Some tk /\ tk_id tk' = tk_id tk /\
     (stopped (tk_stat tk) = true -> stopped (tk_stat tk') = true)) ->
  Sub (with_tasks ts s).
Proof.
  intros [V LT ND C] Hlen Hts.
  assert (forall t tk, nth_error (st_tasks s) t = Some tk -> exists tk', nth_error ts t = Some tk' /\ tk_id tk' = tk_id tk) as Hb.
  { intros t tk Ht. pose proof (nth_some_lt _ _ _ Ht) as Hlt. rewrite <- Hlen in Hlt.
    destruct (nth_error ts t) as [tk'|] eqn:E; [|apply nth_error_None in E; lia].
    exists tk'; split; auto. destruct (Hts _ _ E) as (k & Hk & Hid & _). congruence. }
  constructor; simpl; auto.
  - intros id t H. destruct (V id t H) as (tk & H1 & H2). destruct (Hb _ _ H1) as (tk' & ? & ?). exists tk'; split; congruence.
  - intros id t H t' tk' Hlt Ht'. destruct (Hts _ _ Ht') as (tk & H1 & H2 & H3). rewrite H2. eauto.
  - intros Hal t tk' Ht. destruct (Hts _ _ Ht) as (tk & H1 & H2 & H3). rewrite H2.
    destruct (C Hal _ _ H1) as [?|[(t2 & tk2 & ? & H4 & ?)|?]]; auto.
    right; left. destruct (Hb _ _ H4) as (k & ? & ?). exists t2, k; repeat split; auto; congruence.
Qed.

Lemma sub_same s s' : Sub s -> st_subs s' = st_subs s -> st_tasks s' = st_tasks s ->
  (alive (st_loop s') = true -> alive (st_loop s) = true) -> Sub s'.
Proof. intros [V LT ND C] E1 E2 E3. constructor; rewrite ?E1, ?E2; auto. Qed.

Lemma NoDup_m_del {B} k (m : list (N * B)) : NoDup (map fst m) -> NoDup (map fst (m_del k m)).
Proof.
  induction m as [|[k' b] r IH]; simpl; intros H; auto. inversion H; subst.
  destruct (N.eqb k k'); simpl; auto. constructor; auto.
  intros Hin. apply in_map_iff in Hin. destruct Hin as ([k2 b2] & E & Hin). simpl in E; subst k2.
  apply In_m_del in Hin. destruct Hin as [Hin _]. apply H2. apply in_map_iff. exists (k', b2); auto.
Qed.

Lemma sub_step s e : Sub s -> Sub (next s e).
Proof.
  intros S0. pose proof S0 as [V LT ND C]. unfold next.
  assert (forall u f, (forall y, stopped y = true -> stopped (f y) = true) ->
     Sub (with_tasks (upd u (set_stat f) (st_tasks s)) s)) as KU.
  { intros u f Hf. apply sub_tstep; auto; [apply upd_length|].
    intros t tk' H. rewrite nth_upd in H. destruct (Nat.eqb u t).
    - destruct (nth_error (st_tasks s) t) as [k|]; simpl in H; inversion H; exists k; simpl; auto.
    - exists tk'; auto. }
  assert (forall l, alive l = false -> forall s1, st_tasks s1 = st_tasks s -> Sub (close_loop l s1)) as KC.
  { intros l Hl s1 E. constructor; simpl; try discriminate.
    - constructor.
    - congruence. }
  destruct e as [| | |c m|c|c|c| | |u|u v|u|u]; simpl.
  - destruct (Nat.eqb (st_proxies s) 0); simpl; auto; eapply sub_same; eauto.
  - destruct (Nat.eqb (st_proxies s) 0); simpl; auto; eapply sub_same; eauto.
  - eapply sub_same; eauto.
  - destruct (nth_error (st_conns s) c) as [cn|]; simpl; auto. destruct (cn_tx cn); simpl; auto.
    destruct (alive (st_loop s)) eqn:E; simpl; auto. eapply sub_same; eauto.
  - eapply sub_same; eauto.
  - eapply sub_same; eauto.
  - destruct (nth_error (st_conns s) c) as [cn|]; simpl; auto. destruct (cn_rx cn); simpl; auto.
    destruct (nth_error (cn_out cn) (cn_read cn)) as [[? ?]|]; simpl; auto. eapply sub_same; eauto.
  - destruct (st_loop s) eqn:El; simpl; auto. specialize (C eq_refl). destruct (st_queue s) as [|[c m] ql]; simpl.
    + destruct (no_senders s); simpl; auto.
    + destruct m as [[id v|id]|err]; simpl.
      * destruct (from_value A v) as [call|er]; simpl; [|eapply sub_same; eauto; simpl; rewrite El; auto].
        destruct (is_stream A call); simpl; [|eapply sub_same; eauto; simpl; rewrite El; auto].
        destruct (open_stream A (st_app s) call); simpl; [|apply KC; auto].
        constructor; simpl.
        -- intros i t H. destruct (N.eqb_spec i id) as [->|Hne].
           ++ inversion H; subst. rewrite nth_app_new. eauto.
           ++ rewrite m_get_del_other in H by auto. destruct (V _ _ H) as (tk & H1 & H2).
              exists tk. rewrite nth_error_app1 by (eapply nth_some_lt; eauto). auto.
        -- intros i t H t' tk' Hlt Ht'. apply nth_app_inv in Ht'. destruct (N.eqb_spec i id) as [->|Hne].
           ++ inversion H; subst. destruct Ht' as [[Hl Ht']|[-> ->]]; lia.
           ++ rewrite m_get_del_other in H by auto. destruct Ht' as [[Hl Ht']|[-> ->]]; [eauto|simpl; congruence].
        -- constructor; [|apply NoDup_m_del; auto]. intros Hin. apply in_map_iff in Hin.
           destruct Hin as ([k b] & E & Hin). simpl in E; subst. apply In_m_del in Hin. simpl in Hin; tauto.
        -- intros _ t tk H. apply nth_app_inv in H. destruct H as [[Hl H]|[-> ->]].
           ++ destruct (C t tk H) as [H1|[(t2 & tk2 & H1 & H2 & H3)|H1]]; auto.
              ** destruct (N.eqb_spec (tk_id tk) id) as [Eid|Hne].
                 --- right; left. exists (length (st_tasks s)). eexists; split; auto. rewrite nth_app_new; split; [reflexivity|auto].
                 --- left. rewrite m_get_del_other by auto. auto.
              ** right; left; exists t2, tk2; repeat split; auto.
                 rewrite nth_error_app1 by (eapply nth_some_lt; eauto). auto.
           ++ left; simpl. rewrite N.eqb_refl; auto.
      * unfold cancel; simpl. destruct (m_get id (st_subs s)) as [u|] eqn:Eu; simpl.
        -- assert (Sub (with_tasks (abort_task u (st_tasks s)) s)) as [V1 LT1 ND1 C1].
           { apply KU. intros []; simpl; auto. }
           simpl in *. rewrite El in C1. specialize (C1 eq_refl).
           constructor; simpl.
           ++ intros i t H. rewrite m_get_del in H. destruct (N.eqb id i); [discriminate|]. auto.
           ++ intros i t H. rewrite m_get_del in H. destruct (N.eqb id i); [discriminate|]. eauto.
           ++ apply NoDup_m_del; auto.
           ++ intros _ t tk H. destruct (C1 t tk H) as [H1|H1]; auto.
              rewrite m_get_del. destruct (N.eqb_spec id (tk_id tk)) as [->|]; auto.
              right; right. rewrite Eu in H1; inversion H1; subst u.
              unfold abort_task in H; rewrite nth_upd_same in H.
              destruct (nth_error (st_tasks s) t) as [k|]; simpl in H; inversion H. simpl. destruct (tk_stat k); auto.
        -- eapply sub_same; eauto; simpl; rewrite El; auto.
      * eapply sub_same; eauto; simpl; rewrite El; auto.
  - destruct (st_loop s) as [|c id call| |] eqn:El; simpl; auto. unfold method_done.
    destruct (run_method A (st_app s) call) as [[? ?]|]; simpl; [|apply KC; auto].
    destruct (rx_alive s c); simpl; [|apply KC; auto]. eapply sub_same; eauto; simpl; rewrite El; auto.
  - apply KU. intros []; simpl; auto.
  - destruct (nth_error (st_tasks s) u) as [tu|] eqn:Eu; simpl; auto.
    destruct (polling (tk_stat tu)); simpl; auto.
    destruct (rx_alive s (tk_conn tu)); simpl.
    + set (s1 := push s (tk_conn tu) (SrcTask u) (Response_stream (tk_id tu) v)).
      assert (Sub s1) as S1 by (eapply sub_same; eauto).
      apply (sub_tstep s1); auto; [apply upd_length|].
      intros t tk' H. rewrite nth_upd in H. simpl in H. simpl. destruct (Nat.eqb u t); [|exists tk'; auto].
      destruct (nth_error (st_tasks s) t) as [k|]; simpl in H; inversion H; exists k; simpl; auto.
    + apply (sub_tstep s); auto; [apply upd_length|].
      intros t tk' H. rewrite nth_upd in H. simpl in H. simpl. destruct (Nat.eqb u t); [|exists tk'; auto].
      destruct (nth_error (st_tasks s) t) as [k|]; simpl in H; inversion H; exists k; simpl; auto.
  - apply KU. intros []; simpl; auto.
  - apply KU. intros []; simpl; auto.
Qed.

Lemma sub_run es : forall s, Sub s -> Sub (run s es).
Proof. induction es as [|e es IH]; simpl; intros s H; auto. apply IH, sub_step, H. Qed.

Lemma sub_reachable a s : reachable a s -> Sub s.
Proof. intros [es ->]. apply sub_run, sub_init. Qed.

(** ** C31 *)


Lemma cancel_step s c id : at_cancel s c id ->
  st_conns (next s EvRecv) = st_conns s /\ st_app (next s EvRecv) = st_app s /\ st_loop (next s EvRecv) = LIdle /\
  forall t, nth_error (st_tasks (next s EvRecv)) t =
    match m_get id (st_subs s) with
    | Some u => if Nat.eqb u t then option_map (set_stat abort_stat) (nth_error (st_tasks s) t) else nth_error (st_tasks s) t
    | None => nth_error (st_tasks s) t
    end.
Proof.
  intros [H (q & Hq)]. unfold next; simpl. rewrite H, Hq; simpl. unfold cancel; simpl.
  destruct (m_get id (st_subs s)); simpl; rewrite ?H; repeat split; auto.
  intros t. apply nth_upd.
Qed.

Lemma cancel_stops a s c id t tk :
  reachable a s -> at_cancel s c id ->
  nth_error (st_tasks s) t = Some tk -> tk_id tk = id ->
  (forall t' tk', t < t' -> nth_error (st_tasks s) t' = Some tk' -> tk_id tk' <> id) ->
  exists x, stat_of (next s EvRecv) t = Some x /\ stopped x = true /\ (x = TAborting -> tk_stat tk = TPolling \/ tk_stat tk = TAborting).
Proof.
  intros R Hc Ht Hid Hlast. pose proof (sub_reachable _ _ R) as [V LT ND C].
  destruct (cancel_step _ _ _ Hc) as (_ & _ & _ & E). destruct Hc as [Hl _].
  rewrite Hl in C. specialize (C eq_refl _ _ Ht). rewrite Hid in C.
  unfold stat_of; rewrite (E t), Ht. destruct C as [C|[(t' & tk' & ? & ? & ?)|C]].
  - rewrite C, Nat.eqb_refl; simpl. eexists; split; [reflexivity|]. destruct (tk_stat tk); simpl; split; auto; discriminate.
  - exfalso; eapply Hlast; eauto.
  - destruct (m_get id (st_subs s)) as [u|]; [destruct (Nat.eqb u t)|]; simpl; eexists; (split; [reflexivity|]);
    destruct (tk_stat tk); simpl in *; try discriminate; split; auto; discriminate.
Qed.

Lemma cancel_never_polled a s c id t tk es :
  reachable a s -> at_cancel s c id ->
  nth_error (st_tasks s) t = Some tk -> tk_id tk = id ->
  (forall t' tk', t < t' -> nth_error (st_tasks s) t' = Some tk' -> tk_id tk' <> id) ->
  (exists x, stat_of (run (next s EvRecv) es) t = Some x /\ stopped x = true) /\
  (polling (tk_stat tk) = false \/ In (EvYield t) es ->
     (exists x, stat_of (run (next s EvRecv) es) t = Some x /\ frozen x = true) /\
     forall es' c', from_task t (received (run (run (next s EvRecv) es) es') c') =
                    from_task t (received (run (next s EvRecv) es) c')).
Proof.
  intros R Hc Ht Hid Hlast.
  destruct (cancel_stops _ _ _ _ _ _ R Hc Ht Hid Hlast) as (x & Hx & Hs & Hp).
  split; [eapply stopped_run; eauto|].
  intros Hd.
  assert (exists y, stat_of (run (next s EvRecv) es) t = Some y /\ frozen y = true) as (y & Hy & Hf).
  { destruct Hd as [Hd|Hd].
    - exists x; split.
      + apply frozen_run; auto. destruct x; simpl in *; try discriminate; auto.
        destruct (Hp eq_refl) as [E|E]; rewrite E in Hd; discriminate.
      + destruct x; simpl in *; try discriminate; auto.
        destruct (Hp eq_refl) as [E|E]; rewrite E in Hd; discriminate.
    - apply in_split in Hd. destruct Hd as (e1 & e2 & ->).
      unfold run; rewrite fold_left_app; simpl. fold (run (next s EvRecv) e1).
      destruct (stopped_run e1 _ _ _ Hx Hs) as (z & Hz & Hzs).
      destruct (stopped_yield _ _ _ Hz Hzs) as (w & Hw & Hwf).
      exists w; split; auto. apply frozen_run; auto. }
  split; [eauto|]. intros es' c'. eapply frozen_silent; eauto.
Qed.

Lemma cancel_frame a s c id :
  reachable a s -> at_cancel s c id ->
  st_conns (next s EvRecv) = st_conns s /\ st_app (next s EvRecv) = st_app s /\
  forall t tk, nth_error (st_tasks s) t = Some tk ->
    tk_id tk <> id \/ (exists t' tk', t < t' /\ nth_error (st_tasks s) t' = Some tk' /\ tk_id tk' = id) ->
    nth_error (st_tasks (next s EvRecv)) t = Some tk.
Proof.
  intros R Hc. pose proof (sub_reachable _ _ R) as [V LT ND C]. pose proof (cancel_step _ _ _ Hc) as (E1 & E2 & E3 & E4).
  split; auto. split; auto. intros t tk Ht H. rewrite E4, Ht.
  destruct (m_get id (st_subs s)) as [u|] eqn:Eu; auto. destruct (Nat.eqb_spec u t) as [->|]; auto.
  exfalso. destruct (V _ _ Eu) as (k & Hk & Hid). destruct H as [H|(t' & tk' & Hlt & Ht' & Hid')]; [congruence|].
  eapply LT; eauto.
Qed.

(** ** C32 *)

Lemma cancel_unique a s c id t tk :
  reachable a s -> at_cancel s c id ->
  (forall t1 t2 tk1 tk2, nth_error (st_tasks s) t1 = Some tk1 -> nth_error (st_tasks s) t2 = Some tk2 ->
     tk_id tk1 = tk_id tk2 -> t1 = t2) ->
  nth_error (st_tasks s) t = Some tk ->
  (tk_id tk = id -> exists x, stat_of (next s EvRecv) t = Some x /\ stopped x = true) /\
  (tk_id tk <> id -> nth_error (st_tasks (next s EvRecv)) t = Some tk).
Proof.
  intros R Hc U Ht. split; intros Hid.
  - destruct (cancel_stops a s c id t tk R Hc Ht Hid) as (x & ? & ? & _); [|eauto].
    intros t' tk' Hlt Ht' E. assert (t' = t) by (eapply U; eauto; congruence). lia.
  - destruct (cancel_frame a s c id R Hc) as (_ & _ & F). apply F; auto.
Qed.

(** Registered under its own id. *)
Definition registered s t : Prop := exists id, m_get id (st_subs s) = Some t.

Lemma unregistered_step s e t tk :
  Sub s -> nth_error (st_tasks s) t = Some tk -> ~ registered s t -> ~ registered (next s e) t.
Proof.
  intros S0 Ht Hn [id Hr]. apply Hn. unfold next in Hr.
  assert (forall s', st_subs s' = st_subs s -> m_get id (st_subs s') = Some t -> registered s t) as K.
  { intros s' E H. exists id; rewrite <- E; auto. }
  destruct e as [| | |c m|c|c|c| | |u|u v|u|u]; simpl in Hr; try (eexists; eassumption).
  - destruct (Nat.eqb (st_proxies s) 0); simpl in Hr; eexists; eauto.
  - destruct (Nat.eqb (st_proxies s) 0); simpl in Hr; eexists; eauto.
  - destruct (nth_error (st_conns s) c) as [cn|]; simpl in Hr; [|eexists; eauto].
    destruct (cn_tx cn); simpl in Hr; [|eexists; eauto]. destruct (alive (st_loop s)); simpl in Hr; eexists; eauto.
  - destruct (nth_error (st_conns s) c) as [cn|]; simpl in Hr; [|eexists; eauto].
    destruct (cn_rx cn); simpl in Hr; [|eexists; eauto].
    destruct (nth_error (cn_out cn) (cn_read cn)) as [[? ?]|]; simpl in Hr; eexists; eauto.
  - destruct (st_loop s); simpl in Hr; try (eexists; eauto; fail). destruct (st_queue s) as [|[c m] ql]; simpl in Hr.
    + destruct (no_senders s); simpl in Hr; [discriminate|eexists; eauto].
    + destruct m as [[i v|i]|err]; simpl in Hr; try (eexists; eauto; fail).
      * destruct (from_value A v) as [call|er]; simpl in Hr; [|eexists; eauto].
        destruct (is_stream A call); simpl in Hr; [|eexists; eauto].
        destruct (open_stream A (st_app s) call); simpl in Hr; [|discriminate].
        destruct (N.eqb_spec id i) as [->|Hne].
        -- inversion Hr; subst t. apply nth_some_lt in Ht; lia.
        -- rewrite m_get_del_other in Hr by auto. eexists; eauto.
      * unfold cancel in Hr; simpl in Hr. destruct (m_get i (st_subs s)); simpl in Hr; [|eexists; eauto].
        rewrite m_get_del in Hr. destruct (N.eqb i id); [discriminate|eexists; eauto].
  - destruct (st_loop s) as [|c i call| |]; simpl in Hr; try (eexists; eauto; fail). unfold method_done in Hr.
    destruct (run_method A (st_app s) call) as [[? ?]|]; simpl in Hr; [|discriminate].
    destruct (rx_alive s c); simpl in Hr; [eexists; eauto|discriminate].
  - destruct (nth_error (st_tasks s) u) as [tu|]; simpl in Hr; [|eexists; eauto].
    destruct (polling (tk_stat tu)); simpl in Hr; [|eexists; eauto].
    destruct (rx_alive s (tk_conn tu)); simpl in Hr; eexists; eauto.
Qed.


Lemma unregistered_stat s e t tk :
  Sub s -> nth_error (st_tasks s) t = Some tk -> ~ registered s t -> unaborted (tk_stat tk) = true ->
  exists tk', nth_error (st_tasks (next s e)) t = Some tk' /\ unaborted (tk_stat tk') = true.
Proof.
  intros S0 Ht Hn Hu. unfold next.
  assert (forall f u, (forall y, unaborted y = true -> unaborted (f y) = true) ->
    exists tk', nth_error (upd u (set_stat f) (st_tasks s)) t = Some tk' /\ unaborted (tk_stat tk') = true) as KU.
  { intros f u Hf. rewrite nth_upd, Ht. destruct (Nat.eqb u t); simpl; eexists; split; try reflexivity; simpl; auto. }
  assert (exists tk', nth_error (drop_subs (st_subs s) (st_tasks s)) t = Some tk' /\ unaborted (tk_stat tk') = true) as KD.
  { pose proof (stat_of_drop (st_subs s) (st_tasks s) t) as E. rewrite Ht in E.
    destruct (existsb (fun p => Nat.eqb (snd p) t) (st_subs s)) eqn:Ex.
    - exfalso. apply existsb_exists in Ex. destruct Ex as ([i u] & Hin & Eu). simpl in Eu. apply Nat.eqb_eq in Eu; subst u.
      apply Hn. exists i. destruct S0 as [_ _ ND _]. clear - Hin ND. induction (st_subs s) as [|[k b] r IH]; [destruct Hin|].
      simpl in *. inversion ND; subst. destruct Hin as [Hin|Hin].
      + inversion Hin; subst. rewrite N.eqb_refl; auto.
      + destruct (N.eqb_spec i k) as [->|]; auto. exfalso; apply H1. apply in_map_iff. exists (k, t); auto.
    - destruct (nth_error (drop_subs (st_subs s) (st_tasks s)) t) as [k|]; simpl in E; inversion E. exists k; split; auto. congruence. }
  destruct e as [| | |c m|c|c|c| | |u|u v|u|u]; simpl; try (exists tk; auto; fail).
  - destruct (Nat.eqb (st_proxies s) 0); simpl; exists tk; auto.
  - destruct (Nat.eqb (st_proxies s) 0); simpl; exists tk; auto.
  - destruct (nth_error (st_conns s) c) as [cn|]; simpl; [|exists tk; auto].
    destruct (cn_tx cn); simpl; [|exists tk; auto]. destruct (alive (st_loop s)); simpl; exists tk; auto.
  - destruct (nth_error (st_conns s) c) as [cn|]; simpl; [|exists tk; auto].
    destruct (cn_rx cn); simpl; [|exists tk; auto].
    destruct (nth_error (cn_out cn) (cn_read cn)) as [[? ?]|]; simpl; exists tk; auto.
  - destruct (st_loop s); simpl; try (exists tk; auto; fail). destruct (st_queue s) as [|[c m] ql]; simpl.
    + destruct (no_senders s); simpl; [apply KD|exists tk; auto].
    + destruct m as [[i v|i]|err]; simpl; try (exists tk; auto; fail).
      * destruct (from_value A v) as [call|er]; simpl; [|exists tk; auto].
        destruct (is_stream A call); simpl; [|exists tk; auto].
        destruct (open_stream A (st_app s) call); simpl; [|apply KD].
        exists tk. rewrite nth_error_app1 by (eapply nth_some_lt; eauto). auto.
      * unfold cancel; simpl. destruct (m_get i (st_subs s)) as [u|] eqn:Eu; simpl; [|exists tk; auto].
        exists tk. unfold abort_task. rewrite nth_upd_other; auto. intros ->. apply Hn. exists i; auto.
  - destruct (st_loop s) as [|c i call| |]; simpl; try (exists tk; auto; fail). unfold method_done.
    destruct (run_method A (st_app s) call) as [[? ?]|]; simpl; [|apply KD].
    destruct (rx_alive s c); simpl; [exists tk; auto|apply KD].
  - apply KU. intros []; simpl; auto.
  - destruct (nth_error (st_tasks s) u) as [tu|]; simpl; [|exists tk; auto].
    destruct (polling (tk_stat tu)); simpl; [|exists tk; auto].
    destruct (rx_alive s (tk_conn tu)); simpl; rewrite nth_upd, Ht; destruct (Nat.eqb u t); simpl; eexists; split; try reflexivity; simpl; auto.
  - apply KU. intros []; simpl; auto; discriminate.
  - apply KU. intros []; simpl; auto.
Qed.

(** A stream whose handle was replaced in the map can never be stopped by the server again,
    neither by a cancel nor by shutdown. *)
Lemma orphan_forever es : forall s t tk,
  Sub s -> nth_error (st_tasks s) t = Some tk -> ~ registered s t -> unaborted (tk_stat tk) = true ->
  exists tk', nth_error (st_tasks (run s es)) t = Some tk' /\ unaborted (tk_stat tk') = true.
Proof.
  induction es as [|e es IH]; intros s t tk S0 Ht Hn Hu; simpl; [eauto|].
  destruct (unregistered_stat s e t tk S0 Ht Hn Hu) as (tk' & H1 & H2).
  apply (IH (next s e) t tk'); auto using sub_step. eapply unregistered_step; eauto.
Qed.

Lemma orphan_reachable a s t tk es :
  reachable a s -> nth_error (st_tasks s) t = Some tk ->
  (exists t' tk', t < t' /\ nth_error (st_tasks s) t' = Some tk' /\ tk_id tk' = tk_id tk) ->
  tk_stat tk = TIdle \/ tk_stat tk = TPolling ->
  exists tk', nth_error (st_tasks (run s es)) t = Some tk' /\ unaborted (tk_stat tk') = true.
Proof.
  intros R Ht (t' & tk' & Hlt & Ht' & Hid) Hst. pose proof (sub_reachable _ _ R) as S0.
  apply (orphan_forever es s t tk S0 Ht).
  - intros [id Hr]. destruct S0 as [V LT _ _]. destruct (V _ _ Hr) as (k & Hk & Hkid).
    apply (LT _ _ Hr _ _ Hlt Ht'). congruence.
  - destruct Hst as [-> | ->]; auto.
Qed.

(** ** C33 *)


Lemma panic_cause s e :
  st_loop s <> LPanicked -> st_loop (next s e) = LPanicked ->
  (e = EvMethodDone /\ exists c id call, st_loop s = LBusy c id call /\
      (rx_alive s c = false \/ run_method A (st_app s) call = None)) \/
  (e = EvRecv /\ exists cm q, st_queue s = cm :: q /\ handler_panics s cm).
Proof.
  intros Hs. unfold next; destruct e as [| | |c m|c|c|c| | |u|u v|u|u]; simpl; try congruence.
  - destruct (Nat.eqb (st_proxies s) 0); simpl; congruence.
  - destruct (Nat.eqb (st_proxies s) 0); simpl; congruence.
  - destruct (nth_error (st_conns s) c) as [cn|]; simpl; [|congruence].
    destruct (cn_tx cn); simpl; [|congruence]. destruct (alive (st_loop s)); simpl; congruence.
  - destruct (nth_error (st_conns s) c) as [cn|]; simpl; [|congruence].
    destruct (cn_rx cn); simpl; [|congruence].
    destruct (nth_error (cn_out cn) (cn_read cn)) as [[? ?]|]; simpl; congruence.
  - destruct (st_loop s) eqn:El; simpl; try congruence. destruct (st_queue s) as [|[c m] ql] eqn:Eq; simpl.
    + destruct (no_senders s); simpl; congruence.
    + intros H. right; split; auto. exists (c, m), ql; split; auto. unfold handler_panics; simpl.
      destruct m as [[i v|i]|err]; simpl in H; try congruence.
      * destruct (from_value A v) as [call|er]; simpl in H; [|congruence].
        destruct (is_stream A call); simpl in H; [|congruence].
        destruct (open_stream A (st_app s) call); simpl in H; [congruence|auto].
      * unfold cancel in H; simpl in H. destruct (m_get i (st_subs s)); simpl in H; congruence.
  - destruct (st_loop s) as [|c i call| |] eqn:El; simpl; try congruence. unfold method_done.
    intros H. left; split; auto. exists c, i, call; split; auto.
    destruct (run_method A (st_app s) call) as [[? ?]|]; auto. destruct (rx_alive s c); simpl in H; [congruence|auto].
  - destruct (nth_error (st_tasks s) u) as [tu|]; simpl; [|congruence].
    destruct (polling (tk_stat tu)); simpl; [|congruence].
    destruct (rx_alive s (tk_conn tu)); simpl; congruence.
Qed.




Definition ord_inv s : Prop := st_loop s <> LPanicked /\
  (forall c, rx_alive s c = false -> quiet s c) /\
  (forall c m, In (c, m) (st_queue s) -> c < length (st_conns s)) /\
  (forall c id call, st_loop s = LBusy c id call -> c < length (st_conns s)).

Lemma rx_alive_upd (f : conn A -> conn A) s c c' : (forall cn, cn_rx (f cn) = cn_rx cn) ->
  rx_alive (with_conns (upd c f (st_conns s)) s) c' = rx_alive s c'.
Proof.
  intros Hf; unfold rx_alive; simpl; rewrite nth_upd. destruct (Nat.eqb c c'); auto.
  destruct (nth_error (st_conns s) c'); simpl; auto.
Qed.

Lemma rx_alive_push s c o r c' : rx_alive (push s c o r) c' = rx_alive s c'.
Proof.
  unfold rx_alive; simpl; rewrite nth_upd. destruct (Nat.eqb c c'); auto.
  destruct (nth_error (st_conns s) c') as [cn|]; simpl; auto. destruct (cn_rx cn) eqn:E; simpl; auto.
Qed.

(** quietness is kept by everything that neither queues, nor starts, nor reopens *)
Lemma quiet_mono s s' c :
  quiet s c ->
  (forall m, In (c, m) (st_queue s') -> In (c, m) (st_queue s)) ->
  (forall id call, st_loop s' = LBusy c id call -> st_loop s = LBusy c id call) ->
  (forall cn', nth_error (st_conns s') c = Some cn' -> exists cn, nth_error (st_conns s) c = Some cn /\ (cn_tx cn = false -> cn_tx cn' = false)) ->
  quiet s' c.
Proof.
  intros (Q1 & Q2 & Q3) H1 H2 H3. split; [|split].
  - intros m Hin; eapply Q1; eauto.
  - intros id call E; eapply Q2; eauto.
  - intros cn' Hc. destruct (H3 _ Hc) as (cn & Hcn & Himp). auto.
Qed.

Lemma conns_upd_tx (f : conn A -> conn A) (cs : list (conn A)) c c' cn' :
  (forall cn, cn_tx cn = false -> cn_tx (f cn) = false) ->
  nth_error (upd c f cs) c' = Some cn' ->
  exists cn, nth_error cs c' = Some cn /\ (cn_tx cn = false -> cn_tx cn' = false).
Proof.
  intros Hf H. apply upd_conn_case in H. destruct H as (cn & H & [->| ->]); exists cn; auto.
Qed.

Lemma ord_step s e : no_panics A -> ord_inv s -> (forall c, e = EvDropRx c -> quiet s c) -> ord_inv (next s e).
Proof.
  intros [NP1 NP2] (O1 & O2 & O3 & O4) Hd.
  assert (st_loop (next s e) <> LPanicked) as G1.
  { intros Hp. destruct (panic_cause s e O1 Hp) as [(-> & c & id & call & El & [H|H])|(-> & cm & q & Eq & H)].
    - destruct (O2 c H) as (_ & Q & _). eapply Q; eauto.
    - eapply NP1; eauto.
    - unfold handler_panics in H. destruct (snd cm) as [[i v|i]|err]; auto.
      destruct (from_value A v); auto. destruct H as [_ H]. eapply NP2; eauto. }
  assert (forall s', st_loop s' = st_loop s -> st_queue s' = st_queue s -> st_loop s' <> LPanicked ->
      length (st_conns s) <= length (st_conns s') ->
      (forall c, rx_alive s' c = false -> (rx_alive s c = false \/ quiet s c) /\
         forall cn', nth_error (st_conns s') c = Some cn' -> exists cn, nth_error (st_conns s) c = Some cn /\ (cn_tx cn = false -> cn_tx cn' = false)) ->
      ord_inv s') as K.
  { intros s' E1 E2 E3 E4 E5. split; [auto|]. split; [|split].
    - intros c Hc. destruct (E5 c Hc) as [E6 E7]. assert (quiet s c) as Q by (destruct E6; auto).
      eapply quiet_mono; eauto; [rewrite E2; auto|rewrite E1; auto].
    - intros c m; rewrite E2; intros; specialize (O3 c m H); lia.
    - intros c id call; rewrite E1; intros; specialize (O4 c id call H); lia. }
  assert (forall s', st_loop s' = st_loop s -> st_queue s' = st_queue s -> st_loop s' <> LPanicked -> st_conns s' = st_conns s -> ord_inv s') as K0.
  { intros s' E1 E2 E3 E4. apply K; auto; [rewrite E4; auto|].
    intros c Hc. unfold rx_alive in *; rewrite E4 in *. split; auto. intros cn' H; exists cn'; auto. }
  assert (ord_inv s) as OS by (split; [|split; [|split]]; auto).
  clear OS.
  unfold next in *; destruct e as [| | |c m|c|c|c| | |u|u v|u|u]; simpl in *.
  - destruct (Nat.eqb (st_proxies s) 0); simpl in *; [apply K0; auto|].
    split; [auto|]. split; [|split]; simpl; rewrite ?app_length; simpl.
    + intros c Hc. unfold rx_alive in Hc; simpl in Hc.
      destruct (Nat.lt_trichotomy c (length (st_conns s))) as [Hl|[->|Hl]].
      * rewrite nth_error_app1 in Hc by auto. eapply quiet_mono; [apply (O2 c Hc)|..]; simpl; auto.
        intros cn' H. rewrite nth_error_app1 in H by auto. exists cn'; auto.
      * rewrite nth_app_new in Hc; discriminate.
      * assert (rx_alive s c = false) as Hc'.
        { unfold rx_alive. rewrite (proj2 (nth_error_None (st_conns s) c)) by lia. auto. }
        eapply quiet_mono; [apply (O2 c Hc')|..]; simpl; auto.
        intros cn' H. apply nth_some_lt in H. rewrite app_length in H; simpl in H; lia.
    + intros c m H; specialize (O3 c m H); lia.
    + intros c id call H; specialize (O4 c id call H); lia.
  - destruct (Nat.eqb (st_proxies s) 0); simpl in *; apply K0; auto.
  - apply K0; auto.
  - destruct (nth_error (st_conns s) c) as [cn|] eqn:Ec; simpl in *; [|apply K0; auto].
    destruct (cn_tx cn) eqn:Et; simpl in *; [|apply K0; auto]. destruct (alive (st_loop s)); simpl in *; [|apply K0; auto].
    split; [auto|]. split; [|split]; simpl; auto.
    + intros c' Hc'. pose proof (O2 c' Hc') as (Q1 & Q2 & Q3). split; [|split]; simpl; auto.
      intros m' Hin. apply in_app_or in Hin. destruct Hin as [Hin|[Hin|[]]]; [eapply Q1; eauto|].
      inversion Hin; subst. rewrite (Q3 _ Ec) in Et; discriminate.
    + intros c' m' Hin. apply in_app_or in Hin. destruct Hin as [Hin|[Hin|[]]]; [eauto|].
      inversion Hin; subst. eapply nth_some_lt; eauto.
  - apply K; auto; simpl; [rewrite upd_length; auto|].
    intros c' Hc'. split; [|intros cn' H; refine (conns_upd_tx _ _ _ _ _ _ H); auto].
    unfold rx_alive in Hc'; simpl in Hc'. rewrite nth_upd in Hc'.
    destruct (Nat.eqb_spec c c') as [->|]; auto.
  - apply K; auto; simpl; [rewrite upd_length; auto|].
    intros c' Hc'. rewrite rx_alive_upd in Hc' by auto. split; auto. intros cn' H; refine (conns_upd_tx _ _ _ _ _ _ H); auto.
  - destruct (nth_error (st_conns s) c) as [cn|]; simpl in *; [|apply K0; auto].
    destruct (cn_rx cn); simpl in *; [|apply K0; auto].
    destruct (nth_error (cn_out cn) (cn_read cn)) as [[? ?]|]; simpl in *; [|apply K0; auto].
    apply K; auto; simpl; [rewrite upd_length; auto|].
    intros c' Hc'. rewrite rx_alive_upd in Hc' by auto. split; auto. intros cn' H; refine (conns_upd_tx _ _ _ _ _ _ H); auto.
  - destruct (st_loop s) eqn:El; simpl in *; try (apply K0; simpl; auto; congruence).
    destruct (st_queue s) as [|[c m] ql] eqn:Eq; simpl in *.
    + destruct (no_senders s); simpl in *; [|apply K0; auto; congruence].
      split; [auto|]. split; [|split]; simpl; try discriminate; try tauto.
      intros c Hc. destruct (O2 c Hc) as (Q1 & Q2 & Q3). split; [|split]; simpl; auto; discriminate.
    + (* the state after taking the message *)
      assert (forall s', st_queue s' = ql -> st_loop s' <> LPanicked ->
         length (st_conns s') = length (st_conns s) ->
         (forall c', rx_alive s' c' = rx_alive s c') ->
         (forall c' id call, st_loop s' = LBusy c' id call -> c' = c) ->
         (forall c' cn', nth_error (st_conns s') c' = Some cn' -> exists cn, nth_error (st_conns s) c' = Some cn /\ (cn_tx cn = false -> cn_tx cn' = false)) ->
         ord_inv s') as K2.
      { intros s' E1 E2 E3 E4 E5 E6. split; [auto|]. split; [|split].
        - intros c' Hc'. rewrite E4 in Hc'. destruct (O2 c' Hc') as (Q1 & Q2 & Q3). split; [|split].
          + rewrite E1. intros m' Hin. apply (Q1 m'). rewrite Eq. right; exact Hin.
          + intros id call Eb. apply E5 in Eb. subst c'. apply (Q1 m). rewrite Eq. left; reflexivity.
          + intros cn' H. destruct (E6 _ _ H) as (cn & Hcn & Himp). auto.
        - rewrite E1, E3. intros c' m' Hin. apply (O3 c' m'). right; exact Hin.
        - rewrite E3. intros c' id call Eb. apply E5 in Eb. subst c'. apply (O3 c m). left; reflexivity. }
      assert (forall s', st_queue s' = ql -> st_loop s' = LIdle -> st_conns s' = st_conns s -> ord_inv s') as K3.
      { intros s' E1 E2 E3. apply K2; auto; rewrite ?E2, ?E3; try discriminate; auto.
        - intros c'; unfold rx_alive; rewrite E3; auto.
        - intros c' cn' H; exists cn'; auto. }
      assert (forall r, ord_inv (push (with_queue ql s) c SrcLoop r)) as K4.
      { intros r. apply K2; simpl; rewrite ?El; try discriminate; auto.
        - apply upd_length.
        - intros c'. apply (rx_alive_push (with_queue ql s)).
        - intros c' cn' H. refine (conns_upd_tx _ _ _ _ _ _ H). intros cn; destruct (cn_rx cn); simpl; auto. }
      destruct m as [[i v|i]|err]; simpl in *; auto.
      * destruct (from_value A v) as [call|er]; simpl in *; auto.
        destruct (is_stream A call); simpl in *.
        -- destruct (open_stream A (st_app s) call) eqn:Eo; simpl in *; [|exfalso; eapply NP2; eauto].
           apply K3; auto.
        -- apply K2; simpl; auto.
           ++ intros c' id' call' E; inversion E; auto.
           ++ intros c' cn' H; exists cn'; auto.
      * unfold cancel in *; simpl in *. destruct (m_get i (st_subs s)); simpl in *; apply K3; auto.
  - destruct (st_loop s) as [|c i call| |] eqn:El; simpl in *; try (apply K0; simpl; auto; congruence).
    unfold method_done in *. destruct (run_method A (st_app s) call) as [[a' r]|]; simpl in *; [|congruence].
    destruct (rx_alive s c) eqn:Er; simpl in *; [|congruence].
    split; [discriminate|]. split; [|split]; simpl; rewrite ?upd_length; auto; try discriminate.
    intros c' Hc'. change (rx_alive (push s c SrcLoop (Response_method i r)) c' = false) in Hc'.
    rewrite rx_alive_push in Hc'. eapply quiet_mono; [apply (O2 c' Hc')|..]; simpl; auto; try discriminate.
    intros cn' H. refine (conns_upd_tx _ _ _ _ _ _ H). intros cn; destruct (cn_rx cn); simpl; auto.
  - apply K0; auto.
  - destruct (nth_error (st_tasks s) u) as [tu|]; simpl in *; [|apply K0; auto].
    destruct (polling (tk_stat tu)); simpl in *; [|apply K0; auto].
    destruct (rx_alive s (tk_conn tu)) eqn:Er; simpl in *; [|apply K0; auto].
    apply K; auto; simpl; [rewrite upd_length; auto|].
    intros c' Hc'. change (rx_alive (push s (tk_conn tu) (SrcTask u) (Response_stream (tk_id tu) v)) c' = false) in Hc'.
    rewrite rx_alive_push in Hc'. split; auto.
    intros cn' H. refine (conns_upd_tx _ _ _ _ _ _ H). intros cn; destruct (cn_rx cn); simpl; auto.
  - apply K0; auto.
  - apply K0; auto.
Qed.

Lemma orderly_never_dies es : no_panics A -> forall s, ord_inv s -> orderly s es -> ord_inv (run s es).
Proof.
  intros NP. induction es as [|e es IH]; simpl; intros s O H; auto.
  destruct H as [H1 H2]. apply IH; auto. apply ord_step; auto.
Qed.

Lemma ord_init a : ord_inv (init a).
Proof.
  split; [discriminate|]. split; [|split].
  - intros c _. split; [|split]; simpl; auto; try discriminate. intros cn H. destruct c; discriminate.
  - intros c m [].
  - discriminate.
Qed.

(** ** C34 *)


Lemma bad_input_isolated s c m q r :
  st_loop s = LIdle -> st_queue s = (c, m) :: q -> bad_input m r ->
  let s' := next s EvRecv in
  st_app s' = st_app s /\ st_subs s' = st_subs s /\ st_tasks s' = st_tasks s /\ st_loop s' = LIdle /\
  st_queue s' = q /\
  (forall c', received s' c' = received s c' ++ (if Nat.eqb c c' && rx_alive s c' then [(SrcLoop, r)] else [])) /\
  (forall c', rx_alive s' c' = rx_alive s c').
Proof.
  intros Hl Hq Hb s'. assert (s' = push (with_queue q s) c SrcLoop r) as ->.
  { unfold s', next; simpl. rewrite Hl, Hq; simpl. unfold bad_input in Hb.
    destruct m as [[id v|id]|err]; simpl.
    - destruct Hb as (e & He & ->). rewrite He; auto.
    - destruct Hb.
    - subst; auto. }
  repeat split; simpl; auto.
  - intros c'. apply (received_push (with_queue q s)).
  - intros c'. apply (rx_alive_push (with_queue q s)).
Qed.

(** ** C35 *)

Lemma dead_next s e : alive (st_loop s) = false -> st_loop (next s e) = st_loop s.
Proof.
  intros H. unfold next; destruct e as [| | |c m|c|c|c| | |u|u v|u|u]; simpl; auto.
  - destruct (Nat.eqb (st_proxies s) 0); simpl; auto.
  - destruct (Nat.eqb (st_proxies s) 0); simpl; auto.
  - destruct (nth_error (st_conns s) c) as [cn|]; simpl; auto.
    destruct (cn_tx cn); simpl; auto. destruct (alive (st_loop s)); simpl; auto.
  - destruct (nth_error (st_conns s) c) as [cn|]; simpl; auto.
    destruct (cn_rx cn); simpl; auto.
    destruct (nth_error (cn_out cn) (cn_read cn)) as [[? ?]|]; simpl; auto.
  - destruct (st_loop s) eqn:El; simpl in *; try discriminate; auto.
  - destruct (st_loop s) eqn:El; simpl in *; try discriminate; auto.
  - destruct (nth_error (st_tasks s) u) as [tu|]; simpl; auto.
    destruct (polling (tk_stat tu)); simpl; auto.
    destruct (rx_alive s (tk_conn tu)); simpl; auto.
Qed.

Lemma dead_run es : forall s, alive (st_loop s) = false -> alive (st_loop (run s es)) = false.
Proof.
  induction es as [|e es IH]; simpl; intros s H; auto. apply IH. rewrite dead_next; auto.
Qed.

Lemma dying_closes s e : alive (st_loop s) = true -> alive (st_loop (next s e)) = false ->
  exists l, next s e = close_loop l s \/ (exists q, next s e = close_loop l (with_queue q s)).
Proof.
  intros Hs. unfold next; destruct e as [| | |c m|c|c|c| | |u|u v|u|u]; simpl; try congruence.
  - destruct (Nat.eqb (st_proxies s) 0); simpl; congruence.
  - destruct (Nat.eqb (st_proxies s) 0); simpl; congruence.
  - destruct (nth_error (st_conns s) c) as [cn|]; simpl; [|congruence].
    destruct (cn_tx cn); simpl; [|congruence]. rewrite Hs; simpl; congruence.
  - destruct (nth_error (st_conns s) c) as [cn|]; simpl; [|congruence].
    destruct (cn_rx cn); simpl; [|congruence].
    destruct (nth_error (cn_out cn) (cn_read cn)) as [[? ?]|]; simpl; congruence.
  - destruct (st_loop s) eqn:El; simpl; try discriminate; try (rewrite ?El; simpl; congruence).
    destruct (st_queue s) as [|[c m] ql] eqn:Eq; simpl.
    + destruct (no_senders s); simpl; [exists LEnded; auto|rewrite El; simpl; congruence].
    + destruct m as [[i v|i]|err]; simpl; try (rewrite El; simpl; congruence).
      * destruct (from_value A v) as [call|er]; simpl; [|rewrite El; simpl; congruence].
        destruct (is_stream A call); simpl; [|congruence].
        destruct (open_stream A (st_app s) call); simpl; [rewrite El; simpl; congruence|intros _; exists LPanicked; right; exists ql; reflexivity].
      * unfold cancel; simpl. destruct (m_get i (st_subs s)); simpl; rewrite El; simpl; congruence.
  - destruct (st_loop s) as [|c i call| |] eqn:El; simpl; try discriminate; try (rewrite ?El; simpl; congruence). unfold method_done.
    destruct (run_method A (st_app s) call) as [[? ?]|]; simpl; [|exists LPanicked; auto].
    destruct (rx_alive s c); simpl; [congruence|exists LPanicked; auto].
  - destruct (nth_error (st_tasks s) u) as [tu|]; simpl; [|congruence].
    destruct (polling (tk_stat tu)); simpl; [|congruence].
    destruct (rx_alive s (tk_conn tu)); simpl; congruence.
Qed.

Lemma shutdown_aborts s e id t es :
  alive (st_loop s) = true -> alive (st_loop (next s e)) = false ->
  Sub s -> m_get id (st_subs s) = Some t ->
  exists x, stat_of (run (next s e) es) t = Some x /\ stopped x = true.
Proof.
  intros H1 H2 S0 Hg.
  assert (exists x, stat_of (next s e) t = Some x /\ stopped x = true) as (x & Hx & Hs).
  { assert (exists x, option_map (@tk_stat A) (nth_error (drop_subs (st_subs s) (st_tasks s)) t) = Some x /\ stopped x = true) as K.
    { rewrite stat_of_drop. destruct (S_valid _ S0 _ _ Hg) as (tk & Ht & _). rewrite Ht.
      assert (existsb (fun p => Nat.eqb (snd p) t) (st_subs s) = true) as ->.
      { apply existsb_exists. exists (id, t); split; [apply m_get_In; auto|apply Nat.eqb_refl]. }
      simpl. eexists; split; [reflexivity|]. destruct (tk_stat tk); auto. }
    destruct (dying_closes s e H1 H2) as (l & [E|[q E]]); rewrite E; exact K. }
  eapply stopped_run; eauto.
Qed.

Lemma send_after_death es s c m cn :
  alive (st_loop s) = false -> nth_error (st_conns (run s es)) c = Some cn -> cn_tx cn = true ->
  step (run s es) (EvSend c m) = (run s es, OSent false).
Proof.
  intros H Hc Ht. simpl. rewrite Hc, Ht, (dead_run es s H). reflexivity.
Qed.

(** ** C36 *)


Lemma no_cancels_app (l1 l2 : list (nat * msg A)) : no_cancels (l1 ++ l2) <-> no_cancels l1 /\ no_cancels l2.
Proof.
  induction l1 as [|[c [[?|?]|?]] r IH]; simpl; tauto.
Qed.

Lemma no_cancel_covers (l : list (nat * msg A)) : forall (q q' : seqst A), seq_run q l = Some q' -> no_cancels l ->
  (forall c id, In (c, id) (q_starts q) -> q_cancel q id <> None) ->
  (forall c id, In (c, id) (q_starts q') -> q_cancel q' id <> None).
Proof.
  induction l as [|[c0 m] l IH]; cbn [seq_run]; intros q q' H Hnc H0.
  - inversion H; subst; auto.
  - destruct (seq_step q (c0, m)) as [q1|] eqn:E; [|discriminate].
    apply (IH q1 q' H); [destruct m as [[?|?]|?]; simpl in Hnc; tauto|].
    destruct m as [[id v|id]|err]; simpl in E, Hnc.
    + destruct (from_value A v) as [call|er]; [|inversion E; auto].
      destruct (is_stream A call).
      * destruct (open_stream A (q_app q) call); inversion E; simpl.
        intros c i Hin. destruct (N.eqb_spec id i); [discriminate|].
        apply in_app_or in Hin. destruct Hin as [Hin|[Hin|[]]]; [eauto|]. inversion Hin; congruence.
      * destruct (run_method A (q_app q) call) as [[? [?|?]]|]; inversion E; auto.
    + destruct Hnc.
    + inversion E; auto.
Qed.

(** Without cancels the map has one entry per distinct stream id ever started, running or not. *)
Lemma map_never_shrinks a es t tk :
  let s := run (init a) es in
  alive (st_loop s) = true -> @no_cancels A (st_sent s) ->
  nth_error (st_tasks s) t = Some tk -> In (tk_id tk) (map fst (st_subs s)).
Proof.
  intros s Hal Hnc Ht. destruct (inv_run a es) as (done & q & I). fold s in I.
  destruct (I_sent _ _ _ _ I) as (rest & Hs & _). rewrite Hs in Hnc. apply no_cancels_app in Hnc.
  assert (q_cancel q (tk_id tk) <> None) as K.
  { apply (no_cancel_covers done (seq_init a) q (I_run _ _ _ _ I) (proj1 Hnc)) with (c := tk_conn tk); [intros ? ? []|].
    rewrite <- (I_starts _ _ _ _ I). apply in_map_iff. exists tk; split; auto. eapply nth_error_In; eauto. }
  rewrite <- (I_subs _ _ _ _ I Hal) in K. destruct (m_get (tk_id tk) (st_subs s)) as [u|] eqn:E; [|congruence].
  apply m_get_In in E. apply in_map_iff. exists (tk_id tk, u); auto.
Qed.

(** ** C37 *)


Lemma progress n : forall s,
  no_panics A -> st_loop s = LIdle -> length (st_queue s) = n ->
  (forall c m, In (c, m) (st_queue s) -> rx_alive s c = true) ->
  let s' := run s (drain n) in
  st_queue s' = [] /\ st_loop s' = LIdle /\ st_sent s' = st_sent s /\ (forall c, rx_alive s' c = rx_alive s c).
Proof.
  induction n as [|n IH]; intros s NP Hl Hn Hrx; simpl.
  - destruct (st_queue s) eqn:E; [auto|discriminate].
  - destruct (st_queue s) as [|[c m] q] eqn:Eq; [discriminate|].
    set (s1 := next (next s EvRecv) EvMethodDone).
    assert (st_loop s1 = LIdle /\ st_queue s1 = q /\ st_sent s1 = st_sent s /\ (forall c', rx_alive s1 c' = rx_alive s c')) as (H1 & H2 & H3 & H4).
    { pose proof NP as [NP1 NP2]. assert (rx_alive s c = true) as Hc by (eapply Hrx; simpl; eauto).
      unfold s1, next; simpl. rewrite Hl, Eq; simpl.
      assert (forall r, (forall c', rx_alive (push (with_queue q s) c SrcLoop r) c' = rx_alive s c')) as KP
        by (intros r c'; apply (rx_alive_push (with_queue q s))).
      destruct m as [[id v|id]|err]; simpl.
      - destruct (from_value A v) as [call|er]; simpl.
        + destruct (is_stream A call); simpl.
          * destruct (open_stream A (st_app s) call) eqn:Eo; [|exfalso; eapply NP2; eauto].
            simpl. rewrite Hl; simpl. rewrite Hl. repeat split; auto.
          * unfold method_done; simpl. destruct (run_method A (st_app s) call) as [[a' r]|] eqn:Er; [|exfalso; eapply NP1; eauto].
            change (rx_alive (with_loop (LBusy c id call) (with_queue q s)) c) with (rx_alive s c). rewrite Hc. simpl.
            repeat split; auto. intros c'. apply (rx_alive_push (with_queue q s)).
        + rewrite ?Hl; simpl; rewrite ?Hl; repeat split; auto; try apply KP.
      - unfold cancel; simpl. destruct (m_get id (st_subs s)); simpl; rewrite ?Hl; simpl; rewrite ?Hl; repeat split; auto.
      - rewrite ?Hl; simpl; rewrite ?Hl; repeat split; auto; try apply KP. }
    destruct (IH s1) as (G1 & G2 & G3 & G4); auto.
    + rewrite H2; simpl in Hn; lia.
    + intros c' m' Hin. rewrite H4. eapply Hrx. simpl; rewrite H2 in Hin; eauto.
    + fold s1. repeat split; auto; [congruence|]. intros c'; rewrite G4; auto.
Qed.

Lemma run_app s es1 es2 : run s (es1 ++ es2) = run (run s es1) es2.
Proof. unfold run; apply fold_left_app. Qed.

Lemma progress_answers a es :
  let s := run (init a) es in
  no_panics A -> st_loop s = LIdle ->
  (forall c m, In (c, m) (st_queue s) -> rx_alive s c = true) ->
  let s' := run s (drain (length (st_queue s))) in
  st_queue s' = [] /\ st_loop s' = LIdle /\ st_sent s' = st_sent s /\
  exists q, seq_run (seq_init a) (st_sent s) = Some q /\
    forall c, rx_alive s c = true -> from_loop (received s' c) = outs_to c (q_outs q).
Proof.
  intros s NP Hl Hrx s'. destruct (progress _ s NP Hl eq_refl Hrx) as (H1 & H2 & H3 & H4). fold s' in H1, H2, H3, H4.
  repeat split; auto. unfold s', s in *. rewrite <- run_app in *.
  destruct (refines a (es ++ drain (length (st_queue (run (init a) es))))) as (done & rest & q & E1 & E2 & E3 & _ & _ & _ & E4).
  unfold pending_of in E2. rewrite H2, H1 in E2. subst rest. rewrite app_nil_r in E1.
  exists q. split; [rewrite <- H3, E1; auto|]. intros c Hc. apply E4. rewrite H4; auto.
Qed.

(** ** C38 *)

Lemma rx_dead_step s e c : c < length (st_conns s) -> rx_alive s c = false ->
  rx_alive (next s e) c = false /\ c < length (st_conns (next s e)).
Proof.
  intros Hc H. unfold next.
  assert (forall s', length (st_conns s') = length (st_conns s) -> rx_alive s' c = rx_alive s c ->
     rx_alive s' c = false /\ c < length (st_conns s')) as K by (intros; split; congruence || lia).
  destruct e as [| | |c0 m|c0|c0|c0| | |u|u v|u|u]; simpl.
  - destruct (Nat.eqb (st_proxies s) 0); simpl; auto. rewrite app_length; simpl; split; [|lia].
    unfold rx_alive in *; simpl. rewrite nth_error_app1; auto.
  - destruct (Nat.eqb (st_proxies s) 0); simpl; auto.
  - auto.
  - destruct (nth_error (st_conns s) c0) as [cn|]; simpl; auto.
    destruct (cn_tx cn); simpl; auto. destruct (alive (st_loop s)); simpl; auto.
  - rewrite upd_length; split; auto. unfold rx_alive in *; simpl. rewrite nth_upd.
    destruct (Nat.eqb c0 c); auto. destruct (nth_error (st_conns s) c); simpl; auto.
  - apply K; [apply upd_length|apply rx_alive_upd; auto].
  - destruct (nth_error (st_conns s) c0) as [cn|]; simpl; auto.
    destruct (cn_rx cn); simpl; auto.
    destruct (nth_error (cn_out cn) (cn_read cn)) as [[? ?]|]; simpl; auto.
    apply K; [apply upd_length|apply rx_alive_upd; auto].
  - destruct (st_loop s); simpl; auto. destruct (st_queue s) as [|[c0 m] ql]; simpl.
    + destruct (no_senders s); simpl; auto.
    + destruct m as [[i v|i]|err]; simpl.
      * destruct (from_value A v) as [call|er]; simpl; [|apply K; [apply upd_length|apply (rx_alive_push (with_queue ql s))]].
        destruct (is_stream A call); simpl; auto. destruct (open_stream A (st_app s) call); simpl; auto.
      * unfold cancel; simpl. destruct (m_get i (st_subs s)); simpl; auto.
      * apply K; [apply upd_length|apply (rx_alive_push (with_queue ql s))].
  - destruct (st_loop s) as [|c0 i call| |]; simpl; auto. unfold method_done.
    destruct (run_method A (st_app s) call) as [[? ?]|]; simpl; auto.
    destruct (rx_alive s c0); simpl; auto. apply K; [apply upd_length|apply (rx_alive_push s)].
  - auto.
  - destruct (nth_error (st_tasks s) u) as [tu|]; simpl; auto.
    destruct (polling (tk_stat tu)); simpl; auto.
    destruct (rx_alive s (tk_conn tu)); simpl; auto. apply K; [apply upd_length|apply (rx_alive_push s)].
  - auto.
  - auto.
Qed.

Lemma gone_silent es : forall s c, c < length (st_conns s) -> rx_alive s c = false ->
  received (run s es) c = received s c /\ rx_alive (run s es) c = false.
Proof.
  induction es as [|e es IH]; simpl; intros s c Hc H; auto.
  destruct (rx_dead_step s e c Hc H) as [H1 H2]. destruct (IH _ _ H2 H1) as [E1 E2]. split; auto.
  rewrite E1. destruct (received_next s e c) as (l & El & Hl & _). rewrite El, (Hl H), app_nil_r. auto.
Qed.

Lemma gone_stream_ends es s c t tk v :
  c < length (st_conns s) -> rx_alive s c = false ->
  nth_error (st_tasks (run s es)) t = Some tk -> tk_conn tk = c -> polling (tk_stat tk) = true ->
  forall es', stat_of (run (next (run s es) (EvItem t v)) es') t = Some TBroken.
Proof.
  intros Hc H Ht Hcc Hp es'. destruct (gone_silent es s c Hc H) as [_ Hd].
  apply frozen_run; auto. unfold next, stat_of; simpl. rewrite Ht, Hp, Hcc, Hd. simpl.
  rewrite nth_upd_same, Ht. reflexivity.
Qed.

(** ** Forms used by the property theorems *)

Lemma serial_execution a es :
  let s := run (init a) es in
  exists processed rest q,
    st_sent s = processed ++ rest /\ pending_of s rest /\
    seq_run (seq_init a) processed = Some q /\
    st_app s = q_app q /\
    map (fun t => (tk_conn t, tk_id t)) (st_tasks s) = q_starts q.
Proof. intros s. destruct (refines a es) as (d & r & q & H1 & H2 & H3 & H4 & H5 & _). exists d, r, q; auto. Qed.

Lemma one_response_in_order a es c :
  let s := run (init a) es in
  rx_alive s c = true ->
  exists processed rest q,
    st_sent s = processed ++ rest /\ pending_of s rest /\
    seq_run (seq_init a) processed = Some q /\
    from_loop (received s c) = outs_to c (q_outs q) /\
    map response_id (from_loop (received s c)) = @answer_ids_to A c processed.
Proof.
  intros s Hrx. destruct (refines a es) as (d & r & q & H1 & H2 & H3 & _ & _ & _ & H4).
  exists d, r, q. fold s in H1, H2, H4. destruct (H4 c) as [_ H5]. rewrite (H5 Hrx).
  repeat split; auto. apply (seq_run_ids _ _ _ c H3).
Qed.

Lemma dropped_receiver_prefix a es c :
  let s := run (init a) es in
  exists processed rest q,
    st_sent s = processed ++ rest /\ pending_of s rest /\
    seq_run (seq_init a) processed = Some q /\
    prefix (from_loop (received s c)) (outs_to c (q_outs q)).
Proof.
  intros s. destruct (refines a es) as (d & r & q & H1 & H2 & H3 & _ & _ & _ & H4).
  exists d, r, q. repeat split; auto. apply H4.
Qed.

Lemma orderly_alive a es : no_panics A -> orderly (init a) es -> st_loop (run (init a) es) <> LPanicked.
Proof. intros NP O. apply (orderly_never_dies es NP (init a) (ord_init a) O). Qed.

Lemma shutdown_aborts_reachable a s e id t es :
  reachable a s -> alive (st_loop s) = true -> alive (st_loop (next s e)) = false ->
  m_get id (st_subs s) = Some t ->
  exists x, stat_of (run (next s e) es) t = Some x /\ stopped x = true.
Proof. intros R H1 H2 H3. eapply shutdown_aborts; eauto using sub_reachable. Qed.

Lemma bookkeeping a es :
  let s := run (init a) es in
  alive (st_loop s) = true ->
  NoDup (map fst (st_subs s)) /\
  exists processed rest q,
    st_sent s = processed ++ rest /\ pending_of s rest /\
    seq_run (seq_init a) processed = Some q /\
    forall id, m_get id (st_subs s) = q_cancel q id.
Proof.
  intros s Hal. split; [apply (S_nodup s); apply (sub_reachable a); exists es; auto|].
  destruct (refines a es) as (d & r & q & H1 & H2 & H3 & _ & _ & H4 & _).
  exists d, r, q. repeat split; auto.
Qed.

Lemma progress_busy s c id call :
  no_panics A -> st_loop s = LBusy c id call -> rx_alive s c = true ->
  let s' := next s EvMethodDone in
  st_loop s' = LIdle /\ st_queue s' = st_queue s /\ st_sent s' = st_sent s /\
  (forall c', rx_alive s' c' = rx_alive s c').
Proof.
  intros [NP _] Hl Hrx. unfold next; simpl. rewrite Hl; simpl. unfold method_done.
  destruct (run_method A (st_app s) call) as [[a' r]|] eqn:E; [|exfalso; eapply NP; eauto].
  rewrite Hrx; simpl. repeat split; auto. intros c'. apply (rx_alive_push s).
Qed.

End Lemmas.
