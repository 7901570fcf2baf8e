(** Invariants of the server model. *)
From Coq Require Import List Arith NArith Bool Lia.
From Verif Require Import Util Server ServerSpec.
Import ListNotations.

Section Proofs.
Context {A : app}.
Implicit Types (s : state A) (q : seqst A) (e : event A).

Lemma seq_run_app q l1 l2 :
  seq_run q (l1 ++ l2) = match seq_run q l1 with Some q' => seq_run q' l2 | None => None end.
Proof.
  revert q; induction l1 as [|m r IH]; intros q; simpl; auto.
  destruct (seq_step q m); auto.
Qed.

Lemma seq_run_snoc q l m q' :
  seq_run q l = Some q' -> seq_run q (l ++ [m]) = seq_step q' m.
Proof. intros H; rewrite seq_run_app, H; simpl. destruct (seq_step q' m); auto. Qed.

Lemma outs_to_app c (l1 l2 : list (nat * response A)) : outs_to c (l1 ++ l2) = outs_to c l1 ++ outs_to c l2.
Proof. unfold outs_to; rewrite filter_app, map_app; auto. Qed.

Lemma from_loop_app (l1 l2 : list (src * response A)) : from_loop (l1 ++ l2) = from_loop l1 ++ from_loop l2.
Proof. unfold from_loop; rewrite filter_app, map_app; auto. Qed.

Lemma from_task_app t (l1 l2 : list (src * response A)) : from_task t (l1 ++ l2) = from_task t l1 ++ from_task t l2.
Proof. unfold from_task; rewrite filter_app, map_app; auto. Qed.

Lemma outs_to_fresh c (l : list (nat * response A)) n :
  Forall (fun p => fst p < n) l -> n <= c -> outs_to c l = [].
Proof.
  intros H Hc; unfold outs_to; induction H as [|p r Hp Hr IH]; simpl; auto.
  destruct (Nat.eqb_spec (fst p) c); [lia|auto].
Qed.

(** The messages that are accepted but not yet completely processed. *)
Definition inflight s : list (nat * msg A) -> Prop :=
  match st_loop s with
  | LBusy c id call => fun l => exists v, from_value A v = inl call /\ is_stream A call = false
                                          /\ l = (c, inl (Exec id v)) :: st_queue s
  | LIdle => fun l => l = st_queue s
  | _ => fun _ => True
  end.

Record Inv (a : St A) s (done : list (nat * msg A)) (q : seqst A) : Prop := {
  I_sent : exists l, st_sent s = done ++ l /\ inflight s l;
  I_run : seq_run (seq_init a) done = Some q;
  I_app : st_app s = q_app q;
  I_starts : map (fun t => (tk_conn t, tk_id t)) (st_tasks s) = q_starts q;
  I_subs : alive (st_loop s) = true -> forall id, m_get id (st_subs s) = q_cancel q id;
  I_dead : alive (st_loop s) = false -> st_subs s = [];
  I_bound : Forall (fun p => fst p < length (st_conns s)) (st_sent s);
  I_obound : Forall (fun p => fst p < length (st_conns s)) (q_outs q);
  I_tbound : Forall (fun t => tk_conn t < length (st_conns s)) (st_tasks s);
  I_loop : forall c cn, nth_error (st_conns s) c = Some cn ->
      prefix (from_loop (cn_out cn)) (outs_to c (q_outs q)) /\
      (cn_rx cn = true -> from_loop (cn_out cn) = outs_to c (q_outs q));
  I_task : forall c cn t tk, nth_error (st_conns s) c = Some cn -> nth_error (st_tasks s) t = Some tk ->
      if Nat.eqb (tk_conn tk) c
      then prefix (from_task t (cn_out cn)) (map (item_response (tk_id tk)) (tk_items tk)) /\
           (cn_rx cn = true -> from_task t (cn_out cn) = map (item_response (tk_id tk)) (tk_items tk))
      else from_task t (cn_out cn) = [];
  I_notask : forall c cn t, nth_error (st_conns s) c = Some cn -> length (st_tasks s) <= t ->
      from_task t (cn_out cn) = []
}.

Lemma inv_init a : Inv a (init a) [] (seq_init a).
Proof.
  constructor; simpl; auto.
  - exists []; split; auto. reflexivity.
  - intros [|c] cn H; discriminate.
  - intros [|c] cn t tk H; discriminate.
  - intros [|c] cn t H; discriminate.
Qed.

(** Tasks up to their status. *)
Definition tcore (t : task A) := (tk_conn t, tk_id t, tk_items t).

Lemma map_tcore_upd_stat f t (ts : list (task A)) :
  map tcore (upd t (set_stat f) ts) = map tcore ts.
Proof. revert t; induction ts as [|x r IH]; intros [|t]; simpl; auto; now rewrite IH. Qed.

Lemma map_tcore_abort t (ts : list (task A)) : map tcore (abort_task t ts) = map tcore ts.
Proof. apply map_tcore_upd_stat. Qed.

Lemma map_tcore_drop subs (ts : list (task A)) : map tcore (drop_subs subs ts) = map tcore ts.
Proof.
  revert ts; induction subs as [|p r IH]; intros ts; simpl; auto.
  unfold drop_subs in *; simpl. rewrite IH. apply map_tcore_abort.
Qed.

Lemma tcore_length (ts ts' : list (task A)) : map tcore ts = map tcore ts' -> length ts = length ts'.
Proof. intros H; rewrite <- (map_length tcore ts), H; apply map_length. Qed.

Lemma tcore_nth (ts ts' : list (task A)) t tk :
  map tcore ts' = map tcore ts -> nth_error ts' t = Some tk ->
  exists tk', nth_error ts t = Some tk' /\ tk_conn tk' = tk_conn tk /\ tk_id tk' = tk_id tk /\ tk_items tk' = tk_items tk.
Proof.
  intros H H1.
  assert (nth_error (map tcore ts') t = Some (tcore tk)) as H2 by (rewrite nth_error_map, H1; auto).
  rewrite H, nth_error_map in H2. destruct (nth_error ts t) as [k|]; [|discriminate].
  exists k; unfold tcore in H2; simpl in H2; inversion H2; auto.
Qed.

Lemma tcore_starts (ts ts' : list (task A)) :
  map tcore ts' = map tcore ts ->
  map (fun t => (tk_conn t, tk_id t)) ts' = map (fun t => (tk_conn t, tk_id t)) ts.
Proof.
  intros H.
  assert (forall l : list (task A), map (fun t => (tk_conn t, tk_id t)) l = map fst (map tcore l)) as E.
  { induction l as [|x r IH]; simpl; auto; now rewrite IH. }
  now rewrite !E, H.
Qed.

Lemma tcore_tbound (ts ts' : list (task A)) n :
  map tcore ts' = map tcore ts ->
  Forall (fun t => tk_conn t < n) ts -> Forall (fun t => tk_conn t < n) ts'.
Proof.
  intros H; rewrite !Forall_forall; intros F tk Hin.
  destruct (In_nth_error _ _ Hin) as [i Hi].
  destruct (tcore_nth _ _ _ _ H Hi) as (k & Hk & Hc & _).
  rewrite <- Hc; apply F; eapply nth_error_In; eauto.
Qed.

(** Changing only task statuses, and the subscriber map when the loop is dead, preserves the
    data part of the invariant. *)
Lemma inv_tasks a s done q ts :
  Inv a s done q -> map tcore ts = map tcore (st_tasks s) -> Inv a (with_tasks ts s) done q.
Proof.
  intros I H; destruct I; constructor; simpl; auto.
  - rewrite (tcore_starts _ _ H); auto.
  - eapply tcore_tbound; eauto.
  - intros c cn t tk Hc Ht. destruct (tcore_nth _ _ _ _ H Ht) as (k & Hk & E1 & E2 & E3).
    specialize (I_task0 c cn t k Hc Hk). rewrite E1, E2, E3 in I_task0; auto.
  - intros c cn t Hc Ht. eapply I_notask0; eauto. rewrite <- (tcore_length _ _ H); auto.
Qed.

Lemma inv_close a s done q l :
  Inv a s done q -> alive l = false -> Inv a (close_loop l s) done q.
Proof.
  intros I Hl.
  assert (map tcore (drop_subs (st_subs s) (st_tasks s)) = map tcore (st_tasks s)) as H
    by apply map_tcore_drop.
  destruct I; constructor; simpl; auto.
  - destruct I_sent0 as (x & Hx & _). exists x; split; auto.
    unfold inflight; simpl. destruct l; try discriminate; exact I.
  - rewrite (tcore_starts _ _ H); auto.
  - congruence.
  - eapply tcore_tbound; eauto.
  - intros c cn t tk Hc Ht. destruct (tcore_nth _ _ _ _ H Ht) as (k & Hk & E1 & E2 & E3).
    specialize (I_task0 c cn t k Hc Hk). rewrite E1, E2, E3 in I_task0; auto.
  - intros c cn t Hc Ht. eapply I_notask0; eauto. rewrite <- (tcore_length _ _ H); auto.
Qed.

(** What a push by the loop does to one connection. *)
Lemma nth_push s c o r c' cn' :
  nth_error (st_conns (push s c o r)) c' = Some cn' ->
  exists cn, nth_error (st_conns s) c' = Some cn /\ cn_rx cn' = cn_rx cn /\ cn_tx cn' = cn_tx cn /\
    cn_out cn' = cn_out cn ++ (if Nat.eqb c c' && cn_rx cn then [(o, r)] else []).
Proof.
  simpl; rewrite nth_upd. destruct (Nat.eqb_spec c c') as [->|H].
  - destruct (nth_error (st_conns s) c') as [cn|]; simpl; [|discriminate].
    intros E; inversion E; exists cn; split; auto.
    destruct (cn_rx cn) eqn:R; simpl; rewrite ?R, ?app_nil_r; auto.
  - intros E; exists cn'; simpl. rewrite app_nil_r; auto.
Qed.

Lemma push_len s c o r : length (st_conns (push s c o r)) = length (st_conns s).
Proof. apply upd_length. Qed.

(** Advance [done] by one message answered by the loop with response [r] to [c]. *)
Lemma inv_respond a s s' done q m c r l a' :
  Inv a s done q ->
  alive (st_loop s) = true ->
  st_sent s = done ++ (m :: l) ->
  seq_step q m = Some (mkSeq a' (q_outs q ++ [(c, r)]) (q_starts q) (q_cancel q)) ->
  c < length (st_conns s) ->
  st_conns s' = st_conns (push s c SrcLoop r) ->
  st_app s' = a' -> st_tasks s' = st_tasks s -> st_subs s' = st_subs s ->
  st_sent s' = st_sent s -> st_loop s' = LIdle -> st_queue s' = l ->
  Inv a s' (done ++ [m]) (mkSeq a' (q_outs q ++ [(c, r)]) (q_starts q) (q_cancel q)).
Proof.
  intros I Hal Hs Hstep Hc E1 E2 E3 E4 E5 E6 E7; destruct I.
  assert (length (st_conns s') = length (st_conns s)) as EL
    by (rewrite E1; simpl; apply upd_length).
  constructor; simpl; rewrite ?EL, ?E2, ?E3, ?E4, ?E5; auto.
  - exists l; split; [rewrite <- app_assoc; auto|]. unfold inflight; rewrite E6; auto.
  - erewrite seq_run_snoc; eauto.
  - rewrite E6; discriminate.
  - apply Forall_app; split; auto.
  - intros c' cn' H. rewrite E1 in H. apply nth_push in H. destruct H as (cn & H & R1 & _ & R2).
    rewrite R1, R2, from_loop_app, outs_to_app.
    destruct (I_loop0 c' cn H) as [P1 P2].
    unfold outs_to at 2 4; simpl. destruct (Nat.eqb_spec c c') as [->|Hne]; simpl.
    + destruct (cn_rx cn) eqn:R; simpl.
      * rewrite P2 by auto. split; auto using prefix_refl.
      * rewrite app_nil_r. split; [apply prefix_app; auto|discriminate].
    + rewrite !app_nil_r; auto.
  - intros c' cn' t tk H Ht. rewrite E1 in H. apply nth_push in H. destruct H as (cn & H & R1 & _ & R2).
    specialize (I_task0 c' cn t tk H Ht). rewrite R1, R2, from_task_app.
    destruct (Nat.eqb c c' && cn_rx cn); simpl; unfold from_task at 2 4 6; simpl; rewrite !app_nil_r; auto.
  - intros c' cn' t H Ht. rewrite E1 in H. apply nth_push in H. destruct H as (cn & H & R1 & _ & R2).
    rewrite R2, from_task_app, (I_notask0 c' cn t H Ht).
    destruct (Nat.eqb c c' && cn_rx cn); simpl; auto.
Qed.

Lemma Forall_mono (l : list (nat * msg A)) n k : n <= k ->
  Forall (fun p => fst p < n) l -> Forall (fun p => fst p < k) l.
Proof. intros H; apply Forall_impl; intros; lia. Qed.

Ltac simp := cbn [st_app st_queue st_loop st_conns st_tasks st_subs st_proxies st_sent
                  with_conns with_tasks with_proxies with_loop with_app with_queue cn_rx cn_tx cn_out cn_read] in *.

Lemma inv_same_conns a s s' done q :
  Inv a s done q ->
  st_app s' = st_app s -> st_queue s' = st_queue s -> st_loop s' = st_loop s ->
  st_tasks s' = st_tasks s -> st_subs s' = st_subs s -> st_sent s' = st_sent s ->
  length (st_conns s) <= length (st_conns s') ->
  (forall c cn', nth_error (st_conns s') c = Some cn' ->
     (exists cn, nth_error (st_conns s) c = Some cn /\ cn_out cn' = cn_out cn /\ (cn_rx cn' = true -> cn_rx cn = true))
     \/ (length (st_conns s) <= c /\ cn_out cn' = [])) ->
  Inv a s' done q.
Proof.
  intros I E1 E2 E3 E4 E5 E6 Hlen Hc; destruct I.
  constructor; rewrite ?E1, ?E3, ?E4, ?E5, ?E6; auto.
  - destruct I_sent0 as (l & ? & ?); exists l; split; auto. unfold inflight in *; rewrite E3, E2; auto.
  - eapply Forall_impl; [|apply I_bound0]; simpl; intros; lia.
  - eapply Forall_impl; [|apply I_obound0]; simpl; intros; lia.
  - eapply Forall_impl; [|apply I_tbound0]; simpl; intros; lia.
  - intros c cn' H. destruct (Hc c cn' H) as [(cn & H1 & H2 & H3)|[H1 H2]].
    + rewrite H2. destruct (I_loop0 c cn H1); split; auto.
    + rewrite H2, (outs_to_fresh c _ _ I_obound0 H1). simpl; split; auto using prefix_refl.
  - intros c cn' t tk H Ht. destruct (Hc c cn' H) as [(cn & H1 & H2 & H3)|[H1 H2]].
    + rewrite H2. specialize (I_task0 c cn t tk H1 Ht). destruct (Nat.eqb (tk_conn tk) c); auto.
      destruct I_task0; split; auto.
    + rewrite H2. destruct (Nat.eqb_spec (tk_conn tk) c) as [<-|?]; auto.
      rewrite Forall_forall in I_tbound0. apply nth_error_In in Ht. apply I_tbound0 in Ht. lia.
  - intros c cn' t H Ht. destruct (Hc c cn' H) as [(cn & H1 & H2 & H3)|[H1 H2]]; rewrite H2; auto.
    eapply I_notask0; eauto.
Qed.

Lemma upd_conn_case (f : conn A -> conn A) cs c c' cn' :
  nth_error (upd c f cs) c' = Some cn' ->
  exists cn, nth_error cs c' = Some cn /\ (cn' = cn \/ cn' = f cn).
Proof.
  rewrite nth_upd. destruct (Nat.eqb c c'); intros H; [|exists cn'; auto].
  destruct (nth_error cs c') as [cn|]; simpl in H; inversion H; exists cn; auto.
Qed.

Lemma inv_step a s e done q : Inv a s done q -> exists done' q', Inv a (next s e) done' q'.
Proof.
  intros I. unfold next; destruct e as [| | |c m|c|c|c| | |t|t v|t|t]; simpl.
  - (* connect *)
    destruct (Nat.eqb (st_proxies s) 0); simpl; [eauto|]. exists done, q.
    apply (inv_same_conns a s); auto; simp.
    + rewrite app_length; simpl; lia.
    + intros c cn' H. apply nth_app_inv in H. destruct H as [[? H]|[-> ->]].
      * left; exists cn'; auto.
      * right; simpl; auto.
  - destruct (Nat.eqb (st_proxies s) 0); simpl; [eauto|]. exists done, q.
    apply (inv_same_conns a s); auto. intros c cn' H; left; exists cn'; auto.
  - exists done, q. apply (inv_same_conns a s); auto. intros c cn' H; left; exists cn'; auto.
  - (* send *)
    destruct (nth_error (st_conns s) c) as [cn|] eqn:Ec; simpl; [|eauto].
    destruct (cn_tx cn); simpl; [|eauto].
    destruct (alive (st_loop s)) eqn:Ea; simpl; [|eauto].
    exists done, q. pose proof (nth_some_lt _ _ _ Ec) as Hlt.
    destruct I; constructor; simpl; auto.
    + destruct I_sent0 as (l & H1 & H2). exists (l ++ [(c, m)]). rewrite H1, app_assoc; split; auto.
      unfold inflight in *; simpl. destruct (st_loop s); simpl in *; subst; auto.
      destruct H2 as (v & ? & ? & ->). exists v; auto.
    + apply Forall_app; split; auto.
  - (* drop rx *)
    exists done, q. apply (inv_same_conns a s); auto; simp; try (rewrite upd_length; auto; fail).
    intros c' cn' H. apply upd_conn_case in H. destruct H as (cn & H & [->| ->]); left; exists cn; simpl; repeat split; auto; discriminate.
  - exists done, q. apply (inv_same_conns a s); auto; simp; try (rewrite upd_length; auto; fail).
    intros c' cn' H. apply upd_conn_case in H. destruct H as (cn & H & [->| ->]); left; exists cn; simpl; auto.
  - (* read *)
    destruct (nth_error (st_conns s) c) as [cn|]; simpl; [|eauto].
    destruct (cn_rx cn); simpl; [|eauto].
    destruct (nth_error (cn_out cn) (cn_read cn)) as [[o r]|]; simpl; [|eauto].
    exists done, q. apply (inv_same_conns a s); auto; simp; try (rewrite upd_length; auto; fail).
    intros c' cn' H. apply upd_conn_case in H. destruct H as (cn2 & H & [->| ->]); left; exists cn2; simpl; auto.
  - (* recv *)
    destruct (st_loop s) eqn:El; simpl; eauto.
    destruct (st_queue s) as [|[c m] ql] eqn:Eq; simpl.
    + destruct (no_senders s); simpl; [|eauto]. exists done, q. apply inv_close; auto.
    + pose proof I as I0. destruct I as [J1 J2 J3 J4 J5 J6 J7 J8 J9 J10 J11 J12].
      destruct J1 as (l & Hsent & Hfl). unfold inflight in Hfl; rewrite El in Hfl. subst l. rewrite Eq in Hsent.
      assert (c < length (st_conns s)) as Hc.
      { rewrite Hsent in J7. apply Forall_app in J7. destruct J7 as [_ J7]. inversion J7; auto. }
      assert (alive (st_loop s) = true) as Hal by (rewrite El; auto).
      specialize (J5 Hal).
      assert (Inv a (with_queue ql s) done q -> True) as _ by auto.
      destruct m as [[id v|id]|err]; simpl.
      * (* exec *)
        destruct (from_value A v) as [call|er] eqn:Ef.
        -- destruct (is_stream A call) eqn:Es.
           ++ destruct (open_stream A (st_app s) call) as [a'|] eqn:Eo.
              ** exists (done ++ [(c, inl (Exec id v))]).
                 exists (mkSeq a' (q_outs q) (q_starts q ++ [(c, id)])
                            (fun i => if N.eqb id i then Some (length (q_starts q)) else q_cancel q i)).
                 assert (length (st_tasks s) = length (q_starts q)) as EL by (rewrite <- J4, map_length; auto).
                 constructor; simp; simpl.
                 --- exists ql; split; [rewrite <- app_assoc; auto|]. unfold inflight; simpl; rewrite El; auto.
                 --- erewrite seq_run_snoc by eauto. simpl. rewrite Ef, Es, <- J3, Eo; auto.
                 --- auto.
                 --- rewrite map_app, J4; auto.
                 --- intros _ i. rewrite N.eqb_sym, J5 || idtac.
                     destruct (N.eqb_spec i id) as [->|Hne].
                     +++ rewrite N.eqb_refl, EL; auto.
                     +++ rewrite m_get_del_other by auto. destruct (N.eqb_spec id i); [congruence|]. apply J5.
                 --- rewrite El; discriminate.
                 --- auto.
                 --- auto.
                 --- apply Forall_app; split; auto.
                 --- auto.
                 --- intros c' cn t tk H Ht. apply nth_app_inv in Ht. destruct Ht as [[Hlt Ht]|[-> ->]].
                     +++ apply J11; auto.
                     +++ simpl. rewrite (J12 c' cn _ H (le_n _)).
                         destruct (Nat.eqb c c'); simpl; auto using prefix_refl.
                 --- intros c' cn t H Ht. rewrite app_length in Ht; simpl in Ht. eapply J12; eauto; lia.
              ** exists done, q. apply (inv_close a s done q LPanicked I0 eq_refl).
           ++ exists done, q. destruct I0; constructor; simp; auto.
              --- exists ((c, inl (Exec id v)) :: ql); split; auto. exists v; auto.
              --- discriminate.
        -- eexists _, _. eapply (inv_respond a s) with (r := Response_error id er); eauto; simpl.
           rewrite Ef, <- J3; reflexivity.
      * (* cancel *)
        exists (done ++ [(c, inl (CancelStream id))]).
        exists (mkSeq (q_app q) (q_outs q) (q_starts q) (fun i => if N.eqb id i then None else q_cancel q i)).
        assert (forall ts subs,
          map tcore ts = map tcore (st_tasks s) ->
          (forall i, m_get i subs = if N.eqb id i then None else q_cancel q i) ->
          Inv a (mkState (st_app s) ql (st_loop s) (st_conns s) ts subs (st_proxies s) (st_sent s))
            (done ++ [(c, inl (CancelStream id))])
            (mkSeq (q_app q) (q_outs q) (q_starts q) (fun i => if N.eqb id i then None else q_cancel q i))) as H.
        { intros ts subs Hts Hsubs. pose proof (inv_tasks _ _ _ _ _ I0 Hts) as [K1 K2 K3 K4 K5 K6 K7 K8 K9 K10 K11 K12].
          constructor; simp; auto.
          - exists ql; split; [rewrite <- app_assoc; auto|]. unfold inflight; simpl; rewrite El; auto.
          - erewrite seq_run_snoc by eauto; reflexivity.
          - rewrite El; discriminate. }
        unfold cancel; simpl. destruct (m_get id (st_subs s)) as [t|] eqn:Eg.
        -- apply H; [apply map_tcore_abort|]. intros i; rewrite m_get_del, J5; auto.
        -- apply H; auto. intros i; rewrite <- J5. destruct (N.eqb_spec id i); congruence.
      * eexists _, _. eapply (inv_respond a s) with (r := err) (a' := st_app s); eauto; simpl. rewrite <- J3; reflexivity.
  - (* method done *)
    destruct (st_loop s) as [|c id call| |] eqn:El; simpl; eauto.
    unfold method_done.
    destruct (run_method A (st_app s) call) as [[a' r]|] eqn:Er.
    + destruct (rx_alive s c) eqn:Erx.
      * pose proof I as [J1 J2 J3 J4 J5 J6 J7 J8 J9 J10 J11 J12].
        destruct J1 as (l & Hsent & Hfl). unfold inflight in Hfl; rewrite El in Hfl.
        destruct Hfl as (v & Ev1 & Ev2 & ->).
        assert (c < length (st_conns s)) as Hc.
        { rewrite Hsent in J7. apply Forall_app in J7. destruct J7 as [_ J7]. inversion J7; auto. }
        eexists _, _. eapply (inv_respond a s) with (r := Response_method id r); eauto; simpl.
        -- rewrite El; auto.
        -- rewrite Ev1, Ev2, <- J3, Er. destruct r; reflexivity.
      * exists done, q. apply inv_close; auto.
    + exists done, q. apply inv_close; auto.
  - exists done, q. apply inv_tasks; auto. apply map_tcore_upd_stat.
  - (* item *)
    destruct (nth_error (st_tasks s) t) as [tk|] eqn:Et; simpl; [|eauto].
    destruct (polling (tk_stat tk)); simpl; [|eauto].
    exists done, q. unfold rx_alive.
    assert (forall f, (forall k : task A, tk_conn (f k) = tk_conn k /\ tk_id (f k) = tk_id k) ->
       map (fun k => (tk_conn k, tk_id k)) (upd t f (st_tasks s)) = map (fun k => (tk_conn k, tk_id k)) (st_tasks s) /\
       (Forall (fun k => tk_conn k < length (st_conns s)) (st_tasks s) ->
        Forall (fun k => tk_conn k < length (st_conns s)) (upd t f (st_tasks s)))) as HF.
    { intros f Hf. generalize (st_tasks s) as ts, t as i. induction ts as [|x r IH]; intros [|i]; simpl; auto.
      - destruct (Hf x) as [-> ->]; split; auto. intros H; inversion H; constructor; auto.
        destruct (Hf x) as [-> _]; auto.
      - destruct (IH i) as [-> H]; split; auto. intros H1; inversion H1; constructor; auto. }
    pose proof (nth_some_lt _ _ _ Et) as Htl.
    destruct (match nth_error (st_conns s) (tk_conn tk) with Some cn => cn_rx cn | None => false end) eqn:Erx; simpl.
    + destruct (nth_error (st_conns s) (tk_conn tk)) as [cn0|] eqn:Ec0; [|discriminate].
      match goal with |- Inv _ (with_tasks (upd t ?f _) _) _ _ => destruct (HF f) as [HF1 HF2]; [simpl; auto|] end.
      destruct I; constructor; simp; rewrite ?push_len; auto.
      * etransitivity; [apply HF1|auto].
      * intros c' cn' H. apply nth_push in H. destruct H as (cn & H & R1 & _ & R2).
        rewrite R1, R2, from_loop_app. destruct (I_loop0 c' cn H) as [P1 P2].
        destruct (Nat.eqb (tk_conn tk) c' && cn_rx cn); simpl; unfold from_loop at 2 4; simpl; rewrite !app_nil_r; auto.
      * intros c' cn' t' tk' H Ht'. apply nth_push in H. destruct H as (cn & H & R1 & _ & R2).
        rewrite R1, R2, from_task_app. rewrite nth_upd in Ht'. destruct (Nat.eqb_spec t t') as [<-|Hne].
        -- rewrite Et in Ht'; simpl in Ht'; inversion Ht'; subst tk'; clear Ht'; simpl.
           specialize (I_task0 c' cn t tk H Et). rewrite map_app.
           destruct (Nat.eqb_spec (tk_conn tk) c') as [Hcc|Hcc]; simpl.
           ++ subst c'. rewrite Ec0 in H; inversion H; subst cn0. rewrite Erx; simpl.
              destruct I_task0 as [_ I_task0]. unfold from_task at 2 4; simpl. rewrite Nat.eqb_refl; simpl.
              rewrite I_task0 by auto. split; auto using prefix_refl.
           ++ rewrite I_task0; reflexivity.
        -- specialize (I_task0 c' cn t' tk' H Ht').
           assert (from_task t' (if Nat.eqb (tk_conn tk) c' && cn_rx cn then [(SrcTask t, Response_stream (tk_id tk) v)] else []) = []) as ->.
           { destruct (Nat.eqb (tk_conn tk) c' && cn_rx cn); auto. unfold from_task; simpl.
             destruct (Nat.eqb_spec t t'); [congruence|auto]. }
           rewrite app_nil_r; auto.
      * intros c' cn' t' H Ht'. apply nth_push in H. destruct H as (cn & H & R1 & _ & R2).
        rewrite upd_length in Ht'. rewrite R2, from_task_app, (I_notask0 c' cn t' H Ht').
        destruct (Nat.eqb (tk_conn tk) c' && cn_rx cn); simpl; auto. unfold from_task; simpl.
        destruct (Nat.eqb_spec t t'); [lia|auto].
    + match goal with |- Inv _ (with_tasks (upd t ?f _) _) _ _ => destruct (HF f) as [HF1 HF2]; [simpl; auto|] end.
      destruct I; constructor; simp; rewrite ?upd_length; auto.
      * rewrite HF1; auto.
      * intros c' cn t' tk' H Ht'. rewrite nth_upd in Ht'. destruct (Nat.eqb_spec t t') as [<-|Hne].
        -- rewrite Et in Ht'; simpl in Ht'; inversion Ht'; subst tk'; clear Ht'; simpl.
           specialize (I_task0 c' cn t tk H Et). rewrite map_app.
           destruct (Nat.eqb_spec (tk_conn tk) c') as [Hcc|Hcc]; simpl; auto.
           subst c'. rewrite H in Erx. destruct I_task0 as [I_task0 _]. split; [apply prefix_app; auto|congruence].
        -- apply I_task0; auto.
  - exists done, q. apply inv_tasks; auto. apply map_tcore_upd_stat.
  - exists done, q. apply inv_tasks; auto. apply map_tcore_upd_stat.
Qed.

Lemma inv_run_from a es : forall s, (exists done q, Inv a s done q) -> exists done q, Inv a (run s es) done q.
Proof.
  induction es as [|e es IH]; intros s (d & q & I); simpl; [eauto|].
  apply IH. eapply inv_step; eauto.
Qed.

Lemma inv_run a es : exists done q, Inv a (run (init a) es) done q.
Proof. apply inv_run_from. exists [], (seq_init a). apply inv_init. Qed.

End Proofs.
