(** A request comes to its end. *)
From Coq Require Import List Arith NArith Bool Lia.
From Verif Require Import Util Server ServerSpec ServerProofs ServerLemmas Pump PumpSpec PumpProofs.
From Verif Require Import Client ClientSpec ClientProofs ClientSockProofs E2E E2ESpec E2EProofs E2ESafe.
Import ListNotations.

(** ** Leads to *)
Lemma leads (G : Prop) (P Q : nat -> Prop) (m : nat -> nat) (H : nat -> nat -> Prop) :
  (forall i, P i -> G \/ Q i \/ Q (S i) \/ (P (S i) /\ m (S i) <= m i)) ->
  (forall v, often (H v)) ->
  (forall i, P i -> P (S i) -> H (m i) i -> G \/ Q i \/ Q (S i) \/ m (S i) < m i) ->
  forall i, P i -> G \/ exists j, i <= j /\ Q j.
Proof.
  intros Hs Ho Hp i. remember (m i) as v eqn:Ev. assert (Hv : m i <= v) by lia. clear Ev. revert i Hv.
  induction v as [v IH] using lt_wf_ind. intros i Hv Pi.
  destruct (Ho (m i) i) as (k & Lk & Hk).
  assert (Go : forall n i', i <= i' -> n = k - i' -> i' <= k -> P i' -> m i' <= m i -> G \/ exists j, i <= j /\ Q j).
  { induction n as [|n IHn]; intros i' L1 En L2 Pi' L3.
    - assert (i' = k) as -> by lia. destruct (Nat.eq_dec (m k) (m i)) as [E|N].
      + rewrite <- E in Hk.
        destruct (Hs k Pi') as [g|[Hq'|[Hq'|(Ps & _)]]]; [now left | right; exists k; auto | right; exists (S k); auto|].
        destruct (Hp k Pi' Ps Hk) as [g|[Hq|[Hq|Hq]]]; [now left | right; exists k; auto | right; exists (S k); auto|].
        destruct (IH (m (S k))) with (i := S k) as [g|(j & Lj & Qj)]; auto; [lia|]. right. exists j. split; [lia | exact Qj].
      + destruct (IH (m k)) with (i := k) as [g|(j & Lj & Qj)]; auto; [lia|]. right. exists j. split; [lia | exact Qj].
    - destruct (Hs i' Pi') as [g|[Hq'|[Hq'|(Ps & Le)]]]; [now left | right; exists i'; auto | right; exists (S i'); auto|].
      apply (IHn (S i')); auto; lia. }
  apply (Go (k - i) i); auto.
Qed.

Section E2ELive.
Context {R text K D : Type} (enc : N -> R -> option text) (read : text -> option (K * D)) (same : K -> N -> bool).
Context {A : app} (decode : text -> msg A) (encode : response A -> text).
Local Notation world := (world text K D A).
Local Notation wevent := (wevent R text A).
Local Notation client := (client text K D).
Local Notation wnext := (wnext enc read same decode encode).
Local Notation wrun := (wrun enc read same decode encode).
Local Notation at_time := (at_time enc read same decode encode).
Local Notation cnext := (cnext enc read same).
Local Notation pnext := (pnext decode encode).
Local Notation creachable := (creachable enc read same).
Local Notation preachable := (preachable decode encode).
Local Notation wreachable := (wreachable enc read same decode encode).
Implicit Types (w : world) (p : pstate A text).

Lemma at_time_run w sigma i : at_time w sigma i = wrun w (map sigma (seq 0 i)).
Proof.
  induction i as [|i IH]; [reflexivity|]. rewrite seq_S, map_app. cbn [map]. rewrite wrun_snoc, <- IH. reflexivity.
Qed.

(** ** Where the text of a request is *)
Definition place (n : nat) (v : N * text) (c : client) : Prop :=
  (state_of c n = Connecting /\ In (n, v) (cl_waiting c)) \/ (state_of c n = Open /\ In v (sent_on c n)).

Lemma unheld_close (c : client) n : Loose c -> ~ held (close c) n.
Proof.
  intros L H. assert (state_of (close c) n = st (close_form c) n) as E by (now rewrite close_is).
  unfold held in H. rewrite E, st_close_form in H by assumption. destruct (state_of c n), H; discriminate.
Qed.
Lemma unheld_reopen (c : client) n : Loose c -> ~ held (reopen c) n.
Proof.
  intros L H. apply (unheld_close c n L). revert H. unfold held, reopen.
  destruct (subscribed _); [destruct (reopen_timeout _)|]; auto.
Qed.

Lemma place_next n v c e : creachable c -> held (cnext c e) n -> place n v c -> place n v (cnext c e).
Proof.
  intros Hr Hh H. pose proof (moves_next enc read same c e Hr) as M. pose proof (shape_inv enc read same c Hr) as Hs.
  remember (cnext c e) as c' eqn:Ec. clear Ec.
  assert (Hold : held c n) by (destruct H as [[H _]|[H _]]; [now left | now right]).
  destruct M as [e c1 L _ | e c1 t L X1 X2 _ _ | e c1 L _ | m _ S | m S | m S | m S | d T].
  - unfold place. rewrite (like_state c c1 n L), (like_sent c c1 n L). destruct L as ((_ & _ & _ & E) & _). now rewrite E.
  - assert (H1 : place n v c1).
    { unfold place. rewrite (like_state c c1 n L), (like_sent c c1 n L). destruct L as ((_ & _ & _ & E) & _). now rewrite E. }
    pose proof (like_shape c c1 L Hs) as Hs1.
    destruct (busy_dec c1) as [B|(m & E' & S)].
    + rewrite send_wait in * by assumption. unfold wait. destruct (open c1) as [c2 q] eqn:Eo.
      destruct (sent_open c1 n Hs1) as [So St]. rewrite Eo in So, St. cbn [fst] in So, St.
      assert (Hh1 : held c1 n) by (unfold held; rewrite (like_state c c1 n L); exact Hold). specialize (St Hh1).
      unfold place. change (state_of (set_waiting (cl_waiting c2 ++ [(q, (bump (cl_id c), t))]) c2) n) with (state_of c2 n).
      change (sent_on (set_waiting (cl_waiting c2 ++ [(q, (bump (cl_id c), t))]) c2) n) with (sent_on c2 n).
      rewrite So, St. cbn. rewrite in_app_iff.
      assert (cl_waiting c2 = cl_waiting c1) as -> by (unfold open in Eo; cbn in Eo; destruct (cl_opening c1); injection Eo as <- <-; reflexivity).
      destruct H1 as [[? ?]|[? ?]]; [left | right]; auto.
    + rewrite (send_open _ c1 m E' S). unfold place. rewrite state_push, sent_push by assumption. cbn.
      destruct H1 as [H1|[H1 H2]]; [now left|]. right. split; [exact H1|]. destruct (Nat.eqb m n); [apply in_app_iff; now left | exact H2].
  - exfalso. apply (unheld_close c1 n); [|exact Hh]. apply (like_shape c c1 L Hs).
  - assert (n = m) as -> by (apply (one_held enc read same c); [exact Hr | exact Hold | now left]).
    right. rewrite state_opened, sent_opened, PeanoNat.Nat.eqb_refl by assumption. split; [reflexivity|].
    destruct H as [[_ H]|[H _]]; [|congruence]. apply in_app_iff. right. unfold waiting_on. apply in_map_iff. exists (m, v). split; [reflexivity|].
    apply filter_In. split; [exact H | apply PeanoNat.Nat.eqb_refl].
  - exfalso. assert (n = m) as -> by (apply (one_held enc read same c); [exact Hr | exact Hold | now right]).
    unfold held in Hh. rewrite state_set, PeanoNat.Nat.eqb_refl in Hh by congruence. destruct Hh; discriminate.
  - exfalso. apply (unheld_reopen _ n (loose_worse m Closed c Hs S (or_intror eq_refl)) Hh).
  - exfalso. apply (unheld_reopen _ n (loose_failed m c Hs S) Hh).
  - exfalso. pose proof (lo_held c (sh_loose c Hs) n Hold) as Q. rewrite (sh_timer c Hs) in Q; [discriminate | congruence].
Qed.

Lemma place_start n c r t : creachable c -> user c = true -> enc (bump (cl_id c)) r = Some t ->
  held (cnext c (URequest r)) n -> place n (bump (cl_id c), t) (cnext c (URequest r)).
Proof.
  intros Hr Hu He. cbn [Client.cnext]. rewrite Hu. unfold request. cbn [set_id cl_id]. rewrite He.
  set (c1 := add_sub (bump (cl_id c)) true false (set_id (bump (cl_id c)) c)).
  assert (Hs1 : Shape c1). { apply (shape_same c1 c); [repeat split | reflexivity|]. now apply (shape_inv enc read same). }
  destruct (busy_dec c1) as [B|(m & E' & S)].
  - rewrite send_wait by assumption. unfold wait. destruct (shape_open c1 Hs1 B) as [Hs2 Op].
    destruct (open c1) as [c2 q] eqn:Eo. cbn [fst snd] in *. intros H.
    assert (Hn : held c2 n) by exact H.
    assert (n = q).
    { destruct Hn as [Hn|Hn]; [pose proof (sh_conn c2 Hs2 n Hn) | pose proof (sh_open c2 Hs2 n Hn)]; congruence. }
    subst q. left. split; [|cbn; apply in_app_iff; right; now left].
    destruct Hn as [Hn|Hn]; [exact Hn|]. pose proof (sh_open c2 Hs2 n Hn). congruence.
  - rewrite (send_open _ c1 m E' S). intros H. unfold held in H. rewrite state_push in H.
    pose proof (lo_held c1 (sh_loose c1 Hs1) n H) as Q. assert (n = m) as -> by congruence.
    right. rewrite state_push, sent_push, PeanoNat.Nat.eqb_refl by assumption. split; [exact S|]. apply in_app_iff. right. now left.
Qed.

(** ** Links and server sockets go on *)
Lemma link_next w e l x : nth_error (w_links w) l = Some x ->
  exists x', nth_error (w_links (wnext w e)) l = Some x' /\ ln_sock x' = ln_sock x /\ ln_pump x' = ln_pump x /\
    ln_up x <= ln_up x' /\ ln_down x <= ln_down x' /\ (ln_down x < ln_down x' -> e = WDown l).
Proof.
  intros H. destruct (wmoves_ok enc read same decode encode w e) as [e | e ce N1 N2 | e pe N | n L U P | l' y id t s E1 E2 E3 E4 | l' y t s E1 E2 E3 E4 E5]; cbn [w_links].
  - exists x. repeat split; auto; lia.
  - exists x. repeat split; auto; lia.
  - exists x. repeat split; auto; lia.
  - exists x. rewrite nth_error_app1 by (now apply nth_some_lt in H). repeat split; auto; lia.
  - rewrite nth_upd, H. destruct (Nat.eqb l' l); cbn; eexists; (split; [reflexivity|]); cbn; repeat split; lia.
  - rewrite nth_upd, H. destruct (Nat.eqb_spec l' l) as [->|]; cbn; eexists; (split; [reflexivity|]); cbn; repeat split; lia.
Qed.

Lemma sv_next w e : w_sv (wnext w e) = w_sv w \/ exists pe, w_sv (wnext w e) = pnext (w_sv w) pe.
Proof. destruct (wmoves_ok enc read same decode encode w e); cbn [w_sv]; eauto. Qed.
Lemma cl_next w e : w_cl (wnext w e) = w_cl w \/ exists ce, w_cl (wnext w e) = cnext (w_cl w) ce.
Proof. destruct (wmoves_ok enc read same decode encode w e); cbn [w_cl]; eauto. Qed.

(** ** The request loop works through its queue *)
Definition taken (s : state A) : nat := length (st_sent s) - length (st_queue s).
Definition occupied (s : state A) : nat := match st_loop s with LBusy _ _ _ => 1 | _ => 0 end.

Lemma queue_le a s : reachable a s -> alive (st_loop s) = true -> length (st_queue s) + occupied s <= length (st_sent s).
Proof.
  intros [es ->] Al. destruct (inv_run a es) as (done & q & I). destruct (I_sent _ _ _ _ I) as (l & E & F).
  unfold inflight, occupied in *. rewrite E, app_length.
  destruct (st_loop (run (init a) es)) as [|c id call| |]; try discriminate.
  - rewrite F. lia.
  - destruct F as (v & _ & _ & ->). cbn. lia.
Qed.

Lemma loop_next a (s : state A) e : reachable a s -> alive (st_loop (next s e)) = true ->
  (exists l, st_sent (next s e) = st_sent s ++ l) /\
  ((taken (next s e) = taken s /\ occupied (next s e) = occupied s) \/
   (e = EvRecv /\ occupied s = 0 /\ taken (next s e) = S (taken s) /\ occupied (next s e) <= 1) \/
   (e = EvMethodDone /\ occupied s = 1 /\ taken (next s e) = taken s /\ occupied (next s e) = 0)).
Proof.
  intros Hr Al.
  assert (Al0 : alive (st_loop s) = true).
  { destruct (alive (st_loop s)) eqn:E; [reflexivity|]. pose proof (dead_stays s e E). congruence. }
  pose proof (queue_le a s Hr Al0) as QL. revert Al. unfold taken, occupied in *.
  assert (Same : forall s', st_sent s' = st_sent s -> st_queue s' = st_queue s -> st_loop s' = st_loop s ->
    (exists l, st_sent s' = st_sent s ++ l) /\
    ((length (st_sent s') - length (st_queue s') = length (st_sent s) - length (st_queue s) /\
      match st_loop s' with LBusy _ _ _ => 1 | _ => 0 end = match st_loop s with LBusy _ _ _ => 1 | _ => 0 end) \/
     (e = EvRecv /\ match st_loop s with LBusy _ _ _ => 1 | _ => 0 end = 0 /\ length (st_sent s') - length (st_queue s') = S (length (st_sent s) - length (st_queue s)) /\
      match st_loop s' with LBusy _ _ _ => 1 | _ => 0 end <= 1) \/
     (e = EvMethodDone /\ match st_loop s with LBusy _ _ _ => 1 | _ => 0 end = 1 /\ length (st_sent s') - length (st_queue s') = length (st_sent s) - length (st_queue s) /\
      match st_loop s' with LBusy _ _ _ => 1 | _ => 0 end = 0))).
  { intros s' -> -> ->. split; [exists []; now rewrite app_nil_r | now left]. }
  unfold next. destruct e as [| | |c m|c|c|c| | |t|t v|t|t]; cbn [step].
  - destruct (Nat.eqb _ 0); intros _; now apply Same.
  - destruct (Nat.eqb _ 0); intros _; now apply Same.
  - intros _; now apply Same.
  - destruct (nth_error (st_conns s) c) as [cn|]; [|intros _; now apply Same].
    destruct (cn_tx cn); [|intros _; now apply Same]. rewrite Al0. intros _. cbn. split; [eauto|]. left. rewrite !app_length. cbn. lia.
  - intros _; now apply Same.
  - intros _; now apply Same.
  - destruct (nth_error (st_conns s) c) as [cn|]; [|intros _; now apply Same].
    destruct (cn_rx cn); [|intros _; now apply Same]. destruct (nth_error (cn_out cn) _) as [[o r]|]; intros _; now apply Same.
  - destruct (st_loop s) as [|c0 id0 call0| |] eqn:El; try (intros _; apply Same; cbn [fst]; solve [assumption | reflexivity]).
    destruct (st_queue s) as [|[c m] q] eqn:Eq.
    + destruct (no_senders s); [discriminate|]. intros _. apply Same; cbn [fst]; assumption || reflexivity.
    + cbn [fst]. intros Al.
      assert (Z : forall s', st_sent s' = st_sent s -> st_queue s' = q ->
        (exists l, st_sent s' = st_sent s ++ l) /\
        ((length (st_sent s') - length (st_queue s') = length (st_sent s) - length ((c, m) :: q) /\
          match st_loop s' with LBusy _ _ _ => 1 | _ => 0 end = 0) \/
         (EvRecv (A := A) = EvRecv /\ 0 = 0 /\ length (st_sent s') - length (st_queue s') = S (length (st_sent s) - length ((c, m) :: q)) /\
          match st_loop s' with LBusy _ _ _ => 1 | _ => 0 end <= 1) \/
         (EvRecv (A := A) = EvMethodDone /\ 0 = 1 /\ length (st_sent s') - length (st_queue s') = length (st_sent s) - length ((c, m) :: q) /\
          match st_loop s' with LBusy _ _ _ => 1 | _ => 0 end = 0))).
      { intros s' -> ->. split; [exists []; now rewrite app_nil_r|]. right. left. repeat split; auto; [cbn in *; lia | destruct (st_loop s'); lia]. }
      revert Al. unfold handle. destruct m as [[id v|id]|er].
      * destruct (from_value A v) as [call|er]; [|intros _; now apply Z]. destruct (is_stream A call).
        -- destruct (open_stream A _ call); [intros _; now apply Z | discriminate].
        -- intros _. now apply Z.
      * intros _. unfold cancel. destruct (m_get id _); now apply Z.
      * intros _. now apply Z.
  - destruct (st_loop s) as [|c0 id0 call0| |] eqn:El; try (intros _; apply Same; cbn [fst]; solve [assumption | reflexivity]).
    cbn [fst]. unfold method_done. destruct (run_method A _ call0) as [[a' r]|]; [|discriminate].
    destruct (rx_alive s c0); [|discriminate]. intros _. cbn. split; [exists []; now rewrite app_nil_r|]. right. right. auto.
  - intros _; now apply Same.
  - destruct (nth_error (st_tasks s) t) as [tk|]; [|intros _; now apply Same].
    destruct (polling _); [|intros _; now apply Same]. destruct (rx_alive s _); intros _; now apply Same.
  - intros _; now apply Same.
  - intros _; now apply Same.
Qed.

Lemma srv_next p pe : p_srv (pnext p pe) = p_srv p \/ (exists e, p_srv (pnext p pe) = next (p_srv p) e /\ (forall e', pe = PServer e' -> e = e')) \/
  exists e1 e2, p_srv (pnext p pe) = next (next (p_srv p) e1) e2 /\ (forall e', pe <> PServer e').
Proof.
  destruct pe as [e| |k f|k|k ok]; cbn [Pump.pnext].
  - destruct (foreign _ e); [|now left]. right. left. exists e. split; [reflexivity|]. now intros e' [= <-].
  - destruct (Nat.eqb _ 0); [now left|]. right. left. exists EvConnect. split; [reflexivity | discriminate].
  - destruct (nth_error (p_socks p) k) as [s|]; [|now left]. destruct (sk_live s); [|now left].
    destruct f as [t| | |]; unfold on_frame, hang_up, consumed, with_sock, with_srv; cbn [p_srv p_socks].
    + destruct (step (p_srv p) (EvSend (sk_conn s) (decode t))) as [srv o] eqn:E.
      assert (E1 : srv = next (p_srv p) (EvSend (sk_conn s) (decode t))) by (unfold next; now rewrite E).
      destruct o as [|[]|o]; cbn [p_srv].
      * right. left. eexists. split; [exact E1 | discriminate].
      * right. left. eexists. split; [exact E1 | discriminate].
      * right. right. exists (EvDropTx (sk_conn s)), (EvDropRx (sk_conn s)). split; [|discriminate].
        assert (srv = p_srv p) as ->; [|reflexivity].
        cbn in E. destruct (nth_error (st_conns _) _) as [cn|]; [|congruence]. destruct (cn_tx cn); [|congruence].
        destruct (alive _); congruence.
      * right. left. eexists. split; [exact E1 | discriminate].
    + now left.
    + right. right. eexists _, _. split; [reflexivity | discriminate].
    + right. right. eexists _, _. split; [reflexivity | discriminate].
  - destruct (nth_error (p_socks p) k) as [s|]; [|now left]. destruct (sk_live s); [|now left]. destruct (sk_hold s); [now left|].
    unfold on_take. destruct (step (p_srv p) (EvRead (sk_conn s))) as [srv o] eqn:E. destruct o as [|b|[r|]]; try (now left).
    right. left. exists (EvRead (sk_conn s)). split; [cbn; unfold next; now rewrite E | discriminate].
  - destruct (nth_error (p_socks p) k) as [s|]; [|now left]. destruct (sk_live s); [|now left]. destruct (sk_hold s); [|now left].
    unfold on_wrote. destruct ok; [now left|]. right. right. eexists _, _. split; [reflexivity | discriminate].
Qed.

Definition todo (b : nat) (s : state A) : nat := 2 * (S b - taken s) + occupied s.

Lemma todo_step a b (s : state A) e : reachable a s -> alive (st_loop (next s e)) = true -> taken s - occupied s <= b ->
  b < taken (next s e) - occupied (next s e) \/ (taken (next s e) - occupied (next s e) <= b /\ todo b (next s e) <= todo b s).
Proof.
  intros Hr Al H. destruct (loop_next a s e Hr Al) as [_ Q]. unfold todo. lia.
Qed.

(** ** The response *)
Lemma seq_outs_grow l : forall (q q' : seqst A), seq_run q l = Some q' -> exists o, q_outs q' = q_outs q ++ o.
Proof.
  induction l as [|m l IH]; intros q q' H; cbn in H.
  - injection H as <-. exists []. now rewrite app_nil_r.
  - destruct (seq_step q m) as [q1|] eqn:E; [|discriminate]. destruct (IH _ _ H) as (o & ->).
    assert (O : exists o1, q_outs q1 = q_outs q ++ o1).
    { destruct m as [c0 [[id v|id]|err]]; cbn in E.
      - destruct (from_value A v) as [call|er].
        + destruct (is_stream A call).
          * destruct (open_stream A _ call); [|discriminate]. injection E as <-. exists []. cbn. now rewrite app_nil_r.
          * destruct (run_method A _ call) as [[a' [d|er]]|]; [| |discriminate]; injection E as <-; eexists; reflexivity.
        + injection E as <-. eexists. reflexivity.
      - injection E as <-. exists []. cbn. now rewrite app_nil_r.
      - injection E as <-. eexists. reflexivity. }
    destruct O as (o1 & ->). exists (o1 ++ o). now rewrite app_assoc.
Qed.

Lemma answered a (s : state A) b c id v call : reachable a s -> alive (st_loop s) = true -> rx_alive s c = true ->
  nth_error (st_sent s) b = Some (c, inl (Exec id v)) -> from_value A v = inl call -> is_stream A call = false ->
  b < taken s - occupied s -> exists resp, In (SrcLoop, resp) (received s c) /\ response_id resp = Some id.
Proof.
  intros [es ->] Al Rx E Ef Is L. destruct (inv_run a es) as (done & q & I). set (s := run (init a) es) in *.
  destruct (I_sent _ _ _ _ I) as (l & Es & F).
  assert (Ld : b < length done).
  { unfold taken, occupied, inflight in *. rewrite Es, app_length in L.
    destruct (st_loop s) as [|c0 id0 call0| |]; try discriminate.
    - rewrite F in L. lia.
    - destruct F as (v0 & _ & _ & ->). cbn in L. lia. }
  rewrite Es, nth_error_app1 in E by assumption.
  destruct (nth_error_split _ _ E) as (l1 & l2 & Ed & _).
  pose proof (I_run _ _ _ _ I) as Rn. rewrite Ed, seq_run_app in Rn.
  destruct (seq_run (seq_init a) l1) as [q1|] eqn:E1; [|discriminate]. cbn in Rn. rewrite Ef, Is in Rn.
  assert (O : exists resp, response_id resp = Some id /\ In (c, resp) (q_outs q)).
  { destruct (run_method A (q_app q1) call) as [[a' [d|er]]|]; [| |discriminate];
    apply seq_outs_grow in Rn as (o & ->); eexists; (split; [|apply in_app_iff; left; apply in_app_iff; right; left; reflexivity]); reflexivity. }
  destruct O as (resp & Rid & Ho). exists resp. split; [|exact Rid].
  unfold rx_alive in Rx. unfold received. destruct (nth_error (st_conns s) c) as [cn|] eqn:Ec; [|discriminate].
  destruct (I_loop _ _ _ _ I c cn Ec) as [_ Q]. specialize (Q Rx).
  assert (Hin : In resp (from_loop (cn_out cn))).
  { rewrite Q. unfold outs_to. apply in_map_iff. exists (c, resp). split; [reflexivity|]. apply filter_In. split; [exact Ho | apply PeanoNat.Nat.eqb_refl]. }
  unfold from_loop in Hin. apply in_map_iff in Hin as ([o r'] & <- & Hin). apply filter_In in Hin as [Hin G]. cbn in *. destruct o; [exact Hin | discriminate].
Qed.

Lemma received_srv p pe c : exists l, received (p_srv (pnext p pe)) c = received (p_srv p) c ++ l.
Proof.
  destruct (srv_next p pe) as [->|[(e & -> & _)|(e1 & e2 & -> & _)]].
  - exists []. now rewrite app_nil_r.
  - destruct (received_next (p_srv p) e c) as (l & -> & _). eauto.
  - destruct (received_next (next (p_srv p) e1) e2 c) as (l & -> & _). destruct (received_next (p_srv p) e1 c) as (l' & -> & _).
    exists (l' ++ l). now rewrite app_assoc.
Qed.

(** ** A socket of the server writes its responses *)
Definition holds (s : sock A text) : nat := match sk_hold s with Some _ => 1 | None => 0 end.

Lemma write_next p e k s s' : nth_error (p_socks p) k = Some s -> sk_live s = true ->
  nth_error (p_socks (pnext p e)) k = Some s' -> sk_live s' = true ->
  (length (sk_out s') = length (sk_out s) /\ holds s' = holds s) \/
  (e = PTake k /\ holds s = 0 /\ holds s' = 1 /\ length (sk_out s') = length (sk_out s)) \/
  (e = PWrote k true /\ holds s = 1 /\ holds s' = 0 /\ length (sk_out s') = S (length (sk_out s))).
Proof.
  intros H L H' L'.
  assert (Same : nth_error (p_socks p) k = Some s' ->
    (length (sk_out s') = length (sk_out s) /\ holds s' = holds s) \/
    (e = PTake k /\ holds s = 0 /\ holds s' = 1 /\ length (sk_out s') = length (sk_out s)) \/
    (e = PWrote k true /\ holds s = 1 /\ holds s' = 0 /\ length (sk_out s') = S (length (sk_out s)))).
  { intros Q. rewrite H in Q. injection Q as ->. now left. }
  revert H'. destruct e as [e| |k' f|k'|k' ok]; cbn [Pump.pnext].
  - destruct (foreign _ e); exact Same.
  - destruct (Nat.eqb _ 0); [exact Same|]. cbn. rewrite nth_error_app1 by (now apply nth_some_lt in H). exact Same.
  - destruct (nth_error (p_socks p) k') as [s1|] eqn:E; [|exact Same]. destruct (sk_live s1); [|exact Same].
    unfold on_frame, consumed, hang_up, with_sock, with_srv. cbn [p_srv p_socks].
    assert (Upd : forall g, (forall x, sk_out (g x) = sk_out x /\ (sk_live (g x) = true -> holds (g x) = holds x)) ->
      nth_error (upd k' g (p_socks p)) k = Some s' -> length (sk_out s') = length (sk_out s) /\ holds s' = holds s).
    { intros g Hg. rewrite nth_upd, H. destruct (Nat.eqb k' k); cbn; intros [= <-]; [|auto]. destruct (Hg s) as [-> Q]. auto. }
    destruct f as [t| | |]; cbn [p_srv p_socks].
    + destruct (step (p_srv p) (EvSend (sk_conn s1) (decode t))) as [srv [|[]|o]]; cbn [p_srv p_socks];
        try rewrite PumpProofs.upd_upd; intros H'; left; (eapply Upd; [|exact H']; intros x; (split; [reflexivity | cbn; solve [reflexivity | discriminate]])).
    + intros H'. left. (eapply Upd; [|exact H']; intros x; (split; [reflexivity | cbn; solve [reflexivity | discriminate]])).
    + rewrite PumpProofs.upd_upd. intros H'. left. (eapply Upd; [|exact H']; intros x; (split; [reflexivity | cbn; solve [reflexivity | discriminate]])).
    + rewrite PumpProofs.upd_upd. intros H'. left. (eapply Upd; [|exact H']; intros x; (split; [reflexivity | cbn; solve [reflexivity | discriminate]])).
  - destruct (nth_error (p_socks p) k') as [s1|] eqn:E; [|exact Same].
    destruct (sk_live s1); [|exact Same]. destruct (sk_hold s1) eqn:Hh; [exact Same|].
    unfold on_take. destruct (step _ _) as [srv [|b|[r|]]]; try exact Same.
    unfold with_sock, with_srv. cbn [p_socks]. rewrite nth_upd, H. destruct (Nat.eqb_spec k' k) as [->|]; [|intros [= <-]; now left].
    assert (s1 = s) as -> by congruence. intros [= <-]. right. left. unfold holds. rewrite Hh. auto.
  - destruct (nth_error (p_socks p) k') as [s1|] eqn:E; [|exact Same].
    destruct (sk_live s1); [|exact Same]. destruct (sk_hold s1) eqn:Hh; [|exact Same].
    unfold on_wrote, hang_up, with_sock, with_srv. destruct ok; cbn [p_socks]; rewrite nth_upd, H; (destruct (Nat.eqb_spec k' k) as [->|]; [|intros [= <-]; now left]);
      (assert (s1 = s) as -> by congruence); intros [= <-].
    + right. right. unfold holds. rewrite Hh. cbn. rewrite app_length. cbn. split; [reflexivity|]. split; [reflexivity|]. split; [reflexivity|]. lia.
    + discriminate.
Qed.

Lemma write_take a p k s : preachable a p -> nth_error (p_socks p) k = Some s -> sk_live s = true -> sk_hold s = None ->
  length (sk_out s) < length (responses (p_srv p) (sk_conn s)) ->
  exists s', nth_error (p_socks (pnext p (PTake k))) k = Some s' /\ holds s' = 1.
Proof.
  intros [es ->] H L Hh Lt. destruct (pi_conn _ _ a _ (prun_inv decode encode a es) k s H) as (cn & E & Hok).
  destruct (so_live _ _ _ _ _ Hok L) as [Rx _]. destruct (so_out _ _ _ _ _ Hok) as (ws & rest & O & F & Lr & _). specialize (Lr L). subst rest.
  rewrite Hh in F. cbn in F. rewrite app_nil_r in F. pose proof (so_read _ _ _ _ _ Hok) as Rd.
  assert (Lw : length (sk_out s) = cn_read cn). { rewrite O, map_length, <- F, firstn_length, map_length. lia. }
  unfold responses, received in Lt. rewrite E, map_length, Lw in Lt.
  destruct (nth_error (cn_out cn) (cn_read cn)) as [[o r]|] eqn:En; [|apply nth_error_None in En; lia].
  cbn [Pump.pnext]. rewrite H, L, Hh. unfold on_take. rewrite (step_read _ _ cn o r E Rx En). unfold with_sock, with_srv. cbn [p_socks].
  rewrite nth_upd, H, PeanoNat.Nat.eqb_refl. cbn. eexists. split; [reflexivity | reflexivity].
Qed.

Lemma write_wrote p k s : nth_error (p_socks p) k = Some s -> sk_live s = true -> holds s = 1 ->
  exists s', nth_error (p_socks (pnext p (PWrote k true))) k = Some s' /\ holds s' = 0.
Proof.
  intros H L Hh. cbn [Pump.pnext]. rewrite H, L. unfold holds in Hh. destruct (sk_hold s) as [r|] eqn:E; [|discriminate].
  unfold on_wrote, with_sock. cbn [p_socks]. rewrite nth_upd, H, PeanoNat.Nat.eqb_refl. cbn. eexists. split; reflexivity.
Qed.
End E2ELive.
