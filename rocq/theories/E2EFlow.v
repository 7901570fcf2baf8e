(** A text sent on a socket that lives: it is handled, and what is written back is delivered. *)
From Coq Require Import List Arith NArith Bool Lia.
From Verif Require Import Util Server ServerSpec ServerProofs ServerLemmas Pump PumpSpec PumpProofs.
From Verif Require Import Client ClientSpec ClientProofs ClientSockProofs E2E E2ESpec E2EProofs E2ESafe E2ELive.
Import ListNotations.

Section E2EFlow.
Context {R text K D : Type} (enc : N -> R -> option text) (read : text -> option (K * D)) (same : K -> N -> bool).
Context {A : app} (decode : text -> msg A) (encode : response A -> text).
Local Notation world := (world text K D A).
Local Notation wevent := (wevent R text A).
Local Notation client := (client text K D).
Local Notation wnext := (wnext enc read same decode encode).
Local Notation wrun := (wrun enc read same decode encode).
Local Notation at_time := (at_time enc read same decode encode).
Local Notation cnext := (cnext enc read same).
Local Notation pnext := (pnext decode encode).
Local Notation creachable := (creachable enc read same).
Local Notation preachable := (preachable decode encode).
Local Notation wreachable := (wreachable enc read same decode encode).
Implicit Types (w : world).

(** Growing lists. *)
Lemma grows {X} (f : nat -> list X) : (forall i, exists l, f (S i) = f i ++ l) -> forall i i', i <= i' -> exists l, f i' = f i ++ l.
Proof.
  intros H i i' L. induction L as [|i' L IH]; [exists []; now rewrite app_nil_r|].
  destruct IH as (l & IH), (H i') as (l' & E). exists (l ++ l'). now rewrite E, IH, app_assoc.
Qed.
Lemma grows_nth {X} (f : nat -> list X) : (forall i, exists l, f (S i) = f i ++ l) -> forall i i' k x, i <= i' -> nth_error (f i) k = Some x -> nth_error (f i') k = Some x.
Proof.
  intros H i i' k x L E. destruct (grows f H i i' L) as (l & ->). rewrite nth_error_app1; [exact E | now apply nth_some_lt in E].
Qed.

Lemma crossing (f : nat -> nat) q i : f 0 <= q -> q < f i -> exists i', i' < i /\ f i' <= q /\ q < f (S i').
Proof.
  intros H0. induction i as [|i IH]; intros Hi; [lia|]. destruct (Nat.lt_ge_cases q (f i)) as [X|X].
  - destruct (IH X) as (i' & H1 & H2). exists i'. split; [lia | exact H2].
  - exists i. lia.
Qed.

Section Schedule.
Context (a : St A) (w1 : world) (id : N) (t : text) (v : Json A) (n : nat) (sigma : nat -> wevent).
Let W := at_time w1 sigma.
Hypothesis (Hw1 : wreachable a w1) (Hd : decode t = inl (Exec id v)).
Hypothesis Fa : fair enc read same decode encode w1 sigma n.
Definition good (i : nat) : Prop := forall i', i' <= i -> lives (W i') n /\ countable (w_cl (W i')).
(** [G]: the goal; the socket lives until it is reached. *)
Context (G : Prop).
Hypothesis Ok : forall i, G \/ good i.
Hypothesis P0 : good 0 -> place n (id, t) (w_cl w1).

Lemma good_le i i' : i' <= i -> good i -> good i'.
Proof. intros L H x Lx. apply H. lia. Qed.
Lemma Lv i : good i -> lives (W i) n.
Proof. intros H. apply (H i (le_n i)). Qed.
Lemma Co i : good i -> countable (w_cl (W i)).
Proof. intros H. apply (H i (le_n i)). Qed.

Lemma Wr i : wreachable a (W i).
Proof. unfold W. rewrite at_time_run. now apply wreach_run. Qed.
Lemma WS i : W (S i) = wnext (W i) (sigma i).
Proof. reflexivity. Qed.
Lemma Wcl i : creachable (w_cl (W i)).
Proof. apply (parts _ _ _ _ _ a (W i) (Wr i)). Qed.
Lemma Wsv i : preachable a (w_sv (W i)).
Proof. apply (parts _ _ _ _ _ a (W i) (Wr i)). Qed.
Lemma Wi i : WInv read (W i).
Proof. apply (winv_inv enc read same decode encode a). apply Wr. Qed.

Lemma Wplace i : good i -> place n (id, t) (w_cl (W i)).
Proof.
  induction i as [|i IH]; intros Gd; [exact (P0 Gd)|].
  specialize (IH (good_le (S i) i (le_S _ _ (le_n _)) Gd)). destruct (Lv (S i) Gd) as [Hh _]. rewrite WS in *.
  destruct (cl_next enc read same decode encode (W i) (sigma i)) as [E|(ce & E)]; rewrite E in *; [exact IH|].
  apply (place_next enc read same); [apply Wcl | exact Hh | exact IH].
Qed.

Lemma sent_grows i : exists l, sent_on (w_cl (W (S i))) n = sent_on (w_cl (W i)) n ++ l.
Proof.
  rewrite WS. destruct (cl_next enc read same decode encode (W i) (sigma i)) as [E|(ce & E)]; rewrite E.
  - exists []. now rewrite app_nil_r.
  - destruct (sends_on_open enc read same (w_cl (W i)) ce n (Wcl i)) as (l & El & _). eauto.
Qed.

Lemma opened_stays i0 i p : good i -> i0 <= i -> nth_error (sent_on (w_cl (W i0)) n) p = Some (id, t) ->
  nth_error (sent_on (w_cl (W i)) n) p = Some (id, t) /\ state_of (w_cl (W i)) n = Open.
Proof.
  intros Gd L E. pose proof (grows_nth (fun i => sent_on (w_cl (W i)) n) sent_grows i0 i p (id, t) L E) as E'. cbn in E'. split; [exact E'|].
  destruct (Lv i Gd) as ([Hc|Ho] & _); [|exact Ho]. exfalso.
  rewrite (lo_new _ (sh_loose _ (shape_inv enc read same _ (Wcl i))) n (or_introl Hc)) in E'. destruct p; discriminate.
Qed.

Section Linked.
Context (i0 p l k c : nat).
Hypothesis (Ep : nth_error (sent_on (w_cl (W i0)) n) p = Some (id, t)).
Definition based (i : nat) : Prop := exists x s, nth_error (w_links (W i)) l = Some x /\ ln_sock x = n /\ ln_pump x = k /\
  nth_error (p_socks (w_sv (W i))) k = Some s /\ sk_live s = true /\ sk_conn s = c.
Hypothesis B0 : based i0.

Lemma based_all i : good i -> i0 <= i -> based i.
Proof.
  intros Gd. induction 1 as [|i L IH]; [exact B0|]. specialize (IH (good_le (S i) i (le_S _ _ (le_n _)) Gd)). destruct IH as (x & s & H1 & H2 & H3 & H4 & H5 & H6).
  destruct (link_next enc read same decode encode (W i) (sigma i) l x H1) as (x' & Q1 & Q2 & Q3 & _). rewrite <- WS in Q1.
  destruct (Lv (S i) Gd) as (_ & _ & Lx). destruct (Lx x' (nth_error_In _ _ Q1)) as (s' & Q4 & Q5); [congruence|].
  exists x', s'. rewrite Q2, Q3, H3 in *. repeat split; auto.
  rewrite WS in Q4. destruct (sv_next enc read same decode encode (W i) (sigma i)) as [E|(pe & E)]; rewrite E in Q4; [congruence|].
  destruct (sock_next decode encode (w_sv (W i)) pe k s H4) as (s'' & Q6 & Q7 & _). congruence.
Qed.

Definition ups (i : nat) : nat := match nth_error (w_links (W i)) l with Some x => ln_up x | None => 0 end.
Definition downs (i : nat) : nat := match nth_error (w_links (W i)) l with Some x => ln_down x | None => 0 end.
Definition outs (i : nat) : list text := match nth_error (p_socks (w_sv (W i))) k with Some s => sk_out s | None => [] end.
Definition holding (i : nat) : nat := match nth_error (p_socks (w_sv (W i))) k with Some s => holds s | None => 0 end.
Definition recv (i : nat) := received (p_srv (w_sv (W i))) c.

Lemma alive_at i : good i -> alive (st_loop (p_srv (w_sv (W i)))) = true.
Proof. intros Gd. apply (Lv i Gd). Qed.
Lemma good_S i : good (S i) -> good i.
Proof. apply good_le. auto. Qed.
Lemma srv_reach i : reachable a (p_srv (w_sv (W i))).
Proof. apply (PumpProofs.refines decode encode a (w_sv (W i)) (Wsv i)). Qed.

Lemma outs_grow i : exists l', outs (S i) = outs i ++ l'.
Proof.
  unfold outs. rewrite WS. destruct (sv_next enc read same decode encode (W i) (sigma i)) as [E|(pe & E)]; rewrite E.
  - exists []. now rewrite app_nil_r.
  - destruct (nth_error (p_socks (w_sv (W i))) k) as [s|] eqn:Es.
    + destruct (sock_next decode encode (w_sv (W i)) pe k s Es) as (s' & -> & _ & (o & ->) & _). eauto.
    + destruct (nth_error (p_socks (pnext (w_sv (W i)) pe)) k); [eexists; reflexivity | exists []; reflexivity].
Qed.
Lemma recv_grow i : exists l', recv (S i) = recv i ++ l'.
Proof.
  unfold recv. rewrite WS. destruct (sv_next enc read same decode encode (W i) (sigma i)) as [E|(pe & E)]; rewrite E.
  - exists []. now rewrite app_nil_r.
  - apply received_srv.
Qed.

(** First, the text arrives. *)
Lemma arrives : good i0 -> G \/ exists i, i0 <= i /\ good i /\ p < ups i.
Proof.
  intros G0. destruct B0 as (x0 & s0 & X1 & X2 & _). destruct (fa_net _ _ _ _ _ _ _ _ Fa i0 l x0 X1 X2) as (Fu & _).
  apply (leads G (fun i => i0 <= i /\ good i) (fun i => good i /\ p < ups i) (fun i => S p - ups i) (fun _ i => sigma i = WUp l)); auto.
  - intros i [L Gd]. destruct (Ok (S i)) as [g|Gs]; [now left|]. right. right. right. split; [split; [lia | exact Gs]|].
    destruct (based_all i Gd L) as (x & s & H1 & _).
    destruct (link_next enc read same decode encode (W i) (sigma i) l x H1) as (x' & Q1 & _ & _ & Q4 & _).
    unfold ups. rewrite <- WS in Q1. rewrite H1, Q1. lia.
  - intros i [L Gd] _ Es. right. destruct (Nat.lt_ge_cases p (ups i)) as [Lt|Ge]; [now left|]. right. right.
    destruct (based_all i Gd L) as (x & s & H1 & H2 & H3 & H4 & H5 & H6). destruct (opened_stays i0 i p Gd L Ep) as [E' _].
    assert (Eu : ups i = ln_up x) by (unfold ups; now rewrite H1). rewrite Eu in Ge.
    destruct (nth_error (sent_on (w_cl (W i)) n) (ln_up x)) as [[id' t']|] eqn:En.
    2:{ apply nth_error_None in En. apply nth_some_lt in E'. lia. }
    assert (ups (S i) = S (ln_up x)); [|lia]. unfold ups. rewrite WS, Es. cbn [E2E.wnext]. rewrite H1, H2, En, H3, H4, H5. cbn [w_links].
    rewrite nth_upd, PeanoNat.Nat.eqb_refl, H1. reflexivity.
Qed.

Lemma accepted i : good i -> i0 <= i -> p < ups i -> exists b, nth_error (st_sent (p_srv (w_sv (W i)))) b = Some (c, inl (Exec id v)).
Proof.
  intros Gd L Lu. destruct (based_all i Gd L) as (x & s & H1 & H2 & H3 & H4 & H5 & H6). destruct (opened_stays i0 i p Gd L Ep) as [E' _].
  destruct (wi_link _ _ (Wi i) x (nth_error_In _ _ H1)) as (_ & s' & Q1 & Q2 & _). rewrite H3, H4 in Q1. injection Q1 as <-.
  destruct (frames_in decode encode a (w_sv (W i)) k s (Wsv i) H4) as (acc & ref & T1 & T2 & _ & T4).
  assert (ref = []) as ->. { destruct ref; [reflexivity|]. destruct T4 as [T4 _]; congruence. }
  rewrite app_nil_r in T1. unfold ups in Lu. rewrite H1 in Lu. rewrite H2 in Q2.
  assert (I : In t (texts (sk_in s))).
  { rewrite Q2. apply in_map_iff. exists (id, t). split; [reflexivity|]. apply nth_error_In with (n := p).
    pose proof (nth_some_lt _ _ _ E') as Lt. rewrite <- (firstn_skipn (ln_up x) (sent_on (w_cl (W i)) n)) in E'.
    rewrite nth_error_app1 in E'; [exact E'|]. rewrite firstn_length. lia. }
  rewrite T1 in I. apply (in_map decode) in I. rewrite <- T2, Hd, H6 in I. apply sent_by_in in I. now apply In_nth_error in I.
Qed.

(** Second, the loop comes to it. *)
Lemma srv_safe b i : good (S i) ->
  taken (p_srv (w_sv (W i))) - occupied (p_srv (w_sv (W i))) <= b ->
  b < taken (p_srv (w_sv (W (S i)))) - occupied (p_srv (w_sv (W (S i)))) \/
  (taken (p_srv (w_sv (W (S i)))) - occupied (p_srv (w_sv (W (S i)))) <= b /\ todo b (p_srv (w_sv (W (S i)))) <= todo b (p_srv (w_sv (W i)))).
Proof.
  intros Gs H. pose proof (alive_at (S i) Gs) as Al. pose proof (srv_reach i) as Hr. rewrite WS in *.
  destruct (sv_next enc read same decode encode (W i) (sigma i)) as [E|(pe & E)]; rewrite E in *; [right; auto|].
  destruct (srv_next decode encode (w_sv (W i)) pe) as [Q|[(e & Q & _)|(e1 & e2 & Q & _)]]; rewrite Q in *; [right; auto|..].
  - apply (todo_step a); auto.
  - assert (Al1 : alive (st_loop (next (p_srv (w_sv (W i))) e1)) = true).
    { destruct (alive (st_loop (next (p_srv (w_sv (W i))) e1))) eqn:X; [reflexivity|]. pose proof (dead_stays _ e2 X). congruence. }
    assert (Hr1 : reachable a (next (p_srv (w_sv (W i))) e1)) by (now apply reach_next).
    destruct (todo_step a b _ e1 Hr Al1 H) as [X|[X1 X2]].
    + destruct (loop_next a _ e2 Hr1 Al) as [_ X3]. left. lia.
    + destruct (todo_step a b _ e2 Hr1 Al X1) as [X|[X3 X4]]; [now left|]. right. lia.
Qed.

Lemma srv_event i e : sigma i = WServer (PServer e) -> e = EvRecv \/ e = EvMethodDone -> p_srv (w_sv (W (S i))) = next (p_srv (w_sv (W i))) e.
Proof. intros E [-> | ->]; rewrite WS, E; reflexivity. Qed.

Lemma sent_next i : good (S i) -> exists l', st_sent (p_srv (w_sv (W (S i)))) = st_sent (p_srv (w_sv (W i))) ++ l'.
Proof.
  intros Gd. pose proof (alive_at (S i) Gd) as Al. pose proof (srv_reach i) as Hr. rewrite WS in *.
  destruct (sv_next enc read same decode encode (W i) (sigma i)) as [E|(pe & E)]; rewrite E in *; [exists []; now rewrite app_nil_r|].
  destruct (srv_next decode encode (w_sv (W i)) pe) as [Q|[(e & Q & _)|(e1 & e2 & Q & _)]]; rewrite Q in *; [exists []; now rewrite app_nil_r|..].
  - apply (loop_next a); auto.
  - assert (Al1 : alive (st_loop (next (p_srv (w_sv (W i))) e1)) = true).
    { destruct (alive (st_loop (next (p_srv (w_sv (W i))) e1))) eqn:X; [reflexivity|]. pose proof (dead_stays _ e2 X). congruence. }
    assert (Hr1 : reachable a (next (p_srv (w_sv (W i))) e1)) by (now apply reach_next).
    destruct (loop_next a _ e2 Hr1 Al) as [(l2 & ->) _]. destruct (loop_next a _ e1 Hr Al1) as [(l1 & ->) _].
    exists (l1 ++ l2). now rewrite app_assoc.
Qed.
Lemma sent_stays i i' b m : good i' -> i <= i' -> nth_error (st_sent (p_srv (w_sv (W i)))) b = Some m -> nth_error (st_sent (p_srv (w_sv (W i')))) b = Some m.
Proof.
  intros Gd L E. induction L as [|i' L IH]; [exact E|]. specialize (IH (good_S i' Gd)). destruct (sent_next i' Gd) as (l' & ->).
  rewrite nth_error_app1; [exact IH | now apply nth_some_lt in IH].
Qed.

Lemma handled i1 b : good i1 -> i0 <= i1 -> nth_error (st_sent (p_srv (w_sv (W i1)))) b = Some (c, inl (Exec id v)) ->
  G \/ exists i, i1 <= i /\ good i /\ b < taken (p_srv (w_sv (W i))) - occupied (p_srv (w_sv (W i))).
Proof.
  intros G1 L1 Eb.
  assert (Go : forall i, i1 <= i /\ good i /\ taken (p_srv (w_sv (W i))) - occupied (p_srv (w_sv (W i))) <= b ->
    G \/ exists i', i <= i' /\ good i' /\ b < taken (p_srv (w_sv (W i'))) - occupied (p_srv (w_sv (W i')))).
  { apply (leads G _ _ (fun i => todo b (p_srv (w_sv (W i))))
      (fun v i => sigma i = WServer (PServer (if Nat.even v then EvRecv else EvMethodDone)))).
    - intros i (L & Gd & T). destruct (Ok (S i)) as [g|Gs]; [now left|]. right. right. destruct (srv_safe b i Gs T) as [X|[X1 X2]]; [left; auto|].
      right. split; [|exact X2]. split; [lia|]. auto.
    - intros z. destruct (Nat.even z); [apply (fa_loop _ _ _ _ _ _ _ _ Fa) | apply (fa_done _ _ _ _ _ _ _ _ Fa)].
    - intros i (L & Gd & T) (_ & Gs & _) Es. right. right. right. pose proof (alive_at i Gd) as Al. pose proof (alive_at (S i) Gs) as Al'.
      pose proof (sent_stays i1 i b _ Gd L Eb) as Ei. apply nth_some_lt in Ei.
      set (s := p_srv (w_sv (W i))) in *. assert (Hr : reachable a s) by apply srv_reach.
      assert (Ev : Nat.even (todo b s) = Nat.even (occupied s)). { unfold todo. rewrite Nat.even_add, Nat.even_mul. cbn. now destruct (Nat.even (occupied s)). }
      rewrite Ev in Es. pose proof (queue_le a s Hr Al) as Ql.
      assert (Oc : (occupied s = 0 /\ st_loop s = LIdle) \/ occupied s = 1).
      { unfold occupied. destruct (st_loop s); try discriminate; auto. }
      destruct Oc as [[Oc Li]|Oc]; rewrite Oc in Es; cbn in Es.
      + pose proof (srv_event i EvRecv Es (or_introl eq_refl)) as X. rewrite X in *. fold s in Al', X |- *.
        destruct (st_queue s) as [|m q] eqn:Eq; [exfalso; unfold taken in T; rewrite Eq in T; cbn in T; lia|].
        destruct (loop_next a s EvRecv Hr Al') as [_ [[Y1 Y2]|[(_ & Y1 & Y2 & Y3)|(Y0 & _)]]]; [| |discriminate].
        * exfalso. revert Y1 Al'. unfold taken, next. cbn [step]. rewrite Li, Eq. destruct m as [c1 m]. cbn [fst]. intros Y1 Al'.
          assert (Z : forall s', st_sent s' = st_sent s -> st_queue s' = q -> length (st_sent s') - length (st_queue s') = length (st_sent s) - length ((c1, m) :: q) -> False).
          { intros s' -> -> Z. cbn in Z. cbn in Ql. lia. }
          revert Y1 Al'. unfold handle. destruct m as [[id' v1|id']|er].
          -- destruct (from_value A v1) as [call'|er]; [|intros Y1 _; now apply (Z _) in Y1]. destruct (is_stream A call').
             ++ destruct (open_stream A _ call'); [intros Y1 _; now apply (Z _) in Y1 | discriminate].
             ++ intros Y1 _; now apply (Z _) in Y1.
          -- unfold cancel. destruct (m_get id' _); intros Y1 _; now apply (Z _) in Y1.
          -- intros Y1 _; now apply (Z _) in Y1.
        * unfold todo. lia.
      + pose proof (srv_event i EvMethodDone Es (or_intror eq_refl)) as X. rewrite X in *. fold s in Al', X |- *.
        destruct (loop_next a s EvMethodDone Hr Al') as [_ [[Y1 Y2]|[(Y0 & _)|(_ & Y1 & Y2 & Y3)]]]; [|discriminate|].
        * exfalso. revert Al' Y2. unfold occupied in *. unfold next. cbn [step]. destruct (st_loop s) as [|c1 id1 call1| |]; try discriminate.
          cbn [fst]. unfold method_done. destruct (run_method A _ call1) as [[a' res]|]; [|discriminate]. destruct (rx_alive s c1); discriminate.
        * unfold todo. lia. }
  destruct (Nat.lt_ge_cases b (taken (p_srv (w_sv (W i1))) - occupied (p_srv (w_sv (W i1))))) as [X|X]; [right; exists i1; auto|].
  apply (Go i1). auto.
Qed.

Lemma rx_based i : good i -> i0 <= i -> rx_alive (p_srv (w_sv (W i))) c = true.
Proof.
  intros Gd L. destruct (based_all i Gd L) as (x & s & H1 & H2 & H3 & H4 & H5 & H6).
  destruct (Wsv i) as (es & Ep'). rewrite Ep' in *.
  destruct (pi_conn _ _ a _ (prun_inv decode encode a es) k s H4) as (cn & E & Hok). destruct (so_live _ _ _ _ _ Hok H5) as [Rx _].
  rewrite H6 in E. unfold rx_alive. now rewrite E.
Qed.

(** Third, it is written. *)
Lemma written i2 q resp : good i2 -> i0 <= i2 -> nth_error (map snd (recv i2)) q = Some resp -> G \/ exists i, i2 <= i /\ good i /\ q < length (outs i).
Proof.
  intros G2 L2 Eq. destruct B0 as (x0 & s0 & X1 & X2 & X3 & _). destruct (fa_net _ _ _ _ _ _ _ _ Fa i0 l x0 X1 X2) as (_ & _ & Ft & Fw). rewrite X3 in *.
  assert (Go : forall i, i2 <= i /\ good i /\ length (outs i) <= q -> G \/ exists i', i <= i' /\ good i' /\ q < length (outs i')).
  { apply (leads G _ _ (fun i => 2 * (S q - length (outs i)) - holding i)
      (fun v i => sigma i = WServer (if Nat.even v then PTake k else PWrote k true))).
    - intros i (L & Gd & T). destruct (Ok (S i)) as [g|Gs]; [now left|]. right. right.
      destruct (Nat.lt_ge_cases q (length (outs (S i)))) as [X|X]; [left; auto|]. right. split; [split; [lia | auto]|].
      destruct (based_all i Gd) as (x & s & H1 & H2 & H3 & H4 & H5 & H6); [lia|].
      destruct (based_all (S i) Gs) as (x' & s' & H1' & H2' & H3' & H4' & H5' & H6'); [lia|].
      unfold outs, holding in *. rewrite H4, H4' in *. rewrite WS in H4'.
      destruct (sv_next enc read same decode encode (W i) (sigma i)) as [E|(pe & E)]; rewrite E in H4'.
      + assert (s' = s) as -> by congruence. lia.
      + pose proof (write_next decode encode (w_sv (W i)) pe k s s' H4 H5 H4' H5'). lia.
    - intros z. destruct (Nat.even z); assumption.
    - intros i (L & Gd & T) (_ & Gs & _) Es. right. right. right.
      destruct (based_all i Gd) as (x & s & H1 & H2 & H3 & H4 & H5 & H6); [lia|].
      destruct (based_all (S i) Gs) as (x' & s' & H1' & H2' & H3' & H4' & H5' & H6'); [lia|].
      unfold outs, holding in *. rewrite H4, H4' in *. rewrite WS in H4'.
      assert (Hh : holds s = 0 \/ holds s = 1) by (unfold holds; destruct (sk_hold s); auto).
      assert (Ev : Nat.even (2 * (S q - length (sk_out s)) - holds s) = Nat.even (holds s)).
      { destruct Hh as [->| ->].
        - rewrite Nat.sub_0_r, Nat.even_mul. reflexivity.
        - replace (2 * (S q - length (sk_out s)) - 1) with (1 + 2 * (q - length (sk_out s))) by lia.
          rewrite Nat.even_add, Nat.even_mul. reflexivity. }
      rewrite Ev in Es. destruct Hh as [Hh|Hh]; rewrite Hh in Es; cbn in Es; rewrite Es in H4'; cbn [E2E.wnext w_sv] in H4'.
      + pose proof (write_next decode encode (w_sv (W i)) _ k s s' H4 H5 H4' H5') as Wn.
        destruct (write_take decode encode a (w_sv (W i)) k s (Wsv i) H4 H5) as (s'' & Z1 & Z2).
        { unfold holds in Hh. now destruct (sk_hold s). }
        { pose proof (grows_nth recv recv_grow i2 i) as Gn. unfold responses. rewrite map_length.
          rewrite nth_error_map in Eq. destruct (nth_error (recv i2) q) as [y|] eqn:Ey; [|discriminate].
          specialize (Gn q y L Ey). apply nth_some_lt in Gn. unfold recv in Gn. rewrite H6. lia. }
        assert (s'' = s') as -> by congruence. destruct Wn as [Wn|[Wn|Wn]]; [lia | lia|]. destruct Wn as (Wn & _). discriminate.
      + pose proof (write_next decode encode (w_sv (W i)) _ k s s' H4 H5 H4' H5') as Wn.
        destruct (write_wrote decode encode (w_sv (W i)) k s H4 H5 Hh) as (s'' & Z1 & Z2).
        assert (s'' = s') as -> by congruence. destruct Wn as [Wn|[Wn|Wn]]; [lia|destruct Wn; discriminate | lia]. }
  destruct (Nat.lt_ge_cases q (length (outs i2))) as [X|X]; [right; exists i2; auto | apply (Go i2); auto].
Qed.

(** Fourth, it is delivered. *)
Lemma down_next i q : downs i <= q -> q < downs (S i) ->
  downs i = q /\ exists x s y, nth_error (w_links (W i)) l = Some x /\ nth_error (p_socks (w_sv (W i))) (ln_pump x) = Some s /\
    nth_error (sk_out s) q = Some y /\ idle (w_cl (W i)) = true /\ state_of (w_cl (W i)) (ln_sock x) = Open /\
    w_cl (W (S i)) = cnext (w_cl (W i)) (NMessage (ln_sock x) y).
Proof.
  unfold downs. rewrite WS. destruct (wmoves_ok enc read same decode encode (W i) (sigma i)) as [e | e ce N1 N2 | e pe N | m L Us P | l' y id' t' s E1 E2 E3 E4 | l' y t' s E1 E2 E3 E4 E5]; cbn [w_links w_cl].
  - lia.
  - lia.
  - lia.
  - destruct (nth_error (w_links (W i)) l) as [x|] eqn:Ex; [rewrite nth_error_app1 by (now apply nth_some_lt in Ex); rewrite Ex; lia|].
    intros _. destruct (nth_error (w_links (W i) ++ _) l) as [x|] eqn:Ex'; [|lia].
    apply nth_error_None in Ex. rewrite nth_error_app2 in Ex' by exact Ex. destruct (l - length (w_links (W i))) as [|[|]]; cbn in Ex'; [|discriminate..].
    injection Ex' as <-. cbn. lia.
  - rewrite nth_upd. destruct (nth_error (w_links (W i)) l) as [x|] eqn:Ex; destruct (Nat.eqb l' l); cbn; lia.
  - rewrite nth_upd. destruct (Nat.eqb_spec l' l) as [->|].
    + rewrite E1. cbn. intros H1 H2. assert (ln_down y = q) as Q by lia. split; [exact Q|]. rewrite Q in *. exists y, s, t'. auto 10.
    + lia.
Qed.

Lemma delivered i3 q : good i3 -> i0 <= i3 -> q < length (outs i3) -> G \/ exists i, i3 <= i /\ good i /\ q < downs i.
Proof.
  intros G3 L3 Lq. destruct B0 as (x0 & s0 & X1 & X2 & X3 & _). destruct (fa_net _ _ _ _ _ _ _ _ Fa i0 l x0 X1 X2) as (_ & Fd & _).
  apply (leads G (fun i => i3 <= i /\ good i) (fun i => good i /\ q < downs i) (fun i => S q - downs i)
    (fun _ i => sigma i = WDown l /\ idle (w_cl (W i)) = true)); auto.
  - intros i [L Gd]. destruct (Ok (S i)) as [g|Gs]; [now left|]. right. right. right. split; [split; [lia | exact Gs]|]. destruct (based_all i Gd) as (x & s & H1 & _); [lia|].
    destruct (link_next enc read same decode encode (W i) (sigma i) l x H1) as (x' & Q1 & _ & _ & _ & Q4 & _).
    unfold downs. rewrite <- WS in Q1. rewrite H1, Q1. lia.
  - intros i [L Gd] _ [Es Id]. right. destruct (Nat.lt_ge_cases q (downs i)) as [X|X]; [now left|]. right. right.
    destruct (based_all i Gd) as (x & s & H1 & H2 & H3 & H4 & H5 & H6); [lia|]. destruct (opened_stays i0 i p Gd) as [_ Op]; [lia | exact Ep |].
    assert (Ed : downs i = ln_down x) by (unfold downs; now rewrite H1). rewrite Ed in X.
    destruct (grows outs outs_grow i3 i L) as (l' & El). assert (Lo : q < length (outs i)) by (rewrite El, app_length; lia).
    unfold outs in Lo. rewrite H4 in Lo.
    destruct (nth_error (sk_out s) (ln_down x)) as [y|] eqn:Ey; [|apply nth_error_None in Ey; lia].
    assert (downs (S i) = S (ln_down x)); [|lia]. unfold downs. rewrite WS, Es. cbn [E2E.wnext]. rewrite H1, H3, H4, Ey, Id, H2, Op. cbn [w_links].
    rewrite nth_upd, PeanoNat.Nat.eqb_refl, H1. reflexivity.
Qed.

Lemma link_keeps i i' x : i <= i' -> nth_error (w_links (W i)) l = Some x ->
  exists x', nth_error (w_links (W i')) l = Some x' /\ ln_pump x' = ln_pump x.
Proof.
  intros L E. induction L as [|i' L IH]; [eauto|]. destruct IH as (x' & E' & P').
  destruct (link_next enc read same decode encode (W i') (sigma i') l x' E') as (x'' & Q1 & _ & Q3 & _). rewrite <- WS in Q1.
  exists x''. split; [exact Q1 | congruence].
Qed.
Lemma conn_keeps i i' s : i <= i' -> nth_error (p_socks (w_sv (W i))) k = Some s ->
  exists s', nth_error (p_socks (w_sv (W i'))) k = Some s' /\ sk_conn s' = sk_conn s.
Proof.
  intros L E. induction L as [|i' L IH]; [eauto|]. destruct IH as (s' & E' & P').
  rewrite WS. destruct (sv_next enc read same decode encode (W i') (sigma i')) as [Q|(pe & Q)]; rewrite Q; [eauto|].
  destruct (sock_next decode encode (w_sv (W i')) pe k s' E') as (s'' & Q1 & Q2 & _). exists s''. split; [exact Q1 | congruence].
Qed.
Lemma link_pump i x : nth_error (w_links (W i)) l = Some x -> ln_pump x = k.
Proof.
  intros E. destruct B0 as (y & s & H1 & H2 & H3 & _). destruct (Nat.le_ge_cases i i0) as [L|L].
  - destruct (link_keeps i i0 x L E) as (x' & E' & <-). congruence.
  - destruct (link_keeps i0 i y L H1) as (x' & E' & Ex). congruence.
Qed.
Lemma sock_conn i s : nth_error (p_socks (w_sv (W i))) k = Some s -> sk_conn s = c.
Proof.
  intros E. destruct B0 as (y & s'' & H1 & H2 & H3 & H4 & H5 & H6). destruct (Nat.le_ge_cases i i0) as [L|L].
  - destruct (conn_keeps i i0 s L E) as (s' & E' & <-). congruence.
  - destruct (conn_keeps i0 i s'' L H4) as (s' & E' & Es). congruence.
Qed.

Lemma outs_are i q y : nth_error (outs i) q = Some y -> exists o resp, nth_error (recv i) q = Some (o, resp) /\ y = encode resp.
Proof.
  unfold outs. destruct (nth_error (p_socks (w_sv (W i))) k) as [s|] eqn:E; [|destruct q; discriminate].
  destruct (frames_out decode encode a (w_sv (W i)) k s (Wsv i) E) as (m & -> & _). rewrite (sock_conn i s E). unfold responses.
  rewrite nth_error_map. fold (recv i). intros H.
  destruct (nth_error (firstn m (map snd (recv i))) q) as [resp|] eqn:Eq; [|discriminate]. injection H as <-.
  assert (Eq' : nth_error (map snd (recv i)) q = Some resp).
  { rewrite <- (firstn_skipn m (map snd (recv i))). rewrite nth_error_app1; [exact Eq | now apply nth_some_lt in Eq]. }
  rewrite nth_error_map in Eq'. destruct (nth_error (recv i) q) as [[o resp']|]; [|discriminate]. injection Eq' as <-. eauto.
Qed.


Lemma comes_down i q o resp : good i -> i0 <= i -> nth_error (recv i) q = Some (o, resp) ->
  G \/ exists i', i <= i' /\ good i' /\ q < downs i'.
Proof.
  intros Gd L E. destruct (written i q resp Gd L) as [g|(i3 & L3 & G3 & Lq)]; [rewrite nth_error_map, E; reflexivity | now left|].
  destruct (delivered i3 q G3) as [g|(i4 & L4 & G4 & Ld)]; [lia | exact Lq | now left|]. right. exists i4. split; [lia | auto].
Qed.
End Linked.

Lemma starts : G \/ exists i0 p l k c, good i0 /\ nth_error (sent_on (w_cl (W i0)) n) p = Some (id, t) /\ based l k c i0.
Proof.
  destruct (fa_open _ _ _ _ _ _ _ _ Fa) as (i0 & Op). change (state_of (w_cl (W i0)) n = Open) in Op.
  destruct (Ok i0) as [g|Gd]; [now left|]. right.
  destruct (Wplace i0 Gd) as [[X _]|[_ Hin]]; [congruence|]. apply In_nth_error in Hin as (p & Ep).
  destruct (wi_open _ _ (Wi i0) n Op) as (x & Hx & En). destruct (Lv i0 Gd) as (_ & _ & Lx). destruct (Lx x Hx En) as (s & E1 & E2).
  apply In_nth_error in Hx as (l & El).
  exists i0, p, l, (ln_pump x), (sk_conn s). split; [exact Gd|]. split; [exact Ep|]. exists x, s. auto 10.
Qed.

Lemma comes_up i0 p l k c : good i0 -> nth_error (sent_on (w_cl (W i0)) n) p = Some (id, t) -> based l k c i0 ->
  G \/ exists i b, i0 <= i /\ good i /\ nth_error (st_sent (p_srv (w_sv (W i)))) b = Some (c, inl (Exec id v)) /\
    b < taken (p_srv (w_sv (W i))) - occupied (p_srv (w_sv (W i))).
Proof.
  intros Gd0 Ep B0. destruct (arrives i0 p l k c Ep B0 Gd0) as [g|(i1 & L1 & G1 & Lu)]; [now left|].
  destruct (accepted i0 p l k c Ep B0 i1 G1 L1 Lu) as (b & Eb).
  destruct (handled i0 c i1 b G1 L1 Eb) as [g|(i2 & L2 & G2 & Lb)]; [now left|]. right.
  exists i2, b. split; [lia|]. split; [exact G2|]. split; [exact (sent_stays i1 i2 b _ G2 L2 Eb) | exact Lb].
Qed.

Lemma based_ours l k c i : based l k c i -> is_ours (W i) c.
Proof.
  intros (x & s & H1 & H2 & H3 & H4 & H5 & H6). exists x, s. rewrite H3. split; [now apply nth_error_In in H1 | auto].
Qed.
End Schedule.
End E2EFlow.
