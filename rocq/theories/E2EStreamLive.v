(** Streams: every value is heard. *)
From Coq Require Import List Arith NArith Bool Lia.
From Verif Require Import Util Server ServerSpec ServerProofs ServerLemmas Pump PumpSpec PumpProofs.
From Verif Require Import Client ClientSpec ClientProofs ClientSockProofs E2E E2ESpec E2EStreamSpec E2EProofs E2ESafe.
From Verif Require Import E2ELive E2EFlow E2EStream.
Import ListNotations.

Section E2EStreamLive.
Context {R text K D : Type} (enc : N -> R -> option text) (read : text -> option (K * D)) (same : K -> N -> bool).
Context {A : app} (decode : text -> msg A) (encode : response A -> text).
Local Notation world := (world text K D A).
Local Notation wevent := (wevent R text A).
Local Notation client := (client text K D).
Local Notation wnext := (wnext enc read same decode encode).
Local Notation wrun := (wrun enc read same decode encode).
Local Notation at_time := (at_time enc read same decode encode).
Local Notation cnext := (cnext enc read same).
Local Notation creachable := (creachable enc read same).
Local Notation wreachable := (wreachable enc read same decode encode).
Implicit Types (w : world).

Lemma stream_place n c r t : creachable c -> user c = true -> enc (bump (cl_id c)) r = Some t ->
  held (cnext c (UStream r)) n -> place n (bump (cl_id c), t) (cnext c (UStream r)).
Proof.
  intros Hr Hu He. cbn [Client.cnext]. rewrite Hu. unfold subscribe. cbn zeta. cbn [set_id cl_id]. rewrite He.
  set (c1 := set_stores _ _).
  assert (Hs1 : Shape c1). { apply (shape_same c1 c); [repeat split | reflexivity|]. now apply (shape_inv enc read same). }
  destruct (busy_dec c1) as [B|(m & E' & S)].
  - rewrite send_wait by assumption. unfold wait. destruct (shape_open c1 Hs1 B) as [Hs2 Op].
    destruct (open c1) as [c2 q] eqn:Eo. cbn [fst snd] in *. intros H.
    assert (Hn : held c2 n) by exact H.
    assert (n = q).
    { destruct Hn as [Hn|Hn]; [pose proof (sh_conn c2 Hs2 n Hn) | pose proof (sh_open c2 Hs2 n Hn)]; congruence. }
    subst q. left. split; [|cbn; apply in_app_iff; right; now left].
    destruct Hn as [Hn|Hn]; [exact Hn|]. pose proof (sh_open c2 Hs2 n Hn). congruence.
  - rewrite (send_open _ c1 m E' S). intros H. unfold held in H. rewrite state_push in H.
    pose proof (lo_held c1 (sh_loose c1 Hs1) n H) as Q. assert (n = m) as -> by congruence.
    right. rewrite state_push, sent_push, PeanoNat.Nat.eqb_refl by assumption. split; [exact S|]. apply in_app_iff. right. now left.
Qed.

Lemma listen_held c k n : held (cnext c (UListen k)) n -> held c n.
Proof. cbn [Client.cnext]. destruct (user c); [|auto]. destruct (nth_error (cl_stores c) k); auto. Qed.

Lemma starts_stay l : forall q q' : seqst A, seq_run q l = Some q' -> exists s, q_starts q' = q_starts q ++ s.
Proof.
  induction l as [|m l IH]; intros q q' H; cbn in H.
  - injection H as <-. exists []. now rewrite app_nil_r.
  - destruct (seq_step q m) as [q1|] eqn:E; [|discriminate]. destruct (IH _ _ H) as (s & ->).
    assert (O : exists s1, q_starts q1 = q_starts q ++ s1).
    { destruct m as [c0 [[id v|id]|err]]; cbn in E.
      - destruct (from_value A v) as [call|er].
        + destruct (is_stream A call).
          * destruct (open_stream A _ call); [|discriminate]. injection E as <-. eexists. reflexivity.
          * destruct (run_method A _ call) as [[a' [d|er]]|]; [| |discriminate]; injection E as <-; exists []; cbn; now rewrite app_nil_r.
        + injection E as <-. exists []. cbn. now rewrite app_nil_r.
      - injection E as <-. exists []. cbn. now rewrite app_nil_r.
      - injection E as <-. exists []. cbn. now rewrite app_nil_r. }
    destruct O as (s1 & ->). exists (s1 ++ s). now rewrite app_assoc.
Qed.

(** A stream call that has been processed has its task. *)
Lemma opened a (s : state A) b c id v call : reachable a s -> alive (st_loop s) = true ->
  nth_error (st_sent s) b = Some (c, inl (Exec id v)) -> from_value A v = inl call -> is_stream A call = true ->
  b < taken s - occupied s ->
  exists before after q q' tk, st_sent s = before ++ (c, inl (Exec id v)) :: after /\ length before = b /\
    seq_run (seq_init a) before = Some q /\ open_stream A (q_app q) call = Some (q_app q') /\
    seq_run (seq_init a) (before ++ [(c, inl (Exec id v))]) = Some q' /\
    nth_error (st_tasks s) (length (q_starts q)) = Some tk /\ tk_conn tk = c /\ tk_id tk = id.
Proof.
  intros [es ->] Al E Ef Is L. destruct (inv_run a es) as (done & q & I). set (s := run (init a) es) in *.
  destruct (I_sent _ _ _ _ I) as (l & Es & F).
  assert (Ld : b < length done).
  { unfold taken, occupied, inflight in *. rewrite Es, app_length in L.
    destruct (st_loop s) as [|c0 id0 call0| |]; try discriminate.
    - rewrite F in L. lia.
    - destruct F as (v0 & _ & _ & ->). cbn in L. lia. }
  rewrite Es, nth_error_app1 in E by assumption.
  destruct (nth_error_split _ _ E) as (l1 & l2 & Ed & El).
  pose proof (I_run _ _ _ _ I) as Rn. rewrite Ed, seq_run_app in Rn.
  destruct (seq_run (seq_init a) l1) as [q1|] eqn:E1; [|discriminate]. cbn in Rn. rewrite Ef, Is in Rn.
  destruct (open_stream A (q_app q1) call) as [a'|] eqn:Eo; [|discriminate].
  set (q2 := mkSeq _ _ _ _) in Rn. pose proof Rn as Rn'. apply starts_stay in Rn as (s1 & Hs).
  assert (Ht : nth_error (map (fun t => (tk_conn t, tk_id t)) (st_tasks s)) (length (q_starts q1)) = Some (c, id)).
  { rewrite (I_starts _ _ _ _ I), Hs. unfold q2. cbn. rewrite <- app_assoc, nth_error_app2, Nat.sub_diag by apply le_n. reflexivity. }
  rewrite nth_error_map in Ht. destruct (nth_error (st_tasks s) (length (q_starts q1))) as [tk|] eqn:Et; [|discriminate].
  injection Ht as H1 H2. exists l1, (l2 ++ l), q1, q2, tk.
  split; [rewrite Es, Ed, <- app_assoc; reflexivity|]. split; [exact El|]. split; [exact E1|]. split; [exact Eo|].
  split; [|auto]. rewrite (seq_run_snoc _ _ _ q1 E1). cbn. now rewrite Ef, Is, Eo.
Qed.

Section Codecs.
Context (val : R -> Json A) (data : Json A -> D).
Hypothesis U : understand enc read same decode encode val data.

Section Schedule.
Context (a : St A) (w0 : world) (r : R) (t : text) (call : Call A) (n : nat) (sigma : nat -> wevent).
Let id := bump (cl_id (w_cl w0)).
Let j := length (cl_subs (w_cl w0)).
Let w1 := wnext w0 (WClient (UStream r)).
Let w2 := wnext w1 (WClient (UListen (length (cl_stores (w_cl w0))))).
Let W := at_time w2 sigma.
Hypothesis (Hr0 : wreachable a w0) (Hu : user (w_cl w0) = true) (He : enc id r = Some t).
Hypothesis (Hd : decode t = inl (Exec id (val r))) (Hf : from_value A (val r) = inl call) (Hst : is_stream A call = true).
Hypothesis Fa : fair enc read same decode encode w2 sigma n.
Local Notation good := (good enc read same decode encode w2 n sigma).
Local Notation downs := (downs enc read same decode encode w2 sigma).
Local Notation outs := (outs enc read same decode encode w2 sigma).
Local Notation recv := (recv enc read same decode encode w2 sigma).
Local Notation based := (based enc read same decode encode w2 n sigma).
Hypothesis Lv : forall i, lives (W i) n.
Hypothesis Co : forall i, countable (w_cl (W i)).
Hypothesis Nt : forall i, no_throws (w_cl (W i)).
Hypothesis Li : forall i s, nth_error (cl_subs (w_cl (W i))) j = Some s -> su_live s = true.

Lemma Gd i : good i.
Proof. intros i' _. split; [apply Lv | apply Co]. Qed.
Lemma Ok i : False \/ good i.
Proof. right. apply Gd. Qed.
Lemma Hw1 : wreachable a w1.
Proof. now apply wreach_next. Qed.
Lemma Hw2 : wreachable a w2.
Proof. apply wreach_next, Hw1. Qed.
Lemma Wr i : wreachable a (W i).
Proof. unfold W. rewrite at_time_run. apply wreach_run. exact Hw2. Qed.
Lemma Wcl i : creachable (w_cl (W i)).
Proof. apply (parts _ _ _ _ _ a (W i) (Wr i)). Qed.
Lemma Wsr i : reachable a (p_srv (w_sv (W i))).
Proof. apply (PumpProofs.refines decode encode a). apply (parts _ _ _ _ _ a (W i) (Wr i)). Qed.

Lemma P0 : good 0 -> place n (id, t) (w_cl w2).
Proof.
  intros _. destruct (parts _ _ _ _ _ a w0 Hr0) as [Hcl0 _], (parts _ _ _ _ _ a w1 Hw1) as [Hcl1 _].
  destruct (Lv 0) as [Hh _]. change (held (cnext (w_cl w1) (UListen (length (cl_stores (w_cl w0))))) n) in Hh.
  apply (place_next enc read same n (id, t) (w_cl w1) (UListen (length (cl_stores (w_cl w0)))) Hcl1 Hh).
  apply stream_place; auto. apply listen_held in Hh. exact Hh.
Qed.

Lemma own_at i : own id t (w_cl (W i)).
Proof.
  destruct (parts _ _ _ _ _ a w0 Hr0) as [Hcl0 _]. pose proof (Co i) as Ci. unfold W in *. rewrite at_time_run in *.
  apply (own_wrun _ _ _ _ _ a); [exact Hw2 | exact Ci|]. pose proof (wcount_run _ _ _ _ _ _ _ Ci) as C2.
  apply (own_wnext _ _ _ _ _ a); [exact Hw1 | exact C2|]. apply own_stream; auto. change (countable (w_cl w1)). eapply wcount_back. exact C2.
Qed.

Lemma id_bound : (id <= 2 ^ 53)%N.
Proof. pose proof (own_at 0) as [H _]. pose proof (id_small enc read same _ (Wcl 0)). lia. Qed.

(** The stream is opened. *)
Lemma stream_opens : exists i tk, streams a (W i) id (val r) call tk.
Proof.
  destruct (starts enc read same decode encode a w2 id t n sigma Hw2 Fa False Ok P0) as [[]|(i0 & p & l & k & c & G0 & Ep & B0)].
  destruct (comes_up enc read same decode encode a w2 id t (val r) n sigma Hw2 Hd Fa False Ok i0 p l k c G0 Ep B0) as [[]|(i & b & Li0 & Gi & Eb & Lb)].
  fold W in Eb, Lb. pose proof (based_all _ _ _ _ _ _ _ _ _ _ _ _ B0 i Gi Li0) as Bi.
  destruct (opened a _ b c id (val r) call (Wsr i) (proj1 (proj2 (Lv i))) Eb Hf Hst Lb) as (before & after & q & q' & tk & H1 & H2 & H3 & H4 & H5 & H6 & H7 & H8).
  pose proof (based_ours _ _ _ _ _ _ _ _ _ _ _ _ Bi) as Ho. fold W in Ho.
  exists i, tk, c, before, after, q, (q_app q'). split; [exact H1|]. split; [exact Ho|]. split; [exact H3|]. split; [exact H4|].
  split; [eauto|]. split; [exact H6|]. split; [exact H7|]. split; [exact H8|].
  intros x Hx. apply (calls_once enc read same decode encode val data U a (W i) id _ _ (Wr i) (Co i) Hx).
  exists c, (val r). split; [|exact Ho]. now rewrite H2.
Qed.

(** The socket the call went over. *)
Lemma over_n i x s : In x (w_links (W i)) -> nth_error (p_socks (w_sv (W i))) (ln_pump x) = Some s ->
  In (sk_conn s, inl (Exec id (val r))) (st_sent (p_srv (w_sv (W i)))) -> ln_sock x = n.
Proof.
  intros Hx Es Hin. destruct (starts enc read same decode encode a w2 id t n sigma Hw2 Fa False Ok P0) as [[]|(i0 & p & l & k & c & G0 & Ep & B0)].
  pose proof (exec_sent enc read same decode encode val data U a (W i) x s id _ (Wr i) Hx Es Hin) as Ix.
  destruct (Nat.eq_dec (ln_sock x) n) as [Q|N]; [exact Q|]. exfalso.
  destruct (opened_stays enc read same decode encode a w2 id t n sigma Hw2 i0 (i + i0) p (Gd _) ltac:(lia) Ep) as [En _]. fold W in En.
  assert (In' : In id (map fst (sent_on (w_cl (W (i + i0))) n))).
  { apply in_map_iff. exists (id, t). split; [reflexivity | now apply nth_error_In in En]. }
  assert (Ix' : In id (map fst (sent_on (w_cl (W (i + i0))) (ln_sock x)))).
  { destruct (grows (fun i => sent_on (w_cl (W i)) (ln_sock x)) (sent_grows enc read same decode encode a w2 (ln_sock x) sigma Hw2) i (i + i0) ltac:(lia)) as (e & ->).
    rewrite map_app. apply in_app_iff. now left. }
  pose proof (times_two (w_cl (W (i + i0))) _ _ id N Ix' In'). pose proof (sent_once enc read same _ id (Wcl (i + i0)) (Co (i + i0))). lia.
Qed.

(** What was sent by then is told. *)
Lemma all_told i tk : streams a (W i) id (val r) call tk ->
  exists i', i <= i' /\ prefix (values data tk) (told same id (cl_msgs (w_cl (W i')))).
Proof.
  intros (c & before & after & q & a' & S1 & (x & s & Hx & Es & Ec) & S3 & S4 & S5 & S6 & S7 & S8 & S9). subst c.
  assert (Hin : In (sk_conn s, inl (Exec id (val r))) (st_sent (p_srv (w_sv (W i))))) by (rewrite S1; apply in_app_iff; right; now left).
  pose proof (over_n i x s Hx Es Hin) as En.
  pose proof (exec_sent enc read same decode encode val data U a (W i) x s id _ (Wr i) Hx Es Hin) as Ix. rewrite En in Ix.
  apply in_map_iff in Ix as ([id' t'] & E' & Ix). cbn in E'. subst id'.
  assert (t' = t) as -> by (apply (own_at i); exact (sent_on_stuff _ _ _ Ix)).
  apply In_nth_error in Ix as (p & Ep). destruct (In_nth_error _ _ Hx) as (l & El).
  destruct (Lv i) as (_ & _ & Lx). destruct (Lx x Hx En) as (s' & Es' & Ls). assert (s' = s) as -> by congruence.
  assert (B0 : based l (ln_pump x) (sk_conn s) i) by (exists x, s; auto 10).
  assert (Ho : is_ours (W i) (sk_conn s)) by (exists x, s; auto).
  set (u := length (q_starts q)) in *.
  (* everything of the stream has been sent to the connection *)
  assert (All : flat_map (says read same encode id) (map snd (recv (sk_conn s) i)) = values data tk).
  { rewrite (only_task read same encode id u).
    - rewrite <- (says_items enc read same decode encode val data U id tk id_bound). f_equal.
      destruct (Wsr i) as (es & Esr). destruct (inv_run a es) as (done & q0 & I). rewrite <- Esr in I.
      pose proof (rx_based enc read same decode encode a w2 n sigma Hw2 i l _ _ B0 i (Gd i) (le_n i)) as Rx. fold W in Rx.
      unfold E2EFlow.recv. fold W. unfold received, rx_alive in *.
      destruct (nth_error (st_conns (p_srv (w_sv (W i)))) (sk_conn s)) as [cn|] eqn:Ecn; [|discriminate].
      pose proof (I_task _ _ _ _ I (sk_conn s) cn u tk Ecn S6) as Q. rewrite S7, PeanoNat.Nat.eqb_refl in Q. destruct Q as [_ Q]. rewrite (Q Rx), S8. reflexivity.
    - apply (said_by_task enc read same decode encode val data U a (W i) (sk_conn s) u tk id r t call); auto using Wr, own_at, id_bound.
      now rewrite S7. }
  destruct (recv (sk_conn s) i) as [|y ys] eqn:Er.
  { exists i. split; [lia|]. cbn in All. rewrite <- All. eexists. reflexivity. }
  set (m := length ys). assert (Em : exists o resp, nth_error (recv (sk_conn s) i) m = Some (o, resp)).
  { destruct (nth_error (recv (sk_conn s) i) m) as [[o resp]|] eqn:E; [eauto|]. apply nth_error_None in E. rewrite Er in E. cbn in E. unfold m in E. lia. }
  destruct Em as (o & resp & Em).
  destruct (comes_down enc read same decode encode a w2 id t n sigma Hw2 Fa False Ok i p l _ _ Ep B0 i m o resp (Gd i) (le_n i) Em) as [[]|(i' & L' & _ & Ld)].
  exists i'. split; [exact L'|].
  destruct (based_all _ _ _ _ _ _ _ _ _ _ _ _ B0 i' (Gd i') L') as (x' & s' & H1 & H2 & H3 & H4 & H5 & H6). fold W in H1, H4.
  pose proof (nth_error_In _ _ H1) as Hx'. rewrite <- H3 in H4.
  assert (Hin' : In (sk_conn s', inl (Exec id (val r))) (st_sent (p_srv (w_sv (W i'))))).
  { apply In_nth_error in Hin as (b & Eb). rewrite H6.
    exact (nth_error_In _ _ (sent_stays enc read same decode encode a w2 n sigma Hw2 i i' b _ (Gd i') L' Eb)). }
  pose proof (only_link enc read same decode encode val data U a (W i') id _ x' s' (Wr i') (Co i') id_bound Hx' H4 Hin') as On.
  rewrite (told_by enc read same decode encode a (W i') id (Wr i') x' s' Hx' H4 On).
  destruct (parts _ _ _ _ _ a (W i') (Wr i')) as [_ Hp]. destruct (frames_out decode encode a (w_sv (W i')) (ln_pump x') s' Hp H4) as (N & O & LN & _).
  destruct (wi_link _ _ (winv_inv enc read same decode encode a (W i') (Wr i')) x' Hx') as (_ & s2 & Z1 & _ & _ & Z2). assert (s2 = s') as -> by congruence.
  assert (Ed : downs l i' = ln_down x') by (unfold E2EFlow.downs; fold W; now rewrite H1). rewrite Ed in Ld.
  rewrite O, firstn_map, firstn_firstn. rewrite O, map_length, firstn_length in Z2.
  destruct (grows (recv (sk_conn s)) (recv_grow enc read same decode encode w2 sigma (sk_conn s)) i i' L') as (e & Eg).
  unfold responses. change (received (p_srv (w_sv (W i'))) (sk_conn s')) with (recv (sk_conn s') i'). rewrite H6, Eg.
  rewrite <- (firstn_skipn (S m) (firstn (Nat.min (ln_down x') N) _)), map_app, flat_map_app, firstn_firstn, map_app.
  assert (Lm : length (map snd (recv (sk_conn s) i)) = S m) by (rewrite Er, map_length; reflexivity).
  assert (Mn : Nat.min (S m) (Nat.min (ln_down x') N) = S m) by lia. rewrite Mn.
  rewrite firstn_app, Lm, Nat.sub_diag, firstn_O, app_nil_r, (firstn_all2 (map snd (recv (sk_conn s) i))) by lia.
  eexists. f_equal. rewrite <- All, <- Er. unfold says. rewrite !flat_map_concat_map, !map_map. reflexivity.
Qed.

Lemma told_grows i i' : i <= i' -> prefix (told same id (cl_msgs (w_cl (W i)))) (told same id (cl_msgs (w_cl (W i')))).
Proof.
  intros L. destruct (grows (fun i => map fst (cl_msgs (w_cl (W i))))) with (i := i) (i' := i') as (l & E); [|exact L|].
  - intros x. change (W (S x)) with (wnext (W x) (sigma x)).
    destruct (cl_next enc read same decode encode (W x) (sigma x)) as [-> | (ce & ->)]; [exists []; now rewrite app_nil_r|]. apply msgs_grow.
  - unfold told. rewrite E, flat_map_app. eexists. reflexivity.
Qed.

Lemma all_heard i tk m d : streams a (W i) id (val r) call tk -> nth_error (values data tk) m = Some d ->
  exists i' s, i <= i' /\ nth_error (cl_subs (w_cl (W i'))) j = Some s /\ nth_error (su_seen s) m = Some d.
Proof.
  intros S E. destruct (all_told i tk S) as (i1 & L1 & P1).
  destruct (starts enc read same decode encode a w2 id t n sigma Hw2 Fa False Ok P0) as [[]|(i0 & p & l & k & c & G0 & Ep & (x0 & s0 & X1 & X2 & _))].
  destruct (fa_net _ _ _ _ _ _ _ _ Fa i0 l x0 X1 X2) as (_ & Fd & _). destruct (Fd i1) as (i2 & L2 & _ & Id). fold W in Id.
  pose proof (Co i2) as Ci. pose proof (Wcl i2) as Hcl. pose proof (Nt i2) as Ni. pose proof (Li i2) as Lii. pose proof (told_grows i1 i2 L2) as P2.
  pose proof (at_time_run enc read same decode encode w2 sigma i2) as Er. fold W in Er.
  destruct (listened enc read same decode encode val data U a w0 r t (map sigma (seq 0 i2)) Hr0 Hu He) as (s & Es & Ei & T).
  { fold w1 w2. rewrite <- Er. exact Ci. }
  fold w1 w2 j in Es, T. rewrite <- Er in Es, T. fold id in Ei.
  exists i2, s. split; [lia|]. split; [exact Es|].
  destruct (listener_told enc read same (w_cl (W i2)) j s Hcl Es) as (heard & aft & Q1 & _ & Q3 & Q4).
  rewrite T in Q1. cbn in Q1. rewrite (Q3 Ni) in Q1. rewrite (Q4 (Lii s Es)) in Q1.
  2:{ unfold idle in Id. destruct (cl_disp (w_cl (W i2))); [discriminate | reflexivity]. }
  rewrite app_nil_r, Ei in Q1. rewrite <- Q1. destruct P1 as (e1 & P1), P2 as (e2 & P2). rewrite P2, P1, <- app_assoc, nth_error_app1; [exact E | now apply nth_some_lt in E].
Qed.
End Schedule.

Theorem stream_flows a w0 r t call n sigma :
  let id := bump (cl_id (w_cl w0)) in
  let j := length (cl_subs (w_cl w0)) in
  let w2 := wnext (wnext w0 (WClient (UStream r))) (WClient (UListen (length (cl_stores (w_cl w0))))) in
  let W := at_time w2 sigma in
  wreachable a w0 -> user (w_cl w0) = true -> enc id r = Some t -> decode t = inl (Exec id (val r)) ->
  from_value A (val r) = inl call -> is_stream A call = true ->
  fair enc read same decode encode w2 sigma n ->
  (forall x, lives (W x) n /\ countable (w_cl (W x)) /\ no_throws (w_cl (W x)) /\
    forall s, nth_error (cl_subs (w_cl (W x))) j = Some s -> su_live s = true) ->
  (exists x tk, streams a (W x) id (val r) call tk) /\
  forall x tk m d, streams a (W x) id (val r) call tk -> nth_error (values data tk) m = Some d ->
    exists y s, x <= y /\ nth_error (cl_subs (w_cl (W y))) j = Some s /\ nth_error (su_seen s) m = Some d.
Proof.
  cbv zeta. intros Hr0 Hu He Hd Hf Hst Fa H. split.
  - apply (stream_opens a w0 r t call n sigma); auto; intros i; apply H.
  - intros x tk m d. apply (all_heard a w0 r t call n sigma); auto; intros i; apply H.
Qed.
End Codecs.
End E2EStreamLive.
