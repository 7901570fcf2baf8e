(** The sockets of the running client and those of the model.  Proof side. *)
From Coq Require Import List String Ascii Bool Arith NArith ZArith Lia.
From Verif Require Import Util Js JsonText Wire TsProgram FileProofs ClientSpec JsSem JsRun JsFun JsSend JsCalls JsRequest JsEvents JsHeap.
From Verif Require Client ClientSockProofs.
Import ListNotations.
Local Open Scope string_scope.
Local Open Scope list_scope.

Definition link (w : out) : job := JThen (w_s w) (w_p w).
Lemma nodup_snoc {A} (l : list A) x : NoDup l -> ~ In x l -> NoDup (l ++ [x]).
Proof. intros H N. apply NoDup_rev in H. rewrite <- (rev_involutive (l ++ [x])). apply NoDup_rev. rewrite rev_app_distr. cbn. constructor; [now rewrite <- in_rev|exact H]. Qed.

Section Net.
Context {K D : Type}.
Notation client := (Client.client jstr K D).
Implicit Types c : client.

Lemma out_lt h rest so op th cnt sk tm sp ln lk c : SInv h rest so op th cnt sk tm sp ln lk c -> ~ In (List.length h) (map w_p (ln ++ lk)).
Proof.
  intros H I. apply in_map_iff in I as (w & E & Hw). pose proof (s_out H) as F. rewrite Forall_forall in F. destruct (F w Hw) as [A _].
  apply nth_some_lt in A. lia.
Qed.
Lemma to_lt h rest so op th cnt sk tm sp ln lk c w : SInv h rest so op th cnt sk tm sp ln lk c -> In w (ln ++ lk) -> w_n w < List.length (Client.cl_socks c).
Proof. intros H Hw. destruct (s_to H w Hw) as [A _]. apply nth_some_lt in A. now rewrite (s_sp H) in A. Qed.
Lemma waits_app c w l : Client.cl_waiting c = flat_map waits l -> Client.cl_waiting c ++ waits w = flat_map waits (l ++ [w]).
Proof. intros ->. rewrite flat_map_app. cbn. now rewrite app_nil_r. Qed.

Definition cell (w : out) : heap :=
  (OOut, out_prom w) :: match w_v w with Some _ => [(OThen (w_p w), blank false)] | None => [] end.
Lemma s_open_old h rest g so op th cnt sk tm sp ln lk c n p w : ClientSockProofs.Loose c ->
  SInv h rest so op th cnt sk tm sp ln lk c -> Client.cl_opening c = Some n -> nth_error sp n = Some p ->
  w_n w = n -> w_s w = p -> w_p w = List.length h -> w_q w = List.length h + 1 ->
  (forall v, w_v w = Some v -> nth_error (rest ++ g) (w_f w) = Some (value_frame (VStr (snd v)))) ->
  SInv (h ++ cell w) (rest ++ g) so op VUndef cnt sk (clear th tm) sp ln (lk ++ [w])
    (Client.set_waiting (Client.cl_waiting c ++ waits w) (fst (Client.open c))).
Proof.
  intros L H Ho Hp E1 E2 E3 E4 Hf. pose proof (out_lt _ _ _ _ _ _ _ _ _ _ _ _ H) as Nw.
  assert (Eo : fst (Client.open c) = Client.set_timer None c).
  { unfold Client.open. cbn. now rewrite Ho. }
  rewrite Eo. 
  constructor; cbn.
  - apply (s_len H).
  - apply (s_sp H).
  - intros n' x y p' Hx Hy Hp'. destruct (s_sock H n' x y p' Hx Hy Hp') as [A1 A2 A3 (i & f & A4 & A5) (z & A6 & A7)].
    constructor; try assumption; [exists i, f; split; [exact A4|now apply nth_old] | exists z; split; [now apply nth_old|exact A7]].
  - apply (s_cur H).
  - apply (s_op H).
  - eapply timer_clear; [apply (s_timer H)|now left].
  - apply (s_count H).
  - rewrite (app_assoc ln lk [w]). apply waits_app, (s_wait H).
  - rewrite (app_assoc ln lk [w]). apply Forall_app. split.
    + eapply Forall_impl; [|apply (s_out H)]. intros w' Hw'. apply out_mono with h; [apply keeps_app|exact Hw'].
    + repeat constructor.
      * rewrite E3, nth_at0. reflexivity.
      * destruct (w_v w) as [v|] eqn:Ev; [|exact I]. split; [now apply Hf|]. rewrite E4, nth_at. unfold cell. rewrite Ev. reflexivity.
  - rewrite (app_assoc ln lk [w]), map_app. apply nodup_snoc; [apply (s_nd H)|]. now rewrite E3.
  - intros w' Hw'. rewrite app_assoc in Hw'. apply in_app_or in Hw' as [Hw'|[<-|[]]]; [now apply (s_to H)|].
    rewrite E1, E2. split; [exact Hp|]. change (unborn (Client.state_of c n) = true). now apply unborn_iff, (ClientSockProofs.lo_opening _ L).
Qed.

Lemma state_new c n : Client.state_of (fst (Client.open c)) n =
  match Client.cl_opening c with None => if Nat.eqb n (List.length (Client.cl_socks c)) then Client.Connecting else Client.state_of c n | Some _ => Client.state_of c n end.
Proof.
  unfold Client.open. cbn. destruct (Client.cl_opening c); [reflexivity|]. unfold Client.state_of. cbn.
  destruct (Nat.eqb_spec n (List.length (Client.cl_socks c))) as [->|N]; [now rewrite nth_app_new|].
  destruct (nth_error (Client.cl_socks c) n) as [x|] eqn:E; [now rewrite (nth_old _ _ _ _ E)|].
  replace (nth_error (Client.cl_socks c ++ _) n) with (@None (Client.wsock jstr)); [reflexivity|]. symmetry.
  apply nth_error_None in E. apply nth_error_None. rewrite app_length. cbn. lia.
Qed.

Lemma s_open_new h rest g so th cnt sk tm sp ln lk c f i w : 
  SInv h rest so VUndef th cnt sk tm sp ln lk c -> Client.cl_opening c = None ->
  w_n w = List.length sk -> w_s w = List.length h + 1 -> w_p w = List.length h -> w_q w = List.length h + 2 ->
  (forall v, w_v w = Some v -> nth_error (rest ++ g) (w_f w) = Some (value_frame (VStr (snd v)))) ->
  nth_error (rest ++ g) f = Some (open_frame (List.length h + 1)) ->
  SInv (h ++ [(OOut, out_prom w); (OSock (List.length sk), blank false)] ++ match w_v w with Some _ => [(OThen (w_p w), blank false)] | None => [] end)
    (rest ++ g) (VSock (List.length sk)) (VProm (List.length h + 1)) VUndef cnt
    (sk ++ [mkSock Client.Connecting [] [] (handlers i (2 + f))]) (clear th tm) (sp ++ [List.length h + 1]) ln (lk ++ [w])
    (Client.set_waiting (Client.cl_waiting c ++ waits w) (fst (Client.open c))).
Proof.
  intros H Ho E1 E2 E3 E4 Hf Hof. pose proof (out_lt _ _ _ _ _ _ _ _ _ _ _ _ H) as Nw.
  assert (Hs : Client.cl_socks (fst (Client.open c)) = Client.cl_socks c ++ [Client.mkWs Client.Connecting []]) by (unfold Client.open; cbn; now rewrite Ho).
  assert (Hc : Client.cl_cur (fst (Client.open c)) = Some (List.length (Client.cl_socks c))) by (unfold Client.open; cbn; now rewrite Ho).
  assert (Hop : Client.cl_opening (fst (Client.open c)) = Some (List.length (Client.cl_socks c))) by (unfold Client.open; cbn; now rewrite Ho).
  assert (Ht : Client.cl_timer (fst (Client.open c)) = None) by (unfold Client.open; cbn; now rewrite Ho).
  assert (Hn : Client.cl_count (fst (Client.open c)) = Client.cl_count c) by (unfold Client.open; cbn; now rewrite Ho).
  assert (Nil : filter (of_sock (List.length sk)) ln = []).
  { assert (G : forall l, (forall w, In w l -> w_n w < List.length sk) -> filter (of_sock (List.length sk)) l = []).
    { induction l as [|a l IH]; intros G; [reflexivity|]. cbn. unfold of_sock at 1. destruct (Nat.eqb_spec (w_n a) (List.length sk)) as [Ea|];
        [specialize (G a (or_introl eq_refl)); lia|]. apply IH. intros w' Hw'. apply G. now right. }
    apply G. intros w' Hw'. rewrite (s_len H). eapply to_lt; [exact H|]. apply in_or_app. now left. }
  constructor; cbn [Client.set_waiting Client.cl_socks Client.cl_cur Client.cl_opening Client.cl_timer Client.cl_count Client.cl_waiting];
    rewrite ?Hs, ?Hc, ?Hop, ?Ht, ?Hn, ?app_length; cbn [List.length].
  - now rewrite (s_len H).
  - now rewrite (s_sp H).
  - intros n x y p Hx Hy Hp. apply nth_app_inv in Hx as [[Hx1 Hx]|[Hx ->]].
    + rewrite nth_error_app1 in Hy by (rewrite (s_len H); assumption). rewrite nth_error_app1 in Hp by (rewrite (s_sp H); assumption).
      destruct (s_sock H n x y p Hx Hy Hp) as [A1 A2 A3 (i' & f' & A4 & A5) (z & A6 & A7)].
      constructor; try assumption; [exists i', f'; split; [exact A4|now apply nth_old] | exists z; split; [now apply nth_old|exact A7]].
    + rewrite <- (s_len H) in Hx. subst n. rewrite nth_app_new in Hy. rewrite (s_len H), <- (s_sp H), nth_app_new in Hp. injection Hy as <-. injection Hp as <-.
      rewrite Nil. constructor; try reflexivity; [exists i, f; split; [reflexivity|exact Hof]|].
      exists (blank false). split; [|reflexivity]. rewrite nth_at. reflexivity.
  - cbn. now rewrite (s_len H).
  - exists (List.length h + 1). split; [reflexivity|]. rewrite <- (s_sp H). apply nth_app_new.
  - eapply timer_clear; [apply (s_timer H)|now left].
  - apply (s_count H).
  - rewrite (app_assoc ln lk [w]). apply waits_app, (s_wait H).
  - rewrite (app_assoc ln lk [w]). apply Forall_app. split.
    + eapply Forall_impl; [|apply (s_out H)]. intros w' Hw'. apply out_mono with h; [apply keeps_app|exact Hw'].
    + repeat constructor.
      * rewrite E3, nth_at0. reflexivity.
      * destruct (w_v w) as [v|] eqn:Ev; [|exact I]. split; [now apply Hf|]. rewrite E4, nth_at. reflexivity.
  - rewrite (app_assoc ln lk [w]), map_app. apply nodup_snoc; [apply (s_nd H)|]. now rewrite E3.
  - intros w' Hw'. change (Client.state_of (Client.set_waiting ?x ?y) ?z) with (Client.state_of y z). rewrite state_new, Ho.
    rewrite app_assoc in Hw'. apply in_app_or in Hw' as [Hw'|[<-|[]]].
    + destruct (s_to H w' Hw') as [A B]. split; [now apply nth_old|]. pose proof (to_lt _ _ _ _ _ _ _ _ _ _ _ _ _ H Hw') as Lt.
      destruct (Nat.eqb_spec (w_n w') (List.length (Client.cl_socks c))); [lia|exact B].
    + rewrite E1, E2, (s_len H), Nat.eqb_refl. split; [|reflexivity]. rewrite <- (s_sp H). apply nth_app_new.
Qed.

Lemma s_ready h rest so op th cnt sk tm sp ln lk c k : SInv h rest so op th cnt sk tm sp ln lk c -> ready_so so sk k ->
  Client.cl_cur c = Some k /\ Client.state_of c k = Client.Open.
Proof.
  intros H (y & E & Hy & Ey). rewrite (s_cur H) in E. destruct (Client.cl_cur c) as [n|]; [|discriminate]. injection E as ->. split; [reflexivity|].
  pose proof (nth_some_lt _ _ _ Hy) as L. rewrite (s_len H), <- (s_sp H) in L.
  destruct (nth_error sp k) as [p|] eqn:Ep; [|apply nth_error_None in Ep; lia].
  destruct (s_sp_lt _ _ _ _ _ _ _ _ _ _ _ _ _ _ H Ep) as (x & y' & Hx & Hy' & [A _ _ _ _]). rewrite Hy in Hy'. injection Hy' as <-.
  unfold Client.state_of. rewrite Hx. congruence.
Qed.
Lemma s_busy h rest so op th cnt sk tm sp ln lk c : SInv h rest so op th cnt sk tm sp ln lk c -> busy_so so sk -> ClientSockProofs.busy c.
Proof.
  intros H B. unfold ClientSockProofs.busy. pose proof (s_cur H) as E. destruct (Client.cl_cur c) as [n|]; [|exact I].
  destruct B as [B|(k & y & E' & Hy & N)]; [subst so; discriminate|]. rewrite E in E'. injection E' as <-.
  pose proof (nth_some_lt _ _ _ Hy) as L. rewrite (s_len H), <- (s_sp H) in L.
  destruct (nth_error sp n) as [p|] eqn:Ep; [|apply nth_error_None in Ep; lia].
  destruct (s_sp_lt _ _ _ _ _ _ _ _ _ _ _ _ _ _ H Ep) as (x & y' & Hx & Hy' & [A _ _ _ _]). rewrite Hy in Hy'. injection Hy' as <-.
  unfold Client.state_of. rewrite Hx. congruence.
Qed.
Lemma s_push h rest so op th cnt sk tm sp ln lk c n v : SInv h rest so op th cnt sk tm sp ln lk c ->
  SInv h rest so op th cnt (push n (VStr (snd v)) sk) tm sp ln lk (ClientSockProofs.push n [v] c).
Proof.
  intros H. unfold push, ClientSockProofs.push. constructor; cbn; try apply H.
  - rewrite !upd_length. apply (s_len H).
  - rewrite upd_length. apply (s_sp H).
  - intros m x y p Hx Hy Hp. rewrite nth_upd in Hx. rewrite nth_upd in Hy. destruct (Nat.eqb_spec n m) as [<-|N]; [|now apply (s_sock H)].
    destruct (nth_error (Client.cl_socks c) n) as [x0|] eqn:Ex; [|discriminate]. destruct (nth_error sk n) as [y0|] eqn:Ey; [|discriminate].
    cbn in Hx, Hy. injection Hx as <-. injection Hy as <-. destruct (s_sock H n x0 y0 p Ex Ey Hp) as [A1 A2 A3 A4 A5].
    constructor; cbn; try assumption. now rewrite A2, map_app.
  - intros w Hw. destruct (s_to H w Hw) as [A B]. split; [exact A|]. rewrite <- B. f_equal. apply ClientSockProofs.state_push.
Qed.

Lemma s_send h rest so op th cnt sk tm sp ln lk c k t fr o : ClientSockProofs.Shape c -> SInv h rest so op th cnt sk tm sp ln lk c ->
  send_spec (VStr t) so op th (List.length rest) fr (List.length h) sk tm o ->
  exists g sp' lk', o_pr o = map snd g /\ o_jb o = map link lk' /\ fr <= o_fr o /\
    SInv (h ++ g) (rest ++ o_rest o) (o_so o) (o_op o) (o_th o) cnt (o_sk o) (o_tm o) sp' ln (lk ++ lk') (Client.open_and_send (k, t) c).
Proof.
  intros Sh H Ho. inversion Ho as [n g B| q g f B Eq Hf | g f f' B Eq Hf Hf']; subst o; cbn [o_so o_op o_th o_rest o_fr o_pr o_sk o_tm o_jb].
  - destruct (s_ready _ _ _ _ _ _ _ _ _ _ _ _ _ H B) as [E1 E2]. exists [], sp, []. rewrite !app_nil_r. do 3 (split; [reflexivity || lia|]).
    rewrite (ClientSockProofs.send_open _ _ _ E1 E2). eapply s_mono; [apply keeps_refl| |apply (s_push _ _ _ _ _ _ _ _ _ _ _ _ n (k, t) H)]. repeat split.
  - pose proof (s_busy _ _ _ _ _ _ _ _ _ _ _ _ H B) as Bc. rewrite (ClientSockProofs.send_wait _ _ Bc). 
    pose proof (s_op H) as E. destruct (Client.cl_opening c) as [n|] eqn:Eo; [|congruence]. destruct E as (p & E & Ep). rewrite Eq in E. injection E as <-.
    set (w := mkW n q (List.length h) (List.length h + 1) fr (List.length rest + f) (Some (k, t))).
    exists (cell w), sp, [w]. do 3 (split; [reflexivity || lia|]).
    replace (ClientSockProofs.wait (k, t) c) with (Client.set_waiting (Client.cl_waiting c ++ waits w) (fst (Client.open c))).
    2:{ unfold ClientSockProofs.wait, Client.open. cbn. rewrite Eo. reflexivity. }
    apply s_open_old with n q; try reflexivity; try assumption; [exact (ClientSockProofs.sh_loose _ Sh)|]. intros v [= <-]. cbn. now rewrite nth_at.
  - pose proof (s_busy _ _ _ _ _ _ _ _ _ _ _ _ H B) as Bc. rewrite (ClientSockProofs.send_wait _ _ Bc). subst op.
    pose proof (s_op H) as E. destruct (Client.cl_opening c) as [n|] eqn:Eo; [destruct E as (p & E & _); discriminate|].
    set (w := mkW (List.length sk) (List.length h + 1) (List.length h) (List.length h + 2) (5 + fr) (List.length rest + f) (Some (k, t))).
    exists ([(OOut, out_prom w); (OSock (List.length sk), blank false)] ++ match w_v w with Some _ => [(OThen (w_p w), blank false)] | None => [] end), (sp ++ [List.length h + 1]), [w].
    do 3 (split; [reflexivity || lia|]).
    replace (ClientSockProofs.wait (k, t) c) with (Client.set_waiting (Client.cl_waiting c ++ waits w) (fst (Client.open c))).
    2:{ unfold ClientSockProofs.wait, Client.open. cbn. rewrite Eo. cbn. now rewrite (s_len H). }
    apply s_open_new with (so := so); try reflexivity; try assumption; [intros v [= <-]; cbn; now rewrite nth_at | now rewrite nth_at].
Qed.

Lemma s_close h rest so op th cnt sk tm sp ln lk c : ClientSockProofs.Loose c -> SInv h rest so op th cnt sk tm sp ln lk c ->
  SInv h rest VUndef op th cnt (shut so sk) (clear th tm) sp ln lk (Client.close c).
Proof.
  intros L H. rewrite ClientSockProofs.close_is. pose proof (s_good_th _ _ _ _ _ _ _ _ _ _ _ _ H) as G.
  assert (Ln : List.length (ClientSockProofs.close_form c) = List.length (Client.cl_socks c)).
  { unfold ClientSockProofs.close_form. destruct (Client.cl_cur c); [apply upd_length|reflexivity]. }
  assert (St : forall n, Client.state_of (Client.set_cur None (Client.set_timer None (Client.set_socks (ClientSockProofs.close_form c) c))) n = 
     match Client.state_of c n with Client.Connecting => Client.Closing false | Client.Open => Client.Closing true | x => x end).
  { intros n. exact (ClientSockProofs.st_close_form c n L). }
  rewrite (s_cur H). constructor; cbn [Client.set_cur Client.set_timer Client.set_socks Client.cl_socks Client.cl_cur Client.cl_opening Client.cl_timer Client.cl_count Client.cl_waiting].
  - rewrite Ln, <- (s_len H). unfold shut, sock_val. destruct (Client.cl_cur c); [apply upd_length|reflexivity].
  - rewrite Ln. apply (s_sp H).
  - intros n x y p Hx Hy Hp. unfold ClientSockProofs.close_form in Hx. unfold shut, sock_val in Hy.
    destruct (Client.cl_cur c) as [m|] eqn:Ec; [|now apply (s_sock H)].
    rewrite nth_upd in Hx. rewrite nth_upd in Hy. destruct (Nat.eqb_spec m n) as [->|N]; [|now apply (s_sock H)].
    destruct (nth_error (Client.cl_socks c) n) as [x0|] eqn:Ex; [|discriminate]. destruct (nth_error sk n) as [y0|] eqn:Ey; [|discriminate].
    cbn in Hx, Hy. injection Hx as <-. injection Hy as <-. destruct (s_sock H n x0 y0 p Ex Ey Hp) as [A1 A2 A3 A4 (z & A5 & A6)].
    assert (E : Client.state_of c n = Client.ws_state x0) by (unfold Client.state_of; now rewrite Ex). rewrite E.
    constructor; cbn; try assumption; [now rewrite A1|]. exists z. split; [exact A5|]. now apply prom_closing.
  - reflexivity.
  - apply (s_op H).
  - eapply timer_clear; [apply (s_timer H)|exact G].
  - apply (s_count H).
  - apply (s_wait H).
  - apply (s_out H).
  - apply (s_nd H).
  - intros w Hw. destruct (s_to H w Hw) as [A B]. split; [exact A|]. rewrite St, <- B. now destruct (Client.state_of c (w_n w)) as [| |[|]|].
Qed.

Lemma round_small z : (0 <= z < 2 ^ 53)%Z -> round_int z = z.
Proof. intros [A B]. unfold round_int, round53. replace (Z.leb 0 z) with true by (symmetry; now apply Z.leb_le). now replace (Z.ltb z (2 ^ 53)) with true by (symmetry; now apply Z.ltb_lt). Qed.
Lemma next_limit n : next (limit n) = limit (S n).
Proof.
  unfold next, limit. destruct (Z.lt_trichotomy (Z.of_nat (S n)) (2 ^ 53)) as [A|[A|A]].
  - rewrite !Z.min_l by lia. rewrite round_small by lia. lia.
  - rewrite !Z.min_l by lia. replace (Z.of_nat n + 1)%Z with (2 ^ 53)%Z by lia. now rewrite A.
  - rewrite !Z.min_r by lia. reflexivity.
Qed.
Lemma delay_limit n : exists d, Client.reopen_timeout n = Some d /\ delay (limit n) = Z.of_N d.
Proof.
  unfold Client.reopen_timeout, Client.timeout_index, delay, limit. cbn [List.length Client.reopen_timeouts Nat.sub].
  destruct (Nat.leb_spec 3 n) as [A|A].
  - replace (Z.min (Z.of_nat n) (2 ^ 53) >=? 3)%Z with true by (symmetry; apply Z.geb_le; lia). eexists. split; reflexivity.
  - rewrite Z.min_l by lia. replace (Z.of_nat n >=? 3)%Z with false by (symmetry; rewrite Z.geb_leb; apply Z.leb_gt; lia). rewrite Nat2Z.id.
    destruct n as [|[|[|n]]]; [eexists; split; reflexivity..|lia].
Qed.
Lemma subscribed_close c : Client.subscribed (Client.close c) = Client.subscribed c.
Proof. rewrite ClientSockProofs.close_is. reflexivity. Qed.
Lemma s_reopen h rest so op th cnt sk tm sp ln lk c i g : ClientSockProofs.Loose c -> SInv h rest so op th cnt sk tm sp ln lk c ->
  if Client.subscribed c
  then SInv h (rest ++ g) VUndef op (VTimer (List.length tm)) (next cnt) (shut so sk) (clear th tm ++ [Some (f_timer i, VNum (delay cnt))]) sp ln lk (Client.reopen c)
  else SInv h (rest ++ g) VUndef op th cnt (shut so sk) (clear th tm) sp ln lk (Client.reopen c).
Proof.
  intros L H. pose proof (s_close _ _ _ _ _ _ _ _ _ _ _ _ L H) as H'. 
  unfold Client.reopen. rewrite subscribed_close. destruct (Client.subscribed c).
  2:{ eapply s_mono; [apply keeps_refl| |exact H']. repeat split. }
  assert (Ec : Client.cl_count (Client.close c) = Client.cl_count c) by now rewrite ClientSockProofs.close_is.
  rewrite Ec. destruct (delay_limit (Client.cl_count c)) as (d & -> & Ed).
  eapply s_mono with (g := g) in H'; [|apply keeps_refl|repeat split; reflexivity].
  rewrite (s_count H). rewrite next_limit, Ed.
  destruct H' as [A1 A2 A3 A4 A5 A6 A7 A8 A9 A10 A11].
  constructor; cbn [Client.set_count Client.set_timer Client.cl_socks Client.cl_cur Client.cl_opening Client.cl_timer Client.cl_count Client.cl_waiting]; try assumption; [|reflexivity].
  exists (List.length tm), i. rewrite <- (clear_length th tm). split; [reflexivity|]. split; [apply nth_app_new|].
  intros k' x E. apply nth_app_inv in E as [[_ E]|[E _]]; [|exact E]. exfalso. exact (clear_none _ _ _ _ _ (s_timer H) E).
Qed.

(** The timer fires. *)
Lemma s_fired h rest so op th cnt sk tm sp ln lk c : SInv h rest so op th cnt sk tm sp ln lk c ->
  SInv h rest so op th cnt sk (clear th tm) sp ln lk (Client.set_timer None c).
Proof.
  intros H. pose proof (s_good_th _ _ _ _ _ _ _ _ _ _ _ _ H) as G. constructor; cbn; try apply H. eapply timer_clear; [apply (s_timer H)|exact G].
Qed.
Lemma set_waiting_same c : Client.set_waiting (Client.cl_waiting c) c = c.
Proof. now destruct c. Qed.

(** A promise of [open] begins to follow that of its socket. *)
Lemma filter_snoc {A} (f : A -> bool) l x : filter f (l ++ [x]) = filter f l ++ if f x then [x] else [].
Proof. rewrite filter_app. reflexivity. Qed.
Lemma s_link h rest so op th cnt sk tm sp ln w lk c : SInv h rest so op th cnt sk tm sp ln (w :: lk) c ->
  exists rs, nth_error h (w_s w) = Some (OSock (w_n w), mkProm (PPending rs) false) /\
  SInv (put (w_s w) (OSock (w_n w)) (mkProm (PPending (rs ++ [into w])) false) h) rest so op th cnt sk tm sp (ln ++ [w]) lk c.
Proof.
  intros H. assert (Iw : In w (ln ++ w :: lk)) by (apply in_or_app; right; now left).
  destruct (s_to H w Iw) as [Hp U]. destruct (s_sp_lt _ _ _ _ _ _ _ _ _ _ _ _ _ _ H Hp) as (x & y & Hx & Hy & [_ _ _ _ (z & Hz & Z)]).
  assert (Ex : Client.ws_state x = Client.state_of c (w_n w)) by (unfold Client.state_of; now rewrite Hx).
  unfold sock_prom in Z. rewrite Ex, U in Z. subst z.
  exists (map into (filter (of_sock (w_n w)) ln)). split; [exact Hz|].
  assert (Other : forall p o x', o <> OSock (w_n w) -> nth_error h p = Some (o, x') -> nth_error (put (w_s w) (OSock (w_n w)) (mkProm (PPending (map into (filter (of_sock (w_n w)) ln) ++ [into w])) false) h) p = Some (o, x')).
  { intros p o x' No Hh. rewrite put_other; [exact Hh|]. intros <-. congruence. }
  constructor; try apply H.
  - intros n x' y' p Hx' Hy' Hp'. destruct (s_sock H n x' y' p Hx' Hy' Hp') as [A1 A2 A3 A4 (z & A5 & A6)]. constructor; try assumption.
    destruct (Nat.eqb_spec (w_n w) n) as [<-|N].
    + rewrite Hp in Hp'. injection Hp' as <-. exists (mkProm (PPending (map into (filter (of_sock (w_n w)) ln) ++ [into w])) false).
      split; [eapply put_same; eassumption|]. rewrite Hx in Hx'. injection Hx' as <-. unfold sock_prom. rewrite Ex, U.
      rewrite filter_snoc. unfold of_sock at 3. rewrite Nat.eqb_refl, map_app. reflexivity.
    + exists z. split; [apply Other; [congruence|exact A5]|]. rewrite filter_snoc. unfold of_sock at 2. destruct (Nat.eqb_spec (w_n w) n); [contradiction|].
      now rewrite app_nil_r.
  - rewrite <- app_assoc. apply (s_wait H).
  - rewrite <- app_assoc. eapply Forall_impl; [|apply (s_out H)]. intros w' [A B]. split; [apply Other; [discriminate|exact A]|].
    destruct (w_v w'); [|exact I]. destruct B as [B C]. split; [exact B|]. apply Other; [discriminate|exact C].
  - rewrite <- app_assoc. apply (s_nd H).
  - intros w' Hw'. rewrite <- app_assoc in Hw'. now apply (s_to H).
Qed.

(** What follows a socket is done. *)
Definition cells (w : out) : list nat := w_p w :: match w_v w with Some _ => [w_q w] | None => [] end.
Definition off (n : nat) (w : out) : bool := negb (of_sock n w).
Lemma flat_filter n l : flat_map waits (filter (off n) l) = filter (fun w => negb (Nat.eqb (fst w) n)) (flat_map waits l).
Proof.
  induction l as [|w l IH]; [reflexivity|]. cbn [flat_map]. rewrite filter_app, <- IH. cbn [filter].
  assert (E : filter (fun x => negb (Nat.eqb (fst x) n)) (waits w) = if off n w then waits w else []).
  { unfold off, of_sock, waits. destruct (w_v w); cbn; destruct (Nat.eqb (w_n w) n); reflexivity. }
  rewrite E. destruct (off n w); reflexivity.
Qed.
Lemma filter_apart {A} (f g : A -> bool) l : (forall x, f x = true -> g x = true) -> filter f (filter g l) = filter f l.
Proof.
  intros H. induction l as [|x l IH]; [reflexivity|]. cbn. destruct (g x) eqn:G; cbn; [now rewrite IH|].
  destruct (f x) eqn:F; [apply H in F; congruence|exact IH].
Qed.
Lemma filter_none {A} (f : A -> bool) l : (forall x, In x l -> f x = false) -> filter f l = [].
Proof. induction l as [|x l IH]; intros H; [reflexivity|]. cbn. rewrite H by now left. apply IH. intros y Hy. apply H. now right. Qed.
Lemma filter_all {A} (f : A -> bool) l : (forall x, In x l -> f x = true) -> filter f l = l.
Proof. induction l as [|x l IH]; intros H; [reflexivity|]. cbn. rewrite H by now left. f_equal. apply IH. intros y Hy. apply H. now right. Qed.
Lemma nodup_map_filter {A B} (f : A -> B) g l : NoDup (map f l) -> NoDup (map f (filter g l)).
Proof.
  induction l as [|x l IH]; intros H; [constructor|]. inversion H; subst. cbn. destruct (g x); [|now apply IH]. cbn. constructor; [|now apply IH].
  intros I. apply H2. apply in_map_iff in I as (y & E & Hy). apply filter_In in Hy as [Hy _]. apply in_map_iff. now exists y.
Qed.
Lemma apart_other (h : heap) rest ln w w' : Forall (out_ok h rest) ln -> NoDup (map w_p ln) -> In w ln -> In w' ln -> w <> w' ->
  forall p, In p (cells w) -> ~ In p (cells w').
Proof.
  intros F N I I' Ne p Hp Hp'. rewrite Forall_forall in F. destruct (F w I) as [A B]. destruct (F w' I') as [A' B'].
  assert (Np : w_p w <> w_p w').
  { intros E. apply Ne. clear - N I I' E. induction ln as [|x l IH]; [destruct I|]. inversion N; subst.
    destruct I as [->|I], I' as [->|I']; [reflexivity| | |now apply IH].
    - exfalso. apply H1. rewrite E. now apply in_map.
    - exfalso. apply H1. rewrite <- E. now apply in_map. }
  unfold cells in Hp, Hp'. destruct (w_v w) as [v|], (w_v w') as [v'|]; try (destruct B); try (destruct B');
    cbn in Hp, Hp'; repeat match goal with H : _ \/ _ |- _ => destruct H | H : False |- _ => destruct H end; subst; congruence.
Qed.

Lemma s_done h h' rest g so op th cnt cnt' sk tm sp ln c c' n p z f f' : SInv h rest so op th cnt sk tm sp ln [] c ->
  unborn (Client.state_of c n) = true -> nth_error sp n = Some p ->
  (forall q, q <> p -> ~ In q (flat_map cells (filter (of_sock n) ln)) -> nth_error h' q = nth_error h q) ->
  nth_error h' p = Some (OSock n, z) -> pr_used z = true -> (forall rs, pr_state z <> PPending rs) ->
  Client.cl_socks c' = upd n f (Client.cl_socks c) ->
  (forall x y, nth_error (Client.cl_socks c) n = Some x -> so_state y = Client.ws_state x -> so_sent y = map (fun v => VStr (snd v)) (Client.ws_sent x) ->
     unborn (Client.ws_state (f x)) = false /\
     so_state (f' y) = Client.ws_state (f x) /\ so_sent (f' y) = map (fun v => VStr (snd v)) (Client.ws_sent (f x)) /\ so_lost (f' y) = so_lost y /\ so_on (f' y) = so_on y) ->
  Client.cl_cur c' = Client.cl_cur c -> Client.cl_opening c' = None -> Client.cl_timer c' = Client.cl_timer c ->
  cnt' = limit (Client.cl_count c') -> Client.cl_waiting c' = filter (fun w => negb (Nat.eqb (fst w) n)) (Client.cl_waiting c) ->
  SInv h' (rest ++ g) so VUndef th cnt' (upd n f' sk) tm sp (filter (off n) ln) [] c'.
Proof.
  intros H U Hp Hh Hz Z1 Z2 Es Hf Ec Eo Et En Ew.
  destruct (s_sp_lt _ _ _ _ _ _ _ _ _ _ _ _ _ _ H Hp) as (x0 & y0 & Hx0 & Hy0 & [_ _ _ _ (z0 & Hz0 & _)]).
  assert (Ow : forall w, In w ln -> out_ok h rest w).
  { intros w Hw. pose proof (s_out H) as F. rewrite app_nil_r in F. rewrite Forall_forall in F. now apply F. }
  assert (Cl : forall q o x, nth_error h q = Some (o, x) -> (forall m, o <> OSock m) -> (forall w, In w ln -> of_sock n w = true -> ~ In q (cells w)) -> nth_error h' q = Some (o, x)).
  { intros q o x Hq No Nw. rewrite Hh; [exact Hq| |].
    - intros ->. rewrite Hz0 in Hq. injection Hq as <- _. now apply (No n).
    - intros I. apply in_flat_map in I as (w & Hw & I). apply filter_In in Hw as [Hw E]. exact (Nw w Hw E I). }
  assert (Sk : forall m q x, m <> n -> nth_error h q = Some (OSock m, x) -> nth_error h' q = Some (OSock m, x)).
  { intros m q x Nm Hq. rewrite Hh; [exact Hq| |].
    - intros ->. rewrite Hz0 in Hq. congruence.
    - intros I. apply in_flat_map in I as (w & Hw & I). apply filter_In in Hw as [Hw E]. destruct (Ow w Hw) as [A B].
      unfold cells in I. destruct I as [<-|I]; [congruence|]. destruct (w_v w); [|destruct I]. destruct I as [<-|[]]. destruct B as [_ B]. congruence. }
  constructor; rewrite ?app_nil_r, ?Es, ?Ec, ?Eo, ?Et, ?upd_length; try apply H; try assumption.
  - intros m x y q Hx Hy Hq. rewrite nth_upd in Hx. rewrite nth_upd in Hy. destruct (Nat.eqb_spec n m) as [<-|Nm].
    + rewrite Hx0 in Hx. rewrite Hy0 in Hy. injection Hx as <-. injection Hy as <-. rewrite Hp in Hq. injection Hq as <-.
      destruct (s_sock H n x0 y0 p Hx0 Hy0 Hp) as [A1 A2 A3 (i & f0 & A4 & A5) _].
      destruct (Hf x0 y0 Hx0 A1 A2) as (B0 & B1 & B2 & B3 & B4). constructor; [exact B1|exact B2|congruence| |].
      * exists i, f0. split; [congruence|now apply nth_old].
      * exists z. split; [exact Hz|]. unfold sock_prom. rewrite B0. now split.
    + destruct (s_sock H m x y q Hx Hy Hq) as [A1 A2 A3 (i & f0 & A4 & A5) (z' & A6 & A7)]. constructor; [assumption..| |].
      * exists i, f0. split; [exact A4|now apply nth_old].
      * exists z'. split; [now apply Sk; [congruence|]|]. rewrite filter_apart; [exact A7|]. intros w. unfold off, of_sock. intros E. apply Nat.eqb_eq in E. subst m.
        destruct (Nat.eqb_spec (w_n w) n); [congruence|reflexivity].
  - reflexivity.
  - rewrite Ew, (s_wait H), !app_nil_r. symmetry. apply flat_filter.
  - rewrite Forall_forall. intros w Hw. apply filter_In in Hw as [Hw E]. destruct (Ow w Hw) as [A B].
    assert (Ap : forall w', In w' ln -> of_sock n w' = true -> forall q, In q (cells w) -> ~ In q (cells w')).
    { intros w' Hw' E' q. pose proof (s_out H) as F. pose proof (s_nd H) as Nd. rewrite app_nil_r in F, Nd.
      apply (apart_other h rest ln w w' F Nd Hw Hw'). intros ->. unfold off in E. rewrite E' in E. discriminate. }
    split.
    + apply Cl; [exact A|discriminate|]. intros w' Hw' E'. apply (Ap w' Hw' E'). now left.
    + unfold cells in Ap. destruct (w_v w); [|exact I]. destruct B as [B C]. split; [now apply nth_old|]. apply Cl; [exact C|discriminate|].
      intros w' Hw' E'. apply (Ap w' Hw' E'). right. now left.
  - apply nodup_map_filter. pose proof (s_nd H) as Nd. now rewrite app_nil_r in Nd.
  - intros w Hw. apply filter_In in Hw as [Hw E]. assert (Iw : In w (ln ++ [])) by (apply in_or_app; now left).
    destruct (s_to H w Iw) as [A B]. split; [exact A|]. unfold Client.state_of in *. rewrite Es, nth_upd.
    unfold off, of_sock in E. destruct (Nat.eqb_spec n (w_n w)) as [->|]; [rewrite Nat.eqb_refl in E; discriminate|exact B].
Qed.

Lemma wait_unborn h rest so op th cnt sk tm sp ln lk c n : SInv h rest so op th cnt sk tm sp ln lk c -> unborn (Client.state_of c n) = false ->
  filter (of_sock n) (ln ++ lk) = [] /\ filter (fun w => negb (Nat.eqb (fst w) n)) (Client.cl_waiting c) = Client.cl_waiting c.
Proof.
  intros H U. split.
  - apply filter_none. intros w Hw. destruct (s_to H w Hw) as [_ B]. unfold of_sock. destruct (Nat.eqb_spec (w_n w) n); [congruence|reflexivity].
  - apply filter_all. intros x Hx. rewrite (s_wait H) in Hx. apply in_flat_map in Hx as (w & Hw & I). destruct (s_to H w Hw) as [_ B].
    unfold waits in I. destruct (w_v w); [|destruct I]. destruct I as [<-|[]]. cbn. destruct (Nat.eqb_spec (w_n w) n); [congruence|reflexivity].
Qed.
(** A socket that has been open ends, or begins to. *)
Definition turn (st : Client.ready) (y : sock) : sock := mkSock st (so_sent y) (so_lost y) (so_on y).
Lemma s_turn h rest so op th cnt sk tm sp ln lk c n st : SInv h rest so op th cnt sk tm sp ln lk c -> unborn (Client.state_of c n) = false ->
  unborn st = false -> SInv h rest so op th cnt (upd n (turn st) sk) tm sp ln lk (Client.set_state n st c).
Proof.
  intros H U U'. constructor; cbn [Client.set_state Client.set_socks Client.cl_socks Client.cl_cur Client.cl_opening Client.cl_timer Client.cl_count Client.cl_waiting]; rewrite ?upd_length; try apply H.
  - intros m x y q Hx Hy Hq. rewrite nth_upd in Hx. rewrite nth_upd in Hy. destruct (Nat.eqb_spec n m) as [<-|Nm]; [|now apply (s_sock H)].
    destruct (nth_error (Client.cl_socks c) n) as [x0|] eqn:Ex; [|discriminate]. destruct (nth_error sk n) as [y0|] eqn:Ey; [|discriminate].
    injection Hx as <-. injection Hy as <-. destruct (s_sock H n x0 y0 q Ex Ey Hq) as [A1 A2 A3 A4 (z' & A6 & A7)]. constructor; cbn; try assumption; [reflexivity|].
    exists z'. split; [exact A6|]. unfold sock_prom in *. unfold Client.state_of in U. rewrite Ex in U. rewrite U in A7. now rewrite U'.
  - intros w Hw. destruct (s_to H w Hw) as [A B]. split; [exact A|]. rewrite <- B. unfold Client.state_of in *. cbn. rewrite nth_upd.
    destruct (Nat.eqb_spec n (w_n w)) as [->|]; [congruence|reflexivity].
Qed.
Lemma s_noop h rest so op th cnt sk tm sp ln lk c : SInv h rest so op th cnt sk tm sp ln lk c ->
  SInv h rest so VUndef th cnt sk tm sp ln lk (Client.set_opening None c).
Proof. intros H. constructor; cbn; try apply H. reflexivity. Qed.
End Net.
