(** The tasks of the page.  Proof side. *)
From Coq Require Import List String Ascii Bool Arith NArith ZArith Lia.
From Verif Require Import Util Js JsonText Wire TsProgram FileProofs ClientSpec JsSem JsRun JsFun JsSend JsCalls JsRequest JsEvents JsHeap JsNet JsFlush JsSpec JsWorld JsStep JsEntries JsActs JsListen JsCode JsJobs JsEach.
From Verif Require Client ClientSockProofs.
Import ListNotations.
Local Open Scope string_scope.
Local Open Scope list_scope.

(** Without microtasks no request is half done. *)
Lemma rest_idle d c : Inv d c -> d_t d = [] -> Client.cl_disp c = None -> Client.idle c = true.
Proof.
  intros H T Dp. unfold Client.idle. rewrite Dp. apply negb_true_iff. destruct (existsb _ _) eqn:E; [|reflexivity]. exfalso.
  apply existsb_exists in E as (s & I & U). apply In_nth_error in I as [j Hs]. destruct (e_ent (v_ent H) j s Hs) as [e He].
  pose proof (e_ok (v_ent H) j e s He Hs) as O. unfold Client.unfinished in U. destruct e as [q|l]; cbn [ent_ok] in O.
  - destruct O. rewrite T in r_stage. cbn in r_stage. rewrite r_req, r_bad, r_live in U. destruct (q_g q) eqn:G; cbn in U, r_seen, r_stage; try discriminate.
    + destruct (Client.su_seen s); discriminate.
    + unfold stage_jobs in r_stage. rewrite G in r_stage. discriminate.
    + unfold stage_jobs in r_stage. rewrite G in r_stage. discriminate.
  - rewrite (li_req _ _ _ _ O) in U. discriminate.
Qed.

Lemma state_is d c k : Inv d c -> socket_state k (conc d) = Ok (Client.state_of c k) (conc d).
Proof.
  intros H. unfold socket_state, gets, conc, St. cbn [st_socks]. f_equal. unfold Client.state_of. destruct (nth_error (Client.cl_socks c) k) as [x|] eqn:Ex.
  - destruct (nth_error (d_sp d) k) as [p|] eqn:Ep; [|apply nth_error_None in Ep; apply nth_some_lt in Ex; rewrite (s_sp (v_net H)) in Ep; lia].
    destruct (s_sp_lt _ _ _ _ _ _ _ _ _ _ _ _ _ _ (v_net H) Ep) as (x' & y & Hx & Hy & O). rewrite Ex in Hx. injection Hx as <-. rewrite Hy. apply O.
  - apply nth_error_None in Ex. rewrite <- (s_len (v_net H)) in Ex. apply nth_error_None in Ex. now rewrite Ex.
Qed.
(** A socket there is. *)
Lemma sock_is d c k : Inv d c -> Client.state_of c k <> Client.Closed ->
  exists p x y, nth_error (d_sp d) k = Some p /\ nth_error (Client.cl_socks c) k = Some x /\ nth_error (d_sk d) k = Some y /\ sock_ok (d_h d) (d_rest d) k (filter (of_sock k) (d_ln d)) x y p.
Proof.
  intros H N. unfold Client.state_of in N. destruct (nth_error (Client.cl_socks c) k) as [x|] eqn:Ex; [|congruence].
  destruct (nth_error (d_sp d) k) as [p|] eqn:Ep; [|apply nth_error_None in Ep; apply nth_some_lt in Ex; rewrite (s_sp (v_net H)) in Ep; lia].
  destruct (s_sp_lt _ _ _ _ _ _ _ _ _ _ _ _ _ _ (v_net H) Ep) as (x' & y & Hx & Hy & O). exists p, x', y. now rewrite <- Ex.
Qed.
Lemma set_state_is id iv so op th cnt rest fr pr sk su tm jb us k st : set_socket_state k st (St id iv so op th cnt rest fr pr sk su tm jb us) =
  Ok tt (St id iv so op th cnt rest fr pr (upd k (turn st) sk) su tm jb us).
Proof. reflexivity. Qed.
Lemma keeps_done (h h' : heap) rest k p z ws : nth_error h p = Some (OSock k, z) -> Forall (out_ok h rest) ws ->
  (forall q, q <> p -> ~ In q (flat_map cells ws) -> nth_error h' q = nth_error h q) -> keeps req_owner h h'.
Proof.
  intros Hp F E q o x Q Hq. rewrite E; [exact Hq| |].
  - intros ->. rewrite Hp in Hq. injection Hq as <- _. destruct Q.
  - intros I. apply in_flat_map in I as (w & Iw & I). rewrite Forall_forall in F. destruct (F w Iw) as [A B]. unfold cells in I. destruct (w_v w).
    + destruct I as [<-|[<-|[]]]; [rewrite A in Hq|destruct B as [_ B]; rewrite B in Hq]; injection Hq as <- _; destruct Q.
    + destruct I as [<-|[]]. rewrite A in Hq. injection Hq as <- _. destruct Q.
Qed.
Lemma of_links d c k : Inv d c -> d_t d = [] -> Forall (out_ok (d_h d) (d_rest d)) (filter (of_sock k) (d_ln d)) /\ NoDup (map w_p (filter (of_sock k) (d_ln d))).
Proof.
  intros H T. pose proof (s_out (v_net H)) as F. pose proof (s_nd (v_net H)) as N. rewrite T in F, N. cbn [links flat_map] in F, N. rewrite app_nil_r in F, N.
  split; [|now apply nodup_map_filter]. apply Forall_forall. intros w I. apply filter_In in I as [I _]. rewrite Forall_forall in F. now apply F.
Qed.
Lemma qs_cells ws q : In q (qs ws) -> In q (flat_map cells ws).
Proof. unfold qs, cells. intros I. apply in_flat_map in I as (w & Iw & I). apply in_flat_map. exists w. split; [exact Iw|]. destruct (w_v w); [right; exact I|destruct I]. Qed.
Lemma ps_cells ws q : In q (map w_p ws) -> In q (flat_map cells ws).
Proof. intros I. apply in_map_iff in I as (w & <- & Iw). apply in_flat_map. exists w. split; [exact Iw|now left]. Qed.
Lemma texts_on d c k : Inv d c -> d_t d = [] -> texts (filter (of_sock k) (d_ln d)) = waiting_on c k.
Proof.
  intros H T. unfold waiting_on. rewrite (s_wait (v_net H)), T. cbn [links flat_map]. rewrite app_nil_r. generalize (d_ln d) as l. clear.
  induction l as [|w l IH]; [reflexivity|]. cbn [filter flat_map]. rewrite filter_app, map_app, <- IH. unfold of_sock at 1. unfold waits. destruct (Nat.eqb (w_n w) k) eqn:E.
  - unfold texts. cbn [flat_map]. destruct (w_v w); cbn; [|reflexivity]. rewrite E. reflexivity.
  - destruct (w_v w); cbn; [rewrite E|]; reflexivity.
Qed.

Section Tasks.
Context (lit : num -> jstr) (num : jstr -> num) (other : jsval -> N -> bool).
Local Notation call := (call lit num other).
Local Notation drain := (drain lit num other).
Local Notation fire := (fire lit num other).
Local Notation run_task := (run_task lit num other).
Local Notation cnext := (Client.cnext (js_enc lit) (js_read num) (js_same other)).
Local Notation acts_next := (acts_next lit num other).
Local Notation leads := (leads lit num other).
Local Notation follows := (follows lit num other).

Definition does (d : world) (c : client) (t : task) : Prop := exists d' c' N, (forall n, N <= n -> run_task n t (conc d) = Ok tt (conc d')) /\
  Inv d' c' /\ d_t d' = [] /\ Client.cl_disp c' = None /\ follows (conc d) c t (left d') c'.

Lemma fire_ok n k ev x s y f e s' : nth_error (st_socks s) k = Some y -> find (fun b => String.eqb ev (fst b)) (so_on y) = Some (e, f) ->
  (exists v, call n f [x] s = Ok v s' \/ call n f [x] s = Throw v s') -> fire n k ev x s = drain n s'.
Proof.
  intros Hy Hf [v R]. unfold JsSem.fire, bind at 1, attempt at 1, gets. rewrite Hy, Hf. unfold bind, attempt. cbn [snd]. destruct R as [-> | ->]; unfold ret; destruct (drain n s'); reflexivity.
Qed.
Lemma idle_drain n d : d_t d = [] -> drain (S n) (conc d) = Ok tt (conc d).
Proof. intros T. unfold conc. rewrite T. apply drain_nil. Qed.

Lemma t_user d c x : Inv d c -> Client.cl_disp c = None -> does d c (TUser x).
Proof.
  intros H Dp. assert (U : Client.user c = true) by (unfold Client.user; now rewrite Dp).
  destruct (acts_ok lit num other (sc_acts x) d c H U) as (d1 & R1 & [A1 A2 _ _ A3 _ _]).
  destruct (drains lit num other d1 _ A1) as (d2 & c2 & N & R2 & I2 & T2 & D2 & L2); [congruence|].
  exists d2, c2, (N + 131). split; [|split; [exact I2|split; [exact T2|split; [exact D2|]]]].
  - intros n Hn. cbn [JsSem.run_task]. unfold bind, attempt. specialize (R1 (n - 131)). replace (131 + (n - 131)) with n in R1 by lia. rewrite R1, R2 by lia. reflexivity.
  - apply JsSpec.f_user. unfold conc, St. cbn [st_user]. rewrite <- A2. exact L2.
Qed.

(** Nothing happens. *)
Lemma t_none d c t : Inv d c -> d_t d = [] -> Client.cl_disp c = None -> (forall n, run_task n t (conc d) = Ok tt (conc d)) -> follows (conc d) c t (left d) c -> does d c t.
Proof. intros H T D R F. exists d, c, 0. repeat (split; [assumption || (intros; apply R)|]). exact F. Qed.

Lemma t_closing d c k : Inv d c -> d_t d = [] -> Client.cl_disp c = None -> does d c (TClosing k).
Proof.
  intros H T Dp. pose proof (rest_idle d c H T Dp) as Id. pose proof (JsSpec.f_closing lit num other (conc d) c k) as F. pose proof (shape_next lit num other c (Client.NClosing k) (v_shape H)) as Sh.
  cbn [Client.cnext] in F, Sh. rewrite Id in F, Sh.
  assert (R : forall n, run_task n (TClosing k) (conc d) = match Client.state_of c k with Client.Open => set_socket_state k (Client.Closing true) (conc d) | _ => Ok tt (conc d) end).
  { intros n. cbn [JsSem.run_task]. unfold bind, attempt. rewrite (state_is d c k H). now destruct (Client.state_of c k). }
  destruct (Client.state_of c k) eqn:E; try (now apply t_none).
  exists (mkD (d_id d) (d_iv d) (d_so d) (d_op d) (d_th d) (d_cnt d) (d_rest d) (d_fr d) (d_h d) (upd k (turn (Client.Closing true)) (d_sk d)) (d_su d) (d_tm d) (d_t d) (d_us d) (d_sp d) (d_ln d) (d_es d)),
    (Client.set_state k (Client.Closing true) c), 0.
  split; [intros n _; rewrite R; reflexivity|]. split; [|split; [exact T|split; [exact Dp|exact F]]].
  constructor; fields; try apply H; [exact Sh|]. apply s_turn; [exact (v_net H)|now rewrite E|reflexivity].
Qed.

(** [onclose] *)
Lemma close_runs d c k y : ClientSockProofs.Loose c -> SInv (d_h d) (d_rest d) (d_so d) (d_op d) (d_th d) (d_cnt d) (d_sk d) (d_tm d) (d_sp d) (d_ln d) [] c ->
  EInv (d_h d) (d_rest d) (d_fr d) [] (d_us d) (d_su d) (d_es d) (Client.cl_subs c) (Client.cl_stores c) -> d_id d = Z.of_N (Client.cl_id c) -> (Client.cl_id c <= 2 ^ 53)%N ->
  d_t d = [] -> nth_error (d_sk d) k = Some y -> (exists i f, so_on y = handlers i (2 + f)) ->
  exists d', (forall n, fire (60 + n) k "onclose" (event "close") (conc d) = Ok tt (conc d')) /\ Inv d' (Client.on_close c) /\ d_t d' = [] /\ left d' = left d.
Proof.
  intros L S En Ei Lm T Hy (i & f & Ho).
  assert (C0 : (0 <= d_cnt d)%Z) by (rewrite (s_count S); unfold limit; lia).
  destruct (onclose_ok lit num other (d_id d) (d_iv d) (d_so d) (d_op d) (d_th d) (d_cnt d) (d_rest d) (d_fr d) (map snd (d_h d)) (d_sk d) (d_su d) (d_tm d) (map snd (d_t d)) (d_us d) (1 + i) (event "close")
    (s_good_th _ _ _ _ _ _ _ _ _ _ _ _ S) (s_good_so _ _ _ _ _ _ _ _ _ _ _ _ L S) C0) as (g & fr' & i' & Hf & R).
  assert (Es : some_entry (d_su d) = Client.subscribed c) by (rewrite (e_some En); reflexivity). rewrite Es in R.
  pose proof (s_reopen _ _ _ _ _ _ _ _ _ _ _ _ i' g L S) as S'.
  assert (Sh : ClientSockProofs.Shape (Client.on_close c)) by (apply ClientSockProofs.shape_reopen; exact L).
  assert (Sub : Client.cl_subs (Client.on_close c) = Client.cl_subs c /\ Client.cl_stores (Client.on_close c) = Client.cl_stores c /\ Client.cl_id (Client.on_close c) = Client.cl_id c).
  { unfold Client.on_close, Client.reopen. rewrite ClientSockProofs.close_is. destruct (Client.subscribed _); [destruct (Client.reopen_timeout _)|]; repeat split. }
  destruct Sub as (E1 & E2 & E3).
  pose proof (e_mono _ (d_h d) _ g _ fr' _ [] _ _ _ _ _ (keeps_refl _ _) Hf (Forall_nil _) En) as En'. cbn [app] in En'.
  destruct (Client.subscribed c) eqn:Sb.
  - exists (mkD (d_id d) (d_iv d) VUndef (d_op d) (VTimer (List.length (d_tm d))) (next (d_cnt d)) (d_rest d ++ g) fr' (d_h d) (shut (d_so d) (d_sk d)) (d_su d)
      (clear (d_th d) (d_tm d) ++ [Some (JsFun.f_timer i', VNum (delay (d_cnt d)))]) [] (d_us d) (d_sp d) (d_ln d) (d_es d)).
    split; [|split; [|split; reflexivity]].
    + intros n. erewrite fire_ok; [|exact Hy|rewrite Ho; reflexivity|exists VUndef; left; apply R]. rewrite T. apply drain_nil.
    + constructor; fields; [exact Sh|exact S'|rewrite E1, E2; exact En'|congruence|congruence].
  - exists (mkD (d_id d) (d_iv d) VUndef (d_op d) (d_th d) (d_cnt d) (d_rest d ++ g) fr' (d_h d) (shut (d_so d) (d_sk d)) (d_su d)
      (clear (d_th d) (d_tm d)) [] (d_us d) (d_sp d) (d_ln d) (d_es d)).
    split; [|split; [|split; reflexivity]].
    + intros n. erewrite fire_ok; [|exact Hy|rewrite Ho; reflexivity|exists VUndef; left; apply R]. rewrite T. apply drain_nil.
    + constructor; fields; [exact Sh|exact S'|rewrite E1, E2; exact En'|congruence|congruence].
Qed.
Lemma close_disp (c : client) : Client.cl_disp (Client.on_close c) = Client.cl_disp c.
Proof. unfold Client.on_close, Client.reopen. rewrite ClientSockProofs.close_is. destruct (Client.subscribed _); [destruct (Client.reopen_timeout _)|]; reflexivity. Qed.

Definition d_sock (k : nat) (st : Client.ready) (d : world) : world :=
  mkD (d_id d) (d_iv d) (d_so d) (d_op d) (d_th d) (d_cnt d) (d_rest d) (d_fr d) (d_h d) (upd k (turn st) (d_sk d)) (d_su d) (d_tm d) (d_t d) (d_us d) (d_sp d) (d_ln d) (d_es d).
Lemma nth_turn k st sk y : nth_error sk k = Some y -> nth_error (upd k (turn st) sk) k = Some (turn st y).
Proof. intros H. now rewrite nth_upd_same, H. Qed.

Lemma t_close d c k : Inv d c -> d_t d = [] -> Client.cl_disp c = None -> does d c (TClose k).
Proof.
  intros H T Dp. pose proof (rest_idle d c H T Dp) as Id. pose proof (JsSpec.f_close lit num other (conc d) c k) as F.
  cbn [Client.cnext] in F. rewrite Id in F.
  assert (R : forall n, run_task n (TClose k) (conc d) = match Client.state_of c k with
     | Client.Open | Client.Closing true => fire n k "onclose" (event "close") (conc (d_sock k Client.Closed d)) | _ => Ok tt (conc d) end).
  { intros n. cbn [JsSem.run_task]. unfold bind, attempt. rewrite (state_is d c k H).
    unfold conc, d_sock. fields. destruct (Client.state_of c k) as [| |[|]|]; try reflexivity; rewrite set_state_is; destruct (fire _ _ _ _ _); reflexivity. }
  assert (Go : Client.state_of c k = Client.Open \/ Client.state_of c k = Client.Closing true ->
    (forall n, run_task n (TClose k) (conc d) = fire n k "onclose" (event "close") (conc (d_sock k Client.Closed d))) ->
    follows (conc d) c (TClose k) (us_scripts (st_user (conc d))) (Client.on_close (Client.set_state k Client.Closed c)) -> does d c (TClose k)).
  { intros E R' F'. assert (Nc : Client.state_of c k <> Client.Closed) by (destruct E; congruence).
    destruct (sock_is d c k H Nc) as (p & x & y & Hp & Hx & Hy & [_ _ _ (i & f & On & _) _]).
    destruct (close_runs (d_sock k Client.Closed d) (Client.set_state k Client.Closed c) k (turn Client.Closed y)) as (d' & R2 & I2 & T2 & L2).
    - apply ClientSockProofs.loose_worse; [exact (v_shape H)|exact E|now right].
    - pose proof (v_net H) as S. rewrite T in S. cbn [links flat_map] in S. unfold d_sock. fields. apply s_turn; [exact S|destruct E as [->| ->]; reflexivity|reflexivity].
    - pose proof (v_ent H) as En. rewrite T in En. exact En.
    - exact (v_id H).
    - exact (v_lim H).
    - exact T.
    - now apply nth_turn.
    - now exists i, f.
    - exists d', (Client.on_close (Client.set_state k Client.Closed c)), 60. split; [|split; [exact I2|split; [exact T2|split; [rewrite close_disp; exact Dp|rewrite L2; exact F']]]].
      intros n Hn. rewrite R'. replace n with (60 + (n - 60)) by lia. apply R2. }
  destruct (Client.state_of c k) as [| |[|]|] eqn:E; try (now apply t_none); apply Go; auto.
Qed.

Lemma t_timer d c k : Inv d c -> d_t d = [] -> Client.cl_disp c = None -> does d c (TTimer k).
Proof.
  intros H T Dp. pose proof (rest_idle d c H T Dp) as Id. pose proof (JsSpec.f_timer lit num other (conc d) c k) as F. pose proof (s_timer (v_net H)) as Tm.
  destruct (nth_error (d_tm d) k) as [[[f v]|]|] eqn:Ek.
  2,3: apply t_none; [assumption..| |replace (alive (conc d) k) with false in F; [exact F|unfold alive, conc, St; cbn [st_timers]; now rewrite Ek]];
    intros n; cbn [JsSem.run_task]; unfold bind, attempt, gets, conc, St; cbn [st_timers]; rewrite Ek; reflexivity.
  replace (alive (conc d) k) with true in F by (unfold alive, conc, St; cbn [st_timers]; now rewrite Ek).
  unfold timer_ok in Tm. destruct (Client.cl_timer c) as [dl|] eqn:Et; [|exfalso; exact (proj2 Tm k _ Ek)].
  destruct Tm as (k' & i & Eth & Hk & U). pose proof (U _ _ Ek) as <-. rewrite Ek in Hk. injection Hk as -> ->.
  pose proof (shape_next lit num other c Client.TTimer (v_shape H)) as Sh.
  cbn [Client.cnext] in F, Sh. rewrite Id, Et in F, Sh.
  assert (Ec : upd k (fun _ => None) (d_tm d) = clear (d_th d) (d_tm d)) by (rewrite Eth; reflexivity).
  pose proof (s_fired _ _ _ _ _ _ _ _ _ _ _ _ (v_net H)) as S. rewrite T in S. cbn [links flat_map] in S.
  assert (Eo : fst (Client.open (Client.set_timer None c)) = fst (Client.open c)) by reflexivity.
  assert (Oth : Client.cl_subs (fst (Client.open c)) = Client.cl_subs c /\ Client.cl_stores (fst (Client.open c)) = Client.cl_stores c /\ Client.cl_id (fst (Client.open c)) = Client.cl_id c /\ Client.cl_disp (fst (Client.open c)) = Client.cl_disp c).
  { unfold Client.open. cbn. destruct (Client.cl_opening c); repeat split. }
  destruct Oth as (E1 & E2 & E3 & E4).
  assert (Lo : ClientSockProofs.Loose (Client.set_timer None c)) by (apply (ClientSockProofs.loose_same _ c); [repeat split|exact (v_loose _ _ H)]).
  pose proof (v_ent H) as En. rewrite T in En.
  (* what the function of the timer leaves *)
  assert (Go : forall d1 w, Inv d1 (fst (Client.open c)) -> d_t d1 = [tag_link w] -> d_us d1 = d_us d ->
    (forall n, call (60 + n) (JsFun.f_timer i) [] (St (d_id d) (d_iv d) (d_so d) (d_op d) (d_th d) (d_cnt d) (d_rest d) (d_fr d) (map snd (d_h d)) (d_sk d) (d_su d) (clear (d_th d) (d_tm d)) [] (d_us d)) = Ok (VProm (List.length (map snd (d_h d)))) (conc d1)) ->
    does d c (TTimer k)).
  { intros d1 w I1 T1 U1 R1. destruct (j_link lit num other d1 _ (tag_link w) [] w I1) as (d2 & [R2 I2 _ _ _] & T2 & U2); [congruence|exact T1|reflexivity|].
    exists d2, (fst (Client.open c)), 200. split; [|split; [exact I2|split; [exact T2|split; [congruence|unfold left; rewrite U2, U1; exact F]]]].
    intros n Hn. cbn [JsSem.run_task]. unfold bind at 1, attempt at 1, gets. unfold conc at 1. unfold St at 1. cbn [st_timers]. rewrite Ek. unfold bind at 1, attempt at 1, modify.
    unfold bind, attempt. match goal with |- context [call n _ [] ?s] => change s with (St (d_id d) (d_iv d) (d_so d) (d_op d) (d_th d) (d_cnt d) (d_rest d) (d_fr d) (map snd (d_h d)) (d_sk d) (d_su d) (upd k (fun _ => None) (d_tm d)) (map snd (d_t d)) (d_us d)) end.
    rewrite Ec, T. cbn [map]. specialize (R1 (n - 60)). replace (60 + (n - 60)) with n in R1 by lia. rewrite R1. unfold ret. destruct n as [|n]; [lia|].
    unfold conc at 1. rewrite T1. cbn [map]. specialize (R2 (n - 140)). replace (140 + (n - 140)) with n in R2 by lia. unfold conc at 1, d_tail in R2. cbn [d_id d_iv d_so d_op d_th d_cnt d_rest d_fr d_h d_sk d_su d_tm d_t d_us map] in R2.
    erewrite drain_job by exact R2. destruct n as [|n]; [lia|]. now rewrite idle_drain. }
  pose proof (s_op S) as Op. cbn [Client.set_timer Client.cl_opening] in Op. destruct (Client.cl_opening c) as [m|] eqn:Eop.
  - destruct Op as (p & Op & Hp). set (w := mkW m p (List.length (d_h d)) (List.length (d_h d) + 1) 0 0 None).
    apply (Go (mkD (d_id d) (d_iv d) (d_so d) (VProm p) VUndef (d_cnt d) (d_rest d) (d_fr d) (d_h d ++ cell w) (d_sk d) (d_su d) (clear (d_th d) (clear (d_th d) (d_tm d))) [tag_link w] (d_us d) (d_sp d) (d_ln d) (d_es d)) w); try reflexivity.
    + constructor; fields; rewrite ?E1, ?E2, ?E3; try apply H; [exact Sh| |].
      * pose proof (s_open_old _ _ [] _ _ _ _ _ _ _ _ _ _ m p w Lo S Eop Hp eq_refl eq_refl eq_refl eq_refl) as S2. rewrite app_nil_r, Eo, Op in S2. cbn [app waits w_v w] in S2. rewrite app_nil_r in S2.
        assert (Ew : Client.set_waiting (Client.cl_waiting (Client.set_timer None c)) (fst (Client.open c)) = fst (Client.open c)).
        { unfold Client.open. cbn. rewrite Eop. reflexivity. }
        rewrite Ew in S2. apply S2. discriminate.
      * rewrite <- (app_nil_r (d_rest d)). change [tag_link w] with ([] ++ [tag_link w]). eapply e_mono; [apply keeps_app|apply Nat.le_refl|apply (net_links [w])|exact En].
    + intros n. rewrite Op. erewrite timer_old; [|rewrite Eth; right; now exists k|]. unfold conc; fields; rewrite map_app, map_length; reflexivity.
      rewrite map_length. destruct (s_sp_lt _ _ _ _ _ _ _ _ _ _ _ _ _ _ S Hp) as (x & y & _ & _ & [_ _ _ _ (z & Hz & _)]). now apply nth_some_lt in Hz.
  - set (w := mkW (List.length (d_sk d)) (List.length (d_h d) + 1) (List.length (d_h d)) (List.length (d_h d) + 2) 0 0 None).
    set (g := [open_frame (List.length (d_h d) + 1)]).
    apply (Go (mkD (d_id d) (d_iv d) (VSock (List.length (d_sk d))) (VProm (List.length (d_h d) + 1)) VUndef (d_cnt d) (d_rest d ++ g) (5 + d_fr d)
      (d_h d ++ [(OOut, out_prom w); (OSock (List.length (d_sk d)), blank false)]) (d_sk d ++ [mkSock Client.Connecting [] [] (handlers (d_fr d) (2 + List.length (d_rest d)))]) (d_su d)
      (clear (d_th d) (clear (d_th d) (d_tm d))) [tag_link w] (d_us d) (d_sp d ++ [List.length (d_h d) + 1]) (d_ln d) (d_es d)) w); try reflexivity.
    + constructor; fields; rewrite ?E1, ?E2, ?E3; try apply H; [exact Sh| |].
      * rewrite Op in S. pose proof (s_open_new _ _ g _ _ _ _ _ _ _ _ _ (List.length (d_rest d)) (d_fr d) w S Eop eq_refl eq_refl eq_refl eq_refl) as S2. rewrite Eo in S2. cbn [app waits w_v w] in S2. rewrite app_nil_r in S2.
        assert (Ew : Client.set_waiting (Client.cl_waiting (Client.set_timer None c)) (fst (Client.open c)) = fst (Client.open c)).
        { unfold Client.open. cbn. rewrite Eop. reflexivity. }
        rewrite Ew in S2. apply S2; [discriminate|]. apply nth_app_new.
      * change [tag_link w] with ([] ++ [tag_link w]). eapply e_mono; [apply keeps_app| |apply (net_links [w])|exact En]; lia.
    + intros n. rewrite Op. erewrite timer_new; [|rewrite Eth; right; now exists k]. unfold conc; fields; rewrite map_app, map_length; reflexivity.
Qed.

Lemma t_message d c k t : Inv d c -> d_t d = [] -> Client.cl_disp c = None -> does d c (TMessage k t).
Proof.
  intros H T Dp. pose proof (rest_idle d c H T Dp) as Id. pose proof (JsSpec.f_message lit num other (conc d) c k t) as F. change (us_scripts (st_user (conc d))) with (left d) in F.
  pose proof (shape_next lit num other c (Client.NMessage k t) (v_shape H)) as Sh. cbn [Client.cnext] in F, Sh. rewrite Id in F, Sh.
  assert (R : forall n, run_task n (TMessage k t) (conc d) = match Client.state_of c k with Client.Open => fire n k "onmessage" (msg_event t) (conc d) | _ => Ok tt (conc d) end).
  { intros n. cbn [JsSem.run_task]. unfold bind, attempt. rewrite (state_is d c k H). now destruct (Client.state_of c k). }
  destruct (Client.state_of c k) eqn:E; try (apply t_none; [assumption..|apply F, l_done]).
  destruct (sock_is d c k H) as (p & x & y & Hp & Hx & Hy & [_ _ _ (i & f & On & _) _]); [congruence|].
  unfold js_read in F, Sh. destruct (match parse num t with Some x => on_message (jsparse x) | None => None end) as [[kk v]|] eqn:Em.
  2:{ destruct (message_miss lit num other (d_id d) (d_iv d) (d_so d) (d_op d) (d_th d) (d_cnt d) (d_rest d) (d_fr d) (map snd (d_h d)) (d_sk d) (d_su d) (d_tm d) (map snd (d_t d)) (d_us d) i t Em) as (g & Rm).
      exists (d_more g d), c, 31. split; [|split; [now apply v_more|split; [exact T|split; [exact Dp|apply F, l_done]]]].
      intros n Hn. rewrite R. destruct (Rm (n - 30)) as (r & Hr & Rr). replace (30 + (n - 30)) with n in Rr by lia.
      erewrite fire_ok; [|exact Hy|rewrite On; reflexivity|]; cycle 1.
      - destruct Hr as [->|[w ->]]; [exists VUndef; left|exists w; right]; exact Rr.
      - destruct n as [|n]; [lia|]. apply (idle_drain n (d_more g d)). exact T. }
  destruct (parse num t) as [j|] eqn:Ej; [|discriminate].
  set (c1 := Client.set_disp _ _ c) in *.
  set (d1 := mkD (d_id d) (VArr [VData kk; VData v]) (d_so d) (d_op d) (d_th d) (d_cnt d) (d_rest d ++ [message_frame (msg_event t) (jsparse j)]) (1 + d_fr d) (d_h d) (d_sk d) (d_su d) (d_tm d) (d_t d) (d_us d) (d_sp d) (d_ln d) (d_es d)).
  assert (I1 : Inv d1 c1).
  { constructor; unfold d1; fields; [exact Sh| | |exact (v_id H)|exact (v_lim H)].
    - eapply s_mono; [apply keeps_refl| |exact (v_net H)]. repeat split.
    - rewrite <- (app_nil_r (d_t d)). eapply e_mono; [apply keeps_refl| |constructor|exact (v_ent H)]. lia. }
  destruct (each_ok lit num other _ d1 c1 0 kk v false (d_fr d) (List.length (d_rest d)) (msg_event t) (jsparse j) (Nat.le_refl _) I1 eq_refl eq_refl) as (d2 & c2 & N & r & Hr & R2 & I2 & D2 & L2).
  { unfold d1. fields. apply nth_app_new. }
  destruct (drains lit num other d2 c2 I2 D2) as (d3 & c3 & N3 & R3 & I3 & T3 & D3 & L3).
  exists d3, c3, (30 + N + N3). split; [|split; [exact I3|split; [exact T3|split; [exact D3|]]]].
  - intros n Hn. rewrite R. erewrite fire_ok; [apply R3; lia|exact Hy|rewrite On; reflexivity|].
    replace n with (30 + (n - 30)) by lia. unfold handlers. cbn [snd].
    assert (Rm : call (30 + (n - 30)) (JsFun.f_message i) [msg_event t] (conc d) = then_ok r (fun _ => ret VUndef)).
    { unfold conc. eapply message_hit; [exact Ej|exact Em|]. intros n' Hn'. apply (R2 n'). lia. }
    destruct Hr as [->|[w ->]]; [exists VUndef; left|exists w; right]; exact Rm.
  - apply F. change (left d) with (left d1). apply L2. exact L3.
Qed.

(** The promise of a socket is settled. *)
Lemma t_open d c k : Inv d c -> d_t d = [] -> Client.cl_disp c = None -> does d c (TOpen k).
Proof.
  intros H T Dp. pose proof (rest_idle d c H T Dp) as Id. pose proof (JsSpec.f_open lit num other (conc d) c k) as F. change (us_scripts (st_user (conc d))) with (left d) in F.
  pose proof (shape_next lit num other c (Client.NOpen k) (v_shape H)) as Sh. cbn [Client.cnext] in F, Sh. rewrite Id in F, Sh.
  assert (R : forall n, run_task n (TOpen k) (conc d) = match Client.state_of c k with Client.Connecting => fire n k "onopen" (event "open") (conc (d_sock k Client.Open d)) | _ => Ok tt (conc d) end).
  { intros n. cbn [JsSem.run_task]. unfold bind, attempt. rewrite (state_is d c k H). unfold conc, d_sock. fields.
    destruct (Client.state_of c k); reflexivity. }
  destruct (Client.state_of c k) eqn:E; try (now apply t_none).
  destruct (sock_is d c k H) as (p & x & y & Hp & Hx & Hy & [K1 K2 _ (i & f & On & Hf) (z & Hz & Pz)]); [congruence|].
  assert (Ex : Client.ws_state x = Client.Connecting) by (unfold Client.state_of in E; now rewrite Hx in E).
  rewrite Ex in Pz. unfold sock_prom in Pz. cbn [unborn] in Pz. subst z.
  rewrite (ClientSockProofs.on_open_is k c (v_shape H) E) in F, Sh.
  set (ws := filter (of_sock k) (d_ln d)) in *. destruct (of_links d c k H T) as [Fo Nd]. fold ws in Fo, Nd.
  pose proof (v_net H) as S. rewrite T in S. cbn [links flat_map] in S.
  pose proof (v_ent H) as En. rewrite T in En.
  set (z1 := mkProm (PFul VUndef) true). set (h1 := put p (OSock k) z1 (d_h d)).
  assert (Np : ~ In p (flat_map cells ws)).
  { intros I. apply in_flat_map in I as (w & Iw & I). rewrite Forall_forall in Fo. destruct (Fo w Iw) as [A B]. unfold cells in I. destruct (w_v w).
    - destruct I as [<-|[<-|[]]]; [rewrite A in Hz|destruct B as [_ B]; rewrite B in Hz]; discriminate.
    - destruct I as [<-|[]]. rewrite A in Hz. discriminate. }
  assert (O1 : forall q, q <> p -> nth_error h1 q = nth_error (d_h d) q) by (intros q Nq; apply put_other; congruence).
  set (g0 := [one_frame "_" (event "open")]).
  destruct (into_all lit num other true VUndef (d_id d) (d_iv d) (d_so d) VUndef (d_th d) 0 (d_rest d ++ g0) (d_fr d) (upd k (turn Client.Open) (d_sk d)) (d_su d) (d_tm d) (d_us d) ws (fun _ => eq_refl) h1 []) as (h2 & K2' & R2).
  { rewrite Forall_forall in Fo |- *. intros w Iw. destruct (Fo w Iw) as [A _]. rewrite O1; [exact A|]. intros Eq. apply Np. rewrite <- Eq. now apply ps_cells, in_map. }
  { exact Nd. }
  assert (Cu : Client.cl_cur c = Some k) by (apply (ClientSockProofs.lo_held _ (v_loose _ _ H)); now left).
  destruct (send_all lit num other (d_id d) (d_iv d) (d_so d) VUndef (d_th d) 0 (d_fr d) (d_su d) (d_tm d) (d_us d) k ws (v_th _ _ H) h2 (d_rest d ++ g0) (upd k (turn Client.Open) (d_sk d))) as (h3 & g & K3 & R3).
  { exists (turn Client.Open y). split; [rewrite (s_cur S), Cu; reflexivity|]. split; [now apply nth_turn|reflexivity]. }
  { now left. }
  { rewrite Forall_forall in Fo |- *. intros w Iw v Hv. destruct (Fo w Iw) as [A B]. rewrite Hv in B. destruct B as [B1 B2]. split; [now apply nth_old|].
    assert (Ic : In (w_q w) (flat_map cells ws)) by (apply in_flat_map; exists w; split; [exact Iw|unfold cells; rewrite Hv; right; now left]).
    rewrite K2', O1; [exact B2|intros Eq; apply Np; now rewrite <- Eq|].
    intros I. apply in_map_iff in I as (w' & Eq & Iw'). destruct (Fo w' Iw') as [A' _]. rewrite Eq, B2 in A'. discriminate. }
  { exact Nd. }
  assert (O3 : forall q, q <> p -> ~ In q (flat_map cells ws) -> nth_error h3 q = nth_error (d_h d) q).
  { intros q Nq Ic. rewrite K3, K2', O1; [reflexivity|exact Nq|intros I; now apply Ic, ps_cells|intros I; now apply Ic, qs_cells]. }
  assert (Hz3 : nth_error h3 p = Some (OSock k, z1)).
  { rewrite K3, K2'; [eapply put_same; exact Hz|intros I; now apply Np, ps_cells|intros I; now apply Np, qs_cells]. }
  exists (mkD (d_id d) (d_iv d) (d_so d) VUndef (d_th d) 0 ((d_rest d ++ g0) ++ g) (d_fr d) h3 (upd k (pushes (texts ws)) (upd k (turn Client.Open) (d_sk d))) (d_su d) (d_tm d) [] (d_us d) (d_sp d) (filter (off k) (d_ln d)) (d_es d)),
    (ClientSockProofs.opened k c), (200 + List.length ws + List.length ws).
  split; [|split; [|split; [reflexivity|split; [exact Dp|exact F]]]].
  - intros n Hn. rewrite R. erewrite fire_ok; [|unfold conc, d_sock, St; fields; cbn [st_socks]; now apply nth_turn, Hy|cbn [turn so_on]; rewrite On; reflexivity|]; cycle 1.
    { exists VUndef. left. unfold conc, d_sock. fields. replace n with (20 + (n - 20)) by lia. eapply onopen_ok; [exact Hf|eapply nth_snd; exact Hz]. }
    rewrite T, <- (put_snd (d_h d) p (OSock k)). cbn [map app]. rewrite map_map. cbn [into re_ful re_to].
    replace n with (List.length ws + (100 + List.length ws + (n - 100 - List.length ws - List.length ws))) by lia.
    pose proof (R2 (100 + List.length ws + (n - 100 - List.length ws - List.length ws))) as R2'. rewrite app_nil_r in R2'.
    etransitivity; [exact R2'|]. cbn [app]. rewrite R3. reflexivity.
  - constructor; fields; [exact Sh| | |exact (v_id H)|exact (v_lim H)].
    + rewrite <- app_assoc, ClientSockProofs.upd_upd. cbn [links flat_map]. eapply s_done with (f := fun s => Client.mkWs Client.Open (Client.ws_sent s ++ waiting_on c k)).
      * exact S.
      * now rewrite E.
      * exact Hp.
      * exact O3.
      * exact Hz3.
      * reflexivity.
      * discriminate.
      * reflexivity.
      * intros x' y' _ _ Es. cbn. split; [reflexivity|]. split; [reflexivity|]. split; [|split; reflexivity]. rewrite Es, map_app. unfold ws. now rewrite (texts_on d c k H T).
      * reflexivity.
      * reflexivity.
      * reflexivity.
      * reflexivity.
      * reflexivity.
    + rewrite <- app_assoc. change (@nil (mark * job)) with (@nil (mark * job) ++ []). eapply e_mono; [|apply Nat.le_refl|constructor|exact En].
      eapply keeps_done; [exact Hz|exact Fo|exact O3].
Qed.

Lemma error_runs d c k p x y : Inv d c -> d_t d = [] -> Client.state_of c k <> Client.Closed -> nth_error (d_sp d) k = Some p ->
  nth_error (Client.cl_socks c) k = Some x -> nth_error (d_sk d) k = Some y -> sock_ok (d_h d) (d_rest d) k (filter (of_sock k) (d_ln d)) x y p ->
  let c1 := Client.on_error k (Client.set_state k Client.Closed c) in
  exists d1 N, (forall n, N <= n -> fire n k "onerror" (event "error") (conc (d_sock k Client.Closed d)) = Ok tt (conc d1)) /\
    SInv (d_h d1) (d_rest d1) (d_so d1) (d_op d1) (d_th d1) (d_cnt d1) (d_sk d1) (d_tm d1) (d_sp d1) (d_ln d1) [] c1 /\
    EInv (d_h d1) (d_rest d1) (d_fr d1) [] (d_us d1) (d_su d1) (d_es d1) (Client.cl_subs c1) (Client.cl_stores c1) /\
    d_id d1 = d_id d /\ d_t d1 = [] /\ d_sk d1 = upd k (turn Client.Closed) (d_sk d) /\ left d1 = left d.
Proof.
  intros H T Nc Hp Hx Hy [K1 K2 _ (i & f & On & Hf) (z & Hz & Pz)] c1.
  assert (Ex : Client.ws_state x = Client.state_of c k) by (unfold Client.state_of; now rewrite Hx).
  pose proof (v_net H) as S. rewrite T in S. cbn [links flat_map] in S. pose proof (v_ent H) as En. rewrite T in En.
  set (g0 := [one_frame "error" (event "error")]). unfold sock_prom in Pz. rewrite Ex in Pz.
  destruct (unborn (Client.state_of c k)) eqn:Ub.
  - subst z. set (ws := filter (of_sock k) (d_ln d)) in *. destruct (of_links d c k H T) as [Fo Nd]. fold ws in Fo, Nd.
    set (z1 := mkProm (PRej (event "error")) true). set (h1 := put p (OSock k) z1 (d_h d)).
    assert (Np : ~ In p (flat_map cells ws)).
    { intros I. apply in_flat_map in I as (w & Iw & I). rewrite Forall_forall in Fo. destruct (Fo w Iw) as [A B]. unfold cells in I. destruct (w_v w).
      - destruct I as [<-|[<-|[]]]; [rewrite A in Hz|destruct B as [_ B]; rewrite B in Hz]; discriminate.
      - destruct I as [<-|[]]. rewrite A in Hz. discriminate. }
    assert (O1 : forall q, q <> p -> nth_error h1 q = nth_error (d_h d) q) by (intros q Nq; apply put_other; congruence).
    destruct (into_all lit num other false (event "error") (d_id d) (d_iv d) (d_so d) VUndef (d_th d) (d_cnt d) (d_rest d ++ g0) (d_fr d) (upd k (turn Client.Closed) (d_sk d)) (d_su d) (d_tm d) (d_us d) ws ltac:(discriminate) h1 []) as (h2 & K2' & R2).
    { rewrite Forall_forall in Fo |- *. intros w Iw. destruct (Fo w Iw) as [A _]. rewrite O1; [exact A|]. intros Eq. apply Np. rewrite <- Eq. now apply ps_cells, in_map. }
    { exact Nd. }
    destruct (reject_all lit num other (event "error") (d_id d) (d_iv d) (d_so d) VUndef (d_th d) (d_cnt d) (d_rest d ++ g0) (d_fr d) (upd k (turn Client.Closed) (d_sk d)) (d_su d) (d_tm d) (d_us d) ws h2) as (h3 & K3 & R3).
    { rewrite Forall_forall in Fo |- *. intros w Iw Hv. destruct (Fo w Iw) as [A B]. destruct (w_v w) as [v|] eqn:Ev; [|congruence]. destruct B as [B1 B2].
      assert (Ic : In (w_q w) (flat_map cells ws)) by (apply in_flat_map; exists w; split; [exact Iw|unfold cells; rewrite Ev; right; now left]).
      rewrite K2', O1; [exact B2|intros Eq; apply Np; now rewrite <- Eq|].
      intros I. apply in_map_iff in I as (w' & Eq & Iw'). destruct (Fo w' Iw') as [A' _]. rewrite Eq, B2 in A'. discriminate. }
    { exact Nd. }
    assert (O3 : forall q, q <> p -> ~ In q (flat_map cells ws) -> nth_error h3 q = nth_error (d_h d) q).
    { intros q Nq Ic. rewrite K3, K2', O1; [reflexivity|exact Nq|intros I; now apply Ic, ps_cells|intros I; now apply Ic, qs_cells]. }
    assert (Hz3 : nth_error h3 p = Some (OSock k, z1)).
    { rewrite K3, K2'; [eapply put_same; exact Hz|intros I; now apply Np, ps_cells|intros I; now apply Np, qs_cells]. }
    exists (mkD (d_id d) (d_iv d) (d_so d) VUndef (d_th d) (d_cnt d) (d_rest d ++ g0) (d_fr d) h3 (upd k (turn Client.Closed) (d_sk d)) (d_su d) (d_tm d) [] (d_us d) (d_sp d) (filter (off k) (d_ln d)) (d_es d)),
      (200 + List.length ws + List.length ws).
    split; [|split; [|split; [|repeat split]]].
    + intros n Hn. erewrite fire_ok; [|unfold conc, d_sock, St; fields; cbn [st_socks]; now apply nth_turn, Hy|cbn [turn so_on]; rewrite On; reflexivity|]; cycle 1.
      { exists VUndef. left. unfold conc, d_sock. fields. replace n with (20 + (n - 20)) by lia. eapply onerror_first; [exact Hf|eapply nth_snd; exact Hz]. }
      rewrite T, <- (put_snd (d_h d) p (OSock k)). cbn [map app]. rewrite map_map. cbn [into re_rej re_to].
      replace n with (List.length ws + (1 + (List.length ws + (n - 1 - List.length ws - List.length ws)))) by lia.
      pose proof (R2 (1 + (List.length ws + (n - 1 - List.length ws - List.length ws)))) as R2'. rewrite app_nil_r in R2'.
      etransitivity; [exact R2'|]. cbn [app]. rewrite R3. reflexivity.
    + fields. eapply s_done with (f := fun s => Client.mkWs Client.Closed (Client.ws_sent s)).
      * exact S.
      * exact Ub.
      * exact Hp.
      * exact O3.
      * exact Hz3.
      * reflexivity.
      * discriminate.
      * reflexivity.
      * intros x' y' _ _ Es. cbn. split; [reflexivity|]. split; [reflexivity|]. split; [exact Es|split; reflexivity].
      * reflexivity.
      * reflexivity.
      * reflexivity.
      * exact (s_count S).
      * reflexivity.
    + fields. change (@nil (mark * job)) with (@nil (mark * job) ++ []). eapply e_mono; [|apply Nat.le_refl|constructor|exact En].
      eapply keeps_done; [exact Hz|exact Fo|exact O3].
  - destruct z as [st u]. destruct Pz as [Pu _]. cbn in Pu. subst u.
    exists (mkD (d_id d) (d_iv d) (d_so d) VUndef (d_th d) (d_cnt d) (d_rest d ++ g0) (d_fr d) (d_h d) (upd k (turn Client.Closed) (d_sk d)) (d_su d) (d_tm d) [] (d_us d) (d_sp d) (d_ln d) (d_es d)), 21.
    split; [|split; [|split; [|repeat split]]].
    + intros n Hn. erewrite fire_ok; [|unfold conc, d_sock, St; fields; cbn [st_socks]; now apply nth_turn, Hy|cbn [turn so_on]; rewrite On; reflexivity|]; cycle 1.
      { exists VUndef. left. unfold conc, d_sock. fields. replace n with (20 + (n - 20)) by lia. eapply onerror_again; [exact Hf|eapply nth_snd; exact Hz]. }
      rewrite T. destruct n as [|n]; [lia|]. apply drain_nil.
    + fields. pose proof (s_noop _ _ _ _ _ _ _ _ _ _ _ _ (s_turn _ _ _ _ _ _ _ _ _ _ _ _ k Client.Closed S Ub eq_refl)) as S2.
      destruct (wait_unborn _ _ _ _ _ _ _ _ _ _ _ _ k S Ub) as [_ W]. unfold c1, Client.on_error.
      eapply s_mono; [apply keeps_refl| |exact S2]. repeat split. exact W.
    + fields. change (@nil (mark * job)) with (@nil (mark * job) ++ []). eapply e_mono; [apply keeps_refl|apply Nat.le_refl|constructor|exact En].
Qed.

Lemma t_fail d c k : Inv d c -> d_t d = [] -> Client.cl_disp c = None -> does d c (TFail k).
Proof.
  intros H T Dp. pose proof (rest_idle d c H T Dp) as Id. pose proof (JsSpec.f_fail lit num other (conc d) c k) as F. change (us_scripts (st_user (conc d))) with (left d) in F.
  cbn [Client.cnext] in F. rewrite Id in F. set (c1 := Client.on_error k (Client.set_state k Client.Closed c)) in *.
  assert (Go : Client.state_of c k <> Client.Closed ->
    (forall n, run_task n (TFail k) (conc d) = bind (fire n k "onerror" (event "error")) (fun _ => fire n k "onclose" (event "close")) (conc (d_sock k Client.Closed d))) ->
    follows (conc d) c (TFail k) (left d) (Client.on_close c1) -> does d c (TFail k)).
  { intros Nc R F'. destruct (sock_is d c k H Nc) as (p & x & y & Hp & Hx & Hy & O).
    destruct (error_runs d c k p x y H T Nc Hp Hx Hy O) as (d1 & N1 & R1 & S1 & En1 & Ei1 & T1 & Sk1 & L1). destruct O as [_ _ _ (i & f & On & _) _].
    destruct (close_runs d1 c1 k (turn Client.Closed y)) as (d2 & R2 & I2 & T2 & L2).
    - apply ClientSockProofs.loose_failed; [exact (v_shape H)|exact Nc].
    - exact S1.
    - exact En1.
    - rewrite Ei1. exact (v_id H).
    - exact (v_lim H).
    - exact T1.
    - rewrite Sk1. now apply nth_turn.
    - now exists i, f.
    - exists d2, (Client.on_close c1), (60 + N1). split; [|split; [exact I2|split; [exact T2|split; [rewrite close_disp; exact Dp|rewrite L2, L1; exact F']]]].
      intros n Hn. rewrite R. unfold bind, attempt. rewrite R1 by lia. replace n with (60 + (n - 60)) by lia. rewrite R2. reflexivity. }
  assert (R : forall n, run_task n (TFail k) (conc d) = match Client.state_of c k with Client.Closed => Ok tt (conc d)
    | _ => bind (fire n k "onerror" (event "error")) (fun _ => fire n k "onclose" (event "close")) (conc (d_sock k Client.Closed d)) end).
  { intros n. cbn [JsSem.run_task]. unfold bind at 1, attempt at 1. rewrite (state_is d c k H). destruct (Client.state_of c k) as [| |[|]|]; reflexivity. }
  destruct (Client.state_of c k) as [| |[|]|] eqn:E; try (now apply t_none); apply Go; (congruence || assumption).
Qed.

Lemma task_ok d c t : Inv d c -> d_t d = [] -> Client.cl_disp c = None -> does d c t.
Proof.
  intros H T Dp. destruct t; [now apply t_user|now apply t_open|now apply t_closing|now apply t_close|now apply t_fail|now apply t_message|now apply t_timer].
Qed.
End Tasks.
