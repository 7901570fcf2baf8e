(** Proofs on the websocket handler. *)
From Coq Require Import List Arith NArith Bool Lia.
From Verif Require Import Util Server ServerSpec ServerLemmas ServerProofs Pump PumpSpec.
Import ListNotations.

Section PumpProofs.
Context {A : app} {text : Type} (decode : text -> msg A) (encode : response A -> text).
Local Notation pnext := (pnext decode encode).
Local Notation prun := (prun decode encode).

(** ** What a server event does to a connection it does not name *)
Definition touches (e : event A) (c : nat) : bool :=
  match e with
  | EvSend d _ | EvDropRx d | EvDropTx d | EvRead d => Nat.eqb d c
  | _ => false
  end.

(** [cn'] is [cn] with more responses. *)
Definition grown (cn cn' : conn A) : Prop :=
  cn_rx cn' = cn_rx cn /\ cn_tx cn' = cn_tx cn /\ cn_read cn' = cn_read cn /\
  exists l, cn_out cn' = cn_out cn ++ l /\ (cn_rx cn = false -> l = []).

Lemma grown_refl cn : grown cn cn.
Proof. repeat split. exists []. rewrite app_nil_r. auto. Qed.

Lemma grown_push (s : state A) c d o r cn : nth_error (st_conns s) c = Some cn ->
  exists cn', nth_error (st_conns (push s d o r)) c = Some cn' /\ grown cn cn'.
Proof.
  intros H. cbn. rewrite nth_upd. destruct (Nat.eqb_spec d c) as [->|Hd]; rewrite H; cbn.
  - destruct (cn_rx cn) eqn:Hr.
    + eexists. split; [reflexivity|]. repeat split; auto. eexists. split; [reflexivity|]. congruence.
    + eexists. split; [reflexivity|]. apply grown_refl.
  - eexists. split; [reflexivity|]. apply grown_refl.
Qed.

Lemma conns_same (s s' : state A) c cn : st_conns s' = st_conns s -> nth_error (st_conns s) c = Some cn ->
  exists cn', nth_error (st_conns s') c = Some cn' /\ grown cn cn'.
Proof. intros -> H. exists cn. split; [assumption | apply grown_refl]. Qed.

Lemma conn_frame (s : state A) e c cn : nth_error (st_conns s) c = Some cn -> touches e c = false ->
  exists cn', nth_error (st_conns (next s e)) c = Some cn' /\ grown cn cn'.
Proof.
  intros H Ht. unfold next, step. destruct e as [| | |d m|d|d|d| | |t|t v|t|t]; cbn in Ht.
  - destruct (Nat.eqb _ 0); cbn.
    + exists cn. split; [assumption | apply grown_refl].
    + rewrite nth_error_app1 by (apply nth_error_Some; congruence). exists cn. split; [assumption | apply grown_refl].
  - destruct (Nat.eqb _ 0); now apply (conns_same s).
  - now apply (conns_same s).
  - destruct (nth_error (st_conns s) d) as [x|]; [destruct (cn_tx x); [destruct (alive _)|]|]; now apply (conns_same s).
  - apply Nat.eqb_neq in Ht. cbn. rewrite nth_upd_other by assumption. exists cn. split; [assumption | apply grown_refl].
  - apply Nat.eqb_neq in Ht. cbn. rewrite nth_upd_other by assumption. exists cn. split; [assumption | apply grown_refl].
  - apply Nat.eqb_neq in Ht. destruct (nth_error (st_conns s) d) as [x|]; [|now apply (conns_same s)].
    destruct (cn_rx x); [|now apply (conns_same s)].
    destruct (nth_error (cn_out x) (cn_read x)) as [[o r]|]; [|now apply (conns_same s)].
    cbn. rewrite nth_upd_other by assumption. exists cn. split; [assumption | apply grown_refl].
  - destruct (st_loop s); try now apply (conns_same s).
    destruct (st_queue s) as [|[d m] q].
    + destruct (no_senders s); now apply (conns_same s).
    + cbn [fst]. unfold handle. destruct m as [[id v|id]|err].
      * destruct (from_value A v) as [call|e].
        -- destruct (is_stream A call); [destruct (open_stream A _ call)|]; now apply (conns_same s).
        -- now apply (grown_push (with_queue q s)).
      * unfold cancel. destruct (m_get id _); now apply (conns_same s).
      * now apply (grown_push (with_queue q s)).
  - destruct (st_loop s) as [|d id call| |]; try now apply (conns_same s).
    cbn [fst]. unfold method_done. destruct (run_method A _ call) as [[a r]|]; [|now apply (conns_same s)].
    destruct (rx_alive s d); [|now apply (conns_same s)].
    now apply (grown_push s).
  - now apply (conns_same s).
  - destruct (nth_error (st_tasks s) t) as [tk|]; [|now apply (conns_same s)].
    destruct (polling _); [|now apply (conns_same s)].
    destruct (rx_alive s _); [|now apply (conns_same s)].
    now apply (grown_push s).
  - now apply (conns_same s).
  - now apply (conns_same s).
Qed.

Lemma sent_frame (s : state A) e c : touches e c = false -> sent_by c (st_sent (next s e)) = sent_by c (st_sent s).
Proof.
  intros Ht. unfold next, step. destruct e as [| | |d m|d|d|d| | |t|t v|t|t]; cbn in Ht; try reflexivity.
  - destruct (Nat.eqb _ 0); reflexivity.
  - destruct (Nat.eqb _ 0); reflexivity.
  - destruct (nth_error (st_conns s) d) as [x|]; [destruct (cn_tx x); [destruct (alive _)|]|]; try reflexivity.
    cbn. unfold sent_by. rewrite filter_app. cbn. rewrite Ht, app_nil_r. reflexivity.
  - destruct (nth_error (st_conns s) d) as [x|]; [destruct (cn_rx x); [destruct (nth_error (cn_out x) _) as [[? ?]|]|]|]; reflexivity.
  - destruct (st_loop s); try reflexivity. destruct (st_queue s) as [|[d m] q].
    + destruct (no_senders s); reflexivity.
    + cbn [fst]. unfold handle. destruct m as [[id v|id]|err]; try reflexivity.
      * destruct (from_value A v) as [call|e]; [|reflexivity].
        destruct (is_stream A call); [destruct (open_stream A _ call)|]; reflexivity.
      * unfold cancel. destruct (m_get id _); reflexivity.
  - destruct (st_loop s) as [|d id call| |]; try reflexivity.
    cbn [fst]. unfold method_done. destruct (run_method A _ call) as [[a r]|]; [|reflexivity].
    destruct (rx_alive s d); reflexivity.
  - destruct (nth_error (st_tasks s) t) as [tk|]; [|reflexivity].
    destruct (polling _); [|reflexivity]. destruct (rx_alive s _); reflexivity.
Qed.

(** A loop that is over stays over. *)
Lemma dead_stays (s : state A) e : alive (st_loop s) = false -> alive (st_loop (next s e)) = false.
Proof.
  intros H. unfold next, step. destruct e as [| | |d m|d|d|d| | |t|t v|t|t]; cbn; try assumption.
  - destruct (Nat.eqb _ 0); assumption.
  - destruct (Nat.eqb _ 0); assumption.
  - destruct (nth_error (st_conns s) d) as [x|]; [destruct (cn_tx x); [rewrite H|]|]; assumption.
  - destruct (nth_error (st_conns s) d) as [x|]; [destruct (cn_rx x); [destruct (nth_error (cn_out x) _) as [[? ?]|]|]|]; assumption.
  - destruct (st_loop s) eqn:L; try discriminate; cbn; rewrite L; reflexivity.
  - destruct (st_loop s) eqn:L; try discriminate; cbn; rewrite L; reflexivity.
  - destruct (nth_error (st_tasks s) t) as [tk|]; [|assumption].
    destruct (polling _); [|assumption]. destruct (rx_alive s _); assumption.
Qed.

(** ** Invariant *)

(** What holds of one socket. *)
Record sock_ok (s : state A) (k : sock A text) (cn : conn A) : Prop := {
  so_live : sk_live k = true -> cn_rx cn = true /\ cn_tx cn = true;
  so_dead : sk_live k = false -> cn_rx cn = false /\ cn_tx cn = false /\ sk_hold k = None;
  so_sent : exists acc ref, texts (sk_in k) = acc ++ ref /\ sent_by (sk_conn k) (st_sent s) = map decode acc /\
    length ref <= 1 /\ (sk_live k = true -> ref = []) /\ (ref <> [] -> alive (st_loop s) = false);
  so_final : forall l f r, sk_in k = l ++ f :: r -> final f -> r = [] /\ sk_live k = false;
  so_out : exists ws rest, sk_out k = map encode ws /\
    firstn (cn_read cn) (map snd (cn_out cn)) =
      ws ++ match sk_hold k with Some r => [r] | None => [] end ++ rest /\
    (sk_live k = true -> rest = []) /\ length rest <= 1;
  so_read : cn_read cn <= length (cn_out cn)
}.

Record PInv (a : St A) (p : pstate A text) : Prop := {
  pi_reach : exists es, p_srv p = run (init a) es;
  pi_conn : forall k s, nth_error (p_socks p) k = Some s ->
    exists cn, nth_error (st_conns (p_srv p)) (sk_conn s) = Some cn /\ sock_ok (p_srv p) s cn;
  pi_apart : forall k k' s s', nth_error (p_socks p) k = Some s -> nth_error (p_socks p) k' = Some s' ->
    sk_conn s = sk_conn s' -> k = k'
}.

Lemma run_snoc (a : St A) es e : next (run (init a) es) e = run (init a) (es ++ [e]).
Proof. unfold run. rewrite fold_left_app. reflexivity. Qed.

Lemma reach_next (a : St A) (s : state A) e : (exists es, s = run (init a) es) -> exists es, next s e = run (init a) es.
Proof. intros [es ->]. exists (es ++ [e]). apply run_snoc. Qed.

(** A socket that an event does not concern. *)
Lemma sock_frame (s : state A) e k cn cn' : sock_ok s k cn -> grown cn cn' -> touches e (sk_conn k) = false ->
  sock_ok (next s e) k cn'.
Proof.
  intros [Hl Hd Hs Hf Ho Hr] (G1 & G2 & G3 & l & G4 & G5) Ht. constructor.
  - rewrite G1, G2. exact Hl.
  - rewrite G1, G2. exact Hd.
  - destruct Hs as (acc & ref & H1 & H2 & H3 & H4 & H5). exists acc, ref.
    rewrite (sent_frame s e _ Ht). repeat split; auto. intros Hn. apply dead_stays. auto.
  - exact Hf.
  - destruct Ho as (ws & rest & H0 & H1 & H2 & H3). exists ws, rest. rewrite G3, G4.
    rewrite map_app, firstn_app, map_length.
    replace (cn_read cn - length (cn_out cn)) with 0 by lia. cbn. rewrite app_nil_r. auto.
  - rewrite G3, G4, app_length. lia.
Qed.

Lemma conn_drop_tx (s : state A) c cn : nth_error (st_conns s) c = Some cn ->
  nth_error (st_conns (next (next s (EvDropTx c)) (EvDropRx c))) c = Some (mkConn false false (cn_out cn) (cn_read cn)).
Proof.
  intros H. cbn. rewrite !nth_upd_same. rewrite H. reflexivity.
Qed.

Lemma frame2 (s : state A) e e' c cn : nth_error (st_conns s) c = Some cn ->
  touches e c = false -> touches e' c = false ->
  exists cn', nth_error (st_conns (next (next s e) e')) c = Some cn' /\
    forall k, sk_conn k = c -> sock_ok s k cn -> sock_ok (next (next s e) e') k cn'.
Proof.
  intros H H1 H2. destruct (conn_frame s e c cn H H1) as (cn1 & E1 & G1).
  destruct (conn_frame (next s e) e' c cn1 E1 H2) as (cn2 & E2 & G2).
  exists cn2. split; [assumption|]. intros k Hk Hok.
  apply (sock_frame _ e' k cn1); [|assumption|rewrite Hk; assumption].
  apply (sock_frame _ e k cn); [assumption|assumption|rewrite Hk; assumption].
Qed.

(** Replacing one socket while an event that only concerns its connection happens. *)
Lemma pinv_upd (a : St A) p k s g srv' :
  PInv a p -> nth_error (p_socks p) k = Some s ->
  (exists es, srv' = run (init a) es) ->
  (forall s, sk_conn (g s) = sk_conn s) ->
  (exists cn, nth_error (st_conns srv') (sk_conn s) = Some cn /\ sock_ok srv' (g s) cn) ->
  (forall c cn, c <> sk_conn s -> nth_error (st_conns (p_srv p)) c = Some cn ->
     exists cn', nth_error (st_conns srv') c = Some cn' /\
       forall k, sk_conn k = c -> sock_ok (p_srv p) k cn -> sock_ok srv' k cn') ->
  PInv a (mkP srv' (upd k g (p_socks p))).
Proof.
  intros [Hr Hc Ha] Hk Hr' Hg Hnew Hold. constructor; cbn [p_srv p_socks].
  - exact Hr'.
  - intros j t Hj. rewrite nth_upd in Hj. destruct (Nat.eqb_spec k j) as [<-|Hne].
    + rewrite Hk in Hj. injection Hj as <-. rewrite Hg. exact Hnew.
    + destruct (Hc j t Hj) as (cn & E & Hok).
      destruct (Hold (sk_conn t) cn) as (cn' & E' & H'); [|assumption|].
      * intros He. apply Hne. symmetry. now apply (Ha j k t s).
      * exists cn'. split; [assumption|]. now apply H'.
  - intros i j s1 s2 H1 H2. rewrite nth_upd in H1, H2.
    assert (Hgo : forall i s1, (if Nat.eqb k i then option_map g (nth_error (p_socks p) i) else nth_error (p_socks p) i) = Some s1 ->
      exists s0, nth_error (p_socks p) i = Some s0 /\ sk_conn s0 = sk_conn s1).
    { intros i0 t Ht. destruct (Nat.eqb k i0).
      - destruct (nth_error (p_socks p) i0) as [s0|]; [|discriminate]. injection Ht as <-. exists s0. split; [reflexivity|]. now rewrite Hg.
      - exists t. split; [assumption | reflexivity]. }
    destruct (Hgo i s1 H1) as (t1 & E1 & C1). destruct (Hgo j s2 H2) as (t2 & E2 & C2).
    intros He. apply (Ha i j t1 t2 E1 E2). congruence.
Qed.

Lemma drops_other c d : c <> d -> touches (EvDropTx (A := A) d) c = false /\ touches (EvDropRx (A := A) d) c = false.
Proof. intros H. cbn. rewrite (proj2 (Nat.eqb_neq d c)) by auto. auto. Qed.

Lemma sent_drop (s : state A) c d : sent_by d (st_sent (next (next s (EvDropTx c)) (EvDropRx c))) = sent_by d (st_sent s).
Proof. reflexivity. Qed.

(** Hanging up keeps the facts about the past. *)
Lemma hang_ok (s : state A) k cn : sock_ok s k cn ->
  sock_ok (next (next s (EvDropTx (sk_conn k))) (EvDropRx (sk_conn k)))
    (mkSock (sk_conn k) false None (sk_in k) (sk_out k)) (mkConn false false (cn_out cn) (cn_read cn)).
Proof.
  intros [Hl Hd Hs Hf Ho Hr]. constructor; cbn [sk_live sk_hold sk_in sk_out sk_conn cn_rx cn_tx cn_read cn_out].
  - discriminate.
  - auto.
  - destruct Hs as (acc & ref & H1 & H2 & H3 & H4 & H5). exists acc, ref. repeat split; auto. discriminate.
  - intros l f r E F. destruct (Hf l f r E F) as [-> _]. auto.
  - destruct Ho as (ws & rest & H0 & H1 & H2 & H3). exists ws.
    destruct (sk_live k) eqn:L.
    + specialize (H2 eq_refl). subst rest. rewrite app_nil_r in H1. cbn [List.app].
      exists (match sk_hold k with Some r => [r] | None => [] end).
      split; [assumption|]. split; [assumption|]. split; [discriminate|]. destruct (sk_hold k); cbn; lia.
    + destruct (Hd eq_refl) as (_ & _ & Hh). rewrite Hh in H1. exists rest. auto.
  - exact Hr.
Qed.

Lemma pinv_hang (a : St A) p k s : PInv a p -> nth_error (p_socks p) k = Some s ->
  PInv a (hang_up k (sk_conn s) p).
Proof.
  intros Hp Hk. unfold hang_up, with_sock, with_srv. cbn [p_srv p_socks].
  destruct (pi_conn a p Hp k s Hk) as (cn & E & Hok).
  apply (pinv_upd a p k s); auto.
  - apply reach_next, reach_next, (pi_reach a p Hp).
  - exists (mkConn false false (cn_out cn) (cn_read cn)). split; [now apply conn_drop_tx|]. now apply hang_ok.
  - intros c cn' Hc E'. destruct (drops_other c (sk_conn s) Hc) as [T1 T2]. now apply frame2.
Qed.

Lemma final_snoc (k : sock A text) f : (sk_live k = true) ->
  (forall l g r, sk_in k = l ++ g :: r -> final g -> r = [] /\ sk_live k = false) ->
  forall l g r, sk_in k ++ [f] = l ++ g :: r -> final g -> r = [] /\ g = f.
Proof.
  intros L H l g r E F.
  destruct (exists_last (l := g :: r)) as (r' & x & Er); [discriminate|].
  rewrite Er, app_assoc in E. apply app_inj_tail in E as [E1 E2]. subst x.
  destruct r' as [|y r'].
  - cbn in Er. injection Er as -> ->. auto.
  - cbn in Er. injection Er as <- Er.
    destruct (H l g r') as [_ Hd]; [assumption|assumption|congruence].
Qed.

Lemma texts_snoc (l : list (frame text)) f : texts (l ++ [f]) = texts l ++ match f with FText s => [s] | _ => [] end.
Proof. unfold texts. rewrite flat_map_app. cbn. rewrite app_nil_r. reflexivity. Qed.

(** A frame is consumed that is not a message: nothing else happens yet. *)
Lemma consumed_ok (s : state A) k cn f : sock_ok s k cn -> sk_live k = true ->
  match f with FOther => True | _ => False end ->
  sock_ok s (mkSock (sk_conn k) (sk_live k) (sk_hold k) (sk_in k ++ [f]) (sk_out k)) cn.
Proof.
  intros [Hl Hd Hs Hf Ho Hr] L Hn. constructor; cbn [sk_live sk_hold sk_in sk_out sk_conn]; auto.
  - rewrite texts_snoc. destruct f; try contradiction. rewrite app_nil_r. exact Hs.
  - intros l g r E F. destruct (final_snoc k f L Hf l g r E F) as [_ ->].
    destruct f; try contradiction. destruct F; discriminate.
Qed.

(** The frame ends the loop. *)
Lemma ended_ok (s : state A) k cn f : sock_ok s k cn -> sk_live k = true -> final f ->
  sock_ok (next (next s (EvDropTx (sk_conn k))) (EvDropRx (sk_conn k)))
    (mkSock (sk_conn k) false None (sk_in k ++ [f]) (sk_out k)) (mkConn false false (cn_out cn) (cn_read cn)).
Proof.
  intros Hok L Hf. pose proof (hang_ok s k cn Hok) as [Hl Hd Hs Hf' Ho Hr].
  constructor; cbn [sk_live sk_hold sk_in sk_out sk_conn] in *; auto.
  - rewrite texts_snoc. destruct Hf as [-> | ->]; rewrite app_nil_r; exact Hs.
  - intros l g r E F. destruct Hok as [_ _ _ Hff _ _]. destruct (final_snoc k f L Hff l g r E F) as [-> _]. auto.
Qed.

Lemma step_send (s : state A) c cn m : nth_error (st_conns s) c = Some cn -> cn_tx cn = true ->
  step s (EvSend c m) =
  (next s (EvSend c m), OSent (alive (st_loop s))).
Proof.
  intros H Ht. unfold next, step. rewrite H, Ht. destruct (alive (st_loop s)); reflexivity.
Qed.

Lemma sent_snoc (s : state A) c cn m : nth_error (st_conns s) c = Some cn -> cn_tx cn = true ->
  alive (st_loop s) = true ->
  sent_by c (st_sent (next s (EvSend c m))) = sent_by c (st_sent s) ++ [m] /\
  st_conns (next s (EvSend c m)) = st_conns s /\ st_loop (next s (EvSend c m)) = st_loop s.
Proof.
  intros H Ht Hl. unfold next, step. rewrite H, Ht, Hl. cbn. split; [|auto].
  unfold sent_by. rewrite filter_app, map_app. cbn. rewrite Nat.eqb_refl. reflexivity.
Qed.

Lemma send_refused (s : state A) c cn m : nth_error (st_conns s) c = Some cn -> cn_tx cn = true ->
  alive (st_loop s) = false -> next s (EvSend c m) = s.
Proof. intros H Ht Hl. unfold next, step. rewrite H, Ht, Hl. reflexivity. Qed.

Lemma sent_by_fresh (a : St A) es : sent_by (length (st_conns (run (init a) es))) (st_sent (run (init a) es)) = [].
Proof.
  destruct (inv_run a es) as (d & q & I). pose proof (I_bound _ _ _ _ I) as B.
  set (n := length _) in *. clearbody n. unfold sent_by.
  induction B as [|x l H B IH]; [reflexivity|]. cbn. destruct (Nat.eqb_spec (fst x) n); [lia | exact IH].
Qed.

Lemma nth_snoc_inv {X} (l : list X) x n y : nth_error (l ++ [x]) n = Some y ->
  (n < length l /\ nth_error l n = Some y) \/ (n = length l /\ y = x).
Proof.
  intros H. destruct (Nat.lt_ge_cases n (length l)) as [L|L].
  - rewrite nth_error_app1 in H by assumption. auto.
  - rewrite nth_error_app2 in H by assumption. destruct (n - length l) as [|m] eqn:E.
    + right. cbn in H. split; [lia | congruence].
    + destruct m; discriminate.
Qed.

(** A message that the proxy refuses ends the loop. *)
Lemma refused_ok (s : state A) k cn t : sock_ok s k cn -> sk_live k = true -> alive (st_loop s) = false ->
  sock_ok (next (next s (EvDropTx (sk_conn k))) (EvDropRx (sk_conn k)))
    (mkSock (sk_conn k) false None (sk_in k ++ [FText t]) (sk_out k)) (mkConn false false (cn_out cn) (cn_read cn)).
Proof.
  intros Hok L Ha. pose proof (hang_ok s k cn Hok) as [Hl Hd _ Hf' Ho Hr].
  constructor; cbn [sk_live sk_hold sk_in sk_out sk_conn] in *; auto.
  - destruct (so_sent _ _ _ Hok) as (acc & ref & H1 & H2 & H3 & H4 & H5).
    exists acc, [t]. rewrite texts_snoc, H1, (H4 L), app_nil_r. repeat split; auto. discriminate.
  - intros l g r E F. destruct (final_snoc k _ L (so_final _ _ _ Hok) l g r E F) as [-> _]. auto.
Qed.

Lemma step_read (s : state A) c cn o r : nth_error (st_conns s) c = Some cn -> cn_rx cn = true ->
  nth_error (cn_out cn) (cn_read cn) = Some (o, r) ->
  step s (EvRead c) = (next s (EvRead c), ORead (Some r)).
Proof. intros H1 H2 H3. unfold next, step. rewrite H1, H2, H3. reflexivity. Qed.

Lemma sent_read (s : state A) c : st_sent (next s (EvRead c)) = st_sent s /\ st_loop (next s (EvRead c)) = st_loop s.
Proof.
  unfold next, step. destruct (nth_error (st_conns s) c) as [x|]; [|auto].
  destruct (cn_rx x); [|auto]. destruct (nth_error (cn_out x) (cn_read x)) as [[? ?]|]; auto.
Qed.

Lemma firstn_snoc {X} (l : list X) n x : nth_error l n = Some x -> firstn (S n) l = firstn n l ++ [x].
Proof.
  revert l. induction n as [|n IH]; intros [|y l] H; try discriminate.
  - injection H as ->. reflexivity.
  - cbn [firstn List.app]. f_equal. now apply IH.
Qed.

Lemma upd_upd {X} k (f g : X -> X) l : upd k f (upd k g l) = upd k (fun x => f (g x)) l.
Proof. revert k. induction l as [|x l IH]; intros [|k]; cbn; congruence. Qed.

Lemma pnext_inv (a : St A) p e : PInv a p -> PInv a (pnext p e).
Proof.
  intros Hp. destruct e as [e| |k f|k|k ok]; cbn [Pump.pnext].
  - destruct (foreign (p_socks p) e) eqn:Hf; [|assumption].
    destruct Hp as [Hr Hc Ha]. constructor; cbn [p_srv p_socks with_srv].
    + now apply reach_next.
    + intros k s Hk. destruct (Hc k s Hk) as (cn & E & Hok).
      assert (Ht : touches e (sk_conn s) = false).
      { assert (Ho : owned (p_socks p) (sk_conn s) = true).
        { unfold owned. apply existsb_exists. exists s. split; [eapply nth_error_In; eassumption | apply Nat.eqb_refl]. }
        destruct e as [| | |d m|d|d|d| | |t|t v|t|t]; try reflexivity; cbn in *;
          destruct (Nat.eqb_spec d (sk_conn s)) as [->|]; try reflexivity; rewrite Ho in Hf; discriminate. }
      destruct (conn_frame _ e _ cn E Ht) as (cn' & E' & G). exists cn'. split; [assumption|].
      now apply (sock_frame _ e s cn).
    + exact Ha.
  - destruct (Nat.eqb _ 0) eqn:Hz; [assumption|].
    destruct Hp as [Hr Hc Ha]. constructor; cbn [p_srv p_socks].
    + now apply reach_next.
    + intros k s Hk. apply nth_snoc_inv in Hk as [[_ Hk] | [-> ->]].
      * destruct (Hc k s Hk) as (cn & E & Hok).
        destruct (conn_frame _ EvConnect _ cn E eq_refl) as (cn' & E' & G). exists cn'. split; [assumption|].
        now apply (sock_frame _ _ s cn).
      * cbn [sk_conn]. exists (mkConn true true [] 0). split.
        -- unfold next, step. rewrite Hz. cbn. rewrite nth_error_app2 by lia. rewrite Nat.sub_diag. reflexivity.
        -- constructor; cbn [sk_live sk_hold sk_in sk_out sk_conn cn_rx cn_tx cn_read cn_out]; auto.
           ++ exists [], []. repeat split; auto; [|contradiction].
              assert (Hs : st_sent (next (p_srv p) EvConnect) = st_sent (p_srv p)).
              { unfold next, step. rewrite Hz. reflexivity. }
              rewrite Hs. cbn. destruct Hr as [es Hes]. rewrite Hes.
              apply sent_by_fresh.
           ++ intros l f r E. destruct l; discriminate.
           ++ exists [], []. auto.
    + intros k k' s s' H1 H2 He.
      apply nth_snoc_inv in H1 as [[L1 H1] | [-> ->]]; apply nth_snoc_inv in H2 as [[L2 H2] | [-> ->]].
      * now apply (Ha k k' s s').
      * destruct (Hc k s H1) as (cn & E & _). cbn in He. rewrite He in E.
        assert (length (st_conns (p_srv p)) < length (st_conns (p_srv p))) by (apply nth_error_Some; congruence). lia.
      * destruct (Hc k' s' H2) as (cn & E & _). cbn in He. rewrite <- He in E.
        assert (length (st_conns (p_srv p)) < length (st_conns (p_srv p))) by (apply nth_error_Some; congruence). lia.
      * reflexivity.
  - destruct (nth_error (p_socks p) k) as [s|] eqn:Hk; [|assumption].
    destruct (sk_live s) eqn:L; [|assumption].
    destruct (pi_conn a p Hp k s Hk) as (cn & E & Hok).
    destruct (so_live _ _ _ Hok L) as [Hrx Htx].
    destruct f as [t| | |]; unfold on_frame, consumed, with_sock, with_srv; cbn [p_srv p_socks].
    + rewrite (step_send _ _ cn _ E Htx). destruct (alive (st_loop (p_srv p))) eqn:Ha.
      * cbn [p_srv p_socks]. apply (pinv_upd a p k s); auto.
        -- apply reach_next, (pi_reach a p Hp).
        -- exists cn. destruct (sent_snoc _ _ cn (decode t) E Htx Ha) as (S1 & S2 & S3).
           rewrite S2. split; [assumption|].
           destruct Hok as [Hl Hd Hs Hf Ho Hr].
           constructor; cbn [sk_live sk_hold sk_in sk_out sk_conn]; auto.
           ++ destruct Hs as (acc & ref & H1 & H2 & H3 & H4 & H5). rewrite (H4 L), app_nil_r in H1.
              exists (acc ++ [t]), []. rewrite texts_snoc, H1, S1, H2, map_app, app_nil_r. repeat split; auto. contradiction.
           ++ intros l g r E' F. destruct (final_snoc s (FText t) L Hf l g r E' F) as [_ ->]. destruct F; discriminate.
        -- intros c cn' Hc E'. assert (T : touches (EvSend (sk_conn s) (decode t)) c = false) by (cbn; apply Nat.eqb_neq; auto).
           destruct (conn_frame _ _ c cn' E' T) as (cn2 & E2 & G). exists cn2. split; [assumption|].
           intros k' Hk' Hok'. apply (sock_frame _ _ k' cn'); [assumption | assumption | now rewrite Hk'].
      * rewrite (send_refused _ _ cn _ E Htx Ha). unfold hang_up, with_sock, with_srv. cbn [p_srv p_socks].
        rewrite upd_upd. apply (pinv_upd a p k s); auto.
        -- apply reach_next, reach_next, (pi_reach a p Hp).
        -- exists (mkConn false false (cn_out cn) (cn_read cn)). split; [now apply conn_drop_tx|]. cbn [sk_conn sk_live sk_hold sk_in sk_out]. now apply refused_ok.
        -- intros c cn' Hc E'. destruct (drops_other c (sk_conn s) Hc) as [T1 T2]. now apply frame2.
    + apply (pinv_upd a p k s); auto.
      * apply (pi_reach a p Hp).
      * exists cn. split; [assumption|]. now apply consumed_ok.
      * intros c cn' _ E'. exists cn'. auto.
    + unfold hang_up, with_sock, with_srv. cbn [p_srv p_socks].
      rewrite upd_upd. apply (pinv_upd a p k s); auto.
      * apply reach_next, reach_next, (pi_reach a p Hp).
      * exists (mkConn false false (cn_out cn) (cn_read cn)). split; [now apply conn_drop_tx|]. cbn [sk_conn sk_live sk_hold sk_in sk_out]. apply ended_ok; auto. now left.
      * intros c cn' Hc E'. destruct (drops_other c (sk_conn s) Hc) as [T1 T2]. now apply frame2.
    + unfold hang_up, with_sock, with_srv. cbn [p_srv p_socks].
      rewrite upd_upd. apply (pinv_upd a p k s); auto.
      * apply reach_next, reach_next, (pi_reach a p Hp).
      * exists (mkConn false false (cn_out cn) (cn_read cn)). split; [now apply conn_drop_tx|]. cbn [sk_conn sk_live sk_hold sk_in sk_out]. apply ended_ok; auto. now right.
      * intros c cn' Hc E'. destruct (drops_other c (sk_conn s) Hc) as [T1 T2]. now apply frame2.
  - destruct (nth_error (p_socks p) k) as [s|] eqn:Hk; [|assumption].
    destruct (sk_live s) eqn:L; [|assumption]. destruct (sk_hold s) eqn:Hh; [assumption|].
    destruct (pi_conn a p Hp k s Hk) as (cn & E & Hok).
    destruct (so_live _ _ _ Hok L) as [Hrx Htx].
    unfold on_take. destruct (nth_error (cn_out cn) (cn_read cn)) as [[o r]|] eqn:Hn.
    + rewrite (step_read _ _ cn o r E Hrx Hn). unfold with_sock, with_srv. cbn [p_srv p_socks].
      apply (pinv_upd a p k s); auto.
      * apply reach_next, (pi_reach a p Hp).
      * exists (mkConn (cn_rx cn) (cn_tx cn) (cn_out cn) (S (cn_read cn))). split.
        -- unfold next, step. rewrite E, Hrx, Hn. cbn. rewrite nth_upd_same, E. cbn. now rewrite Hrx.
        -- destruct (sent_read (p_srv p) (sk_conn s)) as (S1 & S2).
           destruct Hok as [Hl Hd Hs Hf Ho Hr].
           constructor; cbn [sk_live sk_hold sk_in sk_out sk_conn cn_rx cn_tx cn_out cn_read]; auto.
           ++ congruence.
           ++ rewrite S1, S2. exact Hs.
           ++ destruct Ho as (ws & rest & H0 & H1 & H2 & H3). rewrite (H2 L), Hh in H1. cbn [List.app] in H1. rewrite app_nil_r in H1.
              exists ws, []. split; [assumption|]. split; [|auto]. rewrite (firstn_snoc _ _ r) by (rewrite nth_error_map, Hn; reflexivity).
              rewrite H1. reflexivity.
           ++ apply nth_error_Some. congruence.
      * intros c cn' Hc E'. assert (T : touches (EvRead (A := A) (sk_conn s)) c = false) by (cbn; apply Nat.eqb_neq; auto).
        destruct (conn_frame _ _ c cn' E' T) as (cn2 & E2 & G). exists cn2. split; [assumption|].
        intros k' Hk' Hok'. apply (sock_frame _ _ k' cn'); [assumption | assumption | now rewrite Hk'].
    + cbn [step]. rewrite E, Hrx, Hn. assumption.
  - destruct (nth_error (p_socks p) k) as [s|] eqn:Hk; [|assumption].
    destruct (sk_live s) eqn:L; [|assumption]. destruct (sk_hold s) as [r|] eqn:Hh; [|assumption].
    unfold on_wrote. destruct ok; [|now apply pinv_hang].
    destruct (pi_conn a p Hp k s Hk) as (cn & E & Hok).
    unfold with_sock. apply (pinv_upd a p k s); auto.
    + apply (pi_reach a p Hp).
    + exists cn. split; [assumption|]. destruct Hok as [Hl Hd Hs Hf Ho Hr].
      constructor; cbn [sk_live sk_hold sk_in sk_out sk_conn]; auto; [congruence|].
      destruct Ho as (ws & rest & H0 & H1 & H2 & H3). rewrite Hh in H1. exists (ws ++ [r]), rest.
      rewrite H0, map_app, <- app_assoc. auto.
    + intros c cn' _ E'. exists cn'. auto.
Qed.

Lemma pinit_inv a : PInv a (pinit a).
Proof.
  constructor.
  - exists []. reflexivity.
  - intros [|k] s H; discriminate.
  - intros [|k] k' s s' H; discriminate.
Qed.

Lemma prun_inv (a : St A) es : PInv a (prun (pinit a) es).
Proof.
  assert (H : forall p, PInv a p -> PInv a (prun p es)).
  { induction es as [|e es IH]; intros p Hp; cbn; [assumption|]. apply IH. now apply pnext_inv. }
  apply H, pinit_inv.
Qed.

(** ** The property's parts *)

(** The proxy behind the sockets behaves as some run of the proxy. *)
Theorem refines (a : St A) p : preachable decode encode a p -> exists es, p_srv p = run (init a) es.
Proof. intros [es ->]. apply (pi_reach a _ (prun_inv a es)). Qed.

(** Input: the text frames, in order, are what the proxy was sent, except a last one that arrived
    after the request loop was gone; that one closes the socket. *)
Theorem frames_in (a : St A) p k s : preachable decode encode a p -> nth_error (p_socks p) k = Some s ->
  exists acc ref, texts (sk_in s) = acc ++ ref /\
    sent_by (sk_conn s) (st_sent (p_srv p)) = map decode acc /\ length ref <= 1 /\
    (ref <> [] -> sk_live s = false /\ alive (st_loop (p_srv p)) = false).
Proof.
  intros [es ->] H. destruct (pi_conn a _ (prun_inv a es) k s H) as (cn & E & Hok).
  destruct (so_sent _ _ _ Hok) as (acc & ref & H1 & H2 & H3 & H4 & H5). exists acc, ref.
  repeat split; auto. destruct (sk_live s); [|reflexivity]. exfalso. auto.
Qed.

(** An error or the end of the socket is the last frame. *)
Theorem ends (a : St A) p k s l f r : preachable decode encode a p -> nth_error (p_socks p) k = Some s ->
  sk_in s = l ++ f :: r -> final f -> r = [] /\ sk_live s = false.
Proof.
  intros [es ->] H. destruct (pi_conn a _ (prun_inv a es) k s H) as (cn & E & Hok). apply (so_final _ _ _ Hok).
Qed.

(** Output: the texts written are the encodings of the first responses of the channel. *)
Theorem frames_out (a : St A) p k s : preachable decode encode a p -> nth_error (p_socks p) k = Some s ->
  exists n, sk_out s = map encode (firstn n (responses (p_srv p) (sk_conn s))) /\
    n <= length (responses (p_srv p) (sk_conn s)) /\
    (forall r, sk_hold s = Some r -> nth_error (responses (p_srv p) (sk_conn s)) n = Some r).
Proof.
  intros [es ->] H. destruct (pi_conn a _ (prun_inv a es) k s H) as (cn & E & Hok).
  unfold responses, received. rewrite E.
  destruct (so_out _ _ _ Hok) as (ws & rest & H0 & H1 & H2 & H3). pose proof (so_read _ _ _ Hok) as Hr.
  assert (Hw : map snd (cn_out cn) = ws ++ (match sk_hold s with Some r => [r] | None => [] end ++ rest) ++ skipn (cn_read cn) (map snd (cn_out cn))).
  { rewrite app_assoc, <- H1. symmetry. apply firstn_skipn. }
  exists (length ws). rewrite H0, Hw. split; [|split].
  - rewrite firstn_app, Nat.sub_diag, firstn_all. cbn. now rewrite app_nil_r.
  - rewrite app_length. lia.
  - intros r ->. rewrite nth_error_app2 by lia. rewrite Nat.sub_diag. reflexivity.
Qed.

(** Every socket has its own connection. *)
Theorem own_conn (a : St A) p k k' s s' : preachable decode encode a p ->
  nth_error (p_socks p) k = Some s -> nth_error (p_socks p) k' = Some s' -> sk_conn s = sk_conn s' -> k = k'.
Proof. intros [es ->]. apply (pi_apart a _ (prun_inv a es)). Qed.

Lemma sock_kept (p : pstate A text) k s e : nth_error (p_socks p) k = Some s -> sk_live s = false ->
  nth_error (p_socks (pnext p e)) k = Some s.
Proof.
  intros H L.
  assert (U : forall j g (l : list (sock A text)), nth_error l k = Some s -> j <> k -> nth_error (upd j g l) k = Some s)
    by (intros; rewrite nth_upd_other; auto).
  assert (Hg : forall j c (q : pstate A text), nth_error (p_socks q) k = Some s -> j <> k -> nth_error (p_socks (hang_up j c q)) k = Some s)
    by (intros; cbn; auto).
  assert (N : forall j t, nth_error (p_socks p) j = Some t -> sk_live t = true -> j <> k) by congruence.
  destruct e as [e| |j f|j|j ok]; cbn [Pump.pnext].
  - destruct (foreign _ e); assumption.
  - destruct (Nat.eqb _ 0); [assumption|]. cbn. rewrite nth_error_app1; [assumption|]. apply nth_error_Some. congruence.
  - destruct (nth_error (p_socks p) j) as [t|] eqn:Ht; [|assumption].
    destruct (sk_live t) eqn:Lt; [|assumption]. specialize (N j t Ht Lt).
    unfold on_frame. destruct f as [x| | |]; cbn [p_srv consumed with_sock]; auto.
    destruct (step _ _) as [srv [|[]|]]; cbn; auto.
    + cbn. auto.
    + apply Hg; [|assumption]. cbn. auto.
    + apply Hg; [|assumption]. cbn. auto.
  - destruct (nth_error (p_socks p) j) as [t|] eqn:Ht; [|assumption].
    destruct (sk_live t) eqn:Lt; [|assumption]. specialize (N j t Ht Lt).
    destruct (sk_hold t); [assumption|]. unfold on_take.
    destruct (step _ _) as [srv [|b|[r|]]]; cbn; auto.
  - destruct (nth_error (p_socks p) j) as [t|] eqn:Ht; [|assumption].
    destruct (sk_live t) eqn:Lt; [|assumption]. specialize (N j t Ht Lt).
    destruct (sk_hold t); [|assumption]. unfold on_wrote. destruct ok; cbn; auto.
Qed.

(** The events of the proxy that a socket's step consists of. *)
Lemma received_dead (a : St A) p k s e : PInv a p -> nth_error (p_socks p) k = Some s -> sk_live s = false ->
  received (p_srv (pnext p e)) (sk_conn s) = received (p_srv p) (sk_conn s) /\
  sent_by (sk_conn s) (st_sent (p_srv (pnext p e))) = sent_by (sk_conn s) (st_sent (p_srv p)).
Proof.
  intros Hp Hk L.
  destruct (pi_conn a p Hp k s Hk) as (cn & E & Hok). destruct (so_dead _ _ _ Hok L) as (Hrx & Htx & _).
  assert (F : forall (srv : state A) c cn e, nth_error (st_conns srv) c = Some cn -> cn_rx cn = false -> touches e c = false ->
     received (next srv e) c = received srv c /\ sent_by c (st_sent (next srv e)) = sent_by c (st_sent srv) /\
     exists cn', nth_error (st_conns (next srv e)) c = Some cn' /\ cn_rx cn' = false).
  { intros srv c cn0 e0 E0 R0 T0. destruct (conn_frame srv e0 c cn0 E0 T0) as (cn' & E' & G1 & G2 & G3 & l & G4 & G5).
    split; [|split].
    - unfold received. rewrite E', E0, G4, (G5 R0). apply app_nil_r.
    - now apply sent_frame.
    - exists cn'. split; [assumption | congruence]. }
  assert (D : forall (srv : state A) c cn d, nth_error (st_conns srv) c = Some cn -> cn_rx cn = false -> c <> d ->
     received (next (next srv (EvDropTx d)) (EvDropRx d)) c = received srv c /\
     sent_by c (st_sent (next (next srv (EvDropTx d)) (EvDropRx d))) = sent_by c (st_sent srv)).
  { intros srv c cn0 d E0 R0 Hd. destruct (drops_other c d Hd) as [T1 T2].
    destruct (F srv c cn0 _ E0 R0 T1) as (A1 & A2 & cn1 & E1 & R1).
    destruct (F _ c cn1 _ E1 R1 T2) as (B1 & B2 & _). split; congruence. }
  assert (N : forall j t, nth_error (p_socks p) j = Some t -> sk_live t = true -> sk_conn s <> sk_conn t).
  { intros j t Hj Lt He. assert (k = j) by (apply (pi_apart a p Hp k j s t Hk Hj He)). congruence. }
  destruct e as [e| |j f|j|j ok]; cbn [Pump.pnext].
  - destruct (foreign (p_socks p) e) eqn:Hf; [|auto].
    assert (Ht : touches e (sk_conn s) = false).
    { assert (Ho : owned (p_socks p) (sk_conn s) = true).
      { unfold owned. apply existsb_exists. exists s. split; [eapply nth_error_In; eassumption | apply Nat.eqb_refl]. }
      destruct e as [| | |d m|d|d|d| | |t|t v|t|t]; try reflexivity; cbn in *;
        destruct (Nat.eqb_spec d (sk_conn s)) as [->|]; try reflexivity; rewrite Ho in Hf; discriminate. }
    destruct (F _ _ _ _ E Hrx Ht) as (H1 & H2 & _). auto.
  - destruct (Nat.eqb _ 0); [auto|]. destruct (F _ _ _ EvConnect E Hrx eq_refl) as (H1 & H2 & _). auto.
  - destruct (nth_error (p_socks p) j) as [t|] eqn:Ht; [|auto].
    destruct (sk_live t) eqn:Lt; [|auto]. specialize (N j t Ht Lt).
    destruct (pi_conn a p Hp j t Ht) as (cnt & Et & Hokt). destruct (so_live _ _ _ Hokt Lt) as [_ Htt].
    unfold on_frame. destruct f as [x| | |]; cbn [p_srv consumed with_sock].
    + rewrite (step_send _ _ cnt _ Et Htt).
      assert (T : touches (EvSend (sk_conn t) (decode x)) (sk_conn s) = false) by (cbn; apply Nat.eqb_neq; auto).
      destruct (F _ _ _ _ E Hrx T) as (H1 & H2 & cn' & E' & R').
      destruct (alive _); cbn [p_srv with_srv hang_up with_sock].
      * auto.
      * destruct (D _ _ _ (sk_conn t) E' R' N) as (H3 & H4). rewrite H3, H4. auto.
    + auto.
    + apply (D _ _ _ _ E Hrx N).
    + apply (D _ _ _ _ E Hrx N).
  - destruct (nth_error (p_socks p) j) as [t|] eqn:Ht; [|auto].
    destruct (sk_live t) eqn:Lt; [|auto]. specialize (N j t Ht Lt).
    destruct (sk_hold t); [auto|]. unfold on_take.
    assert (T : touches (EvRead (A := A) (sk_conn t)) (sk_conn s) = false) by (cbn; apply Nat.eqb_neq; auto).
    destruct (F _ _ _ _ E Hrx T) as (H1 & H2 & _). unfold next in H1, H2.
    destruct (step (p_srv p) (EvRead (sk_conn t))) as [srv [|b|[r|]]]; cbn [fst] in H1, H2; cbn [p_srv with_sock with_srv]; auto.
  - destruct (nth_error (p_socks p) j) as [t|] eqn:Ht; [|auto].
    destruct (sk_live t) eqn:Lt; [|auto]. specialize (N j t Ht Lt).
    destruct (sk_hold t); [|auto]. unfold on_wrote. destruct ok; [auto|]. apply (D _ _ _ _ E Hrx N).
Qed.

(** A socket that is closed changes no more, its connection gets and sends nothing more. *)
Theorem closed (a : St A) p k s es : preachable decode encode a p -> nth_error (p_socks p) k = Some s -> sk_live s = false ->
  nth_error (p_socks (prun p es)) k = Some s /\
  received (p_srv (prun p es)) (sk_conn s) = received (p_srv p) (sk_conn s) /\
  sent_by (sk_conn s) (st_sent (p_srv (prun p es))) = sent_by (sk_conn s) (st_sent (p_srv p)) /\
  rx_alive (p_srv (prun p es)) (sk_conn s) = false.
Proof.
  intros [es0 ->] Hk L. generalize (prun_inv a es0), Hk. generalize (prun (pinit a) es0). clear Hk es0.
  induction es as [|e es IH]; intros p Hp Hk.
  - cbn. repeat split; auto. destruct (pi_conn a p Hp k s Hk) as (cn & E & Hok). destruct (so_dead _ _ _ Hok L) as (Hrx & _).
    unfold rx_alive. now rewrite E.
  - change (prun p (e :: es)) with (prun (pnext p e) es). destruct (received_dead a p k s e Hp Hk L) as [R1 R2].
    destruct (IH (pnext p e)) as (H1 & H2 & H3 & H4); [now apply pnext_inv | now apply sock_kept|].
    repeat split; congruence.
Qed.

(** While the socket is open the responses go out: taking and writing one sends the next one. *)
Theorem progress (a : St A) p k s r : preachable decode encode a p -> nth_error (p_socks p) k = Some s ->
  sk_live s = true -> sk_hold s = None ->
  nth_error (responses (p_srv p) (sk_conn s)) (length (sk_out s)) = Some r ->
  exists s', nth_error (p_socks (prun p [PTake k; PWrote k true])) k = Some s' /\
    sk_live s' = true /\ sk_hold s' = None /\ sk_out s' = sk_out s ++ [encode r] /\ sk_in s' = sk_in s /\ sk_conn s' = sk_conn s /\
    received (p_srv (prun p [PTake k; PWrote k true])) (sk_conn s) = received (p_srv p) (sk_conn s).
Proof.
  intros [es ->] Hk L Hh Hn. pose proof (prun_inv a es) as Hp. set (p := prun (pinit a) es) in *. clearbody p.
  destruct (pi_conn a p Hp k s Hk) as (cn & E & Hok). destruct (so_live _ _ _ Hok L) as [Hrx Htx].
  destruct (so_out _ _ _ Hok) as (ws & rest & H0 & H1 & H2 & H3). rewrite (H2 L), Hh in H1. cbn [List.app] in H1. rewrite app_nil_r in H1.
  assert (Hl : length (sk_out s) = cn_read cn).
  { rewrite H0, map_length, <- H1, firstn_length, map_length. pose proof (so_read _ _ _ Hok). lia. }
  rewrite Hl in Hn. unfold responses, received in Hn. rewrite E, nth_error_map in Hn.
  destruct (nth_error (cn_out cn) (cn_read cn)) as [[o r']|] eqn:Hx; [|discriminate]. injection Hn as ->.
  cbn [Pump.prun fold_left Pump.pnext]. unfold Pump.prun. cbn [fold_left Pump.pnext]. rewrite Hk, L, Hh.
  unfold on_take. rewrite (step_read _ _ cn o r E Hrx Hx). cbn [p_socks with_sock with_srv].
  rewrite nth_upd_same, Hk. cbn [option_map sk_live sk_hold sk_conn]. rewrite L. unfold on_wrote. cbn [p_socks with_sock with_srv p_srv].
  rewrite nth_upd_same, nth_upd_same, Hk. cbn [option_map sk_live sk_hold sk_conn sk_in sk_out].
  eexists. split; [reflexivity|]. cbn. repeat split; auto.
  unfold next, step. rewrite E, Hrx, Hx. unfold received. cbn. rewrite nth_upd_same, E. reflexivity.
Qed.
End PumpProofs.
