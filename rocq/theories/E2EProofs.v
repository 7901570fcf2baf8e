(** Proofs on client and server together: what is true of every run. *)
From Coq Require Import List Arith NArith Bool Lia Sorted.
From Verif Require Import Util Server ServerSpec ServerProofs ServerLemmas Pump PumpSpec PumpProofs.
From Verif Require Import Client ClientSpec ClientProofs ClientSockProofs E2E E2ESpec.
Import ListNotations.

Section E2EProofs.
Context {R text K D : Type} (enc : N -> R -> option text) (read : text -> option (K * D)) (same : K -> N -> bool).
Context {A : app} (decode : text -> msg A) (encode : response A -> text).
Local Notation world := (world text K D A).
Local Notation wevent := (wevent R text A).
Local Notation client := (client text K D).
Local Notation wnext := (wnext enc read same decode encode).
Local Notation wrun := (wrun enc read same decode encode).
Local Notation cnext := (cnext enc read same).
Local Notation pnext := (pnext decode encode).
Local Notation creachable := (creachable enc read same).
Local Notation preachable := (preachable decode encode).
Local Notation wreachable := (wreachable enc read same decode encode).
Implicit Types (w : world) (c : client) (p : pstate A text).

(** ** What an event does *)
Inductive wmoves w : wevent -> world -> Prop :=
| wm_none e : wmoves w e w
| wm_client e ce : (forall n t, ce <> NMessage n t) -> (forall n, ce = NOpen n -> linked_sock w n = true) ->
    wmoves w e (mkWorld (cnext (w_cl w) ce) (w_sv w) (w_links w))
| wm_server e pe : (forall k t, pe = PFrame k (FText t) -> linked_pump w k = false) ->
    wmoves w e (mkWorld (w_cl w) (pnext (w_sv w) pe) (w_links w))
| wm_accept n : n < length (cl_socks (w_cl w)) -> linked_sock w n = false -> st_proxies (p_srv (w_sv w)) <> 0 ->
    wmoves w (WAccept n) (mkWorld (w_cl w) (pnext (w_sv w) PUpgrade) (w_links w ++ [mkLink n (length (p_socks (w_sv w))) 0 0]))
| wm_up l x id t s : nth_error (w_links w) l = Some x ->
    nth_error (sent_on (w_cl w) (ln_sock x)) (ln_up x) = Some (id, t) ->
    nth_error (p_socks (w_sv w)) (ln_pump x) = Some s -> sk_live s = true ->
    wmoves w (WUp l) (mkWorld (w_cl w) (pnext (w_sv w) (PFrame (ln_pump x) (FText t)))
      (upd l (fun x => mkLink (ln_sock x) (ln_pump x) (S (ln_up x)) (ln_down x)) (w_links w)))
| wm_down l x t s : nth_error (w_links w) l = Some x ->
    nth_error (p_socks (w_sv w)) (ln_pump x) = Some s -> nth_error (sk_out s) (ln_down x) = Some t ->
    idle (w_cl w) = true -> state_of (w_cl w) (ln_sock x) = Open ->
    wmoves w (WDown l) (mkWorld (cnext (w_cl w) (NMessage (ln_sock x) t)) (w_sv w)
      (upd l (fun x => mkLink (ln_sock x) (ln_pump x) (ln_up x) (S (ln_down x))) (w_links w))).

Lemma wmoves_ok w e : wmoves w e (wnext w e).
Proof.
  destruct e as [e|e|n|n|l|l]; cbn [E2E.wnext].
  - destruct e; try apply wm_none; (apply (wm_client w (WClient _)); intros; discriminate).
  - destruct e as [e| |k f|k|k ok]; try (apply (wm_server w (WServer _)); intros; discriminate).
    destruct f as [t| | |]; try (apply (wm_server w (WServer _)); intros; discriminate).
    destruct (linked_pump w k) eqn:E; [apply wm_none|]. apply (wm_server w (WServer _)). intros k' t' [= -> ->]. exact E.
  - destruct (Nat.ltb n _ && _ && _) eqn:E; [|apply wm_none].
    apply andb_prop in E as [E E3]. apply andb_prop in E as [E1 E2].
    apply wm_accept.
    + now apply PeanoNat.Nat.ltb_lt.
    + now apply negb_true_iff.
    + apply negb_true_iff, PeanoNat.Nat.eqb_neq in E3. exact E3.
  - destruct (linked_sock w n) eqn:E; [|apply wm_none].
    apply (wm_client w (WOpen n) (NOpen n)); [discriminate|]. now intros m [= <-].
  - destruct (nth_error (w_links w) l) as [x|] eqn:E; [|apply wm_none].
    destruct (nth_error (sent_on _ _) _) as [[id t]|] eqn:E1; [|apply wm_none].
    destruct (nth_error (p_socks _) _) as [s|] eqn:E2; [|apply wm_none].
    destruct (sk_live s) eqn:E3; [|apply wm_none]. now apply (wm_up w l x id t s).
  - destruct (nth_error (w_links w) l) as [x|] eqn:E; [|apply wm_none].
    destruct (nth_error (p_socks _) _) as [s|] eqn:E2; [|apply wm_none].
    destruct (nth_error (sk_out _) _) as [t|] eqn:E1; [|apply wm_none].
    destruct (idle _) eqn:E3; [|apply wm_none].
    destruct (state_of _ _) eqn:E4; try apply wm_none. now apply (wm_down w l x t s).
Qed.

Lemma wrun_snoc w es e : wrun w (es ++ [e]) = wnext (wrun w es) e.
Proof. unfold E2E.wrun. now rewrite fold_left_app. Qed.

Lemma wrun_app w es es' : wrun w (es ++ es') = wrun (wrun w es) es'.
Proof. unfold E2E.wrun. now rewrite fold_left_app. Qed.

Lemma wreach_next a w e : wreachable a w -> wreachable a (wnext w e).
Proof. intros [es ->]. exists (es ++ [e]). now rewrite wrun_snoc. Qed.

Lemma wreach_run a w es : wreachable a w -> wreachable a (wrun w es).
Proof. intros [es' ->]. exists (es' ++ es). now rewrite wrun_app. Qed.

Lemma wreach_ind a (P : world -> Prop) : P (winit a) -> (forall w e, wreachable a w -> P w -> P (wnext w e)) ->
  forall w, wreachable a w -> P w.
Proof.
  intros H0 Hs w [es ->]. induction es as [|e es IH] using rev_ind; [exact H0|].
  rewrite wrun_snoc. apply Hs; [now exists es | exact IH].
Qed.

Lemma preach_next a p e : preachable a p -> preachable a (pnext p e).
Proof. intros [es ->]. exists (es ++ [e]). unfold prun. now rewrite fold_left_app. Qed.

Lemma parts a w : wreachable a w -> creachable (w_cl w) /\ preachable a (w_sv w).
Proof.
  revert w. apply wreach_ind.
  - split; [exists [] | exists []]; reflexivity.
  - intros w e _ [Hc Hp]. destruct (wmoves_ok w e); cbn [w_cl w_sv]; split; try exact Hc; try exact Hp;
    first [now apply creach_next | now apply preach_next].
Qed.

(** ** A socket of the server *)
Lemma sock_next p e k s : nth_error (p_socks p) k = Some s ->
  exists s', nth_error (p_socks (pnext p e)) k = Some s' /\ sk_conn s' = sk_conn s /\
    (exists out, sk_out s' = sk_out s ++ out) /\
    texts (sk_in s') = texts (sk_in s) ++
      match e with PFrame k' (FText t) => if Nat.eqb k' k && sk_live s then [t] else [] | _ => [] end.
Proof.
  intros H.
  assert (Same : exists s', nth_error (p_socks p) k = Some s' /\ sk_conn s' = sk_conn s /\
    (exists out, sk_out s' = sk_out s ++ out) /\ texts (sk_in s') = texts (sk_in s) ++ []).
  { exists s. split; [exact H|]. split; [reflexivity|]. split; [exists []; now rewrite app_nil_r | now rewrite app_nil_r]. }
  assert (Upd : forall k' g r, (forall x, sk_conn (g x) = sk_conn x) -> (forall x, exists o, sk_out (g x) = sk_out x ++ o) ->
    (forall x, texts (sk_in (g x)) = texts (sk_in x) ++ r) ->
    exists s', nth_error (upd k' g (p_socks p)) k = Some s' /\ sk_conn s' = sk_conn s /\
    (exists out, sk_out s' = sk_out s ++ out) /\ texts (sk_in s') = texts (sk_in s) ++ if Nat.eqb k' k then r else []).
  { intros k' g r H1 H2 H3. rewrite nth_upd, H. destruct (Nat.eqb k' k); cbn [option_map].
    - exists (g s). split; [reflexivity|]. split; [apply H1|]. split; [apply H2 | apply H3].
    - rewrite H in Same. exact Same. }
  assert (Upd0 : forall k' g, (forall x, sk_conn (g x) = sk_conn x) -> (forall x, exists o, sk_out (g x) = sk_out x ++ o) ->
    (forall x, texts (sk_in (g x)) = texts (sk_in x)) ->
    exists s', nth_error (upd k' g (p_socks p)) k = Some s' /\ sk_conn s' = sk_conn s /\
    (exists out, sk_out s' = sk_out s ++ out) /\ texts (sk_in s') = texts (sk_in s) ++ []).
  { intros k' g H1 H2 H3. replace (texts (sk_in s) ++ []) with (texts (sk_in s) ++ if Nat.eqb k' k then [] else []) by (now destruct (Nat.eqb k' k)).
    apply Upd; auto. intros x. now rewrite H3, app_nil_r. }
  assert (Snoc : forall l (f : frame text), match f with FText _ => False | _ => True end -> texts (l ++ [f]) = texts l).
  { intros l f Hf. rewrite texts_snoc. destruct f; [contradiction|..]; apply app_nil_r. }
  destruct e as [e| |k' f|k'|k' ok]; cbn [Pump.pnext].
  - destruct (foreign _ e); exact Same.
  - destruct (Nat.eqb _ 0); [exact Same|]. cbn. rewrite nth_error_app1 by (now apply nth_some_lt in H). exact Same.
  - destruct (nth_error (p_socks p) k') as [s1|] eqn:E.
    2:{ destruct f; try exact Same. destruct (Nat.eqb_spec k' k) as [->|]; [congruence | exact Same]. }
    destruct (sk_live s1) eqn:L.
    2:{ destruct f; try exact Same. destruct (Nat.eqb_spec k' k) as [->|]; [|exact Same].
        assert (s1 = s) as -> by congruence. rewrite L. exact Same. }
    assert (Lv : forall r : list text, (if Nat.eqb k' k && sk_live s then r else []) = if Nat.eqb k' k then r else []).
    { intros r. destruct (Nat.eqb_spec k' k) as [->|]; [|reflexivity]. assert (s1 = s) as -> by congruence. now rewrite L. }
    unfold on_frame, consumed, hang_up, with_sock, with_srv. cbn [p_srv p_socks].
    destruct f as [t| | |].
    + rewrite Lv. destruct (step (p_srv p) (EvSend (sk_conn s1) (decode t))) as [srv [|[]|o]]; cbn [p_srv p_socks];
        try rewrite PumpProofs.upd_upd; (apply Upd; [reflexivity | intros x; exists []; cbn; now rewrite app_nil_r | intros x; apply (texts_snoc (sk_in x) (FText t))]).
    +
      apply Upd0; intros x; [reflexivity | exists []; cbn; now rewrite app_nil_r | now apply Snoc].
    +
      cbn [p_socks]. rewrite PumpProofs.upd_upd.
      apply Upd0; intros x; [reflexivity | exists []; cbn; now rewrite app_nil_r | now apply Snoc].
    +
      cbn [p_socks]. rewrite PumpProofs.upd_upd.
      apply Upd0; intros x; [reflexivity | exists []; cbn; now rewrite app_nil_r | now apply Snoc].
  - destruct (nth_error (p_socks p) k') as [s1|] eqn:E; [|exact Same].
    destruct (sk_live s1); [|exact Same]. destruct (sk_hold s1); [exact Same|].
    unfold on_take. destruct (step _ _) as [srv [|b|[r|]]]; try exact Same.
    unfold with_sock, with_srv. cbn [p_socks].
    apply Upd0; intros x; [reflexivity | exists []; cbn; now rewrite app_nil_r | reflexivity].
  - destruct (nth_error (p_socks p) k') as [s1|] eqn:E; [|exact Same].
    destruct (sk_live s1); [|exact Same]. destruct (sk_hold s1); [|exact Same].
    unfold on_wrote, hang_up, with_sock, with_srv. destruct ok; cbn [p_socks]; apply Upd0; try reflexivity; intros x; cbn.
    + eexists. reflexivity.
    + exists []. now rewrite app_nil_r.
Qed.

Lemma socks_grow p e : length (p_socks p) <= length (p_socks (pnext p e)).
Proof.
  destruct (Nat.eq_dec (length (p_socks p)) 0) as [->|H]; [lia|].
  destruct (nth_error (p_socks p) (pred (length (p_socks p)))) as [s|] eqn:E.
  - destruct (sock_next p e _ s E) as (s' & E' & _). apply nth_some_lt in E'. lia.
  - apply nth_error_None in E. lia.
Qed.

(** ** What the client sends *)
Definition stuff c (v : N * text) : Prop := In v (flat_map (ws_sent (text := text)) (cl_socks c)) \/ In v (map snd (cl_waiting c)).

Lemma stuff_push n vs c v : stuff (push n vs c) v -> stuff c v \/ In v vs.
Proof.
  intros [H|H]; [|left; right; exact H]. cbn in H. revert H.
  assert (G : forall l n, In v (flat_map (ws_sent (text := text)) (upd n (fun s => mkWs (ws_state s) (ws_sent s ++ vs)) l)) ->
            In v (flat_map (ws_sent (text := text)) l) \/ In v vs).
  { induction l as [|x l IH]; intros [|m]; cbn; auto; rewrite !in_app_iff; intuition. specialize (IH m). tauto. }
  intros H. destruct (G _ _ H); [left; left; assumption | now right].
Qed.

Lemma sent_upd_same n f (l : list (wsock text)) : (forall s, ws_sent (f s) = ws_sent s) ->
  flat_map (ws_sent (text := text)) (upd n f l) = flat_map (ws_sent (text := text)) l.
Proof. intros H. revert n. induction l as [|x l IH]; intros [|n]; cbn; auto; now rewrite ?H, ?IH. Qed.

Lemma stuff_state n x c v : stuff (set_state n x c) v -> stuff c v.
Proof. unfold stuff, set_state. cbn. now rewrite sent_upd_same. Qed.

Lemma stuff_close c v : stuff (close c) v -> stuff c v.
Proof.
  rewrite close_is. unfold stuff, close_form. cbn. destruct (cl_cur c); [now rewrite sent_upd_same | auto].
Qed.

Lemma stuff_reopen c v : stuff (reopen c) v -> stuff c v.
Proof.
  intros H. apply stuff_close. unfold reopen in H.
  destruct (subscribed _); [destruct (reopen_timeout _)|]; exact H.
Qed.

Lemma stuff_open c v : stuff (fst (open c)) v -> stuff c v.
Proof.
  unfold open, stuff. cbn. destruct (cl_opening c); cbn; [auto|].
  rewrite flat_map_app. cbn. now rewrite app_nil_r.
Qed.

Lemma stuff_wait u c v : stuff (wait u c) v -> stuff c v \/ v = u.
Proof.
  unfold wait. destruct (open c) as [c' q] eqn:E. unfold stuff. cbn.
  rewrite map_app, in_app_iff. cbn. intros [H|[H|[H|[]]]]; auto;
  left; apply stuff_open; rewrite E; cbn; [left | right]; exact H.
Qed.

Lemma stuff_send u c v : stuff (open_and_send u c) v -> stuff c v \/ v = u.
Proof.
  destruct (busy_dec c) as [B|(n & E & S)].
  - rewrite send_wait by assumption. apply stuff_wait.
  - rewrite (send_open u c n E S). intros H. apply stuff_push in H as [H|[<-|[]]]; auto.
Qed.

Lemma stuff_like c c1 v : like c c1 -> stuff c1 v -> stuff c v.
Proof. intros ((E1 & _ & _ & E2) & _). unfold stuff. now rewrite E1, E2. Qed.

Lemma stuff_next c e v : creachable c -> stuff (cnext c e) v ->
  stuff c v \/ exists r, (e = URequest r \/ e = UStream r) /\ enc (bump (cl_id c)) r = Some (snd v) /\ fst v = bump (cl_id c) /\
    cl_id (cnext c e) = bump (cl_id c) /\ cl_calls (cnext c e) = cl_calls c ++ [bump (cl_id c)].
Proof.
  intros Hr H. pose proof (moves_next enc read same c e Hr) as M.
  remember (cnext c e) as c' eqn:Ec. clear Ec. revert v H.
  destruct M as [e c1 L _ | e c1 t L X1 X2 _ (r & X3 & X4) | e c1 L _ | n _ S | n S | n S | n S | d T]; intros v H.
  - left. now apply (stuff_like c c1).
  - apply stuff_send in H as [H| ->]; [left; now apply (stuff_like c c1)|].
    right. exists r. cbn. repeat split; auto.
    + pose proof (talk_send c1 (bump (cl_id c), t)) as Q. apply talk_parts in Q. destruct Q as (Q & _). now rewrite Q.
    + pose proof (talk_send c1 (bump (cl_id c), t)) as Q. apply talk_parts in Q. destruct Q as (_ & _ & _ & _ & Q & _). now rewrite Q.
  - left. now apply (stuff_like c c1), stuff_close.
  - left. unfold opened, stuff in H. cbn in H. destruct H as [H|H].
    + assert (G : forall l m, In v (flat_map (ws_sent (text := text)) (upd m (fun s => mkWs Open (ws_sent s ++ waiting_on c n)) l)) ->
            In v (flat_map (ws_sent (text := text)) l) \/ In v (waiting_on c n)).
      { induction l as [|x l IH]; intros [|m]; cbn; auto; rewrite !in_app_iff; intuition. specialize (IH m). tauto. }
      destruct (G _ _ H) as [H'|H']; [now left|]. right. unfold waiting_on in H'.
      apply in_map_iff in H' as (x & <- & Hx). apply filter_In in Hx as [Hx _]. now apply in_map.
    + right. apply in_map_iff in H as (x & <- & Hx). apply filter_In in Hx as [Hx _]. now apply in_map.
  - left. now apply stuff_state in H.
  - left. now apply stuff_reopen, stuff_state in H.
  - left. apply stuff_reopen in H. apply (stuff_state n Closed). unfold on_error, stuff in *. cbn in *.
    destruct H as [H|H]; [now left|]. right. apply in_map_iff in H as (x & <- & Hx). apply filter_In in Hx as [Hx _]. now apply in_map.
  - left. now apply stuff_open in H.
Qed.

Lemma bump_pos n : (0 < bump n)%N.
Proof. unfold bump. destruct (N.ltb_spec n (2 ^ 53)); lia. Qed.

Lemma stuff_ok c v : creachable c -> stuff c v ->
  (0 < fst v <= cl_id c)%N /\ exists r, enc (fst v) r = Some (snd v).
Proof.
  intros H. revert v. pattern c. revert c H. apply run_ind'.
  - intros v [[]|[]].
  - intros c e Hr IH v H. apply stuff_next in H as [H|(r & _ & E & F & I & _)]; [|..|assumption].
    + destruct (IH v H) as [B X]. split; [|exact X]. pose proof (id_grows enc read same c e). lia.
    + rewrite F, I. split; [|now exists r]. pose proof (bump_pos (cl_id c)). lia.
Qed.

Lemma id_small c : creachable c -> (cl_id c <= 2 ^ 53)%N.
Proof. intros H. rewrite (id_last c (id_inv enc read same c H)). unfold top. lia. Qed.

(** ** Links *)
Record WInv w : Prop := {
  wi_socks : NoDup (map ln_sock (w_links w));
  wi_pumps : NoDup (map ln_pump (w_links w));
  wi_link : forall x, In x (w_links w) -> ln_sock x < length (cl_socks (w_cl w)) /\
    exists s, nth_error (p_socks (w_sv w)) (ln_pump x) = Some s /\
      texts (sk_in s) = map snd (firstn (ln_up x) (sent_on (w_cl w) (ln_sock x))) /\
      ln_up x <= length (sent_on (w_cl w) (ln_sock x)) /\ ln_down x <= length (sk_out s);
  wi_open : forall n, state_of (w_cl w) n = Open -> exists x, In x (w_links w) /\ ln_sock x = n;
  wi_msgs : forall m, In m (cl_msgs (w_cl w)) -> exists x s t, In x (w_links w) /\
    nth_error (p_socks (w_sv w)) (ln_pump x) = Some s /\ In t (firstn (ln_down x) (sk_out s)) /\ read t = Some (fst m)
}.

Lemma linked_sock_in w n : linked_sock w n = true <-> exists x, In x (w_links w) /\ ln_sock x = n.
Proof.
  unfold linked_sock. rewrite existsb_exists. split; intros (x & H & E); exists x; split; auto.
  - now apply PeanoNat.Nat.eqb_eq.
  - subst. apply PeanoNat.Nat.eqb_refl.
Qed.
Lemma linked_pump_in w k : linked_pump w k = true <-> exists x, In x (w_links w) /\ ln_pump x = k.
Proof.
  unfold linked_pump. rewrite existsb_exists. split; intros (x & H & E); exists x; split; auto.
  - now apply PeanoNat.Nat.eqb_eq.
  - subst. apply PeanoNat.Nat.eqb_refl.
Qed.

Lemma In_upd {X} n (f : X -> X) l y : In y (upd n f l) -> exists x, In x l /\ (y = x \/ y = f x).
Proof.
  revert n. induction l as [|x l IH]; intros [|n] H; cbn in *; try contradiction.
  - destruct H as [<-|H]; eauto.
  - destruct H as [<-|H]; eauto. destruct (IH n H) as (z & Hz & E). eauto.
Qed.
Lemma map_upd_same {X Y} n (f : X -> X) (g : X -> Y) l : (forall x, g (f x) = g x) -> map g (upd n f l) = map g l.
Proof. intros H. revert n. induction l as [|x l IH]; intros [|n]; cbn; auto; now rewrite ?H, ?IH. Qed.

(** The links of one socket, of one server socket. *)
Lemma nodup_map_eq {X Y} (f : X -> Y) l x y : NoDup (map f l) -> In x l -> In y l -> f x = f y -> x = y.
Proof.
  intros H Hx Hy E. induction l as [|z l IH]; [contradiction|]. cbn in H. apply NoDup_cons_iff in H as [H1 H2].
  destruct Hx as [->|Hx], Hy as [->|Hy]; auto.
  - exfalso. apply H1. rewrite E. now apply in_map.
  - exfalso. apply H1. rewrite <- E. now apply in_map.
Qed.
Lemma nth_upd_in {X} n (f : X -> X) l x y : NoDup l -> nth_error l n = Some x -> In y l -> y <> x -> In y (upd n f l).
Proof.
  revert n. induction l as [|z l IH]; intros [|n] H E Hy N; cbn in *; try discriminate; try contradiction.
  - injection E as ->. destruct Hy; [congruence | auto].
  - apply NoDup_cons_iff in H as [_ H]. destruct Hy; [auto | right; eauto].
Qed.
Lemma nth_upd_in' {X} n (f : X -> X) l x y : nth_error l n = Some x -> In y l -> In y (upd n f l) \/ y = x.
Proof.
  revert n. induction l as [|z l IH]; intros [|n] E Hy; cbn in *; try discriminate; try contradiction.
  - injection E as ->. destruct Hy; auto.
  - destruct Hy; [auto|]. destruct (IH n E H); auto.
Qed.
Lemma upd_in {X} n (f : X -> X) l x : nth_error l n = Some x -> In (f x) (upd n f l).
Proof. intros E. apply (nth_error_In _ n). now rewrite nth_upd_same, E. Qed.

Lemma msgs_next c e : (forall n t, e <> NMessage n t) -> forall m, In m (cl_msgs (cnext c e)) ->
  exists m', In m' (cl_msgs c) /\ fst m = fst m'.
Proof.
  intros N m H. destruct (effect_ok enc read same c e) as (c' & F & T). apply talk_parts in T as (_ & _ & _ & _ & _ & T).
  rewrite T in H. clear T. destruct F; try (exists m; split; [exact H | reflexivity]).
  - cbn in H. unfold spoil in H. apply In_upd in H as (x & Hx & [->| ->]); eauto.
  - unfold visit in H. destruct (nth_error _ _); cbn in H; eauto.
  - exfalso. eapply N. reflexivity.
Qed.

Lemma socks_next c e : creachable c -> length (cl_socks c) <= length (cl_socks (cnext c e)).
Proof.
  intros Hr. pose proof (moves_next enc read same c e Hr) as M. remember (cnext c e) as c' eqn:Ec. clear Ec.
  assert (Cl : forall c0 : client, length (cl_socks (close c0)) = length (cl_socks c0)).
  { intros c0. rewrite close_is. cbn. unfold close_form. destruct (cl_cur c0); [now rewrite upd_length | reflexivity]. }
  assert (Re : forall c0 : client, length (cl_socks (reopen c0)) = length (cl_socks c0)).
  { intros c0. rewrite <- (Cl c0). unfold reopen. destruct (subscribed _); [destruct (reopen_timeout _)|]; reflexivity. }
  assert (Op : forall c0 : client, length (cl_socks c0) <= length (cl_socks (fst (open c0)))).
  { intros c0. unfold open. cbn. destruct (cl_opening c0); cbn; rewrite ?app_length; lia. }
  destruct M as [e c1 ((E & _) & _) _ | e c1 t ((E & _) & _) X1 X2 _ _ | e c1 ((E & _) & _) _ | n _ S | n S | n S | n S | d T].
  - now rewrite E.
  - rewrite <- E. destruct (busy_dec c1) as [B|(n & E' & S)].
    + rewrite send_wait by assumption. unfold wait. pose proof (Op c1) as O. destruct (open c1) as [c2 q]. exact O.
    + rewrite (send_open _ c1 n E' S). cbn. now rewrite upd_length.
  - now rewrite Cl, E.
  - unfold opened. cbn. now rewrite upd_length.
  - cbn. now rewrite upd_length.
  - rewrite Re. cbn. now rewrite upd_length.
  - rewrite Re. cbn. now rewrite upd_length.
  - apply Op.
Qed.

Lemma open_next c e n : creachable c -> state_of (cnext c e) n = Open -> state_of c n = Open \/ e = NOpen n.
Proof.
  intros Hr. pose proof (moves_next enc read same c e Hr) as M. pose proof (shape_inv enc read same c Hr) as Hs.
  remember (cnext c e) as c' eqn:Ec. clear Ec.
  assert (Cl : forall c0 : client, Loose c0 -> state_of (close c0) n = Open -> False).
  { intros c0 L. rewrite close_is. change (state_of (set_cur None (set_timer None (set_socks (close_form c0) c0))) n) with (st (close_form c0) n).
    rewrite st_close_form by assumption. destruct (state_of c0 n); discriminate. }
  assert (Re : forall c0 : client, Loose c0 -> state_of (reopen c0) n = Open -> False).
  { intros c0 L H. apply (Cl c0 L). rewrite <- H. unfold reopen. destruct (subscribed _); [destruct (reopen_timeout _)|]; reflexivity. }
  assert (Op : forall c0 : client, state_of (fst (open c0)) n = Open -> state_of c0 n = Open).
  { intros c0. unfold open. cbn. destruct (cl_opening c0); cbn; [auto|]. unfold state_of. cbn.
    destruct (lt_eq_lt_dec n (length (cl_socks c0))) as [[H| ->]|H].
    - now rewrite nth_error_app1.
    - rewrite nth_app_new. discriminate.
    - rewrite (proj2 (nth_error_None _ _)) by (rewrite app_length; cbn; lia). discriminate. }
  destruct M as [e c1 L _ | e c1 t L X1 X2 _ _ | e c1 L _ | m _ S | m S | m S | m S | d T]; intros H.
  - left. now rewrite <- (like_state c c1 n L).
  - left. rewrite <- (like_state c c1 n L). destruct (busy_dec c1) as [B|(m & E' & S)].
    + rewrite send_wait in H by assumption. unfold wait in H. apply Op. destruct (open c1) as [c2 q]. exact H.
    + rewrite (send_open _ c1 m E' S), state_push in H. exact H.
  - exfalso. apply (Cl c1); [|exact H]. apply (like_shape c c1 L Hs).
  - rewrite state_opened in H by assumption. destruct (Nat.eqb_spec m n) as [->|]; auto.
  - rewrite state_set in H by congruence. destruct (Nat.eqb_spec m n); [discriminate | auto].
  - exfalso. apply (Re _ (loose_worse m Closed c Hs S (or_intror eq_refl)) H).
  - exfalso. apply (Re _ (loose_failed m c Hs S) H).
  - auto.
Qed.

Lemma winv_client w ce : creachable (w_cl w) -> (forall n t, ce <> NMessage n t) ->
  (forall n, ce = NOpen n -> linked_sock w n = true) -> WInv w ->
  WInv (mkWorld (cnext (w_cl w) ce) (w_sv w) (w_links w)).
Proof.
  intros Hc N1 N2 H. constructor; cbn; try apply H.
  - intros x Hx. destruct (wi_link w H x Hx) as (L & s & E & T & U & V). split.
    { pose proof (socks_next (w_cl w) ce Hc). lia. }
    exists s. destruct (sends_on_open enc read same (w_cl w) ce (ln_sock x) Hc) as (new & E' & _).
    rewrite E', app_length. repeat split; auto; [|lia]. now rewrite firstn_app_le.
  - intros n O. destruct (open_next _ _ _ Hc O) as [O'|O']; [now apply (wi_open w H)|].
    apply linked_sock_in. now apply N2.
  - intros m Hm. destruct (msgs_next _ _ N1 m Hm) as (m' & Hm' & ->). now apply (wi_msgs w H).
Qed.

Lemma winv_inv a w : wreachable a w -> WInv w.
Proof.
  revert w. apply wreach_ind.
  - constructor; cbn; try constructor; try contradiction. intros [|n]; discriminate.
  - intros w e Hr H. destruct (parts a w Hr) as [Hc Hp].
    destruct (wmoves_ok w e) as [e | e ce N1 N2 | e pe N | n L U P | l x id t s E1 E2 E3 E4 | l x t s E1 E2 E3 E4 E5].
    + exact H.
    + now apply winv_client.
    + constructor; cbn; try apply H.
      * intros x Hx. destruct (wi_link w H x Hx) as (L & s & E & T & U & V). split; [exact L|].
        destruct (sock_next (w_sv w) pe _ s E) as (s' & E' & _ & (o & O) & T'). exists s'. split; [exact E'|].
        rewrite O, app_length. repeat split; [|exact U | lia]. rewrite T', T.
        assert (Z : match pe with PFrame k' (FText t) => if Nat.eqb k' (ln_pump x) && sk_live s then [t] else [] | _ => [] end = []).
        { destruct pe as [| |k' [t| | |]| |]; auto. destruct (Nat.eqb_spec k' (ln_pump x)) as [->|]; [|reflexivity].
          specialize (N _ _ eq_refl). assert (linked_pump w (ln_pump x) = true) by (apply linked_pump_in; eauto). congruence. }
        rewrite Z. apply app_nil_r.
      * intros m Hm. destruct (wi_msgs w H m Hm) as (x & s & t & Hx & E & Ht & Q).
        destruct (sock_next (w_sv w) pe _ s E) as (s' & E' & _ & (o & O) & T'). exists x, s', t. repeat split; auto.
        rewrite O. destruct (wi_link w H x Hx) as (_ & s0 & E0 & _ & _ & V). assert (s0 = s) as -> by congruence.
        now rewrite firstn_app_le.
    + assert (Q : p_socks (pnext (w_sv w) PUpgrade) =
                p_socks (w_sv w) ++ [mkSock (length (st_conns (p_srv (w_sv w)))) true None [] []]).
      { cbn [Pump.pnext]. apply PeanoNat.Nat.eqb_neq in P. now rewrite P. }
      assert (Old : forall x s, nth_error (p_socks (w_sv w)) (ln_pump x) = Some s ->
                nth_error (p_socks (pnext (w_sv w) PUpgrade)) (ln_pump x) = Some s).
      { intros x s E. rewrite Q, nth_error_app1; [exact E | now apply nth_some_lt in E]. }
      constructor; cbn [w_cl w_sv w_links].
      * rewrite map_app. cbn. apply (proj2 (NoDup_Add (Add_app (n) (map ln_sock (w_links w)) []))). rewrite app_nil_r. split; [apply H|].
        intros I. apply in_map_iff in I as (x & E & I). assert (linked_sock w n = true) by (apply linked_sock_in; eauto). congruence.
      * rewrite map_app. cbn.
        apply (proj2 (NoDup_Add (Add_app (length (p_socks (w_sv w))) (map ln_pump (w_links w)) []))). rewrite app_nil_r. split; [apply H|].
        intros I. apply in_map_iff in I as (x & E & I). destruct (wi_link w H x I) as (_ & s & E' & _). apply nth_some_lt in E'. lia.
      * intros x Hx. apply in_app_iff in Hx as [Hx|[<-|[]]].
        -- destruct (wi_link w H x Hx) as (L' & s & E & T). split; [exact L'|]. exists s. split; [now apply Old | exact T].
        -- cbn [ln_sock ln_pump ln_up ln_down]. split; [exact L|]. eexists. split; [rewrite Q; apply nth_app_new|]. cbn. repeat split; lia.
      * intros m O. destruct (wi_open w H m O) as (x & Hx & E). exists x. split; [apply in_app_iff; now left | exact E].
      * intros m Hm. destruct (wi_msgs w H m Hm) as (x & s & t & Hx & E & Ht). exists x, s, t. split; [apply in_app_iff; now left|].
        split; [now apply Old | exact Ht].
    + (* up *)
      set (f := fun x => mkLink (ln_sock x) (ln_pump x) (S (ln_up x)) (ln_down x)).
      assert (Hx := nth_error_In _ _ E1).
      constructor; cbn [w_cl w_sv w_links].
      * rewrite map_upd_same; [apply H | reflexivity].
      * rewrite map_upd_same; [apply H | reflexivity].
      * intros y Hy0. destruct (In_nth_error _ _ Hy0) as (l' & Hy). clear Hy0. rewrite nth_upd in Hy.
        destruct (PeanoNat.Nat.eq_dec l l') as [El|Nl].
        -- rewrite <- El, PeanoNat.Nat.eqb_refl, E1 in Hy. injection Hy as <-. unfold f. cbn [ln_sock ln_pump ln_up ln_down].
           destruct (wi_link w H x Hx) as (L & s0 & E & T & U & V). assert (s0 = s) as -> by congruence. split; [exact L|].
           destruct (sock_next (w_sv w) (PFrame (ln_pump x) (FText t)) _ s E) as (s' & E' & _ & (o & O) & T'). exists s'. split; [exact E'|].
           rewrite O, app_length. split; [|split; [apply nth_some_lt in E2; lia | lia]].
           rewrite T', T, PeanoNat.Nat.eqb_refl, E4. rewrite (firstn_snoc _ _ _ E2), map_app. reflexivity.
        -- apply PeanoNat.Nat.eqb_neq in Nl as Nl'. rewrite Nl' in Hy. clear Nl'.
           assert (Hy' := nth_error_In _ _ Hy). destruct (wi_link w H y Hy') as (L & s0 & E & T & U & V). split; [exact L|].
           destruct (sock_next (w_sv w) (PFrame (ln_pump x) (FText t)) _ s0 E) as (s' & E' & _ & (o & O) & T'). exists s'. split; [exact E'|].
           rewrite O, app_length. split; [|split; [exact U | lia]]. rewrite T', T.
           destruct (Nat.eqb_spec (ln_pump x) (ln_pump y)) as [Ep|]; [|apply app_nil_r].
           exfalso. apply Nl. apply (proj1 (NoDup_nth_error (map ln_pump (w_links w))) (wi_pumps w H)).
           { rewrite map_length. now apply nth_some_lt in E1. }
           rewrite !nth_error_map, E1, Hy. cbn. now rewrite Ep.
      * intros m O. destruct (wi_open w H m O) as (y & Hy & E).
        destruct (nth_upd_in' l f _ x y E1 Hy) as [I| ->]; [now exists y|].
        exists (f x). split; [now apply upd_in | exact E].
      * intros m Hm. destruct (wi_msgs w H m Hm) as (y & s0 & t0 & Hy & E & Ht & Q).
        destruct (sock_next (w_sv w) (PFrame (ln_pump x) (FText t)) _ s0 E) as (s' & E' & _ & (o & O) & T').
        assert (Ht' : In t0 (firstn (ln_down y) (sk_out s'))).
        { rewrite O. destruct (wi_link w H y Hy) as (_ & s1 & E0 & _ & _ & V). assert (s1 = s0) as -> by congruence. now rewrite firstn_app_le. }
        destruct (nth_upd_in' l f _ x y E1 Hy) as [I| ->].
        -- exists y, s', t0. auto.
        -- exists (f x), s', t0. split; [now apply upd_in | auto].
    + (* down *)
      set (f := fun x => mkLink (ln_sock x) (ln_pump x) (ln_up x) (S (ln_down x))).
      assert (Hx := nth_error_In _ _ E1).
      constructor; cbn [w_cl w_sv w_links].
      * rewrite map_upd_same; [apply H | reflexivity].
      * rewrite map_upd_same; [apply H | reflexivity].
      * intros y Hy0. destruct (In_nth_error _ _ Hy0) as (l' & Hy). clear Hy0. rewrite nth_upd in Hy.
        assert (Old : forall y, In y (w_links w) -> ln_sock y < length (cl_socks (cnext (w_cl w) (NMessage (ln_sock x) t))) /\
          sent_on (cnext (w_cl w) (NMessage (ln_sock x) t)) (ln_sock y) = sent_on (w_cl w) (ln_sock y)).
        { intros z Hz. destruct (wi_link w H z Hz) as (L & _). cbn [Client.cnext]. rewrite E4, E5. destruct (read t) as [[k d]|]; split; auto. }
        destruct (PeanoNat.Nat.eq_dec l l') as [El|Nl].
        -- rewrite <- El, PeanoNat.Nat.eqb_refl, E1 in Hy. injection Hy as <-. destruct (Old x Hx) as [O1 O2]. unfold f. cbn [ln_sock ln_pump ln_up ln_down]. rewrite O2.
           destruct (wi_link w H x Hx) as (L & s0 & E & T & U & V). assert (s0 = s) as -> by congruence. split; [exact O1|].
           exists s. apply nth_some_lt in E3. repeat split; auto.
        -- apply PeanoNat.Nat.eqb_neq in Nl as Nl'. rewrite Nl' in Hy. clear Nl'.
           assert (Hy' := nth_error_In _ _ Hy). destruct (Old y Hy') as [O1 O2]. rewrite O2. split; [exact O1|]. now apply (wi_link w H y).
      * intros m O. destruct (open_next _ _ _ Hc O) as [O'|]; [|discriminate]. destruct (wi_open w H m O') as (y & Hy & E).
        destruct (nth_upd_in' l f _ x y E1 Hy) as [I| ->]; [now exists y|].
        exists (f x). split; [now apply upd_in | exact E].
      * assert (Old : forall m, In m (cl_msgs (w_cl w)) -> exists x s t, In x (upd l f (w_links w)) /\
          nth_error (p_socks (w_sv w)) (ln_pump x) = Some s /\ In t (firstn (ln_down x) (sk_out s)) /\ read t = Some (fst m)).
        { intros m Hm. destruct (wi_msgs w H m Hm) as (y & s0 & t0 & Hy & E & Ht & Q).
          destruct (nth_upd_in' l f _ x y E1 Hy) as [I| ->].
          - exists y, s0, t0. auto.
          - exists (f x), s0, t0. split; [now apply upd_in|]. split; [exact E|]. split; [|exact Q].
            change (ln_down (f x)) with (S (ln_down x)). assert (s0 = s) as -> by congruence. rewrite (firstn_snoc _ _ _ E3). apply in_app_iff. now left. }
        intros m. cbn [Client.cnext]. rewrite E4, E5. destruct (read t) as [[k d]|] eqn:Q; [|apply Old].
        cbn. rewrite in_app_iff. intros [Hm|[<-|[]]]; [now apply Old|].
        exists (f x), s, t. split; [now apply upd_in|]. split; [exact E2|]. split; [|exact Q].
        change (ln_down (f x)) with (S (ln_down x)). rewrite (firstn_snoc _ _ _ E3). apply in_app_iff. right. now left.
Qed.
End E2EProofs.
