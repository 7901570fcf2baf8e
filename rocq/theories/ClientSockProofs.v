(** Proofs on the sockets of the websocket client. *)
From Coq Require Import List Arith NArith Bool Lia Sorted.
From Verif Require Import Util Client ClientSpec ClientProofs.
Import ListNotations.

Section ClientSockProofs.
Context {R text K D : Type} (enc : N -> R -> option text) (read : text -> option (K * D)) (same : K -> N -> bool).
Local Notation client := (client text K D).
Local Notation cevent := (cevent R text).
Local Notation cnext := (cnext enc read same).
Local Notation crun := (crun enc read same).
Local Notation creachable := (creachable enc read same).
Implicit Types (c : client) (e : cevent).

Definition st (l : list (wsock text)) (n : nat) : ready := match nth_error l n with Some s => ws_state s | None => Closed end.
Lemma st_upd l n f m : st (upd n f l) m = if Nat.eqb n m then match nth_error l n with Some s => ws_state (f s) | None => Closed end else st l m.
Proof. unfold st. rewrite nth_upd. destruct (Nat.eqb_spec n m) as [->|]; [|reflexivity]. destruct (nth_error l m); reflexivity. Qed.
Lemma st_some l n : st l n <> Closed -> exists s, nth_error l n = Some s /\ ws_state s = st l n /\ n < length l.
Proof.
  unfold st. destruct (nth_error l n) as [s|] eqn:E; [|congruence]. intros _. exists s. repeat split.
  apply nth_error_Some. congruence.
Qed.
Lemma upd_upd {X} n (f g : X -> X) l : upd n f (upd n g l) = upd n (fun x => f (g x)) l.
Proof. revert n. induction l as [|x l IH]; intros [|n]; cbn; try reflexivity. now rewrite IH. Qed.
Lemma upd_ext {X} n (f g : X -> X) l : (forall x, f x = g x) -> upd n f l = upd n g l.
Proof. intros H. revert n. induction l as [|x l IH]; intros [|n]; cbn; try reflexivity; [now rewrite H | now rewrite IH]. Qed.

Lemma upd_id {X} n (f : X -> X) l : (forall x, f x = x) -> upd n f l = l.
Proof. intros H. revert n. induction l as [|x l IH]; intros [|n]; cbn; try reflexivity; [now rewrite H | now rewrite IH]. Qed.

(** ** The shape of states *)
Definition unborn (s : ready) : Prop := s = Connecting \/ s = Closing false.

(** What holds even in the middle of an event. *)
Record Loose c : Prop := {
  lo_held : forall n, held c n -> cl_cur c = Some n;
  lo_opening : forall p, cl_opening c = Some p -> unborn (state_of c p);
  lo_cur : forall n, cl_cur c = Some n -> S n = length (cl_socks c);
  lo_wait : forall w, In w (cl_waiting c) -> unborn (state_of c (fst w));
  lo_new : forall n, unborn (state_of c n) -> sent_on c n = []
}.
Record Shape c : Prop := {
  sh_loose : Loose c;
  sh_conn : forall n, state_of c n = Connecting -> cl_opening c = Some n;
  sh_open : forall n, state_of c n = Open -> cl_opening c = None;
  sh_timer : cl_timer c <> None -> cl_cur c = None
}.

Definition same_socks c c' : Prop :=
  cl_socks c = cl_socks c' /\ cl_cur c = cl_cur c' /\ cl_opening c = cl_opening c' /\ cl_waiting c = cl_waiting c'.
Lemma loose_same c c' : same_socks c c' -> Loose c' -> Loose c.
Proof.
  intros (E1 & E2 & E3 & E4) [H1 H2 H3 H4 H5].
  constructor; unfold held, state_of, sent_on; rewrite ?E1, ?E2, ?E3, ?E4; assumption.
Qed.
Lemma shape_same c c' : same_socks c c' -> cl_timer c = cl_timer c' -> Shape c' -> Shape c.
Proof.
  intros E E5 [H1 H2 H3 H4]. constructor; [now apply (loose_same c c')|..];
    destruct E as (E1 & E2 & E3 & E4); unfold state_of; rewrite ?E1, ?E2, ?E3, ?E5; assumption.
Qed.

Definition close_form c : list (wsock text) :=
  match cl_cur c with
  | Some n => upd n (fun s => mkWs (closing (state_of c n)) (ws_sent s)) (cl_socks c)
  | None => cl_socks c
  end.
Lemma close_is c : close c = set_cur None (set_timer None (set_socks (close_form c) c)).
Proof. unfold close, close_form. destruct c as [? ? [n|] ? ? ? ? ? ? ? ? ? ?]; reflexivity. Qed.

Lemma st_close_form c m : Loose c -> st (close_form c) m =
  match state_of c m with Connecting => Closing false | Open => Closing true | x => x end.
Proof.
  intros L. unfold close_form. destruct (cl_cur c) as [n|] eqn:E.
  - rewrite st_upd. destruct (Nat.eqb_spec n m) as [->|Hn].
    + unfold state_of. destruct (nth_error (cl_socks c) m) as [s|]; [|reflexivity]. cbn. destruct (ws_state s); reflexivity.
    + change (st (cl_socks c) m) with (state_of c m). destruct (state_of c m) eqn:S; try reflexivity;
        assert (H : held c m) by (unfold held; auto); apply (lo_held c L) in H; congruence.
  - change (st (cl_socks c) m) with (state_of c m). destruct (state_of c m) eqn:S; try reflexivity;
        assert (H : held c m) by (unfold held; auto); apply (lo_held c L) in H; congruence.
Qed.
Lemma sent_upd (l : list (wsock text)) n f m : (forall s, ws_sent (f s) = ws_sent s) ->
  match nth_error (upd n f l) m with Some s => ws_sent s | None => [] end =
  match nth_error l m with Some s => ws_sent s | None => [] end.
Proof. intros H. rewrite nth_upd. destruct (Nat.eqb n m); [|reflexivity]. destruct (nth_error l m); [apply H | reflexivity]. Qed.
Lemma sent_close c m : sent_on (close c) m = sent_on c m.
Proof. rewrite close_is. unfold sent_on. cbn. unfold close_form. destruct (cl_cur c); [|reflexivity]. now apply sent_upd. Qed.

Lemma shape_close c : Loose c -> Shape (close c).
Proof.
  intros L. assert (St : forall m, state_of (close c) m = match state_of c m with Connecting => Closing false | Open => Closing true | x => x end).
  { intros m. rewrite close_is. now apply st_close_form. }
  assert (U : forall m, unborn (state_of c m) -> unborn (state_of (close c) m)).
  { intros m [H|H]; rewrite St, H; right; reflexivity. }
  constructor; [constructor|..].
  - intros n [H|H]; rewrite St in H; destruct (state_of c n); discriminate.
  - intros p Hp. apply U, (lo_opening c L). rewrite close_is in Hp. exact Hp.
  - rewrite close_is. discriminate.
  - intros w Hw. apply U, (lo_wait c L). rewrite close_is in Hw. exact Hw.
  - intros n H. rewrite sent_close. apply (lo_new c L). rewrite St in H. destruct (state_of c n) as [| |[]|]; destruct H as [H|H]; try discriminate; [now left | now right].
  - intros n H. rewrite St in H. destruct (state_of c n); discriminate.
  - intros n H. rewrite St in H. destruct (state_of c n); discriminate.
  - rewrite close_is. reflexivity.
Qed.

Lemma shape_reopen c : Loose c -> Shape (reopen c).
Proof.
  intros L. apply shape_close in L. unfold reopen. destruct (subscribed (close c)); [|assumption].
  destruct (reopen_timeout _); destruct L as [[] ? ? ?]; constructor; try constructor; auto; intros _; rewrite close_is; reflexivity.
Qed.

Definition busy c : Prop := match cl_cur c with Some n => state_of c n <> Open | None => True end.

Lemma shape_open c : Shape c -> busy c -> Shape (fst (open c)) /\ cl_opening (fst (open c)) = Some (snd (open c)).
Proof.
  intros H B. unfold open. cbn. destruct (cl_opening c) as [p|] eqn:E.
  - split; [|exact E]. destruct H as [L H1 H2 H3]. constructor; [|assumption|assumption|cbn; congruence].
    apply (loose_same _ c); [|assumption]. repeat split.
  - split; [|reflexivity]. destruct H as [[L1 L2 L3 L4 L5] H1 H2 H3].
    set (c' := set_opening _ _).
    assert (St : forall m, state_of c' m = if Nat.eqb m (length (cl_socks c)) then Connecting else state_of c m).
    { intros m. unfold c', state_of. cbn. destruct (Nat.eqb_spec m (length (cl_socks c))) as [->|Hm].
      - rewrite nth_error_app2 by lia. now rewrite Nat.sub_diag.
      - destruct (Nat.lt_ge_cases m (length (cl_socks c))); [now rewrite nth_error_app1 by assumption|].
        replace (nth_error (cl_socks c) m) with (@None (wsock text)) by (symmetry; apply nth_error_None; lia).
        replace (nth_error (cl_socks c ++ _) m) with (@None (wsock text)); [reflexivity|].
        symmetry. apply nth_error_None. rewrite app_length. cbn. lia. }
    assert (Nc : forall m, state_of c m <> Connecting) by (intros m Hm; apply H1 in Hm; congruence).
    assert (No : forall m, state_of c m <> Open).
    { intros m Hm. assert (X : held c m) by (right; assumption). apply L1 in X. unfold busy in B. rewrite X in B. contradiction. }
    assert (Cl : state_of c (length (cl_socks c)) = Closed).
    { unfold state_of. replace (nth_error (cl_socks c) _) with (@None (wsock text)) by (symmetry; apply nth_error_None; lia). reflexivity. }
    constructor; [constructor|..].
    + intros n [Hn|Hn]; rewrite St in Hn; destruct (Nat.eqb_spec n (length (cl_socks c))) as [En|En]; try subst n; try reflexivity; try discriminate.
      * now apply Nc in Hn. * now apply No in Hn.
    + intros p [= <-]. rewrite St, Nat.eqb_refl. now left.
    + intros n [= <-]. cbn. rewrite app_length. cbn. lia.
    + intros w Hw. rewrite St. destruct (Nat.eqb_spec (fst w) (length (cl_socks c))) as [|]; [now left|]. now apply L4.
    + intros n Hn. rewrite St in Hn. unfold sent_on, c'. cbn. destruct (Nat.eqb_spec n (length (cl_socks c))) as [En|Hne]; try subst n.
      * rewrite nth_error_app2 by lia. now rewrite Nat.sub_diag.
      * assert (X : st (cl_socks c) n <> Closed) by (change (state_of c n <> Closed); destruct Hn; congruence).
        apply st_some in X as (s & Hs & _ & Hl). rewrite nth_error_app1 by assumption. apply (L5 n Hn).
    + intros n Hn. rewrite St in Hn. destruct (Nat.eqb_spec n (length (cl_socks c))) as [En|En]; [now subst n | now apply Nc in Hn].
    + intros n Hn. rewrite St in Hn. destruct (Nat.eqb_spec n (length (cl_socks c))) as [En|En]; [discriminate | now apply No in Hn].
    + cbn. congruence.
Qed.

(** [open_and_send] in two cases. *)
Definition push n (vs : list (N * text)) c : client :=
  set_socks (upd n (fun s => mkWs (ws_state s) (ws_sent s ++ vs)) (cl_socks c)) c.
Definition wait v c : client := let (c, p) := open c in set_waiting (cl_waiting c ++ [(p, v)]) c.

Lemma send_open v c n : cl_cur c = Some n -> state_of c n = Open -> open_and_send v c = push n [v] c.
Proof. intros E S. unfold open_and_send. now rewrite E, S. Qed.
Lemma send_wait v c : busy c -> open_and_send v c = wait v c.
Proof. unfold busy, open_and_send. destruct (cl_cur c) as [n|]; [|reflexivity]. destruct (state_of c n); try reflexivity. congruence. Qed.
Lemma busy_dec c : busy c \/ exists n, cl_cur c = Some n /\ state_of c n = Open.
Proof. unfold busy. destruct (cl_cur c) as [n|]; [|now left]. destruct (state_of c n) eqn:E; try (left; discriminate). right. eauto. Qed.

Lemma state_push n vs c m : state_of (push n vs c) m = state_of c m.
Proof.
  change (st (cl_socks (push n vs c)) m = st (cl_socks c) m). cbn. rewrite st_upd. destruct (Nat.eqb_spec n m) as [->|]; [|reflexivity].
  unfold st. destruct (nth_error _ m); reflexivity.
Qed.
Lemma sent_push n vs c m : state_of c n = Open -> sent_on (push n vs c) m = if Nat.eqb n m then sent_on c m ++ vs else sent_on c m.
Proof.
  intros S. unfold sent_on. cbn. rewrite nth_upd. destruct (Nat.eqb_spec n m) as [->|]; [|reflexivity].
  unfold state_of in S. destruct (nth_error _ m); [reflexivity | discriminate].
Qed.

Lemma shape_push n vs c : Shape c -> state_of c n = Open -> Shape (push n vs c).
Proof.
  intros [[L1 L2 L3 L4 L5] H1 H2 H3] S. constructor; [constructor|..].
  - intros m. unfold held. rewrite !state_push. apply L1.
  - intros p Hp. rewrite state_push. now apply L2.
  - cbn. rewrite upd_length. apply L3.
  - intros w Hw. rewrite state_push. now apply L4.
  - intros m. rewrite state_push. intros Hm. rewrite sent_push by assumption. destruct (Nat.eqb_spec n m) as [->|]; [|now apply L5].
    rewrite S in Hm. destruct Hm; discriminate.
  - intros m. rewrite state_push. apply H1.
  - intros m. rewrite state_push. apply H2.
  - exact H3.
Qed.

Lemma shape_wait v c : Shape c -> busy c -> Shape (wait v c).
Proof.
  intros H B. destruct (shape_open c H B) as [[[L1 L2 L3 L4 L5] H1 H2 H3] E]. unfold wait. destruct (open c) as [c' p]. cbn in *.
  constructor; [constructor|..]; try assumption.
  intros w Hw. cbn in Hw. apply in_app_or in Hw as [Hw|[<-|[]]]; [now apply L4|]. now apply L2.
Qed.

Lemma shape_send v c : Shape c -> Shape (open_and_send v c).
Proof.
  intros H. destruct (busy_dec c) as [B|(n & E & S)].
  - rewrite send_wait by assumption. now apply shape_wait.
  - rewrite (send_open v c n E S). now apply shape_push.
Qed.

Lemma fold_send n l : forall c, cl_cur c = Some n -> state_of c n = Open ->
  fold_left (fun c v => open_and_send v c) l c = push n l c.
Proof.
  induction l as [|v l IH]; intros c E S; cbn [fold_left].
  - unfold push. rewrite upd_id; [now destruct c|]. intros []. cbn. now rewrite app_nil_r.
  - rewrite (send_open v c n E S). rewrite IH; [|exact E | now rewrite state_push].
    unfold push. cbn. unfold set_socks. cbn. f_equal. rewrite upd_upd. apply upd_ext. intros s. cbn. now rewrite <- app_assoc.
Qed.

(** [onopen], in closed form. *)
Definition opened n c : client :=
  set_socks (upd n (fun s => mkWs Open (ws_sent s ++ waiting_on c n)) (cl_socks c))
    (set_waiting (filter (fun w => negb (Nat.eqb (fst w) n)) (cl_waiting c)) (set_count 0 [] (set_opening None c))).

Lemma on_open_is n c : Shape c -> state_of c n = Connecting -> on_open n (set_state n Open c) = opened n c.
Proof.
  intros [L H1 H2 H3] S. assert (C : cl_cur c = Some n) by (apply (lo_held c L); left; assumption).
  unfold on_open. rewrite (fold_send n).
  - unfold push, opened, set_state, set_socks, waiting_on. cbn. f_equal. rewrite upd_upd. apply upd_ext. reflexivity.
  - exact C.
  - change (st (upd n (fun s => mkWs Open (ws_sent s)) (cl_socks c)) n = Open). rewrite st_upd, Nat.eqb_refl.
    unfold state_of in S. destruct (nth_error (cl_socks c) n); [reflexivity | discriminate].
Qed.

Lemma state_opened n c m : state_of c n = Connecting -> state_of (opened n c) m = if Nat.eqb n m then Open else state_of c m.
Proof.
  intros S. change (st (upd n (fun s => mkWs Open (ws_sent s ++ waiting_on c n)) (cl_socks c)) m = if Nat.eqb n m then Open else st (cl_socks c) m).
  rewrite st_upd. destruct (Nat.eqb n m); [|reflexivity]. unfold state_of in S. destruct (nth_error (cl_socks c) n); [reflexivity | discriminate].
Qed.
Lemma sent_opened n c m : state_of c n = Connecting -> sent_on (opened n c) m = if Nat.eqb n m then sent_on c m ++ waiting_on c n else sent_on c m.
Proof.
  intros S. unfold sent_on. cbn. rewrite nth_upd. destruct (Nat.eqb_spec n m) as [->|]; [|reflexivity].
  unfold state_of in S. destruct (nth_error _ m); [reflexivity | discriminate].
Qed.

Lemma shape_opened n c : Shape c -> state_of c n = Connecting -> Shape (opened n c).
Proof.
  intros [[L1 L2 L3 L4 L5] H1 H2 H3] S. assert (C : cl_cur c = Some n) by (apply L1; left; assumption).
  assert (O : cl_opening c = Some n) by (now apply H1).
  constructor; [constructor|..].
  - intros m [Hm|Hm]; rewrite state_opened in Hm by assumption; destruct (Nat.eqb_spec n m) as [->|]; try discriminate; try exact C.
    + apply L1. now left. + apply L1. now right.
  - discriminate.
  - cbn. rewrite upd_length. apply L3.
  - intros w Hw. cbn in Hw. apply filter_In in Hw as [Hw Hn]. apply negb_true_iff, Nat.eqb_neq in Hn.
    rewrite state_opened by assumption. destruct (Nat.eqb_spec n (fst w)); [congruence|]. now apply L4.
  - intros m. rewrite state_opened, sent_opened by assumption. destruct (Nat.eqb n m); [intros [|]; discriminate | apply L5].
  - intros m. rewrite state_opened by assumption. destruct (Nat.eqb_spec n m) as [->|Hne]; [discriminate|]. intros Hm. apply H1 in Hm. congruence.
  - reflexivity.
  - cbn. exact H3.
Qed.

(** A socket that changes state for the worse. *)
Lemma state_set n x c m : state_of c n <> Closed -> state_of (set_state n x c) m = if Nat.eqb n m then x else state_of c m.
Proof.
  intros H. change (st (upd n (fun s => mkWs x (ws_sent s)) (cl_socks c)) m = if Nat.eqb n m then x else st (cl_socks c) m).
  rewrite st_upd. destruct (Nat.eqb n m); [|reflexivity]. unfold state_of in H. destruct (nth_error (cl_socks c) n); [reflexivity | congruence].
Qed.
Lemma sent_set n x c m : sent_on (set_state n x c) m = sent_on c m.
Proof. unfold sent_on. cbn. now apply sent_upd. Qed.

Lemma loose_worse n x c : Shape c -> (state_of c n = Open \/ state_of c n = Closing true) -> x = Closing true \/ x = Closed -> Loose (set_state n x c).
Proof.
  intros [[L1 L2 L3 L4 L5] H1 H2 H3] S X.
  assert (Nc : state_of c n <> Closed) by (destruct S; congruence).
  assert (U : forall m, unborn (state_of c m) -> m <> n) by (intros m [Hm|Hm] ->; destruct S; congruence).
  assert (Ux : ~ unborn x) by (intros [|]; destruct X; congruence).
  constructor.
  - intros m [Hm|Hm]; rewrite state_set in Hm by assumption; destruct (Nat.eqb_spec n m); try (destruct X; congruence); apply L1; [now left | now right].
  - intros p Hp. apply L2 in Hp. rewrite state_set by assumption. destruct (Nat.eqb_spec n p) as [->|]; [|assumption]. now apply U in Hp.
  - cbn. rewrite upd_length. apply L3.
  - intros w Hw. cbn in Hw. apply L4 in Hw. rewrite state_set by assumption. destruct (Nat.eqb_spec n (fst w)) as [->|]; [|assumption]. now apply U in Hw.
  - intros m. rewrite state_set, sent_set by assumption. destruct (Nat.eqb n m); [contradiction | apply L5].
Qed.

Lemma loose_failed n c : Shape c -> state_of c n <> Closed -> Loose (on_error n (set_state n Closed c)).
Proof.
  intros [[L1 L2 L3 L4 L5] H1 H2 H3] S. unfold on_error.
  set (c' := set_waiting _ _). assert (St : forall m, state_of c' m = if Nat.eqb n m then Closed else state_of c m) by (intros m; exact (state_set n Closed c m S)).
  constructor.
  - intros m [Hm|Hm]; rewrite St in Hm; destruct (Nat.eqb_spec n m); try discriminate; apply L1; [now left | now right].
  - discriminate.
  - cbn. rewrite upd_length. apply L3.
  - intros w Hw. cbn in Hw. apply filter_In in Hw as [Hw Hn]. apply negb_true_iff, Nat.eqb_neq in Hn.
    rewrite St. destruct (Nat.eqb_spec n (fst w)); [congruence|]. now apply L4.
  - intros m. rewrite St. change (sent_on c' m) with (sent_on (set_state n Closed c) m). rewrite sent_set.
    destruct (Nat.eqb n m); [intros [|]; discriminate | apply L5].
Qed.

Lemma shape_closing n c : Shape c -> state_of c n = Open -> Shape (set_state n (Closing true) c).
Proof.
  intros H S. pose proof (loose_worse n (Closing true) c H (or_introl S) (or_introl eq_refl)) as L.
  destruct H as [_ H1 H2 H3]. assert (Nc : state_of c n <> Closed) by congruence. constructor; [assumption|..].
  - intros m. rewrite state_set by assumption. destruct (Nat.eqb n m); [discriminate | apply H1].
  - intros m. rewrite state_set by assumption. destruct (Nat.eqb n m); [discriminate | apply H2].
  - exact H3.
Qed.

(** What an event does to the sockets.  [c1] differs from [c] in things other than sockets. *)
Definition like c c1 : Prop := same_socks c1 c /\ cl_timer c1 = cl_timer c /\ cl_count c1 = cl_count c /\ cl_delays c1 = cl_delays c.
Inductive moves c : cevent -> client -> Prop :=
| m_like e c1 : like c c1 -> (subscribed c = true -> subscribed c1 = true) -> moves c e c1
| m_send e c1 t : like c c1 -> cl_calls c1 = cl_calls c ++ [bump (cl_id c)] -> cl_id c1 = bump (cl_id c) ->
    (subscribed c = true -> subscribed c1 = true) ->
    (exists r, enc (bump (cl_id c)) r = Some t /\ (e = URequest r \/ e = UStream r)) ->
    moves c e (open_and_send (bump (cl_id c), t) c1)
| m_close e c1 : like c c1 -> subscribed c1 = false -> moves c e (close c1)
| m_open n : idle c = true -> state_of c n = Connecting -> moves c (NOpen n) (opened n c)
| m_closing n : state_of c n = Open -> moves c (NClosing n) (set_state n (Closing true) c)
| m_closed n : state_of c n = Open \/ state_of c n = Closing true -> moves c (NClose n) (reopen (set_state n Closed c))
| m_failed n : state_of c n <> Closed -> moves c (NFail n) (reopen (on_error n (set_state n Closed c)))
| m_timer d : cl_timer c = Some d -> moves c TTimer (fst (open c)).

Lemma like_refl c : like c c.
Proof. repeat split. Qed.
Lemma m_same c e : moves c e c.
Proof. apply m_like; [apply like_refl | auto]. Qed.
Lemma sub_add id q b c : subscribed (add_sub id q b c) = true.
Proof. unfold subscribed. cbn. rewrite existsb_app. cbn. apply orb_true_r. Qed.
Lemma sub_upd n (f : sub D -> sub D) l : (forall s, su_live (f s) = su_live s) -> existsb su_live (upd n f l) = existsb su_live l.
Proof. intros H. revert n. induction l as [|s l IH]; intros [|n]; cbn; try reflexivity; [now rewrite H | now rewrite IH]. Qed.

Lemma moves_ok c e : Shape c -> moves c e (cnext c e).
Proof.
  intros H. destruct e as [r|r|k|j| | |j|n|n|n|n|n t|]; cbn [Client.cnext].
  - destruct (user c); [|apply m_same]. unfold request. cbn [set_id cl_id].
    destruct (enc (bump (cl_id c)) r) eqn:E; [apply m_send | apply m_like]; try (repeat split; fail); eauto; intros _; apply sub_add.
  - destruct (user c); [|apply m_same]. unfold subscribe. cbn [set_id cl_id cl_stores].
    destruct (enc (bump (cl_id c)) r) eqn:E; [apply m_send | apply m_like]; try (repeat split; fail); eauto.
  - destruct (user c); [|apply m_same]. destruct (nth_error _ k); [|apply m_same]. apply m_like; [repeat split|]. intros _. apply sub_add.
  - destruct (user c); [|apply m_same]. destruct (nth_error _ j) as [s|]; [|apply m_same]. destruct (su_req s); [apply m_same|].
    unfold delete_sub. destruct (subscribed _) eqn:S; [apply m_like | apply m_close]; auto; repeat split.
  - destruct (cl_disp c) as [d|]; [|apply m_same]. destruct (dp_in d); [|apply m_same]. apply m_like; [repeat split | auto].
  - destruct (cl_disp c) as [d|]; [|apply m_same]. unfold visit.
    destruct (nth_error _ _) as [s|]; [|apply m_like; [repeat split | auto]]. cbn zeta.
    destruct (su_live s && same (dp_key d) (su_id s)); apply m_like; try (repeat split; fail); [|auto].
    unfold subscribed. cbn. now rewrite sub_upd.
  - destruct (cl_disp c); [apply m_same|]. destruct (nth_error _ j) as [s|]; [|apply m_same]. destruct (unfinished s); [|apply m_same].
    unfold delete_sub. destruct (subscribed _) eqn:S; [apply m_like | apply m_close]; auto; repeat split.
  - destruct (idle c) eqn:I; [|apply m_same]. destruct (state_of c n) eqn:S; try apply m_same. rewrite on_open_is by assumption. now apply m_open.
  - destruct (idle c); [|apply m_same]. destruct (state_of c n) eqn:S; try apply m_same. now apply m_closing.
  - destruct (idle c); [|apply m_same]. destruct (state_of c n) as [| |[]|] eqn:S; try apply m_same; apply m_closed; auto.
  - destruct (idle c); [|apply m_same]. destruct (state_of c n) as [| |[]|] eqn:S; try apply m_same; apply m_failed; congruence.
  - destruct (idle c); [|apply m_same]. destruct (state_of c n) eqn:S; try apply m_same. destruct (read t) as [[k d]|]; [|apply m_same]. apply m_like; [repeat split | auto].
  - destruct (idle c); [|apply m_same]. destruct (cl_timer c) as [d|] eqn:T; [|apply m_same]. now apply (m_timer c d).
Qed.

Lemma shape_moves c e c' : Shape c -> moves c e c' -> Shape c'.
Proof.
  intros H M. destruct M as [e c1 (E & T & _) _ | e c1 t (E & T & _) _ _ _ _ | e c1 (E & T & _) _ | n _ S | n S | n S | n S | d T].
  - now apply (shape_same c1 c).
  - now apply shape_send, (shape_same c1 c).
  - apply shape_close, (loose_same c1 c); [assumption|]. apply H.
  - now apply shape_opened.
  - now apply shape_closing.
  - apply shape_reopen, loose_worse; auto.
  - apply shape_reopen, loose_failed; auto.
  - apply shape_open; [assumption|]. unfold busy. rewrite (sh_timer c H); [exact I | congruence].
Qed.

Lemma shape_inv c : creachable c -> Shape c.
Proof.
  apply run_ind.
  - assert (N : forall n, state_of (cinit : client) n = Closed) by (intros [|]; reflexivity).
    constructor; [constructor|..]; try (intros n; unfold held, unborn; rewrite N; intuition discriminate); try discriminate; try (intros ? []).
    cbn. congruence.
  - intros c0 e H. apply (shape_moves c0 e); [assumption | now apply moves_ok].
Qed.

(** ** C42: delays *)
Definition delays_ok c : Prop :=
  cl_delays c = map backoff (seq 0 (cl_count c)) /\
  forall d, cl_timer c = Some d -> exists n, cl_count c = S n /\ d = backoff n.

Lemma reopen_timeout_backoff n : reopen_timeout n = Some (backoff n).
Proof.
  unfold reopen_timeout, timeout_index. destruct (Nat.leb_spec (length reopen_timeouts - 1) n) as [H|H]; cbn in H.
  - destruct n as [|[|[|[|n]]]]; try lia; reflexivity.
  - destruct n as [|[|[|n]]]; try lia; reflexivity.
Qed.

Lemma dl_like c c' : cl_delays c = cl_delays c' -> cl_count c = cl_count c' -> cl_timer c = cl_timer c' \/ cl_timer c = None ->
  delays_ok c' -> delays_ok c.
Proof. intros E1 E2 E3 [H1 H2]. split; rewrite ?E1, ?E2; [assumption|]. destruct E3 as [-> | ->]; [assumption | discriminate]. Qed.

Lemma dl_close c : delays_ok c -> delays_ok (close c).
Proof. apply dl_like; rewrite close_is; auto. Qed.
Lemma dl_reopen c : delays_ok c -> delays_ok (reopen c).
Proof.
  intros H. apply dl_close in H. unfold reopen. destruct (subscribed (close c)); [|assumption].
  destruct H as [H1 H2]. rewrite reopen_timeout_backoff. split; cbn [set_timer set_count cl_delays cl_count cl_timer].
  - rewrite H1, seq_S, map_app. reflexivity.
  - intros d [= <-]. eauto.
Qed.
Lemma dl_open c : delays_ok c -> delays_ok (fst (open c)).
Proof. apply dl_like; unfold open; cbn; destruct (cl_opening c); auto. Qed.
Lemma dl_send v c : delays_ok c -> delays_ok (open_and_send v c).
Proof.
  intros H. destruct (busy_dec c) as [B|(n & E & S)].
  - rewrite send_wait by assumption. unfold wait. apply dl_open in H. destruct (open c). apply H.
  - rewrite (send_open v c n E S). apply H.
Qed.

Lemma dl_moves c e c' : Shape c -> moves c e c' -> delays_ok c -> delays_ok c'.
Proof.
  intros Hs M H. destruct M as [e c1 (E & T & Q1 & Q2) _ | e c1 t (E & T & Q1 & Q2) _ _ _ _ | e c1 (E & T & Q1 & Q2) _ | n _ S | n S | n S | n S | d T].
  - apply (dl_like _ c); auto.
  - apply dl_send, (dl_like _ c); auto.
  - apply dl_close, (dl_like _ c); auto.
  - split; [reflexivity|]. cbn. intros d Hd. exfalso.
    assert (C : cl_cur c = Some n) by (apply (lo_held c (sh_loose c Hs)); left; assumption).
    rewrite (sh_timer c Hs) in C; congruence.
  - apply (dl_like _ c); auto.
  - apply dl_reopen, (dl_like _ c); auto.
  - apply dl_reopen, (dl_like _ c); auto.
  - now apply dl_open.
Qed.
Lemma moves_next c e : creachable c -> moves c e (cnext c e).
Proof. intros H. now apply moves_ok, shape_inv. Qed.

Lemma run_ind' (P : client -> Prop) : P cinit -> (forall c e, creachable c -> P c -> P (cnext c e)) -> forall c, creachable c -> P c.
Proof.
  intros H0 HS c Hc. apply (run_ind enc read same (fun c => creachable c /\ P c)); [| |assumption].
  - split; [now exists [] | assumption].
  - intros c0 e [H1 H2]. split; [now apply creach_next | now apply HS].
Qed.

Lemma delays_inv c : creachable c -> delays_ok c.
Proof.
  apply run_ind'.
  - split; [reflexivity | discriminate].
  - intros c0 e Hr H. apply (dl_moves c0 e); [now apply shape_inv | now apply moves_next | assumption].
Qed.

(** ** C44: sending *)
Lemma sent_open c m : Shape c -> sent_on (fst (open c)) m = sent_on c m /\ (held c m -> state_of (fst (open c)) m = state_of c m).
Proof.
  intros H. unfold open. cbn. destruct (cl_opening c); [split; reflexivity|]. unfold sent_on, state_of. cbn.
  destruct (Nat.lt_ge_cases m (length (cl_socks c))) as [L|L].
  - rewrite nth_error_app1 by assumption. split; reflexivity.
  - rewrite nth_error_app2 by assumption. replace (nth_error (cl_socks c) m) with (@None (wsock text)) by (symmetry; now apply nth_error_None).
    split; [destruct (m - length (cl_socks c)) as [|[|x]]; reflexivity|].
    unfold held, state_of. replace (nth_error (cl_socks c) m) with (@None (wsock text)) by (symmetry; now apply nth_error_None).
    intros [|]; discriminate.
Qed.

Lemma like_sent c c1 m : like c c1 -> sent_on c1 m = sent_on c m.
Proof. intros ((E & _) & _). unfold sent_on. now rewrite E. Qed.
Lemma like_state c c1 m : like c c1 -> state_of c1 m = state_of c m.
Proof. intros ((E & _) & _). unfold state_of. now rewrite E. Qed.
Lemma like_shape c c1 : like c c1 -> Shape c -> Shape c1.
Proof. intros (E & T & _). now apply shape_same. Qed.
Lemma sent_reopen c m : sent_on (reopen c) m = sent_on c m.
Proof. unfold reopen. destruct (subscribed _); [|apply sent_close]. destruct (reopen_timeout _); apply sent_close. Qed.

Lemma send_only_open c e c' m : Shape c -> moves c e c' ->
  exists new, sent_on c' m = sent_on c m ++ new /\ (new <> [] -> cl_cur c' = Some m /\ state_of c' m = Open).
Proof.
  intros H M. assert (Nil : forall c', sent_on c' m = sent_on c m -> exists new, sent_on c' m = sent_on c m ++ new /\ (new <> [] -> cl_cur c' = Some m /\ state_of c' m = Open)).
  { intros x E. exists []. rewrite app_nil_r. split; [assumption | congruence]. }
  destruct M as [e c1 L _ | e c1 t L _ _ _ _ | e c1 L _ | n _ S | n S | n S | n S | d T].
  - apply Nil. now apply like_sent.
  - destruct (busy_dec c1) as [B|(n & E & S)].
    + apply Nil. rewrite send_wait by assumption. unfold wait.
      destruct (sent_open c1 m (like_shape c c1 L H)) as [X _]. rewrite (like_sent c c1 m L) in X. destruct (open c1). exact X.
    + rewrite (send_open _ c1 n E S). rewrite sent_push, state_push by assumption. rewrite (like_sent c c1 m L).
      destruct (Nat.eqb_spec n m) as [->|]; [eauto|]. exists []. rewrite app_nil_r. split; [reflexivity | congruence].
  - apply Nil. rewrite sent_close. now apply like_sent.
  - rewrite sent_opened, state_opened by assumption. destruct (Nat.eqb_spec n m) as [->|]; [|exists []; rewrite app_nil_r; split; [reflexivity | congruence]].
    exists (waiting_on c m). split; [reflexivity|]. intros _. split; [|reflexivity]. apply (lo_held c (sh_loose c H)). now left.
  - apply Nil. apply sent_set.
  - apply Nil. rewrite sent_reopen. apply sent_set.
  - apply Nil. rewrite sent_reopen. apply sent_set.
  - apply Nil. apply sent_open. assumption.
Qed.

Lemma gone_unheld c : Shape c -> cl_cur c = None -> forall n, ~ held c n.
Proof. intros H E n Hn. apply (lo_held c (sh_loose c H)) in Hn. congruence. Qed.

Lemma sub_reopen c : subscribed (reopen c) = subscribed c.
Proof. unfold subscribed. pose proof (talk_reopen c) as T. apply talk_parts in T as (_ & -> & _). reflexivity. Qed.

Lemma last_unsub c e c' : Shape c -> moves c e c' -> subscribed c = true -> subscribed c' = false ->
  cl_cur c' = None /\ cl_timer c' = None /\ forall n, ~ held c' n.
Proof.
  intros H M S1 S2. assert (G : cl_cur c' = None /\ cl_timer c' = None).
  - destruct M as [e c1 L X | e c1 t L _ _ X _ | e c1 L X | n _ S | n S | n S | n S | d T].
    + rewrite X in S2; [discriminate | assumption].
    + exfalso. unfold subscribed in *. pose proof (talk_send c1 (bump (cl_id c), t)) as T. apply talk_parts in T as (_ & E & _).
      rewrite E in S2. rewrite X in S2; [discriminate | assumption].
    + rewrite close_is. split; reflexivity.
    + unfold subscribed in *. cbn in S2. congruence.
    + unfold subscribed in *. cbn in S2. congruence.
    + rewrite sub_reopen in S2. unfold subscribed in *. cbn in S2. congruence.
    + rewrite sub_reopen in S2. unfold subscribed in *. cbn in S2. congruence.
    + unfold subscribed in *. pose proof (talk_open c) as E. apply talk_parts in E as (_ & E & _). rewrite E in S2. congruence.
  - destruct G as [G1 G2]. split; [assumption|]. split; [assumption|]. apply gone_unheld; [|assumption]. now apply (shape_moves c e).
Qed.

(** Order: what is sent and what has a chance of being sent. *)
Definition ids (l : list (N * text)) : list N := map fst l.
Definition hopeful c : list N :=
  map (fun w => fst (snd w)) (filter (fun w => match state_of c (fst w) with Connecting => true | _ => false end) (cl_waiting c)).
Definition line c : list N := sent_ids c ++ hopeful c.

Lemma ids_upd_last (l : list (wsock text)) n vs f : (forall s, ws_sent (f s) = ws_sent s ++ vs) -> S n = length l ->
  flat_map (fun s => map fst (ws_sent s)) (upd n f l) = flat_map (fun s => map fst (ws_sent s)) l ++ ids vs.
Proof.
  intros Hf. revert n. induction l as [|s l IH]; intros n H; [discriminate|]. cbn in H. destruct n as [|n].
  - destruct l; [|discriminate]. cbn. rewrite Hf, map_app, !app_nil_r. reflexivity.
  - cbn. rewrite IH by lia. now rewrite app_assoc.
Qed.
Lemma ids_upd_same (l : list (wsock text)) n f : (forall s, ws_sent (f s) = ws_sent s) ->
  flat_map (fun s => map fst (ws_sent s)) (upd n f l) = flat_map (fun s => map fst (ws_sent s)) l.
Proof. intros Hf. revert n. induction l as [|s l IH]; intros [|n]; cbn; try reflexivity; [now rewrite Hf | now rewrite IH]. Qed.

Lemma sent_ids_close c : sent_ids (close c) = sent_ids c.
Proof. rewrite close_is. unfold sent_ids. cbn. unfold close_form. destruct (cl_cur c); [|reflexivity]. now apply ids_upd_same. Qed.
Lemma sent_ids_reopen c : sent_ids (reopen c) = sent_ids c.
Proof. unfold reopen. destruct (subscribed _); [|apply sent_ids_close]. destruct (reopen_timeout _); apply sent_ids_close. Qed.
Lemma sent_ids_open c : sent_ids (fst (open c)) = sent_ids c.
Proof. unfold open. cbn. destruct (cl_opening c); [reflexivity|]. unfold sent_ids. cbn. rewrite flat_map_app. cbn. now rewrite app_nil_r. Qed.

Lemma none_hopeful c : (forall n, state_of c n <> Connecting) -> hopeful c = [].
Proof.
  intros H. unfold hopeful. induction (cl_waiting c) as [|w l IH]; [reflexivity|]. cbn.
  destruct (state_of c (fst w)) eqn:E; try exact IH. now apply H in E.
Qed.
Lemma unheld_hopeful c : (forall n, ~ held c n) -> hopeful c = [].
Proof. intros H. apply none_hopeful. intros n Hn. apply (H n). now left. Qed.

Lemma hopeful_ext c c' : cl_waiting c = cl_waiting c' ->
  (forall w, In w (cl_waiting c') -> state_of c (fst w) = Connecting <-> state_of c' (fst w) = Connecting) -> hopeful c = hopeful c'.
Proof.
  intros E H. unfold hopeful. rewrite E. f_equal. apply filter_ext_in. intros w Hw. specialize (H w Hw).
  destruct (state_of c (fst w)), (state_of c' (fst w)); try reflexivity; intuition discriminate.
Qed.

Lemma line_send c v : Shape c -> line (open_and_send v c) = line c ++ [fst v] \/ line (open_and_send v c) = line c.
Proof.
  intros H. destruct (busy_dec c) as [B|(n & E & S)].
  - rewrite send_wait by assumption. unfold wait. pose proof (sent_ids_open c) as Hs. pose proof (shape_open c H B) as [H' _].
    assert (Ho : hopeful (fst (open c)) = hopeful c).
    { apply hopeful_ext.
      - unfold open. cbn. destruct (cl_opening c); reflexivity.
      - intros w Hw. apply (lo_wait c (sh_loose c H)) in Hw. unfold open. cbn. destruct (cl_opening c) eqn:O; [reflexivity|].
        unfold state_of. cbn. destruct (st_some (cl_socks c) (fst w)) as (s & Hn & _ & L).
        { change (state_of c (fst w) <> Closed). destruct Hw; congruence. }
        rewrite nth_error_app1 by assumption. reflexivity. }
    destruct (open c) as [c' p]. cbn in Hs, Ho. unfold line. 
    assert (Hh : hopeful (set_waiting (cl_waiting c' ++ [(p, v)]) c') = hopeful c' ++ match state_of c' p with Connecting => [fst v] | _ => [] end).
    { unfold hopeful. cbn [cl_waiting set_waiting]. rewrite filter_app, map_app. cbn. destruct (state_of c' p) eqn:Sp; unfold state_of in Sp |- *; cbn; rewrite Sp; reflexivity. }
    change (sent_ids (set_waiting (cl_waiting c' ++ [(p, v)]) c')) with (sent_ids c'). rewrite Hh, Hs, Ho.
    destruct (state_of c' p); [left; now rewrite app_assoc | right; now rewrite app_nil_r..].
  - left. rewrite (send_open v c n E S). unfold line.
    assert (Hh : forall x, (forall m, state_of x m = state_of c m) -> hopeful x = []).
    { intros x Hx. apply none_hopeful. intros m Hm. rewrite Hx in Hm. pose proof (sh_conn c H m Hm). pose proof (sh_open c H n S). congruence. }
    rewrite (Hh (push n [v] c)) by (apply state_push). rewrite (Hh c) by reflexivity. rewrite !app_nil_r.
    unfold sent_ids. cbn. rewrite (ids_upd_last _ _ [v]); [reflexivity | reflexivity|]. now apply (lo_cur c (sh_loose c H)).
Qed.

Lemma line_like c c1 : like c c1 -> line c1 = line c.
Proof. intros ((E1 & E2 & E3 & E4) & _). unfold line, sent_ids, hopeful, state_of. now rewrite E1, E4. Qed.

Lemma line_opened n c : Shape c -> state_of c n = Connecting -> line (opened n c) = line c.
Proof.
  intros H S. assert (C : cl_cur c = Some n) by (apply (lo_held c (sh_loose c H)); left; assumption).
  unfold line. rewrite (none_hopeful (opened n c)).
  - rewrite app_nil_r. unfold sent_ids. cbn. rewrite (ids_upd_last _ _ (waiting_on c n)); [|reflexivity | now apply (lo_cur c (sh_loose c H))].
    f_equal. unfold ids, waiting_on, hopeful. rewrite map_map. f_equal. apply filter_ext. intros w.
    destruct (Nat.eqb_spec (fst w) n) as [-> | Hne]; [now rewrite S|].
    destruct (state_of c (fst w)) eqn:E; try reflexivity. pose proof (sh_conn c H _ E). pose proof (sh_conn c H _ S). congruence.
  - intros m. rewrite state_opened by assumption. destruct (Nat.eqb_spec n m); [discriminate|]. intros Hm.
    pose proof (sh_conn c H _ Hm). pose proof (sh_conn c H _ S). congruence.
Qed.

(** Each event adds at most one id, that of a new call, at the end; or it drops all that is hopeful. *)
Lemma line_moves c e c' : Shape c -> moves c e c' ->
  line c' = line c \/ line c' = sent_ids c \/
  (line c' = line c ++ [bump (cl_id c)] /\ cl_id c' = bump (cl_id c) /\ cl_calls c' = cl_calls c ++ [bump (cl_id c)]).
Proof.
  intros H M. assert (C : forall x : client, Loose x -> line (close x) = sent_ids x).
  { intros x L. unfold line. rewrite unheld_hopeful, sent_ids_close; [apply app_nil_r|]. apply gone_unheld; [now apply shape_close|]. now rewrite close_is. }
  assert (Rc : forall x : client, Loose x -> line (reopen x) = sent_ids x).
  { intros x L. unfold line. rewrite unheld_hopeful, sent_ids_reopen; [apply app_nil_r|]. apply gone_unheld; [now apply shape_reopen|].
    unfold reopen. destruct (subscribed _); [|now rewrite close_is]. destruct (reopen_timeout _); now rewrite close_is. }
  destruct M as [e c1 L _ | e c1 t L X1 X2 _ _ | e c1 L X | n _ S | n S | n S | n S | d T].
  - left. now apply line_like.
  - pose proof (talk_send c1 (bump (cl_id c), t)) as T. apply talk_parts in T as (T1 & _ & _ & _ & T2 & _).
    destruct (line_send c1 (bump (cl_id c), t) (like_shape c c1 L H)) as [E|E]; rewrite E, (line_like c c1 L); [|now left].
    right. right. rewrite T1, T2, X1, X2. auto.
  - right. left. rewrite C; [now unfold sent_ids; destruct L as ((-> & _) & _)|]. apply (loose_same c1 c); [apply L | apply H].
  - left. now apply line_opened.
  - left. unfold line. f_equal; [unfold sent_ids; cbn; now apply ids_upd_same|]. apply hopeful_ext; [reflexivity|].
    intros w _. rewrite state_set by congruence. destruct (Nat.eqb_spec n (fst w)) as [E|]; [|reflexivity]. rewrite <- E, S. intuition discriminate.
  - right. left. rewrite Rc by (apply loose_worse; auto). unfold sent_ids. cbn. now apply ids_upd_same.
  - right. left. rewrite Rc by (now apply loose_failed). unfold sent_ids. cbn. now apply ids_upd_same.
  - left. unfold line. rewrite sent_ids_open. f_equal. apply hopeful_ext; [unfold open; cbn; destruct (cl_opening c); reflexivity|].
    intros w Hw. apply (lo_wait c (sh_loose c H)) in Hw. unfold open. cbn. destruct (cl_opening c) eqn:O; [reflexivity|].
    unfold state_of. cbn. destruct (st_some (cl_socks c) (fst w)) as (s & Hn & _ & L).
    { change (state_of c (fst w) <> Closed). destruct Hw; congruence. }
    rewrite nth_error_app1 by assumption. reflexivity.
Qed.

Lemma sorted_snoc l x : StronglySorted N.lt l -> (forall y, In y l -> (y < x)%N) -> StronglySorted N.lt (l ++ [x]).
Proof.
  induction 1 as [|a l Hl IH Ha]; intros Hx; cbn; [constructor; constructor|].
  constructor; [apply IH; intros y Hy; apply Hx; now right|].
  apply Forall_app. split; [assumption|]. constructor; [|constructor]. apply Hx. now left.
Qed.
Lemma sorted_app_l l l' : StronglySorted N.lt (l ++ l') -> StronglySorted N.lt l.
Proof.
  induction l as [|a l IH]; cbn; intros H; [constructor|]. inversion H as [|? ? H1 H2]; subst.
  constructor; [now apply IH|]. apply Forall_app in H2. apply H2.
Qed.

Lemma id_grows c e : (cl_id c <= cl_id (cnext c e))%N.
Proof.
  destruct (effect_ok enc read same c e) as (c' & F & T). apply talk_parts in T as (-> & _).
  assert (B : (cl_id c <= bump (cl_id c))%N) by (unfold bump; destruct (N.ltb _ _); lia).
  destruct F; cbn; try lia. unfold visit. destruct (nth_error _ _); cbn; [destruct (_ && _); cbn|]; lia.
Qed.

Lemma line_inv c : creachable c -> countable c -> StronglySorted N.lt (line c) /\ forall x, In x (line c) -> (x <= cl_id c)%N.
Proof.
  intros Hr. revert Hr. apply (run_ind' (fun c => countable c -> StronglySorted N.lt (line c) /\ forall x, In x (line c) -> (x <= cl_id c)%N)).
  - intros _. split; [constructor | intros x []].
  - intros c0 e Hr IH Hc. destruct (IH (countable_back _ _ _ _ _ Hc)) as [I1 I2]. pose proof (id_grows c0 e) as G.
    destruct (line_moves c0 e _ (shape_inv c0 Hr) (moves_next c0 e Hr)) as [E|[E|(E & E1 & E2)]]; rewrite E.
    + split; [assumption|]. intros x Hx. apply I2 in Hx. lia.
    + unfold line in I1. split; [eapply sorted_app_l; eassumption|]. intros x Hx.
      assert (Hx' : In x (line c0)) by (apply in_or_app; now left). apply I2 in Hx'. lia.
    + assert (B : bump (cl_id c0) = (cl_id c0 + 1)%N).
      { apply (bump_next enc read same); [assumption|]. unfold countable in *. rewrite E2 in Hc. exact Hc. }
      rewrite E1, B. split.
      * apply sorted_snoc; [assumption|]. intros y Hy. apply I2 in Hy. lia.
      * intros x Hx. apply in_app_or in Hx as [Hx|[<-|[]]]; [apply I2 in Hx; lia | lia].
Qed.

Theorem sent_sorted c : creachable c -> countable c -> StronglySorted N.lt (sent_ids c).
Proof. intros H Hc. eapply sorted_app_l. apply (line_inv c H Hc). Qed.

(** ** C43: lost for ever *)
Lemma times_app id l l' : times id (l ++ l') = times id l + times id l'.
Proof. apply count_occ_app. Qed.

Lemma times_upd id (l : list (wsock text)) n f : (forall s, exists vs, ws_sent (f s) = ws_sent s ++ vs) ->
  times id (flat_map (fun s => map fst (ws_sent s)) l) <= times id (flat_map (fun s => map fst (ws_sent s)) (upd n f l)).
Proof.
  intros Hf. revert n. induction l as [|s l IH]; intros [|n]; cbn [upd flat_map]; rewrite ?times_app; try reflexivity.
  - destruct (Hf s) as [vs ->]. rewrite map_app, times_app. lia.
  - specialize (IH n). lia.
Qed.

Lemma sent_grows id c e c' : Shape c -> moves c e c' -> times id (sent_ids c) <= times id (sent_ids c').
Proof.
  intros H M.
  destruct M as [e c1 L _ | e c1 t L X1 X2 _ _ | e c1 L X | n _ S | n S | n S | n S | d T].
  - unfold sent_ids. destruct L as ((-> & _) & _). reflexivity.
  - assert (E1 : sent_ids c1 = sent_ids c) by (unfold sent_ids; destruct L as ((-> & _) & _); reflexivity). rewrite <- E1.
    destruct (busy_dec c1) as [B|(n & E & S)].
    + rewrite send_wait by assumption. unfold wait. pose proof (sent_ids_open c1) as X. destruct (open c1). cbn in X. rewrite <- X. reflexivity.
    + rewrite (send_open _ c1 n E S). unfold sent_ids. cbn. apply times_upd. intros s. cbn. eauto.
  - rewrite sent_ids_close. unfold sent_ids. destruct L as ((-> & _) & _). reflexivity.
  - unfold sent_ids. cbn. apply times_upd. intros s. cbn. eauto.
  - unfold sent_ids. cbn. now rewrite ids_upd_same.
  - rewrite sent_ids_reopen. unfold sent_ids. cbn. now rewrite ids_upd_same.
  - rewrite sent_ids_reopen. unfold sent_ids. cbn. now rewrite ids_upd_same.
  - now rewrite sent_ids_open.
Qed.

Lemma no_hope_step id c e : creachable c -> countable (cnext c e) -> (id <= cl_id c)%N -> ~ In id (hopeful c) ->
  times id (sent_ids (cnext c e)) = times id (sent_ids c) /\ ~ In id (hopeful (cnext c e)).
Proof.
  intros Hr Hc Hi Hn. pose proof (shape_inv c Hr) as Hs. pose proof (moves_next c e Hr) as M.
  pose proof (sent_grows id c e _ Hs M) as G.
  apply (count_occ_not_In N.eq_dec) in Hn. fold (times id (hopeful c)) in Hn.
  enough (X : times id (line (cnext c e)) <= times id (sent_ids c)).
  { unfold line in X. rewrite times_app in X. split; [lia|]. apply (count_occ_not_In N.eq_dec). fold (times id (hopeful (cnext c e))). lia. }
  destruct (line_moves c e _ Hs M) as [E|[E|(E & E1 & E2)]]; rewrite E.
  - unfold line. rewrite times_app. lia.
  - reflexivity.
  - assert (B : bump (cl_id c) = (cl_id c + 1)%N).
    { apply (bump_next enc read same); [assumption|]. unfold countable in *. rewrite E2 in Hc. exact Hc. }
    unfold line. rewrite !times_app, B. cbn. destruct (N.eq_dec _ _); lia.
Qed.

Lemma countable_run_back c es : countable (crun c es) -> countable c.
Proof.
  revert c. induction es as [|e es IH]; intros c H; [assumption|]. cbn in H. apply IH in H. eapply countable_back. eassumption.
Qed.
Lemma reach_run c es : creachable c -> creachable (crun c es).
Proof. intros [l ->]. exists (l ++ es). unfold Client.crun. now rewrite fold_left_app. Qed.

Lemma no_hope c id es : creachable c -> countable (crun c es) -> (id <= cl_id c)%N -> ~ In id (hopeful c) ->
  times id (sent_ids (crun c es)) = times id (sent_ids c) /\ ~ In id (hopeful (crun c es)).
Proof.
  revert c. induction es as [|e es IH]; intros c Hr Hc Hi Hn; [auto|]. cbn in Hc |- *.
  assert (Hc' : countable (cnext c e)) by (eapply countable_run_back; eassumption).
  destruct (no_hope_step id c e Hr Hc' Hi Hn) as [E Hn'].
  destruct (IH (cnext c e)) as [E2 E3]; auto.
  - now apply creach_next.
  - pose proof (id_grows c e). lia.
  - split; [etransitivity; [exact E2 | exact E] | exact E3].
Qed.

Lemma hopeful_spec c id : In id (hopeful c) <-> exists n t, In (n, (id, t)) (cl_waiting c) /\ state_of c n = Connecting.
Proof.
  unfold hopeful. rewrite in_map_iff. split.
  - intros ([n [i t]] & <- & H). apply filter_In in H as [H S]. exists n, t. cbn in *. split; [assumption|]. now destruct (state_of c n).
  - intros (n & t & H & S). exists (n, (id, t)). split; [reflexivity|]. apply filter_In. cbn. now rewrite S.
Qed.

(** A call whose text does not wait for a connecting socket is never sent again. *)
Theorem lost_forever c id es : creachable c -> countable (crun c es) -> (id <= cl_id c)%N ->
  (forall n t, In (n, (id, t)) (cl_waiting c) -> state_of c n <> Connecting) ->
  times id (sent_ids (crun c es)) = times id (sent_ids c).
Proof.
  intros Hr Hc Hi Hn. apply no_hope; auto. rewrite hopeful_spec. intros (n & t & H & S). now apply Hn in H.
Qed.

Theorem sent_once c id : creachable c -> countable c -> times id (sent_ids c) <= 1.
Proof.
  intros Hr Hc. apply (proj1 (NoDup_count_occ N.eq_dec _)). pose proof (sent_sorted c Hr Hc) as H.
  induction H as [|a l H IH Ha]; constructor; [|assumption]. rewrite Forall_forall in Ha. intros Hi. apply Ha in Hi. lia.
Qed.

(** A request that is not answered stays pending. *)
Theorem stays_pending c j id es : creachable c -> pending c j id -> not_now same id c -> no_answer read same id es ->
  pending (crun c es) j id /\ not_now same id (crun c es).
Proof.
  revert c. induction es as [|e es IH]; intros c Hr P Hn Ha; [auto|]. cbn.
  enough (G : pending (cnext c e) j id /\ not_now same id (cnext c e)).
  { destruct G as [G1 G2]. apply IH; auto; [now apply creach_next|]. intros n t Hi. apply (Ha n t). now right. }
  clear IH. assert (Hm : forall n t, e = NMessage n t -> foreign_text read same id t) by (intros n t ->; apply (Ha n t); now left).
  destruct (effect_ok enc read same c e) as (c' & F & T). apply talk_parts in T as (_ & E1 & _ & E2 & _).
  unfold pending, not_now. rewrite E1, E2. clear E1 E2.
  destruct P as (s & Hj & P1 & P2 & P3 & P4 & P5).
  assert (Same : forall (x : client), cl_disp x = cl_disp c -> not_now same id x) by (intros x Hx; unfold not_now; now rewrite Hx).
  assert (Add : forall x, nth_error (cl_subs c ++ [x]) j = Some s).
  { intros x. rewrite nth_error_app1; [assumption|]. apply nth_error_Some. congruence. }
  assert (Get : forall l, nth_error l j = Some s -> exists s, nth_error l j = Some s /\ su_id s = id /\ su_req s = true /\ su_bad s = false /\ su_live s = true /\ su_seen s = []) by (intros l Hl; exists s; auto 10).
  destruct F; try (split; [apply Get; first [exact Hj | apply Add] | apply (Same _ eq_refl)]).
  - (* unlisten *) split; [|now apply Same]. exists s. cbn. unfold deleted. rewrite nth_upd_other; [auto 10|]. intros ->. congruence.
  - (* throw *) split; [|exact I]. exists s. auto 10.
  - (* visit *) unfold not_now in Hn. rewrite H in Hn. cbn in Hn. unfold visit. destruct (nth_error (cl_subs c) (dp_next d)) as [s0|] eqn:E.
    + cbn. split; [|assumption]. destruct (su_live s0 && same (dp_key d) (su_id s0)) eqn:Hit; [|exists s; cbn; auto 10].
      exists s. cbn. rewrite nth_upd_other; [auto 10|]. intros Hd. rewrite Hd in E. rewrite E in Hj. injection Hj as ->.
      apply andb_prop in Hit as [_ Hit]. congruence.
    + split; [exists s; auto 10 | exact I].
  - (* finally *) split; [|now apply Same]. exists s. cbn. unfold deleted. rewrite nth_upd_other; [auto 10|]. intros ->.
    unfold unfinished in H1. assert (s0 = s) by congruence. subst s0. rewrite P2, P3, P4, P5 in H1. discriminate.
  - (* message *) split; [exists s; auto 10|]. specialize (Hm n t eq_refl). unfold foreign_text in Hm. rewrite H1 in Hm. exact Hm.
Qed.

(** ** Closing *)
Lemma closes_is c e : closes c e -> exists n, cnext c e = reopen (set_state n Closed c) \/ cnext c e = reopen (on_error n (set_state n Closed c)).
Proof.
  intros [Hi [(n & -> & S)|(n & -> & S)]]; exists n.
  - right. cbn. rewrite Hi. destruct (state_of c n); [reflexivity.. | congruence].
  - left. cbn. rewrite Hi. destruct S as [-> | ->]; reflexivity.
Qed.
Lemma cur_reopen c : cl_cur (reopen c) = None.
Proof. unfold reopen. destruct (subscribed _); [|now rewrite close_is]. destruct (reopen_timeout _); now rewrite close_is. Qed.

Theorem closed_unheld c e : creachable c -> closes c e -> forall n, ~ held (cnext c e) n.
Proof.
  intros Hr Hc. apply gone_unheld; [now apply shape_inv, creach_next|].
  destruct (closes_is c e Hc) as (n & [-> | ->]); apply cur_reopen.
Qed.

(** When a socket closes, all calls made so far that are not sent are lost, and none is sent again. *)
Theorem closed_lost c e id es : creachable c -> closes c e -> (id <= cl_id c)%N -> countable (crun (cnext c e) es) ->
  times id (sent_ids (crun (cnext c e) es)) = times id (sent_ids c).
Proof.
  intros Hr Hc Hi Hn. rewrite lost_forever; [|now apply creach_next|assumption|pose proof (id_grows c e); lia|].
  - destruct (closes_is c e Hc) as (n & [-> | ->]); rewrite sent_ids_reopen; unfold sent_ids; cbn; now rewrite ids_upd_same.
  - intros n t _ S. apply (closed_unheld c e Hr Hc n). now left.
Qed.

Lemma sub_close c : subscribed (close c) = subscribed c.
Proof. unfold subscribed. pose proof (talk_close c) as T. apply talk_parts in T as (_ & -> & _). reflexivity. Qed.

Theorem reopen_timer c e : creachable c -> closes c e ->
  cl_timer (cnext c e) = if subscribed c then Some (backoff (length (cl_delays c))) else None.
Proof.
  intros Hr Hc. destruct (delays_inv c Hr) as [D1 _].
  assert (L : length (cl_delays c) = cl_count c) by (rewrite D1, map_length, seq_length; reflexivity). rewrite L.
  assert (G : forall x : client, cl_subs x = cl_subs c -> cl_count x = cl_count c -> cl_timer (reopen x) = if subscribed c then Some (backoff (cl_count c)) else None).
  { intros x E1 E2. unfold reopen. rewrite sub_close. assert (S : subscribed x = subscribed c) by (unfold subscribed; now rewrite E1). rewrite S.
    destruct (subscribed c); [|now rewrite close_is]. rewrite reopen_timeout_backoff. rewrite close_is. cbn. now rewrite E2. }
  destruct (closes_is c e Hc) as (n & [-> | ->]); now apply G.
Qed.

Theorem delays_grow c i : creachable c -> i < length (cl_delays c) -> nth_error (cl_delays c) i = Some (backoff i).
Proof.
  intros Hr. destruct (delays_inv c Hr) as [D1 _]. rewrite D1. rewrite map_length, seq_length. intros H.
  rewrite nth_error_map. assert (E : nth_error (seq 0 (cl_count c)) i = Some i).
  { rewrite nth_error_nth' with (d := 0) by (now rewrite seq_length). now rewrite seq_nth. }
  now rewrite E.
Qed.

Theorem opened_sends c n : creachable c -> idle c = true -> state_of c n = Connecting ->
  let c' := cnext c (NOpen n) in
  state_of c' n = Open /\ sent_on c' n = waiting_on c n /\ waiting_on c' n = [] /\ cl_delays c' = [] /\
  forall m, m <> n -> sent_on c' m = sent_on c m.
Proof.
  intros Hr Hi S. cbn zeta. pose proof (shape_inv c Hr) as H.
  assert (E : cnext c (NOpen n) = opened n c) by (cbn; rewrite Hi, S; now apply on_open_is). rewrite E.
  rewrite state_opened, Nat.eqb_refl by assumption. split; [reflexivity|].
  rewrite sent_opened, Nat.eqb_refl by assumption. rewrite (lo_new c (sh_loose c H) n (or_introl S)). split; [reflexivity|].
  split; [|split; [reflexivity|]].
  - unfold waiting_on. cbn. induction (cl_waiting c) as [|w l IH]; [reflexivity|]. cbn.
    destruct (Nat.eqb (fst w) n) eqn:Q; cbn; [assumption|]. rewrite Q. exact IH.
  - intros m Hm. rewrite sent_opened by assumption. destruct (Nat.eqb_spec n m); [congruence | reflexivity].
Qed.

Theorem sends_on_open c e m : creachable c ->
  exists new, sent_on (cnext c e) m = sent_on c m ++ new /\ (new <> [] -> state_of (cnext c e) m = Open).
Proof.
  intros Hr. destruct (send_only_open c e _ m (shape_inv c Hr) (moves_next c e Hr)) as (new & H1 & H2).
  exists new. split; [assumption|]. intros H. now apply H2.
Qed.

Theorem one_held c n m : creachable c -> held c n -> held c m -> n = m.
Proof. intros Hr H1 H2. pose proof (sh_loose c (shape_inv c Hr)) as L. apply (lo_held c L) in H1, H2. congruence. Qed.

Theorem last_gone c e : creachable c -> subscribed c = true -> subscribed (cnext c e) = false ->
  cl_timer (cnext c e) = None /\ forall n, ~ held (cnext c e) n.
Proof.
  intros Hr H1 H2. destruct (last_unsub c e _ (shape_inv c Hr) (moves_next c e Hr) H1 H2) as (_ & H3 & H4). auto.
Qed.
End ClientSockProofs.
