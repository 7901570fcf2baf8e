(** Endless runs of page and server as schedules of the model: parts that do not depend on the page.  Proof side. *)
From Coq Require Import List Arith NArith Bool Lia IndefiniteDescription.
From Verif Require Import Util Server ServerSpec ServerProofs Pump PumpSpec PumpProofs.
From Verif Require Import Client ClientSpec ClientProofs ClientSockProofs E2E E2ESpec E2EStreamSpec E2EProofs E2ESafe E2ELive E2ESettle.
Import ListNotations.

(** ** A sequence that is found step by step *)
Lemma found {X L : Type} (P : nat -> X -> Prop) (Q : nat -> X -> L -> X -> Prop) :
  (forall i x, P i x -> exists l x', Q i x l x' /\ P (S i) x') ->
  forall x, P 0 x -> exists (f : nat -> X) (g : nat -> L), f 0 = x /\ forall i, P i (f i) /\ Q i (f i) (g i) (f (S i)).
Proof.
  intros H x H0.
  assert (N : forall i (s : {x | P i x}), {l : L * X | Q i (proj1_sig s) (fst l) (snd l) /\ P (S i) (snd l)}).
  { intros i [z Hz]. apply constructive_indefinite_description. destruct (H i z Hz) as (l & z' & A). now exists (l, z'). }
  set (st := fix st (i : nat) : {x | P i x} := match i with
    | O => exist _ x H0
    | S i => exist _ (snd (proj1_sig (N i (st i)))) (proj2 (proj2_sig (N i (st i))))
    end).
  exists (fun i => proj1_sig (st i)), (fun i => fst (proj1_sig (N i (st i)))). split; [reflexivity|]. intros i. split; [exact (proj2_sig (st i))|].
  exact (proj1 (proj2_sig (N i (st i)))).
Qed.

(** ** Blocks in a row *)
Section Flat.
Context {X : Type} (B : nat -> list X) (Bn : forall i, B i <> []).
Definition begin (i : nat) : nat := length (concat (map B (seq 0 i))).
Lemma begin_S i : begin (S i) = begin i + length (B i).
Proof. unfold begin. rewrite seq_S, map_app, concat_app, app_length. cbn. now rewrite app_nil_r. Qed.
Lemma begin_ge i : i <= begin i.
Proof. induction i as [|i IH]; [apply Nat.le_0_l|]. rewrite begin_S. pose proof (Bn i). destruct (B i); [congruence|cbn; lia]. Qed.
Lemma firsts_more m m' : m <= m' -> exists r, concat (map B (seq 0 m')) = concat (map B (seq 0 m)) ++ r.
Proof.
  induction 1 as [|m' L [r IH]]; [exists []; now rewrite app_nil_r|]. rewrite seq_S, map_app, concat_app, IH. cbn. rewrite <- app_assoc. eauto.
Qed.
Lemma flat : exists sigma : nat -> X, (forall i k e, nth_error (B i) k = Some e -> sigma (begin i + k) = e) /\
  (forall i, map sigma (seq 0 (begin i)) = concat (map B (seq 0 i))).
Proof.
  destruct (B 0) as [|d r0] eqn:E0; [now destruct (Bn 0)|].
  set (sigma := fun x => nth x (concat (map B (seq 0 (S x)))) d).
  assert (Hs : forall i x e, nth_error (concat (map B (seq 0 i))) x = Some e -> sigma x = e).
  { intros i x e E. unfold sigma. destruct (firsts_more i (Nat.max i (S x)) (Nat.le_max_l _ _)) as [r R]. destruct (firsts_more (S x) (Nat.max i (S x)) (Nat.le_max_r _ _)) as [r' R'].
    assert (L : x < length (concat (map B (seq 0 (S x))))) by (exact (begin_ge (S x))).
    apply nth_error_nth. rewrite <- (nth_error_app1 _ r' L), <- R', R, nth_error_app1; [exact E|]. now apply nth_some_lt in E. }
  exists sigma. split.
  - intros i k e E. apply (Hs (S i)). rewrite seq_S, map_app, concat_app. cbn. rewrite app_nil_r, nth_error_app2; [|apply Nat.le_add_r]. change (length (concat (map B (seq 0 i)))) with (begin i). now rewrite Nat.add_comm, Nat.add_sub.
  - intros i. apply nth_ext with (d := d) (d' := d); [now rewrite map_length, seq_length|]. intros x L. rewrite map_length, seq_length in L.
    rewrite (nth_indep _ d (sigma 0)) by (now rewrite map_length, seq_length). rewrite map_nth, seq_nth by exact L. cbn [Nat.add]. apply (Hs i). now apply nth_error_nth'.
Qed.
Lemma within x : exists i k, k < length (B i) /\ x = begin i + k.
Proof.
  assert (H : forall i, x < begin i -> exists i k, k < length (B i) /\ x = begin i + k).
  { induction i as [|i IH]; [intros L; unfold begin in L; cbn in L; lia|]. intros L. rewrite begin_S in L. destruct (Nat.lt_ge_cases x (begin i)) as [L'|L']; [now apply IH|].
    exists i, (x - begin i). lia. }
  apply (H (S x)). apply begin_ge.
Qed.
End Flat.

(** ** The client by itself *)
Section Client.
Context {R text K D : Type} (enc : N -> R -> option text) (read : text -> option (K * D)) (same : K -> N -> bool).
Local Notation client := (client text K D).
Local Notation cnext := (cnext enc read same).
Local Notation creachable := (creachable enc read same).
Implicit Types c : client.

Definition inner (e : cevent R text) : Prop := match e with NOpen _ | NClosing _ | NClose _ | NFail _ | NMessage _ _ | TTimer => False | _ => True end.

Lemma sub_close c : subscribed (close c) = subscribed c.
Proof. unfold close. cbn. now destruct (cl_cur c). Qed.

(** As long as someone listens the client does not close its socket. *)
Lemma inner_holds c e n : creachable c -> inner e -> subscribed (cnext c e) = true -> held c n -> held (cnext c e) n.
Proof.
  intros Hr Hi Su Hh. pose proof (moves_next enc read same c e Hr) as M. pose proof (shape_inv enc read same c Hr) as Hs.
  remember (cnext c e) as c' eqn:Ec. clear Ec.
  destruct M as [e c1 L _ | e c1 t L X1 X2 _ _ | e c1 L Sb | m _ Sm | m Sm | m Sm | m Sm | d Tm]; try (now destruct Hi).
  - unfold held. now rewrite (like_state c c1 n L).
  - pose proof (like_shape c c1 L Hs) as Hs1. assert (H1 : held c1 n) by (unfold held; now rewrite (like_state c c1 n L)).
    destruct (busy_dec c1) as [B|(m & E' & Sm)].
    + rewrite send_wait by assumption. unfold wait. destruct (open c1) as [c2 q] eqn:Eo. destruct (sent_open c1 n Hs1) as [_ St]. rewrite Eo in St. cbn [fst] in St. specialize (St H1).
      unfold held. change (state_of (set_waiting (cl_waiting c2 ++ [(q, (bump (cl_id c), t))]) c2) n) with (state_of c2 n). now rewrite St.
    + rewrite (send_open _ c1 m E' Sm). unfold held. now rewrite state_push.
  - rewrite sub_close in Su. congruence.
Qed.

(** A text is on its way or will be. *)
Definition ready c : Prop := cl_opening c <> None \/ exists m, cl_cur c = Some m /\ state_of c m = Open.
Lemma ready_send v c : Shape c -> ready (open_and_send v c).
Proof.
  intros Hs. destruct (busy_dec c) as [B|(m & E & Sm)].
  - rewrite send_wait by assumption. destruct (shape_open c Hs B) as [_ Op]. unfold wait. destruct (open c) as [c2 q]. cbn [fst snd] in Op. left. cbn. congruence.
  - rewrite (send_open _ c m E Sm). right. exists m. split; [exact E|]. now rewrite state_push.
Qed.
Lemma ready_request c r t : creachable c -> user c = true -> enc (bump (cl_id c)) r = Some t -> ready (cnext c (URequest r)).
Proof.
  intros Hr Hu He. cbn [Client.cnext]. rewrite Hu. unfold request. cbn [set_id cl_id]. rewrite He. apply ready_send.
  apply (shape_same _ c); [repeat split | reflexivity|]. now apply (shape_inv enc read same).
Qed.
Lemma inner_back c e n : creachable c -> inner e -> ready c -> subscribed (cnext c e) = true -> ready (cnext c e) /\ (held (cnext c e) n -> held c n).
Proof.
  intros Hr Hi Rd Su. pose proof (moves_next enc read same c e Hr) as M. pose proof (shape_inv enc read same c Hr) as Hs.
  remember (cnext c e) as c' eqn:Ec. clear Ec.
  assert (Like : forall c1, like c c1 -> ready c1).
  { intros c1 L. destruct Rd as [Rd|(m & E & Sm)]; [left|right; exists m; rewrite (like_state c c1 m L)]; destruct L as ((E1 & E2 & E3 & E4) & _); [congruence|]. split; congruence. }
  destruct M as [e c1 L _ | e c1 t L X1 X2 _ _ | e c1 L Sb | m _ Sm | m Sm | m Sm | m Sm | d Tm]; try (now destruct Hi).
  - split; [now apply Like|]. unfold held. now rewrite (like_state c c1 n L).
  - pose proof (like_shape c c1 L Hs) as Hs1. split; [now apply ready_send|]. pose proof (Like c1 L) as Rd1.
    assert (B1 : held c1 n -> held c n) by (unfold held; now rewrite (like_state c c1 n L)).
    destruct (busy_dec c1) as [B|(m & E' & Sm)].
    + rewrite send_wait by assumption. unfold wait, open. cbn zeta. change (cl_opening (set_timer None c1)) with (cl_opening c1).
      destruct (cl_opening c1) as [p|] eqn:Ep.
      * intros H. apply B1. exact H.
      * exfalso. destruct Rd1 as [Rd1|(m & E & Sm)]; [congruence|]. unfold busy in B. rewrite E in B. contradiction.
    + rewrite (send_open _ c1 m E' Sm). unfold held. rewrite state_push. exact B1.
  - rewrite sub_close in Su. congruence.
Qed.

(** ** An entry *)
Lemma entry_next c e j s : nth_error (cl_subs c) j = Some s -> exists s', nth_error (cl_subs (cnext c e)) j = Some s' /\
  su_req s' = su_req s /\ su_bad s' = su_bad s /\ (exists l, su_seen s' = su_seen s ++ l) /\
  (su_req s = true -> su_live s = true -> su_bad s = false -> su_seen s = [] -> su_live s' = true).
Proof.
  intros H. destruct (effect_ok enc read same c e) as (c' & F & T). apply talk_parts in T as (_ & T & _). rewrite T. clear T.
  assert (Here : forall l, nth_error l j = Some s -> exists s', nth_error l j = Some s' /\
    su_req s' = su_req s /\ su_bad s' = su_bad s /\ (exists l, su_seen s' = su_seen s ++ l) /\ (su_req s = true -> su_live s = true -> su_bad s = false -> su_seen s = [] -> su_live s' = true)).
  { intros l E. exists s. repeat split; auto. exists []. now rewrite app_nil_r. }
  assert (Snoc : forall x, nth_error (cl_subs c ++ [x]) j = Some s) by (intros x; rewrite nth_error_app1; [exact H|now apply nth_some_lt in H]).
  assert (Del : forall i x n, nth_error (cl_subs c) i = Some x -> (su_req x = false \/ unfinished x = true) -> exists s', nth_error (deleted i n (cl_subs c)) j = Some s' /\
    su_req s' = su_req s /\ su_bad s' = su_bad s /\ (exists l, su_seen s' = su_seen s ++ l) /\ (su_req s = true -> su_live s = true -> su_bad s = false -> su_seen s = [] -> su_live s' = true)).
  { intros i x n Ex Hx. unfold deleted. rewrite nth_upd, H. destruct (Nat.eqb_spec i j) as [->|]; [|exists s; repeat split; auto; exists []; now rewrite app_nil_r].
    cbn [option_map]. eexists. split; [reflexivity|]. assert (x = s) as -> by congruence. destruct (su_live s) eqn:Lv; cbn; [|rewrite Lv; repeat split; auto; exists []; now rewrite app_nil_r].
    repeat split; auto; [exists []; now rewrite app_nil_r|]. intros Q _ Bd Sn. destruct Hx as [Hx|Hx]; [congruence|]. unfold unfinished in Hx. rewrite Bd, Sn in Hx. cbn in Hx. now rewrite andb_false_r in Hx. }
  destruct F as [e|r U _|r U _|r U _|r U _|k id U _|i x U Ex Q|d _ _|d _|i x _ Ex Un|n t k d _ _ _]; cbn; try (now apply Here); try (now apply Here, Snoc).
  - apply (Del i x); auto.
  - unfold visit. destruct (nth_error (cl_subs c) (dp_next d)) as [x|] eqn:Ex; [|now apply Here]. cbn zeta.
    destruct (su_live x && same (dp_key d) (su_id x)); [|now apply Here]. cbn. rewrite nth_upd, H. destruct (Nat.eqb_spec (dp_next d) j); [|exists s; repeat split; auto; exists []; now rewrite app_nil_r].
    cbn [option_map]. eexists. split; [reflexivity|]. cbn. repeat split; eauto.
  - apply (Del i x); auto.
Qed.
Lemma live_subscribed c j s : nth_error (cl_subs c) j = Some s -> su_live s = true -> subscribed c = true.
Proof. intros E L. unfold subscribed. apply existsb_exists. exists s. split; [now apply nth_error_In in E|exact L]. Qed.
(** A listener is there until it is unsubscribed. *)
Lemma listener_next c e j s : e <> UUnlisten j -> nth_error (cl_subs c) j = Some s -> su_req s = false -> su_live s = true ->
  exists s', nth_error (cl_subs (cnext c e)) j = Some s' /\ su_req s' = false /\ su_live s' = true.
Proof.
  intros Nu H Q Lv. destruct (effect_ok enc read same c e) as (c' & F & T). apply talk_parts in T as (_ & T & _). rewrite T. clear T.
  assert (Snoc : forall x, nth_error (cl_subs c ++ [x]) j = Some s) by (intros x; rewrite nth_error_app1; [exact H|now apply nth_some_lt in H]).
  destruct F as [e|r U _|r U _|r U _|r U _|k id U _|i x U Ex Qx|d _ _|d _|i x _ Ex Un|n t k d _ _ _]; cbn; try (exists s; auto; fail).
  - exists s. split; [|now split]. unfold deleted. rewrite nth_upd, H. destruct (Nat.eqb_spec i j) as [->|]; [congruence|reflexivity].
  - unfold visit. destruct (nth_error (cl_subs c) (dp_next d)) as [x|] eqn:Ex; [|exists s; auto]. cbn zeta.
    destruct (su_live x && same (dp_key d) (su_id x)); [|exists s; auto]. cbn. rewrite nth_upd, H. destruct (Nat.eqb_spec (dp_next d) j); [|exists s; auto].
    cbn [option_map]. eexists. split; [reflexivity|]. now split.
  - exists s. split; [|now split]. unfold deleted. rewrite nth_upd, H. destruct (Nat.eqb_spec i j) as [->|]; [|reflexivity]. unfold unfinished in Un. assert (x = s) as -> by congruence. now rewrite Q in Un.
Qed.
Lemma no_throws_back c e : no_throws (cnext c e) -> no_throws c.
Proof.
  destruct (effect_ok enc read same c e) as (c' & F & T). apply talk_parts in T as (_ & _ & _ & _ & _ & T). unfold no_throws. rewrite T. clear T.
  destruct F; cbn; auto.
  - unfold spoil. intros H1. destruct (cl_msgs c) as [|m l]; [constructor|]. exfalso. rewrite Forall_forall in H1.
    destruct (nth_error (m :: l) (length l)) as [x|] eqn:E; [|apply nth_error_None in E; cbn in E; lia].
    assert (Bad : snd (fst x, false) = true); [|discriminate]. apply H1. apply nth_error_In with (n := length l). cbn [length pred]. rewrite nth_upd, E, Nat.eqb_refl. reflexivity.
  - unfold visit. destruct (nth_error _ _) as [s|]; [|auto]. cbn zeta. destruct (su_live s && same (dp_key d) (su_id s)); auto.
  - intros X. now apply Forall_app in X.
Qed.
Lemma ready_stream c r t : creachable c -> user c = true -> enc (bump (cl_id c)) r = Some t -> ready (cnext c (UStream r)).
Proof.
  intros Hr Hu He. cbn [Client.cnext]. rewrite Hu. unfold subscribe. cbn zeta. cbn [set_id cl_id]. rewrite He. apply ready_send.
  apply (shape_same _ c); [repeat split | reflexivity|]. now apply (shape_inv enc read same).
Qed.
End Client.
