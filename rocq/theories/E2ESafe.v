(** A request is settled by its own handler's result only. *)
From Coq Require Import List Arith NArith Bool Lia Sorted.
From Verif Require Import Util Server ServerSpec ServerProofs ServerLemmas Pump PumpSpec PumpProofs.
From Verif Require Import Client ClientSpec ClientProofs ClientSockProofs E2E E2ESpec E2EProofs.
Import ListNotations.

Section E2ESafe.
Context {R text K D : Type} (enc : N -> R -> option text) (read : text -> option (K * D)) (same : K -> N -> bool).
Context {A : app} (decode : text -> msg A) (encode : response A -> text).
Local Notation world := (world text K D A).
Local Notation wevent := (wevent R text A).
Local Notation client := (client text K D).
Local Notation wnext := (wnext enc read same decode encode).
Local Notation wrun := (wrun enc read same decode encode).
Local Notation cnext := (cnext enc read same).
Local Notation pnext := (pnext decode encode).
Local Notation creachable := (creachable enc read same).
Local Notation preachable := (preachable decode encode).
Local Notation wreachable := (wreachable enc read same decode encode).
Implicit Types (w : world) (p : pstate A text).

(** ** The entry and the text of a request *)
Lemma keys_next c e j k : nth_error (keys c) j = Some k -> nth_error (keys (cnext c e)) j = Some k.
Proof.
  intros H. destruct (effect_ok enc read same c e) as (c' & F & T). apply talk_parts in T as (_ & T & _).
  unfold keys in *. rewrite T. clear T.
  assert (Snoc : forall s, nth_error (map (fun s => (su_id s, su_req s)) (cl_subs c ++ [s])) j = Some k).
  { intros s. rewrite map_app, nth_error_app1; [exact H | now apply nth_some_lt in H]. }
  destruct F; try exact H; try apply Snoc; cbn.
  - now rewrite keys_deleted.
  - unfold visit. destruct (nth_error (cl_subs c) (dp_next d)) as [s|]; [|exact H]. cbn zeta.
    destruct (su_live s && same (dp_key d) (su_id s)); [|exact H]. cbn. rewrite keys_upd; auto.
  - now rewrite keys_deleted.
Qed.

(** [id] has been given, and its text is [t]. *)
Definition own (id : N) (t : text) (c : client) : Prop := (id <= cl_id c)%N /\ forall t', stuff c (id, t') -> t' = t.

Lemma own_next id t c e : creachable c -> countable (cnext c e) -> own id t c -> own id t (cnext c e).
Proof.
  intros Hr Hc [H1 H2]. split.
  - pose proof (id_grows enc read same c e). lia.
  - intros t' H. apply (stuff_next enc read same) in H as [H|(r & _ & _ & E & _ & C)]; auto.
    cbn in E. rewrite (bump_next enc read same c Hr) in E; [lia|].
    unfold countable in *. rewrite C in Hc. exact Hc.
Qed.

Lemma own_start c r t : creachable c -> user c = true -> enc (bump (cl_id c)) r = Some t ->
  countable (cnext c (URequest r)) -> own (bump (cl_id c)) t (cnext c (URequest r)).
Proof.
  intros Hr Hu E Hc. destruct (request_adds enc read same c r Hu) as (C & _).
  assert (B : bump (cl_id c) = (cl_id c + 1)%N).
  { apply (bump_next enc read same c Hr). unfold countable in *. rewrite C in Hc. exact Hc. }
  split.
  - rewrite (id_last _ (id_inv enc read same _ (creach_next enc read same c (URequest r) Hr))).
    rewrite (id_last _ (id_inv enc read same _ Hr)) in B |- *. unfold countable in Hc. rewrite C, app_length in *. cbn [length] in *.
    unfold top in *. lia.
  - intros t' H. apply (stuff_next enc read same) in H as [H|(r' & [X|X] & E' & _)]; auto.
    + apply (stuff_ok enc read same) in H as [H _]; [|assumption]. cbn in H. lia.
    + injection X as ->. cbn in E'. congruence.
    + discriminate.
Qed.

Lemma wcount_back w e : countable (w_cl (wnext w e)) -> countable (w_cl w).
Proof.
  destruct (wmoves_ok enc read same decode encode w e); cbn [w_cl]; auto; apply countable_back.
Qed.

Definition made (id : N) (t : text) (j : nat) w : Prop := own id t (w_cl w) /\ nth_error (keys (w_cl w)) j = Some (id, true).

Lemma made_next a id t j w e : wreachable a w -> countable (w_cl (wnext w e)) -> made id t j w -> made id t j (wnext w e).
Proof.
  intros Hr Hc [H1 H2]. destruct (parts _ _ _ _ _ a w Hr) as [Hcl _]. revert Hc.
  destruct (wmoves_ok enc read same decode encode w e); cbn [w_cl]; intros Hc; split; cbn [w_cl]; auto using keys_next, own_next.
Qed.

Lemma made_run a id t j es : forall w, wreachable a w -> countable (w_cl (wrun w es)) -> made id t j w -> made id t j (wrun w es).
Proof.
  induction es as [|e es IH] using rev_ind; intros w Hr Hc H; [exact H|].
  rewrite wrun_snoc in *. apply (made_next a); auto; [now apply wreach_run|].
  apply IH; auto. eapply wcount_back. exact Hc.
Qed.

Lemma made_start a w r t : wreachable a w -> user (w_cl w) = true -> enc (bump (cl_id (w_cl w))) r = Some t ->
  countable (w_cl (wnext w (WClient (URequest r)))) ->
  made (bump (cl_id (w_cl w))) t (length (cl_subs (w_cl w))) (wnext w (WClient (URequest r))).
Proof.
  intros Hr Hu E Hc. destruct (parts _ _ _ _ _ a w Hr) as [Hcl _]. split; cbn [E2E.wnext w_cl].
  - now apply own_start.
  - destruct (request_adds enc read same (w_cl w) r Hu) as (_ & bad & S & _). unfold keys. rewrite S, map_app.
    rewrite nth_error_app2; rewrite map_length; [|lia]. now rewrite Nat.sub_diag.
Qed.

(** ** The client's messages at the server *)
Lemma sent_by_in c m (l : list (nat * msg A)) : In m (sent_by c l) <-> In (c, m) l.
Proof.
  unfold sent_by. rewrite in_map_iff. split.
  - intros ([c' m'] & E & H). apply filter_In in H as [H Q]. cbn in *. apply PeanoNat.Nat.eqb_eq in Q. now subst.
  - intros H. exists (c, m). split; [reflexivity|]. apply filter_In. split; [exact H | apply PeanoNat.Nat.eqb_refl].
Qed.

Lemma In_firstn {X} n (l : list X) x : In x (firstn n l) -> In x l.
Proof. intros H. rewrite <- (firstn_skipn n l). apply in_app_iff. now left. Qed.

Lemma sent_on_stuff (c : client) n v : In v (sent_on c n) -> stuff c v.
Proof.
  intros H. left. unfold sent_on in H. destruct (nth_error (cl_socks c) n) as [s|] eqn:E; [|contradiction].
  apply in_flat_map. exists s. split; [now apply (nth_error_In _ n) | exact H].
Qed.

Lemma ours_msg a w c m : wreachable a w -> is_ours w c -> In (c, m) (st_sent (p_srv (w_sv w))) ->
  exists id t r, stuff (w_cl w) (id, t) /\ m = decode t /\ enc id r = Some t /\ (0 < id <= 2 ^ 53)%N.
Proof.
  intros Hr (x & s & Hx & E & <-) H. destruct (parts _ _ _ _ _ a w Hr) as [Hcl Hp].
  destruct (wi_link _ _ (winv_inv _ _ _ _ _ a w Hr) x Hx) as (_ & s' & E' & T & _). assert (s' = s) as -> by congruence.
  destruct (frames_in decode encode a (w_sv w) (ln_pump x) s Hp E) as (acc & ref & T1 & T2 & _).
  apply sent_by_in in H. rewrite T2 in H. apply in_map_iff in H as (t & <- & Ht).
  assert (I : In t (texts (sk_in s))) by (rewrite T1; apply in_app_iff; now left).
  rewrite T in I. apply in_map_iff in I as ([id t'] & <- & I). apply In_firstn, sent_on_stuff in I.
  destruct (stuff_ok enc read same _ _ Hcl I) as (B & r & Er). cbn in *. exists id, t', r. repeat split; auto; [lia|].
  pose proof (id_small enc read same _ Hcl). lia.
Qed.

(** ** The answer of the loop *)
Lemma seq_out (l : list (nat * msg A)) : forall q q', seq_run q l = Some q' -> forall c r, In (c, r) (q_outs q') ->
  In (c, r) (q_outs q) \/ exists l1 m l2 q1 q2, l = l1 ++ (c, m) :: l2 /\ seq_run q l1 = Some q1 /\
    seq_step q1 (c, m) = Some q2 /\ q_outs q2 = q_outs q1 ++ [(c, r)].
Proof.
  induction l as [|m l IH] using rev_ind; intros q q' H c r Hin.
  - cbn in H. injection H as <-. now left.
  - rewrite seq_run_app in H. destruct (seq_run q l) as [q1|] eqn:E; [|discriminate].
    cbn in H. destruct (seq_step q1 m) as [q2|] eqn:E2; [|discriminate]. injection H as ->.
    assert (O : q_outs q' = q_outs q1 \/ exists r', q_outs q' = q_outs q1 ++ [(fst m, r')]).
    { destruct m as [c0 [[id v|id]|err]]; cbn in E2.
      - destruct (from_value A v) as [call|er].
        + destruct (is_stream A call).
          * destruct (open_stream A _ call); [|discriminate]. injection E2 as <-. now left.
          * destruct (run_method A _ call) as [[a' [d|er]]|]; [| |discriminate]; injection E2 as <-; right; eexists; reflexivity.
        + injection E2 as <-. right. eexists. reflexivity.
      - injection E2 as <-. now left.
      - injection E2 as <-. right. eexists. reflexivity. }
    assert (Old : In (c, r) (q_outs q1) -> In (c, r) (q_outs q) \/ exists l1 m0 l2 q1 q2, l ++ [m] = l1 ++ (c, m0) :: l2 /\ seq_run q l1 = Some q1 /\
      seq_step q1 (c, m0) = Some q2 /\ q_outs q2 = q_outs q1 ++ [(c, r)]).
    { intros H. destruct (IH q q1 E c r H) as [H'|(l1 & m0 & l2 & q3 & q4 & -> & H1 & H2)]; [now left|].
      right. exists l1, m0, (l2 ++ [m]), q3, q4. split; [now rewrite <- app_assoc | auto]. }
    destruct O as [O|(r' & O)]; rewrite O in Hin; [now apply Old|].
    apply in_app_iff in Hin as [Hin|[[= <- <-]|[]]]; [now apply Old|].
    right. destruct m as [c0 m0]. exists l, m0, [], q1, q'. auto.
Qed.

Lemma task_of a es c t r : let s := run (init a) es in In (SrcTask t, r) (received s c) ->
  exists v call id, In (c, inl (Exec id v)) (st_sent s) /\ from_value A v = inl call /\ is_stream A call = true /\ response_id r = Some id.
Proof.
  intros s H. destruct (inv_run a es) as (done & q & I).
  fold s in I. unfold received in H. destruct (nth_error (st_conns s) c) as [cn|] eqn:Ec; [|contradiction].
  assert (Hin : In r (from_task t (cn_out cn))) by (now apply In_from_task).
  destruct (nth_error (st_tasks s) t) as [tk|] eqn:Et.
  2:{ rewrite (I_notask _ _ _ _ I c cn t Ec) in Hin; [contradiction | now apply nth_error_None]. }
  pose proof (I_task _ _ _ _ I c cn t tk Ec Et) as Q. destruct (Nat.eqb_spec (tk_conn tk) c) as [Eq|Ne].
  2:{ rewrite Q in Hin. contradiction. }
  destruct Q as [Q _]. apply (prefix_In _ _ _ Q) in Hin. apply in_map_iff in Hin as (it & <- & _).
  assert (S : In (c, tk_id tk) (q_starts q)).
  { rewrite <- (I_starts _ _ _ _ I). apply in_map_iff. exists tk. split; [now rewrite Eq | now apply (nth_error_In _ t)]. }
  destruct (seq_run_outs done (seq_init a) q (I_run _ _ _ _ I)) as [_ St].
  destruct (St _ _ S) as [[]|(v & call & Hv & F1 & F2)].
  exists v, call, (tk_id tk). destruct (I_sent _ _ _ _ I) as (l & El & _). repeat split; auto.
  - rewrite El. apply in_app_iff. now left.
  - now destruct it.
Qed.

(** ** Once *)
Definition cnt {X} (f : X -> bool) (l : list X) : nat := length (filter f l).
Lemma cnt_app {X} (f : X -> bool) l l' : cnt f (l ++ l') = cnt f l + cnt f l'.
Proof. unfold cnt. now rewrite filter_app, app_length. Qed.
Lemma cnt_two {X} (f : X -> bool) l : forall i j x y, i < j -> nth_error l i = Some x -> nth_error l j = Some y -> f x = true -> f y = true -> 2 <= cnt f l.
Proof.
  intros i j x y L H1 H2 F1 F2. destruct (nth_error_split l i H1) as (l1 & l2 & -> & <-).
  rewrite nth_error_app2 in H2 by lia. destruct (j - length l1) as [|n] eqn:E; [lia|]. cbn in H2.
  destruct (nth_error_split l2 n H2) as (l3 & l4 & -> & _).
  rewrite cnt_app. change (x :: l3 ++ y :: l4) with ([x] ++ l3 ++ [y] ++ l4). rewrite !cnt_app.
  unfold cnt at 2 4. cbn. rewrite F1, F2. cbn. lia.
Qed.
Lemma cnt_map {X Y} (g : X -> Y) f l : cnt f (map g l) = cnt (fun x => f (g x)) l.
Proof. unfold cnt. induction l as [|x l IH]; cbn; [reflexivity|]. destruct (f (g x)); cbn; now rewrite IH. Qed.
Lemma cnt_le {X} (f g : X -> bool) l : (forall x, In x l -> f x = true -> g x = true) -> cnt f l <= cnt g l.
Proof.
  unfold cnt. induction l as [|x l IH]; cbn; intros H; [lia|].
  assert (IH' := IH (fun y Hy => H y (or_intror Hy))). specialize (H x (or_introl eq_refl)).
  destruct (f x); [rewrite H by reflexivity; cbn; lia | destruct (g x); cbn; lia].
Qed.
Lemma cnt_times id l : cnt (fun v : N * text => N.eqb (fst v) id) l = times id (map fst l).
Proof.
  unfold cnt, times. induction l as [|x l IH]; cbn; [reflexivity|].
  destruct (N.eqb_spec (fst x) id), (N.eq_dec (fst x) id); cbn; congruence.
Qed.
Lemma cnt_firstn {X} (f : X -> bool) n l : cnt f (firstn n l) <= cnt f l.
Proof. rewrite <- (firstn_skipn n l) at 2. rewrite cnt_app. lia. Qed.
Lemma cnt_filter {X} (f g : X -> bool) l : cnt f (filter g l) = cnt (fun x => g x && f x) l.
Proof.
  unfold cnt. induction l as [|x l IH]; cbn; [reflexivity|]. destruct (g x); cbn; [|exact IH]. destruct (f x); cbn; now rewrite IH.
Qed.

Definition is_exec (id : N) (m : msg A) : bool := match m with inl (Exec i _) => N.eqb i id | _ => false end.

Lemma times_sent (c : client) n id : times id (map fst (sent_on c n)) <= times id (sent_ids c).
Proof.
  unfold sent_on, sent_ids. revert n. induction (cl_socks c) as [|s l IH]; intros [|n]; cbn [nth_error flat_map]; try (apply Nat.le_0_l).
  - rewrite times_app. lia.
  - rewrite times_app. specialize (IH n). lia.
Qed.
Lemma times_two (c : client) n m id : n <> m -> In id (map fst (sent_on c n)) -> In id (map fst (sent_on c m)) -> 2 <= times id (sent_ids c).
Proof.
  assert (P : forall l : list (wsock text), forall n, In id (map fst (match nth_error l n with Some s => ws_sent s | None => [] end)) ->
            1 <= times id (flat_map (fun s => map fst (ws_sent s)) l)).
  { intros l k H. destruct (nth_error l k) as [s|] eqn:E; [|contradiction].
    apply (count_occ_In N.eq_dec). apply in_flat_map. exists s. split; [now apply (nth_error_In _ k) | exact H]. }
  unfold sent_on, sent_ids. revert n m. induction (cl_socks c) as [|s l IH]; intros [|n] [|m] Ne H1 H2; cbn [nth_error flat_map] in *; try contradiction; rewrite times_app.
  - specialize (P l m H2). apply (count_occ_In N.eq_dec) in H1. unfold times at 1. lia.
  - specialize (P l n H1). apply (count_occ_In N.eq_dec) in H2. unfold times at 1. lia.
  - assert (n <> m) by congruence. specialize (IH n m H H1 H2). lia.
Qed.

Section Codecs.
Context (val : R -> Json A) (data : Json A -> D).
Hypothesis U : understand enc read same decode encode val data.

(** A message of the client is a call with its own id, or an error without id. *)
Lemma ours_exec a w c m : wreachable a w -> is_ours w c -> In (c, m) (st_sent (p_srv (w_sv w))) ->
  (exists id t r, stuff (w_cl w) (id, t) /\ enc id r = Some t /\ decode t = inl (Exec id (val r)) /\ m = inl (Exec id (val r)) /\ (id <= 2 ^ 53)%N) \/
  (exists e, m = inr (RError None e)).
Proof.
  intros Hr Ho Hm. destruct (ours_msg a w c m Hr Ho Hm) as (id & t & r & H1 & -> & H3 & H4).
  destruct (un_request _ _ _ _ _ _ _ U id r t H4 H3) as [E|(e & E)]; rewrite E; [left|right; eauto].
  exists id, t, r. repeat split; auto. lia.
Qed.

Lemma exec_times a w x s id : wreachable a w -> In x (w_links w) -> nth_error (p_socks (w_sv w)) (ln_pump x) = Some s ->
  cnt (fun e => Nat.eqb (fst e) (sk_conn s) && is_exec id (snd e)) (st_sent (p_srv (w_sv w))) <= times id (map fst (sent_on (w_cl w) (ln_sock x))).
Proof.
  intros Hr Hx E. destruct (parts _ _ _ _ _ a w Hr) as [Hcl Hp].
  destruct (wi_link _ _ (winv_inv _ _ _ _ _ a w Hr) x Hx) as (_ & s' & E' & T & _). assert (s' = s) as -> by congruence.
  destruct (frames_in decode encode a (w_sv w) (ln_pump x) s Hp E) as (acc & ref & T1 & T2 & _).
  transitivity (cnt (is_exec id) (sent_by (sk_conn s) (st_sent (p_srv (w_sv w))))).
  { unfold sent_by. rewrite cnt_map, cnt_filter. reflexivity. }
  rewrite T2. transitivity (cnt (is_exec id) (map decode (texts (sk_in s)))).
  { rewrite T1, map_app, cnt_app. lia. }
  rewrite T, map_map, cnt_map. etransitivity; [apply cnt_firstn|].
  rewrite <- cnt_times. apply cnt_le. intros [i t] Hin F. cbn in *.
  apply sent_on_stuff in Hin. destruct (stuff_ok enc read same _ _ Hcl Hin) as (B & r & Er). cbn in *.
  pose proof (id_small enc read same _ Hcl).
  destruct (un_request _ _ _ _ _ _ _ U i r t) as [Q|(e & Q)]; auto; [lia|..]; rewrite Q in F; cbn in F; [exact F | discriminate].
Qed.

Lemma exec_sent a w x s id v : wreachable a w -> In x (w_links w) -> nth_error (p_socks (w_sv w)) (ln_pump x) = Some s ->
  In (sk_conn s, inl (Exec id v)) (st_sent (p_srv (w_sv w))) -> In id (map fst (sent_on (w_cl w) (ln_sock x))).
Proof.
  intros Hr Hx E H. pose proof (exec_times a w x s id Hr Hx E) as Q.
  apply (count_occ_In N.eq_dec). unfold times in Q.
  enough (1 <= cnt (fun e => Nat.eqb (fst e) (sk_conn s) && is_exec id (snd e)) (st_sent (p_srv (w_sv w)))) by lia.
  apply in_split in H as (l1 & l2 & ->). rewrite cnt_app.
  change (?y :: l2) with ([y] ++ l2). rewrite cnt_app. unfold cnt at 2. cbn. rewrite PeanoNat.Nat.eqb_refl, N.eqb_refl. cbn. lia.
Qed.

Theorem calls_once a w id i i' : wreachable a w -> countable (w_cl w) -> is_call w id i -> is_call w id i' -> i = i'.
Proof.
  intros Hr Hc (c & v & E & Ho) (c' & v' & E' & Ho').
  destruct (parts _ _ _ _ _ a w Hr) as [Hcl Hp]. pose proof (winv_inv _ _ _ _ _ a w Hr) as W.
  pose proof (sent_once enc read same (w_cl w) id Hcl Hc) as Once.
  destruct Ho as (x & s & Hx & Es & <-), Ho' as (x' & s' & Hx' & Es' & <-).
  pose proof (exec_sent a w x s id v Hr Hx Es (nth_error_In _ _ E)) as I.
  pose proof (exec_sent a w x' s' id v' Hr Hx' Es' (nth_error_In _ _ E')) as I'.
  destruct (PeanoNat.Nat.eq_dec (ln_sock x) (ln_sock x')) as [Ex|Nx].
  2:{ pose proof (times_two (w_cl w) _ _ id Nx I I'). lia. }
  assert (x' = x) as -> by (symmetry; now apply (nodup_map_eq ln_sock (w_links w)); [apply W|..]).
  assert (s' = s) as -> by congruence.
  pose proof (exec_times a w x s id Hr Hx Es) as Q. pose proof (times_sent (w_cl w) (ln_sock x) id) as Q'.
  destruct (lt_eq_lt_dec i i') as [[L|]|L]; [|assumption|]; exfalso.
  - enough (2 <= cnt (fun e => Nat.eqb (fst e) (sk_conn s) && is_exec id (snd e)) (st_sent (p_srv (w_sv w)))) by lia.
    apply (cnt_two _ _ i i' _ _ L E E'); cbn; now rewrite PeanoNat.Nat.eqb_refl, N.eqb_refl.
  - enough (2 <= cnt (fun e => Nat.eqb (fst e) (sk_conn s) && is_exec id (snd e)) (st_sent (p_srv (w_sv w)))) by lia.
    apply (cnt_two _ _ i' i _ _ L E' E); cbn; now rewrite PeanoNat.Nat.eqb_refl, N.eqb_refl.
Qed.

(** A response of the loop for [id] in the channel of one of the client's connections. *)
Lemma loop_ran a w c id r t resp : wreachable a w -> countable (w_cl w) -> is_ours w c ->
  own id t (w_cl w) -> enc id r = Some t -> decode t = inl (Exec id (val r)) ->
  In (SrcLoop, resp) (received (p_srv (w_sv w)) c) -> response_id resp = Some id ->
  (exists e, from_value A (val r) = inr e /\ resp = RError (Some id) e) \/
  exists call res, from_value A (val r) = inl call /\ is_stream A call = false /\ ran a w id (val r) call res /\
    resp = Response_method id res.
Proof.
  intros Hr Hc Ho [_ Own] Ee Ed Hin Hid. destruct (parts _ _ _ _ _ a w Hr) as [Hcl Hp].
  destruct (PumpProofs.refines decode encode a (w_sv w) Hp) as (es & Es).
  destruct (inv_run a es) as (done & q & I). rewrite <- Es in I.
  destruct (I_sent _ _ _ _ I) as (rest & Sent & _).
  apply In_from_loop in Hin. unfold received in Hin.
  destruct (nth_error (st_conns (p_srv (w_sv w))) c) as [cn|] eqn:Ec; [|contradiction].
  destruct (I_loop _ _ _ _ I c cn Ec) as [P _]. apply (prefix_In _ _ _ P) in Hin.
  unfold outs_to in Hin. apply in_map_iff in Hin as ([c' resp'] & Q & Hin). cbn in Q. subst resp'.
  apply filter_In in Hin as [Hin Q]. cbn in Q. apply PeanoNat.Nat.eqb_eq in Q. subst c'.
  destruct (seq_out done (seq_init a) q (I_run _ _ _ _ I) c resp Hin) as [[]|(l1 & m & l2 & q1 & q2 & -> & R1 & R2 & R3)].
  rewrite <- app_assoc in Sent. cbn in Sent.
  assert (Hm : In (c, m) (st_sent (p_srv (w_sv w)))) by (rewrite Sent; apply in_app_iff; right; now left).
  destruct (ours_exec a w c m Hr Ho Hm) as [(id' & t' & r' & S1 & S2 & S3 & -> & S5)|(er & ->)].
  2:{ cbn in R2. injection R2 as <-. cbn in R3. apply app_inv_head in R3. injection R3 as <-. discriminate. }
  assert (id' = id /\ val r' = val r) as [Ei Ev].
  { assert (id' = id) as ->.
    { cbn in R2. destruct (from_value A (val r')) as [call|er].
      - destruct (is_stream A call).
        + destruct (open_stream A _ call); [|discriminate]. injection R2 as <-. cbn in R3.
          exfalso. rewrite <- (app_nil_r (q_outs q1)) in R3 at 1. apply app_inv_head in R3. discriminate.
        + destruct (run_method A _ call) as [[a' [d|er]]|]; [| |discriminate]; injection R2 as <-; cbn in R3;
          apply app_inv_head in R3; injection R3 as <-; cbn in Hid; congruence.
      - injection R2 as <-. cbn in R3. apply app_inv_head in R3. injection R3 as <-. cbn in Hid. congruence. }
    split; [reflexivity|]. assert (t' = t) as -> by (now apply Own). congruence. }
  subst id'. rewrite Ev in *.
  cbn in R2. destruct (from_value A (val r)) as [call|er] eqn:Ef.
  2:{ left. exists er. split; [reflexivity|]. injection R2 as <-. cbn in R3. apply app_inv_head in R3. now injection R3 as <-. }
  right.
  destruct (is_stream A call) eqn:Est.
  { destruct (open_stream A _ call); [|discriminate]. injection R2 as <-. cbn in R3.
    exfalso. rewrite <- (app_nil_r (q_outs q1)) in R3 at 1. apply app_inv_head in R3. discriminate. }
  destruct (run_method A (q_app q1) call) as [[a' res]|] eqn:Er; [|discriminate].
  exists call, res. split; [reflexivity|]. split; [exact Est|]. split.
  - exists c, l1, (l2 ++ rest), q1, a'. split; [exact Sent|]. split; [exact Ho|]. split; [exact R1|]. split; [exact Er|]. split.
    + exists q2. split; [|destruct res; injection R2 as <-; reflexivity].
      rewrite (seq_run_snoc _ _ _ q1 R1). cbn. rewrite Ef, Est, Er. exact R2.
    + intros i Hi. apply (calls_once a w id); auto. exists c, (val r). split; [|exact Ho].
      rewrite Sent, nth_error_app2 by apply le_n. now rewrite Nat.sub_diag.
  - destruct res; injection R2 as <-; cbn in R3; apply app_inv_head in R3; injection R3 as <-; reflexivity.
Qed.

Lemma ours_conn a w x s : wreachable a w -> In x (w_links w) -> nth_error (p_socks (w_sv w)) (ln_pump x) = Some s -> is_ours w (sk_conn s).
Proof. intros _ Hx E. exists x, s. auto. Qed.

(** A response with the id of one of the client's own calls. *)
Lemma response_own a w c o resp : wreachable a w -> is_ours w c -> In (o, resp) (received (p_srv (w_sv w)) c) ->
  (exists id t r, response_id resp = Some id /\ (id <= 2 ^ 53)%N /\ stuff (w_cl w) (id, t) /\ enc id r = Some t /\
     decode t = inl (Exec id (val r)) /\ In (c, inl (Exec id (val r))) (st_sent (p_srv (w_sv w)))) \/
  (exists e, resp = RError None e).
Proof.
  intros Hr Ho Hin. destruct (parts _ _ _ _ _ a w Hr) as [Hcl Hp].
  destruct (PumpProofs.refines decode encode a (w_sv w) Hp) as (es & Es). rewrite Es in Hin.
  destruct (no_cross_talk a es c o resp Hin) as (m & Hm & An). rewrite <- Es in Hm.
  destruct (ours_exec a w c m Hr Ho Hm) as [(id & t & r & S1 & S2 & S3 & -> & S5)|(e & ->)]; cbn in An.
  - left. exists id, t, r. repeat split; auto.
  - right. eauto.
Qed.

Lemma msg_response a w m : wreachable a w -> In m (cl_msgs (w_cl w)) ->
  exists c o resp, is_ours w c /\ In (o, resp) (received (p_srv (w_sv w)) c) /\ read (encode resp) = Some (fst m).
Proof.
  intros Hr Hm. destruct (parts _ _ _ _ _ a w Hr) as [Hcl Hp].
  destruct (wi_msgs _ _ (winv_inv _ _ _ _ _ a w Hr) m Hm) as (x & s & t & Hx & E & Ht & Q).
  destruct (frames_out decode encode a (w_sv w) (ln_pump x) s Hp E) as (n & O & _).
  apply In_firstn in Ht. rewrite O in Ht. apply in_map_iff in Ht as (resp & <- & Ht). apply In_firstn in Ht.
  unfold responses in Ht. apply in_map_iff in Ht as ([o resp'] & <- & Ht). cbn in Q.
  exists (sk_conn s), o, resp'. split; [now apply (ours_conn a w x)|]. split; [exact Ht | exact Q].
Qed.

(** What a message says to a listener for [id]. *)
Lemma msg_for a w m id : wreachable a w -> In m (cl_msgs (w_cl w)) -> same (fst (fst m)) id = true -> (id <= 2 ^ 53)%N ->
  exists c o resp t r d, is_ours w c /\ In (o, resp) (received (p_srv (w_sv w)) c) /\
    (resp = RMethod id d \/ resp = RStream id d) /\ snd (fst m) = data d /\
    stuff (w_cl w) (id, t) /\ enc id r = Some t /\ decode t = inl (Exec id (val r)) /\
    In (c, inl (Exec id (val r))) (st_sent (p_srv (w_sv w))).
Proof.
  intros Hr Hm Hs Hid. destruct (msg_response a w m Hr Hm) as (c & o & resp & Ho & Hin & Q).
  destruct (response_own a w c o resp Hr Ho Hin) as [(id' & t & r & I1 & I2 & I3 & I4 & I5 & I6)|(e & ->)].
  2:{ rewrite (un_error _ _ _ _ _ _ _ U) in Q. discriminate. }
  destruct resp as [i d|i d|i e]; cbn in I1.
  - injection I1 as ->. destruct (un_method _ _ _ _ _ _ _ U id' d I2) as (k & Q' & Sk). rewrite Q' in Q. injection Q as Q.
    rewrite <- Q in Hs. cbn in Hs. rewrite Sk in Hs by assumption. apply N.eqb_eq in Hs. subst id'.
    exists c, o, (RMethod id d), t, r, d. rewrite <- Q. repeat split; auto.
  - injection I1 as ->. destruct (un_stream _ _ _ _ _ _ _ U id' d I2) as (k & Q' & Sk). rewrite Q' in Q. injection Q as Q.
    rewrite <- Q in Hs. cbn in Hs. rewrite Sk in Hs by assumption. apply N.eqb_eq in Hs. subst id'.
    exists c, o, (RStream id d), t, r, d. rewrite <- Q. repeat split; auto.
  - rewrite (un_error _ _ _ _ _ _ _ U) in Q. discriminate.
Qed.

Theorem settled_by_handler a w0 r t es d :
  wreachable a w0 -> user (w_cl w0) = true -> enc (bump (cl_id (w_cl w0))) r = Some t ->
  (forall call, from_value A (val r) = inl call -> is_stream A call = false) ->
  let w := wrun (wnext w0 (WClient (URequest r))) es in
  countable (w_cl w) -> settled w (length (cl_subs (w_cl w0))) d ->
  decode t = inl (Exec (bump (cl_id (w_cl w0))) (val r)) /\
  exists call d0, from_value A (val r) = inl call /\ d = data d0 /\
    ran a w (bump (cl_id (w_cl w0))) (val r) call (inl d0).
Proof.
  intros Hr0 Hu He Hst w Hc (s & E & _ & Seen).
  set (id := bump (cl_id (w_cl w0))) in *. set (j := length (cl_subs (w_cl w0))) in *.
  assert (Hr1 : wreachable a (wnext w0 (WClient (URequest r)))) by (now apply wreach_next).
  assert (Hr : wreachable a w) by (now apply wreach_run).
  assert (Hc1 : countable (w_cl (wnext w0 (WClient (URequest r))))).
  { clear - Hc. subst w. revert Hc. generalize (wnext w0 (WClient (URequest r))). induction es as [|e es IH]; intros w; [auto|].
    cbn. intros H. apply IH in H. eapply wcount_back. exact H. }
  assert (M : made id t j w). { apply (made_run a); auto. now apply made_start with (a := a). }
  destruct M as [Own Key]. destruct (parts _ _ _ _ _ a w Hr) as [Hcl Hp].
  unfold keys in Key. rewrite nth_error_map, E in Key. injection Key as Eid Ereq.
  destruct (request_settles enc read same (w_cl w) j s Hcl E Ereq) as [[Z|(d' & Sd & i & k & ok & _ & Hn & Hs & _)] _]; [congruence|].
  rewrite Sd in Seen. injection Seen as ->. rewrite Eid in Hs.
  pose proof (id_small enc read same _ Hcl) as Sm.
  assert (Hid : (id <= 2 ^ 53)%N) by (destruct Own; lia).
  destruct (msg_for a w (k, d, ok) id Hr (nth_error_In _ _ Hn) Hs Hid) as (c & o & resp & t' & r' & d0 & Ho & Hin & Hresp & Ed & S1 & S2 & S3 & S4).
  cbn in Ed. assert (t' = t) as -> by (now apply Own).
  assert (S3' : decode t = inl (Exec id (val r))).
  { destruct (un_request _ _ _ _ _ _ _ U id r t) as [Q|(e & Q)]; auto; [|congruence].
    pose proof (bump_pos (cl_id (w_cl w0))). fold id in H. lia. }
  assert (Ev : val r' = val r) by congruence. rewrite Ev in *. split; [exact S3'|].
  destruct o as [|tk].
  - destruct (loop_ran a w c id r t resp) as [(e & Ef & _)|(call & res & Ef & _ & Ran & Er)]; auto.
    { now destruct Hresp as [-> | ->]. }
    + exfalso. destruct (PumpProofs.refines decode encode a (w_sv w) Hp) as (es' & Es').
      (* an undecodable call has an error response only *)
      destruct (inv_run a es') as (done & q & I). rewrite <- Es' in I.
      apply In_from_loop in Hin. unfold received in Hin.
      destruct (nth_error (st_conns (p_srv (w_sv w))) c) as [cn|] eqn:Ec; [|contradiction].
      destruct (I_loop _ _ _ _ I c cn Ec) as [P _]. apply (prefix_In _ _ _ P) in Hin.
      unfold outs_to in Hin. apply in_map_iff in Hin as ([c' resp'] & Q & Hin). cbn in Q. subst resp'.
      apply filter_In in Hin as [Hin Q]. cbn in Q. apply PeanoNat.Nat.eqb_eq in Q. subst c'.
      destruct (seq_out done (seq_init a) q (I_run _ _ _ _ I) c resp Hin) as [[]|(l1 & m & l2 & q1 & q2 & -> & R1 & R2 & R3)].
      destruct (I_sent _ _ _ _ I) as (rest & Sent & _). rewrite <- app_assoc in Sent. cbn in Sent.
      assert (Hm : In (c, m) (st_sent (p_srv (w_sv w)))) by (rewrite Sent; apply in_app_iff; right; now left).
      destruct (ours_exec a w c m Hr Ho Hm) as [(id' & t' & r2 & X1 & X2 & X3 & -> & X5)|(er & ->)].
      2:{ cbn in R2. injection R2 as <-. cbn in R3. apply app_inv_head in R3. injection R3 as <-. destruct Hresp; discriminate. }
      cbn in R2. destruct (from_value A (val r2)) as [call|er] eqn:Ef2.
      * destruct (is_stream A call) eqn:Is.
        { destruct (open_stream A _ call); [|discriminate]. injection R2 as <-. cbn in R3.
          rewrite <- (app_nil_r (q_outs q1)) in R3 at 1. apply app_inv_head in R3. discriminate. }
        destruct (run_method A _ call) as [[a' [d1|er]]|]; [| |discriminate]; injection R2 as <-; cbn in R3;
          apply app_inv_head in R3; injection R3 as <-; destruct Hresp as [Hq|Hq]; try discriminate.
        injection Hq as -> ->. assert (t' = t) as -> by (now apply Own). assert (val r2 = val r) as Q by congruence. congruence.
      * injection R2 as <-. cbn in R3. apply app_inv_head in R3. injection R3 as <-. destruct Hresp; discriminate.
    + exists call, d0. split; [exact Ef|]. split; [exact Ed|].
      assert (res = inl d0) as <-; [|exact Ran].
      destruct res as [y|y], Hresp as [Hq|Hq]; rewrite Hq in Er; try discriminate Er. injection Er as ->. reflexivity.
  - exfalso. destruct (PumpProofs.refines decode encode a (w_sv w) Hp) as (es' & Es'). rewrite Es' in Hin.
    destruct (task_of a es' c tk resp Hin) as (v & call & i' & V1 & V2 & V3 & V4). rewrite <- Es' in V1.
    destruct (ours_exec a w c _ Hr Ho V1) as [(id' & t' & r2 & X1 & X2 & X3 & X4 & X5)|(er & X)]; [|discriminate].
    injection X4 as -> ->. assert (id' = id) as ->. { destruct Hresp as [-> | ->]; cbn in V4; congruence. }
    assert (t' = t) as -> by (now apply Own). assert (val r2 = val r) as Q by congruence. rewrite Q in V2.
    rewrite (Hst _ V2) in V3. discriminate.
Qed.
End Codecs.
End E2ESafe.
