(** Streams: what a listener hears. *)
From Coq Require Import List Arith NArith Bool Lia.
From Verif Require Import Util Server ServerSpec ServerProofs ServerLemmas Pump PumpSpec PumpProofs.
From Verif Require Import Client ClientSpec ClientProofs ClientSockProofs E2E E2ESpec E2EStreamSpec E2EProofs E2ESafe.
From Verif Require Import E2ELive.
Import ListNotations.

Section E2EStream.
Context {R text K D : Type} (enc : N -> R -> option text) (read : text -> option (K * D)) (same : K -> N -> bool).
Context {A : app} (decode : text -> msg A) (encode : response A -> text).
Local Notation world := (world text K D A).
Local Notation wevent := (wevent R text A).
Local Notation client := (client text K D).
Local Notation wnext := (wnext enc read same decode encode).
Local Notation wrun := (wrun enc read same decode encode).
Local Notation cnext := (cnext enc read same).
Local Notation pnext := (pnext decode encode).
Local Notation creachable := (creachable enc read same).
Local Notation preachable := (preachable decode encode).
Local Notation wreachable := (wreachable enc read same decode encode).
Implicit Types (w : world).

(** ** Messages for one id *)
Definition tell (id : N) (m : K * D) : list D := if same (fst m) id then [snd m] else [].
Definition told (id : N) (l : list (K * D * bool)) : list D := flat_map (tell id) (map fst l).
Definition tells (id : N) (t : text) : list D := match read t with Some m => tell id m | None => [] end.

Lemma told_app id l l' : told id (l ++ l') = told id l ++ told id l'.
Proof. unfold told. now rewrite map_app, flat_map_app. Qed.

Lemma msgs_kept c e : (forall n t, e <> NMessage n t) -> map fst (cl_msgs (cnext c e)) = map fst (cl_msgs c).
Proof.
  intros N. destruct (effect_ok enc read same c e) as (c' & F & T). apply talk_parts in T as (_ & _ & _ & _ & _ & T).
  rewrite T. clear T. destruct F; try reflexivity.
  - cbn. unfold spoil. apply map_upd_same. reflexivity.
  - unfold visit. destruct (nth_error _ _) as [s|]; [|reflexivity]. cbn zeta. now destruct (su_live s && _).
  - exfalso. eapply N. reflexivity.
Qed.

Lemma flat_none {X Y} (f : X -> list Y) l : (forall x, In x l -> f x = []) -> flat_map f l = [].
Proof. induction l as [|x l IH]; cbn; intros H; [reflexivity|]. rewrite (H x), IH; auto. Qed.
Lemma flat_none_inv {X Y} (f : X -> list Y) l x : flat_map f l = [] -> In x l -> f x = [].
Proof.
  intros H Hx. destruct (f x) as [|y r] eqn:E; [reflexivity|]. exfalso.
  assert (I : In y (flat_map f l)) by (apply in_flat_map; exists x; rewrite E; cbn; auto). rewrite H in I. contradiction.
Qed.

(** All messages for [id] come from link [x], in order, if no other link has delivered one. *)
Definition only id w (x : link) : Prop := forall y s, In y (w_links w) -> ln_sock y <> ln_sock x ->
  nth_error (p_socks (w_sv w)) (ln_pump y) = Some s -> flat_map (tells id) (firstn (ln_down y) (sk_out s)) = [].

Lemma told_by a w id : wreachable a w -> forall x s, In x (w_links w) -> nth_error (p_socks (w_sv w)) (ln_pump x) = Some s ->
  only id w x -> told id (cl_msgs (w_cl w)) = flat_map (tells id) (firstn (ln_down x) (sk_out s)).
Proof.
  intros Hr. pattern w. revert w Hr. apply wreach_ind; [intros x s []|].
  intros w e Hr IH. destruct (parts _ _ _ _ _ a w Hr) as [Hc Hp]. pose proof (winv_inv _ _ _ _ _ a w Hr) as W.
  destruct (wmoves_ok enc read same decode encode w e) as [e | e ce N1 N2 | e pe N | n L Un P | l x0 id0 t s0 E1 E2 E3 E4 | l x0 t s0 E1 E2 E3 E4 E5];
    intros x s Hx Es On; cbn [w_cl w_sv w_links] in *.
  - now apply IH.
  - unfold told. rewrite msgs_kept by assumption. now apply (IH x s).
  - destruct (wi_link _ _ W x Hx) as (_ & s1 & Es1 & _ & _ & V).
    destruct (sock_next decode encode (w_sv w) pe _ s1 Es1) as (s' & Es' & _ & (o & O) & _). assert (s' = s) as -> by congruence.
    rewrite O, firstn_app_le by assumption. apply (IH x s1); auto.
    intros y s2 Hy Ny Es2. destruct (wi_link _ _ W y Hy) as (_ & s3 & Es3 & _ & _ & V3). assert (s3 = s2) as -> by congruence.
    destruct (sock_next decode encode (w_sv w) pe _ s2 Es2) as (s4 & Es4 & _ & (o4 & O4) & _).
    specialize (On y s4 Hy Ny Es4). now rewrite O4, firstn_app_le in On.
  - assert (Q : p_socks (pnext (w_sv w) PUpgrade) =
                p_socks (w_sv w) ++ [mkSock (length (st_conns (p_srv (w_sv w)))) true None [] []]).
    { cbn [Pump.pnext]. apply PeanoNat.Nat.eqb_neq in P. now rewrite P. }
    assert (Old : forall x s, nth_error (p_socks (w_sv w)) (ln_pump x) = Some s ->
                nth_error (p_socks (pnext (w_sv w) PUpgrade)) (ln_pump x) = Some s).
    { intros y s1 E. rewrite Q, nth_error_app1; [exact E | now apply nth_some_lt in E]. }
    apply in_app_iff in Hx as [Hx|[<-|[]]].
    + destruct (wi_link _ _ W x Hx) as (_ & s1 & Es1 & _). rewrite (Old x s1 Es1) in Es. injection Es as ->.
      apply IH; auto. intros y s2 Hy Ny Es2. apply (On y s2); auto. apply in_app_iff. now left.
    + cbn [ln_down firstn flat_map]. unfold told. apply flat_none. intros m Hm. apply in_map_iff in Hm as (m1 & <- & Hm).
      destruct (wi_msgs _ _ W m1 Hm) as (y & s2 & t & Hy & Es2 & Ht & Rd).
      assert (Z : flat_map (tells id) (firstn (ln_down y) (sk_out s2)) = []).
      { apply (On y s2); [apply in_app_iff; now left | | now apply Old].
        cbn [ln_sock]. intros Z. assert (linked_sock w n = true) by (apply linked_sock_in; eauto). congruence. }
      pose proof (flat_none_inv _ _ t Z Ht) as Z'. unfold tells in Z'. now rewrite Rd in Z'.
  - set (f := fun x => mkLink (ln_sock x) (ln_pump x) (S (ln_up x)) (ln_down x)) in *.
    assert (Back : forall y, In y (upd l f (w_links w)) -> exists y', In y' (w_links w) /\ ln_sock y' = ln_sock y /\ ln_pump y' = ln_pump y /\ ln_down y' = ln_down y).
    { intros y Hy. apply In_upd in Hy as (y' & Hy & [-> | ->]); exists y'; auto. }
    assert (Forth : forall y, In y (w_links w) -> exists y', In y' (upd l f (w_links w)) /\ ln_sock y' = ln_sock y /\ ln_pump y' = ln_pump y /\ ln_down y' = ln_down y).
    { intros y Hy. destruct (nth_upd_in' l f _ x0 y E1 Hy) as [I| ->]; [exists y; auto|]. exists (f x0). split; [now apply upd_in | auto]. }
    destruct (Back x Hx) as (x' & Hx' & B1 & B2 & B3).
    destruct (wi_link _ _ W x' Hx') as (_ & s1 & Es1 & _ & _ & V).
    destruct (sock_next decode encode (w_sv w) (PFrame (ln_pump x0) (FText t)) _ s1 Es1) as (s' & Es' & _ & (o & O) & _).
    rewrite B2 in Es'. assert (s' = s) as -> by congruence. rewrite <- B3, O, firstn_app_le by assumption. apply IH; auto.
    intros y s2 Hy Ny Es2. destruct (wi_link _ _ W y Hy) as (_ & s3 & Es3 & _ & _ & V3). assert (s3 = s2) as -> by congruence.
    destruct (sock_next decode encode (w_sv w) (PFrame (ln_pump x0) (FText t)) _ s2 Es2) as (s4 & Es4 & _ & (o4 & O4) & _).
    destruct (Forth y Hy) as (y' & Hy' & F1 & F2 & F3).
    specialize (On y' s4 Hy'). rewrite F1, F2, F3, <- B1 in On. specialize (On Ny Es4). now rewrite O4, firstn_app_le in On.
  - set (f := fun x => mkLink (ln_sock x) (ln_pump x) (ln_up x) (S (ln_down x))) in *.
    assert (Hx0 := nth_error_In _ _ E1).
    assert (New : told id (cl_msgs (cnext (w_cl w) (NMessage (ln_sock x0) t))) = told id (cl_msgs (w_cl w)) ++ tells id t).
    { cbn [Client.cnext]. rewrite E4, E5. unfold tells. destruct (read t) as [[k d]|]; [|now rewrite app_nil_r].
      cbn [set_disp cl_msgs]. rewrite told_app. unfold told at 2. cbn. now rewrite app_nil_r. }
    rewrite New. clear New.
    assert (Hlen : forall i, nth_error (w_links w) i = Some x0 -> i = l).
    { intros i Hi. apply (proj1 (NoDup_nth_error (map ln_sock (w_links w))) (wi_socks _ _ W)).
      - rewrite map_length. now apply nth_some_lt in Hi.
      - now rewrite !nth_error_map, Hi, E1. }
    destruct (In_nth_error _ _ Hx) as (l' & Hl'). rewrite nth_upd in Hl'.
    destruct (Nat.eqb_spec l l') as [El|Nl].
    + subst l'. rewrite E1 in Hl'. injection Hl' as <-. unfold f in Es. cbn [ln_pump] in Es. assert (s0 = s) as -> by congruence.
      change (ln_down (f x0)) with (S (ln_down x0)). rewrite (firstn_snoc _ _ _ E3), flat_map_app.
      cbn [flat_map]. rewrite app_nil_r. f_equal. apply IH; auto.
      intros y s2 Hy Ny Es2. apply (On y s2); auto.
      destruct (nth_upd_in' l f _ x0 y E1 Hy) as [I| ->]; [exact I | congruence].
    + assert (Hx' := nth_error_In _ _ Hl').
      assert (Ns : ln_sock x0 <> ln_sock x).
      { intros Z. apply Nl. apply (proj1 (NoDup_nth_error (map ln_sock (w_links w))) (wi_socks _ _ W)).
        - rewrite map_length. now apply nth_some_lt in E1.
        - rewrite !nth_error_map, E1, Hl'. cbn. now rewrite Z. }
      pose proof (On (f x0) s0 (upd_in l f _ x0 E1) Ns E2) as Z.
      change (ln_down (f x0)) with (S (ln_down x0)) in Z. rewrite (firstn_snoc _ _ _ E3), flat_map_app in Z.
      apply app_eq_nil in Z as [Z1 Z2]. cbn in Z2. rewrite app_nil_r in Z2. rewrite Z2, app_nil_r. apply (IH x s); auto.
      intros y s2 Hy Ny Es2. destruct (nth_upd_in' l f _ x0 y E1 Hy) as [I| ->].
      * now apply (On y s2).
      * assert (s2 = s0) as -> by congruence. exact Z1.
Qed.

(** ** The texts written for a connection *)
Definition says (id : N) (r : response A) : list D := tells id (encode r).

Lemma written_says a w x s id : wreachable a w -> In x (w_links w) -> nth_error (p_socks (w_sv w)) (ln_pump x) = Some s ->
  exists n, flat_map (tells id) (firstn (ln_down x) (sk_out s)) = flat_map (says id) (map snd (firstn n (received (p_srv (w_sv w)) (sk_conn s)))).
Proof.
  intros Hr Hx Es. destruct (parts _ _ _ _ _ a w Hr) as [Hc Hp].
  destruct (frames_out decode encode a (w_sv w) (ln_pump x) s Hp Es) as (n & O & _).
  exists (Nat.min (ln_down x) n). rewrite O, firstn_map, firstn_firstn. unfold responses. rewrite firstn_map.
  rewrite !flat_map_concat_map, !map_map. reflexivity.
Qed.

Lemma from_task_prefix t n (l : list (src * response A)) : prefix (from_task t (firstn n l)) (from_task t l).
Proof.
  rewrite <- (firstn_skipn n l) at 2. unfold from_task. rewrite filter_app, map_app. eexists. reflexivity.
Qed.

Lemma flat_prefix {X Y} (f : X -> list Y) l l' : prefix l l' -> prefix (flat_map f l) (flat_map f l').
Proof. intros (r & ->). rewrite flat_map_app. eexists. reflexivity. Qed.

(** Only the task [t] says anything. *)
Lemma only_task id t l : (forall o r, In (o, r) l -> says id r <> [] -> o = SrcTask t) ->
  flat_map (says id) (map snd l) = flat_map (says id) (from_task t l).
Proof.
  induction l as [|[o r] l IH]; intros H; [reflexivity|]. cbn [map snd flat_map].
  rewrite IH by (intros o' r' I; apply H; now right). unfold from_task. cbn [filter fst].
  destruct (says id r) as [|d ds] eqn:E.
  - destruct o as [|u]; [reflexivity|]. destruct (Nat.eqb u t); [|reflexivity]. cbn. now rewrite E.
  - rewrite (H o r (or_introl eq_refl)) by congruence. rewrite PeanoNat.Nat.eqb_refl. cbn. now rewrite E.
Qed.

(** ** The start of a stream *)
Lemma seq_start (l : list (nat * msg A)) : forall q q', seq_run q l = Some q' -> forall t c id,
  nth_error (q_starts q') t = Some (c, id) -> length (q_starts q) <= t ->
  exists l1 v l2 q1 q2 call, l = l1 ++ (c, inl (Exec id v)) :: l2 /\ seq_run q l1 = Some q1 /\
    length (q_starts q1) = t /\ seq_step q1 (c, inl (Exec id v)) = Some q2 /\
    from_value A v = inl call /\ is_stream A call = true /\ open_stream A (q_app q1) call = Some (q_app q2).
Proof.
  induction l as [|m l IH] using rev_ind; intros q q' H t c id Hn Hl.
  - cbn in H. injection H as ->. apply nth_some_lt in Hn. lia.
  - rewrite seq_run_app in H. destruct (seq_run q l) as [q1|] eqn:E; [|discriminate].
    cbn in H. destruct (seq_step q1 m) as [q2|] eqn:E2; [|discriminate]. injection H as ->.
    assert (Old : nth_error (q_starts q1) t = Some (c, id) -> exists l1 v l2 q1 q2 call, l ++ [m] = l1 ++ (c, inl (Exec id v)) :: l2 /\ seq_run q l1 = Some q1 /\
      length (q_starts q1) = t /\ seq_step q1 (c, inl (Exec id v)) = Some q2 /\
      from_value A v = inl call /\ is_stream A call = true /\ open_stream A (q_app q1) call = Some (q_app q2)).
    { intros H. destruct (IH q q1 E t c id H Hl) as (l1 & v & l2 & q3 & q4 & call & -> & H1).
      exists l1, v, (l2 ++ [m]), q3, q4, call. split; [now rewrite <- app_assoc | exact H1]. }
    destruct m as [c0 [[id0 v|id0]|err]]; cbn in E2.
    + destruct (from_value A v) as [call|er] eqn:F.
      * destruct (is_stream A call) eqn:S.
        -- destruct (open_stream A (q_app q1) call) as [a'|] eqn:O; [|discriminate]. pose proof E2 as E3. injection E2 as <-. cbn in Hn.
           destruct (lt_eq_lt_dec t (length (q_starts q1))) as [[L| ->]|L].
           ++ rewrite nth_error_app1 in Hn by assumption. now apply Old.
           ++ rewrite nth_error_app2, Nat.sub_diag in Hn by apply le_n. cbn in Hn. injection Hn as -> ->.
              exists l, v, [], q1. eexists. exists call. split; [reflexivity|]. split; [exact E|]. split; [reflexivity|].
              split; [cbn; rewrite F, S, O; reflexivity|]. auto.
           ++ apply nth_some_lt in Hn. rewrite app_length in Hn. cbn in Hn. lia.
        -- destruct (run_method A _ call) as [[a' [d|er]]|]; [| |discriminate]; injection E2 as <-; now apply Old.
      * injection E2 as <-. now apply Old.
    + injection E2 as <-. now apply Old.
    + injection E2 as <-. now apply Old.
Qed.

(** ** Own texts *)
Lemma stream_adds c r t : user c = true -> enc (bump (cl_id c)) r = Some t ->
  cl_calls (cnext c (UStream r)) = cl_calls c ++ [bump (cl_id c)] /\ cl_id (cnext c (UStream r)) = bump (cl_id c) /\
  cl_subs (cnext c (UStream r)) = cl_subs c /\ cl_stores (cnext c (UStream r)) = cl_stores c ++ [bump (cl_id c)] /\
  cl_msgs (cnext c (UStream r)) = cl_msgs c /\ user (cnext c (UStream r)) = true.
Proof.
  intros Hu E. cbn [Client.cnext]. rewrite Hu. unfold subscribe. cbn zeta. cbn [cl_id set_id]. rewrite E.
  set (c1 := set_stores _ _). pose proof (talk_send c1 (bump (cl_id c), t)) as T. apply talk_parts in T as (T1 & T2 & T3 & T4 & T5 & T6).
  rewrite T1, T2, T3, T5, T6. unfold user in *. rewrite T4. subst c1. cbn. auto 10.
Qed.

Lemma own_stream c r t : creachable c -> user c = true -> enc (bump (cl_id c)) r = Some t ->
  countable (cnext c (UStream r)) -> own (bump (cl_id c)) t (cnext c (UStream r)).
Proof.
  intros Hr Hu E Hc. destruct (stream_adds c r t Hu E) as (C & I & _).
  assert (B : bump (cl_id c) = (cl_id c + 1)%N).
  { apply (bump_next enc read same c Hr). unfold countable in *. rewrite C in Hc. exact Hc. }
  split; [rewrite I; lia|].
  intros t' H. apply (stuff_next enc read same) in H as [H|(r' & [X|X] & E' & _)]; auto; try discriminate.
  - apply (stuff_ok enc read same) in H as [H _]; [|assumption]. cbn in H. lia.
  - injection X as ->. cbn in E'. congruence.
Qed.

Lemma own_wnext a id t w e : wreachable a w -> countable (w_cl (wnext w e)) -> own id t (w_cl w) -> own id t (w_cl (wnext w e)).
Proof.
  intros Hr Hc H. destruct (parts _ _ _ _ _ a w Hr) as [Hcl _]. revert Hc.
  destruct (wmoves_ok enc read same decode encode w e); cbn [w_cl]; intros Hc; auto; now apply own_next.
Qed.

Lemma own_wrun a id t es : forall w, wreachable a w -> countable (w_cl (wrun w es)) -> own id t (w_cl w) -> own id t (w_cl (wrun w es)).
Proof.
  induction es as [|e es IH] using rev_ind; intros w Hr Hc H; [exact H|].
  rewrite wrun_snoc in *. apply (own_wnext a); auto; [now apply wreach_run|].
  apply IH; auto. eapply wcount_back. exact Hc.
Qed.

Lemma wcount_run es : forall w, countable (w_cl (wrun w es)) -> countable (w_cl w).
Proof. induction es as [|e es IH]; intros w H; [exact H|]. apply IH in H. eapply wcount_back. exact H. Qed.

(** ** What stays of an entry *)
Definition fixed (s : sub D) := (su_id s, su_req s, su_bad s, su_from s).
Lemma fixed_next c e j f : nth_error (map fixed (cl_subs c)) j = Some f -> nth_error (map fixed (cl_subs (cnext c e))) j = Some f.
Proof.
  intros H. destruct (effect_ok enc read same c e) as (c' & F & T). apply talk_parts in T as (_ & T & _).
  rewrite T. clear T.
  assert (Snoc : forall s, nth_error (map fixed (cl_subs c ++ [s])) j = Some f).
  { intros s. rewrite map_app, nth_error_app1; [exact H | now apply nth_some_lt in H]. }
  assert (Del : forall i n, map fixed (deleted i n (cl_subs c)) = map fixed (cl_subs c)).
  { intros i n. apply map_upd_same. intros s. now destruct s as [? ? ? []]. }
  destruct F; try exact H; try apply Snoc; cbn.
  - now rewrite Del.
  - unfold visit. destruct (nth_error (cl_subs c) (dp_next d)) as [s|]; [|exact H]. cbn zeta.
    destruct (su_live s && same (dp_key d) (su_id s)); [|exact H]. cbn. now rewrite map_upd_same.
  - now rewrite Del.
Qed.

Lemma fixed_run es : forall w j f, nth_error (map fixed (cl_subs (w_cl w))) j = Some f -> nth_error (map fixed (cl_subs (w_cl (wrun w es)))) j = Some f.
Proof.
  induction es as [|e es IH]; intros w j f H; [exact H|]. apply IH.
  destruct (cl_next enc read same decode encode w e) as [-> | (ce & ->)]; [exact H | now apply fixed_next].
Qed.

Lemma msgs_grow c e : exists l, map fst (cl_msgs (cnext c e)) = map fst (cl_msgs c) ++ l.
Proof.
  assert (Other : (forall n t, e <> NMessage n t) -> exists l, map fst (cl_msgs (cnext c e)) = map fst (cl_msgs c) ++ l).
  { intros H. exists []. now rewrite app_nil_r, msgs_kept. }
  destruct e; try (apply Other; discriminate). cbn [Client.cnext].
  destruct (idle c); [|exists []; now rewrite app_nil_r]. destruct (state_of c n); try (exists []; now rewrite app_nil_r).
  destruct (read t) as [[k d]|]; [|exists []; now rewrite app_nil_r]. cbn. rewrite map_app. eexists. reflexivity.
Qed.

Lemma msgs_run es : forall w, exists l, map fst (cl_msgs (w_cl (wrun w es))) = map fst (cl_msgs (w_cl w)) ++ l.
Proof.
  induction es as [|e es IH]; intros w; [exists []; now rewrite app_nil_r|]. destruct (IH (wnext w e)) as (l & H).
  change (wrun w (e :: es)) with (wrun (wnext w e) es). rewrite H.
  destruct (cl_next enc read same decode encode w e) as [-> | (ce & ->)]; [eauto|].
  destruct (msgs_grow (w_cl w) ce) as (l' & ->). exists (l' ++ l). now rewrite app_assoc.
Qed.

Lemma listen_adds c k id : user c = true -> nth_error (cl_stores c) k = Some id ->
  cl_subs (cnext c (UListen k)) = cl_subs c ++ [mkSub id false false true [] (done c) 0] /\ cl_msgs (cnext c (UListen k)) = cl_msgs c.
Proof. intros Hu E. cbn [Client.cnext]. rewrite Hu, E. split; reflexivity. Qed.

Section Codecs.
Context (val : R -> Json A) (data : Json A -> D).
Hypothesis U : understand enc read same decode encode val data.

Lemma says_item id v : (id <= 2 ^ 53)%N -> says id (item_response id v) = match v with inl d => [data d] | inr _ => [] end.
Proof.
  intros Hid. unfold says, tells. destruct v as [d|e]; cbn [item_response].
  - destruct (un_stream _ _ _ _ _ _ _ U id d Hid) as (k & -> & S). unfold tell. cbn [fst snd]. now rewrite S, N.eqb_refl.
  - now rewrite (un_error _ _ _ _ _ _ _ U).
Qed.

Lemma says_items id tk : (id <= 2 ^ 53)%N -> flat_map (says id) (map (item_response id) (tk_items tk)) = values data tk.
Proof.
  intros Hid. unfold values. rewrite !flat_map_concat_map, map_map. f_equal. apply map_ext. intros v. now apply says_item.
Qed.

(** A response that says something to [id] answers the call [id]. *)
Lemma says_own a w c o resp id : wreachable a w -> is_ours w c -> In (o, resp) (received (p_srv (w_sv w)) c) -> (id <= 2 ^ 53)%N ->
  says id resp <> [] -> response_id resp = Some id /\
  exists t r, stuff (w_cl w) (id, t) /\ enc id r = Some t /\ decode t = inl (Exec id (val r)) /\ In (c, inl (Exec id (val r))) (st_sent (p_srv (w_sv w))).
Proof.
  intros Hr Ho Hin Hid Hs. destruct (response_own enc read same decode encode val data U a w c o resp Hr Ho Hin) as [(id' & t & r & I1 & I2 & I3)|(e & ->)].
  2:{ exfalso. apply Hs. unfold says, tells. now rewrite (un_error _ _ _ _ _ _ _ U). }
  enough (id' = id) as -> by (split; [exact I1 | exists t, r; exact I3]).
  unfold says, tells in Hs. destruct resp as [i d|i d|i e]; cbn in I1.
  - injection I1 as ->. destruct (un_method _ _ _ _ _ _ _ U id' d I2) as (k & Q & Sk). rewrite Q in Hs. unfold tell in Hs. cbn in Hs.
    rewrite Sk in Hs by assumption. destruct (N.eqb_spec id' id); congruence.
  - injection I1 as ->. destruct (un_stream _ _ _ _ _ _ _ U id' d I2) as (k & Q & Sk). rewrite Q in Hs. unfold tell in Hs. cbn in Hs.
    rewrite Sk in Hs by assumption. destruct (N.eqb_spec id' id); congruence.
  - rewrite (un_error _ _ _ _ _ _ _ U) in Hs. congruence.
Qed.

(** The task that has sent a response to one of the client's connections. *)
Lemma task_streams a w c u resp id r t call : wreachable a w -> countable (w_cl w) -> is_ours w c -> own id t (w_cl w) ->
  enc id r = Some t -> decode t = inl (Exec id (val r)) -> from_value A (val r) = inl call ->
  In (SrcTask u, resp) (received (p_srv (w_sv w)) c) -> response_id resp = Some id ->
  exists tk, nth_error (st_tasks (p_srv (w_sv w))) u = Some tk /\ tk_conn tk = c /\ tk_id tk = id /\ streams a w id (val r) call tk /\
    prefix (from_task u (received (p_srv (w_sv w)) c)) (map (item_response id) (tk_items tk)) /\
    forall u' tk', nth_error (st_tasks (p_srv (w_sv w))) u' = Some tk' -> tk_id tk' = id -> is_ours w (tk_conn tk') -> u' = u.
Proof.
  intros Hr Hc Ho [_ Own] Ee Ed Ef Hin Hid. destruct (parts _ _ _ _ _ a w Hr) as [Hcl Hp].
  destruct (PumpProofs.refines decode encode a (w_sv w) Hp) as (es & Es).
  destruct (inv_run a es) as (done & q & I). rewrite <- Es in I.
  destruct (I_sent _ _ _ _ I) as (rest & Sent & _).
  assert (Start : forall u tk, nth_error (st_tasks (p_srv (w_sv w))) u = Some tk -> tk_id tk = id -> is_ours w (tk_conn tk) ->
    exists l1 l2 q1 q2, done = l1 ++ (tk_conn tk, inl (Exec id (val r))) :: l2 /\ seq_run (seq_init a) l1 = Some q1 /\
      length (q_starts q1) = u /\ seq_step q1 (tk_conn tk, inl (Exec id (val r))) = Some q2 /\
      is_stream A call = true /\ open_stream A (q_app q1) call = Some (q_app q2)).
  { intros u' tk' Et Ei Ho'. assert (S : nth_error (q_starts q) u' = Some (tk_conn tk', tk_id tk')).
    { rewrite <- (I_starts _ _ _ _ I), nth_error_map, Et. reflexivity. }
    destruct (seq_start done (seq_init a) q (I_run _ _ _ _ I) u' _ _ S) as (l1 & v & l2 & q1 & q2 & call' & S1 & S2 & S3 & S4 & S5 & S6 & S7); [cbn; lia|].
    rewrite Ei in *.
    assert (Hm : In (tk_conn tk', inl (Exec id v)) (st_sent (p_srv (w_sv w)))).
    { rewrite Sent, S1. apply in_app_iff. left. apply in_app_iff. right. now left. }
    destruct (ours_exec enc read same decode encode val data U a w _ _ Hr Ho' Hm) as [(id' & t' & r' & X1 & X2 & X3 & X4 & X5)|(er & X)]; [|discriminate].
    injection X4 as <- ->. assert (t' = t) as -> by (now apply Own). assert (val r' = val r) as Ev by congruence.
    rewrite Ev in *. assert (call' = call) as -> by congruence. exists l1, l2, q1, q2. auto 10. }
  pose proof Hin as Hin'. unfold received in Hin.
  destruct (nth_error (st_conns (p_srv (w_sv w))) c) as [cn|] eqn:Ec; [|contradiction].
  assert (Hf : In resp (from_task u (cn_out cn))) by (now apply In_from_task).
  destruct (nth_error (st_tasks (p_srv (w_sv w))) u) as [tk|] eqn:Et.
  2:{ rewrite (I_notask _ _ _ _ I c cn u Ec) in Hf; [contradiction | now apply nth_error_None]. }
  pose proof (I_task _ _ _ _ I c cn u tk Ec Et) as Q. destruct (Nat.eqb_spec (tk_conn tk) c) as [Eq|Ne].
  2:{ rewrite Q in Hf. contradiction. }
  destruct Q as [Q _].
  assert (Ei : tk_id tk = id).
  { apply (prefix_In _ _ _ Q) in Hf. apply in_map_iff in Hf as (it & <- & _). destruct it; cbn in Hid; congruence. }
  assert (Ho' : is_ours w (tk_conn tk)) by (now rewrite Eq).
  destruct (Start u tk Et Ei Ho') as (l1 & l2 & q1 & q2 & S1 & S2 & S3 & S4 & S5 & S6). rewrite Eq in *.
  assert (Pos : is_call w id (length l1)).
  { exists c, (val r). split; [|exact Ho]. rewrite Sent, S1, <- app_assoc, nth_error_app2 by apply le_n. now rewrite Nat.sub_diag. }
  exists tk. split; [reflexivity|]. split; [exact Eq|]. split; [exact Ei|]. split; [|split].
  - exists c, l1, (l2 ++ rest), q1, (q_app q2). split; [rewrite Sent, S1, <- app_assoc; reflexivity|]. split; [exact Ho|]. split; [exact S2|].
    split; [exact S6|]. split; [exists q2; split; [now rewrite (seq_run_snoc _ _ _ q1 S2) | reflexivity]|].
    rewrite S3. split; [exact Et|]. split; [exact Eq|]. split; [exact Ei|].
    intros i Hi. now apply (calls_once enc read same decode encode val data U a w id).
  - unfold received. rewrite Ec, <- Ei. exact Q.
  - intros u' tk' Et' Ei' Ho''. destruct (Start u' tk' Et' Ei' Ho'') as (l1' & l2' & q1' & q2' & S1' & S2' & S3' & _).
    assert (Pos' : is_call w id (length l1')).
    { exists (tk_conn tk'), (val r). split; [|exact Ho'']. rewrite Sent, S1', <- app_assoc, nth_error_app2 by apply le_n. now rewrite Nat.sub_diag. }
    pose proof (calls_once enc read same decode encode val data U a w id _ _ Hr Hc Pos Pos') as L.
    assert (l1' = l1) as ->.
    { rewrite S1 in S1'. apply (f_equal (firstn (length l1))) in S1'. rewrite L in S1' at 2.
      rewrite !firstn_app, !firstn_all, !Nat.sub_diag in S1'. cbn in S1'. now rewrite !app_nil_r in S1'. }
    congruence.
Qed.

(** A text that tells something is a response that says it. *)
Lemma resp_of a w id x s y : wreachable a w -> In x (w_links w) -> nth_error (p_socks (w_sv w)) (ln_pump x) = Some s ->
  In y (firstn (ln_down x) (sk_out s)) -> tells id y <> [] ->
  exists o resp, In (o, resp) (received (p_srv (w_sv w)) (sk_conn s)) /\ says id resp <> [].
Proof.
  intros Hr Hx Es Hy Ty. destruct (parts _ _ _ _ _ a w Hr) as [_ Hp]. destruct (frames_out decode encode a (w_sv w) (ln_pump x) s Hp Es) as (n & O & _).
  apply In_firstn in Hy. rewrite O in Hy. apply in_map_iff in Hy as (resp & <- & Hy). apply In_firstn in Hy.
  unfold responses in Hy. apply in_map_iff in Hy as ([o resp'] & <- & Hy). exists o, resp'. auto.
Qed.

Lemma link_ours w x s : In x (w_links w) -> nth_error (p_socks (w_sv w)) (ln_pump x) = Some s -> is_ours w (sk_conn s).
Proof. intros Hx Es. exists x, s. auto. Qed.

(** Only the link the call went over brings something for it. *)
Lemma only_link a w id v x s : wreachable a w -> countable (w_cl w) -> (id <= 2 ^ 53)%N ->
  In x (w_links w) -> nth_error (p_socks (w_sv w)) (ln_pump x) = Some s ->
  In (sk_conn s, inl (Exec id v)) (st_sent (p_srv (w_sv w))) -> only id w x.
Proof.
  intros Hr Hc Hid Hx Es He. destruct (parts _ _ _ _ _ a w Hr) as [Hcl _].
  assert (Ix := exec_sent enc read same decode encode val data U a w x s id _ Hr Hx Es He).
  intros x1 s1 Hx1 N1 Es1. apply flat_none. intros y1 Hy1. destruct (tells id y1) as [|d1 l1] eqn:E1; [reflexivity|]. exfalso.
  destruct (resp_of a w id x1 s1 y1 Hr Hx1 Es1 Hy1) as (o1 & resp1 & Hin1 & Hs1); [congruence|].
  destruct (says_own a w _ o1 resp1 id Hr (link_ours w x1 s1 Hx1 Es1) Hin1 Hid Hs1) as (_ & t1 & r1 & Y1 & Y2 & Y3 & Y4).
  assert (Ix1 := exec_sent enc read same decode encode val data U a w x1 s1 id _ Hr Hx1 Es1 Y4).
  pose proof (times_two (w_cl w) _ _ id N1 Ix1 Ix). pose proof (sent_once enc read same (w_cl w) id Hcl Hc). lia.
Qed.

(** Only the task of the call says something for it. *)
Lemma said_by_task a w c u tk id r t call : wreachable a w -> countable (w_cl w) -> is_ours w c -> own id t (w_cl w) -> (id <= 2 ^ 53)%N ->
  enc id r = Some t -> decode t = inl (Exec id (val r)) -> from_value A (val r) = inl call -> is_stream A call = true ->
  nth_error (st_tasks (p_srv (w_sv w))) u = Some tk -> tk_id tk = id -> is_ours w (tk_conn tk) ->
  forall o resp, In (o, resp) (received (p_srv (w_sv w)) c) -> says id resp <> [] -> o = SrcTask u.
Proof.
  intros Hr Hc Ho Own Hid Ee Ed Ef Is Et Ei Ho' o resp Hin Hs. destruct (says_own a w c o resp id Hr Ho Hin Hid Hs) as (Rid & _).
  destruct o as [|u1].
  - exfalso. destruct (loop_ran enc read same decode encode val data U a w c id r t resp Hr Hc Ho Own Ee Ed Hin Rid) as [(e & Z & _)|(call' & res & Z & Z' & _)].
    + congruence.
    + assert (call' = call) as -> by congruence. congruence.
  - f_equal. destruct (task_streams a w c u1 resp id r t call Hr Hc Ho Own Ee Ed Ef Hin Rid) as (tk1 & _ & _ & _ & _ & _ & V).
    symmetry. now apply (V u tk).
Qed.

(** A call that is answered names an item. *)
Lemma said_call a w c o resp id r t : wreachable a w -> countable (w_cl w) -> is_ours w c -> own id t (w_cl w) -> (id <= 2 ^ 53)%N ->
  enc id r = Some t -> decode t = inl (Exec id (val r)) -> In (o, resp) (received (p_srv (w_sv w)) c) -> says id resp <> [] ->
  exists call, from_value A (val r) = inl call.
Proof.
  intros Hr Hc Ho Own Hid Ee Ed Hin Hs. destruct (says_own a w c o resp id Hr Ho Hin Hid Hs) as (Rid & _).
  destruct o as [|u].
  - destruct (loop_ran enc read same decode encode val data U a w c id r t resp Hr Hc Ho Own Ee Ed Hin Rid) as [(e & _ & ->)|(call & res & Z & _)]; [|eauto].
    exfalso. apply Hs. unfold says, tells. now rewrite (un_error _ _ _ _ _ _ _ U).
  - destruct (parts _ _ _ _ _ a w Hr) as [_ Hp]. destruct (PumpProofs.refines decode encode a (w_sv w) Hp) as (es & Es).
    destruct (inv_run a es) as (done & q & I). rewrite <- Es in I. destruct (I_sent _ _ _ _ I) as (rest & Sent & _).
    unfold received in Hin. destruct (nth_error (st_conns (p_srv (w_sv w))) c) as [cn|] eqn:Ec; [|contradiction].
    assert (Hf : In resp (from_task u (cn_out cn))) by (now apply In_from_task).
    destruct (nth_error (st_tasks (p_srv (w_sv w))) u) as [tk|] eqn:Et.
    2:{ rewrite (I_notask _ _ _ _ I c cn u Ec) in Hf; [contradiction | now apply nth_error_None]. }
    pose proof (I_task _ _ _ _ I c cn u tk Ec Et) as Q. destruct (Nat.eqb_spec (tk_conn tk) c) as [Eq|Ne].
    2:{ rewrite Q in Hf. contradiction. }
    destruct Q as [Q _].
    assert (Ei : tk_id tk = id).
    { apply (prefix_In _ _ _ Q) in Hf. apply in_map_iff in Hf as (it & <- & _). destruct it; cbn in Rid; congruence. }
    assert (S : nth_error (q_starts q) u = Some (c, id)).
    { rewrite <- (I_starts _ _ _ _ I), nth_error_map, Et, <- Eq, <- Ei. reflexivity. }
    destruct (seq_start done (seq_init a) q (I_run _ _ _ _ I) u _ _ S) as (l1 & v & l2 & q1 & q2 & call & S1 & _ & _ & _ & S5 & _); [cbn; lia|].
    assert (Hm : In (c, inl (Exec id v)) (st_sent (p_srv (w_sv w)))).
    { rewrite Sent, S1. apply in_app_iff. left. apply in_app_iff. right. now left. }
    destruct (ours_exec enc read same decode encode val data U a w _ _ Hr Ho Hm) as [(id' & t' & r' & X1 & X2 & X3 & X4 & X5)|(er & X)]; [|discriminate].
    injection X4 as <- ->. assert (t' = t) as -> by (now apply Own). assert (val r' = val r) as <- by congruence. eauto.
Qed.

Lemma unread_silent a w id r t e : wreachable a w -> countable (w_cl w) -> own id t (w_cl w) -> (0 < id <= 2 ^ 53)%N ->
  enc id r = Some t -> from_value A (val r) = inr e -> told id (cl_msgs (w_cl w)) = [].
Proof.
  intros Hr Hc Own Hid Ee Ef. pose proof (winv_inv _ _ _ _ _ a w Hr) as W. unfold told. apply flat_none. intros m Hm.
  apply in_map_iff in Hm as (m' & <- & Hm). destruct (wi_msgs _ _ W m' Hm) as (x & s & y & Hx & Es & Hy & Rd).
  destruct (tell id (fst m')) as [|d l] eqn:E; [reflexivity|]. exfalso.
  destruct (resp_of a w id x s y Hr Hx Es Hy) as (o & resp & Hin & Hs); [unfold tells; rewrite Rd; congruence|].
  assert (Ho := link_ours w x s Hx Es). destruct (says_own a w _ o resp id Hr Ho Hin ltac:(lia) Hs) as (Rid & t' & r' & X1 & X2 & X3 & X4).
  assert (t' = t) as -> by (now apply Own).
  assert (Ed : decode t = inl (Exec id (val r))).
  { destruct (un_request _ _ _ _ _ _ _ U id r t) as [Q|(e' & Q)]; [lia | exact Ee | exact Q | congruence]. }
  destruct (said_call a w _ o resp id r t Hr Hc Ho Own ltac:(lia) Ee Ed Hin Hs) as (call & Z). congruence.
Qed.

(** The message that the call has become. *)
Lemma own_value a w c id r t v : wreachable a w -> is_ours w c -> own id t (w_cl w) -> (0 < id <= 2 ^ 53)%N -> enc id r = Some t ->
  In (c, inl (Exec id v)) (st_sent (p_srv (w_sv w))) -> v = val r.
Proof.
  intros Hr Ho [_ Own] Hid Ee Hin.
  destruct (ours_exec enc read same decode encode val data U a w _ _ Hr Ho Hin) as [(id' & t' & r' & X1 & X2 & X3 & X4 & X5)|(er & X)]; [|discriminate].
  injection X4 as <- ->. assert (t' = t) as -> by (now apply Own).
  destruct (un_request _ _ _ _ _ _ _ U id r t) as [Q|(e & Q)]; auto; congruence.
Qed.

(** Everything the client was told for the id of a stream call. *)
Lemma told_stream a w id r t call : wreachable a w -> countable (w_cl w) -> own id t (w_cl w) -> (id <= 2 ^ 53)%N ->
  enc id r = Some t -> (0 < id)%N -> from_value A (val r) = inl call -> is_stream A call = true ->
  told id (cl_msgs (w_cl w)) = [] \/
  exists tk, streams a w id (val r) call tk /\ prefix (told id (cl_msgs (w_cl w))) (values data tk).
Proof.
  intros Hr Hc Own Hid Ee Hpos Ef Is. destruct (parts _ _ _ _ _ a w Hr) as [Hcl Hp]. pose proof (winv_inv _ _ _ _ _ a w Hr) as W.
  destruct (told id (cl_msgs (w_cl w))) as [|d0 ds] eqn:Et; [now left|]. right. rewrite <- Et.
  (* a link that has delivered something for id *)
  assert (exists x s y, In x (w_links w) /\ nth_error (p_socks (w_sv w)) (ln_pump x) = Some s /\ In y (firstn (ln_down x) (sk_out s)) /\ tells id y <> [])
    as (x & s & y & Hx & Es & Hy & Ty).
  { assert (I : In d0 (told id (cl_msgs (w_cl w)))) by (rewrite Et; now left).
    unfold told in I. apply in_flat_map in I as (m & Hm & Hd). apply in_map_iff in Hm as (m' & <- & Hm).
    destruct (wi_msgs _ _ W m' Hm) as (x & s & y & Hx & Es & Hy & Rd). exists x, s, y. repeat split; auto.
    unfold tells. rewrite Rd. intros Z. rewrite Z in Hd. contradiction. }
  assert (Ho := link_ours w x s Hx Es).
  destruct (resp_of a w id x s y Hr Hx Es Hy Ty) as (o & resp & Hin & Hs).
  destruct (says_own a w _ o resp id Hr Ho Hin Hid Hs) as (Rid & t' & r' & X1 & X2 & X3 & X4).
  assert (t' = t) as -> by (now apply Own).
  assert (Ed : decode t = inl (Exec id (val r))).
  { destruct (un_request _ _ _ _ _ _ _ U id r t) as [Q|(e & Q)]; auto. congruence. }
  destruct o as [|u].
  { exfalso. destruct (loop_ran enc read same decode encode val data U a w (sk_conn s) id r t resp Hr Hc Ho Own Ee Ed Hin Rid) as [(e & Z & _)|(call' & res & Z & Z' & _)].
    - congruence.
    - assert (call' = call) as -> by congruence. congruence. }
  destruct (task_streams a w (sk_conn s) u resp id r t call Hr Hc Ho Own Ee Ed Ef Hin Rid) as (tk & T1 & T2 & T3 & T4 & T5 & _).
  exists tk. split; [exact T4|].
  rewrite (told_by a w id Hr x s Hx Es (only_link a w id _ x s Hr Hc Hid Hx Es X4)). destruct (written_says a w x s id Hr Hx Es) as (n & ->).
  rewrite (only_task id u).
  - rewrite <- (says_items id tk Hid). apply flat_prefix.
    destruct (from_task_prefix u n (received (p_srv (w_sv w)) (sk_conn s))) as (r1 & P1), T5 as (r2 & P2).
    exists (r1 ++ r2). now rewrite P2, P1, app_assoc.
  - intros o1 resp1 Hin1. apply In_firstn in Hin1. apply (said_by_task a w (sk_conn s) u tk id r t call); auto. now rewrite T2.
Qed.

Lemma hears_thinned id l r : hears same id l r -> thinned (told id l) r /\ (Forall (fun m => snd m = true) l -> told id l = r).
Proof.
  assert (Cons : forall k d (ok : bool) l, told id ((k, d, ok) :: l) = (if same k id then [d] else []) ++ told id l) by reflexivity.
  induction 1 as [|k d ok l r S _ [IH1 IH2]|k d ok l r S _ [IH1 IH2]|k d l r S _ [IH1 IH2]]; rewrite ?Cons, ?S.
  - split; [constructor | reflexivity].
  - split; [now constructor|]. intros F. inversion F; subst. cbn. now rewrite IH2.
  - split; [assumption|]. intros F. inversion F; subst. now apply IH2.
  - split; [now constructor|]. intros F. inversion F; subst. discriminate.
Qed.

Lemma skipn_skipn {X} x y : forall l : list X, skipn x (skipn y l) = skipn (y + x) l.
Proof. induction y as [|y IH]; intros [|z l]; cbn; auto. now destruct x. Qed.

Lemma between_parts {X} from upto (l : list X) : from <= upto -> l = firstn from l ++ between from upto l ++ skipn upto l.
Proof.
  intros H. unfold between. rewrite <- (firstn_skipn from l) at 1. f_equal.
  rewrite <- (firstn_skipn (upto - from) (skipn from l)) at 1. f_equal. rewrite skipn_skipn. f_equal. lia.
Qed.

(** What a listener hears, split by the messages told before it listened. *)
Lemma listener_told (c : client) j s : creachable c -> nth_error (cl_subs c) j = Some s ->
  exists heard after, told (su_id s) (cl_msgs c) = told (su_id s) (firstn (su_from s) (cl_msgs c)) ++ heard ++ after /\
    thinned heard (su_seen s) /\ (no_throws c -> heard = su_seen s) /\ (su_live s = true -> cl_disp c = None -> after = []).
Proof.
  intros Hc E. destruct (listener_hears enc read same c j s Hc E) as (upto & B & H & L & _).
  destruct (hears_thinned _ _ _ H) as [H1 H2].
  exists (told (su_id s) (between (su_from s) upto (cl_msgs c))), (told (su_id s) (skipn upto (cl_msgs c))).
  split; [|split; [exact H1|split]].
  - rewrite (between_parts (su_from s) upto (cl_msgs c)) at 1 by lia. now rewrite !told_app.
  - intros F. apply H2. apply Forall_forall. intros m Hm. unfold no_throws in F. rewrite Forall_forall in F. apply F.
    unfold between in Hm. apply In_firstn in Hm. rewrite <- (firstn_skipn (su_from s) (cl_msgs c)). apply in_app_iff. now right.
  - intros F1 F2. rewrite (L F1 F2), skipn_all. reflexivity.
Qed.

Theorem stream_heard a w0 r t es call j s :
  wreachable a w0 -> user (w_cl w0) = true -> enc (bump (cl_id (w_cl w0))) r = Some t ->
  from_value A (val r) = inl call -> is_stream A call = true ->
  let w := wrun (wnext w0 (WClient (UStream r))) es in
  countable (w_cl w) -> nth_error (cl_subs (w_cl w)) j = Some s -> su_id s = bump (cl_id (w_cl w0)) ->
  su_seen s = [] \/
  exists tk before heard after, streams a w (su_id s) (val r) call tk /\ values data tk = before ++ heard ++ after /\
    thinned heard (su_seen s) /\ (no_throws (w_cl w) -> heard = su_seen s) /\
    before = told (su_id s) (firstn (su_from s) (cl_msgs (w_cl w))).
Proof.
  intros Hr0 Hu He Ef Is w Hc E Ei.
  assert (Hr1 : wreachable a (wnext w0 (WClient (UStream r)))) by (now apply wreach_next).
  assert (Hr : wreachable a w) by (now apply wreach_run).
  destruct (parts _ _ _ _ _ a w Hr) as [Hcl _], (parts _ _ _ _ _ a w0 Hr0) as [Hcl0 _].
  assert (Own : own (su_id s) t (w_cl w)).
  { rewrite Ei. apply (own_wrun a); auto. apply own_stream; auto. exact (wcount_run es _ Hc). }
  assert (Hid : (su_id s <= 2 ^ 53)%N).
  { destruct Own as [O _]. pose proof (id_small enc read same _ Hcl). lia. }
  destruct (listener_told (w_cl w) j s Hcl E) as (heard & after & T1 & T2 & T3 & _).
  destruct (told_stream a w (su_id s) r t call Hr Hc Own Hid) as [Z|(tk & S & (rest & P))]; auto.
  { now rewrite Ei. } { rewrite Ei. apply bump_pos. }
  - left. rewrite Z in T1. symmetry in T1. apply app_eq_nil in T1 as [_ T1]. apply app_eq_nil in T1 as [-> _]. now inversion T2.
  - right. eexists tk, _, heard, (after ++ rest). split; [exact S|]. split; [|split; [exact T2|split; [exact T3 | reflexivity]]].
    rewrite P, T1, <- !app_assoc. reflexivity.
Qed.

Corollary any_listener a w0 r t es call j s :
  wreachable a w0 -> user (w_cl w0) = true -> enc (bump (cl_id (w_cl w0))) r = Some t ->
  from_value A (val r) = inl call -> is_stream A call = true ->
  let w := wrun (wnext w0 (WClient (UStream r))) es in
  countable (w_cl w) -> nth_error (cl_subs (w_cl w)) j = Some s -> su_id s = bump (cl_id (w_cl w0)) ->
  su_seen s = [] \/
  exists tk before heard after, streams a w (su_id s) (val r) call tk /\ values data tk = before ++ heard ++ after /\
    thinned heard (su_seen s) /\ (no_throws (w_cl w) -> heard = su_seen s).
Proof.
  intros Hr0 Hu He Ef Is w Hc E Ei. destruct (stream_heard a w0 r t es call j s Hr0 Hu He Ef Is Hc E Ei) as [X|(tk & b & h & f & X1 & X2 & X3 & X4 & _)]; [now left|].
  right. now exists tk, b, h, f.
Qed.

(** Nothing is heard of a call that names no item. *)
Theorem stream_unread a w0 r t es e j s :
  wreachable a w0 -> user (w_cl w0) = true -> enc (bump (cl_id (w_cl w0))) r = Some t -> from_value A (val r) = inr e ->
  let w := wrun (wnext w0 (WClient (UStream r))) es in
  countable (w_cl w) -> nth_error (cl_subs (w_cl w)) j = Some s -> su_id s = bump (cl_id (w_cl w0)) -> su_seen s = [].
Proof.
  intros Hr0 Hu He Ef w Hc E Ei.
  assert (Hr1 : wreachable a (wnext w0 (WClient (UStream r)))) by (now apply wreach_next).
  assert (Hr : wreachable a w) by (now apply wreach_run).
  destruct (parts _ _ _ _ _ a w Hr) as [Hcl _], (parts _ _ _ _ _ a w0 Hr0) as [Hcl0 _].
  assert (Own : own (su_id s) t (w_cl w)).
  { rewrite Ei. apply (own_wrun a); auto. apply own_stream; auto. exact (wcount_run es _ Hc). }
  assert (Hid : (0 < su_id s <= 2 ^ 53)%N).
  { destruct Own as [O _]. pose proof (id_small enc read same _ Hcl). split; [rewrite Ei; apply bump_pos | lia]. }
  destruct (listener_told (w_cl w) j s Hcl E) as (heard & after & T1 & T2 & _).
  rewrite (unread_silent a w (su_id s) r t e Hr Hc Own Hid) in T1; [|now rewrite Ei | exact Ef].
  symmetry in T1. apply app_eq_nil in T1 as [_ T1]. apply app_eq_nil in T1 as [-> _]. now inversion T2.
Qed.

(** Nothing is told for an id that has not been given. *)
Lemma told_fresh a w id : wreachable a w -> (cl_id (w_cl w) < id <= 2 ^ 53)%N -> told id (cl_msgs (w_cl w)) = [].
Proof.
  intros Hr Hid. destruct (parts _ _ _ _ _ a w Hr) as [Hcl _]. unfold told. apply flat_none. intros m Hm.
  apply in_map_iff in Hm as (m' & <- & Hm). unfold tell. destruct (same (fst (fst m')) id) eqn:S; [|reflexivity]. exfalso.
  destruct (msg_for enc read same decode encode val data U a w m' id Hr Hm S) as (c & o & resp & t & r & d & _ & _ & _ & _ & X & _); [lia|].
  apply (stuff_ok enc read same) in X as [X _]; [|assumption]. cbn in X. lia.
Qed.

(** A listener of a new stream has missed nothing. *)
Lemma listened a w0 r t es :
  wreachable a w0 -> user (w_cl w0) = true -> enc (bump (cl_id (w_cl w0))) r = Some t ->
  let w := wrun (wnext (wnext w0 (WClient (UStream r))) (WClient (UListen (length (cl_stores (w_cl w0)))))) es in
  countable (w_cl w) -> exists s, nth_error (cl_subs (w_cl w)) (length (cl_subs (w_cl w0))) = Some s /\
    su_id s = bump (cl_id (w_cl w0)) /\ told (su_id s) (firstn (su_from s) (cl_msgs (w_cl w))) = [].
Proof.
  intros Hr0 Hu He w Hc.
  set (w1 := wnext w0 (WClient (UStream r))) in *. set (e2 := WClient (UListen (length (cl_stores (w_cl w0))))) in *.
  assert (Hr1 : wreachable a w1) by (now apply wreach_next).
  destruct (parts _ _ _ _ _ a w0 Hr0) as [Hcl0 _].
  destruct (stream_adds (w_cl w0) r t Hu He) as (A1 & A2 & A3 & A4 & A5 & A6).
  change (cnext (w_cl w0) (UStream r)) with (w_cl w1) in A1, A2, A3, A4, A5, A6.
  destruct (listen_adds (w_cl w1) (length (cl_stores (w_cl w0))) (bump (cl_id (w_cl w0)))) as (B1 & B2); [exact A6 | rewrite A4; apply nth_app_new|].
  change (cnext (w_cl w1) (UListen (length (cl_stores (w_cl w0))))) with (w_cl (wnext w1 e2)) in B1, B2.
  assert (F : nth_error (map fixed (cl_subs (w_cl w))) (length (cl_subs (w_cl w0))) = Some (bump (cl_id (w_cl w0)), false, false, done (w_cl w1))).
  { apply fixed_run. rewrite B1, A3, map_app, nth_error_app2; rewrite map_length; [|lia]. now rewrite Nat.sub_diag. }
  rewrite nth_error_map in F. destruct (nth_error (cl_subs (w_cl w)) (length (cl_subs (w_cl w0)))) as [s|] eqn:E; [|discriminate].
  injection F as F1 F2 F3 F4. change (su_from s = done (w_cl w1)) in F4. exists s. split; [reflexivity|]. split; [exact F1|].
  assert (Hc2 := wcount_run es _ Hc). assert (Hc1 : countable (w_cl w1)) by (eapply wcount_back; exact Hc2).
  assert (T : told (su_id s) (cl_msgs (w_cl w1)) = []).
  { rewrite A5. apply (told_fresh a); [assumption|]. rewrite F1.
    assert (B : bump (cl_id (w_cl w0)) = (cl_id (w_cl w0) + 1)%N).
    { apply (bump_next enc read same _ Hcl0). unfold countable in *. rewrite A1 in Hc1. exact Hc1. }
    split; [lia|]. rewrite <- A2. destruct (parts _ _ _ _ _ a w1 Hr1) as [Hcl1 _]. apply (id_small enc read same _ Hcl1). }
  destruct (msgs_run es (wnext w1 e2)) as (l & M). fold w in M. rewrite B2 in M.
  unfold told. rewrite <- firstn_map, M, firstn_app_le.
  - unfold told in T. apply flat_none. intros m Hm. apply In_firstn in Hm. exact (flat_none_inv _ _ m T Hm).
  - rewrite map_length, F4. unfold done. destruct (cl_disp (w_cl w1)); lia.
Qed.

Theorem stream_listened a w0 r t es call :
  wreachable a w0 -> user (w_cl w0) = true -> enc (bump (cl_id (w_cl w0))) r = Some t ->
  from_value A (val r) = inl call -> is_stream A call = true ->
  let w := wrun (wnext (wnext w0 (WClient (UStream r))) (WClient (UListen (length (cl_stores (w_cl w0)))))) es in
  countable (w_cl w) -> exists s, nth_error (cl_subs (w_cl w)) (length (cl_subs (w_cl w0))) = Some s /\
    su_id s = bump (cl_id (w_cl w0)) /\
    (su_seen s = [] \/
     exists tk heard after, streams a w (su_id s) (val r) call tk /\ values data tk = heard ++ after /\
       thinned heard (su_seen s) /\ (no_throws (w_cl w) -> heard = su_seen s)).
Proof.
  intros Hr0 Hu He Ef Is w Hc. destruct (listened a w0 r t es Hr0 Hu He Hc) as (s & E & Ei & T). exists s. split; [exact E|]. split; [exact Ei|].
  destruct (stream_heard a w0 r t (WClient (UListen (length (cl_stores (w_cl w0)))) :: es) call _ s Hr0 Hu He Ef Is Hc E Ei)
    as [Z|(tk & before & heard & after & X1 & X2 & X3 & X4 & X5)]; [now left|].
  right. exists tk, heard, after. split; [exact X1|]. split; [|split; [exact X3 | exact X4]].
  assert (before = []) as -> by (rewrite X5; exact T). exact X2.
Qed.
End Codecs.
End E2EStream.
