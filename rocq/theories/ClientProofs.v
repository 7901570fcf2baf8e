(** Proofs on the websocket client. *)
From Coq Require Import List Arith NArith Bool Lia Sorted Permutation.
From Verif Require Import Util Client ClientSpec.
Import ListNotations.

Section ClientProofs.
Context {R text K D : Type} (enc : N -> R -> option text) (read : text -> option (K * D)) (same : K -> N -> bool).
Local Notation client := (client text K D).
Local Notation cevent := (cevent R text).
Local Notation cnext := (cnext enc read same).
Local Notation crun := (crun enc read same).
Local Notation creachable := (creachable enc read same).
Local Notation hears := (hears (D := D) same).
Implicit Types (c : client) (e : cevent).

(** ** What the socket side leaves alone *)
Definition talk c := (cl_id c, cl_subs c, cl_stores c, cl_disp c, cl_calls c, cl_msgs c).

Lemma talk_close c : talk (close c) = talk c.
Proof. unfold close. cbn. destruct (cl_cur c); reflexivity. Qed.
Lemma talk_reopen c : talk (reopen c) = talk c.
Proof.
  unfold reopen. destruct (subscribed (close c)); [|apply talk_close].
  destruct (reopen_timeout _); transitivity (talk (close c)); try reflexivity; apply talk_close.
Qed.
Lemma talk_open c : talk (fst (open c)) = talk c.
Proof. unfold open. cbn. destruct (cl_opening c); reflexivity. Qed.
Lemma talk_wait c v : talk (let (c, p) := open c in set_waiting (cl_waiting c ++ [(p, v)]) c) = talk c.
Proof. rewrite <- (talk_open c). destruct (open c). reflexivity. Qed.
Lemma talk_send c v : talk (open_and_send v c) = talk c.
Proof.
  unfold open_and_send. destruct (cl_cur c) as [n|]; [|apply talk_wait].
  destruct (is_open _); [reflexivity | apply talk_wait].
Qed.
Lemma talk_fold l : forall c, talk (fold_left (fun c v => open_and_send v c) l c) = talk c.
Proof. induction l as [|v l IH]; intros c; cbn; [reflexivity|]. rewrite IH. apply talk_send. Qed.
Lemma talk_on_open c n : talk (on_open n c) = talk c.
Proof. unfold on_open. rewrite talk_fold. reflexivity. Qed.
Lemma talk_on_error c n : talk (on_error n c) = talk c.
Proof. reflexivity. Qed.
Lemma talk_state c n st : talk (set_state n st c) = talk c.
Proof. reflexivity. Qed.

Lemma talk_parts c c' : talk c = talk c' ->
  cl_id c = cl_id c' /\ cl_subs c = cl_subs c' /\ cl_stores c = cl_stores c' /\ cl_disp c = cl_disp c' /\
  cl_calls c = cl_calls c' /\ cl_msgs c = cl_msgs c'.
Proof. unfold talk. intros H. injection H. auto 10. Qed.

(** What an event does to the other side. *)
Definition deleted (j n : nat) (l : list (sub D)) : list (sub D) :=
  upd j (fun s => if su_live s then mkSub (su_id s) (su_req s) (su_bad s) false (su_seen s) (su_from s) n else s) l.

Lemma talk_delete j c : talk (delete_sub j c) = talk (set_subs (deleted j (done c) (cl_subs c)) c).
Proof.
  unfold delete_sub. fold (deleted j (done c) (cl_subs c)).
  destruct (subscribed _); [reflexivity | apply talk_close].
Qed.

Definition next_id c := set_id (bump (cl_id c)) c.

Inductive effect c : cevent -> client -> Prop :=
| f_none e : effect c e c
| f_request r : user c = true -> (exists t, enc (bump (cl_id c)) r = Some t) ->
    effect c (URequest r) (add_sub (bump (cl_id c)) true false (next_id c))
| f_bad r : user c = true -> enc (bump (cl_id c)) r = None ->
    effect c (URequest r) (add_sub (bump (cl_id c)) true true (next_id c))
| f_stream r : user c = true -> (exists t, enc (bump (cl_id c)) r = Some t) ->
    effect c (UStream r) (set_stores (cl_stores c ++ [bump (cl_id c)]) (next_id c))
| f_stream_bad r : user c = true -> enc (bump (cl_id c)) r = None -> effect c (UStream r) (next_id c)
| f_listen k id : user c = true -> nth_error (cl_stores c) k = Some id ->
    effect c (UListen k) (add_sub id false false c)
| f_unlisten j s : user c = true -> nth_error (cl_subs c) j = Some s -> su_req s = false ->
    effect c (UUnlisten j) (set_subs (deleted j (done c) (cl_subs c)) c)
| f_throw d : cl_disp c = Some d -> dp_in d = true -> effect c UThrow (set_disp None (spoil (cl_msgs c)) c)
| f_visit d : cl_disp c = Some d -> effect c CVisit (visit same d c)
| f_finally j s : cl_disp c = None -> nth_error (cl_subs c) j = Some s -> unfinished s = true ->
    effect c (CFinally j) (set_subs (deleted j (done c) (cl_subs c)) c)
| f_message n t k d : idle c = true -> state_of c n = Open -> read t = Some (k, d) ->
    effect c (NMessage n t) (set_disp (Some (mkDisp k d 0 false)) (cl_msgs c ++ [(k, d, true)]) c).

Lemma effect_ok c e : exists c', effect c e c' /\ talk (cnext c e) = talk c'.
Proof.
  destruct e as [r|r|k|j| | |j|n|n|n|n|n t|]; cbn [Client.cnext].
  - destruct (user c) eqn:U; [|exists c; split; [constructor | reflexivity]].
    unfold request. cbn. destruct (enc (bump (cl_id c)) r) eqn:E.
    + exists (add_sub (bump (cl_id c)) true false (next_id c)). split; [constructor; eauto|]. rewrite talk_send. reflexivity.
    + exists (add_sub (bump (cl_id c)) true true (next_id c)). split; [now constructor | reflexivity].
  - destruct (user c) eqn:U; [|exists c; split; [constructor | reflexivity]].
    unfold subscribe. cbn. destruct (enc (bump (cl_id c)) r) eqn:E.
    + eexists. split; [apply f_stream; eauto|]. rewrite talk_send. reflexivity.
    + eexists. split; [now apply f_stream_bad | reflexivity].
  - destruct (user c) eqn:U; [|exists c; split; [constructor | reflexivity]].
    destruct (nth_error (cl_stores c) k) as [id|] eqn:E; [|exists c; split; [constructor | reflexivity]].
    eexists. split; [apply (f_listen c k id); assumption | reflexivity].
  - destruct (user c) eqn:U; [|exists c; split; [constructor | reflexivity]].
    destruct (nth_error (cl_subs c) j) as [s|] eqn:E; [|exists c; split; [constructor | reflexivity]].
    destruct (su_req s) eqn:Q; [exists c; split; [constructor | reflexivity]|].
    eexists. split; [apply (f_unlisten c j s); assumption | apply talk_delete].
  - destruct (cl_disp c) as [d|] eqn:E; [|exists c; split; [constructor | reflexivity]].
    destruct (dp_in d) eqn:Q; [|exists c; split; [constructor | reflexivity]].
    eexists. split; [apply (f_throw c d); assumption | reflexivity].
  - destruct (cl_disp c) as [d|] eqn:E; [|exists c; split; [constructor | reflexivity]].
    eexists. split; [apply (f_visit c d); assumption | reflexivity].
  - destruct (cl_disp c) as [d|] eqn:E; [exists c; split; [constructor | reflexivity]|].
    destruct (nth_error (cl_subs c) j) as [s|] eqn:S; [|exists c; split; [constructor | reflexivity]].
    destruct (unfinished s) eqn:Q; [|exists c; split; [constructor | reflexivity]].
    eexists. split; [apply (f_finally c j s); assumption | apply talk_delete].
  - exists c. split; [constructor|]. destruct (idle c); [|reflexivity]. destruct (state_of c n); try reflexivity. rewrite talk_on_open. reflexivity.
  - exists c. split; [constructor|]. destruct (idle c); [|reflexivity]. destruct (state_of c n); reflexivity.
  - exists c. split; [constructor|]. destruct (idle c); [|reflexivity]. destruct (state_of c n) as [| |[]|]; try reflexivity; unfold on_close; rewrite talk_reopen; reflexivity.
  - exists c. split; [constructor|]. destruct (idle c); [|reflexivity]. destruct (state_of c n) as [| |[]|]; try reflexivity; unfold on_close; rewrite talk_reopen; reflexivity.
  - destruct (idle c) eqn:I; [|exists c; split; [constructor | reflexivity]].
    destruct (state_of c n) eqn:S; try (exists c; split; [constructor | reflexivity]).
    destruct (read t) as [[k d]|] eqn:Q; [|exists c; split; [constructor | reflexivity]].
    eexists. split; [apply (f_message c n t k d); assumption | reflexivity].
  - exists c. split; [constructor|]. destruct (idle c); [|reflexivity]. destruct (cl_timer c); [apply talk_open | reflexivity].
Qed.

Lemma crun_snoc es e : crun cinit (es ++ [e]) = cnext (crun cinit es) e.
Proof. unfold Client.crun. rewrite fold_left_app. reflexivity. Qed.

Lemma run_ind (P : client -> Prop) : P cinit -> (forall c e, P c -> P (cnext c e)) -> forall c, creachable c -> P c.
Proof.
  intros H0 HS c [es ->]. induction es as [|e es IH] using rev_ind; [exact H0|]. rewrite crun_snoc. apply HS, IH.
Qed.

(** ** C40: ids *)
Definition top : N := (2 ^ 53)%N.
Definition nth_id (i : nat) : N := N.min (N.of_nat (S i)) top.

Record IdInv c : Prop := {
  id_last : cl_id c = N.min (N.of_nat (length (cl_calls c))) top;
  id_nth : forall i x, nth_error (cl_calls c) i = Some x -> x = nth_id i
}.

Lemma bump_min n : bump (N.min n top) = N.min (n + 1) top.
Proof. unfold bump. fold top. destruct (N.ltb_spec (N.min n top) top); lia. Qed.

Lemma nth_snoc {X} (l : list X) x n y : nth_error (l ++ [x]) n = Some y ->
  (n < length l /\ nth_error l n = Some y) \/ (n = length l /\ y = x).
Proof.
  intros H. destruct (Nat.lt_ge_cases n (length l)) as [L|L].
  - rewrite nth_error_app1 in H by assumption. auto.
  - rewrite nth_error_app2 in H by assumption. destruct (n - length l) as [|m] eqn:E.
    + right. cbn in H. split; [lia | congruence].
    + destruct m; discriminate.
Qed.

Lemma id_talk c c' : talk c = talk c' -> IdInv c' -> IdInv c.
Proof. intros T [H1 H2]. apply talk_parts in T as (E1 & _ & _ & _ & E2 & _). constructor; rewrite ?E1, ?E2; assumption. Qed.

Lemma id_next c : IdInv c -> IdInv (next_id c).
Proof.
  intros [H1 H2]. constructor; cbn.
  - rewrite app_length, H1, bump_min. cbn. f_equal. lia.
  - intros i x H. apply nth_snoc in H as [[_ H] | [-> ->]]; [auto|].
    unfold nth_id. rewrite H1, bump_min. f_equal. lia.
Qed.

Lemma id_inv c : creachable c -> IdInv c.
Proof.
  apply run_ind.
  - constructor; cbn; [reflexivity|]. intros [|i] x H; discriminate.
  - clear c. intros c e H. destruct (effect_ok c e) as (c' & F & T). apply (id_talk _ _ T). clear T.
    pose proof (id_next c H) as Hn.
    assert (G : forall x y : client, cl_id x = cl_id y -> cl_calls x = cl_calls y -> IdInv y -> IdInv x).
    { intros x y E1 E2 [I1 I2]. constructor; rewrite ?E1, ?E2; assumption. }
    destruct F; try assumption; try (apply (G _ (next_id c)); [reflexivity | reflexivity | assumption]);
      try (apply (G _ c); [reflexivity | reflexivity | assumption]).
    apply (G _ c); [| |assumption]; unfold visit; destruct (nth_error _ _); try reflexivity; cbn; destruct (_ && _); reflexivity.
Qed.

Theorem ids_count c i x : creachable c -> countable c -> nth_error (cl_calls c) i = Some x -> x = N.of_nat (S i).
Proof.
  intros H Hc Hi. rewrite (id_nth c (id_inv c H) i x Hi). unfold nth_id.
  assert (i < length (cl_calls c)) by (apply nth_error_Some; congruence).
  unfold countable in Hc. fold top in Hc. lia.
Qed.

(** ** C41: what callbacks see *)
Lemma firstn_app_le {X} (l l' : list X) n : n <= length l -> firstn n (l ++ l') = firstn n l.
Proof. intros H. rewrite firstn_app. replace (n - length l) with 0 by lia. cbn. apply app_nil_r. Qed.

Lemma between_app {X} a b (l l' : list X) : b <= length l -> between a b (l ++ l') = between a b l.
Proof.
  intros H. unfold between. destruct (Nat.le_ge_cases a b) as [L|L].
  - rewrite skipn_app. apply firstn_app_le. rewrite skipn_length. lia.
  - replace (b - a) with 0 by lia. reflexivity.
Qed.

Lemma between_snoc {X} a (l : list X) x : a <= length l ->
  between a (S (length l)) (l ++ [x]) = between a (length l) l ++ [x].
Proof.
  intros H. unfold between. rewrite skipn_app. replace (a - length l) with 0 by lia. cbn [skipn].
  rewrite (firstn_all2 (n := S (length l) - a)) by (rewrite app_length, skipn_length; cbn [length]; lia).
  rewrite (firstn_all2 (n := length l - a)) by (rewrite skipn_length; lia). reflexivity.
Qed.

Lemma between_same {X} a (l : list X) : between a a l = [].
Proof. unfold between. now rewrite Nat.sub_diag. Qed.

Lemma hears_app id l r l' r' : hears id l r -> hears id l' r' -> hears id (l ++ l') (r ++ r').
Proof. induction 1; intros H'; cbn; [assumption | constructor | constructor | apply h_thrown]; auto. Qed.

(** Marking messages only allows more. *)
Lemma hears_spoil id n l r : hears id l r -> hears id (upd n (fun m => (fst m, false)) l) r.
Proof.
  intros H. revert n. induction H; intros [|n]; cbn; try (constructor; auto; fail); now apply h_thrown.
Qed.

Lemma between_upd {X} a b n (g : X -> X) l :
  between a b (upd n g l) = if Nat.leb a n then upd (n - a) g (between a b l) else between a b l.
Proof.
  unfold between. revert a b n. induction l as [|x l IH]; intros a b n.
  - assert (E : forall m, upd m g (@nil X) = []) by (intros [|]; reflexivity).
    rewrite E. rewrite skipn_nil, firstn_nil. destruct (Nat.leb a n); now rewrite ?E.
  - assert (F : forall k m (l : list X), firstn k (upd m g l) = upd m g (firstn k l)).
    { clear. intros k m l. revert k m. induction l as [|x l IH]; intros [|k] [|m]; cbn; try reflexivity; now rewrite IH. }
    destruct a as [|a].
    + cbn [skipn Nat.leb]. rewrite !Nat.sub_0_r. apply F.
    + destruct n as [|n]; [reflexivity|]. cbn [upd skipn Nat.leb]. destruct b as [|b].
      * cbn. destruct (Nat.leb a n); [|reflexivity]. destruct (n - a); reflexivity.
      * cbn [Nat.sub]. apply IH.
Qed.

Lemma hears_between_spoil id a b n l r : hears id (between a b l) r ->
  hears id (between a b (upd n (fun m => (fst m, false)) l)) r.
Proof. intros H. rewrite between_upd. destruct (Nat.leb a n); [now apply hears_spoil | assumption]. Qed.

(** How many messages have got past entry [j]. *)
Definition past c (j : nat) : nat :=
  match cl_disp c with
  | Some d => if Nat.leb (dp_next d) j then pred (length (cl_msgs c)) else length (cl_msgs c)
  | None => length (cl_msgs c)
  end.

Record sub_ok c (j : nat) (s : sub D) : Prop := {
  sb_hears : exists upto, su_from s <= upto <= length (cl_msgs c) /\
    hears (su_id s) (between (su_from s) upto (cl_msgs c)) (su_seen s) /\
    (su_live s = true -> upto = past c j) /\
    (su_live s = false -> su_to s <= upto <= S (su_to s));
  sb_req : su_req s = true ->
    su_seen s = [] \/ exists d, su_seen s = [d] /\
      (su_live s = true -> match cl_disp c with Some x => j < dp_next x | None => True end);
  sb_over : su_req s = true -> su_live s = false -> su_bad s = true \/ su_seen s <> []
}.

Record TalkInv c : Prop := {
  ti_subs : forall j s, nth_error (cl_subs c) j = Some s -> sub_ok c j s;
  ti_disp : forall d, cl_disp c = Some d -> dp_next d <= length (cl_subs c) /\
    exists l, cl_msgs c = l ++ [(dp_key d, dp_data d, true)]
}.

Lemma ti_talk c c' : talk c = talk c' -> TalkInv c' -> TalkInv c.
Proof.
  intros T [H1 H2]. apply talk_parts in T as (_ & E1 & _ & E2 & _ & E3). constructor.
  - intros j s Hj. rewrite E1 in Hj. destruct (H1 j s Hj) as [A1 A2 A3].
    constructor; unfold past; rewrite ?E2, ?E3; assumption.
  - intros d. rewrite E1, E2, E3. apply H2.
Qed.

Lemma ti_add c id q b : TalkInv c -> TalkInv (add_sub id q b c).
Proof.
  intros [H1 H2]. constructor; cbn [cl_subs cl_disp cl_msgs add_sub set_subs].
  - intros j s Hj. apply nth_snoc in Hj as [[_ Hj] | [-> ->]].
    + destruct (H1 j s Hj) as [A1 A2 A3]. constructor; assumption.
    + constructor; cbn; [|auto|discriminate].
      exists (done c). rewrite between_same. split; [|split; [constructor|split; [|discriminate]]].
      * unfold done. destruct (cl_disp c); lia.
      * intros _. unfold done, past. cbn. destruct (cl_disp c) as [d|] eqn:E; [|reflexivity].
        destruct (H2 d eq_refl) as [L _]. apply Nat.leb_le in L. now rewrite L.
  - intros d Hd. destruct (H2 d Hd) as [L M]. rewrite app_length. split; [lia | assumption].
Qed.

Lemma past_done c j : done c <= past c j <= S (done c).
Proof. unfold past, done. destruct (cl_disp c) as [d|]; [|lia]. destruct (Nat.leb _ _); lia. Qed.

Lemma ti_delete c j : TalkInv c ->
  (forall s, nth_error (cl_subs c) j = Some s -> su_req s = true -> su_bad s = true \/ su_seen s <> []) ->
  TalkInv (set_subs (deleted j (done c) (cl_subs c)) c).
Proof.
  intros [H1 H2] Hr. constructor; cbn [cl_subs cl_disp cl_msgs set_subs].
  - intros i s Hi. unfold deleted in Hi. rewrite nth_upd in Hi. destruct (Nat.eqb_spec j i) as [<-|].
    + destruct (nth_error (cl_subs c) j) as [s0|] eqn:E; [|discriminate]. injection Hi as <-.
      destruct (H1 j s0 E) as [A1 A2 A3]. destruct (su_live s0) eqn:L.
      * constructor; cbn.
        -- destruct A1 as (u & B1 & B2 & B3 & B4). exists u. split; [assumption|]. split; [assumption|]. split; [discriminate|].
           intros _. rewrite (B3 eq_refl). apply past_done.
        -- intros Q. destruct (A2 Q) as [|(d & Hd & _)]; [auto|]. right. exists d. split; [assumption | discriminate].
        -- intros Q _. apply (Hr s0); auto.
      * constructor; rewrite ?L; assumption.
    + destruct (H1 i s Hi) as [A1 A2 A3]. constructor; assumption.
  - intros d Hd. unfold deleted. rewrite upd_length. auto.
Qed.

Lemma ti_inv c : creachable c -> TalkInv c.
Proof.
  apply run_ind.
  - constructor; cbn; [intros [|j] s H; discriminate | discriminate].
  - clear c. intros c e H. destruct (effect_ok c e) as (c' & F & T). apply (ti_talk _ _ T). clear T.
    assert (G : forall x y : client, cl_subs x = cl_subs y -> cl_disp x = cl_disp y -> cl_msgs x = cl_msgs y -> TalkInv y -> TalkInv x).
    { intros x y E1 E2 E3 [I1 I2]. constructor.
      - intros j s Hj. rewrite E1 in Hj. destruct (I1 j s Hj) as [A1 A2 A3]. constructor; unfold past; rewrite ?E2, ?E3; assumption.
      - intros d. rewrite E1, E2, E3. apply I2. }
    assert (Hn : TalkInv (next_id c)) by (apply (G _ c); auto).
    destruct F; try assumption; try (apply (G _ c); auto; fail); try (apply ti_add; assumption).
    + (* unlisten *) apply ti_delete; [assumption|]. intros s' E Q. congruence.
    + (* throw *) destruct H as [I1 I2]. destruct (I2 d H0) as [L [l M]].
      assert (Hs : spoil (cl_msgs c) = l ++ [(dp_key d, dp_data d, false)]).
      { unfold spoil. rewrite M, app_length, Nat.add_1_r. cbn [pred].
        clear. induction l as [|x l IH]; cbn; [reflexivity|]. now rewrite IH. }
      constructor; cbn [cl_subs cl_disp cl_msgs set_disp]; [|discriminate].
      intros j s Hj. destruct (I1 j s Hj) as [A1 A2 A3]. constructor; cbn [cl_disp set_disp cl_msgs]; [| |assumption].
      * destruct A1 as (u & B1 & B2 & B3 & B4).
        destruct (su_live s) eqn:Lv.
        -- specialize (B3 eq_refl). unfold past in B3. rewrite H0 in B3.
           exists (length (spoil (cl_msgs c))). unfold past. cbn [cl_disp set_disp cl_msgs].
           split; [|split; [|split; [reflexivity | discriminate]]].
           ++ unfold spoil. rewrite upd_length. lia.
           ++ destruct (Nat.leb (dp_next d) j) eqn:Hd.
              ** rewrite M, app_length, Nat.add_1_r in B3. cbn in B3. subst u.
                 rewrite Hs, app_length, Nat.add_1_r. rewrite between_snoc by lia.
                 rewrite M, between_app in B2 by lia.
                 rewrite <- (app_nil_r (su_seen s)). apply hears_app; [assumption|].
                 destruct (same (dp_key d) (su_id s)) eqn:Sm.
                 { apply h_thrown; [assumption|constructor]. }
                 { apply h_miss; [assumption|constructor]. }
              ** subst u. unfold spoil. rewrite upd_length. now apply hears_between_spoil.
        -- exists u. unfold spoil. rewrite upd_length. split; [assumption|]. split; [now apply hears_between_spoil|].
           split; [discriminate | assumption].
      * intros Q. destruct (A2 Q) as [|(x & Hx & _)]; [auto|]. right. exists x. auto.
    + (* visit *) destruct H as [I1 I2]. destruct (I2 d H0) as [L [l M]]. unfold visit.
      destruct (nth_error (cl_subs c) (dp_next d)) as [s0|] eqn:E.
      * assert (Hlt : dp_next d < length (cl_subs c)) by (apply nth_error_Some; congruence).
        assert (Hnext : forall (c1 : client), cl_msgs c1 = cl_msgs c -> cl_disp c1 = cl_disp c ->
          forall j, past (set_disp (Some (mkDisp (dp_key d) (dp_data d) (S (dp_next d)) (su_live s0 && same (dp_key d) (su_id s0) && negb (su_req s0)))) (cl_msgs c1) c1) j
            = if Nat.eqb j (dp_next d) then length (cl_msgs c) else past c j).
        { intros c1 E1 E2 j. unfold past. cbn [cl_disp set_disp cl_msgs dp_next]. rewrite H0, E1.
          destruct (Nat.eqb_spec j (dp_next d)) as [->|Hj].
          - replace (Nat.leb (S (dp_next d)) (dp_next d)) with false by (symmetry; apply Nat.leb_gt; lia). reflexivity.
          - destruct (Nat.leb_spec (dp_next d) j), (Nat.leb_spec (S (dp_next d)) j); try lia. }
        set (hit := su_live s0 && same (dp_key d) (su_id s0)) in *.
        destruct (I1 _ _ E) as [A1 A2 A3]. destruct A1 as (u & B1 & B2 & B3 & B4).
        assert (Hpast0 : su_live s0 = true -> u = length l).
        { intros Lv. rewrite (B3 Lv). unfold past. rewrite H0, Nat.leb_refl, M, app_length. cbn. lia. }
        assert (Hother : forall (c1 : client) j s, cl_msgs c1 = cl_msgs c -> cl_disp c1 = cl_disp c -> j <> dp_next d -> sub_ok c j s ->
          sub_ok (set_disp (Some (mkDisp (dp_key d) (dp_data d) (S (dp_next d)) (hit && negb (su_req s0)))) (cl_msgs c1) c1) j s).
        { intros c1 j s E1 E2 Hj [C1 C2 C3]. constructor; [| |assumption].
          - destruct C1 as (u' & D1 & D2 & D3 & D4). exists u'. cbn [cl_msgs set_disp]. rewrite E1.
            split; [assumption|]. split; [assumption|]. split; [|assumption].
            intros Lv. pose proof (Hnext c1 E1 E2 j) as Hp. rewrite E1 in Hp. rewrite Hp. destruct (Nat.eqb_spec j (dp_next d)); [contradiction | auto].
          - intros Q. destruct (C2 Q) as [|(x & Hx & Hl)]; [auto|]. right. exists x. split; [assumption|].
            intros Lv. specialize (Hl Lv). rewrite H0 in Hl. cbn. lia. }
        destruct hit eqn:Hhit.
        -- apply andb_prop in Hhit as [Lv Sm]. specialize (Hpast0 Lv). constructor; cbn [cl_subs cl_disp cl_msgs set_disp set_subs].
           ++ intros j s Hj. rewrite nth_upd in Hj. destruct (Nat.eqb_spec (dp_next d) j) as [<-|Hne].
              ** rewrite E in Hj. injection Hj as <-. constructor; cbn [su_id su_req su_bad su_live su_seen su_from su_to cl_disp cl_msgs set_disp set_subs].
                 --- exists (length (cl_msgs c)). split; [|split; [|split]].
                     +++ subst u. rewrite M, app_length. lia.
                     +++ rewrite M, app_length, Nat.add_1_r. rewrite between_snoc by lia.
                         apply hears_app; [|now apply h_hit; [|constructor]].
                         subst u. rewrite M, between_app in B2 by lia. exact B2.
                     +++ intros _. rewrite (Hnext (set_subs _ c) eq_refl eq_refl). now rewrite Nat.eqb_refl.
                     +++ congruence.
                 --- intros Q. right. destruct (A2 Q) as [->|(x & Hx & Hl)].
                     +++ exists (dp_data d). split; [reflexivity|]. intros _. cbn. lia.
                     +++ specialize (Hl Lv). rewrite H0 in Hl. lia.
                 --- congruence.
              ** apply (Hother (set_subs _ c)); auto.
           ++ intros x [= <-]. rewrite upd_length. cbn. split; [lia | eauto].
        -- constructor; cbn [cl_subs cl_disp cl_msgs set_disp].
           ++ intros j s Hj. destruct (Nat.eq_dec j (dp_next d)) as [->|Hne]; [|now apply Hother; auto].
              rewrite E in Hj. injection Hj as <-. constructor; cbn [cl_disp cl_msgs set_disp]; [| |assumption].
              ** destruct (su_live s0) eqn:Lv.
                 --- cbn in Hhit. specialize (Hpast0 eq_refl). exists (length (cl_msgs c)). split; [|split; [|split]].
                     +++ subst u. rewrite M, app_length. lia.
                     +++ rewrite M, app_length, Nat.add_1_r. rewrite between_snoc by lia.
                         rewrite <- (app_nil_r (su_seen s0)). apply hears_app; [|now apply h_miss; [|constructor]].
                         subst u. rewrite M, between_app in B2 by lia. exact B2.
                     +++ intros _. rewrite (Hnext c eq_refl eq_refl). now rewrite Nat.eqb_refl.
                     +++ discriminate.
                 --- exists u. split; [assumption|]. split; [assumption|]. split; [discriminate | assumption].
              ** intros Q. destruct (A2 Q) as [|(x & Hx & Hl)]; [auto|]. right. exists x. split; [assumption|].
                 intros Lv. cbn. lia.
           ++ intros x [= <-]. cbn. split; [lia | eauto].
      * assert (Hge : length (cl_subs c) <= dp_next d) by (apply nth_error_None; assumption).
        constructor; cbn [cl_subs cl_disp cl_msgs set_disp]; [|discriminate].
        intros j s Hj. assert (j < length (cl_subs c)) by (apply nth_error_Some; congruence).
        destruct (I1 j s Hj) as [A1 A2 A3]. constructor; cbn [cl_disp cl_msgs set_disp]; [| |assumption].
        -- destruct A1 as (u & B1 & B2 & B3 & B4). exists u. split; [assumption|]. split; [assumption|]. split; [|assumption].
           intros Lv. rewrite (B3 Lv). unfold past. rewrite H0. cbn. destruct (Nat.leb_spec (dp_next d) j); [lia | reflexivity].
        -- intros Q. destruct (A2 Q) as [|(x & Hx & _)]; [auto|]. right. exists x. auto.
    + (* finally *) apply ti_delete; [assumption|]. intros s' E Q. rewrite H1 in E. injection E as <-.
      unfold unfinished in H2. apply andb_prop in H2 as [_ H2]. destruct (su_bad s); [auto|]. right. destruct (su_seen s); [discriminate | discriminate].
    + (* message *) destruct H as [I1 I2]. unfold idle in H0. destruct (cl_disp c) eqn:Ed; [discriminate|].
      apply negb_true_iff in H0.
      constructor; cbn [cl_subs cl_disp cl_msgs set_disp].
      * intros j s Hj. destruct (I1 j s Hj) as [A1 A2 A3].
        constructor; cbn [cl_disp cl_msgs set_disp]; [| |assumption].
        -- destruct A1 as (u & B1 & B2 & B3 & B4). exists u. rewrite app_length. split; [lia|]. rewrite between_app by lia.
           split; [assumption|]. split; [|assumption]. intros Lv. rewrite (B3 Lv). unfold past. cbn. rewrite Ed, app_length. cbn. lia.
        -- intros Q. destruct (A2 Q) as [|(x & Hx & _)]; [auto|]. right. exists x. split; [assumption|]. intros Lv. exfalso.
           assert (Hu : existsb unfinished (cl_subs c) = true).
           { apply existsb_exists. exists s. split; [eapply nth_error_In; eassumption|]. unfold unfinished. rewrite Q, Lv, Hx. cbn. apply orb_true_r. }
           congruence.
      * intros x [= <-]. cbn. split; [lia | eauto].
Qed.

(** ** C40 again: who has which id *)
Definition keys c : list (N * bool) := map (fun s => (su_id s, su_req s)) (cl_subs c).
Definition req_ids c : list N := map fst (filter snd (keys c)).

Lemma keys_upd j (f : sub D -> sub D) l : (forall s, su_id (f s) = su_id s /\ su_req (f s) = su_req s) ->
  map (fun s => (su_id s, su_req s)) (upd j f l) = map (fun s => (su_id s, su_req s)) l.
Proof.
  intros H. revert j. induction l as [|s l IH]; intros [|j]; cbn; [reflexivity.. | |].
  - destruct (H s) as [-> ->]. reflexivity.
  - now rewrite IH.
Qed.
Lemma keys_deleted j n (l : list (sub D)) : map (fun s => (su_id s, su_req s)) (deleted j n l) = map (fun s => (su_id s, su_req s)) l.
Proof. apply keys_upd. intros s. destruct (su_live s); auto. Qed.

Record KeyInv c : Prop := {
  ki_dup : NoDup (req_ids c ++ cl_stores c);
  ki_old : forall x, In x (req_ids c ++ cl_stores c) -> (x <= cl_id c)%N;
  ki_own : forall x, In (x, false) (keys c) -> In x (cl_stores c)
}.

Lemma calls_grow c e : length (cl_calls c) <= length (cl_calls (cnext c e)).
Proof.
  destruct (effect_ok c e) as (c' & F & T). apply talk_parts in T as (_ & _ & _ & _ & -> & _).
  destruct F; cbn; rewrite ?app_length; cbn; try lia. unfold visit. destruct (nth_error _ _); [|cbn; lia].
  cbn. destruct (_ && _); cbn; lia.
Qed.
Lemma countable_back c e : countable (cnext c e) -> countable c.
Proof. unfold countable. pose proof (calls_grow c e). lia. Qed.

Lemma bump_next c : creachable c -> countable (next_id c) -> bump (cl_id c) = (cl_id c + 1)%N.
Proof.
  intros H Hc. rewrite (id_last c (id_inv c H)). unfold countable in Hc. cbn [next_id set_id cl_calls] in Hc. rewrite app_length in Hc.
  cbn [length] in Hc. fold top in Hc. rewrite bump_min. lia.
Qed.

Lemma creach_next c e : creachable c -> creachable (cnext c e).
Proof. intros [es ->]. exists (es ++ [e]). now rewrite crun_snoc. Qed.

Lemma ki_inv c : creachable c -> countable c -> KeyInv c.
Proof.
  intros H. apply (run_ind (fun c => creachable c /\ (countable c -> KeyInv c))); [| |assumption].
  - split; [now exists []|]. intros _. constructor; cbn; [constructor | tauto | tauto].
  - clear c H. intros c e [Hr IH]. split; [now apply creach_next|]. intros Hc.
    specialize (IH (countable_back _ _ Hc)).
    destruct (effect_ok c e) as (c' & F & T). apply talk_parts in T as (E1 & E2 & E3 & _ & E4 & _).
    assert (Hc' : countable c') by (unfold countable in *; now rewrite <- E4).
    assert (Hk : keys (cnext c e) = keys c') by (unfold keys; now rewrite E2).
    assert (G : KeyInv c').
    2: { destruct G as [G1 G2 G3]. constructor; unfold req_ids; rewrite ?Hk, ?E1, ?E3; assumption. }
    clear E1 E2 E3 E4 Hk Hc. destruct IH as [G1 G2 G3].
    assert (Same : forall x : client, keys x = keys c -> cl_stores x = cl_stores c -> cl_id x = cl_id c -> KeyInv x).
    { intros x K1 K2 K3. constructor; unfold req_ids; rewrite ?K1, ?K2, ?K3; assumption. }
    assert (AddReq : forall b, countable (next_id c) -> KeyInv (add_sub (bump (cl_id c)) true b (next_id c))).
    { intros b Hb. pose proof (bump_next c Hr Hb) as B.
      assert (Q : req_ids (add_sub (bump (cl_id c)) true b (next_id c)) = req_ids c ++ [bump (cl_id c)]).
      { unfold req_ids, keys. cbn. rewrite map_app, filter_app, map_app. reflexivity. }
      constructor.
      - rewrite Q. cbn. rewrite <- app_assoc. apply NoDup_Add with (a := bump (cl_id c)) (l := req_ids c ++ cl_stores c); [apply Add_app|].
        split; [assumption|]. intros Hi. apply G2 in Hi. lia.
      - rewrite Q. cbn. intros x Hx. rewrite <- app_assoc in Hx. apply in_app_or in Hx as [Hx|[<-|Hx]].
        + pose proof (G2 x (in_or_app _ _ _ (or_introl Hx))). lia.
        + lia.
        + pose proof (G2 x (in_or_app _ _ _ (or_intror Hx))). lia.
      - unfold keys. cbn. rewrite map_app. intros x Hx. apply in_app_or in Hx as [Hx|[[=]|[]]]. now apply G3. }
    destruct F; try (now apply Same).
    + apply AddReq, Hc'.
    + apply AddReq, Hc'.
    + pose proof (bump_next c Hr Hc') as B. constructor; cbn.
      * change (req_ids _) with (req_ids c). rewrite app_assoc.
        apply NoDup_Add with (a := bump (cl_id c)) (l := req_ids c ++ cl_stores c).
        { rewrite <- (app_nil_r (req_ids c ++ cl_stores c)) at 1. apply Add_app. }
        split; [assumption|]. intros Hi. apply G2 in Hi. lia.
      * change (req_ids _) with (req_ids c). rewrite app_assoc. intros x Hx. apply in_app_or in Hx as [Hx|[<-|[]]]; [|lia].
        pose proof (G2 x Hx). lia.
      * intros x Hx. apply in_or_app. left. now apply G3.
    + pose proof (bump_next c Hr Hc') as B. constructor; [assumption| |assumption]. intros x Hx. cbn. pose proof (G2 x Hx). lia.
    + assert (Q : keys (add_sub id false false c) = keys c ++ [(id, false)]) by (unfold keys; cbn; now rewrite map_app).
      constructor; unfold req_ids; rewrite ?Q, ?filter_app, ?map_app; cbn [filter snd map]; rewrite ?app_nil_r; try assumption.
      intros x Hx. apply in_app_or in Hx as [Hx|[[= ->]|[]]]; [now apply G3|]. cbn. eapply nth_error_In; eassumption.
    + apply Same; [apply keys_deleted | reflexivity | reflexivity].
    + apply Same; unfold visit, keys; destruct (nth_error _ _); try reflexivity; cbn; destruct (_ && _); try reflexivity.
      apply keys_upd. auto.
    + apply Same; [apply keys_deleted | reflexivity | reflexivity].
Qed.

Lemma nodup_nth {X Y} (f : X -> Y) (p : X -> bool) l i j x y : NoDup (map f (filter p l)) ->
  nth_error l i = Some x -> nth_error l j = Some y -> p x = true -> p y = true -> f x = f y -> i = j.
Proof.
  revert i j. induction l as [|a l IH]; intros i j Hn Hi Hj Px Py Hf; [destruct i; discriminate|].
  destruct i as [|i], j as [|j]; cbn in Hi, Hj; [reflexivity| | |].
  - injection Hi as ->. cbn in Hn. rewrite Px in Hn. inversion Hn; subst. exfalso. apply H1. rewrite Hf. apply in_map, filter_In.
    split; [eapply nth_error_In; eassumption | assumption].
  - injection Hj as ->. cbn in Hn. rewrite Py in Hn. inversion Hn; subst. exfalso. apply H1. rewrite <- Hf. apply in_map, filter_In.
    split; [eapply nth_error_In; eassumption | assumption].
  - f_equal. apply (IH i j); auto. cbn in Hn. destruct (p a); [now inversion Hn | assumption].
Qed.

Lemma nodup_app {X} (l l' : list X) : NoDup (l ++ l') -> NoDup l /\ NoDup l' /\ forall x, In x l -> ~ In x l'.
Proof.
  induction l as [|a l IH]; cbn; intros H; [repeat split; [constructor | assumption | tauto]|].
  inversion H as [|? ? Ha Hr]; subst. destruct (IH Hr) as (H1 & H2 & H3). split; [|split].
  - constructor; [|assumption]. intros Hi. apply Ha, in_or_app. now left.
  - assumption.
  - intros x [<-|Hx]; [|auto]. intros Hi. apply Ha, in_or_app. now right.
Qed.

Theorem request_id_own c i j s s' : creachable c -> countable c ->
  nth_error (cl_subs c) i = Some s -> nth_error (cl_subs c) j = Some s' -> su_req s = true -> su_id s = su_id s' -> i = j.
Proof.
  intros H Hc Hi Hj Q E. destruct (ki_inv c H Hc) as [G1 G2 G3].
  destruct (su_req s') eqn:Q'.
  - apply (nodup_nth fst snd (keys c) i j (su_id s, su_req s) (su_id s', su_req s')); auto.
    + apply nodup_app in G1. apply G1.
    + unfold keys. now rewrite (map_nth_error _ _ _ Hi).
    + unfold keys. now rewrite (map_nth_error _ _ _ Hj).
  - exfalso. assert (In (su_id s', false) (keys c)).
    { unfold keys. apply in_map_iff. exists s'. rewrite Q'. split; [reflexivity | eapply nth_error_In; eassumption]. }
    apply G3 in H0.
    assert (In (su_id s) (req_ids c)).
    { unfold req_ids. apply in_map_iff. exists (su_id s, true). split; [reflexivity|]. apply filter_In. split; [|reflexivity].
      unfold keys. apply in_map_iff. exists s. rewrite Q. split; [reflexivity | eapply nth_error_In; eassumption]. }
    rewrite E in H1. apply nodup_app in G1 as (_ & _ & G1). apply (G1 _ H1 H0).
Qed.

Theorem stores_own c i j x : creachable c -> countable c ->
  nth_error (cl_stores c) i = Some x -> nth_error (cl_stores c) j = Some x -> i = j.
Proof.
  intros H Hc Hi Hj. destruct (ki_inv c H Hc) as [G1 _ _]. apply nodup_app in G1 as (_ & G1 & _).
  eapply NoDup_nth_error; [eassumption| |congruence]. apply nth_error_Some. congruence.
Qed.

(** Without the hypothesis: the ids stop growing. *)
Lemma many_calls (r : R) n : let c := crun cinit (repeat (UStream r) n) in length (cl_calls c) = n /\ cl_disp c = None.
Proof.
  cbn zeta. induction n as [|n [IH1 IH2]]; [split; reflexivity|].
  replace (S n) with (n + 1) by lia. rewrite repeat_app. cbn [repeat]. rewrite crun_snoc.
  set (c := crun cinit (repeat (UStream r) n)) in *. destruct (effect_ok c (UStream r)) as (c' & F & T).
  apply talk_parts in T as (_ & _ & _ & E1 & E2 & _).
  assert (U : user c = true) by (unfold user; now rewrite IH2).
  assert (X : length (cl_calls (cnext c (UStream r))) = S n /\ cl_disp (cnext c (UStream r)) = None).
  { clear E1 E2 F. cbn [Client.cnext]. rewrite U. unfold subscribe. cbn [set_id cl_id].
    destruct (enc (bump (cl_id c)) r).
    - set (c1 := set_stores _ _). pose proof (talk_send c1 (bump (cl_id c), t)) as T. apply talk_parts in T as (_ & _ & _ & -> & -> & _).
      cbn. rewrite app_length, IH1. cbn. split; [lia | assumption].
    - cbn. rewrite app_length, IH1. cbn. split; [lia | assumption]. }
  destruct X as [X1 X2]. split; [rewrite X1; lia | exact X2].
Qed.

Theorem ids_repeat (r : R) : exists c i j x, creachable c /\ i <> j /\ nth_error (cl_calls c) i = Some x /\ nth_error (cl_calls c) j = Some x.
Proof.
  set (n := N.to_nat top). set (c := crun cinit (repeat (UStream r) (S (S n)))).
  assert (Hr : creachable c) by (now exists (repeat (UStream r) (S (S n)))).
  destruct (many_calls r (S (S n))) as [L _]. fold c in L. pose proof (id_inv c Hr) as I.
  exists c, n, (S n), top. split; [assumption|]. split; [lia|].
  assert (G : forall i, n <= i < S (S n) -> nth_error (cl_calls c) i = Some top).
  { intros i Hi. destruct (nth_error (cl_calls c) i) as [x|] eqn:E.
    - rewrite (id_nth c I i x E). unfold nth_id. f_equal. lia.
    - apply nth_error_None in E. lia. }
  split; apply G; lia.
Qed.

(** ** C41: in the words of the specification *)
Theorem listener_hears c j s : creachable c -> nth_error (cl_subs c) j = Some s ->
  exists upto, su_from s <= upto <= length (cl_msgs c) /\
    hears (su_id s) (between (su_from s) upto (cl_msgs c)) (su_seen s) /\
    (su_live s = true -> cl_disp c = None -> upto = length (cl_msgs c)) /\
    (su_live s = false -> su_to s <= upto <= S (su_to s)).
Proof.
  intros H Hj. destruct (sb_hears c j s (ti_subs c (ti_inv c H) j s Hj)) as (u & H1 & H2 & H3 & H4).
  exists u. split; [assumption|]. split; [assumption|]. split; [|assumption]. intros L E. rewrite (H3 L). unfold past. now rewrite E.
Qed.

Lemma hears_first id l d r : hears id l (d :: r) ->
  exists i k ok, nth_error l i = Some (k, d, ok) /\ same k id = true /\
    forall i' k' d' ok', i' < i -> nth_error l i' = Some (k', d', ok') -> same k' id = true -> ok' = false.
Proof.
  remember (d :: r) as x eqn:E. intros H. revert d r E. induction H as [|k d0 ok l r0 Sm H IH|k d0 ok l r0 Sm H IH|k d0 l r0 Sm H IH]; intros d r E.
  - discriminate.
  - injection E as -> ->. exists 0, k, ok. repeat split; [assumption|]. intros; lia.
  - destruct (IH d r E) as (i & k1 & ok1 & H1 & H2 & H3). exists (S i), k1, ok1. repeat split; [assumption..|].
    intros [|i'] k' d' ok' Hi Hn Hs; [cbn in Hn; congruence|]. apply (H3 i' k' d' ok'); [lia | assumption | assumption].
  - destruct (IH d r E) as (i & k1 & ok1 & H1 & H2 & H3). exists (S i), k1, ok1. repeat split; [assumption..|].
    intros [|i'] k' d' ok' Hi Hn Hs; [cbn in Hn; congruence|]. apply (H3 i' k' d' ok'); [lia | assumption | assumption].
Qed.

Lemma hears_none id l : hears id l [] -> forall i k d ok, nth_error l i = Some (k, d, ok) -> same k id = true -> ok = false.
Proof.
  remember (@nil D) as x eqn:E. intros H. revert E. induction H as [|k0 d0 ok0 l r0 Sm H IH|k0 d0 ok0 l r0 Sm H IH|k0 d0 l r0 Sm H IH]; intros E i k d ok Hn Hs.
  - destruct i; discriminate.
  - discriminate.
  - destruct i as [|i]; [cbn in Hn; congruence|]. now apply (IH E i k d).
  - destruct i as [|i]; [cbn in Hn; congruence|]. now apply (IH E i k d).
Qed.

Lemma nth_skipn {X} a (l : list X) i : nth_error (skipn a l) i = nth_error l (a + i).
Proof. revert l. induction a as [|a IH]; intros l; [reflexivity|]. destruct l; [destruct i; reflexivity | apply IH]. Qed.
Lemma nth_firstn {X} n (l : list X) i : nth_error (firstn n l) i = if Nat.ltb i n then nth_error l i else None.
Proof.
  revert l i. induction n as [|n IH]; intros l i; [destruct i; reflexivity|]. destruct l as [|x l]; cbn [firstn].
  - destruct (Nat.ltb i (S n)); [reflexivity|]. destruct i; reflexivity.
  - destruct i as [|i]; [reflexivity|]. cbn [nth_error]. rewrite IH. reflexivity.
Qed.
Lemma nth_between {X} a b (l : list X) i : nth_error (between a b l) i = if Nat.ltb i (b - a) then nth_error l (a + i) else None.
Proof. unfold between. rewrite nth_firstn. destruct (Nat.ltb i (b - a)); [apply nth_skipn | reflexivity]. Qed.

Theorem request_settles c j s : creachable c -> nth_error (cl_subs c) j = Some s -> su_req s = true ->
  (su_seen s = [] \/ exists d, su_seen s = [d] /\ exists i k ok, su_from s <= i /\ nth_error (cl_msgs c) i = Some (k, d, ok) /\
      same k (su_id s) = true /\
      forall i' k' d' ok', su_from s <= i' < i -> nth_error (cl_msgs c) i' = Some (k', d', ok') -> same k' (su_id s) = true -> ok' = false) /\
  (su_live s = false -> su_bad s = true \/ su_seen s <> []).
Proof.
  intros H Hj Q. destruct (ti_subs c (ti_inv c H) j s Hj) as [A1 A2 A3]. split; [|intros; now apply A3].
  destruct (A2 Q) as [|(d & Hd & _)]; [now left|]. right. exists d. split; [assumption|].
  destruct A1 as (u & B1 & B2 & _). rewrite Hd in B2. apply hears_first in B2 as (i & k & ok & H1 & H2 & H3).
  rewrite nth_between in H1. destruct (Nat.ltb_spec i (u - su_from s)); [|discriminate].
  exists (su_from s + i), k, ok. split; [lia|]. split; [assumption|]. split; [assumption|].
  intros i' k' d' ok' Hi Hn Hs. apply (H3 (i' - su_from s) k' d'); [lia| |assumption].
  rewrite nth_between. destruct (Nat.ltb_spec (i' - su_from s) (u - su_from s)); [|lia].
  now replace (su_from s + (i' - su_from s)) with i' by lia.
Qed.

Theorem request_waits c j s : creachable c -> cl_disp c = None -> nth_error (cl_subs c) j = Some s -> su_live s = true -> su_seen s = [] ->
  forall i k d ok, su_from s <= i -> nth_error (cl_msgs c) i = Some (k, d, ok) -> same k (su_id s) = true -> ok = false.
Proof.
  intros H Hd Hj L E i k d ok Hi Hn Hs. destruct (listener_hears c j s H Hj) as (u & B1 & B2 & B3 & _).
  rewrite (B3 L Hd), E in B2. apply (hears_none _ _ B2 (i - su_from s) k d); [|assumption].
  assert (i < length (cl_msgs c)) by (apply nth_error_Some; congruence).
  rewrite nth_between. destruct (Nat.ltb_spec (i - su_from s) (length (cl_msgs c) - su_from s)); [|lia].
  now replace (su_from s + (i - su_from s)) with i by lia.
Qed.

Theorem request_adds c r : user c = true ->
  cl_calls (cnext c (URequest r)) = cl_calls c ++ [bump (cl_id c)] /\
  exists bad, cl_subs (cnext c (URequest r)) = cl_subs c ++ [mkSub (bump (cl_id c)) true bad true [] (done c) 0] /\
    (bad = true <-> enc (bump (cl_id c)) r = None).
Proof.
  intros U. cbn [Client.cnext]. rewrite U. unfold request. cbn [set_id cl_id]. destruct (enc (bump (cl_id c)) r) eqn:E.
  - set (c1 := add_sub _ _ _ _). pose proof (talk_send c1 (bump (cl_id c), t)) as T. apply talk_parts in T as (_ & -> & _ & _ & -> & _).
    split; [reflexivity|]. exists false. split; [reflexivity|]. split; discriminate.
  - split; [reflexivity|]. exists true. split; [reflexivity | split; reflexivity].
Qed.
End ClientProofs.
