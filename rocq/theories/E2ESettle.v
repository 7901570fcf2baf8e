(** A request comes to its end, second part: the schedule. *)
From Coq Require Import List Arith NArith Bool Lia.
From Verif Require Import Util Server ServerSpec ServerProofs ServerLemmas Pump PumpSpec PumpProofs.
From Verif Require Import Client ClientSpec ClientProofs ClientSockProofs E2E E2ESpec E2EProofs E2ESafe E2ELive E2EFlow.
Import ListNotations.

Section E2ESettle.
Context {R text K D : Type} (enc : N -> R -> option text) (read : text -> option (K * D)) (same : K -> N -> bool).
Context {A : app} (decode : text -> msg A) (encode : response A -> text).
Local Notation world := (world text K D A).
Local Notation wevent := (wevent R text A).
Local Notation client := (client text K D).
Local Notation wnext := (wnext enc read same decode encode).
Local Notation wrun := (wrun enc read same decode encode).
Local Notation at_time := (at_time enc read same decode encode).
Local Notation cnext := (cnext enc read same).
Local Notation pnext := (pnext decode encode).
Local Notation creachable := (creachable enc read same).
Local Notation preachable := (preachable decode encode).
Local Notation wreachable := (wreachable enc read same decode encode).
Implicit Types (w : world).

(** ** What stays of an entry *)
Definition bads (c : client) : list bool := map su_bad (cl_subs c).
Lemma bads_upd j (f : sub D -> sub D) l : (forall s, su_bad (f s) = su_bad s) -> map su_bad (upd j f l) = map su_bad l.
Proof. intros H. revert j. induction l as [|s l IH]; intros [|j]; cbn; congruence. Qed.

Lemma bads_next c e j b : nth_error (bads c) j = Some b -> nth_error (bads (cnext c e)) j = Some b.
Proof.
  intros H. destruct (effect_ok enc read same c e) as (c' & F & T). apply talk_parts in T as (_ & T & _).
  unfold bads in *. rewrite T. clear T.
  assert (Snoc : forall s, nth_error (map su_bad (cl_subs c ++ [s])) j = Some b).
  { intros s. rewrite map_app, nth_error_app1; [exact H | now apply nth_some_lt in H]. }
  assert (Del : forall i n, map su_bad (deleted i n (cl_subs c)) = map su_bad (cl_subs c)).
  { intros i n. apply bads_upd. intros s. now destruct (su_live s). }
  destruct F; try exact H; try apply Snoc; cbn.
  - now rewrite Del.
  - unfold visit. destruct (nth_error (cl_subs c) (dp_next d)) as [s|]; [|exact H]. cbn zeta.
    destruct (su_live s && same (dp_key d) (su_id s)); [|exact H]. cbn. rewrite bads_upd; auto.
  - now rewrite Del.
Qed.

(** ** Within a dispatch *)
Lemma in_dispatch (c : client) e d : cl_disp c = Some d -> dp_in d = false ->
  cnext c e = c \/ (e = CVisit /\ cnext c e = visit same d c).
Proof.
  intros E I. assert (U : user c = false) by (unfold user; now rewrite E). assert (Id : idle c = false) by (unfold idle; now rewrite E).
  destruct e; cbn [Client.cnext]; rewrite ?U, ?Id, ?E, ?I; auto.
Qed.

Section Codecs.
Context (val : R -> Json A) (data : Json A -> D).
Hypothesis U : understand enc read same decode encode val data.

Section Schedule.
Context (a : St A) (w0 : world) (r : R) (t : text) (call : Call A) (n : nat) (sigma : nat -> wevent).
Let id := bump (cl_id (w_cl w0)).
Let j := length (cl_subs (w_cl w0)).
Let w1 := wnext w0 (WClient (URequest r)).
Let W := at_time w1 sigma.
Hypothesis (Hr0 : wreachable a w0) (Hu : user (w_cl w0) = true) (He : enc id r = Some t).
Hypothesis (Hd : decode t = inl (Exec id (val r))) (Hf : from_value A (val r) = inl call) (Hst : is_stream A call = false).
Hypothesis Fa : fair enc read same decode encode w1 sigma n.
Let G : Prop := exists i res, ran a (W i) id (val r) call res /\
  match res with inl d => settled (W i) j (data d) | inr _ => True end.
Local Notation good := (good enc read same decode encode w1 n sigma).
Local Notation downs := (downs enc read same decode encode w1 sigma).
Local Notation outs := (outs enc read same decode encode w1 sigma).
Local Notation recv := (recv enc read same decode encode w1 sigma).
Local Notation based := (based enc read same decode encode w1 n sigma).
Hypothesis Ok : forall i, G \/ good i.

Lemma Hw1 : wreachable a w1.
Proof. now apply wreach_next. Qed.
Lemma Lv i : good i -> lives (W i) n.
Proof. intros H. apply (H i (le_n i)). Qed.
Lemma Co i : good i -> countable (w_cl (W i)).
Proof. intros H. apply (H i (le_n i)). Qed.

Lemma Wr i : wreachable a (W i).
Proof. unfold W. rewrite at_time_run. apply wreach_run. exact Hw1. Qed.
Lemma WS i : W (S i) = wnext (W i) (sigma i).
Proof. reflexivity. Qed.
Lemma Wcl i : creachable (w_cl (W i)).
Proof. apply (parts _ _ _ _ _ a (W i) (Wr i)). Qed.
Lemma Wsv i : preachable a (w_sv (W i)).
Proof. apply (parts _ _ _ _ _ a (W i) (Wr i)). Qed.
Lemma Wi i : WInv read (W i).
Proof. apply (winv_inv enc read same decode encode a). apply Wr. Qed.

Lemma Wmade i : good i -> made id t j (W i).
Proof.
  induction i as [|i IH]; intros Gd.
  - apply made_start with (a := a); auto. apply (Co 0 Gd).
  - rewrite WS. apply made_next with (a := a); [apply Wr | apply (Co (S i) Gd) | apply IH; apply (good_le _ _ _ _ _ _ _ _ (S i)); auto].
Qed.

Lemma P0 : good 0 -> place n (id, t) (w_cl w1).
Proof. intros Gd. destruct (parts _ _ _ _ _ a w0 Hr0) as [Hcl _]. apply (place_start enc read same n (w_cl w0) r t Hcl Hu He). apply (Lv 0 Gd). Qed.

Lemma Wbad i : nth_error (bads (w_cl (W i))) j = Some false.
Proof.
  induction i as [|i IH].
  - destruct (request_adds enc read same (w_cl w0) r Hu) as (_ & bad & E & Hb).
    change (w_cl (W 0)) with (cnext (w_cl w0) (URequest r)). unfold bads. rewrite E, map_app, nth_error_app2; rewrite map_length; [|apply le_n].
    unfold j. rewrite Nat.sub_diag. cbn. f_equal. destruct bad; [|reflexivity]. destruct Hb as [Hb _]. specialize (Hb eq_refl). fold id in Hb. congruence.
  - rewrite WS. destruct (cl_next enc read same decode encode (W i) (sigma i)) as [E|(ce & E)]; rewrite E; [exact IH|]. now apply bads_next.
Qed.

Lemma settled_goal i d : countable (w_cl (W i)) -> settled (W i) j d -> G.
Proof.
  intros C Se. unfold W in Se, C. rewrite at_time_run in Se, C.
  destruct (settled_by_handler enc read same decode encode val data U a w0 r t (map sigma (seq 0 i)) d Hr0 Hu He) as (_ & call2 & d0 & Z1 & Z2 & Z3); auto.
  { intros call2 Z. congruence. }
  assert (call2 = call) as -> by congruence. exists i, (inl d0). unfold W. rewrite at_time_run. subst d. split; [exact Z3 | exact Se].
Qed.

(** The callback of the request is called. *)
Definition pend (key : K) (dt : D) (i : nat) : Prop := exists x s, cl_disp (w_cl (W i)) = Some (mkDisp key dt x false) /\ x <= j /\
  nth_error (cl_subs (w_cl (W i))) j = Some s /\ su_seen s = [] /\ su_live s = true.
Definition reached (i : nat) : nat := match cl_disp (w_cl (W i)) with Some d => dp_next d | None => 0 end.

Lemma entry i : good i -> exists s, nth_error (cl_subs (w_cl (W i))) j = Some s /\ su_id s = id /\ su_req s = true /\ su_bad s = false.
Proof.
  intros Gd. destruct (Wmade i Gd) as [_ Key]. pose proof (Wbad i) as Bad. unfold keys in Key. unfold bads in Bad. rewrite nth_error_map in Key, Bad.
  destruct (nth_error (cl_subs (w_cl (W i))) j) as [s|]; [|discriminate]. injection Key as E1 E2. injection Bad as E3. eauto.
Qed.

Lemma visited i key dt : good i -> (forall id', (id' <= 2 ^ 53)%N -> same key id' = N.eqb id id') -> pend key dt i ->
  forall d, cl_disp (w_cl (W i)) = Some d -> w_cl (W (S i)) = visit same d (w_cl (W i)) ->
  settled (W (S i)) j dt \/ (pend key dt (S i) /\ reached (S i) = S (reached i)).
Proof.
  intros Gd Sm (x & s & H1 & H2 & H3 & H4 & H5) d Ed Ev. rewrite H1 in Ed. injection Ed as <-.
  destruct (entry i Gd) as (s' & Q1 & Q2 & Q3 & Q4). assert (s' = s) as -> by congruence.
  assert (Ids : forall y s2, nth_error (cl_subs (w_cl (W i))) y = Some s2 -> (su_id s2 <= 2 ^ 53)%N).
  { intros y s2 Y. destruct (ki_inv enc read same _ (Wcl i) (Co i Gd)) as [_ G2 G3]. pose proof (id_small enc read same _ (Wcl i)) as Sm'.
    enough (su_id s2 <= cl_id (w_cl (W i)))%N by lia. apply G2. apply in_app_iff. apply nth_error_In in Y.
    destruct (su_req s2) eqn:Rq.
    - left. unfold req_ids. apply in_map_iff. exists (su_id s2, true). split; [reflexivity|]. apply filter_In. split; [|reflexivity].
      unfold keys. apply in_map_iff. exists s2. now rewrite Rq.
    - right. apply G3. unfold keys. apply in_map_iff. exists s2. rewrite Rq. auto. }
  destruct (nth_error (cl_subs (w_cl (W i))) x) as [s2|] eqn:E2.
  2:{ apply nth_error_None in E2. apply nth_some_lt in H3. lia. }
  unfold visit in Ev. cbn [dp_next dp_key dp_data] in Ev. rewrite E2, (Sm _ (Ids x s2 E2)) in Ev. cbv zeta in Ev.
  destruct (Nat.eq_dec x j) as [->|Nj].
  - assert (s2 = s) as -> by congruence. rewrite H5, Q2, N.eqb_refl in Ev. cbn [andb] in Ev.
    left. unfold settled. rewrite Ev. cbn [set_disp set_subs cl_subs]. rewrite nth_upd, PeanoNat.Nat.eqb_refl, H3. cbn.
    eexists. split; [reflexivity|]. cbn. rewrite H4. auto.
  - assert (Hn : N.eqb id (su_id s2) = false).
    { apply N.eqb_neq. intros Q. apply Nj. symmetry. apply (request_id_own enc read same (w_cl (W i)) j x s s2); auto using Wcl, Co. congruence. }
    rewrite Hn, andb_false_r in Ev. cbn [andb] in Ev. right. split.
    + exists (S x), s. rewrite Ev. cbn [set_disp cl_disp cl_subs]. repeat split; auto. lia.
    + unfold reached. rewrite Ev, H1. reflexivity.
Qed.

Lemma called i d key : good i -> read (encode (RMethod id d)) = Some (key, data d) -> (forall id', (id' <= 2 ^ 53)%N -> same key id' = N.eqb id id') ->
  cl_disp (w_cl (W i)) = Some (mkDisp key (data d) 0 false) -> G \/ exists i' d', i <= i' /\ good i' /\ settled (W i') j d'.
Proof.
  intros G0 Rd Sm Ed.
  assert (Go : forall i, good i /\ pend key (data d) i -> G \/ exists i', i <= i' /\ good i' /\ exists d', settled (W i') j d').
  { apply (leads G (fun i => good i /\ pend key (data d) i) (fun i => good i /\ exists d', settled (W i) j d') (fun i => S j - reached i) (fun _ i => sigma i = WClient CVisit)).
    - intros i' [Gd Hp]. destruct (Ok (S i')) as [g|Gs]; [now left|]. right. right. pose proof Hp as (x & s & H1 & H2 & H3 & H4 & H5).
      assert (Same : w_cl (W (S i')) = w_cl (W i') -> (good (S i') /\ pend key (data d) (S i')) /\ S j - reached (S i') <= S j - reached i').
      { intros E. unfold pend, reached. rewrite E. split; [split; [exact Gs | exact Hp] | lia]. }
      assert (Vis : w_cl (W (S i')) = visit same (mkDisp key (data d) x false) (w_cl (W i')) ->
        (good (S i') /\ exists d', settled (W (S i')) j d') \/ ((good (S i') /\ pend key (data d) (S i')) /\ S j - reached (S i') <= S j - reached i')).
      { intros E. destruct (visited i' key (data d) Gd Sm Hp _ H1 E) as [X|[X1 X2]]; [left; eauto|]. right. split; [auto | lia]. }
      destruct (cl_next enc read same decode encode (W i') (sigma i')) as [E|(ce & E)]; rewrite <- WS in E; [right; auto|].
      destruct (in_dispatch (w_cl (W i')) ce _ H1 eq_refl) as [E'|[_ E']]; rewrite E' in E; auto.
    - intros v. apply (fa_visit _ _ _ _ _ _ _ _ Fa).
    - intros i' [Gd Hp] [Gs _] Es. right. right. pose proof Hp as (x & s & H1 & H2 & _).
      assert (E : w_cl (W (S i')) = visit same (mkDisp key (data d) x false) (w_cl (W i'))).
      { rewrite WS, Es. cbn [E2E.wnext w_cl Client.cnext]. now rewrite H1. }
      destruct (visited i' key (data d) Gd Sm Hp _ H1 E) as [X|[X1 X2]]; [left; eauto|]. right.
      assert (reached i' = x) by (unfold reached; now rewrite H1). lia. }
  destruct (entry i G0) as (s & Q1 & Q2 & Q3 & Q4).
  destruct (ti_subs _ _ (ti_inv enc read same _ (Wcl i)) j s Q1) as [_ S2 S3].
  destruct (S2 Q3) as [Z|(d' & Z & _)].
  - destruct (Go i) as [g|(i' & L & Gd & d' & X)]; [|now left | right; eauto]. split; [exact G0|]. exists 0, s. repeat split; auto; [lia|].
    destruct (su_live s) eqn:Ls; [reflexivity|]. destruct (S3 Q3 eq_refl); congruence.
  - right. exists i, d'. split; [lia|]. split; [exact G0|]. exists s. auto.
Qed.

Lemma own_at i : good i -> own id t (w_cl (W i)).
Proof. intros Gd. apply (Wmade i Gd). Qed.
Lemma id_bound : good 0 -> (id <= 2 ^ 53)%N.
Proof. intros Gd. pose proof (own_at 0 Gd) as [H _]. pose proof (id_small enc read same _ (Wcl 0)). lia. Qed.

Section Linked.
Context (i0 p l k c : nat).
Hypothesis (Ep : nth_error (sent_on (w_cl (W i0)) n) p = Some (id, t)) (B0 : based l k c i0).

Lemma Link_pump i x : nth_error (w_links (W i)) l = Some x -> ln_pump x = k.
Proof. exact (link_pump _ _ _ _ _ _ _ _ _ _ _ _ B0 i x). Qed.
Lemma Sock_conn i s : nth_error (p_socks (w_sv (W i))) k = Some s -> sk_conn s = c.
Proof. exact (sock_conn _ _ _ _ _ _ _ _ _ _ _ _ B0 i s). Qed.
Lemma Outs_are i q y : nth_error (outs k i) q = Some y -> exists o resp, nth_error (recv c i) q = Some (o, resp) /\ y = encode resp.
Proof. exact (outs_are _ _ _ _ _ _ _ _ _ Hw1 _ _ _ _ B0 i q y). Qed.

(** The response for [id] has not arrived before the call was made. *)
Lemma down_zero i q o resp : good 0 -> nth_error (recv c i) q = Some (o, resp) -> response_id resp = Some id -> downs l 0 <= q.
Proof.
  intros G0 E Hid. destruct (Nat.lt_ge_cases q (downs l 0)) as [X|X]; [|exact X]. exfalso.
  unfold E2EFlow.downs in X. fold W in X. destruct (nth_error (w_links (W 0)) l) as [x|] eqn:Ex; [|lia].
  pose proof (nth_error_In _ _ Ex) as Hx.
  destruct (wi_link _ _ (Wi 0) x Hx) as (_ & s & Q1 & _ & _ & Q2). pose proof (Link_pump 0 x Ex) as Px. rewrite Px in Q1.
  assert (Eo : outs k 0 = sk_out s) by (unfold E2EFlow.outs; fold W; now rewrite Q1).
  destruct (nth_error (outs k 0) q) as [y|] eqn:Ey. 2:{ apply nth_error_None in Ey. rewrite Eo in Ey. lia. }
  destruct (Outs_are 0 q y Ey) as (o' & resp' & E0 & _).
  pose proof (grows_nth (recv c) (recv_grow enc read same decode encode w1 sigma c) 0 i q _ (Nat.le_0_l i) E0) as E1. rewrite E in E1. injection E1 as <- <-.
  apply nth_error_In in E0. change (recv c 0) with (received (p_srv (w_sv w0)) c) in E0.
  assert (Ho : is_ours w0 c).
  { exists x, s. split; [exact Hx|]. rewrite Px. split; [exact Q1 | apply (Sock_conn 0 s Q1)]. }
  destruct (response_own enc read same decode encode val data U a w0 c o resp Hr0 Ho E0) as [(id' & t' & r' & S1 & _ & S2 & _)|(e & ->)]; [|discriminate].
  assert (id' = id) as -> by congruence. destruct (parts _ _ _ _ _ a w0 Hr0) as [Hcl _].
  apply (stuff_ok enc read same _ _ Hcl) in S2 as [S2 _]. cbn in S2.
  assert (B : bump (cl_id (w_cl w0)) = (cl_id (w_cl w0) + 1)%N).
  { apply (bump_next enc read same _ Hcl). pose proof (Co 0 G0) as C0. unfold countable in *.
    destruct (request_adds enc read same (w_cl w0) r Hu) as (C & _). change (w_cl (W 0)) with (cnext (w_cl w0) (URequest r)) in C0. rewrite C in C0. exact C0. }
  fold id in B. lia.
Qed.

Lemma linked_ends : good i0 -> G.
Proof.
  intros Gd0. destruct (comes_up enc read same decode encode a w1 id t (val r) n sigma Hw1 Hd Fa G Ok i0 p l k c Gd0 Ep B0) as [g|(i2 & b & L02 & G2 & Eb2 & Lb)]; [exact g|].
  fold W in Eb2, Lb.
  pose proof (based_all _ _ _ _ _ _ _ _ _ _ _ _ B0 i2 G2 L02) as B2.
  assert (Rx : rx_alive (p_srv (w_sv (W i2))) c = true) by (apply (rx_based _ _ _ _ _ a _ _ _ Hw1 _ _ _ _ B0 i2 G2 L02)).
  assert (Sr : reachable a (p_srv (w_sv (W i2)))) by (apply (PumpProofs.refines decode encode a _ (Wsv i2))).
  destruct (answered a _ b c id (val r) call Sr (proj1 (proj2 (Lv i2 G2))) Rx Eb2 Hf Hst Lb) as (resp & Hin & Hid).
  pose proof (based_ours _ _ _ _ _ _ _ _ _ _ _ _ B2) as Ho. fold W in Ho.
  destruct (loop_ran enc read same decode encode val data U a (W i2) c id r t resp (Wr i2) (Co i2 G2) Ho (own_at i2 G2) He Hd Hin Hid) as [(e & X & _)|(call' & res & Ef & _ & Ran & Er)]; [congruence|].
  assert (call' = call) as -> by congruence.
  destruct res as [d|e]; [|exists i2, (inr e); auto]. cbn in Er. subst resp.
  apply In_nth_error in Hin as (q & Eq). pose proof (good_le _ _ _ _ _ _ _ _ i2 0 (Nat.le_0_l _) G2) as Gz.
  destruct (comes_down enc read same decode encode a w1 id t n sigma Hw1 Fa G Ok i0 p l k c Ep B0 i2 q SrcLoop (RMethod id d) G2 L02 Eq) as [g|(i4 & L4 & G4 & Ld)]; [exact g|].
  destruct (crossing (downs l) q i4 (down_zero i2 q _ _ Gz Eq Hid) Ld) as (i5 & L5 & D1 & D2).
  destruct (down_next _ _ _ _ _ _ _ _ i5 q D1 D2) as (_ & x & s & y & X1 & X2 & X3 & X4 & X5 & X6). fold W in X1, X2, X4, X5, X6.
  rewrite (Link_pump i5 x X1) in X2.
  assert (Y : nth_error (outs k i5) q = Some y) by (unfold E2EFlow.outs; fold W; now rewrite X2).
  destruct (Outs_are i5 q y Y) as (o' & resp' & Y1 & Y2).
  assert (resp' = RMethod id d).
  { pose proof (grows_nth (recv c) (recv_grow enc read same decode encode w1 sigma c) i5 (i5 + i2) q _ (Nat.le_add_r _ _) Y1) as Z1.
    pose proof (grows_nth (recv c) (recv_grow enc read same decode encode w1 sigma c) i2 (i5 + i2) q _ ltac:(lia) Eq) as Z2. rewrite Z1 in Z2. congruence. }
  subst resp' y. destruct (un_method _ _ _ _ _ _ _ U id d (id_bound Gz)) as (key & Rd & Sm).
  destruct (Ok (S i5)) as [g|G5]; [exact g|].
  destruct (called (S i5) d key G5 Rd Sm) as [g|(i6 & d' & L6 & G6 & Se)]; [|exact g|].
  { rewrite X6. cbn [Client.cnext]. rewrite X4, X5, Rd. reflexivity. }
  now apply (settled_goal i6 d' (Co i6 G6)).
Qed.
End Linked.

Lemma ends_sched : G.
Proof.
  destruct (starts enc read same decode encode a w1 id t n sigma Hw1 Fa G Ok P0) as [g|(i0 & p & l & k & c & Gd & Ep & B0)]; [exact g|].
  exact (linked_ends i0 p l k c Ep B0 Gd).
Qed.
End Schedule.

Lemma settled_dec w j : (exists d, settled w j d) \/ forall d, ~ settled w j d.
Proof.
  destruct (nth_error (cl_subs (w_cl w)) j) as [s|] eqn:E.
  2:{ right. intros d (s & E' & _). congruence. }
  destruct (su_req s) eqn:Er.
  2:{ right. intros d (s' & E' & X & _). congruence. }
  destruct (su_seen s) as [|d [|d' l]] eqn:Es.
  - right. intros d (s' & E' & _ & X). congruence.
  - left. exists d, s. auto.
  - right. intros d'' (s' & E' & _ & X). congruence.
Qed.

(** Every request made on a socket that lives until the request is settled gets to the handler, and is settled with its result. *)
Theorem request_ends a w0 r t call n sigma :
  let id := bump (cl_id (w_cl w0)) in
  let j := length (cl_subs (w_cl w0)) in
  let w1 := wnext w0 (WClient (URequest r)) in
  wreachable a w0 -> user (w_cl w0) = true -> enc id r = Some t -> decode t = inl (Exec id (val r)) ->
  from_value A (val r) = inl call -> is_stream A call = false ->
  fair enc read same decode encode w1 sigma n ->
  (forall i, (forall i' d, i' < i -> ~ settled (at_time w1 sigma i') j d) ->
    lives (at_time w1 sigma i) n /\ countable (w_cl (at_time w1 sigma i))) ->
  exists i res, ran a (at_time w1 sigma i) id (val r) call res /\
    match res with inl d => settled (at_time w1 sigma i) j (data d) | inr _ => True end.
Proof.
  cbv zeta. intros Hr0 Hu He Hd Hf Hst Fa Hl. apply (ends_sched a w0 r t call n sigma); auto.
  set (W := at_time (wnext w0 (WClient (URequest r))) sigma) in *. set (j := length (cl_subs (w_cl w0))) in *.
  assert (Go : forall i, (exists i0 d, i0 < i /\ settled (W i0) j d /\ forall i' d', i' < i0 -> ~ settled (W i') j d') \/ forall i' d', i' < i -> ~ settled (W i') j d').
  { induction i as [|i [(i0 & d & L & X)|IH]]; [right; lia | left; exists i0, d; split; [lia | exact X] |].
    destruct (settled_dec (W i) j) as [[d X]|X]; [left; exists i, d; auto|]. right. intros i' d' L.
    destruct (Nat.eq_dec i' i) as [->|]; [apply X | apply IH; lia]. }
  intros i. destruct (Go i) as [(i0 & d & _ & X & Y)|Y].
  - left. apply (settled_goal a w0 r t call sigma Hr0 Hu He Hf Hst i0 d); [apply Hl; exact Y | exact X].
  - right. intros i' L. apply Hl. intros i'' d' L'. apply Y. lia.
Qed.
End Codecs.
End E2ESettle.
