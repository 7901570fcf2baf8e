(** The subscriptions are told of a message.  Proof side. *)
From Coq Require Import List String Ascii Bool Arith NArith ZArith Lia.
From Verif Require Import Util Js JsonText Wire TsProgram FileProofs ClientSpec JsSem JsRun JsFun JsSend JsCalls JsRequest JsEvents JsHeap JsNet JsFlush JsSpec JsWorld JsStep JsEntries JsActs JsListen JsCode JsJobs.
From Verif Require Client ClientSockProofs.
Import ListNotations.
Local Open Scope string_scope.
Local Open Scope list_scope.

Lemma v_same d c c' : ClientSockProofs.Shape c' -> same_net c c' -> Client.cl_subs c' = Client.cl_subs c -> Client.cl_stores c' = Client.cl_stores c -> Client.cl_id c' = Client.cl_id c ->
  Inv d c -> Inv d c'.
Proof.
  intros S N E1 E2 E3 H. constructor; [exact S| |rewrite E1, E2; exact (v_ent H)|rewrite E3; exact (v_id H)|rewrite E3; exact (v_lim H)].
  rewrite <- (app_nil_r (d_rest d)). eapply s_mono; [apply keeps_refl|exact N|exact (v_net H)].
Qed.
Definition d_more (g : list frame) (d : world) : world :=
  mkD (d_id d) (d_iv d) (d_so d) (d_op d) (d_th d) (d_cnt d) (d_rest d ++ g) (d_fr d) (d_h d) (d_sk d) (d_su d) (d_tm d) (d_t d) (d_us d) (d_sp d) (d_ln d) (d_es d).
Lemma v_more d c g : Inv d c -> Inv (d_more g d) c.
Proof.
  intros H. constructor; unfold d_more; fields; try apply H.
  - eapply s_mono; [apply keeps_refl|repeat split|exact (v_net H)].
  - rewrite <- (app_nil_r (d_t d)). eapply e_mono; [apply keeps_refl|apply Nat.le_refl|constructor|exact (v_ent H)].
Qed.

Section Each.
Context (lit : num -> jstr) (num : jstr -> num) (other : jsval -> N -> bool).
Local Notation call := (call lit num other).
Local Notation user := (user lit num other).
Local Notation for_each := (for_each lit num other).
Local Notation cnext := (Client.cnext (js_enc lit) (js_read num) (js_same other)).
Local Notation acts_next := (acts_next lit num other).
Local Notation leads := (leads lit num other).

Lemma each_S n i g id iv so op th cnt rest fr pr sk su tm jb us : for_each (S n) 0 i g (St id iv so op th cnt rest fr pr sk su tm jb us) =
  match nth_error su i with
  | None => Ok VUndef (St id iv so op th cnt rest fr pr sk su tm jb us)
  | Some None => for_each n 0 (S i) g (St id iv so op th cnt rest fr pr sk su tm jb us)
  | Some (Some v) => then_ok (call n g [v; v; VSet 0] (St id iv so op th cnt rest fr pr sk su tm jb us)) (fun _ => for_each n 0 (S i) g)
  end.
Proof. cbn [JsSem.for_each]. unfold bind at 1, attempt at 1, gets. cbn [st_sets St]. unfold bind at 1, attempt at 1. cbn [some nth_error]. unfold ret at 1. destruct (nth_error su i) as [[v|]|]; reflexivity. Qed.

Definition saw (v : jsval) (s : sub) : sub :=
  Client.mkSub (Client.su_id s) (Client.su_req s) (Client.su_bad s) (Client.su_live s) (Client.su_seen s ++ [v]) (Client.su_from s) (Client.su_to s).
Lemma visit_is (c : client) k v i inn s : Client.cl_disp c = Some (Client.mkDisp k v i inn) -> nth_error (Client.cl_subs c) i = Some s ->
  cnext c Client.CVisit =
  if Client.su_live s && js_same other k (Client.su_id s)
  then Client.set_disp (Some (Client.mkDisp k v (S i) (negb (Client.su_req s)))) (Client.cl_msgs c) (Client.set_subs (upd i (fun _ => saw v s) (Client.cl_subs c)) c)
  else Client.set_disp (Some (Client.mkDisp k v (S i) false)) (Client.cl_msgs c) c.
Proof.
  intros Ed Es. cbn [Client.cnext]. rewrite Ed. unfold Client.visit. cbn [Client.dp_next Client.dp_key Client.dp_data]. rewrite Es.
  destruct (Client.su_live s && js_same other k (Client.su_id s)); [|reflexivity]. rewrite (upd_const i _ _ s Es). reflexivity.
Qed.
Lemma visit_end (c : client) k v i inn : Client.cl_disp c = Some (Client.mkDisp k v i inn) -> nth_error (Client.cl_subs c) i = None ->
  cnext c Client.CVisit = Client.set_disp None (Client.cl_msgs c) c.
Proof. intros Ed Es. cbn [Client.cnext]. rewrite Ed. unfold Client.visit. cbn [Client.dp_next]. now rewrite Es. Qed.

(** Where a visit goes. *)
Record visited (i : nat) (k v : jsval) (d : world) (c : client) (d' : world) (c' : client) : Prop := {
  vi_inv : Inv d' c';
  vi_disp : exists inn, Client.cl_disp c' = Some (Client.mkDisp k v (S i) inn);
  vi_iv : d_iv d' = d_iv d;
  vi_size : List.length (d_es d') + sum (map sc_work (left d')) <= List.length (d_es d) + sum (map sc_work (left d));
  vi_rest : exists g, d_rest d' = d_rest d ++ g;
  vi_leads : forall sc1 c1, leads (left d') c' sc1 c1 -> leads (left d) c sc1 c1
}.

Lemma one_req d c i k v inn q s fi f e x : Inv d c -> Client.cl_disp c = Some (Client.mkDisp k v i inn) -> d_iv d = VArr [VData k; VData v] ->
  nth_error (d_rest d) f = Some (message_frame e x) -> nth_error (d_es d) i = Some (EReq q) -> nth_error (Client.cl_subs c) i = Some s -> Client.su_live s = true ->
  exists d' c', (forall n, call (50 + n) (f_visit fi (2 + f)) [clo_req q; clo_req q; VSet 0] (conc d) = Ok VUndef (conc d')) /\ visited i k v d c d' c'.
Proof.
  intros H Ed Ei Hf Hq Hs Lv. pose proof (e_ok (v_ent H) i _ _ Hq Hs) as O. cbn [ent_ok] in O.
  pose proof O as [A1 A2 A3 A4 A5 A6 A7 A8 A9 A10 (ns & m & l & u & B1 & B2 & B3) A12 A13 A14].
  pose proof (visit_is c k v i inn s Ed Hs) as Ec. rewrite Lv, A2 in Ec. cbn [andb negb] in Ec.
  pose proof (shape_next lit num other c Client.CVisit (v_shape H)) as Sh.
  set (w1 := visit_frame (clo_req q)). set (w2 := pair_frame k v).
  pose proof (nth_old _ [w1] _ _ B1) as B1'. pose proof (nth_old _ [w1] _ _ B2) as B2'.
  destruct (js_same other k (Client.su_id s)) eqn:Sm.
  2:{ (* not for it *)
    exists (d_more [w1; w2] d), (cnext c Client.CVisit). split.
    - intros n. unfold conc at 1. change (50 + n) with (20 + (30 + n)). eapply visit_ok; [exact Hf|reflexivity|]. rewrite Ei. change (16 + (30 + n)) with (20 + (26 + n)).
      unfold clo_req at 1. erewrite answer_miss; [|exact B2'|rewrite <- A1; exact Sm]. unfold conc, d_more. fields. rewrite <- app_assoc, Ei. reflexivity.
    - constructor; try reflexivity.
      + apply v_more. apply v_same with c; try (rewrite Ec; reflexivity); [exact Sh|rewrite Ec; repeat split|exact H].
      + exists false. rewrite Ec. reflexivity.
      + exists [w1; w2]. reflexivity.
      + intros sc1 c1 L. apply l_visit. exact L. }
  destruct (stage_data (q_g q)) as [v0|] eqn:Eg.
  - (* it has its answer *)
    exists (d_more [w1; w2] d), (cnext c Client.CVisit). split.
    + intros n. unfold conc at 1. change (50 + n) with (20 + (30 + n)). eapply visit_ok; [exact Hf|reflexivity|]. rewrite Ei. change (16 + (30 + n)) with (30 + (16 + n)).
      unfold clo_req at 1. erewrite answer_used; [|exact B2'|exact B1'|rewrite <- A1; exact Sm|].
      2:{ eapply nth_snd. rewrite A7. unfold p1. rewrite Eg. reflexivity. }
      unfold conc, d_more. fields. rewrite <- app_assoc, Ei. reflexivity.
    + constructor; try reflexivity.
      * apply v_more. rewrite Ec in *. constructor; [exact Sh| | |exact (v_id H)|exact (v_lim H)].
        -- rewrite <- (app_nil_r (d_rest d)). eapply s_mono; [apply keeps_refl| |exact (v_net H)]. repeat split.
        -- cbn [Client.set_disp Client.set_subs Client.cl_subs Client.cl_stores].
           pose proof (e_set _ (d_h d) _ [] _ (d_fr d) _ (d_t d) _ _ _ _ _ i q q s (saw v s) (v_ent H) Hq Hs) as E.
           change (slot (EReq q) (saw v s)) with (slot (EReq q) s) in E.
           rewrite (upd_nth_same i (d_su d)) in E by (eapply e_slot; [exact (v_ent H)|exact Hq|exact Hs]).
           rewrite (upd_nth_same i (d_es d)) in E by exact Hq. rewrite app_nil_r in E. apply E; try reflexivity; [apply keeps_refl|now intros|exact (e_mark (v_ent H))|].
           destruct O. constructor; try assumption. cbn [saw Client.su_seen]. rewrite Eg. destruct (Client.su_seen s); [discriminate|exact A5].
      * exists false. rewrite Ec. reflexivity.
      * exists [w1; w2]. reflexivity.
      * intros sc1 c1 L. apply l_visit. exact L.
  - (* its answer *)
    assert (Eg' : q_g q = G0) by (destruct (q_g q); cbn in Eg; congruence).
    set (q' := q_set (G1 v) (q_b q) (q_n q) q). set (h' := put (q_p q + 1) (OReq i 1) (p_ful v) (d_h d)).
    set (nw := [(MStage i, JReact (HFun (f_same (q_s q) (2 + q_f q))) true (VData v) (Some (q_2 q)))]).
    exists (mkD (d_id d) (d_iv d) (d_so d) (d_op d) (d_th d) (d_cnt d) (d_rest d ++ [w1; w2]) (d_fr d) h' (d_sk d) (d_su d) (d_tm d) (d_t d ++ nw) (d_us d) (d_sp d) (d_ln d) (upd i (fun _ => EReq q') (d_es d))), (cnext c Client.CVisit).
    assert (HH : nth_error (map snd (d_h d)) (q_p q + 1) = Some (mkProm (PPending [mkRe (HFun (f_same (q_s q) (2 + q_f q))) HNone (Some (q_2 q))]) false)).
    { eapply nth_snd. rewrite A7. unfold p1. rewrite Eg. reflexivity. }
    split.
    + intros n. unfold conc at 1. change (50 + n) with (20 + (30 + n)). eapply visit_ok; [exact Hf|reflexivity|]. rewrite Ei. change (16 + (30 + n)) with (30 + (16 + n)).
      unfold clo_req at 1. erewrite answer_hit; [|exact B2'|exact B1'|rewrite <- A1; exact Sm|exact HH].
      unfold conc. fields. rewrite <- app_assoc, ?Ei. unfold h', nw. rewrite map_app, put_snd. reflexivity.
    + constructor; try reflexivity.
      * rewrite Ec in *. constructor; fields; [exact Sh| | |exact (v_id H)|exact (v_lim H)].
        -- rewrite links_app. change (links nw) with (@nil out). rewrite app_nil_r. eapply s_mono; [eapply keeps_put; [exact A7|now intros []]| |exact (v_net H)]. repeat split.
        -- cbn [Client.set_disp Client.set_subs Client.cl_subs Client.cl_stores].
           pose proof (e_set _ h' _ [w1; w2] _ (d_fr d) _ (d_t d ++ nw) _ _ _ _ _ i q q' s (saw v s) (v_ent H) Hq Hs) as E.
           change (slot (EReq q) (saw v s)) with (slot (EReq q) s) in E.
           rewrite (upd_nth_same i (d_su d)) in E by (eapply e_slot; [exact (v_ent H)|exact Hq|exact Hs]).
           apply E; try reflexivity.
           ++ eapply keeps_put; [exact A7|]. cbn. congruence.
           ++ intros j N. rewrite !on_mark_app. assert (Nb : Nat.eqb j i = false) by (now apply Nat.eqb_neq). unfold on_mark at 2 5, nw. cbn. rewrite Nb. cbn. now rewrite !app_nil_r.
           ++ apply Forall_app. split; [exact (e_mark (v_ent H))|]. repeat constructor. exists q. exact Hq.
           ++ pose proof (put_keep _ _ _ (p_ful v) _ A7) as Z. pose proof (put_same _ _ (OReq i 1) (p_ful v) _ A7) as Z0. fold h' in Z, Z0.
              destruct q as [qk p p2' a f' sa fi' gg b n]; cbn [q_k q_p q_2 q_a q_f q_s q_i q_g q_b q_n] in *; subst gg.
              apply Build_req_ok; try assumption; try reflexivity; try (apply Z; [assumption|discriminate]).
              ** cbn [saw Client.su_seen]. cbn in A5. destruct (Client.su_seen s); [reflexivity|discriminate].
              ** intros z pz Hz. discriminate.
              ** exists ns, m, l, u. repeat split; now apply nth_old.
              ** rewrite on_mark_app, A12. unfold on_mark, nw. cbn. now rewrite Nat.eqb_refl.
              ** rewrite on_mark_app, A13. unfold on_mark, nw. cbn. now rewrite app_nil_r.
              ** discriminate.
      * exists false. rewrite Ec. reflexivity.
      * fields. unfold left. fields. rewrite upd_length. lia.
      * exists [w1; w2]. reflexivity.
      * intros sc1 c1 L. apply l_visit. exact L.
Qed.
Lemma heard_other j v us u : u <> j -> heard_by u (heard j v us) = heard_by u us.
Proof.
  intros N. unfold heard_by, heard. cbn [us_heard us_set_heard]. rewrite filter_app, map_app. cbn. replace (Nat.eqb j u) with false by (symmetry; apply Nat.eqb_neq; congruence).
  cbn. apply app_nil_r.
Qed.
Lemma heard_self j v us : heard_by j (heard j v us) = heard_by j us ++ [[VData v]].
Proof. unfold heard_by, heard. cbn [us_heard us_set_heard]. rewrite filter_app, map_app. cbn. now rewrite Nat.eqb_refl. Qed.

Lemma one_hear d c i k v inn l s fi f e x : Inv d c -> Client.cl_disp c = Some (Client.mkDisp k v i inn) -> d_iv d = VArr [VData k; VData v] ->
  nth_error (d_rest d) f = Some (message_frame e x) -> nth_error (d_es d) i = Some (EHear l) -> nth_error (Client.cl_subs c) i = Some s -> Client.su_live s = true ->
  exists d' c', ((forall n, call (143 + n) (f_visit fi (2 + f)) [clo_lis l; clo_lis l; VSet 0] (conc d) = Ok VUndef (conc d')) /\ visited i k v d c d' c') \/
    (forall n, call (143 + n) (f_visit fi (2 + f)) [clo_lis l; clo_lis l; VSet 0] (conc d) = Throw (VErr "Error") (conc d')) /\
    Inv d' c' /\ Client.cl_disp c' = None /\ forall sc1 c1, leads (left d') c' sc1 c1 -> leads (left d) c sc1 c1.
Proof.
  intros H Ed Ei Hf Hl Hs Lv. pose proof (e_ok (v_ent H) i _ _ Hl Hs) as O. cbn [ent_ok] in O.
  pose proof O as [A1 A2 A3 A4 (i' & ns & m & y & A5) A6].
  pose proof (visit_is c k v i inn s Ed Hs) as Ec. rewrite Lv, A2 in Ec. cbn [andb negb] in Ec.
  pose proof (shape_next lit num other c Client.CVisit (v_shape H)) as Sh.
  set (w1 := visit_frame (clo_lis l)). set (w2 := pair_frame k v).
  pose proof (nth_old _ [w1] _ _ A3) as A3'. pose proof (nth_old _ [w1] _ _ A5) as A5'.
  destruct (js_same other k (Client.su_id s)) eqn:Sm.
  2:{ (* not for it *)
    exists (d_more [w1; w2] d), (cnext c Client.CVisit). left. split.
    - intros n. unfold conc at 1. change (143 + n) with (20 + (123 + n)). eapply visit_ok; [exact Hf|reflexivity|]. rewrite Ei. change (16 + (123 + n)) with (20 + (119 + n)).
      unfold clo_lis at 1. erewrite hear_miss; [|exact A3'|exact A5'|rewrite <- A1; exact Sm]. unfold conc, d_more. fields. rewrite <- app_assoc, ?Ei. reflexivity.
    - constructor; try reflexivity.
      + apply v_more. apply v_same with c; try (rewrite Ec; reflexivity); [exact Sh|rewrite Ec; repeat split|exact H].
      + exists false. rewrite Ec. reflexivity.
      + exists [w1; w2]. reflexivity.
      + intros sc1 c1 L. apply l_visit. exact L. }
  set (d1 := mkD (d_id d) (d_iv d) (d_so d) (d_op d) (d_th d) (d_cnt d) (d_rest d ++ [w1; w2]) (d_fr d) (d_h d) (d_sk d) (d_su d) (d_tm d) (d_t d) (heard (l_u l) v (d_us d)) (d_sp d) (d_ln d) (d_es d)).
  set (c1 := cnext c Client.CVisit) in *.
  assert (H1 : Inv d1 c1).
  { rewrite Ec in *. constructor; unfold d1; fields; [exact Sh| | |exact (v_id H)|exact (v_lim H)].
    - eapply s_mono; [apply keeps_refl| |exact (v_net H)]. repeat split.
    - cbn [Client.set_disp Client.set_subs Client.cl_subs Client.cl_stores].
      pose proof (e_lis _ _ [w1; w2] _ (d_fr d) _ _ (heard (l_u l) v (d_us d)) _ _ _ _ i l s (saw v s) (v_ent H) Hl Hs) as E.
      change (slot (EHear l) (saw v s)) with (slot (EHear l) s) in E.
      rewrite (upd_nth_same i (d_su d)) in E by (eapply e_slot; [exact (v_ent H)|exact Hl|exact Hs]). apply E; try reflexivity.
      + constructor; try assumption; [now apply nth_old..| |].
        * exists i', ns, m, y. now apply nth_old.
        * rewrite heard_self, A6. cbn [saw Client.su_seen]. now rewrite map_app.
      + intros u N. now apply heard_other.
      + cbn [heard us_heard us_set_heard]. apply Forall_app. split; [exact (e_hd (v_ent H))|]. repeat constructor. cbn.
        pose proof (nums_in _ _ _ Hl) as In1. rewrite (e_num (v_ent H)) in In1. apply in_seq in In1. lia. }
  assert (Ed1 : Client.cl_disp c1 = Some (Client.mkDisp k v (S i) true)) by (rewrite Ec; reflexivity).
  assert (U1 : Client.user c1 = true) by (unfold Client.user; now rewrite Ed1).
  destruct (user_ok lit num other d1 c1 H1 U1) as (d2 & R & I2 & L2 & V2 & W2 & D2 & S2 & (g & G2')).
  assert (Run : forall n, call (143 + n) (f_visit fi (2 + f)) [clo_lis l; clo_lis l; VSet 0] (conc d) = then_ok (user (132 + n) (conc d1)) (fun _ => ret VUndef)).
  { intros n. unfold conc at 1. change (143 + n) with (20 + (123 + n)). eapply visit_ok; [exact Hf|reflexivity|]. rewrite Ei. change (16 + (123 + n)) with (20 + (119 + n)).
    unfold clo_lis at 1. erewrite hear_hit; [|exact A3'|exact A5'|rewrite <- A1; exact Sm|reflexivity]. change (13 + (119 + n)) with (132 + n).
    unfold conc, d1. fields. rewrite <- app_assoc, ?Ei. reflexivity. }
  change (left d1) with (left d) in *. set (z := fst (pop (left d))) in *.
  set (c2 := acts_next c1 (sc_acts z)) in *.
  destruct (sc_throw z) eqn:Ez.
  - exists d2, (cnext c2 Client.UThrow). right. split; [intros n; rewrite Run, R; reflexivity|].
    assert (Et : cnext c2 Client.UThrow = Client.set_disp None (Client.spoil (Client.cl_msgs c2)) c2) by (cbn [Client.cnext]; rewrite D2, Ed1; reflexivity).
    split; [|split].
    + apply v_same with c2; try (rewrite Et; reflexivity); [apply shape_next, (v_shape I2)|rewrite Et; repeat split|exact I2].
    + now rewrite Et.
    + intros sc3 c3 L. apply l_visit. fold c1. apply l_code; [exact U1|]. rewrite L2 in L. unfold code_next. fold z. rewrite Ez. exact L.
  - exists d2, c2. left. split; [intros n; rewrite Run, R; reflexivity|]. constructor.
    + exact I2.
    + exists true. congruence.
    + exact V2.
    + exact S2.
    + exists ([w1; w2] ++ g). rewrite G2'. unfold d1. fields. now rewrite <- app_assoc.
    + intros sc3 c3 L. apply l_visit. fold c1. apply l_code; [exact U1|]. rewrite L2 in L. unfold code_next. fold z. rewrite Ez. exact L.
Qed.

Lemma each_ok m : forall d c i k v inn fi f e x, List.length (d_es d) + sum (map sc_work (left d)) <= i + m -> Inv d c -> Client.cl_disp c = Some (Client.mkDisp k v i inn) -> d_iv d = VArr [VData k; VData v] ->
  nth_error (d_rest d) f = Some (message_frame e x) ->
  exists d' c' N r, (r = Ok VUndef (conc d') \/ exists w, r = Throw w (conc d')) /\
    (forall n, N <= n -> for_each n 0 i (f_visit fi (2 + f)) (conc d) = r) /\ Inv d' c' /\ Client.cl_disp c' = None /\
    forall sc1 c1, leads (left d') c' sc1 c1 -> leads (left d) c sc1 c1.
Proof.
  induction m as [|m IH]; intros d c i k v inn fi f e x Hm H Ed Ei Hf; destruct (nth_error (Client.cl_subs c) i) as [s|] eqn:Hs.
  2,4: pose proof (visit_end c k v i inn Ed Hs) as Ec; exists d, (cnext c Client.CVisit), 1, (Ok VUndef (conc d));
    (split; [now left|]; split; [|split; [|split]]);
    [ intros n Hn; destruct n as [|n]; [lia|]; unfold conc; rewrite each_S, (e_none (v_ent H) i Hs); reflexivity
    | apply v_same with c; try (rewrite Ec; reflexivity); [apply shape_next, (v_shape H)|rewrite Ec; repeat split|exact H]
    | now rewrite Ec
    | intros sc1 c1 L; apply l_visit; exact L ].
  { exfalso. apply nth_some_lt in Hs. rewrite <- (e_len (v_ent H)) in Hs. lia. }
  destruct (e_ent (v_ent H) i s Hs) as [en He]. pose proof (e_slot (v_ent H) i en s He Hs) as Sl. unfold slot in Sl.
  assert (Go : forall d1 c1 N, visited i k v d c d1 c1 -> (forall n r, N <= n -> for_each n 0 (S i) (f_visit fi (2 + f)) (conc d1) = r -> for_each (S n) 0 i (f_visit fi (2 + f)) (conc d) = r) ->
    exists d' c' N r, (r = Ok VUndef (conc d') \/ exists w, r = Throw w (conc d')) /\
    (forall n, N <= n -> for_each n 0 i (f_visit fi (2 + f)) (conc d) = r) /\ Inv d' c' /\ Client.cl_disp c' = None /\
    forall sc1 c1, leads (left d') c' sc1 c1 -> leads (left d) c sc1 c1).
  { intros d1 c1 N0 [V1 (in1 & V2) V3 V4 (g & V5) V6] Run.
    destruct (IH d1 c1 (S i) k v in1 fi f e x) as (d2 & c2 & N & r & Hr & R2 & I2 & D2 & L2); [lia|exact V1|exact V2|congruence|rewrite V5; now apply nth_old|].
    exists d2, c2, (S (N + N0)), r. split; [exact Hr|]. split; [|split; [exact I2|split; [exact D2|auto]]].
    intros n Hn. destruct n as [|n]; [lia|]. apply Run; [lia|]. apply R2. lia. }
  destruct (Client.su_live s) eqn:Lv.
  2:{ (* gone *)
    apply (Go d (cnext c Client.CVisit) 0).
    - pose proof (visit_is c k v i inn s Ed Hs) as Ec. rewrite Lv in Ec. cbn [andb] in Ec. constructor; try reflexivity.
      + apply v_same with c; try (rewrite Ec; reflexivity); [apply shape_next, (v_shape H)|rewrite Ec; repeat split|exact H].
      + exists false. now rewrite Ec.
      + exists []. now rewrite app_nil_r.
      + intros sc1 c1 L. apply l_visit. exact L.
    - intros n r _ E. unfold conc in *. rewrite each_S, Sl. exact E. }
  destruct en as [q|l]; cbn [clo] in Sl.
  - destruct (one_req d c i k v inn q s fi f e x H Ed Ei Hf He Hs Lv) as (d1 & c1 & R & V). apply (Go d1 c1 50 V).
    intros n r Hn E. unfold conc at 1. rewrite each_S, Sl. specialize (R (n - 50)). replace (50 + (n - 50)) with n in R by lia. unfold conc at 1 in R. rewrite R. exact E.
  - destruct (one_hear d c i k v inn l s fi f e x H Ed Ei Hf He Hs Lv) as (d1 & c1 & [[R V]|(R & I1 & D1 & L1)]).
    + apply (Go d1 c1 143 V). intros n r Hn E. unfold conc at 1. rewrite each_S, Sl. specialize (R (n - 143)). replace (143 + (n - 143)) with n in R by lia. unfold conc at 1 in R. rewrite R. exact E.
    + exists d1, c1, 144, (Throw (VErr "Error") (conc d1)). split; [right; eexists; reflexivity|]. split; [|auto].
      intros n Hn. destruct n as [|n]; [lia|]. unfold conc at 1. rewrite each_S, Sl. specialize (R (n - 143)). replace (143 + (n - 143)) with n in R by lia. unfold conc at 1 in R. rewrite R. reflexivity.
Qed.
End Each.
