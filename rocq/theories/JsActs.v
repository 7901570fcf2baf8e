(** The actions of the user, one by one.  Proof side. *)
From Coq Require Import List String Ascii Bool Arith NArith ZArith Lia.
From Verif Require Import Util Js JsonText Wire TsProgram FileProofs ClientSpec JsSem JsRun JsFun JsSend JsCalls JsRequest JsEvents JsHeap JsNet JsFlush JsSpec JsWorld JsStep.
From Verif Require Client ClientSockProofs.
Import ListNotations.
Local Open Scope string_scope.
Local Open Scope list_scope.

Section Acts.
Context (lit : num -> jstr) (num : jstr -> num) (other : jsval -> N -> bool).
Local Notation call := (call lit num other).
Local Notation act := (act lit num other).
Local Notation cnext := (Client.cnext (js_enc lit) (js_read num) (js_same other)).
Local Notation act_next := (act_next lit num other).

Lemma shape_next c e : ClientSockProofs.Shape c -> ClientSockProofs.Shape (cnext c e).
Proof. intros H. eapply ClientSockProofs.shape_moves; [exact H|]. now apply ClientSockProofs.moves_ok. Qed.

Record acted (d : world) (c : client) (a : action) (d' : world) : Prop := {
  at_run : forall n, act (130 + n) a (conc d) = Ok tt (conc d');
  at_inv : Inv d' (act_next c a);
  at_scripts : us_scripts (d_us d') = us_scripts (d_us d);
  at_iv : d_iv d' = d_iv d;
  at_work : work d' <= work d + 2;
  at_disp : Client.cl_disp (act_next c a) = Client.cl_disp c;
  at_es : List.length (d_es d') <= S (List.length (d_es d));
  at_rest : exists g, d_rest d' = d_rest d ++ g
}.

Lemma enc_some k ns m args : exists t, js_enc lit k (ns, m, args) = Some t /\ exec_text lit k ns m (map VData args) t.
Proof. unfold js_enc, execute. cbn [stringify]. eexists. split; [reflexivity|]. exists args. eexists. split; [reflexivity|]. split; reflexivity. Qed.

Lemma act_request n ns m args s : act (S n) (ARequest ns m args) s =
  (let! f := read_var [0] "request" in
   attempt (call n f [VStr (js ns); VStr (js m); VArr (map VData args)])
     (fun v => on_user (fun u => us_set_proms (us_proms u ++ [v]) u)) (fun _ => ret tt)) s.
Proof. reflexivity. Qed.
Lemma act_stream n ns m args s : act (S n) (AStream ns m args) s =
  (let! f := read_var [0] "subscribe" in
   attempt (call n f [VStr (js ns); VStr (js m); VArr (map VData args)])
     (fun v => on_user (fun u => us_set_stores (us_stores u ++ [v]) u)) (fun _ => ret tt)) s.
Proof. reflexivity. Qed.

Lemma link_few h (lk : list out) o t so op th r fr p sk tm : send_spec t so op th r fr p sk tm o -> o_jb o = map link lk -> List.length lk <= 1 /\ List.length (h : list nat) = List.length h.
Proof. intros H E. split; [|reflexivity]. apply (f_equal (@List.length job)) in E. rewrite map_length in E. rewrite <- E. inversion H; subst o; cbn; lia. Qed.

Lemma a_request d c ns m args : Inv d c -> Client.user c = true -> exists d', acted d c (ARequest ns m args) d'.
Proof.
  intros H U. destruct (enc_some (Client.bump (Client.cl_id c)) ns m args) as (t & Et & Ht).
  destruct (bump_next _ _ (v_id H) (v_lim H)) as [Hn Hl]. set (k := Client.bump (Client.cl_id c)) in *.
  destruct (request_ok lit num other (d_id d) (d_iv d) (d_so d) (d_op d) (d_th d) (d_cnt d) (d_rest d) (d_fr d) (map snd (d_h d)) (d_sk d) (d_su d) (d_tm d)
     (map snd (d_t d)) (d_us d) k ns m (map VData args) t (List.length (d_rest d)) (List.length (d_h d)) (v_th _ _ H) (v_so _ _ H) (v_op _ _ H)) as (o & g0 & So & Eg & Run);
    [intros i Hi; exact (e_fresh _ _ _ _ _ _ _ _ _ _ (v_ent H) Hi)|exact Hn|exact Ht|reflexivity|apply map_length|].
  set (j := List.length (d_es d)).
  set (c1 := Client.add_sub k true false (Client.set_id k c)).
  assert (Ec : cnext c (Client.URequest (ns, m, args)) = Client.open_and_send (k, t) c1).
  { cbn [Client.cnext]. rewrite U. unfold Client.request. cbn [Client.set_id Client.cl_id]. fold k. rewrite Et. reflexivity. }
  set (h1 := d_h d ++ [(OReq j 0, mkProm (PPending []) true); (OReq j 1, mkProm (PPending [mkRe (HFun (f_same (o_fr o) (2 + List.length (d_rest d)))) HNone (Some (List.length (d_h d) + S (S (List.length (o_pr o)))))]) false)] : heap).
  assert (Sh1 : ClientSockProofs.Shape c1).
  { eapply ClientSockProofs.shape_same; [| |exact (v_shape H)]; [repeat split|reflexivity]. }
  assert (N1 : SInv h1 (d_rest d) (d_so d) (d_op d) (d_th d) (d_cnt d) (d_sk d) (d_tm d) (d_sp d) (d_ln d) (links (d_t d)) c1).
  { rewrite <- (app_nil_r (d_rest d)). eapply s_mono; [apply keeps_app| |exact (v_net H)]. repeat split. }
  destruct (s_send h1 (d_rest d) _ _ _ _ _ _ _ _ _ c1 k t (3 + d_fr d) g0 Sh1 N1) as (g & sp' & lk' & Eo & Ej & Lf & N2).
  { replace (List.length h1) with (List.length (d_h d) + 2) by (unfold h1; rewrite app_length; reflexivity). rewrite Eg. exact So. }
  subst g0. cbn [o_add o_so o_op o_th o_rest o_fr o_pr o_sk o_tm o_jb] in *.
  set (q2 := List.length (d_h d) + S (S (List.length (o_pr o)))) in *.
  set (q := mkQ k (List.length (d_h d)) q2 (1 + d_fr d) (List.length (d_rest d)) (o_fr o) (1 + o_fr o) G0 false 0).
  set (h2 := (h1 ++ g) ++ [(OReq j 2, p2 q); (OReq j 3, p3 q)] : heap).
  assert (L2 : List.length (h1 ++ g) = q2).
  { unfold q2, h1. rewrite Eo, !app_length, map_length. cbn. lia. }
  exists (mkD (Z.of_N k) (d_iv d) (o_so o) (o_op o) (o_th o) (d_cnt d) (d_rest d ++ o_rest (o_add (request_frames (d_fr d) (List.length (d_rest d)) (List.length (d_h d)) k ns m (map VData args) (Some (VProm (List.length (d_h d) + 1)))) o))
    (2 + o_fr o) h2 (o_sk o) (d_su d ++ [Some (clo_req q)]) (o_tm o) (d_t d ++ map tag_link lk' ++ [(MBack j, JThen (q2 + 1) (List.length (d_h d)))])
    (us_set_proms (us_proms (d_us d) ++ [VProm (List.length (d_h d))]) (d_us d)) sp' (d_ln d) (d_es d ++ [EReq q])).
  destruct (send_rest (k, t) c1) as (R1 & R2 & R3 & R4).
  assert (Dj : Client.cl_disp (act_next c (ARequest ns m args)) = Client.cl_disp c) by (cbn [JsSpec.act_next]; rewrite Ec, R4; reflexivity).
  assert (Ll : List.length lk' <= 1) by (eapply (link_few []); [exact So|exact Ej]).
  constructor; cbn [d_id d_iv d_so d_op d_th d_cnt d_rest d_fr d_h d_sk d_su d_tm d_t d_us d_sp d_ln d_es].
  - intros n. change (130 + n) with (S (120 + (9 + n))). rewrite act_request. unfold bind, attempt. 
    change (read_var [0] "request" (conc d)) with (Ok v_request (conc d)). unfold conc at 1. rewrite Run.
    unfold on_user, modify, conc. cbn [d_id d_iv d_so d_op d_th d_cnt d_rest d_fr d_h d_sk d_su d_tm d_t d_us d_sp d_ln d_es].
    replace (List.length (d_h d) + S (S (S (List.length (o_pr o))))) with (q2 + 1) by (unfold q2; lia).
    replace (map snd h2) with (map snd (d_h d) ++ s_request (List.length (d_h d)) q2 (q2 + 1)
      (f_same (o_fr o) (2 + List.length (d_rest d))) (f_finally (1 + o_fr o) (2 + List.length (d_rest d))) (o_pr o)).
    2:{ unfold h2, h1, s_request. rewrite !map_app, <- !app_assoc, Eo. unfold p2, p3, f_fin, q. reflexivity. }
    rewrite !map_app, tags_links, Ej. reflexivity.
  - cbn [JsSpec.act_next]. rewrite Ec. constructor; cbn [d_id d_iv d_so d_op d_th d_cnt d_rest d_fr d_h d_sk d_su d_tm d_t d_us d_sp d_ln d_es].
    + rewrite <- Ec. apply shape_next, (v_shape H).
    + rewrite !links_app, links_links. unfold links at 2. cbn [flat_map fst]. rewrite app_nil_r.
      match goal with |- SInv _ ?r _ _ _ _ _ _ _ _ _ _ => rewrite <- (app_nil_r r) end.
      apply (s_mono (h1 ++ g) h2 _ [] _ _ _ _ _ _ _ _ _ (Client.open_and_send (k, t) c1)); [apply keeps_app|repeat split|exact N2].
    + rewrite R1, R2. cbn [c1 Client.add_sub Client.set_subs Client.set_id Client.cl_subs Client.cl_stores].
      match goal with |- EInv _ _ _ _ _ _ _ (_ ++ [?s]) _ => change (Some (clo_req q)) with (slot (EReq q) s) end.
      eapply e_add with (us := d_us d) (fr := d_fr d) (h := d_h d).
      * exact (v_ent H).
      * unfold h2, h1. rewrite <- !app_assoc. apply keeps_app.
      * intros i Hi. rewrite !on_mark_app.
        assert (Ez : forall m, (exists j, m = MStage j \/ m = MBack j) -> on_mark m (map tag_link lk') = []).
        { intros m0 Hm. pose proof (on_net m0 [] (map tag_link lk') (net_links _) Hm) as Z. exact Z. }
        rewrite !Ez by (exists i; auto). unfold on_mark. cbn. destruct (Nat.eqb_spec i j); [unfold j in *; lia|]. split; reflexivity.
      * apply Forall_app. split; [apply net_mark, net_links|]. repeat constructor. cbn. exists q. apply nth_app_new.
      * fold j. cbn [ent_ok]. unfold h2. constructor; cbn [Client.su_id Client.su_req Client.su_bad Client.su_live Client.su_seen q q_k q_p q_2 q_a q_f q_s q_i q_g q_b q_n]; try reflexivity.
        -- unfold h1. rewrite <- !app_assoc, nth_at0. reflexivity.
        -- unfold h1. rewrite <- !app_assoc, nth_at. unfold p1. cbn. reflexivity.
        -- rewrite <- L2, nth_at0. reflexivity.
        -- rewrite <- L2, nth_at. reflexivity.
        -- intros x p Hx. discriminate.
        -- exists ns, m, (map VData args), (2 + d_fr d). cbn [o_add o_rest request_frames app]. rewrite nth_at0, !nth_at. split; [reflexivity|]. split; reflexivity.
        -- rewrite !on_mark_app. pose proof (on_net (MStage j) [] (map tag_link lk') (net_links _) (ex_intro _ j (or_introl eq_refl))) as Z. cbn [app] in Z.
           rewrite Z. unfold on_mark at 2. cbn. rewrite app_nil_r. 
           destruct (on_mark (MStage j) (d_t d)) as [|x l] eqn:E; [reflexivity|]. exfalso. unfold on_mark in E. destruct (filter _ (d_t d)) as [|y l'] eqn:E'; [discriminate|].
           assert (I : In y (filter (fun x => is_mark (MStage j) (fst x)) (d_t d))) by (rewrite E'; now left). apply filter_In in I as [I M].
           pose proof (e_mark (v_ent H)) as F. rewrite Forall_forall in F. apply F in I. unfold mark_ok in I. destruct (fst y); cbn in M; try discriminate. apply Nat.eqb_eq in M. subst j0.
           destruct I as [q0 I]. apply nth_some_lt in I. unfold j in I. lia.
        -- rewrite !on_mark_app. pose proof (on_net (MBack j) [] (map tag_link lk') (net_links _) (ex_intro _ j (or_intror eq_refl))) as Z. cbn [app] in Z.
           rewrite Z. unfold on_mark at 2. cbn. rewrite Nat.eqb_refl. cbn.
           destruct (on_mark (MBack j) (d_t d)) as [|x l] eqn:E; [reflexivity|]. exfalso. unfold on_mark in E. destruct (filter _ (d_t d)) as [|y l'] eqn:E'; [discriminate|].
           assert (I : In y (filter (fun x => is_mark (MBack j) (fst x)) (d_t d))) by (rewrite E'; now left). apply filter_In in I as [I M].
           pose proof (e_mark (v_ent H)) as F. rewrite Forall_forall in F. apply F in I. unfold mark_ok in I. destruct (fst y); cbn in M; try discriminate. apply Nat.eqb_eq in M. subst j0.
           destruct I as [q0 I]. apply nth_some_lt in I. unfold j in I. lia.
        -- discriminate.
      * cbn. lia.
      * cbn. lia.
      * reflexivity.
      * cbn. now rewrite app_nil_r.
      * reflexivity.
      * reflexivity.
      * reflexivity.
    + now rewrite R3.
    + rewrite R3. exact Hl.
  - reflexivity.
  - reflexivity.
  - unfold work. cbn [d_es d_t d_us us_set_proms us_scripts]. rewrite !map_app, !sum_app, work_links. cbn. lia.
  - exact Dj.
  - rewrite app_length. cbn. lia.
  - eexists. reflexivity.
Qed.
End Acts.
