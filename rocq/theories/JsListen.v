(** The actions of the user, the others.  Proof side. *)
From Coq Require Import List String Ascii Bool Arith NArith ZArith Lia.
From Verif Require Import Util Js JsonText Wire TsProgram FileProofs ClientSpec JsSem JsRun JsFun JsSend JsCalls JsRequest JsEvents JsHeap JsNet JsFlush JsSpec JsWorld JsStep JsEntries JsActs.
From Verif Require Client ClientSockProofs.
Import ListNotations.
Local Open Scope string_scope.
Local Open Scope list_scope.

Ltac fields := cbn [d_id d_iv d_so d_op d_th d_cnt d_rest d_fr d_h d_sk d_su d_tm d_t d_us d_sp d_ln d_es].
Section Acts.
Context (lit : num -> jstr) (num : jstr -> num) (other : jsval -> N -> bool).
Local Notation call := (call lit num other).
Local Notation act := (act lit num other).
Local Notation cnext := (Client.cnext (js_enc lit) (js_read num) (js_same other)).
Local Notation act_next := (act_next lit num other).
Local Notation acted := (acted lit num other).

Lemma a_same d c a : Inv d c -> act_next c a = c -> (forall n, act (130 + n) a (conc d) = Ok tt (conc d)) -> acted d c a d.
Proof. intros H E R. constructor; rewrite ?E; auto; [lia|]. exists []. now rewrite app_nil_r. Qed.

Lemma a_stream d c ns m args : Inv d c -> Client.user c = true -> exists d', acted d c (AStream ns m args) d'.
Proof.
  intros H U. destruct (enc_some lit (Client.bump (Client.cl_id c)) ns m args) as (t & Et & Ht).
  destruct (bump_next _ _ (v_id H) (v_lim H)) as [Hn Hl]. set (k := Client.bump (Client.cl_id c)) in *.
  destruct (subscribe_ok lit num other (d_id d) (d_iv d) (d_so d) (d_op d) (d_th d) (d_cnt d) (d_rest d) (d_fr d) (map snd (d_h d)) (d_sk d) (d_su d) (d_tm d)
     (map snd (d_t d)) (d_us d) k ns m (map VData args) t (v_th _ _ H) (v_so _ _ H) (v_op _ _ H) Hn Ht) as (o & f & So & Ef & Run).
  set (c1 := Client.set_stores (Client.cl_stores c ++ [k]) (Client.set_id k c)).
  assert (Ec : cnext c (Client.UStream (ns, m, args)) = Client.open_and_send (k, t) c1).
  { cbn [Client.cnext]. rewrite U. unfold Client.subscribe. cbn [Client.set_id Client.cl_id]. fold k. rewrite Et. reflexivity. }
  assert (Sh1 : ClientSockProofs.Shape c1).
  { eapply ClientSockProofs.shape_same; [| |exact (v_shape H)]; [repeat split|reflexivity]. }
  assert (N1 : SInv (d_h d) (d_rest d) (d_so d) (d_op d) (d_th d) (d_cnt d) (d_sk d) (d_tm d) (d_sp d) (d_ln d) (links (d_t d)) c1).
  { rewrite <- (app_nil_r (d_rest d)). eapply s_mono; [apply keeps_refl| |exact (v_net H)]. repeat split. }
  rewrite map_length in So.
  destruct (s_send (d_h d) (d_rest d) _ _ _ _ _ _ _ _ _ c1 k t (2 + d_fr d) o Sh1 N1 So) as (g & sp' & lk' & Eo & Ej & Lf & N2).
  set (v := VObj [("subscribe", f_listen (d_fr d) (2 + f)); ("close", f_noclose (1 + d_fr d) (2 + f))]) in *.
  exists (mkD (Z.of_N k) (d_iv d) (o_so o) (o_op o) (o_th o) (d_cnt d) (d_rest d ++ o_rest o)
    (o_fr o) (d_h d ++ g) (o_sk o) (d_su d) (o_tm o) (d_t d ++ map tag_link lk')
    (us_set_stores (us_stores (d_us d) ++ [v]) (d_us d)) sp' (d_ln d) (d_es d)).
  destruct (send_rest (k, t) c1) as (R1 & R2 & R3 & R4).
  assert (Dj : Client.cl_disp (act_next c (AStream ns m args)) = Client.cl_disp c) by (cbn [JsSpec.act_next]; rewrite Ec, R4; reflexivity).
  assert (Ll : List.length lk' <= 1) by (eapply (link_few []); [exact So|exact Ej]).
  constructor; fields.
  - intros n. change (130 + n) with (S (100 + (29 + n))). rewrite act_stream. unfold bind, attempt.
    change (read_var [0] "subscribe" (conc d)) with (Ok v_subscribe (conc d)). unfold conc at 1. rewrite Run.
    unfold on_user, modify, conc. fields.
    rewrite !map_app, tags_links, Ej, Eo. reflexivity.
  - cbn [JsSpec.act_next]. rewrite Ec. constructor; fields.
    + rewrite <- Ec. apply shape_next, (v_shape H).
    + rewrite !links_app, links_links. exact N2.
    + rewrite R1, R2. cbn [c1 Client.set_stores Client.set_id Client.cl_subs Client.cl_stores].
      apply e_store with (h := d_h d) (fr := d_fr d); [exact (v_ent H)|apply keeps_app|apply net_links|lia|].
      exists (d_fr d), f, ns, m, (map VData args). split; [reflexivity|exact Ef].
    + now rewrite R3.
    + rewrite R3. exact Hl.
  - reflexivity.
  - reflexivity.
  - unfold work. fields. cbn [us_set_stores us_scripts]. rewrite !map_app, !sum_app, work_links. lia.
  - exact Dj.
  - lia.
  - eexists. reflexivity.
Qed.

Lemma act_listen n k s : act (S n) (AListen k) s =
  match nth_error (us_stores (st_user s)) k with
  | Some o => (let! f := get_member o "subscribe" in let! us := gets (fun s => us_unls (st_user s)) in
              attempt (call n f [VUser (List.length us)])
                (fun v => on_user (fun u => us_set_unls (us_unls u ++ [v]) u)) (fun _ => ret tt)) s
  | None => Ok tt s
  end.
Proof. cbn [JsSem.act]. unfold bind, attempt, gets. destruct (nth_error _ k); reflexivity. Qed.
Lemma forall2_nth {A B} (P : A -> B -> Prop) l m i : Forall2 P l m ->
  match nth_error l i, nth_error m i with Some x, Some y => P x y | None, None => True | _, _ => False end.
Proof. intros F. revert i. induction F; intros [|i]; cbn; auto. apply IHF. Qed.

Lemma a_listen d c k : Inv d c -> Client.user c = true -> exists d', acted d c (AListen k) d'.
Proof.
  intros H U. pose proof (forall2_nth _ _ _ k (e_st (v_ent H))) as F.
  destruct (nth_error (us_stores (d_us d)) k) as [v|] eqn:Ek, (nth_error (Client.cl_stores c) k) as [id|] eqn:Ei; try contradiction.
  2:{ exists d. apply a_same; [exact H| |].
      - cbn [JsSpec.act_next Client.cnext]. now rewrite U, Ei.
      - intros n. change (130 + n) with (S (129 + n)). rewrite act_listen. change (st_user (conc d)) with (d_us d). now rewrite Ek. }
  destruct F as (i & f & ns & m & x & -> & Ef).
  set (u := List.length (us_unls (d_us d))). set (l := mkL id (d_fr d) (List.length (d_rest d)) f (1 + d_fr d) u).
  assert (Ec : cnext c (Client.UListen k) = Client.add_sub id false false c) by (cbn [Client.cnext]; now rewrite U, Ei).
  exists (mkD (d_id d) (d_iv d) (d_so d) (d_op d) (d_th d) (d_cnt d) (d_rest d ++ [cb_frame (VUser u); sub_frame (clo_lis l)])
    (2 + d_fr d) (d_h d) (d_sk d) (d_su d ++ [Some (clo_lis l)]) (d_tm d) (d_t d)
    (us_set_unls (us_unls (d_us d) ++ [f_unsub (1 + d_fr d) (2 + (List.length (d_rest d) + 1))]) (d_us d)) (d_sp d) (d_ln d) (d_es d ++ [EHear l])).
  constructor; fields.
  - intros n. change (130 + n) with (S (129 + n)). rewrite act_listen. change (st_user (conc d)) with (d_us d). rewrite Ek. unfold bind, attempt.
    change (get_member (VObj [("subscribe", f_listen i (2 + f)); ("close", f_noclose (1 + i) (2 + f))]) "subscribe" (conc d)) with (Ok (f_listen i (2 + f)) (conc d)).
    unfold gets. change (us_unls (st_user (conc d))) with (us_unls (d_us d)). fold u.
    unfold conc at 1. change (129 + n) with (40 + (89 + n)). rewrite (listen_ok lit num other _ _ _ _ _ _ _ _ _ _ _ _ _ _ _ i f (VUser u) i id ns m x); [reflexivity| |exact Ef].
    eapply e_fresh; [exact (v_ent H)|lia].
  - cbn [JsSpec.act_next]. rewrite Ec. constructor; fields.
    + rewrite <- Ec. apply shape_next, (v_shape H).
    + eapply s_mono; [apply keeps_refl| |exact (v_net H)]. repeat split.
    + cbn [Client.add_sub Client.set_subs Client.cl_subs Client.cl_stores].
      rewrite <- (app_nil_r (d_t d)).
      match goal with |- EInv _ _ _ _ _ _ _ (_ ++ [?s]) _ => change (Some (clo_lis l)) with (slot (EHear l) s) end.
      eapply e_add with (us := d_us d) (fr := d_fr d) (h := d_h d); try reflexivity; try (cbn; lia).
      * exact (v_ent H).
      * apply keeps_refl.
      * intros j Hj. split; reflexivity.
      * constructor.
      * constructor; try reflexivity.
        -- cbn [l_h l]. now rewrite nth_at0.
        -- cbn [l_h l]. now rewrite nth_at.
        -- exists i, ns, m, x. apply nth_old. exact Ef.
        -- unfold heard_by. cbn [us_heard us_set_unls l_u l Client.su_seen map].
           assert (N : filter (fun x0 : nat * list val => Nat.eqb (fst x0) u) (us_heard (d_us d)) = []); [|now rewrite N].
           apply filter_none. intros y Iy. pose proof (e_hd (v_ent H)) as F. rewrite Forall_forall in F. apply F in Iy. apply Nat.eqb_neq. unfold u. lia.
      * cbn. now rewrite app_nil_r.
    + exact (v_id H).
    + exact (v_lim H).
  - reflexivity.
  - reflexivity.
  - unfold work. fields. cbn [us_set_unls us_scripts]. rewrite !map_app, !sum_app. cbn. lia.
  - cbn [JsSpec.act_next]. now rewrite Ec.
  - rewrite app_length. cbn. lia.
  - eexists. reflexivity.
Qed.

(** ** A subscription ends *)
Lemma act_unlisten n k s : act (S n) (AUnlisten k) s =
  match nth_error (us_unls (st_user s)) k with
  | Some f => attempt (call n f []) (fun _ => ret tt) (fun _ => ret tt) s
  | None => Ok tt s
  end.
Proof. cbn [JsSem.act]. unfold bind, attempt, gets. destruct (nth_error _ k); reflexivity. Qed.
Definition dead (s : sub) (n : nat) : sub :=
  if Client.su_live s then Client.mkSub (Client.su_id s) (Client.su_req s) (Client.su_bad s) false (Client.su_seen s) (Client.su_from s) n else s.
Lemma dead_live s n : Client.su_live (dead s n) = false.
Proof. unfold dead. destruct (Client.su_live s) eqn:E; [reflexivity|exact E]. Qed.
Lemma dead_slot e s n : slot e (dead s n) = None.
Proof. unfold slot. now rewrite dead_live. Qed.

(** What the set is left with, on both sides. *)
Definition d_less (j : nat) (es : list entry) (t : tags) (h : heap) (d : world) : world :=
  let su := upd j (fun _ => None) (d_su d) in
  if some_entry su
  then mkD (d_id d) (d_iv d) (d_so d) (d_op d) (d_th d) (d_cnt d) (d_rest d) (d_fr d) h (d_sk d) su (d_tm d) t (d_us d) (d_sp d) (d_ln d) es
  else mkD (d_id d) (d_iv d) VUndef (d_op d) (d_th d) (d_cnt d) (d_rest d) (d_fr d) h (shut (d_so d) (d_sk d)) su (clear (d_th d) (d_tm d)) t (d_us d) (d_sp d) (d_ln d) es.
Lemma less_inv d c j s es t h : Inv d c -> nth_error (Client.cl_subs c) j = Some s -> keeps net_owner (d_h d) h -> links t = links (d_t d) ->
  (EInv h (d_rest d) (d_fr d) t (d_us d) (upd j (fun _ => None) (d_su d)) es (upd j (fun _ => dead s (Client.done c)) (Client.cl_subs c)) (Client.cl_stores c)) ->
  ClientSockProofs.Shape (Client.delete_sub j c) -> Inv (d_less j es t h d) (Client.delete_sub j c).
Proof.
  intros H Hs K El E Sh. unfold Client.delete_sub in *.
  set (c1 := Client.set_subs (upd j _ (Client.cl_subs c)) c) in *.
  assert (Es : Client.cl_subs c1 = upd j (fun _ => dead s (Client.done c)) (Client.cl_subs c)).
  { unfold c1. cbn [Client.set_subs Client.cl_subs]. rewrite (upd_const j _ _ s Hs). reflexivity. }
  assert (N1 : SInv h (d_rest d) (d_so d) (d_op d) (d_th d) (d_cnt d) (d_sk d) (d_tm d) (d_sp d) (d_ln d) (links t) c1).
  { rewrite El, <- (app_nil_r (d_rest d)). eapply s_mono; [exact K| |exact (v_net H)]. repeat split. }
  rewrite <- Es in E. unfold d_less. rewrite (e_some E). change (existsb Client.su_live (Client.cl_subs c1)) with (Client.subscribed c1) in *.
  assert (I1 : Client.cl_id c1 = Client.cl_id c) by reflexivity. assert (I2 : Client.cl_stores c1 = Client.cl_stores c) by reflexivity.
  destruct (Client.subscribed c1) eqn:B.
  - constructor; fields; [exact Sh|exact N1|exact E|exact (v_id H)|exact (v_lim H)].
  - assert (L1 : ClientSockProofs.Loose c1) by (eapply ClientSockProofs.loose_same; [|exact (v_loose _ _ H)]; repeat split).
    constructor; fields; [exact Sh| | | |].
    + apply s_close; [exact L1|exact N1].
    + rewrite ClientSockProofs.close_is. exact E.
    + rewrite ClientSockProofs.close_is. exact (v_id H).
    + rewrite ClientSockProofs.close_is. exact (v_lim H).
Qed.
Lemma delete_disp j (c : client) : Client.cl_disp (Client.delete_sub j c) = Client.cl_disp c.
Proof. unfold Client.delete_sub. destruct (Client.subscribed _); [reflexivity|]. rewrite ClientSockProofs.close_is. reflexivity. Qed.

Lemma a_unlisten d c k : Inv d c -> Client.user c = true -> exists d', acted d c (AUnlisten k) d'.
Proof.
  intros H U. pose proof (hears_nth _ _ (e_kind _ _ _ _ _ _ _ _ _ (v_ent H)) 0 k) as F.
  change (listeners_from 0 (Client.cl_subs c)) with (listeners (Client.cl_subs c)) in F. rewrite <- (e_un (v_ent H)) in F.
  destruct (nth_error (us_unls (d_us d)) k) as [v|] eqn:Ek.
  2:{ exists d. apply a_same; [exact H| |].
      - cbn [JsSpec.act_next]. now rewrite F.
      - intros n. change (130 + n) with (S (129 + n)). rewrite act_unlisten. change (st_user (conc d)) with (d_us d). now rewrite Ek. }
  destruct F as (i & l & s & Hl & Hs & Hr & Hj & -> & Hu). cbn [Nat.add] in Hj.
  assert (Ec : act_next c (AUnlisten k) = Client.delete_sub i c).
  { cbn [JsSpec.act_next]. rewrite Hj. cbn [Client.cnext]. now rewrite U, Hs, Hr. }
  pose proof (e_ok (v_ent H) i _ _ Hl Hs) as O. cbn [ent_ok] in O.
  assert (E : EInv (d_h d) (d_rest d) (d_fr d) (d_t d) (d_us d) (upd i (fun _ => None) (d_su d)) (d_es d) (upd i (fun _ => dead s (Client.done c)) (Client.cl_subs c)) (Client.cl_stores c)).
  { rewrite <- (dead_slot (EHear l) s (Client.done c)), <- (app_nil_r (d_rest d)). eapply e_lis; [exact (v_ent H)|exact Hl|exact Hs|lia| |reflexivity..|exact (e_hd (v_ent H))].
    rewrite app_nil_r. unfold dead. destruct (Client.su_live s); [|exact O]. destruct O. constructor; assumption. }
  exists (d_less i (d_es d) (d_t d) (d_h d) d). constructor.
  - intros n. change (130 + n) with (S (40 + (89 + n))). rewrite act_unlisten. change (st_user (conc d)) with (d_us d). rewrite Ek. unfold attempt.
    unfold conc at 1. erewrite unsub_ok; [|exact (v_th _ _ H)|exact (v_so _ _ H)|exact (li_sub _ _ _ _ O)].
    change (l_a l) with (eid (EHear l)). rewrite (e_remove _ _ _ _ _ _ _ _ _ _ _ (v_ent H) Hl). unfold d_less. destruct (some_entry _); reflexivity.
  - rewrite Ec. apply less_inv with (s := s); [exact H|exact Hs|apply keeps_refl|reflexivity|exact E|].
    rewrite <- Ec. cbn [JsSpec.act_next]. rewrite Hj. apply shape_next, (v_shape H).
  - unfold d_less. destruct (some_entry _); reflexivity.
  - unfold d_less. destruct (some_entry _); reflexivity.
  - unfold d_less, work. destruct (some_entry _); fields; lia.
  - rewrite Ec. apply delete_disp.
  - unfold d_less. destruct (some_entry _); fields; lia.
  - exists []. rewrite app_nil_r. unfold d_less. destruct (some_entry _); reflexivity.
Qed.

Lemma act_close n k s : act (S n) (AClose k) s =
  match nth_error (us_stores (st_user s)) k with
  | Some o => (let! f := get_member o "close" in attempt (call n f []) (fun _ => ret tt) (fun _ => ret tt)) s
  | None => Ok tt s
  end.
Proof. cbn [JsSem.act]. unfold bind, attempt, gets. destruct (nth_error _ k); reflexivity. Qed.
Lemma a_close d c k : Inv d c -> acted d c (AClose k) d.
Proof.
  intros H. apply a_same; [exact H|reflexivity|]. intros n. change (130 + n) with (S (10 + (119 + n))). rewrite act_close. change (st_user (conc d)) with (d_us d).
  pose proof (forall2_nth _ _ _ k (e_st (v_ent H))) as F.
  destruct (nth_error (us_stores (d_us d)) k) as [v|] eqn:Ek; [|reflexivity]. destruct (nth_error (Client.cl_stores c) k); [|contradiction].
  destruct F as (i & f & ns & m & x & -> & Ef). unfold bind, attempt.
  change (get_member (VObj [("subscribe", f_listen i (2 + f)); ("close", f_noclose (1 + i) (2 + f))]) "close" (conc d)) with (Ok (f_noclose (1 + i) (2 + f)) (conc d)).
  unfold conc at 1. rewrite noclose_ok. reflexivity.
Qed.

(** ** Code of the user that comes later *)
Definition d_jobs (x : tags) (d : world) : world :=
  mkD (d_id d) (d_iv d) (d_so d) (d_op d) (d_th d) (d_cnt d) (d_rest d) (d_fr d) (d_h d) (d_sk d) (d_su d) (d_tm d) (d_t d ++ x) (d_us d) (d_sp d) (d_ln d) (d_es d).
Lemma jobs_inv d c j : user_job j -> Inv d c -> Inv (d_jobs [(MUser, j)] d) c.
Proof.
  intros U H. constructor; unfold d_jobs; fields; try apply H.
  - rewrite links_app. unfold links at 2. cbn [flat_map fst]. rewrite app_nil_r. exact (v_net H).
  - rewrite <- (app_nil_r (d_rest d)). apply e_mono with (h := d_h d) (fr := d_fr d); [apply keeps_refl|lia| |exact (v_ent H)]. constructor; [exact U|constructor].
Qed.
Lemma a_job d c a j : Inv d c -> user_job j -> act_next c a = c -> (forall n, act (130 + n) a (conc d) = Ok tt (conc (d_jobs [(MUser, j)] d))) -> acted d c a (d_jobs [(MUser, j)] d).
Proof.
  intros H U E R. constructor; rewrite ?E; auto.
  - now apply jobs_inv.
  - unfold work, d_jobs. fields. rewrite map_app, sum_app. cbn. lia.
  - exists []. unfold d_jobs. fields. now rewrite app_nil_r.
Qed.
Lemma a_defer d c : Inv d c -> exists d', acted d c ADefer d'.
Proof.
  intros H. exists (d_jobs [(MUser, JUser)] d). apply a_job; [exact H|now left|reflexivity|]. intros n. change (130 + n) with (S (129 + n)). unfold conc, d_jobs. fields.
  rewrite map_app. reflexivity.
Qed.
Lemma act_then n k s : act (S n) (AThen k) s =
  match nth_error (us_proms (st_user s)) k with
  | Some (VProm p) => perform_then p HUser HUser None s
  | Some _ => Stuck
  | None => Ok tt s
  end.
Proof. cbn [JsSem.act]. unfold bind, attempt, gets. destruct (nth_error _ k) as [[]|]; reflexivity. Qed.
Lemma repeat_snoc {A} (x : A) n : repeat x n ++ [x] = repeat x (S n).
Proof. induction n as [|n IH]; [reflexivity|]. cbn. f_equal. exact IH. Qed.
Lemma a_then d c k : Inv d c -> exists d', acted d c (AThen k) d'.
Proof.
  intros H. pose proof (proms_nth (d_es d) k) as F. rewrite <- (e_pr (v_ent H)) in F.
  destruct (nth_error (us_proms (d_us d)) k) as [v|] eqn:Ek.
  2:{ exists d. apply a_same; [exact H|reflexivity|]. intros n. change (130 + n) with (S (129 + n)). rewrite act_then. change (st_user (conc d)) with (d_us d). now rewrite Ek. }
  destruct F as (j & q & Hq & ->). destruct (e_sub (v_ent H) j _ Hq) as [s Hs]. pose proof (e_ok (v_ent H) j _ _ Hq Hs) as O. cbn [ent_ok] in O.
  assert (Run : forall n, act (130 + n) (AThen k) (conc d) = perform_then (q_p q) HUser HUser None (conc d)).
  { intros n. change (130 + n) with (S (129 + n)). rewrite act_then. change (st_user (conc d)) with (d_us d). now rewrite Ek. }
  assert (Done : (exists x, q_g q = G7 x) \/ p0 q = p_user (q_n q)).
  { unfold p0. destruct (q_g q); auto. left. now exists d0. }
  destruct Done as [[x Ex]|Ep].
  - exists (d_jobs [(MUser, JReact HUser true (VData x) None)] d). apply a_job; [exact H|right; eexists; reflexivity|reflexivity|]. intros n. rewrite Run. unfold conc.
    erewrite then_done; [unfold d_jobs; fields; rewrite map_app; reflexivity|]. eapply nth_snd. erewrite r_p0 by exact O. unfold p0. rewrite Ex. reflexivity.
  - set (q' := q_set (q_g q) (q_b q) (S (q_n q)) q).
    assert (Nx : forall x, q_g q <> G7 x) by (intros x Ex; unfold p0 in Ep; rewrite Ex in Ep; discriminate).
    assert (Ep' : p0 q' = p_user (S (q_n q))) by (unfold p0, q', q_set; cbn [q_g q_n]; destruct (q_g q); try reflexivity; destruct (Nx d0); reflexivity).
    exists (mkD (d_id d) (d_iv d) (d_so d) (d_op d) (d_th d) (d_cnt d) (d_rest d) (d_fr d) (put (q_p q) (OReq j 0) (p0 q') (d_h d)) (d_sk d) (d_su d) (d_tm d) (d_t d) (d_us d) (d_sp d) (d_ln d)
      (upd j (fun _ => EReq q') (d_es d))).
    pose proof (r_p0 _ _ _ _ _ _ O) as P0.
    assert (R : req_ok (put (q_p q) (OReq j 0) (p0 q') (d_h d)) (d_rest d) (d_t d) j q' s).
    { assert (Z : forall p o x, nth_error (d_h d) p = Some (o, x) -> o <> OReq j 0 -> nth_error (put (q_p q) (OReq j 0) (p0 q') (d_h d)) p = Some (o, x)).
      { intros p o x Hp No. rewrite put_other; [exact Hp|]. intros <-. rewrite P0 in Hp. injection Hp as <- _. now apply No. }
      pose proof (put_same _ _ (OReq j 0) (p0 q') _ P0) as Z0. pose proof O as O'. destruct O. unfold q', q_set in *.
      constructor; cbn [q_k q_p q_2 q_a q_f q_s q_i q_g q_b q_n]; try assumption; try (apply Z; [assumption|discriminate]).
      intros x p Hx. apply Z; [|discriminate]. now apply r_px. }
    constructor; fields.
    + intros n. rewrite Run. unfold conc. fields. erewrite then_pending; [|eapply nth_snd; rewrite P0, Ep; reflexivity].
      rewrite Ep', put_snd, repeat_snoc. reflexivity.
    + cbn [JsSpec.act_next]. constructor; fields; try apply H.
      * rewrite <- (app_nil_r (d_rest d)). eapply s_mono; [|repeat split|exact (v_net H)]. eapply keeps_put; [exact P0|]. now intros [].
      * pose proof (e_set _ (put (q_p q) (OReq j 0) (p0 q') (d_h d)) _ [] _ (d_fr d) _ (d_t d) _ _ _ _ _ j q q' s s (v_ent H) Hq Hs) as E.
        rewrite (upd_nth_same j (d_su d)) in E by (eapply e_slot; [exact (v_ent H)|exact Hq|exact Hs]).
        rewrite (upd_nth_same j (Client.cl_subs c)) in E by exact Hs. rewrite app_nil_r in E. apply E; try reflexivity.
        -- eapply keeps_put; [exact P0|]. cbn. congruence.
        -- intros i _. split; reflexivity.
        -- exact (e_mark (v_ent H)).
        -- exact R.
    + reflexivity.
    + reflexivity.
    + unfold work. fields. pose proof (e_work_upd j (d_es d) _ (EReq q') Hq) as W. 
      assert (W' : e_work (EReq q') <= e_work (EReq q) + 1) by (unfold e_work, q', q_set; cbn [q_b q_g q_n]; destruct (q_g q); lia). lia.
    + reflexivity.
    + rewrite upd_length. lia.
    + exists []. now rewrite app_nil_r.
Qed.

Lemma a_any d c a : Inv d c -> Client.user c = true -> exists d', acted d c a d'.
Proof.
  intros H U. destruct a.
  - now apply a_request.
  - now apply a_stream.
  - now apply a_listen.
  - now apply a_unlisten.
  - exists d. now apply a_close.
  - now apply a_then.
  - now apply a_defer.
Qed.
End Acts.
