(** Microtasks.  Proof side. *)
From Coq Require Import List String Ascii Bool Arith NArith ZArith Lia.
From Verif Require Import Util Js JsonText Wire TsProgram FileProofs ClientSpec JsSem JsRun JsFun JsSend JsCalls JsRequest JsEvents JsHeap JsNet JsFlush JsSpec JsWorld JsStep JsEntries JsActs JsListen JsCode.
From Verif Require Client ClientSockProofs.
Import ListNotations.
Local Open Scope string_scope.
Local Open Scope list_scope.

Lemma put_keep h p o x y : nth_error h p = Some (o, y) -> forall p' o' x', nth_error h p' = Some (o', x') -> o' <> o -> nth_error (put p o x h) p' = Some (o', x').
Proof. intros H p' o' x' H' N. rewrite put_other; [exact H'|]. intros <-. rewrite H in H'. injection H' as <- _. now apply N. Qed.

Definition d_tail (t : tags) (d : world) : world :=
  mkD (d_id d) (d_iv d) (d_so d) (d_op d) (d_th d) (d_cnt d) (d_rest d) (d_fr d) (d_h d) (d_sk d) (d_su d) (d_tm d) t (d_us d) (d_sp d) (d_ln d) (d_es d).
Definition d_q (j : nat) (q' : req) (h : heap) (g : list frame) (t : tags) (d : world) : world :=
  mkD (d_id d) (d_iv d) (d_so d) (d_op d) (d_th d) (d_cnt d) (d_rest d ++ g) (d_fr d) h (d_sk d) (d_su d) (d_tm d) t (d_us d) (d_sp d) (d_ln d) (upd j (fun _ => EReq q') (d_es d)).
Definition of_req (j : nat) (y : mark * job) : Prop := fst y = MStage j \/ fst y = MBack j \/ (fst y = MUser /\ user_job (snd y)).
Definition on_req (j : nat) (x : mark * job) : Prop := fst x = MStage j \/ fst x = MBack j.
Lemma req_links j nw : Forall (of_req j) nw -> links nw = [].
Proof. induction 1 as [|y l A F IH]; [reflexivity|]. unfold links in *. cbn. rewrite IH. destruct A as [->|[->|[-> _]]]; reflexivity. Qed.
Lemma req_marks j nw i : Forall (of_req j) nw -> i <> j -> on_mark (MStage i) nw = [] /\ on_mark (MBack i) nw = [].
Proof.
  intros F N. induction F as [|y l A F [IH1 IH2]]; [split; reflexivity|]. unfold on_mark in *. cbn. apply Nat.eqb_neq in N. rewrite Nat.eqb_sym in N.
  destruct A as [->|[->|[-> _]]]; cbn; rewrite ?(Nat.eqb_sym i j), ?N; split; assumption.
Qed.
Lemma head_marks j x t i : on_req j x -> i <> j -> on_mark (MStage i) (x :: t) = on_mark (MStage i) t /\ on_mark (MBack i) (x :: t) = on_mark (MBack i) t.
Proof.
  intros A N. unfold on_mark. cbn. apply Nat.eqb_neq in N. destruct A as [->| ->]; cbn; rewrite ?N; split; reflexivity.
Qed.
Lemma head_stage j x t : fst x = MStage j -> on_mark (MStage j) (x :: t) = snd x :: on_mark (MStage j) t /\ on_mark (MBack j) (x :: t) = on_mark (MBack j) t.
Proof. intros E. unfold on_mark. cbn. rewrite E. cbn. rewrite Nat.eqb_refl. split; reflexivity. Qed.
Lemma head_back j x t : fst x = MBack j -> on_mark (MBack j) (x :: t) = snd x :: on_mark (MBack j) t /\ on_mark (MStage j) (x :: t) = on_mark (MStage j) t.
Proof. intros E. unfold on_mark. cbn. rewrite E. cbn. rewrite Nat.eqb_refl. split; reflexivity. Qed.
Lemma links_head j x t : on_req j x -> links (x :: t) = links t.
Proof. unfold links. cbn. intros [->| ->]; reflexivity. Qed.
Lemma not_of_net j h h' : keeps (not_of j) h h' -> keeps net_owner h h'.
Proof. intros K p o x N. apply K. now destruct o. Qed.

Lemma q_ent d c j q q' s s' h g x t nw : Inv d c -> nth_error (d_es d) j = Some (EReq q) -> nth_error (Client.cl_subs c) j = Some s -> d_t d = x :: t -> on_req j x ->
  q_p q' = q_p q -> q_a q' = q_a q -> q_f q' = q_f q -> keeps (not_of j) (d_h d) h -> Forall (of_req j) nw -> req_ok h (d_rest d ++ g) (t ++ nw) j q' s' ->
  EInv h (d_rest d ++ g) (d_fr d) (t ++ nw) (d_us d) (upd j (fun _ => slot (EReq q) s') (d_su d)) (upd j (fun _ => EReq q') (d_es d)) (upd j (fun _ => s') (Client.cl_subs c)) (Client.cl_stores c).
Proof.
  intros H Hq Hs Et M E1 E2 E3 K F R. eapply e_set; [exact (v_ent H)|exact Hq|exact Hs|exact E1|exact E2|exact E3|exact K| | |lia|exact R].
  - intros i N. rewrite Et, !on_mark_app. destruct (req_marks j nw i F N) as [-> ->]. destruct (head_marks j x t i M N) as [-> ->]. now rewrite !app_nil_r.
  - pose proof (e_mark (v_ent H)) as Fm. rewrite Et in Fm. inversion Fm; subst. apply Forall_app. split; [assumption|].
    eapply Forall_impl; [|exact F]. intros y A. unfold mark_ok. destruct A as [->|[->|[-> A]]]; [exists q; exact Hq|exists q; exact Hq|exact A].
Qed.
Lemma q_inv d c j q q' s h g x t nw : Inv d c -> nth_error (d_es d) j = Some (EReq q) -> nth_error (Client.cl_subs c) j = Some s -> d_t d = x :: t -> on_req j x ->
  q_p q' = q_p q -> q_a q' = q_a q -> q_f q' = q_f q -> keeps (not_of j) (d_h d) h -> Forall (of_req j) nw -> req_ok h (d_rest d ++ g) (t ++ nw) j q' s ->
  Inv (d_q j q' h g (t ++ nw) d) c.
Proof.
  intros H Hq Hs Et M E1 E2 E3 K F R. constructor; unfold d_q; fields; try apply H.
  - rewrite links_app, (req_links j nw F), app_nil_r, <- (links_head j x t M), <- Et. eapply s_mono; [eapply not_of_net, K|repeat split|exact (v_net H)].
  - pose proof (q_ent d c j q q' s s h g x t nw H Hq Hs Et M E1 E2 E3 K F R) as E.
    rewrite (upd_nth_same j (d_su d)) in E by (eapply e_slot; [exact (v_ent H)|exact Hq|exact Hs]).
    rewrite (upd_nth_same j (Client.cl_subs c)) in E by exact Hs. exact E.
Qed.
Lemma q_work d j q q' h g x t nw : nth_error (d_es d) j = Some (EReq q) -> d_t d = x :: t -> on_req j x ->
  work (d_q j q' h g (t ++ nw) d) + e_work (EReq q) = work d + e_work (EReq q') + sum (map t_work nw).
Proof.
  intros Hq Et M. unfold work, d_q. fields. pose proof (e_work_upd j (d_es d) _ (EReq q') Hq) as W. rewrite Et, map_app, sum_app. cbn [map sum].
  assert (T : t_work x = 0) by (unfold t_work; destruct M as [->| ->]; reflexivity). lia.
Qed.

Section Jobs.
Context (lit : num -> jstr) (num : jstr -> num) (other : jsval -> N -> bool).
Local Notation call := (call lit num other).
Local Notation user := (user lit num other).
Local Notation run_job := (run_job lit num other).
Local Notation drain := (drain lit num other).
Local Notation cnext := (Client.cnext (js_enc lit) (js_read num) (js_same other)).
Local Notation acts_next := (acts_next lit num other).
Local Notation leads := (leads lit num other).

Record stepped (x : job) (t : tags) (d : world) (c : client) (d' : world) (c' : client) : Prop := {
  sp_run : forall n, run_job (140 + n) x (conc (d_tail t d)) = Ok tt (conc d');
  sp_inv : Inv d' c';
  sp_work : work d' < work d;
  sp_disp : Client.cl_disp c' = None;
  sp_leads : forall sc1 c1, leads (left d') c' sc1 c1 -> leads (left d) c sc1 c1
}.

Lemma j_link d c x t w : Inv d c -> Client.cl_disp c = None -> d_t d = x :: t -> fst x = MLink w -> exists d', stepped (snd x) t d c d' c /\ d_t d' = t /\ d_us d' = d_us d.
Proof.
  intros H Dp Et Ex. pose proof (e_mark (v_ent H)) as F. rewrite Et in F. inversion F as [|? ? M _]; subst. unfold mark_ok in M. rewrite Ex in M.
  pose proof (v_net H) as N. rewrite Et in N. unfold links in N. cbn [flat_map] in N. rewrite Ex in N. cbn [app] in N. change (flat_map _ t) with (links t) in N.
  destruct (s_link _ _ _ _ _ _ _ _ _ _ _ _ _ N) as (rs & Hp & N2).
  exists (mkD (d_id d) (d_iv d) (d_so d) (d_op d) (d_th d) (d_cnt d) (d_rest d) (d_fr d) (put (w_s w) (OSock (w_n w)) (mkProm (PPending (rs ++ [into w])) false) (d_h d)) (d_sk d) (d_su d) (d_tm d) t (d_us d) (d_sp d) (d_ln d ++ [w]) (d_es d)).
  split; [|split; reflexivity]. constructor; try assumption.
  - intros n. rewrite M. unfold conc, d_tail. fields. unfold link. cbn [JsSem.run_job]. erewrite then_pending by (eapply nth_snd; exact Hp). rewrite put_snd. reflexivity.
  - constructor; fields; try apply H; [exact N2|].
    assert (Hn : net_tag x) by (unfold net_tag; rewrite Ex; exact M).
    pose proof (v_ent H) as E. rewrite Et in E. apply e_less in E; [|exact Hn].
    rewrite <- (app_nil_r (d_rest d)), <- (app_nil_r t). eapply e_mono; [|apply Nat.le_refl|constructor|exact E]. eapply keeps_put; [exact Hp|]. now intros [].
  - unfold work. fields. rewrite Et. cbn [map sum]. unfold t_work at 2. rewrite Ex. lia.
  - intros sc1 c1 L. exact L.
Qed.

Lemma less_user d c x t : Inv d c -> d_t d = x :: t -> fst x = MUser -> Inv (d_tail t d) c /\ work (d_tail t d) < work d /\ user_job (snd x).
Proof.
  intros H Et Ex. pose proof (e_mark (v_ent H)) as F. rewrite Et in F. inversion F as [|? ? M _]; subst. unfold mark_ok in M. rewrite Ex in M.
  split; [|split; [|exact M]].
  - constructor; unfold d_tail; fields; try apply H.
    + pose proof (v_net H) as N. rewrite Et in N. unfold links in N. cbn [flat_map] in N. rewrite Ex in N. exact N.
    + pose proof (v_ent H) as E. rewrite Et in E. apply e_less in E; [exact E|]. unfold net_tag. rewrite Ex. exact M.
  - unfold work, d_tail. fields. rewrite Et. cbn [map sum]. unfold t_work at 2. rewrite Ex. lia.
Qed.
Lemma user_job_runs n j s : user_job j -> run_job n j s = attempt (user n) (fun _ => ret tt) (fun _ => ret tt) s.
Proof. intros [->|[v ->]]; reflexivity. Qed.
Lemma j_user d c x t : Inv d c -> Client.cl_disp c = None -> d_t d = x :: t -> fst x = MUser -> exists d' c', stepped (snd x) t d c d' c'.
Proof.
  intros H Dp Et Ex. destruct (less_user d c x t H Et Ex) as (H1 & W & M).
  assert (U : Client.user c = true) by (unfold Client.user; now rewrite Dp).
  destruct (user_ok lit num other _ _ H1 U) as (d' & R & I & L & _ & W' & D' & _ & _).
  change (left (d_tail t d)) with (left d) in *.
  exists d', (acts_next c (sc_acts (fst (pop (left d))))). constructor.
  - intros n. rewrite user_job_runs by exact M. change (140 + n) with (132 + (8 + n)). unfold attempt. rewrite R. destruct (sc_throw _); reflexivity.
  - exact I.
  - lia.
  - congruence.
  - intros sc1 c1 K. rewrite L in K. apply l_code; [exact U|]. unfold code_next. destruct (sc_throw _); [|exact K].
    cbn [Client.cnext]. rewrite D', Dp. exact K.
Qed.

Lemma j_back d c x t j : Inv d c -> Client.cl_disp c = None -> d_t d = x :: t -> fst x = MBack j -> exists d', stepped (snd x) t d c d' c.
Proof.
  intros H Dp Et Ex. pose proof (e_mark (v_ent H)) as F. rewrite Et in F. inversion F as [|? ? M _]; subst. unfold mark_ok in M. rewrite Ex in M. destruct M as [q Hq].
  destruct (e_sub (v_ent H) j _ Hq) as [s Hs]. pose proof (e_ok (v_ent H) j _ _ Hq Hs) as O. cbn [ent_ok] in O. rewrite Et in O.
  destruct (head_back j x t Ex) as [Mb Ms].
  pose proof O as [A1 A2 A3 A4 A5 A6 A7 A8 A9 A10 A11 A12 A13 A14]. rewrite Mb in A13. rewrite Ms in A12. unfold back_jobs in A13.
  destruct (q_b q) eqn:Eb; [discriminate|]. injection A13 as Ej A13.
  assert (Or : on_req j x) by (right; exact Ex).
  destruct (q_g q) as [|v|v|v y|v y|v|v|v] eqn:Eg.
  7:{ (* the fourth is there *)
    set (q' := q_set (G6 v) true (q_n q) q).
    exists (d_q j q' (d_h d) [] (t ++ [(MStage j, JReact (HInto (q_p q)) true (VData v) None)]) d).
    constructor; try assumption.
    - intros n. rewrite Ej. unfold conc, d_tail, d_q. fields. cbn [JsSem.run_job]. erewrite then_done.
      2:{ eapply nth_snd. rewrite A9. unfold p3. rewrite Eg. reflexivity. }
      rewrite map_app, app_nil_r. reflexivity.
    - eapply q_inv; [exact H|exact Hq|exact Hs|exact Et|exact Or|reflexivity..|apply keeps_refl|repeat constructor|]. rewrite app_nil_r.
      destruct q as [k p p2' a f sa fi gg b n]; cbn [q_k q_p q_2 q_a q_f q_s q_i q_g q_b q_n] in *; subst gg b.
      constructor; try assumption; try reflexivity.
      + rewrite on_mark_app, A12. unfold on_mark. cbn. now rewrite Nat.eqb_refl.
      + rewrite on_mark_app, A13. reflexivity.
    - pose proof (q_work d j q q' (d_h d) [] x t [(MStage j, JReact (HInto (q_p q)) true (VData v) None)] Hq Et Or) as W.
      cbn [map sum t_work fst] in W. unfold e_work in W. unfold q' in *. cbn [q_set q_b q_g q_n] in W. rewrite Eb, Eg in W. lia.
    - intros sc1 c1 L. exact L. }
  7:{ discriminate (A14 v eq_refl). }
  all: match type of Eg with _ = ?g => set (q' := q_set g true (q_n q) q) end;
    exists (d_q j q' (put (q_2 q + 1) (OReq j 3) (p3 q') (d_h d)) [] (t ++ []) d);
    (apply Build_stepped; try assumption;
     [ intros n; rewrite Ej; unfold conc, d_tail, d_q; fields; cbn [JsSem.run_job];
       assert (HH : nth_error (map snd (d_h d)) (q_2 q + 1) = Some (mkProm (PPending []) false)) by (eapply nth_snd; rewrite A9; unfold p3; rewrite Eg, Eb; reflexivity);
       erewrite then_pending by exact HH; rewrite !app_nil_r, put_snd; unfold p3, q'; cbn [q_set q_g q_b]; reflexivity
     | eapply q_inv; [exact H|exact Hq|exact Hs|exact Et|exact Or|reflexivity..|eapply keeps_put; [exact A9|cbn; congruence]|apply Forall_nil|];
       rewrite !app_nil_r; pose proof (put_keep _ _ _ (p3 q') _ A9) as Z; pose proof (put_same _ _ (OReq j 3) (p3 q') _ A9) as Z0;
       destruct q as [k p p2' a f sa fi gg b n]; cbn [q_k q_p q_2 q_a q_f q_s q_i q_g q_b q_n] in *; subst gg b;
       apply Build_req_ok; try assumption; try reflexivity; try (apply Z; [assumption|discriminate]);
       (intros z pz Hz; first [discriminate | apply Z; [apply A10; exact Hz|discriminate]])
     | pose proof (q_work d j q q' (put (q_2 q + 1) (OReq j 3) (p3 q') (d_h d)) [] x t [] Hq Et Or) as W;
       cbn [map sum] in W; unfold e_work in W; unfold q' in *; cbn [q_set q_b q_g q_n] in W; rewrite Eb, Eg in W; lia
     | intros sc1 c1 L; exact L ]).
Qed.
(** ** The stages of a request *)
Lemma run_fun n f v to s : run_job n (JReact (HFun f) true v (Some to)) s = attempt (call n f [v]) (resolve_opt (Some to)) (reject_opt (Some to)) s.
Proof. reflexivity. Qed.
Lemma run_finally n f v to s : run_job n (JReact (HFinally f) true v (Some to)) s =
  attempt (call n f [])
            (fun r =>
               let! p := match r with
                         | VProm p => ret p
                         | _ => let! p := new_prom (mkProm (PPending []) true) in resolve p r;; ret p
                         end in
               let! q := new_prom (mkProm (PPending []) false) in
               perform_then p (HReturn v) HNone (Some q);;
               resolve_opt (Some to) (VProm q))
            (reject_opt (Some to)) s.
Proof. reflexivity. Qed.
Lemma after_finally id iv so op th cnt rest fr pr sk su tm jb us v to : to < List.length pr ->
  ((let! p := (let! p := new_prom (mkProm (PPending []) true) in resolve p VUndef;; ret p) in
    let! q := new_prom (mkProm (PPending []) false) in
    perform_then p (HReturn v) HNone (Some q);;
    resolve_opt (Some to) (VProm q)) : M unit) (St id iv so op th cnt rest fr pr sk su tm jb us) =
  Ok tt (St id iv so op th cnt rest fr (pr ++ [mkProm (PFul VUndef) true; mkProm (PPending []) false]) sk su tm
    (jb ++ [JReact (HReturn v) true VUndef (Some (List.length pr + 1)); JThen (List.length pr + 1) to]) us).
Proof.
  intros L. unfold bind at 1. unfold attempt at 1. unfold bind at 1, attempt at 1. unfold new_prom at 1. cbn [st_proms St set_proms st_frames st_fresh st_socks st_sets st_timers st_jobs st_user].
  change (set_proms (pr ++ [mkProm (PPending []) true]) (St id iv so op th cnt rest fr pr sk su tm jb us)) with (St id iv so op th cnt rest fr (pr ++ [mkProm (PPending []) true]) sk su tm jb us).
  unfold bind at 1, attempt at 1. cbn [resolve]. erewrite settle_ok by apply nth_app_new. cbn [map]. rewrite app_nil_r. unfold ret at 1.
  assert (E : upd (List.length pr) (fun _ => mkProm (PFul VUndef) true) (pr ++ [mkProm (PPending []) true]) = pr ++ [mkProm (PFul VUndef) true]).
  { rewrite upd_at0. reflexivity. }
  rewrite E. unfold bind at 1, attempt at 1. unfold new_prom at 1.
  change (set_proms ?x (St id iv so op th cnt rest fr ?y sk su tm jb us)) with (St id iv so op th cnt rest fr x sk su tm jb us).
  cbn [st_proms St]. unfold bind at 1, attempt at 1. erewrite then_done by (rewrite <- app_assoc; rewrite nth_at0; reflexivity).
  cbn [resolve_opt resolve]. replace (Nat.eqb to _) with false by (symmetry; apply Nat.eqb_neq; cbn [st_proms St]; rewrite app_length; cbn; lia).
  unfold enqueue, modify. cbn [st_proms St]. rewrite <- !app_assoc, app_length. cbn [app List.length].
  match goal with |- _ = Ok tt (St _ _ _ _ _ _ _ _ _ _ _ _ (jb ++ [?a; ?b]) _) => replace (jb ++ [a; b]) with ((jb ++ [a]) ++ [b]) by (rewrite <- app_assoc; reflexivity) end.
  reflexivity.
Qed.

Lemma j_stage d c x t j : Inv d c -> Client.cl_disp c = None -> d_t d = x :: t -> fst x = MStage j -> exists d' c', stepped (snd x) t d c d' c'.
Proof.
  intros H Dp Et Ex. pose proof (e_mark (v_ent H)) as F. rewrite Et in F. inversion F as [|? ? M _]; subst. unfold mark_ok in M. rewrite Ex in M. destruct M as [q Hq].
  destruct (e_sub (v_ent H) j _ Hq) as [s Hs]. pose proof (e_ok (v_ent H) j _ _ Hq Hs) as O. cbn [ent_ok] in O. rewrite Et in O.
  destruct (head_stage j x t Ex) as [Ms Mb].
  pose proof O as [A1 A2 A3 A4 A5 A6 A7 A8 A9 A10 A11 A12 A13 A14]. rewrite Ms in A12. rewrite Mb in A13. unfold stage_jobs in A12.
  assert (Or : on_req j x) by (left; exact Ex).
  destruct (q_g q) as [|v|v|v y|v y|v|v|v] eqn:Eg; try discriminate.
  - (* [_.then(same)] *)
    injection A12 as Ej A12.
    set (q' := q_set (G2 v) (q_b q) (q_n q) q).
    exists (d_q j q' (put (q_2 q) (OReq j 2) (p2 q') (d_h d)) [value_frame (VData v)] (t ++ [(MStage j, JReact (HFinally (f_fin q)) true (VData v) (Some (q_2 q + 1)))]) d), c.
    constructor; try assumption.
    + intros n. rewrite Ej, run_fun. unfold attempt, conc, d_tail, d_q. fields. change (140 + n) with (20 + (120 + n)). change (S (S (q_f q))) with (2 + q_f q). rewrite same_ok. cbn [resolve_opt resolve].
      assert (HH : nth_error (map snd (d_h d)) (q_2 q) = Some (mkProm (PPending [mkRe (HFinally (f_fin q)) (HFinally (f_fin q)) (Some (q_2 q + 1))]) false)).
      { eapply nth_snd. rewrite A8. unfold p2. rewrite Eg. reflexivity. }
      erewrite settle_ok by exact HH. rewrite map_app, put_snd. reflexivity.
    + eapply q_inv; [exact H|exact Hq|exact Hs|exact Et|exact Or|reflexivity..|eapply keeps_put; [exact A8|cbn; congruence]|repeat constructor|].
      pose proof (put_keep _ _ _ (p2 q') _ A8) as Z. pose proof (put_same _ _ (OReq j 2) (p2 q') _ A8) as Z0.
      destruct A11 as (ns & m & l & u & B1 & B2 & B3).
      destruct q as [k p p2' a f sa fi gg b n]; cbn [q_k q_p q_2 q_a q_f q_s q_i q_g q_b q_n] in *; subst gg.
      apply Build_req_ok; try assumption; try reflexivity; try (apply Z; [assumption|discriminate]).
      * intros z pz Hz. discriminate.
      * exists ns, m, l, u. repeat split; now apply nth_old.
      * rewrite on_mark_app, A12. unfold on_mark. cbn. now rewrite Nat.eqb_refl.
      * rewrite on_mark_app, A13. unfold on_mark. cbn. now rewrite app_nil_r.
      * discriminate.
    + match goal with |- context [t ++ ?nw] => pose proof (q_work d j q q' (put (q_2 q) (OReq j 2) (p2 q') (d_h d)) [value_frame (VData v)] x t nw Hq Et Or) as W end.
      cbn [map sum t_work fst] in W. unfold e_work in W. unfold q' in *. cbn [q_set q_b q_g q_n] in W. rewrite Eg in W. lia.
    + intros sc1 c1 L. exact L.
  - (* [.finally] *)
    injection A12 as Ej A12. destruct A11 as (ns & m & l & u & B1 & B2 & B3).
    set (y := List.length (d_h d) + 1). set (q' := q_set (G3 v y) (q_b q) (q_n q) q).
    set (h' := d_h d ++ [(OReq j 5, mkProm (PFul VUndef) true); (OReq j 4, blank false)] : heap).
    set (nw := [(MStage j, JReact (HReturn (VData v)) true VUndef (Some y)); (MStage j, JThen y (q_2 q + 1))]).
    set (s' := dead s (Client.done c)).
    assert (Sn : exists r, Client.su_seen s = v :: r).
    { cbn [stage_data] in A5. destruct (Client.su_seen s) as [|z r]; [discriminate|]. cbn in A5. injection A5 as ->. now exists r. }
    assert (Uf : Client.unfinished s = true).
    { destruct Sn as [r Er]. unfold Client.unfinished. rewrite A2, A4, Er. cbn. apply orb_true_r. }
    assert (Ec : cnext c (Client.CFinally j) = Client.delete_sub j c) by (cbn [Client.cnext]; now rewrite Dp, Hs, Uf).
    exists (d_less j (upd j (fun _ => EReq q') (d_es d)) (t ++ nw) h' d), (Client.delete_sub j c).
    assert (E : EInv h' (d_rest d) (d_fr d) (t ++ nw) (d_us d) (upd j (fun _ => None) (d_su d)) (upd j (fun _ => EReq q') (d_es d)) (upd j (fun _ => s') (Client.cl_subs c)) (Client.cl_stores c)).
    { rewrite <- (dead_slot (EReq q) s (Client.done c)). rewrite <- (app_nil_r (d_rest d)).
      eapply q_ent; [exact H|exact Hq|exact Hs|exact Et|exact Or|reflexivity..|apply keeps_app|unfold nw; repeat constructor|]. rewrite app_nil_r. fold s'.
      unfold s', dead. rewrite A4. cbn [stage_live].
      apply Build_req_ok; cbn [Client.su_id Client.su_req Client.su_bad Client.su_live Client.su_seen]; try assumption; try reflexivity.
      - unfold h'. apply nth_old. change (q_p q') with (q_p q). rewrite A6. unfold p0, q'. cbn [q_set q_g q_n]. now rewrite Eg.
      - unfold h'. apply nth_old. change (q_p q') with (q_p q). rewrite A7. unfold p1, q'. cbn [q_set q_g q_n]. now rewrite Eg.
      - unfold h'. apply nth_old. change (q_2 q') with (q_2 q). rewrite A8. unfold p2, q'. cbn [q_set q_g q_n]. now rewrite Eg.
      - unfold h'. apply nth_old. change (q_2 q') with (q_2 q). rewrite A9. unfold p3, q'. cbn [q_set q_g q_n]. now rewrite Eg.
      - intros z pz Hz. unfold px, q' in Hz. cbn [q_set q_g] in Hz. injection Hz as <- <-. unfold h', y. rewrite nth_at. reflexivity.
      - exists ns, m, l, u. repeat split; assumption.
      - rewrite on_mark_app, A12. unfold on_mark, nw. cbn. now rewrite Nat.eqb_refl.
      - rewrite on_mark_app, A13. unfold on_mark, nw. cbn. now rewrite app_nil_r.
      - discriminate. }
    constructor.
    + intros n. rewrite Ej, run_finally. unfold attempt. unfold conc at 1, d_tail. fields. change (140 + n) with (60 + (80 + n)). unfold f_fin.
      erewrite finally_ok; [|exact (v_th _ _ H)|exact (v_so _ _ H)|exact B1|exact B3].
      change (q_a q) with (eid (EReq q)). rewrite (e_remove _ _ _ _ _ _ _ _ _ _ _ (v_ent H) Hq). unfold d_less.
      assert (Ln : q_2 q + 1 < List.length (map snd (d_h d))) by (rewrite map_length; eapply nth_some_lt; exact A9).
      destruct (some_entry _); rewrite after_finally by exact Ln; unfold conc; fields; unfold h', nw, y; rewrite !map_app, map_length; reflexivity.
    + apply less_inv with (s := s); [exact H|exact Hs|apply keeps_app| |exact E|].
      * rewrite links_app, Et, (links_head j x t Or), (req_links j nw), app_nil_r; [reflexivity|]. unfold nw. repeat constructor.
      * rewrite <- Ec. apply shape_next, (v_shape H).
    + pose proof (q_work d j q q' h' [] x t nw Hq Et Or) as W. cbn [map sum t_work fst nw] in W. unfold e_work in W. unfold q' in *. cbn [q_set q_b q_g q_n] in W. rewrite Eg in W.
      unfold d_less, work, d_q in *. destruct (some_entry _); fields; cbn [d_es d_t d_us] in W; lia.
    + rewrite delete_disp. exact Dp.
    + intros sc1 c1 L. apply l_finally with (j := j). rewrite Ec. unfold left, d_less in L. destruct (some_entry _); exact L.
  - (* the result of [.finally] *)
    injection A12 as Ej A12. pose proof (A10 y (blank false)) as A10'. unfold px in A10'. rewrite Eg in A10'. specialize (A10' eq_refl).
    set (q' := q_set (G4 v y) (q_b q) (q_n q) q).
    exists (d_q j q' (put y (OReq j 4) (p_ful v) (d_h d)) [] (t ++ []) d), c.
    constructor; try assumption.
    + intros n. rewrite Ej. unfold conc, d_tail, d_q. fields. cbn [JsSem.run_job resolve_opt resolve].
      pose proof (nth_snd _ _ _ _ A10') as HH. unfold blank in HH. erewrite settle_ok by exact HH. rewrite map_app, put_snd, !app_nil_r. reflexivity.
    + eapply q_inv; [exact H|exact Hq|exact Hs|exact Et|exact Or|reflexivity..|eapply keeps_put; [exact A10'|cbn; congruence]|constructor|]. rewrite !app_nil_r.
      pose proof (put_keep _ _ _ (p_ful v) _ A10') as Z. pose proof (put_same _ _ (OReq j 4) (p_ful v) _ A10') as Z0.
      destruct q as [k p p2' a f sa fi gg b n]; cbn [q_k q_p q_2 q_a q_f q_s q_i q_g q_b q_n] in *; subst gg.
      apply Build_req_ok; try assumption; try reflexivity; try (apply Z; [assumption|discriminate]).
      * intros z pz Hz. cbn in Hz. injection Hz as <- <-. exact Z0.
      * discriminate.
    + pose proof (q_work d j q q' (put y (OReq j 4) (p_ful v) (d_h d)) [] x t [] Hq Et Or) as W.
      cbn [map sum t_work fst] in W. unfold e_work in W. unfold q' in *. cbn [q_set q_b q_g q_n] in W. rewrite Eg in W. lia.
    + intros sc1 c1 L. exact L.
  - (* the fourth promise begins to follow it *)
    injection A12 as Ej A12. pose proof (A10 y (p_ful v)) as A10'. unfold px in A10'. rewrite Eg in A10'. specialize (A10' eq_refl).
    set (q' := q_set (G5 v) (q_b q) (q_n q) q).
    exists (d_q j q' (d_h d) [] (t ++ [(MStage j, JReact (HInto (q_2 q + 1)) true (VData v) None)]) d), c.
    constructor; try assumption.
    + intros n. rewrite Ej. unfold conc, d_tail, d_q. fields. cbn [JsSem.run_job].
      pose proof (nth_snd _ _ _ _ A10') as HH. unfold p_ful in HH. erewrite then_done by exact HH. rewrite map_app, !app_nil_r. reflexivity.
    + eapply q_inv; [exact H|exact Hq|exact Hs|exact Et|exact Or|reflexivity..|apply keeps_refl|repeat constructor|]. rewrite !app_nil_r.
      destruct q as [k p p2' a f sa fi gg b n]; cbn [q_k q_p q_2 q_a q_f q_s q_i q_g q_b q_n] in *; subst gg.
      apply Build_req_ok; try assumption; try reflexivity.
      * intros z pz Hz. discriminate.
      * rewrite on_mark_app, A12. unfold on_mark. cbn. now rewrite Nat.eqb_refl.
      * rewrite on_mark_app, A13. unfold on_mark. cbn. now rewrite app_nil_r.
      * discriminate.
    + match goal with |- context [t ++ ?nw] => pose proof (q_work d j q q' (d_h d) [] x t nw Hq Et Or) as W end.
      cbn [map sum t_work fst] in W. unfold e_work in W. unfold q' in *. cbn [q_set q_b q_g q_n] in W. rewrite Eg in W. lia.
    + intros sc1 c1 L. exact L.
  - (* the fourth promise *)
    injection A12 as Ej A12.
    set (q' := q_set (G6 v) (q_b q) (q_n q) q).
    set (nw := map (fun r => (MStage j, JReact (re_ful r) true (VData v) (re_to r))) (if q_b q then [into_p0 q] else [])).
    exists (d_q j q' (put (q_2 q + 1) (OReq j 3) (p3 q') (d_h d)) [] (t ++ nw) d), c.
    assert (Fn : Forall (of_req j) nw) by (unfold nw; destruct (q_b q); cbn; repeat constructor).
    constructor; try assumption.
    + intros n. rewrite Ej. unfold conc, d_tail, d_q. fields. cbn [JsSem.run_job resolve_opt resolve].
      assert (HH : nth_error (map snd (d_h d)) (q_2 q + 1) = Some (mkProm (PPending (if q_b q then [into_p0 q] else [])) false)).
      { eapply nth_snd. rewrite A9. unfold p3. rewrite Eg. reflexivity. }
      erewrite settle_ok by exact HH. rewrite map_app, put_snd, !app_nil_r. unfold nw. rewrite map_map. reflexivity.
    + eapply q_inv; [exact H|exact Hq|exact Hs|exact Et|exact Or|reflexivity..|eapply keeps_put; [exact A9|cbn; congruence]|exact Fn|]. rewrite !app_nil_r.
      pose proof (put_keep _ _ _ (p3 q') _ A9) as Z. pose proof (put_same _ _ (OReq j 3) (p3 q') _ A9) as Z0.
      destruct q as [k p p2' a f sa fi gg b n]; cbn [q_k q_p q_2 q_a q_f q_s q_i q_g q_b q_n] in *; subst gg.
      apply Build_req_ok; try assumption; try reflexivity; try (apply Z; [assumption|discriminate]).
      * intros z pz Hz. discriminate.
      * rewrite on_mark_app, A12. unfold nw, on_mark. destruct b; cbn; now rewrite ?Nat.eqb_refl.
      * rewrite on_mark_app, A13. unfold nw, on_mark. destruct b; cbn; now rewrite ?app_nil_r.
      * discriminate.
    + pose proof (q_work d j q q' (put (q_2 q + 1) (OReq j 3) (p3 q') (d_h d)) [] x t nw Hq Et Or) as W.
      assert (W0 : sum (map t_work nw) = 0) by (unfold nw; destruct (q_b q); reflexivity). rewrite W0 in W.
      unfold e_work in W. unfold q' in *. cbn [q_set q_b q_g q_n] in W. rewrite Eg in W. lia.
    + intros sc1 c1 L. exact L.
  - (* the promise of the async function *)
    destruct (q_b q) eqn:Eb; [|discriminate]. injection A12 as Ej A12.
    set (q' := q_set (G7 v) (q_b q) (q_n q) q).
    set (nw := repeat (MUser, JReact HUser true (VData v) None) (q_n q)).
    exists (d_q j q' (put (q_p q) (OReq j 0) (p0 q') (d_h d)) [] (t ++ nw) d), c.
    assert (Fn : Forall (of_req j) nw).
    { apply Forall_forall. intros z Iz. apply repeat_spec in Iz. subst z. right. right. split; [reflexivity|]. right. eexists. reflexivity. }
    assert (On : on_mark (MStage j) nw = [] /\ on_mark (MBack j) nw = []).
    { unfold nw. generalize (q_n q). induction n as [|n IH]; [split; reflexivity|exact IH]. }
    constructor; try assumption.
    + intros n. rewrite Ej. unfold conc, d_tail, d_q. fields. cbn [JsSem.run_job resolve_opt resolve].
      assert (HH : nth_error (map snd (d_h d)) (q_p q) = Some (mkProm (PPending (repeat (mkRe HUser HUser None) (q_n q))) true)).
      { eapply nth_snd. rewrite A6. unfold p0. rewrite Eg. reflexivity. }
      erewrite settle_ok by exact HH. rewrite map_app, put_snd, !app_nil_r. unfold nw.
      assert (Er : forall m, map (fun r => JReact (re_ful r) true (VData v) (re_to r)) (repeat (mkRe HUser HUser None) m) = map snd (repeat (MUser, JReact HUser true (VData v) None) m)).
      { induction m as [|m IH]; [reflexivity|]. cbn. f_equal. exact IH. }
      rewrite Er. reflexivity.
    + eapply q_inv; [exact H|exact Hq|exact Hs|exact Et|exact Or|reflexivity..|eapply keeps_put; [exact A6|cbn; congruence]|exact Fn|]. rewrite !app_nil_r.
      pose proof (put_keep _ _ _ (p0 q') _ A6) as Z. pose proof (put_same _ _ (OReq j 0) (p0 q') _ A6) as Z0.
      destruct q as [k p p2' a f sa fi gg b n]; cbn [q_k q_p q_2 q_a q_f q_s q_i q_g q_b q_n] in *; subst gg b. destruct On as [O1 O2].
      apply Build_req_ok; try assumption; try reflexivity; try (apply Z; [assumption|discriminate]).
      * intros z pz Hz. discriminate.
      * now rewrite on_mark_app, A12, O1.
      * now rewrite on_mark_app, A13, O2.
    + pose proof (q_work d j q q' (put (q_p q) (OReq j 0) (p0 q') (d_h d)) [] x t nw Hq Et Or) as W.
      assert (W0 : sum (map t_work nw) = q_n q) by (unfold nw; generalize (q_n q); induction n as [|m IH]; [reflexivity|]; cbn; now rewrite IH). rewrite W0 in W.
      unfold e_work in W. unfold q' in *. cbn [q_set q_b q_g q_n] in W. rewrite Eg in W. lia.
    + intros sc1 c1 L. exact L.
Qed.

Lemma j_any d c x t : Inv d c -> Client.cl_disp c = None -> d_t d = x :: t -> exists d' c', stepped (snd x) t d c d' c'.
Proof.
  intros H Dp Et. destruct (fst x) eqn:Ex.
  - now apply j_stage with j.
  - destruct (j_back d c x t j H Dp Et Ex) as [d' S]. now exists d', c.
  - destruct (j_link d c x t w H Dp Et Ex) as (d' & S & _). now exists d', c.
  - now apply j_user.
Qed.

(** ** All of them *)
Lemma drains_aux k : forall d c, work d <= k -> Inv d c -> Client.cl_disp c = None ->
  exists d' c' N, (forall n, N <= n -> drain n (conc d) = Ok tt (conc d')) /\ Inv d' c' /\ d_t d' = [] /\ Client.cl_disp c' = None /\
    forall sc1 c1, leads (left d') c' sc1 c1 -> leads (left d) c sc1 c1.
Proof.
  induction k as [|k IH]; intros d c W H Dp; destruct (d_t d) as [|x t] eqn:Et.
  1,3: exists d, c, 1; split; [intros n Hn; destruct n as [|n]; [lia|]; unfold conc; rewrite Et; apply drain_nil|]; auto.
  all: destruct (j_any d c x t H Dp Et) as (d1 & c1 & [R I W1 D1 L1]); [try lia].
  destruct (IH d1 c1) as (d2 & c2 & N & R2 & I2 & T2 & D2 & L2); [lia|exact I|exact D1|].
  exists d2, c2, (S (N + 140)). split; [|split; [exact I2|split; [exact T2|split; [exact D2|auto]]]].
  intros n Hn. destruct n as [|n]; [lia|]. unfold conc at 1. rewrite Et. cbn [map]. erewrite drain_job; [apply R2; lia|].
  specialize (R (n - 140)). replace (140 + (n - 140)) with n in R by lia. exact R.
Qed.
Lemma drains d c : Inv d c -> Client.cl_disp c = None ->
  exists d' c' N, (forall n, N <= n -> drain n (conc d) = Ok tt (conc d')) /\ Inv d' c' /\ d_t d' = [] /\ Client.cl_disp c' = None /\
    leads (left d) c (left d') c'.
Proof.
  intros H Dp. destruct (drains_aux (work d) d c (Nat.le_refl _) H Dp) as (d' & c' & N & R & I & T & D' & L).
  exists d', c', N. repeat (split; [assumption|]). apply L. constructor.
Qed.
End Jobs.
