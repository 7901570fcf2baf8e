(** The subscriptions of the running client and those of the model; the whole state.  Proof side. *)
From Coq Require Import List String Ascii Bool Arith NArith ZArith Lia.
From Verif Require Import Util Js JsonText Wire TsProgram FileProofs ClientSpec JsSem JsRun JsFun JsSend JsCalls JsRequest JsEvents JsHeap JsNet JsFlush.
From Verif Require Client ClientSockProofs.
Import ListNotations.
Local Open Scope string_scope.
Local Open Scope list_scope.

Notation sub := (Client.sub jsval).
Notation client := (Client.client jstr jsval jsval).

(** How far a request is: waiting; [_.then(same)] is due; [.finally] is due; it was run, [x] follows; [x] is there;
    the last promise is due; it is there; the promise of the async function is. *)
Inductive stage := G0 | G1 (d : jsval) | G2 (d : jsval) | G3 (d : jsval) (x : nat) | G4 (d : jsval) (x : nat) | G5 (d : jsval) | G6 (d : jsval) | G7 (d : jsval).
Definition stage_data (g : stage) : option jsval :=
  match g with G0 => None | G1 d | G2 d | G3 d _ | G4 d _ | G5 d | G6 d | G7 d => Some d end.
Definition stage_live (g : stage) : bool := match g with G0 | G1 _ | G2 _ => true | _ => false end.

(** A request: its id, the first and the third of its promises (the second follows the first, the fourth the third),
    its callback, its frame, the functions given to [then] and [finally]; whether the promise of the async function
    follows the fourth already; how many functions of the user follow. *)
Record req := mkQ { q_k : N; q_p : nat; q_2 : nat; q_a : nat; q_f : nat; q_s : nat; q_i : nat; q_g : stage; q_b : bool; q_n : nat }.
Definition q_set (g : stage) (b : bool) (n : nat) (q : req) : req := mkQ (q_k q) (q_p q) (q_2 q) (q_a q) (q_f q) (q_s q) (q_i q) g b n.
(** A listener: the id, its callback, the frame of [cb], that of the stream, the function returned, its number. *)
Record lis := mkL { l_k : N; l_a : nat; l_h : nat; l_f : nat; l_i : nat; l_u : nat }.
Inductive entry := EReq (q : req) | EHear (l : lis).

Definition clo_req (q : req) : val := f_answer (q_a q) (2 + (q_f q + 1)) (2 + q_f q).
Definition clo_lis (l : lis) : val := f_hear (l_a l) (2 + l_h l) (2 + l_f l).
Definition clo (e : entry) : val := match e with EReq q => clo_req q | EHear l => clo_lis l end.
Definition eid (e : entry) : nat := match e with EReq q => q_a q | EHear l => l_a l end.

Definition p_user (n : nat) : prom := mkProm (PPending (repeat (mkRe HUser HUser None) n)) true.
Definition p_ful (d : jsval) : prom := mkProm (PFul (VData d)) true.
Definition p0 (q : req) : prom := match q_g q with G7 d => p_ful d | _ => p_user (q_n q) end.
Definition p1 (q : req) : prom :=
  match stage_data (q_g q) with
  | Some d => p_ful d
  | None => mkProm (PPending [mkRe (HFun (f_same (q_s q) (2 + q_f q))) HNone (Some (q_2 q))]) false
  end.
Definition f_fin (q : req) : val := f_finally (q_i q) (2 + q_f q).
Definition p2 (q : req) : prom :=
  match q_g q with
  | G0 | G1 _ => mkProm (PPending [mkRe (HFinally (f_fin q)) (HFinally (f_fin q)) (Some (q_2 q + 1))]) false
  | G2 d | G3 d _ | G4 d _ | G5 d | G6 d | G7 d => p_ful d
  end.
Definition into_p0 (q : req) : reaction := mkRe (HInto (q_p q)) (HInto (q_p q)) None.
Definition p3 (q : req) : prom :=
  match q_g q with
  | G6 d | G7 d => p_ful d
  | _ => mkProm (PPending (if q_b q then [into_p0 q] else [])) false
  end.
Definition px (q : req) : option (nat * prom) :=
  match q_g q with G3 d x => Some (x, blank false) | G4 d x => Some (x, p_ful d) | _ => None end.
Definition stage_jobs (q : req) : list job :=
  match q_g q with
  | G1 d => [JReact (HFun (f_same (q_s q) (2 + q_f q))) true (VData d) (Some (q_2 q))]
  | G2 d => [JReact (HFinally (f_fin q)) true (VData d) (Some (q_2 q + 1))]
  | G3 d x => [JReact (HReturn (VData d)) true VUndef (Some x); JThen x (q_2 q + 1)]
  | G4 d x => [JThen x (q_2 q + 1)]
  | G5 d => [JReact (HInto (q_2 q + 1)) true (VData d) None]
  | G6 d => if q_b q then [JReact (HInto (q_p q)) true (VData d) None] else []
  | _ => []
  end.
Definition back_jobs (q : req) : list job := if q_b q then [] else [JThen (q_2 q + 1) (q_p q)].

(** The jobs, and what they are for. *)
Inductive mark := MStage (j : nat) | MBack (j : nat) | MLink (w : out) | MUser.
Definition is_mark (m x : mark) : bool :=
  match m, x with MStage i, MStage j => Nat.eqb i j | MBack i, MBack j => Nat.eqb i j | _, _ => false end.
Notation tags := (list (mark * job)).
Definition on_mark (m : mark) (t : tags) : list job := map snd (filter (fun x => is_mark m (fst x)) t).
Definition links (t : tags) : list out := flat_map (fun x => match fst x with MLink w => [w] | _ => [] end) t.
Lemma on_mark_app m a b : on_mark m (a ++ b) = on_mark m a ++ on_mark m b.
Proof. unfold on_mark. now rewrite filter_app, map_app. Qed.
Lemma links_app a b : links (a ++ b) = links a ++ links b.
Proof. unfold links. apply flat_map_app. Qed.
Definition user_job (j : job) : Prop := j = JUser \/ exists v, j = JReact HUser true v None.

Definition not_of (j : nat) (o : owner) : Prop := match o with OReq i _ => i <> j | _ => True end.
Definition req_owner (o : owner) : Prop := match o with OReq _ _ => True | _ => False end.
Definition net_tag (x : mark * job) : Prop := match fst x with MLink w => snd x = link w | MUser => user_job (snd x) | _ => False end.

Record req_ok (h : heap) (rest : list frame) (t : tags) (j : nat) (q : req) (s : sub) : Prop := {
  r_id : Client.su_id s = q_k q;
  r_req : Client.su_req s = true;
  r_bad : Client.su_bad s = false;
  r_live : Client.su_live s = stage_live (q_g q);
  r_seen : hd_error (Client.su_seen s) = stage_data (q_g q);
  r_p0 : nth_error h (q_p q) = Some (OReq j 0, p0 q);
  r_p1 : nth_error h (q_p q + 1) = Some (OReq j 1, p1 q);
  r_p2 : nth_error h (q_2 q) = Some (OReq j 2, p2 q);
  r_p3 : nth_error h (q_2 q + 1) = Some (OReq j 3, p3 q);
  r_px : forall x p, px q = Some (x, p) -> nth_error h x = Some (OReq j 4, p);
  r_frames : exists ns m l u, nth_error rest (q_f q) = Some (request_frame ns m l (f_unsub u (2 + (q_f q + 2))) (q_p q + 1)) /\
    nth_error rest (q_f q + 1) = Some (executor_frame (q_p q + 1) (q_k q) ns m l) /\
    nth_error rest (q_f q + 2) = Some (sub_frame (clo_req q));
  r_stage : on_mark (MStage j) t = stage_jobs q;
  r_back : on_mark (MBack j) t = back_jobs q;
  r_7 : forall d, q_g q = G7 d -> q_b q = true
}.
Definition heard_by (u : nat) (us : users) : list (list val) := map snd (filter (fun x => Nat.eqb (fst x) u) (us_heard us)).
Record lis_ok (rest : list frame) (us : users) (l : lis) (s : sub) : Prop := {
  li_id : Client.su_id s = l_k l;
  li_req : Client.su_req s = false;
  li_cb : nth_error rest (l_h l) = Some (cb_frame (VUser (l_u l)));
  li_sub : nth_error rest (l_h l + 1) = Some (sub_frame (clo_lis l));
  li_stream : exists i ns m x, nth_error rest (l_f l) = Some (stream_frame i (l_k l) ns m x (2 + l_f l));
  li_heard : heard_by (l_u l) us = map (fun d => [VData d]) (Client.su_seen s)
}.
Definition ent_ok (h : heap) (rest : list frame) (t : tags) (us : users) (j : nat) (e : entry) (s : sub) : Prop :=
  match e with EReq q => req_ok h rest t j q s | EHear l => lis_ok rest us l s end.
Definition slot (e : entry) (s : sub) : option val := if Client.su_live s then Some (clo e) else None.
Definition e_proms (es : list entry) : list val := flat_map (fun e => match e with EReq q => [VProm (q_p q)] | _ => [] end) es.
Definition e_unls (es : list entry) : list val := flat_map (fun e => match e with EHear l => [f_unsub (l_i l) (2 + (l_h l + 1))] | _ => [] end) es.
Definition e_nums (es : list entry) : list nat := flat_map (fun e => match e with EHear l => [l_u l] | _ => [] end) es.
Definition store_ok (rest : list frame) (v : val) (k : N) : Prop :=
  exists i f ns m l, v = VObj [("subscribe", f_listen i (2 + f)); ("close", f_noclose (1 + i) (2 + f))] /\
    nth_error rest f = Some (stream_frame i k ns m l (2 + f)).
Definition mark_ok (es : list entry) (x : mark * job) : Prop :=
  match fst x with
  | MLink w => snd x = link w
  | MUser => user_job (snd x)
  | MStage j | MBack j => exists q, nth_error es j = Some (EReq q)
  end.
Record EInv (h : heap) (rest : list frame) (fr : nat) (t : tags) (us : users) (su : list (option val)) (es : list entry)
    (subs : list sub) (stores : list N) : Prop := {
  e_len : List.length es = List.length subs;
  e_ok : forall j e s, nth_error es j = Some e -> nth_error subs j = Some s -> ent_ok h rest t us j e s;
  e_su : su = map (fun x => slot (fst x) (snd x)) (combine es subs);
  e_nd : NoDup (map eid es);
  e_fr : Forall (fun e => eid e < fr) es;
  e_mark : Forall (mark_ok es) t;
  e_pr : us_proms us = e_proms es;
  e_un : us_unls us = e_unls es;
  e_num : e_nums es = seq 0 (List.length (us_unls us));
  e_hd : Forall (fun x => fst x < List.length (us_unls us)) (us_heard us);
  e_st : Forall2 (store_ok rest) (us_stores us) stores
}.
Global Arguments e_len {h rest fr t us su es subs stores} _.
Global Arguments e_ok {h rest fr t us su es subs stores} _.
Global Arguments e_su {h rest fr t us su es subs stores} _.
Global Arguments e_nd {h rest fr t us su es subs stores} _.
Global Arguments e_fr {h rest fr t us su es subs stores} _.
Global Arguments e_mark {h rest fr t us su es subs stores} _.
Global Arguments e_pr {h rest fr t us su es subs stores} _.
Global Arguments e_un {h rest fr t us su es subs stores} _.
Global Arguments e_num {h rest fr t us su es subs stores} _.
Global Arguments e_hd {h rest fr t us su es subs stores} _.
Global Arguments e_st {h rest fr t us su es subs stores} _.

(** ** Nothing that matters changes *)
Lemma req_mono (Q : owner -> Prop) h h' rest g t t' j q s : (forall i, Q (OReq j i)) -> keeps Q h h' ->
  on_mark (MStage j) t' = on_mark (MStage j) t -> on_mark (MBack j) t' = on_mark (MBack j) t ->
  req_ok h rest t j q s -> req_ok h' (rest ++ g) t' j q s.
Proof.
  intros HQ K E1 E2 [A1 A2 A3 A4 A5 A6 A7 A8 A9 A10 (ns & m & l & u & B1 & B2 & B3) A12 A13 A14].
  constructor; try assumption; try (apply K; [apply HQ|assumption]).
  - intros x p Hx. apply K; [apply HQ|]. now apply A10.
  - exists ns, m, l, u. repeat split; now apply nth_old.
  - now rewrite E1.
  - now rewrite E2.
Qed.
Lemma lis_mono rest g us us' l s : heard_by (l_u l) us' = heard_by (l_u l) us -> lis_ok rest us l s -> lis_ok (rest ++ g) us' l s.
Proof.
  intros E [A1 A2 A3 A4 (i & ns & m & x & A5) A6]. constructor; try assumption; [now apply nth_old..| |now rewrite E].
  exists i, ns, m, x. now apply nth_old.
Qed.
Lemma store_mono rest g v k : store_ok rest v k -> store_ok (rest ++ g) v k.
Proof. intros (i & f & ns & m & l & A & B). exists i, f, ns, m, l. split; [exact A|now apply nth_old]. Qed.
Lemma stores_mono rest g l l' : Forall2 (store_ok rest) l l' -> Forall2 (store_ok (rest ++ g)) l l'.
Proof. induction 1; constructor; [now apply store_mono|assumption]. Qed.
Lemma net_none m t : Forall net_tag t -> on_mark m t = [] \/ (forall j, m <> MStage j) /\ (forall j, m <> MBack j).
Proof.
  intros F. destruct m; [left|left|right; split; discriminate|right; split; discriminate];
    (induction F as [|x t A F IH]; [reflexivity|]; unfold on_mark; cbn; destruct x as [[| | |] ?]; cbn in *; try contradiction; exact IH).
Qed.
Lemma on_net m t g : Forall net_tag g -> (exists j, m = MStage j \/ m = MBack j) -> on_mark m (t ++ g) = on_mark m t.
Proof.
  intros F [j Hj]. rewrite on_mark_app. destruct (net_none m g F) as [->|[A B]]; [apply app_nil_r|]. destruct Hj as [->| ->]; exfalso; [now apply (A j)|now apply (B j)].
Qed.
Lemma net_mark es g : Forall net_tag g -> Forall (mark_ok es) g.
Proof. intros F. eapply Forall_impl; [|exact F]. intros [[| | |] y] H; cbn in *; try contradiction; assumption. Qed.
Lemma e_mono h h' rest g fr fr' t t' us su es subs stores : keeps req_owner h h' -> fr <= fr' -> Forall net_tag t' ->
  EInv h rest fr t us su es subs stores -> EInv h' (rest ++ g) fr' (t ++ t') us su es subs stores.
Proof.
  intros K L F H. destruct H as [A1 A2 A3 A4 A5 A6 A7 A8 A9 A10 A11]. constructor; try assumption.
  - intros j e s He Hs. specialize (A2 j e s He Hs). destruct e; cbn in *.
    + eapply req_mono; [|exact K| | |exact A2]; [intros i; exact I|apply on_net; [exact F|exists j; now left]|apply on_net; [exact F|exists j; now right]].
    + now apply lis_mono with us.
  - eapply Forall_impl; [|exact A5]. cbn. intros. lia.
  - apply Forall_app. split; [exact A6|now apply net_mark].
  - now apply stores_mono.
Qed.
(** A job of another kind is gone. *)
Lemma e_less h rest fr x t us su es subs stores : net_tag x -> EInv h rest fr (x :: t) us su es subs stores -> EInv h rest fr t us su es subs stores.
Proof.
  intros N H. destruct H as [A1 A2 A3 A4 A5 A6 A7 A8 A9 A10 A11]. constructor; try assumption; [|now inversion A6].
  assert (E : forall m, (exists j, m = MStage j \/ m = MBack j) -> on_mark m (x :: t) = on_mark m t).
  { intros m [j Hj]. unfold on_mark. cbn. destruct x as [[| | |] y]; cbn in N; try contradiction; destruct Hj as [->| ->]; reflexivity. }
  intros j e s He Hs. specialize (A2 j e s He Hs). destruct e; cbn in *; [|exact A2].
  destruct A2. constructor; try assumption; rewrite <- E; eauto.
Qed.
Lemma e_users h rest fr t us us' su es subs stores : us_proms us' = us_proms us -> us_stores us' = us_stores us -> us_unls us' = us_unls us -> us_heard us' = us_heard us ->
  EInv h rest fr t us su es subs stores -> EInv h rest fr t us' su es subs stores.
Proof.
  intros E1 E2 E3 E4 [A1 A2 A3 A4 A5 A6 A7 A8 A9 A10 A11]. constructor; rewrite ?E1, ?E2, ?E3, ?E4; try assumption.
  intros j e s He Hs. specialize (A2 j e s He Hs). destruct e; cbn in *; [exact A2|]. destruct A2. constructor; try assumption.
  unfold heard_by. now rewrite E4.
Qed.

(** ** One entry changes *)
Lemma map_upd {A B} (f : A -> B) n g g' l : (forall x, nth_error l n = Some x -> f (g x) = g' (f x)) -> map f (upd n g l) = upd n g' (map f l).
Proof. revert n. induction l as [|a l IH]; intros [|n] H; cbn; [reflexivity..| |]; [now rewrite (H a eq_refl)|now rewrite (IH n H)]. Qed.
Lemma upd_nth_same {A} n (l : list A) x : nth_error l n = Some x -> upd n (fun _ => x) l = l.
Proof. revert n. induction l as [|a l IH]; intros [|n] H; cbn in *; try discriminate; [congruence|]. now rewrite IH. Qed.
Lemma flat_upd {A B} (f : A -> list B) n l x y : nth_error l n = Some x -> f y = f x -> flat_map f (upd n (fun _ => y) l) = flat_map f l.
Proof. revert n. induction l as [|a l IH]; intros [|n] H E; cbn in *; try discriminate; [injection H as ->; now rewrite E|]. now rewrite (IH n H E). Qed.
Lemma combine_upd {A B} n (x : A) (y : B) l m : combine (upd n (fun _ => x) l) (upd n (fun _ => y) m) = upd n (fun _ => (x, y)) (combine l m).
Proof. revert n m. induction l as [|a l IH]; intros n [|b m]; [now destruct n..|]. destruct n; cbn; [reflexivity|]. now rewrite IH. Qed.
Lemma upd_const {A} n (f : A -> A) l x : nth_error l n = Some x -> upd n f l = upd n (fun _ => f x) l.
Proof. revert n. induction l as [|a l IH]; intros [|n] H; cbn in *; try discriminate; [congruence|]. now rewrite (IH n H). Qed.
Lemma forall_upd {A} (P : A -> Prop) n x l : P x -> Forall P l -> Forall P (upd n (fun _ => x) l).
Proof. intros Hx F. revert n. induction F; intros [|n]; cbn; constructor; auto. Qed.

Lemma e_set h h' rest g fr fr' t t' us su es subs stores j q q' s s' : EInv h rest fr t us su es subs stores ->
  nth_error es j = Some (EReq q) -> nth_error subs j = Some s ->
  q_p q' = q_p q -> q_a q' = q_a q -> q_f q' = q_f q ->
  keeps (not_of j) h h' -> (forall i, i <> j -> on_mark (MStage i) t' = on_mark (MStage i) t /\ on_mark (MBack i) t' = on_mark (MBack i) t) ->
  Forall (mark_ok es) t' -> fr <= fr' -> req_ok h' (rest ++ g) t' j q' s' ->
  EInv h' (rest ++ g) fr' t' us (upd j (fun _ => slot (EReq q) s') su) (upd j (fun _ => EReq q') es) (upd j (fun _ => s') subs) stores.
Proof.
  intros H Hq Hs Ep Ea Ef K O M L R. pose proof H as [A1 A2 A3 A4 A5 A6 A7 A8 A9 A10 A11]. constructor.
  - now rewrite !upd_length.
  - intros i e s0 He Hs0. rewrite nth_upd in He. rewrite nth_upd in Hs0. destruct (Nat.eqb_spec j i) as [<-|N].
    + rewrite Hq in He. rewrite Hs in Hs0. injection He as <-. injection Hs0 as <-. exact R.
    + specialize (A2 i e s0 He Hs0). destruct e; cbn in *.
      * destruct (O i ltac:(congruence)) as [O1 O2]. eapply req_mono; [|exact K|exact O1|exact O2|exact A2]. intros k. cbn. congruence.
      * now apply lis_mono with us.
  - rewrite combine_upd. subst su. 
    assert (E : slot (EReq q') s' = slot (EReq q) s') by (unfold slot, clo, clo_req; now rewrite Ea, Ef).
    symmetry. apply map_upd. intros x _. cbn. exact E.
  - rewrite (map_upd eid j _ (fun _ => q_a q)) by (intros; cbn; exact Ea).
    rewrite upd_nth_same; [exact A4|]. now rewrite nth_error_map, Hq.
  - apply forall_upd; [|eapply Forall_impl; [|exact A5]; cbn; intros; lia]. cbn. rewrite Ea. rewrite Forall_forall in A5. apply nth_error_In, A5 in Hq. cbn in Hq. lia.
  - eapply Forall_impl; [|exact M]. intros [m x] Hx. unfold mark_ok in *. cbn in *. destruct m; try assumption;
      (destruct Hx as [q0 Hx]; rewrite nth_upd; destruct (Nat.eqb_spec j j0) as [<-|]; [exists q'; now rewrite Hx|now exists q0]).
  - unfold e_proms in *. erewrite flat_upd; [exact A7|exact Hq|]. cbn. now rewrite Ep.
  - unfold e_unls in *. erewrite flat_upd; [exact A8|exact Hq|reflexivity].
  - unfold e_nums in *. erewrite flat_upd; [exact A9|exact Hq|reflexivity].
  - exact A10.
  - now apply stores_mono.
Qed.
