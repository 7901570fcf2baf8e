(** A request of a page comes to its end.  Proof side. *)
From Coq Require Import List String Ascii Bool Arith NArith ZArith Lia.
From Verif Require Import Util Js JsonText JsonTextSpec JsonTextProofs Registry Macro Server ServerSpec Pump Wire WireSpec WireProofs TsProgram FileProofs ClientSpec ClientProofs.
From Verif Require Import E2E E2ESpec E2EStreamSpec E2EText E2EProofs E2ESafe E2EFail E2ELive E2ESettle E2EWire E2EStream E2EStreamWire.
From Verif Require Import JsSem JsSpec JsWorld JsStep JsEntries JsTasks JsPage JsMono JsClaims System SystemSpec SystemProofs SystemClaims SystemFair SystemSched.
From Verif Require Client ClientSockProofs JsRun Prelude.
Import ListNotations.
Local Open Scope string_scope.
Local Open Scope list_scope.

Lemma forall2_back {X Y} (R : X -> Y -> Prop) l l' n y : Forall2 R l l' -> nth_error l' n = Some y -> exists x, nth_error l n = Some x /\ R x y.
Proof. intros H. revert n. induction H as [|x0 y0 l l' H0 H IH]; intros [|n] E; try discriminate; cbn in *; [injection E as ->; eauto|now apply IH]. Qed.

Lemma firstn_snoc {X} (l : list X) k x : nth_error l k = Some x -> firstn (Datatypes.S k) l = firstn k l ++ [x].
Proof. revert k. induction l as [|z l IH]; intros [|k] E; try discriminate; cbn in *; [now injection E as ->|f_equal; now apply IH]. Qed.

Section Live.
Context {T V F : Type} (S : setting T V F) (C : action -> Prop).
Local Notation A := (rpc S).
Local Notation lit := (s_lit S).
Local Notation num := (s_num S).
Local Notation other := (s_other S).
Local Notation reach := (wreachable (call_text S) (read_text S) (same_id S) (from_text S) (to_text S)).
Local Notation step := (wnext (call_text S) (read_text S) (same_id S) (from_text S) (to_text S)).
Local Notation steps := (wrun (call_text S) (read_text S) (same_id S) (from_text S) (to_text S)).
Local Notation time := (at_time (call_text S) (read_text S) (same_id S) (from_text S) (to_text S)).
Local Notation world := (E2E.world jstr jsval jsval A).
Local Notation wevent := (wevent rcall jstr A).
Local Notation sstep := (sstep S).
Local Notation sruns := (sruns S).
Local Notation Sim := (Sim S C).
Implicit Types (w : world).

(** ** What can happen *)
Lemma up_off a (y : system S) w l : Sim a y w -> step w (WUp l) = w \/ exists y', sstep y (SUp l) y'.
Proof.
  intros H. pose proof (sim_agree S C a y w H) as G. destruct H as [Hv Hl _ _ _]. cbn [wnext]. destruct (nth_error (w_links w) l) as [x|] eqn:Ex; [|now left].
  destruct (nth_error (sent_on (w_cl w) (ln_sock x)) (ln_up x)) as [[id t]|] eqn:Et; [|now left]. destruct (nth_error (p_socks (w_sv w)) (ln_pump x)) as [s|] eqn:Es; [|now left].
  destruct (sk_live s) eqn:Lv; [|now left]. right. unfold sent_on in Et. destruct (nth_error (Client.cl_socks (w_cl w)) (ln_sock x)) as [z|] eqn:Ez; [|now destruct (ln_up x)].
  destruct (forall2_back _ _ _ _ _ (ag_socks _ _ G) Ez) as (so & Eso & (_ & Esent & _)). rewrite Hl in Ex. rewrite Hv in Es.
  assert (Hso : nth_error (so_sent so) (ln_up x) = Some (VStr t)) by (rewrite Esent, nth_error_map, Et; reflexivity).
  exact (ex_intro _ _ (s_up S y l x so s t Ex Eso Hso Es Lv)).
Qed.
Lemma down_off a (y : system S) w l : Sim a y w -> step w (WDown l) = w \/ exists y', sstep y (SDown l) y'.
Proof.
  intros H. pose proof (sim_agree S C a y w H) as G. destruct H as [Hv Hl _ Hp _]. cbn [wnext]. destruct (nth_error (w_links w) l) as [x|] eqn:Ex; [|now left].
  destruct (nth_error (p_socks (w_sv w)) (ln_pump x)) as [s|] eqn:Es; [|now left]. destruct (nth_error (sk_out s) (ln_down x)) as [t|] eqn:Et; [|now left].
  destruct (Client.idle (w_cl w)); [|now left]. destruct (Client.state_of (w_cl w) (ln_sock x)) eqn:Eo; try (now left). right.
  unfold Client.state_of in Eo. destruct (nth_error (Client.cl_socks (w_cl w)) (ln_sock x)) as [z|] eqn:Ez; [|discriminate].
  destruct (forall2_back _ _ _ _ _ (ag_socks _ _ G) Ez) as (so & Eso & (Est & _)). rewrite Hl in Ex. rewrite Hv in Es.
  assert (Os : so_state so = Client.Open) by congruence.
  destruct (task_can S _ _ (TMessage (ln_sock x) t) Hp) as [p D]. exact (ex_intro _ _ (s_down S y l x so s t p Ex Es Et Eso Os D)).
Qed.

(** Events that change nothing. *)
Definition idles w (ps : list wevent) : Prop := forall p, In p ps -> step w p = w.
Lemma idles_first w ps k : idles w ps -> steps w (firstn k ps) = w.
Proof.
  revert k. induction ps as [|p ps IH]; intros [|k] H; try reflexivity. cbn [firstn]. change (steps w (p :: firstn k ps)) with (steps (step w p) (firstn k ps)).
  rewrite (H p (or_introl eq_refl)). apply IH. intros q Hq. apply H. now right.
Qed.
Definition waits (y : system S) (e : sevent S) : Prop := forall y', ~ sstep y e y'.
Definition mild (p : wevent) : Prop := match p with WClient Client.CVisit | WUp _ | WDown _ => True | _ => False end.
Lemma pads a y w (H : Sim a y w) n : exists ps, idles w ps /\ Forall mild ps /\ In (WClient Client.CVisit) ps /\
  forall l, l < n -> (waits y (SUp l) -> In (WUp l) ps) /\ (waits y (SDown l) -> In (WDown l) ps).
Proof.
  induction n as [|n (ps & I1 & Im & I2 & I3)].
  - exists [WClient Client.CVisit]. split; [|split; [now constructor|split; [now left|intros l L; now apply Nat.nlt_0_r in L]]]. intros p [<-|[]]. destruct H as [_ _ _ (d & _ & _ & _ & Dd) _].
    destruct w as [c v l]. cbn in *. now rewrite Dd.
  - assert (U : exists ps', idles w ps' /\ Forall mild ps' /\ (waits y (SUp n) -> In (WUp n) ps')).
    { destruct (up_off a y w n H) as [E|(y' & E)]; [exists [WUp n]; split; [intros p [<-|[]]; exact E|split; [now constructor|now left]]|exists []; split; [intros p []|split; [constructor|]]]. intros W. now destruct (W y'). }
    assert (Dn : exists ps', idles w ps' /\ Forall mild ps' /\ (waits y (SDown n) -> In (WDown n) ps')).
    { destruct (down_off a y w n H) as [E|(y' & E)]; [exists [WDown n]; split; [intros p [<-|[]]; exact E|split; [now constructor|now left]]|exists []; split; [intros p []|split; [constructor|]]]. intros W. now destruct (W y'). }
    destruct U as (pu & U1 & Um & U2). destruct Dn as (pd & D1 & Dm & D2). exists (ps ++ pu ++ pd). split; [|split; [apply Forall_app; split; [exact Im|now apply Forall_app]|split]].
    + intros p Hp. apply in_app_iff in Hp as [Hp|Hp]; [now apply I1|]. apply in_app_iff in Hp as [Hp|Hp]; [now apply U1|now apply D1].
    + apply in_app_iff. now left.
    + intros l L. rewrite !in_app_iff. destruct (Nat.eq_dec l n) as [->|]; [tauto|]. destruct (I3 l ltac:(lia)). tauto.
Qed.

(** ** Within a block *)
Lemma local_inner (ce : Client.cevent rcall jstr) : local ce -> inner ce.
Proof. destruct ce; exact (fun H => H). Qed.
Lemma local_quiet (ce : Client.cevent rcall jstr) : local ce -> quiet ce.
Proof. destruct ce; cbn; tauto. Qed.
Lemma local_step w (ce : Client.cevent rcall jstr) : local ce -> step w (WClient ce) = mkWorld (Client.cnext (call_text S) (read_text S) (same_id S) (w_cl w) ce) (w_sv w) (w_links w).
Proof. destruct ce; try reflexivity; now intros []. Qed.
Lemma reach_creach a w : reach a w -> creachable (call_text S) (read_text S) (same_id S) (w_cl w).
Proof. intros R. exact (proj1 (parts (A := A) _ _ _ _ _ a _ R)). Qed.

Definition small (ev : wevent) : Prop := match ev with WClient ce => local ce | WDown _ => True | _ => False end.
Lemma lives_next a sock w ev : reach a w -> small ev -> Client.subscribed (w_cl (step w ev)) = true -> lives w sock -> lives (step w ev) sock.
Proof.
  intros M Sm Su (L1 & L2 & L3). destruct ev as [ce|v|q|q|l|l]; [|destruct Sm|destruct Sm|destruct Sm|destruct Sm|].
  - cbn in Sm. rewrite (local_step w ce Sm) in Su |- *. split; [|split; [exact L2|exact L3]]. apply inner_holds; [exact (reach_creach a w M)|now apply local_inner|exact Su|exact L1].
  - cbn [wnext]. destruct (nth_error (w_links w) l) as [x|] eqn:Ex; [|exact (conj L1 (conj L2 L3))]. destruct (nth_error (p_socks (w_sv w)) (ln_pump x)) as [s|]; [|exact (conj L1 (conj L2 L3))].
    destruct (nth_error (sk_out s) (ln_down x)) as [t|]; [|exact (conj L1 (conj L2 L3))]. destruct (Client.idle (w_cl w)) eqn:Id; [|exact (conj L1 (conj L2 L3))].
    destruct (Client.state_of (w_cl w) (ln_sock x)) eqn:Eo; try exact (conj L1 (conj L2 L3)). split; [|split; [exact L2|]].
    + cbn [w_cl Client.cnext]. rewrite Id, Eo. destruct (read_text S t) as [[key d]|]; exact L1.
    + intros z Hz En'. cbn [w_links w_sv] in *. apply In_nth_error in Hz as [q Hq]. rewrite nth_upd in Hq. destruct (Nat.eqb_spec l q) as [->|].
      * rewrite Ex in Hq. cbn in Hq. injection Hq as <-. cbn [ln_sock ln_pump] in *. apply L3; [now apply nth_error_In in Ex|exact En'].
      * apply L3; [now apply nth_error_In in Hq|exact En'].
Qed.
Lemma back a sock (es : list (Client.cevent rcall jstr)) : forall w, reach a w -> Forall local es -> ready (w_cl w) ->
  (forall q, Client.subscribed (w_cl (steps w (map (fun e => WClient e) (firstn q es)))) = true) -> held (w_cl (steps w (map (fun e => WClient e) es))) sock ->
  forall q, held (w_cl (steps w (map (fun e => WClient e) (firstn q es)))) sock.
Proof.
  induction es as [|ce es IH]; intros w M Lo Rd Su Hh q; [destruct q; exact Hh|]. inversion Lo as [|ce' es' Lo1 Lo2]; subst. set (v := step w (WClient ce)).
  assert (Mv : reach a v) by now apply wreach_next.
  pose proof (Su 1) as Su1. change (steps w (map (fun e => WClient e) (firstn 1 (ce :: es)))) with (step w (WClient ce)) in Su1. rewrite (local_step w ce Lo1) in Su1. cbn [w_cl] in Su1.
  destruct (inner_back (call_text S) (read_text S) (same_id S) (w_cl w) ce sock (reach_creach a w M) (local_inner ce Lo1) Rd Su1) as [Rv Bk].
  assert (Ev : w_cl v = Client.cnext (call_text S) (read_text S) (same_id S) (w_cl w) ce) by (unfold v; now rewrite (local_step w ce Lo1)).
  rewrite <- Ev in Rv, Bk. pose proof (IH v Mv Lo2 Rv (fun q => Su (Datatypes.S q)) Hh) as All. destruct q as [|q]; [|exact (All q)]. apply Bk. exact (All 0).
Qed.
Lemma local_still w (l : list (Client.cevent rcall jstr)) : Forall local l -> w_sv (steps w (map (fun e => WClient e) l)) = w_sv w /\ w_links (steps w (map (fun e => WClient e) l)) = w_links w.
Proof.
  intros Fl. destruct w as [c v lk]. rewrite (wrun_quiet _ _ _ _ _ l c v lk); [now split|]. revert Fl. apply Forall_impl. exact local_quiet.
Qed.
(** In a block only small events have others after them. *)
Lemma mould_small e es q : mould S e es -> Datatypes.S q < List.length es -> exists ev, nth_error es q = Some ev /\ small ev.
Proof.
  intros M Lq.
  assert (Loc : forall l : list (Client.cevent rcall jstr), Forall local l -> forall q, q < List.length l -> exists ev, nth_error (map (fun e => WClient e : wevent) l) q = Some ev /\ small ev).
  { intros l Fl z Lz. destruct (nth_error l z) as [ce|] eqn:Ece; [|apply nth_error_None in Ece; lia]. exists (WClient ce). rewrite nth_error_map, Ece. split; [reflexivity|].
    rewrite Forall_forall in Fl. apply Fl. now apply nth_error_In in Ece. }
  destruct e as [t|v|m|m|m|m]; cbn in M; try (subst es; cbn in Lq; lia).
  - destruct M as (l & -> & [Fl|(ce & ->)]); [|cbn in Lq; lia]. rewrite map_length in Lq. apply Loc; [exact Fl|lia].
  - destruct M as (l & -> & Fl). cbn in Lq. rewrite map_length in Lq. destruct q as [|q]; [exists (WDown m); split; [reflexivity|exact I]|]. cbn [nth_error]. apply Loc; [exact Fl|lia].
Qed.

(** ** An endless run *)
Section Run.
Context (a : list F) (y : nat -> system S) (e : nat -> sevent S).
Hypothesis (En : endless y e) (Hal : forall i, allowed C (task_acts (tasks_of [e i]))).
Definition covers (i : nat) w (es : list wevent) w' : Prop := exists ps es', es = ps ++ es' /\ idles w ps /\ In (WClient Client.CVisit) ps /\
  (forall l, l < List.length (sy_links (y i)) -> (waits (y i) (SUp l) -> In (WUp l) ps) /\ (waits (y i) (SDown l) -> In (WDown l) ps)) /\
  mould S (e i) es' /\ w' = steps w es /\ w' = steps w es' /\ bounded S (y i) w (e i) (y (Datatypes.S i)) w' /\ keeps_quiet (scr S (y i)) (scr S (y (Datatypes.S i))) (w_cl w) (w_cl w') /\ calm_run S C w es.
Lemma covered i w : Sim a (y i) w -> exists es w', covers i w es w' /\ Sim a (y (Datatypes.S i)) w'.
Proof.
  intros H. destruct (pads a (y i) w H (List.length (sy_links (y i)))) as (ps & I1 & Im & I2 & I3).
  destruct (sim_block S C a (y i) w (e i) (y (Datatypes.S i)) H (En i) (Hal i)) as (es' & _ & H' & B & Q & M & K).
  exists (ps ++ es'), (steps w es'). split; [|exact H']. exists ps, es'. repeat (split; [first [reflexivity|assumption]|]). split; [|split; [reflexivity|split; [exact B|split; [exact Q|]]]].
  2:{ intros u J Nu St. apply Forall_app. split; [|exact (K u J Nu St)]. revert Im. apply Forall_impl. intros p Mp ->. exact Mp. }
  rewrite steps_app. rewrite <- (firstn_all ps) at 1. now rewrite idles_first.
Qed.
Lemma worlds w : Sim a (y 0) w -> exists (W : nat -> world) (B : nat -> list wevent), W 0 = w /\ forall i, Sim a (y i) (W i) /\ covers i (W i) (B i) (W (Datatypes.S i)).
Proof. exact (found (fun i w => Sim a (y i) w) covers covered w). Qed.

(** ** The schedule *)
Section Sched.
Context (W : nat -> world) (B : nat -> list wevent) (w1 : world) (l0 : list (Client.cevent rcall jstr)).
Hypothesis HW : forall i, Sim a (y i) (W i) /\ covers i (W i) (B i) (W (Datatypes.S i)).
Hypothesis E0 : W 0 = steps w1 (map (fun e => WClient e) l0).
Definition blocks (i : nat) : list wevent := match i with O => map (fun e => WClient e) l0 ++ [WClient Client.CVisit] | Datatypes.S i => B i end.
Definition turn (i : nat) : world := match i with O => w1 | Datatypes.S i => W i end.
Local Notation at_ := (begin blocks).

Lemma blocks_some i : blocks i <> [].
Proof.
  destruct i as [|i]; cbn; [now destruct l0|]. destruct (HW i) as [_ (ps & es' & -> & _ & Iv & _)]. now destruct ps.
Qed.
Lemma visit_rest i : step (W i) (WClient Client.CVisit) = W i.
Proof. destruct (HW i) as [_ (ps & es' & _ & Id & Iv & _)]. exact (Id _ Iv). Qed.
Lemma turn_next i : turn (Datatypes.S i) = steps (turn i) (blocks i).
Proof.
  destruct i as [|i].
  - cbn [turn blocks]. rewrite steps_app, <- E0. symmetry. exact (visit_rest 0).
  - destruct (HW i) as [_ (ps & es' & _ & _ & _ & _ & _ & E & _)]. exact E.
Qed.
Lemma turn_all i : steps w1 (List.concat (map blocks (seq 0 i))) = turn i.
Proof. induction i as [|i IH]; [reflexivity|]. rewrite seq_S, map_app, concat_app, steps_app, IH. cbn [map List.concat Nat.add]. rewrite app_nil_r. symmetry. apply turn_next. Qed.

Context (sigma : nat -> wevent).
Hypothesis (Hs : forall i k ev, nth_error (blocks i) k = Some ev -> sigma (at_ i + k) = ev)
           (Hm : forall i, map sigma (seq 0 (at_ i)) = List.concat (map blocks (seq 0 i))).
Lemma time_at i k : k <= List.length (blocks i) -> time w1 sigma (at_ i + k) = steps (turn i) (firstn k (blocks i)).
Proof.
  induction k as [|k IH]; intros L.
  - rewrite Nat.add_0_r, at_time_run, Hm. apply turn_all.
  - rewrite Nat.add_succ_r. cbn [at_time]. rewrite IH by lia. destruct (nth_error (blocks i) k) as [ev|] eqn:Ev; [|apply nth_error_None in Ev; lia].
    rewrite (Hs i k ev Ev). rewrite (firstn_snoc (blocks i) k ev Ev), steps_app. reflexivity.
Qed.
Lemma time_turn i : time w1 sigma (at_ i) = turn i.
Proof. rewrite <- (Nat.add_0_r (at_ i)), time_at by lia. reflexivity. Qed.
Lemma time_in x : exists i k, x = at_ i + k /\ k < List.length (blocks i) /\ time w1 sigma x = steps (turn i) (firstn k (blocks i)).
Proof. destruct (within blocks blocks_some x) as (i & k & L & ->). exists i, k. split; [reflexivity|]. split; [exact L|]. apply time_at. lia. Qed.

(** *** Fair *)
Lemma in_block i ev : In ev (B i) -> exists k, sigma (at_ (Datatypes.S i) + k) = ev.
Proof. intros H. apply In_nth_error in H as [k H]. exists k. now apply (Hs (Datatypes.S i)). Qed.
Lemma late i k : i <= at_ (Datatypes.S i) + k.
Proof. pose proof (begin_ge blocks blocks_some (Datatypes.S i)). lia. Qed.
Lemma links_grow i i' : i <= i' -> List.length (sy_links (y i)) <= List.length (sy_links (y i')).
Proof.
  induction 1 as [|i' L IH]; [apply Nat.le_refl|]. etransitivity; [exact IH|]. pose proof (En i') as St.
  inversion St; subst; cbn [sy_links]; rewrite ?upd_length, ?app_length; lia.
Qed.
Lemma often_block (Q : nat -> Prop) (P : nat -> Prop) : often Q -> (forall i, Q i -> exists x, i <= x /\ P x) -> often P.
Proof. intros H G x0. destruct (H x0) as (i & L & Hi). destruct (G i Hi) as (x & L' & Hx). exists x. split; [lia|exact Hx]. Qed.
Lemma happens i ev : In ev (B i) -> exists x, i <= x /\ sigma x = ev.
Proof. intros H. destruct (in_block i ev H) as [k Hk]. eexists. split; [apply (late i k)|exact Hk]. Qed.
Lemma server_always v : (forall k t, v <> PFrame k (FText t)) -> again y e (SServer v) -> often (fun x => sigma x = WServer v).
Proof.
  intros N H. apply (often_block _ _ H). intros i [Ei|No].
  - destruct (HW i) as [_ (ps & es' & Eb & _ & _ & _ & M & _)]. rewrite Ei in M. cbn in M. subst es'. apply happens. rewrite Eb. apply in_app_iff. right. now left.
  - exfalso. refine (No _ (s_server S (y i) v _)). intros k t x E. now destruct (N k t).
Qed.
Lemma link_stays es : forall w l x, nth_error (w_links w) l = Some x -> exists x', nth_error (w_links (steps w es)) l = Some x' /\ ln_sock x' = ln_sock x /\ ln_pump x' = ln_pump x.
Proof.
  induction es as [|ev es IH]; intros w l x H; [now exists x|].
  destruct (link_next (call_text S) (read_text S) (same_id S) (from_text S) (to_text S) w ev l x H) as (x1 & H1 & E1 & E2 & _).
  destruct (IH (step w ev) l x1 H1) as (x2 & H2 & E3 & E4). exists x2. split; [exact H2|]. split; congruence.
Qed.
Lemma link_page x l k : nth_error (w_links (time w1 sigma x)) l = Some k -> exists i k', nth_error (sy_links (y i)) l = Some k' /\ ln_sock k' = ln_sock k /\ ln_pump k' = ln_pump k.
Proof.
  intros H. destruct (time_in x) as (i & q & _ & L & E). rewrite E in H. apply (link_stays (skipn q (blocks i))) in H as (k' & H & E1 & E2).
  rewrite <- steps_app, firstn_skipn, <- turn_next in H. cbn [turn] in H. destruct (HW i) as [Si _]. rewrite (si_links _ _ _ _ _ Si) in H. now exists i, k'.
Qed.
Lemma first_in ps es' k ev w : idles w ps -> nth_error ps k = Some ev -> steps w (firstn k (ps ++ es')) = w.
Proof. intros I H. rewrite firstn_app. apply nth_some_lt in H. replace (k - List.length ps) with 0 by lia. cbn. rewrite app_nil_r. now apply idles_first. Qed.
Lemma sched_fair n : fair_run y e n -> fair (call_text S) (read_text S) (same_id S) (from_text S) (to_text S) w1 sigma n.
Proof.
  intros [Fo Fn Fl Fd]. constructor.
  - destruct Fo as (i & so & Hso & Os). exists (at_ (Datatypes.S i)). rewrite time_turn. cbn [turn]. destruct (HW i) as [Si _].
    destruct (forall2_at _ _ _ _ _ (ag_socks _ _ (sim_agree S C a _ _ Si)) Hso) as (z & Ez & (Est & _)). unfold Client.state_of. rewrite Ez. congruence.
  - intros x l k Hk En'. destruct (link_page x l k Hk) as (i0 & k' & Hk' & E1 & E2). assert (En2 : ln_sock k' = n) by congruence.
    destruct (Fn i0 l k' Hk' En2) as (F1 & F2 & F3 & F4). rewrite E2 in F3, F4.
    assert (Lt : forall i, i0 <= i -> l < List.length (sy_links (y i))) by (intros i L; apply nth_some_lt in Hk'; pose proof (links_grow i0 i L); lia).
    split; [|split; [|split]].
    + intros x0. destruct (F1 (Nat.max x0 i0)) as (i & L & Hi). assert (H : In (WUp l) (B i)).
      { destruct (HW i) as [_ (ps & es' & Eb & _ & _ & Wt & M & _)]. rewrite Eb. apply in_app_iff. destruct Hi as [Ei|No].
        - right. rewrite Ei in M. cbn in M. rewrite M. now left.
        - left. apply (Wt l (Lt i ltac:(lia))). exact No. }
      destruct (happens i _ H) as (z & L' & Hz). exists z. split; [lia|exact Hz].
    + intros x0. destruct (F2 (Nat.max x0 i0)) as (i & L & Hi). destruct (HW i) as [Si (ps & es' & Eb & Id & _ & Wt & M & _)].
      assert (H : exists q, nth_error (B i) q = Some (WDown l) /\ steps (W i) (firstn q (B i)) = W i).
      { rewrite Eb. destruct Hi as [Ei|No].
        - rewrite Ei in M. cbn in M. destruct M as (l' & -> & _). exists (List.length ps). rewrite nth_error_app2, Nat.sub_diag by lia. split; [reflexivity|].
          rewrite firstn_app, Nat.sub_diag, firstn_all. cbn [firstn]. rewrite app_nil_r. rewrite <- (firstn_all ps). now apply idles_first.
        - destruct (Wt l (Lt i ltac:(lia))) as [_ Wd]. specialize (Wd No). apply In_nth_error in Wd as [q Hq]. exists q. split; [rewrite nth_error_app1; [exact Hq|now apply nth_some_lt in Hq]|].
          exact (first_in ps es' q _ (W i) Id Hq). }
      destruct H as (q & Hq & Er). exists (at_ (Datatypes.S i) + q). split; [pose proof (late i q); lia|]. split; [exact (Hs (Datatypes.S i) q _ Hq)|].
      rewrite time_at by (cbn [blocks]; apply nth_some_lt in Hq; lia). cbn [turn blocks]. rewrite Er. exact (sim_idle S C a _ _ Si).
    + apply server_always; [discriminate|exact F3].
    + apply server_always; [discriminate|exact F4].
  - apply server_always; [discriminate|exact Fl].
  - apply server_always; [discriminate|exact Fd].
  - intros x0. destruct (HW x0) as [_ (ps & es' & Eb & _ & Iv & _)]. destruct (happens x0 (WClient Client.CVisit)) as (z & L & Hz); [rewrite Eb; apply in_app_iff; now left|]. now exists z.
Qed.
End Sched.
End Run.

End Live.

(** ** A request *)
Section Ends.
Context {T V F : Type} (S : setting T V F).
Local Notation A := (rpc S).
Local Notation lit := (s_lit S).
Local Notation num := (s_num S).
Local Notation other := (s_other S).
Local Notation reach := (wreachable (call_text S) (read_text S) (same_id S) (from_text S) (to_text S)).
Local Notation step := (wnext (call_text S) (read_text S) (same_id S) (from_text S) (to_text S)).
Local Notation steps := (wrun (call_text S) (read_text S) (same_id S) (from_text S) (to_text S)).
Local Notation time := (at_time (call_text S) (read_text S) (same_id S) (from_text S) (to_text S)).
Local Notation world := (E2E.world jstr jsval jsval A).
Local Notation wevent := (wevent rcall jstr A).
Local Notation sstep := (sstep S).
Local Notation sruns := (sruns S).
Local Notation Sim := (Sim S any).
Implicit Types (w : world).
Context (P : list TsProgram.top) (HP : program Prelude.websocket_client = Some P).
Hypothesis (Lit : faithful (s_lit S) (s_num S)) (Lit' : faithful (s_lit' S) (s_num S)).
Context (n k : nat) (f : bfield T) (it : item T) (args : list jsval).
Hypothesis (Hdis : distinct (s_backend S)) (Hit : has_item (s_backend S) n k f it).
Hypothesis (Hns : bf_name f = unraw (variant_ident f)) (Hid : it_ident it = unraw (it_ident it)).
Hypothesis (Ha : it_args it <> []) (Hk : it_kind it = Method) (Hargs : Forall js_value args).
Context (scripts : list script) (a : list F) (y0 y1 : system S) (es1 : list (sevent S)) (b : bool).
Context (y : nat -> system S) (e : nat -> sevent S) (sock : nat).
Local Notation r := ((bf_name f, it_ident it, args) : rcall).
Local Notation ask := (STask (TUser (mkScript [ARequest (bf_name f) (it_ident it) args] b)) : sevent S).
Hypothesis (H0 : started S P scripts a y0) (R1 : sruns y0 es1 y1) (R2 : sstep y1 ask (y 0)) (En : endless y e).
Hypothesis Few : forall i, few scripts (tasks_of (es1 ++ ask :: map e (seq 0 i))).
Let j := List.length (us_proms (st_user (sy_page y1))).
Let id := next_number (sy_page y1).
Hypothesis Conn : forall i, pending (sy_page (y i)) j -> connected (y i) sock.

Section Worlds.
Context (w0 : world) (l0 : list (Client.cevent rcall jstr)) (W : nat -> world) (B : nat -> list wevent) (sigma : nat -> wevent).
Local Notation w1 := (step w0 (WClient (Client.URequest r))).
Hypothesis (I0 : Sim a y1 w0) (Lc : Forall local l0) (E0 : W 0 = steps w1 (map (fun e => WClient e) l0)).
Hypothesis HW : forall i, Sim a (y i) (W i) /\ covers S any y e i (W i) (B i) (W (Datatypes.S i)).
Local Notation blocks := (blocks S B l0).
Local Notation turn := (turn S W w1).
Hypothesis (Hs : forall i k ev, nth_error (blocks i) k = Some ev -> sigma (begin blocks i + k) = ev)
           (Hm : forall i, map sigma (seq 0 (begin blocks i)) = List.concat (map blocks (seq 0 i))).
Hypothesis B0 : counted (w_cl (W 0)) + weigh (scr S (y 0)) <= weigh scripts + task_calls (tasks_of (es1 ++ [ask])).
Let J := List.length (Client.cl_subs (w_cl w0)).
Local Notation entry w s := (nth_error (Client.cl_subs (w_cl w)) J = Some s).

Lemma reach0 : reach a w1.
Proof. apply wreach_next. exact (si_reach _ _ _ _ _ I0). Qed.
Lemma reach_at x : reach a (time w1 sigma x).
Proof. rewrite at_time_run. apply wreach_run, reach0. Qed.
Lemma creach_at x : creachable (call_text S) (read_text S) (same_id S) (w_cl (time w1 sigma x)).
Proof. exact (proj1 (parts (A := A) _ _ _ _ _ a _ (reach_at x))). Qed.
Lemma entry0 : exists s, entry w1 s /\ Client.su_req s = true /\ Client.su_bad s = false /\ Client.su_seen s = [].
Proof.
  destruct (request_adds (call_text S) (read_text S) (same_id S) (w_cl w0) r (sim_user S any a y1 w0 I0)) as (_ & bad & Su & Hb).
  change (Client.cnext (call_text S) (read_text S) (same_id S) (w_cl w0) (Client.URequest r)) with (w_cl w1) in Su.
  exists (Client.mkSub (Client.bump (Client.cl_id (w_cl w0))) true bad true [] (Client.done (w_cl w0)) 0). rewrite Su, nth_error_app2 by apply Nat.le_refl. unfold J. rewrite Nat.sub_diag.
  repeat split. destruct bad; [|reflexivity]. exfalso. exact (enc_total S _ r (proj1 Hb eq_refl)).
Qed.

Definition unsettled w : Prop := forall d, ~ settled w J d.
Definition mine w : Prop := reach a w /\ exists s, entry w s /\ Client.su_req s = true /\ Client.su_bad s = false.
Lemma mine_creach w : mine w -> creachable (call_text S) (read_text S) (same_id S) (w_cl w).
Proof. intros [R _]. exact (proj1 (parts (A := A) _ _ _ _ _ a _ R)). Qed.
Lemma entry_step w ev s : entry w s -> exists s', entry (step w ev) s' /\ Client.su_req s' = Client.su_req s /\ Client.su_bad s' = Client.su_bad s /\
  (exists l, Client.su_seen s' = Client.su_seen s ++ l) /\
  (Client.su_req s = true -> Client.su_live s = true -> Client.su_bad s = false -> Client.su_seen s = [] -> Client.su_live s' = true).
Proof.
  intros E. destruct (cl_next (call_text S) (read_text S) (same_id S) (from_text S) (to_text S) w ev) as [-> | (ce & ->)].
  - exists s. repeat split; auto. exists []. now rewrite app_nil_r.
  - now apply entry_next.
Qed.
Lemma mine_step w ev : mine w -> mine (step w ev).
Proof. intros [R (s & E & Q & Bd)]. split; [now apply wreach_next|]. destruct (entry_step w ev s E) as (s' & E' & Q' & Bd' & _). exists s'. split; [exact E'|]. split; congruence. Qed.
Lemma mine_steps es : forall w, mine w -> mine (steps w es).
Proof. induction es as [|ev es IH]; intros w M; [exact M|]. apply (IH (step w ev)). now apply mine_step. Qed.
Lemma mine1 : mine w1.
Proof. split; [exact reach0|]. destruct entry0 as (s & E & Q & Bd & _). exact (ex_intro _ s (conj E (conj Q Bd))). Qed.
Lemma mine_at x : mine (time w1 sigma x).
Proof. rewrite at_time_run. apply mine_steps, mine1. Qed.
Lemma settled_next w ev d : mine w -> settled w J d -> settled (step w ev) J d.
Proof.
  intros M (s & E & Q & Sn). destruct (entry_step w ev s E) as (s' & E' & Q' & _ & (l & Sn') & _). exists s'. split; [exact E'|]. split; [congruence|].
  rewrite Sn in Sn'. assert (Q2 : Client.su_req s' = true) by congruence.
  destruct (request_settles (call_text S) (read_text S) (same_id S) (w_cl (step w ev)) J s' (mine_creach _ (mine_step w ev M)) E' Q2) as [[Z|(d' & Z & _)] _]; rewrite Z in Sn'; [discriminate|].
  injection Sn' as -> _. exact Z.
Qed.
Lemma settled_steps es : forall w d, mine w -> settled w J d -> settled (steps w es) J d.
Proof. induction es as [|ev es IH]; intros w d M Se; [exact Se|]. apply (IH (step w ev)); [now apply mine_step|now apply settled_next]. Qed.
Lemma unsettled_live w : mine w -> unsettled w -> exists s, entry w s /\ Client.su_req s = true /\ Client.su_bad s = false /\ Client.su_seen s = [] /\ Client.su_live s = true.
Proof.
  intros M Un. pose proof (mine_creach w M) as Cr. destruct M as [R (s & E & Q & Bd)]. exists s. split; [exact E|]. split; [exact Q|]. split; [exact Bd|].
  destruct (request_settles (call_text S) (read_text S) (same_id S) (w_cl w) J s Cr E Q) as [[Z|(d & Z & _)] Lv]; [|exact (False_ind _ (Un d (ex_intro _ s (conj E (conj Q Z)))))].
  split; [exact Z|]. destruct (Client.su_live s); [reflexivity|]. destruct (Lv eq_refl); congruence.
Qed.
Lemma live_next w ev : mine w -> unsettled w -> exists s, entry (step w ev) s /\ Client.su_req s = true /\ Client.su_live s = true.
Proof.
  intros M Un. destruct (unsettled_live w M Un) as (s & E & Q & Bd & Sn & Lv). destruct (entry_step w ev s E) as (s' & E' & Q' & _ & _ & Lv'). exists s'. split; [exact E'|]. split; [congruence|auto].
Qed.
Lemma sub_live w s : entry w s -> Client.su_live s = true -> Client.subscribed (w_cl w) = true.
Proof. apply live_subscribed. Qed.

Lemma turn_time i : time w1 sigma (begin blocks i) = turn i.
Proof. exact (time_turn S any a y e W B w1 l0 HW E0 sigma Hs Hm i). Qed.
Lemma time_block i q : q <= List.length (blocks i) -> time w1 sigma (begin blocks i + q) = steps (turn i) (firstn q (blocks i)).
Proof. exact (time_at S any a y e W B w1 l0 HW E0 sigma Hs Hm i q). Qed.
Lemma mine_rest i : mine (W i).
Proof. change (W i) with (turn (Datatypes.S i)). rewrite <- turn_time. apply mine_at. Qed.

(** *** The page *)
Lemma page_state i : pending (sy_page (y i)) j \/ exists d, fulfilled (sy_page (y i)) j d /\ settled (W i) J d.
Proof.
  destruct (mine_rest i) as [_ (s & E & Q & _)]. destruct (HW i) as [Si _]. apply (request_state S any a (y i) (W i) J j s Si E Q).
  unfold j. rewrite (forall2_len _ _ _ (ag_proms _ _ (sim_agree S any a y1 w0 I0))). apply request_at; [|exact E|exact Q].
  intros q z Hz. change (W i) with (turn (Datatypes.S i)). rewrite <- turn_time, at_time_run. apply (grown_steps S). now apply grown_step.
Qed.
Lemma page_pending i : unsettled (W i) -> pending (sy_page (y i)) j.
Proof. intros Un. destruct (page_state i) as [Pe|(d & _ & Se)]; [exact Pe|]. exact (False_ind _ (Un d Se)). Qed.
Lemma lives_rest i : unsettled (W i) -> lives (W i) sock.
Proof.
  intros Un. destruct (Conn i (page_pending i Un)) as ((so & Hso & Os) & Al & Lk). destruct (HW i) as [Si _].
  destruct (forall2_at _ _ _ _ _ (ag_socks _ _ (sim_agree S any a _ _ Si)) Hso) as (z & Ez & (Est & _)). split; [|split].
  - unfold held, Client.state_of. rewrite Ez, <- Est. exact Os.
  - rewrite (si_sv _ _ _ _ _ Si). exact Al.
  - rewrite (si_sv _ _ _ _ _ Si), (si_links _ _ _ _ _ Si). exact Lk.
Qed.
Lemma rest_unsettled i : (forall x, x < begin blocks (Datatypes.S i) -> unsettled (time w1 sigma x)) -> unsettled (W i).
Proof.
  intros Un d (s & E & Q & Sn). set (x := pred (begin blocks (Datatypes.S i))).
  assert (Ex : begin blocks (Datatypes.S i) = Datatypes.S x) by (pose proof (begin_ge blocks (blocks_some S any a y e W B w1 l0 HW E0) (Datatypes.S i)); unfold x; lia).
  destruct (live_next (time w1 sigma x) (sigma x) (mine_at x) (Un x ltac:(lia))) as (s' & E' & _ & Lv).
  change (step (time w1 sigma x) (sigma x)) with (time w1 sigma (Datatypes.S x)) in E'. rewrite <- Ex, turn_time in E'. change (turn (Datatypes.S i)) with (W i) in E'.
  assert (s' = s) as -> by congruence. destruct (HW i) as [Si _]. pose proof (sim_idle S any a _ _ Si) as Id. unfold Client.idle in Id. destruct (Client.cl_disp (w_cl (W i))); [discriminate|].
  apply negb_true_iff in Id. assert (X : existsb Client.unfinished (Client.cl_subs (w_cl (W i))) = true); [|congruence].
  apply existsb_exists. exists s. split; [now apply nth_error_In in E|]. unfold Client.unfinished. rewrite Q, Lv, Sn. cbn. apply orb_true_r.
Qed.
Lemma lives_later i q : q < List.length (blocks (Datatypes.S i)) -> (forall x, x < begin blocks (Datatypes.S i) + q -> unsettled (time w1 sigma x)) ->
  lives (time w1 sigma (begin blocks (Datatypes.S i) + q)) sock.
Proof.
  assert (Rest : (forall x, x < begin blocks (Datatypes.S i) -> unsettled (time w1 sigma x)) -> lives (W i) sock) by (intros Un; apply lives_rest; now apply rest_unsettled).
  destruct (HW i) as [_ (ps & es' & Eb & Id & _ & _ & M & _)].
  assert (Bl : blocks (Datatypes.S i) = ps ++ es') by exact Eb.
  induction q as [|q IH]; intros L Un.
  - rewrite Nat.add_0_r in *. rewrite turn_time. apply Rest. exact Un.
  - destruct (Nat.le_gt_cases (Datatypes.S q) (List.length ps)) as [Lp|Lp].
    + rewrite time_block by lia. rewrite Bl. change (turn (Datatypes.S i)) with (W i).
      assert (Ef : steps (W i) (firstn (Datatypes.S q) (ps ++ es')) = W i).
      { rewrite firstn_app. replace (Datatypes.S q - List.length ps) with 0 by lia. rewrite firstn_O, app_nil_r. now apply idles_first. }
      rewrite Ef. apply Rest. intros x Lx. apply Un. lia.
    + assert (Hq : exists ev, nth_error (blocks (Datatypes.S i)) q = Some ev /\ small S ev).
      { rewrite Bl in L |- *. rewrite app_length in L. rewrite nth_error_app2 by lia. apply (mould_small S (e i)); [exact M|lia]. }
      destruct Hq as (ev & Hev & Sm). pose proof (Hs (Datatypes.S i) q ev Hev) as Es. rewrite Nat.add_succ_r. cbn [at_time]. rewrite Es.
      assert (Un1 : forall x, x < begin blocks (Datatypes.S i) + q -> unsettled (time w1 sigma x)) by (intros x Lx; apply Un; lia).
      assert (Uq : unsettled (time w1 sigma (begin blocks (Datatypes.S i) + q))) by (apply Un; lia).
      pose proof (mine_at (begin blocks (Datatypes.S i) + q)) as Mq. destruct (live_next _ ev Mq Uq) as (s & E & _ & Lv).
      exact (lives_next S a sock _ ev (proj1 Mq) Sm (sub_live _ s E Lv) (IH ltac:(lia) Un1)).
Qed.
Lemma lives_first q : unsettled (W 0) -> q < List.length (blocks 0) -> lives (time w1 sigma q) sock.
Proof.
  intros Un L. pose proof (time_block 0 q ltac:(lia)) as Et. change (begin blocks 0 + q) with q in Et. rewrite Et.
  change (turn 0) with w1. change (blocks 0) with (map (fun e => WClient e : wevent) l0 ++ [WClient Client.CVisit]) in L |- *. rewrite app_length, map_length in L. cbn in L.
  assert (Ef : firstn q (map (fun e => WClient e : wevent) l0 ++ [WClient Client.CVisit]) = map (fun e => WClient e) (firstn q l0)).
  { rewrite firstn_app, map_length. replace (q - List.length l0) with 0 by lia. cbn [firstn]. now rewrite app_nil_r, firstn_map. }
  rewrite Ef. destruct (lives_rest 0 Un) as (L1 & L2 & L3).
  assert (Rd : ready (w_cl w1)).
  { destruct (call_text S (Client.bump (Client.cl_id (w_cl w0))) r) as [tx|] eqn:Etx; [|now destruct (enc_total S _ _ Etx)].
    exact (ready_request (call_text S) (read_text S) (same_id S) (w_cl w0) r tx (sim_creach S any a y1 w0 I0) (sim_user S any a y1 w0 I0) Etx). }
  assert (Un' : unsettled (steps w1 (map (fun e => WClient e) l0))) by (rewrite <- E0; exact Un).
  assert (L1' : held (w_cl (steps w1 (map (fun e => WClient e) l0))) sock) by (rewrite <- E0; exact L1).
  assert (Su : forall q, Client.subscribed (w_cl (steps w1 (map (fun e => WClient e) (firstn q l0)))) = true).
  { intros z. pose proof (mine_steps (map (fun e => WClient e) (firstn z l0)) w1 mine1) as Mz.
    assert (Uz : unsettled (steps w1 (map (fun e => WClient e) (firstn z l0)))).
    { intros d Se. apply (Un' d). rewrite <- (firstn_skipn z l0), map_app, steps_app. exact (settled_steps _ _ d Mz Se). }
    destruct (unsettled_live _ Mz Uz) as (s & E & _ & _ & _ & Lv). exact (sub_live _ s E Lv). }
  pose proof (back S a sock l0 w1 reach0 Lc Rd Su L1' q) as Hh.
  destruct (local_still S w1 l0 Lc) as [S1 S2]. rewrite <- E0 in S1, S2.
  assert (Fq : Forall local (firstn q l0)) by (rewrite <- (firstn_skipn q l0) in Lc; apply Forall_app in Lc; tauto).
  destruct (local_still S w1 _ Fq) as [T1 T2]. split; [exact Hh|]. rewrite T1, T2, <- S1, <- S2. split; [exact L2|exact L3].
Qed.

(** *** Numbers *)
Lemma count_rest i : counted (w_cl (W i)) + weigh (scr S (y i)) <= weigh scripts + task_calls (tasks_of (es1 ++ ask :: map e (seq 0 i))).
Proof.
  induction i as [|i IH]; [exact B0|]. destruct (HW i) as [_ (ps & es' & _ & _ & _ & _ & _ & _ & _ & Bd & _)]. unfold bounded in Bd.
  rewrite seq_S, map_app, app_comm_cons, app_assoc, tasks_app, task_calls_app. cbn [map Nat.add]. lia.
Qed.
Lemma countable_rest i : countable (w_cl (W i)).
Proof. apply (few_count S scripts _ _ (Few i)). pose proof (count_rest i). lia. Qed.
Lemma time_to_rest x : exists i es, W i = steps (time w1 sigma x) es.
Proof.
  destruct (time_in S any a y e W B w1 l0 HW E0 sigma Hs Hm x) as (i & q & _ & _ & E). exists i, (skipn q (blocks i)). rewrite E, <- steps_app, firstn_skipn.
  exact (turn_next S any a y e W B w1 l0 HW E0 i).
Qed.
Lemma countable_at x : countable (w_cl (time w1 sigma x)).
Proof. destruct (time_to_rest x) as (i & es & E). pose proof (countable_rest i) as Co. rewrite E in Co. exact (wcount_run _ _ _ _ _ es _ Co). Qed.
Lemma number : Client.bump (Client.cl_id (w_cl w0)) = id.
Proof.
  apply (number_is S any a y1 w0 I0). pose proof (countable_at 0) as Co. unfold countable in Co. cbn [at_time] in Co.
  destruct (request_adds (call_text S) (read_text S) (same_id S) (w_cl w0) r (sim_user S any a y1 w0 I0)) as (Ca & _).
  change (Client.cnext (call_text S) (read_text S) (same_id S) (w_cl w0) (Client.URequest r)) with (w_cl w1) in Ca. rewrite Ca, app_length in Co. cbn in Co. lia.
Qed.
Lemma unsettled_dec w : (exists d, settled w J d) \/ unsettled w.
Proof. exact (settled_dec w J). Qed.

(** *** The end *)
Context (vs : list V).
Let vals : list json := map (fun a => to_value (s_float S) (stringify_elem a)) args.
Hypothesis (De : decoded (s_dec S) (map snd (it_args it)) vals vs).
Let done_at i res := handler_ran S a (server_side (y i)) id n k vs res /\ match res with inl d => fulfilled (sy_page (y i)) j (received_as double d) | inr _ => True end.
Lemma settled_done i d : settled (W i) J d -> exists res, done_at i res.
Proof.
  intros Se. destruct (HW i) as [Si _].
  assert (Ew : exists es, W i = steps w1 es) by (exists (map sigma (seq 0 (begin blocks (Datatypes.S i)))); rewrite <- at_time_run, turn_time; reflexivity).
  destruct Ew as [es Ew]. pose proof (countable_rest i) as Co. pose proof Se as Se'. rewrite Ew in Se', Co.
  destruct (wire_settled S Lit Lit' n k f it args a w0 Hdis Hit Hns Hid (si_reach _ _ _ _ _ I0) (sim_user S any a y1 w0 I0) Hargs es d Ha Hk Co Se') as (vs' & d0 & De' & Ed & Hr).
  rewrite number in Hr. change (steps (step w0 (WClient (Client.URequest (bf_name f, it_ident it, args)))) es) with (steps w1 es) in Hr. rewrite <- Ew in Hr.
  rewrite <- (decoded_same S _ _ _ _ De De') in Hr. exists (inl d0). split; [now apply (view_handler S a (y i) (W i) id n k vs (inl d0) Si)|].
  destruct (page_state i) as [Pe|(d' & Fu & (s' & E' & _ & Sn'))].
  - exfalso. destruct Se as (s & E & Q & Sn). destruct Pe as (rs & p & z & Hp & Hz & Ez). pose proof (ag_proms _ _ (sim_agree S any a _ _ Si)) as Fp.
    destruct (forall2_at _ _ _ _ _ Fp Hp) as (s' & Hs' & (p' & z' & Ep & Ez' & X)).
    assert (Hf : nth_error (filter Client.su_req (Client.cl_subs (w_cl (W i)))) j = Some s).
    { unfold j. rewrite (forall2_len _ _ _ (ag_proms _ _ (sim_agree S any a y1 w0 I0))). apply request_at; [|exact E|exact Q].
      intros q zz Hzz. rewrite Ew. apply (grown_steps S). now apply grown_step. }
    assert (s' = s) as -> by congruence. rewrite Sn in X. injection Ep as <-. assert (z' = z) as -> by congruence. congruence.
  - destruct Se as (s & E & _ & Sn). assert (s' = s) as -> by congruence. assert (d' = d) as -> by congruence. rewrite Ed in Fu. exact Fu.
Qed.
Lemma ends : (forall doc, sent_doc id f it args doc -> fine doc) -> fair_run y e sock -> exists i res, done_at i res.
Proof.
  intros Fi Fr. destruct (page_state 0) as [Pe|(d & _ & Se)]; [|destruct (settled_done 0 d Se) as [res X]; now exists 0, res].
  assert (U0 : unsettled (W 0) \/ exists i res, done_at i res).
  { destruct (unsettled_dec (W 0)) as [(d & Se)|Un]; [right|now left]. destruct (settled_done 0 d Se) as [res X]. now exists 0, res. }
  destruct U0 as [U0|X]; [|exact X].
  pose proof (sched_fair S any a y e En W B w1 l0 HW E0 sigma Hs Hm sock Fr) as Fa.
  assert (Fi' : forall doc, sent_doc (Client.bump (Client.cl_id (w_cl w0))) f it args doc -> fine doc) by (rewrite number; exact Fi).
  destruct (wire_ends S Lit Lit' n k f it args a w0 Hdis Hit Hns Hid (si_reach _ _ _ _ _ I0) (sim_user S any a y1 w0 I0) Hargs sock sigma vs Ha Hk Fi' De Fa) as (x & res & Hr & Se).
  { intros x Un. split; [|apply countable_at]. destruct (time_in S any a y e W B w1 l0 HW E0 sigma Hs Hm x) as (i & q & -> & Lq & _). destruct i as [|i].
    - exact (lives_first q U0 Lq).
    - apply (lives_later i q Lq). intros z Lz d. exact (Un z d Lz). }
  destruct (time_to_rest x) as (i & es & Ew). destruct (HW i) as [Si _].
  assert (Hr' : handler_ran S a (server_side (y i)) id n k vs res).
  { apply (view_handler S a (y i) (W i) id n k vs res Si). rewrite Ew. apply (handler_keeps S Lit Lit'); [apply reach_at|rewrite <- Ew; apply countable_rest|]. rewrite <- number. exact Hr. }
  exists i, res. split; [exact Hr'|]. destruct res as [d0|er]; [|exact I].
  assert (Se' : settled (W i) J (received_as double d0)) by (rewrite Ew; apply settled_steps; [apply mine_at|exact Se]).
  destruct (settled_done i _ Se') as (res & Hr2 & Fu). rewrite <- (handler_same S a _ id n k vs _ _ Hr' Hr2) in Fu. exact Fu.
Qed.
End Worlds.

Theorem ask_ends vs : (forall doc, sent_doc id f it args doc -> fine doc) ->
  decoded (s_dec S) (map snd (it_args it)) (map (fun a => to_value (s_float S) (stringify_elem a)) args) vs -> fair_run y e sock ->
  exists i res, handler_ran S a (server_side (y i)) id n k vs res /\
    match res with inl d => fulfilled (sy_page (y i)) j (received_as double d) | inr _ => True end.
Proof.
  intros Fi De Fr. destruct (sim_init S any P scripts a y0 HP H0 (any_all _)) as [Ii S0].
  destruct (sim_run S any es1 a y0 _ y1 Ii R1 (any_all _)) as (e1 & _ & I0 & B1 & _). set (w0 := steps (winit (A := A) a) e1) in *.
  set (w1 := step w0 (WClient (Client.URequest r))).
  assert (E2 : w1 = mkWorld (acts_next lit num other (w_cl w0) (sc_acts (mkScript [ARequest (bf_name f) (it_ident it) args] b))) (w_sv w0) (w_links w0)) by reflexivity.
  destruct (sim_user_block S any a y1 w0 _ (y 0) I0 R2 (any_all _)) as (e2 & _ & I2 & B2 & _ & _ & (l0 & El & Lc)).
  { rewrite <- E2. apply wreach_next. exact (si_reach _ _ _ _ _ I0). }
  rewrite <- E2 in I2, B2. destruct (worlds S any a y e En (fun _ => any_all _) _ I2) as (W & B & E0 & HW). rewrite El in E0.
  destruct (flat (blocks S B l0) (blocks_some S any a y e W B w1 l0 HW E0)) as (sigma & Hs & Hm).
  apply (ends w0 l0 W B sigma I0 Lc E0 HW Hs Hm) with (vs := vs); try assumption.
  rewrite E0, <- El. rewrite tasks_app, task_calls_app. unfold bounded in B2. rewrite S0 in B1. cbn [winit w_cl counted Client.cl_calls Client.cinit List.length] in B1. lia.
Qed.
End Ends.
