(** A request whose handler fails is never settled. *)
From Coq Require Import List Arith NArith Bool Lia.
From Verif Require Import Util Server ServerSpec ServerProofs ServerLemmas Pump PumpSpec PumpProofs.
From Verif Require Import Client ClientSpec ClientProofs ClientSockProofs E2E E2ESpec E2EProofs E2ESafe.
From Verif Require Import E2ELive.
Import ListNotations.

Section E2EFail.
Context {R text K D : Type} (enc : N -> R -> option text) (read : text -> option (K * D)) (same : K -> N -> bool).
Context {A : app} (decode : text -> msg A) (encode : response A -> text).
Local Notation world := (world text K D A).
Local Notation wevent := (wevent R text A).
Local Notation client := (client text K D).
Local Notation wnext := (wnext enc read same decode encode).
Local Notation wrun := (wrun enc read same decode encode).
Local Notation at_time := (at_time enc read same decode encode).
Local Notation cnext := (cnext enc read same).
Local Notation pnext := (pnext decode encode).
Local Notation creachable := (creachable enc read same).
Local Notation preachable := (preachable decode encode).
Local Notation wreachable := (wreachable enc read same decode encode).
Implicit Types (w : world).

Lemma sent_more (s : state A) e : exists l, st_sent (next s e) = st_sent s ++ l.
Proof.
  assert (Same : forall s', st_sent s' = st_sent s -> exists l, st_sent s' = st_sent s ++ l).
  { intros s' ->. exists []. now rewrite app_nil_r. }
  unfold next, step. destruct e as [| | |d m|d|d|d| | |t|t v|t|t]; try now apply Same.
  - destruct (Nat.eqb _ 0); now apply Same.
  - destruct (Nat.eqb _ 0); now apply Same.
  - destruct (nth_error (st_conns s) d) as [x|]; [destruct (cn_tx x); [destruct (alive _)|]|]; try now apply Same. cbn. eauto.
  - destruct (nth_error (st_conns s) d) as [x|]; [destruct (cn_rx x); [destruct (nth_error (cn_out x) _) as [[? ?]|]|]|]; now apply Same.
  - destruct (st_loop s); try now apply Same. destruct (st_queue s) as [|[d m] q].
    + destruct (no_senders s); now apply Same.
    + cbn [fst]. unfold handle. destruct m as [[id v|id]|err]; try now apply Same.
      * destruct (from_value A v) as [call|e]; [|now apply Same].
        destruct (is_stream A call); [destruct (open_stream A _ call)|]; now apply Same.
      * unfold cancel. destruct (m_get id _); now apply Same.
  - destruct (st_loop s) as [|d id call| |]; try now apply Same.
    cbn [fst]. unfold method_done. destruct (run_method A _ call) as [[a r]|]; [|now apply Same].
    destruct (rx_alive s d); now apply Same.
  - destruct (nth_error (st_tasks s) t) as [tk|]; [|now apply Same].
    destruct (polling _); [|now apply Same]. destruct (rx_alive s _); now apply Same.
Qed.

Lemma wsent_more w e : exists l, st_sent (p_srv (w_sv (wnext w e))) = st_sent (p_srv (w_sv w)) ++ l.
Proof.
  destruct (sv_next enc read same decode encode w e) as [->|(pe & ->)]; [exists []; now rewrite app_nil_r|].
  destruct (srv_next decode encode (w_sv w) pe) as [->|[(e1 & -> & _)|(e1 & e2 & -> & _)]]; [exists []; now rewrite app_nil_r | apply sent_more |].
  destruct (sent_more (next (p_srv (w_sv w)) e1) e2) as (l2 & ->), (sent_more (p_srv (w_sv w)) e1) as (l1 & ->).
  exists (l1 ++ l2). now rewrite app_assoc.
Qed.

Lemma ours_next w e c : is_ours w c -> is_ours (wnext w e) c.
Proof.
  intros (x & s & Hx & Es & Ec). apply In_nth_error in Hx as (l & Hl).
  destruct (link_next enc read same decode encode w e l x Hl) as (x' & Hl' & _ & P & _).
  destruct (sv_next enc read same decode encode w e) as [Q|(pe & Q)].
  - exists x', s. rewrite Q, P. split; [now apply nth_error_In in Hl' | auto].
  - destruct (sock_next decode encode (w_sv w) pe _ s Es) as (s' & Q1 & Q2 & _).
    exists x', s'. rewrite Q, P. split; [now apply nth_error_In in Hl'|]. split; [exact Q1 | congruence].
Qed.

Section Codecs.
Context (val : R -> Json A) (data : Json A -> D).
Hypothesis U : understand enc read same decode encode val data.

(** What has run has run. *)
Lemma ran_next a w e id v call res : wreachable a w -> countable (w_cl (wnext w e)) ->
  ran a w id v call res -> ran a (wnext w e) id v call res.
Proof.
  intros Hr Hc (c & before & after & q & a' & E1 & E2 & E3 & E4 & E5 & E6).
  destruct (wsent_more w e) as (l & El). rewrite E1 in El. rewrite <- app_assoc in El. cbn in El.
  exists c, before, (after ++ l), q, a'. repeat (split; [assumption || now apply ours_next|]).
  intros i Hi. apply (calls_once enc read same decode encode val data U a (wnext w e) id); auto; [now apply wreach_next|].
  exists c, v. rewrite El, nth_error_app2, Nat.sub_diag by auto. split; [reflexivity | now apply ours_next].
Qed.
Lemma ran_run a es : forall w id v call res, wreachable a w -> countable (w_cl (wrun w es)) ->
  ran a w id v call res -> ran a (wrun w es) id v call res.
Proof.
  induction es as [|e es IH]; intros w id v call res Hr Hc H; [exact H|].
  cbn in *. apply IH; auto; [now apply wreach_next|]. apply ran_next; auto.
  clear - Hc. revert Hc. generalize (wnext w e). induction es as [|e' es IH]; intros w' H; [exact H|].
  apply (wcount_back enc read same decode encode w' e'). now apply IH.
Qed.

(** The result of a call is one. *)
Lemma ran_same a w id v v' call call' res res' : from_value A v = inl call -> from_value A v' = inl call' ->
  ran a w id v call res -> ran a w id v' call' res' -> res' = res.
Proof.
  intros F F' (c & before & after & q & a' & E1 & E2 & E3 & E4 & _ & E6) (c1 & before1 & after1 & q1 & a1 & D1 & D2 & D3 & D4 & _ & D6).
  assert (L : length before = length before1).
  { apply D6. exists c, v. rewrite E1, nth_error_app2, Nat.sub_diag by auto. auto. }
  rewrite E1 in D1. assert (before1 = before /\ (c1, v', after1) = (c, v, after)) as [-> X].
  { clear - L D1. revert before1 L D1. induction before as [|y l IH]; intros [|y1 l1] L D1; try discriminate.
    - cbn in D1. injection D1 as <- <- <-. auto.
    - injection D1 as <- D1. injection L as L. destruct (IH l1 L D1) as [-> X]. auto. }
  injection X as -> -> ->. assert (q1 = q) as -> by congruence. assert (call' = call) as -> by congruence. congruence.
Qed.

Theorem failed_never_settles a w0 r t es es' call e d :
  wreachable a w0 -> user (w_cl w0) = true -> enc (bump (cl_id (w_cl w0))) r = Some t ->
  from_value A (val r) = inl call -> is_stream A call = false ->
  let w := wrun (wnext w0 (WClient (URequest r))) es in
  ran a w (bump (cl_id (w_cl w0))) (val r) call (inr e) ->
  countable (w_cl (wrun w es')) -> ~ settled (wrun w es') (length (cl_subs (w_cl w0))) d.
Proof.
  intros Hr0 Hu He Hf Hs w Ran Hc Se.
  assert (Ew : wrun w es' = wrun (wnext w0 (WClient (URequest r))) (es ++ es')).
  { unfold w, wrun. now rewrite fold_left_app. }
  assert (Ran' : ran a (wrun w es') (bump (cl_id (w_cl w0))) (val r) call (inr e)).
  { apply ran_run; auto. apply wreach_run, wreach_next, Hr0. }
  rewrite Ew in *.
  destruct (settled_by_handler enc read same decode encode val data U a w0 r t (es ++ es') d Hr0 Hu He) as (_ & call2 & d0 & Z1 & Z2 & Z3); auto.
  { intros call2 Z. congruence. }
  pose proof (ran_same _ _ _ _ _ _ _ _ _ Hf Z1 Ran' Z3). discriminate.
Qed.
End Codecs.
End E2EFail.
