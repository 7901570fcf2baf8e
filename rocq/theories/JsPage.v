(** Whole pages: the running client does what the model does.  Proof side. *)
From Coq Require Import List String Ascii Bool Arith NArith ZArith Lia.
From Verif Require Import Util Js JsonText Wire TsProgram FileProofs ClientSpec JsSem JsRun JsFun JsSend JsCalls JsRequest JsEvents JsHeap JsNet JsFlush JsSpec JsWorld JsStep JsEntries JsActs JsListen JsCode JsJobs JsEach JsTasks.
From Verif Require Client ClientSockProofs.
Import ListNotations.
Local Open Scope string_scope.
Local Open Scope list_scope.

Lemma filter_kind es subs : Forall2 kind es subs -> forall a, List.length (listeners_from a subs) = List.length (e_unls es).
Proof.
  unfold listeners_from. induction 1 as [|e s es subs K F IH]; intros a; [reflexivity|]. cbn [List.length seq combine filter]. specialize (IH (S a)). unfold kind in K.
  destruct e; cbn [snd]; rewrite K; cbn [negb map List.length]; rewrite IH; reflexivity.
Qed.
Lemma proms_agree s (P : entry -> sub -> Prop) es subs : Forall2 P es subs -> (forall e x, P e x -> kind e x) ->
  (forall q x, P (EReq q) x -> prom_agrees s (VProm (q_p q)) x) -> Forall2 (prom_agrees s) (e_proms es) (filter Client.su_req subs).
Proof.
  intros F Hk Hp. induction F as [|e x es subs A F IH]; [constructor|]. pose proof (Hk _ _ A) as K. unfold kind in K. destruct e; cbn; rewrite K; [constructor; [now apply Hp|exact IH]|exact IH].
Qed.
Lemma nth_forall2 {A B} (P : A -> B -> Prop) l : forall m, List.length l = List.length m -> (forall j a b, nth_error l j = Some a -> nth_error m j = Some b -> P a b) -> Forall2 P l m.
Proof.
  induction l as [|a l IH]; intros [|b m] L H; try discriminate; constructor; [now apply (H 0)|]. apply IH; [now injection L|]. intros j. exact (H (S j)).
Qed.

Lemma forall2_len {A B} (P : A -> B -> Prop) l m : Forall2 P l m -> List.length l = List.length m.
Proof. induction 1; cbn; congruence. Qed.

Lemma agrees d c : Inv d c -> d_t d = [] -> Client.cl_disp c = None -> agree (conc d) c.
Proof.
  intros H T Dp. pose proof (v_ent H) as En. rewrite T in En. pose proof (v_net H) as S. rewrite T in S. cbn [links flat_map] in S. constructor.
  - unfold conc, St. cbn [st_jobs]. now rewrite T.
  - now apply rest_idle with d.
  - unfold conc, St. cbn [st_socks]. apply nth_forall2; [exact (s_len S)|]. intros j y x Hy Hx.
    destruct (nth_error (d_sp d) j) as [p|] eqn:Ep; [|apply nth_error_None in Ep; apply nth_some_lt in Hx; rewrite (s_sp S) in Ep; lia].
    destruct (s_sock S j x y p Hx Hy Ep) as [A B C _ _]. now repeat split.
  - pose proof (s_timer S) as Tm. unfold timer_ok, alive, conc, St in *. cbn [st_timers]. destruct (Client.cl_timer c) as [dl|].
    + destruct Tm as (k & i & _ & Hk & U). exists k, (JsFun.f_timer i). split; [exact Hk|]. intros k' A. destruct (nth_error (d_tm d) k') as [[x|]|] eqn:E; try discriminate. exact (U k' x E).
    + intros k. destruct (nth_error (d_tm d) k) as [[x|]|] eqn:E; try reflexivity. exfalso. exact (proj2 Tm k x E).
  - unfold conc, St. cbn [st_user]. rewrite (e_pr En).
    apply proms_agree with (P := fun e x => exists j, ent_ok (d_h d) (d_rest d) [] (d_us d) j e x).
    + apply nth_forall2; [exact (e_len En)|]. intros j e x He Hx. exists j. exact (e_ok En j e x He Hx).
    + intros e x [j O]. destruct e; cbn [ent_ok] in O; [exact (r_req _ _ _ _ _ _ O)|exact (li_req _ _ _ _ O)].
    + intros q x [j O]. cbn [ent_ok] in O. destruct O. cbn in r_stage, r_back. exists (q_p q), (p0 q). split; [reflexivity|]. split; [cbn [st_proms]; eapply nth_snd; exact r_p0|].
      unfold back_jobs in r_back. destruct (q_b q) eqn:B; [|discriminate]. unfold stage_jobs in r_stage. unfold p0.
      destruct (q_g q) eqn:G; rewrite ?B in r_stage; try discriminate; cbn [stage_data] in r_seen.
      * destruct (Client.su_seen x); [|discriminate]. eexists. reflexivity.
      * destruct (Client.su_seen x) as [|v l]; [discriminate|]. injection r_seen as ->. reflexivity.
  - intros j i x Hj Hx. pose proof (hears_nth _ _ (e_kind _ _ _ _ _ _ _ _ _ En) 0 j) as N. destruct (nth_error (e_unls (d_es d)) j) as [v|] eqn:Ev.
    + destruct N as (i' & l & s & He & Hs & _ & Hl & _ & Hn). unfold listeners in Hj. unfold listeners_from in Hl. rewrite Hj in Hl. injection Hl as ->. rewrite Hx in Hs. injection Hs as <-.
      pose proof (e_ok En i' _ _ He Hx) as O. cbn [ent_ok] in O. pose proof (li_heard _ _ _ _ O) as Hh.
      rewrite (e_num En) in Hn. assert (Ej : l_u l = j).
      { pose proof (nth_some_lt _ _ _ Hn) as Lj. rewrite seq_length in Lj. apply nth_error_nth with (d := 0) in Hn. rewrite seq_nth in Hn by exact Lj. lia. }
      rewrite Ej in Hh. exact Hh.
    + unfold listeners in Hj. unfold listeners_from in N. congruence.
  - unfold conc, St. cbn [st_user]. rewrite (e_un En). symmetry. exact (filter_kind _ _ (e_kind _ _ _ _ _ _ _ _ _ En) 0).
  - unfold conc, St. cbn [st_user]. exact (forall2_len _ _ _ (e_st En)).
Qed.

Section Page.
Context (lit : num -> jstr) (num : jstr -> num) (other : jsval -> N -> bool).
Local Notation run_task := (run_task lit num other).
Local Notation run_tasks := (run_tasks lit num other).
Local Notation path := (path lit num other).

Definition world0 (scripts : list script) : world := mkD 0 VUndef VUndef VUndef VUndef 0 [] 11 [] [] [] [] [] (mkUs scripts [] [] [] []) [] [] [].
Lemma inv0 scripts : Inv (world0 scripts) Client.cinit.
Proof.
  assert (N0 : forall X (x : X) n, nth_error (@nil X) n <> Some x) by (intros X x [|n]; discriminate).
  constructor; unfold world0; fields; [| | |reflexivity|cbn; lia].
  - apply (ClientSockProofs.shape_inv (js_enc lit) (js_read num) (js_same other)). now exists [].
  - constructor; cbn; try reflexivity; try (now constructor); try (intros n x y p E; exfalso; exact (N0 _ _ _ E)); try (now intros w []).
    split; [now left|]. intros k x. apply N0.
  - constructor; cbn; try reflexivity; try (now constructor). intros j e s E. now apply N0 in E.
Qed.

Lemma tasks_ok ts : forall d c, Inv d c -> d_t d = [] -> Client.cl_disp c = None ->
  exists d' c' N, (forall n, N <= n -> run_tasks n ts (conc d) = Ok tt (conc d')) /\ Inv d' c' /\ d_t d' = [] /\ Client.cl_disp c' = None /\ path (conc d) c ts (conc d') c'.
Proof.
  induction ts as [|t ts IH]; intros d c H T Dp.
  - exists d, c, 0. repeat (split; [assumption || reflexivity|]). apply p_nil. now apply agrees.
  - destruct (task_ok lit num other d c t H T Dp) as (d1 & c1 & N1 & R1 & I1 & T1 & D1 & F1). destruct (IH d1 c1 I1 T1 D1) as (d2 & c2 & N2 & R2 & I2 & T2 & D2 & P2).
    exists d2, c2, (N1 + N2). split; [|split; [exact I2|split; [exact T2|split; [exact D2|]]]].
    + intros n Hn. cbn [JsSem.run_tasks]. unfold bind, attempt. rewrite R1, R2 by lia. reflexivity.
    + apply p_task with (conc d1) c1; [now apply agrees|now exists N1|exact F1|exact P2].
Qed.
Theorem page_ok scripts ts : exists s c N, (forall n, N <= n -> page lit num other n client_program scripts ts = Ok tt s) /\
  exists s0, load lit num other 40 client_program (st0 scripts) = Ok tt s0 /\ path s0 Client.cinit ts s c.
Proof.
  destruct (tasks_ok ts (world0 scripts) Client.cinit (inv0 scripts) eq_refl eq_refl) as (d & c & N & R & _ & _ & _ & P).
  exists (conc d), c, (40 + N). split.
  - intros n Hn. unfold page, bind, attempt. replace n with (40 + (n - 40)) at 1 by lia. rewrite load_ok. apply R. lia.
  - exists (conc (world0 scripts)). split; [exact (load_ok lit num other 0 scripts)|exact P].
Qed.
End Page.
