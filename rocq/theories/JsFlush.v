(** What waits for a socket runs.  Proof side. *)
From Coq Require Import List String Ascii Bool Arith NArith ZArith Lia.
From Verif Require Import Util Js JsonText Wire TsProgram FileProofs ClientSpec JsSem JsRun JsFun JsSend JsCalls JsRequest JsEvents JsHeap JsNet.
From Verif Require Client ClientSockProofs.
Import ListNotations.
Local Open Scope string_scope.
Local Open Scope list_scope.

Lemma settle_ok id iv so op th cnt rest fr pr sk su tm jb us p ok v rs u : nth_error pr p = Some (mkProm (PPending rs) u) ->
  settle p ok v (St id iv so op th cnt rest fr pr sk su tm jb us) =
  Ok tt (St id iv so op th cnt rest fr (upd p (fun _ => mkProm (if ok then PFul v else PRej v) true) pr) sk su tm
    (jb ++ map (fun r => JReact (if ok then re_ful r else re_rej r) ok v (re_to r)) rs) us).
Proof. intros H. unfold settle, get_prom, bind, attempt, gets, some, St. cbn [st_proms]. rewrite H. reflexivity. Qed.
Lemma then_pending id iv so op th cnt rest fr pr sk su tm jb us q a b t rs u : nth_error pr q = Some (mkProm (PPending rs) u) ->
  perform_then q a b t (St id iv so op th cnt rest fr pr sk su tm jb us) =
  Ok tt (St id iv so op th cnt rest fr (upd q (fun _ => mkProm (PPending (rs ++ [mkRe a b t])) u) pr) sk su tm jb us).
Proof. intros H. unfold perform_then, get_prom, bind, attempt, gets, some, St. cbn [st_proms]. rewrite H. reflexivity. Qed.
Lemma then_done id iv so op th cnt rest fr pr sk su tm jb us q a b t v u : nth_error pr q = Some (mkProm (PFul v) u) ->
  perform_then q a b t (St id iv so op th cnt rest fr pr sk su tm jb us) =
  Ok tt (St id iv so op th cnt rest fr pr sk su tm (jb ++ [JReact a true v t]) us).
Proof. intros H. unfold perform_then, get_prom, bind, attempt, gets, some, St. cbn [st_proms]. rewrite H. reflexivity. Qed.
Lemma put_map (h : heap) p o x y : nth_error h p = Some (o, y) -> upd p (fun _ => x) (map snd h) = map snd (put p o x h).
Proof. intros _. symmetry. apply put_snd. Qed.

Section Flush.
Context (lit : num -> jstr) (num : jstr -> num) (other : jsval -> N -> bool).
Local Notation call := (call lit num other).
Local Notation drain := (drain lit num other).
Local Notation run_job := (run_job lit num other).

Lemma drain_nil n id iv so op th cnt rest fr pr sk su tm us :
  drain (S n) (St id iv so op th cnt rest fr pr sk su tm [] us) = Ok tt (St id iv so op th cnt rest fr pr sk su tm [] us).
Proof. reflexivity. Qed.
Lemma drain_job n id iv so op th cnt rest fr pr sk su tm j jb us s :
  run_job n j (St id iv so op th cnt rest fr pr sk su tm jb us) = Ok tt s ->
  drain (S n) (St id iv so op th cnt rest fr pr sk su tm (j :: jb) us) = drain n s.
Proof. intros H. change (then_ok (run_job n j (St id iv so op th cnt rest fr pr sk su tm jb us)) (fun _ => drain n) = drain n s). rewrite H. reflexivity. Qed.

Definition after (ok : bool) (v : val) (w : out) : list job :=
  match w_v w with
  | Some _ => [JReact (if ok then HFun (f_later (w_i w) (2 + w_f w)) else HNone) ok v (Some (w_q w))]
  | None => []
  end.
Lemma into_all ok v id iv so op th cnt rest fr sk su tm us ws : (ok = true -> v = VUndef) -> forall h jb,
  Forall (fun w => nth_error h (w_p w) = Some (OOut, out_prom w)) ws -> NoDup (map w_p ws) ->
  exists h' : heap, (forall q, ~ In q (map w_p ws) -> nth_error h' q = nth_error h q) /\
  forall n, drain (List.length ws + n) (St id iv so op th cnt rest fr (map snd h) sk su tm (map (fun w => JReact (HInto (w_p w)) ok v None) ws ++ jb) us) =
            drain n (St id iv so op th cnt rest fr (map snd h') sk su tm (jb ++ flat_map (after ok v) ws) us).
Proof.
  intros Hv. induction ws as [|w ws IH]; intros h jb F Nd.
  - exists h. split; [reflexivity|]. intros n. cbn. now rewrite app_nil_r.
  - inversion F; subst. inversion Nd; subst.
    assert (E : forall n jb, run_job n (JReact (HInto (w_p w)) ok v None) (St id iv so op th cnt rest fr (map snd h) sk su tm jb us) =
      Ok tt (St id iv so op th cnt rest fr (map snd (put (w_p w) OOut (mkProm (if ok then PFul v else PRej v) true) h)) sk su tm (jb ++ after ok v w) us)).
    { intros n jb'. rewrite put_snd. cbn [JsSem.run_job]. 
      assert (R : settle (w_p w) ok v (St id iv so op th cnt rest fr (map snd h) sk su tm jb' us) =
         Ok tt (St id iv so op th cnt rest fr (upd (w_p w) (fun _ => mkProm (if ok then PFul v else PRej v) true) (map snd h)) sk su tm (jb' ++ after ok v w) us)).
      { erewrite settle_ok by (eapply nth_snd; exact H1). unfold after. destruct (w_v w); [|reflexivity]. destruct ok; reflexivity. }
      destruct ok; [rewrite Hv in * by reflexivity; exact R|exact R]. }
    destruct (IH (put (w_p w) OOut (mkProm (if ok then PFul v else PRej v) true) h) (jb ++ after ok v w)) as (h' & A & B).
    + rewrite Forall_forall in H2 |- *. intros w' Hw'. rewrite put_other; [now apply H2|]. intros Eq. apply H3. rewrite Eq. now apply in_map.
    + assumption.
    + exists h'. split.
      * intros q Nq. cbn in Nq. rewrite A by tauto. apply put_other. tauto.
      * intros n. cbn [List.length Nat.add map app flat_map]. erewrite drain_job by apply E. rewrite <- app_assoc, B. now rewrite <- app_assoc.
Qed.

Definition qs (ws : list out) : list nat := flat_map (fun w => match w_v w with Some _ => [w_q w] | None => [] end) ws.
Lemma reject_all v id iv so op th cnt rest fr sk su tm us ws : forall h,
  Forall (fun w => w_v w <> None -> nth_error h (w_q w) = Some (OThen (w_p w), blank false)) ws -> NoDup (map w_p ws) ->
  exists h' : heap, (forall q, ~ In q (qs ws) -> nth_error h' q = nth_error h q) /\
  forall n, drain (S (List.length ws + n)) (St id iv so op th cnt rest fr (map snd h) sk su tm (flat_map (after false v) ws) us) =
            Ok tt (St id iv so op th cnt rest fr (map snd h') sk su tm [] us).
Proof.
  induction ws as [|w ws IH]; intros h F Nd.
  - exists h. split; [reflexivity|]. reflexivity.
  - inversion F; subst. inversion Nd; subst. unfold after, qs. cbn [flat_map]. destruct (w_v w) as [x|] eqn:Ev.
    + specialize (H1 ltac:(discriminate)).
      destruct (IH (put (w_q w) (OThen (w_p w)) (mkProm (PRej v) true) h)) as (h' & A & B).
      * rewrite Forall_forall in H2 |- *. intros w' Hw' N. rewrite put_other; [now apply H2|]. intros Eq. apply H3. rewrite Eq in H1. rewrite H2 in H1 by assumption.
        injection H1 as <-. now apply in_map.
      * assumption.
      * exists h'. split.
        { intros q Nq. cbn in Nq. rewrite A by tauto. apply put_other. tauto. }
        intros n. cbn [List.length Nat.add app]. erewrite drain_job; [apply B|]. cbn [JsSem.run_job reject_opt]. erewrite settle_ok by (eapply nth_snd; exact H1).
        cbn [map]. rewrite app_nil_r, put_snd. reflexivity.
    + destruct (IH h H2 H4) as (h' & A & B). exists h'. split; [exact A|]. intros n. cbn [app List.length Nat.add].
      replace (S (S (List.length ws + n))) with (S (List.length ws + S n)) by lia. apply B.
Qed.

Definition texts (ws : list out) : list (N * jstr) := flat_map (fun w => match w_v w with Some v => [v] | None => [] end) ws.
Definition pushes (l : list (N * jstr)) (y : sock) : sock := mkSock (so_state y) (so_sent y ++ map (fun v => VStr (snd v)) l) (so_lost y) (so_on y).
Lemma pushes_nil y : pushes [] y = y.
Proof. unfold pushes. cbn. rewrite app_nil_r. now destruct y. Qed.
Lemma ready_busy so sk k : ready_so so sk k -> busy_so so sk -> False.
Proof.
  intros (y & E & Hy & Ey) [B|(k' & y' & E' & Hy' & N)]; [congruence|]. rewrite E in E'. injection E' as <-. rewrite Hy in Hy'. injection Hy' as <-. contradiction.
Qed.
Lemma send_all id iv so op th cnt fr su tm us k ws : good_th th -> forall h rest sk, ready_so so sk k -> good_op op (map snd h) ->
  Forall (fun w => forall v, w_v w = Some v -> nth_error rest (w_f w) = Some (value_frame (VStr (snd v))) /\ nth_error h (w_q w) = Some (OThen (w_p w), blank false)) ws -> NoDup (map w_p ws) ->
  exists (h' : heap) g, (forall q, ~ In q (qs ws) -> nth_error h' q = nth_error h q) /\
  forall n, drain (100 + List.length ws + n) (St id iv so op th cnt rest fr (map snd h) sk su tm (flat_map (after true VUndef) ws) us) =
            Ok tt (St id iv so op th cnt (rest ++ g) fr (map snd h') (upd k (pushes (texts ws)) sk) su tm [] us).
Proof.
  intros Gt. induction ws as [|w ws IH]; intros h rest sk R Go F Nd.
  - exists h, []. split; [reflexivity|]. intros n. unfold texts. cbn [flat_map]. rewrite app_nil_r, ClientSockProofs.upd_id by apply pushes_nil. reflexivity.
  - inversion F; subst. inversion Nd; subst. unfold after, qs, texts. cbn [flat_map]. destruct (w_v w) as [x|] eqn:Ev.
    + destruct (H1 x eq_refl) as [Hf Hq].
      assert (Gs : good_so so sk) by (destruct R as (y & -> & Hy & _); right; now exists k, y).
      destruct (later_ok lit num other id iv so op th cnt rest fr (map snd h) sk su tm (flat_map (after true VUndef) ws) us (w_i w) (w_f w) (VStr (snd x)) Gt Gs Go Hf) as (o & So & E).
      inversion So; subst o; [|exfalso; eapply ready_busy; eassumption..].
      cbn [o_so o_op o_th o_rest o_fr o_pr o_sk o_tm o_jb] in E. 
      assert (k0 = k). { destruct R as (y & Ek & _), H as (y' & Ek' & _). congruence. } subst k0.
      destruct (IH (put (w_q w) (OThen (w_p w)) (mkProm (PFul VUndef) true) h) (rest ++ g) (push k (VStr (snd x)) sk)) as (h' & g' & A & B).
      * destruct R as (y & -> & Hy & Ey). exists (mkSock (so_state y) (so_sent y ++ [VStr (snd x)]) (so_lost y) (so_on y)). split; [reflexivity|]. split; [|exact Ey].
        unfold push. rewrite nth_upd_same, Hy. reflexivity.
      * destruct Go as [->|(q & -> & Lq)]; [now left|]. right. exists q. split; [reflexivity|]. now rewrite put_snd, upd_length.
      * rewrite Forall_forall in H2 |- *. intros w' Hw' v' Hv'. destruct (H2 w' Hw' v' Hv') as [A B]. split; [now apply nth_old|].
        rewrite put_other; [exact B|]. intros Eq. apply H3. rewrite <- Eq, Hq in B. injection B as ->. now apply in_map.
      * assumption.
      * exists h', (g ++ g'). split.
        { intros q Nq. cbn in Nq. rewrite A by tauto. apply put_other. tauto. }
        intros n. cbn [List.length app]. replace (100 + S (List.length ws) + n) with (S (100 + List.length ws + n)) by lia.
        erewrite drain_job.
        { rewrite B, <- app_assoc. unfold push, texts. rewrite ClientSockProofs.upd_upd. do 2 f_equal. apply ClientSockProofs.upd_ext. intros y.
          unfold pushes. cbn. now rewrite <- app_assoc. }
        cbn [JsSem.run_job]. unfold attempt. replace (100 + List.length ws + n) with (80 + (20 + List.length ws + n)) by lia. rewrite E.
        rewrite !app_nil_r. cbn [resolve_opt resolve]. erewrite settle_ok by (eapply nth_snd; exact Hq). cbn [map]. rewrite app_nil_r, put_snd. reflexivity.
    + destruct (IH h rest sk R Go H2 H4) as (h' & g & A & B). exists h', g. split; [exact A|]. intros n. cbn [app List.length].
      replace (100 + S (List.length ws) + n) with (100 + List.length ws + S n) by lia. apply B.
Qed.
End Flush.
