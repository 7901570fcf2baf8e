(** Entries of the set of subscriptions.  Proof side. *)
From Coq Require Import List String Ascii Bool Arith NArith ZArith Lia.
From Verif Require Import Util Js JsonText Wire TsProgram FileProofs ClientSpec JsSem JsRun JsFun JsSend JsCalls JsRequest JsEvents JsHeap JsNet JsFlush JsSpec JsWorld JsStep.
From Verif Require Client ClientSockProofs.
Import ListNotations.
Local Open Scope string_scope.
Local Open Scope list_scope.

Lemma nth_combine {A B} (l : list A) (m : list B) i x y : nth_error l i = Some x -> nth_error m i = Some y -> nth_error (combine l m) i = Some (x, y).
Proof. revert m i. induction l as [|a l IH]; intros [|b m] [|i] H H'; cbn in *; try discriminate; [congruence|]. now apply IH. Qed.
Lemma nth_same_len {A B} (l : list A) (m : list B) i x : List.length l = List.length m -> nth_error l i = Some x -> exists y, nth_error m i = Some y.
Proof.
  intros E H. destruct (nth_error m i) as [y|] eqn:N; [now exists y|]. apply nth_error_None in N. apply nth_some_lt in H. lia.
Qed.
Section Ent.
Context {h : heap} {rest : list frame} {fr : nat} {t : tags} {us : users} {su : list (option val)} {es : list entry} {subs : list sub} {stores : list N}.
Hypothesis H : EInv h rest fr t us su es subs stores.

Lemma e_sub j e : nth_error es j = Some e -> exists s, nth_error subs j = Some s.
Proof. apply nth_same_len, (e_len H). Qed.
Lemma e_ent j s : nth_error subs j = Some s -> exists e, nth_error es j = Some e.
Proof. apply nth_same_len. symmetry. apply (e_len H). Qed.
Lemma e_slot j e s : nth_error es j = Some e -> nth_error subs j = Some s -> nth_error su j = Some (slot e s).
Proof. intros He Hs. rewrite (e_su H), nth_error_map, (nth_combine _ _ _ _ _ He Hs). reflexivity. Qed.
Lemma e_none j : nth_error subs j = None -> nth_error su j = None.
Proof.
  intros N. apply nth_error_None. apply nth_error_None in N. rewrite (e_su H), map_length, combine_length. lia.
Qed.
Lemma e_some : some_entry su = existsb Client.su_live subs.
Proof.
  rewrite (e_su H). pose proof (e_len H) as L. clear H. revert subs L. induction es as [|e l IH]; intros [|s m] L; cbn in L; try discriminate; [reflexivity|].
  specialize (IH m ltac:(lia)). unfold some_entry, entries in *. cbn. unfold slot at 1. destruct (Client.su_live s); cbn; [reflexivity|exact IH].
Qed.
End Ent.

Lemma clo_fun i e : same_fun i (Some (clo e)) = Nat.eqb i (eid e).
Proof. destruct e; reflexivity. Qed.
Lemma remove_nth es : forall (subs : list sub) j e, NoDup (map eid es) -> nth_error es j = Some e ->
  let su := map (fun x => slot (fst x) (snd x)) (combine es subs) in
  remove (eid e) su = upd j (fun _ => None) su.
Proof.
  induction es as [|a l IH]; intros subs j e Nd Hj; [now destruct j|]. destruct subs as [|s m]; [now destruct j|]. cbn in Nd. inversion Nd as [|? ? N1 N2]; subst.
  assert (S : forall i e0 s0, i <> eid e0 -> same_fun i (slot e0 s0) = false).
  { intros i e0 s0 N. unfold slot. destruct (Client.su_live s0); [|reflexivity]. rewrite clo_fun. now apply Nat.eqb_neq. }
  destruct j as [|j]; cbn in Hj.
  - injection Hj as ->. cbn. f_equal.
    + unfold slot. destruct (Client.su_live s); [|reflexivity]. now rewrite clo_fun, Nat.eqb_refl.
    + clear - N1 S. unfold remove. revert m N1. induction l as [|b l IH]; intros m N1; [reflexivity|]. destruct m as [|s' m]; [reflexivity|]. cbn in *.
      rewrite S by (intros E; apply N1; now left). f_equal. apply IH. intros I. apply N1. now right.
  - cbn. rewrite S; [f_equal; now apply IH|]. intros E. apply N1. rewrite <- E. apply in_map. now apply nth_error_In in Hj.
Qed.
Lemma e_remove h rest fr t us su es subs stores j e : EInv h rest fr t us su es subs stores -> nth_error es j = Some e ->
  remove (eid e) su = upd j (fun _ => None) su.
Proof. intros H Hj. rewrite (e_su H). apply remove_nth; [exact (e_nd H)|exact Hj]. Qed.

(** ** Listeners *)
Definition listeners_from (a : nat) (subs : list sub) : list nat :=
  map fst (filter (fun x => negb (Client.su_req (snd x))) (combine (seq a (List.length subs)) subs)).
Definition kind (e : entry) (s : sub) : Prop := Client.su_req s = match e with EReq _ => true | EHear _ => false end.
Lemma e_kind h rest fr t us su es subs stores : EInv h rest fr t us su es subs stores -> Forall2 kind es subs.
Proof.
  intros H. assert (K : forall j e s, nth_error es j = Some e -> nth_error subs j = Some s -> kind e s).
  { intros j e s He Hs. pose proof (e_ok H j e s He Hs) as O. destruct e; cbn in O; [exact (r_req _ _ _ _ _ _ O)|exact (li_req _ _ _ _ O)]. }
  pose proof (e_len H) as L. clear H. revert subs K L. induction es as [|e l IH]; intros [|s m] K L; cbn in L; try discriminate; constructor; [now apply (K 0)|].
  apply IH; [|lia]. intros j e0 s0 He Hs. now apply (K (S j)).
Qed.
Lemma hears_nth es subs : Forall2 kind es subs -> forall a j,
  match nth_error (e_unls es) j with
  | Some v => exists i l s, nth_error es i = Some (EHear l) /\ nth_error subs i = Some s /\ Client.su_req s = false /\
      nth_error (listeners_from a subs) j = Some (a + i) /\ v = f_unsub (l_i l) (2 + (l_h l + 1)) /\ nth_error (e_nums es) j = Some (l_u l)
  | None => nth_error (listeners_from a subs) j = None
  end.
Proof.
  induction 1 as [|e s es subs K F IH]; intros a j; [destruct j; reflexivity|]. unfold listeners_from. cbn [List.length seq combine filter snd]. unfold kind in K. destruct e as [q|l].
  - rewrite K. cbn [negb e_unls flat_map app]. specialize (IH (S a) j). change (flat_map _ es) with (e_unls es). destruct (nth_error (e_unls es) j) as [v|].
    + destruct IH as (i & l & s0 & A1 & A2 & A3 & A4 & A5 & A6). exists (S i), l, s0. repeat split; try assumption. rewrite Nat.add_succ_r. exact A4.
    + exact IH.
  - rewrite K. cbn [negb e_unls flat_map app map fst]. destruct j as [|j]; cbn [nth_error].
    + exists 0, l, s. rewrite Nat.add_0_r. repeat split; assumption.
    + specialize (IH (S a) j). change (flat_map _ es) with (e_unls es). destruct (nth_error (e_unls es) j) as [v|].
      * destruct IH as (i & l' & s0 & A1 & A2 & A3 & A4 & A5 & A6). exists (S i), l', s0. repeat split; try assumption. rewrite Nat.add_succ_r. exact A4.
      * exact IH.
Qed.
Lemma proms_nth es : forall k,
  match nth_error (e_proms es) k with
  | Some v => exists j q, nth_error es j = Some (EReq q) /\ v = VProm (q_p q)
  | None => True
  end.
Proof.
  induction es as [|e es IH]; intros k; [now destruct k|]. destruct e as [q|l]; cbn [e_proms flat_map app].
  - destruct k as [|k]; cbn [nth_error]; [now exists 0, q|]. specialize (IH k). change (flat_map _ es) with (e_proms es). destruct (nth_error (e_proms es) k); [|exact I].
    destruct IH as (j & q' & A & B). now exists (S j), q'.
  - specialize (IH k). change (flat_map _ es) with (e_proms es). destruct (nth_error (e_proms es) k); [|exact I].
    destruct IH as (j & q' & A & B). now exists (S j), q'.
Qed.
Lemma nums_in es i l : nth_error es i = Some (EHear l) -> In (l_u l) (e_nums es).
Proof. intros N. apply in_flat_map. exists (EHear l). split; [now apply nth_error_In in N|now left]. Qed.
Lemma nums_apart es : NoDup (e_nums es) -> forall i j l m, nth_error es i = Some (EHear l) -> nth_error es j = Some (EHear m) -> i <> j -> l_u l <> l_u m.
Proof.
  induction es as [|e es IH]; intros Nd i j l m Hi Hj N; [now destruct i|].
  assert (Nd' : NoDup (e_nums es)) by (destruct e; cbn in Nd; [exact Nd|now inversion Nd]).
  destruct i as [|i], j as [|j]; cbn in Hi, Hj; try congruence.
  - injection Hi as ->. cbn in Nd. inversion Nd; subst. intros E. apply H1. rewrite E. eapply nums_in, Hj.
  - injection Hj as ->. cbn in Nd. inversion Nd; subst. intros E. apply H1. rewrite <- E. eapply nums_in, Hi.
  - apply (IH Nd' i j); congruence.
Qed.
Lemma e_lis h rest g fr fr' t us us' su es subs stores j l s s' : EInv h rest fr t us su es subs stores ->
  nth_error es j = Some (EHear l) -> nth_error subs j = Some s -> fr <= fr' -> lis_ok (rest ++ g) us' l s' ->
  us_proms us' = us_proms us -> us_stores us' = us_stores us -> us_unls us' = us_unls us ->
  (forall u, u <> l_u l -> heard_by u us' = heard_by u us) -> Forall (fun x => fst x < List.length (us_unls us)) (us_heard us') ->
  EInv h (rest ++ g) fr' t us' (upd j (fun _ => slot (EHear l) s') su) es (upd j (fun _ => s') subs) stores.
Proof.
  intros H Hl Hs L R U1 U2 U3 U4 U5. pose proof H as [A1 A2 A3 A4 A5 A6 A7 A8 A9 A10 A11]. constructor.
  - now rewrite upd_length.
  - intros i e s0 He Hs0. rewrite nth_upd in Hs0. destruct (Nat.eqb_spec j i) as [<-|N].
    + rewrite Hl in He. rewrite Hs in Hs0. injection He as <-. injection Hs0 as <-. exact R.
    + specialize (A2 i e s0 He Hs0). destruct e as [q|m]; cbn in *.
      * eapply (req_mono (fun _ => True)); [now intros|apply keeps_refl|reflexivity|reflexivity|exact A2].
      * apply lis_mono with us; [|exact A2]. apply U4. apply nums_apart with (es := es) (i := i) (j := j); try assumption; [|congruence]. rewrite A9. apply seq_NoDup.
  - rewrite <- (upd_nth_same j es _ Hl) at 1. rewrite combine_upd. subst su. symmetry. apply map_upd. reflexivity.
  - exact A4.
  - eapply Forall_impl; [|exact A5]. cbn. intros. lia.
  - exact A6.
  - now rewrite U1.
  - now rewrite U3.
  - now rewrite U3.
  - now rewrite U3.
  - rewrite U2. now apply stores_mono.
Qed.
