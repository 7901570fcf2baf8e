(** Code of the user.  Proof side. *)
From Coq Require Import List String Ascii Bool Arith NArith ZArith Lia.
From Verif Require Import Util Js JsonText Wire TsProgram FileProofs ClientSpec JsSem JsRun JsFun JsSend JsCalls JsRequest JsEvents JsHeap JsNet JsFlush JsSpec JsWorld JsStep JsEntries JsActs JsListen.
From Verif Require Client ClientSockProofs.
Import ListNotations.
Local Open Scope string_scope.
Local Open Scope list_scope.

Section Code.
Context (lit : num -> jstr) (num : jstr -> num) (other : jsval -> N -> bool).
Local Notation call := (call lit num other).
Local Notation act := (act lit num other).
Local Notation acts := (acts lit num other).
Local Notation user := (user lit num other).
Local Notation cnext := (Client.cnext (js_enc lit) (js_read num) (js_same other)).
Local Notation act_next := (act_next lit num other).
Local Notation acts_next := (acts_next lit num other).
Local Notation acted := (acted lit num other).

Lemma user_disp (c c' : client) : Client.cl_disp c' = Client.cl_disp c -> Client.user c' = Client.user c.
Proof. intros E. unfold Client.user. now rewrite E. Qed.
Lemma acts_nil n s : acts (S n) [] s = Ok tt s.
Proof. reflexivity. Qed.
Lemma acts_cons n a l s : acts (S n) (a :: l) s = then_ok (act n a s) (fun _ => acts (S n) l).
Proof. reflexivity. Qed.
Lemma user_S n s : user (S n) s = (let! x := next_script in acts n (sc_acts x);; if sc_throw x then throw "Error" else ret VUndef) s.
Proof. reflexivity. Qed.

Record ran (k : nat) (d : world) (c : client) (d' : world) (c' : client) : Prop := {
  ra_inv : Inv d' c';
  ra_scripts : us_scripts (d_us d') = us_scripts (d_us d);
  ra_iv : d_iv d' = d_iv d;
  ra_work : work d' <= work d + 2 * k;
  ra_disp : Client.cl_disp c' = Client.cl_disp c;
  ra_es : List.length (d_es d') <= k + List.length (d_es d);
  ra_rest : exists g, d_rest d' = d_rest d ++ g
}.
Lemma acts_ok l : forall d c, Inv d c -> Client.user c = true ->
  exists d', (forall n, acts (131 + n) l (conc d) = Ok tt (conc d')) /\ ran (List.length l) d c d' (acts_next c l).
Proof.
  induction l as [|a l IH]; intros d c H U.
  - exists d. split; [intros n; apply acts_nil|]. constructor; try reflexivity; [exact H|lia|]. exists []. now rewrite app_nil_r.
  - destruct (a_any lit num other d c a H U) as [d1 [A1 A2 A3 A4 A5 A6 A7 (g1 & A8)]].
    destruct (IH d1 (act_next c a) A2) as (d2 & R2 & [B1 B2 B3 B4 B5 B6 (g2 & B7)]); [rewrite <- U; apply (user_disp c _ A6)|].
    exists d2. split.
    2:{ constructor; cbn [List.length]; [exact B1|congruence|congruence|lia| |lia|exists (g1 ++ g2); now rewrite B7, A8, app_assoc].
        rewrite <- A6. exact B5. }
    intros n. change (131 + n) with (S (130 + n)). rewrite acts_cons, A1. cbn [then_ok]. exact (R2 n).
Qed.

Definition d_users (us : users) (d : world) : world :=
  mkD (d_id d) (d_iv d) (d_so d) (d_op d) (d_th d) (d_cnt d) (d_rest d) (d_fr d) (d_h d) (d_sk d) (d_su d) (d_tm d) (d_t d) us (d_sp d) (d_ln d) (d_es d).
Lemma scripts_inv d c sc : Inv d c -> Inv (d_users (us_set_scripts sc (d_us d)) d) c.
Proof. intros H. constructor; unfold d_users; fields; try apply H. eapply e_users; [..|exact (v_ent H)]; reflexivity. Qed.

Definition left (d : world) : list script := us_scripts (d_us d).
Lemma user_ok d c : Inv d c -> Client.user c = true -> let x := fst (pop (left d)) in
  exists d', (forall n, user (132 + n) (conc d) = if sc_throw x then Throw (VErr "Error") (conc d') else Ok VUndef (conc d')) /\
    Inv d' (acts_next c (sc_acts x)) /\ left d' = snd (pop (left d)) /\ d_iv d' = d_iv d /\ work d' <= work d /\
    Client.cl_disp (acts_next c (sc_acts x)) = Client.cl_disp c /\
    List.length (d_es d') + sum (map sc_work (left d')) <= List.length (d_es d) + sum (map sc_work (left d)) /\ (exists g, d_rest d' = d_rest d ++ g).
Proof.
  intros H U x. unfold left in *.
  set (d1 := d_users (us_set_scripts (snd (pop (us_scripts (d_us d)))) (d_us d)) d).
  assert (H1 : Inv d1 c) by (apply scripts_inv, H).
  destruct (acts_ok (sc_acts x) d1 c H1 U) as (d2 & R & [B1 B2 B3 B4 B5 B6 (g & B7)]).
  assert (W : sum (map sc_work (us_scripts (d_us d))) = sum (map sc_work (snd (pop (us_scripts (d_us d))))) + 2 * List.length (sc_acts x)).
  { unfold x. destruct (us_scripts (d_us d)) as [|y r]; cbn [pop fst snd map sum sc_acts List.length]; [reflexivity|]. change (sc_work y) with (2 * List.length (sc_acts y)). lia. }
  assert (E : next_script (conc d) = Ok x (conc d1)).
  { unfold next_script, x, d1. change (us_scripts (st_user (conc d))) with (us_scripts (d_us d)). destruct (us_scripts (d_us d)) eqn:Es; [|reflexivity].
    cbn [pop fst snd]. unfold conc, d_users. fields. f_equal. f_equal. rewrite <- Es. now destruct (d_us d). }
  exists d2. split; [|split; [exact B1|]; split; [|split; [|split; [|split; [|split]]]]].
  - intros n. change (132 + n) with (S (131 + n)).
    rewrite user_S. unfold bind, attempt. rewrite E. rewrite R. destruct (sc_throw x); reflexivity.
  - rewrite B2. reflexivity.
  - rewrite B3. reflexivity.
  - unfold work in *. change (d_es d1) with (d_es d) in B4. change (d_t d1) with (d_t d) in B4. change (us_scripts (d_us d1)) with (snd (pop (us_scripts (d_us d)))) in B4. lia.
  - exact B5.
  - rewrite B2. change (us_scripts (d_us d1)) with (snd (pop (us_scripts (d_us d)))). change (d_es d1) with (d_es d) in B6. lia.
  - exists g. exact B7.
Qed.
End Code.
