(** Client and server of a backend: the texts are those of E2EText.v. *)
From Coq Require Import List String Arith NArith ZArith Bool Lia.
From Verif Require Import Util Js JsonText JsonTextSpec JsonTextProofs Serde Registry Macro Server ServerSpec Wire WireSpec WireProofs Pump Client ClientSpec E2E E2ESpec E2EText.
From Verif Require Import E2EProofs E2ESafe E2ESettle.
Import ListNotations.
Local Open Scope string_scope.
Local Open Scope list_scope.

(** ** Values that are none: numbers that are no doubles are written as [null]. *)
Fixpoint real (v : jsval) : jsval :=
  match v with
  | JsNum (NInt z) => if Z.ltb (Z.abs z) (10 ^ 21) || double (NInt z) then v else JsNull
  | JsNum (NFrac m e) => if double (NFrac m e) then v else JsNull
  | JsArr l => JsArr (map real l)
  | JsObj l => JsObj (map (fun p => (fst p, real (snd p))) l)
  | _ => v
  end.

Lemma jsval_nested (P : jsval -> Prop) : P JsUndef -> P JsNull -> (forall b, P (JsBool b)) -> (forall n, P (JsNum n)) -> (forall s, P (JsStr s)) ->
  (forall l, Forall P l -> P (JsArr l)) -> (forall l, Forall (fun p => P (snd p)) l -> P (JsObj l)) -> (forall l, P (JsMap l)) -> (forall l, P (JsSet l)) -> P JsFun ->
  forall v, P v.
Proof.
  intros H1 H2 H3 H4 H5 H6 H7 H8 H9 H10. fix IH 1. intros [| |b|n|s|l|l|l|l|]; [exact H1 | exact H2 | apply H3 | apply H4 | apply H5 | | | apply H8 | apply H9 | exact H10].
  - apply H6. induction l as [|v l IHl]; constructor; [apply IH | exact IHl].
  - apply H7. induction l as [|[k v] l IHl]; constructor; [apply IH | exact IHl].
Qed.

Lemma stringify_real v : stringify (real v) = option_map (written double) (stringify v).
Proof.
  induction v as [| |b|n|s|l IH|l IH|l|l|] using jsval_nested; try reflexivity.
  - destruct n as [z|m e| | |]; try reflexivity; cbn [real].
    + destruct (Z.ltb (Z.abs z) (10 ^ 21)) eqn:E; cbn [orb].
      * cbn [stringify option_map]. rewrite E. reflexivity.
      * destruct (double (NInt z)) eqn:Ed; cbn [stringify option_map]; rewrite ?E; cbn [written]; now rewrite Ed.
    + destruct (double (NFrac m e)) eqn:Ed; cbn [stringify option_map written]; now rewrite Ed.
  - cbn [real stringify option_map written]. do 2 f_equal. rewrite !map_map. induction IH as [|v l Hv _ IHl]; [reflexivity|]. cbn [map].
    rewrite IHl, Hv. f_equal. now destruct (stringify v).
  - cbn [real stringify option_map written]. do 2 f_equal. induction IH as [|p l Hv _ IHl]; [reflexivity|]. cbn [map flat_map fst snd].
    rewrite IHl, Hv, map_app. f_equal. now destruct (stringify (snd p)).
Qed.

Lemma js_value_real v : js_value v -> real v = v.
Proof.
  induction v as [| |b|n|s|l IH|l IH|l|l|] using jsval_nested; intros H; try reflexivity.
  - inversion H as [| | |n' [Hd|Hn] E| | | | | |]; subst n'.
    + apply double_iff in Hd. destruct n; try reflexivity; cbn [real]; rewrite Hd; rewrite ?orb_true_r; reflexivity.
    + destruct Hn as [<-|[<-|[<-|[]]]]; reflexivity.
  - cbn [real]. f_equal. inversion H as [| | | | |l' Hl E| | | |]; subst l'. clear H. induction IH as [|v l Hv _ IHl]; [reflexivity|]. inversion Hl; subst. cbn [map]. f_equal; auto.
  - cbn [real]. f_equal. inversion H as [| | | | | |l' Hl E| | |]; subst l'. clear H. induction IH as [|[k v] l Hv _ IHl]; [reflexivity|]. inversion Hl; subst. cbn [map fst snd] in *. f_equal; [f_equal; auto | auto].
Qed.
Lemma js_values_real args : Forall js_value args -> map real args = args.
Proof. induction 1 as [|v l Hv _ IH]; [reflexivity|]. cbn. now rewrite IH, (js_value_real v Hv). Qed.

Section E2EWire.
Context {T V F : Type} (S : setting T V F).
Hypothesis (Lit : faithful (s_lit S) (s_num S)) (Lit' : faithful (s_lit' S) (s_num S)).
Local Notation A := (rpc S).
Local Notation dec := (s_dec S).
Local Notation float := (s_float S).
Local Notation unit_map := (s_unit S).
Local Notation B := (s_backend S).
Local Notation H := (s_methods S).
Local Notation call_text := (call_text S).
Local Notation read_text := (read_text S).
Local Notation same_id := (same_id S).
Local Notation from_text := (from_text S).
Local Notation to_text := (to_text S).

(** The value the server gets of a call. *)
Definition call_value (r : rcall) : json := let '(ns, m, args) := r in exec_value float ns m (map real args).

Lemma call_doc id ns m args : client_id id -> call_text id (ns, m, args) = Some (print (s_lit S) (exec_doc id ns m args)).
Proof. intros Hid. unfold E2EText.call_text. now rewrite (client_doc id ns m args Hid). Qed.
Lemma call_parse id ns m args : client_id id -> parse (s_num S) (print (s_lit S) (exec_doc id ns m args)) = Some (exec_doc id ns m (map real args)).
Proof.
  intros Hid. rewrite (parse_print _ _ Lit). unfold exec_doc. cbn [written map fst snd]. do 8 f_equal. rewrite !map_map. do 3 f_equal. apply map_ext.
  intros v. unfold stringify_elem. rewrite stringify_real. now destruct (stringify v).
Qed.

Lemma same_js_id id id' : same_id (js_id id) id' = N.eqb id id'.
Proof.
  unfold E2EText.same_id, js_id. destruct (N.eqb_spec id id') as [->|Hn]; [apply Z.eqb_refl|]. apply Z.eqb_neq. lia.
Qed.

Lemma from_exec id ns m args : client_id id -> fine (exec_doc id ns m (map real args)) ->
  from_text (print (s_lit S) (exec_doc id ns m args)) = inl (Exec (A := A) id (call_value (ns, m, args))).
Proof. intros Cid Fi. unfold E2EText.from_text. rewrite (call_parse id ns m args Cid), (from_str_exec float (s_seq S) id ns m _ Cid Fi). reflexivity. Qed.

(** The texts of responses: what they are tagged with. *)
Lemma response_texts id d o e :
  parse (s_num S) (to_text (RMethod id d)) = Some (JObj [(js "method", JObj [(js "id", JInt (Z.of_N id)); (js "data", written double d)])]) /\
  parse (s_num S) (to_text (RStream id d)) = Some (JObj [(js "stream", JObj [(js "id", JInt (Z.of_N id)); (js "data", written double d)])]) /\
  parse (s_num S) (to_text (RError o e)) =
    Some (JObj [(js "error", JObj [(js "id", match o with Some n => JInt (Z.of_N n) | None => JNull end); (js "data", JObj [(js "JsonError", JStr e)])])]).
Proof. unfold E2EText.to_text. rewrite !(parse_print _ _ Lit'). repeat split. now destruct o. Qed.

Lemma wire_understand : understand call_text read_text same_id from_text to_text call_value (received_as double).
Proof.
  constructor.
  - intros id [[ns m] args] t Hid E. assert (Cid : client_id id) by (unfold client_id; lia).
    rewrite (call_doc id ns m args Cid) in E. apply (f_equal (fun o => match o with Some x => x | None => t end)) in E. cbv beta iota in E. subst t.
    destruct (from_str float (s_seq S) (exec_doc id ns m (map real args))) as [q|] eqn:Ef.
    + assert (Fi : fine (exec_doc id ns m (map real args))).
      { unfold from_str in Ef. destruct (readable _ && Nat.leb _ _) eqn:Q; [|discriminate]. apply andb_prop in Q as [Q1 Q2].
        apply PeanoNat.Nat.leb_le in Q2. now split. }
      left. exact (from_exec id ns m args Cid Fi).
    + right. eexists. unfold E2EText.from_text. rewrite (call_parse id ns m args Cid). rewrite Ef. reflexivity.
  - intros id d Hid. exists (js_id id). split; [|intros id' _; apply same_js_id].
    unfold E2EText.read_text, E2EText.to_text. rewrite (parse_print _ _ Lit'). exact (method_understood id (written double d) Hid).
  - intros id d Hid. exists (js_id id). split; [|intros id' _; apply same_js_id].
    unfold E2EText.read_text, E2EText.to_text. rewrite (parse_print _ _ Lit'). exact (stream_understood id (written double d) Hid).
  - intros o e. unfold E2EText.read_text, E2EText.to_text. rewrite (parse_print _ _ Lit').
    replace (written double (write_response (WError o e))) with (write_response (WError o e)) by now destruct o. apply error_ignored.
Qed.

Local Notation reach := (wreachable call_text read_text same_id from_text to_text).
Local Notation step := (wnext call_text read_text same_id from_text to_text).
Local Notation steps := (wrun call_text read_text same_id from_text to_text).
Local Notation time := (at_time call_text read_text same_id from_text to_text).
Local Notation world := (world jstr jsval jsval A).

(** Item [k] of field [n] has been called once with the arguments [vs], on the value of the field
    that the messages before have left; [res] is the result. *)
Definition handler_ran (a : St A) (w : world) (id : N) (n k : nat) (vs : list V) (res : json + jstr) : Prop :=
  exists c v before after q st' x x',
    st_sent (p_srv (w_sv w)) = before ++ (c, inl (Exec (A := A) id v)) :: after /\ is_ours w c /\
    (forall i, is_call w id i -> i = List.length before) /\
    seq_run (seq_init a) before = Some q /\
    h_method H n k x vs = Some (x', res) /\ only_field n x x' (q_app q) st' /\
    exists q', seq_run (seq_init a) (before ++ [(c, inl (Exec (A := A) id v))]) = Some q' /\ q_app q' = st'.

Lemma ran_handler a w id v n k vs res : ran (A := A) a w id v (mkCall n k vs) res -> handler_ran a w id n k vs res.
Proof.
  intros (c & before & after & q & a' & E1 & E2 & E3 & E4 & (q' & E5 & E6) & E7).
  cbn in E4. destruct (nth_error (q_app q) n) as [x|] eqn:Ex; [|discriminate].
  destruct (h_method H n k x vs) as [[x' r]|] eqn:Eh; [|discriminate]. injection E4 as <- <-.
  exists c, v, before, after, q, (upd n (fun _ => x') (q_app q)), x, x'.
  split; [exact E1|]. split; [exact E2|]. split; [exact E7|]. split; [exact E3|]. split; [exact Eh|]. split; [now apply only_field_upd|].
  exists q'. auto.
Qed.

Lemma next_cid a w : reach a w -> client_id (bump (cl_id (w_cl w))).
Proof.
  intros Hr. destruct (parts _ _ _ _ _ a w Hr) as [Hcl _]. pose proof (id_small _ _ _ _ Hcl).
  unfold client_id, bump. destruct (N.ltb_spec (cl_id (w_cl w)) (2 ^ 53)); lia.
Qed.

(** A call that names no item is never settled. *)
Lemma wire_unsettled a w0 ns m args es d : reach a w0 -> user (w_cl w0) = true ->
  read_call dec unit_map B (call_value (ns, m, args)) = None ->
  let w := steps (step w0 (WClient (URequest (ns, m, args)))) es in
  countable (w_cl w) -> ~ settled w (List.length (cl_subs (w_cl w0))) d.
Proof.
  intros Hr0 Hu Ha w Hc Se.
  pose proof (next_cid a w0 Hr0) as Ci.
  assert (Hno : forall c, from_value A (call_value (ns, m, args)) <> inl c).
  { intros c E. change (from_value A ?v) with (match read_call dec unit_map B v with Some c => inl c | None => inr (s_complain S v) end) in E. rewrite Ha in E. discriminate. }
  destruct (settled_by_handler _ _ _ _ _ _ _ wire_understand a w0 (ns, m, args) _ es d Hr0 Hu (call_doc _ ns m args Ci)) as (_ & c & d0 & E & _); auto.
  - intros c E. now apply Hno in E.
  - now apply Hno in E.
Qed.

Section Call.
Context (n k : nat) (f : bfield T) (i : item T) (args : list jsval).
Context (a : St A) (w0 : world).
Let id := bump (cl_id (w_cl w0)).
Let j := List.length (cl_subs (w_cl w0)).
Let r : rcall := (bf_name f, it_ident i, args).
Let w1 := step w0 (WClient (URequest r)).
Hypothesis (Hdis : distinct B) (Hit : has_item B n k f i).
Hypothesis (Hns : bf_name f = unraw (variant_ident f)) (Hid : it_ident i = unraw (it_ident i)).
Hypothesis (Hr0 : reach a w0) (Hu : user (w_cl w0) = true).
Hypothesis Hargs : Forall js_value args.
Let vals : list json := map (fun a => to_value float (stringify_elem a)) args.

Lemma call_cid : client_id id.
Proof. exact (next_cid a w0 Hr0). Qed.

Lemma call_names c : it_args i <> [] -> from_value A (call_value r) = inl c <->
  c_field c = n /\ c_item c = k /\ decoded dec (map snd (it_args i)) vals (c_args c).
Proof.
  intros Ha. pose proof (exec_read dec float unit_map B n k f i args c Hdis Hit Hns Hid Ha) as X. eapply iff_trans; [|exact X]. clear X.
  change (from_value A ?v) with (match read_call dec unit_map B v with Some c => inl c | None => inr (s_complain S v) end). unfold r, call_value. rewrite (js_values_real args Hargs).
  destruct (read_call dec unit_map B (exec_value float (bf_name f) (it_ident i) args)) as [c'|]; split; intros [= ->]; reflexivity.
Qed.

Lemma call_method c : it_kind i = Method -> c_field c = n -> c_item c = k -> is_stream A c = false.
Proof.
  intros Hk E1 E2. cbn. unfold item_at. destruct Hit as [E3 E4]. rewrite E1, E2, E3, E4, Hk. reflexivity.
Qed.

(** The call is settled only by its handler. *)
Lemma wire_settled es d : it_args i <> [] -> it_kind i = Method -> let w := steps w1 es in countable (w_cl w) -> settled w j d ->
  exists vs d0, decoded dec (map snd (it_args i)) vals vs /\ d = received_as double d0 /\ handler_ran a w id n k vs (inl d0).
Proof.
  intros Ha Hk w Hc Se.
  destruct (settled_by_handler _ _ _ _ _ _ _ wire_understand a w0 r _ es d Hr0 Hu (call_doc id (bf_name f) (it_ident i) args call_cid))
    as (_ & [n' k' vs] & d0 & E1 & E2 & E3); auto.
  - intros c E. apply call_names in E as (E1 & E2 & _); [|exact Ha]. now apply call_method.
  - apply call_names in E1 as (Q1 & Q2 & Q3); [|exact Ha]. cbn in Q1, Q2, Q3. subst n' k'.
    exists vs, d0. split; [exact Q3|]. split; [exact E2|]. now apply ran_handler in E3.
Qed.

(** The call comes to its end. *)
Lemma wire_ends m sigma vs : it_args i <> [] -> it_kind i = Method ->
  (forall doc, sent_doc id f i args doc -> fine doc) -> decoded dec (map snd (it_args i)) vals vs ->
  fair call_text read_text same_id from_text to_text w1 sigma m ->
  (forall x, (forall y d, y < x -> ~ settled (time w1 sigma y) j d) -> lives (time w1 sigma x) m /\ countable (w_cl (time w1 sigma x))) ->
  exists x res, handler_ran a (time w1 sigma x) id n k vs res /\
    match res with inl d => settled (time w1 sigma x) j (received_as double d) | inr _ => True end.
Proof.
  intros Ha Hk Fi De Fa Lv.
  destruct (request_ends (A := A) _ _ _ _ _ _ _ wire_understand a w0 r _ (mkCall n k vs) m sigma Hr0 Hu (call_doc id (bf_name f) (it_ident i) args call_cid))
    as (x & res & E1 & E2); auto.
  - apply from_exec; [exact call_cid|]. rewrite (js_values_real args Hargs). apply Fi. exact (client_doc _ _ _ _ call_cid).
  - apply call_names; auto.
  - now apply call_method.
  - exists x, res. split; [now apply ran_handler in E1 | exact E2].
Qed.
End Call.
End E2EWire.
