(** Streams of a backend: the texts are those of E2EText.v. *)
From Coq Require Import List String Arith NArith ZArith Bool Lia.
From Verif Require Import Util Js JsonText JsonTextSpec JsonTextProofs RustTy ZodSpec Serde Registry Macro Server ServerSpec Wire WireSpec WireProofs Pump Client ClientSpec E2E E2ESpec E2EStreamSpec.
From Verif Require Import E2EText E2EProofs E2ESafe E2ELive E2EWire E2EStream E2EStreamLive.
Import ListNotations.
Local Open Scope string_scope.
Local Open Scope list_scope.

Lemma nth_ext' {X} n (x x' : X) st st' : nth_error st n = Some x -> nth_error st' n = Some x' -> List.length st' = List.length st ->
  (forall m, m <> n -> nth_error st' m = nth_error st m) -> upd n (fun _ => x') st = st'.
Proof.
  revert n st'. induction st as [|y st IH]; intros [|n] [|y' st'] H1 H2 H3 H4; try discriminate; cbn.
  - injection H2 as <-. f_equal.
    assert (E : forall m, nth_error st' m = nth_error st m) by (intros m; apply (H4 (S m)); discriminate).
    clear - E. revert st' E. induction st as [|y st IH]; intros [|y' st'] E; auto; try (specialize (E 0); discriminate).
    pose proof (E 0) as E0. injection E0 as ->. f_equal. apply IH. intros m. apply (E (S m)).
  - pose proof (H4 0 ltac:(discriminate)) as E0. injection E0 as ->. f_equal. apply IH; auto.
    intros m N. apply (H4 (S m)). congruence.
Qed.

Section E2EStreamWire.
Context {T V F : Type} (S : setting T V F).
Hypothesis (Lit : faithful (s_lit S) (s_num S)) (Lit' : faithful (s_lit' S) (s_num S)).
Local Notation A := (rpc S).
Local Notation dec := (s_dec S).
Local Notation float := (s_float S).
Local Notation unit_map := (s_unit S).
Local Notation B := (s_backend S).
Local Notation H := (s_methods S).
Local Notation call_text := (call_text S).
Local Notation read_text := (read_text S).
Local Notation same_id := (same_id S).
Local Notation from_text := (from_text S).
Local Notation to_text := (to_text S).
Local Notation reach := (wreachable call_text read_text same_id from_text to_text).
Local Notation step := (wnext call_text read_text same_id from_text to_text).
Local Notation steps := (wrun call_text read_text same_id from_text to_text).
Local Notation time := (at_time call_text read_text same_id from_text to_text).
Local Notation world := (world jstr jsval jsval A).
Local Notation call_value := (call_value S).
Local Notation data := (received_as double).

(** Item [k] of field [n] has been called once with the arguments [vs], on the value of the field
    that the messages before have left; [tk] is the stream that was made. *)
Definition stream_made (a : St A) (w : world) (id : N) (n k : nat) (vs : list V) (tk : task A) : Prop :=
  exists c v before after q st' x x',
    st_sent (p_srv (w_sv w)) = before ++ (c, inl (Exec (A := A) id v)) :: after /\ is_ours w c /\
    (forall i, is_call w id i -> i = List.length before) /\
    seq_run (seq_init a) before = Some q /\
    h_stream H n k x vs = Some x' /\ only_field n x x' (q_app q) st' /\
    (exists q', seq_run (seq_init a) (before ++ [(c, inl (Exec (A := A) id v))]) = Some q' /\ q_app q' = st') /\
    nth_error (st_tasks (p_srv (w_sv w))) (List.length (q_starts q)) = Some tk /\ tk_conn tk = c /\ tk_id tk = id.

Lemma streams_made a w id v n k vs tk : streams (A := A) a w id v (mkCall n k vs) tk -> stream_made a w id n k vs tk.
Proof.
  intros (c & before & after & q & a' & E1 & E2 & E3 & E4 & E5 & E6 & E7 & E8 & E9).
  cbn in E4. destruct (nth_error (q_app q) n) as [x|] eqn:Ex; [|discriminate].
  destruct (h_stream H n k x vs) as [x'|] eqn:Eh; [|discriminate]. injection E4 as <-.
  exists c, v, before, after, q, (upd n (fun _ => x') (q_app q)), x, x'.
  split; [exact E1|]. split; [exact E2|]. split; [exact E9|]. split; [exact E3|]. split; [exact Eh|]. split; [now apply only_field_upd|]. auto.
Qed.
Lemma made_streams a w id n k vs tk : stream_made a w id n k vs tk -> exists c v, In (c, inl (Exec (A := A) id v)) (st_sent (p_srv (w_sv w))) /\ is_ours w c /\
  streams (A := A) a w id v (mkCall n k vs) tk.
Proof.
  intros (c & v & before & after & q & st' & x & x' & E1 & E2 & E3 & E4 & E5 & (F1 & F2 & F3 & F4) & E7 & E8 & E9 & E10).
  exists c, v. split; [rewrite E1; apply in_app_iff; right; now left|]. split; [exact E2|].
  exists c, before, after, q, st'. split; [exact E1|]. split; [exact E2|]. split; [exact E4|]. split; [|auto 10].
  cbn. rewrite F1, E5. f_equal. apply nth_ext' with (n := n) (x := x) (x' := x'); auto.
Qed.

Lemma wire_reads : understand call_text read_text same_id from_text to_text call_value data.
Proof. now apply wire_understand. Qed.

(** Nothing is heard of a call that names no item. *)
Lemma wire_unheard a w0 ns m args es j s : reach a w0 -> user (w_cl w0) = true ->
  read_call dec unit_map B (call_value (ns, m, args)) = None ->
  let w := steps (step w0 (WClient (UStream (ns, m, args)))) es in
  countable (w_cl w) -> nth_error (cl_subs (w_cl w)) j = Some s -> su_id s = bump (cl_id (w_cl w0)) -> su_seen s = [].
Proof.
  intros Hr0 Hu Ha w Hc E Ei.
  pose proof (next_cid S a w0 Hr0) as Ci.
  apply (stream_unread _ _ _ _ _ _ _ wire_reads a w0 (ns, m, args) _ es (s_complain S (call_value (ns, m, args))) j s Hr0 Hu (call_doc S _ ns m args Ci)); auto.
  change (from_value A ?v) with (match read_call dec unit_map B v with Some c => inl c | None => inr (s_complain S v) end). now rewrite Ha.
Qed.

(** The client never cancels a stream. *)
Lemma wire_no_cancel a w c id : reach a w -> is_ours w c -> ~ In (c, inl (CancelStream (A := A) id)) (st_sent (p_srv (w_sv w))).
Proof.
  intros Hr Ho Hin. destruct (ours_exec _ _ _ _ _ _ _ wire_reads a w c _ Hr Ho Hin) as [(id' & t' & r' & _ & _ & _ & X & _)|(e & X)]; discriminate.
Qed.

Section Call.
Context (n k : nat) (f : bfield T) (i : item T) (args : list jsval).
Context (a : St A) (w0 : world).
Let id := bump (cl_id (w_cl w0)).
Let j := List.length (cl_subs (w_cl w0)).
Let r : rcall := (bf_name f, it_ident i, args).
Let w2 := step (step w0 (WClient (UStream r))) (WClient (UListen (List.length (cl_stores (w_cl w0))))).
Hypothesis (Hdis : distinct B) (Hit : has_item B n k f i).
Hypothesis (Hns : bf_name f = unraw (variant_ident f)) (Hid : it_ident i = unraw (it_ident i)).
Hypothesis (Hr0 : reach a w0) (Hu : user (w_cl w0) = true).
Hypothesis Hargs : Forall js_value args.
Let vals : list json := map (fun a => to_value float (stringify_elem a)) args.

Lemma call_stream c : it_kind i = Stream -> c_field c = n -> c_item c = k -> is_stream A c = true.
Proof.
  intros Hk E1 E2. cbn. unfold item_at. destruct Hit as [E3 E4]. rewrite E1, E2, E3, E4, Hk. reflexivity.
Qed.

(** A listener hears what the function of the call has made. *)
Lemma wire_heard es : it_args i <> [] -> it_kind i = Stream -> let w := steps w2 es in countable (w_cl w) ->
  exists s, nth_error (cl_subs (w_cl w)) j = Some s /\
    (su_seen s = [] \/
     exists vs tk heard after, decoded dec (map snd (it_args i)) vals vs /\ stream_made a w id n k vs tk /\
       values (A := A) data tk = heard ++ after /\ thinned heard (su_seen s) /\ (no_throws (w_cl w) -> heard = su_seen s)).
Proof.
  intros Ha Hk w Hc.
  pose proof (next_cid S a w0 Hr0) as Ci. fold id in Ci.
  pose proof (call_doc S id (bf_name f) (it_ident i) args Ci) as Ed.
  destruct (listened _ _ _ _ _ _ _ wire_reads a w0 r _ es Hr0 Hu Ed Hc) as (s & E & Ei & _). fold w in E.
  exists s. split; [exact E|].
  destruct (read_call dec unit_map B (call_value r)) as [[n' k' vs]|] eqn:Er.
  2:{ left. exact (wire_unheard a w0 _ _ args (_ :: es) j s Hr0 Hu Er Hc E Ei). }
  assert (Ef : from_value A (call_value r) = inl (mkCall n' k' vs)).
  { change (from_value A ?v) with (match read_call dec unit_map B v with Some c => inl c | None => inr (s_complain S v) end). now rewrite Er. }
  pose proof Ef as Ef'. apply (call_names S n k f i args Hdis Hit Hns Hid Hargs _ Ha) in Ef' as (Q1 & Q2 & Q3). cbn in Q1, Q2, Q3. subst n' k'.
  destruct (stream_listened _ _ _ _ _ _ _ wire_reads a w0 r _ es (mkCall n k vs) Hr0 Hu Ed Ef) as (s' & E' & _ & X); auto.
  { now apply call_stream. }
  fold w in E'. assert (s' = s) as -> by congruence. destruct X as [X|(tk & heard & after & X1 & X2 & X3 & X4)]; [now left|]. right.
  exists vs, tk, heard, after. split; [exact Q3|]. rewrite Ei in X1. apply streams_made in X1. auto.
Qed.

(** Everything the function of the call makes is heard. *)
Lemma wire_flows m sigma vs : it_args i <> [] -> it_kind i = Stream ->
  (forall doc, sent_doc id f i args doc -> fine doc) -> decoded dec (map snd (it_args i)) vals vs ->
  fair call_text read_text same_id from_text to_text w2 sigma m ->
  (forall x, lives (time w2 sigma x) m /\ countable (w_cl (time w2 sigma x)) /\ no_throws (w_cl (time w2 sigma x)) /\
    forall s, nth_error (cl_subs (w_cl (time w2 sigma x))) j = Some s -> su_live s = true) ->
  (exists x tk, stream_made a (time w2 sigma x) id n k vs tk) /\
  forall x tk q d, stream_made a (time w2 sigma x) id n k vs tk -> nth_error (values (A := A) data tk) q = Some d ->
    exists y s, x <= y /\ nth_error (cl_subs (w_cl (time w2 sigma y))) j = Some s /\ nth_error (su_seen s) q = Some d.
Proof.
  intros Ha Hk Fi De Fa Lv.
  pose proof (next_cid S a w0 Hr0) as Ci. fold id in Ci.
  destruct (stream_flows (A := A) _ _ _ _ _ _ _ wire_reads a w0 r _ (mkCall n k vs) m sigma Hr0 Hu (call_doc S id (bf_name f) (it_ident i) args Ci))
    as ((x & tk & Sm) & G); auto.
  - apply from_exec; [exact Lit | exact Ci|]. rewrite (js_values_real args Hargs). apply Fi. exact (client_doc _ _ _ _ Ci).
  - now apply (call_names S n k f i args Hdis Hit Hns Hid Hargs).
  - now apply call_stream.
  - split; [exists x, tk; now apply streams_made in Sm|]. intros y tk' q d S' E. apply made_streams in S' as (c & v & Hin & Ho & S').
    assert (Lw := Lv y). destruct Lw as (_ & Co & _).
    assert (v = call_value r) as ->; [|exact (G y tk' q d S' E)].
    rewrite at_time_run in Co, Hin, Ho.
    assert (Hw2 : reach a w2) by (apply wreach_next; now apply wreach_next).
    pose proof (call_doc S id (bf_name f) (it_ident i) args Ci) as Ed.
    pose proof (wcount_run _ _ _ _ _ _ _ Co) as Co2.
    pose proof (wcount_back _ _ _ _ _ _ _ Co2) as Co1.
    destruct (parts _ _ _ _ _ a w0 Hr0) as [Hcl0 _].
    refine (own_value _ _ _ _ _ _ _ wire_reads a _ c id r _ v _ Ho _ _ Ed Hin).
    + now apply wreach_run.
    + apply (own_wrun _ _ _ _ _ a); auto. apply (own_wnext _ _ _ _ _ a); auto; [now apply wreach_next|]. now apply own_stream.
    + split; [|exact Ci]. unfold id, bump. destruct (N.ltb_spec (cl_id (w_cl w0)) (2 ^ 53)); lia.
Qed.
End Call.

(** The text of a cancel. *)
Lemma cancel_text t id : (id < 2 ^ 64)%N ->
  json_text (s_num S) t (JObj [(js "cancelStream", JObj [(js "id", JInt (Z.of_N id))])]) -> from_text t = inl (CancelStream (A := A) id).
Proof.
  intros Hid Ht. apply parse_iff in Ht. unfold E2EText.from_text. rewrite Ht.
  assert (E : readable_num (NInt (Z.of_N id)) = true).
  { unfold readable_num. apply Z.ltb_lt. rewrite Z.abs_eq by lia. eapply Z.lt_trans with (2 ^ 64)%Z; [lia|reflexivity]. }
  assert (E' : in_int Usize (Z.of_N id) = true).
  { unfold in_int. apply andb_true_intro. split; apply Z.leb_le; [apply N2Z.is_nonneg|]. change (ZodSpec.int_max Usize) with (2 ^ 64 - 1)%Z. lia. }
  unfold from_str. cbn [readable forallb fst snd]. rewrite E. cbn. rewrite E'. now rewrite N2Z.id.
Qed.
End E2EStreamWire.
