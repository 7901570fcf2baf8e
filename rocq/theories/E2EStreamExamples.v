(** A stream of the backend of examples/axum and its listener. *)
From Coq Require Import List String Arith NArith ZArith Bool Lia.
From Verif Require Import Util Js JsonText JsonTextSpec JsonTextExamples RustTy Serde Registry Macro Server ServerSpec Wire WireSpec WireProofs WireExamples.
From Verif Require Import Pump Client ClientSpec E2E E2ESpec E2EStreamSpec E2EProofs E2ELive E2EText E2EWire E2EExamples E2EStreamWire.
Import ListNotations.
Local Open Scope string_scope.
Local Open Scope list_scope.
Local Notation ev := (wevent rcall jstr my_rpc).
Local Notation my_world := (world jstr jsval jsval my_rpc).

Definition flow_args : list jsval := [JsNum (NInt 7)].
Definition flow_call : rcall := ("Watchout", "hello_stream", flow_args).
Definition flow_world : my_world :=
  my_next (my_next my_world0 (WClient (UStream flow_call))) (WClient (UListen 0)).

(** The method of the other client, the stream with three items of which one is an error, its end; the
    three texts, the callback of the listener after the first and the last.  For ever again. *)
Definition flow_day : list ev :=
  [WAccept 0; WOpen 0; WUp 0; WServer (PServer EvRecv); WServer (PServer EvMethodDone); WServer (PServer EvRecv);
   WServer (PServer (EvPoll 0)); WServer (PServer (EvItem (A := my_rpc) 0 (inl (JInt 7)))); WServer (PServer (EvItem (A := my_rpc) 0 (inr (js "no"))));
   WServer (PServer (EvItem (A := my_rpc) 0 (inl (JInt 8)))); WServer (PServer (EvFinish 0));
   WServer (PTake 1); WServer (PWrote 1 true); WServer (PTake 1); WServer (PWrote 1 true); WServer (PTake 1); WServer (PWrote 1 true);
   WDown 0; WClient CVisit; WClient CVisit; WDown 0; WDown 0; WClient CVisit; WClient CVisit].
Definition flow (i : nat) : ev := nth (i mod 24) flow_day (WAccept 0).
Definition flow_at := my_time flow_world flow.

Definition flow_text : jstr := Eval vm_compute in print exact_lit (exec_doc 1 "Watchout" "hello_stream" flow_args).
Definition flow_value : json := Eval vm_compute in call_value my_setting flow_call.
Definition flow_item (n : Z) : jstr := js "{""stream"":{""id"":1,""data"":" ++ print_int n ++ js "}}".
Definition flow_error : jstr := js "{""error"":{""id"":1,""data"":{""JsonError"":""no""}}}".
Definition flow_task : task my_rpc := mkTask (A := my_rpc) 1 1 TDone [inl (JInt 7); inr (js "no"); inl (JInt 8)].
Definition flow_heard : list jsval := [JsNum (NInt 7); JsNum (NInt 8)].
Definition after_flow : my_world := mkWorld
  (mkClient 1 [mkWs Open [(1%N, flow_text)]] (Some 0) None [] None 0
     [mkSub 1 false false true flow_heard 0 0] [1%N] None [1%N]
     [(JsNum (NInt 1), JsNum (NInt 7), true); (JsNum (NInt 1), JsNum (NInt 8), true)] [])
  (mkP (mkState (A := my_rpc) [2; 10]%N [] LIdle
          [mkConn true true [(SrcLoop, RMethod (A := my_rpc) 1 (JInt 1))] 0;
           mkConn true true [(SrcTask 0, RStream (A := my_rpc) 1 (JInt 7)); (SrcTask 0, RError (A := my_rpc) (Some 1%N) (js "no"));
                             (SrcTask 0, RStream (A := my_rpc) 1 (JInt 8))] 3]
          [flow_task] [(1%N, 0)] 1 [(0, inl (Exec (A := my_rpc) 1 hello_value)); (1, inl (Exec (A := my_rpc) 1 flow_value))])
       [mkSock 0 true None [FText hello_text'] []; mkSock 1 true None [FText flow_text] [flow_item 7; flow_error; flow_item 8]])
  [mkLink 0 1 1 3].
Example a_flow : flow_at 24 = after_flow.
Proof. vm_cast_no_check (eq_refl after_flow). Qed.

(** The hypotheses on the call. *)
Example my_flow : distinct my_backend /\ (exists i, has_item my_backend 0 2 watchout i /\ it_args i <> [] /\ it_kind i = Stream /\
    bf_name watchout = unraw (variant_ident watchout) /\ it_ident i = unraw (it_ident i) /\ it_ident i = "hello_stream" /\
    (forall doc, sent_doc 1 watchout i flow_args doc -> fine doc) /\ Forall js_value flow_args /\
    decoded keep (map snd (it_args i)) (map (fun a => to_value exact (stringify_elem a)) flow_args) [JInt 7]) /\
  user (w_cl my_world0) = true /\ bump (cl_id (w_cl my_world0)) = 1%N /\ cl_stores (w_cl my_world0) = [] /\ cl_subs (w_cl my_world0) = [].
Proof.
  split; [exact my_distinct|]. split; [|repeat split; reflexivity]. eexists. split; [split; reflexivity|]. split; [discriminate|]. split; [reflexivity|].
  split; [reflexivity|]. split; [reflexivity|]. split; [reflexivity|].
  split; [intros doc E; vm_compute in E; injection E as <-; split; [vm_compute; reflexivity | vm_compute; repeat constructor]|].
  split; [|repeat constructor]. repeat constructor. apply (dbl_int 7 0); lia.
Qed.

(** The stream that was made, and its values. *)
Example flow_made : stream_made my_setting [0; 10]%N after_flow 1 0 2 [JInt 7] flow_task /\
  values (A := my_rpc) (received_as double) flow_task = flow_heard.
Proof.
  split; [|reflexivity].
  exists 1, flow_value, [(0, inl (Exec (A := my_rpc) 1 hello_value))], [], (mkSeq (A := my_rpc) [1; 10]%N [(0, RMethod (A := my_rpc) 1 (JInt 1))] [] (fun _ => None)), [2; 10]%N, 1%N, 2%N.
  split; [reflexivity|]. split; [exists (mkLink 0 1 1 3), (mkSock 1 true None [FText flow_text] [flow_item 7; flow_error; flow_item 8]); repeat split; auto; now left|].
  split.
  { intros [|[|i]] (c & v & E & x & s & Hx & Es & Ec).
    - cbn in E. injection E as <- _. destruct Hx as [<-|[]]. cbn in Es. injection Es as <-. discriminate.
    - reflexivity.
    - destruct i; discriminate. }
  split; [reflexivity|]. split; [reflexivity|].
  split; [repeat split; auto; intros [|[|m]] N; try congruence; reflexivity|].
  split; [|repeat split].
  exists (mkSeq (A := my_rpc) [2; 10]%N [(0, RMethod (A := my_rpc) 1 (JInt 1))] [(1, 1%N)] (fun i => if N.eqb 1 i then Some 0 else None)). split; reflexivity.
Qed.

Lemma flow_done : forall e, In e flow_day -> my_next after_flow e = after_flow.
Proof. intros e H. repeat (destruct H as [<- | H]; [vm_cast_no_check (eq_refl after_flow)|]). destruct H. Qed.
Lemma flow_in i : In (flow i) flow_day.
Proof. apply nth_In. apply Nat.mod_upper_bound. discriminate. Qed.
Lemma flow_after i : flow_at (24 + i) = after_flow.
Proof.
  induction i as [|i IH]; [exact a_flow|]. rewrite Nat.add_succ_r.
  change (flow_at (S (24 + i))) with (my_next (flow_at (24 + i)) (flow (24 + i))). rewrite IH. apply flow_done, flow_in.
Qed.

(** What holds at all times. *)
Definition fit (w : my_world) : bool :=
  livesb w 0 && N.leb (N.of_nat (List.length (cl_calls (w_cl w)))) (2 ^ 53) && forallb snd (cl_msgs (w_cl w)) && forallb su_live (cl_subs (w_cl w)) &&
  forallb (fun x => Nat.eqb (ln_pump x) 1) (w_links w) && Nat.leb (List.length (w_links w)) 1.
Fixpoint fits (w : my_world) (es : list ev) : bool :=
  fit w && match es with [] => true | e :: es => fits (my_next w e) es end.
Example flow_fits : fits flow_world flow_day = true.
Proof. vm_compute. reflexivity. Qed.
Lemma fits_at es : forall w, fits w es = true -> forall i, i <= List.length es -> fit (my_steps w (firstn i es)) = true.
Proof.
  induction es as [|e es IH]; intros w H i L; cbn in H; apply andb_prop in H as [H1 H2].
  - destruct i; exact H1.
  - destruct i as [|i]; [exact H1|]. apply (IH _ H2). cbn in L. lia.
Qed.
Lemma flow_first i : i <= 24 -> map flow (seq 0 i) = firstn i flow_day.
Proof. intros L. do 25 (destruct i as [|i]; [reflexivity|]). lia. Qed.
Lemma flow_fit i : fit (flow_at i) = true.
Proof.
  destruct (Nat.le_gt_cases i 24) as [L|L].
  - unfold flow_at, my_time. rewrite at_time_run, (flow_first i L). exact (fits_at flow_day flow_world flow_fits i L).
  - replace i with (24 + (i - 24)) by lia. rewrite flow_after. vm_compute. reflexivity.
Qed.

(** The hypotheses of the theorem that everything is heard. *)
Example flow_lives x : lives (flow_at x) 0 /\ countable (w_cl (flow_at x)) /\ no_throws (w_cl (flow_at x)) /\
  forall s, nth_error (cl_subs (w_cl (flow_at x))) 0 = Some s -> su_live s = true.
Proof.
  pose proof (flow_fit x) as H. unfold fit in H. rewrite !andb_true_iff in H. destruct H as (((((H1 & H2) & H3) & H4) & _) & _).
  split; [now apply livesb_lives|]. split; [now apply N.leb_le|]. split.
  - apply Forall_forall. now apply forallb_forall.
  - intros s Hs. rewrite forallb_forall in H4. apply H4. now apply nth_error_In in Hs.
Qed.

Lemma flow_often x (P : nat -> Prop) : (forall m, P (x + (S m) * 24)) -> often P.
Proof. intros H i. exists (x + (S i) * 24). split; [lia | apply H]. Qed.
Lemma flow_nth x m : x < 24 -> flow (x + S m * 24) = nth x flow_day (WAccept 0).
Proof. intros H. unfold flow. rewrite Nat.mod_add by discriminate. now rewrite Nat.mod_small. Qed.

Example a_fair_flow : fair (A := my_rpc) (call_text my_setting) (read_text my_setting) (same_id my_setting) (from_text my_setting) (to_text my_setting) flow_world flow 0.
Proof.
  constructor.
  - exists 2. vm_compute. reflexivity.
  - intros i l x E _.
    assert (E' : l = 0 /\ ln_pump x = 1).
    { fold my_time in E. change (my_time flow_world flow i) with (flow_at i) in E.
      pose proof (flow_fit i) as H. unfold fit in H. rewrite !andb_true_iff in H. destruct H as (((((_ & _) & _) & _) & H5) & H6).
      rewrite forallb_forall in H5. split; [|apply Nat.eqb_eq, H5; now apply nth_error_In in E].
      apply Nat.leb_le in H6. apply nth_some_lt in E. lia. }
    destruct E' as [-> ->]. repeat split.
    + apply (flow_often 2). intros m. now rewrite flow_nth by lia.
    + apply (flow_often 17). intros m. rewrite flow_nth by lia. split; [reflexivity|]. fold my_time.
      change (my_time flow_world flow (17 + S m * 24)) with (flow_at (17 + S m * 24)).
      replace (17 + S m * 24) with (24 + (17 + m * 24)) by lia. rewrite flow_after. reflexivity.
    + apply (flow_often 11). intros m. now rewrite flow_nth by lia.
    + apply (flow_often 12). intros m. now rewrite flow_nth by lia.
  - apply (flow_often 3). intros m. now rewrite flow_nth by lia.
  - apply (flow_often 4). intros m. now rewrite flow_nth by lia.
  - apply (flow_often 18). intros m. now rewrite flow_nth by lia.
Qed.

(** Somebody listens to [pixera.x()], which has no arguments, and to a namespace that is none. *)
Example no_such_streams : field_tags my_backend = ["Watchout"; "Pixera"] /\ (exists i, has_item my_backend 1 0 pixera i /\ it_args i = [] /\ it_kind i = Stream) /\
  su_id (mkSub (D := jsval) 1 false false true [] 0 0) = 1%N.
Proof. split; [reflexivity|]. split; [|reflexivity]. eexists. split; [split; reflexivity | split; reflexivity]. Qed.

(** A cancel, written by hand, is understood. *)
Example a_cancel : from_text my_setting (js "{ ""cancelStream"" : {""id"":7} }") = inl (CancelStream (A := my_rpc) 7).
Proof.
  assert (E : match from_text my_setting (js "{ ""cancelStream"" : {""id"":7} }") with inl (CancelStream i) => Some i | _ => None end = Some 7%N) by (vm_compute; reflexivity).
  destruct (from_text my_setting _) as [[|id]|]; [discriminate | now injection E as -> | discriminate].
Qed.
