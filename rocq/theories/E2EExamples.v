(** The backend of examples/axum and its client, connected. *)
From Coq Require Import List String Arith NArith ZArith Bool Lia.
From Verif Require Import Util Js JsonText JsonTextSpec JsonTextExamples RustTy Serde Registry Macro Server ServerSpec Wire WireSpec WireProofs WireExamples.
From Verif Require Import Pump Client ClientSpec E2E E2ESpec E2EProofs E2ESafe E2ELive E2ESettle E2EText E2EWire.
Import ListNotations.
Local Open Scope string_scope.
Local Open Scope list_scope.

Definition my_setting : setting ty json N :=
  mkSetting keep exact false false my_backend counting complain (fun _ => js "what?") (fun _ _ => false) exact_lit exact_lit exact_num.
Definition my_rpc : app := rpc my_setting.
Local Notation ev := (wevent rcall jstr my_rpc).
Local Notation my_world := (world jstr jsval jsval my_rpc).
Definition my_next : my_world -> ev -> my_world :=
  wnext (A := my_rpc) (call_text my_setting) (read_text my_setting) (same_id my_setting) (from_text my_setting) (to_text my_setting).
Definition my_steps : my_world -> list ev -> my_world :=
  wrun (A := my_rpc) (call_text my_setting) (read_text my_setting) (same_id my_setting) (from_text my_setting) (to_text my_setting).
Definition my_time : my_world -> (nat -> ev) -> nat -> my_world :=
  at_time (A := my_rpc) (call_text my_setting) (read_text my_setting) (same_id my_setting) (from_text my_setting) (to_text my_setting).

(** The text of the call; another client may well put in some space. *)
Definition hello_text : jstr := Eval vm_compute in print exact_lit (exec_doc 1 "Watchout" "hello" hello_args).
Definition hello_text' : jstr := Eval vm_compute in js " " ++ hello_text ++ js " ".

(** Another client has called [hello] with the same id. *)
Definition before_us : list ev :=
  [WServer PUpgrade; WServer (PFrame 0 (FText hello_text'))].
Definition my_world0 := my_steps (winit (A := my_rpc) [0; 10]%N) before_us.
Definition hello_call : rcall := ("Watchout", "hello", hello_args).
Definition my_world1 := my_next my_world0 (WClient (URequest hello_call)).

(** The life of a call, for ever again. *)
Definition day : list ev :=
  [WAccept 0; WOpen 0; WUp 0; WServer (PServer EvRecv); WServer (PServer EvMethodDone);
   WServer (PServer EvRecv); WServer (PServer EvMethodDone); WServer (PTake 1); WServer (PWrote 1 true);
   WDown 0; WClient CVisit; WClient CVisit; WClient CVisit; WClient (CFinally 0)].
Definition daily (i : nat) : ev := nth (i mod 14) day (WAccept 0).

Definition hello_value : json := Eval vm_compute in call_value my_setting hello_call.
Definition hello_reply (n : Z) : jstr := js "{""method"":{""id"":1,""data"":" ++ print_int n ++ js "}}".
Definition after_a_day : my_world := mkWorld
  (mkClient 1 [mkWs (Closing true) [(1%N, hello_text)]] None None [] None 0
     [mkSub 1 true false false [JsNum (NInt 2)] 0 1] [] None [1%N] [(JsNum (NInt 1), JsNum (NInt 2), true)] [])
  (mkP (mkState (A := my_rpc) [2; 10]%N [] LIdle
          [mkConn true true [(SrcLoop, RMethod (A := my_rpc) 1 (JInt 1))] 0; mkConn true true [(SrcLoop, RMethod (A := my_rpc) 1 (JInt 2))] 1]
          [] [] 1 [(0, inl (Exec (A := my_rpc) 1 hello_value)); (1, inl (Exec (A := my_rpc) 1 hello_value))])
       [mkSock 0 true None [FText hello_text'] []; mkSock 1 true None [FText hello_text] [hello_reply 2]])
  [mkLink 0 1 1 1].
Example a_day : my_time my_world1 daily 14 = after_a_day.
Proof. vm_cast_no_check (eq_refl after_a_day). Qed.

Lemma my_reach0 : wreachable (A := my_rpc) (call_text my_setting) (read_text my_setting) (same_id my_setting) (from_text my_setting) (to_text my_setting) [0; 10]%N my_world0.
Proof. now exists before_us. Qed.
Example my_call : distinct my_backend /\ (exists i, has_item my_backend 0 1 watchout i /\ it_args i <> [] /\ it_kind i = Method /\
    bf_name watchout = unraw (variant_ident watchout) /\ it_ident i = unraw (it_ident i) /\ it_ident i = "hello" /\
    (forall doc, sent_doc 1 watchout i hello_args doc -> fine doc) /\ Forall js_value hello_args /\
    decoded keep (map snd (it_args i)) (map (fun a => to_value exact (stringify_elem a)) hello_args) [JStr (js "a"); JInt 7]) /\
  user (w_cl my_world0) = true /\ bump (cl_id (w_cl my_world0)) = 1%N.
Proof.
  split; [exact my_distinct|]. split; [|split; reflexivity]. eexists. split; [split; reflexivity|]. split; [discriminate|]. split; [reflexivity|].
  split; [reflexivity|]. split; [reflexivity|]. split; [reflexivity|].
  split; [intros doc E; vm_compute in E; injection E as <-; split; [vm_compute; reflexivity | vm_compute; repeat constructor]|].
  split; [|repeat constructor]. repeat constructor. apply (dbl_int 7 0); lia.
Qed.

Lemma day_done : forall e, In e day -> my_next after_a_day e = after_a_day.
Proof. intros e H. repeat (destruct H as [<- | H]; [vm_cast_no_check (eq_refl after_a_day)|]). destruct H. Qed.
Lemma daily_day i : In (daily i) day.
Proof. apply nth_In. apply Nat.mod_upper_bound. discriminate. Qed.
Lemma after i : my_time my_world1 daily (14 + i) = after_a_day.
Proof.
  induction i as [|i IH]; [exact a_day|]. rewrite Nat.add_succ_r.
  change (my_time my_world1 daily (S (14 + i))) with (my_next (my_time my_world1 daily (14 + i)) (daily (14 + i))). rewrite IH. apply day_done, daily_day.
Qed.

Lemma daily_often x (P : nat -> Prop) : (forall m, P (x + (S m) * 14)) -> often P.
Proof. intros H i. exists (x + (S i) * 14). split; [lia | apply H]. Qed.
Lemma daily_at x m : x < 14 -> daily (x + S m * 14) = nth x day (WAccept 0).
Proof. intros H. unfold daily. rewrite Nat.mod_add by discriminate. now rewrite Nat.mod_small. Qed.

Lemma day_links i : w_links (my_time my_world1 daily i) = [] \/
  exists u d, w_links (my_time my_world1 daily i) = [mkLink 0 1 u d].
Proof.
  destruct (Nat.lt_ge_cases i 14) as [L|L].
  - do 14 (destruct i as [|i]; [vm_compute; eauto|]). lia.
  - replace i with (14 + (i - 14)) by lia. rewrite after. right. eexists _, _. vm_compute. reflexivity.
Qed.

(** The hypotheses of the theorem on the end of a call. *)
Example a_fair_day : fair (A := my_rpc) (call_text my_setting) (read_text my_setting) (same_id my_setting) (from_text my_setting) (to_text my_setting) my_world1 daily 0.
Proof.
  constructor.
  - exists 2. vm_compute. reflexivity.
  - intros i l x E _.
    assert (E' : l = 0 /\ ln_pump x = 1).
    { fold my_time in E. destruct (day_links i) as [Ei|(u & d & Ei)]; rewrite Ei in E; [destruct l; discriminate|].
      destruct l as [|[|l]]; [|discriminate..]. injection E as <-. auto. }
    destruct E' as [-> ->]. repeat split.
    + apply (daily_often 2). intros m. now rewrite daily_at by lia.
    + apply (daily_often 9). intros m. rewrite daily_at by lia. split; [reflexivity|]. fold my_time.
      replace (9 + S m * 14) with (14 + (9 + m * 14)) by lia. rewrite after. vm_compute. reflexivity.
    + apply (daily_often 7). intros m. now rewrite daily_at by lia.
    + apply (daily_often 8). intros m. now rewrite daily_at by lia.
  - apply (daily_often 3). intros m. now rewrite daily_at by lia.
  - apply (daily_often 4). intros m. now rewrite daily_at by lia.
  - apply (daily_often 10). intros m. now rewrite daily_at by lia.
Qed.

Example settled_at_last : settled (my_time my_world1 daily 12) 0 (JsNum (NInt 2)).
Proof. eexists. vm_compute. repeat split. Qed.
Definition livesb (w : my_world) (n : nat) : bool :=
  match state_of (w_cl w) n with Connecting | Open => true | _ => false end && alive (st_loop (p_srv (w_sv w))) &&
  forallb (fun x => match nth_error (p_socks (w_sv w)) (ln_pump x) with Some s => sk_live s | None => false end) (w_links w).
Lemma livesb_lives w n : livesb w n = true -> lives w n.
Proof.
  unfold livesb. rewrite !andb_true_iff. intros [[H1 H2] H3]. split; [|split; [exact H2|]].
  - unfold held. destruct (state_of (w_cl w) n); auto; discriminate.
  - intros x Hx _. rewrite forallb_forall in H3. specialize (H3 x Hx).
    destruct (nth_error (p_socks (w_sv w)) (ln_pump x)) as [s|]; [eauto | discriminate].
Qed.
Example lives_so_long : forall x, (forall y d, y < x -> ~ settled (my_time my_world1 daily y) 0 d) ->
  lives (my_time my_world1 daily x) 0 /\ countable (w_cl (my_time my_world1 daily x)).
Proof.
  intros x H. destruct (Nat.lt_ge_cases 12 x) as [L|L]; [exfalso; now apply (H 12 _ L settled_at_last)|]. clear H.
  do 13 (destruct x as [|x]; [split; [apply livesb_lives; vm_compute; reflexivity | vm_compute; discriminate]|]). lia.
Qed.

(** A method without arguments, a namespace that is none. *)
Example no_such_calls : field_tags my_backend = ["Watchout"; "Pixera"] /\
  exists i, has_item my_backend 1 0 pixera i /\ it_args i = [].
Proof. split; [reflexivity|]. eexists. split; [split; reflexivity | reflexivity]. Qed.

(** A method whose result can not be serialized. *)
Definition sulking : handlers json N := mkHandlers (fun _ _ n _ => Some (n + 1, inr (js "no")))%N (fun _ _ n _ => Some (n + 1)%N).
Definition sad_setting : setting ty json N :=
  mkSetting keep exact false false my_backend sulking complain (fun _ => js "what?") (fun _ _ => false) exact_lit exact_lit exact_num.
Definition sad_app : app := rpc sad_setting.
Definition sad_world : world jstr jsval jsval sad_app :=
  wrun (A := sad_app) (call_text sad_setting) (read_text sad_setting) (same_id sad_setting) (from_text sad_setting) (to_text sad_setting) (winit (A := sad_app) [0; 10]%N)
    [WClient (URequest hello_call); WAccept 0; WOpen 0; WUp 0; WServer (PServer EvRecv); WServer (PServer EvMethodDone);
     WServer (PTake 0); WServer (PWrote 0 true); WDown 0].
Example a_sad_day : ran (A := sad_app) [0; 10]%N sad_world 1 (call_value my_setting hello_call) (mkCall 0 1 [JStr (js "a"); JInt 7]) (inr (js "no")) /\
  map sk_out (p_socks (w_sv sad_world)) = [[js "{""error"":{""id"":1,""data"":{""JsonError"":""no""}}}"]].
Proof.
  split; [|vm_compute; reflexivity].
  assert (O : is_ours sad_world 0).
  { assert (El : w_links sad_world = [mkLink 0 0 1 1]) by (vm_compute; reflexivity).
    eexists (mkLink 0 0 1 1), _. split; [rewrite El; now left|]. split; reflexivity. }
  exists 0, [], [], (seq_init (A := sad_app) [0; 10]%N), [1; 10]%N. split; [reflexivity|]. split; [exact O|]. split; [reflexivity|]. split; [reflexivity|].
  split; [eexists; split; reflexivity|]. intros [|i] (c & v & E & _); [reflexivity|].
  exfalso. apply nth_some_lt in E. assert (L : List.length (st_sent (p_srv (w_sv sad_world))) = 1) by reflexivity. lia.
Qed.
