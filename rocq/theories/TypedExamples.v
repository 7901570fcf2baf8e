(** A shop: its module, its functions, its server. *)
From Coq Require Import List String Arith NArith ZArith Bool Lia.
From Verif Require Import Util Js JsonText JsonTextSpec JsonTextExamples RustTy Gen GenSpec GenExamples JsLex JsParse TsType JsModule Zod ZodSpec Ast ZodLoad Serde SerdeSpec SerdeMono SerdeExamples ParseSpec
  TsSpec Docs Registry RegistrySpec RegistryExamples ModuleSpec ScopeSpec ModuleExamples Macro Server ServerSpec Wire WireSpec WireProofs WireExamples.
From Verif Require Import Pump Client ClientSpec E2E E2ESpec E2EStreamSpec E2EProofs E2ELive E2EText E2EWire E2EStreamWire ClientFn TypedSpec.
Import ListNotations.
Local Open Scope string_scope.
Local Open Scope list_scope.

(** ** The program *)
Definition the_buy : Macro.item ty := mkItem "buy" [("item", TNamed 0); ("n", ex_u8)] Method (Some (Plain (TNamed 2))).
Definition the_ticks : Macro.item ty := mkItem "ticks" [("n", ex_u8)] Stream (Some (ImplTrait ex_u8)).
Definition the_watch : bfield ty := mkBField ["Watch"] "Watch" None [the_ticks].
Definition the_shop : bfield ty := mkBField ["api"; "Shop"] "Shop" None [the_buy].
Definition the_desk : bfield ty := mkBField ["Desk"] "Desk" None [].
Definition the_backend : backend ty := [the_watch; the_shop; the_desk].

Definition same_type (t : ty) : ty := t.
Definition the_inv : inventory := mkInv [2; 1; 3; 0] [submitted same_type the_watch the_ticks; submitted same_type the_shop the_buy].

(** Values are kept as JSON; a cart is what was bought. *)
Definition the_rust : rust := mkRust (fun _ _ => false) (fun _ _ => false) (fun _ _ => false) (fun _ _ => false) (fun _ _ => false) (fun _ _ => false).
Definition the_dec (t : ty) (j : json) : option json := if de the_rust mall 9 t j then Some j else None.
Definition a_cart (z : Z) : json := JObj [(js "items", JArr [JObj [(js "price", JInt z)]])].
Definition the_methods : handlers json N := mkHandlers
  (fun _ _ x vs => match vs with
                   | [JObj [(_, JInt z)]; _] => Some ((x + 1)%N, if in_int U8 z then inl (a_cart z) else inr (js "no"))
                   | _ => None
                   end)
  (fun _ _ x _ => Some (x + 1)%N).
Definition the_setting : setting ty json N :=
  mkSetting the_dec exact false false the_backend the_methods complain (fun _ => js "what?") (fun _ _ => false) exact_lit exact_lit exact_num.

Definition the_text : string := Eval vm_compute in match generate mall the_inv 20 (ns_names the_backend) "" with Some s => s | None => "" end.
Definition the_module : list nsblock := Eval vm_compute in match module_parse the_text with Some m => m | None => [] end.

Lemma the_generates : generates mall default_options the_inv (ns_names the_backend) "" the_text.
Proof. exists 20. vm_compute. reflexivity. Qed.
Lemma the_parse : module_parse the_text = Some the_module.
Proof. vm_compute. reflexivity. Qed.

Example the_regular : regular mall default_options the_inv (ns_names the_backend) mall_inside.
Proof.
  destruct mall_conditions as (H1 & H2 & _ & H4 & _ & H6 & _). constructor; auto.
  - apply fit_all; [reflexivity|apply mall_closed|reflexivity|reflexivity].
  - repeat split.
  - intros i. split.
    + intros Hi. destruct i as [|[|[|i]]]; [| | |discriminate]; cbn; auto 10.
    + intros [Hi Hn]. cbn in Hi. destruct Hi as [<-|[<-|[<-|[<-|[]]]]]; try reflexivity.
      exfalso. vm_compute in Hn. intuition discriminate.
  - intros m Hm _. cbn in Hm. destruct Hm as [<-|[<-|[]]]; split.
    + intros a Ha i Hi. cbn in Ha. destruct Ha as [<-|[]]; destruct Hi.
    + intros i [].
    + intros a Ha i Hi. cbn in Ha. destruct Ha as [<-|[<-|[]]]; cbn in Hi; [destruct Hi as [<-|[]]; reflexivity|destruct Hi].
    + intros i Hi. cbn in Hi. destruct Hi as [<-|[]]. reflexivity.
  - intros ns Hn. apply once_spec. cbn in Hn. repeat (destruct Hn as [<-|Hn]; [vm_compute; reflexivity|]). destruct Hn.
  - split; [|split].
    + intros ns Hn. cbn in *. intuition (subst; discriminate).
    + intros i Hi _. cbn in Hi. destruct Hi as [<-|[<-|[<-|[<-|[]]]]]; cbn; intuition discriminate.
    + intros m Hm _. cbn in Hm. destruct Hm as [<-|[<-|[]]]; (split; [|split]); cbn; intuition (try discriminate; subst; cbn in *; intuition discriminate).
  - intros i Hi _. cbn in Hi. destruct Hi as [<-|[<-|[<-|[<-|[]]]]]; cbn; intuition discriminate.
Qed.

Example the_program : program the_setting mall default_options the_inv mall_inside same_type "" the_text the_module.
Proof.
  constructor.
  - exact the_regular.
  - exact the_generates.
  - apply (parsed mall default_options the_inv (ns_names the_backend) the_text the_module eq_refl mall_closed eq_refl eq_refl eq_refl the_generates the_parse).
  - exact mall_tags.
  - exact mall_loadable.
  - split; [repeat constructor; cbn; intuition discriminate|].
    intros f [<-|[<-|[<-|[]]]]; repeat constructor; cbn; intuition discriminate.
  - intros n k f i [Hf Hi]. destruct n as [|[|[|[|n]]]]; cbn in Hf; try discriminate; injection Hf as <-; destruct k as [|[|k]]; cbn in Hi; try discriminate; injection Hi as <-; cbn; auto.
Qed.

(** ** The functions *)
Definition shop_block : nsblock := Eval vm_compute in match block the_module "Shop" with Some b => b | None => mkBlock "" [] end.
Definition watch_block : nsblock := Eval vm_compute in match block the_module "Watch" with Some b => b | None => mkBlock "" [] end.
Fixpoint function_of (its : list JsModule.item) : func :=
  match its with IFun g :: _ => g | _ :: r => function_of r | [] => mkFunc false "" [] (YName "") [] end.
Definition buy_fn : func := Eval vm_compute in function_of (b_items shop_block).
Definition ticks_fn : func := Eval vm_compute in function_of (b_items watch_block).
Example buy_exported : has_item the_backend 1 0 the_shop the_buy /\ exported the_module "Shop" "buy" shop_block buy_fn.
Proof. split; [split; reflexivity|]. split; [reflexivity|]. split; [cbn; auto 10 | reflexivity]. Qed.
Example ticks_exported : has_item the_backend 0 0 the_watch the_ticks /\ exported the_module "Watch" "ticks" watch_block ticks_fn.
Proof. split; [split; reflexivity|]. split; [reflexivity|]. split; [cbn; auto 10 | reflexivity]. Qed.

Definition an_item (z : Z) : jsval := JsObj [(js "price", JsNum (NInt z))].
Definition buy_args : list jsval := [an_item 3; JsNum (NInt 2)].
Definition ticks_args : list jsval := [JsNum (NInt 7)].

(** What they send, and what they refuse: a price of 300, a missing argument, one too many. *)
Example buy_sends : invoke no_ip the_module shop_block buy_fn 20 buy_args = Sends "request" "Shop" "buy" buy_args /\
  action (invoke no_ip the_module shop_block buy_fn 20 buy_args) = Some (URequest ("Shop", "buy", buy_args)).
Proof. split; vm_compute; reflexivity. Qed.
Example ticks_sends : invoke no_ip the_module watch_block ticks_fn 20 ticks_args = Sends "subscribe" "Watch" "ticks" ticks_args /\
  action (invoke no_ip the_module watch_block ticks_fn 20 ticks_args) = Some (UStream ("Watch", "ticks", ticks_args)).
Proof. split; vm_compute; reflexivity. Qed.
Example buy_refuses :
  invoke no_ip the_module shop_block buy_fn 20 [an_item 300; JsNum (NInt 2)] = Refuses /\
  invoke no_ip the_module shop_block buy_fn 20 [an_item 3] = Refuses /\
  invoke no_ip the_module shop_block buy_fn 20 (buy_args ++ [JsNull]) = Refuses /\
  invoke no_ip the_module shop_block buy_fn 2 buy_args = Runs_on.
Proof. repeat split; vm_compute; reflexivity. Qed.

(** The further conditions. *)
Example mall_grounded : closed mall mall_inside /\ (forall i, mall_inside i = true -> grounded mall (TNamed i)) /\
  (forall a, In a (it_args the_buy) -> ~ contains_throwing mall (Inl (snd a))) /\ TsSpec.distinct mall mall_inside.
Proof.
  split; [|split; [|split; [|apply mall_sound]]].
  - intros i Hi. split.
    + destruct i as [|[|[|i]]]; [| | |discriminate]; intros (f & [<-|[]] & H); discriminate H.
    + intros t Ht j Hj. destruct i as [|[|[|i]]]; cbn in Ht; [| | |discriminate];
        destruct Ht as [<-|[]]; cbn in Hj; try destruct Hj as [<-|[]]; try reflexivity; destruct Hj.
  - intros i Hi. apply gr_named. destruct i as [|[|[|i]]]; [| | |discriminate]; cbn; intros t Ht; try destruct Ht as [<-|[]]; try destruct Ht. constructor.
  - assert (Hn : good_names mall) by apply mall_conditions.
    assert (H : forall t, (exists s, returns mall InlineSchema t s /\ load s <> Throw) -> ~ contains_throwing mall (Inl t)).
    { intros t (s & Hs & Hl). destruct (inline_schema_loads mall t s Hn mall_tags Hs) as [[_ Q]|[Q _]]; [exact Q|easy]. }
    intros a Ha. cbn in Ha. destruct Ha as [<-|[<-|[]]]; apply H; (eexists; split; [exists 9; vm_compute; reflexivity|vm_compute; discriminate]).
Qed.

(** [Deserialize] reads what serde reads. *)
Lemma item_fuel n j : de the_rust mall n (TNamed 0) j = true -> de the_rust mall 9 (TNamed 0) j = true.
Proof. destruct n as [|[|[|n]]]; intros H; try discriminate H; [do 8 apply de_S; exact H|do 7 apply de_S; exact H|exact H]. Qed.
Lemma u8_fuel n j : de the_rust mall n ex_u8 j = true -> de the_rust mall 9 ex_u8 j = true.
Proof. destruct n as [|n]; intros H; [discriminate H | exact H]. Qed.
Lemma the_dec_reads t j : de the_rust mall 9 t j = true -> exists v, the_dec t j = Some v.
Proof. intros H. unfold the_dec. rewrite H. eauto. Qed.
Lemma mall_raw : sound true false mall_inside mall.
Proof. intros i Hi. destruct i as [|[|[|i]]]; [| | |discriminate]; cbn; repeat constructor; cbn; try easy; intuition (subst; auto). Qed.
Example buy_reads : reads the_setting the_rust mall mall_inside false the_buy.
Proof.
  split; [exact mall_raw|]. intros a Ha. cbn in Ha. destruct Ha as [<-|[<-|[]]]; (split; [reflexivity|]); intros n j H; apply the_dec_reads.
  - now apply (item_fuel n). - now apply (u8_fuel n).
Qed.
Example ticks_reads : reads the_setting the_rust mall mall_inside false the_ticks.
Proof.
  split; [exact mall_raw|]. intros a Ha. cbn in Ha. destruct Ha as [<-|[]]; (split; [reflexivity|]); intros n j H; apply the_dec_reads.
  now apply (u8_fuel n).
Qed.
Example plain_buy : plain_args false buy_args /\ plain_args false ticks_args.
Proof.
  assert (H : forall z, (Z.abs z < 2 ^ 53)%Z -> is_double (NInt z)) by (intros z Hz; rewrite <- (Z.mul_1_r z); apply (dbl_int z 0); lia).
  split; repeat (apply Forall_cons; [split; [|split; [|vm_compute; repeat constructor]]|]); try apply Forall_nil.
  - repeat constructor; cbn; try easy; auto.
  - repeat constructor. apply H. lia.
  - constructor. discriminate.
  - repeat constructor. apply H. lia.
  - constructor. discriminate.
  - repeat constructor. apply H. lia.
Qed.

(** The results are carts and numbers. *)
Lemma mall_typed : typed false mall_inside mall.
Proof.
  intros i Hi. destruct i as [|[|[|i]]]; [| | |discriminate].
  - split; [intros f [<-|[]]; cbn; auto 6|]. split; [intros f [<-|[]]; reflexivity|]. repeat constructor. intros [].
  - intros f [<-|[]]. repeat split.
  - split; [intros f [<-|[]]; cbn; auto 6|]. split; [intros f [<-|[]]; reflexivity|]. repeat constructor. intros [].
Qed.
Lemma buy_gives t : gives same_type the_buy t -> t = result_type same_type the_buy.
Proof. intros [H|u _ [H|H]|u H _|u H _]; cbn in H; try discriminate H. now injection H as <-. Qed.
Example buy_typed : typed_result mall mall_inside same_type false the_buy /\ returns_typed the_setting the_rust mall same_type false 1 0 the_buy.
Proof.
  split; [split; [exact mall_typed | intros t Ht; now rewrite (buy_gives t Ht)]|].
  intros x vs x' d H t Ht. rewrite (buy_gives t Ht). clear t Ht. cbn [the_setting s_methods the_methods h_method] in H. destruct vs as [|[| | | | | |[|[k [| |z| | | |]] [|]]] [|j [|]]]; try discriminate H.
  destruct (in_int U8 z) eqn:Ez; [|discriminate H]. injection H as _ <-. split; [|split; [|discriminate]].
  - exists 9. cbn in *. now rewrite Ez.
  - repeat constructor.
Qed.

(** ** Client and server *)
Definition the_rpc : app := rpc the_setting.
Local Notation ev := (wevent rcall jstr the_rpc).
Local Notation the_world := (world jstr jsval jsval the_rpc).
Definition the_next : the_world -> ev -> the_world :=
  wnext (A := the_rpc) (call_text the_setting) (read_text the_setting) (same_id the_setting) (from_text the_setting) (to_text the_setting).
Definition the_steps : the_world -> list ev -> the_world :=
  wrun (A := the_rpc) (call_text the_setting) (read_text the_setting) (same_id the_setting) (from_text the_setting) (to_text the_setting).
Definition the_time : the_world -> (nat -> ev) -> nat -> the_world :=
  at_time (A := the_rpc) (call_text the_setting) (read_text the_setting) (same_id the_setting) (from_text the_setting) (to_text the_setting).
Definition world0 : the_world := winit (A := the_rpc) [0; 0; 0]%N.
Lemma the_reach0 : wreachable (A := the_rpc) (call_text the_setting) (read_text the_setting) (same_id the_setting) (from_text the_setting) (to_text the_setting) [0; 0; 0]%N world0.
Proof. now exists []. Qed.

Definition livesb (w : the_world) : bool :=
  match state_of (w_cl w) 0 with Connecting | Open => true | _ => false end && alive (st_loop (p_srv (w_sv w))) &&
  forallb (fun x => match nth_error (p_socks (w_sv w)) (ln_pump x) with Some s => sk_live s | None => false end) (w_links w).
Lemma livesb_lives w : livesb w = true -> lives w 0.
Proof.
  unfold livesb. rewrite !andb_true_iff. intros [[H1 H2] H3]. split; [|split; [exact H2|]].
  - unfold held. destruct (state_of (w_cl w) 0); auto; discriminate.
  - intros x Hx _. rewrite forallb_forall in H3. specialize (H3 x Hx).
    destruct (nth_error (p_socks (w_sv w)) (ln_pump x)) as [s|]; [eauto | discriminate].
Qed.

(** The life of a call, for ever again. *)
Definition buy_world : the_world := the_next world0 (WClient (URequest ("Shop", "buy", buy_args))).
Definition buy_day : list ev :=
  [WAccept 0; WOpen 0; WUp 0; WServer (PServer EvRecv); WServer (PServer EvMethodDone); WServer (PTake 0); WServer (PWrote 0 true);
   WDown 0; WClient CVisit; WClient CVisit; WClient CVisit; WClient (CFinally 0)].
Definition buys (i : nat) : ev := nth (i mod 12) buy_day (WAccept 0).
Definition the_cart : jsval := JsObj [(js "items", JsArr [an_item 3])].
Definition after_buy : the_world := Eval vm_compute in the_steps buy_world buy_day.
Example buy_settled : settled (the_time buy_world buys 10) 0 the_cart.
Proof. eexists. vm_compute. repeat split. Qed.
Example a_buy : the_time buy_world buys 12 = after_buy.
Proof. vm_cast_no_check (eq_refl after_buy). Qed.
Lemma buy_done : forall e, In e buy_day -> the_next after_buy e = after_buy.
Proof. intros e H. repeat (destruct H as [<- | H]; [vm_cast_no_check (eq_refl after_buy)|]). destruct H. Qed.
Lemma buys_in i : In (buys i) buy_day.
Proof. apply nth_In. apply Nat.mod_upper_bound. discriminate. Qed.
Lemma buy_after i : the_time buy_world buys (12 + i) = after_buy.
Proof.
  induction i as [|i IH]; [exact a_buy|]. rewrite Nat.add_succ_r.
  change (the_time buy_world buys (S (12 + i))) with (the_next (the_time buy_world buys (12 + i)) (buys (12 + i))). rewrite IH. apply buy_done, buys_in.
Qed.
Lemma buy_often x (P : nat -> Prop) : (forall m, P (x + (S m) * 12)) -> often P.
Proof. intros H i. exists (x + (S i) * 12). split; [lia | apply H]. Qed.
Lemma buys_at x m : x < 12 -> buys (x + S m * 12) = nth x buy_day (WAccept 0).
Proof. intros H. unfold buys. rewrite Nat.mod_add by discriminate. now rewrite Nat.mod_small. Qed.
Lemma buy_links i : w_links (the_time buy_world buys i) = [] \/ exists u d, w_links (the_time buy_world buys i) = [mkLink 0 0 u d].
Proof.
  destruct (Nat.lt_ge_cases i 12) as [L|L].
  - do 12 (destruct i as [|i]; [vm_compute; eauto|]). lia.
  - replace i with (12 + (i - 12)) by lia. rewrite buy_after. right. eexists _, _. vm_compute. reflexivity.
Qed.

(** The hypotheses of the theorem on accepted calls. *)
Example a_fair_buy : fair (A := the_rpc) (call_text the_setting) (read_text the_setting) (same_id the_setting) (from_text the_setting) (to_text the_setting) buy_world buys 0.
Proof.
  constructor.
  - exists 2. vm_compute. reflexivity.
  - intros i l x E _.
    assert (E' : l = 0 /\ ln_pump x = 0).
    { fold the_time in E. destruct (buy_links i) as [Ei|(u & d & Ei)]; rewrite Ei in E; [destruct l; discriminate|].
      destruct l as [|[|l]]; [|discriminate..]. injection E as <-. auto. }
    destruct E' as [-> ->]. repeat split.
    + apply (buy_often 2). intros m. now rewrite buys_at by lia.
    + apply (buy_often 7). intros m. rewrite buys_at by lia. split; [reflexivity|]. fold the_time.
      replace (7 + S m * 12) with (12 + (7 + m * 12)) by lia. rewrite buy_after. vm_compute. reflexivity.
    + apply (buy_often 5). intros m. now rewrite buys_at by lia.
    + apply (buy_often 6). intros m. now rewrite buys_at by lia.
  - apply (buy_often 3). intros m. now rewrite buys_at by lia.
  - apply (buy_often 4). intros m. now rewrite buys_at by lia.
  - apply (buy_often 8). intros m. now rewrite buys_at by lia.
Qed.
Example buy_lives : forall x, (forall y d, y < x -> ~ settled (the_time buy_world buys y) 0 d) ->
  lives (the_time buy_world buys x) 0 /\ countable (w_cl (the_time buy_world buys x)).
Proof.
  intros x H. destruct (Nat.lt_ge_cases 10 x) as [L|L]; [exfalso; now apply (H 10 _ L buy_settled)|]. clear H.
  do 11 (destruct x as [|x]; [split; [apply livesb_lives; vm_compute; reflexivity | vm_compute; discriminate]|]). lia.
Qed.

(** The promise, its type, and its value. *)
Example buy_result : exists y, fn_result buy_fn = YApp "Promise" [y] /\ y <> YName "any" /\ the_cart = received_as double (a_cart 3) /\
  countable (w_cl (the_time buy_world buys 10)) /\ user (w_cl world0) = true /\ cl_subs (w_cl world0) = [] /\ bf_name the_shop = unraw (variant_ident the_shop).
Proof. eexists. split; [reflexivity|]. split; [discriminate|]. split; [reflexivity|]. split; [vm_compute; discriminate|]. repeat split. Qed.

(** ** A stream *)
Definition ticks_world : the_world :=
  the_next (the_next world0 (WClient (UStream ("Watch", "ticks", ticks_args)))) (WClient (UListen 0)).
Definition ticks_day : list ev :=
  [WAccept 0; WOpen 0; WUp 0; WServer (PServer EvRecv);
   WServer (PServer (EvPoll 0)); WServer (PServer (EvItem (A := the_rpc) 0 (inl (JInt 7)))); WServer (PServer (EvItem (A := the_rpc) 0 (inr (js "no"))));
   WServer (PServer (EvItem (A := the_rpc) 0 (inl (JInt 8)))); WServer (PServer (EvFinish 0));
   WServer (PTake 0); WServer (PWrote 0 true); WServer (PTake 0); WServer (PWrote 0 true); WServer (PTake 0); WServer (PWrote 0 true);
   WDown 0; WClient CVisit; WClient CVisit; WDown 0; WDown 0; WClient CVisit; WClient CVisit; WServer (PServer EvMethodDone)].
Definition ticking (i : nat) : ev := nth (i mod 23) ticks_day (WAccept 0).
Definition ticks_at := the_time ticks_world ticking.
Definition after_ticks : the_world := Eval vm_compute in the_steps ticks_world ticks_day.
Example a_tick : ticks_at 23 = after_ticks.
Proof. vm_cast_no_check (eq_refl after_ticks). Qed.
Lemma ticks_done : forall e, In e ticks_day -> the_next after_ticks e = after_ticks.
Proof. intros e H. repeat (destruct H as [<- | H]; [vm_cast_no_check (eq_refl after_ticks)|]). destruct H. Qed.
Lemma ticking_in i : In (ticking i) ticks_day.
Proof. apply nth_In. apply Nat.mod_upper_bound. discriminate. Qed.
Lemma ticks_after i : ticks_at (23 + i) = after_ticks.
Proof.
  induction i as [|i IH]; [exact a_tick|]. rewrite Nat.add_succ_r.
  change (ticks_at (S (23 + i))) with (the_next (ticks_at (23 + i)) (ticking (23 + i))). rewrite IH. apply ticks_done, ticking_in.
Qed.

Definition fit (w : the_world) : bool :=
  livesb w && N.leb (N.of_nat (List.length (cl_calls (w_cl w)))) (2 ^ 53) && forallb snd (cl_msgs (w_cl w)) && forallb su_live (cl_subs (w_cl w)) &&
  forallb (fun x => Nat.eqb (ln_pump x) 0) (w_links w) && Nat.leb (List.length (w_links w)) 1.
Fixpoint fits (w : the_world) (es : list ev) : bool :=
  fit w && match es with [] => true | e :: es => fits (the_next w e) es end.
Example ticks_fits : fits ticks_world ticks_day = true.
Proof. vm_compute. reflexivity. Qed.
Lemma fits_at es : forall w, fits w es = true -> forall i, i <= List.length es -> fit (the_steps w (firstn i es)) = true.
Proof.
  induction es as [|e es IH]; intros w H i L; cbn in H; apply andb_prop in H as [H1 H2].
  - destruct i; exact H1.
  - destruct i as [|i]; [exact H1|]. apply (IH _ H2). cbn in L. lia.
Qed.
Lemma ticks_first i : i <= 23 -> map ticking (seq 0 i) = firstn i ticks_day.
Proof. intros L. do 24 (destruct i as [|i]; [reflexivity|]). lia. Qed.
Lemma ticks_fit i : fit (ticks_at i) = true.
Proof.
  destruct (Nat.le_gt_cases i 23) as [L|L].
  - unfold ticks_at, the_time. rewrite at_time_run, (ticks_first i L). exact (fits_at ticks_day ticks_world ticks_fits i L).
  - replace i with (23 + (i - 23)) by lia. rewrite ticks_after. vm_compute. reflexivity.
Qed.

(** The hypotheses of the theorem on accepted streams. *)
Example ticks_lives x : lives (ticks_at x) 0 /\ countable (w_cl (ticks_at x)) /\ no_throws (w_cl (ticks_at x)) /\
  forall s, nth_error (cl_subs (w_cl (ticks_at x))) 0 = Some s -> su_live s = true.
Proof.
  pose proof (ticks_fit x) as H. unfold fit in H. rewrite !andb_true_iff in H. destruct H as (((((H1 & H2) & H3) & H4) & _) & _).
  split; [now apply livesb_lives|]. split; [now apply N.leb_le|]. split.
  - apply Forall_forall. now apply forallb_forall.
  - intros s Hs. rewrite forallb_forall in H4. apply H4. now apply nth_error_In in Hs.
Qed.
Lemma ticks_often x (P : nat -> Prop) : (forall m, P (x + (S m) * 23)) -> often P.
Proof. intros H i. exists (x + (S i) * 23). split; [lia | apply H]. Qed.
Lemma ticking_nth x m : x < 23 -> ticking (x + S m * 23) = nth x ticks_day (WAccept 0).
Proof. intros H. unfold ticking. rewrite Nat.mod_add by discriminate. now rewrite Nat.mod_small. Qed.
Example a_fair_tick : fair (A := the_rpc) (call_text the_setting) (read_text the_setting) (same_id the_setting) (from_text the_setting) (to_text the_setting) ticks_world ticking 0.
Proof.
  constructor.
  - exists 2. vm_compute. reflexivity.
  - intros i l x E _.
    assert (E' : l = 0 /\ ln_pump x = 0).
    { fold the_time in E. change (the_time ticks_world ticking i) with (ticks_at i) in E.
      pose proof (ticks_fit i) as H. unfold fit in H. rewrite !andb_true_iff in H. destruct H as (((((_ & _) & _) & _) & H5) & H6).
      rewrite forallb_forall in H5. split; [|apply Nat.eqb_eq, H5; now apply nth_error_In in E].
      apply Nat.leb_le in H6. apply nth_some_lt in E. lia. }
    destruct E' as [-> ->]. repeat split.
    + apply (ticks_often 2). intros m. now rewrite ticking_nth by lia.
    + apply (ticks_often 15). intros m. rewrite ticking_nth by lia. split; [reflexivity|]. fold the_time.
      change (the_time ticks_world ticking (15 + S m * 23)) with (ticks_at (15 + S m * 23)).
      replace (15 + S m * 23) with (23 + (15 + m * 23)) by lia. rewrite ticks_after. vm_compute. reflexivity.
    + apply (ticks_often 9). intros m. now rewrite ticking_nth by lia.
    + apply (ticks_often 10). intros m. now rewrite ticking_nth by lia.
  - apply (ticks_often 3). intros m. now rewrite ticking_nth by lia.
  - apply (ticks_often 22). intros m. now rewrite ticking_nth by lia.
  - apply (ticks_often 16). intros m. now rewrite ticking_nth by lia.
Qed.

(** What was heard, and that it is of its type: all tasks are typed. *)
Lemma ticks_gives t : gives same_type the_ticks t -> t = result_type same_type the_ticks.
Proof. intros [H|u H _|u _ H|u _ H]; cbn in H; try discriminate H; now injection H as <-. Qed.
Example ticks_heard : exists su, nth_error (cl_subs (w_cl (ticks_at 23))) 0 = Some su /\ su_seen su = [JsNum (NInt 7); JsNum (NInt 8)] /\
  fn_result ticks_fn = YApp "Store" [YName "number"] /\ typed_result mall mall_inside same_type false the_ticks /\ bf_name the_watch = unraw (variant_ident the_watch).
Proof.
  rewrite a_tick. eexists. split; [reflexivity|]. split; [reflexivity|]. split; [reflexivity|]. split; [|reflexivity]. split; [exact mall_typed | intros t Ht; now rewrite (ticks_gives t Ht)].
Qed.
Example ticks_yield : yields the_setting the_rust mall same_type false [0; 0; 0]%N (ticks_at 23) 1 0 0 the_ticks.
Proof.
  intros vs tk d (c & v & bf & af & q & st' & x & x' & _ & _ & _ & _ & _ & _ & _ & Ht & _) Hd t Hg. rewrite (ticks_gives t Hg). clear t Hg. rewrite a_tick in Ht.
  destruct (List.length (q_starts q)) as [|[|]]; cbn in Ht; try discriminate Ht. injection Ht as <-.
  destruct Hd as [Hd|[Hd|[Hd|[]]]]; try discriminate Hd; injection Hd as <-; (split; [exists 9; vm_compute; reflexivity|split; [constructor|discriminate]]).
Qed.
