(** Typed calls of a page.  Proof side. *)
From Coq Require Import List String Bool Arith NArith ZArith Lia.
From Verif Require Import Util RustTy Gen GenSpec Js JsonText JsonTextSpec JsonTextProofs TsType JsModule Zod ZodSpec Serde SerdeSpec ParseSpec TsSpec Registry RegistrySpec ModuleSpec ScopeSpec
  Macro Server ServerSpec Wire WireSpec WireProofs Pump.
From Verif Require Import E2E E2ESpec E2EStreamSpec E2EText E2EProofs E2EWire E2EStreamWire ClientFn TypedSpec TypedProofs.
From Verif Require Import JsSem JsSpec System SystemSpec SystemFair SystemProofs SystemClaims SystemLive SystemFlow SystemTypedSpec.
From Verif Require Client Prelude TsProgram.
Import ListNotations.
Local Open Scope string_scope.
Local Open Scope list_scope.

Lemma one_state s j x y : promise s j x -> promise s j y -> x = y.
Proof. intros (p & z & H1 & H2 & <-) (p' & z' & H1' & H2' & <-). congruence. Qed.

Section SystemTyped.
Context {V F : Type} (S : setting ty V F) (R : rust) (E : env) (o : options) (inv : inventory) (inside : nat -> bool) (stream_item : ty -> ty).
Context (p s : string) (m : list nsblock) (HP : TypedSpec.program S E o inv inside stream_item p s m).
Context (n k : nat) (f : bfield ty) (i : Macro.item ty) (Hit : has_item (s_backend S) n k f i).
Context (b : nsblock) (g : func) (Hg : exported m (bf_name f) (it_ident i) b g) (ip : option string -> jstr -> bool).
Hypothesis (L : faithful (s_lit S) (s_num S)) (L' : faithful (s_lit' S) (s_num S)).
Hypothesis Hns : bf_name f = unraw (variant_ident f).
Context (P : list TsProgram.top) (HPg : TsProgram.program Prelude.websocket_client = Some P).
Context (fuel : nat) (args : list jsval) (act : JsSem.action) (Hact : page_action (invoke ip m b g fuel args) = Some act).
Let HD := pg_distinct _ _ _ _ _ _ _ _ _ HP.
Let Hid := ident_raw S E o inv inside stream_item p s m HP n k f i Hit.

Lemma page_acts : act = match it_kind i with Method => ARequest (bf_name f) (it_ident i) args | Stream => AStream (bf_name f) (it_ident i) args end /\
  Forall2 (fun a v => valid ip E (module_schemas m) (snd a) v) (it_args i) args.
Proof.
  pose proof Hact as Ha. destruct (sent_or S E o inv inside stream_item p s m HP n k f i Hit b g Hg ip fuel args) as [Q|[Q|[Q|[Q|[]]]]]; rewrite <- Q in Ha; try discriminate Ha. split.
  - unfold page_action in Ha. destruct (it_kind i); cbn in Ha; injection Ha as <-; reflexivity.
  - apply (sent_valid S E o inv inside stream_item p s m HP n k f i Hit b g Hg). eauto.
Qed.

Context (scripts : list script) (a : list F) (y0 y1 : system S) (es1 : list (sevent S)) (thr : bool).
Hypothesis (H0 : started S P scripts a y0) (R1 : sruns S y0 es1 y1).
Let id := next_number (sy_page y1).

Section Method.
Local Notation ask := (STask (TUser (mkScript [act] thr)) : sevent S).
Hypothesis Hk : it_kind i = Method.
Let j := List.length (us_proms (st_user (sy_page y1))).

Lemma act_request : act = ARequest (bf_name f) (it_ident i) args.
Proof. pose proof (proj1 page_acts) as Q. rewrite Hk in Q. exact Q. Qed.

Lemma promised_typed y2 es2 y mild d t : sstep S y1 ask y2 -> sruns S y2 es2 y -> few scripts (tasks_of (es1 ++ ask :: es2)) -> Forall js_value args ->
  typed_result E inside stream_item mild i -> returns_typed S R E stream_item mild n k i ->
  fulfilled (sy_page y) j d -> fn_result g = YApp "Promise" [t] -> TsSpec.member (module_types m) t d.
Proof.
  rewrite act_request. intros R2 R3 Hf Hargs Ht Hres Fu Hy.
  destruct (it_args i) as [|a1 l1] eqn:Ea.
  - exfalso. pose proof (never S P HPg L L' scripts a y0 y1 y2 es1 _ _ args thr H0 R1 R2 y es2 R3 Hf
      (exec_no_arguments (s_dec S) (s_float S) (s_unit S) (s_backend S) n k f i (map real args) HD Hit Hns Hid Ea)) as [rs Pe].
    pose proof (one_state _ _ _ _ Pe Fu) as X. discriminate X.
  - assert (Ha : it_args i <> []) by (rewrite Ea; discriminate).
    destruct (SystemClaims.answered S P HPg L L' n k f i args HD Hit Hns Hid Ha Hk Hargs scripts a y0 y1 y2 es1 thr H0 R1 R2 y es2 R3 Hf) as [[rs Pe]|(vs & d0 & _ & Fu' & Hh)].
    + pose proof (one_state _ _ _ _ Pe Fu) as X. discriminate X.
    + pose proof (one_state _ _ _ _ Fu Fu') as Q. injection Q as ->.
      destruct Hh as (c & v & bf & af & q & st' & x & x' & _ & _ & _ & _ & Hm & _).
      apply (result_member S R E o inv inside stream_item p s m HP n k f i Hit b g Hg mild); auto.
      * exact (Hres x vs x' d0 Hm _ (gives_result stream_item i)).
      * rewrite Hk. exact Hy.
Qed.

Lemma number_fine (y2 : system S) wide : sstep S y1 ask y2 -> few scripts (tasks_of (es1 ++ [ask])) -> plain_args wide args ->
  forall doc, sent_doc (T := ty) id f i args doc -> fine doc.
Proof.
  rewrite act_request. intros R2 Hf Hp doc. apply (args_fine wide); [|exact Hp].
  destruct (asked S P HPg scripts a y0 y1 y2 es1 _ _ args thr H0 R1 R2 y2 [] (r_nil S y2) Hf) as (w1 & es & I1 & _ & _ & En & _).
  unfold id. rewrite <- En. exact (next_cid S a w1 (si_reach _ _ _ _ _ I1)).
Qed.

Lemma call_runs (y : nat -> system S) e sock wide : it_args i <> [] -> sstep S y1 ask (y 0) -> endless y e ->
  (forall x, few scripts (tasks_of (es1 ++ ask :: map e (seq 0 x)))) ->
  reads S R E inside wide i -> plain_args wide args ->
  fair_run y e sock -> (forall x, pending (sy_page (y x)) j -> connected (y x) sock) ->
  exists vs x res, decoded (s_dec S) (map snd (it_args i)) (map (fun a => to_value (s_float S) (stringify_elem a)) args) vs /\
    handler_ran S a (server_side (y x)) id n k vs res /\
    match res with inl d => fulfilled (sy_page (y x)) j (received_as double d) | inr _ => True end.
Proof.
  intros Ha R2 En Hf HR Hp Fr Co. destruct (args_decoded S R E o inv inside stream_item p s m HP f i ip wide args HR Hp (proj2 page_acts)) as [vs De]. exists vs.
  pose proof (number_fine (y 0) wide R2 (Hf 0) Hp) as Fi. rewrite act_request in R2, Hf.
  destruct (ask_ends S P HPg L L' n k f i args HD Hit Hns Hid Ha Hk (plain_js args wide Hp) scripts a y0 y1 es1 thr y e sock H0 R1 R2 En Hf Co vs Fi De Fr) as (x & res & H1 & H2).
  exists x, res. auto.
Qed.
End Method.

Section Stream.
Local Notation ask := (STask (TUser (mkScript [act; AListen (List.length (us_stores (st_user (sy_page y1))))] thr)) : sevent S).
Hypothesis Hk : it_kind i = Stream.
Let u := List.length (us_unls (st_user (sy_page y1))).

Lemma act_stream : act = AStream (bf_name f) (it_ident i) args.
Proof. pose proof (proj1 page_acts) as Q. rewrite Hk in Q. exact Q. Qed.

Lemma listener_typed y2 es2 y mild t : sstep S y1 ask y2 -> sruns S y2 es2 y -> few scripts (tasks_of (es1 ++ ask :: es2)) -> Forall js_value args ->
  typed_result E inside stream_item mild i -> yields S R E stream_item mild a (server_side y) id n k i ->
  fn_result g = YApp "Store" [t] ->
  Forall (fun vs => exists d, vs = [VData d] /\ TsSpec.member (module_types m) t d) (heard_of u (sy_page y)).
Proof.
  rewrite act_stream. intros R2 R3 Hf Hargs Ht Hyd Hy.
  destruct (it_args i) as [|a1 l1] eqn:Ea.
  - pose proof (never_heard S P HPg L L' scripts a y0 y1 y2 es1 _ _ args thr H0 R1 R2 y es2 R3 Hf
      (exec_no_arguments (s_dec S) (s_float S) (s_unit S) (s_backend S) n k f i (map real args) HD Hit Hns Hid Ea)) as Q. unfold u. rewrite Q. constructor.
  - assert (Ha : it_args i <> []) by (rewrite Ea; discriminate).
    destruct (hears S P HPg L L' n k f i args HD Hit Hns Hid Ha Hk Hargs scripts a y0 y1 y2 es1 thr H0 R1 R2 y es2 R3 Hf) as (seen & Hs & Q).
    unfold u. rewrite Hs. destruct Q as [->|(vs & tk & heard & after & _ & Hsm & Hva & Hth & _)]; [constructor|].
    assert (Hall : Forall (TsSpec.member (module_types m) t) heard).
    { apply Forall_forall. intros d Hd. assert (Hd' : In d (values (A := rpc S) (received_as double) tk)) by (rewrite Hva; apply in_or_app; now left).
      unfold values in Hd'. apply in_flat_map in Hd' as ([d0|e] & Hi & Hd'); [|destruct Hd']. destruct Hd' as [<-|[]].
      apply (result_member S R E o inv inside stream_item p s m HP n k f i Hit b g Hg mild); auto.
      + exact (Hyd vs tk d0 Hsm Hi _ (gives_result stream_item i)). + rewrite Hk. exact Hy. }
    assert (Hseen : Forall (TsSpec.member (module_types m) t) seen) by (clear -Hth Hall; induction Hth; inversion Hall; subst; auto).
    apply Forall_forall. intros x Hx. apply in_map_iff in Hx as (d & <- & Hd). rewrite Forall_forall in Hseen. eauto.
Qed.

Lemma stream_fine (y2 : system S) wide : sstep S y1 ask y2 -> few scripts (tasks_of (es1 ++ [ask])) -> plain_args wide args ->
  forall doc, sent_doc (T := ty) id f i args doc -> fine doc.
Proof.
  rewrite act_stream. intros R2 Hf Hp doc. apply (args_fine wide); [|exact Hp].
  destruct (streamed S P HPg scripts a y0 y1 y2 es1 _ _ args thr H0 R1 R2 y2 [] (r_nil S y2) Hf) as (w1 & es & I1 & _ & _ & En & _).
  unfold id. rewrite <- En. exact (next_cid S a w1 (si_reach _ _ _ _ _ I1)).
Qed.

Lemma stream_runs (y : nat -> system S) e sock wide : it_args i <> [] -> sstep S y1 ask (y 0) -> endless y e ->
  (forall x, few scripts (tasks_of (es1 ++ ask :: map e (seq 0 x)))) ->
  reads S R E inside wide i -> plain_args wide args ->
  fair_run y e sock -> (forall x, connected (y x) sock) -> Forall (fun x => sc_throw x = false) scripts ->
  (forall x, ~ In (AUnlisten u) (all_actions scripts (tasks_of (es1 ++ ask :: map e (seq 0 x))))) ->
  exists vs, decoded (s_dec S) (map snd (it_args i)) (map (fun a => to_value (s_float S) (stringify_elem a)) args) vs /\
    (exists x tk, stream_made S a (server_side (y x)) id n k vs tk) /\
    forall x tk q d, stream_made S a (server_side (y x)) id n k vs tk -> nth_error (values (A := rpc S) (received_as double) tk) q = Some d ->
      exists x', x <= x' /\ nth_error (heard_of u (sy_page (y x'))) q = Some [VData d].
Proof.
  intros Ha R2 En Hf HR Hp Fr Co Ht Nu. destruct (args_decoded S R E o inv inside stream_item p s m HP f i ip wide args HR Hp (proj2 page_acts)) as [vs De]. exists vs. split; [exact De|].
  pose proof (stream_fine (y 0) wide R2 (Hf 0) Hp) as Fi. rewrite act_stream in R2, Hf, Nu.
  exact (stream_flows_page S L L' P HPg n k f i args HD Hit Hns Hid Ha Hk (plain_js args wide Hp) scripts a y0 y1 es1 thr y e sock H0 R1 R2 En Hf Co Ht vs Nu Fi De Fr).
Qed.
End Stream.
End SystemTyped.
