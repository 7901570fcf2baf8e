(** Calls of the generated functions: when something is sent. *)
From Coq Require Import List String Ascii Bool NArith ZArith Lia.
From Verif Require Import RustTy Gen GenSpec GenProofs JsLex JsParse Ast AstProofs TsType TsAst TsAstProofs JsModule Zod ZodSpec ZodProofs ZodLemmas ZodLoad
  ZGen Docs DocsSpec Registry RegistrySpec RegistryProofs Js JsonText JsonTextSpec Serde SerdeSpec SerdeProofs ParseSpec ParseProofs ParseTerm TsSpec TsMember ModuleSpec ModuleProofs
  ScopeSpec ScopeProofs Macro Server Wire WireSpec E2EText ClientFn TypedSpec.
Import ListNotations.
Local Open Scope string_scope.
Local Open Scope list_scope.

Lemma returns_same E q t s s' : returns E q t s -> returns E q t s' -> s = s'.
Proof. intros [n H] [n' H']. exact (gen_det E n n' q t s s' H H'). Qed.

Lemma Forall2_weaken {A B} (P Q : A -> B -> Prop) l l' : (forall a b, P a b -> Q a b) -> Forall2 P l l' -> Forall2 Q l l'.
Proof. induction 2; constructor; auto. Qed.

(** ** Tuples *)
Section Tuple.
Context (ip : option string -> jstr -> bool) (M : menv).
Notation zparse := (zparse ip M).

Lemma tuple_accepts zs vs : (exists k o, zparse k (ZTuple zs) (JsArr vs) = POk o) <-> Forall2 (fun z v => exists o, accepts ip M z v o) zs vs.
Proof.
  split.
  - intros ([|k] & o & H); [discriminate|]. cbn [Zod.zparse] in H.
    destruct (Nat.ltb (List.length vs) (List.length zs)) eqn:H1; [discriminate|].
    destruct (Zod.collect _) as [os| | |] eqn:Hc; try discriminate.
    destruct (Nat.ltb (List.length zs) (List.length vs)) eqn:H2; [discriminate|]. clear H. apply collect_ok, map_POk in Hc.
    apply Nat.ltb_ge in H1, H2. assert (Hl : List.length zs = List.length vs) by lia. clear H1 H2.
    revert vs os Hl Hc. induction zs as [|z zs IH]; intros [|v vs] os Hl Hc; try discriminate; constructor.
    + inversion Hc; subst. eexists. eexists. eassumption.
    + inversion Hc; subst. eapply IH; [now injection Hl | eassumption].
  - intros H. assert (Hk : exists k os, Forall2 (fun p o => zparse k (fst p) (snd p) = POk o) (combine zs vs) os).
    { induction H as [|z v zs vs [o [k Hk]] _ (k' & os & IH)]; [exists 0, []; constructor|].
      exists (Nat.max k k'), (o :: os). cbn [combine]. constructor.
      - cbn. destruct (zparse_mono ip M k (Nat.max k k') z v) as [Q|Q]; [lia|congruence|congruence].
      - eapply Forall2_weaken; [|exact IH]. cbn. intros [z' v'] o' Q. cbn in *. destruct (zparse_mono ip M k' (Nat.max k k') z' v') as [Q'|Q']; [lia|congruence|congruence]. }
    destruct Hk as (k & os & Hk). exists (S k), (JsArr os). cbn [Zod.zparse].
    assert (Hl : List.length zs = List.length vs) by (clear Hk; induction H; cbn; congruence).
    rewrite Hl, Nat.ltb_irrefl. apply map_POk, collect_ok in Hk. now rewrite Hk.
Qed.
End Tuple.

Section Fn.
Context (E : env) (o : options) (inv : inventory) (names : list string) (inside : nat -> bool) (p s : string) (m : list nsblock) (r : Registry.rpc).
Hypotheses (HR : regular E o inv names inside) (HG : generates E o inv names p (p ^^ s)) (HT : ts_module s m) (Htags : tags_ok E).
Hypotheses (Hr : In r (i_rpcs inv)) (Hns : In (r_ns r) names).

Lemma spaces : spaces_of E o inv names m.
Proof. destruct (whole_module E o inv names inside p s HR HG) as (m' & Hm' & H & _). now rewrite (ts_module_unique s m m' HT Hm'). Qed.
Lemma resolution : forall b ps e x q, In b m -> In (ps, e) (code b) -> In (x, q) (uses e) -> resolves E inside m b ps e x q.
Proof. destruct (whole_module E o inv names inside p s HR HG) as (m' & Hm' & _ & H & _). now rewrite (ts_module_unique s m m' HT Hm'). Qed.
Lemma schemas_exported : loadable E inside -> exports E inside (module_schemas m).
Proof. intros Hl. destruct (whole_module E o inv names inside p s HR HG) as (m' & Hm' & _ & _ & _ & _ & H). rewrite (ts_module_unique s m m' HT Hm'). auto. Qed.
Lemma types_exported : type_exports E inside (module_types m).
Proof. destruct (whole_module E o inv names inside p s HR HG) as (m' & Hm' & _ & _ & _ & H & _). now rewrite (ts_module_unique s m m' HT Hm'). Qed.

Lemma function_there : exists b g, exported m (r_ns r) (r_name r) b g.
Proof.
  destruct (rpc_functions E o inv names m r spaces Hr Hns) as (b & g & H1 & H2 & H3). exists b, g. split; [exact H1|]. split; [exact H2|].
  apply H3.
Qed.

Context (b : nsblock) (g : func) (Hg : exported m (r_ns r) (r_name r) b g).

Lemma function_is : rpc_func E r g.
Proof.
  destruct Hg as (Hb & Hi & Hn). destruct (spaces_at E o inv names m spaces (r_ns r) Hns) as (b' & _ & _ & Hb' & Hs); [right; eauto|].
  assert (b' = b) as -> by congruence. clear Hb'. destruct Hs as (_ & its & fs & Hts & Hf & Hit). rewrite Hit in Hi. apply in_app_or in Hi as [Hi|Hi].
  - exfalso. clear -Hts Hi. induction Hts as [|i is l its Ht _ IH]; [easy|]. cbn in Hi. apply in_app_or in Hi as [Hi|Hi]; [|auto].
    destruct Ht; destruct Hi as [Hi|[Hi|[]]]; discriminate.
  - apply in_map_iff in Hi as (g' & Eg & Hi). injection Eg as ->. destruct (Forall2_in _ _ _ Hf g Hi) as (r' & Hr' & Hg').
    pose proof (reg_once _ _ _ _ _ HR (r_ns r) Hns) as Hd. apply (proj1 (rpcs_of_in (r_ns r) (i_rpcs inv) r')) in Hr' as Hr''.
    assert (Hin : In r (rpcs_of (r_ns r) (i_rpcs inv))) by (apply rpcs_of_in; auto).
    assert (En : r_name r' = r_name r) by (destruct Hg' as (_ & Q & _); congruence).
    assert (r' = r) as <-; [|exact Hg'].
    assert (Hd' : NoDup (map r_name (rpcs_of (r_ns r) (i_rpcs inv)))).
    { clear -Hd. induction (map _ (types_of _ _ _)); [exact Hd|]. inversion Hd; auto. }
    clear -Hd' Hr' Hin En. induction (rpcs_of (r_ns r) (i_rpcs inv)) as [|x l IH]; [easy|]. cbn in Hd'. inversion Hd' as [|? ? N1 N2]; subst.
    destruct Hr' as [->|Hr'], Hin as [->|Hin]; auto.
    + destruct N1. rewrite En. now apply in_map.
    + destruct N1. rewrite <- En. now apply in_map.
Qed.

Local Notation ps := (map fst (fn_params g)).
Lemma params : ps = map fst (r_args r).
Proof. destruct function_is as (_ & _ & H & _). induction H as [|a q l l' [H _] _ IH]; [reflexivity|]. cbn. now rewrite IH, H. Qed.
Lemma block_in : In b m.
Proof. destruct Hg as (H & _). now apply block_sound in H. Qed.
Lemma no_arguments : member_of "arguments" ps = false.
Proof.
  apply member_of_false. rewrite params. intros H. apply in_map_iff in H as (a & Ea & Ha).
  destruct (proj2 (reg_usable _ _ _ _ _ HR) r Hr Hns) as (_ & _ & H & _). destruct (H a Ha) as [_ Q]. rewrite Ea in Q. discriminate.
Qed.
Lemma imported x : In x imports -> sees m b ps x = PGlobal.
Proof.
  intros Hx. destruct Hg as (Hb & _). apply (rpc_hygiene E o inv names m r b g x spaces); auto.
  - apply (reg_plain _ _ _ _ _ HR).
  - apply (reg_hygiene _ _ _ _ _ HR).
  - exact function_is.
Qed.

(** The schema of the arguments. *)
Section Schema.
Context (es : list jsexp) (Hes : Forall2 (fun a e => schema_tree E InlineSchema (snd a) e) (r_args r) es).
Hypothesis Hbody : fn_body g = map (fun a => SExp (EId (fst a))) (r_args r) ++
  [SExp (validation es); SReturn (transmission (transport (r_kind r)) (r_ns r) (r_name r))].

Lemma all_bound : forallb (bound m b g) (uses (ECall (EMember (EId "z") "tuple") [EArr es])) = true.
Proof.
  apply forallb_forall. intros [x q] Hu.
  assert (Hr' : resolves E inside m b ps (validation es) x q).
  { apply resolution; [exact block_in| |].
    - destruct Hg as (_ & Hi & _). unfold code. apply in_flat_map. exists (IFun g). split; [exact Hi|]. apply in_map_iff. exists (SExp (validation es)).
      split; [reflexivity|]. rewrite Hbody. apply in_or_app. right. now left.
    - unfold validation. cbn [uses]. apply in_or_app. left. exact Hu. }
  assert (Hq : exists q', q = Some q').
  { cbn [uses flat_map] in Hu. destruct Hu as [Hu|Hu]; [injection Hu as <- <-; eauto|]. rewrite app_nil_r in Hu.
    apply in_flat_map in Hu as (e & He & Hu). destruct (Forall2_in _ _ _ Hes e He) as (a & Ha & Ht).
    destruct (reg_mentions _ _ _ _ _ HR r Hr Hns) as [Hw _].
    destruct (schema_uses E inside (reg_spans _ _ _ _ _ HR) InlineSchema (snd a) e (reg_names _ _ _ _ _ HR) (or_intror eq_refl) (Hw a Ha) Ht (x, q) Hu) as [[q' Q]|(i & _ & Q)];
      injection Q as _ ->; eauto. }
  destruct Hq as [q' ->]. unfold bound. cbn [fst snd]. inversion Hr' as [x' q'' Hx Hs|  |x' He Hs|i b' e' Hi Hs Hc Ht]; subst.
  - rewrite Hs. now apply member_of_true.
  - now rewrite Hs.
Qed.

Lemma tree_call t e : schema_tree E InlineSchema t e -> ZodProofs.is_call e.
Proof.
  intros (t' & [n Hn] & Hp). destruct (gen_agen E n InlineSchema t t' (reg_names _ _ _ _ _ HR) (or_intror eq_refl) Hn) as (e' & He & _ & _ & Hp').
  assert (e' = e) as <- by congruence. eapply agen_call; [now right | exact He].
Qed.
Lemma trees_call : Forall ZodProofs.is_call es.
Proof. clear Hbody. induction Hes as [|a e l es' H Hl IH]; [constructor|]. specialize (IH Hl). constructor; [now apply tree_call in H | exact IH]. Qed.

Lemma tree_loads t e : schema_tree E InlineSchema t e -> exists t', returns E InlineSchema t t' /\ load t' = eval_schema e.
Proof. intros (t' & H1 & H2). exists t'. split; [exact H1|]. unfold load. now rewrite H2. Qed.

Lemma emap_loads : match emap eval_schema es with
  | Val zs => Forall2 (fun a z => exists t', returns E InlineSchema (snd a) t' /\ load t' = Val z) (r_args r) zs
  | Throw => exists a t', In a (r_args r) /\ returns E InlineSchema (snd a) t' /\ load t' = Throw /\ contains_throwing E (Inl (snd a))
  | Stuck => False
  end.
Proof.
  clear Hbody. induction Hes as [|a e l es' H Hes' IH]; [constructor|]. specialize (IH Hes'). rewrite emap_cons. destruct (tree_loads _ _ H) as (t' & Ht & Hl).
  destruct (inline_schema_loads E (snd a) t' (reg_names _ _ _ _ _ HR) Htags Ht) as [[[z Hz] _]|[Hz Hth]]; rewrite Hl in Hz; rewrite Hz; cbn [ebind].
  - destruct (emap eval_schema es') as [zs| |]; cbn [ebind].
    + constructor; [exists t'; split; [exact Ht|congruence] | exact IH].
    + destruct IH as (a' & t2 & Q1 & Q2). exists a', t2. split; [now right | exact Q2].
    + exact IH.
  - exists a, t'. split; [now left|]. split; [exact Ht|]. split; [congruence | exact Hth].
Qed.

Context (ip : option string -> jstr -> bool).
Local Notation M := (module_schemas m).
Local Notation sends args := (Sends (transport (r_kind r)) (r_ns r) (r_name r) args).

Lemma invoke_steps fuel args : invoke ip m b g fuel args =
  match ebind (emap eval_schema es) (fun zs => Val (ZTuple zs)) with
  | Val z => match zparse ip M fuel z (JsArr args) with POk _ => sends args | PErr => Refuses | PThrow => Fails | PFuel => Runs_on end
  | Throw => Fails
  | Stuck => Outside
  end.
Proof.
  unfold invoke. rewrite Hbody.
  assert (Hpre : forall l rest, incl (map fst l) ps -> run_body ip m b g fuel args (map (fun a : string * ty => SExp (EId (fst a))) l ++ rest) = run_body ip m b g fuel args rest).
  { induction l as [|a l IH]; intros rest Hi; [reflexivity|]. cbn [map List.app run_body evaluate]. unfold sees.
    assert (Hin : member_of (fst a) ps = true) by (apply member_of_true; apply Hi; now left). rewrite Hin. apply IH. intros x Hx. apply Hi. now right. }
  rewrite Hpre by (rewrite params; apply incl_refl). unfold validation, transmission. cbn [run_body evaluate returned].
  assert (Ha : is_arguments g (EId "arguments") = true) by (unfold is_arguments; rewrite no_arguments; reflexivity). rewrite Ha, all_bound. change (String.eqb "parse" "parse") with true. cbn [andb].
  change (ECall (EMember (EId "z") "tuple") [EArr es]) with (tup_exp es). rewrite (eval_tup es trees_call).
  assert (Hf : bound m b g (transport (r_kind r), None) = true).
  { unfold bound. cbn [fst]. rewrite imported; [destruct (r_kind r); reflexivity|]. destruct (r_kind r); cbn; auto. }
  rewrite Hf. destruct (emap eval_schema es) as [zs| |]; cbn [ebind]; try reflexivity.
  now destruct (zparse ip M fuel (ZTuple zs) (JsArr args)).
Qed.
End Schema.

Context (ip : option string -> jstr -> bool).
Local Notation M := (module_schemas m).
Local Notation sends args := (Sends (transport (r_kind r)) (r_ns r) (r_name r) args).

Lemma valid_trees zs args : Forall2 (fun a z => exists t', returns E InlineSchema (snd a) t' /\ load t' = Val z) (r_args r) zs ->
  Forall2 (fun z v => exists o, accepts ip M z v o) zs args <-> Forall2 (fun a v => valid ip E M (snd a) v) (r_args r) args.
Proof.
  intros H. revert args. induction H as [|a z l zs (t' & Ht & Hl) _ IH]; intros args.
  - split; intros Q; inversion Q; constructor.
  - split; intros Q; inversion Q as [|? v ? vs Q1 Q2]; subst; constructor; try (now apply IH).
    + destruct Q1 as [o' Q1]. exists t', z, o'. auto.
    + destruct Q1 as (t2 & z2 & o' & P1 & P2 & P3). assert (t2 = t') as -> by (eapply returns_same; eassumption). assert (z2 = z) as -> by congruence. eauto.
Qed.

(** Something is sent exactly if the arguments are valid; it is the call. *)
Theorem sent_iff_valid args : (exists fuel, invoke ip m b g fuel args = sends args) <-> Forall2 (fun a v => valid ip E M (snd a) v) (r_args r) args.
Proof.
  destruct function_is as (_ & _ & _ & _ & es & Hes & Hbody).
  pose proof (emap_loads es Hes) as Hl. pose proof (fun fuel => invoke_steps es Hes Hbody ip fuel args) as Hi.
  destruct (emap eval_schema es) as [zs| |]; cbn [ebind] in Hi; [| |easy].
  - rewrite <- (valid_trees zs args Hl), <- tuple_accepts. split.
    + intros [fuel Hf]. rewrite Hi in Hf. exists fuel. destruct (zparse ip M fuel (ZTuple zs) (JsArr args)); try discriminate. eauto.
    + intros (k & o' & Hk). exists k. now rewrite Hi, Hk.
  - split; [intros [fuel Hf]; rewrite Hi in Hf; discriminate|]. intros Hv. exfalso. destruct Hl as (a & t' & Ha & Ht & Hth & _).
    clear -Ha Ht Hth Hv. induction Hv as [|x v l vs (t2 & z & o' & P1 & P2 & _) _ IH]; [easy|]. destruct Ha as [->|Ha]; [|auto].
    assert (t2 = t') as -> by (eapply returns_same; eassumption). congruence.
Qed.

(** Nothing else is sent, and the function is understood. *)
Theorem outcomes fuel args : In (invoke ip m b g fuel args) [sends args; Refuses; Fails; Runs_on].
Proof.
  destruct function_is as (_ & _ & _ & _ & es & Hes & Hbody). rewrite (invoke_steps es Hes Hbody ip fuel args).
  pose proof (emap_loads es Hes) as Hl. destruct (emap eval_schema es) as [zs| |]; cbn [ebind]; [|cbn; auto|easy].
  destruct (zparse ip M fuel (ZTuple zs) (JsArr args)); cbn; auto.
Qed.

(** If no schema refers to itself on the same value and none throws, the call is over after a while. *)
Theorem call_over args : loadable E inside -> closed E inside -> (forall i, inside i = true -> grounded E (TNamed i)) ->
  (forall a, In a (r_args r) -> ~ contains_throwing E (Inl (snd a))) ->
  exists fuel, In (invoke ip m b g fuel args) [sends args; Refuses].
Proof.
  intros HL HC HGr HN. destruct function_is as (_ & _ & _ & _ & es & Hes & Hbody).
  pose proof (emap_loads es Hes) as Hl. pose proof (fun fuel => invoke_steps es Hes Hbody ip fuel args) as Hi.
  destruct (emap eval_schema es) as [zs| |]; cbn [ebind] in Hi; [| |easy].
  - assert (Ha : ans ip M (ZTuple zs) (JsArr args)).
    { apply ans_tuple. intros l Hl' z x Hz Hx. destruct (Forall2_in _ _ _ Hl z Hz) as (a & Ha & t' & Ht & Hld).
      destruct Ht as [n Hn]. destruct (gen_agen E n InlineSchema (snd a) t' (reg_names _ _ _ _ _ HR) (or_intror eq_refl) Hn) as (e & He & _ & _ & Hp).
      unfold load in Hld. rewrite Hp in Hld. pose proof (zgen_ok E Htags n InlineSchema (snd a) e z (or_intror eq_refl) He Hld) as Hzg.
      apply (term_ans E ip M inside HC (exports_zgen E inside M (reg_names _ _ _ _ _ HR) Htags (schemas_exported HL)) HGr (S (vsize x)) x (Nat.lt_succ_diag_r _) (snd a) n InlineSchema z);
        [|now right|exact Hzg]. now apply (reg_mentions _ _ _ _ _ HR r Hr Hns). }
    destruct Ha as [k [[o' Hk]|Hk]]; exists k; rewrite Hi, Hk; cbn; auto.
  - destruct Hl as (a & t' & Ha & _ & _ & Q). now apply HN in Ha.
Qed.

(** Valid arguments are of the types of the parameters. *)
Theorem valid_typed args : loadable E inside -> TsSpec.distinct E inside ->
  Forall2 (fun a v => valid ip E M (snd a) v) (r_args r) args -> Forall2 (fun q v => TsSpec.member (module_types m) (snd q) v) (fn_params g) args.
Proof.
  intros HL HD Hv. destruct function_is as (_ & _ & Hp & _). pose proof (reg_mentions _ _ _ _ _ HR r Hr Hns) as [Hw _].
  revert args Hv. induction Hp as [|a q l ps' [_ (t' & Ht & Hy)] _ IH]; intros args Hv; inversion Hv as [|? v ? vs (s2 & z & o' & P1 & P2 & P3) Q]; subst; constructor.
  - assert (Hwa : within inside (snd a)) by (apply Hw; now left).
    exact (proj1 (accepted_member E ip M (module_types m) inside InlineSchema Inline (snd a) s2 z t' (snd q) v o'
      (reg_names _ _ _ _ _ HR) (reg_types _ _ _ _ _ HR) Htags (reg_spans _ _ _ _ _ HR) HD (schemas_exported HL) types_exported Hwa
      (or_intror eq_refl) P1 P2 (or_intror eq_refl) Ht Hy P3)).
  - apply IH; auto. intros a' Ha'. apply Hw. now right.
Qed.

(** ... and serde reads them. *)
Theorem valid_reads R wide args : loadable E inside -> sound true wide inside E -> (forall a, In a (r_args r) -> sound_ty true wide inside (snd a) = true) ->
  Forall (sane wide) args -> Forall2 (fun a v => valid ip E M (snd a) v) (r_args r) args ->
  Forall2 (fun a v => exists n, de R E n (snd a) (stringify_elem v) = true) (r_args r) args.
Proof.
  intros HL HS Hs Ha Hv. pose proof (reg_names _ _ _ _ _ HR) as Hgn. induction Hv as [|a v l vs (t' & z & o' & [n Hn] & P2 & [k P3]) _ IH]; constructor.
  - inversion Ha; subst. destruct (gen_agen E n InlineSchema (snd a) t' Hgn (or_intror eq_refl) Hn) as (e & He & _ & _ & Hp).
    unfold load in P2. rewrite Hp in P2. pose proof (zgen_ok E Htags n InlineSchema (snd a) e z (or_intror eq_refl) He P2) as Hz.
    pose proof (main_sound R E ip M true wide inside HS (exports_zgen E inside M Hgn Htags (schemas_exported HL)) k n InlineSchema (snd a) z v o' (or_intror eq_refl) (Hs a (or_introl eq_refl)) H1 Hz P3) as Q.
    apply (good_elem R E true wide inside) in Q; [exact Q|]. apply Hs. now left.
  - inversion Ha; subst. apply IH; auto. intros a' Ha'. apply Hs. now right.
Qed.
End Fn.
