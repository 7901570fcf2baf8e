(** The generated namespaces as TypeScript. *)
From Coq Require Import List String Ascii Bool NArith Sorted Lia.
From Verif Require Import RustTy Gen GenSpec GenProofs JsLex JsParse Ast AstProofs TsType TsAst TsAstProofs JsModule Zod
  Docs DocsSpec DocsProofs Registry RegistrySpec RegistryProofs ParseSpec TsSpec ModuleSpec.
Import ListNotations.
Local Open Scope string_scope.
Local Open Scope list_scope.

(** ** Declarations before the closing brace *)
Inductive some_items : list ftok -> list item -> list ftok -> Prop :=
| si_nil r : some_items r [] r
| si_empty b ts is r : some_items ts is r -> some_items ((b, TP ";") :: ts) is r
| si_cons b ts i r is r' : item_of ts i r -> some_items r is r' -> some_items ((b, TId "export") :: ts) (i :: is) r'.

Lemma some_app ts is r is' r' : some_items ts is r -> some_items r is' r' -> some_items ts (is ++ is') r'.
Proof.
  intros H H'. induction H as [r|b ts is r _ IH|b ts i r is r0 Hi _ IH]; cbn; [exact H'|apply si_empty; auto|].
  eapply si_cons; eauto.
Qed.
Lemma some_all ts is r is' r' : some_items ts is r -> items_of r is' r' -> items_of ts (is ++ is') r'.
Proof.
  intros H H'. induction H as [r|b ts is r _ IH|b ts i r is r0 Hi _ IH]; cbn; [exact H'|apply items_empty; auto|].
  eapply items_cons; eauto.
Qed.

(** ** Texts *)
Lemma fl_post s ts b tb nl : ltx s ts -> stop b -> lexm M0 b = (M0, tb) ->
  exists nl' x xb, flexm M0 nl (s ^^ b) = (M0, nl', x ++ xb) /\ map snd x = ts /\ map snd xb = tb \/
                   b = "" /\ tb = [] .
Proof.
  intros Hs Hb Hl. destruct b as [|c b].
  - cbn in Hl. injection Hl as <-. exists nl, [], []. right. auto.
  - assert (H : exists m t, lexm M0 (s ^^ String c b) = (m, t) /\ m = M0 /\ t = ts ++ tb).
    { destruct Hs as (m1 & t1 & Ha & Hi & <-). destruct Hi as [->|[w ->]].
      - exists M0, (t1 ++ tb). split; [eapply lexm_seq; eassumption|]. cbn. now rewrite app_nil_r.
      - exists M0, (t1 ++ TId w :: tb). split; [|cbn; now rewrite <- app_assoc].
        eapply lexm_seq; [exact Ha|]. cbn [lexm step] in *. rewrite Hb. unfold next.
        destruct (start c) as [m3 t3]. destruct (lexm m3 b) as [m4 t4]. injection Hl as -> <-. reflexivity. }
    destruct H as (m & t & H & -> & ->). destruct (flexm_exists _ M0 nl M0 _ H) as (nl' & x & Hf & Hx).
    apply map_snd_app in Hx as (x1 & x2 & -> & H1 & H2). exists nl', x1, x2. left. auto.
Qed.

Lemma fl_lit s ts b tb nl : ltx s ts -> stop b -> b <> "" -> lexm M0 b = (M0, tb) ->
  exists nl' x xb, flexm M0 nl (s ^^ b) = (M0, nl', x ++ xb) /\ map snd x = ts /\ map snd xb = tb.
Proof.
  intros Hs Hb Hne Hl. destruct (fl_post s ts b tb nl Hs Hb Hl) as (nl' & x & xb & [H|[H _]]); [eauto|easy].
Qed.

(** The first token of a text that starts inside an identifier. *)
Lemma flexm_first_id s : forall w nl m' nl' b t x, flexm (MId w) nl s = (m', nl', (b, t) :: x) -> b = nl.
Proof.
  induction s as [|c s IH]; intros w nl m' nl' b t x; cbn; [discriminate|].
  destruct (id_char c) eqn:Hc.
  - rewrite (id_char_line c Hc). cbn. destruct (flexm _ nl s) as [[m2 nl2] t2] eqn:Hf. intros H. injection H as -> -> ->. eauto.
  - unfold next. destruct (start c) as [m1 t1]. destruct (flexm m1 _ s) as [[m2 nl2] t2]. cbn. intros H. now injection H.
Qed.

Lemma docs_silent ds nl : closed_docs ds -> exists nl', flexm M0 nl (utf8 (doc_text ds)) = (M0, nl', []) /\ (nl = true -> nl' = true).
Proof.
  intros [Hs Hc]. pose proof (docs_leave_no_token ds _ Hs (doc_lines_exist ds) (fun l Hl => Hc _ l (doc_lines_exist ds) Hl)) as H.
  destruct (flexm_exists _ M0 nl M0 _ H) as (nl' & x & Hf & Hx). destruct x; [|discriminate]. exists nl'. split; [exact Hf|].
  intros ->. exact (flexm_silent _ _ _ _ Hf).
Qed.

Lemma usable_wf n : usable n -> wf (EId n) = true.
Proof. intros [_ H]. unfold binding in H. cbn [wf]. now apply andb_true_iff in H as [H _]; apply andb_true_iff in H as [H _]. Qed.

(** A text of a constant and the text of a type. *)
Lemma lex_schema E i s : good_names E -> returns E Schema (TNamed i) s ->
  exists e, schema_tree E Schema (TNamed i) e /\ wf e = true /\ lexm M0 s = (M0, tokens_of e).
Proof.
  intros HE [n Hn]. destruct (gen_lex E HE n Schema (TNamed i) s (or_introl eq_refl) Hn) as (e & _ & Ho & Hl).
  destruct (gen_agen E n Schema (TNamed i) s HE (or_introl eq_refl) Hn) as (e' & _ & Hw & Hl' & Hp).
  exists e. split; [|split; [apply Ho|exact Hl]]. exists s. split; [now exists n|].
  unfold lex in Hl'. rewrite Hl in Hl'. cbn in Hl'. rewrite app_nil_r in Hl'. injection Hl' as Ht.
  rewrite (tokens_unique e e' (proj1 Ho) Hw Ht). exact Hp.
Qed.

Lemma lex_schema_q E q t s : good_names E -> sq q -> returns E q t s ->
  exists e, schema_tree E q t e /\ okexp e /\ lexm M0 s = (M0, tokens_of e).
Proof.
  intros HE Hq [n Hn]. destruct (gen_lex E HE n q t s Hq Hn) as (e & _ & Ho & Hl).
  destruct (gen_agen E n q t s HE Hq Hn) as (e' & _ & Hw & Hl' & Hp).
  exists e. split; [|split; [exact Ho|exact Hl]]. exists s. split; [now exists n|].
  unfold lex in Hl'. rewrite Hl in Hl'. cbn in Hl'. rewrite app_nil_r in Hl'. injection Hl' as Ht.
  rewrite (tokens_unique e e' (proj1 Ho) Hw Ht). exact Hp.
Qed.

Lemma lex_type_q E q t s : good_names E -> type_names E -> tq q -> returns E q t s ->
  exists y, type_tree E q t y /\ ywf y = true /\ tx s (ytokens y).
Proof.
  intros HE HT Hq [n Hn]. destruct (gen_tx E HE HT n q t s Hq Hn) as (y & Hy & Hok & Ht).
  destruct (gen_tgen E n q t s HE HT Hq Hn) as (y' & Hy' & Hw & _ & Hp). rewrite Hy in Hy'. injection Hy' as <-.
  exists y. split; [exists s; split; [now exists n|exact Hp]|auto].
Qed.

(** ** The text of a type member *)
Lemma const_text nl d o n s e : usable (o ^^ n) -> lexm M0 s = (M0, tokens_of e) ->
  flexm M0 nl d = (M0, true, []) \/ flexm M0 nl d = (M0, false, []) ->
  exists b x, flexm M0 nl (d ^^ "export const " ^^ (o ^^ n) ^^ "= " ^^ s ^^ Gen.nl) =
    (M0, true, (b, TId "export") :: (false, TId "const") :: (false, TId (o ^^ n)) :: (false, TP "=") :: x) /\ map snd x = tokens_of e.
Proof.
  intros [Hn _] Hs Hd. assert (Hd' : exists b, flexm M0 nl d = (M0, b, [])) by (destruct Hd; eauto). destruct Hd' as [b Hb].
  destruct (flexm_exists s M0 false M0 _ Hs) as (nl' & x & Hf & Hx). exists b, x. split; [|exact Hx].
  rewrite <- (app_nil_r x).
  apply (flexm_seq _ _ _ _ _ [] _ _ _ _ Hb).
  apply (flexm_seq M0 b "export const " M0 false [(b, TId "export"); (false, TId "const")] _ M0 true
           ((false, TId (o ^^ n)) :: (false, TP "=") :: x ++ [])); [reflexivity|].
  apply (flexm_seq _ _ _ _ _ [] _ _ _ _ (flexm_ident _ false Hn)).
  apply (flexm_seq (MId (o ^^ n)) false "= " M0 false [(false, TId (o ^^ n)); (false, TP "=")] _ M0 true (x ++ [])); [reflexivity|].
  apply (flexm_seq _ _ _ _ _ _ _ _ _ _ Hf). reflexivity.
Qed.

Lemma type_text_parts E o i s t b : type_text E o i s t b =
  (utf8 (doc_text (d_docs (lookup E i))) ^^ "export const " ^^ schema_name o (d_name (lookup E i)) ^^ "= " ^^ s ^^ Gen.nl) ^^
  utf8 (doc_text (d_docs (lookup E i))) ^^
  (if b then "export interface " ^^ interface_name o (d_name (lookup E i)) ^^ " " ^^ (t ^^ Gen.nl ^^ Gen.nl)
   else "export type " ^^ alias_name o (d_name (lookup E i)) ^^ " = " ^^ (t ^^ ";" ^^ Gen.nl ^^ Gen.nl)).
Proof.
  unfold type_text, schema_name, interface_name, alias_name, t_name. destruct b; rewrite !append_assoc; reflexivity.
Qed.

Definition member_reads (nl : bool) (s : string) (its : list item) : Prop :=
  exists nl' x, flexm M0 nl s = (M0, nl', x) /\ (forall r, goes_on (x ++ r)) /\ forall r, some_items (x ++ r) its r.

(** What makes the parser give up, whatever comes next. *)
Definition member_fails (nl : bool) (s : string) : Prop :=
  exists nl' x, flexm M0 nl s = (M0, nl', x) /\ (forall r, goes_on (x ++ r)) /\
    forall b r, goes_on r -> mrun (QItem b) (x ++ r) = QErr.

Lemma qerr ts : mrun QErr ts = QErr.
Proof. induction ts as [|[b t] ts IH]; [reflexivity|exact IH]. Qed.

Lemma type_member_text E o i s nl : good_names E -> type_names E -> usable_type E o i -> type_member E o i s ->
  (exists its, type_items E o i its /\ member_reads nl s its) \/
  (exists y, interface E (TNamed i) true /\ type_tree E TypeDef (TNamed i) y /\ (forall ps, y <> YObj ps) /\ member_fails nl s).
Proof.
  intros HE HT (_ & Hsn & Han & Hin & Hdoc) (sch & ty & b & Hsch & Hty & Hb & ->).
  destruct (lex_schema E i sch HE Hsch) as (e & He & Hwe & Hle).
  destruct (lex_type_q E TypeDef (TNamed i) ty HE HT (or_introl eq_refl) Hty) as (y & Hy & Hwy & [Hly _]).
  set (d := lookup E i) in *. set (docs := utf8 (doc_text (d_docs d))).
  destruct (docs_silent (d_docs d) nl Hdoc) as (nl1 & Hd1 & _).
  destruct (const_text nl docs (o_pre_schema o) (d_name d ^^ o_suf_schema o) sch e Hsn Hle) as (b1 & x1 & Hf1 & Hx1).
  { destruct nl1; auto. }
  destruct (docs_silent (d_docs d) true Hdoc) as (nl2 & Hd2 & Hnl2). specialize (Hnl2 eq_refl). subst nl2.
  rewrite <- declared_text, type_text_parts. fold d. fold docs.
  destruct b.
  - destruct (fl_lit ty (ytokens y) (Gen.nl ^^ Gen.nl) [] false Hly) as (nl3 & x3 & x4 & Hf3 & Hx3 & Hx4); try reflexivity; try discriminate.
    destruct x4; [|discriminate]. rewrite app_nil_r in Hf3.
    assert (Hf : exists nl', flexm M0 nl ((docs ^^ "export const " ^^ schema_name o (d_name d) ^^ "= " ^^ sch ^^ Gen.nl) ^^
        docs ^^ "export interface " ^^ interface_name o (d_name d) ^^ " " ^^ ty ^^ Gen.nl ^^ Gen.nl) =
      (M0, nl', ((b1, TId "export") :: (false, TId "const") :: (false, TId (schema_name o (d_name d))) :: (false, TP "=") :: x1) ++
        (true, TId "export") :: (false, TId "interface") :: (false, TId (interface_name o (d_name d))) :: x3)).
    { exists nl3. eapply flexm_seq; [exact Hf1|]. apply (flexm_seq _ _ _ _ _ [] _ _ _ _ Hd2).
      apply (flexm_seq M0 true "export interface " M0 false [(true, TId "export"); (false, TId "interface")] _ M0 nl3
               ((false, TId (interface_name o (d_name d))) :: x3)); [reflexivity|].
      apply (flexm_seq _ _ _ _ _ [] _ _ _ _ (flexm_ident _ false (proj1 Hin))).
      apply (flexm_seq (MId (interface_name o (d_name d))) false " " M0 false [(false, TId (interface_name o (d_name d)))] _ M0 nl3 x3); [reflexivity|].
      exact Hf3. }
    destruct Hf as (nl' & Hf).
    assert (Hcase : (exists ps, y = YObj ps) \/ forall ps, y <> YObj ps) by (destruct y; eauto; right; discriminate).
    destruct Hcase as [[ps ->]|Hno].
    + left. exists [IConst (schema_name o (d_name d)) e; IInterface (interface_name o (d_name d)) ps].
      split; [now apply ti_interface|]. eexists. eexists. split; [exact Hf|]. split; [reflexivity|]. intros r.
      rewrite <- app_assoc. cbn [app]. eapply si_cons.
      * apply item_const; [apply Hsn|exact Hwe|exact Hx1|]. now apply ends_line.
      * eapply si_cons; [apply item_interface; [apply Hin|exact Hwy|exact Hx3]|apply si_nil].
    + right. exists y. split; [exact Hb|]. split; [exact Hy|]. split; [exact Hno|].
      eexists. eexists. split; [exact Hf|]. split; [reflexivity|]. intros c r Hr.
      rewrite <- app_assoc. cbn [app]. rewrite mrun_cons. cbn [mstep at_item String.eqb Ascii.eqb Bool.eqb].
      rewrite (run_item c _ (IConst (schema_name o (d_name d)) e)
        ((true, TId "export") :: (false, TId "interface") :: (false, TId (interface_name o (d_name d))) :: x3 ++ r)); [|
        apply item_const; [apply Hsn|exact Hwe|exact Hx1|now apply ends_line]|reflexivity].
      set (c' := add_item c _). rewrite !mrun_cons. cbn [mstep at_item String.eqb Ascii.eqb Bool.eqb negb andb].
      rewrite (proj2 Hin). destruct x3 as [|[b2 t2] x3]; [now destruct (ytokens_nonempty _ Hwy)|].
      transitivity (mrun (QIntf2 c' (interface_name o (d_name d)) (YStart [])) (((b2, t2) :: x3) ++ r)).
      { cbn [app]. rewrite !mrun_cons. f_equal. }
      destruct r as [|[b3 t3] r]; [easy|]. cbn in Hr.
      erewrite (run_whole_ty (QIntf2 c' (interface_name o (d_name d))) (fun t => free (snd t))
        (fun y ft => match y with YObj ps => at_item (add_item c' (IInterface (interface_name o (d_name d)) ps)) (snd ft) | _ => QErr end));
        [| | |exact Hwy|exact Hx3|exact Hr].
      * destruct y; try (apply qerr). now destruct (Hno ps).
      * intros [nl0 t] H. cbn [snd] in *. destruct t as [w|w|k|q| |]; try discriminate; [eauto|].
        exact (over_types (nl0, TP q) H).
      * intros s0 [nl0 t]. reflexivity.
  - left. destruct (fl_lit ty (ytokens y) (";" ^^ Gen.nl ^^ Gen.nl) [TP ";"] false Hly) as (nl3 & x3 & x4 & Hf3 & Hx3 & Hx4); try reflexivity; try discriminate.
    apply map_snd_cons in Hx4 as (b4 & x5 & -> & Hx5). destruct x5; [|discriminate].
    exists [IConst (schema_name o (d_name d)) e; IType (alias_name o (d_name d)) y].
    split; [now apply ti_alias|].
    exists nl3, (((b1, TId "export") :: (false, TId "const") :: (false, TId (schema_name o (d_name d))) :: (false, TP "=") :: x1) ++
        (true, TId "export") :: (false, TId "type") :: (false, TId (alias_name o (d_name d))) :: (false, TP "=") :: x3 ++ [(b4, TP ";")]).
    split; [|split].
    + eapply flexm_seq; [exact Hf1|]. apply (flexm_seq _ _ _ _ _ [] _ _ _ _ Hd2).
      apply (flexm_seq M0 true "export type " M0 false [(true, TId "export"); (false, TId "type")] _ M0 nl3
               ((false, TId (alias_name o (d_name d))) :: (false, TP "=") :: x3 ++ [(b4, TP ";")])); [reflexivity|].
      apply (flexm_seq _ _ _ _ _ [] _ _ _ _ (flexm_ident _ false (proj1 Han))).
      apply (flexm_seq (MId (alias_name o (d_name d))) false " = " M0 false [(false, TId (alias_name o (d_name d))); (false, TP "=")] _ M0 nl3
               (x3 ++ [(b4, TP ";")])); [reflexivity|].
      exact Hf3.
    + reflexivity.
    + intros r. rewrite <- app_assoc. cbn [app]. eapply si_cons.
      * apply item_const; [apply Hsn|exact Hwe|exact Hx1|]. now apply ends_line.
      * rewrite <- app_assoc. cbn [app]. eapply si_cons; [apply item_type; [apply Han|exact Hwy|exact Hx3|apply ends_semicolon]|apply si_nil].
Qed.

(** ** The text of an rpc member *)
Lemma fields_text names types ys : Forall (fun n => ident n = true) names ->
  Forall2 (fun t y => tx t (ytokens y)) types ys -> List.length names = List.length types ->
  ltx (sep "," (map (fun p => fst p ^^ ": " ^^ snd p) (combine names types)))
      (commas (map param_tokens (combine names ys))).
Proof.
  intros Hn Hy. revert names Hn. induction Hy as [|t y ts ys [Ht _] Hy IH]; intros names Hn Hl.
  - destruct names; [|discriminate]. apply ltx_m0. reflexivity.
  - destruct names as [|n names]; [discriminate|]. inversion Hn as [|? ? Hi Hns]; subst. injection Hl as Hl.
    assert (Hpre : lexm M0 (n ^^ ": ") = (M0, [TId n; TP ":"])).
    { change [TId n; TP ":"] with ([] ++ [TId n; TP ":"]). eapply lexm_seq; [apply lexm_ident, Hi|reflexivity]. }
    assert (Hone : ltx (n ^^ ": " ^^ t) (param_tokens (n, y))).
    { rewrite <- append_assoc. exact (ltx_pre _ _ _ _ Hpre Ht). }
    specialize (IH names Hns Hl). cbn [combine map sep fst snd].
    destruct (combine names ts) as [|p ps] eqn:Hc.
    + destruct names, ts; try discriminate. inversion Hy; subst. exact Hone.
    + destruct (combine names ys) as [|q qs] eqn:Hc'.
      { destruct names; [discriminate|]. destruct ys; [|discriminate]. inversion Hy; subst. discriminate. }
      cbn [map]. rewrite commas_cons by easy. cbn [sep map] in IH |- *.
      change (TP "," :: commas (param_tokens q :: map param_tokens qs)) with ([TP ","] ++ commas (param_tokens q :: map param_tokens qs)).
      apply ltx_post; [exact Hone|reflexivity|]. exact (ltx_pre "," [TP ","] _ _ eq_refl IH).
Qed.

Lemma schemas_text ss es : Forall2 (fun s e => lexm M0 s = (M0, tokens_of e)) ss es ->
  lexm M0 (sep "," ss) = (M0, commas (map tokens_of es)).
Proof.
  induction 1 as [|s e ss es Hs Hl IH]; [reflexivity|]. destruct Hl as [|s2 e2 ss es Hs2 Hl].
  - exact Hs.
  - cbn [map]. rewrite commas_cons by easy. cbn [map] in IH.
    change (TP "," :: commas (tokens_of e2 :: map tokens_of es)) with ([TP ","] ++ commas (tokens_of e2 :: map tokens_of es)).
    change (sep "," (s :: s2 :: ss)) with (s ^^ "," ^^ sep "," (s2 :: ss)).
    eapply lexm_seq; [exact Hs|]. eapply lexm_seq; [reflexivity|exact IH].
Qed.

Lemma names_text names : names <> [] -> Forall usable names -> forall nl w r, infix_word w = false ->
  exists x, flexm M0 nl (sep (";" ^^ Gen.nl) names ^^ Gen.nl ^^ Gen.nl ^^ pad) = (M0, true, x) /\
    stmts_of (x ++ (true, TId w) :: r) (map (fun n => SExp (EId n)) names) ((true, TId w) :: r).
Proof.
  intros Hne Hu. induction Hu as [|n names Hn Hu IH]; [easy|]. intros nl w r Hw. destruct names as [|n2 names].
  - exists [(nl, TId n)]. split.
    + cbn [sep]. apply (flexm_seq _ _ _ _ _ [] _ _ _ _ (flexm_ident _ nl (proj1 Hn))). reflexivity.
    + cbn [map]. eapply stmts_cons; [|apply stmts_nil]. apply (stmt_exp [(nl, TId n)] (EId n)); auto.
      * now apply usable_wf.
      * now apply ends_line.
  - destruct (IH ltac:(discriminate) true w r Hw) as (x & Hx & Hs). exists ((nl, TId n) :: (false, TP ";") :: x). split.
    + change (sep (";" ^^ Gen.nl) (n :: n2 :: names)) with (n ^^ (";" ^^ Gen.nl) ^^ sep (";" ^^ Gen.nl) (n2 :: names)).
      rewrite !append_assoc. apply (flexm_seq _ _ _ _ _ [] _ _ _ _ (flexm_ident _ nl (proj1 Hn))).
      rewrite <- (append_assoc ";"). apply (flexm_seq (MId n) nl (";" ^^ Gen.nl) M0 true [(nl, TId n); (false, TP ";")]); [reflexivity|exact Hx].
    + cbn [map app]. eapply stmts_cons; [|exact Hs].
      apply (stmt_exp [(nl, TId n)] (EId n)); auto; [now apply usable_wf|apply ends_semicolon].
Qed.

Lemma phantom_text names : Forall usable names -> forall nl w r, infix_word w = false ->
  exists x, flexm M0 nl (Gen.nl ^^ pad ^^ phantom names ^^ Gen.nl ^^ Gen.nl ^^ pad) = (M0, true, x) /\
    stmts_of (x ++ (true, TId w) :: r) (map (fun n => SExp (EId n)) names) ((true, TId w) :: r).
Proof.
  intros Hu nl w r Hw. destruct names as [|n names].
  - exists []. split; [reflexivity|apply stmts_nil].
  - destruct (names_text (n :: names) ltac:(discriminate) Hu true w r Hw) as (x & Hx & Hs). exists x. split; [|exact Hs].
    unfold phantom. rewrite !append_assoc.
    change (Gen.nl ^^ pad ^^ "// phantom usage" ^^ Gen.nl ^^ sep (";" ^^ Gen.nl) (n :: names) ^^ Gen.nl ^^ Gen.nl ^^ pad) with
      ((Gen.nl ^^ pad ^^ "// phantom usage" ^^ Gen.nl) ^^ sep (";" ^^ Gen.nl) (n :: names) ^^ Gen.nl ^^ Gen.nl ^^ pad).
    apply (flexm_seq _ _ _ M0 true [] _ M0 true x); [reflexivity|exact Hx].
Qed.

Lemma validation_text schemas es : Forall okexp es -> Forall2 (fun s e => lexm M0 s = (M0, tokens_of e)) schemas es ->
  wf (validation es) = true /\
  lexm M0 ("z.tuple([" ^^ sep "," schemas ^^ "]).parse([...arguments])") = (M0, tokens_of (validation es)).
Proof.
  intros Ho Hs. split.
  - unfold validation. cbn [wf postfix forallb andb]. pose proof (wf_arr es Ho) as H. cbn [wf] in H. rewrite H. reflexivity.
  - pose proof (schemas_text _ _ Hs) as H. unfold validation.
    replace (tokens_of (ECall (EMember (ECall (EMember (EId "z") "tuple") [EArr es]) "parse") [EArr [ESpread (EId "arguments")]]))
      with ([TId "z"; TP "."; TId "tuple"; TP "("; TP "["] ++ commas (map tokens_of es) ++
        [TP "]"; TP ")"; TP "."; TId "parse"; TP "("; TP "["; TDots; TId "arguments"; TP "]"; TP ")"]).
    + eapply lexm_seq; [reflexivity|]. eapply lexm_seq; [exact H|reflexivity].
    + cbn [tokens_of map commas app]. now rewrite <- ?app_assoc.
Qed.

Lemma transmission_text f ns name : (f = "request" \/ f = "subscribe") -> ident ns = true -> ident name = true ->
  exists x nl', flexm M0 false (f ^^ "(""" ^^ ns ^^ """, """ ^^ name ^^ """, arguments)") = (M0, nl', x) /\
    map snd x = tokens_of (transmission f ns name) /\ same_line x /\ wf (transmission f ns name) = true.
Proof.
  intros Hf Hn Hm.
  assert (Hl : lexm M0 (f ^^ "(""" ^^ ns ^^ """, """ ^^ name ^^ """, arguments)") = (M0, tokens_of (transmission f ns name))).
  { change (tokens_of (transmission f ns name)) with
      ([] ++ [TId f; TP "("] ++ [] ++ [TStr ns; TP ","] ++ [] ++ [TStr name; TP ","; TId "arguments"; TP ")"]).
    eapply lexm_seq; [apply lexm_ident; destruct Hf as [-> | ->]; reflexivity|].
    eapply lexm_seq; [reflexivity|]. eapply lexm_seq; [apply lexm_str, ident_str, Hn|].
    eapply lexm_seq; [reflexivity|]. eapply lexm_seq; [apply lexm_str, ident_str, Hm|]. reflexivity. }
  destruct (flexm_exists _ M0 false M0 _ Hl) as (nl' & x & Hx & Ht). exists x, nl'. split; [exact Hx|]. split; [exact Ht|].
  split; [|destruct Hf as [-> | ->]; reflexivity].
  destruct x as [|[b t] x]; [exact I|]. cbn. rewrite flexm_app in Hx.
  rewrite flexm_ident in Hx by (destruct Hf as [-> | ->]; reflexivity).
  destruct (flexm (MId f) false _) as [[m2 nl2] x2] eqn:H2. cbn in Hx. injection Hx as -> -> ->.
  exact (flexm_first_id _ _ _ _ _ _ _ _ H2).
Qed.

(** The text in pieces. *)
Lemma decl_text_parts r types schemas res : decl_text r types schemas res =
  (Gen.nl ^^ pad ^^ "// @ts-ignore" ^^ Gen.nl ^^ pad ^^
     match r_kind r with Method => "export async function " | Stream => "export function " end) ^^
  (r_name r ^^ "(") ^^
  (sep "," (map (fun p => fst p ^^ ": " ^^ snd p) (combine (map fst (r_args r)) types)) ^^ "): ") ^^
  (((result_box (r_kind r) ^^ "<") ^^ res ^^ ">") ^^ " {") ^^
  (Gen.nl ^^ pad ^^ phantom (map fst (r_args r)) ^^ Gen.nl ^^ Gen.nl ^^ pad) ^^
  ("z.tuple([" ^^ sep "," schemas ^^ "]).parse([...arguments])") ^^ (";" ^^ Gen.nl ^^ pad ^^ "return ") ^^
  (transport (r_kind r) ^^ "(""" ^^ r_ns r ^^ """, """ ^^ r_name r ^^ """, arguments)") ^^
  (";" ^^ Gen.nl ^^ "                };").
Proof.
  unfold decl_text. destruct (r_kind r); cbn [result_box transport]; rewrite !append_assoc; reflexivity.
Qed.

Lemma box_text k res y : ywf y = true -> tx res (ytokens y) ->
  ltx ((result_box k ^^ "<") ^^ res ^^ ">") (ytokens (YApp (result_box k) [y])) /\ ywf (YApp (result_box k) [y]) = true.
Proof.
  intros Hw Ht. split; [|destruct k; cbn; now rewrite Hw].
  rewrite <- append_assoc. cbn [ytokens map commas].
  change (TId (result_box k) :: TP "<" :: ytokens y ++ [TP ">"]) with (([TId (result_box k)] ++ TP "<" :: ytokens y) ++ [TP ">"]).
  apply ltx_post; [|reflexivity|apply ltx_m0; reflexivity].
  apply ltx_lt; [destruct k; reflexivity|exact Ht].
Qed.

Lemma Forall2_exists {X Y Z} (R : X -> Y -> Prop) (S : X -> Z -> Prop) (T : Y -> Z -> Prop) l ys :
  Forall2 R l ys -> (forall x y, R x y -> exists z, S x z /\ T y z) -> exists zs, Forall2 S l zs /\ Forall2 T ys zs.
Proof.
  intros H HR. induction H as [|x y l ys Hx _ (zs & H1 & H2)]; [exists []; auto|].
  destruct (HR x y Hx) as (z & Hz1 & Hz2). exists (z :: zs). auto.
Qed.

Lemma combine_forall2 {X Y Z} (f : X -> Y) (R : X -> Z -> Prop) l zs : Forall2 R l zs ->
  Forall2 (fun x p => fst p = f x /\ R x (snd p)) l (combine (map f l) zs).
Proof. induction 1; cbn; constructor; auto. Qed.

Lemma rpc_member_text E m s nl : good_names E -> type_names E -> usable_rpc m -> rpc_member E m s ->
  exists f, rpc_func E m f /\ member_reads nl s [IFun f].
Proof.
  intros HE HT (Hns & Hname & Hargs & Hnd) (types & schemas & res & Ht & Hs & Hr & ->).
  destruct (Forall2_exists _ (fun a y => type_tree E Inline (snd a) y /\ ywf y = true) (fun t y => tx t (ytokens y)) _ _ Ht) as (ys & Hys & Htx).
  { intros a t Ha. destruct (lex_type_q E Inline (snd a) t HE HT (or_intror eq_refl) Ha) as (y & Hy & Hw & Hx). eauto. }
  destruct (Forall2_exists _ (fun a e => schema_tree E InlineSchema (snd a) e /\ okexp e) (fun s e => lexm M0 s = (M0, tokens_of e)) _ _ Hs) as (es & Hes & Hse).
  { intros a t Ha. destruct (lex_schema_q E InlineSchema (snd a) t HE (or_intror eq_refl) Ha) as (e & He & Ho & Hx). eauto. }
  destruct (lex_type_q E TypeDef (r_res m) res HE HT (or_introl eq_refl) Hr) as (y & Hy & Hwy & Htr).
  set (params := combine (map fst (r_args m)) ys).
  set (f := mkFunc match r_kind m with Method => true | Stream => false end (r_name m) params (YApp (result_box (r_kind m)) [y])
              (map (fun a => SExp (EId (fst a))) (r_args m) ++
                [SExp (validation es); SReturn (transmission (transport (r_kind m)) (r_ns m) (r_name m))])).
  exists f. split.
  { split; [reflexivity|]. split; [reflexivity|]. split; [|split].
    - cbn. unfold params. eapply Forall2_weaken; [|exact (combine_forall2 fst _ _ _ Hys)]. cbn. intros a p (H1 & H2 & _). auto.
    - exists y. auto.
    - exists es. split; [|reflexivity]. eapply Forall2_weaken; [|exact Hes]. cbn. now intros a e [H _]. }
  assert (Hpn : map fst params = map fst (r_args m)).
  { unfold params. apply combine_fst. rewrite map_length. exact (Forall2_len _ _ _ Hys). }
  assert (Hpar : good_params params).
  { split; [|now rewrite Hpn]. intros p Hp. split.
    - assert (Hi : In (fst p) (map fst (r_args m))) by (rewrite <- Hpn; now apply in_map).
      apply in_map_iff in Hi as (a & <- & Ha). apply (Hargs a Ha).
    - unfold params in Hp. destruct p as [n1 y1]. apply in_combine_r in Hp. cbn. clear - Hys Hp. induction Hys as [|a y0 l ys [_ H] _ IH]; [easy|].
      destruct Hp as [->|Hp]; auto. }
  assert (Hid : Forall (fun n => ident n = true) (map fst (r_args m))).
  { rewrite Forall_forall. intros n Hn. apply in_map_iff in Hn as (a & <- & Ha). apply (Hargs a Ha). }
  assert (Hus : Forall usable (map fst (r_args m))).
  { rewrite Forall_forall. intros n Hn. apply in_map_iff in Hn as (a & <- & Ha). apply (Hargs a Ha). }
  assert (Hoe : Forall okexp es).
  { clear - Hes. induction Hes as [|a e l es [_ H] _ IH]; constructor; auto. }
  (* the pieces *)
  assert (H1 : flexm M0 nl (Gen.nl ^^ pad ^^ "// @ts-ignore" ^^ Gen.nl ^^ pad ^^
      match r_kind m with Method => "export async function " | Stream => "export function " end) =
    (M0, false, (true, TId "export") :: (if fn_async f then [(false, TId "async"); (false, TId "function")] else [(false, TId "function")]))).
  { unfold f. cbn [fn_async]. destruct (r_kind m); reflexivity. }
  assert (H2 : flexm M0 false (r_name m ^^ "(") = (M0, false, [(false, TId (r_name m)); (false, TP "(")])).
  { apply (flexm_seq _ _ _ _ _ [] _ _ _ _ (flexm_ident _ false (proj1 Hname))). reflexivity. }
  pose proof (fields_text _ _ _ Hid Htx) as Hfl. rewrite map_length in Hfl. specialize (Hfl (Forall2_len _ _ _ Ht)). fold params in Hfl.
  destruct (fl_lit _ _ "): " [TP ")"; TP ":"] false Hfl) as (nl3 & x3 & x3' & H3 & Hx3 & Hx3'); try reflexivity; try discriminate.
  apply map_snd_cons in Hx3' as (b31 & x31 & -> & Hx3'). apply map_snd_cons in Hx3' as (b32 & x32 & -> & Hx3'). destruct x32; [|discriminate].
  destruct (box_text (r_kind m) res y Hwy Htr) as [Hbl Hbw].
  destruct (fl_lit _ _ " {" [TP "{"] nl3 Hbl) as (nl4 & x4 & x4' & H4 & Hx4 & Hx4'); try reflexivity; try discriminate.
  apply map_snd_cons in Hx4' as (b41 & x41 & -> & Hx4'). destruct x41; [|discriminate].
  destruct (validation_text schemas es Hoe Hse) as [Hvw Hvl].
  destruct (flexm_exists _ M0 true M0 _ Hvl) as (nl6 & x6 & H6 & Hx6).
  assert (Hz : exists x6', x6 = (true, TId "z") :: x6').
  { cbn in Hx6. apply map_snd_cons in Hx6 as (b6 & x6' & -> & _). rewrite (flexm_first _ _ _ _ _ _ _ H6). eauto. }
  destruct Hz as [x6' Hz].
  assert (H7 : flexm M0 nl6 (";" ^^ Gen.nl ^^ pad ^^ "return ") = (M0, false, [(nl6, TP ";"); (true, TId "return")])) by reflexivity.
  destruct (transmission_text (transport (r_kind m)) (r_ns m) (r_name m)) as (x8 & nl8 & H8 & Hx8 & Hl8 & Hw8);
    [destruct (r_kind m); auto|apply Hns|apply Hname|].
  assert (H9 : flexm M0 nl8 (";" ^^ Gen.nl ^^ "                };") = (M0, false, [(nl8, TP ";"); (true, TP "}"); (false, TP ";")])) by reflexivity.
  set (tail := fun r => [(nl6, TP ";"); (true, TId "return")] ++ x8 ++ [(nl8, TP ";"); (true, TP "}"); (false, TP ";")] ++ r).
  assert (H5 : exists x5, flexm M0 nl4 (Gen.nl ^^ pad ^^ phantom (map fst (r_args m)) ^^ Gen.nl ^^ Gen.nl ^^ pad) = (M0, true, x5) /\
    forall r, stmts_of (x5 ++ x6 ++ tail r) (map (fun n => SExp (EId n)) (map fst (r_args m))) (x6 ++ tail r)).
  { destruct (phantom_text _ Hus nl4 "z" [] eq_refl) as (x5 & H5 & _). exists x5. split; [exact H5|]. intros r.
    destruct (phantom_text _ Hus nl4 "z" (x6' ++ tail r) eq_refl) as (x5' & H5' & Hs5). rewrite H5 in H5'. injection H5' as <-.
    rewrite Hz. exact Hs5. }
  destruct H5 as (x5 & H5 & Hs5).
  exists false, (((true, TId "export") :: (if fn_async f then [(false, TId "async"); (false, TId "function")] else [(false, TId "function")])) ++
    [(false, TId (r_name m)); (false, TP "(")] ++ (x3 ++ [(b31, TP ")"); (b32, TP ":")]) ++ (x4 ++ [(b41, TP "{")]) ++ x5 ++ x6 ++
    [(nl6, TP ";"); (true, TId "return")] ++ x8 ++ [(nl8, TP ";"); (true, TP "}"); (false, TP ";")]).
  split; [|split].
  - rewrite <- declared_rpc_text, decl_text_parts. repeat (eapply flexm_seq; [eassumption|]). exact H9.
  - reflexivity.
  - intros r.
    assert (Hf : func_of (fn_async f) ([(false, TId (r_name m)); (false, TP "(")] ++ (x3 ++ [(b31, TP ")"); (b32, TP ":")]) ++ (x4 ++ [(b41, TP "{")]) ++
        x5 ++ x6 ++ tail r) f ((false, TP ";") :: r)).
    { unfold f. cbn [fn_async]. rewrite <- !app_assoc. cbn [app]. apply func_intro with (b6 := true); auto.
      - apply Hname.
      - assert (Hss : forall a b c d ts ts' ts'', stmts_of ts a ts' -> stmt_of ts' b ts'' -> stmt_of ts'' c d -> stmts_of ts (a ++ [b; c]) d).
        { clear. intros a b c d ts ts' ts'' H Hb Hc. induction H as [r|ts s r ss r' Hs _ IH]; cbn.
          - eapply stmts_cons; [exact Hb|]. eapply stmts_cons; [exact Hc|apply stmts_nil].
          - eapply stmts_cons; eauto. }
        eapply Hss.
        + specialize (Hs5 r). rewrite map_map in Hs5. exact Hs5.
        + unfold tail. cbn [app]. eapply stmt_exp; [exact Hvw|reflexivity|exact Hx6|apply ends_semicolon].
        + apply stmt_return; [exact Hw8|exact Hx8|exact Hl8|apply ends_semicolon]. }
    assert (Hi : item_of ((if fn_async f then [(false, TId "async"); (false, TId "function")] else [(false, TId "function")]) ++
       [(false, TId (r_name m)); (false, TP "(")] ++ (x3 ++ [(b31, TP ")"); (b32, TP ":")]) ++ (x4 ++ [(b41, TP "{")]) ++
        x5 ++ x6 ++ tail r) (IFun f) ((false, TP ";") :: r)).
    { destruct (fn_async f); [now apply item_async|now apply item_function]. }
    rewrite <- !app_assoc in *. unfold tail in Hi. cbn [app] in Hi |- *.
    eapply si_cons; [|apply si_empty, si_nil]. destruct (fn_async f); cbn [app] in *; exact Hi.
Qed.

(** ** Which interfaces have an object type *)
Lemma struct_fields_kept st tr fs : List.length (struct_fields st tr fs) = List.length (kept fs).
Proof. unfold struct_fields, kept. apply map_length. Qed.

Lemma sfield_flatten st tr fs : (forall f, In f (kept fs) -> f_flatten f = false) -> filter s_flatten (struct_fields st tr fs) = [].
Proof.
  unfold struct_fields, kept. induction (filter _ fs) as [|f l IH]; intros H; [reflexivity|]. cbn.
  rewrite (H f (or_introl eq_refl)). apply IH. intros g Hg. apply H. now right.
Qed.
Lemma sfield_plain st tr fs : (forall f, In f (kept fs) -> f_flatten f = false) ->
  filter (fun f => negb (s_flatten f)) (struct_fields st tr fs) = struct_fields st tr fs.
Proof.
  unfold struct_fields, kept. induction (filter _ fs) as [|f l IH]; intros H; [reflexivity|]. cbn.
  rewrite (H f (or_introl eq_refl)). cbn. f_equal. apply IH. intros g Hg. apply H. now right.
Qed.
Lemma sfield_flattens st tr fs f : In f (kept fs) -> f_flatten f = true -> filter s_flatten (struct_fields st tr fs) <> [].
Proof.
  unfold struct_fields, kept. induction (filter _ fs) as [|g l IH]; intros Hi Hf; [easy|]. cbn. destruct Hi as [->|Hi].
  - now rewrite Hf.
  - destruct (f_flatten g); [discriminate|]. now apply IH.
Qed.

Lemma flatten_dec fs : (exists f, In f (kept fs) /\ f_flatten f = true) \/ forall f, In f (kept fs) -> f_flatten f = false.
Proof.
  destruct (existsb f_flatten (kept fs)) eqn:H.
  - left. apply existsb_exists in H. exact H.
  - right. intros f Hf. destruct (f_flatten f) eqn:E; [|reflexivity].
    assert (existsb f_flatten (kept fs) = true) by (apply existsb_exists; eauto). congruence.
Qed.

Lemma all_some_nil {A} (l : list (option A)) r : all_some l = Some r -> (l = [] <-> r = []).
Proof.
  destruct l as [|[x|] l]; cbn; [intros H; injection H as <-; tauto| |discriminate].
  destruct (all_some l); [|discriminate]. intros H. injection H as <-. split; discriminate.
Qed.

Lemma inter_not_obj a b ps : inter a b <> YObj ps.
Proof.
  assert (H1 : forall a b ps, inter1 a b <> YObj ps) by (intros ? [] ?; discriminate).
  assert (H2 : forall a b ps, uni a b <> YObj ps) by (intros ? [] ?; discriminate).
  unfold inter. destruct a; auto.
Qed.
Lemma inters_not_obj ys : forall a, (forall ps, a <> YObj ps) -> forall ps, fold_left inter ys a <> YObj ps.
Proof. induction ys as [|y ys IH]; intros a Ha ps; [apply Ha|]. cbn. apply IH. intros qs. apply inter_not_obj. Qed.

Lemma interface_object E n : forall t k y, is_interface E n t = Some true -> ~ misshapen E t ->
  tgen E k TypeDef t = Some y -> exists ps, y = YObj ps.
Proof.
  induction n as [|n IH]; intros t k y Hi Hm Hy; [discriminate|]. cbn [is_interface] in Hi.
  destruct k as [|k]; [discriminate|]. destruct t; try discriminate.
  - cbn [tgen builtin_ty] in Hy. apply (IH t k); auto. intros H. apply Hm. now apply mis_wrap.
  - cbn [tgen] in Hy. destruct (derive (lookup E i)) as [im| | |] eqn:Hd; try discriminate.
    unfold derive in Hd. unfold decl_ty in Hy.
    destruct (d_body (lookup E i)) as [st tr fs|tg vs] eqn:Hb.
    + assert (Hst : derive_struct (lookup E i) st tr fs = Done im) by exact Hd. clear Hd. unfold derive_struct in Hst.
      assert (Hf : i_interface im = match d_from (lookup E i) with Some _ => Some false | None => Some (struct_interface st tr (struct_fields st tr fs)) end).
      { destruct st; [| |discriminate];
          (destruct (struct_schema _ _ _) as [sc| | |]; try discriminate; destruct (struct_type _ _ _) as [td| | |]; try discriminate;
           cbn [obind] in Hst; injection Hst as <-; destruct (d_from (lookup E i)); reflexivity). }
      rewrite Hf in Hi. destruct (d_from (lookup E i)) eqn:Hfrom; [discriminate|]. injection Hi as Hi.
      unfold struct_interface in Hi. destruct tr; [rewrite orb_true_r in Hi; destruct st; discriminate|].
      destruct st; [| |discriminate].
      * destruct (flatten_dec fs) as [(f & Hfk & Hff)|Hno].
        -- destruct Hm. now apply (mis_flatten E i fs f).
        -- cbn [struct_ty] in Hy. rewrite (sfield_flatten StNamed false fs Hno) in Hy. cbn [map all_some option_map fold_left] in Hy.
           destruct (all_some _) as [ps|]; [|discriminate]. cbn in Hy. injection Hy as <-. eauto.
      * rewrite struct_fields_kept in Hi. destruct Hm. apply (mis_tuple E i fs); auto. intros Hl. now rewrite Hl in Hi.
    + unfold derive_enum in Hd. destruct (enum_schema _ _) as [sc| | |]; try discriminate. destruct (enum_type _ _) as [td| | |]; try discriminate.
      cbn [obind] in Hd. injection Hd as <-. destruct (d_from (lookup E i)) as [t|] eqn:Hfrom; cbn in Hi; [|discriminate].
      apply (IH t k y); auto. intros H. apply Hm. now apply (mis_from E i tg vs t).
Qed.

Lemma misshapen_spec E t : no_tuple_flatten E -> misshapen E t -> forall k y, tgen E k TypeDef t = Some y ->
  interface E t true /\ forall ps, y <> YObj ps.
Proof.
  intros HE H. induction H as [i fs f Hfrom Hb Hf Hff|i fs Hfrom Hb Hl|w t _ IH|i tg vs t Hfrom Hb _ IH]; intros k y Hy;
    (destruct k as [|k]; [discriminate|]); cbn [tgen] in Hy.
  - destruct (derive (lookup E i)) as [im| | |] eqn:Hd; try discriminate. split.
    + exists 1. cbn [is_interface]. rewrite Hd. unfold derive in Hd. rewrite Hb in Hd. unfold derive_struct in Hd.
      destruct (struct_schema _ _ _) as [sc| | |]; try discriminate. destruct (struct_type _ _ _) as [td| | |]; try discriminate.
      cbn [obind] in Hd. injection Hd as <-. rewrite Hfrom. cbn [i_interface struct_interface]. now rewrite andb_false_r.
    + unfold decl_ty in Hy. rewrite Hfrom, Hb in Hy. cbn [struct_ty] in Hy.
      destruct (all_some (map (stprop _) _)) as [ps|]; [|discriminate]. cbn [Ast.bind] in Hy.
      destruct (all_some (map (stflat _) _)) as [ys|] eqn:Hys; [|discriminate]. cbn in Hy. injection Hy as <-.
      destruct ys as [|y1 ys].
      * exfalso. apply all_some_nil in Hys. destruct Hys as [_ Hys]. specialize (Hys eq_refl).
        apply map_eq_nil in Hys. exact (sfield_flattens StNamed false fs f Hf Hff Hys).
      * intros qs. cbn [fold_left]. apply inters_not_obj. intros rs. apply inter_not_obj.
  - destruct (derive (lookup E i)) as [im| | |] eqn:Hd; try discriminate. pose proof (HE i fs Hb) as Hno. split.
    + exists 1. cbn [is_interface]. rewrite Hd. unfold derive in Hd. rewrite Hb in Hd. unfold derive_struct in Hd.
      destruct (struct_schema _ _ _) as [sc| | |]; try discriminate. destruct (struct_type _ _ _) as [td| | |]; try discriminate.
      cbn [obind] in Hd. injection Hd as <-. rewrite Hfrom. cbn [i_interface struct_interface]. rewrite struct_fields_kept.
      destruct (Nat.eqb (List.length (kept fs)) 1) eqn:Hq; [apply PeanoNat.Nat.eqb_eq in Hq; easy|reflexivity].
    + unfold decl_ty in Hy. rewrite Hfrom, Hb in Hy. cbn [struct_ty] in Hy. rewrite (sfield_plain StTuple false fs Hno) in Hy.
      rewrite <- (struct_fields_kept StTuple false) in Hl. destruct (struct_fields StTuple false fs) as [|f1 [|f2 l]]; [discriminate|now destruct Hl|].
      destruct (all_some _); [|discriminate]. cbn in Hy. injection Hy as <-. discriminate.
  - cbn [builtin_ty] in Hy. destruct (IH k y Hy) as [[n Hn] Hps]. split; [|exact Hps]. now exists (S n).
  - destruct (derive (lookup E i)) as [im| | |] eqn:Hd; try discriminate. unfold decl_ty in Hy. rewrite Hfrom, Hb in Hy.
    destruct (IH k y Hy) as [[n Hn] Hps]. split; [|exact Hps]. exists (S n). cbn [is_interface]. rewrite Hd.
    unfold derive in Hd. rewrite Hb in Hd. unfold derive_enum in Hd. destruct (enum_schema _ _) as [sc| | |]; try discriminate.
    destruct (enum_type _ _) as [td| | |]; try discriminate. cbn [obind] in Hd. injection Hd as <-. rewrite Hfrom. exact Hn.
Qed.

Lemma type_tree_tgen E q t y : good_names E -> type_names E -> tq q -> type_tree E q t y -> exists n, tgen E n q t = Some y.
Proof.
  intros HE HT Hq (s & [n Hn] & Hp). destruct (gen_tgen E n q t s HE HT Hq Hn) as (y' & Hy & _ & _ & Hp'). exists n. congruence.
Qed.

(** ** One reading *)
Lemma schema_tree_unique E q t e e' : schema_tree E q t e -> schema_tree E q t e' -> e = e'.
Proof. intros (s & Hs & Hp) (s' & Hs' & Hp'). rewrite (returns_det E q t s s' Hs Hs') in Hp. congruence. Qed.
Lemma type_tree_unique E q t y y' : type_tree E q t y -> type_tree E q t y' -> y = y'.
Proof. intros (s & Hs & Hp) (s' & Hs' & Hp'). rewrite (returns_det E q t s s' Hs Hs') in Hp. congruence. Qed.
Lemma interface_unique E t b b' : interface E t b -> interface E t b' -> b = b'.
Proof.
  intros [n Hn] [n' Hn']. pose proof (interface_mono E n (n + n') t b ltac:(lia) Hn) as H1.
  pose proof (interface_mono E n' (n + n') t b' ltac:(lia) Hn') as H2. congruence.
Qed.
Lemma type_items_unique E o i a b : type_items E o i a -> type_items E o i b -> a = b.
Proof.
  intros [e y He Hy Hi|e ps He Hy Hi] [e' y' He' Hy' Hi'|e' ps' He' Hy' Hi'];
    try (pose proof (interface_unique _ _ _ _ Hi Hi'); discriminate).
  - rewrite (schema_tree_unique _ _ _ _ _ He He'), (type_tree_unique _ _ _ _ _ Hy Hy'). reflexivity.
  - pose proof (type_tree_unique _ _ _ _ _ Hy Hy') as H. injection H as ->. now rewrite (schema_tree_unique _ _ _ _ _ He He').
Qed.
Lemma Forall2_unique {A B} (R : A -> B -> Prop) : (forall a b b', R a b -> R a b' -> b = b') ->
  forall l m m', Forall2 R l m -> Forall2 R l m' -> m = m'.
Proof.
  intros HR l m m' H. revert m'. induction H as [|a b l m Hab _ IH]; intros m' H'; inversion H'; subst; [reflexivity|].
  f_equal; eauto.
Qed.
Lemma rpc_func_unique E m f g : rpc_func E m f -> rpc_func E m g -> f = g.
Proof.
  intros (Ha & Hn & Hp & (y & Hy & Hr) & es & Hes & Hb) (Ha' & Hn' & Hp' & (y' & Hy' & Hr') & es' & Hes' & Hb').
  destruct f, g; cbn in *. subst. rewrite (type_tree_unique _ _ _ _ _ Hy Hy').
  assert (Hpp : forall (a : string * ty) (b b' : string * tsty), fst b = fst a /\ type_tree E Inline (snd a) (snd b) ->
    fst b' = fst a /\ type_tree E Inline (snd a) (snd b') -> b = b').
  { intros a [n1 y1] [n2 y2] [H1 H2] [H3 H4]. cbn in *. subst. f_equal. eapply type_tree_unique; eassumption. }
  rewrite (Forall2_unique _ Hpp _ _ _ Hp Hp').
  rewrite (Forall2_unique (fun (a : string * ty) e => schema_tree E InlineSchema (snd a) e) (fun a b b' => schema_tree_unique E _ _ b b') _ _ _ Hes Hes').
  reflexivity.
Qed.

(** A type member reads as its two declarations, or the parser gives up on it. *)
Lemma type_member_cases E o i s : good_names E -> type_names E -> usable_type E o i -> type_member E o i s ->
  (exists its, type_items E o i its /\ forall nl, member_reads nl s its) \/
  (exists y, interface E (TNamed i) true /\ type_tree E TypeDef (TNamed i) y /\ (forall ps, y <> YObj ps) /\ forall nl, member_fails nl s).
Proof.
  intros HE HT Hu Hs.
  assert (Hx : forall its y, type_items E o i its -> interface E (TNamed i) true -> type_tree E TypeDef (TNamed i) y ->
    (forall ps, y <> YObj ps) -> False).
  { intros its y Hi Hb Hy Hn. destruct Hi as [e y' _ Hy' Hi|e ps _ Hy' _].
    - pose proof (interface_unique _ _ _ _ Hb Hi). discriminate.
    - apply (Hn ps). eapply type_tree_unique; eassumption. }
  destruct (type_member_text E o i s true HE HT Hu Hs) as [(its & Hi & _)|(y & Hb & Hy & Hn & _)].
  - left. exists its. split; [exact Hi|]. intros nl. destruct (type_member_text E o i s nl HE HT Hu Hs) as [(its' & Hi' & Hr)|(y & Hb & Hy & Hn & _)].
    + now rewrite (type_items_unique _ _ _ _ _ Hi Hi').
    + destruct (Hx its y Hi Hb Hy Hn).
  - right. exists y. repeat split; auto. intros nl. destruct (type_member_text E o i s nl HE HT Hu Hs) as [(its' & Hi' & Hr)|(y' & _ & _ & _ & Hf)].
    + destruct (Hx its' y Hi' Hb Hy Hn).
    + exact Hf.
Qed.
Lemma rpc_member_reads E m s : good_names E -> type_names E -> usable_rpc m -> rpc_member E m s ->
  exists f, rpc_func E m f /\ forall nl, member_reads nl s [IFun f].
Proof.
  intros HE HT Hu Hs. destruct (rpc_member_text E m s true HE HT Hu Hs) as (f & Hf & _). exists f. split; [exact Hf|].
  intros nl. destruct (rpc_member_text E m s nl HE HT Hu Hs) as (g & Hg & Hr). now rewrite (rpc_func_unique _ _ _ _ Hf Hg).
Qed.

(** ** Members in a row *)
Lemma some_run ts is r : some_items ts is r -> goes_on r -> forall m n l,
  goes_on ts /\ mrun (QItem (m, n, l)) ts = mrun (QItem (m, n, l ++ is)) r.
Proof.
  intros H. induction H as [r|b ts is r _ IH|b ts i r is r' Hi Hs IH]; intros Hr m n l.
  - rewrite app_nil_r. auto.
  - split; [reflexivity|]. rewrite mrun_cons. now apply IH.
  - split; [reflexivity|]. rewrite mrun_cons. cbn [mstep at_item String.eqb Ascii.eqb Bool.eqb].
    destruct (IH Hr m n (l ++ [i])) as [Hg IH']. rewrite (run_item _ _ _ _ Hi Hg). cbn [add_item]. rewrite IH'. now rewrite <- app_assoc.
Qed.

Definition lexes (nl : bool) (s : string) : Prop :=
  exists nl' x, flexm M0 nl s = (M0, nl', x) /\ forall r, goes_on r -> goes_on (x ++ r).
Definition reads_all (nl : bool) (s : string) (its : list item) : Prop :=
  exists nl' x, flexm M0 nl s = (M0, nl', x) /\ (forall r, goes_on r -> goes_on (x ++ r)) /\ forall r, some_items (x ++ r) its r.
Definition fails (nl : bool) (s : string) : Prop :=
  exists nl' x, flexm M0 nl s = (M0, nl', x) /\ (forall r, goes_on r -> goes_on (x ++ r)) /\
    forall b r, goes_on r -> mrun (QItem b) (x ++ r) = QErr.

Lemma members_read ss its : Forall2 (fun s is => forall nl, member_reads nl s is) ss its ->
  forall nl, reads_all nl (cats ss) (List.concat its).
Proof.
  intros H. induction H as [|s is ss its Hs _ IH]; intros nl.
  - exists nl, []. repeat split; auto. intros r. constructor.
  - destruct (Hs nl) as (nl1 & x1 & Hf1 & Hg1 & H1). destruct (IH nl1) as (nl2 & x2 & Hf2 & Hg2 & H2).
    exists nl2, (x1 ++ x2). split; [eapply flexm_seq; eassumption|]. split; intros r; rewrite <- app_assoc; [auto|].
    eapply some_app; auto.
Qed.
Lemma members_lex ss : Forall (fun s => (exists is, forall nl, member_reads nl s is) \/ forall nl, member_fails nl s) ss ->
  forall nl, lexes nl (cats ss).
Proof.
  intros H. induction H as [|s ss Hs _ IH]; intros nl; [exists nl, []; auto|].
  assert (H : exists nl1 x1, flexm M0 nl s = (M0, nl1, x1) /\ forall r, goes_on (x1 ++ r)).
  { destruct Hs as [(is & Hs)|Hs]; destruct (Hs nl) as (nl1 & x1 & Hf1 & Hg1 & _); eauto. }
  destruct H as (nl1 & x1 & Hf1 & Hg1). destruct (IH nl1) as (nl2 & x2 & Hf2 & Hg2).
  exists nl2, (x1 ++ x2). split; [eapply flexm_seq; eassumption|]. intros r _. rewrite <- app_assoc. auto.
Qed.
Lemma members_fail ss : Forall (fun s => (exists is, forall nl, member_reads nl s is) \/ forall nl, member_fails nl s) ss ->
  Exists (fun s => forall nl, member_fails nl s) ss -> forall nl, fails nl (cats ss).
Proof.
  intros H. induction H as [|s ss Hs Hss IH]; intros Hx nl; [inversion Hx|]. cbn [cats].
  assert (Hm : (forall nl, member_fails nl s) \/ (exists is, forall nl, member_reads nl s is) /\ Exists (fun s => forall nl, member_fails nl s) ss).
  { inversion Hx; subst; auto. destruct Hs; auto. }
  destruct Hm as [Hm|[(is & Hr) Hex]].
  - destruct (Hm nl) as (nl1 & x1 & Hf1 & Hg1 & H1). destruct (members_lex ss Hss nl1) as (nl2 & x2 & Hf2 & Hg2).
    exists nl2, (x1 ++ x2). split; [eapply flexm_seq; eassumption|]. split; intros r; rewrite <- ?app_assoc; [auto|].
    intros r0 Hr. rewrite <- app_assoc. auto.
  - destruct (Hr nl) as (nl1 & x1 & Hf1 & Hg1 & H1). destruct (IH Hex nl1) as (nl2 & x2 & Hf2 & Hg2 & H2).
    exists nl2, (x1 ++ x2). split; [eapply flexm_seq; eassumption|]. split; intros r; [intros _; rewrite <- app_assoc; auto|].
    intros r0 Hr0. rewrite <- app_assoc. destruct r as [[m n] l].
    destruct (some_run _ _ _ (H1 (x2 ++ r0)) (Hg2 r0 Hr0) m n l) as [_ ->]. now apply H2.
Qed.

(** ** Namespaces *)
Definition block_reads (nl : bool) (s : string) (b : nsblock) : Prop :=
  exists nl' x, flexm M0 nl s = (M0, nl', x) /\
    (forall r bs, module_of_tokens r bs -> module_of_tokens (x ++ r) (b :: bs)) /\
    forall m r, mrun (QTop m) (x ++ r) = mrun (QTop (m ++ [b])) r.
Definition block_fails (nl : bool) (s : string) : Prop :=
  exists nl' x, flexm M0 nl s = (M0, nl', x) /\ forall m r, mrun (QTop m) (x ++ r) = QErr.

Lemma block_head ns nl : usable ns -> exists b1 b2 b3,
  flexm M0 nl ("export namespace " ^^ ns ^^ " { ") = (M0, false, [(b1, TId "export"); (b2, TId "namespace"); (false, TId ns); (b3, TP "{")]).
Proof.
  intros [Hi _]. exists nl, false, false.
  apply (flexm_seq _ _ _ M0 false [(nl, TId "export"); (false, TId "namespace")] _ _ _ [(false, TId ns); (false, TP "{")]);
    [destruct nl; reflexivity|].
  apply (flexm_seq _ _ _ _ _ [] _ _ _ [(false, TId ns); (false, TP "{")] (flexm_ident ns false Hi)). reflexivity.
Qed.
Lemma block_foot nl : exists nl' b, flexm M0 nl " }" = (M0, nl', [(b, TP "}")]).
Proof. destruct nl; cbn; eauto. Qed.

Lemma block_parts ns code : namespace_block ns code = ("export namespace " ^^ ns ^^ " { ") ^^ (code ^^ " }").
Proof. unfold namespace_block. now rewrite <- !append_assoc. Qed.

Lemma block_text ns code its : usable ns -> (forall nl, reads_all nl code its) -> forall nl, block_reads nl (namespace_block ns code) (mkBlock ns its).
Proof.
  intros Hns Hc nl. destruct (block_head ns nl Hns) as (b1 & b2 & b3 & Hh). destruct (Hc false) as (nl1 & x1 & Hf & _ & Hs).
  destruct (block_foot nl1) as (nl2 & b4 & Hfoot). rewrite block_parts.
  assert (Hi : forall r, items_of ((x1 ++ [(b4, TP "}")]) ++ r) its r).
  { intros r. rewrite <- app_assoc. rewrite <- (app_nil_r its). eapply some_all; [apply Hs|]. apply items_nil. }
  eexists nl2, _. split; [eapply flexm_seq; [exact Hh|]; eapply flexm_seq; eassumption|]. split.
  - intros r bs Hr. cbn [app]. apply (module_cons b1 b2 ns b3 _ its r bs); [apply Hns|apply Hi|exact Hr].
  - intros m r. cbn [app]. rewrite !mrun_cons. cbn [mstep String.eqb Ascii.eqb Bool.eqb negb andb]. destruct Hns as [_ ->].
    cbn [mstep is_p Ascii.eqb Bool.eqb]. now rewrite (run_items _ _ _ (Hi r)).
Qed.
Lemma block_bad ns code : usable ns -> (forall nl, fails nl code) -> forall nl, block_fails nl (namespace_block ns code).
Proof.
  intros Hns Hc nl. destruct (block_head ns nl Hns) as (b1 & b2 & b3 & Hh). destruct (Hc false) as (nl1 & x1 & Hf & _ & Hs).
  destruct (block_foot nl1) as (nl2 & b4 & Hfoot). rewrite block_parts.
  eexists nl2, _. split; [eapply flexm_seq; [exact Hh|]; eapply flexm_seq; eassumption|].
  intros m r. cbn [app]. rewrite !mrun_cons. cbn [mstep String.eqb Ascii.eqb Bool.eqb negb andb]. destruct Hns as [_ ->].
  cbn [mstep is_p Ascii.eqb Bool.eqb]. rewrite <- app_assoc. apply Hs. reflexivity.
Qed.

Lemma blocks_read ss bs : Forall2 (fun s b => forall nl, block_reads nl s b) ss bs ->
  forall nl, exists nl' x, flexm M0 nl (cats ss) = (M0, nl', x) /\ module_of_tokens x bs.
Proof.
  intros H. induction H as [|s b ss bs Hs _ IH]; intros nl; [exists nl, []; split; [reflexivity|constructor]|].
  destruct (Hs nl) as (nl1 & x1 & Hf1 & H1 & _). destruct (IH nl1) as (nl2 & x2 & Hf2 & H2).
  exists nl2, (x1 ++ x2). split; [eapply flexm_seq; eassumption|auto].
Qed.
Lemma blocks_fail ss : Forall (fun s => (exists b, forall nl, block_reads nl s b) \/ forall nl, block_fails nl s) ss ->
  (Exists (fun s => forall nl, block_fails nl s) ss -> forall nl, exists nl' x, flexm M0 nl (cats ss) = (M0, nl', x) /\ forall m, mrun (QTop m) x = QErr) /\
  forall nl, exists nl' x, flexm M0 nl (cats ss) = (M0, nl', x).
Proof.
  intros H. induction H as [|s ss Hs _ [IH IHl]]; (split; [intros Hx|]); intros nl.
  - inversion Hx.
  - now exists nl, [].
  - cbn [cats].
    assert (Hm : (forall nl, block_fails nl s) \/ (exists b, forall nl, block_reads nl s b) /\ Exists (fun s => forall nl, block_fails nl s) ss).
    { inversion Hx; subst; auto. destruct Hs; auto. }
    destruct Hm as [Hm|[(b & Hr) Hex]].
    + destruct (Hm nl) as (nl1 & x1 & Hf1 & H1). destruct (IHl nl1) as (nl2 & x2 & Hf2).
      exists nl2, (x1 ++ x2). split; [eapply flexm_seq; eassumption|auto].
    + destruct (Hr nl) as (nl1 & x1 & Hf1 & _ & H1). destruct (IH Hex nl1) as (nl2 & x2 & Hf2 & H2).
      exists nl2, (x1 ++ x2). split; [eapply flexm_seq; eassumption|]. intros m. now rewrite H1.
  - cbn [cats]. assert (Hl : exists nl1 x1, flexm M0 nl s = (M0, nl1, x1)).
    { destruct Hs as [(b & Hb)|Hb]; destruct (Hb nl) as (nl1 & x1 & Hf1 & _); eauto. }
    destruct Hl as (nl1 & x1 & Hf1). destruct (IHl nl1) as (nl2 & x2 & Hf2). exists nl2, (x1 ++ x2). eapply flexm_seq; eassumption.
Qed.

(** ** The module *)
Lemma types_of_in E ns l i : In i (types_of E ns l) <-> In i l /\ d_ns (lookup E i) = ns.
Proof.
  induction l as [|j l IH]; cbn; [tauto|]. destruct (string_dec (d_ns (lookup E j)) ns) as [He|He]; cbn; rewrite IH; [|].
  - split; [intros [->|[H1 H2]]; auto|]. intros [[->|H1] H2]; auto.
  - split; [intros [H1 H2]; auto|]. intros [[->|H1] H2]; [easy|auto].
Qed.
Lemma rpcs_of_in ns l m : In m (rpcs_of ns l) <-> In m l /\ r_ns m = ns.
Proof.
  induction l as [|j l IH]; cbn; [tauto|]. destruct (string_dec (r_ns j) ns) as [He|He]; cbn; rewrite IH.
  - split; [intros [->|[H1 H2]]; auto|]. intros [[->|H1] H2]; auto.
  - split; [intros [H1 H2]; auto|]. intros [[->|H1] H2]; [easy|auto].
Qed.

Section module.
Variables (E : env) (o : options) (inv : inventory) (names : list string).
Hypotheses (HE : good_names E) (HT : type_names E) (HU : usable_names E o inv names).

Definition shapely (ns : string) : Prop := forall i, In i (i_types inv) -> d_ns (lookup E i) = ns -> ~ misshapen E (TNamed i).

Lemma member_shape i s : usable_type E o i -> type_member E o i s -> ~ misshapen E (TNamed i) ->
  exists its, type_items E o i its /\ forall nl, member_reads nl s its.
Proof.
  intros Hu Hs Hm. destruct (type_member_cases E o i s HE HT Hu Hs) as [H|(y & [n Hb] & Hy & Hn & _)]; [exact H|].
  destruct (type_tree_tgen E TypeDef _ y HE HT (or_introl eq_refl) Hy) as [k Hk].
  destruct (interface_object E n _ k y Hb Hm Hk) as [ps Hps]. now destruct (Hn ps).
Qed.
Lemma member_shape_bad i s : no_tuple_flatten E -> usable_type E o i -> type_member E o i s -> misshapen E (TNamed i) ->
  forall nl, member_fails nl s.
Proof.
  intros HF Hu Hs Hm. destruct (type_member_cases E o i s HE HT Hu Hs) as [(its & Hi & _)|(y & _ & _ & _ & H)]; [|exact H].
  exfalso. destruct Hi as [e y _ Hy Hi|e ps _ Hy _].
  - destruct (type_tree_tgen E TypeDef _ y HE HT (or_introl eq_refl) Hy) as [k Hk].
    destruct (misshapen_spec E _ HF Hm k y Hk) as [Hb _]. pose proof (interface_unique _ _ _ _ Hi Hb). discriminate.
  - destruct (type_tree_tgen E TypeDef _ _ HE HT (or_introl eq_refl) Hy) as [k Hk].
    destruct (misshapen_spec E _ HF Hm k _ Hk) as [_ Hn]. now apply (Hn ps).
Qed.

Lemma usable_types_of ns i : In ns names -> In i (types_of E ns (i_types inv)) -> usable_type E o i.
Proof. intros Hn Hi. apply types_of_in in Hi as [Hi <-]. now apply HU. Qed.
Lemma usable_rpcs_of ns m : In ns names -> In m (rpcs_of ns (i_rpcs inv)) -> usable_rpc m.
Proof. intros Hn Hi. apply rpcs_of_in in Hi as [Hi <-]. now apply HU. Qed.
Lemma usable_ns ns : In ns names -> has_member E inv ns -> usable ns.
Proof.
  intros Hn [(i & Hi & <-)|(m & Hm & <-)].
  - now apply (proj1 HU i Hi Hn).
  - now apply (proj2 HU m Hm Hn).
Qed.

Lemma rpcs_read ns rs : In ns names -> Forall2 (rpc_member E) (rpcs_of ns (i_rpcs inv)) rs ->
  exists fs, Forall2 (rpc_func E) (rpcs_of ns (i_rpcs inv)) fs /\ Forall2 (fun s is => forall nl, member_reads nl s is) rs (map (fun f => [IFun f]) fs).
Proof.
  intros Hn H. pose proof (fun m => usable_rpcs_of ns m Hn) as Hu. induction H as [|m s ms ss Hs _ IH].
  - exists []. split; constructor.
  - destruct (rpc_member_reads E m s HE HT (Hu m (or_introl eq_refl)) Hs) as (f & Hf & Hr).
    destruct IH as (fs & Hfs & Hrs); [intros x Hx; apply Hu; now right|].
    exists (f :: fs). split; constructor; auto.
Qed.
Lemma types_read ids ss : (forall i, In i ids -> usable_type E o i) -> (forall i, In i ids -> ~ misshapen E (TNamed i)) ->
  Forall2 (type_member E o) ids ss ->
  exists its, Forall2 (type_items E o) ids its /\ Forall2 (fun s is => forall nl, member_reads nl s is) ss its.
Proof.
  intros Hu Hm H. induction H as [|i s ids ss Hs _ IH].
  - exists []. split; constructor.
  - destruct (member_shape i s (Hu i (or_introl eq_refl)) Hs (Hm i (or_introl eq_refl))) as (is & Hi & Hr).
    destruct IH as (its & Hfs & Hrs); [intros x Hx; apply Hu; now right|intros x Hx; apply Hm; now right|].
    exists (is :: its). split; constructor; auto.
Qed.

Lemma concat_singles (fs : list func) : List.concat (map (fun f => [IFun f]) fs) = map IFun fs.
Proof. induction fs as [|f fs IH]; [reflexivity|]. cbn. now rewrite IH. Qed.

Lemma code_reads ns c : In ns names -> has_member E inv ns -> shapely ns -> code_of E o inv ns c ->
  exists b, space_of E o inv ns b /\ forall nl, block_reads nl (namespace_block ns c) b.
Proof.
  intros Hn Hmem Hsh (ts & rs & Ht & Hr & ->).
  destruct (types_read _ ts (fun i => usable_types_of ns i Hn)) as (its & Hits & Hreads); auto.
  { intros i Hi. apply types_of_in in Hi as [Hi Hns]. now apply Hsh. }
  destruct (rpcs_read ns rs Hn Hr) as (fs & Hfs & Hfr).
  exists (mkBlock ns (List.concat (its ++ map (fun f => [IFun f]) fs))). split.
  - split; [reflexivity|]. exists its, fs. repeat split; auto. cbn. now rewrite concat_app, concat_singles.
  - apply block_text; [now apply usable_ns|]. rewrite <- cats_concat. apply members_read. now apply Forall2_app.
Qed.
Lemma code_fails ns c i : no_tuple_flatten E -> In ns names -> has_member E inv ns -> code_of E o inv ns c ->
  In i (i_types inv) -> d_ns (lookup E i) = ns -> misshapen E (TNamed i) -> forall nl, block_fails nl (namespace_block ns c).
Proof.
  intros HF Hn Hmem (ts & rs & Ht & Hr & ->) Hi Hns Hm. apply block_bad; [now apply usable_ns|]. rewrite <- cats_concat.
  destruct (rpcs_read ns rs Hn Hr) as (fs & _ & Hfr).
  assert (Hi' : In i (types_of E ns (i_types inv))) by (apply types_of_in; auto).
  pose proof (fun i => usable_types_of ns i Hn) as Hu.
  apply members_fail.
  - apply Forall_app. split.
    + clear Hr Hfr Hi'. induction Ht as [|j s ids ss Hs _ IH]; constructor.
      * destruct (type_member_cases E o j s HE HT (Hu j (or_introl eq_refl)) Hs) as [(is & _ & H)|(y & _ & _ & _ & H)]; eauto.
      * apply IH. intros k Hk. apply Hu. now right.
    + clear Hr. remember (map (fun f => [IFun f]) fs) as its. clear Heqits. induction Hfr; constructor; eauto.
  - apply Exists_app. left. clear Hr Hfr. induction Ht as [|j s ids ss Hs _ IH]; [easy|]. destruct Hi' as [->|Hi'].
    + left. apply (member_shape_bad i s HF (Hu i (or_introl eq_refl)) Hs Hm).
    + right. apply IH; auto. intros k Hk. apply Hu. now right.
Qed.

Lemma code_cases ns c : In ns names -> has_member E inv ns -> code_of E o inv ns c ->
  (exists b, forall nl, block_reads nl (namespace_block ns c) b) \/ forall nl, block_fails nl (namespace_block ns c).
Proof.
  intros Hn Hmem (ts & rs & Ht & Hr & ->). destruct (rpcs_read ns rs Hn Hr) as (fs & _ & Hfr).
  pose proof (fun i => usable_types_of ns i Hn) as Hu. rewrite <- cats_concat. rewrite cats_concat, <- cats_concat.
  assert (H : (exists its, Forall2 (fun s is => forall nl, member_reads nl s is) ts its) \/
    Forall (fun s => (exists is, forall nl, member_reads nl s is) \/ forall nl, member_fails nl s) ts /\
    Exists (fun s => forall nl, member_fails nl s) ts).
  { clear Hr Hfr. induction Ht as [|j s ids ss Hs Hss IH]; [left; exists []; constructor|].
    destruct (type_member_cases E o j s HE HT (Hu j (or_introl eq_refl)) Hs) as [(is & _ & H)|(y & _ & _ & _ & H)];
      (destruct IH as [(its & IH)|[IH1 IH2]]; [intros k Hk; apply Hu; now right| |]).
    - left. exists (is :: its). constructor; auto.
    - right. split; [constructor; eauto|now right].
    - right. split; [constructor; eauto|now left]. clear -IH. induction IH; constructor; eauto.
    - right. split; [constructor; eauto|now right]. }
  destruct H as [(its & H)|[H1 H2]].
  - left. exists (mkBlock ns (List.concat (its ++ map (fun f => [IFun f]) fs))).
    apply block_text; [now apply usable_ns|]. apply members_read. now apply Forall2_app.
  - right. apply block_bad; [now apply usable_ns|]. apply members_fail; [|apply Exists_app; now left].
    apply Forall_app. split; [exact H1|]. remember (map (fun f => [IFun f]) fs) as its. clear -Hfr. induction Hfr; constructor; eauto.
Qed.

Theorem module_parses p s : generates E o inv names p s ->
  (forall i, In i (i_types inv) -> In (d_ns (lookup E i)) names -> ~ misshapen E (TNamed i)) ->
  exists s' m, s = p ^^ s' /\ ts_module s' m /\ spaces_of E o inv names m.
Proof.
  intros Hg Hm. apply generates_module in Hg as (L & codes & Ha & HL & Hc & ->).
  assert (H : exists bs, Forall2 (space_of E o inv) L bs /\
    Forall2 (fun s b => forall nl, block_reads nl s b) (map (fun p => namespace_block (fst p) (snd p)) (combine L codes)) bs).
  { pose proof (fun ns => proj1 (HL ns)) as HL'. clear Ha HL. induction Hc as [|ns c L codes Hc _ IH]; [exists []; split; constructor|].
    destruct (HL' ns (or_introl eq_refl)) as [Hn Hmem].
    destruct (code_reads ns c Hn Hmem) as (b & Hb & Hr); [intros i Hi <-; now apply Hm|exact Hc|].
    destruct (IH (fun x Hx => HL' x (or_intror Hx))) as (bs & Hbs & Hrs). exists (b :: bs). split; constructor; auto. }
  destruct H as (bs & Hbs & Hr). exists (String.concat "" (map (fun p => namespace_block (fst p) (snd p)) (combine L codes))), bs.
  split; [reflexivity|]. split.
  - destruct (blocks_read _ _ Hr false) as (nl' & x & Hf & Hx). exists x. split; [|exact Hx]. unfold flex. rewrite <- cats_concat, Hf.
    cbn. now rewrite app_nil_r.
  - exists L. auto.
Qed.

Theorem module_rejected p s : no_tuple_flatten E -> generates E o inv names p s ->
  (exists i, In i (i_types inv) /\ In (d_ns (lookup E i)) names /\ misshapen E (TNamed i)) ->
  exists s', s = p ^^ s' /\ forall m, ~ ts_module s' m.
Proof.
  intros HF Hg (i & Hi & Hin & Hm). apply generates_module in Hg as (L & codes & Ha & HL & Hc & ->).
  eexists. split; [reflexivity|]. intros m (ts & Hl & Hts).
  assert (HiL : In (d_ns (lookup E i)) L) by (apply HL; split; [exact Hin|left; eauto]).
  pose proof (fun ns => proj1 (HL ns)) as HL'.
  assert (H : Forall (fun s => (exists b, forall nl, block_reads nl s b) \/ forall nl, block_fails nl s) (map (fun p => namespace_block (fst p) (snd p)) (combine L codes))).
  { clear Ha HL HiL Hl. induction Hc as [|ns c L codes Hc _ IH]; [constructor|]. cbn. constructor.
    - destruct (HL' ns (or_introl eq_refl)) as [Hn Hmem]. now apply code_cases.
    - apply IH. intros x Hx. apply HL'. now right. }
  assert (Hx : Exists (fun s => forall nl, block_fails nl s) (map (fun p => namespace_block (fst p) (snd p)) (combine L codes))).
  { clear Ha HL H Hl. induction Hc as [|ns c L codes Hc _ IH]; [easy|]. destruct HiL as [->|HiL].
    - left. destruct (HL' _ (or_introl eq_refl)) as [Hn Hmem]. eapply code_fails; eauto.
    - right. apply IH; auto. intros x Hx. apply HL'. now right. }
  destruct (proj1 (blocks_fail _ H) Hx false) as (nl' & x & Hf & Herr).
  unfold flex in Hl. rewrite <- cats_concat, Hf in Hl. cbn in Hl. rewrite app_nil_r in Hl. injection Hl as <-.
  pose proof (run_module _ _ Hts []) as Hrun. rewrite Herr in Hrun. discriminate.
Qed.
End module.
