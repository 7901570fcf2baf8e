(** Property theorems: the generated schema texts as JavaScript and as zod schemas. *)
From Coq Require Import List String Bool NArith ZArith.
From Verif Require Import RustTy Gen GenSpec JsLex JsParse Js Zod Ast AstProofs ZodSpec ZodLoad ZodLemmas
  ZodExamples.
Import ListNotations.
Local Open Scope string_scope.

Theorem C01_schema_text_parses : forall E q t s, good_names E -> (q = Schema \/ q = InlineSchema) ->
  returns E q t s ->
  exists ts e, lex s = Some ts /\ tokens_of e = ts /\ wf e = true /\ js_parse s = Some e /\
    forall e', wf e' = true -> tokens_of e' = ts -> e' = e.
Proof. exact schema_text_parses. Qed.
Print Assumptions C01_schema_text_parses.

(** Without the condition on names the text need not parse. *)
Theorem C01_any_name_refuted : exists E s, compiles E /\ returns E Schema (TNamed 0) s /\ js_parse s = None.
Proof. exact (ex_intro _ kebab (ex_intro _ _ kebab_fails)). Qed.
Print Assumptions C01_any_name_refuted.

(** Loading throws exactly when the text eagerly contains [bool] or a refused enum. *)
Theorem C02_schema_loads_iff : forall E t s, good_names E -> tags_ok E -> returns E Schema t s ->
  (exists z, load s = Val z) /\ ~ contains_throwing E (Full t) \/
  load s = Throw /\ contains_throwing E (Full t).
Proof. exact schema_loads. Qed.
Print Assumptions C02_schema_loads_iff.

Theorem C02_inline_schema_loads_iff : forall E t s, good_names E -> tags_ok E ->
  returns E InlineSchema t s ->
  (exists z, load s = Val z) /\ ~ contains_throwing E (Inl t) \/
  load s = Throw /\ contains_throwing E (Inl t).
Proof. exact inline_schema_loads. Qed.
Print Assumptions C02_inline_schema_loads_iff.

Theorem C02_clean_programs_load : forall E t s, good_names E -> tags_ok E -> returns E Schema t s ->
  ~ In (TPrim PBool) (mentioned E t) -> Forall (fun d => ~ refused_enum d) E ->
  exists z, load s = Val z.
Proof. exact clean_loads. Qed.
Print Assumptions C02_clean_programs_load.

Theorem C02_flatten_never_answers : forall E i fs f s z, good_names E -> tags_ok E ->
  returns E Schema (TNamed i) s -> load s = Val z ->
  d_from (lookup E i) = None -> d_body (lookup E i) = BStruct StNamed false fs ->
  In f (kept fs) -> f_flatten f = true ->
  forall ip M n l, zparse ip M n z (JsObj l) = PThrow \/ zparse ip M n z (JsObj l) = PFuel.
Proof. exact flatten_unusable. Qed.
Print Assumptions C02_flatten_never_answers.

Theorem C06_small_int_exact : forall E k s, small_int k = true ->
  returns E Schema (TPrim (PInt k)) s ->
  exists z, load s = Val z /\ forall ip M v o, accepts ip M z v o <->
    o = v /\ exists x, v = JsNum (NInt x) /\ (int_min k <= x <= int_max k)%Z.
Proof. exact small_int_exact. Qed.
Print Assumptions C06_small_int_exact.

Theorem C06_wide_int_one_too_many : forall E k s, wide_int k = true ->
  returns E Schema (TPrim (PInt k)) s ->
  exists z, load s = Val z /\ forall ip M v o, accepts ip M z v o <->
    o = v /\ exists x, v = JsNum (NInt x) /\ (int_min k <= x <= int_max k + 1)%Z.
Proof. exact wide_int_off_by_one. Qed.
Print Assumptions C06_wide_int_one_too_many.

Theorem C06_usize_has_no_upper_bound : forall E s, returns E Schema (TPrim (PInt Usize)) s ->
  exists z, load s = Val z /\ forall ip M v o, accepts ip M z v o <->
    o = v /\ exists x, v = JsNum (NInt x) /\ (0 <= x)%Z.
Proof. exact usize_unbounded. Qed.
Print Assumptions C06_usize_has_no_upper_bound.

Theorem C06_isize_has_no_bound : forall E s, returns E Schema (TPrim (PInt Isize)) s ->
  exists z, load s = Val z /\ forall ip M v o, accepts ip M z v o <->
    o = v /\ exists x, v = JsNum (NInt x).
Proof. exact isize_unbounded. Qed.
Print Assumptions C06_isize_has_no_bound.
