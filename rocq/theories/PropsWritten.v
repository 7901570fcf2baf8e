(** Property C53: declarations as they are written, with [rename_all] and the other attributes of serde.
    Specification vocabulary: WrittenSpec.v ([field_name], [variant_name]: the rules in terms of words). *)
From Coq Require Import List String Bool NArith ZArith.
From Verif Require Import Util RustTy Gen GenSpec GenExamples JsLex JsParse Js Zod Ast ZodSpec Serde SerdeSpec SerdeExamples ParseSpec TsType TsAst TsSpec
  Written WrittenSpec WrittenProofs WrittenExamples.
Import ListNotations.
Local Open Scope string_scope.
Local Open Scope list_scope.

(** C53. The rules. *)
Theorem C53_variant_rules : forall r v, v <> "" -> apply_to_variant r v = Some (variant_name r v).
Proof. exact variant_rules. Qed.
Print Assumptions C53_variant_rules.

Theorem C53_field_rules : forall r f, ~ (r = RCamel /\ underscores f = true) -> apply_to_field r f = Some (field_name r f).
Proof. exact field_rules. Qed.
Print Assumptions C53_field_rules.

(** [camelCase] panics on a field without letters. *)
Theorem C53_no_letters_panics : forall f, underscores f = true -> apply_to_field RCamel f = None.
Proof. exact field_panics. Qed.
Print Assumptions C53_no_letters_panics.

(** C53. Every name, type and flag of the declaration is that of the text: what is given, or else the rule of the
    container (for variants and fields of structs) or of the variant (for its fields). *)
Theorem C53_seen_as_written : forall w d, seen w = Some d -> decl_as w d.
Proof. exact seen_is. Qed.
Print Assumptions C53_seen_as_written.

(** C53. Every text parses, if the written names survive as keys. *)
Theorem C53_texts_parse : forall W E q t s, Forall2 (fun w d => seen w = Some d) W E ->
  Forall (fun w => plain_decl w = true /\ type_op (wd_ns w) = false) W -> returns E q t s ->
  match q with
  | Schema | InlineSchema => exists e, js_parse s = Some e
  | TypeDef | Inline => exists y, ts_parse s = Some y
  end.
Proof. exact plain_texts. Qed.
Print Assumptions C53_texts_parse.

(** C53. Usual programs meet the conditions of the other properties. *)
Theorem C53_usual_programs : forall W E, Forall2 (fun w d => seen w = Some d) W E -> Forall usual W ->
  good_names E /\ type_names E /\ tags_ok E /\ forall inside, TsSpec.distinct E inside.
Proof. exact usual_programs. Qed.
Print Assumptions C53_usual_programs.

(** C53. No rule makes two conventional fields the same, and only [lowercase] and [UPPERCASE] may make two variants
    the same. *)
Theorem C53_fields_stay_apart : forall w d, seen w = Some d -> conventional w -> distinct_decl d.
Proof. exact conventional_distinct. Qed.
Print Assumptions C53_fields_stay_apart.

Theorem C53_variants_stay_apart : forall w d ws tg vs, seen w = Some d -> wd_body w = WEnum ws -> d_body d = BEnum tg vs ->
  faithful_rule (wd_all_de w) = true -> NoDup (map (fun v => bare (wv_ident v)) ws) ->
  Forall (fun v => wv_de v = None /\ camel_variant (bare (wv_ident v)) = true) ws ->
  NoDup (map v_name vs).
Proof. exact variants_distinct. Qed.
Print Assumptions C53_variants_stay_apart.

(** C53. What serde has checked before the derive runs. *)
Theorem C53_tags_checked : forall w d, seen w = Some d ->
  (forall tag vs v, d_body d = BEnum (Internal tag) vs -> In v vs -> v_style v = StTuple -> v_name v <> tag) ->
  tags_fit d.
Proof. exact seen_tags_fit. Qed.
Print Assumptions C53_tags_checked.

Theorem C53_transparent_checked : forall w d st fs, seen w = Some d -> d_body d = BStruct st true fs ->
  exists f, filter (fun f => negb (f_skip f) && negb (f_default f) && negb (phantom (f_ty f))) fs = [f] /\
    transparent_field fs = Some f.
Proof. exact seen_transparent. Qed.
Print Assumptions C53_transparent_checked.

(** Not every rule gives keys. *)
Theorem C53_unquoted_names_refuted :
  (exists d s, seen (wdcl "T" (WStruct StNamed [wfld "my_field" (TPrim PString)]) RKebab None) = Some d /\
     returns [d] Schema (TNamed 0) s /\ js_parse s = None) /\
  (exists d s, seen (wdcl "T" (WStruct StNamed [wfld "_2fa" (TPrim PString)]) RCamel None) = Some d /\
     returns [d] Schema (TNamed 0) s /\ js_parse s = None).
Proof. exact (conj kebab_rule digit_first). Qed.
Print Assumptions C53_unquoted_names_refuted.

(** Unconventional fields, and variants under [lowercase], may end up with the same name. *)
Theorem C53_same_name_refuted :
  (exists d fs, seen (wdcl "T" (WStruct StNamed [wfld "a_b" (TPrim (PInt U8)); wfld "a__b" (TPrim (PInt U8))]) RCamel None) = Some d /\
     d_body d = BStruct StNamed false fs /\ map f_name fs = ["aB"; "aB"]) /\
  (exists d vs, seen (wdcl "T" (WEnum [wvar "AB" StUnit RNone []; wvar "Ab" StUnit RNone []]) RLower None) = Some d /\
     d_body d = BEnum External vs /\ map v_name vs = ["ab"; "ab"]).
Proof. exact same_name. Qed.
Print Assumptions C53_same_name_refuted.

(** Of a transparent struct the derive takes the first field, serde the one that has no default and is no
    [PhantomData]: the schema lets through what serde refuses. *)
Theorem C53_transparent_field_refuted :
  (exists d, seen two_sided = Some d /\ unsound false [d] T0 (int 1)) /\ (exists d, seen marked = Some d /\ unsound false [d] T0 (int 1)).
Proof. exact transparent_first. Qed.
Print Assumptions C53_transparent_field_refuted.

(** [default] of a container is lost: the schema rejects what serde reads. *)
Theorem C53_container_default_refuted : exists d s z,
  seen (mkWDecl "T" "Ns" (WStruct StNamed [wfld "a" (TPrim (PInt U8))]) None None RNone RNone None None false false None None false true []) = Some d /\
  returns [d] Schema T0 s /\ load s = Val z /\
  (forall R, deserializes R [d] T0 (JObj [])) /\ forall ip, rejects ip (the_module [d]) z (JsObj []).
Proof. exact container_default. Qed.
Print Assumptions C53_container_default_refuted.
