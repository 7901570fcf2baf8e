(** C07, C08, C09: the generated TypeScript types.
    Every proof is one [exact]; the assumptions of each theorem are printed. *)
From Coq Require Import List String Bool NArith ZArith.
From Verif Require Import RustTy Gen GenSpec GenExamples JsLex JsParse Js Zod Ast ZodSpec
  Serde SerdeSpec SerdeExamples ParseSpec CompleteExamples TsType TsAst TsAstProofs TsSpec TsMember TsWire TsExamples.
Import ListNotations.
Local Open Scope string_scope.
Local Open Scope list_scope.

(** The text of every type query is one TypeScript type, in exactly one way. *)
Theorem C07_type_text_parses : forall E q t s,
  good_names E -> type_names E -> (q = TypeDef \/ q = Inline) -> returns E q t s ->
  exists ts y, lex s = Some ts /\ ytokens y = ts /\ ywf y = true /\ ts_parse s = Some y /\
    forall y', ywf y' = true -> ytokens y' = ts -> y' = y.
Proof. exact type_text_parses. Qed.
Print Assumptions C07_type_text_parses.

Theorem C07_any_name_refuted : compiles kebab /\ exists s, returns kebab TypeDef T0 s /\ ts_parse s = None.
Proof. exact kebab_unparsed. Qed.
Print Assumptions C07_any_name_refuted.

Theorem C07_any_namespace_refuted : good_names operator /\ compiles operator /\
  exists s, returns operator TypeDef T0 s /\ ts_parse s = None.
Proof. exact operator_unparsed. Qed.
Print Assumptions C07_any_namespace_refuted.

(** What the schema accepts, and what it turns it into, are members of the type. *)
Theorem C08_accepted_is_member : forall E ip M T inside q q' t s z s' y v o,
  good_names E -> type_names E -> tags_ok E -> spans E inside -> distinct E inside ->
  exports E inside M -> type_exports E inside T -> within inside t ->
  q = Schema \/ q = InlineSchema -> returns E q t s -> load s = Val z ->
  q' = TypeDef \/ q' = Inline -> returns E q' t s' -> ts_parse s' = Some y ->
  accepts ip M z v o -> member T y v /\ member T y o.
Proof. exact accepted_member. Qed.
Print Assumptions C08_accepted_is_member.

Theorem C08_duplicate_field_refuted : disagree twice T0 (obj1 "a" (int 1)).
Proof. exact twice_disagree. Qed.
Print Assumptions C08_duplicate_field_refuted.

Theorem C08_converse_refuted : disagree_conv (one "a" u8) T0 (obj1 "a" (int 256)).
Proof. exact number_disagree. Qed.
Print Assumptions C08_converse_refuted.

(** Everything serde writes is a member of the type. *)
Theorem C09_written_is_member : forall R E T inside q t s y j,
  good_names E -> type_names E -> typed false inside E -> type_exports E inside T ->
  typed_ty false inside t = true -> q = TypeDef \/ q = Inline -> returns E q t s -> ts_parse s = Some y ->
  serializes R E t j -> member T y (jsparse j).
Proof. exact any_written_member. Qed.
Print Assumptions C09_written_is_member.

(** With [Option], [Weak] and floats, every document without [null]. *)
Theorem C09_plain_written_is_member : forall R E T inside q t s y j,
  good_names E -> type_names E -> typed true inside E -> type_exports E inside T ->
  typed_ty true inside t = true -> q = TypeDef \/ q = Inline -> returns E q t s -> ts_parse s = Some y ->
  serializes R E t j -> no_null j = true -> member T y (jsparse j).
Proof. exact plain_written_member. Qed.
Print Assumptions C09_plain_written_is_member.

Theorem C09_null_refuted :
  untyped (one "a" (TOpt u8)) T0 (jobj1 "a" JNull) /\
  untyped (one "a" (TWrap WWeak u8)) T0 (jobj1 "a" JNull) /\
  untyped (one "a" (TWrap WPhantom u8)) T0 (jobj1 "a" JNull) /\
  untyped (one "a" (TPrim PF64)) T0 (jobj1 "a" JNull).
Proof. exact (conj none_untyped (conj weak_untyped (conj phantom_untyped nan_untyped))). Qed.
Print Assumptions C09_null_refuted.

Theorem C09_set_and_map_refuted :
  untyped (one "a" (TSet Hash str)) T0 (jobj1 "a" (JArr [JStr (js "x")])) /\
  untyped (one "a" (TMap Hash str u8)) T0 (jobj1 "a" (JObj [])).
Proof. exact (conj set_untyped map_untyped). Qed.
Print Assumptions C09_set_and_map_refuted.

Theorem C09_different_when_serializing_refuted :
  untyped [strukt "Ns" "T" StNamed [mkField "a" u8 false false false "a" true]] T0 (JObj []) /\
  untyped [strukt "Ns" "T" StNamed [mkField "a" u8 false false false "b" false]] T0 (jobj1 "b" (JInt 1)) /\
  untyped [strukt "Ns" "T" StTuple [fld_skip "" u8; fld "" u8]] T0 (JArr [JInt 1]).
Proof. exact (conj skip_ser_untyped (conj rename_untyped skip_untyped)). Qed.
Print Assumptions C09_different_when_serializing_refuted.

Theorem C09_internal_newtype_refuted :
  untyped inner_tagged T0 (JObj [(js "t", JStr (js "A")); (js "x", JInt 1)]).
Proof. exact internal_untyped. Qed.
Print Assumptions C09_internal_newtype_refuted.
