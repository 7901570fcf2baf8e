(** C05, C48: what serde writes passes the generated schema; validation comes to an end.
    Every proof is one [exact]; the assumptions of each theorem are printed. *)
From Coq Require Import List String Bool NArith ZArith.
From Verif Require Import RustTy Gen GenSpec JsLex JsParse Js Zod Ast ZodSpec
  Serde SerdeSpec SerdeExamples ParseSpec ParseTerm CompleteSpec CompleteProofs CompleteExamples.
Import ListNotations.
Local Open Scope string_scope.
Local Open Scope list_scope.

(** Everything serde writes for a value of a type of the fragment is accepted. *)
Theorem C05_written_accepted : forall R E ip M inside t s z j,
  good_names E -> tags_ok E -> closed E inside -> exports E inside M ->
  (forall i, inside i = true -> grounded E (TNamed i)) -> complete false inside E -> ips_agree R ip ->
  complete_ty false inside t = true -> returns E Schema t s -> load s = Val z ->
  serializes R E t j -> exists o, accepts ip M z (jsparse j) o.
Proof. exact any_written_accepted. Qed.
Print Assumptions C05_written_accepted.

(** With [Option], [Weak], floats and [char], every document without [null] and without
    characters outside the BMP. *)
Theorem C05_plain_written_accepted : forall R E ip M inside t s z j,
  good_names E -> tags_ok E -> closed E inside -> exports E inside M ->
  (forall i, inside i = true -> grounded E (TNamed i)) -> complete true inside E -> ips_agree R ip ->
  complete_ty true inside t = true -> returns E Schema t s -> load s = Val z ->
  serializes R E t j -> plain_json j = true -> exists o, accepts ip M z (jsparse j) o.
Proof. exact plain_written_accepted. Qed.
Print Assumptions C05_plain_written_accepted.

Theorem C05_null_refuted :
  incomplete (one "a" (TOpt u8)) T0 (jobj1 "a" JNull) /\
  incomplete (one "a" (TWrap WWeak u8)) T0 (jobj1 "a" JNull) /\
  incomplete (one "a" (TWrap WPhantom u8)) T0 (jobj1 "a" JNull) /\
  incomplete (one "a" (TPrim PF64)) T0 (jobj1 "a" JNull).
Proof. exact (conj none_incomplete (conj weak_incomplete (conj phantom_incomplete nan_incomplete))). Qed.
Print Assumptions C05_null_refuted.

Theorem C05_char_outside_bmp_refuted :
  incomplete (one "a" (TPrim PChar)) T0 (jobj1 "a" (JStr [55357%N; 56832%N])).
Proof. exact char_incomplete. Qed.
Print Assumptions C05_char_outside_bmp_refuted.

Theorem C05_set_and_map_refuted :
  incomplete (one "a" (TSet Hash str)) T0 (jobj1 "a" (JArr [JStr (js "x")])) /\
  incomplete (one "a" (TMap Hash str u8)) T0 (jobj1 "a" (JObj [])).
Proof. exact (conj set_incomplete map_incomplete). Qed.
Print Assumptions C05_set_and_map_refuted.

Theorem C05_shortened_tuple_refuted :
  incomplete [strukt "Ns" "T" StTuple [fld_skip "" u8; fld "" u8]] T0 (JArr [JInt 1]) /\
  incomplete [enum "Ns" "T" External [var "A" StTuple []]] T0 (jobj1 "A" (JArr [])).
Proof. exact (conj skip_incomplete empty_incomplete). Qed.
Print Assumptions C05_shortened_tuple_refuted.

Theorem C05_different_when_serializing_refuted :
  incomplete [strukt "Ns" "T" StNamed [mkField "a" u8 false false false "a" true]] T0 (JObj []) /\
  incomplete [strukt "Ns" "T" StNamed [mkField "a" u8 false false false "b" false]] T0 (jobj1 "b" (JInt 1)).
Proof. exact (conj skip_ser_incomplete rename_incomplete). Qed.
Print Assumptions C05_different_when_serializing_refuted.

Theorem C05_internal_newtype_refuted :
  incomplete
    [enum "Ns" "T" (Internal "t") [var "A" StTuple [fld "" (TNamed 1)]]; strukt "Ns" "N" StNamed [fld "x" u8]]
    T0 (JObj [(js "t", JStr (js "A")); (js "x", JInt 1)]).
Proof. exact internal_incomplete. Qed.
Print Assumptions C05_internal_newtype_refuted.

(** The schemas of a closed set of declarations accept or reject every value iff no chain of
    types hands the same value on for ever. *)
Theorem C48_answers_iff_grounded : forall E ip M inside,
  good_names E -> tags_ok E -> closed E inside -> exports E inside M ->
  ((forall i s z v, inside i = true -> returns E Schema (TNamed i) s -> load s = Val z -> answers ip M z v) <->
   (forall i, inside i = true -> grounded E (TNamed i))).
Proof. exact answers_iff. Qed.
Print Assumptions C48_answers_iff_grounded.

Theorem C48_types_over_grounded_answer : forall E ip M inside t s z v,
  good_names E -> tags_ok E -> closed E inside -> exports E inside M ->
  (forall i, inside i = true -> grounded E (TNamed i)) -> within inside t ->
  returns E Schema t s -> load s = Val z -> answers ip M z v.
Proof. exact grounded_answers. Qed.
Print Assumptions C48_types_over_grounded_answer.

(** [#[serde(untagged)] enum T { X(B), Y }], [struct B(Box<T>)]: no value is ever accepted or
    rejected. *)
Theorem C48_always_answers_refuted : exists s z,
  good_names loop /\ tags_ok loop /\ compiles loop /\ closed loop (all loop) /\
  exports loop (all loop) (the_module loop) /\
  returns loop Schema T0 s /\ load s = Val z /\
  forall ip v, ~ answers ip (the_module loop) z v.
Proof. exact loop_never. Qed.
Print Assumptions C48_always_answers_refuted.
