(** C03, C04: what a generated schema lets through is read by serde.
    Every proof is one [exact]; the assumptions of each theorem are printed. *)
From Coq Require Import List String Bool NArith ZArith.
From Verif Require Import RustTy Gen GenSpec JsLex JsParse Js Zod Ast ZodSpec
  Serde SerdeSpec SerdeProofs SerdeExamples.
Import ListNotations.
Local Open Scope string_scope.
Local Open Scope list_scope.

(** The output of a successful parse deserializes (when it is not nested too deeply). *)
Theorem C03_accepted_output_deserializes : forall R E ip M inside t s z v o,
  good_names E -> tags_ok E -> sound false false inside E -> exports E inside M ->
  sound_ty false false inside t = true -> returns E Schema t s -> load s = Val z ->
  sane false v -> accepts ip M z v o ->
  (deserializes R E t (stringify_elem o) <-> jdepth (stringify_elem o) <= max_depth).
Proof. exact output_deserializes. Qed.
Print Assumptions C03_accepted_output_deserializes.

(** Also for 64-bit integers, size integers and floats if all numbers are finite and safe. *)
Theorem C03_accepted_safe_output_deserializes : forall R E ip M inside t s z v o,
  good_names E -> tags_ok E -> sound false true inside E -> exports E inside M ->
  sound_ty false true inside t = true -> returns E Schema t s -> load s = Val z ->
  sane true v -> accepts ip M z v o ->
  (deserializes R E t (stringify_elem o) <-> jdepth (stringify_elem o) <= max_depth).
Proof. exact safe_output_deserializes. Qed.
Print Assumptions C03_accepted_safe_output_deserializes.

(** Outside the fragment there are values the schema lets through and serde refuses. *)
Theorem C03_numbers_refuted :
  unsound false (one "a" (TPrim (PInt U64))) T0 (obj1 "a" (int (2 ^ 64))) /\
  unsound false (one "a" (TPrim (PInt I64))) T0 (obj1 "a" (int (2 ^ 63))) /\
  unsound false (one "a" (TPrim (PInt Usize))) T0 (obj1 "a" (int (2 ^ 70))) /\
  unsound false (one "a" (TPrim (PInt Isize))) T0 (obj1 "a" (int (- 2 ^ 70))) /\
  unsound false (one "a" (TPrim PF64)) T0 (obj1 "a" (JsNum NPosInf)).
Proof. exact (conj u64_unsound (conj i64_unsound (conj usize_unsound (conj isize_unsound f64_unsound)))). Qed.
Print Assumptions C03_numbers_refuted.

Theorem C03_lone_surrogate_refuted :
  unsound false (one "a" (TPrim PString)) T0 (obj1 "a" (JsStr [55296%N])).
Proof. exact string_unsound. Qed.
Print Assumptions C03_lone_surrogate_refuted.

Theorem C03_containers_refuted :
  unsound false (one "a" (TSet Hash (TPrim PString))) T0 (obj1 "a" (JsSet [JsStr (js "x")])) /\
  unsound false (one "a" (TArr 3 (TPrim PString))) T0 (obj1 "a" (JsArr [])) /\
  unsound false (one "a" (TWrap WPhantom (TPrim PString))) T0 (obj1 "a" (JsStr [])).
Proof. exact (conj set_unsound (conj array_unsound phantom_unsound)). Qed.
Print Assumptions C03_containers_refuted.

Theorem C03_map_loses_entries_refuted : exists s z o,
  returns [] Schema (TMap Hash (TPrim PString) (TPrim (PInt U8))) s /\ load s = Val z /\
  accepts no_ip (fun _ _ => None) z (JsMap [(JsStr (js "x"), int 1)]) o /\
  stringify_elem o = JObj [].
Proof. exact map_loses_entries. Qed.
Print Assumptions C03_map_loses_entries_refuted.

Theorem C03_tuple_default_refuted :
  unsound false [strukt "Ns" "T" StTuple [fld "" (TPrim (PInt U8)); fld_default "" (TPrim (PInt U8))]] T0
    (JsArr [int 1; JsUndef]).
Proof. exact tuple_default_unsound. Qed.
Print Assumptions C03_tuple_default_refuted.

Theorem C03_skipped_in_tuple_refuted :
  unsound false [strukt "Ns" "T" StTuple [fld_skip "" (TPrim (PInt U8)); fld "" (TPrim (PInt U8))]] T0 (int 1).
Proof. exact tuple_skip_unsound. Qed.
Print Assumptions C03_skipped_in_tuple_refuted.

Theorem C03_missing_option_refuted :
  unsound false [strukt "Ns" "T" StNamed [fld "n" (TNamed 1)];
                 strukt "Ns" "N" StTuple [fld "" (TOpt (TPrim (PInt U8)))]] T0 (JsObj []) /\
  unsound false [enum "Ns" "T" External [var "A" StTuple [fld "" (TOpt (TPrim (PInt U8)))]]] T0 (JsObj []) /\
  unsound false (one "a" (TRes (TOpt (TPrim (PInt U8))) (TPrim PString))) T0 (obj1 "a" (JsObj [])).
Proof. exact (conj newtype_option_unsound (conj variant_option_unsound result_option_unsound)). Qed.
Print Assumptions C03_missing_option_refuted.

Theorem C03_empty_tuple_variant_refuted :
  unsound false [enum "Ns" "T" External [var "A" StTuple []]] T0 (JsStr (js "A")).
Proof. exact empty_tuple_unsound. Qed.
Print Assumptions C03_empty_tuple_variant_refuted.

(** Inside the fragment, only the nesting can be too deep. *)
Theorem C03_depth_refuted :
  sound false false (all tree) tree /\ sane false (deep 127) /\ unsound false tree T0 (deep 127).
Proof. exact deep_unsound. Qed.
Print Assumptions C03_depth_refuted.

(** The caller's value itself deserializes. *)
Theorem C04_accepted_value_deserializes : forall R E ip M inside wide t s z v o,
  good_names E -> tags_ok E -> sound true wide inside E -> exports E inside M ->
  sound_ty true wide inside t = true -> returns E Schema t s -> load s = Val z ->
  sane wide v -> accepts ip M z v o ->
  (deserializes R E t (stringify_elem v) <-> jdepth (stringify_elem v) <= max_depth).
Proof. exact value_deserializes. Qed.
Print Assumptions C04_accepted_value_deserializes.

(** Extra keys, harmless for the parse output, are not when the value itself is sent. *)
Theorem C04_external_extra_key_refuted :
  sound false false (all ext) ext /\ unsound true ext T0 (JsObj [(js "A", int 1); (js "x", int 2)]).
Proof. exact external_raw_unsound. Qed.
Print Assumptions C04_external_extra_key_refuted.

Theorem C04_result_extra_key_refuted :
  sound_ty false false (fun _ => false) (TRes (TPrim (PInt U8)) (TPrim PString)) = true /\
  unsound true (one "a" (TRes (TPrim (PInt U8)) (TPrim PString))) T0
    (obj1 "a" (JsObj [(js "Ok", int 1); (js "x", int 2)])).
Proof. exact result_raw_unsound. Qed.
Print Assumptions C04_result_extra_key_refuted.

Theorem C04_adjacent_unit_content_refuted :
  sound false false (all adj) adj /\
  unsound true adj T0 (JsObj [(js "t", JsStr (js "A")); (js "c", int 1)]).
Proof. exact adjacent_raw_unsound. Qed.
Print Assumptions C04_adjacent_unit_content_refuted.

Theorem C04_deny_unknown_refuted :
  sound false false (all denied) denied /\
  unsound true denied T0 (JsObj [(js "A", int 1); (js "x", int 2)]).
Proof. exact deny_raw_unsound. Qed.
Print Assumptions C04_deny_unknown_refuted.
