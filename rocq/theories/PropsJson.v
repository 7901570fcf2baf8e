(** Property C51: the texts of documents.  Specification vocabulary: JsonTextSpec.v.

    [num_of] reads a literal with a fraction or an exponent, [lit] writes a double. *)
From Coq Require Import List String Bool NArith ZArith.
From Verif Require Import Util Js JsonText JsonTextSpec JsonTextProofs JsonTextExamples.
Import ListNotations.
Local Open Scope list_scope.

(** C51. The reader takes exactly the texts of RFC 8259, and gets their documents. *)
Theorem C51_reads_exactly_json (num_of : jstr -> num) (s : jstr) (j : json) :
  parse num_of s = Some j <-> json_text num_of s j.
Proof. exact (parse_iff num_of s j). Qed.
Print Assumptions C51_reads_exactly_json.

(** C51. A text has at most one document. *)
Theorem C51_one_document (num_of : jstr -> num) (s : jstr) (j j' : json) :
  json_text num_of s j -> json_text num_of s j' -> j = j'.
Proof. exact (one_document num_of s j j'). Qed.
Print Assumptions C51_one_document.

(** C51. What is written is read again, but for numbers that are no doubles, which become [null]. *)
Theorem C51_round_trip (lit : num -> jstr) (num_of : jstr -> num) :
  faithful lit num_of -> forall j, json_text num_of (print lit j) (written double j).
Proof. exact (fun L j => proj1 (parse_iff num_of (print lit j) (written double j)) (parse_print lit num_of L j)). Qed.
Print Assumptions C51_round_trip.

(** C51. What is written is well-formed UTF-16, even if the strings of the document are not. *)
Theorem C51_unicode (lit : num -> jstr) (num_of : jstr -> num) :
  faithful lit num_of -> forall j, utf16 (print lit j) = true.
Proof. exact (print_utf16 lit num_of). Qed.
Print Assumptions C51_unicode.

(** C51. The numbers that are kept are the finite doubles. *)
Theorem C51_doubles (n : num) : double n = true <-> is_double n.
Proof. exact (double_iff n). Qed.
Print Assumptions C51_doubles.
