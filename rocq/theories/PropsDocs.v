(** C17, C18: doc comments and the escaping of the type table.
    Every proof is one [exact]; the assumptions of each theorem are printed. *)
From Coq Require Import List String Bool NArith.
From Verif Require Import JsLex Docs DocsSpec DocsProofs DocsExamples.
Import ListNotations.
Local Open Scope string_scope.
Local Open Scope list_scope.

(** The emitted text is empty when the documentation is, and otherwise one block with the
    trimmed lines in order. *)
Theorem C17_doc_lines : forall ds ls, doc_lines ds ls ->
  ((forall l, In l ls -> l = []) -> doc_text ds = []) /\
  ((exists l, In l ls /\ l <> []) -> exists ls', Forall2 uncr (shown ls) ls' /\ block ls' (doc_text ds)).
Proof. exact docs_emitted. Qed.
Print Assumptions C17_doc_lines.

(** Every documentation has lines in this sense. *)
Theorem C17_lines_exist : forall ds, exists ls, doc_lines ds ls.
Proof. exact (fun ds => ex_intro _ _ (doc_lines_exist ds)). Qed.
Print Assumptions C17_lines_exist.

Theorem C17_closed : forall ds ls, doc_lines ds ls -> (exists l, In l ls /\ l <> []) ->
  (one_comment (doc_text ds) <-> forall l, In l ls -> ~ occurs (lit "*/") l).
Proof. exact docs_closed. Qed.
Print Assumptions C17_closed.

(** The lexer of the other theorems skips such a block. *)
Theorem C17_no_token : forall ds ls, Forall (Forall scalar) ds -> doc_lines ds ls ->
  (forall l, In l ls -> ~ occurs (lit "*/") l) -> lexm M0 (utf8 (doc_text ds)) = (M0, []).
Proof. exact docs_leave_no_token. Qed.
Print Assumptions C17_no_token.

Theorem C17_always_closed_refuted : ~ one_comment (doc_text early) /\ lexm M0 (utf8 (doc_text early)) <> (M0, []).
Proof. exact early_close. Qed.
Print Assumptions C17_always_closed_refuted.

Theorem C18_escape : forall s, escape s = flat_map entity s.
Proof. exact escape_spec. Qed.
Print Assumptions C18_escape.

Theorem C18_no_markup_left : forall s c, In c (escape s) -> ~ In c (lit "<>|").
Proof. exact escape_clean. Qed.
Print Assumptions C18_no_markup_left.

Theorem C18_column : forall name link, line_rust name link =
  lit "[" ++ flat_map entity name ++ lit "]" ++
  match link with Some l => lit "(" ++ flat_map entity l ++ lit ")" | None => [] end.
Proof. exact line_links. Qed.
Print Assumptions C18_column.

Theorem C18_injective_refuted : lit "<" <> lit "&lt;" /\ escape (lit "<") = escape (lit "&lt;").
Proof. exact escape_collides. Qed.
Print Assumptions C18_injective_refuted.
