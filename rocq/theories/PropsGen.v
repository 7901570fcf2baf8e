(** Property theorems: termination, skipping, acceptance and wrappers of the generators. *)
From Coq Require Import List String Bool.
From Verif Require Import RustTy Gen GenSpec GenProofs GenLemmas.
Import ListNotations.
Local Open Scope string_scope.

Theorem C10_schema_returns_iff_acyclic : forall E t, compiles E ->
  ((exists s, returns E Schema t s) <-> ~ reaches_cycle (schema_needs E) (Full t)).
Proof. exact schema_returns_iff. Qed.
Print Assumptions C10_schema_returns_iff_acyclic.

Theorem C10_inline_schema_returns_iff_acyclic : forall E t, compiles E ->
  ((exists s, returns E InlineSchema t s) <-> ~ reaches_cycle (schema_needs E) (Inl t)).
Proof. exact inline_schema_returns_iff. Qed.
Print Assumptions C10_inline_schema_returns_iff_acyclic.

(** Either a stack linear in the program text is enough, or no stack is. *)
Theorem C10_schema_dichotomy : forall E t, compiles E ->
  (exists s, gen E (depth E t) Schema t = Some s) /\ ~ reaches_cycle (schema_needs E) (Full t) \/
  overflows E Schema t /\ reaches_cycle (schema_needs E) (Full t).
Proof. exact schema_dichotomy. Qed.
Print Assumptions C10_schema_dichotomy.

Theorem C10_self_through_pointer_overflows : forall E i f, compiles E ->
  d_from (lookup E i) = None -> In f (embedded (lookup E i)) -> carries i (f_ty f) ->
  overflows E Schema (TNamed i).
Proof. exact self_carrying_overflows. Qed.
Print Assumptions C10_self_through_pointer_overflows.

Theorem C10_lazy_programs_return : forall E i, compiles E -> all_lazy E ->
  exists s, returns E Schema (TNamed i) s.
Proof. exact lazy_program_returns. Qed.
Print Assumptions C10_lazy_programs_return.

Theorem C10_text_unique : forall E q t s s', returns E q t s -> returns E q t s' -> s = s'.
Proof. exact GenProofs.returns_det. Qed.
Print Assumptions C10_text_unique.

Theorem C11_type_returns_iff_acyclic : forall E t, compiles E ->
  ((exists s, returns E TypeDef t s) <-> ~ reaches_cycle (type_needs E) (Full t)).
Proof. exact type_returns_iff. Qed.
Print Assumptions C11_type_returns_iff_acyclic.

Theorem C11_inline_returns_iff_acyclic : forall E t, compiles E ->
  ((exists s, returns E Inline t s) <-> ~ reaches_cycle (type_needs E) (Inl t)).
Proof. exact inline_returns_iff. Qed.
Print Assumptions C11_inline_returns_iff_acyclic.

Theorem C11_type_dichotomy : forall E t, compiles E ->
  (exists s, gen E (depth E t) TypeDef t = Some s) /\ ~ reaches_cycle (type_needs E) (Full t) \/
  overflows E TypeDef t /\ reaches_cycle (type_needs E) (Full t).
Proof. exact type_dichotomy. Qed.
Print Assumptions C11_type_dichotomy.

Theorem C11_self_through_container_overflows : forall E i f, compiles E ->
  d_from (lookup E i) = None -> In f (embedded (lookup E i)) -> contains i (f_ty f) ->
  overflows E TypeDef (TNamed i).
Proof. exact self_containing_overflows. Qed.
Print Assumptions C11_self_through_container_overflows.

Theorem C11_depth_enough : forall E q t s, compiles E ->
  returns E q t s -> gen E (depth E t) q t = Some s.
Proof. exact depth_enough. Qed.
Print Assumptions C11_depth_enough.

Theorem C13_derive_ignores_skipped : forall d, derive (strip d) = derive d.
Proof. exact derive_strip. Qed.
Print Assumptions C13_derive_ignores_skipped.

Theorem C13_texts_ignore_skipped : forall E n q t,
  gen (map strip E) n q t = gen E n q t.
Proof. exact gen_strip. Qed.
Print Assumptions C13_texts_ignore_skipped.

Theorem C13_interface_ignores_skipped : forall E n t,
  is_interface (map strip E) n t = is_interface E n t.
Proof. exact is_interface_strip. Qed.
Print Assumptions C13_interface_ignores_skipped.

Theorem C14_default_order_exact : forall d fs, d_body d = BStruct StTuple false fs ->
  (derive d = Abort "zod: non-default field follows default field" <-> default_before_required fs).
Proof. exact default_order_exact. Qed.
Print Assumptions C14_default_order_exact.

Theorem C15_derive_accepts_iff : forall d, (exists im, derive d = Done im) <-> acceptable d.
Proof. exact derive_accepts. Qed.
Print Assumptions C15_derive_accepts_iff.

Theorem C46_wrapper_forwards : forall E q w t s,
  returns E q (TWrap w t) s <-> returns E (eager q) t s.
Proof. exact wrap_returns. Qed.
Print Assumptions C46_wrapper_forwards.

Theorem C46_unwrap_everywhere : forall E q t s,
  returns E q t s <-> returns (map unwrap_decl E) q (unwrap t) s.
Proof. exact unwrap_returns. Qed.
Print Assumptions C46_unwrap_everywhere.
