(** Property C16 of the namespace macro.  Specification vocabulary: MacroSpec.v. *)
From Coq Require Import List String Bool.
From Verif Require Import Registry Macro MacroSpec MacroProofs MacroExamples.
Import ListNotations.

(** C16. The macro accepts an impl block iff its type is a plain name and each method has an allowed
    signature ([receiver_first] is Rust's own rule on where a receiver may stand). *)
Theorem C16_accepted (T : Type) (b : implblock T) (l : list (signature T)) :
  methods b l -> (forall s, In s l -> receiver_first s) ->
  (exists r, expand b = inl r) <->
  (exists n, im_self b = Some n) /\ forall s, In s l -> exists ps, allowed s ps.
Proof. exact (accepted_iff b l). Qed.
Print Assumptions C16_accepted.

(** C16. What it makes of it: one item per method, in order; async ones are methods, others streams. *)
Theorem C16_items (T : Type) (b : implblock T) (l : list (signature T)) :
  methods b l -> (forall s, In s l -> receiver_first s) -> forall n is,
  expand b = inl (n, is) <->
  im_self b = Some n /\ Forall2 (fun s i => exists ps, allowed s ps /\ i = item_of s ps) l is.
Proof. exact (expand_iff b l). Qed.
Print Assumptions C16_items.
