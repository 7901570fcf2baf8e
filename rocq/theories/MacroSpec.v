(** What the theorems on the namespace macro say. *)
From Coq Require Import List String Bool.
From Verif Require Import Registry Macro.
Import ListNotations.
Local Open Scope list_scope.

Section MacroSpec.
Context {T : Type}.

Definition is_receiver (a : fnarg T) : Prop := exists r, a = Receiver r.
Definition methods (b : implblock T) (l : list (signature T)) : Prop :=
  flat_map (fun i => match i with IMethod s => [s] | IOther => [] end) (im_items b) = l.

(** [&mut self] *)
Definition mut_ref_self : receiver := mkReceiver (Some None) true.

(** Rust's own rule: only the first parameter can be a receiver. *)
Definition receiver_first (s : signature T) : Prop :=
  forall a r, s_inputs s = a :: r -> Forall (fun x => ~ is_receiver x) r.

(** The parameters after the receiver: names with types. *)
Inductive named_params : list (fnarg T) -> list (string * T) -> Prop :=
| np_nil : named_params [] []
| np_cons b m n sub t l r : named_params l r -> named_params (Typed (PatIdent b m n sub) t :: l) ((n, t) :: r).

(** A signature the documentation allows: [&mut self], named parameters, async or with a return
    type, and no [async fn .. -> impl Trait]. *)
Definition allowed (s : signature T) (ps : list (string * T)) : Prop :=
  (exists l, s_inputs s = Receiver mut_ref_self :: l /\ named_params l ps) /\
  match s_async s, s_output s with
  | true, Some (ImplTrait _) => False
  | false, None => False
  | _, _ => True
  end.

(** The item made of it. *)
Definition item_of (s : signature T) (ps : list (string * T)) : item T :=
  mkItem (s_ident s) ps (if s_async s then Method else Stream) (s_output s).
End MacroSpec.
