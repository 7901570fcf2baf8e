(** The impl blocks of tests/ui/rpc/fail and of examples/axum/api.rs. *)
From Coq Require Import List String Bool.
From Verif Require Import Registry Macro MacroSpec.
Import ListNotations.
Local Open Scope string_scope.
Local Open Scope list_scope.

(** Types as text. *)
Definition sig := signature string.
Definition one_method_block (s : sig) : implblock string := mkImpl (Some "A") [IMethod s].
Definition self_ (r : option (option string)) (m : bool) : fnarg string := Receiver (mkReceiver r m).
Definition mself : fnarg string := self_ (Some None) true.
Definition arg (n t : string) : fnarg string := Typed (PatIdent false false n false) t.

(** async_function_returning_impl_stream.rs *)
Example async_stream :
  expand (one_method_block (mkSig "test" true [mself] (Some (ImplTrait "usize")))) = inr AsyncStream.
Proof. reflexivity. Qed.
(** function_bare_self.rs *)
Example bare_self : expand (one_method_block (mkSig "test" true [self_ None false] None)) = inr BareSelf.
Proof. reflexivity. Qed.
(** function_no_self.rs *)
Example no_self : expand (one_method_block (mkSig "test" true [] None)) = inr NoSelf.
Proof. reflexivity. Qed.
(** function_ref_self.rs *)
Example ref_self : expand (one_method_block (mkSig "test" true [self_ (Some None) false] None)) = inr RefSelf.
Proof. reflexivity. Qed.
(** Others the tests do not try. *)
Example mut_self : expand (one_method_block (mkSig "test" true [self_ None true] None)) = inr MutSelf.
Proof. reflexivity. Qed.
Example lifetime_self : expand (one_method_block (mkSig "test" true [self_ (Some (Some "'a")) true] None)) = inr SelfLifetime.
Proof. reflexivity. Qed.
Example ref_lifetime_self : expand (one_method_block (mkSig "test" true [self_ (Some (Some "'a")) false] None)) = inr RefSelf.
Proof. reflexivity. Qed.
Example sync_without_output : expand (one_method_block (mkSig "test" false [mself] None)) = inr SyncWithoutOutput.
Proof. reflexivity. Qed.
Example typed_self : expand (one_method_block (mkSig "test" true [arg "self" "&mut Self"] None)) = inr NoSelf.
Proof. reflexivity. Qed.
Example pattern : expand (one_method_block (mkSig "test" true [mself; Typed PatOther "(u8, u8)"] None)) = inr NotAnIdent.
Proof. reflexivity. Qed.
Example path_type : expand (mkImpl (T := string) None []) = inr NotATypeName.
Proof. reflexivity. Qed.
(** Only the first problem is reported; the return type is looked at before the receiver. *)
Example first_problem : expand (one_method_block (mkSig "test" false [self_ None false] None)) = inr SyncWithoutOutput.
Proof. reflexivity. Qed.

(** examples/axum/api.rs:57-85 *)
Definition watchout : list sig :=
  [mkSig "nested" true [mself; arg "_value" "MyEntity"] (Some (Plain "usize"));
   mkSig "hello1" true [mself; arg "_s" "String"] (Some (Plain "usize"));
   mkSig "hello" true [mself; arg "_s" "String"; arg "_n" "usize"] (Some (Plain "usize"));
   mkSig "hello_stream" false [mself; arg "num" "usize"] (Some (ImplTrait "usize"))].
Definition watchout_impl : implblock string := mkImpl (Some "Watchout") (map (IMethod (T := string)) watchout ++ [IOther]).

Example watchout_ok : expand watchout_impl = inl ("Watchout",
  [mkItem "nested" [("_value", "MyEntity")] Method (Some (Plain "usize"));
   mkItem "hello1" [("_s", "String")] Method (Some (Plain "usize"));
   mkItem "hello" [("_s", "String"); ("_n", "usize")] Method (Some (Plain "usize"));
   mkItem "hello_stream" [("num", "usize")] Stream (Some (ImplTrait "usize"))]).
Proof. reflexivity. Qed.

(** The hypotheses of C16 on it. *)
Example watchout_methods : methods watchout_impl watchout /\ forall s, In s watchout -> receiver_first s.
Proof.
  split; [reflexivity|]. intros s Hs a r.
  assert (N : forall n t, ~ is_receiver (arg n t)) by (intros n t [x H]; discriminate).
  repeat destruct Hs as [<- | Hs]; try destruct Hs; intros [= <- <-]; repeat constructor; apply N.
Qed.
Example watchout_allowed : exists ps, allowed (nth 2 watchout (mkSig "" false [] None)) ps /\ List.length ps = 2.
Proof.
  exists [("_s", "String"); ("_n", "usize")]. split; [|reflexivity].
  split; [|exact I]. eexists. split; [reflexivity|]. repeat constructor.
Qed.

(** A stream in name only is accepted: that the return type is a stream is left to rustc
    (sync_function_not_returning_stream.rs, function_returning_impl_iterator.rs). *)
Example not_a_stream : exists i, expand (one_method_block (mkSig "test" false [mself] (Some (Plain "String")))) = inl ("A", [i]) /\ it_kind i = Stream.
Proof. eexists. split; reflexivity. Qed.
