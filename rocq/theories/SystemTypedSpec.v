(** What the theorems on typed calls of a page say, besides TypedSpec.v and SystemSpec.v. *)
From Coq Require Import List String Bool.
From Verif Require Import Util RustTy Js JsModule Macro Wire WireSpec E2EText JsonTextSpec E2ESpec ClientFn TypedSpec JsSem.
Import ListNotations.
Local Open Scope string_scope.
Local Open Scope list_scope.

(** What a page does that runs a generated function: the function of the client it calls in the end (websocket_client.ts:146-203). *)
Definition page_action (o : outcome) : option JsSem.action :=
  match o with
  | Sends f ns name args =>
      if String.eqb f "request" then Some (ARequest ns name args)
      else if String.eqb f "subscribe" then Some (AStream ns name args)
      else None
  | _ => None
  end.

(** The action [act] is that of a generated function [g] with some arguments, of item [i], whose namespace is not renamed, or to a
    name no variant has; its result is of the fragment of TsSpec.v. *)
Record runs_function {V F : Type} (S : setting ty V F) (E : env) (inside : nat -> bool) (stream_item : ty -> ty) (m : list nsblock) (mild : bool)
  (act : JsSem.action) (n k : nat) (f : bfield ty) (i : Macro.item ty) (b : nsblock) (g : func) : Prop := {
  rf_item : has_item (s_backend S) n k f i;
  rf_function : exported m (bf_name f) (it_ident i) b g;
  rf_ns : bf_name f = unraw (variant_ident f) \/ ~ In (bf_name f) (field_tags (s_backend S));
  rf_runs : exists ip fuel args, Forall js_value args /\ page_action (invoke ip m b g fuel args) = Some act;
  rf_result : typed_result E inside stream_item mild i
}.
