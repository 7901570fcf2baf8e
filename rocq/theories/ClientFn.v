(** What a call of a generated function does, and which functions there are.

    Sources: core/src/rpc/codegen/mod.rs:60-134 (the functions), derive/src/rpc/impl_rpc.rs:61-127
    (the inventory), src/rpc/clients/static/websocket_client.ts:146-203 ([request], [subscribe]).

    The body of a function is run as it is written: a statement that names a parameter does nothing, a
    statement [schema.parse([...arguments])] throws unless the schema accepts the array of the arguments,
    and [return request(ns, name, arguments)] hands the arguments over. *)
From Coq Require Import List String Bool NArith.
From Verif Require Import RustTy JsLex JsParse Js TsType JsModule Zod Registry Macro Wire ParseSpec ScopeSpec Client E2EText.
Import ListNotations.
Local Open Scope string_scope.
Local Open Scope list_scope.

(** ** Running a function *)

(** [Sends f ns name args]: [f(ns, name, args)] has been called.  [Refuses]: a ZodError.  [Fails]: another
    exception.  [Runs_on]: not done yet.  [Outside]: not JavaScript of the kind that is generated. *)
Inductive outcome :=
| Sends (f ns name : string) (args : list jsval)
| Refuses
| Fails
| Runs_on
| Outside.

Section Invoke.
(** [ip]: zod's tests of addresses.  The function [g] is in the namespace [b] of the module [m]. *)
Context (ip : option string -> jstr -> bool) (m : list nsblock) (b : nsblock) (g : func).
Let ps : list string := map fst (fn_params g).

(** [z] and the two functions of the prelude have to be the imported ones, namespaces those of the module. *)
Definition bound (u : string * option string) : bool :=
  match sees m b ps (fst u) with
  | PGlobal => member_of (fst u) imports
  | PSpace _ => match snd u with Some _ => true | None => false end
  | _ => false
  end.

(** [arguments], unless a parameter is called that. *)
Definition is_arguments (e : jsexp) : bool :=
  match e with EId x => String.eqb x "arguments" && negb (member_of "arguments" ps) | _ => false end.

(** An expression statement; [None]: it is over. *)
Definition evaluate (fuel : nat) (args : list jsval) (e : jsexp) : option outcome :=
  match e with
  | EId x => match sees m b ps x with PParam => None | _ => Some Outside end
  | ECall (EMember s f) [EArr [ESpread x]] =>
      if String.eqb f "parse" && is_arguments x && forallb bound (uses s) then
        match eval_schema s with
        | Val z =>
            match zparse ip (module_schemas m) fuel z (JsArr args) with
            | POk _ => None
            | PErr => Some Refuses
            | PThrow => Some Fails
            | PFuel => Some Runs_on
            end
        | Throw => Some Fails
        | Stuck => Some Outside
        end
      else Some Outside
  | _ => Some Outside
  end.

Definition returned (args : list jsval) (e : jsexp) : outcome :=
  match e with
  | ECall (EId f) [EStr ns; EStr name; x] => if is_arguments x && bound (f, None) then Sends f ns name args else Outside
  | _ => Outside
  end.

Fixpoint run_body (fuel : nat) (args : list jsval) (ss : list stmt) : outcome :=
  match ss with
  | [] => Outside
  | SReturn e :: _ => returned args e
  | SExp e :: r => match evaluate fuel args e with None => run_body fuel args r | Some o => o end
  end.

Definition invoke (fuel : nat) (args : list jsval) : outcome := run_body fuel args (fn_body g).
End Invoke.

(** What the client does next: websocket_client.ts:146-203. *)
Definition action (o : outcome) : option (cevent rcall jstr) :=
  match o with
  | Sends f ns name args =>
      if String.eqb f "request" then Some (URequest (ns, name, args))
      else if String.eqb f "subscribe" then Some (UStream (ns, name, args))
      else None
  | _ => None
  end.

(** ** Which functions there are *)
Section Submit.
(** [<T as Stream>::Item] *)
Context (stream_item : ty -> ty).

(** impl_rpc.rs:72-126; [ReturnType::Default] is [()] (args.rs:70-73).  A method does not return
    [impl Trait] and a stream returns something (Macro.v). *)
Definition result_type (i : Macro.item ty) : ty :=
  match it_kind i, it_output i with
  | _, None => TPrim PUnit
  | Method, Some (Plain t) => t
  | Method, Some (ImplTrait t) => t
  | Stream, Some (ImplTrait t) => t
  | Stream, Some (Plain t) => stream_item t
  end.

(** impl_rpc.rs:61-127 [expand_inventory_submit] for an item of the namespace of the field [f]. *)
Definition submitted (f : bfield ty) (i : Macro.item ty) : Registry.rpc :=
  mkRpc (it_kind i) (bf_name f) (it_ident i) (it_args i) (result_type i).
End Submit.
