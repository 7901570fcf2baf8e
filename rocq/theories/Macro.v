(** The [#[rpc::namespace]] attribute macro: which impl blocks it accepts and which rpc items it
    makes of them.

    Sources: derive/src/rpc/args.rs:18-143, derive/src/rpc/impl_rpc.rs:10-127,
    derive/src/lib.rs:150-165.  [T] stands for Rust types, of which the macro only looks at the
    outermost form of the return type.  The syntax trees are those of syn 1.0. *)
From Coq Require Import List String Bool.
From Verif Require Import Registry.
Import ListNotations.
Local Open Scope list_scope.

(** [syn::Receiver]: [self], [mut self], [&self], [&'a self], [&mut self], [&'a mut self].
    A typed [self: T] is not a receiver in syn 1.0 but a [FnArg::Typed]. *)
Record receiver := mkReceiver {
  rc_ref : option (option string);     (* the [&], with its lifetime *)
  rc_mut : bool
}.

(** [syn::Pat]: [x], [mut x], [ref x], [x @ p] are [Pat::Ident]. *)
Inductive pat :=
| PatIdent (by_ref mut : bool) (name : string) (sub : bool)
| PatOther.

Inductive fnarg (T : Type) :=
| Receiver (r : receiver)
| Typed (p : pat) (t : T).
Arguments Receiver {T} r.
Arguments Typed {T} p t.

(** [syn::Type] as far as the macro distinguishes it, and [syn::ReturnType]. *)
Inductive rettype (T : Type) := ImplTrait (item : T) | Plain (t : T).
Arguments ImplTrait {T} item.
Arguments Plain {T} t.

Record signature (T : Type) := mkSig {
  s_ident : string;
  s_async : bool;
  s_inputs : list (fnarg T);
  s_output : option (rettype T)        (* [None]: [ReturnType::Default] *)
}.
Arguments mkSig {T}. Arguments s_ident {T}. Arguments s_async {T}.
Arguments s_inputs {T}. Arguments s_output {T}.

(** Every way in which the macro gives up. *)
Inductive abort :=
| SyncWithoutOutput      (* args.rs:74-79 *)
| SelfLifetime           (* 90-96 *)
| BareSelf               (* 97-100 *)
| RefSelf                (* 101-103 *)
| MutSelf                (* 104-107 *)
| NoSelf                 (* 109-114 *)
| NotAnIdent             (* 123-126 *)
| AsyncStream            (* impl_rpc.rs:72-77 *)
| NotATypeName.          (* args.rs:26: [parse_quote!(#self_ty)] panics *)

(** args.rs:46-56 [RpcItem], [RpcArg]; [None] as output: [()]. *)
Record item (T : Type) := mkItem {
  it_ident : string;
  it_args : list (string * T);
  it_kind : kind;
  it_output : option (rettype T)
}.
Arguments mkItem {T}. Arguments it_ident {T}. Arguments it_args {T}.
Arguments it_kind {T}. Arguments it_output {T}.

Section Macro.
Context {T : Type}.

(** args.rs:84-87: the first receiver among the inputs. *)
Fixpoint find_receiver (l : list (fnarg T)) : option receiver :=
  match l with
  | [] => None
  | Receiver r :: _ => Some r
  | Typed _ _ :: l => find_receiver l
  end.

(** args.rs:88-108 *)
Definition check_receiver (r : receiver) : option abort :=
  match rc_mut r, rc_ref r with
  | true, Some None => None
  | true, Some (Some _) => Some SelfLifetime
  | false, None => Some BareSelf
  | false, Some _ => Some RefSelf
  | true, None => Some MutSelf
  end.

(** args.rs:116-129 *)
Fixpoint arg_types (l : list (fnarg T)) : option (list (string * T)) :=
  match l with
  | [] => Some []
  | Receiver _ :: l => arg_types l
  | Typed (PatIdent _ _ n _) t :: l =>
      match arg_types l with Some r => Some ((n, t) :: r) | None => None end
  | Typed PatOther _ :: _ => None
  end.

(** args.rs:59-136 [RpcItem::from_ast] *)
Definition from_ast (s : signature T) : item T + abort :=
  let k := if s_async s then Method else Stream in
  match k, s_output s with
  | Stream, None => inr SyncWithoutOutput
  | _, _ =>
      match find_receiver (s_inputs s) with
      | None => inr NoSelf
      | Some r =>
          match check_receiver r with
          | Some e => inr e
          | None =>
              match arg_types (s_inputs s) with
              | None => inr NotAnIdent
              | Some l => inl (mkItem (s_ident s) l k (s_output s))
              end
          end
      end
  end.

(** impl_rpc.rs:61-127 [expand_inventory_submit]: the only check of the expansion. *)
Definition expand_item (i : item T) : option abort :=
  match it_kind i, it_output i with
  | Method, Some (ImplTrait _) => Some AsyncStream
  | _, _ => None
  end.

(** [syn::ImplItem]: only methods are looked at (args.rs:32-35). *)
Inductive implitem := IMethod (s : signature T) | IOther.

(** [syn::ItemImpl]; [None]: the self type is not a single identifier. *)
Record implblock := mkImpl { im_self : option string; im_items : list implitem }.

Fixpoint from_asts (l : list implitem) : list (item T) + abort :=
  match l with
  | [] => inl []
  | IOther :: l => from_asts l
  | IMethod s :: l =>
      match from_ast s with
      | inr e => inr e
      | inl i => match from_asts l with inl r => inl (i :: r) | inr e => inr e end
      end
  end.

Fixpoint first_abort (l : list (item T)) : option abort :=
  match l with
  | [] => None
  | i :: l => match expand_item i with Some e => Some e | None => first_abort l end
  end.

(** args.rs:24-39 [RpcInput::from_ast] and impl_rpc.rs:10-56 [expand]: the self type, the
    methods, then the expansion. *)
Definition expand (b : implblock) : (string * list (item T)) + abort :=
  match im_self b with
  | None => inr NotATypeName
  | Some n =>
      match from_asts (im_items b) with
      | inr e => inr e
      | inl l => match first_abort l with Some e => inr e | None => inl (n, l) end
      end
  end.
End Macro.
Arguments implitem : clear implicits.
Arguments implblock : clear implicits.
