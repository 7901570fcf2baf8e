(** Rust types and declarations, as the derive macros and the built-in impls see them.

    Covers: the types that implement [ZodType] in core/src/build_ins.rs:94-293 and the
    structs / enums accepted by [#[derive(Zod)]] (derive/src/args.rs:7-36).  A generic
    declaration cannot be derived (the macro emits [impl ZodType for Ident] without
    generics, derive/src/impl_struct.rs:94, 132), so declared types have no parameters. *)
From Coq Require Import List String Bool ZArith NArith.
Import ListNotations.
Local Open Scope string_scope.

(** Integer types with their own schema literal, core/src/build_ins.rs:97-141. *)
Inductive ikind :=
| U8 | U16 | U32 | U64 | U128 | Usize | I8 | I16 | I32 | I64 | I128 | Isize.

(** Primitive impls, core/src/build_ins.rs:94-148 and 272-293.  [&str] and [SmolStr] are
    [PString] (same literals, lines 94, 95, 287); [NotNan<f32>], [NotNan<f64>] are
    [PF32], [PF64] (lines 290, 293). *)
Inductive prim :=
| PString | PInt (k : ikind) | PF32 | PF64 | PBool | PChar | PUnit
| PIpv4 | PIpv6 | PIpAddr.

(** The one-parameter wrappers of core/src/build_ins.rs:155-163. *)
Inductive wrap :=
| WBox | WArc | WRc | WCow | WCell | WRefCell | WMutex | WWeak | WPhantom.

(** Hash or B-tree collections (core/src/build_ins.rs:165, 166, 188, 206). *)
Inductive coll := Hash | BTree.

(** A Rust type.  [TNamed i] is the [i]-th derived declaration of the program. *)
Inductive ty :=
| TPrim (p : prim)
| TTuple (ts : list ty)          (* core/src/build_ins.rs:43-69, 150-153 *)
| TWrap (w : wrap) (t : ty)
| TVec (t : ty)                  (* 170-186 *)
| TArr (n : nat) (t : ty)        (* 168 *)
| TSet (c : coll) (t : ty)       (* 165, 188-204 *)
| TMap (c : coll) (k v : ty)     (* 166, 206-222 *)
| TOpt (t : ty)                  (* 224-241 *)
| TRes (t e : ty)                (* 243-270 *)
| TNamed (i : nat).

(** A field with the serde attributes that matter.  [f_name] is
    [attrs.name().deserialize_name()], so the effect of rename/rename_all is already in;
    [f_sname] is the serialize name.  For tuple fields both are unused.
    [f_default] is [!attrs.default().is_none()] (derive/src/impl_struct.rs:42),
    [f_skip] is [skip_deserializing], [f_sskip] is [skip_serializing]. *)
Record field := mkField {
  f_name : string;
  f_ty : ty;
  f_default : bool;
  f_skip : bool;
  f_flatten : bool;
  f_sname : string;
  f_sskip : bool
}.

(** [darling::ast::Style]. *)
Inductive style := StNamed | StTuple | StUnit.

Record variant := mkVariant {
  v_name : string;
  v_style : style;
  v_fields : list field;
  v_skip : bool;
  v_sname : string;
  v_sskip : bool
}.

(** [serde_derive_internals::attr::TagType]. *)
Inductive tagging :=
| External
| Internal (tag : string)
| Adjacent (tag content : string)
| Untagged.

Inductive body :=
| BStruct (st : style) (transparent : bool) (fs : list field)
| BEnum (tg : tagging) (vs : list variant).

(** A derived type.  [d_ns] is [<Ns as Namespace>::NAME], [d_name] the container's
    deserialize name, [d_from] the type of [#[serde(from)]] or [#[serde(try_from)]]
    ([d_try] tells which; serde rejects both at once). [d_deny] is
    [deny_unknown_fields], [d_cdefault] container-level [#[serde(default)]]: both are
    never looked at by the derive, but matter to serde. *)
Record decl := mkDecl {
  d_ident : string;
  d_ns : string;
  d_name : string;
  d_body : body;
  d_from : option ty;
  d_try : bool;
  d_deny : bool;
  d_cdefault : bool;
  d_docs : list (list N)
}.

(** All derived declarations of the program; [TNamed i] refers to position [i].
    Rust's name resolution guarantees that every reference is in range; the default
    (an empty struct) is only there to make the lookup total. *)
Definition env := list decl.

Definition dummy_decl : decl :=
  mkDecl "_" "_" "_" (BStruct StNamed false []) None false false false [].

Definition lookup (E : env) (i : nat) : decl := nth i E dummy_decl.

(** Fields of the modelled kinds with no attribute at all: the usual case in examples. *)
Definition fld (n : string) (t : ty) : field := mkField n t false false false n false.
Definition fld_default (n : string) (t : ty) : field := mkField n t true false false n false.
Definition fld_skip (n : string) (t : ty) : field := mkField n t true true false n true.
Definition fld_flat (n : string) (t : ty) : field := mkField n t false false true n false.
Definition var (n : string) (st : style) (fs : list field) : variant :=
  mkVariant n st fs false n false.
Definition strukt (ns n : string) (st : style) (fs : list field) : decl :=
  mkDecl n ns n (BStruct st false fs) None false false false [].
Definition enum (ns n : string) (tg : tagging) (vs : list variant) : decl :=
  mkDecl n ns n (BEnum tg vs) None false false false [].

Fixpoint ty_ind' (P : ty -> Prop)
  (Hp : forall p, P (TPrim p))
  (Ht : forall ts, Forall P ts -> P (TTuple ts))
  (Hw : forall w t, P t -> P (TWrap w t))
  (Hv : forall t, P t -> P (TVec t))
  (Ha : forall n t, P t -> P (TArr n t))
  (Hs : forall c t, P t -> P (TSet c t))
  (Hm : forall c k v, P k -> P v -> P (TMap c k v))
  (Ho : forall t, P t -> P (TOpt t))
  (Hr : forall t e, P t -> P e -> P (TRes t e))
  (Hn : forall i, P (TNamed i))
  (t : ty) {struct t} : P t :=
  let rec := ty_ind' P Hp Ht Hw Hv Ha Hs Hm Ho Hr Hn in
  match t with
  | TPrim p => Hp p
  | TTuple ts => Ht ts ((fix go l : Forall P l :=
                           match l with
                           | [] => Forall_nil _
                           | x :: r => Forall_cons _ (rec x) (go r)
                           end) ts)
  | TWrap w t => Hw w t (rec t)
  | TVec t => Hv t (rec t)
  | TArr n t => Ha n t (rec t)
  | TSet c t => Hs c t (rec t)
  | TMap c k v => Hm c k v (rec k) (rec v)
  | TOpt t => Ho t (rec t)
  | TRes t e => Hr t e (rec t) (rec e)
  | TNamed i => Hn i
  end.

Definition ikind_eq_dec (a b : ikind) : {a = b} + {a <> b}.
Proof. decide equality. Defined.
Definition prim_eq_dec (a b : prim) : {a = b} + {a <> b}.
Proof. decide equality; apply ikind_eq_dec. Defined.
Definition wrap_eq_dec (a b : wrap) : {a = b} + {a <> b}.
Proof. decide equality. Defined.
Definition coll_eq_dec (a b : coll) : {a = b} + {a <> b}.
Proof. decide equality. Defined.
Fixpoint ty_eq_dec (a b : ty) {struct a} : {a = b} + {a <> b}.
Proof.
  decide equality;
  auto using prim_eq_dec, wrap_eq_dec, coll_eq_dec, Nat.eq_dec.
  apply (list_eq_dec ty_eq_dec).
Defined.
