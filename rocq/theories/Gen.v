(** The text generators: what [T::schema()], [T::inline_schema()], [T::type_def()] and
    [T::inline()] return, and what [#[derive(Zod)]] expands to.

    Two stages, as in the code: [derive] is the macro (compile time; it may abort or
    panic), its result is the body of the four trait functions, as a list of pieces:
    literal text and calls of trait functions on other types.  [gen] runs such a body; its
    fuel bounds the depth of nested trait calls, i.e. the stack.

    Simplified: a [Vec<String>] that the emitted code builds and joins at run time is
    already joined in the list of pieces (the emitted [vec![..].join(sep)] evaluates the
    elements left to right and concatenates, so the text is the same);
    [InlinedType]/[TsTypeDef] are their [Display] text (core/src/lib.rs:43-52, 133-140),
    the interface/type distinction is kept in [is_interface]. *)
From Coq Require Import List String Ascii Bool.
From Verif Require Import RustTy.
Import ListNotations.
Local Open Scope string_scope.
Local Open Scope list_scope.

(** Text concatenation (Rust [format!]). *)
Infix "^^" := String.append (right associativity, at level 60).

(** The four text queries of [trait ZodType], core/src/lib.rs:17-33. *)
Inductive query := Schema | InlineSchema | TypeDef | Inline.

Inductive piece :=
| Lit (s : string)
| Call (q : query) (t : ty).

(** [Vec<String>::join] *)
Fixpoint join (sep : string) (xs : list (list piece)) : list piece :=
  match xs with
  | [] => []
  | [x] => x
  | x :: r => x ++ Lit sep :: join sep r
  end.

Definition nl : string := String (ascii_of_nat 10) "".
Definition quote (s : string) : string := """" ^^ s ^^ """".

(** ** Built-in impls *)

(** Schema literals, core/src/build_ins.rs:97-141. *)
Definition int_schema (k : ikind) : string :=
  match k with
  | U8 => "z.number().finite().int().nonnegative().lte(255)"
  | U16 => "z.number().finite().int().nonnegative().lte(65535)"
  | U32 => "z.number().finite().int().nonnegative().lte(4294967295)"
  | U64 => "z.number().finite().int().nonnegative().lte(18446744073709551615)"
  | U128 =>
      "z.number().finite().int().nonnegative().lte(340282366920938463463374607431768211455)"
  | Usize => "z.number().finite().int().nonnegative()"
  | I8 => "z.number().finite().int().lte(127).gte(-128)"
  | I16 => "z.number().finite().int().lte(32767).gte(-32768)"
  | I32 => "z.number().finite().int().lte(2147483647).gte(-2147483648)"
  | I64 =>
      "z.number().finite().int().lte(9223372036854775807).gte(-9223372036854775808)"
  | I128 =>
      "z.number().finite().int().lte(170141183460469231731687303715884105727).gte(-170141183460469231731687303715884105728)"
  | Isize => "z.number().finite().int()"
  end.

(** core/src/build_ins.rs:94-148, 272-293. *)
Definition prim_schema (p : prim) : string :=
  match p with
  | PString => "z.string()"
  | PInt k => int_schema k
  | PF32 | PF64 => "z.number()"
  | PBool => "z.bool()"
  | PChar => "z.string().length(1)"
  | PUnit => "z.null()"
  | PIpv4 => "z.string().ip({ version: ""v4"" })"
  | PIpv6 => "z.string().ip({ version: ""v6"" })"
  | PIpAddr => "z.string().ip()"
  end.

Definition prim_type (p : prim) : string :=
  match p with
  | PString | PChar | PIpv4 | PIpv6 | PIpAddr => "string"
  | PInt _ | PF32 | PF64 => "number"
  | PBool => "boolean"
  | PUnit => "null"
  end.

(** [schema()] of the built-in impls (derived types: see [derive]).
    core/src/build_ins.rs:59-61 tuples, 86-88 wrappers, 35-37 with 165-168 shadows,
    183-185 Vec, 201-203 HashSet, 219-221 HashMap, 238-240 Option, 263-269 Result. *)
Definition builtin_schema (t : ty) : list piece :=
  match t with
  | TPrim p => [Lit (prim_schema p)]
  | TTuple ts =>
      [Lit "z.tuple(["] ++ join ", " (map (fun t => [Call Schema t]) ts) ++ [Lit "])"]
  | TWrap _ t => [Call Schema t]
  | TVec t => [Lit "z.array("; Call InlineSchema t; Lit ")"]
  | TArr _ t => [Call Schema (TVec t)]
  | TSet Hash t => [Lit "z.set("; Call InlineSchema t; Lit ")"]
  | TSet BTree t => [Call Schema (TSet Hash t)]
  | TMap Hash k v =>
      [Lit "z.map("; Call InlineSchema k; Lit ", "; Call InlineSchema v; Lit ")"]
  | TMap BTree k v => [Call Schema (TMap Hash k v)]
  | TOpt t => [Call InlineSchema t; Lit ".optional()"]
  | TRes t e =>
      [Lit "z.union([z.object({ Ok: "; Call InlineSchema t;
       Lit " }), z.object({ Err: "; Call InlineSchema e; Lit " })])"]
  | TNamed _ => []
  end.

(** [type_def()] of the built-in impls: core/src/build_ins.rs:11-13, 50-52, 78-80, 30-32,
    175-177, 193-195, 211-213, 229-232, 248-254. *)
Definition builtin_type (t : ty) : list piece :=
  match t with
  | TPrim p => [Lit (prim_type p)]
  | TTuple ts =>
      [Lit "["] ++ join ", " (map (fun t => [Call TypeDef t]) ts) ++ [Lit "]"]
  | TWrap _ t => [Call TypeDef t]
  | TVec t => [Lit "Array<"; Call TypeDef t; Lit ">"]
  | TArr _ t => [Call TypeDef (TVec t)]
  | TSet Hash t => [Lit "Set<"; Call TypeDef t; Lit ">"]
  | TSet BTree t => [Call TypeDef (TSet Hash t)]
  | TMap Hash k v => [Lit "Map<"; Call TypeDef k; Lit ", "; Call TypeDef v; Lit ">"]
  | TMap BTree k v => [Call TypeDef (TMap Hash k v)]
  | TOpt t => [Lit "("; Call TypeDef t; Lit " | undefined)"]
  | TRes t e =>
      [Lit "{ Ok: "; Call TypeDef t; Lit " } | { Err: "; Call TypeDef e; Lit " }"]
  | TNamed _ => []
  end.

(** ** The derive macro *)

(** Result of running a macro: [Abort] is [abort!] (a compile error with that message),
    [Panic] is a panic of the macro ([unreachable!], [expect]), [Reject] is a compile
    error from darling (derive/src/lib.rs:84-89). *)
Inductive outcome A :=
| Done (a : A)
| Abort (msg : string)
| Panic (msg : string)
| Reject (msg : string).
Arguments Done {A} a.
Arguments Abort {A} msg.
Arguments Panic {A} msg.
Arguments Reject {A} msg.

Definition obind {A B} (x : outcome A) (f : A -> outcome B) : outcome B :=
  match x with
  | Done a => f a
  | Abort m => Abort m
  | Panic m => Panic m
  | Reject m => Reject m
  end.

Fixpoint omap {A B} (f : A -> outcome B) (l : list A) : outcome (list B) :=
  match l with
  | [] => Done []
  | x :: r => obind (f x) (fun y => obind (omap f r) (fun ys => Done (y :: ys)))
  end.

(** [if optional { ".optional()" } else { "" }], derive/src/impl_struct.rs:301-307,
    derive/src/impl_enum/field.rs:108-112, 134-138. *)
Definition opt_suffix (b : bool) : string := if b then ".optional()" else "".

(** derive/src/impl_struct.rs:35-46 and 264-270. *)
Record sfield := mkSField {
  s_name : option string;
  s_ty : ty;
  s_optional : bool;
  s_transparent : bool;
  s_flatten : bool
}.

Definition struct_fields (st : style) (transparent : bool) (fs : list field) : list sfield :=
  map (fun f => mkSField (match st with StNamed => Some (f_name f) | _ => None end)
                  (f_ty f) (f_default f) transparent (f_flatten f))
    (filter (fun f => negb (f_skip f)) fs).

(** [StructField::expand_schema], derive/src/impl_struct.rs:273-299. *)
Definition sfield_schema (f : sfield) : list piece :=
  let s := Call InlineSchema (s_ty f) in
  let o := Lit (opt_suffix (s_optional f)) in
  match s_flatten f, s_name f, s_transparent f with
  | false, Some n, false => [Lit (n ^^ ": "); s; o]
  | false, Some _, true => [s; o]
  | false, None, _ => [s; o]
  | true, _, _ => [Lit ".extend("; s; o; Lit ")"]
  end.

(** [StructField::expand_type_defs], derive/src/impl_struct.rs:309-359. *)
Definition sfield_type (f : sfield) : list piece :=
  let t := Call Inline (s_ty f) in
  match s_flatten f, s_name f, s_optional f, s_transparent f with
  | false, Some n, false, false => [Lit (n ^^ ": "); t]
  | false, None, false, false => [t]
  | false, Some n, true, false => [Lit (n ^^ "?: "); t; Lit " | undefined"]
  | false, None, true, false => [t; Lit " | undefined"]
  | false, _, false, true => [t]
  | false, _, true, true => [t; Lit " | undefined"]
  | true, Some _, false, false => [Lit " & "; t]
  | true, None, false, false => [t]
  | true, Some _, true, false => [Lit "& ("; t; Lit " | undefined)"]
  | true, None, true, false => [Lit "& ("; t; Lit " | undefined)"]
  | true, _, false, true => [t]
  | true, _, true, true => [Lit "& ("; t; Lit " | undefined)"]
  end.

(** [fields.iter().skip_while(|f| !f.optional).find(|f| !f.optional)],
    derive/src/impl_struct.rs:231-234. *)
Fixpoint skip_while {A} (p : A -> bool) (l : list A) : list A :=
  match l with
  | [] => []
  | x :: r => if p x then skip_while p r else l
  end.

Definition bad_default_order (fs : list sfield) : bool :=
  match find (fun f => negb (s_optional f)) (skip_while (fun f => negb (s_optional f)) fs) with
  | Some _ => true
  | None => false
  end.

(** [Struct::expand_schema], derive/src/impl_struct.rs:211-261. *)
Definition struct_schema (st : style) (transparent : bool) (fields : list sfield) :
  outcome (list piece) :=
  let flat := filter s_flatten fields in
  let fs := filter (fun f => negb (s_flatten f)) fields in
  match transparent, st with
  | true, _ =>
      match fs with
      | f :: _ => Done (sfield_schema f)
      | [] => Panic "At least one field"
      end
  | false, StTuple =>
      match fs with
      | [] => Panic "handled by darling"
      | [f] => Done (sfield_schema f)
      | _ =>
          if bad_default_order fs
          then Abort "zod: non-default field follows default field"
          else Done ([Lit "z.tuple(["] ++ join ", " (map sfield_schema fs) ++ [Lit "])"])
      end
  | false, StNamed =>
      Done ([Lit "z.object({"] ++ join ("," ^^ nl) (map sfield_schema fs) ++ [Lit "})"]
              ++ join "" (map sfield_schema flat))
  | false, StUnit => Panic "unreachable"
  end.

(** [Struct::expand_type_def], derive/src/impl_struct.rs:168-209. *)
Definition struct_type (st : style) (transparent : bool) (fields : list sfield) :
  outcome (list piece) :=
  let flat := filter s_flatten fields in
  let fs := filter (fun f => negb (s_flatten f)) fields in
  match transparent, st with
  | true, _ =>
      match fs with
      | f :: _ => Done (sfield_type f)
      | [] => Panic "At least one field"
      end
  | false, StTuple =>
      match fs with
      | [] => Panic "handled by darling"
      | [f] => Done (sfield_type f)
      | _ => Done ([Lit "["] ++ join ", " (map sfield_type fs) ++ [Lit "]"])
      end
  | false, StNamed =>
      Done ([Lit "{"] ++ join ("," ^^ nl) (map sfield_type fs) ++ [Lit "}"]
              ++ join "" (map sfield_type flat))
  | false, StUnit => Panic "unreachable"
  end.

(** derive/src/impl_struct.rs:126-129. *)
Definition struct_interface (st : style) (transparent : bool) (fields : list sfield) : bool :=
  match st with
  | StUnit => false
  | _ => negb ((Nat.eqb (List.length fields) 1
                && match st with StTuple => true | _ => false end) || transparent)
  end.

(** Fields of a variant, derive/src/impl_enum/field.rs:13-45: only [skip_deserializing],
    name, type and default are read ([flatten] is ignored). *)
Definition variant_fields (fs : list field) : list field :=
  filter (fun f => negb (f_skip f)) fs.

(** derive/src/impl_enum/field.rs:104-115 and 131-141. *)
Definition vfield_schema (st : style) (f : field) : list piece :=
  match st with
  | StTuple => [Call InlineSchema (f_ty f); Lit (opt_suffix (f_default f))]
  | _ => [Lit (f_name f ^^ ": "); Call InlineSchema (f_ty f); Lit (opt_suffix (f_default f))]
  end.

(** derive/src/impl_enum/field.rs:91-102 and 119-129. *)
Definition vfield_type (st : style) (f : field) : list piece :=
  match st with
  | StTuple =>
      if f_default f then [Call Inline (f_ty f); Lit " | undefined"]
      else [Call Inline (f_ty f)]
  | _ =>
      if f_default f then [Lit (f_name f ^^ "?: "); Call Inline (f_ty f); Lit " | undefined"]
      else [Lit (f_name f ^^ ": "); Call Inline (f_ty f)]
  end.

(** [UnitVariant::expand_schema], derive/src/impl_enum/variant/unit_variant.rs:14-30. *)
Definition unit_schema (tg : tagging) (name : string) : list piece :=
  match tg with
  | External => [Lit ("z.literal(""" ^^ name ^^ """)")]
  | Internal tag => [Lit ("z.object({ " ^^ tag ^^ ": z.literal(""" ^^ name ^^ """) })")]
  | Adjacent tag _ => [Lit ("z.object({ " ^^ tag ^^ ": z.literal(""" ^^ name ^^ """) })")]
  | Untagged => [Lit "z.null()"]
  end.

(** [UnitVariant::expand_type_defs], unit_variant.rs:33-49. *)
Definition unit_type (tg : tagging) (name : string) : list piece :=
  match tg with
  | External => [Lit ("""" ^^ name ^^ """")]
  | Internal tag => [Lit ("{ " ^^ tag ^^ ": """ ^^ name ^^ """ }")]
  | Adjacent tag _ => [Lit ("{ " ^^ tag ^^ ": """ ^^ name ^^ """ }")]
  | Untagged => [Lit "null"]
  end.

(** [TupleVariant::expand_schema], derive/src/impl_enum/variant/tuple_variant.rs:18-60. *)
Definition tuple_schema (tg : tagging) (name : string) (fs : list field) : list piece :=
  match fs with
  | [] => unit_schema tg name
  | _ =>
      let inner :=
        match fs with
        | [f] => vfield_schema StTuple f
        | _ => [Lit "z.tuple(["] ++ join ", " (map (vfield_schema StTuple) fs) ++ [Lit "])"]
        end in
      match tg with
      | External | Internal _ =>
          [Lit ("z.object({ " ^^ name ^^ ": ")] ++ inner ++ [Lit " })"]
      | Adjacent tag content =>
          [Lit ("z.object({ " ^^ tag ^^ ": z.literal(""" ^^ name ^^ """), " ^^ content ^^ ": ")]
            ++ inner ++ [Lit " })"]
      | Untagged => inner
      end
  end.

(** [TupleVariant::expand_type_defs], tuple_variant.rs:62-104. *)
Definition tuple_type (tg : tagging) (name : string) (fs : list field) : list piece :=
  match fs with
  | [] => unit_type tg name
  | _ =>
      let inner :=
        match fs with
        | [f] => vfield_type StTuple f
        | _ => [Lit "["] ++ join ", " (map (vfield_type StTuple) fs) ++ [Lit "]"]
        end in
      match tg with
      | External | Internal _ => [Lit ("{ " ^^ name ^^ ": ")] ++ inner ++ [Lit " }"]
      | Adjacent tag content =>
          [Lit ("{ " ^^ tag ^^ ": """ ^^ name ^^ """, " ^^ content ^^ ": ")]
            ++ inner ++ [Lit " }"]
      | Untagged => inner
      end
  end.

(** [StructVariant::expand_schema], derive/src/impl_enum/variant/struct_variant.rs:17-53. *)
Definition named_schema (tg : tagging) (name : string) (fs : list field) :
  outcome (list piece) :=
  match fs with
  | [] => Panic "Empty tuple structs are handled by darling"
  | _ =>
      let inner := join ", " (map (vfield_schema StNamed) fs) in
      Done
        match tg with
        | External =>
            [Lit ("z.object({ " ^^ name ^^ ": z.object({ ")] ++ inner ++ [Lit " }) })"]
        | Internal tag =>
            [Lit ("z.object({ " ^^ tag ^^ ": z.literal(""" ^^ name ^^ """), ")]
              ++ inner ++ [Lit " })"]
        | Adjacent tag content =>
            [Lit ("z.object({ " ^^ tag ^^ ": z.literal(""" ^^ name ^^ """), " ^^ content
                    ^^ ": z.object({ ")] ++ inner ++ [Lit " }) })"]
        | Untagged => [Lit "z.object({ "] ++ inner ++ [Lit " })"]
        end
  end.

(** [StructVariant::expand_type_defs], struct_variant.rs:55-96. *)
Definition named_type (tg : tagging) (name : string) (fs : list field) :
  outcome (list piece) :=
  match fs with
  | [] => Panic "Empty tuple structs are handled by darling"
  | _ =>
      let inner := join ", " (map (vfield_type StNamed) fs) in
      Done
        match tg with
        | External => [Lit ("{ " ^^ name ^^ ": { ")] ++ inner ++ [Lit " } }"]
        | Internal tag => [Lit ("{ " ^^ tag ^^ ": """ ^^ name ^^ """, ")] ++ inner ++ [Lit " }"]
        | Adjacent tag content =>
            [Lit ("{ " ^^ tag ^^ ": """ ^^ name ^^ """, " ^^ content ^^ ": { ")]
              ++ inner ++ [Lit " } }"]
        | Untagged => [Lit "{ "] ++ inner ++ [Lit " }"]
        end
  end.

(** [Variant::new] / [expand_schema] / [expand_type_def],
    derive/src/impl_enum/variant/mod.rs:23-67. *)
Definition variant_schema (tg : tagging) (v : variant) : outcome (list piece) :=
  let fs := variant_fields (v_fields v) in
  match v_style v with
  | StUnit => Done (unit_schema tg (v_name v))
  | StNamed => named_schema tg (v_name v) fs
  | StTuple => Done (tuple_schema tg (v_name v) fs)
  end.

Definition variant_type (tg : tagging) (v : variant) : outcome (list piece) :=
  let fs := variant_fields (v_fields v) in
  match v_style v with
  | StUnit => Done (unit_type tg (v_name v))
  | StNamed => named_type tg (v_name v) fs
  | StTuple => Done (tuple_type tg (v_name v) fs)
  end.

Definition empty_enum_msg := "deriving zod on empty enums is not supported.".

(** [Enum::expand_schema], derive/src/impl_enum/mod.rs:149-178. *)
Definition enum_schema (tg : tagging) (vs : list variant) : outcome (list piece) :=
  match vs with
  | [] => Abort empty_enum_msg
  | [v] => variant_schema tg v
  | _ =>
      obind (omap (variant_schema tg) vs) (fun xs =>
      Done
        match tg with
        | External | Untagged => [Lit "z.union(["] ++ join ", " xs ++ [Lit "])"]
        | Internal tag | Adjacent tag _ =>
            [Lit ("z.discriminatedUnion(""" ^^ tag ^^ """, [")] ++ join ", " xs ++ [Lit "])"]
        end)
  end.

(** [Enum::expand_typ_defs], derive/src/impl_enum/mod.rs:180-197. *)
Definition enum_type (tg : tagging) (vs : list variant) : outcome (list piece) :=
  match vs with
  | [] => Abort empty_enum_msg
  | [v] => variant_type tg v
  | _ => obind (omap (variant_type tg) vs) (fun xs => Done (join " | " xs))
  end.

(** What the derive emits: the bodies of the four functions, and which [TsTypeDef]
    constructor [type_def()] applies ([None]: it delegates to the from-type). *)
Record impl := mkImpl {
  i_schema : list piece;
  i_inline_schema : list piece;
  i_type_def : list piece;
  i_inline : list piece;
  i_interface : option bool
}.

(** [format!("z.lazy(() => {}.{})", NAME, name)], derive/src/impl_struct.rs:138-141. *)
Definition lazy_ref (d : decl) : list piece :=
  [Lit ("z.lazy(() => " ^^ d_ns d ^^ "." ^^ d_name d ^^ ")")].

(** [InlinedType::Ref], core/src/lib.rs:47-49. *)
Definition type_ref (d : decl) : list piece := [Lit (d_ns d ^^ "." ^^ d_name d)].

(** [Struct::expand], derive/src/impl_struct.rs:16-166.  Schema and type body are expanded
    before the from-type is looked at, so their panics happen in any case. *)
Definition derive_struct (d : decl) (st : style) (transparent : bool) (fs : list field) :
  outcome impl :=
  match st with
  | StUnit => Reject "Unsupported shape `no fields`. Expected named fields or unnamed fields."
  | _ =>
      let fields := struct_fields st transparent fs in
      obind (struct_schema st transparent fields) (fun schema =>
      obind (struct_type st transparent fields) (fun type_def =>
      Done
        match d_from d with
        | Some t =>
            mkImpl [Call InlineSchema t] (lazy_ref d) [Call Inline t] [Call Inline t]
              (Some false)
        | None =>
            mkImpl schema (lazy_ref d) type_def (type_ref d)
              (Some (struct_interface st transparent fields))
        end))
  end.

(** [Enum::expand], derive/src/impl_enum/mod.rs:16-140. *)
Definition derive_enum (d : decl) (tg : tagging) (vs : list variant) : outcome impl :=
  let vs := filter (fun v => negb (v_skip v)) vs in
  obind (enum_schema tg vs) (fun schema =>
  obind (enum_type tg vs) (fun type_def =>
  Done
    match d_from d with
    | Some t =>
        mkImpl [Call Schema t] [Call InlineSchema t] [Call TypeDef t] [Call Inline t] None
    | None => mkImpl schema (lazy_ref d) type_def (type_ref d) (Some false)
    end)).

(** [derive(Zod)], derive/src/lib.rs:61-96.  The declaration is one that serde's own
    attribute checks accept (lines 69-75). *)
Definition derive (d : decl) : outcome impl :=
  match d_body d with
  | BStruct st tr fs => derive_struct d st tr fs
  | BEnum tg vs => derive_enum d tg vs
  end.

(** ** Running the generators *)

(** Body of one trait function.  Defaults of core/src/lib.rs:20-22 ([inline_schema] is
    [schema]) and 30-32 ([inline] is the text of [type_def]) for all built-ins.
    [None]: the type's derive did not compile. *)
Definition expand (E : env) (q : query) (t : ty) : option (list piece) :=
  match t with
  | TNamed i =>
      match derive (lookup E i) with
      | Done im =>
          Some match q with
               | Schema => i_schema im
               | InlineSchema => i_inline_schema im
               | TypeDef => i_type_def im
               | Inline => i_inline im
               end
      | _ => None
      end
  | _ =>
      Some match q with
           | Schema => builtin_schema t
           | InlineSchema => [Call Schema t]
           | TypeDef => builtin_type t
           | Inline => [Call TypeDef t]
           end
  end.

Fixpoint cat (run : query -> ty -> option string) (ps : list piece) : option string :=
  match ps with
  | [] => Some ""
  | Lit s :: r =>
      match cat run r with Some x => Some (s ^^ x) | None => None end
  | Call q t :: r =>
      match run q t, cat run r with
      | Some s, Some x => Some (s ^^ x)
      | _, _ => None
      end
  end.

(** The text returned by query [q] on type [t] with a stack for [fuel] nested calls;
    [None]: the stack overflows (or the program does not compile). *)
Fixpoint gen (E : env) (fuel : nat) (q : query) (t : ty) : option string :=
  match fuel with
  | O => None
  | S n =>
      match expand E q t with
      | Some ps => cat (gen E n) ps
      | None => None
      end
  end.

(** Is [t::type_def()] a [TsTypeDef::Interface]?  Built-ins return [Type]
    (core/src/build_ins.rs) except the wrappers, which pass on the result of the inner
    type (78-80); a derived enum with a from-type passes on the from-type's. *)
Fixpoint is_interface (E : env) (fuel : nat) (t : ty) : option bool :=
  match fuel with
  | O => None
  | S n =>
      match t with
      | TWrap _ t => is_interface E n t
      | TNamed i =>
          match derive (lookup E i) with
          | Done im =>
              match i_interface im with
              | Some b => Some b
              | None =>
                  match d_from (lookup E i) with
                  | Some t => is_interface E n t
                  | None => None
                  end
              end
          | _ => None
          end
      | _ => Some false
      end
  end.
