(** Declarations as they are written, and what serde_derive_internals makes of their attributes.

    Sources: derive/src/lib.rs:68-75 ([Container::from_ast], [Ctxt::check]), derive/src/impl_struct.rs:23-46,
    derive/src/impl_enum/mod.rs:22-42, derive/src/impl_enum/variant/mod.rs:23-45, derive/src/impl_enum/field.rs:13-45
    (what the derive asks for: [name().deserialize_name()], [default()], [skip_deserializing()], [flatten()],
    [transparent()], [tag()], [type_from()], [type_try_from()]).

    After serde_derive_internals 0.26 (derive/Cargo.toml), i.e. its case.rs, attr.rs, ast.rs and check.rs.
    Simplified: identifiers are ASCII; attributes are well-formed and given at most once; [alias], [with], [bound],
    [getter], [into], [remote], [other], [borrow], [field_identifier] and [variant_identifier] are not there. *)
From Coq Require Import List String Ascii Bool NArith.
From Verif Require Import RustTy JsLex Serde Wire.
Import ListNotations.
Local Open Scope string_scope.
Local Open Scope list_scope.

(** ** case.rs *)
Inductive rule :=
| RNone | RLower | RUpper | RPascal | RCamel | RSnake | RScreamingSnake | RKebab | RScreamingKebab.

Definition upper_case (c : ascii) : bool := between 65 90 c.
Definition lower_case (c : ascii) : bool := between 97 122 c.
(** [to_ascii_lowercase], [to_ascii_uppercase] *)
Definition lower (c : ascii) : ascii := if upper_case c then ascii_of_N (code c + 32) else c.
Definition upper (c : ascii) : ascii := if lower_case c then ascii_of_N (code c - 32) else c.
Fixpoint smap (f : ascii -> ascii) (s : string) : string :=
  match s with
  | EmptyString => EmptyString
  | String c r => String (f c) (smap f r)
  end.
(** [replace('_', "-")] *)
Definition dashes : string -> string := smap (fun c => if Ascii.eqb c "_" then "-"%char else c).

(** [x[..1].to_ascii_lowercase() + &x[1..]]; [None]: a panic, there is no such slice. *)
Definition head_lower (s : string) : option string :=
  match s with
  | EmptyString => None
  | String c r => Some (String (lower c) r)
  end.

(** [for (i, ch) in variant.char_indices() { if i > 0 && ch.is_uppercase() { push('_') } push(ch.to_ascii_lowercase()) }] *)
Fixpoint snake_loop (first : bool) (s : string) : string :=
  match s with
  | EmptyString => EmptyString
  | String c r =>
      let t := String (lower c) (snake_loop false r) in
      if negb first && upper_case c then String "_" t else t
  end.

(** [for ch in field.chars() { if ch == '_' { capitalize = true } else if capitalize { push(upper); capitalize = false } else { push(ch) } }] *)
Fixpoint pascal_loop (capitalize : bool) (s : string) : string :=
  match s with
  | EmptyString => EmptyString
  | String c r =>
      if Ascii.eqb c "_" then pascal_loop true r
      else String (if capitalize then upper c else c) (pascal_loop false r)
  end.

(** [RenameRule::apply_to_variant] *)
Definition apply_to_variant (r : rule) (v : string) : option string :=
  match r with
  | RNone | RPascal => Some v
  | RLower => Some (smap lower v)
  | RUpper => Some (smap upper v)
  | RCamel => head_lower v
  | RSnake => Some (snake_loop true v)
  | RScreamingSnake => Some (smap upper (snake_loop true v))
  | RKebab => Some (dashes (snake_loop true v))
  | RScreamingKebab => Some (dashes (smap upper (snake_loop true v)))
  end.

(** [RenameRule::apply_to_field] *)
Definition apply_to_field (r : rule) (f : string) : option string :=
  match r with
  | RNone | RLower | RSnake => Some f
  | RUpper | RScreamingSnake => Some (smap upper f)
  | RPascal => Some (pascal_loop true f)
  | RCamel => head_lower (pascal_loop true f)
  | RKebab => Some (dashes f)
  | RScreamingKebab => Some (dashes (smap upper f))
  end.

(** ** Declarations *)

(** [rename = "x"] is [rename(serialize = "x", deserialize = "x")], and [skip] is [skip_serializing, skip_deserializing]. *)
Record wfield := mkWField {
  wf_ident : string;              (* of named fields *)
  wf_ty : ty;
  wf_ser : option string;
  wf_de : option string;
  wf_default : bool;
  wf_skip_ser : bool;
  wf_skip_de : bool;
  wf_flatten : bool
}.
Record wvariant := mkWVariant {
  wv_ident : string;
  wv_style : style;
  wv_fields : list wfield;
  wv_ser : option string;
  wv_de : option string;
  wv_all_ser : rule;              (* [rename_all] *)
  wv_all_de : rule;
  wv_skip_ser : bool;
  wv_skip_de : bool
}.
Inductive wbody := WStruct (st : style) (fs : list wfield) | WEnum (vs : list wvariant).
Record wdecl := mkWDecl {
  wd_ident : string;
  wd_ns : string;                 (* [NAME] of the namespace *)
  wd_body : wbody;
  wd_ser : option string;
  wd_de : option string;
  wd_all_ser : rule;
  wd_all_de : rule;
  wd_tag : option string;
  wd_content : option string;
  wd_untagged : bool;
  wd_transparent : bool;
  wd_from : option ty;
  wd_try_from : option ty;
  wd_deny : bool;
  wd_default : bool;
  wd_docs : list (list N)
}.

(** ** attr.rs and ast.rs *)

(** The macro panics ([None]), if one of the names does. *)
Definition renamed (apply : rule -> string -> option string) (r : rule) (given : option string) (ident : string) : option string :=
  match given with
  | Some n => Some n
  | None => apply r (unraw ident)
  end.

Fixpoint each {A B} (f : A -> option B) (l : list A) : option (list B) :=
  match l with
  | [] => Some []
  | x :: r => match f x, each f r with Some y, Some ys => Some (y :: ys) | _, _ => None end
  end.

(** [Field::from_ast] (a skipped field has a default, unless the container has one) and [Field::rename_by_rules]. *)
Definition resolve_field (st : style) (cdefault : bool) (ser de : rule) (f : wfield) : option field :=
  let default := wf_default f || wf_skip_de f && negb cdefault in
  match st with
  | StNamed =>
      match renamed apply_to_field de (wf_de f) (wf_ident f), renamed apply_to_field ser (wf_ser f) (wf_ident f) with
      | Some d, Some s =>
          Some (mkField d (wf_ty f) default (wf_skip_de f) (wf_flatten f) s (wf_skip_ser f))
      | _, _ => None
      end
  | _ => Some (mkField "" (wf_ty f) default (wf_skip_de f) (wf_flatten f) "" (wf_skip_ser f))
  end.

(** [Variant::rename_by_rules] with the rules of the container; the fields take those of the variant. *)
Definition resolve_variant (ser de : rule) (v : wvariant) : option variant :=
  match renamed apply_to_variant de (wv_de v) (wv_ident v), renamed apply_to_variant ser (wv_ser v) (wv_ident v),
        each (resolve_field (wv_style v) false (wv_all_ser v) (wv_all_de v)) (wv_fields v) with
  | Some d, Some s, Some fs => Some (mkVariant d (wv_style v) fs (wv_skip_de v) s (wv_skip_ser v))
  | _, _, _ => None
  end.

(** [decide_tag]; [None]: an error. *)
Definition decide_tag (d : wdecl) : option tagging :=
  match wd_untagged d, wd_tag d, wd_content d with
  | false, None, None => Some External
  | true, None, None => Some Untagged
  | false, Some t, None => Some (Internal t)
  | false, Some t, Some c => Some (Adjacent t c)
  | _, _, _ => None
  end.

Definition is_struct (d : wdecl) : bool := match wd_body d with WStruct _ _ => true | WEnum _ => false end.

(** A struct may have a [tag], if its fields are named; the derive does not look at it, and neither does deserialization. *)
Definition tag_allowed (d : wdecl) : bool :=
  match wd_body d with
  | WEnum _ => true
  | WStruct StNamed _ => match wd_content d with None => negb (wd_untagged d) | Some _ => false end
  | WStruct _ _ => match wd_tag d, wd_content d with None, None => negb (wd_untagged d) | _, _ => false end
  end.

(** [default] on a container is for structs with named fields. *)
Definition default_allowed (d : wdecl) : bool :=
  match wd_body d with WStruct StNamed _ => true | _ => negb (wd_default d) end.

Definition resolve_body (d : wdecl) : option body :=
  match wd_body d with
  | WStruct st fs => option_map (BStruct st (wd_transparent d)) (each (resolve_field st (wd_default d) (wd_all_ser d) (wd_all_de d)) fs)
  | WEnum vs =>
      match decide_tag d, each (resolve_variant (wd_all_ser d) (wd_all_de d)) vs with
      | Some tg, Some vs => Some (BEnum tg vs)
      | _, _ => None
      end
  end.

(** [Container::from_ast]; the container's own name is not subject to [rename_all]. *)
Definition resolve (d : wdecl) : option decl :=
  match resolve_body d with
  | Some b =>
      Some (mkDecl (wd_ident d) (wd_ns d) (match wd_de d with Some n => n | None => unraw (wd_ident d) end) b
              (match wd_from d with Some t => Some t | None => wd_try_from d end)
              (match wd_from d with Some _ => false | None => match wd_try_from d with Some _ => true | None => false end end)
              (wd_deny d) (wd_default d) (wd_docs d))
  | None => None
  end.

(** ** check.rs *)

Definition internal_conflict (tag : string) (v : variant) : bool :=
  match v_style v with
  | StNamed =>
      existsb (fun f => negb (f_sskip f || v_sskip v) && String.eqb (f_sname f) tag
                        || negb (f_skip f || v_skip v) && String.eqb (f_name f) tag) (v_fields v)
  | _ => false
  end.

(** [check_internal_tag_field_name_conflict], [check_adjacent_tag_conflict], [check_transparent] (the field of
    [Derive::Deserialize]), [check_from_and_try_from], [check_flatten]; the internal tag of a multi-field tuple
    variant is an error of attr.rs. *)
Definition check_body (b : body) : bool :=
  match b with
  | BStruct st tr fs =>
      (if tr then
         match st, filter (fun f => negb (f_skip f) && negb (f_default f) && negb (phantom (f_ty f))) fs with
         | StUnit, _ => false
         | _, [_] => true
         | _, _ => false
         end
       else true) &&
      match st with
      | StTuple => forallb (fun f => negb (f_flatten f)) fs
      | _ => true
      end
  | BEnum tg vs =>
      match tg with
      | Internal tag =>
          forallb (fun v => negb (internal_conflict tag v) &&
                            match v_style v, v_fields v with StTuple, [_] => true | StTuple, _ => false | _, _ => true end) vs
      | Adjacent tag content => negb (String.eqb tag content)
      | _ => true
      end &&
      forallb (fun v => match v_style v with
                        | StTuple => forallb (fun f => negb (f_flatten f)) (v_fields v)
                        | _ => true
                        end) vs
  end.

Definition check (d : wdecl) : bool :=
  tag_allowed d && default_allowed d &&
  (negb (wd_transparent d) ||
   is_struct d && match wd_from d, wd_try_from d with None, None => true | _, _ => false end) &&
  match wd_from d, wd_try_from d with Some _, Some _ => false | _, _ => true end &&
  match resolve_body d with Some b => check_body b | None => false end.

(** What [derive(Zod)] gets to see; [None]: the macro panics (lib.rs:70-75 unwraps both). *)
Definition seen (d : wdecl) : option decl := if check d then resolve d else None.
