(** What the rules of [rename_all] mean, in terms of words. *)
From Coq Require Import List String Ascii Bool.
From Verif Require Import RustTy GenSpec JsLex JsParse TsType TsAst Written.
Import ListNotations.
Local Open Scope string_scope.
Local Open Scope list_scope.

(** ** Letters *)
Definition small : string := "abcdefghijklmnopqrstuvwxyz".
Definition capital : string := "ABCDEFGHIJKLMNOPQRSTUVWXYZ".
Fixpoint exchange (from to : string) (c : ascii) : ascii :=
  match from, to with
  | String a f, String b t => if Ascii.eqb c a then b else exchange f t c
  | _, _ => c
  end.
Definition minuscule : ascii -> ascii := exchange capital small.
Definition majuscule : ascii -> ascii := exchange small capital.
Fixpoint one_of (c : ascii) (s : string) : bool :=
  match s with EmptyString => false | String a r => Ascii.eqb c a || one_of c r end.

Fixpoint each_char (f : ascii -> ascii) (s : string) : string :=
  match s with EmptyString => "" | String c r => String (f c) (each_char f r) end.
Definition all_small : string -> string := each_char minuscule.
Definition all_capital : string -> string := each_char majuscule.
Definition first_capital (w : string) : string := match w with EmptyString => "" | String c r => String (majuscule c) r end.
Definition first_small (w : string) : string := match w with EmptyString => "" | String c r => String (minuscule c) r end.

(** ** Words *)
Definition onto (c : ascii) (ws : list string) : list string :=
  match ws with w :: r => String c w :: r | [] => [String c ""] end.

(** Of a field: between the underscores. *)
Fixpoint words (s : string) : list string :=
  match s with
  | EmptyString => [""]
  | String c r => if Ascii.eqb c "_" then "" :: words r else onto c (words r)
  end.
(** Of a variant: from capital to capital. *)
Fixpoint humps (s : string) : list string :=
  match s with
  | EmptyString => []
  | String c r =>
      match r with
      | String d _ => if one_of d capital then String c "" :: humps r else onto c (humps r)
      | EmptyString => [String c ""]
      end
  end.

(** Hyphens for underscores. *)
Definition hyphenated (w : string) : string := String.concat "-" (words w).

Definition field_name (r : rule) (f : string) : string :=
  match r with
  | RNone | RLower | RSnake => f
  | RUpper | RScreamingSnake => all_capital f
  | RPascal => String.concat "" (map first_capital (words f))
  | RCamel => first_small (String.concat "" (map first_capital (words f)))
  | RKebab => hyphenated f
  | RScreamingKebab => hyphenated (all_capital f)
  end.

Definition variant_name (r : rule) (v : string) : string :=
  match r with
  | RNone | RPascal => v
  | RLower => all_small v
  | RUpper => all_capital v
  | RCamel => first_small v
  | RSnake => String.concat "_" (map all_small (humps v))
  | RScreamingSnake => String.concat "_" (map all_capital (humps v))
  | RKebab => String.concat "-" (map (fun w => hyphenated (all_small w)) (humps v))
  | RScreamingKebab => String.concat "-" (map (fun w => hyphenated (all_capital w)) (humps v))
  end.

(** ** Identifiers of Rust, in ASCII *)
Definition rust_char (c : ascii) : bool := one_of c small || one_of c capital || one_of c "0123456789" || Ascii.eqb c "_".
Fixpoint every (p : ascii -> bool) (s : string) : bool :=
  match s with EmptyString => true | String c r => p c && every p r end.
Definition rust_ident (s : string) : bool :=
  match s with
  | EmptyString => false
  | String c r => negb (one_of c "0123456789") && every rust_char s && negb (String.eqb s "_")
  end.

(** Without [r#]. *)
Definition bare (s : string) : string := match s with String "r" (String "#" r) => r | _ => s end.

(** Without letters. *)
Definition underscores (s : string) : bool := every (Ascii.eqb "_") s.

(** As rustc likes them: [snake_case] whose words start with letters, [UpperCamelCase]. *)
Definition digits := "0123456789".
Definition snake_field (s : string) : bool :=
  forallb (fun w => match w with
                    | EmptyString => false
                    | String c r => one_of c small && every (fun c => one_of c small || one_of c digits) r
                    end) (words s).
Definition camel_variant (s : string) : bool :=
  match s with
  | EmptyString => false
  | String c r => one_of c capital && every (fun c => one_of c small || one_of c capital || one_of c digits) r
  end.

(** ** The names of a declaration *)
Definition expected (name : rule -> string -> string) (r : rule) (given : option string) (ident : string) : string :=
  match given with Some n => n | None => name r (bare ident) end.

Record field_as (st : style) (cdefault : bool) (ser de : rule) (w : wfield) (f : field) : Prop := {
  fa_name : st = StNamed -> f_name f = expected field_name de (wf_de w) (wf_ident w);
  fa_sname : st = StNamed -> f_sname f = expected field_name ser (wf_ser w) (wf_ident w);
  fa_ty : f_ty f = wf_ty w;
  fa_skip : f_skip f = wf_skip_de w;
  fa_sskip : f_sskip f = wf_skip_ser w;
  fa_flatten : f_flatten f = wf_flatten w;
  fa_default : f_default f = true <-> wf_default w = true \/ wf_skip_de w = true /\ cdefault = false
}.
Record variant_as (ser de : rule) (w : wvariant) (v : variant) : Prop := {
  va_name : v_name v = expected variant_name de (wv_de w) (wv_ident w);
  va_sname : v_sname v = expected variant_name ser (wv_ser w) (wv_ident w);
  va_style : v_style v = wv_style w;
  va_skip : v_skip v = wv_skip_de w;
  va_sskip : v_sskip v = wv_skip_ser w;
  va_fields : Forall2 (field_as (wv_style w) false (wv_all_ser w) (wv_all_de w)) (wv_fields w) (v_fields v)
}.
Definition tagged_as (d : wdecl) (tg : tagging) : Prop :=
  match tg with
  | External => wd_tag d = None /\ wd_content d = None /\ wd_untagged d = false
  | Internal t => wd_tag d = Some t /\ wd_content d = None /\ wd_untagged d = false
  | Adjacent t c => wd_tag d = Some t /\ wd_content d = Some c /\ wd_untagged d = false
  | Untagged => wd_tag d = None /\ wd_content d = None /\ wd_untagged d = true
  end.
Definition body_as (d : wdecl) (b : body) : Prop :=
  match wd_body d, b with
  | WStruct st ws, BStruct st' tr fs =>
      st' = st /\ tr = wd_transparent d /\ Forall2 (field_as st (wd_default d) (wd_all_ser d) (wd_all_de d)) ws fs
  | WEnum ws, BEnum tg vs => tagged_as d tg /\ Forall2 (variant_as (wd_all_ser d) (wd_all_de d)) ws vs
  | _, _ => False
  end.
Record decl_as (w : wdecl) (d : decl) : Prop := {
  da_ident : d_ident d = wd_ident w;
  da_ns : d_ns d = wd_ns w;
  da_name : d_name d = match wd_de w with Some n => n | None => bare (wd_ident w) end;
  da_body : body_as w (d_body d);
  da_from : d_from d = match wd_from w, wd_try_from w with Some t, _ => Some t | None, x => x end;
  da_try : d_try d = true <-> wd_from w = None /\ wd_try_from w <> None;
  da_deny : d_deny d = wd_deny w;
  da_default : d_cdefault d = wd_default w;
  da_docs : d_docs d = wd_docs w
}.

(** ** Names that survive unquoted *)

(** Where the names stand as keys of objects: fields of structs and struct variants, variants. *)
Definition plain_rule (r : rule) : bool := match r with RKebab | RScreamingKebab => false | _ => true end.
(** [PascalCase] and [camelCase] drop leading underscores. *)
Fixpoint letter_first (s : string) : bool :=
  match s with
  | EmptyString => false
  | String c r => if Ascii.eqb c "_" then letter_first r else negb (one_of c digits)
  end.
Definition plain_field (r : rule) (w : wfield) : bool :=
  match wf_de w with
  | Some n => ident n
  | None => rust_ident (bare (wf_ident w)) && plain_rule r &&
            match r with RPascal | RCamel => letter_first (bare (wf_ident w)) | _ => true end
  end.
Definition plain_variant (r : rule) (w : wvariant) : bool :=
  match wv_de w with
  | Some n => ident n
  | None => rust_ident (bare (wv_ident w)) && plain_rule r
  end &&
  match wv_style w with
  | StNamed => forallb (plain_field (wv_all_de w)) (filter (fun f => negb (wf_skip_de f)) (wv_fields w))
  | _ => true
  end.
Definition plain_tag (t : option string) : bool := match t with Some t => ident t | None => true end.
Definition plain_decl (w : wdecl) : bool :=
  ident (wd_ns w) && negb (reserved (wd_ns w)) &&
  match wd_de w with Some n => ident n | None => rust_ident (bare (wd_ident w)) end &&
  match wd_body w with
  | WStruct StNamed fs => forallb (plain_field (wd_all_de w)) (filter (fun f => negb (wf_skip_de f)) fs)
  | WStruct _ _ => true
  | WEnum vs =>
      plain_tag (wd_tag w) && plain_tag (wd_content w) &&
      forallb (plain_variant (wd_all_de w)) (filter (fun v => negb (wv_skip_de v)) vs)
  end.

(** ** Conventional declarations *)
Definition conventional_fields (ws : list wfield) : Prop :=
  NoDup (map (fun w => bare (wf_ident w)) ws) /\
  Forall (fun w => wf_de w = None /\ snake_field (bare (wf_ident w)) = true) ws.
Definition conventional (w : wdecl) : Prop :=
  match wd_body w with
  | WStruct StNamed ws => conventional_fields ws
  | WStruct _ _ => True
  | WEnum vs => forall v, In v vs -> wv_style v = StNamed -> conventional_fields (wv_fields v)
  end.
(** Rules under which different variants keep different names. *)
Definition faithful_rule (r : rule) : bool := match r with RLower | RUpper => false | _ => true end.

(** ** Usual declarations
    Names as rustc likes them, no [rename], no [kebab-case]; namespaces JavaScript and TypeScript can name. *)
Definition usual_tag (t : option string) : Prop := match t with Some t => ident t = true /\ t <> "__proto__" | None => True end.
Record usual_variant (r : rule) (tag : option string) (v : wvariant) : Prop := {
  uv_given : wv_de v = None;
  uv_ident : camel_variant (bare (wv_ident v)) = true;
  uv_rule : plain_rule (wv_all_de v) = true;
  uv_fields : wv_style v = StNamed -> conventional_fields (wv_fields v);
  (* serde does not check this one *)
  uv_tag : wv_style v = StTuple -> tag <> Some (variant_name r (bare (wv_ident v)))
}.
Record usual (w : wdecl) : Prop := {
  us_ns : ident (wd_ns w) = true /\ reserved (wd_ns w) = false /\ type_op (wd_ns w) = false;
  us_name : wd_de w = None /\ rust_ident (bare (wd_ident w)) = true;
  us_rule : plain_rule (wd_all_de w) = true;
  us_tag : usual_tag (wd_tag w) /\ usual_tag (wd_content w);
  us_body : match wd_body w with
            | WStruct StNamed ws => conventional_fields ws
            | WStruct _ _ => True
            | WEnum vs => Forall (usual_variant (wd_all_de w) (wd_tag w)) vs
            end
}.
