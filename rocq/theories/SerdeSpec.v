(** The fragments on which generated schemas and serde agree. *)
From Coq Require Import List String Bool NArith ZArith.
From Verif Require Import RustTy Gen GenSpec ZodSpec Js Zod Serde.
Import ListNotations.
Local Open Scope string_scope.
Local Open Scope list_scope.

(** ** JavaScript values without surprises
    Strings are well-formed Unicode and property names distinct.  With [wide], numbers are
    finite and integers are safe integers. *)
Definition safe_num (n : num) : Prop :=
  match n with
  | NInt z => (Z.abs z <= 2 ^ 53 - 1)%Z
  | NFrac _ _ => True
  | _ => False
  end.

Inductive sane (wide : bool) : jsval -> Prop :=
| sane_undef : sane wide JsUndef
| sane_null : sane wide JsNull
| sane_bool b : sane wide (JsBool b)
| sane_num n : (wide = true -> safe_num n) -> sane wide (JsNum n)
| sane_str s : utf16 s = true -> sane wide (JsStr s)
| sane_arr l : Forall (sane wide) l -> sane wide (JsArr l)
| sane_obj l : NoDup (map fst l) -> Forall (fun p => utf16 (fst p) = true) l ->
    Forall (fun p => sane wide (snd p)) l -> sane wide (JsObj l)
| sane_map l : sane wide (JsMap l)
| sane_set l : sane wide (JsSet l)
| sane_fun : sane wide JsFun.

(** ** The sound fragment
    [raw]: the value is sent as it is (not the output of the parse).
    [wide]: 64-bit and size integers and floats are in the fragment.
    [inside]: the declarations of the fragment. *)
Section Sound.
Context (raw wide : bool) (inside : nat -> bool).

Definition sound_prim (p : prim) : bool :=
  match p with
  | PString | PChar | PUnit => true
  | PInt (U128 | I128) => false
  | PInt k => small_int k || wide
  | PF32 | PF64 => wide
  | PBool | PIpv4 | PIpv6 | PIpAddr => false
  end.

(** Types whose schema lets [undefined] through. *)
Fixpoint may_undef (t : ty) : bool :=
  match t with TOpt _ => true | TWrap _ t => may_undef t | _ => false end.

Fixpoint sound_ty (t : ty) : bool :=
  match t with
  | TPrim p => sound_prim p
  | TTuple ts => forallb sound_ty ts
  | TWrap WPhantom _ => false
  | TWrap _ t | TVec t | TOpt t => sound_ty t
  | TArr _ _ | TSet _ _ | TMap _ _ _ => false
  | TRes t e =>
      negb raw && sound_ty t && sound_ty e && negb (may_undef t) && negb (may_undef e)
  | TNamed i => inside i
  end.

Definition sound_field (f : field) : bool := sound_ty (f_ty f) && negb (f_flatten f).

(** Unnamed fields: nothing skipped, nothing defaulted. *)
Definition positional (fs : list field) : bool :=
  forallb (fun f => negb (f_skip f) && negb (f_default f)) fs.

(** A single unnamed field must not accept [undefined]. *)
Definition one_defined (fs : list field) : bool :=
  match fs with [f] => negb (may_undef (f_ty f)) | _ => true end.

Definition sound_struct (deny : bool) (st : style) (tr : bool) (fs : list field) : Prop :=
  forallb sound_field (kept fs) = true /\
  if tr then exists f, kept fs = [f] /\ f_default f = false /\ may_undef (f_ty f) = false
  else
    match st with
    | StNamed => NoDup (map f_name (kept fs)) /\ raw && deny = false
    | StTuple => positional fs = true /\ one_defined fs = true
    | StUnit => False
    end.

Definition sound_variant (tg : tagging) (v : variant) : Prop :=
  forallb sound_field (kept (v_fields v)) = true /\
  match v_style v with
  | StUnit => match tg with Adjacent t c => raw = false /\ t <> c | _ => True end
  | StTuple =>
      v_fields v <> [] /\ positional (v_fields v) = true /\
      match tg with
      | External => raw = false /\ one_defined (v_fields v) = true
      | Internal _ => False
      | Adjacent t c => t <> c
      | Untagged => one_defined (v_fields v) = true
      end
  | StNamed =>
      NoDup (map f_name (kept (v_fields v))) /\
      match tg with
      | External => raw = false
      | Internal t => ~ In t (map f_name (kept (v_fields v)))
      | Adjacent t c => t <> c
      | Untagged => True
      end
  end.

Definition sound_decl (d : decl) : Prop :=
  match d_from d, d_body d with
  | Some t, _ => d_try d = false /\ sound_ty t = true /\ may_undef t = false
  | None, BStruct st tr fs => sound_struct (d_deny d) st tr fs
  | None, BEnum tg vs =>
      raw && d_deny d = false /\ NoDup (map v_name (kept_variants vs)) /\
      forall v, In v (kept_variants vs) -> sound_variant tg v
  end.

Definition sound (E : env) : Prop := forall i, inside i = true -> sound_decl (lookup E i).
End Sound.

(** The generated module exports every declaration of the fragment. *)
Definition exports (E : env) (inside : nat -> bool) (M : menv) : Prop :=
  forall i, inside i = true -> exists s z,
    returns E Schema (TNamed i) s /\ load s = Val z /\
    M (d_ns (lookup E i)) (d_name (lookup E i)) = Some z.
