(** The generated schema texts as syntax trees.

    [agen] says which JavaScript expression each generated text is meant to be; that the
    text really lexes and parses to it is proved in AstProofs.v, so nothing about [agen] is
    trusted. *)
From Coq Require Import List String Ascii Bool NArith.
From Verif Require Import RustTy Gen JsLex JsParse.
Import ListNotations.
Local Open Scope string_scope.
Local Open Scope list_scope.

(** ** Names that may be written unquoted *)

Definition string_safe (s : string) : bool := all_chars str_char s.

(** A variant name is an object key when an externally (or, by the derive's confusion,
    internally) tagged variant carries data; otherwise it only stands in quotes. *)
Definition good_variant (tg : tagging) (v : variant) : bool :=
  string_safe (v_name v)
  && match v_style v, tg with
     | StUnit, _ => true
     | StTuple, (External | Internal _) => ident (v_name v)
     | StNamed, External => ident (v_name v)
     | _, _ => true
     end
  && match v_style v with
     | StNamed => forallb (fun f => ident (f_name f)) (variant_fields (v_fields v))
     | _ => true
     end.

Definition good_tag (tg : tagging) : bool :=
  match tg with
  | External | Untagged => true
  | Internal t => ident t
  | Adjacent t c => ident t && ident c
  end.

Definition good_decl (d : decl) : bool :=
  ident (d_ns d) && negb (reserved (d_ns d)) && ident (d_name d)
  && match d_body d with
     | BStruct StNamed _ fs =>
         forallb (fun f => ident (f_name f)) (filter (fun f => negb (f_skip f)) fs)
     | BStruct _ _ _ => true
     | BEnum tg vs =>
         good_tag tg && forallb (good_variant tg) (filter (fun v => negb (v_skip v)) vs)
     end.

Definition good_names (E : env) : Prop := Forall (fun d => good_decl d = true) E.

(** ** Trees *)
Definition meth (e : jsexp) (m : string) (args : list jsexp) : jsexp :=
  ECall (EMember e m) args.
Definition zcall (m : string) (args : list jsexp) : jsexp := meth (EId "z") m args.

Definition num0 : jsexp := meth (meth (zcall "number" []) "finite" []) "int" [].
Definition unsigned (n : N) : jsexp := meth (meth num0 "nonnegative" []) "lte" [ENum n].
Definition signed (n m : N) : jsexp := meth (meth num0 "lte" [ENum n]) "gte" [ENeg m].

Definition int_exp (k : ikind) : jsexp :=
  match k with
  | U8 => unsigned 255
  | U16 => unsigned 65535
  | U32 => unsigned 4294967295
  | U64 => unsigned 18446744073709551615
  | U128 => unsigned 340282366920938463463374607431768211455
  | Usize => meth num0 "nonnegative" []
  | I8 => signed 127 128
  | I16 => signed 32767 32768
  | I32 => signed 2147483647 2147483648
  | I64 => signed 9223372036854775807 9223372036854775808
  | I128 => signed 170141183460469231731687303715884105727 170141183460469231731687303715884105728
  | Isize => num0
  end.

Definition prim_exp (p : prim) : jsexp :=
  match p with
  | PString => zcall "string" []
  | PInt k => int_exp k
  | PF32 | PF64 => zcall "number" []
  | PBool => zcall "bool" []
  | PChar => meth (zcall "string" []) "length" [ENum 1]
  | PUnit => zcall "null" []
  | PIpv4 => meth (zcall "string" []) "ip" [EObj [("version", EStr "v4")]]
  | PIpv6 => meth (zcall "string" []) "ip" [EObj [("version", EStr "v6")]]
  | PIpAddr => meth (zcall "string" []) "ip" []
  end.

Definition obj_exp (ps : list (string * jsexp)) : jsexp := zcall "object" [EObj ps].
Definition tup_exp (es : list jsexp) : jsexp := zcall "tuple" [EArr es].
Definition lit_exp (s : string) : jsexp := zcall "literal" [EStr s].
Definition union_exp (es : list jsexp) : jsexp := zcall "union" [EArr es].
Definition opt_exp (b : bool) (e : jsexp) : jsexp := if b then meth e "optional" [] else e.
Definition lazy_exp (d : decl) : jsexp :=
  zcall "lazy" [EArrow (EMember (EId (d_ns d)) (d_name d))].

Fixpoint all_some {A} (l : list (option A)) : option (list A) :=
  match l with
  | [] => Some []
  | Some x :: r => match all_some r with Some xs => Some (x :: xs) | None => None end
  | None :: _ => None
  end.

Definition bind {A B} (x : option A) (f : A -> option B) : option B :=
  match x with Some a => f a | None => None end.

Section Trees.
Context (rec : query -> ty -> option jsexp).

Definition builtin_exp (t : ty) : option jsexp :=
  match t with
  | TPrim p => Some (prim_exp p)
  | TTuple ts => option_map tup_exp (all_some (map (rec Schema) ts))
  | TWrap _ t => rec Schema t
  | TVec t => option_map (fun e => zcall "array" [e]) (rec InlineSchema t)
  | TArr _ t => rec Schema (TVec t)
  | TSet Hash t => option_map (fun e => zcall "set" [e]) (rec InlineSchema t)
  | TSet BTree t => rec Schema (TSet Hash t)
  | TMap Hash k v =>
      bind (rec InlineSchema k) (fun a =>
      option_map (fun b => zcall "map" [a; b]) (rec InlineSchema v))
  | TMap BTree k v => rec Schema (TMap Hash k v)
  | TOpt t => option_map (opt_exp true) (rec InlineSchema t)
  | TRes t e =>
      bind (rec InlineSchema t) (fun a =>
      option_map (fun b => union_exp [obj_exp [("Ok", a)]; obj_exp [("Err", b)]])
        (rec InlineSchema e))
  | TNamed _ => None
  end.

(** Value and (key, value) of a field. *)
Definition field_exp (t : ty) (optional : bool) : option jsexp :=
  option_map (opt_exp optional) (rec InlineSchema t).
Definition prop_exp (k : string) (t : ty) (optional : bool) : option (string * jsexp) :=
  option_map (pair k) (field_exp t optional).

Definition sval (f : sfield) : option jsexp := field_exp (s_ty f) (s_optional f).
Definition sprop (f : sfield) : option (string * jsexp) :=
  match s_name f with
  | Some n => prop_exp n (s_ty f) (s_optional f)
  | None => None
  end.

Definition struct_exp (st : style) (transparent : bool) (fields : list sfield) : option jsexp :=
  let flat := filter s_flatten fields in
  let fs := filter (fun f => negb (s_flatten f)) fields in
  match transparent, st with
  | true, _ => match fs with f :: _ => sval f | [] => None end
  | false, StTuple =>
      match fs with
      | [] => None
      | [f] => sval f
      | _ => option_map tup_exp (all_some (map sval fs))
      end
  | false, StNamed =>
      bind (all_some (map sprop fs)) (fun ps =>
      option_map (fun es => fold_left (fun o e => meth o "extend" [e]) es (obj_exp ps))
        (all_some (map sval flat)))
  | false, StUnit => None
  end.

Definition unit_exp (tg : tagging) (name : string) : jsexp :=
  match tg with
  | External => lit_exp name
  | Internal tag | Adjacent tag _ => obj_exp [(tag, lit_exp name)]
  | Untagged => zcall "null" []
  end.

Definition tuple_exp (tg : tagging) (name : string) (fs : list field) : option jsexp :=
  match fs with
  | [] => Some (unit_exp tg name)
  | _ =>
      option_map
        (fun inner =>
           match tg with
           | External | Internal _ => obj_exp [(name, inner)]
           | Adjacent tag content => obj_exp [(tag, lit_exp name); (content, inner)]
           | Untagged => inner
           end)
        match fs with
        | [f] => field_exp (f_ty f) (f_default f)
        | _ => option_map tup_exp (all_some (map (fun f => field_exp (f_ty f) (f_default f)) fs))
        end
  end.

Definition named_exp (tg : tagging) (name : string) (fs : list field) : option jsexp :=
  match fs with
  | [] => None
  | _ =>
      option_map
        (fun ps =>
           match tg with
           | External => obj_exp [(name, obj_exp ps)]
           | Internal tag => obj_exp ((tag, lit_exp name) :: ps)
           | Adjacent tag content => obj_exp [(tag, lit_exp name); (content, obj_exp ps)]
           | Untagged => obj_exp ps
           end)
        (all_some (map (fun f => prop_exp (f_name f) (f_ty f) (f_default f)) fs))
  end.

Definition variant_exp (tg : tagging) (v : variant) : option jsexp :=
  let fs := variant_fields (v_fields v) in
  match v_style v with
  | StUnit => Some (unit_exp tg (v_name v))
  | StNamed => named_exp tg (v_name v) fs
  | StTuple => tuple_exp tg (v_name v) fs
  end.

Definition enum_exp (tg : tagging) (vs : list variant) : option jsexp :=
  match vs with
  | [] => None
  | [v] => variant_exp tg v
  | _ =>
      option_map
        (fun xs =>
           match tg with
           | External | Untagged => union_exp xs
           | Internal tag | Adjacent tag _ => zcall "discriminatedUnion" [EStr tag; EArr xs]
           end)
        (all_some (map (variant_exp tg) vs))
  end.

Definition decl_exp (d : decl) : option jsexp :=
  match d_from d, d_body d with
  | Some t, BStruct _ _ _ => rec InlineSchema t
  | Some t, BEnum _ _ => rec Schema t
  | None, BStruct st tr fs => struct_exp st tr (struct_fields st tr fs)
  | None, BEnum tg vs => enum_exp tg (filter (fun v => negb (v_skip v)) vs)
  end.

Definition decl_ref (d : decl) : option jsexp :=
  match d_from d, d_body d with
  | Some t, BEnum _ _ => rec InlineSchema t
  | _, _ => Some (lazy_exp d)
  end.
End Trees.

(** The tree of the text [gen E fuel q t]. *)
Fixpoint agen (E : env) (fuel : nat) (q : query) (t : ty) : option jsexp :=
  match fuel with
  | O => None
  | S n =>
      match t with
      | TNamed i =>
          match derive (lookup E i) with
          | Done _ =>
              match q with
              | Schema => decl_exp (agen E n) (lookup E i)
              | _ => decl_ref (agen E n) (lookup E i)
              end
          | _ => None
          end
      | _ => match q with Schema => builtin_exp (agen E n) t | _ => agen E n Schema t end
      end
  end.
