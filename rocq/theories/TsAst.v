(** The generated type texts as type trees.

    [tgen] says which TypeScript type each generated text is meant to be; that the text
    really lexes and parses to it is proved in TsAstProofs.v, so nothing about [tgen] is
    trusted. *)
From Coq Require Import List String Ascii Bool NArith.
From Verif Require Import RustTy Gen JsLex JsParse Ast TsType.
Import ListNotations.
Local Open Scope string_scope.
Local Open Scope list_scope.

(** The type whose text is the text of [a], a bar and the text of [b]. *)
Fixpoint uni (a b : tsty) : tsty :=
  match b with
  | YUnion b1 b2 => YUnion (uni a b1) b2
  | _ => YUnion a b
  end.

(** The same with an ampersand, which binds tighter; [a] is not a union. *)
Fixpoint inter1 (a b : tsty) : tsty :=
  match b with
  | YUnion b1 b2 => YUnion (inter1 a b1) b2
  | YInter b1 b2 => YInter (inter1 a b1) b2
  | _ => YInter a b
  end.
Definition inter (a b : tsty) : tsty :=
  match a with
  | YUnion a1 a2 => uni a1 (inter1 a2 b)
  | _ => inter1 a b
  end.

Definition undef : tsty := YName "undefined".
Definition opt_ty (b : bool) (y : tsty) : tsty := if b then uni y undef else y.
Definition flat_ty (b : bool) (y : tsty) : tsty := if b then YParen (uni y undef) else y.
Definition unis (y : tsty) (ys : list tsty) : tsty := fold_left uni ys y.

(** Namespaces whose name starts a type operator cannot be written as [Ns.Name]. *)
Definition type_names (E : env) : Prop := Forall (fun d => type_op (d_ns d) = false) E.

Section Trees.
Context (rec : query -> ty -> option tsty).

Definition builtin_ty (t : ty) : option tsty :=
  match t with
  | TPrim p => Some (YName (prim_type p))
  | TTuple ts => option_map YTup (all_some (map (rec TypeDef) ts))
  | TWrap _ t => rec TypeDef t
  | TVec t => option_map (fun y => YApp "Array" [y]) (rec TypeDef t)
  | TArr _ t => rec TypeDef (TVec t)
  | TSet Hash t => option_map (fun y => YApp "Set" [y]) (rec TypeDef t)
  | TSet BTree t => rec TypeDef (TSet Hash t)
  | TMap Hash k v =>
      bind (rec TypeDef k) (fun a => option_map (fun b => YApp "Map" [a; b]) (rec TypeDef v))
  | TMap BTree k v => rec TypeDef (TMap Hash k v)
  | TOpt t => option_map (fun y => YParen (uni y undef)) (rec TypeDef t)
  | TRes t e =>
      bind (rec TypeDef t) (fun a =>
      option_map (fun b => YUnion (YObj [("Ok", false, a)]) (YObj [("Err", false, b)])) (rec TypeDef e))
  | TNamed _ => None
  end.

Definition tfield (t : ty) (optional : bool) : option tsty :=
  option_map (opt_ty optional) (rec Inline t).
Definition tprop (k : string) (t : ty) (optional : bool) : option (string * bool * tsty) :=
  option_map (pair (k, optional)) (tfield t optional).

Definition stval (f : sfield) : option tsty := tfield (s_ty f) (s_optional f).
Definition stprop (f : sfield) : option (string * bool * tsty) :=
  match s_name f with
  | Some n => tprop n (s_ty f) (s_optional f)
  | None => None
  end.
Definition stflat (f : sfield) : option tsty :=
  option_map (flat_ty (s_optional f)) (rec Inline (s_ty f)).

Definition struct_ty (st : style) (transparent : bool) (fields : list sfield) : option tsty :=
  let flat := filter s_flatten fields in
  let fs := filter (fun f => negb (s_flatten f)) fields in
  match transparent, st with
  | true, _ => match fs with f :: _ => stval f | [] => None end
  | false, StTuple =>
      match fs with
      | [] => None
      | [f] => stval f
      | _ => option_map YTup (all_some (map stval fs))
      end
  | false, StNamed =>
      bind (all_some (map stprop fs)) (fun ps =>
      option_map (fun ys => fold_left inter ys (YObj ps)) (all_some (map stflat flat)))
  | false, StUnit => None
  end.

Definition unit_ty (tg : tagging) (name : string) : tsty :=
  match tg with
  | External => YStr name
  | Internal tag | Adjacent tag _ => YObj [(tag, false, YStr name)]
  | Untagged => YName "null"
  end.

Definition tuple_ty (tg : tagging) (name : string) (fs : list field) : option tsty :=
  match fs with
  | [] => Some (unit_ty tg name)
  | _ =>
      option_map
        (fun inner =>
           match tg with
           | External | Internal _ => YObj [(name, false, inner)]
           | Adjacent tag content => YObj [(tag, false, YStr name); (content, false, inner)]
           | Untagged => inner
           end)
        match fs with
        | [f] => tfield (f_ty f) (f_default f)
        | _ => option_map YTup (all_some (map (fun f => tfield (f_ty f) (f_default f)) fs))
        end
  end.

Definition named_ty (tg : tagging) (name : string) (fs : list field) : option tsty :=
  match fs with
  | [] => None
  | _ =>
      option_map
        (fun ps =>
           match tg with
           | External => YObj [(name, false, YObj ps)]
           | Internal tag => YObj ((tag, false, YStr name) :: ps)
           | Adjacent tag content => YObj [(tag, false, YStr name); (content, false, YObj ps)]
           | Untagged => YObj ps
           end)
        (all_some (map (fun f => tprop (f_name f) (f_ty f) (f_default f)) fs))
  end.

Definition variant_ty (tg : tagging) (v : variant) : option tsty :=
  let fs := variant_fields (v_fields v) in
  match v_style v with
  | StUnit => Some (unit_ty tg (v_name v))
  | StNamed => named_ty tg (v_name v) fs
  | StTuple => tuple_ty tg (v_name v) fs
  end.

Definition enum_ty (tg : tagging) (vs : list variant) : option tsty :=
  match all_some (map (variant_ty tg) vs) with
  | Some (y :: ys) => Some (unis y ys)
  | _ => None
  end.

Definition decl_ty (d : decl) : option tsty :=
  match d_from d, d_body d with
  | Some t, BStruct _ _ _ => rec Inline t
  | Some t, BEnum _ _ => rec TypeDef t
  | None, BStruct st tr fs => struct_ty st tr (struct_fields st tr fs)
  | None, BEnum tg vs => enum_ty tg (filter (fun v => negb (v_skip v)) vs)
  end.

Definition decl_name (d : decl) : option tsty :=
  match d_from d with
  | Some t => rec Inline t
  | None => Some (YRef (d_ns d) (d_name d))
  end.
End Trees.

(** The tree of the text [gen E fuel q t]. *)
Fixpoint tgen (E : env) (fuel : nat) (q : query) (t : ty) : option tsty :=
  match fuel with
  | O => None
  | S n =>
      match t with
      | TNamed i =>
          match derive (lookup E i) with
          | Done _ =>
              match q with
              | TypeDef => decl_ty (tgen E n) (lookup E i)
              | _ => decl_name (tgen E n) (lookup E i)
              end
          | _ => None
          end
      | _ => match q with TypeDef => builtin_ty (tgen E n) t | _ => tgen E n TypeDef t end
      end
  end.
