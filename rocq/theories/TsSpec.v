(** Which values a TypeScript type contains. *)
From Coq Require Import List String Bool.
From Verif Require Import RustTy Gen GenSpec Js Zod ZodSpec Serde ParseSpec TsType.
Import ListNotations.
Local Open Scope string_scope.
Local Open Scope list_scope.

(** The exported types of the generated module: [ns.name]. *)
Definition tenv := string -> string -> option tsty.

(** Structural membership.  A property is read as [v.k]; one that is missing reads
    [undefined], and an optional one may do so.  (Only object values are members of object
    types here; TypeScript would also admit arrays and functions with suitable properties.) *)
Inductive member (T : tenv) : tsty -> jsval -> Prop :=
| mb_string s : member T (YName "string") (JsStr s)
| mb_number n : member T (YName "number") (JsNum n)
| mb_boolean b : member T (YName "boolean") (JsBool b)
| mb_null : member T (YName "null") JsNull
| mb_undefined : member T (YName "undefined") JsUndef
| mb_literal s : member T (YStr s) (JsStr (js s))
| mb_tuple ys vs : Forall2 (member T) ys vs -> member T (YTup ys) (JsArr vs)
| mb_array y vs : (forall v, In v vs -> member T y v) -> member T (YApp "Array" [y]) (JsArr vs)
| mb_set y vs : (forall v, In v vs -> member T y v) -> member T (YApp "Set" [y]) (JsSet vs)
| mb_map a b l : (forall p, In p l -> member T a (fst p)) -> (forall p, In p l -> member T b (snd p)) ->
    member T (YApp "Map" [a; b]) (JsMap l)
| mb_object ps l :
    (forall k opt y, In (k, opt, y) ps ->
       opt = true /\ get_prop k l = JsUndef \/ member T y (get_prop k l)) ->
    member T (YObj ps) (JsObj l)
| mb_paren y v : member T y v -> member T (YParen y) v
| mb_left a b v : member T a v -> member T (YUnion a b) v
| mb_right a b v : member T b v -> member T (YUnion a b) v
| mb_both a b v : member T a v -> member T b v -> member T (YInter a b) v
| mb_ref ns n y v : T ns n = Some y -> member T y v -> member T (YRef ns n) v.

(** The generated module exports the type of every declaration of the fragment. *)
Definition type_exports (E : env) (inside : nat -> bool) (T : tenv) : Prop :=
  forall i, inside i = true -> exists s y,
    returns E TypeDef (TNamed i) s /\ ts_parse s = Some y /\
    T (d_ns (lookup E i)) (d_name (lookup E i)) = Some y.

(** A set of declarations closed under mentioning. *)
Definition spans (E : env) (inside : nat -> bool) : Prop :=
  forall i, inside i = true -> forall t, In t (parts (lookup E i)) -> within inside t.

(** Field names do not repeat. *)
Definition distinct_decl (d : decl) : Prop :=
  match d_from d, d_body d with
  | None, BStruct StNamed _ fs => NoDup (map f_name (kept fs))
  | None, BEnum _ vs =>
      forall v, In v (kept_variants vs) -> v_style v = StNamed -> NoDup (map f_name (kept (v_fields v)))
  | _, _ => True
  end.
Definition distinct (E : env) (inside : nat -> bool) : Prop :=
  forall i, inside i = true -> distinct_decl (lookup E i).

(** ** The fragment in which everything serde writes is a member of the type *)

(** A document without [null]. *)
Fixpoint no_null (j : json) : bool :=
  match j with
  | JNull => false
  | JArr l => forallb no_null l
  | JObj l => forallb (fun p => no_null (snd p)) l
  | _ => true
  end.

(** [mild]: only documents without [null] are looked at, so that [Option], [Weak] and
    floats belong to the fragment. *)
Section Typed.
Context (mild : bool) (inside : nat -> bool).

Fixpoint typed_ty (t : ty) : bool :=
  match t with
  | TPrim (PF32 | PF64) => mild
  | TPrim _ => true
  | TTuple ts => forallb typed_ty ts
  | TWrap WPhantom _ => false
  | TWrap WWeak t | TOpt t => mild && typed_ty t
  | TWrap _ t | TVec t | TArr _ t => typed_ty t
  | TSet _ _ | TMap _ _ _ => false
  | TRes t e => typed_ty t && typed_ty e
  | TNamed i => inside i
  end.

(** A named field is written under the name it is read by, or it is optional and nothing is
    written under its name. *)
Definition typed_named (fs : list field) : Prop :=
  (forall f, In f (kept fs) -> f_flatten f = false /\
     (typed_ty (f_ty f) = true /\ f_sskip f = false /\ f_sname f = f_name f \/
      f_default f = true /\ ~ In (f_name f) (map f_sname (skept fs)) /\ inherited (f_name f) = false)) /\
  (forall f, In f (skept fs) -> f_flatten f = false) /\
  NoDup (map f_sname (skept fs)).

(** Unnamed fields: none is skipped. *)
Definition typed_tuple (fs : list field) : Prop :=
  forall f, In f fs -> typed_ty (f_ty f) = true /\ f_skip f = false /\ f_sskip f = false /\ f_flatten f = false.

Definition typed_struct (st : style) (tr : bool) (fs : list field) : Prop :=
  if tr then
    (forall f, In f (skept fs) -> f_flatten f = false) /\
    exists f, kept fs = [f] /\ typed_ty (f_ty f) = true /\
      filter (fun f => negb (f_sskip f) && negb (phantom (f_ty f))) fs = [f]
  else
    match st with
    | StNamed => typed_named fs
    | StTuple => typed_tuple fs
    | StUnit => False
    end.

Definition typed_variant (tg : tagging) (v : variant) : Prop :=
  v_skip v = false /\ v_sname v = v_name v /\
  match v_style v with
  | StUnit => True
  | StTuple =>
      v_fields v <> [] /\ typed_tuple (v_fields v) /\
      match tg with Internal _ => False | Adjacent t c => t <> c | _ => True end
  | StNamed =>
      typed_named (v_fields v) /\
      match tg with
      | Internal t => ~ In t (map f_sname (skept (v_fields v))) /\ ~ In t (map f_name (kept (v_fields v)))
      | Adjacent t c => t <> c
      | _ => True
      end
  end.

Definition typed_decl (d : decl) : Prop :=
  match d_from d, d_body d with
  | Some _, _ => False
  | None, BStruct st tr fs => typed_struct st tr fs
  | None, BEnum tg vs => forall v, In v vs -> v_sskip v = false -> typed_variant tg v
  end.

Definition typed (E : env) : Prop := forall i, inside i = true -> typed_decl (lookup E i).
End Typed.
