(** What the generator theorems say, independent of how the generators are written. *)
From Coq Require Import List String Bool Relations.
From Verif Require Import RustTy Gen.
Import ListNotations.
Local Open Scope string_scope.
Local Open Scope list_scope.

(** Every derive of the program compiles. *)
Definition compiles (E : env) : Prop := forall i, exists im, derive (lookup E i) = Done im.

(** Query [q] on [t] returns the text [s]: some stack is deep enough. *)
Definition returns (E : env) (q : query) (t : ty) (s : string) : Prop :=
  exists n, gen E n q t = Some s.

(** It overflows every stack. *)
Definition overflows (E : env) (q : query) (t : ty) : Prop :=
  forall n, gen E n q t = None.

(** ** Fields and variants that can be deserialized *)
Definition kept (fs : list field) : list field := filter (fun f => negb (f_skip f)) fs.
Definition kept_variants (vs : list variant) : list variant :=
  filter (fun v => negb (v_skip v)) vs.
Definition plain (f : field) : bool := negb (f_flatten f).

(** The fields whose types make it into the texts of a declaration. *)
Definition embedded (d : decl) : list field :=
  match d_body d with
  | BStruct _ true fs => firstn 1 (filter plain (kept fs))
  | BStruct StTuple false fs => filter plain (kept fs)
  | BStruct _ false fs => kept fs
  | BEnum _ vs =>
      flat_map (fun v => match v_style v with StUnit => [] | _ => kept (v_fields v) end)
        (kept_variants vs)
  end.

Definition is_struct (d : decl) : Prop :=
  match d_body d with BStruct _ _ _ => True | BEnum _ _ => False end.

Definition is_named (t : ty) : Prop := exists i, t = TNamed i.

(** ** Which types a text embeds eagerly *)

(** [Full t]: the definition of [t]; [Inl t]: what stands where [t] is mentioned. *)
Inductive node := Full (t : ty) | Inl (t : ty).

(** The definition of a schema needs ... *)
Inductive schema_needs (E : env) : node -> node -> Prop :=
| sn_tuple ts t : In t ts -> schema_needs E (Full (TTuple ts)) (Full t)
| sn_wrap w t : schema_needs E (Full (TWrap w t)) (Full t)
| sn_vec t : schema_needs E (Full (TVec t)) (Inl t)
| sn_arr n t : schema_needs E (Full (TArr n t)) (Full (TVec t))
| sn_set t : schema_needs E (Full (TSet Hash t)) (Inl t)
| sn_bset t : schema_needs E (Full (TSet BTree t)) (Full (TSet Hash t))
| sn_key k v : schema_needs E (Full (TMap Hash k v)) (Inl k)
| sn_val k v : schema_needs E (Full (TMap Hash k v)) (Inl v)
| sn_bmap k v : schema_needs E (Full (TMap BTree k v)) (Full (TMap Hash k v))
| sn_opt t : schema_needs E (Full (TOpt t)) (Inl t)
| sn_ok t e : schema_needs E (Full (TRes t e)) (Inl t)
| sn_err t e : schema_needs E (Full (TRes t e)) (Inl e)
| sn_mention t : ~ is_named t -> schema_needs E (Inl t) (Full t)
| sn_field i f :
    d_from (lookup E i) = None -> In f (embedded (lookup E i)) ->
    schema_needs E (Full (TNamed i)) (Inl (f_ty f))
| sn_from_struct i t :
    is_struct (lookup E i) -> d_from (lookup E i) = Some t ->
    schema_needs E (Full (TNamed i)) (Inl t)
| sn_from_enum i t :
    ~ is_struct (lookup E i) -> d_from (lookup E i) = Some t ->
    schema_needs E (Full (TNamed i)) (Full t)
| sn_from_enum_inl i t :
    ~ is_struct (lookup E i) -> d_from (lookup E i) = Some t ->
    schema_needs E (Inl (TNamed i)) (Inl t).

(** The definition of a TypeScript type needs ... (containers do not break cycles). *)
Inductive type_needs (E : env) : node -> node -> Prop :=
| tn_tuple ts t : In t ts -> type_needs E (Full (TTuple ts)) (Full t)
| tn_wrap w t : type_needs E (Full (TWrap w t)) (Full t)
| tn_vec t : type_needs E (Full (TVec t)) (Full t)
| tn_arr n t : type_needs E (Full (TArr n t)) (Full (TVec t))
| tn_set t : type_needs E (Full (TSet Hash t)) (Full t)
| tn_bset t : type_needs E (Full (TSet BTree t)) (Full (TSet Hash t))
| tn_key k v : type_needs E (Full (TMap Hash k v)) (Full k)
| tn_val k v : type_needs E (Full (TMap Hash k v)) (Full v)
| tn_bmap k v : type_needs E (Full (TMap BTree k v)) (Full (TMap Hash k v))
| tn_opt t : type_needs E (Full (TOpt t)) (Full t)
| tn_ok t e : type_needs E (Full (TRes t e)) (Full t)
| tn_err t e : type_needs E (Full (TRes t e)) (Full e)
| tn_mention t : ~ is_named t -> type_needs E (Inl t) (Full t)
| tn_field i f :
    d_from (lookup E i) = None -> In f (embedded (lookup E i)) ->
    type_needs E (Full (TNamed i)) (Inl (f_ty f))
| tn_from_struct i t :
    is_struct (lookup E i) -> d_from (lookup E i) = Some t ->
    type_needs E (Full (TNamed i)) (Inl t)
| tn_from_enum i t :
    ~ is_struct (lookup E i) -> d_from (lookup E i) = Some t ->
    type_needs E (Full (TNamed i)) (Full t)
| tn_from_inl i t :
    d_from (lookup E i) = Some t -> type_needs E (Inl (TNamed i)) (Inl t).

(** A cycle can be reached from [x]. *)
Definition reaches_cycle (R : node -> node -> Prop) (x : node) : Prop :=
  exists y, clos_refl_trans node R x y /\ clos_trans node R y y.

(** Size of the program text: number of (sub)types mentioned in [t] and in [E]. *)
Fixpoint mentions (t : ty) : list ty :=
  t :: match t with
       | TPrim _ | TNamed _ => []
       | TTuple ts => flat_map mentions ts
       | TWrap _ t | TVec t | TOpt t => mentions t
       | TArr _ t => TVec t :: mentions t
       | TSet c t => match c with Hash => [] | BTree => [TSet Hash t] end ++ mentions t
       | TMap c k v =>
           match c with Hash => [] | BTree => [TMap Hash k v] end ++ mentions k ++ mentions v
       | TRes t e => mentions t ++ mentions e
       end.

Definition decl_types (d : decl) : list ty :=
  match d_from d with Some t => [t] | None => [] end ++
  match d_body d with
  | BStruct _ _ fs => map f_ty fs
  | BEnum _ vs => flat_map (fun v => map f_ty (v_fields v)) vs
  end.

Definition mentioned (E : env) (t : ty) : list ty :=
  mentions t ++ flat_map (fun d => flat_map mentions (decl_types d)) E.

(** A stack depth linear in the program text. *)
Definition depth (E : env) (t : ty) : nat := 2 + 2 * List.length (mentioned E t).

(** [t] carries the derived type [i] through smart pointers and tuples only. *)
Inductive carries (i : nat) : ty -> Prop :=
| c_wrap_here w : carries i (TWrap w (TNamed i))
| c_tuple_here ts : In (TNamed i) ts -> carries i (TTuple ts)
| c_wrap w t : carries i t -> carries i (TWrap w t)
| c_tuple ts t : In t ts -> carries i t -> carries i (TTuple ts).

(** [t] contains the derived type [i] below at least one built-in. *)
Inductive contains (i : nat) : ty -> Prop :=
| k_wrap w t : contains' i t -> contains i (TWrap w t)
| k_tuple ts t : In t ts -> contains' i t -> contains i (TTuple ts)
| k_vec t : contains' i t -> contains i (TVec t)
| k_arr n t : contains' i t -> contains i (TArr n t)
| k_set c t : contains' i t -> contains i (TSet c t)
| k_key c k v : contains' i k -> contains i (TMap c k v)
| k_val c k v : contains' i v -> contains i (TMap c k v)
| k_opt t : contains' i t -> contains i (TOpt t)
| k_ok t e : contains' i t -> contains i (TRes t e)
| k_err t e : contains' i e -> contains i (TRes t e)
with contains' (i : nat) : ty -> Prop :=
| k_here : contains' i (TNamed i)
| k_below t : contains i t -> contains' i t.

(** No smart pointer or tuple directly carries a derived type; [mention] tells whether a
    derived type may stand here. *)
Fixpoint lazily (mention : bool) (t : ty) : bool :=
  match t with
  | TNamed _ => mention
  | TPrim _ => true
  | TWrap _ t => lazily false t
  | TTuple ts => forallb (lazily false) ts
  | TVec t | TArr _ t | TSet _ t | TOpt t => lazily true t
  | TMap _ k v => lazily true k && lazily true v
  | TRes t e => lazily true t && lazily true e
  end.

(** Programs in which derived types stand only where they become references. *)
Definition all_lazy (E : env) : Prop :=
  forall i, d_from (lookup E i) = None /\
            forall f, In f (embedded (lookup E i)) -> lazily true (f_ty f) = true.

(** ** Acceptance of declarations *)

(** Some kept field without default stands after a kept field with default. *)
Definition default_before_required (fs : list field) : Prop :=
  exists l1 a l2 b l3,
    filter plain (kept fs) = l1 ++ a :: l2 ++ b :: l3 /\
    f_default a = true /\ f_default b = false.

Definition acceptable (d : decl) : Prop :=
  match d_body d with
  | BStruct StUnit _ _ => False
  | BStruct _ true fs => exists f, In f fs /\ f_skip f = false /\ f_flatten f = false
  | BStruct StTuple false fs =>
      (exists f, In f fs /\ f_skip f = false /\ f_flatten f = false) /\
      ~ default_before_required fs
  | BStruct StNamed false _ => True
  | BEnum _ vs =>
      (exists v, In v vs /\ v_skip v = false) /\
      (forall v, In v vs -> v_skip v = false -> v_style v = StNamed ->
         exists f, In f (v_fields v) /\ f_skip f = false)
  end.

(** ** Removing what is skipped *)
Definition strip_variant (v : variant) : variant :=
  mkVariant (v_name v) (v_style v) (kept (v_fields v)) (v_skip v) (v_sname v) (v_sskip v).

Definition strip (d : decl) : decl :=
  mkDecl (d_ident d) (d_ns d) (d_name d)
    (match d_body d with
     | BStruct st tr fs => BStruct st tr (kept fs)
     | BEnum tg vs => BEnum tg (map strip_variant (kept_variants vs))
     end)
    (d_from d) (d_try d) (d_deny d) (d_cdefault d) (d_docs d).

(** ** Removing wrappers and shadowed collections *)

(** B-tree collections become hash collections, arrays become vectors, wrappers vanish;
    only a wrapper directly around a derived type leaves a trace (one [Box]), because it
    inlines the definition where the bare type would be a reference. *)
Fixpoint unwrap (t : ty) : ty :=
  match t with
  | TPrim p => TPrim p
  | TNamed i => TNamed i
  | TTuple ts => TTuple (map unwrap ts)
  | TWrap _ t => match unwrap t with TNamed i => TWrap WBox (TNamed i) | u => u end
  | TVec t => TVec (unwrap t)
  | TArr _ t => TVec (unwrap t)
  | TSet _ t => TSet Hash (unwrap t)
  | TMap _ k v => TMap Hash (unwrap k) (unwrap v)
  | TOpt t => TOpt (unwrap t)
  | TRes t e => TRes (unwrap t) (unwrap e)
  end.

Definition unwrap_field (f : field) : field :=
  mkField (f_name f) (unwrap (f_ty f)) (f_default f) (f_skip f) (f_flatten f)
    (f_sname f) (f_sskip f).

Definition unwrap_decl (d : decl) : decl :=
  mkDecl (d_ident d) (d_ns d) (d_name d)
    (match d_body d with
     | BStruct st tr fs => BStruct st tr (map unwrap_field fs)
     | BEnum tg vs =>
         BEnum tg (map (fun v => mkVariant (v_name v) (v_style v)
                                   (map unwrap_field (v_fields v)) (v_skip v)
                                   (v_sname v) (v_sskip v)) vs)
     end)
    (option_map unwrap (d_from d)) (d_try d) (d_deny d) (d_cdefault d) (d_docs d).

(** The query a wrapper forwards to. *)
Definition eager (q : query) : query :=
  match q with Schema | InlineSchema => Schema | TypeDef | Inline => TypeDef end.
