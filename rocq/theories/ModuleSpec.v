(** What the theorems on the generated module say. *)
From Coq Require Import List String Ascii Bool NArith.
From Verif Require Import RustTy Gen GenSpec JsLex JsParse TsType JsModule Zod Docs DocsSpec Registry RegistrySpec
  ParseSpec TsSpec.
Import ListNotations.
Local Open Scope string_scope.
Local Open Scope list_scope.

(** ** Names *)
Definition usable (s : string) : Prop := ident s = true /\ binding s = true.

Definition schema_name (o : options) (n : string) : string := o_pre_schema o ^^ n ^^ o_suf_schema o.
Definition alias_name (o : options) (n : string) : string := o_pre_type o ^^ n ^^ o_suf_type o.
Definition interface_name (o : options) (n : string) : string := o_pre_interface o ^^ n ^^ o_suf_interface o.

(** Documentation that does not end its own comment. *)
Definition closed_docs (ds : list rstr) : Prop :=
  Forall (Forall scalar) ds /\ forall ls l, doc_lines ds ls -> In l ls -> ~ occurs (lit "*/") l.

(** All names that end up in the text are identifiers that may be bound. *)
Definition usable_type (E : env) (o : options) (i : nat) : Prop :=
  let d := lookup E i in
  usable (d_ns d) /\ usable (schema_name o (d_name d)) /\ usable (alias_name o (d_name d)) /\
  usable (interface_name o (d_name d)) /\ closed_docs (d_docs d).
Definition usable_rpc (m : rpc) : Prop :=
  usable (r_ns m) /\ usable (r_name m) /\ (forall a, In a (r_args m) -> usable (fst a)) /\ NoDup (map fst (r_args m)).
Definition usable_names (E : env) (o : options) (inv : inventory) (names : list string) : Prop :=
  (forall i, In i (i_types inv) -> In (d_ns (lookup E i)) names -> usable_type E o i) /\
  (forall m, In m (i_rpcs inv) -> In (r_ns m) names -> usable_rpc m).

(** Types that are exported as an interface although their text is not an object type: structs
    with a flattened field, tuple structs that are not newtypes, and what passes these on. *)
Inductive misshapen (E : env) : ty -> Prop :=
| mis_flatten i fs f : d_from (lookup E i) = None -> d_body (lookup E i) = BStruct StNamed false fs ->
    In f (kept fs) -> f_flatten f = true -> misshapen E (TNamed i)
| mis_tuple i fs : d_from (lookup E i) = None -> d_body (lookup E i) = BStruct StTuple false fs ->
    List.length (kept fs) <> 1 -> misshapen E (TNamed i)
| mis_wrap w t : misshapen E t -> misshapen E (TWrap w t)
| mis_from i tg vs t : d_from (lookup E i) = Some t -> d_body (lookup E i) = BEnum tg vs -> misshapen E t ->
    misshapen E (TNamed i).

(** serde refuses flatten in tuple structs. *)
Definition no_tuple_flatten (E : env) : Prop :=
  forall i fs, d_body (lookup E i) = BStruct StTuple false fs -> forall f, In f (kept fs) -> f_flatten f = false.

(** ** Contents *)

(** [e] is the schema, [y] the type of [t] that the query writes. *)
Definition schema_tree (E : env) (q : query) (t : ty) (e : jsexp) : Prop :=
  exists s, returns E q t s /\ js_parse s = Some e.
Definition type_tree (E : env) (q : query) (t : ty) (y : tsty) : Prop :=
  exists s, returns E q t s /\ ts_parse s = Some y.

(** The two declarations of a type. *)
Inductive type_items (E : env) (o : options) (i : nat) : list item -> Prop :=
| ti_alias e y : schema_tree E Schema (TNamed i) e -> type_tree E TypeDef (TNamed i) y ->
    interface E (TNamed i) false ->
    type_items E o i [IConst (schema_name o (d_name (lookup E i))) e; IType (alias_name o (d_name (lookup E i))) y]
| ti_interface e ps : schema_tree E Schema (TNamed i) e -> type_tree E TypeDef (TNamed i) (YObj ps) ->
    interface E (TNamed i) true ->
    type_items E o i
      [IConst (schema_name o (d_name (lookup E i))) e; IInterface (interface_name o (d_name (lookup E i))) ps].

(** [z.tuple([...]).parse([...arguments])] *)
Definition validation (es : list jsexp) : jsexp :=
  ECall (EMember (ECall (EMember (EId "z") "tuple") [EArr es]) "parse") [EArr [ESpread (EId "arguments")]].
(** [request("ns", "name", arguments)] *)
Definition transmission (f ns name : string) : jsexp :=
  ECall (EId f) [EStr ns; EStr name; EId "arguments"].
Definition transport (k : kind) : string := match k with Method => "request" | Stream => "subscribe" end.
Definition result_box (k : kind) : string := match k with Method => "Promise" | Stream => "Store" end.

(** The function of a method or stream: it mentions its arguments, validates what it was
    called with against the schemas of the arguments in order, and passes it on. *)
Definition rpc_func (E : env) (m : rpc) (f : func) : Prop :=
  fn_async f = match r_kind m with Method => true | Stream => false end /\
  fn_name f = r_name m /\
  Forall2 (fun a p => fst p = fst a /\ type_tree E Inline (snd a) (snd p)) (r_args m) (fn_params f) /\
  (exists y, type_tree E TypeDef (r_res m) y /\ fn_result f = YApp (result_box (r_kind m)) [y]) /\
  exists es, Forall2 (fun a e => schema_tree E InlineSchema (snd a) e) (r_args m) es /\
    fn_body f = map (fun a => SExp (EId (fst a))) (r_args m) ++
      [SExp (validation es); SReturn (transmission (transport (r_kind m)) (r_ns m) (r_name m))].

(** The namespace [ns]. *)
Definition space_of (E : env) (o : options) (inv : inventory) (ns : string) (b : nsblock) : Prop :=
  b_name b = ns /\ exists its fs,
    Forall2 (type_items E o) (types_of E ns (i_types inv)) its /\
    Forall2 (rpc_func E) (rpcs_of ns (i_rpcs inv)) fs /\
    b_items b = List.concat its ++ map IFun fs.

(** One namespace per name that has a member. *)
Definition spaces_of (E : env) (o : options) (inv : inventory) (names : list string) (m : list nsblock) : Prop :=
  exists L, ascending L /\ (forall ns, In ns L <-> In ns names /\ has_member E inv ns) /\
    Forall2 (space_of E o inv) L m.

(** What the items export. *)
Definition values (b : nsblock) : list string :=
  flat_map (fun i => match i with IConst n _ => [n] | IFun f => [fn_name f] | _ => [] end) (b_items b).
Definition types (b : nsblock) : list string :=
  flat_map (fun i => match i with IType n _ | IInterface n _ => [n] | _ => [] end) (b_items b).
