(** What the names in the generated module stand for. *)
From Coq Require Import List String Ascii Bool NArith.
From Verif Require Import RustTy Gen GenSpec JsLex JsParse Ast TsType TsAst JsModule Zod ZodSpec Docs Registry RegistrySpec
  SerdeSpec ParseSpec TsSpec ModuleSpec.
Import ListNotations.
Local Open Scope string_scope.
Local Open Scope list_scope.

Definition member_of (x : string) (l : list string) : bool := existsb (String.eqb x) l.

(** ** Uses of names *)

(** The names an expression reads; together with the property when only that is read. *)
Fixpoint uses (e : jsexp) : list (string * option string) :=
  match e with
  | EId s => [(s, None)]
  | EStr _ | ENum _ | ENeg _ => []
  | EMember e' p => match e' with EId s => [(s, Some p)] | _ => uses e' end
  | ECall f args => uses f ++ flat_map uses args
  | EArr es => flat_map uses es
  | EObj ps => flat_map (fun p => uses (snd p)) ps
  | EArrow b => uses b
  | ESpread e => uses e
  end.

(** The same for types. *)
Fixpoint tuses (y : tsty) : list (string * option string) :=
  match y with
  | YName s => [(s, None)]
  | YRef ns n => [(ns, Some n)]
  | YStr _ => []
  | YTup ys => flat_map tuses ys
  | YApp f ys => (f, None) :: flat_map tuses ys
  | YObj ps => flat_map (fun p => tuses (snd p)) ps
  | YParen y => tuses y
  | YUnion a b | YInter a b => tuses a ++ tuses b
  end.

(** ** Scopes *)

Definition block (m : list nsblock) (n : string) : option nsblock := find (fun b => String.eqb (b_name b) n) m.

Fixpoint const_in (l : list item) (n : string) : option jsexp :=
  match l with
  | [] => None
  | IConst x e :: r => if String.eqb x n then Some e else const_in r n
  | _ :: r => const_in r n
  end.
Definition const (b : nsblock) (n : string) : option jsexp := const_in (b_items b) n.

Fixpoint type_in (l : list item) (n : string) : option tsty :=
  match l with
  | [] => None
  | IType x y :: r => if String.eqb x n then Some y else type_in r n
  | IInterface x ps :: r => if String.eqb x n then Some (YObj ps) else type_in r n
  | _ :: r => type_in r n
  end.
Definition type_at (b : nsblock) (n : string) : option tsty := type_in (b_items b) n.

(** What a name means to code in the namespace [b], inside a function with the parameters [ps]:
    the innermost declaration counts.  [PGlobal]: nothing in the generated namespaces, so that
    it is left to the imports and declarations of the prelude. *)
Inductive place := PParam | POwn | PSpace (b : nsblock) | PGlobal.
Definition sees (m : list nsblock) (b : nsblock) (ps : list string) (x : string) : place :=
  if member_of x ps then PParam
  else if member_of x (values b) then POwn
  else match block m x with Some b' => PSpace b' | None => PGlobal end.

(** A type name on its own: parameters are not types, and neither are namespaces. *)
Definition type_sees (b : nsblock) (x : string) : place := if member_of x (types b) then POwn else PGlobal.

(** The expressions of a namespace with the parameters around them. *)
Definition code (b : nsblock) : list (list string * jsexp) :=
  flat_map (fun i => match i with
    | IConst _ e => [([], e)]
    | IFun f => map (fun s => (map fst (fn_params f), match s with SExp e | SReturn e => e end)) (fn_body f)
    | _ => []
    end) (b_items b).
(** Its types. *)
Definition signatures (b : nsblock) : list tsty :=
  flat_map (fun i => match i with
    | IType _ y => [y]
    | IInterface _ ps => [YObj ps]
    | IFun f => fn_result f :: map snd (fn_params f)
    | IConst _ _ => []
    end) (b_items b).

(** ** Conditions *)

(** The names that the generated code takes from the prelude. *)
Definition imports : list string := ["z"; "request"; "subscribe"].
Definition generics : list string := ["Array"; "Set"; "Map"; "Promise"; "Store"].
Definition keywords : list string := ["string"; "number"; "boolean"; "null"; "undefined"].

(** [inside]: the registered types of the backend's namespaces. *)
Definition registered (E : env) (inv : inventory) (names : list string) (inside : nat -> bool) : Prop :=
  forall i, inside i = true <-> In i (i_types inv) /\ In (d_ns (lookup E i)) names.
Definition mentions_inside (inv : inventory) (names : list string) (inside : nat -> bool) : Prop :=
  forall m, In m (i_rpcs inv) -> In (r_ns m) names ->
    (forall a, In a (r_args m) -> within inside (snd a)) /\ within inside (r_res m).

(** Names declared by the program do not hide what the generated code refers to. *)
Definition hygienic (E : env) (inv : inventory) (names : list string) : Prop :=
  (forall ns, In ns names -> ~ In ns imports) /\
  (forall i, In i (i_types inv) -> In (d_ns (lookup E i)) names ->
     ~ In (d_name (lookup E i)) imports /\ ~ In (d_name (lookup E i)) names) /\
  (forall m, In m (i_rpcs inv) -> In (r_ns m) names ->
     ~ In (r_name m) imports /\ ~ In (r_name m) names /\
     forall a, In a (r_args m) -> ~ In (fst a) imports /\ ~ In (fst a) names).

(** Schemas are exported under the names of the types. *)
Definition plain_schemas (o : options) : Prop := o_pre_schema o = "" /\ o_suf_schema o = "".
Definition plain_types (o : options) : Prop :=
  o_pre_type o = "" /\ o_suf_type o = "" /\ o_pre_interface o = "" /\ o_suf_interface o = "".

(** Nothing is declared twice in one namespace. *)
Definition declared_once (E : env) (inv : inventory) (names : list string) : Prop :=
  forall ns, In ns names ->
    NoDup (map (fun i => d_name (lookup E i)) (types_of E ns (i_types inv)) ++ map r_name (rpcs_of ns (i_rpcs inv))).

(** No type is called like a generic type the generated code uses. *)
Definition generics_free (E : env) (inv : inventory) (names : list string) : Prop :=
  forall i, In i (i_types inv) -> In (d_ns (lookup E i)) names -> ~ In (d_name (lookup E i)) generics.

(** ** What it means to resolve *)

(** The use [(x, p)] in the expression [e] of the namespace [b]: a name imported by the prelude
    and hidden by nothing; the arguments of the function; a parameter that is mentioned for its
    own sake; or the schema of a registered type, reached through its namespace. *)
Inductive resolves (E : env) (inside : nat -> bool) (m : list nsblock) (b : nsblock) (ps : list string) (e : jsexp) :
  string -> option string -> Prop :=
| res_import x p : In x imports -> sees m b ps x = PGlobal -> resolves E inside m b ps e x p
| res_arguments : ~ In "arguments" ps -> resolves E inside m b ps e "arguments" None
| res_param x : e = EId x -> sees m b ps x = PParam -> resolves E inside m b ps e x None
| res_const i b' e' : inside i = true -> sees m b ps (d_ns (lookup E i)) = PSpace b' ->
    const b' (d_name (lookup E i)) = Some e' -> schema_tree E Schema (TNamed i) e' ->
    resolves E inside m b ps e (d_ns (lookup E i)) (Some (d_name (lookup E i))).

(** The same for a type: a keyword; a generic type hidden by nothing; or the type of a
    registered type. *)
Inductive type_resolves (E : env) (inside : nat -> bool) (m : list nsblock) (b : nsblock) :
  string -> option string -> Prop :=
| tres_keyword x : In x keywords -> type_resolves E inside m b x None
| tres_generic x : In x generics -> type_sees b x = PGlobal -> type_resolves E inside m b x None
| tres_type i b' y : inside i = true -> block m (d_ns (lookup E i)) = Some b' ->
    type_at b' (d_name (lookup E i)) = Some y -> type_tree E TypeDef (TNamed i) y ->
    type_resolves E inside m b (d_ns (lookup E i)) (Some (d_name (lookup E i))).

(** No schema of the set throws while it is built. *)
Definition loadable (E : env) (inside : nat -> bool) : Prop :=
  forall i, inside i = true -> ~ contains_throwing E (Full (TNamed i)).

(** All conditions on a program together. *)
Record regular (E : env) (o : options) (inv : inventory) (names : list string) (inside : nat -> bool) : Prop := {
  reg_names : good_names E;
  reg_types : type_names E;
  reg_usable : usable_names E o inv names;
  reg_shape : forall i, inside i = true -> ~ misshapen E (TNamed i);
  reg_plain : plain_schemas o /\ plain_types o;
  reg_spans : spans E inside;
  reg_inside : registered E inv names inside;
  reg_mentions : mentions_inside inv names inside;
  reg_once : declared_once E inv names;
  reg_hygiene : hygienic E inv names;
  reg_generics : generics_free E inv names
}.

(** ** The module as an environment *)
Definition module_schemas (m : list nsblock) : menv := fun ns n =>
  match block m ns with
  | Some b =>
      match const b n with
      | Some e => match eval_schema e with Val z => Some z | _ => None end
      | None => None
      end
  | None => None
  end.
Definition module_types (m : list nsblock) : tenv := fun ns n =>
  match block m ns with Some b => type_at b n | None => None end.
