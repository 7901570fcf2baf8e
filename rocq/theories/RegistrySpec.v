(** What the theorems on the registry and the generated module say. *)
From Coq Require Import List String Ascii Bool NArith Sorted.
From Verif Require Import RustTy Gen GenSpec JsLex Docs Registry.
Import ListNotations.
Local Open Scope string_scope.
Local Open Scope list_scope.

(** The order of byte strings. *)
Inductive before : string -> string -> Prop :=
| before_end c s : before "" (String c s)
| before_char c d s t : (code c < code d)%N -> before (String c s) (String d t)
| before_tail c s t : before s t -> before (String c s) (String c t).

Definition ascending (l : list string) : Prop := StronglySorted before l.

(** The members of one namespace, in inventory order. *)
Fixpoint types_of (E : env) (ns : string) (l : list nat) : list nat :=
  match l with
  | [] => []
  | i :: r => if string_dec (d_ns (lookup E i)) ns then i :: types_of E ns r else types_of E ns r
  end.
Fixpoint rpcs_of (ns : string) (l : list rpc) : list rpc :=
  match l with
  | [] => []
  | m :: r => if string_dec (r_ns m) ns then m :: rpcs_of ns r else rpcs_of ns r
  end.

Definition has_member (E : env) (inv : inventory) (ns : string) : Prop :=
  (exists i, In i (i_types inv) /\ d_ns (lookup E i) = ns) \/ (exists m, In m (i_rpcs inv) /\ r_ns m = ns).

(** Whether a type is exported as an interface. *)
Definition interface (E : env) (t : ty) (b : bool) : Prop := exists n, is_interface E n t = Some b.


(** The types that are exported as interfaces: structs that are not newtypes, behind any wrappers and
    from-types of enums. *)
Inductive record_type (E : env) : ty -> Prop :=
| rt_named i fs : d_from (lookup E i) = None -> d_body (lookup E i) = BStruct StNamed false fs -> record_type E (TNamed i)
| rt_tuple i fs : d_from (lookup E i) = None -> d_body (lookup E i) = BStruct StTuple false fs ->
    List.length (kept fs) <> 1 -> record_type E (TNamed i)
| rt_wrap w t : record_type E t -> record_type E (TWrap w t)
| rt_from i tg vs t : d_from (lookup E i) = Some t -> d_body (lookup E i) = BEnum tg vs -> record_type E t ->
    record_type E (TNamed i).

Definition newline : string := String "010" "".
Definition indent : string := "                    ".

(** The text of a type member: the schema as a constant, the type as an interface or an alias, both
    documented. *)
Definition declared (E : env) (o : options) (i : nat) (schema type : string) (b : bool) : string :=
  let d := lookup E i in
  let documented text := utf8 (doc_text (d_docs d)) ^^ text in
  documented ("export const " ^^ (o_pre_schema o ^^ d_name d ^^ o_suf_schema o) ^^ "= " ^^ schema ^^ newline) ^^
  documented (if b then "export interface " ^^ (o_pre_interface o ^^ d_name d ^^ o_suf_interface o) ^^ " " ^^ type
              else "export type " ^^ (o_pre_type o ^^ d_name d ^^ o_suf_type o) ^^ " = " ^^ type ^^ ";") ^^
  newline ^^ newline.

(** The text of an rpc member: a function that validates its arguments and makes the call. *)
Definition signature (r : rpc) (types : list string) (res : string) : string :=
  let params := String.concat "," (map (fun p => fst p ^^ ": " ^^ snd p) (combine (map fst (r_args r)) types)) in
  match r_kind r with
  | Method => "export async function " ^^ r_name r ^^ "(" ^^ params ^^ "): Promise<" ^^ res ^^ "> {"
  | Stream => "export function " ^^ r_name r ^^ "(" ^^ params ^^ "): Store<" ^^ res ^^ "> {"
  end.
Definition mentions (names : list string) : string :=
  match names with
  | [] => ""
  | _ => "// phantom usage" ^^ newline ^^ String.concat (";" ^^ newline) names
  end.
Definition declared_rpc (r : rpc) (types schemas : list string) (res : string) : string :=
  String.concat newline
    ["";
     indent ^^ "// @ts-ignore";
     indent ^^ signature r types res;
     indent ^^ mentions (map fst (r_args r));
     "";
     indent ^^ "z.tuple([" ^^ String.concat "," schemas ^^ "]).parse([...arguments]);";
     indent ^^ "return " ^^ match r_kind r with Method => "request" | Stream => "subscribe" end ^^
       "(""" ^^ r_ns r ^^ """, """ ^^ r_name r ^^ """, arguments);";
     "                };"].

(** The text of a type member and of an rpc member. *)
Definition type_member (E : env) (o : options) (i : nat) (s : string) : Prop :=
  exists schema type b, returns E Schema (TNamed i) schema /\ returns E TypeDef (TNamed i) type /\
    interface E (TNamed i) b /\ s = declared E o i schema type b.
Definition rpc_member (E : env) (m : rpc) (s : string) : Prop :=
  exists types schemas res,
    Forall2 (fun a x => returns E Inline (snd a) x) (r_args m) types /\
    Forall2 (fun a x => returns E InlineSchema (snd a) x) (r_args m) schemas /\
    returns E TypeDef (r_res m) res /\ s = declared_rpc m types schemas res.

(** The code of one namespace: its types, then its methods and streams, nothing else. *)
Definition code_of (E : env) (o : options) (inv : inventory) (ns : string) (s : string) : Prop :=
  exists ts rs, Forall2 (type_member E o) (types_of E ns (i_types inv)) ts /\
    Forall2 (rpc_member E) (rpcs_of ns (i_rpcs inv)) rs /\ s = String.concat "" (ts ++ rs).

Definition namespace_block (ns code : string) : string := "export namespace " ^^ ns ^^ " { " ^^ code ^^ " }".

(** The generated module: the prelude and one block per namespace of the backend that has a
    member, in ascending order. *)
Definition module_of (E : env) (o : options) (inv : inventory) (names : list string) (prelude s : string) : Prop :=
  exists L codes, ascending L /\ (forall ns, In ns L <-> In ns names /\ has_member E inv ns) /\
    Forall2 (code_of E o inv) L codes /\
    s = prelude ^^ String.concat "" (map (fun p => namespace_block (fst p) (snd p)) (combine L codes)).

(** [generate_with_options] returns [s]: some stack is deep enough. *)
Definition generates (E : env) (o : options) (inv : inventory) (names : list string) (prelude s : string) : Prop :=
  exists n, generate_with_options E inv n names prelude o = Some s.

(** Two inventories that look alike to a backend. *)
Definition alike (E : env) (names : list string) (a b : inventory) : Prop :=
  forall ns, In ns names ->
    types_of E ns (i_types a) = types_of E ns (i_types b) /\ rpcs_of ns (i_rpcs a) = rpcs_of ns (i_rpcs b).
