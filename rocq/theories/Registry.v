(** The inventories and the generated module text.

    Rust's [inventory] gives the registered members in link order, which is not specified:
    an inventory is an arbitrary list here.  Namespace and member names are byte strings. *)
From Coq Require Import List String Ascii Bool NArith.
From Verif Require Import RustTy Gen Docs.
Import ListNotations.
Local Open Scope string_scope.
Local Open Scope list_scope.

(** core/src/rpc/codegen/mod.rs:33-46, submitted by derive/src/rpc/impl_rpc.rs:58-127.  [r_res] is the
    return type of a method, the item type of a stream; both closures call [type_def()]. *)
Inductive kind := Method | Stream.
Record rpc := mkRpc {
  r_kind : kind;
  r_ns : string;
  r_name : string;
  r_args : list (string * ty);
  r_res : ty
}.

(** core/src/lib.rs:69-90: a [NamespaceMemberDefinition] is made by
    derive/src/impl_inventory.rs for one derived type, so it is the position of its declaration:
    [ns_name] is [d_ns], [name] is [d_name], and the closures are the type's queries. *)
Record inventory := mkInv { i_types : list nat; i_rpcs : list rpc }.

Section Registry.
Variable E : env.
Variable inv : inventory.

Definition t_ns (i : nat) : string := d_ns (lookup E i).
Definition t_name (i : nat) : string := d_name (lookup E i).

(** [slice::contains] on names. *)
Definition listed (names : list string) (n : string) : bool := existsb (fun x => String.eqb x n) names.

(** ** Queries *)

(** [Namespace::members], core/src/lib.rs:62-67. *)
Definition members (ns : string) : list nat := filter (fun i => String.eqb (t_ns i) ns) (i_types inv).

(** [RpcNamespace::rpc_members], core/src/rpc/codegen/mod.rs:10-14. *)
Definition ns_rpc_members (ns : string) : list rpc := filter (fun r => String.eqb (r_ns r) ns) (i_rpcs inv).

(** [entry(k).or_default()] followed by a change of the value, on the sorted entries of a
    [BTreeMap] ([str]'s order is that of the bytes). *)
Fixpoint entry {V} (dflt : V) (k : string) (f : V -> V) (m : list (string * V)) : list (string * V) :=
  match m with
  | [] => [(k, f dflt)]
  | (k', v) :: r =>
      match String.compare k k' with
      | Lt => (k, f dflt) :: m
      | Eq => (k', f v) :: r
      | Gt => (k', v) :: entry dflt k f r
      end
  end.

(** [HashMap]: the order of the entries is unspecified and never used; only [get] is. *)
Fixpoint get {V} (k : string) (m : list (string * V)) : option V :=
  match m with
  | [] => None
  | (k', v) :: r => if String.eqb k' k then Some v else get k r
  end.

Definition push {A} (x : A) (l : list A) : list A := l ++ [x].

(** [NamespaceMemberDefinition::collect], core/src/lib.rs:107-113. *)
Definition collect : list (string * list nat) :=
  fold_left (fun out i => entry [] (t_ns i) (push i) out) (i_types inv) [].

(** [Backend::zod_namespaces], core/src/rpc/server.rs:68-77. *)
Definition zod_namespaces (names : list string) : list (string * list nat) :=
  fold_left (fun out i => entry [] (t_ns i) (push i) out)
    (filter (fun i => listed names (t_ns i)) (i_types inv)) [].

(** ** Texts *)

(** core/src/rpc/codegen/mod.rs:50-58. *)
Fixpoint sep (s : string) (l : list string) : string :=
  match l with
  | [] => ""
  | [x] => x
  | x :: r => x ^^ s ^^ sep s r
  end.
Definition phantom (names : list string) : string :=
  match names with
  | [] => ""
  | _ => "// phantom usage" ^^ Gen.nl ^^ sep (";" ^^ Gen.nl) names
  end.

Definition pad : string := "                    ".

(** [RpcMember::decl], lines 61-134, given the texts of its parts.  The two branches differ in
    three words. *)
Definition decl_text (r : rpc) (types schemas : list string) (res : string) : string :=
  let names := map fst (r_args r) in
  let fields := sep "," (map (fun p => fst p ^^ ": " ^^ snd p) (combine names types)) in
  let '(intro, box, call) :=
    match r_kind r with
    | Method => ("export async function ", "Promise<", "request")
    | Stream => ("export function ", "Store<", "subscribe")
    end in
  Gen.nl ^^ pad ^^ "// @ts-ignore" ^^ Gen.nl ^^
  pad ^^ intro ^^ r_name r ^^ "(" ^^ fields ^^ "): " ^^ box ^^ res ^^ "> {" ^^ Gen.nl ^^
  pad ^^ phantom names ^^ Gen.nl ^^ Gen.nl ^^
  pad ^^ "z.tuple([" ^^ sep "," schemas ^^ "]).parse([...arguments]);" ^^ Gen.nl ^^
  pad ^^ "return " ^^ call ^^ "(""" ^^ r_ns r ^^ """, """ ^^ r_name r ^^ """, arguments);" ^^ Gen.nl ^^
  "                };".

Fixpoint each {A B} (f : A -> option B) (l : list A) : option (list B) :=
  match l with
  | [] => Some []
  | x :: r => match f x, each f r with Some y, Some ys => Some (y :: ys) | _, _ => None end
  end.

(** [RpcArgument::new], lines 23-31, for all arguments, and the result text. *)
Definition rpc_code (fuel : nat) (r : rpc) : option string :=
  match each (gen E fuel Inline) (map snd (r_args r)), each (gen E fuel InlineSchema) (map snd (r_args r)),
        gen E fuel TypeDef (r_res r) with
  | Some types, Some schemas, Some res => Some (decl_text r types schemas res)
  | _, _, _ => None
  end.

(** [Backend::rpc_members], core/src/rpc/server.rs:57-66. *)
Definition rpc_members (fuel : nat) (names : list string) : option (list (string * list string)) :=
  let ms := filter (fun r => listed names (r_ns r)) (i_rpcs inv) in
  match each (rpc_code fuel) ms with
  | Some ds => Some (fold_left (fun out p => entry [] (r_ns (fst p)) (push (snd p)) out) (combine ms ds) [])
  | None => None
  end.

(** [CodegenOptions], core/src/rpc/server.rs:41-51. *)
Record options := mkOpts {
  o_pre_schema : string; o_suf_schema : string;
  o_pre_type : string; o_suf_type : string;
  o_pre_interface : string; o_suf_interface : string
}.
Definition default_options : options := mkOpts "" "" "" "" "" "".

(** Lines 101-135: the text of one type, given the texts of its parts. *)
Definition type_text (o : options) (i : nat) (schema type : string) (interface : bool) : string :=
  let docs := utf8 (doc_text (d_docs (lookup E i))) in
  let td :=
    if interface
    then docs ^^ "export interface " ^^ o_pre_interface o ^^ t_name i ^^ o_suf_interface o ^^ " " ^^ type
    else docs ^^ "export type " ^^ o_pre_type o ^^ t_name i ^^ o_suf_type o ^^ " = " ^^ type ^^ ";" in
  docs ^^ "export const " ^^ o_pre_schema o ^^ t_name i ^^ o_suf_schema o ^^ "= " ^^ schema ^^ Gen.nl ^^ td ^^ Gen.nl ^^ Gen.nl.

Definition type_code (fuel : nat) (o : options) (i : nat) : option string :=
  match gen E fuel Schema (TNamed i), gen E fuel TypeDef (TNamed i), is_interface E fuel (TNamed i) with
  | Some schema, Some type, Some b => Some (type_text o i schema type b)
  | _, _, _ => None
  end.

Fixpoint cats (l : list string) : string :=
  match l with [] => "" | x :: r => x ^^ cats r end.

(** [Backend::generate_with_options], lines 85-152.  [prelude] is what [T::get()] returns. *)
Definition generate_with_options (fuel : nat) (names : list string) (prelude : string) (o : options) : option string :=
  let ms := filter (fun r => listed names (r_ns r)) (i_rpcs inv) in
  match each (fun p => option_map (fun c => (fst p, cats c)) (each (type_code fuel o) (snd p)))
          (filter (fun p => listed names (fst p)) collect),
        each (rpc_code fuel) ms with
  | Some records, Some ds =>
      let records := fold_left (fun out p => entry "" (r_ns (fst p)) (fun s => s ^^ snd p) out) (combine ms ds) records in
      Some (fold_left (fun code p => code ^^ "export namespace " ^^ fst p ^^ " { " ^^ snd p ^^ " }") records prelude)
  | _, _ => None
  end.

(** [Backend::generate], lines 78-83. *)
Definition generate (fuel : nat) (names : list string) (prelude : string) : option string :=
  generate_with_options fuel names prelude default_options.

End Registry.

(** ** Registration

    [expand_type_registration] (derive/src/lib.rs:178-190) adds, for every derived type, an
    inherent constant named like the type to [__ZodRegister__<Namespace>], the unit struct that
    [derive(Namespace)] declares next to the namespace (derive/src/impl_namespace.rs:13-30).
    rustc rejects two inherent constants of one name on one type (E0592).  [nsty i] is the
    namespace type given in the [zod] attribute of declaration [i]. *)
Definition registers (E : env) (nsty : nat -> nat) : Prop :=
  NoDup (map (fun i => (nsty i, d_ident (lookup E i))) (seq 0 (List.length E))).
