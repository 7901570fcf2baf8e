(** What the theorems on typed calls say. *)
From Coq Require Import List String Bool NArith ZArith.
From Verif Require Import RustTy Gen GenSpec JsLex JsParse Js TsType JsModule Zod ZodSpec JsonText JsonTextSpec Serde SerdeSpec ParseSpec TsSpec Registry RegistrySpec
  Macro ModuleSpec ScopeSpec Server Wire WireSpec E2E E2EText E2EWire E2EStreamWire ClientFn.
Import ListNotations.
Local Open Scope string_scope.
Local Open Scope list_scope.

(** The function [g] of this name is exported by the namespace [b] of this name. *)
Definition exported (m : list nsblock) (ns name : string) (b : nsblock) (g : func) : Prop :=
  block m ns = Some b /\ In (IFun g) (b_items b) /\ fn_name g = name.

(** The schema of an argument of type [t] accepts [v]. *)
Definition valid (ip : option string -> jstr -> bool) (E : env) (M : menv) (t : ty) (v : jsval) : Prop :=
  exists s z o, returns E InlineSchema t s /\ load s = Val z /\ accepts ip M z v o.

(** The numbers of a document are doubles. *)
Inductive doubles : json -> Prop :=
| db_null : doubles JNull
| db_bool b : doubles (JBool b)
| db_int z : doubles (JInt z)
| db_float n : is_double n -> doubles (JFloat n)
| db_str s : doubles (JStr s)
| db_arr l : Forall doubles l -> doubles (JArr l)
| db_obj l : Forall (fun p => doubles (snd p)) l -> doubles (JObj l).

(** [data] are the results of type [t], as [serde_json::to_value] writes them.  If [mild], there is no [null]. *)
Definition result_of (R : rust) (E : env) (mild : bool) (t : ty) (d : json) : Prop :=
  serializes R E t d /\ doubles d /\ (mild = true -> no_null d = true).

Section TypedSpec.
Context {V F : Type} (S : setting ty V F) (R : rust) (E : env) (o : options) (inv : inventory) (inside : nat -> bool) (stream_item : ty -> ty).
Local Notation B := (s_backend S).

(** The program: its text is [p ++ s], its module [m]. *)
Record program (p s : string) (m : list nsblock) : Prop := {
  pg_regular : regular E o inv (ns_names B) inside;
  pg_text : generates E o inv (ns_names B) p (p ^^ s);
  pg_module : ts_module s m;
  pg_tags : tags_ok E;
  pg_loadable : loadable E inside;
  pg_distinct : WireSpec.distinct B;
  pg_submits : forall n k f i, has_item B n k f i -> In (submitted stream_item f i) (i_rpcs inv)
}.

(** The arguments of [i] are of the fragment of SerdeSpec.v, and their [Deserialize] impls read what serde reads. *)
Definition reads (wide : bool) (i : Macro.item ty) : Prop :=
  sound true wide inside E /\
  forall a, In a (it_args i) -> sound_ty true wide inside (snd a) = true /\
    forall n j, de R E n (snd a) j = true -> exists v, s_dec S (snd a) j = Some v.

(** What the Rust signature of [i] gives: [()] if nothing is written, the items of a stream. *)
Inductive gives (i : Macro.item ty) : ty -> Prop :=
| g_nothing : it_output i = None -> gives i (TPrim PUnit)
| g_method t : it_kind i = Method -> (it_output i = Some (Plain t) \/ it_output i = Some (ImplTrait t)) -> gives i t
| g_items t : it_kind i = Stream -> it_output i = Some (ImplTrait t) -> gives i t
| g_stream t : it_kind i = Stream -> it_output i = Some (Plain t) -> gives i (stream_item t).

(** The result of [i] is of the fragment of TsSpec.v. *)
Definition typed_result (mild : bool) (i : Macro.item ty) : Prop :=
  typed mild inside E /\ forall t, gives i t -> typed_ty mild inside t = true.

(** Item [i], which is item [k] of field [n], returns values of its type. *)
Definition returns_typed (mild : bool) (n k : nat) (i : Macro.item ty) : Prop :=
  forall x vs x' d, h_method (s_methods S) n k x vs = Some (x', inl d) -> forall t, gives i t -> result_of R E mild t d.

(** The stream of a call [id] of item [i] of the client yields values of its type. *)
Definition yields (mild : bool) (a : list F) (w : world jstr jsval jsval (rpc S)) (id : N) (n k : nat) (i : Macro.item ty) : Prop :=
  forall vs tk d, stream_made S a w id n k vs tk -> In (inl d) (tk_items tk) -> forall t, gives i t -> result_of R E mild t d.

(** Arguments that are passed on as they are: no lone surrogates, no key twice; numbers are doubles, and if [wide]
    safe; not too deep. *)
Definition plain_args (wide : bool) (args : list jsval) : Prop :=
  Forall (fun v => sane wide v /\ js_value v /\ jdepth (stringify_elem v) + 3 <= max_depth) args.
End TypedSpec.
