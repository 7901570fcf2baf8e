(** zod 3.20: what evaluating a schema expression builds, and what the schema accepts.

    Specification side: follows zod's src/types.ts (package.json asks for ^3.20.6).  Only the part of the API
    the generators use. *)
From Coq Require Import List String Ascii Bool NArith ZArith.
From Verif Require Import JsLex JsParse Js.
Import ListNotations.
Local Open Scope string_scope.
Local Open Scope list_scope.

Inductive scheck := SLength (n : N) | SIp (version : option string).
Inductive ncheck := CFinite | CInt | CMin (z : Z) | CMax (z : Z).

Inductive zod :=
| ZString (cs : list scheck)
| ZNumber (cs : list ncheck)
| ZNull
| ZLit (s : jstr)
| ZArray (z : zod)
| ZSet (z : zod)
| ZMap (k v : zod)
| ZTuple (zs : list zod)
| ZObject (ps : list (string * zod))
| ZUnion (zs : list zod)
| ZDisc (tag : string) (opts : list (option jstr * zod))  (* None: the value null *)
| ZOptional (z : zod)
| ZLazy (ns name : string)        (* z.lazy(() => ns.name) *)
| ZJunk.                          (* a property of a shape that is not a schema *)

(** Result of evaluating an expression: [Stuck] means the expression is outside the
    modelled part of JavaScript and zod (nothing is claimed about it). *)
Inductive ev A := Val (a : A) | Throw | Stuck.
Arguments Val {A} a.
Arguments Throw {A}.
Arguments Stuck {A}.

Definition ebind {A B} (x : ev A) (f : A -> ev B) : ev B :=
  match x with Val a => f a | Throw => Throw | Stuck => Stuck end.

Definition emap {A B} (f : A -> ev B) : list A -> ev (list B) :=
  fix go l :=
    match l with
    | [] => Val []
    | x :: r => ebind (f x) (fun y => ebind (go r) (fun ys => Val (y :: ys)))
    end.

(** Own properties of an object literal: a repeated key overwrites, 13.2.5.5. *)
Definition key_eqb {A} (k : string) (p : string * A) : bool := String.eqb k (fst p).
Definition oset {A} (l : list (string * A)) (k : string) (a : A) : list (string * A) :=
  if existsb (key_eqb k) l
  then map (fun p => if key_eqb k p then (k, a) else p) l
  else l ++ [(k, a)].
Definition shape {A} (l : list (string * A)) : list (string * A) :=
  fold_left (fun o p => oset o (fst p) (snd p)) l [].
Definition oget {A} (l : list (string * A)) (k : string) : option A :=
  match find (key_eqb k) l with Some p => Some (snd p) | None => None end.

(** getDiscriminator and ZodDiscriminatedUnion.create: every option must be an object
    whose property [tag] is a literal (or null), and no value may repeat. *)
Definition disc_value (tag : string) (z : zod) : ev (option jstr) :=
  match z with
  | ZObject ps =>
      match oget ps tag with
      | Some (ZLit s) => Val (Some s)
      | Some ZNull => Val None
      | Some (ZLazy _ _) => Stuck
      | _ => Throw                     (* "A discriminator value ... could not be extracted" *)
      end
  | ZLazy _ _ => Throw                 (* ZodLazy has no shape: TypeError *)
  | _ => Throw
  end.

Definition val_eqb (a b : option jstr) : bool :=
  match a, b with
  | Some a, Some b => jeqb a b
  | None, None => true
  | _, _ => false
  end.

Fixpoint disc_opts (tag : string) (seen : list (option jstr * zod)) (zs : list zod) :
  ev (list (option jstr * zod)) :=
  match zs with
  | [] => Val seen
  | z :: r =>
      ebind (disc_value tag z) (fun v =>
      if existsb (fun p => val_eqb v (fst p)) seen then Throw   (* "duplicate value" *)
      else disc_opts tag (seen ++ [(v, z)]) r)
  end.

(** Values during evaluation. *)
Inductive jv :=
| VStr (s : string)
| VNum (z : Z)
| VArr (l : list jv)
| VObj (l : list (string * jv))
| VThunk (ns name : string)            (* () => ns.name *)
| VModule                              (* z *)
| VCtor (m : string)                   (* z.m *)
| VSchema (z : zod)
| VMeth (z : zod) (m : string).        (* schema.m *)

Definition schema_of (v : jv) : ev zod := match v with VSchema z => Val z | _ => Stuck end.

Definition schema (x : ev zod) : ev jv := ebind x (fun z => Val (VSchema z)).

(** The functions of the zod module. *)
Definition construct (m : string) (args : list jv) : ev zod :=
  if String.eqb m "bool" then Throw                 (* z.bool is undefined: TypeError *)
  else if String.eqb m "string" then match args with [] => Val (ZString []) | _ => Stuck end
  else if String.eqb m "number" then match args with [] => Val (ZNumber []) | _ => Stuck end
  else if String.eqb m "null" then match args with [] => Val ZNull | _ => Stuck end
  else if String.eqb m "literal" then match args with [VStr s] => Val (ZLit (js s)) | _ => Stuck end
  else if String.eqb m "lazy" then match args with [VThunk ns n] => Val (ZLazy ns n) | _ => Stuck end
  else if String.eqb m "array" then match args with [VSchema z] => Val (ZArray z) | _ => Stuck end
  else if String.eqb m "set" then match args with [VSchema z] => Val (ZSet z) | _ => Stuck end
  else if String.eqb m "map" then
    match args with [VSchema k; VSchema v] => Val (ZMap k v) | _ => Stuck end
  else if String.eqb m "tuple" then
    match args with [VArr l] => ebind (emap schema_of l) (fun zs => Val (ZTuple zs)) | _ => Stuck end
  else if String.eqb m "union" then
    match args with [VArr l] => ebind (emap schema_of l) (fun zs => Val (ZUnion zs)) | _ => Stuck end
  else if String.eqb m "object" then
    match args with
    | [VObj l] =>
        ebind (emap (fun p => ebind (schema_of (snd p)) (fun z => Val (fst p, z))) l)
          (fun ps => Val (ZObject (shape ps)))
    | _ => Stuck
    end
  else if String.eqb m "discriminatedUnion" then
    match args with
    | [VStr tag; VArr l] =>
        ebind (emap schema_of l) (fun zs =>
        ebind (disc_opts tag [] zs) (fun opts => Val (ZDisc tag opts)))
    | _ => Stuck
    end
  else Stuck.

(** Methods of schemas. *)
Definition zmethod (z : zod) (m : string) (args : list jv) : ev zod :=
  if String.eqb m "optional" then
    match args with [] => Val (ZOptional z) | _ => Stuck end
  else
    match z with
    | ZString cs =>
        if String.eqb m "length" then
          match args with
          | [VNum n] => Val (ZString (cs ++ [SLength (Z.to_N n)]))
          | _ => Stuck
          end
        else if String.eqb m "ip" then
          match args with
          | [] => Val (ZString (cs ++ [SIp None]))
          | [VObj [(k, VStr v)]] =>
              if String.eqb k "version" then Val (ZString (cs ++ [SIp (Some v)])) else Stuck
          | _ => Stuck
          end
        else Stuck
    | ZNumber cs =>
        let check c := Val (ZNumber (cs ++ [c])) in
        if String.eqb m "finite" then match args with [] => check CFinite | _ => Stuck end
        else if String.eqb m "int" then match args with [] => check CInt | _ => Stuck end
        else if String.eqb m "nonnegative" then match args with [] => check (CMin 0) | _ => Stuck end
        else if String.eqb m "lte" then match args with [VNum b] => check (CMax b) | _ => Stuck end
        else if String.eqb m "gte" then match args with [VNum b] => check (CMin b) | _ => Stuck end
        else Stuck
    | ZObject ps =>
        (* extend(augmentation): {...shape, ...augmentation}.  A schema instance has own
           enumerable properties ([_def], [parse], ...), none of which is a schema. *)
        if String.eqb m "extend" then
          match args with [VSchema _] => Val (ZObject (oset ps "_def" ZJunk)) | _ => Stuck end
        else Stuck
    | _ => Stuck
    end.

(** Evaluation of an expression with [z] bound to the zod module.  (Not modelled:
    other variables outside the thunk of [z.lazy].) *)
Fixpoint zeval (e : jsexp) : ev jv :=
  match e with
  | EId v => if String.eqb v "z" then Val VModule else Stuck
  | EStr s => Val (VStr s)
  | ENum n => Val (VNum (round53 (Z.of_N n)))
  | ENeg n => Val (VNum (- round53 (Z.of_N n)))
  | EMember o m =>
      ebind (zeval o) (fun v =>
      match v with
      | VModule => Val (VCtor m)
      | VSchema z => Val (VMeth z m)
      | _ => Stuck
      end)
  | ECall f args =>
      ebind (zeval f) (fun v =>
      ebind (emap zeval args) (fun vs =>
      match v with
      | VCtor m => schema (construct m vs)
      | VMeth z m => schema (zmethod z m vs)
      | _ => Stuck
      end))
  | EArr es => ebind (emap zeval es) (fun vs => Val (VArr vs))
  | EObj ps =>
      if existsb (key_eqb "__proto__") ps then Stuck        (* sets the prototype, B.3.1 *)
      else
        ebind (emap (fun p => ebind (zeval (snd p)) (fun v => Val (fst p, v))) ps)
          (fun l => Val (VObj l))
  | EArrow (EMember (EId ns) name) => Val (VThunk ns name)
  | EArrow _ | ESpread _ => Stuck
  end.

Definition eval_schema (e : jsexp) : ev zod := ebind (zeval e) schema_of.

(** Loading the text of one schema. *)
Definition load (s : string) : ev zod :=
  match js_parse s with Some e => eval_schema e | None => Stuck end.

(** ** Parsing values *)

Inductive pres := POk (v : jsval) | PErr | PThrow | PFuel.

(** The exports of the generated module: [ns.name]. *)
Definition menv := string -> string -> option zod.

(** Results of the children of a composite: all are run; an exception wins. *)
Inductive lres := LOk (l : list jsval) | LErr | LThrow | LFuel.
Fixpoint collect (l : list pres) : lres :=
  match l with
  | [] => LOk []
  | POk v :: r => match collect r with LOk vs => LOk (v :: vs) | x => x end
  | PErr :: r => match collect r with LOk _ => LErr | x => x end
  | PThrow :: _ => LThrow
  | PFuel :: _ => LFuel
  end.

Definition lmap (f : list jsval -> jsval) (r : lres) : pres :=
  match r with LOk l => POk (f l) | LErr => PErr | LThrow => PThrow | LFuel => PFuel end.

(** ZodUnion (synchronous): the first valid option. *)
Fixpoint first_ok (l : list pres) : pres :=
  match l with
  | [] => PErr
  | PErr :: r => first_ok r
  | x :: _ => x
  end.

Definition num_ok (n : num) (c : ncheck) : bool :=
  match c with
  | CFinite => match n with NInt _ | NFrac _ _ => true | _ => false end
  | CInt => match n with NInt _ => true | _ => false end
  | CMin b =>
      match n with
      | NInt z => Z.leb b z
      | NFrac m e => Z.leb (b * 2 ^ Z.pos e) m
      | NPosInf => true
      | _ => false
      end
  | CMax b =>
      match n with
      | NInt z => Z.leb z b
      | NFrac m e => Z.leb m (b * 2 ^ Z.pos e)
      | NNegInf => true
      | _ => false
      end
  end.

Definition undefined (v : jsval) : bool := match v with JsUndef => true | _ => false end.

(** Names every object inherits from Object.prototype (20.1.3): functions, except
    [__proto__], which no schema of the model uses (see [zeval]). *)
Definition inherited (k : string) : bool :=
  existsb (String.eqb k)
    ["constructor"; "hasOwnProperty"; "isPrototypeOf"; "propertyIsEnumerable"; "toLocaleString";
     "toString"; "valueOf"; "__defineGetter__"; "__defineSetter__"; "__lookupGetter__";
     "__lookupSetter__"; "__proto__"].

(** [data[k]] and [k in data]. *)
Definition get_prop (k : string) (l : list (jstr * jsval)) : jsval :=
  match prop (js k) l with
  | Some v => v
  | None => if inherited k then JsFun else JsUndef
  end.
Definition has_prop (k : string) (l : list (jstr * jsval)) : bool :=
  match prop (js k) l with Some _ => true | None => inherited k end.

(** mergeObjectSync: a property is set if its value is defined or it was present. *)
Fixpoint merge (l : list (jstr * jsval)) (ps : list (string * zod)) (vs : list jsval) :
  list (jstr * jsval) :=
  match ps, vs with
  | (k, _) :: ps, v :: vs =>
      if negb (undefined v) || has_prop k l then (js k, v) :: merge l ps vs else merge l ps vs
  | _, _ => []
  end.

Section Parse.
(** zod's regular expressions for IP addresses, by version. *)
Context (ip : option string -> jstr -> bool).

Definition str_ok (s : jstr) (c : scheck) : bool :=
  match c with
  | SLength n => N.eqb (N.of_nat (List.length s)) n
  | SIp v => ip v s
  end.

(** The discriminator of a parsed object, as a key of the options map. *)
Definition disc_get (v : jsval) : option (option jstr) :=
  match v with JsStr s => Some (Some s) | JsNull => Some None | _ => None end.

(** [schema.parse(v)]; the fuel bounds the depth of nested calls. *)
Fixpoint zparse (M : menv) (fuel : nat) (z : zod) (v : jsval) : pres :=
  match fuel with
  | O => PFuel
  | S n =>
      match z with
      | ZString cs =>
          match v with
          | JsStr s => if forallb (str_ok s) cs then POk v else PErr
          | _ => PErr
          end
      | ZNumber cs =>
          match v with
          | JsNum NNaN => PErr
          | JsNum x => if forallb (num_ok x) cs then POk v else PErr
          | _ => PErr
          end
      | ZNull => match v with JsNull => POk v | _ => PErr end
      | ZLit s =>
          match v with
          | JsStr s' => if jeqb s s' then POk v else PErr
          | _ => PErr
          end
      | ZArray z =>
          match v with
          | JsArr l => lmap JsArr (collect (map (zparse M n z) l))
          | _ => PErr
          end
      | ZSet z =>
          match v with
          | JsSet l => lmap JsSet (collect (map (zparse M n z) l))
          | _ => PErr
          end
      | ZMap zk zv =>
          match v with
          | JsMap l =>
              match collect (map (fun p => zparse M n zk (fst p)) l),
                    collect (map (fun p => zparse M n zv (snd p)) l) with
              | LOk ks, LOk vs => POk (JsMap (combine ks vs))
              | LThrow, _ | _, LThrow => PThrow
              | LFuel, _ | _, LFuel => PFuel
              | _, _ => PErr
              end
          | _ => PErr
          end
      | ZTuple zs =>
          match v with
          | JsArr l =>
              if Nat.ltb (List.length l) (List.length zs) then PErr
              else
                match collect (map (fun p => zparse M n (fst p) (snd p)) (combine zs l)) with
                | LOk vs =>
                    if Nat.ltb (List.length zs) (List.length l) then PErr else POk (JsArr vs)
                | LErr => PErr
                | LThrow => PThrow
                | LFuel => PFuel
                end
          | _ => PErr
          end
      | ZObject ps =>
          match v with
          | JsObj l =>
              lmap (fun vs => JsObj (merge l ps vs))
                (collect (map (fun p => zparse M n (snd p) (get_prop (fst p) l)) ps))
          | _ => PErr
          end
      | ZUnion zs => first_ok (map (fun z => zparse M n z v) zs)
      | ZDisc tag opts =>
          match v with
          | JsObj l =>
              match disc_get (get_prop tag l) with
              | Some d =>
                  match find (fun o => val_eqb d (fst o)) opts with
                  | Some (_, z) => zparse M n z v
                  | None => PErr
                  end
              | None => PErr
              end
          | _ => PErr
          end
      | ZOptional z => match v with JsUndef => POk JsUndef | _ => zparse M n z v end
      | ZLazy ns name =>
          match M ns name with
          | Some z => zparse M n z v
          | None => PThrow             (* undefined has no _parse *)
          end
      | ZJunk => PThrow                (* _parse is not a function *)
      end
  end.

Definition accepts (M : menv) (z : zod) (v o : jsval) : Prop := exists n, zparse M n z v = POk o.
Definition rejects (M : menv) (z : zod) (v : jsval) : Prop := exists n, zparse M n z v = PErr.
Definition throws (M : menv) (z : zod) (v : jsval) : Prop := exists n, zparse M n z v = PThrow.
End Parse.
