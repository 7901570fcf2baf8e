(** serde / serde_json: which JSON documents deserialize into a Rust type, and which
    documents are serializations of one of its values.

    Specification side; follows serde 1.0 / serde_derive / serde_json for self-describing
    input.  Not modelled: aliases, [deserialize_with]/[with] functions, [skip_serializing_if],
    [other], borrowed data, non-default features ([arbitrary_precision], ...).
    Parameters ([rust]): how IP addresses and map keys are read, and everything that runs
    user code or is left open ([try_from], [flatten]). *)
From Coq Require Import List String Bool NArith ZArith.
From Verif Require Import RustTy GenSpec Js ZodSpec.
Import ListNotations.
Local Open Scope string_scope.
Local Open Scope list_scope.

Record rust := mkRust {
  ip_reads : prim -> jstr -> bool;        (* FromStr of the std::net type *)
  ip_writes : prim -> jstr -> bool;       (* a text its Display produces *)
  key_reads : ty -> jstr -> bool;         (* serde_json's MapKey deserializer *)
  key_writes : ty -> jstr -> bool;
  opaque_reads : nat -> json -> bool;     (* declaration [i]: try_from or flatten *)
  opaque_writes : nat -> json -> bool
}.

(** serde_json's recursion limit: 128 nested arrays and objects are an error. *)
Definition max_depth : nat := 127.

Definition is_null (j : json) : bool := match j with JNull => true | _ => false end.

Definition in_int (k : ikind) (z : Z) : bool := Z.leb (int_min k) z && Z.leb z (int_max k).

(** Fields a serde data model sees, as lists. *)
Definition phantom (t : ty) : bool := match t with TWrap WPhantom _ => true | _ => false end.

(** serde_derive's transparent field when deserializing: the one that is neither skipped,
    nor defaulted, nor PhantomData (check.rs, allow_transparent). *)
Definition transparent_field (fs : list field) : option field :=
  hd_error (filter (fun f => negb (f_skip f) && negb (f_default f) && negb (phantom (f_ty f))) fs).

Definition has_flatten (fs : list field) : bool :=
  existsb (fun f => negb (f_skip f) && f_flatten f) fs.

(** [effective_style]: a one-field tuple variant whose field is skipped is a unit variant. *)
Inductive shape_of := SUnit | SNewtype (f : field) | STuple (fs : list field) | SStruct (fs : list field).
Definition variant_shape (v : variant) : shape_of :=
  match v_style v, v_fields v with
  | StUnit, _ => SUnit
  | StTuple, [f] => if f_skip f then SUnit else SNewtype f
  | StTuple, fs => STuple fs
  | StNamed, fs => SStruct fs
  end.

Definition by_name (vs : list variant) (s : jstr) : option variant :=
  find (fun v => jeqb (js (v_name v)) s) (kept_variants vs).

Definition without (k : jstr) (l : list (jstr * json)) : list (jstr * json) :=
  filter (fun p => negb (jeqb k (fst p))) l.

Definition known (ks : list string) (l : list (jstr * json)) : bool :=
  forallb (fun p => existsb (fun k => jeqb (js k) (fst p)) ks) l.

Section Read.
Context (R : rust) (E : env).

(** ** Deserializing *)

Definition prim_reads (p : prim) (j : json) : bool :=
  match p, j with
  | PString, JStr s => utf16 s
  | PInt k, JInt z => in_int k z
  | (PF32 | PF64), (JInt _ | JFloat _) => true
  | PBool, JBool _ => true
  | PChar, JStr s => utf16 s && Nat.eqb (scalars s) 1
  | PUnit, JNull => true
  | (PIpv4 | PIpv6 | PIpAddr), JStr s => utf16 s && ip_reads R p s
  | _, _ => false
  end.

(** Is a struct field of this type allowed to be missing?  serde's [missing_field]
    deserializes from a deserializer that only knows [deserialize_option]. *)
Fixpoint missing (fuel : nat) (t : ty) : bool :=
  match fuel with
  | O => false
  | S n =>
      match t with
      | TOpt _ => true
      | TWrap WPhantom _ => false
      | TWrap WWeak _ => true
      | TWrap _ t => missing n t
      | TNamed i =>
          let d := lookup E i in
          match d_from d, d_body d with
          | Some t, _ => negb (d_try d) && missing n t
          | None, BStruct _ true fs =>
              match transparent_field fs with Some f => missing n (f_ty f) | None => false end
          | None, _ => false
          end
      | _ => false
      end
  end.

Section Step.
Context (rec : ty -> json -> bool) (miss : ty -> bool).

(** A visitor's [visit_map]: [cd] is the container-level default. *)
Definition read_named (cd deny : bool) (fs : list field) (l : list (jstr * json)) : bool :=
  forallb (fun f =>
    match prop (js (f_name f)) l with
    | Some j => rec (f_ty f) j
    | None => f_default f || cd || miss (f_ty f)
    end) (kept fs)
  && (negb deny || known (map f_name (kept fs)) l).

(** A visitor's [visit_seq]. *)
Fixpoint read_seq (cd : bool) (fs : list field) (l : list json) : bool :=
  match fs with
  | [] => match l with [] => true | _ => false end
  | f :: fs =>
      if f_skip f then read_seq cd fs l
      else
        match l with
        | [] => (f_default f || cd) && read_seq cd fs []
        | j :: l => rec (f_ty f) j && read_seq cd fs l
        end
  end.

Definition read_fields (cd deny : bool) (fs : list field) (j : json) : bool :=
  match j with
  | JObj l => read_named cd deny fs l
  | JArr l => read_seq cd fs l
  | _ => false
  end.

(** Content of a variant. *)
Definition read_content (deny : bool) (v : variant) (j : json) : bool :=
  match variant_shape v with
  | SUnit => is_null j
  | SNewtype f => rec (f_ty f) j
  | STuple fs => match j with JArr l => read_seq false fs l | _ => false end
  | SStruct fs => read_fields false deny fs j
  end.

Definition read_enum (deny : bool) (tg : tagging) (vs : list variant) (j : json) : bool :=
  match tg with
  | External =>
      match j with
      | JStr s =>
          match by_name vs s with
          | Some v => match variant_shape v with SUnit => true | _ => false end
          | None => false
          end
      | JObj [(k, c)] =>
          match by_name vs k with Some v => read_content deny v c | None => false end
      | _ => false
      end
  | Internal tag =>
      match j with
      | JObj l =>
          match prop (js tag) l with
          | Some (JStr s) =>
              match by_name vs s with
              | Some v =>
                  let rest := without (js tag) l in
                  match variant_shape v with
                  | SUnit => true
                  | SNewtype f => rec (f_ty f) (JObj rest)
                  | STuple _ => false                    (* rejected by serde_derive *)
                  | SStruct fs => read_named false deny fs rest
                  end
              | None => false
              end
          | _ => false
          end
      | JArr (JStr s :: l) =>
          match by_name vs s with
          | Some v =>
              match variant_shape v with
              | SUnit => true
              | SNewtype f => rec (f_ty f) (JArr l)
              | STuple _ => false
              | SStruct fs => read_seq false fs l
              end
          | None => false
          end
      | _ => false
      end
  | Adjacent tag content =>
      match j with
      | JObj l =>
          match prop (js tag) l with
          | Some (JStr s) =>
              match by_name vs s with
              | Some v =>
                  match prop (js content) l with
                  | Some c => read_content deny v c
                  | None =>
                      match variant_shape v with
                      | SUnit => true
                      | SNewtype f => miss (f_ty f)
                      | _ => false
                      end
                  end
              | None => false
              end
          | _ => false
          end
          && (negb deny || known [tag; content] l)
      | JArr [JStr s; c] =>
          match by_name vs s with Some v => read_content deny v c | None => false end
      | _ => false
      end
  | Untagged => existsb (fun v => read_content deny v j) (kept_variants vs)
  end.

Definition read_decl (i : nat) (j : json) : bool :=
  let d := lookup E i in
  match d_from d, d_body d with
  | Some t, _ => if d_try d then opaque_reads R i j else rec t j
  | None, BStruct st tr fs =>
      if has_flatten fs then opaque_reads R i j
      else if tr then
        match transparent_field fs with Some f => rec (f_ty f) j | None => false end
      else
        match st, fs with
        | StNamed, _ => read_fields (d_cdefault d) (d_deny d) fs j
        | StTuple, [f] => rec (f_ty f) j
        | StTuple, _ => match j with JArr l => read_seq (d_cdefault d) fs l | _ => false end
        | StUnit, _ => is_null j
        end
  | None, BEnum tg vs => read_enum (d_deny d) tg vs j
  end.
End Step.

(** [de n t j]: with recursion depth [n], [t] deserializes from [j]. *)
Fixpoint de (fuel : nat) (t : ty) (j : json) : bool :=
  match fuel with
  | O => false
  | S n =>
      match t with
      | TPrim p => prim_reads p j
      | TTuple ts =>
          match j with
          | JArr l =>
              Nat.eqb (List.length l) (List.length ts)
              && forallb (fun p => de n (fst p) (snd p)) (combine ts l)
          | _ => false
          end
      | TWrap WPhantom _ => is_null j
      | TWrap WWeak t => is_null j || de n t j
      | TWrap _ t => de n t j
      | TVec t | TSet _ t => match j with JArr l => forallb (de n t) l | _ => false end
      | TArr k t =>
          match j with JArr l => Nat.eqb (List.length l) k && forallb (de n t) l | _ => false end
      | TMap _ kt vt =>
          match j with
          | JObj l => forallb (fun p => utf16 (fst p) && key_reads R kt (fst p) && de n vt (snd p)) l
          | _ => false
          end
      | TOpt t => is_null j || de n t j
      | TRes t e =>
          match j with
          | JObj [(k, c)] =>
              if jeqb k (js "Ok") then de n t c
              else if jeqb k (js "Err") then de n e c else false
          | _ => false
          end
      | TNamed i => read_decl (de n) (missing n) i j
      end
  end.

Definition deserializes (t : ty) (j : json) : Prop :=
  (exists n, de n t j = true) /\ jdepth j <= max_depth.

(** ** Serializing *)

Definition prim_writes (p : prim) (j : json) : bool :=
  match p, j with
  | PString, JStr s => utf16 s
  | PInt k, JInt z => in_int k z
  | (PF32 | PF64), JFloat (NInt _ | NFrac _ _) => true
  | (PF32 | PF64), JNull => true                           (* NaN and infinities *)
  | PBool, JBool _ => true
  | PChar, JStr s => utf16 s && Nat.eqb (scalars s) 1
  | PUnit, JNull => true
  | (PIpv4 | PIpv6 | PIpAddr), JStr s => utf16 s && ip_writes R p s
  | _, _ => false
  end.

Definition skept (fs : list field) : list field := filter (fun f => negb (f_sskip f)) fs.

Section WStep.
Context (rec : ty -> json -> bool).

Fixpoint write_named (fs : list field) (l : list (jstr * json)) : bool :=
  match fs, l with
  | [], [] => true
  | f :: fs, (k, j) :: l => jeqb k (js (f_sname f)) && rec (f_ty f) j && write_named fs l
  | _, _ => false
  end.

Fixpoint write_seq (fs : list field) (l : list json) : bool :=
  match fs, l with
  | [], [] => true
  | f :: fs, j :: l => rec (f_ty f) j && write_seq fs l
  | _, _ => false
  end.

(** effective_style, with [skip_serializing]. *)
Definition variant_wshape (v : variant) : shape_of :=
  match v_style v, v_fields v with
  | StUnit, _ => SUnit
  | StTuple, [f] => if f_sskip f then SUnit else SNewtype f
  | StTuple, fs => STuple (skept fs)
  | StNamed, fs => SStruct (skept fs)
  end.

Definition write_variant (tg : tagging) (v : variant) (j : json) : bool :=
  let name := js (v_sname v) in
  let content (j : json) :=
    match variant_wshape v with
    | SUnit => false
    | SNewtype f => rec (f_ty f) j
    | STuple fs => match j with JArr l => write_seq fs l | _ => false end
    | SStruct fs => match j with JObj l => write_named fs l | _ => false end
    end in
  match tg with
  | External =>
      match variant_wshape v, j with
      | SUnit, JStr s => jeqb s name
      | SUnit, _ => false
      | _, JObj [(k, c)] => jeqb k name && content c
      | _, _ => false
      end
  | Internal tag =>
      match j with
      | JObj ((k, JStr s) :: l) =>
          jeqb k (js tag) && jeqb s name
          && match variant_wshape v with
             | SUnit => match l with [] => true | _ => false end
             | SNewtype f => rec (f_ty f) (JObj l)
             | STuple _ => false
             | SStruct fs => write_named fs l
             end
      | _ => false
      end
  | Adjacent tag ctag =>
      match variant_wshape v, j with
      | SUnit, JObj [(k, JStr s)] => jeqb k (js tag) && jeqb s name
      | SUnit, _ => false
      | _, JObj [(k, JStr s); (k2, c)] =>
          jeqb k (js tag) && jeqb s name && jeqb k2 (js ctag) && content c
      | _, _ => false
      end
  | Untagged => match variant_wshape v with SUnit => is_null j | _ => content j end
  end.

(** A type with a from-type is serialized by other code ([into]), see [opaque_writes]. *)
Definition write_decl (i : nat) (j : json) : bool :=
  let d := lookup E i in
  match d_from d, d_body d with
  | Some _, _ => opaque_writes R i j
  | None, BStruct st tr fs =>
      if existsb (fun f => negb (f_sskip f) && f_flatten f) fs then opaque_writes R i j
      else if tr then
        match filter (fun f => negb (f_sskip f) && negb (phantom (f_ty f))) fs with
        | f :: _ => rec (f_ty f) j
        | [] => false
        end
      else
        match st, fs with
        | StNamed, _ => match j with JObj l => write_named (skept fs) l | _ => false end
        | StTuple, [f] => rec (f_ty f) j
        | StTuple, _ => match j with JArr l => write_seq (skept fs) l | _ => false end
        | StUnit, _ => is_null j
        end
  | None, BEnum tg vs =>
      existsb (fun v => negb (v_sskip v) && write_variant tg v j) vs
  end.
End WStep.

(** [ser n t j]: [j] is the serialization of some value of [t] (nested at most [n] deep). *)
Fixpoint ser (fuel : nat) (t : ty) (j : json) : bool :=
  match fuel with
  | O => false
  | S n =>
      match t with
      | TPrim p => prim_writes p j
      | TTuple ts =>
          match j with
          | JArr l =>
              Nat.eqb (List.length l) (List.length ts)
              && forallb (fun p => ser n (fst p) (snd p)) (combine ts l)
          | _ => false
          end
      | TWrap WPhantom _ => is_null j
      | TWrap WWeak t => is_null j || ser n t j
      | TWrap _ t => ser n t j
      | TVec t | TSet _ t => match j with JArr l => forallb (ser n t) l | _ => false end
      | TArr k t =>
          match j with JArr l => Nat.eqb (List.length l) k && forallb (ser n t) l | _ => false end
      | TMap _ kt vt =>
          match j with
          | JObj l => forallb (fun p => key_writes R kt (fst p) && ser n vt (snd p)) l
          | _ => false
          end
      | TOpt t => is_null j || ser n t j
      | TRes t e =>
          match j with
          | JObj [(k, c)] =>
              if jeqb k (js "Ok") then ser n t c
              else if jeqb k (js "Err") then ser n e c else false
          | _ => false
          end
      | TNamed i => write_decl (ser n) i j
      end
  end.

Definition serializes (t : ty) (j : json) : Prop := exists n, ser n t j = true.
End Read.
