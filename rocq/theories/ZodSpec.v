(** What the theorems about loading schemas and about integer ranges say. *)
From Coq Require Import List String Bool ZArith Relations.
From Verif Require Import RustTy GenSpec.
Import ListNotations.
Local Open Scope string_scope.
Local Open Scope list_scope.

(** ** Names serde itself insists on, plus one oddity
    serde_derive rejects an internally tagged struct variant with a field named like the
    tag, and equal tag and content names (check.rs); not checked by serde: an internally
    tagged newtype variant whose name is the tag (for such enums nothing is claimed).
    Also excluded: the name [__proto__], which is special in object literals. *)
Definition tags_fit (d : decl) : Prop :=
  match d_body d with
  | BStruct _ _ _ => True
  | BEnum (Internal tag) vs =>
      forall v, In v (kept_variants vs) ->
        match v_style v with
        | StNamed => forall f, In f (kept (v_fields v)) -> f_name f <> tag
        | StTuple => kept (v_fields v) <> [] -> v_name v <> tag
        | StUnit => True
        end
  | BEnum (Adjacent tag content) _ => tag <> content
  | BEnum _ _ => True
  end.

(** The property keys of the texts of [d]. *)
Definition tag_names (tg : tagging) : list string :=
  match tg with Internal t => [t] | Adjacent t c => [t; c] | _ => [] end.
Definition decl_keys (d : decl) : list string :=
  match d_body d with
  | BStruct StNamed _ fs => map f_name (kept fs)
  | BStruct _ _ _ => []
  | BEnum tg vs =>
      tag_names tg ++ flat_map (fun v => v_name v :: map f_name (kept (v_fields v))) (kept_variants vs)
  end.

Definition tag_ok (d : decl) : Prop :=
  tags_fit d /\ Forall (fun k => k <> "__proto__") (decl_keys d).

Definition tags_ok (E : env) : Prop := Forall tag_ok E.

(** ** Enums [z.discriminatedUnion] refuses *)

(** The text of this variant does not mention the tag. *)
Definition untagged_text (tg : tagging) (v : variant) : Prop :=
  match tg with
  | Internal _ => v_style v = StTuple /\ kept (v_fields v) <> []
  | _ => False
  end.

Definition refused_enum (d : decl) : Prop :=
  d_from d = None /\
  match d_body d with
  | BEnum ((Internal _ | Adjacent _ _) as tg) vs =>
      2 <= List.length (kept_variants vs) /\
      ((exists v, In v (kept_variants vs) /\ untagged_text tg v) \/
       ~ NoDup (map v_name (kept_variants vs)))
  | _ => False
  end.

(** Definitions whose evaluation throws by itself. *)
Definition throwing (E : env) (x : node) : Prop :=
  x = Full (TPrim PBool) \/ exists i, x = Full (TNamed i) /\ refused_enum (lookup E i).

(** ... and those that contain one (references do not count: they are evaluated later). *)
Definition contains_throwing (E : env) (x : node) : Prop :=
  exists y, clos_refl_trans node (schema_needs E) x y /\ throwing E y.

(** ** Integer ranges *)
Definition int_min (k : ikind) : Z :=
  match k with
  | U8 | U16 | U32 | U64 | U128 | Usize => 0
  | I8 => - 2 ^ 7 | I16 => - 2 ^ 15 | I32 => - 2 ^ 31
  | I64 | Isize => - 2 ^ 63 | I128 => - 2 ^ 127
  end.

Definition int_max (k : ikind) : Z :=
  match k with
  | U8 => 2 ^ 8 - 1 | U16 => 2 ^ 16 - 1 | U32 => 2 ^ 32 - 1
  | U64 | Usize => 2 ^ 64 - 1 | U128 => 2 ^ 128 - 1
  | I8 => 2 ^ 7 - 1 | I16 => 2 ^ 15 - 1 | I32 => 2 ^ 31 - 1
  | I64 | Isize => 2 ^ 63 - 1 | I128 => 2 ^ 127 - 1
  end.

Definition small_int (k : ikind) : bool :=
  match k with U8 | U16 | U32 | I8 | I16 | I32 => true | _ => false end.
Definition wide_int (k : ikind) : bool :=
  match k with U64 | U128 | I64 | I128 => true | _ => false end.
