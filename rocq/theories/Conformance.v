(** The tests of the repository (tests/*.rs), with the declarations as they are written there.

    Not theorems about all programs: they test that the models say what the code was tested to say. *)
From Coq Require Import List String Ascii Bool NArith ZArith.
From Verif Require Import Util RustTy Gen Js JsLex Serde Docs Written.
Import ListNotations.
Local Open Scope string_scope.
Local Open Scope list_scope.

(** The text of declaration [i], if every derive of [W] succeeds. *)
Definition text (W : list wdecl) (q : query) (i : nat) : option string :=
  match Written.each seen W with Some E => gen E 10 q (TNamed i) | None => None end.
Fixpoint prefixed (s t : string) : bool :=
  match s, t with
  | EmptyString, _ => true
  | String a s, String b t => Ascii.eqb a b && prefixed s t
  | _, _ => false
  end.
Fixpoint holds_part (t s : string) : bool :=
  prefixed s t || match t with EmptyString => false | String _ t => holds_part t s end.
(** [contains] *)
Definition has (t : option string) (s : string) : bool := match t with Some t => holds_part t s | None => false end.
(** Nothing in here depends on these. *)
Definition nothing : rust :=
  mkRust (fun _ _ => false) (fun _ _ => false) (fun _ _ => false) (fun _ _ => false) (fun _ _ => false) (fun _ _ => false).
(** Every declaration of [W] has its texts. *)
Definition compiles (W : list wdecl) : bool :=
  forallb (fun i => has (text W Schema i) "" && has (text W TypeDef i) "" && has (text W Inline i) "") (seq 0 (List.length W)).
(** [serde_json::to_value] of some value of declaration 0, [serde_json::from_value] *)
Definition writes (W : list wdecl) (j : json) : bool :=
  match Written.each seen W with Some E => ser nothing E 10 (TNamed 0) j | None => false end.
Definition reads (W : list wdecl) (j : json) : bool :=
  match Written.each seen W with Some E => de nothing E 10 (TNamed 0) j | None => false end.

(** ** tests/enum.rs *)
Example t_enum_adj_struct : let W := [mkWDecl "Test" "Ns" (WEnum [mkWVariant "A" StNamed [mkWField "s" (TPrim PString) None None false false false false] None None RNone RNone false false; mkWVariant "B" StNamed [mkWField "num" (TPrim (PInt Usize)) None None false false false false] None None RNone RNone false false]) None None RNone RNone (Some "type") (Some "content") false false None None false false []] in
  compiles W = true /\
  writes W (JObj [(js "type", JStr (js "B")); (js "content", JObj [(js "num", JInt 123)])]) = true /\
  text W Schema 0 = Some "z.discriminatedUnion(""type"", [z.object({ type: z.literal(""A""), content: z.object({ s: z.string() }) }), z.object({ type: z.literal(""B""), content: z.object({ num: z.number().finite().int().nonnegative() }) })])" /\
  text W TypeDef 0 = Some "{ type: ""A"", content: { s: string } } | { type: ""B"", content: { num: number } }" /\
  text W Inline 0 = Some "Ns.Test".
Proof. vm_compute. repeat split. Qed.
Example t_enum_adj_struct_multiple_fields : let W := [mkWDecl "Test" "Ns" (WEnum [mkWVariant "A" StNamed [mkWField "s" (TPrim PString) None None false false false false; mkWField "num" (TPrim (PInt Usize)) None None false false false false] None None RNone RNone false false; mkWVariant "B" StNamed [mkWField "num" (TPrim (PInt Usize)) None None false false false false] None None RNone RNone false false]) None None RNone RNone (Some "type") (Some "content") false false None None false false []] in
  compiles W = true /\
  writes W (JObj [(js "type", JStr (js "A")); (js "content", JObj [(js "s", JStr (js "abc")); (js "num", JInt 123)])]) = true /\
  text W Schema 0 = Some "z.discriminatedUnion(""type"", [z.object({ type: z.literal(""A""), content: z.object({ s: z.string(), num: z.number().finite().int().nonnegative() }) }), z.object({ type: z.literal(""B""), content: z.object({ num: z.number().finite().int().nonnegative() }) })])" /\
  text W TypeDef 0 = Some "{ type: ""A"", content: { s: string, num: number } } | { type: ""B"", content: { num: number } }" /\
  text W Inline 0 = Some "Ns.Test".
Proof. vm_compute. repeat split. Qed.
Example t_enum_adj_struct_multiple_fields_single : let W := [mkWDecl "Test" "Ns" (WEnum [mkWVariant "A" StNamed [mkWField "s" (TPrim PString) None None false false false false; mkWField "num" (TPrim (PInt Usize)) None None false false false false] None None RNone RNone false false]) None None RNone RNone (Some "type") (Some "content") false false None None false false []] in
  compiles W = true /\
  writes W (JObj [(js "type", JStr (js "A")); (js "content", JObj [(js "s", JStr (js "")); (js "num", JInt 123)])]) = true /\
  text W Schema 0 = Some "z.object({ type: z.literal(""A""), content: z.object({ s: z.string(), num: z.number().finite().int().nonnegative() }) })" /\
  text W TypeDef 0 = Some "{ type: ""A"", content: { s: string, num: number } }" /\
  text W Inline 0 = Some "Ns.Test".
Proof. vm_compute. repeat split. Qed.
Example t_enum_adj_tuple : let W := [mkWDecl "Test" "Ns" (WEnum [mkWVariant "A" StTuple [mkWField "" (TPrim PString) None None false false false false] None None RNone RNone false false; mkWVariant "B" StTuple [mkWField "" (TPrim (PInt Usize)) None None false false false false] None None RNone RNone false false]) None None RNone RNone (Some "type") (Some "content") false false None None false false []] in
  compiles W = true /\
  writes W (JObj [(js "type", JStr (js "B")); (js "content", JInt 123)]) = true /\
  text W Schema 0 = Some "z.discriminatedUnion(""type"", [z.object({ type: z.literal(""A""), content: z.string() }), z.object({ type: z.literal(""B""), content: z.number().finite().int().nonnegative() })])" /\
  text W TypeDef 0 = Some "{ type: ""A"", content: string } | { type: ""B"", content: number }" /\
  text W Inline 0 = Some "Ns.Test".
Proof. vm_compute. repeat split. Qed.
Example t_enum_adj_tuple_multiple_fields : let W := [mkWDecl "Test" "Ns" (WEnum [mkWVariant "A" StTuple [mkWField "" (TPrim (PInt Usize)) None None false false false false; mkWField "" (TPrim (PInt Usize)) None None false false false false] None None RNone RNone false false; mkWVariant "B" StTuple [mkWField "" (TPrim PString) None None false false false false] None None RNone RNone false false]) None None RNone RNone (Some "type") (Some "content") false false None None false false []] in
  compiles W = true /\
  writes W (JObj [(js "type", JStr (js "A")); (js "content", JArr [JInt 123; JInt 42])]) = true /\
  text W Schema 0 = Some "z.discriminatedUnion(""type"", [z.object({ type: z.literal(""A""), content: z.tuple([z.number().finite().int().nonnegative(), z.number().finite().int().nonnegative()]) }), z.object({ type: z.literal(""B""), content: z.string() })])" /\
  text W TypeDef 0 = Some "{ type: ""A"", content: [number, number] } | { type: ""B"", content: string }" /\
  text W Inline 0 = Some "Ns.Test".
Proof. vm_compute. repeat split. Qed.
Example t_enum_adj_tuple_multiple_fields_single_variant : let W := [mkWDecl "Test" "Ns" (WEnum [mkWVariant "A" StTuple [mkWField "" (TPrim (PInt Usize)) None None false false false false; mkWField "" (TPrim (PInt Usize)) None None false false false false] None None RNone RNone false false]) None None RNone RNone (Some "type") (Some "content") false false None None false false []] in
  compiles W = true /\
  writes W (JObj [(js "type", JStr (js "A")); (js "content", JArr [JInt 123; JInt 42])]) = true /\
  text W Schema 0 = Some "z.object({ type: z.literal(""A""), content: z.tuple([z.number().finite().int().nonnegative(), z.number().finite().int().nonnegative()]) })" /\
  text W TypeDef 0 = Some "{ type: ""A"", content: [number, number] }" /\
  text W Inline 0 = Some "Ns.Test".
Proof. vm_compute. repeat split. Qed.
Example t_enum_adj_tuple_single_variant : let W := [mkWDecl "Test" "Ns" (WEnum [mkWVariant "A" StTuple [mkWField "" (TPrim (PInt Usize)) None None false false false false] None None RNone RNone false false]) None None RNone RNone (Some "type") (Some "content") false false None None false false []] in
  compiles W = true /\
  writes W (JObj [(js "type", JStr (js "A")); (js "content", JInt 123)]) = true /\
  text W Schema 0 = Some "z.object({ type: z.literal(""A""), content: z.number().finite().int().nonnegative() })" /\
  text W TypeDef 0 = Some "{ type: ""A"", content: number }" /\
  text W Inline 0 = Some "Ns.Test".
Proof. vm_compute. repeat split. Qed.
Example t_enum_adj_unit : let W := [mkWDecl "Test" "Ns" (WEnum [mkWVariant "A" StUnit [] None None RNone RNone false false; mkWVariant "B" StUnit [] None None RNone RNone false false]) None None RNone RNone (Some "type") (Some "content") false false None None false false []] in
  compiles W = true /\
  writes W (JObj [(js "type", JStr (js "B"))]) = true /\
  text W Schema 0 = Some "z.discriminatedUnion(""type"", [z.object({ type: z.literal(""A"") }), z.object({ type: z.literal(""B"") })])" /\
  text W TypeDef 0 = Some "{ type: ""A"" } | { type: ""B"" }" /\
  text W Inline 0 = Some "Ns.Test".
Proof. vm_compute. repeat split. Qed.
Example t_enum_adj_unit_single_variant : let W := [mkWDecl "Test" "Ns" (WEnum [mkWVariant "A" StUnit [] None None RNone RNone false false]) None None RNone RNone (Some "type") (Some "content") false false None None false false []] in
  compiles W = true /\
  writes W (JObj [(js "type", JStr (js "A"))]) = true /\
  text W Schema 0 = Some "z.object({ type: z.literal(""A"") })" /\
  text W TypeDef 0 = Some "{ type: ""A"" }" /\
  text W Inline 0 = Some "Ns.Test".
Proof. vm_compute. repeat split. Qed.
Example t_enum_extern_struct : let W := [mkWDecl "Test" "Ns" (WEnum [mkWVariant "A" StNamed [mkWField "s" (TPrim PString) None None false false false false] None None RNone RNone false false; mkWVariant "B" StNamed [mkWField "num" (TPrim (PInt Usize)) None None false false false false] None None RNone RNone false false]) None None RNone RNone None None false false None None false false []] in
  compiles W = true /\
  writes W (JObj [(js "B", JObj [(js "num", JInt 123)])]) = true /\
  text W Schema 0 = Some "z.union([z.object({ A: z.object({ s: z.string() }) }), z.object({ B: z.object({ num: z.number().finite().int().nonnegative() }) })])" /\
  text W TypeDef 0 = Some "{ A: { s: string } } | { B: { num: number } }" /\
  text W Inline 0 = Some "Ns.Test".
Proof. vm_compute. repeat split. Qed.
Example t_enum_extern_struct_multiple_fields : let W := [mkWDecl "Test" "Ns" (WEnum [mkWVariant "A" StNamed [mkWField "s" (TPrim PString) None None false false false false; mkWField "num" (TPrim (PInt Usize)) None None false false false false] None None RNone RNone false false; mkWVariant "B" StNamed [mkWField "num" (TPrim (PInt Usize)) None None false false false false] None None RNone RNone false false]) None None RNone RNone None None false false None None false false []] in
  compiles W = true /\
  writes W (JObj [(js "B", JObj [(js "num", JInt 123)])]) = true /\
  text W Schema 0 = Some "z.union([z.object({ A: z.object({ s: z.string(), num: z.number().finite().int().nonnegative() }) }), z.object({ B: z.object({ num: z.number().finite().int().nonnegative() }) })])" /\
  text W TypeDef 0 = Some "{ A: { s: string, num: number } } | { B: { num: number } }" /\
  text W Inline 0 = Some "Ns.Test".
Proof. vm_compute. repeat split. Qed.
Example t_enum_extern_struct_multiple_fields_single_variant : let W := [mkWDecl "Test" "Ns" (WEnum [mkWVariant "A" StNamed [mkWField "s" (TPrim PString) None None false false false false; mkWField "num" (TPrim (PInt Usize)) None None false false false false] None None RNone RNone false false]) None None RNone RNone None None false false None None false false []] in
  compiles W = true /\
  writes W (JObj [(js "A", JObj [(js "s", JStr (js "")); (js "num", JInt 123)])]) = true /\
  text W Schema 0 = Some "z.object({ A: z.object({ s: z.string(), num: z.number().finite().int().nonnegative() }) })" /\
  text W TypeDef 0 = Some "{ A: { s: string, num: number } }" /\
  text W Inline 0 = Some "Ns.Test".
Proof. vm_compute. repeat split. Qed.
Example t_enum_extern_tuple : let W := [mkWDecl "Test" "Ns" (WEnum [mkWVariant "A" StTuple [mkWField "" (TPrim PString) None None false false false false] None None RNone RNone false false; mkWVariant "B" StTuple [mkWField "" (TPrim (PInt Usize)) None None false false false false] None None RNone RNone false false]) None None RNone RNone None None false false None None false false []] in
  compiles W = true /\
  writes W (JObj [(js "B", JInt 123)]) = true /\
  text W Schema 0 = Some "z.union([z.object({ A: z.string() }), z.object({ B: z.number().finite().int().nonnegative() })])" /\
  text W TypeDef 0 = Some "{ A: string } | { B: number }" /\
  text W Inline 0 = Some "Ns.Test".
Proof. vm_compute. repeat split. Qed.
Example t_enum_extern_tuple_multiple_fields : let W := [mkWDecl "Test" "Ns" (WEnum [mkWVariant "A" StTuple [mkWField "" (TPrim (PInt Usize)) None None false false false false; mkWField "" (TPrim (PInt Usize)) None None false false false false] None None RNone RNone false false; mkWVariant "B" StTuple [mkWField "" (TPrim PString) None None false false false false] None None RNone RNone false false]) None None RNone RNone None None false false None None false false []] in
  compiles W = true /\
  writes W (JObj [(js "A", JArr [JInt 123; JInt 42])]) = true /\
  text W Schema 0 = Some "z.union([z.object({ A: z.tuple([z.number().finite().int().nonnegative(), z.number().finite().int().nonnegative()]) }), z.object({ B: z.string() })])" /\
  text W TypeDef 0 = Some "{ A: [number, number] } | { B: string }" /\
  text W Inline 0 = Some "Ns.Test".
Proof. vm_compute. repeat split. Qed.
Example t_enum_extern_tuple_multiple_fields_single_variant : let W := [mkWDecl "Test" "Ns" (WEnum [mkWVariant "A" StTuple [mkWField "" (TPrim (PInt Usize)) None None false false false false; mkWField "" (TPrim (PInt Usize)) None None false false false false] None None RNone RNone false false]) None None RNone RNone None None false false None None false false []] in
  compiles W = true /\
  writes W (JObj [(js "A", JArr [JInt 123; JInt 42])]) = true /\
  text W Schema 0 = Some "z.object({ A: z.tuple([z.number().finite().int().nonnegative(), z.number().finite().int().nonnegative()]) })" /\
  text W TypeDef 0 = Some "{ A: [number, number] }" /\
  text W Inline 0 = Some "Ns.Test".
Proof. vm_compute. repeat split. Qed.
Example t_enum_extern_tuple_single_single_field_single_variant : let W := [mkWDecl "Test" "Ns" (WEnum [mkWVariant "A" StTuple [mkWField "" (TPrim (PInt Usize)) None None false false false false] None None RNone RNone false false]) None None RNone RNone None None false false None None false false []] in
  compiles W = true /\
  writes W (JObj [(js "A", JInt 123)]) = true /\
  text W Schema 0 = Some "z.object({ A: z.number().finite().int().nonnegative() })" /\
  text W TypeDef 0 = Some "{ A: number }" /\
  text W Inline 0 = Some "Ns.Test".
Proof. vm_compute. repeat split. Qed.
Example t_enum_extern_unit : let W := [mkWDecl "Test" "Ns" (WEnum [mkWVariant "A" StUnit [] None None RNone RNone false false; mkWVariant "B" StUnit [] None None RNone RNone false false]) None None RNone RNone None None false false None None false false []] in
  compiles W = true /\
  writes W (JStr (js "B")) = true /\
  text W Schema 0 = Some "z.union([z.literal(""A""), z.literal(""B"")])" /\
  text W TypeDef 0 = Some """A"" | ""B""" /\
  text W Inline 0 = Some "Ns.Test".
Proof. vm_compute. repeat split. Qed.
Example t_enum_extern_unit_single_variant : let W := [mkWDecl "Test" "Ns" (WEnum [mkWVariant "A" StUnit [] None None RNone RNone false false]) None None RNone RNone None None false false None None false false []] in
  compiles W = true /\
  writes W (JStr (js "A")) = true /\
  text W Schema 0 = Some "z.literal(""A"")" /\
  text W TypeDef 0 = Some """A""" /\
  text W Inline 0 = Some "Ns.Test".
Proof. vm_compute. repeat split. Qed.
Example t_enum_intern_struct : let W := [mkWDecl "Test" "Ns" (WEnum [mkWVariant "A" StNamed [mkWField "s" (TPrim PString) None None false false false false] None None RNone RNone false false; mkWVariant "B" StNamed [mkWField "num" (TPrim (PInt Usize)) None None false false false false] None None RNone RNone false false]) None None RNone RNone (Some "type") None false false None None false false []] in
  compiles W = true /\
  writes W (JObj [(js "type", JStr (js "B")); (js "num", JInt 123)]) = true /\
  text W Schema 0 = Some "z.discriminatedUnion(""type"", [z.object({ type: z.literal(""A""), s: z.string() }), z.object({ type: z.literal(""B""), num: z.number().finite().int().nonnegative() })])" /\
  text W TypeDef 0 = Some "{ type: ""A"", s: string } | { type: ""B"", num: number }" /\
  text W Inline 0 = Some "Ns.Test".
Proof. vm_compute. repeat split. Qed.
Example t_enum_intern_struct_multiple_fields : let W := [mkWDecl "Test" "Ns" (WEnum [mkWVariant "A" StNamed [mkWField "s" (TPrim PString) None None false false false false; mkWField "num" (TPrim (PInt Usize)) None None false false false false] None None RNone RNone false false; mkWVariant "B" StNamed [mkWField "num" (TPrim (PInt Usize)) None None false false false false] None None RNone RNone false false]) None None RNone RNone (Some "type") None false false None None false false []] in
  compiles W = true /\
  writes W (JObj [(js "type", JStr (js "B")); (js "num", JInt 123)]) = true /\
  text W Schema 0 = Some "z.discriminatedUnion(""type"", [z.object({ type: z.literal(""A""), s: z.string(), num: z.number().finite().int().nonnegative() }), z.object({ type: z.literal(""B""), num: z.number().finite().int().nonnegative() })])" /\
  text W TypeDef 0 = Some "{ type: ""A"", s: string, num: number } | { type: ""B"", num: number }" /\
  text W Inline 0 = Some "Ns.Test".
Proof. vm_compute. repeat split. Qed.
Example t_enum_intern_struct_multiple_fields_single_variant : let W := [mkWDecl "Test" "Ns" (WEnum [mkWVariant "A" StNamed [mkWField "s" (TPrim PString) None None false false false false; mkWField "num" (TPrim (PInt Usize)) None None false false false false] None None RNone RNone false false]) None None RNone RNone (Some "type") None false false None None false false []] in
  compiles W = true /\
  writes W (JObj [(js "type", JStr (js "A")); (js "s", JStr (js "")); (js "num", JInt 123)]) = true /\
  text W Schema 0 = Some "z.object({ type: z.literal(""A""), s: z.string(), num: z.number().finite().int().nonnegative() })" /\
  text W TypeDef 0 = Some "{ type: ""A"", s: string, num: number }" /\
  text W Inline 0 = Some "Ns.Test".
Proof. vm_compute. repeat split. Qed.
Example t_enum_intern_unit : let W := [mkWDecl "Test" "Ns" (WEnum [mkWVariant "A" StUnit [] None None RNone RNone false false; mkWVariant "B" StUnit [] None None RNone RNone false false]) None None RNone RNone (Some "type") None false false None None false false []] in
  compiles W = true /\
  writes W (JObj [(js "type", JStr (js "B"))]) = true /\
  text W Schema 0 = Some "z.discriminatedUnion(""type"", [z.object({ type: z.literal(""A"") }), z.object({ type: z.literal(""B"") })])" /\
  text W TypeDef 0 = Some "{ type: ""A"" } | { type: ""B"" }" /\
  text W Inline 0 = Some "Ns.Test".
Proof. vm_compute. repeat split. Qed.
Example t_enum_intern_unit_single_variant : let W := [mkWDecl "Test" "Ns" (WEnum [mkWVariant "A" StUnit [] None None RNone RNone false false]) None None RNone RNone (Some "type") None false false None None false false []] in
  compiles W = true /\
  writes W (JObj [(js "type", JStr (js "A"))]) = true /\
  text W Schema 0 = Some "z.object({ type: z.literal(""A"") })" /\
  text W TypeDef 0 = Some "{ type: ""A"" }" /\
  text W Inline 0 = Some "Ns.Test".
Proof. vm_compute. repeat split. Qed.
Example t_enum_untagged_struct : let W := [mkWDecl "Test" "Ns" (WEnum [mkWVariant "A" StNamed [mkWField "s" (TPrim PString) None None false false false false] None None RNone RNone false false; mkWVariant "B" StNamed [mkWField "num" (TPrim (PInt Usize)) None None false false false false] None None RNone RNone false false]) None None RNone RNone None None true false None None false false []] in
  compiles W = true /\
  writes W (JObj [(js "num", JInt 123)]) = true /\
  text W Schema 0 = Some "z.union([z.object({ s: z.string() }), z.object({ num: z.number().finite().int().nonnegative() })])" /\
  text W TypeDef 0 = Some "{ s: string } | { num: number }" /\
  text W Inline 0 = Some "Ns.Test".
Proof. vm_compute. repeat split. Qed.
Example t_enum_untagged_struct_multiple_fields : let W := [mkWDecl "Test" "Ns" (WEnum [mkWVariant "A" StNamed [mkWField "s" (TPrim PString) None None false false false false; mkWField "num" (TPrim (PInt Usize)) None None false false false false] None None RNone RNone false false; mkWVariant "B" StNamed [mkWField "num" (TPrim (PInt Usize)) None None false false false false] None None RNone RNone false false]) None None RNone RNone None None true false None None false false []] in
  compiles W = true /\
  writes W (JObj [(js "num", JInt 123)]) = true /\
  text W Schema 0 = Some "z.union([z.object({ s: z.string(), num: z.number().finite().int().nonnegative() }), z.object({ num: z.number().finite().int().nonnegative() })])" /\
  text W TypeDef 0 = Some "{ s: string, num: number } | { num: number }" /\
  text W Inline 0 = Some "Ns.Test".
Proof. vm_compute. repeat split. Qed.
Example t_enum_untagged_struct_multiple_fields_single_variant : let W := [mkWDecl "Test" "Ns" (WEnum [mkWVariant "A" StNamed [mkWField "s" (TPrim PString) None None false false false false; mkWField "num" (TPrim (PInt Usize)) None None false false false false] None None RNone RNone false false]) None None RNone RNone None None true false None None false false []] in
  compiles W = true /\
  writes W (JObj [(js "s", JStr (js "")); (js "num", JInt 123)]) = true /\
  text W Schema 0 = Some "z.object({ s: z.string(), num: z.number().finite().int().nonnegative() })" /\
  text W TypeDef 0 = Some "{ s: string, num: number }" /\
  text W Inline 0 = Some "Ns.Test".
Proof. vm_compute. repeat split. Qed.
Example t_enum_untagged_tuple : let W := [mkWDecl "Test" "Ns" (WEnum [mkWVariant "A" StTuple [mkWField "" (TPrim PString) None None false false false false] None None RNone RNone false false; mkWVariant "B" StTuple [mkWField "" (TPrim (PInt Usize)) None None false false false false] None None RNone RNone false false]) None None RNone RNone None None true false None None false false []] in
  compiles W = true /\
  writes W (JInt 123) = true /\
  text W Schema 0 = Some "z.union([z.string(), z.number().finite().int().nonnegative()])" /\
  text W TypeDef 0 = Some "string | number" /\
  text W Inline 0 = Some "Ns.Test".
Proof. vm_compute. repeat split. Qed.
Example t_enum_untagged_tuple_multiple_fields : let W := [mkWDecl "Test" "Ns" (WEnum [mkWVariant "A" StTuple [mkWField "" (TPrim (PInt Usize)) None None false false false false; mkWField "" (TPrim (PInt Usize)) None None false false false false] None None RNone RNone false false; mkWVariant "B" StTuple [mkWField "" (TPrim PString) None None false false false false] None None RNone RNone false false]) None None RNone RNone None None true false None None false false []] in
  compiles W = true /\
  writes W (JArr [JInt 123; JInt 42]) = true /\
  text W Schema 0 = Some "z.union([z.tuple([z.number().finite().int().nonnegative(), z.number().finite().int().nonnegative()]), z.string()])" /\
  text W TypeDef 0 = Some "[number, number] | string" /\
  text W Inline 0 = Some "Ns.Test".
Proof. vm_compute. repeat split. Qed.
Example t_enum_untagged_tuple_multiple_fields_single_variant : let W := [mkWDecl "Test" "Ns" (WEnum [mkWVariant "A" StTuple [mkWField "" (TPrim (PInt Usize)) None None false false false false; mkWField "" (TPrim (PInt Usize)) None None false false false false] None None RNone RNone false false]) None None RNone RNone None None true false None None false false []] in
  compiles W = true /\
  writes W (JArr [JInt 123; JInt 42]) = true /\
  text W Schema 0 = Some "z.tuple([z.number().finite().int().nonnegative(), z.number().finite().int().nonnegative()])" /\
  text W TypeDef 0 = Some "[number, number]" /\
  text W Inline 0 = Some "Ns.Test".
Proof. vm_compute. repeat split. Qed.
Example t_enum_untagged_tuple_single_field_single_variant : let W := [mkWDecl "Test" "Ns" (WEnum [mkWVariant "A" StTuple [mkWField "" (TPrim (PInt Usize)) None None false false false false] None None RNone RNone false false]) None None RNone RNone None None true false None None false false []] in
  compiles W = true /\
  writes W (JInt 123) = true /\
  text W Schema 0 = Some "z.number().finite().int().nonnegative()" /\
  text W TypeDef 0 = Some "number" /\
  text W Inline 0 = Some "Ns.Test".
Proof. vm_compute. repeat split. Qed.
Example t_enum_untagged_unit : let W := [mkWDecl "Test" "Ns" (WEnum [mkWVariant "A" StUnit [] None None RNone RNone false false; mkWVariant "B" StUnit [] None None RNone RNone false false]) None None RNone RNone None None true false None None false false []] in
  compiles W = true /\
  writes W (JNull) = true /\
  text W Schema 0 = Some "z.union([z.null(), z.null()])" /\
  text W TypeDef 0 = Some "null | null" /\
  text W Inline 0 = Some "Ns.Test".
Proof. vm_compute. repeat split. Qed.
Example t_enum_untagged_unit_single_variant : let W := [mkWDecl "Test" "Ns" (WEnum [mkWVariant "A" StUnit [] None None RNone RNone false false]) None None RNone RNone None None true false None None false false []] in
  compiles W = true /\
  writes W (JNull) = true /\
  text W Schema 0 = Some "z.null()" /\
  text W TypeDef 0 = Some "null" /\
  text W Inline 0 = Some "Ns.Test".
Proof. vm_compute. repeat split. Qed.
(** ** tests/enum_default.rs *)
Example t_enum_default_tuple_variant : let W := [mkWDecl "Test" "Ns" (WEnum [mkWVariant "A" StTuple [mkWField "" (TPrim PString) None None true false false false] None None RNone RNone false false; mkWVariant "B" StTuple [mkWField "" (TPrim (PInt Usize)) None None false false false false] None None RNone RNone false false]) None None RNone RNone None None false false None None false false []] in
  compiles W = true /\
  has (text W Schema 0) "z.string().optional()" = true /\
  text W TypeDef 0 = Some "{ A: string | undefined } | { B: number }".
Proof. vm_compute. repeat split. Qed.
Example t_enum_default_struct_variant : let W := [mkWDecl "Test" "Ns" (WEnum [mkWVariant "A" StNamed [mkWField "s" (TPrim PString) None None true false false false] None None RNone RNone false false; mkWVariant "B" StTuple [mkWField "" (TPrim (PInt Usize)) None None false false false false] None None RNone RNone false false]) None None RNone RNone None None false false None None false false []] in
  compiles W = true /\
  has (text W Schema 0) "z.string().optional()" = true /\
  text W TypeDef 0 = Some "{ A: { s?: string | undefined } } | { B: number }".
Proof. vm_compute. repeat split. Qed.
Example t_enum_default_tuple_field : let W := [mkWDecl "Test" "Ns" (WEnum [mkWVariant "A" StTuple [mkWField "" (TPrim PString) None None true false false false; mkWField "" (TPrim (PInt Usize)) None None false false false false] None None RNone RNone false false; mkWVariant "B" StTuple [mkWField "" (TPrim (PInt Usize)) None None false false false false] None None RNone RNone false false]) None None RNone RNone None None false false None None false false []] in
  compiles W = true /\
  has (text W Schema 0) "z.string().optional()" = true.
Proof. vm_compute. repeat split. Qed.
(** ** tests/enum_rename.rs *)
Example t_serde_name_struct : let W := [mkWDecl "Test" "Ns" (WEnum [mkWVariant "HelloWorld" StNamed [mkWField "s" (TPrim PString) None None false false false false] None None RNone RNone false false; mkWVariant "AnotherValue" StNamed [mkWField "num" (TPrim (PInt Usize)) None None false false false false] None None RNone RNone false false]) (Some "Hello") (Some "Hello") RNone RNone None None false false None None false false []] in
  compiles W = true /\
  text W Inline 0 = Some "Ns.Hello".
Proof. vm_compute. repeat split. Qed.
Example t_serde_name_tuple : let W := [mkWDecl "Test" "Ns" (WEnum [mkWVariant "HelloWorld" StTuple [mkWField "" (TPrim PString) None None false false false false; mkWField "" (TPrim (PInt Usize)) None None false false false false] None None RNone RNone false false; mkWVariant "AnotherValue" StTuple [mkWField "" (TPrim (PInt Usize)) None None false false false false; mkWField "" (TPrim (PInt Usize)) None None false false false false] None None RNone RNone false false]) (Some "Hello") (Some "Hello") RNone RNone None None false false None None false false []] in
  compiles W = true /\
  text W Inline 0 = Some "Ns.Hello".
Proof. vm_compute. repeat split. Qed.
Example t_serde_name_unit : let W := [mkWDecl "Test" "Ns" (WEnum [mkWVariant "HelloWorld" StUnit [] None None RNone RNone false false; mkWVariant "AnotherValue" StUnit [] None None RNone RNone false false]) (Some "Hello") (Some "Hello") RNone RNone None None false false None None false false []] in
  compiles W = true /\
  text W Inline 0 = Some "Ns.Hello".
Proof. vm_compute. repeat split. Qed.
(** ** tests/enum_rename_all.rs *)
Example t_rename_all_struct : let W := [mkWDecl "Test" "Ns" (WEnum [mkWVariant "HelloWorld" StNamed [mkWField "s" (TPrim PString) None None false false false false] None None RNone RNone false false; mkWVariant "AnotherValue" StNamed [mkWField "num" (TPrim (PInt Usize)) None None false false false false] None None RNone RNone false false]) None None RSnake RSnake None None false false None None false false []] in
  compiles W = true /\
  writes W (JObj [(js "another_value", JObj [(js "num", JInt 123)])]) = true /\
  has (text W Schema 0) "hello_world" = true /\
  has (text W Schema 0) "another_value" = true /\
  has (text W TypeDef 0) "hello_world" = true /\
  has (text W TypeDef 0) "another_value" = true /\
  text W Inline 0 = Some "Ns.Test".
Proof. vm_compute. repeat split. Qed.
Example t_rename_all_tuple : let W := [mkWDecl "Test" "Ns" (WEnum [mkWVariant "HelloWorld" StTuple [mkWField "" (TPrim PString) None None false false false false; mkWField "" (TPrim (PInt Usize)) None None false false false false] None None RNone RNone false false; mkWVariant "AnotherValue" StTuple [mkWField "" (TPrim (PInt Usize)) None None false false false false; mkWField "" (TPrim (PInt Usize)) None None false false false false] None None RNone RNone false false]) None None RSnake RSnake None None false false None None false false []] in
  compiles W = true /\
  writes W (JObj [(js "another_value", JArr [JInt 123; JInt 42])]) = true /\
  has (text W Schema 0) "hello_world" = true /\
  has (text W Schema 0) "another_value" = true /\
  has (text W TypeDef 0) "hello_world" = true /\
  has (text W TypeDef 0) "another_value" = true /\
  text W Inline 0 = Some "Ns.Test".
Proof. vm_compute. repeat split. Qed.
Example t_rename_all_unit : let W := [mkWDecl "Test" "Ns" (WEnum [mkWVariant "HelloWorld" StUnit [] None None RNone RNone false false; mkWVariant "AnotherValue" StUnit [] None None RNone RNone false false]) None None RSnake RSnake None None false false None None false false []] in
  compiles W = true /\
  writes W (JStr (js "another_value")) = true /\
  has (text W Schema 0) "hello_world" = true /\
  has (text W Schema 0) "another_value" = true /\
  has (text W TypeDef 0) "hello_world" = true /\
  has (text W TypeDef 0) "another_value" = true /\
  text W Inline 0 = Some "Ns.Test".
Proof. vm_compute. repeat split. Qed.
(** ** tests/enum_rename_fields.rs *)
Example t_rename_variant_struct : let W := [mkWDecl "Test" "Ns" (WEnum [mkWVariant "HelloWorld" StNamed [mkWField "s" (TPrim PString) None None false false false false] None None RNone RNone false false; mkWVariant "AnotherValue" StNamed [mkWField "num" (TPrim (PInt Usize)) None None false false false false] (Some "after") (Some "after") RNone RNone false false]) None None RNone RNone None None false false None None false false []] in
  compiles W = true /\
  writes W (JObj [(js "after", JObj [(js "num", JInt 123)])]) = true /\
  has (text W Schema 0) "HelloWorld" = true /\
  has (text W TypeDef 0) "HelloWorld" = true /\
  has (text W Schema 0) "after" = true /\
  has (text W TypeDef 0) "after" = true /\
  has (text W Schema 0) "AnotherValue" = false /\
  has (text W TypeDef 0) "AnotherValue" = false /\
  text W Inline 0 = Some "Ns.Test".
Proof. vm_compute. repeat split. Qed.
Example t_rename_variant_field : let W := [mkWDecl "Test" "Ns" (WEnum [mkWVariant "HelloWorld" StNamed [mkWField "s" (TPrim PString) None None false false false false] None None RNone RNone false false; mkWVariant "AnotherValue" StNamed [mkWField "before" (TPrim (PInt Usize)) (Some "after") (Some "after") false false false false] None None RNone RNone false false]) None None RNone RNone None None false false None None false false []] in
  compiles W = true /\
  writes W (JObj [(js "AnotherValue", JObj [(js "after", JInt 123)])]) = true /\
  has (text W Schema 0) "HelloWorld" = true /\
  has (text W TypeDef 0) "HelloWorld" = true /\
  has (text W Schema 0) "AnotherValue" = true /\
  has (text W TypeDef 0) "AnotherValue" = true /\
  has (text W Schema 0) "after" = true /\
  has (text W TypeDef 0) "after" = true /\
  has (text W Schema 0) "before" = false /\
  has (text W TypeDef 0) "before" = false /\
  text W Inline 0 = Some "Ns.Test".
Proof. vm_compute. repeat split. Qed.
Example t_rename_variant_tuple : let W := [mkWDecl "Test" "Ns" (WEnum [mkWVariant "HelloWorld" StTuple [mkWField "" (TPrim PString) None None false false false false; mkWField "" (TPrim (PInt Usize)) None None false false false false] None None RNone RNone false false; mkWVariant "AnotherValue" StTuple [mkWField "" (TPrim (PInt Usize)) None None false false false false; mkWField "" (TPrim (PInt Usize)) None None false false false false] (Some "after") (Some "after") RNone RNone false false]) None None RNone RNone None None false false None None false false []] in
  compiles W = true /\
  writes W (JObj [(js "after", JArr [JInt 123; JInt 42])]) = true /\
  has (text W Schema 0) "HelloWorld" = true /\
  has (text W TypeDef 0) "HelloWorld" = true /\
  has (text W Schema 0) "after" = true /\
  has (text W TypeDef 0) "after" = true /\
  has (text W Schema 0) "before" = false /\
  has (text W TypeDef 0) "before" = false /\
  text W Inline 0 = Some "Ns.Test".
Proof. vm_compute. repeat split. Qed.
Example t_rename_variant_unit : let W := [mkWDecl "Test" "Ns" (WEnum [mkWVariant "HelloWorld" StUnit [] None None RNone RNone false false; mkWVariant "AnotherValue" StUnit [] (Some "after") (Some "after") RNone RNone false false]) None None RNone RNone None None false false None None false false []] in
  compiles W = true /\
  writes W (JStr (js "after")) = true /\
  has (text W Schema 0) "HelloWorld" = true /\
  has (text W TypeDef 0) "HelloWorld" = true /\
  has (text W Schema 0) "after" = true /\
  has (text W TypeDef 0) "after" = true /\
  has (text W Schema 0) "before" = false /\
  has (text W TypeDef 0) "before" = false /\
  text W Inline 0 = Some "Ns.Test".
Proof. vm_compute. repeat split. Qed.
(** ** tests/enum_skip.rs *)
Example t_skip_tuple_variant : let W := [mkWDecl "Test" "Ns" (WEnum [mkWVariant "ToBeSkipped" StTuple [mkWField "" (TPrim PString) None None false false false false] None None RNone RNone true true; mkWVariant "Number" StTuple [mkWField "" (TPrim (PInt Usize)) None None false false false false] None None RNone RNone false false]) None None RNone RNone None None false false None None false false []] in
  compiles W = true /\
  has (text W Schema 0) "ToBeSkipped" = false.
Proof. vm_compute. repeat split. Qed.
Example t_skip_unit_variant : let W := [mkWDecl "Test" "Ns" (WEnum [mkWVariant "ToBeSkipped" StUnit [] None None RNone RNone true true; mkWVariant "Number" StTuple [mkWField "" (TPrim (PInt Usize)) None None false false false false] None None RNone RNone false false]) None None RNone RNone None None false false None None false false []] in
  compiles W = true /\
  has (text W Schema 0) "ToBeSkipped" = false.
Proof. vm_compute. repeat split. Qed.
Example t_skip_struct_variant : let W := [mkWDecl "Test" "Ns" (WEnum [mkWVariant "ToBeSkipped" StNamed [mkWField "s" (TPrim PString) None None false false false false] None None RNone RNone true true; mkWVariant "Number" StTuple [mkWField "" (TPrim (PInt Usize)) None None false false false false] None None RNone RNone false false]) None None RNone RNone None None false false None None false false []] in
  compiles W = true /\
  has (text W Schema 0) "ToBeSkipped" = false.
Proof. vm_compute. repeat split. Qed.
Example t_skip_tuple_field : let W := [mkWDecl "Test" "Ns" (WEnum [mkWVariant "A" StTuple [mkWField "" (TPrim PString) None None false true true false; mkWField "" (TPrim (PInt Usize)) None None false false false false] None None RNone RNone false false; mkWVariant "B" StTuple [mkWField "" (TPrim (PInt Usize)) None None false false false false] None None RNone RNone false false]) None None RNone RNone None None false false None None false false []] in
  compiles W = true /\
  writes W (JObj [(js "A", JArr [JInt 123])]) = true /\
  has (text W Schema 0) "z.string" = false.
Proof. vm_compute. repeat split. Qed.
Example t_skip_only_tuple_field : let W := [mkWDecl "Test2" "Ns" (WEnum [mkWVariant "A" StTuple [mkWField "" (TPrim PString) None None false true true false] None None RNone RNone false false; mkWVariant "B" StTuple [mkWField "" (TPrim (PInt Usize)) None None false false false false] None None RNone RNone false false]) None None RNone RNone None None false false None None false false [];
    mkWDecl "Test" "Ns" (WEnum [mkWVariant "A" StUnit [] None None RNone RNone false false; mkWVariant "B" StTuple [mkWField "" (TPrim (PInt Usize)) None None false false false false] None None RNone RNone false false]) None None RNone RNone None None false false None None false false []] in
  compiles W = true /\
  writes W (JStr (js "A")) = true /\
  text W Schema 0 = text W Schema 1 /\
  text W TypeDef 0 = text W TypeDef 1.
Proof. vm_compute. repeat split. Qed.
Example t_skip_variant_field : let W := [mkWDecl "Test" "Ns" (WEnum [mkWVariant "A" StNamed [mkWField "s" (TPrim PString) None None false true true false; mkWField "num" (TPrim (PInt Usize)) None None false false false false] None None RNone RNone false false; mkWVariant "B" StTuple [mkWField "" (TPrim (PInt Usize)) None None false false false false] None None RNone RNone false false]) None None RNone RNone None None false false None None false false [];
    mkWDecl "TestExpected" "Ns" (WEnum [mkWVariant "A" StNamed [mkWField "num" (TPrim (PInt Usize)) None None false false false false] None None RNone RNone false false; mkWVariant "B" StTuple [mkWField "" (TPrim (PInt Usize)) None None false false false false] None None RNone RNone false false]) None None RNone RNone None None false false None None false false []] in
  compiles W = true /\
  text W Schema 0 = text W Schema 1 /\
  text W TypeDef 0 = text W TypeDef 1.
Proof. vm_compute. repeat split. Qed.
(** ** tests/struct_default.rs *)
Example t_default_named_field : let W := [mkWDecl "Test" "Ns" (WStruct StNamed [mkWField "s" (TPrim PString) None None true false false false; mkWField "num" (TPrim (PInt Usize)) None None false false false false]) None None RNone RNone None None false false None None false false []] in
  compiles W = true /\
  has (text W Schema 0) "z.string().optional()" = true /\
  text W TypeDef 0 = Some "{s?: string | undefined,
num: number}".
Proof. vm_compute. repeat split. Qed.
Example t_default_tuple_field : let W := [mkWDecl "Test" "Ns" (WStruct StTuple [mkWField "" (TPrim PString) None None true false false false]) None None RNone RNone None None false false None None false false []] in
  compiles W = true /\
  has (text W Schema 0) "z.string().optional()" = true /\
  text W TypeDef 0 = Some "string | undefined".
Proof. vm_compute. repeat split. Qed.
Example t_default_newtype : let W := [mkWDecl "Test" "Ns" (WStruct StTuple [mkWField "" (TPrim (PInt Usize)) None None true false false false]) None None RNone RNone None None false false None None false false []] in
  compiles W = true /\
  text W Schema 0 = Some "z.number().finite().int().nonnegative().optional()" /\
  text W TypeDef 0 = Some "number | undefined" /\
  text W Inline 0 = Some "Ns.Test".
Proof. vm_compute. repeat split. Qed.
(** ** tests/struct_flattening.rs *)
Example t_flatten_struct : let W := [mkWDecl "Test" "Ns" (WStruct StNamed [mkWField "nested" (TNamed 1) None None false false false true; mkWField "false_value" (TPrim PBool) None None false false false false]) None None RNone RNone None None false false None None false false [];
    mkWDecl "Nested" "Ns" (WStruct StNamed [mkWField "true_value" (TPrim PBool) None None false false false false]) None None RNone RNone None None false false None None false false [];
    mkWDecl "Base" "Ns" (WStruct StNamed [mkWField "false_value" (TPrim PBool) None None false false false false]) None None RNone RNone None None false false None None false false []] in
  compiles W = true /\
  text W Schema 0 = option_map (fun b => b ++ ".extend(z.lazy(() => Ns.Nested))")%string (text W Schema 2) /\
  text W TypeDef 0 = option_map (fun b => b ++ " & Ns.Nested")%string (text W TypeDef 2) /\
  text W Inline 0 = Some "Ns.Test".
Proof. vm_compute. repeat split. Qed.
(** ** tests/struct_new_type.rs *)
Example t_newtype_ok : let W := [mkWDecl "Test" "Ns" (WStruct StTuple [mkWField "" (TPrim (PInt Usize)) None None false false false false]) None None RNone RNone None None false false None None false false []] in
  compiles W = true /\
  writes W (JInt 123) = true /\
  text W Schema 0 = Some "z.number().finite().int().nonnegative()" /\
  text W TypeDef 0 = Some "number" /\
  text W Inline 0 = Some "Ns.Test".
Proof. vm_compute. repeat split. Qed.
(** ** tests/struct_rename.rs *)
Example t_serde_name_named_struct : let W := [mkWDecl "Test" "Ns" (WStruct StNamed [mkWField "s" (TPrim PString) None None false false false false; mkWField "num" (TPrim (PInt Usize)) None None false false false false]) (Some "Hello") (Some "Hello") RNone RNone None None false false None None false false []] in
  compiles W = true /\
  text W Inline 0 = Some "Ns.Hello".
Proof. vm_compute. repeat split. Qed.
Example t_serde_name_tuple_str : let W := [mkWDecl "Test" "Ns" (WStruct StTuple [mkWField "" (TPrim PString) None None false false false false]) (Some "Hello") (Some "Hello") RNone RNone None None false false None None false false []] in
  compiles W = true /\
  text W Inline 0 = Some "Ns.Hello".
Proof. vm_compute. repeat split. Qed.
Example t_serde_rename_struct_field : let W := [mkWDecl "Test" "Ns" (WStruct StNamed [mkWField "before" (TPrim PString) (Some "after") (Some "after") false false false false; mkWField "other" (TPrim (PInt Usize)) None None false false false false]) None None RNone RNone None None false false None None false false []] in
  compiles W = true /\
  has (text W Schema 0) "after" = true /\
  has (text W Schema 0) "other" = true /\
  has (text W Schema 0) "before" = false.
Proof. vm_compute. repeat split. Qed.
(** ** tests/struct_rename_all.rs *)
Example t_rename_all_upper : let W := [mkWDecl "Test" "Ns" (WStruct StNamed [mkWField "string_value" (TPrim PString) None None false false false false; mkWField "usize_value" (TPrim (PInt Usize)) None None false false false false]) None None RUpper RUpper None None false false None None false false []] in
  compiles W = true /\
  writes W (JObj [(js "STRING_VALUE", JStr (js "abc")); (js "USIZE_VALUE", JInt 123)]) = true /\
  has (text W Schema 0) "USIZE_VALUE" = true /\
  has (text W TypeDef 0) "USIZE_VALUE" = true /\
  has (text W Schema 0) "STRING_VALUE" = true /\
  has (text W TypeDef 0) "STRING_VALUE" = true /\
  text W Inline 0 = Some "Ns.Test".
Proof. vm_compute. repeat split. Qed.
(** ** tests/struct_rename_fields.rs *)
Example t_rename_fields : let W := [mkWDecl "Test" "Ns" (WStruct StNamed [mkWField "before" (TPrim PString) (Some "after") (Some "after") false false false false; mkWField "usize_value" (TPrim (PInt Usize)) None None false false false false]) None None RNone RNone None None false false None None false false []] in
  compiles W = true /\
  writes W (JObj [(js "after", JStr (js "abc")); (js "usize_value", JInt 123)]) = true /\
  has (text W Schema 0) "after" = true /\
  has (text W Schema 0) "before" = false /\
  has (text W TypeDef 0) "after" = true /\
  has (text W TypeDef 0) "before" = false /\
  text W Inline 0 = Some "Ns.Test".
Proof. vm_compute. repeat split. Qed.
(** ** tests/struct_skip.rs *)
Example t_skip_struct_field : let W := [mkWDecl "Test" "Ns" (WStruct StNamed [mkWField "to_be_skipped" (TPrim PString) None None false true true false; mkWField "num" (TPrim (PInt Usize)) None None false false false false]) None None RNone RNone None None false false None None false false []] in
  compiles W = true /\
  reads W (JObj [(js "num", JInt 123)]) = true /\
  has (text W Schema 0) "to_be_skipped" = false.
Proof. vm_compute. repeat split. Qed.
Example t_skip_deserializing_struct_field : let W := [mkWDecl "Test" "Ns" (WStruct StNamed [mkWField "to_be_skipped" (TPrim PString) None None false false true false; mkWField "num" (TPrim (PInt Usize)) None None false false false false]) None None RNone RNone None None false false None None false false []] in
  compiles W = true /\
  reads W (JObj [(js "num", JInt 123)]) = true /\
  has (text W Schema 0) "to_be_skipped" = false.
Proof. vm_compute. repeat split. Qed.
(** ** tests/struct_transparent.rs *)
Example t_transparent_struct : let W := [mkWDecl "Test" "Ns" (WStruct StNamed [mkWField "s" (TPrim PString) None None false false false false]) None None RNone RNone None None false true None None false false []] in
  compiles W = true /\
  text W Schema 0 = Some "z.string()" /\
  text W TypeDef 0 = Some "string" /\
  text W Inline 0 = Some "Ns.Test".
Proof. vm_compute. repeat split. Qed.
Example t_transparent_newtype_struct : let W := [mkWDecl "Test" "Ns" (WStruct StTuple [mkWField "" (TPrim PString) None None false false false false]) None None RNone RNone None None false true None None false false []] in
  compiles W = true /\
  text W Schema 0 = Some "z.string()" /\
  text W TypeDef 0 = Some "string" /\
  text W Inline 0 = Some "Ns.Test".
Proof. vm_compute. repeat split. Qed.
(** ** tests/struct_tuple.rs *)
Example t_tuple_ok : let W := [mkWDecl "Test" "Ns" (WStruct StTuple [mkWField "" (TPrim (PInt Usize)) None None false false false false; mkWField "" (TPrim (PInt Usize)) None None false false false false; mkWField "" (TPrim PString) None None false false false false]) None None RNone RNone None None false false None None false false []] in
  compiles W = true /\
  writes W (JArr [JInt 123; JInt 42; JStr (js "abc")]) = true /\
  text W Schema 0 = Some "z.tuple([z.number().finite().int().nonnegative(), z.number().finite().int().nonnegative(), z.string()])" /\
  text W TypeDef 0 = Some "[number, number, string]" /\
  text W Inline 0 = Some "Ns.Test".
Proof. vm_compute. repeat split. Qed.
Example t_tuple_default_fields : let W := [mkWDecl "Test" "Ns" (WStruct StTuple [mkWField "" (TPrim (PInt Usize)) None None false false false false; mkWField "" (TPrim (PInt Usize)) None None true false false false]) None None RNone RNone None None false false None None false false []] in
  compiles W = true /\
  reads W (JArr [JInt 42]) = true /\
  text W Schema 0 = Some "z.tuple([z.number().finite().int().nonnegative(), z.number().finite().int().nonnegative().optional()])" /\
  text W TypeDef 0 = Some "[number, number | undefined]" /\
  text W Inline 0 = Some "Ns.Test".
Proof. vm_compute. repeat split. Qed.
(** ** tests/doc.rs *)
Example t_docs : let W := [mkWDecl "SingleVariantUnit" "Ns" (WEnum [mkWVariant "A" StUnit [] None None RNone RNone false false]) None None RNone RNone None None false false None None false false [lit " Hello World"];
    mkWDecl "MultiVariantUnit" "Ns" (WEnum [mkWVariant "A" StUnit [] None None RNone RNone false false; mkWVariant "B" StUnit [] None None RNone RNone false false]) None None RNone RNone None None false false None None false false [lit " Hello World"];
    mkWDecl "SingleVariantTuple" "Ns" (WEnum [mkWVariant "A" StTuple [mkWField "" (TPrim (PInt Usize)) None None false false false false] None None RNone RNone false false]) None None RNone RNone None None false false None None false false [lit " Hello World"];
    mkWDecl "MultiVariantTuple" "Ns" (WEnum [mkWVariant "A" StTuple [mkWField "" (TPrim (PInt Usize)) None None false false false false] None None RNone RNone false false; mkWVariant "B" StTuple [mkWField "" (TPrim (PInt Usize)) None None false false false false] None None RNone RNone false false]) None None RNone RNone None None false false None None false false [lit " Hello World"];
    mkWDecl "SingleVariantStruct" "Ns" (WEnum [mkWVariant "A" StNamed [mkWField "s" (TPrim PString) None None false false false false] None None RNone RNone false false]) None None RNone RNone None None false false None None false false [lit " Hello World"];
    mkWDecl "MultiVariantStruct" "Ns" (WEnum [mkWVariant "A" StNamed [mkWField "s" (TPrim PString) None None false false false false] None None RNone RNone false false; mkWVariant "B" StNamed [mkWField "num" (TPrim (PInt Usize)) None None false false false false] None None RNone RNone false false]) None None RNone RNone None None false false None None false false [lit " Hello World"];
    mkWDecl "Newtype" "Ns" (WStruct StTuple [mkWField "" (TPrim (PInt Usize)) None None false false false false]) None None RNone RNone None None false false None None false false [lit " Hello World"];
    mkWDecl "StructSingle" "Ns" (WStruct StNamed [mkWField "num" (TPrim (PInt Usize)) None None false false false false]) None None RNone RNone None None false false None None false false [lit " Hello World"];
    mkWDecl "StructMulti" "Ns" (WStruct StNamed [mkWField "num" (TPrim (PInt Usize)) None None false false false false; mkWField "s" (TPrim PString) None None false false false false]) None None RNone RNone None None false false None None false false [lit " Hello World"]] in
  compiles W = true /\ map (fun w => option_map (fun d => doc_text (d_docs d)) (seen w)) W =
  repeat (Some (lit "/**" ++ [nl] ++ lit "* Hello World" ++ [nl] ++ lit "*/" ++ [nl])) 9.
Proof. vm_compute. repeat split. Qed.
(** ** tests/ui/zod/fail *)
Example t_enum_empty : option_map derive (seen (mkWDecl "MyEnum" "Ns" (WEnum []) None None RNone RNone None None false false None None false false [])) =
  Some (Abort "deriving zod on empty enums is not supported.").
Proof. vm_compute. reflexivity. Qed.
Example t_default_before_non_default : option_map derive (seen (mkWDecl "Test" "Ns" (WStruct StTuple [mkWField "" (TPrim PString) None None true false false false; mkWField "" (TPrim PString) None None false false false false]) None None RNone RNone None None false false None None false false [])) =
  Some (Abort "zod: non-default field follows default field").
Proof. vm_compute. reflexivity. Qed.
Example t_unit_struct : option_map derive (seen (mkWDecl "Test" "Ns" (WStruct StUnit []) None None RNone RNone None None false false None None false false [])) =
  Some (Reject "Unsupported shape `no fields`. Expected named fields or unnamed fields.").
Proof. vm_compute. reflexivity. Qed.
