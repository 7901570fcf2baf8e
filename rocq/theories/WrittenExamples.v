(** Declarations as they are written: instances and witnesses. *)
From Coq Require Import List String Ascii Bool NArith ZArith.
From Verif Require Import Util RustTy Gen GenSpec GenExamples JsLex JsParse Js Zod Ast ZodSpec Serde SerdeSpec SerdeExamples ParseSpec TsType TsAst TsSpec
  Written WrittenSpec WrittenProofs.
Import ListNotations.
Local Open Scope string_scope.
Local Open Scope list_scope.

Definition wfld (n : string) (t : ty) : wfield := mkWField n t None None false false false false.
Definition wvar (n : string) (st : style) (r : rule) (fs : list wfield) : wvariant := mkWVariant n st fs None None r r false false.
Definition wdcl (n : string) (b : wbody) (r : rule) (tag : option string) : wdecl :=
  mkWDecl n "Ns" b None None r r tag None false false None None false false [].

(** ** The rules *)
Example fields_named : map (fun r => apply_to_field r "very_tasty2")
    [RNone; RLower; RUpper; RPascal; RCamel; RSnake; RScreamingSnake; RKebab; RScreamingKebab] =
  map Some ["very_tasty2"; "very_tasty2"; "VERY_TASTY2"; "VeryTasty2"; "veryTasty2"; "very_tasty2"; "VERY_TASTY2"; "very-tasty2"; "VERY-TASTY2"].
Proof. reflexivity. Qed.
Example variants_named : map (fun r => apply_to_variant r "VeryTasty")
    [RNone; RLower; RUpper; RPascal; RCamel; RSnake; RScreamingSnake; RKebab; RScreamingKebab] =
  map Some ["VeryTasty"; "verytasty"; "VERYTASTY"; "VeryTasty"; "veryTasty"; "very_tasty"; "VERY_TASTY"; "very-tasty"; "VERY-TASTY"].
Proof. reflexivity. Qed.
Example words_of : words "__a_bc" = [""; ""; "a"; "bc"] /\ humps "AB_Cd" = ["A"; "B_"; "Cd"] /\
  variant_name RKebab "AB_Cd" = "a-b--cd".
Proof. repeat split. Qed.

(** ** A program
    [#[serde(rename_all = "camelCase")] struct UserAccount { user_id: u32, r#type: AccountKind, last_login2: Option<String> }]
    [#[serde(tag = "kind", rename_all = "snake_case")] enum AccountKind { GuestUser, #[serde(rename_all = "camelCase")] PowerUser { max_level: u8, #[serde(default)] nick_name: String } }] *)
Definition account : wdecl := wdcl "UserAccount" (WStruct StNamed
  [wfld "user_id" (TPrim (PInt U32)); wfld "r#type" (TNamed 1); wfld "last_login2" (TOpt (TPrim PString))]) RCamel None.
Definition kind : wdecl := wdcl "AccountKind" (WEnum
  [wvar "GuestUser" StUnit RNone [];
   wvar "PowerUser" StNamed RCamel [wfld "max_level" (TPrim (PInt U8)); mkWField "nick_name" (TPrim PString) None None true false false false]])
  RSnake (Some "kind").
Definition accounts : env :=
  [mkDecl "UserAccount" "Ns" "UserAccount" (BStruct StNamed false
     [mkField "userId" (TPrim (PInt U32)) false false false "userId" false; mkField "type" (TNamed 1) false false false "type" false;
      mkField "lastLogin2" (TOpt (TPrim PString)) false false false "lastLogin2" false]) None false false false [];
   mkDecl "AccountKind" "Ns" "AccountKind" (BEnum (Internal "kind")
     [mkVariant "guest_user" StUnit [] false "guest_user" false;
      mkVariant "power_user" StNamed
        [mkField "maxLevel" (TPrim (PInt U8)) false false false "maxLevel" false; mkField "nickName" (TPrim PString) true false false "nickName" false]
        false "power_user" false]) None false false false []].

Example accounts_seen : Forall2 (fun w d => seen w = Some d) [account; kind] accounts.
Proof. repeat constructor. Qed.
Lemma accounts_usual : Forall usual [account; kind].
Proof.
  repeat constructor; cbn; try tauto; try discriminate;
    intros X; repeat (destruct X as [X|X]; [discriminate X|]); exact X.
Qed.
Example accounts_fine : good_names accounts /\ type_names accounts /\ tags_ok accounts /\ forall inside, TsSpec.distinct accounts inside.
Proof. exact (usual_programs _ _ accounts_seen accounts_usual). Qed.
Example account_text : gen accounts 10 Schema (TNamed 0) = Some
"z.object({userId: z.number().finite().int().nonnegative().lte(4294967295),
type: z.lazy(() => Ns.AccountKind),
lastLogin2: z.string().optional()})".
Proof. reflexivity. Qed.
Example kind_text : gen accounts 10 TypeDef (TNamed 1) = Some
"{ kind: ""guest_user"" } | { kind: ""power_user"", maxLevel: number, nickName?: string | undefined }".
Proof. reflexivity. Qed.

(** Given names win; the two directions are separate.
    [#[serde(rename_all(serialize = "UPPERCASE"))] struct T { #[serde(rename(deserialize = "in"))] my_field: u8 }] *)
Example directions : seen (mkWDecl "T" "Ns" (WStruct StNamed [mkWField "my_field" (TPrim (PInt U8)) None (Some "in") false false false false])
    None None RUpper RNone None None false false None None false false []) =
  Some (mkDecl "T" "Ns" "T" (BStruct StNamed false [mkField "in" (TPrim (PInt U8)) false false false "MY_FIELD" false]) None false false false []).
Proof. reflexivity. Qed.

(** ** Refused by serde_derive_internals, hence no derive *)
Example tag_conflict : seen (wdcl "T" (WEnum [wvar "A" StNamed RNone [wfld "kind" (TPrim (PInt U8))]]) RNone (Some "kind")) = None.
Proof. reflexivity. Qed.
Example transparent_two : seen (mkWDecl "T" "Ns" (WStruct StNamed [wfld "a" (TPrim (PInt U8)); wfld "b" (TPrim (PInt U8))])
  None None RNone RNone None None false true None None false false []) = None.
Proof. reflexivity. Qed.

(** ** Witnesses *)

(** [#[serde(rename_all = "kebab-case")] struct T { my_field: String }] *)
Lemma kebab_rule : exists d s, seen (wdcl "T" (WStruct StNamed [wfld "my_field" (TPrim PString)]) RKebab None) = Some d /\
  returns [d] Schema (TNamed 0) s /\ js_parse s = None.
Proof. eexists. eexists. split; [reflexivity|]. split; [exists 5; reflexivity|]. vm_compute. reflexivity. Qed.

(** [#[serde(rename_all = "camelCase")] struct T { _2fa: String }] *)
Lemma digit_first : exists d s, seen (wdcl "T" (WStruct StNamed [wfld "_2fa" (TPrim PString)]) RCamel None) = Some d /\
  returns [d] Schema (TNamed 0) s /\ js_parse s = None.
Proof. eexists. eexists. split; [reflexivity|]. split; [exists 5; reflexivity|]. vm_compute. reflexivity. Qed.

(** [#[serde(rename_all = "camelCase")] struct T { a_b: u8, a__b: u8 }], [#[serde(rename_all = "lowercase")] enum T { AB, Ab }] *)
Lemma same_name :
  (exists d fs, seen (wdcl "T" (WStruct StNamed [wfld "a_b" (TPrim (PInt U8)); wfld "a__b" (TPrim (PInt U8))]) RCamel None) = Some d /\
     d_body d = BStruct StNamed false fs /\ map f_name fs = ["aB"; "aB"]) /\
  (exists d vs, seen (wdcl "T" (WEnum [wvar "AB" StUnit RNone []; wvar "Ab" StUnit RNone []]) RLower None) = Some d /\
     d_body d = BEnum External vs /\ map v_name vs = ["ab"; "ab"]).
Proof. split; eexists; eexists; (split; [reflexivity|]); split; reflexivity. Qed.

(** [#[serde(transparent)] struct T { #[serde(default)] a: u8, b: String }]: the derive takes [a], serde [b]. *)
Definition two_sided : wdecl := mkWDecl "T" "Ns"
  (WStruct StNamed [mkWField "a" (TPrim (PInt U8)) None None true false false false; wfld "b" (TPrim PString)])
  None None RNone RNone None None false true None None false false [].
(** [#[serde(transparent)] struct T { unit: PhantomData<u8>, b: String }] *)
Definition marked : wdecl := mkWDecl "T" "Ns"
  (WStruct StNamed [wfld "unit" (TWrap WPhantom (TPrim (PInt U8))); wfld "b" (TPrim PString)])
  None None RNone RNone None None false true None None false false [].
Lemma transparent_first :
  (exists d, seen two_sided = Some d /\ unsound false [d] T0 (int 1)) /\ (exists d, seen marked = Some d /\ unsound false [d] T0 (int 1)).
Proof. split; eexists; (split; [reflexivity|]); wit. Qed.

(** [#[serde(default)] struct T { a: u8 }]: serde reads [{}], the schema rejects it. *)
Lemma container_default : exists d s z,
  seen (mkWDecl "T" "Ns" (WStruct StNamed [wfld "a" (TPrim (PInt U8))]) None None RNone RNone None None false false None None false true []) = Some d /\
  returns [d] Schema T0 s /\ load s = Val z /\
  (forall R, deserializes R [d] T0 (JObj [])) /\ forall ip, rejects ip (the_module [d]) z (JsObj []).
Proof.
  eexists. eexists. eexists. split; [reflexivity|]. split; [exists 10; reflexivity|]. split; [vm_compute; reflexivity|]. split.
  - intros R. split; [exists 10; vm_compute; reflexivity|]. cbn. repeat constructor.
  - intros ip. exists 10. vm_compute. reflexivity.
Qed.

(** [#[serde(rename_all = "camelCase")] struct T { __: u8 }]: no such slice. *)
Lemma no_letters : apply_to_field RCamel "__" = None /\ rust_ident "__" = true /\
  seen (wdcl "T" (WStruct StNamed [wfld "__" (TPrim (PInt U8))]) RCamel None) = None /\
  seen (wdcl "T" (WStruct StNamed [wfld "__" (TPrim (PInt U8))]) RNone None) <> None.
Proof. repeat split. discriminate. Qed.
