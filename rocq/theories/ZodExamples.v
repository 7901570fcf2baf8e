(** Instances of the hypotheses of the schema theorems, and tests of the specifications. *)
From Coq Require Import List String Bool NArith ZArith Relations.
From Verif Require Import RustTy Gen GenSpec GenProofs GenExamples JsLex JsParse Js Zod Ast AstProofs
  ZodProofs ZodSpec ZodLoad ZodLemmas.
Import ListNotations.
Local Open Scope string_scope.
Local Open Scope list_scope.

(** ** C01 *)
Example shop_good : good_names shop.
Proof. repeat constructor. Qed.

Example shop_parses : exists s e, returns shop Schema (TNamed 1) s /\ js_parse s = Some e /\
  List.length (tokens_of e) = 129.
Proof. eexists. eexists. split; [exists 5; reflexivity|].
  split; [vm_compute; reflexivity|]. vm_compute. reflexivity. Qed.

(** [#[serde(rename_all = "kebab-case")]] on a struct. *)
Definition kebab : env := [strukt "Ns" "T" StNamed [fld "my-field" (TPrim PString)]].
Lemma kebab_fails : compiles kebab /\ returns kebab Schema (TNamed 0) "z.object({my-field: z.string()})" /\
  js_parse "z.object({my-field: z.string()})" = None.
Proof.
  split; [intros [|[|i]]; eexists; reflexivity|]. split; [exists 5; reflexivity|]. vm_compute. reflexivity.
Qed.

(** ** C02 *)
Example shop_tags : tags_ok shop.
Proof. repeat constructor; discriminate. Qed.

Example shop_clean : ~ In (TPrim PBool) (mentioned shop (TNamed 1)) /\ Forall (fun d => ~ refused_enum d) shop.
Proof.
  split.
  - cbn. intros H. repeat destruct H as [H|H]; try discriminate. exact H.
  - repeat constructor; intros [_ H]; cbn in H; [exact H|]. destruct H as [_ [[v [_ H]]|H]]; [exact H|].
    apply H. repeat constructor; cbn; intuition discriminate.
Qed.

(** [struct Flags { on: bool }] *)
Definition flags : env := [strukt "Ns" "Flags" StNamed [fld "on" (TPrim PBool)]].
Example flags_throw : load "z.object({on: z.bool()})" = Throw /\
  returns flags Schema (TNamed 0) "z.object({on: z.bool()})" /\ contains_throwing flags (Full (TNamed 0)).
Proof.
  split; [vm_compute; reflexivity|]. split; [exists 5; reflexivity|].
  exists (Full (TPrim PBool)). split; [|now left].
  eapply rt_trans; [apply rt_step; now apply (sn_field flags 0 (fld "on" (TPrim PBool))); [|left]|].
  apply rt_step. constructor. now intros [i Hi].
Qed.

(** [#[serde(tag = "t")] enum Msg { Text(Item), Quit }] *)
Definition msg : env :=
  [ strukt "Ns" "Item" StNamed [fld "id" (TPrim (PInt U8))];
    enum "Ns" "Msg" (Internal "t") [var "Text" StTuple [fld "" (TNamed 0)]; var "Quit" StUnit []] ].
Example msg_throws : exists s, returns msg Schema (TNamed 1) s /\ load s = Throw /\
  refused_enum (lookup msg 1) /\ good_names msg /\ tags_ok msg.
Proof.
  eexists. split; [exists 5; reflexivity|]. split; [vm_compute; reflexivity|]. split; [|split].
  - split; [reflexivity|]. split; [repeat constructor|]. left.
    eexists. split; [left; reflexivity|]. split; [reflexivity|discriminate].
  - repeat constructor.
  - repeat constructor; try discriminate. intros v [<-|[<-|[]]]; cbn; [discriminate|exact I].
Qed.

(** A struct with a flattened struct. *)
Definition flat : env :=
  [ strukt "Ns" "Inner" StNamed [fld "a" (TPrim (PInt U8))];
    strukt "Ns" "Outer" StNamed [fld "b" (TPrim PString); fld_flat "inner" (TNamed 0)] ].
Example flat_loads_but_throws : exists s z, returns flat Schema (TNamed 1) s /\ load s = Val z /\
  throws (fun _ _ => true) (fun _ _ => None) z (JsObj [(js "a", JsNum (NInt 1)); (js "b", JsStr (js "x"))]).
Proof.
  eexists. eexists. split; [exists 5; reflexivity|]. split; [vm_compute; reflexivity|].
  exists 5. vm_compute. reflexivity.
Qed.

(** ** C06 *)
Example u8_text : returns [] Schema (TPrim (PInt U8)) "z.number().finite().int().nonnegative().lte(255)".
Proof. exists 1. reflexivity. Qed.

(** The number 2^64 passes the schema of [u64]. *)
Example u64_too_big : exists s z, returns [] Schema (TPrim (PInt U64)) s /\ load s = Val z /\
  zparse (fun _ _ => true) (fun _ _ => None) 3 z (JsNum (NInt (2 ^ 64)))
  = POk (JsNum (NInt (2 ^ 64))).
Proof. eexists. eexists. split; [exists 1; reflexivity|].
  split; [vm_compute; reflexivity|]. vm_compute. reflexivity. Qed.
