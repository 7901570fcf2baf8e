(** Instances of the theorems on TypeScript types and witnesses outside. *)
From Coq Require Import List String Bool NArith ZArith Lia.
From Verif Require Import RustTy Gen GenSpec GenExamples JsLex JsParse Js Zod Ast ZodSpec ZodExamples
  Serde SerdeSpec SerdeExamples ParseSpec CompleteSpec CompleteProofs CompleteExamples TsType TsAst TsSpec TsMember TsWire.
Import ListNotations.
Local Open Scope string_scope.
Local Open Scope list_scope.

(** The exported types of the module generated for [E]. *)
Definition the_types (E : env) : tenv := fun ns name =>
  match find (fun i => String.eqb ns (d_ns (lookup E i)) && String.eqb name (d_name (lookup E i)))
             (seq 0 (List.length E)) with
  | Some i => match gen E 20 TypeDef (TNamed i) with Some s => ts_parse s | None => None end
  | None => None
  end.

(** ** C07 *)
Example result_type_parses : ts_parse "{ Ok: Array<[string, number]> } | { Err: Shop.Item }" =
  Some (YUnion (YObj [("Ok", false, YApp "Array" [YTup [YName "string"; YName "number"]])])
               (YObj [("Err", false, YRef "Shop" "Item")])).
Proof. vm_compute. reflexivity. Qed.

(** [#[serde(rename_all = "kebab-case")] struct T { a_b: u8 }] *)
Definition kebab : env := one "a-b" u8.
Lemma kebab_unparsed : compiles kebab /\ exists s, returns kebab TypeDef T0 s /\ ts_parse s = None.
Proof. split; [now comp|]. eexists. split; [exists 10; reflexivity|]. vm_compute. reflexivity. Qed.

(** [struct keyof; impl Namespace for keyof]: [keyof.B] is no type. *)
Definition operator : env := [strukt "keyof" "A" StNamed [fld "b" (TNamed 1)]; strukt "keyof" "B" StNamed [fld "x" u8]].
Lemma operator_unparsed : good_names operator /\ compiles operator /\
  exists s, returns operator TypeDef T0 s /\ ts_parse s = None.
Proof.
  split; [now good|]. split; [now comp|]. eexists. split; [exists 10; reflexivity|]. vm_compute. reflexivity.
Qed.

(** ** Inside
    [struct User { id: u32, name: String, nick: Option<char>, tags: Vec<String>,
                   #[serde(default)] level: u8, last: Result<Event, (u8, String)>, shape: Shape }]
    [enum Event { Quit, Move(u8, u8), Say { text: String } }]
    [#[serde(tag = "kind")] enum Shape { Dot, Circle { r: u16 } }] *)
Definition club : env :=
  [strukt "Ns" "User" StNamed
     [fld "id" (TPrim (PInt U32)); fld "name" str; fld "nick" (TOpt (TPrim PChar)); fld "tags" (TVec str);
      fld_default "level" u8; fld "last" (TRes (TNamed 1) (TTuple [u8; str])); fld "shape" (TNamed 2)];
   enum "Ns" "Event" External
     [var "Quit" StUnit []; var "Move" StTuple [fld "" u8; fld "" u8]; var "Say" StNamed [fld "text" str]];
   enum "Ns" "Shape" (Internal "kind") [var "Dot" StUnit []; var "Circle" StNamed [fld "r" (TPrim (PInt U16))]]].

Example user_type : gen club 10 TypeDef T0 = Some
"{id: number,
name: string,
nick: (string | undefined),
tags: Array<string>,
level?: number | undefined,
last: { Ok: ""Quit"" | { Move: [number, number] } | { Say: { text: string } } } | { Err: [number, string] },
shape: Ns.Shape}".
Proof. reflexivity. Qed.

Ltac texp := intros [|[|[|i]]] Hi; try discriminate Hi;
  (eexists; eexists; split; [exists 10; reflexivity|]; split; [vm_compute; reflexivity|]; vm_compute; reflexivity).

Definition sent : json :=
  JObj [(js "id", JInt 7); (js "name", JStr (js "a")); (js "nick", JStr (js "x")); (js "tags", JArr [JStr (js "t")]);
        (js "level", JInt 2); (js "last", jobj1 "Ok" (jobj1 "Move" (JArr [JInt 1; JInt 2])));
        (js "shape", JObj [(js "kind", JStr (js "Circle")); (js "r", JInt 1)])].

Lemma club_names : good_names club /\ type_names club.
Proof. split; repeat constructor. Qed.
Lemma club_tags : tags_ok club.
Proof.
  repeat constructor; try discriminate.
  intros v [<-|[<-|[]]]; cbn; [exact I|]. intros f [<-|[]]. discriminate.
Qed.
Lemma club_exports : exports club (all club) (the_module club).
Proof. exp. Qed.
Lemma club_types : type_exports club (all club) (the_types club).
Proof. texp. Qed.
Lemma club_spans : spans club (all club).
Proof.
  intros [|[|[|i]]] Hi; try discriminate Hi; cbn;
    intros t Ht; repeat (destruct Ht as [<-|Ht]; [inb|]); destruct Ht.
Qed.
Lemma club_distinct : distinct club (all club).
Proof.
  intros [|[|[|i]]] Hi; try discriminate Hi; cbn.
  - repeat constructor; simpl; intuition discriminate.
  - intros v Hv Hs. repeat (destruct Hv as [<-|Hv]; [solve [discriminate Hs|repeat constructor; simpl; intuition discriminate]|]). destruct Hv.
  - intros v Hv Hs. repeat (destruct Hv as [<-|Hv]; [solve [discriminate Hs|repeat constructor; simpl; intuition discriminate]|]). destruct Hv.
Qed.
Ltac tpd := repeat match goal with
  | |- typed_tuple _ _ _ => unfold typed_tuple; cbn
  | |- typed_named _ _ _ => unfold typed_named; cbn
  | |- NoDup _ => constructor
  | |- ~ _ => simpl; intuition discriminate
  | |- _ /\ _ => split
  | |- forall f : field, _ => let f := fresh "f" in let H := fresh "H" in
      intros f H; repeat (destruct H as [<-|H]; [cbn; auto|]); try contradiction
  | |- forall v : variant, _ => let v := fresh "v" in let H := fresh "H" in
      intros v H; repeat (destruct H as [<-|H]; [intros _; split; [reflexivity|split; [reflexivity|]]; cbn|]); try contradiction
  | |- _ => reflexivity
  | |- _ <> _ => discriminate
  | |- _ => exact I
  end.
Lemma club_typed : typed true (all club) club.
Proof.
  intros [|[|[|i]]] Hi; try discriminate Hi; unfold typed_decl, typed_struct, typed_named, typed_tuple; cbn; tpd.
Qed.

(** Hypotheses of C08 and C09 together. *)
Example club_instance R : exists s z s' y o,
  within (all club) T0 /\ typed_ty true (all club) T0 = true /\ no_null sent = true /\
  returns club Schema T0 s /\ load s = Val z /\ returns club TypeDef T0 s' /\ ts_parse s' = Some y /\
  accepts no_ip (the_module club) z (jsparse sent) o /\ serializes R club T0 sent /\
  member (the_types club) y (jsparse sent).
Proof.
  assert (H : exists s z s' y o, within (all club) T0 /\ typed_ty true (all club) T0 = true /\ no_null sent = true /\
    returns club Schema T0 s /\ load s = Val z /\ returns club TypeDef T0 s' /\ ts_parse s' = Some y /\
    accepts no_ip (the_module club) z (jsparse sent) o /\ serializes R club T0 sent).
  { do 5 eexists. split; [inb|]. split; [reflexivity|]. split; [reflexivity|].
    split; [exists 10; reflexivity|]. split; [vm_compute; reflexivity|].
    split; [exists 10; reflexivity|]. split; [vm_compute; reflexivity|].
    split; [exists 20; vm_compute; reflexivity|]. exists 10. vm_compute. reflexivity. }
  destruct H as (s & z & s' & y & o & H1 & H2 & H3 & H4 & H5 & H6 & H7 & H8 & H9).
  exists s, z, s', y, o. repeat (split; [assumption|]).
  exact (plain_written_member R club (the_types club) (all club) TypeDef T0 s' y sent (proj1 club_names) (proj2 club_names)
    club_typed club_types H2 (or_introl eq_refl) H6 H7 H9 H3).
Qed.

(** ** Outside *)
(** The schema lets [v] through, but it is not a member of the type. *)
Definition disagree (E : env) (t : ty) (v : jsval) : Prop :=
  good_names E /\ type_names E /\ tags_ok E /\ compiles E /\ spans E (all E) /\
  exports E (all E) (the_module E) /\ type_exports E (all E) (the_types E) /\
  exists s z s' y o, returns E Schema t s /\ load s = Val z /\ returns E TypeDef t s' /\ ts_parse s' = Some y /\
    accepts no_ip (the_module E) z v o /\ ~ member (the_types E) y v.

(** The type has [v], the schema rejects it. *)
Definition disagree_conv (E : env) (t : ty) (v : jsval) : Prop :=
  good_names E /\ type_names E /\ tags_ok E /\ compiles E /\ spans E (all E) /\
  exports E (all E) (the_module E) /\ type_exports E (all E) (the_types E) /\
  exists s z s' y, returns E Schema t s /\ load s = Val z /\ returns E TypeDef t s' /\ ts_parse s' = Some y /\
    member (the_types E) y v /\ forall ip, rejects ip (the_module E) z v.

(** serde writes [j], but it is not a member of the type. *)
Definition untyped (E : env) (t : ty) (j : json) : Prop :=
  good_names E /\ type_names E /\ compiles E /\ type_exports E (all E) (the_types E) /\
  exists s y, returns E TypeDef t s /\ ts_parse s = Some y /\
    (forall R, serializes R E t j) /\ ~ member (the_types E) y (jsparse j).

Ltac mem_inv := repeat match goal with
  | H : member _ (YObj _) _ |- _ => inversion H; clear H; subst
  | H : forall k opt y, In (k, opt, y) _ -> _ |- _ =>
      let Ha := fresh in
      pose proof (H _ _ _ (or_introl eq_refl)) as Ha; clear H;
      match type of Ha with _ /\ ?g = _ \/ _ => let g' := eval vm_compute in g in change g with g' in Ha end;
      destruct Ha as [[Ha ?]|Ha]; [discriminate Ha|]
  | H : member _ (YParen _) _ |- _ => inversion H; clear H; subst
  | H : member _ (YUnion _ _) _ |- _ => inversion H; clear H; subst
  | H : member _ (YName _) _ |- _ => inversion H; clear H; subst
  | H : member _ (YApp _ _) _ |- _ => inversion H; clear H; subst
  | H : member _ (YTup _) _ |- _ => inversion H; clear H; subst
  end.
Ltac nomem := let H := fresh in generalize the_types; intros ? H; mem_inv.
Ltac unt := split; [now good|]; split; [now good|]; split; [now comp|]; split; [now texp|];
  eexists; eexists; split; [exists 10; reflexivity|]; split; [vm_compute; reflexivity|];
  split; [now writ|]; now nomem.

Lemma none_untyped : untyped (one "a" (TOpt u8)) T0 (jobj1 "a" JNull).
Proof. unt. Qed.
Lemma weak_untyped : untyped (one "a" (TWrap WWeak u8)) T0 (jobj1 "a" JNull).
Proof. unt. Qed.
Lemma phantom_untyped : untyped (one "a" (TWrap WPhantom u8)) T0 (jobj1 "a" JNull).
Proof. unt. Qed.
Lemma nan_untyped : untyped (one "a" (TPrim PF64)) T0 (jobj1 "a" JNull).
Proof. unt. Qed.
Lemma set_untyped : untyped (one "a" (TSet Hash str)) T0 (jobj1 "a" (JArr [JStr (js "x")])).
Proof. unt. Qed.
Lemma map_untyped : untyped (one "a" (TMap Hash str u8)) T0 (jobj1 "a" (JObj [])).
Proof. unt. Qed.
(** [#[serde(skip_serializing)] a: u8] *)
Lemma skip_ser_untyped : untyped [strukt "Ns" "T" StNamed [mkField "a" u8 false false false "a" true]] T0 (JObj []).
Proof. unt. Qed.
Lemma rename_untyped :
  untyped [strukt "Ns" "T" StNamed [mkField "a" u8 false false false "b" false]] T0 (jobj1 "b" (JInt 1)).
Proof. unt. Qed.
Lemma skip_untyped : untyped [strukt "Ns" "T" StTuple [fld_skip "" u8; fld "" u8]] T0 (JArr [JInt 1]).
Proof. unt. Qed.
Lemma internal_untyped : untyped inner_tagged T0 (JObj [(js "t", JStr (js "A")); (js "x", JInt 1)]).
Proof.
  split; [now good|]; split; [now good|]; split; [now comp|]; split; [now texp|].
  eexists; eexists; split; [exists 10; reflexivity|]; split; [vm_compute; reflexivity|]. split; [now writ|].
  intros H. inversion H; subst. specialize (H2 _ _ _ (or_introl eq_refl)).
  destruct H2 as [[H2 _]|H2]; [discriminate H2|]. inversion H2; subst.
  match goal with H : the_types _ _ _ = Some _ |- _ => vm_compute in H; injection H as <- end.
  match goal with H : member _ (YObj _) ?g |- _ => let g' := eval vm_compute in g in change g with g' in H; inversion H end.
Qed.

(** [struct T { a: String, #[serde(rename = "a")] b: u8 }] *)
Definition twice : env := [strukt "Ns" "T" StNamed [fld "a" str; fld "a" u8]].
Lemma twice_disagree : disagree twice T0 (obj1 "a" (int 1)).
Proof.
  split; [now good|]. split; [now good|]. split; [now good|]. split; [now comp|]. split.
  { intros [|i] Hi; try discriminate Hi. cbn. intros t Ht; repeat (destruct Ht as [<-|Ht]; [inb|]); destruct Ht. }
  split; [now exp|]. split; [now texp|].
  do 5 eexists. split; [exists 10; reflexivity|]. split; [vm_compute; reflexivity|].
  split; [exists 10; reflexivity|]. split; [vm_compute; reflexivity|].
  split; [exists 20; vm_compute; reflexivity|]. nomem.
Qed.
(** 256 is a [number]. *)
Lemma number_disagree : disagree_conv (one "a" u8) T0 (obj1 "a" (int 256)).
Proof.
  split; [now good|]. split; [now good|]. split; [now good|]. split; [now comp|]. split.
  { intros [|i] Hi; try discriminate Hi. cbn. intros t Ht; repeat (destruct Ht as [<-|Ht]; [inb|]); destruct Ht. }
  split; [now exp|]. split; [now texp|].
  do 4 eexists. split; [exists 10; reflexivity|]. split; [vm_compute; reflexivity|].
  split; [exists 10; reflexivity|]. split; [vm_compute; reflexivity|].
  split; [|intros ip; exists 10; vm_compute; reflexivity].
  constructor. intros k opt y [[= <- <- <-]|[]]. right.
  change (get_prop "a" _) with (int 256). apply mb_number.
Qed.
