(** Instances of the soundness theorems and witnesses outside the fragments. *)
From Coq Require Import List String Bool NArith ZArith Lia.
From Verif Require Import RustTy Gen GenSpec GenExamples JsLex JsParse Js Zod Ast ZodSpec ZodExamples
  Serde SerdeSpec SerdeMono SerdeProofs.
Import ListNotations.
Local Open Scope string_scope.
Local Open Scope list_scope.

Definition all (E : env) (i : nat) : bool := Nat.ltb i (List.length E).

(** The exports of the module generated for [E]. *)
Definition the_module (E : env) : menv := fun ns name =>
  match find (fun i => String.eqb ns (d_ns (lookup E i)) && String.eqb name (d_name (lookup E i)))
             (seq 0 (List.length E)) with
  | Some i =>
      match gen E 20 Schema (TNamed i) with
      | Some s => match load s with Val z => Some z | _ => None end
      | None => None
      end
  | None => None
  end.

Definition no_ip (v : option string) (s : jstr) : bool := false.

(** The schema of [t] lets [v] through, but serde does not read what is sent ([raw]: the
    value itself, else the output of the parse). *)
Definition unsound (raw : bool) (E : env) (t : ty) (v : jsval) : Prop :=
  good_names E /\ tags_ok E /\ compiles E /\ exports E (all E) (the_module E) /\
  exists s z o, returns E Schema t s /\ load s = Val z /\
    accepts no_ip (the_module E) z v o /\
    forall R, ~ deserializes R E t (stringify_elem (if raw then v else o)).

Ltac good := repeat constructor; try discriminate; auto.
Ltac exp := intros [|[|[|i]]] Hi; try discriminate Hi;
  (eexists; eexists; split; [exists 10; reflexivity|]; split; [vm_compute; reflexivity|]; vm_compute; reflexivity).
Ltac unread := intros R [[n H] _]; destruct n as [|[|[|[|n]]]]; vm_compute in H; discriminate H.
Ltac comp := intros [|[|[|i]]]; eexists; reflexivity.
Ltac wit := split; [now good|]; split; [now good|]; split; [now comp|]; split; [now exp|];
  eexists; eexists; eexists; split; [exists 10; reflexivity|]; split; [vm_compute; reflexivity|];
  split; [exists 10; vm_compute; reflexivity|]; now unread.

Definition int (z : Z) : jsval := JsNum (NInt z).
Definition one (n : string) (t : ty) : env := [strukt "Ns" "T" StNamed [fld n t]].
Definition T0 := TNamed 0.
Definition obj1 (k : string) (v : jsval) : jsval := JsObj [(js k, v)].

(** ** Outside the fragment of C03 *)
Lemma u64_unsound : unsound false (one "a" (TPrim (PInt U64))) T0 (obj1 "a" (int (2 ^ 64))).
Proof. wit. Qed.
Lemma i64_unsound : unsound false (one "a" (TPrim (PInt I64))) T0 (obj1 "a" (int (2 ^ 63))).
Proof. wit. Qed.
Lemma usize_unsound : unsound false (one "a" (TPrim (PInt Usize))) T0 (obj1 "a" (int (2 ^ 70))).
Proof. wit. Qed.
Lemma isize_unsound : unsound false (one "a" (TPrim (PInt Isize))) T0 (obj1 "a" (int (- 2 ^ 70))).
Proof. wit. Qed.
Lemma f64_unsound : unsound false (one "a" (TPrim PF64)) T0 (obj1 "a" (JsNum NPosInf)).
Proof. wit. Qed.
(** A lone surrogate. *)
Lemma string_unsound : unsound false (one "a" (TPrim PString)) T0 (obj1 "a" (JsStr [55296%N])).
Proof. wit. Qed.
Lemma set_unsound : unsound false (one "a" (TSet Hash (TPrim PString))) T0 (obj1 "a" (JsSet [JsStr (js "x")])).
Proof. wit. Qed.
Lemma array_unsound : unsound false (one "a" (TArr 3 (TPrim PString))) T0 (obj1 "a" (JsArr [])).
Proof. wit. Qed.
Lemma phantom_unsound : unsound false (one "a" (TWrap WPhantom (TPrim PString))) T0 (obj1 "a" (JsStr [])).
Proof. wit. Qed.
(** [struct T(u8, #[serde(default)] u8)] *)
Lemma tuple_default_unsound :
  unsound false [strukt "Ns" "T" StTuple [fld "" (TPrim (PInt U8)); fld_default "" (TPrim (PInt U8))]] T0
    (JsArr [int 1; JsUndef]).
Proof. wit. Qed.
(** [struct T(#[serde(skip)] u8, u8)]: the schema is that of a newtype. *)
Lemma tuple_skip_unsound :
  unsound false [strukt "Ns" "T" StTuple [fld_skip "" (TPrim (PInt U8)); fld "" (TPrim (PInt U8))]] T0 (int 1).
Proof. wit. Qed.
(** [struct N(Option<u8>)] in [struct T { n: N }]: the field may be left out for zod only. *)
Lemma newtype_option_unsound :
  unsound false [strukt "Ns" "T" StNamed [fld "n" (TNamed 1)]; strukt "Ns" "N" StTuple [fld "" (TOpt (TPrim (PInt U8)))]] T0
    (JsObj []).
Proof. wit. Qed.
(** [enum T { A() }] *)
Lemma empty_tuple_unsound : unsound false [enum "Ns" "T" External [var "A" StTuple []]] T0 (JsStr (js "A")).
Proof. wit. Qed.
(** [enum T { A(Option<u8>) }] *)
Lemma variant_option_unsound :
  unsound false [enum "Ns" "T" External [var "A" StTuple [fld "" (TOpt (TPrim (PInt U8)))]]] T0 (JsObj []).
Proof. wit. Qed.
Lemma result_option_unsound : unsound false (one "a" (TRes (TOpt (TPrim (PInt U8))) (TPrim PString))) T0
  (obj1 "a" (JsObj [])).
Proof. wit. Qed.

(** A map is sent without its entries. *)
Lemma map_loses_entries : exists s z o,
  returns [] Schema (TMap Hash (TPrim PString) (TPrim (PInt U8))) s /\ load s = Val z /\
  accepts no_ip (fun _ _ => None) z (JsMap [(JsStr (js "x"), int 1)]) o /\
  stringify_elem o = JObj [].
Proof.
  eexists; eexists; eexists. split; [exists 10; reflexivity|]. split; [vm_compute; reflexivity|].
  split; [exists 10; vm_compute; reflexivity|]. vm_compute. reflexivity.
Qed.

(** [struct T(Vec<T>)]: more levels than serde_json reads. *)
Definition tree : env := [strukt "Ns" "T" StTuple [fld "" (TVec T0)]].
Definition deep (n : nat) : jsval := Nat.iter n (fun v => JsArr [v]) (JsArr []).
Lemma deep_unsound : sound false false (all tree) tree /\ sane false (deep 127) /\ unsound false tree T0 (deep 127).
Proof.
  split; [|split].
  - intros [|i] Hi; [|discriminate Hi]. good.
  - assert (H : forall n, sane false (deep n)); [|apply H]. induction n as [|n IH]; constructor; [constructor|].
    constructor; [exact IH|constructor].
  - split; [now good|]. split; [now good|]. split; [now comp|]. split; [now exp|].
    eexists; eexists; eexists. split; [exists 10; reflexivity|]. split; [vm_compute; reflexivity|].
    split; [exists 300; vm_compute; reflexivity|]. intros R [_ H]. vm_compute in H. lia.
Qed.

(** ** Outside the fragment of C04: extra keys *)
Definition pair_obj : jsval := JsObj [(js "A", int 1); (js "x", int 2)].
(** [enum T { A(u8) }] *)
Definition ext : env := [enum "Ns" "T" External [var "A" StTuple [fld "" (TPrim (PInt U8))]]].
Lemma external_raw_unsound : sound false false (all ext) ext /\ unsound true ext T0 pair_obj.
Proof.
  split; [|wit]. intros [|i] Hi; [|discriminate Hi]. split; [reflexivity|]. split; [good|].
  intros v [<-|[]]. good.
Qed.
Lemma result_raw_unsound : sound_ty false false (fun _ => false) (TRes (TPrim (PInt U8)) (TPrim PString)) = true /\
  unsound true (one "a" (TRes (TPrim (PInt U8)) (TPrim PString))) T0
    (obj1 "a" (JsObj [(js "Ok", int 1); (js "x", int 2)])).
Proof. split; [reflexivity|wit]. Qed.
(** [#[serde(tag = "t", content = "c")] enum T { A }] *)
Definition adj : env := [enum "Ns" "T" (Adjacent "t" "c") [var "A" StUnit []]].
Lemma adjacent_raw_unsound : sound false false (all adj) adj /\
  unsound true adj T0 (JsObj [(js "t", JsStr (js "A")); (js "c", int 1)]).
Proof.
  split; [|wit]. intros [|i] Hi; [|discriminate Hi]. split; [reflexivity|]. split; [good|].
  intros v [<-|[]]. good.
Qed.
(** [#[serde(deny_unknown_fields)] struct T { A: u8 }] *)
Definition denied : env :=
  [mkDecl "T" "Ns" "T" (BStruct StNamed false [fld "A" (TPrim (PInt U8))]) None false true false []].
Lemma deny_raw_unsound : sound false false (all denied) denied /\ unsound true denied T0 pair_obj.
Proof.
  split; [|wit]. intros [|i] Hi; [|discriminate Hi]. good.
Qed.

(** ** Inside the fragments *)
Definition u8 := TPrim (PInt U8).
Definition str := TPrim PString.
(** [struct User { id: u32, name: String, nick: Option<char>, friends: Vec<User>,
                   #[serde(default)] level: u8, last: Result<Event, (u8, String)> }]
    [enum Event { Quit, Move(u8, u8), Say { text: String }, By(Box<User>) }]
    [#[serde(tag = "kind")] enum Shape { Dot, Circle { r: u16 } }] *)
Definition social : env :=
  [strukt "Ns" "User" StNamed
     [fld "id" (TPrim (PInt U32)); fld "name" str; fld "nick" (TOpt (TPrim PChar)); fld "friends" (TVec (TNamed 0));
      fld_default "level" u8; fld "last" (TRes (TNamed 1) (TTuple [u8; str]))];
   enum "Ns" "Event" External
     [var "Quit" StUnit []; var "Move" StTuple [fld "" u8; fld "" u8]; var "Say" StNamed [fld "text" str];
      var "By" StTuple [fld "" (TWrap WBox (TNamed 0))]];
   enum "Ns" "Shape" (Internal "kind") [var "Dot" StUnit []; var "Circle" StNamed [fld "r" (TPrim (PInt U16))]]].
Definition user : jsval :=
  JsObj [(js "extra", JsFun); (js "name", JsStr (js "a")); (js "id", int 7); (js "friends", JsArr []);
         (js "last", JsObj [(js "extra", JsNull); (js "Ok", JsObj [(js "Move", JsArr [int 1; int 2])])])].

Ltac snd := repeat match goal with
  | |- exists _, _ => fail 1
  | |- NoDup _ => constructor
  | |- ~ _ => simpl; intuition discriminate
  | |- _ /\ _ => split
  | |- forall v : variant, _ => let v := fresh "v" in let H := fresh "H" in
      intros v H; repeat (destruct H as [<-|H]; [split; cbn|]); try contradiction
  | |- _ => reflexivity
  | |- _ <> _ => discriminate
  | |- _ => exact I
  end.

Lemma social_sound : sound false false (all social) social.
Proof. intros [|[|[|i]]] Hi; try discriminate Hi; unfold sound_decl, sound_struct; cbn; snd. Qed.
Lemma social_exports : exports social (all social) (the_module social).
Proof.
  intros [|[|[|i]]] Hi; try discriminate Hi;
  (eexists; eexists; split; [exists 10; reflexivity|]; split; [vm_compute; reflexivity|]; vm_compute; reflexivity).
Qed.

Example social_instance : exists s z o,
  good_names social /\ tags_ok social /\ sane false user /\
  returns social Schema T0 s /\ load s = Val z /\ accepts no_ip (the_module social) z user o /\
  stringify_elem o =
    JObj [(js "id", JInt 7); (js "name", JStr (js "a")); (js "friends", JArr []);
          (js "last", JObj [(js "Ok", JObj [(js "Move", JArr [JInt 1; JInt 2])])])].
Proof.
  eexists; eexists; eexists. split; [repeat constructor|]. split.
  { repeat constructor; try discriminate.
    intros v [<-|[<-|[]]]; cbn; [exact I|]. intros f [<-|[]]. discriminate. }
  split.
  { repeat (constructor; try discriminate; cbn; try reflexivity; try (intuition discriminate)). }
  split; [exists 10; reflexivity|]. split; [vm_compute; reflexivity|].
  split; [exists 20; vm_compute; reflexivity|]. vm_compute. reflexivity.
Qed.

(** [Shape] and what is sent as it is. *)
Definition only (k i : nat) : bool := Nat.eqb k i.
Lemma shape_sound_raw : sound true true (only 2) social.
Proof. intros [|[|[|i]]] Hi; try discriminate Hi; unfold sound_decl, sound_struct; cbn; snd. Qed.
Definition shape : jsval := JsObj [(js "kind", JsStr (js "Circle")); (js "x", JsMap []); (js "r", int 3)].
Example shape_instance : exists s z o,
  sane true shape /\ exports social (only 2) (the_module social) /\
  returns social Schema (TVec (TNamed 2)) s /\ load s = Val z /\
  accepts no_ip (the_module social) z (JsArr [shape]) o /\ o <> JsArr [shape].
Proof.
  eexists; eexists; eexists. split.
  { repeat (constructor; try discriminate; cbn; try reflexivity; try (intuition discriminate)). }
  split.
  { intros [|[|[|i]]] Hi; try discriminate Hi.
    eexists; eexists; split; [exists 10; reflexivity|]; split; [vm_compute; reflexivity|]; vm_compute; reflexivity. }
  split; [exists 10; reflexivity|]. split; [vm_compute; reflexivity|].
  split; [exists 20; vm_compute; reflexivity|]. discriminate.
Qed.
