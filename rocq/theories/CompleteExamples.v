(** Instances of the completeness and termination theorems and witnesses outside. *)
From Coq Require Import List String Bool NArith ZArith Lia.
From Verif Require Import RustTy Gen GenSpec GenExamples JsLex JsParse Js Zod Ast ZodSpec ZodExamples
  Serde SerdeSpec SerdeExamples ParseSpec ParseProofs ParseTerm CompleteSpec CompleteProofs.
Import ListNotations.
Local Open Scope string_scope.
Local Open Scope list_scope.

(** serde writes [j] for a value of type [t], but the schema of [t] rejects it. *)
Definition incomplete (E : env) (t : ty) (j : json) : Prop :=
  good_names E /\ tags_ok E /\ compiles E /\ exports E (all E) (the_module E) /\
  exists s z, returns E Schema t s /\ load s = Val z /\
    (forall R, serializes R E t j) /\ forall ip, rejects ip (the_module E) z (jsparse j).

Ltac writ := intros R; exists 10; vm_compute; reflexivity.
Ltac rejs := intros ip; exists 10; vm_compute; reflexivity.
Ltac inc := split; [now good|]; split; [now good|]; split; [now comp|]; split; [now exp|];
  eexists; eexists; split; [exists 10; reflexivity|]; split; [vm_compute; reflexivity|];
  split; [now writ|now rejs].

Definition jobj1 (k : string) (j : json) : json := JObj [(js k, j)].

Lemma none_incomplete : incomplete (one "a" (TOpt u8)) T0 (jobj1 "a" JNull).
Proof. inc. Qed.
Lemma weak_incomplete : incomplete (one "a" (TWrap WWeak u8)) T0 (jobj1 "a" JNull).
Proof. inc. Qed.
Lemma phantom_incomplete : incomplete (one "a" (TWrap WPhantom u8)) T0 (jobj1 "a" JNull).
Proof. inc. Qed.
Lemma nan_incomplete : incomplete (one "a" (TPrim PF64)) T0 (jobj1 "a" JNull).
Proof. inc. Qed.
(** U+1F600, two UTF-16 code units. *)
Lemma char_incomplete : incomplete (one "a" (TPrim PChar)) T0 (jobj1 "a" (JStr [55357%N; 56832%N])).
Proof. inc. Qed.
Lemma set_incomplete : incomplete (one "a" (TSet Hash str)) T0 (jobj1 "a" (JArr [JStr (js "x")])).
Proof. inc. Qed.
Lemma map_incomplete : incomplete (one "a" (TMap Hash str u8)) T0 (jobj1 "a" (JObj [])).
Proof. inc. Qed.
(** [struct T(#[serde(skip)] u8, u8)] *)
Lemma skip_incomplete : incomplete [strukt "Ns" "T" StTuple [fld_skip "" u8; fld "" u8]] T0 (JArr [JInt 1]).
Proof. inc. Qed.
(** [enum T { A() }] *)
Lemma empty_incomplete : incomplete [enum "Ns" "T" External [var "A" StTuple []]] T0 (jobj1 "A" (JArr [])).
Proof. inc. Qed.
(** [#[serde(skip_serializing)] a: u8] *)
Lemma skip_ser_incomplete :
  incomplete [strukt "Ns" "T" StNamed [mkField "a" u8 false false false "a" true]] T0 (JObj []).
Proof. inc. Qed.
(** [#[serde(rename(serialize = "b"))] a: u8] *)
Lemma rename_incomplete :
  incomplete [strukt "Ns" "T" StNamed [mkField "a" u8 false false false "b" false]] T0 (jobj1 "b" (JInt 1)).
Proof. inc. Qed.
(** [#[serde(tag = "t")] enum T { A(N) }] with [struct N { x: u8 }]: the schema wants the
    variant's name as a key. *)
Definition inner_tagged : env :=
  [enum "Ns" "T" (Internal "t") [var "A" StTuple [fld "" (TNamed 1)]]; strukt "Ns" "N" StNamed [fld "x" u8]].
Lemma internal_incomplete : incomplete inner_tagged T0 (JObj [(js "t", JStr (js "A")); (js "x", JInt 1)]).
Proof.
  split; [now good|]. split; [repeat constructor; try discriminate; intros v [<-|[]]; discriminate|].
  split; [now comp|]. split; [now exp|].
  eexists; eexists; split; [exists 10; reflexivity|]; split; [vm_compute; reflexivity|]. split; [now writ|now rejs].
Qed.

(** ** Inside *)
Ltac inb := let k := fresh in let H := fresh in intros k H; repeat (destruct H as [<-|H]; [reflexivity|]); destruct H.

Lemma social_closed : closed social (all social).
Proof.
  intros [|[|[|i]]] Hi; try discriminate Hi; cbn;
    (split; [solve [now intros []|intros [f [Hf Hx]]; repeat (destruct Hf as [<-|Hf]; [discriminate Hx|]); now destruct Hf]|]);
    intros t Ht; repeat (destruct Ht as [<-|Ht]; [inb|]); destruct Ht.
Qed.
Lemma social_grounded : forall i, all social i = true -> grounded social (TNamed i).
Proof. intros [|[|[|i]]] Hi; try discriminate Hi; constructor; intros t []. Qed.

Ltac cmp := repeat match goal with
  | |- complete_tuple _ _ _ => unfold complete_tuple; cbn
  | |- complete_named _ _ _ => unfold complete_named; cbn
  | |- NoDup _ => constructor
  | |- ~ _ => simpl; intuition discriminate
  | |- _ /\ _ => split
  | |- forall f : field, _ => let f := fresh "f" in let H := fresh "H" in
      intros f H; repeat (destruct H as [<-|H]; [cbn; auto|]); try contradiction
  | |- forall v : variant, _ => let v := fresh "v" in let H := fresh "H" in
      intros v H; repeat (destruct H as [<-|H]; [intros _; split; [reflexivity|split; [reflexivity|]]; cbn|]); try contradiction
  | |- _ => reflexivity
  | |- _ <> _ => discriminate
  | |- _ => exact I
  end.
Lemma social_complete : complete true (all social) social.
Proof.
  intros [|[|[|i]]] Hi; try discriminate Hi; unfold complete_decl, complete_struct, complete_named, complete_tuple; cbn; cmp.
Qed.
Lemma no_ips_agree : ips_agree (mkRust (fun _ _ => false) (fun _ _ => false) (fun _ _ => false) (fun _ _ => false)
  (fun _ _ => false) (fun _ _ => false)) no_ip.
Proof. repeat split; discriminate. Qed.
Definition sent_user : json :=
  JObj [(js "id", JInt 7); (js "name", JStr (js "a")); (js "nick", JStr (js "x")); (js "friends", JArr []);
        (js "level", JInt 2); (js "last", jobj1 "Ok" (jobj1 "Move" (JArr [JInt 1; JInt 2])))].
Example social_written R : exists s z,
  good_names social /\ tags_ok social /\ plain_json sent_user = true /\
  returns social Schema T0 s /\ load s = Val z /\ serializes R social T0 sent_user.
Proof.
  eexists; eexists. split; [repeat constructor|]. split.
  { repeat constructor; try discriminate.
    intros v [<-|[<-|[]]]; cbn; [exact I|]. intros f [<-|[]]. discriminate. }
  split; [reflexivity|]. split; [exists 10; reflexivity|]. split; [vm_compute; reflexivity|].
  exists 10. vm_compute. reflexivity.
Qed.

(** ** A schema that never answers
    [#[serde(untagged)] enum T { X(B), Y }] with [struct B(Box<T>)]. *)
Definition loop : env :=
  [enum "Ns" "T" Untagged [var "X" StTuple [fld "" (TNamed 1)]; var "Y" StUnit []];
   strukt "Ns" "B" StTuple [fld "" (TWrap WBox T0)]].
Lemma loop_closed : closed loop (all loop).
Proof.
  intros [|[|i]] Hi; try discriminate Hi; cbn;
    (split; [solve [now intros []|intros [f [Hf Hx]]; repeat (destruct Hf as [<-|Hf]; [discriminate Hx|]); now destruct Hf]|]);
    intros t Ht; repeat (destruct Ht as [<-|Ht]; [inb|]); destruct Ht.
Qed.
Lemma loop_never : exists s z,
  good_names loop /\ tags_ok loop /\ compiles loop /\ closed loop (all loop) /\ exports loop (all loop) (the_module loop) /\
  returns loop Schema T0 s /\ load s = Val z /\
  forall ip v, ~ answers ip (the_module loop) z v.
Proof.
  assert (Hg : good_names loop) by good. assert (Ht : tags_ok loop) by good.
  assert (He : exports loop (all loop) (the_module loop)) by exp.
  eexists; eexists. split; [exact Hg|]. split; [exact Ht|]. split; [now comp|]. split; [exact loop_closed|].
  split; [exact He|]. split; [exists 10; reflexivity|]. split; [vm_compute; reflexivity|].
  intros ip v Ha. apply ans_answers in Ha as [k Hk].
  assert (H : forall k, zparse ip (the_module loop) k (ZUnion [ZLazy "Ns" "B"; ZNull]) v = PFuel /\
                        zparse ip (the_module loop) k (ZLazy "Ns" "B") v = PFuel).
  { clear. assert (HB : the_module loop "Ns" "B" = Some (ZUnion [ZLazy "Ns" "B"; ZNull])) by (vm_compute; reflexivity).
    revert HB. generalize (the_module loop) as N. intros N HB.
    induction k as [|k [IH1 IH2]]; [repeat split|]. cbn [zparse map first_ok]. rewrite IH2, HB, IH1. repeat split. }
  specialize (H k) as [H _]. unfold okr in Hk. rewrite H in Hk. destruct Hk as [[o Ho]|Ho]; discriminate Ho.
Qed.
