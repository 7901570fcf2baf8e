(** Concrete declarations meeting the hypotheses of the generator theorems, and tests of
    the model against texts of the repository's own tests. *)
From Coq Require Import List String Bool.
From Verif Require Import RustTy Gen GenSpec GenProofs GenLemmas.
Import ListNotations.
Local Open Scope string_scope.

(** ** Texts (derive/tests and core/src/build_ins.rs tests) *)
Example option_text : gen [] 5 Schema (TOpt (TPrim PString)) = Some "z.string().optional()".
Proof. reflexivity. Qed.

Example result_text :
  gen [] 5 Schema (TRes (TPrim PString) (TPrim (PInt Usize)))
  = Some "z.union([z.object({ Ok: z.string() }), z.object({ Err: z.number().finite().int().nonnegative() })])".
Proof. reflexivity. Qed.

Example result_type_text :
  gen [] 5 TypeDef (TRes (TPrim PString) (TPrim (PInt Usize)))
  = Some "{ Ok: string } | { Err: number }".
Proof. reflexivity. Qed.

Definition shop : env :=
  [ strukt "Shop" "Item" StNamed
      [fld "name" (TPrim PString); fld_default "tags" (TVec (TPrim PString))];
    enum "Shop" "Event" (Adjacent "type" "content")
      [var "Add" StTuple [fld "" (TNamed 0)]; var "Clear" StUnit [];
       var "Move" StNamed [fld "from" (TPrim (PInt U8)); fld "to" (TPrim (PInt U8))]] ].

Example item_schema :
  gen shop 5 Schema (TNamed 0) = Some
"z.object({name: z.string(),
tags: z.array(z.string()).optional()})".
Proof. reflexivity. Qed.

Example item_type :
  gen shop 5 TypeDef (TNamed 0) = Some
"{name: string,
tags?: Array<string> | undefined}".
Proof. reflexivity. Qed.

Example event_schema :
  gen shop 5 Schema (TNamed 1) = Some
"z.discriminatedUnion(""type"", [z.object({ type: z.literal(""Add""), content: z.lazy(() => Shop.Item) }), z.object({ type: z.literal(""Clear"") }), z.object({ type: z.literal(""Move""), content: z.object({ from: z.number().finite().int().nonnegative().lte(255), to: z.number().finite().int().nonnegative().lte(255) }) })])".
Proof. reflexivity. Qed.

Example event_type :
  gen shop 5 TypeDef (TNamed 1) = Some
"{ type: ""Add"", content: Shop.Item } | { type: ""Clear"" } | { type: ""Move"", content: { from: number, to: number } }".
Proof. reflexivity. Qed.

(** ** Termination *)
Definition rec_env (t : ty) : env := [strukt "Ns" "Node" StNamed [fld "next" t]].

Lemma rec_compiles t : compiles (rec_env t).
Proof. intros [|[|i]]; eexists; reflexivity. Qed.

(** [struct Node { next: Vec<Node> }]: the schema is fine, the type overflows. *)
Example vec_schema :
  gen (rec_env (TVec (TNamed 0))) 5 Schema (TNamed 0)
  = Some "z.object({next: z.array(z.lazy(() => Ns.Node))})".
Proof. reflexivity. Qed.

Example vec_type_overflows : overflows (rec_env (TVec (TNamed 0))) TypeDef (TNamed 0).
Proof.
  apply (self_containing_overflows _ 0 (fld "next" (TVec (TNamed 0)))).
  - apply rec_compiles.
  - reflexivity.
  - now left.
  - apply k_vec, k_here.
Qed.

(** [struct Node { next: Option<Box<Node>> }]: neither returns. *)
Example option_box_overflows :
  overflows (rec_env (TOpt (TWrap WBox (TNamed 0)))) TypeDef (TNamed 0) /\
  overflows (rec_env (TOpt (TWrap WBox (TNamed 0)))) Schema (TNamed 0).
Proof.
  split.
  - apply (self_containing_overflows _ 0 (fld "next" (TOpt (TWrap WBox (TNamed 0))))).
    + apply rec_compiles.
    + reflexivity.
    + now left.
    + apply k_opt, k_below, k_wrap, k_here.
  - apply overflows_iff. rewrite schema_returns_iff by apply rec_compiles. intros H. apply H.
    exists (Full (TNamed 0)). split; [apply Relation_Operators.rt_refl|].
    eapply Relation_Operators.t_trans;
      [apply Relation_Operators.t_step, (sn_field _ 0 (fld "next" (TOpt (TWrap WBox (TNamed 0))))); [reflexivity|now left]|].
    eapply Relation_Operators.t_trans;
      [apply Relation_Operators.t_step, sn_mention; intros [j Hj]; discriminate|].
    eapply Relation_Operators.t_trans; [apply Relation_Operators.t_step, sn_opt|].
    eapply Relation_Operators.t_trans;
      [apply Relation_Operators.t_step, sn_mention; intros [j Hj]; discriminate|].
    apply Relation_Operators.t_step, sn_wrap.
Qed.

(** A program to which [lazy_program_returns] applies. *)
Example shop_lazy : compiles shop /\ all_lazy shop.
Proof.
  split.
  - intros [|[|[|i]]]; eexists; reflexivity.
  - intros [|[|[|i]]]; (split; [reflexivity|]); simpl; intros f Hf;
    repeat (destruct Hf as [<-|Hf]; [reflexivity|]); destruct Hf.
Qed.

(** A cyclic pair through a tuple. *)
Definition pair_env : env :=
  [ strukt "Ns" "A" StNamed [fld "b" (TTuple [TNamed 1; TPrim PString])];
    strukt "Ns" "B" StNamed [fld "a" (TWrap WRc (TNamed 0))] ].
Example pair_overflows : overflows pair_env Schema (TNamed 0).
Proof.
  assert (HE : compiles pair_env) by (intros [|[|[|i]]]; eexists; reflexivity).
  destruct (schema_dichotomy pair_env (TNamed 0) HE) as [[[s Hs] _]|[H _]]; auto.
  vm_compute in Hs. discriminate.
Qed.

(** ** Skipping *)
Definition skipper : decl :=
  strukt "Ns" "S" StTuple
    [fld_skip "" (TPrim PBool); fld "" (TPrim PString); fld_default "" (TPrim (PInt U8))].
Example skipper_strip :
  strip skipper <> skipper /\
  derive (strip skipper) = derive skipper /\ exists im, derive skipper = Done im.
Proof.
  split; [discriminate|]. split; [apply derive_strip|]. eexists; reflexivity.
Qed.

(** ** Default order *)
Definition misordered : decl :=
  strukt "Ns" "M" StTuple
    [fld "" (TPrim PString); fld_default "" (TPrim (PInt U8)); fld "" (TPrim PString)].
Example misordered_aborts :
  derive misordered = Abort "zod: non-default field follows default field".
Proof. reflexivity. Qed.
Example ordered_ok :
  derive (strukt "Ns" "M" StTuple
            [fld "" (TPrim PString); fld "" (TPrim PString); fld_default "" (TPrim (PInt U8))])
  <> Abort "zod: non-default field follows default field".
Proof. discriminate. Qed.

(** ** Acceptance: each rejected shape *)
Example empty_enum_aborts : derive (enum "Ns" "E" External []) = Abort empty_enum_msg.
Proof. reflexivity. Qed.
Example all_skipped_panics :
  exists m, derive (strukt "Ns" "S" StTuple [fld_skip "" (TPrim PBool)]) = Panic m.
Proof. eexists; reflexivity. Qed.
Example empty_struct_variant_panics :
  exists m, derive (enum "Ns" "E" External
                      [var "A" StUnit []; var "B" StNamed [fld_skip "x" (TPrim PBool)]]) = Panic m.
Proof. eexists; reflexivity. Qed.
Example unit_struct_rejected : exists m, derive (strukt "Ns" "U" StUnit []) = Reject m.
Proof. eexists; reflexivity. Qed.
Example shop_acceptable : acceptable (lookup shop 1).
Proof.
  simpl. split.
  - eexists; split; [now left|reflexivity].
  - intros v [<-|[<-|[<-|[]]]] _ Hs; try discriminate. eexists; split; [now left|reflexivity].
Qed.

(** ** Wrappers *)
Definition wrapped : ty :=
  TMap BTree (TWrap WArc (TPrim PString)) (TArr 3 (TWrap WRc (TWrap WBox (TNamed 0)))).
Example unwrap_wrapped :
  unwrap wrapped = TMap Hash (TPrim PString) (TVec (TWrap WBox (TNamed 0))) /\
  gen shop 20 Schema wrapped = gen shop 20 Schema (unwrap wrapped) /\
  exists s, gen shop 20 Schema wrapped = Some s.
Proof. repeat split. eexists; vm_compute; reflexivity. Qed.
