(** Evaluation of the generated trees. *)
From Coq Require Import List String Ascii Bool NArith ZArith Lia.
From Verif Require Import RustTy Gen GenSpec JsLex JsParse Js Zod Ast AstProofs.
Import ListNotations.
Local Open Scope string_scope.
Local Open Scope list_scope.

Definition is_call (e : jsexp) : Prop := match e with ECall _ _ => True | _ => False end.

Lemma ebind_assoc {A B C} (x : ev A) (f : A -> ev B) (g : B -> ev C) :
  ebind (ebind x f) g = ebind x (fun a => ebind (f a) g).
Proof. now destruct x. Qed.

Lemma ebind_ext {A B} (x : ev A) (f g : A -> ev B) :
  (forall a, f a = g a) -> ebind x f = ebind x g.
Proof. intros H. destruct x; simpl; auto. Qed.

Lemma emap_cons {A B} (f : A -> ev B) x r :
  emap f (x :: r) = ebind (f x) (fun y => ebind (emap f r) (fun ys => Val (y :: ys))).
Proof. reflexivity. Qed.

Lemma emap_val {A B} (f : A -> ev B) l ys :
  emap f l = Val ys <-> Forall2 (fun x y => f x = Val y) l ys.
Proof.
  split.
  - revert ys; induction l as [|x l IH]; intros ys H.
    + injection H as <-. constructor.
    + rewrite emap_cons in H. destruct (f x) as [y| |] eqn:Hx; try discriminate.
      cbn [ebind] in H. destruct (emap f l) as [zs| |]; try discriminate.
      injection H as <-. constructor; auto.
  - induction 1 as [|x y l ys H _ IH]; [reflexivity|]. rewrite emap_cons, H, IH. reflexivity.
Qed.

Lemma emap_ext_in {A B} (f g : A -> ev B) l :
  (forall x, In x l -> f x = g x) -> emap f l = emap g l.
Proof.
  induction l as [|x l IH]; intros H; [reflexivity|]. rewrite !emap_cons.
  rewrite (H x) by now left. now rewrite IH by (intros y Hy; apply H; now right).
Qed.

Lemma zeval_call f args : zeval (ECall f args) = schema (eval_schema (ECall f args)).
Proof.
  unfold eval_schema. cbn [zeval]. destruct (zeval f) as [v| |]; try reflexivity.
  cbn [ebind]. destruct (emap zeval args) as [vs| |]; try reflexivity. cbn [ebind].
  destruct v; try reflexivity; unfold schema;
  [destruct (construct m vs)|destruct (zmethod z m vs)]; reflexivity.
Qed.

Lemma zeval_schema e : is_call e -> zeval e = schema (eval_schema e).
Proof. destruct e; try easy. intros _. apply zeval_call. Qed.

Lemma emap_schema es : Forall is_call es ->
  emap zeval es = ebind (emap eval_schema es) (fun zs => Val (map VSchema zs)).
Proof.
  induction 1 as [|e es He Hes IH]; [reflexivity|]. rewrite !emap_cons, IH, (zeval_schema e He).
  destruct (eval_schema e); try reflexivity. cbn [schema ebind].
  now destruct (emap eval_schema es).
Qed.

Lemma emap_schema_of zs : emap schema_of (map VSchema zs) = Val zs.
Proof. apply emap_val. induction zs; constructor; auto. Qed.

Lemma eval_zcall m args :
  eval_schema (zcall m args) = ebind (emap zeval args) (construct m).
Proof.
  unfold eval_schema, zcall, meth. cbn [zeval]. change (String.eqb "z" "z") with true. cbn [ebind].
  destruct (emap zeval args) as [vs| |]; try reflexivity. cbn [ebind].
  now destruct (construct m vs).
Qed.

Lemma eval_meth e m args : is_call e ->
  eval_schema (meth e m args)
  = ebind (eval_schema e) (fun z => ebind (emap zeval args) (zmethod z m)).
Proof.
  intros He. unfold eval_schema at 1, meth. cbn [zeval]. rewrite (zeval_schema e He).
  destruct (eval_schema e) as [z| |]; try reflexivity. cbn [schema ebind].
  destruct (emap zeval args) as [vs| |]; try reflexivity. cbn [ebind].
  now destruct (zmethod z m vs).
Qed.

Lemma eval_tup es : Forall is_call es ->
  eval_schema (tup_exp es) = ebind (emap eval_schema es) (fun zs => Val (ZTuple zs)).
Proof.
  intros H. unfold tup_exp. rewrite eval_zcall, emap_cons. cbn [zeval].
  rewrite emap_schema by exact H. destruct (emap eval_schema es) as [zs| |]; try reflexivity.
  cbn [ebind emap construct]. cbn -[emap schema_of]. now rewrite emap_schema_of.
Qed.

Lemma eval_union es : Forall is_call es ->
  eval_schema (union_exp es) = ebind (emap eval_schema es) (fun zs => Val (ZUnion zs)).
Proof.
  intros H. unfold union_exp. rewrite eval_zcall, emap_cons. cbn [zeval].
  rewrite emap_schema by exact H. destruct (emap eval_schema es) as [zs| |]; try reflexivity.
  cbn [ebind emap construct]. cbn -[emap schema_of]. now rewrite emap_schema_of.
Qed.

Lemma eval_disc tag es : Forall is_call es ->
  eval_schema (zcall "discriminatedUnion" [EStr tag; EArr es])
  = ebind (emap eval_schema es) (fun zs =>
    ebind (disc_opts tag [] zs) (fun opts => Val (ZDisc tag opts))).
Proof.
  intros H. rewrite eval_zcall, !emap_cons. cbn [zeval].
  rewrite emap_schema by exact H. destruct (emap eval_schema es) as [zs| |]; try reflexivity.
  cbn [ebind emap construct]. cbn -[emap schema_of disc_opts]. rewrite emap_schema_of. reflexivity.
Qed.

Definition eval_prop (p : string * jsexp) : ev (string * zod) :=
  ebind (eval_schema (snd p)) (fun z => Val (fst p, z)).

(** Entries of an object literal: a schema under an ordinary name. *)
Definition entry (p : string * jsexp) : Prop := is_call (snd p) /\ fst p <> "__proto__".

Lemma no_proto (ps : list (string * jsexp)) : Forall entry ps -> existsb (key_eqb "__proto__") ps = false.
Proof.
  induction 1 as [|p ps [_ H] _ IH]; [reflexivity|]. cbn [existsb]. rewrite IH, orb_false_r. unfold key_eqb.
  destruct (String.eqb_spec "__proto__" (fst p)); [congruence|reflexivity].
Qed.

Lemma eval_obj ps : Forall entry ps ->
  eval_schema (obj_exp ps) = ebind (emap eval_prop ps) (fun zs => Val (ZObject (shape zs))).
Proof.
  intros H. unfold obj_exp. rewrite eval_zcall, emap_cons. cbn [zeval]. rewrite no_proto by exact H.
  assert (He : emap (fun p => ebind (zeval (snd p)) (fun v => Val (fst p, v))) ps
    = ebind (emap eval_prop ps) (fun zs => Val (map (fun p => (fst p, VSchema (snd p))) zs))).
  { induction H as [|p ps [Hp _] Hps IH]; [reflexivity|]. rewrite !emap_cons, IH.
    unfold eval_prop at 2. rewrite (zeval_schema _ Hp).
    destruct (eval_schema (snd p)) as [z| |]; try reflexivity. cbn [schema ebind fst snd].
    now destruct (emap eval_prop ps). }
  rewrite He. destruct (emap eval_prop ps) as [zs| |]; try reflexivity.
  cbn [ebind emap construct]. cbn -[emap schema_of shape].
  assert (Hs : emap (fun p => ebind (schema_of (snd p)) (fun z => Val (fst p, z)))
    (map (fun p : string * zod => (fst p, VSchema (snd p))) zs) = Val zs).
  { apply emap_val. clear. induction zs as [|[k z] zs IH]; [constructor|].
    constructor; [reflexivity|exact IH]. }
  rewrite Hs. reflexivity.
Qed.

Lemma eval_lit s : eval_schema (lit_exp s) = Val (ZLit (js s)).
Proof. reflexivity. Qed.

Lemma eval_lazy d : eval_schema (lazy_exp d) = Val (ZLazy (d_ns d) (d_name d)).
Proof. reflexivity. Qed.

Lemma eval_opt b e : is_call e ->
  eval_schema (opt_exp b e)
  = ebind (eval_schema e) (fun z => Val (if b then ZOptional z else z)).
Proof.
  intros H. destruct b; cbn [opt_exp].
  - rewrite eval_meth by exact H. now destruct (eval_schema e).
  - now destruct (eval_schema e).
Qed.

Lemma eval_arr e : is_call e ->
  eval_schema (zcall "array" [e]) = ebind (eval_schema e) (fun z => Val (ZArray z)).
Proof.
  intros H. rewrite eval_zcall, emap_cons, (zeval_schema e H). now destruct (eval_schema e).
Qed.

Lemma eval_set e : is_call e ->
  eval_schema (zcall "set" [e]) = ebind (eval_schema e) (fun z => Val (ZSet z)).
Proof.
  intros H. rewrite eval_zcall, emap_cons, (zeval_schema e H). now destruct (eval_schema e).
Qed.

Lemma eval_map a b : is_call a -> is_call b ->
  eval_schema (zcall "map" [a; b])
  = ebind (eval_schema a) (fun k => ebind (eval_schema b) (fun v => Val (ZMap k v))).
Proof.
  intros Ha Hb. rewrite eval_zcall, !emap_cons, (zeval_schema a Ha), (zeval_schema b Hb).
  destruct (eval_schema a); try reflexivity. now destruct (eval_schema b).
Qed.

Lemma eval_extend e a : is_call e -> is_call a ->
  eval_schema (meth e "extend" [a])
  = ebind (eval_schema e) (fun z => ebind (eval_schema a) (fun x => zmethod z "extend" [VSchema x])).
Proof.
  intros He Ha. rewrite eval_meth by exact He. rewrite emap_cons, (zeval_schema a Ha).
  destruct (eval_schema e); try reflexivity. cbn [ebind]. now destruct (eval_schema a).
Qed.

(** ** Every generated tree is a call *)
Lemma all_some_spec {A} (l : list (option A)) xs :
  all_some l = Some xs <-> l = map Some xs.
Proof.
  split.
  - revert xs; induction l as [|[x|] l IH]; intros xs H; cbn in H; try discriminate.
    + now injection H as <-.
    + destruct (all_some l) as [ys|]; [|discriminate]. injection H as <-. cbn. now rewrite (IH ys).
  - intros ->. induction xs as [|x xs IH]; cbn; [reflexivity|]. now rewrite IH.
Qed.

Lemma all_some_map {A B} (f : A -> option B) l xs :
  all_some (map f l) = Some xs <-> Forall2 (fun x y => f x = Some y) l xs.
Proof.
  rewrite all_some_spec. split.
  - revert xs; induction l as [|x l IH]; intros [|y xs] H; cbn in H; try discriminate; constructor.
    + now injection H.
    + apply IH. now injection H.
  - induction 1 as [|x y l xs H _ IH]; cbn; [reflexivity|]. now rewrite H, IH.
Qed.

Lemma call_opt b e : is_call e -> is_call (opt_exp b e).
Proof. destruct b; [easy|auto]. Qed.

Lemma call_field rec t b e : (forall q t e, sq q -> rec q t = Some e -> is_call e) ->
  field_exp rec t b = Some e -> is_call e.
Proof.
  intros H He. unfold field_exp in He. destruct (rec InlineSchema t) as [x|] eqn:Hx; [|discriminate].
  injection He as <-. apply call_opt. eapply H; [now right|exact Hx].
Qed.

Lemma agen_call E : forall n q t e, sq q -> agen E n q t = Some e -> is_call e.
Proof.
  induction n as [|n IH]; intros q t e Hq He; [discriminate|].
  assert (Hf : forall t b e, field_exp (agen E n) t b = Some e -> is_call e).
  { intros t' b e' H. eapply call_field; [|exact H]. exact IH. }
  assert (Hs : sq Schema) by now left. assert (Hi : sq InlineSchema) by now right.
  cbn [agen] in He.
  assert (Hb : (forall i, t <> TNamed i) ->
     match q with Schema => builtin_exp (agen E n) t | _ => agen E n Schema t end = Some e -> is_call e).
  { intros Hn H. destruct Hq as [-> | ->]; [|now apply IH in H].
    destruct t as [p|ts|w t|t|k t|[] t|[] k v|t|t x|i]; cbn [builtin_exp] in H; try (now apply IH in H).
    - injection H as <-. destruct p as [|[]| | | | | | | |]; exact I.
    - destruct (all_some _); [|discriminate]. now injection H as <-.
    - destruct (agen E n _ _); [|discriminate]. now injection H as <-.
    - destruct (agen E n _ _); [|discriminate]. now injection H as <-.
    - destruct (agen E n _ k); [|discriminate]. cbn in H. destruct (agen E n _ v); [|discriminate].
      now injection H as <-.
    - destruct (agen E n _ _); [|discriminate]. now injection H as <-.
    - destruct (agen E n _ t); [|discriminate]. cbn in H. destruct (agen E n _ x); [|discriminate].
      now injection H as <-.
    - discriminate. }
  destruct t; try (apply Hb; [intros j Hj; discriminate|exact He]). clear Hb.
  destruct (derive (lookup E i)) as [im| | |]; try discriminate.
  assert (HE : decl_exp (agen E n) (lookup E i) = Some e -> is_call e).
  { clear He. unfold decl_exp. destruct (d_from (lookup E i)) as [t|], (d_body (lookup E i)) as [st tr fs|tg vs];
      try (intros H; now apply IH in H).
    - unfold struct_exp. destruct tr.
      + destruct (filter _ _); [discriminate|]. apply Hf.
      + destruct st; try discriminate.
        * destruct (all_some (map (sprop (agen E n)) _)) as [ps|]; [|discriminate]. cbn [bind].
          destruct (all_some (map (sval (agen E n)) _)) as [es|]; [|discriminate]. intros H.
          injection H as <-. assert (Hc : is_call (obj_exp ps)) by exact I. revert Hc.
          generalize (obj_exp ps). induction es as [|x es IHes]; intros o Ho; [exact Ho|].
          cbn [fold_left]. now apply IHes.
        * destruct (filter _ _) as [|f [|f2 r]]; [discriminate|apply Hf|].
          destruct (all_some _); [|discriminate]. now intros [= <-].
    - assert (Hv : forall v e, variant_exp (agen E n) tg v = Some e -> is_call e).
      { intros v e' H. unfold variant_exp in H. destruct (v_style v).
        - unfold named_exp in H. destruct (variant_fields _); [discriminate|].
          destruct (all_some _); [|discriminate]. injection H as <-. destruct tg; exact I.
        - unfold tuple_exp in H. destruct (variant_fields (v_fields v)) as [|f [|f2 r]].
          + injection H as <-. destruct tg; exact I.
          + destruct (field_exp _ _ _) as [x|] eqn:Hx; [|discriminate]. injection H as <-.
            destruct tg; try exact I. eapply Hf; exact Hx.
          + destruct (all_some _); [|discriminate]. injection H as <-. destruct tg; exact I.
        - injection H as <-. destruct tg; exact I. }
      unfold enum_exp. destruct (filter _ vs) as [|v [|v2 r]]; [discriminate|apply Hv|].
      destruct (all_some _); [|discriminate]. intros [= <-]. destruct tg; exact I. }
  destruct Hq as [-> | ->]; [now apply HE|].
  unfold decl_ref in He. destruct (d_from (lookup E i)) as [t|], (d_body (lookup E i)) as [st tr fs|tg vs];
    try (now apply IH in He); injection He as <-; exact I.
Qed.
