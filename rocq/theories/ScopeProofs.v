(** Names in the generated module resolve. *)
From Coq Require Import List String Ascii Bool NArith Sorted Lia.
From Verif Require Import RustTy Gen GenSpec GenProofs JsLex JsParse Ast AstProofs TsType TsAst TsAstProofs JsModule Zod ZodSpec ZodProofs ZodLemmas ZodLoad
  Docs DocsSpec Registry RegistrySpec RegistryProofs Js Serde SerdeSpec SerdeProofs ParseSpec TsSpec TsMember ModuleSpec ModuleProofs ScopeSpec.
Import ListNotations.
Local Open Scope string_scope.
Local Open Scope list_scope.

Lemma all_fine {A B} (P : B -> Prop) (f : A -> option B) l xs : all_some (map f l) = Some xs ->
  (forall a x, In a l -> f a = Some x -> P x) -> Forall P xs.
Proof.
  intros H HP. apply all_some_map in H. revert HP. induction H as [|a x l xs Ha _ IH]; intros HP; constructor.
  - now apply (HP a x (or_introl eq_refl)).
  - apply IH. intros b y Hb. apply HP. now right.
Qed.

(** ** Schemas *)
Section uses.
Variables (E : env) (inside : nat -> bool).
Hypothesis (HS : spans E inside).

Definition okuse (u : string * option string) : Prop :=
  (exists p, u = ("z", Some p)) \/ exists i, inside i = true /\ u = (d_ns (lookup E i), Some (d_name (lookup E i))).
Definition fine (e : jsexp) : Prop := (forall s, e <> EId s) /\ forall u, In u (uses e) -> okuse u.

Lemma uses_member e m : (forall s, e <> EId s) -> uses (EMember e m) = uses e.
Proof. intros H. destruct e; try reflexivity. now destruct (H s). Qed.
Lemma in_flat {A} (f : A -> list (string * option string)) l : Forall (fun a => forall u, In u (f a) -> okuse u) l ->
  forall u, In u (flat_map f l) -> okuse u.
Proof. intros H u Hu. apply in_flat_map in Hu as (a & Ha & Hu). rewrite Forall_forall in H. eauto. Qed.
Lemma fine_args es : Forall fine es -> forall u, In u (flat_map uses es) -> okuse u.
Proof. intros H. apply in_flat. eapply Forall_impl; [|exact H]. intros e [_ He]. exact He. Qed.
Lemma fine_meth e m es : fine e -> Forall fine es -> fine (meth e m es).
Proof.
  intros [Hn He] Hes. split; [discriminate|]. intros u Hu. unfold meth in Hu. cbn [uses] in Hu.
  change (match e with EId s => [(s, Some m)] | _ => uses e end) with (uses (EMember e m)) in Hu.
  rewrite uses_member in Hu by exact Hn. apply in_app_or in Hu as [Hu|Hu]; [auto|]. eapply fine_args; eassumption.
Qed.
Lemma fine_z m es : Forall fine es -> fine (zcall m es).
Proof.
  intros Hes. split; [discriminate|]. intros u [<-|Hu]; [left; eauto|]. eapply fine_args; eassumption.
Qed.
Lemma fine_arr es : Forall fine es -> fine (EArr es).
Proof. intros H. split; [discriminate|]. cbn. now apply fine_args. Qed.
Lemma fine_obj ps : Forall (fun p : string * jsexp => fine (snd p)) ps -> fine (EObj ps).
Proof.
  intros H. split; [discriminate|]. cbn. apply in_flat. eapply Forall_impl; [|exact H]. intros p [_ Hp]. exact Hp.
Qed.
Lemma fine_leaf e : uses e = [] -> (forall s, e <> EId s) -> fine e.
Proof. intros H Hn. split; [exact Hn|]. now rewrite H. Qed.
Ltac leaf := apply fine_leaf; [reflexivity|discriminate].
Lemma fine_str s : fine (EStr s). Proof. leaf. Qed.
Lemma fine_num n : fine (ENum n). Proof. leaf. Qed.
Lemma fine_neg n : fine (ENeg n). Proof. leaf. Qed.
Hint Resolve fine_meth fine_z fine_arr fine_obj fine_str fine_num fine_neg : fine.
Hint Constructors Forall : fine.
Lemma fine_object ps : Forall (fun p : string * jsexp => fine (snd p)) ps -> fine (obj_exp ps).
Proof. unfold obj_exp. auto with fine. Qed.
Lemma fine_tuple es : Forall fine es -> fine (tup_exp es).
Proof. unfold tup_exp. auto with fine. Qed.
Lemma fine_union es : Forall fine es -> fine (union_exp es).
Proof. unfold union_exp. auto with fine. Qed.
Lemma fine_lit s : fine (lit_exp s).
Proof. unfold lit_exp. auto with fine. Qed.
Lemma fine_opt b e : fine e -> fine (opt_exp b e).
Proof. unfold opt_exp. destruct b; auto with fine. Qed.
Lemma fine_prim p : fine (prim_exp p).
Proof.
  destruct p; cbn; try (destruct k; cbn; unfold unsigned, signed, num0);
    repeat first [apply fine_z|apply fine_meth|apply fine_obj|apply fine_str|apply fine_num|apply fine_neg|apply Forall_cons|apply Forall_nil|progress cbn [snd]].
Qed.
Lemma fine_lazy i : inside i = true -> fine (lazy_exp (lookup E i)).
Proof.
  intros Hi. apply fine_z. constructor; [|constructor]. split; [discriminate|]. intros u [<-|[]]. right. eauto.
Qed.
Hint Resolve fine_object fine_tuple fine_union fine_lit fine_opt fine_prim fine_lazy : fine.

Lemma fine_pair k e ps : fine e -> Forall (fun p : string * jsexp => fine (snd p)) ps ->
  Forall (fun p : string * jsexp => fine (snd p)) ((k, e) :: ps).
Proof. intros. now constructor. Qed.
Hint Resolve fine_pair : fine.

Section step.
Variable rec : query -> ty -> option jsexp.
Hypothesis (IH : forall q t e, within inside t -> rec q t = Some e -> fine e).

Lemma fine_field t b e : within inside t -> field_exp rec t b = Some e -> fine e.
Proof.
  unfold field_exp. intros Hw H. destruct (rec InlineSchema t) as [x|] eqn:Hx; [|discriminate]. injection H as <-.
  apply fine_opt. eauto.
Qed.
Lemma fine_prop k t b p : within inside t -> prop_exp rec k t b = Some p -> fine (snd p).
Proof.
  unfold prop_exp. intros Hw H. destruct (field_exp rec t b) as [x|] eqn:Hx; [|discriminate]. injection H as <-. eapply fine_field; eassumption.
Qed.

Lemma fine_builtin t e : within inside t -> builtin_exp rec t = Some e -> fine e.
Proof.
  intros Hw H. destruct t; cbn in H; try discriminate.
  - injection H as <-. auto with fine.
  - destruct (all_some _) as [es|] eqn:Hes; [|discriminate]. injection H as <-. apply fine_tuple.
    eapply all_fine; [exact Hes|]. intros a x Ha Hx. eapply IH; [|exact Hx]. intros i Hi. apply Hw. cbn. apply in_flat_map. eauto.
  - eapply IH; [|exact H]. exact Hw.
  - destruct (rec InlineSchema t) as [x|] eqn:Hx; [|discriminate]. injection H as <-. apply fine_z. constructor; [|constructor]. eapply IH; [|exact Hx]. exact Hw.
  - eapply IH; [|exact H]. exact Hw.
  - destruct c.
    + destruct (rec InlineSchema t) as [x|] eqn:Hx; [|discriminate]. injection H as <-. apply fine_z. constructor; [|constructor]. eapply IH; [|exact Hx]. exact Hw.
    + eapply IH; [|exact H]. exact Hw.
  - assert (H1 : within inside t1) by (intros i Hi; apply Hw; cbn; apply in_or_app; auto).
    assert (H2 : within inside t2) by (intros i Hi; apply Hw; cbn; apply in_or_app; auto).
    destruct c; [|eapply IH; [|exact H]; exact Hw].
    destruct (rec InlineSchema t1) as [x|] eqn:Hx; [|discriminate]. cbn in H. destruct (rec InlineSchema t2) as [y|] eqn:Hy; [|discriminate].
    injection H as <-. apply fine_z. repeat apply Forall_cons; eauto.
  - destruct (rec InlineSchema t) as [x|] eqn:Hx; [|discriminate]. injection H as <-. apply (fine_opt true). eapply IH; [|exact Hx]. exact Hw.
  - assert (H1 : within inside t1) by (intros i Hi; apply Hw; cbn; apply in_or_app; auto).
    assert (H2 : within inside t2) by (intros i Hi; apply Hw; cbn; apply in_or_app; auto).
    destruct (rec InlineSchema t1) as [x|] eqn:Hx; [|discriminate]. cbn in H. destruct (rec InlineSchema t2) as [y|] eqn:Hy; [|discriminate].
    injection H as <-. apply fine_union. repeat apply Forall_cons; try apply Forall_nil; apply fine_object; (apply Forall_cons; [|apply Forall_nil]); cbn [snd]; [exact (IH _ _ _ H1 Hx)|exact (IH _ _ _ H2 Hy)].
Qed.

Lemma fine_extend es : forall e, fine e -> Forall fine es -> fine (fold_left (fun o e => meth o "extend" [e]) es e).
Proof. induction es as [|x es IHe]; intros e He H; [exact He|]. inversion H; subst. cbn. apply IHe; auto with fine. Qed.

Lemma fine_struct st tr fs e : (forall f, In f fs -> within inside (s_ty f)) -> struct_exp rec st tr fs = Some e -> fine e.
Proof.
  intros Hw H. unfold struct_exp in H.
  assert (Hp : forall f, In f (filter (fun f => negb (s_flatten f)) fs) -> within inside (s_ty f)) by (intros f Hf; apply filter_In in Hf as [Hf _]; auto).
  assert (Hq : forall f, In f (filter s_flatten fs) -> within inside (s_ty f)) by (intros f Hf; apply filter_In in Hf as [Hf _]; auto).
  destruct tr.
  - destruct (filter (fun f => negb (s_flatten f)) fs) as [|f l]; [discriminate|]. unfold sval in H. eapply fine_field; [|exact H]. apply Hp. now left.
  - destruct st; [| |discriminate].
    + destruct (all_some (map (sprop rec) _)) as [ps|] eqn:Hps; [|discriminate]. cbn in H.
      destruct (all_some (map (sval rec) _)) as [es|] eqn:Hes; [|discriminate]. injection H as <-.
      apply fine_extend.
      * apply fine_object. eapply all_fine; [exact Hps|]. intros f x Hf Hx. unfold sprop in Hx. destruct (s_name f); [|discriminate].
        eapply fine_prop; [|exact Hx]. auto.
      * eapply all_fine; [exact Hes|]. intros f x Hf Hx. eapply fine_field; [|exact Hx]. auto.
    + destruct (filter (fun f => negb (s_flatten f)) fs) as [|f [|g l]]; [discriminate| |].
      * eapply fine_field; [|exact H]. apply Hp. now left.
      * destruct (all_some _) as [es|] eqn:Hes; [|discriminate]. injection H as <-. apply fine_tuple.
        eapply all_fine; [exact Hes|]. intros a x Ha Hx. eapply fine_field; [|exact Hx]. auto.
Qed.

Lemma fine_unit tg n : fine (unit_exp tg n).
Proof. destruct tg; cbn; auto 8 with fine. Qed.

Lemma fine_variant tg v e : (forall f, In f (kept (v_fields v)) -> within inside (f_ty f)) -> variant_exp rec tg v = Some e -> fine e.
Proof.
  intros Hw H. unfold variant_exp in H. change (variant_fields (v_fields v)) with (kept (v_fields v)) in H. revert Hw H.
  generalize (kept (v_fields v)) as fs. intros fs Hw H. destruct (v_style v).
  - unfold named_exp in H. destruct fs as [|f0 fs0]; [discriminate|]. remember (f0 :: fs0) as fs.
    destruct (all_some _) as [ps|] eqn:Hps; [|discriminate]. injection H as <-.
    assert (Hf : Forall (fun p : string * jsexp => fine (snd p)) ps).
    { eapply all_fine; [exact Hps|]. intros f x Hf Hx. eapply fine_prop; [|exact Hx]. auto. }
    destruct tg; auto 8 with fine.
  - unfold tuple_exp in H. destruct fs as [|f0 fs0]; [injection H as <-; apply fine_unit|]. remember (f0 :: fs0) as fs.
    match type of H with option_map _ ?X = _ => destruct X as [x|] eqn:Hx; [|discriminate] end. injection H as <-.
    assert (Hf : fine x).
    { subst fs. destruct fs0 as [|f1 fs1]; [eapply fine_field; [|exact Hx]; apply Hw; now left|]. remember (f0 :: f1 :: fs1) as fs.
      destruct (all_some _) as [es|] eqn:Hes; [|discriminate]. injection Hx as <-. apply fine_tuple.
      eapply all_fine; [exact Hes|]. intros a y Ha Hy. eapply fine_field; [|exact Hy]. auto. }
    destruct tg; auto 8 with fine.
  - injection H as <-. apply fine_unit.
Qed.

Lemma fine_enum tg vs e : (forall v f, In v vs -> In f (kept (v_fields v)) -> within inside (f_ty f)) -> enum_exp rec tg vs = Some e -> fine e.
Proof.
  intros Hw H. unfold enum_exp in H. destruct vs as [|v [|w vs]]; [discriminate| |].
  - eapply fine_variant; [|exact H]. intros f. apply Hw. now left.
  - remember (v :: w :: vs) as l. destruct (all_some _) as [es|] eqn:Hes; [|discriminate]. injection H as <-.
    assert (Hf : Forall fine es).
    { eapply all_fine; [exact Hes|]. intros a x Ha Hx. eapply fine_variant; [|exact Hx]. intros f. now apply Hw. }
    destruct tg; auto 8 with fine.
Qed.

Lemma fine_decl i e : inside i = true -> decl_exp rec (lookup E i) = Some e -> fine e.
Proof.
  intros Hi H. pose proof (HS i Hi) as Hp. unfold decl_exp in H. unfold parts in Hp.
  destruct (d_from (lookup E i)) as [t|]; [destruct (d_body (lookup E i)); (eapply IH; [|exact H]); apply Hp; now left|].
  destruct (d_body (lookup E i)) as [st tr fs|tg vs].
  - eapply fine_struct; [|exact H]. intros f Hf. unfold struct_fields in Hf. apply in_map_iff in Hf as (g & <- & Hg). cbn. apply Hp.
    apply in_map_iff. exists g. auto.
  - eapply fine_enum; [|exact H]. intros v f Hv Hf. apply Hp. apply in_flat_map. exists v. split; [exact Hv|]. now apply in_map.
Qed.
Lemma fine_ref i e : inside i = true -> decl_ref rec (lookup E i) = Some e -> fine e.
Proof.
  intros Hi H. pose proof (HS i Hi) as Hp. unfold decl_ref in H. unfold parts in Hp.
  destruct (d_from (lookup E i)) as [t|]; [|injection H as <-; auto with fine].
  destruct (d_body (lookup E i)); [injection H as <-; auto with fine|]. eapply IH; [|exact H]. apply Hp. now left.
Qed.
End step.

Lemma agen_fine n : forall q t e, within inside t -> agen E n q t = Some e -> fine e.
Proof.
  induction n as [|n IH]; intros q t e Hw H; [discriminate|]. cbn [agen] in H.
  destruct t; try (destruct q; [eapply fine_builtin; eassumption|eapply IH; eassumption|eapply IH; eassumption|eapply IH; eassumption]).
  destruct (derive (lookup E i)); try discriminate.
  assert (Hi : inside i = true) by (apply Hw; now left).
  destruct q; first [eapply fine_decl; eassumption|eapply fine_ref; eassumption].
Qed.

Lemma schema_uses q t e : good_names E -> sq q -> within inside t -> schema_tree E q t e -> forall u, In u (uses e) -> okuse u.
Proof.
  intros HE Hq Hw (s & [n Hn] & Hp). destruct (gen_agen E n q t s HE Hq Hn) as (e' & He & _ & _ & Hp').
  rewrite Hp' in Hp. injection Hp as <-. apply (agen_fine n q t e' Hw He).
Qed.
End uses.

(** ** Types *)
Section tuses.
Variables (E : env) (inside : nat -> bool).
Hypothesis (HS : spans E inside).

Definition oktuse (u : string * option string) : Prop :=
  (exists w, u = (w, None) /\ In w (keywords ++ ["Array"; "Set"; "Map"])) \/
  exists i, inside i = true /\ u = (d_ns (lookup E i), Some (d_name (lookup E i))).
Definition tfine (y : tsty) : Prop := forall u, In u (tuses y) -> oktuse u.

Lemma tflat {A} (f : A -> list (string * option string)) l : Forall (fun a => forall u, In u (f a) -> oktuse u) l ->
  forall u, In u (flat_map f l) -> oktuse u.
Proof. intros H u Hu. apply in_flat_map in Hu as (a & Ha & Hu). rewrite Forall_forall in H. eauto. Qed.
Lemma tfine_name w : In w (keywords ++ ["Array"; "Set"; "Map"]) -> tfine (YName w).
Proof. intros H u [<-|[]]. left. eauto. Qed.
Lemma tfine_app w ys : In w (keywords ++ ["Array"; "Set"; "Map"]) -> Forall tfine ys -> tfine (YApp w ys).
Proof. intros H Hy u [<-|Hu]; [left; eauto|]. revert u Hu. now apply tflat. Qed.
Lemma tfine_tup ys : Forall tfine ys -> tfine (YTup ys).
Proof. intros Hy. exact (tflat _ _ Hy). Qed.
Lemma tfine_obj ps : Forall (fun p : string * bool * tsty => tfine (snd p)) ps -> tfine (YObj ps).
Proof. intros Hy. exact (tflat (fun p : string * bool * tsty => tuses (snd p)) _ Hy). Qed.
Lemma tfine_two a b : tfine a -> tfine b -> tfine (YUnion a b) /\ tfine (YInter a b).
Proof. intros Ha Hb. split; intros u Hu; apply in_app_or in Hu as [Hu|Hu]; auto. Qed.
Lemma tfine_union a b : tfine (YUnion a b) <-> tfine a /\ tfine b.
Proof. split; [|intros [Ha Hb]; now apply tfine_two]. intros H. split; intros u Hu; apply H; apply in_or_app; auto. Qed.
Lemma tfine_inter a b : tfine (YInter a b) <-> tfine a /\ tfine b.
Proof. split; [|intros [Ha Hb]; now apply tfine_two]. intros H. split; intros u Hu; apply H; apply in_or_app; auto. Qed.
Lemma tfine_str s : tfine (YStr s).
Proof. intros u []. Qed.
Lemma tfine_paren y : tfine y -> tfine (YParen y).
Proof. intros H. exact H. Qed.

Lemma tfine_uni a b : tfine a -> tfine b -> tfine (uni a b).
Proof.
  intros Ha. induction b; intros Hb; try (apply tfine_two; assumption).
  apply tfine_union in Hb as [H1 H2]. cbn. apply tfine_union. auto.
Qed.
Lemma tfine_inter1 a b : tfine a -> tfine b -> tfine (inter1 a b).
Proof.
  intros Ha. induction b; intros Hb; try (apply tfine_two; assumption).
  - apply tfine_union in Hb as [H1 H2]. cbn. apply tfine_union. auto.
  - apply tfine_inter in Hb as [H1 H2]. cbn. apply tfine_inter. auto.
Qed.
Lemma tfine_and a b : tfine a -> tfine b -> tfine (inter a b).
Proof.
  intros Ha Hb. destruct a; try (apply tfine_inter1; assumption). apply tfine_union in Ha as [H1 H2]. cbn.
  apply tfine_uni; auto using tfine_inter1.
Qed.
Lemma tfine_undef : tfine undef.
Proof. apply tfine_name. cbn. auto 10. Qed.
Lemma tfine_opt b y : tfine y -> tfine (opt_ty b y).
Proof. destruct b; [|auto]. intros H. apply tfine_uni; [exact H|apply tfine_undef]. Qed.
Lemma tfine_flat b y : tfine y -> tfine (flat_ty b y).
Proof. destruct b; [|auto]. intros H. apply tfine_paren, tfine_uni; [exact H|apply tfine_undef]. Qed.
Lemma tfine_unis ys : forall y, tfine y -> Forall tfine ys -> tfine (unis y ys).
Proof. induction ys as [|x ys IHy]; intros y Hy H; [exact Hy|]. inversion H; subst. apply IHy; auto. now apply tfine_uni. Qed.
Lemma tfine_inters ys : forall y, tfine y -> Forall tfine ys -> tfine (fold_left inter ys y).
Proof. induction ys as [|x ys IHy]; intros y Hy H; [exact Hy|]. inversion H; subst. apply IHy; auto. now apply tfine_and. Qed.
Lemma tfine_prim p : tfine (YName (prim_type p)).
Proof. apply tfine_name. destruct p; cbn; auto 10. Qed.
Lemma tfine_pair k b y ps : tfine y -> Forall (fun p : string * bool * tsty => tfine (snd p)) ps ->
  Forall (fun p : string * bool * tsty => tfine (snd p)) ((k, b, y) :: ps).
Proof. intros. now constructor. Qed.
Lemma tfine_ref i : inside i = true -> tfine (YRef (d_ns (lookup E i)) (d_name (lookup E i))).
Proof. intros Hi u [<-|[]]. right. eauto. Qed.
Hint Resolve tfine_tup tfine_obj tfine_str tfine_paren tfine_uni tfine_opt tfine_flat tfine_unis tfine_prim tfine_pair tfine_ref : tfine.
Hint Constructors Forall : tfine.

Section step.
Variable rec : query -> ty -> option tsty.
Hypothesis (IH : forall q t y, within inside t -> rec q t = Some y -> tfine y).

Lemma tfine_field t b y : within inside t -> tfield rec t b = Some y -> tfine y.
Proof.
  unfold tfield. intros Hw H. destruct (rec Inline t) as [x|] eqn:Hx; [|discriminate]. injection H as <-. apply tfine_opt. eauto.
Qed.
Lemma tfine_prop k t b p : within inside t -> tprop rec k t b = Some p -> tfine (snd p).
Proof.
  unfold tprop. intros Hw H. destruct (tfield rec t b) as [x|] eqn:Hx; [|discriminate]. injection H as <-. eapply tfine_field; eassumption.
Qed.

Lemma tfine_builtin t y : within inside t -> builtin_ty rec t = Some y -> tfine y.
Proof.
  intros Hw H. destruct t; cbn in H; try discriminate.
  - injection H as <-. auto with tfine.
  - destruct (all_some _) as [es|] eqn:Hes; [|discriminate]. injection H as <-. apply tfine_tup.
    eapply all_fine; [exact Hes|]. intros a x Ha Hx. eapply IH; [|exact Hx]. intros i Hi. apply Hw. cbn. apply in_flat_map. eauto.
  - eapply IH; [|exact H]. exact Hw.
  - destruct (rec TypeDef t) as [x|] eqn:Hx; [|discriminate]. injection H as <-. apply tfine_app; [cbn; auto 12|]. constructor; [|constructor]. eapply IH; [|exact Hx]. exact Hw.
  - eapply IH; [|exact H]. exact Hw.
  - destruct c.
    + destruct (rec TypeDef t) as [x|] eqn:Hx; [|discriminate]. injection H as <-. apply tfine_app; [cbn; auto 12|]. constructor; [|constructor]. eapply IH; [|exact Hx]. exact Hw.
    + eapply IH; [|exact H]. exact Hw.
  - assert (H1 : within inside t1) by (intros i Hi; apply Hw; cbn; apply in_or_app; auto).
    assert (H2 : within inside t2) by (intros i Hi; apply Hw; cbn; apply in_or_app; auto).
    destruct c; [|eapply IH; [|exact H]; exact Hw].
    destruct (rec TypeDef t1) as [x|] eqn:Hx; [|discriminate]. cbn in H. destruct (rec TypeDef t2) as [z|] eqn:Hy; [|discriminate].
    injection H as <-. apply tfine_app; [cbn; auto 12|]. repeat apply Forall_cons; eauto.
  - destruct (rec TypeDef t) as [x|] eqn:Hx; [|discriminate]. injection H as <-. apply (tfine_flat true). eapply IH; [|exact Hx]. exact Hw.
  - assert (H1 : within inside t1) by (intros i Hi; apply Hw; cbn; apply in_or_app; auto).
    assert (H2 : within inside t2) by (intros i Hi; apply Hw; cbn; apply in_or_app; auto).
    destruct (rec TypeDef t1) as [x|] eqn:Hx; [|discriminate]. cbn in H. destruct (rec TypeDef t2) as [z|] eqn:Hy; [|discriminate].
    injection H as <-. apply tfine_union. split; apply tfine_obj; (apply tfine_pair; [|constructor]); [exact (IH _ _ _ H1 Hx)|exact (IH _ _ _ H2 Hy)].
Qed.

Lemma tfine_struct st tr fs y : (forall f, In f fs -> within inside (s_ty f)) -> struct_ty rec st tr fs = Some y -> tfine y.
Proof.
  intros Hw H. unfold struct_ty in H.
  assert (Hp : forall f, In f (filter (fun f => negb (s_flatten f)) fs) -> within inside (s_ty f)) by (intros f Hf; apply filter_In in Hf as [Hf _]; auto).
  assert (Hq : forall f, In f (filter s_flatten fs) -> within inside (s_ty f)) by (intros f Hf; apply filter_In in Hf as [Hf _]; auto).
  destruct tr.
  - destruct (filter (fun f => negb (s_flatten f)) fs) as [|f l]; [discriminate|]. eapply tfine_field; [|exact H]. apply Hp. now left.
  - destruct st; [| |discriminate].
    + destruct (all_some (map (stprop rec) _)) as [ps|] eqn:Hps; [|discriminate]. cbn in H.
      destruct (all_some (map (stflat rec) _)) as [es|] eqn:Hes; [|discriminate]. injection H as <-.
      apply tfine_inters.
      * apply tfine_obj. eapply all_fine; [exact Hps|]. intros f x Hf Hx. unfold stprop in Hx. destruct (s_name f); [|discriminate].
        eapply tfine_prop; [|exact Hx]. auto.
      * eapply all_fine; [exact Hes|]. intros f x Hf Hx. unfold stflat in Hx. destruct (rec Inline (s_ty f)) as [w|] eqn:Hr; [|discriminate].
        injection Hx as <-. apply tfine_flat. eapply IH; [|exact Hr]. auto.
    + destruct (filter (fun f => negb (s_flatten f)) fs) as [|f [|g l]]; [discriminate| |].
      * eapply tfine_field; [|exact H]. apply Hp. now left.
      * destruct (all_some _) as [es|] eqn:Hes; [|discriminate]. injection H as <-. apply tfine_tup.
        eapply all_fine; [exact Hes|]. intros a x Ha Hx. eapply tfine_field; [|exact Hx]. auto.
Qed.

Lemma tfine_unit tg n : tfine (unit_ty tg n).
Proof. destruct tg; cbn; auto 8 with tfine. apply tfine_name. cbn. auto 10. Qed.

Lemma tfine_variant tg v y : (forall f, In f (kept (v_fields v)) -> within inside (f_ty f)) -> variant_ty rec tg v = Some y -> tfine y.
Proof.
  intros Hw H. unfold variant_ty in H. change (variant_fields (v_fields v)) with (kept (v_fields v)) in H. revert Hw H.
  generalize (kept (v_fields v)) as fs. intros fs Hw H. destruct (v_style v).
  - unfold named_ty in H. destruct fs as [|f0 fs0]; [discriminate|]. remember (f0 :: fs0) as fs.
    destruct (all_some _) as [ps|] eqn:Hps; [|discriminate]. injection H as <-.
    assert (Hf : Forall (fun p : string * bool * tsty => tfine (snd p)) ps).
    { eapply all_fine; [exact Hps|]. intros f x Hf Hx. eapply tfine_prop; [|exact Hx]. auto. }
    destruct tg; auto 8 with tfine.
  - unfold tuple_ty in H. destruct fs as [|f0 fs0]; [injection H as <-; apply tfine_unit|]. remember (f0 :: fs0) as fs.
    match type of H with option_map _ ?X = _ => destruct X as [x|] eqn:Hx; [|discriminate] end. injection H as <-.
    assert (Hf : tfine x).
    { subst fs. destruct fs0 as [|f1 fs1]; [eapply tfine_field; [|exact Hx]; apply Hw; now left|]. remember (f0 :: f1 :: fs1) as fs.
      destruct (all_some _) as [es|] eqn:Hes; [|discriminate]. injection Hx as <-. apply tfine_tup.
      eapply all_fine; [exact Hes|]. intros a z Ha Hy. eapply tfine_field; [|exact Hy]. auto. }
    destruct tg; auto 8 with tfine.
  - injection H as <-. apply tfine_unit.
Qed.

Lemma tfine_enum tg vs y : (forall v f, In v vs -> In f (kept (v_fields v)) -> within inside (f_ty f)) -> enum_ty rec tg vs = Some y -> tfine y.
Proof.
  intros Hw H. unfold enum_ty in H. destruct (all_some _) as [es|] eqn:Hes; [|discriminate].
  assert (Hf : Forall tfine es).
  { eapply all_fine; [exact Hes|]. intros a x Ha Hx. eapply tfine_variant; [|exact Hx]. intros f. now apply Hw. }
  destruct es as [|x es]; [discriminate|]. injection H as <-. inversion Hf; subst. auto with tfine.
Qed.

Lemma tfine_decl i y : inside i = true -> decl_ty rec (lookup E i) = Some y -> tfine y.
Proof.
  intros Hi H. pose proof (HS i Hi) as Hp. unfold decl_ty in H. unfold parts in Hp.
  destruct (d_from (lookup E i)) as [t|]; [destruct (d_body (lookup E i)); (eapply IH; [|exact H]); apply Hp; now left|].
  destruct (d_body (lookup E i)) as [st tr fs|tg vs].
  - eapply tfine_struct; [|exact H]. intros f Hf. unfold struct_fields in Hf. apply in_map_iff in Hf as (g & <- & Hg). cbn. apply Hp.
    apply in_map_iff. exists g. auto.
  - eapply tfine_enum; [|exact H]. intros v f Hv Hf. apply Hp. apply in_flat_map. exists v. split; [exact Hv|]. now apply in_map.
Qed.
Lemma tfine_dname i y : inside i = true -> decl_name rec (lookup E i) = Some y -> tfine y.
Proof.
  intros Hi H. pose proof (HS i Hi) as Hp. unfold decl_name in H. unfold parts in Hp.
  destruct (d_from (lookup E i)) as [t|]; [|injection H as <-; auto with tfine].
  eapply IH; [|exact H]. apply Hp. now left.
Qed.
End step.

Lemma tgen_fine n : forall q t y, within inside t -> tgen E n q t = Some y -> tfine y.
Proof.
  induction n as [|n IH]; intros q t y Hw H; [discriminate|]. cbn [tgen] in H.
  destruct t; try (destruct q; [eapply IH; eassumption|eapply IH; eassumption|eapply tfine_builtin; eassumption|eapply IH; eassumption]).
  destruct (derive (lookup E i)); try discriminate.
  assert (Hi : inside i = true) by (apply Hw; now left).
  destruct q; first [eapply tfine_decl; eassumption|eapply tfine_dname; eassumption].
Qed.

Lemma type_uses q t y : good_names E -> type_names E -> tq q -> within inside t -> type_tree E q t y -> tfine y.
Proof.
  intros HE HT Hq Hw Hy. destruct (type_tree_tgen E q t y HE HT Hq Hy) as [n Hn]. now apply (tgen_fine n q t).
Qed.
End tuses.

(** ** The module *)
Lemma member_of_true x l : member_of x l = true <-> In x l.
Proof.
  unfold member_of. rewrite existsb_exists. split; [intros (y & Hy & He); apply String.eqb_eq in He; now subst|].
  intros H. exists x. split; [exact H|apply String.eqb_refl].
Qed.
Lemma member_of_false x l : ~ In x l -> member_of x l = false.
Proof. intros H. destruct (member_of x l) eqn:He; [|reflexivity]. now apply member_of_true in He. Qed.

Lemma before_irrefl s : ~ before s s.
Proof. induction s as [|c s IH]; intros H; inversion H; subst; [lia|auto]. Qed.
Lemma ascending_nodup l : ascending l -> NoDup l.
Proof.
  induction l as [|a l IH]; intros H; [constructor|]. apply StronglySorted_inv in H as [Hs Ha]. constructor; [|auto].
  intros Hi. rewrite Forall_forall in Ha. exact (before_irrefl a (Ha a Hi)).
Qed.

Lemma block_find m b : NoDup (map b_name m) -> In b m -> block m (b_name b) = Some b.
Proof.
  unfold block. induction m as [|c m IH]; cbn; [easy|]. intros Hn [->|Hi]; [now rewrite String.eqb_refl|].
  inversion Hn; subst. destruct (String.eqb (b_name c) (b_name b)) eqn:He; [|auto].
  apply String.eqb_eq in He. destruct H1. rewrite He. now apply in_map.
Qed.
Lemma block_none m n : ~ In n (map b_name m) -> block m n = None.
Proof.
  unfold block. induction m as [|c m IH]; cbn; [easy|]. intros H. destruct (String.eqb (b_name c) n) eqn:He; [|tauto].
  apply String.eqb_eq in He. tauto.
Qed.

Lemma Forall2_in {A B} (R : A -> B -> Prop) l r : Forall2 R l r -> forall b, In b r -> exists a, In a l /\ R a b.
Proof. intros H. induction H; intros c []; subst; [eauto using in_eq|]. destruct (IHForall2 c H1) as (a & Ha & Hr). eauto using in_cons. Qed.
Lemma Forall2_at {A B} (R : A -> B -> Prop) l r : Forall2 R l r -> forall a, In a l -> exists b, In b r /\ R a b.
Proof. intros H. induction H; intros c []; subst; [eauto using in_eq|]. destruct (IHForall2 c H1) as (b & Hb & Hr). eauto using in_cons. Qed.

Lemma nodup_left {A} (l r : list A) : NoDup (l ++ r) -> NoDup l.
Proof.
  induction l as [|a l IH]; cbn; intros H; [constructor|]. inversion H; subst. constructor; [|auto].
  intros Hi. apply H2. apply in_or_app. auto.
Qed.

Section module.
Variables (E : env) (o : options) (inv : inventory) (names : list string) (m : list nsblock).
Hypothesis (HM : spaces_of E o inv names m).

Lemma spaces_nodup : NoDup (map b_name m).
Proof.
  destruct HM as (L & Ha & _ & H). replace (map b_name m) with L; [exact (ascending_nodup L Ha)|].
  clear Ha HM. induction H as [|ns b L bs [Hb _] _ IH]; [reflexivity|]. cbn. now rewrite Hb, <- IH.
Qed.
Lemma spaces_in b : In b m -> In (b_name b) names /\ has_member E inv (b_name b) /\ space_of E o inv (b_name b) b.
Proof.
  destruct HM as (L & _ & HL & H). intros Hb. destruct (Forall2_in _ _ _ H b Hb) as (ns & Hns & Hs).
  destruct (proj1 (HL ns) Hns) as [H1 H2]. pose proof (proj1 Hs) as He. rewrite He. auto.
Qed.
Lemma spaces_at ns : In ns names -> has_member E inv ns -> exists b, In b m /\ b_name b = ns /\ block m ns = Some b /\ space_of E o inv ns b.
Proof.
  destruct HM as (L & _ & HL & H). intros H1 H2. destruct (Forall2_at _ _ _ H ns) as (b & Hb & Hs); [now apply HL|].
  exists b. pose proof (proj1 Hs) as He. repeat split; auto; [|now apply Hs]. rewrite <- He. apply block_find; [apply spaces_nodup|exact Hb].
Qed.
Lemma spaces_not ns : ~ In ns names -> block m ns = None.
Proof.
  intros H. apply block_none. intros Hi. apply in_map_iff in Hi as (b & <- & Hb). apply H. now apply spaces_in.
Qed.
Lemma block_sound ns b : block m ns = Some b -> In b m /\ b_name b = ns.
Proof. intros H. unfold block in H. apply find_some in H as [Hb He]. apply String.eqb_eq in He. auto. Qed.

(** What a namespace declares. *)
Lemma space_values ns b : space_of E o inv ns b ->
  values b = map (fun i => schema_name o (d_name (lookup E i))) (types_of E ns (i_types inv)) ++ map r_name (rpcs_of ns (i_rpcs inv)).
Proof.
  intros (_ & its & fs & Hi & Hf & Hb). unfold values. rewrite Hb, flat_map_app. f_equal.
  - clear -Hi. induction Hi as [|i is ids its Hi _ IH]; [reflexivity|]. cbn. rewrite flat_map_app, IH. destruct Hi; reflexivity.
  - clear -Hf. induction Hf as [|r f rs fs (_ & Hn & _) _ IH]; [reflexivity|]. cbn. now rewrite IH, Hn.
Qed.

(** The exported type names. *)
Lemma space_types ns b : space_of E o inv ns b ->
  forall x, In x (types b) -> exists i, In i (types_of E ns (i_types inv)) /\
    (x = alias_name o (d_name (lookup E i)) \/ x = interface_name o (d_name (lookup E i))).
Proof.
  intros (_ & its & fs & Hi & Hf & Hb) x Hx. unfold types in Hx. rewrite Hb, flat_map_app in Hx. apply in_app_or in Hx as [Hx|Hx].
  - clear -Hi Hx. induction Hi as [|i is ids its Hi _ IH]; [easy|]. cbn in Hx. rewrite flat_map_app in Hx. apply in_app_or in Hx as [Hx|Hx].
    + exists i. split; [now left|]. destruct Hi; destruct Hx as [<-|[]]; auto.
    + destruct (IH Hx) as (j & Hj & H). exists j. split; [now right|exact H].
  - exfalso. clear -Hx. induction fs; [easy|auto].
Qed.

Lemma const_in_app l l' n e : const_in l n = Some e -> const_in (l ++ l') n = Some e.
Proof. induction l as [|i l IH]; [discriminate|]. destruct i; cbn; auto. destruct (String.eqb n0 n); auto. Qed.
Lemma type_in_app l l' n e : type_in l n = Some e -> type_in (l ++ l') n = Some e.
Proof. induction l as [|i l IH]; [discriminate|]. destruct i; cbn; auto; destruct (String.eqb n0 n); auto. Qed.

Lemma plain_name : plain_schemas o -> forall n, schema_name o n = n.
Proof. intros [H1 H2] n. unfold schema_name. rewrite H1, H2. cbn. now rewrite append_nil. Qed.
Lemma plain_alias : plain_types o -> forall n, alias_name o n = n /\ interface_name o n = n.
Proof. intros (H1 & H2 & H3 & H4) n. unfold alias_name, interface_name. rewrite H1, H2, H3, H4. cbn. now rewrite append_nil. Qed.

Lemma space_const ns b i : plain_schemas o -> declared_once E inv names -> In ns names -> space_of E o inv ns b ->
  In i (types_of E ns (i_types inv)) -> exists e, const b (d_name (lookup E i)) = Some e /\ schema_tree E Schema (TNamed i) e.
Proof.
  intros Ho Hd Hns (_ & its & fs & Hi & _ & Hb) Hin. specialize (Hd ns Hns). apply nodup_left in Hd.
  unfold const. rewrite Hb. revert Hd Hin.
  assert (H : forall ids, Forall2 (type_items E o) ids its -> NoDup (map (fun i => d_name (lookup E i)) ids) -> In i ids ->
    exists e, const_in (List.concat its) (d_name (lookup E i)) = Some e /\ schema_tree E Schema (TNamed i) e).
  { clear Hi Hb. intros ids H. induction H as [|j is ids its Hj _ IH]; intros Hn Hin; [easy|]. cbn in Hn. inversion Hn as [|? ? Hnj Hn']; subst.
    destruct Hin as [->|Hin].
    - destruct Hj as [e y He _ _|e ps He _ _]; exists e; cbn; rewrite (plain_name Ho), String.eqb_refl; auto.
    - destruct (IH Hn' Hin) as (e & He & Hs). exists e. split; [|exact Hs].
      assert (Hx : String.eqb (d_name (lookup E j)) (d_name (lookup E i)) = false).
      { apply String.eqb_neq. intros Heq. apply Hnj. rewrite Heq. now apply (in_map (fun i => d_name (lookup E i))). }
      destruct Hj; cbn; rewrite (plain_name Ho), Hx; exact He. }
  intros Hd Hin. destruct (H _ Hi Hd Hin) as (e & He & Hs). exists e. split; [now apply const_in_app|exact Hs].
Qed.
Lemma space_type ns b i : plain_types o -> declared_once E inv names -> In ns names -> space_of E o inv ns b ->
  In i (types_of E ns (i_types inv)) -> exists y, type_at b (d_name (lookup E i)) = Some y /\ type_tree E TypeDef (TNamed i) y.
Proof.
  intros Ho Hd Hns (_ & its & fs & Hi & _ & Hb) Hin. specialize (Hd ns Hns). apply nodup_left in Hd.
  unfold type_at. rewrite Hb. revert Hd Hin.
  assert (H : forall ids, Forall2 (type_items E o) ids its -> NoDup (map (fun i => d_name (lookup E i)) ids) -> In i ids ->
    exists e, type_in (List.concat its) (d_name (lookup E i)) = Some e /\ type_tree E TypeDef (TNamed i) e).
  { clear Hi Hb. intros ids H. induction H as [|j is ids its Hj _ IH]; intros Hn Hin; [easy|]. cbn in Hn. inversion Hn as [|? ? Hnj Hn']; subst.
    destruct (plain_alias Ho (d_name (lookup E j))) as [Ha Hf].
    destruct Hin as [->|Hin].
    - destruct Hj as [e y _ Hy _|e ps _ Hy _]; [exists y|exists (YObj ps)]; cbn; [rewrite Ha|rewrite Hf]; rewrite String.eqb_refl; auto.
    - destruct (IH Hn' Hin) as (e & He & Hs). exists e. split; [|exact Hs].
      assert (Hx : String.eqb (d_name (lookup E j)) (d_name (lookup E i)) = false).
      { apply String.eqb_neq. intros Heq. apply Hnj. rewrite Heq. now apply (in_map (fun i => d_name (lookup E i))). }
      destruct Hj; cbn; [rewrite Ha|rewrite Hf]; rewrite Hx; exact He. }
  intros Hd Hin. destruct (H _ Hi Hd Hin) as (e & He & Hs). exists e. split; [now apply type_in_app|exact Hs].
Qed.

(** The code of a namespace. *)
Lemma space_code ns b ps e : space_of E o inv ns b -> In (ps, e) (code b) ->
  (exists i, In i (types_of E ns (i_types inv)) /\ ps = [] /\ schema_tree E Schema (TNamed i) e) \/
  (exists r f es, In r (rpcs_of ns (i_rpcs inv)) /\ rpc_func E r f /\ ps = map fst (r_args r) /\ ps = map fst (fn_params f) /\
     Forall2 (fun a e => schema_tree E InlineSchema (snd a) e) (r_args r) es /\
     ((exists a, In a (r_args r) /\ e = EId (fst a)) \/ e = validation es \/
      e = transmission (transport (r_kind r)) (r_ns r) (r_name r))).
Proof.
  intros (_ & its & fs & Hi & Hf & Hb) Hin. unfold code in Hin. rewrite Hb, flat_map_app in Hin. apply in_app_or in Hin as [Hin|Hin].
  - left. clear -Hi Hin. induction Hi as [|i is ids its Hi _ IH]; [easy|]. cbn in Hin. rewrite flat_map_app in Hin. apply in_app_or in Hin as [Hx|Hx].
    + exists i. split; [now left|]. destruct Hi; destruct Hx as [Hx|[]]; injection Hx as <- <-; auto.
    + destruct (IH Hx) as (j & Hj & H). exists j. split; [now right|exact H].
  - right. clear -Hf Hin. induction Hf as [|r f rs fs Hr _ IH]; [easy|]. cbn in Hin. apply in_app_or in Hin as [Hx|Hx].
    + exists r, f. pose proof Hr as (_ & _ & Hp & _ & es & Hes & Hbody). exists es.
      assert (Hps : map fst (fn_params f) = map fst (r_args r)).
      { clear -Hp. induction Hp as [|a p l l' [H _] _ IH]; [reflexivity|]. cbn. now rewrite IH, H. }
      rewrite Hbody, map_app, map_map in Hx. apply in_app_or in Hx. rewrite Hps in Hx.
      assert (Hps' : ps = map fst (r_args r)).
      { destruct Hx as [Hx|[Hx|[Hx|[]]]]; [apply in_map_iff in Hx as (a & Hx & _)| |]; congruence. }
      split; [now left|]. split; [exact Hr|]. split; [exact Hps'|]. split; [congruence|]. split; [exact Hes|].
      destruct Hx as [Hx|[Hx|[Hx|[]]]]; [apply in_map_iff in Hx as (a & Hx & Ha); left; exists a; split; congruence| |];
        injection Hx as _ <-; auto.
    + destruct (IH Hx) as (r' & f' & es & Hr' & H). exists r', f', es. split; [now right|exact H].
Qed.

Lemma space_signatures ns b y : space_of E o inv ns b -> In y (signatures b) ->
  (exists i, In i (types_of E ns (i_types inv)) /\ type_tree E TypeDef (TNamed i) y) \/
  (exists r, In r (rpcs_of ns (i_rpcs inv)) /\
     ((exists a, In a (r_args r) /\ type_tree E Inline (snd a) y) \/
      exists y', type_tree E TypeDef (r_res r) y' /\ y = YApp (result_box (r_kind r)) [y'])).
Proof.
  intros (_ & its & fs & Hi & Hf & Hb) Hin. unfold signatures in Hin. rewrite Hb, flat_map_app in Hin. apply in_app_or in Hin as [Hin|Hin].
  - left. clear -Hi Hin. induction Hi as [|i is ids its Hi _ IH]; [easy|]. cbn in Hin. rewrite flat_map_app in Hin. apply in_app_or in Hin as [Hx|Hx].
    + exists i. split; [now left|]. destruct Hi; destruct Hx as [Hx|[]]; subst; auto.
    + destruct (IH Hx) as (j & Hj & H). exists j. split; [now right|exact H].
  - right. clear -Hf Hin. induction Hf as [|r f rs fs Hr _ IH]; [easy|]. cbn [map flat_map] in Hin. apply in_app_or in Hin as [Hx|Hx].
    + exists r. split; [now left|]. destruct Hr as (_ & _ & Hp & (y' & Hy' & Hres) & _). destruct Hx as [<-|Hx].
      * right. eauto.
      * left. apply in_map_iff in Hx as (p & <- & Hp'). destruct (Forall2_in _ _ _ Hp p Hp') as (a & Ha & _ & H). eauto.
    + destruct (IH Hx) as (r' & Hr' & H). exists r'. split; [now right|exact H].
Qed.
End module.

(** ** Every name resolves *)
Section resolve.
Variables (E : env) (o : options) (inv : inventory) (names : list string) (inside : nat -> bool) (m : list nsblock).
Hypotheses (HM : spaces_of E o inv names m) (HE : good_names E) (HS : spans E inside)
  (HR : registered E inv names inside) (HI : mentions_inside inv names inside) (HD : declared_once E inv names).

Lemma inside_space i : inside i = true -> exists b, In b m /\ block m (d_ns (lookup E i)) = Some b /\
  space_of E o inv (d_ns (lookup E i)) b /\ In i (types_of E (d_ns (lookup E i)) (i_types inv)) /\ In (d_ns (lookup E i)) names.
Proof.
  intros Hi. apply HR in Hi as [Hi Hn]. destruct (spaces_at E o inv names m HM (d_ns (lookup E i)) Hn) as (b & Hb & _ & Hf & Hs); [left; eauto|].
  exists b. repeat split; auto; try apply Hs. apply types_of_in. auto.
Qed.
Lemma own_inside ns i : In ns names -> In i (types_of E ns (i_types inv)) -> inside i = true.
Proof. intros Hn Hi. apply types_of_in in Hi as [Hi <-]. apply HR. auto. Qed.

Section values.
Hypotheses (HO : plain_schemas o) (HH : hygienic E inv names) (HU : usable_names E o inv names).

Lemma not_hidden b x ps : In b m -> In x imports \/ In x names -> ~ In x ps -> member_of x ps = false /\ member_of x (values b) = false.
Proof.
  intros Hb Hx Hp. split; [now apply member_of_false|]. apply member_of_false. intros Hv.
  destruct (spaces_in E o inv names m HM b Hb) as (Hn & _ & Hs). rewrite (space_values E o inv _ b Hs) in Hv.
  destruct HH as (_ & H2 & H3). apply in_app_or in Hv as [Hv|Hv]; apply in_map_iff in Hv as (k & <- & Hk).
  - apply types_of_in in Hk as [Hk He]. rewrite (plain_name o HO) in Hx. destruct (H2 k Hk) as [Ha Hb']; [now rewrite He|]. tauto.
  - apply rpcs_of_in in Hk as [Hk He]. destruct (H3 k Hk) as (Ha & Hb' & _); [now rewrite He|]. tauto.
Qed.

Lemma import_seen b x ps : In b m -> In x imports -> ~ In x ps -> sees m b ps x = PGlobal.
Proof.
  intros Hb Hx Hp. destruct (not_hidden b x ps Hb (or_introl Hx) Hp) as [H1 H2]. unfold sees. rewrite H1, H2.
  rewrite (spaces_not E o inv names m HM x); [reflexivity|]. intros Hn. exact (proj1 HH x Hn Hx).
Qed.

Lemma ok_resolves b ps e x p : In b m -> (forall y, In y ps -> ~ In y imports /\ ~ In y names) -> okuse E inside (x, p) ->
  resolves E inside m b ps e x p.
Proof.
  intros Hb Hp [[q Hu]|(i & Hi & Hu)]; injection Hu as -> ->.
  - apply res_import; [now left|]. apply import_seen; [exact Hb|now left|]. intros Hz. apply Hp in Hz as [Hz _]. apply Hz. now left.
  - destruct (inside_space i Hi) as (b' & Hb' & Hf & Hs & Hin & Hn).
    destruct (space_const E o inv names _ b' i HO HD Hn Hs Hin) as (e' & He & Ht).
    apply (res_const E inside m b ps e i b' e' Hi); auto.
    destruct (not_hidden b (d_ns (lookup E i)) ps Hb (or_intror Hn)) as [H1 H2]; [intros Hx; now apply Hp in Hx|].
    unfold sees. now rewrite H1, H2, Hf.
Qed.

Theorem names_resolve b ps e x p : In b m -> In (ps, e) (code b) -> In (x, p) (uses e) -> resolves E inside m b ps e x p.
Proof.
  intros Hb Hc Hu. destruct (spaces_in E o inv names m HM b Hb) as (Hn & _ & Hs).
  destruct (space_code E o inv _ b ps e Hs Hc) as [(i & Hi & -> & Ht)|(r & f & es & Hr & Hf & Hps & _ & Hes & He)].
  - apply ok_resolves; [exact Hb|easy|]. eapply (schema_uses E inside HS Schema (TNamed i)); eauto; [now left|].
    intros j [<-|[]]. eapply own_inside; eassumption.
  - apply rpcs_of_in in Hr as [Hr Hns]. rewrite <- Hns in Hn.
    assert (Hpar : forall y, In y ps -> ~ In y imports /\ ~ In y names).
    { intros y Hy. rewrite Hps in Hy. apply in_map_iff in Hy as (a & <- & Ha). destruct HH as (_ & _ & H3). now apply (H3 r Hr Hn). }
    assert (Harg : ~ In "arguments" ps).
    { intros Hy. rewrite Hps in Hy. apply in_map_iff in Hy as (a & Ha & Hin). destruct (proj2 HU r Hr Hn) as (_ & _ & H & _).
      destruct (H a Hin) as [_ Hbind]. rewrite Ha in Hbind. discriminate. }
    destruct (HI r Hr Hn) as [Hw _].
    destruct He as [(a & Ha & ->)|[-> | ->]].
    + destruct Hu as [Hu|[]]. injection Hu as <- <-. apply res_param; [reflexivity|]. unfold sees.
      assert (Hin : In (fst a) ps) by (rewrite Hps; now apply in_map). apply member_of_true in Hin. now rewrite Hin.
    + unfold validation in Hu. cbn [uses flat_map] in Hu. rewrite !app_nil_r in Hu.
      apply in_app_or in Hu as [Hu|[Hu|[]]].
      * destruct Hu as [Hu|Hu].
        -- injection Hu as <- <-. apply ok_resolves; auto. left. eauto.
        -- apply in_flat_map in Hu as (e' & He' & Hu). destruct (Forall2_in _ _ _ Hes e' He') as (a & Ha & Ht).
           apply ok_resolves; auto. eapply (schema_uses E inside HS InlineSchema (snd a)); eauto; [now right].
      * injection Hu as <- <-. now apply res_arguments.
    + unfold transmission in Hu. cbn in Hu. destruct Hu as [Hu|[Hu|[]]]; injection Hu as <- <-.
      * assert (Hx : In (transport (r_kind r)) imports) by (destruct (r_kind r); cbn; auto).
        apply res_import; [exact Hx|]. apply import_seen; auto. intros Hy. now apply Hpar in Hy.
      * now apply res_arguments.
Qed.
End values.

Theorem type_names_resolve b y x p : type_names E -> plain_types o -> generics_free E inv names ->
  In b m -> In y (signatures b) -> In (x, p) (tuses y) -> type_resolves E inside m b x p.
Proof.
  intros HT HO HG Hb Hy Hu. destruct (spaces_in E o inv names m HM b Hb) as (Hn & _ & Hs).
  assert (Hgen : forall w, In w generics -> type_sees b w = PGlobal).
  { intros w Hw. unfold type_sees. rewrite member_of_false; [reflexivity|]. intros Hin.
    destruct (space_types E o inv _ b Hs w Hin) as (i & Hi & Hx). apply types_of_in in Hi as [Hi He].
    destruct (plain_alias o HO (d_name (lookup E i))) as [H1 H2]. rewrite H1, H2 in Hx.
    apply (HG i Hi); [now rewrite He|]. destruct Hx as [<-|<-]; exact Hw. }
  assert (Hok : forall u, oktuse E inside u -> type_resolves E inside m b (fst u) (snd u)).
  { intros u [(w & -> & Hw)|(i & Hi & ->)]; cbn [fst snd].
    - apply in_app_or in Hw as [Hw|Hw]; [now apply tres_keyword|]. assert (Hg : In w generics) by (cbn in *; tauto).
      apply tres_generic; auto.
    - destruct (inside_space i Hi) as (b' & _ & Hf & Hs' & Hin & Hn').
      destruct (space_type E o inv names _ b' i HO HD Hn' Hs' Hin) as (y' & Hy' & Ht).
      now apply (tres_type E inside m b i b' y'). }
  destruct (space_signatures E o inv _ b y Hs Hy) as [(i & Hi & Ht)|(r & Hr & H)].
  - apply (Hok (x, p)). eapply (type_uses E inside HS TypeDef (TNamed i)); eauto; [now left|].
    intros j [<-|[]]. eapply own_inside; eassumption.
  - apply rpcs_of_in in Hr as [Hr Hns]. rewrite <- Hns in Hn. destruct (HI r Hr Hn) as [Hw Hw'].
    destruct H as [(a & Ha & Ht)|(y' & Ht & ->)].
    + apply (Hok (x, p)). eapply (type_uses E inside HS Inline (snd a)); eauto; [now right].
    + cbn in Hu. rewrite app_nil_r in Hu. destruct Hu as [Hu|Hu].
      * injection Hu as <- <-. assert (Hg : In (result_box (r_kind r)) generics) by (destruct (r_kind r); cbn; auto 6). apply tres_generic; auto.
      * apply (Hok (x, p)). eapply (type_uses E inside HS TypeDef (r_res r)); eauto; [now left].
Qed.

(** ** The module as an environment *)
Theorem module_exports : plain_schemas o -> tags_ok E -> loadable E inside -> exports E inside (module_schemas m).
Proof.
  intros HO HTg HL i Hi. destruct (inside_space i Hi) as (b & _ & Hf & Hs & Hin & Hn).
  destruct (space_const E o inv names _ b i HO HD Hn Hs Hin) as (e & He & s & Hret & Hp).
  destruct (schema_loads E (TNamed i) s HE HTg Hret) as [[[z Hz] _]|[_ Hc]]; [|now destruct (HL i Hi)].
  exists s, z. split; [exact Hret|]. split; [exact Hz|]. unfold module_schemas. rewrite Hf, He.
  unfold load in Hz. rewrite Hp in Hz. now rewrite Hz.
Qed.
Theorem module_type_exports : plain_types o -> type_exports E inside (module_types m).
Proof.
  intros HO i Hi. destruct (inside_space i Hi) as (b & _ & Hf & Hs & Hin & Hn).
  destruct (space_type E o inv names _ b i HO HD Hn Hs Hin) as (y & Hy & s & Hret & Hp).
  exists s, y. repeat split; auto. unfold module_types. now rewrite Hf.
Qed.
End resolve.

(** ** The functions of the methods and streams *)
Theorem rpc_functions E o inv names m r : spaces_of E o inv names m -> In r (i_rpcs inv) -> In (r_ns r) names ->
  exists b f, block m (r_ns r) = Some b /\ In (IFun f) (b_items b) /\ rpc_func E r f.
Proof.
  intros HM Hr Hn. destruct (spaces_at E o inv names m HM (r_ns r) Hn) as (b & Hb & _ & Hf & Hs); [right; eauto|].
  destruct Hs as (_ & its & fs & _ & Hfs & Hitems). destruct (Forall2_at _ _ _ Hfs r) as (f & Hin & Hrf); [now apply rpcs_of_in|].
  exists b, f. split; [exact Hf|]. split; [|exact Hrf]. rewrite Hitems. apply in_or_app. right. now apply in_map.
Qed.
Theorem rpc_hygiene E o inv names m r b f x : spaces_of E o inv names m -> plain_schemas o -> hygienic E inv names ->
  In r (i_rpcs inv) -> In (r_ns r) names -> block m (r_ns r) = Some b -> rpc_func E r f -> In x imports ->
  sees m b (map fst (fn_params f)) x = PGlobal.
Proof.
  intros HM HO HH Hr Hn Hb Hf Hx. destruct (block_sound m _ _ Hb) as [Hin _].
  apply (import_seen E o inv names m HM HO HH b x); [exact Hin|exact Hx|]. intros Hp.
  destruct Hf as (_ & _ & Hps & _). apply in_map_iff in Hp as (p & <- & Hp). destruct (Forall2_in _ _ _ Hps p Hp) as (a & Ha & He & _).
  rewrite He in Hx. destruct HH as (_ & _ & H3). destruct (H3 r Hr Hn) as (_ & _ & H). now destruct (H a Ha).
Qed.

(** ** The module as a whole *)
Section whole.
Variables (E : env) (o : options) (inv : inventory) (names : list string) (inside : nat -> bool) (p s : string).
Hypotheses (HR : regular E o inv names inside) (HG : generates E o inv names p (p ^^ s)).

Lemma prefix_cancel (a b c : string) : a ^^ b = a ^^ c -> b = c.
Proof. induction a as [|x a IH]; cbn; [auto|]. intros H. injection H as H. auto. Qed.

Theorem whole_module : exists m, ts_module s m /\ spaces_of E o inv names m /\
  (forall b ps e x q, In b m -> In (ps, e) (code b) -> In (x, q) (uses e) -> resolves E inside m b ps e x q) /\
  (forall b y x q, In b m -> In y (signatures b) -> In (x, q) (tuses y) -> type_resolves E inside m b x q) /\
  type_exports E inside (module_types m) /\
  (tags_ok E -> loadable E inside -> exports E inside (module_schemas m)).
Proof.
  destruct HR as [H1 H2 H3 H4 [H5 H5'] H6 H7 H8 H9 H10 H11].
  destruct (module_parses E o inv names H1 H2 H3 p (p ^^ s) HG) as (s' & m & He & Hm & Hs).
  { intros i Hi Hn. apply H4. apply H7. auto. }
  apply prefix_cancel in He. subst s'. exists m. split; [exact Hm|]. split; [exact Hs|]. split; [|split; [|split]].
  - intros b ps e x q. now apply (names_resolve E o inv names inside m).
  - intros b y x q. now apply (type_names_resolve E o inv names inside m).
  - now apply (module_type_exports E o inv names inside m).
  - now apply (module_exports E o inv names inside m).
Qed.

(** What a schema of the module lets through is read by serde. *)
Theorem whole_sound R ip m i v out : ts_module s m -> tags_ok E -> loadable E inside -> sound false false inside E ->
  inside i = true -> exists z, module_schemas m (d_ns (lookup E i)) (d_name (lookup E i)) = Some z /\
    (sane false v -> accepts ip (module_schemas m) z v out ->
     (deserializes R E (TNamed i) (stringify_elem out) <-> jdepth (stringify_elem out) <= max_depth)).
Proof.
  intros Hm HT HL HS Hi. destruct whole_module as (m' & Hm' & _ & _ & _ & _ & Hx). rewrite (ts_module_unique s m m' Hm Hm').
  specialize (Hx HT HL). destruct (Hx i Hi) as (t & z & Ht & Hz & He). exists z. split; [exact He|]. intros Hv Ha.
  eapply (output_deserializes R E ip (module_schemas m') inside (TNamed i)); eauto. apply HR.
Qed.
(** ... and is a member of the exported type. *)
Theorem whole_typed ip m i v out : ts_module s m -> tags_ok E -> loadable E inside -> distinct E inside ->
  inside i = true -> exists z y, module_schemas m (d_ns (lookup E i)) (d_name (lookup E i)) = Some z /\
    module_types m (d_ns (lookup E i)) (d_name (lookup E i)) = Some y /\
    (accepts ip (module_schemas m) z v out -> member (module_types m) y v /\ member (module_types m) y out).
Proof.
  intros Hm HT HL HS Hi. destruct whole_module as (m' & Hm' & _ & _ & _ & Hy & Hx). rewrite (ts_module_unique s m m' Hm Hm').
  specialize (Hx HT HL). destruct (Hx i Hi) as (t & z & Ht & Hz & He). destruct (Hy i Hi) as (t' & y & Ht' & Hp & He').
  exists z, y. split; [exact He|]. split; [exact He'|]. intros Ha.
  destruct HR as [H1 H2 _ _ _ H6 _ _ _ _ _].
  eapply (accepted_member E ip (module_schemas m') (module_types m') inside Schema TypeDef (TNamed i)); eauto.
  intros j [<-|[]]. exact Hi.
Qed.
End whole.
