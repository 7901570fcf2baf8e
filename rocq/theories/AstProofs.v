(** The generated schema texts lex to the tokens of their trees. *)
From Coq Require Import List String Ascii Bool NArith.
From Verif Require Import RustTy Gen GenSpec GenProofs JsLex JsParse Ast.
Import ListNotations.
Local Open Scope string_scope.
Local Open Scope list_scope.

Definition okexp (e : jsexp) : Prop :=
  wf e = true /\ postfix e = true /\ brace e = false.

Definition sq (q : query) : Prop := q = Schema \/ q = InlineSchema.

Ltac lexlit :=
  repeat (eapply lexm_seq);
  first [ reflexivity
        | apply lexm_ident; assumption
        | apply lexm_str; assumption ].

(** ** Pieces *)
Section Pieces.
Context (run : query -> ty -> option string).

(** Whenever the pieces return a text, [x] is some tree, and the text is its tokens. *)
Definition Good {A} (tk : A -> list tok) (P : A -> Prop) (ps : list piece) (x : option A) :=
  forall s, cat run ps = Some s -> exists a, x = Some a /\ P a /\ lexm M0 s = (M0, tk a).

Lemma cat_app_inv ps qs s : cat run (ps ++ qs) = Some s ->
  exists a b, cat run ps = Some a /\ cat run qs = Some b /\ s = a ^^ b.
Proof.
  revert s; induction ps as [|[l|q t] ps IH]; intros s H; cbn [cat app] in *.
  - exists "", s. auto.
  - destruct (cat run (ps ++ qs)) as [x|] eqn:Hx; [|discriminate].
    injection H as <-. destruct (IH x eq_refl) as (a & b & -> & -> & ->).
    exists (l ^^ a), b. repeat split. now rewrite append_assoc.
  - destruct (run q t) as [y|]; [|discriminate].
    destruct (cat run (ps ++ qs)) as [x|] eqn:Hx; [|discriminate].
    injection H as <-. destruct (IH x eq_refl) as (a & b & -> & -> & ->).
    exists (y ^^ a), b. repeat split. now rewrite append_assoc.
Qed.

Lemma cat_lit l s : cat run [Lit l] = Some s -> s = l.
Proof. cbn. rewrite append_nil. congruence. Qed.

Lemma Good_seq {A B C} (tk : A -> list tok) P ps x (tk2 : B -> list tok) Q qs y
  (h : A -> B -> C) tk3 (S : C -> Prop) mid t :
  lexm M0 mid = (M0, t) ->
  Good tk P ps x -> Good tk2 Q qs y ->
  (forall a b, P a -> Q b -> S (h a b) /\ tk a ++ t ++ tk2 b = tk3 (h a b)) ->
  Good tk3 S (ps ++ Lit mid :: qs) (bind x (fun a => option_map (h a) y)).
Proof.
  intros Hm H1 H2 H s Hs. apply cat_app_inv in Hs as (s1 & s2 & Hs1 & Hs2 & ->).
  change (Lit mid :: qs) with ([Lit mid] ++ qs) in Hs2.
  apply cat_app_inv in Hs2 as (s3 & s4 & Hs3 & Hs4 & ->). apply cat_lit in Hs3 as ->.
  destruct (H1 _ Hs1) as (a & -> & Ha & Hla). destruct (H2 _ Hs4) as (b & -> & Hb & Hlb).
  destruct (H a b Ha Hb) as [HS Ht]. exists (h a b). repeat split; auto.
  rewrite <- Ht. eapply lexm_seq; [exact Hla|]. eapply lexm_seq; [exact Hm|exact Hlb].
Qed.

Lemma Good_pure {A} (tk : A -> list tok) (P : A -> Prop) l a :
  lexm M0 l = (M0, tk a) -> P a -> Good tk P [Lit l] (Some a).
Proof. intros H Ha s Hs. apply cat_lit in Hs as ->. exists a. auto. Qed.

Lemma Good_wrap {A B} (tk : A -> list tok) P ps x (h : A -> B) tk' (Q : B -> Prop) pre post t1 t2 :
  lexm M0 pre = (M0, t1) -> lexm M0 post = (M0, t2) ->
  Good tk P ps x ->
  (forall a, P a -> Q (h a) /\ t1 ++ tk a ++ t2 = tk' (h a)) ->
  Good tk' Q (Lit pre :: ps ++ [Lit post]) (option_map h x).
Proof.
  intros H1 H2 HG H s Hs. change (Lit pre :: ps ++ [Lit post]) with ([Lit pre] ++ (ps ++ [Lit post])) in Hs.
  apply cat_app_inv in Hs as (s1 & s2 & Hs1 & Hs2 & ->). apply cat_lit in Hs1 as ->.
  apply cat_app_inv in Hs2 as (s3 & s4 & Hs3 & Hs4 & ->). apply cat_lit in Hs4 as ->.
  destruct (HG _ Hs3) as (a & -> & Ha & Hla). destruct (H a Ha) as [HQ Ht].
  exists (h a). repeat split; auto. rewrite <- Ht.
  eapply lexm_seq; [exact H1|]. eapply lexm_seq; [exact Hla|exact H2].
Qed.

Lemma Good_join {A B} (f : A -> list piece) (g : A -> option B) tk (P : B -> Prop) sep xs :
  lexm M0 sep = (M0, [TP ","]) ->
  (forall x, In x xs -> Good tk P (f x) (g x)) ->
  Good (fun l => commas (map tk l)) (Forall P) (join sep (map f xs)) (all_some (map g xs)).
Proof.
  intros Hsep. induction xs as [|x xs IH]; intros H.
  - intros s Hs. injection Hs as <-. exists []. auto.
  - assert (IH' := IH (fun y Hy => H y (or_intror Hy))). clear IH.
    destruct xs as [|x2 xs].
    + cbn [map join all_some]. intros s Hs.
      destruct (H x (or_introl eq_refl) s Hs) as (a & -> & Ha & Hl).
      exists [a]. cbn. repeat split; auto.
    + cbn [map join]. intros s Hs.
      destruct (Good_seq tk P (f x) (g x) (fun l => commas (map tk l)) (fun l => l <> [] /\ Forall P l)
        (join sep (map f (x2 :: xs))) (all_some (map g (x2 :: xs)))
        (fun a l => a :: l) (fun l => commas (map tk l)) (Forall P) sep [TP ","]
        Hsep (H x (or_introl eq_refl))) with (s := s) as (l & Hl & HP & Hlex).
      * intros s' Hs'. destruct (IH' s' Hs') as (l & Hl & HP & Hlex).
        exists l. repeat split; auto. intros ->. cbn [map all_some] in Hl.
        destruct (g x2); [|discriminate]. destruct (all_some (map g xs)); discriminate.
      * intros a l Ha [Hne HP]. split; [now constructor|]. cbn [map].
        rewrite commas_cons; [reflexivity|]. destruct l; [easy|discriminate].
      * exact Hs.
      * exists l. repeat split; auto.
Qed.

Lemma Good_weaken {A} tk (P Q : A -> Prop) ps x :
  (forall a, P a -> Q a) -> Good tk P ps x -> Good tk Q ps x.
Proof. intros H HG s Hs. destruct (HG s Hs) as (a & ? & ? & ?). exists a. auto. Qed.
End Pieces.

Lemma okexp_meth e m args : okexp e -> Forall (fun a => wf a = true) args -> okexp (meth e m args).
Proof.
  intros (Hw & Hp & Hb) Ha. unfold okexp, meth. cbn. rewrite Hp, Hw, Hb. repeat split.
  cbn. apply forallb_forall. intros x Hx. rewrite Forall_forall in Ha.
  specialize (Ha x Hx). destruct x; auto. discriminate.
Qed.

Lemma okexp_zcall m args : Forall (fun a => wf a = true) args -> okexp (zcall m args).
Proof. intros H. apply okexp_meth; [repeat split|exact H]. Qed.

Lemma okexp_wf e : okexp e -> wf e = true.
Proof. now intros []. Qed.

Lemma okexp_args es : Forall okexp es -> Forall (fun a => wf a = true) es.
Proof. intros H. eapply Forall_impl; [|exact H]. apply okexp_wf. Qed.

Lemma wf_arr es : Forall okexp es -> wf (EArr es) = true.
Proof.
  intros H. cbn. apply forallb_forall. intros x Hx. rewrite Forall_forall in H.
  specialize (H x Hx). destruct H as [H _]. destruct x; auto. discriminate.
Qed.

Definition okprop (p : string * jsexp) : Prop := okexp (snd p).

Lemma wf_obj ps : Forall okprop ps -> wf (EObj ps) = true.
Proof.
  intros H. cbn. apply forallb_forall. intros x Hx. rewrite Forall_forall in H.
  now destruct (H x Hx).
Qed.

Lemma okexp_obj ps : Forall okprop ps -> okexp (obj_exp ps).
Proof. intros H. apply okexp_zcall. repeat constructor. now apply wf_obj. Qed.
Lemma okexp_tup es : Forall okexp es -> okexp (tup_exp es).
Proof. intros H. apply okexp_zcall. repeat constructor. now apply wf_arr. Qed.
Lemma okexp_union es : Forall okexp es -> okexp (union_exp es).
Proof. intros H. apply okexp_zcall. repeat constructor. now apply wf_arr. Qed.
Lemma okexp_lit s : okexp (lit_exp s).
Proof. apply okexp_zcall. repeat constructor. Qed.
Lemma okexp_opt b e : okexp e -> okexp (opt_exp b e).
Proof. intros H. destruct b; [apply okexp_meth; auto|exact H]. Qed.
#[export] Hint Resolve okexp_meth okexp_zcall okexp_wf okexp_args wf_arr wf_obj okexp_obj okexp_tup
  okexp_union okexp_lit okexp_opt : okexp.

Definition ptk (p : string * jsexp) : list tok := TId (fst p) :: TP ":" :: tokens_of (snd p).

Ltac foralls := repeat (apply Forall_cons || apply Forall_nil || apply okexp_obj
  || apply okexp_lit || assumption).
Ltac tokeq := cbn; rewrite <- ?app_assoc; cbn; rewrite <- ?app_assoc; cbn; reflexivity.

Lemma tokens_opt b e : tokens_of e ++ snd (lexm M0 (opt_suffix b)) = tokens_of (opt_exp b e).
Proof.
  destruct b; cbn [opt_suffix opt_exp].
  - vm_compute (lexm M0 _). tokeq.
  - cbn. apply app_nil_r.
Qed.

Lemma lexm_opt b : exists t, lexm M0 (opt_suffix b) = (M0, t) /\
  forall e, tokens_of e ++ t = tokens_of (opt_exp b e).
Proof.
  destruct b; (eexists; split; [reflexivity|]); intros e.
  - tokeq.
  - apply app_nil_r.
Qed.

Section Step.
Context (run : query -> ty -> option string) (rec : query -> ty -> option jsexp).
Hypothesis Hrec : forall q t s, sq q -> run q t = Some s ->
  exists e, rec q t = Some e /\ okexp e /\ lexm M0 s = (M0, tokens_of e).

Notation GoodE := (Good run tokens_of okexp).

Lemma good_call q t : sq q -> GoodE [Call q t] (rec q t).
Proof.
  intros Hq s Hs. cbn in Hs. destruct (run q t) as [x|] eqn:Hx; [|discriminate].
  injection Hs as <-. rewrite append_nil. now apply Hrec.
Qed.

Lemma sq_s : sq Schema. Proof. now left. Qed.
Lemma sq_i : sq InlineSchema. Proof. now right. Qed.
Hint Resolve sq_s sq_i : core.

Lemma good_field t b : GoodE [Call InlineSchema t; Lit (opt_suffix b)] (field_exp rec t b).
Proof.
  intros s Hs. change [Call InlineSchema t; Lit (opt_suffix b)]
    with ([Call InlineSchema t] ++ [Lit (opt_suffix b)]) in Hs.
  apply cat_app_inv in Hs as (s1 & s2 & Hs1 & Hs2 & ->). apply cat_lit in Hs2 as ->.
  destruct (good_call _ _ sq_i _ Hs1) as (e & He & Hok & Hl).
  unfold field_exp. rewrite He. exists (opt_exp b e). split; [reflexivity|]. split; [auto with okexp|].
  destruct (lexm_opt b) as (t2 & Ht & Hte). rewrite <- Hte. eapply lexm_seq; [exact Hl|exact Ht].
Qed.

Lemma good_prop k t b : ident k = true ->
  Good run ptk okprop [Lit (k ^^ ": "); Call InlineSchema t; Lit (opt_suffix b)] (prop_exp rec k t b).
Proof.
  intros Hk s Hs.
  change (cat run ([Lit (k ^^ ": ")] ++ [Call InlineSchema t; Lit (opt_suffix b)]) = Some s) in Hs.
  apply cat_app_inv in Hs as (s1 & s2 & Hs1 & Hs2 & ->). apply cat_lit in Hs1 as ->.
  destruct (good_field _ _ _ Hs2) as (e & He & Hok & Hl).
  unfold prop_exp. rewrite He. exists (k, e). split; [reflexivity|]. split; [exact Hok|].
  change (ptk (k, e)) with ([TId k; TP ":"] ++ tokens_of e).
  eapply lexm_seq; [|exact Hl].
  change [TId k; TP ":"%char] with ([] ++ [TId k; TP ":"%char]). lexlit.
Qed.

Lemma good_two pre mid post t1 t2 t3 x y h :
  lexm M0 pre = (M0, t1) -> lexm M0 mid = (M0, t2) -> lexm M0 post = (M0, t3) ->
  (forall a b, okexp a -> okexp b ->
     okexp (h a b) /\ t1 ++ tokens_of a ++ t2 ++ tokens_of b ++ t3 = tokens_of (h a b)) ->
  GoodE [Lit pre; Call InlineSchema x; Lit mid; Call InlineSchema y; Lit post]
    (bind (rec InlineSchema x) (fun a => option_map (h a) (rec InlineSchema y))).
Proof.
  intros H1 H2 H3 H s Hs.
  change (cat run ([Lit pre] ++ [Call InlineSchema x] ++ [Lit mid] ++ [Call InlineSchema y] ++ [Lit post]) = Some s) in Hs.
  repeat (let a := fresh "s" in let b := fresh "s" in let Ha := fresh "Hs" in
          apply cat_app_inv in Hs as (a & b & Ha & Hs & ->)).
  apply cat_lit in Hs, Hs0, Hs2. subst.
  destruct (good_call _ _ sq_i _ Hs1) as (a & -> & Ha & Hla).
  destruct (good_call _ _ sq_i _ Hs3) as (b & -> & Hb & Hlb).
  destruct (H a b Ha Hb) as [Hok Ht]. exists (h a b). repeat split; try apply Hok.
  rewrite <- Ht. repeat (eapply lexm_seq; [eassumption|]). assumption.
Qed.

Lemma good_builtin t : (forall i, t <> TNamed i) -> GoodE (builtin_schema t) (builtin_exp rec t).
Proof.
  intros Hn. destruct t as [p|ts|w t|t|n t|[] t|[] k v|t|t e|i]; cbn [builtin_schema builtin_exp];
    try (apply good_call; auto); try now destruct (Hn i).
  - apply Good_pure.
    + destruct p as [|[]| | | | | | | |]; reflexivity.
    + destruct p as [|[]| | | | | | | |]; repeat split.
  - eapply Good_wrap; [reflexivity|reflexivity| |].
    + apply Good_join with (P := okexp); [reflexivity|]. intros x _. apply good_call; auto.
    + intros es Hes. split; [auto with okexp|tokeq].
  - apply (Good_wrap run tokens_of okexp [Call InlineSchema t]) with (t1 := [TId "z"; TP "."; TId "array"; TP "("]) (t2 := [TP ")"]);
      [reflexivity|reflexivity|apply good_call; auto|].
    intros e He. split; [auto with okexp|tokeq].
  - apply (Good_wrap run tokens_of okexp [Call InlineSchema t]) with (t1 := [TId "z"; TP "."; TId "set"; TP "("]) (t2 := [TP ")"]);
      [reflexivity|reflexivity|apply good_call; auto|].
    intros e He. split; [auto with okexp|tokeq].
  - eapply good_two; [reflexivity|reflexivity|reflexivity|].
    intros a b Ha Hb. split; [auto 7 with okexp|tokeq].
  - intros s Hs. change (cat run ([Call InlineSchema t; Lit (opt_suffix true)]) = Some s) in Hs.
    exact (good_field t true s Hs).
  - eapply good_two; [reflexivity|reflexivity|reflexivity|].
    intros a b Ha Hb. split; [|tokeq].
    apply okexp_union. foralls.
Qed.

(** ** Structs *)
Lemma good_sval f : s_name f = None \/ s_transparent f = true -> s_flatten f = false ->
  GoodE (sfield_schema f) (sval rec f).
Proof.
  intros H Hf. unfold sfield_schema, sval. rewrite Hf.
  destruct H as [-> | ->]; [|destruct (s_name f)]; apply good_field.
Qed.

Lemma good_sprop f n : s_name f = Some n -> ident n = true -> s_transparent f = false ->
  s_flatten f = false -> Good run ptk okprop (sfield_schema f) (sprop rec f).
Proof.
  intros Hn Hi Ht Hf. unfold sfield_schema, sprop. rewrite Hf, Hn, Ht. now apply good_prop.
Qed.

Lemma good_extend fs : (forall f, In f fs -> s_flatten f = true) ->
  forall s, cat run (join "" (map sfield_schema fs)) = Some s ->
  exists es, all_some (map (sval rec) fs) = Some es /\ Forall okexp es /\
    forall o, okexp o -> okexp (fold_left (fun o e => meth o "extend" [e]) es o) /\
      exists ts, lexm M0 s = (M0, ts) /\
        tokens_of o ++ ts = tokens_of (fold_left (fun o e => meth o "extend" [e]) es o).
Proof.
  induction fs as [|f fs IH]; intros Hf s Hs.
  - injection Hs as <-. exists []. split; [reflexivity|]. split; [constructor|].
    intros o Ho. split; [exact Ho|]. exists []. split; [reflexivity|]. apply app_nil_r.
  - assert (Hs' : exists a b, cat run (sfield_schema f) = Some a /\
                    cat run (join "" (map sfield_schema fs)) = Some b /\ s = a ^^ b).
    { cbn [map join] in Hs. destruct fs as [|f2 fs].
      - exists s, "". cbn. rewrite append_nil. auto.
      - cbn [map] in Hs. apply cat_app_inv in Hs as (a & b & Ha & Hb & ->).
        cbn [cat] in Hb. destruct (cat run (join "" (map sfield_schema (f2 :: fs)))) as [x|] eqn:Hx.
        + cbn [map] in Hx. rewrite Hx in Hb. injection Hb as <-. eauto.
        + cbn [map] in Hx. rewrite Hx in Hb. discriminate. }
    destruct Hs' as (a & b & Ha & Hb & ->).
    destruct (IH (fun x Hx => Hf x (or_intror Hx)) b Hb) as (es & Hes & Hok & Hrest).
    assert (Hflat : s_flatten f = true) by (apply Hf; now left).
    assert (Ha' : cat run ([Lit ".extend("] ++ [Call InlineSchema (s_ty f); Lit (opt_suffix (s_optional f))]
                              ++ [Lit ")"]) = Some a).
    { rewrite <- Ha. unfold sfield_schema. now rewrite Hflat. }
    apply cat_app_inv in Ha' as (a1 & a2 & Ha1 & Ha2 & ->). apply cat_lit in Ha1 as ->.
    apply cat_app_inv in Ha2 as (a3 & a4 & Ha3 & Ha4 & ->). apply cat_lit in Ha4 as ->.
    destruct (good_field _ _ _ Ha3) as (e & He & Hoke & Hle).
    exists (e :: es). split.
    { cbn [map all_some]. unfold sval at 1. rewrite He. now rewrite Hes. }
    split; [now constructor|]. intros o Ho.
    destruct (Hrest (meth o "extend" [e])) as (H1 & ts & H2 & H3).
    { apply okexp_meth; [exact Ho|]. repeat constructor. apply Hoke. }
    split; [exact H1|]. cbn [fold_left]. rewrite <- H3.
    eexists. split.
    + eapply lexm_seq; [|exact H2]. eapply lexm_seq; [reflexivity|].
      eapply lexm_seq; [exact Hle|reflexivity].
    + tokeq.
Qed.

Lemma struct_fields_in st tr fs f : In f (struct_fields st tr fs) ->
  exists g, In g (filter (fun f => negb (f_skip f)) fs) /\
    s_name f = match st with StNamed => Some (f_name g) | _ => None end /\ s_transparent f = tr.
Proof.
  intros H. apply in_map_iff in H as (g & <- & Hg). exists g. auto.
Qed.

Lemma good_struct st tr fs ps :
  (st = StNamed -> forallb (fun f => ident (f_name f)) (filter (fun f => negb (f_skip f)) fs) = true) ->
  struct_schema st tr (struct_fields st tr fs) = Done ps ->
  GoodE ps (struct_exp rec st tr (struct_fields st tr fs)).
Proof.
  intros Hid Hps.
  assert (Hin : forall f, In f (filter (fun f => negb (s_flatten f)) (struct_fields st tr fs)) ->
    In f (struct_fields st tr fs) /\ s_flatten f = false).
  { intros f Hf. apply filter_In in Hf as [H1 H2]. split; [exact H1|]. now destruct (s_flatten f). }
  assert (Hval : forall f, In f (filter (fun f => negb (s_flatten f)) (struct_fields st tr fs)) ->
    tr = true \/ st <> StNamed -> GoodE (sfield_schema f) (sval rec f)).
  { intros f Hf Hor. destruct (Hin f Hf) as [H1 H2].
    destruct (struct_fields_in _ _ _ _ H1) as (g & _ & Hnm & Htr).
    apply good_sval; [|exact H2]. destruct Hor as [->|Hst]; [now right|left].
    rewrite Hnm. now destruct st. }
  unfold struct_schema, struct_exp in *.
  remember (filter (fun f => negb (s_flatten f)) (struct_fields st tr fs)) as plain eqn:Hplain.
  destruct tr.
  - destruct plain as [|f r]; [discriminate|]. (apply (f_equal (undone [])) in Hps; cbn [undone obind] in Hps; subst ps).
    apply Hval; [now left|now left].
  - destruct st; try discriminate.
    + (apply (f_equal (undone [])) in Hps; cbn [undone obind] in Hps; subst ps).
      intros s Hs.
      change (cat run ([Lit "z.object({"] ++ join ("," ^^ nl) (map sfield_schema plain) ++ [Lit "})"]
         ++ join "" (map sfield_schema (filter s_flatten (struct_fields StNamed false fs)))) = Some s) in Hs.
      rewrite (app_assoc (join ("," ^^ nl) _)), (app_assoc [Lit "z.object({"]) in Hs.
      apply cat_app_inv in Hs as (s1 & s2 & Hs1 & Hs2 & ->).
      assert (HG : Good run tokens_of okexp (Lit "z.object({" :: join ("," ^^ nl) (map sfield_schema plain) ++ [Lit "})"])
                     (option_map obj_exp (all_some (map (sprop rec) plain)))).
      { eapply Good_wrap; [reflexivity|reflexivity| |].
        - apply Good_join with (P := okprop) (tk := ptk); [reflexivity|]. intros f Hf.
          destruct (Hin f Hf) as [H1 H2].
          destruct (struct_fields_in _ _ _ _ H1) as (g & Hg & Hnm & Htr).
          eapply good_sprop; [exact Hnm| |exact Htr|exact H2].
          specialize (Hid eq_refl). rewrite forallb_forall in Hid. now apply Hid.
        - intros l Hl. split; [now apply okexp_obj|]. tokeq. }
      destruct (HG s1 Hs1) as (o & Ho & Hoko & Hlo).
      destruct (all_some (map (sprop rec) plain)) as [l|]; [|discriminate].
      injection Ho as <-. cbn [bind].
      destruct (good_extend (filter s_flatten (struct_fields StNamed false fs))) with (s := s2)
        as (es & Hes & Hokes & Hrest).
      { intros f Hf. now apply filter_In in Hf. }
      { exact Hs2. }
      rewrite Hes. eexists; split; [reflexivity|].
      destruct (Hrest _ Hoko) as (H1 & ts & H2 & H3). split; [exact H1|].
      rewrite <- H3. eapply lexm_seq; eassumption.
    + destruct plain as [|f [|f2 r]]; [discriminate| |].
      * (apply (f_equal (undone [])) in Hps; cbn [undone obind] in Hps; subst ps). apply Hval; [now left|now right].
      * destruct (bad_default_order (f :: f2 :: r)); [discriminate|]. (apply (f_equal (undone [])) in Hps; cbn [undone obind] in Hps; subst ps).
        eapply Good_wrap; [reflexivity|reflexivity| |].
        -- apply Good_join with (P := okexp); [reflexivity|]. intros x Hx.
           apply Hval; [exact Hx|now right].
        -- intros es Hes. split; [now apply okexp_tup|tokeq].
Qed.

(** ** Enums *)
Lemma good_unit tg name : good_tag tg = true -> string_safe name = true ->
  GoodE (unit_schema tg name) (Some (unit_exp tg name)).
Proof.
  intros Ht Hn. unfold string_safe in Hn.
  destruct tg as [|tag|tag content|]; cbn [unit_schema unit_exp good_tag] in *.
  - apply Good_pure; [|apply okexp_lit]. change (tokens_of (lit_exp name)) with
      ([TId "z"; TP "."; TId "literal"; TP "("] ++ [] ++ [TStr name; TP ")"]). lexlit.
  - apply Good_pure; [|foralls]. eapply eq_trans.
    + repeat (eapply lexm_seq); [reflexivity|apply lexm_ident; exact Ht|reflexivity|apply lexm_str; exact Hn|reflexivity].
    + reflexivity.
  - apply andb_true_iff in Ht as [Ht _]. apply Good_pure; [|foralls]. eapply eq_trans.
    + repeat (eapply lexm_seq); [reflexivity|apply lexm_ident; exact Ht|reflexivity|apply lexm_str; exact Hn|reflexivity].
    + reflexivity.
  - apply Good_pure; [reflexivity|]. repeat split.
Qed.

Lemma good_enclose {A} (tk : A -> list tok) P ps x (h : A -> jsexp) pre post t1 t2 :
  lexm M0 pre = (M0, t1) -> lexm M0 post = (M0, t2) ->
  Good run tk P ps x ->
  (forall a, P a -> okexp (h a) /\ t1 ++ tk a ++ t2 = tokens_of (h a)) ->
  GoodE ([Lit pre] ++ ps ++ [Lit post]) (option_map h x).
Proof. exact (Good_wrap run tk P ps x h tokens_of okexp pre post t1 t2). Qed.

Ltac lexes := repeat (eapply lexm_seq);
  first [ reflexivity | apply lexm_ident; eassumption | apply lexm_dot_ident; eassumption | apply lexm_str; eassumption ].

Lemma good_tuple tg name fs : good_tag tg = true -> string_safe name = true ->
  match tg with External | Internal _ => ident name = true | _ => True end ->
  GoodE (tuple_schema tg name fs) (tuple_exp rec tg name fs).
Proof.
  intros Ht Hn Hid. destruct fs as [|f fs]; [now apply good_unit|].
  unfold tuple_schema, tuple_exp. unfold string_safe in Hn.
  assert (HG : GoodE
    match fs with
    | [] => vfield_schema StTuple f
    | _ => [Lit "z.tuple(["] ++ join ", " (map (vfield_schema StTuple) (f :: fs)) ++ [Lit "])"]
    end
    match fs with
    | [] => field_exp rec (f_ty f) (f_default f)
    | _ => option_map tup_exp (all_some (map (fun f => field_exp rec (f_ty f) (f_default f)) (f :: fs)))
    end).
  { destruct fs as [|f2 fs]; [apply good_field|].
    eapply good_enclose; [reflexivity|reflexivity| |].
    - apply Good_join with (P := okexp); [reflexivity|]. intros x _. apply good_field.
    - intros es Hes. split; [now apply okexp_tup|tokeq]. }
  destruct tg as [|tag|tag content|]; cbn [good_tag] in Ht.
  - eapply good_enclose; [lexes|reflexivity|exact HG|].
    intros e He. split; [foralls|tokeq].
  - eapply good_enclose; [lexes|reflexivity|exact HG|].
    intros e He. split; [foralls|tokeq].
  - apply andb_true_iff in Ht as [Ht Hc].
    eapply good_enclose; [lexes|reflexivity|exact HG|].
    intros e He. split; [foralls|tokeq].
  - match goal with |- Good _ _ _ _ (option_map _ ?x) => destruct x eqn:Hx end; cbn [option_map]; exact HG.
Qed.

Lemma good_named tg name fs ps : good_tag tg = true -> string_safe name = true ->
  match tg with External => ident name = true | _ => True end ->
  forallb (fun f => ident (f_name f)) fs = true ->
  named_schema tg name fs = Done ps ->
  GoodE ps (named_exp rec tg name fs).
Proof.
  intros Ht Hn Hid Hfs Hps. unfold string_safe in Hn.
  unfold named_schema, named_exp in *. destruct fs as [|f fs]; [discriminate|].
  assert (HG : Good run (fun l => commas (map ptk l)) (fun l => l <> [] /\ Forall okprop l)
    (join ", " (map (vfield_schema StNamed) (f :: fs)))
    (all_some (map (fun f => prop_exp rec (f_name f) (f_ty f) (f_default f)) (f :: fs)))).
  { intros s Hs.
    destruct (Good_join run (vfield_schema StNamed) (fun f => prop_exp rec (f_name f) (f_ty f) (f_default f))
       ptk okprop ", " (f :: fs) eq_refl) with (s := s) as (l & Hl & HP & Hlex).
    - intros x Hx. apply good_prop. rewrite forallb_forall in Hfs. now apply Hfs.
    - exact Hs.
    - exists l. repeat split; auto. intros ->. cbn [map all_some] in Hl.
      destruct (prop_exp _ _ _ _); [|discriminate]. destruct (all_some _); discriminate. }
  (apply (f_equal (undone [])) in Hps; cbn [undone obind] in Hps; subst ps).
  destruct tg as [|tag|tag content|]; cbn [good_tag] in Ht.
  - eapply good_enclose; [lexes|reflexivity|exact HG|].
    intros l [_ Hl]. split; [foralls|tokeq].
  - eapply good_enclose; [lexes|reflexivity|exact HG|].
    intros l [Hne Hl]. split; [foralls|].
    destruct l as [|p l]; [easy|]. tokeq.
  - apply andb_true_iff in Ht as [Ht Hc].
    eapply good_enclose; [lexes|reflexivity|exact HG|].
    intros l [_ Hl]. split; [foralls|tokeq].
  - eapply good_enclose; [reflexivity|reflexivity|exact HG|].
    intros l [_ Hl]. split; [foralls|tokeq].
Qed.

Lemma good_variant_ok tg v ps : good_tag tg = true -> good_variant tg v = true ->
  variant_schema tg v = Done ps -> GoodE ps (variant_exp rec tg v).
Proof.
  intros Ht Hv Hps. unfold good_variant in Hv.
  apply andb_true_iff in Hv as [Hv Hf]. apply andb_true_iff in Hv as [Hn Hk].
  unfold variant_schema, variant_exp in *. destruct (v_style v).
  - eapply good_named; eauto. destruct tg; auto.
  - (apply (f_equal (undone [])) in Hps; cbn [undone obind] in Hps; subst ps). apply good_tuple; auto. destruct tg; auto.
  - (apply (f_equal (undone [])) in Hps; cbn [undone obind] in Hps; subst ps). now apply good_unit.
Qed.

Lemma omap_spec {A B} (f : A -> outcome B) l ys : omap f l = Done ys -> Forall2 (fun x y => f x = Done y) l ys.
Proof.
  revert ys; induction l as [|x l IH]; intros ys H; cbn in H.
  - injection H as <-. constructor.
  - destruct (f x) as [y| | |] eqn:Hy; try discriminate. cbn in H.
    destruct (omap f l) as [zs| | |]; try discriminate. injection H as <-. constructor; auto.
Qed.

Lemma good_enum tg vs ps : good_tag tg = true -> forallb (good_variant tg) vs = true ->
  enum_schema tg vs = Done ps -> GoodE ps (enum_exp rec tg vs).
Proof.
  intros Ht Hvs Hps. unfold enum_schema, enum_exp in *.
  destruct vs as [|v [|v2 vs]]; [discriminate| |].
  - cbn [forallb] in Hvs. rewrite andb_true_r in Hvs. eapply good_variant_ok; eauto.
  - remember (v :: v2 :: vs) as l eqn:El. clear El v v2 vs.
    destruct (omap (variant_schema tg) l) as [xs| | |] eqn:Hxs; try discriminate.
    cbn [obind] in Hps. apply omap_spec in Hxs.
    assert (HG : Good run (fun l => commas (map tokens_of l)) (Forall okexp)
                   (join ", " xs) (all_some (map (variant_exp rec tg) l))).
    { assert (Hj := Good_join run (@snd variant (list piece))
               (fun p => variant_exp rec tg (fst p)) tokens_of okexp ", " (combine l xs) eq_refl).
      assert (Hc : map snd (combine l xs) = xs /\ map fst (combine l xs) = l).
      { clear - Hxs. induction Hxs as [|x y l xs H Hxs [IH1 IH2]]; [auto|].
        cbn. now rewrite IH1, IH2. }
      rewrite (proj1 Hc) in Hj. rewrite <- (map_map fst (variant_exp rec tg)) in Hj.
      rewrite (proj2 Hc) in Hj. apply Hj. intros [x y] Hin. cbn [fst snd].
      assert (In x l /\ variant_schema tg x = Done y) as [Hx Hy].
      { clear - Hxs Hin. induction Hxs as [|a b l xs H Hxs IH]; [destruct Hin|].
        destruct Hin as [Heq|Hin]; [injection Heq as -> ->; split; [now left|exact H]|].
        destruct (IH Hin). split; [now right|assumption]. }
      rewrite forallb_forall in Hvs. eapply good_variant_ok; eauto. }
    destruct tg as [|tag|tag content|]; cbn [good_tag] in Ht; (apply (f_equal (undone [])) in Hps; cbn [undone obind] in Hps; subst ps);
      (eapply good_enclose; [ |reflexivity|exact HG|]).
    + reflexivity.
    + intros es Hes. split; [now apply okexp_union|tokeq].
    + assert (Hs := ident_str _ Ht). lexes.
    + intros es Hes. split; [|tokeq]. apply okexp_zcall. repeat constructor. now apply wf_arr.
    + apply andb_true_iff in Ht as [Ht _]. assert (Hs := ident_str _ Ht). lexes.
    + intros es Hes. split; [|tokeq]. apply okexp_zcall. repeat constructor. now apply wf_arr.
    + reflexivity.
    + intros es Hes. split; [now apply okexp_union|tokeq].
Qed.

(** ** Declarations *)
Lemma good_lazy d : good_decl d = true -> GoodE (lazy_ref d) (Some (lazy_exp d)).
Proof.
  intros H. unfold good_decl in H. apply andb_true_iff in H as [H _].
  apply andb_true_iff in H as [H Hname]. apply andb_true_iff in H as [Hns Hres].
  apply Good_pure.
  - eapply eq_trans; [lexes|]. reflexivity.
  - apply okexp_zcall. repeat constructor. cbn. unfold negb in *. 
    change (negb (reserved (d_ns d)) && true = true). now rewrite andb_true_r.
Qed.

Lemma good_decl_ok d im : good_decl d = true -> derive d = Done im ->
  GoodE (i_schema im) (decl_exp rec d) /\ GoodE (i_inline_schema im) (decl_ref rec d).
Proof.
  intros Hd Him. assert (Hl := good_lazy d Hd). unfold good_decl in Hd.
  apply andb_true_iff in Hd as [_ Hb].
  unfold derive, decl_exp, decl_ref in *. destruct (d_body d) as [st tr fs|tg vs].
  - unfold derive_struct in Him. destruct st; try discriminate;
    (destruct (struct_schema _ tr _) as [sch| | |] eqn:Hsch; try discriminate;
     destruct (struct_type _ tr _) as [td| | |]; try discriminate;
     cbn [obind] in Him; injection Him as <-;
     destruct (d_from d) as [t|]; cbn [i_schema i_inline_schema]; split; try exact Hl;
     [apply good_call; auto|eapply good_struct; eauto; discriminate]).
  - unfold derive_enum in Him. apply andb_true_iff in Hb as [Ht Hvs].
    destruct (enum_schema tg _) as [sch| | |] eqn:Hsch; try discriminate.
    destruct (enum_type tg _) as [td| | |]; try discriminate.
    cbn [obind] in Him. injection Him as <-.
    destruct (d_from d) as [t|]; cbn [i_schema i_inline_schema]; split; try exact Hl;
      try (apply good_call; auto). eapply good_enum; eauto.
Qed.
End Step.

Lemma good_lookup E i : good_names E -> good_decl (lookup E i) = true.
Proof.
  intros H. unfold lookup. destruct (nth_in_or_default i E dummy_decl) as [Hi|Hi].
  - unfold good_names in H. rewrite Forall_forall in H. now apply H.
  - rewrite Hi. reflexivity.
Qed.

Lemma gen_lex E : good_names E -> forall n q t s, sq q -> gen E n q t = Some s ->
  exists e, agen E n q t = Some e /\ okexp e /\ lexm M0 s = (M0, tokens_of e).
Proof.
  intros HE. induction n as [|n IH]; intros q t s Hq Hs; [discriminate|].
  cbn [gen] in Hs. destruct (expand E q t) as [ps|] eqn:Hps; [|discriminate].
  cbn [agen].
  assert (Hb : (forall i, t <> TNamed i) ->
    exists e, match q with Schema => builtin_exp (agen E n) t | _ => agen E n Schema t end = Some e
      /\ okexp e /\ lexm M0 s = (M0, tokens_of e)).
  { intros Hn. destruct Hq as [-> | ->].
    - apply (good_builtin _ _ IH t Hn). rewrite <- Hs. f_equal.
      destruct t; try (injection Hps as <-; reflexivity). now destruct (Hn i).
    - apply (good_call _ _ IH Schema t (or_introl eq_refl)). rewrite <- Hs. f_equal.
      destruct t; try (injection Hps as <-; reflexivity). now destruct (Hn i). }
  destruct t; try (apply Hb; intros j; discriminate). clear Hb.
  cbn [expand] in Hps. destruct (derive (lookup E i)) as [im| | |] eqn:Him; try discriminate.
  injection Hps as <-.
  destruct (good_decl_ok _ _ IH (lookup E i) im (good_lookup E i HE) Him) as [H1 H2].
  destruct Hq as [-> | ->]; [now apply H1|now apply H2].
Qed.

Lemma gen_agen E n q t s : good_names E -> sq q -> gen E n q t = Some s ->
  exists e, agen E n q t = Some e /\ wf e = true /\ lex s = Some (tokens_of e) /\ js_parse s = Some e.
Proof.
  intros HE Hq Hs. destruct (gen_lex E HE n q t s Hq Hs) as (e & He & Hok & Hl).
  exists e. split; [exact He|]. split; [apply Hok|].
  assert (Hlex : lex s = Some (tokens_of e)).
  { unfold lex. rewrite Hl. cbn [finish]. now rewrite app_nil_r. }
  split; [exact Hlex|]. unfold js_parse. rewrite Hlex. apply parse_complete, Hok.
Qed.

Lemma tokens_unique e e' : wf e = true -> wf e' = true -> tokens_of e = tokens_of e' -> e = e'.
Proof.
  intros H H' Heq. apply parse_complete in H, H'. rewrite Heq, H' in H. now injection H.
Qed.

(** The text of every schema query is one expression, in exactly one way. *)
Theorem schema_text_parses E q t s : good_names E -> (q = Schema \/ q = InlineSchema) ->
  returns E q t s ->
  exists ts e, lex s = Some ts /\ tokens_of e = ts /\ wf e = true /\ js_parse s = Some e /\
    forall e', wf e' = true -> tokens_of e' = ts -> e' = e.
Proof.
  intros HE Hq [n Hn]. destruct (gen_agen E n q t s HE Hq Hn) as (e & _ & Hw & Hl & Hp).
  exists (tokens_of e), e. repeat split; auto. intros e' Hw' Ht. now apply tokens_unique.
Qed.
