(** The schemas the generated texts evaluate to (proof device).

    [zgen] says which zod schema each text builds; that loading the text really gives it is
    proved below, so nothing about [zgen] is trusted. *)
From Coq Require Import List String Ascii Bool NArith ZArith Lia.
From Verif Require Import RustTy Gen GenSpec GenProofs JsLex JsParse Js Zod Ast AstProofs ZodProofs ZodSpec ZodLoad.
Import ListNotations.
Local Open Scope string_scope.
Local Open Scope list_scope.

Definition zprim (p : prim) : option zod :=
  match eval_schema (prim_exp p) with Val z => Some z | _ => None end.

Definition zopt (b : bool) (z : zod) : zod := if b then ZOptional z else z.

Definition unit_z (tg : tagging) (name : string) : zod :=
  match tg with
  | External => ZLit (js name)
  | Internal tag | Adjacent tag _ => ZObject [(tag, ZLit (js name))]
  | Untagged => ZNull
  end.

Definition zlits (tg : tagging) (name : string) (inner : zod) : zod :=
  match tg with
  | External | Internal _ => ZObject [(name, inner)]
  | Adjacent tag content => ZObject (shape [(tag, ZLit (js name)); (content, inner)])
  | Untagged => inner
  end.

Section Step.
Context (rec : query -> ty -> option zod).

Definition builtin_z (t : ty) : option zod :=
  match t with
  | TPrim p => zprim p
  | TTuple ts => option_map ZTuple (all_some (map (rec Schema) ts))
  | TWrap _ t => rec Schema t
  | TVec t => option_map ZArray (rec InlineSchema t)
  | TArr _ t => rec Schema (TVec t)
  | TSet Hash t => option_map ZSet (rec InlineSchema t)
  | TSet BTree t => rec Schema (TSet Hash t)
  | TMap Hash k v => bind (rec InlineSchema k) (fun a => option_map (ZMap a) (rec InlineSchema v))
  | TMap BTree k v => rec Schema (TMap Hash k v)
  | TOpt t => option_map ZOptional (rec InlineSchema t)
  | TRes t e =>
      bind (rec InlineSchema t) (fun a =>
      option_map (fun b => ZUnion [ZObject [("Ok", a)]; ZObject [("Err", b)]]) (rec InlineSchema e))
  | TNamed _ => None
  end.

Definition field_z (f : field) : option zod :=
  option_map (zopt (f_default f)) (rec InlineSchema (f_ty f)).
Definition prop_z (f : field) : option (string * zod) := option_map (pair (f_name f)) (field_z f).

Definition struct_z (st : style) (tr : bool) (fs : list field) : option zod :=
  let ks := filter plain (kept fs) in
  match tr, st with
  | true, _ => match ks with f :: _ => field_z f | [] => None end
  | false, StTuple =>
      match ks with
      | [] => None
      | [f] => field_z f
      | _ => option_map ZTuple (all_some (map field_z ks))
      end
  | false, StNamed =>
      bind (all_some (map prop_z ks)) (fun ps =>
      option_map (fun es => ZObject (fold_left (fun o _ => oset o "_def" ZJunk) es (shape ps)))
        (all_some (map field_z (filter f_flatten (kept fs)))))
  | false, StUnit => None
  end.

Definition variant_z (tg : tagging) (v : variant) : option zod :=
  let fs := kept (v_fields v) in
  match v_style v with
  | StUnit => Some (unit_z tg (v_name v))
  | StNamed =>
      match fs with
      | [] => None
      | _ =>
          option_map (fun ps =>
            match tg with
            | Internal tag => ZObject (shape ((tag, ZLit (js (v_name v))) :: ps))
            | _ => zlits tg (v_name v) (ZObject (shape ps))
            end) (all_some (map prop_z fs))
      end
  | StTuple =>
      match fs with
      | [] => Some (unit_z tg (v_name v))
      | [f] => option_map (zlits tg (v_name v)) (field_z f)
      | _ => option_map (fun zs => zlits tg (v_name v) (ZTuple zs)) (all_some (map field_z fs))
      end
  end.

Definition enum_z (tg : tagging) (vs : list variant) : option zod :=
  match vs with
  | [] => None
  | [v] => variant_z tg v
  | _ =>
      bind (all_some (map (variant_z tg) vs)) (fun zs =>
      match tg with
      | External | Untagged => Some (ZUnion zs)
      | Internal tag | Adjacent tag _ =>
          match disc_opts tag [] zs with Val opts => Some (ZDisc tag opts) | _ => None end
      end)
  end.

Definition decl_z (d : decl) : option zod :=
  match d_from d, d_body d with
  | Some t, BStruct _ _ _ => rec InlineSchema t
  | Some t, BEnum _ _ => rec Schema t
  | None, BStruct st tr fs => struct_z st tr fs
  | None, BEnum tg vs => enum_z tg (kept_variants vs)
  end.

Definition ref_z (d : decl) : option zod :=
  match d_from d, d_body d with
  | Some t, BEnum _ _ => rec InlineSchema t
  | _, _ => Some (ZLazy (d_ns d) (d_name d))
  end.
End Step.

Fixpoint zgen (E : env) (fuel : nat) (q : query) (t : ty) : option zod :=
  match fuel with
  | O => None
  | S n =>
      match t with
      | TNamed i =>
          match q with
          | Schema => decl_z (zgen E n) (lookup E i)
          | _ => ref_z (zgen E n) (lookup E i)
          end
      | _ => match q with Schema => builtin_z (zgen E n) t | _ => zgen E n Schema t end
      end
  end.

Lemma ebind_val {A B} (x : ev A) (f : A -> ev B) b :
  ebind x f = Val b -> exists a, x = Val a /\ f a = Val b.
Proof. destruct x; try discriminate. cbn. eauto. Qed.

Lemma all_some_Forall2 {A B C} (f : A -> option B) (g : B -> ev C) (h : A -> option C) l es zs :
  all_some (map f l) = Some es -> emap g es = Val zs ->
  (forall x e z, f x = Some e -> g e = Val z -> h x = Some z) ->
  all_some (map h l) = Some zs.
Proof.
  intros Hs He H. apply all_some_map. apply all_some_map in Hs. apply emap_val in He.
  revert zs He. induction Hs as [|x e l es Hx _ IH]; intros zs He; inversion He; subst; constructor; eauto.
Qed.

Section ZStep.
Context (rec : query -> ty -> option jsexp) (zrec : query -> ty -> option zod).
Context (Hcall : forall q t e, sq q -> rec q t = Some e -> is_call e).
Context (Hrec : forall q t e z, sq q -> rec q t = Some e -> eval_schema e = Val z -> zrec q t = Some z).

Let Hs : sq Schema := or_introl eq_refl.
Let Hi : sq InlineSchema := or_intror eq_refl.

Lemma field_zok f e z : field_exp rec (f_ty f) (f_default f) = Some e -> eval_schema e = Val z ->
  field_z zrec f = Some z.
Proof.
  unfold field_exp, field_z. destruct (rec InlineSchema (f_ty f)) as [x|] eqn:Hx; [|discriminate].
  intros [= <-]. rewrite eval_opt by (eapply Hcall; eauto). intros H. apply ebind_val in H as [y [Hy H]].
  rewrite (Hrec _ _ _ _ Hi Hx Hy). cbn. unfold zopt. congruence.
Qed.

Lemma prop_zok f p z : prop_exp rec (f_name f) (f_ty f) (f_default f) = Some p -> eval_prop p = Val z ->
  prop_z zrec f = Some z.
Proof.
  unfold prop_exp, prop_z. destruct (field_exp rec (f_ty f) (f_default f)) as [e|] eqn:He; [|discriminate].
  intros [= <-]. unfold eval_prop. cbn [fst snd]. intros H. apply ebind_val in H as [y [Hy H]].
  rewrite (field_zok f e y He Hy). cbn. congruence.
Qed.

Lemma fields_call {A} (f : A -> option jsexp) l es :
  (forall x e, f x = Some e -> is_call e) -> all_some (map f l) = Some es -> Forall is_call es.
Proof.
  intros H He. apply all_some_map in He. induction He; constructor; eauto.
Qed.

Lemma field_call t b e : field_exp rec t b = Some e -> is_call e.
Proof. apply call_field. exact Hcall. Qed.

Lemma props_entry fs ps : Forall (fun k => k <> "__proto__") (map f_name fs) ->
  all_some (map (fun f => prop_exp rec (f_name f) (f_ty f) (f_default f)) fs) = Some ps -> Forall entry ps.
Proof.
  intros Hn He. apply all_some_map in He. revert Hn. induction He as [|f p fs ps H _ IH]; intros Hn; constructor.
  - unfold prop_exp in H. destruct (field_exp rec (f_ty f) (f_default f)) as [e|] eqn:Hx; [|discriminate].
    injection H as <-. split; [eapply field_call; exact Hx|]. now inversion Hn.
  - apply IH. now inversion Hn.
Qed.

Lemma props_zok fs ps z : Forall (fun k => k <> "__proto__") (map f_name fs) ->
  all_some (map (fun f => prop_exp rec (f_name f) (f_ty f) (f_default f)) fs) = Some ps ->
  eval_schema (obj_exp ps) = Val z ->
  exists qs, all_some (map (prop_z zrec) fs) = Some qs /\ z = ZObject (shape qs).
Proof.
  intros Hn He Hz. rewrite eval_obj in Hz by (eapply props_entry; eauto).
  apply ebind_val in Hz as [qs [Hq Hz]]. exists qs. split; [|congruence].
  eapply all_some_Forall2; [exact He|exact Hq|]. intros f p y. apply prop_zok.
Qed.

Lemma builtin_zok t e z : builtin_exp rec t = Some e -> eval_schema e = Val z -> builtin_z zrec t = Some z.
Proof.
  destruct t as [p|ts|w t|t|k t|[] t|[] k v|t|t x|i]; cbn [builtin_exp builtin_z]; intros He Hz;
    try (now apply (Hrec _ _ _ _ Hs He Hz)); try discriminate.
  - injection He as <-. unfold zprim. now rewrite Hz.
  - destruct (all_some (map (rec Schema) ts)) as [es|] eqn:Hes; [|discriminate]. injection He as <-.
    rewrite eval_tup in Hz by (eapply fields_call; [|exact Hes]; intros y ey; apply Hcall, Hs).
    apply ebind_val in Hz as [zs [Hzs Hz]].
    rewrite (all_some_Forall2 _ _ (zrec Schema) _ _ _ Hes Hzs); [cbn; congruence|]. intros y ey zy. now apply Hrec.
  - destruct (rec InlineSchema t) as [y|] eqn:Hy; [|discriminate]. injection He as <-.
    rewrite eval_arr in Hz by (eapply Hcall; eauto). apply ebind_val in Hz as [a [Ha Hz]].
    rewrite (Hrec _ _ _ _ Hi Hy Ha). cbn. congruence.
  - destruct (rec InlineSchema t) as [y|] eqn:Hy; [|discriminate]. injection He as <-.
    rewrite eval_set in Hz by (eapply Hcall; eauto). apply ebind_val in Hz as [a [Ha Hz]].
    rewrite (Hrec _ _ _ _ Hi Hy Ha). cbn. congruence.
  - destruct (rec InlineSchema k) as [y|] eqn:Hy; [|discriminate].
    destruct (rec InlineSchema v) as [y2|] eqn:Hy2; [|discriminate]. injection He as <-.
    rewrite eval_map in Hz by (eapply Hcall; eauto). apply ebind_val in Hz as [a [Ha Hz]].
    apply ebind_val in Hz as [b [Hb Hz]].
    rewrite (Hrec _ _ _ _ Hi Hy Ha), (Hrec _ _ _ _ Hi Hy2 Hb). cbn. congruence.
  - destruct (rec InlineSchema t) as [y|] eqn:Hy; [|discriminate]. injection He as <-.
    change (eval_schema (opt_exp true y) = Val z) in Hz. rewrite eval_opt in Hz by (eapply Hcall; eauto). apply ebind_val in Hz as [a [Ha Hz]].
    rewrite (Hrec _ _ _ _ Hi Hy Ha). cbn. congruence.
  - destruct (rec InlineSchema t) as [y|] eqn:Hy; [|discriminate].
    destruct (rec InlineSchema x) as [y2|] eqn:Hy2; [|discriminate]. injection He as <-.
    assert (Hc1 : is_call y) by (eapply Hcall; eauto). assert (Hc2 : is_call y2) by (eapply Hcall; eauto).
    rewrite eval_union in Hz by (repeat constructor). rewrite !emap_cons in Hz.
    apply ebind_val in Hz as [zs [Hzs Hz]]. apply ebind_val in Hzs as [a [Ha Hzs]].
    apply ebind_val in Hzs as [r [Hr Hzs]]. apply ebind_val in Hr as [b [Hb Hr]].
    rewrite eval_single in Ha, Hb by easy. apply ebind_val in Ha as [a' [Ha Ha']]. apply ebind_val in Hb as [b' [Hb Hb']].
    rewrite (Hrec _ _ _ _ Hi Hy Ha), (Hrec _ _ _ _ Hi Hy2 Hb). cbn in Hr |- *. congruence.
Qed.

Lemma sval_field st tr f : sval rec (mk_sf st tr f) = field_exp rec (f_ty f) (f_default f).
Proof. reflexivity. Qed.

Lemma extend_zok es zs : Forall is_call es -> emap eval_schema es = Val zs -> forall o ps z, is_call o ->
  eval_schema o = Val (ZObject ps) ->
  eval_schema (fold_left (fun o e => meth o "extend" [e]) es o) = Val z ->
  z = ZObject (fold_left (fun o _ => oset o "_def" ZJunk) zs ps).
Proof.
  intros Hc He. apply emap_val in He. revert Hc. induction He as [|e ze es zs He _ IH]; intros Hc o ps z Ho Hv Hz.
  - cbn in *. congruence.
  - cbn [fold_left] in *. inversion Hc; subst. eapply IH; [assumption| | |exact Hz].
    + exact I.
    + rewrite eval_extend by assumption. rewrite Hv, He. reflexivity.
Qed.

Lemma extend_vals es : Forall is_call es -> forall o z, is_call o ->
  eval_schema (fold_left (fun o e => meth o "extend" [e]) es o) = Val z ->
  (exists y, eval_schema o = Val y) /\ exists zs, emap eval_schema es = Val zs.
Proof.
  induction 1 as [|e es He _ IH]; intros o z Ho Hz; cbn [fold_left] in Hz.
  - split; [eauto|]. now exists [].
  - apply IH in Hz as [[y Hy] [zs Hzs]]; [|exact I]. rewrite eval_extend in Hy by assumption.
    apply ebind_val in Hy as [a [Ha Hy]]. apply ebind_val in Hy as [b [Hb Hy]].
    split; [eauto|]. exists (b :: zs). now rewrite emap_cons, Hb, Hzs.
Qed.

Lemma struct_zok st tr fs e z :
  Forall (fun k => k <> "__proto__") (match st with StNamed => map f_name (kept fs) | _ => [] end) ->
  struct_exp rec st tr (struct_fields st tr fs) = Some e -> eval_schema e = Val z ->
  struct_z zrec st tr fs = Some z.
Proof.
  unfold struct_exp, struct_z. rewrite plain_sfields, flat_sfields. intros Hn He Hz. destruct tr.
  - destruct (filter plain (kept fs)) as [|f r]; [discriminate|]. eapply field_zok; [exact He|exact Hz].
  - destruct st.
    + rewrite !map_map in He.
      destruct (all_some (map (fun x => sprop rec (mk_sf StNamed false x)) _)) as [ps|] eqn:Hps; [|discriminate].
      cbn [bind] in He.
      destruct (all_some (map (fun x => sval rec (mk_sf StNamed false x)) _)) as [es|] eqn:Hes; [|discriminate].
      injection He as <-. pose proof (proto_filter plain fs) as _.
      assert (Hc : Forall is_call es).
      { eapply fields_call; [|exact Hes]. intros x ex. cbn. apply field_call. }
      destruct (extend_vals es Hc (obj_exp ps) z I Hz) as [[y Hy] [zs Hzs]].
      destruct (props_zok (filter plain (kept fs)) ps y) as [qs [Hqs ->]];
        [now apply proto_filter|exact Hps|exact Hy|].
      rewrite (extend_zok es zs Hc Hzs (obj_exp ps) _ _ I Hy Hz). rewrite Hqs. cbn [bind].
      rewrite (all_some_Forall2 _ _ (field_z zrec) _ _ _ Hes Hzs); [reflexivity|]. intros f ef zf. apply field_zok.
    + destruct (filter plain (kept fs)) as [|f [|f2 r]]; [discriminate| |].
      * eapply field_zok; [exact He|exact Hz].
      * change (match map (mk_sf StTuple false) (f :: f2 :: r) with
                | [] => None | [g] => sval rec g
                | _ => option_map tup_exp (all_some (map (sval rec) (map (mk_sf StTuple false) (f :: f2 :: r))))
                end)
          with (option_map tup_exp (all_some (map (sval rec) (map (mk_sf StTuple false) (f :: f2 :: r))))) in He.
        rewrite map_map in He. destruct (all_some _) as [es|] eqn:Hes; [|discriminate]. injection He as <-.
        rewrite eval_tup in Hz by (eapply fields_call; [|exact Hes]; intros x ex; cbn; apply field_call).
        apply ebind_val in Hz as [zs [Hzs Hz]].
        rewrite (all_some_Forall2 _ _ (field_z zrec) _ _ _ Hes Hzs); [cbn; congruence|]. intros x ex zx. apply field_zok.
    + discriminate.
Qed.

Lemma unit_zok tg name z : Forall (fun k => k <> "__proto__") (tag_names tg) ->
  eval_schema (unit_exp tg name) = Val z -> unit_z tg name = z.
Proof. intros H. rewrite eval_unit by exact H. intros [= <-]. now destruct tg. Qed.

(** Everything but an internally tagged struct variant. *)
Definition lits_exp (tg : tagging) (name : string) (inner : jsexp) : jsexp :=
  match tg with
  | External | Internal _ => obj_exp [(name, inner)]
  | Adjacent tag content => obj_exp [(tag, lit_exp name); (content, inner)]
  | Untagged => inner
  end.

Lemma lits_zok tg name inner z : is_call inner -> Forall (fun k => k <> "__proto__") (name :: tag_names tg) ->
  eval_schema (lits_exp tg name inner) = Val z ->
  exists y, eval_schema inner = Val y /\ z = zlits tg name y.
Proof.
  intros Hc Hn Hz. inversion Hn as [|? ? Hn1 Hn2]; subst. destruct tg as [|t|t c|]; cbn [lits_exp zlits tag_names] in *.
  - rewrite eval_single in Hz by easy. apply ebind_val in Hz as [y [Hy Hz]]. exists y. split; [exact Hy|]. cbn in Hz. congruence.
  - rewrite eval_single in Hz by easy. apply ebind_val in Hz as [y [Hy Hz]]. exists y. split; [exact Hy|]. cbn in Hz. congruence.
  - inversion Hn2 as [|? ? H1 H2]; subst. inversion H2; subst. rewrite eval_tagged in Hz by easy.
    apply ebind_val in Hz as [y [Hy Hz]]. exists y. split; [exact Hy|]. cbn in Hz |- *. congruence.
  - eauto.
Qed.

Lemma variant_zok tg v e z :
  Forall (fun k => k <> "__proto__") (tag_names tg ++ v_name v :: map f_name (kept (v_fields v))) ->
  variant_exp rec tg v = Some e -> eval_schema e = Val z -> variant_z zrec tg v = Some z.
Proof.
  intros Hn He Hz. apply Forall_app in Hn as [Hnt Hn]. inversion Hn as [|? ? Hnv Hnf]; subst. clear Hn.
  unfold variant_exp, variant_z in *. change (variant_fields (v_fields v)) with (kept (v_fields v)) in He.
  destruct (v_style v).
  - unfold named_exp in He. destruct (kept (v_fields v)) as [|f r] eqn:Hk; [discriminate|]. rewrite <- Hk in *.
    destruct (all_some _) as [ps|] eqn:Hps in He; [|discriminate]. injection He as <-.
    assert (Hpe : Forall entry ps) by (eapply props_entry; eauto).
    assert (Hl : forall z, eval_schema (lits_exp tg (v_name v) (obj_exp ps)) = Val z ->
       option_map (fun ps => zlits tg (v_name v) (ZObject (shape ps))) (all_some (map (prop_z zrec) (kept (v_fields v)))) = Some z).
    { clear Hz z. intros z Hz. apply lits_zok in Hz as [y [Hy ->]]; [|exact I|now constructor].
      destruct (props_zok _ _ _ Hnf Hps Hy) as [qs [Hqs ->]]. now rewrite Hqs. }
    destruct tg as [|t|t c|]; try (now apply Hl). clear Hl.
    inversion Hnt; subst. rewrite eval_obj in Hz by (constructor; [now split|exact Hpe]).
    rewrite emap_cons in Hz. unfold eval_prop at 1 in Hz. cbn [fst snd] in Hz. rewrite eval_lit in Hz. cbn [ebind] in Hz.
    apply ebind_val in Hz as [qs [Hq Hz]]. apply ebind_val in Hq as [rs [Hr Hq]].
    rewrite (all_some_Forall2 _ _ (prop_z zrec) _ _ _ Hps Hr); [injection Hq as <-; injection Hz as <-; reflexivity|]. intros x px zx. apply prop_zok.
  - unfold tuple_exp in He. destruct (kept (v_fields v)) as [|f [|f2 r]] eqn:Hk.
    + injection He as <-. f_equal. now apply unit_zok.
    + destruct (field_exp _ _ _) as [x|] eqn:Hx; [|discriminate]. injection He as <-.
      apply (lits_zok tg) in Hz as [y [Hy ->]]; [|eapply field_call; exact Hx|now constructor].
      now rewrite (field_zok f x y Hx Hy).
    + rewrite <- Hk in *. destruct (all_some _) as [es|] eqn:Hes in He; [|discriminate]. injection He as <-.
      apply (lits_zok tg) in Hz as [y [Hy ->]]; [|exact I|now constructor].
      rewrite eval_tup in Hy by (eapply fields_call; [|exact Hes]; intros x ex; cbn; apply field_call).
      apply ebind_val in Hy as [zs [Hzs Hy]].
      rewrite (all_some_Forall2 _ _ (field_z zrec) _ _ _ Hes Hzs); [cbn; congruence|]. intros x ex zx. apply field_zok.
  - injection He as <-. f_equal. now apply unit_zok.
Qed.

Lemma enum_zok tg vs e z :
  Forall (fun k => k <> "__proto__") (tag_names tg ++ flat_map (fun v => v_name v :: map f_name (kept (v_fields v))) vs) ->
  (forall v e, variant_exp rec tg v = Some e -> is_call e) ->
  enum_exp rec tg vs = Some e -> eval_schema e = Val z -> enum_z zrec tg vs = Some z.
Proof.
  intros Hn Hvc He Hz.
  assert (Hv : forall v e z, In v vs -> variant_exp rec tg v = Some e -> eval_schema e = Val z -> variant_z zrec tg v = Some z).
  { intros v e' z' Hin. apply variant_zok. apply Forall_app in Hn as [H1 H2]. apply Forall_app. split; [exact H1|].
    rewrite Forall_forall in H2 |- *. intros k Hk. apply H2. apply in_flat_map. eauto. }
  unfold enum_exp, enum_z in *. destruct vs as [|v [|v2 r]]; [discriminate| |].
  - eapply Hv; [now left|exact He|exact Hz].
  - destruct (all_some (map (variant_exp rec tg) (v :: v2 :: r))) as [es|] eqn:Hes; [|discriminate]. injection He as <-.
    assert (Hc : Forall is_call es) by (eapply fields_call; eauto).
    assert (Ha : forall zs, emap eval_schema es = Val zs ->
       all_some (map (variant_z zrec tg) (v :: v2 :: r)) = Some zs).
    { intros zs Hzs. apply all_some_map. apply all_some_map in Hes. apply emap_val in Hzs.
      revert zs Hzs Hv. clear -Hes. induction Hes as [|x ex l es Hx _ IH]; intros zs Hzs Hv; inversion Hzs; subst; constructor.
      - eapply Hv; [now left| |]; eassumption.
      - apply IH; [assumption|]. intros v' e' z' Hin. apply Hv. now right. }
    destruct tg as [|t|t c|].
    + rewrite eval_union in Hz by exact Hc. apply ebind_val in Hz as [zs [Hzs Hz]]. rewrite (Ha zs Hzs). cbn. congruence.
    + rewrite eval_disc in Hz by exact Hc. apply ebind_val in Hz as [zs [Hzs Hz]]. rewrite (Ha zs Hzs). cbn [bind].
      apply ebind_val in Hz as [os [Hos Hz]]. rewrite Hos. congruence.
    + rewrite eval_disc in Hz by exact Hc. apply ebind_val in Hz as [zs [Hzs Hz]]. rewrite (Ha zs Hzs). cbn [bind].
      apply ebind_val in Hz as [os [Hos Hz]]. rewrite Hos. congruence.
    + rewrite eval_union in Hz by exact Hc. apply ebind_val in Hz as [zs [Hzs Hz]]. rewrite (Ha zs Hzs). cbn. congruence.
Qed.

Lemma variant_call tg v e : variant_exp rec tg v = Some e -> is_call e.
Proof.
  intros H. unfold variant_exp in H. destruct (v_style v).
  - unfold named_exp in H. destruct (variant_fields _); [discriminate|].
    destruct (all_some _); [|discriminate]. injection H as <-. destruct tg; exact I.
  - unfold tuple_exp in H. destruct (variant_fields (v_fields v)) as [|f [|f2 r]].
    + injection H as <-. destruct tg; exact I.
    + destruct (field_exp _ _ _) as [x|] eqn:Hx; [|discriminate]. injection H as <-.
      destruct tg; try exact I. eapply field_call; exact Hx.
    + destruct (all_some _); [|discriminate]. injection H as <-. destruct tg; exact I.
  - injection H as <-. destruct tg; exact I.
Qed.

Lemma decl_zok d e z : tag_ok d -> decl_exp rec d = Some e -> eval_schema e = Val z -> decl_z zrec d = Some z.
Proof.
  intros [_ Hn] He Hz. unfold decl_exp, decl_z, decl_keys in *. destruct (d_from d) as [t|], (d_body d) as [st tr fs|tg vs].
  - eapply Hrec; eauto.
  - eapply Hrec; eauto.
  - eapply struct_zok; [|exact He|exact Hz]. now destruct st.
  - eapply enum_zok; [exact Hn|apply variant_call|exact He|exact Hz].
Qed.

Lemma ref_zok d e z : decl_ref rec d = Some e -> eval_schema e = Val z -> ref_z zrec d = Some z.
Proof.
  intros He Hz. unfold decl_ref, ref_z in *. destruct (d_from d) as [t|], (d_body d) as [st tr fs|tg vs];
    try (injection He as <-; rewrite eval_lazy in Hz; congruence). eapply Hrec; eauto.
Qed.
End ZStep.

Theorem zgen_ok E : tags_ok E -> forall n q t e z, sq q ->
  agen E n q t = Some e -> eval_schema e = Val z -> zgen E n q t = Some z.
Proof.
  intros HT. induction n as [|n IH]; intros q t e z Hq He Hz; [discriminate|].
  pose proof (agen_call E n) as Hcall.
  assert (Hb : (forall i, t <> TNamed i) ->
    match q with Schema => builtin_exp (agen E n) t | _ => agen E n Schema t end = Some e ->
    match q with Schema => builtin_z (zgen E n) t | _ => zgen E n Schema t end = Some z).
  { intros _ H. destruct Hq as [-> | ->].
    - eapply builtin_zok; [exact Hcall|exact IH|exact H|exact Hz].
    - eapply IH; [now left|exact H|exact Hz]. }
  cbn [agen zgen] in *. destruct t; try (apply Hb; [discriminate|exact He]). clear Hb.
  destruct (derive (lookup E i)); try discriminate. destruct Hq as [-> | ->].
  - eapply decl_zok; [exact Hcall|exact IH|now apply tag_lookup|exact He|exact Hz].
  - eapply ref_zok; [exact IH|exact He|exact Hz].
Qed.

Theorem load_zgen E t s z : good_names E -> tags_ok E -> returns E Schema t s -> load s = Val z ->
  exists n, zgen E n Schema t = Some z.
Proof.
  intros Hg HT [n Hn] Hl. exists n. destruct (gen_agen E n Schema t s Hg (or_introl eq_refl) Hn) as [e [He [_ [_ Hp]]]].
  unfold load in Hl. rewrite Hp in Hl. eapply zgen_ok; [exact HT|now left|exact He|exact Hl].
Qed.
