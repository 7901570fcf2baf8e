(** Which generated schemas load (proofs). *)
From Coq Require Import List String Ascii Bool NArith ZArith Lia Relations.
From Verif Require Import RustTy Gen GenSpec GenProofs JsLex JsParse Js Zod Ast AstProofs ZodProofs ZodSpec.
Import ListNotations.
Local Open Scope string_scope.
Local Open Scope list_scope.

(** ** Strings *)
Lemma jeqb_eq a : forall b, jeqb a b = true <-> a = b.
Proof.
  induction a as [|x a IH]; intros [|y b]; cbn; try easy.
  rewrite andb_true_iff, N.eqb_eq, IH. split; [now intros [-> ->]|now intros [= -> ->]].
Qed.

Lemma jeqb_refl a : jeqb a a = true.
Proof. now apply jeqb_eq. Qed.

Lemma jeqb_neq a b : jeqb a b = false <-> a <> b.
Proof. rewrite <- jeqb_eq. destruct (jeqb a b); easy. Qed.

Lemma js_inj s s' : js s = js s' -> s = s'.
Proof.
  unfold js. intros H.
  rewrite <- (string_of_list_ascii_of_string s), <- (string_of_list_ascii_of_string s'). f_equal.
  revert H. generalize (list_ascii_of_string s) (list_ascii_of_string s').
  induction l as [|a l IH]; intros [|b l']; cbn; try easy. intros [= H1 H2].
  rewrite <- (ascii_N_embedding a), <- (ascii_N_embedding b), H1. f_equal. now apply IH.
Qed.

Lemma js_eqb a b : jeqb (js a) (js b) = String.eqb a b.
Proof.
  destruct (String.eqb_spec a b) as [->|H]; [apply jeqb_refl|]. apply jeqb_neq.
  intros H'. now apply js_inj in H'.
Qed.

(** ** Shapes *)
Lemma oget_oset_same {A} (l : list (string * A)) k a : oget (oset l k a) k = Some a.
Proof.
  unfold oget, oset. destruct (existsb (key_eqb k) l) eqn:H.
  - induction l as [|p l IH]; [discriminate|]. cbn [existsb] in H. cbn [map find].
    destruct (key_eqb k p) eqn:Hk.
    + unfold key_eqb. cbn. now rewrite String.eqb_refl.
    + rewrite Hk. now apply IH.
  - induction l as [|p l IH]; cbn [app find].
    + unfold key_eqb. cbn. now rewrite String.eqb_refl.
    + cbn [existsb] in H. apply orb_false_iff in H as [-> H]. now apply IH.
Qed.

Lemma oget_oset_other {A} (l : list (string * A)) k k' a : k <> k' -> oget (oset l k' a) k = oget l k.
Proof.
  intros Hn. unfold oget, oset. destruct (existsb (key_eqb k') l) eqn:H.
  - clear H. induction l as [|p l IH]; [reflexivity|]. cbn [map find].
    destruct (key_eqb k' p) eqn:Hp.
    + unfold key_eqb in *. cbn [fst]. apply String.eqb_eq in Hp.
      destruct (String.eqb_spec k k'); [easy|]. rewrite <- Hp.
      destruct (String.eqb_spec k k'); [easy|]. exact IH.
    + destruct (key_eqb k p); [reflexivity|exact IH].
  - clear H. induction l as [|p l IH]; cbn [app find].
    + unfold key_eqb. cbn. destruct (String.eqb_spec k k'); easy.
    + destruct (key_eqb k p); [reflexivity|exact IH].
Qed.

Lemma oget_fold_notin {A} (l : list (string * A)) k : ~ In k (map fst l) -> forall o,
  oget (fold_left (fun o p => oset o (fst p) (snd p)) l o) k = oget o k.
Proof.
  induction l as [|[k' a] l IH]; intros Hn o; [reflexivity|]. cbn [fold_left fst snd].
  cbn in Hn. rewrite IH by (intros H; apply Hn; now right). apply oget_oset_other.
  intros ->. apply Hn. now left.
Qed.

Lemma shape_head {A} k a (l : list (string * A)) : ~ In k (map fst l) -> oget (shape ((k, a) :: l)) k = Some a.
Proof. intros H. unfold shape. cbn [fold_left fst snd]. rewrite oget_fold_notin by exact H. apply oget_oset_same. Qed.

Lemma oset_fresh {A} (l : list (string * A)) k a : ~ In k (map fst l) -> oset l k a = l ++ [(k, a)].
Proof.
  intros H. unfold oset. replace (existsb (key_eqb k) l) with false; [reflexivity|].
  symmetry. apply Bool.not_true_iff_false. intros He. apply existsb_exists in He as [p [Hp Hk]].
  apply H. unfold key_eqb in Hk. apply String.eqb_eq in Hk. rewrite Hk. now apply in_map.
Qed.

Lemma shape_nodup {A} (l : list (string * A)) : NoDup (map fst l) -> shape l = l.
Proof.
  unfold shape. intros H.
  assert (Hg : forall o, NoDup (map fst (o ++ l)) ->
    fold_left (fun o p => oset o (fst p) (snd p)) l o = o ++ l).
  { clear H. induction l as [|[k a] l IH]; intros o Ho; [now rewrite app_nil_r|].
    cbn [fold_left fst snd]. rewrite oset_fresh.
    - rewrite IH; rewrite <- app_assoc; [reflexivity|exact Ho].
    - rewrite map_app in Ho. cbn in Ho. apply NoDup_remove_2 in Ho. intros Hi. apply Ho.
      apply in_or_app. now left. }
  now apply Hg.
Qed.

(** ** Verdicts: a value and not [p], or an exception and [p] *)
Definition vd {A} (r : ev A) (p : Prop) : Prop := (exists a, r = Val a) /\ ~ p \/ r = Throw /\ p.

Lemma vd_iff {A} (r : ev A) p q : (p <-> q) -> vd r p -> vd r q.
Proof. unfold vd. tauto. Qed.

Lemma vd_map {A B} (r : ev A) (f : A -> B) p : vd r p -> vd (ebind r (fun a => Val (f a))) p.
Proof. intros [[[a ->] H]|[-> H]]; [left|right]; cbn; split; eauto. Qed.

Lemma vd_bind {A B} (r : ev A) (f : A -> ev B) p q : vd r p ->
  (forall a, r = Val a -> vd (f a) q) -> vd (ebind r f) (p \/ q).
Proof.
  intros [[[a Ha] H]|[-> H]] Hf; [|right; cbn; auto].
  rewrite Ha. cbn. destruct (Hf a Ha) as [[H1 H2]|[H1 H2]]; [left|right]; tauto.
Qed.

Lemma vd_emap {A B C} (f : A -> ev B) (P : C -> Prop) cs l :
  Forall2 (fun c x => vd (f x) (P c)) cs l -> vd (emap f l) (exists c, In c cs /\ P c).
Proof.
  induction 1 as [|c x cs l H _ IH].
  - left. split; [now exists []|]. now intros [c [[] _]].
  - rewrite emap_cons. destruct H as [[[y ->] H]|[-> H]]; cbn [ebind].
    + apply vd_map with (f := fun ys => y :: ys) in IH. revert IH. apply vd_iff. split.
      * intros [c' [Hc Hp]]. exists c'. split; [now right|easy].
      * intros [c' [[<-|Hc] Hp]]; [easy|eauto].
    + right. split; [reflexivity|]. exists c. split; [now left|easy].
Qed.

Lemma vd_val {A} (a : A) p : ~ p -> vd (Val a) p.
Proof. left. split; eauto. Qed.

Lemma NoDup_app_snoc {A} (l : list A) a : NoDup l -> ~ In a l -> NoDup (l ++ [a]).
Proof.
  intros H Ha. pose proof (Add_app a l []) as X. rewrite app_nil_r in X. now apply (NoDup_Add X).
Qed.

Section Load.
Context (E : env) (HT : tags_ok E).

Notation bad := (contains_throwing E).

Lemma bad_iff x : bad x <-> throwing E x \/ exists y, schema_needs E x y /\ bad y.
Proof.
  split.
  - intros [y [Hr Ht]]. apply clos_rt_rt1n in Hr. destruct Hr as [|z y Hs Hr]; [now left|].
    right. exists z. split; [exact Hs|]. exists y. split; [now apply clos_rt1n_rt|exact Ht].
  - intros [H|[y [Hs [z [Hr Ht]]]]].
    + exists x. split; [apply rt_refl|exact H].
    + exists z. split; [|exact Ht]. apply rt_trans with y; [now apply rt_step|exact Hr].
Qed.

Lemma tag_lookup i : tag_ok (lookup E i).
Proof.
  unfold lookup. destruct (Nat.lt_ge_cases i (List.length E)) as [H|H].
  - apply (proj1 (Forall_forall _ _) HT). now apply nth_In.
  - rewrite nth_overflow by exact H. split; [exact I|constructor].
Qed.

Definition qnode (q : query) (t : ty) : node :=
  match q with Schema | TypeDef => Full t | InlineSchema | Inline => Inl t end.

Section Step.
Context (rec : query -> ty -> option jsexp).
Context (Hcall : forall q t e, sq q -> rec q t = Some e -> is_call e).
Context (Hrec : forall q t e, sq q -> rec q t = Some e -> vd (eval_schema e) (bad (qnode q t))).

Lemma vd_field t b e : field_exp rec t b = Some e -> is_call e /\ vd (eval_schema e) (bad (Inl t)).
Proof.
  unfold field_exp. destruct (rec InlineSchema t) as [x|] eqn:Hx; [|discriminate]. intros [= <-].
  assert (Hc : is_call x) by (eapply Hcall; [now right|exact Hx]). split; [now apply call_opt|].
  rewrite eval_opt by exact Hc. apply (vd_map _ (fun z => if b then ZOptional z else z)).
  apply (Hrec InlineSchema); [now right|exact Hx].
Qed.

Lemma vd_prop k t b p : prop_exp rec k t b = Some p ->
  fst p = k /\ is_call (snd p) /\ vd (eval_prop p) (bad (Inl t)).
Proof.
  unfold prop_exp. destruct (field_exp rec t b) as [e|] eqn:He; [|discriminate]. intros [= <-].
  apply vd_field in He as [Hc Hv]. split; [reflexivity|]. split; [exact Hc|].
  unfold eval_prop. apply (vd_map _ (fun z => (k, z)) _ Hv).
Qed.

Lemma vd_list {A} (f : A -> option jsexp) (g : A -> ty) l es :
  all_some (map f l) = Some es ->
  (forall x e, In x l -> f x = Some e -> is_call e /\ vd (eval_schema e) (bad (Inl (g x)))) ->
  Forall is_call es /\ vd (emap eval_schema es) (exists x, In x l /\ bad (Inl (g x))).
Proof.
  rewrite all_some_map. intros H Hf. split.
  - induction H as [|x e l es H _ IH]; constructor.
    + apply (Hf x e); [now left|easy].
    + apply IH. intros y e' Hy. apply Hf. now right.
  - apply (vd_emap eval_schema (fun x => bad (Inl (g x)))).
    induction H as [|x e l es H _ IH]; constructor.
    + apply (Hf x e); [now left|easy].
    + apply IH. intros y e' Hy. apply Hf. now right.
Qed.

Lemma vd_props {A} (f : A -> option (string * jsexp)) (g : A -> ty) (h : A -> string) l ps :
  all_some (map f l) = Some ps -> Forall (fun k => k <> "__proto__") (map h l) ->
  (forall x p, In x l -> f x = Some p -> fst p = h x /\ is_call (snd p) /\ vd (eval_prop p) (bad (Inl (g x)))) ->
  map fst ps = map h l /\ Forall entry ps /\
  vd (emap eval_prop ps) (exists x, In x l /\ bad (Inl (g x))).
Proof.
  rewrite all_some_map. intros H Hnp Hf.
  assert (H2 : Forall2 (fun x p => fst p = h x /\ is_call (snd p) /\ vd (eval_prop p) (bad (Inl (g x)))) l ps).
  { clear Hnp. induction H as [|x e l es H _ IH]; constructor.
    - apply Hf; [now left|easy].
    - apply IH. intros y e' Hy. apply Hf. now right. }
  clear H Hf. split; [|split].
  - clear Hnp. induction H2 as [|x p l ps H _ IH]; [reflexivity|]. cbn. f_equal; [apply H|exact IH].
  - revert Hnp. induction H2 as [|x p l ps H _ IH]; intros Hnp; constructor; inversion Hnp; subst.
    + split; [apply H|]. destruct H as [-> _]. assumption.
    + now apply IH.
  - clear Hnp. apply (vd_emap eval_prop (fun x => bad (Inl (g x)))).
    induction H2 as [|x p l ps H _ IH]; constructor; [apply H|exact IH].
Qed.

Lemma vd_prim p : vd (eval_schema (prim_exp p)) (bad (Full (TPrim p))).
Proof.
  assert (Hn : p <> PBool -> ~ bad (Full (TPrim p))).
  { intros H Hb. apply bad_iff in Hb as [[Hb|[i [Hb _]]]|[y [Hb _]]].
    - injection Hb as ->. easy.
    - discriminate.
    - inversion Hb. }
  assert (Hv : p <> PBool -> (exists z, eval_schema (prim_exp p) = Val z) ->
    vd (eval_schema (prim_exp p)) (bad (Full (TPrim p)))) by (left; auto).
  destruct p as [|[]| | | | | | | |]; try (apply Hv; [easy|eexists; reflexivity]).
  right. split; [reflexivity|]. apply bad_iff. now left; left.
Qed.

Lemma not_throwing t : (forall i, t <> TNamed i) -> t <> TPrim PBool -> ~ throwing E (Full t).
Proof. intros H1 H2 [H|[i [H _]]]; injection H as ->; [now apply H2|now apply (H1 i)]. Qed.

Lemma vd_builtin t e : (forall i, t <> TNamed i) -> builtin_exp rec t = Some e ->
  vd (eval_schema e) (bad (Full t)).
Proof.
  intros Hnn He. assert (HR : forall x, bad x <-> throwing E x \/ exists y, schema_needs E x y /\ bad y) by apply bad_iff.
  destruct t as [p|ts|w t|t|k t|c t|c k v|t|t x|i]; cbn [builtin_exp] in He.
  - injection He as <-. apply vd_prim.
  - destruct (all_some (map (rec Schema) ts)) as [es|] eqn:Hes; [|discriminate]. injection He as <-.
    apply all_some_map in Hes.
    assert (Hc : Forall is_call es).
    { clear Hnn. induction Hes as [|a b l es H _ IH]; constructor; [|exact IH]. eapply Hcall; [now left|exact H]. }
    rewrite eval_tup by exact Hc. apply (vd_map _ ZTuple).
    apply vd_iff with (p := exists t, In t ts /\ bad (Full t)).
    + rewrite (HR (Full (TTuple ts))). split.
      * intros [t [Ht Hb]]. right. exists (Full t). split; [now constructor|easy].
      * intros [H|[y [Hy Hb]]]; [now apply not_throwing in H|]. inversion Hy; subst. eauto.
    + apply (vd_emap eval_schema (fun t => bad (Full t))). clear Hnn.
      induction Hes as [|a b l es H _ IH]; constructor.
      * apply (Hrec Schema); [now left|exact H].
      * inversion Hc; subst. now apply IH.
  - apply Hrec in He; [|now left]. revert He. apply vd_iff. cbn [qnode]. rewrite (HR (Full (TWrap w t))). split.
    + intros Hb. right. exists (Full t). split; [constructor|easy].
    + intros [H|[y [Hy Hb]]]; [now apply not_throwing in H|]. now inversion Hy; subst.
  - destruct (rec InlineSchema t) as [a|] eqn:Ha; [|discriminate]. injection He as <-.
    rewrite eval_arr by (eapply Hcall; [now right|exact Ha]). apply (vd_map _ ZArray).
    apply Hrec in Ha; [|now right]. revert Ha. apply vd_iff. cbn [qnode]. rewrite (HR (Full (TVec t))). split.
    + intros Hb. right. exists (Inl t). split; [constructor|easy].
    + intros [H|[y [Hy Hb]]]; [now apply not_throwing in H|]. now inversion Hy; subst.
  - apply Hrec in He; [|now left]. revert He. apply vd_iff. cbn [qnode]. rewrite (HR (Full (TArr k t))). split.
    + intros Hb. right. exists (Full (TVec t)). split; [constructor|easy].
    + intros [H|[y [Hy Hb]]]; [now apply not_throwing in H|]. now inversion Hy; subst.
  - destruct c.
    + destruct (rec InlineSchema t) as [a|] eqn:Ha; [|discriminate]. injection He as <-.
      rewrite eval_set by (eapply Hcall; [now right|exact Ha]). apply (vd_map _ ZSet).
      apply Hrec in Ha; [|now right]. revert Ha. apply vd_iff. cbn [qnode]. rewrite (HR (Full (TSet Hash t))). split.
      * intros Hb. right. exists (Inl t). split; [constructor|easy].
      * intros [H|[y [Hy Hb]]]; [now apply not_throwing in H|]. now inversion Hy; subst.
    + apply Hrec in He; [|now left]. revert He. apply vd_iff. cbn [qnode]. rewrite (HR (Full (TSet BTree t))). split.
      * intros Hb. right. exists (Full (TSet Hash t)). split; [constructor|easy].
      * intros [H|[y [Hy Hb]]]; [now apply not_throwing in H|]. now inversion Hy; subst.
  - destruct c.
    + destruct (rec InlineSchema k) as [a|] eqn:Ha; [|discriminate]. cbn in He.
      destruct (rec InlineSchema v) as [b|] eqn:Hb; [|discriminate]. injection He as <-.
      rewrite eval_map by (eapply Hcall; [now right|eassumption]).
      apply vd_iff with (p := bad (Inl k) \/ bad (Inl v)).
      * rewrite (HR (Full (TMap Hash k v))). split.
        -- intros [H|H]; right; [exists (Inl k)|exists (Inl v)]; (split; [constructor|easy]).
        -- intros [H|[y [Hy H]]]; [now apply not_throwing in H|]. inversion Hy; subst; auto.
      * apply Hrec in Ha; [|now right]. apply Hrec in Hb; [|now right].
        apply vd_bind; [exact Ha|]. intros z _. apply (vd_map _ (ZMap z) _ Hb).
    + apply Hrec in He; [|now left]. revert He. apply vd_iff. cbn [qnode]. rewrite (HR (Full (TMap BTree k v))). split.
      * intros Hb. right. exists (Full (TMap Hash k v)). split; [constructor|easy].
      * intros [H|[y [Hy Hb]]]; [now apply not_throwing in H|]. now inversion Hy; subst.
  - destruct (rec InlineSchema t) as [a|] eqn:Ha; [|discriminate]. injection He as <-.
    assert (Hc : is_call a) by (eapply Hcall; [now right|exact Ha]).
    change (vd (eval_schema (opt_exp true a)) (bad (Full (TOpt t)))).
    rewrite (eval_opt true a Hc). apply (vd_map _ ZOptional).
    apply Hrec in Ha; [|now right]. revert Ha. apply vd_iff. cbn [qnode]. rewrite (HR (Full (TOpt t))). split.
    + intros Hb. right. exists (Inl t). split; [constructor|easy].
    + intros [H|[y [Hy Hb]]]; [now apply not_throwing in H|]. now inversion Hy; subst.
  - destruct (rec InlineSchema t) as [a|] eqn:Ha; [|discriminate]. cbn in He.
    destruct (rec InlineSchema x) as [b|] eqn:Hb; [|discriminate]. injection He as <-.
    assert (Hca : is_call a) by (eapply Hcall; [now right|exact Ha]).
    assert (Hcb : is_call b) by (eapply Hcall; [now right|exact Hb]).
    rewrite eval_union by (repeat constructor).
    apply (vd_map _ ZUnion).
    apply vd_iff with (p := exists y, In y [t; x] /\ bad (Inl y)).
    + rewrite (HR (Full (TRes t x))). split.
      * intros [y [[<-|[<-|[]]] H]]; right; [exists (Inl t)|exists (Inl x)]; (split; [constructor|easy]).
      * intros [H|[y [Hy H]]]; [now apply not_throwing in H|].
        inversion Hy; subst; [exists t|exists x]; (split; [now repeat (try (now left); right)|easy]).
    + apply (vd_emap eval_schema (fun y => bad (Inl y))).
      constructor; [|constructor; [|constructor]].
      * rewrite eval_obj by (repeat constructor; [exact Hca|discriminate]). apply (vd_map _ (fun zs => ZObject (shape zs))).
        rewrite emap_cons. unfold eval_prop. cbn [snd fst]. rewrite ebind_assoc.
        apply (vd_map _ (fun z => [("Ok", z)])). apply (Hrec InlineSchema); [now right|easy].
      * rewrite eval_obj by (repeat constructor; [exact Hcb|discriminate]). apply (vd_map _ (fun zs => ZObject (shape zs))).
        rewrite emap_cons. unfold eval_prop. cbn [snd fst]. rewrite ebind_assoc.
        apply (vd_map _ (fun z => [("Err", z)])). apply (Hrec InlineSchema); [now right|easy].
  - discriminate.
Qed.

(** *** Structs *)
Lemma proto_filter (p : field -> bool) fs : Forall (fun k => k <> "__proto__") (map f_name fs) ->
  Forall (fun k => k <> "__proto__") (map f_name (filter p fs)).
Proof.
  rewrite !Forall_map. intros H. apply Forall_forall. intros f Hf. apply filter_In in Hf as [Hf _].
  rewrite Forall_forall in H. now apply H.
Qed.

Lemma vd_extend es : Forall is_call es -> forall o p q, is_call o ->
  vd (eval_schema o) p -> (forall z, eval_schema o = Val z -> exists ps, z = ZObject ps) ->
  vd (emap eval_schema es) q ->
  vd (eval_schema (fold_left (fun o e => meth o "extend" [e]) es o)) (p \/ q).
Proof.
  induction 1 as [|e es He Hes IH]; intros o p q Ho Hp Hs Hq; cbn [fold_left].
  - revert Hp. apply vd_iff. destruct Hq as [[_ Hq]|[Hq _]]; [tauto|discriminate].
  - rewrite emap_cons in Hq.
    assert (Hm : eval_schema (meth o "extend" [e])
      = ebind (eval_schema o) (fun z => ebind (eval_schema e) (fun x => zmethod z "extend" [VSchema x])))
      by (now apply eval_extend).
    destruct (eval_schema e) as [x| |] eqn:Hx; cbn [ebind] in Hq.
    + apply IH; [exact I| | |].
      * rewrite Hm. destruct Hp as [[[z Hz] Hp]|[Hz Hp]]; rewrite Hz; cbn [ebind].
        -- destruct (Hs z Hz) as [ps ->]. left. split; [eexists; reflexivity|easy].
        -- now right.
      * rewrite Hm. intros z' Hz'. destruct (eval_schema o) as [z| |]; try discriminate.
        destruct (Hs z eq_refl) as [ps ->]. injection Hz' as <-. eauto.
      * destruct (emap eval_schema es) as [zs| |]; cbn in Hq.
        -- destruct Hq as [[_ Hq]|[Hq _]]; [|discriminate]. apply vd_val. exact Hq.
        -- destruct Hq as [[[a Hq] _]|[_ Hq]]; [discriminate|]. now right.
        -- destruct Hq as [[[a Hq] _]|[Hq _]]; discriminate.
    + destruct Hq as [[[a Hq] _]|[_ Hq]]; [discriminate|].
      assert (Ht : eval_schema (meth o "extend" [e]) = Throw).
      { rewrite Hm. destruct Hp as [[[z Hz] Hp]|[Hz Hp]]; now rewrite Hz. }
      right. split; [|now right]. clear -Ht Hes. revert Ht.
      assert (Hc : is_call (meth o "extend" [e])) by exact I. revert Hc.
      generalize (meth o "extend" [e]). induction Hes as [|e' es He' _ IH]; intros o' Ho' Ht; [exact Ht|].
      cbn [fold_left]. apply IH; [exact I|]. rewrite eval_extend by easy. now rewrite Ht.
    + destruct Hq as [[[a Hq] _]|[Hq _]]; discriminate.
Qed.

Lemma vd_struct st tr fs e : Forall (fun k => k <> "__proto__")
    (match st with StNamed => map f_name (kept fs) | _ => [] end) -> struct_exp rec st tr (struct_fields st tr fs) = Some e ->
  vd (eval_schema e)
    (exists f, In f (embedded (mkDecl "" "" "" (BStruct st tr fs) None false false false [])) /\ bad (Inl (f_ty f))).
Proof.
  intros Hnp. unfold struct_exp. rewrite plain_sfields, flat_sfields. cbn [embedded d_body]. intros H.
  assert (Hv : forall f e, sval rec (mk_sf st tr f) = Some e -> is_call e /\ vd (eval_schema e) (bad (Inl (f_ty f)))).
  { intros f e'. apply vd_field. }
  destruct tr.
  - destruct (filter plain (kept fs)) as [|f r]; [discriminate|]. cbn [map] in H. apply Hv in H as [_ H].
    replace (match st with StNamed | _ => firstn 1 (f :: r) end) with [f] by now destruct st.
    revert H. apply vd_iff. split; [intros Hb; exists f; cbn; auto|].
    now intros [f' [[<-|[]] Hb]].
  - destruct st.
    + assert (Hp : forall f p, sprop rec (mk_sf StNamed false f) = Some p ->
        fst p = f_name f /\ is_call (snd p) /\ vd (eval_prop p) (bad (Inl (f_ty f)))).
      { intros f p. apply vd_prop. }
      rewrite !map_map in H.
      destruct (all_some (map (fun x => sprop rec (mk_sf StNamed false x)) (filter plain (kept fs)))) as [ps|] eqn:Hps; [|discriminate].
      cbn [bind] in H.
      destruct (all_some (map (fun x => sval rec (mk_sf StNamed false x)) (filter f_flatten (kept fs)))) as [es|] eqn:Hes; [|discriminate].
      cbn [option_map] in H. injection H as <-.
      apply (vd_props _ f_ty f_name) in Hps; [|now apply proto_filter|intros x p _ Hx; now apply Hp].
      apply (vd_list _ f_ty) in Hes; [|intros x p _ Hx; now apply Hv].
      destruct Hps as [_ [Hpc Hpv]]. destruct Hes as [Hec Hev].
      apply vd_iff with (p := (exists x, In x (filter plain (kept fs)) /\ bad (Inl (f_ty x)))
         \/ (exists x, In x (filter f_flatten (kept fs)) /\ bad (Inl (f_ty x)))).
      * split.
        -- intros [[x [Hx Hb]]|[x [Hx Hb]]]; exists x; (split; [|exact Hb]); apply in_plain_flat; auto.
        -- intros [x [Hx Hb]]. apply in_plain_flat in Hx as [Hx|Hx]; [left|right]; eauto.
      * apply vd_extend; [exact Hec|exact I| | |exact Hev].
        -- rewrite eval_obj by exact Hpc. now apply (vd_map _ (fun zs => ZObject (shape zs))).
        -- intros z Hz. rewrite eval_obj in Hz by exact Hpc.
           destruct (emap eval_prop ps); try discriminate. injection Hz as <-. eauto.
    + destruct (filter plain (kept fs)) as [|f [|f2 r]] eqn:Hk.
      * discriminate.
      * cbn [map] in H. apply Hv in H as [_ H]. revert H. apply vd_iff.
        split; [intros Hb; exists f; cbn; auto|]. now intros [f' [[<-|[]] Hb]].
      * rewrite !map_map in H. cbn [map] in H.
        change (option_map tup_exp (all_some (map (fun x => sval rec (mk_sf StTuple false x)) (f :: f2 :: r))) = Some e) in H.
        destruct (all_some (map (fun x => sval rec (mk_sf StTuple false x)) (f :: f2 :: r))) as [es|] eqn:Hes; [|discriminate].
        cbn [option_map] in H. injection H as <-.
        apply (vd_list _ f_ty) in Hes; [|intros x p _ Hx; now apply Hv].
        destruct Hes as [Hec Hev]. rewrite eval_tup by exact Hec. now apply (vd_map _ ZTuple).
    + discriminate.
Qed.

(** *** Enums *)
Definition tag_of (tg : tagging) : string :=
  match tg with Internal t | Adjacent t _ => t | _ => "" end.
Definition tagged (tg : tagging) : Prop :=
  match tg with Internal _ | Adjacent _ _ => True | _ => False end.

(** What the discriminated union finds in a variant's schema. *)
Definition tag_value (tg : tagging) (v : variant) (z : zod) : Prop :=
  (untagged_text tg v /\ disc_value (tag_of tg) z = Throw) \/
  (~ untagged_text tg v /\ disc_value (tag_of tg) z = Val (Some (js (v_name v)))).

Definition vtag_ok (tg : tagging) (v : variant) : Prop :=
  Forall (fun k => k <> "__proto__") (tag_names tg ++ v_name v :: map f_name (kept (v_fields v))) /\
  match tg with
  | Internal tag =>
      match v_style v with
      | StNamed => forall f, In f (kept (v_fields v)) -> f_name f <> tag
      | StTuple => kept (v_fields v) <> [] -> v_name v <> tag
      | StUnit => True
      end
  | Adjacent tag content => tag <> content
  | _ => True
  end.

Definition vfields (v : variant) : list field :=
  match v_style v with StUnit => [] | _ => kept (v_fields v) end.

Lemma eval_tagged tag name content inner : is_call inner -> tag <> "__proto__" -> content <> "__proto__" ->
  eval_schema (obj_exp [(tag, lit_exp name); (content, inner)])
  = ebind (eval_schema inner) (fun z => Val (ZObject (shape [(tag, ZLit (js name)); (content, z)]))).
Proof.
  intros Hi Ht Hc. rewrite eval_obj by (now repeat constructor). rewrite !emap_cons. unfold eval_prop. cbn [fst snd].
  rewrite eval_lit. cbn [ebind]. destruct (eval_schema inner); reflexivity.
Qed.

Lemma eval_single name inner : is_call inner -> name <> "__proto__" ->
  eval_schema (obj_exp [(name, inner)]) = ebind (eval_schema inner) (fun z => Val (ZObject [(name, z)])).
Proof.
  intros Hi Hn. rewrite eval_obj by (now repeat constructor). rewrite emap_cons. unfold eval_prop. cbn [fst snd].
  destruct (eval_schema inner); reflexivity.
Qed.

Lemma not_untagged tg v : kept (v_fields v) = [] \/ v_style v <> StTuple -> ~ untagged_text tg v.
Proof. unfold untagged_text. destruct tg; tauto. Qed.

Lemma eval_unit tg name : Forall (fun k => k <> "__proto__") (tag_names tg) ->
  eval_schema (unit_exp tg name) = Val match tg with
    | External => ZLit (js name)
    | Internal tag | Adjacent tag _ => ZObject [(tag, ZLit (js name))]
    | Untagged => ZNull
    end.
Proof.
  intros H. destruct tg; try reflexivity; inversion H; subst; unfold unit_exp; rewrite eval_single; easy.
Qed.

Lemma unit_tag tg v z : ~ untagged_text tg v -> tagged tg -> Forall (fun k => k <> "__proto__") (tag_names tg) ->
  eval_schema (unit_exp tg (v_name v)) = Val z -> tag_value tg v z.
Proof.
  intros Hu Ht Hnp H. rewrite eval_unit in H by exact Hnp. injection H as <-. right. split; [exact Hu|].
  destruct tg; try easy; cbn; unfold oget, key_eqb; cbn; now rewrite String.eqb_refl.
Qed.

Lemma vd_variant tg v e : vtag_ok tg v -> variant_exp rec tg v = Some e ->
  is_call e /\
  vd (eval_schema e) (exists f, In f (vfields v) /\ bad (Inl (f_ty f))) /\
  (tagged tg -> forall z, eval_schema e = Val z -> tag_value tg v z).
Proof.
  intros [Hnp Hok] He. apply Forall_app in Hnp as [Hnt Hnp]. inversion Hnp as [|? ? Hnv Hnf]; subst. clear Hnp.
  assert (Hunit : forall e, e = unit_exp tg (v_name v) -> vfields v = [] -> ~ untagged_text tg v ->
    is_call e /\ vd (eval_schema e) (exists f, In f (vfields v) /\ bad (Inl (f_ty f))) /\
    (tagged tg -> forall z, eval_schema e = Val z -> tag_value tg v z)).
  { intros e' -> Hv Hu. split; [destruct tg; exact I|]. split.
    - rewrite Hv. left. split; [rewrite eval_unit by exact Hnt; eauto|]. now intros [f [[] _]].
    - intros Ht z. now apply unit_tag. }
  assert (Hone : forall name inner p, name <> "__proto__" ->
    is_call inner -> vd (eval_schema inner) p -> vd (eval_schema (obj_exp [(name, inner)])) p).
  { intros name inner p Hn Hc Hv. rewrite eval_single by easy. now apply (vd_map _ (fun z => ZObject [(name, z)])). }
  assert (Htwo : forall tag name content inner p, tag <> "__proto__" -> content <> "__proto__" ->
    is_call inner -> vd (eval_schema inner) p ->
    vd (eval_schema (obj_exp [(tag, lit_exp name); (content, inner)])) p).
  { intros tag name content inner p Hn1 Hn2 Hc Hv. rewrite eval_tagged by easy.
    now apply (vd_map _ (fun z => ZObject (shape [(tag, ZLit (js name)); (content, z)]))). }
  assert (Hadj : forall tag content inner z, tag <> "__proto__" -> content <> "__proto__" ->
    is_call inner -> tag <> content ->
    eval_schema (obj_exp [(tag, lit_exp (v_name v)); (content, inner)]) = Val z ->
    disc_value tag z = Val (Some (js (v_name v)))).
  { intros tag content inner z Hn1 Hn2 Hc Hn Hz. rewrite eval_tagged in Hz by easy.
    destruct (eval_schema inner); try discriminate. injection Hz as <-. cbn -[shape].
    rewrite shape_head; [reflexivity|]. cbn. intros [H|[]]. now apply Hn. }
  assert (Hint : forall tag name inner z, name <> "__proto__" -> is_call inner -> name <> tag ->
    eval_schema (obj_exp [(name, inner)]) = Val z -> disc_value tag z = Throw).
  { intros tag name inner z Hnp Hc Hn Hz. rewrite eval_single in Hz by easy.
    destruct (eval_schema inner); try discriminate. injection Hz as <-. cbn. unfold oget, key_eqb. cbn.
    destruct (String.eqb_spec tag name); [now subst|reflexivity]. }
  unfold variant_exp in He. change (variant_fields (v_fields v)) with (kept (v_fields v)) in He.
  destruct (v_style v) eqn:Hst.
  - (* struct variant *)
    assert (Hvf : vfields v = kept (v_fields v)) by (unfold vfields; now rewrite Hst).
    assert (Hnu : ~ untagged_text tg v) by (apply not_untagged; right; now rewrite Hst).
    rewrite Hvf. unfold named_exp in He. destruct (kept (v_fields v)) as [|f0 r] eqn:Hk; [discriminate|].
    rewrite <- Hk in *.
    destruct (all_some (map (fun f => prop_exp rec (f_name f) (f_ty f) (f_default f)) (kept (v_fields v)))) as [ps|] eqn:Hps; [|discriminate].
    cbn [option_map] in He. injection He as <-.
    apply (vd_props _ f_ty f_name) in Hps; [|exact Hnf|intros x p _; now apply vd_prop].
    destruct Hps as [Hn [Hpc Hpv]].
    assert (Htn : match tg with Internal t => t <> "__proto__" | Adjacent t c => t <> "__proto__" /\ c <> "__proto__" | _ => True end).
    { clear -Hnt. destruct tg; try exact I; inversion Hnt as [|? ? H1 H2]; [exact H1|]. inversion H2. now split. }
    assert (Hov : vd (eval_schema (obj_exp ps)) (exists f, In f (kept (v_fields v)) /\ bad (Inl (f_ty f)))).
    { rewrite eval_obj by exact Hpc. now apply (vd_map _ (fun zs => ZObject (shape zs))). }
    destruct tg as [|tag|tag content|].
    + split; [exact I|]. split; [now apply Hone|now intros []].
    + assert (Hc2 : Forall entry ((tag, lit_exp (v_name v)) :: ps)) by (constructor; [now split|exact Hpc]).
      split; [exact I|]. rewrite eval_obj by exact Hc2. rewrite emap_cons. unfold eval_prop at 1 3. cbn [fst snd].
      rewrite eval_lit. cbn [ebind]. split.
      * rewrite ebind_assoc.
        apply (vd_map _ (fun ys => ZObject (shape ((tag, ZLit (js (v_name v))) :: ys))) _ Hpv).
      * intros _ z Hz. right. split; [exact Hnu|].
        destruct (emap eval_prop ps) as [zs| |] eqn:Hzs; try discriminate. cbn [ebind] in Hz. injection Hz as <-.
        cbn [tag_of disc_value]. rewrite shape_head; [reflexivity|].
        assert (Hnz : map fst zs = map fst ps).
        { apply emap_val in Hzs. clear -Hzs. induction Hzs as [|p z ps zs H _ IH]; [reflexivity|].
          cbn. f_equal; [|exact IH]. unfold eval_prop in H. destruct (eval_schema (snd p)); try discriminate.
          now injection H as <-. }
        rewrite Hnz, Hn. intros Hi. apply in_map_iff in Hi as [f [Hf1 Hf2]].
        now apply (Hok f).
    + destruct Htn as [Ht1 Ht2]. split; [exact I|]. split; [now apply Htwo|].
      intros _ z Hz. right. split; [exact Hnu|]. cbn [tag_of]. now apply (Hadj tag content (obj_exp ps)).
    + split; [exact I|]. split; [exact Hov|now intros []].
  - (* tuple variant *)
    assert (Hvf : vfields v = kept (v_fields v)) by (unfold vfields; now rewrite Hst).
    rewrite Hvf in *. unfold tuple_exp in He.
    destruct (kept (v_fields v)) as [|f0 r] eqn:Hk.
    { injection He as <-. apply Hunit; auto. apply not_untagged. now left. }
    rewrite <- Hk in *.
    assert (Hin : exists inner, is_call inner /\
       vd (eval_schema inner) (exists f, In f (kept (v_fields v)) /\ bad (Inl (f_ty f))) /\
       Some e = Some match tg with
           | External | Internal _ => obj_exp [(v_name v, inner)]
           | Adjacent tag content => obj_exp [(tag, lit_exp (v_name v)); (content, inner)]
           | Untagged => inner
           end).
    { destruct r as [|f1 r].
      - rewrite Hk. destruct (field_exp rec (f_ty f0) (f_default f0)) as [x|] eqn:Hx.
        + exists x. apply vd_field in Hx as [Hc Hx]. split; [exact Hc|]. split.
          * revert Hx. apply vd_iff. split; [intros Hb; exists f0; cbn; auto|].
            now intros [f' [[<-|[]] Hb]].
          * now rewrite <- He.
        + discriminate.
      - cbn [map] in He.
        destruct (all_some (map (fun f => field_exp rec (f_ty f) (f_default f)) (kept (v_fields v)))) as [es|] eqn:Hes; [|discriminate].
        cbn [option_map] in He. exists (tup_exp es).
        apply (vd_list _ f_ty) in Hes; [|intros x p _; now apply vd_field].
        destruct Hes as [Hec Hev]. split; [exact I|]. split; [|now rewrite <- He].
        rewrite eval_tup by exact Hec. now apply (vd_map _ ZTuple). }
    destruct Hin as [inner [Hc [Hv Heq]]]. injection Heq as ->. clear He.
    assert (Hne : kept (v_fields v) <> []) by (rewrite Hk; discriminate).
    destruct tg as [|tag|tag content|].
    + split; [exact I|]. split; [now apply Hone|now intros []].
    + split; [exact I|]. split; [now apply Hone|]. intros _ z Hz. left. split; [now split|].
      cbn [tag_of]. apply (Hint tag (v_name v) inner); auto.
    + inversion Hnt as [|? ? Ht1 Ht2]; subst. inversion Ht2; subst.
      split; [exact I|]. split; [now apply Htwo|]. intros _ z Hz. right. split; [easy|].
      cbn [tag_of]. now apply (Hadj tag content inner).
    + split; [exact Hc|]. split; [exact Hv|now intros []].
  - (* unit variant *)
    injection He as <-. apply Hunit; [reflexivity| |].
    + unfold vfields. now rewrite Hst.
    + apply not_untagged. right. now rewrite Hst.
Qed.

Lemma vd_disc tg vs zs : Forall2 (tag_value tg) vs zs -> forall seen names,
  map fst seen = map (fun n => Some (js n)) names -> NoDup names ->
  vd (disc_opts (tag_of tg) seen zs)
    ((exists v, In v vs /\ untagged_text tg v) \/ ~ NoDup (names ++ map v_name vs)).
Proof.
  induction 1 as [|v z vs zs H _ IH]; intros seen names Hs Hn.
  - cbn. rewrite app_nil_r. apply vd_val. intros [[v [[] _]]|H]; now apply H.
  - cbn [disc_opts]. destruct H as [[Hu ->]|[Hu ->]]; cbn [ebind].
    + right. split; [reflexivity|]. left. exists v. split; [now left|exact Hu].
    + assert (Hex : existsb (fun p => val_eqb (Some (js (v_name v))) (fst p)) seen = true <-> In (v_name v) names).
      { transitivity (existsb (val_eqb (Some (js (v_name v)))) (map fst seen) = true).
        - clear. induction seen; cbn; [easy|]. rewrite !orb_true_iff, IHseen. easy.
        - rewrite Hs. clear. induction names as [|n names IH]; cbn; [easy|].
          rewrite orb_true_iff, IH, js_eqb, String.eqb_eq. split; intros [H|H]; auto. }
      destruct (existsb _ seen).
      * right. split; [reflexivity|]. right. intros Hd. apply NoDup_remove_2 in Hd. apply Hd.
        apply in_or_app. left. now apply Hex.
      * specialize (IH (seen ++ [(Some (js (v_name v)), z)]) (names ++ [v_name v])).
        rewrite !map_app, Hs in IH. specialize (IH eq_refl).
        rewrite <- app_assoc in IH. cbn [app] in IH.
        assert (Hni : ~ In (v_name v) names) by (intros Hi; apply Hex in Hi; discriminate).
        apply vd_iff with (2 := IH ltac:(apply NoDup_app_snoc; assumption)). cbn [map]. split.
        -- intros [[w [Hw Hx]]|Hd]; [left; exists w; split; [now right|exact Hx]|now right].
        -- intros [[w [[<-|Hw] Hx]]|Hd]; [easy|left; eauto|now right].
Qed.

Lemma vd_enum d tg vs e : d_body d = BEnum tg vs -> d_from d = None -> tag_ok d ->
  enum_exp rec tg (kept_variants vs) = Some e ->
  vd (eval_schema e) ((exists f, In f (embedded d) /\ bad (Inl (f_ty f))) \/ refused_enum d).
Proof.
  intros Hd Hf Ht He.
  assert (Hemb : embedded d = flat_map vfields (kept_variants vs)) by (unfold embedded; now rewrite Hd).
  assert (Hok : forall v, In v (kept_variants vs) -> vtag_ok tg v).
  { intros v Hv. destruct Ht as [Ht Hnp]. split.
    - unfold decl_keys in Hnp. rewrite Hd in Hnp. apply Forall_app in Hnp as [H1 H2]. apply Forall_app. split; [exact H1|].
      rewrite Forall_forall in H2 |- *. intros k Hk. apply H2. apply in_flat_map. eauto.
    - unfold tags_fit in Ht. rewrite Hd in Ht. destruct tg; try exact I; [now apply Ht|exact Ht]. }
  assert (Hr : refused_enum d <-> tagged tg /\ 2 <= List.length (kept_variants vs) /\
     ((exists v, In v (kept_variants vs) /\ untagged_text tg v) \/ ~ NoDup (map v_name (kept_variants vs)))).
  { unfold refused_enum. rewrite Hd. destruct tg; cbn [tagged]; tauto. }
  unfold enum_exp in He.
  destruct (kept_variants vs) as [|v [|v2 r]] eqn:Hk; [discriminate| |].
  - apply vd_variant in He; [|apply Hok; now left]. destruct He as [_ [He _]]. revert He. apply vd_iff.
    rewrite Hemb. cbn [flat_map]. rewrite app_nil_r, Hr. cbn [List.length]. split; [tauto|].
    intros [H|[_ [H _]]]; [exact H|lia].
  - rewrite <- Hk in *. destruct (all_some (map (variant_exp rec tg) (kept_variants vs))) as [es|] eqn:Hes; [|discriminate].
    cbn [option_map] in He. injection He as <-. apply all_some_map in Hes.
    assert (H2 : Forall2 (fun v e => is_call e /\
      vd (eval_schema e) (exists f, In f (vfields v) /\ bad (Inl (f_ty f))) /\
      (tagged tg -> forall z, eval_schema e = Val z -> tag_value tg v z)) (kept_variants vs) es).
    { revert Hok Hes. clear -Hcall Hrec. induction 2 as [|v e l es H _ IH]; constructor.
      - apply vd_variant; [apply Hok; now left|exact H].
      - apply IH. intros w Hw. apply Hok. now right. }
    assert (Hc : Forall is_call es) by (clear -H2; induction H2; constructor; tauto).
    assert (Hv : vd (emap eval_schema es) (exists f, In f (embedded d) /\ bad (Inl (f_ty f)))).
    { apply vd_iff with (p := exists v, In v (kept_variants vs) /\ exists f, In f (vfields v) /\ bad (Inl (f_ty f))).
      - rewrite Hemb. split.
        + intros [w [Hw [f [Hf1 Hb]]]]. exists f. split; [|exact Hb]. apply in_flat_map. eauto.
        + intros [f [Hf1 Hb]]. apply in_flat_map in Hf1 as [w [Hw Hf1]]. eauto.
      - apply (vd_emap eval_schema (fun v => exists f, In f (vfields v) /\ bad (Inl (f_ty f)))).
        clear -H2. induction H2; constructor; tauto. }
    assert (Htag : tagged tg -> forall zs, emap eval_schema es = Val zs -> Forall2 (tag_value tg) (kept_variants vs) zs).
    { intros Htg zs Hzs. apply emap_val in Hzs. clear -Htg Hzs H2. revert zs Hzs.
      induction H2 as [|v e l es H _ IH]; intros zs Hzs; inversion Hzs; subst; constructor.
      - now apply H.
      - now apply IH. }
    assert (Hlen : 2 <= List.length (kept_variants vs)) by (rewrite Hk; cbn; lia).
    assert (Hdisc : tagged tg ->
      vd (ebind (emap eval_schema es) (fun zs => ebind (disc_opts (tag_of tg) [] zs) (fun o => Val (ZDisc (tag_of tg) o))))
       ((exists f, In f (embedded d) /\ bad (Inl (f_ty f))) \/ refused_enum d)).
    { intros Htg. apply vd_bind; [exact Hv|]. intros zs Hzs. apply (vd_map _ (ZDisc (tag_of tg))).
      apply vd_iff with (2 := vd_disc tg _ zs (Htag Htg zs Hzs) [] [] eq_refl (NoDup_nil _)).
      cbn [app]. rewrite Hr. tauto. }
    destruct tg.
    + rewrite eval_union by exact Hc. apply (vd_map _ ZUnion). revert Hv. apply vd_iff. rewrite Hr. cbn [tagged]. tauto.
    + rewrite eval_disc by exact Hc. now apply Hdisc.
    + rewrite eval_disc by exact Hc. now apply Hdisc.
    + rewrite eval_union by exact Hc. apply (vd_map _ ZUnion). revert Hv. apply vd_iff. rewrite Hr. cbn [tagged]. tauto.
Qed.

Lemma bad_struct_from i t : is_struct (lookup E i) -> d_from (lookup E i) = Some t ->
  (bad (Inl t) <-> bad (Full (TNamed i))).
Proof.
  intros Hs Hf. rewrite (bad_iff (Full (TNamed i))). split.
  - intros Hb. right. exists (Inl t). split; [now apply sn_from_struct|exact Hb].
  - intros [[H|[j [Hj H]]]|[y [Hy Hb]]].
    + discriminate.
    + injection Hj as <-. destruct H as [H _]. rewrite H in Hf. discriminate.
    + inversion Hy; subst; [congruence|congruence|tauto].
Qed.

Lemma bad_enum_from i t : ~ is_struct (lookup E i) -> d_from (lookup E i) = Some t ->
  (bad (Full t) <-> bad (Full (TNamed i))).
Proof.
  intros Hs Hf. rewrite (bad_iff (Full (TNamed i))). split.
  - intros Hb. right. exists (Full t). split; [now apply sn_from_enum|exact Hb].
  - intros [[H|[j [Hj H]]]|[y [Hy Hb]]].
    + discriminate.
    + injection Hj as <-. destruct H as [H _]. rewrite H in Hf. discriminate.
    + inversion Hy; subst; [congruence|tauto|congruence].
Qed.

Lemma bad_fields i : d_from (lookup E i) = None ->
  ((exists f, In f (embedded (lookup E i)) /\ bad (Inl (f_ty f))) \/ refused_enum (lookup E i)
    <-> bad (Full (TNamed i))).
Proof.
  intros Hf. rewrite (bad_iff (Full (TNamed i))). split.
  - intros [[f [Hi Hb]]|H].
    + right. exists (Inl (f_ty f)). split; [now apply sn_field|exact Hb].
    + left. right. eauto.
  - intros [[H|[j [Hj H]]]|[y [Hy Hb]]].
    + discriminate.
    + injection Hj as <-. now right.
    + inversion Hy; subst; try congruence. left. eauto.
Qed.

Lemma vd_decl i e : decl_exp rec (lookup E i) = Some e -> vd (eval_schema e) (bad (Full (TNamed i))).
Proof.
  intros He. unfold decl_exp in He.
  destruct (d_from (lookup E i)) as [t|] eqn:Hf, (d_body (lookup E i)) as [st tr fs|tg vs] eqn:Hb.
  - apply Hrec in He; [|now right]. revert He. apply vd_iff, bad_struct_from; [|exact Hf].
    unfold is_struct. now rewrite Hb.
  - apply Hrec in He; [|now left]. revert He. apply vd_iff, bad_enum_from; [|exact Hf].
    unfold is_struct. now rewrite Hb.
  - apply vd_struct in He; [|pose proof (tag_lookup i) as [_ Hnp]; unfold decl_keys in Hnp; rewrite Hb in Hnp; exact Hnp].
    revert He. apply vd_iff. rewrite <- bad_fields by exact Hf.
    unfold embedded, refused_enum. rewrite Hb. cbn [d_body]. tauto.
  - apply (vd_iff _ _ _ (bad_fields i Hf)). apply (vd_enum _ tg vs); auto. apply tag_lookup.
Qed.

Lemma vd_ref i e : decl_ref rec (lookup E i) = Some e -> vd (eval_schema e) (bad (Inl (TNamed i))).
Proof.
  intros He. unfold decl_ref in He.
  assert (Hlazy : (d_from (lookup E i) = None \/ is_struct (lookup E i)) ->
    vd (eval_schema (lazy_exp (lookup E i))) (bad (Inl (TNamed i)))).
  { intros H. rewrite eval_lazy. apply vd_val. rewrite bad_iff. intros [[Hx|[j [Hx _]]]|[y [Hy _]]]; try discriminate.
    inversion Hy; subst.
    - match goal with X : ~ is_named _ |- _ => apply X; now exists i end.
    - destruct H as [H|H]; [congruence|tauto]. }
  destruct (d_from (lookup E i)) as [t|] eqn:Hf, (d_body (lookup E i)) as [st tr fs|tg vs] eqn:Hb.
  - injection He as <-. apply Hlazy. right. unfold is_struct. now rewrite Hb.
  - apply Hrec in He; [|now right]. revert He. apply vd_iff. cbn [qnode].
    rewrite (bad_iff (Inl (TNamed i))). split.
    + intros H. right. exists (Inl t). split; [|exact H]. apply sn_from_enum_inl; [|exact Hf].
      unfold is_struct. now rewrite Hb.
    + intros [[Hx|[j [Hx _]]]|[y [Hy H]]]; try discriminate. inversion Hy; subst.
      * exfalso. match goal with X : ~ is_named _ |- _ => apply X; now exists i end.
      * congruence.
  - injection He as <-. apply Hlazy. now left.
  - injection He as <-. apply Hlazy. now left.
Qed.
End Step.

Lemma agen_vd n : forall q t e, sq q -> agen E n q t = Some e ->
  vd (eval_schema e) (bad (qnode q t)).
Proof.
  induction n as [|n IH]; intros q t e Hq He; [discriminate|].
  assert (Hc : forall q t e, sq q -> agen E n q t = Some e -> is_call e) by apply agen_call.
  cbn [agen] in He.
  assert (Hb : (forall i, t <> TNamed i) ->
     match q with Schema => builtin_exp (agen E n) t | _ => agen E n Schema t end = Some e ->
     vd (eval_schema e) (bad (qnode q t))).
  { intros Hn H. destruct Hq as [-> | ->].
    - now apply (vd_builtin (agen E n)).
    - apply IH in H; [|now left]. revert H. apply vd_iff. cbn [qnode]. rewrite (bad_iff (Inl t)). split.
      + intros Hb. right. exists (Full t). split; [|exact Hb]. constructor. intros [i Hi]. now apply (Hn i).
      + intros [[Hx|[j [Hx _]]]|[y [Hy Hb]]]; try discriminate. inversion Hy; subst; [exact Hb|].
        exfalso. now apply (Hn i). }
  destruct t as [p|ts|w t|t|k t|c t|c k v|t|t x|i]; try (apply Hb; [intros j Hj; discriminate|exact He]).
  clear Hb. destruct (derive (lookup E i)) as [im| | |]; try discriminate.
  destruct Hq as [-> | ->].
  - now apply (vd_decl (agen E n)).
  - now apply (vd_ref (agen E n)).
Qed.
End Load.

Lemma load_text E q t s e n : js_parse s = Some e -> agen E n q t = Some e -> load s = eval_schema e.
Proof. intros H _. unfold load. now rewrite H. Qed.

Theorem schema_loads E t s : good_names E -> tags_ok E -> returns E Schema t s ->
  (exists z, load s = Val z) /\ ~ contains_throwing E (Full t) \/
  load s = Throw /\ contains_throwing E (Full t).
Proof.
  intros Hg Ht [n Hn]. destruct (gen_agen E n Schema t s Hg (or_introl eq_refl) Hn) as [e [He [_ [_ Hp]]]].
  unfold load. rewrite Hp. apply (agen_vd E Ht n Schema t e); [now left|exact He].
Qed.

Theorem inline_schema_loads E t s : good_names E -> tags_ok E -> returns E InlineSchema t s ->
  (exists z, load s = Val z) /\ ~ contains_throwing E (Inl t) \/
  load s = Throw /\ contains_throwing E (Inl t).
Proof.
  intros Hg Ht [n Hn]. destruct (gen_agen E n InlineSchema t s Hg (or_intror eq_refl) Hn) as [e [He [_ [_ Hp]]]].
  unfold load. rewrite Hp. apply (agen_vd E Ht n InlineSchema t e); [now right|exact He].
Qed.
