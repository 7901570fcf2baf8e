(** Parsing with a generated schema answers for every value exactly when no chain of types
    hands the same value on forever. *)
From Coq Require Import List String Ascii Bool NArith ZArith Lia.
From Verif Require Import RustTy Gen GenSpec GenProofs JsLex JsParse Js Zod Ast AstProofs ZodProofs ZodSpec ZodLoad ZGen
  SerdeSpec SerdeProofs ParseSpec ParseProofs.
Import ListNotations.
Local Open Scope string_scope.
Local Open Scope list_scope.

Lemma within_in inside t u : (forall i, In i (refs u) -> In i (refs t)) -> within inside t -> within inside u.
Proof. intros H Hw i Hi. apply Hw, H, Hi. Qed.

Lemma not_flat fs : ~ (exists f, In f (kept fs) /\ f_flatten f = true) ->
  filter plain (kept fs) = kept fs /\ filter f_flatten (kept fs) = [].
Proof.
  induction (kept fs) as [|f l IH]; [auto|]. intros H. cbn [filter]. unfold plain at 1.
  destruct (f_flatten f) eqn:Hf; [exfalso; apply H; exists f; split; [now left|exact Hf]|].
  cbn [negb]. destruct IH as [-> ->]; [|auto]. intros [g [Hg Hg']]. apply H. exists g. split; [now right|exact Hg'].
Qed.

Lemma Forall2_in_right {A B} (P : A -> B -> Prop) l l' b : Forall2 P l l' -> In b l' -> exists a, In a l /\ P a b.
Proof.
  induction 1 as [|x y l l' H _ IH]; [easy|]. intros [<-|Hb]; [exists x; split; [now left|exact H]|].
  destruct (IH Hb) as [a [H1 H2]]. exists a. split; [now right|exact H2].
Qed.

Section Term.
Context (E : env) (ip : option string -> jstr -> bool) (M : menv) (inside : nat -> bool).
Context (HC : closed E inside).
Context (HX : forall i, inside i = true -> exists n z,
   zgen E n Schema (TNamed i) = Some z /\ M (d_ns (lookup E i)) (d_name (lookup E i)) = Some z).
Notation zparse := (zparse ip M).
Notation ans := (ans ip M).

(** ** Grounded: answers *)
Context (HG : forall i, inside i = true -> grounded E (TNamed i)).

Lemma all_grounded t : within inside t -> grounded E t.
Proof.
  induction t as [p|ts|w t IH|t|n t|c t|c k v|t IH|t e|i]; intros Hw;
    try (apply HG; apply Hw; now left); constructor; apply IH, Hw.
Qed.

Section Level.
Context (sz : nat).
Context (Hsmall : forall v, vsize v < sz -> forall t n q z, within inside t -> sq q ->
   zgen E n q t = Some z -> ans z v).

(** What the children on the same value are known to do. *)
Section Decl.
Context (n : nat) (v : jsval).
Context (Hv : vsize v <= sz).
Notation rec := (zgen E n).
Let Hs : sq Schema := or_introl eq_refl.
Let Hi : sq InlineSchema := or_intror eq_refl.

Lemma small_field f z x : within inside (f_ty f) -> vsize x < sz -> field_z rec f = Some z -> ans z x.
Proof.
  intros Hw Hx Hz. unfold field_z in Hz. destruct (rec InlineSchema (f_ty f)) as [y|] eqn:Hy; [|discriminate].
  injection Hz as <-. apply ans_zopt. eapply Hsmall; eauto.
Qed.

Lemma obj_fields fs ps : (forall f, In f fs -> within inside (f_ty f)) ->
  all_some (map (prop_z rec) fs) = Some ps -> forall l p, v = JsObj l -> In p ps ->
  ans (snd p) (get_prop (fst p) l).
Proof.
  intros Hw Hps l p -> Hp. destruct (props_zs rec fs ps Hps p Hp) as [f [Hf [Hz _]]].
  eapply (small_field f); [now apply Hw| |exact Hz]. pose proof (get_size (fst p) l). lia.
Qed.

Lemma tuple_fields fs zs : (forall f, In f fs -> within inside (f_ty f)) ->
  all_some (map (field_z rec) fs) = Some zs -> ans (ZTuple zs) v.
Proof.
  intros Hw Hzs. apply ans_tuple. intros l -> z x Hz Hx.
  destruct (fields_zs _ fs zs Hzs z Hz) as [f [Hf Hfz]].
  eapply (small_field f); [now apply Hw| |exact Hfz]. pose proof (arr_size x l Hx). lia.
Qed.

Lemma unit_ans tg name : ans (unit_z tg name) v.
Proof.
  assert (H : forall tag, ans (ZObject [(tag, ZLit (js name))]) v).
  { intros tag. apply ans_object. intros l -> p [<-|[]]. apply ans_lit. }
  destruct tg; cbn [unit_z]; auto using ans_lit, ans_null.
Qed.

Lemma lits_ans tg name inner : (forall l, v = JsObj l -> forall k, ans inner (get_prop k l)) ->
  (tg = Untagged -> ans inner v) -> ans (zlits tg name inner) v.
Proof.
  intros Ho Hu. destruct tg; cbn [zlits].
  - apply ans_object. intros l Hl p [<-|[]]. now apply Ho.
  - apply ans_object. intros l Hl p [<-|[]]. now apply Ho.
  - apply ans_object. intros l Hl p Hp. apply shape_in in Hp. destruct Hp as [<-|[<-|[]]]; [apply ans_lit|now apply Ho].
  - now apply Hu.
Qed.
End Decl.

Context (v : jsval) (Hv : vsize v <= sz).

Lemma variant_ans n tg va z : (forall f, In f (kept (v_fields va)) -> within inside (f_ty f)) ->
  (tg = Untagged -> v_style va = StTuple -> forall f, kept (v_fields va) = [f] ->
     forall q y, sq q -> zgen E n q (f_ty f) = Some y -> ans y v) ->
  variant_z (zgen E n) tg va = Some z -> ans z v.
Proof.
  intros Hw Hsame Hz. unfold variant_z in Hz. destruct (v_style va).
  - destruct (kept (v_fields va)) as [|f r] eqn:Hk; [discriminate|]. rewrite <- Hk in *.
    destruct (all_some _) as [ps|] eqn:Hps; [|discriminate]. injection Hz as <-.
    assert (Hobj : forall u, vsize u <= sz -> ans (ZObject (shape ps)) u).
    { intros u Hu. apply ans_object. intros l -> p Hp. apply shape_in in Hp. eapply obj_fields; eauto. }
    assert (Hl : ans (zlits tg (v_name va) (ZObject (shape ps))) v).
    { apply lits_ans; [|auto]. intros l Hl k. apply Hobj. pose proof (get_size k l). subst v. lia. }
    destruct tg; try exact Hl. apply ans_object. intros l Hl' p Hp. apply shape_in in Hp.
    destruct Hp as [<-|Hp]; [apply ans_lit|]. eapply (obj_fields n v); eauto.
  - destruct (kept (v_fields va)) as [|f [|f2 r]] eqn:Hk.
    + injection Hz as <-. now apply unit_ans.
    + destruct (field_z (zgen E n) f) as [y|] eqn:Hy; [|discriminate]. injection Hz as <-.
      apply lits_ans.
      * intros l -> k. eapply (small_field _ f); [apply Hw; now left| |exact Hy]. pose proof (get_size k l). lia.
      * intros ->. unfold field_z in Hy. destruct (zgen E n InlineSchema (f_ty f)) as [x|] eqn:Hx; [|discriminate].
        injection Hy as <-. apply ans_zopt. eapply Hsame; eauto. now right.
    + rewrite <- Hk in *. destruct (all_some _) as [zs|] eqn:Hzs; [|discriminate]. injection Hz as <-.
      assert (Htup : forall u, vsize u <= sz -> ans (ZTuple zs) u) by (intros; eapply tuple_fields; eauto).
      apply lits_ans; [|auto]. intros l -> k. apply Htup. pose proof (get_size k l). lia.
  - injection Hz as <-. now apply unit_ans.
Qed.

Lemma enum_ans n tg vs z :
  (forall va y, In va vs -> variant_z (zgen E n) tg va = Some y -> ans y v) ->
  enum_z (zgen E n) tg vs = Some z -> ans z v.
Proof.
  intros H Hz. unfold enum_z in Hz. destruct vs as [|va [|v2 r]]; [discriminate| |].
  - eapply H; [now left|exact Hz].
  - destruct (all_some _) as [zs|] eqn:Ha; [|discriminate]. cbn [bind] in Hz. apply all_some_map in Ha.
    assert (Hin : forall y, In y zs -> ans y v).
    { revert H. clear -Ha. induction Ha as [|a b l l' Hb _ IH]; [easy|]. intros H y [<-|Hy].
      - eapply H; [now left|exact Hb].
      - apply IH; auto. intros vb y' Hvb. apply H. now right. }
    assert (Hd : forall tag opts, disc_opts tag [] zs = Val opts -> ans (ZDisc tag opts) v).
    { intros tag opts Ho. apply ans_disc. intros d y Hy. destruct (disc_opts_in _ _ _ _ Ho d y Hy) as [[]|Hy']. auto. }
    destruct tg as [|tag|tag content|].
    + injection Hz as <-. now apply ans_union.
    + destruct (disc_opts tag [] zs) eqn:Ho; try discriminate. injection Hz as <-. eauto.
    + destruct (disc_opts tag [] zs) eqn:Ho; try discriminate. injection Hz as <-. eauto.
    + injection Hz as <-. now apply ans_union.
Qed.

Lemma decl_ans i n z : inside i = true ->
  (forall t, In t (same_value (lookup E i)) -> within inside t -> forall n q z, sq q -> zgen E n q t = Some z -> ans z v) ->
  decl_z (zgen E n) (lookup E i) = Some z -> ans z v.
Proof.
  intros Hin Hsame Hz. destruct (HC i Hin) as [Hnf Hp]. unfold decl_z in Hz. unfold same_value in Hsame.
  unfold flattens, parts in Hnf, Hp. destruct (d_from (lookup E i)) as [t|].
  - destruct (d_body (lookup E i)).
    + eapply Hsame; [now left| |now right|exact Hz]. apply Hp. now left.
    + eapply Hsame; [now left| |now left|exact Hz]. apply Hp. now left.
  - destruct (d_body (lookup E i)) as [st tr fs|tg vs].
    + destruct (not_flat fs Hnf) as [Hpl Hfl]. unfold struct_z in Hz. rewrite Hpl, Hfl in Hz. clear Hpl Hfl.
      assert (Hw : forall f, In f (kept fs) -> within inside (f_ty f)) by (intros f Hf; now apply Hp, in_map).
      assert (Hone : forall f, In f (kept fs) -> field_z (zgen E n) f = Some z ->
        (forall n q z, sq q -> zgen E n q (f_ty f) = Some z -> ans z v) -> ans z v).
      { intros f Hf Hfz H. unfold field_z in Hfz. destruct (zgen E n InlineSchema (f_ty f)) as [x|] eqn:Hx; [|discriminate].
        injection Hfz as <-. apply ans_zopt. eapply H; [|exact Hx]. now right. }
      destruct tr.
      * destruct (kept fs) as [|f r]; [destruct st; discriminate|].
        assert (Hz' : field_z (zgen E n) f = Some z) by (destruct st; exact Hz).
        apply (Hone f); [now left|exact Hz'|]. intros. eapply Hsame; eauto; [destruct st; now left|]. apply Hw. now left.
      * destruct st; [| |discriminate].
        -- destruct (all_some (map (prop_z (zgen E n)) (kept fs))) as [ps|] eqn:Hps; [|discriminate]. cbn in Hz. injection Hz as <-.
           apply ans_object. intros l Hl p Hpp. apply shape_in in Hpp. eapply (obj_fields n v); eauto.
        -- destruct (kept fs) as [|f [|f2 r]] eqn:Hk; [discriminate| |].
           ++ apply (Hone f); [now left|exact Hz|]. intros. eapply Hsame; eauto; [now left|]. apply Hw. now left.
           ++ rewrite <- Hk in *. destruct (all_some _) as [zs|] eqn:Hzs; [|discriminate]. injection Hz as <-.
              eapply tuple_fields; eauto.
    + eapply enum_ans; [|exact Hz]. intros va y Hva. apply variant_ans.
      * intros f Hf. apply Hp, in_flat_map. exists va. split; [exact Hva|]. now apply in_map.
      * intros -> Hst f Hk q y' Hq Hy'. eapply Hsame; [| |exact Hq|exact Hy'].
        -- apply in_flat_map. exists va. split; [exact Hva|]. rewrite Hst, Hk. now left.
        -- apply Hp, in_flat_map. exists va. split; [exact Hva|]. apply in_map. rewrite Hk. now left.
Qed.

Lemma inline_schema n q t z : sq q -> (forall i, t <> TNamed i) -> zgen E n q t = Some z ->
  exists m, builtin_z (zgen E m) t = Some z.
Proof.
  intros Hq Ht. destruct n as [|n]; [discriminate|]. cbn [zgen].
  destruct t; try (now destruct (Ht i)); (destruct Hq as [-> | ->]; [eauto|]; destruct n as [|n]; [discriminate|]; cbn [zgen]; eauto).
Qed.

Lemma level_ans t : grounded E t -> within inside t -> forall n q z, sq q -> zgen E n q t = Some z -> ans z v.
Proof.
  assert (Hin : forall u x n z, within inside u -> vsize x < sz -> zgen E n InlineSchema u = Some z -> ans z x).
  { intros. eapply Hsmall; eauto. now right. }
  induction 1 as [p|ts|t|k t|c t|c k w|t e|w t _ IH|t _ IH|i _ IH]; intros Hw n q z Hq Hz.
  - apply inline_schema in Hz as [m Hz]; [|exact Hq|discriminate]. now apply (ans_prim _ _ p).
  - apply inline_schema in Hz as [m Hz]; [|exact Hq|discriminate]. cbn in Hz.
    destruct (all_some _) as [zs|] eqn:Hzs; [|discriminate]. injection Hz as <-. apply ans_tuple.
    intros l -> y x Hy Hx. apply all_some_map in Hzs. destruct (Forall2_in_right _ _ _ y Hzs Hy) as [u [Hu Huy]].
    apply (Hsmall x) with (t := u) (n := m) (q := Schema); [pose proof (arr_size x l Hx); lia| |now left|exact Huy].
    intros j Hj. apply Hw. cbn. apply in_flat_map. eauto.
  - apply inline_schema in Hz as [m Hz]; [|exact Hq|discriminate]. cbn in Hz.
    destruct (zgen E m InlineSchema t) as [y|] eqn:Hy; [|discriminate]. injection Hz as <-. apply ans_array.
    intros l -> x Hx. eapply (Hin t); [exact Hw| |exact Hy]. pose proof (arr_size x l Hx). lia.
  - apply inline_schema in Hz as [m Hz]; [|exact Hq|discriminate]. cbn in Hz.
    destruct m as [|m]; [discriminate|]. cbn in Hz.
    destruct (zgen E m InlineSchema t) as [y|] eqn:Hy; [|discriminate]. injection Hz as <-. apply ans_array.
    intros l -> x Hx. eapply (Hin t); [exact Hw| |exact Hy]. pose proof (arr_size x l Hx). lia.
  - apply inline_schema in Hz as [m Hz]; [|exact Hq|discriminate].
    assert (H : exists m y, zgen E m InlineSchema t = Some y /\ z = ZSet y).
    { destruct c; cbn in Hz; [|destruct m as [|m]; [discriminate|]; cbn in Hz];
        (destruct (zgen E m InlineSchema t) as [y|] eqn:Hy; [|discriminate]); injection Hz as <-; eauto. }
    destruct H as [m' [y [Hy ->]]]. apply ans_set.
    intros l -> x Hx. eapply (Hin t); [exact Hw| |exact Hy]. pose proof (set_size x l Hx). lia.
  - apply inline_schema in Hz as [m Hz]; [|exact Hq|discriminate].
    assert (H : exists m a b, zgen E m InlineSchema k = Some a /\ zgen E m InlineSchema w = Some b /\ z = ZMap a b).
    { destruct c; cbn in Hz; [|destruct m as [|m]; [discriminate|]; cbn in Hz];
        (destruct (zgen E m InlineSchema k) as [a|] eqn:Ha; [|discriminate]); cbn in Hz;
        (destruct (zgen E m InlineSchema w) as [b|] eqn:Hb; [|discriminate]); injection Hz as <-; exists m, a, b; auto. }
    destruct H as [m' [a [b [Ha [Hb ->]]]]]. apply ans_map.
    intros l -> x Hx. pose proof (map_size x l Hx). split.
    + eapply Hin; [|lia|exact Ha]. eapply within_in; [|exact Hw]. intros j Hj. cbn. apply in_or_app. now left.
    + eapply Hin; [|lia|exact Hb]. eapply within_in; [|exact Hw]. intros j Hj. cbn. apply in_or_app. now right.
  - apply inline_schema in Hz as [m Hz]; [|exact Hq|discriminate]. cbn in Hz.
    destruct (zgen E m InlineSchema t) as [a|] eqn:Ha; [|discriminate]. cbn in Hz.
    destruct (zgen E m InlineSchema e) as [b|] eqn:Hb; [|discriminate]. injection Hz as <-.
    apply ans_union. intros y [<-|[<-|[]]]; apply ans_object; intros l -> p [<-|[]]; cbn [fst snd];
      (eapply Hin; [| |eassumption]; [|pose proof (get_size "Ok" l); pose proof (get_size "Err" l); lia]);
      (eapply within_in; [|exact Hw]); intros j Hj; cbn; apply in_or_app; auto.
  - apply inline_schema in Hz as [m Hz]; [|exact Hq|discriminate]. cbn in Hz. apply (IH Hw m Schema); [now left|exact Hz].
  - apply inline_schema in Hz as [m Hz]; [|exact Hq|discriminate]. cbn in Hz.
    destruct (zgen E m InlineSchema t) as [y|] eqn:Hy; [|discriminate]. injection Hz as <-. apply ans_optional.
    apply (IH Hw m InlineSchema); [now right|exact Hy].
  - assert (Hi : inside i = true) by (apply Hw; now left).
    assert (Hd : forall n z, decl_z (zgen E n) (lookup E i) = Some z -> ans z v).
    { intros m y. apply decl_ans; [exact Hi|]. intros t Ht Hwt. now apply IH. }
    destruct n as [|n]; [discriminate|]. cbn [zgen] in Hz. destruct Hq as [-> | ->]; [now apply (Hd n)|].
    assert (Hlazy : ans (ZLazy (d_ns (lookup E i)) (d_name (lookup E i))) v).
    { destruct (HX i Hi) as [m [y [Hy HM]]]. eapply ans_lazy; [exact HM|]. destruct m as [|m]; [discriminate|].
      cbn [zgen] in Hy. eauto. }
    unfold ref_z in Hz. destruct (d_from (lookup E i)) as [t|] eqn:Hf; [|congruence].
    destruct (d_body (lookup E i)); [congruence|]. eapply IH; [| |now right|exact Hz].
    + unfold same_value. rewrite Hf. now left.
    + destruct (HC i Hi) as [_ Hp]. apply Hp. unfold parts. rewrite Hf. now left.
Qed.
End Level.

Theorem term_ans : forall sz v, vsize v < sz -> forall t n q z, within inside t -> sq q ->
  zgen E n q t = Some z -> ans z v.
Proof.
  induction sz as [|sz IH]; [lia|]. intros v Hv t n q z Hw Hq Hz.
  refine (level_ans sz IH v _ t _ Hw n q z Hq Hz); [lia|now apply all_grounded].
Qed.
End Term.

(** ** Answering for a function: grounded
    No generated schema accepts a function, so every alternative is tried. *)
Section Back.
Context (E : env) (ip : option string -> jstr -> bool) (M : menv) (inside : nat -> bool).
Context (HC : closed E inside).
Context (HX : forall i, inside i = true -> exists n z,
   zgen E n Schema (TNamed i) = Some z /\ M (d_ns (lookup E i)) (d_name (lookup E i)) = Some z).
Notation zparse := (zparse ip M).

Definition told (k : nat) (z : zod) (Q : Prop) : Prop :=
  zparse k z JsFun = PFuel \/ zparse k z JsFun = PErr /\ Q.

Definition P (k n : nat) : Prop := forall q t z, within inside t -> sq q -> zgen E n q t = Some z ->
  told k z (grounded E t).

Lemma told_imp k z (Q Q' : Prop) : (Q -> Q') -> told k z Q -> told k z Q'.
Proof. intros H [H1|[H1 H2]]; [now left|right; auto]. Qed.

Lemma told_now k z (Q : Prop) : zparse (S k) z JsFun = PErr -> Q -> told (S k) z Q.
Proof. intros H HQ. right. auto. Qed.

Lemma first_told {A} (f : A -> zod) (Q : A -> Prop) k l : (forall a, In a l -> told k (f a) (Q a)) ->
  first_ok (map (fun a => zparse k (f a) JsFun) l) = PFuel \/
  first_ok (map (fun a => zparse k (f a) JsFun) l) = PErr /\ forall a, In a l -> Q a.
Proof.
  induction l as [|a l IH]; intros H; [right; easy|]. cbn [map first_ok].
  destruct (H a (or_introl eq_refl)) as [->|[-> HQ]]; [now left|].
  destruct IH as [->|[-> HQ']]; [intros b Hb; apply H; now right|now left|].
  right. split; [reflexivity|]. intros b [<-|Hb]; auto.
Qed.

Lemma told_err k z (Q : Prop) : (forall j, zparse (S j) z JsFun = PErr) -> Q -> told k z Q.
Proof. intros H HQ. destruct k as [|k0]; [now left|]. right. auto. Qed.

Section Step.
Context (k n : nat).
Context (Hk : forall k' n, k' < k -> P k' n) (Hn : forall n', n' < n -> P k n').

Lemma told_opt b z (Q : Prop) : (forall k', k' <= k -> told k' z Q) -> told k (zopt b z) Q.
Proof.
  intros H. destruct b; [|now apply H]. cbn [zopt]. destruct k as [|k0]; [now left|].
  unfold told. cbn [Zod.zparse]. apply H. lia.
Qed.

Lemma Ple m k' : k' <= k -> m < n -> P k' m.
Proof. intros H1 H2. destruct (Nat.eq_dec k' k) as [->|]; [now apply Hn|]. apply Hk. lia. Qed.

Lemma told_field m f z : m < n -> within inside (f_ty f) -> field_z (zgen E m) f = Some z -> told k z (grounded E (f_ty f)).
Proof.
  intros Hm Hw Hz. unfold field_z in Hz. destruct (zgen E m InlineSchema (f_ty f)) as [y|] eqn:Hy; [|discriminate].
  injection Hz as <-. apply told_opt. intros k' Hk'. apply (Ple m k' Hk' Hm InlineSchema); [exact Hw|now right|exact Hy].
Qed.

(** The types the variant hands the value on to. *)
Definition handed (tg : tagging) (v : variant) : list ty :=
  match tg, v_style v, kept (v_fields v) with Untagged, StTuple, [f] => [f_ty f] | _, _, _ => [] end.

Lemma told_variant m tg v z : m < n -> (forall f, In f (kept (v_fields v)) -> within inside (f_ty f)) ->
  variant_z (zgen E m) tg v = Some z -> told k z (forall t, In t (handed tg v) -> grounded E t).
Proof.
  intros Hm Hw Hz. unfold variant_z, handed in *. destruct (v_style v).
  - destruct (kept (v_fields v)) as [|f r] eqn:Hkf; [discriminate|]. rewrite <- Hkf in *.
    destruct (all_some _) as [ps|]; [|discriminate]. injection Hz as <-. apply told_err; [|now destruct tg].
    destruct tg; reflexivity.
  - destruct (kept (v_fields v)) as [|f [|f2 r]] eqn:Hkf.
    + injection Hz as <-. apply told_err; [|now destruct tg]. destruct tg; reflexivity.
    + destruct (field_z (zgen E m) f) as [y|] eqn:Hy; [|discriminate]. injection Hz as <-.
      destruct tg; try (apply told_err; [reflexivity|easy]). cbn [zlits].
      eapply told_imp; [|apply (told_field m f); [exact Hm|apply Hw; now left|exact Hy]]. intros H t [<-|[]]. exact H.
    + rewrite <- Hkf in *. destruct (all_some _) as [zs|]; [|discriminate]. injection Hz as <-.
      apply told_err; [destruct tg; reflexivity|]. now destruct tg.
  - injection Hz as <-. apply told_err; [|now destruct tg]. destruct tg; reflexivity.
Qed.
End Step.

Lemma told_decl k n m i z : (forall k' n, k' < k -> P k' n) -> (forall n', n' < n -> P k n') -> m < n ->
  inside i = true -> decl_z (zgen E m) (lookup E i) = Some z -> told k z (grounded E (TNamed i)).
Proof.
  intros Hk Hn Hm Hi Hz. apply (told_imp _ _ (forall t, In t (same_value (lookup E i)) -> grounded E t));
    [now constructor|].
  destruct (HC i Hi) as [Hnf Hp]. unfold decl_z in Hz. unfold same_value.
  unfold flattens, parts in Hnf, Hp. destruct (d_from (lookup E i)) as [t|].
  - assert (Hw : within inside t) by (apply Hp; now left).
    apply (told_imp _ _ (grounded E t)); [intros H u [<-|[]]; exact H|]. destruct (d_body (lookup E i)).
    + apply (Hn m Hm InlineSchema); [exact Hw|now right|exact Hz].
    + apply (Hn m Hm Schema); [exact Hw|now left|exact Hz].
  - destruct (d_body (lookup E i)) as [st tr fs|tg vs].
    + destruct (not_flat fs Hnf) as [Hpl Hfl]. unfold struct_z in Hz. rewrite Hpl, Hfl in Hz. clear Hpl Hfl.
      assert (Hw : forall f, In f (kept fs) -> within inside (f_ty f)) by (intros f Hf; now apply Hp, in_map).
      destruct tr.
      * destruct (kept fs) as [|f r]; [destruct st; discriminate|].
        assert (Hz' : field_z (zgen E m) f = Some z) by (destruct st; exact Hz).
        apply (told_imp _ _ (grounded E (f_ty f))); [destruct st; intros H u [<-|[]]; exact H|].
        eapply told_field; [exact Hk|exact Hn|exact Hm|apply Hw; now left|exact Hz'].
      * destruct st; [| |discriminate].
        -- destruct (all_some _) as [ps|]; [|discriminate]. cbn in Hz. injection Hz as <-.
           apply told_err; easy.
        -- destruct (kept fs) as [|f [|f2 r]] eqn:Hkf; [discriminate| |].
           ++ apply (told_imp _ _ (grounded E (f_ty f))); [intros H u [<-|[]]; exact H|].
              eapply told_field; [exact Hk|exact Hn|exact Hm|apply Hw; now left|exact Hz].
           ++ rewrite <- Hkf in *. destruct (all_some _) as [zs|]; [|discriminate]. injection Hz as <-.
              apply told_err; [reflexivity|]. easy.
    + assert (Hv : forall k' v y, k' <= k -> In v (kept_variants vs) -> variant_z (zgen E m) tg v = Some y ->
        told k' y (forall t, In t (handed tg v) -> grounded E t)).
      { intros k' v y Hk' Hv Hy. eapply (told_variant k' n); [| |exact Hm| |exact Hy].
        - intros k2 n2 H2. apply Hk. lia.
        - intros n' Hn'. apply (Ple k n Hk Hn); auto.
        - intros f Hf. apply Hp, in_flat_map. exists v. split; [exact Hv|]. now apply in_map. }
      apply (told_imp _ _ (forall v, In v (kept_variants vs) -> forall t, In t (handed tg v) -> grounded E t)).
      { intros H t Ht. destruct tg; try easy. apply in_flat_map in Ht as [v [Hv1 Hv2]]. apply (H v Hv1).
        unfold handed. exact Hv2. }
      unfold enum_z in Hz. destruct (kept_variants vs) as [|v [|v2 r]]; [discriminate| |].
      * eapply told_imp; [|apply (Hv k v z); [lia|now left|exact Hz]]. intros H v' [<-|[]]. exact H.
      * destruct (all_some _) as [zs|] eqn:Ha; [|discriminate]. cbn [bind] in Hz. apply all_some_map in Ha.
        set (L := v :: v2 :: r) in *. clearbody L.
        assert (Hu : told k (ZUnion zs) (forall v, In v L -> forall t, In t (handed tg v) -> grounded E t)).
        { destruct k as [|k0]; [now left|].
          assert (Hf : first_ok (map (fun a => zparse k0 a JsFun) zs) = PFuel \/
            first_ok (map (fun a => zparse k0 a JsFun) zs) = PErr /\
            forall a, In a zs -> forall v, variant_z (zgen E m) tg v = Some a -> In v L ->
               forall t, In t (handed tg v) -> grounded E t).
          { apply (first_told (fun a => a)). intros a Hin.
            destruct (Forall2_in_right _ _ _ a Ha Hin) as [w [Hw1 Hw2]].
            destruct (Hv k0 w a) as [H|[H _]]; [lia|exact Hw1|exact Hw2|now left|]. right. split; [exact H|].
            intros v' Hv' HL. destruct (Hv k0 v' a) as [H'|[_ H']]; [lia|exact HL|exact Hv'|congruence|exact H']. }
          destruct Hf as [Hf|[Hf HQ]]; [left; exact Hf|right]. split; [exact Hf|].
          intros v' Hv'. destruct (Forall2_in_l _ _ _ v' Ha Hv') as [a [Ha1 Ha2]]. apply in_combine_r in Ha1. exact (HQ a Ha1 v' Ha2 Hv'). }
        destruct tg as [|tag|tag content|]; try (injection Hz as <-; exact Hu).
        -- destruct (disc_opts tag [] zs); try discriminate. injection Hz as <-. apply told_err; easy.
        -- destruct (disc_opts tag [] zs); try discriminate. injection Hz as <-. apply told_err; easy.
Qed.

Lemma P_step k n : (forall k' n, k' < k -> P k' n) -> (forall n', n' < n -> P k n') -> P k n.
Proof.
  intros Hk Hn q t z Hw Hq Hz. destruct n as [|n]; [discriminate|].
  assert (Hb : (forall i, t <> TNamed i) -> told k z (grounded E t)).
  { intros Ht. assert (Hz' : match q with Schema => builtin_z (zgen E n) t | _ => zgen E n Schema t end = Some z).
    { destruct t; try exact Hz. now destruct (Ht i). }
    destruct Hq as [-> | ->]; [|apply (Hn n (Nat.lt_succ_diag_r n) Schema); [exact Hw|now left|exact Hz']].
    assert (HS : forall q u z, within inside u -> sq q -> zgen E n q u = Some z -> told k z (grounded E u)).
    { intros. eapply (Hn n); eauto. }
    assert (Hd : (forall j, zparse (S j) z JsFun = PErr) -> grounded E t -> told k z (grounded E t)).
    { intros. now apply told_err. }
    destruct t as [p|ts|w t|t|c t|c t|c a b|t|t e|i]; cbn [builtin_z] in Hz'.
    - destruct (zprim_kind p z Hz') as [[cs ->]|[[cs ->]| ->]]; apply Hd; easy || constructor.
    - destruct (all_some _); [|discriminate]. injection Hz' as <-. apply Hd; [easy|constructor].
    - eapply told_imp; [|apply (HS Schema t z Hw (or_introl eq_refl) Hz')]. now constructor.
    - destruct (zgen E n InlineSchema t); [|discriminate]. injection Hz' as <-. apply Hd; [easy|constructor].
    - destruct n as [|n0]; [discriminate|]. cbn in Hz'. destruct (zgen E n0 InlineSchema t); [|discriminate].
      injection Hz' as <-. apply Hd; [easy|constructor].
    - destruct c.
      + destruct (zgen E n InlineSchema t); [|discriminate]. injection Hz' as <-. apply Hd; [easy|constructor].
      + destruct n as [|n0]; [discriminate|]. cbn in Hz'. destruct (zgen E n0 InlineSchema t); [|discriminate].
        injection Hz' as <-. apply Hd; [easy|constructor].
    - destruct c.
      + destruct (zgen E n InlineSchema a); [|discriminate]. cbn in Hz'.
        destruct (zgen E n InlineSchema b); [|discriminate]. injection Hz' as <-. apply Hd; [easy|constructor].
      + destruct n as [|n0]; [discriminate|]. cbn in Hz'. destruct (zgen E n0 InlineSchema a); [|discriminate]. cbn in Hz'.
        destruct (zgen E n0 InlineSchema b); [|discriminate]. injection Hz' as <-. apply Hd; [easy|constructor].
    - destruct (zgen E n InlineSchema t) as [y|] eqn:Hy; [|discriminate]. injection Hz' as <-.
      apply (told_imp _ _ (grounded E t)); [now constructor|].
      destruct k as [|k0]; [now left|]. unfold told. cbn [Zod.zparse].
      apply (Hk k0 n (Nat.lt_succ_diag_r k0) InlineSchema); [exact Hw|now right|exact Hy].
    - destruct (zgen E n InlineSchema t); [|discriminate]. cbn in Hz'.
      destruct (zgen E n InlineSchema e); [|discriminate]. injection Hz' as <-.
      destruct k as [|[|k0]]; [now left|now left|]. right. split; [reflexivity|constructor].
    - now destruct (Ht i). }
  destruct t as [p|ts|w t|t|c t|c t|c a b|t|t e|i]; try (apply Hb; discriminate). clear Hb.
  assert (Hi : inside i = true) by (apply Hw; now left). cbn [zgen] in Hz. destruct Hq as [-> | ->].
  - eapply told_decl; eauto.
  - assert (Hl : told k (ZLazy (d_ns (lookup E i)) (d_name (lookup E i))) (grounded E (TNamed i))).
    { destruct k as [|k0]; [now left|]. destruct (HX i Hi) as [m [y [Hy HM]]]. unfold told. cbn [Zod.zparse]. rewrite HM.
      apply (Hk k0 m (Nat.lt_succ_diag_r k0) Schema); [exact Hw|now left|exact Hy]. }
    unfold ref_z in Hz. destruct (d_from (lookup E i)) as [t|] eqn:Hf; [|injection Hz as <-; exact Hl].
    destruct (d_body (lookup E i)); [injection Hz as <-; exact Hl|].
    apply (told_imp _ _ (grounded E t)).
    { intros H. constructor. unfold same_value. rewrite Hf. intros u [<-|[]]. exact H. }
    apply (Hn n (Nat.lt_succ_diag_r n) InlineSchema); [|now right|exact Hz].
    destruct (HC i Hi) as [_ Hp]. apply Hp. unfold parts. rewrite Hf. now left.
Qed.

Theorem fun_told : forall k n, P k n.
Proof.
  induction k as [k Hk] using lt_wf_ind. induction n as [n Hn] using lt_wf_ind. apply P_step; auto.
Qed.
End Back.

(** ** Both directions, for the generated texts *)
Lemma exports_zgen E inside M : good_names E -> tags_ok E -> exports E inside M ->
  forall i, inside i = true -> exists n z,
   zgen E n Schema (TNamed i) = Some z /\ M (d_ns (lookup E i)) (d_name (lookup E i)) = Some z.
Proof.
  intros Hg HT HX i Hi. destruct (HX i Hi) as [s [z [Hr [Hl HM]]]].
  destruct (load_zgen E _ s z Hg HT Hr Hl) as [n Hn]. eauto.
Qed.

Theorem grounded_answers E ip M inside t s z v : good_names E -> tags_ok E -> closed E inside -> exports E inside M ->
  (forall i, inside i = true -> grounded E (TNamed i)) -> within inside t ->
  returns E Schema t s -> load s = Val z -> answers ip M z v.
Proof.
  intros Hg HT HC HX HG Hw Hr Hl. destruct (load_zgen E t s z Hg HT Hr Hl) as [n Hn]. apply ans_answers.
  apply (term_ans E ip M inside HC (exports_zgen E inside M Hg HT HX) HG (S (vsize v)) v (Nat.lt_succ_diag_r _) t n Schema z Hw);
    [now left|exact Hn].
Qed.

Theorem answers_grounded E ip M inside t s z : good_names E -> tags_ok E -> closed E inside -> exports E inside M ->
  within inside t -> returns E Schema t s -> load s = Val z -> answers ip M z JsFun -> grounded E t.
Proof.
  intros Hg HT HC HX Hw Hr Hl HA. destruct (load_zgen E t s z Hg HT Hr Hl) as [n Hn].
  apply ans_answers in HA as [k Hk].
  destruct (fun_told E ip M inside HC (exports_zgen E inside M Hg HT HX) k n Schema t z Hw (or_introl eq_refl) Hn) as [H|[_ H]];
    [|exact H].
  rewrite H in Hk. destruct Hk as [[o Hk]|Hk]; discriminate Hk.
Qed.

Theorem answers_iff E ip M inside : good_names E -> tags_ok E -> closed E inside -> exports E inside M ->
  ((forall i s z v, inside i = true -> returns E Schema (TNamed i) s -> load s = Val z -> answers ip M z v) <->
   (forall i, inside i = true -> grounded E (TNamed i))).
Proof.
  intros Hg HT HC HX. assert (Hw : forall i, inside i = true -> within inside (TNamed i)).
  { intros i Hi j [<-|[]]. exact Hi. }
  split.
  - intros H i Hi. destruct (HX i Hi) as [s [z [Hr [Hl _]]]].
    apply (answers_grounded E ip M inside (TNamed i) s z); eauto.
  - intros H i s z v Hi Hr Hl. apply (grounded_answers E ip M inside (TNamed i) s z v); auto.
Qed.
