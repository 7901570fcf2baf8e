(** What serde writes is a member of the TypeScript type (proofs). *)
From Coq Require Import List String Ascii Bool NArith ZArith Lia.
From Verif Require Import RustTy Gen GenSpec GenProofs JsLex JsParse Js Zod Ast AstProofs ZodProofs ZodSpec ZodLoad Serde SerdeSpec SerdeProofs
  ParseSpec ParseProofs ParseTerm CompleteSpec CompleteProofs TsType TsAst TsAstProofs TsSpec TsMember.
Import ListNotations.
Local Open Scope string_scope.
Local Open Scope list_scope.

Lemma get_first k v l : get_prop k ((js k, v) :: l) = v.
Proof. unfold get_prop. rewrite prop_cons. cbn [fst snd]. now rewrite jeqb_refl. Qed.
Lemma get_next k k' v l : k <> k' -> get_prop k ((js k', v) :: l) = get_prop k l.
Proof.
  intros H. unfold get_prop. rewrite prop_cons. cbn [fst snd]. rewrite js_eqb.
  destruct (String.eqb_spec k k'); [contradiction|reflexivity].
Qed.

Section Main.
Context (R : rust) (E : env) (T : tenv) (inside : nat -> bool) (mild : bool).
Context (HF : typed mild inside E).
Context (HT : forall i, inside i = true -> exists m y, tgen E m TypeDef (TNamed i) = Some y /\
  T (d_ns (lookup E i)) (d_name (lookup E i)) = Some y).
Notation member := (member T).
Notation ser := (ser R E).
Notation typed_ty := (typed_ty mild inside).

Definition okd (j : json) : Prop := mild = true -> no_null j = true.

Lemma okd_arr l x : okd (JArr l) -> In x l -> okd x.
Proof. intros H Hx Hm. specialize (H Hm). cbn in H. rewrite forallb_forall in H. now apply H. Qed.
Lemma okd_obj l k x : okd (JObj l) -> In (k, x) l -> okd x.
Proof. intros H Hx Hm. specialize (H Hm). cbn in H. rewrite forallb_forall in H. now apply (H (k, x)). Qed.

(** No declaration of the fragment has a from-type. *)
Lemma inline_typed (Q : tsty -> Prop) : (forall ns n y, T ns n = Some y -> Q y -> Q (YRef ns n)) ->
  forall m t y, typed_ty t = true -> (forall m y, tgen E m TypeDef t = Some y -> Q y) ->
  tgen E m Inline t = Some y -> Q y.
Proof.
  intros HQ m t y Hw Ht Hy. destruct m as [|m]; [discriminate|].
  assert (Hb : (forall i, t <> TNamed i) -> Q y).
  { intros Hn. destruct t; try (apply (Ht m); exact Hy). now destruct (Hn i). }
  destruct t; try (apply Hb; discriminate). clear Hb. cbn in Hw. pose proof (HF i Hw) as Hd. unfold typed_decl in Hd.
  cbn [tgen] in Hy. destruct (derive (lookup E i)); try discriminate.
  unfold decl_name in Hy. destruct (d_from (lookup E i)); [destruct Hd|]. injection Hy as <-.
  destruct (HT i Hw) as [m0 [y0 [H1 H2]]]. apply (HQ _ _ y0 H2). now apply (Ht m0).
Qed.

Lemma prim_typed p j : typed_ty (TPrim p) = true -> okd j -> prim_writes R p j = true ->
  member (YName (prim_type p)) (jsparse j).
Proof.
  intros Hc Hj Hw. destruct p; cbn [prim_type]; cbn in Hc; destruct j; try discriminate Hw; try constructor;
    specialize (Hj Hc); discriminate Hj.
Qed.

Section Level.
Context (n : nat).
Context (Hrec : forall t j, ser n t j = true -> typed_ty t = true -> okd j ->
  forall m y, tgen E m TypeDef t = Some y -> member y (jsparse j)).

Lemma tfield_mem m t b j y : typed_ty t = true -> okd j -> ser n t j = true ->
  tfield (tgen E m) t b = Some y -> member y (jsparse j).
Proof.
  intros Hc Hj Hs Hy. unfold tfield in Hy. destruct (tgen E m Inline t) as [y0|] eqn:Hy0; [|discriminate].
  injection Hy as <-.
  assert (H : member y0 (jsparse j)).
  { apply (inline_typed (fun y => member y (jsparse j))) with (m := m) (t := t); auto.
    - intros ns nm y H1 H2. now apply (mb_ref T ns nm y).
    - intros m' y' Hy'. now apply (Hrec t j Hs Hc Hj m'). }
  destruct b; [|exact H]. apply member_opt. now right.
Qed.

Lemma tprops_mem m fs l tps : typed_named mild inside fs -> write_named (ser n) (skept fs) l = true -> okd (JObj l) ->
  all_some (map (fun f => tprop (tgen E m) (f_name f) (f_ty f) (f_default f)) (kept fs)) = Some tps ->
  forall k opt y, In (k, opt, y) tps ->
    In k (map f_name (kept fs)) /\
    (opt = true /\ get_prop k (pl l) = JsUndef \/ member y (get_prop k (pl l))).
Proof.
  intros [Hk [_ Hnd]] Hw Hj Htps k opt y Hi. apply all_some_map in Htps.
  destruct (Forall2_in_right _ _ _ _ Htps Hi) as [f [Hf Hp]].
  unfold tprop in Hp. destruct (tfield _ _ _) as [y0|] eqn:Hy0; [|discriminate]. injection Hp as <- <- <-.
  split; [now apply in_map|]. destruct (Hk f Hf) as [_ [[Hc [Hss Hsn]]|[Hd [Hni Hh]]]].
  - right. assert (Hin : In f (skept fs)).
    { unfold skept. apply filter_In. unfold kept in Hf. apply filter_In in Hf as [Hf _]. split; [exact Hf|]. now rewrite Hss. }
    destruct (write_named_get _ _ l Hw Hnd f Hin) as [j [Hl [Hs Hij]]].
    unfold get_prop. rewrite <- Hsn, prop_pl, Hl. cbn [option_map].
    eapply tfield_mem; [exact Hc|eapply okd_obj; [exact Hj|exact Hij]|exact Hs|exact Hy0].
  - left. split; [exact Hd|]. unfold get_prop. rewrite prop_pl, prop_notin; [now rewrite Hh|].
    intros Hin. destruct (write_named_key _ _ _ Hw _ Hin) as [g [Hg He]]. apply js_inj in He. apply Hni. rewrite He.
    now apply in_map.
Qed.

Lemma tuple_mem m fs : typed_tuple mild inside fs -> forall l ys, write_seq (ser n) fs l = true -> okd (JArr l) ->
  all_some (map (fun f => tfield (tgen E m) (f_ty f) (f_default f)) fs) = Some ys -> member (YTup ys) (jsparse (JArr l)).
Proof.
  intros Hc l ys Hw Hj Hz. cbn [jsparse]. constructor. apply all_some_map in Hz.
  assert (Hj' : forall x, In x l -> okd x) by (intros x; now apply okd_arr). clear Hj.
  revert l Hw Hj'. induction Hz as [|f y fs ys Hf _ IH]; intros [|x l] Hw Hj; try discriminate Hw; [constructor|].
  cbn in Hw. apply andb_true_iff in Hw as [Hw1 Hw2]. constructor.
  - eapply tfield_mem; [|apply Hj; now left|exact Hw1|exact Hf]. now apply Hc; left.
  - apply IH; auto. + intros g Hg. apply Hc. now right. + intros z Hz. apply Hj. now right.
Qed.

Lemma typed_kept fs : typed_tuple mild inside fs -> kept fs = fs /\ skept fs = fs /\ filter plain fs = fs.
Proof.
  unfold kept, skept. induction fs as [|f fs IH]; intros H; [auto|]. cbn [filter]. unfold plain at 1.
  destruct (H f (or_introl eq_refl)) as [_ [H1 [H2 H3]]]. rewrite H1, H2, H3. cbn [negb].
  destruct IH as [-> [-> ->]]; auto. intros g Hg. apply H. now right.
Qed.

(** The content of a variant. *)
Definition inner_ty (m : nat) (v : variant) : option tsty :=
  match v_style v, kept (v_fields v) with
  | StTuple, [f] => tfield (tgen E m) (f_ty f) (f_default f)
  | StTuple, fs => option_map YTup (all_some (map (fun f => tfield (tgen E m) (f_ty f) (f_default f)) fs))
  | StNamed, fs => option_map YObj (all_some (map (fun f => tprop (tgen E m) (f_name f) (f_ty f) (f_default f)) fs))
  | StUnit, _ => None
  end.

Lemma variant_inner_ty m tg v y : (forall t, tg = Internal t -> v_style v <> StNamed) ->
  v_style v <> StUnit -> (v_style v = StTuple -> kept (v_fields v) <> []) ->
  variant_ty (tgen E m) tg v = Some y -> exists y0, inner_ty m v = Some y0 /\ y = ylits tg (v_name v) y0.
Proof.
  intros Hi Hu Ht Hz. unfold variant_ty in Hz. change (variant_fields (v_fields v)) with (kept (v_fields v)) in Hz.
  unfold inner_ty. destruct (v_style v).
  - unfold named_ty in Hz. destruct (kept (v_fields v)) as [|f r] eqn:Hk; [discriminate|]. rewrite <- Hk in *.
    destruct (all_some _) as [ps|]; [|discriminate]. injection Hz as <-. eexists. split; [reflexivity|].
    destruct tg; try reflexivity. now destruct (Hi tag eq_refl).
  - unfold tuple_ty in Hz. destruct (kept (v_fields v)) as [|f [|f2 r]] eqn:Hk; [now destruct (Ht eq_refl)| |].
    + destruct (tfield _ _ _) as [y0|]; [|discriminate]. injection Hz as <-. exists y0. split; [reflexivity|]. now destruct tg.
    + destruct (all_some _) as [ys|]; [|discriminate]. injection Hz as <-. eexists. split; [reflexivity|]. now destruct tg.
  - easy.
Qed.

Definition typed_inner (v : variant) : Prop :=
  match v_style v with
  | StUnit => False
  | StTuple => v_fields v <> [] /\ typed_tuple mild inside (v_fields v)
  | StNamed => typed_named mild inside (v_fields v)
  end.

Lemma content_mem m v j y : typed_inner v -> wcontent R E n v j = true -> okd j -> inner_ty m v = Some y -> member y (jsparse j).
Proof.
  unfold typed_inner, wcontent, variant_wshape, inner_ty. intros Hc Hw Hj Hz. destruct (v_style v).
  - destruct j as [| | | | | |l]; try discriminate Hw. destruct (all_some _) as [ps|] eqn:Ha; [|discriminate]. injection Hz as <-.
    change (jsparse (JObj l)) with (JsObj (pl l)). constructor. intros k opt y Hi.
    exact (proj2 (tprops_mem m (v_fields v) l ps Hc Hw Hj Ha k opt y Hi)).
  - destruct Hc as [Hne Hc]. destruct (typed_kept _ Hc) as [Hk [Hsk _]]. rewrite Hk in Hz.
    destruct (v_fields v) as [|f [|f2 r]] eqn:Hf; [easy| |].
    + destruct (Hc f (or_introl eq_refl)) as [Hcf [_ [Hss _]]]. rewrite Hss in Hw. eapply tfield_mem; eauto.
    + rewrite <- Hf in *. rewrite Hsk in Hw. destruct j as [| | | | |l|]; try discriminate Hw.
      assert (Hz' : option_map YTup (all_some (map (fun f => tfield (tgen E m) (f_ty f) (f_default f)) (v_fields v))) = Some y).
      { rewrite Hf in Hz |- *. exact Hz. }
      destruct (all_some (map (fun f => tfield _ _ _) (v_fields v))) as [ys|] eqn:Ha; [|discriminate]. injection Hz' as <-.
      eapply tuple_mem; eauto.
  - destruct Hc.
Qed.

Lemma lits_mem tg name y c : match tg with Internal _ => False | Adjacent t c => t <> c | _ => True end ->
  member y (jsparse c) ->
  member (ylits tg name y) (jsparse
    match tg with
    | External => JObj [(js name, c)]
    | Adjacent tag ctag => JObj [(js tag, JStr (js name)); (js ctag, c)]
    | _ => c
    end).
Proof.
  intros Ht Hy. destruct tg as [|tag|tag ctag|]; cbn [ylits jsparse map fst snd]; [|destruct Ht| |exact Hy].
  - constructor. intros k opt y' [[= <- <- <-]|[]]. right. now rewrite get_first.
  - constructor. intros k opt y' [[= <- <- <-]|[[= <- <- <-]|[]]]; right.
    + rewrite get_first. constructor.
    + rewrite get_next by congruence. now rewrite get_first.
Qed.

Lemma variant_mem m tg v j y : typed_variant mild inside tg v -> write_variant (ser n) tg v j = true -> okd j ->
  variant_ty (tgen E m) tg v = Some y -> member y (jsparse j).
Proof.
  intros [_ [Hsn Hv]] Hw Hj Hy. unfold write_variant in Hw. rewrite Hsn in Hw. fold (wcontent R E n v) in Hw.
  destruct (v_style v) eqn:Hst.
  - destruct Hv as [Hc Htg]. assert (Hsh : variant_wshape v = SStruct (skept (v_fields v))).
    { unfold variant_wshape. now rewrite Hst. }
    assert (Hwc : forall c, match c with JObj l => write_named (ser n) (skept (v_fields v)) l | _ => false end = true -> wcontent R E n v c = true).
    { intros c H. unfold wcontent. now rewrite Hsh. }
    assert (Hci : typed_inner v) by (unfold typed_inner; now rewrite Hst).
    destruct tg as [|tag|tag ctag|].
    + rewrite Hsh in Hw. destruct j as [| | | | | |[|[k c] [|]]]; try discriminate Hw.
      apply andb_true_iff in Hw as [Hk Hw]. apply jeqb_eq in Hk. subst k.
      destruct (variant_inner_ty m External v y) as [y0 [Hy0 ->]]; try (rewrite Hst; discriminate); try discriminate; [exact Hy|].
      apply (lits_mem External (v_name v) y0 c I).
      eapply content_mem; [exact Hci|exact (Hwc _ Hw)| |exact Hy0]. eapply okd_obj; [exact Hj|now left].
    + destruct j as [| | | | | |[|[k [| | | |s| |]] l]]; try discriminate Hw.
      rewrite Hsh in Hw. apply andb_true_iff in Hw as [Hw Hl]. apply andb_true_iff in Hw as [Hk Hs].
      apply jeqb_eq in Hk, Hs. subst k s. unfold variant_ty in Hy. rewrite Hst in Hy.
      change (variant_fields (v_fields v)) with (kept (v_fields v)) in Hy. unfold named_ty in Hy.
      destruct (kept (v_fields v)) as [|f0 r0] eqn:Hkf; [discriminate|]. rewrite <- Hkf in *.
      destruct (all_some _) as [ps|] eqn:Ha; [|discriminate]. injection Hy as <-.
      assert (Hjl : okd (JObj l)).
      { intros Hm. specialize (Hj Hm). cbn in Hj. exact Hj. }
      destruct Htg as [_ Htg].
      change (jsparse (JObj ((js tag, JStr (js (v_name v))) :: l))) with (JsObj ((js tag, JsStr (js (v_name v))) :: pl l)).
      constructor. intros k opt y [[= <- <- <-]|Hi].
      * right. rewrite get_first. constructor.
      * destruct (tprops_mem m (v_fields v) l ps Hc Hl Hjl Ha k opt y Hi) as [H1 H2].
        rewrite get_next; [exact H2|]. intros ->. now apply Htg.
    + rewrite Hsh in Hw. destruct j as [| | | | | |[|[k [| | | |s| |]] [|[k2 c] [|]]]]; try discriminate Hw.
      apply andb_true_iff in Hw as [Hw Hc2]. apply andb_true_iff in Hw as [Hw Hk2]. apply andb_true_iff in Hw as [Hk Hs].
      apply jeqb_eq in Hk, Hs, Hk2. subst k s k2.
      destruct (variant_inner_ty m (Adjacent tag ctag) v y) as [y0 [Hy0 ->]]; try (rewrite Hst; discriminate); try discriminate; [exact Hy|].
      apply (lits_mem (Adjacent tag ctag) (v_name v) y0 c Htg). eapply content_mem; [exact Hci|exact (Hwc _ Hc2)| |exact Hy0].
      eapply okd_obj; [exact Hj|right; now left].
    + rewrite Hsh in Hw. destruct (variant_inner_ty m Untagged v y) as [y0 [Hy0 ->]]; try (rewrite Hst; discriminate); try discriminate; [exact Hy|].
      cbn [ylits]. eapply content_mem; [exact Hci|exact (Hwc _ Hw)|exact Hj|exact Hy0].
  - destruct Hv as [Hne [Hc Htg]]. destruct (typed_kept _ Hc) as [Hk0 _].
    assert (Hsh : forall A (a b : A), match variant_wshape v with SUnit => a | _ => b end = b).
    { intros A a b. unfold variant_wshape. rewrite Hst. destruct (v_fields v) as [|f [|]]; [easy| |reflexivity].
      destruct (Hc f (or_introl eq_refl)) as [_ [_ [H _]]]. now rewrite H. }
    assert (Hci : typed_inner v) by (unfold typed_inner; now rewrite Hst).
    destruct (variant_inner_ty m tg v y) as [y0 [Hy0 ->]];
      [intros t _; rewrite Hst; discriminate|rewrite Hst; discriminate|intros _; now rewrite Hk0|exact Hy|].
    destruct tg as [|tag|tag ctag|]; [|destruct Htg| |].
    + assert (Hw' : exists c, j = JObj [(js (v_name v), c)] /\ wcontent R E n v c = true).
      { specialize (Hsh bool true false). unfold wcontent in *. destruct (variant_wshape v); try discriminate Hsh;
          (destruct j as [| | | | | |[|[k c] [|]]]; try discriminate Hw; apply andb_true_iff in Hw as [Hk Hw]; apply jeqb_eq in Hk; subst k; eauto). }
      destruct Hw' as [c [-> Hwc]]. apply (lits_mem External (v_name v) y0 c I).
      eapply content_mem; [exact Hci|exact Hwc| |exact Hy0]. eapply okd_obj; [exact Hj|now left].
    + assert (Hw' : exists c, j = JObj [(js tag, JStr (js (v_name v))); (js ctag, c)] /\ wcontent R E n v c = true).
      { specialize (Hsh bool true false). unfold wcontent in *. destruct (variant_wshape v); try discriminate Hsh;
          (destruct j as [| | | | | |[|[k [| | | |s| |]] [|[k2 c] [|]]]]; try discriminate Hw;
           apply andb_true_iff in Hw as [Hw Hc2]; apply andb_true_iff in Hw as [Hw Hk2]; apply andb_true_iff in Hw as [Hk Hs];
           apply jeqb_eq in Hk, Hs, Hk2; subst k s k2; eauto). }
      destruct Hw' as [c [-> Hwc]]. apply (lits_mem (Adjacent tag ctag) (v_name v) y0 c Htg). eapply content_mem; [exact Hci|exact Hwc| |exact Hy0].
      eapply okd_obj; [exact Hj|right; now left].
    + rewrite Hsh in Hw. cbn [ylits]. eapply content_mem; eauto.
  - assert (Hsh : variant_wshape v = SUnit) by (unfold variant_wshape; now rewrite Hst).
    unfold variant_ty in Hy. rewrite Hst in Hy. injection Hy as <-. rewrite Hsh in Hw.
    assert (Hobj : forall tag, member (YObj [(tag, false, YStr (v_name v))]) (JsObj [(js tag, JsStr (js (v_name v)))])).
    { intros tag. constructor. intros k opt y [[= <- <- <-]|[]]. right. rewrite get_first. constructor. }
    destruct tg as [|tag|tag ctag|]; cbn [unit_ty].
    + destruct j; try discriminate Hw. apply jeqb_eq in Hw. subst s. constructor.
    + destruct j as [| | | | | |[|[k [| | | |s| |]] l]]; try discriminate Hw. apply andb_true_iff in Hw as [Hw Hl].
      apply andb_true_iff in Hw as [Hk Hs]. apply jeqb_eq in Hk, Hs. subst k s. destruct l; [|discriminate Hl]. apply Hobj.
    + destruct j as [| | | | | |[|[k [| | | |s| |]] [|]]]; try discriminate Hw.
      apply andb_true_iff in Hw as [Hk Hs]. apply jeqb_eq in Hk, Hs. subst k s. apply Hobj.
    + destruct j; try discriminate Hw. constructor.
Qed.

Lemma decl_mem m i j y : inside i = true -> write_decl R E (ser n) i j = true -> okd j ->
  decl_ty (tgen E m) (lookup E i) = Some y -> member y (jsparse j).
Proof.
  intros Hi Hw Hj Hy. assert (Hc := HF i Hi).
  unfold typed_decl in Hc. unfold write_decl in Hw. unfold decl_ty in Hy.
  destruct (d_from (lookup E i)); [destruct Hc|]. destruct (d_body (lookup E i)) as [st tr fs|tg vs].
  - unfold struct_ty in Hy. rewrite plain_sfields, flat_sfields in Hy. unfold typed_struct in Hc.
    destruct tr.
    + destruct Hc as [Hsf [f [Hk [Hcf Hsk]]]]. rewrite (no_flat fs Hsf), Hsk in Hw. rewrite Hk in Hy.
      assert (Hpf : filter plain [f] = [f]).
      { cbn. unfold plain. rewrite (Hsf f); [reflexivity|]. unfold skept. apply filter_In.
        assert (Hin : In f (filter (fun f => negb (f_sskip f) && negb (phantom (f_ty f))) fs)) by (rewrite Hsk; now left).
        apply filter_In in Hin as [Hin Hb]. apply andb_true_iff in Hb as [Hb _]. auto. }
      rewrite Hpf in Hy. cbn [map] in Hy. eapply tfield_mem; eauto.
    + destruct st.
      * assert (Hc' := Hc). destruct Hc' as [Hkf [Hsf _]]. rewrite (no_flat fs Hsf) in Hw.
        destruct j as [| | | | | |l]; try discriminate Hw.
        assert (Hpl : filter plain (kept fs) = kept fs /\ filter f_flatten (kept fs) = []).
        { clear -Hkf. revert Hkf. generalize (fun f : field => typed_ty (f_ty f) = true /\ f_sskip f = false /\ f_sname f = f_name f \/
            f_default f = true /\ ~ In (f_name f) (map f_sname (skept fs)) /\ inherited (f_name f) = false) as Q.
          intros Q. generalize (kept fs) as l. induction l as [|f l IH]; intros H; [auto|].
          cbn [filter]. unfold plain at 1. destruct (H f (or_introl eq_refl)) as [-> _]. cbn [negb].
          destruct IH as [-> ->]; auto. intros g Hg. apply H. now right. }
        destruct Hpl as [Hpl Hfl]. rewrite Hpl, Hfl in Hy. rewrite map_map in Hy.
        destruct (all_some (map (fun x => stprop (tgen E m) (mk_sf StNamed false x)) (kept fs))) as [tps|] eqn:Ha; [|discriminate].
        injection Hy as <-. change (jsparse (JObj l)) with (JsObj (pl l)). constructor. intros k opt y Hi'.
        exact (proj2 (tprops_mem m fs l tps Hc Hw Hj Ha k opt y Hi')).
      * assert (Hsf : forall f, In f (skept fs) -> f_flatten f = false).
        { intros f Hf. apply (Hc f). unfold skept in Hf. now apply filter_In in Hf. }
        rewrite (no_flat fs Hsf) in Hw. destruct (typed_kept fs Hc) as [Hk [Hsk Hpl]]. rewrite Hk, Hpl in Hy.
        destruct fs as [|f [|f2 r]] eqn:Hfs; [discriminate| |].
        -- cbn [map] in Hy. eapply tfield_mem; eauto. now apply (Hc f); left.
        -- assert (Hy' : option_map YTup (all_some (map (fun f => tfield (tgen E m) (f_ty f) (f_default f)) fs)) = Some y).
           { rewrite <- Hy, Hfs. cbn [map]. rewrite map_map. reflexivity. }
           rewrite <- Hfs in *. rewrite Hsk in Hw. destruct j as [| | | | |l|]; try discriminate Hw.
           destruct (all_some (map (fun f => tfield _ _ _) fs)) as [ys|] eqn:Ha; [|discriminate]. injection Hy' as <-.
           eapply tuple_mem; eauto.
      * destruct Hc.
  - apply existsb_exists in Hw as [v [Hv Hw]]. apply andb_true_iff in Hw as [Hsk Hw].
    apply negb_true_iff in Hsk. assert (Hcv := Hc v Hv Hsk).
    assert (Hk : In v (filter (fun v => negb (v_skip v)) vs)).
    { apply filter_In. split; [exact Hv|]. destruct Hcv as [-> _]. reflexivity. }
    unfold enum_ty in Hy. destruct (all_some _) as [[|y1 ys]|] eqn:Ha; try discriminate. injection Hy as <-.
    apply all_some_map in Ha. destruct (Forall2_in_left _ _ _ v Ha Hk) as [y0 [H0 Hy0]].
    apply (member_unis T ys y1 y0); [exact H0|]. eapply variant_mem; eauto.
Qed.
End Level.

Theorem main_mem : forall n t j, ser n t j = true -> typed_ty t = true -> okd j ->
  forall m y, tgen E m TypeDef t = Some y -> member y (jsparse j).
Proof.
  induction n as [|n IH]; [discriminate|]. intros t j Hs Hc Hj m y Hy. destruct m as [|m]; [discriminate|].
  assert (Hlist : forall u l m y, forallb (ser n u) l = true -> typed_ty u = true -> okd (JArr l) ->
    builtin_ty (tgen E m) (TVec u) = Some y -> member y (jsparse (JArr l))).
  { intros u l k z Hl Hu Hjl Hz. cbn [builtin_ty] in Hz. destruct (tgen E k TypeDef u) as [y0|] eqn:Hy0; [|discriminate].
    injection Hz as <-. cbn [jsparse]. constructor. intros x Hx. apply in_map_iff in Hx as [x0 [<- Hx0]].
    rewrite forallb_forall in Hl. eapply IH; [| | |eassumption]; eauto. eapply okd_arr; eauto. }
  destruct t as [p|ts|w t|t|k t|c t|c k v|t|t e|i]; cbn [tgen builtin_ty] in Hy; cbn [Serde.ser] in Hs.
  - injection Hy as <-. now apply prim_typed.
  - cbn in Hc. destruct j as [| | | | |l|]; try discriminate Hs. apply andb_true_iff in Hs as [Hl Hs]. apply Nat.eqb_eq in Hl.
    destruct (all_some (map (tgen E m TypeDef) ts)) as [zs|] eqn:Ha; [|discriminate]. injection Hy as <-.
    cbn [jsparse]. constructor. apply all_some_map in Ha.
    assert (Hj' : forall x, In x l -> okd x) by (intros x; now apply okd_arr). clear Hj Hlist.
    revert l Hl Hs Hj'. induction Ha as [|t z0 ts zs Ht _ IHa]; intros [|x l] Hl Hs Hj'; try discriminate Hl; [constructor|].
    cbn in Hl, Hs, Hc. apply andb_true_iff in Hs as [Hs1 Hs2]. apply andb_true_iff in Hc as [Hc1 Hc2]. constructor.
    + exact (IH t x Hs1 Hc1 (Hj' x (or_introl eq_refl)) m z0 Ht).
    + apply IHa; auto. intros y Hy. apply Hj'. now right.
  - assert (Hw : ser n t j = true /\ typed_ty t = true).
    { cbn in Hc. destruct w; try discriminate Hc; auto. apply andb_true_iff in Hc as [Hm Hc]. split; [|exact Hc].
      specialize (Hj Hm). destruct j; try exact Hs. discriminate Hj. }
    destruct Hw as [Hw1 Hw2]. eapply IH; eauto.
  - destruct j as [| | | | |l|]; try discriminate Hs. eapply (Hlist t l m); eauto.
  - destruct j as [| | | | |l|]; try discriminate Hs. apply andb_true_iff in Hs as [_ Hs].
    destruct m as [|m]; [discriminate|]. cbn [tgen] in Hy. eapply (Hlist t l m); eauto.
  - discriminate Hc.
  - discriminate Hc.
  - destruct (tgen E m TypeDef t) as [y0|] eqn:Hy0; [|discriminate]. injection Hy as <-.
    cbn in Hc. apply andb_true_iff in Hc as [Hm Hc]. assert (Hj' := Hj Hm). apply mb_paren, mb_left.
    eapply IH; [| | |eassumption]; eauto. destruct j; try exact Hs. discriminate Hj'.
  - destruct (tgen E m TypeDef t) as [a|] eqn:Hya; [|discriminate]. cbn [bind] in Hy.
    destruct (tgen E m TypeDef e) as [b|] eqn:Hyb; [|discriminate]. injection Hy as <-.
    cbn in Hc. apply andb_true_iff in Hc as [Hc1 Hc2]. destruct j as [| | | | | |[|[k c] [|]]]; try discriminate Hs.
    assert (Hjc : okd c) by (eapply okd_obj; [exact Hj|now left]).
    destruct (jeqb k (js "Ok")) eqn:Ek.
    + apply jeqb_eq in Ek. subst k. apply mb_left. cbn [jsparse map fst snd]. constructor.
      intros k opt y [[= <- <- <-]|[]]. right. rewrite get_first. eapply IH; [| | |eassumption]; eauto.
    + destruct (jeqb k (js "Err")) eqn:Ek2; [|discriminate]. apply jeqb_eq in Ek2. subst k. apply mb_right.
      cbn [jsparse map fst snd]. constructor.
      intros k opt y [[= <- <- <-]|[]]. right. rewrite get_first. eapply IH; [| | |eassumption]; eauto.
  - destruct (derive (lookup E i)); try discriminate. eapply decl_mem; eauto.
Qed.
End Main.

Theorem written_member : forall R E T inside mild q t s y j,
  good_names E -> type_names E -> typed mild inside E -> type_exports E inside T ->
  typed_ty mild inside t = true -> q = TypeDef \/ q = Inline -> returns E q t s -> ts_parse s = Some y ->
  serializes R E t j -> (mild = true -> no_null j = true) -> member T y (jsparse j).
Proof.
  intros R E T inside mild q t s y j Hg Hn HF HX Hc Hq [m Hr] Hp [n Hs] Hj.
  destruct (gen_tgen E m q t s Hg Hn Hq Hr) as [y' [Hy [_ [_ Hp']]]]. assert (y' = y) as -> by congruence.
  pose proof (type_exports_tgen E inside T Hg Hn HX) as HT.
  pose proof (main_mem R E T inside mild HF HT n t j Hs Hc Hj) as HM. destruct Hq as [-> | ->].
  - now apply (HM m).
  - apply (inline_typed E T inside mild HF HT (fun y => member T y (jsparse j))) with (m := m) (t := t); auto.
    intros ns nm y' H1 H2. now apply (mb_ref T ns nm y').
Qed.

Theorem any_written_member : forall R E T inside q t s y j,
  good_names E -> type_names E -> typed false inside E -> type_exports E inside T ->
  typed_ty false inside t = true -> q = TypeDef \/ q = Inline -> returns E q t s -> ts_parse s = Some y ->
  serializes R E t j -> member T y (jsparse j).
Proof. intros. eapply (written_member R E T inside false q t s y j); auto; discriminate. Qed.

Theorem plain_written_member : forall R E T inside q t s y j,
  good_names E -> type_names E -> typed true inside E -> type_exports E inside T ->
  typed_ty true inside t = true -> q = TypeDef \/ q = Inline -> returns E q t s -> ts_parse s = Some y ->
  serializes R E t j -> no_null j = true -> member T y (jsparse j).
Proof. intros. eapply (written_member R E T inside true q t s y j); auto. Qed.
