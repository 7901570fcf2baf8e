(** Consequences: clean programs load, flattened structs are unusable, integer ranges. *)
From Coq Require Import List String Ascii Bool NArith ZArith Lia Relations.
From Verif Require Import RustTy Gen GenSpec GenProofs JsLex JsParse Js Zod Ast AstProofs ZodProofs ZodSpec ZodLoad.
Import ListNotations.
Local Open Scope string_scope.
Local Open Scope list_scope.

Lemma needs_mentioned E t x y : clos_refl_trans node (schema_needs E) x y ->
  In (node_ty x) (mentioned E t) -> In (node_ty y) (mentioned E t).
Proof.
  induction 1 as [x y H|x|x y z _ IH1 _ IH2]; auto. intros Hx.
  now apply (schema_needs_mentions E x y H t).
Qed.

Theorem clean_loads E t s : good_names E -> tags_ok E -> returns E Schema t s ->
  ~ In (TPrim PBool) (mentioned E t) -> Forall (fun d => ~ refused_enum d) E ->
  exists z, load s = Val z.
Proof.
  intros Hg Ht Hr Hb He. destruct (schema_loads E t s Hg Ht Hr) as [[H _]|[_ [y [Hy H]]]]; [exact H|].
  exfalso. apply (needs_mentioned E t) in Hy; [|apply in_or_app; left; apply mentions_self].
  destruct H as [->|[i [-> H]]]; [now apply Hb|].
  unfold lookup in H. destruct (Nat.lt_ge_cases i (List.length E)) as [Hi|Hi].
  - rewrite Forall_forall in He. apply (He (nth i E dummy_decl)); [now apply nth_In|exact H].
  - rewrite nth_overflow in H by exact Hi. destruct H as [_ []].
Qed.

Lemma collect_throw l : In PThrow l -> collect l = LThrow \/ collect l = LFuel.
Proof.
  induction l as [|x l IH]; [easy|]. intros [->|H]; [now left|]. cbn.
  destruct x; auto; destruct (IH H) as [-> | ->]; auto.
Qed.

Lemma in_oset {A} (l : list (string * A)) k a : In (k, a) (oset l k a).
Proof.
  unfold oset. destruct (existsb (key_eqb k) l) eqn:H.
  - apply existsb_exists in H as [p [Hp Hk]]. apply in_map_iff. exists p. now rewrite Hk.
  - apply in_or_app. right. now left.
Qed.

Lemma extend_junk es : es <> [] -> Forall is_call es -> forall o, is_call o ->
  (forall z, eval_schema o = Val z -> exists ps, z = ZObject ps) ->
  forall z, eval_schema (fold_left (fun o e => meth o "extend" [e]) es o) = Val z ->
  exists ps, z = ZObject ps /\ In ("_def", ZJunk) ps.
Proof.
  intros Hne Hc. destruct es as [|e es]; [easy|]. clear Hne. inversion Hc as [|? ? He Hes]; subst. clear Hc.
  intros o Ho Hz z H. cbn [fold_left] in H.
  assert (H1 : forall z, eval_schema (meth o "extend" [e]) = Val z -> exists ps, z = ZObject ps /\ In ("_def", ZJunk) ps).
  { intros z' H'. rewrite eval_extend in H' by easy. destruct (eval_schema o) as [y| |]; try discriminate.
    destruct (Hz y eq_refl) as [ps ->]. cbn [ebind] in H'. destruct (eval_schema e); try discriminate.
    injection H' as <-. eexists. split; [reflexivity|]. apply in_oset. }
  assert (Hc1 : is_call (meth o "extend" [e])) by exact I.
  revert H H1 Hc1. generalize (meth o "extend" [e]). clear -Hes. revert z.
  induction Hes as [|e es He Hes IH]; intros z o H H1 Hc; [now apply H1|]. cbn [fold_left] in H.
  apply (IH z _ H); [|exact I]. intros z' H'. rewrite eval_extend in H' by easy.
  destruct (eval_schema o) as [y| |]; try discriminate. destruct (H1 y eq_refl) as [ps [-> _]].
  cbn [ebind] in H'. destruct (eval_schema e); try discriminate. injection H' as <-.
  eexists. split; [reflexivity|]. apply in_oset.
Qed.

Lemma zparse_obj ip M n ps l : zparse ip M (S n) (ZObject ps) (JsObj l)
  = lmap (fun vs => JsObj (merge l ps vs))
      (collect (map (fun p => zparse ip M n (snd p) (get_prop (fst p) l)) ps)).
Proof. reflexivity. Qed.

(** A struct with a flattened field: whatever object is parsed, zod throws (or the stack
    overflows); it neither accepts nor rejects. *)
Theorem flatten_unusable E i fs f s z : good_names E -> tags_ok E -> returns E Schema (TNamed i) s -> load s = Val z ->
  d_from (lookup E i) = None -> d_body (lookup E i) = BStruct StNamed false fs ->
  In f (kept fs) -> f_flatten f = true ->
  forall ip M n l, zparse ip M n z (JsObj l) = PThrow \/ zparse ip M n z (JsObj l) = PFuel.
Proof.
  intros Hg Ht [n Hn] Hl Hf Hb Hin Hfl.
  destruct (gen_agen E n Schema _ s Hg (or_introl eq_refl) Hn) as [e [He [_ [_ Hp]]]].
  unfold load in Hl. rewrite Hp in Hl. destruct n as [|n]; [discriminate|]. cbn [agen] in He.
  destruct (derive (lookup E i)) as [im| | |]; try discriminate. unfold decl_exp in He. rewrite Hf, Hb in He.
  unfold struct_exp in He. rewrite plain_sfields, flat_sfields, !map_map in He.
  destruct (all_some _) as [ps|] eqn:Hps; [|discriminate]. cbn [bind] in He.
  destruct (all_some (map (fun x => sval _ _) _)) as [es|] eqn:Hes; [|discriminate]. cbn [option_map] in He. injection He as <-.
  apply all_some_map in Hps. apply all_some_map in Hes.
  assert (Hcf : forall t b e, field_exp (agen E n) t b = Some e -> is_call e).
  { intros t b e. apply call_field. apply agen_call. }
  assert (Hpc : Forall entry ps).
  { pose proof (tag_lookup E Ht i) as [_ Hnp]. unfold decl_keys in Hnp. rewrite Hb in Hnp.
    apply (proto_filter plain) in Hnp.
    revert Hnp. clear -Hps Hcf. induction Hps as [|x p l ps H _ IH]; intros Hnp; constructor; inversion Hnp; subst; [|now apply IH].
    unfold sprop, prop_exp in H. cbn in H. destruct (field_exp _ _ _) as [y|] eqn:Hy; [|discriminate].
    injection H as <-. split; [eapply Hcf; exact Hy|assumption]. }
  assert (Hec : Forall is_call es).
  { clear -Hes Hcf. induction Hes as [|x p l ps H _ IH]; constructor; [|exact IH]. eapply Hcf. exact H. }
  assert (Hne : es <> []).
  { intros ->. inversion Hes as [H|]. assert (Hx : In f (filter f_flatten (kept fs))) by (now apply filter_In).
    rewrite <- H in Hx. destruct Hx. }
  destruct (extend_junk es Hne Hec (obj_exp ps) I) with (z := z) as [qs [-> Hj]]; [|exact Hl|].
  { intros z' Hz'. rewrite eval_obj in Hz' by exact Hpc. destruct (emap eval_prop ps); try discriminate.
    injection Hz' as <-. eauto. }
  intros ip M m l. destruct m as [|[|m]]; [now right| |].
  - right. cbn [zparse]. destruct qs as [|q qs]; [destruct Hj|]. reflexivity.
  - rewrite zparse_obj.
    assert (Htw : In PThrow (map (fun p => zparse ip M (S m) (snd p) (get_prop (fst p) l)) qs)).
    { apply in_map_iff. now exists ("_def", ZJunk). }
    apply collect_throw in Htw as [Htw|Htw]; rewrite Htw; auto.
Qed.

(** ** Integers *)
Definition upper (k : ikind) : option Z :=
  match k with
  | Usize | Isize => None
  | U64 | U128 | I64 | I128 => Some (int_max k + 1)%Z
  | _ => Some (int_max k)
  end.
Definition lower (k : ikind) : option Z := match k with Isize => None | _ => Some (int_min k) end.

Definition below (x : Z) (b : option Z) : Prop := match b with Some b => (x <= b)%Z | None => True end.
Definition above (x : Z) (b : option Z) : Prop := match b with Some b => (b <= x)%Z | None => True end.

Lemma int_schema E k s : returns E Schema (TPrim (PInt k)) s ->
  exists cs, load s = Val (ZNumber ([CFinite; CInt] ++ cs)) /\
    forall x, forallb (num_ok (NInt x)) cs = true <-> above x (lower k) /\ below x (upper k).
Proof.
  intros [n Hn]. destruct n as [|n]; [discriminate|].
  destruct k; apply (f_equal (fun o => match o with Some s => s | None => "" end)) in Hn;
    vm_compute in Hn; subst s;
    (eexists; split; [vm_compute; reflexivity|]); intros x; cbn [forallb num_ok lower upper above below];
    rewrite ?andb_true_iff, ?Z.leb_le; cbn; clear; lia.
Qed.

Theorem int_accepts E k s : returns E Schema (TPrim (PInt k)) s -> exists z, load s = Val z /\
  forall ip M v o, accepts ip M z v o <->
    o = v /\ exists x, v = JsNum (NInt x) /\ above x (lower k) /\ below x (upper k).
Proof.
  intros H. destruct (int_schema E k s H) as [cs [Hl Hc]]. eexists. split; [exact Hl|].
  intros ip M v o. split.
  - intros [[|n] Hn]; [discriminate|]. cbn [zparse] in Hn.
    destruct v as [| | |x| | | | | |]; try discriminate.
    destruct x as [x|m e| | |]; try discriminate; cbn [app forallb num_ok andb] in Hn; try discriminate.
    destruct (forallb _ cs) eqn:Hb; [|discriminate]. injection Hn as <-.
    split; [reflexivity|]. exists x. split; [reflexivity|]. now apply Hc.
  - intros [-> [x [-> Hx]]]. exists 1. cbn [zparse app forallb num_ok andb]. apply Hc in Hx. now rewrite Hx.
Qed.

Theorem small_int_exact E k s : small_int k = true -> returns E Schema (TPrim (PInt k)) s ->
  exists z, load s = Val z /\ forall ip M v o, accepts ip M z v o <->
    o = v /\ exists x, v = JsNum (NInt x) /\ (int_min k <= x <= int_max k)%Z.
Proof.
  intros Hk H. destruct (int_accepts E k s H) as [z [Hl Hz]]. exists z. split; [exact Hl|].
  intros ip M v o. rewrite Hz. split; intros [-> [x [-> Hx]]]; (split; [reflexivity|]); exists x;
    (split; [reflexivity|]); destruct k; try discriminate; exact Hx.
Qed.

Theorem wide_int_off_by_one E k s : wide_int k = true -> returns E Schema (TPrim (PInt k)) s ->
  exists z, load s = Val z /\ forall ip M v o, accepts ip M z v o <->
    o = v /\ exists x, v = JsNum (NInt x) /\ (int_min k <= x <= int_max k + 1)%Z.
Proof.
  intros Hk H. destruct (int_accepts E k s H) as [z [Hl Hz]]. exists z. split; [exact Hl|].
  intros ip M v o. rewrite Hz. split; intros [-> [x [-> Hx]]]; (split; [reflexivity|]); exists x;
    (split; [reflexivity|]); destruct k; try discriminate; exact Hx.
Qed.

Theorem usize_unbounded E s : returns E Schema (TPrim (PInt Usize)) s ->
  exists z, load s = Val z /\ forall ip M v o, accepts ip M z v o <->
    o = v /\ exists x, v = JsNum (NInt x) /\ (0 <= x)%Z.
Proof.
  intros H. destruct (int_accepts E Usize s H) as [z [Hl Hz]]. exists z. split; [exact Hl|].
  intros ip M v o. rewrite Hz. cbn. split; intros [-> [x [-> Hx]]]; (split; [reflexivity|]); exists x; tauto.
Qed.

Theorem isize_unbounded E s : returns E Schema (TPrim (PInt Isize)) s ->
  exists z, load s = Val z /\ forall ip M v o, accepts ip M z v o <->
    o = v /\ exists x, v = JsNum (NInt x).
Proof.
  intros H. destruct (int_accepts E Isize s H) as [z [Hl Hz]]. exists z. split; [exact Hl|].
  intros ip M v o. rewrite Hz. cbn. split; intros [-> [x Hx]]; (split; [reflexivity|]); exists x; tauto.
Qed.
