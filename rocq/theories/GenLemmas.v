(** Consequences for the generators: termination, skipping, acceptance, wrappers. *)
From Coq Require Import List String Bool Relations Arith Lia.
From Verif Require Import RustTy Gen GenSpec Graph GenProofs.
Import ListNotations.
Local Open Scope string_scope.
Local Open Scope list_scope.

(** ** Termination *)
Lemma schema_returns_iff E t : compiles E ->
  ((exists s, returns E Schema t s) <-> ~ reaches_cycle (schema_needs E) (Full t)).
Proof.
  intros HE. destruct (schema_term E t (Full t) HE eq_refl) as [H1 H2]. split.
  - intros (s & n & Hn). eapply H2; eauto.
  - intros Hc. destruct H1 as [[s Hs]|H1]; [|tauto]. exists s, (depth E t). exact Hs.
Qed.

Lemma inline_schema_returns_iff E t : compiles E ->
  ((exists s, returns E InlineSchema t s) <-> ~ reaches_cycle (schema_needs E) (Inl t)).
Proof.
  intros HE. destruct (schema_term E t (Inl t) HE eq_refl) as [H1 H2]. split.
  - intros (s & n & Hn). eapply H2; eauto.
  - intros Hc. destruct H1 as [[s Hs]|H1]; [|tauto]. exists s, (depth E t). exact Hs.
Qed.

Lemma type_returns_iff E t : compiles E ->
  ((exists s, returns E TypeDef t s) <-> ~ reaches_cycle (type_needs E) (Full t)).
Proof.
  intros HE. destruct (type_term E t (Full t) HE eq_refl) as [H1 H2]. split.
  - intros (s & n & Hn). eapply H2; eauto.
  - intros Hc. destruct H1 as [[s Hs]|H1]; [|tauto]. exists s, (depth E t). exact Hs.
Qed.

Lemma inline_returns_iff E t : compiles E ->
  ((exists s, returns E Inline t s) <-> ~ reaches_cycle (type_needs E) (Inl t)).
Proof.
  intros HE. destruct (type_term E t (Inl t) HE eq_refl) as [H1 H2]. split.
  - intros (s & n & Hn). eapply H2; eauto.
  - intros Hc. destruct H1 as [[s Hs]|H1]; [|tauto]. exists s, (depth E t). exact Hs.
Qed.

(** Either it returns within the linear depth, or it overflows every stack. *)
Lemma schema_dichotomy E t : compiles E ->
  (exists s, gen E (depth E t) Schema t = Some s) /\ ~ reaches_cycle (schema_needs E) (Full t) \/
  overflows E Schema t /\ reaches_cycle (schema_needs E) (Full t).
Proof.
  intros HE. destruct (schema_term E t (Full t) HE eq_refl) as [[[s Hs]|Hc] H2].
  - left. split; eauto.
  - right. split; auto. intros n. destruct (gen E n Schema t) as [s|] eqn:Hs; auto.
    destruct (H2 n s Hs Hc).
Qed.

Lemma type_dichotomy E t : compiles E ->
  (exists s, gen E (depth E t) TypeDef t = Some s) /\ ~ reaches_cycle (type_needs E) (Full t) \/
  overflows E TypeDef t /\ reaches_cycle (type_needs E) (Full t).
Proof.
  intros HE. destruct (type_term E t (Full t) HE eq_refl) as [[[s Hs]|Hc] H2].
  - left. split; eauto.
  - right. split; auto. intros n. destruct (gen E n TypeDef t) as [s|] eqn:Hs; auto.
    destruct (H2 n s Hs Hc).
Qed.

(** A returning query never needs more than the linear depth. *)
Lemma depth_enough E q t s : compiles E -> returns E q t s -> gen E (depth E t) q t = Some s.
Proof.
  intros HE [n Hn].
  assert (H : exists s', gen E (depth E t) q t = Some s').
  { destruct q.
    - destruct (schema_term E t (Full t) HE eq_refl) as [[H|H] H2]; auto.
      destruct (H2 n s Hn H).
    - destruct (schema_term E t (Inl t) HE eq_refl) as [[H|H] H2]; auto.
      destruct (H2 n s Hn H).
    - destruct (type_term E t (Full t) HE eq_refl) as [[H|H] H2]; auto.
      destruct (H2 n s Hn H).
    - destruct (type_term E t (Inl t) HE eq_refl) as [[H|H] H2]; auto.
      destruct (H2 n s Hn H). }
  destruct H as [s' Hs']. rewrite Hs'. f_equal. eapply gen_det; eauto.
Qed.

Lemma trans_refl' {A} (R : A -> A -> Prop) x y : clos_trans A R x y -> clos_refl_trans A R x y.
Proof. induction 1; [now apply rt_step|eapply rt_trans; eauto]. Qed.

Lemma t_rt {A} (R : A -> A -> Prop) x y z :
  clos_trans A R x y -> clos_refl_trans A R y z -> clos_trans A R x z.
Proof.
  intros H1 H2. apply Operators_Properties.clos_rt_rtn1_iff in H2.
  induction H2 as [|a b Hab H2 IH]; auto. eapply t_trans; [exact IH|now apply t_step].
Qed.

Lemma rt_t {A} (R : A -> A -> Prop) x y z :
  clos_refl_trans A R x y -> clos_trans A R y z -> clos_trans A R x z.
Proof.
  intros H1 H2. apply Operators_Properties.clos_rt_rt1n_iff in H1.
  induction H1 as [|a b c Hab H1 IH]; auto. eapply t_trans; [apply t_step; exact Hab|auto].
Qed.

Lemma carries_reach E i t : carries i t -> clos_trans node (schema_needs E) (Full t) (Full (TNamed i)).
Proof.
  induction 1 as [w|ts Hin|w t H IH|ts t Hin H IH].
  - apply t_step. constructor.
  - apply t_step. now constructor.
  - eapply t_trans; [apply t_step, sn_wrap|exact IH].
  - eapply t_trans; [apply t_step, sn_tuple; eauto|exact IH].
Qed.

Lemma carries_not_named i t : carries i t -> ~ is_named t.
Proof. intros H [j ->]. inversion H. Qed.

Lemma self_carrying_overflows E i f : compiles E ->
  d_from (lookup E i) = None -> In f (embedded (lookup E i)) -> carries i (f_ty f) ->
  overflows E Schema (TNamed i).
Proof.
  intros HE Hf Hin Hc. apply overflows_iff. rewrite schema_returns_iff by auto. intros H.
  apply H. exists (Full (TNamed i)). split; [apply rt_refl|].
  eapply t_trans; [apply t_step, sn_field; eauto|].
  eapply t_trans; [apply t_step, sn_mention; eapply carries_not_named; eauto|].
  now apply carries_reach.
Qed.

Scheme contains_mut := Induction for contains Sort Prop
  with contains'_mut := Induction for contains' Sort Prop.

Lemma contains_reach E i t : contains i t -> clos_trans node (type_needs E) (Full t) (Full (TNamed i)).
Proof.
  apply (contains_mut i (fun t _ => clos_trans node (type_needs E) (Full t) (Full (TNamed i)))
           (fun t _ => clos_refl_trans node (type_needs E) (Full t) (Full (TNamed i))));
  try (intros; eapply t_rt; [apply t_step; constructor; eauto|eassumption]).
  - intros n u H1 H2. eapply t_rt; [|eassumption].
    eapply t_trans; apply t_step; constructor.
  - intros [|] u H1 H2; (eapply t_rt; [|eassumption]).
    + apply t_step; constructor.
    + eapply t_trans; apply t_step; constructor.
  - intros [|] k v H1 H2; (eapply t_rt; [|eassumption]).
    + apply t_step; constructor.
    + eapply t_trans; apply t_step; constructor.
  - intros [|] k v H1 H2; (eapply t_rt; [|eassumption]).
    + apply t_step; constructor.
    + eapply t_trans; apply t_step; constructor.
  - apply rt_refl.
  - intros u H1 H2. now apply trans_refl'.
Qed.

Lemma contains_not_named i t : contains i t -> ~ is_named t.
Proof. intros H [j ->]. inversion H. Qed.

Lemma self_containing_overflows E i f : compiles E ->
  d_from (lookup E i) = None -> In f (embedded (lookup E i)) -> contains i (f_ty f) ->
  overflows E TypeDef (TNamed i).
Proof.
  intros HE Hf Hin Hc. apply overflows_iff. rewrite type_returns_iff by auto. intros H.
  apply H. exists (Full (TNamed i)). split; [apply rt_refl|].
  eapply t_trans; [apply t_step, tn_field; eauto|].
  eapply t_trans; [apply t_step, tn_mention; eapply contains_not_named; eauto|].
  now apply contains_reach.
Qed.

Lemma lazily_acyclic E m t : all_lazy E -> lazily m t = true ->
  (m = false -> Acc (fun a b => schema_needs E b a) (Full t)) /\
  Acc (fun a b => schema_needs E b a) (Inl t).
Proof.
  intros HE.
  assert (Hn : forall i, Acc (fun a b => schema_needs E b a) (Inl (TNamed i))).
  { intros i. constructor. intros y Hy. inversion Hy; subst.
    - match goal with H : ~ is_named _ |- _ => destruct H; now exists i end.
    - destruct (HE i) as [Hi _]. congruence. }
  assert (Hi : forall t, ~ is_named t -> Acc (fun a b => schema_needs E b a) (Full t) ->
             Acc (fun a b => schema_needs E b a) (Inl t)).
  { intros u Hu HA. constructor. intros y Hy. inversion Hy; subst; auto.
    destruct Hu. now exists i. }
  revert m; induction t using ty_ind'; intros m Hl; simpl in Hl;
  (assert (HF : forall t' , Full t' = Full t' -> True) by auto; clear HF).
  - assert (HA : Acc (fun a b => schema_needs E b a) (Full (TPrim p))).
    { constructor. intros y Hy. inversion Hy. }
    split; auto. apply Hi; auto. intros [j Hj]; discriminate.
  - assert (HA : Acc (fun a b => schema_needs E b a) (Full (TTuple ts))).
    { constructor. intros y Hy. inversion Hy; subst.
      rewrite Forall_forall in H. rewrite forallb_forall in Hl.
      match goal with Hin : In _ _ |- _ => destruct (H _ Hin false (Hl _ Hin)) as [Ha _]; auto end. }
    split; auto. apply Hi; auto. intros [j Hj]; discriminate.
  - assert (HA : Acc (fun a b => schema_needs E b a) (Full (TWrap w t))).
    { constructor. intros y Hy. inversion Hy; subst. destruct (IHt false Hl); auto. }
    split; auto. apply Hi; auto. intros [j Hj]; discriminate.
  - assert (HA : Acc (fun a b => schema_needs E b a) (Full (TVec t))).
    { constructor. intros y Hy. inversion Hy; subst. destruct (IHt true Hl); auto. }
    split; auto. apply Hi; auto. intros [j Hj]; discriminate.
  - assert (HA : Acc (fun a b => schema_needs E b a) (Full (TArr n t))).
    { constructor. intros y Hy. inversion Hy; subst. constructor. intros z Hz. inversion Hz; subst.
      destruct (IHt true Hl); auto. }
    split; auto. apply Hi; auto. intros [j Hj]; discriminate.
  - assert (HA : Acc (fun a b => schema_needs E b a) (Full (TSet c t))).
    { constructor. intros y Hy. inversion Hy; subst.
      - destruct (IHt true Hl); auto.
      - constructor. intros z Hz. inversion Hz; subst. destruct (IHt true Hl); auto. }
    split; auto. apply Hi; auto. intros [j Hj]; discriminate.
  - apply andb_true_iff in Hl. destruct Hl as [Hl1 Hl2].
    assert (HA : Acc (fun a b => schema_needs E b a) (Full (TMap c t1 t2))).
    { constructor. intros y Hy. inversion Hy; subst.
      - destruct (IHt1 true Hl1); auto.
      - destruct (IHt2 true Hl2); auto.
      - constructor. intros z Hz. inversion Hz; subst;
        [destruct (IHt1 true Hl1)|destruct (IHt2 true Hl2)]; auto. }
    split; auto. apply Hi; auto. intros [j Hj]; discriminate.
  - assert (HA : Acc (fun a b => schema_needs E b a) (Full (TOpt t))).
    { constructor. intros y Hy. inversion Hy; subst. destruct (IHt true Hl); auto. }
    split; auto. apply Hi; auto. intros [j Hj]; discriminate.
  - apply andb_true_iff in Hl. destruct Hl as [Hl1 Hl2].
    assert (HA : Acc (fun a b => schema_needs E b a) (Full (TRes t1 t2))).
    { constructor. intros y Hy. inversion Hy; subst;
      [destruct (IHt1 true Hl1)|destruct (IHt2 true Hl2)]; auto. }
    split; auto. apply Hi; auto. intros [j Hj]; discriminate.
  - split; [intros ->; discriminate|apply Hn].
Qed.

Lemma acc_trans_irrefl {A} (R : A -> A -> Prop) x :
  Acc (fun a b => R b a) x -> ~ (exists y, clos_refl_trans A R x y /\ clos_trans A R y y).
Proof.
  induction 1 as [x HA IH]. intros (y & Hr & Hc).
  apply Operators_Properties.clos_rt_rt1n_iff in Hr.
  assert (Hx : clos_trans A R x y \/ x = y).
  { inversion Hr; subst; auto. left.
    eapply t_rt; [apply t_step; eassumption|now apply Operators_Properties.clos_rt_rt1n_iff]. }
  assert (Hxy : clos_trans A R x y) by (destruct Hx as [Hx| ->]; auto).
  apply Operators_Properties.clos_trans_t1n_iff in Hxy.
  inversion Hxy as [z Hz|z w Hz Hzw]; subst.
  - eapply IH; [exact Hz|]. exists y. split; [apply rt_refl|exact Hc].
  - eapply IH; [exact Hz|]. exists y. split; [|exact Hc].
    apply trans_refl'. now apply Operators_Properties.clos_trans_t1n_iff.
Qed.

Lemma lazy_program_returns E i : compiles E -> all_lazy E ->
  exists s, returns E Schema (TNamed i) s.
Proof.
  intros HE HL. apply schema_returns_iff; auto. apply acc_trans_irrefl.
  constructor. intros y Hy. inversion Hy; subst;
  match goal with H : d_from _ = Some _ |- _ => destruct (HL i); congruence | _ => idtac end.
  destruct (HL i) as [_ Hf]. eapply lazily_acyclic; eauto.
Qed.

(** ** Skipped fields and variants *)
Lemma filter_idem {A} (p : A -> bool) l : filter p (filter p l) = filter p l.
Proof.
  induction l as [|x r IH]; simpl; [reflexivity|]. destruct (p x) eqn:Hp; simpl; rewrite ?Hp; congruence.
Qed.

Lemma kept_idem fs : kept (kept fs) = kept fs.
Proof. apply filter_idem. Qed.

Lemma kept_variants_strip vs :
  kept_variants (map strip_variant (kept_variants vs)) = map strip_variant (kept_variants vs).
Proof.
  unfold kept_variants. rewrite filter_map. f_equal. apply filter_idem.
Qed.

Lemma variant_schema_strip tg v : variant_schema tg (strip_variant v) = variant_schema tg v.
Proof.
  unfold variant_schema, variant_fields. simpl. fold (kept (v_fields v)).
  fold (kept (kept (v_fields v))). now rewrite kept_idem.
Qed.
Lemma variant_type_strip tg v : variant_type tg (strip_variant v) = variant_type tg v.
Proof.
  unfold variant_type, variant_fields. simpl. fold (kept (v_fields v)).
  fold (kept (kept (v_fields v))). now rewrite kept_idem.
Qed.

Lemma omap_map {A B C} (g : A -> B) (f : B -> outcome C) l : omap f (map g l) = omap (fun x => f (g x)) l.
Proof. induction l as [|x r IH]; simpl; [reflexivity|now rewrite IH]. Qed.
Lemma omap_ext {A B} (f g : A -> outcome B) l : (forall x, f x = g x) -> omap f l = omap g l.
Proof. intros H; induction l as [|x r IH]; simpl; [reflexivity|now rewrite H, IH]. Qed.

Lemma enum_schema_strip tg vs : enum_schema tg (map strip_variant vs) = enum_schema tg vs.
Proof.
  destruct vs as [|v [|w r]]; [reflexivity|apply variant_schema_strip|].
  unfold enum_schema.
  change (map strip_variant (v :: w :: r)) with (strip_variant v :: strip_variant w :: map strip_variant r).
  cbv iota.
  change (strip_variant v :: strip_variant w :: map strip_variant r) with (map strip_variant (v :: w :: r)).
  rewrite omap_map. erewrite omap_ext; [reflexivity|]. intros; apply variant_schema_strip.
Qed.
Lemma enum_type_strip tg vs : enum_type tg (map strip_variant vs) = enum_type tg vs.
Proof.
  destruct vs as [|v [|w r]]; [reflexivity|apply variant_type_strip|].
  unfold enum_type.
  change (map strip_variant (v :: w :: r)) with (strip_variant v :: strip_variant w :: map strip_variant r).
  cbv iota.
  change (strip_variant v :: strip_variant w :: map strip_variant r) with (map strip_variant (v :: w :: r)).
  rewrite omap_map. erewrite omap_ext; [reflexivity|]. intros; apply variant_type_strip.
Qed.

Lemma derive_strip d : derive (strip d) = derive d.
Proof.
  unfold derive. simpl. destruct (d_body d) as [st tr fs|tg vs].
  - unfold derive_struct. simpl.
    assert (Hs : struct_fields st tr (kept fs) = struct_fields st tr fs).
    { rewrite !struct_fields_eq. now rewrite kept_idem. }
    now rewrite Hs.
  - unfold derive_enum. simpl.
    change (filter (fun v => negb (v_skip v))) with kept_variants.
    now rewrite kept_variants_strip, enum_schema_strip, enum_type_strip.
Qed.

Lemma lookup_map (g : decl -> decl) E i : g dummy_decl = dummy_decl -> lookup (map g E) i = g (lookup E i).
Proof. intros H. unfold lookup. rewrite <- H at 1. apply map_nth. Qed.

Lemma gen_strip E n : forall q t, gen (map strip E) n q t = gen E n q t.
Proof.
  induction n as [|n IH]; intros q t; [reflexivity|]. simpl.
  assert (He : expand (map strip E) q t = expand E q t).
  { destruct t; try reflexivity. simpl. rewrite (lookup_map strip), derive_strip; reflexivity. }
  rewrite He. destruct (expand E q t) as [ps|]; [|reflexivity].
  clear He. induction ps as [|p r IHp]; [reflexivity|]. simpl. rewrite IHp.
  destruct p; [reflexivity|]. now rewrite IH.
Qed.

Lemma is_interface_strip E n : forall t, is_interface (map strip E) n t = is_interface E n t.
Proof.
  induction n as [|n IH]; intros t; [reflexivity|]. simpl. destruct t; auto.
  rewrite (lookup_map strip), derive_strip by reflexivity.
  destruct (derive (lookup E i)); auto. destruct (i_interface a); auto.
  simpl. destruct (d_from (lookup E i)); auto.
Qed.

(** ** Default order and acceptance *)
Lemma skip_find {A} (p : A -> bool) (l : list A) :
  find (fun x => negb (p x)) (skip_while (fun x => negb (p x)) l) <> None <->
  exists l1 a l2 b l3, l = l1 ++ a :: l2 ++ b :: l3 /\ p a = true /\ p b = false.
Proof.
  induction l as [|x r IH]; simpl.
  - split; [congruence|]. intros ([|y0 y1] & a & l2 & b & l3 & H & _); discriminate.
  - destruct (p x) eqn:Hx; simpl.
    + rewrite Hx. simpl. split.
      * intros H. destruct (find (fun x => negb (p x)) r) as [b|] eqn:Hf; [|congruence].
        apply find_some in Hf. destruct Hf as [Hin Hb]. apply in_split in Hin.
        destruct Hin as (l2 & l3 & ->). exists [], x, l2, b, l3. repeat split; auto.
        now apply negb_true_iff.
      * intros (l1 & a & l2 & b & l3 & H & Ha & Hb) Hn.
        assert (Hin : In b r).
        { destruct l1 as [|y l1]; simpl in H; injection H as H0 H; subst r.
          - apply in_app_iff; right; now left.
          - apply in_app_iff; right; right. apply in_app_iff; right; now left. }
        apply (find_none _ _ Hn) in Hin. simpl in Hin. rewrite Hb in Hin. discriminate.
    + rewrite IH. split.
      * intros (l1 & a & l2 & b & l3 & -> & Ha & Hb). exists (x :: l1), a, l2, b, l3. auto.
      * intros ([|y l1] & a & l2 & b & l3 & H & Ha & Hb); simpl in H; injection H as H0 H.
        -- congruence.
        -- exists l1, a, l2, b, l3. auto.
Qed.

Lemma bad_order_iff st tr fs :
  bad_default_order (map (mk_sf st tr) (filter plain (kept fs))) = true <-> default_before_required fs.
Proof.
  unfold bad_default_order, default_before_required.
  pose proof (skip_find s_optional (map (mk_sf st tr) (filter plain (kept fs)))) as H.
  destruct (find _ _) as [g|].
  - split; [|auto]. intros _. destruct H as [H _].
    destruct H as (l1 & a & l2 & b & l3 & He & Ha & Hb); [congruence|].
    apply map_eq_app in He. destruct He as (k1 & k2 & -> & <- & He).
    destruct k2 as [|a' k2]; [discriminate|]. simpl in He. injection He as <- He.
    apply map_eq_app in He. destruct He as (k3 & k4 & -> & <- & He).
    destruct k4 as [|b' k4]; [discriminate|]. simpl in He. injection He as <- <-.
    exists k1, a', k3, b', k4. auto.
  - split; [discriminate|]. intros (l1 & a & l2 & b & l3 & Heq & Ha & Hb). exfalso.
    rewrite Heq in H.
    apply (proj2 H); [|reflexivity].
    exists (map (mk_sf st tr) l1), (mk_sf st tr a), (map (mk_sf st tr) l2), (mk_sf st tr b),
      (map (mk_sf st tr) l3).
    rewrite map_app. simpl. rewrite map_app. auto.
Qed.

Lemma in_plain_kept f fs : In f (filter plain (kept fs)) <-> In f fs /\ f_skip f = false /\ f_flatten f = false.
Proof.
  unfold kept, plain. rewrite !filter_In. rewrite !negb_true_iff. tauto.
Qed.

Lemma nonempty_plain fs : filter plain (kept fs) <> [] <-> exists f, In f fs /\ f_skip f = false /\ f_flatten f = false.
Proof.
  split.
  - destruct (filter plain (kept fs)) as [|f r] eqn:Hf; [congruence|]. intros _.
    exists f. apply in_plain_kept. rewrite Hf. now left.
  - intros (f & Hf). apply in_plain_kept in Hf. intros H. rewrite H in Hf. destruct Hf.
Qed.

Lemma tuple_struct_outcome d fs : d_body d = BStruct StTuple false fs ->
  (filter plain (kept fs) <> [] /\ default_before_required fs /\
     derive d = Abort "zod: non-default field follows default field") \/
  (filter plain (kept fs) = [] /\ derive d = Panic "handled by darling") \/
  (filter plain (kept fs) <> [] /\ ~ default_before_required fs /\ exists im, derive d = Done im).
Proof.
  intros Hb. unfold derive. rewrite Hb. unfold derive_struct, struct_schema, struct_type.
  rewrite plain_sfields.
  pose proof (bad_order_iff StTuple false fs) as Ho.
  destruct (filter plain (kept fs)) as [|f [|g r]] eqn:Hp.
  - right; left. auto.
  - right; right. split; [congruence|]. split; [|simpl; eauto].
    unfold default_before_required. rewrite Hp.
    intros ([|y0 [|y1 y2]] & a & [|y3 y4] & b & l3 & H & _); discriminate.
  - change (map (mk_sf StTuple false) (f :: g :: r))
      with (mk_sf StTuple false f :: mk_sf StTuple false g :: map (mk_sf StTuple false) r) in *.
    cbv iota zeta. destruct (bad_default_order _).
    + left. split; [congruence|]. split; [now apply Ho|reflexivity].
    + right; right. split; [congruence|]. split; [|cbn [obind]; eauto].
      intros H. apply Ho in H. discriminate.
Qed.

Lemma omap_done {A B} (f : A -> outcome B) l :
  (exists xs, omap f l = Done xs) <-> Forall (fun x => exists y, f x = Done y) l.
Proof.
  induction l as [|x r IH]; simpl.
  - split; eauto.
  - split.
    + intros [xs H]. destruct (f x) as [y| | |] eqn:Hy; try discriminate. simpl in H.
      destruct (omap f r) as [ys| | |] eqn:Hr; try discriminate.
      constructor; [eauto|]. apply IH; eauto.
    + intros H. inversion H as [|? ? [y Hy] Hr]; subst. apply IH in Hr. destruct Hr as [ys Hr].
      rewrite Hy, Hr. simpl. eauto.
Qed.

Definition variant_ok (v : variant) : Prop := v_style v = StNamed -> kept (v_fields v) <> [].

Lemma variant_schema_done tg v : (exists ps, variant_schema tg v = Done ps) <-> variant_ok v.
Proof.
  unfold variant_schema, variant_ok, variant_fields, kept.
  destruct (v_style v); [|split; [congruence|eauto]|split; [congruence|eauto]].
  unfold named_schema. destruct (filter _ (v_fields v)) as [|f r].
  - split; [intros [ps H]; discriminate|]. intros H. now destruct (H eq_refl).
  - split; [congruence|eauto].
Qed.
Lemma variant_type_done tg v : (exists ps, variant_type tg v = Done ps) <-> variant_ok v.
Proof.
  unfold variant_type, variant_ok, variant_fields, kept.
  destruct (v_style v); [|split; [congruence|eauto]|split; [congruence|eauto]].
  unfold named_type. destruct (filter _ (v_fields v)) as [|f r].
  - split; [intros [ps H]; discriminate|]. intros H. now destruct (H eq_refl).
  - split; [congruence|eauto].
Qed.

Lemma enum_schema_done tg vs : (exists ps, enum_schema tg vs = Done ps) <-> vs <> [] /\ Forall variant_ok vs.
Proof.
  unfold enum_schema. destruct vs as [|v [|w r]].
  - split; [intros [? H]; discriminate|intros [H _]; congruence].
  - rewrite variant_schema_done. split.
    + intros H. split; [congruence|]. repeat constructor; auto.
    + intros [_ H]. now inversion H.
  - split.
    + intros [ps H]. split; [congruence|].
      destruct (omap (variant_schema tg) (v :: w :: r)) as [xs| | |] eqn:Hx; try discriminate.
      assert (He : exists xs, omap (variant_schema tg) (v :: w :: r) = Done xs) by eauto.
      apply omap_done in He. eapply Forall_impl; [|exact He]. intros a Ha.
      now apply variant_schema_done in Ha.
    + intros [_ H]. assert (He : exists xs, omap (variant_schema tg) (v :: w :: r) = Done xs).
      { apply omap_done. eapply Forall_impl; [|exact H]. intros a Ha. now apply variant_schema_done. }
      destruct He as [xs ->]. cbn [obind]. eauto.
Qed.
Lemma enum_type_done tg vs : (exists ps, enum_type tg vs = Done ps) <-> vs <> [] /\ Forall variant_ok vs.
Proof.
  unfold enum_type. destruct vs as [|v [|w r]].
  - split; [intros [? H]; discriminate|intros [H _]; congruence].
  - rewrite variant_type_done. split.
    + intros H. split; [congruence|]. repeat constructor; auto.
    + intros [_ H]. now inversion H.
  - split.
    + intros [ps H]. split; [congruence|].
      destruct (omap (variant_type tg) (v :: w :: r)) as [xs| | |] eqn:Hx; try discriminate.
      assert (He : exists xs, omap (variant_type tg) (v :: w :: r) = Done xs) by eauto.
      apply omap_done in He. eapply Forall_impl; [|exact He]. intros a Ha.
      now apply variant_type_done in Ha.
    + intros [_ H]. assert (He : exists xs, omap (variant_type tg) (v :: w :: r) = Done xs).
      { apply omap_done. eapply Forall_impl; [|exact H]. intros a Ha. now apply variant_type_done. }
      destruct He as [xs ->]. cbn [obind]. eauto.
Qed.

Lemma kept_nonempty fs : kept fs <> [] <-> exists f, In f fs /\ f_skip f = false.
Proof.
  unfold kept. split.
  - destruct (filter _ fs) as [|f r] eqn:Hf; [congruence|]. intros _. exists f.
    assert (Hin : In f (filter (fun f => negb (f_skip f)) fs)) by (rewrite Hf; now left).
    apply filter_In in Hin. now rewrite negb_true_iff in Hin.
  - intros (f & Hf & Hs) H.
    assert (Hin : In f (filter (fun f => negb (f_skip f)) fs)).
    { apply filter_In. now rewrite Hs. }
    rewrite H in Hin. destruct Hin.
Qed.

Lemma derive_accepts d : (exists im, derive d = Done im) <-> acceptable d.
Proof.
  unfold acceptable. destruct (d_body d) as [st tr fs|tg vs] eqn:Hb.
  - destruct st.
    + destruct tr.
      * unfold derive. rewrite Hb. unfold derive_struct, struct_schema, struct_type.
        rewrite plain_sfields. rewrite <- nonempty_plain.
        destruct (filter plain (kept fs)) as [|f r]; simpl;
        [split; [intros [? H]; discriminate|congruence]|split; [congruence|eauto]].
      * unfold derive. rewrite Hb. unfold derive_struct, struct_schema, struct_type. simpl.
        split; eauto.
    + destruct tr.
      * unfold derive. rewrite Hb. unfold derive_struct, struct_schema, struct_type.
        rewrite plain_sfields. rewrite <- nonempty_plain.
        destruct (filter plain (kept fs)) as [|f r]; simpl;
        [split; [intros [? H]; discriminate|congruence]|split; [congruence|eauto]].
      * rewrite <- nonempty_plain.
        destruct (tuple_struct_outcome d fs Hb) as [(H1 & H2 & H3)|[(H1 & H2)|(H1 & H2 & H3)]].
        -- rewrite H3. split; [intros [? H]; discriminate|tauto].
        -- rewrite H2. split; [intros [? H]; discriminate|tauto].
        -- tauto.
    + unfold derive. rewrite Hb. simpl. split; [intros [? H]; discriminate|contradiction].
  - unfold derive. rewrite Hb. unfold derive_enum.
    change (filter (fun v => negb (v_skip v)) vs) with (kept_variants vs).
    assert (Hk : (kept_variants vs <> [] /\ Forall variant_ok (kept_variants vs)) <->
             ((exists v, In v vs /\ v_skip v = false) /\
              (forall v, In v vs -> v_skip v = false -> v_style v = StNamed ->
                 exists f, In f (v_fields v) /\ f_skip f = false))).
    { assert (Hin : forall v, In v (kept_variants vs) <-> In v vs /\ v_skip v = false).
      { intros v. unfold kept_variants. rewrite filter_In, negb_true_iff. tauto. }
      rewrite Forall_forall. split.
      - intros [H1 H2]. split.
        + destruct (kept_variants vs) as [|v r] eqn:Hv; [congruence|].
          exists v. apply Hin. now left.
        + intros v H3 H4 H5. apply kept_nonempty. apply H2; auto. apply Hin. auto.
      - intros [(v & Hv) H2]. split.
        + apply Hin in Hv. intros H. rewrite H in Hv. destruct Hv.
        + intros w Hw Hs. apply Hin in Hw. apply kept_nonempty. apply H2; tauto. }
    rewrite <- Hk. split.
    + intros [im H].
      destruct (enum_schema tg (kept_variants vs)) as [sch| | |] eqn:Hs; try discriminate.
      apply (enum_schema_done tg). eauto.
    + intros H. assert (H1 := H). apply (enum_schema_done tg) in H. apply (enum_type_done tg) in H1.
      destruct H as [ps ->]. destruct H1 as [ps' ->]. cbn [obind]. eauto.
Qed.

(** ** Wrappers and shadowed collections *)
Lemma wrap_returns E q w t s : returns E q (TWrap w t) s <-> returns E (eager q) t s.
Proof.
  assert (Hn : forall n q, (q = Schema \/ q = TypeDef) -> gen E (S n) q (TWrap w t) = gen E n q t).
  { intros n q' [->| ->]; simpl; destruct (gen E n _ t) as [x|]; auto; f_equal;
    clear; induction x as [|c r IH]; simpl; auto; now rewrite IH. }
  assert (Hi : forall n, gen E (S (S n)) InlineSchema (TWrap w t) = gen E (S n) Schema (TWrap w t)).
  { intros n. change (gen E (S (S n)) InlineSchema (TWrap w t)) with
      (cat (gen E (S n)) [Call Schema (TWrap w t)]). cbn [cat].
    destruct (gen E (S n) Schema (TWrap w t)) as [x|]; auto; f_equal;
    clear; induction x as [|c r IH]; simpl; auto; now rewrite IH. }
  assert (Hj : forall n, gen E (S (S n)) Inline (TWrap w t) = gen E (S n) TypeDef (TWrap w t)).
  { intros n. change (gen E (S (S n)) Inline (TWrap w t)) with
      (cat (gen E (S n)) [Call TypeDef (TWrap w t)]). cbn [cat].
    destruct (gen E (S n) TypeDef (TWrap w t)) as [x|]; auto; f_equal;
    clear; induction x as [|c r IH]; simpl; auto; now rewrite IH. }
  unfold returns. destruct q; simpl eager; split; intros [n H].
  - destruct n as [|n]; [discriminate|]. rewrite Hn in H by auto. eauto.
  - exists (S n). rewrite Hn; auto.
  - destruct n as [|[|n]]; try discriminate. rewrite Hi, Hn in H by auto. eauto.
  - exists (S (S n)). rewrite Hi, Hn by auto. exact H.
  - destruct n as [|n]; [discriminate|]. rewrite Hn in H by auto. eauto.
  - exists (S n). rewrite Hn; auto.
  - destruct n as [|[|n]]; try discriminate. rewrite Hj, Hn in H by auto. eauto.
  - exists (S (S n)). rewrite Hj, Hn by auto. exact H.
Qed.

Definition up (p : piece) : piece :=
  match p with Lit s => Lit s | Call q t => Call q (unwrap t) end.

Lemma up_join sep xs : map up (join sep xs) = join sep (map (map up) xs).
Proof.
  induction xs as [|x [|y r] IH]; [reflexivity|reflexivity|].
  change (join sep (x :: y :: r)) with (x ++ [Lit sep] ++ join sep (y :: r)).
  rewrite !map_app, IH. reflexivity.
Qed.

Definition up_out (o : outcome (list piece)) : outcome (list piece) :=
  obind o (fun ps => Done (map up ps)).

Definition up_sf (f : sfield) : sfield :=
  mkSField (s_name f) (unwrap (s_ty f)) (s_optional f) (s_transparent f) (s_flatten f).

Lemma up_sfield_schema f : sfield_schema (up_sf f) = map up (sfield_schema f).
Proof.
  unfold sfield_schema; simpl; destruct (s_flatten f), (s_name f), (s_transparent f); reflexivity.
Qed.
Lemma up_sfield_type f : sfield_type (up_sf f) = map up (sfield_type f).
Proof.
  unfold sfield_type; simpl;
  destruct (s_flatten f), (s_name f), (s_optional f), (s_transparent f); reflexivity.
Qed.

Lemma up_struct_fields st tr fs :
  struct_fields st tr (map unwrap_field fs) = map up_sf (struct_fields st tr fs).
Proof.
  unfold struct_fields. rewrite filter_map, !map_map. reflexivity.
Qed.

Lemma up_bad_order l : bad_default_order (map up_sf l) = bad_default_order l.
Proof.
  unfold bad_default_order.
  assert (H1 : forall l, skip_while (fun f => negb (s_optional f)) (map up_sf l)
               = map up_sf (skip_while (fun f => negb (s_optional f)) l)).
  { clear. induction l as [|x r IH]; simpl; auto. destruct (s_optional x); simpl; auto. }
  rewrite H1. generalize (skip_while (fun f => negb (s_optional f)) l).
  clear. induction l as [|x r IH]; simpl; auto. destruct (s_optional x); simpl; auto.
Qed.

Lemma map_up_map {A} (f g : A -> list piece) (h : A -> A) l :
  (forall x, f (h x) = map up (g x)) -> map f (map h l) = map (map up) (map g l).
Proof. intros H. rewrite !map_map. apply map_ext. auto. Qed.

Lemma up_struct_schema st tr l :
  struct_schema st tr (map up_sf l) = up_out (struct_schema st tr l).
Proof.
  unfold struct_schema. rewrite !filter_map.
  change (filter (fun x => s_flatten (up_sf x)) l) with (filter s_flatten l).
  change (filter (fun x => negb (s_flatten (up_sf x))) l) with (filter (fun f => negb (s_flatten f)) l).
  generalize (filter s_flatten l), (filter (fun f => negb (s_flatten f)) l). intros fl fs.
  destruct tr; [|destruct st].
  - destruct fs as [|f r]; [reflexivity|]. simpl. now rewrite up_sfield_schema.
  - unfold up_out. cbn [obind]. f_equal. rewrite !map_app, !up_join.
    rewrite !(map_up_map sfield_schema sfield_schema up_sf) by apply up_sfield_schema. reflexivity.
  - destruct fs as [|f [|g r]]; [reflexivity|simpl; now rewrite up_sfield_schema|].
    change (map up_sf (f :: g :: r)) with (up_sf f :: up_sf g :: map up_sf r). cbv iota.
    change (up_sf f :: up_sf g :: map up_sf r) with (map up_sf (f :: g :: r)).
    rewrite up_bad_order. destruct (bad_default_order _); [reflexivity|].
    unfold up_out. cbn [obind]. f_equal. rewrite !map_app, up_join.
    rewrite (map_up_map sfield_schema sfield_schema up_sf) by apply up_sfield_schema. reflexivity.
  - reflexivity.
Qed.

Lemma up_struct_type st tr l :
  struct_type st tr (map up_sf l) = up_out (struct_type st tr l).
Proof.
  unfold struct_type. rewrite !filter_map.
  change (filter (fun x => s_flatten (up_sf x)) l) with (filter s_flatten l).
  change (filter (fun x => negb (s_flatten (up_sf x))) l) with (filter (fun f => negb (s_flatten f)) l).
  generalize (filter s_flatten l), (filter (fun f => negb (s_flatten f)) l). intros fl fs.
  destruct tr; [|destruct st].
  - destruct fs as [|f r]; [reflexivity|]. simpl. now rewrite up_sfield_type.
  - unfold up_out. cbn [obind]. f_equal. rewrite !map_app, !up_join.
    rewrite !(map_up_map sfield_type sfield_type up_sf) by apply up_sfield_type. reflexivity.
  - destruct fs as [|f [|g r]]; [reflexivity|simpl; now rewrite up_sfield_type|].
    change (map up_sf (f :: g :: r)) with (up_sf f :: up_sf g :: map up_sf r). cbv iota.
    change (up_sf f :: up_sf g :: map up_sf r) with (map up_sf (f :: g :: r)).
    unfold up_out. cbn [obind]. f_equal. rewrite !map_app, up_join.
    rewrite (map_up_map sfield_type sfield_type up_sf) by apply up_sfield_type. reflexivity.
  - reflexivity.
Qed.

Definition unwrap_variant (v : variant) : variant :=
  mkVariant (v_name v) (v_style v) (map unwrap_field (v_fields v)) (v_skip v) (v_sname v) (v_sskip v).

Lemma up_vfield_schema st f : vfield_schema st (unwrap_field f) = map up (vfield_schema st f).
Proof. destruct st; reflexivity. Qed.
Lemma up_vfield_type st f : vfield_type st (unwrap_field f) = map up (vfield_type st f).
Proof. destruct st; simpl; destruct (f_default f); reflexivity. Qed.

Lemma up_unit_schema tg n : map up (unit_schema tg n) = unit_schema tg n.
Proof. now destruct tg. Qed.
Lemma up_unit_type tg n : map up (unit_type tg n) = unit_type tg n.
Proof. now destruct tg. Qed.

Lemma up_tuple_schema tg n fs :
  tuple_schema tg n (map unwrap_field fs) = map up (tuple_schema tg n fs).
Proof.
  destruct fs as [|f [|g r]]; [now destruct tg|now destruct tg|].
  unfold tuple_schema.
  change (map unwrap_field (f :: g :: r)) with (unwrap_field f :: unwrap_field g :: map unwrap_field r).
  cbv iota.
  change (unwrap_field f :: unwrap_field g :: map unwrap_field r) with (map unwrap_field (f :: g :: r)).
  rewrite (map_up_map (vfield_schema StTuple) (vfield_schema StTuple) unwrap_field)
    by (intros; apply up_vfield_schema).
  destruct tg; rewrite !map_app, up_join; reflexivity.
Qed.
Lemma up_tuple_type tg n fs :
  tuple_type tg n (map unwrap_field fs) = map up (tuple_type tg n fs).
Proof.
  destruct fs as [|f [|g r]]; [now destruct tg| |].
  { simpl. destruct tg; destruct (f_default f); reflexivity. }
  unfold tuple_type.
  change (map unwrap_field (f :: g :: r)) with (unwrap_field f :: unwrap_field g :: map unwrap_field r).
  cbv iota.
  change (unwrap_field f :: unwrap_field g :: map unwrap_field r) with (map unwrap_field (f :: g :: r)).
  rewrite (map_up_map (vfield_type StTuple) (vfield_type StTuple) unwrap_field)
    by (intros; apply up_vfield_type).
  destruct tg; rewrite !map_app, up_join; reflexivity.
Qed.

Lemma up_named_schema tg n fs :
  named_schema tg n (map unwrap_field fs) = up_out (named_schema tg n fs).
Proof.
  destruct fs as [|f r]; [reflexivity|]. unfold named_schema.
  change (map unwrap_field (f :: r)) with (unwrap_field f :: map unwrap_field r). cbv iota.
  change (unwrap_field f :: map unwrap_field r) with (map unwrap_field (f :: r)).
  rewrite (map_up_map (vfield_schema StNamed) (vfield_schema StNamed) unwrap_field)
    by (intros; apply up_vfield_schema).
  unfold up_out. cbn [obind]. f_equal. destruct tg; rewrite !map_app, up_join; reflexivity.
Qed.
Lemma up_named_type tg n fs :
  named_type tg n (map unwrap_field fs) = up_out (named_type tg n fs).
Proof.
  destruct fs as [|f r]; [reflexivity|]. unfold named_type.
  change (map unwrap_field (f :: r)) with (unwrap_field f :: map unwrap_field r). cbv iota.
  change (unwrap_field f :: map unwrap_field r) with (map unwrap_field (f :: r)).
  rewrite (map_up_map (vfield_type StNamed) (vfield_type StNamed) unwrap_field)
    by (intros; apply up_vfield_type).
  unfold up_out. cbn [obind]. f_equal. destruct tg; rewrite !map_app, up_join; reflexivity.
Qed.

Lemma up_kept fs : variant_fields (map unwrap_field fs) = map unwrap_field (variant_fields fs).
Proof. unfold variant_fields. rewrite filter_map. reflexivity. Qed.

Lemma up_variant_schema tg v : variant_schema tg (unwrap_variant v) = up_out (variant_schema tg v).
Proof.
  unfold variant_schema. simpl. rewrite up_kept. destruct (v_style v).
  - apply up_named_schema.
  - rewrite up_tuple_schema. reflexivity.
  - unfold up_out. cbn [obind]. now rewrite up_unit_schema.
Qed.
Lemma up_variant_type tg v : variant_type tg (unwrap_variant v) = up_out (variant_type tg v).
Proof.
  unfold variant_type. simpl. rewrite up_kept. destruct (v_style v).
  - apply up_named_type.
  - rewrite up_tuple_type. reflexivity.
  - unfold up_out. cbn [obind]. now rewrite up_unit_type.
Qed.

Lemma up_omap {A} (f g : A -> outcome (list piece)) l :
  (forall x, f x = up_out (g x)) ->
  omap f l = obind (omap g l) (fun xs => Done (map (map up) xs)).
Proof.
  intros H. induction l as [|x r IH]; [reflexivity|]. simpl. rewrite H, IH.
  destruct (g x); try reflexivity. unfold up_out. cbn [obind].
  destruct (omap g r); reflexivity.
Qed.

Lemma up_enum_schema tg vs : enum_schema tg (map unwrap_variant vs) = up_out (enum_schema tg vs).
Proof.
  destruct vs as [|v [|w r]]; [reflexivity|apply up_variant_schema|].
  unfold enum_schema.
  change (map unwrap_variant (v :: w :: r)) with (unwrap_variant v :: unwrap_variant w :: map unwrap_variant r).
  cbv iota.
  change (unwrap_variant v :: unwrap_variant w :: map unwrap_variant r) with (map unwrap_variant (v :: w :: r)).
  rewrite omap_map, (up_omap _ (variant_schema tg)) by apply up_variant_schema.
  destruct (omap (variant_schema tg) (v :: w :: r)) as [xs| | |]; try reflexivity.
  unfold up_out. cbn [obind]. f_equal. destruct tg; rewrite !map_app, up_join; reflexivity.
Qed.
Lemma up_enum_type tg vs : enum_type tg (map unwrap_variant vs) = up_out (enum_type tg vs).
Proof.
  destruct vs as [|v [|w r]]; [reflexivity|apply up_variant_type|].
  unfold enum_type.
  change (map unwrap_variant (v :: w :: r)) with (unwrap_variant v :: unwrap_variant w :: map unwrap_variant r).
  cbv iota.
  change (unwrap_variant v :: unwrap_variant w :: map unwrap_variant r) with (map unwrap_variant (v :: w :: r)).
  rewrite omap_map, (up_omap _ (variant_type tg)) by apply up_variant_type.
  destruct (omap (variant_type tg) (v :: w :: r)) as [xs| | |]; try reflexivity.
  unfold up_out. cbn [obind]. f_equal. now rewrite up_join.
Qed.

Definition up_impl (im : impl) : impl :=
  mkImpl (map up (i_schema im)) (map up (i_inline_schema im)) (map up (i_type_def im))
    (map up (i_inline im)) (i_interface im).

Lemma up_derive d : derive (unwrap_decl d) = obind (derive d) (fun im => Done (up_impl im)).
Proof.
  unfold derive. simpl. destruct (d_body d) as [st tr fs|tg vs].
  - unfold derive_struct. cbn [d_from unwrap_decl]. rewrite up_struct_fields, up_struct_schema, up_struct_type.
    destruct st; try reflexivity;
    (destruct (struct_schema _ tr _); try reflexivity; unfold up_out; cbn [obind];
     destruct (struct_type _ tr _); try reflexivity; cbn [obind]; f_equal;
     destruct (d_from d); simpl; [reflexivity|]; unfold up_impl; simpl; f_equal; f_equal;
     unfold struct_interface; now rewrite map_length).
  - unfold derive_enum. cbn [d_from unwrap_decl].
    fold unwrap_variant.
    assert (Hk : filter (fun v => negb (v_skip v)) (map unwrap_variant vs)
                 = map unwrap_variant (filter (fun v => negb (v_skip v)) vs)).
    { rewrite filter_map. reflexivity. }
    change (map (fun v => mkVariant (v_name v) (v_style v) (map unwrap_field (v_fields v))
                            (v_skip v) (v_sname v) (v_sskip v)) vs) with (map unwrap_variant vs).
    rewrite Hk, up_enum_schema, up_enum_type.
    destruct (enum_schema tg _); try reflexivity. unfold up_out. cbn [obind].
    destruct (enum_type tg _); try reflexivity. cbn [obind]. f_equal.
    destruct (d_from d); reflexivity.
Qed.

(** Types that [unwrap] keeps at the root. *)
Definition solid (t : ty) : Prop :=
  match t with
  | TWrap _ _ | TArr _ _ | TSet BTree _ | TMap BTree _ _ => False
  | _ => True
  end.

Lemma up_expand E q t : solid t ->
  expand (map unwrap_decl E) q (unwrap t) = option_map (map up) (expand E q t).
Proof.
  intros Hs. destruct t as [p|ts|w t|t|n t|[|] t|[|] k v|t|t e|i]; try contradiction;
  try (destruct q; reflexivity).
  - destruct q; try reflexivity; simpl; f_equal; f_equal; rewrite !map_app, up_join;
    f_equal; rewrite !map_map; reflexivity.
  - simpl. rewrite (lookup_map unwrap_decl) by reflexivity. rewrite up_derive.
    destruct (derive (lookup E i)); try reflexivity. simpl. destruct q; reflexivity.
Qed.

Lemma cat_up run run' ps s :
  (forall q t x, run q t = Some x -> run' q (unwrap t) = Some x) ->
  cat run ps = Some s -> cat run' (map up ps) = Some s.
Proof.
  intros H. revert s; induction ps as [|p r IH]; intros s Hs; simpl in *; auto.
  destruct p as [a|q t]; simpl.
  - destruct (cat run r) as [x|]; [|discriminate]. now rewrite (IH x).
  - destruct (run q t) as [a|] eqn:Ha; [|discriminate].
    destruct (cat run r) as [x|]; [|discriminate].
    now rewrite (H _ _ _ Ha), (IH x).
Qed.

Lemma cat_single run q t : cat run [Call q t] = run q t.
Proof.
  simpl. destruct (run q t) as [s|]; auto. f_equal.
  induction s as [|c s IH]; simpl; auto. now rewrite IH.
Qed.

Lemma unwrap_wrap_not_named w t : ~ is_named (unwrap (TWrap w t)).
Proof. simpl. intros [j Hj]. destruct (unwrap t); discriminate. Qed.

Lemma gen_inline_not_named E n t : ~ is_named t ->
  gen E (S n) InlineSchema t = gen E n Schema t /\ gen E (S n) Inline t = gen E n TypeDef t.
Proof.
  intros H. destruct t; try (split; apply cat_single). destruct H. now exists i.
Qed.

Lemma unwrap_fwd E n : forall q t s, gen E n q t = Some s ->
  gen (map unwrap_decl E) n q (unwrap t) = Some s.
Proof.
  induction n as [|n IH]; intros q t s H; [discriminate|].
  assert (Hsolid : solid t -> gen (map unwrap_decl E) (S n) q (unwrap t) = Some s).
  { intros Hs. simpl in *. rewrite (up_expand E q t Hs).
    destruct (expand E q t) as [ps|]; [|discriminate]. cbn [option_map].
    eapply cat_up; [|exact H]. auto. }
  destruct t as [p|ts|w t|t|k t|[|] t|[|] k v|t|t e|i]; try (apply Hsolid; exact I).
  - (* wrapper *)
    assert (Hnn : ~ is_named (TWrap w t)) by (intros [j Hj]; discriminate).
    destruct (gen_inline_not_named E n _ Hnn) as [G1 G2].
    destruct (gen_inline_not_named (map unwrap_decl E) n _ (unwrap_wrap_not_named w t)) as [G3 G4].
    destruct q.
    + change (gen E (S n) Schema (TWrap w t)) with (cat (gen E n) [Call Schema t]) in H.
      rewrite cat_single in H. apply IH in H. simpl unwrap.
      destruct (unwrap t) eqn:Hu; try (eapply gen_mono; [|exact H]; lia).
      change (cat (gen (map unwrap_decl E) n) [Call Schema (TNamed i)] = Some s).
      now rewrite cat_single.
    + rewrite G1 in H. rewrite G3. now apply IH.
    + change (gen E (S n) TypeDef (TWrap w t)) with (cat (gen E n) [Call TypeDef t]) in H.
      rewrite cat_single in H. apply IH in H. simpl unwrap.
      destruct (unwrap t) eqn:Hu; try (eapply gen_mono; [|exact H]; lia).
      change (cat (gen (map unwrap_decl E) n) [Call TypeDef (TNamed i)] = Some s).
      now rewrite cat_single.
    + rewrite G2 in H. rewrite G4. now apply IH.
  - assert (Hnn : ~ is_named (TArr k t)) by (intros [j Hj]; discriminate).
    assert (Hnu : ~ is_named (unwrap (TArr k t))) by (intros [j Hj]; discriminate).
    destruct (gen_inline_not_named E n _ Hnn) as [G1 G2].
    destruct (gen_inline_not_named (map unwrap_decl E) n _ Hnu) as [G3 G4].
    destruct q.
    + change (cat (gen E n) [Call Schema (TVec t)] = Some s) in H. rewrite cat_single in H.
      apply IH in H. eapply gen_mono; [|exact H]; lia.
    + rewrite G1 in H. rewrite G3. now apply IH.
    + change (cat (gen E n) [Call TypeDef (TVec t)] = Some s) in H. rewrite cat_single in H.
      apply IH in H. eapply gen_mono; [|exact H]; lia.
    + rewrite G2 in H. rewrite G4. now apply IH.
  - assert (Hnn : ~ is_named (TSet BTree t)) by (intros [j Hj]; discriminate).
    assert (Hnu : ~ is_named (unwrap (TSet BTree t))) by (intros [j Hj]; discriminate).
    destruct (gen_inline_not_named E n _ Hnn) as [G1 G2].
    destruct (gen_inline_not_named (map unwrap_decl E) n _ Hnu) as [G3 G4].
    destruct q.
    + change (cat (gen E n) [Call Schema (TSet Hash t)] = Some s) in H. rewrite cat_single in H.
      apply IH in H. eapply gen_mono; [|exact H]; lia.
    + rewrite G1 in H. rewrite G3. now apply IH.
    + change (cat (gen E n) [Call TypeDef (TSet Hash t)] = Some s) in H. rewrite cat_single in H.
      apply IH in H. eapply gen_mono; [|exact H]; lia.
    + rewrite G2 in H. rewrite G4. now apply IH.
  - assert (Hnn : ~ is_named (TMap BTree k v)) by (intros [j Hj]; discriminate).
    assert (Hnu : ~ is_named (unwrap (TMap BTree k v))) by (intros [j Hj]; discriminate).
    destruct (gen_inline_not_named E n _ Hnn) as [G1 G2].
    destruct (gen_inline_not_named (map unwrap_decl E) n _ Hnu) as [G3 G4].
    destruct q.
    + change (cat (gen E n) [Call Schema (TMap Hash k v)] = Some s) in H. rewrite cat_single in H.
      apply IH in H. eapply gen_mono; [|exact H]; lia.
    + rewrite G1 in H. rewrite G3. now apply IH.
    + change (cat (gen E n) [Call TypeDef (TMap Hash k v)] = Some s) in H. rewrite cat_single in H.
      apply IH in H. eapply gen_mono; [|exact H]; lia.
    + rewrite G2 in H. rewrite G4. now apply IH.
Qed.

Lemma cat_up_back E run' ps s :
  (forall q t x, run' q (unwrap t) = Some x -> exists m, gen E m q t = Some x) ->
  cat run' (map up ps) = Some s -> exists m, cat (gen E m) ps = Some s.
Proof.
  intros H. revert s; induction ps as [|p r IH]; intros s Hs; simpl in *; [exists 0; auto|].
  destruct p as [a|q t]; simpl in Hs.
  - destruct (cat run' (map up r)) as [x|]; [|discriminate].
    destruct (IH x eq_refl) as [m Hm]. exists m. now rewrite Hm.
  - destruct (run' q (unwrap t)) as [a|] eqn:Ha; [|discriminate].
    destruct (cat run' (map up r)) as [x|]; [|discriminate].
    destruct (IH x eq_refl) as [m Hm]. destruct (H _ _ _ Ha) as [k Hk].
    exists (max k m). rewrite (gen_mono E k (max k m) q t a) by (auto; lia).
    rewrite (cat_ext (gen E m) (gen E (max k m)) r x); auto.
    intros q' t' y Hy. apply (gen_mono E m); auto. lia.
Qed.

Lemma shadow_back E n (q0 : query) t u (s : string) :
  (forall q x, gen (map unwrap_decl E) n q (unwrap t) = Some x -> exists m, gen E m q t = Some x) ->
  ~ is_named t -> ~ is_named (unwrap t) ->
  (forall m q, q = Schema \/ q = TypeDef -> gen E (S m) q t = gen E m q u) ->
  (forall q x, q = Schema \/ q = TypeDef ->
     gen (map unwrap_decl E) (S n) q (unwrap t) = Some x -> exists m, gen E m q u = Some x) ->
  gen (map unwrap_decl E) (S n) q0 (unwrap t) = Some s -> exists m, gen E m q0 t = Some s.
Proof.
  intros IH Hnn Hnu Hstep Hback H.
  destruct (gen_inline_not_named (map unwrap_decl E) n _ Hnu) as [G3 G4].
  destruct q0.
  - destruct (Hback Schema s (or_introl eq_refl) H) as [m Hm]. exists (S m).
    now rewrite Hstep by auto.
  - rewrite G3 in H. destruct (IH Schema s H) as [m Hm]. exists (S m).
    destruct (gen_inline_not_named E m _ Hnn) as [G1 _]. now rewrite G1.
  - destruct (Hback TypeDef s (or_intror eq_refl) H) as [m Hm]. exists (S m).
    now rewrite Hstep by auto.
  - rewrite G4 in H. destruct (IH TypeDef s H) as [m Hm]. exists (S m).
    destruct (gen_inline_not_named E m _ Hnn) as [_ G2]. now rewrite G2.
Qed.

Lemma unwrap_bwd E n : forall q t s, gen (map unwrap_decl E) n q (unwrap t) = Some s ->
  exists m, gen E m q t = Some s.
Proof.
  induction n as [|n IH]; [discriminate|].
  assert (Hsolid : forall q t s, solid t ->
    gen (map unwrap_decl E) (S n) q (unwrap t) = Some s -> exists m, gen E m q t = Some s).
  { intros q t s Hs H. simpl in H. rewrite (up_expand E q t Hs) in H.
    destruct (expand E q t) as [ps|] eqn:He; [|discriminate]. cbn [option_map] in H.
    destruct (cat_up_back E _ _ _ IH H) as [m Hm]. exists (S m). simpl. now rewrite He. }
  intros q t. revert q. induction t using ty_ind'; intros q s H';
  try (apply Hsolid; [exact I|exact H']).
  - apply (shadow_back E n q (TWrap w t) t s); auto.
    + intros [j Hj]; discriminate.
    + apply unwrap_wrap_not_named.
    + intros m q' [->| ->]; apply cat_single.
    + intros q' x Hq Hx. simpl unwrap in Hx. destruct (unwrap t) eqn:Hu;
      try (apply IHt; exact Hx).
      destruct Hq as [->| ->].
      * change (cat (gen (map unwrap_decl E) n) [Call Schema (TNamed i)] = Some x) in Hx.
        rewrite cat_single in Hx. apply IH. now rewrite Hu.
      * change (cat (gen (map unwrap_decl E) n) [Call TypeDef (TNamed i)] = Some x) in Hx.
        rewrite cat_single in Hx. apply IH. now rewrite Hu.
  - apply (shadow_back E n q (TArr n0 t) (TVec t) s); auto.
    + intros [j Hj]; discriminate.
    + intros [j Hj]; discriminate.
    + intros m q' [->| ->]; apply cat_single.
    + intros q' x Hq Hx. apply Hsolid; [exact I|exact Hx].
  - destruct c; [apply Hsolid; [exact I|exact H']|].
    apply (shadow_back E n q (TSet BTree t) (TSet Hash t) s); auto.
    + intros [j Hj]; discriminate.
    + intros [j Hj]; discriminate.
    + intros m q' [->| ->]; apply cat_single.
    + intros q' x Hq Hx. apply Hsolid; [exact I|exact Hx].
  - destruct c; [apply Hsolid; [exact I|exact H']|].
    apply (shadow_back E n q (TMap BTree t1 t2) (TMap Hash t1 t2) s); auto.
    + intros [j Hj]; discriminate.
    + intros [j Hj]; discriminate.
    + intros m q' [->| ->]; apply cat_single.
    + intros q' x Hq Hx. apply Hsolid; [exact I|exact Hx].
Qed.

Lemma unwrap_returns E q t s :
  returns E q t s <-> returns (map unwrap_decl E) q (unwrap t) s.
Proof.
  split; intros [n H].
  - exists n. now apply unwrap_fwd.
  - apply (unwrap_bwd E n q t s H).
Qed.

Lemma default_order_exact d fs : d_body d = BStruct StTuple false fs ->
  (derive d = Abort "zod: non-default field follows default field" <-> default_before_required fs).
Proof.
  intros Hb.
  destruct (tuple_struct_outcome d fs Hb) as [(H1 & H2 & H3)|[(H1 & H2)|(H1 & H2 & im & H3)]].
  - tauto.
  - rewrite H2. split; [discriminate|]. intros (l1 & a & l2 & b & l3 & H & _).
    rewrite H1 in H. destruct l1; discriminate.
  - rewrite H3. split; [discriminate|tauto].
Qed.
