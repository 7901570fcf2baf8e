(** Proofs about the text generators. *)
From Coq Require Import List String Bool Relations Arith Lia.
From Verif Require Import RustTy Gen GenSpec Graph.
Import ListNotations.
Local Open Scope string_scope.
Local Open Scope list_scope.

(** From [Done a = Done b] to [b := a], without reducing [a]. *)
Definition undone {A} (d : A) (o : outcome A) : A := match o with Done x => x | _ => d end.
Ltac undone H :=
  apply (f_equal (undone [])) in H; cbn [undone obind] in H; subst.

(** ** Calls made by a list of pieces *)
Definition call_of (p : piece) : list (query * ty) :=
  match p with Lit _ => [] | Call q t => [(q, t)] end.
Definition calls (ps : list piece) : list (query * ty) := flat_map call_of ps.

Lemma calls_app a b : calls (a ++ b) = calls a ++ calls b.
Proof. apply flat_map_app. Qed.

Lemma calls_join sep xs : calls (join sep xs) = flat_map calls xs.
Proof.
  induction xs as [|x [|y r] IH]; [reflexivity|simpl; now rewrite app_nil_r|].
  change (join sep (x :: y :: r)) with (x ++ Lit sep :: join sep (y :: r)).
  rewrite calls_app. change (calls (Lit sep :: join sep (y :: r))) with (calls (join sep (y :: r))).
  rewrite IH. reflexivity.
Qed.

Lemma flat_map_map {A B C} (f : A -> B) (g : B -> list C) l :
  flat_map g (map f l) = flat_map (fun x => g (f x)) l.
Proof. induction l as [|x r IH]; simpl; [reflexivity|now rewrite IH]. Qed.

Lemma flat_map_single {A B} (f : A -> B) l : flat_map (fun x => [f x]) l = map f l.
Proof. induction l as [|x r IH]; simpl; [reflexivity|now rewrite IH]. Qed.

Lemma flat_map_ext' {A B} (f g : A -> list B) l :
  (forall x, f x = g x) -> flat_map f l = flat_map g l.
Proof. intros H; induction l as [|x r IH]; simpl; [reflexivity|now rewrite H, IH]. Qed.

Lemma cat_app run a b :
  cat run (a ++ b) =
  match cat run a, cat run b with Some x, Some y => Some (x ^^ y) | _, _ => None end.
Proof.
  induction a as [|p r IH]; simpl.
  - now destruct (cat run b).
  - destruct p as [s|q t].
    + rewrite IH. destruct (cat run r), (cat run b); auto.
      assert (HH : forall a b c : string, ((a ^^ b) ^^ c = a ^^ (b ^^ c))%string).
      { clear. induction a as [|x a IH]; simpl; intros; [reflexivity|now rewrite IH]. }
      now rewrite HH.
    + destruct (run q t); [|reflexivity]. rewrite IH. destruct (cat run r), (cat run b); auto.
      assert (HH : forall a b c : string, ((a ^^ b) ^^ c = a ^^ (b ^^ c))%string).
      { clear. induction a as [|x a IH]; simpl; intros; [reflexivity|now rewrite IH]. }
      now rewrite HH.
Qed.

Lemma cat_some run ps :
  (exists s, cat run ps = Some s) <-> Forall (fun c => exists s, run (fst c) (snd c) = Some s) (calls ps).
Proof.
  induction ps as [|p r IH]; simpl.
  - split; eauto.
  - destruct p as [s|q t]; simpl.
    + rewrite <- IH. destruct (cat run r) as [x|]; split; intros [y Hy]; eauto; discriminate.
    + split.
      * intros [s Hs]. destruct (run q t) as [a|] eqn:Ha; [|discriminate].
        destruct (cat run r) as [b|] eqn:Hb; [|discriminate].
        constructor; [eauto|]. apply IH; eauto.
      * intros H. inversion H as [|c l [a Ha] Hr]; subst. simpl in Ha.
        apply IH in Hr. destruct Hr as [b Hb]. rewrite Ha, Hb. eauto.
Qed.

Lemma cat_ext run run' ps s :
  (forall q t x, run q t = Some x -> run' q t = Some x) ->
  cat run ps = Some s -> cat run' ps = Some s.
Proof.
  intros H. revert s; induction ps as [|p r IH]; intros s Hs; simpl in *; auto.
  destruct p as [a|q t].
  - destruct (cat run r) as [x|]; [|discriminate]. now rewrite (IH x).
  - destruct (run q t) as [a|] eqn:Ha; [|discriminate].
    destruct (cat run r) as [x|]; [|discriminate].
    now rewrite (H _ _ _ Ha), (IH x).
Qed.

Lemma gen_mono E n : forall m q t s, n <= m -> gen E n q t = Some s -> gen E m q t = Some s.
Proof.
  induction n as [|n IH]; intros m q t s Hle H; [discriminate|].
  destruct m as [|m]; [lia|]. simpl in *. destruct (expand E q t) as [ps|]; [|discriminate].
  eapply cat_ext; [|exact H]. intros q' t' x Hx. apply (IH m); auto. lia.
Qed.

Lemma gen_det E n m q t s s' : gen E n q t = Some s -> gen E m q t = Some s' -> s = s'.
Proof.
  intros H H'. apply (gen_mono E n (max n m)) in H; [|lia].
  apply (gen_mono E m (max n m)) in H'; [|lia]. congruence.
Qed.

Lemma returns_det E q t s s' : returns E q t s -> returns E q t s' -> s = s'.
Proof. intros [n H] [m H']. eapply gen_det; eauto. Qed.

Lemma overflows_iff E q t : overflows E q t <-> ~ exists s, returns E q t s.
Proof.
  split.
  - intros H (s & n & Hn). specialize (H n). congruence.
  - intros H n. destruct (gen E n q t) as [s|] eqn:Hs; auto. destruct H. exists s, n. auto.
Qed.

(** ** Termination *)
Definition succ (E : env) (x : query * ty) : list (query * ty) :=
  match expand E (fst x) (snd x) with Some ps => calls ps | None => [x] end.

Lemma expand_some E q t : compiles E -> exists ps, expand E q t = Some ps.
Proof.
  intros HE. destruct t; simpl; eauto. destruct (HE i) as [im ->]. eauto.
Qed.

Lemma gen_descends E n : compiles E -> forall q t,
  (exists s, gen E n q t = Some s) <-> descends (succ E) n (q, t).
Proof.
  intros HE. induction n as [|n IH]; intros q t.
  - simpl. split; [intros [s H]; discriminate|contradiction].
  - simpl. destruct (expand_some E q t HE) as [ps Hps].
    assert (Hs : succ E (q, t) = calls ps) by (unfold succ; simpl; now rewrite Hps).
    rewrite Hs, Hps, cat_some. split; intros H; (eapply Forall_impl; [|exact H]);
    intros [q' t'] Hc; apply IH; exact Hc.
Qed.

Lemma calls_unit_schema tg n : calls (unit_schema tg n) = [].
Proof. now destruct tg. Qed.
Lemma calls_unit_type tg n : calls (unit_type tg n) = [].
Proof. now destruct tg. Qed.

Lemma calls_vfields_schema st fs :
  flat_map calls (map (vfield_schema st) fs) = map (fun f => (InlineSchema, f_ty f)) fs.
Proof.
  rewrite flat_map_map, <- flat_map_single. apply flat_map_ext'. intros f; now destruct st.
Qed.
Lemma calls_vfields_type st fs :
  flat_map calls (map (vfield_type st) fs) = map (fun f => (Inline, f_ty f)) fs.
Proof.
  rewrite flat_map_map, <- flat_map_single. apply flat_map_ext'.
  intros f; destruct st; simpl; now destruct (f_default f).
Qed.

Lemma calls_tuple_schema tg n fs :
  calls (tuple_schema tg n fs) = map (fun f => (InlineSchema, f_ty f)) fs.
Proof.
  destruct fs as [|f [|g r]]; [apply calls_unit_schema|now destruct tg|].
  assert (Hi : calls ([Lit "z.tuple(["] ++ join ", " (map (vfield_schema StTuple) (f :: g :: r))
                 ++ [Lit "])"]) = map (fun f => (InlineSchema, f_ty f)) (f :: g :: r)).
  { rewrite !calls_app, calls_join, calls_vfields_schema. simpl. now rewrite app_nil_r. }
  unfold tuple_schema. destruct tg;
  rewrite ?calls_app; rewrite ?calls_app in Hi; rewrite Hi; simpl; now rewrite ?app_nil_r.
Qed.

Lemma calls_tuple_type tg n fs :
  calls (tuple_type tg n fs) = map (fun f => (Inline, f_ty f)) fs.
Proof.
  destruct fs as [|f [|g r]]; [apply calls_unit_type| |].
  { simpl. destruct (f_default f); now destruct tg. }
  assert (Hi : calls ([Lit "["] ++ join ", " (map (vfield_type StTuple) (f :: g :: r))
                 ++ [Lit "]"]) = map (fun f => (Inline, f_ty f)) (f :: g :: r)).
  { rewrite !calls_app, calls_join, calls_vfields_type. simpl. now rewrite app_nil_r. }
  unfold tuple_type. destruct tg;
  rewrite ?calls_app; rewrite ?calls_app in Hi; rewrite Hi; simpl; now rewrite ?app_nil_r.
Qed.

Lemma calls_named_schema tg n fs ps : named_schema tg n fs = Done ps ->
  calls ps = map (fun f => (InlineSchema, f_ty f)) fs.
Proof.
  unfold named_schema. destruct fs as [|f r]; [discriminate|].
  intros H; undone H.
  destruct tg; rewrite !calls_app, calls_join, calls_vfields_schema; simpl;
  now rewrite app_nil_r.
Qed.

Lemma calls_named_type tg n fs ps : named_type tg n fs = Done ps ->
  calls ps = map (fun f => (Inline, f_ty f)) fs.
Proof.
  unfold named_type. destruct fs as [|f r]; [discriminate|].
  intros H; undone H.
  destruct tg; rewrite !calls_app, calls_join, calls_vfields_type; simpl;
  now rewrite app_nil_r.
Qed.

Definition var_fields (v : variant) : list field :=
  match v_style v with StUnit => [] | _ => kept (v_fields v) end.

Lemma calls_variant_schema tg v ps : variant_schema tg v = Done ps ->
  calls ps = map (fun f => (InlineSchema, f_ty f)) (var_fields v).
Proof.
  unfold variant_schema, var_fields, kept, variant_fields. destruct (v_style v); intros H.
  - eapply calls_named_schema; eauto.
  - injection H as <-. apply calls_tuple_schema.
  - injection H as <-. apply calls_unit_schema.
Qed.

Lemma calls_variant_type tg v ps : variant_type tg v = Done ps ->
  calls ps = map (fun f => (Inline, f_ty f)) (var_fields v).
Proof.
  unfold variant_type, var_fields, kept, variant_fields. destruct (v_style v); intros H.
  - eapply calls_named_type; eauto.
  - injection H as <-. apply calls_tuple_type.
  - injection H as <-. apply calls_unit_type.
Qed.

Lemma omap_calls {A} (f : A -> outcome (list piece)) (g : A -> list (query * ty)) l xs :
  (forall x ps, f x = Done ps -> calls ps = g x) ->
  omap f l = Done xs -> flat_map calls xs = flat_map g l.
Proof.
  intros H. revert xs; induction l as [|x r IH]; intros xs Hx; simpl in *.
  - injection Hx as <-. reflexivity.
  - destruct (f x) as [y| | |] eqn:Hy; try discriminate. simpl in Hx.
    destruct (omap f r) as [ys| | |] eqn:Hr; try discriminate. simpl in Hx.
    injection Hx as <-. simpl. rewrite (H _ _ Hy), (IH ys); auto.
Qed.

Lemma map_flat_map {A B C} (f : B -> C) (g : A -> list B) l :
  map f (flat_map g l) = flat_map (fun x => map f (g x)) l.
Proof. induction l as [|x r IH]; simpl; [reflexivity|now rewrite map_app, IH]. Qed.

Lemma calls_enum_schema tg vs ps : enum_schema tg vs = Done ps ->
  calls ps = map (fun f => (InlineSchema, f_ty f)) (flat_map var_fields vs).
Proof.
  unfold enum_schema. destruct vs as [|v [|w r]]; [discriminate| |].
  - intros H. simpl. rewrite app_nil_r. eapply calls_variant_schema; eauto.
  - destruct (omap (variant_schema tg) (v :: w :: r)) as [xs| | |] eqn:Hx; try discriminate.
    intros H; undone H. rewrite map_flat_map.
    rewrite <- (omap_calls _ _ _ _ (calls_variant_schema tg) Hx).
    destruct tg; rewrite !calls_app, calls_join; simpl; now rewrite app_nil_r.
Qed.

Lemma calls_enum_type tg vs ps : enum_type tg vs = Done ps ->
  calls ps = map (fun f => (Inline, f_ty f)) (flat_map var_fields vs).
Proof.
  unfold enum_type. destruct vs as [|v [|w r]]; [discriminate| |].
  - intros H. simpl. rewrite app_nil_r. eapply calls_variant_type; eauto.
  - destruct (omap (variant_type tg) (v :: w :: r)) as [xs| | |] eqn:Hx; try discriminate.
    intros H; undone H. rewrite map_flat_map.
    rewrite <- (omap_calls _ _ _ _ (calls_variant_type tg) Hx).
    now rewrite calls_join.
Qed.

(** Struct fields. *)
Lemma calls_sfields_schema l :
  flat_map calls (map sfield_schema l) = map (fun f => (InlineSchema, s_ty f)) l.
Proof.
  rewrite flat_map_map, <- flat_map_single. apply flat_map_ext'.
  intros f; unfold sfield_schema; destruct (s_flatten f), (s_name f), (s_transparent f);
  reflexivity.
Qed.
Lemma calls_sfields_type l :
  flat_map calls (map sfield_type l) = map (fun f => (Inline, s_ty f)) l.
Proof.
  rewrite flat_map_map, <- flat_map_single. apply flat_map_ext'.
  intros f; unfold sfield_type;
  destruct (s_flatten f), (s_name f), (s_optional f), (s_transparent f); reflexivity.
Qed.
Lemma calls_sfield_schema f : calls (sfield_schema f) = [(InlineSchema, s_ty f)].
Proof.
  unfold sfield_schema; destruct (s_flatten f), (s_name f), (s_transparent f); reflexivity.
Qed.
Lemma calls_sfield_type f : calls (sfield_type f) = [(Inline, s_ty f)].
Proof.
  unfold sfield_type;
  destruct (s_flatten f), (s_name f), (s_optional f), (s_transparent f); reflexivity.
Qed.

Definition mk_sf (st : style) (tr : bool) (f : field) : sfield :=
  mkSField (match st with StNamed => Some (f_name f) | _ => None end)
    (f_ty f) (f_default f) tr (f_flatten f).

Lemma struct_fields_eq st tr fs : struct_fields st tr fs = map (mk_sf st tr) (kept fs).
Proof. reflexivity. Qed.

Lemma filter_map {A B} (f : A -> B) p l : filter p (map f l) = map f (filter (fun x => p (f x)) l).
Proof. induction l as [|x r IH]; simpl; [reflexivity|]. destruct (p (f x)); simpl; now rewrite IH. Qed.

Lemma plain_sfields st tr fs :
  filter (fun f => negb (s_flatten f)) (struct_fields st tr fs)
  = map (mk_sf st tr) (filter plain (kept fs)).
Proof. rewrite struct_fields_eq, filter_map. reflexivity. Qed.
Lemma flat_sfields st tr fs :
  filter s_flatten (struct_fields st tr fs) = map (mk_sf st tr) (filter f_flatten (kept fs)).
Proof. rewrite struct_fields_eq, filter_map. reflexivity. Qed.

Lemma in_plain_flat f fs : In f (filter plain fs) \/ In f (filter f_flatten fs) <-> In f fs.
Proof.
  rewrite !filter_In. unfold plain. destruct (f_flatten f); simpl; intuition congruence.
Qed.

Definition struct_embedded (st : style) (tr : bool) (fs : list field) : list field :=
  match tr, st with
  | true, _ => firstn 1 (filter plain (kept fs))
  | false, StTuple => filter plain (kept fs)
  | false, _ => kept fs
  end.

Lemma calls_struct_schema st tr fs ps :
  struct_schema st tr (struct_fields st tr fs) = Done ps ->
  forall c, In c (calls ps) <-> exists f, In f (struct_embedded st tr fs) /\ c = (InlineSchema, f_ty f).
Proof.
  unfold struct_schema. rewrite plain_sfields, flat_sfields.
  destruct tr; [|destruct st].
  - unfold struct_embedded. destruct (filter plain (kept fs)) as [|f r]; [discriminate|].
    simpl. intros H; injection H as <-. intros c. rewrite calls_sfield_schema. simpl.
    split; [intros [<-|[]]; eauto|intros (g & [<-|[]] & ->); auto].
  - intros H; undone H. intros c. cbn [struct_embedded].
    rewrite !calls_app, !calls_join, !calls_sfields_schema, !map_map. simpl.
    rewrite in_app_iff, !in_map_iff. simpl. split.
    + intros [(f & <- & Hf)|(f & <- & Hf)]; exists f; (split; [apply in_plain_flat; auto|auto]).
    + intros (f & Hf & ->). apply in_plain_flat in Hf. destruct Hf; [left|right]; eauto.
  - cbn [struct_embedded]. remember (filter plain (kept fs)) as l eqn:Hl. clear Hl.
    destruct l as [|f [|g r]]; [discriminate| |].
    + simpl. intros H; injection H as <-. intros c. rewrite calls_sfield_schema. simpl.
      split; [intros [<-|[]]; eauto|intros (h & [<-|[]] & ->); auto].
    + intros H. assert (H' : ps = [Lit "z.tuple(["] ++ join ", " (map sfield_schema (map (mk_sf StTuple false) (f :: g :: r))) ++ [Lit "])"]).
      { cbv beta iota in H. change (map (mk_sf StTuple false) (f :: g :: r)) with (mk_sf StTuple false f :: mk_sf StTuple false g :: map (mk_sf StTuple false) r) in *.
        cbv iota in H. destruct (bad_default_order _) in H; congruence. }
      clear H. subst ps. intros c.
      rewrite !calls_app, calls_join, calls_sfields_schema, map_map.
      rewrite !in_app_iff, in_map_iff. simpl. split.
      * intros [[]|[(h & <- & Hh)|[]]]. eauto.
      * intros (h & Hh & ->). right; left. eauto.
  - discriminate.
Qed.

Lemma calls_struct_type st tr fs ps :
  struct_type st tr (struct_fields st tr fs) = Done ps ->
  forall c, In c (calls ps) <-> exists f, In f (struct_embedded st tr fs) /\ c = (Inline, f_ty f).
Proof.
  unfold struct_type. rewrite plain_sfields, flat_sfields.
  destruct tr; [|destruct st].
  - unfold struct_embedded. destruct (filter plain (kept fs)) as [|f r]; [discriminate|].
    simpl. intros H; injection H as <-. intros c. rewrite calls_sfield_type. simpl.
    split; [intros [<-|[]]; eauto|intros (g & [<-|[]] & ->); auto].
  - intros H; undone H. intros c. cbn [struct_embedded].
    rewrite !calls_app, !calls_join, !calls_sfields_type, !map_map. simpl.
    rewrite in_app_iff, !in_map_iff. simpl. split.
    + intros [(f & <- & Hf)|(f & <- & Hf)]; exists f; (split; [apply in_plain_flat; auto|auto]).
    + intros (f & Hf & ->). apply in_plain_flat in Hf. destruct Hf; [left|right]; eauto.
  - cbn [struct_embedded]. remember (filter plain (kept fs)) as l eqn:Hl. clear Hl.
    destruct l as [|f [|g r]]; [discriminate| |].
    + simpl. intros H; injection H as <-. intros c. rewrite calls_sfield_type. simpl.
      split; [intros [<-|[]]; eauto|intros (h & [<-|[]] & ->); auto].
    + intros H. assert (H' : ps = [Lit "["] ++ join ", " (map sfield_type (map (mk_sf StTuple false) (f :: g :: r))) ++ [Lit "]"]).
      { change (map (mk_sf StTuple false) (f :: g :: r)) with (mk_sf StTuple false f :: mk_sf StTuple false g :: map (mk_sf StTuple false) r) in *.
        cbv iota in H. congruence. }
      clear H. subst ps. intros c.
      rewrite !calls_app, calls_join, calls_sfields_type, map_map.
      rewrite !in_app_iff, in_map_iff. simpl. split.
      * intros [[]|[(h & <- & Hh)|[]]]. eauto.
      * intros (h & Hh & ->). right; left. eauto.
  - discriminate.
Qed.

Lemma embedded_struct d st tr fs : d_body d = BStruct st tr fs ->
  embedded d = struct_embedded st tr fs.
Proof. unfold embedded. intros ->. destruct tr, st; reflexivity. Qed.

Lemma embedded_enum d tg vs : d_body d = BEnum tg vs ->
  embedded d = flat_map var_fields (kept_variants vs).
Proof. unfold embedded. intros ->. reflexivity. Qed.

(** The calls of a derived type's functions. *)
Lemma derive_calls d im : derive d = Done im ->
  match d_from d with
  | None =>
      (forall c, In c (calls (i_schema im)) <-> exists f, In f (embedded d) /\ c = (InlineSchema, f_ty f)) /\
      calls (i_inline_schema im) = [] /\
      (forall c, In c (calls (i_type_def im)) <-> exists f, In f (embedded d) /\ c = (Inline, f_ty f)) /\
      calls (i_inline im) = []
  | Some t =>
      calls (i_inline im) = [(Inline, t)] /\
      match d_body d with
      | BStruct _ _ _ =>
          calls (i_schema im) = [(InlineSchema, t)] /\ calls (i_inline_schema im) = [] /\
          calls (i_type_def im) = [(Inline, t)]
      | BEnum _ _ =>
          calls (i_schema im) = [(Schema, t)] /\ calls (i_inline_schema im) = [(InlineSchema, t)] /\
          calls (i_type_def im) = [(TypeDef, t)]
      end
  end.
Proof.
  unfold derive. destruct (d_body d) as [st tr fs|tg vs] eqn:Hb.
  - intros H. unfold derive_struct in H. destruct st eqn:Hst; [| |discriminate];
    (destruct (struct_schema _ tr _) as [sch| | |] eqn:Hs in H; try discriminate;
     cbn [obind] in H;
     destruct (struct_type _ tr _) as [td| | |] eqn:Ht in H; try discriminate;
     cbn [obind] in H; injection H as <-;
     destruct (d_from d); cbn [i_schema i_inline_schema i_type_def i_inline]; [auto|];
     rewrite (embedded_struct d _ _ _ Hb); repeat split;
     first [ now apply (calls_struct_schema _ _ _ _ Hs) | now apply (calls_struct_type _ _ _ _ Ht)]).
  - unfold derive_enum. intros H.
    destruct (enum_schema tg (filter (fun v => negb (v_skip v)) vs)) as [sch| | |] eqn:Hs; try discriminate.
    cbn [obind] in H.
    destruct (enum_type tg (filter (fun v => negb (v_skip v)) vs)) as [td| | |] eqn:Ht; try discriminate.
    cbn [obind] in H. injection H as <-.
    destruct (d_from d); cbn [i_schema i_inline_schema i_type_def i_inline]; [auto|].
    rewrite (embedded_enum d _ _ Hb). unfold kept_variants.
    apply calls_enum_schema in Hs. apply calls_enum_type in Ht. rewrite Hs, Ht.
    repeat split; try (rewrite in_map_iff; intros (f & <- & Hf); eauto);
    intros (f & Hf & ->); apply in_map_iff; eauto.
Qed.

Definition enc_s (x : node) : query * ty :=
  match x with Full t => (Schema, t) | Inl t => (InlineSchema, t) end.
Definition enc_t (x : node) : query * ty :=
  match x with Full t => (TypeDef, t) | Inl t => (Inline, t) end.

Ltac inv H := inversion H; subst; clear H.

Lemma succ_schema E (HE : compiles E) x c :
  In c (succ E (enc_s x)) <-> exists y, c = enc_s y /\ schema_needs E x y.
Proof.
  destruct x as [t|t]; unfold succ; cbn [enc_s fst snd].
  - destruct t as [p|ts|w t|t|n t|[|] t|[|] k v|t|t e|i]; cbn [expand builtin_schema];
    try (simpl; split;
      [ intros H; repeat destruct H as [<-|H]; try contradiction;
        first [ eexists (Full _); split; [reflexivity|now constructor]
              | eexists (Inl _); split; [reflexivity|now constructor] ]
      | intros (y & -> & Hy); inv Hy; simpl; auto ]; fail).
    + rewrite !calls_app, calls_join, flat_map_map. simpl. rewrite app_nil_r.
      rewrite flat_map_single, in_map_iff. split.
      * intros (t & <- & Ht). exists (Full t). split; [reflexivity|now constructor].
      * intros (y & -> & Hy). inv Hy. simpl. eauto.
    + destruct (HE i) as [im Him]. rewrite Him.
      pose proof (derive_calls _ _ Him) as Hd.
      destruct (d_from (lookup E i)) as [t|] eqn:Hf.
      * destruct Hd as [_ Hd].
        destruct (d_body (lookup E i)) eqn:Hb; destruct Hd as (-> & _ & _); simpl; split.
        -- intros [<-|[]]. exists (Inl t). split; [reflexivity|].
           apply sn_from_struct; auto. unfold is_struct; now rewrite Hb.
        -- intros (y & -> & Hy). inv Hy; try congruence.
           ++ left. simpl. congruence.
           ++ exfalso. match goal with H : ~ is_struct _ |- _ => apply H end. unfold is_struct; now rewrite Hb.
        -- intros [<-|[]]. exists (Full t). split; [reflexivity|].
           apply sn_from_enum; auto. unfold is_struct; now rewrite Hb.
        -- intros (y & -> & Hy). inv Hy; try congruence.
           ++ exfalso. match goal with H : is_struct _ |- _ => unfold is_struct in H; now rewrite Hb in H end.
           ++ left. simpl. congruence.
      * destruct Hd as (Hd & _). rewrite Hd. split.
        -- intros (f & Hin & ->). exists (Inl (f_ty f)). split; [reflexivity|now constructor].
        -- intros (y & -> & Hy). inv Hy; try congruence. eauto.
  - assert (Hb : (exists i, t = TNamed i) \/ (~ is_named t /\ expand E InlineSchema t = Some [Call Schema t])).
    { destruct t; try (right; split; [intros [j Hj]; discriminate|reflexivity]). left; eauto. }
    destruct Hb as [[i ->]|[Hn ->]].
    + cbn [expand]. destruct (HE i) as [im Him]. rewrite Him.
      pose proof (derive_calls _ _ Him) as Hd.
      destruct (d_from (lookup E i)) as [t|] eqn:Hf.
      * destruct Hd as [_ Hd].
        destruct (d_body (lookup E i)) eqn:Hb; destruct Hd as (_ & -> & _); simpl; split.
        -- intros [].
        -- intros (y & -> & Hy). inv Hy.
           ++ match goal with H : ~ is_named _ |- _ => apply H; now exists i end.
           ++ match goal with H : ~ is_struct _ |- _ => apply H end. unfold is_struct; now rewrite Hb.
        -- intros [<-|[]]. exists (Inl t). split; [reflexivity|].
           apply sn_from_enum_inl; auto. unfold is_struct; now rewrite Hb.
        -- intros (y & -> & Hy). inv Hy.
           ++ match goal with H : ~ is_named _ |- _ => exfalso; apply H; now exists i end.
           ++ left. simpl. congruence.
      * destruct Hd as (_ & Hd & _). rewrite Hd. simpl. split; [intros []|].
        intros (y & -> & Hy). inv Hy; try congruence.
        match goal with H : ~ is_named _ |- _ => apply H; now exists i end.
    + simpl. split.
      * intros [<-|[]]. exists (Full t). split; [reflexivity|now constructor].
      * intros (y & -> & Hy). inv Hy; auto. destruct Hn. now exists i.
Qed.

Lemma succ_type E (HE : compiles E) x c :
  In c (succ E (enc_t x)) <-> exists y, c = enc_t y /\ type_needs E x y.
Proof.
  destruct x as [t|t]; unfold succ; cbn [enc_t fst snd].
  - destruct t as [p|ts|w t|t|n t|[|] t|[|] k v|t|t e|i]; cbn [expand builtin_type];
    try (simpl; split;
      [ intros H; repeat destruct H as [<-|H]; try contradiction;
        first [ eexists (Full _); split; [reflexivity|now constructor]
              | eexists (Inl _); split; [reflexivity|now constructor] ]
      | intros (y & -> & Hy); inv Hy; simpl; auto ]; fail).
    + rewrite !calls_app, calls_join, flat_map_map. simpl. rewrite app_nil_r.
      rewrite flat_map_single, in_map_iff. split.
      * intros (t & <- & Ht). exists (Full t). split; [reflexivity|now constructor].
      * intros (y & -> & Hy). inv Hy. simpl. eauto.
    + destruct (HE i) as [im Him]. rewrite Him.
      pose proof (derive_calls _ _ Him) as Hd.
      destruct (d_from (lookup E i)) as [t|] eqn:Hf.
      * destruct Hd as [_ Hd].
        destruct (d_body (lookup E i)) eqn:Hb; destruct Hd as (_ & _ & ->); simpl; split.
        -- intros [<-|[]]. exists (Inl t). split; [reflexivity|].
           apply tn_from_struct; auto. unfold is_struct; now rewrite Hb.
        -- intros (y & -> & Hy). inv Hy; try congruence.
           ++ left. simpl. congruence.
           ++ exfalso. match goal with H : ~ is_struct _ |- _ => apply H end. unfold is_struct; now rewrite Hb.
        -- intros [<-|[]]. exists (Full t). split; [reflexivity|].
           apply tn_from_enum; auto. unfold is_struct; now rewrite Hb.
        -- intros (y & -> & Hy). inv Hy; try congruence.
           ++ exfalso. match goal with H : is_struct _ |- _ => unfold is_struct in H; now rewrite Hb in H end.
           ++ left. simpl. congruence.
      * destruct Hd as (_ & _ & Hd & _). rewrite Hd. split.
        -- intros (f & Hin & ->). exists (Inl (f_ty f)). split; [reflexivity|now constructor].
        -- intros (y & -> & Hy). inv Hy; try congruence. eauto.
  - assert (Hb : (exists i, t = TNamed i) \/ (~ is_named t /\ expand E Inline t = Some [Call TypeDef t])).
    { destruct t; try (right; split; [intros [j Hj]; discriminate|reflexivity]). left; eauto. }
    destruct Hb as [[i ->]|[Hn ->]].
    + cbn [expand]. destruct (HE i) as [im Him]. rewrite Him.
      pose proof (derive_calls _ _ Him) as Hd.
      destruct (d_from (lookup E i)) as [t|] eqn:Hf.
      * destruct Hd as [-> _]. simpl. split.
        -- intros [<-|[]]. exists (Inl t). split; [reflexivity|now apply tn_from_inl].
        -- intros (y & -> & Hy). inv Hy.
           ++ match goal with H : ~ is_named _ |- _ => exfalso; apply H; now exists i end.
           ++ left. simpl. congruence.
      * destruct Hd as (_ & _ & _ & Hd). rewrite Hd. simpl. split; [intros []|].
        intros (y & -> & Hy). inv Hy; try congruence.
        match goal with H : ~ is_named _ |- _ => apply H; now exists i end.
    + simpl. split.
      * intros [<-|[]]. exists (Full t). split; [reflexivity|now constructor].
      * intros (y & -> & Hy). inv Hy; auto. destruct Hn. now exists i.
Qed.

(** Transfer of cycles between the two descriptions of the graph. *)
Section Transfer.
  Context {A B : Type} (R : A -> A -> Prop) (S : B -> B -> Prop) (enc : A -> B).
  Hypothesis H : forall x c, S (enc x) c <-> exists y, c = enc y /\ R x y.

  Lemma tr_fwd x y : clos_trans A R x y -> clos_trans B S (enc x) (enc y).
  Proof.
    induction 1 as [x y He|x y z H1 IH1 H2 IH2]; [apply t_step, H; eauto|eapply t_trans; eauto].
  Qed.
  Lemma tr_bwd a c : clos_trans B S a c -> forall x, a = enc x ->
    exists y, c = enc y /\ clos_trans A R x y.
  Proof.
    induction 1 as [a c He|a b c H1 IH1 H2 IH2]; intros x ->.
    - apply H in He. destruct He as (y & -> & Hy). exists y. split; auto. now apply t_step.
    - destruct (IH1 x eq_refl) as (y & -> & Hy). destruct (IH2 y eq_refl) as (z & -> & Hz).
      exists z. split; auto. eapply t_trans; eauto.
  Qed.
  Lemma rtr_fwd x y : clos_refl_trans A R x y -> clos_refl_trans B S (enc x) (enc y).
  Proof.
    induction 1 as [x y He|x|x y z H1 IH1 H2 IH2];
    [apply rt_step, H; eauto|apply rt_refl|eapply rt_trans; eauto].
  Qed.
  Lemma rtr_bwd a c : clos_refl_trans B S a c -> forall x, a = enc x ->
    exists y, c = enc y /\ clos_refl_trans A R x y.
  Proof.
    induction 1 as [a c He|a|a b c H1 IH1 H2 IH2]; intros x ->.
    - apply H in He. destruct He as (y & -> & Hy). exists y. split; auto. now apply rt_step.
    - exists x. split; auto. apply rt_refl.
    - destruct (IH1 x eq_refl) as (y & -> & Hy). destruct (IH2 y eq_refl) as (z & -> & Hz).
      exists z. split; auto. eapply rt_trans; eauto.
  Qed.
  Hypothesis enc_inj : forall x y, enc x = enc y -> x = y.
  Lemma cyc_iff x : (exists y, clos_refl_trans A R x y /\ clos_trans A R y y) <->
    (exists c, clos_refl_trans B S (enc x) c /\ clos_trans B S c c).
  Proof.
    split.
    - intros (y & H1 & H2). exists (enc y). split; [now apply rtr_fwd|now apply tr_fwd].
    - intros (c & H1 & H2). destruct (rtr_bwd _ _ H1 x eq_refl) as (y & -> & Hy).
      destruct (tr_bwd _ _ H2 y eq_refl) as (z & Hz & Hyz). apply enc_inj in Hz. subst z. eauto.
  Qed.
End Transfer.

Lemma enc_s_inj x y : enc_s x = enc_s y -> x = y.
Proof. destruct x, y; simpl; congruence. Qed.
Lemma enc_t_inj x y : enc_t x = enc_t y -> x = y.
Proof. destruct x, y; simpl; congruence. Qed.

(** ** The finite universe *)
Lemma mentions_self t : In t (mentions t).
Proof. destruct t; simpl; auto. Qed.

Lemma mentions_trans t : forall u v, In u (mentions t) -> In v (mentions u) -> In v (mentions t).
Proof.
  induction t using ty_ind'; intros u x Hu Hx; simpl in Hu.
  - destruct Hu as [<-|[]]; auto.
  - destruct Hu as [<-|Hu]; auto. simpl. right.
    apply in_flat_map in Hu. destruct Hu as (y & Hy & Hu). apply in_flat_map.
    exists y. split; auto. rewrite Forall_forall in H. eapply H; eauto.
  - destruct Hu as [<-|Hu]; auto. simpl; right; eauto.
  - destruct Hu as [<-|Hu]; auto. simpl; right; eauto.
  - destruct Hu as [<-|[<-|Hu]]; auto.
    + simpl in *. destruct Hx as [<-|Hx]; auto.
    + simpl. right; right; eauto.
  - destruct Hu as [<-|Hu]; auto. apply in_app_iff in Hu. simpl. right. apply in_app_iff.
    destruct Hu as [Hu|Hu]; [|right; eauto].
    destruct c; [destruct Hu|]. destruct Hu as [<-|[]]. simpl in Hx.
    destruct Hx as [<-|Hx]; [left; left; auto|right; auto].
  - destruct Hu as [<-|Hu]; auto. rewrite !in_app_iff in Hu. simpl. right. rewrite !in_app_iff.
    destruct Hu as [Hu|[Hu|Hu]]; [|right; left; eauto|right; right; eauto].
    destruct c; [destruct Hu|]. destruct Hu as [<-|[]]. simpl in Hx.
    destruct Hx as [<-|Hx]; [left; left; auto|]. rewrite in_app_iff in Hx. tauto.
  - destruct Hu as [<-|Hu]; auto. simpl; right; eauto.
  - destruct Hu as [<-|Hu]; auto. rewrite in_app_iff in Hu. simpl. right. rewrite in_app_iff.
    destruct Hu; eauto.
  - destruct Hu as [<-|[]]; auto.
Qed.

Lemma mentioned_trans E t u v : In u (mentioned E t) -> In v (mentions u) -> In v (mentioned E t).
Proof.
  unfold mentioned. rewrite !in_app_iff, !in_flat_map. intros [H|(d & Hd & H)] Hv.
  - left. eapply mentions_trans; eauto.
  - right. exists d. split; auto. rewrite in_flat_map in *. destruct H as (x & Hx & H).
    exists x. split; auto. eapply mentions_trans; eauto.
Qed.

Lemma embedded_in d f : In f (embedded d) -> In (f_ty f) (decl_types d).
Proof.
  unfold decl_types. intros H. apply in_app_iff. right. unfold embedded in H.
  destruct (d_body d) as [st tr fs|tg vs].
  - assert (Hf : In f fs).
    { assert (Hk : In f (kept fs) -> In f fs) by (unfold kept; rewrite filter_In; tauto).
      assert (Hp : In f (filter plain (kept fs)) -> In f fs) by (rewrite filter_In; tauto).
      assert (H1 : In f (firstn 1 (filter plain (kept fs))) -> In f fs).
      { intros H1. apply Hp. destruct (filter plain (kept fs)); [destruct H1|].
        destruct H1 as [->|[]]. now left. }
      destruct st, tr; auto. }
    now apply in_map.
  - apply in_flat_map in H. destruct H as (v & Hv & H). apply in_flat_map.
    apply filter_In in Hv. exists v. split; [tauto|].
    destruct (v_style v); [| |destruct H]; apply filter_In in H; apply in_map; tauto.
Qed.

Lemma decl_types_mentioned E t i u : In u (decl_types (lookup E i)) -> In u (mentioned E t).
Proof.
  intros H. unfold mentioned. apply in_app_iff. right.
  unfold lookup in H. destruct (nth_in_or_default i E dummy_decl) as [Hi|Hi].
  - apply in_flat_map. exists (nth i E dummy_decl). split; auto.
    apply in_flat_map. exists u. split; auto. apply mentions_self.
  - rewrite Hi in H. destruct H.
Qed.

Lemma from_mentioned E t i u : d_from (lookup E i) = Some u -> In u (mentioned E t).
Proof.
  intros H. apply (decl_types_mentioned E t i). unfold decl_types. rewrite H. now left.
Qed.

Definition node_ty (x : node) : ty := match x with Full t => t | Inl t => t end.

Lemma schema_needs_mentions E x y : schema_needs E x y -> forall t0,
  In (node_ty x) (mentioned E t0) -> In (node_ty y) (mentioned E t0).
Proof.
  intros H t0 Hx.
  assert (Hm : In (node_ty y) (mentions (node_ty x)) -> In (node_ty y) (mentioned E t0)).
  { intros Hm. eapply mentioned_trans; eauto. }
  destruct H; simpl in *;
  try (apply Hm; clear Hm; simpl; rewrite ?in_app_iff; auto using mentions_self; fail).
  - apply Hm. right. apply in_flat_map. exists t. split; auto using mentions_self.
  - apply (decl_types_mentioned E t0 i). now apply embedded_in.
  - eapply from_mentioned; eauto.
  - eapply from_mentioned; eauto.
  - eapply from_mentioned; eauto.
Qed.

Lemma type_needs_mentions E x y : type_needs E x y -> forall t0,
  In (node_ty x) (mentioned E t0) -> In (node_ty y) (mentioned E t0).
Proof.
  intros H t0 Hx.
  assert (Hm : In (node_ty y) (mentions (node_ty x)) -> In (node_ty y) (mentioned E t0)).
  { intros Hm. eapply mentioned_trans; eauto. }
  destruct H; simpl in *;
  try (apply Hm; clear Hm; simpl; rewrite ?in_app_iff; auto using mentions_self; fail).
  - apply Hm. right. apply in_flat_map. exists t. split; auto using mentions_self.
  - apply (decl_types_mentioned E t0 i). now apply embedded_in.
  - eapply from_mentioned; eauto.
  - eapply from_mentioned; eauto.
  - eapply from_mentioned; eauto.
Qed.

Definition universe_s (E : env) (t : ty) : list (query * ty) :=
  list_prod [Schema; InlineSchema] (mentioned E t).
Definition universe_t (E : env) (t : ty) : list (query * ty) :=
  list_prod [TypeDef; Inline] (mentioned E t).

Lemma query_eq_dec (a b : query) : {a = b} + {a <> b}.
Proof. decide equality. Defined.
Lemma node_eq_dec (a b : query * ty) : {a = b} + {a <> b}.
Proof. decide equality; [apply ty_eq_dec|apply query_eq_dec]. Defined.

Lemma in_universe_s E t c : In c (universe_s E t) <-> exists x, c = enc_s x /\ In (node_ty x) (mentioned E t).
Proof.
  destruct c as [q u]. unfold universe_s. rewrite in_prod_iff. simpl. split.
  - intros [[<-|[<-|[]]] H]; [exists (Full u)|exists (Inl u)]; auto.
  - intros ([v|v] & He & H); simpl in He; injection He as -> ->; auto.
Qed.
Lemma in_universe_t E t c : In c (universe_t E t) <-> exists x, c = enc_t x /\ In (node_ty x) (mentioned E t).
Proof.
  destruct c as [q u]. unfold universe_t. rewrite in_prod_iff. simpl. split.
  - intros [[<-|[<-|[]]] H]; [exists (Full u)|exists (Inl u)]; auto.
  - intros ([v|v] & He & H); simpl in He; injection He as -> ->; auto.
Qed.

Lemma schema_term E t x : compiles E -> node_ty x = t ->
  ((exists s, gen E (depth E t) (fst (enc_s x)) t = Some s) \/ reaches_cycle (schema_needs E) x) /\
  (forall n s, gen E n (fst (enc_s x)) t = Some s -> ~ reaches_cycle (schema_needs E) x).
Proof.
  intros HE Hx.
  assert (Hcyc : reaches_cycle (schema_needs E) x <-> cycle_from (succ E) (enc_s x)).
  { unfold reaches_cycle, cycle_from.
    apply (cyc_iff (schema_needs E) (edge (succ E)) enc_s); [|apply enc_s_inj].
    intros y c. apply succ_schema; auto. }
  assert (Henc : (fst (enc_s x), t) = enc_s x) by (destruct x; simpl in *; congruence).
  split.
  - assert (Hl : depth E t = S (S (List.length (universe_s E t)))).
    { unfold depth, universe_s. rewrite prod_length. simpl. lia. }
    destruct (descends_or_cycle node_eq_dec (succ E) (universe_s E t) (enc_s x)) as [H|H].
    + intros c Hin z Hz. apply in_universe_s in Hin. destruct Hin as (y & -> & Hy).
      apply succ_schema in Hz; auto. destruct Hz as (w & -> & Hw).
      apply in_universe_s. exists w. split; auto. eapply schema_needs_mentions; eauto.
    + apply in_universe_s. exists x. split; auto. rewrite Hx. unfold mentioned.
      apply in_app_iff. left. apply mentions_self.
    + left. apply gen_descends; auto. now rewrite Henc, Hl.
    + right. now apply Hcyc.
  - intros n s Hs. rewrite Hcyc. apply (descends_acyclic (succ E) n).
    rewrite <- Henc. apply gen_descends; eauto.
Qed.

Lemma type_term E t x : compiles E -> node_ty x = t ->
  ((exists s, gen E (depth E t) (fst (enc_t x)) t = Some s) \/ reaches_cycle (type_needs E) x) /\
  (forall n s, gen E n (fst (enc_t x)) t = Some s -> ~ reaches_cycle (type_needs E) x).
Proof.
  intros HE Hx.
  assert (Hcyc : reaches_cycle (type_needs E) x <-> cycle_from (succ E) (enc_t x)).
  { unfold reaches_cycle, cycle_from.
    apply (cyc_iff (type_needs E) (edge (succ E)) enc_t); [|apply enc_t_inj].
    intros y c. apply succ_type; auto. }
  assert (Henc : (fst (enc_t x), t) = enc_t x) by (destruct x; simpl in *; congruence).
  split.
  - assert (Hl : depth E t = S (S (List.length (universe_t E t)))).
    { unfold depth, universe_t. rewrite prod_length. simpl. lia. }
    destruct (descends_or_cycle node_eq_dec (succ E) (universe_t E t) (enc_t x)) as [H|H].
    + intros c Hin z Hz. apply in_universe_t in Hin. destruct Hin as (y & -> & Hy).
      apply succ_type in Hz; auto. destruct Hz as (w & -> & Hw).
      apply in_universe_t. exists w. split; auto. eapply type_needs_mentions; eauto.
    + apply in_universe_t. exists x. split; auto. rewrite Hx. unfold mentioned.
      apply in_app_iff. left. apply mentions_self.
    + left. apply gen_descends; auto. now rewrite Henc, Hl.
    + right. now apply Hcyc.
  - intros n s Hs. rewrite Hcyc. apply (descends_acyclic (succ E) n).
    rewrite <- Henc. apply gen_descends; eauto.
Qed.
