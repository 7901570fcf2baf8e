(** Parsing with generated schemas: fuel, termination. *)
From Coq Require Import List String Ascii Bool NArith ZArith Lia.
From Verif Require Import RustTy Gen GenSpec GenProofs JsLex JsParse Js Zod Ast AstProofs ZodProofs ZodSpec ZodLoad ZGen
  SerdeSpec SerdeProofs ParseSpec.
Import ListNotations.
Local Open Scope string_scope.
Local Open Scope list_scope.

(** ** More fuel does not change an answer *)
Definition le_res (a b : pres) : Prop := a = PFuel \/ a = b.
Definition le_lres (a b : lres) : Prop := a = LFuel \/ a = b.

Lemma le_refl r : le_res r r. Proof. now right. Qed.

Lemma collect_mono l l' : Forall2 le_res l l' -> le_lres (collect l) (collect l').
Proof.
  induction 1 as [|a b l l' [->| ->] _ IH]; [now right|now left|].
  destruct b; cbn [collect]; [| |now right|now right].
  - destruct IH as [->| ->]; [now left|now right].
  - destruct IH as [->| ->]; [now left|now right].
Qed.

Lemma lmap_mono f a b : le_lres a b -> le_res (lmap f a) (lmap f b).
Proof. intros [->| ->]; [now left|now right]. Qed.

Lemma first_mono l l' : Forall2 le_res l l' -> le_res (first_ok l) (first_ok l').
Proof.
  induction 1 as [|a b l l' [->| ->] _ IH]; [now right|now left|].
  destruct b; cbn [first_ok]; [now right|exact IH|now right|now right].
Qed.

Lemma map_mono {A} (f g : A -> pres) l : (forall a, le_res (f a) (g a)) -> Forall2 le_res (map f l) (map g l).
Proof. intros H. induction l; constructor; auto. Qed.

Lemma zparse_S ip M k : forall z v, le_res (zparse ip M k z v) (zparse ip M (S k) z v).
Proof.
  induction k as [|k IH]; intros z v; [now left|].
  remember (S k) as m. rewrite Heqm at 1. cbn [zparse].
  assert (Hc : forall z l, le_lres (collect (map (zparse ip M k z) l)) (collect (map (zparse ip M m z) l))).
  { intros. apply collect_mono, map_mono. auto. }
  destruct z; try apply le_refl.
  - destruct v; try apply le_refl. apply lmap_mono, Hc.
  - destruct v; try apply le_refl. apply lmap_mono, Hc.
  - destruct v; try apply le_refl.
    assert (H1 : le_lres (collect (map (fun p => zparse ip M k z1 (fst p)) l)) (collect (map (fun p => zparse ip M m z1 (fst p)) l))).
    { apply collect_mono, map_mono. auto. }
    assert (H2 : le_lres (collect (map (fun p => zparse ip M k z2 (snd p)) l)) (collect (map (fun p => zparse ip M m z2 (snd p)) l))).
    { apply collect_mono, map_mono. auto. }
    destruct H1 as [->| ->], H2 as [->| ->]; try apply le_refl; try (now left);
      destruct (collect _); try (now left); try apply le_refl.
    all: destruct (collect _); try (now left); try apply le_refl.
  - destruct v; try apply le_refl. destruct (Nat.ltb _ _); [apply le_refl|].
    assert (H : le_lres (collect (map (fun p => zparse ip M k (fst p) (snd p)) (combine zs l)))
                        (collect (map (fun p => zparse ip M m (fst p) (snd p)) (combine zs l)))).
    { apply collect_mono, map_mono. auto. }
    destruct H as [->| ->]; [now left|apply le_refl].
  - destruct v; try apply le_refl. apply lmap_mono, collect_mono, map_mono. auto.
  - apply first_mono, map_mono. auto.
  - destruct v; try apply le_refl. destruct (disc_get _); [|apply le_refl]. destruct (find _ _) as [[]|]; [apply IH|apply le_refl].
  - destruct v; try apply le_refl; apply IH.
  - destruct (M ns name); [apply IH|apply le_refl].
Qed.

Lemma zparse_mono ip M k k' z v : k <= k' -> le_res (zparse ip M k z v) (zparse ip M k' z v).
Proof.
  induction 1 as [|k' _ IH]; [apply le_refl|]. destruct IH as [H|H]; [now left|]. rewrite H. apply zparse_S.
Qed.

(** ** Answers *)
Section Answers.
Context (ip : option string -> jstr -> bool) (M : menv).
Notation zparse := (zparse ip M).

Definition okr (r : pres) : Prop := (exists o, r = POk o) \/ r = PErr.
Definition ans (z : zod) (v : jsval) : Prop := exists k, okr (zparse k z v).

Lemma okr_mono k k' z v : k <= k' -> okr (zparse k z v) -> okr (zparse k' z v).
Proof.
  intros Hk H. destruct (zparse_mono ip M k k' z v Hk) as [E|E]; [|now rewrite <- E].
  rewrite E in H. destruct H as [[o H]|H]; discriminate H.
Qed.

Lemma ok_mono k k' z v o : k <= k' -> zparse k z v = POk o -> zparse k' z v = POk o.
Proof. intros Hk H. destruct (zparse_mono ip M k k' z v Hk) as [E|E]; congruence. Qed.

Lemma ans_answers z v : ans z v <-> answers ip M z v.
Proof.
  split.
  - intros [k [[o H]|H]]; [left; exists o; now exists k|right; now exists k].
  - intros [[o [k H]]|[k H]]; exists k; [left; eauto|now right].
Qed.

Lemma ans_all {A} (f : A -> zod) (g : A -> jsval) l : (forall a, In a l -> ans (f a) (g a)) ->
  exists k, forall a, In a l -> okr (zparse k (f a) (g a)).
Proof.
  induction l as [|a l IH]; intros H; [now exists 0|].
  destruct (H a (or_introl eq_refl)) as [k1 H1]. destruct IH as [k2 H2]; [intros b Hb; apply H; now right|].
  exists (Nat.max k1 k2). intros b [<-|Hb]; [apply (okr_mono k1); auto; lia|].
  apply (okr_mono k2); [lia|]. now apply H2.
Qed.

Lemma ok_all {A} (f : A -> zod) (g : A -> jsval) l : (forall a, In a l -> exists k o, zparse k (f a) (g a) = POk o) ->
  exists k, forall a, In a l -> exists o, zparse k (f a) (g a) = POk o.
Proof.
  induction l as [|a l IH]; intros H; [now exists 0|].
  destruct (H a (or_introl eq_refl)) as [k1 [o1 H1]]. destruct IH as [k2 H2]; [intros b Hb; apply H; now right|].
  exists (Nat.max k1 k2). intros b [<-|Hb]; [exists o1; apply (ok_mono k1); auto; lia|].
  destruct (H2 b Hb) as [o Ho]. exists o. apply (ok_mono k2); [lia|exact Ho].
Qed.

Lemma collect_okr {A} (f : A -> pres) l : (forall a, In a l -> okr (f a)) ->
  collect (map f l) = LErr \/ exists os, collect (map f l) = LOk os.
Proof.
  induction l as [|a l IH]; intros H; [right; now exists []|].
  destruct IH as [E|[os E]]; [intros b Hb; apply H; now right| |]; cbn [map collect]; rewrite E;
    destruct (H a (or_introl eq_refl)) as [[o ->]| ->]; eauto.
Qed.

Lemma collect_all {A} (f : A -> pres) l : (forall a, In a l -> exists o, f a = POk o) ->
  exists os, collect (map f l) = LOk os.
Proof.
  induction l as [|a l IH]; intros H; [now exists []|].
  destruct IH as [os E]; [intros b Hb; apply H; now right|]. cbn [map collect]. rewrite E.
  destruct (H a (or_introl eq_refl)) as [o ->]. eauto.
Qed.

Lemma first_okr {A} (f : A -> pres) l : (forall a, In a l -> okr (f a)) -> okr (first_ok (map f l)).
Proof.
  induction l as [|a l IH]; intros H; [now right|]. cbn [map first_ok].
  destruct (H a (or_introl eq_refl)) as [[o ->]| ->]; [left; eauto|]. apply IH. intros b Hb. apply H. now right.
Qed.

Lemma first_hit {A} (f : A -> pres) l a o : (forall a, In a l -> okr (f a)) -> In a l -> f a = POk o ->
  exists o', first_ok (map f l) = POk o'.
Proof.
  induction l as [|b l IH]; intros H Hi Ho; [destruct Hi|]. cbn [map first_ok].
  destruct (H b (or_introl eq_refl)) as [[o' Hb]|Hb]; rewrite Hb; [eauto|].
  destruct Hi as [->|Hi]; [congruence|]. apply IH; auto. intros c Hc. apply H. now right.
Qed.

Lemma ans_err k z v : zparse k z v = PErr -> ans z v.
Proof. intros H. exists k. now right. Qed.

Lemma ans_array z v : (forall l, v = JsArr l -> forall x, In x l -> ans z x) -> ans (ZArray z) v.
Proof.
  intros H. destruct v; try (now apply (ans_err 1)).
  destruct (ans_all (fun _ => z) (fun x => x) l) as [k Hk]; [now apply H|]. exists (S k). cbn [Zod.zparse].
  destruct (collect_okr (zparse k z) l Hk) as [->|[os ->]]; [now right|left; eexists; reflexivity].
Qed.

Lemma ans_set z v : (forall l, v = JsSet l -> forall x, In x l -> ans z x) -> ans (ZSet z) v.
Proof.
  intros H. destruct v; try (now apply (ans_err 1)).
  destruct (ans_all (fun _ => z) (fun x => x) l) as [k Hk]; [now apply H|]. exists (S k). cbn [Zod.zparse].
  destruct (collect_okr (zparse k z) l Hk) as [->|[os ->]]; [now right|left; eexists; reflexivity].
Qed.

Lemma ans_map zk zv v : (forall l, v = JsMap l -> forall x, In x l -> ans zk (fst x) /\ ans zv (snd x)) -> ans (ZMap zk zv) v.
Proof.
  intros H. destruct v; try (now apply (ans_err 1)).
  destruct (ans_all (fun _ : jsval * jsval => zk) fst l) as [k1 Hk1]; [intros x Hx; now apply (H l)|].
  destruct (ans_all (fun _ : jsval * jsval => zv) snd l) as [k2 Hk2]; [intros x Hx; now apply (H l)|].
  exists (S (Nat.max k1 k2)). cbn [Zod.zparse].
  destruct (collect_okr (fun p => zparse (Nat.max k1 k2) zk (fst p)) l) as [->|[os ->]].
  { intros x Hx. apply (okr_mono k1); [lia|]. now apply Hk1. }
  all: destruct (collect_okr (fun p => zparse (Nat.max k1 k2) zv (snd p)) l) as [->|[os' ->]];
    try (intros x Hx; apply (okr_mono k2); [lia|]; now apply Hk2); try (now right).
  left. eexists. reflexivity.
Qed.

Lemma ans_tuple zs v : (forall l, v = JsArr l -> forall z x, In z zs -> In x l -> ans z x) -> ans (ZTuple zs) v.
Proof.
  intros H. destruct v; try (now apply (ans_err 1)).
  destruct (ans_all fst snd (combine zs l)) as [k Hk].
  { intros [z x] Hi. apply (H l eq_refl); [eapply in_combine_l|eapply in_combine_r]; exact Hi. }
  exists (S k). cbn [Zod.zparse]. destruct (Nat.ltb _ _); [now right|].
  destruct (collect_okr (fun p => zparse k (fst p) (snd p)) (combine zs l) Hk) as [->|[os ->]]; [now right|].
  destruct (Nat.ltb _ _); [now right|left; eauto].
Qed.

Lemma ans_object ps v : (forall l, v = JsObj l -> forall p, In p ps -> ans (snd p) (get_prop (fst p) l)) -> ans (ZObject ps) v.
Proof.
  intros H. destruct v; try (now apply (ans_err 1)).
  destruct (ans_all snd (fun p => get_prop (fst p) l) ps) as [k Hk]; [now apply H|].
  exists (S k). cbn [Zod.zparse].
  destruct (collect_okr (fun p => zparse k (snd p) (get_prop (fst p) l)) ps Hk) as [->|[os ->]]; [now right|].
  left. eexists. reflexivity.
Qed.

Lemma ans_union zs v : (forall z, In z zs -> ans z v) -> ans (ZUnion zs) v.
Proof.
  intros H. destruct (ans_all (fun z => z) (fun _ => v) zs) as [k Hk]; [exact H|].
  exists (S k). cbn [Zod.zparse]. now apply first_okr.
Qed.

Lemma ans_disc tag opts v : (forall d z, In (d, z) opts -> ans z v) -> ans (ZDisc tag opts) v.
Proof.
  intros H. destruct v; try (now apply (ans_err 1)).
  destruct (disc_get (get_prop tag l)) as [d|] eqn:Hd; [|apply (ans_err 1); cbn [Zod.zparse]; now rewrite Hd].
  destruct (find (fun o => val_eqb d (fst o)) opts) as [[d' z]|] eqn:Hf;
    [|apply (ans_err 1); cbn [Zod.zparse]; now rewrite Hd, Hf].
  apply find_some in Hf as Hi. destruct Hi as [Hi _]. destruct (H d' z Hi) as [k Hk].
  exists (S k). cbn [Zod.zparse]. now rewrite Hd, Hf.
Qed.

Lemma ans_optional z v : ans z v -> ans (ZOptional z) v.
Proof. intros [k Hk]. exists (S k). cbn [Zod.zparse]. destruct v; auto. left. eauto. Qed.

Lemma ans_zopt b z v : ans z v -> ans (zopt b z) v.
Proof. destruct b; [apply ans_optional|auto]. Qed.

Lemma ans_lazy ns name z v : M ns name = Some z -> ans z v -> ans (ZLazy ns name) v.
Proof. intros H [k Hk]. exists (S k). cbn [Zod.zparse]. now rewrite H. Qed.

Lemma ans_lit s v : ans (ZLit s) v.
Proof. exists 1. cbn [Zod.zparse]. destruct v; try (now right). destruct (jeqb _ _); [left; eauto|now right]. Qed.
Lemma ans_null v : ans ZNull v.
Proof. exists 1. cbn [Zod.zparse]. destruct v; try (now right). left; eauto. Qed.
Lemma ans_string cs v : ans (ZString cs) v.
Proof. exists 1. cbn [Zod.zparse]. destruct v; try (now right). destruct (forallb _ _); [left; eauto|now right]. Qed.
Lemma ans_number cs v : ans (ZNumber cs) v.
Proof. exists 1. cbn [Zod.zparse]. destruct v as [| | |[]| | | | | |]; try (now right); (destruct (forallb _ _); [left; eauto|now right]). Qed.

Lemma zprim_kind p z : zprim p = Some z -> (exists cs, z = ZString cs) \/ (exists cs, z = ZNumber cs) \/ z = ZNull.
Proof. destruct p as [|[]| | | | | | | |]; intros H; vm_compute in H; try discriminate H; injection H as <-; eauto. Qed.

Lemma ans_prim p z v : zprim p = Some z -> ans z v.
Proof.
  intros H. destruct (zprim_kind p z H) as [[cs ->]|[[cs ->]| ->]]; [apply ans_string|apply ans_number|apply ans_null].
Qed.

(** ** Sizes of values *)
Fixpoint vsize (v : jsval) : nat :=
  match v with
  | JsArr l | JsSet l => S (list_sum (map vsize l))
  | JsObj l => S (list_sum (map (fun p => vsize (snd p)) l))
  | JsMap l => S (list_sum (map (fun p => vsize (fst p) + vsize (snd p)) l))
  | _ => 0
  end.

Lemma sum_in {A} (f : A -> nat) l a : In a l -> f a <= list_sum (map f l).
Proof. induction l as [|b l IH]; [easy|]. change (list_sum (map f (b :: l))) with (f b + list_sum (map f l)). intros [->|H]; [lia|]. specialize (IH H). lia. Qed.

Lemma get_size k l : vsize (get_prop k l) < vsize (JsObj l).
Proof.
  unfold get_prop. destruct (prop (js k) l) as [v|] eqn:H.
  - apply prop_in in H. pose proof (sum_in (fun p => vsize (snd p)) l _ H). cbn [vsize snd] in *. lia.
  - destruct (inherited k); cbn; lia.
Qed.

Lemma arr_size x l : In x l -> vsize x < vsize (JsArr l).
Proof. intros H. pose proof (sum_in vsize l x H). cbn [vsize]. lia. Qed.
Lemma set_size x l : In x l -> vsize x < vsize (JsSet l).
Proof. intros H. pose proof (sum_in vsize l x H). cbn [vsize]. lia. Qed.
Lemma map_size p l : In p l -> vsize (fst p) < vsize (JsMap l) /\ vsize (snd p) < vsize (JsMap l).
Proof. intros H. pose proof (sum_in (fun p => vsize (fst p) + vsize (snd p)) l p H). cbn [vsize] in *. lia. Qed.
End Answers.

Lemma shape_in {A} (ps : list (string * A)) p : In p (shape ps) -> In p ps.
Proof.
  unfold shape. assert (H : forall ps acc, In p (fold_left (fun o p => oset o (fst p) (snd p)) ps acc) -> In p acc \/ In p ps).
  { clear ps. induction ps as [|[k a] ps IH]; intros acc H; [now left|]. cbn [fold_left fst snd] in H.
    apply IH in H as [H|H]; [|right; now right]. unfold oset in H. destruct (existsb _ acc).
    - apply in_map_iff in H as [[k' a'] [E Hi]]. destruct (key_eqb k (k', a')); [right; left; congruence|left; congruence].
    - apply in_app_or in H as [H|[H|[]]]; [now left|right; now left]. }
  intros Hp. now destruct (H ps [] Hp).
Qed.

Lemma fields_zs (g : field -> option zod) fs zs : all_some (map g fs) = Some zs ->
  forall z, In z zs -> exists f, In f fs /\ g f = Some z.
Proof.
  intros H. apply all_some_map in H. induction H as [|f z fs zs H _ IH]; [easy|]. intros y [<-|Hy].
  - exists f. split; [now left|exact H].
  - destruct (IH y Hy) as [f' [H1 H2]]. exists f'. split; [now right|exact H2].
Qed.

Lemma props_zs rec fs ps : all_some (map (prop_z rec) fs) = Some ps ->
  forall p, In p ps -> exists f, In f fs /\ field_z rec f = Some (snd p) /\ f_name f = fst p.
Proof.
  intros H. apply all_some_map in H. induction H as [|f z fs zs H _ IH]; [easy|]. intros y [<-|Hy].
  - exists f. split; [now left|]. unfold prop_z in H. destruct (field_z rec f); [|discriminate]. injection H as <-. auto.
  - destruct (IH y Hy) as [f' [H1 H2]]. exists f'. split; [now right|exact H2].
Qed.
