(** Validation soundness (proofs). *)
From Coq Require Import List String Ascii Bool NArith ZArith Lia.
From Verif Require Import RustTy Gen GenSpec GenProofs JsLex JsParse Js Zod Ast AstProofs ZodProofs ZodSpec ZodLoad
  ZGen Serde SerdeSpec SerdeMono.
Import ListNotations.
Local Open Scope string_scope.
Local Open Scope list_scope.

(** ** Results of zod parses *)
Lemma collect_ok rs os : collect rs = LOk os <-> rs = map POk os.
Proof.
  split.
  - revert os. induction rs as [|r rs IH]; intros os H; cbn in H.
    + now injection H as <-.
    + destruct r; try discriminate.
      * destruct (collect rs) as [vs| | |]; try discriminate. injection H as <-. cbn. now rewrite (IH vs).
      * destruct (collect rs); discriminate.
  - intros ->. induction os as [|o os IH]; cbn; [reflexivity|]. now rewrite IH.
Qed.

Lemma map_POk {A} (f : A -> pres) l os : map f l = map POk os <-> Forall2 (fun a o => f a = POk o) l os.
Proof.
  split.
  - revert os. induction l as [|a l IH]; intros [|o os] H; try discriminate; constructor.
    + now injection H.
    + apply IH. now injection H.
  - induction 1; cbn; congruence.
Qed.

Lemma lmap_ok f r o : lmap f r = POk o -> exists l, r = LOk l /\ o = f l.
Proof. destruct r; try discriminate. intros [= <-]. eauto. Qed.

Lemma first_ok_ok l o : first_ok l = POk o -> In (POk o) l.
Proof.
  induction l as [|r l IH]; [discriminate|]. destruct r; cbn; try discriminate.
  - intros [= ->]. now left.
  - intros H. right. now apply IH.
Qed.

Section Zp.
Context (ip : option string -> jstr -> bool) (M : menv).

Lemma zparse_defined : forall k z v o, zparse ip M k z v = POk o ->
  v <> JsFun /\ o <> JsFun /\ (v = JsUndef <-> o = JsUndef).
Proof.
  induction k as [|k IH]; intros z v o H; [discriminate|].
  destruct z; cbn [zparse] in H.
  - destruct v; try discriminate. destruct (forallb _ _); [|discriminate]. injection H as <-. easy.
  - destruct v as [| | |n| | | | | |]; try discriminate. destruct n; try discriminate;
      (destruct (forallb _ _); [|discriminate]); injection H as <-; easy.
  - destruct v; try discriminate. injection H as <-. easy.
  - destruct v; try discriminate. destruct (jeqb _ _); [|discriminate]. injection H as <-. easy.
  - destruct v; try discriminate. apply lmap_ok in H as [l' [_ ->]]. easy.
  - destruct v; try discriminate. apply lmap_ok in H as [l' [_ ->]]. easy.
  - destruct v; try discriminate. destruct (collect _); try discriminate; destruct (collect _); try discriminate.
    injection H as <-. easy.
  - destruct v; try discriminate. destruct (Nat.ltb _ _); [discriminate|]. destruct (collect _); try discriminate.
    destruct (Nat.ltb _ _); [discriminate|]. injection H as <-. easy.
  - destruct v; try discriminate. apply lmap_ok in H as [l' [_ ->]]. easy.
  - apply first_ok_ok, in_map_iff in H as [z [Hz _]]. now apply IH in Hz.
  - destruct v; try discriminate. destruct (disc_get _); [|discriminate]. destruct (find _ _) as [[? z]|]; [|discriminate].
    now apply IH in H.
  - destruct v; try (now apply IH in H). injection H as <-. easy.
  - destruct (M ns name); [|discriminate]. now apply IH in H.
  - discriminate.
Qed.
End Zp.

Lemma stringify_none v : stringify v = None -> v = JsUndef \/ v = JsFun.
Proof. intros H. destruct v; try discriminate H; [left|right]; reflexivity. Qed.

(** ** Properties of stringified objects *)
Lemma prop_cons {A} k p (l : list (jstr * A)) :
  prop k (p :: l) = if jeqb k (fst p) then Some (snd p) else prop k l.
Proof. unfold prop. cbn [find]. now destruct (jeqb k (fst p)). Qed.

Lemma prop_in {A} k (l : list (jstr * A)) a : prop k l = Some a -> In (k, a) l.
Proof.
  induction l as [|p l IH]; [discriminate|]. rewrite prop_cons. destruct (jeqb k (fst p)) eqn:Hk.
  - intros [= <-]. apply jeqb_eq in Hk. subst k. left. now destruct p.
  - intros H. right. now apply IH.
Qed.

Lemma prop_notin {A} k (l : list (jstr * A)) : ~ In k (map fst l) -> prop k l = None.
Proof.
  intros H. destruct (prop k l) as [a|] eqn:Hp; [|reflexivity]. apply prop_in in Hp.
  exfalso. apply H. apply (in_map fst) in Hp. exact Hp.
Qed.

Definition entries (l : list (jstr * jsval)) : list (jstr * json) :=
  flat_map (fun p => match stringify (snd p) with Some j => [(fst p, j)] | None => [] end) l.

Lemma stringify_obj l : stringify (JsObj l) = Some (JObj (entries l)).
Proof. reflexivity. Qed.

Lemma entries_keys l k : In k (map fst (entries l)) -> In k (map fst l).
Proof.
  unfold entries. rewrite !in_map_iff. intros [[k' j] [<- H]]. apply in_flat_map in H as [p [Hp H]].
  exists p. split; [|exact Hp]. destruct (stringify (snd p)); [|easy]. destruct H as [[= <- _]|[]]. reflexivity.
Qed.

Lemma prop_entries k l : NoDup (map fst l) ->
  prop k (entries l) = match prop k l with Some v => stringify v | None => None end.
Proof.
  induction l as [|p l IH]; intros Hn; [reflexivity|]. cbn [map] in Hn. inversion Hn as [|? ? H1 H2]; subst.
  cbn [entries flat_map]. fold (entries l). rewrite prop_cons.
  destruct (jeqb k (fst p)) eqn:Hk.
  - apply jeqb_eq in Hk. subst k. destruct (stringify (snd p)) as [j|].
    + cbn [app]. rewrite prop_cons. cbn. now rewrite jeqb_refl.
    + cbn [app]. apply prop_notin. intros H. now apply entries_keys in H.
  - destruct (stringify (snd p)) as [j|]; cbn [app]; [rewrite prop_cons; cbn; rewrite Hk|]; now apply IH.
Qed.

(** [merge] *)
Lemma merge_keys l ps os k : In k (map fst (merge l ps os)) -> In k (map (fun p => js (fst p)) ps).
Proof.
  revert os. induction ps as [|[k' z] ps IH]; intros [|o os]; cbn; try easy.
  destruct (negb (undefined o) || has_prop k' l); cbn.
  - intros [H|H]; [now left|right; eauto].
  - intros H. right. eauto.
Qed.

Lemma merge_nodup l ps os : NoDup (map fst ps) -> NoDup (map fst (merge l ps os)).
Proof.
  revert os. induction ps as [|[k z] ps IH]; intros [|o os] H; cbn; try constructor.
  cbn in H. inversion H as [|? ? H1 H2]; subst.
  destruct (negb (undefined o) || has_prop k l); cbn; [constructor|]; auto.
  intros Hi. apply merge_keys in Hi. apply in_map_iff in Hi as [p [Hp Hi]]. apply js_inj in Hp.
  apply H1. rewrite <- Hp. now apply in_map.
Qed.

Lemma prop_merge l ps : NoDup (map fst ps) -> forall os p o, In (p, o) (combine ps os) ->
  match prop (js (fst p)) (merge l ps os) with Some v => v | None => JsUndef end = o.
Proof.
  induction ps as [|[k z] ps IH]; intros Hn [|o' os] p o Hi; try easy.
  cbn [map fst] in Hn. inversion Hn as [|? ? H1 H2]; subst.
  assert (Hk : forall k', In k' (map fst ps) -> jeqb (js k') (js k) = false).
  { intros k' Hk. rewrite js_eqb. apply String.eqb_neq. intros ->. now apply H1. }
  cbn [combine In] in Hi. cbn [merge]. destruct Hi as [[= <- <-]|Hi].
  - cbn [fst]. destruct (negb (undefined o') || has_prop k l) eqn:Hu.
    + rewrite prop_cons. cbn. now rewrite jeqb_refl.
    + rewrite prop_notin.
      * apply orb_false_iff in Hu as [Hu _]. destruct o'; try discriminate. reflexivity.
      * intros Hi. apply merge_keys in Hi. apply in_map_iff in Hi as [p [Hp Hi]]. apply js_inj in Hp.
        apply H1. rewrite <- Hp. now apply in_map.
  - specialize (IH H2 os p o Hi). destruct (negb (undefined o') || has_prop k l); [|exact IH].
    rewrite prop_cons. cbn [fst]. rewrite Hk; [exact IH|]. apply in_combine_l in Hi. now apply in_map.
Qed.

Lemma sane_prop w k l : sane w (JsObj l) -> sane w (get_prop k l).
Proof.
  intros H. inversion H as [| | | | | |? _ _ Hl| | |]; subst. unfold get_prop. destruct (prop (js k) l) as [v|] eqn:Hp.
  - apply prop_in in Hp. rewrite Forall_forall in Hl. exact (Hl _ Hp).
  - destruct (inherited k); constructor.
Qed.

Lemma stringify_arr l : stringify (JsArr l) = Some (JArr (map stringify_elem l)).
Proof. reflexivity. Qed.

Lemma may_undef_missing E t raw wide inside : sound_ty raw wide inside t = true -> may_undef t = true ->
  exists m, missing E m t = true.
Proof.
  induction t using ty_ind'; intros Hs Hu; try discriminate.
  - cbn [may_undef] in Hu. destruct w; cbn [sound_ty] in Hs; try discriminate;
      destruct (IHt Hs Hu) as [m Hm]; exists (S m); rewrite missing_step; auto.
  - now exists 1.
Qed.

Lemma may_undef_null R E t raw wide inside : sound_ty raw wide inside t = true -> may_undef t = true ->
  exists m, de R E m t JNull = true.
Proof.
  induction t using ty_ind'; intros Hs Hu; try discriminate.
  - cbn [may_undef] in Hu. destruct w; cbn [sound_ty] in Hs; try discriminate;
      destruct (IHt Hs Hu) as [m Hm]; exists (S m); rewrite de_step; auto.
  - now exists 1.
Qed.

Lemma in_combine_Forall2 {A B} (P : A -> B -> Prop) l l' a b :
  Forall2 P l l' -> In (a, b) (combine l l') -> P a b.
Proof. induction 1; cbn; [easy|]. intros [[= <- <-]|H']; auto. Qed.

Lemma Forall2_in_l {A B} (P : A -> B -> Prop) l l' a :
  Forall2 P l l' -> In a l -> exists b, In (a, b) (combine l l') /\ P a b.
Proof.
  induction 1 as [|x y l l' H _ IH]; [easy|]. intros [->|Hi]; [exists y; cbn; auto|].
  destruct (IH Hi) as [b [H1 H2]]. exists b. cbn. auto.
Qed.

Lemma one_key {A} (k : jstr) (l : list (jstr * A)) a : NoDup (map fst l) ->
  Forall (fun q => In (fst q) [k]) l -> prop k l = Some a -> l = [(k, a)].
Proof.
  intros Hn Hf Hp. assert (Hk : forall q, In q l -> fst q = k).
  { intros q Hq. rewrite Forall_forall in Hf. destruct (Hf q Hq) as [H|[]]. now symmetry. }
  destruct l as [|[k1 a1] [|[k2 a2] r]]; [discriminate| |].
  - assert (H : k1 = k) by (apply (Hk (k1, a1)); now left). subst k1. rewrite prop_cons in Hp. cbn in Hp.
    rewrite jeqb_refl in Hp. now injection Hp as ->.
  - assert (H1 : k1 = k) by (apply (Hk (k1, a1)); now left).
    assert (H2 : k2 = k) by (apply (Hk (k2, a2)); right; now left). subst.
    cbn in Hn. inversion Hn as [|? ? H _]; subst. exfalso. apply H. now left.
Qed.

Lemma known_keys ks (l : list (jstr * json)) :
  Forall (fun q => In (fst q) (map js ks)) l -> known ks l = true.
Proof.
  intros H. unfold known. apply forallb_forall. intros q Hq. rewrite Forall_forall in H. specialize (H q Hq).
  apply in_map_iff in H as [k [Hk Hi]]. apply existsb_exists. exists k. split; [exact Hi|]. now apply jeqb_eq.
Qed.

Lemma by_name_nodup vs v : NoDup (map v_name (kept_variants vs)) -> In v (kept_variants vs) ->
  by_name vs (js (v_name v)) = Some v.
Proof.
  unfold by_name. induction (kept_variants vs) as [|w r IH]; [easy|]. cbn. intros Hn [->|Hi].
  - now rewrite jeqb_refl.
  - inversion Hn as [|? ? H1 H2]; subst. rewrite js_eqb. destruct (String.eqb_spec (v_name w) (v_name v)) as [He|_]; auto.
    exfalso. apply H1. rewrite He. now apply in_map.
Qed.

Lemma positional_kept fs : positional fs = true -> kept fs = fs.
Proof.
  unfold positional, kept. induction fs as [|f fs IH]; [reflexivity|]. cbn. rewrite !andb_true_iff.
  intros [[-> _] H]. now rewrite IH.
Qed.

Lemma sound_plain raw wide inside fs :
  forallb (sound_field raw wide inside) fs = true -> filter plain fs = fs /\ filter f_flatten fs = [].
Proof.
  induction fs as [|f fs IH]; [easy|]. cbn [forallb filter]. rewrite andb_true_iff. intros [H1 H2].
  destruct (IH H2) as [Ha Hb]. unfold sound_field in H1. apply andb_true_iff in H1 as [_ H1].
  unfold plain. rewrite H1. apply negb_true_iff in H1. rewrite H1. fold plain. now rewrite Ha, Hb.
Qed.

Lemma de_all2 R E {A} (f : A -> ty) l js' :
  Forall2 (fun a j => exists m, de R E m (f a) j = true) l js' ->
  exists m, Forall2 (fun a j => de R E m (f a) j = true) l js'.
Proof.
  induction 1 as [|a j l js' [m1 H1] _ [m2 H2]]; [exists 0; constructor|].
  exists (Nat.max m1 m2). constructor; [apply (de_mono R E m1); [lia|exact H1]|].
  clear H1. induction H2 as [|b i l js' H _ IH]; constructor; auto. apply (de_mono R E m2); [lia|exact H].
Qed.

Section Sound.
Context (R : rust) (E : env) (ip : option string -> jstr -> bool) (M : menv).
Context (raw wide : bool) (inside : nat -> bool).
Context (HS : sound raw wide inside E).
Context (HM : forall i, inside i = true -> exists n z, zgen E n Schema (TNamed i) = Some z /\
  M (d_ns (lookup E i)) (d_name (lookup E i)) = Some z).

Notation de := (de R E).
Notation missing := (missing E).
Notation zparse := (zparse ip M).
Notation sound_ty := (sound_ty raw wide inside).
Notation sound_field := (sound_field raw wide inside).
Notation sane := (sane wide).

Definition pick (v o : jsval) : jsval := if raw then v else o.

Lemma pick_defined k z v o : zparse k z v = POk o -> stringify (pick v o) = None -> v = JsUndef.
Proof.
  intros H Hn. apply zparse_defined in H as [H1 [H2 H3]]. unfold pick in Hn.
  destruct raw; apply stringify_none in Hn as [Hn|Hn]; try easy. now apply H3.
Qed.

Definition good (t : ty) (x : jsval) : Prop :=
  match stringify x with
  | Some j => exists m, de m t j = true
  | None => may_undef t = true
  end.

Definition fgood (f : field) (x : option json) : Prop :=
  match x with
  | Some j => exists m, de m (f_ty f) j = true
  | None => f_default f = true \/ may_undef (f_ty f) = true
  end.

Lemma good_elem t x : sound_ty t = true -> good t x -> exists m, de m t (stringify_elem x) = true.
Proof.
  intros Hs. unfold good, stringify_elem. destruct (stringify x); [auto|].
  now apply may_undef_null with (raw := raw) (wide := wide) (inside := inside).
Qed.

Definition P (k n : nat) : Prop := forall q t z v o, sq q -> sound_ty t = true -> sane v ->
  zgen E n q t = Some z -> zparse k z v = POk o -> good t (pick v o).

(** ** Objects *)
Lemma obj_parse k ps v o : NoDup (map fst ps) -> sane v -> zparse (S k) (ZObject ps) v = POk o ->
  exists l', stringify (pick v o) = Some (JObj l') /\ NoDup (map fst l') /\
    Forall (fun p => exists u o', sane u /\ zparse k (snd p) u = POk o' /\
                       prop (js (fst p)) l' = stringify (pick u o')) ps /\
    (raw = false -> Forall (fun q => In (fst q) (map (fun p => js (fst p)) ps)) l').
Proof.
  intros Hn Hs H. cbn [Zod.zparse] in H. destruct v as [| | | | | |l| | |]; try discriminate.
  apply lmap_ok in H as [os [Hc ->]]. apply collect_ok, map_POk in Hc.
  assert (Hl : NoDup (map fst l)) by (now inversion Hs).
  assert (Hu : forall m, NoDup (map fst m) -> NoDup (map fst (entries m))).
  { clear. induction m as [|p m IH]; intros H; [constructor|]. cbn in H. inversion H; subst.
    cbn [entries flat_map]. fold (entries m). destruct (stringify (snd p)); cbn; [|auto]. constructor; [|auto].
    intros Hi. now apply entries_keys in Hi. }
  exists (entries (if raw then l else merge l ps os)). split; [|split; [|split]].
  - unfold pick. destruct raw; apply stringify_obj.
  - apply Hu. destruct raw; [exact Hl|now apply merge_nodup].
  - apply Forall_forall. intros p Hp. destruct (Forall2_in_l _ _ _ p Hc Hp) as [o [Hi Ho]].
    exists (get_prop (fst p) l), o. split; [now apply sane_prop|]. split; [exact Ho|].
    rewrite prop_entries by (destruct raw; [exact Hl|now apply merge_nodup]).
    apply zparse_defined in Ho as [Ho1 [Ho2 Ho3]]. unfold pick. destruct raw.
    + unfold get_prop in *. destruct (prop (js (fst p)) l) as [v|]; [reflexivity|].
      destruct (inherited (fst p)); [easy|reflexivity].
    + pose proof (prop_merge l ps Hn os p o Hi) as Hm. destruct (prop _ _); [now subst|]. now rewrite <- Hm.
  - intros ->. apply Forall_forall. intros q Hq. apply (merge_keys l ps os). apply entries_keys. now apply in_map.
Qed.

Lemma read_named_ok cd deny fs l : forallb sound_field (kept fs) = true ->
  Forall (fun f => fgood f (prop (js (f_name f)) l)) (kept fs) ->
  (deny = true -> known (map f_name (kept fs)) l = true) ->
  exists m, read_named (de m) (missing m) cd deny fs l = true.
Proof.
  intros Hs Hf Hd. unfold read_named.
  assert (Hm : exists m, forallb (fun f => match prop (js (f_name f)) l with
     | Some j => de m (f_ty f) j | None => f_default f || cd || missing m (f_ty f) end) (kept fs) = true).
  { clear Hd. revert Hs. induction Hf as [|f r Hf _ IH]; intros Hs; [now exists 0|]. cbn [forallb] in Hs.
    apply andb_true_iff in Hs as [Hs1 Hs2]. destruct (IH Hs2) as [m Hm].
    unfold SerdeSpec.sound_field in Hs1. apply andb_true_iff in Hs1 as [Hs1 _].
    assert (H1 : exists m1, match prop (js (f_name f)) l with
       | Some j => de m1 (f_ty f) j | None => f_default f || cd || missing m1 (f_ty f) end = true).
    { unfold fgood in Hf. destruct (prop _ l); [exact Hf|]. destruct Hf as [Hf|Hf].
      - exists 0. now rewrite Hf.
      - destruct (may_undef_missing E _ _ _ _ Hs1 Hf) as [m1 H1]. exists m1. rewrite H1. apply orb_true_r. }
    destruct H1 as [m1 H1]. exists (Nat.max m m1). cbn [forallb]. apply andb_true_iff. split.
    - destruct (prop _ l).
      + apply (de_mono R E m1); [lia|exact H1].
      + rewrite orb_true_iff in *. destruct H1 as [H1|H1]; [now left|right]. apply (missing_mono E m1); [lia|exact H1].
    - revert Hm. apply forallb_mono. intros g. destruct (prop (js (f_name g)) l).
      + apply de_mono. lia.
      + rewrite !orb_true_iff. intros [Hg|Hg]; [now left|right]. apply (missing_mono E m); [lia|exact Hg]. }
  destruct Hm as [m Hm]. exists m. rewrite Hm. cbn. destruct deny; [|reflexivity]. cbn. now apply Hd.
Qed.

Lemma read_seq_ok cd fs l : positional fs = true ->
  Forall2 (fun f j => exists m, de m (f_ty f) j = true) fs l ->
  exists m, read_seq (de m) cd fs l = true.
Proof.
  intros Hp H. apply de_all2 in H as [m H]. exists m. revert Hp. induction H as [|f j fs l H _ IH]; intros Hp; [reflexivity|].
  cbn in Hp. apply andb_true_iff in Hp as [Hp1 Hp2]. apply andb_true_iff in Hp1 as [Hp1 _]. apply negb_true_iff in Hp1.
  cbn [read_seq]. rewrite Hp1, H. cbn. auto.
Qed.

Lemma shape_id {A} (fs : list field) (g : field -> option (string * A)) ps :
  (forall f p, g f = Some p -> fst p = f_name f) -> all_some (map g fs) = Some ps -> map fst ps = map f_name fs.
Proof.
  intros H Ha. apply all_some_map in Ha. induction Ha as [|f p fs ps Hf _ IH]; [reflexivity|]. cbn.
  f_equal; auto.
Qed.

Section Level.
Context (K n : nat).
Context (Hlt : forall k n, k < K -> P k n).
Context (Hle : P K n).

Lemma Ple k : k <= K -> P k n.
Proof. intros H. destruct (Nat.eq_dec k K) as [->|Hk]; [exact Hle|]. apply Hlt. lia. Qed.

Lemma newtype_good f z k u o : sound_field f = true -> f_default f = false -> sane u -> k <= K ->
  field_z (zgen E n) f = Some z -> zparse k z u = POk o -> good (f_ty f) (pick u o).
Proof.
  unfold SerdeSpec.sound_field, field_z. rewrite andb_true_iff. intros [Hs _] Hd Hu Hk Hz Ho.
  destruct (zgen E n InlineSchema (f_ty f)) as [y|] eqn:Hy; [|discriminate]. rewrite Hd in Hz. injection Hz as <-.
  apply (Ple k Hk InlineSchema (f_ty f) y u o); auto. now right.
Qed.

Lemma field_good f z k u o : sound_field f = true -> sane u -> k < K ->
  field_z (zgen E n) f = Some z -> zparse k z u = POk o -> fgood f (stringify (pick u o)).
Proof.
  intros Hs Hu Hk Hz Ho.
  assert (Hg : good (f_ty f) (pick u o) -> fgood f (stringify (pick u o))).
  { unfold good, fgood. destruct (stringify _); auto. }
  destruct (f_default f) eqn:Hd.
  - unfold field_z in Hz. destruct (zgen E n InlineSchema (f_ty f)) as [y|] eqn:Hy; [|discriminate].
    rewrite Hd in Hz. injection Hz as <-. destruct k as [|k]; [discriminate|]. cbn [zopt Zod.zparse] in Ho.
    assert (Hg2 : zparse k y u = POk o -> fgood f (stringify (pick u o))).
    { intros H. apply Hg. unfold SerdeSpec.sound_field in Hs. apply andb_true_iff in Hs as [Hs _].
      apply (Hlt k n) with (q := InlineSchema) (z := y); auto; [lia|now right]. }
    destruct u; auto. injection Ho as <-. unfold pick. destruct raw; now left.
  - apply Hg. apply (newtype_good f z k u o); auto. lia.
Qed.

Lemma props_read k fs ps l : forallb sound_field fs = true -> k < K ->
  all_some (map (prop_z (zgen E n)) fs) = Some ps ->
  Forall (fun p => exists u o', sane u /\ zparse k (snd p) u = POk o' /\
                       prop (js (fst p)) l = stringify (pick u o')) ps ->
  Forall (fun f => fgood f (prop (js (f_name f)) l)) fs.
Proof.
  intros Hs Hk Ha. apply all_some_map in Ha. revert Hs. induction Ha as [|f p fs ps Hf _ IH]; intros Hs H; [constructor|].
  cbn in Hs. apply andb_true_iff in Hs as [Hs1 Hs2]. inversion H as [|? ? [u [o [H1 [H2 H3]]]] H4]; subst.
  constructor; [|now apply IH]. unfold prop_z in Hf. destruct (field_z (zgen E n) f) as [z|] eqn:Hz; [|discriminate].
  injection Hf as <-. cbn [fst snd] in *. rewrite H3. eapply field_good; eauto.
Qed.

(** Fields of an object schema, on their own. *)
Lemma named_ok cd deny fs ps k u o :
  forallb sound_field (kept fs) = true -> NoDup (map f_name (kept fs)) -> raw && deny = false ->
  all_some (map (prop_z (zgen E n)) (kept fs)) = Some ps -> sane u -> k <= K ->
  zparse k (ZObject (shape ps)) u = POk o ->
  exists l, stringify (pick u o) = Some (JObj l) /\ exists m, read_named (de m) (missing m) cd deny fs l = true.
Proof.
  intros Hs Hn Hd Ha Hu Hk Ho. destruct k as [|k]; [discriminate|].
  assert (Hf : map fst ps = map f_name (kept fs)).
  { eapply shape_id; [|exact Ha]. intros f p Hp. unfold prop_z in Hp. destruct (field_z _ f); [|discriminate].
    now injection Hp as <-. }
  rewrite shape_nodup in Ho by (now rewrite Hf).
  destruct (obj_parse k ps u o) as [l [Hl [_ [Hp Hr]]]]; [now rewrite Hf|exact Hu|exact Ho|].
  exists l. split; [exact Hl|]. apply read_named_ok; [exact Hs| |].
  - eapply props_read; [exact Hs| |exact Ha|exact Hp]. lia.
  - intros ->. rewrite andb_true_r in Hd. specialize (Hr Hd). apply known_keys.
    rewrite <- Hf. rewrite map_map. exact Hr.
Qed.

Lemma tuple_elems k (zs : list zod) (fs : list field) u o : k <= K ->
  positional fs = true -> forallb sound_field fs = true -> sane u ->
  all_some (map (field_z (zgen E n)) fs) = Some zs -> zparse k (ZTuple zs) u = POk o ->
  exists l, stringify (pick u o) = Some (JArr l) /\ Forall2 (fun f j => exists m, de m (f_ty f) j = true) fs l.
Proof.
  intros Hk Hp Hs Hu Ha Ho. destruct k as [|k]; [discriminate|]. cbn [Zod.zparse] in Ho.
  destruct u as [| | | | |l| | | |]; try discriminate.
  destruct (Nat.ltb (List.length l) (List.length zs)) eqn:Hl1; [discriminate|].
  destruct (collect _) as [os| | |] eqn:Hc; try discriminate.
  destruct (Nat.ltb (List.length zs) (List.length l)) eqn:Hl2; [discriminate|]. injection Ho as <-.
  apply Nat.ltb_ge in Hl1, Hl2. assert (Hlen : List.length zs = List.length l) by lia. clear Hl1 Hl2.
  apply collect_ok, map_POk in Hc. inversion Hu as [| | | | |? Hul| | | |]; subst.
  exists (map stringify_elem (if raw then l else os)). split; [unfold pick; destruct raw; apply stringify_arr|].
  apply all_some_map in Ha. clear Hu. revert l os Hlen Hc Hul Hp Hs.
  induction Ha as [|f z fs zs Hz _ IH]; intros [|u l] os Hlen Hc Hul Hp Hs; try discriminate.
  - inversion Hc; subst. destruct raw; constructor.
  - cbn [combine] in Hc. inversion Hc as [|? o ? os' Ho Hc']; subst. cbn [fst snd] in Ho.
    cbn [forallb positional] in Hp, Hs. unfold positional in Hp. cbn [forallb] in Hp.
    apply andb_true_iff in Hp as [Hp1 Hp2]. apply andb_true_iff in Hs as [Hs1 Hs2].
    inversion Hul as [|? ? Hu1 Hu2]; subst. injection Hlen as Hlen.
    specialize (IH l os' Hlen Hc' Hu2 Hp2 Hs2).
    assert (Hg : exists m, de m (f_ty f) (stringify_elem (pick u o)) = true).
    { apply good_elem; [now apply andb_true_iff in Hs1 as [Hs1 _]|]. apply (newtype_good f z k u o); auto; [|lia].
      apply andb_true_iff in Hp1 as [_ Hp1]. now apply negb_true_iff. }
    unfold pick in Hg. destruct raw; cbn [map]; constructor; auto.
Qed.

(** ** Contents of variants *)
Definition cgood (deny : bool) (v : variant) (x : option json) : Prop :=
  match x with
  | Some j => exists m, read_content (de m) (missing m) deny v j = true
  | None => exists f, v_fields v = [f] /\ variant_shape v = SNewtype f /\ may_undef (f_ty f) = true /\ sound_field f = true
  end.

Definition inner_z (v : variant) : option zod :=
  match v_style v, kept (v_fields v) with
  | StTuple, [f] => field_z (zgen E n) f
  | StTuple, fs => option_map ZTuple (all_some (map (field_z (zgen E n)) fs))
  | StNamed, fs => option_map (fun ps => ZObject (shape ps)) (all_some (map (prop_z (zgen E n)) fs))
  | StUnit, _ => None
  end.

Lemma inner_ok deny v z k u o : forallb sound_field (kept (v_fields v)) = true ->
  match v_style v with
  | StTuple => v_fields v <> [] /\ positional (v_fields v) = true
  | StNamed => NoDup (map f_name (kept (v_fields v)))
  | StUnit => False
  end -> raw && deny = false -> sane u -> k <= K ->
  inner_z v = Some z -> zparse k z u = POk o -> cgood deny v (stringify (pick u o)).
Proof.
  intros Hs Hst Hd Hu Hk Hz Ho. unfold inner_z in Hz. destruct (v_style v) eqn:Hv.
  - destruct (all_some _) as [ps|] eqn:Ha; [|discriminate]. injection Hz as <-.
    destruct (named_ok false deny (v_fields v) ps k u o) as [l [-> [m Hm]]]; auto.
    exists m. unfold read_content, variant_shape. rewrite Hv. exact Hm.
  - destruct Hst as [Hne Hp]. rewrite (positional_kept _ Hp) in *.
    destruct (v_fields v) as [|f [|f2 r]] eqn:Hf; [easy| |].
    + assert (Hsh : variant_shape v = SNewtype f).
      { unfold variant_shape. rewrite Hv, Hf. cbn in Hp. destruct (f_skip f); [discriminate|reflexivity]. }
      cbn in Hs, Hp. rewrite andb_true_r in Hs, Hp. apply andb_true_iff in Hp as [_ Hp]. apply negb_true_iff in Hp.
      pose proof (newtype_good f z k u o Hs Hp Hu Hk Hz Ho) as Hg. unfold good in Hg. unfold cgood.
      destruct (stringify (pick u o)) as [j|]; [|exists f; rewrite Hf; auto].
      destruct Hg as [m Hm]. exists m. unfold read_content. now rewrite Hsh.
    + rewrite <- Hf in *. destruct (all_some (map (field_z (zgen E n)) (v_fields v))) as [zs|] eqn:Ha.
      2: discriminate.
      injection Hz as <-. destruct (tuple_elems k zs (v_fields v) u o) as [l [-> Hl]]; auto.
      destruct (read_seq_ok false (v_fields v) l Hp Hl) as [m Hm]. exists m. unfold read_content, variant_shape.
      rewrite Hv, Hf. rewrite Hf in Hm. exact Hm.
  - destruct Hst.
Qed.

Lemma variant_inner tg v z : (forall t, tg = Internal t -> v_style v <> StNamed) ->
  v_style v <> StUnit -> (v_style v = StTuple -> kept (v_fields v) <> []) ->
  variant_z (zgen E n) tg v = Some z -> exists y, inner_z v = Some y /\ z = zlits tg (v_name v) y.
Proof.
  intros Hi Hu Ht Hz. unfold variant_z in Hz. unfold inner_z. destruct (v_style v).
  - destruct (kept (v_fields v)) as [|f r] eqn:Hk; [discriminate|]. rewrite <- Hk in *.
    destruct (all_some _) as [ps|]; [|discriminate]. injection Hz as <-. eexists. split; [reflexivity|].
    destruct tg; try reflexivity. now destruct (Hi tag eq_refl).
  - destruct (kept (v_fields v)) as [|f [|f2 r]] eqn:Hk; [now destruct (Ht eq_refl)| |].
    + destruct (field_z (zgen E n) f) as [y|]; [|discriminate]. injection Hz as <-. eauto.
    + destruct (all_some _) as [zs|]; [|discriminate]. injection Hz as <-. eexists. split; reflexivity.
  - easy.
Qed.

Lemma lit_parse k s u o : zparse k (ZLit s) u = POk o -> u = JsStr s /\ o = JsStr s.
Proof.
  destruct k; [discriminate|]. cbn [Zod.zparse]. destruct u; try discriminate.
  destruct (jeqb s s0) eqn:H; [|discriminate]. apply jeqb_eq in H. subst. now intros [= <-].
Qed.

Lemma pick_lit s : stringify (pick (JsStr s) (JsStr s)) = Some (JStr s).
Proof. unfold pick. now destruct raw. Qed.

Lemma prop_without k k' (l : list (jstr * json)) : jeqb k k' = false -> prop k (without k' l) = prop k l.
Proof.
  intros Hn. unfold without. induction l as [|p l IH]; [reflexivity|]. cbn [filter]. rewrite prop_cons.
  destruct (jeqb k' (fst p)) eqn:Hk; cbn [negb].
  - apply jeqb_eq in Hk. rewrite <- Hk, Hn. exact IH.
  - rewrite prop_cons. now rewrite IH.
Qed.

(** ** Variants *)
Lemma variant_ok deny tg vs v z k u o :
  raw && deny = false -> NoDup (map v_name (kept_variants vs)) -> In v (kept_variants vs) ->
  sound_variant raw wide inside tg v -> sane u -> k <= K ->
  variant_z (zgen E n) tg v = Some z -> zparse k z u = POk o ->
  exists j, stringify (pick u o) = Some j /\
    exists m, read_enum (de m) (missing m) deny tg vs j = true.
Proof.
  intros Hd Hn Hin [Hs Hst] Hu Hk Hz Ho.
  pose proof (by_name_nodup vs v Hn Hin) as Hby.
  (* the schema of a unit variant *)
  assert (Hunit : v_style v = StUnit -> exists j, stringify (pick u o) = Some j /\
    exists m, read_enum (de m) (missing m) deny tg vs j = true).
  { intros Hv. rewrite Hv in Hst. assert (Hsh : variant_shape v = SUnit) by (unfold variant_shape; now rewrite Hv).
    unfold variant_z in Hz. rewrite Hv in Hz. injection Hz as <-. destruct tg as [|tag|tag content|]; cbn [unit_z] in Ho.
    - apply lit_parse in Ho as [-> ->]. rewrite pick_lit. eexists. split; [reflexivity|]. exists 0. cbn.
      now rewrite Hby, Hsh.
    - destruct k as [|k]; [discriminate|]. apply obj_parse in Ho as [l [-> [_ [Hp _]]]]; [|repeat constructor; easy|exact Hu].
      inversion Hp as [|? ? [x [y [_ [H2 H3]]]] _]; subst. cbn [fst snd] in *. apply lit_parse in H2 as [-> ->].
      rewrite pick_lit in H3. eexists. split; [reflexivity|]. exists 0. cbn. now rewrite H3, Hby, Hsh.
    - destruct k as [|k]; [discriminate|]. apply obj_parse in Ho as [l [-> [Hnd [Hp Hr]]]]; [|repeat constructor; easy|exact Hu].
      inversion Hp as [|? ? [x [y [_ [H2 H3]]]] _]; subst. cbn [fst snd] in *. apply lit_parse in H2 as [-> ->].
      rewrite pick_lit in H3. destruct Hst as [Hraw Htc]. specialize (Hr Hraw). cbn [map fst] in Hr.
      pose proof (one_key _ _ _ Hnd Hr H3) as ->. eexists. split; [reflexivity|]. exists 0. cbn [read_enum].
      rewrite H3, Hby. rewrite prop_cons. cbn [fst snd]. destruct (jeqb (js content) (js tag)) eqn:Hc.
      + exfalso. apply jeqb_eq, js_inj in Hc. now apply Htc.
      + unfold prop at 1. cbn [find]. rewrite Hsh. cbn. rewrite js_eqb, String.eqb_refl. cbn. now rewrite orb_true_r.
    - destruct k as [|k]; [discriminate|]. cbn [Zod.zparse] in Ho. destruct u; try discriminate. injection Ho as <-.
      exists JNull. split; [unfold pick; now destruct raw|]. exists 0. cbn [read_enum]. apply existsb_exists.
      exists v. split; [exact Hin|]. unfold read_content. now rewrite Hsh. }
  assert (Hlits : forall y, inner_z v = Some y -> z = zlits tg (v_name v) y ->
    match v_style v with
    | StTuple => v_fields v <> [] /\ positional (v_fields v) = true
    | StNamed => NoDup (map f_name (kept (v_fields v)))
    | StUnit => False
    end ->
    match tg with
    | External => raw = false /\ forall f, variant_shape v = SNewtype f -> may_undef (f_ty f) = false
    | Internal _ => False
    | Adjacent t c => t <> c
    | Untagged => forall f, variant_shape v = SNewtype f -> may_undef (f_ty f) = false
    end ->
    exists j, stringify (pick u o) = Some j /\
    exists m, read_enum (de m) (missing m) deny tg vs j = true).
  { clear Hunit Hst. intros y Hy -> Hcond Htg. destruct tg as [|tag|tag content|]; cbn [zlits] in Ho.
    - destruct k as [|k]; [discriminate|].
      apply obj_parse in Ho as [l [-> [Hnd [Hp Hr]]]]; [|repeat constructor; easy|exact Hu].
      inversion Hp as [|? ? [x [o' [H1 [H2 H3]]]] _]; subst. cbn [fst snd] in *. destruct Htg as [Hraw Hone].
      specialize (Hr Hraw). cbn [map fst] in Hr.
      assert (Hg : cgood deny v (stringify (pick x o'))) by (apply (inner_ok deny v y k); auto; lia).
      destruct (stringify (pick x o')) as [j|].
      + pose proof (one_key _ _ _ Hnd Hr H3) as ->. destruct Hg as [m Hm].
        eexists. split; [reflexivity|]. exists m. cbn [read_enum]. now rewrite Hby.
      + destruct Hg as [f [_ [Hf [Hm _]]]]. rewrite (Hone f Hf) in Hm. discriminate.
    - destruct Htg.
    - destruct k as [|k]; [discriminate|].
      assert (Hnd2 : NoDup (map fst [(tag, ZLit (js (v_name v))); (content, y)])).
      { cbn. repeat constructor; cbn; intuition. }
      rewrite shape_nodup in Ho by exact Hnd2.
      apply obj_parse in Ho as [l [-> [Hnd [Hp Hr]]]]; [|exact Hnd2|exact Hu].
      inversion Hp as [|? ? [x1 [o1 [_ [H2 H3]]]] Hp2]; subst. cbn [fst snd] in *.
      apply lit_parse in H2 as [-> ->]. rewrite pick_lit in H3.
      inversion Hp2 as [|? ? [x [o' [H4 [H5 H6]]]] _]; subst. cbn [fst snd] in *.
      assert (Hg : cgood deny v (stringify (pick x o'))) by (apply (inner_ok deny v y k); auto; lia).
      assert (Hk2 : negb deny || known [tag; content] l = true).
      { destruct deny; [|reflexivity]. cbn. apply known_keys. apply Hr. now rewrite andb_true_r in Hd. }
      eexists. split; [reflexivity|].
      destruct (stringify (pick x o')) as [j|].
      + destruct Hg as [m Hm]. exists m. cbn [read_enum]. now rewrite H3, Hby, H6, Hm, Hk2.
      + destruct Hg as [f [_ [Hf [Hm Hsf]]]]. apply andb_true_iff in Hsf as [Hsf _].
        destruct (may_undef_missing E _ _ _ _ Hsf Hm) as [m Hmi]. exists m. cbn [read_enum].
        now rewrite H3, Hby, H6, Hf, Hmi, Hk2.
    - assert (Hg : cgood deny v (stringify (pick u o))) by (apply (inner_ok deny v y k); auto).
      destruct (stringify (pick u o)) as [j|].
      + exists j. split; [reflexivity|]. destruct Hg as [m Hm]. exists m. cbn [read_enum]. apply existsb_exists. eauto.
      + destruct Hg as [f [_ [Hf [Hm _]]]]. rewrite (Htg f Hf) in Hm. discriminate. }
  destruct (v_style v) eqn:Hv.
  - (* struct variant *)
    clear Hunit. assert (Hnn : forall f, variant_shape v <> SNewtype f) by (intros f; unfold variant_shape; now rewrite Hv).
    destruct Hst as [Hnd Htg]. destruct tg as [|tag|tag content|].
    + destruct (variant_inner External v z) as [y [Hy Hzy]]; [easy|rewrite Hv; easy|rewrite Hv; easy|exact Hz|].
      apply (Hlits y); auto. split; [exact Htg|]. intros f Hf. now apply Hnn in Hf.
    + clear Hlits. unfold variant_z in Hz. rewrite Hv in Hz.
      assert (Hz' : exists ps, all_some (map (prop_z (zgen E n)) (kept (v_fields v))) = Some ps /\
        z = ZObject (shape ((tag, ZLit (js (v_name v))) :: ps))).
      { destruct (kept (v_fields v)) as [|f r] eqn:Hkf; [discriminate|]. rewrite <- Hkf in *.
        destruct (all_some _) as [ps|]; [|discriminate]. injection Hz as <-. eauto. }
      destruct Hz' as [ps [Ha ->]]. destruct k as [|k]; [discriminate|].
      assert (Hf : map fst ps = map f_name (kept (v_fields v))).
      { eapply shape_id; [|exact Ha]. intros f p Hp. unfold prop_z in Hp. destruct (field_z _ f); [|discriminate].
        now injection Hp as <-. }
      assert (Hnd2 : NoDup (map fst ((tag, ZLit (js (v_name v))) :: ps))).
      { cbn. constructor; rewrite Hf; assumption. }
      rewrite shape_nodup in Ho by exact Hnd2.
      apply obj_parse in Ho as [l [-> [Hndl [Hp Hr]]]]; [|exact Hnd2|exact Hu].
      inversion Hp as [|? ? [x1 [o1 [_ [H2 H3]]]] Hp2]; subst. cbn [fst snd] in *.
      apply lit_parse in H2 as [-> ->]. rewrite pick_lit in H3.
      assert (Hpr : Forall (fun f => fgood f (prop (js (f_name f)) l)) (kept (v_fields v))).
      { eapply props_read; [exact Hs| |exact Ha|exact Hp2]. lia. }
      destruct (read_named_ok false deny (v_fields v) (without (js tag) l)) as [m Hm]; [exact Hs| | |].
      * rewrite Forall_forall in Hpr |- *. intros f Hfi. rewrite prop_without; [now apply Hpr|].
        rewrite js_eqb. apply String.eqb_neq. intros He. apply Htg. rewrite <- He. now apply in_map.
      * intros ->. rewrite andb_true_r in Hd. specialize (Hr Hd). apply known_keys. rewrite <- Hf, map_map.
        apply Forall_forall. intros q Hq. unfold without in Hq. apply filter_In in Hq as [Hq Hqt].
        rewrite Forall_forall in Hr. specialize (Hr q Hq). cbn [map fst] in Hr. destruct Hr as [Hr|Hr]; [|exact Hr].
        rewrite Hr, jeqb_refl in Hqt. discriminate.
      * eexists. split; [reflexivity|]. exists m. cbn [read_enum]. rewrite H3, Hby. unfold variant_shape. now rewrite Hv.
    + destruct (variant_inner (Adjacent tag content) v z) as [y [Hy Hzy]]; [easy|rewrite Hv; easy|rewrite Hv; easy|exact Hz|].
      apply (Hlits y); auto.
    + destruct (variant_inner Untagged v z) as [y [Hy Hzy]]; [easy|rewrite Hv; easy|rewrite Hv; easy|exact Hz|].
      apply (Hlits y); auto. intros f Hf. now apply Hnn in Hf.
  - (* tuple variant *)
    clear Hunit. destruct Hst as [Hne [Hp Htg]].
    assert (Hone : one_defined (v_fields v) = true -> forall f, variant_shape v = SNewtype f -> may_undef (f_ty f) = false).
    { intros H f Hf. unfold variant_shape in Hf. rewrite Hv in Hf. destruct (v_fields v) as [|g [|]]; try discriminate.
      destruct (f_skip g); [discriminate|]. injection Hf as <-. now apply negb_true_iff in H. }
    destruct (variant_inner tg v z) as [y [Hy Hzy]]; [now rewrite Hv|now rewrite Hv| |exact Hz|].
    { intros _. now rewrite (positional_kept _ Hp). }
    apply (Hlits y); auto. destruct tg as [|tag|tag content|]; auto. destruct Htg. auto.
  - now apply Hunit.
Qed.

(** ** Declarations *)
Lemma disc_opts_in tag zs : forall seen opts, disc_opts tag seen zs = Val opts ->
  forall d z, In (d, z) opts -> In (d, z) seen \/ In z zs.
Proof.
  induction zs as [|y zs IH]; intros seen opts H d z Hi; cbn in H.
  - injection H as <-. now left.
  - apply ebind_val in H as [x [_ H]]. destruct (existsb _ seen); [discriminate|].
    destruct (IH _ _ H d z Hi) as [Hs|Hs]; [|right; now right].
    apply in_app_or in Hs as [Hs|[[= _ <-]|[]]]; [now left|right; now left].
Qed.

Lemma enum_parse tg vs z k u o : enum_z (zgen E n) tg vs = Some z -> zparse k z u = POk o ->
  exists v y k', In v vs /\ k' <= k /\ variant_z (zgen E n) tg v = Some y /\ zparse k' y u = POk o.
Proof.
  intros Hz Ho. unfold enum_z in Hz. destruct vs as [|v [|v2 r]]; [discriminate| |].
  - exists v, z, k. split; [now left|auto].
  - assert (Hz' : exists zs, all_some (map (variant_z (zgen E n) tg) (v :: v2 :: r)) = Some zs /\
      (z = ZUnion zs \/ exists tag opts, disc_opts tag [] zs = Val opts /\ z = ZDisc tag opts)).
    { destruct (all_some _) as [zs|]; [|discriminate]. exists zs. split; [reflexivity|]. cbn [bind] in Hz.
      destruct tg as [|tag|tag content|]; [left; congruence| | |left; congruence].
      - right. exists tag. destruct (disc_opts tag [] zs) as [os| |]; try discriminate. exists os. split; congruence.
      - right. exists tag. destruct (disc_opts tag [] zs) as [os| |]; try discriminate. exists os. split; congruence. }
    clear Hz. destruct Hz' as [zs [Ha Hz]]. apply all_some_map in Ha.
    assert (Hin : forall y, In y zs -> exists v', In v' (v :: v2 :: r) /\ variant_z (zgen E n) tg v' = Some y).
    { clear -Ha. induction Ha as [|a b l l' H _ IH]; [easy|]. intros y [<-|Hy].
      - exists a. split; [now left|exact H].
      - destruct (IH y Hy) as [v' [H1 H2]]. exists v'. split; [now right|exact H2]. }
    destruct k as [|k]; [discriminate|]. destruct Hz as [->|[tag [opts [Hd ->]]]].
    + cbn [Zod.zparse] in Ho. apply first_ok_ok, in_map_iff in Ho as [y [Ho Hy]].
      destruct (Hin y Hy) as [v' [H1 H2]]. exists v', y, k. auto.
    + cbn [Zod.zparse] in Ho. destruct u as [| | | | | |l| | |]; try discriminate.
      destruct (disc_get _) as [d|]; [|discriminate]. destruct (find _ opts) as [[d' y]|] eqn:Hfi; [|discriminate].
      apply find_some in Hfi as [Hfi _]. destruct (disc_opts_in _ _ _ _ Hd _ _ Hfi) as [[]|Hy].
      destruct (Hin y Hy) as [v' [H1 H2]]. exists v', y, k. auto.
Qed.

Lemma no_flatten fs : forallb sound_field (kept fs) = true -> has_flatten fs = false.
Proof.
  unfold has_flatten, kept. induction fs as [|f fs IH]; [reflexivity|]. cbn [filter existsb].
  destruct (f_skip f); cbn [negb andb orb]; [exact IH|]. cbn [forallb]. rewrite andb_true_iff. intros [H1 H2].
  apply andb_true_iff in H1 as [_ H1]. apply negb_true_iff in H1. rewrite H1. auto.
Qed.

Lemma struct_ok i deny st tr fs z k u o :
  d_from (lookup E i) = None -> d_body (lookup E i) = BStruct st tr fs -> deny = d_deny (lookup E i) ->
  sound_struct raw wide inside deny st tr fs -> sane u -> k <= K ->
  struct_z (zgen E n) st tr fs = Some z -> zparse k z u = POk o ->
  exists j, stringify (pick u o) = Some j /\
    exists m, read_decl R E (de m) (missing m) i j = true.
Proof.
  intros Hf Hb -> [Hs Hst] Hu Hk Hz Ho. pose proof (no_flatten fs Hs) as Hnf.
  destruct (sound_plain _ _ _ _ Hs) as [Hpl Hfl]. unfold struct_z in Hz. rewrite Hpl, Hfl in Hz.
  unfold read_decl. rewrite Hf, Hb, Hnf. destruct tr.
  - destruct Hst as [f [Hkf [Hd Hm]]]. rewrite Hkf in *.
    cbn in Hs. rewrite andb_true_r in Hs.
    assert (Hg : good (f_ty f) (pick u o)) by (apply (newtype_good f z k u o); auto).
    assert (Ht : transparent_field fs = Some f).
    { unfold transparent_field. assert (Hph : phantom (f_ty f) = false).
      { apply andb_true_iff in Hs as [Hs _]. destruct (f_ty f) as [| |[] ?| | | | | | |]; try reflexivity. discriminate. }
      revert Hkf. clear -Hd Hph. unfold kept.
      induction fs as [|g fs IH]; [discriminate|]. cbn [filter]. destruct (f_skip g); cbn [negb andb]; [exact IH|].
      intros [= -> H]. rewrite Hd, Hph. reflexivity. }
    unfold good in Hg. destruct (stringify (pick u o)) as [j|]; [|rewrite Hm in Hg; discriminate].
    exists j. split; [reflexivity|]. destruct Hg as [m Hmm]. exists m. now rewrite Ht.
  - destruct st.
    + destruct Hst as [Hnd Hdeny]. destruct (all_some _) as [ps|] eqn:Ha; [|discriminate]. cbn in Hz. injection Hz as <-.
      destruct (named_ok (d_cdefault (lookup E i)) (d_deny (lookup E i)) fs ps k u o) as [l [-> [m Hm]]]; auto.
      eexists. split; [reflexivity|]. exists m. exact Hm.
    + destruct Hst as [Hp Hone]. rewrite (positional_kept _ Hp) in *. destruct fs as [|f [|f2 r]] eqn:Hfs; [discriminate| |].
      * cbn in Hs, Hp, Hone. rewrite andb_true_r in Hs, Hp. apply andb_true_iff in Hp as [_ Hp]. apply negb_true_iff in Hp.
        apply negb_true_iff in Hone.
        assert (Hg : good (f_ty f) (pick u o)) by (apply (newtype_good f z k u o); auto).
        unfold good in Hg. destruct (stringify (pick u o)) as [j|]; [|rewrite Hone in Hg; discriminate]. eauto.
      * rewrite <- Hfs in *. destruct (all_some (map (field_z (zgen E n)) fs)) as [zs|] eqn:Ha; [|discriminate].
        injection Hz as <-. destruct (tuple_elems k zs fs u o) as [l [-> Hl]]; auto.
        destruct (read_seq_ok (d_cdefault (lookup E i)) fs l Hp Hl) as [m Hm]. eexists. split; [reflexivity|].
        exists m. rewrite Hfs in Hm |- *. exact Hm.
    + destruct Hst.
Qed.

Lemma decl_ok i z k u o : inside i = true -> sane u -> k <= K ->
  decl_z (zgen E n) (lookup E i) = Some z -> zparse k z u = POk o -> good (TNamed i) (pick u o).
Proof.
  intros Hi Hu Hk Hz Ho. pose proof (HS i Hi) as Hd. unfold sound_decl in Hd. unfold decl_z in Hz.
  assert (Hres : (exists j, stringify (pick u o) = Some j /\ exists m, read_decl R E (de m) (missing m) i j = true) ->
    good (TNamed i) (pick u o)).
  { intros [j [Hj [m Hm]]]. unfold good. rewrite Hj. exists (S m). exact Hm. }
  apply Hres. clear Hres.
  destruct (d_from (lookup E i)) as [t|] eqn:Hf.
  - destruct Hd as [Htry [Hs Hm]].
    assert (Hg : good t (pick u o)).
    { destruct (d_body (lookup E i)).
      - apply (Ple k Hk InlineSchema t z u o); auto. now right.
      - apply (Ple k Hk Schema t z u o); auto. now left. }
    unfold good in Hg. destruct (stringify (pick u o)) as [j|]; [|rewrite Hm in Hg; discriminate].
    exists j. split; [reflexivity|]. destruct Hg as [m Hmm]. exists m. unfold read_decl. rewrite Hf, Htry. exact Hmm.
  - destruct (d_body (lookup E i)) as [st tr fs|tg vs] eqn:Hb.
    + eapply struct_ok; eauto.
    + destruct Hd as [Hdeny [Hnd Hv]].
      destruct (enum_parse tg (kept_variants vs) z k u o Hz Ho) as [v [y [k' [Hin [Hk' [Hy Ho']]]]]].
      destruct (variant_ok (d_deny (lookup E i)) tg vs v y k' u o) as [j [Hj [m Hm]]]; auto; [lia|].
      exists j. split; [exact Hj|]. exists m. unfold read_decl. now rewrite Hf, Hb.
Qed.
End Level.

(** ** Everything *)
Lemma show_int_safe z : (Z.abs z <= 2 ^ 53 - 1)%Z -> show_int z = z.
Proof. intros H. unfold show_int. destruct (Z.leb_spec (Z.abs z) (2 ^ 53)); [reflexivity|lia]. Qed.

Lemma stringify_int z : (Z.abs z <= 2 ^ 53 - 1)%Z -> stringify (JsNum (NInt z)) = Some (JInt z).
Proof.
  intros H. unfold stringify. rewrite show_int_safe by exact H.
  destruct (Z.ltb_spec (Z.abs z) (10 ^ 21)) as [_|Hf]; [reflexivity|]. exfalso. revert H Hf.
  change (2 ^ 53 - 1)%Z with 9007199254740991%Z. change (10 ^ 21)%Z with 1000000000000000000000%Z. lia.
Qed.

Lemma num_parse k cs u o : zparse k (ZNumber cs) u = POk o ->
  o = u /\ exists x, u = JsNum x /\ x <> NNaN /\ forallb (num_ok x) cs = true.
Proof.
  destruct k; [discriminate|]. cbn [Zod.zparse]. destruct u as [| | |x| | | | | |]; try discriminate.
  destruct x; try discriminate; (destruct (forallb _ cs) eqn:H; [|discriminate]); intros [= <-];
    (split; [reflexivity|]); eexists; (split; [reflexivity|]); (split; [discriminate|reflexivity || exact H]).
Qed.

Lemma str_parse k cs u o : zparse k (ZString cs) u = POk o ->
  o = u /\ exists s, u = JsStr s /\ forallb (str_ok ip s) cs = true.
Proof.
  destruct k; [discriminate|]. cbn [Zod.zparse]. destruct u as [| | | |s| | | | |]; try discriminate.
  destruct (forallb _ cs) eqn:H; [|discriminate]. intros [= <-]. split; [reflexivity|]. eauto.
Qed.

Lemma pick_same u : pick u u = u.
Proof. unfold pick. now destruct raw. Qed.

Lemma int_good k z i u o : sound_prim wide (PInt i) = true -> sane u -> zprim (PInt i) = Some z ->
  zparse k z u = POk o -> good (TPrim (PInt i)) (pick u o).
Proof.
  intros Hs Hu Hz Ho.
  assert (Hn : exists cs, z = ZNumber (CFinite :: CInt :: cs) /\
    forall x, forallb (num_ok (NInt x)) cs = true -> (wide = true -> (Z.abs x <= 2 ^ 53 - 1)%Z) ->
      (Z.abs x <= 2 ^ 53 - 1)%Z /\ in_int i x = true).
  { unfold in_int. destruct i; try discriminate Hs;
      apply (f_equal (fun o => match o with Some z => z | None => ZNull end)) in Hz; vm_compute in Hz; subst z;
      (eexists; split; [reflexivity|]); intros x Hx Hw; cbn [forallb num_ok] in Hx; rewrite ?andb_true_iff, ?Z.leb_le in Hx;
      cbn [sound_prim small_int orb] in Hs; try specialize (Hw Hs);
      rewrite andb_true_iff, !Z.leb_le; cbn [int_min int_max]; cbn in Hx |- *; clear -Hx Hw || clear -Hx; cbn in *; lia. }
  destruct Hn as [cs [-> Hn]]. apply num_parse in Ho as [-> [x [-> [_ Hx]]]]. rewrite pick_same.
  cbn [forallb] in Hx. apply andb_true_iff in Hx as [_ Hx]. apply andb_true_iff in Hx as [Hi Hx].
  destruct x as [x|? ?| | |]; try discriminate Hi.
  destruct (Hn x Hx) as [Hsafe Hin].
  { intros Hw. inversion Hu as [| | |? H| | | | | |]; subst. now apply H. }
  unfold good. rewrite stringify_int by exact Hsafe. exists 1. exact Hin.
Qed.

Lemma prim_good k p z u o : sound_prim wide p = true -> sane u -> zprim p = Some z ->
  zparse k z u = POk o -> good (TPrim p) (pick u o).
Proof.
  intros Hs Hu Hz Ho. destruct p as [|i| | | | | | | |]; try discriminate Hs.
  - injection Hz as <-. apply str_parse in Ho as [-> [s [-> _]]]. rewrite pick_same. exists 1. cbn.
    inversion Hu; subst; assumption.
  - eapply int_good; eauto.
  - injection Hz as <-. apply num_parse in Ho as [-> [x [-> _]]]. rewrite pick_same. cbn [sound_prim] in Hs.
    assert (H : safe_num x) by (inversion Hu as [| | |? H| | | | | |]; now apply H).
    unfold good. destruct x; try contradiction.
    + rewrite stringify_int by exact H. now exists 1.
    + now exists 1.
  - injection Hz as <-. apply num_parse in Ho as [-> [x [-> _]]]. rewrite pick_same. cbn [sound_prim] in Hs.
    assert (H : safe_num x) by (inversion Hu as [| | |? H| | | | | |]; now apply H).
    unfold good. destruct x; try contradiction.
    + rewrite stringify_int by exact H. now exists 1.
    + now exists 1.
  - injection Hz as <-. apply str_parse in Ho as [-> [s [-> Hc]]]. rewrite pick_same. exists 1. cbn.
    cbn in Hc. rewrite andb_true_r in Hc. apply N.eqb_eq in Hc.
    assert (Hus : utf16 s = true) by (inversion Hu; subst; assumption). rewrite Hus. cbn.
    destruct s as [|c [|d s]]; cbn in Hc; try lia. cbn in Hus |- *. now destruct (high c).
  - injection Hz as <-. destruct k; [discriminate|]. cbn [Zod.zparse] in Ho. destruct u; try discriminate.
    injection Ho as <-. rewrite pick_same. now exists 1.
Qed.

Lemma elems_good k (zs : list zod) ts l os : Forall2 (fun t z => forall u o, sane u -> zparse k z u = POk o ->
    good t (pick u o)) ts zs -> forallb sound_ty ts = true -> Forall sane l -> List.length zs = List.length l ->
  Forall2 (fun p o => zparse k (fst p) (snd p) = POk o) (combine zs l) os ->
  Forall2 (fun t j => exists m, de m t j = true) ts (map stringify_elem (if raw then l else os)).
Proof.
  intros H. revert l os. induction H as [|t z ts zs Hz _ IH]; intros [|u l] os Hs Hl Hlen Ho; try discriminate.
  - inversion Ho; subst. destruct raw; constructor.
  - cbn [combine] in Ho. inversion Ho as [|? o ? os' Ho1 Ho2]; subst. cbn [fst snd] in Ho1.
    cbn [forallb] in Hs. apply andb_true_iff in Hs as [Hs1 Hs2]. inversion Hl as [|? ? Hl1 Hl2]; subst.
    injection Hlen as Hlen. specialize (IH l os' Hs2 Hl2 Hlen Ho2).
    assert (Hg : exists m, de m t (stringify_elem (pick u o)) = true) by (apply good_elem; auto).
    unfold pick in Hg. destruct raw; cbn [map]; constructor; auto.
Qed.

Lemma main_step K n : (forall k n, k < K -> P k n) -> (forall n', n' < n -> P K n') -> P K n.
Proof.
  intros Hlt Hn q t z v o Hq Hs Hv Hz Ho. destruct n as [|n]; [discriminate|]. cbn [zgen] in Hz.
  assert (Hrec : P K n) by (apply Hn; lia).
  assert (Hnn : (forall i, t <> TNamed i) ->
    match q with Schema => builtin_z (zgen E n) t | _ => zgen E n Schema t end = Some z -> good t (pick v o)).
  { clear Hz. intros _ Hz. destruct Hq as [-> | ->]; [|apply (Hrec Schema t z v o); auto; now left].
    destruct t as [p|ts|w t|t|k t|c t|c kt vt|t|t e|i]; cbn [builtin_z] in Hz; cbn [SerdeSpec.sound_ty] in Hs; try discriminate.
    - eapply prim_good; eauto.
    - (* tuples *)
      destruct (all_some (map (zgen E n Schema) ts)) as [zs|] eqn:Ha; [|discriminate]. injection Hz as <-.
      apply all_some_map in Ha. destruct K as [|k]; [discriminate|]. cbn [Zod.zparse] in Ho.
      destruct v as [| | | | |l| | | |]; try discriminate.
      destruct (Nat.ltb (List.length l) (List.length zs)) eqn:Hl1; [discriminate|].
      destruct (collect _) as [os| | |] eqn:Hc; try discriminate.
      destruct (Nat.ltb (List.length zs) (List.length l)) eqn:Hl2; [discriminate|]. injection Ho as <-.
      apply Nat.ltb_ge in Hl1, Hl2. assert (Hlen : List.length zs = List.length l) by lia.
      apply collect_ok, map_POk in Hc. inversion Hv as [| | | | |? Hul| | | |]; subst.
      assert (He : Forall2 (fun t j => exists m, de m t j = true) ts (map stringify_elem (if raw then l else os))).
      { apply (elems_good k zs); auto. clear -Ha Hlt Hs. revert Hs.
        induction Ha as [|t z ts zs H _ IH]; intros Hs; constructor; cbn in Hs; apply andb_true_iff in Hs as [Hs1 Hs2]; auto.
        intros u o Hu Ho. apply (Hlt k n (Nat.lt_succ_diag_r k) Schema t z u o); auto. now left. }
      assert (Hst : stringify (pick (JsArr l) (JsArr os)) = Some (JArr (map stringify_elem (if raw then l else os)))).
      { unfold pick. destruct raw; apply stringify_arr. }
      unfold good. rewrite Hst. apply (de_all2 R E (fun t => t)) in He as [m Hm]. exists (S m). rewrite de_step.
      rewrite andb_true_iff. split.
      + apply Nat.eqb_eq. symmetry. clear -Hm. induction Hm; cbn; congruence.
      + clear -Hm. induction Hm as [|t j ts l' H _ IH]; [reflexivity|]. cbn [combine forallb fst snd]. now rewrite H, IH.
    - (* wrappers *)
      assert (Hs' : sound_ty t = true) by (destruct w; assumption || discriminate).
      pose proof (Hrec Schema t z v o (or_introl eq_refl) Hs' Hv Hz Ho) as Hg. unfold good in *. cbn [may_undef].
      destruct (stringify (pick v o)); [|exact Hg]. destruct Hg as [m Hm]. exists (S m). rewrite de_step.
      destruct w; auto; try discriminate. now rewrite Hm, orb_true_r.
    - (* vectors *)
      destruct (zgen E n InlineSchema t) as [y|] eqn:Hy; [|discriminate]. injection Hz as <-.
      destruct K as [|k]; [discriminate|]. cbn [Zod.zparse] in Ho. destruct v as [| | | | |l| | | |]; try discriminate.
      apply lmap_ok in Ho as [os [Hc ->]]. apply collect_ok, map_POk in Hc. inversion Hv as [| | | | |? Hul| | | |]; subst.
      assert (He : Forall (fun j => exists m, de m t j = true) (map stringify_elem (if raw then l else os))).
      { clear Hv. revert Hul. induction Hc as [|u o l os H _ IH]; intros Hul; [destruct raw; constructor|].
        inversion Hul as [|? ? Hu1 Hu2]; subst.
        assert (Hg : exists m, de m t (stringify_elem (pick u o)) = true).
        { apply good_elem; [exact Hs|].
          apply (Hlt k n (Nat.lt_succ_diag_r k) InlineSchema t y u o); auto. now right. }
        unfold pick in Hg. destruct raw; cbn [map]; constructor; auto. }
      assert (Hst : stringify (pick (JsArr l) (JsArr os)) = Some (JArr (map stringify_elem (if raw then l else os)))).
      { unfold pick. destruct raw; apply stringify_arr. }
      unfold good. rewrite Hst. apply (de_all R E (fun _ => t) (fun j => j)) in He as [m Hm]. exists (S m). rewrite de_step.
      apply forallb_forall. intros j Hj. rewrite Forall_forall in Hm. now apply Hm.
    - (* options *)
      destruct (zgen E n InlineSchema t) as [y|] eqn:Hy; [|discriminate]. injection Hz as <-.
      destruct K as [|k]; [discriminate|]. cbn [Zod.zparse] in Ho.
      assert (Hsub : zparse k y v = POk o -> good (TOpt t) (pick v o)).
      { intros H. assert (Hg : good t (pick v o)).
        { apply (Hlt k n (Nat.lt_succ_diag_r k) InlineSchema t y v o); auto. now right. }
        unfold good in *. destruct (stringify (pick v o)); [|reflexivity]. destruct Hg as [m Hm]. exists (S m).
        rewrite de_step, Hm. apply orb_true_r. }
      destruct v; auto. injection Ho as <-. rewrite pick_same. reflexivity.
    - (* results *)
      rewrite !andb_true_iff, !negb_true_iff in Hs. destruct Hs as [[[[Hraw Hs1] Hs2] Hm1] Hm2].
      destruct (zgen E n InlineSchema t) as [y1|] eqn:Hy1; [|discriminate].
      destruct (zgen E n InlineSchema e) as [y2|] eqn:Hy2; [|discriminate]. injection Hz as <-.
      destruct K as [|[|k]]; [discriminate|discriminate|].
      assert (Hone : forall name y r, sound_ty r = true -> may_undef r = false -> zgen E n InlineSchema r = Some y ->
        zparse (S k) (ZObject [(name, y)]) v = POk o ->
        exists c, stringify (pick v o) = Some (JObj [(js name, c)]) /\ exists m, de m r c = true).
      { intros name y r Hsr Hmr Hyr Hor. apply obj_parse in Hor as [l [Hl [Hnd [Hp Hr]]]]; [|repeat constructor; easy|exact Hv].
        inversion Hp as [|? ? [x [o' [H1 [H2 H3]]]] _]; subst. cbn [fst snd] in *. specialize (Hr Hraw). cbn [map fst] in Hr.
        assert (Hg : good r (pick x o')).
        { apply (Hlt k n) with (q := InlineSchema) (z := y); auto. now right. }
        unfold good in Hg. destruct (stringify (pick x o')) as [j|]; [|rewrite Hmr in Hg; discriminate].
        pose proof (one_key _ _ _ Hnd Hr H3) as ->. eauto. }
      change (zparse (S (S k)) (ZUnion [ZObject [("Ok", y1)]; ZObject [("Err", y2)]]) v)
        with (first_ok (map (fun z => zparse (S k) z v) [ZObject [("Ok", y1)]; ZObject [("Err", y2)]])) in Ho.
      apply first_ok_ok in Ho. cbn [map In] in Ho. unfold good. destruct Ho as [Ho|[Ho|[]]].
      + destruct (Hone "Ok" y1 t Hs1 Hm1 Hy1 Ho) as [c [-> [m Hm]]]. exists (S m). rewrite de_step. now rewrite jeqb_refl.
      + destruct (Hone "Err" y2 e Hs2 Hm2 Hy2 Ho) as [c [-> [m Hm]]]. exists (S m). rewrite de_step.
        change (jeqb (js "Err") (js "Ok")) with false. cbv iota. now rewrite jeqb_refl. }
  destruct t; try (apply Hnn; [discriminate|exact Hz]). clear Hnn.
  assert (Hdecl : decl_z (zgen E n) (lookup E i) = Some z -> good (TNamed i) (pick v o)).
  { intros H. apply (decl_ok K n Hlt Hrec i z K v o); auto. }
  destruct Hq as [-> | ->]; [now apply Hdecl|].
  assert (Hlazy : Some (ZLazy (d_ns (lookup E i)) (d_name (lookup E i))) = Some z -> good (TNamed i) (pick v o)).
  { intros [= <-]. destruct K as [|k]; [discriminate|]. cbn [Zod.zparse] in Ho.
    destruct (HM i Hs) as [n' [z' [Hz' Hm]]]. rewrite Hm in Ho.
    apply (Hlt k n' (Nat.lt_succ_diag_r k) Schema (TNamed i) z' v o); auto. now left. }
  unfold ref_z in Hz. destruct (d_from (lookup E i)) as [t|] eqn:Hf, (d_body (lookup E i)) as [st tr fs|tg vs] eqn:Hb;
    try (now apply Hlazy).
  (* an enum with a from-type is written out *)
  pose proof (HS i Hs) as Hd. unfold sound_decl in Hd. rewrite Hf in Hd. destruct Hd as [Htry [Hst Hmu]].
  pose proof (Hrec InlineSchema t z v o (or_intror eq_refl) Hst Hv Hz Ho) as Hg.
  unfold good in *. destruct (stringify (pick v o)); [|rewrite Hmu in Hg; discriminate].
  destruct Hg as [m Hm]. exists (S m). rewrite de_step. unfold read_decl. rewrite Hf, Htry. exact Hm.
Qed.

Theorem main_sound : forall k n, P k n.
Proof.
  induction k as [k IHk] using lt_wf_ind. induction n as [n IHn] using lt_wf_ind. apply main_step; auto.
Qed.
End Sound.

(** ** For texts *)
Theorem sound_texts R E ip M raw wide inside t s z v o :
  good_names E -> tags_ok E -> sound raw wide inside E -> exports E inside M ->
  sound_ty raw wide inside t = true -> returns E Schema t s -> load s = Val z ->
  sane wide v -> accepts ip M z v o ->
  exists n, de R E n t (stringify_elem (if raw then v else o)) = true.
Proof.
  intros Hg HT HS HX Hs Hr Hl Hv [k Ho].
  assert (HM : forall i, inside i = true -> exists n z, zgen E n Schema (TNamed i) = Some z /\
    M (d_ns (lookup E i)) (d_name (lookup E i)) = Some z).
  { intros i Hi. destruct (HX i Hi) as [s' [z' [H1 [H2 H3]]]]. destruct (load_zgen E _ s' z' Hg HT H1 H2) as [n Hn].
    exists n, z'. auto. }
  destruct (load_zgen E t s z Hg HT Hr Hl) as [n Hn].
  pose proof (main_sound R E ip M raw wide inside HS HM k n Schema t z v o (or_introl eq_refl) Hs Hv Hn Ho) as Hgood.
  apply (good_elem R E raw wide inside) in Hgood; [|exact Hs]. exact Hgood.
Qed.

Theorem output_deserializes R E ip M inside t s z v o :
  good_names E -> tags_ok E -> sound false false inside E -> exports E inside M ->
  sound_ty false false inside t = true -> returns E Schema t s -> load s = Val z ->
  sane false v -> accepts ip M z v o ->
  (deserializes R E t (stringify_elem o) <-> jdepth (stringify_elem o) <= max_depth).
Proof.
  intros. split; [intros [_ H']; exact H'|]. intros Hd. split; [|exact Hd].
  now apply (sound_texts R E ip M false false inside t s z v o).
Qed.

Theorem safe_output_deserializes R E ip M inside t s z v o :
  good_names E -> tags_ok E -> sound false true inside E -> exports E inside M ->
  sound_ty false true inside t = true -> returns E Schema t s -> load s = Val z ->
  sane true v -> accepts ip M z v o ->
  (deserializes R E t (stringify_elem o) <-> jdepth (stringify_elem o) <= max_depth).
Proof.
  intros. split; [intros [_ H']; exact H'|]. intros Hd. split; [|exact Hd].
  now apply (sound_texts R E ip M false true inside t s z v o).
Qed.

Theorem value_deserializes R E ip M inside wide t s z v o :
  good_names E -> tags_ok E -> sound true wide inside E -> exports E inside M ->
  sound_ty true wide inside t = true -> returns E Schema t s -> load s = Val z ->
  sane wide v -> accepts ip M z v o ->
  (deserializes R E t (stringify_elem v) <-> jdepth (stringify_elem v) <= max_depth).
Proof.
  intros. split; [intros [_ H']; exact H'|]. intros Hd. split; [|exact Hd].
  now apply (sound_texts R E ip M true wide inside t s z v o).
Qed.
