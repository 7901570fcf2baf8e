(** What serde reads from a document of the fragment, it also reads from the [serde_json::Value]
    of the document. *)
From Coq Require Import List String Bool Arith NArith ZArith Lia.
From Verif Require Import Util RustTy Gen GenSpec Js ZodSpec Zod ZodLoad Serde SerdeSpec SerdeProofs Wire E2EWire.
Import ListNotations.
Local Open Scope string_scope.
Local Open Scope list_scope.

(** The keys of every object differ. *)
Inductive keyed : json -> Prop :=
| ky_null : keyed JNull
| ky_bool b : keyed (JBool b)
| ky_int z : keyed (JInt z)
| ky_float n : keyed (JFloat n)
| ky_str s : keyed (JStr s)
| ky_arr l : Forall keyed l -> keyed (JArr l)
| ky_obj l : NoDup (map fst l) -> Forall (fun p => keyed (snd p)) l -> keyed (JObj l).

Lemma entries_nodup l : NoDup (map fst l) -> NoDup (map fst (entries l)).
Proof.
  induction l as [|p l IH]; intros H; [constructor|]. cbn in H. inversion H as [|? ? H1 H2]; subst.
  cbn [entries flat_map]. fold (entries l). destruct (stringify (snd p)); cbn [app map fst]; auto.
  constructor; auto. intros Hi. now apply entries_keys in Hi.
Qed.

Lemma sane_keyed wide v : sane wide v -> forall j, stringify v = Some j -> keyed j.
Proof.
  induction v as [| |b|n|s|l IH|l IH|l|l|] using jsval_nested; intros H j E; try (injection E as <-; constructor; fail).
  - discriminate.
  - cbn [stringify] in E. destruct n as [z| | | |]; try (injection E as <-; constructor; fail).
    apply (f_equal (fun o => match o with Some x => x | None => JNull end)) in E. cbn beta iota in E. subst j. destruct (Z.ltb _ _); constructor.
  - injection E as <-. constructor. inversion H as [| | | | |l' Hl E| | | |]; subst l'. clear H.
    induction IH as [|v l Hv _ IHl]; [constructor|]. inversion Hl as [|? ? Q1 Q2]; subst. cbn [map]. constructor; auto.
    destruct (stringify v); [now apply (Hv Q1) | constructor].
  - rewrite stringify_obj in E. injection E as <-. inversion H as [| | | | | |l' Hn _ Hl E| | |]; subst l'. clear H. constructor; [now apply entries_nodup|].
    clear Hn. induction IH as [|p l Hv _ IHl]; [constructor|]. inversion Hl as [|? ? Q1 Q2]; subst. cbn [entries flat_map]. fold (entries l).
    specialize (IHl Q2). destruct (stringify (snd p)) as [x|] eqn:Ex; cbn [app]; auto.
  - injection E as <-. constructor; constructor.
  - injection E as <-. constructor; constructor.
  - discriminate.
Qed.
Lemma sane_elem wide v : sane wide v -> keyed (stringify_elem v).
Proof. intros H. unfold stringify_elem. destruct (stringify v) eqn:E; [exact (sane_keyed wide v H _ E) | constructor]. Qed.

Lemma prop_put k k' v m : prop k (put k' v m) = if jeqb k k' then Some v else prop k m.
Proof.
  induction m as [|[k2 v2] m IH]; cbn [put]; [now rewrite prop_cons|].
  destruct (jeqb k' k2) eqn:E2.
  - apply jeqb_eq in E2. subst k2. rewrite !prop_cons. cbn [fst snd]. now destruct (jeqb k k').
  - destruct (before (points k') (points k2)); [now rewrite prop_cons|]. rewrite !prop_cons, IH. cbn [fst snd].
    destruct (jeqb k k2) eqn:E3; [|reflexivity]. apply jeqb_eq in E3. subst k2. destruct (jeqb k k') eqn:E4; [|reflexivity].
    apply jeqb_eq in E4. subst k'. now rewrite jeqb_refl in E2.
Qed.
Lemma keys_put k k' v m : In k (map fst (put k' v m)) -> k = k' \/ In k (map fst m).
Proof.
  induction m as [|[k2 v2] m IH]; cbn [put]; [intros [<-|[]]; now left|].
  destruct (jeqb k' k2); [intros [<-|H]; cbn; auto|]. destruct (before (points k') (points k2)); cbn; [intros [<-|H]; auto|].
  intros [<-|H]; auto. apply IH in H as [<-|H]; auto.
Qed.

Section Value.
Context (float : num -> num).
Local Notation tv := (to_value float).
Definition tobj (l : list (jstr * json)) : list (jstr * json) := fold_left (fun m p => put (fst p) (tv (snd p)) m) l [].

Lemma prop_fold k l : NoDup (map fst l) -> forall m, prop k (fold_left (fun m p => put (fst p) (tv (snd p)) m) l m) =
  match prop k l with Some j => Some (tv j) | None => prop k m end.
Proof.
  induction l as [|p l IH]; intros H m; [reflexivity|]. cbn in H. inversion H as [|? ? H1 H2]; subst. cbn [fold_left].
  rewrite (IH H2), prop_put, prop_cons. destruct (jeqb k (fst p)) eqn:E; [|reflexivity].
  apply jeqb_eq in E. subst k. now rewrite (prop_notin _ _ H1).
Qed.
Lemma prop_tobj k l : NoDup (map fst l) -> prop k (tobj l) = option_map tv (prop k l).
Proof. intros H. unfold tobj. rewrite (prop_fold k l H). now destruct (prop k l). Qed.
Lemma keys_fold k l : forall m, In k (map fst (fold_left (fun m p => put (fst p) (tv (snd p)) m) l m)) -> In k (map fst l) \/ In k (map fst m).
Proof.
  induction l as [|p l IH]; intros m H; [now right|]. cbn [fold_left] in H. apply IH in H as [H|H]; [now left; right|].
  apply keys_put in H as [->|H]; [left; now left | now right].
Qed.
Lemma keys_tobj k l : In k (map fst (tobj l)) -> In k (map fst l).
Proof. intros H. apply keys_fold in H as [H|[]]. exact H. Qed.

Lemma known_sub ks (l l' : list (jstr * json)) : (forall k, In k (map fst l') -> In k (map fst l)) -> known ks l = true -> known ks l' = true.
Proof.
  unfold known. rewrite !forallb_forall. intros Hs H p Hp. destruct (proj1 (in_map_iff _ _ _) (Hs _ (in_map fst _ _ Hp))) as (q & E & Hq).
  rewrite <- E. now apply H.
Qed.
Lemma without_keys k k' (l : list (jstr * json)) : In k (map fst (without k' l)) <-> k <> k' /\ In k (map fst l).
Proof.
  unfold without. rewrite !in_map_iff. split.
  - intros (p & <- & H). apply filter_In in H as [H1 H2]. split; [|eauto]. intros E. rewrite <- E, jeqb_refl in H2. discriminate.
  - intros (Hn & p & <- & H). exists p. split; [reflexivity|]. apply filter_In. split; [exact H|].
    destruct (jeqb k' (fst p)) eqn:E; [|reflexivity]. apply jeqb_eq in E. congruence.
Qed.
Lemma prop_without_same k (l : list (jstr * json)) : prop k (without k l) = None.
Proof. apply prop_notin. rewrite without_keys. tauto. Qed.
Lemma prop_without_tobj k k' l : NoDup (map fst l) -> prop k (without k' (tobj l)) = option_map tv (prop k (without k' l)).
Proof.
  intros H. destruct (jeqb k k') eqn:E.
  - apply jeqb_eq in E. subst k'. now rewrite !prop_without_same.
  - rewrite !prop_without by exact E. now apply prop_tobj.
Qed.

Lemma keyed_prop k l j : Forall (fun p => keyed (snd p)) l -> prop k l = Some j -> keyed j.
Proof. intros H E. apply prop_in in E. rewrite Forall_forall in H. exact (H _ E). Qed.

Section Fragment.
Context (R : rust) (E : env) (raw wide : bool) (inside : nat -> bool).
Hypothesis HS : sound raw wide inside E.
Local Notation sound_ty := (sound_ty raw wide inside).
Local Notation sound_field := (sound_field raw wide inside).

Section Step.
Context (rec : ty -> json -> bool) (miss : ty -> bool).
Hypothesis Hrec : forall t j, sound_ty t = true -> keyed j -> rec t j = true -> rec t (tv j) = true.

Lemma named_value cd deny fs l l' : forallb sound_field (kept fs) = true -> Forall (fun p => keyed (snd p)) l ->
  (forall k, prop k l' = option_map tv (prop k l)) -> (forall k, In k (map fst l') -> In k (map fst l)) ->
  read_named rec miss cd deny fs l = true -> read_named rec miss cd deny fs l' = true.
Proof.
  intros Hs Hk Hp Hi. unfold read_named. rewrite !andb_true_iff, !forallb_forall. intros [H1 H2]. rewrite forallb_forall in Hs. split.
  - intros f Hf. rewrite Hp. specialize (H1 f Hf). destruct (prop (js (f_name f)) l) as [j|] eqn:Ep; cbn [option_map]; [|exact H1].
    apply Hrec; [|exact (keyed_prop _ _ _ Hk Ep) | exact H1]. specialize (Hs f Hf). apply andb_prop in Hs. apply Hs.
  - destruct deny; [|reflexivity]. cbn in *. now apply (known_sub _ l).
Qed.

Lemma kept_sub f fs fs' : kept (f :: fs) = fs' -> (f_skip f = false -> In f fs') /\ (forall g, In g (kept fs) -> In g fs').
Proof. intros <-. cbn. destruct (f_skip f); cbn; split; auto; discriminate. Qed.
Lemma seq_value cd fs : forall l, forallb sound_field (kept fs) = true -> Forall keyed l ->
  read_seq rec cd fs l = true -> read_seq rec cd fs (map tv l) = true.
Proof.
  induction fs as [|f fs IH]; intros l Hs Hk; cbn [read_seq]; [destruct l; auto|].
  cbn in Hs. destruct (f_skip f); cbn in Hs.
  - now apply IH.
  - apply andb_prop in Hs as [Hf Hs]. apply andb_prop in Hf as [Hf _]. destruct l as [|j l]; cbn [map].
    + rewrite !andb_true_iff. intros [H1 H2]. split; [exact H1|]. now apply (IH [] Hs).
    + inversion Hk; subst. rewrite !andb_true_iff. intros [H1' H2']. split; [now apply Hrec | now apply IH].
Qed.
Lemma fields_value cd deny fs j : forallb sound_field (kept fs) = true -> keyed j ->
  read_fields rec miss cd deny fs j = true -> read_fields rec miss cd deny fs (tv j) = true.
Proof.
  intros Hs Hk. destruct Hk as [| | | | |l Hl|l Hn Hl]; try discriminate; cbn [read_fields to_value].
  - now apply seq_value.
  - apply named_value; auto; fold (tobj l); [intros k; now apply prop_tobj | intros k; apply keys_tobj].
Qed.

Lemma null_value j : is_null (tv j) = is_null j.
Proof. destruct j; try reflexivity. cbn. now destruct (Z.leb _ z && Z.leb z _). Qed.

Lemma content_value deny v j : forallb sound_field (kept (v_fields v)) = true -> keyed j ->
  read_content rec miss deny v j = true -> read_content rec miss deny v (tv j) = true.
Proof.
  intros Hs Hk. unfold read_content, variant_shape. destruct (v_style v), (v_fields v) as [|f [|g fs]]; try (now rewrite null_value);
    try (now apply fields_value); try (destruct Hk; try discriminate; now apply seq_value).
  cbn in Hs. destruct (f_skip f); [now rewrite null_value|]. cbn in Hs. apply andb_prop in Hs as [Hs _]. apply andb_prop in Hs as [Hs _]. now apply Hrec.
Qed.

Lemma by_name_in vs s v : by_name vs s = Some v -> In v (kept_variants vs).
Proof. intros H. now apply find_some in H. Qed.

Lemma str_prop k l s : NoDup (map fst l) -> prop k l = Some (JStr s) -> prop k (tobj l) = Some (JStr s).
Proof. intros H Ep. now rewrite prop_tobj, Ep. Qed.

Lemma enum_value deny tg vs j : (forall v, In v (kept_variants vs) -> sound_variant raw wide inside tg v) -> keyed j ->
  read_enum rec miss deny tg vs j = true -> read_enum rec miss deny tg vs (tv j) = true.
Proof.
  intros Hv Hk.
  assert (Hc : forall v d j, In v (kept_variants vs) -> keyed j -> read_content rec miss d v j = true -> read_content rec miss d v (tv j) = true).
  { intros v d x Hin. apply content_value. apply (Hv v Hin). }
  destruct tg as [|tag|tag content|]; cbn [read_enum].
  - destruct Hk as [| | | |s|l Hl|l Hn Hl]; try discriminate; cbn [to_value]; [now intros|].
    destruct l as [|[k c] [|q l]]; try discriminate. cbn [fold_left fst snd put]. destruct (by_name vs k) as [v|] eqn:Ev; [|discriminate].
    apply Hc; [now apply by_name_in in Ev|]. now inversion Hl.
  - destruct Hk as [| | | |s|l Hl|l Hn Hl]; try discriminate; cbn [to_value].
    + destruct l as [|[| | | |s| |] l]; try discriminate. cbn [map to_value]. inversion Hl; subst.
      destruct (by_name vs s) as [v|] eqn:Ev; [|discriminate]. apply by_name_in in Ev. destruct (Hv v Ev) as [Hs Hst].
      unfold variant_shape. destruct (v_style v), (v_fields v) as [|f [|g fs]] eqn:Ef; try tauto; auto; now apply seq_value.
    + fold (tobj l). destruct (prop (js tag) l) as [[| | | |s| |]|] eqn:Et; try discriminate. rewrite (str_prop _ _ _ Hn Et).
      destruct (by_name vs s) as [v|] eqn:Ev; [|discriminate]. apply by_name_in in Ev. destruct (Hv v Ev) as [Hs Hst].
      assert (Hw : Forall (fun p => keyed (snd p)) (without (js tag) l)).
      { rewrite Forall_forall in *. intros p Hp. apply Hl. now apply filter_In in Hp. }
      assert (Hnm : forall fs, kept fs = kept (v_fields v) -> read_named rec miss false deny fs (without (js tag) l) = true -> read_named rec miss false deny fs (without (js tag) (tobj l)) = true).
      { intros fs Ek. apply named_value; auto; [now rewrite Ek | intros k; now apply prop_without_tobj|].
        intros k Hi. apply without_keys in Hi as [Q1 Q2]. apply without_keys. split; [exact Q1 | now apply keys_tobj]. }
      unfold variant_shape. destruct (v_style v), (v_fields v) as [|f [|g fs]] eqn:Ef; try tauto; auto; apply Hnm; reflexivity.
  - destruct Hk as [| | | |s|l Hl|l Hn Hl]; try discriminate; cbn [to_value].
    + destruct l as [|[| | | |s| |] [|c [|x l]]]; try discriminate. cbn [map to_value]. inversion Hl as [|? ? _ Hl']; subst. inversion Hl'; subst.
      destruct (by_name vs s) as [v|] eqn:Ev; [|discriminate]. apply Hc; [now apply by_name_in in Ev | assumption].
    + fold (tobj l). rewrite !andb_true_iff. intros [H1 H2]. split.
      * destruct (prop (js tag) l) as [[| | | |s| |]|] eqn:Et; try discriminate. rewrite (str_prop _ _ _ Hn Et).
        destruct (by_name vs s) as [v|] eqn:Ev; [|discriminate]. rewrite (prop_tobj _ _ Hn). destruct (prop (js content) l) as [c|] eqn:Ec; cbn [option_map]; [|exact H1].
        apply Hc; [now apply by_name_in in Ev | exact (keyed_prop _ _ _ Hl Ec) | exact H1].
      * destruct deny; [|reflexivity]. cbn in *. apply (known_sub _ l); [intros k; apply keys_tobj | exact H2].
  - rewrite !existsb_exists. intros (v & H1 & H2). exists v. split; [exact H1|]. now apply Hc.
Qed.

Lemma decl_value i j : inside i = true -> keyed j -> read_decl R E rec miss i j = true -> read_decl R E rec miss i (tv j) = true.
Proof.
  intros Hi Hk. pose proof (HS i Hi) as Hd. unfold sound_decl in Hd. unfold read_decl.
  destruct (d_from (lookup E i)) as [t|].
  { destruct Hd as (-> & Ht & _). now apply Hrec. }
  destruct (d_body (lookup E i)) as [st tr fs|tg vs].
  2:{ destruct Hd as (_ & _ & Hv). now apply enum_value. }
  destruct Hd as [Hs Hd]. rewrite (no_flatten raw wide inside fs Hs).
  assert (Hin : forall f, In f fs -> f_skip f = false -> sound_ty (f_ty f) = true).
  { intros f Hf Hk'. rewrite forallb_forall in Hs. assert (Hkf : In f (kept fs)) by (apply filter_In; now rewrite Hk').
    specialize (Hs f Hkf). apply andb_prop in Hs. apply Hs. }
  destruct tr.
  - destruct (transparent_field fs) as [f|] eqn:Et; [|discriminate]. unfold transparent_field in Et.
    assert (Hf : In f (filter (fun f => negb (f_skip f) && negb (f_default f) && negb (phantom (f_ty f))) fs)).
    { destruct (filter _ fs); [discriminate|]. injection Et as ->. now left. }
    apply filter_In in Hf as [Hf Q]. apply andb_prop in Q as [Q _]. apply andb_prop in Q as [Q _]. apply negb_true_iff in Q. apply Hrec; auto.
  - destruct st; [now apply fields_value| |contradiction]. destruct Hd as [Hpos _].
    assert (Hall : forall f, In f fs -> sound_ty (f_ty f) = true).
    { intros f Hf. apply Hin; auto. unfold positional in Hpos. rewrite forallb_forall in Hpos. specialize (Hpos f Hf).
      apply andb_prop in Hpos as [Q _]. now apply negb_true_iff in Q. }
    destruct fs as [|f [|g fs]].
    + destruct Hk; try discriminate. now apply seq_value.
    + apply Hrec; auto. apply Hall. now left.
    + destruct Hk; try discriminate. now apply seq_value.
Qed.
End Step.

Lemma int_value k z : sound_prim wide (PInt k) = true -> in_int k z = true -> tv (JInt z) = JInt z.
Proof.
  intros Hs Hz. cbn [to_value]. unfold in_int in Hz. apply andb_prop in Hz as [H1 H2]. apply Z.leb_le in H1. apply Z.leb_le in H2.
  assert (Z.leb (int_min I64) z = true) as -> by (apply Z.leb_le; destruct k; try discriminate; cbn in *; lia).
  assert (Z.leb z (int_max U64) = true) as -> by (apply Z.leb_le; destruct k; try discriminate; cbn in *; lia).
  reflexivity.
Qed.

Theorem de_value : forall n t j, sound_ty t = true -> keyed j -> de R E n t j = true -> de R E n t (tv j) = true.
Proof.
  induction n as [|n IH]; intros t j Hs Hk H; [discriminate|].
  destruct t as [p|ts|w t|t|k t|s t|s t u|t|t e|i]; cbn [de] in *.
  - destruct p, j; try discriminate; try exact H; try reflexivity.
    + cbn in H. now rewrite (int_value _ _ Hs H).
    + cbn. now destruct (Z.leb _ z && Z.leb z _).
    + cbn. now destruct (Z.leb _ z && Z.leb z _).
  - destruct Hk as [| | | | |l Hl|]; try discriminate. cbn [to_value]. apply andb_prop in H as [H1 H2]. rewrite map_length, H1. cbn [andb].
    cbn in Hs. clear H1. revert l Hl H2. induction ts as [|t ts IHt]; intros [|x l] Hl H2; try reflexivity. cbn in Hs, H2. apply andb_prop in Hs as [Hs1 Hs2].
    apply andb_prop in H2 as [Q1 Q2]. inversion Hl; subst. cbn. rewrite IH; auto. cbn. now apply IHt.
  - destruct w; try discriminate Hs; try (apply IH; assumption).
    rewrite null_value. apply orb_prop in H as [->|H]; [reflexivity|]. rewrite IH; auto. apply orb_true_r.
  - destruct Hk as [| | | | |l Hl|]; try discriminate. cbn [to_value]. cbn in Hs. rewrite forallb_forall in *. rewrite Forall_forall in Hl.
    intros x Hx. apply in_map_iff in Hx as (y & <- & Hy). apply IH; auto.
  - discriminate.
  - discriminate.
  - discriminate.
  - cbn in Hs. rewrite null_value. apply orb_prop in H as [->|H]; [reflexivity|]. rewrite IH; auto. apply orb_true_r.
  - cbn in Hs. rewrite !andb_true_iff in Hs. destruct Hs as [[[[_ Hs1] Hs2] _] _].
    destruct Hk as [| | | | | |l Hn Hl]; try discriminate. destruct l as [|[kk c] [|q l]]; try discriminate. cbn [to_value fold_left fst snd put].
    inversion Hl; subst. destruct (jeqb kk (js "Ok")); [now apply IH|]. destruct (jeqb kk (js "Err")); [now apply IH | discriminate].
  - apply decl_value; auto.
Qed.
End Fragment.
End Value.
