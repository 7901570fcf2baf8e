(** What serde writes passes the generated schema. *)
From Coq Require Import List String Ascii Bool NArith ZArith Lia.
From Verif Require Import RustTy Gen GenSpec GenProofs JsLex JsParse Js Zod Ast AstProofs ZodProofs ZodSpec ZodLoad ZGen
  Serde SerdeSpec SerdeProofs ParseSpec ParseProofs ParseTerm CompleteSpec Round.
Import ListNotations.
Local Open Scope string_scope.
Local Open Scope list_scope.

Section Acc.
Context (ip : option string -> jstr -> bool) (M : menv).
Notation zparse := (zparse ip M).
Notation ans := (ans ip M).

Definition acc (z : zod) (v : jsval) : Prop := exists k o, zparse k z v = POk o.

Lemma acc_opt b z v : acc z v -> acc (zopt b z) v.
Proof.
  intros [k [o H]]. destruct b; [|exists k, o; exact H]. exists (S k). cbn [Zod.zparse zopt].
  destruct v; eauto.
Qed.

Lemma acc_obj ps l : (forall p, In p ps -> acc (snd p) (get_prop (fst p) l)) -> acc (ZObject ps) (JsObj l).
Proof.
  intros H. destruct (ok_all ip M snd (fun p => get_prop (fst p) l) ps H) as [k Hk]. exists (S k). cbn [Zod.zparse].
  destruct (collect_all (fun p => zparse k (snd p) (get_prop (fst p) l)) ps Hk) as [os ->]. eexists. reflexivity.
Qed.

Lemma acc_tuple zs l : Forall2 acc zs l -> acc (ZTuple zs) (JsArr l).
Proof.
  intros H. destruct (ok_all ip M fst snd (combine zs l)) as [k Hk].
  { intros [z x] Hi. exact (in_combine_Forall2 _ _ _ _ _ H Hi). }
  assert (Hl : List.length zs = List.length l) by (clear -H; induction H; cbn; congruence).
  exists (S k). cbn [Zod.zparse]. rewrite Hl, Nat.ltb_irrefl.
  destruct (collect_all (fun p => zparse k (fst p) (snd p)) (combine zs l) Hk) as [os ->]. eauto.
Qed.

Lemma acc_arr z l : (forall x, In x l -> acc z x) -> acc (ZArray z) (JsArr l).
Proof.
  intros H. destruct (ok_all ip M (fun _ => z) (fun x => x) l H) as [k Hk]. exists (S k). cbn [Zod.zparse].
  destruct (collect_all (zparse k z) l Hk) as [os ->]. eexists. reflexivity.
Qed.

Lemma acc_union zs z v : (forall y, In y zs -> ans y v) -> In z zs -> acc z v -> acc (ZUnion zs) v.
Proof.
  intros HA Hz [k1 [o Ho]]. destruct (ans_all ip M (fun z => z) (fun _ => v) zs HA) as [k2 Hk2].
  exists (S (Nat.max k1 k2)). cbn [Zod.zparse].
  eapply (first_hit (fun z => zparse (Nat.max k1 k2) z v)).
  - intros y Hy. apply (okr_mono ip M k2); [lia|]. now apply Hk2.
  - exact Hz.
  - apply (ok_mono ip M k1); [lia|exact Ho].
Qed.

Lemma acc_lazy ns name z v : M ns name = Some z -> acc z v -> acc (ZLazy ns name) v.
Proof. intros H [k [o Hk]]. exists (S k), o. cbn [Zod.zparse]. now rewrite H. Qed.

Lemma acc_lit s : acc (ZLit s) (JsStr s).
Proof. exists 1, (JsStr s). cbn [Zod.zparse]. now rewrite jeqb_refl. Qed.

Lemma acc_disc tag opts d z l : disc_get (get_prop tag l) = Some d ->
  find (fun o => val_eqb d (fst o)) opts = Some (d, z) -> acc z (JsObj l) -> acc (ZDisc tag opts) (JsObj l).
Proof. intros Hd Hf [k [o Hk]]. exists (S k), o. cbn [Zod.zparse]. now rewrite Hd, Hf. Qed.
End Acc.

Lemma val_eqb_refl d : val_eqb d d = true.
Proof. destruct d as [s|]; [apply jeqb_refl|reflexivity]. Qed.

Lemma disc_opts_find tag zs : forall seen opts, disc_opts tag seen zs = Val opts ->
  (forall d z, find (fun o => val_eqb d (fst o)) seen = Some (d, z) -> find (fun o => val_eqb d (fst o)) opts = Some (d, z)) /\
  forall z d, In z zs -> disc_value tag z = Val d -> find (fun o => val_eqb d (fst o)) opts = Some (d, z).
Proof.
  induction zs as [|y zs IH]; intros seen opts H; cbn [disc_opts] in H.
  - injection H as <-. split; [auto|easy].
  - apply ebind_val in H as [x [Hx H]]. destruct (existsb _ seen) eqn:Hs; [discriminate|].
    destruct (IH _ _ H) as [H1 H2]. split.
    + intros d z Hf. apply H1. clear -Hf. induction seen as [|p seen IHs]; [discriminate|]. cbn [find app] in *.
      destruct (val_eqb d (fst p)); auto.
    + intros z d [->|Hz] Hd; [|now apply H2]. assert (x = d) by congruence. subst x. apply H1.
      clear -Hs. induction seen as [|p seen IHs]; cbn [find app fst].
      * now rewrite val_eqb_refl.
      * cbn in Hs. apply orb_false_iff in Hs as [Hp Hs]. rewrite Hp. auto.
Qed.

(** ** Primitive types *)
Definition int_checks (i : ikind) : list ncheck :=
  CFinite :: CInt ::
  match i with
  | Isize => []
  | Usize => [CMin 0]
  | U8 | U16 | U32 | U64 | U128 => [CMin 0; CMax (round53 (int_max i))]
  | _ => [CMax (round53 (int_max i)); CMin (- round53 (- int_min i))]
  end.

Lemma zprim_int i : zprim (PInt i) = Some (ZNumber (int_checks i)).
Proof. destruct i; vm_compute; reflexivity. Qed.

Lemma checks_ok ip M cs x : forallb (num_ok (NInt x)) cs = true -> acc ip M (ZNumber cs) (JsNum (NInt x)).
Proof. intros H. exists 1, (JsNum (NInt x)). cbn [zparse]. now rewrite H. Qed.

Lemma int_acc ip M i x z : in_int i x = true -> zprim (PInt i) = Some z -> acc ip M z (JsNum (NInt (round_int x))).
Proof.
  unfold in_int. rewrite andb_true_iff, !Z.leb_le. intros [Hlo Hhi] Hz. rewrite zprim_int in Hz. injection Hz as <-.
  apply checks_ok.
  assert (Hmax : (0 <= int_max i)%Z) by (clear; destruct i; vm_compute; discriminate).
  assert (Hmin : (0 <= - int_min i)%Z) by (clear; destruct i; vm_compute; discriminate).
  assert (HU : Z.leb (round_int x) (round53 (int_max i)) = true).
  { apply Z.leb_le, round_int_upper; lia. }
  assert (HL : Z.leb (- round53 (- int_min i)) (round_int x) = true).
  { apply Z.leb_le, round_int_lower; lia. }
  assert (H0 : int_min i = 0%Z -> Z.leb 0 (round_int x) = true).
  { intros E. rewrite E in HL. exact HL. }
  clear Hmax Hmin Hlo Hhi. unfold int_checks.
  destruct i; cbn [forallb num_ok andb]; rewrite ?HU, ?HL, ?(H0 eq_refl); reflexivity.
Qed.

Section Prim.
Context (R : rust) (ip : option string -> jstr -> bool) (M : menv) (mild : bool).
Context (Hip : ips_agree R ip).

Lemma no_scalars s : scalars s = 0 -> s = [].
Proof. destruct s as [|u r]; [reflexivity|]. cbn. destruct (high u); [destruct r|]; discriminate. Qed.

Lemma prim_acc p j z : complete_prim mild p = true -> (mild = true -> plain_json j = true) ->
  prim_writes R p j = true -> zprim p = Some z -> acc ip M z (jsparse j).
Proof.
  intros Hc Hp Hw Hz. destruct Hip as [H4 [H6 Ha]]. destruct p as [|i| | | | | | | |]; try discriminate Hc.
  - destruct j; try discriminate Hw. injection Hz as <-. exists 1. eexists. reflexivity.
  - destruct j; try discriminate Hw. eapply int_acc; [exact Hw|exact Hz].
  - injection Hz as <-. specialize (Hp Hc). destruct j; try discriminate Hw; try discriminate Hp.
    cbn in Hw |- *. destruct n; try discriminate; exists 1; eexists; reflexivity.
  - injection Hz as <-. specialize (Hp Hc). destruct j; try discriminate Hw; try discriminate Hp.
    cbn in Hw |- *. destruct n; try discriminate; exists 1; eexists; reflexivity.
  - specialize (Hp Hc). destruct j as [| | | |s| |]; try discriminate Hw.
    injection Hz as <-. cbn in Hw. apply andb_true_iff in Hw as [_ Hw]. apply Nat.eqb_eq in Hw.
    destruct s as [|u r]; [discriminate|]. cbn in Hp, Hw. apply andb_true_iff in Hp as [Hu _].
    apply andb_true_iff in Hu as [Hu _]. apply negb_true_iff in Hu. rewrite Hu in Hw. injection Hw as Hw.
    apply no_scalars in Hw. subst r. exists 1. eexists. reflexivity.
  - destruct j; try discriminate Hw. injection Hz as <-. exists 1. eexists. reflexivity.
  - destruct j; try discriminate Hw. apply andb_true_iff in Hw as [_ Hw]. injection Hz as <-. exists 1. eexists.
    cbn. rewrite (H4 _ Hw). reflexivity.
  - destruct j; try discriminate Hw. apply andb_true_iff in Hw as [_ Hw]. injection Hz as <-. exists 1. eexists.
    cbn. rewrite (H6 _ Hw). reflexivity.
  - destruct j; try discriminate Hw. apply andb_true_iff in Hw as [_ Hw]. injection Hz as <-. exists 1. eexists.
    cbn. rewrite (Ha _ Hw). reflexivity.
Qed.
End Prim.

Definition pl (l : list (jstr * json)) : list (jstr * jsval) := map (fun p => (fst p, jsparse (snd p))) l.

Lemma prop_pl k l : prop k (pl l) = option_map jsparse (prop k l).
Proof.
  induction l as [|p l IH]; [reflexivity|]. cbn [pl map]. rewrite !prop_cons. cbn [fst snd].
  destruct (jeqb k (fst p)); [reflexivity|exact IH].
Qed.

Lemma jeqb_true a b : jeqb a b = true -> a = b.
Proof. apply jeqb_eq. Qed.

Lemma js_eqb a b : jeqb (js a) (js b) = String.eqb a b.
Proof.
  destruct (String.eqb_spec a b) as [->|H]; [apply jeqb_refl|].
  destruct (jeqb (js a) (js b)) eqn:He; [|reflexivity]. apply jeqb_eq, js_inj in He. contradiction.
Qed.

Lemma write_named_get rec fs : forall l, write_named rec fs l = true -> NoDup (map f_sname fs) ->
  forall f, In f fs -> exists j, prop (js (f_sname f)) l = Some j /\ rec (f_ty f) j = true /\ In (js (f_sname f), j) l.
Proof.
  induction fs as [|g fs IH]; intros [|[k j] l] Hw Hnd f Hf; try discriminate Hw; [destruct Hf|].
  cbn in Hw. apply andb_true_iff in Hw as [Hw Hw2]. apply andb_true_iff in Hw as [Hk Hj]. apply jeqb_eq in Hk. subst k.
  rewrite prop_cons. cbn [fst snd]. inversion Hnd as [|? ? Hn1 Hn2]; subst. destruct Hf as [->|Hf].
  - rewrite jeqb_refl. exists j. split; [reflexivity|]. split; [exact Hj|now left].
  - rewrite js_eqb. destruct (String.eqb_spec (f_sname f) (f_sname g)) as [He|He].
    + exfalso. apply Hn1. rewrite <- He. now apply in_map.
    + destruct (IH l Hw2 Hn2 f Hf) as [j' [H1 [H2 H3]]]. exists j'. split; [exact H1|]. split; [exact H2|now right].
Qed.

Lemma write_named_key rec fs : forall l, write_named rec fs l = true -> forall k, In k (map fst l) ->
  exists f, In f fs /\ k = js (f_sname f).
Proof.
  induction fs as [|g fs IH]; intros [|[k' j] l] Hw k Hk; try discriminate Hw; [destruct Hk|].
  cbn in Hw. apply andb_true_iff in Hw as [Hw Hw2]. apply andb_true_iff in Hw as [Hk' _]. apply jeqb_eq in Hk'. subst k'.
  destruct Hk as [<-|Hk]; [exists g; split; [now left|reflexivity]|].
  destruct (IH l Hw2 k Hk) as [f [H1 H2]]. exists f. split; [now right|exact H2].
Qed.

Lemma oget_shape_first {A} tag (a : A) ps : (forall p, In p ps -> fst p <> tag) -> oget (shape ((tag, a) :: ps)) tag = Some a.
Proof.
  intros H. unfold shape. cbn [fold_left fst snd]. assert (H0 : oget (oset [] tag a) tag = Some a).
  { unfold oset, oget. cbn. unfold key_eqb. cbn. now rewrite String.eqb_refl. }
  revert H0. generalize (oset [] tag a) as o. induction ps as [|p ps IH]; intros o Ho; [exact Ho|]. cbn [fold_left].
  apply IH; [intros q Hq; apply H; now right|]. rewrite oget_oset_other; [exact Ho|]. intros ->. now apply (H p (or_introl eq_refl)).
Qed.

Lemma Forall2_in_left {A B} (P : A -> B -> Prop) l l' a : Forall2 P l l' -> In a l -> exists b, In b l' /\ P a b.
Proof.
  induction 1 as [|x y l l' H _ IH]; [easy|]. intros [<-|Hb]; [exists y; split; [now left|exact H]|].
  destruct (IH Hb) as [b [H1 H2]]. exists b. split; [now right|exact H2].
Qed.

Section Main.
Context (R : rust) (E : env) (ip : option string -> jstr -> bool) (M : menv) (inside : nat -> bool) (mild : bool).
Context (Hip : ips_agree R ip) (HC : closed E inside) (HF : complete mild inside E).
Context (HX : forall i, inside i = true -> exists n z,
   zgen E n Schema (TNamed i) = Some z /\ M (d_ns (lookup E i)) (d_name (lookup E i)) = Some z).
Context (HG : forall i, inside i = true -> grounded E (TNamed i)).
Notation acc := (acc ip M).
Notation ser := (ser R E).
Notation complete_ty := (complete_ty mild inside).

Definition okj (j : json) : Prop := mild = true -> plain_json j = true.

Lemma okj_arr l x : okj (JArr l) -> In x l -> okj x.
Proof. intros H Hx Hm. specialize (H Hm). cbn in H. rewrite forallb_forall in H. now apply H. Qed.
Lemma okj_obj l k x : okj (JObj l) -> In (k, x) l -> okj x.
Proof. intros H Hx Hm. specialize (H Hm). cbn in H. rewrite forallb_forall in H. now apply (H (k, x)). Qed.

Lemma complete_within t : complete_ty t = true -> within inside t.
Proof.
  induction t as [p|ts IH|w t IH|t IH|k t IH|c t IH|c k v IHk IHv|t IH|t e IHt IHe|i] using ty_ind'; cbn; intros H.
  - intros j [].
  - intros j Hj. cbn in Hj. apply in_flat_map in Hj as [u [Hu Hj]]. rewrite forallb_forall in H. rewrite Forall_forall in IH.
    exact (IH u Hu (H u Hu) j Hj).
  - destruct w; try (apply IH; exact H); try discriminate. apply andb_true_iff in H as [_ H]. now apply IH.
  - now apply IH.
  - now apply IH.
  - discriminate.
  - discriminate.
  - apply andb_true_iff in H as [_ H]. now apply IH.
  - apply andb_true_iff in H as [H1 H2]. intros j Hj. apply in_app_or in Hj as [Hj|Hj]; [now apply (IHt H1)|now apply (IHe H2)].
  - intros j [<-|[]]. exact H.
Qed.

Lemma any_ans t n q z v : within inside t -> sq q -> zgen E n q t = Some z -> ans ip M z v.
Proof. intros. apply (term_ans E ip M inside HC HX HG (S (vsize v)) v (Nat.lt_succ_diag_r _) t n q z); assumption. Qed.

Section Level.
Context (n : nat).
Context (Hrec : forall t j, ser n t j = true -> complete_ty t = true -> okj j ->
  forall m q z, sq q -> zgen E m q t = Some z -> acc z (jsparse j)).

Lemma field_acc m f j z : complete_ty (f_ty f) = true -> okj j -> ser n (f_ty f) j = true ->
  field_z (zgen E m) f = Some z -> acc z (jsparse j).
Proof.
  intros Hc Hj Hs Hz. unfold field_z in Hz. destruct (zgen E m InlineSchema (f_ty f)) as [y|] eqn:Hy; [|discriminate].
  injection Hz as <-. apply acc_opt. eapply Hrec; eauto. now right.
Qed.

Lemma named_acc m fs l ps : complete_named mild inside fs -> write_named (ser n) (skept fs) l = true -> okj (JObj l) ->
  all_some (map (prop_z (zgen E m)) (kept fs)) = Some ps ->
  forall p, In p ps -> acc (snd p) (get_prop (fst p) (pl l)) /\ In (fst p) (map f_sname (skept fs)).
Proof.
  intros [Hk [_ Hnd]] Hw Hj Hps p Hp. destruct (props_zs _ _ _ Hps p Hp) as [f [Hf [Hz Hn]]].
  destruct (Hk f Hf) as [Hc [Hss Hsn]].
  assert (Hin : In f (skept fs)).
  { unfold skept. apply filter_In. unfold kept in Hf. apply filter_In in Hf as [Hf _]. split; [exact Hf|]. now rewrite Hss. }
  destruct (write_named_get _ _ l Hw Hnd f Hin) as [j [Hl [Hs Hi]]]. split.
  - unfold get_prop. rewrite <- Hn, <- Hsn, prop_pl, Hl. cbn [option_map].
    eapply field_acc; [exact Hc|eapply okj_obj; [exact Hj|exact Hi]|exact Hs|exact Hz].
  - rewrite <- Hn, <- Hsn. now apply in_map.
Qed.

Lemma tuple_acc m fs : complete_tuple mild inside fs -> forall l zs, write_seq (ser n) fs l = true -> okj (JArr l) ->
  all_some (map (field_z (zgen E m)) fs) = Some zs -> acc (ZTuple zs) (jsparse (JArr l)).
Proof.
  intros Hc l zs Hw Hj Hz. cbn [jsparse]. apply acc_tuple. apply all_some_map in Hz.
  assert (Hj' : forall x, In x l -> okj x) by (intros x; now apply okj_arr). clear Hj.
  revert l Hw Hj'. induction Hz as [|f z fs zs Hf _ IH]; intros [|x l] Hw Hj; try discriminate Hw; [constructor|].
  cbn in Hw. apply andb_true_iff in Hw as [Hw1 Hw2]. constructor.
  - eapply field_acc; [|apply Hj; now left|exact Hw1|exact Hf]. now apply Hc; left.
  - apply IH; auto. + intros g Hg. apply Hc. now right. + intros y Hy. apply Hj. now right.
Qed.

Lemma tuple_kept fs : complete_tuple mild inside fs -> kept fs = fs /\ skept fs = fs.
Proof.
  unfold kept, skept. induction fs as [|f fs IH]; intros H; [auto|]. cbn [filter].
  destruct (H f (or_introl eq_refl)) as [_ [H1 [H2 _]]]. rewrite H1, H2. cbn [negb].
  destruct IH as [-> ->]; auto. intros g Hg. apply H. now right.
Qed.

Definition wcontent (v : variant) (j : json) : bool :=
  match variant_wshape v with
  | SUnit => false
  | SNewtype f => ser n (f_ty f) j
  | STuple fs => match j with JArr l => write_seq (ser n) fs l | _ => false end
  | SStruct fs => match j with JObj l => write_named (ser n) fs l | _ => false end
  end.

Definition complete_inner (v : variant) : Prop :=
  match v_style v with
  | StUnit => False
  | StTuple => v_fields v <> [] /\ complete_tuple mild inside (v_fields v)
  | StNamed => complete_named mild inside (v_fields v)
  end.

Lemma content_acc m v j z : complete_inner v -> wcontent v j = true -> okj j -> inner_z E m v = Some z -> acc z (jsparse j).
Proof.
  unfold complete_inner, wcontent, variant_wshape, inner_z. intros Hc Hw Hj Hz. destruct (v_style v).
  - destruct j as [| | | | | |l]; try discriminate Hw. destruct (all_some _) as [ps|] eqn:Ha; [|discriminate]. injection Hz as <-.
    cbn [jsparse]. apply acc_obj. intros p Hp. apply shape_in in Hp. eapply named_acc; eauto.
  - destruct Hc as [Hne Hc]. destruct (tuple_kept _ Hc) as [Hk Hsk]. rewrite Hk in Hz.
    destruct (v_fields v) as [|f [|f2 r]] eqn:Hf; [easy| |].
    + destruct (Hc f (or_introl eq_refl)) as [Hcf [_ [Hss _]]]. rewrite Hss in Hw. eapply field_acc; eauto.
    + rewrite <- Hf in *. rewrite Hsk in Hw. destruct j as [| | | | |l|]; try discriminate Hw.
      destruct (all_some (map (field_z (zgen E m)) (v_fields v))) as [zs|] eqn:Ha; [|discriminate]. injection Hz as <-.
      eapply tuple_acc; eauto.
  - destruct Hc.
Qed.

Lemma adjacent_acc tag ctag name y c : tag <> ctag -> acc y (jsparse c) ->
  acc (zlits (Adjacent tag ctag) name y) (jsparse (JObj [(js tag, JStr (js name)); (js ctag, c)])) /\
  disc_value tag (zlits (Adjacent tag ctag) name y) = Val (Some (js name)) /\
  exists l, jsparse (JObj [(js tag, JStr (js name)); (js ctag, c)]) = JsObj l /\ get_prop tag l = JsStr (js name).
Proof.
  intros Hne Hy. cbn [zlits jsparse map fst snd].
  assert (Hget : forall v w, get_prop tag [(js tag, v); (js ctag, w)] = v).
  { intros v w. unfold get_prop. rewrite prop_cons. cbn [fst snd]. now rewrite jeqb_refl. }
  assert (Hget2 : forall v w, get_prop ctag [(js tag, v); (js ctag, w)] = w).
  { intros v w. unfold get_prop. rewrite !prop_cons. cbn [fst snd]. rewrite js_eqb, jeqb_refl.
    destruct (String.eqb_spec ctag tag); [congruence|reflexivity]. }
  split; [|split].
  - apply acc_obj. intros p Hp. apply shape_in in Hp. destruct Hp as [<-|[<-|[]]]; cbn [fst snd].
    + rewrite Hget. apply acc_lit.
    + now rewrite Hget2.
  - cbn [disc_value]. rewrite oget_shape_first; [reflexivity|]. intros p [<-|[]]. cbn. congruence.
  - eexists. split; [reflexivity|]. apply Hget.
Qed.

Lemma variant_acc m tg v j z : complete_variant mild inside tg v -> write_variant (ser n) tg v j = true -> okj j ->
  variant_z (zgen E m) tg v = Some z ->
  acc z (jsparse j) /\
  match tg with
  | Internal tag | Adjacent tag _ =>
      disc_value tag z = Val (Some (js (v_name v))) /\
      exists l, jsparse j = JsObj l /\ get_prop tag l = JsStr (js (v_name v))
  | _ => True
  end.
Proof.
  intros [_ [Hsn Hv]] Hw Hj Hz. unfold write_variant in Hw. rewrite Hsn in Hw. fold (wcontent v) in Hw.
  destruct (v_style v) eqn:Hst.
  - (* named *)
    destruct Hv as [Hc Htg]. assert (Hsh : variant_wshape v = SStruct (skept (v_fields v))).
    { unfold variant_wshape. now rewrite Hst. }
    assert (Hwc : forall c, match c with JObj l => write_named (ser n) (skept (v_fields v)) l | _ => false end = true -> wcontent v c = true).
    { intros c H. unfold wcontent. now rewrite Hsh. }
    assert (Hci : complete_inner v) by (unfold complete_inner; now rewrite Hst).
    destruct tg as [|tag|tag ctag|].
    + rewrite Hsh in Hw. destruct j as [| | | | | |[|[k c] [|]]]; try discriminate Hw.
      apply andb_true_iff in Hw as [Hk Hw]. apply jeqb_eq in Hk. subst k.
      destruct (variant_inner E m External v z) as [y [Hy ->]]; try (rewrite Hst; discriminate); try discriminate; [exact Hz|].
      split; [|exact I]. cbn [zlits jsparse map fst snd]. apply acc_obj. intros p [<-|[]]. cbn [fst snd].
      unfold get_prop. rewrite prop_cons. cbn [fst snd]. rewrite jeqb_refl.
      eapply content_acc; [exact Hci|exact (Hwc _ Hw)| |exact Hy]. eapply okj_obj; [exact Hj|now left].
    + destruct j as [| | | | | |[|[k [| | | |s| |]] l]]; try discriminate Hw.
      rewrite Hsh in Hw. apply andb_true_iff in Hw as [Hw Hl]. apply andb_true_iff in Hw as [Hk Hs].
      apply jeqb_eq in Hk, Hs. subst k s. unfold variant_z in Hz. rewrite Hst in Hz.
      destruct (kept (v_fields v)) as [|f0 r0] eqn:Hkf; [discriminate|]. rewrite <- Hkf in *.
      destruct (all_some _) as [ps|] eqn:Ha; [|discriminate]. injection Hz as <-.
      assert (Hjl : okj (JObj l)).
      { intros Hm. specialize (Hj Hm). cbn in Hj. apply andb_true_iff in Hj as [_ Hj]. exact Hj. }
      assert (Hget : get_prop tag (pl ((js tag, JStr (js (v_name v))) :: l)) = JsStr (js (v_name v))).
      { unfold get_prop. cbn [pl map]. rewrite prop_cons. cbn [fst snd]. now rewrite jeqb_refl. }
      split; [|split].
      * change (jsparse (JObj ?l)) with (JsObj (pl l)). apply acc_obj. intros p Hp. apply shape_in in Hp. destruct Hp as [<-|Hp].
        -- cbn [fst snd]. rewrite Hget. apply acc_lit.
        -- destruct (named_acc m (v_fields v) l ps Hc Hl Hjl Ha p Hp) as [H1 H2].
           replace (get_prop (fst p) (pl ((js tag, JStr (js (v_name v))) :: l))) with (get_prop (fst p) (pl l)); [exact H1|].
           unfold get_prop at 2. cbn [pl map]. rewrite prop_cons. cbn [fst snd]. rewrite js_eqb.
           destruct (String.eqb_spec (fst p) tag) as [He|]; [rewrite He in H2; contradiction|]. reflexivity.
      * cbn [disc_value]. rewrite oget_shape_first; [reflexivity|].
        intros p Hp. destruct (named_acc m (v_fields v) l ps Hc Hl Hjl Ha p Hp) as [_ H2]. intros He. rewrite He in H2. contradiction.
      * eexists. split; [reflexivity|exact Hget].
    + rewrite Hsh in Hw. destruct j as [| | | | | |[|[k [| | | |s| |]] [|[k2 c] [|]]]]; try discriminate Hw.
      apply andb_true_iff in Hw as [Hw Hc2]. apply andb_true_iff in Hw as [Hw Hk2]. apply andb_true_iff in Hw as [Hk Hs].
      apply jeqb_eq in Hk, Hs, Hk2. subst k s k2.
      destruct (variant_inner E m (Adjacent tag ctag) v z) as [y [Hy ->]]; try (rewrite Hst; discriminate); try discriminate; [exact Hz|].
      apply adjacent_acc; [exact Htg|]. eapply content_acc; [exact Hci|exact (Hwc _ Hc2)| |exact Hy].
      eapply okj_obj; [exact Hj|right; now left].
    + rewrite Hsh in Hw. destruct (variant_inner E m Untagged v z) as [y [Hy ->]]; try (rewrite Hst; discriminate); try discriminate; [exact Hz|].
      split; [|exact I]. eapply content_acc; [exact Hci|exact (Hwc _ Hw)|exact Hj|exact Hy].
  - (* tuple *)
    destruct Hv as [Hne [Hc Htg]]. destruct (tuple_kept _ Hc) as [Hk0 _].
    assert (Hsh : forall A (a b : A), match variant_wshape v with SUnit => a | _ => b end = b).
    { intros A a b. unfold variant_wshape. rewrite Hst. destruct (v_fields v) as [|f [|]]; [easy| |reflexivity].
      destruct (Hc f (or_introl eq_refl)) as [_ [_ [H _]]]. now rewrite H. }
    assert (Hci : complete_inner v) by (unfold complete_inner; now rewrite Hst).
    assert (Hin : exists y, inner_z E m v = Some y /\ z = zlits tg (v_name v) y).
    { apply variant_inner; [intros t _; rewrite Hst; discriminate|rewrite Hst; discriminate|intros _; now rewrite Hk0|exact Hz]. }
    destruct Hin as [y [Hy ->]].
    destruct tg as [|tag|tag ctag|]; [|destruct Htg| |].
    + split; [|exact I].
      assert (Hw' : exists c, j = JObj [(js (v_name v), c)] /\ wcontent v c = true).
      { specialize (Hsh bool true false). unfold wcontent in *. destruct (variant_wshape v); try discriminate Hsh;
          (destruct j as [| | | | | |[|[k c] [|]]]; try discriminate Hw; apply andb_true_iff in Hw as [Hk Hw]; apply jeqb_eq in Hk; subst k; eauto). }
      destruct Hw' as [c [-> Hwc]].
      cbn [zlits jsparse map fst snd]. apply acc_obj. intros p [<-|[]]. cbn [fst snd].
      unfold get_prop. rewrite prop_cons. cbn [fst snd]. rewrite jeqb_refl.
      eapply content_acc; [exact Hci|exact Hwc| |exact Hy]. eapply okj_obj; [exact Hj|now left].
    + assert (Hw' : exists c, j = JObj [(js tag, JStr (js (v_name v))); (js ctag, c)] /\ wcontent v c = true).
      { specialize (Hsh bool true false). unfold wcontent in *. destruct (variant_wshape v); try discriminate Hsh;
          (destruct j as [| | | | | |[|[k [| | | |s| |]] [|[k2 c] [|]]]]; try discriminate Hw;
           apply andb_true_iff in Hw as [Hw Hc2]; apply andb_true_iff in Hw as [Hw Hk2]; apply andb_true_iff in Hw as [Hk Hs];
           apply jeqb_eq in Hk, Hs, Hk2; subst k s k2; eauto). }
      destruct Hw' as [c [-> Hwc]]. apply adjacent_acc; [exact Htg|]. eapply content_acc; [exact Hci|exact Hwc| |exact Hy].
      eapply okj_obj; [exact Hj|right; now left].
    + split; [|exact I]. rewrite Hsh in Hw. eapply content_acc; eauto.
  - (* unit *)
    assert (Hsh : variant_wshape v = SUnit) by (unfold variant_wshape; now rewrite Hst).
    unfold variant_z in Hz. rewrite Hst in Hz. injection Hz as <-. rewrite Hsh in Hw.
    assert (Hobj : forall tag, acc (ZObject [(tag, ZLit (js (v_name v)))]) (JsObj [(js tag, JsStr (js (v_name v)))])).
    { intros tag. apply acc_obj. intros p [<-|[]]. cbn [fst snd]. unfold get_prop. rewrite prop_cons. cbn [fst snd].
      rewrite jeqb_refl. apply acc_lit. }
    assert (Hget : forall tag, get_prop tag [(js tag, JsStr (js (v_name v)))] = JsStr (js (v_name v))).
    { intros tag. unfold get_prop. rewrite prop_cons. cbn [fst snd]. now rewrite jeqb_refl. }
    assert (Hdv : forall tag, disc_value tag (ZObject [(tag, ZLit (js (v_name v)))]) = Val (Some (js (v_name v)))).
    { intros tag. cbn [disc_value]. unfold oget. cbn [find]. unfold key_eqb. cbn [fst]. now rewrite String.eqb_refl. }
    destruct tg as [|tag|tag ctag|]; cbn [unit_z].
    + destruct j; try discriminate Hw. apply jeqb_eq in Hw. subst s. split; [apply acc_lit|exact I].
    + destruct j as [| | | | | |[|[k [| | | |s| |]] l]]; try discriminate Hw. apply andb_true_iff in Hw as [Hw Hl].
      apply andb_true_iff in Hw as [Hk Hs]. apply jeqb_eq in Hk, Hs. subst k s. destruct l; [|discriminate Hl].
      split; [apply Hobj|]. split; [apply Hdv|]. eexists. split; [reflexivity|]. apply Hget.
    + destruct j as [| | | | | |[|[k [| | | |s| |]] [|]]]; try discriminate Hw.
      apply andb_true_iff in Hw as [Hk Hs]. apply jeqb_eq in Hk, Hs. subst k s.
      split; [apply Hobj|]. split; [apply Hdv|]. eexists. split; [reflexivity|]. apply Hget.
    + destruct j; try discriminate Hw. split; [|exact I]. exists 1. eexists. reflexivity.
Qed.

Lemma enum_acc m tg vs j z : (forall v, In v vs -> v_sskip v = false -> complete_variant mild inside tg v) ->
  (forall v, In v (kept_variants vs) -> forall f, In f (kept (v_fields v)) -> within inside (f_ty f)) ->
  existsb (fun v => negb (v_sskip v) && write_variant (ser n) tg v j) vs = true -> okj j ->
  enum_z (zgen E m) tg (kept_variants vs) = Some z -> acc z (jsparse j).
Proof.
  intros Hc Hwi Hw Hj Hz. apply existsb_exists in Hw as [v [Hv Hw]]. apply andb_true_iff in Hw as [Hsk Hw].
  apply negb_true_iff in Hsk. assert (Hcv := Hc v Hv Hsk).
  assert (Hk : In v (kept_variants vs)).
  { unfold kept_variants. apply filter_In. split; [exact Hv|]. destruct Hcv as [-> _]. reflexivity. }
  assert (Hva : forall y, variant_z (zgen E m) tg v = Some y -> _) by (intros y Hy; exact (variant_acc m tg v j y Hcv Hw Hj Hy)).
  unfold enum_z in Hz. destruct (kept_variants vs) as [|v1 [|v2 r]] eqn:Hvs; [discriminate| |].
  - destruct Hk as [->|[]]. now apply Hva.
  - rewrite <- Hvs in *. clear v1 v2 r Hvs.
    destruct (all_some (map (variant_z (zgen E m) tg) (kept_variants vs))) as [zs|] eqn:Ha; [|discriminate].
    apply all_some_map in Ha. destruct (Forall2_in_left _ _ _ v Ha Hk) as [y [Hy Hvy]]. specialize (Hva y Hvy) as [Hacc Hd].
    assert (Hans : forall y, In y zs -> ans ip M y (jsparse j)).
    { intros y' Hy'. destruct (Forall2_in_right _ _ _ y' Ha Hy') as [v' [Hv' Hz']].
      refine (variant_ans E ip M inside (vsize (jsparse j)) _ (jsparse j) (Nat.le_refl _) m tg v' y' (Hwi v' Hv') _ Hz').
      - intros x _ t k q z' Hwt Hq Ht. exact (any_ans t k q z' x Hwt Hq Ht).
      - intros _ _ f Hf q z' Hq Ht. refine (any_ans (f_ty f) m q z' _ _ Hq Ht). apply (Hwi v' Hv'). rewrite Hf. now left. }
    cbn [bind] in Hz.
    destruct tg as [|tag|tag ctag|].
    + injection Hz as <-. eapply acc_union; eauto.
    + destruct (disc_opts tag [] zs) as [opts| |] eqn:Ho; try discriminate. injection Hz as <-.
      destruct Hd as [Hdv [l [El Hg]]]. rewrite El in *. destruct (disc_opts_find tag zs [] opts Ho) as [_ Hfind].
      eapply acc_disc; [rewrite Hg; reflexivity| |exact Hacc]. now apply Hfind.
    + destruct (disc_opts tag [] zs) as [opts| |] eqn:Ho; try discriminate. injection Hz as <-.
      destruct Hd as [Hdv [l [El Hg]]]. rewrite El in *. destruct (disc_opts_find tag zs [] opts Ho) as [_ Hfind].
      eapply acc_disc; [rewrite Hg; reflexivity| |exact Hacc]. now apply Hfind.
    + injection Hz as <-. eapply acc_union; eauto.
Qed.

Lemma no_flat (fs : list field) : (forall f, In f (skept fs) -> f_flatten f = false) ->
  existsb (fun f => negb (f_sskip f) && f_flatten f) fs = false.
Proof.
  intros H. apply not_true_is_false. intros He. apply existsb_exists in He as [f [Hf He]]. apply andb_true_iff in He as [H1 H2].
  rewrite H in H2; [discriminate|]. unfold skept. now apply filter_In.
Qed.

Lemma decl_acc m i j z : inside i = true -> write_decl R E (ser n) i j = true -> okj j ->
  decl_z (zgen E m) (lookup E i) = Some z -> acc z (jsparse j).
Proof.
  intros Hi Hw Hj Hz. assert (Hc := HF i Hi). destruct (HC i Hi) as [Hnf Hp].
  unfold complete_decl in Hc. unfold write_decl in Hw. unfold decl_z in Hz. unfold flattens in Hnf. unfold parts in Hp.
  destruct (d_from (lookup E i)); [destruct Hc|]. destruct (d_body (lookup E i)) as [st tr fs|tg vs].
  - destruct (not_flat fs Hnf) as [Hpl Hfl]. unfold struct_z in Hz. rewrite Hpl, Hfl in Hz. unfold complete_struct in Hc.
    destruct tr.
    + destruct Hc as [Hsf [f [Hk [Hcf Hsk]]]]. rewrite (no_flat fs Hsf), Hsk in Hw. rewrite Hk in Hz. eapply field_acc; eauto.
    + destruct st.
      * assert (Hc' := Hc). destruct Hc' as [_ [Hsf _]]. rewrite (no_flat fs Hsf) in Hw.
        destruct j as [| | | | | |l]; try discriminate Hw.
        destruct (all_some (map (prop_z (zgen E m)) (kept fs))) as [ps|] eqn:Ha; [|discriminate]. injection Hz as <-.
        cbn [fold_left]. change (jsparse (JObj l)) with (JsObj (pl l)).
        apply acc_obj. intros p Hpp. apply shape_in in Hpp. eapply named_acc; eauto.
      * assert (Hsf : forall f, In f (skept fs) -> f_flatten f = false).
        { intros f Hf. apply (Hc f). unfold skept in Hf. now apply filter_In in Hf. }
        rewrite (no_flat fs Hsf) in Hw. destruct (tuple_kept fs Hc) as [Hk Hsk]. rewrite Hk in Hz.
        destruct fs as [|f [|f2 r]] eqn:Hfs; [discriminate| |].
        -- eapply field_acc; eauto. now apply (Hc f); left.
        -- rewrite <- Hfs in *. rewrite Hsk in Hw. destruct j as [| | | | |l|]; try discriminate Hw.
           destruct (all_some (map (field_z (zgen E m)) fs)) as [zs|] eqn:Ha; [|discriminate]. injection Hz as <-.
           eapply tuple_acc; eauto.
      * destruct Hc.
  - eapply enum_acc; eauto. intros v Hv f Hf. apply Hp. apply in_flat_map. exists v. split; [exact Hv|]. now apply in_map.
Qed.
End Level.

Theorem main_acc : forall n t j, ser n t j = true -> complete_ty t = true -> okj j ->
  forall m q z, sq q -> zgen E m q t = Some z -> acc z (jsparse j).
Proof.
  induction n as [|n IH]; [discriminate|]. intros t j Hs Hc Hj m q z Hq Hz.
  assert (Hb : (forall i, t <> TNamed i) -> exists m, builtin_z (zgen E m) t = Some z).
  { intros Ht. eapply inline_schema; eauto. }
  assert (HS : forall m z, zgen E m Schema t = Some z -> (forall i, t <> TNamed i) -> exists m, builtin_z (zgen E m) t = Some z).
  { intros. eapply (inline_schema E m0 Schema); eauto. now left. }
  assert (Hsch : sq Schema) by now left. assert (Hinl : sq InlineSchema) by now right.
  assert (Hlist : forall u l, forallb (ser n u) l = true -> complete_ty u = true -> okj (JArr l) ->
    forall m z, zgen E m InlineSchema u = Some z -> acc (ZArray z) (jsparse (JArr l))).
  { intros u l Hl Hu Hjl k y Hy. cbn [jsparse]. apply acc_arr. intros x Hx. apply in_map_iff in Hx as [x0 [<- Hx0]].
    rewrite forallb_forall in Hl. eapply IH; [| | | |eassumption]; eauto. eapply okj_arr; eauto. }
  destruct t as [p|ts|w t|t|k t|c t|c k v|t|t e|i].
  - destruct (Hb ltac:(discriminate)) as [m' Hz']. eapply prim_acc; eauto.
  - destruct (Hb ltac:(discriminate)) as [m' Hz']. cbn [builtin_z] in Hz'. cbn in Hc, Hs.
    destruct j as [| | | | |l|]; try discriminate Hs. apply andb_true_iff in Hs as [Hl Hs]. apply Nat.eqb_eq in Hl.
    destruct (all_some (map (zgen E m' Schema) ts)) as [zs|] eqn:Ha; [|discriminate]. injection Hz' as <-.
    cbn [jsparse]. apply acc_tuple. apply all_some_map in Ha.
    assert (Hj' : forall x, In x l -> okj x) by (intros x; now apply okj_arr). clear Hj Hb HS Hz Hlist.
    revert l Hl Hs Hj'. induction Ha as [|t z0 ts zs Ht _ IHa]; intros [|x l] Hl Hs Hj'; try discriminate Hl; [constructor|].
    cbn in Hl, Hs, Hc. apply andb_true_iff in Hs as [Hs1 Hs2]. apply andb_true_iff in Hc as [Hc1 Hc2]. constructor.
    + exact (IH t x Hs1 Hc1 (Hj' x (or_introl eq_refl)) m' Schema z0 Hsch Ht).
    + apply IHa; auto. intros y Hy. apply Hj'. now right.
  - destruct (Hb ltac:(discriminate)) as [m' Hz']. cbn [builtin_z] in Hz'.
    assert (Hw : ser n t j = true /\ complete_ty t = true).
    { cbn in Hs, Hc. destruct w; try discriminate Hc; auto. apply andb_true_iff in Hc as [Hm Hc]. split; [|exact Hc].
      specialize (Hj Hm). destruct j; try exact Hs. discriminate Hj. }
    destruct Hw as [Hw1 Hw2]. eapply IH; [| | | |eassumption]; eauto.
  - destruct (Hb ltac:(discriminate)) as [m' Hz']. cbn [builtin_z] in Hz'. cbn in Hs. destruct j as [| | | | |l|]; try discriminate Hs.
    destruct (zgen E m' InlineSchema t) as [y|] eqn:Hy; [|discriminate]. injection Hz' as <-. eapply Hlist; eauto.
  - destruct (Hb ltac:(discriminate)) as [m' Hz']. cbn [builtin_z] in Hz'. cbn in Hs. destruct j as [| | | | |l|]; try discriminate Hs.
    apply andb_true_iff in Hs as [_ Hs]. destruct m' as [|m']; [discriminate|]. cbn [zgen builtin_z] in Hz'.
    destruct (zgen E m' InlineSchema t) as [y|] eqn:Hy; [|discriminate]. injection Hz' as <-. eapply Hlist; eauto.
  - discriminate Hc.
  - discriminate Hc.
  - destruct (Hb ltac:(discriminate)) as [m' Hz']. cbn [builtin_z] in Hz'.
    destruct (zgen E m' InlineSchema t) as [y|] eqn:Hy; [|discriminate]. injection Hz' as <-.
    cbn in Hc. apply andb_true_iff in Hc as [Hm Hc]. assert (Hj' := Hj Hm). apply (acc_opt ip M true). eapply IH; [| | | |eassumption]; eauto.
    cbn in Hs. destruct j; try exact Hs. discriminate Hj'.
  - destruct (Hb ltac:(discriminate)) as [m' Hz']. cbn [builtin_z] in Hz'.
    destruct (zgen E m' InlineSchema t) as [a|] eqn:Hya; [|discriminate]. cbn [bind] in Hz'.
    destruct (zgen E m' InlineSchema e) as [b|] eqn:Hyb; [|discriminate]. injection Hz' as <-.
    assert (Hwi := complete_within _ Hc).
    assert (Hwt : within inside t) by (intros i Hi; apply Hwi; apply in_or_app; now left).
    assert (Hwe : within inside e) by (intros i Hi; apply Hwi; apply in_or_app; now right).
    cbn in Hc. apply andb_true_iff in Hc as [Hc1 Hc2]. cbn [Serde.ser] in Hs. destruct j as [| | | | | |[|[k c] [|]]]; try discriminate Hs.
    assert (Hjc : okj c) by (eapply okj_obj; [exact Hj|now left]).
    assert (Hans : forall y, In y [ZObject [("Ok", a)]; ZObject [("Err", b)]] -> ans ip M y (jsparse (JObj [(k, c)]))).
    { intros y [<-|[<-|[]]]; apply ans_object; intros l _ p [<-|[]]; cbn [fst snd]; [exact (any_ans t m' InlineSchema a _ Hwt Hinl Hya)|exact (any_ans e m' InlineSchema b _ Hwe Hinl Hyb)]. }
    destruct (jeqb k (js "Ok")) eqn:Ek.
    + apply jeqb_eq in Ek. subst k. eapply (acc_union ip M); [exact Hans|now left|]. apply acc_obj. intros p [<-|[]].
      cbn [fst snd map]. unfold get_prop. rewrite prop_cons. cbn [fst snd]. rewrite jeqb_refl. eapply IH; [| | | |eassumption]; eauto.
    + destruct (jeqb k (js "Err")) eqn:Ek2; [|discriminate]. apply jeqb_eq in Ek2. subst k. eapply (acc_union ip M); [exact Hans|right; now left|].
      apply acc_obj. intros p [<-|[]].
      cbn [fst snd map]. unfold get_prop. rewrite prop_cons. cbn [fst snd]. rewrite jeqb_refl. eapply IH; [| | | |eassumption]; eauto.
  - assert (Hd : forall m z, decl_z (zgen E m) (lookup E i) = Some z -> acc z (jsparse j)).
    { intros. eapply decl_acc; eauto. }
    destruct m as [|m]; [discriminate|]. destruct Hq as [-> | ->]; cbn [zgen] in Hz; [now apply (Hd m)|].
    assert (Hz' : z = ZLazy (d_ns (lookup E i)) (d_name (lookup E i))).
    { assert (Hcd := HF i Hc). unfold complete_decl in Hcd. unfold ref_z in Hz. destruct (d_from (lookup E i)); [destruct Hcd|].
      now injection Hz as <-. }
    subst z. destruct (HX i Hc) as [m' [z [Hz' HM]]]. eapply acc_lazy; [exact HM|]. destruct m' as [|m']; [discriminate|].
    cbn [zgen] in Hz'. eapply Hd; eauto.
Qed.
End Main.

Theorem written_accepted R E ip M inside mild t s z j : good_names E -> tags_ok E -> closed E inside ->
  exports E inside M -> (forall i, inside i = true -> grounded E (TNamed i)) -> complete mild inside E -> ips_agree R ip ->
  complete_ty mild inside t = true -> returns E Schema t s -> load s = Val z ->
  serializes R E t j -> (mild = true -> plain_json j = true) -> exists o, accepts ip M z (jsparse j) o.
Proof.
  intros Hg HT HC HX HG HF Hip Hc Hr Hl [n Hn] Hj. destruct (load_zgen E t s z Hg HT Hr Hl) as [m Hm].
  destruct (main_acc R E ip M inside mild Hip HC HF (exports_zgen E inside M Hg HT HX) HG n t j Hn Hc Hj m Schema z (or_introl eq_refl) Hm)
    as [k [o Ho]]. exists o, k. exact Ho.
Qed.

Theorem any_written_accepted R E ip M inside t s z j : good_names E -> tags_ok E -> closed E inside ->
  exports E inside M -> (forall i, inside i = true -> grounded E (TNamed i)) -> complete false inside E -> ips_agree R ip ->
  complete_ty false inside t = true -> returns E Schema t s -> load s = Val z ->
  serializes R E t j -> exists o, accepts ip M z (jsparse j) o.
Proof. intros. eapply (written_accepted R E ip M inside false t s z j); auto; discriminate. Qed.

Theorem plain_written_accepted R E ip M inside t s z j : good_names E -> tags_ok E -> closed E inside ->
  exports E inside M -> (forall i, inside i = true -> grounded E (TNamed i)) -> complete true inside E -> ips_agree R ip ->
  complete_ty true inside t = true -> returns E Schema t s -> load s = Val z ->
  serializes R E t j -> plain_json j = true -> exists o, accepts ip M z (jsparse j) o.
Proof. intros. eapply (written_accepted R E ip M inside true t s z j); auto. Qed.
