(** Values a schema lets through are members of the TypeScript type (proofs). *)
From Coq Require Import List String Ascii Bool NArith ZArith Lia.
From Verif Require Import RustTy Gen GenSpec GenProofs JsLex JsParse Js Zod Ast AstProofs ZodProofs ZodSpec ZodLoad
  ZGen Serde SerdeSpec SerdeMono SerdeProofs ParseSpec ParseProofs ParseTerm TsType TsAst TsAstProofs TsSpec.
Import ListNotations.
Local Open Scope string_scope.
Local Open Scope list_scope.

Section Unions.
Context (T : tenv).

Lemma member_uni a b v : member T a v \/ member T b v -> member T (uni a b) v.
Proof.
  induction b; cbn [uni]; intros [H|H]; try (now constructor).
  - apply mb_left. apply IHb1. now left.
  - inversion H; subst; [apply mb_left, IHb1; now right|now apply mb_right].
Qed.

Lemma member_unis ys : forall y a v, In a (y :: ys) -> member T a v -> member T (unis y ys) v.
Proof.
  unfold unis. induction ys as [|b ys IH]; intros y a v Hi H; cbn [fold_left].
  - destruct Hi as [->|[]]. exact H.
  - destruct Hi as [->|[->|Hi]].
    + apply (IH _ (uni a b)); [now left|]. apply member_uni. now left.
    + apply (IH _ (uni y a)); [now left|]. apply member_uni. now right.
    + apply (IH _ a); [now right|exact H].
Qed.

Lemma member_opt y v : v = JsUndef \/ member T y v -> member T (opt_ty true y) v.
Proof. intros [->|H]; apply member_uni; [right; constructor|now left]. Qed.
End Unions.

(** Reading a property of the parse output. *)
Lemma get_merge ip M k l ps os : NoDup (map fst ps) ->
  Forall2 (fun p o => zparse ip M k (snd p) (get_prop (fst p) l) = POk o) ps os ->
  forall p o, In (p, o) (combine ps os) -> get_prop (fst p) (merge l ps os) = o.
Proof.
  intros Hn Hf p o Hi. pose proof (prop_merge l ps Hn os p o Hi) as Hm.
  unfold get_prop at 1. destruct (prop (js (fst p)) (merge l ps os)) as [v|] eqn:Hp; [exact Hm|].
  subst o. destruct (inherited (fst p)) eqn:Hh; [|reflexivity]. exfalso.
  pose proof (in_combine_Forall2 _ _ _ _ _ Hf Hi) as Ho. cbn in Ho.
  (* the property was there, so it was copied *)
  assert (Hhas : has_prop (fst p) l = true).
  { unfold has_prop. now destruct (prop _ l). }
  assert (Hin : In (js (fst p)) (map fst (merge l ps os))).
  { clear Hp Ho Hn Hf. revert os Hi. induction ps as [|[k' z] ps IH]; intros [|o' os] Hi; try easy.
    cbn [combine In] in Hi. cbn [merge]. destruct Hi as [[= <- ->]|Hi].
    - cbn [fst] in *. rewrite Hhas, orb_true_r. now left.
    - destruct (negb _ || _); [right|]; now apply IH. }
  apply in_map_iff in Hin as [[k' v] [Hk Hv]]. cbn in Hk. subst k'.
  revert Hp Hv. clear. unfold prop. induction (merge l ps os) as [|q m IH]; [easy|]. cbn [find].
  destruct (jeqb (js (fst p)) (fst q)) eqn:Hq; [discriminate|]. intros H [->|Hv]; [|now apply IH].
  cbn in Hq. now rewrite jeqb_refl in Hq.
Qed.

Section Member.
Context (E : env) (ip : option string -> jstr -> bool) (M : menv) (T : tenv) (inside : nat -> bool).
Context (HM : forall i, inside i = true -> exists n z, zgen E n Schema (TNamed i) = Some z /\
  M (d_ns (lookup E i)) (d_name (lookup E i)) = Some z).
Context (HT : forall i, inside i = true -> exists m y, tgen E m TypeDef (TNamed i) = Some y /\
  T (d_ns (lookup E i)) (d_name (lookup E i)) = Some y).
Context (HC : spans E inside) (HD : distinct E inside) (HG : tags_ok E).

Notation zparse := (zparse ip M).
Notation member := (member T).

Definition both (y : tsty) (v o : jsval) : Prop := member y v /\ member y o.

Definition P (k n : nat) : Prop := forall q t z v o m y, sq q -> within inside t ->
  zgen E n q t = Some z -> tgen E m TypeDef t = Some y -> zparse k z v = POk o -> both y v o.

(** From definitions to mentions. *)
Lemma inline_of (Q : tsty -> Prop) : (forall ns n y, T ns n = Some y -> Q y -> Q (YRef ns n)) ->
  forall m t y, within inside t -> (forall m y, tgen E m TypeDef t = Some y -> Q y) ->
  tgen E m Inline t = Some y -> Q y.
Proof.
  intros HQ. induction m as [|m IH]; intros t y Hw Ht Hy; [discriminate|].
  assert (Hb : (forall i, t <> TNamed i) -> Q y).
  { intros Hn. destruct t; try (apply (Ht m); exact Hy). now destruct (Hn i). }
  destruct t; try (apply Hb; discriminate). clear Hb. pose proof Ht as Ht0.
  assert (Hi : inside i = true) by (apply Hw; now left).
  cbn [tgen] in Hy. destruct (derive (lookup E i)) as [im| | |] eqn:Hde; try discriminate.
  unfold decl_name in Hy. destruct (d_from (lookup E i)) as [t'|] eqn:Hf.
  - assert (Hw' : within inside t'). { apply (HC i Hi). unfold parts. rewrite Hf. now left. }
    destruct (d_body (lookup E i)) as [st tr fs|tg vs] eqn:Hb.
    + apply (Ht (S m)). cbn [tgen]. rewrite Hde. unfold decl_ty. now rewrite Hf, Hb.
    + apply (IH t' y Hw'); [|exact Hy]. intros m' y' Hy'. apply (Ht (S m')). cbn [tgen]. rewrite Hde.
      unfold decl_ty. now rewrite Hf, Hb.
  - injection Hy as <-. destruct (HT i Hi) as [m0 [y0 [H1 H2]]]. apply (HQ _ _ y0 H2). now apply (Ht m0).
Qed.

Lemma P_inline k n : P k n -> forall q t z v o m y, sq q -> within inside t ->
  zgen E n q t = Some z -> tgen E m Inline t = Some y -> zparse k z v = POk o -> both y v o.
Proof.
  intros HP q t z v o m y Hq Hw Hz Hy Ho. apply (inline_of (fun y => both y v o)) with (m := m) (t := t); auto.
  - intros ns nm y' H1 [H2 H3]. split; now apply (mb_ref T ns nm y').
  - intros m' y' Hy'. now apply (HP q t z v o m' y').
Qed.

(** ** Objects, tuples, lists *)
Definition fits (p : string * zod) (tp : string * bool * tsty) (k : nat) : Prop :=
  fst p = fst (fst tp) /\ forall u o, zparse k (snd p) u = POk o -> both (snd tp) u o.

Lemma obj_member k ps tps v o : NoDup (map fst ps) -> Forall2 (fun p tp => fits p tp k) ps tps ->
  zparse (S k) (ZObject ps) v = POk o -> both (YObj tps) v o.
Proof.
  intros Hn Hf H. cbn [Zod.zparse] in H. destruct v as [| | | | | |l| | |]; try discriminate.
  apply lmap_ok in H as [os [Hc ->]]. apply collect_ok, map_POk in Hc.
  assert (Hall : forall tp, In tp tps -> exists p o, fits p tp k /\ In (p, o) (combine ps os) /\
    zparse k (snd p) (get_prop (fst p) l) = POk o).
  { clear Hn. revert os Hc. induction Hf as [|p tp ps tps Hp _ IH]; intros os Hc tp' Hi; [easy|].
    inversion Hc as [|? o0 ? os0 H1 H2]; subst. destruct Hi as [<-|Hi].
    - exists p, o0. split; [exact Hp|]. split; [now left|exact H1].
    - destruct (IH os0 H2 tp' Hi) as [p' [o' [H3 [H4 H5]]]]. exists p', o'. split; [exact H3|]. split; [now right|exact H5]. }
  split; constructor; intros key opt y Hi; destruct (Hall _ Hi) as [p [o [[H1 H2] [H3 H4]]]]; cbn [fst snd] in *; right.
  - rewrite <- H1. exact (proj1 (H2 _ _ H4)).
  - rewrite <- H1. rewrite (get_merge ip M k l ps os Hn Hc p o H3). exact (proj2 (H2 _ _ H4)).
Qed.

Lemma tuple_member k zs ys v o : Forall2 (fun z y => forall u o, zparse k z u = POk o -> both y u o) zs ys ->
  zparse (S k) (ZTuple zs) v = POk o -> both (YTup ys) v o.
Proof.
  intros Hf H. cbn [Zod.zparse] in H. destruct v as [| | | | |l| | | |]; try discriminate.
  destruct (Nat.ltb (List.length l) (List.length zs)) eqn:Hl1; [discriminate|].
  destruct (collect _) as [os| | |] eqn:Hc; try discriminate.
  destruct (Nat.ltb (List.length zs) (List.length l)) eqn:Hl2; [discriminate|]. injection H as <-.
  apply Nat.ltb_ge in Hl1, Hl2. assert (Hlen : List.length zs = List.length l) by lia. clear Hl1 Hl2.
  apply collect_ok, map_POk in Hc.
  assert (H : Forall2 member ys l /\ Forall2 member ys os).
  { revert l os Hlen Hc. induction Hf as [|z y zs ys Hz _ IH]; intros [|u l] os Hlen Hc; try discriminate.
    - inversion Hc; subst. split; constructor.
    - cbn [combine] in Hc. inversion Hc as [|? o ? os' Ho Hc']; subst. cbn [fst snd] in Ho.
      injection Hlen as Hlen. destruct (IH l os' Hlen Hc') as [H1 H2]. destruct (Hz u o Ho) as [H3 H4].
      split; now constructor. }
  destruct H. split; now constructor.
Qed.

Lemma list_member k z y l os : (forall u o, zparse k z u = POk o -> both y u o) ->
  collect (map (zparse k z) l) = LOk os ->
  (forall u, In u l -> member y u) /\ (forall u, In u os -> member y u).
Proof.
  intros Hz Hc. apply collect_ok, map_POk in Hc. induction Hc as [|u o l os Ho _ [IH1 IH2]]; [easy|].
  destruct (Hz u o Ho) as [H1 H2]. split; intros x [<-|Hx]; auto.
Qed.

Lemma lit_both k s u o : zparse k (ZLit (js s)) u = POk o -> both (YStr s) u o.
Proof.
  destruct k; [discriminate|]. cbn [Zod.zparse]. destruct u; try discriminate.
  destruct (jeqb (js s) s0) eqn:H; [|discriminate]. apply jeqb_eq in H. subst. intros [= <-]. split; constructor.
Qed.

Lemma prim_both k p z u o : zprim p = Some z -> zparse k z u = POk o -> both (YName (prim_type p)) u o.
Proof.
  intros Hz Ho. destruct p as [|i| | | | | | | |]; cbn [prim_type].
  all: try (injection Hz as <-; apply str_parse in Ho as [-> [s [-> _]]]; split; constructor).
  - assert (exists cs, z = ZNumber cs) as [cs ->].
    { destruct i; apply (f_equal (fun o => match o with Some z => z | None => ZNull end)) in Hz; vm_compute in Hz; subst z;
      eexists; reflexivity. }
    apply num_parse in Ho as [-> [x [-> _]]]. split; constructor.
  - injection Hz as <-. apply num_parse in Ho as [-> [x [-> _]]]. split; constructor.
  - injection Hz as <-. apply num_parse in Ho as [-> [x [-> _]]]. split; constructor.
  - discriminate.
  - injection Hz as <-. destruct k; [discriminate|]. cbn [Zod.zparse] in Ho. destruct u; try discriminate.
    injection Ho as <-. split; constructor.
Qed.

(** ** One level *)
Section Level.
Context (K n : nat).
Context (Hlt : forall k n, k < K -> P k n).
Context (Hle : P K n).

Lemma Ple k : k <= K -> P k n.
Proof. intros H. destruct (Nat.eq_dec k K) as [->|Hk]; [exact Hle|]. apply Hlt. lia. Qed.

Lemma tfield_both m t b z y : within inside t -> option_map (zopt b) (zgen E n InlineSchema t) = Some z ->
  tfield (tgen E m) t b = Some y -> forall k, k <= K -> forall u o, zparse k z u = POk o -> both y u o.
Proof.
  intros Hw Hz Hy k Hk u o Ho. destruct (zgen E n InlineSchema t) as [z0|] eqn:Hz0; [|discriminate]. injection Hz as <-.
  unfold tfield in Hy. destruct (tgen E m Inline t) as [y0|] eqn:Hy0; [|discriminate]. injection Hy as <-.
  assert (H : forall k u o, k <= K -> zparse k z0 u = POk o -> both y0 u o).
  { clear k u o Hk Ho. intros k u o Hk Ho.
    apply (P_inline k n (Ple k Hk) InlineSchema t z0 u o m y0); auto. now right. }
  destruct b; cbn [zopt opt_ty] in *; [|now apply (H k)].
  destruct k as [|k]; [discriminate|]. cbn [Zod.zparse] in Ho.
  assert (H' : u = JsUndef /\ o = JsUndef \/ zparse k z0 u = POk o).
  { destruct u; auto. injection Ho as <-. now left. }
  destruct H' as [[-> ->]|H']; [split; apply member_opt; now left|].
  apply H in H' as [H1 H2]; [|lia]. split; apply member_opt; now right.
Qed.

Lemma field_both m f z y : within inside (f_ty f) -> field_z (zgen E n) f = Some z ->
  tfield (tgen E m) (f_ty f) (f_default f) = Some y ->
  forall k, k <= K -> forall u o, zparse k z u = POk o -> both y u o.
Proof. intros Hw Hz Hy. now apply (tfield_both m (f_ty f) (f_default f)). Qed.

Lemma fields_both m fs zs ys : (forall f, In f fs -> within inside (f_ty f)) ->
  all_some (map (field_z (zgen E n)) fs) = Some zs ->
  all_some (map (fun f => tfield (tgen E m) (f_ty f) (f_default f)) fs) = Some ys ->
  forall k, k <= K -> Forall2 (fun z y => forall u o, zparse k z u = POk o -> both y u o) zs ys.
Proof.
  intros Hw Hz Hy k Hk. apply all_some_map in Hz. apply all_some_map in Hy. revert ys Hy.
  induction Hz as [|f z fs zs Hf _ IH]; intros ys Hy; inversion Hy as [|? y ? ys' H1 H2]; subst; constructor.
  - apply (field_both m f); auto. apply Hw. now left.
  - apply IH; [|exact H2]. intros g Hg. apply Hw. now right.
Qed.

Lemma props_both m fs ps tps : (forall f, In f fs -> within inside (f_ty f)) ->
  all_some (map (prop_z (zgen E n)) fs) = Some ps ->
  all_some (map (fun f => tprop (tgen E m) (f_name f) (f_ty f) (f_default f)) fs) = Some tps ->
  map fst ps = map f_name fs /\
  forall k, k <= K -> Forall2 (fun p tp => fits p tp k) ps tps.
Proof.
  intros Hw Hz Hy. apply all_some_map in Hz. apply all_some_map in Hy. revert tps Hy.
  induction Hz as [|f p fs ps Hf _ IH]; intros ys Hy; inversion Hy as [|? y ? ys' H1 H2]; subst.
  - split; [reflexivity|]. constructor.
  - destruct (IH (fun g Hg => Hw g (or_intror Hg)) ys' H2) as [IH1 IH2].
    unfold prop_z in Hf. destruct (field_z (zgen E n) f) as [z|] eqn:Hz; [|discriminate]. injection Hf as <-.
    unfold tprop in H1. destruct (tfield (tgen E m) (f_ty f) (f_default f)) as [y0|] eqn:Hy0; [|discriminate].
    injection H1 as <-. split; [cbn; now rewrite IH1|]. intros k Hk. constructor; [|now apply IH2].
    split; [reflexivity|]. cbn [snd]. apply (field_both m f); auto. apply Hw. now left.
Qed.

Lemma pos_fuel z v o : zparse K z v = POk o -> exists k, K = S k.
Proof. destruct K as [|k]; [discriminate|]. eauto. Qed.

(** A shape that was extended accepts nothing. *)
Lemma extended_never {A} k (es : list A) ps v o :
  es <> [] -> zparse k (ZObject (fold_left (fun o _ => oset o "_def" ZJunk) es ps)) v <> POk o.
Proof.
  intros Hne Ho. destruct k as [|k]; [discriminate|].
  assert (Hj : forall (es : list A) ps, In ("_def", ZJunk) ps ->
    In ("_def", ZJunk) (fold_left (fun o _ => oset o "_def" ZJunk) es ps)).
  { assert (Hs : forall ps : list (string * zod), In ("_def", ZJunk) (oset ps "_def" ZJunk)).
    { intros qs. unfold oset. destruct (existsb (key_eqb "_def") qs) eqn:He.
      - apply existsb_exists in He as [p [Hp He]]. apply in_map_iff. exists p. now rewrite He.
      - apply in_or_app. right. now left. }
    clear -Hs. induction es as [|e es IH]; intros ps H; [exact H|]. cbn [fold_left]. apply IH, Hs. }
  assert (Hin : In ("_def", ZJunk) (fold_left (fun o _ => oset o "_def" ZJunk) es ps)).
  { destruct es as [|e es]; [easy|]. cbn [fold_left]. apply Hj. unfold oset.
    destruct (existsb (key_eqb "_def") ps) eqn:He.
    - apply existsb_exists in He as [p [Hp He]]. apply in_map_iff. exists p. now rewrite He.
    - apply in_or_app. right. now left. }
  set (qs := fold_left _ es ps) in *. clearbody qs. cbn [Zod.zparse] in Ho. destruct v as [| | | | | |l| | |]; try discriminate.
  apply lmap_ok in Ho as [os [Hc _]]. apply collect_ok, map_POk in Hc.
  destruct (Forall2_in_l _ _ _ _ Hc Hin) as [o' [_ Ho']]. cbn [snd] in Ho'. destruct k; discriminate.
Qed.

Lemma struct_both m st tr fs z y v o :
  (forall f, In f (kept fs) -> within inside (f_ty f)) ->
  (st = StNamed -> NoDup (map f_name (kept fs))) ->
  struct_z (zgen E n) st tr fs = Some z -> struct_ty (tgen E m) st tr (struct_fields st tr fs) = Some y ->
  zparse K z v = POk o -> both y v o.
Proof.
  intros Hw Hn Hz Hy Ho. unfold struct_ty in Hy. rewrite plain_sfields, flat_sfields in Hy. unfold struct_z in Hz.
  assert (Hwp : forall f, In f (filter plain (kept fs)) -> within inside (f_ty f)).
  { intros f Hf. apply filter_In in Hf. now apply Hw. }
  destruct tr.
  - destruct (filter plain (kept fs)) as [|f r]; [discriminate|]. cbn [map] in Hy.
    apply (field_both m f z y) with (k := K); auto. apply Hwp. now left.
  - destruct st.
    + rewrite !map_map in Hy. destruct (all_some (map (prop_z (zgen E n)) _)) as [ps|] eqn:Hps; [|discriminate].
      cbn [bind] in Hz.
      destruct (all_some (map (fun x => stprop (tgen E m) (mk_sf StNamed false x)) _)) as [tps|] eqn:Htps; [|discriminate].
      cbn [bind] in Hy.
      destruct (all_some (map (field_z (zgen E n)) _)) as [es|] eqn:Hes; [|discriminate]. cbn in Hz. injection Hz as <-.
      destruct (all_some (map (fun x => stflat (tgen E m) (mk_sf StNamed false x)) _)) as [ys|] eqn:Hys; [|discriminate].
      cbn in Hy. injection Hy as <-. destruct (filter f_flatten (kept fs)) as [|g r].
      * injection Hes as <-. injection Hys as <-. cbn [fold_left] in *.
        destruct (props_both m (filter plain (kept fs)) ps tps Hwp Hps Htps) as [Hk Hf].
        assert (Hnd : NoDup (map fst ps)).
        { rewrite Hk. specialize (Hn eq_refl). revert Hn. generalize (kept fs). clear.
          induction l as [|f l IH]; [constructor|]. cbn. intros H. inversion H as [|? ? H1 H2]; subst.
          destruct (plain f); [|auto]. cbn. constructor; [|auto]. intros Hi. apply H1.
          apply in_map_iff in Hi as [g [<- Hg]]. apply filter_In in Hg as [Hg _]. now apply in_map. }
        rewrite shape_nodup in Ho by exact Hnd. destruct (pos_fuel _ _ _ Ho) as [k HK]. rewrite HK in Ho.
        apply (obj_member k ps); auto. apply Hf. lia.
      * exfalso. apply all_some_map in Hes. inversion Hes; subst. eapply extended_never; [|exact Ho]. discriminate.
    + destruct (filter plain (kept fs)) as [|f [|f2 r]] eqn:Hpl; [discriminate| |].
      * cbn [map] in Hy. apply (field_both m f z y) with (k := K); auto. apply Hwp. now left.
      * rewrite <- Hpl in *. destruct (all_some _) as [zs|] eqn:Hzs; [|discriminate]. injection Hz as <-.
        assert (Hy' : option_map YTup (all_some (map (fun f => tfield (tgen E m) (f_ty f) (f_default f))
           (filter plain (kept fs)))) = Some y).
        { rewrite <- Hy, Hpl. cbn [map]. rewrite !map_map. reflexivity. }
        clear Hy. destruct (all_some (map (fun f => tfield _ _ _) _)) as [ys|] eqn:Hys; [|discriminate]. injection Hy' as <-.
        destruct (pos_fuel _ _ _ Ho) as [k HK]. rewrite HK in Ho. apply (tuple_member k zs); auto.
        apply (fields_both m (filter plain (kept fs)) zs ys); auto. lia.
    + discriminate.
Qed.

Lemma unit_both tg name k u o : zparse k (unit_z tg name) u = POk o -> both (unit_ty tg name) u o.
Proof.
  intros Ho. destruct tg as [|tag|tag content|]; cbn [unit_z unit_ty] in *.
  - now apply lit_both in Ho.
  - destruct k as [|k]; [discriminate|]. apply (obj_member k [(tag, ZLit (js name))]); [repeat constructor; easy| |exact Ho].
    constructor; [|constructor]. split; [reflexivity|]. cbn [snd]. intros x o' H. now apply lit_both in H.
  - destruct k as [|k]; [discriminate|]. apply (obj_member k [(tag, ZLit (js name))]); [repeat constructor; easy| |exact Ho].
    constructor; [|constructor]. split; [reflexivity|]. cbn [snd]. intros x o' H. now apply lit_both in H.
  - destruct k; [discriminate|]. cbn [Zod.zparse] in Ho. destruct u; try discriminate.
    injection Ho as <-. split; constructor.
Qed.

Definition ylits (tg : tagging) (name : string) (y : tsty) : tsty :=
  match tg with
  | External | Internal _ => YObj [(name, false, y)]
  | Adjacent tag content => YObj [(tag, false, YStr name); (content, false, y)]
  | Untagged => y
  end.

Lemma lits_both tg name z y k u o : match tg with Adjacent t c => t <> c | _ => True end ->
  (forall k' u o, k' <= k -> zparse k' z u = POk o -> both y u o) ->
  zparse k (zlits tg name z) u = POk o -> both (ylits tg name y) u o.
Proof.
  intros Ht Hz Ho. destruct tg as [|tag|tag content|]; cbn [zlits ylits] in *.
  - destruct k as [|k]; [discriminate|]. apply (obj_member k [(name, z)]); [repeat constructor; easy| |exact Ho].
    constructor; [|constructor]. split; [reflexivity|]. cbn [snd]. intros x o' H. apply (Hz k); auto.
  - destruct k as [|k]; [discriminate|]. apply (obj_member k [(name, z)]); [repeat constructor; easy| |exact Ho].
    constructor; [|constructor]. split; [reflexivity|]. cbn [snd]. intros x o' H. apply (Hz k); auto.
  - assert (Hn : NoDup (map fst [(tag, ZLit (js name)); (content, z)])).
    { cbn. repeat constructor; cbn; intuition. }
    rewrite shape_nodup in Ho by exact Hn.
    destruct k as [|k]; [discriminate|]. apply (obj_member k [(tag, ZLit (js name)); (content, z)]); [exact Hn| |exact Ho].
    constructor; [|constructor; [|constructor]]; (split; [reflexivity|]); cbn [snd]; intros x o' H.
    + now apply lit_both in H.
    + apply (Hz k); auto.
  - now apply (Hz k).
Qed.

Lemma variant_both m tg v z y k u o : k <= K ->
  (forall f, In f (kept (v_fields v)) -> within inside (f_ty f)) ->
  (v_style v = StNamed -> NoDup (map f_name (kept (v_fields v)))) ->
  (forall tag, tg = Internal tag -> v_style v = StNamed -> forall f, In f (kept (v_fields v)) -> f_name f <> tag) ->
  match tg with Adjacent t c => t <> c | _ => True end ->
  variant_z (zgen E n) tg v = Some z -> variant_ty (tgen E m) tg v = Some y ->
  zparse k z u = POk o -> both y u o.
Proof.
  intros Hk Hw Hn Hi Ha Hz Hy Ho. unfold variant_z in Hz. unfold variant_ty in Hy.
  change (variant_fields (v_fields v)) with (kept (v_fields v)) in Hy. destruct (v_style v).
  - specialize (Hn eq_refl). unfold named_ty in Hy.
    assert (Hz' : exists ps, all_some (map (prop_z (zgen E n)) (kept (v_fields v))) = Some ps /\
      z = match tg with Internal tag => ZObject (shape ((tag, ZLit (js (v_name v))) :: ps))
          | _ => zlits tg (v_name v) (ZObject (shape ps)) end).
    { destruct (kept (v_fields v)) as [|f r] eqn:Hkf; [discriminate|]. rewrite <- Hkf in *.
      destruct (all_some _) as [ps|]; [|discriminate]. injection Hz as <-. exists ps. split; [reflexivity|]. reflexivity. }
    assert (Hy' : exists tps, all_some (map (fun f => tprop (tgen E m) (f_name f) (f_ty f) (f_default f)) (kept (v_fields v))) = Some tps /\
      y = match tg with Internal tag => YObj ((tag, false, YStr (v_name v)) :: tps)
          | _ => ylits tg (v_name v) (YObj tps) end).
    { destruct (kept (v_fields v)) as [|f r] eqn:Hkf; [discriminate|]. rewrite <- Hkf in *.
      destruct (all_some (map (fun f => tprop _ _ _ _) _)) as [tps|]; [|discriminate]. injection Hy as <-. exists tps. split; [reflexivity|]. now destruct tg. }
    clear Hz Hy. destruct Hz' as [ps [Hps Hz]]. destruct Hy' as [tps [Htps Hy]].
    destruct (props_both m _ ps tps Hw Hps Htps) as [Hkeys Hf].
    assert (Hnd : NoDup (map fst ps)) by (now rewrite Hkeys).
    assert (Hobj : forall k' u o, k' <= k -> zparse k' (ZObject (shape ps)) u = POk o -> both (YObj tps) u o).
    { intros k' x o' Hk' H. rewrite shape_nodup in H by exact Hnd. destruct k' as [|k']; [discriminate|].
      apply (obj_member k' ps); auto. apply Hf. lia. }
    pose proof (lits_both tg (v_name v) _ _ k u o Ha Hobj) as Hl.
    destruct tg as [|tag|tag content|]; try (subst z y; now apply Hl).
    subst z y. assert (Hnd2 : NoDup (map fst ((tag, ZLit (js (v_name v))) :: ps))).
    { cbn. constructor; [|exact Hnd]. rewrite Hkeys. intros H. apply in_map_iff in H as [f [He Hfi]].
      exact (Hi tag eq_refl eq_refl f Hfi He). }
    rewrite shape_nodup in Ho by exact Hnd2. destruct k as [|k]; [discriminate|].
    apply (obj_member k _ _ u o Hnd2); [|exact Ho]. constructor; [|apply Hf; lia].
    split; [reflexivity|]. cbn [snd]. intros x o' H. now apply lit_both in H.
  - destruct (kept (v_fields v)) as [|f [|f2 r]] eqn:Hkf.
    + cbn in Hy. injection Hz as <-. injection Hy as <-. now apply (unit_both _ _ k).
    + destruct (field_z (zgen E n) f) as [z0|] eqn:Hz0; [|discriminate]. injection Hz as <-.
      cbn [tuple_ty] in Hy. destruct (tfield _ _ _) as [y0|] eqn:Hy0; [|discriminate]. cbn in Hy.
      assert (y = ylits tg (v_name v) y0) as -> by (now destruct tg; injection Hy).
      apply (lits_both tg (v_name v) z0 y0 k u o Ha); [|exact Ho].
      intros k' x o' Hk'. apply (field_both m f); auto; [apply Hw; now left|lia].
    + rewrite <- Hkf in *. destruct (all_some (map (field_z _) _)) as [zs|] eqn:Hzs; [|discriminate]. injection Hz as <-.
      assert (Hy' : exists ys, all_some (map (fun f => tfield (tgen E m) (f_ty f) (f_default f)) (kept (v_fields v))) = Some ys /\
        y = ylits tg (v_name v) (YTup ys)).
      { unfold tuple_ty in Hy. rewrite Hkf in Hy |- *. destruct (all_some (map (fun f => tfield _ _ _) _)) as [ys|]; [|discriminate].
        exists ys. split; [reflexivity|]. now destruct tg; injection Hy. }
      destruct Hy' as [ys [Hys ->]]. apply (lits_both tg (v_name v) (ZTuple zs) (YTup ys) k u o Ha); [|exact Ho].
      intros k' x o' Hk' H. destruct k' as [|k']; [discriminate|]. apply (tuple_member k' zs); auto.
      apply (fields_both m (kept (v_fields v)) zs ys); auto. lia.
  - injection Hz as <-. injection Hy as <-. now apply (unit_both _ _ k).
Qed.

Lemma decl_both m i z y v o : inside i = true -> decl_z (zgen E n) (lookup E i) = Some z ->
  decl_ty (tgen E m) (lookup E i) = Some y -> zparse K z v = POk o -> both y v o.
Proof.
  intros Hi Hz Hy Ho. pose proof (HC i Hi) as Hp. pose proof (HD i Hi) as Hd.
  pose proof (tag_lookup E HG i) as [Htf _].
  unfold decl_z in Hz. unfold decl_ty in Hy. unfold parts in Hp. unfold distinct_decl in Hd. unfold tags_fit in Htf.
  destruct (d_from (lookup E i)) as [t|].
  - assert (Hw : within inside t) by (apply Hp; now left). destruct (d_body (lookup E i)).
    + apply (P_inline K n Hle InlineSchema t z v o m y); auto. now right.
    + apply (Hle Schema t z v o m y); auto. now left.
  - destruct (d_body (lookup E i)) as [st tr fs|tg vs].
    + apply (struct_both m st tr fs z y v o); auto.
      * intros f Hf. now apply Hp, in_map.
      * intros ->. exact Hd.
    + destruct (enum_parse E ip M n tg (kept_variants vs) z K v o Hz Ho) as [w [z0 [k' [Hin [Hk' [Hz0 Ho']]]]]].
      unfold enum_ty in Hy. change (filter (fun v => negb (v_skip v)) vs) with (kept_variants vs) in Hy.
      destruct (all_some _) as [[|y1 ys]|] eqn:Hys; try discriminate. injection Hy as <-.
      apply all_some_map in Hys. destruct (Forall2_in_l _ _ _ w Hys Hin) as [y0 [Hc Hy0]]. apply in_combine_r in Hc.
      assert (H : both y0 v o).
      { apply (variant_both m tg w z0 y0 k' v o); auto.
        - intros f Hf. apply Hp, in_flat_map. exists w. split; [exact Hin|]. now apply in_map.
        - intros tag -> Hs f Hf. specialize (Htf w Hin). rewrite Hs in Htf. now apply Htf.
        - destruct tg; auto. }
      destruct H. split; now apply (member_unis T ys y1 y0).
Qed.
End Level.

Lemma P_step K n : (forall k n, k < K -> P k n) -> (forall n', n' < n -> P K n') -> P K n.
Proof.
  intros Hlt Hn q t z v o m y Hq Hw Hz Hy Ho. destruct n as [|n]; [discriminate|]. destruct m as [|m]; [discriminate|].
  assert (Hle : P K n) by (apply Hn; lia).
  assert (Hb : (forall i, t <> TNamed i) -> both y v o).
  { intros Ht. assert (Hz' : match q with Schema => builtin_z (zgen E n) t | _ => zgen E n Schema t end = Some z).
    { destruct t; try exact Hz. now destruct (Ht i). }
    destruct Hq as [-> | ->]; [|apply (Hle Schema t z v o (S m) y); auto; now left].
    assert (HS : forall q u z y v o k, k <= K -> within inside u -> sq q -> zgen E n q u = Some z ->
      tgen E m TypeDef u = Some y -> zparse k z v = POk o -> both y v o).
    { intros. eapply (Ple K n Hlt Hle); eauto. }
    assert (Hs : sq Schema) by (now left). assert (Hi : sq InlineSchema) by (now right).
    assert (Hy' : builtin_ty (tgen E m) t = Some y).
    { destruct t; try exact Hy. now destruct (Ht i). }
    clear Hz Hy Ht.
    assert (Hvec : forall u n m z y, P K n -> (forall k n, k < K -> P k n) -> within inside u ->
      builtin_z (zgen E n) (TVec u) = Some z -> builtin_ty (tgen E m) (TVec u) = Some y -> zparse K z v = POk o -> both y v o).
    { clear -T. intros u n m z y Hle Hlt Hw Hz Hy Ho. cbn [builtin_z builtin_ty] in *.
      destruct (zgen E n InlineSchema u) as [z0|] eqn:Hz0; [|discriminate]. injection Hz as <-.
      destruct (tgen E m TypeDef u) as [y0|] eqn:Hy0; [|discriminate]. injection Hy as <-.
      destruct K as [|k]; [discriminate|]. cbn [Zod.zparse] in Ho. destruct v; try discriminate.
      apply lmap_ok in Ho as [os [Hc ->]].
      destruct (list_member k z0 y0 l os) as [H1 H2]; [|exact Hc|split; now constructor].
      intros x o' H. apply (Hlt k n (Nat.lt_succ_diag_r k) InlineSchema u z0 x o' m y0); auto. now right. }
    assert (Hset : forall u n m z y, P K n -> (forall k n, k < K -> P k n) -> within inside u ->
      builtin_z (zgen E n) (TSet Hash u) = Some z -> builtin_ty (tgen E m) (TSet Hash u) = Some y -> zparse K z v = POk o -> both y v o).
    { clear -T. intros u n m z y Hle Hlt Hw Hz Hy Ho. cbn [builtin_z builtin_ty] in *.
      destruct (zgen E n InlineSchema u) as [z0|] eqn:Hz0; [|discriminate]. injection Hz as <-.
      destruct (tgen E m TypeDef u) as [y0|] eqn:Hy0; [|discriminate]. injection Hy as <-.
      destruct K as [|k]; [discriminate|]. cbn [Zod.zparse] in Ho. destruct v; try discriminate.
      apply lmap_ok in Ho as [os [Hc ->]].
      destruct (list_member k z0 y0 l os) as [H1 H2]; [|exact Hc|split; now constructor].
      intros x o' H. apply (Hlt k n (Nat.lt_succ_diag_r k) InlineSchema u z0 x o' m y0); auto. now right. }
    assert (Hmap : forall a b n m z y, P K n -> (forall k n, k < K -> P k n) -> within inside a -> within inside b ->
      builtin_z (zgen E n) (TMap Hash a b) = Some z -> builtin_ty (tgen E m) (TMap Hash a b) = Some y -> zparse K z v = POk o -> both y v o).
    { clear -T. intros a b n m z y Hle Hlt Hwa Hwb Hz Hy Ho. cbn [builtin_z builtin_ty] in *.
      destruct (zgen E n InlineSchema a) as [za|] eqn:Hza; [|discriminate]. cbn [bind] in Hz.
      destruct (zgen E n InlineSchema b) as [zb|] eqn:Hzb; [|discriminate]. injection Hz as <-.
      destruct (tgen E m TypeDef a) as [ya|] eqn:Hya; [|discriminate]. cbn [bind] in Hy.
      destruct (tgen E m TypeDef b) as [yb|] eqn:Hyb; [|discriminate]. injection Hy as <-.
      destruct K as [|k]; [discriminate|]. cbn [Zod.zparse] in Ho. destruct v; try discriminate.
      destruct (collect (map (fun p => zparse k za (fst p)) l)) as [ks| | |] eqn:H1; try discriminate;
      destruct (collect (map (fun p => zparse k zb (snd p)) l)) as [vs| | |] eqn:H2; try discriminate.
      injection Ho as <-. rewrite <- (map_map fst (zparse k za)) in H1. rewrite <- (map_map snd (zparse k zb)) in H2.
      edestruct (list_member k za ya) as [H3 H4]; [|exact H1|].
      { intros x o' H. apply (Hlt k n (Nat.lt_succ_diag_r k) InlineSchema a za x o' m ya); auto. now right. }
      edestruct (list_member k zb yb) as [H5 H6]; [|exact H2|].
      { intros x o' H. apply (Hlt k n (Nat.lt_succ_diag_r k) InlineSchema b zb x o' m yb); auto. now right. }
      split; constructor; intros p Hp.
      - apply H3. now apply in_map.
      - apply H5. now apply in_map.
      - apply H4. destruct p. now apply in_combine_l in Hp.
      - apply H6. destruct p. now apply in_combine_r in Hp. }
    destruct t as [p|ts|w t|t|c t|c t|c a b|t|t e|i]; cbn [builtin_z builtin_ty] in Hz', Hy'.
    - injection Hy' as <-. now apply (prim_both K p z).
    - destruct (all_some (map (zgen E n Schema) ts)) as [zs|] eqn:Hzs; [|discriminate]. injection Hz' as <-.
      destruct (all_some (map (tgen E m TypeDef) ts)) as [ys|] eqn:Hys; [|discriminate]. injection Hy' as <-.
      destruct K as [|k]; [discriminate|]. apply (tuple_member k zs); [|exact Ho].
      apply all_some_map in Hzs. apply all_some_map in Hys. clear -Hzs Hys HS Hs Hw. revert ys Hys.
      assert (Hw' : forall t, In t ts -> within inside t).
      { intros t Ht j Hj. apply Hw. cbn. apply in_flat_map. eauto. }
      clear Hw. induction Hzs as [|t z ts zs Hz _ IH]; intros ys Hys; inversion Hys as [|? y1 ? ys' H1 H2]; subst; constructor.
      + intros u o' Ho. apply (HS Schema t z y1 u o' k); auto. apply Hw'. now left.
      + apply IH; auto. intros t' Ht'. apply Hw'. now right.
    - apply (HS Schema t z y v o K); auto.
    - apply (Hvec t n m z y); auto.
    - destruct n as [|n0]; [discriminate|]. destruct m as [|m0]; [discriminate|]. cbn [zgen tgen] in Hz', Hy'.
      apply (Hvec t n0 m0 z y); auto.
    - destruct c.
      + apply (Hset t n m z y); auto.
      + destruct n as [|n0]; [discriminate|]. destruct m as [|m0]; [discriminate|]. cbn [zgen tgen] in Hz', Hy'.
        apply (Hset t n0 m0 z y); auto.
    - assert (Hwa : within inside a) by (intros j Hj; apply Hw; cbn; apply in_or_app; now left).
      assert (Hwb : within inside b) by (intros j Hj; apply Hw; cbn; apply in_or_app; now right).
      destruct c.
      + apply (Hmap a b n m z y); auto.
      + destruct n as [|n0]; [discriminate|]. destruct m as [|m0]; [discriminate|]. cbn [zgen tgen] in Hz', Hy'.
        apply (Hmap a b n0 m0 z y); auto.
    - destruct (zgen E n InlineSchema t) as [z0|] eqn:Hz0; [|discriminate]. injection Hz' as <-.
      destruct (tgen E m TypeDef t) as [y0|] eqn:Hy0; [|discriminate]. injection Hy' as <-.
      destruct K as [|k]; [discriminate|]. cbn [Zod.zparse] in Ho.
      assert (H' : v = JsUndef /\ o = JsUndef \/ zparse k z0 v = POk o).
      { destruct v; auto. injection Ho as <-. now left. }
      destruct H' as [[-> ->]|H']; [split; apply mb_paren, mb_right; constructor|].
      destruct (HS InlineSchema t z0 y0 v o k) as [H1 H2]; auto.
      split; now apply mb_paren, mb_left.
    - assert (Hwa : within inside t) by (intros j Hj; apply Hw; cbn; apply in_or_app; now left).
      assert (Hwb : within inside e) by (intros j Hj; apply Hw; cbn; apply in_or_app; now right).
      destruct (zgen E n InlineSchema t) as [za|] eqn:Hza; [|discriminate]. cbn [bind] in Hz'.
      destruct (zgen E n InlineSchema e) as [zb|] eqn:Hzb; [|discriminate]. injection Hz' as <-.
      destruct (tgen E m TypeDef t) as [ya|] eqn:Hya; [|discriminate]. cbn [bind] in Hy'.
      destruct (tgen E m TypeDef e) as [yb|] eqn:Hyb; [|discriminate]. injection Hy' as <-.
      destruct K as [|[|k]]; [discriminate|discriminate|]. remember (S k) as k1. cbn [Zod.zparse] in Ho.
      apply first_ok_ok in Ho. destruct Ho as [Ho|[Ho|[]]]; subst k1.
      + destruct (obj_member k [("Ok", za)] [("Ok", false, ya)] v o) as [H1 H2]; auto.
        * repeat constructor. easy.
        * constructor; [|constructor]. split; [reflexivity|]. cbn [snd]. intros x o' H.
          apply (HS InlineSchema t za ya x o' k); auto.
        * split; now apply mb_left.
      + destruct (obj_member k [("Err", zb)] [("Err", false, yb)] v o) as [H1 H2]; auto.
        * repeat constructor. easy.
        * constructor; [|constructor]. split; [reflexivity|]. cbn [snd]. intros x o' H.
          apply (HS InlineSchema e zb yb x o' k); auto.
        * split; now apply mb_right.
    - discriminate. }
  destruct t as [p|ts|w t|t|c t|c t|c a b|t|t e|i]; try (apply Hb; discriminate). clear Hb.
  assert (Hi : inside i = true) by (apply Hw; now left). pose proof Hy as Hy0. cbn [zgen tgen] in Hz, Hy.
  destruct (derive (lookup E i)); try discriminate. destruct Hq as [-> | ->].
  - apply (decl_both K n Hlt Hle m i z y v o); auto.
  - assert (Hl : zparse K (ZLazy (d_ns (lookup E i)) (d_name (lookup E i))) v = POk o -> both y v o).
    { clear Ho. intros Ho. destruct K as [|k]; [discriminate|]. destruct (HM i Hi) as [n' [z' [Hz' HMi]]].
      cbn [Zod.zparse] in Ho. rewrite HMi in Ho.
      apply (Hlt k n' (Nat.lt_succ_diag_r k) Schema (TNamed i) z' v o (S m) y); auto. now left. }
    unfold ref_z in Hz. destruct (d_from (lookup E i)) as [t|] eqn:Hf; [|injection Hz as <-; now apply Hl].
    destruct (d_body (lookup E i)) eqn:Hbd; [injection Hz as <-; now apply Hl|].
    unfold decl_ty in Hy. rewrite Hf, Hbd in Hy.
    apply (Hle InlineSchema t z v o m y); auto; [now right|].
    apply (HC i Hi). unfold parts. rewrite Hf. now left.
Qed.

Theorem all_member : forall k n, P k n.
Proof.
  induction k as [k Hk] using lt_wf_ind. induction n as [n Hn] using lt_wf_ind. apply P_step; auto.
Qed.
End Member.

(** ** For the generated texts *)
Lemma type_exports_tgen E inside T : good_names E -> type_names E -> type_exports E inside T ->
  forall i, inside i = true -> exists m y,
    tgen E m TypeDef (TNamed i) = Some y /\ T (d_ns (lookup E i)) (d_name (lookup E i)) = Some y.
Proof.
  intros Hg Ht HX i Hi. destruct (HX i Hi) as [s [y [[m Hm] [Hp HT]]]].
  destruct (gen_tgen E m TypeDef (TNamed i) s Hg Ht (or_introl eq_refl) Hm) as [y' [H1 [_ [_ H2]]]].
  exists m, y'. split; [exact H1|]. congruence.
Qed.

Theorem accepted_member : forall E ip M T inside q q' t s z s' y v o,
  good_names E -> type_names E -> tags_ok E -> spans E inside -> distinct E inside ->
  exports E inside M -> type_exports E inside T -> within inside t ->
  q = Schema \/ q = InlineSchema -> returns E q t s -> load s = Val z ->
  q' = TypeDef \/ q' = Inline -> returns E q' t s' -> ts_parse s' = Some y ->
  accepts ip M z v o -> member T y v /\ member T y o.
Proof.
  intros E ip M T inside q q' t s z s' y v o Hg Hn HG HC HD HX HY Hw Hq [n Hr] Hl Hq' [m Hr'] Hp [k Ho].
  destruct (gen_agen E n q t s Hg Hq Hr) as [e [He [_ [_ Hpe]]]].
  unfold load in Hl. rewrite Hpe in Hl. pose proof (zgen_ok E HG n q t e z Hq He Hl) as Hz.
  destruct (gen_tgen E m q' t s' Hg Hn Hq' Hr') as [y' [Hy [_ [_ Hp']]]].
  assert (y' = y) as -> by congruence.
  pose proof (all_member E ip M T inside (exports_zgen E inside M Hg HG HX) (type_exports_tgen E inside T Hg Hn HY)
    HC HD HG k n) as HP.
  destruct Hq' as [-> | ->].
  - exact (HP q t z v o m y Hq Hw Hz Hy Ho).
  - exact (P_inline E ip M T inside (type_exports_tgen E inside T Hg Hn HY) HC k n HP q t z v o m y Hq Hw Hz Hy Ho).
Qed.
