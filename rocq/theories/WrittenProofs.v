(** Proofs about declarations as they are written. *)
From Coq Require Import List String Ascii Bool NArith.
From Verif Require Import Util RustTy Gen GenSpec JsLex JsParse Ast AstProofs TsType TsAst TsAstProofs ZodSpec Serde TsSpec Wire Written WrittenSpec.
Import ListNotations.
Local Open Scope string_scope.
Local Open Scope list_scope.

(** ** Letters *)
Lemma lower_is c : lower c = minuscule c.
Proof. destruct c as [[] [] [] [] [] [] [] []]; reflexivity. Qed.
Lemma upper_is c : upper c = majuscule c.
Proof. destruct c as [[] [] [] [] [] [] [] []]; reflexivity. Qed.
Lemma upper_case_is c : upper_case c = one_of c capital.
Proof. destruct c as [[] [] [] [] [] [] [] []]; reflexivity. Qed.
Lemma upper_lower c : upper (lower c) = majuscule c.
Proof. destruct c as [[] [] [] [] [] [] [] []]; reflexivity. Qed.
Lemma capital_back c : one_of c capital = true -> upper (lower c) = c.
Proof. destruct c as [[] [] [] [] [] [] [] []]; intros H; try discriminate H; reflexivity. Qed.
Lemma smap_is f g s : (forall c, f c = g c) -> smap f s = each_char g s.
Proof. intros H. induction s as [|c r IH]; cbn; [reflexivity|]. now rewrite H, IH. Qed.

(** ** Words *)
Lemma words_some s : exists w r, words s = w :: r.
Proof.
  induction s as [|c s [w [r IH]]]; cbn; [now exists "", []|].
  destruct (Ascii.eqb c "_"); [now exists "", (words s)|]. rewrite IH. now exists (String c w), r.
Qed.
Lemma concat_cons sep x y l : String.concat sep (x :: y :: l) = (x ++ sep ++ String.concat sep (y :: l))%string.
Proof. reflexivity. Qed.
Lemma append_nil s : (s ++ "")%string = s.
Proof. induction s as [|c s IH]; cbn; [reflexivity|]. now rewrite IH. Qed.

Lemma concat_onto sep c w l : String.concat sep (String c w :: l) = String c (String.concat sep (w :: l)).
Proof. destruct l; reflexivity. Qed.

Lemma dashes_is s : dashes s = hyphenated s.
Proof.
  unfold dashes, hyphenated. induction s as [|c s IH]; [reflexivity|]. cbn [smap words].
  destruct (words_some s) as [w [r E]]. destruct (Ascii.eqb_spec c "_") as [->|N].
  - rewrite IH. now rewrite E.
  - rewrite IH, E. cbn [onto]. now rewrite concat_onto.
Qed.

Lemma concat_empty_cons x l : String.concat "" (x :: l) = (x ++ String.concat "" l)%string.
Proof. destruct l; cbn; [now rewrite append_nil|reflexivity]. Qed.

Lemma pascal_is s :
  pascal_loop true s = String.concat "" (map first_capital (words s)) /\
  pascal_loop false s = match words s with w :: r => (w ++ String.concat "" (map first_capital r))%string | [] => "" end.
Proof.
  induction s as [|c s [IHt IHf]]; [split; reflexivity|].
  cbn [pascal_loop words]. destruct (words_some s) as [w [r E]].
  destruct (Ascii.eqb c "_").
  - split; [|cbn]; rewrite IHt; [|reflexivity]. cbn [map]. now rewrite concat_empty_cons.
  - rewrite IHf, E. cbn [onto map first_capital]. split; [|reflexivity].
    rewrite concat_empty_cons, upper_is. reflexivity.
Qed.

Lemma humps_some c r : exists w l, humps (String c r) = w :: l.
Proof.
  revert c. induction r as [|d r IH]; intros c; [now exists (String c ""), []|].
  change (humps (String c (String d r))) with (if one_of d capital then String c "" :: humps (String d r) else onto c (humps (String d r))).
  destruct (one_of d capital); [now exists (String c ""), (humps (String d r))|].
  destruct (IH d) as [w [l ->]]. now exists (String c w), l.
Qed.

Lemma snake_from d r : snake_loop false (String d r) =
  if one_of d capital then String "_" (snake_loop true (String d r)) else snake_loop true (String d r).
Proof. cbn [snake_loop negb andb]. rewrite upper_case_is. destruct (one_of d capital); reflexivity. Qed.

Lemma snake_is v : snake_loop true v = String.concat "_" (map all_small (humps v)).
Proof.
  induction v as [|c [|d r] IH]; [reflexivity|cbn; now rewrite lower_is|].
  change (snake_loop true (String c (String d r))) with (String (lower c) (snake_loop false (String d r))).
  change (humps (String c (String d r))) with (if one_of d capital then String c "" :: humps (String d r) else onto c (humps (String d r))).
  rewrite snake_from, IH, lower_is. destruct (humps_some d r) as [w [l ->]].
  destruct (one_of d capital); cbn [map onto].
  - reflexivity.
  - change (all_small (String c w)) with (String (minuscule c) (all_small w)). now rewrite concat_onto.
Qed.

Lemma smap_append f a b : smap f (a ++ b)%string = (smap f a ++ smap f b)%string.
Proof. induction a as [|c a IH]; cbn; [reflexivity|]. now rewrite IH. Qed.
Lemma smap_concat f sep l : smap f (String.concat sep l) = String.concat (smap f sep) (map (smap f) l).
Proof.
  induction l as [|x [|y l] IH]; [reflexivity..|].
  change (map (smap f) (x :: y :: l)) with (smap f x :: smap f y :: map (smap f) l).
  rewrite !concat_cons, !smap_append. now rewrite IH.
Qed.
Lemma smap_smap f g s : smap f (smap g s) = smap (fun c => f (g c)) s.
Proof. induction s as [|c s IH]; cbn; [reflexivity|]. now rewrite IH. Qed.
Lemma each_smap f s : each_char f s = smap f s.
Proof. induction s as [|c s IH]; cbn; [reflexivity|]. now rewrite IH. Qed.

Lemma screaming_is v : smap upper (snake_loop true v) = String.concat "_" (map all_capital (humps v)).
Proof.
  rewrite snake_is, smap_concat. f_equal. rewrite map_map. apply map_ext. intros w.
  induction w as [|c w IH]; [reflexivity|].
  change (String (upper (minuscule c)) (smap upper (all_small w)) = String (majuscule c) (all_capital w)).
  rewrite IH. f_equal. rewrite <- lower_is. apply upper_lower.
Qed.

Lemma dashes_concat l : dashes (String.concat "_" l) = String.concat "-" (map hyphenated l).
Proof. unfold dashes. rewrite smap_concat. cbn [smap Ascii.eqb]. f_equal. apply map_ext. intros w. apply dashes_is. Qed.

(** ** The rules *)
Lemma variant_rules r v : v <> "" -> apply_to_variant r v = Some (variant_name r v).
Proof.
  intros N. destruct r; cbn [apply_to_variant variant_name]; try reflexivity; f_equal.
  - apply smap_is, lower_is.
  - apply smap_is, upper_is.
  - destruct v as [|c v]; [congruence|]. cbn. now rewrite lower_is.
  - apply snake_is.
  - apply screaming_is.
  - rewrite snake_is, dashes_concat, map_map. reflexivity.
  - rewrite screaming_is, dashes_concat, map_map. reflexivity.
Qed.


Lemma pascal_nil s : pascal_loop true s = "" <-> underscores s = true.
Proof.
  unfold underscores. induction s as [|c s IH]; [cbn; tauto|]. cbn [pascal_loop every]. rewrite (Ascii.eqb_sym "_" c).
  destruct (Ascii.eqb c "_"); cbn; [exact IH|]. split; discriminate.
Qed.

Lemma field_rules r f : ~ (r = RCamel /\ underscores f = true) -> apply_to_field r f = Some (field_name r f).
Proof.
  intros N. destruct r; cbn [apply_to_field field_name]; try reflexivity; try f_equal.
  - apply smap_is, upper_is.
  - apply (pascal_is f).
  - rewrite <- (proj1 (pascal_is f)). destruct (pascal_loop true f) as [|c r] eqn:E.
    + destruct N. split; [reflexivity|]. now apply pascal_nil.
    + cbn. now rewrite lower_is.
  - apply smap_is, upper_is.
  - apply dashes_is.
  - rewrite dashes_is. f_equal. apply smap_is, upper_is.
Qed.
Lemma field_panics f : underscores f = true -> apply_to_field RCamel f = None.
Proof. intros H. cbn. apply pascal_nil in H. now rewrite H. Qed.

(** What is given by a rule is what the words say. *)
Lemma field_some r f n : apply_to_field r f = Some n -> n = field_name r f.
Proof.
  intros H. destruct (underscores f) eqn:U.
  - assert (D : r = RCamel \/ r <> RCamel) by (destruct r; (now left) || (right; discriminate)).
    destruct D as [->|D]; [rewrite (field_panics f U) in H; discriminate|].
    rewrite field_rules in H by tauto. congruence.
  - rewrite field_rules in H by (intros [_ H']; congruence). congruence.
Qed.
Lemma variant_some r v n : apply_to_variant r v = Some n -> n = variant_name r v.
Proof.
  intros H. destruct v as [|c v]; [destruct r; cbn in H; try discriminate H; injection H as <-; reflexivity|]. rewrite variant_rules in H by discriminate. congruence.
Qed.

Lemma unraw_bare s : unraw s = bare s.
Proof. reflexivity. Qed.

(** ** What the derive sees *)
Lemma each_forall2 {A B} (f : A -> option B) (P : A -> B -> Prop) l ys :
  (forall x y, f x = Some y -> P x y) -> each f l = Some ys -> Forall2 P l ys.
Proof.
  intros H. revert ys. induction l as [|x l IH]; cbn; intros ys E; [injection E as <-; constructor|].
  destruct (f x) as [y|] eqn:F; [|discriminate]. destruct (each f l) as [zs|]; [|discriminate].
  injection E as <-. constructor; auto.
Qed.

Lemma renamed_field r g x n : renamed apply_to_field r g x = Some n -> n = expected field_name r g x.
Proof. destruct g; cbn; [congruence|]. rewrite unraw_bare. apply field_some. Qed.
Lemma renamed_variant r g x n : renamed apply_to_variant r g x = Some n -> n = expected variant_name r g x.
Proof. destruct g; cbn; [congruence|]. rewrite unraw_bare. apply variant_some. Qed.

Lemma default_is (a b c : bool) : a || b && negb c = true <-> a = true \/ b = true /\ c = false.
Proof. destruct a, b, c; cbn; intuition congruence. Qed.

Lemma field_is st cd ser de w f : resolve_field st cd ser de w = Some f -> field_as st cd ser de w f.
Proof.
  unfold resolve_field. intros H. destruct st.
  - destruct (renamed apply_to_field de _ _) as [d|] eqn:D; [|discriminate].
    destruct (renamed apply_to_field ser _ _) as [s|] eqn:S; [|discriminate]. injection H as <-.
    apply renamed_field in D, S. constructor; cbn; auto. apply default_is.
  - injection H as <-. constructor; cbn; auto; try discriminate. apply default_is.
  - injection H as <-. constructor; cbn; auto; try discriminate. apply default_is.
Qed.

Lemma variant_is ser de w v : resolve_variant ser de w = Some v -> variant_as ser de w v.
Proof.
  unfold resolve_variant. intros H.
  destruct (renamed apply_to_variant de _ _) as [d|] eqn:D; [|discriminate].
  destruct (renamed apply_to_variant ser _ _) as [s|] eqn:S; [|discriminate].
  destruct (each _ _) as [fs|] eqn:F; [|discriminate]. injection H as <-.
  apply renamed_variant in D, S. constructor; cbn; auto.
  revert F. apply each_forall2. intros x y. apply field_is.
Qed.

Lemma tag_is d tg : decide_tag d = Some tg -> tagged_as d tg.
Proof.
  unfold decide_tag. destruct (wd_untagged d) eqn:U, (wd_tag d) eqn:T, (wd_content d) eqn:C; intros H;
    try discriminate H; injection H as <-; cbn; auto.
Qed.

Lemma resolve_is w d : resolve w = Some d -> decl_as w d.
Proof.
  unfold resolve. destruct (resolve_body w) as [b|] eqn:B; [|discriminate]. intros H. injection H as <-.
  constructor; cbn; auto; try (destruct (wd_from w); reflexivity).
  2: { destruct (wd_from w), (wd_try_from w); (split; [intros X; try discriminate X; split; congruence|intros [X Y]; congruence]). }
  unfold resolve_body in B. unfold body_as. destruct (wd_body w) as [st ws|ws].
  - destruct (each _ ws) as [fs|] eqn:F; [|discriminate]. injection B as <-. repeat split.
    revert F. apply each_forall2. intros x y. apply field_is.
  - destruct (decide_tag w) as [tg|] eqn:T; [|discriminate]. destruct (each _ ws) as [vs|] eqn:F; [|discriminate].
    injection B as <-. split; [now apply tag_is|]. revert F. apply each_forall2. intros x y. apply variant_is.
Qed.

Lemma seen_resolves w d : seen w = Some d -> resolve w = Some d /\ check w = true.
Proof. unfold seen. destruct (check w); [auto|discriminate]. Qed.

Lemma seen_is w d : seen w = Some d -> decl_as w d.
Proof. intros H. apply resolve_is, seen_resolves, H. Qed.

Lemma seen_body w d : seen w = Some d -> check_body (d_body d) = true.
Proof.
  intros H. apply seen_resolves in H as [R C]. unfold check in C. unfold resolve in R.
  destruct (resolve_body w) as [b|]; [|discriminate]. injection R as <-. cbn.
  rewrite !andb_true_iff in C. tauto.
Qed.

(** ** What serde has checked *)
Lemma seen_tags_fit w d : seen w = Some d ->
  (forall tag vs v, d_body d = BEnum (Internal tag) vs -> In v vs -> v_style v = StTuple -> v_name v <> tag) ->
  tags_fit d.
Proof.
  intros H N. apply seen_body in H. unfold tags_fit. destruct (d_body d) as [st tr fs|tg vs]; [exact I|].
  cbn [check_body] in H. apply andb_true_iff in H as [H _].
  destruct tg as [|tag|tag content|]; try exact I.
  - intros v Hv. unfold kept_variants in Hv. apply filter_In in Hv as [Hv Hs]. apply negb_true_iff in Hs.
    rewrite forallb_forall in H. specialize (H v Hv). apply andb_true_iff in H as [H _].
    apply negb_true_iff in H. unfold internal_conflict in H. destruct (v_style v) eqn:S.
    + intros f Hf. unfold kept in Hf. apply filter_In in Hf as [Hf Hk]. apply negb_true_iff in Hk.
      intros T. subst tag. assert (X : existsb (fun f0 => negb (f_sskip f0 || v_sskip v) && String.eqb (f_sname f0) (f_name f)
                        || negb (f_skip f0 || v_skip v) && String.eqb (f_name f0) (f_name f)) (v_fields v) = true).
      { apply existsb_exists. exists f. split; [exact Hf|]. rewrite Hk, Hs, String.eqb_refl. cbn. apply orb_true_r. }
      congruence.
    + intros _. now apply (N tag vs v).
    + exact I.
  - intros ->. rewrite String.eqb_refl in H. discriminate.
Qed.

Lemma seen_transparent w d st fs : seen w = Some d -> d_body d = BStruct st true fs ->
  exists f, filter (fun f => negb (f_skip f) && negb (f_default f) && negb (phantom (f_ty f))) fs = [f] /\
    transparent_field fs = Some f.
Proof.
  intros H B. apply seen_body in H. rewrite B in H. cbn [check_body] in H. apply andb_true_iff in H as [H _].
  unfold transparent_field. destruct st, (filter _ fs) as [|f [|? ?]]; try discriminate H; now exists f.
Qed.

(** ** Names as keys *)
Lemma rust_id_char c : rust_char c = true -> id_char c = true.
Proof. destruct c as [[] [] [] [] [] [] [] []]; intros H; try discriminate H; reflexivity. Qed.
Lemma rust_id_start c : rust_char c = true -> one_of c digits = false -> id_start c = true.
Proof. destruct c as [[] [] [] [] [] [] [] []]; intros H N; try discriminate H; try discriminate N; reflexivity. Qed.
Lemma rust_upper c : rust_char c = true -> rust_char (upper c) = true /\ one_of (upper c) digits = one_of c digits.
Proof. destruct c as [[] [] [] [] [] [] [] []]; intros H; try discriminate H; split; reflexivity. Qed.
Lemma rust_lower c : rust_char c = true -> rust_char (lower c) = true /\ one_of (lower c) digits = one_of c digits.
Proof. destruct c as [[] [] [] [] [] [] [] []]; intros H; try discriminate H; split; reflexivity. Qed.

Definition good_start (s : string) : bool := match s with EmptyString => false | String c _ => negb (one_of c digits) end.
Lemma ident_of s : every rust_char s = true -> good_start s = true -> ident s = true.
Proof.
  destruct s as [|c r]; cbn [every good_start]; [discriminate|]. intros H N.
  apply andb_true_iff in H as [Hc Hr]. apply negb_true_iff in N. cbn [ident].
  rewrite (rust_id_start c Hc N). cbn [andb]. clear c Hc N. induction r as [|c r IH]; [reflexivity|].
  cbn [every] in Hr. apply andb_true_iff in Hr as [Hc Hr]. cbn [all_chars]. unfold all_chars in *. cbn.
  rewrite (rust_id_char c Hc). exact (IH Hr).
Qed.
Lemma rust_parts s : rust_ident s = true -> every rust_char s = true /\ good_start s = true.
Proof.
  destruct s as [|c r]; [discriminate|]. unfold rust_ident, good_start. rewrite !andb_true_iff. tauto.
Qed.
Lemma smap_rust f s : (forall c, rust_char c = true -> rust_char (f c) = true /\ one_of (f c) digits = one_of c digits) ->
  every rust_char s = true -> every rust_char (smap f s) = true /\ good_start (smap f s) = good_start s.
Proof.
  intros F. induction s as [|c s IH]; [split; reflexivity|]. cbn [every smap good_start].
  rewrite !andb_true_iff. intros [Hc Hs]. destruct (F c Hc) as [A ->]. destruct (IH Hs) as [B _]. tauto.
Qed.
Lemma snake_rust b s : every rust_char s = true -> every rust_char (snake_loop b s) = true.
Proof.
  revert b. induction s as [|c s IH]; [reflexivity|]. intros b. cbn [every snake_loop]. rewrite andb_true_iff.
  intros [Hc Hs]. destruct (negb b && upper_case c); cbn [every]; rewrite (proj1 (rust_lower c Hc)), (IH false Hs); reflexivity.
Qed.
Lemma snake_start s : every rust_char s = true -> good_start (snake_loop true s) = good_start s.
Proof.
  destruct s as [|c s]; [reflexivity|]. cbn [every]. rewrite andb_true_iff. intros [Hc _]. cbn [snake_loop negb andb good_start].
  now rewrite (proj2 (rust_lower c Hc)).
Qed.
Lemma pascal_rust b s : every rust_char s = true -> every rust_char (pascal_loop b s) = true.
Proof.
  revert b. induction s as [|c s IH]; [reflexivity|]. intros b. cbn [every pascal_loop]. rewrite andb_true_iff.
  intros [Hc Hs]. destruct (Ascii.eqb c "_"); [now apply IH|]. cbn [every]. rewrite (IH false Hs).
  destruct b; [now rewrite (proj1 (rust_upper c Hc))|now rewrite Hc].
Qed.
Lemma pascal_start s : every rust_char s = true -> letter_first s = true -> good_start (pascal_loop true s) = true.
Proof.
  induction s as [|c s IH]; [discriminate|]. cbn [every pascal_loop letter_first]. rewrite andb_true_iff. intros [Hc Hs].
  destruct (Ascii.eqb c "_"); [now apply IH|]. cbn [good_start]. now rewrite (proj2 (rust_upper c Hc)).
Qed.
Lemma head_lower_rust s n : every rust_char s = true -> head_lower s = Some n -> every rust_char n = true /\ good_start n = good_start s.
Proof.
  destruct s as [|c s]; [discriminate|]. cbn [every head_lower]. rewrite andb_true_iff. intros [Hc Hs] E. injection E as <-.
  cbn [every good_start]. destruct (rust_lower c Hc) as [A ->]. now rewrite A, Hs.
Qed.

Lemma plain_variant_name r v n : rust_ident v = true -> plain_rule r = true -> apply_to_variant r v = Some n -> ident n = true.
Proof.
  intros V P H. apply rust_parts in V as [V G]. pose proof (snake_rust true v V) as S. pose proof (snake_start v V) as S'.
  destruct r; try discriminate P; cbn in H; try (injection H as <-).
  - now apply ident_of.
  - destruct (smap_rust lower v rust_lower V) as [A B]. apply ident_of; congruence.
  - destruct (smap_rust upper v rust_upper V) as [A B]. apply ident_of; congruence.
  - now apply ident_of.
  - destruct (head_lower_rust v n V H) as [A B]. apply ident_of; congruence.
  - apply ident_of; congruence.
  - destruct (smap_rust upper _ rust_upper S) as [A B]. apply ident_of; congruence.
Qed.

Lemma plain_field_name r f n : rust_ident f = true -> plain_rule r = true ->
  match r with RPascal | RCamel => letter_first f | _ => true end = true -> apply_to_field r f = Some n -> ident n = true.
Proof.
  intros V P L H. apply rust_parts in V as [V G]. pose proof (pascal_rust true f V) as S.
  destruct r; try discriminate P; cbn in H; try (injection H as <-).
  - now apply ident_of.
  - now apply ident_of.
  - destruct (smap_rust upper f rust_upper V) as [A B]. apply ident_of; congruence.
  - apply ident_of; [exact S|now apply pascal_start].
  - destruct (head_lower_rust _ n S H) as [A B]. apply ident_of; [exact A|]. rewrite B. now apply pascal_start.
  - now apply ident_of.
  - destruct (smap_rust upper f rust_upper V) as [A B]. apply ident_of; congruence.
Qed.

Lemma each_in {A B} (f : A -> option B) l ys y : each f l = Some ys -> In y ys -> exists x, In x l /\ f x = Some y.
Proof.
  revert ys. induction l as [|x l IH]; cbn; intros ys E Hy; [injection E as <-; destruct Hy|].
  destruct (f x) as [z|] eqn:F; [|discriminate]. destruct (each f l) as [zs|]; [|discriminate]. injection E as <-.
  destruct Hy as [->|Hy]; [now exists x; auto|]. destruct (IH zs eq_refl Hy) as [x' [Hx Fx]]. exists x'. auto.
Qed.

Lemma fields_ident cd ser de ws fs :
  each (resolve_field StNamed cd ser de) ws = Some fs ->
  forallb (plain_field de) (filter (fun f => negb (wf_skip_de f)) ws) = true ->
  forallb (fun f => ident (f_name f)) (filter (fun f => negb (f_skip f)) fs) = true.
Proof.
  intros E H. apply forallb_forall. intros f Hf. apply filter_In in Hf as [Hf Hs].
  destruct (each_in _ _ _ _ E Hf) as [w [Hw R]]. pose proof (field_is _ _ _ _ _ _ R) as A.
  rewrite (fa_skip _ _ _ _ _ _ A) in Hs. rewrite forallb_forall in H.
  specialize (H w (proj2 (filter_In _ _ _) (conj Hw Hs))). unfold resolve_field in R. unfold plain_field in H.
  destruct (renamed apply_to_field de (wf_de w) (wf_ident w)) as [d|] eqn:D; [|discriminate].
  destruct (renamed apply_to_field ser (wf_ser w) (wf_ident w)) as [s|]; [|discriminate]. injection R as <-. cbn.
  destruct (wf_de w) as [n|]; cbn in D; [congruence|]. rewrite !andb_true_iff in H. destruct H as [[Hi Hp] Hl].
  now apply (plain_field_name de (bare (wf_ident w))).
Qed.

Lemma plain_good w d : seen w = Some d -> plain_decl w = true -> good_decl d = true.
Proof.
  intros H P. apply seen_resolves in H as [R _]. unfold resolve in R.
  destruct (resolve_body w) as [b|] eqn:B; [|discriminate]. injection R as <-. unfold plain_decl in P. unfold good_decl. cbn [d_ns d_name d_body].
  rewrite !andb_true_iff in P. destruct P as [[[P1 P2] P3] P4]. rewrite P1, P2. cbn [andb].
  assert (N : ident match wd_de w with Some n => n | None => unraw (wd_ident w) end = true).
  { destruct (wd_de w); [exact P3|]. apply rust_parts in P3 as [A C]. now apply ident_of. }
  rewrite N. cbn [andb]. unfold resolve_body in B. destruct (wd_body w) as [st ws|ws].
  - destruct (each _ ws) as [fs|] eqn:F; [|discriminate]. injection B as <-.
    destruct st; try reflexivity. now apply (fields_ident (wd_default w) (wd_all_ser w) (wd_all_de w) ws).
  - destruct (decide_tag w) as [tg|] eqn:T; [|discriminate]. destruct (each _ ws) as [vs|] eqn:F; [|discriminate].
    injection B as <-. rewrite !andb_true_iff in P4. destruct P4 as [[T1 T2] V].
    apply tag_is in T. apply andb_true_iff. split.
    + destruct tg as [|t|t c|]; cbn in *; try reflexivity.
      * destruct T as [E1 _]. rewrite E1 in T1. exact T1.
      * destruct T as [E1 [E2 _]]. rewrite E1 in T1. rewrite E2 in T2. now apply andb_true_iff.
    + apply forallb_forall. intros v Hv. apply filter_In in Hv as [Hv Hs].
      destruct (each_in _ _ _ _ F Hv) as [x [Hx Rx]]. unfold resolve_variant in Rx.
      destruct (renamed apply_to_variant (wd_all_de w) (wv_de x) (wv_ident x)) as [n|] eqn:Nn; [|discriminate].
      destruct (renamed apply_to_variant (wd_all_ser w) (wv_ser x) (wv_ident x)) as [s|]; [|discriminate].
      destruct (each _ (wv_fields x)) as [fs|] eqn:Ff; [|discriminate]. injection Rx as <-. cbn in Hs.
      rewrite forallb_forall in V. specialize (V x (proj2 (filter_In _ _ _) (conj Hx Hs))). unfold plain_variant in V.
      apply andb_true_iff in V as [V1 V2]. unfold good_variant. cbn.
      assert (I : ident n = true).
      { destruct (wv_de x) as [m|]; cbn in Nn; [congruence|]. apply andb_true_iff in V1 as [V1 V3].
        now apply (plain_variant_name (wd_all_de w) (bare (wv_ident x))). }
      rewrite !andb_true_iff. repeat split.
      * unfold string_safe. now apply ident_str.
      * destruct (wv_style x), tg; auto.
      * destruct (wv_style x); try reflexivity. unfold variant_fields.
        now apply (fields_ident false (wv_all_ser x) (wv_all_de x) (wv_fields x)).
Qed.

(** ** Different fields keep different names *)
Lemma smap_back f g s (p : ascii -> bool) : (forall c, p c = true -> g (f c) = c) -> every p s = true -> smap g (smap f s) = s.
Proof.
  intros H. induction s as [|c s IH]; cbn [every smap]; [reflexivity|]. rewrite andb_true_iff. intros [Hc Hs].
  now rewrite (H c Hc), (IH Hs).
Qed.
Definition snake_char (c : ascii) : bool := one_of c small || one_of c digits || Ascii.eqb c "_".
Definition undash (c : ascii) : ascii := if Ascii.eqb c "-" then "_"%char else c.

Lemma every_weak (p q : ascii -> bool) s : (forall c, p c = true -> q c = true) -> every p s = true -> every q s = true.
Proof. intros H. induction s as [|c s IH]; [reflexivity|]. cbn. rewrite !andb_true_iff. intros [A B]. auto. Qed.

Definition good_word (w : string) : bool :=
  match w with
  | EmptyString => false
  | String c r => one_of c small && every (fun c => one_of c small || one_of c digits) r
  end.

Lemma snake_chars s : forallb good_word (words s) = true -> every snake_char s = true.
Proof.
  assert (H : forall s, match words s with w :: ws => every (fun c => one_of c small || one_of c digits) w = true /\ forallb good_word ws = true
                                         | [] => True end -> every snake_char s = true).
  { clear s. induction s as [|c s IH]; [reflexivity|]. cbn [words every]. destruct (words_some s) as [w [r E]]. rewrite E in *.
    destruct (Ascii.eqb c "_") eqn:U.
    - intros [_ H]. cbn in H. apply andb_true_iff in H as [H1 H2]. unfold snake_char at 1. rewrite U, orb_true_r. cbn.
      apply IH. split; [|exact H2]. destruct w as [|d w]; [discriminate|]. cbn in H1 |- *. apply andb_true_iff in H1 as [-> ->]. reflexivity.
    - cbn [onto every]. intros [H1 H2]. apply andb_true_iff in H1 as [H1 H3]. unfold snake_char at 1. rewrite H1. cbn. auto. }
  intros G. apply H. destruct (words s) as [|w ws]; [exact I|]. cbn in G. apply andb_true_iff in G as [G1 G2]. split; [|exact G2].
  destruct w as [|d w]; [discriminate|]. cbn in G1 |- *. apply andb_true_iff in G1 as [-> ->]. reflexivity.
Qed.

Fixpoint decode (s : string) : string :=
  match s with
  | EmptyString => EmptyString
  | String c r => if one_of c capital then String "_" (String (lower c) (decode r)) else String c (decode r)
  end.
Lemma small_decode c r : one_of c small = true -> decode (String (upper c) r) = String "_" (String c (decode r)).
Proof. cbn [decode]. destruct c as [[] [] [] [] [] [] [] []]; intros H; try discriminate H; reflexivity. Qed.
Lemma plain_decode c r : one_of c small || one_of c digits = true -> decode (String c r) = String c (decode r).
Proof. cbn [decode]. destruct c as [[] [] [] [] [] [] [] []]; intros H; try discriminate H; reflexivity. Qed.

Lemma decode_pascal s :
  (forallb good_word (words s) = true -> decode (pascal_loop true s) = String "_" s) /\
  (match words s with w :: ws => every (fun c => one_of c small || one_of c digits) w = true /\ forallb good_word ws = true | [] => True end ->
   decode (pascal_loop false s) = s).
Proof.
  induction s as [|c s [I1 I2]]; [split; [discriminate|reflexivity]|]. cbn [words pascal_loop].
  destruct (Ascii.eqb_spec c "_") as [->|N].
  - split; [discriminate|]. intros [_ H]. now apply I1.
  - destruct (words_some s) as [w [r E]]. rewrite E in *. cbn [onto]. split.
    + cbn [forallb good_word]. rewrite !andb_true_iff. intros [[A B] C]. rewrite small_decode by exact A. rewrite I2 by auto. reflexivity.
    + cbn [every]. rewrite andb_true_iff. intros [[A B] C]. rewrite plain_decode by exact A. rewrite I2 by auto. reflexivity.
Qed.
Lemma head_lower_back s n : (exists c r, s = String c r /\ one_of c capital = true) -> head_lower s = Some n ->
  s = match n with String c r => String (upper c) r | EmptyString => EmptyString end.
Proof. intros [c [r [-> H]]] E. injection E as <-. now rewrite capital_back. Qed.
Lemma pascal_capital s : forallb good_word (words s) = true -> exists c r, pascal_loop true s = String c r /\ one_of c capital = true.
Proof.
  destruct s as [|c s]; [discriminate|]. cbn [words pascal_loop]. destruct (Ascii.eqb c "_"); [discriminate|].
  destruct (words_some s) as [w [r ->]]. cbn [onto forallb good_word]. rewrite !andb_true_iff. intros [[A _] _].
  exists (upper c), (pascal_loop false s). split; [reflexivity|].
  revert A. destruct c as [[] [] [] [] [] [] [] []]; intros H; try discriminate H; reflexivity.
Qed.

Lemma lower_upper_snake c : snake_char c = true -> lower (upper c) = c.
Proof. destruct c as [[] [] [] [] [] [] [] []]; intros H; try discriminate H; reflexivity. Qed.
Lemma undash_snake c : snake_char c = true -> undash (if Ascii.eqb c "_" then "-"%char else c) = c.
Proof. destruct c as [[] [] [] [] [] [] [] []]; intros H; try discriminate H; reflexivity. Qed.
Lemma undash_upper c : snake_char c = true -> lower (undash (if Ascii.eqb (upper c) "_" then "-"%char else upper c)) = c.
Proof. destruct c as [[] [] [] [] [] [] [] []]; intros H; try discriminate H; reflexivity. Qed.

Lemma field_injective r f g n : snake_field f = true -> snake_field g = true ->
  apply_to_field r f = Some n -> apply_to_field r g = Some n -> f = g.
Proof.
  intros F G Hf Hg. change (forallb good_word (words f) = true) in F. change (forallb good_word (words g) = true) in G.
  pose proof (snake_chars f F) as Cf. pose proof (snake_chars g G) as Cg.
  destruct r; cbn in Hf, Hg; try congruence.
  - apply (f_equal (option_map (smap lower))) in Hf, Hg. cbn in Hf, Hg.
    rewrite (smap_back upper lower f snake_char lower_upper_snake Cf) in Hf.
    rewrite (smap_back upper lower g snake_char lower_upper_snake Cg) in Hg. congruence.
  - assert (E : pascal_loop true f = pascal_loop true g) by congruence. apply (f_equal decode) in E.
    rewrite (proj1 (decode_pascal f) F), (proj1 (decode_pascal g) G) in E. congruence.
  - apply head_lower_back in Hf; [|now apply pascal_capital]. apply head_lower_back in Hg; [|now apply pascal_capital].
    assert (E : pascal_loop true f = pascal_loop true g) by congruence. apply (f_equal decode) in E.
    rewrite (proj1 (decode_pascal f) F), (proj1 (decode_pascal g) G) in E. congruence.
  - apply (f_equal (option_map (smap lower))) in Hf, Hg. cbn in Hf, Hg.
    rewrite (smap_back upper lower f snake_char lower_upper_snake Cf) in Hf.
    rewrite (smap_back upper lower g snake_char lower_upper_snake Cg) in Hg. congruence.
  - apply (f_equal (option_map (smap undash))) in Hf, Hg. cbn in Hf, Hg. unfold dashes in *.
    rewrite (smap_back _ undash f snake_char undash_snake Cf) in Hf.
    rewrite (smap_back _ undash g snake_char undash_snake Cg) in Hg. congruence.
  - unfold dashes in *. rewrite smap_smap in Hf, Hg.
    apply (f_equal (option_map (smap (fun c => lower (undash c))))) in Hf, Hg. cbn [option_map] in Hf, Hg.
    rewrite (smap_back _ (fun c => lower (undash c)) f snake_char undash_upper Cf) in Hf.
    rewrite (smap_back _ (fun c => lower (undash c)) g snake_char undash_upper Cg) in Hg. congruence.
Qed.

(** ** Different variants keep different names *)
Definition camel_char (c : ascii) : bool := one_of c small || one_of c capital || one_of c digits.
Lemma pascal_snake_false s : every camel_char s = true -> pascal_loop false (snake_loop false s) = s.
Proof.
  induction s as [|c s IH]; [reflexivity|]. cbn [every snake_loop negb andb]. rewrite andb_true_iff. intros [Hc Hs].
  specialize (IH Hs). rewrite upper_case_is. destruct (one_of c capital) eqn:U.
  - cbn [pascal_loop Ascii.eqb]. cbn. assert (N : Ascii.eqb (lower c) "_" = false).
    { clear - U. destruct c as [[] [] [] [] [] [] [] []]; try discriminate U; reflexivity. }
    rewrite N, (capital_back c U), IH. reflexivity.
  - cbn [pascal_loop]. assert (N : Ascii.eqb (lower c) "_" = false /\ lower c = c).
    { clear - U Hc. destruct c as [[] [] [] [] [] [] [] []]; try discriminate U; try discriminate Hc; split; reflexivity. }
    destruct N as [-> ->]. now rewrite IH.
Qed.
Lemma pascal_snake v : camel_variant v = true -> pascal_loop true (snake_loop true v) = v.
Proof.
  destruct v as [|c v]; [discriminate|]. cbn [camel_variant]. rewrite andb_true_iff. intros [U H].
  cbn [snake_loop negb andb pascal_loop]. assert (N : Ascii.eqb (lower c) "_" = false).
  { clear - U. destruct c as [[] [] [] [] [] [] [] []]; try discriminate U; reflexivity. }
  rewrite N, (capital_back c U), (pascal_snake_false v H). reflexivity.
Qed.
Lemma snake_out b s : every camel_char s = true -> every snake_char (snake_loop b s) = true.
Proof.
  revert b. induction s as [|c s IH]; [reflexivity|]. intros b. cbn [every snake_loop]. rewrite andb_true_iff. intros [Hc Hs].
  assert (N : snake_char (lower c) = true).
  { clear - Hc. destruct c as [[] [] [] [] [] [] [] []]; try discriminate Hc; reflexivity. }
  destruct (negb b && upper_case c); cbn [every]; rewrite N, (IH false Hs); reflexivity.
Qed.
Lemma camel_all v : camel_variant v = true -> every camel_char v = true.
Proof.
  destruct v as [|c v]; [discriminate|]. cbn [camel_variant every]. rewrite !andb_true_iff. intros [U H].
  split; [|exact H]. unfold camel_char. rewrite U. now rewrite orb_true_r.
Qed.

Lemma variant_injective r v u n : faithful_rule r = true -> camel_variant v = true -> camel_variant u = true ->
  apply_to_variant r v = Some n -> apply_to_variant r u = Some n -> v = u.
Proof.
  intros F V U Hv Hu. pose proof (snake_out true v (camel_all v V)) as Sv. pose proof (snake_out true u (camel_all u U)) as Su.
  assert (K : snake_loop true v = snake_loop true u -> v = u).
  { intros E. rewrite <- (pascal_snake v V), E. now apply pascal_snake. }
  destruct r; try discriminate F; cbn in Hv, Hu; try congruence.
  - assert (X : forall x, camel_variant x = true -> exists c r, x = String c r /\ one_of c capital = true).
    { intros [|c x]; [discriminate|]. cbn. rewrite andb_true_iff. intros [A _]. now exists c, x. }
    apply head_lower_back in Hv; [|now apply X]. apply head_lower_back in Hu; [|now apply X]. congruence.
  - apply K. congruence.
  - apply K. apply (f_equal (option_map (smap lower))) in Hv, Hu. cbn in Hv, Hu.
    rewrite (smap_back upper lower _ snake_char lower_upper_snake Sv) in Hv.
    rewrite (smap_back upper lower _ snake_char lower_upper_snake Su) in Hu. congruence.
  - apply K. apply (f_equal (option_map (smap undash))) in Hv, Hu. cbn in Hv, Hu. unfold dashes in *.
    rewrite (smap_back _ undash _ snake_char undash_snake Sv) in Hv.
    rewrite (smap_back _ undash _ snake_char undash_snake Su) in Hu. congruence.
  - apply K. unfold dashes in *. rewrite smap_smap in Hv, Hu.
    apply (f_equal (option_map (smap (fun c => lower (undash c))))) in Hv, Hu. cbn [option_map] in Hv, Hu.
    rewrite (smap_back _ (fun c => lower (undash c)) _ snake_char undash_upper Sv) in Hv.
    rewrite (smap_back _ (fun c => lower (undash c)) _ snake_char undash_upper Su) in Hu. congruence.
Qed.

(** Distinct images of a list. *)
Lemma each_nodup {A B} (f : A -> option B) (a : A -> string) (b : B -> string) l ys :
  each f l = Some ys -> NoDup (map a l) ->
  (forall x x' y y', In x l -> In x' l -> f x = Some y -> f x' = Some y' -> b y = b y' -> a x = a x') ->
  NoDup (map b ys).
Proof.
  revert ys. induction l as [|x l IH]; cbn; intros ys E N H; [injection E as <-; constructor|].
  destruct (f x) as [y|] eqn:F; [|discriminate]. destruct (each f l) as [zs|] eqn:G; [|discriminate]. injection E as <-.
  inversion N as [|? ? N1 N2]; subst. cbn. constructor.
  - intros I. apply in_map_iff in I as [y' [Ey Iy]]. destruct (each_in _ _ _ _ G Iy) as [x' [Ix Fx]].
    apply N1. rewrite (H x x' y y'); auto. now apply in_map.
  - apply (IH zs); auto. intros x0 x' y0 y' I0 I1. apply H; auto.
Qed.

Lemma nodup_filter {A} (f : A -> string) p l : NoDup (map f l) -> NoDup (map f (filter p l)).
Proof.
  induction l as [|x l IH]; cbn; intros N; [constructor|]. inversion N as [|? ? N1 N2]; subst.
  destruct (p x); cbn; auto. constructor; auto. intros I. apply N1. apply in_map_iff in I as [y [Ey Iy]].
  apply filter_In in Iy as [Iy _]. rewrite <- Ey. now apply in_map.
Qed.

Lemma conventional_nodup cd ser de ws fs : each (resolve_field StNamed cd ser de) ws = Some fs -> conventional_fields ws ->
  NoDup (map f_name fs).
Proof.
  intros E [N C]. rewrite Forall_forall in C. apply (each_nodup _ (fun w => bare (wf_ident w)) f_name ws fs E N).
  assert (K : forall w f, In w ws -> resolve_field StNamed cd ser de w = Some f ->
                snake_field (bare (wf_ident w)) = true /\ apply_to_field de (bare (wf_ident w)) = Some (f_name f)).
  { intros w f Hw R. destruct (C w Hw) as [D S]. split; [exact S|]. unfold resolve_field in R. rewrite D in R. unfold renamed in R at 1.
    rewrite unraw_bare in R. destruct (apply_to_field de (bare (wf_ident w))) as [n|]; [|discriminate].
    destruct (renamed _ ser _ _); [|discriminate]. now injection R as <-. }
  intros x x' y y' Ix Ix' Fx Fx' Ey. destruct (K x y Ix Fx) as [A1 A2]. destruct (K x' y' Ix' Fx') as [B1 B2].
  rewrite <- Ey in B2. now apply (field_injective de _ _ (f_name y)).
Qed.

Lemma conventional_distinct w d : seen w = Some d -> conventional w -> distinct_decl d.
Proof.
  intros H C. apply seen_resolves in H as [R _]. unfold resolve in R.
  destruct (resolve_body w) as [b|] eqn:B; [|discriminate]. injection R as <-. unfold distinct_decl. cbn.
  destruct (match wd_from w with Some t => Some t | None => wd_try_from w end); [exact I|].
  unfold resolve_body in B. unfold conventional in C. destruct (wd_body w) as [st ws|ws].
  - destruct (each _ ws) as [fs|] eqn:F; [|discriminate]. injection B as <-. destruct st; try exact I.
    unfold kept. apply nodup_filter. now apply (conventional_nodup _ _ _ _ _ F).
  - destruct (decide_tag w) as [tg|]; [|discriminate]. destruct (each _ ws) as [vs|] eqn:F; [|discriminate].
    injection B as <-. intros v Hv St. unfold kept_variants in Hv. apply filter_In in Hv as [Hv _].
    destruct (each_in _ _ _ _ F Hv) as [x [Hx Rx]]. unfold resolve_variant in Rx.
    destruct (renamed apply_to_variant (wd_all_de w) _ _); [|discriminate].
    destruct (renamed apply_to_variant (wd_all_ser w) _ _); [|discriminate].
    destruct (each _ (wv_fields x)) as [fs|] eqn:Ff; [|discriminate]. injection Rx as <-. cbn in *.
    unfold kept. apply nodup_filter. rewrite St in Ff. apply (conventional_nodup _ _ _ _ _ Ff). now apply C.
Qed.

Lemma variants_distinct w d ws tg vs : seen w = Some d -> wd_body w = WEnum ws -> d_body d = BEnum tg vs ->
  faithful_rule (wd_all_de w) = true -> NoDup (map (fun v => bare (wv_ident v)) ws) ->
  Forall (fun v => wv_de v = None /\ camel_variant (bare (wv_ident v)) = true) ws ->
  NoDup (map v_name vs).
Proof.
  intros H W B Fr N C. apply seen_resolves in H as [R _]. unfold resolve in R.
  destruct (resolve_body w) as [b|] eqn:Q; [|discriminate]. injection R as <-. cbn in B. subst b.
  unfold resolve_body in Q. rewrite W in Q. destruct (decide_tag w) as [tg'|]; [|discriminate].
  destruct (each _ ws) as [vs'|] eqn:F; [|discriminate]. injection Q as <- <-. rewrite Forall_forall in C.
  apply (each_nodup _ (fun v => bare (wv_ident v)) v_name ws vs' F N).
  assert (K : forall x v, In x ws -> resolve_variant (wd_all_ser w) (wd_all_de w) x = Some v ->
                camel_variant (bare (wv_ident x)) = true /\ apply_to_variant (wd_all_de w) (bare (wv_ident x)) = Some (v_name v)).
  { intros x v Hx Rx. destruct (C x Hx) as [D S]. split; [exact S|]. unfold resolve_variant in Rx. rewrite D in Rx. unfold renamed in Rx at 1.
    rewrite unraw_bare in Rx. destruct (apply_to_variant (wd_all_de w) (bare (wv_ident x))) as [n|]; [|discriminate].
    destruct (renamed _ _ _ _); [|discriminate]. destruct (each _ (wv_fields x)); [|discriminate]. now injection Rx as <-. }
  intros x x' y y' Ix Ix' Fx Fx' Ey. destruct (K x y Ix Fx) as [A1 A2]. destruct (K x' y' Ix' Fx') as [B1 B2].
  rewrite <- Ey in B2. now apply (variant_injective (wd_all_de w) _ _ (v_name y)).
Qed.

(** ** Usual declarations *)
Definition letter_start (s : string) : bool := match s with String c _ => one_of c small || one_of c capital | EmptyString => false end.

Lemma snake_start_letter f : snake_field f = true -> exists c r, f = String c r /\ one_of c small = true /\ Ascii.eqb c "_" = false.
Proof.
  destruct f as [|c r]; [discriminate|]. unfold snake_field. cbn [words]. destruct (Ascii.eqb c "_") eqn:U; [discriminate|].
  destruct (words_some r) as [w [ws ->]]. cbn [onto forallb]. rewrite !andb_true_iff. intros [[A _] _]. now exists c, r.
Qed.
Lemma small_letter c : one_of c small = true ->
  (one_of (upper c) small || one_of (upper c) capital = true) /\ lower (upper c) = c /\ one_of c digits = false /\
  Ascii.eqb c "_" = false /\ Ascii.eqb (upper c) "_" = false.
Proof. destruct c as [[] [] [] [] [] [] [] []]; intros H; try discriminate H; repeat split; reflexivity. Qed.
Lemma capital_letter c : one_of c capital = true ->
  (one_of (lower c) small || one_of (lower c) capital = true) /\ one_of c digits = false /\ upper (lower c) = c /\
  (one_of (upper (lower c)) small || one_of (upper (lower c)) capital = true) /\ Ascii.eqb (lower c) "_" = false /\
  Ascii.eqb (upper (lower c)) "_" = false /\ (one_of (upper c) small || one_of (upper c) capital = true).
Proof. destruct c as [[] [] [] [] [] [] [] []]; intros H; try discriminate H; repeat split; reflexivity. Qed.

Lemma snake_letter r f n : snake_field f = true -> apply_to_field r f = Some n -> letter_start n = true.
Proof.
  intros F H. destruct (snake_start_letter f F) as [c [s [-> [C _]]]]. clear F.
  destruct c as [[] [] [] [] [] [] [] []]; try discriminate C; destruct r; cbn in H; injection H as <-; reflexivity.
Qed.
Lemma camel_letter r v n : camel_variant v = true -> apply_to_variant r v = Some n -> letter_start n = true.
Proof.
  destruct v as [|c v]; [discriminate|]. cbn [camel_variant]. rewrite andb_true_iff. intros [C _] H.
  destruct c as [[] [] [] [] [] [] [] []]; try discriminate C; destruct r; cbn in H; injection H as <-; reflexivity.
Qed.
Lemma letter_proto s : letter_start s = true -> s <> "__proto__".
Proof. intros H ->. discriminate H. Qed.

Lemma snake_rust_ident f : snake_field f = true -> rust_ident f = true /\ letter_first f = true.
Proof.
  intros F. pose proof (snake_chars f F) as C. destruct (snake_start_letter f F) as [c [s [-> [S U]]]].
  destruct (small_letter c S) as [_ [_ [D _]]]. split.
  - unfold rust_ident. change "0123456789" with digits. rewrite D. cbn [negb andb].
    rewrite (every_weak snake_char rust_char).
    + cbn [andb]. apply negb_true_iff, String.eqb_neq. intros E. injection E as -> _. discriminate U.
    + intros x. unfold snake_char, rust_char. change "0123456789" with digits. rewrite !orb_true_iff. tauto.
    + exact C.
  - cbn [letter_first]. now rewrite U, D.
Qed.
Lemma camel_rust_ident v : camel_variant v = true -> rust_ident v = true.
Proof.
  intros V. pose proof (camel_all v V) as A. destruct v as [|c v]; [discriminate|]. cbn [camel_variant] in V.
  apply andb_true_iff in V as [C _]. destruct (capital_letter c C) as [_ [D _]].
  unfold rust_ident. change "0123456789" with digits. rewrite D. cbn [negb andb]. rewrite (every_weak camel_char rust_char).
  - cbn [andb]. apply negb_true_iff, String.eqb_neq. intros E. injection E as -> _. discriminate C.
  - intros x. unfold camel_char, rust_char. change "0123456789" with digits. rewrite !orb_true_iff. tauto.
  - exact A.
Qed.

Lemma usual_fields r ws : plain_rule r = true -> conventional_fields ws ->
  forallb (plain_field r) (filter (fun f => negb (wf_skip_de f)) ws) = true.
Proof.
  intros P [_ C]. apply forallb_forall. intros w Hw. apply filter_In in Hw as [Hw _].
  rewrite Forall_forall in C. destruct (C w Hw) as [D S]. unfold plain_field. rewrite D.
  destruct (snake_rust_ident _ S) as [A B]. rewrite A, P, B. now destruct r.
Qed.

Lemma usual_plain w : usual w -> plain_decl w = true.
Proof.
  intros [[N1 [N2 _]] [D1 D2] R [T1 T2] B]. unfold plain_decl. rewrite N1, N2, D1, D2. cbn [negb andb].
  assert (T : forall t, usual_tag t -> plain_tag t = true) by (intros [t|]; cbn; tauto).
  destruct (wd_body w) as [[] ws|vs]; try reflexivity.
  - now apply usual_fields.
  - rewrite (T _ T1), (T _ T2). cbn [andb]. apply forallb_forall. intros v Hv. apply filter_In in Hv as [Hv _].
    rewrite Forall_forall in B. destruct (B v Hv) as [V1 V2 V3 V4 V5]. unfold plain_variant. rewrite V1.
    rewrite (camel_rust_ident _ V2), R. cbn [andb]. destruct (wv_style v); try reflexivity.
    apply usual_fields; auto.
Qed.

Lemma usual_conventional w : usual w -> conventional w.
Proof.
  intros [_ _ _ _ B]. unfold conventional. destruct (wd_body w) as [[] ws|vs]; auto.
  intros v Hv St. rewrite Forall_forall in B. apply (uv_fields _ _ _ (B v Hv) St).
Qed.

Lemma fields_letter cd ser de ws fs f : each (resolve_field StNamed cd ser de) ws = Some fs -> conventional_fields ws ->
  In f fs -> letter_start (f_name f) = true.
Proof.
  intros E [_ C] Hf. destruct (each_in _ _ _ _ E Hf) as [w [Hw R]]. rewrite Forall_forall in C.
  destruct (C w Hw) as [D S]. unfold resolve_field in R. rewrite D in R. unfold renamed in R at 1.
  rewrite unraw_bare in R. destruct (apply_to_field de (bare (wf_ident w))) as [n|] eqn:A; [|discriminate].
  destruct (renamed _ ser _ _); [|discriminate]. injection R as <-. now apply (snake_letter de (bare (wf_ident w))).
Qed.
Lemma unnamed_empty st cd ser de ws fs f : st <> StNamed -> each (resolve_field st cd ser de) ws = Some fs -> In f fs -> f_name f = "".
Proof.
  intros N E Hf. destruct (each_in _ _ _ _ E Hf) as [w [Hw R]]. unfold resolve_field in R.
  destruct st; [congruence| |]; injection R as <-; reflexivity.
Qed.

Lemma usual_tag_ok w d : seen w = Some d -> usual w -> tag_ok d.
Proof.
  intros S U. pose proof (seen_resolves w d S) as [R _]. split.
  - apply (seen_tags_fit w d S). intros tag vs v B Hv St Et.
    unfold resolve in R. destruct (resolve_body w) as [b|] eqn:Q; [|discriminate]. injection R as <-. cbn in B. subst b.
    unfold resolve_body in Q. destruct U as [_ _ _ _ U]. destruct (wd_body w) as [st ws|ws].
    { destruct (each _ ws); discriminate. }
    destruct (decide_tag w) as [tg|] eqn:T; [|discriminate]. destruct (each _ ws) as [vs'|] eqn:F; [|discriminate].
    injection Q as -> ->. apply tag_is in T. destruct T as [T _].
    destruct (each_in _ _ _ _ F Hv) as [x [Hx Rx]]. pose proof (variant_is _ _ _ _ Rx) as A.
    rewrite Forall_forall in U. destruct (U x Hx) as [V1 V2 V3 V4 V5].
    apply V5; [rewrite <- (va_style _ _ _ _ A); exact St|]. rewrite T, <- Et, (va_name _ _ _ _ A). unfold expected. now rewrite V1.
  - unfold resolve in R. destruct (resolve_body w) as [b|] eqn:Q; [|discriminate]. injection R as <-. unfold decl_keys. cbn [d_body].
    unfold resolve_body in Q. destruct U as [_ _ _ [T1 T2] U]. destruct (wd_body w) as [st ws|ws].
    + destruct (each _ ws) as [fs|] eqn:F; [|discriminate]. injection Q as <-. destruct st; try constructor.
      apply Forall_forall. intros k Hk. apply in_map_iff in Hk as [f [<- Hf]]. unfold kept in Hf. apply filter_In in Hf as [Hf _].
      apply letter_proto. now apply (fields_letter _ _ _ _ _ _ F).
    + destruct (decide_tag w) as [tg|] eqn:T; [|discriminate]. destruct (each _ ws) as [vs|] eqn:F; [|discriminate].
      injection Q as <-. apply tag_is in T. apply Forall_app. split.
      * destruct tg as [|t|t c|]; cbn in *; try constructor.
        -- destruct T as [E _]. rewrite E in T1. apply T1.
        -- constructor.
        -- destruct T as [E _]. rewrite E in T1. apply T1.
        -- constructor; [|constructor]. destruct T as [_ [E _]]. rewrite E in T2. apply T2.
      * apply Forall_forall. intros k Hk. apply in_flat_map in Hk as [v [Hv Hk]]. unfold kept_variants in Hv.
        apply filter_In in Hv as [Hv _]. destruct (each_in _ _ _ _ F Hv) as [x [Hx Rx]]. rewrite Forall_forall in U.
        destruct (U x Hx) as [V1 V2 V3 V4 V5]. unfold resolve_variant in Rx. rewrite V1 in Rx. unfold renamed in Rx at 1.
        rewrite unraw_bare in Rx. destruct (apply_to_variant (wd_all_de w) (bare (wv_ident x))) as [n|] eqn:N; [|discriminate].
        destruct (renamed _ _ _ _); [|discriminate]. destruct (each _ (wv_fields x)) as [fs|] eqn:G; [|discriminate].
        injection Rx as <-. cbn [v_name v_fields] in Hk. destruct Hk as [<-|Hk].
        -- apply letter_proto. now apply (camel_letter (wd_all_de w) (bare (wv_ident x))).
        -- apply in_map_iff in Hk as [f [<- Hf]]. unfold kept in Hf. apply filter_In in Hf as [Hf _].
           destruct (wv_style x) eqn:St.
           ++ apply letter_proto. apply (fields_letter _ _ _ _ _ _ G); auto.
           ++ assert (X : StTuple <> StNamed) by discriminate. rewrite (unnamed_empty _ _ _ _ _ _ _ X G Hf). discriminate.
           ++ assert (X : StUnit <> StNamed) by discriminate. rewrite (unnamed_empty _ _ _ _ _ _ _ X G Hf). discriminate.
Qed.

(** Programs as written. *)
Lemma forall2_names W E : Forall2 (fun w d => seen w = Some d) W E -> Forall (fun w => plain_decl w = true) W -> good_names E.
Proof.
  intros H. induction H as [|w d W E S H IH]; intros P; [constructor|]. inversion P; subst. constructor; [now apply (plain_good w)|].
  apply IH; assumption.
Qed.
Lemma forall2_right {A B} (R : A -> B -> Prop) (P : A -> Prop) (Q : B -> Prop) l m :
  (forall x y, R x y -> P x -> Q y) -> Forall2 R l m -> Forall P l -> Forall Q m.
Proof. intros H F. induction F; intros G; [constructor|]. inversion G; subst. constructor; eauto. Qed.

Lemma usual_programs W E : Forall2 (fun w d => seen w = Some d) W E -> Forall usual W ->
  good_names E /\ type_names E /\ tags_ok E /\ forall inside, distinct E inside.
Proof.
  intros H U. repeat split.
  - apply (forall2_names W E H). revert U. apply Forall_impl, usual_plain.
  - unfold type_names. revert U. apply (forall2_right _ _ _ _ _) with (2 := H). intros w d S Uw.
    rewrite (da_ns _ _ (seen_is w d S)). apply (us_ns _ Uw).
  - unfold tags_ok. revert U. apply (forall2_right _ _ _ _ _) with (2 := H). intros w d. apply usual_tag_ok.
  - intros inside i _. assert (D : Forall distinct_decl E).
    { revert U. apply (forall2_right _ _ _ _ _) with (2 := H). intros w d S Uw. apply (conventional_distinct w d S), usual_conventional, Uw. }
    rewrite Forall_forall in D. unfold lookup. destruct (nth_in_or_default i E dummy_decl) as [I|X]; [now apply D|]. rewrite X.
    cbn. constructor.
Qed.

Lemma plain_texts W E q t s : Forall2 (fun w d => seen w = Some d) W E -> Forall (fun w => plain_decl w = true /\ type_op (wd_ns w) = false) W ->
  returns E q t s ->
  match q with
  | Schema | InlineSchema => exists e, js_parse s = Some e
  | TypeDef | Inline => exists y, ts_parse s = Some y
  end.
Proof.
  intros H P R. assert (G : good_names E).
  { apply (forall2_names W E H). revert P. apply Forall_impl. tauto. }
  assert (T : type_names E).
  { unfold type_names. revert P. apply (forall2_right _ _ _ _ _) with (2 := H). intros w d S [_ Uw].
    now rewrite (da_ns _ _ (seen_is w d S)). }
  destruct q.
  - destruct (schema_text_parses E Schema t s G (or_introl eq_refl) R) as [ts [e [_ [_ [_ [X _]]]]]]. now exists e.
  - destruct (schema_text_parses E InlineSchema t s G (or_intror eq_refl) R) as [ts [e [_ [_ [_ [X _]]]]]]. now exists e.
  - destruct (type_text_parses E TypeDef t s G T (or_introl eq_refl) R) as [ts [e [_ [_ [_ [X _]]]]]]. now exists e.
  - destruct (type_text_parses E Inline t s G T (or_intror eq_refl) R) as [ts [e [_ [_ [_ [X _]]]]]]. now exists e.
Qed.
