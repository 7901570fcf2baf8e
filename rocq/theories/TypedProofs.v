(** Typed calls, client and server together. *)
From Coq Require Import List String Ascii Bool Arith NArith ZArith Lia.
From Verif Require Import Util RustTy Gen GenSpec GenProofs JsLex JsParse TsType JsModule Zod ZodSpec
  Docs DocsSpec Registry RegistrySpec Js JsonText JsonTextSpec JsonTextProofs Serde SerdeSpec SerdeProofs ParseSpec TsSpec TsWire ModuleSpec
  ScopeSpec ScopeProofs Macro Server ServerSpec Wire WireSpec WireProofs Pump Client ClientSpec E2E E2ESpec E2EStreamSpec E2EText E2EProofs E2ESafe E2ELive E2EWire E2EStream E2EStreamLive E2EStreamWire
  ClientFn TypedSpec TypedValue TypedFn.
Import ListNotations.
Local Open Scope string_scope.
Local Open Scope list_scope.

(** ** What the client sends can be read *)
Lemma shortest_near q z : (Z.abs (shortest q z - z) <= 10 ^ Z.of_nat q)%Z.
Proof.
  induction q as [|q IH]; [cbn; lia|].
  assert (Hm : (10 ^ Z.of_nat q <= 10 ^ Z.of_nat (S q))%Z) by (apply Z.pow_le_mono_r; lia).
  cbn [shortest]. cbv zeta. remember (10 ^ Z.of_nat (S q))%Z as t eqn:Et.
  assert (Ht : (0 < t)%Z) by (subst t; apply Z.pow_pos_nonneg; lia).
  pose proof (Z.div_mod z t ltac:(lia)) as D. pose proof (Z.mod_pos_bound z t Ht) as B.
  replace (z / t * t)%Z with (z - z mod t)%Z by lia.
  destruct (Z.eqb _ _), (Z.eqb _ _); cbn [andb]; try destruct (Z.leb _ _); lia.
Qed.

Lemma show_small z : (Z.abs z < 10 ^ 21)%Z -> (Z.abs (show_int z) <= 2 * 10 ^ 21)%Z.
Proof.
  intros H. unfold show_int. destruct (Z.leb _ _); [lia|]. destruct (Z.leb_spec 0 z).
  - pose proof (shortest_near 21 z) as N. change (Z.of_nat 21) with 21%Z in N. lia.
  - pose proof (shortest_near 21 (- z)) as N. change (Z.of_nat 21) with 21%Z in N. lia.
Qed.

Lemma int_readable z : (Z.abs z <= 2 * 10 ^ 21)%Z -> readable_num (NInt z) = true.
Proof. intros H. unfold readable_num. apply Z.ltb_lt. eapply Z.le_lt_trans; [exact H|]. now vm_compute. Qed.

Lemma double_readable n : is_double n -> readable_num n = true.
Proof.
  intros H. inversion H as [a e Ha He|a e Ho Ha He]; subst; [|reflexivity]. unfold readable_num. apply Z.ltb_lt. rewrite Z.abs_mul.
  assert (E2 : (2 ^ e <= 2 ^ 971)%Z) by (apply Z.pow_le_mono_r; lia).
  assert (E0 : (0 < 2 ^ e)%Z) by (apply Z.pow_pos_nonneg; lia).
  rewrite (Z.abs_eq (2 ^ e)) by lia.
  apply Z.le_lt_trans with ((2 ^ 53 - 1) * 2 ^ 971)%Z; [|now vm_compute].
  apply Z.mul_le_mono_nonneg; lia.
Qed.

Lemma sane_readable wide v : sane wide v -> js_value v -> forall j, stringify v = Some j -> readable j = true.
Proof.
  induction v as [| |b|n|u|l IH|l IH|l|l|] using jsval_nested; intros Hs Hv j Hj; try discriminate.
  all: cbn [stringify] in Hj; apply (f_equal (fun x => match x with Some y => y | None => JNull end)) in Hj; cbv beta iota in Hj; subst j; try reflexivity.
  - inversion Hv as [| | |n' [D|D]| | | | | |]; subst.
    + destruct n as [z|a e| | |]; try reflexivity. destruct (Z.ltb_spec (Z.abs z) (10 ^ 21)).
      * apply int_readable. now apply show_small.
      * now apply double_readable.
    + cbn [In] in D. destruct D as [<-|[<-|[<-|[]]]]; reflexivity.
  - inversion Hs; assumption.
  - inversion Hs as [| | | | |? F| | | |]; subst. inversion Hv as [| | | | |? G| | | |]; subst. cbn [readable]. apply forallb_forall. intros j Hj. apply in_map_iff in Hj as (x & Ex & Hx).
    rewrite Forall_forall in IH, F, G. destruct (stringify x) as [j0|] eqn:Es; [|now subst]. subst j0. exact (IH x Hx (F x Hx) (G x Hx) j Es).
  - inversion Hs as [| | | | | |? _ U F| | |]; subst. inversion Hv as [| | | | | |? G| | |]; subst. cbn [readable]. apply forallb_forall. intros [k' j] Hj. apply in_flat_map in Hj as ([k x] & Hx & Ex).
    rewrite Forall_forall in IH, U, F, G. cbn [fst snd] in *. destruct (stringify x) as [j'|] eqn:Es; [|easy]. destruct Ex as [Ex|[]]. injection Ex as <- <-.
    cbn [fst snd]. pose proof (U _ Hx) as Q. cbn [fst] in Q. rewrite Q. cbn [andb]. exact (IH _ Hx (F _ Hx) (G _ Hx) _ Es).
Qed.

Lemma js_utf16 s : utf16 (js s) = true.
Proof.
  apply small_plain. induction s as [|c s IH]; [reflexivity|]. unfold js. cbn [list_ascii_of_string map forallb]. fold (js s). rewrite IH, andb_true_r. apply N.ltb_lt.
  pose proof (N_ascii_bounded c). lia.
Qed.

Lemma args_fine wide id f i args : client_id id -> plain_args wide args -> forall doc, sent_doc (T := ty) id f i args doc -> fine doc.
Proof.
  intros Ci Hp doc Hd. unfold sent_doc in Hd. rewrite (client_doc _ _ _ _ Ci) in Hd. apply (f_equal (fun x => match x with Some y => y | None => JNull end)) in Hd. cbv beta iota in Hd. subst doc.
  unfold plain_args in Hp. rewrite Forall_forall in Hp. split.
  - unfold exec_doc. cbn [readable forallb fst snd]. rewrite !js_utf16. cbn [andb].
    rewrite int_readable; [cbn [andb]|rewrite (show_id id Ci); unfold client_id in Ci; lia].
    rewrite !andb_true_r. apply forallb_forall. intros j Hj. apply in_map_iff in Hj as (v & <- & Hv). destruct (Hp v Hv) as (H1 & H2 & _).
    unfold stringify_elem. destruct (stringify v) as [j|] eqn:Es; [|reflexivity]. exact (sane_readable wide v H1 H2 j Es).
  - unfold exec_doc. cbn [jdepth map fold_right fst snd]. rewrite !Nat.max_0_r, !Nat.max_0_l. rewrite map_map.
    assert (Hm : fold_right Nat.max 0 (map (fun x => jdepth (stringify_elem x)) args) + 3 <= max_depth).
    { clear Ci. induction args as [|v args IH]; [cbn; unfold max_depth; lia|]. cbn [map fold_right].
      assert (H1 : jdepth (stringify_elem v) + 3 <= max_depth) by (apply Hp; now left).
      assert (H2 : fold_right Nat.max 0 (map (fun x => jdepth (stringify_elem x)) args) + 3 <= max_depth) by (apply IH; intros x Hx; apply Hp; now right).
      lia. }
    lia.
Qed.

Lemma doubles_written d : doubles d -> written double d = d.
Proof.
  induction d as [|b|z|n|u|l IH|l IH] using json_nested; intros H; try reflexivity.
  - inversion H; subst. cbn. now rewrite (proj2 (double_iff n)).
  - inversion H as [| | | | |? F|]; subst. cbn [written]. f_equal. rewrite Forall_forall in IH, F. rewrite <- (map_id l) at 2. apply map_ext_in. auto.
  - inversion H as [| | | | | |? F]; subst. cbn [written]. f_equal. rewrite Forall_forall in IH, F. rewrite <- (map_id l) at 2. apply map_ext_in.
    intros [k x] Hx. cbn [fst snd]. f_equal. exact (IH _ Hx (F _ Hx)).
Qed.

Lemma usable_unraw s : usable s -> s = unraw s.
Proof.
  intros [H _]. destruct s as [|[a0 a1 a2 a3 a4 a5 a6 a7] s]; [reflexivity|].
  destruct a0; try reflexivity; destruct a1; try reflexivity; destruct a2; try reflexivity; destruct a3; try reflexivity; destruct a4; try reflexivity; destruct a5; try reflexivity; destruct a6; try reflexivity; destruct a7; try reflexivity.
  destruct s as [|[b0 b1 b2 b3 b4 b5 b6 b7] s]; [reflexivity|].
  destruct b0; try reflexivity; destruct b1; try reflexivity; destruct b2; try reflexivity; destruct b3; try reflexivity; destruct b4; try reflexivity; destruct b5; try reflexivity; destruct b6; try reflexivity; destruct b7; try reflexivity.
  discriminate H.
Qed.

Section Typed.
Context {V F : Type} (S : setting ty V F) (R : rust) (E : env) (o : options) (inv : inventory) (inside : nat -> bool) (stream_item : ty -> ty).
Context (p s : string) (m : list nsblock) (HP : program S E o inv inside stream_item p s m).
Context (n k : nat) (f : bfield ty) (i : Macro.item ty) (Hit : has_item (s_backend S) n k f i).
Local Notation r := (submitted stream_item f i).

Lemma in_inventory : In r (i_rpcs inv).
Proof. exact (pg_submits _ _ _ _ _ _ _ _ _ HP n k f i Hit). Qed.
Lemma in_namespaces : In (r_ns r) (ns_names (s_backend S)).
Proof. destruct Hit as [H _]. cbn. apply in_map. eapply nth_error_In, H. Qed.
Let HR := pg_regular _ _ _ _ _ _ _ _ _ HP.
Let HG := pg_text _ _ _ _ _ _ _ _ _ HP.
Let HM := pg_module _ _ _ _ _ _ _ _ _ HP.
Let HT := pg_tags _ _ _ _ _ _ _ _ _ HP.
Let HL := pg_loadable _ _ _ _ _ _ _ _ _ HP.
Let HD := pg_distinct _ _ _ _ _ _ _ _ _ HP.

Lemma ident_raw : it_ident i = unraw (it_ident i).
Proof. apply usable_unraw. destruct (proj2 (reg_usable _ _ _ _ _ HR) r in_inventory in_namespaces) as (_ & H & _). exact H. Qed.

Lemma there : exists b g, exported m (bf_name f) (it_ident i) b g.
Proof. exact (function_there E o inv _ inside p s m r HR HG HM in_inventory in_namespaces). Qed.

Context (b : nsblock) (g : func) (Hg : exported m (bf_name f) (it_ident i) b g) (ip : option string -> jstr -> bool).
Local Notation M := (module_schemas m).

Lemma sent_valid args : (exists fuel, invoke ip m b g fuel args = Sends (transport (it_kind i)) (bf_name f) (it_ident i) args) <->
  Forall2 (fun a v => valid ip E M (snd a) v) (it_args i) args.
Proof. exact (sent_iff_valid E o inv _ inside p s m r HR HG HM HT in_inventory in_namespaces b g Hg ip args). Qed.
Lemma sent_or fuel args : In (invoke ip m b g fuel args) [Sends (transport (it_kind i)) (bf_name f) (it_ident i) args; Refuses; Fails; Runs_on].
Proof. exact (outcomes E o inv _ inside p s m r HR HG HM HT in_inventory in_namespaces b g Hg ip fuel args). Qed.
Lemma is_over args : closed E inside -> (forall i, inside i = true -> grounded E (TNamed i)) ->
  (forall a, In a (it_args i) -> ~ contains_throwing E (Inl (snd a))) ->
  exists fuel, In (invoke ip m b g fuel args) [Sends (transport (it_kind i)) (bf_name f) (it_ident i) args; Refuses].
Proof. exact (call_over E o inv _ inside p s m r HR HG HM HT in_inventory in_namespaces b g Hg ip args HL). Qed.
Lemma of_types args fuel : TsSpec.distinct E inside -> action (invoke ip m b g fuel args) <> None ->
  Forall2 (fun q v => TsSpec.member (module_types m) (snd q) v) (fn_params g) args.
Proof.
  intros HDE Ha. apply (valid_typed E o inv _ inside p s m r HR HG HM HT in_inventory in_namespaces b g Hg ip args HL HDE).
  apply sent_valid. exists fuel. destruct (sent_or fuel args) as [<-|[Q|[Q|[Q|[]]]]]; [reflexivity| | |]; rewrite <- Q in Ha; now destruct Ha.
Qed.

Lemma acts fuel args ev : action (invoke ip m b g fuel args) = Some ev ->
  ev = match it_kind i with Method => URequest (bf_name f, it_ident i, args) | Stream => UStream (bf_name f, it_ident i, args) end /\ Forall2 (fun a v => valid ip E M (snd a) v) (it_args i) args.
Proof.
  intros Ha. destruct (sent_or fuel args) as [Q|[Q|[Q|[Q|[]]]]]; rewrite <- Q in Ha; try discriminate. split.
  - unfold action in Ha. destruct (it_kind i); cbn in Ha; injection Ha as <-; reflexivity.
  - apply sent_valid. eauto.
Qed.

Lemma args_decoded wide args : reads S R E inside wide i ->
  plain_args wide args -> Forall2 (fun a v => valid ip E M (snd a) v) (it_args i) args ->
  exists vs, decoded (s_dec S) (map snd (it_args i)) (map (fun a => to_value (s_float S) (stringify_elem a)) args) vs.
Proof.
  intros [HS Hd0] Hp Hv.
  assert (Hs : forall a, In a (it_args i) -> sound_ty true wide inside (snd a) = true) by (intros a' Ha'; now apply Hd0).
  assert (Hd : forall a, In a (it_args i) -> forall n j, de R E n (snd a) j = true -> exists v, s_dec S (snd a) j = Some v) by (intros a' Ha'; now apply Hd0). clear Hd0.
  assert (Hsane : Forall (sane wide) args) by (eapply Forall_impl; [|exact Hp]; cbn; tauto).
  pose proof (valid_reads E o inv _ inside p s m r HR HG HM HT ip R wide args HL HS Hs Hsane Hv) as Hr.
  change (r_args r) with (it_args i) in Hr. clear Hv Hp. induction Hr as [|a v l vs [q Hq] _ IH]; [exists []; constructor|].
  inversion Hsane as [|? ? Q1 Q2]; subst. destruct IH as [us IH]; [intros a' Ha'; apply Hs; now right|intros a' Ha'; apply Hd; now right|exact Q2|].
  assert (Hsa : sound_ty true wide inside (snd a) = true) by (apply Hs; now left).
  destruct (Hd a (or_introl eq_refl) q (to_value (s_float S) (stringify_elem v))) as [u Hu].
  { apply (de_value (s_float S) R E true wide inside HS); auto. now apply (sane_elem wide). }
  exists (u :: us). cbn [map]. now constructor.
Qed.

Lemma gives_result : gives stream_item i (result_type stream_item i).
Proof.
  unfold result_type. destruct (it_kind i) eqn:Ek, (it_output i) as [[t|t]|] eqn:Eo.
  - apply g_method; auto.
  - apply g_method; auto.
  - now apply g_nothing.
  - now apply g_items.
  - now apply g_stream.
  - now apply g_nothing.
Qed.
Lemma result_member mild d y : typed_result E inside stream_item mild i ->
  result_of R E mild (result_type stream_item i) d -> fn_result g = YApp (result_box (it_kind i)) [y] ->
  TsSpec.member (module_types m) y (received_as double d).
Proof.
  intros [Ht Hy'] (H1 & H2 & H3) Hf. pose proof (Hy' _ gives_result) as Hy. clear Hy'. unfold received_as. rewrite (doubles_written d H2).
  destruct (function_is E o inv _ inside p s m r HR HG HM in_inventory in_namespaces b g Hg) as (_ & _ & _ & (y' & (t' & Hr & Hpy) & Hy') & _).
  rewrite Hf in Hy'. injection Hy' as <-.
  exact (written_member R E (module_types m) inside mild TypeDef (result_type stream_item i) t' y d
    (reg_names _ _ _ _ _ HR) (reg_types _ _ _ _ _ HR) Ht (types_exported E o inv _ inside p s m HR HG HM) Hy (or_introl eq_refl) Hr Hpy H1 H3).
Qed.

Hypothesis (L : faithful (s_lit S) (s_num S)) (L' : faithful (s_lit' S) (s_num S)).
Local Notation reach := (wreachable (call_text S) (read_text S) (same_id S) (from_text S) (to_text S)).
Local Notation step := (wnext (call_text S) (read_text S) (same_id S) (from_text S) (to_text S)).
Local Notation steps := (wrun (call_text S) (read_text S) (same_id S) (from_text S) (to_text S)).
Local Notation time := (at_time (call_text S) (read_text S) (same_id S) (from_text S) (to_text S)).
Context (a : list F) (w0 : world jstr jsval jsval (rpc S)) (Hr0 : reach a w0) (Hu : user (w_cl w0) = true).
Hypothesis Hns : bf_name f = unraw (variant_ident f).
Context (fuel : nat) (args : list jsval) (ev : cevent rcall jstr) (Hev : action (invoke ip m b g fuel args) = Some ev).

Lemma plain_js wide : plain_args wide args -> Forall js_value args.
Proof. intros H. eapply Forall_impl; [|exact H]. cbn. tauto. Qed.

(** A promise is settled with a value of its type. *)
Lemma promised mild es d y : it_kind i = Method -> Forall js_value args ->
  typed_result E inside stream_item mild i -> returns_typed S R E stream_item mild n k i ->
  let w := steps (step w0 (WClient ev)) es in
  countable (w_cl w) -> settled w (List.length (cl_subs (w_cl w0))) d -> fn_result g = YApp "Promise" [y] ->
  TsSpec.member (module_types m) y d.
Proof.
  intros Hk Hargs Ht Hres w Hc Se Hy. destruct (acts _ _ _ Hev) as [Ee _]. rewrite Hk in Ee. subst w. rewrite Ee in *.
  destruct (it_args i) as [|a1 l1] eqn:Ea.
  - exfalso. refine (wire_unsettled S L L' a w0 _ _ args es d Hr0 Hu _ Hc Se).
    exact (exec_no_arguments (s_dec S) (s_float S) (s_unit S) (s_backend S) n k f i (map real args) HD Hit Hns ident_raw Ea).
  - destruct (wire_settled S L L' n k f i args a w0 HD Hit Hns ident_raw Hr0 Hu Hargs es d) as (vs & d0 & _ & -> & Hh); auto; [congruence|].
    destruct Hh as (c & v & bf & af & q & st' & x & x' & _ & _ & _ & _ & Hm & _).
    apply (result_member mild); auto. + exact (Hres x vs x' d0 Hm _ gives_result). + now rewrite Hk.
Qed.

(** An accepted call comes to an end. *)
Lemma answered wide c sigma : it_kind i = Method -> it_args i <> [] ->
  reads S R E inside wide i -> plain_args wide args ->
  let w1 := step w0 (WClient ev) in
  let j := List.length (cl_subs (w_cl w0)) in
  fair (call_text S) (read_text S) (same_id S) (from_text S) (to_text S) w1 sigma c ->
  (forall x, (forall y d, y < x -> ~ settled (time w1 sigma y) j d) -> lives (time w1 sigma x) c /\ countable (w_cl (time w1 sigma x))) ->
  exists vs x res, decoded (s_dec S) (map snd (it_args i)) (map (fun a => to_value (s_float S) (stringify_elem a)) args) vs /\
    handler_ran S a (time w1 sigma x) (bump (cl_id (w_cl w0))) n k vs res /\
    match res with inl d => settled (time w1 sigma x) j (received_as double d) | inr _ => True end.
Proof.
  intros Hk Ha HRd Hp w1 j. destruct (acts _ _ _ Hev) as [Ee Hv]. rewrite Hk in Ee. subst w1 j. rewrite Ee. intros Fa Lv.
  destruct (args_decoded wide args HRd Hp Hv) as [vs Hvs].
  destruct (wire_ends S L L' n k f i args a w0 HD Hit Hns ident_raw Hr0 Hu (plain_js wide Hp) c sigma vs Ha Hk) as (x & res & H1 & H2); auto.
  - intros doc. apply (args_fine wide); [exact (next_cid S a w0 Hr0)|exact Hp].
  - exists vs, x, res. auto.
Qed.

(** A listener hears values of the type of the stream. *)
Lemma heard_typed mild es y su : it_kind i = Stream -> Forall js_value args -> typed_result E inside stream_item mild i ->
  let w := steps (step (step w0 (WClient ev)) (WClient (UListen (List.length (cl_stores (w_cl w0)))))) es in
  countable (w_cl w) ->
  yields S R E stream_item mild a w (bump (cl_id (w_cl w0))) n k i ->
  nth_error (cl_subs (w_cl w)) (List.length (cl_subs (w_cl w0))) = Some su -> fn_result g = YApp "Store" [y] ->
  Forall (TsSpec.member (module_types m) y) (su_seen su).
Proof.
  intros Hk Hargs Ht w Hc Hyd Hsu Hy. destruct (acts _ _ _ Hev) as [Ee _]. rewrite Hk in Ee. subst w. rewrite Ee in *.
  destruct (it_args i) as [|a1 l1] eqn:Ea.
  - assert (Er : read_call (s_dec S) (s_unit S) (s_backend S) (call_value S (bf_name f, it_ident i, args)) = None)
      by exact (exec_no_arguments (s_dec S) (s_float S) (s_unit S) (s_backend S) n k f i (map real args) HD Hit Hns ident_raw Ea).
    destruct (listened _ _ _ _ _ _ _ (wire_reads S L L') a w0 _ _ es Hr0 Hu (call_doc S _ (bf_name f) (it_ident i) args (next_cid S a w0 Hr0)) Hc) as (su' & Q1 & Q2 & _).
    pose proof (eq_trans (eq_sym Q1) Hsu) as Q. injection Q as ->.
    rewrite (wire_unheard S L L' a w0 _ _ args (WClient (UListen (List.length (cl_stores (w_cl w0)))) :: es) _ su Hr0 Hu Er Hc Hsu Q2). constructor.
  - destruct (wire_heard S L L' n k f i args a w0 HD Hit Hns ident_raw Hr0 Hu Hargs es) as (su' & Q1 & Q2); auto; [congruence|].
    pose proof (eq_trans (eq_sym Q1) Hsu) as Q. injection Q as ->. destruct Q2 as [->|(vs & tk & heard & after & _ & Hsm & Hva & Hth & _)]; [constructor|].
    assert (Hall : Forall (TsSpec.member (module_types m) y) heard).
    { apply Forall_forall. intros d Hd. assert (Hd' : In d (values (A := rpc S) (received_as double) tk)) by (rewrite Hva; apply in_or_app; now left).
      unfold values in Hd'. apply in_flat_map in Hd' as ([d0|e] & Hi & Hd'); [|easy]. destruct Hd' as [<-|[]].
      apply (result_member mild); auto. + exact (Hyd vs tk d0 Hsm Hi _ gives_result). + now rewrite Hk. }
    clear -Hth Hall. induction Hth; inversion Hall; subst; auto.
Qed.

(** A stream that is accepted is made, and heard. *)
Lemma flows wide c sigma : it_kind i = Stream -> it_args i <> [] ->
  reads S R E inside wide i -> plain_args wide args ->
  let w2 := step (step w0 (WClient ev)) (WClient (UListen (List.length (cl_stores (w_cl w0))))) in
  let j := List.length (cl_subs (w_cl w0)) in
  let id := bump (cl_id (w_cl w0)) in
  fair (call_text S) (read_text S) (same_id S) (from_text S) (to_text S) w2 sigma c ->
  (forall x, lives (time w2 sigma x) c /\ countable (w_cl (time w2 sigma x)) /\ no_throws (w_cl (time w2 sigma x)) /\
    forall s, nth_error (cl_subs (w_cl (time w2 sigma x))) j = Some s -> su_live s = true) ->
  exists vs, decoded (s_dec S) (map snd (it_args i)) (map (fun a => to_value (s_float S) (stringify_elem a)) args) vs /\
    (exists x tk, stream_made S a (time w2 sigma x) id n k vs tk) /\
    forall x tk q d, stream_made S a (time w2 sigma x) id n k vs tk -> nth_error (values (A := rpc S) (received_as double) tk) q = Some d ->
      exists y s, x <= y /\ nth_error (cl_subs (w_cl (time w2 sigma y))) j = Some s /\ nth_error (su_seen s) q = Some d.
Proof.
  intros Hk Ha HRd Hp w2 j id. destruct (acts _ _ _ Hev) as [Ee Hv]. rewrite Hk in Ee. subst w2 j. rewrite Ee. intros Fa Lv.
  destruct (args_decoded wide args HRd Hp Hv) as [vs Hvs]. exists vs. split; [exact Hvs|].
  refine (wire_flows S L L' n k f i args a w0 HD Hit Hns ident_raw Hr0 Hu (plain_js wide Hp) c sigma vs Ha Hk _ Hvs Fa Lv).
  intros doc. apply (args_fine wide); [exact (next_cid S a w0 Hr0)|exact Hp].
Qed.
End Typed.
