(** The generated type texts lex to the tokens of their trees. *)
From Coq Require Import List String Ascii Bool NArith.
From Verif Require Import RustTy Gen GenSpec GenProofs JsLex JsParse Ast AstProofs TsType TsAst.
Import ListNotations.
Local Open Scope string_scope.
Local Open Scope list_scope.

(** ** Splicing trees *)
Lemma uni_tokens a b : ytokens (uni a b) = ytokens a ++ TP "|" :: ytokens b.
Proof.
  induction b; try reflexivity. cbn [uni ytokens]. rewrite IHb1. now rewrite <- app_assoc.
Qed.

Lemma uni_wf a b : ywf a = true -> ywf b = true -> ywf (uni a b) = true.
Proof.
  intros Ha. induction b; intros Hb; try (cbn [uni ywf is_union negb]; rewrite Ha; cbn [ywf] in Hb |- *;
    rewrite ?Hb; reflexivity).
  cbn [uni ywf] in *. apply andb_true_iff in Hb as [Hb H3]. apply andb_true_iff in Hb as [H1 H2].
  rewrite IHb1, H2, H3 by exact H1. reflexivity.
Qed.

Lemma inter1_tokens a b : ytokens (inter1 a b) = ytokens a ++ TP "&" :: ytokens b.
Proof.
  induction b; try reflexivity; cbn [inter1 ytokens]; rewrite IHb1; now rewrite <- app_assoc.
Qed.

Lemma inter1_wf a b : ywf a = true -> is_union a = false -> ywf b = true ->
  ywf (inter1 a b) = true /\ (is_union b = false -> is_union (inter1 a b) = false).
Proof.
  intros Ha Hu. induction b; intros Hb;
    try (cbn [inter1 ywf is_union is_inter negb]; rewrite Ha, Hu; cbn [ywf] in Hb |- *; rewrite ?Hb; auto; fail).
  - cbn [inter1 ywf] in *. apply andb_true_iff in Hb as [Hb H3]. apply andb_true_iff in Hb as [H1 H2].
    destruct (IHb1 H1) as [-> _]. rewrite H2, H3. split; [reflexivity|discriminate].
  - cbn [inter1 ywf] in *. repeat (apply andb_true_iff in Hb as [Hb ?]).
    destruct (IHb1 Hb) as [-> Hn]. rewrite H, H0, H2. rewrite Hn by now apply negb_true_iff.
    auto.
Qed.

Lemma inter_tokens a b : ytokens (inter a b) = ytokens a ++ TP "&" :: ytokens b.
Proof.
  destruct a; try apply inter1_tokens. cbn [inter ytokens]. rewrite uni_tokens, inter1_tokens.
  now rewrite <- app_assoc.
Qed.

Lemma inter_wf a b : ywf a = true -> ywf b = true -> ywf (inter a b) = true.
Proof.
  intros Ha Hb. destruct a; try (apply inter1_wf; auto; fail).
  cbn [inter]. cbn [ywf] in Ha. apply andb_true_iff in Ha as [Ha H3]. apply andb_true_iff in Ha as [H1 H2].
  apply uni_wf; [exact H1|]. apply inter1_wf; auto. now apply negb_true_iff.
Qed.

(** ** Texts that may end inside an identifier *)
Definition idle (m : mode) : Prop := m = M0 \/ exists w, m = MId w.
Definition pend (m : mode) : list tok := match m with MId w => [TId w] | _ => [] end.

Definition ltx (s : string) (ts : list tok) : Prop :=
  exists m t, lexm M0 s = (m, t) /\ idle m /\ t ++ pend m = ts.

Definition stop (s : string) : Prop :=
  match s with EmptyString => True | String c _ => id_char c = false end.

(** Characters that may follow [<]. *)
Definition opens (s : string) : Prop :=
  match s with
  | EmptyString => False
  | String c _ => op c = false /\ Ascii.eqb c ">" = false /\ Ascii.eqb c "." = false
  end.

Definition tx (s : string) (ts : list tok) : Prop := ltx s ts /\ opens s.

Lemma ltx_lit s m t : lexm M0 s = (m, t) -> idle m -> ltx s (t ++ pend m).
Proof. intros H1 H2. exists m, t. auto. Qed.

Lemma ltx_m0 s t : lexm M0 s = (M0, t) -> ltx s t.
Proof. intros H. exists M0, t. split; [exact H|]. split; [now left|]. apply app_nil_r. Qed.

Lemma ltx_pre a ta b tb : lexm M0 a = (M0, ta) -> ltx b tb -> ltx (a ^^ b) (ta ++ tb).
Proof.
  intros Ha (m & t & Hb & Hi & <-). exists m, (ta ++ t). split; [|split; [exact Hi|now rewrite app_assoc]].
  eapply lexm_seq; eassumption.
Qed.

Lemma ltx_post a ta b tb : ltx a ta -> stop b -> ltx b tb -> ltx (a ^^ b) (ta ++ tb).
Proof.
  intros (m1 & t1 & Ha & Hi1 & <-) Hs (m2 & t2 & Hb & Hi2 & <-).
  destruct Hi1 as [->|[w ->]].
  - exists m2, (t1 ++ t2). split; [eapply lexm_seq; eassumption|]. split; [exact Hi2|].
    cbn [pend]. now rewrite app_nil_r, app_assoc.
  - destruct b as [|c r].
    + cbn in Hb. injection Hb as <- <-. exists (MId w), t1. rewrite append_nil.
      split; [exact Ha|]. split; [now right; exists w|]. cbn. now rewrite app_nil_r.
    + exists m2, (t1 ++ (TId w :: t2)). split; [|split; [exact Hi2|]].
      * eapply lexm_seq; [exact Ha|]. cbn [lexm step] in *. rewrite Hs. unfold next.
        destruct (start c) as [m3 t3]. destruct (lexm m3 r) as [m4 t4].
        injection Hb as -> <-. reflexivity.
      * cbn [pend]. now rewrite <- !app_assoc.
Qed.

Lemma tx_lt b tb : tx b tb -> exists m t, lexm (MOp "<") b = (m, TP "<" :: t) /\ idle m /\ t ++ pend m = tb.
Proof.
  intros [(m & t & Hb & Hi & <-) Ho]. destruct b as [|c r]; [destruct Ho|].
  destruct Ho as (H1 & H2 & H3). exists m, t. split; [|auto].
  cbn [lexm step] in *. rewrite H1, H2, H3. cbn [Ascii.eqb Bool.eqb andb orb]. unfold next.
  destruct (start c) as [m3 t3]. destruct (lexm m3 r) as [m4 t4]. injection Hb as -> <-. reflexivity.
Qed.

Lemma ltx_lt a ta b tb : lexm M0 a = (MOp "<", ta) -> tx b tb -> ltx (a ^^ b) (ta ++ TP "<" :: tb).
Proof.
  intros Ha Hb. destruct (tx_lt _ _ Hb) as (m & t & H & Hi & <-).
  exists m, (ta ++ TP "<" :: t). split; [eapply lexm_seq; eassumption|]. split; [exact Hi|].
  now rewrite <- app_assoc.
Qed.

Lemma opens_app a b : opens a -> opens (a ^^ b).
Proof. now destruct a. Qed.
Lemma stop_app a b : a <> "" -> stop a -> stop (a ^^ b).
Proof. now destruct a. Qed.

Section Pieces.
Context (run : query -> ty -> option string).

(** Whenever the pieces return a text, [x] is some tree, and the text is its tokens. *)
Definition GoodL {A} (L : string -> list tok -> Prop) (tk : A -> list tok) (P : A -> Prop)
  (ps : list piece) (x : option A) :=
  forall s, cat run ps = Some s -> exists a, x = Some a /\ P a /\ L s (tk a).

Lemma GoodL_tx {A} (tk : A -> list tok) P ps x : GoodL tx tk P ps x -> GoodL ltx tk P ps x.
Proof. intros H s Hs. destruct (H s Hs) as (a & ? & ? & [? _]). eauto. Qed.

Lemma GoodL_pure {A} (tk : A -> list tok) (P : A -> Prop) l a :
  tx l (tk a) -> P a -> GoodL tx tk P [Lit l] (Some a).
Proof. intros H Ha s Hs. apply cat_lit in Hs as ->. exists a. auto. Qed.

Lemma GoodL_wrap {A B} (tk : A -> list tok) P ps x (h : A -> B) tk' (Q : B -> Prop) pre post t1 t2 :
  lexm M0 pre = (M0, t1) -> opens pre -> ltx post t2 -> stop post ->
  GoodL ltx tk P ps x ->
  (forall a, P a -> Q (h a) /\ t1 ++ tk a ++ t2 = tk' (h a)) ->
  GoodL tx tk' Q ([Lit pre] ++ ps ++ [Lit post]) (option_map h x).
Proof.
  intros H1 Ho H2 Hst HG H s Hs.
  apply cat_app_inv in Hs as (s1 & s2 & Hs1 & Hs2 & ->). apply cat_lit in Hs1 as ->.
  apply cat_app_inv in Hs2 as (s3 & s4 & Hs3 & Hs4 & ->). apply cat_lit in Hs4 as ->.
  destruct (HG _ Hs3) as (a & -> & Ha & Hla). destruct (H a Ha) as [HQ Ht].
  exists (h a). repeat split; auto using opens_app. rewrite <- Ht.
  apply ltx_pre; [exact H1|]. now apply ltx_post.
Qed.

Lemma GoodL_lt {A B} (tk : A -> list tok) P ps x (h : A -> B) tk' (Q : B -> Prop) pre post t1 t2 :
  lexm M0 pre = (MOp "<", t1) -> opens pre -> ltx post t2 -> stop post ->
  GoodL tx tk P ps x ->
  (forall a, P a -> Q (h a) /\ t1 ++ TP "<" :: tk a ++ t2 = tk' (h a)) ->
  GoodL tx tk' Q ([Lit pre] ++ ps ++ [Lit post]) (option_map h x).
Proof.
  intros H1 Ho H2 Hst HG H s Hs.
  apply cat_app_inv in Hs as (s1 & s2 & Hs1 & Hs2 & ->). apply cat_lit in Hs1 as ->.
  apply cat_app_inv in Hs2 as (s3 & s4 & Hs3 & Hs4 & ->). apply cat_lit in Hs4 as ->.
  destruct (HG _ Hs3) as (a & -> & Ha & Hla). destruct (H a Ha) as [HQ Ht].
  exists (h a). repeat split; auto using opens_app. rewrite <- Ht.
  apply ltx_lt; [exact H1|]. split; [|apply opens_app, Hla]. apply ltx_post; auto. apply Hla.
Qed.

Lemma GoodL_seq {A B C} (tk : A -> list tok) P ps x (tk2 : B -> list tok) Q qs y
  (h : A -> B -> C) tk3 (R : C -> Prop) mid t (L := ltx) :
  lexm M0 mid = (M0, t) -> mid <> "" -> stop mid ->
  GoodL ltx tk P ps x -> GoodL ltx tk2 Q qs y ->
  (forall a b, P a -> Q b -> R (h a b) /\ tk a ++ t ++ tk2 b = tk3 (h a b)) ->
  GoodL ltx tk3 R (ps ++ Lit mid :: qs) (bind x (fun a => option_map (h a) y)).
Proof.
  intros Hm Hne Hst H1 H2 H s Hs. apply cat_app_inv in Hs as (s1 & s2 & Hs1 & Hs2 & ->).
  change (Lit mid :: qs) with ([Lit mid] ++ qs) in Hs2.
  apply cat_app_inv in Hs2 as (s3 & s4 & Hs3 & Hs4 & ->). apply cat_lit in Hs3 as ->.
  destruct (H1 _ Hs1) as (a & -> & Ha & Hla). destruct (H2 _ Hs4) as (b & -> & Hb & Hlb).
  destruct (H a b Ha Hb) as [HS Ht]. exists (h a b). repeat split; auto.
  rewrite <- Ht. apply ltx_post; [exact Hla|now apply stop_app|]. now apply ltx_pre.
Qed.

(** The same when the first text is a type. *)
Lemma GoodL_seq_tx {A B C} (tk : A -> list tok) P ps x (tk2 : B -> list tok) Q qs y
  (h : A -> B -> C) tk3 (R : C -> Prop) mid t :
  lexm M0 mid = (M0, t) -> mid <> "" -> stop mid ->
  GoodL tx tk P ps x -> GoodL ltx tk2 Q qs y ->
  (forall a b, P a -> Q b -> R (h a b) /\ tk a ++ t ++ tk2 b = tk3 (h a b)) ->
  GoodL tx tk3 R (ps ++ Lit mid :: qs) (bind x (fun a => option_map (h a) y)).
Proof.
  intros Hm Hne Hst H1 H2 H s Hs.
  destruct (GoodL_seq tk P ps x tk2 Q qs y h tk3 R mid t Hm Hne Hst (GoodL_tx _ _ _ _ H1) H2 H s Hs)
    as (c & Hc & HR & Hl).
  exists c. repeat split; auto.
  apply cat_app_inv in Hs as (s1 & s2 & Hs1 & Hs2 & ->). destruct (H1 _ Hs1) as (a & _ & _ & _ & Ho).
  now apply opens_app.
Qed.

Lemma GoodL_join {A B} (f : A -> list piece) (g : A -> option B) tk (P : B -> Prop) sep xs :
  lexm M0 sep = (M0, [TP ","]) -> sep <> "" -> stop sep ->
  (forall x, In x xs -> GoodL ltx tk P (f x) (g x)) ->
  GoodL ltx (fun l => commas (map tk l)) (Forall P) (join sep (map f xs)) (all_some (map g xs)).
Proof.
  intros Hsep Hne Hst. induction xs as [|x xs IH]; intros H.
  - intros s Hs. injection Hs as <-. exists []. repeat split; auto. now apply ltx_m0.
  - assert (IH' := IH (fun y Hy => H y (or_intror Hy))). clear IH.
    destruct xs as [|x2 xs].
    + cbn [map join all_some]. intros s Hs.
      destruct (H x (or_introl eq_refl) s Hs) as (a & -> & Ha & Hl).
      exists [a]. cbn. repeat split; auto.
    + cbn [map join]. intros s Hs.
      destruct (GoodL_seq tk P (f x) (g x) (fun l => commas (map tk l)) (fun l => l <> [] /\ Forall P l)
        (join sep (map f (x2 :: xs))) (all_some (map g (x2 :: xs)))
        (fun a l => a :: l) (fun l => commas (map tk l)) (Forall P) sep [TP ","]
        Hsep Hne Hst (H x (or_introl eq_refl))) with (s := s) as (l & Hl & HP & Hlex).
      * intros s' Hs'. destruct (IH' s' Hs') as (l & Hl & HP & Hlex).
        exists l. repeat split; auto. intros ->. cbn [map all_some] in Hl.
        destruct (g x2); [|discriminate]. destruct (all_some (map g xs)); discriminate.
      * intros a l Ha [Hnl HP]. split; [now constructor|]. cbn [map].
        rewrite commas_cons; [reflexivity|]. destruct l; [easy|discriminate].
      * exact Hs.
      * exists l. repeat split; auto.
Qed.
End Pieces.

Lemma forallb_Forall {A} (p : A -> bool) l : forallb p l = true <-> Forall (fun x => p x = true) l.
Proof. rewrite forallb_forall, Forall_forall. reflexivity. Qed.

Definition okty (y : tsty) : Prop := ywf y = true.
Definition okp (p : string * bool * tsty) : Prop := ywf (snd p) = true.

Lemma okty_obj ps : Forall okp ps -> okty (YObj ps).
Proof. intros H. unfold okty. cbn. now apply forallb_Forall. Qed.
Lemma okty_tup l : Forall okty l -> okty (YTup l).
Proof. intros H. unfold okty. cbn. now apply forallb_Forall. Qed.
Lemma okty_undef : okty undef. Proof. reflexivity. Qed.

Ltac tkeq := unfold ptokens; cbn; rewrite <- ?app_assoc; cbn; rewrite <- ?app_assoc; cbn;
  rewrite ?app_nil_r; reflexivity.
Ltac oks := repeat (first [apply Forall_cons | apply Forall_nil | apply okty_obj | apply okty_tup
  | assumption | reflexivity ]).
Ltac lexs := repeat (eapply lexm_seq);
  first [ reflexivity | apply lexm_ident; eassumption | apply lexm_dot_ident; eassumption | apply lexm_str; eassumption ].

Section Step.
Context (run : query -> ty -> option string) (rec : query -> ty -> option tsty).
Definition tq (q : query) : Prop := q = TypeDef \/ q = Inline.
Hypothesis Hrec : forall q t s, tq q -> run q t = Some s ->
  exists y, rec q t = Some y /\ okty y /\ tx s (ytokens y).

Notation GoodT := (GoodL run tx ytokens okty).

Lemma tgood_call q t : tq q -> GoodT [Call q t] (rec q t).
Proof.
  intros Hq s Hs. cbn in Hs. destruct (run q t) as [x|] eqn:Hx; [|discriminate].
  injection Hs as <-. rewrite append_nil. now apply Hrec.
Qed.

Lemma tq_t : tq TypeDef. Proof. now left. Qed.
Lemma tq_i : tq Inline. Proof. now right. Qed.
Hint Resolve tq_t tq_i : core.

Lemma tgood_undef ps x : GoodT ps x -> GoodT (ps ++ [Lit " | undefined"]) (option_map (opt_ty true) x).
Proof.
  intros H s Hs. apply cat_app_inv in Hs as (s1 & s2 & Hs1 & Hs2 & ->). apply cat_lit in Hs2 as ->.
  destruct (H _ Hs1) as (y & -> & Hy & Hl & Ho). exists (opt_ty true y). split; [reflexivity|].
  split; [now apply uni_wf|]. split; [|now apply opens_app]. cbn [opt_ty]. rewrite uni_tokens.
  apply ltx_post; [exact Hl|reflexivity|]. apply (ltx_lit " | undefined" (MId "undefined") [TP "|"%char]); [reflexivity|].
  right. eauto.
Qed.

Definition tval_pieces (t : ty) (b : bool) : list piece :=
  if b then [Call Inline t; Lit " | undefined"] else [Call Inline t].

Lemma tgood_field t b : GoodT (tval_pieces t b) (tfield rec t b).
Proof.
  unfold tfield. assert (H := tgood_call Inline t tq_i). destruct b.
  - now apply (tgood_undef [Call Inline t]).
  - intros s Hs. destruct (H s Hs) as (y & -> & Hy). exists y. split; [reflexivity|exact Hy].
Qed.

Lemma tgood_prop k t (b : bool) : ident k = true ->
  GoodL run ltx ptokens okp (Lit (k ^^ (if b then "?: " else ": ")) :: tval_pieces t b) (tprop rec k t b).
Proof.
  intros Hk s Hs.
  change (cat run ([Lit (k ^^ (if b then "?: " else ": "))] ++ tval_pieces t b) = Some s) in Hs.
  apply cat_app_inv in Hs as (s1 & s2 & Hs1 & Hs2 & ->). apply cat_lit in Hs1 as ->.
  destruct (tgood_field _ _ _ Hs2) as (y & He & Hok & Hl & _).
  unfold tprop. rewrite He. exists (k, b, y). split; [reflexivity|]. split; [exact Hok|].
  unfold ptokens. cbn [fst snd]. rewrite app_comm_cons. apply ltx_pre; [|exact Hl].
  destruct b.
  - change [TId k; TP "?"%char; TP ":"%char] with ([] ++ [TId k; TP "?"%char; TP ":"%char]). lexs.
  - change [TId k; TP ":"%char] with ([] ++ [TId k; TP ":"%char]). lexs.
Qed.

Lemma opens_lit c r : op c = false -> Ascii.eqb c ">" = false -> Ascii.eqb c "." = false -> opens (String c r).
Proof. now repeat split. Qed.

Ltac op_ok := repeat split; reflexivity.

Lemma tgood_builtin t : (forall i, t <> TNamed i) -> GoodT (builtin_type t) (builtin_ty rec t).
Proof.
  intros Hn. destruct t as [p|ts|w t|t|n t|[] t|[] k v|t|t e|i]; cbn [builtin_type builtin_ty];
    try (apply tgood_call; auto); try now destruct (Hn i).
  - apply GoodL_pure; [|destruct p; reflexivity].
    split; [|destruct p; op_ok]. apply (ltx_lit (prim_type p) (MId (prim_type p)) []); [|right; eauto].
    destruct p; reflexivity.
  - eapply GoodL_wrap; [reflexivity|op_ok|apply ltx_m0; reflexivity|reflexivity| |].
    + apply GoodL_join with (P := okty) (tk := ytokens); try reflexivity; [easy|]. intros x _.
      apply GoodL_tx, tgood_call; auto.
    + intros es Hes. split; [now apply okty_tup|tkeq].
  - eapply (GoodL_lt run ytokens okty [Call TypeDef t]); [reflexivity|op_ok|apply ltx_m0; reflexivity|reflexivity| |].
    + apply tgood_call; auto.
    + intros y Hy. split; [unfold okty in *; cbn; now rewrite Hy|tkeq].
  - eapply (GoodL_lt run ytokens okty [Call TypeDef t]); [reflexivity|op_ok|apply ltx_m0; reflexivity|reflexivity| |].
    + apply tgood_call; auto.
    + intros y Hy. split; [unfold okty in *; cbn; now rewrite Hy|tkeq].
  - intros s Hs.
    assert (HG := GoodL_lt run (fun p : tsty * tsty => ytokens (fst p) ++ TP "," :: ytokens (snd p))
      (fun p => okty (fst p) /\ okty (snd p)) ([Call TypeDef k] ++ Lit ", " :: [Call TypeDef v])
      (bind (rec TypeDef k) (fun a => option_map (pair a) (rec TypeDef v)))
      (fun p => YApp "Map" [fst p; snd p]) ytokens okty "Map<" ">" [TId "Map"] [TP ">"]).
    destruct (HG eq_refl) with (s := s) as (y & Hy & Hok & Hl).
    + op_ok.
    + apply ltx_m0; reflexivity.
    + reflexivity.
    + eapply GoodL_seq_tx with (h := pair); [reflexivity|easy|reflexivity|apply tgood_call; auto|apply GoodL_tx, tgood_call; auto|].
      intros a b Ha Hb. split; [now split|reflexivity].
    + intros [a b] [Ha Hb]. cbn [fst snd] in *. split; [unfold okty in *; cbn; now rewrite Ha, Hb|tkeq].
    + exact Hs.
    + exists y. split; [|auto]. rewrite <- Hy.
      destruct (rec TypeDef k); [|reflexivity]. cbn [bind]. now destruct (rec TypeDef v).
  - intros s Hs.
    assert (HG := GoodL_wrap run ytokens okty [Call TypeDef t] (rec TypeDef t) (fun y => YParen (uni y undef)) ytokens okty
      "(" " | undefined)" [TP "("] [TP "|"; TId "undefined"; TP ")"]).
    apply HG; auto.
    + op_ok.
    + apply ltx_m0; reflexivity.
    + reflexivity.
    + apply GoodL_tx, tgood_call; auto.
    + intros y Hy. split; [now apply (uni_wf y undef)|]. cbn [ytokens]. rewrite uni_tokens. tkeq.
  - intros s Hs.
    assert (HG := GoodL_wrap run (fun p : tsty * tsty => ytokens (fst p) ++
         [TP "}"; TP "|"; TP "{"; TId "Err"; TP ":"] ++ ytokens (snd p))
      (fun p => okty (fst p) /\ okty (snd p)) ([Call TypeDef t] ++ Lit " } | { Err: " :: [Call TypeDef e])
      (bind (rec TypeDef t) (fun a => option_map (pair a) (rec TypeDef e)))
      (fun p => YUnion (YObj [("Ok", false, fst p)]) (YObj [("Err", false, snd p)])) ytokens okty "{ Ok: " " }"
      [TP "{"; TId "Ok"; TP ":"] [TP "}"]).
    destruct (HG eq_refl) with (s := s) as (y & Hy & Hok & Hl).
    + op_ok.
    + apply ltx_m0; reflexivity.
    + reflexivity.
    + apply GoodL_tx. eapply GoodL_seq_tx with (h := pair); [reflexivity|easy|reflexivity|apply tgood_call; auto|apply GoodL_tx, tgood_call; auto|].
      intros a b Ha Hb. split; [now split|reflexivity].
    + intros [a b] [Ha Hb]. cbn [fst snd] in *. split; [unfold okty in *; cbn; now rewrite Ha, Hb|tkeq].
    + exact Hs.
    + exists y. split; [|auto]. rewrite <- Hy.
      destruct (rec TypeDef t); [|reflexivity]. cbn [bind]. now destruct (rec TypeDef e).
Qed.

(** ** Structs *)
Lemma tgood_sval f : s_name f = None \/ s_transparent f = true -> s_flatten f = false ->
  GoodT (sfield_type f) (stval rec f).
Proof.
  intros H Hf. assert (HG := tgood_field (s_ty f) (s_optional f)). unfold sfield_type, stval, tval_pieces in *.
  rewrite Hf. destruct (s_optional f), (s_name f), (s_transparent f); try exact HG; destruct H; discriminate.
Qed.

Lemma tgood_sprop f n : s_name f = Some n -> ident n = true -> s_transparent f = false ->
  s_flatten f = false -> GoodL run ltx ptokens okp (sfield_type f) (stprop rec f).
Proof.
  intros Hn Hi Ht Hf. assert (HG := tgood_prop n (s_ty f) (s_optional f) Hi).
  unfold sfield_type, stprop, tval_pieces in *. rewrite Hf, Hn, Ht. destruct (s_optional f); exact HG.
Qed.

Lemma cat_join_cons (x : list piece) xs s : cat run (join "" (x :: xs)) = Some s ->
  exists a b, cat run x = Some a /\ cat run (join "" xs) = Some b /\ s = a ^^ b.
Proof.
  cbn [join]. intros Hs. destruct xs as [|x2 xs].
  - exists s, "". cbn. rewrite append_nil. auto.
  - apply cat_app_inv in Hs as (a & b & Ha & Hb & ->). cbn [cat] in Hb.
    destruct (cat run (join "" (x2 :: xs))) as [y|] eqn:Hy; [|discriminate].
    injection Hb as <-. eauto.
Qed.

Lemma tgood_flat f n : s_flatten f = true -> s_name f = Some n -> s_transparent f = false ->
  forall s, cat run (sfield_type f) = Some s ->
  exists y, stflat rec f = Some y /\ okty y /\ ltx s (TP "&" :: ytokens y) /\ s <> "" /\ stop s.
Proof.
  intros Hf Hn Ht s Hs. unfold sfield_type in Hs. rewrite Hf, Hn, Ht in Hs. unfold stflat.
  destruct (s_optional f).
  - change (cat run ([Lit "& ("] ++ [Call Inline (s_ty f)] ++ [Lit " | undefined)"]) = Some s) in Hs.
    apply cat_app_inv in Hs as (a1 & a2 & Ha1 & Ha2 & ->). apply cat_lit in Ha1 as ->.
    apply cat_app_inv in Ha2 as (a3 & a4 & Ha3 & Ha4 & ->). apply cat_lit in Ha4 as ->.
    destruct (tgood_call _ _ tq_i _ Ha3) as (y & -> & Hok & Hl & _). cbn [option_map].
    eexists. split; [reflexivity|]. split; [now apply (uni_wf y undef)|]. split; [|easy].
    cbn [flat_ty ytokens]. rewrite uni_tokens.
    change (ltx ("& (" ^^ a3 ^^ " | undefined)") ([TP "&"; TP "("] ++ (ytokens y ++ [TP "|"; TId "undefined"]) ++ [TP ")"])).
    apply ltx_pre; [reflexivity|]. rewrite <- app_assoc. apply ltx_post; [exact Hl|reflexivity|].
    now apply ltx_m0.
  - change (cat run ([Lit " & "] ++ [Call Inline (s_ty f)]) = Some s) in Hs.
    apply cat_app_inv in Hs as (a1 & a2 & Ha1 & Ha2 & ->). apply cat_lit in Ha1 as ->.
    destruct (tgood_call _ _ tq_i _ Ha2) as (y & -> & Hok & Hl & _). cbn [option_map].
    eexists. split; [reflexivity|]. split; [exact Hok|]. split; [|easy].
    change (ltx (" & " ^^ a2) ([TP "&"] ++ ytokens y)). now apply ltx_pre.
Qed.

Lemma tgood_flats fs : (forall f, In f fs -> s_flatten f = true /\ (exists n, s_name f = Some n) /\ s_transparent f = false) ->
  forall s, cat run (join "" (map sfield_type fs)) = Some s ->
  exists ys, all_some (map (stflat rec) fs) = Some ys /\ stop s /\
    forall o, okty o -> okty (fold_left inter ys o) /\
      exists ts, ltx s ts /\ ytokens o ++ ts = ytokens (fold_left inter ys o).
Proof.
  induction fs as [|f fs IH]; intros Hf s Hs.
  - injection Hs as <-. exists []. split; [reflexivity|]. split; [exact I|].
    intros o Ho. split; [exact Ho|]. exists []. split; [now apply ltx_m0|]. apply app_nil_r.
  - cbn [map] in Hs. apply cat_join_cons in Hs as (a & b & Ha & Hb & ->).
    destruct (IH (fun x Hx => Hf x (or_intror Hx)) b Hb) as (ys & Hys & Hst & Hrest).
    destruct (Hf f (or_introl eq_refl)) as (H1 & [n H2] & H3).
    destruct (tgood_flat f n H1 H2 H3 a Ha) as (y & Hy & Hok & Hl & Hne & Hsa).
    exists (y :: ys). split; [cbn [map all_some]; now rewrite Hy, Hys|]. split; [now apply stop_app|].
    intros o Ho. destruct (Hrest (inter o y)) as (H4 & ts & H5 & H6); [now apply inter_wf|].
    split; [exact H4|]. exists ((TP "&" :: ytokens y) ++ ts). split; [now apply ltx_post|].
    cbn [fold_left]. rewrite <- H6, inter_tokens. now rewrite <- app_assoc.
Qed.

Lemma tgood_struct st tr fs ps :
  (st = StNamed -> forallb (fun f => ident (f_name f)) (filter (fun f => negb (f_skip f)) fs) = true) ->
  struct_type st tr (struct_fields st tr fs) = Done ps ->
  GoodT ps (struct_ty rec st tr (struct_fields st tr fs)).
Proof.
  intros Hid Hps.
  assert (Hin : forall f, In f (filter (fun f => negb (s_flatten f)) (struct_fields st tr fs)) ->
    In f (struct_fields st tr fs) /\ s_flatten f = false).
  { intros f Hf. apply filter_In in Hf as [H1 H2]. split; [exact H1|]. now destruct (s_flatten f). }
  assert (Hval : forall f, In f (filter (fun f => negb (s_flatten f)) (struct_fields st tr fs)) ->
    tr = true \/ st <> StNamed -> GoodT (sfield_type f) (stval rec f)).
  { intros f Hf Hor. destruct (Hin f Hf) as [H1 H2].
    destruct (struct_fields_in _ _ _ _ H1) as (g & _ & Hnm & Htr).
    apply tgood_sval; [|exact H2]. destruct Hor as [->|Hst]; [now right|left].
    rewrite Hnm. now destruct st. }
  unfold struct_type, struct_ty in *.
  remember (filter (fun f => negb (s_flatten f)) (struct_fields st tr fs)) as plain eqn:Hplain.
  destruct tr.
  - destruct plain as [|f r]; [discriminate|]. (apply (f_equal (undone [])) in Hps; cbn [undone obind] in Hps; subst ps).
    apply Hval; [now left|now left].
  - destruct st; try discriminate.
    + (apply (f_equal (undone [])) in Hps; cbn [undone obind] in Hps; subst ps).
      intros s Hs.
      change (cat run ([Lit "{"] ++ join ("," ^^ nl) (map sfield_type plain) ++ [Lit "}"]
         ++ join "" (map sfield_type (filter s_flatten (struct_fields StNamed false fs)))) = Some s) in Hs.
      rewrite (app_assoc (join ("," ^^ nl) _)), (app_assoc [Lit "{"]) in Hs.
      apply cat_app_inv in Hs as (s1 & s2 & Hs1 & Hs2 & ->).
      assert (HG : GoodT ([Lit "{"] ++ join ("," ^^ nl) (map sfield_type plain) ++ [Lit "}"])
                     (option_map YObj (all_some (map (stprop rec) plain)))).
      { eapply GoodL_wrap; [reflexivity|op_ok|apply ltx_m0; reflexivity|reflexivity| |].
        - apply GoodL_join with (P := okp) (tk := ptokens); try reflexivity; [easy|]. intros f Hf.
          destruct (Hin f Hf) as [H1 H2].
          destruct (struct_fields_in _ _ _ _ H1) as (g & Hg & Hnm & Htr).
          eapply tgood_sprop; [exact Hnm| |exact Htr|exact H2].
          specialize (Hid eq_refl). rewrite forallb_forall in Hid. now apply Hid.
        - intros l Hl. split; [now apply okty_obj|]. reflexivity. }
      destruct (HG s1 Hs1) as (o & Ho & Hoko & Hlo & Hoo).
      destruct (all_some (map (stprop rec) plain)) as [l|]; [|discriminate].
      injection Ho as <-. cbn [bind].
      destruct (tgood_flats (filter s_flatten (struct_fields StNamed false fs))) with (s := s2)
        as (ys & Hys & Hst & Hrest).
      { intros f Hf. apply filter_In in Hf as [Hf H2]. split; [exact H2|].
        destruct (struct_fields_in _ _ _ _ Hf) as (g & _ & Hnm & Htr). eauto. }
      { exact Hs2. }
      rewrite Hys. eexists; split; [reflexivity|].
      destruct (Hrest _ Hoko) as (H1 & ts & H2 & H3). split; [exact H1|].
      rewrite <- H3. split; [now apply ltx_post|now apply opens_app].
    + destruct plain as [|f [|f2 r]]; [discriminate| |].
      * (apply (f_equal (undone [])) in Hps; cbn [undone obind] in Hps; subst ps). apply Hval; [now left|now right].
      * (apply (f_equal (undone [])) in Hps; cbn [undone obind] in Hps; subst ps).
        eapply GoodL_wrap; [reflexivity|op_ok|apply ltx_m0; reflexivity|reflexivity| |].
        -- apply GoodL_join with (P := okty) (tk := ytokens); try reflexivity; [easy|]. intros x Hx.
           apply GoodL_tx, Hval; [exact Hx|now right].
        -- intros es Hes. split; [now apply okty_tup|tkeq].
Qed.

(** ** Enums *)
Lemma tgood_unit tg name : good_tag tg = true -> string_safe name = true ->
  GoodT (unit_type tg name) (Some (unit_ty tg name)).
Proof.
  intros Ht Hn. unfold string_safe in Hn.
  destruct tg as [|tag|tag content|]; cbn [unit_type unit_ty good_tag] in *.
  - apply GoodL_pure; [|reflexivity]. split; [|op_ok]. apply ltx_m0. eapply eq_trans; [lexs|reflexivity].
  - apply GoodL_pure; [|reflexivity]. split; [|op_ok]. apply ltx_m0. eapply eq_trans.
    + repeat (eapply lexm_seq); [reflexivity|apply lexm_ident; exact Ht|reflexivity|apply lexm_str; exact Hn|reflexivity].
    + reflexivity.
  - apply andb_true_iff in Ht as [Ht _]. apply GoodL_pure; [|reflexivity]. split; [|op_ok]. apply ltx_m0. eapply eq_trans.
    + repeat (eapply lexm_seq); [reflexivity|apply lexm_ident; exact Ht|reflexivity|apply lexm_str; exact Hn|reflexivity].
    + reflexivity.
  - apply GoodL_pure; [|reflexivity]. split; [|op_ok].
    apply (ltx_lit "null" (MId "null") []); [reflexivity|right; eauto].
Qed.

Lemma vfield_tuple f : vfield_type StTuple f = tval_pieces (f_ty f) (f_default f).
Proof. unfold vfield_type, tval_pieces. now destruct (f_default f). Qed.

Lemma vfield_named f : vfield_type StNamed f =
  Lit (f_name f ^^ (if f_default f then "?: " else ": ")) :: tval_pieces (f_ty f) (f_default f).
Proof. unfold vfield_type, tval_pieces. now destruct (f_default f). Qed.

Lemma tgood_tuple tg name fs : good_tag tg = true -> string_safe name = true ->
  match tg with External | Internal _ => ident name = true | _ => True end ->
  GoodT (tuple_type tg name fs) (tuple_ty rec tg name fs).
Proof.
  intros Ht Hn Hid. destruct fs as [|f fs]; [now apply tgood_unit|].
  unfold tuple_type, tuple_ty. unfold string_safe in Hn.
  assert (HG : GoodT
    match fs with
    | [] => vfield_type StTuple f
    | _ => [Lit "["] ++ join ", " (map (vfield_type StTuple) (f :: fs)) ++ [Lit "]"]
    end
    match fs with
    | [] => tfield rec (f_ty f) (f_default f)
    | _ => option_map YTup (all_some (map (fun f => tfield rec (f_ty f) (f_default f)) (f :: fs)))
    end).
  { destruct fs as [|f2 fs]; [rewrite vfield_tuple; apply tgood_field|].
    eapply GoodL_wrap; [reflexivity|op_ok|apply ltx_m0; reflexivity|reflexivity| |].
    - apply GoodL_join with (P := okty) (tk := ytokens); try reflexivity; [easy|]. intros x _.
      rewrite vfield_tuple. apply GoodL_tx, tgood_field.
    - intros es Hes. split; [now apply okty_tup|tkeq]. }
  destruct tg as [|tag|tag content|]; cbn [good_tag] in Ht.
  - eapply GoodL_wrap; [lexs|op_ok|apply ltx_m0; reflexivity|reflexivity|apply GoodL_tx; exact HG|].
    intros e He. split; [oks|tkeq].
  - eapply GoodL_wrap; [lexs|op_ok|apply ltx_m0; reflexivity|reflexivity|apply GoodL_tx; exact HG|].
    intros e He. split; [oks|tkeq].
  - apply andb_true_iff in Ht as [Ht Hc].
    eapply GoodL_wrap; [lexs|op_ok|apply ltx_m0; reflexivity|reflexivity|apply GoodL_tx; exact HG|].
    intros e He. split; [oks|tkeq].
  - match goal with |- GoodL _ _ _ _ _ (option_map _ ?x) => destruct x eqn:Hx end; cbn [option_map]; exact HG.
Qed.

Lemma tgood_named tg name fs ps : good_tag tg = true -> string_safe name = true ->
  match tg with External => ident name = true | _ => True end ->
  forallb (fun f => ident (f_name f)) fs = true ->
  named_type tg name fs = Done ps ->
  GoodT ps (named_ty rec tg name fs).
Proof.
  intros Ht Hn Hid Hfs Hps. unfold string_safe in Hn.
  unfold named_type, named_ty in *. destruct fs as [|f fs]; [discriminate|].
  assert (HG : GoodL run ltx (fun l => commas (map ptokens l)) (fun l => l <> [] /\ Forall okp l)
    (join ", " (map (vfield_type StNamed) (f :: fs)))
    (all_some (map (fun f => tprop rec (f_name f) (f_ty f) (f_default f)) (f :: fs)))).
  { intros s Hs.
    destruct (GoodL_join run (vfield_type StNamed) (fun f => tprop rec (f_name f) (f_ty f) (f_default f))
       ptokens okp ", " (f :: fs) eq_refl) with (s := s) as (l & Hl & HP & Hlex); [easy|reflexivity| | |].
    - intros x Hx. rewrite vfield_named. apply tgood_prop. rewrite forallb_forall in Hfs. now apply Hfs.
    - exact Hs.
    - exists l. repeat split; auto. intros ->. cbn [map all_some] in Hl.
      destruct (tprop _ _ _ _); [|discriminate]. destruct (all_some _); discriminate. }
  (apply (f_equal (undone [])) in Hps; cbn [undone obind] in Hps; subst ps).
  destruct tg as [|tag|tag content|]; cbn [good_tag] in Ht.
  - eapply GoodL_wrap; [lexs|op_ok|apply ltx_m0; reflexivity|reflexivity|exact HG|].
    intros l [_ Hl]. split; [oks|tkeq].
  - eapply GoodL_wrap; [lexs|op_ok|apply ltx_m0; reflexivity|reflexivity|exact HG|].
    intros l [Hne Hl]. split; [oks|].
    destruct l as [|p l]; [easy|]. tkeq.
  - apply andb_true_iff in Ht as [Ht Hc].
    eapply GoodL_wrap; [lexs|op_ok|apply ltx_m0; reflexivity|reflexivity|exact HG|].
    intros l [_ Hl]. split; [oks|tkeq].
  - eapply GoodL_wrap; [reflexivity|op_ok|apply ltx_m0; reflexivity|reflexivity|exact HG|].
    intros l [_ Hl]. split; [oks|tkeq].
Qed.

Lemma tgood_variant tg v ps : good_tag tg = true -> good_variant tg v = true ->
  variant_type tg v = Done ps -> GoodT ps (variant_ty rec tg v).
Proof.
  intros Ht Hv Hps. unfold good_variant in Hv.
  apply andb_true_iff in Hv as [Hv Hf]. apply andb_true_iff in Hv as [Hn Hk].
  unfold variant_type, variant_ty in *. destruct (v_style v).
  - eapply tgood_named; eauto. destruct tg; auto.
  - (apply (f_equal (undone [])) in Hps; cbn [undone obind] in Hps; subst ps). apply tgood_tuple; auto. destruct tg; auto.
  - (apply (f_equal (undone [])) in Hps; cbn [undone obind] in Hps; subst ps). now apply tgood_unit.
Qed.

(** Texts joined by bars. *)
Lemma tgood_bars (l : list variant) tg xs : Forall2 (fun v x => GoodT x (variant_ty rec tg v)) l xs -> l <> [] ->
  forall s, cat run (join " | " xs) = Some s ->
  exists y ys, all_some (map (variant_ty rec tg) l) = Some (y :: ys) /\ okty y /\ Forall okty ys /\
    opens s /\ forall ts, (forall o, ytokens (unis o ys) = ytokens o ++ ts) -> ltx s (ytokens y ++ ts).
Proof.
  induction 1 as [|v x l xs Hv Hl IH]; intros Hne s Hs; [easy|].
  destruct Hl as [|v2 x2 l xs Hv2 Hl].
  - cbn [join] in Hs. destruct (Hv s Hs) as (y & Hy & Hok & Hlx & Ho).
    exists y, []. cbn [map all_some]. rewrite Hy. repeat split; auto.
    intros ts Hts. specialize (Hts (YStr "")). cbn in Hts. injection Hts as <-. now rewrite app_nil_r.
  - change (cat run (x ++ [Lit " | "] ++ join " | " (x2 :: xs)) = Some s) in Hs.
    apply cat_app_inv in Hs as (a & b & Ha & Hb & ->).
    apply cat_app_inv in Hb as (b1 & b2 & Hb1 & Hb2 & ->). apply cat_lit in Hb1 as ->.
    destruct (Hv a Ha) as (y & Hy & Hok & Hlx & Ho).
    destruct (IH ltac:(easy) b2 Hb2) as (y2 & ys & Hys & Hok2 & Hoks & _ & Hrest).
    exists y, (y2 :: ys). split; [|split; [exact Hok|split; [now constructor|split; [now apply opens_app|]]]].
    + cbn [map all_some] in Hys |- *. now rewrite Hy, Hys.
    + intros ts Hts.
      assert (Hu : exists ts', forall o, ytokens (unis o ys) = ytokens o ++ ts').
      { clear. induction ys as [|y ys [ts IH]] using rev_ind.
        - exists []. intros o. now rewrite app_nil_r.
        - exists (ts ++ TP "|" :: ytokens y). intros o. unfold unis in *. rewrite fold_left_app. cbn [fold_left].
          rewrite uni_tokens, IH. now rewrite <- app_assoc. }
      destruct Hu as [ts' Hts']. specialize (Hrest ts' Hts').
      assert (ts = [TP "|"] ++ ytokens y2 ++ ts') as ->.
      { specialize (Hts (YStr "")). unfold unis in Hts, Hts'. cbn [fold_left] in Hts. rewrite Hts', uni_tokens in Hts.
        cbn in Hts. now injection Hts as <-. }
      apply ltx_post; [exact Hlx|reflexivity|]. now apply ltx_pre.
Qed.

Lemma unis_tokens ys : exists ts, forall o, ytokens (unis o ys) = ytokens o ++ ts.
Proof.
  clear. induction ys as [|x ys [ts IH]] using rev_ind.
  - exists []. intros o. now rewrite app_nil_r.
  - exists (ts ++ TP "|" :: ytokens x). intros o. unfold unis in *. rewrite fold_left_app. cbn [fold_left].
    rewrite uni_tokens, IH. now rewrite <- app_assoc.
Qed.

Lemma unis_wf ys : Forall okty ys -> forall y, okty y -> okty (unis y ys).
Proof.
  induction 1 as [|x ys Hx Hys IH]; intros y Hy; [exact Hy|]. apply IH. now apply uni_wf.
Qed.

Lemma tgood_enum tg vs ps : good_tag tg = true -> forallb (good_variant tg) vs = true ->
  enum_type tg vs = Done ps -> GoodT ps (enum_ty rec tg vs).
Proof.
  intros Ht Hvs Hps. unfold enum_type, enum_ty in *.
  destruct vs as [|v [|v2 vs]]; [discriminate| |].
  - cbn [forallb] in Hvs. rewrite andb_true_r in Hvs. intros s Hs.
    destruct (tgood_variant tg v ps Ht Hvs Hps s Hs) as (y & Hy & Hok).
    cbn [map all_some]. rewrite Hy. exists y. split; [reflexivity|exact Hok].
  - destruct (omap (variant_type tg) (v :: v2 :: vs)) as [xs| | |] eqn:Hxs; try discriminate.
    cbn [obind] in Hps. (apply (f_equal (undone [])) in Hps; cbn [undone obind] in Hps; subst ps).
    apply omap_spec in Hxs. intros s Hs.
    destruct (tgood_bars (v :: v2 :: vs) tg xs) with (s := s) as (y & ys & Hys & Hok & Hoks & Ho & Hl); auto; [|easy|].
    + rewrite forallb_forall in Hvs. remember (v :: v2 :: vs) as l eqn:El. clear El v v2 vs Hs.
      induction Hxs as [|v x l xs Hv Hxs IH]; constructor.
      * eapply tgood_variant; eauto. apply Hvs. now left.
      * apply IH. intros u Hu. apply Hvs. now right.
    + rewrite Hys. eexists. split; [reflexivity|]. split; [now apply unis_wf|]. split; [|exact Ho].
      destruct (unis_tokens ys) as [ts Hts]. rewrite Hts. now apply Hl.
Qed.

(** ** Declarations *)
Lemma tgood_ref d : good_decl d = true -> type_op (d_ns d) = false ->
  GoodT (type_ref d) (Some (YRef (d_ns d) (d_name d))).
Proof.
  intros H Hop. unfold good_decl in H. apply andb_true_iff in H as [H _].
  apply andb_true_iff in H as [H Hname]. apply andb_true_iff in H as [Hns Hres].
  apply GoodL_pure.
  - split.
    + change (ytokens (YRef (d_ns d) (d_name d))) with ([TId (d_ns d); TP "."%char] ++ pend (MId (d_name d))).
      apply ltx_lit; [|right; eauto]. eapply eq_trans.
      * repeat (eapply lexm_seq); [apply lexm_ident; exact Hns|reflexivity|apply lexm_dot_ident; exact Hname].
      * reflexivity.
    + apply opens_app. destruct (d_ns d) as [|c r]; [discriminate|]. cbn [ident] in Hns.
      apply andb_true_iff in Hns as [Hc _]. revert Hc. clear.
      destruct c as [[] [] [] [] [] [] [] []]; intros Hc; vm_compute in Hc; try discriminate; op_ok.
  - unfold okty. cbn. unfold plain_name. now rewrite Hres, Hop.
Qed.

Lemma tgood_decl d im : good_decl d = true -> type_op (d_ns d) = false -> derive d = Done im ->
  GoodT (i_type_def im) (decl_ty rec d) /\ GoodT (i_inline im) (decl_name rec d).
Proof.
  intros Hd Hop Him. assert (Hl := tgood_ref d Hd Hop). unfold good_decl in Hd.
  apply andb_true_iff in Hd as [_ Hb].
  unfold derive, decl_ty, decl_name in *. destruct (d_body d) as [st tr fs|tg vs].
  - unfold derive_struct in Him. destruct st; try discriminate;
    (destruct (struct_schema _ tr _) as [sch| | |] eqn:Hsch; try discriminate;
     destruct (struct_type _ tr _) as [td| | |] eqn:Htd; try discriminate;
     cbn [obind] in Him; injection Him as <-;
     destruct (d_from d) as [t|]; cbn [i_type_def i_inline]; split; try exact Hl; try (apply tgood_call; auto);
     eapply tgood_struct; eauto; discriminate).
  - unfold derive_enum in Him. apply andb_true_iff in Hb as [Ht Hvs].
    destruct (enum_schema tg _) as [sch| | |] eqn:Hsch; try discriminate.
    destruct (enum_type tg _) as [td| | |] eqn:Htd; try discriminate.
    cbn [obind] in Him. injection Him as <-.
    destruct (d_from d) as [t|]; cbn [i_type_def i_inline]; split; try exact Hl;
      try (apply tgood_call; auto). eapply tgood_enum; eauto.
Qed.
End Step.

Lemma type_lookup E i : type_names E -> type_op (d_ns (lookup E i)) = false.
Proof.
  intros H. unfold lookup. destruct (nth_in_or_default i E dummy_decl) as [Hi|Hi].
  - unfold type_names in H. rewrite Forall_forall in H. now apply H.
  - rewrite Hi. reflexivity.
Qed.

Lemma gen_tx E : good_names E -> type_names E -> forall n q t s, tq q -> gen E n q t = Some s ->
  exists y, tgen E n q t = Some y /\ okty y /\ tx s (ytokens y).
Proof.
  intros HE HT. induction n as [|n IH]; intros q t s Hq Hs; [discriminate|].
  cbn [gen] in Hs. destruct (expand E q t) as [ps|] eqn:Hps; [|discriminate].
  cbn [tgen].
  assert (Hb : (forall i, t <> TNamed i) ->
    exists y, match q with TypeDef => builtin_ty (tgen E n) t | _ => tgen E n TypeDef t end = Some y
      /\ okty y /\ tx s (ytokens y)).
  { intros Hn. destruct Hq as [-> | ->].
    - apply (tgood_builtin _ _ IH t Hn). rewrite <- Hs. f_equal.
      destruct t; try (injection Hps as <-; reflexivity). now destruct (Hn i).
    - apply (tgood_call _ _ IH TypeDef t (or_introl eq_refl)). rewrite <- Hs. f_equal.
      destruct t; try (injection Hps as <-; reflexivity). now destruct (Hn i). }
  destruct t; try (apply Hb; intros j; discriminate). clear Hb.
  cbn [expand] in Hps. destruct (derive (lookup E i)) as [im| | |] eqn:Him; try discriminate.
  injection Hps as <-.
  destruct (tgood_decl _ _ IH (lookup E i) im (good_lookup E i HE) (type_lookup E i HT) Him) as [H1 H2].
  destruct Hq as [-> | ->]; [now apply H1|now apply H2].
Qed.

Lemma gen_tgen E n q t s : good_names E -> type_names E -> tq q -> gen E n q t = Some s ->
  exists y, tgen E n q t = Some y /\ ywf y = true /\ lex s = Some (ytokens y) /\ ts_parse s = Some y.
Proof.
  intros HE HT Hq Hs. destruct (gen_tx E HE HT n q t s Hq Hs) as (y & Hy & Hok & (m & ts & Hl & Hi & Ht) & _).
  exists y. split; [exact Hy|]. split; [exact Hok|].
  assert (Hlex : lex s = Some (ytokens y)).
  { unfold lex. rewrite Hl, <- Ht. destruct Hi as [->|[w ->]]; reflexivity. }
  split; [exact Hlex|]. unfold ts_parse. rewrite Hlex. now apply yparse_complete.
Qed.

(** The text of every type query is one type, in exactly one way. *)
Theorem type_text_parses E q t s : good_names E -> type_names E -> (q = TypeDef \/ q = Inline) ->
  returns E q t s ->
  exists ts y, lex s = Some ts /\ ytokens y = ts /\ ywf y = true /\ ts_parse s = Some y /\
    forall y', ywf y' = true -> ytokens y' = ts -> y' = y.
Proof.
  intros HE HT Hq [n Hn]. destruct (gen_tgen E n q t s HE HT Hq Hn) as (y & _ & Hw & Hl & Hp).
  exists (ytokens y), y. repeat split; auto. intros y' Hw' Ht. now apply ytokens_unique.
Qed.
