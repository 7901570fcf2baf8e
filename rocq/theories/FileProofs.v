(** Proofs for FileSpec.v. *)
From Coq Require Import List String Ascii Bool NArith Lia.
From Verif Require Import RustTy Gen GenSpec JsLex JsParse Ast TsType JsModule Registry RegistrySpec RegistryProofs ParseSpec TsSpec ModuleSpec ModuleProofs
  ScopeSpec ScopeProofs TsProgram Prelude FileSpec.
Import ListNotations.
Local Open Scope string_scope.
Local Open Scope list_scope.

(** ** The longer lexer reads what the shorter one reads *)
Lemma wstart_start c m ts : start c = (m, ts) -> m <> MErr -> wstart c = (WM m, map WT ts).
Proof.
  intros H Hm. unfold wstart.
  destruct (Ascii.eqb_spec c "!") as [->|_]; [vm_compute in H; congruence|].
  destruct (Ascii.eqb_spec c "+") as [->|_]; [vm_compute in H; congruence|].
  destruct (Ascii.eqb_spec c "*") as [->|_]; [vm_compute in H; congruence|].
  now rewrite H.
Qed.

Lemma wstep_step m c m' ts : step m c = (m', ts) -> m' <> MErr -> wstep (WM m) c = (WM m', map WT ts).
Proof.
  intros H Hm. destruct m; cbn [wstep]; try (now rewrite H).
  - cbn [step] in H. now apply wstart_start.
  - cbn [step] in H. destruct (id_char c); [now inversion H|]. unfold next in H. unfold wnext.
    destruct (start c) as [m1 t1] eqn:E. inversion H; subst. now rewrite (wstart_start c m' t1 E Hm).
  - destruct (Ascii.eqb_spec c0 "=") as [->|_]; cbn [andb].
    + destruct (Ascii.eqb_spec c "=") as [->|_]; [cbn in H; congruence|]. cbn [Ascii.eqb Bool.eqb andb]. now rewrite H.
    + destruct (Ascii.eqb_spec c0 "&") as [->|_]; cbn [andb].
      * destruct (Ascii.eqb_spec c "&") as [->|_]; [cbn in H; congruence|]. cbn [Ascii.eqb Bool.eqb andb]. now rewrite H.
      * destruct (Ascii.eqb_spec c0 "|") as [->|_]; cbn [andb]; [|now rewrite H].
        destruct (Ascii.eqb_spec c "|") as [->|_]; [cbn in H; congruence|]. now rewrite H.
Qed.

Lemma flexm_err nl s : fst (fst (flexm MErr nl s)) = MErr.
Proof.
  revert nl; induction s as [|c s IH]; intros nl; [reflexivity|]. cbn [flexm step].
  specialize (IH (JsLex.newline c || nl)). destruct (flexm MErr _ s) as [[m n] t]. exact IH.
Qed.

Lemma wflag_embed nl ts : wflag nl (map WT ts) = map embed (flag nl ts).
Proof. destruct ts as [|t r]; [reflexivity|]. cbn. f_equal. rewrite !map_map. apply map_ext. reflexivity. Qed.

Lemma wflexm_flexm s : forall m nl m2 nl2 ts, flexm m nl s = (m2, nl2, ts) -> m2 <> MErr ->
  wflexm (WM m) nl s = (WM m2, nl2, map embed ts).
Proof.
  induction s as [|c s IH]; intros m nl m2 nl2 ts H Hm.
  - cbn in *. now inversion H.
  - cbn [flexm wflexm] in *. destruct (step m c) as [m1 t1] eqn:E.
    destruct (flexm m1 (JsLex.newline c || match t1 with [] => nl | _ => false end) s) as [[m3 n3] t3] eqn:F. inversion H; subst.
    assert (H1 : m1 <> MErr).
    { intros ->. pose proof (flexm_err (JsLex.newline c || match t1 with [] => nl | _ => false end) s) as Q. rewrite F in Q. cbn in Q. congruence. }
    rewrite (wstep_step m c m1 t1 E H1).
    replace (match map WT t1 with [] => nl | _ => false end) with (match t1 with [] => nl | _ => false end) by (now destruct t1).
    rewrite (IH _ _ _ _ _ F Hm). now rewrite wflag_embed, map_app.
Qed.

Lemma wflexm_app a b : forall m nl,
  wflexm m nl (a ++ b)%string =
  let '(m1, n1, t1) := wflexm m nl a in let '(m2, n2, t2) := wflexm m1 n1 b in (m2, n2, t1 ++ t2).
Proof.
  induction a as [|c a IH]; intros m nl.
  - cbn. now destruct (wflexm m nl b) as [[? ?] ?].
  - cbn [String.append wflexm]. destruct (wstep m c) as [m1 t1]. rewrite IH.
    destruct (wflexm m1 _ a) as [[m2 n2] t2]. destruct (wflexm m2 n2 b) as [[m3 n3] t3]. now rewrite app_assoc.
Qed.

(** Only the flag of the first token depends on what was before. *)
Inductive same_but_first {A} : list (bool * A) -> list (bool * A) -> Prop :=
| sb_nil : same_but_first [] []
| sb_cons b b' t r : same_but_first ((b, t) :: r) ((b', t) :: r).

Lemma flexm_nl s : forall m nl nl' m2 n2 ts, flexm m nl s = (m2, n2, ts) ->
  exists n2' ts', flexm m nl' s = (m2, n2', ts') /\ same_but_first ts ts' /\ (ts <> [] -> n2 = n2').
Proof.
  induction s as [|c s IH]; intros m nl nl' m2 n2 ts H.
  - cbn in *. inversion H; subst. exists nl', []. repeat split; [constructor|congruence].
  - cbn [flexm] in *. destruct (step m c) as [m1 t1]. destruct t1 as [|t t1].
    + destruct (flexm m1 (JsLex.newline c || nl) s) as [[m3 n3] t3] eqn:F. inversion H; subst.
      destruct (IH _ _ (JsLex.newline c || nl') _ _ _ F) as (n' & ts' & E & Hs & Hn). rewrite E. cbn [flag app].
      exists n', ts'. now repeat split.
    + destruct (flexm m1 (JsLex.newline c || false) s) as [[m3 n3] t3] eqn:F. inversion H; subst.
      exists n2, (flag nl' (t :: t1) ++ t3). repeat split. constructor.
Qed.

Lemma module_first b b' t r m : module_of_tokens ((b, t) :: r) m -> module_of_tokens ((b', t) :: r) m.
Proof. intros H. inversion H; subst. econstructor; eassumption. Qed.

Lemma flex_from nl s ts : flex s = Some ts -> exists m2 n2 ts1 r,
  flexm M0 nl s = (m2, n2, ts1) /\ finish m2 = Some r /\ same_but_first ts (ts1 ++ flag n2 r).
Proof.
  unfold flex. destruct (flexm M0 false s) as [[m n] t] eqn:F. destruct (finish m) as [r|] eqn:E; [|discriminate].
  intros H; inversion H; subst. destruct (flexm_nl s M0 false nl m n t F) as (n' & ts' & F' & Hs & Hn).
  exists m, n', ts', r. repeat split; [assumption..|]. inversion Hs; subst.
  - cbn. destruct r; cbn; constructor.
  - rewrite Hn by congruence. cbn. constructor.
Qed.

Lemma first_module ts ts' m : same_but_first ts ts' -> module_of_tokens ts m -> module_of_tokens ts' m.
Proof. intros [|b b' t r] H; [exact H|]. now apply module_first with b. Qed.

(** ** The tokens of the client *)
Definition client_tokens : list (bool * wtok) := Eval vm_compute in snd (wflexm (WM M0) false websocket_client).
Definition client_program : list top := Eval vm_compute in match program_of_tokens client_tokens with Some P => P | None => [] end.

Lemma client_lexed : wflexm (WM M0) false websocket_client = (WM M0, true, client_tokens).
Proof. vm_cast_no_check (eq_refl (WM M0, true, client_tokens)). Qed.
Lemma client_parsed : program_of_tokens client_tokens = Some client_program.
Proof. vm_cast_no_check (eq_refl (Some client_program)). Qed.

Fixpoint no_space (ts : list (bool * wtok)) : bool :=
  match ts with
  | [] => true
  | (_, a) :: r => negb (is_w "export" a && match r with (_, b) :: _ => is_w "namespace" b | [] => true end) && no_space r
  end.
Lemma client_no_space : no_space client_tokens = true.
Proof. vm_cast_no_check (eq_refl true). Qed.

Lemma no_space_tail a b : no_space a = true -> forall x y, a = x ++ y -> y <> [] -> opens_space (y ++ b) = false.
Proof.
  intros H x. revert a H. induction x as [|t x IH]; intros a H y -> Hy.
  - destruct y as [|[f t] y]; [congruence|]. cbn in H |- *. apply andb_true_iff in H as [H _].
    destruct y as [|[g u] y]; cbn [app].
    + apply negb_true_iff in H. rewrite andb_true_r in H. destruct b as [|[g u] b]; [reflexivity|]. now rewrite H.
    + now apply negb_true_iff in H.
  - apply (IH (x ++ y)); [|reflexivity|exact Hy]. cbn in H. destruct t. now apply andb_true_iff in H as [_ H].
Qed.

Lemma finish_ok m r : finish m = Some r -> m <> MErr.
Proof. intros H ->. discriminate. Qed.

Lemma client_program_read : program websocket_client = Some client_program.
Proof.
  unfold program, wflex. rewrite client_lexed. cbn [wfinish finish option_map map wflag]. rewrite app_nil_r. exact client_parsed.
Qed.

Lemma file_reads s m : ts_module s m -> ts_file (websocket_client ++ s)%string client_program m.
Proof.
  intros (ts & F & M). destruct (flex_from true s ts F) as (m2 & n2 & ts1 & r & F1 & Fr & Hs).
  exists client_tokens, (ts1 ++ flag n2 r). split; [|split; [|split]].
  - unfold wflex. rewrite wflexm_app, client_lexed. rewrite (wflexm_flexm s _ _ _ _ _ F1 (finish_ok _ _ Fr)).
    cbn [wfinish]. rewrite Fr. cbn [option_map]. f_equal. rewrite <- app_assoc. f_equal. rewrite map_app. f_equal. apply wflag_embed.
  - apply no_space_tail. exact client_no_space.
  - exact client_parsed.
  - exact (first_module _ _ _ Hs M).
Qed.

(** ** One reading *)
Lemma module_opens b m : module_of_tokens b m -> b = [] \/ opens_space (map embed b) = true.
Proof. intros H. inversion H; subst; [now left|right; reflexivity]. Qed.

Lemma embed_inj a b : map embed a = map embed b -> a = b.
Proof.
  revert b; induction a as [|[x t] a IH]; intros [|[y u] b] H; try discriminate; [reflexivity|].
  cbn in H. inversion H; subst. f_equal. now apply IH.
Qed.

Lemma app_split {A} (a b c d : list A) : a ++ b = c ++ d -> (exists x, c = a ++ x /\ b = x ++ d) \/ (exists x, a = c ++ x /\ d = x ++ b).
Proof.
  revert c; induction a as [|h a IH]; intros c H.
  - left. now exists c.
  - destruct c as [|k c].
    + right. exists (h :: a). split; [reflexivity|]. cbn in H |- *. now rewrite H.
    + cbn in H. inversion H; subst. destruct (IH c H2) as [(x & -> & ->)|(x & -> & ->)]; [left|right]; now exists x.
Qed.

Lemma split_le a b a' b' m m' : a ++ map embed b = a' ++ map embed b' ->
  (forall x y, a' = x ++ y -> y <> [] -> opens_space (y ++ map embed b') = false) -> module_of_tokens b m -> module_of_tokens b' m' ->
  forall x, a' = a ++ x -> map embed b = x ++ map embed b' -> x = [].
Proof.
  intros E Ha Hb Hb' x -> Ex. destruct x as [|t x]; [reflexivity|exfalso].
  assert (Q := Ha a (t :: x) eq_refl ltac:(discriminate)). rewrite <- Ex in Q.
  destruct (module_opens b m Hb) as [->|Q']; [discriminate Ex|congruence].
Qed.

Lemma ts_file_unique s P m P' m' : ts_file s P m -> ts_file s P' m' -> P = P' /\ m = m'.
Proof.
  intros (a & b & F & Ha & HP & HM) (a' & b' & F' & Ha' & HP' & HM').
  assert (E : a ++ map embed b = a' ++ map embed b') by congruence.
  assert (a = a' /\ map embed b = map embed b') as [-> Eb].
  { destruct (app_split _ _ _ _ E) as [(x & Ex & Eb)|(x & Ex & Eb)].
    - pose proof (split_le a b a' b' m m' E Ha' HM HM' x Ex Eb). subst x. rewrite app_nil_r in Ex. now subst.
    - pose proof (split_le a' b' a b m' m (eq_sym E) Ha HM' HM x Ex Eb). subst x. rewrite app_nil_r in Ex. now subst. }
  apply embed_inj in Eb as ->. split; [congruence|]. apply mparse_complete in HM, HM'. congruence.
Qed.

(** ** Names *)
Lemma client_declares : top_values client_program = client_values.
Proof. vm_cast_no_check (eq_refl client_values). Qed.
Lemma client_types : top_types client_program = ["Store"].
Proof. vm_cast_no_check (eq_refl ["Store"]). Qed.
Lemma client_exports : top_exports client_program = ["subscribe"; "request"].
Proof. vm_cast_no_check (eq_refl ["subscribe"; "request"]). Qed.

Lemma member_in x l : member_of x l = true <-> In x l.
Proof.
  unfold member_of. rewrite existsb_exists. split.
  - intros (y & Hy & He). apply String.eqb_eq in He. now subst.
  - intros H. exists x. split; [exact H|apply String.eqb_refl].
Qed.

Lemma client_free x : In x (top_free client_program) <-> In x host_values.
Proof.
  assert (A : forallb (fun y => member_of y host_values) (top_free client_program) = true) by (vm_cast_no_check (eq_refl true)).
  assert (B : forallb (fun y => member_of y (top_free client_program)) host_values = true) by (vm_cast_no_check (eq_refl true)).
  rewrite forallb_forall in A, B. split; intros H; apply member_in; auto.
Qed.

Lemma block_named m x b : block m x = Some b -> In x (map b_name m).
Proof.
  unfold block. intros H. apply find_some in H as [H He]. apply String.eqb_eq in He. subst. now apply in_map.
Qed.
Lemma block_missing m x : block m x = None -> ~ In x (map b_name m).
Proof.
  unfold block. intros H Hi. apply in_map_iff in Hi as (b & <- & Hb). apply (find_none _ _ H) in Hb. now rewrite String.eqb_refl in Hb.
Qed.

Lemma ascending_nodup l : ascending l -> NoDup l.
Proof.
  induction l as [|x l IH]; intros H; [constructor|]. constructor; [now apply sorted_fresh|]. apply IH. now inversion H.
Qed.

Lemma spaces_names E o inv names m : spaces_of E o inv names m ->
  NoDup (map b_name m) /\ forall x, In x (map b_name m) <-> In x names /\ has_member E inv x.
Proof.
  intros (L & Ha & Hin & Hf). assert (map b_name m = L) as ->.
  { clear Ha Hin. induction Hf as [|ns b L m [Hb _] Hf IH]; [reflexivity|]. cbn. congruence. }
  split; [now apply ascending_nodup|exact Hin].
Qed.

Lemma nodup_app {A} (a b : list A) : NoDup a -> NoDup b -> (forall x, In x a -> ~ In x b) -> NoDup (a ++ b).
Proof.
  intros Ha Hb H. induction Ha as [|x a Hx Ha IH]; [exact Hb|]. cbn. constructor.
  - rewrite in_app_iff. intros [Hi|Hi]; [now apply Hx|]. apply (H x); [now left|exact Hi].
  - apply IH. intros y Hy. apply H. now right.
Qed.

Lemma nodup_both {A} (a b : list A) x : NoDup (a ++ b) -> In x a -> ~ In x b.
Proof.
  induction a as [|y a IH]; intros H Ha Hb; [easy|]. cbn in H. inversion H as [|? ? Hn H']; subst. destruct Ha as [->|Ha].
  - apply Hn. apply in_app_iff. now right.
  - now apply IH.
Qed.

(** ** The file of a program *)
Section File.
Context (E : env) (o : options) (inv : inventory) (names : list string) (inside : nat -> bool) (s : string).
Hypotheses (HR : regular E o inv names inside) (HG : generates E o inv names websocket_client s).

Theorem whole_file : exists P m, program websocket_client = Some P /\ ts_file s P m /\ spaces_of E o inv names m.
Proof.
  pose proof HR as [H1 H2 H3 H4 _ _ H7 _ _ _ _].
  destruct (module_parses E o inv names H1 H2 H3 websocket_client s HG) as (s' & m & -> & Hm & Hs).
  { intros i Hi Hn. apply H4. apply H7. auto. }
  exists client_program, m. split; [exact client_program_read|]. split; [now apply file_reads|exact Hs].
Qed.

Context (P : list top) (m : list nsblock).
Hypotheses (HF : ts_file s P m).

Lemma file_known : P = client_program /\ spaces_of E o inv names m.
Proof.
  destruct whole_file as (P' & m' & HP' & HF' & Hs). rewrite client_program_read in HP'. injection HP' as <-.
  destruct (ts_file_unique s P m client_program m' HF HF') as [-> ->]. now split.
Qed.

(** Nothing is declared twice, unless a namespace is called like something in the client. *)
Theorem file_once : NoDup (top_values P ++ map b_name m) <-> forall ns, In ns names -> has_member E inv ns -> ~ In ns client_values.
Proof.
  destruct file_known as [-> Hs]. rewrite client_declares. destruct (spaces_names E o inv names m Hs) as [Hn Hi]. split.
  - intros H ns Hin Hm Hc. apply (nodup_both _ _ ns H Hc). apply Hi. now split.
  - intros H. apply nodup_app; [|exact Hn|].
    + unfold client_values. repeat constructor; cbn; intuition discriminate.
    + intros x Hx Hb. apply Hi in Hb as [Hb Hm]. now apply (H x).
Qed.

(** What the namespaces take from outside is in the client. *)
Theorem file_imports b ps e x q : In b m -> In (ps, e) (code b) -> In (x, q) (uses e) -> x <> "arguments" ->
  sees m b ps x = PGlobal -> file_sees P m x = OProgram.
Proof.
  intros Hb Hc Hu Hx Hg. destruct file_known as [-> Hs]. destruct HR as [H1 H2 H3 H4 [H5 H5'] H6 H7 H8 H9 H10 H11].
  assert (R : resolves E inside m b ps e x q) by now apply (names_resolve E o inv names inside m).
  unfold file_sees. rewrite client_declares. inversion R as [y p Hy _| | |]; subst; try congruence.
  enough (member_of x client_values = true) as -> by reflexivity. apply member_in.
  destruct Hy as [<-|[<-|[<-|[]]]]; cbn; tauto.
Qed.

(** The types: [Store] is in the client, the other ones are not. *)
Theorem file_types b y x q : In b m -> In y (signatures b) -> In (x, q) (tuses y) -> ~ In x keywords ->
  q = None -> type_sees b x = PGlobal /\ (In x (top_types P) <-> x = "Store").
Proof.
  intros Hb Hy Hu Hk ->. destruct file_known as [-> Hs]. destruct HR as [H1 H2 H3 H4 [H5 H5'] H6 H7 H8 H9 H10 H11].
  assert (R : type_resolves E inside m b x None) by now apply (type_names_resolve E o inv names inside m) with (y := y).
  rewrite client_types. inversion R; subst; [contradiction|]. split; [assumption|]. cbn. intuition auto.
Qed.

(** The names the client does not declare are those of the host. *)
Theorem file_client x : leaves_client names -> In x (top_free P) -> file_sees P m x = OHost.
Proof.
  intros HL Hx. destruct file_known as [-> Hs]. destruct (spaces_names E o inv names m Hs) as [_ Hi].
  apply client_free in Hx. unfold file_sees. rewrite client_declares.
  assert (member_of x client_values = false) as ->.
  { destruct (member_of x client_values) eqn:Hm; [|reflexivity]. exfalso. apply member_in in Hm.
    unfold host_values in Hx. repeat (destruct Hx as [<-|Hx]; [cbn in Hm; intuition discriminate|]). destruct Hx. }
  destruct (block m x) as [b|] eqn:B; [|reflexivity]. exfalso. apply block_named, Hi in B as [B _]. now apply (HL x B).
Qed.
End File.
