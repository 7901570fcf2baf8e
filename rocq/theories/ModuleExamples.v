(** Generated modules. *)
From Coq Require Import List String Ascii Bool NArith ZArith Sorted Lia.
From Verif Require Import RustTy Gen GenSpec GenExamples JsLex JsParse Js Serde SerdeExamples Ast TsType TsAst JsModule Zod ZodSpec ZodLoad ZodLemmas Docs DocsSpec DocsProofs
  Registry RegistrySpec RegistryProofs RegistryExamples SerdeSpec ParseSpec TsSpec ModuleSpec ModuleProofs ScopeSpec ScopeProofs.
Import ListNotations.
Local Open Scope string_scope.
Local Open Scope list_scope.

(** ** Checking the conditions *)
Definition use (s : string) : bool := ident s && binding s.
Definition flat_tuple (d : decl) : bool :=
  match d_body d with BStruct StTuple false fs => existsb f_flatten (kept fs) | _ => false end.
Definition shape (d : decl) : bool :=
  negb (flat_tuple d) &&
  match d_from d, d_body d with
  | None, BStruct StNamed false fs => negb (existsb f_flatten (kept fs))
  | None, BStruct StTuple false fs => Nat.eqb (List.length (kept fs)) 1
  | Some _, BEnum _ _ => false
  | _, _ => true
  end.
Definition fit (o : options) (d : decl) : bool :=
  good_decl d && negb (type_op (d_ns d)) && use (d_ns d) && use (schema_name o (d_name d)) && use (alias_name o (d_name d)) &&
  use (interface_name o (d_name d)).
Fixpoint once (l : list string) : bool :=
  match l with [] => true | x :: r => negb (member_of x r) && once r end.
Definition fit_rpc (m : rpc) : bool :=
  use (r_ns m) && use (r_name m) && forallb (fun a => use (fst a)) (r_args m) && once (map fst (r_args m)).

Lemma use_spec s : use s = true -> usable s.
Proof. intros H. apply andb_true_iff in H. exact H. Qed.
Lemma once_spec l : once l = true -> NoDup l.
Proof.
  induction l as [|x l IH]; intros H; [constructor|]. cbn in H. apply andb_true_iff in H as [Hx Hl]. constructor; [|auto].
  intros Hi. apply member_of_true in Hi. now rewrite Hi in Hx.
Qed.
Lemma fit_names o E : forallb (fit o) E = true -> good_names E /\ type_names E.
Proof.
  intros H. rewrite forallb_forall in H. unfold good_names, type_names. rewrite !Forall_forall.
  split; intros d Hd; specialize (H d Hd); unfold fit in H; do 5 (apply andb_true_iff in H as [H ?]); auto.
  now apply negb_true_iff.
Qed.
Lemma fit_type o E i : forallb (fit o) E = true -> (forall d, In d E -> closed_docs (d_docs d)) -> i < List.length E -> usable_type E o i.
Proof.
  intros H Hd Hi. assert (Hin : In (lookup E i) E) by (apply nth_In; exact Hi). rewrite forallb_forall in H. specialize (H _ Hin).
  unfold fit in H. do 5 (apply andb_true_iff in H as [H ?]). unfold usable_type. auto 8 using use_spec.
Qed.
Lemma fit_rpc_spec m : fit_rpc m = true -> usable_rpc m.
Proof.
  intros H. unfold fit_rpc in H. do 3 (apply andb_true_iff in H as [H ?]). rewrite forallb_forall in H1.
  split; [now apply use_spec|]. split; [now apply use_spec|]. split; [|now apply once_spec]. intros a Ha. apply use_spec. auto.
Qed.
Lemma fit_all o E inv names : forallb (fit o) E = true -> (forall d, In d E -> closed_docs (d_docs d)) ->
  forallb (fun i => Nat.ltb i (List.length E)) (i_types inv) = true -> forallb fit_rpc (i_rpcs inv) = true -> usable_names E o inv names.
Proof.
  intros H1 H2 H3 H4. rewrite forallb_forall in H3, H4. split.
  - intros i Hi _. apply (fit_type o E i H1 H2). apply PeanoNat.Nat.ltb_lt. auto.
  - intros m Hm _. apply fit_rpc_spec. auto.
Qed.
Lemma no_docs E : forallb (fun d => match d_docs d with [] => true | _ => false end) E = true -> forall d, In d E -> closed_docs (d_docs d).
Proof.
  intros H d Hd. rewrite forallb_forall in H. specialize (H d Hd). destruct (d_docs d); [|discriminate]. split; [constructor|].
  intros ls l Hl Hin. inversion Hl; subst. destruct Hin.
Qed.
Lemma existsb_no {A} (p : A -> bool) l a : existsb p l = false -> In a l -> p a = false.
Proof.
  intros H Hi. destruct (p a) eqn:Hp; [|reflexivity]. assert (existsb p l = true) by (apply existsb_exists; eauto). congruence.
Qed.
Lemma no_flat_spec E : forallb (fun d => negb (flat_tuple d)) E = true -> no_tuple_flatten E.
Proof.
  intros H i fs Hb f Hf. assert (Hi : negb (flat_tuple (lookup E i)) = true).
  { unfold lookup. destruct (nth_in_or_default i E dummy_decl) as [Hin|He]; [|rewrite He; reflexivity]. rewrite forallb_forall in H. auto. }
  unfold flat_tuple in Hi. rewrite Hb in Hi. apply negb_true_iff in Hi. now apply (existsb_no f_flatten (kept fs)).
Qed.
Lemma shape_spec E : forallb shape E = true -> forall i, ~ misshapen E (TNamed i).
Proof.
  intros H i Hm. assert (Hi : shape (lookup E i) = true).
  { unfold lookup. destruct (nth_in_or_default i E dummy_decl) as [Hin|He]; [|rewrite He; reflexivity]. rewrite forallb_forall in H. auto. }
  apply andb_true_iff in Hi as [_ Hi].
  inversion Hm as [j fs f Hf Hb Hin Hfl|j fs Hf Hb Hl|w t|j tg vs t Hf Hb Ht]; subst; rewrite Hf, Hb in Hi.
  - apply negb_true_iff in Hi. rewrite (existsb_no _ _ _ Hi Hin) in Hfl. discriminate.
  - now apply PeanoNat.Nat.eqb_eq in Hi.
  - discriminate.
Qed.

(** What the parser computes is the module. *)
Lemma parsed E o inv names s m : forallb (fit o) E = true -> (forall d, In d E -> closed_docs (d_docs d)) ->
  forallb (fun i => Nat.ltb i (List.length E)) (i_types inv) = true -> forallb fit_rpc (i_rpcs inv) = true -> forallb shape E = true ->
  generates E o inv names "" s -> module_parse s = Some m -> ts_module s m /\ spaces_of E o inv names m.
Proof.
  intros H1 H2 H3 H4 H5 Hg Hm. destruct (fit_names o E H1) as [HE HT].
  destruct (module_parses E o inv names HE HT (fit_all o E inv names H1 H2 H3 H4) "" s Hg) as (s' & m' & Hs & Hm' & Hsp).
  { intros i _ _. now apply shape_spec. }
  cbn in Hs. subst s'. rewrite (module_parse_complete s m' Hm') in Hm. injection Hm as <-. auto.
Qed.

(** ** The mall *)
Example mall_closed : forall d, In d mall -> closed_docs (d_docs d).
Proof.
  assert (H0 : closed_docs []).
  { split; [constructor|]. intros ls l Hl Hin. inversion Hl; subst. destruct Hin. }
  intros d Hd. cbn in Hd. destruct Hd as [<-|[<-|[<-|[<-|[]]]]]; cbn; auto. split.
  - repeat constructor; unfold scalar; cbn; lia.
  - intros ls l Hl Hin. apply doc_lines_split in Hl as ->. vm_compute in Hin. destruct Hin as [<-|[]].
    intros (x & y & H). assert (Hx : In 42%N (x ++ lit "*/" ++ y)) by (apply in_or_app; right; left; reflexivity).
    rewrite <- H in Hx. cbn in Hx. intuition discriminate.
Qed.
Definition mall_inside (i : nat) : bool := Nat.ltb i 3.

Example mall_conditions : good_names mall /\ type_names mall /\ usable_names mall default_options mall_inv mall_names /\
  (forall i, ~ misshapen mall (TNamed i)) /\ no_tuple_flatten mall /\ spans mall mall_inside /\
  registered mall mall_inv mall_names mall_inside /\ mentions_inside mall_inv mall_names mall_inside /\
  declared_once mall mall_inv mall_names /\ hygienic mall mall_inv mall_names /\ generics_free mall mall_inv mall_names.
Proof.
  destruct (fit_names default_options mall eq_refl) as [H1 H2]. split; [exact H1|]. split; [exact H2|].
  split; [apply fit_all; [reflexivity|apply mall_closed|reflexivity|reflexivity]|].
  split; [now apply shape_spec|]. split; [now apply no_flat_spec|].
  split.
  { intros i Hi t Ht j Hj. destruct i as [|[|[|i]]]; cbn in Ht; [| | |discriminate];
      destruct Ht as [<-|[]]; cbn in Hj; try destruct Hj as [<-|[]]; try reflexivity; destruct Hj. }
  split.
  { intros i. split.
    - intros Hi. destruct i as [|[|[|i]]]; [| | |discriminate]; cbn; auto 10.
    - intros [Hi Hn]. cbn in Hi. destruct Hi as [<-|[<-|[<-|[<-|[]]]]]; try reflexivity.
      exfalso. vm_compute in Hn. intuition discriminate. }
  split.
  { intros m Hm _. cbn in Hm. destruct Hm as [<-|[<-|[]]]; split.
    - intros a [].
    - intros i [].
    - intros a Ha i Hi. cbn in Ha. destruct Ha as [<-|[<-|[]]]; cbn in Hi; [destruct Hi as [<-|[]]; reflexivity|destruct Hi].
    - intros i Hi. cbn in Hi. destruct Hi as [<-|[]]. reflexivity. }
  split.
  { intros ns Hn. apply once_spec. cbn in Hn. repeat (destruct Hn as [<-|Hn]; [vm_compute; reflexivity|]). destruct Hn. }
  split.
  { split; [|split].
    - intros ns Hn. cbn in *. intuition (subst; discriminate).
    - intros i Hi _. cbn in Hi. destruct Hi as [<-|[<-|[<-|[<-|[]]]]]; cbn; intuition discriminate.
    - intros m Hm _. cbn in Hm. destruct Hm as [<-|[<-|[]]]; (split; [|split]); cbn; intuition (try discriminate; subst; cbn in *; intuition discriminate). }
  intros i Hi _. cbn in Hi. destruct Hi as [<-|[<-|[<-|[<-|[]]]]]; cbn; intuition discriminate.
Qed.

Example mall_tags : tags_ok mall.
Proof. unfold tags_ok. repeat (apply Forall_cons; [split; [exact I|cbn; repeat constructor; discriminate]|]). constructor. Qed.
Example mall_loadable : loadable mall mall_inside.
Proof.
  destruct mall_conditions as (HE & _). intros i Hi.
  assert (H : exists s, returns mall Schema (TNamed i) s /\ load s <> Throw).
  { destruct i as [|[|[|i]]]; [| | |discriminate]; (eexists; split; [exists 9; vm_compute; reflexivity|vm_compute; discriminate]). }
  destruct H as (s & Hs & Hl). destruct (schema_loads mall (TNamed i) s HE mall_tags Hs) as [[_ H]|[H _]]; [exact H|easy].
Qed.

(** Its text, read back. *)
Example mall_module : exists s m, generates mall default_options mall_inv mall_names "" s /\ ts_module s m /\
  spaces_of mall default_options mall_inv mall_names m /\
  map b_name m = ["Desk"; "Shop"; "Watch"] /\ map values m = [["Pen"]; ["Cart"; "Item"; "buy"]; ["ticks"]] /\
  map types m = [["Pen"]; ["Cart"; "Item"]; []].
Proof.
  assert (H : exists s m, generates mall default_options mall_inv mall_names "" s /\ module_parse s = Some m /\
    map b_name m = ["Desk"; "Shop"; "Watch"] /\ map values m = [["Pen"]; ["Cart"; "Item"; "buy"]; ["ticks"]] /\
    map types m = [["Pen"]; ["Cart"; "Item"]; []]).
  { eexists. eexists. split; [exists 20; vm_compute; reflexivity|]. split; [vm_compute; reflexivity|]. repeat split. }
  destruct H as (s & m & Hg & Hp & H). exists s, m. split; [exact Hg|].
  destruct (parsed mall default_options mall_inv mall_names s m eq_refl mall_closed eq_refl eq_refl eq_refl Hg Hp) as [H1 H2].
  repeat split; try apply H; assumption.
Qed.

(** ** Texts that are not TypeScript *)
Definition unparseable (E : env) (inv : inventory) : Prop :=
  compiles E /\ exists s, generates E default_options inv ["Ns"] "" s /\ forall m, ~ ts_module s m.
Ltac unparseable :=
  split; [intros i; do 2 (destruct i as [|i]; [eexists; vm_compute; reflexivity|]); destruct i; eexists; vm_compute; reflexivity|
    eexists; split; [exists 9; vm_compute; reflexivity|apply not_a_module; vm_compute; reflexivity]].

Theorem tuple_unparseable : unparseable [strukt "Ns" "Point" StTuple [fld "0" ex_u8; fld "1" ex_u8]] (mkInv [0] []).
Proof. unparseable. Qed.
Theorem flatten_unparseable :
  unparseable [strukt "Ns" "A" StNamed [fld "a" ex_u8];
               strukt "Ns" "B" StNamed [mkField "rest" (TNamed 0) false false true "rest" false]] (mkInv [0; 1] []).
Proof. unparseable. Qed.
Theorem delete_unparseable : unparseable [] (mkInv [] [mkRpc Method "Ns" "delete" [("n", ex_u8)] ex_u8]).
Proof. unparseable. Qed.
Theorem raw_unparseable : unparseable [] (mkInv [] [mkRpc Method "Ns" "r#type" [] ex_u8]) /\
  unparseable [] (mkInv [] [mkRpc Method "Ns" "get" [("new", ex_u8)] ex_u8]).
Proof. split; unparseable. Qed.

(** ** Names that do not resolve *)
(** The generated module uses the name [x] (or [x.p]) in the code of a namespace. *)
Definition uses_name (E : env) (o : options) (inv : inventory) (names : list string) (x : string) (p : option string)
  (P : list nsblock -> nsblock -> list string -> Prop) : Prop :=
  compiles E /\ exists s m b ps e, generates E o inv names "" s /\ ts_module s m /\
    In b m /\ In (ps, e) (code b) /\ In (x, p) (uses e) /\ P m b ps.
Definition uses_type (E : env) (o : options) (inv : inventory) (names : list string) (x : string) (p : option string)
  (P : list nsblock -> nsblock -> Prop) : Prop :=
  compiles E /\ exists s m b y, generates E o inv names "" s /\ ts_module s m /\
    In b m /\ In y (signatures b) /\ In (x, p) (tuses y) /\ P m b.

Definition fits (E : env) (o : options) (inv : inventory) : bool :=
  forallb (fit o) E && forallb (fun d => match d_docs d with [] => true | _ => false end) E &&
  forallb (fun i => Nat.ltb i (List.length E)) (i_types inv) && forallb fit_rpc (i_rpcs inv) && forallb shape E.
Lemma fits_parsed E o inv names s m : fits E o inv = true -> generates E o inv names "" s -> module_parse s = Some m -> ts_module s m.
Proof.
  intros H Hg Hp. unfold fits in H. do 4 (apply andb_true_iff in H as [H ?]).
  apply (parsed E o inv names s m); auto. now apply no_docs.
Qed.
Lemma uses_name_intro E o inv names x p P : compiles E -> fits E o inv = true ->
  (exists s m, generates E o inv names "" s /\ module_parse s = Some m /\
    exists b ps e, In b m /\ In (ps, e) (code b) /\ In (x, p) (uses e) /\ P m b ps) -> uses_name E o inv names x p P.
Proof.
  intros Hc Hf (s & m & Hg & Hp & b & ps & e & H). split; [exact Hc|]. exists s, m, b, ps, e. split; [exact Hg|].
  split; [|exact H]. eapply fits_parsed; eassumption.
Qed.
Lemma uses_type_intro E o inv names x p P : compiles E -> fits E o inv = true ->
  (exists s m, generates E o inv names "" s /\ module_parse s = Some m /\
    exists b y, In b m /\ In y (signatures b) /\ In (x, p) (tuses y) /\ P m b) -> uses_type E o inv names x p P.
Proof.
  intros Hc Hf (s & m & Hg & Hp & b & y & H). split; [exact Hc|]. exists s, m, b, y. split; [exact Hg|].
  split; [|exact H]. eapply fits_parsed; eassumption.
Qed.
Ltac found := repeat first [left; reflexivity|right].
Ltac compiled := intros i; do 3 (destruct i as [|i]; [eexists; vm_compute; reflexivity|]); destruct i; eexists; vm_compute; reflexivity.
Ltac computed := eexists; eexists; split; [exists 12; vm_compute; reflexivity|]; split; [vm_compute; reflexivity|].

Definition trade : env :=
  [strukt "Shop" "Item" StNamed [fld "of" (TNamed 1)]; strukt "Other" "Thing" StNamed [fld "x" ex_u8]].
Definition trade_inv : inventory := mkInv [0; 1] [].
(** The namespace of [Thing] is not part of the backend. *)
Theorem foreign_dangles : uses_name trade default_options trade_inv ["Shop"] "Other" (Some "Thing")
  (fun m b ps => sees m b ps "Other" = PGlobal).
Proof.
  apply uses_name_intro; [compiled|reflexivity|]. computed.
  eexists. eexists. eexists. split; [left; reflexivity|]. split; [left; reflexivity|]. split; [cbn; found|reflexivity].
Qed.
(** Schemas are exported under another name than they are referred to. *)
Theorem prefix_dangles : uses_name trade (mkOpts "" "Schema" "" "" "" "") trade_inv ["Shop"; "Other"] "Other" (Some "Thing")
  (fun m b ps => exists b', sees m b ps "Other" = PSpace b' /\ const b' "Thing" = None /\ In "ThingSchema" (values b')).
Proof.
  apply uses_name_intro; [compiled|reflexivity|]. computed.
  eexists. eexists. eexists. split; [right; left; reflexivity|]. split; [left; reflexivity|]. split; [cbn; found|].
  eexists. vm_compute. auto.
Qed.
Theorem type_prefix_dangles : uses_type trade (mkOpts "" "" "I" "" "I" "") trade_inv ["Shop"; "Other"] "Other" (Some "Thing")
  (fun m b => exists b', block m "Other" = Some b' /\ type_at b' "Thing" = None /\ In "IThing" (types b')).
Proof.
  apply uses_type_intro; [compiled|reflexivity|]. computed.
  eexists. eexists. split; [right; left; reflexivity|]. split; [left; reflexivity|]. split; [cbn; found|].
  eexists. vm_compute. auto.
Qed.
(** A type named like its namespace hides the namespace. *)
Definition shop : env :=
  [strukt "Shop" "Shop" StNamed [fld "items" (TVec (TNamed 1))]; strukt "Shop" "Item" StNamed [fld "x" ex_u8]].
Theorem namespace_hidden : uses_name shop default_options (mkInv [0; 1] []) ["Shop"] "Shop" (Some "Item")
  (fun m b ps => sees m b ps "Shop" = POwn).
Proof.
  apply uses_name_intro; [compiled|reflexivity|]. computed.
  eexists. eexists. eexists. split; [left; reflexivity|]. split; [left; reflexivity|]. split; [cbn; found|reflexivity].
Qed.
(** A type named [Map] hides JavaScript's. *)
Definition atlas : env :=
  [strukt "Geo" "Map" StNamed [fld "x" ex_u8]; strukt "Geo" "Atlas" StNamed [fld "maps" (TMap Hash ex_str ex_u8)]].
Theorem generic_hidden : uses_type atlas default_options (mkInv [0; 1] []) ["Geo"] "Map" None
  (fun m b => type_sees b "Map" = POwn).
Proof.
  apply uses_type_intro; [compiled|reflexivity|]. computed.
  eexists. eexists. split; [left; reflexivity|]. split; [right; left; reflexivity|]. split; [cbn; found|reflexivity].
Qed.
(** An argument or a method named [request] receives the call. *)
Theorem request_captured :
  uses_name [] default_options (mkInv [] [mkRpc Method "Ns" "send" [("request", ex_u8)] ex_u8]) ["Ns"] "request" None
    (fun m b ps => sees m b ps "request" = PParam /\
       In (ps, transmission "request" "Ns" "send") (code b)) /\
  uses_name [] default_options (mkInv [] [mkRpc Method "Ns" "request" [] ex_u8]) ["Ns"] "request" None
    (fun m b ps => sees m b ps "request" = POwn) /\
  uses_name [] default_options (mkInv [] [mkRpc Method "Ns" "send" [("z", ex_u8)] ex_u8]) ["Ns"] "z" (Some "tuple")
    (fun m b ps => sees m b ps "z" = PParam).
Proof.
  split; [|split]; (apply uses_name_intro; [compiled|reflexivity|]); computed;
    eexists; eexists; eexists; (split; [left; reflexivity|]).
  - split; [right; right; left; reflexivity|]. split; [cbn; found|]. split; [reflexivity|vm_compute; auto].
  - split; [right; left; reflexivity|]. split; [cbn; found|reflexivity].
  - split; [right; left; reflexivity|]. split; [cbn; found|reflexivity].
Qed.

(** ** The conditions together *)
Example mall_regular : regular mall default_options mall_inv mall_names mall_inside.
Proof.
  destruct mall_conditions as (H1 & H2 & H3 & H4 & _ & H6 & H7 & H8 & H9 & H10 & H11).
  constructor; auto. repeat split.
Qed.
Example mall_sound : sound false false mall_inside mall /\ distinct mall mall_inside.
Proof.
  split; intros i Hi; (destruct i as [|[|[|i]]]; [| | |discriminate]); cbn; repeat constructor; cbn; try easy; intuition (subst; auto).
Qed.

(** A cart passes the module's own schema and comes out as it was. *)
Definition cart : jsval := JsObj [(js "items", JsArr [JsObj [(js "price", int 3%Z)]])].
Example cart_accepted : exists s m z, generates mall default_options mall_inv mall_names "" ("" ^^ s) /\ ts_module s m /\
  module_schemas m "Shop" "Cart" = Some z /\ accepts no_ip (module_schemas m) z cart cart /\ sane false cart.
Proof.
  assert (H : exists s m z, generates mall default_options mall_inv mall_names "" s /\ module_parse s = Some m /\
    module_schemas m "Shop" "Cart" = Some z /\ accepts no_ip (module_schemas m) z cart cart).
  { eexists. eexists. eexists. split; [exists 20; vm_compute; reflexivity|]. split; [vm_compute; reflexivity|].
    split; [vm_compute; reflexivity|]. exists 30. vm_compute. reflexivity. }
  destruct H as (s & m & z & Hg & Hp & Hz & Ha). exists s, m, z. split; [exact Hg|].
  split; [apply (parsed mall default_options mall_inv mall_names s m eq_refl mall_closed eq_refl eq_refl eq_refl Hg Hp)|].
  split; [exact Hz|]. split; [exact Ha|]. unfold cart. repeat constructor; cbn; try easy; auto.
Qed.
