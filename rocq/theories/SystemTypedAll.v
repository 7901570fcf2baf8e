(** All promises and listeners of a page that runs generated functions.  Proof side. *)
From Coq Require Import List String Bool Arith NArith ZArith Lia.
From Verif Require Import Util RustTy Gen GenSpec Js JsonText JsonTextSpec JsonTextProofs TsType JsModule Zod ZodSpec Serde SerdeSpec ParseSpec TsSpec Registry RegistrySpec ModuleSpec ScopeSpec
  Macro Server ServerSpec Wire WireSpec WireProofs Pump.
From Verif Require Import E2E E2ESpec E2EStreamSpec E2EText E2EProofs E2EWire E2EStreamWire ClientFn TypedSpec TypedFn TypedProofs.
From Verif Require Import JsSem JsSpec System SystemSpec SystemProofs SystemClaims SystemListen SystemTypedSpec SystemTyped.
From Verif Require Client Prelude TsProgram.
Import ListNotations.
Local Open Scope string_scope.
Local Open Scope list_scope.

Lemma same_item {T} (B : backend T) n k f i n' k' f' i' : distinct B -> has_item B n k f i -> has_item B n' k' f' i' ->
  unraw (variant_ident f) = unraw (variant_ident f') -> unraw (it_ident i) = unraw (it_ident i') -> n = n' /\ k = k' /\ f = f' /\ i = i'.
Proof.
  intros [D1 D2] [H1 H2] [H1' H2'] Ef Ei.
  assert (n = n') as <-.
  { apply (proj1 (NoDup_nth_error _) D1); [apply nth_error_Some; unfold field_tags; rewrite (map_nth_error _ _ _ H1); discriminate|].
    unfold field_tags. rewrite (map_nth_error _ _ _ H1), (map_nth_error _ _ _ H1'), Ef. reflexivity. }
  rewrite H1 in H1'. injection H1' as <-.
  assert (k = k') as <-.
  { apply (proj1 (NoDup_nth_error _) (D2 f (nth_error_In _ _ H1))); [apply nth_error_Some; unfold item_tags; rewrite (map_nth_error _ _ _ H2); discriminate|].
    unfold item_tags. rewrite (map_nth_error _ _ _ H2), (map_nth_error _ _ _ H2'), Ei. reflexivity. }
  rewrite H2 in H2'. injection H2' as <-. auto.
Qed.

Section All.
Context {V F : Type} (S : setting ty V F) (R : rust) (E : env) (o : options) (inv : inventory) (inside : nat -> bool) (stream_item : ty -> ty).
Context (p s : string) (m : list nsblock) (HP : TypedSpec.program S E o inv inside stream_item p s m) (mild : bool).
Hypothesis (L : faithful (s_lit S) (s_num S)) (L' : faithful (s_lit' S) (s_num S)).
Context (P : list TsProgram.top) (HPg : TsProgram.program Prelude.websocket_client = Some P).
Context (scripts : list script) (a : list F) (y0 y : system S) (es : list (sevent S)).
Hypothesis (H0 : started S P scripts a y0) (Rn : sruns S y0 es y) (Hf : few scripts (tasks_of es)).
Let acts := all_actions scripts (tasks_of es).
Let HD := pg_distinct _ _ _ _ _ _ _ _ _ HP.
Local Notation runs := (runs_function S E inside stream_item m mild).

Lemma runs_is act n k f i b g : runs act n k f i b g ->
  exists args, Forall js_value args /\ act = match it_kind i with Method => ARequest (bf_name f) (it_ident i) args | Stream => AStream (bf_name f) (it_ident i) args end.
Proof.
  intros [H1 H2 H3 (ip & fuel & args & Hv & H5) H6]. exists args. split; [exact Hv|].
  exact (proj1 (page_acts S E o inv inside stream_item p s m HP n k f i H1 b g H2 ip fuel args act H5)).
Qed.
Lemma result_there act n k f i b g : runs act n k f i b g -> exists t, fn_result g = YApp (result_box (it_kind i)) [t].
Proof.
  intros [H1 H2 H3 H5 H6].
  destruct (function_is E o inv _ inside p s m (submitted stream_item f i) (pg_regular _ _ _ _ _ _ _ _ _ HP) (pg_text _ _ _ _ _ _ _ _ _ HP) (pg_module _ _ _ _ _ _ _ _ _ HP)
    (in_inventory S E o inv inside stream_item p s m HP n k f i H1) (in_namespaces S stream_item n k f i H1) b g H2) as (_ & _ & _ & (t & _ & Ht) & _).
  exists t. exact Ht.
Qed.
Lemma runs_method ns nm args n k f i b g : runs (ARequest ns nm args) n k f i b g -> it_kind i = Method /\ (~ In ns (field_tags (s_backend S)) \/ calls_method S ns nm args n k f i).
Proof.
  intros H. destruct (runs_is _ _ _ _ _ _ _ H) as (args' & Hv & Q). destruct (it_kind i) eqn:Ek; [|discriminate Q]. injection Q as -> -> ->. split; [reflexivity|].
  destruct H as [H1 H2 [H3|H3] H5 H6]; [right|now left]. constructor; auto. exact (ident_raw S E o inv inside stream_item p s m HP n k f i H1).
Qed.
Lemma runs_stream ns nm args n k f i b g : runs (AStream ns nm args) n k f i b g -> it_kind i = Stream /\ (~ In ns (field_tags (s_backend S)) \/ calls_stream S ns nm args n k f i).
Proof.
  intros H. destruct (runs_is _ _ _ _ _ _ _ H) as (args' & Hv & Q). destruct (it_kind i) eqn:Ek; [discriminate Q|]. injection Q as -> -> ->. split; [reflexivity|].
  destruct H as [H1 H2 [H3|H3] H5 H6]; [right|now left]. constructor; auto. exact (ident_raw S E o inv inside stream_item p s m HP n k f i H1).
Qed.

Lemma tag_there ns nm args n k f i : calls_method S ns nm args n k f i -> In ns (field_tags (s_backend S)).
Proof. intros [[H1 _] H2 _ H3 _ _ _]. subst ns. rewrite H3. unfold field_tags. apply (in_map (fun f => unraw (variant_ident f))). exact (nth_error_In _ _ H1). Qed.
Lemma tag_there' ns nm args n k f i : calls_stream S ns nm args n k f i -> In ns (field_tags (s_backend S)).
Proof. intros [[H1 _] H2 _ H3 _ _ _]. subst ns. rewrite H3. unfold field_tags. apply (in_map (fun f => unraw (variant_ident f))). exact (nth_error_In _ _ H1). Qed.

Lemma all_typed j d :
  (forall ns nm args, In (ARequest ns nm args) acts -> exists n k f i b g, runs (ARequest ns nm args) n k f i b g /\ returns_typed S R E stream_item mild n k i) ->
  fulfilled (sy_page y) j d ->
  exists act n k f i b g t, In act acts /\ runs act n k f i b g /\ fn_result g = YApp "Promise" [t] /\ TsSpec.member (module_types m) t d.
Proof.
  intros Hc Fu.
  destruct (all_answered S P HPg L L' scripts a y0 y es HD H0 Rn Hf) as (ids & _ & Len & Q).
  { intros ns nm args I. destruct (Hc ns nm args I) as (n & k & f & i & b & g & H & _). destruct (proj2 (runs_method _ _ _ _ _ _ _ _ _ H)) as [H'|H']; [now left|right; now exists n, k, f, i]. }
  assert (Lj : j < List.length ids).
  { rewrite Len. destruct Fu as (q & x & H1 & _). apply nth_error_Some. rewrite H1. discriminate. }
  destruct (nth_error ids j) as [id|] eqn:Ej; [|apply nth_error_None in Ej; lia].
  destruct (Q j id Ej) as [[rs Pe]|(ns & nm & args & n & k & f & i & vs & d0 & I & Cm & _ & Fu' & Hh)].
  - pose proof (one_state _ _ _ _ Pe Fu) as X. discriminate X.
  - pose proof (one_state _ _ _ _ Fu Fu') as X. injection X as ->.
    destruct (Hc ns nm args I) as (n' & k' & f' & i' & b & g & H & Hr). destruct (runs_method _ _ _ _ _ _ _ _ _ H) as [Hk [No|Cm']]; [destruct (No (tag_there _ _ _ _ _ _ _ Cm))|].
    destruct Cm as [A1 A2 A3 A4 A5 A7 A8], Cm' as [B1 B2 B3 B4 B5 B7 B8].
    destruct (same_item _ n k f i n' k' f' i' HD A1 B1) as (<- & <- & <- & <-); [congruence|congruence|].
    destruct (result_there _ _ _ _ _ _ _ H) as [t Ht]. exists (ARequest ns nm args), n, k, f, i, b, g, t. split; [exact I|]. split; [exact H|].
    split; [rewrite Hk in Ht; exact Ht|]. destruct Hh as (c & v & bf & af & q & st' & x & x' & _ & _ & _ & _ & Hm & _).
    apply (result_member S R E o inv inside stream_item p s m HP n k f i A1 b g (rf_function _ _ _ _ _ _ _ _ _ _ _ _ _ H) mild d0 t (rf_result _ _ _ _ _ _ _ _ _ _ _ _ _ H)); [|exact Ht].
    exact (Hr x vs x' d0 Hm _ (gives_result stream_item i)).
Qed.

Lemma all_heard_typed u :
  (forall ns nm args, In (AStream ns nm args) acts -> exists n k f i b g, runs (AStream ns nm args) n k f i b g /\
     forall id, yields S R E stream_item mild a (server_side y) id n k i) ->
  u < List.length (us_unls (st_user (sy_page y))) -> heard_of u (sy_page y) = [] \/
  exists act n k f i b g t, In act acts /\ runs act n k f i b g /\ fn_result g = YApp "Store" [t] /\
    Forall (fun vs => exists d, vs = [VData d] /\ TsSpec.member (module_types m) t d) (heard_of u (sy_page y)).
Proof.
  intros Hc Lu.
  destruct (all_heard S L L' P HPg scripts a y0 y es HD H0 Rn Hf) as (ids & _ & _ & X).
  { intros ns nm args I. destruct (Hc ns nm args I) as (n & k & f & i & b & g & H & _). destruct (proj2 (runs_stream _ _ _ _ _ _ _ _ _ H)) as [H'|H']; [now left|right; now exists n, k, f, i]. }
  destruct (X u Lu) as (id & seen & _ & Hs & Q). rewrite Hs. destruct Q as [->|(ns & nm & args & n & k & f & i & vs & tk & before & heard & after & I & Cs & _ & Hsm & Hva & Hth & _)]; [now left|right].
  destruct (Hc ns nm args I) as (n' & k' & f' & i' & b & g & H & Hyd). destruct (runs_stream _ _ _ _ _ _ _ _ _ H) as [Hk [No|Cs']]; [destruct (No (tag_there' _ _ _ _ _ _ _ Cs))|].
  destruct Cs as [A1 A2 A3 A4 A5 A7 A8], Cs' as [B1 B2 B3 B4 B5 B7 B8].
  destruct (same_item _ n k f i n' k' f' i' HD A1 B1) as (<- & <- & <- & <-); [congruence|congruence|].
  destruct (result_there _ _ _ _ _ _ _ H) as [t Ht]. exists (AStream ns nm args), n, k, f, i, b, g, t. split; [exact I|]. split; [exact H|].
  split; [rewrite Hk in Ht; exact Ht|].
  assert (Hall : Forall (TsSpec.member (module_types m) t) heard).
  { apply Forall_forall. intros d Hd. assert (Hd' : In d (values (A := rpc S) (received_as double) tk)) by (rewrite Hva; apply in_or_app; right; apply in_or_app; now left).
    unfold values in Hd'. apply in_flat_map in Hd' as ([d0|e] & Hi & Hd'); [|destruct Hd']. destruct Hd' as [<-|[]].
    apply (result_member S R E o inv inside stream_item p s m HP n k f i A1 b g (rf_function _ _ _ _ _ _ _ _ _ _ _ _ _ H) mild d0 t (rf_result _ _ _ _ _ _ _ _ _ _ _ _ _ H)); [|exact Ht].
    exact (Hyd id vs tk d0 Hsm Hi _ (gives_result stream_item i)). }
  assert (Hseen : Forall (TsSpec.member (module_types m) t) seen) by (clear -Hth Hall; induction Hth; inversion Hall; subst; auto).
  apply Forall_forall. intros x Hx. apply in_map_iff in Hx as (d & <- & Hd). rewrite Forall_forall in Hseen. eauto.
Qed.
End All.
