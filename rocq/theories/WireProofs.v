(** Proofs on the wire format. *)
From Coq Require Import List String Ascii Bool NArith ZArith Lia.
From Verif Require Import Util Js RustTy ZodSpec Serde Registry Macro Server ServerSpec ServerLemmas Wire WireSpec.
Import ListNotations.
Local Open Scope string_scope.
Local Open Scope list_scope.

(** ** Names *)
Lemma jeqb_eq a b : jeqb a b = true <-> a = b.
Proof.
  revert b; induction a as [|x a IH]; intros [|y b]; cbn; split; try easy.
  - intros H. apply andb_true_iff in H as [H1 H2]. apply N.eqb_eq in H1 as ->. f_equal. now apply IH.
  - intros [= -> ->]. rewrite N.eqb_refl. now apply IH.
Qed.

Lemma jeqb_refl a : jeqb a a = true.
Proof. now apply jeqb_eq. Qed.

Lemma js_inj a b : js a = js b -> a = b.
Proof.
  revert b; induction a as [|x a IH]; intros [|y b]; cbn; try easy.
  intros [= H1 H2]. f_equal; [|auto].
  rewrite <- (ascii_N_embedding x), <- (ascii_N_embedding y). congruence.
Qed.

Lemma prop_without {A} (k k' : jstr) (l : list (jstr * A)) : k <> k' ->
  prop k (filter (fun p => negb (jeqb k' (fst p))) l) = prop k l.
Proof.
  intros Hk. unfold prop. induction l as [|[x a] l IH]; [reflexivity|].
  cbn. destruct (jeqb k' x) eqn:E'; cbn.
  - destruct (jeqb k x) eqn:E; [|exact IH].
    apply jeqb_eq in E, E'. congruence.
  - destruct (jeqb k x); [reflexivity | exact IH].
Qed.

Lemma index_of_spec s l m : forall n, index_of m s l = Some n ->
  m <= n /\ exists x, nth_error l (n - m) = Some x /\ js x = s.
Proof.
  revert m; induction l as [|y l IH]; intros m n; [discriminate|].
  cbn. destruct (jeqb (js y) s) eqn:E.
  - intros [= <-]. rewrite PeanoNat.Nat.sub_diag. split; [lia|]. exists y. split; [reflexivity|]. now apply jeqb_eq.
  - intros H. apply IH in H as (Hle & x & Hx & Hs). split; [lia|]. exists x. split; [|assumption].
    replace (n - m) with (S (n - S m)) by lia. exact Hx.
Qed.

Lemma index_of_nth l x : NoDup l -> forall n m, nth_error l n = Some x -> index_of m (js x) l = Some (n + m).
Proof.
  induction 1 as [|y l Hy Hl IH]; intros [|n] m; cbn; try discriminate.
  - intros [= ->]. rewrite jeqb_refl. reflexivity.
  - intros H. destruct (jeqb (js y) (js x)) eqn:E.
    + apply jeqb_eq, js_inj in E as ->. destruct Hy. eapply nth_error_In; eassumption.
    + rewrite (IH n (S m) H). f_equal. lia.
Qed.

Lemma index_of_none l s m : (forall x, In x l -> js x <> s) -> index_of m s l = None.
Proof.
  revert m; induction l as [|y l IH]; intros m H; [reflexivity|].
  cbn. destruct (jeqb (js y) s) eqn:E.
  - apply jeqb_eq in E. destruct (H y (or_introl eq_refl) E).
  - apply IH. intros; apply H; now right.
Qed.

Lemma nth_map_some {A B} (g : A -> B) l n y : nth_error (map g l) n = Some y ->
  exists x, nth_error l n = Some x /\ g x = y.
Proof.
  rewrite nth_error_map. destruct (nth_error l n) as [x|]; [|discriminate].
  intros [= <-]. eauto.
Qed.

Section WireProofs.
Context {T V : Type} (dec : T -> json -> option V) (float : num -> num) (seq_cancel unit_map : bool).

(** ** Decoding a call *)
Lemma read_each_decoded ts l vs : read_each dec ts l = Some vs <-> decoded dec ts l vs.
Proof.
  revert l vs; induction ts as [|t ts IH]; intros [|j l] vs; cbn.
  - split; [intros [= <-]; constructor | inversion 1; reflexivity].
  - split; [discriminate | inversion 1].
  - split; [discriminate | inversion 1].
  - split.
    + destruct (dec t j) eqn:E; [|discriminate]. destruct (read_each dec ts l) eqn:E'; [|discriminate].
      intros [= <-]. constructor; [assumption | now apply IH].
    + inversion 1; subst. match goal with H : dec t j = _ |- _ => rewrite H end.
      match goal with H : decoded _ _ _ _ |- _ => apply IH in H; rewrite H end. reflexivity.
Qed.

Lemma read_args_mean ts a vs : read_args dec unit_map ts a = Some vs <-> args_mean dec unit_map ts a vs.
Proof.
  unfold read_args, args_mean. destruct ts as [|t ts].
  - split.
    + destruct a as [| | | | | |[|]]; try discriminate.
      * intros [= <-]. auto.
      * destruct unit_map; [|discriminate]. intros [= <-]. auto.
    + intros [[->|[-> ->]] ->]; reflexivity.
  - split.
    + destruct a; try discriminate. intros H. exists l. split; [reflexivity|]. now apply read_each_decoded.
    + intros (l & -> & H). now apply read_each_decoded.
Qed.

Lemma method_index_item (its : list (item T)) tag k i : NoDup (item_tags its) -> nth_error its k = Some i ->
  method_index its tag = Some k <-> (tag = JStr (js (unraw (it_ident i))) \/ tag = JInt (Z.of_nat k)).
Proof.
  intros Hd Hk.
  assert (Ht : nth_error (item_tags its) k = Some (unraw (it_ident i))).
  { unfold item_tags. rewrite nth_error_map, Hk. reflexivity. }
  assert (Hlen : k < List.length its) by (apply nth_error_Some; congruence).
  split.
  - destruct tag as [| |z| |s| |]; cbn; try discriminate.
    + destruct (Z.leb_spec 0 z); cbn; [|discriminate].
      destruct (Z.ltb_spec z (Z.of_nat (List.length its))); [|discriminate].
      intros [= <-]. right. f_equal. lia.
    + intros H. apply index_of_spec in H as (_ & x & Hx & <-). rewrite PeanoNat.Nat.sub_0_r, Ht in Hx.
      injection Hx as <-. now left.
  - intros [-> | ->]; cbn.
    + rewrite (index_of_nth _ _ Hd k 0 Ht). f_equal. lia.
    + destruct (Z.leb_spec 0 (Z.of_nat k)); [|lia]. cbn.
      destruct (Z.ltb_spec (Z.of_nat k) (Z.of_nat (List.length its))); [|lia].
      f_equal. lia.
Qed.

Lemma ns_method : js "method" <> js "namespace".
Proof. intros H. apply js_inj in H. discriminate. Qed.
Lemma ns_args : js "args" <> js "namespace".
Proof. intros H. apply js_inj in H. discriminate. Qed.
Lemma method_args : js "args" <> js "method".
Proof. intros H. apply js_inj in H. discriminate. Qed.

Lemma read_item_iff its l k vs : NoDup (item_tags its) ->
  read_item dec unit_map its l = Some (k, vs) <->
  exists i a, nth_error its k = Some i /\
    (prop (js "method") l = Some (JStr (js (unraw (it_ident i)))) \/
     prop (js "method") l = Some (JInt (Z.of_nat k))) /\
    prop (js "args") l = Some a /\ args_mean dec unit_map (map snd (it_args i)) a vs.
Proof.
  intros Hd. unfold read_item. split.
  - destruct (prop (js "method") l) as [tag|] eqn:Hm; [|discriminate].
    destruct (method_index its tag) as [k'|] eqn:Hk; [|discriminate].
    destruct (nth_error its k') as [i|] eqn:Hi; [|discriminate].
    unfold without. rewrite (prop_without _ _ l method_args).
    destruct (prop (js "args") l) as [a|] eqn:Ha; [|discriminate].
    destruct (read_args _ _ _ a) as [vs'|] eqn:Hv; [|discriminate].
    intros [= -> ->]. exists i, a. split; [assumption|].
    apply (method_index_item its tag k i Hd Hi) in Hk. apply read_args_mean in Hv.
    split; [destruct Hk as [-> | ->]; auto | auto].
  - intros (i & a & Hi & Hm & Ha & Hv).
    assert (Hk : exists tag, prop (js "method") l = Some tag /\ method_index its tag = Some k).
    { destruct Hm as [Hm|Hm]; eexists; (split; [exact Hm|]); apply (method_index_item its _ k i Hd Hi); auto. }
    destruct Hk as (tag & -> & ->). rewrite Hi.
    unfold without. rewrite (prop_without _ _ l method_args), Ha.
    apply read_args_mean in Hv. rewrite Hv. reflexivity.
Qed.

Lemma read_call_iff (B : backend T) v c : distinct B ->
  read_call dec unit_map B v = Some c <-> addressed dec unit_map B v c.
Proof.
  intros [Hd Hi]. unfold read_call, addressed, has_item. destruct c as [n k vs]; cbn [c_field c_item c_args].
  split.
  - destruct v as [| | | | | |l]; try discriminate.
    destruct (prop (js "namespace") l) as [[| | | |s| |]|] eqn:Hn; try discriminate.
    destruct (index_of 0 s (field_tags B)) as [n'|] eqn:Hx; [|discriminate].
    destruct (nth_error B n') as [f|] eqn:Hf; [|discriminate].
    destruct (read_item _ _ _ _) as [[k' vs']|] eqn:Hr; [|discriminate].
    intros [= -> -> ->].
    apply read_item_iff in Hr as (i & a & Hk & Hm & Ha & Hv); [|apply Hi; eapply nth_error_In; eassumption].
    unfold without in Hm, Ha.
    rewrite (prop_without _ _ l ns_method) in Hm. rewrite (prop_without _ _ l ns_args) in Ha.
    apply index_of_spec in Hx as (_ & x & Hx & Hs). rewrite PeanoNat.Nat.sub_0_r in Hx.
    apply nth_map_some in Hx as (f' & Hf' & <-). rewrite Hf in Hf'. injection Hf' as <-.
    exists l, f, i, a. rewrite Hs. auto 10.
  - intros (l & f & i & a & -> & [Hf Hk] & Hn & Hm & Ha & Hv).
    rewrite Hn.
    rewrite (index_of_nth (field_tags B) (unraw (variant_ident f)) Hd n 0).
    2: { unfold field_tags. rewrite nth_error_map, Hf. reflexivity. }
    rewrite PeanoNat.Nat.add_0_r, Hf.
    assert (Hr : read_item dec unit_map (bf_items f) (without (js "namespace") l) = Some (k, vs)).
    { apply read_item_iff; [apply Hi; eapply nth_error_In; eassumption|].
      exists i, a. unfold without.
      rewrite (prop_without _ _ l ns_method), (prop_without _ _ l ns_args). auto. }
    rewrite Hr. reflexivity.
Qed.

(** ** What the client sends *)
Definition exec_doc (id : N) (ns m : string) (args : list jsval) : json :=
  JObj [(js "exec", JObj [(js "id", JInt (show_int (Z.of_N id))); (js "method", JStr (js m));
                          (js "namespace", JStr (js ns)); (js "args", JArr (map stringify_elem args))])].

Lemma client_doc id ns m args : client_id id -> stringify (execute id ns m args) = Some (exec_doc id ns m args).
Proof.
  intros Hid. unfold execute, exec_doc.
  assert (H : Z.ltb (Z.abs (Z.of_N id)) (10 ^ 21) = true).
  { apply Z.ltb_lt. unfold client_id in Hid. lia. }
  cbn [stringify flat_map snd fst List.app map]. rewrite H. reflexivity.
Qed.

Lemma show_id id : client_id id -> show_int (Z.of_N id) = Z.of_N id.
Proof.
  unfold client_id, show_int. intros H. destruct (Z.leb_spec (Z.abs (Z.of_N id)) (2 ^ 53)); [reflexivity | lia].
Qed.

Definition exec_value (ns m : string) (args : list jsval) : json :=
  JObj [(js "args", JArr (map (fun a => to_value float (stringify_elem a)) args));
        (js "method", JStr (js m)); (js "namespace", JStr (js ns))].

Lemma exec_to_value ns m args :
  to_value float (JObj [(js "method", JStr (js m)); (js "namespace", JStr (js ns));
                        (js "args", JArr (map stringify_elem args))]) = exec_value ns m args.
Proof.
  unfold exec_value. rewrite <- (map_map stringify_elem (to_value float)).
  reflexivity.
Qed.

Lemma from_str_exec id ns m args : client_id id -> fine (exec_doc id ns m args) ->
  from_str float seq_cancel (exec_doc id ns m args) = Some (WExec id (exec_value ns m args)).
Proof.
  intros Hid [Hr Hd]. unfold from_str. rewrite Hr. apply PeanoNat.Nat.leb_le in Hd. rewrite Hd. cbn [andb].
  unfold exec_doc, read_request. rewrite jeqb_refl. unfold the_field.
  change (filter (fun p : jstr * json => jeqb (js "id") (fst p))
    [(js "id", JInt (show_int (Z.of_N id))); (js "method", JStr (js m)); (js "namespace", JStr (js ns));
     (js "args", JArr (map stringify_elem args))]) with [(js "id", JInt (show_int (Z.of_N id)))].
  cbn [read_id]. rewrite (show_id id Hid).
  replace (in_int Usize (Z.of_N id)) with true.
  2: { symmetry. unfold in_int. unfold client_id in Hid. apply andb_true_iff. split; apply Z.leb_le; cbn; lia. }
  rewrite N2Z.id. f_equal. f_equal.
  rewrite <- exec_to_value. reflexivity.
Qed.

Lemma prop_exec_ns ns m args l : exec_value ns m args = JObj l ->
  prop (js "namespace") l = Some (JStr (js ns)) /\ prop (js "method") l = Some (JStr (js m)) /\
  prop (js "args") l = Some (JArr (map (fun a => to_value float (stringify_elem a)) args)).
Proof. intros [= <-]. repeat split; reflexivity. Qed.

(** The value of a generated call names its item, if the arguments can be read. *)
Lemma exec_read (B : backend T) n k f i args c : distinct B -> has_item B n k f i ->
  bf_name f = unraw (variant_ident f) -> it_ident i = unraw (it_ident i) -> it_args i <> [] ->
  read_call dec unit_map B (exec_value (bf_name f) (it_ident i) args) = Some c <->
    c_field c = n /\ c_item c = k /\
    decoded dec (map snd (it_args i)) (map (fun a => to_value float (stringify_elem a)) args) (c_args c).
Proof.
  intros Hd [Hf Hk] Hns Hm Ha.
  rewrite (read_call_iff B _ _ Hd). unfold addressed.
  destruct (prop_exec_ns (bf_name f) (it_ident i) args _ eq_refl) as (P1 & P2 & P3).
  destruct Hd as [Hd Hdi]. split.
  - intros (l & f' & i' & a & El & [Hf' Hk'] & Q1 & Q2 & Q3 & Q4).
    injection El as <-. rewrite P1 in Q1. rewrite P2 in Q2. rewrite P3 in Q3. injection Q3 as <-.
    injection Q1 as Q1. apply js_inj in Q1. rewrite Hns in Q1.
    assert (En : c_field c = n).
    { rewrite (NoDup_nth_error (field_tags B)) in Hd. apply Hd.
      - unfold field_tags. rewrite map_length. apply nth_error_Some. congruence.
      - unfold field_tags. rewrite !nth_error_map, Hf, Hf'. cbn. congruence. }
    rewrite En in Hf'. rewrite Hf in Hf'. injection Hf' as <-.
    assert (Ek : c_item c = k).
    { destruct Q2 as [Q2|Q2]; [|discriminate]. injection Q2 as Q2. apply js_inj in Q2. rewrite Hm in Q2.
      assert (Hx : NoDup (item_tags (bf_items f))) by (apply Hdi; eapply nth_error_In; eassumption).
      rewrite (NoDup_nth_error (item_tags (bf_items f))) in Hx. apply Hx.
      - unfold item_tags. rewrite map_length. apply nth_error_Some. congruence.
      - unfold item_tags. rewrite !nth_error_map, Hk, Hk'. cbn. congruence. }
    rewrite Ek in Hk'. rewrite Hk in Hk'. injection Hk' as <-.
    split; [assumption|]. split; [assumption|].
    destruct (it_args i) as [|x ts]; [contradiction|]. cbn in Q4. destruct Q4 as (l & [= <-] & Q4). exact Q4.
  - intros (En & Ek & Hv). eexists _, f, i,
      (JArr (map (fun a => to_value float (stringify_elem a)) args)).
    split; [reflexivity|]. split; [rewrite En, Ek; split; assumption|].
    split; [rewrite P1, Hns; reflexivity|].
    split; [left; rewrite P2, <- Hm; reflexivity|].
    split; [exact P3|].
    destruct (it_args i) as [|x ts]; [contradiction|]. cbn. eexists. split; [reflexivity | exact Hv].
Qed.

(** The generated call reaches its item, and only with readable arguments. *)
Lemma round_trip (B : backend T) n k f i id args doc : distinct B -> has_item B n k f i ->
  bf_name f = unraw (variant_ident f) -> it_ident i = unraw (it_ident i) -> it_args i <> [] ->
  client_id id -> sent_doc id f i args doc -> fine doc ->
  exists v, from_str float seq_cancel doc = Some (WExec id v) /\
    forall c, read_call dec unit_map B v = Some c <->
      c_field c = n /\ c_item c = k /\
      decoded dec (map snd (it_args i)) (map (fun a => to_value float (stringify_elem a)) args) (c_args c).
Proof.
  intros Hd Hi Hns Hm Ha Hid Hs Hfine. unfold sent_doc in Hs.
  rewrite (client_doc _ _ _ _ Hid) in Hs. injection Hs as <-.
  exists (exec_value (bf_name f) (it_ident i) args). split; [now apply from_str_exec|].
  intros c. now apply exec_read.
Qed.

(** A method without arguments is never reached: what the client sends is refused. *)
Lemma exec_no_arguments (B : backend T) n k f i args : distinct B -> has_item B n k f i ->
  bf_name f = unraw (variant_ident f) -> it_ident i = unraw (it_ident i) -> it_args i = [] ->
  read_call dec unit_map B (exec_value (bf_name f) (it_ident i) args) = None.
Proof.
  intros Hd [Hf Hk] Hns Hm Ha.
  destruct (read_call dec unit_map B _) as [c|] eqn:Hc; [|reflexivity].
  apply (read_call_iff B _ _ Hd) in Hc as (l & f' & i' & a & El & [Hf' Hk'] & Q1 & Q2 & Q3 & Q4).
  destruct (prop_exec_ns (bf_name f) (it_ident i) args _ eq_refl) as (P1 & P2 & P3).
  injection El as <-. rewrite P1 in Q1. rewrite P2 in Q2. rewrite P3 in Q3. injection Q3 as <-.
  injection Q1 as Q1. apply js_inj in Q1. rewrite Hns in Q1.
  destruct Hd as [Hd Hdi].
  assert (En : c_field c = n).
  { rewrite (NoDup_nth_error (field_tags B)) in Hd. apply Hd.
    - unfold field_tags. rewrite map_length. apply nth_error_Some. congruence.
    - unfold field_tags. rewrite !nth_error_map, Hf, Hf'. cbn. congruence. }
  rewrite En in Hf'. rewrite Hf in Hf'. injection Hf' as <-.
  assert (Ek : c_item c = k).
  { destruct Q2 as [Q2|Q2]; [|discriminate]. injection Q2 as Q2. apply js_inj in Q2. rewrite Hm in Q2.
    assert (Hx : NoDup (item_tags (bf_items f))) by (apply Hdi; eapply nth_error_In; eassumption).
    rewrite (NoDup_nth_error (item_tags (bf_items f))) in Hx. apply Hx.
    - unfold item_tags. rewrite map_length. apply nth_error_Some. congruence.
    - unfold item_tags. rewrite !nth_error_map, Hk, Hk'. cbn. congruence. }
  rewrite Ek in Hk'. rewrite Hk in Hk'. injection Hk' as <-.
  rewrite Ha in Q4. cbn in Q4. destruct Q4 as [[Q|[_ Q]] _]; discriminate.
Qed.
Lemma no_arguments (B : backend T) n k f i id args doc : distinct B -> has_item B n k f i ->
  bf_name f = unraw (variant_ident f) -> it_ident i = unraw (it_ident i) -> it_args i = [] ->
  client_id id -> sent_doc id f i args doc -> fine doc ->
  exists v, from_str float seq_cancel doc = Some (WExec id v) /\ read_call dec unit_map B v = None.
Proof.
  intros Hd Hi Hns Hm Ha Hid Hs Hfine. unfold sent_doc in Hs.
  rewrite (client_doc _ _ _ _ Hid) in Hs. injection Hs as <-.
  exists (exec_value (bf_name f) (it_ident i) args). split; [now apply from_str_exec | now apply (exec_no_arguments B n k)].
Qed.

(** A namespace whose name is not that of a variant is never reached. *)
Lemma exec_unknown_name (B : backend T) ns m args : ~ In ns (field_tags B) -> read_call dec unit_map B (exec_value ns m args) = None.
Proof.
  intros Hn. destruct (prop_exec_ns ns m args _ eq_refl) as (P1 & _ & _).
  unfold read_call, exec_value in *. rewrite P1. rewrite index_of_none; [reflexivity|].
  intros x Hx Hj. apply js_inj in Hj as ->. contradiction.
Qed.
Lemma unknown_name (B : backend T) (f : bfield T) (i : item T) id args doc :
  ~ In (bf_name f) (field_tags B) ->
  client_id id -> sent_doc id f i args doc -> fine doc ->
  exists v, from_str float seq_cancel doc = Some (WExec id v) /\ read_call dec unit_map B v = None.
Proof.
  intros Hn Hid Hs Hfine. unfold sent_doc in Hs.
  rewrite (client_doc _ _ _ _ Hid) in Hs. injection Hs as <-.
  exists (exec_value (bf_name f) (it_ident i) args). split; [now apply from_str_exec | now apply exec_unknown_name].
Qed.

(** The name of another variant: the other namespace is reached. *)
Lemma other_name (B : backend T) n k (f : bfield T) (i : item T) f' i' id args doc c : distinct B -> has_item B n k f' i' ->
  bf_name f = unraw (variant_ident f') -> it_ident i = unraw (it_ident i') ->
  client_id id -> sent_doc id f i args doc -> fine doc -> it_args i' <> [] ->
  decoded dec (map snd (it_args i')) (map (fun a => to_value float (stringify_elem a)) args) (c_args c) ->
  c_field c = n -> c_item c = k ->
  exists v, from_str float seq_cancel doc = Some (WExec id v) /\ read_call dec unit_map B v = Some c.
Proof.
  intros Hd Hh Hns Hm Hid Hs Hfine Ha Hv En Ek. unfold sent_doc in Hs.
  rewrite (client_doc _ _ _ _ Hid) in Hs. injection Hs as <-.
  exists (exec_value (bf_name f) (it_ident i) args). split; [now apply from_str_exec|].
  apply (read_call_iff B _ _ Hd).
  destruct (prop_exec_ns (bf_name f) (it_ident i) args _ eq_refl) as (P1 & P2 & P3).
  eexists _, f', i',
      (JArr (map (fun a => to_value float (stringify_elem a)) args)).
  split; [reflexivity|]. split; [rewrite En, Ek; assumption|].
  split; [rewrite P1, Hns; reflexivity|].
  split; [left; rewrite P2, Hm; reflexivity|].
  split; [exact P3|].
  destruct (it_args i') as [|x ts]; [contradiction|]. cbn. eexists. split; [reflexivity | exact Hv].
Qed.

(** Requests. *)
Lemma not_there (k : jstr) (l : list (jstr * json)) : ~ In k (map fst l) -> filter (fun p => jeqb k (fst p)) l = [] /\ without k l = l.
Proof.
  induction l as [|[k' j'] l IH]; cbn; intros H; [auto|]. destruct (jeqb k k') eqn:E; [apply jeqb_eq in E; subst; tauto|].
  destruct IH as [I1 I2]; [tauto|]. split; [exact I1|]. unfold without in *. cbn. rewrite ?E. cbn. now rewrite I2.
Qed.
Lemma once_gives k j l rest : once k j l rest -> the_field k l = Some j /\ without k l = rest.
Proof.
  intros (l1 & l2 & -> & -> & H). rewrite map_app, in_app_iff in H. destruct (not_there k l1) as [N1 M1]; [tauto|]. destruct (not_there k l2) as [N2 M2]; [tauto|].
  split; [unfold the_field; rewrite filter_app; cbn; rewrite jeqb_refl; now rewrite N1, N2|].
  unfold without in *. rewrite filter_app. cbn. rewrite jeqb_refl. cbn. now rewrite M1, M2.
Qed.
Lemma once_field k j l : the_field k l = Some j -> exists rest, once k j l rest.
Proof.
  unfold the_field. intros H. enough (G : exists l1 l2, l = l1 ++ (k, j) :: l2 /\ ~ In k (map fst (l1 ++ l2))).
  { destruct G as (l1 & l2 & -> & G). now exists (l1 ++ l2), l1, l2. }
  induction l as [|[k' j'] l IH]; [discriminate|]. cbn in H. destruct (jeqb k k') eqn:E.
  - apply jeqb_eq in E. subst k'. destruct (filter _ l) eqn:Ef; [|discriminate]. injection H as ->. exists [], l. split; [reflexivity|]. cbn. intros I. apply in_map_iff in I as ([k' x] & Ek & I). cbn in Ek. subst k'.
    assert (I' : In (k, x) (filter (fun p : jstr * json => jeqb k (fst p)) l)) by (apply filter_In; split; [exact I|apply jeqb_refl]). rewrite Ef in I'. exact I'.
  - destruct (IH H) as (l1 & l2 & -> & I). exists ((k', j') :: l1), l2. split; [reflexivity|]. cbn. intros [->|I']; [now rewrite jeqb_refl in E|tauto].
Qed.
Lemma read_id_iff j id : read_id j = Some id <-> j = JInt (Z.of_N id) /\ (id < 2 ^ 64)%N.
Proof.
  unfold read_id. destruct j as [| |z| | | |]; try (split; [discriminate|intros [H _]; discriminate H]). unfold in_int. cbn [int_min int_max]. split.
  - destruct (Z.leb 0 z && _)%bool eqn:E; [|discriminate]. apply andb_prop in E as [E1 E2]. apply Z.leb_le in E1, E2. intros [= <-]. split; [f_equal; lia|lia].
  - intros [[= ->] H]. replace (Z.leb 0 (Z.of_N id) && _)%bool with true by (symmetry; apply andb_true_iff; split; apply Z.leb_le; lia). f_equal. lia.
Qed.
Theorem requests_read doc r : from_str float seq_cancel doc = Some r <-> fine doc /\ asks float seq_cancel doc r.
Proof.
  assert (A : read_request float seq_cancel doc = Some r <-> asks float seq_cancel doc r).
  { unfold read_request. split.
    - destruct doc as [| | | | | |[|[k c] [|]]]; try discriminate. destruct (jeqb k (js "exec")) eqn:E.
      + apply jeqb_eq in E. subst k. destruct c as [| | | | | |l]; try discriminate. destruct (the_field (js "id") l) as [i|] eqn:Ei; [|discriminate].
        apply once_field in Ei as (rest & Ho). rewrite ?(proj2 (once_gives _ _ _ _ Ho)). destruct (read_id i) as [n|] eqn:En; [|discriminate]. apply read_id_iff in En as [-> Hn]. intros [= <-]. now apply (asks_exec float seq_cancel l).
      + clear E. destruct (jeqb k (js "cancelStream")) eqn:E; [|discriminate]. apply jeqb_eq in E. subst k. destruct c as [| | | | |l|l]; try discriminate.
        * destruct l as [|i [|]]; try discriminate. destruct seq_cancel eqn:Sc; [|discriminate]. destruct (read_id i) as [n|] eqn:En; [|discriminate]. apply read_id_iff in En as [-> Hn]. intros [= <-]. now apply asks_list.
        * destruct (the_field (js "id") l) as [i|] eqn:Ei; [|discriminate].
          apply once_field in Ei as (rest & Ho). rewrite ?(proj2 (once_gives _ _ _ _ Ho)). destruct (read_id i) as [n|] eqn:En; [|discriminate]. apply read_id_iff in En as [-> Hn]. intros [= <-]. now apply (asks_cancel float seq_cancel l rest).
    - intros [l rest id Ho Hn|l rest id Ho Hn|id Sc Hn].
      + rewrite jeqb_refl. assert (E : the_field (js "id") l = Some (JInt (Z.of_N id)) /\ without (js "id") l = rest) by exact (once_gives _ _ _ _ Ho). destruct E as [-> ->].
        rewrite (proj2 (read_id_iff _ id) (conj eq_refl Hn)). reflexivity.
      + cbn [jeqb]. assert (E : the_field (js "id") l = Some (JInt (Z.of_N id)) /\ without (js "id") l = rest) by exact (once_gives _ _ _ _ Ho). destruct E as [-> _].
        rewrite (proj2 (read_id_iff _ id) (conj eq_refl Hn)). reflexivity.
      + rewrite Sc. rewrite (proj2 (read_id_iff _ id) (conj eq_refl Hn)). reflexivity. }
  unfold from_str, fine. rewrite <- A. destruct (readable doc) eqn:R; cbn [andb]; [|split; [discriminate|intros [[H _] _]; discriminate H]].
  destruct (Nat.leb_spec (jdepth doc) max_depth) as [L|L]; [tauto|]. split; [discriminate|]. intros [[_ H] _]. exfalso. exact (PeanoNat.Nat.lt_irrefl _ (PeanoNat.Nat.lt_le_trans _ _ _ L H)).
Qed.

(** Namespaces called by their own names. *)
Lemma unraw_plain s : (forall x, s <> String.append "r#" x) -> unraw s = s.
Proof.
  intros C. unfold unraw. destruct s as [|[[] [] [] [] [] [] [] []] s]; try reflexivity. destruct s as [|[[] [] [] [] [] [] [] []] s]; try reflexivity. now destruct (C s).
Qed.
Theorem own_name (B : backend T) n k f i id args doc : distinct B -> has_item B n k f i ->
  bf_given f = None -> variant_ident f = bf_ident f -> (forall r, bf_ident f <> String.append "r#" r) -> (forall r, it_ident i <> String.append "r#" r) -> it_args i <> [] ->
  client_id id -> stringify (execute id (bf_ident f) (it_ident i) args) = Some doc -> fine doc ->
  sent_doc id f i args doc /\
  exists v, from_str float seq_cancel doc = Some (WExec id v) /\
    forall c, read_call dec unit_map B v = Some c <->
      c_field c = n /\ c_item c = k /\
      decoded dec (map snd (it_args i)) (map (fun a => to_value float (stringify_elem a)) args) (c_args c).
Proof.
  intros Hd Hi G Hv Hu Hm Ha Hc Es Hf. apply unraw_plain in Hu, Hm.
  assert (Hn : bf_name f = bf_ident f) by (unfold bf_name; now rewrite G).
  assert (Es' : sent_doc id f i args doc) by (unfold sent_doc; now rewrite Hn).
  split; [exact Es'|]. apply (round_trip B n k f i id args doc Hd Hi); auto. rewrite Hn, Hv. now symmetry.
Qed.
(** Raw identifiers. *)
Theorem raw_name (B : backend T) (f : bfield T) (i : item T) r id args doc :
  it_ident i = String.append "r#" r -> (forall f' i', In f' B -> In i' (bf_items f') -> forall r', it_ident i' <> String.append "r#r#" r') ->
  client_id id -> sent_doc id f i args doc -> fine doc ->
  exists v, from_str float seq_cancel doc = Some (WExec id v) /\ forall c, distinct B -> read_call dec unit_map B v <> Some c.
Proof.
  intros Ei Hr Hid Hs Hfine. unfold sent_doc in Hs. rewrite (client_doc _ _ _ _ Hid) in Hs. injection Hs as <-.
  exists (exec_value (bf_name f) (it_ident i) args). split; [now apply from_str_exec|].
  intros c Hd E. apply (read_call_iff B _ _ Hd) in E as (l & f' & i' & a & El & [Hf' Hk'] & _ & Q2 & _).
  injection El as <-. destruct (prop_exec_ns (bf_name f) (it_ident i) args _ eq_refl) as (_ & P2 & _). rewrite P2 in Q2.
  destruct Q2 as [Q2|Q2]; [|discriminate]. injection Q2 as Q2. apply js_inj in Q2. rewrite Ei in Q2.
  specialize (Hr f' i' (nth_error_In _ _ Hf') (nth_error_In _ _ Hk')). clear - Q2 Hr. set (s := it_ident i') in *. clearbody s.
  assert (C : forall x, s <> String.append "r#" x).
  { intros x ->. cbn in Q2. subst x. now apply (Hr r). }
  rewrite (unraw_plain s C) in Q2. symmetry in Q2. now apply C in Q2.
Qed.
Theorem given_name (B : backend T) (f : bfield T) (i : item T) name id args doc :
  bf_given f = Some name -> ~ In name (field_tags B) ->
  client_id id -> stringify (execute id name (it_ident i) args) = Some doc -> fine doc ->
  sent_doc id f i args doc /\ exists v, from_str float seq_cancel doc = Some (WExec id v) /\ read_call dec unit_map B v = None.
Proof.
  intros G Hn Hc Es Hf. assert (Hm : bf_name f = name) by (unfold bf_name; now rewrite G).
  assert (Es' : sent_doc id f i args doc) by (unfold sent_doc; now rewrite Hm).
  split; [exact Es'|]. apply (unknown_name B f i id args doc); auto. now rewrite Hm.
Qed.
End WireProofs.

(** ** Dispatch in the server *)
Section Dispatch.
Context {T V F : Type} (dec : T -> json -> option V) (unit_map : bool).
Context (B : backend T) (H : handlers V F) (complain : json -> jstr).
Local Notation A := (rpc_app dec unit_map B H complain).

Lemma refused (s : state A) c id v : distinct B -> at_exec s c id v ->
  (forall x, ~ addressed dec unit_map B v x) -> rx_alive s c = true ->
  no_other_change s (next s EvRecv) /\
  received (next s EvRecv) c = received s c ++ [(SrcLoop, RError (A := A) (Some id) (complain v))] /\
  forall c', c' <> c -> received (next s EvRecv) c' = received s c'.
Proof.
  intros Hd [Hl [q Hq]] Hn Hr.
  assert (E : next s EvRecv = push (with_queue q s) c SrcLoop (RError (A := A) (Some id) (complain v))).
  { unfold next, step. rewrite Hl, Hq. cbn [fst handle from_value rpc_app].
    destruct (read_call dec unit_map B v) as [x|] eqn:Hx; [|reflexivity].
    apply (read_call_iff dec unit_map B v x Hd) in Hx. destruct (Hn x Hx). }
  rewrite E. split; [repeat split; reflexivity|]. split.
  - rewrite received_push. rewrite PeanoNat.Nat.eqb_refl.
    change (rx_alive (with_queue q s) c) with (rx_alive s c). rewrite Hr. reflexivity.
  - intros c' Hc. rewrite received_push.
    destruct (Nat.eqb c c') eqn:Ec; [apply PeanoNat.Nat.eqb_eq in Ec; congruence | apply app_nil_r].
Qed.

Lemma method_started (s : state A) c id v x f i : distinct B -> at_exec s c id v ->
  addressed dec unit_map B v x -> has_item B (c_field x) (c_item x) f i -> it_kind i = Method ->
  next s EvRecv = with_loop (LBusy (A := A) c id x) (with_queue (List.tl (st_queue s)) s).
Proof.
  intros Hd [Hl [q Hq]] Ha [Hf Hi] Hk.
  assert (Hs : is_stream A x = false) by (cbn; unfold item_at; rewrite Hf, Hi, Hk; reflexivity).
  unfold next, step. rewrite Hl, Hq. unfold handle, fst.
  apply (read_call_iff dec unit_map B v x Hd) in Ha.
  replace (from_value A v) with (inl (B := jstr) x) by (cbn; rewrite Ha; reflexivity).
  rewrite Hs. reflexivity.
Qed.

Lemma only_field_upd {X} n (x x' : X) st : nth_error st n = Some x ->
  only_field n x x' st (upd n (fun _ => x') st).
Proof.
  intros Hx. split; [assumption|]. split; [|split; [apply upd_length|]].
  - rewrite nth_upd_same, Hx. reflexivity.
  - intros m Hm. now apply nth_upd_other; auto.
Qed.

Lemma method_returned (s : state A) c id (x : call V) a a' r : st_loop s = LBusy (A := A) c id x ->
  rx_alive s c = true -> nth_error (st_app s) (c_field x) = Some a ->
  h_method H (c_field x) (c_item x) a (c_args x) = Some (a', r) ->
  let s' := next s EvMethodDone in
  only_field (c_field x) a a' (st_app s) (st_app s') /\ st_loop s' = LIdle /\
  received s' c = received s c ++ [(SrcLoop, match r with inl d => RMethod (A := A) id d | inr e => RError (A := A) (Some id) e end)] /\
  (forall c', c' <> c -> received s' c' = received s c') /\
  st_tasks s' = st_tasks s /\ st_subs s' = st_subs s /\ st_queue s' = st_queue s.
Proof.
  intros Hl Hr Ha Hm s'.
  assert (E : s' = with_loop LIdle (with_app (A := A) (upd (c_field x) (fun _ => a') (st_app s))
                   (push s c SrcLoop (Response_method (A := A) id r)))).
  { unfold s', next, step. rewrite Hl. unfold fst, method_done.
    replace (run_method A (st_app s) x) with (Some (upd (c_field x) (fun _ => a') (st_app s), r))
      by (cbn; rewrite Ha, Hm; reflexivity).
    rewrite Hr. reflexivity. }
  rewrite E. split; [now apply only_field_upd|]. split; [reflexivity|].
  split; [|split; [|repeat split; reflexivity]].
  - change (received (with_loop LIdle (with_app (A := A) (upd (c_field x) (fun _ => a') (st_app s))
              (push s c SrcLoop (Response_method (A := A) id r)))) c)
      with (received (push s c SrcLoop (Response_method (A := A) id r)) c).
    rewrite received_push, PeanoNat.Nat.eqb_refl, Hr. destruct r; reflexivity.
  - intros c' Hc.
    change (received (with_loop LIdle (with_app (A := A) (upd (c_field x) (fun _ => a') (st_app s))
              (push s c SrcLoop (Response_method (A := A) id r)))) c')
      with (received (push s c SrcLoop (Response_method (A := A) id r)) c').
    rewrite received_push. destruct (Nat.eqb c c') eqn:Ec; [apply PeanoNat.Nat.eqb_eq in Ec; congruence | apply app_nil_r].
Qed.

Lemma stream_started (s : state A) c id v x f i a a' : distinct B -> at_exec s c id v ->
  addressed dec unit_map B v x -> has_item B (c_field x) (c_item x) f i -> it_kind i = Stream ->
  nth_error (st_app s) (c_field x) = Some a ->
  h_stream H (c_field x) (c_item x) a (c_args x) = Some a' ->
  let s' := next s EvRecv in
  only_field (c_field x) a a' (st_app s) (st_app s') /\ st_loop s' = LIdle /\
  st_tasks s' = st_tasks s ++ [mkTask (A := A) c id TIdle []] /\
  forall c', received s' c' = received s c'.
Proof.
  intros Hd [Hl [q Hq]] Hx [Hf Hi] Hk Ha Hm s'.
  assert (E : s' = spawn c id (with_app (A := A) (upd (c_field x) (fun _ => a') (st_app s)) (with_queue q s))).
  { assert (Hs : is_stream A x = true) by (cbn; unfold item_at; rewrite Hf, Hi, Hk; reflexivity).
    unfold s', next, step. rewrite Hl, Hq. unfold handle, fst.
    apply (read_call_iff dec unit_map B v x Hd) in Hx.
    replace (from_value A v) with (inl (B := jstr) x) by (cbn; rewrite Hx; reflexivity).
    rewrite Hs.
    replace (open_stream A (st_app (with_queue q s)) x) with (Some (upd (c_field x) (fun _ => a') (st_app s)))
      by (cbn; rewrite Ha, Hm; reflexivity).
    reflexivity. }
  rewrite E. split; [now apply only_field_upd|]. split; [exact Hl|]. split; reflexivity.
Qed.
End Dispatch.

(** ** Responses *)
Lemma round53_small z : (z <= 2 ^ 53)%Z -> round53 z = z.
Proof.
  intros Hz. unfold round53. destruct (Z.ltb_spec z (2 ^ 53)); [reflexivity|].
  assert (z = 2 ^ 53)%Z as -> by lia. reflexivity.
Qed.

Lemma round_id id : client_id id -> round_int (Z.of_N id) = Z.of_N id.
Proof.
  unfold client_id, round_int. intros H. destruct (Z.leb_spec 0 (Z.of_N id)); [|lia].
  apply round53_small. lia.
Qed.

Lemma method_understood id d : client_id id ->
  on_message (jsparse (write_response (WMethod id d))) = Some (js_id id, jsparse d).
Proof.
  intros Hid. cbn [write_response obj1 id_data jsparse map fst snd]. rewrite (round_id id Hid). reflexivity.
Qed.

Lemma stream_understood id d : client_id id ->
  on_message (jsparse (write_response (WStream id d))) = Some (js_id id, jsparse d).
Proof.
  intros Hid. cbn [write_response obj1 id_data jsparse map fst snd]. rewrite (round_id id Hid). reflexivity.
Qed.

Lemma error_ignored id m : on_message (jsparse (write_response (WError id m))) = None.
Proof. reflexivity. Qed.

Lemma write_response_inj r r' : write_response r = write_response r' -> r = r'.
Proof.
  destruct r as [i d|i d|i m], r' as [i' d'|i' d'|i' m']; cbn [write_response obj1 id_data]; intros Heq; try discriminate Heq.
  - injection Heq as H1 H2. f_equal; [lia | assumption].
  - injection Heq as H1 H2. f_equal; [lia | assumption].
  - destruct i as [i|], i' as [i'|]; try discriminate Heq.
    + injection Heq as H1 H2. f_equal; [f_equal; lia | assumption].
    + injection Heq as H2. now f_equal.
Qed.
