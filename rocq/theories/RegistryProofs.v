(** The registry and the generated module (proofs). *)
From Coq Require Import List String Ascii Bool NArith Sorted Lia Arith.
From Verif Require Import RustTy Gen GenSpec GenProofs JsLex Registry RegistrySpec.
Import ListNotations.
Local Open Scope string_scope.
Local Open Scope list_scope.

Lemma Forall2_weaken {X Y} (R S : X -> Y -> Prop) : (forall x y, R x y -> S x y) ->
  forall l r, Forall2 R l r -> Forall2 S l r.
Proof. intros H l r. induction 1; constructor; auto. Qed.

(** ** The order *)
Lemma compare_refl s : String.compare s s = Eq.
Proof. induction s as [|c s IH]; cbn; [reflexivity|]. unfold Ascii.compare. now rewrite N.compare_refl. Qed.

Lemma compare_before a : forall b, String.compare a b = Lt <-> before a b.
Proof.
  induction a as [|c a IH]; intros [|d b]; cbn.
  - split; [discriminate|]. inversion 1.
  - split; [constructor|reflexivity].
  - split; [discriminate|]. inversion 1.
  - destruct (Ascii.compare c d) eqn:Hc.
    + apply Ascii.compare_eq_iff in Hc. subst d. rewrite IH. split; [now constructor|]. inversion 1; subst; [lia|assumption].
    + split; [|reflexivity]. intros _. constructor. unfold code. unfold Ascii.compare in Hc. now apply N.compare_lt_iff.
    + split; [discriminate|]. intros H. exfalso. unfold Ascii.compare in Hc. apply N.compare_gt_iff in Hc.
      inversion H; subst; unfold code in *; lia.
Qed.

Lemma compare_gt a b : String.compare a b = Gt <-> before b a.
Proof.
  rewrite <- compare_before. rewrite String.compare_antisym. destruct (String.compare b a); cbn; split; congruence.
Qed.
Lemma compare_eq a b : String.compare a b = Eq <-> a = b.
Proof. split; [apply String.compare_eq_iff|intros ->; apply compare_refl]. Qed.

Lemma before_trans a b c : before a b -> before b c -> before a c.
Proof.
  intros H. revert c. induction H as [x s|x y s t H|x s t H IH]; intros c Hc; inversion Hc; subst; constructor; auto; lia.
Qed.
Lemma before_irrefl a : ~ before a a.
Proof. rewrite <- compare_before, compare_refl. discriminate. Qed.

(** ** Sorted maps *)
Definition keys {V} (m : list (string * V)) : list string := map fst m.

Lemma entry_keys {V} (d : V) k f m x : In x (keys (entry d k f m)) <-> x = k \/ In x (keys m).
Proof.
  induction m as [|[k' v] m IH]; cbn; [intuition|]. destruct (String.compare k k') eqn:Hc; cbn.
  - apply compare_eq in Hc. subst. intuition.
  - intuition.
  - rewrite IH. intuition.
Qed.

Lemma entry_sorted {V} (d : V) k f m : ascending (keys m) -> ascending (keys (entry d k f m)).
Proof.
  unfold ascending. induction m as [|[k' v] m IH]; cbn; intros H.
  - constructor; constructor.
  - inversion H as [|? ? Hs Hf]; subst. destruct (String.compare k k') eqn:Hc; cbn.
    + constructor; auto.
    + apply compare_before in Hc. constructor; [exact H|]. constructor; [exact Hc|].
      eapply Forall_impl; [|exact Hf]. intros a Ha. eapply before_trans; eauto.
    + apply compare_gt in Hc. constructor; [now apply IH|]. apply Forall_forall. intros x Hx.
      apply entry_keys in Hx as [->|Hx]; [exact Hc|]. rewrite Forall_forall in Hf. now apply Hf.
Qed.

Lemma get_none {V} k (m : list (string * V)) : ~ In k (keys m) -> get k m = None.
Proof.
  induction m as [|[k' v] m IH]; cbn; [reflexivity|]. intros H. destruct (String.eqb_spec k' k) as [->|]; [intuition|]. apply IH. intuition.
Qed.
Lemma get_some_in {V} k (v : V) m : get k m = Some v -> In (k, v) m.
Proof.
  induction m as [|[k' w] m IH]; cbn; [discriminate|]. destruct (String.eqb_spec k' k) as [->|]; [intros [= ->]; now left|]. auto.
Qed.
Lemma sorted_fresh k l : ascending (k :: l) -> ~ In k l.
Proof.
  intros H Hi. inversion H as [|? ? Hs Hf]; subst. rewrite Forall_forall in Hf. now apply (before_irrefl k), Hf.
Qed.
Lemma get_in {V} k (v : V) m : ascending (keys m) -> In (k, v) m -> get k m = Some v.
Proof.
  induction m as [|[k' w] m IH]; cbn; intros Hs; [easy|]. intros [[= -> ->]|Hi].
  - now rewrite String.eqb_refl.
  - destruct (String.eqb_spec k' k) as [->|].
    + destruct (sorted_fresh _ _ Hs). apply (in_map fst) in Hi. exact Hi.
    + apply IH; [now inversion Hs|exact Hi].
Qed.

Lemma get_entry {V} (d : V) k f m k' : ascending (keys m) ->
  get k' (entry d k f m) = if String.eqb k k' then Some (f match get k m with Some v => v | None => d end) else get k' m.
Proof.
  induction m as [|[j v] m IH]; cbn; intros Hs.
  - now destruct (String.eqb k k').
  - destruct (String.compare k j) eqn:Hc; cbn.
    + apply compare_eq in Hc. subst j. rewrite String.eqb_refl. now destruct (String.eqb k k').
    + assert (String.eqb j k = false) as ->.
      { apply String.eqb_neq. intros ->. rewrite compare_refl in Hc. discriminate. }
      rewrite (get_none k m); [reflexivity|]. apply compare_before in Hc. intros Hi.
      inversion Hs as [|? ? _ Hf]; subst. rewrite Forall_forall in Hf. specialize (Hf k Hi).
      apply (before_irrefl k). eapply before_trans; eauto.
    + rewrite IH by (now inversion Hs). apply compare_gt in Hc.
      assert (String.eqb j k = false) as ->.
      { apply String.eqb_neq. intros ->. now apply before_irrefl in Hc. }
      destruct (String.eqb_spec j k') as [->|Hj]; [|reflexivity].
      assert (String.eqb k k' = false) as ->; [|reflexivity].
      apply String.eqb_neq. intros ->. now apply before_irrefl in Hc.
Qed.

Section Fold.
Context {X V : Type} (d : V) (key : X -> string) (f : X -> V -> V).

Lemma fold_sorted l : forall m, ascending (keys m) -> ascending (keys (fold_left (fun o x => entry d (key x) (f x) o) l m)).
Proof. induction l as [|x l IH]; intros m H; [exact H|]. apply IH. now apply entry_sorted. Qed.

Lemma fold_get l k : forall m, ascending (keys m) ->
  get k (fold_left (fun o x => entry d (key x) (f x) o) l m) =
  match filter (fun x => String.eqb (key x) k) l with
  | [] => get k m
  | xs => Some (fold_left (fun v x => f x v) xs match get k m with Some v => v | None => d end)
  end.
Proof.
  induction l as [|x l IH]; intros m H; [reflexivity|]. cbn [fold_left filter].
  rewrite IH by (now apply entry_sorted). rewrite get_entry by exact H.
  destruct (String.eqb_spec (key x) k) as [->|Hx]; [|reflexivity].
  destruct (filter (fun x => String.eqb (key x) k) l); reflexivity.
Qed.
End Fold.

(** Sorted maps with the same lookups are equal. *)
Lemma sorted_ext {V} (m : list (string * V)) : forall m', ascending (keys m) -> ascending (keys m') ->
  (forall k, get k m = get k m') -> m = m'.
Proof.
  induction m as [|[k v] m IH]; intros [|[k' v'] m'] Hs Hs' He.
  - reflexivity.
  - specialize (He k'). cbn in He. rewrite String.eqb_refl in He. discriminate.
  - specialize (He k). cbn in He. rewrite String.eqb_refl in He. discriminate.
  - assert (k = k') as <-.
    { pose proof (He k) as H1. pose proof (He k') as H2. cbn in H1, H2. rewrite String.eqb_refl in H1, H2.
      destruct (String.eqb_spec k' k) as [E|N]; [now symmetry|].
      destruct (String.eqb_spec k k') as [E|_]; [exact E|]. exfalso.
      symmetry in H1. apply get_some_in, (in_map fst) in H1. apply get_some_in, (in_map fst) in H2.
      inversion Hs as [|? ? _ Hf]; subst. inversion Hs' as [|? ? _ Hf']; subst.
      rewrite Forall_forall in Hf, Hf'. apply (before_irrefl k).
      apply before_trans with k'; [now apply Hf|now apply Hf']. }
    assert (v = v') as <-.
    { pose proof (He k) as H1. cbn in H1. rewrite String.eqb_refl in H1. congruence. }
    f_equal. apply IH; [now inversion Hs|now inversion Hs'|]. intros x. specialize (He x). cbn in He.
    destruct (String.eqb k x) eqn:Hk; [|exact He]. apply String.eqb_eq in Hk. subst x.
    rewrite !get_none; [reflexivity| |]; eapply sorted_fresh; eauto.
Qed.

(** ** Members *)
Lemma types_filter E ns l : types_of E ns l = filter (fun i => String.eqb (t_ns E i) ns) l.
Proof.
  induction l as [|i l IH]; cbn; [reflexivity|]. rewrite IH. unfold t_ns.
  destruct (string_dec _ _) as [->|H]; [now rewrite String.eqb_refl|]. now rewrite (proj2 (String.eqb_neq _ _) H).
Qed.
Lemma rpcs_filter ns l : rpcs_of ns l = filter (fun m => String.eqb (r_ns m) ns) l.
Proof.
  induction l as [|i l IH]; cbn; [reflexivity|]. rewrite IH.
  destruct (string_dec _ _) as [->|H]; [now rewrite String.eqb_refl|]. now rewrite (proj2 (String.eqb_neq _ _) H).
Qed.

Lemma has_member_iff E inv ns : has_member E inv ns <-> types_of E ns (i_types inv) <> [] \/ rpcs_of ns (i_rpcs inv) <> [].
Proof.
  unfold has_member. rewrite types_filter, rpcs_filter.
  assert (H : forall X (f : X -> string) l, (exists x, In x l /\ f x = ns) <-> filter (fun x => String.eqb (f x) ns) l <> []).
  { intros X f l. split.
    - intros (x & Hx & Hf) Hn. assert (Hi : In x (filter (fun x => String.eqb (f x) ns) l)).
      { apply filter_In. split; [exact Hx|]. now apply String.eqb_eq. }
      rewrite Hn in Hi. destruct Hi.
    - destruct (filter _ l) as [|x r] eqn:Hf; [easy|]. intros _. assert (Hi : In x (filter (fun x => String.eqb (f x) ns) l)) by (rewrite Hf; now left).
      apply filter_In in Hi as [Hi He]. apply String.eqb_eq in He. eauto. }
  now rewrite <- (H nat (t_ns E)), <- (H rpc r_ns).
Qed.

Lemma listed_in names n : listed names n = true <-> In n names.
Proof.
  unfold listed. rewrite existsb_exists. split.
  - intros (x & Hx & He). apply String.eqb_eq in He. now subst.
  - intros H. exists n. split; [exact H|]. apply String.eqb_refl.
Qed.

Lemma fold_push {X} l : forall acc : list X, fold_left (fun v x => push x v) l acc = acc ++ l.
Proof.
  induction l as [|x l IH]; intros acc; cbn; [now rewrite app_nil_r|]. rewrite IH. unfold push. now rewrite <- app_assoc.
Qed.

(** ** Registry queries *)
Lemma filter_filter {X} (p q : X -> bool) l : filter p (filter q l) = filter (fun x => q x && p x) l.
Proof. induction l as [|x l IH]; cbn; [reflexivity|]. destruct (q x) eqn:Hq; cbn; [|exact IH]. destruct (p x); cbn; now rewrite IH. Qed.

Definition nonempty {X} (l : list X) : option (list X) := match l with [] => None | _ => Some l end.

Lemma group_get {X} (key : X -> string) l k :
  get k (fold_left (fun o x => entry [] (key x) (push x) o) l []) = nonempty (filter (fun x => String.eqb (key x) k) l).
Proof.
  rewrite (fold_get [] key (fun x => push x)) by constructor. destruct (filter _ l); [reflexivity|].
  rewrite fold_push. reflexivity.
Qed.

Theorem members_spec E inv ns : members E inv ns = types_of E ns (i_types inv) /\ ns_rpc_members inv ns = rpcs_of ns (i_rpcs inv).
Proof. split; [symmetry; apply types_filter|symmetry; apply rpcs_filter]. Qed.

Theorem collect_spec E inv : ascending (map fst (collect E inv)) /\
  forall ns l, In (ns, l) (collect E inv) <-> l = types_of E ns (i_types inv) /\ l <> [].
Proof.
  assert (Hs : ascending (keys (collect E inv))) by (apply fold_sorted; constructor).
  split; [exact Hs|]. intros ns l. rewrite types_filter. split.
  - intros H. apply (get_in _ _ _ Hs) in H. unfold collect in H. rewrite (group_get (t_ns E)) in H.
    destruct (filter _ (i_types inv)); [discriminate|]. injection H as <-. split; [reflexivity|discriminate].
  - intros [-> Hne]. apply get_some_in. unfold collect. rewrite (group_get (t_ns E)). destruct (filter _ (i_types inv)); [easy|reflexivity].
Qed.

Lemma filter_listed {X} (key : X -> string) names l k :
  filter (fun x => String.eqb (key x) k) (filter (fun x => listed names (key x)) l) =
  if listed names k then filter (fun x => String.eqb (key x) k) l else [].
Proof.
  rewrite filter_filter. induction l as [|x l IH]; cbn; [now destruct (listed names k)|].
  rewrite IH. destruct (String.eqb_spec (key x) k) as [->|]; [|now rewrite andb_false_r].
  destruct (listed names k); reflexivity.
Qed.

Theorem zod_namespaces_spec E inv names ns :
  (In ns names -> get ns (zod_namespaces E inv names) = nonempty (types_of E ns (i_types inv))) /\
  (~ In ns names -> get ns (zod_namespaces E inv names) = None).
Proof.
  unfold zod_namespaces. rewrite (group_get (t_ns E)), filter_listed, types_filter, <- listed_in.
  destruct (listed names ns); split; intros H; reflexivity || congruence.
Qed.

Lemma each_forall2 {X Y} (f : X -> option Y) l ys : each f l = Some ys <-> Forall2 (fun x y => f x = Some y) l ys.
Proof.
  revert ys. induction l as [|x l IH]; intros ys; cbn.
  - split; [intros [= <-]; constructor|]. inversion 1. reflexivity.
  - destruct (f x) as [y|] eqn:Hf.
    + destruct (each f l) as [r|].
      * split; [intros [= <-]; constructor; [exact Hf|now apply IH]|].
        inversion 1 as [|a b c d0 H1 H2]; subst. apply IH in H2. congruence.
      * split; [discriminate|]. inversion 1 as [|a b c d0 H1 H2]; subst. apply IH in H2. discriminate.
    + split; [discriminate|]. inversion 1. congruence.
Qed.

Lemma filter_combine {X Y} (p : X -> bool) l : forall ys : list Y, List.length ys = List.length l ->
  exists r, filter (fun z => p (fst z)) (combine l ys) = r /\ map fst r = filter p l.
Proof.
  induction l as [|x l IH]; intros [|y ys] H; try discriminate; cbn; [eauto|].
  destruct (IH ys) as (r & -> & Hr); [now injection H|]. destruct (p x); [|eauto]. eexists. split; [reflexivity|]. cbn. now rewrite Hr.
Qed.

Lemma forall2_filter {X Y} (R : X -> Y -> Prop) p l ys : Forall2 R l ys ->
  Forall2 R (filter p l) (map snd (filter (fun z => p (fst z)) (combine l ys))).
Proof.
  induction 1 as [|x y l ys H H' IH]; cbn; [constructor|]. destruct (p x); cbn; [now constructor|exact IH].
Qed.

Theorem rpc_members_spec E inv n names m ns : rpc_members E inv n names = Some m ->
  (In ns names -> exists ds, Forall2 (fun r d => rpc_code E n r = Some d) (rpcs_of ns (i_rpcs inv)) ds /\ get ns m = nonempty ds) /\
  (~ In ns names -> get ns m = None).
Proof.
  unfold rpc_members. set (ms := filter _ (i_rpcs inv)). destruct (each (rpc_code E n) ms) as [ds|] eqn:He; [|discriminate].
  intros [= <-]. apply each_forall2 in He.
  rewrite (fold_get [] (fun p => r_ns (fst p)) (fun p => push (snd p))) by constructor.
  pose proof (forall2_filter _ (fun r => String.eqb (r_ns r) ns) _ _ He) as Hf. unfold ms in Hf at 1.
  rewrite (filter_listed r_ns) in Hf. rewrite rpcs_filter.
  set (z := filter (fun x => String.eqb (r_ns (fst x)) ns) (combine ms ds)) in *. cbn [get].
  replace (match z with [] => None | p :: l => Some (fold_left (fun v x => push (snd x) v) (p :: l) []) end)
    with (nonempty (map snd z)).
  2:{ destruct z as [|p l] eqn:Hz; [reflexivity|]. rewrite <- Hz.
      assert (H : forall acc, fold_left (fun v x => push (snd x) v) z acc = acc ++ map snd z).
      { clear. induction z as [|x z IH]; intros acc; cbn; [now rewrite app_nil_r|]. rewrite IH. unfold push. now rewrite <- app_assoc. }
      rewrite H. now rewrite Hz. }
  rewrite <- listed_in. destruct (listed names ns); split; intros H; try congruence.
  - eauto.
  - inversion Hf. reflexivity.
Qed.

(** ** Generation *)
Lemma interface_mono E n : forall m t b, n <= m -> is_interface E n t = Some b -> is_interface E m t = Some b.
Proof.
  induction n as [|n IH]; intros m t b Hm H; [discriminate|]. destruct m as [|m]; [lia|]. cbn in *.
  destruct t; try exact H.
  - apply (IH m); [lia|exact H].
  - destruct (derive (lookup E i)) as [im| | |]; try discriminate. destruct (i_interface im); [exact H|].
    destruct (d_from (lookup E i)); [|discriminate]. apply (IH m); [lia|exact H].
Qed.

Lemma interface_record E n : forall t s, gen E n TypeDef t = Some s ->
  exists b, is_interface E n t = Some b /\ (b = true <-> record_type E t).
Proof.
  induction n as [|n IH]; intros t s H; [discriminate|]. cbn [gen] in H.
  destruct t; try (eexists; split; [reflexivity|]; split; [discriminate | inversion 1]).
  - cbn in H. destruct (gen E n TypeDef t) as [x|] eqn:Ex; [|discriminate]. destruct (IH t x Ex) as (b & E1 & E2). exists b. split; [exact E1|].
    rewrite E2. split; [apply rt_wrap | now inversion 1].
  - cbn [expand is_interface] in *. destruct (derive (lookup E i)) as [im| | |] eqn:Hd; try discriminate.
    unfold derive in Hd. destruct (d_body (lookup E i)) as [st tr fs|tg vs] eqn:Hb.
    + destruct st; [| |discriminate]; unfold derive_struct in Hd;
        (destruct (struct_schema _ _ _) as [sc| | |]; try discriminate); (destruct (struct_type _ _ _) as [td| | |]; try discriminate);
        cbn [obind] in Hd; injection Hd as <-; (destruct (d_from (lookup E i)) as [t|] eqn:Hf; cbn [i_interface]; eexists; (split; [reflexivity|])).
      all: try (split; [discriminate | inversion 1; congruence]).
      all: unfold struct_interface; destruct tr; [rewrite orb_true_r; split; [discriminate | inversion 1; congruence]|]; rewrite orb_false_r.
      * rewrite andb_false_r. split; [intros _; now apply (rt_named E i fs) | auto].
      * rewrite andb_true_r. unfold struct_fields. rewrite map_length. change (filter _ fs) with (kept fs).
        rewrite negb_true_iff, Nat.eqb_neq. split; [now apply (rt_tuple E i fs)|]. inversion 1; congruence.
    + unfold derive_enum in Hd. destruct (enum_schema _ _) as [sc| | |]; try discriminate. destruct (enum_type _ _) as [td| | |]; try discriminate.
      cbn [obind] in Hd. injection Hd as <-. destruct (d_from (lookup E i)) as [t|] eqn:Hf; cbn [i_interface i_type_def] in *.
      * cbn in H. destruct (gen E n TypeDef t) as [x|] eqn:Ex; [|discriminate]. destruct (IH t x Ex) as (b & E1 & E2). exists b. split; [exact E1|].
        rewrite E2. split; [now apply (rt_from E i tg vs t)|]. inversion 1; congruence.
      * exists false. split; [reflexivity|]. split; [discriminate | inversion 1; congruence].
Qed.
Theorem interfaces_spec E t s : returns E TypeDef t s -> (interface E t true <-> record_type E t) /\ (interface E t false <-> ~ record_type E t).
Proof.
  intros [n H]. destruct (interface_record E n t s H) as (b & E1 & E2).
  assert (Q : forall b', interface E t b' <-> b' = b).
  { intros b'. split; [|intros ->; now exists n]. intros [m Hm].
    pose proof (interface_mono E n (n + m) t b ltac:(lia) E1) as X. rewrite (interface_mono E m (n + m) t b' ltac:(lia) Hm) in X. congruence. }
  rewrite !Q, <- E2. destruct b; split; split; congruence.
Qed.

Lemma declared_text E o i s t b : type_text E o i s t b = declared E o i s t b.
Proof. unfold type_text, declared, t_name. destruct b; rewrite !append_assoc; reflexivity. Qed.

Lemma type_code_spec E o i s : (exists n, type_code E n o i = Some s) <-> type_member E o i s.
Proof.
  unfold type_code, type_member. split.
  - intros [n H]. destruct (gen E n Schema (TNamed i)) as [a|] eqn:Ha; [|discriminate].
    destruct (gen E n TypeDef (TNamed i)) as [b|] eqn:Hb; [|discriminate].
    destruct (is_interface E n (TNamed i)) as [c|] eqn:Hc; [|discriminate]. injection H as <-. rewrite declared_text.
    exists a, b, c. unfold returns, interface. repeat split; eauto.
  - intros (a & b & c & [n1 Ha] & [n2 Hb] & [n3 Hc] & ->). exists (n1 + n2 + n3).
    rewrite (gen_mono E n1 (n1 + n2 + n3) _ _ _ ltac:(lia) Ha), (gen_mono E n2 (n1 + n2 + n3) _ _ _ ltac:(lia) Hb), (interface_mono E n3 (n1 + n2 + n3) _ _ ltac:(lia) Hc), declared_text. reflexivity.
Qed.
Lemma type_code_mono E n m o i s : n <= m -> type_code E n o i = Some s -> type_code E m o i = Some s.
Proof.
  intros Hm. unfold type_code.
  destruct (gen E n Schema (TNamed i)) as [a|] eqn:Ha; [|discriminate].
  destruct (gen E n TypeDef (TNamed i)) as [b|] eqn:Hb; [|discriminate].
  destruct (is_interface E n (TNamed i)) as [c|] eqn:Hc; [|discriminate].
  now rewrite (gen_mono E n _ _ _ _ Hm Ha), (gen_mono E n _ _ _ _ Hm Hb), (interface_mono E n _ _ _ Hm Hc).
Qed.

(** Some fuel for all. *)
Lemma each_fuel {X Y} (f : nat -> X -> option Y) (R : X -> Y -> Prop) :
  (forall n m x y, n <= m -> f n x = Some y -> f m x = Some y) ->
  (forall x y, (exists n, f n x = Some y) <-> R x y) ->
  forall l ys, (exists n, each (f n) l = Some ys) <-> Forall2 R l ys.
Proof.
  intros Hm HR l ys. split.
  - intros [n H]. apply each_forall2 in H. eapply Forall2_weaken; [|exact H]. intros x y Hx. apply HR. now exists n.
  - induction 1 as [|x y l ys Hx H [n IH]]; [now exists 0|]. apply HR in Hx as [n' Hx]. exists (n + n').
    cbn. rewrite (Hm n' (n + n') _ _ ltac:(lia) Hx).
    assert (each (f (n + n')) l = Some ys) as ->; [|reflexivity].
    apply each_forall2. apply each_forall2 in IH. eapply Forall2_weaken; [|exact IH]. intros a b Ha. apply (Hm n); [lia|exact Ha].
Qed.
Lemma each_mono {X Y} (f : nat -> X -> option Y) : (forall n m x y, n <= m -> f n x = Some y -> f m x = Some y) ->
  forall n m l ys, n <= m -> each (f n) l = Some ys -> each (f m) l = Some ys.
Proof.
  intros Hm n m l ys H He. apply each_forall2. apply each_forall2 in He. eapply Forall2_weaken; [|exact He].
  intros a b Ha. apply (Hm n); auto.
Qed.

Lemma gens_mono E q : forall n m x y, n <= m -> gen E n q x = Some y -> gen E m q x = Some y.
Proof. intros n m x y. apply gen_mono. Qed.

Lemma rpc_code_mono E n m r s : n <= m -> rpc_code E n r = Some s -> rpc_code E m r = Some s.
Proof.
  intros Hm. unfold rpc_code.
  destruct (each (gen E n Inline) _) as [a|] eqn:Ha; [|discriminate].
  destruct (each (gen E n InlineSchema) _) as [b|] eqn:Hb; [|discriminate].
  destruct (gen E n TypeDef (r_res r)) as [c|] eqn:Hc; [|discriminate].
  rewrite (each_mono (fun n => gen E n Inline) (gens_mono E Inline) n m _ _ Hm Ha),
    (each_mono (fun n => gen E n InlineSchema) (gens_mono E InlineSchema) n m _ _ Hm Hb), (gen_mono E n m _ _ _ Hm Hc). auto.
Qed.

Lemma Forall2_map_left {X Y Z} (R : Y -> Z -> Prop) (f : X -> Y) l ys : Forall2 R (map f l) ys <-> Forall2 (fun x y => R (f x) y) l ys.
Proof.
  revert ys. induction l as [|x l IH]; intros ys; cbn.
  - split; inversion 1; constructor.
  - split; inversion 1; subst; constructor; auto; now apply IH.
Qed.

Lemma declared_rpc_text r types schemas res : decl_text r types schemas res = declared_rpc r types schemas res.
Proof.
  unfold decl_text, declared_rpc, signature, mentions, phantom. destruct (r_kind r); cbn [String.concat];
    rewrite !append_assoc; reflexivity.
Qed.

Lemma rpc_code_spec E r s : (exists n, rpc_code E n r = Some s) <-> rpc_member E r s.
Proof.
  unfold rpc_code, rpc_member. split.
  - intros [n H]. destruct (each (gen E n Inline) _) as [a|] eqn:Ha; [|discriminate].
    destruct (each (gen E n InlineSchema) _) as [b|] eqn:Hb; [|discriminate].
    destruct (gen E n TypeDef (r_res r)) as [c|] eqn:Hc; [|discriminate]. injection H as <-.
    rewrite declared_rpc_text. exists a, b, c. apply each_forall2, Forall2_map_left in Ha. apply each_forall2, Forall2_map_left in Hb.
    split; [|split; [|split; [now exists n|reflexivity]]]; (eapply Forall2_weaken; [|eassumption]; intros x y Hx; now exists n).
  - intros (a & b & c & Ha & Hb & [n3 Hc] & ->).
    assert (exists n1, each (gen E n1 Inline) (map snd (r_args r)) = Some a) as [n1 H1].
    { apply (each_fuel (fun n => gen E n Inline) (returns E Inline) (gens_mono E Inline)); [reflexivity|]. now apply Forall2_map_left. }
    assert (exists n2, each (gen E n2 InlineSchema) (map snd (r_args r)) = Some b) as [n2 H2].
    { apply (each_fuel (fun n => gen E n InlineSchema) (returns E InlineSchema) (gens_mono E InlineSchema)); [reflexivity|]. now apply Forall2_map_left. }
    exists (n1 + n2 + n3).
    rewrite (each_mono (fun n => gen E n Inline) (gens_mono E Inline) n1 (n1 + n2 + n3) _ _ ltac:(lia) H1),
      (each_mono (fun n => gen E n InlineSchema) (gens_mono E InlineSchema) n2 (n1 + n2 + n3) _ _ ltac:(lia) H2), (gen_mono E n3 (n1 + n2 + n3) _ _ _ ltac:(lia) Hc), declared_rpc_text. reflexivity.
Qed.

(** The final records. *)
Definition rpc_step (out : list (string * string)) (p : rpc * string) :=
  entry "" (r_ns (fst p)) (fun s => s ^^ snd p) out.

Lemma append_nil_r' s : s ^^ "" = s.
Proof. induction s as [|c s IH]; cbn; [reflexivity|]. now rewrite IH. Qed.

Lemma cats_app a b : cats (a ++ b) = cats a ^^ cats b.
Proof. induction a as [|x a IH]; cbn; [reflexivity|]. now rewrite IH, append_assoc. Qed.
Lemma cats_concat l : cats l = String.concat "" l.
Proof. induction l as [|x l IH]; [reflexivity|]. cbn [cats]. rewrite IH. destruct l; cbn; [apply append_nil_r'|reflexivity]. Qed.

Lemma fold_append {X} (f : X -> string) l : forall acc, fold_left (fun v x => v ^^ f x) l acc = acc ^^ cats (map f l).
Proof. induction l as [|x l IH]; intros acc; cbn; [now rewrite append_nil_r'|]. now rewrite IH, append_assoc. Qed.

Lemma combine_fst {X Y} (l : list X) : forall r : list Y, List.length l = List.length r -> map fst (combine l r) = l.
Proof. induction l as [|x l IH]; intros [|y r] H; try discriminate; cbn; [reflexivity|]. injection H as H. now rewrite IH. Qed.
Lemma combine_snd {X Y} (l : list X) : forall r : list Y, List.length l = List.length r -> map snd (combine l r) = r.
Proof. induction l as [|x l IH]; intros [|y r] H; try discriminate; cbn; [reflexivity|]. injection H as H. now rewrite IH. Qed.
Lemma Forall2_len {X Y} (R : X -> Y -> Prop) l r : Forall2 R l r -> List.length l = List.length r.
Proof. induction 1; cbn; congruence. Qed.
Lemma combine_keys {X Y} (m : list (X * Y)) : combine (map fst m) (map snd m) = m.
Proof. induction m as [|[x y] m IH]; cbn; [reflexivity|]. now rewrite IH. Qed.

Section Module.
Variable E : env.
Variable o : options.
Variable inv : inventory.
Variable names : list string.

Definition type_block (n : nat) (p : string * list nat) : option (string * string) :=
  option_map (fun c => (fst p, cats c)) (each (type_code E n o) (snd p)).

(** [generate_with_options] in one equation. *)
Lemma generate_eq n prelude : generate_with_options E inv n names prelude o =
  match each (type_block n) (filter (fun p => listed names (fst p)) (collect E inv)),
        each (rpc_code E n) (filter (fun r => listed names (r_ns r)) (i_rpcs inv)) with
  | Some records, Some ds =>
      Some (prelude ^^ cats (map (fun p => namespace_block (fst p) (snd p))
        (fold_left rpc_step (combine (filter (fun r => listed names (r_ns r)) (i_rpcs inv)) ds) records)))
  | _, _ => None
  end.
Proof.
  unfold generate_with_options. fold (type_block n).
  change (each (fun p => option_map (fun c => (fst p, cats c)) (each (type_code E n o) (snd p))))
    with (each (type_block n)).
  destruct (each (type_block n) _) as [records|]; [|reflexivity].
  destruct (each (rpc_code E n) _) as [ds|]; [|reflexivity].
  f_equal. apply (fold_append (fun p => namespace_block (fst p) (snd p))).
Qed.

Lemma block_forall2 n l records : each (type_block n) l = Some records ->
  map fst records = map fst l /\
  forall ns c, In (ns, c) records -> exists is ts, In (ns, is) l /\ each (type_code E n o) is = Some ts /\ c = cats ts.
Proof.
  intros H. apply each_forall2 in H. induction H as [|[ns is] [ns' c] l records Hb H [IH1 IH2]]; cbn; [split; [reflexivity|easy]|].
  unfold type_block in Hb. cbn in Hb. destruct (each (type_code E n o) is) as [ts|] eqn:Ht; [|discriminate]. cbn in Hb. injection Hb as <- <-.
  split; [now rewrite IH1|]. intros k c [[= <- <-]|Hi].
  - exists is, ts. auto.
  - destruct (IH2 _ _ Hi) as (is' & ts' & H1 & H2 & H3). exists is', ts'. auto.
Qed.

Lemma sub_sorted {V} p (m : list (string * V)) : ascending (keys m) -> ascending (keys (filter p m)).
Proof.
  unfold ascending. induction m as [|[k v] m IH]; cbn; intros H; [constructor|]. inversion H as [|? ? Hs Hf]; subst.
  destruct (p (k, v)); cbn; [|now apply IH]. constructor; [now apply IH|]. apply Forall_forall. intros x Hx.
  rewrite Forall_forall in Hf. apply Hf. apply in_map_iff in Hx as [y [<- Hy]]. apply filter_In in Hy as [Hy _]. now apply in_map.
Qed.

(** The code of a namespace at this fuel. *)
Definition code_at n ns : option string :=
  match each (type_code E n o) (types_of E ns (i_types inv)), each (rpc_code E n) (rpcs_of ns (i_rpcs inv)) with
  | Some ts, Some rs => Some (cats ts ^^ cats rs)
  | _, _ => None
  end.

Lemma records_get n records ds :
  each (type_block n) (filter (fun p => listed names (fst p)) (collect E inv)) = Some records ->
  each (rpc_code E n) (filter (fun r => listed names (r_ns r)) (i_rpcs inv)) = Some ds ->
  let final := fold_left rpc_step (combine (filter (fun r => listed names (r_ns r)) (i_rpcs inv)) ds) records in
  ascending (keys final) /\
  forall ns, (In ns names /\ has_member E inv ns -> exists c, code_at n ns = Some c /\ get ns final = Some c) /\
    (~ (In ns names /\ has_member E inv ns) -> get ns final = None).
Proof.
  intros Hr Hd final. destruct (collect_spec E inv) as [Hcs Hci]. fold (@keys (list nat)) in Hcs.
  destruct (block_forall2 _ _ _ Hr) as [Hk Hb].
  assert (Hs : ascending (keys records)).
  { unfold keys. rewrite Hk. now apply sub_sorted. }
  assert (Hfs : ascending (keys final)) by (apply (fold_sorted "" (fun p => r_ns (fst p)) (fun p s => s ^^ snd p)); exact Hs).
  split; [exact Hfs|]. intros ns.
  assert (Hg : get ns records = if listed names ns then match types_of E ns (i_types inv) with [] => None | is => option_map cats (each (type_code E n o) is) end else None).
  { destruct (get ns records) as [c|] eqn:Hgr.
    - apply get_some_in in Hgr. destruct (Hb _ _ Hgr) as (is & ts & Hi & Ht & ->). apply filter_In in Hi as [Hi Hl]. cbn in Hl. rewrite Hl.
      apply Hci in Hi as [-> Hne]. clear Hci Hb Hgr. revert Ht Hne. destruct (types_of E ns (i_types inv)); [easy|]. intros -> _. reflexivity.
    - destruct (listed names ns) eqn:Hl; [|reflexivity]. destruct (types_of E ns (i_types inv)) as [|i is] eqn:Hty; [reflexivity|].
      exfalso. assert (Hin : In (ns, i :: is) (filter (fun p => listed names (fst p)) (collect E inv))).
      { apply filter_In. split; [|exact Hl]. apply Hci. rewrite Hty. split; [reflexivity|discriminate]. }
      apply (in_map fst) in Hin. cbn in Hin. rewrite <- Hk in Hin. apply in_map_iff in Hin as [[k c] [Hkc Hin]]. cbn in Hkc. subst k.
      apply (get_in _ _ _ Hs) in Hin. congruence. }
  assert (Hty : listed names ns = true -> types_of E ns (i_types inv) <> [] -> exists ts, each (type_code E n o) (types_of E ns (i_types inv)) = Some ts).
  { intros Hl Hne. assert (Hin : In (ns, types_of E ns (i_types inv)) (filter (fun p => listed names (fst p)) (collect E inv))).
    { apply filter_In. split; [|exact Hl]. now apply Hci. }
    apply each_forall2 in Hr. clear -Hr Hin. induction Hr as [|x y l r H Hr IH]; [easy|]. destruct Hin as [->|Hin]; [|now apply IH].
    unfold type_block in H. cbn in H. destruct (each _ _); [eauto|discriminate]. }
  apply each_forall2 in Hd.
  pose proof (forall2_filter _ (fun r => String.eqb (r_ns r) ns) _ _ Hd) as Hf. rewrite (filter_listed r_ns) in Hf.
  unfold final, rpc_step. rewrite (fold_get "" (fun p => r_ns (fst p)) (fun p s => s ^^ snd p)) by exact Hs.
  set (z := filter (fun x => String.eqb (r_ns (fst x)) ns) _) in *. rewrite has_member_iff, <- listed_in.
  split.
  - intros [Hl Hm]. rewrite Hl in Hf, Hg. rewrite <- rpcs_filter in Hf. pose proof Hf as Hlen. apply Forall2_len in Hlen.
    apply each_forall2 in Hf. unfold code_at. rewrite Hf.
    destruct z as [|p z'] eqn:Hz.
    + destruct Hm as [Hm|Hm]; [|destruct (rpcs_of ns (i_rpcs inv)); [easy|discriminate]].
      destruct (Hty Hl Hm) as [ts Hts]. rewrite Hts. rewrite Hg. clear Hty Hg Hci. revert Hts Hm.
      destruct (types_of E ns (i_types inv)); [easy|]. intros Hts Hm. rewrite Hts.
      eexists. split; [reflexivity|]. cbn. now rewrite append_nil_r'.
    + rewrite fold_append. destruct (types_of E ns (i_types inv)) as [|i is] eqn:Ht.
      * rewrite Hg. cbn [each]. eauto.
      * destruct (Hty Hl ltac:(discriminate)) as [ts Hts]. rewrite Hts in Hg |- *. rewrite Hg. cbn [option_map]. eauto.
  - intros Hn. destruct (listed names ns) eqn:Hl.
    + rewrite <- rpcs_filter in Hf. destruct (types_of E ns (i_types inv)) as [|i is] eqn:Ht; [|destruct Hn; split; [reflexivity|left; discriminate]].
      destruct (rpcs_of ns (i_rpcs inv)); [|destruct Hn; split; [reflexivity|right; discriminate]].
      inversion Hf as [H0|]. destruct z; [exact Hg|discriminate].
    + inversion Hf as [H0|]. destruct z; [exact Hg|discriminate].
Qed.

Lemma code_at_of n ns c : code_at n ns = Some c -> code_of E o inv ns c.
Proof.
  unfold code_at. destruct (each (type_code E n o) _) as [ts|] eqn:Ht; [|discriminate].
  destruct (each (rpc_code E n) _) as [rs|] eqn:Hr; [|discriminate]. intros [= <-].
  exists ts, rs. rewrite <- cats_concat, cats_app. apply each_forall2 in Ht, Hr.
  split; [|split; [|reflexivity]]; (eapply Forall2_weaken; [|eassumption]); intros x y H.
  - apply type_code_spec. now exists n.
  - apply rpc_code_spec. now exists n.
Qed.

Lemma code_of_at ns c : code_of E o inv ns c -> exists n, forall m, n <= m -> code_at m ns = Some c.
Proof.
  intros (ts & rs & Ht & Hr & ->).
  assert (exists n, each (type_code E n o) (types_of E ns (i_types inv)) = Some ts) as [n1 H1].
  { apply (each_fuel (fun n => type_code E n o) (type_member E o)); eauto using type_code_mono, type_code_spec. }
  assert (exists n, each (rpc_code E n) (rpcs_of ns (i_rpcs inv)) = Some rs) as [n2 H2].
  { apply (each_fuel (fun n => rpc_code E n) (rpc_member E)); eauto using rpc_code_mono, rpc_code_spec. }
  exists (n1 + n2). intros m Hm. unfold code_at.
  rewrite (each_mono (fun n => type_code E n o) (fun n m x y => type_code_mono E n m o x y) n1 m _ _ ltac:(lia) H1).
  rewrite (each_mono (fun n => rpc_code E n) (rpc_code_mono E) n2 m _ _ ltac:(lia) H2).
  now rewrite <- cats_concat, cats_app.
Qed.

Lemma keys_in {V} k (m : list (string * V)) : ascending (keys m) -> In k (keys m) <-> get k m <> None.
Proof.
  intros Hs. split.
  - intros H. apply in_map_iff in H as [[k' v] [<- H]]. apply (get_in _ _ _ Hs) in H. cbn. congruence.
  - intros H. destruct (get k m) as [v|] eqn:Hg; [|easy]. apply get_some_in, (in_map fst) in Hg. exact Hg.
Qed.

Lemma has_member_dec ns : {In ns names /\ has_member E inv ns} + {~ (In ns names /\ has_member E inv ns)}.
Proof.
  destruct (in_dec string_dec ns names) as [H|H]; [|right; tauto].
  destruct (types_of E ns (i_types inv)) eqn:Ht.
  - destruct (rpcs_of ns (i_rpcs inv)) eqn:Hr.
    + right. intros [_ Hm]. apply has_member_iff in Hm. rewrite Ht, Hr in Hm. now destruct Hm.
    + left. split; [exact H|]. apply has_member_iff. rewrite Hr. right. discriminate.
  - left. split; [exact H|]. apply has_member_iff. rewrite Ht. left. discriminate.
Qed.

Lemma each_exists {X Y} (f : X -> option Y) l : (forall x, In x l -> exists y, f x = Some y) -> exists ys, each f l = Some ys.
Proof.
  induction l as [|x l IH]; intros H; cbn; [eauto|]. destruct (H x) as [y ->]; [now left|].
  destruct IH as [ys ->]; [intros z Hz; apply H; now right|]. eauto.
Qed.
Lemma each_member {X Y} (f : X -> option Y) l ys x : each f l = Some ys -> In x l -> exists y, f x = Some y.
Proof.
  intros H Hx. apply each_forall2 in H. induction H as [|a b l ys Hab H IH]; [easy|]. destruct Hx as [<-|Hx]; eauto.
Qed.

Theorem generates_module prelude s : generates E o inv names prelude s <-> module_of E o inv names prelude s.
Proof.
  split.
  - intros [n H]. rewrite generate_eq in H.
    destruct (each (type_block n) _) as [records|] eqn:Hr; [|discriminate].
    destruct (each (rpc_code E n) _) as [ds|] eqn:Hd; [|discriminate]. injection H as <-.
    destruct (records_get n records ds Hr Hd) as [Hs Hg].
    set (final := fold_left rpc_step _ records) in *.
    exists (keys final), (map snd final). split; [exact Hs|]. split; [|split].
    + intros ns. rewrite (keys_in _ _ Hs). destruct (Hg ns) as [H1 H2]. split.
      * intros Hn. destruct (has_member_dec ns) as [H|H]; [exact H|]. now destruct Hn; apply H2.
      * intros H. destruct (H1 H) as (c & _ & ->). discriminate.
    + assert (Hall : forall ns c, In (ns, c) final -> code_of E o inv ns c).
      { intros ns c Hi. apply (get_in _ _ _ Hs) in Hi. destruct (Hg ns) as [H1 H2].
        destruct (has_member_dec ns) as [H|H]; [|rewrite H2 in Hi by exact H; discriminate].
        destruct (H1 H) as (c' & Hc & He). rewrite He in Hi. injection Hi as ->. eapply code_at_of; eauto. }
      clear -Hall. induction final as [|[ns c] m IH]; cbn; constructor; [apply Hall; now left|]. apply IH. intros k v Hk. apply Hall. now right.
    + unfold keys. rewrite combine_keys, <- cats_concat. reflexivity.
  - intros (L & codes & Hs & HL & Hc & ->).
    assert (Hn : exists n, forall m, n <= m -> Forall2 (fun ns c => code_at m ns = Some c) L codes).
    { clear Hs HL. induction Hc as [|ns c L codes Hn Hc [n IH]]; [exists 0; constructor|].
      apply code_of_at in Hn as [n' Hn]. exists (n + n'). intros m Hm. constructor; [apply Hn; lia|apply IH; lia]. }
    destruct Hn as [n Hn]. specialize (Hn n (le_n n)).
    assert (Hat : forall ns, In ns names -> has_member E inv ns -> exists c, code_at n ns = Some c).
    { intros ns H1 H2. assert (Hi : In ns L) by (apply HL; auto). clear -Hn Hi. induction Hn; [easy|]. destruct Hi as [<-|]; eauto. }
    exists n. rewrite generate_eq. destruct (collect_spec E inv) as [Hcs Hci].
    assert (exists records, each (type_block n) (filter (fun p => listed names (fst p)) (collect E inv)) = Some records) as [records Hr].
    { apply each_exists. intros [ns is] Hi. apply filter_In in Hi as [Hi Hl]. cbn in Hl. apply listed_in in Hl. apply Hci in Hi as [-> Hne].
      destruct (Hat ns Hl) as [c Hcc]; [apply has_member_iff; auto|]. unfold code_at in Hcc. unfold type_block. cbn.
      destruct (each (type_code E n o) _); [cbn; eauto|discriminate]. }
    assert (exists ds, each (rpc_code E n) (filter (fun r => listed names (r_ns r)) (i_rpcs inv)) = Some ds) as [ds Hd].
    { apply each_exists. intros r Hi. apply filter_In in Hi as [Hi Hl]. apply listed_in in Hl.
      assert (Hin : In r (rpcs_of (r_ns r) (i_rpcs inv))) by (rewrite rpcs_filter; apply filter_In; split; [exact Hi|apply String.eqb_refl]).
      destruct (Hat (r_ns r) Hl) as [c Hcc]; [right; eauto|]. unfold code_at in Hcc.
      destruct (each (type_code E n o) _); [|discriminate]. destruct (each (rpc_code E n) _) as [rs|] eqn:He; [|discriminate].
      eapply each_member; eauto. }
    rewrite Hr, Hd. destruct (records_get n records ds Hr Hd) as [Hfs Hg]. set (final := fold_left rpc_step _ records) in *.
    f_equal. f_equal. rewrite <- cats_concat. f_equal. f_equal.
    pose proof (Forall2_len _ _ _ Hn) as Hlen.
    apply sorted_ext; [exact Hfs|unfold keys; rewrite combine_fst; assumption|]. intros ns.
    assert (Hks : ascending (keys (combine L codes))) by (unfold keys; now rewrite combine_fst).
    destruct (Hg ns) as [H1 H2]. destruct (has_member_dec ns) as [H|H].
    + destruct (H1 H) as (c & Hcc & ->). symmetry. apply get_in; [exact Hks|].
      apply HL in H. clear -Hn H Hcc. induction Hn as [|k v L codes Hk Hn IH]; [easy|]. destruct H as [->|H]; [left; congruence|right; auto].
    + rewrite H2 by exact H. symmetry. apply get_none. unfold keys. rewrite combine_fst by exact Hlen. now rewrite HL.
Qed.

End Module.

(** ** Determinism and isolation *)
Lemma module_alike E o a b names names' prelude s : alike E names a b -> (forall ns, In ns names <-> In ns names') ->
  module_of E o a names prelude s -> module_of E o b names' prelude s.
Proof.
  intros Ha Hn (L & codes & Hs & HL & Hc & ->). exists L, codes. split; [exact Hs|]. split; [|split; [|reflexivity]].
  - intros ns. rewrite HL, <- Hn, !has_member_iff. split; intros [H1 H2]; (split; [exact H1|]); destruct (Ha ns H1) as [E1 E2]; rewrite E1, E2 in *; auto.
  - assert (Hin : forall ns, In ns L -> In ns names) by (intros ns H; now apply HL). clear HL Hs.
    induction Hc as [|ns c L codes (ts & rs & H1 & H2 & ->) Hc IH]; constructor.
    + destruct (Ha ns) as [E1 E2]; [apply Hin; now left|]. exists ts, rs. rewrite <- E1, <- E2. auto.
    + apply IH. intros x Hx. apply Hin. now right.
Qed.

Lemma alike_sym E names a b : alike E names a b -> alike E names b a.
Proof. intros H ns Hi. destruct (H ns Hi). auto. Qed.

Theorem generate_depends E o a b names names' prelude s :
  alike E names a b -> (forall ns, In ns names <-> In ns names') ->
  (generates E o a names prelude s <-> generates E o b names' prelude s).
Proof.
  intros Ha Hn. rewrite !generates_module. split; apply module_alike; auto.
  - intros ns Hi. apply alike_sym in Ha. apply Ha. now apply Hn.
  - intros ns. symmetry. apply Hn.
Qed.

Theorem module_unique E o inv names prelude s s' : generates E o inv names prelude s -> generates E o inv names prelude s' -> s = s'.
Proof.
  intros [n H] [n' H']. rewrite generate_eq in H, H'.
  assert (M : forall k m, k <= m -> forall s, generate_with_options E inv k names prelude o = Some s -> generate_with_options E inv m names prelude o = Some s).
  { intros k m Hkm x. rewrite !generate_eq.
    destruct (each (type_block E o k) _) as [r|] eqn:Hr; [|discriminate]. destruct (each (rpc_code E k) _) as [d|] eqn:Hd; [|discriminate].
    rewrite (each_mono (type_block E o)) with (n := k) (ys := r), (each_mono (fun n => rpc_code E n)) with (n := k) (ys := d); eauto using rpc_code_mono.
    clear. intros k m [ns is] y Hkm. unfold type_block. cbn. destruct (each (type_code E k o) is) as [ts|] eqn:Ht; [|discriminate].
    intros [= <-]. rewrite (each_mono (fun n => type_code E n o)) with (n := k) (ys := ts); eauto using type_code_mono. }
  rewrite <- generate_eq in H, H'. apply (M n (n + n')) in H; [|lia]. apply (M n' (n + n')) in H'; [|lia]. congruence.
Qed.

(** ** Duplicate exports *)
Theorem unique_exports E nsty name : registers E nsty ->
  (forall i, i < List.length E -> d_ns (lookup E i) = name (nsty i)) ->
  (forall i j, i < List.length E -> j < List.length E -> name (nsty i) = name (nsty j) -> nsty i = nsty j) ->
  (forall i, i < List.length E -> d_name (lookup E i) = d_ident (lookup E i)) ->
  forall i j, i < List.length E -> j < List.length E ->
  d_ns (lookup E i) = d_ns (lookup E j) -> d_name (lookup E i) = d_name (lookup E j) -> i = j.
Proof.
  intros Hr Hn Hinj Hid i j Hi Hj Hns Hname. unfold registers in Hr.
  assert (He : (nsty i, d_ident (lookup E i)) = (nsty j, d_ident (lookup E j))).
  { f_equal; [apply Hinj; auto; rewrite <- !Hn; auto|]. now rewrite <- !Hid. }
  set (f := fun i => (nsty i, d_ident (lookup E i))) in *.
  assert (G : forall l a b, NoDup (map f l) -> In a l -> In b l -> f a = f b -> a = b).
  { clear. induction l as [|x l IH]; intros a b Hd Ha Hb Hf; [easy|]. inversion Hd as [|? ? Hx Hl]; subst.
    destruct Ha as [<-|Ha], Hb as [<-|Hb]; auto.
    - destruct Hx. rewrite Hf. now apply in_map.
    - destruct Hx. rewrite <- Hf. now apply in_map. }
  apply (G (seq 0 (List.length E))); auto; apply in_seq; lia.
Qed.

Theorem unique_names E inv nsty name : registers E nsty ->
  (forall i, i < List.length E -> d_ns (lookup E i) = name (nsty i)) ->
  (forall i j, i < List.length E -> j < List.length E -> name (nsty i) = name (nsty j) -> nsty i = nsty j) ->
  (forall i, i < List.length E -> d_name (lookup E i) = d_ident (lookup E i)) ->
  NoDup (i_types inv) -> (forall i, In i (i_types inv) -> i < List.length E) ->
  forall ns, NoDup (map (fun i => d_name (lookup E i)) (types_of E ns (i_types inv))).
Proof.
  intros Hr Hn Hinj Hid Hd Hin ns. pose proof (unique_exports E nsty name Hr Hn Hinj Hid) as Hu. rewrite types_filter.
  induction Hd as [|i l Hi Hd IH]; cbn; [constructor|].
  assert (Hl : forall j, In j l -> j < List.length E) by (intros j Hj; apply Hin; now right).
  destruct (String.eqb_spec (t_ns E i) ns) as [Hns|]; [|now apply IH]. cbn. constructor; [|now apply IH].
  intros Hx. apply in_map_iff in Hx as [j [He Hj]]. apply filter_In in Hj as [Hj Hns']. apply String.eqb_eq in Hns'.
  assert (i = j) as ->; [|easy]. apply Hu; [apply Hin; now left|now apply Hl| |now symmetry].
  unfold t_ns in *. congruence.
Qed.

Theorem rpc_members_texts E inv n names m ns : rpc_members E inv n names = Some m ->
  (In ns names -> exists ds, Forall2 (rpc_member E) (rpcs_of ns (i_rpcs inv)) ds /\ get ns m = nonempty ds) /\
  (~ In ns names -> get ns m = None).
Proof.
  intros H. destruct (rpc_members_spec E inv n names m ns H) as [H1 H2]. split; [|exact H2].
  intros Hi. destruct (H1 Hi) as (ds & Hd & Hg). exists ds. split; [|exact Hg].
  eapply Forall2_weaken; [|exact Hd]. intros r d Hr. apply rpc_code_spec. now exists n.
Qed.
