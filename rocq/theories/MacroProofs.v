(** Proofs on the namespace macro. *)
From Coq Require Import List String Bool.
From Verif Require Import Registry Macro MacroSpec.
Import ListNotations.
Local Open Scope list_scope.

Section MacroProofs.
Context {T : Type}.

Lemma arg_types_named (l : list (fnarg T)) : Forall (fun x => ~ is_receiver x) l ->
  forall ps, arg_types l = Some ps <-> named_params l ps.
Proof.
  induction 1 as [|a l Ha _ IH]; intros ps.
  - split; [intros [= <-]; constructor | inversion 1; reflexivity].
  - destruct a as [r|p t]; [destruct Ha; exists r; reflexivity|].
    destruct p as [b m n sub|]; cbn.
    + destruct (arg_types l) as [q|]; split.
      * intros [= <-]. constructor. now apply IH.
      * inversion 1; subst. match goal with H : named_params l _ |- _ => apply IH in H; now inversion H end.
      * discriminate.
      * inversion 1; subst. match goal with H : named_params l _ |- _ => apply IH in H; discriminate end.
    + split; [discriminate | inversion 1].
Qed.

Lemma check_receiver_ok r : check_receiver r = None <-> r = mut_ref_self.
Proof.
  destruct r as [[[l|]|] []]; cbn; split; try discriminate; try reflexivity.
Qed.

(** One method goes through both steps iff it is allowed. *)
Lemma one_method (s : signature T) : receiver_first s -> forall i,
  (from_ast s = inl i /\ expand_item i = None) <-> exists ps, allowed s ps /\ i = item_of s ps.
Proof.
  intros Hf i. unfold from_ast, allowed, item_of.
  destruct s as [n a l o]; cbn in *. unfold receiver_first in Hf; cbn in Hf.
  destruct l as [|x l].
  { split.
    - intros [H _]. destruct a, o; discriminate.
    - intros (ps & ((l & H & _) & _) & _). discriminate. }
  specialize (Hf _ _ eq_refl).
  destruct x as [r|p t].
  - cbn. destruct (check_receiver r) eqn:Hc.
    + split.
      * intros [H _]. destruct a, o; discriminate.
      * intros (ps & ((l' & H & _) & _) & _). injection H as -> _. discriminate.
    + apply check_receiver_ok in Hc as ->.
      destruct (arg_types l) as [ps|] eqn:Ha.
      * apply (arg_types_named l Hf) in Ha as Hn.
        split.
        -- intros [H He]. exists ps.
           destruct a, o as [[]|]; cbn in *; try discriminate; injection H as <-; try discriminate He;
             (split; [split; [exists l; split; [reflexivity | assumption] | exact I] | reflexivity]).
        -- intros (ps' & ((l' & H & Hn') & Ho) & ->). injection H as <-.
           apply (arg_types_named l Hf) in Hn'. rewrite Ha in Hn'. injection Hn' as <-.
           destruct a, o as [[]|]; cbn; try contradiction; split; reflexivity.
      * split.
        -- intros [H _]. destruct a, o; discriminate.
        -- intros (ps' & ((l' & H & Hn') & _) & _). injection H as <-.
           apply (arg_types_named l Hf) in Hn'. congruence.
  - split.
    + intros [H _].
      assert (Hr : find_receiver (Typed p t :: l) = None).
      { cbn. clear - Hf. induction Hf as [|x l Hx _ IH]; [reflexivity|].
        destruct x; [destruct Hx; eexists; reflexivity | exact IH]. }
      rewrite Hr in H. destruct a, o; discriminate.
    + intros (ps & ((l' & H & _) & _) & _). discriminate.
Qed.

Definition sigs (l : list (implitem T)) : list (signature T) :=
  flat_map (fun i => match i with IMethod s => [s] | IOther => [] end) l.

Lemma all_methods (l : list (implitem T)) : (forall s, In s (sigs l) -> receiver_first s) -> forall is,
  (from_asts l = inl is /\ first_abort is = None) <->
  Forall2 (fun s i => exists ps, allowed s ps /\ i = item_of s ps) (sigs l) is.
Proof.
  induction l as [|x l IH]; intros Hf is.
  - cbn. split.
    + intros [[= <-] _]. constructor.
    + inversion 1; subst. split; reflexivity.
  - destruct x as [s|]; [|exact (IH Hf is)].
    cbn [sigs flat_map app] in *.
    assert (Hs : receiver_first s) by (apply Hf; left; reflexivity).
    assert (Hl : forall s, In s (sigs l) -> receiver_first s) by (intros; apply Hf; right; assumption).
    cbn [from_asts]. split.
    + intros [H He]. destruct (from_ast s) as [i|] eqn:Hi; [|discriminate].
      destruct (from_asts l) as [r|] eqn:Hr; [|discriminate]. injection H as <-.
      cbn in He. destruct (expand_item i) eqn:Hx; [discriminate|].
      constructor.
      * apply (one_method s Hs). split; assumption.
      * apply (IH Hl). split; [reflexivity | assumption].
    + inversion 1; subst.
      match goal with H : exists _, _ |- _ => apply (one_method s Hs) in H as [Hi Hx] end.
      match goal with H : Forall2 _ _ _ |- _ => apply (IH Hl) in H as [Hr He] end.
      rewrite Hi, Hr. split; [reflexivity|]. cbn. rewrite Hx. exact He.
Qed.

Lemma expand_iff (b : implblock T) (l : list (signature T)) :
  methods b l -> (forall s, In s l -> receiver_first s) -> forall n is,
  expand b = inl (n, is) <->
  im_self b = Some n /\ Forall2 (fun s i => exists ps, allowed s ps /\ i = item_of s ps) l is.
Proof.
  intros <- Hf n is. unfold expand. rewrite <- (all_methods (im_items b) Hf is).
  destruct (im_self b) as [m|]; [|split; [discriminate | intros [H _]; discriminate]].
  destruct (from_asts (im_items b)) as [r|e].
  - destruct (first_abort r) as [e|] eqn:He.
    + split; [discriminate|]. intros [_ [[= <-] H]]. congruence.
    + split.
      * intros [= -> ->]. repeat split; assumption.
      * intros [[= ->] [[= ->] _]]. reflexivity.
  - split; [discriminate|]. intros [_ [H _]]. discriminate.
Qed.

Lemma accepted_iff (b : implblock T) (l : list (signature T)) :
  methods b l -> (forall s, In s l -> receiver_first s) ->
  (exists r, expand b = inl r) <->
  (exists n, im_self b = Some n) /\ forall s, In s l -> exists ps, allowed s ps.
Proof.
  intros Hm Hf. split.
  - intros [[n is] H]. apply (expand_iff b l Hm Hf) in H as [Hn H]. split; [eauto|].
    clear - H. induction H as [|s i l is (ps & Hp & _) _ IH]; [intros ? []|].
    intros s' [<-|Hi]; [eauto | auto].
  - intros [[n Hn] H].
    assert (exists is, Forall2 (fun s i => exists ps, allowed s ps /\ i = item_of s ps) l is) as [is His].
    { clear - H. induction l as [|s l IH]; [exists []; constructor|].
      destruct (H s (or_introl eq_refl)) as [ps Hp].
      destruct IH as [is His]; [intros; apply H; right; assumption|].
      exists (item_of s ps :: is). constructor; eauto. }
    exists (n, is). apply (expand_iff b l Hm Hf). split; assumption.
Qed.
End MacroProofs.
