(** Bounded descent in finite graphs: used to turn "the generator returns" into "no cycle
    is reachable". *)
From Coq Require Import List Arith Bool Lia Relations.
Import ListNotations.

Section G.
  Context {A : Type} (eq_dec : forall x y : A, {x = y} + {x <> y}).
  Variable succ : A -> list A.

  Definition edge (x y : A) : Prop := In y (succ x).

  (** All descents from [x] are shorter than [n]. *)
  Fixpoint descends (n : nat) (x : A) : Prop :=
    match n with
    | O => False
    | S k => Forall (descends k) (succ x)
    end.

  Lemma descends_mono n : forall m x, n <= m -> descends n x -> descends m x.
  Proof.
    induction n as [|n IH]; intros m x Hle H; [contradiction|].
    destruct m as [|m]; [lia|]. simpl in *.
    eapply Forall_impl; [|exact H]. intros y Hy. apply (IH m y); auto. lia.
  Qed.

  Fixpoint descends_dec (n : nat) (x : A) {struct n} : {descends n x} + {~ descends n x}.
  Proof.
    destruct n as [|n]; [right; tauto|]. simpl.
    apply Forall_dec. intros y. apply descends_dec.
  Defined.

  (** [path x l]: the nodes of [l] follow [x], one edge each. *)
  Fixpoint path (x : A) (l : list A) : Prop :=
    match l with
    | [] => True
    | y :: r => edge x y /\ path y r
    end.

  Lemma no_descent_path n : forall x, ~ descends (S n) x -> exists l, length l = n /\ path x l.
  Proof.
    induction n as [|n IH]; intros x H.
    - exists []. simpl; auto.
    - assert (Hex : Exists (fun y => ~ descends (S n) y) (succ x)).
      { apply neg_Forall_Exists_neg; [intros; apply (descends_dec (S n))|exact H]. }
      apply Exists_exists in Hex. destruct Hex as (y & Hin & Hy).
      destruct (IH y Hy) as (l & Hl & Hp).
      exists (y :: l). simpl. repeat split; auto.
  Qed.

  Definition cycle_from (x : A) : Prop :=
    exists y, clos_refl_trans A edge x y /\ clos_trans A edge y y.

  Lemma path_reach x l : path x l -> forall y, In y l -> clos_trans A edge x y.
  Proof.
    revert x; induction l as [|z r IH]; intros x Hp y Hin; [destruct Hin|].
    destruct Hp as [He Hp]. destruct Hin as [->|Hin].
    - now apply t_step.
    - eapply t_trans; [apply t_step; exact He|]. now apply (IH z).
  Qed.

  Lemma path_app x l1 y l2 : path x (l1 ++ y :: l2) -> path y l2 /\ clos_trans A edge x y.
  Proof.
    revert x; induction l1 as [|z r IH]; intros x Hp; simpl in Hp; destruct Hp as [He Hp].
    - split; auto. now apply t_step.
    - destruct (IH z Hp) as [H1 H2]. split; auto.
      eapply t_trans; [apply t_step; exact He|exact H2].
  Qed.

  Lemma trans_refl x y : clos_trans A edge x y -> clos_refl_trans A edge x y.
  Proof. induction 1; [now apply rt_step|eapply rt_trans; eauto]. Qed.

  Lemma dup_split (l : list A) : ~ NoDup l -> exists x l1 l2 l3, l = l1 ++ x :: l2 ++ x :: l3.
  Proof.
    induction l as [|a r IH]; intros H; [destruct H; constructor|].
    destruct (in_dec eq_dec a r) as [Hin|Hn].
    - apply in_split in Hin. destruct Hin as (l2 & l3 & ->). exists a, [], l2, l3. reflexivity.
    - destruct IH as (x & l1 & l2 & l3 & ->).
      { intros Hd. apply H. now constructor. }
      exists x, (a :: l1), l2, l3. reflexivity.
  Qed.

  Lemma path_in U x l : (forall y, In y U -> forall z, edge y z -> In z U) ->
    In x U -> path x l -> incl l U.
  Proof.
    intros HU. revert x; induction l as [|y r IH]; intros x Hx Hp z Hz; [destruct Hz|].
    destruct Hp as [He Hp]. destruct Hz as [->|Hz].
    - eauto.
    - apply (IH y); eauto.
  Qed.

  Theorem descends_or_cycle U x :
    (forall y, In y U -> forall z, edge y z -> In z U) -> In x U ->
    descends (S (S (length U))) x \/ cycle_from x.
  Proof.
    intros HU Hx.
    destruct (descends_dec (S (S (length U))) x) as [H|H]; auto. right.
    destruct (no_descent_path (S (length U)) x H) as (l & Hl & Hp).
    assert (Hnd : ~ NoDup l).
    { intros Hnd. assert (length l <= length U).
      { apply NoDup_incl_length; auto. eapply path_in; eauto. } lia. }
    apply dup_split in Hnd. destruct Hnd as (y & l1 & l2 & l3 & ->).
    exists y. apply path_app in Hp. destruct Hp as [Hp Hr]. split.
    - now apply trans_refl.
    - apply path_app in Hp. tauto.
  Qed.

  Theorem acyclic_descends U x :
    (forall y, In y U -> forall z, edge y z -> In z U) -> In x U ->
    ~ cycle_from x -> descends (S (S (length U))) x.
  Proof.
    intros HU Hx Hc. destruct (descends_or_cycle U x HU Hx); tauto.
  Qed.

  Lemma descends_step n x y : descends (S n) x -> edge x y -> descends n y.
  Proof. intros H He. simpl in H. rewrite Forall_forall in H. now apply H. Qed.

  Lemma descends_trans x y : clos_trans A edge x y ->
    forall n, descends n x -> exists m, m < n /\ descends m y.
  Proof.
    induction 1 as [x y He|x y z H1 IH1 H2 IH2]; intros n Hn.
    - destruct n as [|n]; [contradiction|]. exists n. split; [lia|].
      eapply descends_step; eauto.
    - destruct (IH1 n Hn) as (m & Hm & Hy). destruct (IH2 m Hy) as (k & Hk & Hz).
      exists k. split; [lia|auto].
  Qed.

  Theorem descends_acyclic n x : descends n x -> ~ cycle_from x.
  Proof.
    intros Hn (y & Hr & Hc).
    assert (Hy : exists m, descends m y).
    { clear Hc. revert n Hn. induction Hr as [a b He|a|a b c H1 IH1 H2 IH2]; intros n Hn.
      - destruct n as [|n]; [contradiction|]. exists n. eapply descends_step; eauto.
      - eauto.
      - destruct (IH1 n Hn) as (m & Hm). eauto. }
    destruct Hy as (m & Hm). revert Hm. induction m as [m IH] using lt_wf_ind. intros Hm.
    destruct (descends_trans y y Hc m Hm) as (k & Hk & Hy). eauto.
  Qed.
End G.
