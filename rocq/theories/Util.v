(** Small list and association-list helpers shared by the models. *)
From Coq Require Import List Arith NArith Bool Lia.
Import ListNotations.

(** Functional update of one position (used to model mutation of one element). *)
Fixpoint upd {A} (i : nat) (f : A -> A) (l : list A) : list A :=
  match l, i with
  | [], _ => []
  | x :: r, O => f x :: r
  | x :: r, S j => x :: upd j f r
  end.

(** [std::collections::HashMap<usize, _>]: association list, at most one entry per key
    is kept by [m_set]. *)
Fixpoint m_get {A} (k : N) (m : list (N * A)) : option A :=
  match m with
  | [] => None
  | (k', a) :: r => if N.eqb k k' then Some a else m_get k r
  end.

Definition m_del {A} (k : N) (m : list (N * A)) : list (N * A) :=
  filter (fun p => negb (N.eqb k (fst p))) m.

Definition m_set {A} (k : N) (a : A) (m : list (N * A)) : list (N * A) :=
  (k, a) :: m_del k m.

Lemma upd_length {A} i (f : A -> A) l : length (upd i f l) = length l.
Proof. revert i; induction l as [|x r IH]; intros [|i]; simpl; auto. Qed.

Lemma nth_upd_same {A} i (f : A -> A) l :
  nth_error (upd i f l) i = option_map f (nth_error l i).
Proof. revert i; induction l as [|x r IH]; intros [|i]; simpl; auto. Qed.

Lemma nth_upd_other {A} i j (f : A -> A) l :
  i <> j -> nth_error (upd i f l) j = nth_error l j.
Proof.
  revert i j; induction l as [|x r IH]; intros [|i] [|j] H; simpl; auto; try lia.
Qed.

Lemma nth_upd {A} i j (f : A -> A) l :
  nth_error (upd i f l) j =
  if Nat.eqb i j then option_map f (nth_error l j) else nth_error l j.
Proof.
  destruct (Nat.eqb_spec i j) as [->|H].
  - apply nth_upd_same.
  - apply nth_upd_other; auto.
Qed.

Lemma upd_oob {A} i (f : A -> A) l : nth_error l i = None -> upd i f l = l.
Proof.
  revert i; induction l as [|x r IH]; intros [|i] H; simpl in *; try discriminate; auto.
  now rewrite IH.
Qed.

Lemma nth_app_new {A} (l : list A) x : nth_error (l ++ [x]) (length l) = Some x.
Proof. rewrite nth_error_app2, Nat.sub_diag by lia; reflexivity. Qed.

Lemma nth_app_inv {A} (l : list A) x i y :
  nth_error (l ++ [x]) i = Some y ->
  (i < length l /\ nth_error l i = Some y) \/ (i = length l /\ y = x).
Proof.
  intros H. destruct (Nat.lt_ge_cases i (length l)) as [Hlt|Hge].
  - left; rewrite nth_error_app1 in H by lia; auto.
  - right. rewrite nth_error_app2 in H by lia.
    destruct (i - length l) as [|k] eqn:E; simpl in H.
    + inversion H; split; [lia|auto].
    + destruct k; discriminate.
Qed.

Lemma nth_some_lt {A} (l : list A) i x : nth_error l i = Some x -> i < length l.
Proof. intros H; apply nth_error_Some; rewrite H; discriminate. Qed.

Lemma m_get_del_same {A} k (m : list (N * A)) : m_get k (m_del k m) = None.
Proof.
  induction m as [|[k' a] r IH]; simpl; auto.
  destruct (N.eqb_spec k k') as [->|H]; simpl; auto.
  destruct (N.eqb_spec k k'); [contradiction|auto].
Qed.

Lemma m_get_del_other {A} k k' (m : list (N * A)) :
  k <> k' -> m_get k' (m_del k m) = m_get k' m.
Proof.
  intros H; induction m as [|[k2 a] r IH]; simpl; auto.
  destruct (N.eqb_spec k k2) as [->|H2]; simpl.
  - destruct (N.eqb_spec k' k2); [subst; contradiction|auto].
  - destruct (N.eqb_spec k' k2); auto.
Qed.

Lemma m_get_del {A} k k' (m : list (N * A)) :
  m_get k' (m_del k m) = if N.eqb k k' then None else m_get k' m.
Proof.
  destruct (N.eqb_spec k k') as [->|H].
  - apply m_get_del_same.
  - apply m_get_del_other; auto.
Qed.

Lemma m_get_set {A} k k' (a : A) m :
  m_get k' (m_set k a m) = if N.eqb k k' then Some a else m_get k' m.
Proof.
  unfold m_set; simpl. rewrite N.eqb_sym.
  destruct (N.eqb_spec k k') as [->|H]; auto.
  apply m_get_del_other; auto.
Qed.

Lemma m_get_In {A} k (m : list (N * A)) a : m_get k m = Some a -> In (k, a) m.
Proof.
  induction m as [|[k' b] r IH]; simpl; [discriminate|].
  destruct (N.eqb_spec k k') as [->|H]; intros E.
  - inversion E; auto.
  - auto.
Qed.

Lemma In_m_del {A} k (m : list (N * A)) p : In p (m_del k m) <-> In p m /\ fst p <> k.
Proof.
  unfold m_del; rewrite filter_In. destruct (N.eqb_spec k (fst p)); simpl; intuition congruence.
Qed.

(** Prefix order on lists. *)
Definition prefix {A} (l1 l2 : list A) : Prop := exists r, l2 = l1 ++ r.

Lemma prefix_refl {A} (l : list A) : prefix l l.
Proof. exists []; now rewrite app_nil_r. Qed.

Lemma prefix_app {A} (l1 l2 r : list A) : prefix l1 l2 -> prefix l1 (l2 ++ r).
Proof. intros [x ->]; exists (x ++ r); now rewrite app_assoc. Qed.
