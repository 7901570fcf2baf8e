(** More fuel does not change what a program does.  Proof side. *)
From Coq Require Import List String Ascii Bool Arith NArith ZArith Lia.
From Verif Require Import Util Js JsonText Wire TsProgram JsSem.
From Verif Require Client.
Import ListNotations.
Local Open Scope string_scope.
Local Open Scope list_scope.

Definition le {A} (m m' : M A) : Prop := forall s, m s <> Fuel -> m' s = m s.
Lemma le_refl {A} (m : M A) : le m m.
Proof. intros s _. reflexivity. Qed.
Lemma le_fuel {A} (m : M A) : le (fun _ => Fuel) m.
Proof. intros s H. now destruct H. Qed.
Lemma le_attempt {A B} (m m' : M A) (f f' : A -> M B) h h' : le m m' -> (forall a, le (f a) (f' a)) -> (forall v, le (h v) (h' v)) -> le (attempt m f h) (attempt m' f' h').
Proof.
  intros Hm Hf Hh s N. unfold attempt in *. rewrite (Hm s); [|intros E; now rewrite E in N].
  destruct (m s); try reflexivity; [now apply Hf|now apply Hh].
Qed.
Lemma le_bind {A B} (m m' : M A) (f f' : A -> M B) : le m m' -> (forall a, le (f a) (f' a)) -> le (bind m f) (bind m' f').
Proof. intros Hm Hf. apply le_attempt; [assumption|assumption|]. intros v. apply le_refl. Qed.
Lemma le_trans {A} (m1 m2 m3 : M A) : le m1 m2 -> le m2 m3 -> le m1 m3.
Proof. intros A1 A2 s H. rewrite <- (A1 s H). apply A2. now rewrite (A1 s H). Qed.

Section Mono.
Context (lit : num -> jstr) (num : jstr -> num) (other : jsval -> N -> bool).
Local Notation eval := (eval lit num other).
Local Notation evals := (evals lit num other).
Local Notation execs := (execs lit num other).
Local Notation block := (block lit num other).
Local Notation body := (body lit num other).
Local Notation call := (call lit num other).
Local Notation for_each := (for_each lit num other).
Local Notation construct := (construct lit num other).
Local Notation user := (user lit num other).
Local Notation acts := (acts lit num other).
Local Notation act := (act lit num other).

Definition all_le (n m : nat) : Prop :=
  (forall sc e, le (eval n sc e) (eval m sc e)) /\ (forall sc es, le (evals n sc es) (evals m sc es)) /\ (forall sc ss, le (execs n sc ss) (execs m sc ss)) /\
  (forall sc ss, le (block n sc ss) (block m sc ss)) /\ (forall sc ps ss args, le (body n sc ps ss args) (body m sc ps ss args)) /\ (forall f args, le (call n f args) (call m f args)) /\
  (forall k i g, le (for_each n k i g) (for_each m k i g)) /\ (forall f args, le (construct n f args) (construct m f args)) /\ le (user n) (user m) /\
  (forall l, le (acts n l) (acts m l)) /\ (forall a, le (act n a) (act m a)).

Ltac go := repeat first [apply le_refl | match goal with H : _ |- _ => apply H end | apply le_bind; intros | apply le_attempt; intros
  | match goal with |- le (match ?x with _ => _ end) _ => destruct x end].
Lemma all_mono : forall n, all_le n (S n).
Proof.
  induction n as [|n (H1 & H2 & H3 & H4 & H5 & H6 & H7 & H8 & H9 & H10 & H11)].
  - unfold all_le. repeat split; intros; apply le_fuel.
  - unfold all_le. repeat split; intros.
    + change (le (eval (S n) sc e) (eval (S (S n)) sc e)). destruct e; cbn [JsSem.eval]; go.
      * match goal with |- le (_ ?l) _ => induction l as [|[sp e] es IH]; go end.
      * match goal with |- le (_ ?l) _ => induction l as [|[k e] ps IH]; go end.
    + destruct es; cbn [JsSem.evals]; go.
    + destruct ss as [|[] ss]; cbn [JsSem.execs]; go.
    + cbn [JsSem.block]; go.
    + cbn [JsSem.body]; go.
    + destruct f; cbn [JsSem.call]; go.
    + cbn [JsSem.for_each]; go.
    + destruct f; cbn [JsSem.construct]; go.
    + cbn [JsSem.user]; go.
    + cbn [JsSem.acts]. induction l as [|a l IH]; go.
    + destruct a; cbn [JsSem.act]; go.
Qed.

Lemma all_more n m : n <= m -> all_le n m.
Proof.
  induction 1 as [|m L (H1 & H2 & H3 & H4 & H5 & H6 & H7 & H8 & H9 & H10 & H11)]; [unfold all_le; repeat split; intros; apply le_refl|].
  destruct (all_mono m) as (G1 & G2 & G3 & G4 & G5 & G6 & G7 & G8 & G9 & G10 & G11).
  unfold all_le. repeat split; intros; (eapply le_trans; [match goal with H : _ |- _ => apply H end|match goal with H : _ |- _ => apply H end]).
Qed.
Lemma call_more n m f args : n <= m -> le (call n f args) (call m f args).
Proof. intros L. destruct (all_more n m L) as (_ & _ & _ & _ & _ & H & _). apply H. Qed.
Lemma user_more n m : n <= m -> le (user n) (user m).
Proof. intros L. destruct (all_more n m L) as (_ & _ & _ & _ & _ & _ & _ & _ & H & _). apply H. Qed.
Lemma acts_more n m l : n <= m -> le (acts n l) (acts m l).
Proof. intros L. destruct (all_more n m L) as (_ & _ & _ & _ & _ & _ & _ & _ & _ & H & _). apply H. Qed.
Lemma execs_more n m sc l : n <= m -> le (execs n sc l) (execs m sc l).
Proof. intros L. destruct (all_more n m L) as (_ & _ & H & _). apply H. Qed.
Lemma job_more n m j : n <= m -> le (run_job lit num other n j) (run_job lit num other m j).
Proof.
  intros L. pose proof (call_more n m) as Hc. pose proof (user_more n m L) as Hu. destruct j as [h ok v to|q p|]; cbn [run_job]; [destruct h|..]; repeat first [apply le_refl|exact Hu|apply (Hc _ _ L)|apply le_attempt; intros].
Qed.
Lemma drain_more : forall n m, n <= m -> le (drain lit num other n) (drain lit num other m).
Proof.
  induction n as [|n IH]; intros m L; [apply le_fuel|]. destruct m as [|m]; [lia|]. cbn [drain]. apply le_bind; [apply le_refl|]. intros [j|]; [|apply le_refl].
  apply le_bind; [apply job_more; lia|]. intros _. apply IH. lia.
Qed.
Lemma fire_more n m k ev x : n <= m -> le (fire lit num other n k ev x) (fire lit num other m k ev x).
Proof.
  intros L. unfold fire. apply le_bind; [apply le_refl|]. intros ss. destruct (nth_error ss k); [|apply le_refl]. destruct (find _ _); [|apply le_refl].
  apply le_bind; [apply le_attempt; [now apply call_more|intros; apply le_refl|intros; apply le_refl]|]. intros _. now apply drain_more.
Qed.
Lemma task_more n m t : n <= m -> le (run_task lit num other n t) (run_task lit num other m t).
Proof.
  intros L. destruct t; cbn [run_task].
  - apply le_bind; [now apply acts_more|]. intros _. now apply drain_more.
  - apply le_bind; [apply le_refl|]. intros []; try apply le_refl. apply le_bind; [apply le_refl|]. intros _. now apply fire_more.
  - apply le_refl.
  - apply le_bind; [apply le_refl|]. intros [| |[]|]; try apply le_refl; (apply le_bind; [apply le_refl|]; intros _; now apply fire_more).
  - apply le_bind; [apply le_refl|]. intros []; try apply le_refl; (apply le_bind; [apply le_refl|]; intros _; apply le_bind; [now apply fire_more|]; intros _; now apply fire_more).
  - apply le_bind; [apply le_refl|]. intros []; try apply le_refl. now apply fire_more.
  - apply le_bind; [apply le_refl|]. intros ts. destruct (nth_error ts k) as [[[f d]|]|]; try apply le_refl. apply le_bind; [apply le_refl|]. intros _.
    apply le_bind; [apply le_attempt; [now apply call_more|intros; apply le_refl|intros; apply le_refl]|]. intros _. now apply drain_more.
Qed.
Lemma tasks_more n m ts : n <= m -> le (run_tasks lit num other n ts) (run_tasks lit num other m ts).
Proof. intros L. induction ts as [|t ts IH]; [apply le_refl|]. cbn [run_tasks]. apply le_bind; [now apply task_more|]. intros _. exact IH. Qed.
Lemma load_more n m P : n <= m -> le (load lit num other n P) (load lit num other m P).
Proof.
  intros L. unfold load. apply le_bind; [apply le_refl|]. intros _. apply le_bind; [apply le_refl|]. intros _. apply le_bind; [now apply execs_more|]. intros _. now apply drain_more.
Qed.
Lemma page_more n m P scripts ts : n <= m -> page lit num other n P scripts ts <> Fuel -> page lit num other m P scripts ts = page lit num other n P scripts ts.
Proof. intros L. apply (le_bind (load lit num other n P) (load lit num other m P)); [now apply load_more|]. intros _. now apply tasks_more. Qed.
End Mono.
