(** serde's reading relation is monotone in the recursion depth (proofs). *)
From Coq Require Import List String Bool NArith ZArith Lia.
From Verif Require Import RustTy GenSpec ZodSpec Js Serde.
Import ListNotations.
Local Open Scope string_scope.
Local Open Scope list_scope.

Lemma forallb_mono {A} (p q : A -> bool) l :
  (forall x, p x = true -> q x = true) -> forallb p l = true -> forallb q l = true.
Proof. intros H. rewrite !forallb_forall. auto. Qed.

Lemma existsb_mono {A} (p q : A -> bool) l :
  (forall x, p x = true -> q x = true) -> existsb p l = true -> existsb q l = true.
Proof. intros H. rewrite !existsb_exists. intros [x [Hx Hp]]. eauto. Qed.

Section Mono.
Context (R : rust) (E : env).
Context (rec rec' : ty -> json -> bool) (miss miss' : ty -> bool).
Context (Hr : forall t j, rec t j = true -> rec' t j = true).
Context (Hm : forall t, miss t = true -> miss' t = true).

Lemma read_named_mono cd deny fs l :
  read_named rec miss cd deny fs l = true -> read_named rec' miss' cd deny fs l = true.
Proof.
  unfold read_named. rewrite !andb_true_iff. intros [H1 H2]. split; [|exact H2].
  revert H1. apply forallb_mono. intros f. destruct (prop _ l); [apply Hr|].
  rewrite !orb_true_iff. intros [H|H]; auto.
Qed.

Lemma read_seq_mono cd fs : forall l, read_seq rec cd fs l = true -> read_seq rec' cd fs l = true.
Proof.
  induction fs as [|f fs IH]; intros l H; [exact H|]. cbn [read_seq] in *. destruct (f_skip f); [now apply IH|].
  destruct l; apply andb_true_iff in H as [H1 H2]; apply andb_true_iff; split; auto.
Qed.

Lemma read_fields_mono cd deny fs j :
  read_fields rec miss cd deny fs j = true -> read_fields rec' miss' cd deny fs j = true.
Proof. destruct j; cbn; try easy; [apply read_seq_mono|apply read_named_mono]. Qed.

Lemma read_content_mono deny v j :
  read_content rec miss deny v j = true -> read_content rec' miss' deny v j = true.
Proof.
  unfold read_content. destruct (variant_shape v); [auto|apply Hr| |apply read_fields_mono].
  destruct j; auto. apply read_seq_mono.
Qed.

Lemma read_enum_mono deny tg vs j :
  read_enum rec miss deny tg vs j = true -> read_enum rec' miss' deny tg vs j = true.
Proof.
  unfold read_enum. destruct tg as [|tag|tag content|].
  - destruct j as [| | | | | |l]; auto. destruct l as [|[k c] [|]]; auto. destruct (by_name vs k); [|easy].
    apply read_content_mono.
  - destruct j as [| | | | |l|l]; auto.
    + destruct l as [|[] l]; auto. destruct (by_name vs s) as [v|]; [|easy].
      destruct (variant_shape v); [auto|apply Hr|auto|apply read_seq_mono].
    + destruct (prop (js tag) l) as [[]|]; auto. destruct (by_name vs s) as [v|]; [|easy].
      destruct (variant_shape v); [auto|apply Hr|auto|apply read_named_mono].
  - destruct j as [| | | | |l|l]; auto.
    + destruct l as [|[] [|c [|]]]; auto. destruct (by_name vs s) as [v|]; [|easy]. apply read_content_mono.
    + rewrite !andb_true_iff. intros [H1 H2]. split; [|exact H2]. revert H1. clear H2.
      destruct (prop (js tag) l) as [[]|]; auto. destruct (by_name vs s) as [v|]; [|easy].
      destruct (prop (js content) l); [apply read_content_mono|]. destruct (variant_shape v); auto.
  - apply existsb_mono. intros v. apply read_content_mono.
Qed.

Lemma read_decl_mono i j : read_decl R E rec miss i j = true -> read_decl R E rec' miss' i j = true.
Proof.
  unfold read_decl. destruct (d_from (lookup E i)) as [t|]; [destruct (d_try _); auto|].
  destruct (d_body (lookup E i)) as [st tr fs|tg vs]; [|apply read_enum_mono].
  destruct (has_flatten fs); [auto|]. destruct tr.
  - destruct (transparent_field fs); auto.
  - destruct st; [apply read_fields_mono| |auto]. destruct fs as [|f [|f2 r]]; auto; destruct j; auto; apply read_seq_mono.
Qed.
End Mono.

Lemma missing_step E n t : missing E (S n) t =
  match t with
  | TOpt _ => true
  | TWrap WPhantom _ => false
  | TWrap WWeak _ => true
  | TWrap _ t => missing E n t
  | TNamed i =>
      let d := lookup E i in
      match d_from d, d_body d with
      | Some t, _ => negb (d_try d) && missing E n t
      | None, BStruct _ true fs =>
          match transparent_field fs with Some f => missing E n (f_ty f) | None => false end
      | None, _ => false
      end
  | _ => false
  end.
Proof. reflexivity. Qed.

Lemma missing_S E n : forall t, missing E n t = true -> missing E (S n) t = true.
Proof.
  induction n as [|n IH]; intros t H; [discriminate|].
  rewrite missing_step in H. rewrite missing_step. cbv zeta in *. destruct t as [| |w t| | | | | | |i]; auto.
  - destruct w; auto.
  - destruct (d_from (lookup E i)) as [t|], (d_body (lookup E i)) as [st tr fs|]; auto;
      try (apply andb_true_iff in H as [H1 H2]; apply andb_true_iff; split; auto; now apply IH).
    destruct tr; auto. destruct (transparent_field fs); auto.
Qed.

Lemma missing_mono E n m t : n <= m -> missing E n t = true -> missing E m t = true.
Proof. induction 1; auto using missing_S. Qed.

Lemma de_step R E n t j : de R E (S n) t j =
  match t with
      | TPrim p => prim_reads R p j
      | TTuple ts =>
          match j with
          | JArr l =>
              Nat.eqb (List.length l) (List.length ts)
              && forallb (fun p => de R E n (fst p) (snd p)) (combine ts l)
          | _ => false
          end
      | TWrap WPhantom _ => is_null j
      | TWrap WWeak t => is_null j || de R E n t j
      | TWrap _ t => de R E n t j
      | TVec t | TSet _ t => match j with JArr l => forallb (de R E n t) l | _ => false end
      | TArr k t =>
          match j with JArr l => Nat.eqb (List.length l) k && forallb (de R E n t) l | _ => false end
      | TMap _ kt vt =>
          match j with
          | JObj l => forallb (fun p => utf16 (fst p) && key_reads R kt (fst p) && de R E n vt (snd p)) l
          | _ => false
          end
      | TOpt t => is_null j || de R E n t j
      | TRes t e =>
          match j with
          | JObj [(k, c)] =>
              if jeqb k (js "Ok") then de R E n t c
              else if jeqb k (js "Err") then de R E n e c else false
          | _ => false
          end
      | TNamed i => read_decl R E (de R E n) (missing E n) i j
      end.
Proof. reflexivity. Qed.

Lemma de_S R E n : forall t j, de R E n t j = true -> de R E (S n) t j = true.
Proof.
  induction n as [|n IH]; intros t j H; [discriminate|].
  rewrite de_step in H. rewrite de_step.
  destruct t as [p|ts|w t|t|k t|c t|c kt vt|t|t e|i].
  - exact H.
  - destruct j; try easy. apply andb_true_iff in H as [H1 H2]. apply andb_true_iff. split; [exact H1|].
    revert H2. apply forallb_mono. intros p. apply IH.
  - destruct w; try (now apply IH); [|exact H]. apply orb_true_iff in H as [H|H]; apply orb_true_iff; auto.
  - destruct j; try easy. revert H. apply forallb_mono, IH.
  - destruct j; try easy. apply andb_true_iff in H as [H1 H2]. apply andb_true_iff. split; [exact H1|].
    revert H2. apply forallb_mono, IH.
  - destruct j; try easy. revert H. apply forallb_mono, IH.
  - destruct j; try easy. revert H. apply forallb_mono. intros p. rewrite !andb_true_iff. intros [H1 H2].
    split; [exact H1|now apply IH].
  - apply orb_true_iff in H as [H|H]; apply orb_true_iff; auto.
  - destruct j as [| | | | | |l]; try easy. destruct l as [|[k c] [|]]; try easy.
    destruct (jeqb k (js "Ok")); [now apply IH|]. destruct (jeqb k (js "Err")); [now apply IH|exact H].
  - revert H. apply read_decl_mono; [exact IH|apply missing_S].
Qed.

Lemma de_mono R E n m t j : n <= m -> de R E n t j = true -> de R E m t j = true.
Proof. induction 1; auto using de_S. Qed.

(** Finitely many reads have a common depth. *)
Lemma de_all R E {A} (f : A -> ty) (g : A -> json) l :
  Forall (fun a => exists m, de R E m (f a) (g a) = true) l ->
  exists m, Forall (fun a => de R E m (f a) (g a) = true) l.
Proof.
  induction 1 as [|a l [m1 H1] _ [m2 H2]]; [exists 0; constructor|].
  exists (Nat.max m1 m2). constructor; [apply (de_mono R E m1); [lia|exact H1]|].
  eapply Forall_impl; [|exact H2]. cbn. intros b. apply de_mono. lia.
Qed.
