(** Concrete doc comments and escaped names. *)
From Coq Require Import List String Ascii Bool NArith Lia.
From Verif Require Import JsLex Docs DocsSpec DocsProofs.
Import ListNotations.
Local Open Scope list_scope.

Definition nls : string := String "010" "".

(** [/// Hello], an empty line, [///   *World* ] and a trailing empty line. *)
Definition hello : list rstr := [lit " "; lit " Hello"; lit ""; lit "   *World* "; lit " "].

Example hello_text : doc_text hello =
  lit ("/**" ++ nls ++ "* Hello" ++ nls ++ "* " ++ nls ++ "* *World*" ++ nls ++ "*/" ++ nls)%string.
Proof. vm_compute. reflexivity. Qed.
Example hello_lines : doc_lines hello [[]; lit "Hello"; []; lit "*World*"; []].
Proof. exact (doc_lines_exist hello). Qed.
Example hello_shown : shown [[]; lit "Hello"; []; lit "*World*"; []] = [lit "Hello"; []; lit "*World*"].
Proof. vm_compute. reflexivity. Qed.
Example hello_closed : Forall (Forall scalar) hello /\
  forall l, In l [[]; lit "Hello"; []; lit "*World*"; []] -> ~ occurs (lit "*/") l.
Proof.
  split; [repeat constructor|]. intros l H. change (lit "*/") with [star; slash].
  cbn in H. repeat destruct H as [<-|H]; rewrite ?occ_cons; intros Ho;
    repeat match goal with
    | H : _ \/ _ |- _ => destruct H
    | H : _ /\ _ |- _ => destruct H
    | H : exists _, _ |- _ => destruct H
    | H : occurs _ [] |- _ => now apply occ_nil in H
    | H : _ = star |- _ => discriminate H
    | H : _ :: _ = _ |- _ => discriminate H
    | H : [] = _ |- _ => discriminate H
    | H : False |- _ => destruct H
    end.
Qed.
Example hello_lexed : lexm M0 (utf8 (doc_text hello)) = (M0, []).
Proof. vm_compute. reflexivity. Qed.

(** Umlauts and an emoji. *)
Example unicode : utf8 (doc_text [[32; 228; 128512]%N]) =
  ("/**" ++ nls ++ "* " ++ String "195" (String "164" (String "240" (String "159" (String "152" (String "128" nls))))) ++ "*/" ++ nls)%string.
Proof. vm_compute. reflexivity. Qed.

(** [/// */ x]: the rest of the line is code. *)
Definition early : list rstr := [lit " */ x"].
Theorem early_close : ~ one_comment (doc_text early) /\ lexm M0 (utf8 (doc_text early)) <> (M0, []).
Proof.
  split; [|vm_compute; discriminate].
  rewrite (docs_closed early [lit "*/ x"]).
  - intros H. apply (H (lit "*/ x")); [now left|]. exists [], (lit " x"). reflexivity.
  - exact (doc_lines_exist early).
  - exists (lit "*/ x"). split; [now left|discriminate].
Qed.

(** A multi-line doc string ([/** .. */]) is trimmed only at its two ends. *)
Definition wide : list rstr := [lit (" a " ++ nls ++ "  b ")%string].
Theorem inner_lines : doc_text wide =
  lit ("/**" ++ nls ++ "* a " ++ nls ++ "*   b" ++ nls ++ "*/" ++ nls)%string.
Proof. vm_compute. reflexivity. Qed.

Theorem escape_collides : lit "<" <> lit "&lt;" /\ escape (lit "<") = escape (lit "&lt;").
Proof. split; [discriminate|reflexivity]. Qed.

Example escape_some : escape (lit "Vec<Option<A|B>>") = lit "Vec&lt;Option&lt;A&#124;B&gt;&gt;".
Proof. reflexivity. Qed.

Theorem line_links name link : line_rust name link =
  lit "[" ++ flat_map entity name ++ lit "]" ++
  match link with Some l => lit "(" ++ flat_map entity l ++ lit ")" | None => [] end.
Proof.
  unfold line_rust. destruct link as [l|]; cbn [option_map]; rewrite !escape_spec; [|reflexivity].
  reflexivity.
Qed.
