(** A lexer for the part of JavaScript / TypeScript the generators write.

    Specification side: this is (a conservative subset of) the lexical grammar of
    ECMA-262 section 12, not a model of anything in /repo.  The lexer is an automaton
    that reads the text character by character; what it does not know (escapes in
    strings, decimal points, regular expressions, operators made of several characters
    other than [=>] and [...]) is an error, never a guess. *)
From Coq Require Import List String Ascii Bool NArith.
Import ListNotations.
Local Open Scope string_scope.
Local Open Scope list_scope.

Inductive tok :=
| TId (s : string)         (* identifier or keyword *)
| TStr (s : string)        (* string literal without escapes *)
| TNum (n : N)             (* decimal integer literal *)
| TP (c : ascii)           (* punctuator of one character *)
| TArrow                   (* => *)
| TDots.                   (* ... *)

Definition code (c : ascii) : N := N_of_ascii c.
Definition between (a b : N) (c : ascii) : bool := N.leb a (code c) && N.leb (code c) b.

Definition digit (c : ascii) : bool := between 48 57 c.
Definition id_start (c : ascii) : bool :=
  between 65 90 c || between 97 122 c || Ascii.eqb c "_" || Ascii.eqb c "$".
Definition id_char (c : ascii) : bool := id_start c || digit c.
Definition newline (c : ascii) : bool := N.eqb (code c) 10 || N.eqb (code c) 13.
Definition blank (c : ascii) : bool := N.eqb (code c) 32 || N.eqb (code c) 9 || newline c.
(** Brackets and separators. *)
Definition punct (c : ascii) : bool :=
  existsb (Ascii.eqb c) ["("; ")"; "["; "]"; "{"; "}"; ","; ":"; ";"; ">"]%char.
(** Characters that start longer operators; followed by one of [op] they are refused. *)
Definition op (c : ascii) : bool :=
  existsb (Ascii.eqb c) ["|"; "&"; "-"; "?"; "<"; "="]%char.
(** Printable ASCII other than the double quote and the backslash. *)
Definition str_char (c : ascii) : bool :=
  between 32 126 c && negb (N.eqb (code c) 34) && negb (N.eqb (code c) 92).

Inductive mode :=
| M0                    (* between tokens *)
| MId (w : string)
| MNum (n : N)
| MStr (w : string)
| MOp (c : ascii)
| MDot | MDot2
| MSlash | MLine | MBlock | MStar
| MErr.

Definition dquote : ascii := ascii_of_nat 34.

(** Start of a token. *)
Definition start (c : ascii) : mode * list tok :=
  if blank c then (M0, [])
  else if id_start c then (MId (String c ""), [])
  else if digit c then (MNum (code c - 48), [])
  else if Ascii.eqb c dquote then (MStr "", [])
  else if punct c then (M0, [TP c])
  else if op c then (MOp c, [])
  else if Ascii.eqb c "." then (MDot, [])
  else if Ascii.eqb c "/" then (MSlash, [])
  else (MErr, []).

(** End the pending token and start the next one with [c]. *)
Definition next (t : tok) (c : ascii) : mode * list tok :=
  let (m, ts) := start c in (m, t :: ts).

Definition step (m : mode) (c : ascii) : mode * list tok :=
  match m with
  | M0 => start c
  | MId w => if id_char c then (MId (w ++ String c ""), []) else next (TId w) c
  | MNum n =>
      if digit c then (MNum (n * 10 + (code c - 48))%N, [])
      else if id_start c || Ascii.eqb c "." || Ascii.eqb c dquote then (MErr, [])
      else next (TNum n) c
  | MStr w =>
      if Ascii.eqb c dquote then (M0, [TStr w])
      else if str_char c then (MStr (w ++ String c ""), []) else (MErr, [])
  | MOp o =>
      if Ascii.eqb o "=" && Ascii.eqb c ">" then (M0, [TArrow])
      else if op c || Ascii.eqb c ">" || Ascii.eqb c "." then (MErr, [])
      else next (TP o) c
  | MDot =>
      if Ascii.eqb c "." then (MDot2, [])
      else if digit c then (MErr, []) else next (TP ".") c
  | MDot2 => if Ascii.eqb c "." then (M0, [TDots]) else (MErr, [])
  | MSlash =>
      if Ascii.eqb c "/" then (MLine, [])
      else if Ascii.eqb c "*" then (MBlock, []) else (MErr, [])
  | MLine => if newline c then (M0, []) else (MLine, [])
  | MBlock => if Ascii.eqb c "*" then (MStar, []) else (MBlock, [])
  | MStar =>
      if Ascii.eqb c "/" then (M0, [])
      else if Ascii.eqb c "*" then (MStar, []) else (MBlock, [])
  | MErr => (MErr, [])
  end%string.

Fixpoint lexm (m : mode) (s : string) : mode * list tok :=
  match s with
  | EmptyString => (m, [])
  | String c r =>
      let (m1, t1) := step m c in
      let (m2, t2) := lexm m1 r in
      (m2, t1 ++ t2)
  end.

(** End of text. *)
Definition finish (m : mode) : option (list tok) :=
  match m with
  | M0 | MLine => Some []
  | MId w => Some [TId w]
  | MNum n => Some [TNum n]
  | MOp o => Some [TP o]
  | MDot => Some [TP "."%char]
  | MStr _ | MDot2 | MSlash | MBlock | MStar | MErr => None
  end.

(** The tokens of a text; [None]: a lexical error. *)
Definition lex (s : string) : option (list tok) :=
  let (m, ts) := lexm M0 s in
  match finish m with
  | Some r => Some (ts ++ r)
  | None => None
  end.

(** Identifier names. *)
Definition all_chars (p : ascii -> bool) : string -> bool :=
  fix go s := match s with EmptyString => true | String c r => p c && go r end.

Definition ident (s : string) : bool :=
  match s with
  | EmptyString => false
  | String c r => id_start c && all_chars id_char r
  end.

(** ECMA-262 12.7.2, including the words reserved in strict mode and modules. *)
Definition reserved_words : list string :=
  ["await"; "break"; "case"; "catch"; "class"; "const"; "continue"; "debugger"; "default";
   "delete"; "do"; "else"; "enum"; "export"; "extends"; "false"; "finally"; "for";
   "function"; "if"; "import"; "in"; "instanceof"; "new"; "null"; "return"; "super";
   "switch"; "this"; "throw"; "true"; "try"; "typeof"; "var"; "void"; "while"; "with";
   "yield"; "implements"; "interface"; "let"; "package"; "private"; "protected"; "public";
   "static"].

Definition reserved (s : string) : bool := existsb (String.eqb s) reserved_words.

(** ** Composition *)
Lemma lexm_app m a b :
  lexm m (a ++ b)%string =
  let (m1, t1) := lexm m a in let (m2, t2) := lexm m1 b in (m2, t1 ++ t2).
Proof.
  revert m; induction a as [|c a IH]; intros m; simpl.
  - now destruct (lexm m b).
  - destruct (step m c) as [m1 t1]. rewrite IH.
    destruct (lexm m1 a) as [m2 t2]. destruct (lexm m2 b) as [m3 t3].
    now rewrite app_assoc.
Qed.

Lemma lexm_seq m a m1 t1 b m2 t2 :
  lexm m a = (m1, t1) -> lexm m1 b = (m2, t2) -> lexm m (a ++ b)%string = (m2, t1 ++ t2).
Proof. intros Ha Hb. now rewrite lexm_app, Ha, Hb. Qed.

Lemma append_assoc (a b c : string) : ((a ++ b) ++ c = a ++ b ++ c)%string.
Proof. induction a as [|x a IH]; simpl; [easy|now rewrite IH]. Qed.
Lemma append_nil (a : string) : (a ++ "" = a)%string.
Proof. induction a as [|x a IH]; simpl; [easy|now rewrite IH]. Qed.

Lemma lexm_word w s : all_chars id_char s = true -> lexm (MId w) s = (MId (w ++ s)%string, []).
Proof.
  revert w; induction s as [|c s IH]; intros w H; simpl.
  - now rewrite append_nil.
  - simpl in H. apply andb_true_iff in H as [Hc Hs]. rewrite Hc, IH by exact Hs.
    now rewrite append_assoc.
Qed.

Lemma start_id c : id_start c = true -> start c = (MId (String c ""), []).
Proof.
  intros H. unfold start. rewrite H.
  enough (blank c = false) as -> by reflexivity.
  unfold blank, newline, id_start, between in *.
  destruct c as [[] [] [] [] [] [] [] []]; vm_compute in H |- *; congruence.
Qed.

Lemma lexm_ident s : ident s = true -> lexm M0 s = (MId s, []).
Proof.
  destruct s as [|c r]; [discriminate|]. cbn [ident]. intros H.
  apply andb_true_iff in H as [Hc Hr].
  cbn [lexm step]. rewrite (start_id c Hc). rewrite lexm_word by exact Hr. reflexivity.
Qed.

Lemma lexm_dot_ident s : ident s = true -> lexm MDot s = (MId s, [TP "."%char]).
Proof.
  destruct s as [|c r]; [discriminate|]. cbn [ident]. intros H.
  apply andb_true_iff in H as [Hc Hr].
  cbn [lexm step]. assert (Ascii.eqb c "." = false /\ digit c = false) as [-> ->].
  { destruct c as [[] [] [] [] [] [] [] []]; vm_compute in Hc |- *; split; congruence. }
  unfold next. rewrite (start_id c Hc). rewrite lexm_word by exact Hr. reflexivity.
Qed.

Lemma lexm_str w s : all_chars str_char s = true -> lexm (MStr w) s = (MStr (w ++ s)%string, []).
Proof.
  revert w; induction s as [|c s IH]; intros w H; simpl.
  - now rewrite append_nil.
  - simpl in H. apply andb_true_iff in H as [Hc Hs].
    assert (Ascii.eqb c dquote = false) as ->.
    { destruct (Ascii.eqb_spec c dquote) as [->|]; [|easy].
      vm_compute in Hc. discriminate. }
    rewrite Hc, IH by exact Hs. now rewrite append_assoc.
Qed.

Lemma ident_str s : ident s = true -> all_chars str_char s = true.
Proof.
  assert (Hc : forall c, id_char c = true -> str_char c = true).
  { intros c H. destruct c as [[] [] [] [] [] [] [] []]; vm_compute in H |- *; congruence. }
  destruct s as [|c r]; [reflexivity|]. cbn [ident all_chars]. intros H.
  apply andb_true_iff in H as [H Hr]. apply andb_true_iff. split.
  - apply Hc. unfold id_char. now rewrite H.
  - clear H. induction r as [|d r IH]; [reflexivity|]. cbn [all_chars] in *.
    apply andb_true_iff in Hr as [Hd Hr]. rewrite (Hc _ Hd). now apply IH.
Qed.
