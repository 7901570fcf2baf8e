(** What the theorems on doc comments and escaping say. *)
From Coq Require Import List String Ascii Bool NArith.
From Verif Require Import Docs.
Import ListNotations.
Local Open Scope list_scope.

(** The characters with the property White_Space of the Unicode Character Database (PropList.txt). *)
Definition space : list N :=
  [9; 10; 11; 12; 13; 32; 133; 160; 5760; 8192; 8193; 8194; 8195; 8196; 8197; 8198; 8199; 8200; 8201; 8202; 8232; 8233; 8239; 8287; 12288]%N.

(** [t] is [s] without the white space at both ends. *)
Definition trimmed (s t : rstr) : Prop :=
  (exists a b, s = a ++ t ++ b /\ incl a space /\ incl b space) /\
  (forall c r, t = c :: r -> ~ In c space) /\ (forall c r, t = r ++ [c] -> ~ In c space).

Definition one_line (s : rstr) : Prop := ~ In nl s.

(** The lines of a text: what stands between its newlines. *)
Inductive pieces : rstr -> list rstr -> Prop :=
| pieces_last s : one_line s -> pieces s [s]
| pieces_more l s ls : one_line l -> pieces s ls -> pieces (l ++ nl :: s) (l :: ls).

(** The lines of the doc attributes, each attribute trimmed. *)
Inductive doc_lines : list rstr -> list rstr -> Prop :=
| dl_nil : doc_lines [] []
| dl_cons d t ls ds rest : trimmed d t -> pieces t ls -> doc_lines ds rest -> doc_lines (d :: ds) (ls ++ rest).

Fixpoint drop_empty (ls : list rstr) : list rstr :=
  match ls with [] :: r => drop_empty r | _ => ls end.

(** The lines a documentation block shows: those of the source without empty ones at the
    beginning and without one empty one at the end. *)
Definition shown (ls : list rstr) : list rstr :=
  match rev (drop_empty ls) with
  | [] :: r => rev r
  | _ => drop_empty ls
  end.

(** A line without the carriage return at its end. *)
Inductive uncr : rstr -> rstr -> Prop :=
| uncr_cut l : uncr (l ++ [13%N]) l
| uncr_keep l : (forall r, l <> r ++ [13%N]) -> uncr l l.

(** A block with these lines. *)
Inductive block : list rstr -> rstr -> Prop :=
| block_lines ls body : ls <> [] -> body = flat_map (fun l => lit "* " ++ l ++ lit (String "010" "")) ls ->
    block ls (lit "/**" ++ lit (String "010" "") ++ body ++ lit "*/" ++ lit (String "010" "")).

(** [a] occurs in [s]. *)
Definition occurs (a s : rstr) : Prop := exists x y, s = x ++ a ++ y.

(** The text is one comment and a newline: the first [*/] after the opening [/*] ends it. *)
Definition one_comment (s : rstr) : Prop :=
  exists body, s = lit "/*" ++ body ++ lit "*/" ++ [nl] /\ ~ occurs (lit "*/") (body ++ lit "*").

(** What the entities stand for. *)
Definition entity (c : N) : rstr :=
  if N.eqb c (N_of_ascii "<") then lit "&lt;"
  else if N.eqb c (N_of_ascii ">") then lit "&gt;"
  else if N.eqb c (N_of_ascii "|") then lit "&#124;"
  else [c].

Definition scalar (c : N) : Prop := (c < 1114112)%N.
