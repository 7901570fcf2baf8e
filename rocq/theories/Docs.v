(** Doc comments and the escaping of the type table.

    Rust strings are lists of Unicode scalar values here; [utf8] turns them into the bytes of
    the generated text. *)
From Coq Require Import List String Ascii Bool NArith.
Import ListNotations.
Local Open Scope list_scope.

Definition rstr := list N.

(** ** derive/src/docs.rs *)

(** [char::is_whitespace] (Unicode White_Space), used by [str::trim]. *)
Definition white (c : N) : bool :=
  (9 <=? c)%N && (c <=? 13)%N || existsb (N.eqb c) [32; 133; 160; 5760; 8232; 8233; 8239; 8287; 12288]%N
  || (8192 <=? c)%N && (c <=? 8202)%N.

Fixpoint trim_start (s : rstr) : rstr :=
  match s with
  | [] => []
  | c :: r => if white c then trim_start r else s
  end.

(** [str::trim], line 18. *)
Definition trim (s : rstr) : rstr := rev (trim_start (rev (trim_start s))).

(** One turn of the loop of [RustDocs::from_attrs], lines 18-22: the doc string is trimmed and
    joined with a newline, unless nothing was collected before. *)
Definition add_doc (full : rstr) (d : rstr) : rstr :=
  (match full with [] => [] | _ => full ++ [10%N] end) ++ trim d.

(** [RustDocs::from_attrs], lines 11-35, given the values of the [doc] attributes
    (other attributes are skipped). *)
Definition from_attrs (ds : list rstr) : option rstr :=
  match fold_left add_doc ds [] with
  | [] => None
  | full => Some full
  end.

(** [str::lines]: pieces between newlines, without an empty last one, each without a trailing
    carriage return. *)
Fixpoint split_nl (s : rstr) : list rstr :=
  match s with
  | [] => [[]]
  | c :: r =>
      if N.eqb c 10 then [] :: split_nl r
      else match split_nl r with
           | l :: ls => (c :: l) :: ls
           | [] => [[c]]
           end
  end.
Fixpoint drop_last_empty (ls : list rstr) : list rstr :=
  match ls with
  | [] => []
  | [[]] => []
  | l :: r => l :: drop_last_empty r
  end.
Fixpoint strip_cr (l : rstr) : rstr :=
  match l with
  | [] => []
  | [c] => if N.eqb c 13 then [] else [c]
  | c :: r => c :: strip_cr r
  end.
Definition lines (s : rstr) : list rstr := map strip_cr (drop_last_empty (split_nl s)).

(** A literal of the source. *)
Definition lit (s : string) : rstr := map N_of_ascii (list_ascii_of_string s).
Definition nl : N := 10.

(** [ToTokens for RustDocs], lines 38-53: what [docs()] returns (inside [Some], see
    derive/src/impl_struct.rs:115-117). *)
Definition doc_text (ds : list rstr) : rstr :=
  match from_attrs ds with
  | Some full =>
      lit "/**" ++ [nl] ++ List.concat (map (fun l => lit "* " ++ l ++ [nl]) (lines full)) ++ lit "*/" ++ [nl]
  | None => []
  end.

(** UTF-8. *)
Definition byte (n : N) : ascii := ascii_of_N n.
Definition utf8_char (c : N) : string :=
  if (c <? 128)%N then String (byte c) ""
  else if (c <? 2048)%N then String (byte (192 + c / 64)) (String (byte (128 + c mod 64)) "")
  else if (c <? 65536)%N then
    String (byte (224 + c / 4096)) (String (byte (128 + (c / 64) mod 64)) (String (byte (128 + c mod 64)) ""))
  else
    String (byte (240 + c / 262144)) (String (byte (128 + (c / 4096) mod 64))
      (String (byte (128 + (c / 64) mod 64)) (String (byte (128 + c mod 64)) ""))).
Fixpoint utf8 (s : rstr) : string :=
  match s with
  | [] => EmptyString
  | c :: r => (utf8_char c ++ utf8 r)%string
  end.

(** ** core/src/docs.rs:124-130 *)

(** [str::replace] with a pattern of one character. *)
Definition replace (c : N) (by_ : rstr) (s : rstr) : rstr :=
  flat_map (fun x => if N.eqb x c then by_ else [x]) s.

Definition escape (s : rstr) : rstr :=
  replace 124 (lit "&#124;") (replace 62 (lit "&gt;") (replace 60 (lit "&lt;") s)).

(** [Line::with_link], lines 99-112: the Rust column. *)
Definition line_rust (name : rstr) (link : option rstr) : rstr :=
  match option_map escape link with
  | Some link => lit "[" ++ escape name ++ lit "](" ++ link ++ lit ")"
  | None => lit "[" ++ escape name ++ lit "]"
  end.
