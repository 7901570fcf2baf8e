(** The text of JSON documents: how both ends write and read it.

    Sources: src/rpc/clients/static/websocket_client.ts:57 ([JSON.parse]), 143 ([JSON.stringify]);
    src/rpc/servers/axum.rs:45 ([serde_json::from_str]), 59 ([serde_json::to_string]).

    After ECMA-262 25.5 and serde_json 1.0.  A text is a sequence of UTF-16 code units; a websocket
    carries it as UTF-8, which is the same for well-formed texts.  Both writers leave out white space and escape
    the same characters (serde_json never sees a lone surrogate).  They write numbers with a fraction
    differently: [lit] is the writer's [Number::toString] or ryu.  Both readers accept the grammar of
    RFC 8259; [num_of] is the double nearest to a literal with fraction or exponent. *)
From Coq Require Import List String Ascii Bool NArith ZArith Decimal.
From Verif Require Import Js.
Import ListNotations.
Local Open Scope list_scope.

Definition ch (a : ascii) : N := N_of_ascii a.

(** ** Writing *)

(** 25.5.2.3 [UnicodeEscape], lower case; serde_json's [format_escaped_str_contents] likewise. *)
Definition hex (d : N) : N := if N.ltb d 10 then (48 + d)%N else (87 + d)%N.
Definition u_escape (u : N) : jstr :=
  [ch "\"; ch "u"; hex (u / 4096); hex (u / 256 mod 16); hex (u / 16 mod 16); hex (u mod 16)]%N.

(** 25.5.2.2 [QuoteJSONString], the table and control characters. *)
Definition escaped (u : N) : jstr :=
  if N.eqb u 8 then [ch "\"; ch "b"]
  else if N.eqb u 9 then [ch "\"; ch "t"]
  else if N.eqb u 10 then [ch "\"; ch "n"]
  else if N.eqb u 12 then [ch "\"; ch "f"]
  else if N.eqb u 13 then [ch "\"; ch "r"]
  else if N.eqb u 34 then [ch "\"; ch """"]
  else if N.eqb u 92 then [ch "\"; ch "\"]
  else if N.ltb u 32 then u_escape u
  else [u].

(** By code points: a lone surrogate is escaped. *)
Fixpoint quoted (s : jstr) : jstr :=
  match s with
  | [] => []
  | u :: r =>
      if high u then
        match r with
        | v :: r' => if low v then u :: v :: quoted r' else u_escape u ++ quoted r
        | [] => u_escape u
        end
      else if low u then u_escape u ++ quoted r
      else escaped u ++ quoted r
  end.
Definition quote (s : jstr) : jstr := ch """" :: quoted s ++ [ch """"].

(** Decimal digits. *)
Fixpoint of_uint (d : uint) : jstr :=
  match d with
  | Nil => []
  | D0 d => 48%N :: of_uint d
  | D1 d => 49%N :: of_uint d
  | D2 d => 50%N :: of_uint d
  | D3 d => 51%N :: of_uint d
  | D4 d => 52%N :: of_uint d
  | D5 d => 53%N :: of_uint d
  | D6 d => 54%N :: of_uint d
  | D7 d => 55%N :: of_uint d
  | D8 d => 56%N :: of_uint d
  | D9 d => 57%N :: of_uint d
  end.
Definition print_nat (n : N) : jstr := of_uint (N.to_uint n).
Definition print_int (z : Z) : jstr := if Z.ltb z 0 then ch "-" :: print_nat (Z.abs_N z) else print_nat (Z.abs_N z).

(** The finite doubles: 53 bits, exponents down to -1074. *)
Definition double (n : num) : bool :=
  match n with
  | NInt z => Z.eqb (round_int z) z && Z.ltb (Z.abs z) (2 ^ 1024)
  | NFrac m e => Z.odd m && Z.ltb (Z.abs m) (2 ^ 53) && Pos.leb e 1074
  | _ => false
  end.

Fixpoint separated (sep : N) (l : list jstr) : jstr :=
  match l with
  | [] => []
  | [x] => x
  | x :: r => x ++ sep :: separated sep r
  end.

Section Text.
Context (lit : num -> jstr) (num_of : jstr -> num).

(** 25.5.2 [JSON.stringify] after [Js.stringify]; [serde_json::to_string].  What is no finite double is
    written as [null]. *)
Fixpoint print (j : json) : jstr :=
  match j with
  | JNull => js "null"
  | JBool true => js "true"
  | JBool false => js "false"
  | JInt z => print_int z
  | JFloat n => if double n then lit n else js "null"
  | JStr s => quote s
  | JArr l => ch "[" :: separated (ch ",") (map print l) ++ [ch "]"]
  | JObj l => ch "{" :: separated (ch ",") (map (fun p => quote (fst p) ++ ch ":" :: print (snd p)) l) ++ [ch "}"]
  end.

(** ** Reading *)

Definition blank (c : N) : bool := N.eqb c 32 || N.eqb c 9 || N.eqb c 10 || N.eqb c 13.
Fixpoint skip (s : jstr) : jstr :=
  match s with
  | c :: r => if blank c then skip r else s
  | [] => []
  end.

Definition hex_value (c : N) : option N :=
  if N.leb 48 c && N.leb c 57 then Some (c - 48)%N
  else if N.leb 97 c && N.leb c 102 then Some (c - 87)%N
  else if N.leb 65 c && N.leb c 70 then Some (c - 55)%N
  else None.
Definition unescape (c : N) : option N :=
  if N.eqb c (ch """") then Some 34%N
  else if N.eqb c (ch "\") then Some 92%N
  else if N.eqb c (ch "/") then Some 47%N
  else if N.eqb c (ch "b") then Some 8%N
  else if N.eqb c (ch "f") then Some 12%N
  else if N.eqb c (ch "n") then Some 10%N
  else if N.eqb c (ch "r") then Some 13%N
  else if N.eqb c (ch "t") then Some 9%N
  else None.

Definition cons_unit (u : N) (x : option (jstr * jstr)) : option (jstr * jstr) :=
  match x with Some (s, t) => Some (u :: s, t) | None => None end.

(** After the opening quote: the string, and what follows the closing quote. *)
Fixpoint read_string (s : jstr) : option (jstr * jstr) :=
  match s with
  | [] => None
  | c :: r =>
      if N.eqb c (ch """") then Some ([], r)
      else if N.eqb c (ch "\") then
        match r with
        | e :: r1 =>
            if N.eqb e (ch "u") then
              match r1 with
              | a :: b :: c :: d :: r2 =>
                  match hex_value a, hex_value b, hex_value c, hex_value d with
                  | Some a, Some b, Some c, Some d => cons_unit (a * 4096 + b * 256 + c * 16 + d)%N (read_string r2)
                  | _, _, _, _ => None
                  end
              | _ => None
              end
            else match unescape e with
                 | Some u => cons_unit u (read_string r1)
                 | None => None
                 end
        | [] => None
        end
      else if N.ltb c 32 then None
      else cons_unit c (read_string r)
  end.

Fixpoint span (f : N -> bool) (s : jstr) : jstr * jstr :=
  match s with
  | c :: r => if f c then let '(a, b) := span f r in (c :: a, b) else ([], s)
  | [] => ([], [])
  end.

Definition digit (c : N) : bool := N.leb 48 c && N.leb c 57.
Definition number_char (c : N) : bool :=
  digit c || N.eqb c (ch "-") || N.eqb c (ch "+") || N.eqb c (ch ".") || N.eqb c (ch "e") || N.eqb c (ch "E").

Definition digits_value (s : jstr) : N := fold_left (fun n c => 10 * n + (c - 48))%N s 0%N.
Definition all_digits (s : jstr) : bool := match s with [] => false | _ => forallb digit s end.
Definition no_leading_zero (s : jstr) : bool :=
  match s with
  | c :: _ :: _ => negb (N.eqb c 48)
  | _ => true
  end.

(** The part from [e] on. *)
Definition exponent (s : jstr) : bool :=
  match s with
  | e :: r =>
      (N.eqb e (ch "e") || N.eqb e (ch "E")) &&
      match r with
      | c :: r' => if N.eqb c (ch "+") || N.eqb c (ch "-") then all_digits r' else all_digits r
      | [] => false
      end
  | [] => false
  end.
(** The part after the integer. *)
Definition fraction (s : jstr) : bool :=
  match s with
  | c :: r =>
      if N.eqb c (ch ".") then
        let '(d, r) := span digit r in
        all_digits d && match r with [] => true | _ => exponent r end
      else exponent s
  | [] => false
  end.

(** A number.  serde_json reads [-0] as a float, and so it is none of the integers. *)
Definition read_number (s : jstr) : option json :=
  let '(neg, t) := match s with c :: r => if N.eqb c (ch "-") then (true, r) else (false, s) | [] => (false, s) end in
  let '(i, f) := span digit t in
  if all_digits i && no_leading_zero i then
    match f with
    | [] =>
        let n := digits_value i in
        Some (if neg then (if N.eqb n 0 then JFloat (NInt 0) else JInt (- Z.of_N n)) else JInt (Z.of_N n))
    | _ => if fraction f then Some (JFloat (num_of s)) else None
    end
  else None.

Fixpoint after_prefix (p s : jstr) : option jstr :=
  match p, s with
  | [], _ => Some s
  | x :: p, y :: s => if N.eqb x y then after_prefix p s else None
  | _ :: _, [] => None
  end.

Definition is_char (a : ascii) (s : jstr) : option jstr :=
  match s with c :: r => if N.eqb c (ch a) then Some r else None | [] => None end.

(** A value, the elements of an array and the members of an object; [s] starts with no white space.
    The number is the stack. *)
Fixpoint read_value (n : nat) (s : jstr) : option (json * jstr) :=
  match n with
  | O => None
  | S n =>
      match s with
      | [] => None
      | c :: r =>
          if N.eqb c (ch """") then match read_string r with Some (x, t) => Some (JStr x, t) | None => None end
          else if N.eqb c (ch "[") then
            match is_char "]" (skip r) with
            | Some t => Some (JArr [], t)
            | None => match read_elements n (skip r) with Some (l, t) => Some (JArr l, t) | None => None end
            end
          else if N.eqb c (ch "{") then
            match is_char "}" (skip r) with
            | Some t => Some (JObj [], t)
            | None => match read_members n (skip r) with Some (l, t) => Some (JObj l, t) | None => None end
            end
          else if N.eqb c (ch "n") then match after_prefix (js "null") s with Some t => Some (JNull, t) | None => None end
          else if N.eqb c (ch "t") then match after_prefix (js "true") s with Some t => Some (JBool true, t) | None => None end
          else if N.eqb c (ch "f") then match after_prefix (js "false") s with Some t => Some (JBool false, t) | None => None end
          else
            let '(x, t) := span number_char s in
            match read_number x with Some j => Some (j, t) | None => None end
      end
  end
with read_elements (n : nat) (s : jstr) : option (list json * jstr) :=
  match n with
  | O => None
  | S n =>
      match read_value n s with
      | Some (j, t) =>
          match is_char "," (skip t), is_char "]" (skip t) with
          | Some t, _ => match read_elements n (skip t) with Some (l, u) => Some (j :: l, u) | None => None end
          | None, Some t => Some ([j], t)
          | None, None => None
          end
      | None => None
      end
  end
with read_members (n : nat) (s : jstr) : option (list (jstr * json) * jstr) :=
  match n with
  | O => None
  | S n =>
      match is_char """" s with
      | Some s =>
          match read_string s with
          | Some (k, t) =>
              match is_char ":" (skip t) with
              | Some t =>
                  match read_value n (skip t) with
                  | Some (j, t) =>
                      match is_char "," (skip t), is_char "}" (skip t) with
                      | Some t, _ => match read_members n (skip t) with Some (l, u) => Some ((k, j) :: l, u) | None => None end
                      | None, Some t => Some ([(k, j)], t)
                      | None, None => None
                      end
                  | None => None
                  end
              | None => None
              end
          | None => None
          end
      | None => None
      end
  end.

(** 25.5.1 [JSON.parse] up to [Js.jsparse]; [serde_json::from_str] up to [Wire.from_str]: the whole text. *)
Definition parse (s : jstr) : option json :=
  match read_value (2 * List.length s + 2) (skip s) with
  | Some (j, t) => match skip t with [] => Some j | _ => None end
  | None => None
  end.
End Text.
