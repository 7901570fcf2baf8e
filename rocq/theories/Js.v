(** JavaScript values and JSON.

    Specification side (ECMA-262).  A value is a finite tree; objects have own data
    properties with pairwise different names, in insertion order.  Out of scope: dates,
    bigints, promises, proxies, accessors, class instances, cyclic values, and objects with
    a [toJSON] function. *)
From Coq Require Import List String Ascii Bool NArith ZArith.
Import ListNotations.
Local Open Scope list_scope.

(** Strings are sequences of UTF-16 code units. *)
Definition jstr := list N.

Definition js (s : string) : jstr := map N_of_ascii (list_ascii_of_string s).

Fixpoint jeqb (a b : jstr) : bool :=
  match a, b with
  | [], [] => true
  | x :: a, y :: b => N.eqb x y && jeqb a b
  | _, _ => false
  end.

(** Numbers (IEEE doubles).  [NFrac m e] is m / 2^e, not an integer.  -0 is [NInt 0]. *)
Inductive num :=
| NInt (z : Z)
| NFrac (m : Z) (e : positive)
| NPosInf | NNegInf | NNaN.

Inductive jsval :=
| JsUndef
| JsNull
| JsBool (b : bool)
| JsNum (n : num)
| JsStr (s : jstr)
| JsArr (l : list jsval)
| JsObj (l : list (jstr * jsval))
| JsMap (l : list (jsval * jsval))
| JsSet (l : list jsval)
| JsFun.                                (* functions and symbols *)

Definition prop {A} (k : jstr) (l : list (jstr * A)) : option A :=
  match find (fun p => jeqb k (fst p)) l with
  | Some p => Some (snd p)
  | None => None
  end.

(** ** Integer literals: rounding to the nearest double (ties to even), 6.1.6.1 *)
Definition round53 (z : Z) : Z :=
  if Z.ltb z (2 ^ 53) then z
  else
    let k := (Z.log2 z - 52)%Z in
    let p := (2 ^ k)%Z in
    let m := (z / p)%Z in
    let r := (z mod p)%Z in
    let up := match Z.compare (2 * r) p with
              | Lt => false | Gt => true | Eq => Z.odd m
              end in
    ((if up then m + 1 else m) * p)%Z.

(** Number::toString of an integer below 10^21 (6.1.6.1.20): the shortest decimal that
    rounds to it, padded with zeros; among several the closest. *)
Fixpoint shortest (p : nat) (z : Z) : Z :=
  match p with
  | O => z
  | S q =>
      let t := (10 ^ Z.of_nat p)%Z in
      let lo := (z / t * t)%Z in
      let hi := (lo + t)%Z in
      let okl := Z.eqb (round53 lo) z in
      let okh := Z.eqb (round53 hi) z in
      if okl && okh then (if Z.leb (z - lo) (hi - z) then lo else hi)
      else if okl then lo
      else if okh then hi
      else shortest q z
  end.

Definition show_int (z : Z) : Z :=
  if Z.leb (Z.abs z) (2 ^ 53) then z
  else if Z.leb 0 z then shortest 21 z else (- shortest 21 (- z))%Z.

(** ** JSON documents, as trees *)
Inductive json :=
| JNull
| JBool (b : bool)
| JInt (z : Z)             (* a number written without fraction and exponent *)
| JFloat (n : num)         (* a number written with fraction or exponent *)
| JStr (s : jstr)
| JArr (l : list json)
| JObj (l : list (jstr * json)).

(** JSON.stringify (25.5.2), up to parsing the text; [None] is [undefined]. *)
Fixpoint stringify (v : jsval) : option json :=
  match v with
  | JsUndef | JsFun => None
  | JsNull => Some JNull
  | JsBool b => Some (JBool b)
  | JsNum n =>
      Some match n with
           | NInt z => if Z.ltb (Z.abs z) (10 ^ 21) then JInt (show_int z) else JFloat n
           | NFrac _ _ => JFloat n
           | NPosInf | NNegInf | NNaN => JNull
           end
  | JsStr s => Some (JStr s)
  | JsArr l =>
      Some (JArr (map (fun v => match stringify v with Some j => j | None => JNull end) l))
  | JsObj l =>
      Some (JObj (flat_map (fun p => match stringify (snd p) with
                                     | Some j => [(fst p, j)]
                                     | None => []
                                     end) l))
  | JsMap _ | JsSet _ => Some (JObj [])
  end.

(** In an array position [undefined] becomes [null]. *)
Definition stringify_elem (v : jsval) : json :=
  match stringify v with Some j => j | None => JNull end.

(** JSON.parse of a document (numbers rounded to doubles). *)
Definition round_int (z : Z) : Z := if Z.leb 0 z then round53 z else (- round53 (- z))%Z.

Fixpoint jsparse (j : json) : jsval :=
  match j with
  | JNull => JsNull
  | JBool b => JsBool b
  | JInt z => JsNum (NInt (round_int z))
  | JFloat n => JsNum n
  | JStr s => JsStr s
  | JArr l => JsArr (map jsparse l)
  | JObj l => JsObj (map (fun p => (fst p, jsparse (snd p))) l)
  end.

(** ** Well-formed UTF-16: every surrogate is part of a pair *)
Definition high (u : N) : bool := N.leb 55296 u && N.leb u 56319.
Definition low (u : N) : bool := N.leb 56320 u && N.leb u 57343.
Fixpoint utf16 (s : jstr) : bool :=
  match s with
  | [] => true
  | u :: r =>
      if high u then match r with v :: r => low v && utf16 r | [] => false end
      else negb (low u) && utf16 r
  end.

(** Number of Unicode scalar values of a well-formed string. *)
Fixpoint scalars (s : jstr) : nat :=
  match s with
  | [] => O
  | u :: r => if high u then match r with _ :: r => S (scalars r) | [] => S O end
              else S (scalars r)
  end.

(** All strings in a value are well formed. *)
Fixpoint utf16_val (v : jsval) : bool :=
  match v with
  | JsStr s => utf16 s
  | JsArr l => forallb utf16_val l
  | JsObj l => forallb (fun p => utf16 (fst p) && utf16_val (snd p)) l
  | _ => true
  end.

Fixpoint jdepth (j : json) : nat :=
  match j with
  | JArr l => S (fold_right Nat.max O (map jdepth l))
  | JObj l => S (fold_right Nat.max O (map (fun p => jdepth (snd p)) l))
  | _ => O
  end.
