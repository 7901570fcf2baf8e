(** What the theorems on JSON texts say: the grammar of RFC 8259, and the document of a text. *)
From Coq Require Import List String Ascii Bool NArith ZArith.
From Verif Require Import Js.
Import ListNotations.
Local Open Scope list_scope.
Local Open Scope N_scope.

Definition ws (s : jstr) : Prop := Forall (fun c => In c [32; 9; 10; 13]) s.
Definition a_digit (c : N) : Prop := 48 <= c <= 57.

(** ** Numbers *)

(** [decimal s n]: the digits [s] denote [n]. *)
Inductive decimal : jstr -> N -> Prop :=
| dec_one c : a_digit c -> decimal [c] (c - 48)
| dec_more s n c : decimal s n -> a_digit c -> decimal (s ++ [c]) (10 * n + (c - 48)).

(** The integer part: no superfluous zeros. *)
Definition int_part (s : jstr) (n : N) : Prop := decimal s n /\ (s = [48] \/ forall r, s <> 48 :: r).
Inductive frac_part : jstr -> Prop :=
| fp_none : frac_part []
| fp_some ds n : decimal ds n -> frac_part (js "." ++ ds).
Inductive exp_part : jstr -> Prop :=
| xp_none : exp_part []
| xp_some e sg ds n : In e [js "e"; js "E"] -> In sg [[]; js "+"; js "-"] -> decimal ds n -> exp_part (e ++ sg ++ ds).

(** A literal with a fraction or an exponent. *)
Definition float_literal (s : jstr) : Prop :=
  exists sg i n f x, s = sg ++ i ++ f ++ x /\ In sg [[]; js "-"] /\ int_part i n /\ frac_part f /\ exp_part x /\ f ++ x <> [].

(** ** Strings *)
Inductive hex_digit : N -> N -> Prop :=
| hx_digit v : v < 10 -> hex_digit (48 + v) v
| hx_lower v : 10 <= v < 16 -> hex_digit (87 + v) v
| hx_upper v : 10 <= v < 16 -> hex_digit (55 + v) v.

Definition escapes : list (string * N) :=
  [(""""%string, 34); ("\"%string, 92); ("/"%string, 47); ("b"%string, 8); ("f"%string, 12); ("n"%string, 10); ("r"%string, 13); ("t"%string, 9)].

Inductive char_text : jstr -> N -> Prop :=
| ct_plain c : 32 <= c -> c <> 34 -> c <> 92 -> char_text [c] c
| ct_escape e u : In (e, u) escapes -> char_text (js "\" ++ js e) u
| ct_unicode a b c d va vb vc vd : hex_digit a va -> hex_digit b vb -> hex_digit c vc -> hex_digit d vd ->
    char_text (js "\u" ++ [a; b; c; d]) (va * 4096 + vb * 256 + vc * 16 + vd).
Inductive chars_text : jstr -> jstr -> Prop :=
| cs_nil : chars_text [] []
| cs_cons s u t v : char_text s u -> chars_text t v -> chars_text (s ++ t) (u :: v).
Definition string_text (s v : jstr) : Prop := exists t, s = js """" ++ t ++ js """" /\ chars_text t v.

(** ** Documents *)
Section Grammar.
Context (num_of : jstr -> num).

(** Minus zero counts as a number with a fraction: it is no integer for serde. *)
Inductive value_text : jstr -> json -> Prop :=
| vt_null : value_text (js "null") JNull
| vt_true : value_text (js "true") (JBool true)
| vt_false : value_text (js "false") (JBool false)
| vt_nat s n : int_part s n -> value_text s (JInt (Z.of_N n))
| vt_neg s n : int_part s n -> n <> 0 -> value_text (js "-" ++ s) (JInt (- Z.of_N n))
| vt_minus_zero : value_text (js "-0") (JFloat (NInt 0))
| vt_float s : float_literal s -> value_text s (JFloat (num_of s))
| vt_string s v : string_text s v -> value_text s (JStr v)
| vt_empty_array w : ws w -> value_text (js "[" ++ w ++ js "]") (JArr [])
| vt_array s l : elements_text s l -> value_text (js "[" ++ s ++ js "]") (JArr l)
| vt_empty_object w : ws w -> value_text (js "{" ++ w ++ js "}") (JObj [])
| vt_object s l : members_text s l -> value_text (js "{" ++ s ++ js "}") (JObj l)
with elements_text : jstr -> list json -> Prop :=
| et_one w s w' j : ws w -> value_text s j -> ws w' -> elements_text (w ++ s ++ w') [j]
| et_more w s w' j t l : ws w -> value_text s j -> ws w' -> elements_text t l ->
    elements_text (w ++ s ++ w' ++ js "," ++ t) (j :: l)
with members_text : jstr -> list (jstr * json) -> Prop :=
| mt_one w sk w1 w2 s w3 k j : ws w -> string_text sk k -> ws w1 -> ws w2 -> value_text s j -> ws w3 ->
    members_text (w ++ sk ++ w1 ++ js ":" ++ w2 ++ s ++ w3) [(k, j)]
| mt_more w sk w1 w2 s w3 k j t l : ws w -> string_text sk k -> ws w1 -> ws w2 -> value_text s j -> ws w3 -> members_text t l ->
    members_text (w ++ sk ++ w1 ++ js ":" ++ w2 ++ s ++ w3 ++ js "," ++ t) ((k, j) :: l).

(** [s] is a JSON text of the document [j]. *)
Definition json_text (s : jstr) (j : json) : Prop := exists w t w', s = w ++ t ++ w' /\ ws w /\ value_text t j /\ ws w'.
End Grammar.

(** A document without what JSON cannot say: such numbers become [null]. *)
Fixpoint written (ok : num -> bool) (j : json) : json :=
  match j with
  | JFloat n => if ok n then JFloat n else JNull
  | JArr l => JArr (map (written ok) l)
  | JObj l => JObj (map (fun p => (fst p, written ok (snd p))) l)
  | _ => j
  end.

(** The finite doubles (6.1.6.1): 53 bits, exponents from -1074 to 971. *)
Inductive is_double : num -> Prop :=
| dbl_int m e : (Z.abs m < 2 ^ 53 -> 0 <= e <= 971 -> is_double (NInt (m * 2 ^ e)))%Z
| dbl_frac m e : (Z.odd m = true -> Z.abs m < 2 ^ 53 -> Z.pos e <= 1074 -> is_double (NFrac m e))%Z.

(** A writer of numbers: each finite double gets a literal that is read as that double.  Both
    [Number::toString] (6.1.6.1.20) and ryu promise this of the numbers they write with fraction or exponent. *)
Definition faithful (lit : num -> jstr) (num_of : jstr -> num) : Prop :=
  forall n, is_double n -> float_literal (lit n) /\ num_of (lit n) = n.

(** The numbers of a JavaScript value are doubles. *)
Definition a_number (n : num) : Prop := is_double n \/ In n [NPosInf; NNegInf; NNaN].
Inductive js_value : jsval -> Prop :=
| jv_undefined : js_value JsUndef
| jv_null : js_value JsNull
| jv_bool b : js_value (JsBool b)
| jv_num n : a_number n -> js_value (JsNum n)
| jv_str s : js_value (JsStr s)
| jv_arr l : Forall js_value l -> js_value (JsArr l)
| jv_obj l : Forall (fun p => js_value (snd p)) l -> js_value (JsObj l)
| jv_map l : Forall (fun p => js_value (fst p) /\ js_value (snd p)) l -> js_value (JsMap l)
| jv_set l : Forall js_value l -> js_value (JsSet l)
| jv_fun : js_value JsFun.

(** What is left of a result on its way to the client: [data d] is the value the client gets. *)
Definition received_as (ok : num -> bool) (d : json) : jsval := jsparse (written ok d).
