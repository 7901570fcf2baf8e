(** A faithful writer of numbers, and some texts. *)
From Coq Require Import List String Ascii Bool NArith ZArith Lia.
From Verif Require Import Util Js JsonText JsonTextSpec JsonTextProofs.
Import ListNotations.
Local Open Scope list_scope.

(** Exact decimals: m / 2^e is (m * 5^e) / 10^e. *)
Definition exact_lit (n : num) : jstr :=
  match n with
  | NInt z => print_int z ++ js "e" ++ print_nat 0
  | NFrac m e => print_int (m * 5 ^ Z.pos e) ++ js "e-" ++ print_nat (N.pos e)
  | _ => []
  end.
Definition exact_num (s : jstr) : num :=
  let '(neg, t) := match s with c :: r => if N.eqb c (ch "-") then (true, r) else (false, s) | [] => (false, s) end in
  let '(i, f) := span digit t in
  let z := if neg : bool then (- Z.of_N (digits_value i))%Z else Z.of_N (digits_value i) in
  match f with
  | _ :: c :: r => if N.eqb c (ch "-") then match digits_value r with N.pos e => NFrac (z / 5 ^ Z.pos e) e | _ => NInt z end else NInt z
  | _ => NInt z
  end.

Lemma print_nat_head n : exists c r, print_nat n = c :: r /\ N.eqb c (ch "-") = false.
Proof.
  destruct (int_head _ _ (print_nat_text n)) as (c & r & E & Hc). exists c, r. split; [exact E|]. apply N.eqb_neq. intros ->. unfold a_digit in Hc. change (ch "-") with 45%N in Hc. lia.
Qed.
Lemma print_nat_digits n : forallb digit (print_nat n) = true /\ digits_value (print_nat n) = n.
Proof. split; [apply of_uint_digits|]. now destruct (proj1 (int_part_iff _ _) (print_nat_text n)). Qed.
Lemma exactly_print z e r : digit e = false -> exact_num (print_int z ++ e :: r) =
  match r with c :: r => if N.eqb c (ch "-") then match digits_value r with N.pos e => NFrac (z / 5 ^ Z.pos e) e | _ => NInt z end else NInt z | _ => NInt z end.
Proof.
  intros He. unfold exact_num, print_int.
  assert (X : forall neg : bool,
    (let '(i, f) := span digit (print_nat (Z.abs_N z) ++ e :: r) in
     let z := if neg then (- Z.of_N (digits_value i))%Z else Z.of_N (digits_value i) in
     match f with
     | _ :: c :: r => if N.eqb c (ch "-") then match digits_value r with N.pos e => NFrac (z / 5 ^ Z.pos e) e | _ => NInt z end else NInt z
     | _ => NInt z
     end) = let z := if neg then (- Z.abs z)%Z else Z.abs z in
     match r with c :: r => if N.eqb c (ch "-") then match digits_value r with N.pos e => NFrac (z / 5 ^ Z.pos e) e | _ => NInt z end else NInt z | _ => NInt z end).
  { intros neg. destruct (print_nat_digits (Z.abs_N z)) as [H1 H2]. rewrite (span_app digit _ (e :: r) H1 He). cbv zeta. rewrite H2, Zabs2N.id_abs. reflexivity. }
  destruct (Z.ltb_spec z 0).
  - cbn [app]. rewrite N.eqb_refl. etransitivity; [exact (X true)|]. cbv zeta. now replace (- Z.abs z)%Z with z by lia.
  - destruct (print_nat_head (Z.abs_N z)) as (c & t & E & Hc). rewrite E at 1. cbn [app]. rewrite Hc. replace (c :: t ++ e :: r) with (print_nat (Z.abs_N z) ++ e :: r) by now rewrite E.
    etransitivity; [exact (X false)|]. cbv zeta. now rewrite Z.abs_eq by lia.
Qed.
Lemma print_int_literal z x : exp_part x -> x <> [] -> float_literal (print_int z ++ x).
Proof.
  intros Hx Hn. exists (if Z.ltb z 0 then js "-" else []), (print_nat (Z.abs_N z)), (Z.abs_N z), [], x.
  split; [unfold print_int; now destruct (Z.ltb z 0)|]. split; [destruct (Z.ltb z 0); cbn; auto|]. split; [apply print_nat_text|]. split; [constructor|]. now split.
Qed.
Lemma exact_exp sg n : In sg [[]; js "-"] -> exp_part (js "e" ++ sg ++ print_nat n).
Proof.
  intros H. apply xp_some with (n := n); [now left | destruct H as [<-|[<-|[]]]; cbn; auto|]. now destruct (print_nat_text n).
Qed.

Example exact_faithful : faithful exact_lit exact_num.
Proof.
  intros n H. destruct H as [m e H1 H2|m e H1 H2 H3]; cbn [exact_lit].
  - split; [|change (js "e" ++ print_nat 0) with (ch "e" :: print_nat 0); now rewrite exactly_print]. apply print_int_literal; [|discriminate]. apply (exact_exp []). now left.
  - split.
    + apply print_int_literal; [|discriminate]. apply (exact_exp (js "-")). now right; left.
    + change (js "e-" ++ print_nat (N.pos e)) with (ch "e" :: ch "-" :: print_nat (N.pos e)). rewrite exactly_print by reflexivity.
      rewrite N.eqb_refl. destruct (print_nat_digits (N.pos e)) as [_ ->]. rewrite Z.div_mul; [reflexivity|]. apply Z.pow_nonzero; lia.
Qed.

(** A document with everything in it, and its text. *)
Definition sample : json :=
  JObj [(js "a", JArr [JInt (-7); JInt 18446744073709551615; JFloat (NFrac 3 1); JNull; JBool true]);
        (js "q""\" ++ [10; 1; 55357; 56832; 55357]%N, JObj []); (js "", JFloat NNaN); (js "a", JArr [])].
Example sample_print : print exact_lit sample =
  js "{""a"":[-7,18446744073709551615,15e-1,null,true],""q\""\\\n\u0001" ++ [55357; 56832]%N ++ js "\ud83d"":{},"""":null,""a"":[]}".
Proof. vm_compute. reflexivity. Qed.
Example sample_parse : parse exact_num (js " { ""a"" : [ -7 , 18446744073709551615,15e-1,null,true ] ,""q\""\\\u000a\u0001\uD83D\ude00\ud83d"":{ },"""":null,""a"":[]}  ") = Some (written double sample).
Proof. vm_compute. reflexivity. Qed.

(** What is no JSON. *)
Example rejected : forallb (fun s => match parse exact_num (js s) with None => true | Some _ => false end)
  [""; " "; "01"; "1."; ".5"; "+1"; "-"; "1e"; "1e+"; "[1,]"; "[,1]"; "{a:1}"; "{""a""}"; "{""a"":1,}"; "nul"; "nulls"; "1 2"; """\x"""; """\u12g4"""; """"; "[1"; "'a'"; "NaN"; "True"]%string = true.
Proof. vm_compute. reflexivity. Qed.
Example rejected_control : parse exact_num (js """a" ++ [9]%N ++ js """") = None.
Proof. vm_compute. reflexivity. Qed.
