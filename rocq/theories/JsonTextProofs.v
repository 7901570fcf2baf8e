(** The reader accepts exactly the grammar, and reads what the writers write. *)
From Coq Require Import List String Ascii Bool NArith ZArith Lia Arith.
From Coq Require DecimalFacts DecimalN.
From Verif Require Import Util Js JsonText JsonTextSpec.
Import ListNotations.
Local Open Scope list_scope.

(** ** White space *)
Lemma blank_iff c : blank c = true <-> In c [32; 9; 10; 13]%N.
Proof.
  unfold blank. rewrite !orb_true_iff, !N.eqb_eq. cbn. intuition auto.
Qed.
Lemma skip_ws w s : ws w -> skip (w ++ s) = skip s.
Proof. induction 1 as [|c w Hc _ IH]; [reflexivity|]. cbn. apply blank_iff in Hc. now rewrite Hc. Qed.
Lemma skip_all w : ws w -> skip w = [].
Proof. intros H. rewrite <- (app_nil_r w). now rewrite skip_ws. Qed.
Lemma skip_split s : exists w, s = w ++ skip s /\ ws w.
Proof.
  induction s as [|c s (w & E & H)]; [exists []; split; [reflexivity | constructor]|]. cbn. destruct (blank c) eqn:B.
  - exists (c :: w). split; [cbn; now f_equal|]. constructor; [now apply blank_iff | exact H].
  - exists []. split; [reflexivity | constructor].
Qed.
Lemma ws_nil : ws [].
Proof. constructor. Qed.
Local Hint Resolve ws_nil : core.

(** ** Characters *)
Lemma is_char_iff a s t : is_char a s = Some t <-> s = ch a :: t.
Proof.
  destruct s as [|c r]; cbn; [split; discriminate|]. destruct (N.eqb_spec c (ch a)) as [->|N]; split; intros E; try discriminate; try congruence; now injection E as <-.
Qed.
Lemma is_char_none a c s : c <> ch a -> is_char a (c :: s) = None.
Proof. intros N. cbn. now apply N.eqb_neq in N as ->. Qed.

(** ** Strings *)
Lemma hex_value_iff c v : hex_value c = Some v <-> hex_digit c v.
Proof.
  unfold hex_value. split.
  - destruct (N.leb_spec 48 c), (N.leb_spec c 57); cbn [andb]; [intros [= <-]; replace c with (48 + (c - 48))%N at 1 by lia; constructor; lia | ..];
    (destruct (N.leb_spec 97 c), (N.leb_spec c 102); cbn [andb];
      [intros [= <-]; replace c with (87 + (c - 87))%N at 1 by lia; constructor; lia | ..];
      (destruct (N.leb_spec 65 c), (N.leb_spec c 70); cbn [andb]; try discriminate; intros [= <-]; replace c with (55 + (c - 55))%N at 1 by lia; apply hx_upper; lia)).
  - intros [w Hw|w Hw|w Hw].
    + destruct (N.leb_spec 48 (48 + w)), (N.leb_spec (48 + w) 57); try lia. cbn [andb]. f_equal. lia.
    + destruct (N.leb_spec 48 (87 + w)), (N.leb_spec (87 + w) 57); try lia. cbn [andb].
      destruct (N.leb_spec 97 (87 + w)), (N.leb_spec (87 + w) 102); try lia. cbn [andb]. f_equal. lia.
    + destruct (N.leb_spec 48 (55 + w)), (N.leb_spec (55 + w) 57); try lia; cbn [andb];
      (destruct (N.leb_spec 97 (55 + w)), (N.leb_spec (55 + w) 102); try lia; cbn [andb]);
      (destruct (N.leb_spec 65 (55 + w)), (N.leb_spec (55 + w) 70); try lia); cbn [andb]; f_equal; lia.
Qed.
Lemma unescape_iff c u : unescape c = Some u <-> exists e, js e = [c] /\ In (e, u) escapes.
Proof.
  unfold unescape, escapes. split.
  - repeat match goal with |- context [N.eqb c (ch ?a)] =>
      destruct (N.eqb_spec c (ch a)) as [->|?]; [intros [= <-]; exists (String a EmptyString); split; [reflexivity | cbn; tauto]|] end. discriminate.
  - intros (e & E & Hin). cbn in Hin. repeat destruct Hin as [[= <- <-]|Hin]; try contradiction; cbn in E; injection E as <-; reflexivity.
Qed.
Lemma unescape_u : unescape (ch "u") = None.
Proof. reflexivity. Qed.

Lemma read_string_sound s : forall v t, read_string s = Some (v, t) -> exists p, s = p ++ js """" ++ t /\ chars_text p v.
Proof.
  induction s as [s IH] using (induction_ltof1 _ (@List.length N)). unfold ltof in IH. intros v t H.
  destruct s as [|c r]; [discriminate|]. cbn [read_string] in H. destruct (N.eqb_spec c (ch """")) as [->|Nq].
  { injection H as <- <-. exists []. split; [reflexivity | constructor]. }
  destruct (N.eqb_spec c (ch "\")) as [->|Nb].
  - destruct r as [|e r1]; [discriminate|]. destruct (N.eqb_spec e (ch "u")) as [->|Nu].
    + destruct r1 as [|a [|b [|c [|d r2]]]]; try discriminate.
      destruct (hex_value a) as [va|] eqn:Ha; [|discriminate]. destruct (hex_value b) as [vb|] eqn:Hb; [|discriminate].
      destruct (hex_value c) as [vc|] eqn:Hc; [|discriminate]. destruct (hex_value d) as [vd|] eqn:Hd; [|discriminate].
      unfold cons_unit in H. destruct (read_string r2) as [[v' t']|] eqn:E; [|discriminate]. injection H as <- <-.
      destruct (IH r2 ltac:(cbn; lia) _ _ E) as (p & -> & Hp). exists ((js "\u" ++ [a; b; c; d]) ++ p). split; [reflexivity|].
      apply cs_cons; [|exact Hp]. apply hex_value_iff in Ha, Hb, Hc, Hd. now constructor.
    + destruct (unescape e) as [u|] eqn:Eu; [|discriminate]. unfold cons_unit in H. destruct (read_string r1) as [[v' t']|] eqn:E; [|discriminate]. injection H as <- <-.
      destruct (IH r1 ltac:(cbn; lia) _ _ E) as (p & -> & Hp). apply unescape_iff in Eu as (x & Ex & Hx).
      exists ((js "\" ++ js x) ++ p). rewrite Ex. split; [reflexivity|]. rewrite <- Ex. apply cs_cons; [now constructor | exact Hp].
  - destruct (N.ltb_spec c 32); [discriminate|]. unfold cons_unit in H. destruct (read_string r) as [[v' t']|] eqn:E; [|discriminate]. injection H as <- <-.
    destruct (IH r ltac:(cbn; lia) _ _ E) as (p & -> & Hp). exists ([c] ++ p). split; [reflexivity|]. apply cs_cons; [|exact Hp]. constructor; auto.
Qed.
Lemma read_string_complete p v t : chars_text p v -> read_string (p ++ js """" ++ t) = Some (v, t).
Proof.
  induction 1 as [|s u p v Hs _ IH]; [reflexivity|]. destruct Hs as [c H1 H2 H3|e u Hin|a b c d va vb vc vd Ha Hb Hc Hd].
  - change ([c] ++ p) with (c :: p). cbn [app read_string]. change (ch """") with 34%N. change (ch "\") with 92%N.
    apply N.eqb_neq in H2, H3. rewrite H2, H3. destruct (N.ltb_spec c 32); [lia|]. now rewrite IH.
  - destruct (unescape_iff (match js e with c :: _ => c | [] => 0%N end) u) as [_ X].
    assert (Ee : js e = [match js e with c :: _ => c | [] => 0%N end]).
    { cbn in Hin. repeat destruct Hin as [[= <- <-]|Hin]; reflexivity || contradiction. }
    specialize (X (ex_intro _ e (conj Ee Hin))). rewrite Ee. set (x := match js e with c :: _ => c | [] => 0%N end) in *.
    change ((js "\" ++ [x]) ++ p) with (ch "\" :: x :: p). cbn [app read_string]. change (N.eqb (ch "\") (ch """")) with false. change (N.eqb (ch "\") (ch "\")) with true. cbv iota.
    destruct (N.eqb_spec x (ch "u")) as [Eu|_]; [rewrite Eu in X; discriminate|]. rewrite X, IH. reflexivity.
  - change ((js "\u" ++ [a; b; c; d]) ++ p) with (ch "\" :: ch "u" :: a :: b :: c :: d :: p). cbn [app read_string].
    change (N.eqb (ch "\") (ch """")) with false. change (N.eqb (ch "\") (ch "\")) with true. change (N.eqb (ch "u") (ch "u")) with true. cbv iota.
    apply hex_value_iff in Ha, Hb, Hc, Hd. now rewrite Ha, Hb, Hc, Hd, IH.
Qed.

(** ** Numbers *)
Lemma digit_iff c : digit c = true <-> a_digit c.
Proof. unfold digit, a_digit. rewrite andb_true_iff, !N.leb_le. reflexivity. Qed.
Lemma digits_snoc s c : digits_value (s ++ [c]) = (10 * digits_value s + (c - 48))%N.
Proof. unfold digits_value. now rewrite fold_left_app. Qed.
Lemma decimal_iff s n : decimal s n <-> all_digits s = true /\ digits_value s = n.
Proof.
  split.
  - induction 1 as [c Hc|s n c _ [IH1 <-] Hc].
    + split; [|reflexivity]. cbn. apply digit_iff in Hc. now rewrite Hc.
    + split; [|apply digits_snoc]. unfold all_digits in *. destruct s as [|x s]; [discriminate|]. change ((x :: s) ++ [c]) with (x :: (s ++ [c])).
      change (x :: s ++ [c]) with ((x :: s) ++ [c]). rewrite forallb_app, IH1. cbn. apply digit_iff in Hc. now rewrite Hc.
  - intros [H <-]. induction s as [|c s IH] using rev_ind; [discriminate|].
    assert (Hd : forallb digit (s ++ [c]) = true) by (destruct s; exact H). rewrite forallb_app in Hd. apply andb_prop in Hd as [H1 H2].
    cbn in H2. rewrite andb_true_r in H2. apply digit_iff in H2. destruct s as [|x s]; [now constructor|].
    rewrite digits_snoc. constructor; [apply IH; exact H1 | exact H2].
Qed.
Lemma span_app f s r : forallb f s = true -> match r with c :: _ => f c = false | [] => True end -> span f (s ++ r) = (s, r).
Proof.
  intros Hs Hr. induction s as [|c s IH]; cbn in *.
  - destruct r as [|c r]; [reflexivity|]. cbn. now rewrite Hr.
  - apply andb_prop in Hs as [-> Hs]. now rewrite (IH Hs).
Qed.
Lemma span_spec f s : forall a b, span f s = (a, b) -> s = a ++ b /\ forallb f a = true /\ match b with c :: _ => f c = false | [] => True end.
Proof.
  induction s as [|c s IH]; intros a b; cbn; [now intros [= <- <-]|]. destruct (f c) eqn:E.
  - destruct (span f s) as [a' b'] eqn:Es. intros [= <- <-]. destruct (IH _ _ eq_refl) as (-> & H1 & H2). cbn. rewrite E. auto.
  - intros [= <- <-]. auto.
Qed.

Lemma exponent_iff s : exponent s = true <-> exp_part s /\ s <> [].
Proof.
  split.
  - destruct s as [|e r]; [discriminate|]. cbn [exponent]. intros H. apply andb_prop in H as [He Hr].
    assert (Ee : In [e] [js "e"; js "E"]).
    { apply orb_prop in He as [He|He]; apply N.eqb_eq in He as ->; cbn; auto. }
    split; [|discriminate]. destruct r as [|c r]; [discriminate|].
    destruct (N.eqb c (ch "+") || N.eqb c (ch "-")) eqn:Ec.
    + change (e :: c :: r) with ([e] ++ [c] ++ r). apply xp_some with (n := digits_value r); [exact Ee | | now apply decimal_iff].
      apply orb_prop in Ec as [Ec|Ec]; apply N.eqb_eq in Ec as ->; cbn; auto.
    + change (e :: c :: r) with ([e] ++ [] ++ c :: r). apply xp_some with (n := digits_value (c :: r)); [exact Ee | now left | now apply decimal_iff].
  - intros [H Hn]. destruct H as [|e sg ds n He Hs Hd]; [congruence|]. apply decimal_iff in Hd as [Hd _].
    assert (Hc : match ds with c :: _ => N.eqb c (ch "+") || N.eqb c (ch "-") = false | [] => False end).
    { destruct ds as [|c ds]; [discriminate|]. cbn [all_digits forallb] in Hd. apply andb_prop in Hd as [Hd _]. apply digit_iff in Hd. unfold a_digit in Hd.
      change (ch "+") with 43%N. change (ch "-") with 45%N. destruct (N.eqb_spec c 43), (N.eqb_spec c 45); auto; lia. }
    destruct ds as [|c ds]; [contradiction|].
    destruct He as [<-|[<-|[]]]; destruct Hs as [<-|[<-|[<-|[]]]]; cbn [js map list_ascii_of_string app exponent]; first [rewrite Hc; exact Hd | exact Hd].
Qed.
Lemma decimal_digits s n : decimal s n -> forallb digit s = true.
Proof. intros H. apply decimal_iff in H as [H _]. destruct s; [discriminate|exact H]. Qed.
Lemma decimal_ne s n : decimal s n -> s <> [].
Proof. intros H. apply decimal_iff in H as [H _]. now destruct s. Qed.
Lemma exp_part_head x : exp_part x -> match x with c :: _ => digit c = false | [] => True end.
Proof.
  intros [|e sg ds n He Hs Hd]; [exact I|]. destruct He as [<-|[<-|[]]]; reflexivity.
Qed.
Lemma fraction_iff s : fraction s = true <-> exists f x, s = f ++ x /\ frac_part f /\ exp_part x /\ s <> [].
Proof.
  split.
  - destruct s as [|c r]; [discriminate|]. cbn [fraction]. destruct (N.eqb_spec c (ch ".")) as [->|Nc].
    + destruct (span digit r) as [d t] eqn:Es. intros H. apply andb_prop in H as [Hd Ht]. destruct (span_spec _ _ _ _ Es) as (-> & _ & _).
      exists (js "." ++ d), t. split; [reflexivity|]. split; [apply fp_some with (n := digits_value d); now apply decimal_iff|]. split; [|discriminate].
      destruct t; [constructor|]. now apply exponent_iff in Ht as [Ht _].
    + intros H. apply exponent_iff in H as [H _]. exists [], (c :: r). split; [reflexivity|]. split; [constructor|]. split; [exact H | discriminate].
  - intros (f & x & -> & Hf & Hx & Hn). destruct Hf as [|ds n Hd].
    + cbn [app] in *. assert (He : exponent x = true) by (now apply exponent_iff). destruct x as [|c x]; [congruence|]. cbn [fraction].
      destruct (N.eqb_spec c (ch ".")) as [->|Nc]; [discriminate | exact He].
    + change ((js "." ++ ds) ++ x) with (ch "." :: (ds ++ x)). cbn [fraction]. change (N.eqb (ch ".") (ch ".")) with true. cbv iota.
      rewrite (span_app digit ds x (decimal_digits _ _ Hd) (exp_part_head x Hx)). apply decimal_iff in Hd as [-> _]. cbn [andb].
      destruct x; [reflexivity|]. apply exponent_iff. split; [exact Hx | discriminate].
Qed.
Lemma no_zero_iff s : no_leading_zero s = true <-> s = [48%N] \/ forall r, s <> 48%N :: r.
Proof.
  destruct s as [|c [|d s]]; cbn.
  - split; [intros _; right; discriminate | reflexivity].
  - split; [|reflexivity]. intros _. destruct (N.eq_dec c 48) as [->|Hn]; [now left | right; congruence].
  - rewrite negb_true_iff, N.eqb_neq. split; [intros Hn; right; congruence|]. intros [H|H]; [discriminate|]. intros ->. now apply (H (d :: s)).
Qed.
Lemma int_part_iff s n : int_part s n <-> all_digits s && no_leading_zero s = true /\ digits_value s = n.
Proof. unfold int_part. rewrite decimal_iff, andb_true_iff, no_zero_iff. tauto. Qed.

(** ** Doubles *)
Lemma round53_double z : (2 ^ 53 <= z < 2 ^ 1024)%Z -> round53 z = z -> exists m e, (z = m * 2 ^ e /\ Z.abs m < 2 ^ 53 /\ 0 <= e <= 971)%Z.
Proof.
  intros Hz. unfold round53. destruct (Z.ltb_spec z (2 ^ 53)); [lia|]. set (k := (Z.log2 z - 52)%Z). set (p := (2 ^ k)%Z).
  assert (Hl : (53 <= Z.log2 z <= 1023)%Z).
  { split; [apply Z.log2_le_pow2; lia|]. assert (Z.log2 z < 1024)%Z; [apply Z.log2_lt_pow2; lia | lia]. }
  assert (Hp : (0 < p)%Z) by (apply Z.pow_pos_nonneg; subst k; lia).
  assert (Hm : (z / p < 2 ^ 53)%Z).
  { apply Z.div_lt_upper_bound; [exact Hp|]. unfold p. rewrite <- Z.pow_add_r by (subst k; lia). replace (k + 53)%Z with (Z.succ (Z.log2 z)) by (subst k; lia).
    apply Z.log2_spec. lia. }
  assert (H0 : (0 <= z / p)%Z) by (apply Z.div_pos; lia).
  pose proof (Z.div_mod z p ltac:(lia)) as Ez. pose proof (Z.mod_pos_bound z p Hp) as Er.
  destruct (match (2 * (z mod p) ?= p)%Z with Eq => Z.odd (z / p) | Lt => false | Gt => true end); intros E; [nia|].
  exists (z / p)%Z, k. rewrite Z.abs_eq by exact H0. subst k. split; [symmetry; exact E | lia].
Qed.
Lemma double_round53 m e : (0 < m < 2 ^ 53 -> 0 <= e -> round53 (m * 2 ^ e) = m * 2 ^ e)%Z.
Proof.
  intros Hm He. unfold round53. destruct (Z.ltb_spec (m * 2 ^ e) (2 ^ 53)); [reflexivity|]. set (z := (m * 2 ^ e)%Z) in *. set (k := (Z.log2 z - 52)%Z).
  assert (Hk : (1 <= k <= e)%Z).
  { assert (53 <= Z.log2 z)%Z by (apply Z.log2_le_pow2; lia). split; [subst k; lia|]. subst k z. rewrite Z.log2_mul_pow2 by lia.
    assert (Z.log2 m < 53)%Z by (apply Z.log2_lt_pow2; lia). lia. }
  assert (Ez : z = ((m * 2 ^ (e - k)) * 2 ^ k)%Z).
  { subst z. rewrite <- Z.mul_assoc, <- Z.pow_add_r by lia. do 2 f_equal. lia. }
  assert (Hp : (0 < 2 ^ k)%Z) by (apply Z.pow_pos_nonneg; lia).
  assert (E1 : (z / 2 ^ k = m * 2 ^ (e - k))%Z) by (rewrite Ez; apply Z.div_mul; lia).
  assert (E2 : (z mod 2 ^ k = 0)%Z) by (rewrite Ez; apply Z.mod_mul; lia).
  rewrite E1, E2. destruct (Z.compare_spec (2 * 0) (2 ^ k)); try lia.
Qed.
Lemma double_iff n : double n = true <-> is_double n.
Proof.
  destruct n as [z|m e| | |]; cbn [double]; try (split; [discriminate | intros X; inversion X]).
  - rewrite andb_true_iff, Z.eqb_eq, Z.ltb_lt. unfold round_int. split.
    + intros [H1 H2]. destruct (Z.lt_ge_cases (Z.abs z) (2 ^ 53)) as [Hs|Hs].
      { replace z with (z * 2 ^ 0)%Z by lia. constructor; lia. }
      destruct (Z.leb_spec 0 z).
      * destruct (round53_double z ltac:(lia) H1) as (m & e & -> & Hm & He). now constructor.
      * destruct (round53_double (- z) ltac:(lia) ltac:(lia)) as (m & e & E & Hm & He). replace z with ((- m) * 2 ^ e)%Z by lia. constructor; lia.
    + intros X. inversion X as [m e Hm He E|]. subst z. clear X. assert (Hp : (0 < 2 ^ e)%Z) by (apply Z.pow_pos_nonneg; lia).
      assert (Hu : (Z.abs (m * 2 ^ e) < 2 ^ 1024)%Z).
      { rewrite Z.abs_mul, (Z.abs_eq (2 ^ e)) by lia. apply Z.lt_le_trans with (2 ^ 53 * 2 ^ e)%Z; [nia|]. rewrite <- Z.pow_add_r by lia. apply Z.pow_le_mono_r; lia. }
      split; [|exact Hu]. destruct (Z.leb_spec 0 (m * 2 ^ e)).
      * destruct (Z.eq_dec m 0) as [->|]; [reflexivity|]. apply double_round53; nia.
      * replace (- (m * 2 ^ e))%Z with ((- m) * 2 ^ e)%Z by lia. rewrite double_round53; nia.
  - rewrite !andb_true_iff, Z.ltb_lt, Pos.leb_le. split; [intros [[H1 H2] H3]; constructor; auto; lia | intros X; inversion X; subst; repeat split; auto; lia].
Qed.

Section Text.
Context (lit : num -> jstr) (num_of : jstr -> num).
Local Notation value_text := (value_text num_of).
Local Notation elements_text := (elements_text num_of).
Local Notation members_text := (members_text num_of).
Local Notation json_text := (json_text num_of).
Local Notation read_number := (read_number num_of).
Local Notation read_value := (read_value num_of).
Local Notation read_elements := (read_elements num_of).
Local Notation read_members := (read_members num_of).
Local Notation parse := (parse num_of).

Lemma neg_zero s : int_part s 0 -> s = [48%N].
Proof.
  intros [H [->|Hn]]; [reflexivity|]. exfalso. assert (X : forall s n, decimal s n -> (forall r, s <> 48%N :: r) -> n <> 0%N); [|exact (X s 0%N H Hn eq_refl)].
  clear. induction 1 as [c Hc|s n c Hs IH Hc]; intros Hn.
  - intros E. apply (Hn []). f_equal. unfold a_digit in Hc. lia.
  - assert (n <> 0%N); [|lia]. apply IH. intros r ->. now apply (Hn (r ++ [c])).
Qed.

(** The numbers of the grammar. *)
Inductive number_text : jstr -> json -> Prop :=
| nt_nat s n : int_part s n -> number_text s (JInt (Z.of_N n))
| nt_neg s n : int_part s n -> n <> 0%N -> number_text (js "-" ++ s) (JInt (- Z.of_N n))
| nt_minus_zero : number_text (js "-0") (JFloat (NInt 0))
| nt_float s : float_literal s -> number_text s (JFloat (num_of s)).
Lemma number_value s j : number_text s j -> value_text s j.
Proof. intros []; econstructor; eauto. Qed.

Lemma int_head s n : int_part s n -> exists c r, s = c :: r /\ a_digit c.
Proof.
  intros [H _]. apply decimal_digits in H as Hd. apply decimal_ne in H. destruct s as [|c r]; [congruence|]. exists c, r. split; [reflexivity|].
  cbn in Hd. apply andb_prop in Hd as [Hd _]. now apply digit_iff.
Qed.
Lemma tail_head f x : frac_part f -> exp_part x -> match f ++ x with c :: _ => digit c = false | [] => True end.
Proof. intros [|ds n _] Hx; [exact (exp_part_head x Hx) | reflexivity]. Qed.

Lemma read_number_iff s j : read_number s = Some j <-> number_text s j.
Proof.
  assert (S1 : forall neg t, (if neg : bool then s = ch "-" :: t else s = t) ->
    (let '(i, f) := span digit t in
     if all_digits i && no_leading_zero i then
       match f with
       | [] => let n := digits_value i in Some (if neg then (if N.eqb n 0 then JFloat (NInt 0) else JInt (- Z.of_N n)) else JInt (Z.of_N n))
       | _ => if fraction f then Some (JFloat (num_of s)) else None
       end else None) = Some j -> number_text s j).
  { intros neg t Es. destruct (span digit t) as [i f] eqn:Ei. destruct (span_spec _ _ _ _ Ei) as (-> & _ & _).
    destruct (all_digits i && no_leading_zero i) eqn:Eok; [|discriminate].
    assert (Hi : int_part i (digits_value i)) by (apply int_part_iff; auto).
    destruct f as [|c f].
    - rewrite app_nil_r in Es. cbv zeta. intros [= <-]. destruct neg; [|subst s; now constructor]. destruct (N.eqb_spec (digits_value i) 0) as [E0|N0].
      + rewrite E0 in Hi. apply neg_zero in Hi as ->. rewrite Es. constructor.
      + rewrite Es. now constructor.
    - destruct (fraction (c :: f)) eqn:Ef; [|discriminate]. intros [= <-]. apply fraction_iff in Ef as (f1 & x & E & Hf & Hx & _).
      constructor. exists (if neg then js "-" else []), i, (digits_value i), f1, x. rewrite <- E. split; [|split; [|split; [exact Hi|split; [exact Hf|split; [exact Hx|congruence]]]]].
      + destruct neg; exact Es.
      + destruct neg; cbn; auto. }
  split.
  - unfold JsonText.read_number. destruct s as [|c r]; [discriminate|]. destruct (N.eqb_spec c (ch "-")) as [->|Nc]; [apply (S1 true r eq_refl) | apply (S1 false (c :: r) eq_refl)].
  - clear S1. intros H.
    assert (G : forall (neg : bool) i n t, int_part i n -> match t with c :: _ => digit c = false | [] => True end ->
      s = (if neg then js "-" else []) ++ i ++ t ->
      read_number s = match t with [] => Some (if neg then (if N.eqb n 0 then JFloat (NInt 0) else JInt (- Z.of_N n)) else JInt (Z.of_N n))
                      | _ => if fraction t then Some (JFloat (num_of s)) else None end).
    { intros neg i n t Hi Ht Es. destruct (int_head i n Hi) as (c & r & Ec & Hc). apply int_part_iff in Hi as [Hok Hv].
      unfold JsonText.read_number.
      replace (match s with c0 :: r0 => if N.eqb c0 (ch "-") then (true, r0) else (false, s) | [] => (false, s) end) with (neg, i ++ t).
      2:{ rewrite Es. destruct neg; [reflexivity|]. cbn [app]. rewrite Ec. cbn [app]. destruct (N.eqb_spec c (ch "-")) as [->|]; [|reflexivity].
          unfold a_digit in Hc. change (ch "-") with 45%N in Hc. lia. }
      assert (Hd : forallb digit i = true) by (apply andb_prop in Hok as [Hok _]; destruct i; [discriminate | exact Hok]).
      rewrite (span_app digit i t Hd Ht), Hok, Hv. reflexivity. }
    destruct H as [s n Hi|s n Hi Hn| |s (sg & i & n & f & x & Es & Hsg & Hi & Hf & Hx & Hne)].
    + exact (G false s n [] Hi I (eq_sym (app_nil_r s))).
    + rewrite (G true s n [] Hi I) by now rewrite app_nil_r. now apply N.eqb_neq in Hn as ->.
    + reflexivity.
    + assert (Hfr : fraction (f ++ x) = true) by (apply fraction_iff; exists f, x; auto).
      rewrite (G (match sg with [] => false | _ => true end) i n (f ++ x) Hi (tail_head f x Hf Hx)).
      * destruct (f ++ x); [congruence|]. now rewrite Hfr.
      * destruct Hsg as [<-|[<-|[]]]; exact Es.
Qed.

Lemma number_chars s j : number_text s j -> forallb number_char s = true.
Proof.
  assert (D : forall s, forallb digit s = true -> forallb number_char s = true).
  { intros l H. rewrite forallb_forall in *. intros c Hc. unfold number_char. now rewrite (H c Hc). }
  intros [l n [H _]|l n [H _] _| |l (sg & i & n & f & x & -> & Hsg & [Hi _] & Hf & Hx & _)].
  - apply decimal_digits in H. now apply D.
  - change (js "-" ++ l) with (ch "-" :: l). cbn [forallb]. now apply decimal_digits, D in H.
  - reflexivity.
  - rewrite !forallb_app. apply decimal_digits, D in Hi. rewrite Hi.
    assert (forallb number_char sg = true) as -> by (destruct Hsg as [<-|[<-|[]]]; reflexivity).
    assert (forallb number_char f = true) as ->.
    { destruct Hf as [|ds m Hd]; [reflexivity|]. rewrite forallb_app. apply decimal_digits, D in Hd. now rewrite Hd. }
    destruct Hx as [|e sg' ds m He Hs Hd]; [reflexivity|]. rewrite !forallb_app. apply decimal_digits, D in Hd. rewrite Hd.
    destruct He as [<-|[<-|[]]]; destruct Hs as [<-|[<-|[<-|[]]]]; reflexivity.
Qed.
Lemma number_head s j : number_text s j -> exists c r, s = c :: r /\ (a_digit c \/ c = ch "-").
Proof.
  intros [l n H|l n H _| |l (sg & i & n & f & x & -> & Hsg & Hi & _)].
  - destruct (int_head l n H) as (c & r & -> & Hc). eauto.
  - exists (ch "-"), l. auto.
  - eexists _, _. split; [reflexivity | now right].
  - destruct (int_head i n Hi) as (c & r & -> & Hc). destruct Hsg as [<-|[<-|[]]]; cbn; eauto.
Qed.

(** ** Values *)
Definition starts (c : N) : Prop := In c [34; 91; 123; 110; 116; 102; 45]%N \/ a_digit c.
Lemma value_head s j : value_text s j -> exists c r, s = c :: r /\ starts c.
Proof.
  assert (Nm : number_text s j -> exists c r, s = c :: r /\ starts c).
  { intros H. destruct (number_head s j H) as (c & r & E & [X|X]); exists c, r; (split; [exact E|]); [now right | left; rewrite X; cbn; tauto]. }
  intros H. destruct H; try (eexists _, _; split; [reflexivity|]; left; cbn; tauto).
  - apply Nm. now constructor.
  - apply Nm. now constructor.
  - destruct H as (t & -> & _). eexists _, _. split; [reflexivity|]. left. cbn. tauto.
Qed.
Lemma starts_blank c : starts c -> blank c = false /\ c <> 93%N /\ c <> 125%N /\ c <> 44%N.
Proof.
  intros H. assert (R : In c [34; 91; 123; 110; 116; 102; 45; 48; 49; 50; 51; 52; 53; 54; 55; 56; 57]%N).
  { destruct H as [H|H]; [cbn in *; tauto|]. unfold a_digit in H. cbn. lia. }
  cbn in R. repeat destruct R as [<-|R]; try contradiction; repeat split; reflexivity || discriminate.
Qed.
Lemma skip_value s j t : value_text s j -> skip (s ++ t) = s ++ t.
Proof. intros H. destruct (value_head s j H) as (c & r & -> & Hc). cbn. now destruct (starts_blank c Hc) as [-> _]. Qed.

Definition follows (t : jstr) : Prop := match t with c :: _ => number_char c = false | [] => True end.
Lemma follows_ws w t : ws w -> follows t -> follows (w ++ t).
Proof.
  intros [|c w' Hc _] H; [exact H|]. cbn. cbn in Hc. repeat destruct Hc as [<-|Hc]; try contradiction; reflexivity.
Qed.

Lemma after_prefix_app p s : after_prefix p (p ++ s) = Some s.
Proof. induction p as [|c p IH]; [now destruct s|]. cbn. now rewrite N.eqb_refl. Qed.
Lemma after_prefix_sound p : forall s t, after_prefix p s = Some t -> s = p ++ t.
Proof.
  induction p as [|c p IH]; intros s t; cbn; [destruct s; now intros [= <-]|]. destruct s as [|d s]; [discriminate|].
  destruct (N.eqb_spec c d) as [->|]; [|discriminate]. intros H. f_equal. now apply IH.
Qed.

(** The equations of the readers. *)
Lemma read_value_eq n s : read_value (S n) s =
      match s with
      | [] => None
      | c :: r =>
          if N.eqb c (ch """") then match read_string r with Some (x, t) => Some (JStr x, t) | None => None end
          else if N.eqb c (ch "[") then
            match is_char "]" (skip r) with
            | Some t => Some (JArr [], t)
            | None => match read_elements n (skip r) with Some (l, t) => Some (JArr l, t) | None => None end
            end
          else if N.eqb c (ch "{") then
            match is_char "}" (skip r) with
            | Some t => Some (JObj [], t)
            | None => match read_members n (skip r) with Some (l, t) => Some (JObj l, t) | None => None end
            end
          else if N.eqb c (ch "n") then match after_prefix (js "null") s with Some t => Some (JNull, t) | None => None end
          else if N.eqb c (ch "t") then match after_prefix (js "true") s with Some t => Some (JBool true, t) | None => None end
          else if N.eqb c (ch "f") then match after_prefix (js "false") s with Some t => Some (JBool false, t) | None => None end
          else
            let '(x, t) := span number_char s in
            match read_number x with Some j => Some (j, t) | None => None end
      end.
Proof. reflexivity. Qed.
Lemma read_elements_eq n s : read_elements (S n) s =
      match read_value n s with
      | Some (j, t) =>
          match is_char "," (skip t), is_char "]" (skip t) with
          | Some t, _ => match read_elements n (skip t) with Some (l, u) => Some (j :: l, u) | None => None end
          | None, Some t => Some ([j], t)
          | None, None => None
          end
      | None => None
      end.
Proof. reflexivity. Qed.
Lemma read_members_eq n s : read_members (S n) s =
      match is_char """" s with
      | Some s =>
          match read_string s with
          | Some (k, t) =>
              match is_char ":" (skip t) with
              | Some t =>
                  match read_value n (skip t) with
                  | Some (j, t) =>
                      match is_char "," (skip t), is_char "}" (skip t) with
                      | Some t, _ => match read_members n (skip t) with Some (l, u) => Some ((k, j) :: l, u) | None => None end
                      | None, Some t => Some ([(k, j)], t)
                      | None, None => None
                      end
                  | None => None
                  end
              | None => None
              end
          | None => None
          end
      | None => None
      end.
Proof. reflexivity. Qed.

(** What is left over is preceded by a value. *)
Lemma read_sound n :
  (forall s j t, read_value n s = Some (j, t) -> exists p, s = p ++ t /\ value_text p j) /\
  (forall s l t, read_elements n s = Some (l, t) -> exists p, s = p ++ js "]" ++ t /\ elements_text p l) /\
  (forall s l t, read_members n s = Some (l, t) -> exists p, s = p ++ js "}" ++ t /\ members_text p l).
Proof.
  induction n as [|n (IH1 & IH2 & IH3)]; [refine (conj _ (conj _ _)); intros s ? ? H; discriminate H|].
  refine (conj _ (conj _ _)).
  - intros s j t. rewrite read_value_eq. destruct s as [|c r]; [discriminate|].
    destruct (N.eqb_spec c (ch """")) as [->|N1].
    { destruct (read_string r) as [[x u]|] eqn:E; [|discriminate]. intros [= <- <-]. destruct (read_string_sound _ _ _ E) as (p & -> & Hp).
      exists (js """" ++ p ++ js """"). split; [cbn; now rewrite <- app_assoc|]. constructor. exists p. auto. }
    destruct (N.eqb_spec c (ch "[")) as [->|N2].
    { destruct (skip_split r) as (w & Er & Hw). destruct (is_char "]" (skip r)) as [u|] eqn:E.
      - intros [= <- <-]. apply is_char_iff in E. exists (js "[" ++ w ++ js "]"). split; [|now constructor]. rewrite Er, E. cbn. now rewrite <- app_assoc.
      - destruct (read_elements n (skip r)) as [[l u]|] eqn:E2; [|discriminate]. intros [= <- <-]. apply IH2 in E2 as (p & E2 & Hp).
        exists (js "[" ++ (w ++ p) ++ js "]"). split; [rewrite Er, E2; cbn; now rewrite <- !app_assoc|]. constructor.
        inversion Hp as [w0 q w1 j A1 A2 A3 B|w0 q w1 j q' l0 A1 A2 A3 A4 B]; subst; rewrite (app_assoc w w0); constructor; auto; now apply Forall_app. }
    destruct (N.eqb_spec c (ch "{")) as [->|N3].
    { destruct (skip_split r) as (w & Er & Hw). destruct (is_char "}" (skip r)) as [u|] eqn:E.
      - intros [= <- <-]. apply is_char_iff in E. exists (js "{" ++ w ++ js "}"). split; [|now constructor]. rewrite Er, E. cbn. now rewrite <- app_assoc.
      - destruct (read_members n (skip r)) as [[l u]|] eqn:E2; [|discriminate]. intros [= <- <-]. apply IH3 in E2 as (p & E2 & Hp).
        exists (js "{" ++ (w ++ p) ++ js "}"). split; [rewrite Er, E2; cbn; now rewrite <- !app_assoc|]. constructor.
        inversion Hp; subst; rewrite (app_assoc w w0); constructor; auto; now apply Forall_app. }
    destruct (N.eqb_spec c (ch "n")) as [->|N4].
    { destruct (after_prefix (js "null") _) as [u|] eqn:E; [|discriminate]. intros [= <- <-]. apply after_prefix_sound in E. eexists. split; [exact E | constructor]. }
    destruct (N.eqb_spec c (ch "t")) as [->|N5].
    { destruct (after_prefix (js "true") _) as [u|] eqn:E; [|discriminate]. intros [= <- <-]. apply after_prefix_sound in E. eexists. split; [exact E | constructor]. }
    destruct (N.eqb_spec c (ch "f")) as [->|N6].
    { destruct (after_prefix (js "false") _) as [u|] eqn:E; [|discriminate]. intros [= <- <-]. apply after_prefix_sound in E. eexists. split; [exact E | constructor]. }
    destruct (span number_char (c :: r)) as [x u] eqn:E. destruct (read_number x) as [j'|] eqn:En; [|discriminate]. intros [= <- <-].
    apply span_spec in E as (E & _). exists x. split; [exact E|]. apply number_value. now apply read_number_iff.
  - intros s l t. rewrite read_elements_eq. destruct (read_value n s) as [[j u]|] eqn:E; [|discriminate]. apply IH1 in E as (p & -> & Hp).
    destruct (skip_split u) as (w & Eu & Hw). destruct (is_char "," (skip u)) as [u1|] eqn:E1.
    + apply is_char_iff in E1. destruct (read_elements n (skip u1)) as [[l' u2]|] eqn:E2; [|discriminate]. intros [= <- <-].
      apply IH2 in E2 as (q & E2 & Hq). destruct (skip_split u1) as (w1 & Eu1 & Hw1).
      exists ([] ++ p ++ w ++ js "," ++ (w1 ++ q)). split; [rewrite Eu, E1, Eu1, E2; cbn; now rewrite <- !app_assoc; cbn; rewrite <- !app_assoc|].
      constructor; auto. inversion Hq; subst; rewrite (app_assoc w1 w0); constructor; auto; now apply Forall_app.
    + destruct (is_char "]" (skip u)) as [u1|] eqn:E2; [|discriminate]. intros [= <- <-]. apply is_char_iff in E2.
      exists ([] ++ p ++ w). split; [rewrite Eu, E2; cbn; now rewrite <- !app_assoc|]. now constructor.
  - intros s l t. rewrite read_members_eq. destruct (is_char """" s) as [s1|] eqn:Es; [|discriminate]. apply is_char_iff in Es as ->.
    destruct (read_string s1) as [[k t1]|] eqn:Ek; [|discriminate]. apply read_string_sound in Ek as (pk & -> & Hk).
    destruct (skip_split t1) as (w1 & E1 & Hw1). destruct (is_char ":" (skip t1)) as [t2|] eqn:E2; [|discriminate]. apply is_char_iff in E2.
    destruct (skip_split t2) as (w2 & E3 & Hw2). destruct (read_value n (skip t2)) as [[j u]|] eqn:E; [|discriminate]. apply IH1 in E as (p & Ep & Hp).
    destruct (skip_split u) as (w3 & Eu & Hw3).
    assert (Hkt : string_text (js """" ++ pk ++ js """") k) by (exists pk; auto).
    destruct (is_char "," (skip u)) as [u1|] eqn:F1.
    + apply is_char_iff in F1. destruct (read_members n (skip u1)) as [[l' u2]|] eqn:F2; [|discriminate]. intros [= <- <-].
      apply IH3 in F2 as (q & F2 & Hq). destruct (skip_split u1) as (w4 & Eu1 & Hw4).
      exists ([] ++ (js """" ++ pk ++ js """") ++ w1 ++ js ":" ++ w2 ++ p ++ w3 ++ js "," ++ (w4 ++ q)).
      split; [rewrite E1, E2, E3, Ep, Eu, F1, Eu1, F2; cbn; now repeat (rewrite <- !app_assoc; cbn)|].
      constructor; auto. inversion Hq; subst; rewrite (app_assoc w4 w); constructor; auto; now apply Forall_app.
    + destruct (is_char "}" (skip u)) as [u1|] eqn:F2; [|discriminate]. intros [= <- <-]. apply is_char_iff in F2.
      exists ([] ++ (js """" ++ pk ++ js """") ++ w1 ++ js ":" ++ w2 ++ p ++ w3).
      split; [rewrite E1, E2, E3, Ep, Eu, F2; cbn; now repeat (rewrite <- !app_assoc; cbn)|]. now constructor.
Qed.

(** A text of the grammar is read whole, whatever follows. *)
Scheme value_text_ind2 := Minimality for JsonTextSpec.value_text Sort Prop
  with elements_text_ind2 := Minimality for JsonTextSpec.elements_text Sort Prop
  with members_text_ind2 := Minimality for JsonTextSpec.members_text Sort Prop.
Combined Scheme text_ind from value_text_ind2, elements_text_ind2, members_text_ind2.

Lemma read_value_number n s j t : number_text s j -> follows t -> read_value (S n) (s ++ t) = Some (j, t).
Proof.
  intros H Ht. destruct (number_head s j H) as (c & r & Es & Hc).
  rewrite read_value_eq. rewrite Es at 1. cbn [app].
  assert (Hn : forall a, number_char (ch a) = false -> N.eqb c (ch a) = false).
  { intros a Ha. apply N.eqb_neq. intros ->. pose proof (number_chars s j H) as X. rewrite Es in X. cbn [forallb] in X. now rewrite Ha in X. }
  rewrite !Hn by reflexivity. clear Hn.
  replace (c :: r ++ t) with (s ++ t) by now rewrite Es.
  rewrite (span_app number_char s t (number_chars s j H) Ht). apply read_number_iff in H. now rewrite H.
Qed.
Lemma skip_char a t : blank (ch a) = false -> skip (js (String a EmptyString) ++ t) = js (String a EmptyString) ++ t.
Proof. intros H. cbn. change (N_of_ascii a) with (ch a). now rewrite H. Qed.

Lemma value_pos s j : value_text s j -> 1 <= List.length s.
Proof. intros H. destruct (value_head s j H) as (c & r & -> & _). cbn. lia. Qed.

Lemma read_complete :
  (forall s j, value_text s j -> forall n t, follows t -> 2 * List.length s <= n -> read_value n (s ++ t) = Some (j, t)) /\
  (forall s l, elements_text s l -> forall n t, 2 * List.length s + 1 <= n ->
     is_char "]" (skip (s ++ js "]" ++ t)) = None /\ read_elements n (skip (s ++ js "]" ++ t)) = Some (l, t)) /\
  (forall s l, members_text s l -> forall n t, 2 * List.length s + 1 <= n ->
     is_char "}" (skip (s ++ js "}" ++ t)) = None /\ read_members n (skip (s ++ js "}" ++ t)) = Some (l, t)).
Proof.
  apply text_ind.
  - intros [|n] t Ht Hn; [cbn in Hn; lia|]. reflexivity.
  - intros [|n] t Ht Hn; [cbn in Hn; lia|]. reflexivity.
  - intros [|n] t Ht Hn; [cbn in Hn; lia|]. reflexivity.
  - intros s n H [|m] t Ht Hm; [|now apply read_value_number; [constructor|]].
    apply vt_nat with (num_of := num_of) in H. apply value_pos in H. lia.
  - intros s n H H0 [|m] t Ht Hm; [cbn in Hm; lia|now apply read_value_number; [constructor|]].
  - intros [|m] t Ht Hm; [cbn in Hm; lia|]. apply read_value_number; [constructor | exact Ht].
  - intros s H [|m] t Ht Hm; [|now apply read_value_number; [constructor|]].
    apply vt_float with (num_of := num_of) in H. apply value_pos in H. lia.
  - intros s v (p & -> & Hp) [|n] t Ht Hn; [cbn in Hn; lia|]. rewrite <- !app_assoc. cbn [js map list_ascii_of_string app]. rewrite read_value_eq.
    change (N_of_ascii """") with (ch """"). rewrite N.eqb_refl. change (ch """" :: t) with (js """" ++ t). now rewrite (read_string_complete p v t Hp).
  - intros w Hw [|n] t Ht Hn; [cbn in Hn; lia|]. change ((js "[" ++ w ++ js "]") ++ t) with (ch "[" :: (w ++ js "]") ++ t). rewrite <- app_assoc.
    rewrite read_value_eq. change (N.eqb (ch "[") (ch """")) with false. change (N.eqb (ch "[") (ch "[")) with true. cbv iota.
    now rewrite (skip_ws w _ Hw).
  - intros s l _ IH [|n] t Ht Hn; [cbn in Hn; lia|]. change ((js "[" ++ s ++ js "]") ++ t) with (ch "[" :: (s ++ js "]") ++ t). rewrite <- app_assoc.
    rewrite read_value_eq. change (N.eqb (ch "[") (ch """")) with false. change (N.eqb (ch "[") (ch "[")) with true. cbv iota.
    destruct (IH n t) as [-> ->]; [|reflexivity]. rewrite !app_length in Hn. cbn in Hn. lia.
  - intros w Hw [|n] t Ht Hn; [cbn in Hn; lia|]. change ((js "{" ++ w ++ js "}") ++ t) with (ch "{" :: (w ++ js "}") ++ t). rewrite <- app_assoc.
    rewrite read_value_eq. change (N.eqb (ch "{") (ch """")) with false. change (N.eqb (ch "{") (ch "[")) with false. change (N.eqb (ch "{") (ch "{")) with true. cbv iota.
    now rewrite (skip_ws w _ Hw).
  - intros s l _ IH [|n] t Ht Hn; [cbn in Hn; lia|]. change ((js "{" ++ s ++ js "}") ++ t) with (ch "{" :: (s ++ js "}") ++ t). rewrite <- app_assoc.
    rewrite read_value_eq. change (N.eqb (ch "{") (ch """")) with false. change (N.eqb (ch "{") (ch "[")) with false. change (N.eqb (ch "{") (ch "{")) with true. cbv iota.
    destruct (IH n t) as [-> ->]; [|reflexivity]. rewrite !app_length in Hn. cbn in Hn. lia.
  - intros w s w' j Hw Hs IH Hw' n t Hn. rewrite !app_length in Hn. rewrite <- !app_assoc, (skip_ws w _ Hw), (skip_value s j _ Hs).
    split; [destruct (value_head s j Hs) as (c & r & -> & Hc); apply is_char_none; now destruct (starts_blank c Hc) as (_ & X & _)|].
    destruct n as [|n]; [lia|]. rewrite read_elements_eq. rewrite IH; [|apply follows_ws; [exact Hw' | reflexivity]|lia].
    now rewrite (skip_ws w' _ Hw').
  - intros w s w' j q l Hw Hs IH Hw' _ IHl n t Hn. rewrite !app_length in Hn. cbn in Hn. pose proof (value_pos s j Hs) as Hp.
    rewrite <- !app_assoc, (skip_ws w _ Hw), (skip_value s j _ Hs).
    split; [destruct (value_head s j Hs) as (c & r & -> & Hc); apply is_char_none; now destruct (starts_blank c Hc) as (_ & X & _)|].
    destruct n as [|n]; [lia|]. rewrite read_elements_eq. rewrite IH; [|apply follows_ws; [exact Hw' | reflexivity]|lia].
    rewrite (skip_ws w' _ Hw'). destruct (IHl n t ltac:(lia)) as [_ X].
    change (skip (js "," ++ q ++ js "]" ++ t)) with (ch "," :: q ++ js "]" ++ t). cbn [is_char]. rewrite N.eqb_refl. now rewrite X.
  - intros w sk w1 w2 s w3 k j Hw (p & -> & Hk) Hw1 Hw2 Hs IH Hw3 n t Hn. rewrite !app_length in Hn. cbn in Hn.
    rewrite <- !app_assoc, (skip_ws w _ Hw). split; [reflexivity|]. destruct n as [|n]; [lia|].
    rewrite skip_char by reflexivity. rewrite read_members_eq.
    change (is_char """" (js """" ++ p ++ js """" ++ w1 ++ js ":" ++ w2 ++ s ++ w3 ++ js "}" ++ t)) with (Some (p ++ js """" ++ w1 ++ js ":" ++ w2 ++ s ++ w3 ++ js "}" ++ t)).
    cbv iota. rewrite (read_string_complete p k _ Hk), (skip_ws w1 _ Hw1), skip_char by reflexivity.
    change (is_char ":" (js ":" ++ w2 ++ s ++ w3 ++ js "}" ++ t)) with (Some (w2 ++ s ++ w3 ++ js "}" ++ t)). cbv iota.
    rewrite (skip_ws w2 _ Hw2), (skip_value s j _ Hs), IH; [|apply follows_ws; [exact Hw3 | reflexivity]|lia].
    now rewrite (skip_ws w3 _ Hw3).
  - intros w sk w1 w2 s w3 k j q l Hw (p & -> & Hk) Hw1 Hw2 Hs IH Hw3 _ IHl n t Hn. rewrite !app_length in Hn. cbn in Hn.
    rewrite <- !app_assoc, (skip_ws w _ Hw). split; [reflexivity|]. destruct n as [|n]; [lia|].
    rewrite skip_char by reflexivity. rewrite read_members_eq.
    match goal with |- context [is_char """" (js """" ++ ?x)] => change (is_char """" (js """" ++ x)) with (Some x) end.
    cbv iota. rewrite (read_string_complete p k _ Hk), (skip_ws w1 _ Hw1), skip_char by reflexivity.
    match goal with |- context [is_char ":" (js ":" ++ ?x)] => change (is_char ":" (js ":" ++ x)) with (Some x) end. cbv iota.
    rewrite (skip_ws w2 _ Hw2), (skip_value s j _ Hs), IH; [|apply follows_ws; [exact Hw3 | reflexivity]|lia].
    rewrite (skip_ws w3 _ Hw3). destruct (IHl n t ltac:(lia)) as [_ X].
    change (skip (js "," ++ q ++ js "}" ++ t)) with (ch "," :: q ++ js "}" ++ t). cbn [is_char]. rewrite N.eqb_refl. now rewrite X.
Qed.

Lemma skip_length s : List.length (skip s) <= List.length s.
Proof. induction s as [|c s IH]; [reflexivity|]. cbn. destruct (blank c); cbn; lia. Qed.

Theorem parse_iff s j : parse s = Some j <-> json_text s j.
Proof.
  split.
  - unfold JsonText.parse. destruct (read_value _ (skip s)) as [[j' t]|] eqn:E; [|discriminate]. destruct (skip t) eqn:Et; [|discriminate]. intros [= ->].
    apply (read_sound _) in E as (p & E & Hp). destruct (skip_split s) as (w & Es & Hw). destruct (skip_split t) as (w' & Et' & Hw').
    rewrite Et, app_nil_r in Et'. subst w'. exists w, p, t. rewrite <- E. auto.
  - intros (w & p & w' & -> & Hw & Hp & Hw'). unfold JsonText.parse. rewrite (skip_ws w _ Hw), (skip_value p j w' Hp).
    rewrite (proj1 read_complete p j Hp).
    + now rewrite (skip_all w' Hw').
    + rewrite <- (app_nil_r w'). now apply follows_ws.
    + rewrite !app_length. lia.
Qed.

Corollary one_document s j j' : json_text s j -> json_text s j' -> j = j'.
Proof. intros H H'. apply parse_iff in H, H'. congruence. Qed.

(** ** What is written *)
Lemma hex_hex d : (d < 16)%N -> hex_digit (hex d) d.
Proof. intros H. unfold hex. destruct (N.ltb_spec d 10); constructor; lia. Qed.
Lemma u_escape_text u : (u < 65536)%N -> char_text (u_escape u) u.
Proof.
  intros H. unfold u_escape. change [ch "\"; ch "u"; hex (u / 4096); hex (u / 256 mod 16); hex (u / 16 mod 16); hex (u mod 16)]%N
    with (js "\u" ++ [hex (u / 4096); hex (u / 256 mod 16); hex (u / 16 mod 16); hex (u mod 16)])%N.
  assert (E : (u = u / 4096 * 4096 + (u / 256 mod 16) * 256 + (u / 16 mod 16) * 16 + u mod 16)%N).
  { pose proof (N.div_mod u 16 ltac:(lia)) as E1. pose proof (N.div_mod (u / 16) 16 ltac:(lia)) as E2. pose proof (N.div_mod (u / 256) 16 ltac:(lia)) as E3.
    pose proof (N.div_div u 16 16 ltac:(lia) ltac:(lia)) as D1. pose proof (N.div_div u 256 16 ltac:(lia) ltac:(lia)) as D2.
    change (16 * 16)%N with 256%N in D1. change (256 * 16)%N with 4096%N in D2. rewrite D1 in E2. rewrite D2 in E3. lia. }
  rewrite E at 5. constructor; apply hex_hex; try (apply N.mod_lt; lia). apply N.div_lt_upper_bound; lia.
Qed.
Lemma high_iff u : high u = true <-> (55296 <= u <= 56319)%N.
Proof. unfold high. rewrite andb_true_iff, !N.leb_le. reflexivity. Qed.
Lemma low_iff u : low u = true <-> (56320 <= u <= 57343)%N.
Proof. unfold low. rewrite andb_true_iff, !N.leb_le. reflexivity. Qed.
Lemma escaped_text u : char_text (escaped u) u.
Proof.
  unfold escaped.
  repeat match goal with
  | |- context [N.eqb u ?k] => destruct (N.eqb_spec u k) as [->|?];
      [match goal with |- char_text [?b; ?c] _ => change [b; c] with (js "\" ++ js (String (ascii_of_N c) EmptyString)); constructor; cbn; tauto end|]
  end.
  destruct (N.ltb_spec u 32); [apply u_escape_text; lia|]. constructor; auto.
Qed.
Lemma quoted_text s : chars_text (quoted s) s.
Proof.
  induction s as [s IH] using (induction_ltof1 _ (@List.length N)). unfold ltof in IH. destruct s as [|u r]; [constructor|].
  cbn [quoted]. destruct (high u) eqn:Hu.
  - pose proof (proj1 (high_iff u) Hu) as Hb. destruct r as [|v r']; [rewrite <- (app_nil_r (u_escape u)); constructor; [apply u_escape_text; lia | constructor]|].
    destruct (low v) eqn:Hv.
    + pose proof (proj1 (low_iff v) Hv) as Hc. change (u :: v :: quoted r') with ([u] ++ [v] ++ quoted r'). constructor; [constructor; lia|]. constructor; [constructor; lia|].
      apply IH. cbn. lia.
    + constructor; [apply u_escape_text; lia|]. apply IH. cbn. lia.
  - destruct (low u) eqn:Hl; (constructor; [|apply IH; cbn; lia]).
    + apply u_escape_text. apply low_iff in Hl. lia.
    + apply escaped_text.
Qed.
Lemma quote_text s : string_text (quote s) s.
Proof. exists (quoted s). split; [reflexivity | apply quoted_text]. Qed.

(** Decimal digits. *)
Local Notation step := (fun n c : N => 10 * n + (c - 48))%N.
Lemma of_uint_acc d : forall p, fold_left step (of_uint d) (N.pos p) = N.pos (Pos.of_uint_acc d p).
Proof. induction d; intros p; cbn [of_uint fold_left Pos.of_uint_acc]; [reflexivity|..]; rewrite <- IHd; f_equal; lia. Qed.
Lemma of_uint_value d : digits_value (of_uint d) = N.of_uint d.
Proof.
  unfold digits_value. change (N.of_uint d) with (Pos.of_uint d).
  induction d; cbn [of_uint fold_left Pos.of_uint]; [reflexivity|exact IHd|..]; rewrite <- of_uint_acc; reflexivity.
Qed.
Lemma of_uint_digits d : forallb digit (of_uint d) = true.
Proof. induction d; [reflexivity|..]; exact IHd. Qed.
Lemma to_uint_norm n : N.to_uint n = Decimal.unorm (N.to_uint n).
Proof. rewrite <- (DecimalN.Unsigned.of_to n) at 1. apply DecimalN.Unsigned.to_of. Qed.
Lemma print_nat_text n : int_part (print_nat n) n.
Proof.
  unfold print_nat. apply int_part_iff. split.
  - apply andb_true_intro. pose proof (of_uint_digits (N.to_uint n)) as Hd.
    assert (Hc : N.to_uint n = Decimal.D0 Decimal.Nil \/ forall d, N.to_uint n <> Decimal.D0 d /\ N.to_uint n <> Decimal.Nil).
    { rewrite (to_uint_norm n). unfold Decimal.unorm. destruct (Decimal.nzhead (N.to_uint n)) eqn:E; auto; right; intros d'; split; try discriminate;
      intros E'; apply (DecimalFacts.nzhead_nonzero (N.to_uint n) d'); congruence. }
    destruct Hc as [->|Hc]; [split; reflexivity|]. destruct (N.to_uint n) as [|d|d|d|d|d|d|d|d|d|d]; [now destruct (Hc Decimal.Nil)|now destruct (Hc d)|..];
      (split; [exact Hd | cbn; now destruct (of_uint d)]).
  - rewrite of_uint_value. apply DecimalN.Unsigned.of_to.
Qed.
Lemma print_int_text z : number_text (print_int z) (JInt z).
Proof.
  unfold print_int. destruct (Z.ltb_spec z 0).
  - replace (JInt z) with (JInt (- Z.of_N (Z.abs_N z))) by (f_equal; lia). change (ch "-" :: print_nat (Z.abs_N z)) with (js "-" ++ print_nat (Z.abs_N z)).
    constructor; [apply print_nat_text | lia].
  - replace (JInt z) with (JInt (Z.of_N (Z.abs_N z))) by (f_equal; lia). constructor. apply print_nat_text.
Qed.

(** Documents. *)
Lemma json_nested (P : json -> Prop) : P JNull -> (forall b, P (JBool b)) -> (forall z, P (JInt z)) -> (forall n, P (JFloat n)) -> (forall s, P (JStr s)) ->
  (forall l, Forall P l -> P (JArr l)) -> (forall l, Forall (fun p => P (snd p)) l -> P (JObj l)) -> forall j, P j.
Proof.
  intros H1 H2 H3 H4 H5 H6 H7. fix IH 1. intros [|b|z|n|s|l|l]; [apply H1 | apply H2 | apply H3 | apply H4 | apply H5 | |].
  - apply H6. induction l as [|j l IHl]; constructor; [apply IH | exact IHl].
  - apply H7. induction l as [|[k j] l IHl]; constructor; [apply IH | exact IHl].
Qed.

Local Notation faithful := (faithful lit num_of).
Local Notation print := (print lit).

Lemma elements_print l : l <> [] -> Forall (fun j => value_text (print j) (written double j)) l ->
  elements_text (separated (ch ",") (map print l)) (map (written double) l).
Proof.
  intros Hn H. induction H as [|j l Hj Hl IH]; [congruence|]. destruct l as [|j' l].
  - cbn. rewrite <- (app_nil_r (print j)). apply (et_one num_of [] _ []); auto.
  - cbn [map]. set (rest := map print (j' :: l)) in *. change (map (written double) (j' :: l)) with (written double j' :: map (written double) l) in IH.
    replace (separated (ch ",") (print j :: print j' :: map print l)) with ([] ++ print j ++ [] ++ js "," ++ separated (ch ",") rest) by reflexivity.
    constructor; auto. apply IH. discriminate.
Qed.
Lemma members_print l : l <> [] -> Forall (fun p => value_text (print (snd p)) (written double (snd p))) l ->
  members_text (separated (ch ",") (map (fun p => quote (fst p) ++ ch ":" :: print (snd p)) l)) (map (fun p => (fst p, written double (snd p))) l).
Proof.
  intros Hn H. induction H as [|p l Hj Hl IH]; [congruence|]. destruct l as [|p' l].
  - cbn [map separated]. replace (quote (fst p) ++ ch ":" :: print (snd p)) with ([] ++ quote (fst p) ++ [] ++ js ":" ++ [] ++ print (snd p) ++ []) by (cbn [app]; now rewrite app_nil_r).
    constructor; auto. apply quote_text.
  - specialize (IH ltac:(discriminate)). set (rest := map (fun p => quote (fst p) ++ ch ":" :: print (snd p)) (p' :: l)) in *.
    replace (separated (ch ",") (map (fun p => quote (fst p) ++ ch ":" :: print (snd p)) (p :: p' :: l)))
      with ([] ++ quote (fst p) ++ [] ++ js ":" ++ [] ++ print (snd p) ++ [] ++ js "," ++ separated (ch ",") rest).
    + cbn [map]. constructor; auto. apply quote_text.
    + subst rest. cbn [map separated]. rewrite <- !app_assoc. reflexivity.
Qed.

Lemma print_text : faithful -> forall j, value_text (print j) (written double j).
Proof.
  intros Hl. induction j as [| | | | |l IH|l IH] using json_nested; cbn [JsonText.print written].
  - constructor.
  - destruct b; constructor.
  - apply number_value, print_int_text.
  - destruct (double n) eqn:E; [|constructor]. destruct (Hl n (proj1 (double_iff n) E)) as [H1 H2]. rewrite <- H2 at 2. now constructor.
  - constructor. apply quote_text.
  - destruct l as [|j l]; [apply (vt_empty_array num_of []); auto|].
    change (ch "[" :: ?x ++ [ch "]"]) with (js "[" ++ x ++ js "]"). constructor. apply elements_print; [discriminate | exact IH].
  - destruct l as [|p l]; [apply (vt_empty_object num_of []); auto|].
    change (ch "{" :: ?x ++ [ch "}"]) with (js "{" ++ x ++ js "}"). constructor. apply members_print; [discriminate | exact IH].
Qed.

Theorem parse_print : faithful -> forall j, parse (print j) = Some (written double j).
Proof.
  intros Hl j. apply parse_iff. exists [], (print j), []. cbn [app]. rewrite app_nil_r. repeat split; auto. now apply print_text.
Qed.

(** What is written is well-formed UTF-16. *)
Definition plain (c : N) : bool := negb (high c) && negb (low c).
Lemma plain_utf16 s : forallb plain s = true -> utf16 s = true.
Proof.
  induction s as [|c s IH]; [reflexivity|]. cbn. intros H. apply andb_prop in H as [H1 H2]. unfold plain in H1. apply andb_prop in H1 as [H0 H1].
  apply negb_true_iff in H0. rewrite H0. now rewrite H1, (IH H2).
Qed.
Lemma utf16_app a : forall b, utf16 a = true -> utf16 b = true -> utf16 (a ++ b) = true.
Proof.
  induction a as [a IH] using (induction_ltof1 _ (@List.length N)). unfold ltof in IH. intros b Ha Hb. destruct a as [|u r]; [exact Hb|].
  cbn in *. destruct (high u).
  - destruct r as [|v r]; [discriminate|]. cbn in *. apply andb_prop in Ha as [-> Ha]. cbn. apply IH; [cbn; lia | exact Ha | exact Hb].
  - apply andb_prop in Ha as [-> Ha]. cbn. apply IH; [cbn; lia | exact Ha | exact Hb].
Qed.
Lemma small_plain s : forallb (fun c => N.ltb c 55296) s = true -> utf16 s = true.
Proof.
  intros H. apply plain_utf16. rewrite forallb_forall in *. intros c Hc. specialize (H c Hc). apply N.ltb_lt in H. unfold plain, high, low.
  destruct (N.leb_spec 55296 c), (N.leb_spec 56320 c); first [lia | reflexivity].
Qed.
Lemma hex_small d : (d < 16)%N -> N.ltb (hex d) 55296 = true.
Proof. intros H. apply N.ltb_lt. unfold hex. destruct (N.ltb_spec d 10); lia. Qed.
Lemma u_escape_utf16 u : (u < 65536)%N -> utf16 (u_escape u) = true.
Proof.
  intros H. apply small_plain. unfold u_escape. cbn [forallb]. rewrite !hex_small; try reflexivity; try (apply N.mod_lt; lia). apply N.div_lt_upper_bound; lia.
Qed.
Lemma quoted_utf16 s : utf16 (quoted s) = true.
Proof.
  induction s as [s IH] using (induction_ltof1 _ (@List.length N)). unfold ltof in IH. destruct s as [|u r]; [reflexivity|].
  cbn [quoted]. destruct (high u) eqn:Hu.
  - pose proof (proj1 (high_iff u) Hu) as Hb. destruct r as [|v r']; [apply u_escape_utf16; lia|]. destruct (low v) eqn:Hv.
    + cbn. rewrite Hu, Hv. apply IH. cbn. lia.
    + apply utf16_app; [apply u_escape_utf16; lia | apply IH; cbn; lia].
  - destruct (low u) eqn:Hl; (apply utf16_app; [|apply IH; cbn; lia]).
    + apply u_escape_utf16. apply low_iff in Hl. lia.
    + unfold escaped. repeat match goal with |- context [N.eqb u ?k] => destruct (N.eqb u k); [reflexivity|] end.
      destruct (N.ltb_spec u 32); [apply u_escape_utf16; lia|]. cbn. now rewrite Hu, Hl.
Qed.
Lemma number_utf16 s j : number_text s j -> utf16 s = true.
Proof.
  intros H. apply number_chars in H. apply small_plain. rewrite forallb_forall in *. intros c Hc. specialize (H c Hc). apply N.ltb_lt.
  unfold number_char in H. rewrite !orb_true_iff, !N.eqb_eq in H. rewrite digit_iff in H. unfold a_digit in H.
  change (ch "-") with 45%N in H. change (ch "+") with 43%N in H. change (ch ".") with 46%N in H. change (ch "e") with 101%N in H. change (ch "E") with 69%N in H. lia.
Qed.
Lemma utf16_quote s : utf16 (quote s) = true.
Proof. unfold quote. change (ch """" :: quoted s ++ [ch """"]) with (js """" ++ quoted s ++ js """"). repeat apply utf16_app; try reflexivity. apply quoted_utf16. Qed.
Lemma separated_utf16 c l : (c < 55296)%N -> Forall (fun s => utf16 s = true) l -> utf16 (separated c l) = true.
Proof.
  intros Hc H. induction H as [|s l Hs Hl IH]; [reflexivity|]. destruct l as [|s' l]; [exact Hs|].
  change (separated c (s :: s' :: l)) with (s ++ [c] ++ separated c (s' :: l)). apply utf16_app; [exact Hs|]. apply utf16_app; [|exact IH].
  apply small_plain. cbn. apply N.ltb_lt in Hc. now rewrite Hc.
Qed.
Theorem print_utf16 : faithful -> forall j, utf16 (print j) = true.
Proof.
  intros Hl. induction j as [|b|z|n|s|l IH|l IH] using json_nested; cbn [JsonText.print]; try reflexivity.
  - now destruct b.
  - exact (number_utf16 _ _ (print_int_text z)).
  - destruct (double n) eqn:E; [|reflexivity]. destruct (Hl n (proj1 (double_iff n) E)) as [H1 _]. exact (number_utf16 _ _ (nt_float _ H1)).
  - apply utf16_quote.
  - change (ch "[" :: ?x ++ [ch "]"]) with (js "[" ++ x ++ js "]"). repeat apply utf16_app; try reflexivity. apply separated_utf16; [reflexivity|]. now apply Forall_map.
  - change (ch "{" :: ?x ++ [ch "}"]) with (js "{" ++ x ++ js "}"). repeat apply utf16_app; try reflexivity. apply separated_utf16; [reflexivity|]. apply Forall_map.
    eapply Forall_impl; [|exact IH]. intros p Hp. apply utf16_app; [apply utf16_quote|]. change (ch ":" :: ?x) with (js ":" ++ x). now apply utf16_app.
Qed.
End Text.
