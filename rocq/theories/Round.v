(** Rounding to doubles is monotone. *)
From Coq Require Import List ZArith Bool Lia.
From Verif Require Import Js.
Local Open Scope Z_scope.

Lemma round53_big z : 2 ^ 53 <= z -> exists m p r, p = 2 ^ (Z.log2 z - 52) /\ 0 < p /\ z = p * m + r /\ 0 <= r < p /\
  2 ^ 52 <= m < 2 ^ 53 /\
  round53 z = (if match 2 * r ?= p with Lt => false | Gt => true | Eq => Z.odd m end then m + 1 else m) * p.
Proof.
  intros Hz. set (p := 2 ^ (Z.log2 z - 52)). exists (z / p), p, (z mod p).
  assert (Hl : 53 <= Z.log2 z). { apply Z.log2_le_pow2; lia. }
  assert (Hp : 0 < p) by (apply Z.pow_pos_nonneg; lia).
  pose proof (Z.log2_spec z ltac:(lia)) as [H1 H2].
  assert (Hsplit : 2 ^ Z.log2 z = p * 2 ^ 52).
  { unfold p. rewrite <- Z.pow_add_r by lia. f_equal. lia. }
  assert (Hsplit' : 2 ^ Z.succ (Z.log2 z) = p * 2 ^ 53).
  { unfold p. rewrite <- Z.pow_add_r by lia. f_equal. lia. }
  split; [reflexivity|]. split; [exact Hp|]. split; [apply Z.div_mod; lia|]. split; [apply Z.mod_pos_bound; lia|].
  split.
  - split.
    + apply Z.div_le_lower_bound; lia.
    + apply Z.div_lt_upper_bound; lia.
  - unfold round53. destruct (Z.ltb_spec z (2 ^ 53)); [lia|]. reflexivity.
Qed.

Lemma round53_bounds z : 2 ^ 53 <= z -> 2 ^ Z.log2 z <= round53 z <= 2 ^ (Z.log2 z + 1).
Proof.
  intros Hz. destruct (round53_big z Hz) as [m [p [r [Hp [Hp0 [_ [_ [Hm ->]]]]]]]].
  assert (Hl : 53 <= Z.log2 z). { apply Z.log2_le_pow2; lia. }
  assert (H1 : 2 ^ Z.log2 z = 2 ^ 52 * p) by (rewrite Hp, <- Z.pow_add_r by lia; f_equal; lia).
  assert (H2 : 2 ^ (Z.log2 z + 1) = 2 ^ 53 * p) by (rewrite Hp, <- Z.pow_add_r by lia; f_equal; lia).
  rewrite H1, H2. destruct (match 2 * r ?= p with Lt => false | Gt => true | Eq => Z.odd m end); nia.
Qed.

Lemma round53_mono a b : a <= b -> round53 a <= round53 b.
Proof.
  intros Hab. destruct (Z.lt_ge_cases b (2 ^ 53)) as [Hb|Hb].
  { unfold round53. destruct (Z.ltb_spec a (2 ^ 53)), (Z.ltb_spec b (2 ^ 53)); lia. }
  pose proof (round53_bounds b Hb) as [Hb1 Hb2].
  assert (Hlb : 53 <= Z.log2 b). { apply Z.log2_le_pow2; lia. }
  assert (Hb53 : 2 ^ 53 <= 2 ^ Z.log2 b) by (apply Z.pow_le_mono_r; lia).
  destruct (Z.lt_ge_cases a (2 ^ 53)) as [Ha|Ha].
  { unfold round53 at 1. destruct (Z.ltb_spec a (2 ^ 53)); lia. }
  pose proof (round53_bounds a Ha) as [Ha1 Ha2].
  pose proof (Z.log2_le_mono a b Hab) as Hl. destruct (Z.eq_dec (Z.log2 a) (Z.log2 b)) as [He|He].
  - destruct (round53_big a Ha) as [m [p [r [Hp [Hp0 [Ea [Hr [_ ->]]]]]]]].
    destruct (round53_big b Hb) as [m' [p' [r' [Hp' [_ [Eb [Hr' [_ ->]]]]]]]].
    rewrite He in Hp. assert (Epp : p' = p) by congruence. rewrite Epp in *. clear Hp Hp' Epp p'.
    assert (Hm : m <= m') by nia. apply Z.mul_le_mono_nonneg_r; [lia|]. destruct (Z.eq_dec m m') as [->|Hne].
    + assert (Hrr : r <= r') by lia. destruct (Z.compare_spec (2 * r) p), (Z.compare_spec (2 * r') p); try lia;
        destruct (Z.odd m'); lia.
    + destruct (match 2 * r ?= p with Lt => false | Gt => true | Eq => Z.odd m end),
        (match 2 * r' ?= p with Lt => false | Gt => true | Eq => Z.odd m' end); lia.
  - assert (H : 2 ^ (Z.log2 a + 1) <= 2 ^ Z.log2 b) by (apply Z.pow_le_mono_r; lia). lia.
Qed.

Lemma round53_nonneg z : 0 <= z -> 0 <= round53 z.
Proof. intros H. pose proof (round53_mono 0 z H). change (round53 0) with 0 in *. lia. Qed.

Lemma round_int_upper z b : 0 <= b -> z <= b -> round_int z <= round53 b.
Proof.
  intros Hb Hz. unfold round_int. destruct (Z.leb_spec 0 z); [now apply round53_mono|].
  pose proof (round53_nonneg (- z) ltac:(lia)). pose proof (round53_nonneg b Hb). lia.
Qed.

Lemma round_int_lower z b : 0 <= b -> - b <= z -> - round53 b <= round_int z.
Proof.
  intros Hb Hz. unfold round_int. destruct (Z.leb_spec 0 z).
  - pose proof (round53_nonneg z ltac:(lia)). pose proof (round53_nonneg b Hb). lia.
  - pose proof (round53_mono (- z) b ltac:(lia)). lia.
Qed.
