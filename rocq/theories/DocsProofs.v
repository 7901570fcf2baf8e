(** Doc comments and escaping (proofs). *)
From Coq Require Import List String Ascii Bool NArith Lia.
From Verif Require Import Gen JsLex Docs DocsSpec.
Import ListNotations.
Local Open Scope list_scope.

(** ** trim *)
Lemma white_space c : white c = true <-> In c space.
Proof.
  unfold white. rewrite !orb_true_iff, !andb_true_iff, !N.leb_le, existsb_exists. split.
  - intros [[H|(x & Hx & E)]|H]; [|apply N.eqb_eq in E as ->|].
    + assert (c = 9 \/ c = 10 \/ c = 11 \/ c = 12 \/ c = 13)%N as C by lia. cbn. intuition.
    + cbn in Hx |- *. intuition.
    + assert (c = 8192 \/ c = 8193 \/ c = 8194 \/ c = 8195 \/ c = 8196 \/ c = 8197 \/ c = 8198 \/ c = 8199 \/ c = 8200 \/ c = 8201 \/ c = 8202)%N as C by lia. cbn. intuition.
  - intros H. unfold space in H. repeat (destruct H as [<-|H]; [first [left; left; lia | right; lia | left; right; eexists; split; [|apply N.eqb_refl]; cbn; tauto]|]). destruct H.
Qed.
Definition trimmedb (s t : rstr) : Prop :=
  (exists a b, s = a ++ t ++ b /\ Forall (fun c => white c = true) a /\ Forall (fun c => white c = true) b) /\
  (forall c r, t = c :: r -> white c = false) /\ (forall c r, t = r ++ [c] -> white c = false).
Lemma trimmed_iff s t : trimmed s t <-> trimmedb s t.
Proof.
  assert (W : forall l, incl l space <-> Forall (fun c => white c = true) l) by (intros l; rewrite Forall_forall; split; intros H c Hc; apply white_space, H, Hc).
  assert (N : forall c, ~ In c space <-> white c = false) by (intros c; rewrite <- white_space; apply not_true_iff_false).
  unfold trimmed, trimmedb. split; intros ((a & b & H1 & H2 & H3) & H4 & H5); (split; [exists a, b; now rewrite !W in * | split; intros; apply N; eauto]).
Qed.
Lemma trim_start_spec s : exists a, s = a ++ trim_start s /\ Forall (fun c => white c = true) a /\
  forall c r, trim_start s = c :: r -> white c = false.
Proof.
  induction s as [|c s (a & IH1 & IH2 & IH3)]; cbn.
  - exists []. repeat split; auto. discriminate.
  - destruct (white c) eqn:Hc.
    + exists (c :: a). cbn. rewrite <- IH1. auto.
    + exists []. repeat split; auto. intros c' r [= <- _]. exact Hc.
Qed.

Theorem trim_specb s : trimmedb s (trim s).
Proof.
  unfold trim. destruct (trim_start_spec s) as (a & H1 & H2 & H3).
  set (u := trim_start s) in *. destruct (trim_start_spec (rev u)) as (b & G1 & G2 & G3).
  set (w := trim_start (rev u)) in *.
  assert (Hu : u = rev w ++ rev b) by (rewrite <- (rev_involutive u), G1; apply rev_app_distr).
  split; [|split].
  - exists a, (rev b). split; [now rewrite <- Hu|]. split; [exact H2|]. now apply Forall_rev.
  - intros c r Hw. apply (H3 c (r ++ rev b)). rewrite Hu, Hw. reflexivity.
  - intros c r Hw. apply (G3 c (rev r)). rewrite <- (rev_involutive w), Hw. apply rev_app_distr.
Qed.

Theorem trim_spec s : trimmed s (trim s).
Proof. apply trimmed_iff, trim_specb. Qed.
Lemma trim_one_line s : one_line s -> one_line (trim s).
Proof.
  intros H Hi. destruct (trim_spec s) as [(a & b & Hs & _) _]. apply H. rewrite Hs. rewrite !in_app_iff. auto.
Qed.
(** What is left of the trimming. *)
Lemma trim_unique s t t' : trimmed s t -> trimmed s t' -> t = t'.
Proof.
  rewrite !trimmed_iff.
  assert (Hstart : forall a x a' x', Forall (fun c => white c = true) a -> Forall (fun c => white c = true) a' ->
    (forall c r, x = c :: r -> white c = false) -> (forall c r, x' = c :: r -> white c = false) -> a ++ x = a' ++ x' -> x = x').
  { intros a x a' x' Ha. revert a'. induction Ha as [|c a Hc Ha IH]; intros a' Ha' Hx Hx' He.
    - destruct Ha' as [|c' a' Hc' Ha']; [exact He|]. cbn in He. rewrite (Hx _ _ He) in Hc'. discriminate.
    - destruct Ha' as [|c' a' Hc' Ha']; [cbn in He; rewrite (Hx' _ _ (eq_sym He)) in Hc; discriminate|].
      injection He as <- He. exact (IH a' Ha' Hx Hx' He). }
  assert (Hwhite : forall a b a' b' : rstr, Forall (fun c => white c = true) a -> Forall (fun c => white c = true) b ->
    forall x, (forall c r, x = c :: r -> white c = false) -> a ++ [] ++ b = a' ++ x ++ b' -> x = []).
  { intros a b a' b' Ha Hb [|c x] Hx He; [reflexivity|]. exfalso.
    assert (Hin : In c (a ++ b)) by (cbn in He; rewrite He; rewrite in_app_iff; right; now left).
    assert (Hall : Forall (fun c => white c = true) (a ++ b)) by (apply Forall_app; auto).
    rewrite Forall_forall in Hall. specialize (Hall c Hin). rewrite (Hx c x eq_refl) in Hall. discriminate. }
  intros [(a & b & H1 & Ha & Hb) [Hs He]] [(a' & b' & H1' & Ha' & Hb') [Hs' He']].
  destruct t as [|c t].
  { symmetry. apply (Hwhite a b a' b' Ha Hb t' Hs'). congruence. }
  destruct t' as [|c' t'].
  { apply (Hwhite a' b' a b Ha' Hb' (c :: t) Hs). congruence. }
  assert (Hm : (c :: t) ++ b = (c' :: t') ++ b').
  { apply (Hstart a _ a' _ Ha Ha'); [| |congruence].
    - intros d r [= <- _]. exact (Hs c t eq_refl).
    - intros d r [= <- _]. exact (Hs' c' t' eq_refl). }
  apply (f_equal (@rev N)) in Hm. rewrite !rev_app_distr in Hm.
  assert (Hr : rev (c :: t) = rev (c' :: t')).
  { eapply (Hstart (rev b) _ (rev b')); [now apply Forall_rev|now apply Forall_rev| | |].
    - intros d r Hd. apply (He d (rev r)). rewrite <- (rev_involutive (c :: t)), Hd. reflexivity.
    - intros d r Hd. apply (He' d (rev r)). rewrite <- (rev_involutive (c' :: t')), Hd. reflexivity.
    - exact Hm. }
  apply (f_equal (@rev N)) in Hr. now rewrite !rev_involutive in Hr.
Qed.

(** ** Lines *)
Lemma split_nl_ne s : split_nl s <> [].
Proof. destruct s as [|c s]; cbn; [discriminate|]. destruct (N.eqb c 10); [discriminate|]. destruct (split_nl s); discriminate. Qed.

Lemma split_nl_app a b : split_nl (a ++ nl :: b) = split_nl a ++ split_nl b.
Proof.
  induction a as [|c a IH]; cbn; [reflexivity|]. rewrite IH. destruct (N.eqb c 10); [reflexivity|].
  pose proof (split_nl_ne a). destruct (split_nl a); [easy|reflexivity].
Qed.

Lemma split_nl_one a : one_line a -> split_nl a = [a].
Proof.
  unfold one_line. induction a as [|c a IH]; intros H; cbn; [reflexivity|].
  destruct (N.eqb_spec c 10) as [->|Hc]; [destruct H; now left|]. rewrite IH; [reflexivity|]. intros Hi. apply H. now right.
Qed.

Lemma drop_last_spec ls : drop_last_empty ls =
  match rev ls with [] :: r => rev r | _ => ls end.
Proof.
  induction ls as [|l ls IH]; [reflexivity|]. destruct ls as [|l2 ls].
  - destruct l; reflexivity.
  - replace (drop_last_empty (l :: l2 :: ls)) with (l :: drop_last_empty (l2 :: ls)) by (now destruct l).
    rewrite IH. cbn [rev]. destruct (rev ls ++ [l2]) as [|x r] eqn:Hr; [now destruct (rev ls)|].
    cbn. destruct x as [|y x]; [|reflexivity]. rewrite rev_app_distr. reflexivity.
Qed.

Definition joined (full : rstr) (ds : list rstr) : rstr := full ++ flat_map (fun d => nl :: trim d) ds.

Lemma fold_ne ds : forall full, full <> [] -> fold_left add_doc ds full = joined full ds.
Proof.
  induction ds as [|d ds IH]; intros full Hf; cbn [fold_left]; unfold joined; [now rewrite app_nil_r|].
  rewrite IH.
  - unfold joined, add_doc. destruct full; [easy|]. cbn [flat_map]. rewrite <- !app_assoc. reflexivity.
  - unfold add_doc. destruct full; [easy|]. discriminate.
Qed.

Lemma split_pieces s ls : pieces s ls -> split_nl s = ls.
Proof. induction 1; [now apply split_nl_one|]. now rewrite split_nl_app, split_nl_one, IHpieces. Qed.

Lemma pieces_split s : pieces s (split_nl s).
Proof.
  induction s as [|c s IH]; cbn; [constructor; now intros []|]. destruct (N.eqb_spec c 10) as [->|Hc].
  - apply (pieces_more [] s); [now intros []|exact IH].
  - inversion IH as [s' H Hs|l s' ls H H' Hs Hl]; subst.
    + constructor. intros [E|Hi]; [now apply Hc|now apply H].
    + apply (pieces_more (c :: l) s' ls); [|exact H']. intros [E|Hi]; [now apply Hc|now apply H].
Qed.

Lemma doc_lines_split ds ls : doc_lines ds ls -> ls = flat_map (fun d => split_nl (trim d)) ds.
Proof.
  induction 1 as [|d t ls ds rest Ht Hp Hd IH]; [reflexivity|]. cbn.
  rewrite <- IH. rewrite (trim_unique d (trim d) t) by (exact Ht || apply trim_spec). now rewrite (split_pieces t ls).
Qed.
Lemma doc_lines_exist ds : doc_lines ds (flat_map (fun d => split_nl (trim d)) ds).
Proof. induction ds as [|d ds IH]; cbn; econstructor; eauto using trim_spec, pieces_split. Qed.

Lemma trim_head d c t : trim d = c :: t -> exists l r, split_nl (c :: t) = (c :: l) :: r.
Proof.
  intros H. assert (Hw : white c = false) by exact (proj1 (proj2 (trim_specb d)) c t H).
  cbn. destruct (N.eqb_spec c 10) as [->|Hc]; [discriminate|]. destruct (split_nl t); eauto.
Qed.

Lemma fold_lines ds :
  match fold_left add_doc ds [] with
  | [] => drop_empty (flat_map (fun d => split_nl (trim d)) ds) = []
  | full => split_nl full = drop_empty (flat_map (fun d => split_nl (trim d)) ds) /\
      drop_empty (flat_map (fun d => split_nl (trim d)) ds) <> []
  end.
Proof.
  induction ds as [|d ds IH]; cbn [fold_left flat_map]; [reflexivity|].
  change (add_doc [] d) with (trim d). destruct (trim d) as [|c t] eqn:Ht; [exact IH|].
  rewrite fold_ne by discriminate. change (joined (c :: t) ds) with (c :: (t ++ flat_map (fun d => nl :: trim d) ds)).
  destruct (trim_head d c t Ht) as (l & r & Hs). rewrite Hs. cbn [app drop_empty]. split; [|discriminate].
  change (c :: (t ++ flat_map (fun d => nl :: trim d) ds)) with ((c :: t) ++ flat_map (fun d => nl :: trim d) ds).
  change ((c :: l) :: r ++ flat_map (fun d => split_nl (trim d)) ds)
    with (((c :: l) :: r) ++ flat_map (fun d => split_nl (trim d)) ds). rewrite <- Hs.
  clear. generalize (c :: t) as a. induction ds as [|d ds IH]; intros a; cbn [flat_map].
  - now rewrite !app_nil_r.
  - change (a ++ (nl :: trim d) ++ flat_map (fun d => nl :: trim d) ds)
      with (a ++ nl :: (trim d ++ flat_map (fun d => nl :: trim d) ds)).
    now rewrite split_nl_app, IH.
Qed.

Lemma strip_cr_spec l : uncr l (strip_cr l).
Proof.
  assert (H : forall r c, strip_cr (r ++ [c]) = if N.eqb c 13 then r else r ++ [c]).
  { induction r as [|d r IH]; intros c; [reflexivity|]. cbn [app].
    replace (strip_cr (d :: r ++ [c])) with (d :: strip_cr (r ++ [c])) by (now destruct r). rewrite IH. now destruct (N.eqb c 13). }
  destruct l as [|a l] using rev_ind.
  - constructor. intros [|] Hr; discriminate.
  - clear IHl. rewrite H. destruct (N.eqb_spec a 13) as [->|Ha]; constructor. intros r Hr. apply app_inj_tail in Hr as [_ ->]. easy.
Qed.
Lemma strip_cr_unique l l' : uncr l l' -> l' = strip_cr l.
Proof.
  intros H. pose proof (strip_cr_spec l) as H0. inversion H as [a Ha Hb|a Ha Hb Hc]; subst.
  - remember (l' ++ [13%N]) as s eqn:Es. destruct H0 as [b|b Hb]; [now apply app_inj_tail in Es as [-> _]|]. now destruct (Hb l').
  - destruct H0 as [b|b Hb]; [now destruct (Ha b)|reflexivity].
Qed.

Lemma lit_nl : lit (String "010" "") = [nl].
Proof. reflexivity. Qed.

Lemma lines_shown ds full : from_attrs ds = Some full ->
  lines full = map strip_cr (shown (flat_map (fun d => split_nl (trim d)) ds)).
Proof.
  unfold from_attrs, lines. pose proof (fold_lines ds) as HF. destruct (fold_left add_doc ds []) as [|c f]; [discriminate|].
  intros [= <-]. destruct HF as [HF _]. rewrite drop_last_spec, HF. reflexivity.
Qed.

Lemma empty_iff ds : from_attrs ds = None <-> (forall l, In l (flat_map (fun d => split_nl (trim d)) ds) -> l = []).
Proof.
  assert (He : forall ls : list rstr, drop_empty ls = [] <-> forall l, In l ls -> l = []).
  { induction ls as [|[|c l] ls IH]; cbn; [easy| |].
    - rewrite IH. split; [intros H l [<-|Hl]; auto|auto].
    - split; [discriminate|]. intros H. discriminate (H (c :: l)). now left. }
  rewrite <- He. unfold from_attrs. pose proof (fold_lines ds) as HF. destruct (fold_left add_doc ds []) as [|c f]; [easy|].
  split; [discriminate|]. intros H. now destruct HF.
Qed.

Lemma shown_ne ls : (exists l, In l ls /\ l <> []) -> shown ls <> [].
Proof.
  intros (l & Hl & Hne). unfold shown.
  assert (exists c x r, drop_empty ls = (c :: x) :: r) as (c & x & r & ->).
  { induction ls as [|[|c x] ls IH]; [easy| |cbn; eauto]. destruct Hl as [<-|Hl]; [easy|]. now apply IH. }
  cbn [rev]. match goal with |- context [(?a ++ [c :: x])] => destruct a as [|[|y z] q] end; cbn; try easy.
  rewrite rev_app_distr. easy.
Qed.

(** What is emitted: nothing, or one block with the lines of the source. *)
Theorem docs_emitted ds ls : doc_lines ds ls ->
  ((forall l, In l ls -> l = []) -> doc_text ds = []) /\
  ((exists l, In l ls /\ l <> []) -> exists ls', Forall2 uncr (shown ls) ls' /\ block ls' (doc_text ds)).
Proof.
  intros H. apply doc_lines_split in H as ->. set (ls := flat_map _ ds). split.
  - intros H. apply empty_iff in H. unfold doc_text. now rewrite H.
  - intros Hne. destruct (from_attrs ds) as [full|] eqn:Hf.
    2:{ destruct Hne as (l & Hl & Hne). destruct Hne. now apply (proj1 (empty_iff ds) Hf). }
    exists (map strip_cr (shown ls)). split.
    + induction (shown ls) as [|l r IH]; constructor; [apply strip_cr_spec|exact IH].
    + unfold doc_text. rewrite Hf, (lines_shown ds full Hf), <- flat_map_concat_map. fold ls.
      apply block_lines; [|reflexivity]. pose proof (shown_ne ls Hne). now destruct (shown ls).
Qed.

(** ** Closing *)
Lemma occurs_cons a c s : occurs a s -> occurs a (c :: s).
Proof. intros (x & y & ->). now exists (c :: x), y. Qed.

Definition star := 42%N.
Definition slash := 47%N.
Lemma lit_close : lit "*/" = [star; slash]. Proof. reflexivity. Qed.

Lemma occ_cons c s : occurs [star; slash] (c :: s) <->
  (c = star /\ exists r, s = slash :: r) \/ occurs [star; slash] s.
Proof.
  split.
  - intros (x & y & He). destruct x as [|d x]; cbn in He; injection He as -> ->.
    + left. eauto.
    + right. now exists x, y.
  - intros [[-> [r ->]]|H]; [now exists [], r|now apply occurs_cons].
Qed.
Lemma occ_nil : ~ occurs [star; slash] [].
Proof. intros ([|] & y & He); discriminate He. Qed.

(** Joining pieces with something harmless in between. *)
Lemma occ_app a c s : c <> star -> c <> slash ->
  occurs [star; slash] (a ++ c :: s) <-> occurs [star; slash] a \/ occurs [star; slash] s.
Proof.
  intros H1 H2. induction a as [|d a IH]; cbn [app].
  - rewrite occ_cons. pose proof occ_nil. split; [intros [[-> _]|H0]; [easy|auto]|tauto].
  - rewrite !occ_cons, IH. split.
    + intros [[-> [r Hr]]|H]; [|tauto]. destruct a as [|e a]; cbn in Hr; injection Hr as Hr0 Hr1; [easy|]. subst e.
      left. left. eauto.
    + intros [[[-> [r ->]]|H]|H]; eauto. left. split; [reflexivity|]. exists (r ++ c :: s). reflexivity.
Qed.

Lemma occ_body ls rest : occurs [star; slash] (flat_map (fun l => lit "* " ++ l ++ [nl]) ls ++ rest) <->
  (exists l, In l ls /\ occurs [star; slash] l) \/ occurs [star; slash] rest.
Proof.
  induction ls as [|l ls IH].
  - cbn. split; [auto|]. intros [(l & [] & _)|H]; exact H.
  - cbn [flat_map]. change (lit "* ") with [star; 32%N]. rewrite <- !app_assoc. cbn [app].
    rewrite (occ_cons star), (occ_cons 32%N), (occ_app l nl) by discriminate. rewrite IH. split.
    + intros [[_ [r H]]|[[H _]|[H|[(x & Hx & H)|H]]]]; try discriminate H; eauto.
      * left. exists l. split; [now left|exact H].
      * left. exists x. split; [now right|exact H].
    + intros [(x & [<-|Hx] & H)|H]; right; right; [left; exact H|right; left; eauto|right; right; exact H].
Qed.

Lemma text_body ds full : from_attrs ds = Some full ->
  doc_text ds = lit "/*" ++ (lit "*" ++ [nl] ++ flat_map (fun l => lit "* " ++ l ++ [nl]) (lines full)) ++ lit "*/" ++ [nl].
Proof.
  intros H. unfold doc_text. rewrite H, <- flat_map_concat_map. change (lit "/**") with (lit "/*" ++ lit "*").
  rewrite <- !app_assoc. reflexivity.
Qed.

Theorem closed_iff ds full : from_attrs ds = Some full ->
  (one_comment (doc_text ds) <-> forall l, In l (lines full) -> ~ occurs (lit "*/") l).
Proof.
  intros H. rewrite (text_body ds full H).
  set (body := lit "*" ++ [nl] ++ flat_map (fun l => lit "* " ++ l ++ [nl]) (lines full)).
  assert (Hb : occurs (lit "*/") (body ++ lit "*") <-> exists l, In l (lines full) /\ occurs (lit "*/") l).
  { unfold body. change (lit "*/") with [star; slash]. change (lit "*") with [star]. rewrite <- !app_assoc. cbn [app].
    rewrite (occ_cons star), (occ_cons nl), occ_body, (occ_cons star). split.
    - intros [[_ [r H0]]|[[H0 _]|[H0|[[_ [r H0]]|H0]]]]; try discriminate H0; auto. now apply occ_nil in H0.
    - auto. }
  split.
  - intros (b & He & Hn) l Hl Ho. apply Hn. rewrite !app_assoc in He. apply app_inj_tail in He as [He _].
    rewrite <- !app_assoc in He. apply app_inv_head in He.
    change (lit "*/") with ([star] ++ [slash]) in He. rewrite !app_assoc in He. apply app_inj_tail in He as [He _].
    change (lit "*") with [star]. rewrite <- He. apply Hb. eauto.
  - intros Hn. exists body. split; [reflexivity|]. rewrite Hb. intros (l & Hl & Ho). now apply (Hn l Hl).
Qed.

(** ** The lexer skips a closed block *)
Lemma high_byte n : (128 <= n)%N -> (n < 256)%N -> Ascii.eqb (byte n) "*" = false /\ Ascii.eqb (byte n) "/" = false.
Proof.
  intros H1 H2. unfold byte.
  assert (E : forall c, (code c < 128)%N -> Ascii.eqb (ascii_of_N n) c = false).
  { intros c Hc. destruct (Ascii.eqb_spec (ascii_of_N n) c) as [<-|]; [|reflexivity]. exfalso.
    unfold code in Hc. rewrite N_ascii_embedding in Hc by exact H2. lia. }
  split; apply E; reflexivity.
Qed.

(** Inside a comment only [*] and [/] count. *)
Definition mblock (st : bool) : mode := if st then MStar else MBlock.

Lemma step_high st n : (128 <= n)%N -> (n < 256)%N -> step (mblock st) (byte n) = (MBlock, []).
Proof. intros H1 H2. destruct (high_byte n H1 H2) as [E1 E2]. destruct st; cbn; rewrite ?E1, ?E2; reflexivity. Qed.

Lemma lex_char st c : scalar c ->
  lexm (mblock st) (utf8_char c) =
  (if st && N.eqb c slash then M0 else mblock (N.eqb c star), []).
Proof.
  intros Hc. unfold scalar in Hc. unfold utf8_char. destruct (N.ltb_spec c 128) as [H|H].
  - assert (Ha : forall d, Ascii.eqb (byte c) d = N.eqb c (code d)).
    { intros d. unfold byte. destruct (Ascii.eqb_spec (ascii_of_N c) d) as [<-|Hd].
      - unfold code. rewrite N_ascii_embedding by lia. symmetry. apply N.eqb_refl.
      - symmetry. apply N.eqb_neq. intros ->. apply Hd. unfold code. apply ascii_N_embedding. }
    destruct st; cbn [mblock lexm step andb]; rewrite !Ha; change (code "/") with slash; change (code "*") with star.
    + destruct (N.eqb c slash); [reflexivity|]. destruct (N.eqb c star); reflexivity.
    + destruct (N.eqb c star); reflexivity.
  - assert (Hs : N.eqb c slash = false /\ N.eqb c star = false) by (split; apply N.eqb_neq; unfold slash, star; lia).
    destruct Hs as [-> ->]. rewrite andb_false_r.
    assert (D : forall k, (0 < k)%N -> (k * (c / k) <= c)%N) by (intros k Hk; apply N.mul_div_le; lia).
    assert (M : forall x, (128 <= 128 + x mod 64 < 256)%N) by (intros x; pose proof (N.mod_lt x 64 ltac:(lia)) as Hx; revert Hx; generalize (x mod 64)%N; intros; lia).
    change (mblock false) with MBlock.
    assert (M' : forall x, step MBlock (byte (128 + x mod 64)) = (MBlock, [])) by (intros x; apply (step_high false); apply M).
    assert (F : forall k d, (0 < d)%N -> (128 <= k)%N -> (c < (256 - k) * d)%N -> (k <= 256)%N -> step (mblock st) (byte (k + c / d)) = (MBlock, [])).
    { intros k d Hd Hk Hlt Hk2. assert (c / d < 256 - k)%N by (apply N.div_lt_upper_bound; lia).
      revert H0. generalize (c / d)%N. intros q Hq. apply step_high; lia. }
    destruct (N.ltb_spec c 2048) as [H2|H2]; [|destruct (N.ltb_spec c 65536) as [H3|H3]]; cbn [lexm].
    + rewrite F, M' by lia. reflexivity.
    + rewrite F, !M' by lia. reflexivity.
    + rewrite F, !M' by lia. reflexivity.
Qed.

Lemma utf8_app a b : utf8 (a ++ b) = (utf8 a ++ utf8 b)%string.
Proof. induction a as [|c a IH]; cbn; [reflexivity|]. now rewrite IH, append_assoc. Qed.

Lemma lex_inside s : Forall scalar s -> forall st : bool, ~ occurs [star; slash] ((if st then [star] else []) ++ s : rstr) ->
  exists st', lexm (mblock st) (utf8 s) = (mblock st', @nil tok) /\ (st' = true -> s = [] /\ st = true \/ exists r, s = r ++ [star]).
Proof.
  induction 1 as [|c s Hc Hs IH]; intros st Ho; cbn [utf8].
  - exists st. split; [reflexivity|]. auto.
  - assert (Hn : st && N.eqb c slash = false).
    { destruct st; [|reflexivity]. destruct (N.eqb_spec c slash) as [->|]; [|reflexivity]. destruct Ho. now exists [], s. }
    destruct (IH (N.eqb c star)) as (st' & Hl & Hst).
    { intros H. apply Ho. destruct (N.eqb_spec c star) as [->|]; cbn [app] in H.
      - destruct st; cbn [app]; [now apply occurs_cons|exact H].
      - destruct st; cbn [app]; repeat apply occurs_cons; exact H. }
    exists st'. rewrite lexm_app, lex_char, Hn, Hl by exact Hc. split; [reflexivity|].
    intros Ht. right. destruct (Hst Ht) as [[-> H]|[r ->]]; [|now exists (c :: r)].
    apply N.eqb_eq in H. subst c. now exists [].
Qed.

Lemma lines_scalar s : Forall scalar s -> forall l, In l (lines s) -> Forall scalar l.
Proof.
  intros H l Hl. unfold lines in Hl. apply in_map_iff in Hl as [l0 [<- Hl]].
  assert (H0 : Forall scalar l0).
  { assert (Hi : In l0 (split_nl s)).
    { rewrite drop_last_spec in Hl. destruct (rev (split_nl s)) as [|[|x y] r] eqn:Hr; auto.
      rewrite <- (rev_involutive (split_nl s)), Hr, <- in_rev. right. now apply in_rev. }
    clear Hl. revert l0 Hi. induction H as [|c s Hc Hs IH]; cbn; intros l0 Hi.
    - destruct Hi as [<-|[]]. constructor.
    - destruct (N.eqb c 10); [destruct Hi as [<-|Hi]; [constructor|auto]|].
      pose proof (split_nl_ne s). destruct (split_nl s) as [|l1 ls]; [easy|].
      destruct Hi as [<-|Hi]; [constructor; [exact Hc|apply IH; now left]|apply IH; now right]. }
  clear Hl. induction H0 as [|c l0 Hc H0 IH]; [constructor|]. destruct l0 as [|d l0].
  - cbn. destruct (N.eqb c 13); repeat constructor. exact Hc.
  - change (Forall scalar (c :: strip_cr (d :: l0))). now constructor.
Qed.

Lemma trim_scalar s : Forall scalar s -> Forall scalar (trim s).
Proof.
  intros H. destruct (trim_spec s) as [(a & b & Hs & _) _]. rewrite Hs in H.
  apply Forall_app in H as [_ H]. now apply Forall_app in H as [H _].
Qed.

Lemma from_scalar ds : Forall (Forall scalar) ds -> forall full, from_attrs ds = Some full -> Forall scalar full.
Proof.
  intros H full Hf. unfold from_attrs in Hf.
  assert (Hg : forall acc, Forall scalar acc -> Forall scalar (fold_left add_doc ds acc)).
  { clear Hf. induction H as [|d ds Hd Hds IH]; intros acc Ha; [exact Ha|]. cbn. apply IH. unfold add_doc.
    apply Forall_app. split; [|now apply trim_scalar]. destruct acc; [constructor|]. apply Forall_app. split; [exact Ha|].
    constructor; [reflexivity|constructor]. }
  specialize (Hg [] (Forall_nil _)). destruct (fold_left add_doc ds []); [discriminate|]. now injection Hf as <-.
Qed.

(** A documentation block whose lines do not contain [*/] leaves no token. *)
Lemma doc_skipped ds : Forall (Forall scalar) ds ->
  (forall full l, from_attrs ds = Some full -> In l (lines full) -> ~ occurs (lit "*/") l) ->
  lexm M0 (utf8 (doc_text ds)) = (M0, []).
Proof.
  intros Hsc H. destruct (from_attrs ds) as [full|] eqn:Hf.
  2:{ unfold doc_text. rewrite Hf. reflexivity. }
  specialize (H full). rewrite (text_body ds full Hf), !utf8_app.
  set (fm := flat_map (fun l => lit "* " ++ l ++ [nl]) (lines full)).
  change (utf8 (lit "/*")) with "/*"%string. change (utf8 (lit "*")) with "*"%string. change (utf8 [nl]) with (String "010" "").
  change (utf8 (lit "*/")) with "*/"%string.
  assert (Ho : ~ occurs [star; slash] fm).
  { intros Ho. rewrite <- (app_nil_r fm) in Ho. apply occ_body in Ho as [(l & Hl & Ho)|Ho].
    - now apply (H l).
    - now apply occ_nil in Ho. }
  assert (Hs : Forall scalar fm).
  { unfold fm. apply Forall_flat_map. apply Forall_forall. intros l Hl. apply Forall_app. split.
    - repeat constructor.
    - apply Forall_app. split; [|repeat constructor]. eapply lines_scalar; [|exact Hl]. eapply from_scalar; eauto. }
  destruct (lex_inside fm Hs false) as (st & Hl & Hst); [exact Ho|].
  assert (st = false) as ->.
  { destruct st; [|reflexivity]. destruct (Hst eq_refl) as [[_ H0]|[r H0]]; [discriminate|].
    exfalso. unfold fm in H0. clear -H0. revert r H0. induction (lines full) as [|l ls IH]; intros r H0; [now destruct r|].
    cbn [flat_map] in H0. destruct ls as [|l2 ls].
    - cbn [flat_map] in H0. rewrite app_nil_r, app_assoc in H0. apply app_inj_tail in H0 as [_ H0]. discriminate H0.
    - cbn [flat_map] in IH, H0. destruct (exists_last (l := (lit "* " ++ l2 ++ [nl]) ++ flat_map (fun l => lit "* " ++ l ++ [nl]) ls)) as (x & y & Hx).
      { discriminate. }
      rewrite Hx in H0. rewrite !app_assoc in H0. apply app_inj_tail in H0 as [_ ->]. now apply (IH x). }
  assert (Hstep : lexm M0 (String "/" (String "*" (String "*" (String "010" "")))) = (MBlock, [])) by reflexivity.
  replace ("/*" ++ ("*" ++ String "010" "" ++ utf8 fm) ++ "*/" ++ String "010" "")%string
    with (String "/" (String "*" (String "*" (String "010" ""))) ++ (utf8 fm ++ ("*/" ++ String "010" "")))%string
    by (cbn; reflexivity).
  rewrite lexm_app, Hstep, lexm_app. change MBlock with (mblock false). rewrite Hl. reflexivity.
Qed.

Lemma uncr_occurs l l' : uncr l l' -> (occurs (lit "*/") l' <-> occurs (lit "*/") l).
Proof.
  intros [a|a H]; [|easy]. change (lit "*/") with [star; slash]. rewrite (occ_app a 13 []) by discriminate.
  pose proof occ_nil. tauto.
Qed.

Theorem docs_closed ds ls : doc_lines ds ls -> (exists l, In l ls /\ l <> []) ->
  (one_comment (doc_text ds) <-> forall l, In l ls -> ~ occurs (lit "*/") l).
Proof.
  intros H Hne. apply doc_lines_split in H as ->. destruct (from_attrs ds) as [full|] eqn:Hf.
  2:{ destruct Hne as (l & Hl & Hne). destruct Hne. now apply (proj1 (empty_iff ds) Hf). }
  rewrite (closed_iff ds full Hf), (lines_shown ds full Hf). set (ls := flat_map _ ds) in *.
  assert (Hs : forall l, l <> [] -> (In l (shown ls) <-> In l ls)).
  { intros l Hl. assert (Hd : In l (drop_empty ls) <-> In l ls).
    { clear -Hl. induction ls as [|[|c x] r IH]; cbn; [easy| |easy]. rewrite IH. split; [auto|]. intros [<-|H]; easy. }
    rewrite <- Hd. unfold shown. destruct (rev (drop_empty ls)) as [|[|c x] r] eqn:Hr; [easy| |easy].
    rewrite <- (rev_involutive (drop_empty ls)), Hr. cbn [rev]. rewrite in_app_iff. cbn. split; [auto|]. intros [H|[<-|[]]]; easy. }
  assert (Hn : forall l, occurs (lit "*/") l -> l <> []).
  { intros l Ho ->. now apply occ_nil in Ho. }
  split.
  - intros H l Hl Ho. apply (H (strip_cr l)); [apply in_map, Hs; eauto|]. now apply (uncr_occurs l _ (strip_cr_spec l)).
  - intros H l Hl Ho. apply in_map_iff in Hl as [l0 [<- Hl]]. apply (uncr_occurs l0 _ (strip_cr_spec l0)) in Ho.
    apply (H l0); [|exact Ho]. apply Hs; eauto.
Qed.

Theorem docs_leave_no_token ds ls : Forall (Forall scalar) ds -> doc_lines ds ls ->
  (forall l, In l ls -> ~ occurs (lit "*/") l) -> lexm M0 (utf8 (doc_text ds)) = (M0, []).
Proof.
  intros Hsc H Hn. apply doc_skipped; [exact Hsc|]. intros full l Hf Hl.
  rewrite (lines_shown ds full Hf), <- (doc_lines_split ds ls H) in Hl. apply in_map_iff in Hl as [l0 [<- Hl]].
  intros Ho. apply (uncr_occurs l0 _ (strip_cr_spec l0)) in Ho. apply (Hn l0); [|exact Ho].
  assert (Hd : In l0 (drop_empty ls)).
  { unfold shown in Hl. destruct (rev (drop_empty ls)) as [|[|c x] r] eqn:Hr; auto.
    rewrite <- (rev_involutive (drop_empty ls)), Hr. cbn [rev]. rewrite in_app_iff. auto. }
  clear -Hd. induction ls as [|[|c x] r IH]; cbn in *; auto.
Qed.

(** ** Escaping *)
Theorem escape_spec s : escape s = flat_map entity s.
Proof.
  unfold escape, replace. induction s as [|c s IH]; [reflexivity|]. cbn [flat_map]. rewrite !flat_map_app, IH.
  f_equal. unfold entity. change (N_of_ascii "<") with 60%N. change (N_of_ascii ">") with 62%N. change (N_of_ascii "|") with 124%N.
  destruct (N.eqb_spec c 60) as [->|H1]; [reflexivity|]. cbn [flat_map]. rewrite app_nil_r.
  destruct (N.eqb_spec c 62) as [->|H2]; [reflexivity|]. cbn [flat_map]. rewrite app_nil_r. reflexivity.
Qed.

Theorem escape_clean s c : In c (escape s) -> ~ In c (lit "<>|").
Proof.
  rewrite escape_spec. intros H. apply in_flat_map in H as [x [_ H]]. unfold entity in H.
  change (N_of_ascii "<") with 60%N in H. change (N_of_ascii ">") with 62%N in H. change (N_of_ascii "|") with 124%N in H.
  change (lit "<>|") with [60; 62; 124]%N.
  assert (K : forall l : rstr, forallb (fun y => negb (existsb (N.eqb y) [60; 62; 124]%N)) l = true -> In c l -> ~ In c [60; 62; 124]%N).
  { intros l Hl Hc Hn. rewrite forallb_forall in Hl. specialize (Hl c Hc). apply negb_true_iff in Hl.
    assert (Ht : existsb (N.eqb c) [60; 62; 124]%N = true) by (apply existsb_exists; exists c; split; [exact Hn|apply N.eqb_refl]).
    congruence. }
  destruct (N.eqb x 60) eqn:H1; [now apply (K (lit "&lt;"))|].
  destruct (N.eqb x 62) eqn:H2; [now apply (K (lit "&gt;"))|].
  destruct (N.eqb x 124) eqn:H3; [now apply (K (lit "&#124;"))|].
  destruct H as [<-|[]]. apply N.eqb_neq in H1, H2, H3. cbn. intuition.
Qed.
