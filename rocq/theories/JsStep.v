(** The actions of the user.  Proof side. *)
From Coq Require Import List String Ascii Bool Arith NArith ZArith Lia.
From Verif Require Import Util Js JsonText Wire TsProgram FileProofs ClientSpec JsSem JsRun JsFun JsSend JsCalls JsRequest JsEvents JsHeap JsNet JsFlush JsSpec JsWorld.
From Verif Require Client ClientSockProofs.
Import ListNotations.
Local Open Scope string_scope.
Local Open Scope list_scope.

Record world := mkD {
  d_id : Z; d_iv : val; d_so : val; d_op : val; d_th : val; d_cnt : Z; d_rest : list frame; d_fr : nat; d_h : heap; d_sk : list sock;
  d_su : list (option val); d_tm : list (option (val * val)); d_t : tags; d_us : users; d_sp : list nat; d_ln : list out; d_es : list entry
}.
Definition conc (d : world) : state :=
  St (d_id d) (d_iv d) (d_so d) (d_op d) (d_th d) (d_cnt d) (d_rest d) (d_fr d) (map snd (d_h d)) (d_sk d) (d_su d) (d_tm d) (map snd (d_t d)) (d_us d).
Record Inv (d : world) (c : client) : Prop := {
  v_shape : ClientSockProofs.Shape c;
  v_net : SInv (d_h d) (d_rest d) (d_so d) (d_op d) (d_th d) (d_cnt d) (d_sk d) (d_tm d) (d_sp d) (d_ln d) (links (d_t d)) c;
  v_ent : EInv (d_h d) (d_rest d) (d_fr d) (d_t d) (d_us d) (d_su d) (d_es d) (Client.cl_subs c) (Client.cl_stores c);
  v_id : d_id d = Z.of_N (Client.cl_id c);
  v_lim : (Client.cl_id c <= 2 ^ 53)%N
}.
Global Arguments v_shape {d c} _. Global Arguments v_net {d c} _. Global Arguments v_ent {d c} _. Global Arguments v_id {d c} _. Global Arguments v_lim {d c} _.
Lemma v_loose d c : Inv d c -> ClientSockProofs.Loose c.
Proof. intros H. exact (ClientSockProofs.sh_loose _ (v_shape H)). Qed.
Lemma v_th d c : Inv d c -> good_th (d_th d).
Proof. intros H. exact (s_good_th _ _ _ _ _ _ _ _ _ _ _ _ (v_net H)). Qed.
Lemma v_so d c : Inv d c -> good_so (d_so d) (d_sk d).
Proof. intros H. exact (s_good_so _ _ _ _ _ _ _ _ _ _ _ _ (v_loose _ _ H) (v_net H)). Qed.
Lemma v_op d c : Inv d c -> good_op (d_op d) (map snd (d_h d)).
Proof. intros H. exact (s_good_op _ _ _ _ _ _ _ _ _ _ _ _ (v_net H)). Qed.

(** ** How much is left to do *)
Definition e_work (e : entry) : nat :=
  match e with
  | EReq q => (if q_b q then 0 else 1) + match q_g q with G0 | G7 _ => 0 | G1 _ => 9 + q_n q | G2 _ => 8 + q_n q | G3 _ _ => 7 + q_n q | G4 _ _ => 6 + q_n q | G5 _ => 5 + q_n q | G6 _ => 4 + q_n q end
  | EHear _ => 0
  end.
Fixpoint sum (l : list nat) : nat := match l with [] => 0 | x :: l => x + sum l end.
Lemma sum_app a b : sum (a ++ b) = sum a + sum b.
Proof. induction a; cbn; lia. Qed.
Definition t_work (x : mark * job) : nat := match fst x with MLink _ | MUser => 1 | _ => 0 end.
Definition sc_work (x : script) : nat := 2 * List.length (sc_acts x).
Definition work (d : world) : nat := sum (map e_work (d_es d)) + sum (map t_work (d_t d)) + sum (map sc_work (us_scripts (d_us d))).
Lemma sum_upd n l x y : nth_error l n = Some x -> sum (upd n (fun _ => y) l) + x = sum l + y.
Proof. revert n. induction l as [|a l IH]; intros [|n] H; cbn in *; try discriminate; [injection H as ->; lia|]. specialize (IH n H). lia. Qed.
Lemma e_work_upd j es e e' : nth_error es j = Some e -> sum (map e_work (upd j (fun _ => e') es)) + e_work e = sum (map e_work es) + e_work e'.
Proof. intros H. rewrite (map_upd e_work j _ (fun _ => e_work e')) by reflexivity. apply sum_upd. now rewrite nth_error_map, H. Qed.

(** ** A new entry *)
Lemma combine_snoc {A B} (l : list A) (m : list B) x y : List.length l = List.length m -> combine (l ++ [x]) (m ++ [y]) = combine l m ++ [(x, y)].
Proof. revert m. induction l as [|a l IH]; intros [|b m] H; cbn in *; try discriminate; [reflexivity|]. now rewrite IH by lia. Qed.
Lemma e_add h h' rest g fr fr' t t' us us' su es subs stores e s : EInv h rest fr t us su es subs stores ->
  keeps req_owner h h' -> (forall i, i < List.length es -> on_mark (MStage i) t' = [] /\ on_mark (MBack i) t' = []) ->
  Forall (mark_ok (es ++ [e])) t' -> ent_ok h' (rest ++ g) (t ++ t') us' (List.length es) e s -> fr <= eid e -> eid e < fr' ->
  us_proms us' = us_proms us ++ e_proms [e] -> us_unls us' = us_unls us ++ e_unls [e] -> us_stores us' = us_stores us -> us_heard us' = us_heard us ->
  e_nums [e] = seq (List.length (us_unls us)) (List.length (e_unls [e])) ->
  EInv h' (rest ++ g) fr' (t ++ t') us' (su ++ [slot e s]) (es ++ [e]) (subs ++ [s]) stores.
Proof.
  intros [A1 A2 A3 A4 A5 A6 A7 A8 A9 A10 A11] K O M E L1 L2 U1 U2 U3 U4 Nu. constructor.
  - rewrite !app_length. cbn. lia.
  - intros j e0 s0 He Hs. apply nth_app_inv in He as [[Lj He]|[-> ->]].
    + rewrite nth_error_app1 in Hs by (rewrite <- A1; exact Lj). specialize (A2 j e0 s0 He Hs). destruct (O j Lj) as [O1 O2]. destruct e0; cbn in *.
      * eapply req_mono; [|exact K| | |exact A2]; [intros; exact I|rewrite on_mark_app, O1; apply app_nil_r|rewrite on_mark_app, O2; apply app_nil_r].
      * apply lis_mono with us; [|exact A2]. unfold heard_by. now rewrite U4.
    + rewrite A1, nth_app_new in Hs. injection Hs as <-. exact E.
  - rewrite combine_snoc by exact A1. now rewrite map_app, <- A3.
  - rewrite map_app. cbn. apply nodup_snoc; [exact A4|]. intros I. apply in_map_iff in I as (e0 & Ee & I). rewrite Forall_forall in A5. apply A5 in I. lia.
  - apply Forall_app. split; [eapply Forall_impl; [|exact A5]; cbn; intros; lia|]. repeat constructor. exact L2.
  - apply Forall_app. split; [|exact M]. eapply Forall_impl; [|exact A6]. intros [m x] Hx. unfold mark_ok in *. cbn in *. destruct m; try assumption;
      (destruct Hx as [q0 Hx]; exists q0; now apply nth_old).
  - rewrite U1, A7. unfold e_proms. now rewrite flat_map_app.
  - rewrite U2, A8. unfold e_unls. now rewrite flat_map_app.
  - unfold e_nums in *. rewrite flat_map_app, A9, Nu, U2, app_length, seq_app. reflexivity.
  - rewrite U4, U2. eapply Forall_impl; [|exact A10]. intros x. rewrite app_length. lia.
  - rewrite U3. now apply stores_mono.
Qed.
Lemma e_store h h' rest g fr fr' t t' us su es subs stores v k : EInv h rest fr t us su es subs stores ->
  keeps req_owner h h' -> Forall net_tag t' -> fr <= fr' -> store_ok (rest ++ g) v k ->
  EInv h' (rest ++ g) fr' (t ++ t') (us_set_stores (us_stores us ++ [v]) us) su es subs (stores ++ [k]).
Proof.
  intros H K F L S. apply (e_mono _ h' _ g _ fr' _ t') in H; [|assumption..]. destruct H as [A1 A2 A3 A4 A5 A6 A7 A8 A9 A10 A11]. constructor; try assumption.
  - intros j e s He Hs. specialize (A2 j e s He Hs). destruct e; cbn in *; [exact A2|]. destruct A2. constructor; assumption.
  - cbn. apply Forall2_app; [exact A11|]. now repeat constructor.
Qed.
Lemma e_fresh h rest fr t us su es subs stores i : EInv h rest fr t us su es subs stores -> fr <= i -> existsb (same_fun i) su = false.
Proof.
  intros H L. rewrite (e_su H). destruct (existsb _ _) eqn:E; [|reflexivity]. apply existsb_exists in E as (x & Ix & Ex). apply in_map_iff in Ix as ([e s] & <- & I).
  apply in_combine_l in I. pose proof (e_fr H) as F. rewrite Forall_forall in F. apply F in I. unfold slot in Ex. cbn in Ex. destruct (Client.su_live s); [|discriminate].
  unfold same_fun in Ex. destruct e; cbn in Ex, I; apply Nat.eqb_eq in Ex; lia.
Qed.

Definition tag_link (w : out) : mark * job := (MLink w, link w).
Lemma tags_links l : map snd (map tag_link l) = map link l.
Proof. rewrite map_map. reflexivity. Qed.
Lemma links_links l : links (map tag_link l) = l.
Proof. induction l; cbn; [reflexivity|]. f_equal. exact IHl. Qed.
Lemma net_links l : Forall net_tag (map tag_link l).
Proof. apply Forall_forall. intros x I. apply in_map_iff in I as (w & <- & _). reflexivity. Qed.
Lemma work_links l : sum (map t_work (map tag_link l)) = List.length l.
Proof. induction l; cbn; [reflexivity|]. now rewrite IHl. Qed.

(** What [open_and_send] does not change. *)
Lemma send_rest v (c : client) : let c' := Client.open_and_send v c in
  Client.cl_subs c' = Client.cl_subs c /\ Client.cl_stores c' = Client.cl_stores c /\ Client.cl_id c' = Client.cl_id c /\ Client.cl_disp c' = Client.cl_disp c.
Proof.
  cbn. unfold Client.open_and_send, Client.open. cbn. destruct (Client.cl_cur c) as [n|].
  - destruct (Client.is_open _); [repeat split|]. destruct (Client.cl_opening c); repeat split.
  - destruct (Client.cl_opening c); repeat split.
Qed.
Lemma bump_next z n : z = Z.of_N n -> (n <= 2 ^ 53)%N -> next z = Z.of_N (Client.bump n) /\ (Client.bump n <= 2 ^ 53)%N.
Proof.
  intros -> L. unfold next, Client.bump. destruct (N.ltb_spec n (2 ^ 53)).
  - assert (Z.of_N n + 1 = Z.of_N (n + 1))%Z as -> by lia. split; [|lia]. destruct (N.eq_dec (n + 1) (2 ^ 53)) as [E|E]; [rewrite E; reflexivity|]. apply round_small. lia.
  - assert (n = 2 ^ 53)%N as -> by lia. split; [reflexivity|lia].
Qed.
