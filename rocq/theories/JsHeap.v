(** What belongs to what: promises and frames of the running client, and the sockets of the model.  Proof side. *)
From Coq Require Import List String Ascii Bool Arith NArith ZArith Lia.
From Verif Require Import Util Js JsonText Wire TsProgram FileProofs ClientSpec JsSem JsRun JsFun JsSend JsCalls JsRequest JsEvents.
From Verif Require Client ClientSockProofs.
Import ListNotations.
Local Open Scope string_scope.
Local Open Scope list_scope.

(** Every promise has an owner: a request (by its entry, and which of its promises), a socket, a call of [open]. *)
Inductive owner := OReq (j i : nat) | OSock (n : nat) | OOut | OThen (p : nat).
Notation heap := (list (owner * prom)).
Definition net_owner (o : owner) : Prop := match o with OReq _ _ => False | _ => True end.

Definition keeps (Q : owner -> Prop) (h h' : heap) : Prop :=
  forall p o x, Q o -> nth_error h p = Some (o, x) -> nth_error h' p = Some (o, x).
Lemma keeps_app Q h g : keeps Q h (h ++ g).
Proof. intros p o x _ H. now apply nth_old. Qed.
Lemma keeps_refl Q h : keeps Q h h.
Proof. now intros p o x _ H. Qed.
Lemma keeps_trans Q h1 h2 h3 : keeps Q h1 h2 -> keeps Q h2 h3 -> keeps Q h1 h3.
Proof. intros A B p o x q H. apply B; [exact q|]. now apply A. Qed.
Definition put (p : nat) (o : owner) (x : prom) (h : heap) : heap := upd p (fun _ => (o, x)) h.
Lemma keeps_put (Q : owner -> Prop) h p o x y : nth_error h p = Some (o, y) -> ~ Q o -> keeps Q h (put p o x h).
Proof.
  intros H N p' o' x' q H'. unfold put. rewrite nth_upd. destruct (Nat.eqb_spec p p') as [<-|]; [|exact H'].
  rewrite H in H'. injection H' as <- _. contradiction.
Qed.
Lemma put_same h p o x y : nth_error h p = Some y -> nth_error (put p o x h) p = Some (o, x).
Proof. intros H. unfold put. now rewrite nth_upd_same, H. Qed.
Lemma put_other h p o x p' : p <> p' -> nth_error (put p o x h) p' = nth_error h p'.
Proof. intros H. unfold put. now rewrite nth_upd_other. Qed.
Lemma put_snd (h : heap) p o x : map snd (put p o x h) = upd p (fun _ => x) (map snd h).
Proof. unfold put. revert p. induction h as [|a h IH]; intros [|p]; cbn; [reflexivity..|]. now rewrite IH. Qed.
Lemma nth_snd (h : heap) p o x : nth_error h p = Some (o, x) -> nth_error (map snd h) p = Some x.
Proof. intros H. now rewrite nth_error_map, H. Qed.

(** A call of [open]: of which socket, what follows it. *)
Record out := mkW { w_n : nat; w_s : nat; w_p : nat; w_q : nat; w_i : nat; w_f : nat; w_v : option (N * jstr) }.
Definition out_prom (w : out) : prom :=
  mkProm (PPending match w_v w with
                   | Some _ => [mkRe (HFun (f_later (w_i w) (2 + w_f w))) HNone (Some (w_q w))]
                   | None => []
                   end) true.
Definition blank (b : bool) : prom := mkProm (PPending []) b.
Definition out_ok (h : heap) (rest : list frame) (w : out) : Prop :=
  nth_error h (w_p w) = Some (OOut, out_prom w) /\
  match w_v w with
  | Some v => nth_error rest (w_f w) = Some (value_frame (VStr (snd v))) /\ nth_error h (w_q w) = Some (OThen (w_p w), blank false)
  | None => True
  end.
Definition waits (w : out) : list (nat * (N * jstr)) := match w_v w with Some v => [(w_n w, v)] | None => [] end.

Lemma out_mono h h' rest g w : keeps net_owner h h' -> out_ok h rest w -> out_ok h' (rest ++ g) w.
Proof.
  intros K [A B]. split; [now apply K|]. destruct (w_v w); [|exact I]. destruct B as [B C].
  split; [now apply nth_old|]. now apply K.
Qed.

Definition into (w : out) : reaction := mkRe (HInto (w_p w)) (HInto (w_p w)) None.
Definition of_sock (n : nat) (w : out) : bool := Nat.eqb (w_n w) n.
Definition unborn (st : Client.ready) : bool := match st with Client.Connecting | Client.Closing false => true | _ => false end.
Definition sock_prom (st : Client.ready) (ws : list out) (x : prom) : Prop :=
  if unborn st then x = mkProm (PPending (map into ws)) false
  else pr_used x = true /\ (forall rs, pr_state x <> PPending rs).
Lemma unborn_iff st : unborn st = true <-> ClientSockProofs.unborn st.
Proof. unfold ClientSockProofs.unborn. destruct st as [| |[|]|]; cbn; split; intros H; try discriminate; auto; destruct H; discriminate. Qed.
Lemma unborn_closing st : unborn (Client.closing st) = unborn st.
Proof. now destruct st as [| |[|]|]. Qed.
Lemma prom_closing st ws x : sock_prom st ws x -> sock_prom (Client.closing st) ws x.
Proof. unfold sock_prom. now rewrite unborn_closing. Qed.

Definition timer_ok (th : val) (tm : list (option (val * val))) (t : option N) : Prop :=
  match t with
  | Some d => exists k i, th = VTimer k /\ nth_error tm k = Some (Some (f_timer i, VNum (Z.of_N d))) /\
      forall k' x, nth_error tm k' = Some (Some x) -> k' = k
  | None => good_th th /\ forall k x, nth_error tm k <> Some (Some x)
  end.
Lemma timer_good th tm t : timer_ok th tm t -> good_th th.
Proof. destruct t; [intros (k & i & -> & _); right; now exists k | now intros [H _]]. Qed.
Lemma clear_none th tm t k x : timer_ok th tm t -> nth_error (clear th tm) k <> Some (Some x).
Proof.
  destruct t as [d|].
  - intros (k0 & i & -> & H & U) E. cbn in E. rewrite nth_upd in E. destruct (Nat.eqb_spec k0 k) as [->|N]; [rewrite H in E; discriminate|].
    apply U in E. congruence.
  - intros [[->|[k0 ->]] U] E; cbn in E; [now apply U in E|]. rewrite nth_upd in E. destruct (Nat.eqb_spec k0 k) as [->|N]; [|now apply U in E].
    destruct (nth_error tm k); discriminate.
Qed.
Lemma timer_clear th tm t th' : timer_ok th tm t -> good_th th' -> timer_ok th' (clear th tm) None.
Proof. intros H G. split; [exact G|]. intros k x. now apply (clear_none _ _ t). Qed.

Definition sock_val (o : option nat) : val := match o with Some n => VSock n | None => VUndef end.
Definition limit (n : nat) : Z := Z.min (Z.of_nat n) (2 ^ 53).

(** The sockets: [sp] their promises, [ln] the calls of [open] that follow them, [lk] those about to. *)
Section Net.
Context {K D : Type}.
Notation client := (Client.client jstr K D).
Record sock_ok (h : heap) (rest : list frame) (n : nat) (ws : list out) (x : Client.wsock jstr) (y : sock) (p : nat) : Prop := {
  k_state : so_state y = Client.ws_state x;
  k_sent : so_sent y = map (fun v => VStr (snd v)) (Client.ws_sent x);
  k_lost : so_lost y = [];
  k_on : exists i f, so_on y = handlers i (2 + f) /\ nth_error rest f = Some (open_frame p);
  k_prom : exists z, nth_error h p = Some (OSock n, z) /\ sock_prom (Client.ws_state x) ws z
}.
Record SInv (h : heap) (rest : list frame) (so op th : val) (cnt : Z) (sk : list sock) (tm : list (option (val * val)))
    (sp : list nat) (ln lk : list out) (c : client) : Prop := {
  s_len : List.length sk = List.length (Client.cl_socks c);
  s_sp : List.length sp = List.length (Client.cl_socks c);
  s_sock : forall n x y p, nth_error (Client.cl_socks c) n = Some x -> nth_error sk n = Some y -> nth_error sp n = Some p ->
    sock_ok h rest n (filter (of_sock n) ln) x y p;
  s_cur : so = sock_val (Client.cl_cur c);
  s_op : match Client.cl_opening c with
         | Some n => exists p, op = VProm p /\ nth_error sp n = Some p
         | None => op = VUndef
         end;
  s_timer : timer_ok th tm (Client.cl_timer c);
  s_count : cnt = limit (Client.cl_count c);
  s_wait : Client.cl_waiting c = flat_map waits (ln ++ lk);
  s_out : Forall (out_ok h rest) (ln ++ lk);
  s_nd : NoDup (map w_p (ln ++ lk));
  s_to : forall w, In w (ln ++ lk) -> nth_error sp (w_n w) = Some (w_s w) /\ unborn (Client.state_of c (w_n w)) = true
}.

Global Arguments s_len {h rest so op th cnt sk tm sp ln lk c} _.
Global Arguments s_sp {h rest so op th cnt sk tm sp ln lk c} _.
Global Arguments s_sock {h rest so op th cnt sk tm sp ln lk c} _.
Global Arguments s_cur {h rest so op th cnt sk tm sp ln lk c} _.
Global Arguments s_op {h rest so op th cnt sk tm sp ln lk c} _.
Global Arguments s_timer {h rest so op th cnt sk tm sp ln lk c} _.
Global Arguments s_count {h rest so op th cnt sk tm sp ln lk c} _.
Global Arguments s_wait {h rest so op th cnt sk tm sp ln lk c} _.
Global Arguments s_out {h rest so op th cnt sk tm sp ln lk c} _.
Global Arguments s_nd {h rest so op th cnt sk tm sp ln lk c} _.
Global Arguments s_to {h rest so op th cnt sk tm sp ln lk c} _.

Definition same_net (c c' : client) : Prop :=
  Client.cl_socks c' = Client.cl_socks c /\ Client.cl_cur c' = Client.cl_cur c /\ Client.cl_opening c' = Client.cl_opening c /\
  Client.cl_waiting c' = Client.cl_waiting c /\ Client.cl_timer c' = Client.cl_timer c /\ Client.cl_count c' = Client.cl_count c.
Lemma s_mono h h' rest g so op th cnt sk tm sp ln lk c c' : keeps net_owner h h' -> same_net c c' ->
  SInv h rest so op th cnt sk tm sp ln lk c -> SInv h' (rest ++ g) so op th cnt sk tm sp ln lk c'.
Proof.
  intros K' (E1 & E2 & E3 & E4 & E5 & E6) [H1 H2 H3 H4 H5 H6 H7 H8 H9 H10 H11].
  constructor; rewrite ?E1, ?E2, ?E3, ?E4, ?E5, ?E6; try assumption.
  - intros n x y p Hx Hy Hp. destruct (H3 n x y p Hx Hy Hp) as [A1 A2 A3 (i & f & A4 & A5) (z & A6 & A7)].
    constructor; try assumption; [exists i, f; split; [exact A4|now apply nth_old] | exists z; split; [now apply K'|exact A7]].
  - eapply Forall_impl; [|exact H9]. intros w. now apply out_mono.
  - intros w Hw. destruct (H11 w Hw) as [A B]. split; [exact A|]. unfold Client.state_of in *. now rewrite E1.
Qed.
Lemma s_good_th h rest so op th cnt sk tm sp ln lk c : SInv h rest so op th cnt sk tm sp ln lk c -> good_th th.
Proof. intros H. eapply timer_good, s_timer, H. Qed.
Lemma s_good_so h rest so op th cnt sk tm sp ln lk c : ClientSockProofs.Loose c -> SInv h rest so op th cnt sk tm sp ln lk c -> good_so so sk.
Proof.
  intros L H. rewrite (s_cur H). destruct (Client.cl_cur c) as [n|] eqn:E; [right|now left].
  apply (ClientSockProofs.lo_cur _ L) in E. exists n. 
  destruct (nth_error sk n) as [x|] eqn:F; [now exists x|]. apply nth_error_None in F. rewrite (s_len H) in F. lia.
Qed.
Lemma s_sp_lt h rest so op th cnt sk tm sp ln lk c n p : SInv h rest so op th cnt sk tm sp ln lk c -> nth_error sp n = Some p ->
  exists x y, nth_error (Client.cl_socks c) n = Some x /\ nth_error sk n = Some y /\ sock_ok h rest n (filter (of_sock n) ln) x y p.
Proof.
  intros H E. pose proof (nth_some_lt _ _ _ E) as L. rewrite (s_sp H) in L.
  destruct (nth_error (Client.cl_socks c) n) as [x|] eqn:Ex; [|apply nth_error_None in Ex; lia].
  destruct (nth_error sk n) as [y|] eqn:Ey; [|apply nth_error_None in Ey; rewrite (s_len H) in Ey; lia].
  exists x, y. split; [reflexivity|]. split; [reflexivity|]. now apply (s_sock H).
Qed.
Lemma s_good_op (h : heap) rest so op th cnt sk tm sp ln lk c : SInv h rest so op th cnt sk tm sp ln lk c -> good_op op (map snd h).
Proof.
  intros H. pose proof (s_op H) as E. destruct (Client.cl_opening c) as [n|]; [|now left].
  destruct E as (p & -> & E). right. exists p. split; [reflexivity|].
  destruct (s_sp_lt _ _ _ _ _ _ _ _ _ _ _ _ n p H E) as (x & y & _ & _ & [_ _ _ _ (z & A & _)]).
  rewrite map_length. now apply nth_some_lt in A.
Qed.
End Net.
