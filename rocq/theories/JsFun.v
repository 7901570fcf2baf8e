(** What each function of the client does to the state.  Proof side. *)
From Coq Require Import List String Ascii Bool Arith NArith ZArith Lia.
From Verif Require Import Util Js JsonText TsProgram FileProofs JsSem JsRun.
From Verif Require Client.
Import ListNotations.
Local Open Scope string_scope.
Local Open Scope list_scope.

(** ** The functions made on the way *)
Definition parts (v : val) : list stm := match v with VClo _ _ _ _ b => b | _ => [] end.
Fixpoint funs_exp (e : exp) : list (bool * list pat * list stm) :=
  match e with
  | XFun a ps b => [(a, ps, b)]
  | XCall f args => funs_exp f ++ flat_map funs_exp args
  | XNew f args => funs_exp f ++ flat_map funs_exp args
  | XMember e _ => funs_exp e
  | XAssign _ e => funs_exp e
  | XSet o _ e => funs_exp e
  | XObj l => flat_map (fun p => funs_exp (snd p)) l
  | _ => []
  end.
Fixpoint funs_stm (s : stm) : list (bool * list pat * list stm) :=
  match s with
  | YVar _ _ (Some e) => funs_exp e
  | YExp e => funs_exp e
  | YRet (Some e) => funs_exp e
  | YIf _ a b => flat_map funs_stm a ++ flat_map funs_stm b
  | _ => []
  end.
Definition fun_of (k i : nat) (sc : list nat) (b : list stm) : val :=
  match nth_error (flat_map funs_stm b) k with Some (a, ps, b) => VClo i sc a ps b | None => VUndef end.
Definition body_of (k : nat) (b : list stm) : list stm := parts (fun_of k 0 [] b).

Definition f_timer (i : nat) : val := Eval vm_compute in fun_of 0 i [1; 0] (parts v_reopen).
Definition f_message (i : nat) : val := Eval vm_compute in fun_of 0 i [1; 0] (parts v_open).
Definition f_close (i : nat) : val := Eval vm_compute in fun_of 1 i [1; 0] (parts v_open).
Definition f_error (i f : nat) : val := Eval vm_compute in fun_of 0 i [f; 1; 0] (body_of 2 (parts v_open)).
Definition f_open (i f : nat) : val := Eval vm_compute in fun_of 1 i [f; 1; 0] (body_of 2 (parts v_open)).
Definition f_visit (i f : nat) : val := Eval vm_compute in fun_of 0 i [f; 1; 0] (body_of 0 (parts v_open)).
Definition f_later (i f : nat) : val := Eval vm_compute in fun_of 0 i [f; 1; 0] (parts v_send).
Definition f_unsub (i f : nat) : val := Eval vm_compute in fun_of 0 i [f; 1; 0] (parts v_csub).
Definition f_listen (i f : nat) : val := Eval vm_compute in fun_of 0 i [f; 0] (parts v_subscribe).
Definition f_noclose (i f : nat) : val := Eval vm_compute in fun_of 1 i [f; 0] (parts v_subscribe).
Definition f_hear (i h f : nat) : val := Eval vm_compute in fun_of 0 i [h; f; 0] (body_of 0 (parts v_subscribe)).
Definition f_exec (i f : nat) : val := Eval vm_compute in fun_of 0 i [f; 0] (parts v_request).
Definition f_answer (i h f : nat) : val := Eval vm_compute in fun_of 0 i [h; f; 0] (body_of 0 (parts v_request)).
Definition f_same (i f : nat) : val := Eval vm_compute in fun_of 1 i [f; 0] (parts v_request).
Definition f_finally (i f : nat) : val := Eval vm_compute in fun_of 2 i [f; 0] (parts v_request).

(** ** What they do *)
Definition clear (th : val) (tm : list (option (val * val))) : list (option (val * val)) :=
  match th with VTimer k => upd k (fun _ => None) tm | _ => tm end.
Definition shut (so : val) (sk : list sock) : list sock :=
  match so with
  | VSock k => upd k (fun so => mkSock (Client.closing (so_state so)) (so_sent so) (so_lost so) (so_on so)) sk
  | _ => sk
  end.
Definition good_th (th : val) : Prop := th = VUndef \/ exists k, th = VTimer k.
Definition good_so (so : val) (sk : list sock) : Prop := so = VUndef \/ exists k x, so = VSock k /\ nth_error sk k = Some x.
Definition delay (z : Z) : Z := nth (if Z.geb z 3 then 3 else Z.to_nat z) [100; 200; 1000; 3000]%Z 0%Z.
Definition next (z : Z) : Z := round_int (z + 1).

(** A call within the run. *)
Ltac use L := eapply L; first [eassumption | reflexivity].
Ltac start := cbn [Nat.add]; unfold St at 1; cbv beta iota.

Section Funs.
Context (lit : num -> jstr) (num : jstr -> num) (other : jsval -> N -> bool).
Local Notation call := (call lit num other).

Lemma close_ok n id iv so op th cnt rest fr pr sk su tm jb us : good_th th -> good_so so sk ->
  call (20 + n) v_close [] (St id iv so op th cnt rest fr pr sk su tm jb us) =
  Ok VUndef (St id iv VUndef op th cnt rest fr pr (shut so sk) su (clear th tm) jb us).
Proof.
  intros [->|[k ->]] [->|(m & x & -> & Hx)]; start; unfold v_close; js; reflexivity.
Qed.

Lemma timeout_ok n id iv so op th cnt rest fr pr sk su tm jb us : (0 <= cnt)%Z ->
  call (20 + n) v_timeout [] (St id iv so op th cnt rest fr pr sk su tm jb us) =
  Ok (VNum (delay cnt)) (St id iv so op th (next cnt) (rest ++ [[("n", (false, Some (VNum cnt)))]]) fr pr sk su tm jb us).
Proof.
  intros H. start; unfold v_timeout. destruct (cnt >=? 3)%Z eqn:E.
  - js. change (round_int (Z.pos (Pos.of_succ_nat 3) - 1)) with 3%Z. rewrite E. all: js.
    change (round_int (Z.pos (Pos.of_succ_nat 3) - 1)) with 3%Z. cbn [Z.ltb Z.compare]. all: js. unfold delay. rewrite E. reflexivity.
  - assert (HE : (cnt = 0 \/ cnt = 1 \/ cnt = 2)%Z) by (rewrite Z.geb_leb in E; apply Z.leb_gt in E; lia).
    js. change (round_int (Z.pos (Pos.of_succ_nat 3) - 1)) with 3%Z. rewrite E. all: js.
    destruct (Z.ltb cnt 0) eqn:E1; [apply Z.ltb_lt in E1; lia|]. all: js. clear E.
    destruct HE as [->|[->| ->]]; reflexivity.
Qed.
Definition some_entry (su : list (option val)) : bool := Nat.ltb 0 (entries su).
Lemma some_entry_gt su : (Z.of_nat (entries su) >? 0)%Z = some_entry su.
Proof. unfold some_entry. destruct (entries su); reflexivity. Qed.
Lemma some_entry_eq su : (Z.of_nat (entries su) =? 0)%Z = negb (some_entry su).
Proof. unfold some_entry. destruct (entries su); reflexivity. Qed.
Lemma clear_length th tm : List.length (clear th tm) = List.length tm.
Proof. destruct th; cbn; try reflexivity. apply upd_length. Qed.

Lemma reopen_ok id iv so op th cnt rest fr pr sk su tm jb us : good_th th -> good_so so sk -> (0 <= cnt)%Z ->
  exists g fr', fr <= fr' /\ forall n, call (40 + n) v_reopen [] (St id iv so op th cnt rest fr pr sk su tm jb us) =
  Ok VUndef
    (if some_entry su
     then St id iv VUndef op (VTimer (List.length tm)) (next cnt) (rest ++ g) fr' pr (shut so sk) su
            (clear th tm ++ [Some (f_timer fr, VNum (delay cnt))]) jb us
     else St id iv VUndef op th cnt (rest ++ g) fr' pr (shut so sk) su (clear th tm) jb us).
Proof.
  intros H1 H2 H3. destruct (some_entry su) eqn:E.
  - exists [[("n", (false, Some (VNum cnt)))]], (S fr). split; [lia|]. intros n. start. unfold v_reopen. js.
    use close_ok.
    all: js. rewrite some_entry_gt, E. all: js.
    use timeout_ok. all: js. rewrite clear_length. reflexivity.
  - exists [], fr. split; [lia|]. intros n. rewrite app_nil_r. start. unfold v_reopen. js.
    use close_ok.
    all: js. rewrite some_entry_gt, E. all: js. reflexivity.
Qed.

Lemma open_old n id iv so q th cnt rest fr pr sk su tm jb us : good_th th -> q < List.length pr ->
  call (40 + n) v_open [] (St id iv so (VProm q) th cnt rest fr pr sk su tm jb us) =
  Ok (VProm (List.length pr))
    (St id iv so (VProm q) VUndef cnt rest fr (pr ++ [mkProm (PPending []) true]) sk su (clear th tm) (jb ++ [JThen q (List.length pr)]) us).
Proof.
  intros [->|[k ->]] H; start; unfold v_open; js; reflexivity.
Qed.
Definition open_frame (p : nat) : frame := [("resolve", (true, Some (VResolve p))); ("reject", (true, Some (VReject p)))].
Definition handlers (fr f : nat) : list (string * val) :=
  [("onopen", f_open (4 + fr) f); ("onerror", f_error (3 + fr) f); ("onclose", f_close (1 + fr)); ("onmessage", f_message fr)].
Lemma open_new n id iv so th cnt rest fr pr sk su tm jb us : good_th th -> 
  call (40 + n) v_open [] (St id iv so VUndef th cnt rest fr pr sk su tm jb us) =
  Ok (VProm (List.length pr))
    (St id iv (VSock (List.length sk)) (VProm (List.length pr + 1)) VUndef cnt 
       (rest ++ [open_frame (List.length pr + 1)])
       (5 + fr) (pr ++ [mkProm (PPending []) true; mkProm (PPending []) false])
       (sk ++ [mkSock Client.Connecting [] [] (handlers fr (S (S (List.length rest))))]) su (clear th tm) (jb ++ [JThen (List.length pr + 1) (List.length pr)]) us).
Proof.
  intros [->|[k ->]]; start; unfold v_open; js.
  all: reflexivity.
Qed.
End Funs.
