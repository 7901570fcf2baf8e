(** Running the client symbolically: its values after loading, and a tactic.  Proof side. *)
From Coq Require Import List String Ascii Bool Arith NArith ZArith Lia.
From Verif Require Import Util Js JsonText TsProgram FileProofs JsSem.
From Verif Require Client.
Import ListNotations.
Local Open Scope string_scope.
Local Open Scope list_scope.

(** ** The state after loading *)
Definition loaded : state := Eval vm_compute in
  match load (fun _ => []) (fun _ => NNaN) (fun _ _ => false) 100 client_program (st0 []) with Ok _ s => s | _ => st0 [] end.
Definition value_of (k : nat) (x : string) : val :=
  match nth_error (st_frames loaded) k with
  | Some f => match get_binding x f with Some (_, Some v) => v | _ => VUndef end
  | None => VUndef
  end.
Definition v_addr := Eval vm_compute in value_of 0 "WS_ADDR".
Definition v_timeouts := Eval vm_compute in value_of 0 "reopenTimeouts".
Definition v_store := Eval vm_compute in value_of 0 "websocketStore".
Definition v_csend : val := Eval vm_compute in match value_of 0 "CONNECTION" with VObj ((_, v) :: _) => v | _ => VUndef end.
Definition v_csub : val := Eval vm_compute in match value_of 0 "CONNECTION" with VObj (_ :: (_, v) :: _) => v | _ => VUndef end.
Definition v_connection := VObj [("send", v_csend); ("subscribe", v_csub)].
Definition v_execute := Eval vm_compute in value_of 0 "execute".
Definition v_subscribe := Eval vm_compute in value_of 0 "subscribe".
Definition v_request := Eval vm_compute in value_of 0 "request".
Definition v_timeout := Eval vm_compute in value_of 1 "reopenTimeout".
Definition v_close := Eval vm_compute in value_of 1 "close".
Definition v_reopen := Eval vm_compute in value_of 1 "reopen".
Definition v_open := Eval vm_compute in value_of 1 "open".
Definition v_send := Eval vm_compute in value_of 1 "open_and_send".

Definition mod_frame (z : Z) : frame :=
  [("z", (false, Some (VHost "zod"))); ("WS_ADDR", (false, Some v_addr)); ("reopenTimeouts", (false, Some v_timeouts));
   ("websocketStore", (true, Some v_store)); ("CONNECTION", (false, Some v_connection)); ("req_id", (true, Some (VNum z)));
   ("execute", (true, Some v_execute)); ("subscribe", (true, Some v_subscribe)); ("request", (true, Some v_request))].
Definition store_frame (iv so op th : val) (cnt : Z) : frame :=
  [("url", (true, Some v_addr)); ("initialValue", (true, Some iv)); ("socket", (true, Some so)); ("openPromise", (true, Some op));
   ("reopenTimeoutHandler", (true, Some th)); ("reopenCount", (true, Some (VNum cnt))); ("subscriptions", (false, Some (VSet 0)));
   ("reopenTimeout", (true, Some v_timeout)); ("close", (true, Some v_close)); ("reopen", (true, Some v_reopen));
   ("open", (true, Some v_open)); ("open_and_send", (false, Some v_send))].
Definition St (id : Z) (iv so op th : val) (cnt : Z) (rest : list frame) (fr : nat) (pr : list prom) (sk : list sock)
    (su : list (option val)) (tm : list (option (val * val))) (jb : list job) (us : users) : state :=
  mkSt (mod_frame id :: store_frame iv so op th cnt :: rest) fr pr sk [su] tm jb us.

Section Load.
Context (lit : num -> jstr) (num : jstr -> num) (other : jsval -> N -> bool).
Lemma load_ok n scripts : load lit num other (40 + n) client_program (st0 scripts) =
  Ok tt (St 0 VUndef VUndef VUndef VUndef 0 [] 11 [] [] [] [] [] (mkUs scripts [] [] [] [])).
Proof. vm_compute. reflexivity. Qed.
End Load.

(** ** Laws *)
Definition then_ {A B} (r : result A) (f : A -> M B) (h : val -> M B) : result B :=
  match r with Ok a s => f a s | Throw v s => h v s | Stuck => Stuck | Fuel => Fuel end.
Lemma attempt_step {A B} (m : M A) (f : A -> M B) h s r R : m s = r -> then_ r f h = R -> attempt m f h s = R.
Proof. intros <- <-. reflexivity. Qed.
Definition then_ok {A B} (r : result A) (f : A -> M B) : result B :=
  match r with Ok a s => f a s | Throw v s => Throw v s | Stuck => Stuck | Fuel => Fuel end.
Lemma bind_step {A B} (m : M A) (f : A -> M B) s r R : m s = r -> then_ok r f = R -> bind m f s = R.
Proof. intros <- <-. reflexivity. Qed.

Lemma nth_old {A} (l y : list A) k x : nth_error l k = Some x -> nth_error (l ++ y) k = Some x.
Proof. intros H. rewrite nth_error_app1; [exact H|]. now apply nth_some_lt in H. Qed.
Lemma nth_at {A} (l y : list A) i : nth_error (l ++ y) (List.length l + i) = nth_error y i.
Proof. rewrite nth_error_app2 by lia. f_equal. lia. Qed.
Lemma nth_at0 {A} (l y : list A) : nth_error (l ++ y) (List.length l) = nth_error y 0.
Proof. rewrite nth_error_app2 by lia. f_equal. lia. Qed.
Lemma upd_at {A} (l y : list A) i f : upd (List.length l + i) f (l ++ y) = l ++ upd i f y.
Proof. induction l; cbn; [reflexivity|]. now rewrite IHl. Qed.
Lemma upd_at0 {A} (l y : list A) f : upd (List.length l) f (l ++ y) = l ++ upd 0 f y.
Proof. induction l; cbn; [reflexivity|]. now rewrite IHl. Qed.
Lemma upd_old {A} (l y : list A) k f x : nth_error l k = Some x -> upd k f (l ++ y) = upd k f l ++ y.
Proof. revert k. induction l as [|a l IH]; intros [|k] H; cbn in *; try discriminate; [reflexivity|]. now rewrite IH. Qed.

(** Writing the variables of the store. *)
Lemma set_iv iv so op th cnt v : set_binding "initialValue" v (store_frame iv so op th cnt) = store_frame v so op th cnt.
Proof. reflexivity. Qed.
Lemma set_so iv so op th cnt v : set_binding "socket" v (store_frame iv so op th cnt) = store_frame iv v op th cnt.
Proof. reflexivity. Qed.
Lemma set_op iv so op th cnt v : set_binding "openPromise" v (store_frame iv so op th cnt) = store_frame iv so v th cnt.
Proof. reflexivity. Qed.
Lemma set_th iv so op th cnt v : set_binding "reopenTimeoutHandler" v (store_frame iv so op th cnt) = store_frame iv so op v cnt.
Proof. reflexivity. Qed.
Lemma set_cnt iv so op th cnt z : set_binding "reopenCount" (VNum z) (store_frame iv so op th cnt) = store_frame iv so op th z.
Proof. reflexivity. Qed.
Lemma set_id id z : set_binding "req_id" (VNum z) (mod_frame id) = mod_frame z.
Proof. reflexivity. Qed.

(** ** The tactic: the goal is [m s = R] *)
Ltac norm_st :=
  cbv [set_frames set_fresh set_proms set_socks set_sets set_timers set_jobs set_user on_user
       st_frames st_fresh st_proms st_socks st_sets st_timers st_jobs st_user] ; cbv beta iota.
Ltac norm_lists :=
  rewrite ?app_length; cbn [List.length app]; rewrite ?app_length; cbn [List.length]; rewrite <- ?app_assoc; cbn [app]; rewrite <- ?app_assoc; cbn [app].

Ltac getb :=
  match goal with
  | |- context [get_binding ?x ?f] =>
      let f' := eval hnf in f in
      let r := eval cbv [get_binding find fst snd String.eqb Ascii.eqb Bool.eqb] in (get_binding x f') in
      change (get_binding x f) with r; cbv iota beta
  end.
Ltac nth1 :=
  first
  [ rewrite nth_at | rewrite nth_at0
  | match goal with H : nth_error ?l ?k = Some _ |- context [nth_error ?l ?k] => rewrite H end
  | match goal with H : nth_error ?l ?k = Some _ |- context [nth_error (?l ++ ?y) ?k] => rewrite (nth_old l y k _ H) end ];
  cbn [nth_error]; cbv iota beta.
(** [match find_binding fs sc x with ..] at the head *)
Ltac findb := cbn [find_binding nth_error]; repeat first [getb | nth1 | progress cbn [find_binding nth_error]]; cbv iota beta.
Ltac wr :=
  cbn [upd]; rewrite ?upd_at, ?upd_at0; cbn [upd];
  rewrite ?set_iv, ?set_so, ?set_op, ?set_th, ?set_cnt, ?set_id.
Ltac setb :=
  repeat match goal with
  | |- context [set_binding ?x ?v ?f] =>
      let r := eval cbv [set_binding map fst snd String.eqb Ascii.eqb Bool.eqb] in (set_binding x v f) in
      change (set_binding x v f) with r
  end.

Lemma read_ok sc x k b v s : find_binding (st_frames s) sc x = Some (k, (b, Some v)) -> read_var sc x s = Ok v s.
Proof. intros H. unfold read_var. now rewrite H. Qed.
Lemma read_host sc x s : find_binding (st_frames s) sc x = None -> existsb (String.eqb x) globals = true ->
  read_var sc x s = Ok (VHost x) s.
Proof. intros H G. unfold read_var. rewrite H, G. destruct (String.eqb_spec x "undefined") as [->|]; [discriminate|reflexivity]. Qed.
Lemma read_undef sc s : find_binding (st_frames s) sc "undefined" = None -> read_var sc "undefined" s = Ok VUndef s.
Proof. intros H. unfold read_var. now rewrite H. Qed.
Lemma write_ok sc x v k v0 s : find_binding (st_frames s) sc x = Some (k, (true, Some v0)) ->
  write_var sc x v s = Ok tt (set_frames (upd k (set_binding x v) (st_frames s)) s).
Proof. intros H. unfold write_var. now rewrite H. Qed.

(** ** The interpreter, one step *)
Section Equations.
Context (lit : num -> jstr) (num : jstr -> num) (other : jsval -> N -> bool).
Local Notation eval := (eval lit num other).
Local Notation evals := (evals lit num other).
Local Notation execs := (execs lit num other).
Local Notation block := (block lit num other).
Local Notation body := (body lit num other).
Local Notation call := (call lit num other).
Local Notation construct := (construct lit num other).
Local Notation binary := (binary other).
Definition elems (n : nat) (sc : list nat) := fix each (es : list (bool * exp)) : M (list val) :=
  match es with
  | [] => ret []
  | (sp, e) :: es =>
      let! v := eval n sc e in
      let! h := (if sp then match v with VArr l => ret l | _ => stuck end else ret [v]) in
      let! r := each es in ret (h ++ r)
  end.
Definition props (n : nat) (sc : list nat) := fix each (ps : list (string * exp)) : M (list (string * val)) :=
  match ps with
  | [] => ret []
  | (k, e) :: ps => let! v := eval n sc e in let! r := each ps in ret ((k, v) :: r)
  end.
Lemma e_id n sc x : eval (S n) sc (XId x) = (read_var sc x).
Proof. reflexivity. Qed.
Lemma e_num n sc k : eval (S n) sc (XNum k) = (ret (VNum (Z.of_N k))).
Proof. reflexivity. Qed.
Lemma e_str n sc x : eval (S n) sc (XStr x) = (ret (VStr (js x))).
Proof. reflexivity. Qed.
Lemma e_arr n sc es : eval (S n) sc (XArr es) = (let! vs := elems n sc es in ret (VArr vs)).
Proof. reflexivity. Qed.
Lemma e_obj n sc ps : eval (S n) sc (XObj ps) = (let! vs := props n sc ps in ret (VObj vs)).
Proof. reflexivity. Qed.
Lemma e_fun n sc a ps b : eval (S n) sc (XFun a ps b) = (let! i := new_id in ret (VClo i sc a ps b)).
Proof. reflexivity. Qed.
Lemma e_call n sc f args : eval (S n) sc (XCall f args) = (let! g := eval n sc f in let! vs := evals n sc args in call n g vs).
Proof. reflexivity. Qed.
Lemma e_new n sc f args : eval (S n) sc (XNew f args) = (let! g := eval n sc f in let! vs := evals n sc args in construct n g vs).
Proof. reflexivity. Qed.
Lemma e_member n sc e p : eval (S n) sc (XMember e p) = (let! v := eval n sc e in get_member v p).
Proof. reflexivity. Qed.
Lemma e_index n sc e i : eval (S n) sc (XIndex e i) = (let! v := eval n sc e in let! k := eval n sc i in get_index v k).
Proof. reflexivity. Qed.
Lemma e_not n sc e : eval (S n) sc (XNot e) = (let! v := eval n sc e in let! b := some (truthy v) in ret (VBool (negb b))).
Proof. reflexivity. Qed.
Lemma e_bin n sc o a b : eval (S n) sc (XBin o a b) = (let! x := eval n sc a in let! y := eval n sc b in binary o x y).
Proof. reflexivity. Qed.
Lemma e_and n sc a b : eval (S n) sc (XAnd a b) = (let! x := eval n sc a in let! t := some (truthy x) in if t then eval n sc b else ret x).
Proof. reflexivity. Qed.
Lemma e_or n sc a b : eval (S n) sc (XOr a b) = (let! x := eval n sc a in let! t := some (truthy x) in if t then ret x else eval n sc b).
Proof. reflexivity. Qed.
Lemma e_cond n sc c a b : eval (S n) sc (XCond c a b) = (let! x := eval n sc c in let! t := some (truthy x) in if t then eval n sc a else eval n sc b).
Proof. reflexivity. Qed.
Lemma e_assign n sc x e : eval (S n) sc (XAssign x e) = (let! v := eval n sc e in write_var sc x v;; ret v).
Proof. reflexivity. Qed.
Lemma e_set n sc o p e : eval (S n) sc (XSet o p e) = (let! w := eval n sc o in let! v := eval n sc e in
          match w with
          | VUndef => throw "TypeError"
          | VSock k =>
              if existsb (String.eqb p) socket_events then
                modify (fun s => set_socks (upd k (fun so => mkSock (so_state so) (so_sent so) (so_lost so) ((p, v) :: so_on so)) (st_socks s)) s);; ret v
              else stuck
          | _ => stuck
          end).
Proof. reflexivity. Qed.
Lemma e_add n sc x e : eval (S n) sc (XAdd x e) = (let! a := read_var sc x in let! b := eval n sc e in let! v := plus a b in write_var sc x v;; ret v).
Proof. reflexivity. Qed.
Lemma e_inc n sc x : eval (S n) sc (XInc x) = (let! a := read_var sc x in let! v := plus a (VNum 1) in write_var sc x v;; ret a).
Proof. reflexivity. Qed.
Lemma es_nil n sc : evals (S n) sc [] = (ret []).
Proof. reflexivity. Qed.
Lemma es_cons n sc e es : evals (S n) sc (e :: es) = (let! v := eval n sc e in let! vs := evals n sc es in ret (v :: vs)).
Proof. reflexivity. Qed.
Lemma x_nil n sc : execs (S n) sc [] = (ret None).
Proof. reflexivity. Qed.
Lemma x_var0 n sc c x ss : execs (S n) sc (YVar c x None :: ss) = (init_var sc x VUndef;; execs n sc ss).
Proof. reflexivity. Qed.
Lemma x_var n sc c x e ss : execs (S n) sc (YVar c x (Some e) :: ss) = (let! v := eval n sc e in init_var sc x v;; execs n sc ss).
Proof. reflexivity. Qed.
Lemma x_fun n sc x a ps b ss : execs (S n) sc (YFun x a ps b :: ss) = (execs n sc ss).
Proof. reflexivity. Qed.
Lemma x_if n sc c a b ss : execs (S n) sc (YIf c a b :: ss) = (let! v := eval n sc c in let! t := some (truthy v) in
              let! r := block n sc (if t then a else b) in
              match r with Some v => ret (Some v) | None => execs n sc ss end).
Proof. reflexivity. Qed.
Lemma x_ret0 n sc ss : execs (S n) sc (YRet None :: ss) = (ret (Some VUndef)).
Proof. reflexivity. Qed.
Lemma x_ret n sc e ss : execs (S n) sc (YRet (Some e) :: ss) = (let! v := eval n sc e in ret (Some v)).
Proof. reflexivity. Qed.
Lemma x_exp n sc e ss : execs (S n) sc (YExp e :: ss) = (eval n sc e;; execs n sc ss).
Proof. reflexivity. Qed.
Lemma b_block n sc ss : block (S n) sc ss = (let! sc := enter sc (declarations ss) in hoist sc ss;; execs n sc ss).
Proof. reflexivity. Qed.
Lemma b_body n sc ps ss args : body (S n) sc ps ss args = (let! f := bind_pats ps args in
      let! sc := enter sc (f ++ declarations ss) in
      hoist sc ss;;
      let! r := execs n sc ss in
      ret (match r with Some v => v | None => VUndef end)).
Proof. reflexivity. Qed.
Lemma c_fun n i sc ps ss args : call (S n) (VClo i sc false ps ss) args = (body n sc ps ss args).
Proof. reflexivity. Qed.
Lemma c_async n i sc ps ss args : call (S n) (VClo i sc true ps ss) args = (let! p := new_prom (mkProm (PPending []) true) in
          attempt (body n sc ps ss args) (resolve p) (settle p false);;
          ret (VProm p)).
Proof. reflexivity. Qed.
Lemma c_each n k g : call (S n) (VMethod (VSet k) "forEach") [g] = (for_each lit num other n k 0 g).
Proof. reflexivity. Qed.
Lemma c_set n k m args : call (S n) (VMethod (VSet k) m) args = (if String.eqb m "forEach" then
            match args with [g] => for_each lit num other n k 0 g | _ => stuck end
          else host_call lit num (VMethod (VSet k) m) args).
Proof. reflexivity. Qed.
Lemma c_host n x args : call (S n) (VHost x) args = (host_call lit num (VHost x) args).
Proof. reflexivity. Qed.
Lemma c_hostm n x m args : call (S n) (VMethod (VHost x) m) args = (host_call lit num (VMethod (VHost x) m) args).
Proof. reflexivity. Qed.
Lemma c_sock n k m args : call (S n) (VMethod (VSock k) m) args = (host_call lit num (VMethod (VSock k) m) args).
Proof. reflexivity. Qed.
Lemma c_prom n k m args : call (S n) (VMethod (VProm k) m) args = (host_call lit num (VMethod (VProm k) m) args).
Proof. reflexivity. Qed.
Lemma c_resolve n p args : call (S n) (VResolve p) args = (once p (resolve p (hd VUndef args))).
Proof. reflexivity. Qed.
Lemma c_reject n p args : call (S n) (VReject p) args = (once p (settle p false (hd VUndef args))).
Proof. reflexivity. Qed.
Lemma c_user n j args : call (S n) (VUser j) args = (on_user (fun u => us_set_heard (us_heard u ++ [(j, args)]) u);; user lit num other n).
Proof. reflexivity. Qed.
Lemma n_set n : construct (S n) (VHost "Set") [] = (let! ss := gets st_sets in modify (set_sets (ss ++ [[]]));; ret (VSet (List.length ss))).
Proof. reflexivity. Qed.
Lemma n_sock n u : construct (S n) (VHost "WebSocket") [VStr u] = (let! ss := gets st_socks in modify (set_socks (ss ++ [mkSock Client.Connecting [] [] []]));; ret (VSock (List.length ss))).
Proof. reflexivity. Qed.
Lemma n_prom n g : construct (S n) (VHost "Promise") [g] = (let! p := new_prom (mkProm (PPending []) false) in
                attempt (call n g [VResolve p; VReject p]) ret (fun v => once p (settle p false v));;
                ret (VProm p)).
Proof. reflexivity. Qed.
Lemma el_nil n sc : elems n sc [] = (ret []).
Proof. reflexivity. Qed.
Lemma el_cons n sc sp e es : elems n sc ((sp, e) :: es) = (let! v := eval n sc e in
      let! h := (if sp then match v with VArr l => ret l | _ => stuck end else ret [v]) in
      let! r := elems n sc es in ret (h ++ r)).
Proof. reflexivity. Qed.
Lemma pp_nil n sc : props n sc [] = (ret []).
Proof. reflexivity. Qed.
Lemma pp_cons n sc k e ps : props n sc ((k, e) :: ps) = (let! v := eval n sc e in let! r := props n sc ps in ret ((k, v) :: r)).
Proof. reflexivity. Qed.
End Equations.
Global Opaque eval evals execs block body call for_each construct user acts act.

Ltac red_head f :=
  lazymatch goal with |- ?m _ = _ => let m' := f m in change m with m' end.
Ltac plain s := lazymatch s with mkSt _ _ _ _ _ _ _ _ => idtac | _ => unfold St; rewrite <- ?app_assoc; cbn [app] end.
Ltac js1 :=
  lazymatch goal with
  | |- then_ ?r _ _ = _ =>
      lazymatch r with
      | Ok ?a ?s => cbv beta iota delta [then_]; plain s
      | Throw ?a ?s => cbv beta iota delta [then_]; plain s
      end
  | |- then_ok ?r _ = _ =>
      lazymatch r with
      | Ok ?a ?s => cbv beta iota delta [then_ok]; plain s
      | Throw ?a ?s => cbv beta iota delta [then_ok]; plain s
      end
  | |- Ok _ _ = ?R => is_evar R; exact eq_refl
  | |- Throw _ _ = ?R => is_evar R; exact eq_refl
  | |- ?m ?s = _ =>
      lazymatch m with
      | attempt _ _ _ => eapply attempt_step
      | bind _ _ => eapply bind_step
      | ret ?a => change (m s) with (Ok a s)
      | @throw ?A ?x => change (m s) with (@Throw A (VErr x) s)
      | modify ?g => change (m s) with (Ok tt (g s)); cbv beta; norm_st; wr; cbv [so_state so_sent so_lost so_on]
      | on_user ?g => change (m s) with (Ok tt (set_user (g (st_user s)) s)); cbv beta; norm_st
      | gets ?g => change (m s) with (Ok (g s) s); cbv beta; norm_st
      | new_id => change (m s) with (Ok (st_fresh s) (set_fresh (S (st_fresh s)) s)); cbv beta; norm_st
      | new_frame ?x => change (m s) with (Ok (List.length (st_frames s)) (set_frames (st_frames s ++ [x]) s)); cbv beta; norm_st; norm_lists
      | new_prom ?x => change (m s) with (Ok (List.length (st_proms s)) (set_proms (st_proms s ++ [x]) s)); cbv beta; norm_st; norm_lists
      | some ?x =>
          let x' := eval cbv [truthy negb] in x in
          lazymatch x' with
          | @Some ?A ?y => change (some x) with (@ret A y)
          | _ => progress (cbn [nth_error]; repeat nth1)
          end
      | read_var ?sc ?x =>
          first
          [ refine (eq_trans (read_ok _ _ _ _ _ _ _) _); [cbv [st_frames]; findb; reflexivity|]
          | refine (eq_trans (read_undef _ _ _) _); [cbv [st_frames]; findb; reflexivity|]
          | refine (eq_trans (read_host _ _ _ _ _) _); [cbv [st_frames]; findb; reflexivity | reflexivity |] ]
      | write_var ?sc ?x ?v =>
          refine (eq_trans (write_ok _ _ _ _ _ _ _) _); [cbv [st_frames]; findb; reflexivity|]; norm_st; wr; setb
      | init_var (?k :: _) ?x ?v =>
          change (m s) with (Ok tt (set_frames (upd k (set_binding x v) (st_frames s)) s)); norm_st; wr; setb
      | enter ?sc ?x =>
          let x' := eval cbn [app declarations flat_map negb] in x in change x with x';
          lazymatch x' with
          | [] => change (enter sc []) with (@ret (list nat) sc)
          | _ => change (enter sc x') with (bind (new_frame x') (fun k => ret (k :: sc)))
          end
      | hoist _ _ => red_head ltac:(fun m => eval cbn [hoist] in m)
      | eval _ _ _ _ _ ?e =>
          lazymatch e with
          | XId _ => rewrite e_id | XNum ?k => rewrite e_num; let z := eval vm_compute in (Z.of_N k) in change (Z.of_N k) with z | XStr _ => rewrite e_str | XArr _ => rewrite e_arr
          | XObj _ => rewrite e_obj | XFun _ _ _ => rewrite e_fun | XCall _ _ => rewrite e_call | XNew _ _ => rewrite e_new
          | XMember _ _ => rewrite e_member | XIndex _ _ => rewrite e_index | XNot _ => rewrite e_not | XBin _ _ _ => rewrite e_bin
          | XAnd _ _ => rewrite e_and | XOr _ _ => rewrite e_or | XCond _ _ _ => rewrite e_cond | XAssign _ _ => rewrite e_assign
          | XSet _ _ _ => rewrite e_set | XAdd _ _ => rewrite e_add | XInc _ => rewrite e_inc
          end
      | elems _ _ _ _ _ ?e => lazymatch e with [] => rewrite el_nil | _ :: _ => rewrite el_cons end
      | props _ _ _ _ _ ?e => lazymatch e with [] => rewrite pp_nil | _ :: _ => rewrite pp_cons end
      | evals _ _ _ _ _ ?e => lazymatch e with [] => rewrite es_nil | _ :: _ => rewrite es_cons end
      | execs _ _ _ _ _ ?ss =>
          lazymatch ss with
          | [] => rewrite x_nil
          | YVar _ _ None :: _ => rewrite x_var0
          | YVar _ _ (Some _) :: _ => rewrite x_var
          | YFun _ _ _ _ :: _ => rewrite x_fun
          | YIf _ _ _ :: _ => rewrite x_if
          | YRet None :: _ => rewrite x_ret0
          | YRet (Some _) :: _ => rewrite x_ret
          | YExp _ :: _ => rewrite x_exp
          end
      | block _ _ _ _ _ ?ss => lazymatch ss with [] => rewrite b_block | _ :: _ => rewrite b_block end
      | body _ _ _ _ _ _ _ _ => rewrite b_body
      | bind_pats _ _ => red_head ltac:(fun m => eval cbn [bind_pats hd tl] in m)
      | bind_pat _ _ => red_head ltac:(fun m => eval cbn [bind_pat combine seq map fst snd nth List.length] in m)
      | construct _ _ _ _ ?g _ =>
          lazymatch g with
          | VHost "Set" => rewrite n_set
          | VHost "WebSocket" => unfold v_addr; rewrite n_sock; fold v_addr
          | VHost "Promise" => rewrite n_prom
          end
      | host_call _ _ _ _ => red_head ltac:(fun m => eval cbn [host_call String.eqb Ascii.eqb Bool.eqb andb hd fun_id] in m)
      | call _ _ _ _ ?g _ =>
          lazymatch g with
          | VClo _ _ false _ _ => rewrite c_fun
          | VClo _ _ true _ _ => rewrite c_async
          | VHost _ => rewrite c_host
          | VMethod (VHost _) _ => rewrite c_hostm
          | VMethod (VSock _) _ => rewrite c_sock
          | VMethod (VProm _) _ => rewrite c_prom
          | VMethod (VSet _) ?w =>
              lazymatch w with
              | "forEach" => fail
              | _ => rewrite c_set; cbn [String.eqb Ascii.eqb Bool.eqb]
              end
          | VResolve _ => rewrite c_resolve; cbn [hd]
          | VReject _ => rewrite c_reject; cbn [hd]
          end
      | get_member ?v ?p =>
          let v' := eval cbv [v_connection v_timeouts] in v in change v with v';
          red_head ltac:(fun m => eval cbn [get_member find fst snd String.eqb Ascii.eqb Bool.eqb andb existsb orb plain_names List.length Z.of_nat] in m)
      | get_index _ _ => red_head ltac:(fun m => eval cbv [get_index v_timeouts] in m)
      | binary _ _ _ _ => red_head ltac:(fun m => eval cbv [binary num_op] in m)
      | plus _ _ => red_head ltac:(fun m => eval cbv [plus] in m)
      | enqueue ?l => change (m s) with (Ok tt (set_jobs (st_jobs s ++ l) s)); norm_st
      | get_prom ?p => red_head ltac:(fun m => eval cbv [get_prom] in m)
      | set_prom ?p ?x => change (m s) with (Ok tt (set_proms (upd p (fun _ => x) (st_proms s)) s)); norm_st; wr
      | settle _ _ _ => red_head ltac:(fun m => eval cbv [settle] in m)
      | resolve _ ?v =>
          lazymatch v with
          | VProm _ => red_head ltac:(fun m => eval cbv [resolve] in m)
          | _ => red_head ltac:(fun m => eval cbn [resolve] in m)
          end
      | once _ _ => red_head ltac:(fun m => eval cbv [once] in m)
      | perform_then _ _ _ _ => red_head ltac:(fun m => eval cbv [perform_then] in m)
      | (if existsb (String.eqb ?x) socket_events then _ else _) =>
          let b := eval vm_compute in (existsb (String.eqb x) socket_events) in change (existsb (String.eqb x) socket_events) with b
      | (if Nat.eqb ?a ?b then _ else _) => replace (Nat.eqb a b) with false by (symmetry; apply Nat.eqb_neq; rewrite ?app_length; cbn [List.length]; lia)
      | _ => progress cbn [pr_state pr_used map]
      end
  end.
Ltac js := repeat (js1; cbv beta iota).
