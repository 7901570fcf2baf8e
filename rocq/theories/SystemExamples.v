(** A page and the server of examples/axum: examples for C56. *)
From Coq Require Import List String Ascii Bool Arith NArith ZArith Lia.
From Verif Require Import Util Js JsonText JsonTextSpec JsonTextExamples Registry Macro Server ServerSpec Wire WireSpec WireProofs WireExamples Pump TsProgram.
From Verif Require Import E2E E2ESpec E2EStreamSpec E2EText E2EWire E2EExamples E2EStreamExamples JsSem JsSpec JsClaims System SystemSpec SystemProofs JsExamples.
From Verif Require Client Prelude FileProofs RustTy.
Import ListNotations.
Local Open Scope string_scope.
Local Open Scope list_scope.

(** Steps can be computed. *)
Section Do.
Context {T V F : Type} (S : setting T V F).
Local Notation system := (system S).
Local Notation sevent := (sevent S).
Definition page_do (t : task) (p : state) : option state := match run_task (s_lit S) (s_num S) (s_other S) 100 t p with Ok _ p' => Some p' | _ => None end.
Definition sdo (y : system) (e : sevent) : option system :=
  match e with
  | STask t =>
      match t with
      | TOpen _ | TMessage _ _ => None
      | _ => match page_do t (sy_page y) with Some p => Some (mkSys p (sy_sv y) (sy_links y)) | None => None end
      end
  | SServer e =>
      match e with
      | PFrame k (FText _) => None
      | _ => Some (mkSys (sy_page y) (pnext (from_text S) (to_text S) (sy_sv y) e) (sy_links y))
      end
  | SAccept n =>
      if Nat.ltb n (List.length (st_socks (sy_page y))) && negb (existsb (fun x => Nat.eqb (ln_sock x) n) (sy_links y)) && negb (Nat.eqb (st_proxies (p_srv (sy_sv y))) 0)
      then Some (mkSys (sy_page y) (pnext (from_text S) (to_text S) (sy_sv y) PUpgrade) (sy_links y ++ [mkLink n (List.length (p_socks (sy_sv y))) 0 0])) else None
  | SOpen n =>
      match find (fun x => Nat.eqb (ln_sock x) n) (sy_links y), page_do (TOpen n) (sy_page y) with
      | Some _, Some p => Some (mkSys p (sy_sv y) (sy_links y)) | _, _ => None end
  | SUp l =>
      match nth_error (sy_links y) l with
      | Some x =>
          match nth_error (st_socks (sy_page y)) (ln_sock x), nth_error (p_socks (sy_sv y)) (ln_pump x) with
          | Some so, Some s =>
              match nth_error (so_sent so) (ln_up x), sk_live s with
              | Some (VStr t), true => Some (mkSys (sy_page y) (pnext (from_text S) (to_text S) (sy_sv y) (PFrame (ln_pump x) (FText t)))
                       (upd l (fun x => mkLink (ln_sock x) (ln_pump x) (Datatypes.S (ln_up x)) (ln_down x)) (sy_links y)))
              | _, _ => None
              end
          | _, _ => None
          end
      | None => None
      end
  | SDown l =>
      match nth_error (sy_links y) l with
      | Some x =>
          match nth_error (st_socks (sy_page y)) (ln_sock x), nth_error (p_socks (sy_sv y)) (ln_pump x) with
          | Some so, Some s =>
              match nth_error (sk_out s) (ln_down x), so_state so with
              | Some t, Client.Open =>
                  match page_do (TMessage (ln_sock x) t) (sy_page y) with
                  | Some p => Some (mkSys p (sy_sv y) (upd l (fun x => mkLink (ln_sock x) (ln_pump x) (ln_up x) (Datatypes.S (ln_down x))) (sy_links y)))
                  | None => None
                  end
              | _, _ => None
              end
          | _, _ => None
          end
      | None => None
      end
  end.
Lemma page_does t p p' : page_do t p = Some p' -> does S t p p'.
Proof. unfold page_do, does. intros E. exists 100. destruct (run_task _ _ _ 100 t p) as [[] q| | |]; try discriminate. now injection E as ->. Qed.
Lemma sdo_step y e y' : sdo y e = Some y' -> sstep S y e y'.
Proof.
  destruct e as [t|e|n|n|l|l]; cbn [sdo]; intros E.
  - assert (G : (forall k, t <> TOpen k) -> (forall k x, t <> TMessage k x) -> match page_do t (sy_page y) with Some p => Some (mkSys p (sy_sv y) (sy_links y)) | None => None end = Some y' -> sstep S y (STask t) y').
    { clear E. intros N1 N2 E. destruct (page_do t (sy_page y)) as [p|] eqn:Ep; [|discriminate]. injection E as <-. exact (s_task S y t p N1 N2 (page_does _ _ _ Ep)). }
    destruct t; try discriminate E; apply G; try exact E; intros; discriminate.
  - assert (G : (forall k t, e <> PFrame k (FText t)) -> Some (mkSys (sy_page y) (pnext (from_text S) (to_text S) (sy_sv y) e) (sy_links y)) = Some y' -> sstep S y (SServer e) y').
    { clear E. intros N E. injection E as <-. apply s_server. intros k t x Ee. now destruct (N k t). }
    destruct e as [e| |k fr|k|k b]; try (apply G; [intros; discriminate|exact E]). destruct fr; try discriminate E; (apply G; [intros; discriminate|exact E]).
  - destruct (Nat.ltb n (List.length (st_socks (sy_page y))) && negb (existsb (fun x => Nat.eqb (ln_sock x) n) (sy_links y)) && negb (Nat.eqb (st_proxies (p_srv (sy_sv y))) 0))%bool eqn:B; [|discriminate].
    injection E as <-. apply andb_true_iff in B as [B B3]. apply andb_true_iff in B as [B1 B2]. apply Nat.ltb_lt in B1. apply negb_true_iff in B2, B3. apply Nat.eqb_neq in B3.
    apply s_accept; [exact B1| |exact B3]. intros x Ix Ex. assert (existsb (fun x => Nat.eqb (ln_sock x) n) (sy_links y) = true); [|congruence]. apply existsb_exists. exists x. split; [exact Ix|]. now apply Nat.eqb_eq.
  - destruct (find _ _) as [x|] eqn:Ex; [|discriminate]. destruct (page_do (TOpen n) (sy_page y)) as [p|] eqn:Ep; [|discriminate]. injection E as <-. apply find_some in Ex as [Ix Ex]. apply Nat.eqb_eq in Ex.
    exact (s_open S y n p x Ix Ex (page_does _ _ _ Ep)).
  - destruct (nth_error (sy_links y) l) as [x|] eqn:Ex; [|discriminate]. destruct (nth_error (st_socks (sy_page y)) (ln_sock x)) as [so|] eqn:Eo; [|discriminate].
    destruct (nth_error (p_socks (sy_sv y)) (ln_pump x)) as [s|] eqn:Es; [|discriminate]. destruct (nth_error (so_sent so) (ln_up x)) as [v|] eqn:Ev; [|discriminate].
    destruct v as [ | | | |t| | | | | | | | | | | | | | ]; try discriminate E. destruct (sk_live s) eqn:Lv; [|discriminate]. injection E as <-. exact (s_up S y l x so s t Ex Eo Ev Es Lv).
  - destruct (nth_error (sy_links y) l) as [x|] eqn:Ex; [|discriminate]. destruct (nth_error (st_socks (sy_page y)) (ln_sock x)) as [so|] eqn:Eo; [|discriminate].
    destruct (nth_error (p_socks (sy_sv y)) (ln_pump x)) as [s|] eqn:Es; [|discriminate]. destruct (nth_error (sk_out s) (ln_down x)) as [t|] eqn:Et; [|discriminate].
    destruct (so_state so) eqn:Os; try discriminate E. destruct (page_do (TMessage (ln_sock x) t) (sy_page y)) as [p|] eqn:Ep; [|discriminate]. injection E as <-.
    exact (s_down S y l x so s t p Ex Es Et Eo Os (page_does _ _ _ Ep)).
Qed.
Fixpoint sdos (y : system) (es : list sevent) : option system := match es with [] => Some y | e :: es => match sdo y e with Some y' => sdos y' es | None => None end end.
Lemma sdos_run es : forall y y', sdos y es = Some y' -> sruns S y es y'.
Proof.
  induction es as [|e es IH]; intros y y' E; cbn [sdos] in E; [injection E as <-; constructor|].
  destruct (sdo y e) as [y1|] eqn:E1; [|discriminate]. exact (r_step S y e y1 es y' (sdo_step _ _ _ E1) (IH _ _ E)).
Qed.
Definition sstart (P : list TsProgram.top) (scripts : list script) (a : list F) : option system :=
  match load (s_lit S) (s_num S) (s_other S) 100 P (st0 scripts) with Ok _ p => Some (mkSys p (pinit (A := rpc S) a) []) | _ => None end.
Lemma sstart_ok P scripts a y : sstart P scripts a = Some y -> started S P scripts a y.
Proof.
  unfold sstart, started. intros E. destruct (load (s_lit S) (s_num S) (s_other S) 100 P (st0 scripts)) as [[] p| | |] eqn:El; try discriminate. injection E as <-. split; [now exists 100|]. now split.
Qed.
(** A page, some code of the user, and what comes after. *)
Definition story (scripts : list script) (a : list F) (es1 : list sevent) (x : script) (es2 : list sevent) : option (system * system) :=
  match sstart FileProofs.client_program scripts a with
  | Some y0 =>
      match sdos y0 es1 with
      | Some y1 =>
          match sdo y1 (STask (TUser x)) with
          | Some y2 => match sdos y2 es2 with Some y => Some (y1, y) | None => None end
          | None => None
          end
      | None => None
      end
  | None => None
  end.
Definition told_so scripts a es1 x es2 (y1 y : system) : Prop := exists y0 y2, started S FileProofs.client_program scripts a y0 /\ sruns S y0 es1 y1 /\
  sstep S y1 (STask (TUser x)) y2 /\ sruns S y2 es2 y /\ few scripts (tasks_of (es1 ++ STask (TUser x) :: es2)).
Lemma story_told scripts a es1 x es2 y1 y : story scripts a es1 x es2 = Some (y1, y) -> few scripts (tasks_of (es1 ++ STask (TUser x) :: es2)) -> told_so scripts a es1 x es2 y1 y.
Proof.
  unfold story. intros E Hf. destruct (sstart FileProofs.client_program scripts a) as [y0|] eqn:E0; [|discriminate]. destruct (sdos y0 es1) as [z1|] eqn:E1; [|discriminate].
  destruct (sdo z1 (STask (TUser x))) as [y2|] eqn:E2; [|discriminate]. destruct (sdos y2 es2) as [z|] eqn:E3; [|discriminate]. injection E as -> ->.
  exists y0, y2. split; [now apply sstart_ok|]. split; [now apply sdos_run|]. split; [now apply sdo_step|]. split; [now apply sdos_run|exact Hf].
Qed.
End Do.

(** What can be seen of a page and a server: the promises, what was heard, what the server has accepted. *)
Definition seen_of {T V F} {S : setting T V F} (y : system S) : list (option val) * list (nat * list val) * list (option N) :=
  (map (promised (sy_page y)) (us_proms (st_user (sy_page y))), us_heard (st_user (sy_page y)),
   map (fun x => match snd x with inl (Exec id _) => Some id | _ => None end) (st_sent (p_srv (sy_sv y)))).

(** A stream whose listener makes a request when it is called first; then a request of the user.  Another client is there. *)
Definition watch : script := mkScript [AStream "Watchout" "hello_stream" flow_args; AListen 0] false.
Definition hello : script := mkScript [ARequest "Watchout" "hello" hello_args] false.
Local Notation sev := (sevent my_setting).
Definition srv (e : Server.event my_rpc) : sev := SServer (PServer e).
Definition sends (k : nat) : list sev := [SServer (PTake k); SServer (PWrote k true)].
Definition morning : list sev :=
  [SServer PUpgrade; SAccept 0; SOpen 0; SUp 0; srv EvRecv; srv (EvPoll 0);
   srv (EvItem (A := my_rpc) 0 (inl (JInt 7)))] ++ sends 1 ++ [SDown 0; SUp 0; srv EvRecv; srv EvMethodDone].
Definition noon : list sev :=
  [SUp 0; srv EvRecv; srv EvMethodDone; srv (EvItem (A := my_rpc) 0 (inl (JInt 8)))] ++ sends 1 ++ sends 1 ++ sends 1 ++ [SDown 0; SDown 0; SDown 0].
Definition called : list script := [mkScript [ARequest "Watchout" "hello" hello_args] false].

Example a_request : exists y1 y, told_so my_setting called [0; 10]%N (STask (TUser watch) :: morning) hello noon y1 y /\
  next_number (sy_page y1) = 3%N /\ List.length (us_proms (st_user (sy_page y1))) = 1 /\
  fulfilled (sy_page y) 1 (JsNum (NInt 3)) /\
  seen_of y = ([Some (VData (JsNum (NInt 2))); Some (VData (JsNum (NInt 3)))], [(0, [VData (JsNum (NInt 7))]); (0, [VData (JsNum (NInt 8))])], [Some 1%N; Some 2%N; Some 3%N]).
Proof.
  assert (C : match story my_setting called [0; 10]%N (STask (TUser watch) :: morning) hello noon with Some (y1, y) => Some (next_number (sy_page y1), List.length (us_proms (st_user (sy_page y1))), seen_of y) | None => None end =
    Some (3%N, 1, ([Some (VData (JsNum (NInt 2))); Some (VData (JsNum (NInt 3)))], [(0, [VData (JsNum (NInt 7))]); (0, [VData (JsNum (NInt 8))])], [Some 1%N; Some 2%N; Some 3%N]))) by (vm_compute; reflexivity).
  destruct (story my_setting called [0; 10]%N (STask (TUser watch) :: morning) hello noon) as [[y1 y]|] eqn:E; [|discriminate].
  exists y1, y. apply story_told in E; [|vm_compute; discriminate]. split; [exact E|]. injection C as C1 C2 C3 C4 C5. split; [exact C1|]. split; [exact C2|].
  split; [|unfold seen_of; rewrite C3, C4, C5; reflexivity].
  destruct (us_proms (st_user (sy_page y))) as [|v0 [|v1 l]] eqn:Ep; try discriminate. cbn in C3. injection C3 as _ C3 _. unfold promised in C3.
  destruct v1; try discriminate. destruct (nth_error (st_proms (sy_page y)) p) as [x|] eqn:Ex; [|discriminate]. destruct (pr_state x) eqn:Es; try discriminate. injection C3 as ->.
  exists p, x. rewrite Ep. auto.
Qed.
(** All its requests are calls of a method. *)
Example the_requests : forall ns m args, In (ARequest ns m args) (all_actions called (tasks_of ((STask (TUser watch) :: morning) ++ STask (TUser hello) :: noon))) ->
  ~ In ns (field_tags my_backend) \/ exists n k f i, calls_method my_setting ns m args n k f i.
Proof.
  intros ns m args H. vm_compute in H. assert (E : ARequest "Watchout" "hello" hello_args = ARequest ns m args) by (repeat (destruct H as [H|H]; [try discriminate H; exact H|]); destruct H). clear H. injection E as <- <- <-.
  destruct my_call as (_ & (i & H1 & H2 & H3 & H4 & H5 & H6 & _ & H8 & _) & _). right. exists 0, 1, watchout, i. now constructor.
Qed.

(** The same day from the start: the stream. *)
Example a_stream : exists y1 y, told_so my_setting called [0; 10]%N [] watch (morning ++ STask (TUser hello) :: noon) y1 y /\
  next_number (sy_page y1) = 1%N /\ List.length (us_stores (st_user (sy_page y1))) = 0 /\ List.length (us_unls (st_user (sy_page y1))) = 0 /\
  heard_of 0 (sy_page y) = map (fun d => [VData d]) [JsNum (NInt 7); JsNum (NInt 8)] /\ Forall tame called.
Proof.
  assert (C : match story my_setting called [0; 10]%N [] watch (morning ++ STask (TUser hello) :: noon) with
      Some (y1, y) => Some (next_number (sy_page y1), List.length (us_stores (st_user (sy_page y1))), List.length (us_unls (st_user (sy_page y1))), heard_of 0 (sy_page y)) | None => None end =
    Some (1%N, 0, 0, map (fun d => [VData d]) [JsNum (NInt 7); JsNum (NInt 8)])) by (vm_compute; reflexivity).
  destruct (story my_setting called [0; 10]%N [] watch (morning ++ STask (TUser hello) :: noon)) as [[y1 y]|] eqn:E; [|discriminate].
  exists y1, y. apply story_told in E; [|vm_compute; discriminate]. split; [exact E|]. injection C as C1 C2 C3 C4. repeat (split; [assumption|]). now repeat constructor.
Qed.

(** A listener that comes late: it hears what comes from then on. *)
Definition late : script := mkScript [AListen 0] false.
Definition nowhere : script := mkScript [AStream "Nowhere" "x" []; AListen 1] false.
Definition afternoon : list sev := STask (TUser hello) :: noon ++ [STask (TUser nowhere); SUp 0; srv EvRecv] ++ sends 1 ++ [SDown 0].
Example a_late_listener : exists y1 y, told_so my_setting called [0; 10]%N (STask (TUser watch) :: morning) late afternoon y1 y /\
  List.length (us_unls (st_user (sy_page y))) = 3 /\
  heard_of 0 (sy_page y) = map (fun d => [VData d]) [JsNum (NInt 7); JsNum (NInt 8)] /\ heard_of 1 (sy_page y) = map (fun d => [VData d]) [JsNum (NInt 8)] /\ heard_of 2 (sy_page y) = [].
Proof.
  assert (C : match story my_setting called [0; 10]%N (STask (TUser watch) :: morning) late afternoon with
      Some (y1, y) => Some (List.length (us_unls (st_user (sy_page y))), heard_of 0 (sy_page y), heard_of 1 (sy_page y), heard_of 2 (sy_page y)) | None => None end =
    Some (3, map (fun d => [VData d]) [JsNum (NInt 7); JsNum (NInt 8)], map (fun d => [VData d]) [JsNum (NInt 8)], [])) by (vm_compute; reflexivity).
  destruct (story my_setting called [0; 10]%N (STask (TUser watch) :: morning) late afternoon) as [[y1 y]|] eqn:E; [|discriminate].
  exists y1, y. apply story_told in E; [|vm_compute; discriminate]. split; [exact E|]. injection C as C1 C2 C3 C4. auto.
Qed.
Example the_streams : forall ns m args, In (AStream ns m args) (all_actions called (tasks_of ((STask (TUser watch) :: morning) ++ STask (TUser late) :: afternoon))) ->
  ~ In ns (field_tags my_backend) \/ exists n k f i, calls_stream my_setting ns m args n k f i.
Proof.
  intros ns m args H. vm_compute in H. assert (E : AStream "Watchout" "hello_stream" flow_args = AStream ns m args \/ AStream "Nowhere" "x" [] = AStream ns m args)
    by (repeat (destruct H as [H|H]; [try discriminate H; solve [left; exact H | right; exact H]|]); destruct H).
  clear H. destruct E as [E|E]; injection E as <- <- <-; [right|left; intros H; vm_compute in H; repeat (destruct H as [H|H]; [discriminate H|]); exact H].
  destruct my_flow as (_ & (i & H1 & H2 & H3 & H4 & H5 & H6 & _ & H8 & _) & _). exists 0, 2, watchout, i. now constructor.
Qed.

(** The day goes on: one more item, one more request. *)
Definition evening : list sev :=
  [SUp 0; srv EvRecv; srv EvMethodDone; srv (EvItem (A := my_rpc) 0 (inl (JInt 9)))] ++ sends 1 ++ sends 1 ++ [SDown 0; SDown 0].
Example what_stays : exists y1 y, told_so my_setting called [0; 10]%N ((STask (TUser watch) :: morning) ++ STask (TUser hello) :: noon) hello evening y1 y /\
  List.length (us_unls (st_user (sy_page y1))) = 1 /\
  map (promised (sy_page y1)) (us_proms (st_user (sy_page y1))) = [Some (VData (JsNum (NInt 2))); Some (VData (JsNum (NInt 3)))] /\
  heard_of 0 (sy_page y1) = map (fun d => [VData d]) [JsNum (NInt 7); JsNum (NInt 8)] /\
  map (promised (sy_page y)) (us_proms (st_user (sy_page y))) = [Some (VData (JsNum (NInt 2))); Some (VData (JsNum (NInt 3))); Some (VData (JsNum (NInt 4)))] /\
  heard_of 0 (sy_page y) = map (fun d => [VData d]) [JsNum (NInt 7); JsNum (NInt 8); JsNum (NInt 9)].
Proof.
  set (promises := fun y : system my_setting => map (promised (sy_page y)) (us_proms (st_user (sy_page y)))).
  assert (C : match story my_setting called [0; 10]%N ((STask (TUser watch) :: morning) ++ STask (TUser hello) :: noon) hello evening with
      Some (y1, y) => Some (List.length (us_unls (st_user (sy_page y1))), promises y1, heard_of 0 (sy_page y1), promises y, heard_of 0 (sy_page y)) | None => None end =
    Some (1, [Some (VData (JsNum (NInt 2))); Some (VData (JsNum (NInt 3)))], map (fun d => [VData d]) [JsNum (NInt 7); JsNum (NInt 8)],
      [Some (VData (JsNum (NInt 2))); Some (VData (JsNum (NInt 3))); Some (VData (JsNum (NInt 4)))], map (fun d => [VData d]) [JsNum (NInt 7); JsNum (NInt 8); JsNum (NInt 9)])) by (vm_compute; reflexivity).
  destruct (story my_setting called [0; 10]%N ((STask (TUser watch) :: morning) ++ STask (TUser hello) :: noon) hello evening) as [[y1 y]|] eqn:E; [|discriminate].
  exists y1, y. apply story_told in E; [|vm_compute; discriminate]. split; [exact E|]. injection C as C1 C2 C3 C4 C5. auto.
Qed.

(** The first listener leaves; the late one hears what comes then. *)
Definition leave : script := mkScript [AUnlisten 0] false.
Definition night : list sev := [srv (EvItem (A := my_rpc) 0 (inl (JInt 9)))] ++ sends 1 ++ [SDown 0].
Example who_leaves : exists y1 y, told_so my_setting called [0; 10]%N ((STask (TUser watch) :: morning) ++ STask (TUser late) :: afternoon) leave night y1 y /\
  List.length (us_unls (st_user (sy_page y1))) = 3 /\
  heard_of 0 (sy_page y1) = map (fun d => [VData d]) [JsNum (NInt 7); JsNum (NInt 8)] /\ heard_of 1 (sy_page y1) = map (fun d => [VData d]) [JsNum (NInt 8)] /\
  heard_of 0 (sy_page y) = map (fun d => [VData d]) [JsNum (NInt 7); JsNum (NInt 8)] /\ heard_of 1 (sy_page y) = map (fun d => [VData d]) [JsNum (NInt 8); JsNum (NInt 9)].
Proof.
  assert (C : match story my_setting called [0; 10]%N ((STask (TUser watch) :: morning) ++ STask (TUser late) :: afternoon) leave night with
      Some (y1, y) => Some (List.length (us_unls (st_user (sy_page y1))), heard_of 0 (sy_page y1), heard_of 1 (sy_page y1), heard_of 0 (sy_page y), heard_of 1 (sy_page y)) | None => None end =
    Some (3, map (fun d => [VData d]) [JsNum (NInt 7); JsNum (NInt 8)], map (fun d => [VData d]) [JsNum (NInt 8)],
      map (fun d => [VData d]) [JsNum (NInt 7); JsNum (NInt 8)], map (fun d => [VData d]) [JsNum (NInt 8); JsNum (NInt 9)])) by (vm_compute; reflexivity).
  destruct (story my_setting called [0; 10]%N ((STask (TUser watch) :: morning) ++ STask (TUser late) :: afternoon) leave night) as [[y1 y]|] eqn:E; [|discriminate].
  exists y1, y. apply story_told in E; [|vm_compute; discriminate]. split; [exact E|]. injection C as C1 C2 C3 C4 C5. auto.
Qed.

(** A backend whose methods fail. *)
Definition broken : handlers json N := mkHandlers (fun _ _ n _ => Some (n + 1, inr (js "broken")))%N (fun _ _ n _ => Some (n + 1)%N).
Definition sad : setting RustTy.ty json N := mkSetting keep exact false false my_backend broken complain (fun _ => js "what?") (fun _ _ => false) exact_lit exact_lit exact_num.
Definition sad_rpc : app := rpc sad.
Local Notation sad_ev := (sevent sad).
Definition sad_day : list sad_ev := [SAccept 0; SOpen 0; SUp 0; SServer (PServer EvRecv); SServer (PServer EvMethodDone); SServer (PTake 0); SServer (PWrote 0 true); SDown 0].
Definition sad_server : Pump.pstate (sad_rpc) jstr :=
  mkP (Server.mkState (A := sad_rpc) [1; 10]%N [] LIdle [mkConn true true [(SrcLoop, RError (A := sad_rpc) (Some 1%N) (js "broken"))] 1] [] [] 1 [(0, inl (Exec (A := sad_rpc) 1 hello_value))])
    [Pump.mkSock 0 true None [FText hello_text] [js "{""error"":{""id"":1,""data"":{""JsonError"":""broken""}}}"]].
Definition sad_view : option (N * nat * Pump.pstate (sad_rpc) jstr * list link) :=
  match story sad [] [0; 10]%N [] hello sad_day with Some (y1, y) => Some (next_number (sy_page y1), List.length (us_proms (st_user (sy_page y1))), sy_sv y, sy_links y) | None => None end.
Definition sad_end : option (N * nat * Pump.pstate sad_rpc jstr * list link) := Some (1%N, 0, sad_server, [mkLink 0 0 1 1]).
Lemma sad_viewed : sad_view = sad_end.
Proof. vm_cast_no_check (eq_refl sad_end). Qed.
Lemma sad_ran : handler_ran sad [0; 10]%N (mkWorld Client.cinit sad_server [mkLink 0 0 1 1]) 1 0 1 [JStr (js "a"); JInt 7] (inr (js "broken")).
Proof.
  exists 0, hello_value, [], [], (seq_init (A := sad_rpc) [0; 10]%N), [1; 10]%N, 0%N, 1%N.
  split; [reflexivity|]. split; [eexists (mkLink 0 0 1 1), _; split; [now left|split; reflexivity]|].
  split; [intros [|i] (c & v & Ei & _); [reflexivity|destruct i; discriminate]|].
  split; [reflexivity|]. split; [reflexivity|]. split; [repeat split; auto; intros [|[|m]] N; try congruence; reflexivity|].
  eexists. split; reflexivity.
Qed.
Example a_failure : exists y1 y, told_so sad [] [0; 10]%N [] hello sad_day y1 y /\ next_number (sy_page y1) = 1%N /\ List.length (us_proms (st_user (sy_page y1))) = 0 /\
  handler_ran sad [0; 10]%N (server_side y) 1 0 1 [JStr (js "a"); JInt 7] (inr (js "broken")).
Proof.
  pose proof sad_viewed as C. unfold sad_view, sad_end in C. destruct (story sad [] [0; 10]%N [] hello sad_day) as [[y1 y]|] eqn:E; [|discriminate].
  exists y1, y. apply story_told in E; [|vm_compute; discriminate]. split; [exact E|]. injection C as C1 C2 C3 C4. split; [exact C1|]. split; [exact C2|].
  unfold server_side. rewrite C3, C4. exact sad_ran.
Qed.
