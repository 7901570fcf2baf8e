(** A parser for the namespace declarations the generators write.

    Specification side: a subset of the declaration grammar of TypeScript - exported
    namespaces that contain exported constants, type aliases, interfaces and functions whose
    bodies are expression and return statements.  Semicolons may be left out where ECMA-262
    12.10 inserts them, so every token carries a flag: was there a line terminator since the
    token before?  The grammar is the relation [module_of_tokens]; the parser is an automaton
    that reads one token at a time and contains those of JsParse.v and TsType.v. *)
From Coq Require Import List String Ascii Bool NArith.
From Verif Require Import JsLex JsParse TsType.
Import ListNotations.
Local Open Scope string_scope.
Local Open Scope list_scope.

(** ** Tokens with flags *)
Notation ftok := (bool * tok)%type (only parsing).

Definition flag (nl : bool) (ts : list tok) : list ftok :=
  match ts with
  | [] => []
  | t :: r => (nl, t) :: map (pair false) r
  end.

(** The lexer of JsLex.v; [nl]: a line terminator (possibly in a comment) was read since the
    last token. *)
Fixpoint flexm (m : mode) (nl : bool) (s : string) : mode * bool * list ftok :=
  match s with
  | EmptyString => (m, nl, [])
  | String c r =>
      let (m1, t1) := step m c in
      let '(m2, nl2, t2) := flexm m1 (newline c || match t1 with [] => nl | _ => false end) r in
      (m2, nl2, flag nl t1 ++ t2)
  end.

Definition flex (s : string) : option (list ftok) :=
  let '(m, nl, ts) := flexm M0 false s in
  match finish m with
  | Some r => Some (ts ++ flag nl r)
  | None => None
  end.

(** ** Syntax *)
Inductive stmt :=
| SExp (e : jsexp)
| SReturn (e : jsexp).

Record func := mkFunc {
  fn_async : bool;
  fn_name : string;
  fn_params : list (string * tsty);
  fn_result : tsty;
  fn_body : list stmt
}.

(** Everything is exported. *)
Inductive item :=
| IConst (n : string) (e : jsexp)
| IType (n : string) (y : tsty)
| IInterface (n : string) (ps : list (string * bool * tsty))
| IFun (f : func).

Record nsblock := mkBlock { b_name : string; b_items : list item }.

(** Names that may be bound (in strict mode, as modules are). *)
Definition binding (s : string) : bool :=
  negb (reserved s) && negb (String.eqb s "eval") && negb (String.eqb s "arguments").

(** Words that would continue an expression on the next line. *)
Definition infix_word (w : string) : bool := String.eqb w "in" || String.eqb w "instanceof".

(** ** The grammar *)

(** [ends r r']: in front of [r] a statement is over - by a semicolon, which is consumed, or
    because one is inserted - and [r'] is left. *)
Inductive ends : list ftok -> list ftok -> Prop :=
| ends_semicolon b r : ends ((b, TP ";") :: r) r
| ends_block b r : ends ((b, TP "}") :: r) ((b, TP "}") :: r)
| ends_line w r : infix_word w = false -> ends ((true, TId w) :: r) ((true, TId w) :: r).

Definition same_line (x : list ftok) : Prop :=
  match x with (b, _) :: _ => b = false | [] => True end.

(** [stmt_of ts s r]: [ts] begins with the statement [s], followed by [r]. *)
Inductive stmt_of : list ftok -> stmt -> list ftok -> Prop :=
| stmt_exp x e r r' : wf e = true -> brace e = false -> map snd x = tokens_of e -> ends r r' ->
    stmt_of (x ++ r) (SExp e) r'
| stmt_return b x e r r' : wf e = true -> map snd x = tokens_of e -> same_line x -> ends r r' ->
    stmt_of ((b, TId "return") :: x ++ r) (SReturn e) r'.

Inductive stmts_of : list ftok -> list stmt -> list ftok -> Prop :=
| stmts_nil r : stmts_of r [] r
| stmts_cons ts s r ss r' : stmt_of ts s r -> stmts_of r ss r' -> stmts_of ts (s :: ss) r'.

Definition param_tokens (p : string * tsty) : list tok := TId (fst p) :: TP ":" :: ytokens (snd p).

Definition good_params (ps : list (string * tsty)) : Prop :=
  (forall p, In p ps -> binding (fst p) = true /\ ywf (snd p) = true) /\ NoDup (map fst ps).

(** A function from its name on. *)
Inductive func_of (a : bool) : list ftok -> func -> list ftok -> Prop :=
| func_intro b1 n b2 ps x b3 b4 y z b5 ss ts b6 r :
    binding n = true -> good_params ps -> ywf y = true ->
    map snd x = commas (map param_tokens ps) -> map snd z = ytokens y ->
    stmts_of ts ss ((b6, TP "}") :: r) ->
    func_of a ((b1, TId n) :: (b2, TP "(") :: x ++ (b3, TP ")") :: (b4, TP ":") :: z ++ (b5, TP "{") :: ts)
      (mkFunc a n ps y ss) r.

(** A declaration after [export]. *)
Inductive item_of : list ftok -> item -> list ftok -> Prop :=
| item_const b1 b2 n b3 x e r r' : binding n = true -> wf e = true -> map snd x = tokens_of e -> ends r r' ->
    item_of ((b1, TId "const") :: (b2, TId n) :: (b3, TP "=") :: x ++ r) (IConst n e) r'
| item_type b1 n b3 x y r r' : binding n = true -> ywf y = true -> map snd x = ytokens y -> ends r r' ->
    item_of ((b1, TId "type") :: (false, TId n) :: (b3, TP "=") :: x ++ r) (IType n y) r'
| item_interface b1 n x ps r : binding n = true -> ywf (YObj ps) = true -> map snd x = ytokens (YObj ps) ->
    item_of ((b1, TId "interface") :: (false, TId n) :: x ++ r) (IInterface n ps) r
| item_function b1 ts f r : func_of false ts f r -> item_of ((b1, TId "function") :: ts) (IFun f) r
| item_async b1 ts f r : func_of true ts f r ->
    item_of ((b1, TId "async") :: (false, TId "function") :: ts) (IFun f) r.

(** The contents of a namespace, up to its closing brace; a lone semicolon is an empty
    statement. *)
Inductive items_of : list ftok -> list item -> list ftok -> Prop :=
| items_nil b r : items_of ((b, TP "}") :: r) [] r
| items_empty b ts is r : items_of ts is r -> items_of ((b, TP ";") :: ts) is r
| items_cons b ts i r is r' : item_of ts i r -> items_of r is r' ->
    items_of ((b, TId "export") :: ts) (i :: is) r'.

Inductive module_of_tokens : list ftok -> list nsblock -> Prop :=
| module_nil : module_of_tokens [] []
| module_cons b1 b2 n b3 ts is r bs : binding n = true -> items_of ts is r -> module_of_tokens r bs ->
    module_of_tokens ((b1, TId "export") :: (b2, TId "namespace") :: (false, TId n) :: (b3, TP "{") :: ts)
      (mkBlock n is :: bs).

(** The text [s] is the module [m]. *)
Definition ts_module (s : string) (m : list nsblock) : Prop :=
  exists ts, flex s = Some ts /\ module_of_tokens ts m.

(** ** The parser *)
Definition body := (list nsblock * string * list item)%type.
Definition head := (bool * string * list (string * tsty) * tsty)%type.

Inductive mstate :=
| QTop (m : list nsblock)                                     (* between namespaces *)
| QExport (m : list nsblock)                                  (* export *)
| QSpace (m : list nsblock)                                   (* export namespace *)
| QName (m : list nsblock) (n : string)                       (* export namespace n *)
| QItem (b : body)                                          (* between declarations *)
| QDecl (b : body)                                          (* export *)
| QConst (b : body) | QConst1 (b : body) (n : string) | QConst2 (b : body) (n : string) (s : xstate)
| QType (b : body) | QType1 (b : body) (n : string) | QType2 (b : body) (n : string) (s : ystate)
| QIntf (b : body) | QIntf1 (b : body) (n : string) | QIntf2 (b : body) (n : string) (s : ystate)
| QAsync (b : body)
| QFun (b : body) (a : bool)                                (* function *)
| QFun1 (b : body) (a : bool) (n : string)                  (* function n *)
| QParam (b : body) (a : bool) (n : string) (ps : list (string * tsty))
| QParam1 (b : body) (a : bool) (n : string) (ps : list (string * tsty)) (p : string)
| QParam2 (b : body) (a : bool) (n : string) (ps : list (string * tsty)) (p : string) (s : ystate)
| QRes (b : body) (a : bool) (n : string) (ps : list (string * tsty))
| QRes1 (b : body) (a : bool) (n : string) (ps : list (string * tsty)) (s : ystate)
| QStmt (b : body) (h : head) (ss : list stmt)              (* between statements *)
| QExp (b : body) (h : head) (ss : list stmt) (s : xstate)
| QRet (b : body) (h : head) (ss : list stmt)               (* return *)
| QRet1 (b : body) (h : head) (ss : list stmt) (s : xstate)
| QErr.

Definition add_item (b : body) (i : item) : body :=
  let '(m, n, is) := b in (m, n, is ++ [i]).

Definition close_block (b : body) : list nsblock :=
  let '(m, n, is) := b in m ++ [mkBlock n is].

Definition at_item (b : body) (t : tok) : mstate :=
  match t with
  | TId w => if String.eqb w "export" then QDecl b else QErr
  | TP c =>
      if Ascii.eqb c "}" then QTop (close_block b)
      else if Ascii.eqb c ";" then QItem b else QErr
  | _ => QErr
  end.

Definition close_func (b : body) (h : head) (ss : list stmt) : mstate :=
  let '(a, n, ps, y) := h in QItem (add_item b (IFun (mkFunc a n ps y ss))).

Definition at_stmt (b : body) (h : head) (ss : list stmt) (t : tok) : mstate :=
  match t with
  | TId w => if String.eqb w "return" then QRet b h ss else QExp b h ss (xstep (XStart []) t)
  | TP c =>
      if Ascii.eqb c "}" then close_func b h ss
      else if Ascii.eqb c "{" then QErr else QExp b h ss (xstep (XStart []) t)
  | _ => QExp b h ss (xstep (XStart []) t)
  end.

(** Where [ends] applies. *)
Definition over (t : ftok) : bool :=
  match t with
  | (_, TP c) => Ascii.eqb c ";" || Ascii.eqb c "}"
  | (b, TId w) => b && negb (infix_word w)
  | _ => false
  end.
Definition resume (k : tok -> mstate) (q : mstate) (t : tok) : mstate :=
  match t with
  | TP c => if Ascii.eqb c ";" then q else k t
  | _ => k t
  end.
(** What may follow an interface. *)
Definition free (t : tok) : bool :=
  match t with
  | TP c => Ascii.eqb c ";" || Ascii.eqb c "}"
  | TId _ => true
  | _ => false
  end.
Definition is_p (c : ascii) (t : tok) : bool :=
  match t with TP d => Ascii.eqb c d | _ => false end.
Definition fresh (p : string) (ps : list (string * tsty)) : bool :=
  binding p && negb (existsb (fun q => String.eqb (fst q) p) ps).

Definition mstep (q : mstate) (ft : ftok) : mstate :=
  let (nl, t) := ft in
  match q with
  | QTop m => match t with TId w => if String.eqb w "export" then QExport m else QErr | _ => QErr end
  | QExport m => match t with TId w => if String.eqb w "namespace" then QSpace m else QErr | _ => QErr end
  | QSpace m => match t with TId w => if negb nl && binding w then QName m w else QErr | _ => QErr end
  | QName m n => if is_p "{" t then QItem (m, n, []) else QErr
  | QItem b => at_item b t
  | QDecl b =>
      match t with
      | TId w =>
          if String.eqb w "const" then QConst b
          else if String.eqb w "type" then QType b
          else if String.eqb w "interface" then QIntf b
          else if String.eqb w "function" then QFun b false
          else if String.eqb w "async" then QAsync b else QErr
      | _ => QErr
      end
  | QConst b => match t with TId w => if binding w then QConst1 b w else QErr | _ => QErr end
  | QConst1 b n => if is_p "=" t then QConst2 b n (XStart []) else QErr
  | QConst2 b n s =>
      match xresult s with
      | Some e =>
          if over ft then let b := add_item b (IConst n e) in resume (at_item b) (QItem b) t
          else QConst2 b n (xstep s t)
      | None => QConst2 b n (xstep s t)
      end
  | QType b => match t with TId w => if negb nl && binding w then QType1 b w else QErr | _ => QErr end
  | QType1 b n => if is_p "=" t then QType2 b n (YStart []) else QErr
  | QType2 b n s =>
      match yresult s with
      | Some y =>
          if over ft then let b := add_item b (IType n y) in resume (at_item b) (QItem b) t
          else QType2 b n (ystep s t)
      | None => QType2 b n (ystep s t)
      end
  | QIntf b => match t with TId w => if negb nl && binding w then QIntf1 b w else QErr | _ => QErr end
  | QIntf1 b n => QIntf2 b n (ystep (YStart []) t)
  | QIntf2 b n s =>
      match yresult s with
      | Some y =>
          if free t then
            match y with YObj ps => at_item (add_item b (IInterface n ps)) t | _ => QErr end
          else QIntf2 b n (ystep s t)
      | None => QIntf2 b n (ystep s t)
      end
  | QAsync b =>
      match t with TId w => if negb nl && String.eqb w "function" then QFun b true else QErr | _ => QErr end
  | QFun b a => match t with TId w => if binding w then QFun1 b a w else QErr | _ => QErr end
  | QFun1 b a n => if is_p "(" t then QParam b a n [] else QErr
  | QParam b a n ps =>
      match t with
      | TId w => if fresh w ps then QParam1 b a n ps w else QErr
      | _ => match ps with [] => if is_p ")" t then QRes b a n [] else QErr | _ => QErr end
      end
  | QParam1 b a n ps p => if is_p ":" t then QParam2 b a n ps p (YStart []) else QErr
  | QParam2 b a n ps p s =>
      match yresult s with
      | Some y =>
          if is_p "," t then QParam b a n (ps ++ [(p, y)])
          else if is_p ")" t then QRes b a n (ps ++ [(p, y)])
          else QParam2 b a n ps p (ystep s t)
      | None => QParam2 b a n ps p (ystep s t)
      end
  | QRes b a n ps => if is_p ":" t then QRes1 b a n ps (YStart []) else QErr
  | QRes1 b a n ps s =>
      match yresult s with
      | Some y =>
          if is_p "{" t then QStmt b (a, n, ps, y) [] else QRes1 b a n ps (ystep s t)
      | None => QRes1 b a n ps (ystep s t)
      end
  | QStmt b h ss => at_stmt b h ss t
  | QExp b h ss s =>
      match xresult s with
      | Some e =>
          if over ft then let ss := ss ++ [SExp e] in resume (at_stmt b h ss) (QStmt b h ss) t
          else QExp b h ss (xstep s t)
      | None => QExp b h ss (xstep s t)
      end
  | QRet b h ss => if nl then QErr else QRet1 b h ss (xstep (XStart []) t)
  | QRet1 b h ss s =>
      match xresult s with
      | Some e =>
          if over ft then let ss := ss ++ [SReturn e] in resume (at_stmt b h ss) (QStmt b h ss) t
          else QRet1 b h ss (xstep s t)
      | None => QRet1 b h ss (xstep s t)
      end
  | QErr => QErr
  end.

Definition mrun (q : mstate) (ts : list ftok) : mstate := fold_left mstep ts q.

Definition mparse (ts : list ftok) : option (list nsblock) :=
  match mrun (QTop []) ts with QTop m => Some m | _ => None end.

(** The module a text denotes. *)
Definition module_parse (s : string) : option (list nsblock) :=
  match flex s with Some ts => mparse ts | None => None end.

(** ** The parser finds every reading *)
Lemma mrun_cons q t ts : mrun q (t :: ts) = mrun (mstep q t) ts.
Proof. reflexivity. Qed.

Lemma xresult_stop s e t : xresult s = Some e -> free t = true -> xstep s t = XErr.
Proof.
  destruct s; try discriminate; cbn [xresult]; destruct (settle e0 st) as [e1 [|]] eqn:Hs; try discriminate;
    intros _; destruct t as [w|w|k|c| |]; cbn; try discriminate; auto; intros Hc;
    unfold delim; rewrite Hs; destruct (Ascii.eqb c ";") eqn:H1;
    try (apply Ascii.eqb_eq in H1; subst c; reflexivity);
    destruct (Ascii.eqb c "}") eqn:H2; try discriminate; apply Ascii.eqb_eq in H2; subst c; reflexivity.
Qed.

Lemma over_free b t : over (b, t) = true -> free t = true.
Proof. now destruct t. Qed.

Definition ystops : list ascii := [";"; "}"; ","; ")"; "{"]%char.
Lemma yresult_stop s y t : yresult s = Some y ->
  (exists w, t = TId w) \/ (exists c, t = TP c /\ In c ystops) -> ystep s t = YErr.
Proof.
  destruct s; try discriminate; cbn [yresult]; destruct (settle_union t0 st) as [y1 [|]] eqn:Hs; try discriminate.
  intros _ [[w ->]|(c & -> & Hc)]; [reflexivity|]. cbn [ystep].
  unfold ydelim. rewrite Hs. unfold ystops in Hc. cbn [In] in Hc.
  decompose [or] Hc; subst; try reflexivity; easy.
Qed.

Lemma xerr_run ts : xrun XErr ts = XErr.
Proof. induction ts; [reflexivity|exact IHts]. Qed.
Lemma yerr_run ts : yrun YErr ts = YErr.
Proof. induction ts; [reflexivity|exact IHts]. Qed.

Lemma xrun_cons s t ts : xrun s (t :: ts) = xrun (xstep s t) ts.
Proof. reflexivity. Qed.

(** Inside an expression. *)
Lemma run_exp (K : xstate -> mstate) (F : jsexp -> ftok -> mstate) :
  (forall s t, mstep (K s) t =
     match xresult s with Some e => if over t then F e t else K (xstep s (snd t)) | None => K (xstep s (snd t)) end) ->
  forall x s r, xresult (xrun s (map snd x)) <> None -> mrun (K s) (x ++ r) = mrun (K (xrun s (map snd x))) r.
Proof.
  intros HK. induction x as [|[b t] x IH]; intros s r H; [reflexivity|].
  cbn [app map]. rewrite mrun_cons, HK, xrun_cons. cbn [snd] in *. cbn [map] in H. rewrite xrun_cons in H. cbn [snd] in H.
  destruct (xresult s) as [e|] eqn:He; [|now apply IH].
  destruct (over (b, t)) eqn:Ho; [|now apply IH].
  rewrite (xresult_stop s e t He (over_free _ _ Ho)), xerr_run in H. now destruct H.
Qed.

Lemma xresult_after e : wf e = true -> xresult (xrun (XStart []) (tokens_of e)) = Some e.
Proof. intros H. exact (parse_complete e H). Qed.

Lemma run_whole_exp (K : xstate -> mstate) (F : jsexp -> ftok -> mstate) :
  (forall s t, mstep (K s) t =
     match xresult s with Some e => if over t then F e t else K (xstep s (snd t)) | None => K (xstep s (snd t)) end) ->
  forall x e t r, wf e = true -> map snd x = tokens_of e -> over t = true ->
  mrun (K (XStart [])) (x ++ t :: r) = mrun (F e t) r.
Proof.
  intros HK x e t r Hw Hx Ho. pose proof (xresult_after e Hw) as He. rewrite <- Hx in He.
  rewrite (run_exp K F HK) by congruence. now rewrite mrun_cons, HK, He, Ho.
Qed.

(** Inside a type. *)
Lemma run_ty (K : ystate -> mstate) (p : ftok -> bool) (F : tsty -> ftok -> mstate) :
  (forall t, p t = true -> (exists w, snd t = TId w) \/ exists c, snd t = TP c /\ In c ystops) ->
  (forall s t, mstep (K s) t =
     match yresult s with Some e => if p t then F e t else K (ystep s (snd t)) | None => K (ystep s (snd t)) end) ->
  forall x s r, yresult (yrun s (map snd x)) <> None -> mrun (K s) (x ++ r) = mrun (K (yrun s (map snd x))) r.
Proof.
  intros Hp HK. induction x as [|[b t] x IH]; intros s r H; [reflexivity|].
  cbn [app map]. rewrite mrun_cons, HK, yrun_cons. cbn [snd] in *. cbn [map] in H. rewrite yrun_cons in H. cbn [snd] in H.
  destruct (yresult s) as [e|] eqn:He; [|now apply IH].
  destruct (p (b, t)) eqn:Ho; [|now apply IH].
  rewrite (yresult_stop s e t He (Hp _ Ho)), yerr_run in H. now destruct H.
Qed.

Lemma run_whole_ty (K : ystate -> mstate) (p : ftok -> bool) (F : tsty -> ftok -> mstate) :
  (forall t, p t = true -> (exists w, snd t = TId w) \/ exists c, snd t = TP c /\ In c ystops) ->
  (forall s t, mstep (K s) t =
     match yresult s with Some e => if p t then F e t else K (ystep s (snd t)) | None => K (ystep s (snd t)) end) ->
  forall x y t r, ywf y = true -> map snd x = ytokens y -> p t = true ->
  mrun (K (YStart [])) (x ++ t :: r) = mrun (F y t) r.
Proof.
  intros Hp HK x y t r Hw Hx Ho. pose proof (yparse_complete y Hw) as He. unfold yparse in He. rewrite <- Hx in He.
  rewrite (run_ty K p F Hp HK) by congruence. now rewrite mrun_cons, HK, He, Ho.
Qed.

Lemma ends_over r r' : ends r r' -> exists t q, r = t :: q /\ over t = true /\
  forall (k : tok -> mstate) (c : mstate), (forall b t, mstep c (b, t) = k t) -> mrun (resume k c (snd t)) q = mrun c r'.
Proof.
  intros [b q|b q|w q Hw]; do 2 eexists; (split; [reflexivity|split]); try reflexivity; try (cbn; now rewrite Hw);
    intros k c Hk; try reflexivity; rewrite mrun_cons, Hk; reflexivity.
Qed.

Lemma brace_head e b t (x : list ftok) : wf e = true -> brace e = false -> map snd ((b, t) :: x : list ftok) = tokens_of e ->
  (forall w, t = TId w -> reserved w = false) /\ t <> TP "{" /\ t <> TP "}".
Proof.
  cbn [map snd]. generalize (map snd x) as r. clear x b.
  assert (H : forall a, wfarg a = true -> brace a = false -> forall r, t :: r = tokens_of a ->
     (forall w, t = TId w -> reserved w = false) /\ t <> TP "{" /\ t <> TP "}").
  { induction a using jsexp_ind'; cbn; intros Hw Hb r Hr; try (injection Hr as -> ->; split; [|split]; congruence).
    - injection Hr as -> ->. split; [|split]; try discriminate. intros w Hw'. injection Hw' as <-. now apply negb_true_iff.
    - apply andb_true_iff in Hw as [Hp Hw]. assert (Hw' : wfarg a = true) by (destruct a; auto; discriminate).
      destruct (tokens_of a) as [|t' r'] eqn:Ha.
      + cbn in Hr. injection Hr as -> ->. split; [|split]; congruence.
      + cbn in Hr. injection Hr as -> Hr. now apply (IHa Hw' Hb r').
    - apply andb_true_iff in Hw as [Hw _]. apply andb_true_iff in Hw as [Hp Hw].
      assert (Hw' : wfarg a = true) by (destruct a; auto; discriminate).
      destruct (tokens_of a) as [|t' r'] eqn:Ha.
      + cbn in Hr. injection Hr as -> ->. split; [|split]; congruence.
      + cbn in Hr. injection Hr as -> Hr. now apply (IHa Hw' Hb r'). }
  intros r Hw Hb Hr. apply (H e) with (r := r); auto. destruct e; auto; discriminate.
Qed.

Lemma tokens_nonempty e : wf e = true -> tokens_of e <> [].
Proof.
  intros H E. pose proof (xresult_after e H) as He. now rewrite E in He.
Qed.

Lemma ytokens_nonempty y : ywf y = true -> ytokens y <> [].
Proof. intros H E. pose proof (yparse_complete y H) as He. now rewrite E in He. Qed.

Lemma run_stmt b h ss ts s r : stmt_of ts s r -> mrun (QStmt b h ss) ts = mrun (QStmt b h (ss ++ [s])) r.
Proof.
  intros [x e q r' Hw Hb Hx He | b0 x e q r' Hw Hx Hl He];
    destruct (ends_over _ _ He) as (t & q' & -> & Ho & Hk).
  - destruct x as [|[b1 t1] x]; [now destruct (tokens_nonempty e Hw)|].
    destruct (brace_head e b1 t1 x Hw Hb Hx) as (H1 & H2 & H3).
    transitivity (mrun (QExp b h ss (XStart [])) (((b1, t1) :: x) ++ t :: q')).
    + cbn [app]. rewrite !mrun_cons. f_equal. cbn [mstep xresult]. unfold at_stmt. destruct t1 as [w|w|k|c| |]; try reflexivity.
      * specialize (H1 w eq_refl). destruct (String.eqb w "return") eqn:Hr; [|reflexivity].
        apply String.eqb_eq in Hr. subst w. discriminate.
      * destruct (Ascii.eqb c "}") eqn:E1; [apply Ascii.eqb_eq in E1; congruence|].
        destruct (Ascii.eqb c "{") eqn:E2; [apply Ascii.eqb_eq in E2; congruence|]. reflexivity.
    + erewrite (run_whole_exp (QExp b h ss) (fun e ft => resume (at_stmt b h (ss ++ [SExp e])) (QStmt b h (ss ++ [SExp e])) (snd ft))); eauto.
      intros s0 [nl t2]. reflexivity.
  - rewrite mrun_cons. cbn [mstep at_stmt String.eqb Ascii.eqb Bool.eqb].
    destruct x as [|[b1 t1] x]; [now destruct (tokens_nonempty e Hw)|]. cbn in Hl. subst b1.
    transitivity (mrun (QRet1 b h ss (XStart [])) (((false, t1) :: x) ++ t :: q')); [reflexivity|].
    erewrite (run_whole_exp (QRet1 b h ss) (fun e ft => resume (at_stmt b h (ss ++ [SReturn e])) (QStmt b h (ss ++ [SReturn e])) (snd ft))); eauto.
    intros s0 [nl t2]. reflexivity.
Qed.

Lemma run_stmts b h ts l r : stmts_of ts l r -> forall ss, mrun (QStmt b h ss) ts = mrun (QStmt b h (ss ++ l)) r.
Proof.
  intros H. induction H as [r|ts s r ss' r' Hs _ IH]; intros ss; [now rewrite app_nil_r|].
  rewrite (run_stmt b h ss ts s r Hs), IH. now rewrite <- app_assoc.
Qed.

Lemma fresh_spec p (ps : list (string * tsty)) : binding p = true -> ~ In p (map fst ps) -> fresh p ps = true.
Proof.
  intros Hb Hn. unfold fresh. rewrite Hb. cbn. apply negb_true_iff. destruct (existsb _ ps) eqn:H; [|reflexivity].
  apply existsb_exists in H as (q & Hq & He). apply String.eqb_eq in He. subst p. destruct Hn. now apply in_map.
Qed.

Lemma map_snd_cons (x : list ftok) t ts : map snd x = t :: ts -> exists b x', x = (b, t) :: x' /\ map snd x' = ts.
Proof. destruct x as [|[b t'] x]; [discriminate|]. cbn. intros H. injection H as -> <-. eauto. Qed.
Lemma map_snd_app (x : list ftok) a c : map snd x = a ++ c -> exists x1 x2, x = x1 ++ x2 /\ map snd x1 = a /\ map snd x2 = c.
Proof.
  revert x; induction a as [|t a IH]; intros x H.
  - exists [], x. auto.
  - apply map_snd_cons in H as (b & x' & -> & H). destruct (IH _ H) as (x1 & x2 & -> & <- & <-). exists ((b, t) :: x1), x2. auto.
Qed.

Lemma run_params b a n l : forall ps x b1 r, map snd x = commas (map param_tokens l) -> l <> [] \/ ps = [] ->
  (forall p, In p l -> binding (fst p) = true /\ ywf (snd p) = true) -> NoDup (map fst (ps ++ l)) ->
  mrun (QParam b a n ps) (x ++ (b1, TP ")") :: r) = mrun (QRes b a n (ps ++ l)) r.
Proof.
  induction l as [|[p y] l IH]; intros ps x b1 r Hx Hne Hl Hd.
  - destruct Hne as [Hne| ->]; [easy|]. cbn in Hx. destruct x; [|discriminate]. reflexivity.
  - assert (Hp : fresh p ps = true).
    { destruct (Hl _ (or_introl eq_refl)) as [Hb _]. apply fresh_spec; [exact Hb|].
      rewrite map_app in Hd. cbn in Hd. apply NoDup_remove_2 in Hd. intros Hi. apply Hd, in_app_iff. now left. }
    destruct (Hl _ (or_introl eq_refl)) as [_ Hy]. cbn [snd] in Hy.
    assert (HK : forall s t, mstep (QParam2 b a n ps p s) t =
      match yresult s with
      | Some y => if is_p "," (snd t) || is_p ")" (snd t)
                  then if is_p "," (snd t) then QParam b a n (ps ++ [(p, y)]) else QRes b a n (ps ++ [(p, y)])
                  else QParam2 b a n ps p (ystep s (snd t))
      | None => QParam2 b a n ps p (ystep s (snd t)) end).
    { intros s [nl t]. cbn. destruct (yresult s); [|reflexivity]. destruct (is_p "," t), (is_p ")" t); reflexivity. }
    assert (HP : forall t : ftok, is_p "," (snd t) || is_p ")" (snd t) = true ->
      (exists w, snd t = TId w) \/ exists c, snd t = TP c /\ In c ystops).
    { intros [nl t] H. cbn [snd] in *. right. destruct t as [w|w|k|c| |]; try discriminate. exists c. split; [reflexivity|].
      unfold is_p in H. destruct (Ascii.eqb "," c) eqn:E1.
      - apply Ascii.eqb_eq in E1. subst. cbn. tauto.
      - destruct (Ascii.eqb ")" c) eqn:E2; [|discriminate]. apply Ascii.eqb_eq in E2. subst. cbn. tauto. }
    destruct l as [|q l].
    + cbn [map commas] in Hx. unfold param_tokens in Hx. cbn [fst snd] in Hx.
      apply map_snd_cons in Hx as (b2 & x1 & -> & Hx). apply map_snd_cons in Hx as (b3 & x2 & -> & Hx).
      cbn [app]. rewrite !mrun_cons. cbn [mstep]. rewrite Hp. cbn [mstep is_p Ascii.eqb Bool.eqb].
      rewrite (run_whole_ty (QParam2 b a n ps p) _ _ HP HK x2 y (b1, TP ")") r Hy Hx eq_refl). reflexivity.
    + cbn [map] in Hx. rewrite commas_cons in Hx by easy. unfold param_tokens at 1 in Hx. cbn [fst snd] in Hx. cbn [app] in Hx.
      apply map_snd_cons in Hx as (b2 & x1 & -> & Hx). apply map_snd_cons in Hx as (b3 & x2 & -> & Hx).
      apply map_snd_app in Hx as (x3 & x4 & -> & Hx3 & Hx4). apply map_snd_cons in Hx4 as (b4 & x5 & -> & Hx5).
      cbn [app]. rewrite !mrun_cons. cbn [mstep]. rewrite Hp. cbn [mstep is_p Ascii.eqb Bool.eqb].
      rewrite <- app_assoc. cbn [app].
      rewrite (run_whole_ty (QParam2 b a n ps p) _ _ HP HK x3 y (b4, TP ",") _ Hy Hx3 eq_refl). cbn.
      rewrite IH; auto.
      * now rewrite <- app_assoc.
      * left. easy.
      * intros p' Hp'. apply Hl. now right.
      * now rewrite <- app_assoc.
Qed.

Lemma run_func b a ts f r : func_of a ts f r -> mrun (QFun b a) ts = mrun (QItem (add_item b (IFun f))) r.
Proof.
  intros H. destruct H as [b1 n b2 ps x b3 b4 y z b5 ss ts b6 r Hn [Hps Hd] Hy Hx Hz Hs].
  rewrite !mrun_cons. cbn [mstep]. rewrite Hn. cbn [mstep is_p Ascii.eqb Bool.eqb].
  rewrite (run_params b a n ps [] x b3); auto. rewrite !mrun_cons. cbn [mstep is_p Ascii.eqb Bool.eqb app].
  rewrite (run_whole_ty (QRes1 b a n ps) (fun t => is_p "{" (snd t)) (fun y _ => QStmt b (a, n, ps, y) [])) with (y := y); auto.
  - rewrite (run_stmts _ _ _ _ _ Hs). rewrite mrun_cons. reflexivity.
  - intros [nl t] H. cbn [snd] in *. right. destruct t as [w|w|k|c| |]; try discriminate. exists c. split; [reflexivity|].
    cbn [is_p] in H; apply Ascii.eqb_eq in H. subst. cbn. tauto.
  - intros s0 [nl t]. reflexivity.
Qed.

(** What comes after a declaration. *)
Definition goes_on (r : list ftok) : Prop := match r with (b, t) :: _ => free t = true | [] => False end.

Lemma items_goes_on ts is r : items_of ts is r -> goes_on ts.
Proof. intros [| |]; reflexivity. Qed.

Lemma over_types : forall t : ftok, over t = true -> (exists w, snd t = TId w) \/ exists c, snd t = TP c /\ In c ystops.
Proof.
  intros [nl t] H. cbn [snd]. destruct t as [w|w|k|c| |]; try discriminate; [left; eauto|right]. exists c. split; [reflexivity|].
  cbn in H. destruct (Ascii.eqb c ";") eqn:E1.
  - apply Ascii.eqb_eq in E1. subst. cbn. tauto.
  - cbn in H. apply Ascii.eqb_eq in H. subst. cbn. tauto.
Qed.

Lemma run_item b ts i r : item_of ts i r -> goes_on r -> mrun (QDecl b) ts = mrun (QItem (add_item b i)) r.
Proof.
  intros H Hg. destruct H as [b1 b2 n b3 x e r r' Hn Hw Hx He | b1 n b3 x y r r' Hn Hw Hx He | b1 n x ps r Hn Hw Hx
                             | b1 ts f r Hf | b1 ts f r Hf].
  - destruct (ends_over _ _ He) as (t & q' & -> & Ho & Hk).
    rewrite !mrun_cons. cbn [mstep String.eqb Ascii.eqb Bool.eqb]. rewrite Hn. cbn [mstep is_p Ascii.eqb Bool.eqb].
    erewrite (run_whole_exp (QConst2 b n) (fun e ft => resume (at_item (add_item b (IConst n e))) (QItem (add_item b (IConst n e))) (snd ft))); eauto.
    intros s0 [nl t2]. reflexivity.
  - destruct (ends_over _ _ He) as (t & q' & -> & Ho & Hk).
    rewrite !mrun_cons. cbn [mstep String.eqb Ascii.eqb Bool.eqb negb andb]. rewrite Hn. cbn [mstep is_p Ascii.eqb Bool.eqb].
    erewrite (run_whole_ty (QType2 b n) over (fun e ft => resume (at_item (add_item b (IType n e))) (QItem (add_item b (IType n e))) (snd ft))); eauto.
    + exact over_types.
    + intros s0 [nl t2]. reflexivity.
  - rewrite !mrun_cons. cbn [mstep String.eqb Ascii.eqb Bool.eqb negb andb]. rewrite Hn.
    destruct x as [|[b2 t2] x]; [now destruct (ytokens_nonempty _ Hw)|].
    transitivity (mrun (QIntf2 b n (YStart [])) (((b2, t2) :: x) ++ r)).
    { cbn [app]. rewrite !mrun_cons. f_equal. }
    destruct r as [|[b3 t3] r]; [easy|]. cbn in Hg.
    erewrite (run_whole_ty (QIntf2 b n) (fun t => free (snd t))
      (fun y ft => match y with YObj ps => at_item (add_item b (IInterface n ps)) (snd ft) | _ => QErr end)); eauto.
    + reflexivity.
    + intros [nl t] H. cbn [snd] in *. destruct t as [w|w|k|c| |]; try discriminate; [eauto|].
      exact (over_types (nl, TP c) H).
    + intros s0 [nl t]. reflexivity.
  - rewrite mrun_cons. now apply run_func.
  - rewrite !mrun_cons. now apply run_func.
Qed.

Lemma run_items ts is r : items_of ts is r -> forall m n l, mrun (QItem (m, n, l)) ts = mrun (QTop (m ++ [mkBlock n (l ++ is)])) r.
Proof.
  intros H. induction H as [b r|b ts is r _ IH|b ts i r is r' Hi Hs IH]; intros m n l.
  - rewrite app_nil_r. reflexivity.
  - rewrite mrun_cons. apply IH.
  - rewrite mrun_cons. cbn [mstep at_item String.eqb Ascii.eqb Bool.eqb].
    rewrite (run_item _ _ _ _ Hi (items_goes_on _ _ _ Hs)). cbn [add_item]. rewrite IH. now rewrite <- app_assoc.
Qed.

Lemma run_module ts bs : module_of_tokens ts bs -> forall m, mrun (QTop m) ts = QTop (m ++ bs).
Proof.
  intros H. induction H as [|b1 b2 n b3 ts is r bs Hn Hs _ IH]; intros m; [now rewrite app_nil_r|].
  rewrite !mrun_cons. cbn [mstep String.eqb Ascii.eqb Bool.eqb negb andb]. rewrite Hn. cbn [mstep is_p Ascii.eqb Bool.eqb].
  rewrite (run_items _ _ _ Hs). rewrite IH. now rewrite <- app_assoc.
Qed.

Theorem mparse_complete ts m : module_of_tokens ts m -> mparse ts = Some m.
Proof. intros H. unfold mparse. now rewrite (run_module _ _ H). Qed.

Theorem module_parse_complete s m : ts_module s m -> module_parse s = Some m.
Proof. intros (ts & Hl & H). unfold module_parse. rewrite Hl. now apply mparse_complete. Qed.

(** A text is at most one module. *)
Theorem ts_module_unique s m m' : ts_module s m -> ts_module s m' -> m = m'.
Proof. intros H H'. apply module_parse_complete in H, H'. congruence. Qed.

Theorem not_a_module s : module_parse s = None -> forall m, ~ ts_module s m.
Proof. intros H m Hm. apply module_parse_complete in Hm. congruence. Qed.

(** ** Flags and tokens *)
Lemma flag_snd nl ts : map snd (flag nl ts) = ts.
Proof. destruct ts as [|t r]; [reflexivity|]. cbn. rewrite map_map. cbn. now rewrite map_id. Qed.

Lemma flexm_lexm s : forall m nl m' nl' ts, flexm m nl s = (m', nl', ts) -> lexm m s = (m', map snd ts).
Proof.
  induction s as [|c s IH]; intros m nl m' nl' ts; cbn.
  - intros H. injection H as <- <- <-. reflexivity.
  - destruct (step m c) as [m1 t1]. destruct (flexm m1 _ s) as [[m2 nl2] t2] eqn:Hf. intros H. injection H as <- <- <-.
    rewrite (IH _ _ _ _ _ Hf), map_app, flag_snd. reflexivity.
Qed.

Lemma flexm_exists s : forall m nl m' ts, lexm m s = (m', ts) -> exists nl' x, flexm m nl s = (m', nl', x) /\ map snd x = ts.
Proof.
  intros m nl m' ts H. destruct (flexm m nl s) as [[m1 nl1] x] eqn:Hf. pose proof (flexm_lexm _ _ _ _ _ _ Hf) as H1.
  rewrite H in H1. injection H1 as -> ->. eauto.
Qed.

Lemma flexm_app a b : forall m nl, flexm m nl (a ++ b)%string =
  let '(m1, nl1, x1) := flexm m nl a in let '(m2, nl2, x2) := flexm m1 nl1 b in (m2, nl2, x1 ++ x2).
Proof.
  induction a as [|c a IH]; intros m nl; cbn.
  - destruct (flexm m nl b) as [[? ?] ?]. reflexivity.
  - destruct (step m c) as [m1 t1]. rewrite IH. destruct (flexm m1 _ a) as [[m2 nl2] x2].
    destruct (flexm m2 nl2 b) as [[m3 nl3] x3]. now rewrite app_assoc.
Qed.

Lemma flexm_seq m nl a m1 nl1 x1 b m2 nl2 x2 : flexm m nl a = (m1, nl1, x1) -> flexm m1 nl1 b = (m2, nl2, x2) ->
  flexm m nl (a ++ b)%string = (m2, nl2, x1 ++ x2).
Proof. intros Ha Hb. now rewrite flexm_app, Ha, Hb. Qed.

(** The first token of a text carries the flag of what comes before, if that is set. *)
Lemma flexm_first s : forall m m' nl' b t x, flexm m true s = (m', nl', (b, t) :: x) -> b = true.
Proof.
  induction s as [|c s IH]; intros m m' nl' b t x; cbn; [discriminate|].
  destruct (step m c) as [m1 [|t1 r1]]; cbn.
  - rewrite orb_true_r. destruct (flexm m1 true s) as [[m2 nl2] t2] eqn:Hf. intros H. injection H as -> -> ->. eauto.
  - destruct (flexm m1 _ s) as [[m2 nl2] t2]. intros H. now injection H.
Qed.

Lemma flexm_silent s : forall m m' nl', flexm m true s = (m', nl', []) -> nl' = true.
Proof.
  induction s as [|c s IH]; intros m m' nl'; cbn; [congruence|].
  destruct (step m c) as [m1 [|t1 r1]]; cbn.
  - rewrite orb_true_r. destruct (flexm m1 true s) as [[m2 nl2] t2] eqn:Hf. intros H. injection H as -> -> ->. eauto.
  - destruct (flexm m1 _ s) as [[m2 nl2] t2]. discriminate.
Qed.

Lemma id_char_line c : id_char c = true -> newline c = false.
Proof. intros H. destruct c as [[] [] [] [] [] [] [] []]; vm_compute in H |- *; congruence. Qed.

Lemma flexm_word s : forall w nl, all_chars id_char s = true -> flexm (MId w) nl s = (MId (w ++ s)%string, nl, []).
Proof.
  induction s as [|c s IH]; intros w nl H; cbn.
  - now rewrite append_nil.
  - cbn in H. apply andb_true_iff in H as [Hc Hs]. rewrite Hc, IH by exact Hs. rewrite (id_char_line c Hc). cbn.
    now rewrite append_assoc.
Qed.

Lemma flexm_ident s nl : ident s = true -> flexm M0 nl s = (MId s, nl, []).
Proof.
  destruct s as [|c r]; [discriminate|]. cbn [ident]. intros H. apply andb_true_iff in H as [Hc Hr].
  cbn [flexm step]. rewrite (start_id c Hc). rewrite flexm_word by exact Hr.
  rewrite (id_char_line c) by (unfold id_char; now rewrite Hc). reflexivity.
Qed.
