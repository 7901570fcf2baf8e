(** A parser for the JavaScript expressions the generators write.

    Specification side: a subset of the expression grammar of ECMA-262 section 13 -
    identifiers, literals, member access, calls, array and object literals, arrow
    functions without parameters, spread elements.  The grammar is [tokens_of] restricted to
    [wf]; the parser is a pushdown automaton that reads one token at a time. *)
From Coq Require Import List String Ascii Bool NArith.
From Verif Require Import JsLex.
Import ListNotations.
Local Open Scope string_scope.
Local Open Scope list_scope.

Inductive jsexp :=
| EId (s : string)
| EStr (s : string)
| ENum (n : N)
| ENeg (n : N)
| EMember (e : jsexp) (p : string)
| ECall (f : jsexp) (args : list jsexp)
| EArr (es : list jsexp)
| EObj (ps : list (string * jsexp))
| EArrow (body : jsexp)
| ESpread (e : jsexp).

Fixpoint commas (xs : list (list tok)) : list tok :=
  match xs with
  | [] => []
  | [x] => x
  | x :: r => x ++ TP "," :: commas r
  end.

(** The grammar, read as a printer. *)
Fixpoint tokens_of (e : jsexp) : list tok :=
  match e with
  | EId s => [TId s]
  | EStr s => [TStr s]
  | ENum n => [TNum n]
  | ENeg n => [TP "-"; TNum n]
  | EMember e p => tokens_of e ++ [TP "."; TId p]
  | ECall f args => tokens_of f ++ TP "(" :: commas (map tokens_of args) ++ [TP ")"]
  | EArr es => TP "[" :: commas (map tokens_of es) ++ [TP "]"]
  | EObj ps =>
      TP "{" :: commas (map (fun p => TId (fst p) :: TP ":" :: tokens_of (snd p)) ps) ++ [TP "}"]
  | EArrow b => TP "(" :: TP ")" :: TArrow :: tokens_of b
  | ESpread e => TDots :: tokens_of e
  end.

(** May [.] or [(] follow directly? *)
Definition postfix (e : jsexp) : bool :=
  match e with ENum _ | ENeg _ | EArrow _ | ESpread _ => false | _ => true end.

(** Does it begin with a brace (an arrow function's body must not)? *)
Fixpoint brace (e : jsexp) : bool :=
  match e with
  | EObj _ => true
  | EMember e _ | ECall e _ => brace e
  | _ => false
  end.

Fixpoint wf (e : jsexp) : bool :=
  let wfarg a := match a with ESpread e => wf e | _ => wf a end in
  match e with
  | EId s => negb (reserved s)
  | EStr _ | ENum _ | ENeg _ => true
  | EMember e _ => postfix e && wf e
  | ECall f args => postfix f && wf f && forallb wfarg args
  | EArr es => forallb wfarg es
  | EObj ps => forallb (fun p => wf (snd p)) ps
  | EArrow b => wf b && negb (brace b)
  | ESpread _ => false
  end.

(** ** The parser *)
Inductive frame :=
| FArr (done : list jsexp)
| FCall (f : jsexp) (done : list jsexp)
| FObj (done : list (string * jsexp)) (key : string)
| FArrow
| FSpread.

Inductive xstate :=
| XStart (st : list frame)                 (* an expression must start *)
| XHave (e : jsexp) (st : list frame)      (* [e] was read and may be continued *)
| XEnd (e : jsexp) (st : list frame)       (* [e] was read and may not be continued *)
| XDot (e : jsexp) (st : list frame)
| XParen (st : list frame) | XParen2 (st : list frame)
| XNeg (st : list frame)
| XKey (done : list (string * jsexp)) (st : list frame)
| XColon (done : list (string * jsexp)) (k : string) (st : list frame)
| XErr.

(** A separator or closing bracket ends the arrow functions and spreads around [e]. *)
Fixpoint settle (e : jsexp) (st : list frame) : jsexp * list frame :=
  match st with
  | FArrow :: st => settle (EArrow e) st
  | FSpread :: st => settle (ESpread e) st
  | _ => (e, st)
  end.

Definition delim (c : ascii) (e : jsexp) (st : list frame) : xstate :=
  let (e, st) := settle e st in
  match st with
  | FArr d :: st =>
      if Ascii.eqb c "," then XStart (FArr (d ++ [e]) :: st)
      else if Ascii.eqb c "]" then XHave (EArr (d ++ [e])) st else XErr
  | FCall f d :: st =>
      if Ascii.eqb c "," then XStart (FCall f (d ++ [e]) :: st)
      else if Ascii.eqb c ")" then XHave (ECall f (d ++ [e])) st else XErr
  | FObj d k :: st =>
      if Ascii.eqb c "," then XKey (d ++ [(k, e)]) st
      else if Ascii.eqb c "}" then XHave (EObj (d ++ [(k, e)])) st else XErr
  | _ => XErr
  end.

Definition xstep (s : xstate) (t : tok) : xstate :=
  match s with
  | XStart st =>
      match t with
      | TId w => if reserved w then XErr else XHave (EId w) st
      | TStr w => XHave (EStr w) st
      | TNum n => XEnd (ENum n) st
      | TDots =>
          match st with
          | FArr _ :: _ | FCall _ _ :: _ => XStart (FSpread :: st)
          | _ => XErr
          end
      | TArrow => XErr
      | TP c =>
          if Ascii.eqb c "[" then XStart (FArr [] :: st)
          else if Ascii.eqb c "{" then
            match st with FArrow :: _ => XErr | _ => XKey [] st end
          else if Ascii.eqb c "(" then XParen st
          else if Ascii.eqb c "-" then XNeg st
          else if Ascii.eqb c "]" then
            match st with FArr [] :: st => XHave (EArr []) st | _ => XErr end
          else if Ascii.eqb c ")" then
            match st with FCall f [] :: st => XHave (ECall f []) st | _ => XErr end
          else XErr
      end
  | XHave e st =>
      match t with
      | TP c =>
          if Ascii.eqb c "." then XDot e st
          else if Ascii.eqb c "(" then XStart (FCall e [] :: st)
          else delim c e st
      | _ => XErr
      end
  | XEnd e st => match t with TP c => delim c e st | _ => XErr end
  | XDot e st => match t with TId p => XHave (EMember e p) st | _ => XErr end
  | XParen st =>
      match t with TP c => if Ascii.eqb c ")" then XParen2 st else XErr | _ => XErr end
  | XParen2 st => match t with TArrow => XStart (FArrow :: st) | _ => XErr end
  | XNeg st => match t with TNum n => XEnd (ENeg n) st | _ => XErr end
  | XKey d st =>
      match t with
      | TId k => XColon d k st
      | TP c =>
          if Ascii.eqb c "}" then match d with [] => XHave (EObj []) st | _ => XErr end else XErr
      | _ => XErr
      end
  | XColon d k st =>
      match t with
      | TP c => if Ascii.eqb c ":" then XStart (FObj d k :: st) else XErr
      | _ => XErr
      end
  | XErr => XErr
  end.

Definition xrun (s : xstate) (ts : list tok) : xstate := fold_left xstep ts s.

Definition xresult (s : xstate) : option jsexp :=
  match s with
  | XHave e st | XEnd e st =>
      match settle e st with (e, []) => Some e | _ => None end
  | _ => None
  end.

Definition parse (ts : list tok) : option jsexp := xresult (xrun (XStart []) ts).

(** The expression a text denotes. *)
Definition js_parse (s : string) : option jsexp :=
  match lex s with Some ts => parse ts | None => None end.

(** ** The parser inverts the grammar *)
Fixpoint jsexp_ind' (P : jsexp -> Prop)
  (H1 : forall s, P (EId s)) (H2 : forall s, P (EStr s)) (H3 : forall n, P (ENum n))
  (H4 : forall n, P (ENeg n)) (H5 : forall e p, P e -> P (EMember e p))
  (H6 : forall f args, P f -> Forall P args -> P (ECall f args))
  (H7 : forall es, Forall P es -> P (EArr es))
  (H8 : forall ps, Forall (fun p => P (snd p)) ps -> P (EObj ps))
  (H9 : forall b, P b -> P (EArrow b)) (H10 : forall e, P e -> P (ESpread e))
  (e : jsexp) {struct e} : P e :=
  let rec := jsexp_ind' P H1 H2 H3 H4 H5 H6 H7 H8 H9 H10 in
  let go := fix go l : Forall P l :=
    match l with [] => Forall_nil _ | x :: r => Forall_cons _ (rec x) (go r) end in
  match e with
  | EId s => H1 s
  | EStr s => H2 s
  | ENum n => H3 n
  | ENeg n => H4 n
  | EMember e p => H5 e p (rec e)
  | ECall f args => H6 f args (rec f) (go args)
  | EArr es => H7 es (go es)
  | EObj ps => H8 ps ((fix gop l : Forall (fun p => P (snd p)) l :=
      match l with [] => Forall_nil _ | x :: r => Forall_cons _ (rec (snd x)) (gop r) end) ps)
  | EArrow b => H9 b (rec b)
  | ESpread e => H10 e (rec e)
  end.

Definition wfarg (a : jsexp) : bool := match a with ESpread e => wf e | _ => wf a end.

(** The state after reading [e] where an expression was expected. *)
Fixpoint after (e : jsexp) (st : list frame) : xstate :=
  match e with
  | EArrow b => after b (FArrow :: st)
  | ESpread e => after e (FSpread :: st)
  | ENum _ | ENeg _ => XEnd e st
  | _ => XHave e st
  end.

(** May [e] start on top of [st]? *)
Definition fits (e : jsexp) (st : list frame) : Prop :=
  match st with
  | FArrow :: _ => match e with ESpread _ => False | _ => brace e = false end
  | FArr _ :: _ | FCall _ _ :: _ => True
  | _ => match e with ESpread _ => False | _ => True end
  end.

Lemma xrun_app s a b : xrun s (a ++ b) = xrun (xrun s a) b.
Proof. apply fold_left_app. Qed.

Definition closing (c : ascii) : Prop := In c [","; "]"; ")"; "}"]%char.

Lemma after_delim e : forall st c, closing c -> xstep (after e st) (TP c) = delim c e st.
Proof.
  induction e using jsexp_ind'; intros st c Hc; cbn [after];
    try (destruct Hc as [<-|[<-|[<-|[<-|[]]]]]; reflexivity).
  - rewrite IHe by exact Hc. reflexivity.
  - rewrite IHe by exact Hc. reflexivity.
Qed.

Lemma commas_cons x r : r <> [] -> commas (x :: r) = x ++ TP "," :: commas r.
Proof. destruct r; [easy|reflexivity]. Qed.

(** Reading the elements of a list of arguments. *)
Lemma read_list (mk : list jsexp -> frame) (fin : list jsexp -> xstate) (cl : ascii) st :
  (mk = FArr /\ cl = "]"%char /\ fin = (fun es => XHave (EArr es) st) \/
   exists f, mk = FCall f /\ cl = ")"%char /\ fin = (fun es => XHave (ECall f es) st)) ->
  forall es, Forall (fun e => forall st rest, wfarg e = true -> fits e st ->
               xrun (XStart st) (tokens_of e ++ rest) = xrun (after e st) rest) es ->
  forallb wfarg es = true ->
  forall d rest, (es <> [] \/ d = []) ->
  xrun (XStart (mk d :: st)) (commas (map tokens_of es) ++ TP cl :: rest)
  = xrun (fin (d ++ es)) rest.
Proof.
  intros Hmk es Hes. induction Hes as [|e es He Hes IH]; intros Hw d rest Hd.
  - destruct Hd as [Hd| ->]; [easy|].
    destruct Hmk as [(-> & -> & ->)|(f & -> & -> & ->)]; reflexivity.
  - cbn [forallb] in Hw. apply andb_true_iff in Hw as [Hwe Hw].
    assert (Hf : fits e (mk d :: st)).
    { destruct Hmk as [(-> & _)|(f & -> & _)]; exact I. }
    assert (Hns : settle e (mk d :: st) = (e, mk d :: st)).
    { destruct Hmk as [(-> & _)|(f & -> & _)]; reflexivity. }
    destruct es as [|e2 es].
    + cbn [map commas]. rewrite He by assumption.
      unfold xrun at 1. cbn [fold_left]. rewrite after_delim.
      * unfold delim. rewrite Hns.
        destruct Hmk as [(-> & -> & ->)|(f & -> & -> & ->)]; reflexivity.
      * destruct Hmk as [(-> & -> & ->)|(f & -> & -> & ->)]; unfold closing; simpl; tauto.
    + cbn [map]. rewrite commas_cons by easy. rewrite <- app_assoc, <- app_comm_cons.
      rewrite He by assumption. unfold xrun at 1. cbn [fold_left]. rewrite after_delim by now left.
      unfold delim. rewrite Hns.
      replace (d ++ e :: e2 :: es) with ((d ++ [e]) ++ e2 :: es) by now rewrite <- app_assoc.
      rewrite <- (IH Hw (d ++ [e]) rest) by (left; easy).
      destruct Hmk as [(-> & -> & ->)|(f & -> & -> & ->)]; reflexivity.
Qed.

Lemma read_props st ps :
  Forall (fun p => forall st rest, wfarg (snd p) = true -> fits (snd p) st ->
     xrun (XStart st) (tokens_of (snd p) ++ rest) = xrun (after (snd p) st) rest) ps ->
  forallb (fun p : string * jsexp => wf (snd p)) ps = true ->
  forall d rest, (ps <> [] \/ d = []) ->
  xrun (XKey d st)
    (commas (map (fun p => TId (fst p) :: TP ":" :: tokens_of (snd p)) ps) ++ TP "}" :: rest)
  = xrun (XHave (EObj (d ++ ps)) st) rest.
Proof.
  intros Hps. induction Hps as [|[k e] ps He Hps IH]; intros Hw d rest Hd.
  - destruct Hd as [Hd| ->]; [easy|]. reflexivity.
  - cbn [forallb snd] in *. apply andb_true_iff in Hw as [Hwe Hw].
    assert (Hsp : forall x, e <> ESpread x) by (intros x ->; discriminate).
    assert (Hwa : wfarg e = true) by (destruct e; try exact Hwe; discriminate).
    assert (Hf : fits e (FObj d k :: st)).
    { destruct e; cbn; auto. now apply (Hsp e). }
    destruct ps as [|p2 ps].
    + cbn [map commas fst snd].
      change (xrun (XStart (FObj d k :: st)) (tokens_of e ++ TP "}" :: rest) = xrun (XHave (EObj (d ++ [(k, e)])) st) rest).
      rewrite He by assumption. unfold xrun at 1. cbn [fold_left].
      rewrite after_delim by (unfold closing; simpl; tauto). reflexivity.
    + cbn [map fst snd] in IH |- *. rewrite commas_cons by easy.
      rewrite <- !app_comm_cons, <- app_assoc, <- app_comm_cons.
      change (xrun (XStart (FObj d k :: st)) (tokens_of e ++ TP "," ::
        (commas (map (fun p : string * jsexp => TId (fst p) :: TP ":" :: tokens_of (snd p)) (p2 :: ps)) ++ TP "}" :: rest))
        = xrun (XHave (EObj (d ++ (k, e) :: p2 :: ps)) st) rest).
      rewrite He by assumption. unfold xrun at 1. cbn [fold_left].
      rewrite after_delim by now left.
      replace (d ++ (k, e) :: p2 :: ps) with ((d ++ [(k, e)]) ++ p2 :: ps) by now rewrite <- app_assoc.
      rewrite <- (IH Hw (d ++ [(k, e)]) rest) by (left; easy). reflexivity.
Qed.

Lemma wf_wfarg e : wf e = true -> wfarg e = true.
Proof. destruct e; auto. discriminate. Qed.

Lemma wf_fits e st : wf e = true -> (forall s, st <> FArrow :: s) -> fits e st.
Proof.
  intros H Hs. destruct e; try discriminate H; destruct st as [|[] st]; cbn; auto;
  now destruct (Hs st).
Qed.

Lemma fits_inner e e' st : (forall x, e <> ESpread x) -> (forall x, e' <> ESpread x) ->
  brace e = brace e' -> fits e st -> fits e' st.
Proof.
  intros H1 H2 Hb. destruct st as [|[] st]; cbn; destruct e'; auto;
  try (exfalso; eapply H2; reflexivity);
  destruct e; try (exfalso; eapply H1; reflexivity); cbn in Hb |- *; congruence.
Qed.

Lemma parse_tokens e : forall st rest, wfarg e = true -> fits e st ->
  xrun (XStart st) (tokens_of e ++ rest) = xrun (after e st) rest.
Proof.
  induction e using jsexp_ind'; intros st rest Hw Hf; cbn [tokens_of after].
  - change (negb (reserved s) = true) in Hw. cbn [app]. unfold xrun at 1. cbn [fold_left xstep].
    destruct (reserved s); [discriminate|reflexivity].
  - reflexivity.
  - reflexivity.
  - reflexivity.
  - cbn in Hw. apply andb_true_iff in Hw as [Hp Hw].
    rewrite <- app_assoc. rewrite IHe.
    + destruct e; try discriminate Hp; reflexivity.
    + now apply wf_wfarg.
    + eapply fits_inner; [| | |exact Hf]; try (intros x Hx; discriminate).
      * intros x ->; discriminate.
      * reflexivity.
  - cbn in Hw. apply andb_true_iff in Hw as [Hw Ha]. apply andb_true_iff in Hw as [Hp Hw].
    rewrite <- app_assoc. rewrite IHe.
    + rewrite <- app_comm_cons, <- app_assoc.
      assert (Hs : xrun (after e st) (TP "(" :: commas (map tokens_of args) ++ [TP ")"] ++ rest)
        = xrun (XStart (FCall e [] :: st)) (commas (map tokens_of args) ++ TP ")" :: rest)).
      { destruct e; try discriminate Hp; reflexivity. }
      rewrite Hs.
      rewrite (read_list (FCall e) (fun es => XHave (ECall e es) st) ")" st); auto.
      right. exists e. auto.
    + now apply wf_wfarg.
    + eapply fits_inner; [| | |exact Hf]; try (intros x Hx; discriminate).
      * intros x ->; discriminate.
      * reflexivity.
  - cbn in Hw. rewrite <- app_comm_cons, <- app_assoc.
    change (xrun (XStart (FArr [] :: st)) (commas (map tokens_of es) ++ TP "]" :: rest)
            = xrun (XHave (EArr es) st) rest).
    rewrite (read_list FArr (fun es => XHave (EArr es) st) "]" st); auto.
  - cbn in Hw. rewrite <- app_comm_cons, <- app_assoc.
    change ps with ([] ++ ps) at 2.
    rewrite <- (read_props st ps H Hw [] rest) by now right.
    destruct st as [|[] st]; try reflexivity. discriminate Hf.
  - cbn in Hw. apply andb_true_iff in Hw as [Hw Hb].
    rewrite <- !app_comm_cons.
    change (xrun (XStart (FArrow :: st)) (tokens_of e ++ rest) = xrun (after e (FArrow :: st)) rest).
    apply IHe; [now apply wf_wfarg|]. cbn. now destruct e, (brace _).
  - cbn in Hw. rewrite <- app_comm_cons.
    assert (Hs : xrun (XStart st) (TDots :: tokens_of e ++ rest)
                 = xrun (XStart (FSpread :: st)) (tokens_of e ++ rest)).
    { destruct st as [|[] st]; try now destruct Hf. all: try reflexivity. }
    rewrite Hs. apply IHe; [now apply wf_wfarg|]. now apply wf_fits.
Qed.

Theorem parse_complete e : wf e = true -> parse (tokens_of e) = Some e.
Proof.
  intros H. unfold parse. rewrite <- (app_nil_r (tokens_of e)).
  rewrite parse_tokens; [|now apply wf_wfarg|now apply wf_fits].
  change (xresult (after e []) = Some e).
  assert (Hg : forall e st,
     xresult (after e st) = match settle e st with (e, []) => Some e | _ => None end).
  { clear. intros e. induction e using jsexp_ind'; intros st; try reflexivity; apply IHe. }
  rewrite Hg. reflexivity.
Qed.
