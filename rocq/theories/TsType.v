(** A parser for the TypeScript types the generators write.

    Specification side: a subset of the type grammar of TypeScript - keyword types and
    references, qualified names, type arguments, string literal types, tuples, object types
    with optional members, parentheses, unions and intersections ([&] binds tighter, both
    associate to the left).  The grammar is [ytokens] restricted to [ywf]; the parser is a
    pushdown automaton that reads one token at a time. *)
From Coq Require Import List String Ascii Bool NArith.
From Verif Require Import JsLex JsParse.
Import ListNotations.
Local Open Scope string_scope.
Local Open Scope list_scope.

Inductive tsty :=
| YName (s : string)
| YRef (ns n : string)
| YStr (s : string)
| YTup (l : list tsty)
| YApp (f : string) (args : list tsty)
| YObj (ps : list (string * bool * tsty))     (* name, optional, type *)
| YParen (t : tsty)
| YUnion (a b : tsty)
| YInter (a b : tsty).

(** Words that cannot be the name of a type or namespace here: they start another kind of type. *)
Definition type_op (s : string) : bool :=
  existsb (String.eqb s) ["keyof"; "unique"; "readonly"; "infer"; "asserts"; "abstract"].
Definition plain_name (s : string) : bool := negb (reserved s) && negb (type_op s).
Definition type_name (s : string) : bool := String.eqb s "null" || plain_name s.

(** The grammar, read as a printer. *)
Fixpoint ytokens (y : tsty) : list tok :=
  match y with
  | YName s => [TId s]
  | YRef ns n => [TId ns; TP "."; TId n]
  | YStr s => [TStr s]
  | YTup l => TP "[" :: commas (map ytokens l) ++ [TP "]"]
  | YApp f l => TId f :: TP "<" :: commas (map ytokens l) ++ [TP ">"]
  | YObj ps =>
      TP "{" :: commas (map (fun p : string * bool * tsty => TId (fst (fst p)) ::
        (if snd (fst p) then [TP "?"; TP ":"] else [TP ":"]) ++ ytokens (snd p)) ps) ++ [TP "}"]
  | YParen t => TP "(" :: ytokens t ++ [TP ")"]
  | YUnion a b => ytokens a ++ TP "|" :: ytokens b
  | YInter a b => ytokens a ++ TP "&" :: ytokens b
  end.

Definition is_union (y : tsty) : bool := match y with YUnion _ _ => true | _ => false end.
Definition is_inter (y : tsty) : bool := match y with YInter _ _ => true | _ => false end.

Fixpoint ywf (y : tsty) : bool :=
  match y with
  | YName s => type_name s
  | YRef ns _ => plain_name ns
  | YStr _ => true
  | YTup l => forallb ywf l
  | YApp f l => plain_name f && match l with [] => false | _ => true end && forallb ywf l
  | YObj ps => forallb (fun p : string * bool * tsty => ywf (snd p)) ps
  | YParen t => ywf t
  | YUnion a b => ywf a && ywf b && negb (is_union b)
  | YInter a b => ywf a && ywf b && negb (is_union a) && negb (is_union b) && negb (is_inter b)
  end.

(** ** The parser *)
Inductive yframe :=
| GTup (d : list tsty)
| GApp (f : string) (d : list tsty)
| GObj (d : list (string * bool * tsty)) (k : string) (o : bool)
| GParen
| GUnion (l : tsty)
| GInter (l : tsty).

Inductive ystate :=
| YStart (st : list yframe)
| YHave (t : tsty) (st : list yframe)
| YDot (ns : string) (st : list yframe)
| YKey (d : list (string * bool * tsty)) (st : list yframe)
| YOpt (d : list (string * bool * tsty)) (k : string) (st : list yframe)
| YColon (d : list (string * bool * tsty)) (k : string) (st : list yframe)
| YErr.

Fixpoint settle_inter (t : tsty) (st : list yframe) : tsty * list yframe :=
  match st with
  | GInter l :: st => settle_inter (YInter l t) st
  | _ => (t, st)
  end.
Fixpoint settle_union (t : tsty) (st : list yframe) : tsty * list yframe :=
  match st with
  | GInter l :: st => settle_union (YInter l t) st
  | GUnion l :: st => settle_union (YUnion l t) st
  | _ => (t, st)
  end.

Definition ydelim (c : ascii) (t : tsty) (st : list yframe) : ystate :=
  let (t, st) := settle_union t st in
  match st with
  | GTup d :: st =>
      if Ascii.eqb c "," then YStart (GTup (d ++ [t]) :: st)
      else if Ascii.eqb c "]" then YHave (YTup (d ++ [t])) st else YErr
  | GApp f d :: st =>
      if Ascii.eqb c "," then YStart (GApp f (d ++ [t]) :: st)
      else if Ascii.eqb c ">" then YHave (YApp f (d ++ [t])) st else YErr
  | GObj d k o :: st =>
      if Ascii.eqb c "," then YKey (d ++ [(k, o, t)]) st
      else if Ascii.eqb c "}" then YHave (YObj (d ++ [(k, o, t)])) st else YErr
  | GParen :: st => if Ascii.eqb c ")" then YHave (YParen t) st else YErr
  | _ => YErr
  end.

Definition ystep (s : ystate) (t : tok) : ystate :=
  match s with
  | YStart st =>
      match t with
      | TId w => if type_name w then YHave (YName w) st else YErr
      | TStr w => YHave (YStr w) st
      | TP c =>
          if Ascii.eqb c "[" then YStart (GTup [] :: st)
          else if Ascii.eqb c "{" then YKey [] st
          else if Ascii.eqb c "(" then YStart (GParen :: st)
          else if Ascii.eqb c "]" then
            match st with GTup [] :: st => YHave (YTup []) st | _ => YErr end
          else YErr
      | _ => YErr
      end
  | YHave y st =>
      match t with
      | TP c =>
          if Ascii.eqb c "." then
            match y with YName n => if plain_name n then YDot n st else YErr | _ => YErr end
          else if Ascii.eqb c "<" then
            match y with YName n => if plain_name n then YStart (GApp n [] :: st) else YErr | _ => YErr end
          else if Ascii.eqb c "|" then let (y, st) := settle_union y st in YStart (GUnion y :: st)
          else if Ascii.eqb c "&" then let (y, st) := settle_inter y st in YStart (GInter y :: st)
          else ydelim c y st
      | _ => YErr
      end
  | YDot ns st => match t with TId n => YHave (YRef ns n) st | _ => YErr end
  | YKey d st =>
      match t with
      | TId k => YOpt d k st
      | TP c =>
          if Ascii.eqb c "}" then match d with [] => YHave (YObj []) st | _ => YErr end else YErr
      | _ => YErr
      end
  | YOpt d k st =>
      match t with
      | TP c =>
          if Ascii.eqb c ":" then YStart (GObj d k false :: st)
          else if Ascii.eqb c "?" then YColon d k st else YErr
      | _ => YErr
      end
  | YColon d k st =>
      match t with
      | TP c => if Ascii.eqb c ":" then YStart (GObj d k true :: st) else YErr
      | _ => YErr
      end
  | YErr => YErr
  end.

Definition yrun (s : ystate) (ts : list tok) : ystate := fold_left ystep ts s.

Definition yresult (s : ystate) : option tsty :=
  match s with
  | YHave y st => match settle_union y st with (y, []) => Some y | _ => None end
  | _ => None
  end.

Definition yparse (ts : list tok) : option tsty := yresult (yrun (YStart []) ts).

(** The type a text denotes. *)
Definition ts_parse (s : string) : option tsty :=
  match lex s with Some ts => yparse ts | None => None end.

(** ** The parser inverts the grammar *)
Fixpoint tsty_ind' (P : tsty -> Prop)
  (H1 : forall s, P (YName s)) (H2 : forall ns n, P (YRef ns n)) (H3 : forall s, P (YStr s))
  (H4 : forall l, Forall P l -> P (YTup l)) (H5 : forall f l, Forall P l -> P (YApp f l))
  (H6 : forall ps, Forall (fun p => P (snd p)) ps -> P (YObj ps))
  (H7 : forall t, P t -> P (YParen t)) (H8 : forall a b, P a -> P b -> P (YUnion a b))
  (H9 : forall a b, P a -> P b -> P (YInter a b)) (y : tsty) {struct y} : P y :=
  let rec := tsty_ind' P H1 H2 H3 H4 H5 H6 H7 H8 H9 in
  let go := fix go l : Forall P l :=
    match l with [] => Forall_nil _ | x :: r => Forall_cons _ (rec x) (go r) end in
  match y with
  | YName s => H1 s
  | YRef ns n => H2 ns n
  | YStr s => H3 s
  | YTup l => H4 l (go l)
  | YApp f l => H5 f l (go l)
  | YObj ps => H6 ps ((fix gop l : Forall (fun p => P (snd p)) l :=
      match l with [] => Forall_nil _ | x :: r => Forall_cons _ (rec (snd x)) (gop r) end) ps)
  | YParen t => H7 t (rec t)
  | YUnion a b => H8 a b (rec a) (rec b)
  | YInter a b => H9 a b (rec a) (rec b)
  end.

(** The state after reading [y] where a type was expected. *)
Fixpoint yafter (y : tsty) (st : list yframe) : ystate :=
  match y with
  | YUnion a b => yafter b (GUnion a :: st)
  | YInter a b => yafter b (GInter a :: st)
  | _ => YHave y st
  end.

Definition yfits (y : tsty) (st : list yframe) : Prop :=
  match st with
  | GInter _ :: _ => is_union y = false /\ is_inter y = false
  | GUnion _ :: _ => is_union y = false
  | _ => True
  end.

Lemma yrun_app s a b : yrun s (a ++ b) = yrun (yrun s a) b.
Proof. apply fold_left_app. Qed.

Lemma yrun_cons s t ts : yrun s (t :: ts) = yrun (ystep s t) ts.
Proof. reflexivity. Qed.

Definition yclosing (c : ascii) : Prop := In c [","; "]"; ")"; "}"; ">"]%char.

Lemma yafter_delim y : forall st c, yclosing c -> ystep (yafter y st) (TP c) = ydelim c y st.
Proof.
  induction y using tsty_ind'; intros st c Hc; cbn [yafter];
    try (destruct Hc as [<-|[<-|[<-|[<-|[<-|[]]]]]]; reflexivity).
  - rewrite IHy2 by exact Hc. reflexivity.
  - rewrite IHy2 by exact Hc. reflexivity.
Qed.

Lemma yafter_bar y : forall st, ystep (yafter y st) (TP "|") =
  let (y, st) := settle_union y st in YStart (GUnion y :: st).
Proof.
  induction y using tsty_ind'; intros st; cbn [yafter]; try reflexivity.
  - rewrite IHy2. reflexivity.
  - rewrite IHy2. reflexivity.
Qed.

Lemma yafter_amp y : is_union y = false -> ywf y = true -> forall st, ystep (yafter y st) (TP "&") =
  let (y, st) := settle_inter y st in YStart (GInter y :: st).
Proof.
  induction y using tsty_ind'; intros Hu Hw st; cbn [yafter]; try reflexivity; [discriminate|].
  cbn in Hw. repeat (apply andb_true_iff in Hw as [Hw ?]). rewrite IHy2; auto.
  - now apply negb_true_iff.
Qed.

Lemma ydelim_settled c y st : yfits (YUnion y y) st ->
  ydelim c y st = match st with
  | GTup d :: st =>
      if Ascii.eqb c "," then YStart (GTup (d ++ [y]) :: st)
      else if Ascii.eqb c "]" then YHave (YTup (d ++ [y])) st else YErr
  | GApp f d :: st =>
      if Ascii.eqb c "," then YStart (GApp f (d ++ [y]) :: st)
      else if Ascii.eqb c ">" then YHave (YApp f (d ++ [y])) st else YErr
  | GObj d k o :: st =>
      if Ascii.eqb c "," then YKey (d ++ [(k, o, y)]) st
      else if Ascii.eqb c "}" then YHave (YObj (d ++ [(k, o, y)])) st else YErr
  | GParen :: st => if Ascii.eqb c ")" then YHave (YParen y) st else YErr
  | _ => YErr
  end.
Proof. destruct st as [|[] st]; cbn; try reflexivity; try discriminate. now intros [? _]. Qed.

Definition reads (y : tsty) : Prop := forall st rest, ywf y = true -> yfits y st ->
  yrun (YStart st) (ytokens y ++ rest) = yrun (yafter y st) rest.

Lemma yread_list (mk : list tsty -> yframe) (fin : list tsty -> ystate) (cl : ascii) st :
  (mk = GTup /\ cl = "]"%char /\ fin = (fun es => YHave (YTup es) st) \/
   exists f, mk = GApp f /\ cl = ">"%char /\ fin = (fun es => YHave (YApp f es) st)) ->
  forall es, Forall reads es -> forallb ywf es = true ->
  forall d rest, (es <> [] \/ d = [] /\ mk = GTup) ->
  yrun (YStart (mk d :: st)) (commas (map ytokens es) ++ TP cl :: rest) = yrun (fin (d ++ es)) rest.
Proof.
  intros Hmk es Hes. induction Hes as [|e es He Hes IH]; intros Hw d rest Hd.
  - destruct Hd as [Hd|[-> Hd]]; [easy|].
    destruct Hmk as [(-> & -> & ->)|(f & -> & -> & ->)]; [reflexivity|].
    exfalso. assert (H := f_equal (fun m => m []) Hd). discriminate H.
  - cbn [forallb] in Hw. apply andb_true_iff in Hw as [Hwe Hw].
    assert (Hf : forall y, yfits y (mk d :: st)).
    { intros y. destruct Hmk as [(-> & _)|(f & -> & _)]; exact I. }
    destruct es as [|e2 es].
    + cbn [map commas]. rewrite He by auto. rewrite yrun_cons, yafter_delim.
      * rewrite ydelim_settled by apply Hf.
        destruct Hmk as [(-> & -> & ->)|(f & -> & -> & ->)]; reflexivity.
      * destruct Hmk as [(-> & -> & ->)|(f & -> & -> & ->)]; unfold yclosing; simpl; tauto.
    + cbn [map]. rewrite commas_cons by easy. rewrite <- app_assoc, <- app_comm_cons.
      rewrite He by auto. rewrite yrun_cons, yafter_delim by now left. rewrite ydelim_settled by apply Hf.
      replace (d ++ e :: e2 :: es) with ((d ++ [e]) ++ e2 :: es) by now rewrite <- app_assoc.
      rewrite <- (IH Hw (d ++ [e]) rest) by (left; easy).
      destruct Hmk as [(-> & -> & ->)|(f & -> & -> & ->)]; reflexivity.
Qed.

Definition ptokens (p : string * bool * tsty) : list tok :=
  TId (fst (fst p)) :: (if snd (fst p) then [TP "?"; TP ":"] else [TP ":"]) ++ ytokens (snd p).

Lemma yread_prop d p st rest : yrun (YKey d st) (ptokens p ++ rest) =
  yrun (YStart (GObj d (fst (fst p)) (snd (fst p)) :: st)) (ytokens (snd p) ++ rest).
Proof. destruct p as [[k []] y]; reflexivity. Qed.

Lemma yread_props st ps : Forall (fun p => reads (snd p)) ps ->
  forallb (fun p : string * bool * tsty => ywf (snd p)) ps = true ->
  forall d rest, (ps <> [] \/ d = []) ->
  yrun (YKey d st) (commas (map ptokens ps) ++ TP "}" :: rest) = yrun (YHave (YObj (d ++ ps)) st) rest.
Proof.
  intros Hps. induction Hps as [|p ps He Hps IH]; intros Hw d rest Hd.
  - destruct Hd as [Hd| ->]; [easy|]. reflexivity.
  - cbn [forallb] in *. apply andb_true_iff in Hw as [Hwe Hw].
    assert (Ep : p = (fst (fst p), snd (fst p), snd p)) by now destruct p as [[]].
    destruct ps as [|p2 ps].
    + cbn [map commas]. rewrite yread_prop, He by (auto; exact I). rewrite yrun_cons, yafter_delim by (unfold yclosing; simpl; tauto).
      rewrite ydelim_settled by exact I. cbn. now rewrite <- Ep.
    + cbn [map]. rewrite commas_cons by easy. rewrite <- app_assoc, <- app_comm_cons.
      rewrite yread_prop, He by (auto; exact I). rewrite yrun_cons, yafter_delim by now left.
      rewrite ydelim_settled by exact I. cbn [Ascii.eqb Bool.eqb].
      replace (d ++ p :: p2 :: ps) with ((d ++ [p]) ++ p2 :: ps) by now rewrite <- app_assoc.
      rewrite <- (IH Hw (d ++ [p]) rest) by (left; easy). rewrite <- Ep. reflexivity.
Qed.

Lemma plain_type s : plain_name s = true -> type_name s = true.
Proof. unfold type_name. intros ->. apply orb_true_r. Qed.

Lemma yparse_tokens y : reads y.
Proof.
  induction y using tsty_ind'; intros st rest Hw Hf; cbn [ytokens yafter].
  - cbn in Hw. cbn [app]. rewrite yrun_cons. cbn [ystep]. now rewrite Hw.
  - cbn in Hw. cbn [app]. rewrite yrun_cons. cbn [ystep]. rewrite (plain_type _ Hw). rewrite yrun_cons. cbn.
    now rewrite Hw.
  - reflexivity.
  - cbn in Hw. rewrite <- app_comm_cons, <- app_assoc.
    change (yrun (YStart (GTup [] :: st)) (commas (map ytokens l) ++ TP "]" :: rest) = yrun (YHave (YTup l) st) rest).
    rewrite (yread_list GTup (fun es => YHave (YTup es) st) "]" st); auto.
  - cbn in Hw. apply andb_true_iff in Hw as [Hw Hl]. apply andb_true_iff in Hw as [Hw Hne].
    rewrite <- !app_comm_cons, <- app_assoc. rewrite yrun_cons. cbn [ystep]. rewrite (plain_type _ Hw). rewrite yrun_cons.
    cbn [ystep Ascii.eqb Bool.eqb]. rewrite Hw. change ([TP ">"%char] ++ rest) with (TP ">"%char :: rest).
    rewrite (yread_list (GApp f) (fun es => YHave (YApp f es) st) ">" st); auto.
    + right. exists f. auto.
    + left. destruct l; [discriminate|easy].
  - cbn in Hw. rewrite <- app_comm_cons, <- app_assoc. change ps with ([] ++ ps) at 2.
    rewrite <- (yread_props st ps H Hw [] rest) by now right. reflexivity.
  - cbn in Hw. rewrite <- app_comm_cons, <- app_assoc. rewrite yrun_cons. cbn [ystep Ascii.eqb Bool.eqb].
    rewrite IHy by (auto; exact I). cbn [app]. rewrite yrun_cons, yafter_delim by (unfold yclosing; simpl; tauto).
    rewrite ydelim_settled by exact I. reflexivity.
  - cbn in Hw. apply andb_true_iff in Hw as [Hw Hb]. apply andb_true_iff in Hw as [Hw1 Hw2]. apply negb_true_iff in Hb.
    assert (Hst : settle_union y1 st = (y1, st) /\ yfits y1 st).
    { destruct st as [|[] st]; cbn in Hf |- *; auto; try discriminate Hf. now destruct Hf. }
    destruct Hst as [Hst Hf1]. rewrite <- app_assoc, IHy1, <- app_comm_cons, yrun_cons, yafter_bar, Hst; auto.
  - cbn in Hw. apply andb_true_iff in Hw as [Hw Hbi]. apply andb_true_iff in Hw as [Hw Hbu].
    apply andb_true_iff in Hw as [Hw Hau]. apply andb_true_iff in Hw as [Hw1 Hw2].
    apply negb_true_iff in Hbi, Hbu, Hau.
    assert (Hst : settle_inter y1 st = (y1, st) /\ yfits y1 st).
    { destruct st as [|[] st]; cbn in Hf |- *; auto. now destruct Hf. }
    destruct Hst as [Hst Hf1]. rewrite <- app_assoc, IHy1, <- app_comm_cons, yrun_cons, yafter_amp, Hst; auto.
    apply IHy2; [exact Hw2|]. cbn. auto.
Qed.

Theorem yparse_complete y : ywf y = true -> yparse (ytokens y) = Some y.
Proof.
  intros H. unfold yparse. rewrite <- (app_nil_r (ytokens y)). rewrite yparse_tokens by (auto; exact I).
  change (yresult (yafter y []) = Some y).
  assert (Hg : forall y st, yresult (yafter y st) = match settle_union y st with (y, []) => Some y | _ => None end).
  { clear. intros y. induction y using tsty_ind'; intros st; try reflexivity; apply IHy2. }
  rewrite Hg. reflexivity.
Qed.

Lemma ytokens_unique y y' : ywf y = true -> ywf y' = true -> ytokens y = ytokens y' -> y = y'.
Proof.
  intros H H' Heq. apply yparse_complete in H, H'. rewrite Heq, H' in H. now injection H.
Qed.
