(** A parser for TypeScript programs of the kind the prelude is.

    Specification side: a subset of ECMA-262 and of the TypeScript grammar; what is not known is an error.
    Types are read and dropped.  Statements end with a semicolon (none is inserted); the places where a line
    terminator matters (after [return], before [++], [=>] and [as]) are checked.  [>] is one token, as in
    TypeScript's scanner, and [>=] is [>] followed by [=]. *)
From Coq Require Import List String Ascii Bool NArith.
From Verif Require Import JsLex JsModule.
Import ListNotations.
Local Open Scope string_scope.
Local Open Scope list_scope.

(** ** Tokens: those of JsLex.v and longer operators *)
Inductive wtok :=
| WT (t : tok)
| WO (s : string).               (* == === !== && || ++ += *)

Inductive wmode :=
| WM (m : mode)
| WEqual                         (* == has been read *)
| WNot                           (* ! has been read *)
| WNotEqual                      (* != has been read *)
| WPlus.                         (* + has been read *)

Definition wstart (c : ascii) : wmode * list wtok :=
  if Ascii.eqb c "!" then (WNot, [])
  else if Ascii.eqb c "+" then (WPlus, [])
  else if Ascii.eqb c "*" then (WM M0, [WT (TP c)])
  else let (m, ts) := start c in (WM m, map WT ts).
Definition wnext (t : wtok) (c : ascii) : wmode * list wtok :=
  let (m, ts) := wstart c in (m, t :: ts).

Definition wstep (m : wmode) (c : ascii) : wmode * list wtok :=
  match m with
  | WM (MOp o) =>
      if Ascii.eqb o "=" && Ascii.eqb c "=" then (WEqual, [])
      else if Ascii.eqb o "&" && Ascii.eqb c "&" then (WM M0, [WO "&&"])
      else if Ascii.eqb o "|" && Ascii.eqb c "|" then (WM M0, [WO "||"])
      else let (m, ts) := step (MOp o) c in (WM m, map WT ts)
  | WM M0 => wstart c
  | WM (MId w) => if id_char c then (WM (MId (w ++ String c "")), []) else wnext (WT (TId w)) c
  | WM m => let (m, ts) := step m c in (WM m, map WT ts)
  | WEqual => if Ascii.eqb c "=" then (WM M0, [WO "==="]) else if op c || punct c && Ascii.eqb c ">" then (WM MErr, []) else wnext (WO "==") c
  | WNot =>
      if Ascii.eqb c "=" then (WNotEqual, [])
      else wnext (WT (TP "!")) c
  | WNotEqual => if Ascii.eqb c "=" then (WM M0, [WO "!=="]) else (WM MErr, [])
  | WPlus =>
      if Ascii.eqb c "+" then (WM M0, [WO "++"])
      else if Ascii.eqb c "=" then (WM M0, [WO "+="])
      else wnext (WT (TP "+")) c
  end%string.

Definition wfinish (m : wmode) : option (list wtok) :=
  match m with
  | WM m => option_map (map WT) (finish m)
  | _ => None
  end.

Notation wftok := (bool * wtok)%type (only parsing).
Definition wflag (nl : bool) (ts : list wtok) : list wftok :=
  match ts with
  | [] => []
  | t :: r => (nl, t) :: map (pair false) r
  end.
(** [nl]: a line terminator was read since the last token. *)
Fixpoint wflexm (m : wmode) (nl : bool) (s : string) : wmode * bool * list wftok :=
  match s with
  | EmptyString => (m, nl, [])
  | String c r =>
      let (m1, t1) := wstep m c in
      let '(m2, nl2, t2) := wflexm m1 (newline c || match t1 with [] => nl | _ => false end) r in
      (m2, nl2, wflag nl t1 ++ t2)
  end.
Definition wflex (s : string) : option (list wftok) :=
  let '(m, nl, ts) := wflexm (WM M0) false s in
  match wfinish m with
  | Some r => Some (ts ++ wflag nl r)
  | None => None
  end.

(** ** Syntax *)
Inductive binop := BEq | BStrict | BNotStrict | BGe | BGt | BSub | BIn.

(** Binding patterns: a name, [[a, b]], [{ a, b }]. *)
Inductive pat := PId (x : string) | PArr (xs : list string) | PObj (xs : list string).
Definition binds (p : pat) : list string := match p with PId x => [x] | PArr xs | PObj xs => xs end.

Inductive exp :=
| XId (x : string)
| XNum (n : N)
| XStr (s : string)
| XArr (es : list (bool * exp))                 (* true: spread *)
| XObj (ps : list (string * exp))               (* [{ a }] is [{ a: a }], a method is a function *)
| XFun (async : bool) (ps : list pat) (body : list stm)
| XCall (f : exp) (args : list exp)
| XNew (f : exp) (args : list exp)
| XMember (e : exp) (p : string)
| XIndex (e i : exp)
| XNot (e : exp)
| XBin (o : binop) (a b : exp)
| XAnd (a b : exp)
| XOr (a b : exp)
| XCond (c a b : exp)
| XAssign (x : string) (e : exp)
| XSet (o : exp) (p : string) (e : exp)
| XAdd (x : string) (e : exp)                   (* x += e *)
| XInc (x : string)                             (* x++ *)
with stm :=
| YVar (const : bool) (x : string) (e : option exp)
| YFun (x : string) (async : bool) (ps : list pat) (body : list stm)
| YIf (c : exp) (a b : list stm)
| YRet (e : option exp)
| YExp (e : exp).

(** At the top of a module. *)
Inductive top :=
| ZImport (x from : string)                     (* import * as x from ".." *)
| ZType (x : string)
| ZStm (export : bool) (s : stm).

(** ** The parser *)
Definition res (A : Type) : Type := option (A * list wftok).

Definition is_p (c : ascii) (t : wtok) : bool := match t with WT (TP d) => Ascii.eqb c d | _ => false end.
Definition is_w (w : string) (t : wtok) : bool := match t with WT (TId v) => String.eqb w v | _ => false end.
Definition is_o (w : string) (t : wtok) : bool := match t with WO v => String.eqb w v | _ => false end.
Definition is_arrow (t : wtok) : bool := match t with WT TArrow => true | _ => false end.

(** The next token is such a one; it is dropped. *)
Definition eat (f : wtok -> bool) (ts : list wftok) : option (list wftok) :=
  match ts with
  | (_, t) :: r => if f t then Some r else None
  | [] => None
  end.
(** The same, on the same line. *)
Definition eat_here (f : wtok -> bool) (ts : list wftok) : option (list wftok) :=
  match ts with
  | (false, t) :: r => if f t then Some r else None
  | _ => None
  end.
Definition at_ (f : wtok -> bool) (ts : list wftok) : bool := match eat f ts with Some _ => true | None => false end.

Notation "'do' x <- a ; b" := (match a with Some x => b | None => None end) (at level 200, x pattern, a at level 100, b at level 200).

(** A name that may be bound or used. *)
Definition name (ts : list wftok) : res string :=
  match ts with
  | (_, WT (TId x)) :: r => if binding x then Some (x, r) else None
  | _ => None
  end.
(** A property name. *)
Definition prop_name (ts : list wftok) : res string :=
  match ts with
  | (_, WT (TId x)) :: r => Some (x, r)
  | _ => None
  end.

(** *** Types, read and dropped *)
(** [][] .. *)
Fixpoint parrays (n : nat) (ts : list wftok) : option (list wftok) :=
  match n with
  | O => None
  | S n => match eat_here (is_p "[") ts with Some r => do r <- eat (is_p "]") r; parrays n r | None => Some ts end
  end.
(** Names after an opening bracket. *)
Fixpoint pnames (n : nat) (ts : list wftok) : option (list wftok) :=
  match n with
  | O => None
  | S n =>
      match name ts with
      | Some (_, r) => match eat (is_p ",") r with Some r => pnames n r | None => eat (is_p "]") r end
      | None => None
      end
  end.

Fixpoint ptype (n : nat) (ts : list wftok) : option (list wftok) :=
  match n with
  | O => None
  | S n =>
      match ptype1 n ts with
      | Some r => match eat (is_p "|") r with Some r => ptype n r | None => Some r end
      | None => None
      end
  end
(** Without a union at the top, or a function type. *)
with ptype1 (n : nat) (ts : list wftok) : option (list wftok) :=
  match n with
  | O => None
  | S n =>
      match ts with
      | (_, WT (TId _)) :: r =>
          do r <- (match eat (is_p "<") r with
                   | Some r => do r <- ptypes n r; eat (is_p ">") r
                   | None => Some r
                   end);
          parrays n r
      | (_, t) :: r =>
          if is_p "[" t then do r <- ptypes n r; do r <- eat (is_p "]") r; parrays n r
          else if is_p "{" t then pmembers n r
          else if is_p "(" t then do r <- psig n r; do r <- eat is_arrow r; ptype n r
          else None
      | [] => None
      end
  end
with ptypes (n : nat) (ts : list wftok) : option (list wftok) :=
  match n with
  | O => None
  | S n => do r <- ptype n ts; match eat (is_p ",") r with Some r => ptypes n r | None => Some r end
  end
(** The parameters of a function type after the opening parenthesis. *)
with psig (n : nat) (ts : list wftok) : option (list wftok) :=
  match n with
  | O => None
  | S n =>
      match eat (is_p ")") ts with
      | Some r => Some r
      | None =>
          do r <- (match eat (is_p "[") ts with
                   | Some r => pnames n r
                   | None => match name ts with Some (_, r) => Some r | None => None end
                   end);
          do r <- eat (is_p ":") r; do r <- ptype n r;
          match eat (is_p ",") r with Some r => psig n r | None => eat (is_p ")") r end
      end
  end
(** The members of an object type after the opening brace; each ends with a semicolon. *)
with pmembers (n : nat) (ts : list wftok) : option (list wftok) :=
  match n with
  | O => None
  | S n =>
      match eat (is_p "}") ts with
      | Some r => Some r
      | None =>
          match prop_name ts with
          | Some (_, r) =>
              do r <- (match eat (is_p "(") r with Some r => psig n r | None => Some r end);
              do r <- eat (is_p ":") r; do r <- ptype n r; do r <- eat (is_p ";") r; pmembers n r
          | None => None
          end
      end
  end.

(** [: type], if there is one *)
Definition pannot (n : nat) (ts : list wftok) : option (list wftok) :=
  match eat (is_p ":") ts with Some r => ptype n r | None => Some ts end.
(** [<T>], if there is one *)
Definition pgeneric (ts : list wftok) : option (list wftok) :=
  match eat (is_p "<") ts with
  | Some r => match name r with Some (_, r) => eat (is_p ">") r | None => None end
  | None => Some ts
  end.

(** *** Patterns: after [[] or [{]; a comma may follow the last name *)
Fixpoint pattern (n : nat) (close : ascii) (ts : list wftok) : res (list string) :=
  match n with
  | O => None
  | S n =>
      match eat (is_p close) ts with
      | Some r => Some ([], r)
      | None =>
          do (x, r) <- name ts;
          match eat (is_p ",") r with
          | Some r => do (xs, r) <- pattern n close r; Some (x :: xs, r)
          | None => do r <- eat (is_p close) r; Some ([x], r)
          end
      end
  end.
Definition param (n : nat) (ts : list wftok) : res pat :=
  do (p, r) <-
    (match eat (is_p "[") ts, eat (is_p "{") ts with
     | Some r, _ => do (xs, r) <- pattern n "]" r; Some (PArr xs, r)
     | _, Some r => do (xs, r) <- pattern n "}" r; Some (PObj xs, r)
     | None, None => do (x, r) <- name ts; Some (PId x, r)
     end);
  do r <- pannot n r; Some (p, r).
(** Parameters after the opening parenthesis. *)
Fixpoint params (n : nat) (ts : list wftok) : res (list pat) :=
  match n with
  | O => None
  | S n =>
      match eat (is_p ")") ts with
      | Some r => Some ([], r)
      | None =>
          do (p, r) <- param n ts;
          match eat (is_p ",") r with
          | Some r => do (ps, r) <- params n r; Some (p :: ps, r)
          | None => do r <- eat (is_p ")") r; Some ([p], r)
          end
      end
  end.

(** The head of an arrow function. *)
Definition arrow_head (n : nat) (ts : list wftok) : res (list pat) :=
  match eat (is_p "(") ts with
  | Some r => do (ps, r) <- params n r; do r <- pannot n r; do r <- eat_here is_arrow r; Some (ps, r)
  | None => do (x, r) <- name ts; do r <- eat_here is_arrow r; Some ([PId x], r)
  end.

(** Relational and equality operators. *)
Definition relop (ts : list wftok) : res binop :=
  match eat (is_p ">") ts, eat (is_w "in") ts with
  | Some r, _ => match eat_here (is_p "=") r with Some r => Some (BGe, r) | None => Some (BGt, r) end
  | _, Some r => Some (BIn, r)
  | None, None => None
  end.
Definition eqop (ts : list wftok) : res binop :=
  match eat (is_o "==") ts, eat (is_o "===") ts, eat (is_o "!==") ts with
  | Some r, _, _ => Some (BEq, r)
  | _, Some r, _ => Some (BStrict, r)
  | _, _, Some r => Some (BNotStrict, r)
  | None, None, None => None
  end.

(** *** Expressions and statements *)
Fixpoint pexp (n : nat) (ts : list wftok) : res exp :=           (* AssignmentExpression *)
  match n with
  | O => None
  | S n =>
      match arrow_head n ts with
      | Some (ps, r) =>
          match eat (is_p "{") r with
          | Some r => do (b, r) <- pbody n r; Some (XFun false ps b, r)
          | None => do (e, r) <- pexp n r; Some (XFun false ps [YRet (Some e)], r)
          end
      | None =>
          do (c, r) <- por n ts;
          match eat (is_p "?") r with
          | Some r => do (a, r) <- pexp n r; do r <- eat (is_p ":") r; do (b, r) <- pexp n r; Some (XCond c a b, r)
          | None =>
              match eat (is_p "=") r, c with
              | Some r, XId x => do (e, r) <- pexp n r; Some (XAssign x e, r)
              | Some r, XMember o p => do (e, r) <- pexp n r; Some (XSet o p e, r)
              | Some _, _ => None
              | None, _ =>
                  match eat (is_o "+=") r, c with
                  | Some r, XId x => do (e, r) <- pexp n r; Some (XAdd x e, r)
                  | Some _, _ => None
                  | None, _ => Some (c, r)
                  end
              end
          end
      end
  end
with por (n : nat) (ts : list wftok) : res exp :=
  match n with
  | O => None
  | S n =>
      do (a, r) <- pand n ts;
      match eat (is_o "||") r with Some r => do (b, r) <- por n r; Some (XOr a b, r) | None => Some (a, r) end
  end
with pand (n : nat) (ts : list wftok) : res exp :=
  match n with
  | O => None
  | S n =>
      do (a, r) <- pequal n ts;
      match eat (is_o "&&") r with Some r => do (b, r) <- pand n r; Some (XAnd a b, r) | None => Some (a, r) end
  end
(** One comparison at most: they would be read from the left. *)
with pequal (n : nat) (ts : list wftok) : res exp :=
  match n with
  | O => None
  | S n =>
      do (a, r) <- prelation n ts;
      match eqop r with
      | Some (o, r) => do (b, r) <- prelation n r; match eqop r with Some _ => None | None => Some (XBin o a b, r) end
      | None => Some (a, r)
      end
  end
with prelation (n : nat) (ts : list wftok) : res exp :=
  match n with
  | O => None
  | S n =>
      do (a, r) <- psub n ts;
      match relop r with
      | Some (o, r) => do (b, r) <- psub n r; match relop r with Some _ => None | None => Some (XBin o a b, r) end
      | None => match eat_here (is_w "as") r with Some r => do r <- ptype n r; Some (a, r) | None => Some (a, r) end
      end
  end
with psub (n : nat) (ts : list wftok) : res exp :=
  match n with
  | O => None
  | S n =>
      do (a, r) <- punary n ts;
      match eat (is_p "-") r with
      | Some r => do (b, r) <- punary n r; if at_ (is_p "-") r then None else Some (XBin BSub a b, r)
      | None => Some (a, r)
      end
  end
with punary (n : nat) (ts : list wftok) : res exp :=
  match n with
  | O => None
  | S n =>
      match eat (is_p "!") ts with
      | Some r => do (e, r) <- punary n r; Some (XNot e, r)
      | None =>
          do (e, r) <- ppostfix n ts;
          match eat_here (is_o "++") r, e with
          | Some r, XId x => Some (XInc x, r)
          | Some _, _ => None
          | None, _ => Some (e, r)
          end
      end
  end
with ppostfix (n : nat) (ts : list wftok) : res exp :=
  match n with
  | O => None
  | S n =>
      do (e, r) <-
        (match eat (is_w "new") ts with
         | Some r =>
             do (f, r) <- name r;
             do r <- (match eat (is_p "<") r with
                      | Some r => do r <- ptypes n r; eat (is_p ">") r
                      | None => Some r
                      end);
             do r <- eat (is_p "(") r; do (a, r) <- pargs n r; Some (XNew (XId f) a, r)
         | None => pprimary n ts
         end);
      psuffix n e r
  end
with psuffix (n : nat) (e : exp) (ts : list wftok) : res exp :=
  match n with
  | O => None
  | S n =>
      match ts with
      | (_, t) :: r =>
          if is_p "." t then do (p, r) <- prop_name r; psuffix n (XMember e p) r
          else if is_p "(" t then do (a, r) <- pargs n r; psuffix n (XCall e a) r
          else if is_p "[" t then do (i, r) <- pexp n r; do r <- eat (is_p "]") r; psuffix n (XIndex e i) r
          else Some (e, ts)
      | [] => Some (e, ts)
      end
  end
with pargs (n : nat) (ts : list wftok) : res (list exp) :=
  match n with
  | O => None
  | S n =>
      match eat (is_p ")") ts with
      | Some r => Some ([], r)
      | None =>
          do (e, r) <- pexp n ts;
          match eat (is_p ",") r with
          | Some r => do (es, r) <- pargs n r; Some (e :: es, r)
          | None => do r <- eat (is_p ")") r; Some ([e], r)
          end
      end
  end
with pprimary (n : nat) (ts : list wftok) : res exp :=
  match n with
  | O => None
  | S n =>
      match ts with
      | (_, WT (TNum k)) :: r => Some (XNum k, r)
      | (_, WT (TStr s)) :: r => Some (XStr s, r)
      | (_, t) :: r =>
          if is_p "(" t then do (e, r) <- pexp n r; do r <- eat (is_p ")") r; Some (e, r)
          else if is_p "[" t then do (es, r) <- pelems n r; Some (XArr es, r)
          else if is_p "{" t then do (ps, r) <- pprops n r; Some (XObj ps, r)
          else do (x, r) <- name ts; Some (XId x, r)
      | [] => None
      end
  end
with pelems (n : nat) (ts : list wftok) : res (list (bool * exp)) :=
  match n with
  | O => None
  | S n =>
      match eat (is_p "]") ts with
      | Some r => Some ([], r)
      | None =>
          let '(sp, r) := match ts with (_, WT TDots) :: r => (true, r) | _ => (false, ts) end in
          do (e, r) <- pexp n r;
          match eat (is_p ",") r with
          | Some r => do (es, r) <- pelems n r; Some ((sp, e) :: es, r)
          | None => do r <- eat (is_p "]") r; Some ([(sp, e)], r)
          end
      end
  end
with pprops (n : nat) (ts : list wftok) : res (list (string * exp)) :=
  match n with
  | O => None
  | S n =>
      match eat (is_p "}") ts with
      | Some r => Some ([], r)
      | None =>
          do (x, r) <- prop_name ts;
          do (e, r) <-
            (match eat (is_p ":") r, eat (is_p "(") r with
             | Some r, _ => pexp n r
             | _, Some r =>
                 do (ps, r) <- params n r; do r <- pannot n r; do r <- eat (is_p "{") r; do (b, r) <- pbody n r;
                 Some (XFun false ps b, r)
             | None, None => do (y, _) <- name ts; Some (XId y, r)
             end);
          match eat (is_p ",") r with
          | Some r => do (ps, r) <- pprops n r; Some ((x, e) :: ps, r)
          | None => do r <- eat (is_p "}") r; Some ([(x, e)], r)
          end
      end
  end
(** Statements up to the closing brace. *)
with pbody (n : nat) (ts : list wftok) : res (list stm) :=
  match n with
  | O => None
  | S n =>
      match eat (is_p "}") ts with
      | Some r => Some ([], r)
      | None => do (s, r) <- pstm n ts; do (ss, r) <- pbody n r; Some (s :: ss, r)
      end
  end
with pstm (n : nat) (ts : list wftok) : res stm :=
  match n with
  | O => None
  | S n =>
      match ts with
      | (_, t) :: r =>
          if is_w "const" t then pvar n true r
          else if is_w "let" t then pvar n false r
          else if is_w "function" t then pfun n false r
          else if is_w "async" t && at_ (is_w "function") r then do r <- eat_here (is_w "function") r; pfun n true r
          else if is_w "if" t then
            do r <- eat (is_p "(") r; do (c, r) <- pexp n r; do r <- eat (is_p ")") r;
            do (a, r) <- pbranch n r;
            match eat (is_w "else") r with
            | Some r => do (b, r) <- pbranch n r; Some (YIf c a b, r)
            | None => Some (YIf c a [], r)
            end
          else if is_w "return" t then
            match eat (is_p ";") r, r with
            | Some r, _ => Some (YRet None, r)
            | None, (false, _) :: _ => do (e, r) <- pexp n r; do r <- eat (is_p ";") r; Some (YRet (Some e), r)
            | None, _ => None
            end
          else if is_p "{" t then None
          else do (e, r) <- pexp n ts; do r <- eat (is_p ";") r; Some (YExp e, r)
      | [] => None
      end
  end
(** A block, or one statement that is no declaration. *)
with pbranch (n : nat) (ts : list wftok) : res (list stm) :=
  match n with
  | O => None
  | S n =>
      match eat (is_p "{") ts with
      | Some r => pbody n r
      | None =>
          do (s, r) <- pstm n ts;
          match s with YVar _ _ _ | YFun _ _ _ _ => None | _ => Some ([s], r) end
      end
  end
with pvar (n : nat) (const : bool) (ts : list wftok) : res stm :=
  match n with
  | O => None
  | S n =>
      do (x, r) <- name ts; do r <- pannot n r;
      match eat (is_p "=") r with
      | Some r => do (e, r) <- pexp n r; do r <- eat (is_p ";") r; Some (YVar const x (Some e), r)
      | None => if const then None else do r <- eat (is_p ";") r; Some (YVar const x None, r)
      end
  end
with pfun (n : nat) (async : bool) (ts : list wftok) : res stm :=
  match n with
  | O => None
  | S n =>
      do (x, r) <- name ts; do r <- pgeneric r; do r <- eat (is_p "(") r;
      do (ps, r) <- params n r; do r <- pannot n r; do r <- eat (is_p "{") r;
      do (b, r) <- pbody n r; Some (YFun x async ps b, r)
  end.

(** *** Modules *)
Definition ptop (n : nat) (ts : list wftok) : res top :=
  match ts with
  | (_, t) :: r =>
      if is_w "import" t then
        do r <- eat (is_p "*") r; do r <- eat (is_w "as") r; do (x, r) <- name r; do r <- eat (is_w "from") r;
        match r with
        | (_, WT (TStr f)) :: r => do r <- eat (is_p ";") r; Some (ZImport x f, r)
        | _ => None
        end
      else if is_w "type" t then
        do (x, r) <- name r; do r <- pgeneric r; do r <- eat (is_p "=") r; do r <- ptype n r;
        do r <- eat (is_p ";") r; Some (ZType x, r)
      else if is_w "export" t then
        do (s, r) <- pstm n r;
        match s with YVar _ _ _ | YFun _ _ _ _ => Some (ZStm true s, r) | _ => None end
      else do (s, r) <- pstm n ts; Some (ZStm false s, r)
  | [] => None
  end.

Fixpoint ptops (n : nat) (ts : list wftok) : option (list top) :=
  match n, ts with
  | _, [] => Some []
  | O, _ => None
  | S n, _ => do (x, r) <- ptop n ts; do xs <- ptops n r; Some (x :: xs)
  end.

(** Enough fuel for any text of that many tokens. *)
Definition program_of_tokens (ts : list wftok) : option (list top) := ptops (20 * S (List.length ts)) ts.
Definition program (s : string) : option (list top) := do ts <- wflex s; program_of_tokens ts.
