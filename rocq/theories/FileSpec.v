(** The whole file: the client, followed by the namespaces. *)
From Coq Require Import List String Ascii Bool NArith.
From Verif Require Import JsLex JsModule TsProgram ScopeSpec RustTy Registry.
Import ListNotations.
Local Open Scope string_scope.
Local Open Scope list_scope.

(** ** Names of a program *)
Definition declared (ss : list stm) : list string :=
  flat_map (fun s => match s with YVar _ x _ | YFun x _ _ _ => [x] | _ => [] end) ss.
Definition without (xs l : list string) : list string := filter (fun x => negb (member_of x xs)) l.

(** The names that are read or assigned and not declared inside. *)
Fixpoint efree (e : exp) : list string :=
  match e with
  | XId x | XInc x => [x]
  | XNum _ | XStr _ => []
  | XArr es => flat_map (fun p => efree (snd p)) es
  | XObj ps => flat_map (fun p => efree (snd p)) ps
  | XFun _ ps b => without (flat_map binds ps ++ declared b) (flat_map sfree b)
  | XCall f args | XNew f args => efree f ++ flat_map efree args
  | XMember e _ | XNot e => efree e
  | XIndex a b | XBin _ a b | XAnd a b | XOr a b => efree a ++ efree b
  | XCond c a b => efree c ++ efree a ++ efree b
  | XAssign x e | XAdd x e => x :: efree e
  | XSet o _ e => efree o ++ efree e
  end
with sfree (s : stm) : list string :=
  match s with
  | YVar _ _ e => match e with Some e => efree e | None => [] end
  | YFun _ _ ps b => without (flat_map binds ps ++ declared b) (flat_map sfree b)
  | YIf c a b => efree c ++ without (declared a) (flat_map sfree a) ++ without (declared b) (flat_map sfree b)
  | YRet e => match e with Some e => efree e | None => [] end
  | YExp e => efree e
  end.

Definition top_values (P : list top) : list string :=
  flat_map (fun t => match t with ZImport x _ => [x] | ZType _ => [] | ZStm _ s => declared [s] end) P.
Definition top_types (P : list top) : list string := flat_map (fun t => match t with ZType x => [x] | _ => [] end) P.
Definition top_exports (P : list top) : list string :=
  flat_map (fun t => match t with ZStm true s => declared [s] | _ => [] end) P.
Definition top_free (P : list top) : list string :=
  without (top_values P) (flat_map (fun t => match t with ZStm _ s => sfree s | _ => [] end) P).

(** ** The file *)
Definition embed (t : bool * tok) : bool * wtok := (fst t, WT (snd t)).
Definition opens_space (ts : list (bool * wtok)) : bool :=
  match ts with
  | (_, a) :: (_, b) :: _ => is_w "export" a && is_w "namespace" b
  | _ => false
  end.

(** The text [s] is the program [P] and after it the namespaces [m]; the first [export namespace] is where
    the namespaces start. *)
Definition ts_file (s : string) (P : list top) (m : list nsblock) : Prop :=
  exists a b, wflex s = Some (a ++ map embed b) /\
    (forall x y, a = x ++ y -> y <> [] -> opens_space (y ++ map embed b) = false) /\
    program_of_tokens a = Some P /\ module_of_tokens b m.

(** What a name means at the top of the file: a declaration of the program, a namespace, or nothing in the file. *)
Inductive owner := OProgram | OSpace (b : nsblock) | OHost.
Definition file_sees (P : list top) (m : list nsblock) (x : string) : owner :=
  if member_of x (top_values P) then OProgram
  else match block m x with Some b => OSpace b | None => OHost end.

(** ** The websocket client *)
Definition client_values : list string :=
  ["z"; "WS_ADDR"; "reopenTimeouts"; "websocketStore"; "CONNECTION"; "req_id"; "execute"; "subscribe"; "request"].
Definition host_values : list string :=
  ["undefined"; "Set"; "clearTimeout"; "setTimeout"; "console"; "WebSocket"; "JSON"; "Promise"; "performance"].

(** No namespace is called like something the client declares or uses. *)
Definition leaves_client (names : list string) : Prop :=
  forall ns, In ns names -> ~ In ns client_values /\ ~ In ns host_values.
